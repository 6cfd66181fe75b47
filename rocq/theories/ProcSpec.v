(** Observable behaviour of two-party runs. *)
From Verif Require Import Base ProcModel.
Local Open Scope nat_scope.

(** [completes pa ta pb tb a b]: started together, the two parties always
    finish, whatever the schedule, with results [a] and [b] and no message left
    over: no schedule can run for ever, and none can get stuck elsewhere. *)
Definition completes {T RA RB} (pa : proc T RA) ta (pb : proc T RB) tb (a : RA) (b : RB) : Prop :=
  exists n ta' tb',
    steps n (start pa ta pb tb) (finished a ta' b tb') /\
    forall m d, steps m (start pa ta pb tb) d ->
      m <= n /\ steps (n - m) d (finished a ta' b tb').

(** [solo p t]: a process that never waits for the other party, run on tape
    [t]: the messages it sends, its result and the rest of the tape. [None] if
    it does wait. *)
Fixpoint solo {T R} (p : proc T R) (t : tape T) : option (list (msg T) * R * tape T) :=
  match p with
  | Ret r => Some ([], r, t)
  | Send m k => match solo k t with Some (ms, r, t') => Some (m :: ms, r, t') | None => None end
  | Recv _ => None
  | OtRecv _ _ _ => None
  | Rand k => solo (k (fst (t O)) (snd (t O))) (tape_tl t)
  end.

(** The process ends at once: no message, no random choice. *)
Definition returns {T R} (p : proc T R) (r : R) : Prop := p = Ret r.

(** One particular schedule, used in examples only: the first party runs as
    long as it can, then the second. *)
Fixpoint exec {T RA RB} (fuel : nat) (pa : proc T RA) (ta : tape T) (pb : proc T RB) (tb : tape T)
    (ab ba : list (msg T)) : option (RA * RB) :=
  match fuel with
  | O => None
  | S fuel' =>
      match pstep pa ta ba ab with
      | Some (pa', ta', ba', ab') => exec fuel' pa' ta' pb tb ab' ba'
      | None =>
          match pstep pb tb ab ba with
          | Some (pb', tb', ab', ba') => exec fuel' pa ta pb' tb' ab' ba'
          | None => match pa, pb with Ret a, Ret b => Some (a, b) | _, _ => None end
          end
      end
  end.

(** What the other party can notice of a process: the messages it sends, and
    how many oblivious transfers of which kind it receives (not its choices). *)
Inductive event {T} := Sent (m : msg T) | Chose (cot : bool) (number : nat).
Arguments event : clear implicits.

(** [trace p evs]: the events of [p] up to some point of some execution, against
    an arbitrary other party, whatever [p] receives, obtains from oblivious
    transfers and draws at random. *)
Inductive trace {T R} : proc T R -> list (event T) -> Prop :=
| trace_stop : forall p, trace p []
| trace_send : forall m k evs, trace k evs -> trace (Send m k) (Sent m :: evs)
| trace_recv : forall k m evs, trace (k m) evs -> trace (Recv k) evs
| trace_ot : forall cot choices k r evs, trace (k r) evs -> trace (OtRecv cot choices k) (Chose cot (List.length choices) :: evs)
| trace_rand : forall k x t evs, trace (k x t) evs -> trace (Rand k) evs.

(** The messages of oblivious transfers, which may travel on a connection of
    their own. *)
Definition is_ot {T} (m : msg T) : bool := match m with MOt _ _ => true | _ => false end.

Definition prefix {A} (l l' : list A) : Prop := exists rest, l ++ rest = l'.
