(** Two-party processes: how the protocols of /repo communicate.

    A protocol function of one party is a process: local computation, sending
    and receiving on the connection to the other party, oblivious transfer, and
    random choices.  The two parties run concurrently, connected by one FIFO
    queue per direction (mpc_utils::comm_channel and CommChannelEMPAdapter are
    reliable ordered byte streams; flush() only forces buffered bytes out).

    Oblivious transfer (emp::SHOTExtension send/recv, send_cot_ft/recv_cot) is
    ideal: the sender's pairs travel through the queue, the receiver only sees
    the chosen component of each pair.  Simplifications: a real OT extension
    also sends messages from receiver to sender, so the model allows the sender
    to run ahead where the real one would wait (TransportSpec.v lifts this and the
    single unbounded queue); raw bytes are typed, and
    reading a message as another type is an error of the reader (the receive
    wrappers below turn it into UB). *)
From Verif Require Import Base.

Section Proc.
  (** The scalar type of the protocol instance. *)
  Variable T : Type.

  (** Messages. [MOt cot pairs]: one batch of OTs; [cot] tells correlated from
      standard OTs, which are different wire protocols. *)
  Inductive msg :=
  | MSync                              (* comm_channel::sync *)
  | MBlocks (l : list N)               (* send_data of 128-bit blocks *)
  | MVec (l : list T)                  (* send(std::vector<T> / NTL::Vec<T>) *)
  | MBytes (l : list N)                (* send(std::vector<uint8_t>) *)
  | MOt (cot : bool) (pairs : list (N * N)).

  (** Result of the receiver's side of a batch of OTs. *)
  Definition ot_choose (cot : bool) (choices : list bool) (m : msg) : option (list N) :=
    match m with
    | MOt cot' pairs =>
        if Bool.eqb cot cot' && (List.length pairs =? List.length choices)%nat
        then Some (map (fun '(c, (x0, x1)) => if c : bool then x1 else x0) (combine choices pairs))
        else None
    | _ => None
    end.

  (** What a party still does: it has finished, sends on [channel_], receives from
      it, receives in an OT, or draws random values. *)
  Inductive proc (R : Type) :=
  | Ret (r : R)
  | Send (m : msg) (k : proc R)
  | Recv (k : msg -> proc R)
  | OtRecv (cot : bool) (choices : list bool) (k : option (list N) -> proc R)
  | Rand (k : N -> T -> proc R).      (* a random block and a random scalar *)

  Fixpoint pbind {A B} (p : proc A) (f : A -> proc B) : proc B :=
    match p with
    | Ret _ a => f a
    | Send _ m k => Send _ m (pbind k f)
    | Recv _ k => Recv _ (fun m => pbind (k m) f)
    | OtRecv _ c cs k => OtRecv _ c cs (fun r => pbind (k r) f)
    | Rand _ k => Rand _ (fun x t => pbind (k x t) f)
    end.

  (** A party's randomness: an infinite tape. *)
  Definition tape := nat -> N * T.
  Definition tape_tl (t : tape) : tape := fun n => t (S n).

  (** Configuration: both processes, their tapes, and the messages in flight. *)
  Record config (RA RB : Type) := Config {
    c_a : proc RA; c_ta : tape;
    c_b : proc RB; c_tb : tape;
    c_ab : list msg; c_ba : list msg
  }.

  (** One step of a process: consumes from [inq], appends to [outq]. *)
  Definition pstep {R} (p : proc R) (t : tape) (inq outq : list msg)
    : option (proc R * tape * list msg * list msg) :=
    match p with
    | Ret _ _ => None
    | Send _ m k => Some (k, t, inq, outq ++ [m])
    | Recv _ k => match inq with
                  | [] => None
                  | m :: q => Some (k m, t, q, outq)
                  end
    | OtRecv _ c cs k => match inq with
                         | [] => None
                         | m :: q => Some (k (ot_choose c cs m), t, q, outq)
                         end
    | Rand _ k => Some (k (fst (t O)) (snd (t O)), tape_tl t, inq, outq)
    end.

  (** One step of the system: the scheduler picks a party that can move. *)
  Inductive step {RA RB} : config RA RB -> config RA RB -> Prop :=
  | step_a : forall pa ta pb tb ab ba pa' ta' ab' ba',
      pstep pa ta ba ab = Some (pa', ta', ba', ab') ->
      step (Config _ _ pa ta pb tb ab ba) (Config _ _ pa' ta' pb tb ab' ba')
  | step_b : forall pa ta pb tb ab ba pb' tb' ab' ba',
      pstep pb tb ab ba = Some (pb', tb', ab', ba') ->
      step (Config _ _ pa ta pb tb ab ba) (Config _ _ pa ta pb' tb' ab' ba').

  (** [steps n c c']: c' is reached from c in n steps of some schedule. *)
  Inductive steps {RA RB} : nat -> config RA RB -> config RA RB -> Prop :=
  | steps_0 : forall c, steps 0 c c
  | steps_S : forall n c c' c'', step c c' -> steps n c' c'' -> steps (S n) c c''.

  (** No party can move. *)
  Definition stuck {RA RB} (c : config RA RB) : Prop := forall c', ~ step c c'.

  (** Start of a session with empty queues. *)
  Definition start {RA RB} (pa : proc RA) (ta : tape) (pb : proc RB) (tb : tape) : config RA RB :=
    Config _ _ pa ta pb tb [] [].
  (** Both parties finished and every message was read. *)
  Definition finished {RA RB} (a : RA) (ta : tape) (b : RB) (tb : tape) : config RA RB :=
    Config _ _ (Ret _ a) ta (Ret _ b) tb [] [].
End Proc.

Arguments MSync {T}. Arguments MBlocks {T} l. Arguments MVec {T} l. Arguments MBytes {T} l.
Arguments MOt {T} cot pairs. Arguments ot_choose {T} cot choices m.
Arguments Ret {T R} r. Arguments Send {T R} m k. Arguments Recv {T R} k.
Arguments OtRecv {T R} cot choices k. Arguments Rand {T R} k.
Arguments pbind {T A B} p f. Arguments tape_tl {T} t.
Arguments Config {T RA RB} c_a c_ta c_b c_tb c_ab c_ba.
Arguments c_a {T RA RB} c. Arguments c_b {T RA RB} c. Arguments c_ab {T RA RB} c. Arguments c_ba {T RA RB} c.
Arguments c_ta {T RA RB} c. Arguments c_tb {T RA RB} c.
Arguments pstep {T R} p t inq outq. Arguments step {T RA RB}. Arguments steps {T RA RB}.
Arguments stuck {T RA RB} c. Arguments start {T RA RB} pa ta pb tb. Arguments finished {T RA RB} a ta b tb.

(** ** Derived forms used by the protocol models *)

(** ASSIGN_OR_RETURN / RETURN_IF_ERROR on a sub-protocol: errors (and undefined
    behaviour) end the function. *)
Definition pbindr {T A B} (p : proc T (res A)) (f : A -> proc T (res B)) : proc T (res B) :=
  pbind p (fun r => match r with Ok a => f a | Err s => Ret (Err s) | UB w => Ret (UB w) end).
(** The same for local computation. *)
Definition plift {T A B} (m : res A) (f : A -> proc T (res B)) : proc T (res B) :=
  match m with Ok a => f a | Err s => Ret (Err s) | UB w => Ret (UB w) end.

Notation "'do!' x ':=' p 'in' k" := (pbindr p (fun x => k))
  (at level 200, x pattern, p at level 100, k at level 200, right associativity).
Notation "'calc!' x ':=' m 'in' k" := (plift m (fun x => k))
  (at level 200, x pattern, m at level 100, k at level 200, right associativity).

(** n random blocks / scalars (RAND_bytes, ScalarHelper<T>::Randomize). *)
Fixpoint rand_blocks {T R} (n : nat) (k : list N -> proc T R) : proc T R :=
  match n with
  | O => k []
  | S n' => Rand (fun x _ => rand_blocks n' (fun l => k (x :: l)))
  end.
Fixpoint rand_scalars {T R} (n : nat) (k : list T -> proc T R) : proc T R :=
  match n with
  | O => k []
  | S n' => Rand (fun _ t => rand_scalars n' (fun l => k (t :: l)))
  end.

(** channel_->recv with the type of the variable, e.g. spfss_known_index.h:160,
    mpfss_known_indices.h:152, all_but_one_random_ot.cpp:99; emp's recv, recv_cot,
    send and send_cot. *)
Definition recv_blocks {T A} (k : list N -> proc T (res A)) : proc T (res A) :=
  Recv (fun m => match m with MBlocks l => k l | _ => Ret (UB "message of another type") end).
Definition recv_vec {T A} (k : list T -> proc T (res A)) : proc T (res A) :=
  Recv (fun m => match m with MVec l => k l | _ => Ret (UB "message of another type") end).
Definition recv_bytes {T A} (k : list N -> proc T (res A)) : proc T (res A) :=
  Recv (fun m => match m with MBytes l => k l | _ => Ret (UB "message of another type") end).
Definition ot_recv {T A} (cot : bool) (choices : list bool) (k : list N -> proc T (res A)) : proc T (res A) :=
  OtRecv cot choices (fun r => match r with Some l => k l | None => Ret (UB "OT mismatch") end).
Definition ot_send {T A} (cot : bool) (pairs : list (N * N)) (k : proc T (res A)) : proc T (res A) :=
  Send (MOt cot pairs) k.
(** comm_channel::sync: both parties send a token and wait for the other's. *)
Definition sync {T A} (k : proc T (res A)) : proc T (res A) :=
  Send MSync (Recv (fun m => match m with MSync => k | _ => Ret (UB "message of another type") end)).
