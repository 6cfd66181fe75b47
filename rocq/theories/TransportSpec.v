(** Other ways in which the parties may be connected.

    [ProcModel] connects them with one unbounded queue per direction.  The code
    runs its oblivious transfers on a connection of their own unless the
    channel is measured, in which case they share the channel
    (distributed_vector_ole/all_but_one_random_ot.cpp:50-53,
    distributed_vector_ole/scalar_vector_gilboa_product.cpp:40-43), and a real
    connection holds only so many bytes: a sender whose message does not fit is
    held up until the receiver reads it.

    Simplification: the keys of the trees (all_but_one_random_ot.h:223) use the
    connection of the oblivious transfers, here they count as ordinary messages
    if the connections are separate. *)
From Verif Require Import Base ProcModel ProcSpec.
Local Open Scope nat_scope.

Section Transport.
  Context {T : Type}.

  (** With [separate] connections, [Recv] reads the ordinary messages and
      [OtRecv] those of oblivious transfers, each in the order they were sent. *)
  Definition for_reader {R} (separate : bool) (p : proc T R) (m : msg T) : bool :=
    match p with
    | Recv _ => negb (separate && is_ot m)
    | OtRecv _ _ _ => negb (separate && negb (is_ot m))
    | _ => false
    end.
  Definition after_reading {R} (p : proc T R) (m : msg T) : proc T R :=
    match p with
    | Recv k => k m
    | OtRecv c cs k => k (ot_choose c cs m)
    | _ => p
    end.
  (** The process reads the first message of its connection among the stored
      ones, given in the order they were sent. *)
  Fixpoint reads {R} (separate : bool) (p : proc T R) (q : list (msg T)) : option (proc T R * list (msg T)) :=
    match q with
    | [] => None
    | m :: q' => if for_reader separate p m then Some (after_reading p m, q')
                 else match reads separate p q' with Some (p', q'') => Some (p', m :: q'') | None => None end
    end.

  (** What the transport is ready to store: [stores q m] if it takes message [m]
      while it stores the messages [q] of the same direction. *)
  Definition policy := list (msg T) -> msg T -> Prop.
  Definition anything : policy := fun _ _ => True.
  (** The least that is needed: room for a single token of [sync]. *)
  Definition tokens : policy := fun q m => q = [] /\ m = MSync.

  (** A message is either stored, and read later, or passed on directly: the
      other party waits for a message, none is stored for it, and it reads this
      one. Nothing else can happen to it: its sender is held up until then. *)
  Inductive tstep {RA RB} (separate : bool) (stores : policy) : config T RA RB -> config T RA RB -> Prop :=
  | t_rand_a : forall ka ta pb tb ab ba,
      tstep separate stores (Config (Rand ka) ta pb tb ab ba) (Config (ka (fst (ta O)) (snd (ta O))) (tape_tl ta) pb tb ab ba)
  | t_rand_b : forall pa ta kb tb ab ba,
      tstep separate stores (Config pa ta (Rand kb) tb ab ba) (Config pa ta (kb (fst (tb O)) (snd (tb O))) (tape_tl tb) ab ba)
  | t_store_a : forall m ka ta pb tb ab ba, stores ab m ->
      tstep separate stores (Config (Send m ka) ta pb tb ab ba) (Config ka ta pb tb (ab ++ [m]) ba)
  | t_store_b : forall m pa ta kb tb ab ba, stores ba m ->
      tstep separate stores (Config pa ta (Send m kb) tb ab ba) (Config pa ta kb tb ab (ba ++ [m]))
  | t_read_a : forall pa pa' ta pb tb ab ba ba', reads separate pa ba = Some (pa', ba') ->
      tstep separate stores (Config pa ta pb tb ab ba) (Config pa' ta pb tb ab ba')
  | t_read_b : forall pa ta pb pb' tb ab ab' ba, reads separate pb ab = Some (pb', ab') ->
      tstep separate stores (Config pa ta pb tb ab ba) (Config pa ta pb' tb ab' ba)
  | t_pass_a : forall m ka ta pb tb ab ba, reads separate pb ab = None -> for_reader separate pb m = true ->
      tstep separate stores (Config (Send m ka) ta pb tb ab ba) (Config ka ta (after_reading pb m) tb ab ba)
  | t_pass_b : forall m pa ta kb tb ab ba, reads separate pa ba = None -> for_reader separate pa m = true ->
      tstep separate stores (Config pa ta (Send m kb) tb ab ba) (Config (after_reading pa m) ta kb tb ab ba).

  Inductive tsteps {RA RB} (separate : bool) (stores : policy) : nat -> config T RA RB -> config T RA RB -> Prop :=
  | tsteps_0 : forall c, tsteps separate stores 0 c c
  | tsteps_S : forall n c c' c'', tstep separate stores c c' -> tsteps separate stores n c' c'' -> tsteps separate stores (S n) c c''.

  (** [on_every_transport pa ta pb tb P]: there is an end [d], satisfying [P],
      such that, however the parties are scheduled, whatever the transport has
      stored so far, and whether or not oblivious transfers have their own
      connection, the session ends in [d] after a bounded number of steps even
      if from now on the transport stores no message but single tokens. *)
  Definition on_every_transport {RA RB} (pa : proc T RA) ta (pb : proc T RB) tb (P : config T RA RB -> Prop) : Prop :=
    exists bound d, P d /\ (forall separate stores c, ~ tstep separate stores d c) /\
      forall separate n c, tsteps separate anything n (start pa ta pb tb) c ->
        n <= bound /\ exists k, tsteps separate tokens k c d.

  (** Both parties have returned and every message was read. *)
  Definition returned {RA RB} (a : RA) (b : RB) (c : config T RA RB) : Prop := exists ta tb, c = finished a ta b tb.
End Transport.
Arguments policy : clear implicits.
