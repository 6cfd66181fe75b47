(** Threads with shared memory, for the OpenMP loops of /repo (the list is in
    ParLoops.v).

    A thread executes reads and writes of single memory cells, and calls of
    RAND_bytes; everything else it does is local. The threads are interleaved in
    any way. This describes C++ programs whose executions have no data race, and
    the absence of races is part of what is proved ([every_schedule] in
    ParSpec.v). RAND_bytes is thread-safe; the tape contains the blocks that it
    returns, in the order of the calls. *)
From Verif Require Import Base.
Local Open Scope Z_scope.

Section Par.
  Variables C V : Type.

  (** What remains of a thread: nothing; a read of cell [c]; a write to it; a
      call of RAND_bytes; undefined behaviour. *)
  Inductive thread :=
  | Stop
  | Get (c : C) (k : V -> thread)
  | Put (c : C) (v : V) (k : thread)
  | Draw (k : N -> thread)
  | Crash (why : string).

  (** p; q *)
  Fixpoint then_do (p q : thread) : thread :=
    match p with
    | Stop => q
    | Get c k => Get c (fun v => then_do (k v) q)
    | Put c v k => Put c v (then_do k q)
    | Draw k => Draw (fun x => then_do (k x) q)
    | Crash w => Crash w
    end.

  (** The iterations in the list, one after the other. *)
  Fixpoint iterations (body : Z -> thread) (l : list Z) : thread :=
    match l with
    | [] => Stop
    | i :: l' => then_do (body i) (iterations body l')
    end.

  (** #pragma omp parallel { prologue; #pragma omp for ... body }: thread t
      executes the prologue and its part of the iterations. *)
  Definition parallel_for (prologue : Z -> thread) (body : Z -> Z -> thread) (parts : list (list Z)) : list thread :=
    map (fun t => then_do (prologue t) (iterations (body t) (znth [] parts t))) (zrange 0 (zlen parts)).

  Record shared := Shared { sh_memory : C -> V; sh_drawn : nat; sh_threads : list thread }.

  Variable same : forall c d : C, {c = d} + {c <> d}.
  Definition store (m : C -> V) (c : C) (v : V) : C -> V := fun d => if same c d then v else m d.

  (** Which cells exist. *)
  Variable allocated : C -> bool.
  (** The blocks returned by RAND_bytes. *)
  Variable tape : nat -> N.

  (** Thread number [t] does something. A thread that is about to access a cell
      that does not exist cannot go on, like one that crashed. *)
  Inductive go : shared -> shared -> Prop :=
  | go_get m n l t c k : nth_error l t = Some (Get c k) -> allocated c = true ->
      go (Shared m n l) (Shared m n (list_set l t (k (m c))))
  | go_put m n l t c v k : nth_error l t = Some (Put c v k) -> allocated c = true ->
      go (Shared m n l) (Shared (store m c v) n (list_set l t k))
  | go_draw m n l t k : nth_error l t = Some (Draw k) ->
      go (Shared m n l) (Shared m (Datatypes.S n) (list_set l t (k (tape n)))).

  Inductive goes : shared -> shared -> Prop :=
  | goes_refl s : goes s s
  | goes_step s s' s'' : goes s s' -> go s' s'' -> goes s s''.

  (** Two threads are about to access the same cell, one of them to write. *)
  Definition access (p : thread) (c : C) : Prop :=
    match p with Get d _ => d = c | Put d _ _ => d = c | _ => False end.
  Definition writes (p : thread) (c : C) : Prop :=
    match p with Put d _ _ => d = c | _ => False end.
  Definition race (s : shared) : Prop :=
    exists t t' p p' c, t <> t' /\ nth_error (sh_threads s) t = Some p /\ nth_error (sh_threads s) t' = Some p' /\
      writes p c /\ access p' c.
End Par.
Arguments Stop {C V}.
Arguments Get {C V} c k.
Arguments Put {C V} c v k.
Arguments Draw {C V} k.
Arguments Crash {C V} why.
Arguments then_do {C V} p q.
Arguments iterations {C V} body l.
Arguments parallel_for {C V} prologue body parts.
Arguments Shared {C V} sh_memory sh_drawn sh_threads.
Arguments sh_memory {C V} s.
Arguments sh_drawn {C V} s.
Arguments sh_threads {C V} s.
Arguments store {C V} same m c v.
Arguments go {C V} same allocated tape s s'.
Arguments goes {C V} same allocated tape s s'.
Arguments access {C V} p c.
Arguments writes {C V} p c.
Arguments race {C V} s.
