(** Final theorems about peers that send arbitrary contents (C79). *)
From Verif Require Import Base BaseFacts ScalarModel ScalarSpec ScalarProofs ProcModel RotModel RotSpec SpfssModel GilboaModel GilboaSpec CuckooModel MpfssModel VoleModel VoleSpec VoleToy
  PatternToy CostSpec SafeSpec SafeProofs.
From Coq Require Import QArith.
Local Open Scope Z_scope.

(** C79: no undefined behaviour as long as the messages of the peer have the
    right lengths, whatever they contain and whatever comes out of the oblivious
    transfers. [gets p ms r]: [p] can return [r] after receiving the messages
    [ms]. What remains, see [alone_ub] and [rng_ub], is a random generator that runs
    dry, a sum of sizes that overflows, or sampling that never ends. A call never waits for more messages, and takes all
    of them if it succeeds.

    Precomputation, after any calls before. *)
Theorem C79_precompute_sender : forall S, scalar_laws S -> forall E, good_setting S E -> forall M : machine S, good_machine S M ->
  forall st0 h st b d j ms st' r, created S M st0 -> history S E M st0 h st -> final_level E b j ->
  gets (as_sender S E M (Precompute b d) st) ms (st', r) ->
  let inbox := precompute_sender_inbox E M j in
  shaped_as ms inbox -> defined alone_ub r /\ zlen ms <= zlen inbox /\ ((exists x, r = Ok x) -> zlen ms = zlen inbox).
Proof. exact precompute_sender_safe. Qed.
Print Assumptions C79_precompute_sender.

Theorem C79_precompute_receiver : forall S, scalar_laws S -> forall E, good_setting S E -> forall M : machine S, good_machine S M ->
  forall st0 h st b d j ms st' r, created S M st0 -> history S E M st0 h st -> final_level E b j ->
  gets (as_receiver S E M (Precompute b d) st) ms (st', r) ->
  let inbox := precompute_receiver_inbox E M j in
  shaped_as ms inbox -> defined rng_ub r /\ zlen ms <= zlen inbox /\ ((exists x, r = Ok x) -> zlen ms = zlen inbox).
Proof. exact precompute_receiver_safe. Qed.
Print Assumptions C79_precompute_receiver.

(** Run(n) after a precomputation for batches of [b] and any further Run calls,
    with or without success. *)
Theorem C79_run_sender : forall S, scalar_laws S -> forall E, good_setting S E -> forall M : machine S, good_machine S M ->
  forall st0 l1 e b l2 st j n ms st' r, created S M st0 -> history S E M st0 (l1 ++ e :: l2) st -> precomputes true b l1 e -> Forall sender_run l2 ->
  final_level E b j -> 0 <= n -> gets (as_sender S E M (Run n) st) ms (st', r) ->
  let inbox := expansions_inbox E sender_inbox j (expansions n (zlen (sr_u (s_cached (v_s st)))) (v_batch_size st)) in
  shaped_as ms inbox -> defined alone_ub r /\ zlen ms <= zlen inbox /\ ((exists x, r = Ok x) -> zlen ms = zlen inbox).
Proof. exact run_sender_safe. Qed.
Print Assumptions C79_run_sender.

Theorem C79_run_receiver : forall S, scalar_laws S -> forall E, good_setting S E -> forall M : machine S, good_machine S M ->
  forall st0 l1 e b l2 st j n ms st' r, created S M st0 -> history S E M st0 (l1 ++ e :: l2) st -> precomputes false b l1 e -> Forall receiver_run l2 ->
  final_level E b j -> 0 <= n -> gets (as_receiver S E M (Run n) st) ms (st', r) ->
  let inbox := expansions_inbox E receiver_inbox j (expansions n (zlen (rr_w (r_cached (v_r st)))) (v_batch_size st)) in
  shaped_as ms inbox -> defined rng_ub r /\ zlen ms <= zlen inbox /\ ((exists x, r = Ok x) -> zlen ms = zlen inbox).
Proof. exact run_receiver_safe. Qed.
Print Assumptions C79_run_receiver.

(** The first Run on a new object, which precomputes. *)
Theorem C79_first_run_sender : forall S, scalar_laws S -> forall E, good_setting S E -> forall M : machine S, good_machine S M ->
  forall st j n ms st' r, created S M st -> final_level E n j -> gets (as_sender S E M (Run n) st) ms (st', r) ->
  let inbox := precompute_sender_inbox E M j ++ expansions_inbox E sender_inbox j (expansions n 0 (Z.min n (room E j))) in
  shaped_as ms inbox -> defined alone_ub r /\ zlen ms <= zlen inbox /\ ((exists x, r = Ok x) -> zlen ms = zlen inbox).
Proof. exact first_sender_safe. Qed.
Print Assumptions C79_first_run_sender.

Theorem C79_first_run_receiver : forall S, scalar_laws S -> forall E, good_setting S E -> forall M : machine S, good_machine S M ->
  forall st j n ms st' r, created S M st -> final_level E n j -> gets (as_receiver S E M (Run n) st) ms (st', r) ->
  let inbox := precompute_receiver_inbox E M j ++ expansions_inbox E receiver_inbox j (expansions n 0 (Z.min n (room E j))) in
  shaped_as ms inbox -> defined rng_ub r /\ zlen ms <= zlen inbox /\ ((exists x, r = Ok x) -> zlen ms = zlen inbox).
Proof. exact first_receiver_safe. Qed.
Print Assumptions C79_first_run_receiver.

(** The level is determined by the batch size. *)
Theorem C79_level : forall E b, 1 <= level_count E ->
  (exists j, final_level E b j) /\ forall i j, final_level E b i -> final_level E b j -> i = j.
Proof. exact (fun E b H => conj (final_exists E b H) (final_unique E b)). Qed.
Print Assumptions C79_level.

(** The sub-protocols have no undefined behaviour at all. *)
Theorem C79_spfss_index : forall (S : scalar) aes clog (vals : list S) indices outs ms r,
  (forall o, In o outs -> supported_size clog (zlen o)) -> zlen indices = zlen outs ->
  (forall i, 0 <= i < zlen outs -> valid_index (znth 0 indices i) (zlen (znth [] outs i))) ->
  gets (spfss_index_provider_batched S aes clog vals indices outs) ms r -> shaped_as ms [Blocks 2; Vector (zlen outs)] ->
  (forall w, r <> UB w) /\ zlen ms <= 2 /\ forall x, r = Ok x -> zlen ms = 2 /\ map zlen x = map zlen outs.
Proof. exact spfss_index_safe. Qed.
Print Assumptions C79_spfss_index.

Theorem C79_spfss_value : forall (S : scalar) aes clog K (vals : list S) outs ms r, (forall o, In o outs -> supported_size clog (zlen o)) ->
  gets (spfss_value_provider_batched S aes clog K vals outs) ms r ->
  (forall w, r <> UB w) /\ ms = [] /\ forall x, r = Ok x -> map zlen x = map zlen outs.
Proof. exact spfss_value_safe. Qed.
Print Assumptions C79_spfss_value.

Theorem C79_gilboa_vector : forall (S : scalar) K (y out : list S) ms r, scalar_laws S -> s_size S <= 16 -> zlen out = zlen y ->
  gets (gilboa_vector_provider S K y out) ms r -> (forall w, r <> UB w) /\ ms = [] /\ forall x, r = Ok x -> zlen x = zlen y.
Proof. exact gilboa_vector_safe. Qed.
Print Assumptions C79_gilboa_vector.

Theorem C79_gilboa_value : forall (S : scalar) K (x : S) out ms r, scalar_laws S -> s_size S <= 16 -> zlen out < 2^31 - 16 ->
  transfers (s_size S) (zlen out) < 2^31 ->
  gets (gilboa_value_provider S K x out) ms r -> (forall w, r <> UB w) /\ ms = [] /\ forall y, r = Ok y -> zlen y = zlen out.
Proof. exact gilboa_value_safe. Qed.
Print Assumptions C79_gilboa_value.

(** The lengths of vectors are not checked: a peer that sends one element too few can cause
    accesses outside of vectors or failed assertions in both roles. *)
Definition garbage_blocks n : msg F := MBlocks (repeat 77%N n).
Definition garbage_vector n : msg F := MVec (repeat (toy_scalar 4) n).
Definition garbage_bytes : msg F := MBytes (repeat 3%N 32).
Definition is_ub w (r : res (answer F)) : bool := match r with UB w' => String.eqb w w' | _ => false end.
Lemma is_ub_true w r : is_ub w r = true -> r = UB w.
Proof. destruct r as [?|?|w']; try discriminate. intro H. cbn in H. apply String.eqb_eq in H. now subst. Qed.
Theorem C79_wrong_length_refuted : let E := toy_setting toy_K in
  good_setting F E /\ good_machine F (toy_machine 0 1) /\ good_machine F (toy_machine 1 0) /\ final_level E 5 1 /\
  precompute_sender_inbox E (toy_machine 0 1) 1 = [Blocks 2; Vector 3] /\
  precompute_receiver_inbox E (toy_machine 1 0) 1 = [Vector 5; Bytes; Vector 3; Bytes] /\
  (exists st, gets (as_sender F E (toy_machine 0 1) (Precompute 5 None) (toy_object 0)) [garbage_blocks 2; garbage_vector 2] (st, UB "vector index out of bounds")) /\
  (exists st, gets (as_receiver F E (toy_machine 1 0) (Precompute 5 None) (toy_object 1)) [garbage_vector 4] (st, UB "Eigen: sizes differ")) /\
  (exists st, gets (as_receiver F E (toy_machine 1 0) (Precompute 5 None) (toy_object 1)) [garbage_vector 5; garbage_bytes; garbage_vector 2] (st, UB "Eigen: sizes differ")).
Proof.
  intro E. split; [apply toy_good|]. split; [apply toy_machine_good|]. split; [apply toy_machine_good|].
  split; [split; [vm_compute; split; congruence|]; split; [|left; reflexivity]; intros i Hi; assert (i = 0) as -> by lia; reflexivity|].
  split; [reflexivity|]. split; [reflexivity|].
  repeat split.
  - destruct (feed_ends 9%N (toy_scalar 4) (as_sender F E (toy_machine 0 1) (Precompute 5 None) (toy_object 0)) [garbage_blocks 2; garbage_vector 2] (is_ub "vector index out of bounds") ltac:(vm_compute; reflexivity)) as (st & r & H & Hr). apply is_ub_true in Hr. subst r. exists st. exact H.
  - destruct (feed_ends 9%N (toy_scalar 4) (as_receiver F E (toy_machine 1 0) (Precompute 5 None) (toy_object 1)) [garbage_vector 4] (is_ub "Eigen: sizes differ") ltac:(vm_compute; reflexivity)) as (st & r & H & Hr). apply is_ub_true in Hr. subst r. exists st. exact H.
  - destruct (feed_ends 9%N (toy_scalar 4) (as_receiver F E (toy_machine 1 0) (Precompute 5 None) (toy_object 1)) [garbage_vector 5; garbage_bytes; garbage_vector 2] (is_ub "Eigen: sizes differ") ltac:(vm_compute; reflexivity)) as (st & r & H & Hr). apply is_ub_true in Hr. subst r. exists st. exact H.
Qed.
Print Assumptions C79_wrong_length_refuted.

(** With the right lengths, the same garbage goes through. *)
Definition is_ok (r : res (answer F)) : bool := match r with Ok _ => true | _ => false end.
Example C79_example : let E := toy_setting toy_K in let M := toy_machine 1 0 in
  created F M (toy_object 1) /\ scalar_laws F /\
  let ms := [garbage_vector 5; garbage_bytes; garbage_vector 3; garbage_bytes; garbage_vector 3; garbage_vector 3] in
  let inbox := precompute_receiver_inbox E M 1 ++ expansions_inbox E receiver_inbox 1 (expansions 9 0 (Z.min 9 (room E 1))) in
  final_level E 9 1 /\ shaped_as ms inbox /\
  exists st r, gets (as_receiver F E M (Run 9) (toy_object 1)) ms (st, r) /\ is_ok r = true.
Proof.
  intros E M. split; [exact toy_object_created|]. split; [apply scalar_of_laws; split; [cbn; lia|vm_compute; discriminate]|]. intros ms inbox.
  split; [split; [vm_compute; split; congruence|]; split; [|left; reflexivity]; intros i Hi; assert (i = 0) as -> by lia; reflexivity|].
  split; [vm_compute; repeat (constructor; [exact I || reflexivity|]); constructor|].
  apply (feed_ends 9%N (toy_scalar 4)). vm_compute. reflexivity.
Qed.
