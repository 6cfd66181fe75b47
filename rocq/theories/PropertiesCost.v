(** Final theorems about the amount of communication (C78). *)
From Verif Require Import Base BaseFacts ScalarModel ScalarSpec ProcModel RotModel SpfssModel GilboaModel GilboaSpec CuckooModel MpfssModel VoleModel VoleSpec VoleHistory VoleToy
  PatternSpec PatternToy CostSpec CostProofs.
From Coq Require Import QArith.
Local Open Scope Z_scope.

(** C78: the exact communication of successful calls. [does p l (Some r)]: [p]
    takes the steps [l] and ends with [r].

    The product of a scalar and a vector needs one batch of oblivious transfers,
    one transfer for each bit of a packed element. *)
Theorem C78_gilboa_vector : forall (S : scalar) K (y out : list S) l r, 1 <= s_size S ->
  does (gilboa_vector_provider S K y out) l (Some (Ok r)) ->
  l = [SendsTransfers (use_correlated_ot S K (zlen y)) (Z.to_nat (transfers (s_size S) (zlen y)))].
Proof. exact vector_does. Qed.
Print Assumptions C78_gilboa_vector.

Theorem C78_gilboa_value : forall (S : scalar) K (x : S) out l r, 1 <= s_size S -> zlen out < 2^31 ->
  does (gilboa_value_provider S K x out) l (Some (Ok r)) ->
  l = [ReceivesTransfers (use_correlated_ot S K (zlen out)) (Z.to_nat (transfers (s_size S) (zlen out)))].
Proof. exact value_prod_does. Qed.
Print Assumptions C78_gilboa_value.

(** A batch of single-point functions needs one batch of oblivious transfers, one
    for each level of each tree, two blocks of keys for the whole batch and one
    scalar for each function. *)
Theorem C78_spfss_value : forall (S : scalar) aes clog K (vals : list S) outs l r,
  does (spfss_value_provider_batched S aes clog K vals outs) l (Some (Ok r)) ->
  l = value_steps (zlen outs) (tree_transfers clog (map zlen outs)).
Proof. exact value_does. Qed.
Print Assumptions C78_spfss_value.

Theorem C78_spfss_index : forall (S : scalar) aes clog (vals : list S) indices outs l r,
  does (spfss_index_provider_batched S aes clog vals indices outs) l (Some (Ok r)) ->
  l = index_steps (tree_transfers clog (map zlen outs)).
Proof. exact index_does. Qed.
Print Assumptions C78_spfss_index.

(** Precomputation, after any calls before: one scalar-vector product for the
    first seed, one seed of 32 bytes and one expansion for each level below the
    first with enough room, and one more seed of 32 bytes. *)
Theorem C78_precompute_sender : forall S E, good_setting S E -> forall M : machine S, good_machine S M -> 1 <= s_size S ->
  forall st0 h st b d l st', created S M st0 -> history S E M st0 h st ->
  does (as_sender S E M (Precompute b d) st) l (Some (st', Ok Precomputed)) ->
  let n := level_seed E 0 + level_buckets E 0 in
  exists j l1, final_level E b j /\ climbs E (seed_steps M) sender_round j l1 /\
    l = [SendsTransfers (use_correlated_ot S (vole_K E) n) (Z.to_nat (transfers (s_size S) n)); SendsVector (Z.to_nat n)] ++ l1 ++ seed_steps M.
Proof. exact precompute_sender_cost. Qed.
Print Assumptions C78_precompute_sender.

Theorem C78_precompute_receiver : forall S E, good_setting S E -> forall M : machine S, good_machine S M -> 1 <= s_size S ->
  forall st0 h st b d l st', created S M st0 -> history S E M st0 h st ->
  does (as_receiver S E M (Precompute b d) st) l (Some (st', Ok Precomputed)) ->
  let n := level_seed E 0 + level_buckets E 0 in
  exists j l1, final_level E b j /\ climbs E (seed_steps M) receiver_round j l1 /\
    l = [ReceivesTransfers (use_correlated_ot S (vole_K E) n) (Z.to_nat (transfers (s_size S) n)); Receives] ++ l1 ++ seed_steps M.
Proof. exact precompute_receiver_cost. Qed.
Print Assumptions C78_precompute_receiver.

(** Run(n) after a precomputation for batches of [b] and any further Run calls:
    one round for each expansion, all of the same size, and nothing else. In
    particular there is no communication while the cache is large enough. *)
Theorem C78_run_sender : forall S E, good_setting S E -> forall M : machine S, good_machine S M -> 1 <= s_size S ->
  forall st0 l1 e b l2 st n l u v st', created S M st0 -> history S E M st0 (l1 ++ e :: l2) st -> precomputes true b l1 e -> Forall sender_run l2 ->
  does (as_sender S E M (Run n) st) l (Some (st', Ok (Sender u v))) ->
  exists j sizes, final_level E b j /\ v_batch_size st = Z.min b (room E j) /\
    three_choices (level_buckets E j) (v_batch_size st + level_seed E j + level_buckets E j) sizes /\
    l = List.concat (repeat (sender_round (level_buckets E j) (tree_transfers (e_clog E) sizes))
      (Z.to_nat (expansions n (zlen (sr_u (s_cached (v_s st)))) (v_batch_size st)))).
Proof. exact run_sender_cost. Qed.
Print Assumptions C78_run_sender.

Theorem C78_run_receiver : forall S E, good_setting S E -> forall M : machine S, good_machine S M -> 1 <= s_size S ->
  forall st0 l1 e b l2 st n l w d st', created S M st0 -> history S E M st0 (l1 ++ e :: l2) st -> precomputes false b l1 e -> Forall receiver_run l2 ->
  does (as_receiver S E M (Run n) st) l (Some (st', Ok (Receiver w d))) ->
  exists j sizes, final_level E b j /\ v_batch_size st = Z.min b (room E j) /\
    three_choices (level_buckets E j) (v_batch_size st + level_seed E j + level_buckets E j) sizes /\
    l = List.concat (repeat (receiver_round (level_buckets E j) (tree_transfers (e_clog E) sizes))
      (Z.to_nat (expansions n (zlen (rr_w (r_cached (v_r st)))) (v_batch_size st)))).
Proof. exact run_receiver_cost. Qed.
Print Assumptions C78_run_receiver.

(** The number of transfers for buckets with up to 2^k positions is at most [k]
    per bucket. *)
Theorem C78_transfers : forall clog sizes k, 0 <= k -> Forall (fun s => s = 0 \/ Z.of_nat (clog 2 s) <= k) sizes ->
  0 <= tree_transfers clog sizes <= k * zlen sizes.
Proof. exact tree_transfers_le. Qed.
Print Assumptions C78_transfers.

(** Two parties that climb to level 1 and expand twice: batches of 5 elements,
    then 9 elements. *)
Definition two_calls (call : VoleSpec.call F -> vole F -> proc F (vole F * res (answer F))) st : proc F (vole F * res (answer F) * (vole F * res (answer F))) :=
  pbind (call (Precompute 5 (Some (toy_scalar 3))) st) (fun '(st1, r1) => pbind (call (Run 9) st1) (fun x => Ret (st1, r1, x))).
Definition two_watched : option (list action * (vole F * res (answer F) * (vole F * res (answer F)))) :=
  watch (Z.to_nat 5000) (two_calls (as_sender F (toy_setting toy_K) (toy_machine 0 1)) (toy_object 0)) (toy_tape 7)
    (two_calls (as_receiver F (toy_setting toy_K) (toy_machine 1 0)) (toy_object 1)) (toy_tape 13) [] [].
Lemma two_watched_does l : match two_watched with Some (l, (_, Ok Precomputed, (_, Ok (Receiver w d)))) => Some l | _ => None end = Some l ->
  exists l0 st l1 w d st', does (as_receiver F (toy_setting toy_K) (toy_machine 1 0) (Precompute 5 (Some (toy_scalar 3))) (toy_object 1)) l0 (Some (st, Ok Precomputed)) /\
    does (as_receiver F (toy_setting toy_K) (toy_machine 1 0) (Run 9) st) l1 (Some (st', Ok (Receiver w d))) /\ l0 ++ l1 = l.
Proof.
  unfold two_watched. match goal with |- context [watch ?n ?a ?b ?c ?d ?e ?f] => generalize (watch_does n a b c d e f); generalize (watch n a b c d e f) end.
  intros [[l' [[st r1] [st' r2]]]|] Hd HW; [|discriminate HW]. destruct r1 as [[| |]|?|?]; try discriminate HW. destruct r2 as [[| |w d]|?|?]; try discriminate HW. injection HW as ->.
  specialize (Hd _ _ eq_refl). unfold two_calls in Hd. apply does_bind_inv in Hd. destruct Hd as (l0 & [st1 r1] & l1 & H1 & HE & ->).
  apply does_bind_inv in HE. destruct HE as (l2 & x & l3 & H2 & HE & ->). apply does_done in HE. destruct HE as [-> HE]. injection HE as <- <- <-. rewrite app_nil_r.
  exists l0, st, l2, w, d, st'. auto.
Qed.
Example C78_example : let E := toy_setting toy_K in let M := toy_machine 1 0 in
  good_setting F E /\ good_machine F M /\ s_size F = 2 /\ exists st0 l0 st l w d st',
  created F M st0 /\ does (as_receiver F E M (Precompute 5 (Some (toy_scalar 3))) st0) l0 (Some (st, Ok Precomputed)) /\
  history F E M st0 [(false, Precompute 5 (Some (toy_scalar 3)), Ok Precomputed)] st /\
  does (as_receiver F E M (Run 9) st) l (Some (st', Ok (Receiver w d))) /\
  l0 ++ l = [ReceivesTransfers false 16; Receives; Receives; Receives; SendsTransfers false 9; SendsBlocks 2; SendsVector 3; Receives;
    Receives; SendsTransfers false 12; SendsBlocks 2; SendsVector 3; Receives; SendsTransfers false 12; SendsBlocks 2; SendsVector 3].
Proof.
  split; [apply toy_good|]. split; [apply toy_machine_good|]. split; [reflexivity|].
  destruct (two_watched_does _ ltac:(vm_compute; reflexivity)) as (l0 & st & l & w & d & st' & H1 & H2 & H3).
  exists (toy_object 1), l0, st, l, w, d, st'. split; [exact toy_object_created|]. split; [exact H1|]. split; [|split; [exact H2|exact H3]].
  exact (history_snoc F _ _ _ [] (toy_object 1) false _ _ _ (history_nil F _ _ _) (does_possible _ _ _ H1) ltac:(intros ? X; discriminate X)).
Qed.
