(** C82-C84: what a party that follows the protocol cannot know at its end,
    because everything it saw is explained by every other value as well.
    [watch p []] is the process [p] returning, besides its result, the list of
    all messages, results of oblivious transfers and random values it got.

    The block cipher is an arbitrary function. Another secret is explained by
    changing that function at one input per missing leaf (or the seed of a tree
    with a single leaf): [differ_at_missing]. So these are the usual arguments
    for a random function; that AES behaves like one is not proved. *)
From Verif Require Import Base BaseFacts ScalarModel ScalarSpec ScalarProofs GgmModel GgmSpec GgmFinal ProcModel ProcSpec RotModel RotSpec
  SpfssModel GilboaModel GilboaSpec CuckooModel CuckooSpec MpfssModel MpfssSpec HideSpec HideFinal HideSpfss HideMpfss PropertiesMpfss.
From Coq Require Import QArith.
Local Open Scope Z_scope.

(** C82: for any values of the missing elements there is a run with the same
    view and result of the receiver in which the sender gets these values. *)
Theorem C82_missing_elements_hidden : forall (S : scalar) aes clog K (outs_s outs_r : list (list S)) indices ta tb trees,
  map zlen outs_r = map zlen outs_s ->
  (forall o, In o outs_s -> supported_size clog (zlen o)) ->
  zlen indices = zlen outs_s ->
  (forall i, 0 <= i < zlen outs_s -> valid_index (znth 0 indices i) (zlen (znth [] outs_s i))) ->
  s_can_hash S (security_per_leaf K (total_leaves (map zlen outs_s))) 128 = true ->
  let sizes := map zlen outs_s in
  (forall i, nonempty sizes i -> batch_tree aes clog sizes ta i (trees i)) ->
  fst (ta 0%nat) <> fst (ta 1%nat) ->
  parents_unique sizes indices trees ->
  exists rs rr view,
    completes (rot_sender_batched S aes clog K outs_s) ta
      (watch (rot_receiver_batched S aes clog indices outs_r) []) tb (Ok rs) (Ok rr, view) /\
    map zlen rs = sizes /\
    forall values, exists aes' ta' rs',
      completes (rot_sender_batched S aes' clog K outs_s) ta'
        (watch (rot_receiver_batched S aes' clog indices outs_r) []) tb (Ok rs') (Ok rr, view) /\
      differ_at_missing sizes indices trees aes aes' ta ta' /\ map zlen rs' = sizes /\
      forall i j d, 0 <= i < zlen sizes -> 0 <= j < znth 0 sizes i ->
        znth d (znth [] rs' i) j = if j =? znth 0 indices i then s_of128 S (values i) else znth d (znth [] rs i) j.
Proof. intros S aes clog K. exact (rot_hidden S aes clog K). Qed.
Print Assumptions C82_missing_elements_hidden.

(** C83: any other value shares explain what the index provider saw, if they
    agree where the output is empty. *)
Theorem C83_value_shares_hidden : forall (S : scalar), scalar_laws S -> forall clog K, s_size S <= 16 ->
  forall aes (vals_v vals_i : list S) indices (outs_v outs_i : list (list S)) ta tb trees,
  map zlen outs_i = map zlen outs_v ->
  zlen vals_v = zlen outs_v -> zlen vals_i = zlen outs_v -> zlen indices = zlen outs_v ->
  (forall o, In o outs_v -> supported_size clog (zlen o)) ->
  (forall i, 0 <= i < zlen outs_v -> valid_index (znth 0 indices i) (zlen (znth [] outs_v i))) ->
  s_can_hash S (security_per_leaf K (total_leaves (map zlen outs_v))) 128 = true ->
  let sizes := map zlen outs_v in
  (forall i, nonempty sizes i -> batch_tree aes clog sizes ta i (trees i)) ->
  fst (ta 0%nat) <> fst (ta 1%nat) ->
  parents_unique sizes indices trees ->
  exists rv ri view,
    completes (spfss_value_provider_batched S aes clog K vals_v outs_v) ta
      (watch (spfss_index_provider_batched S aes clog vals_i indices outs_i) []) tb (Ok rv) (Ok ri, view) /\
    forall vals', zlen vals' = zlen vals_v ->
      (forall i, 0 <= i < zlen sizes -> znth 0 sizes i = 0 -> znth (s_zero S) vals' i = znth (s_zero S) vals_v i) ->
      exists aes' ta' rv',
        completes (spfss_value_provider_batched S aes' clog K vals' outs_v) ta'
          (watch (spfss_index_provider_batched S aes' clog vals_i indices outs_i) []) tb (Ok rv') (Ok ri, view) /\
        differ_at_missing sizes indices trees aes aes' ta ta'.
Proof. exact spfss_hidden. Qed.
Print Assumptions C83_value_shares_hidden.

(** "The value share is hidden" is false for an empty output: the share itself
    is sent. *)
Theorem C83_empty_output_refuted : forall (S : scalar) aes clog K (a b : S) (ta tb : tape S),
  s_can_hash S (security_per_leaf K 0) 128 = true ->
  completes (spfss_value_provider_batched S aes clog K [a] [[]]) ta
    (watch (spfss_index_provider_batched S aes clog [b] [0] [[]]) []) tb
    (Ok [[]]) (Ok [[]], [Got (MBlocks [fst (ta 0%nat); fst (ta 1%nat)]); Got (MVec [a])]).
Proof. exact empty_revealed. Qed.
Print Assumptions C83_empty_output_refuted.

(** C84: any other value [x'] of the value provider explains what the index
    provider saw, with the same result, the same [y], and the same halves [u],
    [v] of the VOLE correlation. Empty buckets do no harm. *)
Theorem C84_value_hidden : forall t, stype_ok t -> let S := scalar_of t in s_size S <= 16 ->
  forall aes clog K too_many_bits e3 e2, (forall n, e3 n < 2^63) -> (forall n, e2 n < 2^63) ->
  forall seed h, cuckoo_create seed 3 = Ok h ->
  forall hist_v hist_i sizes_v sizes_i x y indices u v w (out_v out_i : list S) hashed ta tb buckets pos trees,
  divisions hist_v -> divisions hist_i ->
  let N := zlen out_v in let n := zlen y in
  division N sizes_v -> division N sizes_i -> good_sizes S clog K too_many_bits e3 N n ->
  zlen out_i = N -> zlen indices = n -> num_buckets e3 e2 (mpfss_new h) n = Ok (zlen w) -> vole_correlation S x u v w ->
  (forall k, 0 <= k < n -> 0 <= znth 0 indices k < N) ->
  hash_cuckoo aes too_many_bits h (map uint128_of_int64 indices) (zlen w) = Ok hashed ->
  fresh_buckets aes too_many_bits e3 e2 h N n = Ok buckets -> positions_in buckets indices hashed pos ->
  let sizes := map zlen buckets in
  (forall i, nonempty sizes i -> batch_tree aes clog sizes ta i (trees i)) ->
  NoDup [seed; fst (ta 0%nat); fst (ta 1%nat)] ->
  parents_unique sizes pos trees ->
  let value aes x := mpfss_value_provider S aes clog K too_many_bits e3 e2 sizes_v (mpfss_after aes too_many_bits e3 e2 h hist_v) x n in
  let index aes := mpfss_index_provider S aes clog too_many_bits e3 e2 sizes_i (mpfss_after aes too_many_bits e3 e2 h hist_i) y indices u v out_i in
  exists st rv ri view,
    completes (value aes x w out_v) ta (watch (index aes) []) tb (st, Ok rv) ((st, Ok ri), view) /\
    forall x' w', vole_correlation S x' u v w' -> exists aes' ta' rv',
      completes (value aes' x' w' out_v) ta' (watch (index aes') []) tb (st, Ok rv') ((st, Ok ri), view) /\
      differ_at_missing sizes pos trees aes aes' ta ta'.
Proof. exact mpfss_hidden. Qed.
Print Assumptions C84_value_hidden.

(** ** Examples *)
Definition mix_aes (k x : N) : N := PropertiesMpfss.toy_aes k (x + k * 2^40).
Section Toy.
  Variable sizes indices : list Z.
  Definition toy_trees (i : Z) : tree :=
    match ggm_create mix_aes toy_clog (znth 0 sizes i) (fst (toy_tape (c 0) (seed_pos sizes i)))
      [fst (toy_tape (c 0) 0%nat); fst (toy_tape (c 0) 1%nat)] with Ok t => t | _ => Tree 2 [] [] [] end.
  Lemma toy_batch : forallb (fun n => (n =? 0) || (1 <=? n) && (n <=? 2 ^ Z.of_nat (toy_clog 2 n))) sizes = true ->
    forall i, nonempty sizes i -> batch_tree mix_aes toy_clog sizes (toy_tape (c 0)) i (toy_trees i).
  Proof.
    intros H i [Hi Hne]. rewrite forallb_forall in H. specialize (H (znth 0 sizes i) ltac:(now apply znth_In)).
    assert (H1 : 1 <= znth 0 sizes i) by lia. assert (H2 : znth 0 sizes i <= 2 ^ Z.of_nat (toy_clog 2 (znth 0 sizes i))) by lia.
    destruct (create_ok mix_aes toy_clog (znth 0 sizes i) (fst (toy_tape (c 0) (seed_pos sizes i)))
      [fst (toy_tape (c 0) 0%nat); fst (toy_tape (c 0) 1%nat)]) as (t & E & _ & _ & _ & Hh & _ & Hs & Hg); [change (2 <= 2); lia|exact H1|exact H2|].
    unfold batch_tree, toy_trees. rewrite E. split; [exact Hs|]. split; [exact Hh|exact Hg].
  Qed.
  Definition toy_uniqueb : bool :=
    forallb (fun i => (height (toy_trees i) <? 2) || (let p := last_parent (toy_trees i) (znth 0 indices i) in
      forallb (fun j => let t := toy_trees j in forallb (fun l => forallb (fun x =>
        negb (node t l x =? p)%N || ((j =? i) && (l =? height (toy_trees i) - 2) && (x =? znth 0 indices i / 2)))
      (zrange 0 (width t l))) (zrange 0 (height t - 1))) (zrange 0 (zlen sizes)))) (zrange 0 (zlen sizes)).
  Lemma toy_unique : toy_uniqueb = true -> parents_unique sizes indices toy_trees.
  Proof.
    intros H i j l x [Hi _] [Hj _] Hh Hl Hx E. unfold toy_uniqueb in H. rewrite forallb_forall in H.
    specialize (H i ltac:(apply In_zrange; lia)). apply orb_true_iff in H. destruct H as [H|H]; [lia|].
    cbv zeta in H. rewrite forallb_forall in H. specialize (H j ltac:(apply In_zrange; lia)).
    rewrite forallb_forall in H. specialize (H l ltac:(apply In_zrange; lia)).
    rewrite forallb_forall in H. specialize (H x ltac:(apply In_zrange; lia)).
    rewrite E, N.eqb_refl in H. cbn [negb orb] in H. lia.
  Qed.
End Toy.

(** A batch with an empty output, one with a single element and two larger ones. *)
Definition toy_outs : list (list F) := map (fun n => zrepeat (s_zero F) n) [3; 0; 1; 5].
Definition toy_ix := [1; 5; 0; 4].
Example C82_C83_example :
  scalar_laws F /\ s_size F <= 16 /\
  (forall o, In o toy_outs -> supported_size toy_clog (zlen o)) /\
  (forall i, 0 <= i < zlen toy_outs -> valid_index (znth 0 toy_ix i) (zlen (znth [] toy_outs i))) /\
  s_can_hash F (security_per_leaf (inject_Z (2^40)) (total_leaves (map zlen toy_outs))) 128 = true /\
  (forall i, nonempty (map zlen toy_outs) i ->
     batch_tree mix_aes toy_clog (map zlen toy_outs) (toy_tape (c 0)) i (toy_trees (map zlen toy_outs) i)) /\
  fst (toy_tape (c 0) 0%nat) <> fst (toy_tape (c 0) 1%nat) /\
  parents_unique (map zlen toy_outs) toy_ix (toy_trees (map zlen toy_outs)) /\
  s_can_hash F (security_per_leaf (inject_Z (2^40)) 0) 128 = true.
Proof.
  split; [apply scalar_of_laws; split; [cbn; lia|vm_compute; discriminate]|]. split; [vm_compute; discriminate|].
  split. { intros o Ho. repeat destruct Ho as [<-|Ho]; try destruct Ho; vm_compute; split; discriminate. }
  split. { intros i Hi. change (zlen toy_outs) with 4 in Hi.
    assert (E : i = 0 \/ i = 1 \/ i = 2 \/ i = 3) by lia. unfold valid_index.
    repeat destruct E as [->|E]; [| | |subst i]; (split; [vm_compute; discriminate|]); ((left; vm_compute; reflexivity) || (right; vm_compute; reflexivity)). }
  split; [vm_compute; reflexivity|]. split.
  { apply toy_batch. vm_compute. reflexivity. }
  split; [vm_compute; discriminate|]. split; [apply toy_unique; vm_compute; reflexivity|vm_compute; reflexivity].
Qed.

(** A function of size 7 as in C33_example; two other values. In bucket 3 the
    index 2 occurs twice. *)
Definition toy_buckets := [[0; 1; 3; 4; 4; 4]; [3; 6; 6]; [0; 1; 5]; [1; 2; 2; 5]; [0; 2; 5; 6]; [3]].
Definition toy_hashed := [-1; -1; -1; 1; 0; -1].
Definition toy_pos := [0; 0; 0; 1; 3; 0].
Example C84_example :
  stype_ok (zz_p 1009) /\ s_size F <= 16 /\ divisions toy_hist /\ division 7 [3; 4] /\ division 7 [7] /\
  good_sizes F toy_clog (inject_Z (2^20)) toy_too toy_e 7 2 /\
  num_buckets toy_e toy_e (mpfss_new toy_h) 2 = Ok (zlen toy_w) /\ vole_correlation F (c 5) toy_u toy_v toy_w /\
  vole_correlation F (c 0) toy_u toy_v toy_v /\ vole_correlation F (c 1) toy_u toy_v (plus F toy_u toy_v) /\
  hash_cuckoo mix_aes toy_too toy_h (map uint128_of_int64 [6; 2]) 6 = Ok toy_hashed /\
  fresh_buckets mix_aes toy_too toy_e toy_e toy_h 7 2 = Ok toy_buckets /\
  positions_in toy_buckets [6; 2] toy_hashed toy_pos /\
  (forall i, nonempty (map zlen toy_buckets) i ->
     batch_tree mix_aes toy_clog (map zlen toy_buckets) (toy_tape (c 0)) i (toy_trees (map zlen toy_buckets) i)) /\
  NoDup [12345%N; fst (toy_tape (c 0) 0%nat); fst (toy_tape (c 0) 1%nat)] /\
  parents_unique (map zlen toy_buckets) toy_pos (toy_trees (map zlen toy_buckets)).
Proof.
  split; [split; [reflexivity|discriminate]|]. split; [vm_compute; discriminate|]. split.
  { constructor; [now intros; apply toy_division|]. constructor; [now intros; apply toy_division|]. constructor; [intro; lia|constructor]. }
  split; [now apply toy_division|]. split; [now apply toy_division|]. split; [now apply toy_sizes|].
  split; [vm_compute; reflexivity|]. do 3 (split; [apply toy_vole; vm_compute; reflexivity|]).
  split; [vm_compute; reflexivity|].
  split; [vm_compute; reflexivity|]. split.
  { split; [vm_compute; reflexivity|]. intros b Hb. change (zlen toy_buckets) with 6 in Hb.
    assert (E : b = 0 \/ b = 1 \/ b = 2 \/ b = 3 \/ b = 4 \/ b = 5) by lia. cbv zeta.
    repeat destruct E as [->|E]; [| | | | |subst b]; try (vm_compute; reflexivity).
    - change (0 <= 1 < 4 /\ 2 = 2 /\ forall q, 0 <= q < 1 -> znth 0 [1; 2; 2; 5] q <> 2).
      split; [lia|]. split; [reflexivity|]. intros q Hq. assert (q = 0) as -> by lia. discriminate.
    - change (0 <= 3 < 4 /\ 6 = 6 /\ forall q, 0 <= q < 3 -> znth 0 [0; 2; 5; 6] q <> 6).
      split; [lia|]. split; [reflexivity|]. intros q Hq.
      assert (E : q = 0 \/ q = 1 \/ q = 2) by lia. repeat destruct E as [->|E]; [| |subst q]; discriminate. }
  split; [apply toy_batch; vm_compute; reflexivity|]. split; [|apply toy_unique; vm_compute; reflexivity].
  change (NoDup [12345; 17; 1017]%N). repeat constructor; cbn; intuition discriminate.
Qed.
