(** Proofs about MpfssInt.v. *)
From Verif Require Import Base BaseFacts ListFacts ScalarModel ScalarSpec ScalarProofs ProcModel ProcSpec RotModel RotSpec SpfssModel CuckooModel CuckooSpec CuckooProofs
  MpfssModel MpfssSpec MpfssProofs MpfssFinal VoleUse CuckooFinal UseSpec PatternSpec CostSpec RotInt RotIntProofs SpfssInt SpfssIntProofs MpfssInt.
From Coq Require Import QArith Lia.
Local Open Scope Z_scope.

Section P.
  Variable S : scalar.
  Variable aes : N -> N -> N.
  Variable clog : Z -> Z -> nat.
  Variable K : Q.
  Variable too : Z -> Z -> bool.
  Variable e3 e2 : Z -> Z.

  Lemma empty_outputs (buckets : list (list Z)) :
    rmapM (fun i => let! b := zget buckets i in Ok (zrepeat (s_zero S) (zlen b))) (zrange 0 (zlen buckets)) =
    Ok (map (fun b => zrepeat (s_zero S) (zlen b)) buckets).
  Proof.
    rewrite (rmapM_ok _ (fun i => zrepeat (s_zero S) (zlen (znth [] buckets i)))).
    2:{ intros i Hi. apply In_zrange in Hi. now rewrite (zget_ok []) by lia. }
    f_equal. rewrite <- (map_map (znth [] buckets) (fun b => zrepeat (s_zero S) (zlen b))). now rewrite map_zrange_znth.
  Qed.
  Lemma empty_sizes (buckets : list (list Z)) : map zlen (map (fun b => zrepeat (s_zero S) (zlen b)) buckets) = map zlen buckets.
  Proof. rewrite map_map. apply map_ext. intro b. apply zlen_zrepeat. apply zlen_nonneg. Qed.

  (** The buckets that a state after an update has. *)
  Definition fits (buckets : list (list Z)) : Prop := zlen buckets < 2^31 - 1 /\ tree_transfers clog (map zlen buckets) < 2^31 - 1.

  Lemma value_body_id x w buckets out : fits buckets ->
    alike (value_provider_body_int S aes clog K x w buckets out) (value_provider_body S aes clog K x w buckets out).
  Proof.
    intros [H1 H2]. unfold value_provider_body_int, value_provider_body. cbv zeta. pose proof (zlen_nonneg buckets). rewrite wrap32_id by lia. unfold recv_vec. apply alike_recv.
    intros [| | | |]; try apply alike_refl. destruct (negb _); [apply alike_refl|]. destruct (_ <? 0); [apply alike_refl|]. rewrite empty_outputs. cbn [plift]. unfold pbindr.
    apply alike_pbind; [|intros [| |]; apply alike_refl]. apply value_int_id; [rewrite zlen_map; lia|now rewrite empty_sizes].
  Qed.
  Lemma index_body_id y indices u v h buckets out : fits buckets ->
    alike (index_provider_body_int S aes clog too y indices u v h buckets out) (index_provider_body S aes clog too y indices u v h buckets out).
  Proof.
    intros [H1 H2]. unfold index_provider_body_int, index_provider_body. cbv zeta. pose proof (zlen_nonneg buckets). rewrite wrap32_id by lia.
    destruct (hash_indices _ _ _ _ _); cbn [plift]; try apply alike_refl. destruct (_ <? 0); [apply alike_refl|].
    destruct (permute_y _ _ _ _); cbn [plift]; try apply alike_refl. destruct (negb _); [apply alike_refl|]. apply alike_send. rewrite empty_outputs. cbn [plift].
    destruct (rmapM _ _); cbn [plift]; try apply alike_refl. unfold pbindr.
    apply alike_pbind; [|intros [| |]; apply alike_refl]. apply index_int_id; [rewrite zlen_map; lia|now rewrite empty_sizes].
  Qed.
  Lemma after_update_id {A} u (f g : mpfss -> proc S (res A)) : (forall st, u = (st, Ok tt) -> alike (f st) (g st)) -> alike (after_update S u f) (after_update S u g).
  Proof.
    intro H. destruct u as [st [[]|e|w]]; cbn; try apply alike_refl. unfold with_state. apply alike_pbind; [now apply H|]. intros. apply alike_refl.
  Qed.

  Hypothesis He3 : forall n, e3 n < 2^63.
  Hypothesis He2 : forall n, e2 n < 2^63.
  Hypothesis Hc : forall n, 1 <= n -> 2 ^ (Z.of_nat (clog 2 n) - 1) <= n.
  Variable seed : N.
  Variable h : hasher.
  Hypothesis Hh : cuckoo_create seed 3 = Ok h.
  Notation after := (mpfss_after aes too e3 e2 h).

  Lemma coherent_fits sizes st0 N n st : coherent aes too e3 e2 (Hasher seed 3) st0 -> division N sizes -> 0 <= N -> 3 * N < 2^31 -> 1 <= n -> 1 <= e3 n < 2^31 - 1 -> too N (e3 n) = false ->
    update_buckets aes too e3 e2 sizes st0 N n = (st, Ok tt) -> fits (m_buckets st).
  Proof.
    intros Co Hs H0 HN Hn He Ht E.
    rewrite (update_ok aes clog too e3 e2 He3 He2 seed) in E by (auto; lia). injection E as <-. cbn [m_buckets]. split.
    - rewrite zlen_map, zlen_zrange; lia.
    - apply transfers_fit; auto.
      + apply Forall_forall. intros s Hin. apply in_map_iff in Hin. destruct Hin as (b & <- & _). apply zlen_nonneg.
      + rewrite (sizes_total aes clog too e3 e2 He3 He2) by lia. lia.
  Qed.
  Lemma after_coherent' hist : divisions hist -> coherent aes too e3 e2 (Hasher seed 3) (after hist).
  Proof.
    intro Hd. destruct (create_inv _ _ _ Hh) as [_ Eh]. pose proof (after_coherent aes too e3 e2 He3 He2 h ltac:(rewrite Eh; cbn; lia) _ Hd) as Co. now rewrite Eh in *.
  Qed.

  Lemma value_provider_id st0 sizes x n w out : coherent aes too e3 e2 (Hasher seed 3) st0 -> division (zlen out) sizes -> 3 * zlen out < 2^31 ->
    (1 <= n -> 1 <= e3 n < 2^31 - 1 /\ too (zlen out) (e3 n) = false) ->
    alike (mpfss_value_provider_int S aes clog K too e3 e2 sizes st0 x n w out) (mpfss_value_provider S aes clog K too e3 e2 sizes st0 x n w out).
  Proof.
    intros ? ? ? Hn. unfold mpfss_value_provider_int, mpfss_value_provider. destruct (Z.ltb_spec n 1) as [|Hn1]; [apply alike_refl|]. destruct (Hn Hn1). apply after_update_id. intros st E.
    apply value_body_id. eapply coherent_fits; eauto. apply zlen_nonneg.
  Qed.
  Lemma index_provider_id st0 sizes y indices u v out : coherent aes too e3 e2 (Hasher seed 3) st0 -> division (zlen out) sizes -> 3 * zlen out < 2^31 ->
    (1 <= zlen y -> 1 <= e3 (zlen y) < 2^31 - 1 /\ too (zlen out) (e3 (zlen y)) = false) ->
    alike (mpfss_index_provider_int S aes clog too e3 e2 sizes st0 y indices u v out) (mpfss_index_provider S aes clog too e3 e2 sizes st0 y indices u v out).
  Proof.
    intros ? ? ? Hn. unfold mpfss_index_provider_int, mpfss_index_provider. destruct (negb _); [apply alike_refl|]. destruct (_ <? _); [apply alike_refl|].
    destruct (Z.eqb_spec (zlen y) 0) as [|Hy]; [apply alike_refl|]. pose proof (zlen_nonneg y). destruct Hn as [Hn1 Hn2]; [lia|].
    destruct (_ <=? _); [apply alike_refl|]. destruct (negb _); [apply alike_refl|]. apply after_update_id. intros st E. apply index_body_id. eapply coherent_fits; eauto; try lia. apply zlen_nonneg.
  Qed.
End P.

Lemma mpfss_int_correct : forall t, stype_ok t -> let S := scalar_of t in
  forall aes clog K too_many_bits e3 e2, (forall n, e3 n < 2^63) -> (forall n, e2 n < 2^63) ->
  (forall n, 1 <= n -> 2 ^ (Z.of_nat (clog 2 n) - 1) <= n) ->
  forall seed h, cuckoo_create seed 3 = Ok h ->
  let after := mpfss_after aes too_many_bits e3 e2 h in
  forall hist_v hist_i sizes_v sizes_i x y indices u v w (out_v out_i : list S) hashed ta tb,
  divisions hist_v -> divisions hist_i ->
  let N := zlen out_v in let n := zlen y in
  division N sizes_v -> division N sizes_i -> good_sizes S clog K too_many_bits e3 N n ->
  zlen out_i = N -> zlen indices = n -> num_buckets e3 e2 (mpfss_new h) n = Ok (zlen w) -> zlen w < 2^31 - 1 -> vole_correlation S x u v w ->
  (forall k, 0 <= k < n -> 0 <= znth 0 indices k < N) ->
  hash_cuckoo aes too_many_bits h (map uint128_of_int64 indices) (zlen w) = Ok hashed ->
  exists rv ri, completes
      (mpfss_value_provider_int S aes clog K too_many_bits e3 e2 sizes_v (after hist_v) x n w out_v) ta
      (mpfss_index_provider_int S aes clog too_many_bits e3 e2 sizes_i (after hist_i) y indices u v out_i) tb
      (after (hist_v ++ [(sizes_v, N, n)]), Ok rv) (after (hist_i ++ [(sizes_i, N, n)]), Ok ri) /\
    zlen rv = N /\ zlen ri = N /\
    forall p, 0 <= p < N -> s_add S (znth (s_zero S) rv p) (znth (s_zero S) ri p) = point_value S x y indices p.
Proof.
  intros t Ht S aes clog K too e3 e2 He3 He2 Hc seed h Hh after hv hi sv si x y indices u v w ov oi hashed ta tb H1 H2 N n H3 H4 Hg H5 H6 H7 Hw H8 H9 H10.
  destruct (mpfss_correct t Ht aes clog K too e3 e2 He3 He2 seed h Hh hv hi sv si x y indices u v w ov oi hashed ta tb H1 H2 H3 H4 Hg H5 H6 H7 H8 H9 H10) as (rv & ri & HC & HR).
  exists rv, ri. split; [|exact HR]. destruct Hg as (Hn & HN & He & Htoo & _).
  assert (Ew : zlen w = e3 n) by (eapply num_buckets_eq; eauto; lia). rewrite Ew in Hw.
  unfold N, n in *. clear N n. subst S. eapply alike_completes; [| |exact HC].
  - eapply value_provider_id; eauto; [eapply after_coherent'; eauto|]. intros _. split; [lia|auto].
  - eapply index_provider_id; eauto; rewrite ?H5; auto; [eapply after_coherent'; eauto|]. intros _. split; [lia|auto].
Qed.
