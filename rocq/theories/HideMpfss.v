(** What the index provider of a multi-point function secret sharing sees. *)
From Verif Require Import Base BaseFacts ListFacts ScalarModel ScalarSpec ScalarProofs SumFacts GgmModel GgmSpec
  ProcModel ProcSpec ProcProofs RotModel RotSpec RotProofs RotFinal SpfssModel SpfssProofs
  CuckooModel CuckooSpec CuckooProofs CuckooFinal MpfssModel MpfssSpec MpfssProofs MpfssFinal
  HideSpec HideRun HideProofs HideFinal HideSpfss.
From Coq Require Import QArith Ring_theory Ring Sorted.
Local Open Scope Z_scope.
Local Arguments znth : simpl never.

(** ** Hashing uses one key only *)
Section Hash.
  Variables aes aes' : N -> N -> N.
  Variable too : Z -> Z -> bool.
  Variable h : hasher.
  Hypothesis Heq : forall x, aes' (ch_seed h) x = aes (ch_seed h) x.
  Lemma hash_to_bucket_same x nb j : hash_to_bucket aes' h x nb j = hash_to_bucket aes h x nb j.
  Proof. unfold hash_to_bucket, hash_to_uint128. now rewrite Heq. Qed.
  Lemma hash_same inputs nb : hash aes' h inputs nb = hash aes h inputs nb.
  Proof.
    unfold hash. destruct (nb <=? 0); [reflexivity|]. apply for_range_ext. intros i s Hi. unfold hash_row.
    destruct (zget inputs i) as [x| |]; cbn [rbind]; [|reflexivity|reflexivity]. apply for_range_ext. intros j s' Hj.
    destruct (zget s' i) as [row| |]; cbn [rbind]; [|reflexivity|reflexivity].
    rewrite hash_to_bucket_same. unfold hash_to_uint128. now rewrite Heq.
  Qed.
  Lemma hash_simple_same sizes inputs nb : hash_simple aes' too h sizes inputs nb = hash_simple aes too h sizes inputs nb.
  Proof. unfold hash_simple. now rewrite hash_same. Qed.
  Lemma hash_cuckoo_same inputs nb : hash_cuckoo aes' too h inputs nb = hash_cuckoo aes too h inputs nb.
  Proof. unfold hash_cuckoo. now rewrite hash_same. Qed.
  Lemma hash_indices_same indices nb : hash_indices aes' too h indices nb = hash_indices aes too h indices nb.
  Proof. unfold hash_indices. now rewrite hash_cuckoo_same. Qed.
  Variables e3 e2 : Z -> Z.
  Lemma update_same sizes st N n : m_hasher st = h ->
    update_buckets aes' too e3 e2 sizes st N n = update_buckets aes too e3 e2 sizes st N n.
  Proof. intro E. unfold update_buckets. rewrite E. destruct (get_optimal_number_of_buckets e3 e2 h n); try reflexivity. now rewrite hash_simple_same. Qed.
  Lemma update_hasher sizes st N n : m_hasher (fst (update_buckets aes too e3 e2 sizes st N n)) = m_hasher st.
  Proof.
    unfold update_buckets. destruct (_ || _); [|reflexivity]. destruct (N <? 0); [reflexivity|].
    destruct (get_optimal_number_of_buckets _ _ _ _); try reflexivity. now destruct (hash_simple _ _ _ _ _ _).
  Qed.
  Lemma after_same hist : mpfss_after aes' too e3 e2 h hist = mpfss_after aes too e3 e2 h hist.
  Proof.
    unfold mpfss_after. assert (G : forall st, m_hasher st = h ->
      fold_left (fun st '(sizes, N, n) => fst (update_buckets aes' too e3 e2 sizes st N n)) hist st =
      fold_left (fun st '(sizes, N, n) => fst (update_buckets aes too e3 e2 sizes st N n)) hist st).
    { induction hist as [|[[sizes N] n] hist IH]; intros st E; cbn [fold_left]; [reflexivity|].
      rewrite update_same by exact E. apply IH. now rewrite update_hasher. }
    now apply G.
  Qed.
End Hash.

Lemma changed_other (S : scalar) aes sizes indices trees values (ta : tape S) k x :
  k <> fst (ta 0%nat) -> k <> fst (ta 1%nat) -> changed_aes S aes sizes indices trees values ta k x = aes k x.
Proof.
  intros H0 H1. unfold changed_aes. rewrite find_range_none; [reflexivity|].
  intros j _ E. rewrite !andb_true_iff in E. destruct E as [_ [E _]]. apply N.eqb_eq in E. unfold missing_key in E.
  destruct (Z.even _); congruence.
Qed.

Section Run.
  Variable S : scalar.
  Hypothesis L : scalar_laws S.
  Hypothesis H16 : s_size S <= 16.
  Add Ring SR3 : (sl_ring S L).
  Notation zn := (znth (s_zero S)).
  Variable aes : N -> N -> N.
  Variable clog : Z -> Z -> nat.
  Variable K : Q.
  Variable too : Z -> Z -> bool.
  Variable h : hasher.
  Variable B : list (list Z).
  Variable H indices : list Z.
  Notation nb := (zlen B).
  Hypothesis Hnb : nb < 2^31.
  Hypothesis HH : zlen H = nb.
  Variable NN : Z.
  Hypothesis HB : forall b j, 0 <= b < nb -> 0 <= j < zlen (znth [] B b) -> 0 <= znth 0 (znth [] B b) j < NN.
  Hypothesis Hsz : size_sum (map zlen B) < 2^31.
  Hypothesis Hsup : forall b, In b B -> supported_size clog (zlen b).
  Hypothesis Hch : s_can_hash S (security_per_leaf (K * 2) (size_sum (map zlen B))) 128 = true.
  Hypothesis Hslot : forall b, 0 <= b < nb -> znth 0 H b = -1 \/ 0 <= znth 0 H b < zlen indices.
  Notation slot := (slot B H indices).
  Hypothesis Hin : forall b, 0 <= b < nb -> valid_index (slot b) (zlen (znth [] B b)).
  (** No point in an empty bucket. *)
  Hypothesis Hempty : forall b, 0 <= b < nb -> zlen (znth [] B b) = 0 -> znth 0 H b = -1.
  Variable ta tb : tape S.
  Let sizes := map zlen B.
  Let pos := map slot (zrange 0 nb).

  Lemma bodies_hidden x y u v w out_v out_i : zlen y = zlen indices ->
    hash_indices aes too h indices nb = Ok H ->
    zlen w = nb -> vole_correlation S x u v w -> zlen out_v = NN -> zlen out_i = NN ->
    exists rv ri view,
      vrun (value_provider_body S aes clog K x w B out_v) ta
        (index_provider_body S aes clog too y indices u v h B out_i) tb view
        (Ret (Ok rv)) (tape_drop (drawn_for sizes) ta) (Ret (Ok ri)) tb /\
      forall trees, (forall i, nonempty sizes i -> batch_tree aes clog sizes ta i (trees i)) ->
      fst (ta 0%nat) <> fst (ta 1%nat) -> parents_unique sizes pos trees ->
      forall x' w', vole_correlation S x' u v w' -> exists values rv',
        let aes' := changed_aes S aes sizes pos trees values ta in
        let ta' := changed_tape S sizes trees values ta in
        (forall aes'' ta'', behaves sizes ta aes' ta' aes'' ta'' -> (forall z, aes'' (ch_seed h) z = aes (ch_seed h) z) ->
         vrun (value_provider_body S aes'' clog K x' w' B out_v) ta''
          (index_provider_body S aes'' clog too y indices u v h B out_i) tb view
          (Ret (Ok rv')) (tape_drop (drawn_for sizes) ta'') (Ret (Ok ri)) tb) /\
        differ_at_missing sizes pos trees aes aes' ta ta'.
  Proof.
    intros Hy Hhash Hw (Hu & Hv & Hvole) Hov Hoi. pose proof (zlen_nonneg B) as Hnb0.
    set (yp := map (fun i => if znth 0 H i =? -1 then s_zero S else zn y (znth 0 H i)) (zrange 0 nb)).
    assert (Eyp : permute_y S H nb y = Ok yp).
    { unfold permute_y. apply rmapM_ok. intros i Hi. apply In_zrange in Hi. rewrite (zget_ok 0) by lia. cbn [rbind].
      destruct (Z.eqb_spec (znth 0 H i) (-1)); auto. apply zget_ok. destruct (Hslot i Hi); lia. }
    assert (Lyp : zlen yp = nb) by (unfold yp; rewrite zlen_map, zlen_zrange; lia).
    set (ym := map (fun '(a, b) => s_add S a b) (combine yp u)).
    assert (Lym : zlen ym = nb) by (unfold ym; rewrite zlen_map, zlen_combine; lia).
    set (O0 := map (fun i => zrepeat (s_zero S) (zlen (znth [] B i))) (zrange 0 nb)).
    assert (EO : rmapM (fun i => let! b := zget B i in Ok (zrepeat (s_zero S) (zlen b))) (zrange 0 nb) = Ok O0).
    { apply rmapM_ok. intros i Hi. apply In_zrange in Hi. rewrite (zget_ok []) by lia. reflexivity. }
    assert (LO : zlen O0 = nb) by (unfold O0; rewrite zlen_map, zlen_zrange; lia).
    assert (EO1 : map zlen O0 = sizes).
    { unfold O0, sizes. rewrite map_map. rewrite <- (map_zrange_znth [] B) at 2. rewrite map_map. apply map_ext_in.
      intros i _. apply zlen_zrepeat. apply zlen_nonneg. }
    assert (LO1 : forall b, 0 <= b < nb -> zlen (znth [] O0 b) = zlen (znth [] B b)).
    { intros b Hb. destruct (map_zlen_eq _ _ EO1) as [_ G]. apply G. }
    set (vs x w := map (fun '(a, b) => s_sub S (s_mul S a x) b) (combine ym w)).
    assert (Lvs : forall x w, zlen w = nb -> zlen (vs x w) = nb) by (intros x0 w0 Hw0; unfold vs; rewrite zlen_map, zlen_combine; lia).
    assert (Eix : rmapM (index_in_bucket B H indices) (zrange 0 nb) = Ok pos).
    { apply rmapM_ok. intros i Hi. apply In_zrange in Hi. unfold index_in_bucket, MpfssProofs.slot.
      rewrite (zget_ok []) by lia. cbn [rbind]. destruct (zlen (znth [] B i) =? 0); cbn [orb]; auto.
      rewrite (zget_ok 0) by lia. cbn [rbind]. destruct (Z.eqb_spec (znth 0 H i) (-1)); auto.
      rewrite (zget_ok 0) by (destruct (Hslot i Hi); lia). reflexivity. }
    assert (Lix : zlen pos = nb) by (unfold pos; rewrite zlen_map, zlen_zrange; lia).
    assert (Nix : forall b, 0 <= b < nb -> znth 0 pos b = slot b).
    { intros b Hb. unfold pos. rewrite (znth_map _ 0) by (rewrite zlen_zrange; lia). now rewrite znth_zrange by lia. }
    assert (HNN : 0 <= NN) by (rewrite <- Hov; apply zlen_nonneg).
    assert (Lz : zlen (zrepeat (s_zero S) NN) = NN) by (apply zlen_zrepeat; auto).
    assert (Hback : forall O, map zlen O = sizes -> exists o, map_back S B nb O (zrepeat (s_zero S) NN) = Ok o).
    { intros O HO. destruct (map_zlen_eq _ _ HO) as [O1 O2].
      destruct (map_back_ok S L B O (zrepeat (s_zero S) NN)) as (o & Eo & _); [auto| |rewrite Lz; exact HB|eauto].
      intros b Hb. split; [apply O2|].
      assert (zlen (znth [] B b) <= size_sum (map zlen B)); [|lia]. apply size_sum_le.
      - apply Forall_forall. intros z Hz. apply in_map_iff in Hz. destruct Hz as (l & <- & _). apply zlen_nonneg.
      - apply in_map. apply znth_In. lia. }
    assert (Hbodies : forall aes0 x0 w0 ta0 view rv ta1 ri ov oi, zlen w0 = nb -> hash_indices aes0 too h indices nb = Ok H ->
      vrun (spfss_value_provider_batched S aes0 clog (K * 2) (vs x0 w0) O0) ta0
        (spfss_index_provider_batched S aes0 clog v pos O0) tb view (Ret (Ok rv)) ta1 (Ret (Ok ri)) tb ->
      map_back S B nb rv (zrepeat (s_zero S) NN) = Ok ov -> map_back S B nb ri (zrepeat (s_zero S) NN) = Ok oi ->
      vrun (value_provider_body S aes0 clog K x0 w0 B out_v) ta0
        (index_provider_body S aes0 clog too y indices u v h B out_i) tb view (Ret (Ok ov)) ta1 (Ret (Ok oi)) tb).
    { intros aes0 x0 w0 ta0 view rv ta1 ri ov oi Hw0 Hhash0 HV Eov Eoi.
      unfold value_provider_body, index_provider_body. rewrite !wrap32_id by lia. rewrite Hhash0. cbn [plift].
      replace (nb <? 0) with false by lia. rewrite Eyp. cbn [plift].
      rewrite Lyp. replace (nb =? zlen u) with true by (symmetry; apply Z.eqb_eq; congruence). cbn [negb]. unfold recv_vec. fold ym.
      eapply (vrun_trans _ _ _ _ []); [apply vrun_hand, vhand_ba; reflexivity|]. cbv beta iota zeta.
      rewrite Lym, Hw0, Z.eqb_refl. cbn [negb]. rewrite EO. cbn [plift]. rewrite Eix. cbn [plift]. fold (vs x0 w0).
      rewrite <- (app_nil_r view).
      eapply vrun_trans; [apply (vrun_bindr _ _ _ _ _ _ _ _ _ _ _ HV)|]. cbv beta.
      rewrite Hov, Hoi, Eov, Eoi. apply vrun_nil. }
    destruct (spfss_hidden_vrun S L clog (K * 2) H16 aes (vs x w) v pos O0 O0 ta tb) as (rv & ri & view & HV & Lrv & Lri & HH').
    - reflexivity.
    - rewrite (Lvs _ _ Hw). congruence.
    - congruence.
    - congruence.
    - intros o Ho. apply (In_znth []) in Ho. destruct Ho as (b & Hb & <-). rewrite LO1 by lia. apply Hsup. apply znth_In. lia.
    - intros b Hb. rewrite LO1 by lia. rewrite Nix by lia. apply Hin. lia.
    - rewrite EO1. unfold sizes. rewrite total_leaves_exact; auto. split; [|lia]. apply size_sum_nonneg.
      apply Forall_forall. intros z Hz. apply in_map_iff in Hz. destruct Hz as (l & <- & _). apply zlen_nonneg.
    - rewrite EO1 in *. destruct (Hback rv Lrv) as (ov & Eov). destruct (Hback ri Lri) as (oi & Eoi).
      exists ov, oi, view. split; [eapply Hbodies; eassumption|].
      intros trees Htrees Hdist Huniq x' w' (Hu' & Hv' & Hvole').
      destruct (HH' trees Htrees Hdist Huniq (vs x' w')) as (values & rv' & HV' & HD & Lrv' & _).
      + rewrite !Lvs by congruence. reflexivity.
      + intros i Hi E0. unfold sizes in Hi. rewrite zlen_map in Hi. unfold sizes in E0. rewrite (znth_map zlen []) in E0 by lia.
        pose proof (Hempty i Hi E0) as Em.
        unfold vs. rewrite !(znth_map _ (s_zero S, s_zero S)) by (rewrite zlen_combine; lia).
        rewrite !znth_combine by lia. unfold ym. rewrite !(znth_map _ (s_zero S, s_zero S)) by (rewrite zlen_combine; lia).
        rewrite !znth_combine by lia. unfold yp. rewrite !(znth_map _ 0) by (rewrite zlen_zrange; lia).
        rewrite !znth_zrange by lia. rewrite !Z.add_0_l. rewrite Em, Z.eqb_refl. rewrite (Hvole i), (Hvole' i) by lia. ring.
      + destruct (Hback rv' Lrv') as (ov' & Eov'). exists values, ov'. cbv zeta. split; [|exact HD].
        intros aes'' ta'' Hb Hs. eapply Hbodies; [congruence| |apply (HV' aes'' ta'' Hb)|exact Eov'|exact Eoi].
        rewrite (hash_indices_same aes); [exact Hhash|exact Hs].
  Qed.
End Run.

Lemma lower_bound_before l x q : 0 <= q < lower_bound l x -> znth 0 l q < x.
Proof.
  revert q. induction l as [|a l IH]; intros q Hq; cbn [lower_bound] in Hq; [lia|].
  rewrite znth_cons by lia. destruct (Z.ltb_spec a x) as [Ha|Ha]; [|lia].
  destruct (Z.eqb_spec q 0); [lia|]. apply IH. lia.
Qed.

Section W.
  Variable S : scalar.
  Hypothesis L : scalar_laws S.
  Hypothesis H16 : s_size S <= 16.
  Notation zn := (znth (s_zero S)).
  Variable aes : N -> N -> N.
  Variable clog : Z -> Z -> nat.
  Variable K : Q.
  Variable too : Z -> Z -> bool.
  Variable e3 e2 : Z -> Z.
  Hypothesis He3 : forall n, e3 n < 2^63.
  Hypothesis He2 : forall n, e2 n < 2^63.
  Variable seed : N.
  Notation h := (Hasher seed 3).

  Lemma same_coherent aes0 st : (forall z, aes0 seed z = aes seed z) -> coherent aes too e3 e2 h st -> coherent aes0 too e3 e2 h st.
  Proof.
    intros Hz [H1 H2]. split; [exact H1|]. intros N n E1 E2. rewrite <- (H2 N n E1 E2). unfold fresh_buckets.
    destruct (get_optimal_number_of_buckets _ _ _ _) as [x| |]; cbn [rbind]; try reflexivity.
    now apply hash_simple_same.
  Qed.

  Lemma mpfss_hidden_vrun stv sti sizes_v sizes_i x y indices u v w (out_v out_i : list S) hashed buckets ta tb :
    let NN := zlen out_v in let n := zlen y in
    coherent aes too e3 e2 h stv -> coherent aes too e3 e2 h sti ->
    division NN sizes_v -> division NN sizes_i -> good_sizes S clog K too e3 NN n ->
    zlen out_i = NN -> zlen indices = n -> zlen w = e3 n -> vole_correlation S x u v w ->
    (forall k, 0 <= k < n -> 0 <= znth 0 indices k < NN) ->
    hash_cuckoo aes too h (map uint128_of_int64 indices) (e3 n) = Ok hashed ->
    fresh_buckets aes too e3 e2 h NN n = Ok buckets ->
    let sizes := map zlen buckets in
    let pos := map (slot buckets hashed indices) (zrange 0 (zlen buckets)) in
    let st := Mpfss h buckets (Some NN) (Some n) in
    let value aes x w := mpfss_value_provider S aes clog K too e3 e2 sizes_v stv x n w out_v in
    let index aes := mpfss_index_provider S aes clog too e3 e2 sizes_i sti y indices u v out_i in
    exists rv ri view,
      vrun (value aes x w) ta (index aes) tb view (Ret (st, Ok rv)) (tape_drop (drawn_for sizes) ta) (Ret (st, Ok ri)) tb /\
      zlen rv = NN /\ zlen ri = NN /\ (forall p, 0 <= p < NN -> s_add S (zn rv p) (zn ri p) = point_value S x y indices p) /\
      (forall i, nonempty sizes i -> 1 <= znth 0 sizes i <= 3 * NN /\ 0 <= znth 0 pos i < znth 0 sizes i) /\
      forall trees, (forall i, nonempty sizes i -> batch_tree aes clog sizes ta i (trees i)) ->
      NoDup [seed; fst (ta 0%nat); fst (ta 1%nat)] -> parents_unique sizes pos trees ->
      forall x' w', vole_correlation S x' u v w' -> exists values rv',
        let aes' := changed_aes S aes sizes pos trees values ta in
        let ta' := changed_tape S sizes trees values ta in
        (forall aes'' ta'', behaves sizes ta aes' ta' aes'' ta'' -> (forall z, aes'' seed z = aes seed z) ->
         vrun (value aes'' x' w') ta'' (index aes'') tb view
          (Ret (st, Ok rv')) (tape_drop (drawn_for sizes) ta'') (Ret (st, Ok ri)) tb) /\
        differ_at_missing sizes pos trees aes aes' ta ta' /\
        zlen rv' = NN /\ forall p, 0 <= p < NN -> s_add S (zn rv' p) (zn ri p) = point_value S x' y indices p.
  Proof.
    intros NN n Cv Ci Hdv Hdi Hg0 Hoi Hix Hw Hvole Hr HH Hfresh sizes pos st value index.
    pose proof Hg0 as (Hn & HN3 & Hnb & Htoo & Hsup & Hch).
    assert (HN0 : 0 <= NN) by (unfold NN; apply zlen_nonneg).
    pose proof Hfresh as Hfresh'.
    rewrite (fresh_ok aes clog too e3 e2 He3 He2 seed NN n) in Hfresh' by (auto; lia). injection Hfresh' as EB.
    assert (Hlb : zlen buckets = e3 n) by (rewrite <- EB; apply (zlen_buckets aes clog too e3 e2 He3 He2 seed); lia).
    assert (Hzb : forall b, 0 <= b < e3 n -> znth [] buckets b = simple_bucket (bucket_of aes seed (e3 n)) 3 (map uint128_of_int64 (zrange 0 NN)) b)
      by (intros b Hb; rewrite <- EB; now apply (znth_buckets aes clog too e3 e2 He3 He2 seed)).
    pose proof HH as HP. apply (cuckoo_placement aes too seed 3) in HP; [|reflexivity|lia]. destruct HP as (HL & _ & HP).
    rewrite zlen_map, Hix in HP.
    assert (Hslot : forall b, 0 <= b < e3 n -> znth 0 hashed b = -1 \/ 0 <= znth 0 hashed b < n).
    { intros b Hb. destruct (HP b Hb) as [?|[? _]]; auto. }
    assert (Hhin : forall b, 0 <= b < e3 n -> znth 0 hashed b <> -1 -> In (znth 0 indices (znth 0 hashed b)) (znth [] buckets b)).
    { intros b Hb Hne. rewrite Hzb by exact Hb. destruct (Hslot b Hb) as [?|Hk]; [contradiction|].
      apply (hashed_in aes clog too e3 e2 He3 He2 seed NN n indices hashed b); auto; lia. }
    assert (Hempty : forall b, 0 <= b < e3 n -> zlen (znth [] buckets b) = 0 -> znth 0 hashed b = -1).
    { intros b Hb E0. destruct (Z.eq_dec (znth 0 hashed b) (-1)) as [E|E]; [exact E|exfalso].
      pose proof (Hhin b Hb E) as Hi. rewrite (zlen_0_nil _ E0) in Hi. exact Hi. }
    assert (Hval : forall b, 0 <= b < zlen buckets -> valid_index (slot buckets hashed indices b) (zlen (znth [] buckets b))).
    { intros b Hb. rewrite Hlb in Hb. pose proof (zlen_nonneg (znth [] buckets b)). unfold slot.
      destruct (Z.eqb_spec (zlen (znth [] buckets b)) 0) as [E0|E0]; cbn [orb]; [split; lia|].
      destruct (Z.eqb_spec (znth 0 hashed b) (-1)) as [E|E]; [split; lia|].
      destruct (lower_bound_In (znth [] buckets b) (znth 0 indices (znth 0 hashed b))) as [Q1 _];
        [rewrite Hzb by exact Hb; apply simple_bucket_sorted|now apply Hhin|]. split; lia. }
    assert (Htot : size_sum (map zlen buckets) = 3 * NN) by (rewrite <- EB; apply (sizes_total aes clog too e3 e2 He3 He2 seed); lia).
    destruct (bodies_hidden S L H16 aes clog K too h buckets hashed indices) with (NN := NN) (ta := ta) (tb := tb)
      (x := x) (y := y) (u := u) (v := v) (w := w) (out_v := out_v) (out_i := out_i) as (rv & ri & view & HV & HH').
    all: try assumption.
    all: try (rewrite ?Hlb, ?Htot, ?Hix; assumption || lia).
    - intros b j Hb Hj. assert (Hin : In (znth 0 (znth [] buckets b) j) (znth [] buckets b)) by (apply znth_In; lia).
      rewrite (Hzb b) in Hin at 2 by lia. apply (in_bucket aes clog too e3 e2 He3 He2 seed) in Hin; lia.
    - intros b Hb. apply Hsup. split; [apply zlen_nonneg|]. rewrite <- Htot. apply size_sum_le.
      + apply Forall_forall. intros z Hz. apply in_map_iff in Hz. destruct Hz as (l & <- & _). apply zlen_nonneg.
      + now apply in_map.
    - rewrite Hlb. now apply hash_indices_ok.
    - fold sizes in HV, HH'. fold pos in HH'.
      assert (Hwhole : forall aes0 x0 w0 ta0 view rv ta1, (forall z, aes0 seed z = aes seed z) ->
        vrun (value_provider_body S aes0 clog K x0 w0 buckets out_v) ta0
          (index_provider_body S aes0 clog too y indices u v h buckets out_i) tb view (Ret (Ok rv)) ta1 (Ret (Ok ri)) tb ->
        vrun (value aes0 x0 w0) ta0 (index aes0) tb view (Ret (st, Ok rv)) ta1 (Ret (st, Ok ri)) tb).
      { intros aes0 x0 w0 ta0 view0 rv0 ta10 Hz HV0. unfold value, index, mpfss_value_provider, mpfss_index_provider.
        replace (n <? 1) with false by lia. fold NN n. rewrite Hix, Hoi. rewrite Z.eqb_refl. cbn [negb].
        replace (NN <? n) with false by lia. replace (n =? 0) with false by lia. replace (2^31 <=? n) with false by lia.
        replace (check_indices indices NN) with true.
        2:{ symmetry. apply forallb_forall. intros i Hi. apply (In_znth 0) in Hi. destruct Hi as (k & Hk & <-).
            specialize (Hr k ltac:(lia)). replace (NN <? znth 0 indices k) with false by lia. reflexivity. }
        cbn [negb]. rewrite !(update_same aes aes0 too h Hz) by (apply Cv || apply Ci).
        rewrite !(update_ok aes clog too e3 e2 He3 He2 seed) by (auto; lia). rewrite EB. unfold after_update, with_state.
        apply (vrun_bind (fun r => Ret (st, r)) (fun r => Ret (st, r))) in HV0. exact HV0. }
      assert (Hright : forall aes0 x0 w0 ta0 view0 rv0 ta10, (forall z, aes0 seed z = aes seed z) -> vole_correlation S x0 u v w0 ->
        vrun (value aes0 x0 w0) ta0 (index aes0) tb view0 (Ret (st, Ok rv0)) ta10 (Ret (st, Ok ri)) tb ->
        zlen rv0 = NN /\ zlen ri = NN /\ forall p, 0 <= p < NN -> s_add S (zn rv0 p) (zn ri p) = point_value S x0 y indices p).
      { intros aes0 x0 w0 ta0 view0 rv0 ta10 Hz Hc HV0.
        destruct (mpfss_correct_jrun S L aes0 clog K too e3 e2 He3 He2 seed stv sti sizes_v sizes_i x0 y indices u v w0 out_v out_i hashed ta0 tb)
          as (rv1 & ri1 & ta1 & J & Lv & Li & Hs); auto; try (now apply same_coherent).
        - destruct Hvole as (E1 & _). destruct Hc as (E2 & _). fold n. congruence.
        - rewrite (hash_cuckoo_same aes); [exact HH|exact Hz].
        - destruct (completes_unique _ _ _ _ _ _ _ _ (jrun_completes _ _ _ _ _ _ _ _ (vrun_jrun _ _ _ _ _ _ _ _ _ HV0))
            (jrun_completes _ _ _ _ _ _ _ _ J)) as [E1 E2].
          injection E1 as _ ->. injection E2 as _ ->. auto. }
      exists rv, ri, view. assert (HW : vrun (value aes x w) ta (index aes) tb view (Ret (st, Ok rv)) (tape_drop (drawn_for sizes) ta) (Ret (st, Ok ri)) tb)
        by (eapply Hwhole; [reflexivity|exact HV]).
      destruct (Hright aes x w ta view rv _ ltac:(reflexivity) Hvole HW) as (R1 & R2 & R3).
      split; [exact HW|]. split; [exact R1|]. split; [exact R2|]. split; [exact R3|].
      split.
      { intros i [Hi Hne]. unfold sizes in Hi, Hne |- *. rewrite zlen_map in Hi. rewrite (znth_map zlen []) in * by lia.
        pose proof (zlen_nonneg (znth [] buckets i)). split; [split; [lia|]|].
        - rewrite <- Htot. apply size_sum_le.
          + apply Forall_forall. intros z Hz. apply in_map_iff in Hz. destruct Hz as (l & <- & _). apply zlen_nonneg.
          + apply in_map. apply znth_In. lia.
        - unfold pos. rewrite (znth_map _ 0) by (rewrite zlen_zrange; lia). rewrite znth_zrange by lia. rewrite Z.add_0_l.
          pose proof (Hval i ltac:(lia)) as Hv. unfold valid_index in Hv. lia. }
      intros trees Htrees Hnd Huniq x' w' Hc.
      apply NoDup_cons_iff in Hnd. destruct Hnd as [Hn1 Hnd]. apply NoDup_cons_iff in Hnd. destruct Hnd as [Hn2 _].
      destruct (HH' trees Htrees) with (x' := x') (w' := w') as (values & rv' & HV' & HD); auto.
      { intro E. apply Hn2. left. congruence. }
      assert (Hs : forall z, changed_aes S aes sizes pos trees values ta seed z = aes seed z)
        by (intro z; apply changed_other; intro E; apply Hn1; [left|right; left]; congruence).
      exists values, rv'. cbv zeta. split; [|split; [exact HD|]].
      + intros aes'' ta'' Hb Hz. apply Hwhole; [exact Hz|]. now apply HV'.
      + destruct (Hright (changed_aes S aes sizes pos trees values ta) x' w' (changed_tape S sizes trees values ta) view rv'
          (tape_drop (drawn_for sizes) (changed_tape S sizes trees values ta)) Hs Hc) as (Q1 & _ & Q3); [|auto].
        apply Hwhole; [exact Hs|]. apply HV'; [apply behaves_refl|exact Hs].
  Qed.
End W.

Section G.
  Variable t : stype.
  Hypothesis Ht : stype_ok t.
  Let S := scalar_of t.
  Let L := scalar_of_laws t Ht.
  Hypothesis H16 : s_size S <= 16.
  Notation zn := (znth (s_zero S)).
  Variable aes : N -> N -> N.
  Variable clog : Z -> Z -> nat.
  Variable K : Q.
  Variable too : Z -> Z -> bool.
  Variable e3 e2 : Z -> Z.
  Hypothesis He3 : forall n, e3 n < 2^63.
  Hypothesis He2 : forall n, e2 n < 2^63.
  Variable seed : N.
  Variable h : hasher.
  Hypothesis Hh : cuckoo_create seed 3 = Ok h.

  Lemma mpfss_hidden hist_v hist_i sizes_v sizes_i x y indices u v w (out_v out_i : list S) hashed ta tb buckets pos trees :
    divisions hist_v -> divisions hist_i ->
    let NN := zlen out_v in let n := zlen y in
    division NN sizes_v -> division NN sizes_i -> good_sizes S clog K too e3 NN n ->
    zlen out_i = NN -> zlen indices = n -> num_buckets e3 e2 (mpfss_new h) n = Ok (zlen w) -> vole_correlation S x u v w ->
    (forall k, 0 <= k < n -> 0 <= znth 0 indices k < NN) ->
    hash_cuckoo aes too h (map uint128_of_int64 indices) (zlen w) = Ok hashed ->
    fresh_buckets aes too e3 e2 h NN n = Ok buckets -> positions_in buckets indices hashed pos ->
    let sizes := map zlen buckets in
    (forall i, nonempty sizes i -> batch_tree aes clog sizes ta i (trees i)) ->
    NoDup [seed; fst (ta 0%nat); fst (ta 1%nat)] -> parents_unique sizes pos trees ->
    let value aes x := mpfss_value_provider S aes clog K too e3 e2 sizes_v (mpfss_after aes too e3 e2 h hist_v) x n in
    let index aes := mpfss_index_provider S aes clog too e3 e2 sizes_i (mpfss_after aes too e3 e2 h hist_i) y indices u v out_i in
    exists st rv ri view,
      completes (value aes x w out_v) ta (watch (index aes) []) tb (st, Ok rv) ((st, Ok ri), view) /\
      forall x' w', vole_correlation S x' u v w' -> exists aes' ta' rv',
        completes (value aes' x' w' out_v) ta' (watch (index aes') []) tb (st, Ok rv') ((st, Ok ri), view) /\
        differ_at_missing sizes pos trees aes aes' ta ta'.
  Proof.
    intros Dv Di NN n Hdv Hdi Hg Hoi Hix Hnbw Hvole Hr HH Hfresh [Hlp Hpos] sizes Htrees Hnd Huniq value index.
    pose proof Hg as (Hn & HN3 & Hnb & Htoo & Hsup & Hch).
    pose proof (num_buckets_eq aes clog too e3 e2 He3 He2 seed h Hh n _ ltac:(lia) Hnb Hnbw) as Hw. rewrite Hw in HH.
    assert (Hh1 : 1 <= ch_num_hash_functions h) by (destruct (create_inv _ _ _ Hh) as [_ ->]; cbn; lia).
    destruct (create_inv _ _ _ Hh) as [_ Eh]. subst h.
    pose proof Hfresh as Hfresh'.
    rewrite (fresh_ok aes clog too e3 e2 He3 He2 seed NN n) in Hfresh' by (auto; try lia; unfold NN; apply zlen_nonneg). injection Hfresh' as EB.
    assert (Hlb : zlen buckets = e3 n) by (rewrite <- EB; apply (zlen_buckets aes clog too e3 e2 He3 He2 seed); unfold NN; pose proof (zlen_nonneg out_v); lia).
    assert (Hzb : forall b, 0 <= b < e3 n -> znth [] buckets b = simple_bucket (bucket_of aes seed (e3 n)) 3 (map uint128_of_int64 (zrange 0 NN)) b)
      by (intros b Hb; rewrite <- EB; now apply (znth_buckets aes clog too e3 e2 He3 He2 seed)).
    assert (Hposeq : map (slot buckets hashed indices) (zrange 0 (zlen buckets)) = pos).
    { apply (znth_ext 0); [rewrite zlen_map, zlen_zrange_max; pose proof (zlen_nonneg buckets); lia|]. intros b Hb. rewrite zlen_map, zlen_zrange_max in Hb.
      rewrite (znth_map _ 0) by (rewrite zlen_zrange_max; lia). rewrite znth_zrange by lia. rewrite Z.add_0_l. symmetry.
      specialize (Hpos b ltac:(lia)). cbv zeta in Hpos. unfold slot.
      destruct (Z.eqb_spec (znth 0 hashed b) (-1)) as [E|E]; [now rewrite orb_true_r|]. rewrite orb_false_r.
      destruct Hpos as (P1 & P2 & P3). replace (zlen (znth [] buckets b) =? 0) with false by lia.
      destruct (lower_bound_In (znth [] buckets b) (znth 0 indices (znth 0 hashed b))) as [Q1 Q2];
        [rewrite Hzb by lia; apply simple_bucket_sorted|rewrite <- P2; apply znth_In; lia|]. set (lb := lower_bound _ _) in *.
      destruct (Z.lt_trichotomy (znth 0 pos b) lb) as [C|[C|C]]; [|exact C|].
      - exfalso. pose proof (lower_bound_before (znth [] buckets b) (znth 0 indices (znth 0 hashed b)) (znth 0 pos b) ltac:(fold lb; lia)). lia.
      - exfalso. apply (P3 lb ltac:(lia)). exact Q2. }
    pose proof (after_coherent aes too e3 e2 He3 He2 (Hasher seed 3) Hh1 _ Dv) as Cv.
    pose proof (after_coherent aes too e3 e2 He3 He2 (Hasher seed 3) Hh1 _ Di) as Ci.
    destruct (mpfss_hidden_vrun S L H16 aes clog K too e3 e2 He3 He2 seed (mpfss_after aes too e3 e2 (Hasher seed 3) hist_v)
      (mpfss_after aes too e3 e2 (Hasher seed 3) hist_i) sizes_v sizes_i x y indices u v w out_v out_i hashed buckets ta tb)
      as (rv & ri & view & HV & _ & _ & _ & _ & HH'); auto.
    exists (Mpfss (Hasher seed 3) buckets (Some NN) (Some n)), rv, ri, view.
    split; [eapply vrun_completes; exact HV|]. rewrite Hposeq in HH'. intros x' w' Hc.
    destruct (HH' trees Htrees Hnd Huniq x' w' Hc) as (values & rv' & HV' & HD & _).
    exists (changed_aes S aes sizes pos trees values ta), (changed_tape S sizes trees values ta), rv'. split; [|exact HD].
    apply NoDup_cons_iff in Hnd. destruct Hnd as [Hn1 _].
    assert (Hs : forall z, changed_aes S aes sizes pos trees values ta seed z = aes seed z)
      by (intro z; apply changed_other; intro E; apply Hn1; [left|right; left]; congruence).
    unfold value, index. rewrite !(after_same aes (changed_aes S aes sizes pos trees values ta) too (Hasher seed 3) Hs).
    eapply vrun_completes. apply HV'; [apply behaves_refl|exact Hs].
  Qed.
End G.
