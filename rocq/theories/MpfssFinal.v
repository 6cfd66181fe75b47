(** Lemmas in the exact form of the final MPFSS theorems. *)
From Verif Require Import Base BaseFacts ListFacts ScalarModel ScalarSpec ScalarProofs SumFacts
  ProcModel ProcSpec ProcProofs RotModel RotSpec RotFinal SpfssModel SpfssProofs
  GilboaModel GilboaSpec CuckooModel CuckooSpec CuckooProofs CuckooFinal TraceSpec TraceProofs MpfssModel MpfssSpec MpfssProofs.
From Coq Require Import QArith Ring_theory Ring Sorted Permutation.
Local Open Scope Z_scope.

Section F.
  Variable S : scalar.
  Hypothesis L : scalar_laws S.
  Add Ring SR4 : (sl_ring S L).
  Notation zn := (znth (s_zero S)).
  Variable aes : N -> N -> N.
  Variable clog : Z -> Z -> nat.
  Variable K : Q.
  Variable too : Z -> Z -> bool.
  Variable e3 e2 : Z -> Z.
  Hypothesis He3 : forall n, e3 n < 2^63.
  Hypothesis He2 : forall n, e2 n < 2^63.
  Variable seed : N.
  Notation h := (Hasher seed 3).
  Notation domain NN := (map uint128_of_int64 (zrange 0 NN)).
  (** Bucket b for NN outputs and n points. *)
  Notation bucket NN n b := (simple_bucket (bucket_of aes seed (e3 n)) 3 (domain NN) b).
  Notation all_buckets NN n := (map (simple_bucket (bucket_of aes seed (e3 n)) 3 (domain NN)) (zrange 0 (e3 n))).
  Notation coh := (coherent aes too e3 e2 h).

  Lemma fresh_ok NN n : 0 <= NN -> 1 <= n -> 1 <= e3 n < 2^31 -> too NN (e3 n) = false ->
    fresh_buckets aes too e3 e2 h NN n = Ok (all_buckets NN n).
  Proof.
    intros HN Hn Hnb Ht. unfold fresh_buckets, get_optimal_number_of_buckets.
    replace (n <? 0) with false by lia. replace (n =? 0) with false by lia. cbn [ch_num_hash_functions].
    rewrite Z.eqb_refl. cbn [rbind].
    apply simple_spec; auto; [lia| |]; rewrite zlen_map, zlen_zrange by lia; rewrite Z.sub_0_r; auto using division_one.
  Qed.

  Lemma znth_buckets NN n b : 0 <= b < e3 n -> znth [] (all_buckets NN n) b = bucket NN n b.
  Proof. intro H. rewrite (znth_map _ 0) by (rewrite zlen_zrange; lia). now rewrite znth_zrange by lia. Qed.
  Lemma zlen_buckets NN n : 0 <= e3 n -> zlen (all_buckets NN n) = e3 n.
  Proof. intro H. rewrite zlen_map, zlen_zrange; lia. Qed.

  Lemma update_ok sizes st NN n : coh st -> division NN sizes -> 0 <= NN -> 1 <= n -> 1 <= e3 n < 2^31 -> too NN (e3 n) = false ->
    update_buckets aes too e3 e2 sizes st NN n = (Mpfss h (all_buckets NN n) (Some NN) (Some n), Ok tt).
  Proof.
    intros Hc Hd HN Hn Hnb Ht. rewrite (update_spec aes too e3 e2 He3 He2 h) by (auto; cbn; lia). now rewrite fresh_ok.
  Qed.

  Lemma in_bucket NN n b i : 0 <= NN < 2^63 -> In i (bucket NN n b) <->
    0 <= i < NN /\ exists j, 0 <= j < 3 /\ bucket_of aes seed (e3 n) j (uint128_of_int64 i) = b.
  Proof.
    intro HN. rewrite simple_bucket_In. rewrite zlen_map, zlen_zrange, Z.sub_0_r by lia.
    split; intros (Hi & j & Hj & E); (split; [lia|]); exists j; (split; [lia|]).
    - rewrite (znth_map _ 0), znth_zrange in E by (rewrite ?zlen_zrange; lia). exact E.
    - rewrite (znth_map _ 0), znth_zrange by (rewrite ?zlen_zrange; lia). exact E.
  Qed.

  Lemma sizes_total NN n : 0 <= NN -> 1 <= e3 n < 2^31 -> size_sum (map zlen (all_buckets NN n)) = 3 * NN.
  Proof.
    intros HN Hnb. rewrite map_map. rewrite (buckets_total (bucket_of aes seed (e3 n)) (e3 n)).
    - rewrite zlen_map, zlen_zrange by lia. lia.
    - intros j x. apply (place_range aes h). lia.
    - lia.
  Qed.

  (** Position of the placed index in its bucket. *)
  Definition lands (NN n : Z) (indices H : list Z) (b : Z) : Z :=
    if (zlen (bucket NN n b) =? 0) || (znth 0 H b =? -1) then 0 else lower_bound (bucket NN n b) (znth 0 indices (znth 0 H b)).

  Lemma lands_slot NN n indices H b : 0 <= b < e3 n -> slot (all_buckets NN n) H indices b = lands NN n indices H b.
  Proof. intro Hb. unfold slot, lands. now rewrite znth_buckets. Qed.

  Lemma hash_indices_ok indices nb H : hash_cuckoo aes too h (map uint128_of_int64 indices) nb = Ok H ->
    hash_indices aes too h indices nb = Ok H.
  Proof. intro E. unfold hash_indices. now rewrite E. Qed.

  Lemma hashed_in NN n indices H b : 0 <= NN < 2^63 -> 1 <= e3 n < 2^31 ->
    hash_cuckoo aes too h (map uint128_of_int64 indices) (e3 n) = Ok H ->
    0 <= b < e3 n -> znth 0 H b <> -1 -> 0 <= znth 0 indices (znth 0 H b) < NN ->
    In (znth 0 indices (znth 0 H b)) (bucket NN n b).
  Proof.
    intros HN Hnb E Hb Hf Hr. apply (cuckoo_placement aes too seed 3) in E; [|reflexivity|lia].
    destruct E as (_ & _ & E). destruct (E b Hb) as [?|(H1 & j & Hj & Hp)]; [congruence|].
    rewrite zlen_map in H1. rewrite (znth_map _ 0) in Hp by lia.
    apply in_bucket; auto. split; auto. exists j. auto.
  Qed.

  Lemma mpfss_jrun stv sti sizes_v sizes_i x y indices u v w out_v out_i H ta tb :
    let NN := zlen out_v in let n := zlen y in
    coh stv -> coh sti -> division NN sizes_v -> division NN sizes_i ->
    good_sizes S clog K too e3 NN n -> zlen out_i = NN -> zlen indices = n ->
    zlen w = e3 n -> vole_correlation S x u v w ->
    hash_cuckoo aes too h (map uint128_of_int64 indices) (e3 n) = Ok H ->
    (forall k, 0 <= k < n -> znth 0 indices k < NN) ->
    let st := Mpfss h (all_buckets NN n) (Some NN) (Some n) in
    exists rv ri ta', jrun (mpfss_value_provider S aes clog K too e3 e2 sizes_v stv x n w out_v) ta
        (mpfss_index_provider S aes clog too e3 e2 sizes_i sti y indices u v out_i) tb
        (Ret (st, Ok rv)) ta' (Ret (st, Ok ri)) tb /\
      zlen rv = NN /\ zlen ri = NN /\
      forall p, 0 <= p < NN ->
        s_add S (zn rv p) (zn ri p) =
        s_sum S (map (fun b => if negb (znth 0 H b =? -1) && (0 <? zlen (bucket NN n b)) &&
                                  (znth 0 (bucket NN n b) (lands NN n indices H b) =? p)
                               then s_mul S x (zn y (znth 0 H b)) else s_zero S) (zrange 0 (e3 n))).
  Proof.
    intros NN n Hcv Hci Hdv Hdi (Hn & HN3 & Hnb & Ht & Hsup & Hch) Hoi Hix Hw Hvole HH Hlt st.
    assert (HN0 : 0 <= NN) by (unfold NN; apply zlen_nonneg).
    pose proof HH as HP. apply (cuckoo_placement aes too seed 3) in HP; [|reflexivity|lia]. destruct HP as (HL & _ & HP).
    rewrite zlen_map, Hix in HP.
    assert (Hslot : forall b, 0 <= b < e3 n -> znth 0 H b = -1 \/ 0 <= znth 0 H b < n).
    { intros b Hb. destruct (HP b Hb) as [?|[? _]]; auto. }
    assert (Hval : forall b, 0 <= b < e3 n -> valid_index (lands NN n indices H b) (zlen (bucket NN n b))).
    { intros b Hb. unfold lands. destruct (Z.eqb_spec (zlen (bucket NN n b)) 0) as [E|E]; cbn [orb].
      - split; [lia|auto].
      - pose proof (zlen_nonneg (bucket NN n b)). destruct (Z.eqb_spec (znth 0 H b) (-1)) as [E1|E1]; [split; [lia|right; lia]|].
        destruct (Hslot b Hb) as [?|Hk]; [lia|]. pose proof (Hlt _ Hk) as Hi.
        destruct (Z.ltb_spec (znth 0 indices (znth 0 H b)) 0) as [Hneg|Hpos].
        + rewrite lower_bound_small; [split; lia|]. apply Forall_forall. intros a Ha. apply in_bucket in Ha; lia.
        + destruct (lower_bound_In (bucket NN n b) (znth 0 indices (znth 0 H b))) as [Hr _].
          * apply simple_bucket_sorted.
          * apply hashed_in; auto; lia.
          * split; lia. }
    destruct (bodies_jrun S L aes clog K too h (all_buckets NN n) H indices) with (NN := NN) (x := x) (y := y) (u := u) (v := v) (w := w)
      (out_v := out_v) (out_i := out_i) (ta := ta) (tb := tb) as (rv & ri & ta' & HJ & Lv & Li & Hs); rewrite ?zlen_buckets by lia; auto; try lia.
    - intros b j Hb Hj. rewrite znth_buckets in * by lia.
      assert (Hin : In (znth 0 (bucket NN n b) j) (bucket NN n b)) by (apply znth_In; lia).
      apply in_bucket in Hin; lia.
    - rewrite sizes_total; lia.
    - intros b Hb. apply in_map_iff in Hb. destruct Hb as (b0 & <- & Hb0). apply Hsup.
      split; [apply zlen_nonneg|]. rewrite <- (sizes_total NN n) by lia. apply size_sum_le.
      + apply Forall_forall. intros z Hz. apply in_map_iff in Hz. destruct Hz as (l & <- & _). apply zlen_nonneg.
      + apply in_map. apply (in_map (simple_bucket _ _ _)). exact Hb0.
    - rewrite sizes_total by lia. exact Hch.
    - intros b Hb. rewrite lands_slot, znth_buckets by lia. now apply Hval.
    - now apply hash_indices_ok.
    - exists rv, ri, ta'. split; [|split; [auto|split; [auto|]]].
      + unfold mpfss_value_provider, mpfss_index_provider.
        replace (n <? 1) with false by lia. fold NN n. rewrite Hix, Hoi. rewrite Z.eqb_refl. cbn [negb].
        replace (NN <? n) with false by lia. replace (n =? 0) with false by lia. replace (2^31 <=? n) with false by lia.
        replace (check_indices indices NN) with true.
        2:{ symmetry. apply forallb_forall. intros i Hi. apply (In_znth 0) in Hi. destruct Hi as (k & Hk & <-).
            specialize (Hlt k ltac:(lia)). replace (NN <? znth 0 indices k) with false by lia. reflexivity. }
        cbn [negb]. rewrite !update_ok by (auto; lia). unfold after_update, with_state.
        apply (jrun_bind (fun r => Ret (st, r)) (fun r => Ret (st, r))) in HJ. exact HJ.
      + intros p Hp. rewrite Hs by auto. rewrite zlen_buckets by lia. apply sum_ext. intros b Hb. apply In_zrange in Hb.
        rewrite lands_slot, znth_buckets by lia. reflexivity.
  Qed.

  Lemma sum_over_placement n indices (f : Z -> S) H : n = zlen indices ->
    1 <= e3 n < 2^31 ->
    hash_cuckoo aes too h (map uint128_of_int64 indices) (e3 n) = Ok H ->
    s_sum S (map (fun b => if negb (znth 0 H b =? -1) then f (znth 0 H b) else s_zero S) (zrange 0 (e3 n))) =
    s_sum S (map f (zrange 0 n)).
  Proof.
    intros -> Hnb E. pose proof E as E'. apply (cuckoo_placement aes too seed 3) in E'; [|reflexivity|lia].
    destruct E' as (HL & _). apply (cuckoo_perm aes too seed 3) in E; [|reflexivity|lia]. rewrite zlen_map in E.
    rewrite <- (sum_perm S L _ _ (Permutation_map f E)). rewrite (sum_filter S L).
    transitivity (s_sum S (map (fun a => if negb (a =? -1) then f a else s_zero S) (map (znth 0 H) (zrange 0 (zlen H))))); [|now rewrite map_zrange_znth].
    rewrite map_map, HL. reflexivity.
  Qed.

  Lemma mpfss_correct_jrun stv sti sizes_v sizes_i x y indices u v w out_v out_i H ta tb :
    let NN := zlen out_v in let n := zlen y in
    coh stv -> coh sti -> division NN sizes_v -> division NN sizes_i ->
    good_sizes S clog K too e3 NN n -> zlen out_i = NN -> zlen indices = n ->
    zlen w = e3 n -> vole_correlation S x u v w ->
    hash_cuckoo aes too h (map uint128_of_int64 indices) (e3 n) = Ok H ->
    (forall k, 0 <= k < n -> 0 <= znth 0 indices k < NN) ->
    let st := Mpfss h (all_buckets NN n) (Some NN) (Some n) in
    exists rv ri ta', jrun (mpfss_value_provider S aes clog K too e3 e2 sizes_v stv x n w out_v) ta
        (mpfss_index_provider S aes clog too e3 e2 sizes_i sti y indices u v out_i) tb
        (Ret (st, Ok rv)) ta' (Ret (st, Ok ri)) tb /\
      zlen rv = NN /\ zlen ri = NN /\
      forall p, 0 <= p < NN -> s_add S (zn rv p) (zn ri p) = point_value S x y indices p.
  Proof.
    intros NN n Hcv Hci Hdv Hdi Hg Hoi Hix Hw Hvole HH Hr st.
    destruct (mpfss_jrun stv sti sizes_v sizes_i x y indices u v w out_v out_i H ta tb) as (rv & ri & ta' & HJ & Lv & Li & Hs); auto.
    { intros k Hk. apply Hr. exact Hk. }
    exists rv, ri, ta'. split; [exact HJ|]. split; [auto|]. split; [auto|]. intros p Hp. rewrite Hs by auto.
    fold NN n. unfold point_value. rewrite Hix. destruct Hg as (Hn & HN3 & Hnb & Ht & Hsup & Hch).
    rewrite <- (sum_over_placement n indices _ H) by (auto; lia). apply sum_ext. intros b Hb. apply In_zrange in Hb.
    destruct (Z.eqb_spec (znth 0 H b) (-1)) as [E|E]; [reflexivity|]. cbn [negb andb].
    pose proof HH as HP. apply (cuckoo_placement aes too seed 3) in HP; [|reflexivity|lia]. destruct HP as (HL & _ & HP).
    destruct (HP b Hb) as [?|[Hk _]]; [congruence|]. rewrite zlen_map, Hix in Hk. pose proof (Hr _ Hk) as Hi.
    assert (Hin : In (znth 0 indices (znth 0 H b)) (bucket NN n b)) by (apply hashed_in; auto; lia).
    destruct (lower_bound_In (bucket NN n b) (znth 0 indices (znth 0 H b))) as [Hr1 Hr2]; [apply simple_bucket_sorted|auto|].
    unfold lands. replace (zlen (bucket NN n b) =? 0) with false by lia. replace (znth 0 H b =? -1) with false by lia. cbn [orb].
    rewrite Hr2. replace (0 <? zlen (bucket NN n b)) with true by lia. reflexivity.
  Qed.

  (** *** Argument checks *)
  Lemma index_checks sizes st y indices u v out :
    zlen y <> zlen indices \/ zlen out < zlen indices \/ zlen y = 0 \/
    (zlen indices < 2^31 /\ exists k, 0 <= k < zlen indices /\ zlen out < znth 0 indices k) ->
    exists m, returns (mpfss_index_provider S aes clog too e3 e2 sizes st y indices u v out) (st, Err (invalid_argument m)).
  Proof.
    clear He3 He2 seed L. intro Hc. unfold returns, mpfss_index_provider. destruct (Z.eqb_spec (zlen y) (zlen indices)) as [E|E]; cbn [negb]; [|eauto].
    destruct (Z.ltb_spec (zlen out) (zlen indices)); [eauto|]. destruct (Z.eqb_spec (zlen y) 0); [eauto|].
    destruct Hc as [Hc|[Hc|[Hc|(Hlt & k & Hk & Hbad)]]]; try lia.
    replace (2^31 <=? zlen indices) with false by lia.
    replace (check_indices indices (zlen out)) with false; [cbn [negb]; eauto|].
    symmetry. apply not_true_iff_false. unfold check_indices. rewrite forallb_forall. intro Hall.
    specialize (Hall (znth 0 indices k) (znth_In 0 indices k Hk)). replace (zlen out <? znth 0 indices k) with true in Hall by lia. discriminate.
  Qed.
  Lemma value_checks sizes st x y_len w out : y_len < 1 ->
    exists m, returns (mpfss_value_provider S aes clog K too e3 e2 sizes st x y_len w out) (st, Err (invalid_argument m)).
  Proof. clear He3 He2 seed L. intro H. unfold returns, mpfss_value_provider. replace (y_len <? 1) with true by lia. eauto. Qed.

  (** The index provider from the point where the checks are passed. *)
  Lemma index_provider_eq sizes st y indices u v out :
    let NN := zlen out in let n := zlen y in
    coh st -> division NN sizes -> zlen indices = n -> 1 <= n <= NN -> n < 2^31 -> 1 <= e3 n < 2^31 -> too NN (e3 n) = false ->
    (forall k, 0 <= k < n -> znth 0 indices k <= NN) ->
    mpfss_index_provider S aes clog too e3 e2 sizes st y indices u v out =
    with_state S (Mpfss h (all_buckets NN n) (Some NN) (Some n))
      (index_provider_body S aes clog too y indices u v h (all_buckets NN n) out).
  Proof.
    intros NN n Hc Hd Hix Hn Hlt Hnb Ht Hle. unfold mpfss_index_provider. fold NN n. rewrite Hix, Z.eqb_refl. cbn [negb].
    replace (NN <? n) with false by lia. replace (n =? 0) with false by lia. replace (2^31 <=? n) with false by lia.
    replace (check_indices indices NN) with true.
    - cbn [negb]. rewrite update_ok by (auto; lia). reflexivity.
    - symmetry. apply forallb_forall. intros i Hi. apply (In_znth 0) in Hi. destruct Hi as (k & Hk & <-).
      specialize (Hle k ltac:(lia)). replace (NN <? znth 0 indices k) with false by lia. reflexivity.
  Qed.

  Lemma permuted_ok y indices H : zlen y = zlen indices -> 1 <= e3 (zlen y) < 2^31 ->
    hash_cuckoo aes too h (map uint128_of_int64 indices) (e3 (zlen y)) = Ok H ->
    zlen H = e3 (zlen y) /\ permute_y S H (e3 (zlen y)) y = Ok (permuted S y H).
  Proof.
    intros Hy Hnb E. apply (cuckoo_placement aes too seed 3) in E; [|reflexivity|lia]. destruct E as (HL & _ & HP).
    split; auto. unfold permute_y.
    rewrite (rmapM_ok _ (fun i => (fun k => if k =? -1 then s_zero S else zn y k) (znth 0 H i))).
    - unfold permuted. rewrite <- (map_map (znth 0 H) (fun k => if k =? -1 then s_zero S else zn y k)).
      rewrite <- HL. now rewrite map_zrange_znth.
    - intros i Hi. apply In_zrange in Hi. rewrite (zget_ok 0) by lia. cbn [rbind].
      destruct (Z.eqb_spec (znth 0 H i) (-1)); auto. destruct (HP i Hi) as [?|[Hk _]]; [congruence|].
      rewrite zlen_map in Hk. apply zget_ok. lia.
  Qed.

  (** *** What the other party notices *)
  Notation masked y H u := (MVec (plus S (permuted S y H) u)).
  Lemma index_provider_trace sizes st y indices u v out evs :
    let NN := zlen out in let n := zlen y in
    coh st -> division NN sizes -> e3 n < 2^31 ->
    trace (mpfss_index_provider S aes clog too e3 e2 sizes st y indices u v out) evs ->
    prefix evs (match hash_cuckoo aes too h (map uint128_of_int64 indices) (e3 n) with
                | Ok H => [Sent (masked y H u); Chose false (ot_count clog (map zlen (all_buckets NN n)))]
                | _ => [] end).
  Proof.
    intros NN n Hc Hd Hnb. apply (fun W : within _ _ => W evs). unfold mpfss_index_provider. fold NN n.
    destruct (Z.eqb_spec n (zlen indices)) as [Hix|]; cbn [negb]; [|apply within_ret].
    destruct (Z.ltb_spec NN (zlen indices)); [apply within_ret|]. destruct (Z.eqb_spec n 0); [apply within_ret|].
    destruct (Z.leb_spec (2^31) (zlen indices)); [apply within_ret|].
    destruct (negb (check_indices indices NN)); [apply within_ret|].
    assert (Hn0 : 0 <= n) by (unfold n; apply zlen_nonneg). assert (HN0 : 0 <= NN) by (unfold NN; apply zlen_nonneg).
    rewrite (update_spec aes too e3 e2 He3 He2 h) by (auto; cbn; lia).
    destruct (Z.leb_spec (e3 n) 0).
    { unfold fresh_buckets, get_optimal_number_of_buckets. replace (n <? 0) with false by lia. replace (n =? 0) with false by lia.
      cbn [ch_num_hash_functions]. rewrite Z.eqb_refl. cbn [rbind]. unfold hash_simple. replace (e3 n <=? 0) with true by lia. apply within_ret. }
    destruct (too NN (e3 n)) eqn:Ht.
    { unfold fresh_buckets, get_optimal_number_of_buckets. replace (n <? 0) with false by lia. replace (n =? 0) with false by lia.
      cbn [ch_num_hash_functions]. rewrite Z.eqb_refl. cbn [rbind]. unfold hash_simple. replace (e3 n <=? 0) with false by lia.
      rewrite zlen_inputs by lia. rewrite Ht. apply within_ret. }
    rewrite fresh_ok by (auto; lia). unfold after_update, with_state. apply within_bind; [|intro; apply within_ret].
    cbn [m_hasher m_buckets]. unfold index_provider_body. rewrite zlen_buckets by lia. rewrite wrap32_id by lia.
    unfold hash_indices. destruct (hash_cuckoo aes too h (map uint128_of_int64 indices) (e3 n)) as [H'|[[] m]|] eqn:EH; cbn [plift];
      try apply within_ret.
    - replace (e3 n <? 0) with false by lia. destruct (permuted_ok y indices H') as [HL HPy]; [exact Hix|fold n; lia|exact EH|].
      fold n in HPy. rewrite HPy. cbn [plift]. destruct (negb _); [apply within_ret|]. apply within_send. apply within_lift. intros O HO.
      apply within_lift. intros ix _. apply within_bindr; [|intro; apply within_ret].
      eapply within_weaken; [apply spfss_index_trace|]. replace (map zlen O) with (map zlen (all_buckets NN n)); [apply prefix_refl|].
      rewrite (rmapM_ok _ (fun i => zrepeat (s_zero S) (zlen (znth [] (all_buckets NN n) i)))) in HO.
      2:{ intros i Hi. apply In_zrange in Hi. rewrite (zget_ok []) by (rewrite zlen_buckets; lia). reflexivity. }
      injection HO as <-. rewrite !map_map. apply map_ext_in. intros i Hi. apply In_zrange in Hi.
      rewrite zlen_zrepeat by apply zlen_nonneg. now rewrite znth_buckets.
    - destruct (_ && _); apply within_ret.
  Qed.

  Lemma zlen_plus (a b : list S) : zlen a = zlen b -> zlen (plus S a b) = zlen a.
  Proof. clear. intro H. unfold plus. rewrite zlen_map, zlen_combine; auto. Qed.
  Lemma znth_plus (a b : list S) i : zlen a = zlen b -> 0 <= i < zlen a -> zn (plus S a b) i = s_add S (zn a i) (zn b i).
  Proof.
    clear. intros H Hi. unfold plus. rewrite (znth_map _ (s_zero S, s_zero S)) by (rewrite zlen_combine; lia). now rewrite znth_combine by auto.
  Qed.
  Lemma masking (p p' u v w : list S) x : zlen p = zlen w -> zlen p' = zlen w -> vole_correlation S x u v w ->
    exists u' v', (vole_correlation S x u' v' w /\ plus S p' u' = plus S p u) /\
      forall u'' v'', vole_correlation S x u'' v'' w -> plus S p' u'' = plus S p u -> u'' = u' /\ v'' = v'.
  Proof.
    clear He3 He2 e3 e2 seed too clog aes K. intros Hp Hp' (Hu & Hv & Hc).
    set (u' := map (fun i => s_sub S (s_add S (zn p i) (zn u i)) (zn p' i)) (zrange 0 (zlen w))).
    set (v' := map (fun i => s_sub S (zn w i) (s_mul S (zn u' i) x)) (zrange 0 (zlen w))).
    pose proof (zlen_nonneg w) as Hw0.
    assert (Lu : zlen u' = zlen w) by (unfold u'; rewrite zlen_map, zlen_zrange; lia).
    assert (Lv : zlen v' = zlen w) by (unfold v'; rewrite zlen_map, zlen_zrange; lia).
    assert (Nu : forall i, 0 <= i < zlen w -> zn u' i = s_sub S (s_add S (zn p i) (zn u i)) (zn p' i)).
    { intros i Hi. unfold u'. rewrite (znth_map _ 0) by (rewrite zlen_zrange; lia). now rewrite znth_zrange by lia. }
    assert (Nv : forall i, 0 <= i < zlen w -> zn v' i = s_sub S (zn w i) (s_mul S (zn u' i) x)).
    { intros i Hi. unfold v'. rewrite (znth_map _ 0) by (rewrite zlen_zrange; lia). now rewrite znth_zrange by lia. }
    exists u', v'. split; [split; [split; [auto|split; [auto|]]|]|].
    - intros i Hi. rewrite Nv by auto. ring.
    - apply (znth_ext (s_zero S)); [rewrite !zlen_plus; lia|]. intros i Hi. rewrite zlen_plus in Hi by lia.
      rewrite !znth_plus by lia. rewrite Nu by lia. ring.
    - intros u'' v'' (Hu'' & Hv'' & Hc'') E.
      assert (Eu : u'' = u').
      { apply (znth_ext (s_zero S)); [lia|]. intros i Hi. assert (E1 : zn (plus S p' u'') i = zn (plus S p u) i) by now rewrite E.
        rewrite !znth_plus in E1 by lia. rewrite Nu by lia. rewrite <- E1. ring. }
      split; auto. subst u''. apply (znth_ext (s_zero S)); [lia|]. intros i Hi. rewrite Nv by lia. rewrite Hc'' by lia. ring.
  Qed.

  (** *** Failure of cuckoo hashing *)
  Lemma set_size_NoDup l : zlen l = set_size l <-> NoDup l.
  Proof.
    unfold set_size. split; intro H.
    - apply (NoDup_incl_NoDup (l := nodup Z.eq_dec l)); [apply NoDup_nodup|unfold zlen in H; lia|].
      intros a Ha. now apply nodup_In in Ha.
    - now rewrite nodup_fixed_point.
  Qed.

  Lemma insertion_fails sizes st y indices u v out :
    let NN := zlen out in let n := zlen y in
    coh st -> division NN sizes -> zlen indices = n -> 1 <= n <= NN -> n < 2^31 -> 1 <= e3 n < 2^31 -> too NN (e3 n) = false ->
    (forall k, 0 <= k < n -> znth 0 indices k <= NN) ->
    hash_cuckoo aes too h (map uint128_of_int64 indices) (e3 n) = Err insertion_failed ->
    let p := mpfss_index_provider S aes clog too e3 e2 sizes st y indices u v out in
    exists st', (~ NoDup indices -> returns p (st', Err (invalid_argument "All `indices` must be unique"))) /\
      (NoDup indices -> returns p (st', Err insertion_failed)).
  Proof.
    intros NN n Hc Hd Hix Hn Hlt Hnb Ht Hle E p. exists (Mpfss h (all_buckets NN n) (Some NN) (Some n)).
    unfold p, returns. rewrite index_provider_eq by (auto; lia). fold NN n. unfold index_provider_body.
    rewrite zlen_buckets by lia. rewrite wrap32_id by lia. unfold hash_indices. rewrite E. unfold insertion_failed, internal_error.
    rewrite String.eqb_refl. cbn [andb].
    split; intro Hdup.
    - assert (Hne : zlen indices <> set_size indices) by (rewrite set_size_NoDup; auto).
      replace (zlen indices =? set_size indices) with false by lia. reflexivity.
    - apply set_size_NoDup in Hdup. replace (zlen indices =? set_size indices) with true by lia. reflexivity.
  Qed.

  (** *** An index equal to the output size *)
  Lemma index_at_end sizes st y indices u v out H :
    let NN := zlen out in let n := zlen y in
    coh st -> division NN sizes -> zlen indices = n -> 1 <= n <= NN -> NN < 2^63 -> n < 2^31 -> 1 <= e3 n < 2^31 -> too NN (e3 n) = false ->
    zlen u = e3 n -> zlen v = e3 n ->
    (forall k, 0 <= k < n -> znth 0 indices k <= NN) ->
    hash_cuckoo aes too h (map uint128_of_int64 indices) (e3 n) = Ok H ->
    (exists b, 0 <= b < e3 n /\ znth 0 H b <> -1 /\ znth 0 indices (znth 0 H b) = NN /\ bucket NN n b <> []) ->
    exists st' m, mpfss_index_provider S aes clog too e3 e2 sizes st y indices u v out =
      Send (masked y H u) (Ret (st', Err (invalid_argument m))).
  Proof.
    intros NN n Hc Hd Hix Hn HN Hlt Hnb Ht Hu Hv Hle EH (b & Hb & Hf & Hi & Hne).
    rewrite index_provider_eq by (auto; lia). fold NN n.
    exists (Mpfss h (all_buckets NN n) (Some NN) (Some n)). eexists.
    unfold index_provider_body. rewrite zlen_buckets by lia. rewrite wrap32_id by lia.
    rewrite (hash_indices_ok _ _ _ EH). cbn [plift]. replace (e3 n <? 0) with false by lia.
    pose proof EH as HP. apply (cuckoo_placement aes too seed 3) in HP; [|reflexivity|lia]. destruct HP as (_ & _ & HP).
    destruct (permuted_ok y indices H) as [HL HPy]; [fold n; lia|fold n; lia|exact EH|].
    fold n in HL, HPy. rewrite HPy. cbn [plift]. assert (Lp : zlen (permuted S y H) = e3 n) by (unfold permuted; rewrite zlen_map; exact HL).
    rewrite Lp, Hu, Z.eqb_refl. cbn [negb]. unfold with_state. cbn [pbind].
    set (O0 := map (fun i => zrepeat (s_zero S) (zlen (znth [] (all_buckets NN n) i))) (zrange 0 (e3 n))).
    rewrite (rmapM_ok _ (fun i => zrepeat (s_zero S) (zlen (znth [] (all_buckets NN n) i)))).
    2:{ intros i Hi0. apply In_zrange in Hi0. rewrite (zget_ok []) by (rewrite zlen_buckets; lia). reflexivity. }
    cbn [plift]. fold O0.
    rewrite (rmapM_ok _ (slot (all_buckets NN n) H indices)).
    2:{ intros i Hi0. apply In_zrange in Hi0. unfold index_in_bucket, slot. rewrite (zget_ok []) by (rewrite zlen_buckets; lia). cbn [rbind].
        destruct (zlen (znth [] (all_buckets NN n) i) =? 0); cbn [orb]; auto. rewrite (zget_ok 0) by lia. cbn [rbind].
        destruct (Z.eqb_spec (znth 0 H i) (-1)); auto. destruct (HP i Hi0) as [?|[Hk _]]; [congruence|]. rewrite zlen_map in Hk.
        rewrite (zget_ok 0) by lia. reflexivity. }
    cbn [plift]. set (ix := map (slot (all_buckets NN n) H indices) (zrange 0 (e3 n))).
    assert (LO : zlen O0 = e3 n) by (unfold O0; rewrite zlen_map, zlen_zrange; lia).
    assert (Lix : zlen ix = e3 n) by (unfold ix; rewrite zlen_map, zlen_zrange; lia).
    unfold spfss_index_provider_batched. rewrite Hv, LO, Lix, Z.eqb_refl. cbn [negb orb].
    unfold rot_receiver_batched. rewrite LO, Lix, Z.eqb_refl. cbn [negb].
    replace (existsb _ _) with true; [reflexivity|]. symmetry. apply existsb_exists.
    exists (slot (all_buckets NN n) H indices b, zrepeat (s_zero S) (zlen (bucket NN n b))). split.
    - assert (E : (slot (all_buckets NN n) H indices b, zrepeat (s_zero S) (zlen (bucket NN n b))) = znth (0, []) (combine ix O0) b).
      { rewrite znth_combine by lia. unfold ix, O0. rewrite !(znth_map _ 0) by (rewrite zlen_zrange; lia).
        rewrite znth_zrange by lia. rewrite Z.add_0_l. now rewrite znth_buckets. }
      rewrite E. apply znth_In. rewrite zlen_combine; lia.
    - rewrite lands_slot by lia. unfold lands. assert (Hz : zlen (bucket NN n b) <> 0).
      { intro E. apply zlen_0_nil in E. auto. }
      pose proof (zlen_nonneg (bucket NN n b)). replace (zlen (bucket NN n b) =? 0) with false by lia.
      replace (znth 0 H b =? -1) with false by lia. cbn [orb].
      rewrite lower_bound_large.
      + unfold bad_index. rewrite zlen_zrepeat by lia. lia.
      + apply Forall_forall. intros a Ha. apply in_bucket in Ha; lia.
  Qed.

  (** *** A single negative index *)
  Lemma negative_jrun stv sti sizes_v sizes_i x y0 i u v w out_v out_i ta tb :
    let NN := zlen out_v in
    coh stv -> coh sti -> division NN sizes_v -> division NN sizes_i ->
    good_sizes S clog K too e3 NN 1 -> too 1 (e3 1) = false -> zlen out_i = NN -> zlen w = e3 1 -> vole_correlation S x u v w -> i < 0 ->
    let bk := bucket NN 1 (bucket_of aes seed (e3 1) 0 (uint128_of_int64 i)) in
    exists st rv ri ta', jrun (mpfss_value_provider S aes clog K too e3 e2 sizes_v stv x 1 w out_v) ta
        (mpfss_index_provider S aes clog too e3 e2 sizes_i sti [y0] [i] u v out_i) tb
        (Ret (st, Ok rv)) ta' (Ret (st, Ok ri)) tb /\
      forall p, 0 <= p < NN ->
        s_add S (zn rv p) (zn ri p) = match bk with [] => s_zero S | q :: _ => if q =? p then s_mul S x y0 else s_zero S end.
  Proof.
    intros NN Hcv Hci Hdv Hdi Hg Ht1 Hoi Hw Hvole Hi bk. pose proof Hg as (Hn & HN3 & Hnb & Ht & Hsup & Hch).
    destruct (cuckoo_distinct aes too seed 3 h (e3 1) [uint128_of_int64 i]) as (H & EH & Hpos);
      [reflexivity|lia|lia|change (zlen [uint128_of_int64 i]) with 1; lia|exact Ht1| |].
    { change (zlen [uint128_of_int64 i]) with 1. intros; lia. }
    destruct (mpfss_jrun stv sti sizes_v sizes_i x [y0] [i] u v w out_v out_i H ta tb) as (rv & ri & ta' & HJ & Lv & Li & Hs); auto.
    { intros k Hk. change (zlen [y0]) with 1 in Hk. replace k with 0 by lia. change (znth 0 [i] 0) with i. fold NN. lia. }
    do 4 eexists. split; [exact HJ|]. intros p Hp. rewrite Hs by auto. fold NN. change (zlen [y0]) with 1.
    change (zlen [uint128_of_int64 i]) with 1 in Hpos. specialize (Hpos 0 ltac:(lia)). change (znth 0%N [uint128_of_int64 i] 0) with (uint128_of_int64 i) in Hpos.
    set (b0 := bucket_of aes seed (e3 1) 0 (uint128_of_int64 i)) in *.
    assert (Hb0 : 0 <= b0 < e3 1) by (apply (place_range aes h); lia).
    pose proof EH as HP. apply (cuckoo_placement aes too seed 3) in HP; [|reflexivity|lia]. destruct HP as (HL & Hex & HP).
    rewrite (sum_single S L _ _ b0).
    - rewrite Hpos. change (0 =? -1) with false. cbn [negb andb]. fold bk. unfold lands. rewrite Hpos. fold bk.
      change (0 =? -1) with false. change (zn [y0] 0) with y0. rewrite orb_false_r.
      assert (Hsm : lower_bound bk (znth 0 [i] 0) = 0).
      { apply lower_bound_small. apply Forall_forall. intros a Ha. apply in_bucket in Ha; [|lia]. change (znth 0 [i] 0) with i. lia. }
      destruct bk as [|q l] eqn:E; [reflexivity|]. rewrite zlen_cons. pose proof (zlen_nonneg l).
      replace (0 <? zlen l + 1) with true by lia. replace (zlen l + 1 =? 0) with false by lia. rewrite Hsm. cbn [andb].
      change (znth 0 (q :: l) 0) with q. reflexivity.
    - apply zrange_NoDup.
    - apply In_zrange. lia.
    - intros b Hb Hne. apply In_zrange in Hb. destruct (HP b Hb) as [->|[Hk _]]; [reflexivity|].
      change (zlen [uint128_of_int64 i]) with 1 in *. exfalso.
      destruct (Hex 0 ltac:(lia)) as (b1 & (Hb1 & E1) & Huniq). assert (znth 0 H b = 0) by lia.
      assert (b1 = b) by (apply Huniq; auto). assert (b1 = b0) by (apply Huniq; auto). lia.
  Qed.
End F.

(** *** The multi-point function for distinct points *)
Section P.
  Variable S : scalar.
  Hypothesis L : scalar_laws S.
  Lemma point_at x y indices k : NoDup indices -> 0 <= k < zlen indices ->
    point_value S x y indices (znth 0 indices k) = s_mul S x (znth (s_zero S) y k).
  Proof.
    intros Hd Hk. unfold point_value. rewrite (sum_single S L _ _ k).
    - now rewrite Z.eqb_refl.
    - apply zrange_NoDup.
    - apply In_zrange. lia.
    - intros j Hj Hne. apply In_zrange in Hj. destruct (Z.eqb_spec (znth 0 indices j) (znth 0 indices k)) as [E|]; auto.
      exfalso. apply Hne. unfold znth in E. replace (j <? 0) with false in E by lia. replace (k <? 0) with false in E by lia. apply Z2Nat.inj; [lia|lia|]. refine (proj1 (NoDup_nth indices 0) Hd _ _ _ _ E); unfold zlen in *; lia.
  Qed.
  Lemma point_off x y indices p : ~ In p indices -> point_value S x y indices p = s_zero S.
  Proof.
    intro H. unfold point_value. apply (sum_zero S L). intros k Hk. apply In_zrange in Hk.
    destruct (Z.eqb_spec (znth 0 indices k) p) as [E|]; auto. exfalso. apply H. rewrite <- E. apply znth_In. lia.
  Qed.
  Add Ring SR5 : (sl_ring S L).
  Lemma three_terms x y0 y1 y2 (i j p : Z) : i <> j ->
    s_sum S [if i =? p then s_mul S x y0 else s_zero S; if i =? p then s_mul S x y1 else s_zero S;
             if j =? p then s_mul S x y2 else s_zero S] =
    if p =? i then s_mul S x (s_add S y0 y1) else if p =? j then s_mul S x y2 else s_zero S.
  Proof.
    intro H. rewrite (Z.eqb_sym p i), (Z.eqb_sym p j). unfold s_sum. cbn [fold_right].
    destruct (Z.eqb_spec i p), (Z.eqb_spec j p); try lia; ring.
  Qed.
End P.

Section G.
  Variable t : stype.
  Hypothesis Ht : stype_ok t.
  Let S := scalar_of t.
  Let L := scalar_of_laws t Ht.
  Variable aes : N -> N -> N.
  Variable clog : Z -> Z -> nat.
  Variable K : Q.
  Variable too : Z -> Z -> bool.
  Variable e3 e2 : Z -> Z.
  Hypothesis He3 : forall n, e3 n < 2^63.
  Hypothesis He2 : forall n, e2 n < 2^63.
  Variable seed : N.
  Variable h : hasher.
  Hypothesis Hh : cuckoo_create seed 3 = Ok h.
  Notation after := (mpfss_after aes too e3 e2 h).

  Lemma H1h : 1 <= ch_num_hash_functions h.
  Proof. destruct (create_inv _ _ _ Hh) as [_ ->]. cbn. lia. Qed.
  Lemma after_snoc hist sizes NN n : after (hist ++ [(sizes, NN, n)]) = fst (update_buckets aes too e3 e2 sizes (after hist) NN n).
  Proof. unfold mpfss_after. now rewrite fold_left_app. Qed.

  Lemma num_buckets_eq n nb : 1 <= n -> 1 <= e3 n < 2^31 -> num_buckets e3 e2 (mpfss_new h) n = Ok nb -> nb = e3 n.
  Proof.
    intros Hn Hnb. destruct (create_inv _ _ _ Hh) as [_ ->]. unfold num_buckets, get_optimal_number_of_buckets.
    replace (n <? 0) with false by lia. replace (n =? 0) with false by lia. cbn [m_hasher mpfss_new ch_num_hash_functions].
    rewrite Z.eqb_refl. cbn [rbind]. intro E. injection E as <-. apply wrap32_id. lia.
  Qed.

  Lemma mpfss_correct hist_v hist_i sizes_v sizes_i x y indices u v w (out_v out_i : list S) hashed ta tb :
    divisions hist_v -> divisions hist_i ->
    let NN := zlen out_v in let n := zlen y in
    division NN sizes_v -> division NN sizes_i -> good_sizes S clog K too e3 NN n ->
    zlen out_i = NN -> zlen indices = n -> num_buckets e3 e2 (mpfss_new h) n = Ok (zlen w) -> vole_correlation S x u v w ->
    (forall k, 0 <= k < n -> 0 <= znth 0 indices k < NN) ->
    hash_cuckoo aes too h (map uint128_of_int64 indices) (zlen w) = Ok hashed ->
    exists rv ri, completes
        (mpfss_value_provider S aes clog K too e3 e2 sizes_v (after hist_v) x n w out_v) ta
        (mpfss_index_provider S aes clog too e3 e2 sizes_i (after hist_i) y indices u v out_i) tb
        (after (hist_v ++ [(sizes_v, NN, n)]), Ok rv) (after (hist_i ++ [(sizes_i, NN, n)]), Ok ri) /\
      zlen rv = NN /\ zlen ri = NN /\
      forall p, 0 <= p < NN ->
        s_add S (znth (s_zero S) rv p) (znth (s_zero S) ri p) = point_value S x y indices p.
  Proof.
    intros Hv Hi NN n Hdv Hdi Hg Hoi Hix Hw Hvole Hr HH. pose proof Hg as (Hn & HN3 & Hnb & Htoo & _).
    apply num_buckets_eq in Hw; [|lia|lia]. rewrite Hw in HH. rewrite !after_snoc.
    pose proof (after_coherent aes too e3 e2 He3 He2 h H1h _ Hv) as Cv. pose proof (after_coherent aes too e3 e2 He3 He2 h H1h _ Hi) as Ci.
    assert (HN0 : 0 <= NN) by (unfold NN; apply zlen_nonneg).
    destruct (create_inv _ _ _ Hh) as [_ Eh]. subst h.
    destruct (mpfss_correct_jrun S L aes clog K too e3 e2 He3 He2 seed (mpfss_after aes too e3 e2 (Hasher seed 3) hist_v)
      (mpfss_after aes too e3 e2 (Hasher seed 3) hist_i) sizes_v sizes_i x y indices u v w out_v out_i hashed ta tb)
      as (rv & ri & ta' & HJ & Lv & Li & Hs); auto.
    exists rv, ri. split; [|auto]. rewrite !(update_ok aes clog too e3 e2 He3 He2 seed) by (auto; lia).
    eapply jrun_completes. exact HJ.
  Qed.

  Lemma mpfss_distinct hist_v hist_i sizes_v sizes_i x y indices u v w (out_v out_i : list S) hashed ta tb :
    divisions hist_v -> divisions hist_i ->
    let NN := zlen out_v in let n := zlen y in
    division NN sizes_v -> division NN sizes_i -> good_sizes S clog K too e3 NN n ->
    zlen out_i = NN -> zlen indices = n -> num_buckets e3 e2 (mpfss_new h) n = Ok (zlen w) -> vole_correlation S x u v w ->
    (forall k, 0 <= k < n -> 0 <= znth 0 indices k < NN) -> NoDup indices ->
    hash_cuckoo aes too h (map uint128_of_int64 indices) (zlen w) = Ok hashed ->
    exists stv sti rv ri, completes
        (mpfss_value_provider S aes clog K too e3 e2 sizes_v (after hist_v) x n w out_v) ta
        (mpfss_index_provider S aes clog too e3 e2 sizes_i (after hist_i) y indices u v out_i) tb
        (stv, Ok rv) (sti, Ok ri) /\
      (forall k, 0 <= k < n -> s_add S (znth (s_zero S) rv (znth 0 indices k)) (znth (s_zero S) ri (znth 0 indices k)) =
                               s_mul S x (znth (s_zero S) y k)) /\
      (forall p, 0 <= p < NN -> ~ In p indices -> s_add S (znth (s_zero S) rv p) (znth (s_zero S) ri p) = s_zero S).
  Proof.
    intros Hv Hi NN n Hdv Hdi Hg Hoi Hix Hw Hvole Hr Hd HH.
    destruct (mpfss_correct hist_v hist_i sizes_v sizes_i x y indices u v w out_v out_i hashed ta tb) as (rv & ri & HC & _ & _ & Hs); auto.
    do 4 eexists. split; [exact HC|]. split.
    - intros k Hk. rewrite Hs by (apply Hr; exact Hk). apply (point_at S L); auto. lia.
    - intros p Hp Hn. rewrite Hs by exact Hp. now apply (point_off S L).
  Qed.

  Lemma at_end_rejected_late hist sizes y indices u v (out : list S) hashed :
    divisions hist ->
    let NN := zlen out in let n := zlen y in
    division NN sizes -> good_sizes S clog K too e3 NN n ->
    zlen indices = n -> zlen u = e3 n -> zlen v = e3 n ->
    (forall k, 0 <= k < n -> znth 0 indices k <= NN) ->
    hash_cuckoo aes too h (map uint128_of_int64 indices) (e3 n) = Ok hashed ->
    (exists b, 0 <= b < e3 n /\ znth 0 hashed b <> -1 /\ znth 0 indices (znth 0 hashed b) = NN /\
       simple_bucket (bucket_of aes seed (e3 n)) 3 (map uint128_of_int64 (zrange 0 NN)) b <> []) ->
    exists st' m, mpfss_index_provider S aes clog too e3 e2 sizes (after hist) y indices u v out =
      Send (MVec (plus S (permuted S y hashed) u)) (Ret (st', Err (invalid_argument m))).
  Proof.
    intros Hd NN n Hdi Hg Hix Hu Hvv Hr HH Hb. destruct Hg as (Hn & HN3 & Hnb & Htoo & _).
    pose proof (after_coherent aes too e3 e2 He3 He2 h H1h _ Hd) as Cv. destruct (create_inv _ _ _ Hh) as [_ Eh]. subst h.
    apply (index_at_end S aes clog too e3 e2 He3 He2 seed); auto; fold NN n; lia.
  Qed.

  Lemma negative_index hist_v hist_i sizes_v sizes_i x y0 i u v w (out_v out_i : list S) ta tb :
    divisions hist_v -> divisions hist_i ->
    let NN := zlen out_v in
    division NN sizes_v -> division NN sizes_i -> good_sizes S clog K too e3 NN 1 -> too 1 (e3 1) = false ->
    zlen out_i = NN -> num_buckets e3 e2 (mpfss_new h) 1 = Ok (zlen w) -> vole_correlation S x u v w -> i < 0 ->
    let bucket := simple_bucket (bucket_of aes seed (e3 1)) 3 (map uint128_of_int64 (zrange 0 NN))
                    (bucket_of aes seed (e3 1) 0 (uint128_of_int64 i)) in
    exists stv sti rv ri, completes
        (mpfss_value_provider S aes clog K too e3 e2 sizes_v (after hist_v) x 1 w out_v) ta
        (mpfss_index_provider S aes clog too e3 e2 sizes_i (after hist_i) [y0] [i] u v out_i) tb
        (stv, Ok rv) (sti, Ok ri) /\
      forall p, 0 <= p < NN -> s_add S (znth (s_zero S) rv p) (znth (s_zero S) ri p) =
        match bucket with [] => s_zero S | q :: _ => if q =? p then s_mul S x y0 else s_zero S end.
  Proof.
    intros Hv Hi NN Hdv Hdi Hg Ht1 Hoi Hw Hvole Hneg bucket. pose proof Hg as (Hn & HN3 & Hnb & Htoo & _).
    apply num_buckets_eq in Hw; [|lia|lia].
    pose proof (after_coherent aes too e3 e2 He3 He2 h H1h _ Hv) as Cv. pose proof (after_coherent aes too e3 e2 He3 He2 h H1h _ Hi) as Ci.
    destruct (create_inv _ _ _ Hh) as [_ Eh]. subst h.
    destruct (negative_jrun S L aes clog K too e3 e2 He3 He2 seed (mpfss_after aes too e3 e2 (Hasher seed 3) hist_v)
      (mpfss_after aes too e3 e2 (Hasher seed 3) hist_i) sizes_v sizes_i x y0 i u v w out_v out_i ta tb)
      as (st & rv & ri & ta' & HJ & Hs); auto.
    exists st, st, rv, ri. split; [|exact Hs]. eapply jrun_completes. exact HJ.
  Qed.

  Lemma cache_spec hist sizes NN n : divisions hist -> 0 <= NN -> division NN sizes ->
    update_buckets aes too e3 e2 sizes (after hist) NN n =
    match fresh_buckets aes too e3 e2 h NN n with
    | Ok b => (Mpfss h b (Some NN) (Some n), Ok tt)
    | Err e => (after hist, Err e)
    | UB w => (after hist, UB w)
    end.
  Proof. intros Hd HN Hs. apply (update_spec aes too e3 e2 He3 He2 h H1h); auto. now apply (after_coherent aes too e3 e2 He3 He2 h H1h). Qed.

  Notation result := (fun p => pbind p (fun '(_, r) => Ret r)).
  Lemma value_like_fresh hist sizes x y_len w (out : list S) : divisions hist -> division (zlen out) sizes ->
    result (mpfss_value_provider S aes clog K too e3 e2 sizes (after hist) x y_len w out) =
    result (mpfss_value_provider S aes clog K too e3 e2 [zlen out] (mpfss_new h) x y_len w out).
  Proof.
    intros Hd Hs. unfold mpfss_value_provider. destruct (y_len <? 1); [reflexivity|].
    change (mpfss_new h) with (after []).
    rewrite !cache_spec by (auto using zlen_nonneg, division_one; constructor). destruct (fresh_buckets _ _ _ _ _ _ _); reflexivity.
  Qed.
  Lemma index_like_fresh hist sizes y indices u v (out : list S) : divisions hist -> division (zlen out) sizes ->
    result (mpfss_index_provider S aes clog too e3 e2 sizes (after hist) y indices u v out) =
    result (mpfss_index_provider S aes clog too e3 e2 [zlen out] (mpfss_new h) y indices u v out).
  Proof.
    intros Hd Hs. unfold mpfss_index_provider. destruct (negb _); [reflexivity|]. destruct (_ <? _); [reflexivity|].
    destruct (_ =? _); [reflexivity|]. destruct (_ <=? _); [reflexivity|]. destruct (negb _); [reflexivity|].
    change (mpfss_new h) with (after []).
    rewrite !cache_spec by (auto using zlen_nonneg, division_one; constructor). destruct (fresh_buckets _ _ _ _ _ _ _); reflexivity.
  Qed.

  Lemma index_view hist sizes y indices u v (out : list S) evs : divisions hist -> division (zlen out) sizes ->
    e3 (zlen y) < 2^31 ->
    trace (mpfss_index_provider S aes clog too e3 e2 sizes (after hist) y indices u v out) evs ->
    let bucket b := simple_bucket (bucket_of aes seed (e3 (zlen y))) 3 (map uint128_of_int64 (zrange 0 (zlen out))) b in
    prefix evs
      match hash_cuckoo aes too h (map uint128_of_int64 indices) (e3 (zlen y)) with
      | Ok hashed => [Sent (MVec (plus S (permuted S y hashed) u));
                      Chose false (ot_count clog (map (fun b => zlen (bucket b)) (zrange 0 (e3 (zlen y)))))]
      | _ => [] end.
  Proof.
    intros Hd Hs Hnb HT bucket. pose proof (after_coherent aes too e3 e2 He3 He2 h H1h _ Hd) as Cv.
    destruct (create_inv _ _ _ Hh) as [_ Eh]. subst h. rewrite <- (map_map bucket zlen).
    eapply (index_provider_trace S aes clog too e3 e2 He3 He2 seed); eauto.
  Qed.

  Lemma view_hiding y indices hashed y' indices' hashed' x (u v w : list S) :
    1 <= zlen w < 2^63 ->
    hash_cuckoo aes too h (map uint128_of_int64 indices) (zlen w) = Ok hashed ->
    hash_cuckoo aes too h (map uint128_of_int64 indices') (zlen w) = Ok hashed' ->
    vole_correlation S x u v w ->
    exists u' v', (vole_correlation S x u' v' w /\ plus S (permuted S y' hashed') u' = plus S (permuted S y hashed) u) /\
      forall u'' v'', vole_correlation S x u'' v'' w -> plus S (permuted S y' hashed') u'' = plus S (permuted S y hashed) u ->
        u'' = u' /\ v'' = v'.
  Proof.
    clear He3 He2 e3 e2 K clog. intros Hw E E' Hvole.
    apply (cuckoo_placement aes too seed 3) in E; [|exact Hh|lia]. apply (cuckoo_placement aes too seed 3) in E'; [|exact Hh|lia].
    apply (masking S L) with (v := v); auto; unfold permuted; rewrite zlen_map; [apply E|apply E'].
  Qed.

  Lemma failing hist sizes y indices u v (out : list S) : divisions hist ->
    let NN := zlen out in let n := zlen y in
    division NN sizes -> good_sizes S clog K too e3 NN n -> zlen indices = n ->
    (forall k, 0 <= k < n -> znth 0 indices k <= NN) ->
    hash_cuckoo aes too h (map uint128_of_int64 indices) (e3 n) = Err insertion_failed ->
    let p := mpfss_index_provider S aes clog too e3 e2 sizes (after hist) y indices u v out in
    exists st', (~ NoDup indices -> returns p (st', Err (invalid_argument "All `indices` must be unique"))) /\
      (NoDup indices -> returns p (st', Err insertion_failed)).
  Proof.
    intros Hd NN n Hs Hg Hix Hr E. destruct Hg as (Hn & HN3 & Hnb & Htoo & _).
    pose proof (after_coherent aes too e3 e2 He3 He2 h H1h _ Hd) as Cv. destruct (create_inv _ _ _ Hh) as [_ Eh]. subst h.
    apply (insertion_fails S aes clog too e3 e2 He3 He2 seed); auto; fold NN n; lia.
  Qed.

  (** Two equal indices are always rejected; with a third, hash values decide. *)
  Lemma twice hist sizes y0 y1 i u v (out : list S) : divisions hist ->
    let NN := zlen out in
    division NN sizes -> good_sizes S clog K too e3 NN 2 -> 2 <= e3 2 -> too 2 (e3 2) = false -> i <= NN ->
    exists st', returns (mpfss_index_provider S aes clog too e3 e2 sizes (after hist) [y0; y1] [i; i] u v out)
      (st', Err (invalid_argument "All `indices` must be unique")).
  Proof.
    intros Hd NN Hs Hg H2 Ht2 Hi. pose proof Hg as (Hn & HN3 & Hnb & Htoo & _).
    destruct (cuckoo_outcome aes too seed 3 h (map uint128_of_int64 [i; i]) (e3 2) Hh ltac:(lia)) as [_ Ho].
    cbn zeta in Ho. change (zlen (map uint128_of_int64 [i; i])) with 2 in Ho.
    destruct Ho as [[b E]|E]; [intros [?|[?|[?|?]]]; try lia; congruence| |].
    - exfalso. apply (cuckoo_two aes too seed 3 h (e3 2) (uint128_of_int64 i) (uint128_of_int64 i)); eauto; lia.
    - destruct (failing hist sizes [y0; y1] [i; i] u v out) as (st' & H1 & _); auto.
      + intros k Hk. change (zlen [y0; y1]) with 2 in Hk. assert (Hk' : k = 0 \/ k = 1) by lia. destruct Hk' as [-> | ->]; exact Hi.
      + exists st'. apply H1. intro Hnd. inversion Hnd; subst. apply H3. now left.
  Qed.

  Lemma thrice hist_v hist_i sizes_v sizes_i x y0 y1 y2 i j u v w (out_v out_i : list S) ta tb :
    divisions hist_v -> divisions hist_i ->
    let NN := zlen out_v in
    division NN sizes_v -> division NN sizes_i -> good_sizes S clog K too e3 NN 3 -> 3 <= e3 3 -> too 3 (e3 3) = false ->
    zlen out_i = NN -> num_buckets e3 e2 (mpfss_new h) 3 = Ok (zlen w) -> vole_correlation S x u v w ->
    0 <= i < NN -> 0 <= j < NN -> i <> j ->
    let place f a := bucket_of aes seed (zlen w) f (uint128_of_int64 a) in
    place 1 i <> place 0 i -> place 0 j <> place 0 i -> place 0 j <> place 1 i ->
    exists stv sti rv ri, completes
        (mpfss_value_provider S aes clog K too e3 e2 sizes_v (after hist_v) x 3 w out_v) ta
        (mpfss_index_provider S aes clog too e3 e2 sizes_i (after hist_i) [y0; y1; y2] [i; i; j] u v out_i) tb
        (stv, Ok rv) (sti, Ok ri) /\
      forall p, 0 <= p < NN -> s_add S (znth (s_zero S) rv p) (znth (s_zero S) ri p) =
        if p =? i then s_mul S x (s_add S y0 y1) else if p =? j then s_mul S x y2 else s_zero S.
  Proof.
    intros Hv Hi NN Hdv Hdi Hg H3 Ht3 Hoi Hw Hvole Ri Rj Hij place P1 P2 P3. pose proof Hg as (Hn & HN3 & Hnb & Htoo & _).
    pose proof Hw as Ew. apply num_buckets_eq in Ew; [|lia|lia].
    destruct (cuckoo_three aes too seed 3 h (zlen w) (uint128_of_int64 i) (uint128_of_int64 i) (uint128_of_int64 j) Hh)
      as (b & Eb & _); auto; try lia; try now rewrite Ew.
    destruct (mpfss_correct hist_v hist_i sizes_v sizes_i x [y0; y1; y2] [i; i; j] u v w out_v out_i b ta tb)
      as (rv & ri & HC & _ & _ & Hs); auto.
    { intros k Hk. change (zlen [y0; y1; y2]) with 3 in Hk. assert (Hk' : k = 0 \/ k = 1 \/ k = 2) by lia.
      destruct Hk' as [-> | [-> | ->]]; assumption. }
    do 4 eexists. split; [exact HC|]. intros p Hp. rewrite Hs by exact Hp. unfold point_value.
    change (zrange 0 (zlen [i; i; j])) with [0; 1; 2]. cbn [map].
    change (znth 0 [i; i; j] 0) with i. change (znth 0 [i; i; j] 1) with i. change (znth 0 [i; i; j] 2) with j.
    change (znth (s_zero S) [y0; y1; y2] 0) with y0. change (znth (s_zero S) [y0; y1; y2] 1) with y1.
    change (znth (s_zero S) [y0; y1; y2] 2) with y2.
    apply (three_terms S L). exact Hij.
  Qed.
End G.

(** *** Create *)
Lemma create_agree (S : scalar) id_a id_b (ta tb : tape S) : id_a < id_b ->
  exists h, cuckoo_create (fst (ta O)) 3 = Ok h /\
    completes (mpfss_create S false id_a id_b) ta (mpfss_create S false id_b id_a) tb (Ok (mpfss_new h)) (Ok (mpfss_new h)).
Proof.
  intro H. exists (Hasher (fst (ta O)) 3). split; [reflexivity|]. eapply jrun_completes. unfold mpfss_create.
  replace (id_a <? id_b) with true by lia. replace (id_b <? id_a) with false by lia.
  eapply jrun_trans; [apply jrun_sync|]. eapply jrun_trans; [apply jrun_sync|].
  eapply jrun_trans; [apply jrun_rand_a|]. eapply jrun_trans; [apply jrun_send_recv; reflexivity|]. apply jrun_refl.
Qed.

Lemma ret_stays {T RA RB} n (c d : config T RA RB) : steps n c d ->
  (forall r, c_a c = Ret r -> c_a d = Ret r) /\ (forall r, c_b c = Ret r -> c_b d = Ret r).
Proof.
  induction 1 as [c|n c c' c'' H _ [IHa IHb]]; [auto|].
  inversion H; subst; cbn in *; split; intros r E; subst; try discriminate; auto.
Qed.
Lemma create_same_id (S : scalar) id (ta tb : tape S) n d :
  steps n (start (mpfss_create S false id id) ta (mpfss_create S false id id) tb) d ->
  (forall r, c_a d <> Ret r) /\ (forall r, c_b d <> Ret r).
Proof.
  intro Hd.
  assert (J : exists k, jrun (mpfss_create S false id id) ta (mpfss_create S false id id) tb (Recv k) ta (Recv k) tb).
  { eexists. unfold mpfss_create. rewrite Z.ltb_irrefl.
    eapply jrun_trans; [apply jrun_sync|]. eapply jrun_trans; [apply jrun_sync|]. apply jrun_refl. }
  destruct J as (k & [m HJ]%jrun_steps).
  assert (Hs : stuck (start (Recv k) ta (Recv k) tb)) by (intros c Hc; inversion Hc; subst; discriminate).
  destruct (schedule_independent _ _ _ _ _ HJ Hs Hd) as [_ Hr]. apply ret_stays in Hr.
  destruct Hr as [Ha Hb]. split; intros r E; [specialize (Ha r E)|specialize (Hb r E)]; discriminate.
Qed.
Lemma create_negative (S : scalar) id peer_id :
  returns (mpfss_create S true id peer_id) (Err (invalid_argument "`statistical_security` must not be negative.")).
Proof. reflexivity. Qed.

(** *** Traces for scalar types *)
Lemma gilboa_value_view t (Ht : stype_ok t) K x (out : list (scalar_of t)) evs : zlen out < 2^31 ->
  trace (gilboa_value_provider (scalar_of t) K x out) evs ->
  prefix evs [Chose (use_correlated_ot (scalar_of t) K (zlen out)) (Z.to_nat (transfers (s_size (scalar_of t)) (zlen out)))].
Proof.
  intros Hl. apply (fun W : within _ _ => W evs). apply gilboa_value_trace; auto. apply (sl_size _ (scalar_of_laws t Ht)).
Qed.

Lemma plain_unimplemented (S : scalar) :
  (exists m, mpfss_plain_value_provider S = Err (Status Unimplemented m)) /\ (exists m, mpfss_plain_index_provider S = Err (Status Unimplemented m)).
Proof. split; eexists; reflexivity. Qed.
