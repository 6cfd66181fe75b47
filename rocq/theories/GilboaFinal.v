(** Lemmas in the exact form of the final theorems about the Gilboa product. *)
From Verif Require Import Base BaseFacts NBits ListFacts Gf128Model ScalarModel ScalarSpec ScalarProofs PackModel PackProofs
  ProcModel ProcSpec ProcProofs RotModel RotFinal GilboaModel GilboaSpec GilboaProofs.
From Coq Require Import QArith Ring_theory Ring.
Local Open Scope Z_scope.

Lemma solo_rand_blocks {T R} n (k : list N -> proc T R) t :
  solo (rand_blocks n k) t = solo (k (tape_blocks n t)) (tape_drop n t).
Proof. revert k t. induction n as [|n IH]; intros k t; cbn; [reflexivity|]. apply IH. Qed.
Lemma solo_rand_scalars {T R} n (k : list T -> proc T R) t :
  solo (rand_scalars n k) t = solo (k (tape_scalars n t)) (tape_drop n t).
Proof. revert k t. induction n as [|n IH]; intros k t; cbn; [reflexivity|]. apply IH. Qed.
Lemma znth_tape_scalars {T} (d : T) n t i : 0 <= i < Z.of_nat n -> znth d (tape_scalars n t) i = snd (t (Z.to_nat i)).
Proof.
  revert t i. induction n as [|n IH]; intros t i Hi; [lia|]. cbn [tape_scalars]. rewrite znth_cons by lia.
  destruct (Z.eqb_spec i 0) as [->|Hne]; [reflexivity|]. rewrite IH by lia.
  unfold tape_tl. do 2 f_equal. lia.
Qed.
Lemma znth_tape_blocks {T} d n (t : tape T) i : 0 <= i < Z.of_nat n -> znth d (tape_blocks n t) i = fst (t (Z.to_nat i)).
Proof.
  revert t i. induction n as [|n IH]; intros t i Hi; [lia|]. cbn [tape_blocks]. rewrite znth_cons by lia.
  destruct (Z.eqb_spec i 0) as [->|Hne]; [reflexivity|]. rewrite IH by lia.
  unfold tape_tl. do 2 f_equal. lia.
Qed.

Lemma transfers_eq (S : scalar) len : 1 <= s_size S <= 16 -> transfers (s_size S) len = num_bits S * chunks S len.
Proof.
  intro H. unfold transfers, chunks, num_bits, packing_factor. rewrite Z.quot_div_nonneg by lia. reflexivity.
Qed.

(** C24 *)
Lemma gilboa_vector_checks (S : scalar) K y out :
  zlen y <> zlen out \/ 16 < s_size S ->
  exists m, returns (gilboa_vector_provider S K y out) (Err (invalid_argument m)).
Proof.
  intro H. unfold gilboa_vector_provider, returns. destruct (Z.eqb_spec (zlen y) (zlen out)); cbn [negb]; [|eauto].
  destruct H; [congruence|]. replace (16 <? s_size S) with true by lia. eauto.
Qed.
Lemma gilboa_value_checks (S : scalar) K x out : 16 < s_size S ->
  exists m, returns (gilboa_value_provider S K x out) (Err (invalid_argument m)).
Proof. intro H. unfold gilboa_value_provider, returns. replace (16 <? s_size S) with true by lia. eauto. Qed.
Lemma gilboa_value_sized_checks (S : scalar) K x len : len < 0 \/ 16 < s_size S ->
  exists m, returns (gilboa_value_provider_sized S K x len) (Err (invalid_argument m)).
Proof.
  intro H. unfold gilboa_value_provider_sized. destruct (Z.ltb_spec len 0); [unfold returns; eauto|].
  apply gilboa_value_checks. destruct H; [lia|auto].
Qed.

Section F.
  Variable t : stype.
  Hypothesis Ht : stype_ok t.
  Notation S := (scalar_of t).
  Hypothesis H16 : s_size S <= 16.
  Let L := scalar_of_laws t Ht.
  Add Ring SR : (sl_ring S L).
  Notation zn := (znth (s_zero S)).
  Notation pf := (packing_factor S).

  Lemma pf_eq : pf = 16 / s_size S.
  Proof. pose proof (sl_size S L). unfold packing_factor. apply Z.quot_div_nonneg; lia. Qed.

  Lemma gilboa_correct K x y out_v out_x ta tb :
    zlen out_v = zlen y -> zlen out_x = zlen y ->
    zlen y + 16 / s_size S < 2^31 -> transfers (s_size S) (zlen y) < 2^31 ->
    exists rv rx, completes (gilboa_vector_provider S K y out_v) ta (gilboa_value_provider S K x out_x) tb (Ok rv) (Ok rx) /\
      zlen rv = zlen y /\ zlen rx = zlen y /\
      forall q, 0 <= q < zlen y -> s_add S (zn rv q) (zn rx q) = s_mul S x (zn y q).
  Proof.
    intros H1 H2 H3 H4. pose proof (sl_size S L). rewrite <- pf_eq in H3. rewrite transfers_eq in H4 by lia.
    destruct (gilboa_jrun S L H16 K x y out_v out_x ta tb) as (rv & rx & ta' & HJ & H'); try lia.
    exists rv, rx. split; [|exact H']. eapply jrun_completes. exact HJ.
  Qed.
  Lemma gilboa_sized_correct K x y ta tb :
    zlen y + 16 / s_size S < 2^31 -> transfers (s_size S) (zlen y) < 2^31 ->
    exists rv rx, completes (gilboa_vector_provider_sized S K y) ta (gilboa_value_provider_sized S K x (zlen y)) tb (Ok rv) (Ok rx) /\
      zlen rv = zlen y /\ zlen rx = zlen y /\
      forall q, 0 <= q < zlen y -> s_add S (zn rv q) (zn rx q) = s_mul S x (zn y q).
  Proof.
    intros H1 H2. pose proof (zlen_nonneg y). unfold gilboa_vector_provider_sized, gilboa_value_provider_sized.
    replace (zlen y <? 0) with false by lia. apply gilboa_correct; auto; apply zlen_zrepeat; lia.
  Qed.

  (** The guard of the previous lemma is exact. *)
  Lemma gilboa_overflow K x out : zlen out + 16 / s_size S < 2^31 -> 2^31 <= transfers (s_size S) (zlen out) ->
    exists w, returns (gilboa_value_provider S K x out) (UB w).
  Proof.
    intros H1 H2. pose proof (sl_size S L). rewrite <- pf_eq in H1. rewrite transfers_eq in H2 by lia.
    pose proof (zlen_nonneg out). pose proof (pf_pos S L H16). unfold gilboa_value_provider, returns.
    replace (16 <? s_size S) with false by lia. rewrite wrap32_id by lia. unfold int_result at 1.
    replace ((- 2 ^ 31 <=? zlen out + pf) && (zlen out + pf <? 2 ^ 31)) with true by lia. cbn [plift].
    rewrite (quot_chunks S L H16) by lia. unfold int_result.
    replace ((- 2 ^ 31 <=? num_bits S * chunks S (zlen out)) && (num_bits S * chunks S (zlen out) <? 2 ^ 31)) with false by lia.
    cbn [plift]. eauto.
  Qed.
  Lemma gilboa_overflow2 K x out : zlen out < 2^31 <= zlen out + 16 / s_size S ->
    exists w, returns (gilboa_value_provider S K x out) (UB w).
  Proof.
    intros H1. pose proof (sl_size S L). rewrite <- pf_eq in H1.
    pose proof (zlen_nonneg out). unfold gilboa_value_provider, returns.
    replace (16 <? s_size S) with false by lia. rewrite wrap32_id by lia. unfold int_result at 1.
    replace ((- 2 ^ 31 <=? zlen out + pf) && (zlen out + pf <? 2 ^ 31)) with false by lia. cbn [plift]. eauto.
  Qed.

  (** ** What the value provider sees *)
  Lemma vector_solo K y out ta : zlen out = zlen y -> 
    let deltas := map (fun q => delta S y (q / num_bits S) (q mod num_bits S)) (zrange 0 (chunks S (zlen y) * num_bits S)) in
    exists r t', solo (gilboa_vector_provider S K y out) ta =
      Some ([if use_correlated_ot S K (zlen y)
             then MOt true (cot_pairs S deltas (tape_blocks (List.length deltas) ta))
             else MOt false (ot_pairs S deltas (tape_scalars (Z.to_nat (wrap32 (zlen deltas) * pf)) ta))], r, t').
  Proof.
    intros H1. cbv zeta. unfold gilboa_vector_provider. replace (zlen y =? zlen out) with true by lia.
    replace (16 <? s_size S) with false by lia. cbn [negb].
    rewrite (quot_chunks S L H16) by apply zlen_nonneg.
    rewrite (Z.mul_comm (num_bits S)), (vector_deltas_ok S L H16). cbn [plift].
    unfold run_ot_sender. destruct (use_correlated_ot S K (zlen y)).
    - do 2 eexists. rewrite solo_rand_blocks. cbn [solo ot_send]. reflexivity.
    - do 2 eexists. rewrite solo_rand_scalars. cbn [solo ot_send]. reflexivity.
  Qed.

  Lemma view_map cot choices pairs : zlen choices = zlen pairs ->
    ot_choose cot choices (MOt (T := S) cot pairs) =
    Some (map (fun q => if znth false choices q then snd (znth (0%N, 0%N) pairs q) else fst (znth (0%N, 0%N) pairs q))
      (zrange 0 (zlen pairs))).
  Proof.
    intro H. unfold ot_choose. rewrite Bool.eqb_reflx.
    replace (List.length pairs =? List.length choices)%nat with true by (symmetry; apply Nat.eqb_eq; unfold zlen in H; lia).
    cbn [andb]. f_equal. apply (znth_ext 0%N).
    - pose proof (zlen_nonneg pairs). rewrite !zlen_map, zlen_combine by auto. rewrite zlen_zrange; lia.
    - intros i Hi. rewrite zlen_map, zlen_combine in Hi by auto.
      rewrite (znth_map _ (false, (0%N, 0%N))) by (rewrite zlen_combine; auto).
      rewrite znth_combine by auto. rewrite (znth_map _ 0) by (rewrite zlen_zrange; lia).
      rewrite znth_zrange by lia. rewrite Z.add_0_l. destruct (znth (0%N, 0%N) pairs i). reflexivity.
  Qed.

  Notation lanes := (block_to_span S).
  Lemma lane_len b : zlen (lanes b) = pf.
  Proof. apply (zlen_block_to_span S L H16). Qed.
  Definition lane_op (op : S -> S -> S) (a b : list S) : list S := map (fun '(x, y) => op x y) (combine a b).
  Lemma lane_op_len op a b : zlen a = zlen b -> zlen (lane_op op a b) = zlen a.
  Proof. intro H. unfold lane_op. now rewrite zlen_map, zlen_combine. Qed.
  Lemma lane_op_nth op a b k : zlen a = zlen b -> 0 <= k < zlen a -> zn (lane_op op a b) k = op (zn a k) (zn b k).
  Proof.
    intros H Hk. unfold lane_op. rewrite (znth_map _ (s_zero S, s_zero S)) by (rewrite zlen_combine; auto).
    now rewrite znth_combine by auto.
  Qed.

  (** C25, 1-out-of-2 OTs: translating the random elements. *)
  Lemma gilboa_view_1of2 K y y' out choices :
    zlen out = zlen y -> zlen y' = zlen y -> use_correlated_ot S K (zlen y) = false ->
    zlen choices = transfers (s_size S) (zlen y) -> transfers (s_size S) (zlen y) < 2^31 ->
    exists shift : nat -> S, forall ta, exists view,
      ot_view (gilboa_vector_provider S K y out) ta choices = Some view /\
      ot_view (gilboa_vector_provider S K y' out) (fun n => (fst (ta n), s_add S (snd (ta n)) (shift n))) choices = Some view.
  Proof.
    intros H1 H2 Hc H3 H4. pose proof (sl_size S L). rewrite transfers_eq in H3, H4 by lia.
    pose proof (pf_pos S L H16) as Hpf. pose proof (bw_pos S L H16) as Hbw.
    pose proof (chunks_nonneg S L H16 (zlen y) (zlen_nonneg y)) as Hch.
    set (n := chunks S (zlen y) * num_bits S) in *.
    set (dl := fun yy : list S => map (fun q => delta S yy (q / num_bits S) (q mod num_bits S)) (zrange 0 n)).
    assert (Hn : zlen choices = n) by (subst n; lia).
    assert (Hdl : forall yy, zlen (dl yy) = n) by (intro yy; unfold dl; rewrite zlen_map, zlen_zrange; lia).
    exists (fun i => let q := Z.of_nat i / pf in let k := Z.of_nat i mod pf in
       if znth false choices q then s_sub S (zn (lanes (znth 0%N (dl y) q)) k) (zn (lanes (znth 0%N (dl y') q)) k) else s_zero S).
    intro ta. unfold ot_view.
    destruct (vector_solo K y out ta H1) as (r & t' & E). cbv zeta in E. fold n in E. change (map _ (zrange 0 n)) with (dl y) in E.
    rewrite E. clear E. rewrite Hc.
    set (ta' := fun i : nat => _).
    assert (Ho : zlen out = zlen y') by lia.
    destruct (vector_solo K y' out ta' Ho) as (r2 & t2 & E). cbv zeta in E. rewrite H2 in E. fold n in E.
    change (map _ (zrange 0 n)) with (dl y') in E. rewrite E. clear E. rewrite Hc.
    rewrite !view_map by (unfold ot_pairs; rewrite zlen_map, zlen_zrange; rewrite ?Hdl; lia).
    eexists. split; [reflexivity|]. f_equal.
    assert (Hlp : forall yy pads, zlen (ot_pairs S (dl yy) pads) = n) by (intros; unfold ot_pairs; rewrite zlen_map, Hdl, zlen_zrange; lia).
    rewrite !Hlp, !Hdl. apply map_ext_in. intros q Hq. apply In_zrange in Hq.
    rewrite wrap32_id by lia.
    set (pads := tape_scalars (Z.to_nat (n * pf)) ta). set (pads' := tape_scalars (Z.to_nat (n * pf)) ta').
    unfold ot_pairs. rewrite !Hdl. rewrite !(znth_map _ 0) by (rewrite zlen_zrange; lia).
    rewrite znth_zrange by lia. rewrite Z.add_0_l, wrap32_id by lia. replace (q <? n) with true by lia. cbn [fst snd].
    assert (Hpl : forall tt : tape S, zlen (tape_scalars (Z.to_nat (n * pf)) tt) = n * pf).
    { intro tt. unfold zlen. rewrite length_tape_scalars. nia. }
    assert (Hsub : forall tt : tape S, zlen (subspan (tape_scalars (Z.to_nat (n * pf)) tt) (q * pf) pf) = pf).
    { intro tt. rewrite (zlen_subspan); rewrite ?Hpl; nia. }
    assert (Hk : forall k, 0 <= k < pf -> zn (subspan pads' (q * pf) pf) k =
      s_add S (zn (subspan pads (q * pf) pf) k)
        (if znth false choices q then s_sub S (zn (lanes (znth 0%N (dl y) q)) k) (zn (lanes (znth 0%N (dl y') q)) k) else s_zero S)).
    { intros k Hk. unfold pads, pads'. rewrite !znth_subspan by (rewrite ?Hpl; nia).
      rewrite !znth_tape_scalars by nia. unfold ta'. cbn [snd]. f_equal. cbv zeta.
      rewrite Z2Nat.id by nia. replace ((q * pf + k) / pf) with q by (rewrite Z.add_comm, Z.div_add, Z.div_small; lia).
      replace ((q * pf + k) mod pf) with k by (rewrite Z.add_comm, Z.mod_add, Z.mod_small; lia). reflexivity. }
    unfold pad_block. change (firstn (Z.to_nat pf) (skipn (Z.to_nat (q * pf)) pads)) with (subspan pads (q * pf) pf).
    change (firstn (Z.to_nat pf) (skipn (Z.to_nat (q * pf)) pads')) with (subspan pads' (q * pf) pf).
    destruct (znth false choices q).
    - unfold correlate. f_equal. rewrite !(pack_unpack_1 S L H16) by apply Hsub.
      apply (znth_ext (s_zero S)).
      + rewrite !zlen_map, !zlen_combine; rewrite ?lane_len; unfold pads, pads'; rewrite ?Hsub; auto.
      + intros k Hk'. rewrite zlen_map, zlen_combine in Hk' by (rewrite lane_len; symmetry; apply Hsub). rewrite lane_len in Hk'.
        change (zn (lane_op (s_add S) (lanes (znth 0%N (dl y') q)) (subspan pads' (q * pf) pf)) k =
                zn (lane_op (s_add S) (lanes (znth 0%N (dl y) q)) (subspan pads (q * pf) pf)) k).
        rewrite !lane_op_nth by (rewrite ?lane_len; auto; symmetry; apply Hsub). rewrite Hk by auto. ring.
    - f_equal. apply (znth_ext (s_zero S)); [unfold pads, pads'; now rewrite !Hsub|].
      intros k Hk'. unfold pads' in Hk'. unfold pads in Hk'. rewrite Hsub in Hk'. rewrite Hk by auto. ring.
  Qed.

  (** C56: from 2^31 transfers on the 1-out-of-2 sender transfers zero blocks. *)
  Lemma gilboa_view_zeros K y out choices :
    zlen out = zlen y -> use_correlated_ot S K (zlen y) = false ->
    zlen choices = transfers (s_size S) (zlen y) -> 2^31 <= transfers (s_size S) (zlen y) < 2^32 ->
    forall ta, ot_view (gilboa_vector_provider S K y out) ta choices = Some (map (fun _ => 0%N) choices).
  Proof.
    intros H1 Hc H3 H4 ta. pose proof (sl_size S L). rewrite transfers_eq in H3, H4 by lia.
    pose proof (pf_pos S L H16) as Hpf. pose proof (bw_pos S L H16) as Hbw.
    pose proof (chunks_nonneg S L H16 (zlen y) (zlen_nonneg y)) as Hch.
    unfold ot_view. destruct (vector_solo K y out ta H1) as (r & t' & E). cbv zeta in E.
    set (n := chunks S (zlen y) * num_bits S) in *.
    assert (Hn : zlen choices = n) by (subst n; lia).
    set (dl := map _ (zrange 0 n)) in E.
    assert (Hdl : zlen dl = n) by (unfold dl; rewrite zlen_map, zlen_zrange; lia).
    rewrite E. clear E. rewrite Hc.
    assert (Hlp : forall pads, zlen (ot_pairs S dl pads) = n) by (intros; unfold ot_pairs; rewrite zlen_map, Hdl, zlen_zrange; lia).
    rewrite view_map by (rewrite Hlp; lia). f_equal. rewrite Hlp. apply (znth_ext 0%N).
    - rewrite !zlen_map, zlen_zrange; lia.
    - intros q Hq. rewrite zlen_map, zlen_zrange in Hq by lia.
      rewrite (znth_map _ 0) by (rewrite zlen_zrange; lia).
      rewrite (znth_map (fun _ => 0%N) false) by lia. rewrite znth_zrange by lia. rewrite Z.add_0_l.
      assert (En : znth (0%N, 0%N) (ot_pairs S dl (tape_scalars (Z.to_nat (wrap32 (zlen dl) * pf)) ta)) q = (0%N, 0%N)).
      { unfold ot_pairs. rewrite (znth_map _ 0) by (rewrite zlen_zrange; rewrite ?Hdl; lia).
        rewrite znth_zrange by (rewrite Hdl; lia). rewrite Z.add_0_l, Hdl.
        assert (wrap32 n < 0). { unfold wrap32. replace ((n + 2^31) mod 2^32) with (n - 2^31); [lia|].
          rewrite <- (Z.mod_add _ (-1)) by lia. rewrite Z.mod_small; lia. }
        replace (q <? wrap32 n) with false by lia. reflexivity. }
      rewrite En. cbn [fst snd]. now destruct (znth false choices q).
  Qed.

  (** C25, correlated OTs: permuting the random blocks. *)
  Lemma full_to_of : full_range t = true ->
    (forall c, (c < 2 ^ Z.to_N (num_bits S))%N -> s_to128 S (s_of128 S c) = c) /\ pf * num_bits S = 128.
  Proof.
    intro H. destruct t; try discriminate H; (split; [|vm_compute; reflexivity]); intros c Hc;
      cbn [scalar_of uint_scalar gf128_scalar s_to128 s_of128].
    - cbn. unfold zval, zmod_of_N. cbn [proj1_sig]. apply N.mod_small. exact Hc.
    - cbn. unfold zval, zmod_of_N. cbn [proj1_sig]. apply N.mod_small. exact Hc.
    - cbn. unfold zval, zmod_of_N. cbn [proj1_sig]. apply N.mod_small. exact Hc.
    - cbn. unfold zval, zmod_of_N. cbn [proj1_sig]. apply N.mod_small. exact Hc.
    - cbn. unfold zval, zmod_of_N. cbn [proj1_sig]. apply N.mod_small. exact Hc.
    - change (Z.to_N (num_bits (scalar_of (GF128 asm)))) with 128%N in Hc.
      rewrite N.mod_small by exact Hc. rewrite gf_box_ok.
      + unfold gf_to_uint128, gf_of_uint128. cbn [v0 v1].
        pose proof (N.div_mod c (2^64)%N ltac:(discriminate)). lia.
      + split; cbn [v0 v1 gf_of_uint128]; [apply N.mod_lt; discriminate|].
        apply N.div_lt_upper_bound; [discriminate|exact Hc].
  Qed.

  Lemma unpack_pack b : full_range t = true -> (b < 2^128)%N -> span_to_block S (lanes b) (s_one S) = b.
  Proof.
    intros Hf Hb. destruct (full_to_of Hf) as [Hto Hw].
    pose proof (bw_pos S L H16) as Hbw. pose proof (pf_pos S L H16) as Hpf.
    set (nb := Z.to_N (num_bits S)) in *.
    assert (Hlt : (span_to_block S (lanes b) (s_one S) < 2^128)%N) by apply (span_to_block_lt S L H16).
    assert (Hl : map (fun x => s_to128 S (s_mul S x (s_one S))) (lanes b) = map (fun j => chunk nb (Z.to_N j) b) (zrange 0 pf)).
    { apply (znth_ext 0%N); [rewrite !zlen_map, lane_len, zlen_zrange; lia|].
      intros k Hk. rewrite zlen_map, lane_len in Hk.
      rewrite (znth_map _ (s_zero S)) by (rewrite lane_len; lia). rewrite (znth_map _ 0) by (rewrite zlen_zrange; lia).
      rewrite znth_zrange by lia. rewrite Z.add_0_l. rewrite (block_to_span_nth S L H16) by auto.
      replace (s_mul S (s_of128 S (chunk (Z.to_N (num_bits S)) (Z.to_N k) b)) (s_one S)) with
        (s_of128 S (chunk (Z.to_N (num_bits S)) (Z.to_N k) b)) by ring.
      apply Hto. apply chunk_lt. }
    assert (Hc : forall j, 0 <= j < pf -> chunk nb (Z.to_N j) (span_to_block S (lanes b) (s_one S)) = chunk nb (Z.to_N j) b).
    { intros j Hj. rewrite span_to_block_pk. fold nb. rewrite Hl.
      rewrite (chunk_pk nb _ _ 0%N).
      - rewrite Z2N.id by lia. rewrite (znth_map _ 0) by (rewrite zlen_zrange; lia). rewrite znth_zrange by lia. reflexivity.
      - intros x Hx. apply in_map_iff in Hx. destruct Hx as (y & <- & _). apply chunk_lt.
      - rewrite zlen_map, zlen_zrange; lia.
      - subst nb. nia. }
    apply N.bits_inj. intro p. destruct (N.ltb_spec p 128) as [Hp|Hp].
    - assert (Hnb : nb <> 0%N) by (subst nb; lia).
      pose proof (N.div_mod p nb Hnb) as Hd. pose proof (N.mod_lt p nb Hnb) as Hm.
      assert (Hj : (Z.of_N (p / nb) < pf)%Z).
      { apply Z.nle_gt. intro Hge. assert (128 <= nb * (p / nb))%N; [|lia].
        subst nb. nia. }
      specialize (Hc (Z.of_N (p / nb)) (conj (N2Z.is_nonneg _) Hj)). rewrite N2Z.id in Hc.
      apply (f_equal (fun x => N.testbit x (p mod nb))) in Hc. rewrite !chunk_spec in Hc.
      apply N.ltb_lt in Hm. rewrite Hm in Hc. cbn [andb] in Hc.
      replace (p / nb * nb + p mod nb)%N with p in Hc by lia. exact Hc.
    - rewrite (proj1 (lt_pow2_testbit _ 128) Hlt) by auto. now rewrite (proj1 (lt_pow2_testbit _ 128) Hb) by auto.
  Qed.

  Lemma gilboa_view_cot K y y' out choices :
    full_range t = true ->
    zlen out = zlen y -> zlen y' = zlen y -> use_correlated_ot S K (zlen y) = true ->
    zlen choices = transfers (s_size S) (zlen y) ->
    exists f : nat -> N -> N, (forall i, block_bijection (f i)) /\
    forall ta, (forall i, (fst (ta i) < 2^128)%N) -> exists view,
      ot_view (gilboa_vector_provider S K y out) ta choices = Some view /\
      ot_view (gilboa_vector_provider S K y' out) (fun n => (f n (fst (ta n)), snd (ta n))) choices = Some view.
  Proof.
    intros Hfull H1 H2 Hc H3. pose proof (sl_size S L). rewrite transfers_eq in H3 by lia.
    pose proof (pf_pos S L H16) as Hpf. pose proof (bw_pos S L H16) as Hbw.
    pose proof (chunks_nonneg S L H16 (zlen y) (zlen_nonneg y)) as Hch.
    set (n := chunks S (zlen y) * num_bits S) in *.
    set (dl := fun yy : list S => map (fun q => delta S yy (q / num_bits S) (q mod num_bits S)) (zrange 0 n)).
    assert (Hn : zlen choices = n) by (subst n; lia).
    assert (Hdl : forall yy, zlen (dl yy) = n) by (intro yy; unfold dl; rewrite zlen_map, zlen_zrange; lia).
    set (mv := fun (a b x : N) => span_to_block S (lane_op (s_add S) (lanes x) (lane_op (s_sub S) (lanes a) (lanes b))) (s_one S)).
    assert (Hlen : forall a b x, zlen (lane_op (s_add S) (lanes x) (lane_op (s_sub S) (lanes a) (lanes b))) = pf).
    { intros a b x. rewrite lane_op_len; rewrite lane_len; auto. rewrite lane_op_len; rewrite !lane_len; auto. }
    assert (Hmv : forall a b x k, 0 <= k < pf -> zn (lanes (mv a b x)) k = s_add S (zn (lanes x) k) (s_sub S (zn (lanes a) k) (zn (lanes b) k))).
    { intros a b x k Hk. unfold mv. rewrite (pack_unpack_1 S L H16) by apply Hlen.
      rewrite lane_op_nth; [|rewrite lane_op_len; rewrite !lane_len; auto|rewrite lane_len; auto].
      rewrite lane_op_nth; rewrite ?lane_len; auto. }
    assert (Hinv : forall a b x, (x < 2^128)%N -> mv b a (mv a b x) = x).
    { intros a b x Hx. etransitivity; [|apply (unpack_pack x Hfull Hx)]. unfold mv at 1. f_equal.
      apply (znth_ext (s_zero S)); [now rewrite Hlen, lane_len|]. intros k Hk. rewrite Hlen in Hk.
      rewrite lane_op_nth; [|rewrite lane_op_len; rewrite !lane_len; auto|rewrite lane_len; auto].
      rewrite lane_op_nth by (rewrite ?lane_len; auto). rewrite Hmv by auto. ring. }
    exists (fun i x => if znth false choices (Z.of_nat i) then mv (znth 0%N (dl y) (Z.of_nat i)) (znth 0%N (dl y') (Z.of_nat i)) x else x).
    split.
    { intro i. destruct (znth false choices (Z.of_nat i)).
      - exists (mv (znth 0%N (dl y') (Z.of_nat i)) (znth 0%N (dl y) (Z.of_nat i))). intros x Hx.
        repeat split; try apply (span_to_block_lt S L H16); apply Hinv; exact Hx.
      - exists (fun x => x). auto. }
    intros ta Hta. unfold ot_view.
    destruct (vector_solo K y out ta H1) as (r & t' & E). cbv zeta in E. fold n in E. change (map _ (zrange 0 n)) with (dl y) in E.
    rewrite E. clear E. rewrite Hc. set (ta' := fun i : nat => _).
    assert (Ho : zlen out = zlen y') by lia.
    destruct (vector_solo K y' out ta' Ho) as (r2 & t2 & E). cbv zeta in E. rewrite H2 in E. fold n in E.
    change (map _ (zrange 0 n)) with (dl y') in E. rewrite E. clear E. rewrite Hc.
    assert (Hln : forall yy, List.length (dl yy) = Z.to_nat n) by (intro yy; specialize (Hdl yy); unfold zlen in Hdl; lia).
    rewrite !Hln.
    assert (Hlb : forall tt : tape S, zlen (tape_blocks (Z.to_nat n) tt) = n).
    { intro tt. unfold zlen. rewrite length_tape_blocks. lia. }
    assert (Hlp : forall yy (tt : tape S), zlen (cot_pairs S (dl yy) (tape_blocks (Z.to_nat n) tt)) = n).
    { intros yy tt. unfold cot_pairs. rewrite zlen_map, zlen_combine; rewrite Hdl; auto. }
    rewrite !view_map by (rewrite Hlp; lia).
    eexists. split; [reflexivity|]. f_equal. rewrite !Hlp. apply map_ext_in. intros q Hq. apply In_zrange in Hq.
    unfold cot_pairs. rewrite !(znth_map _ (0%N, 0%N)) by (rewrite zlen_combine; rewrite Hdl; auto; symmetry; apply Hlb).
    rewrite !znth_combine by (rewrite Hdl; symmetry; apply Hlb). cbn [fst snd].
    rewrite !znth_tape_blocks by lia. unfold ta'. cbn [fst]. rewrite Z2Nat.id by lia.
    destruct (znth false choices q); [|reflexivity].
    unfold correlate. f_equal.
    change (lane_op (s_add S) (lanes (znth 0%N (dl y') q)) (lanes (mv (znth 0%N (dl y) q) (znth 0%N (dl y') q) (fst (ta (Z.to_nat q))))) =
            lane_op (s_add S) (lanes (znth 0%N (dl y) q)) (lanes (fst (ta (Z.to_nat q))))).
    apply (znth_ext (s_zero S)); [rewrite !lane_op_len; rewrite !lane_len; auto|].
    intros k Hk. rewrite lane_op_len in Hk; rewrite !lane_len in *; auto.
    rewrite !lane_op_nth by (rewrite ?lane_len; auto). rewrite Hmv by auto. ring.
  Qed.
End F.
