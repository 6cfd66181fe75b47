(** How far the views of the Gilboa product's value provider are apart (C81). *)
From Verif Require Import Base BaseFacts NBits ListFacts ScalarModel ScalarSpec ScalarProofs ScalarFinal PackModel PackProofs
  ProcModel ProcSpec ProcProofs RotModel GilboaModel GilboaSpec GilboaProofs GilboaFinal ViewSpec ViewProofs ViewBlocks.
From Coq Require Import QArith Qabs Ring_theory Ring.
Local Open Scope Z_scope.

Lemma inject_Z_minus a b : inject_Z (a - b) = (inject_Z a - inject_Z b)%Q.
Proof. unfold Z.sub. now rewrite inject_Z_plus, inject_Z_opp. Qed.

Lemma nonzero_Q M : (0 < M)%N -> ~ (inject_Z (Z.of_N M) == 0)%Q.
Proof. unfold Qeq, inject_Z. cbn [Qnum Qden]. lia. Qed.

Section F.
  Variable t : stype.
  Hypothesis Ht : stype_ok t.
  Notation S := (scalar_of t).
  Hypothesis H16 : s_size S <= 16.
  Let L := scalar_of_laws t Ht.
  Add Ring SR : (sl_ring S L).
  Notation zn := (znth (s_zero S)).
  Notation pf := (packing_factor S).
  Notation nb := (num_bits S).
  Notation w := (Z.to_N (num_bits S)).
  Notation lanes := (block_to_span S).

  (** What the value provider sees, computed from the blocks. *)
  Definition seen (y : list S) (choices : list bool) (l : list N) : list N :=
    map (fun q => let b := nth (Z.to_nat q) l 0%N in
      if znth false choices q then correlate S (delta S y (q / nb) (q mod nb)) b else b)
      (zrange 0 (transfers (s_size S) (zlen y))).

  Lemma view_seen K y out choices l : zlen out = zlen y -> use_correlated_ot S K (zlen y) = true ->
    zlen choices = transfers (s_size S) (zlen y) ->
    ot_view (gilboa_vector_provider S K y out) (block_tape (s_zero S) l) choices = Some (seen y choices l).
  Proof.
    intros H1 Hc H3. unfold seen. pose proof (sl_size S L). rewrite transfers_eq in * by lia.
    pose proof (pf_pos S L H16) as Hpf. pose proof (bw_pos S L H16) as Hbw.
    pose proof (chunks_nonneg S L H16 (zlen y) (zlen_nonneg y)) as Hch. rewrite (Z.mul_comm nb) in *.
    unfold ot_view. destruct (vector_solo t Ht H16 K y out (block_tape (s_zero S) l) H1) as (r & t' & E). cbv zeta in E.
    rewrite E. clear E. rewrite Hc.
    set (n := chunks S (zlen y) * nb) in *. set (dl := map _ (zrange 0 n)).
    assert (Hdl : zlen dl = n) by (unfold dl; rewrite zlen_map, zlen_zrange; lia).
    assert (Hln : List.length dl = Z.to_nat n) by (unfold zlen in Hdl; lia). rewrite Hln.
    assert (Hlb : zlen (tape_blocks (Z.to_nat n) (block_tape (s_zero S) l)) = n).
    { unfold zlen. rewrite length_tape_blocks. lia. }
    assert (Hlp : zlen (cot_pairs S dl (tape_blocks (Z.to_nat n) (block_tape (s_zero S) l))) = n).
    { unfold cot_pairs. rewrite zlen_map, zlen_combine; rewrite Hdl; auto. }
    rewrite view_map by (rewrite Hlp; lia). f_equal. rewrite Hlp. apply map_ext_in. intros q Hq. apply In_zrange in Hq.
    unfold cot_pairs. rewrite (znth_map _ (0%N, 0%N)) by (rewrite zlen_combine; rewrite Hdl; auto).
    rewrite znth_combine by (rewrite Hdl; auto). cbn [fst snd].
    rewrite znth_tape_blocks by lia. unfold block_tape. cbn [fst]. cbv zeta.
    unfold dl. rewrite (znth_map _ 0) by (rewrite zlen_zrange; lia). rewrite znth_zrange by lia. rewrite Z.add_0_l. reflexivity.
  Qed.

  Lemma seen_probability K y out choices D : zlen out = zlen y -> use_correlated_ot S K (zlen y) = true ->
    zlen choices = transfers (s_size S) (zlen y) ->
    view_probability t K y out choices D =
    probability (Z.to_nat (transfers (s_size S) (zlen y))) (fun l => D (seen y choices l)).
  Proof.
    intros H1 Hc H3. unfold view_probability, probability.
    rewrite (out_ext _ _ (fun l => D (seen y choices l))); [reflexivity|].
    intros l _. now rewrite view_seen.
  Qed.

  (** An element of the vector is exposed if its part of the block is not fair. *)
  Definition exposed (len : Z) (l : list N) : bool :=
    existsb (fun x => fair t <=? chunk w (Z.to_N (fst x mod pf)) (nth (Z.to_nat (fst x / pf * nb + snd x)) l 0))%N
      (list_prod (zrange 0 len) (zrange 0 nb)).

  Definition difference (y y' : list S) (q : Z) : list S :=
    lane_op t (s_sub S) (lanes (delta S y (q / nb) (q mod nb))) (lanes (delta S y' (q / nb) (q mod nb))).
  Definition moves (y y' : list S) (choices : list bool) (i : nat) (b : N) : N :=
    if znth false choices (Z.of_nat i) then shift_all t 0 (difference y y' (Z.of_nat i)) b else b.

  Lemma difference_len y y' q : zlen (difference y y' q) = pf.
  Proof. unfold difference. rewrite (lane_op_len t); rewrite !(zlen_block_to_span S L H16); reflexivity. Qed.
  Lemma moves_bijection y y' choices i : block_bijection (moves y y' choices i).
  Proof.
    unfold moves. destruct (znth false choices (Z.of_nat i)); [|apply bijection_id].
    apply (shift_all_bijection t Ht H16). rewrite difference_len.
    pose proof (packing_factor_bounds S L H16) as (P1 & P2 & P3 & P4). nia.
  Qed.

  Lemma lanes_delta y q k : 0 <= q < transfers (s_size S) (zlen y) -> 0 <= k < pf ->
    zn (lanes (delta S y (q / nb) (q mod nb))) k =
    if q / nb * pf + k <? zlen y then s_mul S (zn y (q / nb * pf + k)) (s_setbit S (q mod nb)) else s_zero S.
  Proof.
    intros Hq Hk. pose proof (sl_size S L). rewrite transfers_eq in Hq by lia.
    pose proof (pf_pos S L H16) as Hpf. pose proof (bw_pos S L H16) as Hbw. pose proof (zlen_nonneg y) as Hy.
    assert (Hc : 0 <= q / nb < chunks S (zlen y)) by (split; [apply Z.div_pos; lia|apply Z.div_lt_upper_bound; lia]).
    pose proof (chunks_cover S L H16 (zlen y) (q / nb) Hy Hc) as Hcov. unfold delta.
    assert (Hsub : zlen (subspan y (q / nb * pf) pf) = Z.min pf (zlen y - q / nb * pf)) by (apply zlen_subspan; nia).
    rewrite (pack_unpack S L H16) by lia. rewrite Hsub.
    destruct (Z.ltb_spec (q / nb * pf + k) (zlen y)).
    - replace (k <? Z.min pf (zlen y - q / nb * pf)) with true by lia. now rewrite znth_subspan by nia.
    - replace (k <? Z.min pf (zlen y - q / nb * pf)) with false by lia. reflexivity.
  Qed.

  Lemma seen_moved y y' choices l : zlen y' = zlen y ->
    blocks (Z.to_nat (transfers (s_size S) (zlen y))) l -> exposed (zlen y) l = false ->
    seen y choices l = seen y' choices (move (moves y y' choices) l).
  Proof.
    intros H2 [Hl1 Hl2] He. unfold seen. rewrite H2. apply map_ext_in. intros q Hq. apply In_zrange in Hq. cbv zeta.
    rewrite nth_move. replace (Z.to_nat q <? List.length l)%nat with true by (symmetry; apply Nat.ltb_lt; lia).
    unfold moves. rewrite Z2Nat.id by lia. destruct (znth false choices q); [|reflexivity].
    set (b := nth (Z.to_nat q) l 0%N). pose proof (sl_size S L).
    pose proof (pf_pos S L H16) as Hpf. pose proof (bw_pos S L H16) as Hbw. pose proof (zlen_nonneg y) as Hy.
    assert (Hb : (b < 2^128)%N) by (apply (proj1 (Forall_forall _ _) Hl2), nth_In; lia).
    assert (Hmb : (shift_all t 0 (difference y y' q) b < 2^128)%N).
    { destruct (shift_all_bijection t Ht H16 (difference y y' q) 0%N) as [g Hg].
      - rewrite difference_len. pose proof (packing_factor_bounds S L H16) as (P1 & P2 & P3 & P4). nia.
      - apply (Hg b Hb). }
    unfold correlate. f_equal.
    change (lane_op t (s_add S) (lanes (delta S y (q / nb) (q mod nb))) (lanes b) =
            lane_op t (s_add S) (lanes (delta S y' (q / nb) (q mod nb))) (lanes (shift_all t 0 (difference y y' q) b))).
    assert (LL : forall x, zlen (lanes x) = pf) by apply (zlen_block_to_span S L H16).
    apply (znth_ext (s_zero S)); [rewrite !(lane_op_len t); rewrite !LL; auto|].
    intros k Hk. rewrite (lane_op_len t) in Hk; rewrite !LL in *; auto.
    rewrite !(lane_op_nth t) by (rewrite ?LL; auto).
    rewrite (block_to_span_nth S L H16 b), (block_to_span_nth S L H16 (shift_all _ _ _ _)) by auto.
    rewrite (shift_all_chunk t Ht H16) by (rewrite ?difference_len; lia). rewrite N.sub_0_r, Z2N.id by lia.
    unfold difference at 1. rewrite (lane_op_nth t) by (rewrite ?LL; auto).
    assert (Hq' : 0 <= q < transfers (s_size S) (zlen y')) by (rewrite H2; exact Hq).
    rewrite (lanes_delta y q k Hq Hk), (lanes_delta y' q k Hq' Hk), H2.
    set (e := q / nb * pf + k). destruct (Z.ltb_spec e (zlen y)) as [Hlt|Hge].
    - rewrite (translate_of t Ht H16); [ring|].
      assert (Hc : 0 <= q / nb) by (apply Z.div_pos; lia). pose proof (Z.mod_pos_bound q nb) as Hj.
      apply N.nle_gt. intro Hbad. apply Bool.not_true_iff_false in He. apply He. unfold exposed.
      apply existsb_exists. exists (e, q mod nb). split.
      + apply in_prod; apply In_zrange; subst e; nia.
      + assert (E1 : e mod pf = k) by (unfold e; rewrite Z.add_comm, Z.mod_add by lia; apply Z.mod_small; lia).
        assert (E2 : e / pf = q / nb) by (unfold e; rewrite Z.add_comm, Z.div_add, (Z.div_small k) by lia; lia).
        cbn [fst snd]. rewrite E1, E2.
        replace (q / nb * nb + q mod nb) with q by (pose proof (Z.div_mod q nb); lia).
        apply N.leb_le. exact Hbad.
    - replace (s_sub S (s_zero S) (s_zero S)) with (s_zero S) by ring. now rewrite (translate_0 t Ht H16).
  Qed.

  Lemma exposed_count len : 0 <= len -> let n := Z.to_nat (transfers (s_size S) len) in
    (outcomes n (exposed len) * 2^w <= Z.to_N (len * nb) * (2^w mod ScalarSpec.order t) * size_of n)%N.
  Proof.
    intros Hlen n. pose proof (sl_size S L).
    pose proof (pf_pos S L H16) as Hpf. pose proof (bw_pos S L H16) as Hbw.
    pose proof (packing_factor_bounds S L H16) as (P1 & P2 & P3 & P4).
    assert (En : n = Z.to_nat (chunks S len * nb)) by (unfold n; rewrite transfers_eq by lia; f_equal; lia).
    assert (O : (outcomes n (exposed len) <= Z.to_N (len * nb) * ((2^w mod ScalarSpec.order t) * size_of n / 2^w))%N).
    { unfold exposed. set (xs := list_prod _ _).
      replace (Z.to_N (len * nb)) with (N.of_nat (List.length xs)).
      2:{ unfold xs. rewrite prod_length. pose proof (zlen_zrange 0 len). pose proof (zlen_zrange 0 nb). unfold zlen in *. nia. }
      apply (out_exists n (fun x l => (fair t <=? chunk w (Z.to_N (fst x mod pf)) (nth (Z.to_nat (fst x / pf * nb + snd x)) l 0))%N)).
      intros [e j] Hx. unfold xs in Hx. apply in_prod_iff in Hx. destruct Hx as [He Hj]. apply In_zrange in He, Hj. cbn [fst snd].
      pose proof (chunk_of S L H16 len e He) as Hc. pose proof (Z.mod_pos_bound e pf) as Hm.
      assert (Hi : (Z.to_nat (e / pf * nb + j) < n)%nat) by (rewrite En; apply Z2Nat.inj_lt; nia).
      pose proof (out_nth n _ (fun b => (fair t <=? chunk w (Z.to_N (e mod pf)) b)%N) Hi) as Ho. cbv beta in Ho.
      set (k := Z.to_N (e mod pf)) in *.
      pose proof (count_chunk (k * w) w (fun v => (fair t <=? v)%N) ltac:(subst k; nia)) as Hcc. fold (chunk w k) in Hcc.
      assert (Cf : (count_below (2^w) (fun v => fair t <=? v) = 2^w mod ScalarSpec.order t)%N).
      { rewrite <- (fair_rest t). replace (2^w)%N with (fair t + (2^w - fair t))%N at 1 by (pose proof (fair_le t); lia).
        rewrite count_add, (count_false (fair t)), count_all; [reflexivity| |].
        - intros v _. apply N.leb_le. lia.
        - intros v Hv. apply N.leb_gt. exact Hv. }
      rewrite Cf in Hcc.
      set (X := outcomes n _) in *. set (C := count_below (2^128) _) in *.
      change (C * 2^w = 2^w mod ScalarSpec.order t * 2^128)%N in Hcc.
      apply N.div_le_lower_bound; [apply N.pow_nonzero; discriminate|].
      assert (Hne : (2^128 <> 0)%N) by discriminate.
      apply (N.mul_le_mono_pos_r _ _ (2^128)%N); [reflexivity|].
      replace (2 ^ w * X * 2 ^ 128)%N with (2^w * (X * 2^128))%N by lia. rewrite Ho.
      replace (2 ^ w * (C * size_of n))%N with ((C * 2^w) * size_of n)%N by lia. rewrite Hcc. lia. }
    etransitivity; [apply N.mul_le_mono_r, O|].
    pose proof (N.mul_div_le (2^w mod ScalarSpec.order t * size_of n) (2^w) ltac:(apply N.pow_nonzero; discriminate)). nia.
  Qed.

  (** The distance is at most the number of exposed elements, times the fraction
      of values that are not fair. *)
  Lemma view_distance K y y' out choices D : zlen out = zlen y -> zlen y' = zlen y ->
    use_correlated_ot S K (zlen y) = true -> zlen choices = transfers (s_size S) (zlen y) ->
    (Qabs (view_probability t K y out choices D - view_probability t K y' out choices D)
     <= inject_Z (8 * s_size S * zlen y) * (inject_Z (2 ^ (8 * s_size S) mod Z.of_N (ScalarSpec.order t)) / inject_Z (2 ^ (8 * s_size S))))%Q.
  Proof.
    intros H1 H2 Hc H3. pose proof (zlen_nonneg y) as Hy.
    assert (Hc' : use_correlated_ot S K (zlen y') = true) by now rewrite H2.
    assert (H1' : zlen out = zlen y') by lia. assert (H3' : zlen choices = transfers (s_size S) (zlen y')) by now rewrite H2.
    rewrite !seen_probability by auto. unfold probability. rewrite H2.
    set (n := Z.to_nat (transfers (s_size S) (zlen y))).
    pose proof (coupling n (moves y y' choices) (fun l => D (seen y choices l)) (fun l => D (seen y' choices l)) (exposed (zlen y))
      (moves_bijection y y' choices)) as C.
    specialize (C ltac:(intros l Hl He; cbv beta; f_equal; apply seen_moved; auto)).
    pose proof (exposed_count (zlen y) Hy) as E. cbv zeta in E. fold n in E. rewrite <- (size_Z n).
    set (a := outcomes n (fun l => D (seen y choices l))) in *. set (b := outcomes n (fun l => D (seen y' choices l))) in *.
    set (x := outcomes n (exposed (zlen y))) in *.
    assert (Hs : (0 < size_of n)%N) by (pose proof (N.pow_nonzero 2 (128 * N.of_nat n)); unfold size_of; lia).
    assert (Hw : Z.of_N (2^w) = 2 ^ (8 * s_size S)) by (unfold num_bits; pose proof (sl_size S L); rewrite N2Z.inj_pow; f_equal; lia).
    assert (Hwp : (0 < 2^w)%N) by (pose proof (N.pow_nonzero 2 w); lia).
    rewrite <- Hw. pose proof (order_pos t) as Ho. rewrite <- N2Z.inj_mod.
    set (r := (2^w mod ScalarSpec.order t)%N) in *. set (H := (2^w)%N) in *. set (M := size_of n) in *.
    assert (E' : Z.of_N x * Z.of_N H <= (zlen y * nb) * Z.of_N r * Z.of_N M).
    { pose proof (bw_pos S L H16). rewrite <- (Z2N.id (zlen y * nb)) by nia. rewrite <- !N2Z.inj_mul. lia. }
    clearbody a b x r H M. clear - C E' Hs Hwp. 
    assert (Hd : (inject_Z (Z.of_N a) / inject_Z (Z.of_N M) - inject_Z (Z.of_N b) / inject_Z (Z.of_N M) ==
                  inject_Z (Z.of_N a - Z.of_N b) / inject_Z (Z.of_N M))%Q).
    { rewrite inject_Z_minus. field. exact (nonzero_Q M Hs). }
    rewrite Hd. clear Hd. apply Qabs_Qle_condition.
    assert (HM : (0 < inject_Z (Z.of_N M))%Q) by (change 0%Q with (inject_Z 0); rewrite <- Zlt_Qlt; lia).
    assert (HH : (0 < inject_Z (Z.of_N H))%Q) by (change 0%Q with (inject_Z 0); rewrite <- Zlt_Qlt; lia).
    assert (B : forall z, z <= Z.of_N x ->
      (inject_Z z / inject_Z (Z.of_N M) <= inject_Z (8 * s_size S * zlen y) * (inject_Z (Z.of_N r) / inject_Z (Z.of_N H)))%Q).
    { intros z Hz. apply Qle_shift_div_r; [exact HM|].
      setoid_replace (inject_Z (8 * s_size S * zlen y) * (inject_Z (Z.of_N r) / inject_Z (Z.of_N H)) * inject_Z (Z.of_N M))%Q
        with (inject_Z (8 * s_size S * zlen y * Z.of_N r * Z.of_N M) / inject_Z (Z.of_N H))%Q.
      2:{ rewrite !inject_Z_mult. field. exact (nonzero_Q H Hwp). }
      apply Qle_shift_div_l; [exact HH|]. rewrite <- inject_Z_mult, <- Zle_Qle. unfold num_bits in E'. nia. }
    split.
    - apply (Qle_trans _ (- (inject_Z (Z.of_N b - Z.of_N a) / inject_Z (Z.of_N M)))).
      + apply Qopp_le_compat, B. lia.
      + rewrite !inject_Z_minus. apply Qle_lteq. right. field. exact (nonzero_Q M Hs).
    - apply B. lia.
  Qed.
End F.
