(** Proofs about packing. *)
From Coq Require Import Ring_theory.
From Verif Require Import Base BaseFacts NBits ScalarModel ScalarSpec ScalarProofs PackModel.
Local Open Scope N_scope.

(** pack as a fold over the list of 128-bit values *)
Fixpoint pk (nb : N) (l : list N) : N :=
  match l with [] => 0 | x :: t => N.lor (shl128 (pk nb t) nb) x end.

Lemma shl128_0 nb : shl128 0 nb = 0.
Proof. unfold shl128. rewrite N.shiftl_0_l. reflexivity. Qed.

Lemma pack_loop_pk (S : scalar) (c : S) (v w : list S) packed :
  packed = (if (0 <? List.length v)%nat then shl128 (pk (Z.to_N (num_bits S)) (map (fun x => s_to128 S (s_mul S x c)) w)) (Z.to_N (num_bits S))
            else pk (Z.to_N (num_bits S)) (map (fun x => s_to128 S (s_mul S x c)) w)) ->
  pack_loop S (v ++ w) c (List.length v) packed
  = pk (Z.to_N (num_bits S)) (map (fun x => s_to128 S (s_mul S x c)) (v ++ w)).
Proof.
  revert w packed. induction v as [|x v IH] using rev_ind; intros w packed ->.
  - reflexivity.
  - rewrite app_length. cbn [List.length].
    replace (List.length v + 1)%nat with (Datatypes.S (List.length v)) by lia. cbn [pack_loop].
    rewrite <- app_assoc. cbn [app].
    rewrite app_nth2, Nat.sub_diag by lia. cbn [nth].
    apply (IH (x :: w)). cbn [map pk]. change (0 <? Datatypes.S (List.length v))%nat with true. cbv iota.
    reflexivity.
Qed.
Lemma span_to_block_pk (S : scalar) (c : S) v :
  span_to_block S v c = pk (Z.to_N (num_bits S)) (map (fun x => s_to128 S (s_mul S x c)) v).
Proof.
  unfold span_to_block. rewrite <- (app_nil_r v) at 1. rewrite pack_loop_pk; [now rewrite app_nil_r|].
  cbn [map pk]. destruct (0 <? _)%nat; [now rewrite shl128_0|reflexivity].
Qed.

(** chunk j of width nb *)
Definition chunk (nb j b : N) : N := N.shiftr b (j * nb) mod 2 ^ nb.
Lemma chunk_spec nb j b k : N.testbit (chunk nb j b) k = (k <? nb) && N.testbit b (j * nb + k).
Proof.
  unfold chunk. destruct (N.ltb_spec k nb).
  - rewrite N.mod_pow2_bits_low, N.shiftr_spec' by auto. cbn [andb]. f_equal; lia.
  - rewrite N.mod_pow2_bits_high by auto. reflexivity.
Qed.
Lemma shl128_spec x s k : N.testbit (shl128 x s) k = (k <? 128) && (s <=? k) && N.testbit x (k - s).
Proof.
  unfold shl128. destruct (N.ltb_spec k 128).
  - rewrite N.mod_pow2_bits_low by auto. destruct (N.leb_spec s k).
    + rewrite N.shiftl_spec_high' by auto. reflexivity.
    + rewrite N.shiftl_spec_low by auto. reflexivity.
  - rewrite N.mod_pow2_bits_high by auto. reflexivity.
Qed.

Lemma chunk_pk_0 nb x l : nb <= 128 -> chunk nb 0 (pk nb (x :: l)) = x mod 2 ^ nb.
Proof.
  intro Hn. apply N.bits_inj; intro k. rewrite chunk_spec. cbn [pk]. rewrite N.lor_spec, shl128_spec.
  destruct (N.ltb_spec k nb).
  - rewrite N.mod_pow2_bits_low by auto. cbn [andb]. replace (0 * nb + k) with k by lia.
    replace (nb <=? k) with false by (symmetry; apply N.leb_gt; auto). rewrite andb_false_r. reflexivity.
  - rewrite N.mod_pow2_bits_high by auto. reflexivity.
Qed.
Lemma chunk_pk_S nb x l j : (j + 2) * nb <= 128 ->
  chunk nb (j + 1) (pk nb (x :: l)) = N.lor (chunk nb j (pk nb l)) (chunk nb (j + 1) x).
Proof.
  intro Hn. apply N.bits_inj; intro k. rewrite N.lor_spec, !chunk_spec. cbn [pk]. rewrite N.lor_spec, shl128_spec.
  destruct (N.ltb_spec k nb); cbn [andb]; auto.
  replace ((j + 1) * nb + k <? 128) with true by (symmetry; apply N.ltb_lt; lia).
  replace (nb <=? (j + 1) * nb + k) with true by (symmetry; apply N.leb_le; lia).
  cbn [andb]. f_equal. f_equal. lia.
Qed.
Lemma chunk_small nb j x : x < 2^nb -> chunk nb (j + 1) x = 0.
Proof.
  intro H. apply N.bits_inj; intro k. rewrite chunk_spec, N.bits_0.
  rewrite (proj1 (lt_pow2_testbit x nb) H) by lia. apply andb_false_r.
Qed.

Lemma chunk_pk nb l j d : (forall x, In x l -> x < 2^nb) -> (Z.of_N j < zlen l)%Z -> (j + 1) * nb <= 128 ->
  chunk nb j (pk nb l) = znth d l (Z.of_N j).
Proof.
  revert j. induction l as [|x l IH]; intros j Hl Hj Hn.
  - rewrite zlen_nil in Hj. lia.
  - rewrite zlen_cons in Hj. destruct (N.eq_dec j 0) as [->|Hj0].
    + rewrite chunk_pk_0 by lia. rewrite N.mod_small by (apply Hl; now left). reflexivity.
    + remember (j - 1) as i eqn:Ei. assert (Ej : j = i + 1) by lia. clear Ei. subst j.
      rewrite chunk_pk_S by lia. rewrite chunk_small by (apply Hl; now left).
      rewrite N.lor_0_r, IH.
      * rewrite znth_cons by lia. replace (Z.of_N (i + 1) =? 0)%Z with false by lia. f_equal. lia.
      * intros; apply Hl; now right.
      * lia.
      * lia.
Qed.
Lemma chunk_pk_out nb l j : (forall x, In x l -> x < 2^nb) -> (zlen l <= Z.of_N j)%Z -> (j + 1) * nb <= 128 ->
  chunk nb j (pk nb l) = 0.
Proof.
  revert j. induction l as [|x l IH]; intros j Hl Hj Hn.
  - cbn [pk]. unfold chunk. rewrite N.shiftr_0_l. apply N.mod_0_l. apply N.pow_nonzero; discriminate.
  - rewrite zlen_cons in Hj. pose proof (zlen_nonneg l).
    remember (j - 1) as i eqn:Ei. assert (Ej : j = i + 1) by lia. clear Ei. subst j.
    rewrite chunk_pk_S by lia. rewrite chunk_small by (apply Hl; now left).
    rewrite N.lor_0_r. apply IH; [intros; apply Hl; now right|lia|lia].
Qed.

(** ** blocks of a scalar type *)
Section Blocks.
  Variable S : scalar.
  Hypothesis L : scalar_laws S.
  Hypothesis H16 : (s_size S <= 16)%Z.

  Lemma packing_factor_bounds : (1 <= packing_factor S)%Z /\ (packing_factor S * num_bits S <= 128)%Z /\
    (packing_factor S <= 16)%Z /\ (8 <= num_bits S <= 128)%Z.
  Proof.
    unfold packing_factor, num_bits. pose proof (sl_size S L).
    rewrite Z.quot_div_nonneg by lia.
    pose proof (Z.mul_div_le 16 (s_size S)). pose proof (Z.div_le_lower_bound 16 (s_size S) 1).
    assert (16 / s_size S <= 16)%Z by (apply Z.div_le_upper_bound; lia). lia.
  Qed.

  Lemma zlen_block_to_span b : zlen (block_to_span S b) = packing_factor S.
  Proof.
    unfold block_to_span. rewrite zlen_map, zlen_zrange; [lia|]. pose proof packing_factor_bounds. lia.
  Qed.

  Lemma block_to_span_nth b k d : b < 2^128 -> (0 <= k < packing_factor S)%Z ->
    znth d (block_to_span S b) k = s_of128 S (chunk (Z.to_N (num_bits S)) (Z.to_N k) b).
  Proof.
    intros Hb Hk. pose proof packing_factor_bounds as (P1 & P2 & P3 & P4). unfold block_to_span.
    rewrite (znth_map _ 0%Z) by (rewrite zlen_zrange; lia).
    rewrite znth_zrange by lia. cbv zeta. unfold chunk. rewrite Z.add_0_l.
    replace (Z.to_N (k * num_bits S)) with (Z.to_N k * Z.to_N (num_bits S)) by lia.
    destruct (Z.ltb_spec (num_bits S) 128); [reflexivity|].
    replace (num_bits S) with 128%Z in * by lia. assert (k = 0)%Z by lia. subst k.
    cbn. rewrite N.mod_small by exact Hb. reflexivity.
  Qed.

  Lemma pk_lt nb l : (forall x, In x l -> x < 2^128) -> pk nb l < 2^128.
  Proof.
    induction l as [|x l IH]; intro H; [reflexivity|]. cbn [pk]. apply lor_lt.
    - unfold shl128. apply N.mod_lt. discriminate.
    - apply H. now left.
  Qed.
  Lemma to128_lt x : s_to128 S x < 2^128.
  Proof.
    pose proof packing_factor_bounds. apply N.lt_le_trans with (1 := sl_to_lt S L H16 x).
    apply N.pow_le_mono_r; [discriminate|]. unfold num_bits in *. lia.
  Qed.
  Lemma span_to_block_lt v c : span_to_block S v c < 2^128.
  Proof.
    rewrite span_to_block_pk. apply pk_lt. intros x Hx. apply in_map_iff in Hx.
    destruct Hx as (y & <- & _). apply to128_lt.
  Qed.

  (** C20 *)
  Lemma pack_unpack v c k d : (zlen v <= packing_factor S)%Z -> (0 <= k < packing_factor S)%Z ->
    znth d (block_to_span S (span_to_block S v c)) k =
    if (k <? zlen v)%Z then s_mul S (znth d v k) c else s_zero S.
  Proof.
    intros Hv Hk. pose proof packing_factor_bounds as (P1 & P2 & P3 & P4).
    rewrite block_to_span_nth by (try apply span_to_block_lt; auto).
    rewrite span_to_block_pk.
    assert (HB : forall x, In x (map (fun x => s_to128 S (s_mul S x c)) v) -> x < 2 ^ Z.to_N (num_bits S)).
    { intros x Hx. apply in_map_iff in Hx. destruct Hx as (y & <- & _). apply (sl_to_lt S L H16). }
    assert (HN : (Z.to_N k + 1) * Z.to_N (num_bits S) <= 128) by nia.
    destruct (Z.ltb_spec k (zlen v)).
    - rewrite (chunk_pk _ _ _ (s_to128 S (s_mul S d c))); auto.
      + rewrite (znth_map _ d) by lia. rewrite Z2N.id by lia. apply (sl_of_to S L H16).
      + rewrite zlen_map. lia.
    - rewrite chunk_pk_out; auto; [apply (sl_of_0 S L)|]. rewrite zlen_map. lia.
  Qed.

  Add Ring SR : (sl_ring S L).

  Lemma pack_unpack_1 (v : list S) : zlen v = packing_factor S ->
    block_to_span S (span_to_block S v (s_one S)) = v.
  Proof.
    intro Hv. apply (znth_ext (s_zero S)).
    - now rewrite zlen_block_to_span.
    - intros k Hk. rewrite zlen_block_to_span in Hk. rewrite pack_unpack by lia.
      replace (k <? zlen v)%Z with true by lia. ring.
  Qed.
End Blocks.

(** C21 *)
Lemma pack_roundtrip t v c k d : stype_ok t -> (s_size (scalar_of t) <= 16)%Z ->
  (zlen v <= packing_factor (scalar_of t))%Z -> (0 <= k < zlen v)%Z ->
  znth d (block_to_span (scalar_of t) (span_to_block (scalar_of t) v c)) k = s_mul (scalar_of t) (znth d v k) c.
Proof.
  intros Ht Hs Hv Hk. rewrite pack_unpack; auto; [|now apply scalar_of_laws|lia].
  now replace (k <? zlen v)%Z with true by lia.
Qed.
Lemma recombine (S : scalar) (x : S) : scalar_laws S ->
  zlen (get_bits S x) = (8 * s_size S)%Z /\
  s_sum S (map (fun j => if znth false (get_bits S x) j then s_setbit S j else s_zero S)
             (zrange 0 (8 * s_size S))) = x.
Proof.
  intro L. pose proof (sl_size S L). unfold get_bits, num_bits. split.
  - rewrite zlen_map, zlen_zrange; lia.
  - etransitivity; [|apply (sl_bits S L x)]. f_equal. apply map_ext_in. intros j Hj. apply In_zrange in Hj.
    rewrite (znth_map _ 0%Z) by (rewrite zlen_zrange; lia). rewrite znth_zrange by lia.
    now rewrite Z.add_0_l.
Qed.

(** ** signed integers (C54) *)
Lemma chunk_neg nb j x : (j + 1) * nb <= 128 -> 0 < nb -> 2^(nb - 1) <= x < 2^nb -> 0 < j ->
  chunk nb j (x + (2^128 - 2^nb)) = 2^nb - 1.
Proof.
  intros Hn Hnb Hx Hj. apply N.bits_inj; intro k. rewrite chunk_spec.
  assert (E : x + (2^128 - 2^nb) = (2^(128 - nb) - 1) * 2^nb + x).
  { rewrite N.mul_sub_distr_r, N.mul_1_l, <- N.pow_add_r.
    replace (128 - nb + nb) with 128 by lia. lia. }
  rewrite E, testbit_add_low by lia.
  rewrite !N.sub_1_r, <- !N.ones_equiv.
  destruct (N.ltb_spec k nb); cbn [andb].
  - rewrite (N.ones_spec_low nb k) by auto.
    replace (j * nb + k <? nb) with false by (symmetry; apply N.ltb_ge; nia).
    apply N.ones_spec_low. nia.
  - now rewrite N.ones_spec_high by auto.
Qed.
Lemma lor_ones_r a nb : a < 2^nb -> N.lor a (2^nb - 1) = 2^nb - 1.
Proof.
  intro H. apply N.bits_inj; intro k. rewrite N.lor_spec, !N.sub_1_r, <- !N.ones_equiv.
  destruct (N.ltb_spec k nb).
  - rewrite N.ones_spec_low by auto. apply orb_true_r.
  - rewrite N.ones_spec_high by auto. now rewrite (proj1 (lt_pow2_testbit a nb) H) by auto.
Qed.
Lemma existsb_map {A B} (f : A -> B) (g : B -> bool) l : existsb g (map f l) = existsb (fun x => g (f x)) l.
Proof. induction l; cbn; congruence. Qed.
Lemma chunk_lt nb j b : chunk nb j b < 2^nb.
Proof. unfold chunk. apply N.mod_lt, N.pow_nonzero. discriminate. Qed.

Section Signed.
  Variable bytes : positive.
  Hypothesis Hb : (bytes <= 16)%positive.
  Let S := sint_scalar bytes.
  Let nb := 8 * Npos bytes.

  Lemma sint_chunk_pos (x : zmod (uint_modulus bytes)) : negative bytes x = false -> s_to128 S x = zval x.
  Proof. unfold negative. intro H. cbn [s_to128 S sint_scalar]. rewrite N.leb_gt in H.
    now rewrite (proj2 (N.ltb_lt _ _) H). Qed.
  Lemma sint_chunk_neg (x : zmod (uint_modulus bytes)) : negative bytes x = true -> s_to128 S x = zval x + (2^128 - 2^nb).
  Proof. unfold negative. intro H. cbn [s_to128 S sint_scalar]. rewrite N.leb_le in H.
    now rewrite (proj2 (N.ltb_ge _ _) H). Qed.

  Lemma sint_mod (x : zmod (uint_modulus bytes)) : s_to128 S x mod 2^nb = zval x.
  Proof.
    pose proof (zval_lt _ x) as Hx. change (Npos (uint_modulus bytes)) with (2^nb) in Hx.
    destruct (negative bytes x) eqn:E.
    - rewrite sint_chunk_neg by auto.
      replace (2^128 - 2^nb) with ((2^(128 - nb) - 1) * 2^nb).
      + rewrite N.mod_add, N.mod_small; auto. apply N.pow_nonzero; discriminate.
      + rewrite N.mul_sub_distr_r, N.mul_1_l, <- N.pow_add_r. subst nb.
        now replace (128 - 8 * Npos bytes + 8 * Npos bytes) with 128 by lia.
    - rewrite sint_chunk_pos by auto. now apply N.mod_small.
  Qed.

  (** chunk j of the packed block: all ones if an earlier element is negative *)
  Lemma sint_chunk (l : list (zmod (uint_modulus bytes))) j d : (Z.of_N j < zlen l)%Z -> (j + 1) * nb <= 128 ->
    chunk nb j (pk nb (map (s_to128 S) l)) =
    if existsb (negative bytes) (firstn (N.to_nat j) l) then 2^nb - 1 else zval (znth d l (Z.of_N j)).
  Proof.
    revert j. induction l as [|x l IH]; intros j Hj Hn.
    - rewrite zlen_nil in Hj. lia.
    - rewrite zlen_cons in Hj. cbn [map]. destruct (N.eq_dec j 0) as [->|Hj0].
      + rewrite chunk_pk_0 by lia. rewrite sint_mod. reflexivity.
      + remember (j - 1) as i eqn:Ei. assert (Ej : j = i + 1) by lia. clear Ei. subst j.
        rewrite chunk_pk_S by lia. replace (N.to_nat (i + 1)) with (Datatypes.S (N.to_nat i)) by lia.
        cbn [firstn existsb]. pose proof (zval_lt _ x) as Hx. change (Npos (uint_modulus bytes)) with (2^nb) in Hx.
        destruct (negative bytes x) eqn:E; cbn [orb].
        * rewrite sint_chunk_neg by auto. rewrite chunk_neg.
          -- apply lor_ones_r, chunk_lt.
          -- lia.
          -- subst nb. lia.
          -- unfold negative in E. apply N.leb_le in E. subst nb. auto.
          -- lia.
        * rewrite sint_chunk_pos by auto. rewrite chunk_small by auto. rewrite N.lor_0_r.
          rewrite IH by lia. rewrite znth_cons by lia.
          replace (Z.of_N (i + 1) =? 0)%Z with false by lia.
          now replace (Z.of_N (i + 1) - 1)%Z with (Z.of_N i) by lia.
  Qed.

  Lemma sint_pack (v : list S) (c : S) k d : (zlen v <= packing_factor S)%Z -> (0 <= k < zlen v)%Z ->
    znth d (block_to_span S (span_to_block S v c)) k =
    if existsb (fun x => negative bytes (s_mul S x c)) (firstn (Z.to_nat k) v) then minus_one bytes
    else s_mul S (znth d v k) c.
  Proof.
    intros Hv Hk.
    assert (PF : (packing_factor S * num_bits S <= 128)%Z).
    { unfold packing_factor, num_bits. cbn [s_size S sint_scalar].
      rewrite Z.quot_div_nonneg by lia. pose proof (Z.mul_div_le 16 (Zpos bytes)). lia. }
    assert (HN : (Z.to_N k + 1) * nb <= 128).
    { unfold num_bits in PF. cbn [s_size S sint_scalar] in PF. subst nb. nia. }
    unfold block_to_span. rewrite (znth_map _ 0%Z) by (rewrite zlen_zrange; lia).
    rewrite znth_zrange by lia. cbv zeta. rewrite Z.add_0_l.
    assert (EN : Z.to_N (num_bits S) = nb) by (unfold num_bits; cbn [s_size S sint_scalar]; subst nb; lia).
    replace (Z.to_N (k * num_bits S)) with (Z.to_N k * nb) by (rewrite <- EN; unfold num_bits; cbn [s_size S sint_scalar]; lia).
    assert (E : forall b, b < 2^128 ->
       (if (num_bits S <? 128)%Z then N.shiftr b (Z.to_N k * nb) mod 2 ^ Z.to_N (num_bits S)
        else N.shiftr b (Z.to_N k * nb)) = chunk nb (Z.to_N k) b).
    { intros b Hbb. rewrite EN. destruct (Z.ltb_spec (num_bits S) 128); [reflexivity|].
      unfold chunk. rewrite N.mod_small; auto. unfold num_bits in *. cbn [s_size S sint_scalar] in *.
      assert (nb = 128) by lia. assert (Z.to_N k = 0) by lia. rewrite H1, H0. exact Hbb. }
    rewrite span_to_block_pk, EN.
    rewrite <- (map_map (fun x => s_mul S x c) (s_to128 S)).
    rewrite E.
    - rewrite (sint_chunk _ _ (s_mul S d c)) by (rewrite ?zlen_map; lia).
      rewrite firstn_map, existsb_map, Z_N_nat, Z2N.id, (znth_map _ d) by lia.
      destruct (existsb _ _).
      + apply zval_inj. cbn [s_of128 S sint_scalar]. unfold minus_one. rewrite zval_of_N, zval_of_Z.
        change (Zpos (uint_modulus bytes)) with (Z.of_N (2^nb)). change (Npos (uint_modulus bytes)) with (2^nb).
        assert (0 < 2^nb) by (apply N.neq_0_lt_0, N.pow_nonzero; discriminate).
        rewrite N.mod_small by lia.
        replace (-1)%Z with (Z.of_N (2^nb - 1) + (-1) * Z.of_N (2^nb))%Z by lia.
        rewrite Z.mod_add, Z.mod_small by lia. lia.
      + apply of_N_zval.
    - apply pk_lt. intros y Hy. apply in_map_iff in Hy. destruct Hy as (x & <- & _).
      pose proof (zval_lt _ x) as Hx. change (Npos (uint_modulus bytes)) with (2^nb) in Hx.
      assert (2^nb <= 2^128) by (apply N.pow_le_mono_r; [discriminate|subst nb; lia]).
      destruct (negative bytes x) eqn:Ex; [rewrite sint_chunk_neg by auto|rewrite sint_chunk_pos by auto]; lia.
  Qed.
End Signed.

Lemma sint_pack_lossy :
  let S := sint_scalar 4 in
  exists v : list S, zlen v = 2%Z /\
  block_to_span S (span_to_block S v (s_one S)) <> v ++ [s_zero S; s_zero S].
Proof.
  exists [minus_one 4; zmod_of_N _ 5]. split; [reflexivity|].
  intro H. apply (f_equal (map zval)) in H. vm_compute in H. discriminate H.
Qed.
