(** Corollaries of the bound in ViewFinal.v, and moduli for which views differ
    more than the statistical security allows (C81). *)
From Verif Require Import Base BaseFacts NBits ListFacts ScalarModel ScalarSpec ScalarProofs ScalarFinal PackModel PackProofs
  ProcModel ProcSpec ProcProofs RotModel GilboaModel GilboaSpec GilboaProofs GilboaFinal ViewSpec ViewProofs ViewBlocks ViewFinal.
From Coq Require Import Znumtheory Zpow_facts QArith Qabs Ring_theory Ring.
Local Open Scope Z_scope.

Lemma divides_smaller_power p h : 0 < p -> 0 <= h -> p <= 2 ^ h -> forall m, 0 <= m -> (p | 2 ^ m) -> (p | 2 ^ h).
Proof.
  intros Hp Hh Hph. apply (natlike_ind (fun m => (p | 2 ^ m) -> (p | 2 ^ h))).
  - intros [q Hq]. exists (q * 2 ^ h). rewrite <- Z.mul_assoc, (Z.mul_comm _ p), Z.mul_assoc, <- Hq. cbn; lia.
  - intros m Hm IH [q Hq]. destruct (Z.le_gt_cases (Z.succ m) h) as [Hle|Hgt].
    + exists (q * 2 ^ (h - Z.succ m)). rewrite <- Z.mul_assoc, (Z.mul_comm _ p), Z.mul_assoc, <- Hq, <- Z.pow_add_r by lia.
      f_equal. lia.
    + apply IH. assert (Hq2 : Z.even q = true).
      { apply Bool.not_false_iff_true. intro Ho. assert (Z.odd q = true) by (rewrite <- Z.negb_even, Ho; reflexivity).
        assert (R : Znumtheory.rel_prime q (2 ^ Z.succ m)).
        { apply rel_prime_Zpower_r; [lia|]; apply rel_prime_sym.
          apply Znumtheory.prime_rel_prime; [apply Znumtheory.prime_2|]. intros [k Hk].
          rewrite Hk, Z.odd_mul in H. rewrite Bool.andb_comm in H. discriminate H. }
        assert (Hq1 : q = 1 \/ q = -1).
        { destruct R as [_ _ R]. apply Z.divide_1_r. apply R; [apply Z.divide_refl|]. exists p. lia. }
        assert (2 ^ h <= 2 ^ m) by (apply Z.pow_le_mono_r; lia). rewrite Z.pow_succ_r in Hq by lia. nia. }
      apply Z.even_spec in Hq2. destruct Hq2 as [k Hk]. exists k. rewrite Z.pow_succ_r in Hq by lia. nia.
Qed.

Section Corollaries.
  Variable t : stype.
  Hypothesis Ht : stype_ok t.
  Notation S := (scalar_of t).
  Hypothesis H16 : s_size S <= 16.
  Let L := scalar_of_laws t Ht.

  Lemma views_equal K y y' out choices D : zlen out = zlen y -> zlen y' = zlen y ->
    use_correlated_ot S K (zlen y) = true -> zlen choices = transfers (s_size S) (zlen y) ->
    2 ^ (8 * s_size S) mod Z.of_N (ScalarSpec.order t) = 0 ->
    (view_probability t K y out choices D == view_probability t K y' out choices D)%Q.
  Proof.
    intros H1 H2 Hc H3 H0. pose proof (view_distance t Ht H16 K y y' out choices D H1 H2 Hc H3) as B. rewrite H0 in B.
    unfold Qdiv in B. rewrite Qmult_0_l, Qmult_0_r in B.
    apply Qabs_Qle_condition in B. destruct B as [B1 B2].
    set (a := view_probability t K y out choices D) in *. set (b := view_probability t K y' out choices D) in *.
    apply Qle_antisym.
    - apply (Qplus_le_l _ _ (- b)). setoid_replace (b + - b)%Q with 0%Q by ring. exact B2.
    - apply (Qplus_le_l _ _ (- b)). setoid_replace (b + - b)%Q with (- 0)%Q by ring. exact B1.
  Qed.

  Lemma full_range_rem : full_range t = true -> 2 ^ (8 * s_size S) mod Z.of_N (ScalarSpec.order t) = 0.
  Proof. clear. destruct t; intro H; try discriminate H; reflexivity. Qed.

  Lemma views_full_range K y y' out choices D : full_range t = true -> zlen out = zlen y -> zlen y' = zlen y ->
    use_correlated_ot S K (zlen y) = true -> zlen choices = transfers (s_size S) (zlen y) ->
    (view_probability t K y out choices D == view_probability t K y' out choices D)%Q.
  Proof.
    intros Hf H1 H2 Hc H3. apply views_equal; auto. apply full_range_rem. exact Hf.
  Qed.

  (** What an accepted check says about a modulus. *)
  Lemma accepted_ntl K len p : (t = ZZ_p p \/ t = zz_p p) -> use_correlated_ot S K len = true -> 0 <= len ->
    let h := 8 * s_size S in
    (inject_Z ((if h <? 128 then 2 ^ (128 - h) else 2 ^ 128) mod Zpos p) * (inject_Z len * K) < inject_Z (2 ^ h))%Q
    \/ Zpos p = 2 ^ 128.
  Proof.
    intros Hp Hc Hl h. unfold use_correlated_ot, security_per_leaf in Hc. replace (len <? 0) with false in Hc by lia.
    pose proof (sl_size S L) as Hs. change (num_bits S) with h in Hc.
    assert (Hh : 0 <= h <= 128) by (unfold h; lia).
    assert (X : can_hash_ntl (Npos p) (Some (inject_Z len * K)%Q) h = true ->
      (inject_Z ((if h <? 128 then 2 ^ (128 - h) else 2 ^ 128) mod Zpos p) * (inject_Z len * K) < inject_Z (2 ^ h))%Q).
    { intro C. apply can_hash_ntl_exact in C; [|reflexivity|exact Hh].
      replace ((if h <? 128 then 2 ^ (128 - h) else 2 ^ 128) mod Z.pos p)
        with (Z.of_N ((if h <? 128 then (2 ^ Z.to_N (128 - h))%N else (2^128)%N) mod N.pos p)); [exact C|].
      rewrite N2Z.inj_mod. f_equal. destruct (Z.ltb_spec h 128); [|reflexivity].
      rewrite N2Z.inj_pow. f_equal. lia. }
    pose proof (order_le_128 t Ht H16) as HO.
    clearbody h. destruct Hp as [->| ->].
    - cbn [s_can_hash scalar_of ZZp_scalar] in Hc. cbv zeta in Hc. rewrite modulus_low_high in Hc.
      cbn [ScalarSpec.order] in HO.
      destruct (N.eq_dec (Npos p) (2^128)) as [E|E]; [right; apply (f_equal Z.of_N) in E; exact E|left].
      rewrite (N.mod_small (Npos p)) in Hc by lia. change (Npos p =? 0)%N with false in Hc. exact (X Hc).
    - left. exact (X Hc).
  Qed.

  (** 64 and 128 bits: the formula is right, up to a factor 8 * SizeOf. *)
  Lemma views_8_16 K y y' out choices D : (0 < K)%Q -> s_size S = 8 \/ s_size S = 16 ->
    zlen out = zlen y -> zlen y' = zlen y ->
    use_correlated_ot S K (zlen y) = true -> zlen choices = transfers (s_size S) (zlen y) ->
    (Qabs (view_probability t K y out choices D - view_probability t K y' out choices D) < inject_Z (8 * s_size S) / K)%Q.
  Proof.
    intros HK Hsz H1 H2 Hc H3. pose proof (zlen_nonneg y) as Hy.
    eapply Qle_lt_trans; [apply (view_distance t Ht H16 K y y' out choices D H1 H2 Hc H3)|].
    set (h := 8 * s_size S). set (r := 2 ^ h mod Z.of_N (ScalarSpec.order t)).
    assert (Hh : 0 < h) by (unfold h; lia). pose proof (inject_pow_pos h ltac:(lia)) as HP.
    assert (B : (inject_Z r * (inject_Z (zlen y) * K) < inject_Z (2 ^ h))%Q).
    { assert (Z0 : r = 0 -> (inject_Z r * (inject_Z (zlen y) * K) < inject_Z (2 ^ h))%Q).
      { intros ->. rewrite Qmult_0_l. exact HP. }
      assert (N0 : forall p, (t = ZZ_p p \/ t = zz_p p) -> (inject_Z r * (inject_Z (zlen y) * K) < inject_Z (2 ^ h))%Q).
      { intros p Hp. assert (Eo : Z.of_N (ScalarSpec.order t) = Zpos p) by (destruct Hp as [->| ->]; reflexivity).
        destruct (accepted_ntl K (zlen y) p Hp Hc Hy) as [A|A].
        - fold h in A. unfold r. rewrite Eo. destruct Hsz as [E|E]; unfold h in *; rewrite E in *; exact A.
        - apply Z0. unfold r. rewrite Eo, A. destruct Hsz as [E|E]; unfold h; rewrite E.
          + (* 2^128 elements do not fit in 8 bytes *)
            exfalso. assert (E2 : p = (2^128)%positive) by (injection A; auto). subst p.
            destruct Hp as [Hp|Hp]; rewrite Hp in E; vm_compute in E; discriminate E.
          + reflexivity. }
      assert (T : full_range t = true \/ exists p, t = ZZ_p p \/ t = zz_p p).
      { clear. destruct t; cbn; eauto. }
      destruct T as [T|[p T]]; [|exact (N0 p T)]. apply Z0. apply full_range_rem. exact T. }
    assert (Hr : 0 <= r) by (apply Z.mod_pos_bound; pose proof (order_pos t); lia).
    rewrite inject_Z_mult. apply Qlt_shift_div_l; [exact HK|].
    setoid_replace (inject_Z h * inject_Z (zlen y) * (inject_Z r / inject_Z (2 ^ h)) * K)%Q
      with (inject_Z h * (inject_Z r * (inject_Z (zlen y) * K) / inject_Z (2 ^ h)))%Q
      by (field; intro E; rewrite E in HP; discriminate HP).
    rewrite <- (Qmult_1_r (inject_Z h)) at 2. apply Qmult_lt_l; [rewrite <- Zlt_Qlt with (x := 0); exact Hh|].
    apply Qlt_shift_div_r; [exact HP|]. rewrite Qmult_1_l. exact B.
  Qed.

  (** Few bits: only moduli that divide a power of two are accepted. *)
  Lemma views_small K y y' out choices D : (inject_Z (2 ^ (8 * s_size S)) <= inject_Z (zlen y) * K)%Q ->
    zlen out = zlen y -> zlen y' = zlen y ->
    use_correlated_ot S K (zlen y) = true -> zlen choices = transfers (s_size S) (zlen y) ->
    (view_probability t K y out choices D == view_probability t K y' out choices D)%Q.
  Proof.
    intros HK H1 H2 Hc H3. pose proof (zlen_nonneg y) as Hy. pose proof (sl_size S L) as Hs.
    apply views_equal; auto.
    assert (T : full_range t = true \/ exists p, t = ZZ_p p \/ t = zz_p p).
    { clear. destruct t; cbn; eauto. }
    destruct T as [T|[p T]]; [exact (full_range_rem T)|].
    assert (Eo : Z.of_N (ScalarSpec.order t) = Zpos p) by (destruct T as [->| ->]; reflexivity).
    assert (Hp : Zpos p <= 2 ^ (8 * s_size S)).
    { rewrite <- Eo. pose proof (proj1 (proj2 (proj2 (proj2 (scalar_facts t Ht))) H16)) as F. cbv beta zeta in F. apply N2Z.inj_le in F. rewrite N2Z.inj_pow, Z2N.id in F by lia. exact F. }
    rewrite Eo. apply Z.mod_divide; [discriminate|].
    destruct (accepted_ntl K (zlen y) p T Hc Hy) as [A|A].
    - set (M := if 8 * s_size S <? 128 then 128 - 8 * s_size S else 128).
      apply (divides_smaller_power (Zpos p) (8 * s_size S)) with (m := M); try (unfold M; destruct (Z.ltb_spec (8 * s_size S) 128); lia).
      apply Z.mod_divide; [discriminate|].
      replace (2 ^ M) with (if 8 * s_size S <? 128 then 2 ^ (128 - 8 * s_size S) else 2 ^ 128)
        by (unfold M; destruct (8 * s_size S <? 128); reflexivity).
      set (rem := (if 8 * s_size S <? 128 then 2 ^ (128 - 8 * s_size S) else 2 ^ 128) mod Zpos p) in *.
      assert (R0 : 0 <= rem) by (apply Z.mod_pos_bound; lia). clearbody rem M.
      destruct (Z.eq_dec rem 0) as [|Hn]; [assumption|exfalso].
      assert (R1 : (1 <= inject_Z rem)%Q) by (rewrite <- Zle_Qle with (x := 1); lia).
      pose proof (inject_pow_pos (8 * s_size S) ltac:(lia)) as HP.
      apply (Qlt_irrefl (inject_Z (2 ^ (8 * s_size S)))). eapply Qle_lt_trans; [|exact A].
      eapply Qle_trans; [exact HK|]. rewrite <- (Qmult_1_l (inject_Z (zlen y) * K)) at 1.
      apply Qmult_le_compat_r; [exact R1|]. eapply Qle_trans; [|exact HK]. apply Qlt_le_weak. exact HP.
    - rewrite A in *. apply Z.pow_le_mono_r_iff in Hp; [|lia|lia]. exists (2 ^ (8 * s_size S - 128)).
      rewrite <- Z.pow_add_r by lia. f_equal. lia.
  Qed.
End Corollaries.

Lemma count_negb n f : (count_below n f + count_below n (fun v => negb (f v)) = n)%N.
Proof.
  induction n as [|n IH] using N.peano_ind; [reflexivity|]. rewrite !count_succ. destruct (f n); cbn [negb]; lia.
Qed.
Lemma count_shifted p d A : (d < p -> A <= p -> count_below p (fun v => (d + v) mod p <? A) = A)%N.
Proof.
  intros Hd HA. replace p with (p - d + d)%N at 1 by lia. rewrite count_add.
  rewrite (count_ext (p - d) _ (fun v => v <? A - d)%N).
  - rewrite (count_ext d _ (fun v => v <? A)%N).
    + rewrite !count_ltb. lia.
    + intros v Hv. replace (d + (p - d + v))%N with (v + 1 * p)%N by lia. rewrite N.mod_add, N.mod_small by lia. reflexivity.
  - intros v Hv. rewrite N.mod_small by lia. apply Bool.eq_iff_eq_true. rewrite !N.ltb_lt. lia.
Qed.
Lemma product_ext n : forall f g, (forall i, (i < n)%nat -> f i = g i) -> product n f = product n g.
Proof.
  induction n as [|n IH]; intros f g H; cbn [product]; [reflexivity|].
  rewrite (H O), (IH (fun i => f (S i)) (fun i => g (S i))) by (intros; try apply H; lia). reflexivity.
Qed.

Section Witness.
  Variables (p : positive) (r : N) (x : zmod p).
  Notation t := (ZZ_p p).
  Hypothesis Ht : stype_ok t.
  Notation S := (scalar_of t).
  Hypothesis H16 : s_size S <= 16.
  Let L := scalar_of_laws t Ht.
  Notation zn := (znth (s_zero S)).
  Notation pf := (packing_factor S).
  Notation nb := (num_bits S).
  Notation w := (Z.to_N (num_bits S)).
  Notation lanes := (block_to_span S).
  Hypothesis Hw : (2 ^ w = Npos p + r)%N.
  Hypothesis Hr : (r <= Npos p)%N.

  Definition chosen : list bool := get_bits S x.
  (** Is the first element of no chosen message below r? *)
  Definition none_low (view : list N) : bool :=
    forallb (fun q => negb (znth false chosen q) || negb (zval (zn (lanes (znth 0%N view q)) 0 : zmod p) <? r)%N) (zrange 0 nb).

  Lemma transfers_one : transfers (s_size S) 1 = nb.
  Proof.
    pose proof (sl_size S L). rewrite transfers_eq by lia. unfold chunks. pose proof (pf_pos S L H16).
    replace (1 + pf - 1) with pf by lia. rewrite Z.div_same by lia. lia.
  Qed.

  Definition low_blocks (d : N) : N := count_below (2^w) (fun v => (d + v mod Npos p) mod Npos p <? r)%N.

  Lemma low_0 : low_blocks 0 = (2 * r)%N.
  Proof.
    unfold low_blocks. rewrite Hw. replace (Npos p + r)%N with (1 * Npos p + r)%N by lia.
    rewrite (count_mod (Npos p) 1 r (fun v => (0 + v) mod Npos p <? r)%N) by lia.
    rewrite count_shifted by lia. rewrite (count_ext r _ (fun v => v <? r)%N).
    - rewrite count_ltb. lia.
    - intros v Hv. rewrite N.mod_small by lia. reflexivity.
  Qed.
  Lemma low_d d : (r <= d -> d + r <= Npos p -> d < Npos p -> low_blocks d = r)%N.
  Proof.
    intros H1 H2 H3. unfold low_blocks. rewrite Hw. replace (Npos p + r)%N with (1 * Npos p + r)%N by lia.
    rewrite (count_mod (Npos p) 1 r (fun v => (d + v) mod Npos p <? r)%N) by lia.
    rewrite count_shifted by lia. rewrite (count_false r); [lia|].
    intros v Hv. rewrite N.mod_small by lia. apply N.ltb_ge. lia.
  Qed.

  Definition shift_of (b : N) (q : Z) : N := ((b mod Npos p) * (2 ^ Z.to_N q mod Npos p)) mod Npos p.

  Lemma seen_value b l q : blocks (Z.to_nat nb) l -> 0 <= q < nb -> znth false chosen q = true ->
    zval (zn (lanes (znth 0%N (seen t [zmod_of_N p b] chosen l) q)) 0 : zmod p) =
    ((shift_of b q + N.shiftr (nth (Z.to_nat q) l 0%N) 0 mod 2 ^ w mod Npos p) mod Npos p)%N.
  Proof.
    intros [Hl1 Hl2] Hq Hc. unfold seen.
    assert (HT : transfers (s_size S) (@zlen (s_T S) [zmod_of_N p b]) = nb) by exact transfers_one.
    rewrite HT.
    rewrite (znth_map _ 0) by (rewrite zlen_zrange; lia). rewrite znth_zrange by lia. rewrite Z.add_0_l. cbv zeta. rewrite Hc.
    pose proof (pf_pos S L H16) as Hpf.
    assert (Hb : (nth (Z.to_nat q) l 0 < 2^128)%N) by (apply (proj1 (Forall_forall _ _) Hl2), nth_In; lia).
    rewrite (correlate_ok S L H16) by lia. rewrite (lanes_delta t Ht H16) by (rewrite ?HT; lia).
    rewrite (block_to_span_nth S L H16) by (auto; lia).
    rewrite Z.div_small, Z.mod_small by lia. change (0 * pf + 0) with 0. change (0 <? @zlen (s_T S) [zmod_of_N p b]) with true. cbv iota.
    change (zn [zmod_of_N p b] 0) with (zmod_of_N p b).
    change (zval (zadd (zmul (zmod_of_N p b) (zmod_of_N p (N.shiftl 1 (Z.to_N q))))
       (s_of128 (ZZp_scalar p) (chunk w 0 (nth (Z.to_nat q) l 0%N)))) =
      ((shift_of b q + N.shiftr (nth (Z.to_nat q) l 0) 0 mod 2 ^ w mod N.pos p) mod N.pos p)%N).
    rewrite ZZp_of128.
    - unfold zadd, zmul. rewrite !zval_of_N, N.shiftl_1_l. unfold shift_of, chunk. rewrite N.mul_0_l. reflexivity.
    - apply N.lt_le_trans with (2 ^ w)%N; [apply N.mod_lt, N.pow_nonzero; discriminate|].
      apply N.pow_le_mono_r; [discriminate|]. unfold num_bits. lia.
  Qed.

  Lemma none_low_outcomes b m : (forall q, 0 <= q < nb -> znth false chosen q = true -> low_blocks (shift_of b q) = m) ->
    outcomes (Z.to_nat nb) (fun l => none_low (seen t [zmod_of_N p b] chosen l)) =
    product (Z.to_nat nb) (fun i => if znth false chosen (Z.of_nat i) then ((2 ^ w - m) * 2 ^ (128 - w))%N else (2^128)%N).
  Proof.
    intro Hm.
    rewrite (out_ext _ _ (each (fun i v => negb (znth false chosen (Z.of_nat i)) ||
      negb ((shift_of b (Z.of_nat i) + N.shiftr v 0 mod 2 ^ w mod Npos p) mod Npos p <? r)%N))).
    - rewrite out_each. apply product_ext. intros i Hi. destruct (znth false chosen (Z.of_nat i)) eqn:E; cbn [negb orb].
      + assert (H128 : (w <= 128)%N) by (unfold num_bits; lia).
        pose proof (count_chunk 0 w (fun v => negb ((shift_of b (Z.of_nat i) + v mod Npos p) mod Npos p <? r)%N) ltac:(lia)) as C.
        cbv beta in C.
        pose proof (count_negb (2^w) (fun v => (shift_of b (Z.of_nat i) + v mod Npos p) mod Npos p <? r)%N) as Cn.
        fold (low_blocks (shift_of b (Z.of_nat i))) in Cn. rewrite Hm in Cn by (auto; lia). cbv beta in Cn.
        assert (P128 : (2^128 = 2^w * 2^(128 - w))%N) by (rewrite <- N.pow_add_r; f_equal; lia).
        assert (Pw : (2^w <> 0)%N) by (apply N.pow_nonzero; discriminate).
        match type of C with (?A * _ = ?B * _)%N => set (X := A) in *; set (Y := B) in * end.
        match goal with |- ?A = _ => change A with X end. clearbody X Y.
        assert (EY : Y = (2 ^ w - m)%N) by lia. rewrite EY, P128 in C.
        apply (N.mul_cancel_r _ _ (2^w)%N Pw). rewrite C. 
        ring.
      + apply count_all. auto.
    - intros l Hl. pose proof Hl as [Hl1 _]. apply Bool.eq_iff_eq_true. rewrite each_nth. unfold none_low. rewrite forallb_forall. split.
      + intros H i Hi. specialize (H (Z.of_nat i) ltac:(apply In_zrange; lia)).
        destruct (znth false chosen (Z.of_nat i)) eqn:E; [|reflexivity]. cbn [negb orb] in *.
        rewrite seen_value in H by (auto; lia). rewrite Nat2Z.id in H. exact H.
      + intros H q Hq. apply In_zrange in Hq. specialize (H (Z.to_nat q) ltac:(lia)). rewrite Z2Nat.id in H by lia.
        destruct (znth false chosen q) eqn:E; [|reflexivity]. cbn [negb orb] in *.
        rewrite seen_value by (auto; lia). exact H.
  Qed.

  Definition chance (m : N) : Q :=
    (inject_Z (Z.of_N (product (Z.to_nat nb)
       (fun i => if znth false chosen (Z.of_nat i) then ((2 ^ w - m) * 2 ^ (128 - w))%N else (2^128)%N)))
     / inject_Z (2 ^ (128 * Z.of_nat (Z.to_nat nb))))%Q.

  Lemma view_chance K b m o : use_correlated_ot S K 1 = true ->
    (forall q, 0 <= q < nb -> znth false chosen q = true -> low_blocks (shift_of b q) = m) ->
    view_probability t K [zmod_of_N p b] [o] chosen none_low = chance m.
  Proof.
    intros Hc Hm.
    assert (HT : transfers (s_size S) (@zlen (s_T S) [zmod_of_N p b]) = nb) by exact transfers_one.
    rewrite (seen_probability t Ht H16); [|reflexivity|exact Hc|].
    - unfold probability, chance. rewrite HT. now rewrite (none_low_outcomes b m Hm).
    - rewrite HT. unfold chosen, get_bits. rewrite zlen_map, zlen_zrange; [lia|]. pose proof (bw_pos S L H16). lia.
  Qed.

  Lemma leak_between K b o : use_correlated_ot S K 1 = true ->
    (forall q, 0 <= q < nb -> znth false chosen q = true ->
       (r <= shift_of b q)%N /\ (shift_of b q + r <= Npos p)%N /\ (shift_of b q < Npos p)%N) ->
    Qabs (view_probability t K [zmod_of_N p 0] [o] (get_bits S x) none_low
          - view_probability t K [zmod_of_N p b] [o] (get_bits S x) none_low)%Q
    = Qabs (chance (2 * r) - chance r)%Q.
  Proof.
    intros Hc Hq. change (get_bits S x) with chosen.
    rewrite (view_chance K 0 (2 * r) o Hc).
    - rewrite (view_chance K b r o Hc); [reflexivity|].
      intros q H1 H2. destruct (Hq q H1 H2) as (A & B & C). exact (low_d _ A B C).
    - intros q H1 H2. change (shift_of 0 q) with 0%N. exact low_0.
  Qed.
End Witness.

(** 104-bit elements: 2^26 instead of 2^104 is reduced when the check is made. *)
Lemma leak_middle : let t := ZZ_p (3 * 2^102) in let S := scalar_of t in
  stype_ok t /\ s_size S = 13 /\ use_correlated_ot S (inject_Z (2^40)) 1 = true /\
  (Qabs (view_probability t (inject_Z (2^40)) [zmod_of_N (3 * 2^102) 0] [s_zero S]
           (get_bits S (zmod_of_N (3 * 2^102) 1)) (none_low (3 * 2^102) (2^102) (zmod_of_N (3 * 2^102) 1))
         - view_probability t (inject_Z (2^40)) [zmod_of_N (3 * 2^102) (2^102)] [s_zero S]
           (get_bits S (zmod_of_N (3 * 2^102) 1)) (none_low (3 * 2^102) (2^102) (zmod_of_N (3 * 2^102) 1)))
   == 1 # 4)%Q.
Proof.
  intros t S. assert (Ht : stype_ok t) by reflexivity.
  assert (Hs : s_size S = 13) by (vm_compute; reflexivity).
  assert (H16 : s_size S <= 16) by lia.
  assert (Hc : use_correlated_ot S (inject_Z (2^40)) 1 = true) by (vm_compute; reflexivity).
  assert (Hw : (2 ^ Z.to_N (num_bits S) = Npos (3 * 2^102) + 2^102)%N) by (vm_compute; reflexivity).
  assert (Hr : (2^102 <= Npos (3 * 2^102))%N) by (vm_compute; discriminate).
  split; [exact Ht|]. split; [exact Hs|]. split; [exact Hc|].
  set (x := zmod_of_N (3 * 2^102) 1).
  refine (eq_ind_r (fun z => (z == 1 # 4)%Q) _ (leak_between (3 * 2^102) (2^102) x Ht H16 Hw Hr (inject_Z (2^40)) (2^102) (s_zero S) Hc _)).
  - vm_compute. reflexivity.
  - intros q Hq H. assert (F : forallb (fun q => implb (znth false (chosen (3 * 2^102) x) q) (q =? 0))
      (zrange 0 (num_bits S)) = true) by (vm_compute; reflexivity).
    rewrite forallb_forall in F. specialize (F q ltac:(apply In_zrange; exact Hq)). rewrite H in F. cbn [implb] in F.
    apply Z.eqb_eq in F. rewrite F. vm_compute. repeat split; (reflexivity || discriminate).
Qed.

(** 64-bit elements: one element, 64 transfers. *)
Lemma leak_factor : let p := (2^64 - 2^24 + 1)%positive in let t := ZZ_p p in let S := scalar_of t in
  stype_ok t /\ s_size S = 8 /\ use_correlated_ot S (inject_Z (2^40)) 1 = true /\
  (39 / inject_Z (2^40) <
   Qabs (view_probability t (inject_Z (2^40)) [zmod_of_N p 0] [s_zero S]
           (get_bits S (zmod_of_N p (Npos p - 1))) (none_low p (2^24 - 1) (zmod_of_N p (Npos p - 1)))
         - view_probability t (inject_Z (2^40)) [zmod_of_N p 1] [s_zero S]
           (get_bits S (zmod_of_N p (Npos p - 1))) (none_low p (2^24 - 1) (zmod_of_N p (Npos p - 1)))))%Q.
Proof.
  intros p t S. assert (Ht : stype_ok t) by reflexivity.
  assert (Hs : s_size S = 8) by (vm_compute; reflexivity).
  assert (H16 : s_size S <= 16) by lia.
  assert (Hc : use_correlated_ot S (inject_Z (2^40)) 1 = true) by (vm_compute; reflexivity).
  assert (Hw : (2 ^ Z.to_N (num_bits S) = Npos p + (2^24 - 1))%N) by (vm_compute; reflexivity).
  assert (Hr : (2^24 - 1 <= Npos p)%N) by (vm_compute; discriminate).
  split; [exact Ht|]. split; [exact Hs|]. split; [exact Hc|].
  set (x := zmod_of_N p (Npos p - 1)).
  refine (eq_ind_r (fun z => (39 / inject_Z (2^40) < z)%Q) _ (leak_between p (2^24 - 1) x Ht H16 Hw Hr (inject_Z (2^40)) 1 (s_zero S) Hc _)).
  - vm_compute. reflexivity.
  - intros q Hq H. assert (F : forallb (fun q => implb (znth false (chosen p x) q)
        ((2^24 - 1 <=? shift_of p 1 q) && (shift_of p 1 q + (2^24 - 1) <=? Npos p) && (shift_of p 1 q <? Npos p))%N)
      (zrange 0 (num_bits S)) = true) by (vm_compute; reflexivity).
    rewrite forallb_forall in F. specialize (F q ltac:(apply In_zrange; exact Hq)). rewrite H in F. cbn [implb] in F.
    rewrite !andb_true_iff, !N.leb_le, N.ltb_lt in F. destruct F as [[A B] C]. exact (conj A (conj B C)).
Qed.

Lemma one_transfer_per_element : exists p x y y' out D,
  let t := ZZ_p p in let S := scalar_of t in let K := inject_Z (2 ^ 40) in
  stype_ok t /\ s_size S = 8 /\ zlen y = 1 /\ zlen y' = 1 /\ use_correlated_ot S K 1 = true /\
  (39 / K < Qabs (view_probability t K y out (get_bits S x) D - view_probability t K y' out (get_bits S x) D))%Q.
Proof.
  exists (2^64 - 2^24 + 1)%positive. do 5 eexists. cbv zeta.
  split; [exact (proj1 leak_factor)|]. split; [exact (proj1 (proj2 leak_factor))|].
  split; [|split; [|split; [exact (proj1 (proj2 (proj2 leak_factor)))|exact (proj2 (proj2 (proj2 leak_factor)))]]]; reflexivity.
Qed.

Lemma middle_sizes : exists p x y y' out D,
  let t := ZZ_p p in let S := scalar_of t in let K := inject_Z (2 ^ 40) in
  stype_ok t /\ s_size S = 13 /\ zlen y = 1 /\ zlen y' = 1 /\ use_correlated_ot S K 1 = true /\
  (Qabs (view_probability t K y out (get_bits S x) D - view_probability t K y' out (get_bits S x) D) == 1 # 4)%Q.
Proof.
  exists (3 * 2^102)%positive. do 5 eexists. cbv zeta.
  split; [exact (proj1 leak_middle)|]. split; [exact (proj1 (proj2 leak_middle))|].
  split; [|split; [|split; [exact (proj1 (proj2 (proj2 leak_middle)))|exact (proj2 (proj2 (proj2 leak_middle)))]]]; reflexivity.
Qed.
