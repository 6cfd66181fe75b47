(** The test `bits_needed > 128` with doubles, and what it means for the
    distribution of bucket numbers. *)
From Coq Require Import ZArith NArith Reals Lra Lia QArith Qreals Qabs Bool.
From Flocq.Core Require Import Core.
From Verif Require Import Base ScalarModel ScalarSpec ScalarFinal CuckooModel FloatSpec FloatModel FloatFacts FloatSecurity.
Local Open Scope R_scope.

Section Bits.
  Variable log2 : R -> R.
  Hypothesis Hlog : accurate Rlog2 log2.

  Lemma exp2_product3 n h b s : (1 <= n)%Z -> (1 <= h)%Z -> (1 <= b)%Z ->
    exp2 (Rlog2 (IZR n) + (Rlog2 (IZR h) + (Rlog2 (IZR b) + s))) = IZR (n * h * b) * exp2 s.
  Proof.
    intros Hn Hh Hb. rewrite !exp2_plus, !exp2_log2 by (apply IZR_lt; lia). rewrite !mult_IZR. ring.
  Qed.

  Lemma log2_64 n : (1 <= n < 2^64)%Z -> 0 <= Rlog2 (IZR n) <= 64.
  Proof.
    intros H. pose proof (Rlog2_bounds n ltac:(lia)). split; [lra|]. pose proof ln2_bounds.
    unfold Rlog2. apply Rmult_le_reg_r with (ln 2); [lra|]. unfold Rdiv. rewrite Rmult_assoc, Rinv_l by lra.
    rewrite Rmult_1_r, <- ln_IZR_pow by lia. left. apply ln_increasing; apply IZR_lt; lia.
  Qed.
  Lemma bits_value s n h b : 0 <= s <= 512 -> (1 <= n < 2^64)%Z -> (1 <= h < 2^64)%Z -> (1 <= b < 2^64)%Z ->
    exists x,
      dadd (dadd (dadd (Fin s) (dlog2 log2 (of_int n))) (dlog2 log2 (of_int h))) (dlog2 log2 (of_int b)) = Fin x /\
      let exact := Rlog2 (IZR n) + (Rlog2 (IZR h) + (Rlog2 (IZR b) + s)) in
      - rounding_slack < x - exact < rounding_slack.
  Proof.
    intros Hs Hn Hh Hb.
    destruct (dlog2_int log2 n Hlog ltac:(lia)) as (ln & -> & Bn). destruct (dlog2_int log2 h Hlog ltac:(lia)) as (lh & -> & Bh).
    destruct (dlog2_int log2 b Hlog ltac:(lia)) as (lb & -> & Bb).
    pose proof (log2_64 n Hn). pose proof (log2_64 h Hh). pose proof (log2_64 b Hb).
    unfold log_error, rounding_slack in *. cbn [dadd].
    rewrite (rounded_small (s + ln)) by lra. cbn [dadd]. pose proof (nearest_near (s + ln) ltac:(lra)).
    rewrite (rounded_small (nearest (s + ln) + lh)) by lra. cbn [dadd]. pose proof (nearest_near (nearest (s + ln) + lh) ltac:(lra)).
    rewrite (rounded_small (nearest (nearest (s + ln) + lh) + lb)) by lra. pose proof (nearest_near (nearest (nearest (s + ln) + lh) + lb) ltac:(lra)).
    eexists. split; [reflexivity|]. cbv zeta. lra.
  Qed.

  Lemma bits_check s n h b : 0 <= s <= 512 -> (1 <= n < 2^64)%Z -> (1 <= h < 2^64)%Z -> (1 <= b < 2^64)%Z ->
    (too_many_bits_double log2 (Fin s) h n b = false -> IZR (n * h * b) <= exp2 (128 - s + rounding_slack)) /\
    (too_many_bits_double log2 (Fin s) h n b = true -> exp2 (128 - s - rounding_slack) <= IZR (n * h * b)).
  Proof.
    intros Hs Hn Hh Hb. destruct (bits_value s n h b Hs Hn Hh Hb) as (x & E & B). cbv zeta in B.
    unfold too_many_bits_double. cbv zeta. rewrite E, of_int_fin, nearest_int by lia. cbn [dlt].
    assert (P : IZR (n * h * b) = exp2 (Rlog2 (IZR n) + (Rlog2 (IZR h) + (Rlog2 (IZR b) + 0)))).
    { rewrite exp2_product3 by lia. change 0 with (IZR 0). rewrite exp2_int by lia. change (IZR (2^0)) with 1. lra. }
    rewrite P. split; intros H; (destruct (Rlt_dec 128 x) as [L|L]; try discriminate); apply exp2_le; lra.
  Qed.

  (** log2(0) is -infinity. *)
  Lemma bits_check_empty s h b : 0 <= s <= 512 -> (1 <= h < 2^64)%Z -> (1 <= b < 2^64)%Z ->
    too_many_bits_double log2 (Fin s) h 0 b = false.
  Proof.
    intros Hs Hh Hb. unfold too_many_bits_double. cbv zeta. rewrite dlog2_zero by assumption.
    destruct (dlog2_int log2 h Hlog ltac:(lia)) as (lh & -> & _). destruct (dlog2_int log2 b Hlog ltac:(lia)) as (lb & -> & _).
    rewrite of_int_fin by lia. reflexivity.
  Qed.

  (** The remainder of a uniform 128-bit number. *)
  Lemma bucket_dist aes h b (B : Z -> bool) : (1 <= b < 2^63)%Z ->
    (Qabs (fraction (2^128) (fun v => B (hash_to_bucket aes h v b 0)) - fraction (Z.to_N b) (fun v => B (Z.of_N v)))
     < inject_Z b / inject_Z (2^128))%Q.
  Proof.
    intros Hb.
    assert (E : fraction (2^128) (fun v => B (hash_to_bucket aes h v b 0)) =
                fraction (2^128) (fun v => (fun v => B (Z.of_N v)) (v mod Z.to_N b)%N)).
    { unfold fraction. rewrite (count_ext _ (fun v => B (hash_to_bucket aes h v b 0)) (fun v => B (Z.of_N (v mod Z.to_N b)%N))); [reflexivity|].
      intros v _. unfold hash_to_bucket. cbn [Z.ltb Z.compare]. f_equal.
      pose proof (N.mod_lt v (Z.to_N b) ltac:(lia)).
      rewrite (N.mod_small (v mod Z.to_N b) (2^64)) by (change (2^64)%N with (Z.to_N (2^64)); lia).
      unfold wrap64. set (r := Z.of_N (v mod Z.to_N b)) in *.
      assert (R : (0 <= r < 2^63)%Z) by lia. clearbody r.
      rewrite Z.mod_small; lia. }
    rewrite E.
    assert (P : (0 < inject_Z b)%Q) by (change 0%Q with (inject_Z 0); rewrite <- Zlt_Qlt; lia).
    assert (K : (0 < inject_Z (2^128) / inject_Z b)%Q) by (apply Qlt_shift_div_l; [exact P|rewrite Qmult_0_l; reflexivity]).
    assert (D : (inject_Z b / inject_Z (2^128) == 1 / (inject_Z (2^128) / inject_Z b))%Q).
    { field. split; [|discriminate]. intros Z. rewrite Z in P. discriminate. }
    rewrite D. refine (frac_dist (2^128) (Z.to_N b) (fun v => B (Z.of_N v)) (inject_Z (2^128) / inject_Z b) _ _ K _); [lia|reflexivity|].
    assert (M : (Z.of_N (2 ^ 128 mod Z.to_N b) < b)%Z) by (pose proof (N.mod_lt (2^128) (Z.to_N b) ltac:(lia)); lia).
    assert (C : (inject_Z (2 ^ 128) == inject_Z b * (inject_Z (2 ^ 128) / inject_Z b))%Q).
    { field. intros Z. rewrite Z in P. discriminate. }
    change (Z.of_N (2 ^ 128)) with (2^128)%Z. rewrite C at 2. apply Qmult_lt_compat_r; [exact K|].
    rewrite <- Zlt_Qlt. exact M.
  Qed.

  Lemma bucket_close aes h s n b (B : Z -> bool) : 0 <= s <= 512 ->
    (1 <= n < 2^63)%Z -> (1 <= ch_num_hash_functions h < 2^31)%Z -> (1 <= b < 2^63)%Z ->
    too_many_bits_double log2 (Fin s) (ch_num_hash_functions h) n b = false ->
    IZR (n * ch_num_hash_functions h) *
      Q2R (Qabs (fraction (2^128) (fun v => B (hash_to_bucket aes h v b 0)) - fraction (Z.to_N b) (fun v => B (Z.of_N v))))
    <= exp2 (rounding_slack - s).
  Proof.
    intros Hs Hn Hh Hb H. set (k := ch_num_hash_functions h) in *.
    apply (proj1 (bits_check s n k b Hs ltac:(lia) ltac:(lia) ltac:(lia))) in H.
    pose proof (Qlt_Rlt _ _ (bucket_dist aes h b B Hb)) as D. unfold Qdiv in D at 1. rewrite Q2R_mult, Q2R_inv, !Q2R_inject in D by discriminate.
    assert (P : 0 < IZR (n * k)) by (apply IZR_lt; lia).
    apply Rle_trans with (IZR (n * k) * (IZR b * / IZR (2 ^ 128))).
    { apply Rmult_le_compat_l; lra. }
    rewrite <- Rmult_assoc, <- mult_IZR. replace (rounding_slack - s) with ((128 - s + rounding_slack) + - (128)) by ring.
    rewrite exp2_plus. unfold exp2 at 2. rewrite Rpower_Ropp. fold (exp2 128). rewrite (exp2_int 128) by lia.
    apply Rmult_le_compat_r; [|exact H]. left. apply Rinv_0_lt_compat. apply IZR_lt. reflexivity.
  Qed.
End Bits.
