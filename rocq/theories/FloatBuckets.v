(** The number of buckets computed by GetOptimalNumberOfBuckets. *)
From Coq Require Import ZArith Reals Lra Lia.
From Flocq.Core Require Import Core.
From Verif Require Import FloatSpec FloatModel FloatFacts FloatSecurity FloatErf.
Local Open Scope R_scope.

(** Errors of operations on numbers of magnitude up to 2^20. *)
Definition delta : R := / 4294967296.
Lemma delta_val : bpow radix2 (-32) = delta.
Proof. change (-32)%Z with (- (32))%Z. rewrite bpow_neg_IZR by lia. reflexivity. Qed.
Lemma below20 x : -1048576 <= x <= 1048576 -> Rabs x <= bpow radix2 20.
Proof. intros H. rewrite bpow_pos_IZR by lia. apply Rabs_le. exact H. Qed.
Lemma nearest20 x : -1048576 <= x <= 1048576 -> x - delta <= nearest x <= x + delta.
Proof.
  intros H. pose proof (round_error ZnearestE x 20 ltac:(lia) (below20 x H)) as E. change (20 - 52)%Z with (-32)%Z in E.
  rewrite delta_val in E. apply Rabs_le_inv in E. unfold nearest. lra.
Qed.
Lemma accurate20 f g x : accurate f g -> -1048576 <= f x <= 1048576 -> f x - delta <= g x <= f x + delta.
Proof.
  intros H B. pose proof (accurate_error f g x 20 H ltac:(lia) (below20 _ B)) as E. change (20 - 52)%Z with (-32)%Z in E.
  rewrite delta_val in E. apply Rabs_le_inv in E. lra.
Qed.
Lemma nearest_ge n x : (Z.abs n < 2^53)%Z -> IZR n <= x -> IZR n <= nearest x.
Proof. intros Hn H. apply round_ge_generic; try typeclasses eauto; [apply int_format, Hn|exact H]. Qed.
Lemma nearest_le n x : (Z.abs n < 2^53)%Z -> x <= IZR n -> nearest x <= IZR n.
Proof. intros Hn H. apply round_le_generic; try typeclasses eauto; [apply int_format, Hn|exact H]. Qed.
(** The same for k-fold multiples of 53-bit numbers, k a power of two. *)
Lemma scaled_format n k : (Z.abs n < 2^53)%Z -> (0 <= k)%Z -> generic_format radix2 double_exp (IZR (n * 2^k)).
Proof.
  intros Hn Hk. apply generic_format_FLT. exists (Float radix2 n k); cbn [Fnum Fexp]; [|assumption|lia].
  unfold F2R. cbn [Fnum Fexp]. rewrite bpow_pos_IZR by assumption. rewrite mult_IZR. reflexivity.
Qed.
Lemma nearest_le_scaled n k x : (Z.abs n < 2^53)%Z -> (0 <= k)%Z -> x <= IZR (n * 2^k) -> nearest x <= IZR (n * 2^k).
Proof. intros Hn Hk H. apply round_le_generic; try typeclasses eauto; [apply scaled_format; assumption|exact H]. Qed.

(** Quotients by a number between lo and hi. *)
Lemma quotient_nonneg N D lo hi : 0 < lo -> lo <= D <= hi -> 0 <= N -> N / hi <= N / D <= N / lo.
Proof. intros Hl H HN. split; apply Rmult_le_compat_l; auto; apply Rinv_le_contravar; lra. Qed.
Lemma quotient_nonpos N D lo hi : 0 < lo -> lo <= D <= hi -> N <= 0 -> N / lo <= N / D <= N / hi.
Proof. intros Hl H HN. split; apply Rmult_le_compat_neg_l; auto; apply Rinv_le_contravar; lra. Qed.
Lemma product_bounds x y a b c d : 0 <= a -> a <= x <= b -> 0 <= c -> c <= y <= d -> a * c <= x * y <= b * d.
Proof. intros Ha Hx Hc Hy. split; apply Rmult_le_compat; lra. Qed.

Lemma sqrt2_bounds : 14142 / 10000 <= sqrt 2 <= 14143 / 10000.
Proof.
  split.
  - rewrite <- (sqrt_square (14142 / 10000)) by lra. apply sqrt_le_1; lra.
  - rewrite <- (sqrt_square (14143 / 10000)) by lra. apply sqrt_le_1; lra.
Qed.

Section Three.
  Variables log2 csqrt erf : R -> R.
  Variable f : R -> R.
  Hypothesis Hlog : accurate Rlog2 log2.
  Hypothesis Hsqrt : accurate sqrt csqrt.
  Hypothesis Hf : is_erf f.
  Hypothesis Herf : accurate f erf.
  Variable s : R.
  Hypothesis Hs : 12 <= s <= 512.
  Variable n : Z.
  Hypothesis Hn : (1 <= n < 2^48)%Z.

  Let L := log2 (IZR n).
  Lemma L_bounds : - delta <= L <= 48 + delta.
  Proof.
    pose proof (Rlog2_bounds n ltac:(lia)) as B. pose proof ln2_bounds.
    assert (U : Rlog2 (IZR n) <= 48).
    { unfold Rlog2. apply Rmult_le_reg_r with (ln 2); [lra|]. unfold Rdiv. rewrite Rmult_assoc, Rinv_l by lra.
      rewrite Rmult_1_r, <- ln_IZR_pow by lia. left. apply ln_increasing; apply IZR_lt; lia. }
    pose proof (accurate20 Rlog2 log2 (IZR n) Hlog ltac:(lra)). unfold L. lra.
  Qed.
  Lemma root_bounds : 14141 / 10000 <= csqrt 2 <= 14144 / 10000.
  Proof.
    pose proof sqrt2_bounds. pose proof (accurate20 sqrt csqrt 2 Hsqrt ltac:(lra)). unfold delta in *. lra.
  Qed.

  (** The two arguments of erf. *)
  Let z1 := nearest (nearest (L - nearest (63 / 10)) / nearest (nearest (23 / 10) * csqrt 2)).
  Let z2 := nearest (nearest (L - nearest (645 / 100)) / nearest (nearest (218 / 100) * csqrt 2)).
  Lemma z_bounds : -195 / 100 <= z1 <= 13 /\ -211 / 100 <= z2 <= 14 /\ z1 - z2 <= 158 / 1000.
  Proof.
    pose proof L_bounds as BL. pose proof root_bounds as BR.
    pose proof (nearest20 (63 / 10) ltac:(lra)) as B1. pose proof (nearest20 (645 / 100) ltac:(lra)) as B2.
    pose proof (nearest20 (23 / 10) ltac:(lra)) as B3. pose proof (nearest20 (218 / 100) ltac:(lra)) as B4.
    assert (D : 0 < delta <= / 1000000) by (unfold delta; lra).
    pose proof (nearest20 (L - nearest (63 / 10)) ltac:(lra)) as N1. pose proof (nearest20 (L - nearest (645 / 100)) ltac:(lra)) as N2.
    pose proof (product_bounds (nearest (23 / 10)) (csqrt 2) (22999 / 10000) (23001 / 10000) (14141 / 10000) (14144 / 10000) ltac:(lra) ltac:(lra) ltac:(lra) ltac:(lra)) as P1.
    pose proof (product_bounds (nearest (218 / 100)) (csqrt 2) (21799 / 10000) (21801 / 10000) (14141 / 10000) (14144 / 10000) ltac:(lra) ltac:(lra) ltac:(lra) ltac:(lra)) as P2.
    pose proof (nearest20 (nearest (23 / 10) * csqrt 2) ltac:(lra)) as Q1. pose proof (nearest20 (nearest (218 / 100) * csqrt 2) ltac:(lra)) as Q2.
    set (x1 := nearest (L - nearest (63 / 10))) in *. set (x2 := nearest (L - nearest (645 / 100))) in *.
    set (d1 := nearest (nearest (23 / 10) * csqrt 2)) in *. set (d2 := nearest (nearest (218 / 100) * csqrt 2)) in *.
    assert (D1 : 3252 / 1000 <= d1 <= 3254 / 1000) by lra. assert (D2 : 3082 / 1000 <= d2 <= 3084 / 1000) by lra.
    assert (R1 : -194 / 100 <= x1 / d1 <= 129 / 10).
    { destruct (Rle_dec 0 x1) as [G|G].
      - pose proof (quotient_nonneg x1 d1 (3252 / 1000) (3254 / 1000) ltac:(lra) D1 G). lra.
      - pose proof (quotient_nonpos x1 d1 (3252 / 1000) (3254 / 1000) ltac:(lra) D1 ltac:(lra)). lra. }
    assert (R2 : -210 / 100 <= x2 / d2 <= 139 / 10).
    { destruct (Rle_dec 0 x2) as [G|G].
      - pose proof (quotient_nonneg x2 d2 (3082 / 1000) (3084 / 1000) ltac:(lra) D2 G). lra.
      - pose proof (quotient_nonpos x2 d2 (3082 / 1000) (3084 / 1000) ltac:(lra) D2 ltac:(lra)). lra. }
    assert (R3 : x1 / d1 - x2 / d2 <= 157 / 1000).
    { destruct (Rle_dec 0 x1) as [G1|G1]; destruct (Rle_dec 0 x2) as [G2|G2].
      - pose proof (quotient_nonneg x1 d1 (3252 / 1000) (3254 / 1000) ltac:(lra) D1 G1).
        pose proof (quotient_nonneg x2 d2 (3082 / 1000) (3084 / 1000) ltac:(lra) D2 G2). lra.
      - pose proof (quotient_nonneg x1 d1 (3252 / 1000) (3254 / 1000) ltac:(lra) D1 G1).
        pose proof (quotient_nonpos x2 d2 (3082 / 1000) (3084 / 1000) ltac:(lra) D2 ltac:(lra)). lra.
      - lra.
      - pose proof (quotient_nonpos x1 d1 (3252 / 1000) (3254 / 1000) ltac:(lra) D1 ltac:(lra)).
        pose proof (quotient_nonpos x2 d2 (3082 / 1000) (3084 / 1000) ltac:(lra) D2 ltac:(lra)). lra. }
    pose proof (nearest20 (x1 / d1) ltac:(lra)) as Z1. pose proof (nearest20 (x2 / d2) ltac:(lra)) as Z2.
    fold z1 in Z1. fold z2 in Z2. lra.
  Qed.

  Let a := nearest (nearest (nearest (1235 / 10) / 2) * nearest (1 + erf z1)).
  Let b := nearest (nearest (nearest (-130 / 2) * nearest (1 + erf z2)) - L).
  Let x := nearest (s - b).
  Lemma ab_bounds : 11 / 100 <= a /\ a <= x /\ x <= 1800.
  Proof.
    pose proof z_bounds as (B1 & B2 & B3). pose proof L_bounds as BL.
    assert (D : 0 < delta <= / 1000000) by (unfold delta; lra).
    (* the exact values of the error function *)
    assert (F1 : -998 / 1000 <= f z1). { pose proof (erf_minus_2 f Hf). pose proof (erf_monotone f Hf (-2) z1 ltac:(lra)). lra. }
    assert (F2 : -113 / 100 <= f z2).
    { pose proof (erf_minus_2 f Hf). destruct (Rle_dec (-2) z2) as [G|G].
      - pose proof (erf_monotone f Hf (-2) z2 G). lra.
      - pose proof (erf_lipschitz f Hf z2 (-2) ltac:(lra)). lra. }
    assert (U1 : f z1 <= 15).
    { pose proof (proj1 Hf) as Z. destruct (Rle_dec 0 z1) as [G|G].
      - pose proof (erf_lipschitz f Hf 0 z1 G). lra.
      - pose proof (erf_monotone f Hf z1 0 ltac:(lra)). lra. }
    assert (U2 : f z2 <= 16).
    { pose proof (proj1 Hf) as Z. destruct (Rle_dec 0 z2) as [G|G].
      - pose proof (erf_lipschitz f Hf 0 z2 G). lra.
      - pose proof (erf_monotone f Hf z2 0 ltac:(lra)). lra. }
    assert (F3 : f z1 - f z2 <= 179 / 1000).
    { destruct (Rle_dec z1 z2) as [G|G].
      - pose proof (erf_monotone f Hf z1 z2 G). lra.
      - pose proof (erf_lipschitz f Hf z2 z1 ltac:(lra)). lra. }
    pose proof (accurate20 f erf z1 Herf ltac:(lra)) as E1. pose proof (accurate20 f erf z2 Herf ltac:(lra)) as E2.
    pose proof (nearest20 (1 + erf z1) ltac:(lra)) as W1. pose proof (nearest20 (1 + erf z2) ltac:(lra)) as W2.
    set (w1 := nearest (1 + erf z1)) in *. set (w2 := nearest (1 + erf z2)) in *.
    pose proof (nearest20 (1235 / 10) ltac:(lra)) as M1. pose proof (nearest20 (nearest (1235 / 10) / 2) ltac:(lra)) as M2.
    set (m := nearest (nearest (1235 / 10) / 2)) in *.
    assert (M : 6175 / 100 - / 100000 <= m <= 6175 / 100 + / 100000) by lra.
    assert (W : 0 < w1) by lra.
    assert (P1 : (6175 / 100 - / 100000) * w1 <= m * w1 <= (6175 / 100 + / 100000) * w1).
    { split; apply Rmult_le_compat_r; lra. }
    pose proof (nearest20 (m * w1) ltac:(lra)) as A. fold a in A.
    assert (N65 : nearest (-130 / 2) = -65).
    { replace (-130 / 2) with (IZR (-65)) by lra. rewrite nearest_int by lia. reflexivity. }
    pose proof (nearest20 (-65 * w2) ltac:(lra)) as SB.
    assert (Eb : b = nearest (nearest (-65 * w2) - L)) by (unfold b; rewrite N65; reflexivity).
    pose proof (nearest20 (nearest (-65 * w2) - L) ltac:(lra)) as B. rewrite <- Eb in B.
    pose proof (nearest20 (s - b) ltac:(lra)) as X. fold x in X.
    split; [lra|]. split; lra.
  Qed.

  Lemma three_bounds : (n <= num_buckets_3 log2 csqrt erf s n <= 2^14 * n)%Z.
  Proof.
    pose proof ab_bounds as (A1 & A2 & A3).
    unfold num_buckets_3, scaled_erf. cbv zeta. rewrite !(nearest_int n) by lia.
    change (log2 (IZR n)) with L. change (nearest (nearest (L - nearest (63 / 10)) / nearest (nearest (23 / 10) * csqrt 2))) with z1.
    change (nearest (nearest (L - nearest (645 / 100)) / nearest (nearest (218 / 100) * csqrt 2))) with z2.
    change (nearest (nearest (nearest (1235 / 10) / 2) * nearest (1 + erf z1))) with a.
    change (nearest (nearest (nearest (-130 / 2) * nearest (1 + erf z2)) - L)) with b. change (nearest (s - b)) with x.
    set (e := nearest (x / a)).
    assert (E : 1 <= e <= 16384).
    { split.
      - apply (nearest_ge 1); [lia|]. apply Rmult_le_reg_r with a; [lra|]. unfold Rdiv. rewrite Rmult_assoc, Rinv_l by lra. lra.
      - apply (nearest_le 16384); [lia|]. apply Rmult_le_reg_r with a; [lra|]. unfold Rdiv. rewrite Rmult_assoc, Rinv_l by lra. lra. }
    assert (Pn : 0 < IZR n) by (apply IZR_lt; lia).
    split.
    - apply le_IZR. eapply Rle_trans; [|apply Zceil_ub]. apply nearest_ge; [lia|].
      rewrite <- (Rmult_1_l (IZR n)) at 1. apply Rmult_le_compat_r; lra.
    - rewrite Z.mul_comm. apply Zceil_glb. apply nearest_le_scaled; [lia|lia|]. rewrite mult_IZR, Rmult_comm.
      change (IZR (2 ^ 14)) with 16384. apply Rmult_le_compat_l; lra.
  Qed.
  (** A better bound for the numbers of points that occur in practice. *)
  Lemma L_medium : (64 <= n < 2^12)%Z -> 6 - delta <= L <= 12 + delta.
  Proof.
    intros Hm. pose proof ln2_bounds. assert (B : 6 <= Rlog2 (IZR n) <= 12).
    { unfold Rlog2. split; apply Rmult_le_reg_r with (ln 2); try lra; unfold Rdiv; rewrite Rmult_assoc, Rinv_l, Rmult_1_r by lra.
      - rewrite <- (ln_IZR_pow 2 6) by lia. apply Rcomplements.ln_le; [lra|apply IZR_le; lia].
      - rewrite <- (ln_IZR_pow 2 12) by lia. apply Rcomplements.ln_le; [apply IZR_lt; lia|apply IZR_le; lia]. }
    pose proof (accurate20 Rlog2 log2 (IZR n) Hlog ltac:(lra)). unfold L. lra.
  Qed.
  Lemma z_medium : (64 <= n < 2^12)%Z -> -94 / 1000 <= z1 /\ z2 <= 2.
  Proof.
    intros Hm. pose proof (L_medium Hm) as BL. pose proof root_bounds as BR.
    pose proof (nearest20 (63 / 10) ltac:(lra)) as B1. pose proof (nearest20 (645 / 100) ltac:(lra)) as B2.
    pose proof (nearest20 (23 / 10) ltac:(lra)) as B3. pose proof (nearest20 (218 / 100) ltac:(lra)) as B4.
    assert (D : 0 < delta <= / 1000000) by (unfold delta; lra).
    pose proof (nearest20 (L - nearest (63 / 10)) ltac:(lra)) as N1. pose proof (nearest20 (L - nearest (645 / 100)) ltac:(lra)) as N2.
    pose proof (product_bounds (nearest (23 / 10)) (csqrt 2) (22999 / 10000) (23001 / 10000) (14141 / 10000) (14144 / 10000) ltac:(lra) ltac:(lra) ltac:(lra) ltac:(lra)) as P1.
    pose proof (product_bounds (nearest (218 / 100)) (csqrt 2) (21799 / 10000) (21801 / 10000) (14141 / 10000) (14144 / 10000) ltac:(lra) ltac:(lra) ltac:(lra) ltac:(lra)) as P2.
    pose proof (nearest20 (nearest (23 / 10) * csqrt 2) ltac:(lra)) as Q1. pose proof (nearest20 (nearest (218 / 100) * csqrt 2) ltac:(lra)) as Q2.
    set (x1 := nearest (L - nearest (63 / 10))) in *. set (x2 := nearest (L - nearest (645 / 100))) in *.
    set (d1 := nearest (nearest (23 / 10) * csqrt 2)) in *. set (d2 := nearest (nearest (218 / 100) * csqrt 2)) in *.
    assert (D1 : 3252 / 1000 <= d1 <= 3254 / 1000) by lra. assert (D2 : 3082 / 1000 <= d2 <= 3084 / 1000) by lra.
    assert (R1 : -93 / 1000 <= x1 / d1 <= 129 / 10).
    { destruct (Rle_dec 0 x1) as [G|G].
      - pose proof (quotient_nonneg x1 d1 (3252 / 1000) (3254 / 1000) ltac:(lra) D1 G). lra.
      - pose proof (quotient_nonpos x1 d1 (3252 / 1000) (3254 / 1000) ltac:(lra) D1 ltac:(lra)). lra. }
    assert (R2 : -210 / 100 <= x2 / d2 <= 19 / 10).
    { destruct (Rle_dec 0 x2) as [G|G].
      - pose proof (quotient_nonneg x2 d2 (3082 / 1000) (3084 / 1000) ltac:(lra) D2 G). lra.
      - pose proof (quotient_nonpos x2 d2 (3082 / 1000) (3084 / 1000) ltac:(lra) D2 ltac:(lra)). lra. }
    pose proof (nearest20 (x1 / d1) ltac:(lra)) as Z1. pose proof (nearest20 (x2 / d2) ltac:(lra)) as Z2.
    fold z1 in Z1. fold z2 in Z2. lra.
  Qed.
  Lemma ab_medium : (64 <= n < 2^12)%Z -> 50 <= a /\ x <= 800.
  Proof.
    intros Hm. pose proof z_bounds as (B1 & B2 & _). pose proof (z_medium Hm) as (C1 & C2). pose proof (L_medium Hm) as BL.
    assert (D : 0 < delta <= / 1000000) by (unfold delta; lra). pose proof (proj1 Hf) as F0.
    assert (F1 : -11 / 100 <= f z1).
    { destruct (Rle_dec 0 z1) as [G|G].
      - pose proof (erf_monotone f Hf 0 z1 G). lra.
      - pose proof (erf_lipschitz f Hf z1 0 ltac:(lra)). lra. }
    assert (U1 : f z1 <= 15).
    { destruct (Rle_dec 0 z1) as [G|G].
      - pose proof (erf_lipschitz f Hf 0 z1 G). lra.
      - pose proof (erf_monotone f Hf z1 0 ltac:(lra)). lra. }
    assert (U2 : f z2 <= 23 / 10).
    { destruct (Rle_dec 0 z2) as [G|G].
      - pose proof (erf_lipschitz f Hf 0 z2 G). lra.
      - pose proof (erf_monotone f Hf z2 0 ltac:(lra)). lra. }
    assert (F2 : -113 / 100 <= f z2).
    { pose proof (erf_minus_2 f Hf). destruct (Rle_dec (-2) z2) as [G|G].
      - pose proof (erf_monotone f Hf (-2) z2 G). lra.
      - pose proof (erf_lipschitz f Hf z2 (-2) ltac:(lra)). lra. }
    pose proof (accurate20 f erf z1 Herf ltac:(lra)) as E1. pose proof (accurate20 f erf z2 Herf ltac:(lra)) as E2.
    pose proof (nearest20 (1 + erf z1) ltac:(lra)) as W1. pose proof (nearest20 (1 + erf z2) ltac:(lra)) as W2.
    set (w1 := nearest (1 + erf z1)) in *. set (w2 := nearest (1 + erf z2)) in *.
    pose proof (nearest20 (1235 / 10) ltac:(lra)) as M1. pose proof (nearest20 (nearest (1235 / 10) / 2) ltac:(lra)) as M2.
    set (m := nearest (nearest (1235 / 10) / 2)) in *.
    assert (P1 : 61 * w1 <= m * w1 <= 62 * w1) by (split; apply Rmult_le_compat_r; lra).
    pose proof (nearest20 (m * w1) ltac:(lra)) as A. fold a in A.
    assert (N65 : nearest (-130 / 2) = -65).
    { replace (-130 / 2) with (IZR (-65)) by lra. rewrite nearest_int by lia. reflexivity. }
    pose proof (nearest20 (-65 * w2) ltac:(lra)) as SB.
    assert (Eb : b = nearest (nearest (-65 * w2) - L)) by (unfold b; rewrite N65; reflexivity).
    pose proof (nearest20 (nearest (-65 * w2) - L) ltac:(lra)) as B. rewrite <- Eb in B.
    pose proof (nearest20 (s - b) ltac:(lra)) as X. fold x in X. lra.
  Qed.
  Lemma three_medium : (64 <= n < 2^12)%Z -> (num_buckets_3 log2 csqrt erf s n <= 16 * n)%Z.
  Proof.
    intros Hm. pose proof (ab_medium Hm) as (A1 & A3).
    unfold num_buckets_3, scaled_erf. cbv zeta. rewrite !(nearest_int n) by lia.
    change (log2 (IZR n)) with L. change (nearest (nearest (L - nearest (63 / 10)) / nearest (nearest (23 / 10) * csqrt 2))) with z1.
    change (nearest (nearest (L - nearest (645 / 100)) / nearest (nearest (218 / 100) * csqrt 2))) with z2.
    change (nearest (nearest (nearest (1235 / 10) / 2) * nearest (1 + erf z1))) with a.
    change (nearest (nearest (nearest (-130 / 2) * nearest (1 + erf z2)) - L)) with b. change (nearest (s - b)) with x.
    assert (E : nearest (x / a) <= 16).
    { apply (nearest_le 16); [lia|]. apply Rmult_le_reg_r with a; [lra|]. unfold Rdiv. rewrite Rmult_assoc, Rinv_l by lra. lra. }
    assert (Pn : 0 < IZR n) by (apply IZR_lt; lia).
    change 16%Z with (2^4)%Z. rewrite Z.mul_comm. apply Zceil_glb. apply nearest_le_scaled; [lia|lia|]. rewrite mult_IZR, Rmult_comm.
    change (IZR (2 ^ 4)) with 16. apply Rmult_le_compat_l; lra.
  Qed.
End Three.

(** Two hash functions. *)
Section Two.
  Variable log2 : R -> R.
  Variable pow : R -> R -> R.
  Hypothesis Hlog : accurate Rlog2 log2.
  Hypothesis Hpow : accurate_pow pow.
  Variable s : R.
  Variable n : Z.
  Hypothesis Hn : (1 <= n < 2^48)%Z.
  Let L := log2 (IZR n).

  Lemma half_format : nearest (25 / 10) = 25 / 10.
  Proof.
    apply round_generic; [typeclasses eauto|]. apply generic_format_FLT. exists (Float radix2 5 (-1)); cbn [Fnum Fexp]; [|cbn; lia|lia].
    unfold F2R. cbn [Fnum Fexp]. change (bpow radix2 (-1)) with (/ 2). lra.
  Qed.
  Lemma one_format : nearest (1 + nearest (nearest (65 / 100) * 0)) = 1.
  Proof.
    rewrite Rmult_0_r. change 0 with (IZR 0) at 1. rewrite (nearest_int 0) by lia. rewrite <- plus_IZR, nearest_int by lia. reflexivity.
  Qed.

  (** sec, up to rounding. *)
  Lemma sec_bounds e l p : -1 <= log2 e <= 60 -> l = log2 e -> 0 <= pow e (- (25 / 10)) <= p -> p <= 1 ->
    33 / 10 * l - 8 / 10 + L - (5 * L + 14) * p - / 1000 <= sec log2 pow L e <= 33 / 10 * l - 8 / 10 + L + / 1000.
  Proof.
    intros Hl -> Hp Hp1. pose proof (L_bounds log2 Hlog n Hn) as BL. fold L in BL.
    assert (D : 0 < delta <= / 1000000000) by (unfold delta; lra).
    unfold sec. cbv zeta. rewrite one_format, half_format, Rmult_1_l.
    pose proof (nearest20 (33 / 10) ltac:(lra)) as Bb. pose proof (nearest20 (-8 / 10) ltac:(lra)) as Ba.
    assert (P1 : 33 / 10 * log2 e - 60 * delta <= nearest (33 / 10) * log2 e <= 33 / 10 * log2 e + 60 * delta).
    { set (b := nearest (33 / 10)) in *. set (y := log2 e) in *. clearbody b y. 
      assert (- (60 * delta) <= (b - 33 / 10) * y <= 60 * delta); [|lra].
      apply Rabs_le_inv. rewrite Rabs_mult. replace (60 * delta) with (delta * 60) by ring.
      apply Rmult_le_compat; try apply Rabs_pos; apply Rabs_le; lra. }
    set (b := nearest (33 / 10)) in *. set (y := log2 e) in *. set (c8 := nearest (-8 / 10)) in *.
    pose proof (nearest20 (b * y) ltac:(lra)) as T1. set (t1 := nearest (b * y)) in *.
    pose proof (nearest20 (t1 + c8) ltac:(lra)) as T2. set (t2 := nearest (t1 + c8)) in *.
    pose proof (nearest20 (t2 + L) ltac:(lra)) as T3. set (t3 := nearest (t2 + L)) in *.
    pose proof (nearest20 (5 * L) ltac:(lra)) as T4. set (t4 := nearest (5 * L)) in *.
    pose proof (nearest20 (t4 + 14) ltac:(lra)) as T5. set (t5 := nearest (t4 + 14)) in *.
    assert (T5' : 0 <= t5 <= 300) by lra.
    set (w := pow e (- (25 / 10))) in *.
    assert (P2 : 0 <= t5 * w <= (5 * L + 14) * p + 10 * delta).
    { split; [apply Rmult_le_pos; lra|]. apply Rle_trans with (t5 * p); [apply Rmult_le_compat_l; lra|].
      assert (G : (t5 - (5 * L + 14)) * p <= 10 * delta * 1) by (apply Rle_trans with (10 * delta * p); [apply Rmult_le_compat_r; lra|apply Rmult_le_compat_l; lra]).
      lra. }
    assert (P3 : t5 * w <= 300 * 1) by (apply Rmult_le_compat; lra).
    pose proof (nearest20 (t5 * w) ltac:(lra)) as T6. set (t6 := nearest (t5 * w)) in *.
    assert (T6' : 0 <= t6) by (apply (nearest_ge 0); [lia|lra]).
    pose proof (nearest20 (t3 - t6) ltac:(lra)) as T7. set (t7 := nearest (t3 - t6)) in *.
    pose proof (nearest20 t7 ltac:(lra)) as T8. lra.
  Qed.

  Lemma pow_nonneg e y : 0 < e -> 0 <= pow e y.
  Proof.
    intros He. assert (P : 0 <= Rpower e y) by (left; apply exp_pos).
    destruct (Hpow e y He) as [-> | ->]; (apply round_ge_generic; [typeclasses eauto|typeclasses eauto|apply zero_format|exact P]).
  Qed.
  Lemma pow_small e : 4 <= e -> 0 <= pow e (- (25 / 10)) <= / 32.
  Proof.
    intros He. split; [apply pow_nonneg; lra|].
    assert (F : generic_format radix2 double_exp (/ 32)).
    { replace (/ 32) with (bpow radix2 (-5)) by (change (-5)%Z with (- (5))%Z; rewrite bpow_neg_IZR by lia; reflexivity).
      apply generic_format_bpow. unfold double_exp, FLT_exp. lia. }
    assert (P : Rpower e (- (25 / 10)) <= / 32).
    { rewrite Rpower_Ropp. apply Rinv_le_contravar; [lra|].
      apply Rle_trans with (Rpower 4 (25 / 10)); [|apply Rle_Rpower_l; lra].
      replace 4 with (Rpower 2 2) by (change 2 with (INR 2) at 2; rewrite Rpower_pow by lra; lra).
      rewrite Rpower_mult. replace (2 * (25 / 10)) with (INR 5) by (cbn; lra). rewrite Rpower_pow by lra. lra. }
    destruct (Hpow e (- (25 / 10)) ltac:(lra)) as [-> | ->]; (apply round_le_generic; [typeclasses eauto|typeclasses eauto|exact F|exact P]).
  Qed.

  Lemma log2_pow2 k : (0 <= k <= 50)%Z -> log2 (IZR (2 ^ k)) = IZR k.
  Proof.
    intros Hk. pose proof ln2_bounds. assert (E : Rlog2 (IZR (2 ^ k)) = IZR k) by (unfold Rlog2; rewrite ln_IZR_pow by lia; field; lra).
    rewrite (accurate_exact Rlog2 log2 _ Hlog); rewrite E; [reflexivity|apply int_format; lia].
  Qed.

  (** With 2^k buckets per input the security suffices. *)
  Lemma sec_enough k : (2 <= k <= 50)%Z -> s <= 33 / 10 * IZR k - 13 / 10 -> s <= sec log2 pow L (IZR (2 ^ k)).
  Proof.
    intros Hk Hs. pose proof (log2_pow2 k ltac:(lia)) as E. pose proof (L_bounds log2 Hlog n Hn) as BL. fold L in BL.
    assert (D : 0 < delta <= / 1000000000) by (unfold delta; lra).
    assert (Ik : 2 <= IZR k <= 50) by (split; apply IZR_le; lia).
    pose proof (sec_bounds (IZR (2 ^ k)) (IZR k) (/ 32) ltac:(rewrite E; lra) (eq_sym E)) as B.
    assert (F : 4 <= IZR (2 ^ k)). { apply IZR_le. change 4%Z with (2^2)%Z. apply Z.pow_le_mono_r; lia. }
    specialize (B (pow_small _ F) ltac:(lra)). lra.
  Qed.

  Lemma loop_ends k fuel i v : (2 <= k <= 50)%Z -> s <= 33 / 10 * IZR k - 13 / 10 ->
    (1 <= i <= 2^k)%Z -> (2^k - i <= Z.of_nat fuel)%Z -> (i = (2^k)%Z -> s <= v) ->
    exists j, grow_until log2 pow s fuel L (IZR i, v) = Some (IZR j) /\ (i <= j <= 2^k)%Z.
  Proof.
    intros Hk Hs. assert (K : (2^k <= 2^50)%Z) by (apply Z.pow_le_mono_r; lia).
    revert i v. induction fuel as [|fuel IH]; intros i v Hi Hfuel Hv; cbn [grow_until fst snd].
    - assert (E : (i = 2^k)%Z) by lia. rewrite Rlt_bool_false by (apply Hv, E). exists i. split; [reflexivity|lia].
    - destruct (Rlt_bool_spec v s) as [G|G]; [|exists i; split; [reflexivity|lia]].
      assert (N : i <> (2^k)%Z) by (intros E; specialize (Hv E); lra).
      unfold grow. cbn [fst]. rewrite <- plus_IZR, nearest_int by lia.
      destruct (IH (i + 1)%Z (sec log2 pow L (IZR (i + 1)))) as (j & E & J); [lia|lia|intros ->; apply sec_enough; assumption|].
      exists j. split; [exact E|lia].
  Qed.

  Lemma two_bounds k fuel : (2 <= k <= 50)%Z -> s <= 33 / 10 * IZR k - 13 / 10 -> (2^k <= Z.of_nat fuel)%Z ->
    exists b, num_buckets_2 log2 pow s fuel n = Some b /\ (n <= b <= 2^k * n)%Z.
  Proof.
    intros Hk Hs Hf. unfold num_buckets_2. cbv zeta. rewrite !(nearest_int n) by lia. fold L.
    assert (K : (2^2 <= 2^k)%Z) by (apply Z.pow_le_mono_r; lia).
    destruct (loop_ends k fuel 1 0 Hk Hs ltac:(lia) ltac:(lia) ltac:(lia)) as (j & -> & J).
    eexists. split; [reflexivity|].
    assert (Pn : 0 < IZR n) by (apply IZR_lt; lia).
    assert (Pj : 1 <= IZR j <= IZR (2^k)) by (split; apply IZR_le; lia).
    split.
    - apply le_IZR. eapply Rle_trans; [|apply Zceil_ub]. apply nearest_ge; [lia|].
      rewrite <- (Rmult_1_l (IZR n)) at 1. apply Rmult_le_compat_r; lra.
    - rewrite Z.mul_comm. apply Zceil_glb. apply nearest_le_scaled; [lia|lia|]. rewrite mult_IZR, Rmult_comm. apply Rmult_le_compat_l; lra.
  Qed.

  Lemma saturates : nearest (9007199254740992 + 1) = 9007199254740992.
  Proof.
    unfold nearest, round, F2R, scaled_mantissa, cexp. cbn [Fnum Fexp].
    rewrite (mag_unique radix2 (9007199254740992 + 1) 54).
    2:{ rewrite Rabs_pos_eq by lra. rewrite !bpow_pos_IZR by lia. change (IZR (2 ^ (54 - 1))) with 9007199254740992. change (IZR (2 ^ 54)) with 18014398509481984. lra. }
    change (double_exp 54) with 1%Z. change (bpow radix2 (- (1))) with (/ 2). change (bpow radix2 1) with 2.
    assert (F : Zfloor ((9007199254740992 + 1) * / 2) = 4503599627370496%Z) by (apply Zfloor_imp; rewrite plus_IZR; lra).
    unfold Znearest. rewrite F. rewrite Rcompare_Eq by lra. cbn [Z.even negb]. lra.
  Qed.

  (** The loop does not end: e stops growing at 2^53. *)
  Lemma sec_limited e : 1 <= e <= 9007199254740992 -> sec log2 pow L e <= 224.
  Proof.
    intros He. pose proof (L_bounds log2 Hlog n Hn) as BL. fold L in BL.
    assert (D : 0 < delta <= / 1000000000) by (unfold delta; lra). pose proof ln2_bounds.
    assert (B : 0 <= Rlog2 e <= 53).
    { unfold Rlog2. split.
      - apply Rle_mult_inv_pos; [|lra]. destruct (proj1 He) as [G|G]; [left; apply ln_pos, G|rewrite <- G, ln_1; lra].
      - apply Rmult_le_reg_r with (ln 2); [lra|]. unfold Rdiv. rewrite Rmult_assoc, Rinv_l, Rmult_1_r by lra.
        rewrite <- (ln_IZR_pow 2 53) by lia. change (IZR (2^53)) with 9007199254740992.
        destruct (proj2 He) as [G|G]; [left; apply ln_increasing; lra|rewrite G; lra]. }
    pose proof (accurate20 Rlog2 log2 e Hlog ltac:(lra)) as A.
    assert (F : pow e (- (25 / 10)) <= 1).
    { assert (P : Rpower e (- (25 / 10)) <= 1).
      { rewrite Rpower_Ropp. rewrite <- Rinv_1. apply Rinv_le_contravar; [lra|].
        rewrite <- (Rpower_O e) at 1 by lra. apply Rle_Rpower; lra. }
      destruct (Hpow e (- (25 / 10)) ltac:(lra)) as [-> | ->];
        (apply (round_le_generic radix2 double_exp _ _ 1); [apply (int_format 1); lia|exact P]). }
    pose proof (sec_bounds e (log2 e) 1 ltac:(lra) eq_refl (conj (pow_nonneg e _ ltac:(lra)) F) ltac:(lra)). lra.
  Qed.

  Lemma loop_runs fuel e v : 225 <= s -> 1 <= e <= 9007199254740992 -> v < s -> grow_until log2 pow s fuel L (e, v) = None.
  Proof.
    intros Hs. revert e v. induction fuel as [|fuel IH]; intros e v He Hv; cbn [grow_until fst snd]; rewrite Rlt_bool_true by assumption; [reflexivity|].
    unfold grow. cbn [fst].
    assert (G : 1 <= nearest (e + 1) <= 9007199254740992).
    { split; [apply (nearest_ge 1); [lia|lra]|].
      apply Rle_trans with (nearest (9007199254740992 + 1)).
      - apply round_le; try typeclasses eauto. lra.
      - rewrite saturates. lra. }
    apply IH; [exact G|]. pose proof (sec_limited _ G). lra.
  Qed.
  Lemma two_diverges fuel : 225 <= s -> num_buckets_2 log2 pow s fuel n = None.
  Proof.
    intros Hs. unfold num_buckets_2. cbv zeta. rewrite (nearest_int n) by lia. fold L. rewrite loop_runs by lra. reflexivity.
  Qed.
End Two.
