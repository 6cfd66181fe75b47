(** The number of tree levels computed with doubles. *)
From Coq Require Import ZArith Reals Lra Lia.
From Flocq.Core Require Import Core.
From Verif Require Import FloatSpec FloatModel FloatFacts.
Local Open Scope R_scope.

Section Levels.
  Variable log : R -> R.
  Hypothesis Hlog : accurate ln log.

  Lemma log_1 : log 1 = 0.
  Proof. rewrite (accurate_exact ln log 1 Hlog); rewrite ln_1; [reflexivity|apply zero_format]. Qed.

  Lemma u_val : bpow radix2 (-52) = / 4503599627370496.
  Proof. change (-52)%Z with (- (52))%Z. rewrite bpow_neg_IZR by lia. reflexivity. Qed.
  Lemma tiny x : / 8589934592 <= x -> bpow radix2 (-1000) <= x.
  Proof.
    intros H. eapply Rle_trans; [|exact H]. replace (/ 8589934592) with (bpow radix2 (-33)).
    - apply bpow_le. lia.
    - change (-33)%Z with (- (33))%Z. rewrite bpow_neg_IZR by lia. reflexivity.
  Qed.

  Lemma log_near x : 2 <= x -> ln x * (1 - / 4503599627370496) <= log x <= ln x * (1 + / 4503599627370496).
  Proof.
    intros H. pose proof ln2_bounds. assert (L : ln 2 <= ln x). { destruct H as [H| ->]; [left; apply ln_increasing; lra|right; reflexivity]. }
    pose proof (accurate_relative ln log x Hlog) as A. rewrite (Rabs_pos_eq (ln x)) in A by lra. rewrite u_val in A.
    specialize (A (tiny (ln x) ltac:(lra))). apply Rabs_le_inv in A. lra.
  Qed.

  (** The quotient. *)
  Lemma quotient_near a n (x := ln n / ln a) : 2 <= a <= 2147483648 -> 2 <= n ->
    x * (1 - / 562949953421312) <= nearest (log n / log a) <= x * (1 + / 562949953421312).
  Proof.
    intros Ha Hn. pose proof ln2_bounds as L2.
    assert (La : / 2 < ln a). { destruct (proj1 Ha) as [H| <-]; [|lra]. pose proof (ln_increasing 2 a ltac:(lra) H). lra. }
    assert (Ln : / 2 < ln n). { destruct Hn as [H| <-]; [|lra]. pose proof (ln_increasing 2 n ltac:(lra) H). lra. }
    assert (Ua : ln a <= 2147483648). { pose proof (ln_le_minus a ltac:(lra)). lra. }
    pose proof (log_near a ltac:(lra)) as [A1 A2]. pose proof (log_near n Hn) as [N1 N2].
    assert (Ex : x * ln a = ln n). { unfold x. field. lra. }
    set (r := log n / log a). assert (Er : r * log a = log n). { unfold r. field. lra. }
    assert (X0 : 0 < x). { unfold x. apply Rdiv_lt_0_compat; lra. }
    assert (R0 : 0 < r). { unfold r. apply Rdiv_lt_0_compat; lra. }
    assert (U : r * (1 - / 4503599627370496) <= x * (1 + / 4503599627370496)).
    { apply Rmult_le_reg_r with (ln a); [lra|].
      apply Rle_trans with (r * log a); [|rewrite Er; apply Rle_trans with (1 := N2); rewrite <- Ex; right; ring].
      replace (r * (1 - / 4503599627370496) * ln a) with (r * (ln a * (1 - / 4503599627370496))) by ring.
      apply Rmult_le_compat_l; lra. }
    assert (L : x * (1 - / 4503599627370496) <= r * (1 + / 4503599627370496)).
    { apply Rmult_le_reg_r with (ln a); [lra|].
      apply Rle_trans with (r * log a); [rewrite Er; apply Rle_trans with (2 := N1); rewrite <- Ex; right; ring|].
      replace (r * (1 + / 4503599627370496) * ln a) with (r * (ln a * (1 + / 4503599627370496))) by ring.
      apply Rmult_le_compat_l; lra. }
    assert (X1 : / 4294967296 <= x).
    { apply Rmult_le_reg_r with (ln a); [lra|]. rewrite Ex. lra. }
    assert (B : bpow radix2 (-1000) <= Rabs r). { rewrite Rabs_pos_eq by lra. apply tiny. lra. }
    pose proof (round_relative ZnearestE r B) as A. rewrite u_val, (Rabs_pos_eq r) in A by lra.
    apply Rabs_le_inv in A. unfold nearest. fold r. lra.
  Qed.

  Lemma ceil_spec a n (k := Zceil (nearest (log (IZR n) / log (IZR a)))) : (2 <= a < 2^31)%Z -> (2 <= n <= 2^42)%Z ->
    (1 <= k < 2^40 /\ n <= a ^ k /\ a ^ (k - 1) <= n)%Z.
  Proof.
    intros Ha Hn.
    assert (Ra : 2 <= IZR a <= 2147483648). { split; apply IZR_le; lia. }
    assert (Rn : 2 <= IZR n <= 4398046511104). { split; apply IZR_le; lia. }
    pose proof (quotient_near (IZR a) (IZR n) Ra (proj1 Rn)) as [Q1 Q2]. cbv zeta in *.
    set (q := nearest (log (IZR n) / log (IZR a))) in *. set (x := ln (IZR n) / ln (IZR a)) in *.
    pose proof ln2_bounds as L2.
    assert (La : / 2 < ln (IZR a)). { destruct (proj1 Ra) as [H|H]; [|rewrite <- H; lra]. pose proof (ln_increasing 2 _ ltac:(lra) H). lra. }
    assert (Ln : / 2 < ln (IZR n)). { destruct (proj1 Rn) as [H|H]; [|rewrite <- H; lra]. pose proof (ln_increasing 2 _ ltac:(lra) H). lra. }
    assert (Un : ln (IZR n) <= 42).
    { assert (E : ln (IZR (2^42)) = 42 * ln 2) by (rewrite ln_IZR_pow by lia; reflexivity).
      destruct (proj2 Rn) as [H|H].
      - pose proof (ln_increasing (IZR n) (IZR (2^42)) ltac:(lra) H). lra.
      - change 4398046511104 with (IZR (2^42)) in H. rewrite H, E. lra. }
    assert (Ex : x * ln (IZR a) = ln (IZR n)). { unfold x. field. lra. }
    assert (X0 : 0 < x). { unfold x. apply Rdiv_lt_0_compat; lra. }
    assert (X1 : x <= 84). { apply Rmult_le_reg_r with (ln (IZR a)); [lra|]. rewrite Ex. lra. }
    pose proof (Zceil_ub q) as Cu. pose proof (Zceil_lb q) as Cl. fold k in Cu, Cl.
    assert (K1 : (0 < k)%Z) by (apply lt_IZR; lra).
    assert (K2 : (k < 2^40)%Z) by (apply lt_IZR; change (IZR (2^40)) with 1099511627776; lra).
    split; [lia|]. split.
    - (* too few levels *)
      apply Z.nlt_ge. intros H. assert (K : IZR k < x * (1 - / 562949953421312)); [|lra].
      assert (P : (0 < a ^ k)%Z) by (apply Z.pow_pos_nonneg; lia).
      apply Rmult_lt_reg_r with (ln (IZR a)); [lra|].
      replace (x * (1 - / 562949953421312) * ln (IZR a)) with (ln (IZR n) * (1 - / 562949953421312)) by (rewrite <- Ex; ring).
      rewrite <- ln_IZR_pow by lia.
      assert (P' : 0 < IZR (a ^ k)) by (apply IZR_lt; lia).
      pose proof (ln_ge_minus (IZR n / IZR (a ^ k)) ltac:(apply Rdiv_lt_0_compat; lra)) as G.
      unfold Rdiv in G at 2. rewrite ln_mult, ln_Rinv in G by (auto using Rinv_0_lt_compat; lra).
      replace (/ (IZR n / IZR (a ^ k))) with (IZR (a ^ k) / IZR n) in G by (field; lra).
      assert (F : / 4398046511104 <= 1 - IZR (a ^ k) / IZR n).
      { apply Rle_trans with (/ IZR n). apply Rinv_le_contravar; lra.
        replace (1 - IZR (a ^ k) / IZR n) with ((IZR n - IZR (a ^ k)) * / IZR n) by (field; lra).
        rewrite <- (Rmult_1_l (/ IZR n)) at 1. apply Rmult_le_compat_r; [left; apply Rinv_0_lt_compat; lra|].
        rewrite <- minus_IZR. apply IZR_le. lia. }
      lra.
    - (* a level too much *)
      apply Z.nlt_ge. intros H. assert (K : x * (1 + / 562949953421312) < IZR (k - 1)); [|rewrite minus_IZR in K; lra].
      assert (P : (0 < a ^ (k - 1))%Z) by (apply Z.pow_pos_nonneg; lia).
      apply Rmult_lt_reg_r with (ln (IZR a)); [lra|].
      replace (x * (1 + / 562949953421312) * ln (IZR a)) with (ln (IZR n) * (1 + / 562949953421312)) by (rewrite <- Ex; ring).
      rewrite <- ln_IZR_pow by lia.
      assert (P' : IZR n + 1 <= IZR (a ^ (k - 1))) by (rewrite <- plus_IZR; apply IZR_le; lia).
      pose proof (ln_ge_minus ((IZR n + 1) / IZR n) ltac:(apply Rdiv_lt_0_compat; lra)) as G.
      unfold Rdiv in G at 2. rewrite ln_mult, ln_Rinv in G by (try apply Rinv_0_lt_compat; lra).
      replace (1 - / ((IZR n + 1) / IZR n)) with (/ (IZR n + 1)) in G by (field; lra).
      assert (F : / 4398046511105 <= / (IZR n + 1)) by (apply Rinv_le_contravar; lra).
      assert (M : ln (IZR n + 1) <= ln (IZR (a ^ (k - 1)))).
      { destruct P' as [P'|P']; [left; apply ln_increasing; lra|right; f_equal; exact P']. }
      lra.
  Qed.

  Lemma levels_spec a n (k := Z.of_nat (clog_double log a n)) : (2 <= a < 2^31)%Z -> (1 <= n <= 2^42)%Z ->
    (num_levels_double log a n = k + 1 /\ n <= a ^ k /\ (n = 1 -> k = 0) /\ (1 < n -> 1 <= k /\ a ^ (k - 1) <= n))%Z.
  Proof.
    intros Ha Hn. unfold k, clog_double, num_levels_double. rewrite !nearest_int by lia.
    destruct (Z.eq_dec n 1) as [->|N].
    - rewrite log_1. unfold Rdiv. rewrite Rmult_0_l. change 0 with (IZR 0). rewrite (nearest_int 0) by lia. rewrite Zceil_IZR.
      rewrite <- plus_IZR, nearest_int by lia. rewrite Ztrunc_IZR. cbn. lia.
    - destruct (ceil_spec a n Ha ltac:(lia)) as (K & G1 & G2). cbv zeta in *. set (c := Zceil _) in *.
      rewrite <- plus_IZR, nearest_int by lia. rewrite Ztrunc_IZR.
      replace (1 + c - 1)%Z with c by lia. rewrite Z2Nat.id by lia. lia.
  Qed.
End Levels.

(** The comparison with pow. *)
Lemma Rpower_IZR a k : (0 < a)%Z -> (0 <= k)%Z -> Rpower (IZR a) (IZR k) = IZR (a ^ k).
Proof.
  intros Ha Hk. rewrite <- (Z2Nat.id k) by assumption. rewrite <- INR_IZR_INZ, Rpower_pow by (apply IZR_lt; assumption). apply pow_IZR.
Qed.
Lemma pow_check pow a levels n : accurate_pow pow ->
  (2 <= a < 2^31)%Z -> (1 <= levels <= 2^31)%Z -> (0 <= n < 2^53)%Z ->
  too_few_levels pow a levels n = (a ^ (levels - 1) <? n)%Z.
Proof.
  intros Hpow Ha Hl Hn. unfold too_few_levels. rewrite !nearest_int by lia.
  assert (P : (0 <= a ^ (levels - 1))%Z) by (apply Z.pow_nonneg; lia).
  specialize (Hpow (IZR a) (IZR (levels - 1)) ltac:(apply IZR_lt; lia)). rewrite Rpower_IZR in Hpow by lia.
  destruct (Z.ltb_spec (a ^ (levels - 1)) n) as [H|H].
  - apply Rlt_bool_true. unfold down, up in Hpow.
    rewrite !round_int in Hpow by (typeclasses eauto || lia). destruct Hpow as [-> | ->]; apply IZR_lt, H.
  - apply Rlt_bool_false. destruct Hpow as [-> | ->]; (apply round_ge_generic; [typeclasses eauto|typeclasses eauto|apply int_format; lia|apply IZR_le, H]).
Qed.
