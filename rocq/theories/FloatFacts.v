(** Facts about rounding. *)
From Coq Require Import ZArith Reals Lra Lia.
From Flocq.Core Require Import Core.
From Flocq.Prop Require Import Relative.
From Verif Require Import FloatSpec.
Local Open Scope R_scope.

Global Instance double_prec : Prec_gt_0 53.
Proof. unfold Prec_gt_0. lia. Qed.
Global Instance double_valid : Valid_exp double_exp.
Proof. unfold double_exp. apply FLT_exp_valid, double_prec. Qed.
Global Instance double_monotone : Monotone_exp double_exp.
Proof. unfold double_exp. apply FLT_exp_monotone. Qed.

(** Integers of up to 53 bits are doubles. *)
Lemma int_format n : (Z.abs n < 2^53)%Z -> generic_format radix2 double_exp (IZR n).
Proof.
  intros H. apply generic_format_FLT. exists (Float radix2 n 0); cbn; [|assumption|lia].
  unfold F2R. cbn. lra.
Qed.
Lemma round_int r {V : Valid_rnd r} n : (Z.abs n < 2^53)%Z -> round radix2 double_exp r (IZR n) = IZR n.
Proof. intros H. apply round_generic; [assumption|]. apply int_format, H. Qed.
Lemma nearest_int n : (Z.abs n < 2^53)%Z -> nearest (IZR n) = IZR n.
Proof. apply round_int. typeclasses eauto. Qed.

(** Absolute error. *)
Lemma round_error r {V : Valid_rnd r} x e : (-1000 <= e)%Z -> Rabs x <= bpow radix2 e ->
  Rabs (round radix2 double_exp r x - x) <= bpow radix2 (e - 52).
Proof.
  intros He Hx. eapply Rle_trans; [apply error_le_ulp; typeclasses eauto|].
  eapply Rle_trans with (ulp radix2 double_exp (bpow radix2 e)).
  - apply ulp_le; try typeclasses eauto. rewrite (Rabs_pos_eq (bpow radix2 e)); [assumption|apply bpow_ge_0].
  - rewrite ulp_bpow. apply bpow_le. unfold double_exp, FLT_exp. lia.
Qed.
(** Relative error. *)
Lemma round_relative r {V : Valid_rnd r} x : bpow radix2 (-1000) <= Rabs x ->
  Rabs (round radix2 double_exp r x - x) <= bpow radix2 (-52) * Rabs x.
Proof.
  intros H. left. replace (-52)%Z with (- 53 + 1)%Z by lia. apply relative_error_FLT; [lia|assumption|].
  eapply Rle_trans; [|exact H]. apply bpow_le. lia.
Qed.

Lemma accurate_error f g x e : accurate f g -> (-1000 <= e)%Z -> Rabs (f x) <= bpow radix2 e ->
  Rabs (g x - f x) <= bpow radix2 (e - 52).
Proof. intros H He Hx. destruct (H x) as [-> | ->]; apply round_error; auto; typeclasses eauto. Qed.
Lemma accurate_relative f g x : accurate f g -> bpow radix2 (-1000) <= Rabs (f x) ->
  Rabs (g x - f x) <= bpow radix2 (-52) * Rabs (f x).
Proof. intros H Hx. destruct (H x) as [-> | ->]; apply round_relative; auto; typeclasses eauto. Qed.
(** A double is computed exactly. *)
Lemma accurate_exact f g x : accurate f g -> generic_format radix2 double_exp (f x) -> g x = f x.
Proof. intros H Hx. destruct (H x) as [-> | ->]; apply round_generic; auto; typeclasses eauto. Qed.

Lemma zero_format : generic_format radix2 double_exp 0.
Proof. apply generic_format_0. Qed.

(** Powers of two as numerals. *)
Lemma bpow_pos_IZR k : (0 <= k)%Z -> bpow radix2 k = IZR (2 ^ k).
Proof. intros H. rewrite <- IZR_Zpower by assumption. reflexivity. Qed.
Lemma bpow_neg_IZR k : (0 <= k)%Z -> bpow radix2 (- k) = / IZR (2 ^ k).
Proof. intros H. rewrite bpow_opp, bpow_pos_IZR by assumption. reflexivity. Qed.

(** Logarithms. *)
Lemma ln_le_minus x : 0 < x -> ln x <= x - 1.
Proof.
  intros H. destruct (Req_dec x 1) as [->|N]; [rewrite ln_1; lra|].
  assert (N' : ln x <> 0). { intros E. apply N. apply ln_inv; [lra..|]. rewrite E, ln_1. reflexivity. }
  pose proof (exp_ineq1 (ln x) N'). rewrite exp_ln in H0 by assumption. lra.
Qed.
Lemma ln_ge_minus x : 0 < x -> 1 - / x <= ln x.
Proof.
  intros H. pose proof (ln_le_minus (/ x) (Rinv_0_lt_compat _ H)). rewrite ln_Rinv in H0 by assumption. lra.
Qed.
Lemma ln_pos x : 1 < x -> 0 < ln x.
Proof. intros H. rewrite <- ln_1. apply ln_increasing; lra. Qed.
Lemma ln2_bounds : / 2 < ln 2 < 1.
Proof.
  split; [apply ln_lt_2|].
  destruct (Rlt_or_le (ln 2) 1) as [H|H]; [assumption|exfalso].
  assert (E : exp 1 <= 2). { rewrite <- (exp_ln 2) by lra. destruct H as [H|H]; [left; apply exp_increasing, H|right; f_equal; exact H]. }
  pose proof (exp_ineq1 1 ltac:(lra)). lra.
Qed.
Lemma ln_IZR_pow a k : (0 < a)%Z -> (0 <= k)%Z -> ln (IZR (a ^ k)) = IZR k * ln (IZR a).
Proof.
  intros Ha Hk. rewrite <- (Z2Nat.id k) by assumption. rewrite <- pow_IZR, <- INR_IZR_INZ.
  rewrite <- Rpower_pow by (apply IZR_lt; lia). unfold Rpower. rewrite ln_exp. reflexivity.
Qed.
