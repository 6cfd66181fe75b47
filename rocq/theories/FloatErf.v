(** Bounds on the error function, from its derivative. *)
From Coq Require Import ZArith QArith Qreals Reals Lra Lia Machin.
From Coquelicot Require Import Coquelicot.
From Verif Require Import FloatSpec.
Local Open Scope R_scope.

(** A function with a nonnegative derivative does not decrease. *)
Lemma nondecreasing f f' a b : (forall x, derivable_pt_lim f x (f' x)) -> (forall x, a <= x <= b -> 0 <= f' x) -> a <= b -> f a <= f b.
Proof.
  intros D P L. destruct L as [L| ->]; [|lra].
  destruct (MVT_cor2 f f' a b L) as (c & E & C); [intros; apply D|].
  assert (0 <= f' c * (b - a)) by (apply Rmult_le_pos; [apply P|]; lra). lra.
Qed.

(** Partial sums of the exponential series at -x. *)
Fixpoint expsum (n : nat) (x : R) : R :=
  match n with O => 1 | S m => expsum m x + (- x) ^ S m / INR (fact (S m)) end.

Lemma neg_pow_derive m d x : derivable_pt_lim (fun x => (- x) ^ S m / d) x (- (INR (S m) * (- x) ^ m / d)).
Proof.
  apply is_derive_Reals. apply is_derive_ext with (fun x => / d * (- x) ^ S m); [intros; apply Rmult_comm|].
  replace (- (INR (S m) * (- x) ^ m / d)) with (/ d * (INR (S m) * (-1) * (- x) ^ Nat.pred (S m))) by (cbn [Nat.pred]; unfold Rdiv; ring).
  apply (is_derive_scal (fun x => (- x) ^ S m)). apply (is_derive_pow (fun x => - x) (S m)). auto_derive; [auto|]. ring.
Qed.
Lemma pow_derive m c d x : derivable_pt_lim (fun x => c * x ^ S m / d) x (c * (INR (S m) * x ^ m) / d).
Proof.
  apply is_derive_Reals. apply is_derive_ext with (fun x => c / d * x ^ S m); [intros t; apply Rmult_eq_reg_l with 1; [unfold Rdiv; ring|lra]|].
  replace (c * (INR (S m) * x ^ m) / d) with (c / d * (INR (S m) * 1 * x ^ Nat.pred (S m))) by (cbn [Nat.pred]; unfold Rdiv; ring).
  apply (is_derive_scal (fun x => x ^ S m)). apply (is_derive_pow (fun x => x) (S m)). auto_derive; auto.
Qed.
Lemma expsum_derive n x : derivable_pt_lim (expsum (S n)) x (- expsum n x).
Proof.
  induction n as [|n IH].
  - cbn [expsum fact Nat.mul Nat.add INR pow]. apply is_derive_Reals. auto_derive; [auto|]. field.
  - cbn [expsum] in *. set (m := S n) in *.
    replace (- (expsum n x + (- x) ^ m / INR (fact m))) with (- expsum n x + - ((- x) ^ m / INR (fact m))) by ring.
    apply (derivable_pt_lim_plus (fun x => expsum n x + (- x) ^ m / INR (fact m)) (fun x => (- x) ^ S m / INR (fact (S m)))); [exact IH|].
    replace ((- x) ^ m / INR (fact m)) with (INR (S m) * (- x) ^ m / INR (fact (S m))); [apply neg_pow_derive|].
    change (fact (S m)) with (S m * fact m)%nat. rewrite mult_INR.
    field. split; [apply INR_fact_neq_0|apply not_0_INR; lia].
Qed.

Lemma expsum_0 n : expsum n 0 = 1.
Proof.
  induction n as [|n IH]; [reflexivity|]. cbn [expsum]. rewrite IH, Ropp_0, pow_i by lia. unfold Rdiv. rewrite Rmult_0_l. lra.
Qed.
Lemma exp_neg_derive x : derivable_pt_lim (fun x => exp (- x)) x (- exp (- x)).
Proof. apply is_derive_Reals. auto_derive; [auto|]. ring. Qed.

(** The sums with an even number of the last term are above exp(-x), the others below. *)
Lemma expsum_bounds n x : 0 <= x ->
  (Nat.even n = true -> exp (- x) <= expsum n x) /\ (Nat.even n = false -> expsum n x <= exp (- x)).
Proof.
  revert x. induction n as [|n IH]; intros x Hx.
  - split; [intros _; cbn [expsum]|discriminate].
    destruct Hx as [Hx| <-]; [|rewrite Ropp_0, exp_0; lra]. left. rewrite <- exp_0. apply exp_increasing. lra.
  - rewrite Nat.even_succ, <- Nat.negb_even. split; intros E.
    + assert (E' : Nat.even n = false) by (destruct (Nat.even n); [discriminate|reflexivity]).
      assert (M : expsum (S n) 0 - exp (- 0) <= expsum (S n) x - exp (- x)).
      { apply (nondecreasing (fun x => expsum (S n) x - exp (- x)) (fun x => - expsum n x - - exp (- x))); [|intros y Hy|lra].
        - intros y. apply (derivable_pt_lim_minus (expsum (S n)) (fun x => exp (- x))); [apply expsum_derive|apply exp_neg_derive].
        - destruct (IH y ltac:(lra)) as [_ G]. specialize (G E'). lra. }
      rewrite expsum_0, Ropp_0, exp_0 in M. lra.
    + assert (E' : Nat.even n = true) by (destruct (Nat.even n); [reflexivity|discriminate]).
      assert (M : exp (- 0) - expsum (S n) 0 <= exp (- x) - expsum (S n) x).
      { apply (nondecreasing (fun x => exp (- x) - expsum (S n) x) (fun x => - exp (- x) - - expsum n x)); [|intros y Hy|lra].
        - intros y. apply (derivable_pt_lim_minus (fun x => exp (- x)) (expsum (S n))); [apply exp_neg_derive|apply expsum_derive].
        - destruct (IH y ltac:(lra)) as [G _]. specialize (G E'). lra. }
      rewrite expsum_0, Ropp_0, exp_0 in M. lra.
Qed.

(** Antiderivative of expsum n (x^2). *)
Fixpoint erfsum (n : nat) (x : R) : R :=
  match n with O => x | S m => erfsum m x + (-1) ^ S m * x ^ (2 * S m + 1) / (INR (fact (S m)) * INR (2 * S m + 1)) end.
Lemma erfsum_derive n x : derivable_pt_lim (erfsum n) x (expsum n (x * x)).
Proof.
  induction n as [|n IH]; cbn [erfsum expsum].
  - apply derivable_pt_lim_id.
  - set (m := S n) in *. set (k := (2 * m)%nat).
    apply (derivable_pt_lim_plus (erfsum n) (fun x => (-1) ^ m * x ^ (k + 1) / (INR (fact m) * INR (k + 1)))); [exact IH|].
    replace (k + 1)%nat with (S k) by lia.
    replace ((- (x * x)) ^ m / INR (fact m)) with ((-1) ^ m * (INR (S k) * x ^ k) / (INR (fact m) * INR (S k))); [apply pow_derive|].
    replace (- (x * x)) with ((-1) * (x * x)) by ring. rewrite Rpow_mult_distr.
    replace ((x * x) ^ m) with (x ^ k) by (unfold k; rewrite pow_mult; f_equal; ring).
    field. split; [apply INR_fact_neq_0|apply not_0_INR; lia].
Qed.
Lemma erfsum_0 n : erfsum n 0 = 0.
Proof. induction n as [|n IH]; cbn [erfsum]; [reflexivity|]. rewrite IH, pow_i by lia. unfold Rdiv. rewrite Rmult_0_r, Rmult_0_l. lra. Qed.

(** The same sum in rational arithmetic. *)
Fixpoint zfact (n : nat) : Z := match n with O => 1 | S m => Z.of_nat (S m) * zfact m end.
Fixpoint qerfsum (n : nat) (x : Z) : Q :=
  match n with
  | O => inject_Z x
  | S m => Qred (qerfsum m x + inject_Z ((-1) ^ Z.of_nat (S m) * x ^ Z.of_nat (2 * S m + 1)) / inject_Z (zfact (S m) * Z.of_nat (2 * S m + 1)))
  end.
Lemma zfact_INR n : IZR (zfact n) = INR (fact n).
Proof.
  induction n as [|n IH]; [reflexivity|]. change (fact (S n)) with (S n * fact n)%nat. rewrite mult_INR, <- IH, INR_IZR_INZ, <- mult_IZR. reflexivity.
Qed.
Lemma inject_R z : Q2R (inject_Z z) = IZR z.
Proof. unfold Q2R. cbn. lra. Qed.
Lemma qerfsum_R n x : Q2R (qerfsum n x) = erfsum n (IZR x).
Proof.
  induction n as [|n IH]; [apply inject_R|]. cbn [qerfsum erfsum].
  rewrite (Qeq_eqR _ _ (Qred_correct _)), Q2R_plus, IH. f_equal.
  assert (N : IZR (zfact (S n)) <> 0) by (rewrite zfact_INR; apply INR_fact_neq_0).
  assert (N' : ~ (inject_Z (zfact (S n) * Z.of_nat (2 * S n + 1)) == 0)%Q).
  { intros E. apply Qeq_eqR in E. rewrite inject_R, mult_IZR, <- INR_IZR_INZ in E. unfold Q2R in E. cbn [Qnum Qden] in E.
    rewrite Rmult_0_l in E. apply Rmult_integral in E. destruct E as [E|E]; [exact (N E)|].
    revert E. apply not_0_INR. lia. }
  unfold Qdiv. rewrite Q2R_mult, Q2R_inv by exact N'. rewrite !inject_R, !mult_IZR, zfact_INR, <- !INR_IZR_INZ, <- !pow_IZR. reflexivity.
Qed.

(** pi *)
Lemma pi_lower : 3.14 <= PI.
Proof.
  pose proof (proj1 (PI_2_3_7_ineq 1)) as H. unfold sum_f_R0, tg_alt, PI_2_3_7_tg, Ratan_seq in H. cbn in H. lra.
Qed.
Lemma sqrt_pi : 1.77 <= sqrt PI.
Proof.
  rewrite <- (sqrt_square 1.77) by lra. apply sqrt_le_1; pose proof pi_lower; lra.
Qed.

Section Erf.
  Variable f : R -> R.
  Hypothesis Hf : is_erf f.
  Let c := 2 / sqrt PI.

  Lemma c_bounds : 0 < c <= 2 / 1.77.
  Proof.
    pose proof sqrt_pi. unfold c. split; [apply Rdiv_lt_0_compat; lra|].
    apply Rmult_le_compat_l; [lra|]. apply Rinv_le_contravar; lra.
  Qed.
  Lemma gauss_bounds x : 0 < exp (- (x * x)) <= 1.
  Proof.
    split; [apply exp_pos|]. destruct (Req_dec x 0) as [->|N]; [rewrite Rmult_0_l, Ropp_0, exp_0; lra|].
    left. apply Rlt_le_trans with (exp 0); [apply exp_increasing|rewrite exp_0; lra]. assert (0 < x * x) by nra. lra.
  Qed.
  Lemma erf_monotone x y : x <= y -> f x <= f y.
  Proof.
    apply (nondecreasing f (fun x => c * exp (- (x * x)))); [apply Hf|].
    intros z _. pose proof (gauss_bounds z). pose proof c_bounds. apply Rmult_le_pos; lra.
  Qed.
  Lemma erf_lipschitz x y : x <= y -> f y - f x <= 2 / 1.77 * (y - x).
  Proof.
    intros L. enough (2 / 1.77 * x - f x <= 2 / 1.77 * y - f y) by lra.
    apply (nondecreasing (fun x => 2 / 1.77 * x - f x) (fun x => 2 / 1.77 - c * exp (- (x * x)))); [|intros z _|assumption].
    - intros z. apply (derivable_pt_lim_minus (fun x => 2 / 1.77 * x) f); [|apply Hf].
      apply is_derive_Reals. auto_derive; [auto|]. ring.
    - pose proof (gauss_bounds z). pose proof c_bounds.
      assert (c * exp (- (z * z)) <= c * 1) by (apply Rmult_le_compat_l; lra). lra.
  Qed.

  (** Even sums bound the function at negative arguments from below. *)
  Lemma erf_below n x : 0 <= x -> Nat.even n = true -> - (c * erfsum n x) <= f (- x).
  Proof.
    intros Hx E. enough (f (- x) + c * erfsum n x >= f (- 0) + c * erfsum n 0).
    { rewrite erfsum_0, Ropp_0, (proj1 Hf) in H. lra. }
    apply Rle_ge.
    apply (nondecreasing (fun x => f (- x) + c * erfsum n x) (fun x => - (c * exp (- (- x * - x))) + c * expsum n (x * x))); [|intros z Hz|assumption].
    - intros z. apply (derivable_pt_lim_plus (fun x => f (- x)) (fun x => c * erfsum n x)).
      + replace (- (c * exp (- (- z * - z)))) with (c * exp (- (- z * - z)) * (-1)) by ring.
        apply (derivable_pt_lim_comp (fun x => - x) f); [|apply Hf].
        apply is_derive_Reals. auto_derive; [auto|]. ring.
      + apply (derivable_pt_lim_scal (erfsum n) c). apply erfsum_derive.
    - destruct (expsum_bounds n (z * z) ltac:(nra)) as [G _]. specialize (G E). pose proof c_bounds.
      replace (- z * - z) with (z * z) by ring.
      assert (c * exp (- (z * z)) <= c * expsum n (z * z)) by (apply Rmult_le_compat_l; lra). lra.
  Qed.

  Lemma erf_minus_2 : - 998 / 1000 <= f (-2).
  Proof.
    pose proof (erf_below 18 2 ltac:(lra) eq_refl) as B. pose proof c_bounds as C.
    assert (E : 0 < erfsum 18 2 <= 8823 / 10000).
    { change 2 with (IZR 2). rewrite <- qerfsum_R. split.
      - apply Rle_lt_trans with (Q2R 0); [unfold Q2R; cbn; lra|]. apply Qlt_Rlt. vm_compute. reflexivity.
      - apply Rle_trans with (Q2R (8823 # 10000)); [|unfold Q2R; cbn; lra]. apply Qle_Rle. vm_compute. discriminate. }
    assert (c * erfsum 18 2 <= 2 / 1.77 * (8823 / 10000)) by (apply Rmult_le_compat; lra).
    replace (- (2)) with (-2) in B by lra. lra.
  Qed.
End Erf.

(** The error function exists. *)
Lemma erf_exists : exists f, is_erf f.
Proof.
  exists (fun x => 2 / sqrt PI * RInt (fun t => exp (- (t * t))) 0 x).
  assert (C : forall t, continuous (fun t => exp (- (t * t))) t).
  { intros t. apply (ex_derive_continuous (fun t => exp (- (t * t)))). auto_derive. auto. }
  split.
  - rewrite RInt_point. apply Rmult_0_r.
  - intros x. apply is_derive_Reals. apply (is_derive_scal (fun x => RInt (fun t => exp (- (t * t))) 0 x)).
    apply (is_derive_RInt (fun t => exp (- (t * t))) (fun x => RInt (fun t => exp (- (t * t))) 0 x) 0 x); [|apply C].
    apply filter_forall. intros y. apply (RInt_correct (V := R_CompleteNormedModule)). apply (ex_RInt_continuous (V := R_CompleteNormedModule)). intros; apply C.
Qed.
