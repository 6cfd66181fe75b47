(** The security checks with doubles, compared with the exact ones. *)
From Coq Require Import ZArith NArith Reals Lra Lia QArith Qreals Bool.
From Flocq.Core Require Import Core.
From Verif Require Import Base ScalarModel RotModel FloatSpec FloatModel FloatFacts.
Local Open Scope R_scope.

Lemma fin_small x e : (-1000 <= e <= 1000)%Z -> Rabs x <= bpow radix2 e -> rounded x = Fin (nearest x).
Proof.
  intros He H. unfold rounded. destruct (Rlt_dec _ _) as [|N]; [reflexivity|exfalso; apply N].
  apply Rle_lt_trans with (bpow radix2 e).
  - apply abs_round_le_generic; try typeclasses eauto; [|assumption].
    apply generic_format_bpow. unfold double_exp, FLT_exp. lia.
  - apply bpow_lt. lia.
Qed.
Lemma of_int_fin n : (Z.abs n <= 2^200)%Z -> of_int n = Fin (nearest (IZR n)).
Proof.
  intros H. apply fin_small with 200%Z; [lia|]. rewrite bpow_pos_IZR by lia. rewrite <- abs_IZR. apply IZR_le, H.
Qed.

(** The logarithm of an integer. *)
Definition log_error : R := 5 * / 17592186044416.

Lemma eps42_val : bpow radix2 (-42) = / 4398046511104.
Proof. change (-42)%Z with (- (42))%Z. rewrite bpow_neg_IZR by lia. reflexivity. Qed.
Lemma eps52_val : bpow radix2 (-52) = / 4503599627370496.
Proof. change (-52)%Z with (- (52))%Z. rewrite bpow_neg_IZR by lia. reflexivity. Qed.
Lemma small x : -1024 <= x <= 1024 -> Rabs x <= bpow radix2 10.
Proof. intros H. rewrite bpow_pos_IZR by lia. apply Rabs_le. exact H. Qed.
Lemma nearest_near x : -1024 <= x <= 1024 -> - / 4398046511104 <= nearest x - x <= / 4398046511104.
Proof.
  intros H. apply Rabs_le_inv. rewrite <- eps42_val. apply (round_error ZnearestE x 10); [lia|apply small, H].
Qed.
Lemma rounded_small x : -1024 <= x <= 1024 -> rounded x = Fin (nearest x).
Proof. intros H. apply fin_small with 10%Z; [lia|apply small, H]. Qed.

Lemma Rlog2_bounds n : (1 <= n <= 2^128)%Z -> 0 <= Rlog2 (IZR n) <= 128.
Proof.
  intros H. pose proof ln2_bounds. unfold Rlog2. assert (H1 : 1 <= IZR n) by (apply IZR_le; lia).
  assert (H2 : IZR n <= IZR (2^128)) by (apply IZR_le; lia).
  assert (L1 : 0 <= ln (IZR n)). { destruct H1 as [H1|H1]; [left; apply ln_pos, H1|rewrite <- H1, ln_1; lra]. }
  assert (L2 : ln (IZR n) <= 128 * ln 2).
  { rewrite <- ln_IZR_pow by lia. destruct H2 as [H2|H2]; [left; apply ln_increasing; lra|right; f_equal; exact H2]. }
  split.
  - apply Rle_mult_inv_pos; lra.
  - apply Rmult_le_reg_r with (ln 2); [lra|]. unfold Rdiv. rewrite Rmult_assoc, Rinv_l by lra. lra.
Qed.
Lemma dlog2_int log2 n : accurate Rlog2 log2 -> (1 <= n <= 2^128)%Z ->
  exists l, dlog2 log2 (of_int n) = Fin l /\ - log_error <= l - Rlog2 (IZR n) <= log_error.
Proof.
  intros Hlog H. rewrite of_int_fin by lia. unfold dlog2. pose proof ln2_bounds as L2.
  assert (H1 : 1 <= IZR n) by (apply IZR_le; lia).
  set (m := nearest (IZR n)).
  assert (M : 1 <= m). { apply round_ge_generic; try typeclasses eauto; [|assumption]. apply (int_format 1). lia. }
  destruct (Rlt_dec m 0); [lra|]. destruct (Req_EM_T m 0); [lra|].
  exists (log2 m). split; [reflexivity|].
  pose proof (round_relative ZnearestE (IZR n)) as A. rewrite eps52_val, (Rabs_pos_eq (IZR n)) in A by lra.
  assert (B : bpow radix2 (-1000) <= IZR n). { apply Rle_trans with 1; [|assumption]. change 1 with (bpow radix2 0). apply bpow_le. lia. }
  specialize (A B). apply Rabs_le_inv in A. change (round radix2 double_exp ZnearestE (IZR n)) with m in A.
  set (x := IZR n) in *.
  assert (D : - / 1125899906842624 <= Rlog2 m - Rlog2 x <= / 1125899906842624).
  { assert (E : Rlog2 m - Rlog2 x = ln (m / x) / ln 2).
    { unfold Rlog2. replace (m / x) with (m * / x) by reflexivity. rewrite ln_mult by (try apply Rinv_0_lt_compat; lra). rewrite ln_Rinv by lra. field. lra. }
    assert (Q : 0 < m / x) by (apply Rdiv_lt_0_compat; lra).
    assert (Q1 : m / x <= 1 + / 4503599627370496).
    { apply Rmult_le_reg_r with x; [lra|]. unfold Rdiv. rewrite Rmult_assoc, Rinv_l by lra. lra. }
    assert (Q2 : x / m <= 1 + / 2251799813685248).
    { apply Rmult_le_reg_r with m; [lra|]. unfold Rdiv. rewrite Rmult_assoc, Rinv_l by lra. lra. }
    pose proof (ln_le_minus _ Q) as U. pose proof (ln_ge_minus _ Q) as L.
    replace (/ (m / x)) with (x / m) in L by (field; lra).
    rewrite E. split; (apply Rmult_le_reg_r with (ln 2); [lra|]; unfold Rdiv; rewrite Rmult_assoc, Rinv_l by lra; lra). }
  pose proof (Rlog2_bounds n ltac:(lia)) as Lb. fold x in Lb.
  pose proof (accurate_error Rlog2 log2 m 10 Hlog ltac:(lia)) as G. change (10 - 52)%Z with (-42)%Z in G.
  rewrite eps42_val in G. assert (G' : Rabs (Rlog2 m) <= bpow radix2 10) by (apply small; lra).
  specialize (G G'). apply Rabs_le_inv in G. unfold log_error. lra.
Qed.

(** Products of integers and powers of two. *)
Lemma exp2_log2 x : 0 < x -> exp2 (Rlog2 x) = x.
Proof.
  intros H. pose proof ln2_bounds. unfold exp2, Rpower, Rlog2.
  replace (ln x / ln 2 * ln 2) with (ln x) by (field; lra). apply exp_ln, H.
Qed.
Lemma exp2_plus x y : exp2 (x + y) = exp2 x * exp2 y.
Proof. apply Rpower_plus. Qed.
Lemma exp2_lt x y : x < y -> exp2 x < exp2 y.
Proof. intros H. apply Rpower_lt; lra. Qed.
Lemma exp2_le x y : x <= y -> exp2 x <= exp2 y.
Proof. intros H. apply Rle_Rpower; lra. Qed.
Lemma exp2_pos x : 0 < exp2 x.
Proof. apply exp_pos. Qed.
Lemma exp2_int h : (0 <= h)%Z -> exp2 (IZR h) = IZR (2 ^ h).
Proof.
  intros H. unfold exp2. rewrite <- (Z2Nat.id h) by assumption. rewrite <- INR_IZR_INZ, Rpower_pow by lra. apply (pow_IZR 2).
Qed.
Lemma exp2_product r t s : (1 <= r)%Z -> (1 <= t)%Z ->
  exp2 (Rlog2 (IZR r) + (Rlog2 (IZR t) + s)) = IZR r * (IZR t * exp2 s).
Proof.
  intros Hr Ht. rewrite !exp2_plus, !exp2_log2; [reflexivity|apply IZR_lt; lia..].
Qed.

Lemma Q2R_inject z : Q2R (inject_Z z) = IZR z.
Proof. unfold Q2R. cbn. lra. Qed.
(** The exact check in terms of reals. *)
Lemma exact_check h r t K : negb (Qle_bool (inject_Z (2 ^ h)) (inject_Z r * (inject_Z t * K))) = true <->
  IZR r * (IZR t * Q2R K) < IZR (2 ^ h).
Proof.
  rewrite negb_true_iff. rewrite <- !Q2R_inject, <- !Q2R_mult. split.
  - intros H. apply Qlt_Rlt. destruct (Qlt_le_dec (inject_Z r * (inject_Z t * K)) (inject_Z (2 ^ h))) as [L|L]; [exact L|].
    apply Qle_bool_iff in L. congruence.
  - intros H. apply Rlt_Qlt in H. destruct (Qle_bool _ _) eqn:E; [|reflexivity]. apply Qle_bool_iff in E. exfalso. apply (Qlt_not_le _ _ H E).
Qed.

Section Checks.
  Variable log2 : R -> R.
  Hypothesis Hlog : accurate Rlog2 log2.

  (** log2(total) + s *)
  Lemma per_element_value s total : 0 <= s <= 512 -> (1 <= total <= 2^128)%Z ->
    exists x, security_per_element log2 (Fin s) total = Fin x /\ - (3 * log_error) <= x - (Rlog2 (IZR total) + s) <= 3 * log_error.
  Proof.
    intros Hs Ht. destruct (dlog2_int log2 total Hlog Ht) as (l & E & B). pose proof (Rlog2_bounds total Ht).
    unfold security_per_element. rewrite E. cbn [dadd]. unfold log_error in *. rewrite rounded_small by lra.
    eexists. split; [reflexivity|]. pose proof (nearest_near (l + s) ltac:(lra)). lra.
  Qed.
  (** hash_bits - log2(rem) *)
  Lemma remaining_value h r : (0 <= h <= 512)%Z -> (1 <= r <= 2^128)%Z ->
    exists x, dsub (of_int h) (dlog2 log2 (of_int r)) = Fin x /\ - (3 * log_error) <= x - (IZR h - Rlog2 (IZR r)) <= 3 * log_error.
  Proof.
    intros Hh Hr. destruct (dlog2_int log2 r Hlog Hr) as (l & E & B). pose proof (Rlog2_bounds r Hr).
    assert (H1 : 0 <= IZR h <= 512) by (split; apply IZR_le; lia).
    unfold dsub. rewrite E, of_int_fin, nearest_int by lia. cbn [dopp dadd]. unfold log_error in *. rewrite rounded_small by lra.
    eexists. split; [reflexivity|]. pose proof (nearest_near (IZR h + - l) ltac:(lra)). lra.
  Qed.

  Definition rem_of (modulus : N) (h : Z) : N :=
    (let max_value := 2^128 - 1 in
     let max_value := if (h <? 128)%Z then max_value / 2 ^ Z.to_N h else max_value in
     ((max_value mod modulus) + 1) mod modulus)%N.

  Lemma dlog2_zero : dlog2 log2 (of_int 0) = Inf true.
  Proof.
    rewrite of_int_fin, nearest_int by lia. unfold dlog2. destruct (Rlt_dec 0 0); [lra|]. destruct (Req_EM_T 0 0); [reflexivity|lra].
  Qed.
  Lemma dlog2_negative n : (- 2^128 <= n < 0)%Z -> dlog2 log2 (of_int n) = NaN.
  Proof.
    intros H. rewrite of_int_fin by lia. unfold dlog2. destruct (Rlt_dec _ 0) as [L|L]; [reflexivity|exfalso; apply L].
    apply Rle_lt_trans with (-1); [|lra]. apply round_le_generic; try typeclasses eauto; [apply (int_format (-1)); lia|apply IZR_le; lia].
  Qed.

  Lemma ntl_check m s total h K : (0 < m <= 2^128)%N -> 0 <= s <= 512 -> (0 <= h <= 512)%Z -> (- 2^63 <= total < 2^63)%Z ->
    let double := can_hash_ntl_double log2 m (security_per_element log2 (Fin s) total) h in
    let exact := can_hash_ntl m (security_per_leaf K total) h in
    (Q2R K <= exp2 (s - rounding_slack) -> double = true -> exact = true) /\
    (exp2 (s + rounding_slack) <= Q2R K -> exact = true -> double = true).
  Proof.
    intros Hm Hs Hh Ht. cbv zeta. unfold can_hash_ntl_double, can_hash_ntl. cbv zeta.
    change (((if (h <? 128)%Z then (2 ^ 128 - 1) / 2 ^ Z.to_N h else 2 ^ 128 - 1) mod m + 1) mod m)%N with (rem_of m h).
    assert (Hr : (0 <= Z.of_N (rem_of m h) <= 2^128)%Z).
    { unfold rem_of. cbv zeta. pose proof (N.mod_lt (((if (h <? 128)%Z then (2 ^ 128 - 1) / 2 ^ Z.to_N h else 2 ^ 128 - 1) mod m + 1)) m ltac:(lia)). lia. }
    set (r := Z.of_N (rem_of m h)) in *. clearbody r. unfold security_per_leaf.
    destruct (Z.ltb_spec total 0) as [T|T].
    { unfold security_per_element. rewrite dlog2_negative by lia. cbn. split; auto. }
    rewrite exact_check. assert (P2 : 0 < IZR (2 ^ h)). { apply IZR_lt. apply Z.pow_pos_nonneg; lia. }
    destruct (Z.eq_dec total 0) as [->|T0].
    { unfold security_per_element. rewrite dlog2_zero. cbn [dadd]. split; [intros; lra|]. intros _ _.
      destruct (Z.eq_dec r 0) as [->|R0].
      - rewrite dlog2_zero, of_int_fin by lia. reflexivity.
      - destruct (remaining_value h r Hh ltac:(lia)) as (x & -> & _). reflexivity. }
    destruct (per_element_value s total Hs ltac:(lia)) as (x & -> & X).
    destruct (Z.eq_dec r 0) as [->|R0].
    { rewrite dlog2_zero, of_int_fin by lia. split; intros; [rewrite Rmult_0_l; exact P2|reflexivity]. }
    destruct (remaining_value h r Hh ltac:(lia)) as (y & -> & Y). cbn [dlt].
    assert (Pr : 0 < IZR r) by (apply IZR_lt; lia). assert (Pt : 0 < IZR total) by (apply IZR_lt; lia).
    split.
    - intros HK H. destruct (Rlt_dec x y) as [L|]; [|discriminate].
      apply Rle_lt_trans with (exp2 (Rlog2 (IZR r) + (Rlog2 (IZR total) + (s - rounding_slack)))).
      + rewrite exp2_product by lia. apply Rmult_le_compat_l; [lra|]. apply Rmult_le_compat_l; lra.
      + rewrite <- exp2_int by lia. apply exp2_lt. unfold log_error, rounding_slack in *. lra.
    - intros HK H. destruct (Rlt_dec x y) as [|L]; [reflexivity|exfalso; apply L; clear L].
      apply Rnot_le_lt. intros L. apply (Rlt_not_le _ _ H). rewrite <- exp2_int by lia.
      apply Rle_trans with (exp2 (Rlog2 (IZR r) + (Rlog2 (IZR total) + (s + rounding_slack)))).
      + apply exp2_le. unfold log_error, rounding_slack in *. lra.
      + rewrite exp2_product by lia. apply Rmult_le_compat_l; [lra|]. apply Rmult_le_compat_l; lra.
  Qed.

  (** CanBeHashedInto, every type *)
  Lemma check t s total h K : stype_ok t -> 0 <= s <= 512 -> (0 <= h <= 512)%Z -> (- 2^63 <= total < 2^63)%Z ->
    let double := can_be_hashed_into log2 t (security_per_element log2 (Fin s) total) h in
    let exact := s_can_hash (scalar_of t) (security_per_leaf K total) h in
    (Q2R K <= exp2 (s - rounding_slack) -> double = true -> exact = true) /\
    (exp2 (s + rounding_slack) <= Q2R K -> exact = true -> double = true).
  Proof.
    intros Ok Hs Hh Ht. cbv zeta. destruct t as [| | | | | | p|p]; cbn [can_be_hashed_into scalar_of];
      try (cbn [s_can_hash uint_scalar gf128_scalar]; split; (intros _ H; exact H)).
    - cbn [s_can_hash ZZp_scalar].
      set (m := (N.shiftr (Npos p) 64 mod 2^64 * 2^64 + Npos p mod 2^64)%N).
      destruct (N.eqb_spec m 0) as [->|M]; [split; auto|].
      apply (ntl_check m s total h K); auto.
      assert (Npos p mod 2^64 < 2^64)%N by (apply N.mod_lt; discriminate).
      assert (N.shiftr (Npos p) 64 mod 2^64 < 2^64)%N by (apply N.mod_lt; discriminate).
      change (2^128)%N with (2^64 * 2^64)%N. nia.
    - cbn [s_can_hash zzp_scalar]. apply (ntl_check (Npos p) s total h K); auto. destruct Ok as [_ Ok].
      split; [reflexivity|]. apply N.le_trans with (2^60)%N; [exact Ok|discriminate].
  Qed.
End Checks.
