(** Bit-level lemmas on N. *)
From Verif Require Import Base.
Local Open Scope N_scope.
#[local] Ltac Zify.zify_post_hook ::= Z.div_mod_to_equations.

(** Equalities between xor expressions. *)
Ltac xor_solve :=
  apply N.bits_inj; intros ?k; rewrite ?N.lxor_spec, ?N.bits_0;
  repeat match goal with |- context [N.testbit ?a ?b] => destruct (N.testbit a b) end; reflexivity.

Lemma double_shiftl a : N.double a = N.shiftl a 1.
Proof. rewrite N.shiftl_mul_pow2, N.double_spec. lia. Qed.
Lemma double_lxor a b : N.double (N.lxor a b) = N.lxor (N.double a) (N.double b).
Proof. rewrite !double_shiftl. apply N.shiftl_lxor. Qed.
Lemma succ_double_lxor a : N.succ_double a = N.lxor 1 (N.double a).
Proof. destruct a; reflexivity. Qed.

Lemma lt_pow2_testbit a n : a < 2^n <-> (forall k, n <= k -> N.testbit a k = false).
Proof.
  split.
  - intros H k Hk. destruct (N.eq_dec a 0) as [->|Hn]; [apply N.bits_0|].
    apply N.bits_above_log2. apply N.lt_le_trans with n; auto.
    apply N.log2_lt_pow2; lia.
  - intro H. destruct (N.eq_dec a 0) as [->|Hn].
    + apply N.neq_0_lt_0, N.pow_nonzero; lia.
    + apply N.log2_lt_pow2; [lia|]. destruct (N.lt_ge_cases (N.log2 a) n) as [Hl|Hl]; auto.
      specialize (H _ Hl). rewrite N.bit_log2 in H by auto. discriminate.
Qed.

Lemma lxor_lt a b n : a < 2^n -> b < 2^n -> N.lxor a b < 2^n.
Proof.
  rewrite !lt_pow2_testbit. intros Ha Hb k Hk. rewrite N.lxor_spec, Ha, Hb by auto. reflexivity.
Qed.
Lemma lor_lt a b n : a < 2^n -> b < 2^n -> N.lor a b < 2^n.
Proof.
  rewrite !lt_pow2_testbit. intros Ha Hb k Hk. rewrite N.lor_spec, Ha, Hb by auto. reflexivity.
Qed.
Lemma land_lt a b n : a < 2^n -> N.land a b < 2^n.
Proof.
  rewrite !lt_pow2_testbit. intros Ha k Hk. rewrite N.land_spec, Ha by auto. reflexivity.
Qed.

(** Disjoint addition is xor / or. *)
Lemma add_lxor_disjoint a b : N.land a b = 0 -> a + b = N.lxor a b.
Proof. intro H. now apply N.add_nocarry_lxor. Qed.

Lemma shiftl_add_low a b n : b < 2^n -> a * 2^n + b = N.lxor (N.shiftl a n) b.
Proof.
  intro H. rewrite <- N.shiftl_mul_pow2. apply add_lxor_disjoint.
  apply N.bits_inj; intro k. rewrite N.land_spec, N.bits_0.
  destruct (N.lt_ge_cases k n).
  - rewrite N.shiftl_spec_low by auto. reflexivity.
  - rewrite (proj1 (lt_pow2_testbit b n) H k) by auto. apply andb_false_r.
Qed.

Lemma testbit_add_low a b n k : b < 2^n ->
  N.testbit (a * 2^n + b) k = if k <? n then N.testbit b k else N.testbit a (k - n).
Proof.
  intro H. rewrite shiftl_add_low by auto. rewrite N.lxor_spec.
  destruct (N.ltb_spec k n).
  - rewrite N.shiftl_spec_low by auto. apply xorb_false_l.
  - rewrite N.shiftl_spec_high' by auto. rewrite (proj1 (lt_pow2_testbit b n) H k) by auto.
    apply xorb_false_r.
Qed.

Lemma mod_pow2_lxor a b n : N.lxor a b mod 2^n = N.lxor (a mod 2^n) (b mod 2^n).
Proof.
  apply N.bits_inj; intro k. rewrite N.lxor_spec.
  destruct (N.lt_ge_cases k n).
  - rewrite !N.mod_pow2_bits_low, N.lxor_spec by auto. reflexivity.
  - rewrite !N.mod_pow2_bits_high by auto. reflexivity.
Qed.

Lemma land_pow2_testbit a j : negb (N.land a (2^j) =? 0) = N.testbit a j.
Proof.
  destruct (N.testbit a j) eqn:E.
  - assert (N.land a (2^j) <> 0); [|lia]. intro H.
    assert (N.testbit (N.land a (2^j)) j = false) by now rewrite H, N.bits_0.
    rewrite N.land_spec, E, N.pow2_bits_true in H0. discriminate.
  - assert (N.land a (2^j) = 0); [|lia]. apply N.bits_inj; intro k.
    rewrite N.land_spec, N.bits_0. destruct (N.eq_dec j k) as [->|Hn].
    + now rewrite E.
    + rewrite N.pow2_bits_false by auto. apply andb_false_r.
Qed.
