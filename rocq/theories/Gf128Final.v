(** Lemmas in the exact form of the final gf128 theorems. *)
From Verif Require Import Base NBits Gf128Model Gf128Spec Gf128Poly Gf128Proofs Gf128Field Gf128Generator EmpBlockModel.
Local Open Scope N_scope.

Lemma mul_field_product asm a b : gf_wf a -> gf_wf b ->
  gf_wf (gf_mul asm a b) /\ is_field_product (u (gf_mul asm a b)) (u a) (u b).
Proof.
  intros Ha Hb. destruct (gf_mul_spec asm a b Ha Hb) as [H ->]. split; auto. apply fmul_is_field_product.
Qed.
Lemma field_product_unique a b c d : is_field_product c a b -> is_field_product d a b -> c = d.
Proof. intros H1 H2. rewrite (is_field_product_unique a b c H1). symmetry. now apply is_field_product_unique. Qed.
Lemma poly_product_exists_unique p q : exists r, is_poly_product r p q /\ forall r', is_poly_product r' p q -> r' = r.
Proof. exists (pmul p q). split; [apply pmul_is_poly_product|]. intros r' H. now apply is_poly_product_unique. Qed.

Lemma gf_paths a b : gf_wf a -> gf_wf b -> gf_mul true a b = gf_mul false a b.
Proof. apply gf_mul_paths_agree. Qed.

Lemma wf_zero : gf_wf gf_zero. Proof. split; reflexivity. Qed.
Lemma wf_one : gf_wf gf_one. Proof. split; reflexivity. Qed.

Lemma wf_add a b : gf_wf a -> gf_wf b -> gf_wf (gf_add a b). Proof. intros; now apply gf_add_spec. Qed.
Lemma wf_mul asm a b : gf_wf a -> gf_wf b -> gf_wf (gf_mul asm a b). Proof. intros; now apply gf_mul_spec. Qed.

Ltac wf := repeat match goal with
  | H : gf_wf ?a |- gf_wf ?a => exact H
  | |- gf_wf (gf_add _ _) => apply wf_add
  | |- gf_wf (gf_mul _ _ _) => apply wf_mul
  | |- gf_wf gf_zero => exact wf_zero
  | |- gf_wf gf_one => exact wf_one
  end.
Ltac gf_ring := apply u_inj; [wf; fail | wf; fail |];
  repeat first
    [ rewrite (fun asm x y Hx Hy => proj2 (gf_mul_spec asm x y Hx Hy)) by (wf; fail)
    | rewrite (fun x y Hx Hy => proj2 (gf_add_spec x y Hx Hy)) by (wf; fail) ].

Lemma gf_ring_laws asm a b c : gf_wf a -> gf_wf b -> gf_wf c ->
  (* closure *)
  gf_wf (gf_add a b) /\ gf_wf (gf_mul asm a b) /\ gf_wf (gf_opp a) /\ gf_wf gf_zero /\ gf_wf gf_one /\
  (* commutative ring *)
  gf_add a b = gf_add b a /\ gf_add a (gf_add b c) = gf_add (gf_add a b) c /\ gf_add a gf_zero = a /\
  gf_add a (gf_opp a) = gf_zero /\
  gf_mul asm a b = gf_mul asm b a /\ gf_mul asm a (gf_mul asm b c) = gf_mul asm (gf_mul asm a b) c /\
  gf_mul asm gf_one a = a /\
  gf_mul asm a (gf_add b c) = gf_add (gf_mul asm a b) (gf_mul asm a c) /\
  (* characteristic two *)
  gf_add a a = gf_zero /\ gf_sub a b = gf_add a b /\ gf_opp a = a /\ gf_sub a b = gf_add a (gf_opp b) /\
  (* squaring *)
  gf_square asm a = gf_mul asm a a /\
  (* integral domain *)
  gf_one <> gf_zero /\ (gf_mul asm a b = gf_zero -> a = gf_zero \/ b = gf_zero).
Proof.
  intros Ha Hb Hc.
  assert (Hopp : forall x, gf_opp x = x) by (intros []; reflexivity).
  rewrite !Hopp.
  repeat match goal with |- _ /\ _ => split end; try (wf; fail); try reflexivity.
  - gf_ring. apply N.lxor_comm.
  - gf_ring. symmetry. apply N.lxor_assoc.
  - gf_ring. apply N.lxor_0_r.
  - gf_ring. now rewrite N.lxor_nilpotent.
  - gf_ring. apply fmul_comm.
  - gf_ring. symmetry. apply fmul_assoc.
  - gf_ring. apply fmul_1_l. now apply u_lt.
  - gf_ring. apply fmul_lxor_r.
  - gf_ring. now rewrite N.lxor_nilpotent.
  - discriminate.
  - intro E. apply (f_equal u) in E. rewrite (proj2 (gf_mul_spec asm a b Ha Hb)) in E.
    destruct (fmul_integral (u a) (u b)) as [H|H]; auto using u_lt.
    + left. apply u_inj; wf. exact H.
    + right. apply u_inj; wf. exact H.
Qed.

Lemma gf_inverse_correct asm a : gf_wf a ->
  gf_wf (gf_inverse asm a) /\
  (a <> gf_zero -> gf_mul asm a (gf_inverse asm a) = gf_one) /\
  gf_inverse asm gf_zero = gf_zero.
Proof.
  intro Ha. split; [exact (proj1 (gf_inverse_spec asm a Ha))|]. split.
  - intro Hn. destruct (gf_inverse_spec asm a Ha) as [H1 H2].
    remember (gf_inverse asm a) as i eqn:E. clear E.
    apply u_inj; [exact (wf_mul asm a i Ha H1)|exact wf_one|].
    rewrite (proj2 (gf_mul_spec asm a i Ha H1)), H2.
    apply fpow_inverse; [exact (u_lt a Ha)|]. intro E. apply Hn. exact (u_inj a gf_zero Ha wf_zero E).
  - destruct (gf_inverse_spec asm gf_zero wf_zero) as [H3 H4].
    remember (gf_inverse asm gf_zero) as i eqn:E. clear E.
    apply u_inj; [exact H3|exact wf_zero|]. rewrite H4. apply fpow_0_l. discriminate.
Qed.

(** multiplicative_generator^k by repeated multiplication. *)
Definition gen_pow (asm : bool) (k : N) : gf128 := N.iter k (gf_mul asm multiplicative_generator) gf_one.

Lemma gen_pow_spec asm k : gf_wf (gen_pow asm k) /\ u (gen_pow asm k) = fpow 2 k.
Proof.
  induction k as [|k [IH1 IH2]] using N.peano_ind.
  - split; [apply wf_one|reflexivity].
  - unfold gen_pow in *. rewrite N.iter_succ.
    assert (Hg : gf_wf multiplicative_generator) by (split; reflexivity).
    destruct (gf_mul_spec asm multiplicative_generator _ Hg IH1) as [H1 H2]. split; auto.
    rewrite H2, fpow_succ, IH2 by reflexivity. reflexivity.
Qed.

Lemma generator_correct asm :
  (forall i j, i < 2^128 - 1 -> j < 2^128 - 1 -> gen_pow asm i = gen_pow asm j -> i = j) /\
  (forall k, gf_wf (gen_pow asm k) /\ gen_pow asm k <> gf_zero) /\
  (forall a, gf_wf a -> a <> gf_zero -> exists k, k < 2^128 - 1 /\ gen_pow asm k = a).
Proof.
  assert (HM : forall k, k < 2^128 - 1 <-> (0 <= Z.of_N k < M)%Z).
  { intro k. unfold M. change (2^128 - 1) with (Z.to_N (2^128 - 1)). split; intro; lia. }
  split; [|split].
  - intros i j Hi Hj E. apply HM in Hi, Hj. apply (f_equal u) in E.
    rewrite !(fun k => proj2 (gen_pow_spec asm k)) in E.
    assert (Z.of_N i = Z.of_N j); [|lia]. apply xpow_inj; auto. unfold xpow. now rewrite !N2Z.id.
  - intro k. destruct (gen_pow_spec asm k) as [H1 H2]. split; auto. intro E. apply (f_equal u) in E.
    rewrite H2 in E. apply (xpow_nonzero (Z.of_N k)); [lia|]. unfold xpow. now rewrite N2Z.id.
  - intros a Ha Hn. destruct (xpow_surj (u a)) as (k & Hk & E).
    + split; [|now apply u_lt]. assert (u a <> 0); [|lia]. intro E. apply Hn. apply u_inj; wf; exact E.
    + exists (Z.to_N k). split; [apply HM; lia|]. destruct (gen_pow_spec asm (Z.to_N k)) as [H1 H2].
      apply u_inj; auto. rewrite H2. exact E.
Qed.

Lemma gf_conversions :
  (forall hi lo, hi < 2^64 -> lo < 2^64 ->
     gf_wf (gf_of_words hi lo) /\ as_words (gf_of_words hi lo) = [lo; hi] /\
     gf_to_uint128 (gf_of_words hi lo) = hi * 2^64 + lo) /\
  (forall lo, lo < 2^64 -> gf_wf (gf_of_low lo) /\ gf_to_uint128 (gf_of_low lo) = lo) /\
  (forall x, x < 2^128 -> gf_wf (gf_of_uint128 x) /\ gf_to_uint128 (gf_of_uint128 x) = x) /\
  (forall a, gf_wf a -> gf_to_uint128 a < 2^128 /\ gf_of_uint128 (gf_to_uint128 a) = a) /\
  (forall a b, gf_wf a -> gf_wf b -> (gf_eqb a b = true <-> gf_to_uint128 a = gf_to_uint128 b)) /\
  (forall a, gf_wf a -> (gf_is_zero a = true <-> gf_to_uint128 a = 0)).
Proof.
  split; [|split; [|split; [|split; [|split]]]].
  - intros hi lo H1 H2. split; [split; auto|]. split; reflexivity.
  - intros lo H. split; [split; [auto|reflexivity]|reflexivity].
  - intros x H. split; [now apply wf_of_uint128|apply u_of_uint128].
  - intros a H. split; [now apply u_lt|now apply of_uint128_u].
  - intros a b Ha Hb. unfold gf_eqb. rewrite andb_true_iff, !N.eqb_eq. split.
    + intros [E1 E2]. unfold gf_to_uint128. now rewrite E1, E2.
    + intro E. apply u_inj in E; auto. now subst.
  - intros a Ha. unfold gf_is_zero. rewrite andb_true_iff, !N.eqb_eq. unfold gf_to_uint128. split; [|nia].
    intros [-> ->]. reflexivity.
Qed.

Lemma emp_conversions :
  (forall x, x < 2^128 -> emp_block_wf (ggm_to_emp_block x) /\ emp_to_ggm_block (ggm_to_emp_block x) = x) /\
  (forall b, emp_block_wf b -> emp_to_ggm_block b < 2^128 /\ ggm_to_emp_block (emp_to_ggm_block b) = b).
Proof.
  assert (HU : forall x, x < 2^64 -> int64 (to_int64 x) /\ to_uint64 (to_int64 x) = x).
  { intros x Hx. unfold to_int64, int64, to_uint64. change (2^64) with 18446744073709551616 in Hx.
    change (2^63) with 9223372036854775808. change (2^63)%Z with 9223372036854775808%Z.
    change (2^64)%Z with 18446744073709551616%Z.
    destruct (N.ltb_spec x 9223372036854775808); (split; [lia|]).
    - rewrite Z.mod_small by lia. apply N2Z.id.
    - replace (Z.of_N x - 18446744073709551616)%Z with (Z.of_N x + (-1) * 18446744073709551616)%Z by lia.
      rewrite Z.mod_add, Z.mod_small by lia. apply N2Z.id. }
  assert (HI : forall z, int64 z -> to_uint64 z < 2^64 /\ to_int64 (to_uint64 z) = z).
  { intros z. unfold to_int64, int64, to_uint64. change (2^64)%N with 18446744073709551616.
    change (2^63)%N with 9223372036854775808. change (2^63)%Z with 9223372036854775808%Z.
    change (2^64)%Z with 18446744073709551616%Z. intro H.
    destruct (Z_lt_dec z 0).
    - replace (z mod 18446744073709551616)%Z with (z + 18446744073709551616)%Z
        by (apply (Z.mod_unique_pos _ _ (-1)); lia).
      destruct (N.ltb_spec (Z.to_N (z + 18446744073709551616)) 9223372036854775808); lia.
    - rewrite Z.mod_small by lia. destruct (N.ltb_spec (Z.to_N z) 9223372036854775808); lia. }
  split.
  - intros x Hx. unfold emp_to_ggm_block, ggm_to_emp_block, emp_block_wf; cbn [lane0 lane1].
    assert (H0 : x mod 2^64 < 2^64) by (apply N.mod_lt; discriminate).
    assert (H1 : x / 2^64 < 2^64) by (apply N.div_lt_upper_bound; [discriminate|exact Hx]).
    destruct (HU _ H0) as [A0 ->], (HU _ H1) as [A1 ->]. split; [split; auto|].
    rewrite N.mul_comm. symmetry. apply N.div_mod. discriminate.
  - intros [b0 b1] [H0 H1]. cbn [lane0 lane1] in *. unfold emp_to_ggm_block, ggm_to_emp_block; cbn [lane0 lane1].
    destruct (HI _ H0) as [A0 B0], (HI _ H1) as [A1 B1].
    set (p := to_uint64 b0) in *. set (q := to_uint64 b1) in *. clearbody p q.
    split; [change (2^128) with (2^64 * 2^64); nia|].
    assert (E0 : (q * 2^64 + p) mod 2^64 = p).
    { rewrite N.add_comm, N.mod_add by discriminate. now apply N.mod_small. }
    assert (E1 : (q * 2^64 + p) / 2^64 = q).
    { rewrite N.add_comm, N.div_add by discriminate. rewrite N.div_small; auto. }
    now rewrite E0, E1, B0, B1.
Qed.
