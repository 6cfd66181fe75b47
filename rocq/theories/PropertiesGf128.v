(** Final theorems about gf128 (C01-C06).  [asm = true] is the USE_ASM build,
    [asm = false] the portable build. *)
From Verif Require Import Base Gf128Model Gf128Spec Gf128Final EmpBlockModel.
Local Open Scope N_scope.

(** C01 *)
Theorem C01_mul_is_field_product : forall asm a b, gf_wf a -> gf_wf b ->
  gf_wf (gf_mul asm a b) /\
  is_field_product (gf_to_uint128 (gf_mul asm a b)) (gf_to_uint128 a) (gf_to_uint128 b).
Proof. exact mul_field_product. Qed.
Print Assumptions C01_mul_is_field_product.

(** The specification determines the result: polynomial products exist and are
    unique, and so are field products. *)
Theorem C01_field_product_unique : forall a b c d,
  is_field_product c a b -> is_field_product d a b -> c = d.
Proof. exact field_product_unique. Qed.
Print Assumptions C01_field_product_unique.
Theorem C01_poly_product_exists_unique : forall p q,
  exists r, is_poly_product r p q /\ forall r', is_poly_product r' p q -> r' = r.
Proof. exact poly_product_exists_unique. Qed.
Print Assumptions C01_poly_product_exists_unique.

(** X^127 * X = X^7+X^2+X+1 *)
Example C01_example : gf_wf (gf_of_words (2^63) 0) /\ gf_wf (gf_of_low 2) /\
  gf_mul false (gf_of_words (2^63) 0) (gf_of_low 2) = gf_of_low 135.
Proof. vm_compute. repeat split; reflexivity. Qed.

(** C02 *)
Theorem C02_clmul_agrees_with_portable : forall a b, gf_wf a -> gf_wf b ->
  gf_mul true a b = gf_mul false a b.
Proof. exact gf_paths. Qed.
Print Assumptions C02_clmul_agrees_with_portable.

Example C02_example :
  gf_mul true (Gf 0xfedcba9876543210 0x8123456789abcdef) (Gf 0xdeadbeefcafebabe 0xffffffffffffffff)
  = gf_mul false (Gf 0xfedcba9876543210 0x8123456789abcdef) (Gf 0xdeadbeefcafebabe 0xffffffffffffffff)
  /\ gf_mul true (Gf 0xfedcba9876543210 0x8123456789abcdef) (Gf 0xdeadbeefcafebabe 0xffffffffffffffff) <> gf_zero.
Proof. vm_compute. split; [reflexivity|discriminate]. Qed.

(** C03 *)
Theorem C03_field_laws : forall asm a b c, gf_wf a -> gf_wf b -> gf_wf c ->
  (* closure *)
  gf_wf (gf_add a b) /\ gf_wf (gf_mul asm a b) /\ gf_wf (gf_opp a) /\ gf_wf gf_zero /\ gf_wf gf_one /\
  (* commutative ring *)
  gf_add a b = gf_add b a /\ gf_add a (gf_add b c) = gf_add (gf_add a b) c /\ gf_add a gf_zero = a /\
  gf_add a (gf_opp a) = gf_zero /\
  gf_mul asm a b = gf_mul asm b a /\ gf_mul asm a (gf_mul asm b c) = gf_mul asm (gf_mul asm a b) c /\
  gf_mul asm gf_one a = a /\
  gf_mul asm a (gf_add b c) = gf_add (gf_mul asm a b) (gf_mul asm a c) /\
  (* characteristic two *)
  gf_add a a = gf_zero /\ gf_sub a b = gf_add a b /\ gf_opp a = a /\ gf_sub a b = gf_add a (gf_opp b) /\
  (* squaring *)
  gf_square asm a = gf_mul asm a a /\
  (* integral domain *)
  gf_one <> gf_zero /\ (gf_mul asm a b = gf_zero -> a = gf_zero \/ b = gf_zero).
Proof. exact gf_ring_laws. Qed.
Print Assumptions C03_field_laws.

(** Three elements whose products involve the reduction. *)
Example C03_example : let a := gf_of_words (2^63) 1 in let b := gf_of_low 6 in let c := gf_of_words 1 (2^63) in
  gf_wf a /\ gf_wf b /\ gf_wf c /\ gf_mul true a b <> gf_zero /\
  gf_mul true a (gf_mul true b c) = gf_mul true (gf_mul true a b) c /\ gf_mul true a c <> gf_mul true b c.
Proof. vm_compute. repeat split; discriminate. Qed.

(** C04 *)
Theorem C04_inverse : forall asm a, gf_wf a ->
  gf_wf (gf_inverse asm a) /\
  (a <> gf_zero -> gf_mul asm a (gf_inverse asm a) = gf_one) /\
  gf_inverse asm gf_zero = gf_zero.
Proof. exact gf_inverse_correct. Qed.
Print Assumptions C04_inverse.

Example C04_example : gf_wf (Gf 5 7) /\ Gf 5 7 <> gf_zero /\ gf_inverse true (Gf 5 7) <> Gf 5 7.
Proof. split; [split; reflexivity|]. split; [discriminate|]. vm_compute. discriminate. Qed.

(** C05: the powers g^0, ..., g^(2^128-2) are distinct, all powers are nonzero
    and every nonzero element is one of them. *)
Theorem C05_generator : forall asm,
  let pow k := N.iter k (gf_mul asm multiplicative_generator) gf_one in
  (forall i j, i < 2^128 - 1 -> j < 2^128 - 1 -> pow i = pow j -> i = j) /\
  (forall k, gf_wf (pow k) /\ pow k <> gf_zero) /\
  (forall a, gf_wf a -> a <> gf_zero -> exists k, k < 2^128 - 1 /\ pow k = a).
Proof. exact generator_correct. Qed.
Print Assumptions C05_generator.

Example C05_example : N.iter 128 (gf_mul true multiplicative_generator) gf_one = Gf 135 0.
Proof. vm_compute. reflexivity. Qed.

(** C06 *)
Theorem C06_gf128_conversions :
  (forall hi lo, hi < 2^64 -> lo < 2^64 ->
     gf_wf (gf_of_words hi lo) /\ as_words (gf_of_words hi lo) = [lo; hi] /\
     gf_to_uint128 (gf_of_words hi lo) = hi * 2^64 + lo) /\
  (forall lo, lo < 2^64 -> gf_wf (gf_of_low lo) /\ gf_to_uint128 (gf_of_low lo) = lo) /\
  (forall x, x < 2^128 -> gf_wf (gf_of_uint128 x) /\ gf_to_uint128 (gf_of_uint128 x) = x) /\
  (forall a, gf_wf a -> gf_to_uint128 a < 2^128 /\ gf_of_uint128 (gf_to_uint128 a) = a) /\
  (forall a b, gf_wf a -> gf_wf b -> (gf_eqb a b = true <-> gf_to_uint128 a = gf_to_uint128 b)) /\
  (forall a, gf_wf a -> (gf_is_zero a = true <-> gf_to_uint128 a = 0)).
Proof. exact gf_conversions. Qed.
Print Assumptions C06_gf128_conversions.

Theorem C06_emp_block_conversions :
  (forall x, x < 2^128 -> emp_block_wf (ggm_to_emp_block x) /\ emp_to_ggm_block (ggm_to_emp_block x) = x) /\
  (forall b, emp_block_wf b -> emp_to_ggm_block b < 2^128 /\ ggm_to_emp_block (emp_to_ggm_block b) = b).
Proof. exact emp_conversions. Qed.
Print Assumptions C06_emp_block_conversions.

Example C06_example : ggm_to_emp_block (2^64 * (2^64 - 1) + 5) = EmpBlock 5 (-1) /\
  as_words (gf_of_words 7 3) = [3; 7] /\ gf_to_uint128 (gf_of_words 7 3) = 7 * 2^64 + 3 /\
  gf_is_zero (gf_of_words 7 0) = false /\ gf_is_zero (gf_of_words 0 3) = false /\ gf_is_zero (gf_of_words 0 0) = true.
Proof. vm_compute. repeat split; reflexivity. Qed.
