(** gf128 model: both multiplications compute the field product. *)
From Verif Require Import Base NBits Gf128Spec Gf128Model Gf128Poly.
Local Open Scope N_scope.
#[local] Ltac Zify.zify_post_hook ::= Z.div_mod_to_equations.

Notation u := gf_to_uint128.

Lemma u_lxor a : gf_wf a -> u a = N.lxor (N.shiftl (v1 a) 64) (v0 a).
Proof. intros [H0 H1]. unfold gf_to_uint128. now apply shiftl_add_low. Qed.
Lemma u_lt a : gf_wf a -> u a < 2^128.
Proof. intros [H0 H1]. unfold gf_to_uint128. change (2^128) with (2^64 * 2^64). nia. Qed.
Lemma u_inj a b : gf_wf a -> gf_wf b -> u a = u b -> a = b.
Proof.
  destruct a as [a0 a1], b as [b0 b1]. unfold gf_wf, gf_to_uint128; cbn [v0 v1].
  change (2^64) with 18446744073709551616. intros [H1 H2] [H3 H4] E. f_equal; lia.
Qed.
Lemma of_uint128_u a : gf_wf a -> gf_of_uint128 (u a) = a.
Proof.
  destruct a as [a0 a1]. unfold gf_wf, gf_to_uint128, gf_of_uint128; cbn [v0 v1].
  change (2^64) with 18446744073709551616. intros [H1 H2]. f_equal; lia.
Qed.
Lemma u_of_uint128 x : u (gf_of_uint128 x) = x.
Proof.
  unfold gf_to_uint128, gf_of_uint128; cbn [v0 v1].
  change (2^64) with 18446744073709551616. lia.
Qed.
Lemma wf_of_uint128 x : x < 2^128 -> gf_wf (gf_of_uint128 x).
Proof.
  unfold gf_wf, gf_of_uint128; cbn [v0 v1].
  change (2^64) with 18446744073709551616.
  change (2^128) with 340282366920938463463374607431768211456. lia.
Qed.

(** ** Portable multiplication *)
Lemma shl64_1 j : j < 64 -> shl64 1 j = 2^j.
Proof.
  intro H. unfold shl64. rewrite N.shiftl_1_l. apply N.mod_small. apply N.pow_lt_mono_r; lia.
Qed.

(** One shift step. *)
Definition shift_step (h0 h1 : N) : N * N :=
  if negb (N.land h1 (shl64 1 63) =? 0)
  then (N.lxor (shl64 h0 1) modulus_, N.lor (shl64 h1 1) (N.shiftr h0 63))
  else (shl64 h0 1, N.lor (shl64 h1 1) (N.shiftr h0 63)).

Lemma hi_word h0 h1 : h0 < 2^64 -> h1 < 2^64 ->
  N.lor (shl64 h1 1) (N.shiftr h0 63) = (2 * h1) mod 2^64 + h0 / 2^63.
Proof.
  intros H0 H1. unfold shl64. rewrite N.shiftl_mul_pow2, N.shiftr_div_pow2. change (2^1) with 2.
  rewrite (N.mul_comm h1 2).
  rewrite N.add_nocarry_lxor; [rewrite N.lxor_lor; auto|];
  apply N.bits_inj; intro k; rewrite N.land_spec, N.bits_0;
  (destruct k as [|k]; [
     replace (N.testbit ((2 * h1) mod 2^64) 0) with false; [reflexivity|];
     rewrite N.mod_pow2_bits_low by lia; now rewrite N.testbit_even_0
   | replace (N.testbit (h0 / 2^63) (N.pos k)) with false; [apply andb_false_r|];
     symmetry; apply (proj1 (lt_pow2_testbit (h0 / 2^63) 1)); [|lia];
     change (2^63) with 9223372036854775808; change (2^64) with 18446744073709551616 in *; change (2^1) with 2; lia]).
Qed.

Lemma shift_step_spec h0 h1 : h0 < 2^64 -> h1 < 2^64 ->
  let '(n0, n1) := shift_step h0 h1 in
  n0 < 2^64 /\ n1 < 2^64 /\
  cong (u (Gf n0 n1)) (N.double (u (Gf h0 h1))).
Proof.
  intros H0 H1. unfold shift_step. rewrite shl64_1 by reflexivity. rewrite land_pow2_testbit.
  assert (Hn1 : N.lor (shl64 h1 1) (N.shiftr h0 63) < 2^64).
  { rewrite hi_word by auto.
    change (2^63) with 9223372036854775808; change (2^64) with 18446744073709551616 in *. lia. }
  assert (Hs : shl64 h0 1 < 2^64) by (apply N.mod_lt; discriminate).
  assert (Hbase : u (Gf (shl64 h0 1) (N.lor (shl64 h1 1) (N.shiftr h0 63))) = (2 * u (Gf h0 h1)) mod 2^128).
  { unfold gf_to_uint128; cbn [v0 v1]. rewrite hi_word by auto. unfold shl64.
    rewrite N.shiftl_mul_pow2.
    change (2^63) with 9223372036854775808; change (2^64) with 18446744073709551616 in *;
    change (2^128) with 340282366920938463463374607431768211456; change (2^1) with 2. lia. }
  destruct (N.testbit h1 63) eqn:E.
  - repeat split; auto; [apply lxor_lt; auto; reflexivity|].
    assert (Hhi : 2^63 <= h1).
    { destruct (N.lt_ge_cases h1 (2^63)) as [Hl|]; auto.
      rewrite (proj1 (lt_pow2_testbit h1 63) Hl 63) in E by lia. discriminate. }
    set (n1 := N.lor (shl64 h1 1) (N.shiftr h0 63)) in *.
    rewrite u_lxor by (split; cbn [v0 v1]; auto; apply lxor_lt; auto; reflexivity). cbn [v0 v1].
    replace (N.lxor (N.shiftl n1 64) (N.lxor (shl64 h0 1) modulus_))
      with (N.lxor (u (Gf (shl64 h0 1) n1)) modulus_)
      by (rewrite u_lxor by (split; auto); cbn [v0 v1]; xor_solve).
    rewrite Hbase. exists 1. rewrite pmul_1_l.
    assert (Ed : N.double (u (Gf h0 h1)) = N.lxor (2^128) ((2 * u (Gf h0 h1)) mod 2^128)).
    { rewrite N.double_spec. rewrite <- N.add_nocarry_lxor.
      - unfold gf_to_uint128; cbn [v0 v1].
        change (2^63) with 9223372036854775808 in *; change (2^64) with 18446744073709551616 in *;
        change (2^128) with 340282366920938463463374607431768211456; lia.
      - apply N.bits_inj; intro k. rewrite N.land_spec, N.bits_0.
        destruct (N.eq_dec 128 k) as [<-|Hk].
        + rewrite N.mod_pow2_bits_high by lia. apply andb_false_r.
        + rewrite N.pow2_bits_false by auto. reflexivity. }
    rewrite Ed. change F with (N.lxor (2^128) modulus_). xor_solve.
  - repeat split; auto.
    assert (Hhi : h1 < 2^63).
    { apply lt_pow2_testbit. intros k Hk. destruct (N.eq_dec k 63) as [->|]; auto.
      apply (proj1 (lt_pow2_testbit h1 64) H1). lia. }
    apply cong_eq. rewrite N.double_spec, Hbase. apply N.mod_small.
    unfold gf_to_uint128; cbn [v0 v1].
        change (2^63) with 9223372036854775808 in *; change (2^64) with 18446744073709551616 in *;
        change (2^128) with 340282366920938463463374607431768211456; lia.
Qed.

(** Loop invariant of operator*= after processing [k] bits of [b]. *)
Definition mul_inv (a b : gf128) (k : N) (s : mul_state) : Prop :=
  gf_wf (Gf (sh0 s) (sh1 s)) /\ gf_wf (Gf (rs0 s) (rs1 s)) /\
  cong (u (Gf (sh0 s) (sh1 s))) (N.shiftl (u a) k) /\
  cong (u (Gf (rs0 s) (rs1 s))) (pmul (u a) (u b mod 2^k)).

Lemma mod_pow2_succ x k :
  x mod 2^(k+1) = if N.testbit x k then N.lxor (x mod 2^k) (2^k) else x mod 2^k.
Proof.
  apply N.bits_inj; intro j.
  destruct (N.lt_ge_cases j k) as [H|H].
  - rewrite N.mod_pow2_bits_low by lia.
    destruct (N.testbit x k); rewrite ?N.lxor_spec, N.mod_pow2_bits_low by auto; auto.
    rewrite N.pow2_bits_false by lia. now rewrite xorb_false_r.
  - destruct (N.eq_dec j k) as [->|Hn].
    + rewrite N.mod_pow2_bits_low by lia.
      destruct (N.testbit x k); rewrite ?N.lxor_spec, ?N.mod_pow2_bits_high, ?N.pow2_bits_true by lia; auto.
    + rewrite N.mod_pow2_bits_high by lia.
      destruct (N.testbit x k); rewrite ?N.lxor_spec, ?N.mod_pow2_bits_high, ?N.pow2_bits_false by lia; auto.
Qed.

Lemma u_bit b i j : gf_wf b -> i < 2 -> j < 64 -> N.testbit (word b i) j = N.testbit (u b) (64 * i + j).
Proof.
  intros [H0 H1] Hi Hj. unfold gf_to_uint128. rewrite testbit_add_low by auto.
  assert (i = 0 \/ i = 1) as [->| ->] by lia; cbn [word N.eqb].
  - replace (64 * 0 + j <? 64) with true by lia. f_equal; lia.
  - replace (64 * 1 + j <? 64) with false by lia. f_equal; lia.
Qed.

Lemma mul_body_inv a b i j s : gf_wf a -> gf_wf b -> i < 2 -> j < 64 ->
  mul_inv a b (64 * i + j) s -> mul_inv a b (64 * i + j + 1) (mul_body b i j s).
Proof.
  intros Ha Hb Hi Hj. destruct s as [h0 h1 r0 r1]. unfold mul_inv; cbn [sh0 sh1 rs0 rs1].
  intros ([Hh0 Hh1] & [Hr0 Hr1] & Hsh & Hrs). cbn [v0 v1] in *.
  unfold mul_body. rewrite shl64_1 by auto. rewrite land_pow2_testbit, u_bit by auto.
  pose proof (shift_step_spec h0 h1 Hh0 Hh1) as Hst. unfold shift_step in Hst.
  set (k := 64 * i + j) in *.
  assert (HR : let '(r0', r1') := if N.testbit (u b) k then (N.lxor r0 h0, N.lxor r1 h1) else (r0, r1) in
    gf_wf (Gf r0' r1') /\ cong (u (Gf r0' r1')) (pmul (u a) (u b mod 2^(k+1)))).
  { rewrite mod_pow2_succ. destruct (N.testbit (u b) k).
    - assert (gf_wf (Gf (N.lxor r0 h0) (N.lxor r1 h1))) by (split; cbn; apply lxor_lt; auto).
      split; auto. rewrite u_lxor by auto. cbn [v0 v1].
      replace (N.lxor (N.shiftl (N.lxor r1 h1) 64) (N.lxor r0 h0))
        with (N.lxor (u (Gf r0 r1)) (u (Gf h0 h1))).
      2:{ rewrite !u_lxor by (split; auto). cbn [v0 v1]. rewrite N.shiftl_lxor. xor_solve. }
      rewrite pmul_lxor_r. apply cong_lxor; auto.
      rewrite pmul_comm, pmul_pow2_l. auto.
    - split; [split|]; auto. }
  destruct (if N.testbit (u b) k then (N.lxor r0 h0, N.lxor r1 h1) else (r0, r1)) as [r0' r1'].
  destruct HR as [HR1 HR2].
  assert (Hdbl : cong (N.double (u (Gf h0 h1))) (N.shiftl (u a) (k + 1))).
  { rewrite N.add_1_r, N.shiftl_succ_r, !double_shiftl. now apply cong_shiftl. }
  destruct (negb (N.land h1 (shl64 1 63) =? 0)); cbn [sh0 sh1 rs0 rs1];
  destruct Hst as (H1 & H2 & H3); (split; [split; auto|]); split; auto; split; auto;
  eapply cong_trans; eauto.
Qed.

Lemma mul_inner_inv a b i n j s : gf_wf a -> gf_wf b -> i < 2 -> j + N.of_nat n <= 64 ->
  mul_inv a b (64 * i + j) s -> mul_inv a b (64 * i + j + N.of_nat n) (mul_inner b i n j s).
Proof.
  intros Ha Hb Hi. revert j s; induction n as [|n IH]; intros j s Hj H; cbn [mul_inner].
  - now rewrite N.add_0_r.
  - replace (64 * i + j + N.of_nat (S n)) with (64 * i + (j + 1) + N.of_nat n) by lia.
    apply IH; [lia|]. replace (64 * i + (j + 1)) with (64 * i + j + 1) by lia.
    apply mul_body_inv; auto. lia.
Qed.

Lemma gf_mul_portable_spec a b : gf_wf a -> gf_wf b ->
  gf_wf (gf_mul_portable a b) /\ u (gf_mul_portable a b) = fmul (u a) (u b).
Proof.
  intros Ha Hb.
  assert (H0 : mul_inv a b (64 * 0 + 0) (Ms (v0 a) (v1 a) 0 0)).
  { split; [destruct a; exact Ha|]. split; [split; reflexivity|]. cbn [sh0 sh1 rs0 rs1]. split.
    - rewrite N.shiftl_0_r. destruct a; apply cong_refl.
    - change (2^(64*0+0)) with 1. rewrite N.mod_1_r, pmul_0_r. apply cong_refl. }
  assert (H1 : mul_inv a b (64 * 1 + 0) (mul_inner b 0 64 0 (Ms (v0 a) (v1 a) 0 0))).
  { change (64 * 1 + 0) with (64 * 0 + 0 + N.of_nat 64). apply mul_inner_inv; auto; reflexivity || lia. }
  assert (H2 : mul_inv a b (64 * 1 + 0 + N.of_nat 64)
     (mul_inner b 1 64 0 (mul_inner b 0 64 0 (Ms (v0 a) (v1 a) 0 0)))).
  { apply mul_inner_inv; auto; reflexivity || lia. }
  change (64 * 1 + 0 + N.of_nat 64) with 128 in H2.
  destruct H2 as (_ & Hwf & _ & Hc). unfold gf_mul_portable. split; auto.
  apply fmul_unique; [now apply u_lt|]. apply cong_sym. rewrite (N.mod_small (u b)) in Hc by now apply u_lt.
  exact Hc.
Qed.

(** ** CLMUL multiplication *)
Lemma split64 x : x = N.lxor (N.shiftl (hi64 x) 64) (lo64 x).
Proof.
  unfold hi64, lo64. rewrite <- shiftl_add_low by (apply N.mod_lt; discriminate).
  change (2^64) with 18446744073709551616. lia.
Qed.
Lemma lo64_lt x : lo64 x < 2^64. Proof. apply N.mod_lt; discriminate. Qed.
Lemma hi64_lt x : x < 2^128 -> hi64 x < 2^64.
Proof. unfold hi64. change (2^64) with 18446744073709551616.
  change (2^128) with 340282366920938463463374607431768211456. lia. Qed.

Lemma srli_slli x : N.shiftl x 64 = N.lxor (N.shiftl (mm_srli8 x) 128) (mm_slli8 x).
Proof.
  unfold mm_srli8, mm_slli8. apply N.bits_inj; intro k. rewrite N.lxor_spec.
  destruct (N.lt_ge_cases k 128).
  - rewrite (N.shiftl_spec_low (N.shiftr x 64)) by auto. rewrite N.mod_pow2_bits_low by auto.
    now rewrite xorb_false_l.
  - rewrite !N.shiftl_spec_high' by lia. rewrite N.shiftr_spec', N.mod_pow2_bits_high by auto.
    rewrite xorb_false_r. f_equal; lia.
Qed.

Lemma cong_2_128 x : cong (N.shiftl x 128) (pmul x modulus_).
Proof.
  rewrite <- pmul_pow2_l, pmul_comm. apply cong_pmul; [apply cong_refl|].
  exists 1. reflexivity.
Qed.

Lemma gf_mul_asm_spec a b : gf_wf a -> gf_wf b ->
  gf_wf (gf_mul_asm a b) /\ u (gf_mul_asm a b) = fmul (u a) (u b).
Proof.
  intros Ha Hb. unfold gf_mul_asm. pose proof (u_lt a Ha) as HA. pose proof (u_lt b Hb) as HB.
  set (x := u a) in *. set (y := u b) in *. unfold mm_clmul. fold pmul.
  set (hh := pmul (hi64 x) (hi64 y)). set (ll := pmul (lo64 x) (lo64 y)).
  set (m1 := pmul (hi64 x) (lo64 y)). set (m2 := pmul (lo64 x) (hi64 y)).
  set (mid := mm_xor m1 m2). set (H := mm_xor hh (mm_srli8 mid)). set (L := mm_xor ll (mm_slli8 mid)).
  set (t1 := pmul (hi64 H) (lo64 modulus_)).
  set (H' := mm_xor H (mm_srli8 t1)).
  set (L1 := mm_xor L (mm_slli8 t1)).
  set (t2 := pmul (lo64 H') (lo64 modulus_)). set (L2 := mm_xor L1 t2).
  assert (Bx0 := lo64_lt x). assert (By0 := lo64_lt y).
  assert (Bx1 := hi64_lt x HA). assert (By1 := hi64_lt y HB).
  assert (Bhh : hh < 2^127) by (change 127 with (64+64-1); apply pmul_lt; auto; reflexivity).
  assert (Bll : ll < 2^127) by (change 127 with (64+64-1); apply pmul_lt; auto; reflexivity).
  assert (Bm1 : m1 < 2^127) by (change 127 with (64+64-1); apply pmul_lt; auto; reflexivity).
  assert (Bm2 : m2 < 2^127) by (change 127 with (64+64-1); apply pmul_lt; auto; reflexivity).
  assert (Bmid : mid < 2^127) by (apply lxor_lt; auto).
  assert (BH : H < 2^127).
  { apply lxor_lt; auto. unfold mm_srli8. rewrite N.shiftr_div_pow2.
    apply N.le_lt_trans with mid; auto. apply N.div_le_upper_bound; [discriminate|].
    change (2^64) with 18446744073709551616; lia. }
  assert (BL : L < 2^128).
  { apply lxor_lt; [|apply N.mod_lt; discriminate]. apply N.lt_trans with (2^127); auto. reflexivity. }
  assert (Bt1 : t1 < 2^71).
  { change 71 with (64 + 8 - 1). apply pmul_lt; try reflexivity.
    apply hi64_lt. apply N.lt_trans with (2^127); auto. reflexivity. }
  assert (Bs : mm_srli8 t1 < 2^64).
  { unfold mm_srli8. rewrite N.shiftr_div_pow2. change (2^64) with 18446744073709551616.
    change (2^71) with 2361183241434822606848 in Bt1. lia. }
  assert (Bt2 : t2 < 2^128).
  { apply N.lt_trans with (2^71); [|reflexivity]. change 71 with (64 + 8 - 1). apply pmul_lt; try reflexivity.
    apply lo64_lt. }
  assert (BL2 : L2 < 2^128).
  { apply lxor_lt; auto. apply lxor_lt; auto. apply N.mod_lt; discriminate. }
  split; [now apply wf_of_uint128|]. rewrite u_of_uint128.
  apply fmul_unique; auto.
  (* the 256-bit product *)
  assert (E : pmul x y = N.lxor (N.shiftl H 128) L).
  { rewrite (split64 x), (split64 y) at 1.
    rewrite !pmul_lxor_l, !pmul_lxor_r, !pmul_shiftl_l, !pmul_shiftl_r.
    fold hh ll m1 m2. unfold H, L, mm_xor. rewrite !N.shiftl_lxor, N.shiftl_shiftl.
    change (64 + 64) with 128.
    assert (Em : N.lxor (N.shiftl m1 64) (N.shiftl m2 64) = N.lxor (N.shiftl (mm_srli8 mid) 128) (mm_slli8 mid)).
    { rewrite <- N.shiftl_lxor. apply srli_slli. }
    apply N.lxor_eq. 
    transitivity (N.lxor (N.lxor (N.shiftl m1 64) (N.shiftl m2 64)) (N.lxor (N.shiftl (mm_srli8 mid) 128) (mm_slli8 mid))).
    - xor_solve.
    - rewrite Em. apply N.lxor_nilpotent. }
  rewrite E.
  (* reduction *)
  assert (E1 : cong (N.shiftl H 128) (N.lxor (mm_slli8 t1) (pmul (N.lxor (lo64 H) (mm_srli8 t1)) modulus_))).
  { eapply cong_trans; [apply cong_2_128|].
    rewrite (split64 H) at 1. rewrite pmul_lxor_l, pmul_shiftl_l.
    change modulus_ with (lo64 modulus_) at 1. fold t1. rewrite srli_slli.
    rewrite pmul_lxor_l.
    replace (N.lxor (mm_slli8 t1) (N.lxor (pmul (lo64 H) modulus_) (pmul (mm_srli8 t1) modulus_)))
      with (N.lxor (N.lxor (pmul (mm_srli8 t1) modulus_) (mm_slli8 t1)) (pmul (lo64 H) modulus_)) by xor_solve.
    apply cong_lxor; [|apply cong_refl]. apply cong_lxor; [|apply cong_refl]. apply cong_2_128. }
  replace L2 with (N.lxor (N.lxor (mm_slli8 t1) (pmul (N.lxor (lo64 H) (mm_srli8 t1)) modulus_)) L).
  { apply cong_lxor; [exact E1|apply cong_refl]. }
  assert (Elo : lo64 H' = N.lxor (lo64 H) (mm_srli8 t1)).
  { unfold H', lo64, mm_xor. rewrite mod_pow2_lxor. now rewrite (N.mod_small (mm_srli8 t1)). }
  unfold L2, L1, t2, mm_xor. rewrite Elo. change (lo64 modulus_) with modulus_. xor_solve.
Qed.

Lemma gf_mul_spec asm a b : gf_wf a -> gf_wf b ->
  gf_wf (gf_mul asm a b) /\ u (gf_mul asm a b) = fmul (u a) (u b).
Proof. destruct asm; [apply gf_mul_asm_spec|apply gf_mul_portable_spec]. Qed.

Lemma gf_mul_paths_agree a b : gf_wf a -> gf_wf b -> gf_mul_asm a b = gf_mul_portable a b.
Proof.
  intros Ha Hb. destruct (gf_mul_asm_spec a b Ha Hb), (gf_mul_portable_spec a b Ha Hb).
  apply u_inj; auto. congruence.
Qed.

Lemma gf_add_spec a b : gf_wf a -> gf_wf b -> gf_wf (gf_add a b) /\ u (gf_add a b) = N.lxor (u a) (u b).
Proof.
  intros [H0 H1] [G0 G1].
  assert (gf_wf (gf_add a b)) by (split; cbn; apply lxor_lt; auto).
  split; auto. rewrite !u_lxor by (auto; split; auto). unfold gf_add; cbn [v0 v1].
  rewrite N.shiftl_lxor. xor_solve.
Qed.
