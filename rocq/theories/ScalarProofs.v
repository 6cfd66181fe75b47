(** Proofs about the scalar types. *)
From Coq Require Import QArith Ring_theory.
From Verif Require Import Base BaseFacts NBits Gf128Model Gf128Proofs Gf128Final ScalarModel ScalarSpec.
Local Open Scope N_scope.

Lemma zval_inj m (x y : zmod m) : zval x = zval y -> x = y.
Proof.
  destruct x as [a Ha], y as [b Hb]. unfold zval; cbn [proj1_sig]. intros ->.
  f_equal. apply Eqdep_dec.UIP_dec. apply bool_dec.
Qed.
Lemma zval_lt m (x : zmod m) : zval x < Npos m.
Proof. destruct x as [a Ha]. cbn. now apply N.ltb_lt. Qed.
Lemma zval_of_N m n : zval (zmod_of_N m n) = n mod Npos m.
Proof. reflexivity. Qed.
Lemma zval_of_Z m z : zval (zmod_of_Z m z) = Z.to_N (z mod Zpos m).
Proof.
  unfold zmod_of_Z. rewrite zval_of_N. apply N.mod_small.
  pose proof (Z.mod_pos_bound z (Zpos m) eq_refl). lia.
Qed.
Lemma of_N_zval m (x : zmod m) : zmod_of_N m (zval x) = x.
Proof. apply zval_inj. rewrite zval_of_N. apply N.mod_small, zval_lt. Qed.
Lemma of_N_add m a b : zmod_of_N m (a + b) = zadd (zmod_of_N m a) (zmod_of_N m b).
Proof. apply zval_inj. unfold zadd. rewrite !zval_of_N. apply N.add_mod. discriminate. Qed.

Lemma zmod_ring m :
  ring_theory (zmod_of_N m 0) (zmod_of_N m 1) (@zadd m) (@zmul m) (@zsub m) (@zopp m) eq.
Proof.
  assert (Hm : Npos m <> 0) by discriminate.
  assert (HZ : (Zpos m <> 0)%Z) by discriminate.
  assert (E0 : 0 mod Npos m = 0) by now apply N.mod_0_l.
  constructor.
  - intro x. rewrite <- (of_N_zval m x) at 2. unfold zadd. rewrite zval_of_N, E0. reflexivity.
  - intros. unfold zadd. now rewrite N.add_comm.
  - intros. apply zval_inj. unfold zadd. rewrite !zval_of_N.
    rewrite N.add_mod_idemp_l, N.add_mod_idemp_r by auto. now rewrite N.add_assoc.
  - intro x. rewrite <- (of_N_zval m x) at 2. apply zval_inj. unfold zmul. rewrite !zval_of_N.
    rewrite N.mul_mod_idemp_l by auto. now rewrite N.mul_1_l.
  - intros. unfold zmul. now rewrite N.mul_comm.
  - intros. apply zval_inj. unfold zmul. rewrite !zval_of_N.
    rewrite N.mul_mod_idemp_l, N.mul_mod_idemp_r by auto. now rewrite N.mul_assoc.
  - intros. apply zval_inj. unfold zmul, zadd. rewrite !zval_of_N.
    rewrite N.mul_mod_idemp_l by auto. rewrite <- N.add_mod by auto. now rewrite N.mul_add_distr_r.
  - intros x y. apply zval_inj. unfold zsub, zadd, zopp. rewrite zval_of_N, !zval_of_Z.
    apply N2Z.inj. rewrite N2Z.inj_mod, N2Z.inj_add.
    pose proof (Z.mod_pos_bound (Z.of_N (zval x) - Z.of_N (zval y)) (Zpos m) eq_refl).
    pose proof (Z.mod_pos_bound (- Z.of_N (zval y)) (Zpos m) eq_refl).
    rewrite !Z2N.id by lia. change (Z.of_N (Npos m)) with (Zpos m).
    rewrite Z.add_mod_idemp_r by auto. now rewrite Z.add_opp_r.
  - intros x. apply zval_inj. unfold zadd, zopp. rewrite !zval_of_N, !zval_of_Z.
    apply N2Z.inj. rewrite N2Z.inj_mod, N2Z.inj_add.
    pose proof (Z.mod_pos_bound (- Z.of_N (zval x)) (Zpos m) eq_refl).
    rewrite !Z2N.id by lia. change (Z.of_N (Npos m)) with (Zpos m).
    rewrite Z.add_mod_idemp_r by auto. rewrite Z.add_opp_diag_r, E0. now rewrite Z.mod_0_l.
Qed.

(** ** gf128 *)
Lemma gf_wfb_wf a : gf_wfb a = true <-> gf_wf a.
Proof. unfold gf_wfb, gf_wf. rewrite andb_true_iff, !N.ltb_lt. tauto. Qed.
Lemma gfs_inj (x y : gfs) : proj1_sig x = proj1_sig y -> x = y.
Proof.
  destruct x as [a Ha], y as [b Hb]. cbn [proj1_sig]. intros ->.
  f_equal. apply Eqdep_dec.UIP_dec. apply bool_dec.
Qed.
Lemma gfs_wf (x : gfs) : gf_wf (proj1_sig x).
Proof. destruct x as [a Ha]. now apply gf_wfb_wf. Qed.
Lemma gf_box_ok a : gf_wf a -> proj1_sig (gf_box a) = a.
Proof.
  intro H. unfold gf_box. destruct (bool_dec (gf_wfb a) true) as [e|n]; [reflexivity|].
  destruct n. now apply gf_wfb_wf.
Qed.
Lemma gf_box_val (x : gfs) : gf_box (proj1_sig x) = x.
Proof. apply gfs_inj, gf_box_ok, gfs_wf. Qed.

Lemma wf_opp a : gf_wf a -> gf_wf (gf_opp a). Proof. intros [H1 H2]. split; assumption. Qed.
Lemma wf_sub a b : gf_wf a -> gf_wf b -> gf_wf (gf_sub a b). Proof. exact (wf_add a b). Qed.

Lemma val_add asm (x y : gfs) : proj1_sig (s_add (gf128_scalar asm) x y) = gf_add (proj1_sig x) (proj1_sig y).
Proof. exact (gf_box_ok _ (wf_add _ _ (gfs_wf x) (gfs_wf y))). Qed.
Lemma val_mul asm (x y : gfs) : proj1_sig (s_mul (gf128_scalar asm) x y) = gf_mul asm (proj1_sig x) (proj1_sig y).
Proof. exact (gf_box_ok _ (wf_mul asm _ _ (gfs_wf x) (gfs_wf y))). Qed.
Lemma val_sub asm (x y : gfs) : proj1_sig (s_sub (gf128_scalar asm) x y) = gf_sub (proj1_sig x) (proj1_sig y).
Proof. exact (gf_box_ok _ (wf_sub _ _ (gfs_wf x) (gfs_wf y))). Qed.
Lemma val_opp asm (x : gfs) : proj1_sig (s_opp (gf128_scalar asm) x) = gf_opp (proj1_sig x).
Proof. exact (gf_box_ok _ (wf_opp _ (gfs_wf x))). Qed.
Lemma val_zero asm : proj1_sig (s_zero (gf128_scalar asm) : gfs) = gf_zero.
Proof. exact (gf_box_ok _ wf_zero). Qed.
Lemma val_one asm : proj1_sig (s_one (gf128_scalar asm) : gfs) = gf_one.
Proof. exact (gf_box_ok _ wf_one). Qed.

Lemma gf_add_comm a b : gf_wf a -> gf_wf b -> gf_add a b = gf_add b a.
Proof. intros Ha Hb. pose proof (gf_ring_laws true a b a Ha Hb Ha) as L. decompose [and] L. assumption. Qed.

Lemma gfs_ring asm :
  let S := gf128_scalar asm in
  ring_theory (s_zero S) (s_one S) (s_add S) (s_mul S) (s_sub S) (s_opp S) eq.
Proof.
  intro S. subst S. constructor.
  - intro x. apply gfs_inj. rewrite val_add, val_zero. pose proof (gfs_wf x) as W.
    destruct (gf_ring_laws asm _ _ _ W W W) as (_ & _ & _ & W0 & _ & _ & _ & H & _).
    rewrite gf_add_comm; assumption.
  - intros x y. apply gfs_inj. rewrite !val_add. apply gf_add_comm; apply gfs_wf.
  - intros x y z. apply gfs_inj. rewrite !val_add.
    exact (proj1 (proj2 (proj2 (proj2 (proj2 (proj2 (proj2
      (gf_ring_laws asm _ _ _ (gfs_wf x) (gfs_wf y) (gfs_wf z))))))))).
  - intros x. apply gfs_inj. rewrite val_mul, val_one.
    destruct (gf_ring_laws asm _ _ _ (gfs_wf x) (gfs_wf x) (gfs_wf x)) as
      (_ & _ & _ & _ & _ & _ & _ & _ & _ & _ & _ & H & _). exact H.
  - intros x y. apply gfs_inj. rewrite !val_mul.
    destruct (gf_ring_laws asm _ _ _ (gfs_wf x) (gfs_wf y) (gfs_wf x)) as
      (_ & _ & _ & _ & _ & _ & _ & _ & _ & H & _). exact H.
  - intros x y z. apply gfs_inj. rewrite !val_mul.
    destruct (gf_ring_laws asm _ _ _ (gfs_wf x) (gfs_wf y) (gfs_wf z)) as
      (_ & _ & _ & _ & _ & _ & _ & _ & _ & _ & H & _). exact H.
  - intros x y z. apply gfs_inj. rewrite val_add, !val_mul, val_add.
    pose proof (gf_ring_laws asm _ _ _ (gfs_wf z) (gfs_wf x) (gfs_wf y)) as
      (_ & _ & _ & _ & _ & _ & _ & _ & _ & _ & _ & _ & H & _).
    pose proof (gf_ring_laws asm _ _ _ (wf_add _ _ (gfs_wf x) (gfs_wf y)) (gfs_wf z) (gfs_wf z)) as
      (_ & _ & _ & _ & _ & _ & _ & _ & _ & C1 & _).
    pose proof (gf_ring_laws asm _ _ _ (gfs_wf x) (gfs_wf z) (gfs_wf z)) as
      (_ & _ & _ & _ & _ & _ & _ & _ & _ & C2 & _).
    pose proof (gf_ring_laws asm _ _ _ (gfs_wf y) (gfs_wf z) (gfs_wf z)) as
      (_ & _ & _ & _ & _ & _ & _ & _ & _ & C3 & _).
    exact (eq_trans C1 (eq_trans H (f_equal2 gf_add (eq_sym C2) (eq_sym C3)))).
  - intros x y. apply gfs_inj. rewrite val_add, val_sub, val_opp.
    destruct (gf_ring_laws asm _ _ _ (gfs_wf x) (gfs_wf y) (gfs_wf x)) as
      (_ & _ & _ & _ & _ & _ & _ & _ & _ & _ & _ & _ & _ & _ & _ & _ & H & _). exact H.
  - intros x. apply gfs_inj. rewrite val_add, val_opp, val_zero.
    destruct (gf_ring_laws asm _ _ _ (gfs_wf x) (gfs_wf x) (gfs_wf x)) as
      (_ & _ & _ & _ & _ & _ & _ & _ & H & _). exact H.
Qed.

(** ** bit decomposition *)
Fixpoint nsum (f : N -> N) (n : nat) : N :=
  match n with O => 0 | S n' => nsum f n' + f (N.of_nat n') end.

Lemma mod_pow2_succ_add x k : x mod 2^(k+1) = x mod 2^k + (if N.testbit x k then 2^k else 0).
Proof.
  assert (H2 : 2^k <> 0) by (apply N.pow_nonzero; discriminate).
  rewrite N.pow_add_r, N.pow_1_r, N.mod_mul_r by (auto; discriminate).
  rewrite <- N.shiftr_div_pow2.
  assert (E : N.shiftr x k mod 2 = N.b2n (N.testbit x k)).
  { rewrite <- N.bit0_mod, N.shiftr_spec' . now rewrite N.add_0_l. }
  rewrite E. destruct (N.testbit x k); cbn; lia.
Qed.

Lemma s_sum_app (S : scalar) : ring_theory (s_zero S) (s_one S) (s_add S) (s_mul S) (s_sub S) (s_opp S) eq ->
  forall l1 l2, s_sum S (l1 ++ l2) = s_add S (s_sum S l1) (s_sum S l2).
Proof.
  intros R l1 l2. unfold s_sum. induction l1 as [|a l1 IH]; cbn.
  - symmetry. apply R.
  - rewrite IH. apply R.
Qed.

Lemma zmod_bits m (x : zmod m) (sb : Z -> zmod m) (n : nat) :
  (forall k, (0 <= k < Z.of_nat n)%Z -> N.testbit (zval x) (Z.to_N k) = true -> sb k = zmod_of_N m (2 ^ Z.to_N k)) ->
  fold_right zadd (zmod_of_N m 0)
    (map (fun k => if N.testbit (zval x) (Z.to_N k) then sb k else zmod_of_N m 0) (zrange 0 (Z.of_nat n)))
  = zmod_of_N m (zval x mod 2 ^ N.of_nat n).
Proof.
  pose proof (zmod_ring m) as R.
  assert (App : forall l1 l2 : list (zmod m), fold_right zadd (zmod_of_N m 0) (l1 ++ l2)
    = zadd (fold_right zadd (zmod_of_N m 0) l1) (fold_right zadd (zmod_of_N m 0) l2)).
  { intros l1 l2. induction l1 as [|a l1 IH]; cbn; [symmetry; apply R|rewrite IH; apply R]. }
  induction n as [|n IH]; intro H.
  - cbn. rewrite N.mod_1_r. reflexivity.
  - replace (Z.of_nat (S n)) with (Z.of_nat n + 1)%Z by lia.
    rewrite zrange_snoc, map_app, App by lia. rewrite IH by (intros; apply H; [lia|assumption]).
    replace (N.of_nat (S n)) with (N.of_nat n + 1) by lia.
    rewrite mod_pow2_succ_add, of_N_add. f_equal. cbn [map fold_right].
    replace (Z.to_N (Z.of_nat n)) with (N.of_nat n) by lia.
    rewrite (Radd_comm R), (Radd_0_l R).
    destruct (N.testbit (zval x) (N.of_nat n)) eqn:E; auto.
    rewrite H; [|lia|]; replace (Z.to_N (Z.of_nat n)) with (N.of_nat n) by lia; auto.
Qed.

Lemma gfs_bits asm (x : gfs) (n : nat) : (n <= 128)%nat ->
  let S := gf128_scalar asm in
  s_sum S (map (fun k => if s_bit S x k then s_setbit S k else s_zero S) (zrange 0 (Z.of_nat n)))
  = gf_box (gf_of_uint128 (gf_to_uint128 (proj1_sig x) mod 2 ^ N.of_nat n)).
Proof.
  intros Hn S. subst S. induction n as [|n IH].
  - cbn -[gf_box]. rewrite N.mod_1_r. reflexivity.
  - replace (Z.of_nat (Datatypes.S n)) with (Z.of_nat n + 1)%Z by lia.
    rewrite zrange_snoc, map_app by lia.
    pose proof (gfs_ring asm) as R. cbv zeta in R.
    rewrite (s_sum_app _ R), IH by lia.
    replace (N.of_nat (Datatypes.S n)) with (N.of_nat n + 1) by lia.
    rewrite mod_pow2_succ. unfold s_sum. cbn [map fold_right].
    rewrite (Radd_comm R _ (s_zero _)), (Radd_0_l R).
    set (v := gf_to_uint128 (proj1_sig x)).
    assert (Hlow : forall y, y mod 2 ^ N.of_nat n < 2^128).
    { intro y. apply N.lt_le_trans with (2 ^ N.of_nat n).
      - apply N.mod_lt, N.pow_nonzero; discriminate.
      - apply N.pow_le_mono_r; [discriminate|lia]. }
    assert (Hb : s_bit (gf128_scalar asm) x (Z.of_nat n) = N.testbit v (N.of_nat n)).
    { cbn [s_bit gf128_scalar]. subst v. now replace (Z.to_N (Z.of_nat n)) with (N.of_nat n) by lia. }
    rewrite Hb. destruct (N.testbit v (N.of_nat n)).
    + apply gfs_inj. rewrite val_add. rewrite gf_box_ok by (apply wf_of_uint128, Hlow).
      cbn [s_setbit gf128_scalar]. replace (Z.to_N (Z.of_nat n)) with (N.of_nat n) by lia.
      assert (Hp : 2 ^ N.of_nat n < 2^128) by (apply N.pow_lt_mono_r; [reflexivity|lia]).
      rewrite (N.mod_small _ (2^128)) by exact Hp. rewrite (gf_box_ok (gf_of_uint128 (2 ^ N.of_nat n))) by (apply wf_of_uint128; exact Hp).
      rewrite gf_box_ok by (apply wf_of_uint128, lxor_lt; [apply Hlow|exact Hp]).
      pose proof (wf_of_uint128 _ (Hlow v)) as W1. pose proof (wf_of_uint128 _ Hp) as W2.
      apply u_inj; [apply wf_add; assumption|apply wf_of_uint128, lxor_lt; [apply Hlow|exact Hp]|].
      rewrite (proj2 (gf_add_spec _ _ W1 W2)), !u_of_uint128. reflexivity.
    + rewrite (Radd_comm R), (Radd_0_l R). reflexivity.
Qed.

(** ** the laws *)
Lemma uint_laws bytes : (bytes <= 16)%positive -> scalar_laws (uint_scalar bytes).
Proof.
  intro Hb.
  assert (HM : Npos (uint_modulus bytes) = 2 ^ (8 * Npos bytes)).
  { reflexivity. }
  constructor.
  - apply zmod_ring.
  - cbn [s_size uint_scalar]. lia.
  - intros _ x. exact (of_N_zval _ x).
  - intros _ x. cbn [s_size s_to128 uint_scalar]. pose proof (zval_lt _ x) as H. rewrite HM in H.
    replace (Z.to_N (8 * Zpos bytes)) with (8 * Npos bytes) by lia. exact H.
  - reflexivity.
  - intro x. cbn [s_size uint_scalar]. replace (8 * Zpos bytes)%Z with (Z.of_nat (8 * Pos.to_nat bytes)) by lia.
    etransitivity; [apply (zmod_bits _ x (fun k => zmod_of_N _ (2 ^ Z.to_N k))); auto|].
    rewrite N.mod_small; [apply of_N_zval|].
    pose proof (zval_lt _ x) as H. rewrite HM in H.
    replace (N.of_nat (8 * Pos.to_nat bytes)) with (8 * Npos bytes) by lia. exact H.
Qed.

Lemma gf_laws asm : scalar_laws (gf128_scalar asm).
Proof.
  constructor.
  - apply gfs_ring.
  - cbn. lia.
  - intros _ x. cbn [s_of128 s_to128 gf128_scalar]. pose proof (gfs_wf x) as W.
    rewrite N.mod_small by (apply u_lt; exact W). rewrite of_uint128_u by exact W. apply gf_box_val.
  - intros _ x. exact (u_lt _ (gfs_wf x)).
  - apply gfs_inj. reflexivity.
  - intro x. etransitivity; [exact (gfs_bits asm x 128 (le_n _))|].
    rewrite N.mod_small by (apply (u_lt _ (gfs_wf x))). rewrite of_uint128_u by exact (gfs_wf x).
    apply gf_box_val.
Qed.

Lemma ntl_size_spec p : (1 < p)%positive ->
  (1 <= ntl_size p)%Z /\ (ntl_num_bits p <= 8 * ntl_size p)%Z /\ (0 <= ntl_num_bits p)%Z /\
  (8 * ntl_size p <= ntl_num_bits p + 7)%Z /\
  Npos p <= 2 ^ Z.to_N (8 * ntl_size p).
Proof.
  intro Hp. unfold ntl_size, ntl_num_bits.
  assert (H1 : 1 <= Npos p - 1) by lia.
  assert (H2 : Npos p - 1 < 2 ^ N.size (Npos p - 1)).
  { apply N.size_gt. }
  set (b := N.size (Npos p - 1)) in *.
  assert (Hb : 1 <= b). { destruct (N.eq_dec b 0) as [E|]; [rewrite E in H2; change (2^0) with 1 in H2|]; lia. }
  rewrite Z.quot_div_nonneg by lia.
  assert (D : (Z.of_N b <= 8 * ((Z.of_N b + 7) / 8) <= Z.of_N b + 7)%Z).
  { pose proof (Z.div_mod (Z.of_N b + 7) 8). pose proof (Z.mod_pos_bound (Z.of_N b + 7) 8). lia. }
  split; [|split; [|split; [|split]]]; try lia.
  apply N.le_trans with (2 ^ b); [lia|]. apply N.pow_le_mono_r; [discriminate|lia].
Qed.

Lemma split_lor (x : N) : N.lor (N.shiftl (x / 2^64 mod 2^64) 64) (x mod 2^64) = x mod 2^128.
Proof.
  apply N.bits_inj; intro k. rewrite N.lor_spec.
  destruct (N.ltb_spec k 64).
  - rewrite N.shiftl_spec_low, orb_false_l by auto. rewrite !N.mod_pow2_bits_low by lia. reflexivity.
  - rewrite N.shiftl_spec_high' by auto. rewrite (N.mod_pow2_bits_high x 64) by auto. rewrite orb_false_r.
    rewrite <- N.shiftr_div_pow2. destruct (N.ltb_spec k 128).
    + rewrite !N.mod_pow2_bits_low by lia. rewrite N.shiftr_spec'. f_equal; lia.
    + rewrite !N.mod_pow2_bits_high by lia. reflexivity.
Qed.
Lemma split_add (x : N) : N.shiftr x 64 mod 2^64 * 2^64 + x mod 2^64 = x mod 2^128.
Proof.
  rewrite N.shiftr_div_pow2. change (2^128) with (2^64 * 2^64).
  rewrite (N.mod_mul_r x) by discriminate. lia.
Qed.

Lemma ZZp_laws p : (1 < p)%positive -> scalar_laws (ZZp_scalar p).
Proof.
  intro Hp. destruct (ntl_size_spec p Hp) as (S1 & S2 & S3 & S4 & S5).
  assert (Hle : (ntl_size p <= 16)%Z -> Npos p <= 2^128).
  { intro H. apply N.le_trans with (1:=S5). apply N.pow_le_mono_r; [discriminate|lia]. }
  constructor.
  - apply zmod_ring.
  - exact S1.
  - cbn [s_size s_of128 s_to128 ZZp_scalar]. intros H x. cbv zeta. rewrite split_add, split_lor.
    pose proof (zval_lt _ x). specialize (Hle H).
    rewrite !(N.mod_small _ (2^128)) by (rewrite ?N.mod_small; lia). apply of_N_zval.
  - cbn [s_size s_of128 s_to128 ZZp_scalar]. intros H x. cbv zeta. rewrite split_add.
    pose proof (zval_lt _ x). specialize (Hle H). rewrite N.mod_small by lia. lia.
  - reflexivity.
  - intro x. cbn [s_size ZZp_scalar].
    replace (8 * ntl_size p)%Z with (Z.of_nat (Z.to_nat (8 * ntl_size p))) by lia.
    etransitivity; [apply (zmod_bits _ x (fun k => zmod_of_N _ (N.shiftl 1 (Z.to_N k))))|].
    + intros. now rewrite N.shiftl_1_l.
    + rewrite N.mod_small; [apply of_N_zval|]. pose proof (zval_lt _ x).
      replace (N.of_nat (Z.to_nat (8 * ntl_size p))) with (Z.to_N (8 * ntl_size p)) by lia. lia.
Qed.

Lemma zzp_laws p : (1 < p)%positive -> (p <= 2^60)%positive -> scalar_laws (zzp_scalar p).
Proof.
  intros Hp Hs. destruct (ntl_size_spec p Hp) as (S1 & S2 & S3 & S4 & S5).
  assert (Hle : Npos p <= 2^60) by lia.
  constructor.
  - apply zmod_ring.
  - exact S1.
  - cbn [s_size s_of128 s_to128 zzp_scalar]. intros H x. pose proof (zval_lt _ x).
    rewrite (N.mod_small _ (Npos p)) by auto. rewrite N.mod_small; [apply of_N_zval|].
    change (2^60) with 1152921504606846976 in Hle. change (2^64) with 18446744073709551616. lia.
  - cbn [s_size s_of128 s_to128 zzp_scalar]. intros H x.
    pose proof (zval_lt _ x). lia.
  - apply zval_inj. cbn [s_of128 s_zero zzp_scalar]. rewrite !zval_of_N, !N.mod_0_l by discriminate. reflexivity.
  - intro x. cbn [s_size zzp_scalar].
    replace (8 * ntl_size p)%Z with (Z.of_nat (Z.to_nat (8 * ntl_size p))) by lia.
    etransitivity; [apply (zmod_bits _ x (fun k => zmod_of_Z p (wrap64 (2 ^ k))))|].
    + intros k Hk Hb.
      assert (Hk60 : (k < 60)%Z).
      { destruct (Z_lt_le_dec k 60); auto. exfalso.
        pose proof (zval_lt _ x). assert (zval x < 2^60) as Hx by lia.
        rewrite (proj1 (lt_pow2_testbit _ _) Hx) in Hb by lia. discriminate. }
      assert (Hw : wrap64 (2 ^ k) = (2 ^ k)%Z).
      { assert (0 <= 2 ^ k < 2^63)%Z.
        { split; [apply Z.pow_nonneg; lia|]. apply Z.pow_lt_mono_r; lia. }
        unfold wrap64. change (2^63)%Z with 9223372036854775808%Z in *. change (2^64)%Z with 18446744073709551616%Z.
        rewrite Z.mod_small by lia. lia. }
      rewrite Hw. apply zval_inj. rewrite zval_of_Z, zval_of_N. apply N2Z.inj.
      rewrite N2Z.inj_mod, N2Z.inj_pow, !Z2N.id.
      * reflexivity.
      * lia.
      * apply Z.mod_pos_bound. reflexivity.
    + rewrite N.mod_small; [apply of_N_zval|]. pose proof (zval_lt _ x).
      replace (N.of_nat (Z.to_nat (8 * ntl_size p))) with (Z.to_N (8 * ntl_size p)) by lia. lia.
Qed.

Theorem scalar_of_laws t : stype_ok t -> scalar_laws (scalar_of t).
Proof.
  destruct t; cbn [stype_ok scalar_of]; intro H; try (apply uint_laws; lia).
  - apply gf_laws.
  - now apply ZZp_laws.
  - now apply zzp_laws.
Qed.
