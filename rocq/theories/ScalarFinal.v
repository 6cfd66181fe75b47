(** CanBeHashedInto, NTLNumBits, promotion and conversions. *)
From Coq Require Import QArith Qabs Ring_theory.
From Verif Require Import Base BaseFacts NBits Gf128Model Gf128Proofs Gf128Final ScalarModel ScalarSpec ScalarProofs.
Local Open Scope N_scope.

Lemma count_0 f : count_below 0 f = 0. Proof. reflexivity. Qed.
Lemma count_succ n f : count_below (N.succ n) f = (if f n then 1 else 0) + count_below n f.
Proof. unfold count_below. now rewrite N.peano_rect_succ. Qed.
Lemma count_ext n f g : (forall v, v < n -> f v = g v) -> count_below n f = count_below n g.
Proof.
  induction n as [|n IH] using N.peano_ind; intro H; [reflexivity|].
  rewrite !count_succ, H by lia. rewrite IH; [reflexivity|]. intros; apply H; lia.
Qed.
Lemma count_le n f : count_below n f <= n.
Proof.
  induction n as [|n IH] using N.peano_ind; [now rewrite count_0|].
  rewrite count_succ. destruct (f n); lia.
Qed.
Lemma count_add n m f : count_below (n + m) f = count_below n f + count_below m (fun v => f (n + v)).
Proof.
  induction m as [|m IH] using N.peano_ind.
  - rewrite N.add_0_r, count_0. lia.
  - rewrite N.add_succ_r, !count_succ, IH. lia.
Qed.
Lemma count_mono n m f : n <= m -> count_below n f <= count_below m f.
Proof. intro H. replace m with (n + (m - n)) by lia. rewrite count_add. lia. Qed.

Lemma count_mod p q r f : 0 < p -> r <= p ->
  count_below (q * p + r) (fun v => f (v mod p)) = q * count_below p f + count_below r f.
Proof.
  intros Hp Hr.
  assert (S : forall k, k <= p -> forall j, count_below k (fun v => f ((j * p + v) mod p)) = count_below k f).
  { intros k Hk j. apply count_ext. intros v Hv. rewrite N.add_comm, N.mod_add by lia.
    rewrite N.mod_small by lia. reflexivity. }
  assert (Q : count_below (q * p) (fun v => f (v mod p)) = q * count_below p f).
  { induction q as [|q IH] using N.peano_ind; [reflexivity|].
    replace (N.succ q * p) with (q * p + p) by lia. rewrite count_add, IH, S by lia. lia. }
  rewrite count_add, Q, S by lia. reflexivity.
Qed.

(** |Pr[hash in f] - Pr[uniform in f]| <= (H mod p) / H *)
Lemma dist_bound H p (f : N -> bool) : 0 < p -> 0 < H ->
  (Z.abs (Z.of_N (count_below H (fun v => f (v mod p)%N)) * Z.of_N p - Z.of_N (count_below p f) * Z.of_N H)
   <= Z.of_N (H mod p)%N * Z.of_N p)%Z.
Proof.
  intros Hp HH. pose proof (N.div_mod H p) as E. pose proof (N.mod_lt H p) as L.
  assert (Hne : p <> 0) by lia. specialize (E Hne). specialize (L Hne).
  set (q := H / p) in *. set (r := H mod p) in *.
  assert (EH : H = q * p + r) by lia. rewrite EH at 1. rewrite count_mod by lia.
  pose proof (count_le r f). pose proof (count_le p f).
  set (cr := count_below r f) in *. set (cp := count_below p f) in *.
  rewrite EH. clear - H0 H1 L. rewrite !N2Z.inj_add, !N2Z.inj_mul.
  assert (0 <= Z.of_N cr * Z.of_N p <= Z.of_N r * Z.of_N p)%Z by nia.
  assert (0 <= Z.of_N cp * Z.of_N r <= Z.of_N r * Z.of_N p)%Z by nia.
  replace ((Z.of_N q * Z.of_N cp + Z.of_N cr) * Z.of_N p - Z.of_N cp * (Z.of_N q * Z.of_N p + Z.of_N r))%Z
    with (Z.of_N cr * Z.of_N p - Z.of_N cp * Z.of_N r)%Z by ring. lia.
Qed.

Lemma frac_dist H p (f : N -> bool) (K : Q) : 0 < p -> 0 < H -> (0 < K)%Q ->
  (inject_Z (Z.of_N (H mod p)%N) * K < inject_Z (Z.of_N H))%Q ->
  (Qabs (fraction H (fun v => f (v mod p)%N) - fraction p f) < 1 / K)%Q.
Proof.
  intros Hp HH HK Hr. pose proof (dist_bound H p f Hp HH) as D. unfold fraction.
  set (a := Z.of_N (count_below H (fun v => f (v mod p)))) in *. set (b := Z.of_N (count_below p f)) in *.
  assert (P1 : (0 < inject_Z (Z.of_N p))%Q) by (change 0%Q with (inject_Z 0); rewrite <- Zlt_Qlt; lia).
  assert (P2 : (0 < inject_Z (Z.of_N H))%Q) by (change 0%Q with (inject_Z 0); rewrite <- Zlt_Qlt; lia).
  apply Qlt_shift_div_l; auto.
  assert (E : (inject_Z a / inject_Z (Z.of_N H) - inject_Z b / inject_Z (Z.of_N p) ==
              inject_Z (a * Z.of_N p - b * Z.of_N H) / (inject_Z (Z.of_N H) * inject_Z (Z.of_N p)))%Q).
  { unfold Z.sub. rewrite inject_Z_plus, inject_Z_opp, !inject_Z_mult. field. split; apply Qnot_eq_sym, Qlt_not_eq; auto. }
  rewrite E. clear E.
  assert (PP : (0 < inject_Z (Z.of_N H) * inject_Z (Z.of_N p))%Q) by now apply Qmult_lt_0_compat.
  unfold Qdiv. rewrite Qabs_Qmult, (Qabs_pos (/ _)) by (apply Qlt_le_weak, Qinv_lt_0_compat; exact PP).
  assert (EA : Qabs (inject_Z (a * Z.of_N p - b * Z.of_N H)) == inject_Z (Z.abs (a * Z.of_N p - b * Z.of_N H))) by reflexivity.
  rewrite EA. clear EA.
  setoid_replace (inject_Z (Z.abs (a * Z.of_N p - b * Z.of_N H)) * / (inject_Z (Z.of_N H) * inject_Z (Z.of_N p)) * K)%Q
    with (inject_Z (Z.abs (a * Z.of_N p - b * Z.of_N H)) * K / (inject_Z (Z.of_N H) * inject_Z (Z.of_N p)))%Q
    by (unfold Qdiv; ring).
  apply Qlt_shift_div_r; auto. rewrite Qmult_1_l.
  apply Qle_lt_trans with (inject_Z (Z.of_N (H mod p)%N) * K * inject_Z (Z.of_N p))%Q.
  - setoid_replace (inject_Z (Z.of_N (H mod p)%N) * K * inject_Z (Z.of_N p))%Q
      with (inject_Z (Z.of_N (H mod p)%N * Z.of_N p) * K)%Q by (rewrite inject_Z_mult; ring).
    apply Qmult_le_compat_r; [|apply Qlt_le_weak; auto]. now rewrite <- Zle_Qle.
  - apply Qmult_lt_compat_r; auto.
Qed.

(** ** conversions *)
Lemma order_pos t : 0 < order t.
Proof. destruct t; reflexivity. Qed.

Lemma ZZp_of128 p v : v < 2^128 -> s_of128 (ZZp_scalar p) v = zmod_of_N p v.
Proof. intro H. cbn [s_of128 ZZp_scalar]. cbv zeta. rewrite split_lor, N.mod_small by exact H. reflexivity. Qed.
Lemma zzp_of128 p v : (p <= 2^60)%positive -> s_of128 (zzp_scalar p) v = zmod_of_N p v.
Proof.
  intro H. cbn [s_of128 zzp_scalar]. rewrite (N.mod_small _ (2^64)).
  - apply zval_inj. rewrite !zval_of_N. apply N.mod_mod. discriminate.
  - pose proof (N.mod_lt v (Npos p)). assert (Npos p <= 2^60) by lia.
    change (2^60) with 1152921504606846976 in *. change (2^64) with 18446744073709551616. lia.
Qed.
Lemma of_N_mod p v : zmod_of_N p (v mod Npos p) = zmod_of_N p v.
Proof. apply zval_inj. rewrite !zval_of_N. apply N.mod_mod. discriminate. Qed.
Lemma mod_lt_128 v p : v < 2^128 -> v mod Npos p < 2^128.
Proof. intro H. apply N.le_lt_trans with v; [apply N.mod_le; discriminate|exact H]. Qed.

Lemma of128_mod t v : stype_ok t -> v < 2^128 ->
  s_of128 (scalar_of t) (v mod order t) = s_of128 (scalar_of t) v.
Proof.
  destruct t; intros Ht Hv; cbn [scalar_of order]; try (exact (of_N_mod _ v)).
  - cbn [s_of128 gf128_scalar]. now rewrite N.mod_mod by discriminate.
  - rewrite !ZZp_of128 by (try apply mod_lt_128; exact Hv). apply of_N_mod.
  - rewrite !zzp_of128 by apply Ht. apply of_N_mod.
Qed.

Lemma order_le_128 t : stype_ok t -> (s_size (scalar_of t) <= 16)%Z -> order t <= 2^128.
Proof.
  destruct t; cbn [scalar_of order]; intros Ht Hs; try (intro; discriminate).
  - cbn [s_size ZZp_scalar] in Hs. destruct (ntl_size_spec p Ht) as (_ & _ & _ & _ & S5).
    apply N.le_trans with (1:=S5). apply N.pow_le_mono_r; [discriminate|lia].
  - destruct Ht. apply N.le_trans with (2^60); [lia|]. intro; discriminate.
Qed.

Lemma elements t : stype_ok t -> (s_size (scalar_of t) <= 16)%Z ->
  (forall x, s_to128 (scalar_of t) x < order t) /\
  (forall x, s_of128 (scalar_of t) (s_to128 (scalar_of t) x) = x) /\
  (forall v, v < order t -> s_to128 (scalar_of t) (s_of128 (scalar_of t) v) = v).
Proof.
  intros Ht Hs. split; [|split].
  - destruct t; cbn [scalar_of order].
    1-5: intro x; exact (zval_lt _ x).
    + intro x. exact (u_lt _ (gfs_wf x)).
    + intro x. cbn [s_to128 ZZp_scalar]. cbv zeta. rewrite split_add.
      apply N.le_lt_trans with (zval x); [apply N.mod_le; discriminate|apply zval_lt].
    + intro x. exact (zval_lt _ x).
  - apply scalar_of_laws; assumption.
  - pose proof (order_le_128 t Ht Hs) as HO. intros v Hv.
    destruct t; cbn [scalar_of order] in *.
    1-5: exact (N.mod_small _ _ Hv).
    + cbn [s_to128 s_of128 gf128_scalar]. rewrite N.mod_small by exact Hv.
      rewrite gf_box_ok by (apply wf_of_uint128; exact Hv). apply u_of_uint128.
    + rewrite ZZp_of128 by lia. cbn [s_to128 ZZp_scalar]. cbv zeta. rewrite split_add, zval_of_N.
      rewrite !N.mod_small; rewrite ?N.mod_small; auto; lia.
    + rewrite zzp_of128 by apply Ht. exact (N.mod_small _ _ Hv).
Qed.

Lemma scalar_facts t : stype_ok t ->
  let S := scalar_of t in
  ring_theory (s_zero S) (s_one S) (s_add S) (s_mul S) (s_sub S) (s_opp S) eq /\
  (1 <= s_size S)%Z /\
  (forall v, v < 2^128 -> s_of128 S (v mod order t) = s_of128 S v) /\
  ((s_size S <= 16)%Z ->
     order t <= 2 ^ Z.to_N (8 * s_size S) /\
     (forall x, s_to128 S x < order t) /\
     (forall x, s_of128 S (s_to128 S x) = x) /\
     (forall v, v < order t -> s_to128 S (s_of128 S v) = v)).
Proof.
  intros Ht S. subst S. pose proof (scalar_of_laws t Ht) as L.
  split; [apply L|]. split; [apply L|]. split; [intros; now apply of128_mod|].
  intros Hs. split; [|apply elements; assumption].
  destruct t; cbn [scalar_of order]; try (intro; discriminate).
  - apply (ntl_size_spec p Ht).
  - apply (ntl_size_spec p (proj1 Ht)).
Qed.

(** ** CanBeHashedInto *)
Lemma rem_eq M p : 0 < M -> 0 < p -> ((M - 1) mod p + 1) mod p = M mod p.
Proof.
  intros HM Hp. rewrite N.add_mod_idemp_l by lia. f_equal. lia.
Qed.

Lemma can_hash_ntl_exact p K h : 0 < p -> (0 <= h <= 128)%Z ->
  can_hash_ntl p (Some K) h = true <->
  (inject_Z (Z.of_N ((if (h <? 128)%Z then 2 ^ Z.to_N (128 - h) else 2^128) mod p)) * K < inject_Z (2^h))%Q.
Proof.
  intros Hp Hh. unfold can_hash_ntl.
  set (mv := if (h <? 128)%Z then (2^128 - 1) / 2 ^ Z.to_N h else 2^128 - 1).
  set (M := if (h <? 128)%Z then 2 ^ Z.to_N (128 - h) else 2^128).
  assert (Hmv : mv = M - 1 /\ 0 < M).
  { subst mv M. destruct (Z.ltb_spec h 128).
    - set (k := Z.to_N (128 - h)). assert (E : Z.to_N h = 128 - k) by lia. assert (Hk : k <= 128) by lia.
      rewrite E. assert (P : 2^128 = 2^k * 2^(128 - k)) by (rewrite <- N.pow_add_r; f_equal; lia).
      assert (P1 : 0 < 2^k) by (apply N.neq_0_lt_0, N.pow_nonzero; discriminate).
      assert (P2 : 0 < 2^(128 - k)) by (apply N.neq_0_lt_0, N.pow_nonzero; discriminate).
      rewrite P. split; auto. symmetry. clear P. generalize dependent (2^k). generalize dependent (2^(128-k)). intros b Hb a Ha.
      apply N.div_unique with (b - 1); [lia|]. clear E Hk. set (a' := a - 1). replace a with (a' + 1) by lia.
      rewrite N.mul_add_distr_r, N.mul_1_l, (N.mul_comm b). clearbody a'. lia.
    - split; reflexivity. }
  destruct Hmv as [-> HM]. cbv zeta. rewrite (rem_eq M p HM Hp).
  rewrite negb_true_iff, <- not_true_iff_false, Qle_bool_iff. split.
  - intro H. now apply Qnot_le_lt.
  - intros H H'. now apply Qlt_not_le in H.
Qed.

Lemma modulus_low_high p : N.shiftr (Npos p) 64 mod 2^64 * 2^64 + Npos p mod 2^64 = Npos p mod 2^128.
Proof. apply split_add. Qed.

Lemma mod_as_Z (h : Z) : (0 <= h)%Z -> Z.of_N (2 ^ Z.to_N h) = (2 ^ h)%Z.
Proof. intro H. rewrite N2Z.inj_pow, Z2N.id by lia. reflexivity. Qed.

(** General soundness: if 2^h mod order is small enough. *)
Lemma hash_dist t h K B : stype_ok t -> (0 <= h <= 128)%Z -> (0 < K)%Q ->
  (inject_Z (Z.of_N (2 ^ Z.to_N h mod order t)) * K < inject_Z (2^h))%Q ->
  (Qabs (hash_prob t h B - uniform_prob t B) < 1 / K)%Q.
Proof.
  intros Ht Hh HK Hr. unfold hash_prob, uniform_prob.
  set (f := fun v => B (s_of128 (scalar_of t) v)).
  assert (E : fraction (2 ^ Z.to_N h) f = fraction (2 ^ Z.to_N h) (fun v => f (v mod order t)%N)).
  { unfold fraction. rewrite (count_ext _ f (fun v => f (v mod order t))); [reflexivity|].
    intros v Hv. subst f. cbn beta. rewrite of128_mod; auto.
    apply N.lt_le_trans with (1:=Hv). apply N.pow_le_mono_r; [discriminate|lia]. }
  rewrite E. apply frac_dist; auto.
  - apply order_pos.
  - apply N.neq_0_lt_0, N.pow_nonzero. discriminate.
  - rewrite mod_as_Z by lia. exact Hr.
Qed.

Lemma inject_pow_pos h : (0 <= h)%Z -> (0 < inject_Z (2^h))%Q.
Proof. intro H. change 0%Q with (inject_Z 0). rewrite <- Zlt_Qlt. apply Z.pow_pos_nonneg; lia. Qed.

Lemma divides_mod_0 a b : (a <= b) -> 2^b mod 2^a = 0.
Proof.
  intro H. replace b with ((b - a) + a) by lia. rewrite N.pow_add_r. apply N.mod_mul.
  apply N.pow_nonzero; discriminate.
Qed.

Lemma can_hash_128_sound t K B : stype_ok t -> (s_size (scalar_of t) <= 16)%Z -> (0 < K)%Q ->
  s_can_hash (scalar_of t) (Some K) 128 = true ->
  (Qabs (hash_prob t 128 B - uniform_prob t B) < 1 / K)%Q.
Proof.
  intros Ht Hs HK Hc. apply hash_dist; auto; [lia|].
  assert (Z0 : (inject_Z 0 * K < inject_Z (2^128))%Q).
  { rewrite Qmult_0_l. apply inject_pow_pos. lia. }
  destruct t; cbn [scalar_of order] in *; try exact Z0.
  - cbn [s_can_hash ZZp_scalar] in Hc. cbv zeta in Hc. rewrite modulus_low_high in Hc.
    pose proof (order_le_128 (ZZ_p p) Ht Hs) as HO. cbn [order] in HO.
    destruct (N.eq_dec (Npos p) (2^128)) as [E|E].
    + rewrite E. exact Z0.
    + rewrite (N.mod_small (Npos p)) in Hc by lia. change (Npos p =? 0) with false in Hc.
      apply can_hash_ntl_exact in Hc; [exact Hc|reflexivity|lia].
  - cbn [s_can_hash zzp_scalar] in Hc. apply can_hash_ntl_exact in Hc; [exact Hc|reflexivity|lia].
Qed.

(** Integers and gf128: exact for every hash width CanBeHashedInto accepts. *)
Lemma can_hash_uint_sound t s h B :
  match t with ZZ_p _ | zz_p _ => False | _ => True end -> (h <= 128)%Z ->
  s_can_hash (scalar_of t) s h = true ->
  (hash_prob t h B == uniform_prob t B)%Q.
Proof.
  intros Ht Hh Hc.
  assert (Hok : stype_ok t) by (destruct t; auto; contradiction).
  assert (E : (0 <= h)%Z /\ 2 ^ Z.to_N h mod order t = 0).
  { destruct t; try contradiction; cbn [scalar_of s_can_hash uint_scalar gf128_scalar] in Hc;
      apply Z.leb_le in Hc; (split; [lia|]); apply divides_mod_0; lia. }
  destruct E as [H0 E]. unfold hash_prob, uniform_prob, fraction.
  set (f := fun v => B (s_of128 (scalar_of t) v)).
  assert (C : count_below (2 ^ Z.to_N h) f = 2 ^ Z.to_N h / order t * count_below (order t) f).
  { pose proof (order_pos t) as Hp. pose proof (N.div_mod (2 ^ Z.to_N h) (order t)) as D.
    rewrite E in D. specialize (D (N.neq_sym _ _ (N.lt_neq _ _ Hp))).
    rewrite (count_ext _ f (fun v => f (v mod order t))).
    - rewrite D at 1. rewrite (N.mul_comm (order t)), count_mod by lia. rewrite count_0. lia.
    - intros v Hv. subst f. cbn beta. rewrite of128_mod; auto.
      apply N.lt_le_trans with (1:=Hv). apply N.pow_le_mono_r; [discriminate|lia]. }
  rewrite C. pose proof (N.div_mod (2 ^ Z.to_N h) (order t)) as D. pose proof (order_pos t) as Hp.
  rewrite E, N.add_0_r in D. specialize (D (N.neq_sym _ _ (N.lt_neq _ _ Hp))).
  assert (HP : 0 < 2 ^ Z.to_N h) by (apply N.neq_0_lt_0, N.pow_nonzero; discriminate).
  set (q := 2 ^ Z.to_N h / order t) in *. rewrite D in HP |- *.
  rewrite !N2Z.inj_mul, !inject_Z_mult.
  assert (Hq : (0 < inject_Z (Z.of_N q))%Q).
  { change 0%Q with (inject_Z 0). rewrite <- Zlt_Qlt. destruct q; [rewrite N.mul_0_r in HP|]; lia. }
  assert (Ho : (0 < inject_Z (Z.of_N (order t)))%Q) by (change 0%Q with (inject_Z 0); rewrite <- Zlt_Qlt; lia).
  field. split; apply Qnot_eq_sym, Qlt_not_eq; auto.
Qed.

(** 64-bit hashes: 2^(128-64) = 2^64, so the formula is right. *)
Lemma can_hash_64_sound t K B : stype_ok t -> s_size (scalar_of t) = 8%Z -> (0 < K)%Q ->
  s_can_hash (scalar_of t) (Some K) 64 = true ->
  (Qabs (hash_prob t 64 B - uniform_prob t B) < 1 / K)%Q.
Proof.
  intros Ht Hs HK Hc. apply hash_dist; auto; [lia|].
  assert (Z0 : (inject_Z 0 * K < inject_Z (2^64))%Q).
  { rewrite Qmult_0_l. apply inject_pow_pos. lia. }
  destruct t; cbn [scalar_of] in *; try discriminate Hs.
  - exact Z0.
  - cbn [s_can_hash ZZp_scalar s_size] in Hc, Hs. cbv zeta in Hc. rewrite modulus_low_high in Hc.
    destruct (ntl_size_spec p Ht) as (_ & _ & _ & _ & S5). rewrite Hs in S5.
    change (Z.to_N (8 * 8)) with 64 in S5.
    rewrite (N.mod_small (Npos p)) in Hc
      by (apply N.le_lt_trans with (1:=S5); apply N.pow_lt_mono_r; reflexivity).
    change (Npos p =? 0) with false in Hc.
    apply can_hash_ntl_exact in Hc; [exact Hc|reflexivity|lia].
  - cbn [s_can_hash zzp_scalar] in Hc. apply can_hash_ntl_exact in Hc; [exact Hc|reflexivity|lia].
Qed.

(** The check as used for packed correlated OT (scalar_vector_gilboa_product.h:83-92)
    accepts every modulus of 89 to 120 bits for any 2^s <= 2^63. *)
Lemma can_hash_packed_accepts p K : (89 <= ntl_num_bits p <= 120)%Z -> (K <= inject_Z (2^63))%Q -> (0 < K)%Q ->
  s_can_hash (scalar_of (ZZ_p p)) (Some K) (8 * s_size (scalar_of (ZZ_p p))) = true.
Proof.
  intros Hb HK HK0. cbn [scalar_of s_can_hash s_size ZZp_scalar]. cbv zeta. rewrite modulus_low_high.
  assert (Hp1 : (1 < p)%positive).
  { destruct p; try lia. exfalso. change (ntl_num_bits 1) with 0%Z in Hb. lia. }
  destruct (ntl_size_spec p Hp1) as (S1 & S2 & S3 & S4 & S5).
  assert (HL : Npos p < 2^128).
  { apply N.le_lt_trans with (1:=S5). apply N.pow_lt_mono_r; [reflexivity|lia]. }
  rewrite (N.mod_small (Npos p)) by exact HL. change (Npos p =? 0) with false.
  apply can_hash_ntl_exact; [reflexivity|lia|].
  assert (E : (8 * ntl_size p <? 128)%Z = true) by (apply Z.ltb_lt; lia). rewrite E.
  set (h := (8 * ntl_size p)%Z) in *.
  assert (Hh : (96 <= h <= 120)%Z) by lia.
  apply Qle_lt_trans with (inject_Z (2^32) * inject_Z (2^63))%Q.
  - apply Qle_trans with (inject_Z (2^32) * K)%Q.
    + apply Qmult_le_compat_r; [|apply Qlt_le_weak; auto]. rewrite <- Zle_Qle.
      apply Z.le_trans with (Z.of_N (2 ^ Z.to_N (128 - h))).
      * apply N2Z.inj_le. apply N.mod_le. discriminate.
      * rewrite mod_as_Z by lia. apply Z.pow_le_mono_r; lia.
    + rewrite (Qmult_comm _ K), (Qmult_comm _ (inject_Z (2^63))). apply Qmult_le_compat_r; [exact HK|].
      apply Qlt_le_weak, inject_pow_pos. lia.
  - rewrite <- inject_Z_mult, <- Zlt_Qlt. rewrite <- Z.pow_add_r by lia. apply Z.pow_lt_mono_r; lia.
Qed.

Lemma count_ltb n k : count_below n (fun v => v <? k) = N.min n k.
Proof.
  induction n as [|n IH] using N.peano_ind; [rewrite count_0; lia|].
  rewrite count_succ, IH. destruct (N.ltb_spec n k); lia.
Qed.
Lemma count_false n f : (forall v, v < n -> f v = false) -> count_below n f = 0.
Proof.
  intro H. rewrite (count_ext _ f (fun v => v <? 0)).
  - rewrite count_ltb. lia.
  - intros v Hv. rewrite H by auto. symmetry. apply N.ltb_ge. lia.
Qed.

(** 3*2^102 is accepted with s = 40 although 1/2 of the hash values, instead of
    1/3, fall into the lower third of the residues. *)
Lemma can_hash_packed_unsound :
  let t := ZZ_p (3 * 2^102) in
  let B := fun x : zmod (3 * 2^102) => zval x <? 2^102 in
  stype_ok t /\ s_size (scalar_of t) = 13%Z /\
  s_can_hash (scalar_of t) (Some (inject_Z (2^40))) (8 * s_size (scalar_of t)) = true /\
  (hash_prob t (8 * 13) B - uniform_prob t B == 1 # 6)%Q.
Proof.
  intros t B.
  assert (Hsz : s_size (scalar_of t) = 13%Z) by (vm_compute; reflexivity).
  split; [reflexivity|]. split; [exact Hsz|]. split; [rewrite Hsz; vm_compute; reflexivity|].
  unfold hash_prob, uniform_prob, fraction. cbn [order scalar_of t].
  assert (EP : Npos (3 * 2^102) = 3 * 2^102) by reflexivity. rewrite EP.
  assert (E : forall v, v < 2^128 -> B (s_of128 (ZZp_scalar (3 * 2^102)) v) = (v mod (3 * 2^102) <? 2^102)).
  { intros v Hv. rewrite ZZp_of128 by exact Hv. unfold B. rewrite zval_of_N. reflexivity. }
  assert (C1 : count_below (3 * 2^102) (fun v => B (s_of128 (ZZp_scalar (3 * 2^102)) v)) = 2^102).
  { rewrite (count_ext _ _ (fun v => v <? 2^102)); [rewrite count_ltb; reflexivity|].
    intros v Hv. rewrite E; [rewrite N.mod_small by exact Hv; reflexivity|].
    apply N.lt_trans with (1:=Hv). reflexivity. }
  assert (C2 : count_below (2 ^ Z.to_N (8 * 13)) (fun v => B (s_of128 (ZZp_scalar (3 * 2^102)) v)) = 2^103).
  { rewrite (count_ext _ _ (fun v => (fun w => w <? 2^102) (v mod (3 * 2^102)))).
    - assert (E2 : 2 ^ Z.to_N (8 * 13) = 1 * (3 * 2^102) + 2^102) by (vm_compute; reflexivity).
      rewrite E2. etransitivity; [apply (count_mod (3 * 2^102) 1 (2^102) (fun w => w <? 2^102)); [reflexivity|intro; discriminate]|].
      rewrite !count_ltb. vm_compute. reflexivity.
    - intros v Hv. rewrite E; [reflexivity|]. apply N.lt_trans with (1:=Hv). reflexivity. }
  rewrite C1, C2. vm_compute. reflexivity.
Qed.

(** Multiples of 2^128 above 2^128 are accepted for every security parameter
    (even NaN) and hash width, although no element from 2^128 on is ever hit:
    at least half of all elements. *)
Lemma can_hash_large_unsound k s h : (2 <= k)%positive ->
  let t := ZZ_p (k * 2^128) in
  stype_ok t /\ s_can_hash (scalar_of t) s h = true /\
  (forall (v : N) (x : zmod (k * 2^128)), 2^128 <= zval x -> s_of128 (scalar_of t) v <> x).
Proof.
  intros Hk t. split; [cbn [stype_ok t]; lia|]. split.
  - cbn [t scalar_of s_can_hash ZZp_scalar]. cbv zeta. rewrite modulus_low_high.
    change (Npos (k * 2^128)) with (Npos k * 2^128). rewrite N.mod_mul by discriminate. reflexivity.
  - intros v x Hx E. cbn [t scalar_of s_of128 ZZp_scalar] in E. cbv zeta in E. rewrite split_lor in E.
    apply (f_equal zval) in E. rewrite zval_of_N in E.
    pose proof (N.mod_lt v (2^128)). pose proof (N.mod_le (v mod 2^128) (Npos (k * 2^128))).
    set (a := v mod 2^128) in *. set (b := a mod Npos (k * 2^128)) in *.
    assert (a < 2^128) by (apply H; discriminate). assert (b <= a) by (apply H0; discriminate). lia.
Qed.

(** ** NTLNumBits *)
Lemma ntl_cache_correct p ops : ntl_run (NtlThread p None None) ops = ntl_expected p ops.
Proof.
  set (inv := fun s => match nt_cached_num_bits s, nt_cached_modulus s with
    | Some b, Some c => b = ntl_num_bits c | Some _, None => False | None, _ => True end).
  assert (H : forall ops s, inv s -> ntl_run s ops = ntl_expected (nt_modulus s) ops).
  { clear. induction ops as [|[p|] ops IH]; intros [m c b] I; cbn [ntl_run ntl_expected nt_modulus]; auto.
    - rewrite IH; [reflexivity|exact I].
    - unfold ntl_num_bits_cached. cbn [nt_cached_num_bits nt_cached_modulus nt_modulus].
      destruct b as [b|], c as [c|]; cbn in I; try contradiction.
      + destruct (Pos.eqb_spec m c) as [->|]; cbn [negb nt_cached_num_bits].
        * rewrite IH; [cbn; f_equal; congruence|exact I].
        * rewrite IH; reflexivity.
      + cbn [nt_cached_num_bits]. rewrite IH; reflexivity.
      + cbn [nt_cached_num_bits]. rewrite IH; reflexivity. }
  apply (H ops (NtlThread p None None)). exact I.
Qed.
Lemma ntl_num_bits_spec p : (1 < p)%positive ->
  (1 <= ntl_num_bits p)%Z /\ 2 ^ (Z.to_N (ntl_num_bits p) - 1) <= Npos p - 1 < 2 ^ Z.to_N (ntl_num_bits p).
Proof.
  intro Hp. unfold ntl_num_bits. rewrite N2Z.id.
  assert (Hn : Npos p - 1 <> 0) by lia. set (n := Npos p - 1) in *.
  pose proof (N.size_log2 n Hn) as E. rewrite E. split; [lia|].
  replace (N.succ (N.log2 n) - 1) with (N.log2 n) by lia. apply N.log2_spec. lia.
Qed.

(** ** Integer promotion *)
Lemma cpp_mul_wide bytes x y : bytes <> 2%positive -> bytes <> 3%positive ->
  x < 2 ^ (8 * Npos bytes) -> y < 2 ^ (8 * Npos bytes) ->
  cpp_mul bytes x y = Ok (x * y mod 2 ^ (8 * Npos bytes)).
Proof.
  intros H2 H3 Hx Hy. unfold cpp_mul. destruct (N.ltb_spec (Npos bytes) 4); auto.
  assert (bytes = 1%positive) by lia. subst bytes. change (2 ^ (8 * 1)) with 256 in *.
  replace (x * y <? 2^31) with true; auto. symmetry. apply N.ltb_lt.
  change (2^31) with 2147483648. nia.
Qed.
Lemma cpp_mul_16 x y : x < 2^16 -> y < 2^16 ->
  (x * y < 2^31 -> cpp_mul 2 x y = Ok (x * y mod 2^16)) /\
  (2^31 <= x * y -> exists w, cpp_mul 2 x y = UB w).
Proof.
  intros Hx Hy. unfold cpp_mul. change (2 <? 4) with true. cbv iota. change (8 * 2) with 16.
  destruct (N.ltb_spec (x * y) (2^31)); split; intro; try lia; eauto.
Qed.
Lemma cpp_mul_16_pow2 x j : x < 2^16 -> j < 16 -> cpp_mul 2 x (2^j) = Ok (x * 2^j mod 2^16).
Proof.
  intros Hx Hj. assert (2^j <= 2^15) by (apply N.pow_le_mono_r; [discriminate|lia]).
  assert (2^j < 2^16) by (apply N.pow_lt_mono_r; [reflexivity|lia]).
  apply cpp_mul_16; auto. change (2^15) with 32768 in *. change (2^16) with 65536 in *.
  change (2^31) with 2147483648. nia.
Qed.
