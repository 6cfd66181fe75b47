(** X generates the multiplicative group of GF(2)[X]/(F). *)
From Coq Require Import Znumtheory Zpow_facts Permutation.
From Verif Require Import Base NBits Gf128Spec Gf128Model Gf128Poly Gf128Proofs Gf128Field BaseFacts.
Local Open Scope Z_scope.

(** ** Primality by trial division *)
(** No divisor among d, d+2, ..., d+2(n-1). *)
Fixpoint no_div_pos (p : Z) (d : Z) (n : positive) : bool :=
  match n with
  | xH => negb (p mod d =? 0)
  | xO n' => no_div_pos p d n' && no_div_pos p (d + 2 * Zpos n') n'
  | xI n' => negb (p mod d =? 0) && no_div_pos p (d + 2) n' && no_div_pos p (d + 2 + 2 * Zpos n') n'
  end.

Lemma no_div_pos_spec p n : forall d, no_div_pos p d n = true ->
  forall k, 0 <= k < Zpos n -> p mod (d + 2 * k) <> 0.
Proof.
  induction n as [n IH|n IH|]; intros d H k Hk; cbn [no_div_pos] in H.
  - apply andb_prop in H. destruct H as [H H2]. apply andb_prop in H. destruct H as [H0 H1].
    destruct (Z.eq_dec k 0) as [->|Hk0].
    + replace (d + 2 * 0) with d by lia. intro E. rewrite E in H0. discriminate.
    + destruct (Z_lt_dec k (1 + Zpos n)).
      * replace (d + 2 * k) with (d + 2 + 2 * (k - 1)) by lia. apply IH; auto. lia.
      * replace (d + 2 * k) with (d + 2 + 2 * Zpos n + 2 * (k - 1 - Zpos n)) by lia. apply IH; auto. lia.
  - apply andb_prop in H. destruct H as [H1 H2].
    destruct (Z_lt_dec k (Zpos n)).
    + apply IH; auto. lia.
    + replace (d + 2 * k) with (d + 2 * Zpos n + 2 * (k - Zpos n)) by lia. apply IH; auto. lia.
  - replace (d + 2 * k) with d by lia. intro E. rewrite E in H. discriminate.
Qed.

(** p odd, > 2, no odd divisor 3, 5, ..., 3 + 2(n-1), with (3 + 2n)^2 > p. *)
Definition prime_check (p : Z) (n : positive) : bool :=
  (2 <? p) && Z.odd p && (p <? (3 + 2 * Zpos n) * (3 + 2 * Zpos n)) && no_div_pos p 3 n.

Lemma prime_check_spec p n : prime_check p n = true -> prime p.
Proof.
  unfold prime_check. intro H. repeat (apply andb_prop in H; destruct H as [H ?H]).
  destruct (prime_dec p) as [|Hnp]; auto. exfalso.
  destruct (not_prime_divide p ltac:(lia) Hnp) as (d & Hd & q & Hq).
  assert (Hsmall : exists d, 1 < d /\ d * d <= p /\ (d | p)).
  { destruct (Z_le_gt_dec (d * d) p) as [Hle|Hgt].
    - exists d. repeat split; try lia. now exists q.
    - exists q. assert (1 < q) by nia. repeat split; try nia. exists d. lia. }
  clear d q Hd Hq. destruct Hsmall as (d & H1d & Hdd & q & Hq).
  assert (Hodd : Z.odd d = true).
  { rewrite Hq, Z.odd_mul in H2. apply andb_prop in H2. tauto. }
  rewrite Z.odd_spec in Hodd. destruct Hodd as [m Hm].
  apply (no_div_pos_spec p n 3 H0 (m - 1)).
  - nia.
  - replace (3 + 2 * (m - 1)) with d by lia. rewrite Hq. apply Z.mod_mul. lia.
Qed.

(** ** Exponents e with x^e = 1 are closed under gcd *)
Lemma gcd_closed (P : Z -> Prop) :
  (forall n m, 0 <= n -> 0 < m -> P n -> P m -> P (n mod m)) ->
  forall n m, 0 <= n -> 0 <= m -> P n -> P m -> P (Z.gcd n m).
Proof.
  intros Hmod n m Hn. revert m. pattern n. apply Zlt_0_ind; auto. clear n Hn.
  intros n IH Hn m Hm Pn Pm.
  destruct (Z.eq_dec n 0) as [->|Hn0].
  - rewrite Z.gcd_0_l, Z.abs_eq by auto. auto.
  - rewrite <- Z.gcd_mod by lia.
    apply IH; try lia; auto. apply Hmod; auto; lia.
Qed.

(** ** Fermat's little theorem *)
Definition zprod (l : list Z) : Z := fold_right Z.mul 1 l.

Lemma zprod_perm l1 l2 : Permutation l1 l2 -> zprod l1 = zprod l2.
Proof. induction 1; unfold zprod in *; cbn [fold_right] in *; lia. Qed.

Lemma zprod_coprime q l : prime q -> (forall x, In x l -> 1 <= x < q) -> rel_prime q (zprod l).
Proof.
  intros Hq. induction l as [|x l IH]; intro H; unfold zprod; cbn [fold_right].
  - apply rel_prime_sym, rel_prime_1.
  - apply rel_prime_mult.
    + apply rel_prime_sym, rel_prime_le_prime; auto. apply H; left; auto.
    + apply IH. intros; apply H; right; auto.
Qed.

Lemma zprod_scale q a l : 0 < q ->
  zprod (map (fun i => (a * i) mod q) l) mod q = (a ^ Z.of_nat (List.length l) * zprod l) mod q.
Proof.
  intro Hq. induction l as [|x l IH]; [reflexivity|].
  unfold zprod in *. cbn [map fold_right List.length].
  rewrite Z.mul_mod_idemp_l by lia. rewrite <- Z.mul_mod_idemp_r, IH, Z.mul_mod_idemp_r by lia.
  rewrite Nat2Z.inj_succ, Z.pow_succ_r by lia. f_equal. ring.
Qed.

Lemma fermat q a : prime q -> rel_prime a q -> a ^ (q - 1) mod q = 1.
Proof.
  intros Hq Ha. assert (H2 : 2 <= q) by (destruct Hq; lia).
  set (l := List.map Z.of_nat (seq 1 (Z.to_nat (q - 1)))).
  assert (Hl : forall x, In x l <-> 1 <= x < q).
  { intro x. unfold l. rewrite in_map_iff. split.
    - intros (n & <- & H). apply in_seq in H. lia.
    - intro H. exists (Z.to_nat x). rewrite in_seq. lia. }
  assert (Hnd : NoDup l).
  { unfold l. apply FinFun.Injective_map_NoDup; [intros x y; lia|apply seq_NoDup]. }
  assert (Hlen : Z.of_nat (List.length l) = q - 1) by (unfold l; rewrite map_length, seq_length; lia).
  assert (Hperm : Permutation (map (fun i => (a * i) mod q) l) l).
  { apply NoDup_Permutation_bis.
    - clear Hlen. assert (Hl' : forall x, In x l -> 1 <= x < q) by (intro; apply Hl). clear Hl.
      induction l as [|x l IH]; cbn [map]; constructor.
      + rewrite in_map_iff. intros (y & E & Hy). inversion Hnd as [|? ? Hx Hnd']; subst.
        assert (x = y); [|subst; contradiction].
        assert (D : (q | a * (x - y))).
        { exists (a * x / q - a * y / q).
          pose proof (Z.div_mod (a * x) q ltac:(lia)). pose proof (Z.div_mod (a * y) q ltac:(lia)). nia. }
        apply Gauss in D; [|now apply rel_prime_sym].
        destruct D as [k Hk]. pose proof (Hl' x (or_introl eq_refl)). pose proof (Hl' y (or_intror Hy)).
        assert (k = 0) by nia. nia.
      + inversion Hnd; subst. apply IH; auto. intros; apply Hl'; right; auto.
    - rewrite map_length. lia.
    - intros y Hy. apply in_map_iff in Hy. destruct Hy as (x & <- & Hx). apply Hl in Hx. apply Hl.
      pose proof (Z.mod_pos_bound (a * x) q ltac:(lia)).
      destruct (Z.eq_dec ((a * x) mod q) 0) as [E|]; [|lia]. exfalso.
      apply Z.mod_divide in E; [|lia]. apply Gauss in E; [|now apply rel_prime_sym].
      destruct E as [k Hk]. assert (1 <= k) by nia. nia. }
  pose proof (zprod_scale q a l ltac:(lia)) as E.
  rewrite (zprod_perm _ _ Hperm), Hlen in E.
  assert (D : (q | zprod l * (a ^ (q - 1) - 1))).
  { apply Z.mod_divide; [lia|].
    replace (zprod l * (a ^ (q - 1) - 1)) with (a ^ (q - 1) * zprod l - zprod l) by ring.
    rewrite Zminus_mod, <- E, Z.sub_diag. apply Z.mod_0_l. lia. }
  apply Gauss in D.
  2:{ apply zprod_coprime; auto. intros x Hx. apply Hl; auto. }
  destruct D as [k Hk]. replace (a ^ (q - 1)) with (1 + k * q) by lia.
  rewrite Z.mod_add by lia. apply Z.mod_1_l. lia.
Qed.

(** ** A Pocklington certificate for 67280421310721 *)
Lemma pow_one_mod q a : 1 < q -> forall n m, 0 <= n -> 0 < m ->
  a ^ n mod q = 1 -> a ^ m mod q = 1 -> a ^ (n mod m) mod q = 1.
Proof.
  intros Hq n m Hn Hm H1 H2.
  rewrite (Z.div_mod n m) in H1 by lia.
  pose proof (Z.mod_pos_bound n m Hm). assert (0 <= n / m) by (apply Z.div_pos; lia).
  rewrite Z.pow_add_r, Z.pow_mul_r in H1 by lia.
  rewrite <- Z.mul_mod_idemp_l in H1 by lia.
  assert (E : (a ^ m) ^ (n / m) mod q = 1).
  { rewrite Zpower_mod by lia. rewrite H2, Z.pow_1_l by lia. apply Z.mod_1_l; auto. }
  rewrite E, Z.mul_1_l in H1. auto.
Qed.

Lemma pocklington p r m a : prime r -> 1 < p -> 0 < m -> p - 1 = r * m ->
  a ^ (p - 1) mod p = 1 -> Z.gcd (a ^ m mod p - 1) p = 1 ->
  forall q, prime q -> (q | p) -> (r | q - 1).
Proof.
  intros Hr Hp Hm E H1 H2 q Hq Hqp.
  assert (Hq2 : 2 <= q) by (destruct Hq; lia). assert (Hr2 : 2 <= r) by (destruct Hr; lia).
  assert (Hq1 : 1 < q) by (clear - Hq2; lia). assert (Hqm : 0 <= q - 1) by (clear - Hq2; lia).
  assert (Hpm : 0 <= p - 1) by (clear - Hp; lia).
  assert (Hmod : forall e, 0 <= e -> a ^ e mod p mod q = a ^ e mod q).
  { intros e _. destruct Hqp as [k Hk]. subst p.
    rewrite (Z.mul_comm k q). rewrite Z.rem_mul_r by nia.
    rewrite (Z.mul_comm q), Z.mod_add, Z.mod_mod by lia. reflexivity. }
  assert (Hcop : rel_prime a q).
  { apply rel_prime_sym. destruct (rel_prime_dec q a) as [|Hn]; auto. exfalso.
    assert (Hd : (q | a)).
    { destruct (Zdivide_dec q a) as [|Hnd]; auto. exfalso. apply Hn. now apply prime_rel_prime. }
    assert (Hz : a ^ (p - 1) mod q = 0).
    { apply Z.mod_divide; [lia|]. replace (p - 1) with (Z.succ (p - 2)) by lia.
      rewrite Z.pow_succ_r by nia. now apply Z.divide_mul_l. }
    rewrite <- Hmod, H1, Z.mod_1_l in Hz by lia. lia. }
  destruct (Zdivide_dec r (q - 1)) as [|Hnd]; auto. exfalso.
  assert (G : a ^ (Z.gcd (q - 1) (p - 1)) mod q = 1).
  { refine (gcd_closed (fun e => a ^ e mod q = 1) _ (q - 1) (p - 1) _ _ _ _).
    - intros n k. apply pow_one_mod. exact Hq1.
    - exact Hqm.
    - exact Hpm.
    - now apply fermat.
    - rewrite <- Hmod, H1 by exact Hpm. apply Z.mod_1_l. exact Hq1. }
  set (g := Z.gcd (q - 1) (p - 1)) in *.
  assert (Hg1 : (g | q - 1)) by apply Z.gcd_divide_l.
  assert (Hg2 : (g | r * m)) by (rewrite <- E; apply Z.gcd_divide_r).
  assert (Hgr : rel_prime g r).
  { apply rel_prime_sym, prime_rel_prime; auto. intro D. apply Hnd. now apply Z.divide_trans with g. }
  apply Gauss in Hg2; auto. destruct Hg2 as [k Hk].
  assert (0 <= g) by apply Z.gcd_nonneg.
  assert (Hg0 : 0 < g).
  { destruct (Z.eq_dec g 0) as [Eg|Eg]; [|clear - H Eg; lia]. rewrite Eg, Z.mul_0_r in Hk. clear - Hk Hm; lia. }
  assert (0 < k) by (clear - Hg0 Hm Hk; nia).
  assert (Hm1 : a ^ m mod q = 1).
  { rewrite Hk, Z.mul_comm, Z.pow_mul_r by lia. rewrite Zpower_mod by lia. rewrite G, Z.pow_1_l by lia.
    apply Z.mod_1_l. lia. }
  assert (Hdiv : (q | Z.gcd (a ^ m mod p - 1) p)).
  { apply Z.gcd_greatest; auto. apply Z.mod_divide; [lia|].
    rewrite Zminus_mod, Hmod, Hm1, Z.mod_1_l, Z.sub_diag by lia. apply Z.mod_0_l. lia. }
  rewrite H2 in Hdiv. apply Z.divide_1_r_nonneg in Hdiv; lia.
Qed.

Definition P9 : Z := 67280421310721.
Lemma prime_2998279 : prime 2998279.
Proof. exact (prime_check_spec 2998279 865 (eq_refl true <: prime_check 2998279 865 = true)). Qed.

Lemma exists_prime_divisor n : 1 < n -> exists q, prime q /\ (q | n).
Proof.
  intro H. assert (Hn : 0 <= n) by lia. revert H. pattern n. apply Zlt_0_ind; auto. clear n Hn.
  intros n IH Hn H. destruct (prime_dec n) as [|Hnp]; [exists n; split; auto; apply Z.divide_refl|].
  destruct (not_prime_divide n H Hnp) as (d & Hd & Hdn).
  destruct (IH d ltac:(lia) ltac:(lia)) as (q & Hq & Hqd). exists q. split; auto.
  now apply Z.divide_trans with d.
Qed.

Lemma prime_P9 : prime P9.
Proof.
  destruct (prime_dec P9) as [|Hnp]; auto. exfalso.
  assert (HP : 1 < P9) by reflexivity.
  destruct (not_prime_divide P9 HP Hnp) as (d & Hd & e & He).
  (* a divisor d with 1 < d, d*d <= P9 *)
  assert (Hsmall : exists d, 1 < d /\ d * d <= P9 /\ (d | P9)).
  { destruct (Z_le_gt_dec (d * d) P9) as [Hle|Hgt].
    - exists d. repeat split; try lia. now exists e.
    - exists e. assert (1 < e) by nia. repeat split; try nia. exists d. lia. }
  clear d e Hd He. destruct Hsmall as (d & H1d & Hdd & Hdv).
  destruct (exists_prime_divisor d H1d) as (q & Hq & Hqd).
  assert (Hqp : (q | P9)) by now apply Z.divide_trans with d.
  assert (H3a : 3 ^ (P9 - 1) mod P9 = 1).
  { rewrite <- Zpow_mod_correct by (unfold P9; lia). exact (eq_refl 1 <: Zpow_mod 3 (P9 - 1) P9 = 1). }
  assert (H3b : Z.gcd (3 ^ 22439680 mod P9 - 1) P9 = 1).
  { rewrite <- Zpow_mod_correct by (unfold P9; lia). exact (eq_refl 1 <: Z.gcd (Zpow_mod 3 22439680 P9 - 1) P9 = 1). }
  assert (D : (2998279 | q - 1)).
  { apply (pocklington P9 2998279 22439680 3 prime_2998279 HP eq_refl eq_refl H3a H3b q Hq Hqp). }
  clear H3a H3b Hnp.
  assert (Hq2 : 2 <= q) by (destruct Hq; lia).
  assert (q <= d). { apply Z.divide_pos_le; auto. lia. }
  assert (q * q <= P9) by nia. destruct D as [k Hk].
  assert (Hk3 : k < 3). { unfold P9 in *. nia. }
  assert (1 <= k) by nia.
  assert (Hc : q = 2998280 \/ q = 5996559) by lia.
  destruct Hqp as [c Hc']. unfold P9 in *. destruct Hc as [-> | ->]; lia.
Qed.

(** ** 2^128 - 1 and its prime factorisation *)
Definition M : Z := 2^128 - 1.
Definition factors : list Z :=
  [3; 5; 17; 257; 641; 65537; 274177; 6700417; P9].

Lemma M_factors : M = fold_right Z.mul 1 factors.
Proof. vm_compute. reflexivity. Qed.

Lemma factors_prime : Forall prime factors.
Proof.
  unfold factors. repeat apply Forall_cons; [..|apply Forall_nil].
  - exact prime_3.
  - exact (prime_check_spec 5 1 (eq_refl true <: prime_check 5 1 = true)).
  - exact (prime_check_spec 17 1 (eq_refl true <: prime_check 17 1 = true)).
  - exact (prime_check_spec 257 7 (eq_refl true <: prime_check 257 7 = true)).
  - exact (prime_check_spec 641 12 (eq_refl true <: prime_check 641 12 = true)).
  - exact (prime_check_spec 65537 127 (eq_refl true <: prime_check 65537 127 = true)).
  - exact (prime_check_spec 274177 261 (eq_refl true <: prime_check 274177 261 = true)).
  - exact (prime_check_spec 6700417 1293 (eq_refl true <: prime_check 6700417 1293 = true)).
  - exact prime_P9.
Qed.

(** A divisor of M other than 1 has one of the listed prime factors. *)
Lemma divisor_has_factor n l : Forall prime l -> 1 < n -> (n | fold_right Z.mul 1 l) ->
  exists p, In p l /\ (p | n).
Proof.
  induction l as [|p l IH]; intros HF Hn D; cbn [fold_right] in D.
  - apply Z.divide_1_r_nonneg in D; lia.
  - inversion HF as [|? ? Hp HF']; subst.
    destruct (Zdivide_dec p n) as [Hd|Hnd]; [exists p; split; auto; left; auto|].
    assert (R : rel_prime n p) by (apply rel_prime_sym, prime_rel_prime; auto).
    apply Gauss in D; auto. destruct (IH HF' Hn D) as (p' & H1 & H2). exists p'. split; auto. right; auto.
Qed.

(** ** The order of X *)
Notation xpow e := (fpow 2 (Z.to_N e)).

Lemma X_lt : (2 < 2^128)%N. Proof. reflexivity. Qed.

Lemma xpow_mod n m : 0 <= n -> 0 < m -> xpow n = 1%N -> xpow m = 1%N -> xpow (n mod m) = 1%N.
Proof.
  intros Hn Hm H1 H2.
  rewrite (Z.div_mod n m) in H1 by lia.
  pose proof (Z.mod_pos_bound n m Hm). assert (0 <= n / m) by (apply Z.div_pos; lia).
  rewrite Z2N.inj_add, Z2N.inj_mul, fpow_add, fpow_mul, H2, fpow_1_l in H1 by (try exact X_lt; nia).
  rewrite fmul_1_l in H1 by (apply fpow_lt; exact X_lt). exact H1.
Qed.

Lemma xpow_factors : forallb (fun p => negb (N.eqb (xpow (M / p)) 1)) factors = true.
Proof. vm_compute. reflexivity. Qed.

Lemma xpow_M : xpow M = 1%N.
Proof. vm_compute. reflexivity. Qed.

Lemma X_order d : 0 < d < M -> xpow d <> 1%N.
Proof.
  intros Hd E. remember (Z.gcd d M) as g eqn:Hg.
  assert (HM : 0 < M) by reflexivity.
  assert (Eg : xpow g = 1%N).
  { rewrite Hg. assert (Hd0 : 0 <= d) by (clear - Hd; lia). assert (HM1 : 0 <= M) by (clear; unfold M; lia).
    exact (gcd_closed (fun e => xpow e = 1%N) xpow_mod d M Hd0 HM1 E xpow_M). }
  assert (Hgd : (g | d)) by (rewrite Hg; apply Z.gcd_divide_l). assert (HgM : (g | M)) by (rewrite Hg; apply Z.gcd_divide_r).
  assert (0 <= g) by (rewrite Hg; apply Z.gcd_nonneg). clear Hg E.
  assert (g <= d) by (apply Z.divide_pos_le; auto; lia).
  destruct HgM as [n Hn]. assert (Hg0 : g <> 0) by nia.
  assert (H1n : 1 < n) by nia.
  destruct (divisor_has_factor n factors factors_prime H1n) as (p & Hp & k & Hk).
  { rewrite <- M_factors, Hn. exists g. ring. }
  pose proof xpow_factors as C. rewrite forallb_forall in C. specialize (C p Hp).
  assert (Hp1 : 1 < p). { pose proof factors_prime as FP. rewrite Forall_forall in FP. destruct (FP p Hp); auto. }
  assert (Eq : M / p = g * k). { rewrite Hn, Hk. replace (k * p * g) with (g * k * p) by ring. apply Z.div_mul. lia. }
  assert (0 < k) by nia.
  rewrite Eq, Z2N.inj_mul, fpow_mul, Eg, fpow_1_l in C by (try exact X_lt; lia). discriminate.
Qed.

Lemma xpow_nonzero n : 0 <= n -> xpow n <> 0%N.
Proof.
  intros Hn E.
  assert (H : xpow (n * M) = 1%N).
  { rewrite Z.mul_comm, Z2N.inj_mul, fpow_mul, xpow_M, fpow_1_l by (try exact X_lt; unfold M; lia). reflexivity. }
  destruct (Z.eq_dec n 0) as [->|Hn0]; [discriminate|].
  rewrite Z2N.inj_mul, fpow_mul, E in H by (try exact X_lt; unfold M; lia).
  rewrite fpow_0_l in H by (unfold M; lia). discriminate.
Qed.

Lemma xpow_inj i j : 0 <= i < M -> 0 <= j < M -> xpow i = xpow j -> i = j.
Proof.
  assert (W : forall i j, 0 <= i -> i < j -> j < M -> xpow i = xpow j -> False).
  { clear i j. intros i j Hi Hij Hj E.
    apply (X_order (j - i)); [lia|].
    replace j with (i + (j - i)) in E by lia.
    rewrite Z2N.inj_add, fpow_add in E by (try exact X_lt; lia).
    assert (Z0 : fmul (fpow 2 (Z.to_N i)) (N.lxor (xpow (j - i)) 1) = 0%N).
    { rewrite fmul_lxor_r, <- E, fmul_1_r by (apply fpow_lt; exact X_lt). apply N.lxor_nilpotent. }
    apply fmul_integral in Z0; [|apply fpow_lt; exact X_lt|apply lxor_lt; [apply fpow_lt; exact X_lt|reflexivity]].
    destruct Z0 as [Z0|Z0].
    - exfalso. revert Z0. apply xpow_nonzero. lia.
    - now apply N.lxor_eq in Z0. }
  intros Hi Hj E. destruct (Z.lt_trichotomy i j) as [Hl|[He|Hl]]; auto; exfalso.
  - apply (W i j); auto; lia.
  - apply (W j i); auto; lia.
Qed.

(** Every nonzero element is a power of X. *)
Lemma map_NoDup_on {A B} (f : A -> B) l :
  (forall x y, In x l -> In y l -> f x = f y -> x = y) -> NoDup l -> NoDup (map f l).
Proof.
  induction l as [|a l IH]; intros Hf Hn; cbn [map]; constructor; inversion Hn; subst.
  - rewrite in_map_iff. intros (b & E & Hb). apply Hf in E; [|right; auto|left; auto]. subst. contradiction.
  - apply IH; auto. intros; apply Hf; auto; right; auto.
Qed.

Lemma pigeonhole (f : Z -> Z) (m : Z) : 0 <= m ->
  (forall k, 0 <= k < m -> 1 <= f k < m + 1) ->
  (forall i j, 0 <= i < m -> 0 <= j < m -> f i = f j -> i = j) ->
  forall a, 1 <= a < m + 1 -> exists k, 0 <= k < m /\ f k = a.
Proof.
  intros Hm Hr Hi a Ha.
  assert (Hin : incl (map f (zrange 0 m)) (zrange 1 (m + 1))).
  { intros x Hx. apply in_map_iff in Hx. destruct Hx as (k & <- & Hk). apply In_zrange in Hk.
    apply In_zrange. auto. }
  assert (Him : incl (zrange 1 (m + 1)) (map f (zrange 0 m))).
  { apply NoDup_length_incl.
    - apply map_NoDup_on; [|apply zrange_NoDup].
      intros x y Hx Hy E. apply In_zrange in Hx. apply In_zrange in Hy. auto.
    - rewrite map_length. unfold zrange. rewrite !zseq_length. lia.
    - exact Hin. }
  specialize (Him a). rewrite In_zrange in Him. specialize (Him Ha).
  apply in_map_iff in Him. destruct Him as (k & E & Hk). exists k. split; auto. now apply In_zrange.
Qed.

Lemma xpow_surj a : (0 < a < 2^128)%N -> exists k, 0 <= k < M /\ xpow k = a.
Proof.
  intro Ha. assert (HM : M + 1 = 2^128) by reflexivity.
  destruct (pigeonhole (fun k => Z.of_N (xpow k)) M) with (a := Z.of_N a) as (k & Hk & E).
  - discriminate.
  - intros k Hk. pose proof (xpow_nonzero k (proj1 Hk)) as Hnz.
    assert (Hlt : (xpow k < 2^128)%N) by (apply fpow_lt; exact X_lt).
    rewrite HM. remember (xpow k) as x eqn:Ex. clear Ex Hk HM Ha.
    change (2^128)%N with (Z.to_N (2^128)) in Hlt. lia.
  - intros i j Hi Hj E. apply xpow_inj; auto. now apply N2Z.inj.
  - rewrite HM. change (2^128)%N with (Z.to_N (2^128)) in Ha. lia.
  - exists k. split; [exact Hk|]. now apply N2Z.inj.
Qed.
