(** Algebra of GF(2)[X] and of the quotient by F. *)
From Verif Require Import Base NBits Gf128Spec Gf128Model.
Local Open Scope N_scope.

(** Polynomial product (the clmul of the model, on arbitrary N). *)
Definition pmul := clmul64.

Lemma pmul_0_l b : pmul 0 b = 0. Proof. reflexivity. Qed.
Lemma pmul_1_l b : pmul 1 b = b. Proof. reflexivity. Qed.
Lemma pmul_double_l a b : pmul (N.double a) b = N.double (pmul a b).
Proof. destruct a; reflexivity. Qed.
Lemma pmul_succ_double_l a b : pmul (N.succ_double a) b = N.lxor b (N.double (pmul a b)).
Proof. destruct a; cbn; [now rewrite N.lxor_0_r|reflexivity]. Qed.

Ltac ind a := pattern a; apply N.binary_ind; clear a;
  [|intros a IHa; rewrite ?pmul_double_l | intros a IHa; rewrite ?pmul_succ_double_l].

Lemma pmul_0_r a : pmul a 0 = 0.
Proof. ind a; auto; rewrite IHa; reflexivity. Qed.
Lemma pmul_1_r a : pmul a 1 = a.
Proof. ind a; auto; rewrite IHa; auto. now rewrite succ_double_lxor. Qed.
Lemma pmul_lxor_r a b c : pmul a (N.lxor b c) = N.lxor (pmul a b) (pmul a c).
Proof.
  ind a; auto; rewrite IHa, double_lxor; [reflexivity|]. rewrite ?pmul_succ_double_l. xor_solve.
Qed.
Lemma pmul_double_r a b : pmul a (N.double b) = N.double (pmul a b).
Proof. ind a; auto; rewrite IHa; auto. now rewrite double_lxor. Qed.
Lemma pmul_succ_double_r a b : pmul a (N.succ_double b) = N.lxor a (N.double (pmul a b)).
Proof. now rewrite succ_double_lxor, pmul_lxor_r, pmul_1_r, pmul_double_r. Qed.
Lemma pmul_comm a b : pmul a b = pmul b a.
Proof.
  revert b; ind a; intro b.
  - now rewrite pmul_0_r.
  - now rewrite ?pmul_double_l, pmul_double_r, IHa.
  - now rewrite ?pmul_succ_double_l, pmul_succ_double_r, IHa.
Qed.
Lemma pmul_lxor_l a b c : pmul (N.lxor a b) c = N.lxor (pmul a c) (pmul b c).
Proof. now rewrite pmul_comm, pmul_lxor_r, (pmul_comm c a), (pmul_comm c b). Qed.
Lemma pmul_assoc a b c : pmul (pmul a b) c = pmul a (pmul b c).
Proof.
  ind a; auto.
  - now rewrite ?pmul_double_l, IHa.
  - rewrite ?pmul_succ_double_l, pmul_lxor_l, pmul_double_l, IHa. reflexivity.
Qed.
Lemma pmul_shiftl_l a b n : pmul (N.shiftl a n) b = N.shiftl (pmul a b) n.
Proof.
  revert a; induction n as [|n IH] using N.peano_ind; intro a.
  - now rewrite !N.shiftl_0_r.
  - rewrite !N.shiftl_succ_r, pmul_double_l, IH. reflexivity.
Qed.
Lemma pmul_shiftl_r a b n : pmul a (N.shiftl b n) = N.shiftl (pmul a b) n.
Proof. now rewrite pmul_comm, pmul_shiftl_l, pmul_comm. Qed.
Lemma pmul_pow2_l k b : pmul (2^k) b = N.shiftl b k.
Proof. rewrite <- (N.shiftl_1_l k). now rewrite pmul_shiftl_l, pmul_1_l. Qed.

(** Degree bound. *)
Lemma pmul_lt a b n m : a < 2^n -> b < 2^m -> 0 < n -> pmul a b < 2^(n + m - 1).
Proof.
  revert n; ind a; intros n Ha Hb Hn.
  - apply N.neq_0_lt_0, N.pow_nonzero; lia.
  - rewrite ?pmul_double_l, double_shiftl. destruct (N.eq_dec a 0) as [->|Hz].
    + rewrite pmul_0_l, N.shiftl_0_l. apply N.neq_0_lt_0, N.pow_nonzero; lia.
    + assert (1 < n). { destruct (N.lt_ge_cases 1 n); auto. assert (n = 1) as -> by lia. change (2^1) with 2 in Ha. lia. }
      assert (a < 2^(n-1)). { replace n with (N.succ (n-1)) in Ha by lia. rewrite N.pow_succ_r' in Ha. rewrite N.double_spec in Ha. lia. }
      specialize (IHa (n-1) H0 Hb ltac:(lia)).
      rewrite N.shiftl_mul_pow2. replace (n + m - 1) with (N.succ (n - 1 + m - 1)) by lia.
      rewrite N.pow_succ_r'. lia.
  - rewrite ?pmul_succ_double_l, double_shiftl. destruct (N.eq_dec a 0) as [->|Hz].
    + rewrite pmul_0_l, N.shiftl_0_l, N.lxor_0_r. apply N.lt_le_trans with (2^m); auto.
      apply N.pow_le_mono_r; lia.
    + assert (1 < n). { destruct (N.lt_ge_cases 1 n); auto. assert (n = 1) as -> by lia. change (2^1) with 2 in Ha. lia. }
      assert (a < 2^(n-1)). { replace n with (N.succ (n-1)) in Ha by lia. rewrite N.pow_succ_r' in Ha. rewrite N.succ_double_spec in Ha. lia. }
      specialize (IHa (n-1) H0 Hb ltac:(lia)).
      apply lxor_lt.
      * apply N.lt_le_trans with (2^m); auto. apply N.pow_le_mono_r; lia.
      * rewrite N.shiftl_mul_pow2. replace (n + m - 1) with (N.succ (n - 1 + m - 1)) by lia.
        rewrite N.pow_succ_r'. lia.
Qed.

(** pmul is the product of polynomials in the coefficient-wise sense. *)
Lemma testbit_double a k : N.testbit (N.double a) (N.of_nat (S k)) = N.testbit a (N.of_nat k).
Proof. rewrite N.double_spec, Nat2N.inj_succ. apply N.testbit_even_succ. lia. Qed.
Lemma testbit_double_0 a : N.testbit (N.double a) 0 = false.
Proof. rewrite N.double_spec. apply N.testbit_even_0. Qed.

Lemma conv_0_l q k i : conv 0 q k i = false.
Proof. induction i as [|i IH]; cbn [conv]; rewrite N.bits_0; auto. now rewrite IH. Qed.

Lemma conv_double p q k i : (i <= k)%nat ->
  conv (N.double p) q (S k) (S i) = conv p q k i.
Proof.
  induction i as [|i IH]; intro Hi.
  - cbn [conv]. rewrite testbit_double, testbit_double_0. cbn [andb].
    rewrite xorb_false_r. now replace (S k - 1)%nat with (k - 0)%nat by lia.
  - assert (E : conv (N.double p) q (S k) (S (S i)) =
      xorb (N.testbit (N.double p) (N.of_nat (S (S i))) && N.testbit q (N.of_nat (S k - S (S i))))
           (conv (N.double p) q (S k) (S i))) by reflexivity.
    rewrite E, IH, testbit_double by lia. cbn [conv].
    now replace (S k - S (S i))%nat with (k - S i)%nat by lia.
Qed.

Lemma conv_lxor_l p p' q k i : conv (N.lxor p p') q k i = xorb (conv p q k i) (conv p' q k i).
Proof.
  induction i as [|i IH]; cbn [conv]; rewrite N.lxor_spec.
  - destruct (N.testbit p (N.of_nat 0)), (N.testbit p' (N.of_nat 0)), (N.testbit q (N.of_nat (k - 0))); reflexivity.
  - rewrite IH. destruct (N.testbit p (N.of_nat (S i))), (N.testbit p' (N.of_nat (S i))),
      (N.testbit q (N.of_nat (k - S i))), (conv p q k i), (conv p' q k i); reflexivity.
Qed.

Lemma conv_1_l q k : conv 1 q k k = N.testbit q (N.of_nat k).
Proof.
  assert (H : forall i, (i <= k)%nat -> conv 1 q k i = N.testbit q (N.of_nat k)).
  { induction i as [|i IH]; intro Hi; cbn [conv].
    - change (N.testbit 1 (N.of_nat 0)) with true. cbn [andb]. now rewrite Nat.sub_0_r.
    - rewrite IH by lia. replace (N.testbit 1 (N.of_nat (S i))) with false; [apply xorb_false_l|].
      symmetry. change 1 with (2^0). apply N.pow2_bits_false. lia. }
  apply H; lia.
Qed.

Lemma pmul_is_poly_product p q : is_poly_product (pmul p q) p q.
Proof.
  unfold is_poly_product. ind p; intro k.
  - rewrite pmul_0_l, N.bits_0. now rewrite conv_0_l.
  - rewrite ?pmul_double_l. destruct k as [|k].
    + cbn [conv]. now rewrite !testbit_double_0.
    + rewrite testbit_double, IHa, conv_double; auto.
  - rewrite ?pmul_succ_double_l, succ_double_lxor, N.lxor_spec, conv_lxor_l, conv_1_l. f_equal.
    destruct k as [|k].
    + cbn [conv]. now rewrite !testbit_double_0.
    + rewrite testbit_double, IHa, conv_double; auto.
Qed.

Lemma is_poly_product_unique r p q : is_poly_product r p q -> r = pmul p q.
Proof.
  intro H. apply N.bits_inj. intro k. rewrite <- (N2Nat.id k).
  rewrite H. symmetry. apply pmul_is_poly_product.
Qed.

(** ** Congruence modulo F *)
Definition cong (a b : N) : Prop := exists q, N.lxor a b = pmul q F.

Lemma cong_refl a : cong a a.
Proof. exists 0. now rewrite N.lxor_nilpotent. Qed.
Lemma cong_sym a b : cong a b -> cong b a.
Proof. intros [q H]. exists q. now rewrite N.lxor_comm. Qed.
Lemma cong_trans a b c : cong a b -> cong b c -> cong a c.
Proof.
  intros [q H] [r G]. exists (N.lxor q r). rewrite pmul_lxor_l, <- H, <- G. xor_solve.
Qed.
Lemma cong_lxor a b c d : cong a b -> cong c d -> cong (N.lxor a c) (N.lxor b d).
Proof.
  intros [q H] [r G]. exists (N.lxor q r). rewrite pmul_lxor_l, <- H, <- G. xor_solve.
Qed.
Lemma cong_pmul_l a b c : cong a b -> cong (pmul a c) (pmul b c).
Proof.
  intros [q H]. exists (pmul q c). rewrite <- pmul_lxor_l, H, pmul_assoc, (pmul_comm F c), pmul_assoc.
  reflexivity.
Qed.
Lemma cong_pmul a b c d : cong a b -> cong c d -> cong (pmul a c) (pmul b d).
Proof.
  intros H G. apply cong_trans with (pmul b c); [now apply cong_pmul_l|].
  rewrite !(pmul_comm b). now apply cong_pmul_l.
Qed.
Lemma cong_F : cong F 0.
Proof. exists 1. now rewrite N.lxor_0_r, pmul_1_l. Qed.
Lemma cong_shiftl a b n : cong a b -> cong (N.shiftl a n) (N.shiftl b n).
Proof. intro H. rewrite <- !pmul_pow2_l. apply cong_pmul; auto using cong_refl. Qed.
Lemma cong_eq a b : a = b -> cong a b.
Proof. intros ->; apply cong_refl. Qed.

(** A nonzero multiple of F has degree at least 128. *)
Lemma pmul_log2 a b : a <> 0 -> b <> 0 -> pmul a b <> 0 /\ N.log2 (pmul a b) = N.log2 a + N.log2 b.
Proof.
  intros Ha Hb. destruct b as [|p]; [congruence|]. clear Hb. set (b := Npos p). 
  assert (Hb : b <> 0) by discriminate. clearbody b. clear p.
  revert Ha; ind a; intro Ha; [congruence| |].
  - assert (a <> 0) by (intros ->; apply Ha; reflexivity).
    destruct (IHa H) as [H1 H2]. rewrite ?pmul_double_l, !N.double_spec.
    split; [lia|]. rewrite !N.log2_double by lia. lia.
  - rewrite ?pmul_succ_double_l. destruct (N.eq_dec a 0) as [->|Hz].
    + rewrite pmul_0_l. cbn. rewrite N.lxor_0_r. split; auto.
    + destruct (IHa Hz) as [H1 H2].
      assert (Hlt : N.log2 b < N.log2 (N.double (pmul a b))).
      { rewrite N.double_spec, N.log2_double by lia. lia. }
      assert (Hl : N.log2 (N.lxor b (N.double (pmul a b))) = N.log2 (N.double (pmul a b))).
      { apply N.log2_bits_unique.
        - rewrite N.lxor_spec, (N.bits_above_log2 b) by auto. rewrite N.bit_log2; auto.
          rewrite N.double_spec; lia.
        - intros m Hm. rewrite N.lxor_spec, !N.bits_above_log2 by lia. reflexivity. }
      split.
      * intro E. rewrite E in Hl. rewrite N.double_spec, N.log2_double in Hl by lia. cbn in Hl. lia.
      * rewrite Hl, N.double_spec, N.log2_double by lia.
        rewrite N.succ_double_spec, N.log2_succ_double by lia. lia.
Qed.

Lemma F_log2 : N.log2 F = 128. Proof. reflexivity. Qed.

Lemma cong_unique a b : a < 2^128 -> b < 2^128 -> cong a b -> a = b.
Proof.
  intros Ha Hb [q H]. destruct (N.eq_dec q 0) as [->|Hq].
  - rewrite pmul_0_l in H. now apply N.lxor_eq in H.
  - destruct (pmul_log2 q F Hq ltac:(discriminate)) as [H1 H2].
    rewrite <- H in H1, H2. rewrite F_log2 in H2.
    assert (N.lxor a b < 2^128) by now apply lxor_lt.
    apply N.log2_lt_pow2 in H0; lia.
Qed.

(** The executable field product on N used in proofs. *)
Fixpoint pmod_pos (p : positive) : N :=
  match p with
  | xH => 1
  | xO p' => let r := N.double (pmod_pos p') in if N.testbit r 128 then N.lxor r F else r
  | xI p' => let r := N.succ_double (pmod_pos p') in if N.testbit r 128 then N.lxor r F else r
  end.
Definition pmod (a : N) : N := match a with 0 => 0 | Npos p => pmod_pos p end.

Lemma red_step r : r < 2^129 ->
  (if N.testbit r 128 then N.lxor r F else r) < 2^128 /\
  cong r (if N.testbit r 128 then N.lxor r F else r).
Proof.
  intro H. destruct (N.testbit r 128) eqn:E.
  - split.
    + apply lt_pow2_testbit. intros k Hk. rewrite N.lxor_spec.
      destruct (N.eq_dec k 128) as [->|Hn]; [now rewrite E|].
      rewrite (proj1 (lt_pow2_testbit r 129) H k) by lia.
      rewrite (proj1 (lt_pow2_testbit F 129) ltac:(reflexivity) k) by lia. reflexivity.
    + exists 1. rewrite pmul_1_l. xor_solve.
  - split; [|apply cong_refl]. apply lt_pow2_testbit. intros k Hk.
    destruct (N.eq_dec k 128) as [->|Hn]; auto.
    apply (proj1 (lt_pow2_testbit r 129) H k). lia.
Qed.

Lemma pmod_pos_spec p : pmod_pos p < 2^128 /\ cong (Npos p) (pmod_pos p).
Proof.
  induction p as [p [IH1 IH2]|p [IH1 IH2]|]; cbn [pmod_pos].
  - assert (Hr : N.succ_double (pmod_pos p) < 2^129).
    { rewrite N.succ_double_spec. change (2^129) with (2 * 2^128). lia. }
    destruct (red_step _ Hr) as [H1 H2]. split; auto.
    apply cong_trans with (N.succ_double (pmod_pos p)); auto.
    change (N.pos p~1) with (N.succ_double (N.pos p)). rewrite !succ_double_lxor, !double_shiftl.
    apply cong_lxor; [apply cong_refl|now apply cong_shiftl].
  - assert (Hr : N.double (pmod_pos p) < 2^129).
    { rewrite N.double_spec. change (2^129) with (2 * 2^128). lia. }
    destruct (red_step _ Hr) as [H1 H2]. split; auto.
    apply cong_trans with (N.double (pmod_pos p)); auto.
    change (N.pos p~0) with (N.double (N.pos p)). rewrite !double_shiftl. now apply cong_shiftl.
  - split; [reflexivity|apply cong_refl].
Qed.
Lemma pmod_lt a : pmod a < 2^128.
Proof. destruct a; [reflexivity|apply pmod_pos_spec]. Qed.
Lemma pmod_cong a : cong a (pmod a).
Proof. destruct a; [apply cong_refl|apply pmod_pos_spec]. Qed.
Lemma pmod_small a : a < 2^128 -> pmod a = a.
Proof. intro H. apply cong_unique; auto using pmod_lt. apply cong_sym, pmod_cong. Qed.
Lemma pmod_eq a b : cong a b -> pmod a = pmod b.
Proof.
  intro H. apply cong_unique; auto using pmod_lt.
  apply cong_trans with a; [apply cong_sym, pmod_cong|].
  apply cong_trans with b; auto using pmod_cong.
Qed.

Definition fmul (a b : N) : N := pmod (pmul a b).

Lemma fmul_lt a b : fmul a b < 2^128. Proof. apply pmod_lt. Qed.
Lemma fmul_cong a b : cong (pmul a b) (fmul a b). Proof. apply pmod_cong. Qed.
Lemma fmul_unique a b c : c < 2^128 -> cong (pmul a b) c -> c = fmul a b.
Proof.
  intros Hc H. apply cong_unique; auto using fmul_lt.
  apply cong_trans with (pmul a b); [now apply cong_sym|apply fmul_cong].
Qed.
Lemma fmul_comm a b : fmul a b = fmul b a.
Proof. unfold fmul. now rewrite pmul_comm. Qed.
Lemma fmul_assoc a b c : fmul (fmul a b) c = fmul a (fmul b c).
Proof.
  apply pmod_eq. apply cong_trans with (pmul (pmul a b) c).
  - apply cong_pmul; [apply cong_sym, fmul_cong|apply cong_refl].
  - rewrite pmul_assoc. apply cong_pmul; [apply cong_refl|apply fmul_cong].
Qed.
Lemma fmul_lxor_r a b c : fmul a (N.lxor b c) = N.lxor (fmul a b) (fmul a c).
Proof.
  apply cong_unique; [apply fmul_lt|apply lxor_lt; apply fmul_lt|].
  apply cong_trans with (pmul a (N.lxor b c)); [apply cong_sym, fmul_cong|].
  rewrite pmul_lxor_r. apply cong_lxor; apply fmul_cong.
Qed.
Lemma fmul_lxor_l a b c : fmul (N.lxor a b) c = N.lxor (fmul a c) (fmul b c).
Proof. rewrite fmul_comm, fmul_lxor_r, (fmul_comm c a), (fmul_comm c b). reflexivity. Qed.
Lemma fmul_1_l a : a < 2^128 -> fmul 1 a = a.
Proof. intro H. unfold fmul. rewrite pmul_1_l. now apply pmod_small. Qed.
Lemma fmul_1_r a : a < 2^128 -> fmul a 1 = a.
Proof. rewrite fmul_comm. apply fmul_1_l. Qed.
Lemma fmul_0_l a : fmul 0 a = 0. Proof. reflexivity. Qed.
Lemma fmul_0_r a : fmul a 0 = 0. Proof. now rewrite fmul_comm. Qed.

Lemma fmul_is_field_product a b : is_field_product (fmul a b) a b.
Proof.
  split; [apply fmul_lt|]. destruct (fmul_cong a b) as [q Hq].
  exists (pmul a b), q, (pmul q F). repeat split; auto using pmul_is_poly_product.
  rewrite <- Hq. xor_solve.
Qed.
Lemma is_field_product_unique a b c : is_field_product c a b -> c = fmul a b.
Proof.
  intros (Hc & ab & q & qF & H1 & H2 & H3).
  apply is_poly_product_unique in H1. apply is_poly_product_unique in H2. subst.
  apply fmul_unique; auto. exists q. rewrite H3. xor_solve.
Qed.
