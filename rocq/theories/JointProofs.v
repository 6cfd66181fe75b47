(** Hybrid argument: n elements together are at most n times as far from uniform
    as one of them. *)
From Coq Require Import QArith Qabs Lqa.
From Verif Require Import Base BaseFacts ScalarModel ScalarSpec ScalarProofs ScalarFinal ViewSpec ViewProofs JointSpec.
Local Open Scope N_scope.

Lemma sum_swap m k (f : N -> N -> N) : sum_below m (fun v => sum_below k (fun w => f v w)) = sum_below k (fun w => sum_below m (fun v => f v w)).
Proof.
  induction m as [|m IH] using N.peano_ind.
  - change (0 = sum_below k (fun _ => 0)). rewrite sum_const. lia.
  - rewrite sum_succ, IH, <- sum_plus. apply sum_ext. intros. now rewrite sum_succ.
Qed.
Lemma lists_ext m n : forall E E', (forall l, Forall (fun v => v < m) l -> E l = E' l) -> lists_below m n E = lists_below m n E'.
Proof.
  induction n as [|n IH]; intros E E' H; cbn [lists_below].
  - now rewrite H by constructor.
  - apply sum_ext. intros v Hv. apply IH. intros l Hl. apply H. now constructor.
Qed.

Section Hybrid.
  Variable X : Type.
  (** Two random elements of X: [g1] of a uniform number below [m1], [g2] of one
      below [m2]. *)
  Variables m1 m2 : N.
  Variables g1 g2 : N -> X.
  Variables a b : N.
  Hypothesis close : forall f : X -> bool,
    b * count_below m1 (fun v => f (g1 v)) * m2 <= b * count_below m2 (fun v => f (g2 v)) * m1 + a * m1 * m2.

  Lemma first_replaced n : forall E : X -> list N -> bool,
    b * sum_below m1 (fun v => lists_below m2 n (E (g1 v))) * m2 <=
    b * sum_below m2 (fun v => lists_below m2 n (E (g2 v))) * m1 + a * m1 * m2 * m2 ^ N.of_nat n.
  Proof.
    induction n as [|n IH]; intro E; cbn [lists_below].
    - rewrite !(sum_count _ (fun v => E _ [])). cbn [N.of_nat]. rewrite N.pow_0_r, N.mul_1_r. apply (close (fun x => E x [])).
    - rewrite (sum_swap m1 m2), (sum_swap m2 m2).
      set (F1 := fun w => sum_below m1 (fun v => lists_below m2 n (fun l => E (g1 v) (w :: l)))).
      set (F2 := fun w => sum_below m2 (fun v => lists_below m2 n (fun l => E (g2 v) (w :: l)))).
      assert (H : forall w, b * F1 w * m2 <= b * F2 w * m1 + a * m1 * m2 * m2 ^ N.of_nat n)
        by (intro w; apply (IH (fun x l => E x (w :: l)))).
      clearbody F1 F2.
      rewrite (N.mul_comm b (sum_below m2 F1)), <- N.mul_assoc, <- sum_scale.
      rewrite (N.mul_comm b (sum_below m2 F2)), <- (N.mul_assoc _ b m1), <- sum_scale.
      replace (a * m1 * m2 * m2 ^ N.of_nat (S n)) with (sum_below m2 (fun _ => a * m1 * m2 * m2 ^ N.of_nat n))
        by (rewrite sum_const, Nat2N.inj_succ, N.pow_succ_r'; ring).
      rewrite <- sum_plus. apply sum_mono. intros w _. specialize (H w). nia.
  Qed.

  Lemma hybrid n : forall D : list X -> bool,
    b * lists_below m1 n (fun l => D (map g1 l)) * m2 ^ N.of_nat n <=
    b * lists_below m2 n (fun l => D (map g2 l)) * m1 ^ N.of_nat n + N.of_nat n * a * (m1 * m2) ^ N.of_nat n.
  Proof.
    induction n as [|n IH]; intro D; cbn [lists_below map].
    - cbn [N.of_nat]. rewrite !N.pow_0_r. lia.
    - pose proof (first_replaced n (fun x l => D (x :: map g2 l))) as F. cbv beta in F.
      set (F1 := fun v => lists_below m1 n (fun l => D (g1 v :: map g1 l))).
      set (H1 := fun v => lists_below m2 n (fun l => D (g1 v :: map g2 l))) in *.
      set (F2 := sum_below m2 _) in *.
      change (sum_below m2 _) with F2.
      assert (G : forall v, b * F1 v * m2 ^ N.of_nat n <= b * H1 v * m1 ^ N.of_nat n + N.of_nat n * a * (m1 * m2) ^ N.of_nat n)
        by (intro v; apply (IH (fun l => D (g1 v :: l)))).
      rewrite !Nat2N.inj_succ, !N.pow_succ_r'.
      set (p1 := m1 ^ N.of_nat n) in *. set (p2 := m2 ^ N.of_nat n) in *.
      assert (Ep : (m1 * m2) ^ N.of_nat n = p1 * p2) by apply N.pow_mul_l. rewrite Ep in *.
      assert (G' : b * sum_below m1 F1 * p2 <= b * sum_below m1 H1 * p1 + m1 * (N.of_nat n * a * (p1 * p2))).
      { replace (b * sum_below m1 F1 * p2) with (sum_below m1 (fun v => F1 v * (b * p2))) by (rewrite sum_scale; ring).
        replace (b * sum_below m1 H1 * p1) with (sum_below m1 (fun v => H1 v * (b * p1))) by (rewrite sum_scale; ring).
        rewrite <- (sum_const m1 (N.of_nat n * a * (p1 * p2))), <- sum_plus. apply sum_mono. intros v _. specialize (G v). nia. }
      clearbody F1 H1 F2 p1 p2. clear - F G'.
      set (s1 := sum_below m1 F1) in *. set (h1 := sum_below m1 H1) in *. clearbody s1 h1.
      rewrite <- N.add_1_r.
      assert (A1 : b * s1 * p2 * m2 <= (b * h1 * p1 + m1 * (N.of_nat n * a * (p1 * p2))) * m2) by (apply N.mul_le_mono_r; exact G').
      assert (A2 : b * h1 * m2 * p1 <= (b * F2 * m1 + a * m1 * m2 * p2) * p1) by (apply N.mul_le_mono_r; exact F).
      replace (b * s1 * (m2 * p2)) with (b * s1 * p2 * m2) by ring.
      etransitivity; [exact A1|].
      replace ((b * h1 * p1 + m1 * (N.of_nat n * a * (p1 * p2))) * m2) with (b * h1 * m2 * p1 + m1 * (N.of_nat n * a * (p1 * p2)) * m2) by ring.
      replace (b * F2 * (m1 * p1) + (N.of_nat n + 1) * a * (m1 * m2 * (p1 * p2)))
        with ((b * F2 * m1 + a * m1 * m2 * p2) * p1 + m1 * (N.of_nat n * a * (p1 * p2)) * m2) by ring.
      apply N.add_le_mono_r. exact A2.
  Qed.
End Hybrid.

Lemma Q_of_N_pos m : 0 < m -> (0 < inject_Z (Z.of_N m))%Q.
Proof. intro H. change 0%Q with (inject_Z 0). rewrite <- Zlt_Qlt. lia. Qed.
Lemma Q_le_N x y : x <= y <-> (inject_Z (Z.of_N x) <= inject_Z (Z.of_N y))%Q.
Proof. rewrite <- Zle_Qle. lia. Qed.

(** a / m <= b / n + e, without fractions *)
Lemma frac_le c1 m1 c2 m2 a b : 0 < m1 -> 0 < m2 -> 0 < b ->
  (inject_Z (Z.of_N c1) / inject_Z (Z.of_N m1) <= inject_Z (Z.of_N c2) / inject_Z (Z.of_N m2) + inject_Z (Z.of_N a) / inject_Z (Z.of_N b))%Q
  <-> b * c1 * m2 <= b * c2 * m1 + a * m1 * m2.
Proof.
  intros H1 H2 Hb. rewrite Q_le_N, !N2Z.inj_add, !N2Z.inj_mul, !inject_Z_plus, !inject_Z_mult.
  apply Q_of_N_pos in H1, H2, Hb.
  set (x1 := inject_Z (Z.of_N m1)) in *. set (x2 := inject_Z (Z.of_N m2)) in *. set (y := inject_Z (Z.of_N b)) in *.
  set (u := inject_Z (Z.of_N c1)). set (v := inject_Z (Z.of_N c2)). set (w := inject_Z (Z.of_N a)). clearbody x1 x2 y u v w.
  assert (P : (0 < x1 * x2 * y)%Q) by (repeat apply Qmult_lt_0_compat; assumption).
  assert (E1 : (u / x1 * (x1 * x2 * y) == y * u * x2)%Q) by (field; now apply Qnot_eq_sym, Qlt_not_eq).
  assert (E2 : ((v / x2 + w / y) * (x1 * x2 * y) == y * v * x1 + w * x1 * x2)%Q)
    by (field; split; now apply Qnot_eq_sym, Qlt_not_eq).
  rewrite <- E1, <- E2. symmetry. apply Qmult_le_r. exact P.
Qed.

Lemma joint_le X m1 m2 (g1 g2 : N -> X) eps : 0 < m1 -> 0 < m2 -> (0 <= eps)%Q ->
  (forall f : X -> bool, fraction m1 (fun v => f (g1 v)) <= fraction m2 (fun v => f (g2 v)) + eps)%Q ->
  forall n (D : list X -> bool),
  (fraction_of_lists m1 n (fun l => D (map g1 l)) <= fraction_of_lists m2 n (fun l => D (map g2 l)) + inject_Z (Z.of_nat n) * eps)%Q.
Proof.
  intros H1 H2 He C n D. destruct eps as [num den].
  assert (Hnum : (0 <= num)%Z) by (unfold Qle in He; cbn in He; lia).
  assert (Ee : (num # den == inject_Z (Z.of_N (Z.to_N num)) / inject_Z (Z.of_N (Npos den)))%Q).
  { rewrite Z2N.id by exact Hnum. cbn [Z.of_N]. rewrite Qmake_Qdiv. reflexivity. }
  assert (C' : forall f : X -> bool,
    Npos den * count_below m1 (fun v => f (g1 v)) * m2 <= Npos den * count_below m2 (fun v => f (g2 v)) * m1 + Z.to_N num * m1 * m2).
  { intro f. apply frac_le; try assumption; [reflexivity|]. rewrite <- Ee. apply C. }
  pose proof (hybrid X m1 m2 g1 g2 (Z.to_N num) (Npos den) C' n D) as H.
  rewrite Ee. unfold fraction_of_lists.
  replace (inject_Z (Z.of_nat n)) with (inject_Z (Z.of_N (N.of_nat n))) by now rewrite nat_N_Z.
  unfold Qdiv at 3. rewrite Qmult_assoc, <- inject_Z_mult, <- N2Z.inj_mul.
  apply frac_le; try reflexivity; try (apply N.neq_0_lt_0, N.pow_nonzero; lia).
  rewrite N.pow_mul_l, N.mul_assoc in H. exact H.
Qed.

Lemma joint_distance X m1 m2 (g1 g2 : N -> X) eps : 0 < m1 -> 0 < m2 -> (0 <= eps)%Q ->
  (forall f : X -> bool, Qabs (fraction m1 (fun v => f (g1 v)) - fraction m2 (fun v => f (g2 v))) <= eps)%Q ->
  forall n (D : list X -> bool),
  (Qabs (fraction_of_lists m1 n (fun l => D (map g1 l)) - fraction_of_lists m2 n (fun l => D (map g2 l))) <= inject_Z (Z.of_nat n) * eps)%Q.
Proof.
  intros H1 H2 He C n D.
  assert (A : (fraction_of_lists m1 n (fun l => D (map g1 l)) <= fraction_of_lists m2 n (fun l => D (map g2 l)) + inject_Z (Z.of_nat n) * eps)%Q).
  { apply joint_le; try assumption. intro f. specialize (C f). apply Qabs_Qle_condition in C. Lqa.lra. }
  assert (B : (fraction_of_lists m2 n (fun l => D (map g2 l)) <= fraction_of_lists m1 n (fun l => D (map g1 l)) + inject_Z (Z.of_nat n) * eps)%Q).
  { apply joint_le; try assumption. intro f. specialize (C f). apply Qabs_Qle_condition in C. Lqa.lra. }
  apply Qabs_Qle_condition. set (x := fraction_of_lists m1 n _) in *. set (y := fraction_of_lists m2 n _) in *.
  set (e := (inject_Z (Z.of_nat n) * eps)%Q) in *. clearbody x y e. split; Lqa.lra.
Qed.

(** ** Elements of the scalar types *)
Lemma order_pos t : 0 < order t.
Proof. destruct t; cbn; lia. Qed.
Lemma joint_elements t n eps (D : list (scalar_of t) -> bool) : (0 <= eps)%Q ->
  (forall B, Qabs (hash_prob t 128 B - uniform_prob t B) <= eps)%Q ->
  (Qabs (joint_hash_prob t n D - joint_uniform_prob t n D) <= inject_Z (Z.of_nat n) * eps)%Q.
Proof. intros He C. apply joint_distance; [reflexivity|apply order_pos|exact He|exact C]. Qed.

(** One element, and independent events. *)
Lemma lists_one m f : lists_below m 1 (fun l => f (hd 0 l)) = count_below m f.
Proof. cbn [lists_below hd]. apply sum_count. Qed.

Lemma together t K n (D : list (scalar_of t) -> bool) : stype_ok t -> (s_size (scalar_of t) <= 16)%Z -> (0 < K)%Q -> (1 <= n)%nat ->
  (forall B, Qabs (hash_prob t 128 B - uniform_prob t B) < 1 / (inject_Z (Z.of_nat n) * K))%Q ->
  (Qabs (joint_hash_prob t n D - joint_uniform_prob t n D) <= 1 / K)%Q.
Proof.
  intros Ht Hs HK Hn C.
  assert (Pn : (0 < inject_Z (Z.of_nat n))%Q) by (change 0%Q with (inject_Z 0); rewrite <- Zlt_Qlt; lia).
  assert (E : (inject_Z (Z.of_nat n) * (1 / (inject_Z (Z.of_nat n) * K)) == 1 / K)%Q)
    by (field; split; now apply Qnot_eq_sym, Qlt_not_eq).
  rewrite <- E. apply joint_elements.
  - apply Qlt_le_weak, Qlt_shift_div_l; [now apply Qmult_lt_0_compat|]. rewrite Qmult_0_l. reflexivity.
  - intro B. apply Qlt_le_weak, C.
Qed.
