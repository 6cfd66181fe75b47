(** Counting lists of blocks. *)
From Coq Require Import QArith Permutation.
From Verif Require Import Base BaseFacts ListFacts ScalarModel ScalarSpec ScalarFinal GilboaSpec ViewSpec.
Local Open Scope N_scope.

Lemma sum_succ n f : sum_below (N.succ n) f = f n + sum_below n f.
Proof. unfold sum_below. now rewrite N.peano_rect_succ. Qed.
Lemma sum_ext n f g : (forall v, v < n -> f v = g v) -> sum_below n f = sum_below n g.
Proof.
  induction n as [|n IH] using N.peano_ind; intro H; [reflexivity|].
  rewrite !sum_succ, H by lia. rewrite IH; [reflexivity|]. intros; apply H; lia.
Qed.
Lemma sum_mono n f g : (forall v, v < n -> f v <= g v) -> sum_below n f <= sum_below n g.
Proof.
  induction n as [|n IH] using N.peano_ind; intro H; [reflexivity|].
  rewrite !sum_succ. apply N.add_le_mono; [apply H; lia|]. apply IH. intros; apply H; lia.
Qed.
Lemma sum_plus n f g : sum_below n (fun v => f v + g v) = sum_below n f + sum_below n g.
Proof. induction n as [|n IH] using N.peano_ind; [reflexivity|]. rewrite !sum_succ, IH. lia. Qed.
Lemma sum_scale n (c : N) f : sum_below n (fun v => f v * c) = sum_below n f * c.
Proof. induction n as [|n IH] using N.peano_ind; [reflexivity|]. rewrite !sum_succ, IH. lia. Qed.
Lemma sum_const n (c : N) : sum_below n (fun _ => c) = n * c.
Proof. induction n as [|n IH] using N.peano_ind; [reflexivity|]. rewrite !sum_succ, IH. lia. Qed.
Lemma sum_count n (P : N -> bool) : sum_below n (fun v => if P v then 1 else 0) = count_below n P.
Proof. reflexivity. Qed.

Definition below (n : N) : list N := map N.of_nat (seq 0 (N.to_nat n)).
Lemma below_succ n : below (N.succ n) = below n ++ [n].
Proof. unfold below. rewrite N2Nat.inj_succ, seq_S, map_app. cbn [map]. now rewrite Nat.add_0_l, N2Nat.id. Qed.
Definition total (l : list N) : N := fold_right N.add 0 l.
Lemma total_app a b : total (a ++ b) = total a + total b.
Proof. unfold total. induction a as [|x a IH]; [reflexivity|]. cbn [app fold_right]. rewrite IH. lia. Qed.
Lemma sum_total n f : sum_below n f = total (map f (below n)).
Proof.
  induction n as [|n IH] using N.peano_ind; [reflexivity|].
  rewrite sum_succ, below_succ, map_app, total_app, <- IH. cbn. lia.
Qed.
Lemma In_below n x : In x (below n) <-> x < n.
Proof.
  unfold below. rewrite in_map_iff. split.
  - intros (k & <- & Hk). apply in_seq in Hk. lia.
  - intro H. exists (N.to_nat x). split; [apply N2Nat.id|]. apply in_seq. lia.
Qed.
Lemma NoDup_below n : NoDup (below n).
Proof. unfold below. apply FinFun.Injective_map_NoDup; [intros a b; lia|apply seq_NoDup]. Qed.
Lemma total_perm a b : Permutation a b -> total a = total b.
Proof. unfold total. induction 1; cbn [fold_right]; lia. Qed.

Lemma NoDup_map_in {A B} (g : A -> B) l : (forall a b, In a l -> In b l -> g a = g b -> a = b) -> NoDup l -> NoDup (map g l).
Proof.
  intros H D. induction D as [|x l Hx D IH]; cbn [map]; constructor.
  - intro Hin. apply in_map_iff in Hin. destruct Hin as (y & E & Hy). apply Hx. rewrite (H x y); auto; [now left|now right].
  - apply IH. intros a b Ha Hb. apply H; now right.
Qed.

Lemma sum_permuted M (f g h : N -> N) : (forall x, x < M -> g x < M /\ h x < M /\ h (g x) = x /\ g (h x) = x) ->
  sum_below M (fun b => f (g b)) = sum_below M f.
Proof.
  intros H. rewrite !sum_total. rewrite <- (map_map g f). apply total_perm, Permutation_map.
  apply NoDup_Permutation.
  - apply NoDup_map_in; [|apply NoDup_below].
    intros a b Ha Hb E. apply In_below in Ha, Hb. destruct (H a Ha) as (_ & _ & Ea & _), (H b Hb) as (_ & _ & Eb & _). congruence.
  - apply NoDup_below.
  - intro x. rewrite in_map_iff. rewrite In_below. split.
    + intros (a & <- & Ha). apply In_below in Ha. apply (H a Ha).
    + intro Hx. destruct (H x Hx) as (_ & Hg & _ & E). exists (h x). split; [exact E|]. apply In_below, Hg.
Qed.
Lemma sum_bijection f g : block_bijection g -> sum_below (2^128) (fun b => f (g b)) = sum_below (2^128) f.
Proof. intros [h H]. exact (sum_permuted (2^128) f g h H). Qed.
Global Opaque sum_below.

(** ** Lists of blocks *)
Definition blocks (n : nat) (l : list N) : Prop := List.length l = n /\ Forall (fun b => b < 2^128) l.
Lemma blocks_cons n b l : b < 2^128 -> blocks n l -> blocks (S n) (b :: l).
Proof. intros Hb [H1 H2]. split; [cbn; lia|now constructor]. Qed.

Lemma out_mono n : forall E E', (forall l, blocks n l -> E l = true -> E' l = true) -> outcomes n E <= outcomes n E'.
Proof.
  induction n as [|n IH]; intros E E' H; cbn [outcomes].
  - specialize (H [] (conj eq_refl (Forall_nil _))). destruct (E []); [rewrite H by reflexivity; lia|]. destruct (E' []); lia.
  - apply sum_mono. intros b Hb. apply IH. intros l Hl. apply H. now apply blocks_cons.
Qed.
Lemma out_ext n E E' : (forall l, blocks n l -> E l = E' l) -> outcomes n E = outcomes n E'.
Proof. intro H. apply N.le_antisymm; apply out_mono; intros l Hl; rewrite H by exact Hl; auto. Qed.
Lemma out_union n : forall E E', outcomes n (fun l => E l || E' l) <= outcomes n E + outcomes n E'.
Proof.
  induction n as [|n IH]; intros E E'; cbn [outcomes].
  - destruct (E []), (E' []); cbn; lia.
  - rewrite <- sum_plus. apply sum_mono. intros b _. apply IH.
Qed.
Lemma out_false n : outcomes n (fun _ => false) = 0.
Proof.
  induction n as [|n IH]; cbn [outcomes]; [reflexivity|].
  rewrite (sum_ext _ _ (fun _ => 0)) by (intros; exact IH). rewrite sum_const. lia.
Qed.
Definition size_of (n : nat) : N := 2 ^ (128 * N.of_nat n).
Lemma size_S n : size_of (S n) = 2^128 * size_of n.
Proof. unfold size_of. rewrite <- N.pow_add_r. f_equal. lia. Qed.
Lemma size_Z n : Z.of_N (size_of n) = (2 ^ (128 * Z.of_nat n))%Z.
Proof. unfold size_of. rewrite N2Z.inj_pow. f_equal. lia. Qed.
Lemma out_all n : outcomes n (fun _ => true) = size_of n.
Proof.
  induction n as [|n IH]; cbn [outcomes]; [reflexivity|].
  rewrite (sum_ext _ _ (fun _ => size_of n)) by (intros; exact IH). now rewrite sum_const, size_S.
Qed.
Lemma out_exists {A} n (E : A -> list N -> bool) B (xs : list A) : (forall x, In x xs -> outcomes n (E x) <= B) ->
  outcomes n (fun l => existsb (fun x => E x l) xs) <= N.of_nat (List.length xs) * B.
Proof.
  induction xs as [|x xs IH]; intro H; cbn [existsb List.length].
  - rewrite out_false. lia.
  - pose proof (out_union n (E x) (fun l => existsb (fun x => E x l) xs)) as U. cbv beta in U.
    specialize (H x (or_introl eq_refl)) as Hx. specialize (IH (fun x Hx => H x (or_intror Hx))). lia.
Qed.

(** One bijection per block. *)
Fixpoint move (f : nat -> N -> N) (l : list N) : list N :=
  match l with
  | [] => []
  | b :: l => f O b :: move (fun i => f (S i)) l
  end.
Lemma nth_move f l i : nth i (move f l) 0 = if (i <? List.length l)%nat then f i (nth i l 0) else 0.
Proof.
  revert f i. induction l as [|b l IH]; intros f i; cbn [move].
  - now destruct i.
  - destruct i as [|i]; [reflexivity|]. cbn [nth]. rewrite IH. reflexivity.
Qed.
Lemma out_move n : forall f E, (forall i, block_bijection (f i)) -> outcomes n (fun l => E (move f l)) = outcomes n E.
Proof.
  induction n as [|n IH]; intros f E H; cbn [outcomes move]; [reflexivity|].
  etransitivity; [|exact (sum_bijection (fun b => outcomes n (fun l => E (b :: l))) (f O) (H O))].
  apply sum_ext. intros b _.
  apply (IH (fun i => f (S i)) (fun l => E (f O b :: l))). intro i. apply H.
Qed.

(** An event about one block; independent events. *)
Fixpoint each (P : nat -> N -> bool) (l : list N) : bool :=
  match l with
  | [] => true
  | b :: l => P O b && each (fun i => P (S i)) l
  end.
Fixpoint product (n : nat) (f : nat -> N) : N :=
  match n with
  | O => 1
  | S n => f O * product n (fun i => f (S i))
  end.
Lemma out_each n : forall P, outcomes n (each P) = product n (fun i => count_below (2^128) (P i)).
Proof.
  induction n as [|n IH]; intro P; cbn [outcomes each product]; [reflexivity|].
  rewrite (sum_ext _ _ (fun b => (if P O b then 1 else 0) * outcomes n (each (fun i => P (S i))))).
  - now rewrite sum_scale, sum_count, IH.
  - intros b _. destruct (P O b); cbn [andb]; [rewrite N.mul_1_l; reflexivity|]. rewrite out_false. lia.
Qed.
Lemma each_nth P l : each P l = true <-> forall i, (i < List.length l)%nat -> P i (nth i l 0) = true.
Proof.
  revert P. induction l as [|b l IH]; intro P; cbn [each List.length].
  - split; [lia|auto].
  - rewrite andb_true_iff, IH. split.
    + intros [H1 H2] [|i] Hi; [exact H1|]. apply H2. lia.
    + intro H. split; [apply (H O); lia|]. intros i Hi. apply (H (S i)). lia.
Qed.
Lemma count_all n f : (forall v, v < n -> f v = true) -> count_below n f = n.
Proof.
  induction n as [|n IH] using N.peano_ind; intro H; [reflexivity|].
  rewrite count_succ, H, IH by (intros; try apply H; lia). lia.
Qed.
Lemma product_one n : forall f i, (i < n)%nat -> (forall j, (j < n)%nat -> j <> i -> f j = 2^128) ->
  product n f * 2^128 = f i * size_of n.
Proof.
  assert (A : forall n f, (forall j, (j < n)%nat -> f j = 2^128) -> product n f = size_of n).
  { induction n0 as [|n0 IH]; intros f H; cbn [product]; [reflexivity|].
    rewrite H, IH, size_S by (intros; try apply H; lia). reflexivity. }
  induction n as [|n IH]; intros f i Hi H; [lia|]. cbn [product]. rewrite size_S. destruct i as [|i].
  - rewrite A; [lia|]. intros j Hj. apply H; lia.
  - rewrite (H O) by lia. specialize (IH (fun i => f (S i)) i ltac:(lia)). cbv beta in IH.
    rewrite <- N.mul_assoc, IH; [lia|]. intros j Hj Hne. apply H; lia.
Qed.
Lemma out_nth n i P : (i < n)%nat -> outcomes n (fun l => P (nth i l 0)) * 2^128 = count_below (2^128) P * size_of n.
Proof.
  intro Hi. rewrite (out_ext n _ (each (fun j b => if Nat.eqb j i then P b else true))).
  - rewrite out_each, (product_one n _ i Hi).
    + now rewrite Nat.eqb_refl.
    + intros j _ Hne. apply count_all. intros v _. replace (Nat.eqb j i) with false by (symmetry; apply Nat.eqb_neq; auto). reflexivity.
  - intros l [Hl _]. apply Bool.eq_iff_eq_true. rewrite each_nth. split.
    + intros H j Hj. destruct (Nat.eqb_spec j i) as [->|]; auto.
    + intro H. specialize (H i ltac:(lia)). now rewrite Nat.eqb_refl in H.
Qed.

(** Events that coincide, up to a bijection, unless something bad happens. *)
Lemma coupling n f V V' bad : (forall i, block_bijection (f i)) ->
  (forall l, blocks n l -> bad l = false -> V l = V' (move f l)) ->
  (Z.abs (Z.of_N (outcomes n V) - Z.of_N (outcomes n V')) <= Z.of_N (outcomes n bad))%Z.
Proof.
  intros Hf H. rewrite <- (out_move n f V' Hf).
  assert (A : outcomes n V <= outcomes n (fun l => V' (move f l)) + outcomes n bad).
  { etransitivity; [|apply out_union]. apply out_mono. intros l Hl E. destruct (bad l) eqn:B; [apply orb_true_r|].
    rewrite <- H by auto. now rewrite E. }
  assert (B : outcomes n (fun l => V' (move f l)) <= outcomes n V + outcomes n bad).
  { etransitivity; [|apply out_union]. apply out_mono. intros l Hl E. destruct (bad l) eqn:B; [apply orb_true_r|].
    rewrite H by auto. now rewrite E. }
  lia.
Qed.

(** ** Parts of a block *)
Lemma count_div A m P : 0 < A -> count_below (m * A) (fun b => P (b / A)) = A * count_below m P.
Proof.
  intro HA. induction m as [|m IH] using N.peano_ind; [rewrite count_0; cbn; lia|].
  replace (N.succ m * A) with (m * A + A) by lia. rewrite count_add, IH, count_succ.
  destruct (P m) eqn:E.
  - rewrite (count_all A); [lia|]. intros v Hv. rewrite N.div_add_l, N.div_small by lia. now rewrite N.add_0_r.
  - rewrite (count_false A); [lia|]. intros v Hv. rewrite N.div_add_l, N.div_small by lia. now rewrite N.add_0_r.
Qed.
Lemma count_chunk s w P : s + w <= 128 ->
  count_below (2^128) (fun b => P (N.shiftr b s mod 2^w)) * 2^w = count_below (2^w) P * 2^128.
Proof.
  intro H. set (r := 128 - s - w).
  assert (E : 2^128 = 2^r * 2^w * 2^s) by (rewrite <- !N.pow_add_r; f_equal; lia).
  pose proof (N.pow_nonzero 2 s). pose proof (N.pow_nonzero 2 w).
  rewrite (count_ext _ _ (fun b => P ((b / 2^s) mod 2^w))) by (intros; now rewrite N.shiftr_div_pow2).
  rewrite E at 1. rewrite (count_div (2^s) (2^r * 2^w) (fun c => P (c mod 2^w))) by lia.
  replace (2^r * 2^w) with (2^r * 2^w + 0) at 1 by lia. rewrite (count_mod (2^w) (2^r) 0 P) by lia.
  rewrite count_0, E. lia.
Qed.
