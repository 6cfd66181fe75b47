(** Facts about sums of scalars over index ranges. *)
From Verif Require Import Base BaseFacts ListFacts ScalarModel ScalarSpec ScalarProofs.
From Coq Require Import Ring_theory Ring Permutation.
Local Open Scope Z_scope.

Section Sum.
  Variable S : scalar.
  Hypothesis L : scalar_laws S.
  Add Ring SR2 : (sl_ring S L).
  Notation sum := (s_sum S).
  Notation add := (s_add S).
  Notation "'s0'" := (s_zero S).

  Lemma sum_cons x l : sum (x :: l) = add x (sum l).
  Proof. reflexivity. Qed.
  Lemma sum_snoc l x : sum (l ++ [x]) = add (sum l) x.
  Proof. rewrite (s_sum_app S (sl_ring S L)). cbn. ring. Qed.
  Lemma sum_range_snoc (f : Z -> S) n : 0 <= n -> sum (map f (zrange 0 (n + 1))) = add (sum (map f (zrange 0 n))) (f n).
  Proof. intro H. rewrite zrange_snoc by lia. rewrite map_app. apply sum_snoc. Qed.
  Lemma sum_perm l l' : Permutation l l' -> sum l = sum l'.
  Proof. unfold s_sum. induction 1; cbn; try congruence. ring. Qed.
  Lemma sum_zero {A} (f : A -> S) l : (forall a, In a l -> f a = s0) -> sum (map f l) = s0.
  Proof.
    induction l as [|a l IH]; intro H; cbn [map]; [reflexivity|].
    rewrite sum_cons, IH by (intros b Hb; apply H; now right). rewrite H by now left. ring.
  Qed.
  Lemma sum_add {A} (f g : A -> S) l : sum (map (fun a => add (f a) (g a)) l) = add (sum (map f l)) (sum (map g l)).
  Proof. induction l as [|a l IH]; cbn [map]; rewrite ?sum_cons, ?IH; cbn; ring. Qed.
  Lemma sum_opp {A} (f : A -> S) l : sum (map (fun a => s_opp S (f a)) l) = s_opp S (sum (map f l)).
  Proof. induction l as [|a l IH]; cbn [map]; rewrite ?sum_cons, ?IH; cbn; ring. Qed.
  Lemma sum_scale {A} (f : A -> S) c l : sum (map (fun a => s_mul S c (f a)) l) = s_mul S c (sum (map f l)).
  Proof. induction l as [|a l IH]; cbn [map]; rewrite ?sum_cons, ?IH; cbn; ring. Qed.
  Lemma sum_ext {A} (f g : A -> S) l : (forall a, In a l -> f a = g a) -> sum (map f l) = sum (map g l).
  Proof. intro H. f_equal. now apply map_ext_in. Qed.
  (** A sum with at most one term. *)
  Lemma sum_single (f : Z -> S) l k : NoDup l -> In k l -> (forall j, In j l -> j <> k -> f j = s0) -> sum (map f l) = f k.
  Proof.
    induction l as [|a l IH]; intros Hd Hk H; [destruct Hk|]. inversion Hd; subst. cbn [map]. rewrite sum_cons.
    destruct Hk as [->|Hk].
    - rewrite sum_zero; [ring|]. intros j Hj. apply H; [now right|congruence].
    - rewrite IH; auto.
      + rewrite H; [ring|now left|congruence].
      + intros j Hj. apply H. now right.
  Qed.
  Lemma sum_filter {A} (p : A -> bool) (f : A -> S) l : sum (map f (filter p l)) = sum (map (fun a => if p a then f a else s0) l).
  Proof.
    induction l as [|a l IH]; cbn [filter map]; [reflexivity|]. destruct (p a); cbn [map]; rewrite ?sum_cons, IH; [reflexivity|ring].
  Qed.
  Lemma sum_swap {A B} (f : A -> B -> S) la lb :
    sum (map (fun a => sum (map (f a) lb)) la) = sum (map (fun b => sum (map (fun a => f a b) la)) lb).
  Proof.
    induction la as [|a la IH]; cbn [map].
    - symmetry. apply sum_zero. reflexivity.
    - rewrite sum_cons, IH. rewrite <- sum_add. reflexivity.
  Qed.
End Sum.
