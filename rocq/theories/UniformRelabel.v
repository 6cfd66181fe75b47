(** Permuting the words of a stream permutes the numbers that are read from it. *)
From Verif Require Import Base BaseFacts ListFacts UniformSpec.
From Coq Require Import Permutation.
Local Open Scope Z_scope.

Definition renamed (number : N -> option Z) (q : Z) (nth_word : Z -> Z -> N) (p : Z -> Z) (w : N) : N :=
  match number w with
  | Some x => match find (fun r => N.eqb (nth_word x r) w) (zrange 0 q) with Some r => nth_word (p x) r | None => w end
  | None => w
  end.

Section Relabel.
  Variables (n q : Z) (number : N -> option Z) (nth_word : Z -> Z -> N).
  Hypothesis H1 : forall x r, 0 <= x < n -> 0 <= r < q -> (nth_word x r < 2^64)%N /\ number (nth_word x r) = Some x.
  Hypothesis H2 : forall x r r', 0 <= x < n -> 0 <= r < q -> 0 <= r' < q -> nth_word x r = nth_word x r' -> r = r'.
  Hypothesis H3 : forall w x, (w < 2^64)%N -> number w = Some x -> 0 <= x < n /\ exists r, 0 <= r < q /\ nth_word x r = w.
  Notation phi := (renamed number q nth_word).

  Lemma renamed_word p x r : 0 <= x < n -> 0 <= r < q -> phi p (nth_word x r) = nth_word (p x) r.
  Proof.
    intros Hx Hr. unfold renamed. rewrite (proj2 (H1 x r Hx Hr)). destruct (find _ _) as [r'|] eqn:F.
    - apply find_some in F. destruct F as [F1 F2]. apply In_zrange in F1. apply N.eqb_eq in F2. apply H2 in F2; auto. now subst.
    - exfalso. apply find_none with (x := r) in F; [|now apply In_zrange]. rewrite N.eqb_refl in F. discriminate.
  Qed.
  Lemma renamed_none p w : number w = None -> phi p w = w.
  Proof. intro H. unfold renamed. now rewrite H. Qed.
  Lemma renamed_number p w : (w < 2^64)%N -> (forall x, 0 <= x < n -> 0 <= p x < n) -> number (phi p w) = option_map p (number w).
  Proof.
    intros Hw Hp. destruct (number w) as [x|] eqn:E; [|now rewrite renamed_none].
    destruct (H3 w x Hw E) as (Hx & r & Hr & <-). rewrite renamed_word by auto. apply H1; auto.
  Qed.
  Lemma renamed_permutes p : permutes (fun x => 0 <= x < n) p -> permutes (fun w => w < 2^64)%N (phi p).
  Proof.
    intros [P1 (p' & P2)].
    assert (B : forall p, (forall x, 0 <= x < n -> 0 <= p x < n) -> forall w, (w < 2^64)%N -> (phi p w < 2^64)%N).
    { intros f Hf w Hw. destruct (number w) as [x|] eqn:E; [|now rewrite renamed_none].
      destruct (H3 w x Hw E) as (Hx & r & Hr & <-). rewrite renamed_word by auto. apply H1; auto. }
    split; [now apply B|]. exists (phi p'). intros w Hw. split; [apply B; auto; intros x Hx; now apply P2|].
    destruct (number w) as [x|] eqn:E.
    - destruct (H3 w x Hw E) as (Hx & r & Hr & <-). destruct (P2 x Hx) as (A1 & A2 & A3). rewrite !renamed_word; auto. now rewrite A2, A3.
    - rewrite !(renamed_none _ w); auto.
  Qed.

  Variable pi : Z -> Z -> Z.
  Hypothesis Hpi : forall k, permutes (fun x => 0 <= x < n) (pi k).
  Variable word : Z -> N.
  Hypothesis Hw : forall k, (word k < 2^64)%N.

  Lemma reads_renamed i l m : reads number word i l m ->
    reads number (fun k => phi (pi k) (word k)) i (map (fun '(k, x) => (k, pi k x)) l) m.
  Proof.
    induction 1 as [i|i j x l m A1 A2 A3 A4 IH]; [constructor|]. cbn [map]. apply reads_number; auto.
    - intros k Hk. rewrite renamed_number; [now rewrite A2|auto|apply Hpi].
    - rewrite renamed_number; [now rewrite A3|auto|apply Hpi].
  Qed.
  Lemma renamed_reads l : forall i m, Forall (fun '(_, x) => 0 <= x < n) l ->
    reads number (fun k => phi (pi k) (word k)) i (map (fun '(k, x) => (k, pi k x)) l) m -> reads number word i l m.
  Proof.
    induction l as [|[j x] l IH]; intros i m HF H; cbn [map] in H; inversion H as [|? ? ? ? ? A1 A2 A3 A4]; subst; [constructor|].
    inversion HF as [|? ? Hx HF']; subst. apply reads_number; auto.
    - intros k Hk. specialize (A2 k Hk). rewrite renamed_number in A2; [|auto|apply Hpi]. destruct (number (word k)); [discriminate|auto].
    - rewrite renamed_number in A3; [|auto|apply Hpi]. destruct (number (word j)) as [y|] eqn:E; [|discriminate]. injection A3 as A3. f_equal.
      destruct (H3 _ _ (Hw j) E) as [Hy _]. destruct (Hpi j) as [_ (p' & P)]. destruct (P x Hx) as (_ & _ & P1). destruct (P y Hy) as (_ & _ & P2). congruence.
  Qed.
  Lemma reads_range i l m : reads number word i l m -> Forall (fun '(_, x) => 0 <= x < n) l.
  Proof. induction 1; constructor; auto. eapply H3; eauto. Qed.
End Relabel.

Lemma relabel n number pi : equally_many n number -> (forall k, permutes (fun x => 0 <= x < n) (pi k)) ->
  exists phi, (forall k : Z, permutes (fun w => w < 2^64)%N (phi k)) /\
  forall word, (forall k, (word k < 2^64)%N) -> forall i l m, Forall (fun '(_, x) => 0 <= x < n) l ->
    (reads number word i l m <-> reads number (fun k => phi k (word k)) i (map (fun '(k, x) => (k, pi k x)) l) m).
Proof.
  intros (q & nth_word & _ & H1 & H2 & H3) Hpi. exists (fun k => renamed number q nth_word (pi k)). split.
  - intro k. now apply (renamed_permutes n).
  - intros word Hw i l m HF. split; [now apply (reads_renamed n)|now apply (renamed_reads n)].
Qed.

(** ** A permutation from one set to another *)
Fixpoint position (x : Z) (l : list Z) : nat :=
  match l with [] => O | y :: l => if Z.eq_dec x y then O else S (position x l) end.
Lemma position_nth x l : In x l -> nth (position x l) l 0 = x /\ (position x l < List.length l)%nat.
Proof.
  induction l as [|y l IH]; intro H; [contradiction|]. cbn. destruct (Z.eq_dec x y) as [->|N]; [split; [auto|lia]|].
  destruct H as [->|H]; [congruence|]. apply IH in H. split; [apply H|lia].
Qed.
Lemma nth_position l : NoDup l -> forall k, (k < List.length l)%nat -> position (nth k l 0) l = k.
Proof.
  induction 1 as [|y l Hy Hn IH]; intros k Hk; [cbn in Hk; lia|]. destruct k as [|k]; cbn; [now destruct (Z.eq_dec y y)|].
  cbn in Hk. destruct (Z.eq_dec (nth k l 0) y) as [E|_]; [|f_equal; apply IH; lia]. exfalso. apply Hy. rewrite <- E. apply nth_In. lia.
Qed.
Lemma full_list n A : NoDup A -> Forall (fun x => 0 <= x < n) A ->
  exists C, NoDup (A ++ C) /\ (forall x, In x (A ++ C) <-> 0 <= x < n) /\ List.length (A ++ C) = Z.to_nat n.
Proof.
  intros Hn HF. set (C := filter (fun x => if in_dec Z.eq_dec x A then false else true) (zrange 0 n)).
  assert (I : forall x, In x (A ++ C) <-> 0 <= x < n).
  { intro x. rewrite in_app_iff. unfold C. rewrite filter_In, In_zrange. rewrite Forall_forall in HF. destruct (in_dec Z.eq_dec x A) as [Hi|Hi]; [apply HF in Hi as Hj|]; intuition congruence. }
  assert (D : NoDup (A ++ C)).
  { assert (NC : NoDup C) by (apply NoDup_filter, zrange_NoDup). assert (X : forall x, In x A -> ~ In x C) by (intros x Hx HC; apply filter_In in HC; destruct HC as [_ HC]; destruct (in_dec Z.eq_dec x A); [discriminate|auto]).
    clearbody C. clear - Hn NC X. induction Hn as [|a A Ha Hn IH]; cbn; auto. constructor; [|apply IH; intros; apply X; cbn; auto]. rewrite in_app_iff. intros [H|H]; [auto|]. apply (X a); cbn; auto. }
  exists C. split; [auto|]. split; [auto|]. transitivity (List.length (zrange 0 n)).
  - apply Permutation_length, NoDup_Permutation; auto using zrange_NoDup. intro x. now rewrite I, In_zrange.
  - pose proof (zlen_zrange_max 0 n) as H. unfold zlen in H. lia.
Qed.
Lemma set_permutation n A B : NoDup A -> NoDup B -> List.length A = List.length B -> Forall (fun x => 0 <= x < n) A -> Forall (fun x => 0 <= x < n) B ->
  exists p, permutes (fun x => 0 <= x < n) p /\ map p A = B.
Proof.
  intros HA HB HL FA FB. destruct (full_list n A HA FA) as (C & C1 & C2 & C3). destruct (full_list n B HB FB) as (D & D1 & D2 & D3).
  exists (fun x => nth (position x (A ++ C)) (B ++ D) 0).
  assert (G : forall L L', NoDup L -> NoDup L' -> List.length L = List.length L' -> forall x, In x L -> In (nth (position x L) L' 0) L' /\ nth (position (nth (position x L) L' 0) L') L 0 = x).
  { intros L L' N N' EL x Hx. destruct (position_nth x L Hx) as [P1 P2]. split; [apply nth_In; lia|]. rewrite nth_position by (auto; lia). auto. }
  split.
  - split; [intros x Hx; apply D2; apply (G (A ++ C)); auto; [lia|now apply C2]|].
    exists (fun x => nth (position x (B ++ D)) (A ++ C) 0). intros x Hx. split; [apply C2; apply (G (B ++ D)); auto; [lia|now apply D2]|].
    split; [apply (G (B ++ D)); auto; [lia|now apply D2]|apply (G (A ++ C)); auto; [lia|now apply C2]].
  - apply (nth_ext _ _ 0 0); [now rewrite map_length|]. intros k Hk. rewrite map_length in Hk.
    rewrite (nth_indep _ 0 (nth (position 0 (A ++ C)) (B ++ D) 0)) by (now rewrite map_length). rewrite map_nth with (f := fun x => nth (position x (A ++ C)) (B ++ D) 0).
    assert (E : nth k A 0 = nth k (A ++ C) 0) by (now rewrite app_nth1). rewrite E, nth_position by (auto; rewrite app_length; lia). apply app_nth1. lia.
Qed.

(** ** Sets of numbers *)
Lemma nodup_map p l : (forall x y, In x l -> In y l -> p x = p y -> x = y) -> nodup Z.eq_dec (map p l) = map p (nodup Z.eq_dec l).
Proof.
  induction l as [|x l IH]; intro H; [reflexivity|]. cbn [map nodup]. destruct (in_dec Z.eq_dec x l) as [Hi|Hi], (in_dec Z.eq_dec (p x) (map p l)) as [Hj|Hj].
  - apply IH. intros; apply H; cbn; auto.
  - exfalso. apply Hj. now apply in_map.
  - exfalso. apply in_map_iff in Hj. destruct Hj as (y & E & Hy). apply H in E; cbn; auto. now subst.
  - cbn. f_equal. apply IH. intros; apply H; cbn; auto.
Qed.
Lemma permutes_inj {A} (P : A -> Prop) f x y : permutes P f -> P x -> P y -> f x = f y -> x = y.
Proof. intros [_ (g & H)] Hx Hy E. destruct (H x Hx) as (_ & _ & H1). destruct (H y Hy) as (_ & _ & H2). congruence. Qed.
Lemma permutes_inverse {A} (P : A -> Prop) f : permutes P f -> exists g, permutes P g /\ forall x, P x -> f (g x) = x /\ g (f x) = x.
Proof.
  intros [H1 (g & H)]. exists g. split; [split; [intros; now apply H|]; exists f; intros x Hx; destruct (H x Hx) as (A1 & A2 & A3); auto|]. intros x Hx. destruct (H x Hx) as (_ & A2 & A3). auto.
Qed.

Section Sets.
  Variables (n q : Z) (number : N -> option Z) (nth_word : Z -> Z -> N).
  Hypothesis H1 : forall x r, 0 <= x < n -> 0 <= r < q -> (nth_word x r < 2^64)%N /\ number (nth_word x r) = Some x.
  Hypothesis H2 : forall x r r', 0 <= x < n -> 0 <= r < q -> 0 <= r' < q -> nth_word x r = nth_word x r' -> r = r'.
  Hypothesis H3 : forall w x, (w < 2^64)%N -> number w = Some x -> 0 <= x < n /\ exists r, 0 <= r < q /\ nth_word x r = w.
  Notation phi := (renamed number q nth_word).

  Lemma different_renamed p word num set : permutes (fun x => 0 <= x < n) p -> (forall k, (word k < 2^64)%N) ->
    first_different number word num set -> first_different number (fun k => phi p (word k)) num (map p set).
  Proof.
    intros Hp Hw (l & m & A1 & A2 & A3 & A4). pose proof (reads_range n q number nth_word H3 word Hw 0 l m A1) as HF.
    assert (HF' : forall x, In x (map snd l) -> 0 <= x < n) by (intros x Hx; apply in_map_iff in Hx; destruct Hx as ([k y] & <- & Hx); exact (proj1 (Forall_forall _ _) HF _ Hx)).
    apply (reads_renamed n q number nth_word H1 H2 H3 (fun _ => p) (fun _ => Hp) word Hw) in A1.
    assert (E : map snd (map (fun '(k, x) => (k, p x)) l) = map p (map snd l)) by (rewrite !map_map; apply map_ext; now intros [k x]).
    eexists _, m. split; [exact A1|]. rewrite E. split; [|split].
    - rewrite nodup_map; [now apply Permutation_map|]. intros x y Hx Hy. apply (permutes_inj _ _ _ _ Hp); auto.
    - now rewrite zlen_map.
    - intros l' x E2. destruct (List.exists_last (l := map snd l)) as (l0 & x0 & E3); [intro E3; rewrite E3 in E2; destruct l'; discriminate|].
      rewrite E3, map_app in E2. apply app_inj_tail in E2. destruct E2 as [<- <-]. intro Hin. apply in_map_iff in Hin. destruct Hin as (y & Ey & Hy).
      apply (permutes_inj _ _ _ _ Hp) in Ey; [|apply HF'; rewrite E3; apply in_or_app; auto|apply HF'; rewrite E3; apply in_or_app; cbn; auto]. subst y. exact (A4 l0 x0 E3 Hy).
  Qed.
End Sets.

Lemma first_different_ext number word word' num set : (forall k, word k = word' k) -> first_different number word num set -> first_different number word' num set.
Proof.
  intros He (l & m & A1 & A2). exists l, m. split; [|auto]. clear A2. induction A1 as [i|i j x l m B1 B2 B3 B4 IH]; [constructor|]. apply reads_number; auto; [intros k Hk; rewrite <- He; auto|now rewrite <- He].
Qed.
Lemma first_different_perm number word num set set' : Permutation set set' -> first_different number word num set -> first_different number word num set'.
Proof.
  intros Hp (l & m & A1 & A2 & A3 & A4). exists l, m. split; [auto|]. split; [now rewrite <- Hp|]. split; [|auto]. unfold zlen in *. rewrite <- (Permutation_length Hp). auto.
Qed.

Lemma uniform_set n number num A B : equally_many n number ->
  NoDup A -> NoDup B -> zlen A = num -> zlen B = num -> Forall (fun x => 0 <= x < n) A -> Forall (fun x => 0 <= x < n) B ->
  exists phi, permutes (fun w => w < 2^64)%N phi /\
  forall word, (forall k, (word k < 2^64)%N) ->
    (first_different number word num A <-> first_different number (fun k => phi (word k)) num B).
Proof.
  intros (q & nth_word & _ & H1 & H2 & H3) NA NB LA LB FA FB.
  destruct (set_permutation n A B) as (p & Hp & Ep); auto; [unfold zlen in *; lia|].
  exists (renamed number q nth_word p). split; [now apply (renamed_permutes n)|]. intros word Hw. split.
  - intro H. rewrite <- Ep. now apply (different_renamed n).
  - intro H. destruct (permutes_inverse _ _ Hp) as (p' & Hp' & E).
    apply (different_renamed n q number nth_word H1 H2 H3 p' _ num B Hp') in H; [|intro k; apply (renamed_permutes n q number nth_word H1 H2 H3 p Hp); auto].
    assert (EA : map p' B = A).
    { rewrite <- Ep, map_map. rewrite <- (map_id A) at 2. apply map_ext_in. intros x Hx. apply E. exact (proj1 (Forall_forall _ _) FA _ Hx). }
    rewrite EA in H. eapply first_different_ext; [|exact H]. intro k. cbv beta.
    assert (R : forall w, (w < 2^64)%N -> renamed number q nth_word p' (renamed number q nth_word p w) = w).
    { intros w Hww. destruct (number w) as [x|] eqn:En.
      - destruct (H3 w x Hww En) as (Hx & r & Hr & <-). rewrite !(renamed_word n) by (auto; apply Hp; auto). f_equal. now apply E.
      - rewrite (renamed_none _ _ _ p w En). now apply renamed_none. }
    now apply R.
Qed.
