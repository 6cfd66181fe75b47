(** Facts about the vocabulary of Base.v. *)
From Verif Require Import Base.
#[local] Ltac Zify.zify_post_hook ::= Z.div_mod_to_equations.

Lemma zlen_nonneg {A} (l : list A) : 0 <= zlen l.
Proof. unfold zlen; lia. Qed.
Lemma zlen_nil {A} : zlen (@nil A) = 0.
Proof. reflexivity. Qed.
Lemma zlen_cons {A} (a : A) l : zlen (a :: l) = zlen l + 1.
Proof. unfold zlen; cbn [List.length]; lia. Qed.
Lemma zlen_app {A} (l1 l2 : list A) : zlen (l1 ++ l2) = zlen l1 + zlen l2.
Proof. unfold zlen; rewrite app_length; lia. Qed.
Lemma zlen_map {A B} (f : A -> B) l : zlen (map f l) = zlen l.
Proof. unfold zlen; rewrite map_length; reflexivity. Qed.
Lemma zlen_repeat {A} (a : A) n : zlen (repeat a n) = Z.of_nat n.
Proof. unfold zlen; rewrite repeat_length; reflexivity. Qed.
Lemma zlen_zrepeat {A} (a : A) n : 0 <= n -> zlen (zrepeat a n) = n.
Proof. intro H; unfold zrepeat; rewrite zlen_repeat; lia. Qed.
Lemma zlen_0_nil {A} (l : list A) : zlen l = 0 -> l = [].
Proof. destruct l; [reflexivity|rewrite zlen_cons]. pose proof (zlen_nonneg l); lia. Qed.

Lemma list_set_length {A} (l : list A) n a : List.length (list_set l n a) = List.length l.
Proof. revert n; induction l as [|h t IH]; intros [|n]; cbn; congruence. Qed.
Lemma zlen_list_set {A} (l : list A) n a : zlen (list_set l n a) = zlen l.
Proof. unfold zlen; now rewrite list_set_length. Qed.

Lemma nth_list_set_eq {A} (l : list A) n a d :
  (n < List.length l)%nat -> nth n (list_set l n a) d = a.
Proof. revert n; induction l as [|h t IH]; intros [|n] H; cbn in *; try lia; auto. apply IH; lia. Qed.
Lemma nth_list_set_neq {A} (l : list A) n m a d :
  n <> m -> nth m (list_set l n a) d = nth m l d.
Proof.
  revert n m; induction l as [|h t IH]; intros [|n] [|m] H; cbn; try congruence; auto.
Qed.

Lemma zget_ok {A} (d : A) l i : 0 <= i < zlen l -> zget l i = Ok (znth d l i).
Proof.
  intros H; unfold zget, znth.
  replace ((0 <=? i) && (i <? zlen l)) with true by lia.
  replace (i <? 0) with false by lia.
  rewrite (nth_error_nth' l d); [reflexivity|]. unfold zlen in H; lia.
Qed.
Lemma zget_ub {A} (l : list A) i : ~ (0 <= i < zlen l) -> zget l i = UB "vector index out of bounds".
Proof. intros H; unfold zget. now replace ((0 <=? i) && (i <? zlen l)) with false by lia. Qed.
Lemma zget_inv {A} (l : list A) i a : zget l i = Ok a -> 0 <= i < zlen l /\ forall d, znth d l i = a.
Proof.
  intro H. destruct (Z_lt_dec i 0); [rewrite zget_ub in H by lia; discriminate|].
  destruct (Z_lt_dec i (zlen l)); [|rewrite zget_ub in H by lia; discriminate].
  split; [lia|]. intro d. rewrite (zget_ok d) in H by lia. congruence.
Qed.
Lemma zset_ok {A} (l : list A) i a : 0 <= i < zlen l -> zset l i a = Ok (list_set l (Z.to_nat i) a).
Proof. intros H; unfold zset. now replace ((0 <=? i) && (i <? zlen l)) with true by lia. Qed.
Lemma zset_ub {A} (l : list A) i a : ~ (0 <= i < zlen l) -> zset l i a = UB "vector store out of bounds".
Proof. intros H; unfold zset. now replace ((0 <=? i) && (i <? zlen l)) with false by lia. Qed.

Lemma znth_list_set_eq {A} (d : A) l i a :
  0 <= i < zlen l -> znth d (list_set l (Z.to_nat i) a) i = a.
Proof. intro H; unfold znth. replace (i <? 0) with false by lia. apply nth_list_set_eq. unfold zlen in H; lia. Qed.
Lemma znth_list_set_neq {A} (d : A) l i j a :
  0 <= i -> i <> j -> znth d (list_set l (Z.to_nat i) a) j = znth d l j.
Proof. intros H Hn; unfold znth. destruct (Z.ltb_spec j 0); auto. apply nth_list_set_neq; lia. Qed.
Lemma znth_list_set {A} (d : A) l i j a :
  0 <= i < zlen l ->
  znth d (list_set l (Z.to_nat i) a) j = if i =? j then a else znth d l j.
Proof.
  intro H. destruct (Z.eqb_spec i j) as [->|Hn];
    [now apply znth_list_set_eq | apply znth_list_set_neq; lia].
Qed.

Lemma znth_nil {A} (d : A) i : znth d [] i = d.
Proof. unfold znth. destruct (i <? 0); [reflexivity|]. now destruct (Z.to_nat i). Qed.
Lemma znth_out {A} (d : A) l i : ~ (0 <= i < zlen l) -> znth d l i = d.
Proof. unfold znth, zlen. intro H. destruct (Z.ltb_spec i 0); auto. apply nth_overflow; lia. Qed.
Lemma znth_cons {A} (d : A) a l i : 0 <= i ->
  znth d (a :: l) i = if i =? 0 then a else znth d l (i - 1).
Proof.
  intros Hi; unfold znth. replace (i <? 0) with false by lia.
  destruct (Z.eqb_spec i 0) as [->|Hn]; [reflexivity|].
  replace (i - 1 <? 0) with false by lia.
  replace (Z.to_nat i) with (S (Z.to_nat (i - 1))) by lia. reflexivity.
Qed.
Lemma znth_app {A} (d : A) l1 l2 i : 0 <= i ->
  znth d (l1 ++ l2) i = if i <? zlen l1 then znth d l1 i else znth d l2 (i - zlen l1).
Proof.
  intro Hi. unfold znth, zlen. replace (i <? 0) with false by lia.
  destruct (Z.ltb_spec i (Z.of_nat (List.length l1))).
  - apply app_nth1; lia.
  - replace (i - Z.of_nat (List.length l1) <? 0) with false by lia.
    rewrite app_nth2 by lia. f_equal; lia.
Qed.
Lemma znth_map {A B} (f : A -> B) (d : A) (e : B) l i : 0 <= i < zlen l ->
  znth e (map f l) i = f (znth d l i).
Proof.
  intro H. unfold znth. replace (i <? 0) with false by lia.
  rewrite (nth_indep _ e (f d)) by (rewrite map_length; unfold zlen in H; lia).
  apply map_nth.
Qed.
Lemma znth_repeat {A} (d a : A) n i : 0 <= i < Z.of_nat n -> znth d (repeat a n) i = a.
Proof.
  intro H. unfold znth. replace (i <? 0) with false by lia.
  rewrite (nth_indep _ d a) by (rewrite repeat_length; lia). apply nth_repeat.
Qed.
Lemma znth_zrepeat {A} (d a : A) n i : 0 <= i < n -> znth d (zrepeat a n) i = a.
Proof. intro H; apply znth_repeat; lia. Qed.
Lemma znth_indep {A} (d e : A) l i : 0 <= i < zlen l -> znth d l i = znth e l i.
Proof. intro H. unfold znth. replace (i <? 0) with false by lia. apply nth_indep. unfold zlen in H; lia. Qed.
Lemma znth_In {A} (d : A) l i : 0 <= i < zlen l -> In (znth d l i) l.
Proof. intro H. unfold znth. replace (i <? 0) with false by lia. apply nth_In. unfold zlen in H; lia. Qed.
Lemma In_znth {A} (d : A) l x : In x l -> exists i, 0 <= i < zlen l /\ znth d l i = x.
Proof.
  intro H. destruct (In_nth l x d H) as (n & Hn & E). exists (Z.of_nat n). split; [unfold zlen; lia|].
  unfold znth. replace (Z.of_nat n <? 0) with false by lia. now rewrite Nat2Z.id.
Qed.

(** Extensionality of lists through [znth]. *)
Lemma znth_ext {A} (d : A) l1 l2 :
  zlen l1 = zlen l2 -> (forall i, 0 <= i < zlen l1 -> znth d l1 i = znth d l2 i) -> l1 = l2.
Proof.
  intros Hl H. apply (nth_ext l1 l2 d d); [unfold zlen in Hl; lia|].
  intros n Hn. specialize (H (Z.of_nat n)). unfold znth, zlen in H.
  replace (Z.of_nat n <? 0) with false in H by lia. rewrite Nat2Z.id in H. apply H; lia.
Qed.

Lemma zseq_length lo n : List.length (zseq lo n) = n.
Proof. revert lo; induction n as [|n IH]; intros lo; cbn; auto. Qed.
Lemma zlen_zrange lo hi : lo <= hi -> zlen (zrange lo hi) = hi - lo.
Proof. intro H; unfold zrange, zlen; rewrite zseq_length; lia. Qed.
Lemma zlen_zrange_max lo hi : zlen (zrange lo hi) = Z.max 0 (hi - lo).
Proof. unfold zrange, zlen; rewrite zseq_length; lia. Qed.
Lemma In_zseq lo n i : In i (zseq lo n) <-> lo <= i < lo + Z.of_nat n.
Proof.
  revert lo; induction n as [|n IH]; intros lo; cbn [zseq In].
  - lia.
  - rewrite IH. lia.
Qed.
Lemma In_zrange lo hi i : In i (zrange lo hi) <-> lo <= i < hi.
Proof. unfold zrange; rewrite In_zseq; lia. Qed.
Lemma zseq_NoDup lo n : NoDup (zseq lo n).
Proof.
  revert lo; induction n as [|n IH]; intros lo; cbn [zseq]; constructor; auto.
  rewrite In_zseq; lia.
Qed.
Lemma zrange_NoDup lo hi : NoDup (zrange lo hi).
Proof. apply zseq_NoDup. Qed.
Lemma znth_zseq d lo n i : 0 <= i < Z.of_nat n -> znth d (zseq lo n) i = lo + i.
Proof.
  revert lo i; induction n as [|n IH]; intros lo i H; cbn [zseq]; [lia|].
  rewrite znth_cons by lia. destruct (Z.eqb_spec i 0); [lia|]. rewrite IH by lia. lia.
Qed.
Lemma znth_zrange d lo hi i : 0 <= i < hi - lo -> znth d (zrange lo hi) i = lo + i.
Proof. intro H. apply znth_zseq. lia. Qed.
Lemma zseq_app lo n m : zseq lo (n + m) = zseq lo n ++ zseq (lo + Z.of_nat n) m.
Proof.
  revert lo; induction n as [|n IH]; intros lo; cbn [zseq Nat.add app].
  - f_equal; lia.
  - f_equal. rewrite IH. do 2 f_equal; lia.
Qed.
Lemma zrange_app a b c : a <= b <= c -> zrange a c = zrange a b ++ zrange b c.
Proof.
  intro H. unfold zrange.
  replace (Z.to_nat (c - a)) with (Z.to_nat (b - a) + Z.to_nat (c - b))%nat by lia.
  rewrite zseq_app. do 2 f_equal. lia.
Qed.
Lemma zrange_cons a b : a < b -> zrange a b = a :: zrange (a + 1) b.
Proof. intro H; unfold zrange. replace (Z.to_nat (b - a)) with (S (Z.to_nat (b - (a + 1)))) by lia. reflexivity. Qed.
Lemma zrange_snoc a b : a <= b -> zrange a (b + 1) = zrange a b ++ [b].
Proof. intro H. rewrite (zrange_app a b (b + 1)) by lia. f_equal. rewrite zrange_cons by lia.
  f_equal. unfold zrange. now replace (Z.to_nat (b + 1 - (b + 1))) with 0%nat by lia. Qed.
Lemma zrange_nil a b : b <= a -> zrange a b = [].
Proof. intro H; unfold zrange. now replace (Z.to_nat (b - a)) with 0%nat by lia. Qed.

(** Loop rules. *)
Lemma for_n_app {S} n m lo (body : Z -> S -> res S) s :
  for_n (n + m) lo body s = (let! s' := for_n n lo body s in for_n m (lo + Z.of_nat n) body s').
Proof.
  revert lo s; induction n as [|n IH]; intros lo s; cbn [for_n Nat.add rbind].
  - f_equal; lia.
  - destruct (body lo s) as [s'| |]; cbn [rbind]; auto. rewrite IH.
    replace (lo + 1 + Z.of_nat n) with (lo + Z.of_nat (Datatypes.S n)) by lia. reflexivity.
Qed.
Lemma for_range_empty {S} lo hi (body : Z -> S -> res S) s : hi <= lo -> for_range lo hi body s = Ok s.
Proof. intro H; unfold for_range. now replace (Z.to_nat (hi - lo)) with 0%nat by lia. Qed.
Lemma for_range_split {S} lo mid hi (body : Z -> S -> res S) s :
  lo <= mid <= hi ->
  for_range lo hi body s = (let! s' := for_range lo mid body s in for_range mid hi body s').
Proof.
  intro H. unfold for_range.
  replace (Z.to_nat (hi - lo)) with (Z.to_nat (mid - lo) + Z.to_nat (hi - mid))%nat by lia.
  rewrite for_n_app. replace (lo + Z.of_nat (Z.to_nat (mid - lo))) with mid by lia. reflexivity.
Qed.
Lemma for_range_first {S} lo hi (body : Z -> S -> res S) s :
  lo < hi -> for_range lo hi body s = (let! s' := body lo s in for_range (lo + 1) hi body s').
Proof.
  intro H. unfold for_range. replace (Z.to_nat (hi - lo)) with (Datatypes.S (Z.to_nat (hi - (lo + 1)))) by lia.
  reflexivity.
Qed.
Lemma for_range_last {S} lo hi (body : Z -> S -> res S) s :
  lo <= hi -> for_range lo (hi + 1) body s = (let! s' := for_range lo hi body s in body hi s').
Proof.
  intro H. rewrite (for_range_split lo hi (hi + 1)) by lia.
  destruct (for_range lo hi body s); cbn [rbind]; auto.
  rewrite for_range_first by lia. destruct (body hi a); cbn [rbind]; auto. apply for_range_empty; lia.
Qed.

(** Invariant rule for loops that cannot fail. *)
Lemma for_range_inv {S} (Inv : Z -> S -> Prop) lo hi (body : Z -> S -> res S) s :
  lo <= hi ->
  Inv lo s ->
  (forall i s, lo <= i < hi -> Inv i s -> exists s', body i s = Ok s' /\ Inv (i + 1) s') ->
  exists s', for_range lo hi body s = Ok s' /\ Inv hi s'.
Proof.
  intros Hle H0 Hstep. unfold for_range.
  remember (Z.to_nat (hi - lo)) as n eqn:Hn.
  revert lo s Hle H0 Hn Hstep. induction n as [|n IH]; intros lo s Hle H0 Hn Hstep; cbn [for_n].
  - exists s; split; auto. now replace hi with lo by lia.
  - destruct (Hstep lo s) as (s' & E & H1); [lia|auto|]. rewrite E; cbn [rbind].
    apply IH; auto; try lia. intros i s'' Hi. apply Hstep; lia.
Qed.

(** Invariant rule when success is assumed. *)
Lemma for_range_inv_ok {S} (Inv : Z -> S -> Prop) lo hi (body : Z -> S -> res S) s s' :
  for_range lo hi body s = Ok s' ->
  lo <= hi ->
  Inv lo s ->
  (forall i s s', lo <= i < hi -> Inv i s -> body i s = Ok s' -> Inv (i + 1) s') ->
  Inv hi s'.
Proof.
  intros HE Hle H0 Hstep. unfold for_range in HE.
  remember (Z.to_nat (hi - lo)) as n eqn:Hn.
  revert lo s Hle H0 Hn Hstep HE. induction n as [|n IH]; intros lo s Hle H0 Hn Hstep HE; cbn [for_n] in HE.
  - injection HE as <-. now replace hi with lo by lia.
  - destruct (body lo s) as [s1| |] eqn:E; cbn [rbind] in HE; try discriminate.
    apply (IH (lo + 1) s1); auto; try lia. { apply (Hstep lo s); auto; lia. }
    intros i s2 s3 Hi. apply Hstep; lia.
Qed.

Lemma for_range_ext {S} lo hi (b1 b2 : Z -> S -> res S) s :
  (forall i s, lo <= i < hi -> b1 i s = b2 i s) ->
  for_range lo hi b1 s = for_range lo hi b2 s.
Proof.
  intro H. unfold for_range.
  remember (Z.to_nat (hi - lo)) as n eqn:Hn. revert lo s Hn H.
  induction n as [|n IH]; intros lo s Hn H; cbn [for_n]; auto.
  rewrite H by lia. destruct (b2 lo s); cbn [rbind]; auto. apply IH; [lia|].
  intros; apply H; lia.
Qed.

Lemma rmapM_ok {A B} (f : A -> res B) (g : A -> B) l :
  (forall a, In a l -> f a = Ok (g a)) -> rmapM f l = Ok (map g l).
Proof.
  induction l as [|a l IH]; intros H; cbn [rmapM map]; auto.
  rewrite H by (left; auto). cbn [rbind]. rewrite IH by (intros; apply H; right; auto). reflexivity.
Qed.
Lemma rmapM_inv {A B} (f : A -> res B) l bs :
  rmapM f l = Ok bs -> Forall2 (fun a b => f a = Ok b) l bs.
Proof.
  revert bs; induction l as [|a l IH]; intros bs H; cbn [rmapM] in H.
  - injection H as <-; constructor.
  - destruct (f a) as [b| |] eqn:E; cbn [rbind] in H; try discriminate.
    destruct (rmapM f l) as [bs'| |] eqn:E2; cbn [rbind] in H; try discriminate.
    injection H as <-. constructor; auto.
Qed.

Lemma wrap32_id x : -2^31 <= x < 2^31 -> wrap32 x = x.
Proof. intro H. unfold wrap32. rewrite Z.mod_small; lia. Qed.

Lemma rbind_assoc {A B C} (m : res A) (f : A -> res B) (g : B -> res C) :
  rbind (rbind m f) g = rbind m (fun a => rbind (f a) g).
Proof. destruct m; reflexivity. Qed.
Lemma rbind_ok_inv {A B} (m : res A) (f : A -> res B) b :
  rbind m f = Ok b -> exists a, m = Ok a /\ f a = Ok b.
Proof. destruct m; cbn; intro H; try discriminate; eauto. Qed.
