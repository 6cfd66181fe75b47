(** Loops that fill a list slot by slot; concatenations of chunks. *)
From Verif Require Import Base BaseFacts.

Lemma list_set_same {A} (d : A) l i : 0 <= i < zlen l -> list_set l (Z.to_nat i) (znth d l i) = l.
Proof.
  intro H. apply (znth_ext d); [apply zlen_list_set|]. rewrite zlen_list_set. intros j Hj.
  rewrite znth_list_set by lia. destruct (Z.eqb_spec j i), (Z.eqb_spec i j); subst; auto; congruence.
Qed.

Lemma fill_all {A} (d : A) l n (body : Z -> list A -> res (list A)) (v : Z -> A) :
  zlen l = n ->
  (forall i l', 0 <= i < n -> zlen l' = n -> (forall k, i <= k < n -> znth d l' k = znth d l k) ->
     body i l' = Ok (list_set l' (Z.to_nat i) (v i))) ->
  for_range 0 n body l = Ok (map v (zrange 0 n)).
Proof.
  intros Hn Hb. pose proof (zlen_nonneg l).
  destruct (for_range_inv (fun i l' => zlen l' = n /\ (forall k, i <= k < n -> znth d l' k = znth d l k) /\
     (forall k, 0 <= k < i -> znth d l' k = v k)) 0 n body l) as (s & E & H1 & _ & H3).
  - lia.
  - split; [auto|]. split; [auto|]. intros; lia.
  - intros i s Hi (H1 & H2 & H3). rewrite Hb by auto. eexists. split; [reflexivity|].
    rewrite zlen_list_set. split; [auto|]. split; intros k Hk; rewrite znth_list_set by lia;
      destruct (Z.eqb_spec i k); subst; try lia; try reflexivity; first [apply H2; lia|apply H3; lia].
  - rewrite E. f_equal. apply (znth_ext d).
    + rewrite zlen_map, zlen_zrange; lia.
    + intros k Hk. rewrite H3 by lia. rewrite (znth_map v 0) by (rewrite zlen_zrange; lia).
      rewrite znth_zrange by lia. reflexivity.
Qed.

(** ** chunks *)
Definition off {A} (L : list (list A)) (i : Z) : Z := zlen (List.concat (firstn (Z.to_nat i) L)).
Lemma off_0 {A} (L : list (list A)) : off L 0 = 0.
Proof. reflexivity. Qed.
Lemma off_nonneg {A} (L : list (list A)) i : 0 <= off L i.
Proof. apply zlen_nonneg. Qed.
Lemma off_cons {A} (x : list A) L i : 1 <= i -> off (x :: L) i = zlen x + off L (i - 1).
Proof.
  intro H. unfold off. replace (Z.to_nat i) with (S (Z.to_nat (i - 1))) by lia.
  cbn [firstn List.concat]. apply zlen_app.
Qed.
Lemma off_succ {A} (L : list (list A)) i : 0 <= i < zlen L -> off L (i + 1) = off L i + zlen (znth [] L i).
Proof.
  revert i. induction L as [|x L IH]; intros i Hi. { change (0 <= i < 0) in Hi; lia. }
  rewrite zlen_cons in Hi. rewrite off_cons by lia. replace (i + 1 - 1) with i by lia.
  rewrite znth_cons by lia. destruct (Z.eqb_spec i 0) as [->|Hne].
  - rewrite !off_0. lia.
  - rewrite (off_cons x L i) by lia. replace i with (i - 1 + 1) at 1 by lia. rewrite IH by lia. lia.
Qed.
Lemma znth_concat {A} (d : A) L i j : 0 <= i < zlen L -> 0 <= j < zlen (znth [] L i) ->
  znth d (List.concat L) (off L i + j) = znth d (znth [] L i) j.
Proof.
  revert i. induction L as [|x L IH]; intros i Hi Hj. { change (0 <= i < 0) in Hi; lia. }
  rewrite zlen_cons in Hi. cbn [List.concat]. rewrite znth_app by (pose proof (off_nonneg (x :: L) i); lia).
  rewrite znth_cons in * by lia. destruct (Z.eqb_spec i 0) as [->|Hne].
  - rewrite off_0. now replace (0 + j <? zlen x) with true by lia.
  - rewrite off_cons by lia. pose proof (off_nonneg L (i - 1)).
    replace (zlen x + off L (i - 1) + j <? zlen x) with false by lia.
    replace (zlen x + off L (i - 1) + j - zlen x) with (off L (i - 1) + j) by lia. apply IH; auto. lia.
Qed.
Lemma off_total {A} (L : list (list A)) : off L (zlen L) = zlen (List.concat L).
Proof. unfold off, zlen. now rewrite Nat2Z.id, firstn_all. Qed.
Lemma off_le {A} (L : list (list A)) i : 0 <= i < zlen L -> off L i + zlen (znth [] L i) <= zlen (List.concat L).
Proof.
  revert i. induction L as [|x L IH]; intros i Hi. { change (0 <= i < 0) in Hi; lia. }
  rewrite zlen_cons in Hi. cbn [List.concat]. rewrite zlen_app, znth_cons by lia.
  destruct (Z.eqb_spec i 0) as [->|Hne].
  - rewrite off_0. pose proof (zlen_nonneg (List.concat L)). lia.
  - rewrite off_cons by lia. specialize (IH (i - 1) ltac:(lia)). lia.
Qed.

Lemma zget_concat {A} L i j (d : A) : 0 <= i < zlen L -> 0 <= j < zlen (znth [] L i) ->
  zget (List.concat L) (off L i + j) = Ok (znth d (znth [] L i) j).
Proof.
  intros Hi Hj. pose proof (off_le L i Hi). pose proof (off_nonneg L i).
  rewrite (zget_ok d) by lia. f_equal. apply znth_concat; auto.
Qed.

(** Prefix sums as computed by a running offset. *)
Fixpoint offsets_from {A} (base : Z) (L : list (list A)) : list Z :=
  match L with [] => [] | x :: L' => (base + zlen x) :: offsets_from (base + zlen x) L' end.
Lemma zlen_offsets_from {A} base (L : list (list A)) : zlen (offsets_from base L) = zlen L.
Proof. revert base; induction L; intro base; cbn [offsets_from]; rewrite ?zlen_cons, ?zlen_nil; auto. now rewrite IHL. Qed.
Lemma znth_offsets {A} (L : list (list A)) base i : 0 <= i <= zlen L ->
  znth 0 (base :: offsets_from base L) i = base + off L i.
Proof.
  revert base i. induction L as [|x L IH]; intros base i Hi.
  - change (0 <= i <= 0) in Hi. replace i with 0 by lia. rewrite off_0, znth_cons by lia. cbn. lia.
  - rewrite zlen_cons in Hi. rewrite znth_cons by lia. destruct (Z.eqb_spec i 0) as [->|Hne].
    + rewrite off_0. lia.
    + cbn [offsets_from]. rewrite IH by lia. rewrite off_cons by lia. lia.
Qed.

(** ** combine *)
Lemma zlen_combine {A B} (l1 : list A) (l2 : list B) : zlen l1 = zlen l2 -> zlen (combine l1 l2) = zlen l1.
Proof. unfold zlen. intro H. rewrite combine_length. lia. Qed.
Lemma znth_combine {A B} (d1 : A) (d2 : B) l1 l2 i : zlen l1 = zlen l2 ->
  znth (d1, d2) (combine l1 l2) i = (znth d1 l1 i, znth d2 l2 i).
Proof.
  intro H. destruct (Z_lt_dec i 0). { rewrite !znth_out by lia. reflexivity. }
  unfold znth. destruct (i <? 0) eqn:E; [lia|]. apply combine_nth. unfold zlen in H. lia.
Qed.
Lemma combine_app {A B} (l1 l1' : list A) (l2 l2' : list B) : List.length l1 = List.length l2 ->
  combine (l1 ++ l1') (l2 ++ l2') = combine l1 l2 ++ combine l1' l2'.
Proof.
  revert l2. induction l1 as [|a l1 IH]; destruct l2 as [|b l2]; cbn; intro H; try discriminate; auto.
  now rewrite IH by lia.
Qed.
Lemma concat_combine {A B} (L1 : list (list A)) (L2 : list (list B)) :
  Forall2 (fun a b => List.length a = List.length b) L1 L2 ->
  combine (List.concat L1) (List.concat L2) = List.concat (map (fun '(a, b) => combine a b) (combine L1 L2)).
Proof.
  induction 1 as [|a b L1 L2 H _ IH]; cbn; auto. now rewrite combine_app, IH by auto.
Qed.
Lemma zip_ext {A B} (d1 : A) (d2 : B) (P : A -> B -> Prop) l1 l2 : zlen l1 = zlen l2 ->
  (forall i, 0 <= i < zlen l1 -> P (znth d1 l1 i) (znth d2 l2 i)) -> Forall2 P l1 l2.
Proof.
  revert l2. induction l1 as [|a l1 IH]; intros [|b l2] Hl H; try constructor;
    rewrite ?zlen_cons, ?zlen_nil in *; try (pose proof (zlen_nonneg l1); lia); try (pose proof (zlen_nonneg l2); lia).
  - specialize (H 0). rewrite !znth_cons in H by lia. apply H. pose proof (zlen_nonneg l1). lia.
  - apply IH; [lia|]. intros i Hi. specialize (H (i + 1)). rewrite !znth_cons in H by lia.
    destruct (Z.eqb_spec (i + 1) 0); [lia|]. replace (i + 1 - 1) with i in H by lia. apply H. lia.
Qed.
Lemma Forall2_znth {A B} (d1 : A) (d2 : B) (P : A -> B -> Prop) l1 l2 : Forall2 P l1 l2 ->
  zlen l1 = zlen l2 /\ forall i, 0 <= i < zlen l1 -> P (znth d1 l1 i) (znth d2 l2 i).
Proof.
  induction 1 as [|a b l1 l2 H _ [IH1 IH2]]; [split; [auto|intros i Hi; change (0 <= i < 0) in Hi; lia]|].
  rewrite !zlen_cons. split; [lia|]. intros i Hi. rewrite !znth_cons by lia.
  destruct (Z.eqb_spec i 0); [auto|]. apply IH2. lia.
Qed.
Lemma map_zrange_znth {A} (d : A) l : map (znth d l) (zrange 0 (zlen l)) = l.
Proof.
  apply (znth_ext d); [|].
  - rewrite zlen_map, zlen_zrange; pose proof (zlen_nonneg l); lia.
  - intros i Hi. rewrite zlen_map, zlen_zrange in Hi by apply zlen_nonneg.
    rewrite (znth_map (znth d l) 0) by (rewrite zlen_zrange; lia). rewrite znth_zrange by lia. reflexivity.
Qed.
Lemma off_same {A B} (L1 : list (list A)) (L2 : list (list B)) i :
  Forall2 (fun a b => List.length a = List.length b) L1 L2 -> off L1 i = off L2 i.
Proof.
  intro H. unfold off. generalize (Z.to_nat i). clear i. induction H as [|a b L1 L2 H _ IH]; intro n.
  - now rewrite !firstn_nil.
  - destruct n; [reflexivity|]. cbn [firstn List.concat]. rewrite !zlen_app, IH. unfold zlen. lia.
Qed.
Lemma map_zlen_eq {A B} (a : list (list A)) (b : list (list B)) : map zlen a = map zlen b ->
  zlen a = zlen b /\ forall i, zlen (znth [] a i) = zlen (znth [] b i).
Proof.
  intro H. assert (Hl : zlen a = zlen b) by (rewrite <- (zlen_map zlen a), H; apply zlen_map).
  split; [exact Hl|]. intro i. destruct (Z_lt_dec i 0); [rewrite !znth_out by lia; reflexivity|].
  destruct (Z_lt_dec i (zlen a)); [|rewrite !znth_out by lia; reflexivity].
  rewrite <- (znth_map zlen [] 0 a) by lia. rewrite <- (znth_map zlen [] 0 b) by lia. now rewrite H.
Qed.
