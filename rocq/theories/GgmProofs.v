(** Proofs about the GGM tree model. *)
From Verif Require Import Base BaseFacts GgmModel GgmSpec.

(** ** Division *)
Lemma div_lt_iff i A m : 0 < A -> (i / A < m <-> i < m * A).
Proof.
  intro HA. pose proof (Z.div_mod i A ltac:(lia)) as E. pose proof (Z.mod_pos_bound i A HA).
  split; intro H1; nia.
Qed.
Lemma le_div_iff i A m : 0 < A -> (m <= i / A <-> m * A <= i).
Proof. intro HA. pose proof (div_lt_iff i A m HA). lia. Qed.
Lemma div_eq_iff i A m : 0 < A -> (i / A = m <-> m * A <= i < (m + 1) * A).
Proof. intro HA. pose proof (div_lt_iff i A m HA). pose proof (div_lt_iff i A (m+1) HA). lia. Qed.
Lemma div_range i A n : 0 < A -> 0 <= i < n * A -> 0 <= i / A < n.
Proof. intros HA H. rewrite div_lt_iff by auto. split; [apply Z.div_pos; lia|lia]. Qed.

(** ** Level tables *)
Definition g (lv : list (list N)) (l i : Z) : N := znth 0%N (znth [] lv l) i.
Definition w (lv : list (list N)) (l : Z) : Z := zlen (znth [] lv l).
Definition same_shape (a b : list (list N)) : Prop := zlen a = zlen b /\ forall l, w a l = w b l.

Lemma same_shape_refl a : same_shape a a. Proof. split; auto. Qed.
Lemma same_shape_trans a b c : same_shape a b -> same_shape b c -> same_shape a c.
Proof. intros [H1 H2] [H3 H4]. split; [congruence|intro; congruence]. Qed.

Lemma g_out lv l i : ~ (0 <= i < w lv l) -> g lv l i = 0%N.
Proof. intro H. unfold g. now apply znth_out. Qed.
Lemma w_nonneg lv l : 0 <= w lv l. Proof. apply zlen_nonneg. Qed.
Lemma w_out lv l : ~ (0 <= l < zlen lv) -> w lv l = 0.
Proof. intro H. unfold w. rewrite znth_out; auto. Qed.

Lemma levels_ext a b : same_shape a b -> (forall l i, 0 <= l < zlen a -> 0 <= i < w a l -> g a l i = g b l i) -> a = b.
Proof.
  intros [H1 H2] H. apply (znth_ext []); auto. intros l Hl.
  apply (znth_ext 0%N); [apply H2|]. intros i Hi. now apply H.
Qed.

Lemma level_size_ok lv l : 0 <= l < zlen lv -> level_size lv l = Ok (w lv l).
Proof. intro H. unfold level_size. rewrite (zget_ok []) by auto. reflexivity. Qed.

Lemma set_node_ok lv l i v : 0 <= l < zlen lv -> 0 <= i < w lv l ->
  exists lv', set_node lv l i v = Ok lv' /\ same_shape lv' lv /\
    forall l' i', g lv' l' i' = if (l =? l') && (i =? i') then v else g lv l' i'.
Proof.
  intros Hl Hi. unfold set_node. rewrite (zget_ok []) by auto. cbn [rbind].
  rewrite zset_ok by exact Hi. cbn [rbind]. rewrite zset_ok by auto.
  eexists. split; [reflexivity|]. split.
  - split; [apply zlen_list_set|]. intro l'. unfold w. rewrite znth_list_set by auto.
    destruct (Z.eqb_spec l l') as [->|]; [apply zlen_list_set|reflexivity].
  - intros l' i'. unfold g. rewrite znth_list_set by auto.
    destruct (Z.eqb_spec l l') as [->|]; cbn [andb]; auto.
    now rewrite znth_list_set by exact Hi.
Qed.

Lemma get_node_ok lv l i : 0 <= l < zlen lv -> 0 <= i < w lv l -> get_node lv l i = Ok (g lv l i).
Proof.
  intros Hl Hi. unfold get_node. rewrite (zget_ok []) by auto. cbn [rbind]. now rewrite (zget_ok 0%N).
Qed.

Section Expand.
  Variable aes : N -> N -> N.
  Variable A : Z.
  Variable keys : list N.
  Hypothesis HA : 0 < A.
  Hypothesis Hkeys : A <= zlen keys.

  Notation prg seed j := (N.lxor (aes (znth 0%N keys j) seed) seed).
  Definition child (lv : list (list N)) (l i : Z) : N := prg (g lv (l - 1) (i / A)) (i mod A).

  Lemma expand_node_ok level node lv :
    0 <= level -> level + 1 < zlen lv -> 0 <= node < w lv level ->
    exists lv', expand_node aes A keys level node lv = Ok lv' /\ same_shape lv' lv /\
      forall l i, g lv' l i =
        if (l =? level + 1) && (i / A =? node) && (0 <=? i) && (i <? w lv (level + 1))
        then prg (g lv level node) (i mod A) else g lv l i.
  Proof.
    intros Hl0 Hl Hn. unfold expand_node. rewrite level_size_ok by lia. cbn [rbind].
    set (ns := Z.min A (w lv (level + 1) - node * A)).
    destruct (Z_le_gt_dec ns 0) as [Hns|Hns].
    - rewrite for_range_empty by lia. exists lv. split; auto. split; [apply same_shape_refl|].
      intros l i. destruct ((l =? level + 1) && (i / A =? node) && (0 <=? i) && (i <? w lv (level + 1))) eqn:E; auto.
      exfalso. repeat rewrite andb_true_iff in E. destruct E as (((E1 & E2) & E3) & E4).
      apply Z.eqb_eq in E2. rewrite div_eq_iff in E2 by lia. nia.
    - destruct (for_range_inv (fun s cur => same_shape cur lv /\ forall l i, g cur l i =
          if (l =? level + 1) && (node * A <=? i) && (i <? node * A + s)
          then prg (g lv level node) (i - node * A) else g lv l i) 0 ns
          (fun s levels =>
             let! seed := get_node levels level node in
             let! key := zget keys s in
             set_node levels (level + 1) (A * node + s) (compute_prg aes seed key)) lv) as (lv' & E & Hs & Hg).
      + lia.
      + split; [apply same_shape_refl|]. intros l i.
        replace ((l =? level + 1) && (node * A <=? i) && (i <? node * A + 0)) with false; auto. lia.
      + intros s cur Hs [[Hc1 Hc2] Hg].
        rewrite get_node_ok; [|lia|rewrite Hc2; lia]. cbn [rbind].
        rewrite (zget_ok 0%N) by lia. cbn [rbind].
        destruct (set_node_ok cur (level + 1) (A * node + s) (compute_prg aes (g cur level node) (znth 0%N keys s)))
          as (cur' & E & Hsh & Hg'); [lia|rewrite Hc2; nia|].
        exists cur'. split; auto. split; [apply same_shape_trans with cur; auto; split; auto|].
        intros l i. rewrite Hg', (Hg l i).
        assert (Es : g cur level node = g lv level node).
        { rewrite Hg. replace (level =? level + 1) with false by lia. reflexivity. }
        rewrite Es.
        destruct ((level + 1 =? l) && (A * node + s =? i)) eqn:Ei.
        * replace ((l =? level + 1) && (node * A <=? i) && (i <? node * A + (s + 1))) with true by lia.
          unfold compute_prg. replace (i - node * A) with s by lia. reflexivity.
        * destruct ((l =? level + 1) && (node * A <=? i) && (i <? node * A + s)) eqn:E1;
          destruct ((l =? level + 1) && (node * A <=? i) && (i <? node * A + (s + 1))) eqn:E2; auto; lia.
      + exists lv'. split; auto. split; auto. intros l i. rewrite Hg.
        destruct ((l =? level + 1) && (i / A =? node) && (0 <=? i) && (i <? w lv (level + 1))) eqn:E1.
        * repeat rewrite andb_true_iff in E1. destruct E1 as (((E1 & E2) & E3) & E4).
          apply Z.eqb_eq in E2. pose proof E2 as E2'. rewrite div_eq_iff in E2 by lia.
          replace ((l =? level + 1) && (node * A <=? i) && (i <? node * A + ns)) with true by lia.
          do 3 f_equal. rewrite Z.mod_eq by lia. rewrite E2'. lia.
        * destruct ((l =? level + 1) && (node * A <=? i) && (i <? node * A + ns)) eqn:E2; auto.
          exfalso. assert (i / A = node) by (apply div_eq_iff; lia). 
          assert (0 <= i) by nia. lia.
  Qed.

  Lemma expand_level_ok level start mx lv :
    0 <= level -> level + 1 < zlen lv -> 0 <= start -> mx <= w lv level ->
    exists lv', for_range start mx (fun node levels => expand_node aes A keys level node levels) lv = Ok lv'
      /\ same_shape lv' lv /\
      forall l i, g lv' l i =
        if (l =? level + 1) && (start <=? i / A) && (i / A <? mx) && (0 <=? i) && (i <? w lv (level + 1))
        then child lv l i else g lv l i.
  Proof.
    intros Hl0 Hl Hs Hm. destruct (Z_le_gt_dec mx start) as [Hle|Hgt].
    - rewrite for_range_empty by lia. exists lv. split; auto. split; [apply same_shape_refl|].
      intros l i. replace ((l =? level + 1) && (start <=? i / A) && (i / A <? mx) && (0 <=? i) && (i <? w lv (level + 1))) with false; auto. lia.
    - destruct (for_range_inv (fun n cur => same_shape cur lv /\ forall l i, g cur l i =
          if (l =? level + 1) && (start <=? i / A) && (i / A <? n) && (0 <=? i) && (i <? w lv (level + 1))
          then child lv l i else g lv l i) start mx
          (fun node levels => expand_node aes A keys level node levels) lv) as (lv' & E & Hsh & Hg).
      + lia.
      + split; [apply same_shape_refl|]. intros l i.
        replace ((l =? level + 1) && (start <=? i / A) && (i / A <? start) && (0 <=? i) && (i <? w lv (level + 1))) with false; auto. lia.
      + intros n cur Hn [[Hc1 Hc2] Hg].
        destruct (expand_node_ok level n cur) as (cur' & E & Hsh & Hg'); [lia|lia|rewrite Hc2; lia|].
        exists cur'. split; auto. split; [apply same_shape_trans with cur; auto; split; auto|].
        intros l i. rewrite Hg', !Hg, Hc2.
        replace ((level =? level + 1)) with false by lia. cbn [andb].
        destruct ((l =? level + 1) && (i / A =? n) && (0 <=? i) && (i <? w lv (level + 1))) eqn:E1.
        * replace ((l =? level + 1) && (start <=? i / A) && (i / A <? n + 1) && (0 <=? i) && (i <? w lv (level + 1))) with true by lia.
          unfold child. replace (l - 1) with level by lia. replace (i / A) with n by lia. reflexivity.
        * destruct ((l =? level + 1) && (start <=? i / A) && (i / A <? n) && (0 <=? i) && (i <? w lv (level + 1))) eqn:E2;
          destruct ((l =? level + 1) && (start <=? i / A) && (i / A <? n + 1) && (0 <=? i) && (i <? w lv (level + 1))) eqn:E3; auto; lia.
      + exists lv'. auto.
  Qed.

  Lemma pow_pos_A d : 0 < A ^ d \/ d < 0.
  Proof. destruct (Z_lt_dec d 0); auto. left. apply Z.pow_pos_nonneg; lia. Qed.

  (** Is node (l, i) a proper descendant of (l0, i0)? *)
  Definition below (l0 i0 l i : Z) : Prop := l0 < l /\ i / A ^ (l - l0) = i0.

  Lemma expand_subtree_ok l0 i0 lv :
    0 <= l0 < zlen lv -> 0 <= i0 < w lv l0 ->
    (forall l, 0 <= l -> l + 1 < zlen lv -> w lv (l + 1) <= A * w lv l) ->
    exists lv', expand_subtree aes A keys l0 i0 lv = Ok lv' /\ same_shape lv' lv /\
      (forall l i, 0 <= l < zlen lv -> 0 <= i < w lv l -> below l0 i0 l i -> g lv' l i = child lv' l i) /\
      (forall l i, 0 <= l < zlen lv -> 0 <= i < w lv l -> ~ below l0 i0 l i -> g lv' l i = g lv l i).
  Proof.
    intros Hl0 Hi0 Hw. unfold expand_subtree.
    set (body := fun level '(levels, start, max) =>
      let! sz := level_size levels level in
      let max := Z.min max sz in
      let! levels := for_range start max (fun node levels => expand_node aes A keys level node levels) levels in
      Ok (levels, start * A, max * A)).
    destruct (for_range_inv (fun l '(cur, start, mx) =>
        same_shape cur lv /\ start = i0 * A ^ (l - l0) /\
        (forall i, 0 <= i < w lv l -> (i < mx <-> i < (i0 + 1) * A ^ (l - l0))) /\
        (forall l' i, 0 <= l' < zlen lv -> 0 <= i < w lv l' -> below l0 i0 l' i -> l' <= l -> g cur l' i = child cur l' i) /\
        (forall l' i, 0 <= l' < zlen lv -> 0 <= i < w lv l' -> (~ below l0 i0 l' i \/ l < l') -> g cur l' i = g lv l' i))
        l0 (zlen lv - 1) body (lv, i0, i0 + 1)) as ([[lv' st] mx] & E & Hsh & _ & _ & H1 & H2).
    - lia.
    - split; [apply same_shape_refl|]. replace (l0 - l0) with 0 by lia. rewrite Z.pow_0_r.
      split; [lia|]. split; [intros; lia|]. split; auto.
      intros l' i _ _ [Hb _] Hle. lia.
    - intros l [[cur start] mx] Hl ([Hc1 Hc2] & Hst & Hmx & H1 & H2). unfold body.
      rewrite level_size_ok by lia. cbn [rbind]. rewrite Hc2.
      assert (Hpow : 0 < A ^ (l - l0)) by (destruct (pow_pos_A (l - l0)); lia).
      assert (Hps : A ^ (l + 1 - l0) = A * A ^ (l - l0)).
      { replace (l + 1 - l0) with (Z.succ (l - l0)) by lia. now rewrite Z.pow_succ_r by lia. }
      destruct (expand_level_ok l start (Z.min mx (w lv l)) cur) as (cur' & E & Hsh & Hg);
        [lia|lia|nia|rewrite Hc2; lia|].
      rewrite E. cbn [rbind]. eexists. split; [reflexivity|].
      assert (Hww : w lv (l + 1) <= A * w lv l) by (apply Hw; lia).
      (* which nodes of level l+1 were written *)
      assert (Hcond : forall i, 0 <= i < w lv (l + 1) ->
         ((start <= i / A /\ i / A < Z.min mx (w lv l)) <-> below l0 i0 (l + 1) i)).
      { intros i Hi. assert (Hia : 0 <= i / A < w lv l) by (apply div_range; lia).
        unfold below. rewrite Hps, <- Z.div_div by lia.
        rewrite (div_eq_iff (i / A)) by auto. specialize (Hmx (i / A) Hia). rewrite Hst. lia. }
      split; [apply same_shape_trans with cur; auto; split; auto|].
      split. { rewrite Hps, Hst. ring. }
      split.
      { intros i Hi. assert (Hia : 0 <= i / A < w lv l) by (apply div_range; lia).
        specialize (Hmx (i / A) Hia). rewrite <- div_lt_iff by auto.
        replace ((i0 + 1) * A ^ (l + 1 - l0)) with ((i0 + 1) * A ^ (l - l0) * A) by (rewrite Hps; ring).
        rewrite <- (div_lt_iff i A) by auto. lia. }
      assert (Hold : forall l' i, l' <> l + 1 -> g cur' l' i = g cur l' i).
      { intros l' i Hn. rewrite Hg. replace (l' =? l + 1) with false by lia. reflexivity. }
      split.
      + intros l' i Hl' Hi Hb Hle. destruct (Z.eq_dec l' (l + 1)) as [->|Hn].
        * rewrite Hg. rewrite Hc2. pose proof (proj2 (Hcond i Hi) Hb).
          replace ((l + 1 =? l + 1) && (start <=? i / A) && (i / A <? Z.min mx (w lv l)) && (0 <=? i) && (i <? w lv (l + 1))) with true by lia.
          unfold child. rewrite (Hold (l + 1 - 1)) by lia. reflexivity.
        * rewrite Hold by auto. rewrite H1 by (auto; lia). unfold child. rewrite (Hold (l' - 1)) by lia. reflexivity.
      + intros l' i Hl' Hi Hc. destruct (Z.eq_dec l' (l + 1)) as [->|Hn].
        * assert (Hnb : ~ below l0 i0 (l + 1) i) by (destruct Hc; [auto|lia]).
          rewrite Hg, Hc2. rewrite <- Hcond in Hnb by auto.
          replace ((l + 1 =? l + 1) && (start <=? i / A) && (i / A <? Z.min mx (w lv l)) && (0 <=? i) && (i <? w lv (l + 1))) with false by lia.
          apply H2; auto. right; lia.
        * rewrite Hold by auto. apply H2; auto. destruct Hc; auto. right; lia.
    - rewrite E. cbn [rbind fst]. exists lv'. split; auto. split; auto. split.
      + intros l i Hl Hi Hb. apply H1; auto. lia.
      + intros l i Hl Hi Hb. apply H2; auto.
  Qed.
End Expand.
