(** GGM tree: allocation, creation, sibling-wise XOR. *)
From Verif Require Import Base BaseFacts GgmModel GgmSpec GgmProofs NBits.

(** ** Ceiling division *)
Lemma ceil_iff x B c : 0 < B -> ((x + B - 1) / B = c <-> B * (c - 1) < x <= B * c).
Proof. intro HB. rewrite div_eq_iff by auto. split; nia. Qed.

Definition ceil_div (x B : Z) : Z := (x + B - 1) / B.
Lemma ceil_div_spec x B : 0 < B -> B * (ceil_div x B - 1) < x <= B * ceil_div x B.
Proof. intro HB. now apply ceil_iff. Qed.
Lemma ceil_div_1 x : ceil_div x 1 = x.
Proof. unfold ceil_div. rewrite Z.div_1_r. lia. Qed.
Lemma ceil_div_pos x B : 0 < B -> 1 <= x -> 1 <= ceil_div x B.
Proof. intros HB Hx. pose proof (ceil_div_spec x B HB). nia. Qed.
Lemma ceil_div_ceil_div x A B : 0 < A -> 0 < B -> ceil_div (ceil_div x A) B = ceil_div x (A * B).
Proof.
  intros HA HB. symmetry. apply ceil_iff; [nia|].
  pose proof (ceil_div_spec x A HA). pose proof (ceil_div_spec (ceil_div x A) B HB).
  set (c := ceil_div x A) in *. set (d := ceil_div c B) in *. clearbody c d. split; [|nia].
  assert (B * (d - 1) <= c - 1) by lia. nia.
Qed.
Lemma ceil_div_one x B : 0 < B -> 1 <= x -> (ceil_div x B = 1 <-> x <= B).
Proof. intros HB Hx. unfold ceil_div. rewrite ceil_iff by auto. lia. Qed.
Lemma quot_ceil n A : 0 < A -> 1 <= n -> Z.quot (n + A - 1) A = ceil_div n A.
Proof. intros HA Hn. unfold ceil_div. apply Z.quot_div_nonneg; lia. Qed.

Lemma alloc_sizes_spec A k : 0 < A -> forall num acc, 1 <= num ->
  zlen (alloc_sizes k A num acc) = Z.of_nat k + zlen acc /\
  forall i, 0 <= i ->
    znth 0 (alloc_sizes k A num acc) i =
      if i <? Z.of_nat k then ceil_div num (A ^ (Z.of_nat k - 1 - i)) else znth 0 acc (i - Z.of_nat k).
Proof.
  intro HA. induction k as [|k IH]; intros num acc Hn; cbn [alloc_sizes].
  - split; [lia|]. intros i Hi. replace (i <? Z.of_nat 0) with false by lia. f_equal; lia.
  - rewrite quot_ceil by lia. destruct (IH (ceil_div num A) (num :: acc)) as [H1 H2]; [now apply ceil_div_pos|].
    split; [rewrite H1, zlen_cons; lia|].
    intros i Hi. rewrite H2 by auto.
    destruct (Z.ltb_spec i (Z.of_nat k)).
    + replace (i <? Z.of_nat (S k)) with true by lia.
      rewrite ceil_div_ceil_div by (auto; apply Z.pow_pos_nonneg; lia).
      replace (Z.of_nat (S k) - 1 - i) with (Z.succ (Z.of_nat k - 1 - i)) by lia.
      now rewrite Z.pow_succ_r by lia.
    + rewrite znth_cons by lia. destruct (Z.eqb_spec (i - Z.of_nat k) 0).
      * replace (i <? Z.of_nat (S k)) with true by lia.
        replace (Z.of_nat (S k) - 1 - i) with 0 by lia. now rewrite Z.pow_0_r, ceil_div_1.
      * replace (i <? Z.of_nat (S k)) with false by lia. f_equal; lia.
Qed.

(** Shape of a freshly allocated tree. *)
Definition shaped (A n : Z) (lv : list (list N)) : Prop :=
  1 <= zlen lv /\
  forall l, 0 <= l < zlen lv -> w lv l = ceil_div n (A ^ (zlen lv - 1 - l)).

Section Alloc.
  Variable clog : Z -> Z -> nat.

  Lemma allocate_levels_spec A n : 2 <= A -> 1 <= n ->
    (n <= A ^ Z.of_nat (clog A n) ->
      exists lv, allocate_levels clog A n = Ok lv /\ zlen lv = Z.of_nat (clog A n) + 1 /\
        shaped A n lv /\ forall l i, g lv l i = 0%N) /\
    (A ^ Z.of_nat (clog A n) < n ->
      allocate_levels clog A n = Err (internal_error "First level should always have one block")).
  Proof.
    intros HA Hn. unfold allocate_levels. set (k := S (clog A n)).
    set (sizes := alloc_sizes k A n []).
    destruct (alloc_sizes_spec A k ltac:(lia) n [] Hn) as [H1 H2]. fold sizes in H1, H2.
    rewrite zlen_nil in H1.
    set (lv := map (fun n => zrepeat 0%N n) sizes).
    assert (Hlen : zlen lv = Z.of_nat k) by (unfold lv; rewrite zlen_map; lia).
    assert (Hw : forall l, 0 <= l < zlen lv -> w lv l = ceil_div n (A ^ (zlen lv - 1 - l))).
    { intros l Hl. unfold w, lv. rewrite (znth_map _ 0) by lia. rewrite H2 by lia.
      replace (l <? Z.of_nat k) with true by lia. rewrite zlen_map, H1.
      rewrite zlen_zrepeat; [f_equal; f_equal; lia|].
      assert (1 <= ceil_div n (A ^ (Z.of_nat k - 1 - l))); [|lia].
      apply ceil_div_pos; auto. apply Z.pow_pos_nonneg; lia. }
    assert (H0 : zget lv 0 = Ok (znth [] lv 0)) by (apply zget_ok; lia).
    rewrite H0. cbn [rbind]. change (zlen (znth [] lv 0)) with (w lv 0).
    assert (Hw0 : w lv 0 = ceil_div n (A ^ Z.of_nat (clog A n))).
    { rewrite Hw by lia. do 2 f_equal. lia. }
    assert (Hp : 0 < A ^ Z.of_nat (clog A n)) by (apply Z.pow_pos_nonneg; lia).
    pose proof (ceil_div_one n _ Hp Hn) as H3. split; intro H.
    - replace (negb (w lv 0 =? 1)) with false by lia. exists lv. split; auto. split; [lia|].
      split; [split; [lia|auto]|].
      intros l i. unfold g. destruct (Z_lt_dec l 0); [rewrite (znth_out [] lv l) by lia; apply znth_nil|].
      destruct (Z_lt_dec l (zlen lv)); [|rewrite (znth_out [] lv l) by lia; apply znth_nil].
      unfold lv. rewrite (znth_map _ 0) by lia.
      destruct (Z_lt_dec i 0); [apply znth_out; lia|].
      destruct (Z_lt_dec i (zlen (zrepeat 0%N (znth 0 sizes l)))); [|apply znth_out; lia].
      apply znth_repeat. unfold zrepeat in *. rewrite zlen_repeat in *. lia.
    - replace (negb (w lv 0 =? 1)) with true by lia. reflexivity.
  Qed.
End Alloc.

Lemma shaped_step A n lv : 0 < A -> shaped A n lv ->
  forall l, 0 <= l < zlen lv - 1 -> A * (w lv l - 1) < w lv (l + 1) <= A * w lv l.
Proof.
  intros HA [H1 H2] l Hl. rewrite !H2 by lia.
  replace (zlen lv - 1 - l) with (Z.succ (zlen lv - 1 - (l + 1))) by lia.
  rewrite Z.pow_succ_r by lia. rewrite (Z.mul_comm A (A ^ _)).
  rewrite <- ceil_div_ceil_div by (auto; apply Z.pow_pos_nonneg; lia).
  now apply ceil_div_spec.
Qed.
Lemma shaped_pos A n lv : 0 < A -> 1 <= n -> shaped A n lv -> forall l, 0 <= l < zlen lv -> 1 <= w lv l.
Proof. intros HA Hn [H1 H2] l Hl. rewrite H2 by auto. apply ceil_div_pos; auto. apply Z.pow_pos_nonneg; lia. Qed.
Lemma shaped_leaves A n lv : shaped A n lv -> w lv (zlen lv - 1) = n.
Proof. intros [H1 H2]. rewrite H2 by lia. rewrite Z.sub_diag, Z.pow_0_r. apply ceil_div_1. Qed.
Lemma shaped_same A n a b : same_shape a b -> shaped A n b -> shaped A n a.
Proof. intros [H1 H2] [H3 H4]. split; [lia|]. intros l Hl. rewrite H2, H1. apply H4. lia. Qed.
Lemma shaped_le A n lv : 0 < A -> 1 <= n -> shaped A n lv -> forall l, 0 <= l < zlen lv -> w lv l <= n.
Proof.
  intros HA Hn [H1 H2] l Hl. rewrite H2 by auto.
  assert (0 < A ^ (zlen lv - 1 - l)) by (apply Z.pow_pos_nonneg; lia).
  pose proof (ceil_div_spec n _ H). pose proof (ceil_div_pos n _ H Hn). nia.
Qed.

(** ** Create *)
Section Create.
  Variable aes : N -> N -> N.
  Variable clog : Z -> Z -> nat.

  (** The functional description of a complete GGM level table. *)
  Definition ggm_levels (keys : list N) (seed : N) (lv : list (list N)) : Prop :=
    g lv 0 0 = seed /\
    forall l i, 1 <= l < zlen lv -> 0 <= i < w lv l -> g lv l i = child aes (zlen keys) keys lv l i.

  Lemma ggm_create_levels n seed keys : 2 <= zlen keys -> 1 <= n ->
    (n <= zlen keys ^ Z.of_nat (clog (zlen keys) n) ->
       exists lv, ggm_create aes clog n seed keys = Ok (Tree (zlen keys) lv keys keys) /\
         zlen lv = Z.of_nat (clog (zlen keys) n) + 1 /\ shaped (zlen keys) n lv /\ ggm_levels keys seed lv) /\
    (zlen keys ^ Z.of_nat (clog (zlen keys) n) < n ->
       ggm_create aes clog n seed keys = Err (internal_error "First level should always have one block")).
  Proof.
    intros HA Hn. set (A := zlen keys) in *. unfold ggm_create. fold A.
    replace (A <? 2) with false by lia. replace (n <=? 0) with false by lia.
    destruct (allocate_levels_spec clog A n HA Hn) as [HE HF]. split.
    - intro H. destruct (HE H) as (lv & E & Hlen & Hsh & Hz). rewrite E. cbn [rbind].
      assert (Hw0 : w lv 0 = 1).
      { destruct Hsh as [_ Hsh]. rewrite Hsh, Hlen by lia. apply ceil_div_one; auto.
        - apply Z.pow_pos_nonneg; lia.
        - now replace (Z.of_nat (clog A n) + 1 - 1 - 0) with (Z.of_nat (clog A n)) by lia. }
      destruct (set_node_ok lv 0 0 seed) as (lv1 & E1 & Hs1 & Hg1); [lia|lia|].
      rewrite E1. cbn [rbind]. unfold mk_tree; cbn [t_arity t_levels t_keys t_expanded_keys]. fold A.
      pose proof (shaped_same A n lv1 lv Hs1 Hsh) as Hsh1.
      destruct (expand_subtree_ok aes A keys ltac:(lia) ltac:(lia) 0 0 lv1) as (lv2 & E2 & Hs2 & Hb & Hnb).
      + destruct Hs1. lia.
      + destruct Hs1 as [_ Hs1]. rewrite Hs1. lia.
      + intros l Hl Hl2. apply (shaped_step A n lv1 ltac:(lia) Hsh1). lia.
      + rewrite E2. cbn [rbind]. exists lv2. split; auto.
        destruct Hs2 as [Hs2a Hs2b]. destruct Hs1 as [Hs1a Hs1b].
        assert (Hsh2 : shaped A n lv2) by (apply (shaped_same A n lv2 lv1); auto; split; auto).
        split; [lia|]. split; auto. split.
        * rewrite Hnb; [|lia|rewrite Hs1b; lia|unfold below; lia]. now rewrite Hg1.
        * intros l i Hl Hi. apply Hb; try lia. { rewrite <- Hs2b; auto. }
          split; [lia|]. apply div_eq_iff; [apply Z.pow_pos_nonneg; lia|].
          split; [lia|]. rewrite Z.mul_1_l, Z.sub_0_r.
          assert (HP : 0 < A ^ (zlen lv2 - 1 - l)) by (apply Z.pow_pos_nonneg; lia).
          assert (HP2 : 0 < A ^ l) by (apply Z.pow_pos_nonneg; lia).
          destruct Hsh2 as [_ Hsh2]. rewrite Hsh2 in Hi by lia.
          pose proof (ceil_div_spec n _ HP).
          assert (Hnn : n <= A ^ (zlen lv2 - 1 - l) * A ^ l).
          { rewrite <- Z.pow_add_r by lia. replace (zlen lv2 - 1 - l + l) with (Z.of_nat (clog A n)) by lia. auto. }
          nia.
    - intro H. rewrite HF by auto. reflexivity.
  Qed.
End Create.

(** ** XOR sums *)
Lemma fold_lxor_app (f : Z -> N) l1 l2 :
  fold_right (fun i acc => N.lxor (f i) acc) 0%N (l1 ++ l2) =
  N.lxor (fold_right (fun i acc => N.lxor (f i) acc) 0%N l1) (fold_right (fun i acc => N.lxor (f i) acc) 0%N l2).
Proof.
  induction l1 as [|a l1 IH]; cbn [app fold_right]; [now rewrite N.lxor_0_l|].
  rewrite IH. now rewrite N.lxor_assoc.
Qed.
Lemma xor_sum_0 f : xor_sum 0 f = 0%N. Proof. reflexivity. Qed.
Lemma xor_sum_succ n f : 0 <= n -> xor_sum (n + 1) f = N.lxor (xor_sum n f) (f n).
Proof.
  intro H. unfold xor_sum. rewrite zrange_snoc by auto. rewrite fold_lxor_app. cbn [fold_right].
  now rewrite N.lxor_0_r.
Qed.
Lemma xor_sum_ext n f h : (forall i, 0 <= i < n -> f i = h i) -> xor_sum n f = xor_sum n h.
Proof.
  intro H. destruct (Z_le_gt_dec n 0) as [Hn|Hn]; [unfold xor_sum; now rewrite !zrange_nil by lia|].
  replace n with (Z.of_nat (Z.to_nat n)) in * by lia. set (k := Z.to_nat n) in *. clearbody k. clear Hn. 
  induction k as [|k IH]; [reflexivity|].
  replace (Z.of_nat (S k)) with (Z.of_nat k + 1) in * by lia.
  rewrite !xor_sum_succ by lia. rewrite IH by (intros; apply H; lia). rewrite H by lia. reflexivity.
Qed.
(** Changing one summand. *)
Lemma xor_sum_single n f h j : 0 <= j < n -> (forall i, 0 <= i < n -> i <> j -> f i = h i) ->
  xor_sum n f = N.lxor (xor_sum n h) (N.lxor (f j) (h j)).
Proof.
  intros Hj H. replace n with (Z.of_nat (Z.to_nat n)) in * by lia. set (k := Z.to_nat n) in *. clearbody k.
  induction k as [|k IH]; [lia|].
  replace (Z.of_nat (S k)) with (Z.of_nat k + 1) in * by lia.
  rewrite !xor_sum_succ by lia. destruct (Z.eq_dec j (Z.of_nat k)) as [->|Hn].
  - rewrite (xor_sum_ext _ f h) by (intros; apply H; lia). xor_solve.
  - rewrite IH by (try lia; intros; apply H; lia). rewrite (H (Z.of_nat k)) by lia. xor_solve.
Qed.

(** ** XORBlocks *)
Section XorBlocks.
  Variable inp : list N.
  Variable A : Z.
  Hypothesis HA : 0 < A.

  Definition pxor (k j : Z) : N := xor_sum k (fun i => if i mod A =? j then znth 0%N inp i else 0%N).
  (** [out] holds the partial sums of the first [k] inputs, on top of [out0]. *)
  Definition partial (out0 : list N) (k : Z) (out : list N) : Prop :=
    zlen out = A /\ forall j, 0 <= j < A -> znth 0%N out j = N.lxor (znth 0%N out0 j) (pxor k j).

  Definition xb_inner (batch block : Z) (out : list N) : res (list N) :=
    let child := wrap32 (batch * A + block) in
    let! x := zget out block in
    let! y := zget inp child in
    zset out block (N.lxor x y).
  Definition xb_outer (batch : Z) (out : list N) : res (list N) :=
    let num_blocks := Z.min A (zlen inp - batch * A) in
    for_range 0 num_blocks (xb_inner batch) out.

  Lemma partial_step out0 k out : 0 <= k < zlen inp -> partial out0 k out ->
    partial out0 (k + 1) (list_set out (Z.to_nat (k mod A)) (N.lxor (znth 0%N out (k mod A)) (znth 0%N inp k))).
  Proof.
    intros Hk [H1 H2]. pose proof (Z.mod_pos_bound k A HA). split; [rewrite zlen_list_set; auto|].
    intros j Hj. rewrite znth_list_set by lia. unfold pxor. rewrite xor_sum_succ by lia. fold (pxor k j).
    destruct (Z.eqb_spec (k mod A) j) as [<-|Hn].
    - rewrite H2 by lia. now rewrite N.lxor_assoc.
    - rewrite N.lxor_0_r. apply H2; auto.
  Qed.

  Lemma xb_inner_run out0 batch m out :
    0 <= batch -> 0 <= m <= A -> batch * A + m <= Z.min (zlen inp) (2^31) ->
    partial out0 (batch * A) out ->
    exists out', for_range 0 m (xb_inner batch) out = Ok out' /\ partial out0 (batch * A + m) out'.
  Proof.
    intros Hb Hm Hlim HP.
    apply (for_range_inv (fun b out => partial out0 (batch * A + b) out)); [lia|now rewrite Z.add_0_r|].
    intros b o Hbm HPo. unfold xb_inner. rewrite wrap32_id by nia.
    pose proof HPo as [Hlen _].
    rewrite (zget_ok 0%N) by lia. cbn [rbind]. rewrite (zget_ok 0%N) by nia. cbn [rbind].
    rewrite zset_ok by lia. eexists. split; [reflexivity|].
    rewrite Z.add_assoc.
    assert (E : (batch * A + b) mod A = b).
    { rewrite Z.add_comm, Z.mod_add by lia. apply Z.mod_small. lia. }
    pose proof (partial_step out0 (batch * A + b) o ltac:(nia) HPo) as HS. rewrite E in HS. exact HS.
  Qed.

  Lemma xb_outer_run out0 B out :
    0 <= B -> Z.min (B * A) (zlen inp) <= 2^31 -> (B - 1) * A <= zlen inp ->
    partial out0 0 out ->
    exists out', for_range 0 B xb_outer out = Ok out' /\ partial out0 (Z.min (B * A) (zlen inp)) out'.
  Proof.
    intros HB Hlim HB2 HP. pose proof (zlen_nonneg inp).
    apply (for_range_inv (fun b out => partial out0 (Z.min (b * A) (zlen inp)) out)); [lia| |].
    - now replace (Z.min (0 * A) (zlen inp)) with 0 by lia.
    - intros b o Hb HPo. unfold xb_outer.
      replace (Z.min (b * A) (zlen inp)) with (b * A) in HPo by nia.
      destruct (xb_inner_run out0 b (Z.min A (zlen inp - b * A)) o) as (o' & E & HP'); auto; try nia.
      exists o'. split; auto.
      replace (b * A + Z.min A (zlen inp - b * A)) with (Z.min ((b + 1) * A) (zlen inp)) in HP' by nia. exact HP'.
  Qed.
End XorBlocks.

Lemma partial_0 inp A out : 0 < A -> zlen out = A -> partial inp A out 0 out.
Proof. intros HA H. split; auto. intros j Hj. unfold pxor. rewrite xor_sum_0. now rewrite N.lxor_0_r. Qed.

Lemma xor_blocks_unfold inp out : 0 < zlen out ->
  xor_blocks inp out = for_range 0 (Z.quot (zlen inp + zlen out - 1) (zlen out)) (xb_outer inp (zlen out)) out.
Proof. intro H. unfold xor_blocks. replace (zlen out =? 0) with false by lia. reflexivity. Qed.

Lemma xor_blocks_ok inp A : 0 < A -> zlen inp <= 2^31 ->
  exists out, xor_blocks inp (zrepeat 0%N A) = Ok out /\ zlen out = A /\
    forall j, 0 <= j < A -> znth 0%N out j = sibling_xor inp A j.
Proof.
  intros HA Hlim. pose proof (zlen_nonneg inp) as Hnn.
  assert (HL : zlen (zrepeat 0%N A) = A) by (apply zlen_zrepeat; lia).
  rewrite xor_blocks_unfold by lia. rewrite HL. rewrite Z.quot_div_nonneg by lia.
  fold (ceil_div (zlen inp) A). pose proof (ceil_div_spec (zlen inp) A HA) as HC.
  destruct (xb_outer_run inp A HA (zrepeat 0%N A) (ceil_div (zlen inp) A) (zrepeat 0%N A)) as (out & E & H1 & H2).
  - nia.
  - lia.
  - nia.
  - apply partial_0; auto.
  - exists out. split; auto. split; auto. intros j Hj. rewrite H2 by auto.
    rewrite znth_zrepeat by auto. rewrite N.lxor_0_l. unfold pxor, sibling_xor.
    replace (Z.min (ceil_div (zlen inp) A * A) (zlen inp)) with (zlen inp) by nia. reflexivity.
Qed.

(** Past 2^31 blocks the 32-bit loop index wraps to a negative value. *)
Lemma xor_blocks_overflow inp out : 0 < zlen out -> 2^31 < zlen inp ->
  exists why, xor_blocks inp out = UB why.
Proof.
  intros HA Hbig. set (A := zlen out) in *. rewrite xor_blocks_unfold by auto. fold A.
  rewrite Z.quot_div_nonneg by lia. fold (ceil_div (zlen inp) A).
  pose proof (ceil_div_spec (zlen inp) A HA) as HC.
  set (B := 2^31 / A). set (m := 2^31 mod A).
  assert (HBm : 2^31 = B * A + m) by (unfold B, m; pose proof (Z.div_mod (2^31) A ltac:(lia)); lia).
  assert (Hm : 0 <= m < A) by (apply Z.mod_pos_bound; auto).
  assert (HB : 0 <= B) by (apply Z.div_pos; lia).
  rewrite (for_range_split 0 B) by nia.
  destruct (xb_outer_run inp A HA out B out) as (o1 & E1 & HP1); try nia; [apply partial_0; auto|].
  rewrite E1. cbn [rbind]. replace (Z.min (B * A) (zlen inp)) with (B * A) in HP1 by nia.
  rewrite for_range_first by nia. unfold xb_outer at 1.
  rewrite (for_range_split 0 m) by nia.
  destruct (xb_inner_run inp A HA out B m o1) as (o2 & E2 & HP2); auto; try nia.
  rewrite E2. cbn [rbind]. rewrite for_range_first by nia. unfold xb_inner at 1.
  destruct HP2 as [Hl2 _].
  rewrite (zget_ok 0%N o2) by lia. cbn [rbind].
  replace (wrap32 (B * A + m)) with (- 2^31) by (rewrite <- HBm; reflexivity).
  rewrite zget_ub by (change (2^31) with 2147483648; lia). cbn [rbind]. eexists; reflexivity.
Qed.
