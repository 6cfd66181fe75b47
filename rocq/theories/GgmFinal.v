(** Lemmas in the exact form of the final GGM theorems. *)
From Verif Require Import Base BaseFacts GgmModel GgmSpec GgmProofs NBits GgmProofs2 GgmProofs3.

Lemma for_range_inv_ub {S} (Inv : Z -> S -> Prop) lo hi (body : Z -> S -> res S) s k :
  lo <= k < hi -> Inv lo s ->
  (forall i s, lo <= i < hi -> Inv i s ->
     (exists s', body i s = Ok s' /\ Inv (i + 1) s') \/ exists w, body i s = UB w) ->
  (forall s, Inv k s -> exists w, body k s = UB w) ->
  exists w, for_range lo hi body s = UB w.
Proof.
  intros Hk. unfold for_range. remember (Z.to_nat (hi - lo)) as c eqn:Ec. revert lo s Hk Ec.
  induction c as [|c IH]; intros lo s Hk Ec H0 Hs HU; [lia|]. cbn [for_n].
  destruct (Hs lo s ltac:(lia) H0) as [(s' & E & H1)|[w1 E]]; rewrite E; cbn [rbind]; [|eexists; reflexivity].
  destruct (Z.eq_dec k lo) as [->|]; [destruct (HU s H0) as [w2 E2]; congruence|].
  apply (IH (lo + 1)); auto; try lia. intros i s1 Hi. apply Hs. lia.
Qed.


  Lemma shaped_well_shaped A n lv ks es : 2 <= A -> 1 <= n -> shaped A n lv -> w lv 0 = 1 ->
    well_shaped (Tree A lv ks es) A n.
  Proof.
    intros HA Hn Hsh H0. unfold well_shaped, height, width; cbn [t_levels].
    change (zlen (znth [] lv ?l)) with (w lv l).
    split; [apply Hsh|]. split; [exact H0|]. split; [now apply (shaped_leaves A)|].
    intros l Hl. change (zlen (znth [] lv (l + 1))) with (w lv (l + 1)). apply (shaped_step A n lv); [lia|auto|auto].
  Qed.

  Lemma shaped_root A n lv : 2 <= A -> 1 <= n -> shaped A n lv -> n <= A ^ (zlen lv - 1) -> w lv 0 = 1.
  Proof.
    intros HA Hn [H1 H2] H. rewrite H2 by lia. apply ceil_div_one; auto.
    - apply Z.pow_pos_nonneg; lia.
    - now replace (zlen lv - 1 - 0) with (zlen lv - 1) by lia.
  Qed.

Section Final.
  Variable aes : N -> N -> N.
  Variable clog : Z -> Z -> nat.

  Lemma create_ok n seed keys : 2 <= zlen keys -> 1 <= n ->
    n <= zlen keys ^ Z.of_nat (clog (zlen keys) n) ->
    exists t, ggm_create aes clog n seed keys = Ok t /\
      t_arity t = zlen keys /\ t_keys t = keys /\ t_expanded_keys t = keys /\
      height t = Z.of_nat (clog (zlen keys) n) + 1 /\ num_leaves t = n /\
      well_shaped t (zlen keys) n /\ is_ggm_tree aes seed keys t.
  Proof.
    intros HA Hn Hc. destruct (ggm_create_levels aes clog n seed keys HA Hn) as [H _].
    destruct (H Hc) as (lv & E & Hlen & Hsh & Hg). exists (Tree (zlen keys) lv keys keys).
    pose proof (shaped_root _ n lv HA Hn Hsh) as Hr.
    replace (zlen lv - 1) with (Z.of_nat (clog (zlen keys) n)) in Hr by lia. specialize (Hr Hc).
    split; auto. cbn [t_arity t_keys t_expanded_keys]. repeat (split; [reflexivity|]).
    unfold height. cbn [t_levels]. split; [lia|]. split.
    { unfold num_leaves. cbn [t_levels]. pose proof (shaped_leaves _ _ _ Hsh) as HL. unfold w in HL.
      rewrite <- HL. f_equal. destruct (exists_last (l := lv)) as (l1 & x & ->).
      - intros ->. rewrite zlen_nil in Hlen. lia.
      - rewrite last_last, znth_app, zlen_app by (rewrite zlen_app; change (zlen [x]) with 1; pose proof (zlen_nonneg l1); lia).
        change (zlen [x]) with 1. replace (zlen l1 + 1 - 1) with (zlen l1) by lia.
        replace (zlen l1 <? zlen l1) with false by lia. rewrite Z.sub_diag. reflexivity. }
    split; [now apply shaped_well_shaped|].
    destruct Hg as [Hg0 Hg1]. split; [exact Hg0|].
    intros l i Hl Hi. unfold height in Hl; cbn [t_levels] in Hl.
    cbv zeta. unfold node; cbn [t_levels]. pose proof (Hg1 (l + 1) i ltac:(lia) Hi) as H1.
    unfold child in H1. replace (l + 1 - 1) with l in H1 by lia. exact H1.
  Qed.

  Lemma create_err n seed keys :
    (zlen keys < 2 -> exists m, ggm_create aes clog n seed keys = Err (invalid_argument m)) /\
    (n <= 0 -> exists m, ggm_create aes clog n seed keys = Err (invalid_argument m)) /\
    (2 <= zlen keys -> 1 <= n -> zlen keys ^ Z.of_nat (clog (zlen keys) n) < n ->
       exists m, ggm_create aes clog n seed keys = Err (internal_error m)).
  Proof.
    split; [|split].
    - intro H. unfold ggm_create. replace (zlen keys <? 2) with true by lia. eexists; reflexivity.
    - intro H. unfold ggm_create. destruct (zlen keys <? 2); [eexists; reflexivity|].
      replace (n <=? 0) with true by lia. eexists; reflexivity.
    - intros H1 H2 H3. destruct (ggm_create_levels aes clog n seed keys H1 H2) as [_ H].
      rewrite H by auto. eexists; reflexivity.
  Qed.

End Final.

Section Unique.
  Variable aes : N -> N -> N.
  (** The shape and the child equation determine all node values. *)
  Lemma ggm_tree_unique seed keys n t1 t2 : 2 <= zlen keys ->
    height t1 = height t2 -> well_shaped t1 (zlen keys) n -> well_shaped t2 (zlen keys) n ->
    is_ggm_tree aes seed keys t1 -> is_ggm_tree aes seed keys t2 -> t_levels t1 = t_levels t2.
  Proof.
    intros HA Hh (Ha1 & Hr1 & Hl1 & Hs1) (Ha2 & Hr2 & Hl2 & Hs2) [Hg1 Hc1] [Hg2 Hc2].
    set (A := zlen keys) in *.
    assert (HW : forall k, (Z.of_nat k < height t1) ->
       width t1 (height t1 - 1 - Z.of_nat k) = width t2 (height t1 - 1 - Z.of_nat k)).
    { induction k as [|k IH]; intro Hk.
      - change (Z.of_nat 0) with 0. rewrite Z.sub_0_r, Hl1, Hh, Hl2. reflexivity.
      - set (l := height t1 - 1 - Z.of_nat (S k)) in *.
        replace (height t1 - 1 - Z.of_nat k) with (l + 1) in IH by lia. specialize (IH ltac:(lia)).
        specialize (Hs1 l ltac:(lia)). specialize (Hs2 l ltac:(lia)). nia. }
    assert (HW' : forall l, width t1 l = width t2 l).
    { intro l. destruct (Z_lt_dec l 0); [unfold width; rewrite !znth_out by lia; auto|].
      destruct (Z_lt_dec l (height t1)).
      - pose proof (HW (Z.to_nat (height t1 - 1 - l)) ltac:(lia)) as E.
        now replace (height t1 - 1 - Z.of_nat (Z.to_nat (height t1 - 1 - l))) with l in E by lia.
      - unfold width, height in *. rewrite !znth_out by lia. auto. }
    assert (HN : forall k i, Z.of_nat k < height t1 -> 0 <= i < width t1 (Z.of_nat k) ->
       node t1 (Z.of_nat k) i = node t2 (Z.of_nat k) i).
    { induction k as [|k IH]; intros i Hk Hi.
      - change (Z.of_nat 0) with 0 in *. rewrite Hr1 in Hi. replace i with 0 by lia. congruence.
      - replace (Z.of_nat (S k)) with (Z.of_nat k + 1) in * by lia.
        rewrite (Hc1 _ i) by (auto; lia). rewrite (Hc2 _ i) by (rewrite <- ?HW'; auto; lia).
        fold A. rewrite IH; auto; [lia|]. apply div_range; [lia|].
        specialize (Hs1 (Z.of_nat k) ltac:(lia)). lia. }
    apply levels_ext.
    - split; [exact Hh|exact HW'].
    - intros l i Hl Hi. replace l with (Z.of_nat (Z.to_nat l)) in * by lia. apply HN; auto. unfold height. lia.
  Qed.

End Unique.

  (** Node queries *)
  Lemma get_value_exact t level i :
    (0 <= level < height t /\ 0 <= i < width t level -> get_value_at_node t level i = Ok (node t level i)) /\
    (~ (0 <= level < height t /\ 0 <= i < width t level) ->
       exists m, get_value_at_node t level i = Err (invalid_argument m)).
  Proof.
    unfold get_value_at_node, num_levels, height, width, node.
    destruct (Z_lt_dec level 0) as [H1|H1].
    { replace (level <? 0) with true by lia. cbn [orb]. split; [lia|]. intro; eexists; reflexivity. }
    replace (level <? 0) with false by lia. cbn [orb].
    destruct (Z.leb_spec (zlen (t_levels t)) level) as [H2|H2].
    { split; [lia|]. intro; eexists; reflexivity. }
    rewrite (zget_ok []) by lia. cbn [rbind]. set (lv := znth [] (t_levels t) level).
    destruct (Z.ltb_spec i 0); cbn [orb]. { split; [lia|]. intro; eexists; reflexivity. }
    destruct (Z.leb_spec (zlen lv) i). { split; [lia|]. intro; eexists; reflexivity. }
    split; [|lia]. intros _. apply zget_ok. lia.
  Qed.

  Lemma get_leaf_exact t i : 1 <= height t ->
    (0 <= i < num_leaves t -> get_value_at_leaf t i = Ok (node t (height t - 1) i)) /\
    (~ (0 <= i < num_leaves t) -> exists m, get_value_at_leaf t i = Err (invalid_argument m)).
  Proof.
    intro Hh. unfold get_value_at_leaf.
    assert (E : num_leaves t = width t (height t - 1)).
    { unfold num_leaves, width, height in *. f_equal. set (lv := t_levels t) in *.
      destruct (exists_last (l := lv)) as (l1 & x & ->).
      - intros ->. rewrite zlen_nil in Hh. lia.
      - rewrite last_last, znth_app, zlen_app by (rewrite zlen_app; change (zlen [x]) with 1; pose proof (zlen_nonneg l1); lia).
        change (zlen [x]) with 1. replace (zlen l1 + 1 - 1) with (zlen l1) by lia.
        replace (zlen l1 <? zlen l1) with false by lia. rewrite Z.sub_diag. reflexivity. }
    destruct (get_value_exact t (num_levels t - 1) i) as [H1 H2].
    change (num_levels t) with (height t) in *. rewrite E. split; intro H; [apply H1|apply H2]; lia.
  Qed.

  (** Sibling-wise XOR *)
  Lemma sibling_xors_ok t : 1 <= t_arity t ->
    (forall l, 1 <= l < height t -> width t l <= 2^31) ->
    exists xs, get_sibling_wise_xor t = Ok xs /\ zlen xs = Z.max 0 (height t - 1) /\
      forall l, 0 <= l < height t - 1 ->
        zlen (znth [] xs l) = t_arity t /\
        forall j, 0 <= j < t_arity t ->
          znth 0%N (znth [] xs l) j = sibling_xor (znth [] (t_levels t) (l + 1)) (t_arity t) j.
  Proof.
    intros HA Hw. unfold get_sibling_wise_xor, num_levels. fold (height t).
    set (row l := map (fun j => sibling_xor (znth [] (t_levels t) (l + 1)) (t_arity t) j) (zrange 0 (t_arity t))).
    rewrite (rmapM_ok _ row).
    - eexists. split; [reflexivity|]. split; [rewrite zlen_map, zlen_zrange_max; lia|].
      intros l Hl. rewrite (znth_map _ 0) by (rewrite zlen_zrange_max; lia).
      rewrite znth_zrange by lia. rewrite Z.add_0_l. unfold row.
      split; [rewrite zlen_map, zlen_zrange; lia|].
      intros j Hj. rewrite (znth_map _ 0) by (rewrite zlen_zrange; lia).
      rewrite znth_zrange by lia. now rewrite Z.add_0_l.
    - intros l Hl. apply In_zrange in Hl. rewrite (zget_ok []) by (unfold height in *; lia). cbn [rbind].
      destruct (xor_blocks_ok (znth [] (t_levels t) (l + 1)) (t_arity t)) as (out & E & Hlen & Hout); [lia| |].
      { apply (Hw (l + 1)). lia. }
      rewrite E. f_equal. apply (znth_ext 0%N).
      + unfold row. rewrite zlen_map, zlen_zrange; lia.
      + intros j Hj. rewrite Hout by lia. unfold row. rewrite (znth_map _ 0) by (rewrite zlen_zrange; lia).
        rewrite znth_zrange by lia. now rewrite Z.add_0_l.
  Qed.

  Lemma rmapM_ub {X Y} (f : X -> res Y) l :
    (forall x, In x l -> (exists y, f x = Ok y) \/ exists w, f x = UB w) ->
    (exists x w, In x l /\ f x = UB w) -> exists w, rmapM f l = UB w.
  Proof.
    induction l as [|a l IH]; intros H (x & w0 & Hx & Ex); [destruct Hx|]. cbn [rmapM].
    destruct (H a (or_introl eq_refl)) as [[y E]|[w1 E]]; rewrite E; cbn [rbind]; [|eexists; reflexivity].
    destruct Hx as [->|Hx]; [congruence|].
    destruct IH as [w1 E1]; [intros; apply H; now right|exists x, w0; auto|].
    rewrite E1. cbn [rbind]. eexists; reflexivity.
  Qed.

  Lemma sibling_xors_overflow t l : 1 <= t_arity t -> 1 <= l < height t -> 2^31 < width t l ->
    exists why, get_sibling_wise_xor t = UB why.
  Proof.
    intros HA Hl Hw. unfold get_sibling_wise_xor, num_levels. fold (height t).
    assert (Hz : zlen (zrepeat 0%N (t_arity t)) = t_arity t) by (apply zlen_zrepeat; lia).
    apply rmapM_ub.
    - intros k Hk. apply In_zrange in Hk. rewrite (zget_ok []) by (unfold height in *; lia). cbn [rbind].
      destruct (Z_le_gt_dec (zlen (znth [] (t_levels t) (k + 1))) (2^31)).
      + left. destruct (xor_blocks_ok (znth [] (t_levels t) (k + 1)) (t_arity t)) as (out & E & _); [lia|auto|].
        exists out. exact E.
      + right. apply xor_blocks_overflow; lia.
    - exists (l - 1). assert (HE : exists why, xor_blocks (znth [] (t_levels t) l) (zrepeat 0%N (t_arity t)) = UB why).
      { apply xor_blocks_overflow; [lia|exact Hw]. }
      destruct HE as [why HE]. exists why. split; [apply In_zrange; lia|].
      replace (l - 1 + 1) with l by lia. rewrite (zget_ok []) by (unfold height in *; lia). exact HE.
  Qed.

Section Final2.
  Variable aes : N -> N -> N.
  Variable clog : Z -> Z -> nat.

  (** Reconstruction *)
  Lemma all_rows (A : Z) (xs : list (list N)) :
    (forall row, In row xs -> zlen row = A) -> forallb (fun row => zlen row =? A) xs = true.
  Proof. intro H. apply forallb_forall. intros row Hr. rewrite (H row Hr). apply Z.eqb_refl. Qed.

  Definition valid_args (A n m : Z) (xs : list (list N)) (keys : list N) : Prop :=
    2 <= A < 2^31 /\ 1 <= n /\ 0 <= m < n /\ zlen keys = A /\
    (forall row, In row xs -> zlen row = A) /\
    zlen xs = Z.of_nat (clog A n) /\ n <= A ^ zlen xs.

  Lemma reconstruct_rec_spec A n m xs keys : valid_args A n m xs keys -> n <= 2^31 ->
    exists lv0 R, ggm_reconstruct aes clog A n m xs keys = Ok (Tree A R keys keys) /\
      shaped A n lv0 /\ w lv0 0 = 1 /\ zlen lv0 = zlen xs + 1 /\
      allocate_levels clog A n = Ok lv0 /\
      same_shape R lv0 /\ rec_spec aes A keys m lv0 xs R.
  Proof.
    intros (HA & Hn & Hm & Hk & Hrows & Hxs & Hpow) Hn31.
    destruct (allocate_levels_spec clog A n ltac:(lia) Hn) as [HE _].
    rewrite <- Hxs in HE. destruct (HE Hpow) as (lv0 & Ea & Hlen & Hsh & Hz).
    assert (Hroot : w lv0 0 = 1).
    { apply (shaped_root A n); auto; [lia|]. now replace (zlen lv0 - 1) with (zlen xs) by lia. }
    destruct (levels_loop aes A keys ltac:(lia) Hk n m Hm lv0 Hsh Hroot xs
                (missing_path (Z.to_nat (zlen xs + 1)) A m)) as (R & ER & HsR & HR); auto; try lia.
    - intros l Hl. unfold missing_path.
      destruct (missing_path_spec A (Z.to_nat (zlen xs + 1)) ltac:(lia) m [] ltac:(lia)) as [P1 P2].
      rewrite zlen_nil in P1. pose proof (zlen_nonneg xs).
      rewrite (zget_ok 0) by lia. rewrite P2 by lia. f_equal.
      replace (l <? Z.of_nat (Z.to_nat (zlen xs + 1))) with true by lia. unfold pth. f_equal. f_equal. lia.
    - intros l Hl. unfold w. apply Hrows. apply znth_In. lia.
    - exists lv0, R. split; [|repeat (split; [assumption|]); assumption].
      unfold ggm_reconstruct. replace (A <? 2) with false by lia. replace (n <=? 0) with false by lia.
      replace (n <=? m) with false by lia. rewrite all_rows by auto. cbn [negb].
      replace (zlen xs + 1 - 1) with (zlen xs) by lia. replace (A ^ zlen xs <? n) with false by lia.
      replace (zlen keys =? 0) with false by lia.
      rewrite expand_keys_ok by auto. cbn [rbind]. rewrite Ea. cbn [rbind].
      replace (zlen lv0 =? zlen xs + 1) with true by lia. cbn [negb].
      unfold mk_tree; cbn [t_arity t_keys t_expanded_keys]. rewrite Hlen in ER. rewrite Hk, ER. reflexivity.
  Qed.

  Lemma reconstruct_correct n m seed keys t xs :
    2 <= zlen keys < 2^31 -> 1 <= n <= 2^31 -> 0 <= m < n ->
    ggm_create aes clog n seed keys = Ok t -> get_sibling_wise_xor t = Ok xs ->
    exists r, ggm_reconstruct aes clog (zlen keys) n m xs keys = Ok r /\
      t_arity r = t_arity t /\ t_keys r = keys /\ height r = height t /\
      (forall l, width r l = width t l) /\
      forall l i, 0 <= l < height t -> 0 <= i < width t l ->
        node r l i = if i =? on_path (zlen keys) (height t) m l then 0%N else node t l i.
  Proof.
    intros HA Hn Hm Hc Hx.
    destruct (ggm_create_levels aes clog n seed keys ltac:(lia) ltac:(lia)) as [H1 H2].
    set (A := zlen keys) in *.
    destruct (Z_le_gt_dec n (A ^ Z.of_nat (clog A n))) as [Hle|Hgt]; [|rewrite H2 in Hc by lia; discriminate].
    destruct (H1 Hle) as (T & E & HlT & HshT & HgT). rewrite E in Hc. injection Hc as <-.
    destruct (sibling_xors_ok (Tree A T keys keys)) as (xs' & Ex & Hlx & Hrow).
    { cbn [t_arity]. lia. }
    { intros l Hl. unfold height, width in *; cbn [t_levels] in *.
      pose proof (shaped_le A n T ltac:(lia) ltac:(lia) HshT l ltac:(lia)) as Hle2. unfold w in Hle2. lia. }
    rewrite Ex in Hx. injection Hx as ->. unfold height in *; cbn [t_levels t_arity] in *.
    assert (Hlx' : zlen xs = Z.of_nat (clog A n)) by lia.
    destruct (reconstruct_rec_spec A n m xs keys) as (lv0 & R & ER & Hsh & Hroot & Hlen & Ea & HsR & HR).
    { split; [lia|]. split; [lia|]. split; [lia|]. split; [reflexivity|]. split.
      - intros row Hr. apply (In_znth []) in Hr. destruct Hr as (l & Hl & <-). apply Hrow. lia.
      - split; [exact Hlx'|now rewrite Hlx']. }
    { lia. }
    assert (HsT : same_shape T lv0).
    { split; [lia|]. intro l. destruct (Z_lt_dec l 0); [now rewrite !w_out by lia|].
      destruct (Z_lt_dec l (zlen T)); [|now rewrite !w_out by lia].
      rewrite (proj2 HshT), (proj2 Hsh) by lia. do 2 f_equal. lia. }
    exists (Tree A R keys keys). split; [exact ER|]. cbn [t_arity t_keys t_levels].
    split; [reflexivity|]. split; [reflexivity|]. split; [destruct HsR, HsT; lia|].
    split. { intro l. unfold width; cbn [t_levels]. change (w R l = w T l). now rewrite (proj2 HsR), (proj2 HsT). }
    intros l i Hl Hi. unfold node, width in *; cbn [t_levels] in *.
    change (zlen (znth [] T l)) with (w T l) in Hi. rewrite (proj2 HsT) in Hi.
    pose proof (rec_spec_tree aes A keys ltac:(lia) eq_refl n m Hm lv0 Hsh Hroot seed T xs R HsT HsR HgT) as HF.
    unfold g at 2 in HF. unfold pth in HF. unfold on_path.
    replace (zlen T - 1 - l) with (zlen lv0 - 1 - l) by lia.
    apply HF; [|exact HR|lia|exact Hi].
    intros l' j Hl' Hj. destruct (Hrow (l' - 1) ltac:(lia)) as [_ Hr].
    replace (l' - 1 + 1) with l' in Hr by lia. apply Hr. lia.
  Qed.

  Lemma reconstruct_ignores_path A n m xs xs' keys :
    2 <= A < 2^31 -> 1 <= n <= 2^31 -> 0 <= m < n -> zlen keys = A ->
    zlen xs = zlen xs' -> (forall row, In row xs -> zlen row = A) -> (forall row, In row xs' -> zlen row = A) ->
    (forall l j, 0 <= l < zlen xs -> 0 <= j < A -> j <> on_path A (zlen xs + 1) m (l + 1) mod A ->
       znth 0%N (znth [] xs l) j = znth 0%N (znth [] xs' l) j) ->
    ggm_reconstruct aes clog A n m xs keys = ggm_reconstruct aes clog A n m xs' keys.
  Proof.
    intros HA Hn Hm Hk Hlen Hr Hr' Hag.
    destruct (Z.eq_dec (zlen xs) (Z.of_nat (clog A n))) as [Hc|Hc].
    - destruct (Z_le_gt_dec n (A ^ zlen xs)) as [Hp|Hp].
      + destruct (reconstruct_rec_spec A n m xs keys) as (lv0 & R & ER & Hsh & Hroot & HL & Ea & HsR & HR);
          [unfold valid_args; repeat (split; [first [assumption|lia]|]); assumption|lia|].
        destruct (reconstruct_rec_spec A n m xs' keys) as (lv1 & R' & ER' & _ & _ & HL' & Ea' & HsR' & HR').
        { unfold valid_args. rewrite <- Hlen. repeat (split; [first [assumption|lia]|]); assumption. }
        { lia. }
        rewrite Ea in Ea'. injection Ea' as <-. rewrite ER, ER'. do 2 f_equal.
        apply (rec_spec_unique aes A keys ltac:(lia) n m Hm lv0 Hsh Hroot xs xs'); auto.
        intros l j Hl Hj Hne. apply Hag; [lia|auto|]. unfold on_path, pth in *.
        replace (l - 1 + 1) with l by lia. replace (zlen xs + 1) with (zlen lv0) by lia. exact Hne.
      + unfold ggm_reconstruct. rewrite !all_rows by auto. rewrite <- Hlen.
        replace (zlen xs + 1 - 1) with (zlen xs) by lia. replace (A ^ zlen xs <? n) with true by lia. reflexivity.
    - unfold ggm_reconstruct. rewrite !all_rows by auto. rewrite <- Hlen.
      destruct (A <? 2), (n <=? 0), (n <=? m), (A ^ (zlen xs + 1 - 1) <? n), (zlen keys =? 0); cbn [negb]; auto.
      rewrite expand_keys_ok by auto. cbn [rbind].
      destruct (allocate_levels_spec clog A n ltac:(lia) ltac:(lia)) as [HE HF].
      destruct (Z_le_gt_dec n (A ^ Z.of_nat (clog A n))) as [Hle|Hgt].
      + destruct (HE Hle) as (lv & Ea & Hl & _). rewrite Ea. cbn [rbind].
        replace (zlen lv =? zlen xs + 1) with false by lia. reflexivity.
      + rewrite HF by lia. reflexivity.
  Qed.

  (** Argument boundary *)
  Lemma reconstruct_rejects A n m xs keys :
    A < 2 \/ n <= 0 \/ n <= m \/ (exists row, In row xs /\ zlen row <> A) \/
    A ^ zlen xs < n \/ keys = [] ->
    exists msg, ggm_reconstruct aes clog A n m xs keys = Err (invalid_argument msg).
  Proof.
    intro H. unfold ggm_reconstruct.
    destruct (Z.ltb_spec A 2); [eexists; reflexivity|].
    destruct (Z.leb_spec n 0); [eexists; reflexivity|].
    destruct (Z.leb_spec n m); [eexists; reflexivity|].
    destruct (forallb (fun row => zlen row =? A) xs) eqn:Ef; cbn [negb]; [|eexists; reflexivity].
    replace (zlen xs + 1 - 1) with (zlen xs) by lia.
    destruct (Z.ltb_spec (A ^ zlen xs) n); [eexists; reflexivity|].
    destruct (Z.eqb_spec (zlen keys) 0) as [|Hk]; [eexists; reflexivity|].
    destruct H as [H|[H|[H|[(row & Hin & Hne)|[H|H]]]]]; try lia.
    - rewrite forallb_forall in Ef. specialize (Ef row Hin). lia.
    - subst. rewrite zlen_nil in Hk. lia.
  Qed.

  Lemma reconstruct_valid_ok A n m xs keys : valid_args A n m xs keys -> n <= 2^31 ->
    exists t, ggm_reconstruct aes clog A n m xs keys = Ok t /\ t_arity t = A /\ t_keys t = keys /\
      height t = zlen xs + 1 /\ well_shaped t A n.
  Proof.
    intros Hv Hn. destruct (reconstruct_rec_spec A n m xs keys Hv Hn) as (lv0 & R & E & Hsh & Hr & Hl & _ & Hs & _).
    exists (Tree A R keys keys). split; auto. cbn [t_arity t_keys]. split; auto. split; auto.
    unfold height; cbn [t_levels]. split; [destruct Hs; lia|].
    destruct Hv as (HA & Hn' & _). apply shaped_well_shaped; try lia.
    - apply (shaped_same A n R lv0); auto.
    - rewrite (proj2 Hs). exact Hr.
  Qed.

  Lemma rmapM_app {X Y} (f : X -> res Y) l1 l2 :
    rmapM f (l1 ++ l2) = (let! a := rmapM f l1 in let! b := rmapM f l2 in Ok (a ++ b)).
  Proof.
    induction l1 as [|x l1 IH]; cbn [app rmapM rbind].
    - destruct (rmapM f l2); reflexivity.
    - destruct (f x); cbn [rbind]; auto. rewrite IH. destruct (rmapM f l1); cbn [rbind]; auto.
      destruct (rmapM f l2); reflexivity.
  Qed.

  (** Fewer keys than the arity: read past the end of the key array. *)
  Lemma reconstruct_few_keys A n m xs keys :
    2 <= A -> 1 <= n -> m < n -> (forall row, In row xs -> zlen row = A) -> n <= A ^ zlen xs ->
    1 <= zlen keys < A -> exists why, ggm_reconstruct aes clog A n m xs keys = UB why.
  Proof.
    intros HA Hn Hm Hr Hp Hk. unfold ggm_reconstruct.
    replace (A <? 2) with false by lia. replace (n <=? 0) with false by lia.
    replace (n <=? m) with false by lia. rewrite all_rows by auto. cbn [negb].
    replace (zlen xs + 1 - 1) with (zlen xs) by lia. replace (A ^ zlen xs <? n) with false by lia.
    replace (zlen keys =? 0) with false by lia.
    assert (HU : exists why, expand_keys A keys = UB why).
    { unfold expand_keys. apply rmapM_ub.
      - intros i Hi. apply In_zrange in Hi. destruct (Z_lt_dec i (zlen keys)).
        + left. eexists. apply (zget_ok 0%N). lia.
        + right. eexists. apply zget_ub. lia.
      - exists (zlen keys), "vector index out of bounds"%string. split; [apply In_zrange; lia|]. apply zget_ub. lia. }
    destruct HU as [why HU]. rewrite HU. eexists; reflexivity.
  Qed.

  (** A row count different from the computed height: assertion failure. *)
  Lemma reconstruct_row_count A n m xs keys :
    2 <= A -> 1 <= n -> m < n -> (forall row, In row xs -> zlen row = A) -> n <= A ^ zlen xs ->
    zlen keys = A -> n <= A ^ Z.of_nat (clog A n) -> zlen xs <> Z.of_nat (clog A n) ->
    ggm_reconstruct aes clog A n m xs keys = UB "assert".
  Proof.
    intros HA Hn Hm Hr Hp Hk Hc Hne. unfold ggm_reconstruct.
    replace (A <? 2) with false by lia. replace (n <=? 0) with false by lia.
    replace (n <=? m) with false by lia. rewrite all_rows by auto. cbn [negb].
    replace (zlen xs + 1 - 1) with (zlen xs) by lia. replace (A ^ zlen xs <? n) with false by lia.
    replace (zlen keys =? 0) with false by lia. rewrite expand_keys_ok by auto. cbn [rbind].
    destruct (allocate_levels_spec clog A n ltac:(lia) ltac:(lia)) as [HE _].
    destruct (HE Hc) as (lv & Ea & Hl & _). rewrite Ea. cbn [rbind].
    replace (zlen lv =? zlen xs + 1) with false by lia. reflexivity.
  Qed.

  (** More than 2^31 leaves: the XOR accumulation of the last level overflows. *)
  Lemma reconstruct_overflow A n m xs keys : valid_args A n m xs keys -> 2 <= n -> 2^31 < n ->
    exists why, ggm_reconstruct aes clog A n m xs keys = UB why.
  Proof.
    intros (HA & Hn & Hm & Hk & Hrows & Hxs & Hpow) Hn2 Hn31.
    destruct (allocate_levels_spec clog A n ltac:(lia) Hn) as [HE _].
    rewrite <- Hxs in HE. destruct (HE Hpow) as (lv0 & Ea & Hlen & Hsh & Hz).
    assert (Hroot : w lv0 0 = 1).
    { apply (shaped_root A n); auto; [lia|]. now replace (zlen lv0 - 1) with (zlen xs) by lia. }
    assert (Hleaf : w lv0 (zlen lv0 - 1) = n) by now apply (shaped_leaves A).
    assert (HL2 : 1 < zlen lv0).
    { destruct (Z.eq_dec (zlen lv0) 1) as [E|]; [|pose proof (zlen_nonneg lv0); pose proof (proj1 Hsh); lia].
      rewrite E in Hleaf. change (1 - 1) with 0 in Hleaf. lia. }
    unfold ggm_reconstruct. replace (A <? 2) with false by lia. replace (n <=? 0) with false by lia.
    replace (n <=? m) with false by lia. rewrite all_rows by auto. cbn [negb].
    replace (zlen xs + 1 - 1) with (zlen xs) by lia. replace (A ^ zlen xs <? n) with false by lia.
    replace (zlen keys =? 0) with false by lia.
    rewrite expand_keys_ok by auto. cbn [rbind]. rewrite Ea. cbn [rbind].
    replace (zlen lv0 =? zlen xs + 1) with true by lia. cbn [negb].
    unfold mk_tree; cbn [t_arity t_keys t_expanded_keys]. rewrite Hk.
    set (path := missing_path (Z.to_nat (zlen xs + 1)) A m).
    assert (Hpath : forall l, 0 <= l < zlen lv0 -> zget path l = Ok (pth A m lv0 l)).
    { intros l Hl. unfold path, missing_path.
      destruct (missing_path_spec A (Z.to_nat (zlen xs + 1)) ltac:(lia) m [] ltac:(lia)) as [P1 P2].
      rewrite zlen_nil in P1. pose proof (zlen_nonneg xs).
      rewrite (zget_ok 0) by lia. rewrite P2 by lia. f_equal.
      replace (l <? Z.of_nat (Z.to_nat (zlen xs + 1))) with true by lia. unfold pth. f_equal. f_equal. lia. }
    assert (HU : forall l R, 1 <= l < zlen lv0 -> same_shape R lv0 -> 2^31 < w lv0 l ->
      exists why, reconstruct_level aes A A keys path xs l R = UB why).
    { intros l R Hl [Hs1 Hs2] Hw. unfold reconstruct_level. rewrite (zget_ok []) by lia. cbn [rbind].
      destruct (xor_blocks_overflow (znth [] R l) (zrepeat 0%N A)) as [why E].
      - rewrite zlen_zrepeat; lia.
      - change (2^31 < w R l). rewrite Hs2. exact Hw.
      - rewrite E. eexists; reflexivity. }
    destruct (for_range_inv_ub (inv aes A keys m lv0 xs) 1 (zlen xs + 1)
      (reconstruct_level aes A A keys path xs) lv0 (zlen lv0 - 1)) as [why E].
    - lia.
    - now apply (inv_init aes A keys ltac:(lia) n m Hm lv0 Hsh Hroot xs).
    - intros l R Hl HI. destruct (Z_le_gt_dec (w lv0 l) (2^31)).
      + left. apply (level_step aes A keys ltac:(lia) Hk n m Hm lv0 Hsh xs l R path); auto; try lia.
        intros l1 Hl1. unfold w. apply Hrows. apply znth_In. lia.
      + right. apply HU; [lia|apply HI|lia].
    - intros R HI. apply HU; [lia|apply HI|rewrite Hleaf; lia].
    - rewrite E. eexists; reflexivity.
  Qed.
End Final2.
