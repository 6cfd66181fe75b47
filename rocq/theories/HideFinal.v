(** The element that the receiver of all-but-one random OT misses can be anything,
    given everything the receiver sees. *)
From Verif Require Import Base BaseFacts ListFacts ScalarModel GgmModel GgmSpec GgmFinal GgmProofs GgmProofs2 GgmProofs3
  ProcModel ProcSpec ProcProofs RotModel RotSpec RotProofs RotFinal HideSpec HideRun HideProofs HideGgm.
From Coq Require Import QArith.
Local Open Scope Z_scope.
Local Arguments znth : simpl never.

Lemma find_range n (f : Z -> bool) i : 0 <= i < n -> f i = true -> (forall j, 0 <= j < n -> f j = true -> j = i) ->
  find f (zrange 0 n) = Some i.
Proof.
  intros Hi Hf Hu. destruct (find f (zrange 0 n)) as [j|] eqn:E.
  - apply find_some in E. destruct E as [E1 E2]. apply In_zrange in E1. f_equal. apply Hu; [lia|exact E2].
  - exfalso. pose proof (find_none _ _ E i). rewrite H in Hf; [discriminate|]. apply In_zrange. lia.
Qed.
Lemma find_range_none n (f : Z -> bool) : (forall j, 0 <= j < n -> f j = true -> False) -> find f (zrange 0 n) = None.
Proof.
  intro H. destruct (find f (zrange 0 n)) as [j|] eqn:E; [|reflexivity]. exfalso.
  apply find_some in E. destruct E as [E1 E2]. apply In_zrange in E1. apply (H j); [lia|exact E2].
Qed.

Lemma filter_lt {A} (f : A -> bool) (d : A) l : forall i j, 0 <= i < j -> j < zlen l -> f (znth d l i) = true ->
  (List.length (filter f (firstn (Z.to_nat i) l)) < List.length (filter f (firstn (Z.to_nat j) l)))%nat.
Proof.
  induction l as [|x l IH]; intros i j Hi Hj Hf; [rewrite zlen_nil in Hj; lia|].
  rewrite zlen_cons in Hj. rewrite znth_cons in Hf by lia.
  replace (Z.to_nat j) with (Datatypes.S (Z.to_nat (j - 1))) by lia. cbn [firstn filter].
  destruct (Z.eqb_spec i 0) as [->|Hi0].
  - rewrite Hf. change (Z.to_nat 0) with 0%nat. cbn [firstn filter List.length]. lia.
  - replace (Z.to_nat i) with (Datatypes.S (Z.to_nat (i - 1))) by lia. cbn [firstn filter].
    specialize (IH (i - 1) (j - 1) ltac:(lia) ltac:(lia) Hf). destruct (f x); cbn; lia.
Qed.
Lemma seed_pos_inj sizes i j : nonempty sizes i -> nonempty sizes j -> seed_pos sizes i = seed_pos sizes j -> i = j.
Proof.
  intros [Hi Hi0] [Hj Hj0] E. unfold seed_pos in E.
  destruct (Z.lt_trichotomy i j) as [H|[H|H]]; [|exact H|].
  - pose proof (filter_lt (fun n => negb (n =? 0)) 0 sizes i j ltac:(lia) ltac:(lia) ltac:(cbn; lia)). lia.
  - pose proof (filter_lt (fun n => negb (n =? 0)) 0 sizes j i ltac:(lia) ltac:(lia) ltac:(cbn; lia)). lia.
Qed.

(** ** Trees depend on the block cipher only at their keys *)
Section Same.
  Variables aes1 aes2 : N -> N -> N.
  Variable clog : Z -> Z -> nat.
  Variable keys : list N.
  Hypothesis Hsame : forall k x, In k keys -> aes1 k x = aes2 k x.

  Lemma expand_subtree_same arity l n levels :
    expand_subtree aes1 arity keys l n levels = expand_subtree aes2 arity keys l n levels.
  Proof.
    unfold expand_subtree. f_equal. apply for_range_ext. intros level [[lv start] mx] _.
    destruct (level_size lv level) as [sz| |]; cbn [rbind]; try reflexivity.
    match goal with |- rbind ?x _ = rbind ?y _ => assert (E : x = y); [|rewrite E; reflexivity] end.
    apply for_range_ext. intros node lv1 _. unfold expand_node.
    destruct (level_size lv1 (level + 1)) as [next| |]; cbn [rbind]; try reflexivity.
    apply for_range_ext. intros s lv2 _. destruct (get_node lv2 level node) as [seed| |]; cbn [rbind]; try reflexivity.
    destruct (zget keys s) as [key| |] eqn:Ek; cbn [rbind]; try reflexivity.
    unfold compute_prg. rewrite Hsame; [reflexivity|].
    destruct (zget_inv _ _ _ Ek) as [Hs E]. rewrite <- (E 0%N). now apply znth_In.
  Qed.
  Lemma strees_same sizes seeds : strees aes1 clog keys sizes seeds = strees aes2 clog keys sizes seeds.
  Proof.
    unfold strees. apply map_ext. intros [n s]. unfold stree, ggm_create. destruct (n =? 0); [reflexivity|].
    destruct (_ <? 2); [reflexivity|]. destruct (_ <=? 0); [reflexivity|].
    destruct (allocate_levels _ _ _) as [lv| |]; cbn [rbind]; try reflexivity.
    destruct (set_node _ _ _ _) as [lv1| |]; cbn [rbind]; try reflexivity. cbn [mk_tree t_arity t_expanded_keys t_levels t_keys].
    now rewrite expand_subtree_same.
  Qed.
End Same.

(** The number of random blocks that the sender draws. *)
Definition drawn_for (sizes : list Z) : nat := 2 + List.length (filter (fun n => negb (n =? 0)) sizes).

Lemma tree_seeds_same (S : scalar) sizes : forall (t1 t2 : tape S),
  (forall p, (2 + p < drawn_for sizes)%nat -> t1 p = t2 p) -> tree_seeds S sizes t1 = tree_seeds S sizes t2.
Proof.
  induction sizes as [|n s IH]; intros t1 t2 H; cbn [tree_seeds]; [reflexivity|]. unfold drawn_for in H. cbn [filter] in H.
  destruct (n =? 0); cbn [negb] in H; [f_equal; now apply IH|]. cbn [List.length] in H.
  rewrite (H O) by lia. f_equal. apply IH. unfold drawn_for. intros p Hp. unfold tape_tl. apply H. lia.
Qed.
Lemma tree_tape_drop (S : scalar) sizes : forall t : tape S, tree_tape S sizes t = tape_drop (drawn_for sizes - 2) t.
Proof.
  induction sizes as [|n s IH]; intro t; cbn [tree_tape]; [reflexivity|]. unfold drawn_for in *. cbn [filter].
  destruct (n =? 0); cbn [negb]; [apply IH|]. rewrite IH. cbn [List.length].
  set (c := List.length _). replace (2 + c - 2)%nat with c by lia. now replace (2 + Datatypes.S c - 2)%nat with (Datatypes.S c) by lia.
Qed.

Lemma tree_tape_end (S : scalar) sizes (t : tape S) : tree_tape S sizes (tape_drop 2 t) = tape_drop (drawn_for sizes) t.
Proof. rewrite tree_tape_drop. unfold drawn_for. set (c := List.length _). now replace (2 + c - 2)%nat with c by lia. Qed.

(** [aes''] and [ta''] behave like [aes'] and [ta'] where the sender with keys from [ta] uses them. *)
Definition behaves {S : scalar} (sizes : list Z) (ta : tape S) (aes' : N -> N -> N) (ta' : tape S) (aes'' : N -> N -> N) (ta'' : tape S) : Prop :=
  (forall q x, (q < 2)%nat -> aes'' (fst (ta q)) x = aes' (fst (ta q)) x) /\
  (forall p, (p < drawn_for sizes)%nat -> ta'' p = ta' p).
Lemma behaves_refl {S : scalar} sizes (ta : tape S) aes' ta' : behaves sizes ta aes' ta' aes' ta'.
Proof. split; auto. Qed.

Section F.
  Variable S : scalar.
  Variable aes : N -> N -> N.
  Variables sizes indices : list Z.
  Variable trees : Z -> tree.
  Variable values : Z -> N.
  Variable ta : tape S.

  Definition missing_key (i : Z) : N := fst (ta (if Z.even (znth 0 indices i) then 0%nat else 1%nat)).
  Definition changed_aes (k x : N) : N :=
    match find (fun i => negb (znth 0 sizes i =? 0) && (2 <=? height (trees i)) &&
                         (N.eqb k (missing_key i) && N.eqb x (last_parent (trees i) (znth 0 indices i))))
               (zrange 0 (zlen sizes)) with
    | Some i => N.lxor (values i) x
    | None => aes k x
    end.
  Definition changed_tape : tape S := fun q =>
    match find (fun i => negb (znth 0 sizes i =? 0) && (height (trees i) =? 1) && Nat.eqb (seed_pos sizes i) q)
               (zrange 0 (zlen sizes)) with
    | Some i => (values i, snd (ta q))
    | None => ta q
    end.

  Lemma changed_differ : differ_at_missing sizes indices trees aes changed_aes ta changed_tape.
  Proof.
    split.
    - intros k x. unfold changed_aes.
      match goal with |- context [find ?f ?l] => destruct (find f l) as [i|] eqn:E end; [right|now left].
      apply find_some in E. destruct E as [E1 E2]. apply In_zrange in E1.
      apply andb_prop in E2. destruct E2 as [E2 E3]. apply andb_prop in E2. destruct E2 as [E2 E4].
      apply andb_prop in E3. destruct E3 as [E3 E5].
      exists i. split; [split; lia|]. split; [lia|]. split; [now apply N.eqb_eq in E3|now apply N.eqb_eq in E5].
    - intros q. unfold changed_tape.
      match goal with |- context [find ?f ?l] => destruct (find f l) as [i|] eqn:E end; [right|now left].
      apply find_some in E. destruct E as [E1 E2]. apply In_zrange in E1.
      apply andb_prop in E2. destruct E2 as [E2 E3]. apply andb_prop in E2. destruct E2 as [E2 E4].
      exists i. split; [split; lia|]. split; [lia|]. split; [now apply Nat.eqb_eq in E3|reflexivity].
  Qed.

  Lemma changed_keys : tape_blocks 2 changed_tape = tape_blocks 2 ta.
  Proof.
    assert (H : forall q, (q < 2)%nat -> changed_tape q = ta q).
    { intros q Hq. unfold changed_tape. rewrite find_range_none; [reflexivity|].
      intros j _ E. apply andb_prop in E. destruct E as [_ E]. apply Nat.eqb_eq in E. unfold seed_pos in E. lia. }
    cbn. unfold tape_tl. now rewrite !H by lia.
  Qed.

  Variable clog : Z -> Z -> nat.
  Hypothesis Hdist : fst (ta 0%nat) <> fst (ta 1%nat).
  Hypothesis Hidx : Forall2 index_ok indices sizes.
  Hypothesis Hsz : forall n, In n sizes -> n = 0 \/ 1 <= n /\ good_size clog n.
  Hypothesis Htrees : forall i, nonempty sizes i -> batch_tree aes clog sizes ta i (trees i).
  Hypothesis Huniq : parents_unique sizes indices trees.

  Let keys := tape_blocks 2 ta.
  Let seeds := tree_seeds S sizes (tape_drop 2 ta).
  Let seeds' := tree_seeds S sizes (tape_drop 2 changed_tape).
  Let ss := strees aes clog keys sizes seeds.
  Let ss' := strees changed_aes clog keys sizes seeds'.

  Lemma zlen_ss aes0 ta0 : zlen (strees aes0 clog keys sizes (tree_seeds S sizes ta0)) = zlen sizes.
  Proof. unfold strees. rewrite zlen_map, zlen_combine; [reflexivity|]. now rewrite zlen_tree_seeds. Qed.
  Lemma znth_ss aes0 ta0 i : 0 <= i < zlen sizes ->
    znth None (strees aes0 clog keys sizes (tree_seeds S sizes ta0)) i =
    stree aes0 clog keys (znth 0 sizes i) (znth 0%N (tree_seeds S sizes ta0) i).
  Proof.
    intro Hi. unfold strees. rewrite (znth_map _ (0, 0%N)) by (rewrite zlen_combine; rewrite ?zlen_tree_seeds; lia).
    now rewrite znth_combine by (rewrite ?zlen_tree_seeds; lia).
  Qed.
  Lemma ss_empty aes0 ta0 i : 0 <= i < zlen sizes -> znth 0 sizes i = 0 ->
    znth None (strees aes0 clog keys sizes (tree_seeds S sizes ta0)) i = None.
  Proof. intros Hi H0. rewrite znth_ss by auto. unfold stree. now replace (znth 0 sizes i =? 0) with true by lia. Qed.

  Lemma same_levels t1 t2 : t_levels t1 = t_levels t2 -> height t1 = height t2 /\
    (forall l, width t1 l = width t2 l) /\ (forall l x, node t1 l x = node t2 l x).
  Proof. intro E. unfold height, width, node. now rewrite E. Qed.

  (** The trees of the two runs. *)
  Lemma both_trees i : nonempty sizes i ->
    exists t t', znth None ss i = Some t /\ znth None ss' i = Some t' /\
      num_leaves t = znth 0 sizes i /\ num_leaves t' = znth 0 sizes i /\
      (forall j, 0 <= j < znth 0 sizes i -> leaf t' j = if j =? znth 0 indices i then values i else leaf t j) /\
      chosen (rchoices clog (znth 0 sizes i) (znth 0 indices i)) (spairs (Some t')) =
      chosen (rchoices clog (znth 0 sizes i) (znth 0 indices i)) (spairs (Some t)).
  Proof.
    intros Hne. assert (Hne' := Hne). destruct Hne' as [Hi H0]. set (n := znth 0 sizes i) in *. set (idx := znth 0 indices i) in *.
    assert (Hin : In n sizes) by (apply znth_In; exact Hi).
    destruct (Hsz n Hin) as [?|[Hn1 Hgs]]; [contradiction|].
    destruct (Forall2_znth 0 0 _ _ _ Hidx) as [Hli Hib].
    assert (Hix : 0 <= idx < n). { specialize (Hib i ltac:(lia)). unfold index_ok in Hib. fold n idx in Hib. lia. }
    destruct (Htrees i Hne) as (Hsh & Hh & Hg). fold n in Hsh, Hh.
    assert (Hkeys : [fst (ta 0%nat); fst (ta 1%nat)] = keys) by reflexivity. rewrite Hkeys in Hg.
    assert (Hk : zlen keys = 2) by reflexivity.
    assert (Hseed : znth 0%N seeds i = fst (ta (seed_pos sizes i))).
    { unfold seeds. rewrite tree_seeds_pos by auto. now rewrite tape_drop_nth. }
    assert (Hseed' : znth 0%N seeds' i = fst (changed_tape (seed_pos sizes i))).
    { unfold seeds'. rewrite tree_seeds_pos by auto. now rewrite tape_drop_nth. }
    destruct (create_ok aes clog n (znth 0%N seeds i) keys) as (t & Et & Ha & _ & _ & Hht & Hnl & Hsht & Hgt);
      [lia|lia|rewrite Hk; apply Hgs|]. rewrite Hk in *.
    assert (Hlev : t_levels (trees i) = t_levels t).
    { apply (ggm_tree_unique aes (znth 0%N seeds i) keys n); rewrite ?Hk; try assumption; [lia|lia|].
      now rewrite Hseed. }
    destruct (same_levels _ _ Hlev) as (E1 & E2 & E3).
    destruct (create_changed clog changed_aes n (znth 0%N seeds' i) keys t idx (values i) Hk Hn1 Hgs Hix Hsht Hht)
      as (t' & Et' & Ha' & Hsh' & Hh' & Hn').
    - intros l x Hl Hx. rewrite <- !E3. set (p := node (trees i) l (x / 2)). unfold changed_aes.
      assert (Hxw : 0 <= x / 2 < width (trees i) l).
      { apply div_range; [lia|]. destruct Hsh as (_ & _ & _ & Hs4). specialize (Hs4 l ltac:(lia)). rewrite !E2 in Hs4. rewrite !E2. lia. }
      assert (Hpar : forall j, nonempty sizes j -> 2 <= height (trees j) -> p = last_parent (trees j) (znth 0 indices j) ->
        j = i /\ l = height (trees i) - 2 /\ x / 2 = idx / 2).
      { intros j Hj Hhj Hp. destruct (Huniq j i l (x / 2) Hj Hne Hhj ltac:(lia) Hxw Hp) as (-> & A1 & A2).
        split; [reflexivity|]. split; [exact A1|exact A2]. }
      assert (Hkey : forall y, znth 0%N keys (y mod 2) = fst (ta (if Z.even y then 0%nat else 1%nat))).
      { intro y. rewrite Zmod_even. destruct (Z.even y); reflexivity. }
      destruct ((l =? height t - 2) && (x =? idx)) eqn:Eb.
      + apply andb_prop in Eb. destruct Eb as [B1 B2]. apply Z.eqb_eq in B1, B2. subst l x.
        assert (Hp : p = last_parent (trees i) idx) by (unfold p, last_parent; now rewrite E1).
        rewrite (find_range _ _ i).
        * rewrite N.lxor_assoc, N.lxor_nilpotent. apply N.lxor_0_r.
        * lia.
        * fold n idx. rewrite Hp, N.eqb_refl. rewrite Hkey. unfold missing_key. fold idx. rewrite N.eqb_refl. cbn [andb]. lia.
        * intros j Hj Hfj. apply andb_prop in Hfj. destruct Hfj as [F1 F2]. apply andb_prop in F1, F2.
          destruct F1 as [F1 F3], F2 as [F2 F4]. apply N.eqb_eq in F4.
          apply (Hpar j); [split; lia|lia|exact F4].
      + rewrite find_range_none.
        * destruct Hg as [_ Hg]. specialize (Hg l x ltac:(lia) ltac:(rewrite E2; lia)). rewrite Hk in Hg. cbv zeta in Hg.
          unfold p. now symmetry.
        * intros j Hj Hfj. apply andb_prop in Hfj. destruct Hfj as [F1 F2]. apply andb_prop in F1, F2.
          destruct F1 as [F1 F3], F2 as [F2 F4]. apply N.eqb_eq in F4, F2.
          destruct (Hpar j ltac:(split; lia) ltac:(lia) F4) as (-> & A1 & A2).
          rewrite Hkey in F2. unfold missing_key in F2. fold idx in F2.
          assert (Hpe : Z.even x = Z.even idx).
          { destruct (Z.even x), (Z.even idx); try reflexivity; exfalso; [apply Hdist|apply Hdist; symmetry]; exact F2. }
          assert (x = idx).
          { pose proof (Z.div_mod x 2 ltac:(lia)) as D1. pose proof (Z.div_mod idx 2 ltac:(lia)) as D2.
            rewrite (Zmod_even x) in D1. rewrite (Zmod_even idx) in D2. rewrite Hpe in D1. lia. }
          lia.
    - rewrite Hseed'. unfold changed_tape. rewrite <- E1.
      destruct (Z.eqb_spec (height (trees i)) 1) as [Eh|Eh].
      + rewrite (find_range _ _ i); [reflexivity|lia| |].
        * rewrite Nat.eqb_refl. fold n. lia.
        * intros j Hj Hfj. apply andb_prop in Hfj. destruct Hfj as [F1 F2]. apply andb_prop in F1. destruct F1 as [F1 F3].
          apply Nat.eqb_eq in F2. apply (seed_pos_inj sizes); [split; lia|exact Hne|exact F2].
      + rewrite find_range_none.
        * rewrite <- E3. destruct Hg as [Hg _]. now symmetry.
        * intros j Hj Hfj. apply andb_prop in Hfj. destruct Hfj as [F1 F2]. apply andb_prop in F1. destruct F1 as [F1 F3].
          apply Nat.eqb_eq in F2. assert (j = i) by (apply (seed_pos_inj sizes); [split; lia|exact Hne|exact F2]).
          subst j. lia.
    - exists t, t'. unfold ss, ss', seeds, seeds'. rewrite !znth_ss by exact Hi. fold seeds seeds' n. unfold stree.
      replace (n =? 0) with false by lia. rewrite Et, Et'. split; [reflexivity|]. split; [reflexivity|].
      split; [exact Hnl|]. split; [now apply (well_shaped_leaves clog t' 2 n)|]. split.
      + intros j Hj. unfold leaf. rewrite Hh'. rewrite Hn'.
        * now rewrite Z.eqb_refl.
        * lia.
        * destruct Hsht as (_ & _ & -> & _). exact Hj.
      + apply (chosen_same clog n idx t t' (values i)); try assumption.
  Qed.

  Lemma log_same : rot_log S clog keys sizes indices ss' = rot_log S clog keys sizes indices ss.
  Proof.
    destruct (Forall2_znth 0 0 _ _ _ Hidx) as [Hli _].
    unfold rot_log. cbv zeta. set (CS := map (fun '(n, i) => rchoices clog n i) (combine sizes indices)).
    assert (HCS : zlen CS = zlen sizes) by (unfold CS; rewrite zlen_map, zlen_combine; lia).
    assert (L : zlen ss = zlen sizes) by apply zlen_ss. assert (L' : zlen ss' = zlen sizes) by apply zlen_ss.
    do 2 f_equal. replace (map (fun '(c, p) => chosen c p) (combine CS (map spairs ss')))
      with (map (fun '(c, p) => chosen c p) (combine CS (map spairs ss))); [reflexivity|].
    apply (znth_ext []).
    - rewrite !zlen_map, !zlen_combine; rewrite ?zlen_map; lia.
    - rewrite zlen_map, zlen_combine by (rewrite zlen_map; lia). intros i Hi.
      rewrite !(znth_map _ ([], [])) by (rewrite zlen_combine; rewrite ?zlen_map; lia).
      rewrite !znth_combine by (rewrite ?zlen_map; lia).
      rewrite !(znth_map spairs None) by lia.
      assert (HC : znth [] CS i = rchoices clog (znth 0 sizes i) (znth 0 indices i)).
      { unfold CS. rewrite (znth_map _ (0, 0)) by (rewrite zlen_combine; lia). now rewrite znth_combine by lia. }
      rewrite HC. destruct (Z.eq_dec (znth 0 sizes i) 0) as [E0|E0].
      + unfold rchoices. rewrite E0. reflexivity.
      + destruct (both_trees i ltac:(split; [lia|exact E0])) as (t & t' & -> & -> & _ & _ & _ & E). now symmetry.
  Qed.

  Lemma zlen_leaves (t : tree) : 0 <= num_leaves t -> zlen (leaves (Some t)) = num_leaves t.
  Proof. intro H. cbn [leaves]. rewrite zlen_map, zlen_zrange_max. lia. Qed.
  Lemma znth_leaves (t : tree) j : 0 <= j < num_leaves t -> znth 0%N (leaves (Some t)) j = leaf t j.
  Proof. intro H. cbn [leaves]. rewrite (znth_map _ 0) by (rewrite zlen_zrange_max; lia). now rewrite znth_zrange by lia. Qed.

  Lemma leaves_changed i j : 0 <= i < zlen sizes -> 0 <= j < znth 0 sizes i ->
    znth 0%N (leaves (znth None ss' i)) j = if j =? znth 0 indices i then values i else znth 0%N (leaves (znth None ss i)) j.
  Proof.
    intros Hi Hj. destruct (both_trees i ltac:(split; [exact Hi|lia])) as (t & t' & -> & -> & L & L' & H & _).
    rewrite !znth_leaves by lia. now apply H.
  Qed.
End F.

Section R.
  Variable S : scalar.
  Variable aes : N -> N -> N.
  Variable clog : Z -> Z -> nat.
  Variable K : Q.

  Lemma rot_hidden_vrun outs_s outs_r indices ta tb :
    map zlen outs_r = map zlen outs_s ->
    (forall o, In o outs_s -> supported_size clog (zlen o)) ->
    zlen indices = zlen outs_s ->
    (forall i, 0 <= i < zlen outs_s -> valid_index (znth 0 indices i) (zlen (znth [] outs_s i))) ->
    s_can_hash S (security_per_leaf K (total_leaves (map zlen outs_s))) 128 = true ->
    let sizes := map zlen outs_s in
    exists rs rr view,
      vrun (rot_sender_batched S aes clog K outs_s) ta (rot_receiver_batched S aes clog indices outs_r) tb view
        (Ret (Ok rs)) (tree_tape S sizes (tape_drop 2 ta)) (Ret (Ok rr)) tb /\
      map zlen rs = sizes /\ map zlen rr = sizes /\
      (forall i j d, 0 <= i < zlen sizes -> 0 <= j < znth 0 sizes i ->
         znth d (znth [] rr i) j = if j =? znth 0 indices i then s_of128 S 0%N else znth d (znth [] rs i) j) /\
      forall trees, (forall i, nonempty sizes i -> batch_tree aes clog sizes ta i (trees i)) ->
      fst (ta 0%nat) <> fst (ta 1%nat) -> parents_unique sizes indices trees ->
      forall values, exists rs',
        let aes' := changed_aes S aes sizes indices trees values ta in
        let ta' := changed_tape S sizes trees values ta in
        (forall aes'' ta'', behaves sizes ta aes' ta' aes'' ta'' ->
         vrun (rot_sender_batched S aes'' clog K outs_s) ta'' (rot_receiver_batched S aes'' clog indices outs_r) tb view
          (Ret (Ok rs')) (tree_tape S sizes (tape_drop 2 ta'')) (Ret (Ok rr)) tb) /\
        differ_at_missing sizes indices trees aes aes' ta ta' /\ map zlen rs' = sizes /\
        forall i j d, 0 <= i < zlen sizes -> 0 <= j < znth 0 sizes i ->
          znth d (znth [] rs' i) j = if j =? znth 0 indices i then s_of128 S (values i) else znth d (znth [] rs i) j.
  Proof.
    intros Hsz Hg Hli Hvi Hch sizes.
    assert (HF : Forall2 index_ok indices sizes).
    { apply (zip_ext 0 0); [unfold sizes; now rewrite zlen_map|]. intros i Hi. unfold sizes. rewrite (znth_map zlen []) by lia. apply Hvi. lia. }
    assert (Hgs : forall n, In n sizes -> n = 0 \/ 1 <= n /\ good_size clog n).
    { intros n Hn. apply in_map_iff in Hn. destruct Hn as (o & <- & Ho). specialize (Hg o Ho).
      pose proof (zlen_nonneg o). destruct (Z.eq_dec (zlen o) 0); [now left|right; split; [lia|exact Hg]]. }
    destruct (rot_vrun S aes clog K outs_s outs_r indices ta tb Hch Hsz Hg HF) as (r & HJ & Hlr & Hls & Hi).
    fold sizes in HJ, Hlr, Hls, Hi. set (ss := strees aes clog _ _ _) in *.
    assert (HM : forall l, zlen l = zlen sizes -> (forall i, 0 <= i < zlen sizes -> zlen (leaves (znth None l i)) = znth 0 sizes i) ->
      map zlen (map (fun ot => map (s_of128 S) (leaves ot)) l) = sizes).
    { intros l Hl H. rewrite map_map. apply (znth_ext 0); rewrite !zlen_map; [auto|].
      intros i Hii. rewrite <- H by lia. rewrite (znth_map _ None) by lia. now rewrite zlen_map. }
    do 3 eexists. split; [exact HJ|].
    split; [apply HM; [exact Hls|intros; now apply Hi]|]. split; [apply HM; [exact Hlr|intros; now apply Hi]|]. split.
    { intros i j d Hii Hj. destruct (Hi i Hii) as (A1 & A2 & _ & A4).
      rewrite !(znth_map (fun ot => map (s_of128 S) (leaves ot)) None) by lia.
      rewrite !leaves_nth by lia. rewrite A4 by lia. destruct (j =? znth 0 indices i); reflexivity. }
    intros trees Htrees Hdist Huniq values. set (aes' := changed_aes S aes sizes indices trees values ta). set (ta' := changed_tape S sizes trees values ta).
    assert (Hkeys : tape_blocks 2 ta' = tape_blocks 2 ta) by (apply changed_keys; assumption).
    set (ss' := strees aes' clog (tape_blocks 2 ta) sizes (tree_seeds S sizes (tape_drop 2 ta'))).
    assert (Hlog : rot_log S clog (tape_blocks 2 ta) sizes indices ss' = rot_log S clog (tape_blocks 2 ta) sizes indices ss)
      by (apply log_same; assumption).
    assert (Hchg : forall i j, 0 <= i < zlen sizes -> 0 <= j < znth 0 sizes i ->
      znth 0%N (leaves (znth None ss' i)) j = if j =? znth 0 indices i then values i else znth 0%N (leaves (znth None ss i)) j)
      by (intros; apply leaves_changed; assumption).
    assert (Hall : forall aes'' ta'', behaves sizes ta aes' ta' aes'' ta'' ->
      (vrun (rot_sender_batched S aes'' clog K outs_s) ta'' (rot_receiver_batched S aes'' clog indices outs_r) tb
        (rot_log S clog (tape_blocks 2 ta) sizes indices ss)
        (Ret (Ok (map (fun ot => map (s_of128 S) (leaves ot)) ss'))) (tree_tape S sizes (tape_drop 2 ta''))
        (Ret (Ok (map (fun ot => map (s_of128 S) (leaves ot)) r))) tb) /\
      zlen ss' = zlen sizes /\ forall i, 0 <= i < zlen sizes -> zlen (leaves (znth None ss' i)) = znth 0 sizes i).
    { intros aes'' ta'' [Hb1 Hb2].
      destruct (rot_vrun S aes'' clog K outs_s outs_r indices ta'' tb Hch Hsz Hg HF) as (r' & HJ' & Hlr' & Hls' & Hi').
      fold sizes in HJ', Hlr', Hls', Hi'.
      assert (Hk2 : tape_blocks 2 ta'' = tape_blocks 2 ta).
      { rewrite <- Hkeys. cbn. unfold tape_tl. rewrite !Hb2 by (unfold drawn_for; lia). reflexivity. }
      rewrite Hk2 in *.
      assert (Hss : strees aes'' clog (tape_blocks 2 ta) sizes (tree_seeds S sizes (tape_drop 2 ta'')) = ss').
      { unfold ss'. rewrite (tree_seeds_same S sizes (tape_drop 2 ta'') (tape_drop 2 ta')).
        - apply strees_same. intros k x [<-|[<-|[]]]; [apply (Hb1 0%nat)|apply (Hb1 1%nat)]; lia.
        - intros p Hp. rewrite !tape_drop_nth. now apply Hb2. }
      rewrite Hss in HJ', Hls', Hi'. rewrite Hlog in HJ'.
      assert (Hrr : map (fun ot => map (s_of128 S) (leaves ot)) r' = map (fun ot => map (s_of128 S) (leaves ot)) r).
      { apply (znth_ext []); rewrite !zlen_map; [lia|]. intros i Hii. rewrite !(znth_map _ None) by lia. f_equal.
        destruct (Hi i ltac:(lia)) as (A1 & A2 & _ & A4). destruct (Hi' i ltac:(lia)) as (B1 & B2 & _ & B4).
        apply (znth_ext 0%N); [lia|]. intros j Hj. rewrite A4, B4 by lia.
        destruct (Z.eqb_spec j (znth 0 indices i)); [reflexivity|]. rewrite Hchg by lia.
        now replace (j =? znth 0 indices i) with false by lia. }
      rewrite Hrr in HJ'. split; [exact HJ'|]. split; [exact Hls'|]. intros i Hii. now apply Hi'. }
    destruct (Hall aes' ta' (behaves_refl _ _ _ _)) as (_ & Hls' & Hi').
    eexists. split; [intros aes'' ta'' Hb; apply (Hall aes'' ta'' Hb)|]. split; [apply changed_differ; assumption|].
    split; [apply HM; [exact Hls'|intros; now apply Hi']|].
    intros i j d Hii Hj. destruct (Hi i Hii) as (A1 & A2 & _ & A4). pose proof (Hi' i Hii) as B1.
    rewrite !(znth_map (fun ot => map (s_of128 S) (leaves ot)) None) by lia.
    rewrite !leaves_nth by lia. rewrite Hchg by lia.
    destruct (j =? znth 0 indices i); reflexivity.
  Qed.

  Lemma rot_hidden outs_s outs_r indices ta tb trees :
    map zlen outs_r = map zlen outs_s ->
    (forall o, In o outs_s -> supported_size clog (zlen o)) ->
    zlen indices = zlen outs_s ->
    (forall i, 0 <= i < zlen outs_s -> valid_index (znth 0 indices i) (zlen (znth [] outs_s i))) ->
    s_can_hash S (security_per_leaf K (total_leaves (map zlen outs_s))) 128 = true ->
    let sizes := map zlen outs_s in
    (forall i, nonempty sizes i -> batch_tree aes clog sizes ta i (trees i)) ->
    fst (ta 0%nat) <> fst (ta 1%nat) ->
    parents_unique sizes indices trees ->
    exists rs rr view,
      completes (rot_sender_batched S aes clog K outs_s) ta
        (watch (rot_receiver_batched S aes clog indices outs_r) []) tb (Ok rs) (Ok rr, view) /\
      map zlen rs = sizes /\
      forall values, exists aes' ta' rs',
        completes (rot_sender_batched S aes' clog K outs_s) ta'
          (watch (rot_receiver_batched S aes' clog indices outs_r) []) tb (Ok rs') (Ok rr, view) /\
        differ_at_missing sizes indices trees aes aes' ta ta' /\ map zlen rs' = sizes /\
        forall i j d, 0 <= i < zlen sizes -> 0 <= j < znth 0 sizes i ->
          znth d (znth [] rs' i) j = if j =? znth 0 indices i then s_of128 S (values i) else znth d (znth [] rs i) j.
  Proof.
    intros Hsz Hg Hli Hvi Hch sizes Htrees Hdist Huniq.
    destruct (rot_hidden_vrun outs_s outs_r indices ta tb Hsz Hg Hli Hvi Hch)
      as (rs & rr & view & H1 & H2 & _ & _ & H3).
    exists rs, rr, view. split; [eapply vrun_completes; exact H1|]. split; [exact H2|].
    intro values. destruct (H3 trees Htrees Hdist Huniq values) as (rs' & H4 & H5 & H6 & H7).
    do 2 eexists. exists rs'. split; [eapply vrun_completes; apply H4; apply behaves_refl|]. split; [exact H5|]. split; [exact H6|exact H7].
  Qed.
End R.
