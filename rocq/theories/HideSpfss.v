(** What the index provider of a single-point function secret sharing sees. *)
From Verif Require Import Base BaseFacts ListFacts ScalarModel ScalarSpec ScalarProofs GgmModel GgmSpec
  ProcModel ProcSpec ProcProofs RotModel RotSpec RotProofs RotFinal SpfssModel SpfssProofs HideSpec HideRun HideProofs HideFinal.
From Coq Require Import QArith Ring_theory Ring.
Local Open Scope Z_scope.
Local Arguments znth : simpl never.

Section P.
  Variable S : scalar.
  Hypothesis L : scalar_laws S.
  Add Ring SR : (sl_ring S L).
  Declare Scope sc_scope.
  Notation "x + y" := (s_add S x y) : sc_scope.
  Notation "x - y" := (s_sub S x y) : sc_scope.
  Notation "- x" := (s_opp S x) : sc_scope.
  Delimit Scope sc_scope with sc.
  Notation zn := (znth (s_zero S)).
  Variable clog : Z -> Z -> nat.
  Variable K : Q.

  Definition value_sums (vals : list S) (rs : list (list S)) : list S :=
    map (fun '(v, o) => (v + s_sum S o)%sc) (combine vals rs).
  Definition index_result (vals_i : list S) (indices : list Z) (rr : list (list S)) (sums_v : list S) : list (list S) :=
    map (fun j => if 0 <? zlen (znth [] rr j)
                  then list_set (znth [] rr j) (Z.to_nat (znth 0 indices j))
                         (zn vals_i j - sum_except S (znth 0 indices j) (znth [] rr j) (zlen (znth [] rr j)) + zn sums_v j)%sc
                  else znth [] rr j) (zrange 0 (zlen rr)).

  Lemma spfss_vrun aes vals_v vals_i indices outs_v outs_i ta tb view rs ta1 rr :
    map zlen outs_i = map zlen outs_v ->
    zlen vals_v = zlen outs_v -> zlen vals_i = zlen outs_v -> zlen indices = zlen outs_v ->
    (forall i, 0 <= i < zlen outs_v -> valid_index (znth 0 indices i) (zlen (znth [] outs_v i))) ->
    map zlen rs = map zlen outs_v -> map zlen rr = map zlen outs_v ->
    vrun (rot_sender_batched S aes clog K outs_v) ta (rot_receiver_batched S aes clog indices outs_i) tb view
      (Ret (Ok rs)) ta1 (Ret (Ok rr)) tb ->
    vrun (spfss_value_provider_batched S aes clog K vals_v outs_v) ta
      (spfss_index_provider_batched S aes clog vals_i indices outs_i) tb (view ++ [Got (MVec (value_sums vals_v rs))])
      (Ret (Ok (map (map (s_opp S)) rs))) ta1 (Ret (Ok (index_result vals_i indices rr (value_sums vals_v rs)))) tb.
  Proof.
    intros Hsz Hlv Hli Hlx Hidx Ls Lr HJ.
    destruct (map_zlen_eq _ _ Ls) as [Hrs Hns']. destruct (map_zlen_eq _ _ Lr) as [Hrr Hnr'].
    destruct (map_zlen_eq _ _ Hsz) as [Hloi _].
    assert (Hnr : forall i, 0 <= i < zlen outs_v -> zlen (znth [] rr i) = zlen (znth [] outs_v i)) by auto.
    clear Hns' Hnr'. set (sums_v := value_sums vals_v rs).
    set (sums_i := map (fun j => (zn vals_i j - sum_except S (znth 0 indices j) (znth [] rr j) (zlen (znth [] rr j)))%sc) (zrange 0 (zlen rr))).
    assert (Hsv : zlen sums_v = zlen outs_v) by (unfold sums_v, value_sums; rewrite zlen_map, zlen_combine; lia).
    pose proof (zlen_nonneg rr) as Hrr0.
    assert (Hsi : zlen sums_i = zlen outs_v) by (unfold sums_i; rewrite zlen_map, zlen_zrange; lia).
    unfold spfss_value_provider_batched, spfss_index_provider_batched.
    rewrite Hlv, Hli, Hloi, Hlx, !Z.eqb_refl. cbn [negb orb].
    eapply vrun_trans; [apply (vrun_bindr _ _ _ _ _ _ _ _ _ _ _ HJ)|]. cbv beta zeta.
    rewrite (rmapM_ok _ (fun j => (zn vals_i j - sum_except S (znth 0 indices j) (znth [] rr j) (zlen (znth [] rr j)))%sc))
      by (intros; apply index_sum_ok; assumption).
    cbn [plift]. fold sums_i. unfold recv_vec.
    rewrite !map_map.
    assert (E1 : map (fun x => fst (let '(v, o) := x in provider_sum S v o)) (combine vals_v rs) = sums_v).
    { unfold sums_v, value_sums. apply map_ext. intros [v o]. now rewrite provider_sum_ok. }
    assert (E2 : map (fun x => snd (let '(v, o) := x in provider_sum S v o)) (combine vals_v rs) = map (map (s_opp S)) rs).
    { assert (Hll : List.length vals_v = List.length rs) by (unfold zlen in *; lia). clear -L Hll.
      revert rs Hll. induction vals_v as [|v vs IH]; destruct rs as [|r rs]; cbn; intro H; try discriminate; auto.
      rewrite provider_sum_ok by assumption. cbn. f_equal. apply IH. lia. }
    rewrite E1, E2.
    eapply (vrun_trans _ _ _ _ [Got (MVec sums_v)] _ _ _ _ []); [apply vrun_hand, vhand_ab; reflexivity|]. cbv beta.
    unfold index_result.
    rewrite (rmapM_ok _ (fun j => if 0 <? zlen (znth [] rr j)
                  then list_set (znth [] rr j) (Z.to_nat (znth 0 indices j)) (zn vals_i j - sum_except S (znth 0 indices j) (znth [] rr j) (zlen (znth [] rr j)) + zn sums_v j)%sc
                  else znth [] rr j)).
    - apply vrun_nil.
    - intros j Hj. apply In_zrange in Hj. rewrite !(zget_ok (s_zero S)) by lia. cbn [rbind].
      assert (Es : zn sums_i j = (zn vals_i j - sum_except S (znth 0 indices j) (znth [] rr j) (zlen (znth [] rr j)))%sc).
      { unfold sums_i. rewrite (znth_map _ 0) by (rewrite zlen_zrange; lia). now rewrite znth_zrange by lia. }
      rewrite Es. unfold correct_output. destruct (Z.ltb_spec 0 (zlen (znth [] rr j))); [|reflexivity].
      apply zset_ok. destruct (Hidx j ltac:(lia)) as [? [?|?]]; rewrite <- Hnr in * by lia; lia.
  Qed.

  Hypothesis H16 : s_size S <= 16.

  (** The value that the missing element must have for another value. *)
  Definition needed (rs : list (list S)) (indices : list Z) (vals vals' : list S) (i : Z) : N :=
    s_to128 S (zn (znth [] rs i) (znth 0 indices i) + (zn vals i - zn vals' i))%sc.

  Lemma sums_same vals vals' indices (rs rs' : list (list S)) sizes :
    zlen vals = zlen sizes -> zlen vals' = zlen sizes -> map zlen rs = sizes -> map zlen rs' = sizes ->
    (forall i, 0 <= i < zlen sizes -> valid_index (znth 0 indices i) (znth 0 sizes i)) ->
    (forall i, 0 <= i < zlen sizes -> znth 0 sizes i = 0 -> zn vals' i = zn vals i) ->
    (forall i j d, 0 <= i < zlen sizes -> 0 <= j < znth 0 sizes i ->
       znth d (znth [] rs' i) j = if j =? znth 0 indices i then s_of128 S (needed rs indices vals vals' i) else znth d (znth [] rs i) j) ->
    value_sums vals' rs' = value_sums vals rs.
  Proof.
    intros H1 H2 H3 H4 Hv H5 H6. unfold value_sums.
    assert (L3 : zlen rs = zlen sizes) by (rewrite <- H3; now rewrite zlen_map).
    assert (L4 : zlen rs' = zlen sizes) by (rewrite <- H4; now rewrite zlen_map).
    assert (N3 : forall i, 0 <= i < zlen sizes -> zlen (znth [] rs i) = znth 0 sizes i).
    { intros i Hi. rewrite <- H3. now rewrite (znth_map zlen []) by lia. }
    assert (N4 : forall i, 0 <= i < zlen sizes -> zlen (znth [] rs' i) = znth 0 sizes i).
    { intros i Hi. rewrite <- H4. now rewrite (znth_map zlen []) by lia. }
    apply (znth_ext (s_zero S)); rewrite !zlen_map, !zlen_combine by lia; [lia|]. intros i Hi.
    rewrite !(znth_map _ (s_zero S, [])) by (rewrite zlen_combine; lia). rewrite !znth_combine by lia.
    destruct (Z.eq_dec (znth 0 sizes i) 0) as [E0|E0].
    - rewrite H5 by lia. f_equal.
      assert (E : forall l : list S, zlen l = 0 -> l = []) by (intros l Hl; now apply zlen_0_nil).
      rewrite (E (znth [] rs i)), (E (znth [] rs' i)); [reflexivity| |]; rewrite ?N3, ?N4; lia.
    - destruct (Hv i ltac:(lia)) as [V1 [V2|V2]]; [lia|]. set (idx := znth 0 indices i) in *.
      rewrite !(sum_split_at S L idx) by (rewrite ?N3, ?N4; lia). rewrite N3, N4 by lia.
      rewrite (sum_except_ext S idx (znth [] rs' i) (znth [] rs i)).
      + rewrite H6 by lia. rewrite Z.eqb_refl. unfold needed. fold idx. rewrite sl_of_to by assumption. ring.
      + intros k Hk Hne. rewrite H6 by lia. fold idx. now replace (k =? idx) with false by lia.
  Qed.

  Lemma spfss_hidden_vrun aes vals_v vals_i indices outs_v outs_i ta tb :
    map zlen outs_i = map zlen outs_v ->
    zlen vals_v = zlen outs_v -> zlen vals_i = zlen outs_v -> zlen indices = zlen outs_v ->
    (forall o, In o outs_v -> supported_size clog (zlen o)) ->
    (forall i, 0 <= i < zlen outs_v -> valid_index (znth 0 indices i) (zlen (znth [] outs_v i))) ->
    s_can_hash S (security_per_leaf K (total_leaves (map zlen outs_v))) 128 = true ->
    let sizes := map zlen outs_v in
    exists rv ri view,
      vrun (spfss_value_provider_batched S aes clog K vals_v outs_v) ta
        (spfss_index_provider_batched S aes clog vals_i indices outs_i) tb view
        (Ret (Ok rv)) (tape_drop (drawn_for sizes) ta) (Ret (Ok ri)) tb /\
      map zlen rv = sizes /\ map zlen ri = sizes /\
      forall trees, (forall i, nonempty sizes i -> batch_tree aes clog sizes ta i (trees i)) ->
      fst (ta 0%nat) <> fst (ta 1%nat) -> parents_unique sizes indices trees ->
      forall vals', zlen vals' = zlen vals_v ->
        (forall i, 0 <= i < zlen sizes -> znth 0 sizes i = 0 -> zn vals' i = zn vals_v i) ->
        exists values rv',
          let aes' := changed_aes S aes sizes indices trees values ta in
          let ta' := changed_tape S sizes trees values ta in
          (forall aes'' ta'', behaves sizes ta aes' ta' aes'' ta'' ->
           vrun (spfss_value_provider_batched S aes'' clog K vals' outs_v) ta''
            (spfss_index_provider_batched S aes'' clog vals_i indices outs_i) tb view
            (Ret (Ok rv')) (tape_drop (drawn_for sizes) ta'') (Ret (Ok ri)) tb) /\
          differ_at_missing sizes indices trees aes aes' ta ta' /\ map zlen rv' = sizes /\
          forall i j, 0 <= i < zlen sizes -> 0 <= j < znth 0 sizes i ->
            zn (znth [] rv' i) j =
              if j =? znth 0 indices i then (zn (znth [] rv i) j + (zn vals' i - zn vals_v i))%sc else zn (znth [] rv i) j.
  Proof.
    intros Hsz Hlv Hli Hlx Hg Hidx Hch sizes.
    destruct (rot_hidden_vrun S aes clog K outs_v outs_i indices ta tb Hsz Hg Hlx Hidx Hch)
      as (rs & rr & view & HV & Ls & Lr & _ & HH).
    fold sizes in Ls, Lr, HV, HH. rewrite tree_tape_end in HV.
    assert (Hzs : zlen sizes = zlen outs_v) by (unfold sizes; now rewrite zlen_map).
    assert (Hns : forall i, 0 <= i < zlen sizes -> znth 0 sizes i = zlen (znth [] outs_v i)).
    { intros i Hi. unfold sizes. now rewrite (znth_map zlen []) by lia. }
    assert (Hopp : forall r : list (list S), map zlen r = sizes -> map zlen (map (map (s_opp S)) r) = sizes).
    { intros r Hr. rewrite <- Hr, map_map. apply map_ext. intro a. apply zlen_map. }
    exists (map (map (s_opp S)) rs). do 2 eexists. split; [|split; [|split]].
    - apply (spfss_vrun aes vals_v vals_i indices outs_v outs_i ta tb view rs _ rr); try assumption.
    - now apply Hopp.
    - unfold index_result. rewrite map_map.
      transitivity (map zlen (map (znth [] rr) (zrange 0 (zlen rr)))); [|now rewrite map_zrange_znth].
      rewrite map_map. apply map_ext. intro j. destruct (0 <? _); [apply zlen_list_set|reflexivity].
    - intros trees Htrees Hdist Huniq vals' Hl' He.
      destruct (HH trees Htrees Hdist Huniq (needed rs indices vals_v vals')) as (rs' & HV' & HD & Ls' & H').
      assert (Hsums : value_sums vals' rs' = value_sums vals_v rs).
      { apply (sums_same vals_v vals' indices rs rs' sizes); try assumption; try lia.
        intros i Hi. rewrite Hns by lia. apply Hidx. lia. }
      exists (needed rs indices vals_v vals'), (map (map (s_opp S)) rs'). cbv zeta. split.
      + intros aes'' ta'' Hb. specialize (HV' aes'' ta'' Hb). rewrite tree_tape_end in HV'. rewrite <- Hsums. apply (spfss_vrun _ vals' vals_i indices outs_v outs_i _ tb view rs' _ rr); try assumption; lia.
      + split; [exact HD|]. split; [now apply Hopp|].
        intros i j Hi Hj. assert (L1 : zlen rs = zlen sizes) by (rewrite <- Ls; now rewrite zlen_map).
        assert (L2 : zlen rs' = zlen sizes) by (rewrite <- Ls'; now rewrite zlen_map).
        assert (N1 : zlen (znth [] rs i) = znth 0 sizes i) by (rewrite <- Ls; now rewrite (znth_map zlen []) by lia).
        assert (N2 : zlen (znth [] rs' i) = znth 0 sizes i) by (rewrite <- Ls'; now rewrite (znth_map zlen []) by lia).
        rewrite !(znth_map (map (s_opp S)) []) by lia. rewrite !(znth_map (s_opp S) (s_zero S)) by lia.
        rewrite H' by assumption. destruct (Z.eqb_spec j (znth 0 indices i)) as [->|]; [|reflexivity].
        unfold needed. rewrite sl_of_to by assumption. ring.
  Qed.

  Lemma spfss_hidden aes vals_v vals_i indices outs_v outs_i ta tb trees :
    map zlen outs_i = map zlen outs_v ->
    zlen vals_v = zlen outs_v -> zlen vals_i = zlen outs_v -> zlen indices = zlen outs_v ->
    (forall o, In o outs_v -> supported_size clog (zlen o)) ->
    (forall i, 0 <= i < zlen outs_v -> valid_index (znth 0 indices i) (zlen (znth [] outs_v i))) ->
    s_can_hash S (security_per_leaf K (total_leaves (map zlen outs_v))) 128 = true ->
    let sizes := map zlen outs_v in
    (forall i, nonempty sizes i -> batch_tree aes clog sizes ta i (trees i)) ->
    fst (ta 0%nat) <> fst (ta 1%nat) ->
    parents_unique sizes indices trees ->
    exists rv ri view,
      completes (spfss_value_provider_batched S aes clog K vals_v outs_v) ta
        (watch (spfss_index_provider_batched S aes clog vals_i indices outs_i) []) tb (Ok rv) (Ok ri, view) /\
      forall vals', zlen vals' = zlen vals_v ->
        (forall i, 0 <= i < zlen sizes -> znth 0 sizes i = 0 -> zn vals' i = zn vals_v i) ->
        exists aes' ta' rv',
          completes (spfss_value_provider_batched S aes' clog K vals' outs_v) ta'
            (watch (spfss_index_provider_batched S aes' clog vals_i indices outs_i) []) tb (Ok rv') (Ok ri, view) /\
          differ_at_missing sizes indices trees aes aes' ta ta'.
  Proof.
    intros Hsz Hlv Hli Hlx Hg Hidx Hch sizes Htrees Hdist Huniq.
    destruct (spfss_hidden_vrun aes vals_v vals_i indices outs_v outs_i ta tb Hsz Hlv Hli Hlx Hg Hidx Hch)
      as (rv & ri & view & H1 & _ & _ & H2).
    exists rv, ri, view. split; [eapply vrun_completes; exact H1|].
    intros vals' Hl He. destruct (H2 trees Htrees Hdist Huniq vals' Hl He) as (values & rv' & H3 & H4 & _).
    do 2 eexists. exists rv'. split; [eapply vrun_completes; apply H3; apply behaves_refl|exact H4].
  Qed.
End P.

Lemma empty_revealed (S : scalar) aes clog K (a b : S) (ta tb : tape S) :
  s_can_hash S (security_per_leaf K 0) 128 = true ->
  completes (spfss_value_provider_batched S aes clog K [a] [[]]) ta
    (watch (spfss_index_provider_batched S aes clog [b] [0] [[]]) []) tb
    (Ok [[]]) (Ok [[]], [Got (MBlocks [fst (ta 0%nat); fst (ta 1%nat)]); Got (MVec [a])]).
Proof.
  intro Hch. eapply vrun_completes.
  unfold spfss_value_provider_batched, rot_sender_batched, send_trees. cbn [zlen Datatypes.length Z.of_nat map].
  change (total_leaves [zlen []]) with 0. rewrite Hch. cbn.
  eapply (vrun_cons _ _ _ _ []); [constructor|]. eapply (vrun_cons _ _ _ _ []); [constructor|]. cbn.
  eapply (vrun_cons _ _ _ _ [_]); [constructor; reflexivity|]. cbn.
  eapply (vrun_cons _ _ _ _ [_] _ _ _ _ []); [constructor; reflexivity|]. cbn. apply vrun_nil.
Qed.
