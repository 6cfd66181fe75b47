(** What the receiver of all-but-one random OT sees. *)
From Verif Require Import Base BaseFacts ListFacts ScalarModel GgmModel GgmSpec GgmFinal GgmProofs3
  ProcModel ProcSpec ProcProofs RotModel RotSpec RotProofs HideSpec HideRun.
From Coq Require Import QArith.
Local Open Scope Z_scope.

(** One oblivious transfer, if any tree has two levels, and the keys. *)
Definition rot_log (S : scalar) (clog : Z -> Z -> nat) (keys : list N) (sizes indices : list Z) (ss : list (option tree)) : list (seen S) :=
  let CS := map (fun '(n, i) => rchoices clog n i) (combine sizes indices) in
  let OS := map (fun '(c, p) => chosen c p) (combine CS (map spairs ss)) in
  (if 0 <? zlen (List.concat CS) then [Chosen (Some (List.concat OS))] else []) ++ [Got (MBlocks keys)].

Section P.
  Variable S : scalar.
  Variable aes : N -> N -> N.
  Variable clog : Z -> Z -> nat.
  Variable K : Q.

  Lemma vrun_create_trees {RB} sizes keys k ta (pb : proc S RB) tb :
    vrun (create_trees S aes clog sizes keys k) ta pb tb []
         (k (created aes clog keys sizes (tree_seeds S sizes ta))) (tree_tape S sizes ta) pb tb.
  Proof.
    revert k ta. induction sizes as [|n s IH]; intros k ta; cbn; [apply vrun_nil|].
    unfold created. destruct (n =? 0) eqn:E; cbn; rewrite E.
    - apply (IH (fun l => k (None :: l))).
    - eapply (vrun_trans _ _ _ _ [] _ _ _ _ []); [apply vrun_hand; constructor|].
      apply (IH (fun l => k (Some (ggm_create aes clog n (fst (ta O)) keys) :: l))).
  Qed.

  Lemma rot_vrun outs_s outs_r indices ta tb :
    s_can_hash S (security_per_leaf K (total_leaves (map zlen outs_s))) 128 = true ->
    map zlen outs_r = map zlen outs_s ->
    (forall o, In o outs_s -> good_size clog (zlen o)) ->
    Forall2 index_ok indices (map zlen outs_s) ->
    let sizes := map zlen outs_s in
    let keys := tape_blocks 2 ta in
    let seeds := tree_seeds S sizes (tape_drop 2 ta) in
    let ss := strees aes clog keys sizes seeds in
    exists rs,
      vrun (rot_sender_batched S aes clog K outs_s) ta (rot_receiver_batched S aes clog indices outs_r) tb
           (rot_log S clog keys sizes indices ss) (Ret (Ok (map (fun ot => map (s_of128 S) (leaves ot)) ss))) (tree_tape S sizes (tape_drop 2 ta))
           (Ret (Ok (map (fun ot => map (s_of128 S) (leaves ot)) rs))) tb /\
      zlen rs = zlen sizes /\ zlen ss = zlen sizes /\
      forall i, 0 <= i < zlen sizes ->
         zlen (leaves (znth None ss i)) = znth 0 sizes i /\ zlen (leaves (znth None rs i)) = znth 0 sizes i /\
         (forall t, znth None ss i = Some t -> well_shaped t 2 (znth 0 sizes i) /\ is_ggm_tree aes (znth 0%N seeds i) keys t) /\
         forall j, 0 <= j < znth 0 sizes i ->
           znth 0%N (leaves (znth None rs i)) j =
             if j =? znth 0 indices i then 0%N else znth 0%N (leaves (znth None ss i)) j.
  Proof.
    intros Hch Hsz Hg Hidx sizes keys seeds ss.
    assert (Hk : zlen keys = 2) by reflexivity.
    assert (Hgs : forall n, In n sizes -> n = 0 \/ 1 <= n /\ good_size clog n).
    { intros n Hn. apply in_map_iff in Hn. destruct Hn as (o & <- & Ho). specialize (Hg o Ho).
      pose proof (zlen_nonneg o). destruct (Z.eq_dec (zlen o) 0); [now left|right; split; [lia|exact Hg]]. }
    destruct (Forall2_znth 0 0 _ _ _ Hidx) as [Hli Hib].
    change (zlen indices = zlen sizes) in Hli.
    assert (Hls : zlen seeds = zlen sizes) by apply zlen_tree_seeds.
    destruct (batch_trees aes clog keys Hk sizes seeds indices Hgs Hls Hli Hidx) as (B1 & B2 & rs & B3 & B4 & B5).
    fold ss in B1, B2, B4, B5. exists rs.
    set (CS := map (fun '(n, i) => rchoices clog n i) (combine sizes indices)) in *.
    set (PS := map spairs ss) in *.
    assert (Hlr : zlen rs = zlen sizes) by (destruct (Forall2_znth None 0 _ _ _ B3); lia).
    assert (Hlss : zlen ss = zlen sizes) by (destruct (Forall2_znth None 0 _ _ _ B2); lia).
    split; [|split; [exact Hlr|split; [exact Hlss|exact B5]]].
    unfold rot_sender_batched, rot_receiver_batched.
    assert (Hlo : zlen outs_r = zlen indices).
    { rewrite Hli. unfold sizes. rewrite <- Hsz. now rewrite zlen_map. }
    rewrite Hlo, Z.eqb_refl. cbn [negb].
    assert (Hex : existsb (fun '(index, out) => bad_index index (zlen out)) (combine indices outs_r) = false).
    { apply not_true_is_false. intro HE. apply existsb_exists in HE. destruct HE as ([index out] & Hin & Hb).
      apply (In_znth (0, [])) in Hin. destruct Hin as (i & Hi & E). rewrite zlen_combine in Hi by lia.
      rewrite znth_combine in E by lia. injection E as <- <-. specialize (Hib i Hi).
      change (map zlen outs_s) with sizes in Hib. unfold sizes in Hib. rewrite <- Hsz in Hib. rewrite (znth_map zlen []) in Hib by lia.
      unfold bad_index, index_ok in *. lia. }
    rewrite Hex. rewrite Hsz. fold sizes.
    assert (HCS : zlen CS = zlen sizes). { unfold CS. rewrite zlen_map, zlen_combine; lia. }
    assert (HJ : vrun (send_trees S aes clog K sizes 2) ta (receive_trees S aes clog sizes indices 2) tb (rot_log S clog keys sizes indices ss)
                   (Ret (Ok ss)) (tree_tape S sizes (tape_drop 2 ta)) (Ret (Ok rs)) tb).
    { unfold send_trees. fold sizes in Hch. rewrite Hch. cbn [negb].
      eapply (vrun_trans _ _ _ _ []); [apply vrun_rand_blocks_a|]. fold keys.
      eapply (vrun_trans _ _ _ _ []); [apply vrun_create_trees|]. fold seeds.
      rewrite (prepare_ok aes clog keys Hk sizes seeds [] [] Hgs Hls). fold ss PS. cbn [app plift].
      unfold receive_trees. rewrite Hli, Z.eqb_refl. cbn [negb]. change (Z.of_nat 2) with 2.
      rewrite all_choices_ok. fold CS. cbn [app plift]. change (zlen (@nil bool)) with 0. unfold rot_log. fold CS PS.
      assert (Hcl : zlen (List.concat CS) = zlen (List.concat PS)).
      { rewrite <- !off_total. rewrite (off_same CS PS _ B1). f_equal. now destruct (Forall2_znth [] [] _ _ _ B1). }
      set (OS := map (fun '(c, p) => chosen c p) (combine CS PS)) in *.
      assert (HOS : Forall2 (fun a b => List.length a = List.length b) CS OS).
      { destruct (Forall2_znth [] [] _ _ _ B1) as [L1 L2]. apply (zip_ext [] []).
        - unfold OS. rewrite zlen_map, zlen_combine; auto.
        - intros i Hi. unfold OS. rewrite (znth_map _ ([], [])) by (rewrite zlen_combine; auto).
          rewrite znth_combine by auto. specialize (L2 i Hi).
          pose proof (zlen_chosen (znth [] CS i) (znth [] PS i)) as Hz. unfold zlen in Hz. lia. }
      assert (Hfin : forall ots, ots = List.concat OS ->
        collect (map (fun i => receive_tree aes clog 2 (List.concat CS) ots (0 :: offsets_from 0 CS) keys i (znth 0 sizes i) (znth 0 indices i))
                     (zrange 0 (zlen sizes))) = Ok rs).
      { intros ots ->. rewrite <- (collect_ok rs). f_equal. rewrite <- Hlr.
        rewrite <- (map_zrange_znth None rs) at 2. rewrite map_map. apply map_ext_in. intros i Hi. apply In_zrange in Hi.
        rewrite receive_tree_ok; [|lia|exact HOS|].
        - apply B4. lia.
        - unfold CS. rewrite (znth_map _ (0, 0)) by (rewrite zlen_combine; lia). now rewrite znth_combine by lia. }
      destruct (Z.ltb_spec 0 (zlen (List.concat PS))) as [Hpos|Hz].
      - replace (0 <? zlen (List.concat CS)) with true by lia. unfold ot_send, ot_recv.
        assert (Hoc : @ot_choose S false (List.concat CS) (MOt false (List.concat PS)) = Some (List.concat OS)).
        { unfold ot_choose.
          replace (Datatypes.length (List.concat PS) =? Datatypes.length (List.concat CS))%nat with true by (unfold zlen in Hcl; symmetry; apply Nat.eqb_eq; lia).
          cbn [Bool.eqb andb]. fold (chosen (List.concat CS) (List.concat PS)). now rewrite concat_chosen by exact B1. }
        rewrite <- Hoc. eapply (vrun_trans _ _ _ _ [_] _ _ _ _ [_]); [apply vrun_hand, vhand_ot_ab; reflexivity|]. rewrite Hoc.
        unfold recv_blocks. eapply (vrun_trans _ _ _ _ [Got (MBlocks keys)] _ _ _ _ []); [apply vrun_hand, vhand_ab; reflexivity|]. cbv beta.
        rewrite Hfin by reflexivity. apply vrun_nil.
      - replace (0 <? zlen (List.concat CS)) with false by lia.
        unfold recv_blocks. eapply (vrun_trans _ _ _ _ [Got (MBlocks keys)] _ _ _ _ []); [apply vrun_hand, vhand_ab; reflexivity|]. cbv beta. rewrite Hfin.
        + apply vrun_nil.
        + symmetry. apply zlen_0_nil. pose proof (zlen_nonneg (List.concat PS)).
          rewrite <- off_total, <- (off_same CS OS _ HOS).
          replace (zlen OS) with (zlen CS) by (now destruct (Forall2_znth [] [] _ _ _ HOS)). rewrite off_total. lia. }
    rewrite <- (app_nil_r (rot_log _ _ _ _ _ _)). eapply vrun_trans; [apply (vrun_bindr _ _ _ _ _ _ _ _ _ _ _ HJ)|]. cbv beta.
    rewrite (unpack_all_ok S clog) by exact B2. rewrite (unpack_all_ok S clog) by (rewrite Hsz; exact B3). apply vrun_nil.
  Qed.
End P.
