(** Proofs about executions with a peer that sends arbitrary contents. *)
From Verif Require Import Base BaseFacts ListFacts ScalarModel ScalarSpec ProcModel GgmModel GgmSpec GgmFinal RotModel CuckooFinal RotSpec RotProofs SpfssModel SpfssProofs PackModel GilboaModel GilboaSpec GilboaProofs GilboaFinal
  RngModel RngUsable CuckooModel CuckooSpec CuckooProofs MpfssModel MpfssSpec MpfssProofs MpfssFinal VoleModel VoleSpec VoleProofs VoleMeet VolePair VoleSolo VoleHistory VoleUse PatternSpec PatternProofs CostSpec CostProofs SafeSpec.
From Coq Require Import QArith Permutation.
Local Open Scope Z_scope.

(** ** Weakest preconditions *)
Section Wp.
  Context {T : Type}.
  Fixpoint wp {R} (p : proc T R) (l : list shape) (Q : R -> list shape -> Prop) : Prop :=
    match p with
    | Ret r => Q r l
    | Send _ k => wp k l Q
    | Recv k => match l with [] => False | s :: l' => forall m, has_shape m s -> wp (k m) l' Q end
    | OtRecv _ cs k => forall x, List.length x = List.length cs -> wp (k (Some x)) l Q
    | Rand k => forall x t, wp (k x t) l Q
    end.
  Lemma wp_gets {R} (p : proc T R) : forall l Q ms r, wp p l Q -> gets p ms r -> shaped_as ms l -> exists l', Q r l' /\ (List.length ms + List.length l' = List.length l)%nat.
  Proof.
    induction p as [a|m k IH|k IH|c cs k IH|k IH]; intros l Q ms r H Hg Hs; cbn [wp] in H; inversion Hg; subst.
    - exists l. auto.
    - eapply IH; eauto.
    - destruct l as [|s l]; [contradiction|]. inversion Hs as [| |? ? ? ? Hsh Hs']; subst. destruct (IH _ _ _ _ _ (H _ Hsh) ltac:(eassumption) Hs') as (l' & HQ & Hl). exists l'. split; [exact HQ|]. cbn. lia.
    - eapply IH; eauto.
    - eapply IH; eauto.
  Qed.
  Lemma wp_weaken {R} (p : proc T R) : forall l (Q Q' : R -> list shape -> Prop), wp p l Q -> (forall r l', Q r l' -> Q' r l') -> wp p l Q'.
  Proof.
    induction p as [a|m k IH|k IH|c cs k IH|k IH]; intros l Q Q' H HQ; cbn [wp] in *; eauto.
    destruct l; [auto|]. intros m Hm. eapply IH; eauto.
  Qed.
  Lemma wp_possible {R} (p : proc T R) : forall l (Q Q' : R -> list shape -> Prop), wp p l Q -> (forall r l', possible p r -> Q r l' -> Q' r l') -> wp p l Q'.
  Proof.
    induction p as [a|m k IH|k IH|c cs k IH|k IH]; intros l Q Q' H HQ; cbn [wp] in *.
    - apply HQ; [constructor|exact H].
    - eapply IH; eauto. intros r l' Hp. apply HQ. now constructor.
    - destruct l; [auto|]. intros m Hm. eapply IH; eauto. intros r l' Hp. apply HQ. econstructor; eauto.
    - intros x Hx. eapply IH; eauto. intros r l' Hp. apply HQ. econstructor; eauto.
    - intros x t. eapply IH; eauto. intros r l' Hp. apply HQ. econstructor; eauto.
  Qed.
  Lemma wp_bind {A B} (p : proc T A) (f : A -> proc T B) : forall l Q, wp p l (fun a l' => wp (f a) l' Q) -> wp (pbind p f) l Q.
  Proof. induction p as [a|m k IH|k IH|c cs k IH|k IH]; intros l Q H; cbn [wp pbind] in *; auto. destruct l; auto. Qed.
  (** Results without undefined behaviour outside [ub]. *)
  Definition safe {A} ub (Q : A -> list shape -> Prop) (r : res A) (l : list shape) : Prop :=
    match r with Ok a => Q a l | Err _ => True | UB w => In w ub end.
  Lemma wp_bindr {A B} (p : proc T (res A)) (f : A -> proc T (res B)) l ub Q : wp p l (safe ub (fun a l' => wp (f a) l' (safe ub Q))) -> wp (pbindr p f) l (safe ub Q).
  Proof. intro H. unfold pbindr. apply wp_bind. eapply wp_weaken; [exact H|]. intros [a|e|w] l' Hr; cbn in *; auto. Qed.
  Lemma wp_blocks {R} n : forall (k : list N -> proc T R) l Q, (forall bs, List.length bs = n -> wp (k bs) l Q) -> wp (rand_blocks n k) l Q.
  Proof. induction n as [|n IH]; intros k l Q H; cbn [rand_blocks wp]; [now apply H|]. intros x t. apply IH. intros bs Hb. apply H. cbn. auto. Qed.
  Lemma wp_scalars {R} n : forall (k : list T -> proc T R) l Q, (forall bs, List.length bs = n -> wp (k bs) l Q) -> wp (rand_scalars n k) l Q.
  Proof. induction n as [|n IH]; intros k l Q H; cbn [rand_scalars wp]; [now apply H|]. intros x t. apply IH. intros bs Hb. apply H. cbn. auto. Qed.
  Lemma wp_recv_vec {A} (k : list T -> proc T (res A)) n l Q : (forall x, zlen x = n -> wp (k x) l Q) -> wp (recv_vec k) (Vector n :: l) Q.
  Proof. intros H. cbn [recv_vec wp]. intros [| |x| |] Hm; cbn in Hm; try contradiction. auto. Qed.
  Lemma wp_recv_blocks {A} (k : list N -> proc T (res A)) n l Q : (forall x, zlen x = n -> wp (k x) l Q) -> wp (recv_blocks k) (Blocks n :: l) Q.
  Proof. intros H. cbn [recv_blocks wp]. intros [|x| | |] Hm; cbn in Hm; try contradiction. auto. Qed.
  Lemma wp_recv_bytes {A} (k : list N -> proc T (res A)) l Q : (forall x, wp (k x) l Q) -> wp (recv_bytes k) (Bytes :: l) Q.
  Proof. intros H. cbn [recv_bytes wp]. intros [| | |x|] Hm; cbn in Hm; try contradiction. auto. Qed.
End Wp.

(** ** Trees *)
Lemma split_as {A B} (CS : list (list A)) : forall x : list B, List.length x = List.length (List.concat CS) ->
  exists OS, List.concat OS = x /\ Forall2 (fun a b => List.length a = List.length b) CS OS.
Proof.
  induction CS as [|c CS IH]; intros x H; cbn in H.
  - destruct x; [|discriminate]. exists []. split; [reflexivity|constructor].
  - rewrite app_length in H. destruct (IH (skipn (List.length c) x)) as (OS & E & F). { rewrite skipn_length. lia. }
    exists (firstn (List.length c) x :: OS). split; [cbn; rewrite E; apply firstn_skipn|]. constructor; [|exact F]. rewrite firstn_length. lia.
Qed.

Lemma length_forall2 {A B} (Q : A -> B -> Prop) l l' : Forall2 Q l l' -> List.length l = List.length l'.
Proof. induction 1; cbn; auto. Qed.
Section Trees.
  Variable S : scalar.
  Variable aes : N -> N -> N.
  Variable clog : Z -> Z -> nat.

  Lemma rtree_ok keys n idx os : zlen keys = 2 -> n = 0 \/ 1 <= n /\ good_size clog n -> index_ok idx n -> zlen os = zlen (rchoices clog n idx) ->
    exists t, rtree aes clog keys n idx os = Ok t /\ tree_matches t n.
  Proof.
    intros Hk Hn Hi Ho. unfold rtree. destruct (Z.eqb_spec n 0) as [->|Hn0]; [exists None; split; [reflexivity|cbn; auto]|].
    destruct Hn as [?|[Hn1 [Hn2 Hn3]]]; [lia|]. destruct Hi as [Hi1 [?|Hi2]]; [lia|].
    destruct (tree_choices_ok clog n idx) as (cs & Ecs & Hcl & _).
    assert (Hrc : rchoices clog n idx = cs) by (unfold rchoices; rewrite Ecs; now replace (n =? 0) with false by lia). rewrite Hrc in *.
    destruct (reconstruct_valid_ok aes clog 2 n idx (xtable cs os) keys) as (t & Et & Ha & Hks & Hh & Hw); [|exact Hn2|].
    - assert (Hrow : forall row, In row (xtable cs os) -> zlen row = 2).
      { intros row Hr. apply (In_znth []) in Hr. destruct Hr as (i & Hi & <-). rewrite zlen_xtable in Hi by lia. rewrite znth_xtable by lia. now destruct (znth false cs i). }
      unfold valid_args. rewrite zlen_xtable, Hcl by lia. repeat (split; [first [exact Hrow | lia]|]). first [exact Hrow | lia].
    - exists (Some t). rewrite Et. cbn [rbind]. split; [reflexivity|]. cbn. split; [rewrite zlen_xtable in Hh by lia; pose proof (zlen_nonneg cs); lia|]. now apply well_shaped_leaves in Hw.
  Qed.

  Lemma collect_all (l : list (res (option tree))) sizes : Forall2 (fun r n => exists t, r = Ok t /\ tree_matches t n) l sizes ->
    exists ts, collect l = Ok ts /\ Forall2 tree_matches ts sizes.
  Proof.
    induction 1 as [|r n l sizes (t & -> & Ht) _ (ts & E & F)]; [exists []; split; [reflexivity|constructor]|].
    exists (t :: ts). cbn [collect]. rewrite E. split; [reflexivity|now constructor].
  Qed.
  Lemma receive_trees_wp sizes indices l : (forall n, In n sizes -> n = 0 \/ 1 <= n /\ good_size clog n) -> Forall2 index_ok indices sizes ->
    wp (receive_trees S aes clog sizes indices 2) (Blocks 2 :: l) (safe [] (fun ts l' => l' = l /\ Forall2 tree_matches ts sizes)).
  Proof.
    intros Hn Hi. destruct (Forall2_znth 0 0 _ _ _ Hi) as [Hl Hii]. unfold receive_trees. rewrite Hl, Z.eqb_refl. cbn [negb].
    change (Z.of_nat 2) with 2. rewrite all_choices_ok. cbn [plift app]. change (zlen (@nil bool)) with 0.
    set (CS := map (fun '(n, i) => rchoices clog n i) (combine sizes indices)).
    assert (LCS : zlen CS = zlen sizes) by (unfold CS; rewrite zlen_map, zlen_combine; lia).
    assert (Hfin : forall x, List.length x = List.length (List.concat CS) ->
      wp (recv_blocks (fun keys => Ret (collect (map (fun i => receive_tree aes clog 2 (List.concat CS) x (0 :: offsets_from 0 CS) keys i (znth 0 sizes i) (znth 0 indices i)) (zrange 0 (zlen sizes)))))
          : proc S (res (list (option tree)))) (Blocks 2 :: l) (safe [] (fun ts l' => l' = l /\ Forall2 tree_matches ts sizes))).
    { intros x Hx. apply wp_recv_blocks. intros keys Hk. cbn [wp]. destruct (split_as CS x Hx) as (OS & <- & F).
      destruct (Forall2_znth [] [] _ _ _ F) as [LO HO].
      destruct (collect_all (map (fun i => receive_tree aes clog 2 (List.concat CS) (List.concat OS) (0 :: offsets_from 0 CS) keys i (znth 0 sizes i) (znth 0 indices i)) (zrange 0 (zlen sizes))) sizes) as (ts & Et & Ft); [|rewrite Et; cbn; auto].
      pose proof (zlen_nonneg sizes) as Hs0. apply (zip_ext (Ok None) 0); [rewrite zlen_map, zlen_zrange; lia|]. intros i Hir. rewrite zlen_map, zlen_zrange in Hir by lia.
      rewrite (znth_map _ 0) by (rewrite zlen_zrange; lia). rewrite znth_zrange by lia. rewrite Z.add_0_l.
      assert (HC : znth [] CS i = rchoices clog (znth 0 sizes i) (znth 0 indices i)).
      { unfold CS. rewrite (znth_map _ (0, 0)) by (rewrite zlen_combine; lia). now rewrite znth_combine by lia. }
      rewrite receive_tree_ok by (auto; lia). apply rtree_ok; auto.
      - apply Hn. apply znth_In. lia.
      - apply Hii. lia.
      - rewrite <- HC. unfold zlen. f_equal. symmetry. apply HO. lia. }
    destruct (Z.ltb_spec 0 (zlen (List.concat CS))) as [Hp|Hp].
    - cbn [ot_recv wp]. intros x Hx. apply Hfin. exact Hx.
    - apply Hfin. unfold zlen in Hp. cbn. lia.
  Qed.
  Lemma leaves_zlen t n : tree_matches t n -> zlen (leaves t) = n.
  Proof.
    destruct t as [t|]; cbn; [|auto]. intros [_ <-]. rewrite zlen_map, zlen_zrange; [lia|]. unfold num_leaves. apply zlen_nonneg.
  Qed.
  Lemma rot_receiver_wp indices outs l : (forall o, In o outs -> supported_size clog (zlen o)) -> zlen indices = zlen outs ->
    (forall i, 0 <= i < zlen outs -> valid_index (znth 0 indices i) (zlen (znth [] outs i))) ->
    wp (rot_receiver_batched S aes clog indices outs) (Blocks 2 :: l) (safe [] (fun r l' => l' = l /\ map zlen r = map zlen outs)).
  Proof.
    intros Hs Hl Hi. unfold rot_receiver_batched. rewrite Hl, Z.eqb_refl. cbn [negb]. destruct (existsb _ _); [exact I|].
    apply wp_bindr. eapply wp_weaken; [apply receive_trees_wp|].
    - intros n Hn. apply in_map_iff in Hn. destruct Hn as (o & <- & Ho). specialize (Hs o Ho). pose proof (zlen_nonneg o). unfold supported_size in Hs. unfold good_size. lia.
    - apply (zip_ext 0 0); [rewrite zlen_map; lia|]. intros i Hir. rewrite (znth_map zlen []) by lia. apply Hi. lia.
    - intros [ts|e|w] l' Hr; cbn [safe] in *; auto. destruct Hr as [-> Hr]. cbn [wp]. rewrite (unpack_all_ok S clog) by exact Hr. cbn [safe]. split; [reflexivity|].
      rewrite map_map. clear -Hr. remember (map zlen outs) as sizes. clear Heqsizes. induction Hr as [|t n ts sizes Ht _ IH]; [reflexivity|]. cbn [map]. rewrite IH, zlen_map. f_equal. now apply leaves_zlen.
  Qed.

  Lemma wp_create_trees sizes keys : forall k l Q, (forall seeds, zlen seeds = zlen sizes -> wp (k (RotProofs.created aes clog keys sizes seeds)) l Q) ->
    wp (create_trees S aes clog sizes keys k) l Q.
  Proof.
    induction sizes as [|n sizes IH]; intros k l Q H; cbn [create_trees].
    - apply (H []). reflexivity.
    - destruct (n =? 0) eqn:En.
      + apply IH. intros seeds Hs. specialize (H (0%N :: seeds)). unfold RotProofs.created in H. cbn [combine map] in H. rewrite En in H. apply H. rewrite !zlen_cons. lia.
      + cbn [wp]. intros x _. apply IH. intros seeds Hs. specialize (H (x :: seeds)). unfold RotProofs.created in H. cbn [combine map] in H. rewrite En in H. apply H. rewrite !zlen_cons. lia.
  Qed.
  Lemma rot_sender_wp K outs l : (forall o, In o outs -> supported_size clog (zlen o)) ->
    wp (rot_sender_batched S aes clog K outs) l (safe [] (fun r l' => l' = l /\ map zlen r = map zlen outs)).
  Proof.
    intros Hs. unfold rot_sender_batched, send_trees. apply wp_bindr. destruct (negb _); [exact I|]. apply wp_blocks. intros keys Hk. apply wp_create_trees. intros seeds Hsd.
    assert (Hg : forall n, In n (map zlen outs) -> n = 0 \/ 1 <= n /\ good_size clog n).
    { intros n Hn. apply in_map_iff in Hn. destruct Hn as (o & <- & Ho). specialize (Hs o Ho). pose proof (zlen_nonneg o). unfold supported_size in Hs. unfold good_size. lia. }
    assert (Hk2 : zlen keys = 2) by (unfold zlen; lia).
    rewrite (prepare_ok aes clog keys Hk2 (map zlen outs) seeds [] [] Hg Hsd). cbn [plift app].
    destruct (batch_trees aes clog keys Hk2 (map zlen outs) seeds (map (fun _ => 0) (map zlen outs)) Hg Hsd) as (_ & Hm & _).
    { now rewrite zlen_map. }
    { apply (zip_ext 0 0); [now rewrite zlen_map|]. intros i Hi. rewrite zlen_map in Hi. rewrite (znth_map _ 0) by lia. split; [lia|].
      destruct (Hg (znth 0 (map zlen outs) i)) as [?|[? _]]; [apply znth_In; lia|auto|right; lia]. }
    set (ss := strees _ _ _ _ _) in *.
    assert (Hfin : forall l, wp (Ret (unpack_all S ss outs) : proc S _) l (safe [] (fun r l' => l' = l /\ map zlen r = map zlen outs))).
    { intro l0. cbn [wp]. rewrite (unpack_all_ok S clog) by exact Hm. cbn [safe]. split; [reflexivity|].
      rewrite map_map. clear -Hm. remember (map zlen outs) as sizes. clear Heqsizes. induction Hm as [|t n ts sizes Ht _ IH]; [reflexivity|]. cbn [map]. rewrite IH, zlen_map. f_equal. now apply leaves_zlen. }
    destruct (0 <? _); cbn [ot_send wp]; apply Hfin.
  Qed.

  (** ** Single-point functions *)
  Lemma zlen_provider_sum v o : zlen (snd (provider_sum S v o)) = zlen o.
  Proof.
    unfold provider_sum. assert (H : forall o s a, zlen (snd (fold_left (fun '(sum, out) x => (s_add S sum x, out ++ [s_opp S x])) o (s, a))) = zlen a + zlen o).
    { clear. induction o as [|x o IH]; intros s a; cbn [fold_left]; [change (zlen (@nil S)) with 0; cbn; lia|]. rewrite IH, zlen_app, !zlen_cons. change (zlen (@nil S)) with 0. lia. }
    rewrite H. change (zlen (@nil S)) with 0. lia.
  Qed.
  Lemma spfss_value_wp K vals outs l : (forall o, In o outs -> supported_size clog (zlen o)) ->
    wp (spfss_value_provider_batched S aes clog K vals outs) l (safe [] (fun r l' => l' = l /\ map zlen r = map zlen outs)).
  Proof.
    intro Hs. unfold spfss_value_provider_batched. destruct (Z.eqb_spec (zlen vals) (zlen outs)) as [Hv|]; cbn [negb]; [|exact I].
    apply wp_bindr. eapply wp_weaken; [apply (rot_sender_wp K outs l Hs)|]. intros [r|e|w] l' Hr; cbn [safe] in *; auto. destruct Hr as [-> Hr]. cbn [wp safe]. split; [reflexivity|].
    assert (Lr : zlen r = zlen outs) by (rewrite <- (zlen_map zlen r), Hr; apply zlen_map). rewrite <- Hr. clear Hr Hs. rewrite map_map.
    assert (L2 : zlen vals = zlen r) by lia. clear Lr Hv. revert r L2. induction vals as [|v vals IH]; intros [|o r] L2; rewrite ?zlen_cons in L2; try (change (zlen (@nil S)) with 0 in L2; pose proof (zlen_nonneg r); lia); try (change (zlen (@nil (list S))) with 0 in L2; pose proof (zlen_nonneg vals); lia); [reflexivity|].
    cbn [combine map]. rewrite IH by lia. now rewrite zlen_provider_sum.
  Qed.
  Lemma index_sum_defined v idx out : exists x, index_sum S v idx out = Ok x.
  Proof.
    unfold index_sum. destruct (for_range_inv (fun _ (_ : S) => True) 0 (zlen out) (fun i sum => if i =? idx then Ok sum else let! x := zget out i in Ok (s_sub S sum x)) v) as (x & Ex & _); auto.
    - apply zlen_nonneg.
    - intros i s Hi _. destruct (i =? idx); [eauto|]. rewrite (zget_ok (s_zero S)) by lia. cbn [rbind]. eauto.
    - exists x. exact Ex.
  Qed.
  Lemma rmapM_defined {A B} (f : A -> res B) (Q : A -> B -> Prop) l : (forall a, In a l -> exists b, f a = Ok b /\ Q a b) -> exists bs, rmapM f l = Ok bs /\ Forall2 Q l bs.
  Proof.
    clear. induction l as [|a l IH]; intro H; [exists []; split; [reflexivity|constructor]|].
    destruct (H a (or_introl eq_refl)) as (b & Eb & Hb). destruct IH as (bs & Ebs & F); [intros; apply H; now right|].
    exists (b :: bs). cbn [rmapM]. rewrite Eb. cbn [rbind]. rewrite Ebs. cbn [rbind]. split; [reflexivity|now constructor].
  Qed.
  Lemma spfss_index_wp vals indices outs l : (forall o, In o outs -> supported_size clog (zlen o)) ->
    zlen indices = zlen outs -> (forall i, 0 <= i < zlen outs -> valid_index (znth 0 indices i) (zlen (znth [] outs i))) ->
    wp (spfss_index_provider_batched S aes clog vals indices outs) (Blocks 2 :: Vector (zlen outs) :: l) (safe [] (fun r l' => l' = l /\ map zlen r = map zlen outs)).
  Proof.
    intros Hs Hl Hi. unfold spfss_index_provider_batched. destruct (_ || _); [exact I|]. apply wp_bindr.
    eapply wp_weaken; [apply (rot_receiver_wp indices outs _ Hs Hl Hi)|]. intros [r|e|w] l' Hr; cbn [safe] in *; auto. destruct Hr as [-> Hr].
    assert (Lr : zlen r = zlen outs) by (rewrite <- (zlen_map zlen r), Hr; apply zlen_map).
    assert (Lri : forall i, 0 <= i < zlen outs -> zlen (znth [] r i) = zlen (znth [] outs i)).
    { intros i Hir. rewrite <- (znth_map zlen [] 0 r) by lia. rewrite <- (znth_map zlen [] 0 outs) by lia. now rewrite Hr. }
    pose proof (zlen_nonneg outs) as H0.
    destruct (rmapM_defined (fun j => index_sum S (znth (s_zero S) vals j) (znth 0 indices j) (znth [] r j)) (fun _ _ => True) (zrange 0 (zlen r))) as (sums & Es & Fs).
    { intros a _. destruct (index_sum_defined (znth (s_zero S) vals a) (znth 0 indices a) (znth [] r a)) as (x & Ex). eauto. }
    rewrite Es. cbn [plift]. apply wp_recv_vec. intros srv Hsrv. cbn [wp]. apply length_forall2 in Fs.
    assert (Ls : zlen sums = zlen outs). { unfold zlen at 1. rewrite <- Fs. fold (zlen (zrange 0 (zlen r))). rewrite zlen_zrange; lia. }
    destruct (rmapM_defined (fun j => let! sum := zget sums j in let! sum_server := zget srv j in correct_output S (znth 0 indices j) sum sum_server (znth [] r j))
      (fun j o => zlen o = zlen (znth [] outs j)) (zrange 0 (zlen r))) as (os & Eo & Fo).
    { intros j Hj. apply In_zrange in Hj. rewrite (zget_ok (s_zero S)) by lia. cbn [rbind]. rewrite (zget_ok (s_zero S)) by lia. cbn [rbind]. unfold correct_output.
      pose proof (Lri j ltac:(lia)) as Lj. destruct (Hi j ltac:(lia)) as [Hi0 Hi1]. destruct (Z.ltb_spec 0 (zlen (znth [] r j))).
      - rewrite zset_ok by lia. eexists. split; [reflexivity|]. rewrite zlen_list_set. lia.
      - eexists. split; [reflexivity|]. lia. }
    rewrite Eo. cbn [safe]. split; [reflexivity|]. clear -Fo Lr H0. rewrite Lr in Fo.
    rewrite <- (map_zrange_znth [] outs), map_map. revert Fo. generalize (zrange 0 (zlen outs)). intros rg F. induction F as [|j o rg os Ho _ IH]; [reflexivity|]. cbn [map]. now rewrite Ho, IH.
  Qed.
End Trees.

(** ** Products *)
Section Gilboa.
  Variable S : scalar.
  Hypothesis L : scalar_laws S.
  Hypothesis H16 : s_size S <= 16.
  Variable K : Q.
  Lemma zeroes (o : list S) q : 0 <= q < zlen (fill_zero S o) -> znth (s_zero S) (fill_zero S o) q = s_zero S.
  Proof. intro Hq. unfold fill_zero in *. rewrite zlen_map in Hq. now rewrite (znth_map _ (s_zero S)) by lia. Qed.
  Lemma accumulate_defined op ot n (o : list S) : 0 <= n -> zlen ot = chunks S n * num_bits S -> zlen o = n -> exists r, accumulate S op ot n (fill_zero S o) = Ok r /\ zlen r = n.
  Proof.
    intros Hn Hot Ho. destruct (accumulate_ok S L H16 op ot n (fill_zero S o)) as (r & Er & Lr & _); auto.
    - unfold fill_zero. rewrite zlen_map. lia.
    - apply zeroes.
    - exists r. split; [exact Er|]. rewrite Lr. unfold fill_zero. rewrite zlen_map. exact Ho.
  Qed.
  Lemma vector_wp y o l : zlen o = zlen y -> wp (gilboa_vector_provider S K y o) l (safe [] (fun r l' => l' = l /\ zlen r = zlen y)).
  Proof.
    intro Ho. unfold gilboa_vector_provider. rewrite Ho, Z.eqb_refl. cbn [negb]. replace (16 <? s_size S) with false by lia. cbv zeta.
    pose proof (zlen_nonneg y) as H0. pose proof (bw_pos S L H16). pose proof (chunks_nonneg S L H16 _ H0). rewrite (quot_chunks S L H16) by lia. rewrite (Z.mul_comm (num_bits S)). rewrite vector_deltas_ok by auto. cbn [plift].
    set (ds := map _ _). assert (Ld : zlen ds = chunks S (zlen y) * num_bits S) by (unfold ds; rewrite zlen_map, zlen_zrange; nia).
    assert (Hf : forall ot l, zlen ot = zlen ds -> wp (Ret (accumulate S (s_sub S) ot (zlen y) (fill_zero S o)) : proc S _) l (safe [] (fun r l' => l' = l /\ zlen r = zlen y))).
    { intros ot l0 Hot. cbn [wp]. destruct (accumulate_defined (s_sub S) ot (zlen y) o) as (r & Er & Lr); [lia|lia|lia|]. rewrite Er. cbn. auto. }
    unfold run_ot_sender. destruct (use_correlated_ot _ _ _).
    - apply wp_blocks. intros m0 Hm. cbn [ot_send wp]. apply Hf. unfold zlen. lia.
    - apply wp_scalars. intros pads _. cbn [ot_send wp]. apply Hf. unfold ot_pairs. rewrite !zlen_map, zlen_zrange; lia.
  Qed.
  Lemma value_wp x o l : zlen o < 2^31 - packing_factor S -> num_bits S * chunks S (zlen o) < 2^31 ->
    wp (gilboa_value_provider S K x o) l (safe [] (fun r l' => l' = l /\ zlen r = zlen o)).
  Proof.
    intros Ho Hn. unfold gilboa_value_provider. cbv zeta. replace (16 <? s_size S) with false by lia.
    pose proof (zlen_nonneg o) as H0. pose proof (pf_pos S L H16). pose proof (bw_pos S L H16). pose proof (chunks_nonneg S L H16 _ H0). rewrite wrap32_id by lia. unfold int_result at 1.
    replace ((- 2 ^ 31 <=? zlen o + packing_factor S) && (zlen o + packing_factor S <? 2 ^ 31)) with true by lia. cbn [plift].
    rewrite (quot_chunks S L H16) by lia. rewrite (Z.mul_comm (num_bits S)) in *. unfold int_result. set (n := chunks S (zlen o) * num_bits S) in *. assert (0 <= n) by (unfold n; nia).
    replace ((- 2 ^ 31 <=? n) && (n <? 2 ^ 31)) with true by lia. cbn [plift]. replace (n <? 0) with false by lia. unfold n. rewrite value_choices_ok by (auto; lia). cbn [plift].
    unfold run_ot_receiver, ot_recv. cbn [wp]. intros ot Hot.
    destruct (accumulate_defined (s_add S) ot (zlen o) o) as (r & Er & Lr); [lia| |lia|].
    - unfold zlen at 1. rewrite Hot, map_length. fold n in Hot |- *. fold (zlen (zrange 0 n)). rewrite zlen_zrange; lia.
    - rewrite Er. cbn. auto.
  Qed.
End Gilboa.

(** ** Multi-point functions *)
Section Mpfss.
  Variable S : scalar.
  Hypothesis L : scalar_laws S.
  Variable aes : N -> N -> N.
  Variable clog : Z -> Z -> nat.
  Variable K : Q.
  Variable too : Z -> Z -> bool.
  Variable e3 e2 : Z -> Z.
  Hypothesis He3 : forall n, e3 n < 2^63.
  Hypothesis He2 : forall n, e2 n < 2^63.
  Variable seed : N.
  Notation h := (Hasher seed 3).
  Notation domain NN := (map uint128_of_int64 (zrange 0 NN)).
  Notation bucket NN n b := (simple_bucket (bucket_of aes seed (e3 n)) 3 (domain NN) b).
  Notation all_buckets NN n := (map (simple_bucket (bucket_of aes seed (e3 n)) 3 (domain NN)) (zrange 0 (e3 n))).
  Notation coh := (coherent aes too e3 e2 h).
  (** Sizes for which the buckets are created. *)
  Definition usable NN n : Prop :=
    1 <= n <= NN /\ 3 * NN < 2^31 /\ 1 <= e3 n < 2^31 /\ too NN (e3 n) = false /\ (forall s, 0 <= s <= 3 * NN -> supported_size clog s).

  Lemma znb NN n b : 0 <= b < e3 n -> znth [] (all_buckets NN n) b = bucket NN n b.
  Proof. apply (znth_buckets aes clog too e3 e2 He3 He2). Qed.
  Lemma zlb NN n : 0 <= e3 n -> zlen (all_buckets NN n) = e3 n.
  Proof. apply (zlen_buckets aes clog too e3 e2 He3 He2). Qed.
  Lemma bucket_small' NN n b : usable NN n -> 0 <= b < e3 n -> 0 <= zlen (bucket NN n b) <= 3 * NN.
  Proof.
    intros (Hn & HN & Hnb & _) Hb. split; [apply zlen_nonneg|]. rewrite <- (sizes_total aes clog too e3 e2 He3 He2 seed NN n) by lia. apply size_sum_le.
    - apply Forall_forall. intros z Hz. apply in_map_iff in Hz. destruct Hz as (l & <- & _). apply zlen_nonneg.
    - apply in_map. apply in_map. apply In_zrange. lia.
  Qed.
  Definition empty_outputs NN n : list (list S) := map (fun i => zrepeat (s_zero S) (zlen (znth [] (all_buckets NN n) i))) (zrange 0 (e3 n)).
  Lemma outputs_ok NN n : usable NN n ->
    rmapM (fun i => let! b := zget (all_buckets NN n) i in Ok (zrepeat (s_zero S) (zlen b))) (zrange 0 (e3 n)) = Ok (empty_outputs NN n) /\
    zlen (empty_outputs NN n) = e3 n /\ (forall b, 0 <= b < e3 n -> zlen (znth [] (empty_outputs NN n) b) = zlen (bucket NN n b)) /\
    (forall o, In o (empty_outputs NN n) -> supported_size clog (zlen o)).
  Proof.
    intro U. pose proof U as (Hn & HN & Hnb & _ & Hsup). unfold empty_outputs.
    assert (H1 : forall b, 0 <= b < e3 n -> zlen (znth [] (map (fun i => zrepeat (s_zero S) (zlen (znth [] (all_buckets NN n) i))) (zrange 0 (e3 n))) b) = zlen (bucket NN n b)).
    { intros b Hb. rewrite (znth_map _ 0) by (rewrite zlen_zrange; lia). rewrite znth_zrange by lia. rewrite Z.add_0_l. rewrite zlen_zrepeat by apply zlen_nonneg. now rewrite znb by lia. }
    assert (H2 : zlen (map (fun i => zrepeat (s_zero S) (zlen (znth [] (all_buckets NN n) i))) (zrange 0 (e3 n))) = e3 n) by (rewrite zlen_map, zlen_zrange; lia).
    split; [|split; [exact H2|split; [exact H1|]]].
    - apply rmapM_ok. intros i Hi. apply In_zrange in Hi. rewrite (zget_ok []) by (rewrite zlb; lia). reflexivity.
    - intros o Ho. apply (In_znth []) in Ho. destruct Ho as (b & Hb & <-). rewrite H2 in Hb. rewrite H1 by lia. apply Hsup. now apply bucket_small'.
  Qed.
  Lemma back_ok NN n (O : list (list S)) : usable NN n -> zlen O = e3 n -> (forall b, 0 <= b < e3 n -> zlen (znth [] O b) = zlen (bucket NN n b)) ->
    exists r, map_back S (all_buckets NN n) (e3 n) O (zrepeat (s_zero S) NN) = Ok r /\ zlen r = NN.
  Proof.
    intros U LO HO. pose proof U as (Hn & HN & Hnb & _ & Hsup). assert (LB : zlen (all_buckets NN n) = e3 n) by (apply zlb; lia).
    assert (Lz : zlen (zrepeat (s_zero S) NN) = NN) by (apply zlen_zrepeat; lia).
    destruct (map_back_ok S L (all_buckets NN n) O (zrepeat (s_zero S) NN)) as (r & Er & Lr & _).
    - lia.
    - intros b Hb. rewrite LB in Hb. rewrite znb by lia. split; [now apply HO|]. pose proof (bucket_small' NN n b U Hb). lia.
    - intros b j Hb Hj. rewrite LB in Hb. rewrite znb in * by lia. rewrite Lz.
      assert (Hin : In (znth 0 (bucket NN n b) j) (bucket NN n b)) by (apply znth_In; lia). apply (in_bucket aes clog too e3 e2 He3 He2) in Hin; lia.
    - rewrite LB in Er. exists r. split; [exact Er|lia].
  Qed.
  Notation after NN n := (Mpfss h (all_buckets NN%Z n%Z) (Some NN) (Some n)).
  Lemma after_coh NN n : usable NN n -> coh (after NN n).
  Proof.
    intros (Hn & HN & Hnb & Ht & _). split; [reflexivity|]. cbn. intros N0 n0 [= <-] [= <-]. apply (fresh_ok aes clog too e3 e2 He3 He2); auto; lia.
  Qed.
  Lemma outputs_lens NN n (r : list (list S)) : usable NN n -> map zlen r = map zlen (empty_outputs NN n) ->
    zlen r = e3 n /\ forall b, 0 <= b < e3 n -> zlen (znth [] r b) = zlen (bucket NN n b).
  Proof.
    intros U Hr. destruct (outputs_ok NN n U) as (_ & Lo & Ho & _).
    assert (Lr : zlen r = e3 n) by (rewrite <- Lo, <- (zlen_map zlen r), Hr; apply zlen_map).
    split; [exact Lr|]. intros b Hb. rewrite <- Ho by lia. rewrite <- (znth_map zlen [] 0 r) by lia. rewrite <- (znth_map zlen [] 0 (empty_outputs NN n)) by lia. now rewrite Hr.
  Qed.
  Definition msafe NN (l : list shape) (a : mpfss * res (list S)) (l' : list shape) : Prop :=
    coh (fst a) /\ safe [] (fun r l' => l' = l /\ zlen r = NN) (snd a) l'.
  Lemma mpfss_value_wp sizes st x n w out l : coh st -> division (zlen out) sizes -> usable (zlen out) n -> zlen w = e3 n ->
    wp (mpfss_value_provider S aes clog K too e3 e2 sizes st x n w out) (Vector (e3 n) :: l) (msafe (zlen out) l).
  Proof.
    intros Hc Hd U Hw. set (NN := zlen out) in *. pose proof U as (Hn & HN & Hnb & Ht & _). unfold mpfss_value_provider. replace (n <? 1) with false by lia. fold NN.
    rewrite (update_ok aes clog too e3 e2 He3 He2 seed) by (auto; lia). unfold after_update, with_state. cbn [m_buckets]. apply wp_bind.
    eapply (wp_weaken _ _ (safe [] (fun r l' => l' = l /\ zlen r = NN))); [|intros r l' Hr; cbn [wp]; split; [now apply after_coh|exact Hr]].
    unfold value_provider_body. rewrite zlb by lia. rewrite wrap32_id by lia. apply wp_recv_vec. intros ym Hy. rewrite Hw, Hy, Z.eqb_refl. cbn [negb]. replace (e3 n <? 0) with false by lia.
    destruct (outputs_ok NN n U) as (Eo & Lo & Ho & So). rewrite Eo. cbn [plift]. apply wp_bindr.
    eapply wp_weaken; [apply (spfss_value_wp S aes clog (K * 2) _ _ l So)|]. intros [r|e|w0] l' Hr; cbn [safe] in *; auto. destruct Hr as [-> Hr]. cbn [wp].
    destruct (outputs_lens NN n r U Hr) as [Lr Hb]. destruct (back_ok NN n r U Lr Hb) as (r' & Er & Lr'). fold NN. rewrite Er. cbn. auto.
  Qed.
  Lemma hash_defined indices n : 1 <= e3 n < 2^31 -> (exists H, hash_cuckoo aes too h (map uint128_of_int64 indices) (e3 n) = Ok H) \/ exists e, hash_cuckoo aes too h (map uint128_of_int64 indices) (e3 n) = Err e.
  Proof.
    intro Hnb. destruct (CuckooFinal.cuckoo_outcome aes too seed 3 h (map uint128_of_int64 indices) (e3 n) eq_refl (He3 n)) as [Hb Hg].
    destruct (too (zlen (map uint128_of_int64 indices)) (e3 n)) eqn:Et; [right; destruct Hb as (m & E); eauto 6|].
    destruct (Z.ltb_spec (e3 n) (zlen (map uint128_of_int64 indices))); [right; destruct Hb as (m & E); eauto 6|].
    destruct Hg as [Hg|Hg]; eauto. intros [?|[?|[?|?]]]; lia || congruence.
  Qed.
  Lemma lands_valid NN n indices H b : usable NN n -> zlen indices = n -> (forall k, 0 <= k < n -> 0 <= znth 0 indices k < NN) ->
    hash_cuckoo aes too h (map uint128_of_int64 indices) (e3 n) = Ok H -> 0 <= b < e3 n -> valid_index (lands aes e3 seed NN n indices H b) (zlen (bucket NN n b)).
  Proof.
    intros (Hn & HN & Hnb & _) Hl Hi HH Hb. unfold lands. pose proof (zlen_nonneg (bucket NN n b)). destruct (Z.eqb_spec (zlen (bucket NN n b)) 0) as [E|E]; cbn [orb]; [split; [lia|auto]|].
    destruct (Z.eqb_spec (znth 0 H b) (-1)) as [E1|E1]; [split; [lia|right; lia]|].
    pose proof HH as HP. apply (CuckooFinal.cuckoo_placement aes too seed 3) in HP; [|reflexivity|lia]. destruct HP as (_ & _ & HP). rewrite zlen_map, Hl in HP.
    destruct (HP b Hb) as [?|[Hk _]]; [congruence|]. specialize (Hi _ Hk).
    destruct (lower_bound_In (bucket NN n b) (znth 0 indices (znth 0 H b))) as [Hr _].
    - apply simple_bucket_sorted.
    - apply (hashed_in aes clog too e3 e2 He3 He2); auto; lia.
    - split; lia.
  Qed.
  Lemma mpfss_index_wp sizes st y indices u v out l : coh st -> division (zlen out) sizes -> usable (zlen out) (zlen y) -> zlen indices = zlen y ->
    (forall k, 0 <= k < zlen y -> 0 <= znth 0 indices k < zlen out) -> zlen u = e3 (zlen y) ->
    wp (mpfss_index_provider S aes clog too e3 e2 sizes st y indices u v out) (Blocks 2 :: Vector (e3 (zlen y)) :: l) (msafe (zlen out) l).
  Proof.
    intros Hc Hd U Hl Hi Hu. set (NN := zlen out) in *. remember (zlen y) as n eqn:Ey. pose proof U as (Hn & HN & Hnb & Ht & _). unfold mpfss_index_provider. rewrite <- Ey, Hl, Z.eqb_refl. cbn [negb]. fold NN.
    replace (NN <? n) with false by lia. replace (n =? 0) with false by lia. replace (2^31 <=? n) with false by lia.
    destruct (negb (check_indices indices NN)); [cbn [wp]; split; [exact Hc|exact I]|].
    rewrite (update_ok aes clog too e3 e2 He3 He2 seed) by (auto; lia). unfold after_update, with_state. cbn [m_buckets m_hasher]. apply wp_bind.
    eapply (wp_weaken _ _ (safe [] (fun r l' => l' = l /\ zlen r = NN))); [|intros r l' Hr; cbn [wp]; split; [now apply after_coh|exact Hr]].
    unfold index_provider_body. rewrite zlb by lia. rewrite wrap32_id by lia.
    destruct (hash_defined indices n Hnb) as [(H & HH)|(e & HH)].
    2:{ unfold hash_indices. rewrite HH. destruct e as [[] m]; try exact I. destruct (_ && _); exact I. }
    rewrite (hash_indices_ok aes too seed indices (e3 n) H HH). cbn [plift]. replace (e3 n <? 0) with false by lia.
    destruct (permuted_ok S aes clog too e3 e2 He3 He2 seed y indices H) as [LH EP]; [congruence|rewrite <- Ey; lia|now rewrite <- Ey|]. rewrite <- Ey in *. rewrite EP. cbn [plift].
    assert (LP : zlen (permuted S y H) = e3 n) by (unfold permuted; now rewrite zlen_map). rewrite LP, Hu, Z.eqb_refl. cbn [negb wp].
    destruct (outputs_ok NN n U) as (Eo & Lo & Ho & So). rewrite Eo. cbn [plift].
    assert (Ei : rmapM (index_in_bucket (all_buckets NN n) H indices) (zrange 0 (e3 n)) = Ok (map (lands aes e3 seed NN n indices H) (zrange 0 (e3 n)))).
    { apply rmapM_ok. intros b Hb. apply In_zrange in Hb. unfold index_in_bucket, lands. rewrite (zget_ok []) by (rewrite zlb; lia). rewrite znb by lia. cbn [rbind].
      destruct (Z.eqb_spec (zlen (bucket NN n b)) 0) as [E|E]; cbn [orb]; [reflexivity|]. rewrite (zget_ok 0) by lia. cbn [rbind]. destruct (Z.eqb_spec (znth 0 H b) (-1)) as [E1|E1]; [reflexivity|].
      apply (CuckooFinal.cuckoo_placement aes too seed 3) in HH; [|reflexivity|lia]. destruct HH as (_ & _ & HP). rewrite zlen_map, Hl in HP.
      destruct (HP b ltac:(lia)) as [?|[Hk _]]; [congruence|]. rewrite (zget_ok 0) by lia. reflexivity. }
    rewrite Ei. cbn [plift]. apply wp_bindr. rewrite <- Lo at 2.
    eapply wp_weaken; [apply (spfss_index_wp S aes clog _ _ _ l So)|].
    - rewrite zlen_map, zlen_zrange; lia.
    - intros b Hb. rewrite Lo in Hb. rewrite (znth_map _ 0) by (rewrite zlen_zrange; lia). rewrite znth_zrange by lia. rewrite Z.add_0_l, Ho by lia. apply lands_valid; auto.
    - intros [r|e|w0] l' Hr; cbn [safe] in *; auto. destruct Hr as [-> Hr]. cbn [wp].
      destruct (outputs_lens NN n r U Hr) as [Lr Hb]. destruct (back_ok NN n r U Lr Hb) as (r' & Er & Lr'). fold NN. rewrite Er. cbn. auto.
  Qed.
End Mpfss.

(** ** Vector OLE *)
Lemma safe_weaken {A} ub ub' (Q Q' : A -> list shape -> Prop) r l : safe ub Q r l -> incl ub ub' -> (forall a, Q a l -> Q' a l) -> safe ub' Q' r l.
Proof. destruct r; cbn; auto. Qed.
Lemma nil_incl {A} (l : list A) : incl [] l. Proof. intros x []. Qed.
Lemma rng_alone : incl rng_ub alone_ub. Proof. intros x Hx. apply in_or_app. auto. Qed.

(** There is exactly one final level. *)
Lemma final_unique E b i j : final_level E b i -> final_level E b j -> i = j.
Proof.
  intros (A1 & A2 & A3) (B1 & B2 & B3). destruct (Z.lt_trichotomy i j) as [H|[H|H]]; [|exact H|].
  - specialize (B2 i ltac:(lia)). destruct A3; lia.
  - specialize (A2 j ltac:(lia)). destruct B3; lia.
Qed.
Lemma final_exists E b : 1 <= level_count E -> exists j, final_level E b j.
Proof.
  intro Hl. assert (H : forall n : nat, Z.of_nat n < level_count E -> (forall i, 0 <= i < Z.of_nat n -> level_output E i < b + level_buckets E i + level_seed E i) \/ exists j, final_level E b j).
  { induction n as [|n IH]; intro Hn; [left; lia|]. destruct IH as [IH|IH]; [lia| |auto].
    destruct (Z.le_gt_cases (b + level_buckets E (Z.of_nat n) + level_seed E (Z.of_nat n)) (level_output E (Z.of_nat n))) as [Hf|Hf].
    - right. exists (Z.of_nat n). split; [lia|]. auto.
    - left. intros i Hi. destruct (Z.eq_dec i (Z.of_nat n)) as [->|]; [lia|]. apply IH. lia. }
  destruct (H (Z.to_nat (level_count E - 1)) ltac:(lia)) as [K|K]; [|exact K]. rewrite Z2Nat.id in K by lia. exists (level_count E - 1). split; [lia|]. auto.
Qed.

Section Vole.
  Variable S : scalar.
  Variable L : scalar_laws S.
  Variable E : setting.
  Hypothesis G : good_setting S E.
  Variable M : machine S.
  Hypothesis GM : good_machine S M.
  Notation P := (e_parameters E).
  Notation aes := (e_aes E).
  Notation clog := (e_clog E).
  Notation too := (e_too_many_bits E).
  Notation e3 := (e_expansion3 E).
  Notation e2 := (e_expansion2 E).
  Notation lv := (zlen (p_seed_size P)).
  Notation top := (last (p_output_size P) 0).
  Notation sd i := (znth 0 (p_seed_size P) i).
  Notation no i := (znth 0 (p_num_noise P) i).
  Notation coh := (coh E).

  Definition vsafe {A} ub (Q : vole S -> A -> list shape -> Prop) (a : vole S * res A) (l : list shape) : Prop := safe ub (Q (fst a)) (snd a) l.
  Lemma wp_mbind {A B} (m : member S A) (f : A -> member S B) st l ub Q :
    wp (m st) l (vsafe ub (fun st' a l' => wp (f a st') l' (vsafe ub Q))) -> wp (mbind m f st) l (vsafe ub Q).
  Proof. intro H. unfold mbind. apply wp_bind. eapply wp_weaken; [exact H|]. intros [st' [a|e|w]] l' Hr; cbn in *; auto. Qed.
  Lemma wp_seq {A B} (m : member S A) (f : A -> member S B) st l ub (Q1 : vole S -> A -> list shape -> Prop) Q :
    wp (m st) l (vsafe ub Q1) -> (forall st' a l', Q1 st' a l' -> wp (f a st') l' (vsafe ub Q)) -> wp (mbind m f st) l (vsafe ub Q).
  Proof. intros H HQ. apply wp_mbind. eapply wp_weaken; [exact H|]. intros [st' [a|e|w]] l' Hr; unfold vsafe in *; cbn [fst snd safe] in *; auto. Qed.
  Lemma wp_end {A} (p : proc S (vole S * res A)) l ub (Q1 Q : vole S -> A -> list shape -> Prop) :
    wp p l (vsafe ub Q1) -> (forall st' a l', Q1 st' a l' -> Q st' a l') -> wp p l (vsafe ub Q).
  Proof. intros H HQ. eapply wp_weaken; [exact H|]. intros [st' [a|e|w]] l' Hr; unfold vsafe in *; cbn [fst snd safe] in *; auto. Qed.
  Lemma wp_mcalc {A B} (m : res A) (f : A -> member S B) st l ub Q :
    safe ub (fun a l => wp (f a st) l (vsafe ub Q)) m l -> wp (mbind (mcalc m) f st) l (vsafe ub Q).
  Proof. intro H. unfold mbind, mcalc. cbn [pbind]. destruct m; cbn in *; auto. Qed.
  Lemma wp_mproc {A B} (p : proc S (res A)) (f : A -> member S B) st l ub Q :
    wp p l (safe ub (fun a l' => wp (f a st) l' (vsafe ub Q))) -> wp (mbind (mproc p) f st) l (vsafe ub Q).
  Proof. intro H. apply wp_mbind. unfold mproc. apply wp_bind. eapply wp_weaken; [exact H|]. intros r l' Hr. exact Hr. Qed.
  Lemma wp_mmpfss {A B} (p : mpfss -> proc S (mpfss * res A)) (f : A -> member S B) st l ub Q :
    wp (p (v_mpfss st)) l (fun a l' => safe ub (fun x l'' => wp (f x (set_mpfss S (fst a) st)) l'' (vsafe ub Q)) (snd a) l') -> wp (mbind (mmpfss p) f st) l (vsafe ub Q).
  Proof. intro H. apply wp_mbind. unfold mmpfss. apply wp_bind. eapply wp_weaken; [exact H|]. intros [m r] l' Hr. exact Hr. Qed.

  Lemma level_usable i out : 0 <= i < lv -> no i <= out <= top -> usable clog too e3 out (no i).
  Proof.
    intros Hi Ho. pose proof (level_facts S E G i Hi) as (F1 & F2 & F3 & F4 & F5). pose proof (top_small S E G). unfold usable.
    split; [lia|]. split; [lia|]. split; [lia|]. split; [apply F4; lia|]. intros s Hs. apply (gs_clog S E G). lia.
  Qed.

  Lemma expand_sender_wp seed i out nvs nms st l : coh seed (v_mpfss st) -> 0 <= i < lv -> v_num_noise st = no i -> zlen (sr_u (s_mpfss_seed (v_s st))) = e3 (no i) ->
    no i <= out <= top -> 0 <= nvs -> 0 <= nms -> nvs + nms <= out ->
    wp (expand_sender S E M out nvs nms st) (sender_inbox (level_buckets E i) ++ l) (vsafe alone_ub (fun st' _ l' => l' = l /\ coh seed (v_mpfss st') /\ around S st st' nvs nms /\
      zlen (sr_u (s_mpfss_seed (v_s st'))) = nms /\ zlen (sr_u (s_cached (v_s st'))) = zlen (sr_u (s_cached (v_s st))) + out - nvs - nms)).
  Proof.
    intros Hc Hi Hn Hm Ho H1 H2 H3. pose proof (level_facts S E G i Hi) as (F1 & F2 & F3 & _). pose proof (level_usable i out Hi Ho) as U.
    unfold expand_sender, sender_inbox. rewrite !bind_get. cbv zeta. rewrite Hn.
    destruct (negb (_ =? _)); [exact I|]. destruct (negb (_ =? _) || _) eqn:D2; [exact I|]. apply orb_false_iff in D2. destruct D2 as [_ D3]. apply negb_false_iff, Z.eqb_eq in D3.
    apply wp_mproc, wp_blocks. intros bs Lb. cbn [wp safe].
    destruct (rng_create_ok bs (no i)) as (g & Eg); [unfold zlen; lia|]. apply wp_mcalc. rewrite Eg. cbn [safe].
    apply wp_mcalc. pose proof (sample_indices_ok S M (c_patience M) out (no i) g [] GM ltac:(lia) (usable_create _ _ _ Eg) (NoDup_nil Z) (Forall_nil _) ltac:(change (zlen (@nil Z)) with 0; lia)) as Hs.
    destruct (sample_indices S M _ _ _ _ _) as [set|e|w]; cbn [safe]; [|contradiction|exact Hs]. destruct Hs as (S1 & S2 & S3).
    apply wp_mproc. cbn [wp]. intros chance _. cbn [safe]. replace (no i <? 0) with false by lia.
    pose proof (gm_order S M GM chance set) as Hp. set (idx := c_order M chance set) in *.
    assert (Li : zlen idx = no i) by (rewrite <- S3; unfold zlen; f_equal; now apply Permutation_length).
    assert (Hnd : NoDup idx) by (apply (Permutation_NoDup (Permutation_sym Hp)); exact S1).
    assert (Hr : forall k, 0 <= k < no i -> 0 <= znth 0 idx k < out).
    { intros k Hk. assert (Hin : In (znth 0 idx k) set) by (apply (Permutation_in _ Hp), znth_In; lia). rewrite Forall_forall in S2. now apply S2. }
    apply wp_mproc, wp_scalars. intros y Ly. cbn [wp safe]. assert (Ly' : zlen y = no i) by (unfold zlen; lia).
    set (v0 := zrepeat (s_zero S) out). assert (Lv0 : zlen v0 = out) by (apply zlen_zrepeat; lia).
    apply wp_mmpfss. eapply wp_weaken.
    { pose proof (mpfss_index_wp S L aes clog too e3 e2 (He3 S E G) (He2 S E G) seed (c_split M out) (v_mpfss st) y idx (sr_u (s_mpfss_seed (v_s st))) (sr_v (s_mpfss_seed (v_s st))) v0 l) as W.
      rewrite Lv0, Ly' in W. apply W; [exact Hc|apply (gm_split S M GM); lia|exact U|exact Li|exact Hr|exact Hm]. }
    intros [m r] l' [Hcm Hsf]. cbn [fst snd] in *. destruct r as [v1|e|w]; cbn [safe] in *; [|exact I|contradiction]. destruct Hsf as [-> Lv1].
    destruct (spread_ok S L out (no i) idx y) as (mu & Emu & Lmu & _); [lia|exact Li|exact Ly'|exact Hnd|exact Hr|].
    apply wp_mcalc. rewrite Emu. cbn [safe]. rewrite bind_set.
    set (nu := vec_add S _ mu). set (nv := vec_sub S _ v1). assert (Lnu : zlen nu = out) by (unfold nu; rewrite zlen_vec_add; rewrite zlen_encode; lia).
    pose proof (zlen_nonneg (sr_u (s_cached (v_s st)))) as Hc0.
    erewrite bind_ok; [|apply new_sender_ok; [exact H1|exact H2|cbn; rewrite zlen_app; lia]]. rewrite bind_set. unfold mset. cbn [wp]. unfold vsafe. cbn.
    split; [reflexivity|]. split; [exact Hcm|]. split; [unfold around; cbn; rewrite (proj1 Hcm), (proj1 Hc); auto 10|].
    rewrite zlen_tail, !zlen_shrink by (rewrite ?zlen_shrink; rewrite zlen_app; lia). rewrite zlen_app. lia.
  Qed.

  Lemma expand_receiver_wp seed i out nvs nms st l : coh seed (v_mpfss st) -> 0 <= i < lv -> v_num_noise st = no i -> zlen (rr_w (r_mpfss_seed (v_r st))) = e3 (no i) ->
    no i <= out <= top -> 0 <= nvs -> 0 <= nms -> nvs + nms <= out ->
    wp (expand_receiver S E M out nvs nms st) (receiver_inbox (level_buckets E i) ++ l) (vsafe rng_ub (fun st' _ l' => l' = l /\ coh seed (v_mpfss st') /\ around S st st' nvs nms /\
      zlen (rr_w (r_mpfss_seed (v_r st'))) = nms /\ zlen (rr_w (r_cached (v_r st'))) = zlen (rr_w (r_cached (v_r st))) + out - nvs - nms)).
  Proof.
    intros Hc Hi Hn Hm Ho H1 H2 H3. pose proof (level_facts S E G i Hi) as (F1 & F2 & F3 & _). pose proof (level_usable i out Hi Ho) as U.
    unfold expand_receiver, receiver_inbox. rewrite !bind_get. cbv zeta. rewrite Hn.
    destruct (negb (_ =? _) || _) eqn:D2; [exact I|]. apply orb_false_iff in D2. destruct D2 as [_ D3]. apply negb_false_iff, Z.eqb_eq in D3. rewrite bind_set.
    set (v0 := zrepeat (s_zero S) out). assert (Lv0 : zlen v0 = out) by (apply zlen_zrepeat; lia).
    apply wp_mmpfss. eapply wp_weaken.
    { cbn [app]. change (level_buckets E i) with (e3 (no i)). apply (mpfss_value_wp S L aes clog (vole_K E) too e3 e2 (He3 S E G) (He2 S E G) seed).
      - exact Hc.
      - rewrite Lv0. apply (gm_split S M GM). lia.
      - rewrite Lv0. exact U.
      - exact Hm. }
    intros [m r] l' [Hcm Hsf]. cbn [fst snd] in *. destruct r as [v1|e|w]; cbn [safe] in *; [|exact I|contradiction]. destruct Hsf as [-> Lv1]. rewrite Lv0 in Lv1. rewrite bind_set.
    set (nw := vec_add S _ v1). assert (Lnw : zlen nw = out) by (unfold nw; rewrite zlen_vec_add; rewrite zlen_encode; lia).
    pose proof (zlen_nonneg (rr_w (r_cached (v_r st)))) as Hc0.
    erewrite bind_ok; [|apply new_receiver_ok; [exact H1|exact H2|cbn; rewrite zlen_app; lia]]. rewrite bind_set. unfold mset. cbn [wp]. unfold vsafe. cbn.
    split; [reflexivity|]. split; [exact Hcm|]. split; [unfold around; cbn; rewrite (proj1 Hcm), (proj1 Hc); auto 10|].
    rewrite zlen_tail, !zlen_shrink by (rewrite ?zlen_shrink; rewrite zlen_app; lia). rewrite zlen_app. lia.
  Qed.

  Lemma exchange_wp l : wp (exchange_seed S M) (seed_inbox M ++ l) (safe [] (fun _ l' => l' = l)).
  Proof.
    unfold exchange_seed, seed_inbox. destruct (_ <? _); [apply wp_blocks; intros bs _; cbn; reflexivity|]. cbn [app]. apply wp_recv_bytes. intros x. cbn. reflexivity.
  Qed.
  Lemma rng_create_defined s n : match rng_create s n with Ok _ => True | Err _ => True | UB _ => False end.
  Proof. unfold rng_create, rng_seed. destruct (_ <? kStateSize); exact I. Qed.
  Lemma common_wp seed i out st l ub : coh seed (v_mpfss st) -> level S E st i -> 0 <= out <= top -> incl rng_ub ub ->
    wp (precompute_common S E M out st) (seed_inbox M ++ l) (vsafe ub (fun st' _ l' => l' = l /\ exists m cols, st' = set_generator S (v_vole_seed_size st) cols (set_mpfss S m st) /\ coh seed m)).
  Proof.
    intros Hc (Hi & E1 & E2 & E3) Ho Hub. pose proof (level_facts S E G i Hi) as (F1 & _). unfold precompute_common. rewrite bind_get, E3.
    destruct (update_level S E G M GM seed (v_mpfss st) out i Hc Hi Ho) as (m1 & Eu & Hc1 & _).
    erewrite bind_ok; [|unfold m_update_buckets; rewrite Eu; reflexivity]. rewrite bind_get, bind_set.
    apply wp_mproc. eapply wp_weaken; [apply exchange_wp|]. intros [s|e|w] l' Hr; cbn [safe] in *; [subst l'|exact I|contradiction].
    apply wp_mcalc. pose proof (rng_create_defined s (p_nonzeros P * out)) as Hd. destruct (rng_create _ _) as [g|e|w] eqn:Eg; cbn [safe]; [|exact I|contradiction].
    destruct (negb _); [exact I|]. apply wp_mcalc. cbn [v_vole_seed_size set_mpfss]. rewrite E1.
    pose proof (sample_generator_ub S E G false (sd i) out g ltac:(lia) ltac:(lia) (usable_create _ _ _ Eg)) as Hs.
    destruct (sample_generator S E _ _ _) as [cols|e|w]; cbn [safe]; [|contradiction|now apply Hub].
    unfold mset. cbn. split; [reflexivity|]. exists m1, cols. split; [reflexivity|exact Hc1].
  Qed.

  Local Arguments znth : simpl never.
  (** ** Precomputation *)
  Section Climb.
    Variable step : Z -> Z -> Z -> member S unit.
    Variable round : Z -> list shape.
    Variable ub : list string.
    Hypothesis Hub : incl rng_ub ub.
    (** Lengths of the seeds of the multi-point functions and of the cache. *)
    Variable ml cl : sender_side S -> receiver_side S -> Z.
    Notation mlen st := (ml (v_s st) (v_r st)).
    Notation clen st := (cl (v_s st) (v_r st)).
    Hypothesis Hstep : forall seed i out nvs nms st l, coh seed (v_mpfss st) -> 0 <= i < lv -> v_num_noise st = no i -> mlen st = e3 (no i) ->
      no i <= out <= top -> 0 <= nvs -> 0 <= nms -> nvs + nms <= out ->
      wp (step out nvs nms st) (round (level_buckets E i) ++ l) (vsafe ub (fun st' _ l' => l' = l /\ coh seed (v_mpfss st') /\ around S st st' nvs nms /\
        mlen st' = nms /\ clen st' = clen st + out - nvs - nms)).

    Lemma bootstrap_wp seed batch j n : final_level E batch j -> forall i st l, coh seed (v_mpfss st) -> level S E st i -> mlen st = e3 (no i) -> i <= j -> Z.to_nat (lv - 1 - i) = n ->
      wp (bootstrap S E M step batch (zrange i (lv - 1)) st) (List.concat (map (fun k => seed_inbox M ++ round (level_buckets E k)) (zrange i j)) ++ l)
        (vsafe ub (fun st' _ l' => l' = l /\ coh seed (v_mpfss st') /\ level S E st' j /\ mlen st' = e3 (no j) /\ clen st' = clen st)).
    Proof.
      intros (Hj & Hlow & Hfin). unfold level_count in Hj, Hfin. induction n as [|n IH]; intros i st l Hc Hlv Hm Hij Hn; pose proof Hlv as (Hi & E1 & E2 & E3).
      { rewrite zrange_nil by lia. assert (i = j) as <- by lia. rewrite zrange_nil by lia. cbn [bootstrap map List.concat app]. unfold vsafe. cbn. auto 10. }
      rewrite zrange_cons by lia. cbn [bootstrap]. pose proof (gs_outputs S E G) as Go. pose proof (gs_noises S E G) as Gn. pose proof (top_small S E G) as Htop.
      rewrite (bind_calc S _ (znth 0 (p_output_size P) i)) by (apply zget_ok; lia). rewrite !bind_get. apply wp_mcalc.
      unfold int64_result. destruct (_ && _); cbn [safe]; [|apply Hub; cbn; auto]. rewrite E1, E2.
      change (znth 0 (p_output_size P) i) with (level_output E i). change (e3 (no i)) with (level_buckets E i) at 1. change (sd i) with (level_seed E i).
      destruct (Z.leb_spec (batch + level_buckets E i + level_seed E i) (level_output E i)) as [Hfit|Hfit].
      { assert (i = j) as <-. { destruct (Z.eq_dec i j); [auto|]. specialize (Hlow i ltac:(lia)). lia. }
        rewrite zrange_nil by lia. cbn [map List.concat app]. unfold vsafe. cbn. auto 10. }
      assert (Hij' : i < j). { destruct (Z.eq_dec i j) as [<-|]; [|lia]. destruct Hfin; lia. }
      assert (Hi1 : 0 <= i + 1 < lv) by lia. pose proof (level_facts S E G (i + 1) Hi1) as (F1 & F2 & F3 & _). pose proof (level_facts S E G i Hi) as (K1 & K2 & K3 & _).
      rewrite (bind_calc S _ (sd (i + 1))) by (apply zget_ok; lia). rewrite (bind_calc S _ (no (i + 1))) by (apply zget_ok; lia).
      rewrite (bind_ok S _ _ st st (e3 (no (i + 1)))) by (unfold m_num_buckets; rewrite (num_buckets_solo S E G); auto; now rewrite (proj1 Hc)).
      pose proof (gs_grow S E G i ltac:(lia)) as Hgr. set (out := sd (i + 1) + e3 (no (i + 1))) in *. rewrite (bind_calc S _ out) by (apply int_small; lia).
      rewrite (zrange_cons i j) by lia. cbn [map List.concat]. rewrite <- !app_assoc.
      eapply wp_seq; [apply (common_wp seed i out st _ ub Hc Hlv); [lia|exact Hub]|]. intros st1 x1 l1 [-> (m & cols & -> & Hcm)].
      eapply wp_seq; [apply (Hstep seed i out (sd (i + 1)) (e3 (no (i + 1)))); [exact Hcm|exact Hi|exact E3|exact Hm|lia|lia|lia|lia]|]. intros st2 x2 l2 (-> & Hc2 & (A1 & A2 & A3 & A4 & A5 & A6 & A7) & Hm2 & Hl2). rewrite bind_set.
      eapply wp_end; [apply (IH (i + 1)); [exact Hc2|split; [lia|cbn; auto]|exact Hm2|lia|lia]|]. intros st3 x l3 (-> & B1 & B2 & B3 & B4). cbn in B4. cbn in Hl2. repeat (split; [auto; fail|]). lia.
    Qed.
  End Climb.

  Lemma last_wp seed i batch st l ub : coh seed (v_mpfss st) -> level S E st i -> 1 <= batch -> incl rng_ub ub ->
    wp (precompute_last S E M batch st) (seed_inbox M ++ l) (vsafe ub (fun st' _ l' => l' = l /\ coh seed (v_mpfss st') /\ level S E st' i /\ v_batch_size st' = Z.min batch (room E i) /\ v_s st' = v_s st /\ v_r st' = v_r st)).
  Proof.
    intros Hc Hlv Hbt Hub. pose proof Hlv as (Hi & E1 & E2 & E3). pose proof (gs_outputs S E G) as Go. pose proof (gs_levels S E G) as Gl. pose proof (top_small S E G) as Htop. pose proof (level_facts S E G i Hi) as (K1 & K2 & K3 & _).
    unfold precompute_last. rewrite (bind_calc S _ top) by (rewrite (zget_ok 0) by lia; f_equal; apply znth_last).
    rewrite !bind_get, E1, E2. rewrite (bind_calc S _ (top - e3 (no i) - sd i)) by (apply int_small; lia). rewrite bind_set.
    set (be := Z.min batch (top - e3 (no i) - sd i)). set (a1 := set_batch_size S be st).
    assert (Ef : full_output S a1 = Ret (a1, Ok (be + sd i + e3 (no i)))).
    { unfold full_output. rewrite !bind_get. cbn [a1 set_batch_size v_batch_size v_vole_seed_size v_mpfss_seed_size]. rewrite E1, E2. unfold mcalc. rewrite int64_small by lia. reflexivity. }
    rewrite (bind_ok S _ _ a1 a1 _ Ef). eapply wp_end; [apply (common_wp seed i _ a1 l ub Hc Hlv); [lia|exact Hub]|]. intros st' x l' [-> (m & cols & -> & Hm)].
    split; [reflexivity|]. split; [exact Hm|]. split; [split; [exact Hi|cbn; auto]|]. cbn. split; [|auto]. unfold be. rewrite (room_eq S E G). reflexivity.
  Qed.

  (** What a precomputation leaves. *)
  Definition prepared seed batch j (st : vole S) : Prop := coh seed (v_mpfss st) /\ level S E st j /\ v_batch_size st = Z.min batch (room E j).
  Notation smlen st := (zlen (sr_u (s_mpfss_seed (v_s st)))).
  Notation rmlen st := (zlen (rr_w (r_mpfss_seed (v_r st)))).

  Lemma precompute_sender_wp seed batch j st l : coh seed (v_mpfss st) -> final_level E batch j ->
    wp (precompute_sender S E M batch st) (precompute_sender_inbox E M j ++ l) (vsafe alone_ub (fun st' _ l' => l' = l /\ 1 <= batch /\ prepared seed batch j st' /\
      smlen st' = e3 (no j) /\ zlen (sr_u (s_cached (v_s st'))) = 0)).
  Proof.
    intros Hc Hj. unfold precompute_sender. destruct (Z.ltb_spec batch 1) as [Hlt|Hge]; [exact I|].
    pose proof (gs_levels S E G) as Gl. pose proof (level_facts S E G 0 ltac:(lia)) as (K1 & K2 & K3 & _). pose proof (top_small S E G) as Htop. pose proof Hj as (Hjr & _).
    assert (Hh : hash3 S st) by (unfold hash3; now rewrite (proj1 Hc)).
    rewrite (bind_ok S _ _ _ _ _ (sizes_solo S E G st Hh)). set (st0 := set_mpfss_seed_size S _ _). set (n := sd 0 + e3 (no 0)).
    apply wp_mbind. unfold sender_first_seed. apply wp_mproc, wp_scalars. intros u Lu. cbn [wp safe]. apply wp_mproc, wp_scalars. intros v Lv. cbn [wp safe]. rewrite bind_set.
    assert (Lu' : zlen u = n) by (unfold zlen; lia).
    apply wp_mproc. eapply wp_weaken; [apply (vector_wp S L (gs_size S E G)); rewrite zlen_zrepeat; lia|]. intros [w|e|w] l' Hr; cbn [safe] in *; [|exact I|contradiction]. destruct Hr as [-> Lw].
    unfold mproc. cbn [pbind wp]. unfold vsafe at 1. cbn [fst snd safe]. rewrite !bind_get.
    cbn [v_vole_seed_size v_mpfss_seed_size set_s st0 set_mpfss_seed_size set_vole_seed_size].
    erewrite bind_ok; [|apply new_sender_ok; [lia|lia|cbn; lia]]. set (st1 := set_s S _ (set_s S _ _)).
    assert (Hm1 : smlen st1 = e3 (no 0)). { cbn. rewrite zlen_tail; [reflexivity|rewrite zlen_shrink; lia]. }
    assert (Hc1 : zlen (sr_u (s_cached (v_s st1))) = 0). { cbn. rewrite !zlen_shrink by (rewrite ?zlen_shrink; lia). lia. }
    unfold precompute_sender_inbox, climb_inbox, levels. rewrite <- app_assoc.
    eapply wp_seq; [apply (bootstrap_wp (expand_sender S E M) sender_inbox alone_ub rng_alone (fun s _ => zlen (sr_u (s_mpfss_seed s))) (fun s _ => zlen (sr_u (s_cached s))) expand_sender_wp seed batch j (Z.to_nat (lv - 1 - 0)) Hj 0); [exact Hc|split; [lia|cbn; auto]|exact Hm1|lia|reflexivity]|]. intros st2 x2 l2 (-> & B1 & B2 & B3 & B4).
    eapply wp_seq; [apply (last_wp seed j batch st2 l alone_ub B1 B2 Hge rng_alone)|]. intros st3 x3 l3 (-> & C1 & C2 & C3 & C4 & C5).
    unfold mset. cbn [wp fst snd safe]. split; [reflexivity|]. split; [exact Hge|]. split; [split; [exact C1|split; [exact C2|exact C3]]|]. cbn. rewrite C4, B4. auto.
  Qed.

  Lemma precompute_receiver_wp seed batch d j st l : coh seed (v_mpfss st) -> final_level E batch j ->
    wp (precompute_receiver S E M batch d st) (precompute_receiver_inbox E M j ++ l) (vsafe rng_ub (fun st' _ l' => l' = l /\ 1 <= batch /\ prepared seed batch j st' /\
      rmlen st' = e3 (no j) /\ zlen (rr_w (r_cached (v_r st'))) = 0)).
  Proof.
    intros Hc Hj. unfold precompute_receiver. destruct (Z.ltb_spec batch 1) as [Hlt|Hge]; [exact I|].
    pose proof (gs_levels S E G) as Gl. pose proof (level_facts S E G 0 ltac:(lia)) as (K1 & K2 & K3 & _). pose proof (top_small S E G) as Htop. pose proof Hj as (Hjr & _).
    assert (Hh : hash3 S st) by (unfold hash3; now rewrite (proj1 Hc)).
    rewrite (bind_ok S _ _ _ _ _ (sizes_solo S E G st Hh)). set (st0 := set_mpfss_seed_size S _ _). set (n := sd 0 + e3 (no 0)).
    apply wp_mbind. unfold receiver_first_seed. rewrite bind_set. set (out := map (c_junk M) (zrange 0 n)). assert (Lo : zlen out = n) by (unfold out; rewrite zlen_map, zlen_zrange; lia).
    apply wp_mproc. eapply wp_weaken.
    { apply (value_wp S L (gs_size S E G)); rewrite Lo.
      - pose proof (pf_pos S L (gs_size S E G)). lia.
      - pose proof (gs_size S E G) as H16. pose proof (sl_size S L) as Hsz. rewrite <- transfers_eq by lia. apply (gs_first S E G). }
    intros [w|e|w] l' Hr; cbn [safe] in *; [|exact I|contradiction]. destruct Hr as [-> Lw].
    apply wp_mproc. unfold precompute_receiver_inbox. cbn [app]. apply wp_recv_vec. intros w2 Lw2. cbn [wp safe].
    change (level_seed E 0 + level_buckets E 0) with n in Lw2. rewrite Lw, Lo, Lw2, Z.eqb_refl. cbn [negb]. unfold mset at 1. cbn [wp]. unfold vsafe at 1. cbn [fst snd safe]. rewrite !bind_get.
    cbn [v_vole_seed_size v_mpfss_seed_size set_r st0 set_mpfss_seed_size set_vole_seed_size].
    assert (Lv : zlen (vec_add S w w2) = n) by (rewrite zlen_vec_add; lia).
    erewrite bind_ok; [|apply new_receiver_ok; [lia|lia|cbn; lia]]. set (st1 := set_r S _ (set_r S _ _)).
    assert (Hm1 : rmlen st1 = e3 (no 0)). { cbn. rewrite zlen_tail; [reflexivity|rewrite zlen_shrink; lia]. }
    assert (Hc1 : zlen (rr_w (r_cached (v_r st1))) = 0). { cbn. rewrite !zlen_shrink by (rewrite ?zlen_shrink; lia). lia. }
    unfold climb_inbox, levels. rewrite <- app_assoc.
    eapply wp_seq; [apply (bootstrap_wp (expand_receiver S E M) receiver_inbox rng_ub (incl_refl _) (fun _ r => zlen (rr_w (r_mpfss_seed r))) (fun _ r => zlen (rr_w (r_cached r))) expand_receiver_wp seed batch j (Z.to_nat (lv - 1 - 0)) Hj 0); [exact Hc|split; [lia|cbn; auto]|exact Hm1|lia|reflexivity]|]. intros st2 x2 l2 (-> & B1 & B2 & B3 & B4).
    eapply wp_seq; [apply (last_wp seed j batch st2 l rng_ub B1 B2 Hge (incl_refl _))|]. intros st3 x3 l3 (-> & C1 & C2 & C3 & C4 & C5).
    unfold mset. cbn [wp fst snd safe]. split; [reflexivity|]. split; [exact Hge|]. split; [split; [exact C1|split; [exact C2|exact C3]]|]. cbn. rewrite C5, B4. auto.
  Qed.

  (** ** Run *)
  Lemma wp_expand (step : Z -> Z -> Z -> member S unit) i st l ub Q : fits S E i st ->
    wp (step (v_batch_size st + v_vole_seed_size st + v_mpfss_seed_size st) (v_vole_seed_size st) (v_mpfss_seed_size st) st) l (vsafe ub Q) -> wp (expand S step st) l (vsafe ub Q).
  Proof.
    intros ((Hi & E1 & E2 & E3) & Hb & Ht) H. pose proof (level_facts S E G i Hi) as (F1 & F2 & F3 & _). pose proof (top_small S E G) as Htop. unfold expand.
    erewrite bind_ok; [|unfold full_output; rewrite !bind_get; unfold mcalc; rewrite int64_small by lia; reflexivity]. rewrite !bind_get. exact H.
  Qed.
  Notation rounds_ok rounds missing cached := (missing <= 0 \/ missing + (if cached =? 0 then 1 else 0) <= Z.of_nat rounds).
  Lemma sender_loop_wp seed i rounds size : forall u v st l, coh seed (v_mpfss st) -> fits S E i st -> smlen st = e3 (no i) ->
    rounds_ok rounds (size - zlen u) (zlen (sr_u (s_cached (v_s st)))) ->
    wp (run_sender_loop S E M rounds size u v st) (expansions_inbox E sender_inbox i (expansions (size - zlen u) (zlen (sr_u (s_cached (v_s st)))) (v_batch_size st)) ++ l)
      (vsafe alone_ub (fun _ _ l' => l' = l)).
  Proof.
    induction rounds as [|rounds IH]; intros u v st l Hc Hf Hm Hrd; pose proof Hf as (Hlv & Hbt & Hroom); pose proof (zlen_nonneg (sr_u (s_cached (v_s st)))) as Hc0.
    all: destruct (Z.le_gt_cases size (zlen u)) as [Hle|Hgt].
    1, 3: rewrite run_sender_loop_done, expansions_0 by lia; reflexivity.
    { destruct (_ =? 0); lia. }
    rewrite run_sender_loop_more by auto. set (c := s_cached (v_s st)) in *.
    destruct (Z.leb_spec (zlen u + zlen (sr_u c)) size) as [Hfit|Hfit].
    - erewrite bind_ok; [|rewrite bind_set; reflexivity]. set (st1 := set_s S _ st).
      rewrite zlen_app. destruct (Z.ltb_spec (zlen u + zlen (sr_u c)) size) as [Hmore|Hend].
      + rewrite expansions_next by lia. set (k := expansions _ _ _). assert (Hk : 0 <= k) by (unfold k, expansions; lia).
        unfold expansions_inbox. replace (Z.to_nat (1 + k)) with (Datatypes.S (Z.to_nat k)) by lia. cbn [repeat List.concat]. rewrite <- app_assoc.
        pose proof Hlv as (Hi & E1 & E2 & E3). pose proof (level_facts S E G i Hi) as (F1 & F2 & F3 & _).
        assert (Hf1 : fits S E i st1) by exact Hf.
        eapply wp_seq; [apply (wp_expand _ i); [exact Hf1|]; apply (expand_sender_wp seed i); [exact Hc|exact Hi|exact E3|exact Hm|cbn; lia|cbn; lia|cbn; lia|cbn; lia]|].
        intros st2 x l2 (-> & Hc2 & Har & Hm2 & Hl2). cbn [st1 set_s v_s v_batch_size v_vole_seed_size v_mpfss_seed_size] in *.
        change (zlen (sr_u (s_cached (set_s_cached S {| sr_u := []; sr_v := [] |} (v_s st))))) with 0 in Hl2.
        pose proof Har as (A1 & A2 & A3 & A4 & A5 & A6 & A7). cbn in A4, A5, A6, A7.
        assert (Hf2 : fits S E i st2) by (unfold fits, level; rewrite A4, A5, A6, A7; auto 10).
        pose proof (IH (u ++ sr_u c) (v ++ sr_v c) st2 l Hc2 Hf2 ltac:(rewrite Hm2; exact E2)) as W. rewrite zlen_app in W.
        replace (zlen (sr_u (s_cached (v_s st2)))) with (v_batch_size st) in W by lia. rewrite A4 in W. replace (size - (zlen u + zlen (sr_u c))) with (size - zlen u - zlen (sr_u c)) in W by lia.
        apply W. right. replace (v_batch_size st =? 0) with false by lia. destruct (Z.eqb_spec (zlen (sr_u c)) 0); lia.
      + rewrite run_sender_loop_done, expansions_0 by (rewrite ?zlen_app; lia). reflexivity.
    - erewrite bind_ok; [|apply get_sender_ok; fold c; lia]. fold c. cbn [sr_u sr_v]. rewrite zlen_app, zlen_tail by lia.
      replace (zlen u + (size - zlen u) <? size) with false by lia. rewrite run_sender_loop_done, expansions_0 by (rewrite ?zlen_app, ?zlen_tail; lia). reflexivity.
  Qed.
  Lemma receiver_loop_wp seed i rounds size d : forall w st l, coh seed (v_mpfss st) -> fits S E i st -> rmlen st = e3 (no i) ->
    rounds_ok rounds (size - zlen w) (zlen (rr_w (r_cached (v_r st)))) ->
    wp (run_receiver_loop S E M rounds size w d st) (expansions_inbox E receiver_inbox i (expansions (size - zlen w) (zlen (rr_w (r_cached (v_r st)))) (v_batch_size st)) ++ l)
      (vsafe rng_ub (fun _ _ l' => l' = l)).
  Proof.
    induction rounds as [|rounds IH]; intros w st l Hc Hf Hm Hrd; pose proof Hf as (Hlv & Hbt & Hroom); pose proof (zlen_nonneg (rr_w (r_cached (v_r st)))) as Hc0.
    all: destruct (Z.le_gt_cases size (zlen w)) as [Hle|Hgt].
    1, 3: rewrite run_receiver_loop_done, expansions_0 by lia; reflexivity.
    { destruct (_ =? 0); lia. }
    rewrite run_receiver_loop_more by auto. set (c := r_cached (v_r st)) in *.
    destruct (Z.leb_spec (zlen w + zlen (rr_w c)) size) as [Hfit|Hfit].
    - erewrite bind_ok; [|rewrite bind_set; reflexivity]. set (st1 := set_r S _ st).
      rewrite zlen_app. destruct (Z.ltb_spec (zlen w + zlen (rr_w c)) size) as [Hmore|Hend].
      + rewrite expansions_next by lia. set (k := expansions _ _ _). assert (Hk : 0 <= k) by (unfold k, expansions; lia).
        unfold expansions_inbox. replace (Z.to_nat (1 + k)) with (Datatypes.S (Z.to_nat k)) by lia. cbn [repeat List.concat]. rewrite <- app_assoc.
        pose proof Hlv as (Hi & E1 & E2 & E3). pose proof (level_facts S E G i Hi) as (F1 & F2 & F3 & _).
        assert (Hf1 : fits S E i st1) by exact Hf.
        eapply wp_seq; [apply (wp_expand _ i); [exact Hf1|]; apply (expand_receiver_wp seed i); [exact Hc|exact Hi|exact E3|exact Hm|cbn; lia|cbn; lia|cbn; lia|cbn; lia]|].
        intros st2 x l2 (-> & Hc2 & Har & Hm2 & Hl2). cbn [st1 set_r v_r v_batch_size v_vole_seed_size v_mpfss_seed_size] in *.
        change (zlen (rr_w (r_cached (set_r_cached S {| rr_w := []; rr_delta := rr_delta c |} (v_r st))))) with 0 in Hl2.
        pose proof Har as (A1 & A2 & A3 & A4 & A5 & A6 & A7). cbn in A4, A5, A6, A7.
        assert (Hf2 : fits S E i st2) by (unfold fits, level; rewrite A4, A5, A6, A7; auto 10).
        pose proof (IH (w ++ rr_w c) st2 l Hc2 Hf2 ltac:(rewrite Hm2; exact E2)) as W. rewrite zlen_app in W.
        replace (zlen (rr_w (r_cached (v_r st2)))) with (v_batch_size st) in W by lia. rewrite A4 in W. replace (size - (zlen w + zlen (rr_w c))) with (size - zlen w - zlen (rr_w c)) in W by lia.
        apply W. right. replace (v_batch_size st =? 0) with false by lia. destruct (Z.eqb_spec (zlen (rr_w c)) 0); lia.
      + rewrite run_receiver_loop_done, expansions_0 by (rewrite ?zlen_app; lia). reflexivity.
    - erewrite bind_ok; [|apply get_receiver_ok; fold c; lia]. fold c. cbn [rr_w]. rewrite zlen_app, zlen_tail by lia.
      replace (zlen w + (size - zlen w) <? size) with false by lia. rewrite run_receiver_loop_done, expansions_0 by (rewrite ?zlen_app, ?zlen_tail; lia). reflexivity.
  Qed.

  Lemma run_sender_wp seed i size st l : 0 <= size -> coh seed (v_mpfss st) -> fits S E i st -> smlen st = e3 (no i) -> s_done (v_s st) = true ->
    wp (run_sender S E M size st) (expansions_inbox E sender_inbox i (expansions size (zlen (sr_u (s_cached (v_s st)))) (v_batch_size st)) ++ l) (vsafe alone_ub (fun _ _ l' => l' = l)).
  Proof.
    intros Hs Hc Hf Hm Hd. unfold run_sender. rewrite bind_get, Hd. erewrite bind_ok; [|reflexivity]. pose proof Hf as (_ & Hbt & _).
    unfold get_sender_cached. destruct (Z.ltb_spec (zlen (sr_u (s_cached (v_s st)))) size) as [Hlt|Hge]; cbn [pbind].
    - pose proof (zlen_nonneg (sr_u (s_cached (v_s st)))). pose proof (sender_loop_wp seed i (Z.to_nat size + 1) size [] [] st l Hc Hf Hm) as W. change (zlen (@nil S)) with 0 in W. rewrite Z.sub_0_r in W. apply W. right. destruct (_ =? 0); lia.
    - replace (size <? 0) with false by lia. rewrite expansions_0 by lia. reflexivity.
  Qed.
  Lemma run_receiver_wp seed i size st l : 0 <= size -> coh seed (v_mpfss st) -> fits S E i st -> rmlen st = e3 (no i) -> r_done (v_r st) = true ->
    wp (run_receiver S E M size st) (expansions_inbox E receiver_inbox i (expansions size (zlen (rr_w (r_cached (v_r st)))) (v_batch_size st)) ++ l) (vsafe rng_ub (fun _ _ l' => l' = l)).
  Proof.
    intros Hs Hc Hf Hm Hd. unfold run_receiver. rewrite bind_get, Hd. erewrite bind_ok; [|reflexivity]. pose proof Hf as (_ & Hbt & _).
    unfold get_receiver_cached. destruct (Z.ltb_spec (zlen (rr_w (r_cached (v_r st)))) size) as [Hlt|Hge]; cbn [pbind].
    - pose proof (zlen_nonneg (rr_w (r_cached (v_r st)))). pose proof (receiver_loop_wp seed i (Z.to_nat size + 1) size (rr_delta (r_cached (v_r st))) [] st l Hc Hf Hm) as W. change (zlen (@nil S)) with 0 in W. rewrite Z.sub_0_r in W. apply W. right. destruct (_ =? 0); lia.
    - replace (size <? 0) with false by lia. rewrite expansions_0 by lia. reflexivity.
  Qed.

  (** ** The length of the seeds of the multi-point functions *)
  Section Keep.
    Variable R : sender_side S -> receiver_side S -> Z -> Prop.
    Definition kp {A} (m : member S A) : Prop := forall st st' r, R (v_s st) (v_r st) (v_mpfss_seed_size st) -> possible (m st) (st', r) -> R (v_s st') (v_r st') (v_mpfss_seed_size st').
    Lemma kp_bind {A B} (m : member S A) (f : A -> member S B) : kp m -> (forall a, kp (f a)) -> kp (mbind m f).
    Proof.
      intros Hm Hf st st' r HR H. unfold mbind in H. apply possible_bind in H. destruct H as ([st1 x] & H1 & H). apply Hm in H1; [|exact HR].
      destruct x as [a|e|w]; [exact (Hf _ _ _ _ H1 H)|apply possible_ret_inv in H; injection H as -> ->; exact H1..].
    Qed.
    Lemma kp_get {A} (f : vole S -> A) : kp (mget f).
    Proof. intros st st' r HR H. apply possible_ret_inv in H. injection H as -> ->. exact HR. Qed.
    Lemma kp_calc {A} (m : res A) : kp (mcalc m).
    Proof. intros st st' r HR H. apply possible_ret_inv in H. injection H as -> ->. exact HR. Qed.
    Lemma kp_fail {A} e : kp (mfail e : member S A). Proof. apply (kp_calc (Err e)). Qed.
    Lemma kp_tt {A} (a : A) : kp (mret a : member S A). Proof. apply (kp_calc (Ok a)). Qed.
    Lemma kp_set f : (forall st, R (v_s st) (v_r st) (v_mpfss_seed_size st) -> R (v_s (f st)) (v_r (f st)) (v_mpfss_seed_size (f st))) -> kp (mset f : member S unit).
    Proof. intros Hf st st' r HR H. apply possible_ret_inv in H. injection H as -> ->. auto. Qed.
    Lemma kp_proc {A} (p : proc S (res A)) : kp (mproc p).
    Proof. intros st st' r HR H. unfold mproc in H. apply possible_bind in H. destruct H as (x & _ & H). apply possible_ret_inv in H. injection H as -> ->. exact HR. Qed.
    Lemma kp_mpfss {A} (p : mpfss -> proc S (mpfss * res A)) : kp (mmpfss p).
    Proof. intros st st' r HR H. unfold mmpfss in H. apply possible_bind in H. destruct H as ([m x] & _ & H). apply possible_ret_inv in H. injection H as -> ->. exact HR. Qed.
    Lemma kp_buckets out n : kp (m_update_buckets S E M out n).
    Proof. intros st st' r HR H. unfold m_update_buckets in H. destruct (update_buckets _ _ _ _ _ _ _ _) as [m x]. apply possible_ret_inv in H. injection H as -> ->. exact HR. Qed.
    Lemma kp_num n : kp (m_num_buckets S E n).
    Proof. intros st st' r HR H. apply possible_ret_inv in H. injection H as -> ->. exact HR. Qed.
  End Keep.
  Definition Rs : sender_side S -> receiver_side S -> Z -> Prop := fun s _ n => zlen (sr_u (s_mpfss_seed s)) = n.
  Definition Rr : sender_side S -> receiver_side S -> Z -> Prop := fun _ r n => zlen (rr_w (r_mpfss_seed r)) = n.
  Notation Ps st := (smlen st = v_mpfss_seed_size st).
  Notation Pr st := (rmlen st = v_mpfss_seed_size st).

  Lemma new_sender_seeds_keep vs ms st st' r : possible (new_sender_seeds S vs ms st) (st', r) ->
    v_mpfss_seed_size st' = v_mpfss_seed_size st /\ match r with Ok _ => smlen st' = ms | _ => smlen st' = smlen st end.
  Proof.
    unfold new_sender_seeds, mbind at 1. intro H. unfold get_sender_cached at 1 in H. set (c := s_cached (v_s st)) in *.
    destruct (Z.ltb_spec (zlen (sr_u c)) vs) as [Hv|Hv]; [cbn [pbind] in H; apply possible_ret_inv in H; injection H as -> ->; auto|].
    destruct (Z.ltb_spec vs 0) as [Hv0|Hv0]; [cbn [pbind] in H; apply possible_ret_inv in H; injection H as -> ->; auto|]. cbn [pbind] in H. rewrite bind_set in H.
    unfold mbind at 1, get_sender_cached in H. cbn [v_s set_s s_cached set_s_cached set_s_vole_seed sr_u sr_v] in H.
    destruct (Z.ltb_spec (zlen (shrink vs (sr_u c))) ms) as [Hm|Hm]; [cbn [pbind] in H; apply possible_ret_inv in H; injection H as -> ->; auto|].
    destruct (Z.ltb_spec ms 0) as [Hm0|Hm0]; [cbn [pbind] in H; apply possible_ret_inv in H; injection H as -> ->; auto|]. cbn [pbind] in H.
    unfold mset in H. apply possible_ret_inv in H. injection H as -> ->. cbn. split; [reflexivity|]. apply zlen_tail. lia.
  Qed.
  Lemma new_receiver_seeds_keep vs ms st st' r : possible (new_receiver_seeds S vs ms st) (st', r) ->
    v_mpfss_seed_size st' = v_mpfss_seed_size st /\ match r with Ok _ => rmlen st' = ms | _ => rmlen st' = rmlen st end.
  Proof.
    unfold new_receiver_seeds, mbind at 1. intro H. unfold get_receiver_cached at 1 in H. set (c := r_cached (v_r st)) in *.
    destruct (Z.ltb_spec (zlen (rr_w c)) vs) as [Hv|Hv]; [cbn [pbind] in H; apply possible_ret_inv in H; injection H as -> ->; auto|].
    destruct (Z.ltb_spec vs 0) as [Hv0|Hv0]; [cbn [pbind] in H; apply possible_ret_inv in H; injection H as -> ->; auto|]. cbn [pbind] in H. rewrite bind_set in H.
    unfold mbind at 1, get_receiver_cached in H. cbn [v_r set_r r_cached set_r_cached set_r_vole_seed rr_w rr_delta] in H.
    destruct (Z.ltb_spec (zlen (shrink vs (rr_w c))) ms) as [Hm|Hm]; [cbn [pbind] in H; apply possible_ret_inv in H; injection H as -> ->; auto|].
    destruct (Z.ltb_spec ms 0) as [Hm0|Hm0]; [cbn [pbind] in H; apply possible_ret_inv in H; injection H as -> ->; auto|]. cbn [pbind] in H.
    unfold mset in H. apply possible_ret_inv in H. injection H as -> ->. cbn. split; [reflexivity|]. apply zlen_tail. lia.
  Qed.
  Lemma kp_sender_tail vs ms : kp Rs (mbind (new_sender_seeds S vs ms) (fun _ => mbind (mset (set_vole_seed_size S vs)) (fun _ => mset (set_mpfss_seed_size S ms)))).
  Proof.
    intros st st' r HR H. unfold mbind at 1 in H. apply possible_bind in H. destruct H as ([st1 x] & H1 & H). apply new_sender_seeds_keep in H1. destruct H1 as [H1 H2]. unfold Rs in *.
    destruct x as [a|e|w]; [|apply possible_ret_inv in H; injection H as -> ->; congruence..]. rewrite bind_set in H. unfold mset in H. apply possible_ret_inv in H. injection H as -> ->. exact H2.
  Qed.
  Lemma kp_receiver_tail vs ms : kp Rr (mbind (new_receiver_seeds S vs ms) (fun _ => mbind (mset (set_vole_seed_size S vs)) (fun _ => mset (set_mpfss_seed_size S ms)))).
  Proof.
    intros st st' r HR H. unfold mbind at 1 in H. apply possible_bind in H. destruct H as ([st1 x] & H1 & H). apply new_receiver_seeds_keep in H1. destruct H1 as [H1 H2]. unfold Rr in *.
    destruct x as [a|e|w]; [|apply possible_ret_inv in H; injection H as -> ->; congruence..]. rewrite bind_set in H. unfold mset in H. apply possible_ret_inv in H. injection H as -> ->. exact H2.
  Qed.
  Ltac kept := repeat (match goal with
    | |- kp _ (mbind (new_sender_seeds _ _ _) _) => apply kp_sender_tail
    | |- kp _ (mbind (new_receiver_seeds _ _ _) _) => apply kp_receiver_tail
    | |- kp _ (mbind _ _) => apply kp_bind; [|intro]
    | |- kp _ (mget _) => apply kp_get
    | |- kp _ (mcalc _) => apply kp_calc
    | |- kp _ (mfail _) => apply kp_fail
    | |- kp _ (mret _) => apply kp_tt
    | |- kp _ (mproc _) => apply kp_proc
    | |- kp _ (mmpfss _) => apply kp_mpfss
    | |- kp _ (m_update_buckets _ _ _ _ _) => apply kp_buckets
    | |- kp _ (m_num_buckets _ _ _) => apply kp_num
    | |- kp _ (mset _) => apply kp_set; solve [intros ? ?; cbn in *; auto]
    | |- kp _ (if ?b then _ else _) => destruct b
    end; cbv zeta).
  Lemma kp_expand_sender a b c : kp Rs (expand_sender S E M a b c).
  Proof. unfold expand_sender. kept. Qed.
  Lemma kp_expand_receiver a b c : kp Rr (expand_receiver S E M a b c).
  Proof. unfold expand_receiver. kept. Qed.
  Lemma kp_common R out : kp R (precompute_common S E M out).
  Proof. unfold precompute_common. kept. Qed.
  Lemma kp_bootstrap R step b l : (forall x y z, kp R (step x y z)) -> kp R (bootstrap S E M step b l).
  Proof. intro Hs. induction l as [|i l IH]; cbn [bootstrap]; [apply kp_tt|]. kept; first [exact IH | apply kp_common | apply Hs]. Qed.
  Lemma kp_last R b : kp R (precompute_last S E M b).
  Proof. unfold precompute_last, full_output. kept. apply kp_common. Qed.
  Lemma kp_scached n : kp Rs (get_sender_cached S n).
  Proof. intros st st' r HR H. unfold get_sender_cached in H. destruct (_ <? n); [|destruct (n <? 0)]; apply possible_ret_inv in H; injection H as -> ->; exact HR. Qed.
  Lemma kp_rcached n : kp Rr (get_receiver_cached S n).
  Proof. intros st st' r HR H. unfold get_receiver_cached in H. destruct (_ <? n); [|destruct (n <? 0)]; apply possible_ret_inv in H; injection H as -> ->; exact HR. Qed.
  Lemma kp_expand R step : (forall x y z, kp R (step x y z)) -> kp R (expand S step).
  Proof. intro Hs. unfold expand, full_output. kept. apply Hs. Qed.
  Lemma kp_sender_loop n : forall size u v, kp Rs (run_sender_loop S E M n size u v).
  Proof. induction n as [|n IH]; intros size u v; cbn [run_sender_loop]; kept; first [apply IH | apply kp_scached | apply kp_expand; intros; apply kp_expand_sender]. Qed.
  Lemma kp_receiver_loop n : forall size w d, kp Rr (run_receiver_loop S E M n size w d).
  Proof. induction n as [|n IH]; intros size w d; cbn [run_receiver_loop]; kept; first [apply IH | apply kp_rcached | apply kp_expand; intros; apply kp_expand_receiver]. Qed.

  Lemma sender_precomputed b st st' x : possible (precompute_sender S E M b st) (st', Ok x) -> Ps st'.
  Proof.
    unfold precompute_sender. intro H. destruct (b <? 1); [apply possible_ret_inv in H; discriminate|].
    apply ok_bind in H. destruct H as (st1 & size & _ & H). apply ok_bind in H. destruct H as (st2 & [] & _ & H). rewrite !bind_get in H.
    apply ok_bind in H. destruct H as (st3 & [] & H1 & H). apply new_sender_seeds_keep in H1. destruct H1 as [H1 H2].
    assert (K : Rs (v_s st3) (v_r st3) (v_mpfss_seed_size st3)) by (unfold Rs; congruence). revert K H.
    change (Rs (v_s st3) (v_r st3) (v_mpfss_seed_size st3) -> possible (mbind (bootstrap S E M (expand_sender S E M) b (levels E)) (fun _ => mbind (precompute_last S E M b) (fun _ => mset (fun st => set_s S (set_s_done S (v_s st)) st))) st3) (st', Ok x) -> Rs (v_s st') (v_r st') (v_mpfss_seed_size st')).
    generalize st3, st', (Ok x). change (kp Rs (mbind (bootstrap S E M (expand_sender S E M) b (levels E)) (fun _ => mbind (precompute_last S E M b) (fun _ => mset (fun st => set_s S (set_s_done S (v_s st)) st))))).
    kept; [apply kp_bootstrap, kp_expand_sender|apply kp_last].
  Qed.
  Lemma receiver_precomputed b d st st' x : possible (precompute_receiver S E M b d st) (st', Ok x) -> Pr st'.
  Proof.
    unfold precompute_receiver. intro H. destruct (b <? 1); [apply possible_ret_inv in H; discriminate|].
    apply ok_bind in H. destruct H as (st1 & size & _ & H). apply ok_bind in H. destruct H as (st2 & [] & _ & H). rewrite !bind_get in H.
    apply ok_bind in H. destruct H as (st3 & [] & H1 & H). apply new_receiver_seeds_keep in H1. destruct H1 as [H1 H2].
    assert (K : Rr (v_s st3) (v_r st3) (v_mpfss_seed_size st3)) by (unfold Rr; congruence). revert K H.
    change (Rr (v_s st3) (v_r st3) (v_mpfss_seed_size st3) -> possible (mbind (bootstrap S E M (expand_receiver S E M) b (levels E)) (fun _ => mbind (precompute_last S E M b) (fun _ => mset (fun st => set_r S (set_r_done S (v_r st)) st))) st3) (st', Ok x) -> Rr (v_s st') (v_r st') (v_mpfss_seed_size st')).
    generalize st3, st', (Ok x). change (kp Rr (mbind (bootstrap S E M (expand_receiver S E M) b (levels E)) (fun _ => mbind (precompute_last S E M b) (fun _ => mset (fun st => set_r S (set_r_done S (v_r st)) st))))).
    kept; [apply kp_bootstrap, kp_expand_receiver|apply kp_last].
  Qed.
  Lemma receiver_random_precomputed b st st' x : possible (precompute_receiver_random S E M b st) (st', Ok x) -> Pr st'.
  Proof. unfold precompute_receiver_random. intro H. apply ok_bind in H. destruct H as (st1 & d & _ & H). eapply receiver_precomputed. exact H. Qed.
  Lemma after_sender_run n st st' r : possible (run_sender S E M n st) (st', r) -> (s_done (v_s st) = true -> Ps st) -> (s_done (v_s st) = true \/ exists x, r = Ok x) -> Ps st'.
  Proof.
    intros H HP Hd. unfold run_sender in H. rewrite bind_get in H. unfold mbind at 1 in H. apply possible_bind in H. destruct H as ([st1 x] & H1 & H).
    assert (K : (s_done (v_s st) = true \/ exists y, r = Ok y) -> Ps st1).
    { destruct (s_done (v_s st)) eqn:Ed; [apply possible_ret_inv in H1; injection H1 as -> ->; auto|].
      intros [?|[y ->]]; [discriminate|]. destruct x as [x|e|w]; [eapply sender_precomputed; exact H1|apply possible_ret_inv in H; discriminate..]. }
    specialize (K Hd). destruct x as [x|e|w]; [|apply possible_ret_inv in H; injection H as -> ->; exact K..].
    apply possible_bind in H. destruct H as ([st2 y] & H2 & H). apply (kp_scached n) in H2; [|exact K].
    destruct y as [y|e|w]; [|exact (kp_sender_loop _ _ _ _ _ _ _ H2 H)|]; apply possible_ret_inv in H; injection H as -> ->; exact H2.
  Qed.
  Lemma after_receiver_run n st st' r : possible (run_receiver S E M n st) (st', r) -> (r_done (v_r st) = true -> Pr st) -> (r_done (v_r st) = true \/ exists x, r = Ok x) -> Pr st'.
  Proof.
    intros H HP Hd. unfold run_receiver in H. rewrite bind_get in H. unfold mbind at 1 in H. apply possible_bind in H. destruct H as ([st1 x] & H1 & H).
    assert (K : (r_done (v_r st) = true \/ exists y, r = Ok y) -> Pr st1).
    { destruct (r_done (v_r st)) eqn:Ed; [apply possible_ret_inv in H1; injection H1 as -> ->; auto|].
      intros [?|[y ->]]; [discriminate|]. destruct x as [x|e|w]; [eapply receiver_random_precomputed; exact H1|apply possible_ret_inv in H; discriminate..]. }
    specialize (K Hd). destruct x as [x|e|w]; [|apply possible_ret_inv in H; injection H as -> ->; exact K..].
    apply possible_bind in H. destruct H as ([st2 y] & H2 & H). apply (kp_rcached n) in H2; [|exact K].
    destruct y as [y|e|w]; [|exact (kp_receiver_loop _ _ _ _ _ _ _ H2 H)|]; apply possible_ret_inv in H; injection H as -> ->; exact H2.
  Qed.

  (** ** Histories *)
  Lemma sender_seeded st0 l1 e b st : created S M st0 -> history S E M st0 (l1 ++ [e]) st -> precomputes true b l1 e -> Ps st.
  Proof.
    intros Hc H (c & x & -> & Hp). apply history_app in H. destruct H as (st1 & H1 & H2). apply history_one in H2. destruct H2 as [H2 _]. destruct Hp as [(d & ->)|[-> ->]];
      cbv beta iota delta [as_sender] in H2; apply possible_bind in H2; destruct H2 as ([sx y] & Ha & Hb); apply possible_ret_inv in Hb; (destruct y as [y|e|w0]; try discriminate); injection Hb as -> ->.
    - eapply sender_precomputed. exact Ha.
    - inversion H1 as [|? l0 ? ? ? ? ? ? ? ? E0 E1]; subst; [|destruct l0; discriminate]. apply after_sender_run in Ha; [exact Ha| |eauto].
      intro Hd. apply created_inv in Hc. destruct Hc as (h & _ & ->). discriminate.
  Qed.
  Lemma receiver_seeded st0 l1 e b st : created S M st0 -> history S E M st0 (l1 ++ [e]) st -> precomputes false b l1 e -> Pr st.
  Proof.
    intros Hc H (c & x & -> & Hp). apply history_app in H. destruct H as (st1 & H1 & H2). apply history_one in H2. destruct H2 as [H2 _]. destruct Hp as [([d|] & ->)|[-> ->]];
      cbv beta iota delta [as_receiver] in H2; apply possible_bind in H2; destruct H2 as ([sx y] & Ha & Hb); apply possible_ret_inv in Hb; (destruct y as [y|e|w0]; try discriminate); injection Hb as -> ->.
    - eapply receiver_precomputed. exact Ha.
    - eapply receiver_random_precomputed. exact Ha.
    - inversion H1 as [|? l0 ? ? ? ? ? ? ? ? E0 E1]; subst; [|destruct l0; discriminate]. apply after_receiver_run in Ha; [exact Ha| |eauto].
      intro Hd. apply created_inv in Hc. destruct Hc as (h & _ & ->). discriminate.
  Qed.
  Lemma sender_runs_seeded l : forall st st', inv S E st -> history S E M st l st' -> Forall sender_run l -> s_done (v_s st) = true -> Ps st -> Ps st'.
  Proof.
    induction l as [|e l IH] using rev_ind; intros st st' Hi H HF Hd HP.
    - inversion H as [|? l0 ? ? ? ? ? ? ? ? E0 E1]; subst; [exact HP|destruct l0; discriminate].
    - apply Forall_app in HF. destruct HF as [HF He]. inversion He as [|? ? Hr _]; subst. apply history_app in H. destruct H as (st1 & H1 & H2).
      pose proof (IH _ _ Hi H1 HF Hd HP) as HP1. destruct (runs_keep S E G M GM sender_run (fun a => s_done (v_s a)) (sender_run_step S E G M GM) l st st1 Hi H1 HF Hd) as [Hd1 _].
      destruct Hr as (n & r & ->). apply history_one in H2. destruct H2 as [H2 _]. cbv beta iota delta [as_sender] in H2. apply possible_bind in H2. destruct H2 as ([sx y] & Ha & Hb). apply possible_ret_inv in Hb. injection Hb as -> _.
      eapply after_sender_run; [exact Ha|auto|auto].
  Qed.
  Lemma receiver_runs_seeded l : forall st st', inv S E st -> history S E M st l st' -> Forall receiver_run l -> r_done (v_r st) = true -> Pr st -> Pr st'.
  Proof.
    induction l as [|e l IH] using rev_ind; intros st st' Hi H HF Hd HP.
    - inversion H as [|? l0 ? ? ? ? ? ? ? ? E0 E1]; subst; [exact HP|destruct l0; discriminate].
    - apply Forall_app in HF. destruct HF as [HF He]. inversion He as [|? ? Hr _]; subst. apply history_app in H. destruct H as (st1 & H1 & H2).
      pose proof (IH _ _ Hi H1 HF Hd HP) as HP1. destruct (runs_keep S E G M GM receiver_run (fun a => r_done (v_r a)) (receiver_run_step S E G M GM) l st st1 Hi H1 HF Hd) as [Hd1 _].
      destruct Hr as (n & r & ->). apply history_one in H2. destruct H2 as [H2 _]. cbv beta iota delta [as_receiver] in H2. apply possible_bind in H2. destruct H2 as ([sx y] & Ha & Hb). apply possible_ret_inv in Hb. injection Hb as -> _.
      eapply after_receiver_run; [exact Ha|auto|auto].
  Qed.

  (** A call whose body is safe. *)
  Lemma call_gets {A} (p : proc S (vole S * res A)) (f : A -> answer S) inbox ub ms st' r : wp p (inbox ++ []) (vsafe ub (fun _ _ l' => l' = [])) ->
    gets (pbind p (fun '(st, x) => Ret (st, rmap f x))) ms (st', r) -> shaped_as ms inbox -> defined ub r /\ zlen ms <= zlen inbox /\ ((exists x, r = Ok x) -> zlen ms = zlen inbox).
  Proof.
    intros H Hg Hs. rewrite app_nil_r in H. eapply wp_gets in Hg; [|apply wp_bind; eapply wp_weaken; [exact H|]; intros [st x] l' Hx; cbn [wp]; instantiate (1 := fun a l' => safe ub (fun _ l' => l' = []) (snd a) l'); destruct x; cbn in *; exact Hx|exact Hs].
    destruct Hg as (l' & HQ & Hl). cbn [snd] in HQ. unfold zlen. split; [|split; [lia|]].
    - intros w ->. exact HQ.
    - intros [x ->]. cbn in HQ. subst l'. cbn in Hl. lia.
  Qed.
  Lemma call_weaken {A} (p : proc S (vole S * res A)) l ub (Q : vole S -> A -> list shape -> Prop) : wp p l (vsafe ub (fun st a l' => l' = [] /\ Q st a l')) -> wp p l (vsafe ub (fun _ _ l' => l' = [])).
  Proof. intro H. eapply wp_end; [exact H|]. intros st' a l' [Hl _]. exact Hl. Qed.
  Notation fine ub inbox ms r := (defined ub r /\ zlen ms <= zlen inbox /\ ((exists x, r = Ok x) -> zlen ms = zlen inbox)).

  Lemma precompute_sender_safe st0 h st b d j ms st' r : created S M st0 -> history S E M st0 h st -> final_level E b j ->
    gets (as_sender S E M (Precompute b d) st) ms (st', r) -> shaped_as ms (precompute_sender_inbox E M j) -> fine alone_ub (precompute_sender_inbox E M j) ms r.
  Proof.
    intros Hc Hh Hj Hg Hs. destruct (created_coh S E M _ Hc) as [seed Hco]. pose proof (history_coh S E G M GM _ _ _ _ Hco Hh) as Hco'. cbv beta iota delta [as_sender] in Hg.
    eapply call_gets; [|exact Hg|exact Hs]. eapply call_weaken, precompute_sender_wp; eassumption.
  Qed.
  Lemma precompute_receiver_safe st0 h st b d j ms st' r : created S M st0 -> history S E M st0 h st -> final_level E b j ->
    gets (as_receiver S E M (Precompute b d) st) ms (st', r) -> shaped_as ms (precompute_receiver_inbox E M j) -> fine rng_ub (precompute_receiver_inbox E M j) ms r.
  Proof.
    intros Hc Hh Hj Hg Hs. destruct (created_coh S E M _ Hc) as [seed Hco]. pose proof (history_coh S E G M GM _ _ _ _ Hco Hh) as Hco'.
    destruct d as [d|]; cbv beta iota delta [as_receiver] in Hg; (eapply call_gets; [|exact Hg|exact Hs]).
    - eapply call_weaken, precompute_receiver_wp; eassumption.
    - unfold precompute_receiver_random. apply wp_mproc. cbn [wp]. intros x t. cbn [safe]. eapply call_weaken, precompute_receiver_wp; eassumption.
  Qed.
  Lemma run_sender_safe st0 l1 e b l2 st j n ms st' r : created S M st0 -> history S E M st0 (l1 ++ e :: l2) st -> precomputes true b l1 e -> Forall sender_run l2 -> final_level E b j -> 0 <= n ->
    gets (as_sender S E M (Run n) st) ms (st', r) ->
    let inbox := expansions_inbox E sender_inbox j (expansions n (zlen (sr_u (s_cached (v_s st)))) (v_batch_size st)) in
    shaped_as ms inbox -> fine alone_ub inbox ms r.
  Proof.
    intros Hc H Hp HF Hj Hn Hg inbox Hs. pose proof (created_ok S E M _ Hc) as Hi. destruct (created_coh S E M _ Hc) as [seed Hco]. pose proof (history_coh S E G M GM _ _ _ _ Hco H) as Hs2.
    change (e :: l2) with ([e] ++ l2) in H. rewrite app_assoc in H. apply history_app in H. destruct H as (st1 & H1 & H2).
    pose proof (proj1 (history_inv S E G M GM _ _ _ Hi H1)) as Hi1.
    destruct (precomputed_sender S E G M GM _ _ _ _ _ Hc H1 Hp) as (A1 & _ & _). destruct (sender_at S E G M GM (sl_size S L) _ _ _ _ _ Hc H1 Hp) as (Hb & j' & Hj').
    destruct (runs_keep S E G M GM sender_run (fun a => s_done (v_s a)) (sender_run_step S E G M GM) l2 st1 st Hi1 H2 HF A1) as [B1 B2].
    pose proof (at_around S E _ _ _ _ Hj' B2) as Hj2. pose proof (at_fits S E G _ _ _ Hb Hj2) as Hf. pose proof Hj2 as (F1 & F2 & F3). pose proof F2 as (Hjr & E1 & E2 & E3).
    assert (j' = j) as ->. { eapply final_unique; eassumption. }
    pose proof (sender_runs_seeded _ _ _ Hi1 H2 HF A1 (sender_seeded _ _ _ _ _ Hc H1 Hp)) as HP. cbv beta iota delta [as_sender] in Hg.
    eapply call_gets; [|exact Hg|exact Hs]. apply (run_sender_wp seed); auto. congruence.
  Qed.
  Lemma run_receiver_safe st0 l1 e b l2 st j n ms st' r : created S M st0 -> history S E M st0 (l1 ++ e :: l2) st -> precomputes false b l1 e -> Forall receiver_run l2 -> final_level E b j -> 0 <= n ->
    gets (as_receiver S E M (Run n) st) ms (st', r) ->
    let inbox := expansions_inbox E receiver_inbox j (expansions n (zlen (rr_w (r_cached (v_r st)))) (v_batch_size st)) in
    shaped_as ms inbox -> fine rng_ub inbox ms r.
  Proof.
    intros Hc H Hp HF Hj Hn Hg inbox Hs. pose proof (created_ok S E M _ Hc) as Hi. destruct (created_coh S E M _ Hc) as [seed Hco]. pose proof (history_coh S E G M GM _ _ _ _ Hco H) as Hs2.
    change (e :: l2) with ([e] ++ l2) in H. rewrite app_assoc in H. apply history_app in H. destruct H as (st1 & H1 & H2).
    pose proof (proj1 (history_inv S E G M GM _ _ _ Hi H1)) as Hi1.
    destruct (precomputed_receiver S E G M GM _ _ _ _ _ Hc H1 Hp) as (A1 & _ & _). destruct (receiver_at S E G M GM (sl_size S L) _ _ _ _ _ Hc H1 Hp) as (Hb & j' & Hj').
    destruct (runs_keep S E G M GM receiver_run (fun a => r_done (v_r a)) (receiver_run_step S E G M GM) l2 st1 st Hi1 H2 HF A1) as [B1 B2].
    pose proof (at_around S E _ _ _ _ Hj' B2) as Hj2. pose proof (at_fits S E G _ _ _ Hb Hj2) as Hf. pose proof Hj2 as (F1 & F2 & F3). pose proof F2 as (Hjr & E1 & E2 & E3).
    assert (j' = j) as ->. { eapply final_unique; eassumption. }
    pose proof (receiver_runs_seeded _ _ _ Hi1 H2 HF A1 (receiver_seeded _ _ _ _ _ Hc H1 Hp)) as HP. cbv beta iota delta [as_receiver] in Hg.
    eapply call_gets; [|exact Hg|exact Hs]. apply (run_receiver_wp seed); auto. congruence.
  Qed.
  (** The first Run on a new object. *)
  Lemma first_sender_safe st j n ms st' r : created S M st -> final_level E n j ->
    gets (as_sender S E M (Run n) st) ms (st', r) ->
    let inbox := precompute_sender_inbox E M j ++ expansions_inbox E sender_inbox j (expansions n 0 (Z.min n (room E j))) in
    shaped_as ms inbox -> fine alone_ub inbox ms r.
  Proof.
    intros Hc Hj Hg inbox Hs. destruct (created_coh S E M _ Hc) as [seed Hco]. cbv beta iota delta [as_sender] in Hg.
    eapply call_gets; [|exact Hg|exact Hs]. unfold run_sender. rewrite bind_get.
    replace (s_done (v_s st)) with false by (apply created_inv in Hc; destruct Hc as (h & _ & ->); reflexivity). unfold inbox. rewrite <- app_assoc.
    apply wp_mbind. eapply wp_end; [apply precompute_sender_wp; eassumption|]. intros st1 [] l1 (-> & Hn & (P1 & P2 & P3) & P4 & P5).
    assert (Hf : fits S E j st1) by (apply (at_fits S E G n); [exact Hn|split; auto]). pose proof Hf as (_ & Hbt & _).
    unfold get_sender_cached. rewrite P5. replace (0 <? n) with true by lia. cbn [pbind].
    pose proof (sender_loop_wp seed j (Z.to_nat n + 1) n [] [] st1 [] P1 Hf P4) as W. change (zlen (@nil S)) with 0 in W. rewrite Z.sub_0_r, P5, P3 in W. apply W. right. cbn. lia.
  Qed.
  Lemma first_receiver_safe st j n ms st' r : created S M st -> final_level E n j ->
    gets (as_receiver S E M (Run n) st) ms (st', r) ->
    let inbox := precompute_receiver_inbox E M j ++ expansions_inbox E receiver_inbox j (expansions n 0 (Z.min n (room E j))) in
    shaped_as ms inbox -> fine rng_ub inbox ms r.
  Proof.
    intros Hc Hj Hg inbox Hs. destruct (created_coh S E M _ Hc) as [seed Hco]. cbv beta iota delta [as_receiver] in Hg.
    eapply call_gets; [|exact Hg|exact Hs]. unfold run_receiver. rewrite bind_get.
    replace (r_done (v_r st)) with false by (apply created_inv in Hc; destruct Hc as (h & _ & ->); reflexivity). unfold inbox. rewrite <- app_assoc.
    apply wp_mbind. unfold precompute_receiver_random. apply wp_mproc. cbn [wp]. intros x t. cbn [safe].
    eapply wp_end; [apply precompute_receiver_wp; eassumption|]. intros st1 [] l1 (-> & Hn & (P1 & P2 & P3) & P4 & P5).
    assert (Hf : fits S E j st1) by (apply (at_fits S E G n); [exact Hn|split; auto]). pose proof Hf as (_ & Hbt & _).
    unfold get_receiver_cached. rewrite P5. replace (0 <? n) with true by lia. cbn [pbind].
    pose proof (receiver_loop_wp seed j (Z.to_nat n + 1) n (rr_delta (r_cached (v_r st1))) [] st1 [] P1 Hf P4) as W. change (zlen (@nil S)) with 0 in W. rewrite Z.sub_0_r, P5, P3 in W. apply W. right. cbn. lia.
  Qed.
End Vole.

(** ** Sub-protocols *)
Lemma sub_gets {T A} (p : proc T (res A)) inbox ms r (Q : A -> Prop) : wp p inbox (safe [] (fun a l' => l' = [] /\ Q a)) -> gets p ms r -> shaped_as ms inbox ->
  (forall w, r <> UB w) /\ zlen ms <= zlen inbox /\ forall x, r = Ok x -> zlen ms = zlen inbox /\ Q x.
Proof.
  intros H Hg Hs. eapply wp_gets in Hg; [|exact H|exact Hs]. destruct Hg as (l' & HQ & Hl). unfold zlen. split; [|split; [lia|]].
  - intros w ->. exact HQ.
  - intros x ->. cbn in HQ. destruct HQ as [-> HQ]. split; [cbn in Hl; lia|exact HQ].
Qed.
Lemma spfss_index_safe (S : scalar) aes clog (vals : list S) indices outs ms r : (forall o, In o outs -> supported_size clog (zlen o)) ->
  zlen indices = zlen outs -> (forall i, 0 <= i < zlen outs -> valid_index (znth 0 indices i) (zlen (znth [] outs i))) ->
  gets (spfss_index_provider_batched S aes clog vals indices outs) ms r -> shaped_as ms [Blocks 2; Vector (zlen outs)] ->
  (forall w, r <> UB w) /\ zlen ms <= 2 /\ forall x, r = Ok x -> zlen ms = 2 /\ map zlen x = map zlen outs.
Proof. intros H1 H2 H3. apply sub_gets. apply spfss_index_wp; assumption. Qed.
Lemma spfss_value_safe (S : scalar) aes clog K (vals : list S) outs ms r : (forall o, In o outs -> supported_size clog (zlen o)) ->
  gets (spfss_value_provider_batched S aes clog K vals outs) ms r -> (forall w, r <> UB w) /\ ms = [] /\ forall x, r = Ok x -> map zlen x = map zlen outs.
Proof.
  intros H1 Hg. eapply sub_gets in Hg; [|apply (spfss_value_wp S aes clog K vals outs []); exact H1|constructor]. destruct Hg as (A & B & C). split; [exact A|].
  split; [|intros x Hx; now apply C]. destruct ms as [|m ms]; [reflexivity|]. rewrite zlen_cons in B. change (zlen (@nil shape)) with 0 in B. pose proof (zlen_nonneg ms). lia.
Qed.
Lemma gilboa_vector_safe (S : scalar) K (y out : list S) ms r : scalar_laws S -> s_size S <= 16 -> zlen out = zlen y ->
  gets (gilboa_vector_provider S K y out) ms r -> (forall w, r <> UB w) /\ ms = [] /\ forall x, r = Ok x -> zlen x = zlen y.
Proof.
  intros L H1 H2 Hg. eapply sub_gets in Hg; [|apply (vector_wp S L H1 K y out []); exact H2|constructor]. destruct Hg as (A & B & C). split; [exact A|].
  split; [|intros x Hx; now apply C]. destruct ms as [|m ms]; [reflexivity|]. rewrite zlen_cons in B. change (zlen (@nil shape)) with 0 in B. pose proof (zlen_nonneg ms). lia.
Qed.
Lemma gilboa_value_safe (S : scalar) K (x : S) out ms r : scalar_laws S -> s_size S <= 16 -> zlen out < 2^31 - 16 -> transfers (s_size S) (zlen out) < 2^31 ->
  gets (gilboa_value_provider S K x out) ms r -> (forall w, r <> UB w) /\ ms = [] /\ forall y, r = Ok y -> zlen y = zlen out.
Proof.
  intros L H1 H2 H3 Hg. pose proof (sl_size S L) as Hsz. rewrite transfers_eq in H3 by lia. pose proof (pf_pos S L H1) as Hpf.
  eapply sub_gets in Hg; [|apply (value_wp S L H1 K x out []); [lia|exact H3]|constructor]. destruct Hg as (A & B & C). split; [exact A|].
  split; [|intros y Hy; now apply C]. destruct ms as [|m ms]; [reflexivity|]. rewrite zlen_cons in B. change (zlen (@nil shape)) with 0 in B. pose proof (zlen_nonneg ms). lia.
Qed.

(** ** Executions with given messages *)
Fixpoint feed {T R} (x : N) (t : T) (p : proc T R) (ms : list (msg T)) : option R :=
  match p with
  | Ret r => match ms with [] => Some r | _ => None end
  | Send _ k => feed x t k ms
  | Recv k => match ms with m :: ms => feed x t (k m) ms | [] => None end
  | OtRecv _ cs k => feed x t (k (Some (map (fun _ => x) cs))) ms
  | Rand k => feed x t (k x t) ms
  end.
Lemma feed_gets {T R} x t (p : proc T R) : forall ms r, feed x t p ms = Some r -> gets p ms r.
Proof.
  induction p as [a|m k IH|k IH|c cs k IH|k IH]; intros ms r H; cbn [feed] in H.
  - destruct ms; [|discriminate]. injection H as ->. constructor.
  - constructor. auto.
  - destruct ms as [|m ms]; [discriminate|]. econstructor. eauto.
  - econstructor; [|eauto]. now rewrite map_length.
  - econstructor. eauto.
Qed.
Lemma feed_ends {T A} x t (p : proc T (vole A * res (answer A))) ms (f : res (answer A) -> bool) :
  match feed x t p ms with Some (_, r) => f r | None => false end = true -> exists st r, gets p ms (st, r) /\ f r = true.
Proof. intro H. destruct (feed x t p ms) as [[st r]|] eqn:E; [|discriminate]. exists st, r. split; [eapply feed_gets; exact E|exact H]. Qed.
