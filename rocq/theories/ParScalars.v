(** The OpenMP loops over scalars, and the loop of ReceiveTrees. *)
From Verif Require Import Base BaseFacts ListFacts ScalarModel GgmModel GgmSpec GgmFinal RotModel RotSpec RotProofs SpfssModel CuckooModel
  MpfssModel ParModel ParLoops ParSpec ParProofs ParFinal.
Local Open Scope Z_scope.

(** ** ReceiveTrees: no iteration fails *)
Lemma split_like {A B} (CS : list (list A)) : forall l : list B, zlen l = zlen (List.concat CS) ->
  exists OS, l = List.concat OS /\ Forall2 (fun a b => List.length a = List.length b) CS OS.
Proof.
  induction CS as [|c CS IH]; intros l Hl; cbn in Hl.
  - exists []. destruct l; [auto|]. rewrite zlen_cons, zlen_nil in Hl. pose proof (zlen_nonneg l). lia.
  - rewrite zlen_app in Hl. destruct (IH (skipn (List.length c) l)) as (OS & E & HF).
    { unfold zlen in *. rewrite skipn_length. lia. }
    exists (firstn (List.length c) l :: OS). cbn. rewrite <- E, firstn_skipn. split; [reflexivity|]. constructor; [|exact HF].
    rewrite firstn_length. unfold zlen in Hl. lia.
Qed.

Lemma receive_valid aes clog sizes indices choices offsets ot_results keys :
  zlen sizes = zlen indices -> zlen keys = 2 ->
  (forall n, In n sizes -> n = 0 \/ 1 <= n /\ good_size clog n) -> Forall2 index_ok indices sizes ->
  all_choices clog 2 (combine sizes indices) [] [0] = Ok (choices, offsets) -> zlen ot_results = zlen choices ->
  exists trees, collect (map (fun i => receive_tree aes clog 2 choices ot_results offsets keys i (znth 0 sizes i) (znth 0 indices i)) (zrange 0 (zlen sizes))) = Ok trees.
Proof.
  intros Hl Hk Hg Hix Hc Ho. rewrite all_choices_ok in Hc. set (CS := map (fun '(n, i) => rchoices clog n i) (combine sizes indices)) in *.
  cbn [app] in Hc. change (zlen (@nil bool)) with 0 in Hc. injection Hc as <- <-.
  destruct (split_like CS ot_results Ho) as (OS & -> & HF).
  assert (HCS : zlen CS = zlen sizes) by (unfold CS; rewrite zlen_map, zlen_combine; auto).
  destruct (Forall2_znth 0 0 _ _ _ Hix) as [_ Hi]. destruct (Forall2_znth [] [] _ _ _ HF) as [_ Hlen].
  assert (HT : forall i, 0 <= i < zlen sizes -> exists t,
    receive_tree aes clog 2 (List.concat CS) (List.concat OS) (0 :: offsets_from 0 CS) keys i (znth 0 sizes i) (znth 0 indices i) = Ok t).
  { intros i Hi'. specialize (Hi i ltac:(lia)). specialize (Hlen i ltac:(lia)).
    assert (EC : znth [] CS i = rchoices clog (znth 0 sizes i) (znth 0 indices i)).
    { unfold CS. rewrite (znth_map _ (0, 0)) by (rewrite zlen_combine; lia). rewrite znth_combine by lia. reflexivity. }
    rewrite receive_tree_ok; [|lia|exact HF|exact EC]. unfold rtree. rewrite EC in Hlen.
    destruct (Z.eqb_spec (znth 0 sizes i) 0) as [Hz|Hz]; [eauto|].
    destruct (Hg (znth 0 sizes i)) as [?|[Hn [Hn31 Hp]]]; [apply znth_In; lia|contradiction|].
    unfold rchoices in *. replace (znth 0 sizes i =? 0) with false in * by lia.
    destruct (tree_choices_ok clog (znth 0 sizes i) (znth 0 indices i)) as (cs & E & Hcs & _). rewrite E in *.
    destruct (reconstruct_valid_ok aes clog 2 (znth 0 sizes i) (znth 0 indices i) (xtable cs (znth [] OS i)) keys) as (t & Et & _).
    - split; [lia|]. split; [lia|]. destruct Hi as [Hi0 [Hi1|Hi1]]; [lia|]. split; [lia|]. split; [exact Hk|].
      rewrite zlen_xtable by (unfold zlen; lia). rewrite Hcs. split; [|split; [reflexivity|exact Hp]].
      intros r Hr. unfold xtable in Hr. apply in_map_iff in Hr. destruct Hr as ([c x] & <- & _). now destruct c.
    - exact Hn31.
    - rewrite Et. cbn. eauto. }
  assert (HL : forall l, (forall i, In i l -> 0 <= i < zlen sizes) -> exists trees,
    collect (map (fun i => receive_tree aes clog 2 (List.concat CS) (List.concat OS) (0 :: offsets_from 0 CS) keys i (znth 0 sizes i) (znth 0 indices i)) l) = Ok trees).
  { induction l as [|i l IH]; intro H; [cbn; eauto|]. destruct IH as (ts & E); [intros; apply H; now right|].
    destruct (HT i (H i (or_introl eq_refl))) as (t & Et). cbn [map collect]. rewrite E, Et. eauto. }
  apply HL. intros i Hi'. now apply In_zrange in Hi'.
Qed.

Lemma receive_parallel_valid aes clog sizes indices choices offsets ot_results keys tape m parts :
  zlen sizes = zlen indices -> zlen keys = 2 ->
  (forall n, In n sizes -> n = 0 \/ 1 <= n /\ supported_size clog n) ->
  (forall i, 0 <= i < zlen sizes -> valid_index (znth 0 indices i) (znth 0 sizes i)) ->
  all_choices clog 2 (combine sizes indices) [] [0] = Ok (choices, offsets) -> zlen ot_results = zlen choices ->
  (forall i, m (TreeAt i) = TreeIs None) -> m TheStatus = StatusIs None -> parts_of (zlen sizes) parts ->
  every_schedule same_receive (receive_allocated sizes) tape m
    (receive_threads aes clog choices ot_results offsets keys sizes indices parts) (fun m' drawn =>
    m' TheStatus = StatusIs None /\
    exists trees, map (fun i => m' (TreeAt i)) (zrange 0 (zlen sizes)) = map TreeIs trees /\
      collect (map (fun i => receive_tree aes clog 2 choices ot_results offsets keys i (znth 0 sizes i) (znth 0 indices i))
        (zrange 0 (zlen sizes))) = Ok trees).
Proof.
  intros Hl Hk Hs Hi Hc Ho Hm Hst Hparts.
  assert (HF : Forall2 index_ok indices sizes).
  { clear - Hl Hi. revert indices Hl Hi. induction sizes as [|n sizes IH]; intros [|x indices] Hl Hi; rewrite ?zlen_cons, ?zlen_nil in *;
      try (pose proof (zlen_nonneg sizes)); try (pose proof (zlen_nonneg indices)); try lia; constructor.
    - apply (Hi 0). lia.
    - apply IH; [lia|]. intros i Hi'. specialize (Hi (i + 1) ltac:(lia)). rewrite !znth_cons in Hi by lia.
      replace (i + 1 =? 0) with false in Hi by lia. now replace (i + 1 - 1) with i in Hi by lia. }
  destruct (receive_valid aes clog sizes indices choices offsets ot_results keys Hl Hk Hs HF Hc Ho) as (trees & E).
  eapply every_schedule_mono; [|apply (receive_parallel aes clog choices ot_results offsets keys sizes indices tape m parts trees Hm Hst Hparts E)].
  cbn. intros m' d [H1 H2]. split; [exact H1|]. exists trees. split; [exact H2|exact E].
Qed.

(** ** Scalars *)
Section Scalars.
  Variable S : scalar.
  Variable context : option positive.
  Notation zn := (znth (s_zero S)).
  Notation sp spans i := (znth (0, 0) spans i).

  Definition ready (t : Z) (m : cell -> value S) : Prop :=
    match context with None => True | Some p => m (ModulusOf t) = Modulus (Some p) end.
  Definition thread_cell (t : Z) (c : cell) : Prop := c = ModulusOf t.

  Lemma ready_equal t a b : equal_on (thread_cell t) a b -> ready t a -> ready t b.
  Proof. unfold ready, thread_cell. destruct context; auto. intros He <-. symmetry. now apply He. Qed.
  Lemma ready_store t m c v : c <> ModulusOf t -> ready t m -> ready t (store same_cell m c v).
  Proof. unfold ready. destruct context; auto. intros Hc H. now rewrite store_neq. Qed.

  Lemma wp_restore allocated t m : (forall t, allocated (ModulusOf t) = true) ->
    wp same_cell allocated (restore S context t) (fun ds m' => ds = [] /\ ready t m') m.
  Proof. intro Ha. unfold restore, ready. destruct context; cbn; auto. split; [auto|]. split; [reflexivity|]. apply store_eq. Qed.
  Lemma obeys_restore R t : obeys R (thread_cell t) (restore S context t).
  Proof. unfold restore. destruct context; cbn; auto. unfold thread_cell. auto. Qed.
  Lemma wp_compute allocated t k Q m : (forall t, allocated (ModulusOf t) = true) -> ready t m ->
    wp same_cell allocated k Q m -> wp same_cell allocated (compute S context t k) Q m.
  Proof. intros Ha Hr Hk. unfold compute, ready in *. destruct context; auto. cbn. split; [auto|]. rewrite Hr, Pos.eqb_refl. exact Hk. Qed.
  Lemma obeys_compute (R W : cell -> Prop) t k : W (ModulusOf t) -> obeys R W k -> obeys R W (compute S context t k).
  Proof. intros Hw Hk. unfold compute. destruct context; auto. cbn. split; [auto|]. intros [x|[q|]]; cbn; auto. now destruct (_ =? _)%positive. Qed.
  Lemma obeys_get (R W : cell -> Prop) c k : R c \/ W c -> (forall x, obeys R W (k x)) -> obeys R W (get_scalar S c k).
  Proof. intros Hc Hk. cbn. split; [auto|]. intros [x|q]; cbn; auto. Qed.

  (** The elements of span [i]. *)
  Definition owns (spans : list (Z * Z)) (i : Z) (c : cell) : Prop :=
    0 <= i < zlen spans /\ exists k, 0 <= k < snd (sp spans i) /\ c = At (fst (sp spans i) + k).
  Lemma owns_disjoint spans i j c : disjoint_spans spans -> i <> j -> owns spans i c -> ~ owns spans j c.
  Proof.
    intros Hd Hn (Hi & k & Hk & ->) (Hj & k' & Hk' & E). specialize (Hd i j Hi Hj Hn).
    destruct (sp spans i) as [a n], (sp spans j) as [b l]. cbn in *. injection E as E. lia.
  Qed.
  Lemma owns_allocated spans i c : owns spans i c -> spans_allocated spans c = true.
  Proof.
    intros (Hi & k & Hk & ->). cbn. apply existsb_exists. exists (sp spans i). split; [apply znth_In; lia|].
    destruct (sp spans i) as [a n]. cbn in *. lia.
  Qed.
  Definition outside (spans : list (Z * Z)) (c : cell) : Prop :=
    match c with At _ => forall i, ~ owns spans i c | SumOf _ => True | ModulusOf _ => False end.

  Lemma leaves_len ot n : tree_matches ot n -> 0 <= n -> zlen (leaves ot) = n.
  Proof. destruct ot as [t|]; cbn; [|intros ->; reflexivity]. intros [_ <-] Hn. rewrite zlen_map, zlen_zrange; lia. Qed.

  (** What the loops over spans have in common. *)
  Lemma spans_sizes spans (outputs : list (list S)) : map snd spans = map zlen outputs -> zlen spans = zlen outputs /\
    forall i, 0 <= i < zlen spans -> snd (sp spans i) = zlen (znth [] outputs i).
  Proof.
    intro Hsz. assert (Hls : zlen spans = zlen outputs) by (rewrite <- (zlen_map snd), Hsz, zlen_map; reflexivity).
    split; [exact Hls|]. intros i Hi. rewrite <- (znth_map snd (0, 0) 0) by lia. rewrite Hsz. rewrite (znth_map _ []) by lia. reflexivity.
  Qed.

  (** ** The outputs of AllButOneRandomOT *)
  Lemma unpack_parallel trees spans outputs tape m parts :
    disjoint_spans spans -> spans_contain m spans outputs -> Forall2 tree_matches trees (map zlen outputs) -> parts_of (zlen spans) parts ->
    every_schedule same_cell (spans_allocated spans) tape m (unpack_threads S context trees spans parts) (fun m' drawn =>
      (exists r, unpack_all S trees outputs = Ok r /\ spans_contain m' spans r) /\
      (forall a, outside_spans spans a -> m' (At a) = m (At a))).
  Proof.
    intros Hd [Hsz Hin] HF Hparts.
    destruct (spans_sizes _ _ Hsz) as [Hls Hsnd].
    destruct (Forall2_znth None 0 _ _ _ HF) as [Hlt Hm]. rewrite zlen_map in Hlt.
    assert (Hleaf : forall i, 0 <= i < zlen spans -> tree_matches (znth None trees i) (snd (sp spans i)) /\ 0 <= snd (sp spans i) /\
      zlen (leaves (znth None trees i)) = snd (sp spans i)).
    { intros i Hi. specialize (Hm i ltac:(lia)). rewrite (znth_map _ []) in Hm by lia. rewrite <- Hsnd in Hm by lia.
      split; [exact Hm|]. assert (H0 : 0 <= snd (sp spans i)) by (rewrite Hsnd by lia; apply zlen_nonneg). split; [exact H0|]. now apply leaves_len. }
    clear Hm.
    eapply every_schedule_mono; [|apply (independent_loop same_cell _ (owns spans) thread_cell (outside spans) m (zlen spans) (restore S context)
      (unpack_iteration S context trees spans) ready (fun i m => forall k, 0 <= k < snd (sp spans i) ->
        m (At (fst (sp spans i) + k)) = Scalar (zn (map (s_of128 S) (leaves (znth None trees i))) k)) tape parts)].
    - cbn. intros m' d (_ & Hpost & He). split.
      + eexists. split; [apply (unpack_all_ok S (fun _ _ => O)); exact HF|]. split.
        * apply (znth_ext 0); [rewrite !zlen_map; lia|]. intros i Hi. rewrite zlen_map in Hi.
          rewrite (znth_map _ (0, 0)) by lia. rewrite (znth_map _ []) by (rewrite zlen_map; lia). rewrite (znth_map _ None) by lia. rewrite zlen_map.
          symmetry. apply Hleaf. lia.
        * rewrite zlen_map. intros i k Hi Hk. rewrite (znth_map _ None) in * by lia. rewrite zlen_map in Hk.
          destruct (Hleaf i ltac:(lia)) as (_ & _ & E). apply Hpost; lia.
      + intros a Ha. symmetry. apply He. cbn. intros i (Hi & k & Hk & E). injection E as ->. specialize (Ha i Hi). destruct (sp spans i). cbn in *. lia.
    - constructor.
      + intros i j c. now apply owns_disjoint.
      + unfold thread_cell. intros t t' c Hn -> E. congruence.
      + unfold thread_cell. intros i t c (Hi & k & Hk & ->). discriminate.
      + unfold thread_cell. intros [a|j|t] Hc; cbn in Hc; try contradiction; (split; [|discriminate]); auto. intros i (_ & k & _ & E). discriminate.
      + intro t. apply obeys_restore.
      + intros t m'. now apply wp_restore.
      + intros t i Hi. unfold unpack_iteration. rewrite (zget_ok (0, 0)), (zget_ok None) by lia. destruct (Hleaf i Hi) as (Ht & _ & _).
        destruct (Z.eqb_spec (snd (sp spans i)) 0) as [Hz|Hz]; [destruct (znth None trees i); cbn; auto|].
        destruct (znth None trees i) as [tr|]; [|contradiction]. destruct Ht as [Hh Hn]. apply obeys_for. intros k Hk.
        rewrite (proj1 (get_leaf_exact tr k Hh) ltac:(lia)). apply obeys_compute; [left; reflexivity|].
        unfold in_span. replace ((0 <=? k) && (k <? snd (sp spans i))) with true by lia. cbn. split; [|auto]. right. split; [lia|]. exists k. split; [lia|reflexivity].
      + apply ready_equal.
      + intros i a b Hi He Hp k Hk. rewrite <- He; [auto|]. split; [lia|]. eauto.
      + intros t i m' Hi Hr He. unfold unpack_iteration. rewrite (zget_ok (0, 0)), (zget_ok None) by lia. destruct (Hleaf i Hi) as (Ht & Hn0 & _).
        destruct (Z.eqb_spec (snd (sp spans i)) 0) as [Hz|Hz].
        { destruct (znth None trees i); cbn; (split; [reflexivity|]); (split; [|exact Hr]); intros; lia. }
        destruct (znth None trees i) as [tr|]; [|contradiction]. destruct Ht as [Hh Hn]. unfold unpack_thread.
        eapply wp_mono; [|apply (wp_for _ _ _ (fun k m => ready t m /\ forall j, 0 <= j < k ->
          m (At (fst (sp spans i) + j)) = Scalar (s_of128 S (leaf tr j))) 0 (num_leaves tr) ltac:(lia))].
        * cbn. intros ds m1 (-> & Hr1 & H1). split; [reflexivity|]. split; [|exact Hr1]. intros k Hk.
          cbn [leaves]. rewrite map_map. rewrite (znth_map _ 0) by (rewrite zlen_zrange; lia). rewrite znth_zrange by lia. apply H1. lia.
        * split; [exact Hr|]. intros; lia.
        * intros k m1 Hk [Hr1 H1]. rewrite (proj1 (get_leaf_exact tr k Hh) ltac:(lia)). apply wp_compute; [reflexivity|exact Hr1|].
          unfold in_span. replace ((0 <=? k) && (k <? snd (sp spans i))) with true by lia. cbn [wp]. split.
          { apply owns_allocated with (i := i). split; [lia|]. exists k. split; [lia|reflexivity]. }
          split; [reflexivity|]. split; [apply ready_store; [discriminate|exact Hr1]|]. intros j Hj.
          destruct (Z.eq_dec j k) as [->|Hjk]; [apply store_eq|]. rewrite store_neq; [apply H1; lia|]. intro E. injection E as E. lia.
    - apply zlen_nonneg.
    - exact Hparts.
  Qed.

  (** ** The sums of SPFSSKnownIndex *)
  Lemma provider_sum_snoc v l x : provider_sum S v (l ++ [x]) = (s_add S (fst (provider_sum S v l)) x, snd (provider_sum S v l) ++ [s_opp S x]).
  Proof. unfold provider_sum. rewrite fold_left_app. cbn. now destruct (fold_left _ l _). Qed.
  Lemma provider_sum_outputs v l : snd (provider_sum S v l) = map (s_opp S) l.
  Proof. induction l as [|x l IH] using rev_ind; [reflexivity|]. rewrite provider_sum_snoc, map_app. cbn. now rewrite IH. Qed.

  Definition owns_sum (spans : list (Z * Z)) (i : Z) (c : cell) : Prop := owns spans i c \/ c = SumOf i.

  Lemma provider_parallel val_shares spans outputs tape m parts :
    disjoint_spans spans -> spans_contain m spans outputs -> zlen val_shares = zlen spans -> sums_contain m val_shares -> parts_of (zlen spans) parts ->
    every_schedule same_cell (spans_allocated spans) tape m (provider_threads S context spans parts) (fun m' drawn =>
      let r := map (fun '(v, o) => provider_sum S v o) (combine val_shares outputs) in
      sums_contain m' (map fst r) /\ spans_contain m' spans (map snd r) /\
      (forall a, outside_spans spans a -> m' (At a) = m (At a))).
  Proof.
    intros Hd [Hsz Hin] Hlv Hsum Hparts. destruct (spans_sizes _ _ Hsz) as [Hls Hsnd].
    eapply every_schedule_mono; [|apply (independent_loop same_cell _ (owns_sum spans) thread_cell
      (fun c => match c with At _ => forall i, ~ owns spans i c | _ => False end) m (zlen spans) (restore S context)
      (provider_iteration S context spans) ready (fun i m => m (SumOf i) = Scalar (fst (provider_sum S (zn val_shares i) (znth [] outputs i))) /\
        forall k, 0 <= k < snd (sp spans i) -> m (At (fst (sp spans i) + k)) = Scalar (s_opp S (zn (znth [] outputs i) k))) tape parts)].
    - cbn. intros m' d (_ & Hpost & He).
      assert (Hr : forall i, 0 <= i < zlen spans -> znth (s_zero S, []) (map (fun '(v, o) => provider_sum S v o) (combine val_shares outputs)) i =
        provider_sum S (zn val_shares i) (znth [] outputs i)).
      { intros i Hi. rewrite (znth_map _ (s_zero S, [])) by (rewrite zlen_combine; lia). now rewrite znth_combine by lia. }
      assert (Hlr : zlen (map (fun '(v, o) => provider_sum S v o) (combine val_shares outputs)) = zlen spans) by (rewrite zlen_map, zlen_combine; lia).
      split; [|split; [split|]].
      + intros i Hi. rewrite zlen_map in Hi. rewrite (znth_map _ (s_zero S, [])) by lia. rewrite Hr by lia. apply Hpost. lia.
      + apply (znth_ext 0); [rewrite !zlen_map in *; lia|]. intros i Hi. rewrite zlen_map in Hi.
        rewrite (znth_map _ (0, 0)) by lia. rewrite (znth_map _ []) by (rewrite zlen_map; lia). rewrite (znth_map _ (s_zero S, [])) by lia.
        rewrite Hr by lia. rewrite provider_sum_outputs, zlen_map. now apply Hsnd.
      + intros i k Hi Hk. rewrite zlen_map in Hi. rewrite (znth_map _ (s_zero S, [])) in * by lia. rewrite Hr in * by lia.
        rewrite provider_sum_outputs in *. rewrite zlen_map in Hk. rewrite (znth_map _ (s_zero S)) by lia. apply Hpost; [lia|]. rewrite Hsnd; lia.
      + intros a Ha. symmetry. apply He. cbn. intros i (Hi & k & Hk & E). injection E as ->. specialize (Ha i Hi). destruct (sp spans i). cbn in *. lia.
    - constructor.
      + intros i j c Hn [H1| ->] [H2|H2].
        * now apply (owns_disjoint spans i j c).
        * destruct H1 as (_ & k & _ & ->). discriminate.
        * destruct H2 as (_ & k & _ & E). discriminate.
        * congruence.
      + unfold thread_cell. intros t t' c Hn -> E. congruence.
      + unfold thread_cell. intros i t c [(Hi & k & Hk & ->)| ->]; discriminate.
      + unfold thread_cell. intros [a|j|t] Hc; cbn in Hc; try contradiction; (split; [|discriminate]). intros i [H|E]; [now apply (Hc i)|discriminate].
      + intro t. apply obeys_restore.
      + intros t m'. now apply wp_restore.
      + intros t i Hi. unfold provider_iteration. rewrite (zget_ok (0, 0)) by lia. apply obeys_for. intros k Hk.
        unfold in_span. replace ((0 <=? k) && (k <? snd (sp spans i))) with true by lia. apply obeys_compute; [left; reflexivity|].
        assert (Ho : owns spans i (At (fst (sp spans i) + k))) by (split; [lia|]; eauto).
        unfold owns_sum. apply obeys_get; [auto|]. intro x. apply obeys_get; [auto|]. intro y. cbn. split; [auto|].
        split; [auto|]. intros [z|q]; cbn; auto.
      + apply ready_equal.
      + intros i a b Hi He [Hp1 Hp2]. split.
        * rewrite <- He; [exact Hp1|]. now right.
        * intros k Hk. rewrite <- He; [auto|]. left. split; [lia|]. eauto.
      + intros t i m' Hi Hr He. unfold provider_iteration. rewrite (zget_ok (0, 0)) by lia.
        set (out := znth [] outputs i). assert (Hout : snd (sp spans i) = zlen out) by (unfold out; auto). rewrite Hout.
        eapply wp_mono; [|apply (wp_for _ _ _ (fun k m => ready t m /\ m (SumOf i) = Scalar (fst (provider_sum S (zn val_shares i) (firstn (Z.to_nat k) out))) /\
          (forall j, 0 <= j < k -> m (At (fst (sp spans i) + j)) = Scalar (s_opp S (zn out j))) /\
          (forall j, k <= j < zlen out -> m (At (fst (sp spans i) + j)) = Scalar (zn out j))) 0 (zlen out) (zlen_nonneg out))].
        * cbn. intros ds m1 (-> & Hr1 & H1 & H2 & _). split; [reflexivity|]. split; [|exact Hr1]. split.
          -- rewrite H1. now rewrite firstn_all2 by (unfold zlen; lia).
          -- intros k Hk. apply H2. lia.
        * split; [exact Hr|]. split; [|split].
          -- cbn. rewrite <- He; [|right; now right]. apply Hsum. lia.
          -- intros; lia.
          -- intros j Hj. rewrite <- He; [apply Hin; unfold out in *; lia|]. right. left. split; [lia|]. exists j. split; [lia|reflexivity].
        * intros k m1 Hk (Hr1 & H1 & H2 & H3). unfold in_span. rewrite Hout. replace ((0 <=? k) && (k <? zlen out)) with true by lia.
          assert (Ha : spans_allocated spans (At (fst (sp spans i) + k)) = true).
          { apply owns_allocated with (i := i). split; [lia|]. exists k. split; [lia|reflexivity]. }
          assert (Hs : spans_allocated spans (SumOf i) = true) by (cbn; lia).
          apply wp_compute; [reflexivity|exact Hr1|]. unfold get_scalar. cbn [wp].
          split; [exact Hs|]. rewrite H1. cbn [wp]. split; [exact Ha|]. rewrite (H3 k) by lia. cbn [wp]. split; [exact Hs|].
          split; [exact Ha|]. rewrite store_neq by discriminate. rewrite (H3 k) by lia. cbn [wp]. split; [exact Ha|]. split; [reflexivity|].
          split; [apply ready_store; [discriminate|]; apply ready_store; [discriminate|exact Hr1]|]. split; [|split].
          -- rewrite store_neq by discriminate. rewrite store_eq. rewrite (firstn_succ (s_zero S)) by lia. now rewrite provider_sum_snoc.
          -- intros j Hj. destruct (Z.eq_dec j k) as [->|Hjk]; [apply store_eq|]. rewrite store_neq by (intro E; injection E as E; lia).
             rewrite store_neq by discriminate. apply H2. lia.
          -- intros j Hj. rewrite store_neq by (intro E; injection E as E; lia). rewrite store_neq by discriminate. apply H3. lia.
    - apply zlen_nonneg.
    - exact Hparts.
  Qed.

  Lemma index_parallel val_shares indices spans outputs tape m parts :
    spans_contain m spans outputs -> zlen val_shares = zlen spans -> zlen indices = zlen spans -> sums_contain m val_shares -> parts_of (zlen spans) parts ->
    every_schedule same_cell (spans_allocated spans) tape m (index_threads S context indices spans parts) (fun m' drawn =>
      (exists r, rmapM (fun j => index_sum S (zn val_shares j) (znth 0 indices j) (znth [] outputs j)) (zrange 0 (zlen outputs)) = Ok r /\ sums_contain m' r) /\
      (forall a, m' (At a) = m (At a))).
  Proof.
    intros [Hsz Hin] Hlv Hli Hsum Hparts. destruct (spans_sizes _ _ Hsz) as [Hls Hsnd].
    assert (Hok : forall j, exists s, index_sum S (zn val_shares j) (znth 0 indices j) (znth [] outputs j) = Ok s).
    { intro j. unfold index_sum. destruct (for_range_inv (fun _ (_ : S) => True) 0 (zlen (znth [] outputs j))
        (fun i sum => if i =? znth 0 indices j then Ok sum else let! x := zget (znth [] outputs j) i in Ok (s_sub S sum x)) (zn val_shares j)) as (s & E & _);
        [apply zlen_nonneg|exact I| |eauto].
      intros i s Hi _. destruct (i =? znth 0 indices j); [eauto|]. rewrite (zget_ok (s_zero S)) by lia. cbn. eauto. }
    set (total := fun j => match index_sum S (zn val_shares j) (znth 0 indices j) (znth [] outputs j) with Ok s => s | _ => s_zero S end).
    assert (Htot : forall j, index_sum S (zn val_shares j) (znth 0 indices j) (znth [] outputs j) = Ok (total j)).
    { intro j. unfold total. destruct (Hok j) as [s ->]. reflexivity. }
    eapply every_schedule_mono; [|apply (independent_loop same_cell _ (fun i c => c = SumOf i) thread_cell
      (fun c => match c with At _ => True | _ => False end) m (zlen spans) (restore S context)
      (index_iteration S context indices spans) ready (fun i m => m (SumOf i) = Scalar (total i)) tape parts)].
    - cbn. intros m' d (_ & Hpost & He). split.
      + eexists. split; [apply rmapM_ok; intros; apply Htot|]. intros j Hj. rewrite zlen_map, zlen_zrange in Hj by apply zlen_nonneg.
        rewrite (znth_map _ 0) by (rewrite zlen_zrange; lia). rewrite znth_zrange by lia. apply Hpost. lia.
      + intro a. symmetry. now apply He.
    - constructor.
      + intros i j c Hn -> E. congruence.
      + unfold thread_cell. intros t t' c Hn -> E. congruence.
      + unfold thread_cell. intros i t c ->; discriminate.
      + unfold thread_cell. intros [a|j|t] Hc; cbn in Hc; try contradiction; (split; discriminate).
      + intro t. apply obeys_restore.
      + intros t m'. now apply wp_restore.
      + intros t i Hi. unfold index_iteration. rewrite (zget_ok (0, 0)), (zget_ok 0) by lia. apply obeys_for. intros k Hk.
        destruct (k =? znth 0 indices i); [cbn; auto|].
        unfold in_span. replace ((0 <=? k) && (k <? snd (sp spans i))) with true by lia. apply obeys_compute; [left; reflexivity|].
        apply obeys_get; [auto|]. intro x. apply obeys_get; [auto|]. intro y. cbn. auto.
      + apply ready_equal.
      + intros i a b Hi He Hp. now rewrite <- He.
      + intros t i m' Hi Hr He. unfold index_iteration. rewrite (zget_ok (0, 0)), (zget_ok 0) by lia.
        set (out := znth [] outputs i) in *. assert (Hout : snd (sp spans i) = zlen out) by (unfold out; auto). rewrite Hout.
        set (body := fun k sum => if k =? znth 0 indices i then Ok sum else let! x := zget out k in Ok (s_sub S sum x)).
        assert (Hm : forall j, 0 <= j < zlen out -> m (At (fst (sp spans i) + j)) = Scalar (zn out j)) by (intros; apply Hin; unfold out in *; lia).
        eapply wp_mono; [|apply (wp_for _ _ _ (fun k m1 => ready t m1 /\ (forall a, m1 (At a) = m (At a)) /\
          exists s, for_range 0 k body (zn val_shares i) = Ok s /\ m1 (SumOf i) = Scalar s) 0 (zlen out) (zlen_nonneg out))].
        * cbn. intros ds m1 (-> & Hr1 & _ & s & E & H1). split; [reflexivity|]. split; [|exact Hr1]. rewrite H1. f_equal.
          specialize (Htot i). unfold index_sum in Htot. change (for_range 0 (zlen out) body (zn val_shares i) = Ok (total i)) in Htot. congruence.
        * split; [exact Hr|]. split; [intro a; symmetry; apply He; now left|]. exists (zn val_shares i). split; [now apply for_range_empty|].
          rewrite <- He; [|now right]. apply Hsum. lia.
        * intros k m1 Hk (Hr1 & Hm1 & s & E & H1). rewrite for_range_last by lia. rewrite E. cbn [rbind]. unfold body at 1.
          destruct (k =? znth 0 indices i) eqn:Ek; [cbn [wp]; split; [reflexivity|]; split; [exact Hr1|]; split; [exact Hm1|]; eauto|].
          unfold in_span. rewrite Hout. replace ((0 <=? k) && (k <? zlen out)) with true by lia.
          assert (Ha : spans_allocated spans (At (fst (sp spans i) + k)) = true).
          { apply owns_allocated with (i := i). split; [lia|]. exists k. split; [lia|reflexivity]. }
          assert (Hs : spans_allocated spans (SumOf i) = true) by (cbn; lia).
          apply wp_compute; [reflexivity|exact Hr1|]. unfold get_scalar. cbn [wp].
          split; [exact Hs|]. rewrite H1. cbn [wp]. split; [exact Ha|]. rewrite Hm1, Hm by lia. cbn [wp]. split; [exact Hs|].
          split; [reflexivity|]. split; [apply ready_store; [discriminate|exact Hr1]|]. split; [intro a; rewrite store_neq by discriminate; apply Hm1|].
          exists (s_sub S s (zn out k)). rewrite store_eq. split; [|reflexivity].
          rewrite (zget_ok (s_zero S)) by lia. reflexivity.
    - apply zlen_nonneg.
    - exact Hparts.
  Qed.

  (** ** The indices in the buckets *)
  Definition search_ready (t : Z) (m : search_cell -> search_value S) : Prop :=
    match context with None => True | Some p => m (SearchModulus t) = SearchContext (Some p) end.
  Lemma search_ready_store t m c v : c <> SearchModulus t -> search_ready t m -> search_ready t (store same_search m c v).
  Proof. unfold search_ready. destruct context; auto. intros Hc H. now rewrite store_neq. Qed.
  Lemma wp_search_restore allocated t m : (forall t, allocated (SearchModulus t) = true) ->
    wp same_search allocated (search_restore S context t) (fun ds m' => ds = [] /\ search_ready t m' /\ forall c, c <> SearchModulus t -> m' c = m c) m.
  Proof.
    intro Ha. unfold search_restore, search_ready. destruct context; cbn; auto. split; [auto|]. split; [reflexivity|]. split; [apply store_eq|].
    intros c Hc. now rewrite store_neq by congruence.
  Qed.
  Lemma wp_search_compute allocated t k Q m : (forall t, allocated (SearchModulus t) = true) -> search_ready t m ->
    wp same_search allocated k Q m -> wp same_search allocated (search_compute S context t k) Q m.
  Proof. intros Ha Hr Hk. unfold search_compute, search_ready in *. destruct context; auto. cbn. split; [auto|]. rewrite Hr, Pos.eqb_refl. exact Hk. Qed.
  Lemma obeys_search_compute (R W : search_cell -> Prop) t k : W (SearchModulus t) -> obeys R W k -> obeys R W (search_compute S context t k).
  Proof. intros Hw Hk. unfold search_compute. destruct context; auto. cbn. split; [auto|]. intros [x|x y|x|[q|]]; cbn; auto. now destruct (_ =? _)%positive. Qed.
  Lemma obeys_search_restore (R W : search_cell -> Prop) t : W (SearchModulus t) -> obeys R W (search_restore S context t).
  Proof. intro Hw. unfold search_restore. destruct context; cbn; auto. Qed.

  Lemma search_parallel buckets hashed_inputs indices tape (m : search_cell -> search_value S) parts ixs null :
    (forall i, m (OutputOf i) = Vector [] /\ m (SpanOf i) = Span null 0 /\ m (IndexOf i) = Index 0) -> parts_of (zlen buckets) parts ->
    rmapM (index_in_bucket buckets hashed_inputs indices) (zrange 0 (zlen buckets)) = Ok ixs ->
    every_schedule same_search (search_allocated (zlen buckets)) tape m (search_threads S context buckets hashed_inputs indices parts) (fun m' drawn =>
      forall i, 0 <= i < zlen buckets ->
        m' (OutputOf i) = Vector (zrepeat (s_zero S) (zlen (znth [] buckets i))) /\
        (zlen (znth [] buckets i) = 0 /\ m' (SpanOf i) = Span null 0 \/ m' (SpanOf i) = Span i (zlen (znth [] buckets i))) /\
        m' (IndexOf i) = Index (znth 0 ixs i)).
  Proof.
    intros Hm Hparts Hix.
    assert (HF : Forall2 (fun i k => index_in_bucket buckets hashed_inputs indices i = Ok k) (zrange 0 (zlen buckets)) ixs).
    { revert ixs Hix. induction (zrange 0 (zlen buckets)) as [|i l IH]; cbn; intros ixs Hix; [injection Hix as <-; constructor|].
      destruct (index_in_bucket buckets hashed_inputs indices i) eqn:E; try discriminate. cbn in Hix.
      destruct (rmapM _ l) eqn:El; try discriminate. injection Hix as <-. constructor; auto. }
    destruct (forall2_range 0 _ _ _ (zlen_nonneg buckets) HF) as [_ Hf]. clear HF Hix.
    eapply every_schedule_mono; [|apply (independent_loop same_search _ (fun i c => c = OutputOf i \/ c = SpanOf i \/ c = IndexOf i) (fun t c => c = SearchModulus t)
      (fun _ => False) m (zlen buckets) (search_restore S context) (search_iteration S context buckets hashed_inputs indices) search_ready
      (fun i m' => m' (OutputOf i) = Vector (zrepeat (s_zero S) (zlen (znth [] buckets i))) /\
        (zlen (znth [] buckets i) = 0 /\ m' (SpanOf i) = Span null 0 \/ m' (SpanOf i) = Span i (zlen (znth [] buckets i))) /\
        m' (IndexOf i) = Index (znth 0 ixs i)) tape parts)].
    - cbn. intros m' d (_ & Hpost & _). exact Hpost.
    - constructor.
      + intros i j c Hn Hi Hj. intuition congruence.
      + intros t t' c Hn -> E. congruence.
      + intros i t c Hi ->. intuition discriminate.
      + tauto.
      + intro t. apply obeys_search_restore. reflexivity.
      + intros t m'. eapply wp_mono; [|apply wp_search_restore; reflexivity]. cbn. intuition.
      + intros t i Hi. apply obeys_then; [apply obeys_search_restore; now left|]. rewrite (zget_ok []) by lia.
        specialize (Hf i Hi). unfold index_in_bucket in Hf. rewrite (zget_ok []) in Hf by lia. cbn [rbind] in Hf.
        destruct (zlen (znth [] buckets i) =? 0); [cbn; auto|]. apply obeys_search_compute; [now left|]. cbn.
        split; [auto|]. split; [auto|]. destruct (zget hashed_inputs i) as [k|?|?]; cbn; auto.
        destruct (k =? -1); cbn; auto. destruct (zget indices k); cbn; auto.
      + intros t a b He. unfold search_ready. destruct context; auto. intro Ha. rewrite <- He; auto.
      + intros i a b Hi He (H1 & H2 & H3). rewrite <- !He by auto. auto.
      + intros t i m' Hi Hr He. apply wp_then. eapply wp_mono; [|apply wp_search_restore; reflexivity].
        cbn. intros ds m1 (-> & Hr1 & H1). cbn [app]. rewrite (zget_ok []) by lia.
        specialize (Hf i Hi). unfold index_in_bucket in Hf. rewrite (zget_ok []) in Hf by lia. cbn [rbind] in Hf.
        assert (Hm1 : m1 (OutputOf i) = Vector [] /\ m1 (SpanOf i) = Span null 0 /\ m1 (IndexOf i) = Index 0).
        { rewrite !H1 by discriminate. rewrite <- !He by auto. apply Hm. }
        destruct Hm1 as (Ho & Hs & Hx). assert (Hb : (0 <=? i) && (i <? zlen buckets) = true) by lia.
        destruct (Z.eqb_spec (zlen (znth [] buckets i)) 0) as [Hz|Hz].
        { cbn. split; [reflexivity|]. split; [|exact Hr1]. rewrite Hz. split; [exact Ho|]. split; [auto|]. rewrite Hx. congruence. }
        apply wp_search_compute; [reflexivity|exact Hr1|]. cbn [wp search_allocated]. split; [exact Hb|]. split; [exact Hb|].
        assert (Hr2 : search_ready t (store same_search (store same_search m1 (OutputOf i) (Vector (zrepeat (s_zero S) (zlen (znth [] buckets i))))) (SpanOf i) (Span i (zlen (znth [] buckets i))))).
        { apply search_ready_store; [discriminate|]. apply search_ready_store; [discriminate|exact Hr1]. }
        destruct (zget hashed_inputs i) as [k|?|?]; try discriminate. cbn [rbind] in Hf.
        destruct (k =? -1).
        { cbn [wp]. split; [reflexivity|]. split; [|exact Hr2]. split; [|split].
          - rewrite store_neq by discriminate. apply store_eq.
          - right. apply store_eq.
          - rewrite !store_neq by discriminate. rewrite Hx. congruence. }
        destruct (zget indices k) as [x|?|?]; try discriminate. cbn [rbind] in Hf. cbn [wp search_allocated]. split; [exact Hb|].
        split; [reflexivity|]. split; [|apply search_ready_store; [discriminate|exact Hr2]]. split; [|split].
        * do 2 rewrite store_neq by discriminate. apply store_eq.
        * right. rewrite store_neq by discriminate. apply store_eq.
        * rewrite store_eq. congruence.
    - apply zlen_nonneg.
    - exact Hparts.
  Qed.
End Scalars.
