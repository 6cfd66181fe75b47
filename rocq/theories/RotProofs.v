(** Proofs about all-but-one random OT. *)
From Verif Require Import Base BaseFacts ListFacts ScalarModel GgmModel GgmSpec GgmFinal GgmProofs3
  ProcModel ProcSpec ProcProofs RotModel.
From Coq Require Import QArith.
Local Open Scope Z_scope.

Definition chosen (cs : list bool) (ps : list (N * N)) : list N :=
  map (fun '(c, (x0, x1)) => if c : bool then x1 else x0) (combine cs ps).
Definition xtable (cs : list bool) (os : list N) : list (list N) :=
  map (fun '(c, x) => if c : bool then [0%N; x] else [x; 0%N]) (combine cs os).

Lemma zlen_chosen cs ps : zlen cs = zlen ps -> zlen (chosen cs ps) = zlen cs.
Proof. intro H. unfold chosen. rewrite zlen_map. now apply zlen_combine. Qed.
Lemma znth_chosen cs ps i : zlen cs = zlen ps -> 0 <= i < zlen cs ->
  znth 0%N (chosen cs ps) i = if znth false cs i then snd (znth (0%N, 0%N) ps i) else fst (znth (0%N, 0%N) ps i).
Proof.
  intros H Hi. unfold chosen. rewrite (znth_map _ (false, (0%N, 0%N))) by (rewrite zlen_combine; auto).
  rewrite znth_combine by auto. destruct (znth (0%N, 0%N) ps i), (znth false cs i); reflexivity.
Qed.
Lemma zlen_xtable cs os : zlen cs = zlen os -> zlen (xtable cs os) = zlen cs.
Proof. intro H. unfold xtable. rewrite zlen_map. now apply zlen_combine. Qed.
Lemma znth_xtable cs os i : zlen cs = zlen os -> 0 <= i < zlen cs ->
  znth [] (xtable cs os) i = if znth false cs i then [0%N; znth 0%N os i] else [znth 0%N os i; 0%N].
Proof.
  intros H Hi. unfold xtable. rewrite (znth_map _ (false, 0%N)) by (rewrite zlen_combine; auto).
  now rewrite znth_combine by auto.
Qed.

Lemma concat_chosen (CS : list (list bool)) (PS : list (list (N * N))) :
  Forall2 (fun a b => List.length a = List.length b) CS PS ->
  chosen (List.concat CS) (List.concat PS) = List.concat (map (fun '(c, p) => chosen c p) (combine CS PS)).
Proof.
  intro H. unfold chosen at 1. rewrite concat_combine by auto. clear H.
  induction (combine CS PS) as [|[c p] l IH]; cbn; auto. rewrite map_app. now rewrite IH.
Qed.

Section P.
  Variable S : scalar.
  Variable aes : N -> N -> N.
  Variable clog : Z -> Z -> nat.

  (** A tree size the implementation can handle. *)
  Definition good_size (n : Z) : Prop := n <= 2^31 /\ n <= 2 ^ Z.of_nat (clog 2 n).

  Definition stree (keys : list N) (n : Z) (seed : N) : option tree :=
    if n =? 0 then None else
    match ggm_create aes clog n seed keys with Ok t => Some t | _ => None end.
  Definition spairs (ot : option tree) : list (N * N) :=
    match ot with
    | None => []
    | Some t => match tree_ot_pairs t with Ok p => p | _ => [] end
    end.
  Definition rchoices (n index : Z) : list bool :=
    if n =? 0 then [] else
    match tree_choices clog 2 n index with Ok c => c | _ => [] end.
  Definition leaf (t : tree) (j : Z) : N := node t (height t - 1) j.
  Definition leaves (ot : option tree) : list N :=
    match ot with None => [] | Some t => map (leaf t) (zrange 0 (num_leaves t)) end.

  Lemma tree_choices_ok n index : exists cs, tree_choices clog 2 n index = Ok cs /\
    zlen cs = Z.of_nat (clog 2 n) /\
    forall p, 0 <= p < Z.of_nat (clog 2 n) ->
      znth false cs p = negb (Z.testbit index (Z.of_nat (clog 2 n) - 1 - p)).
  Proof.
    unfold tree_choices. set (h := Z.of_nat (clog 2 n)).
    replace (1 + h - 1) with h by lia.
    destruct (for_range_inv (fun j cs => zlen cs = h /\ forall p, h - j <= p < h -> znth false cs p = negb (Z.testbit index (h - 1 - p)))
      0 h (fun j choices => zset choices (1 + h - 2 - j) (negb (Z.testbit index j))) (zrepeat false h)) as (cs & E & H1 & H2).
    - lia.
    - split; [apply zlen_zrepeat; lia|]. intros; lia.
    - intros j cs Hj (H1 & H2). rewrite zset_ok by lia. eexists. split; [reflexivity|].
      rewrite zlen_list_set. split; [auto|]. intros p Hp. rewrite znth_list_set by lia.
      destruct (Z.eqb_spec (1 + h - 2 - j) p); [do 2 f_equal; lia|apply H2; lia].
    - exists cs. split; [exact E|]. split; [exact H1|]. intros p Hp. apply H2. lia.
  Qed.

  Lemma well_shaped_leaves t a n : well_shaped t a n -> num_leaves t = n.
  Proof.
    intros (H1 & _ & H2 & _). unfold num_leaves, width, height in *. rewrite <- H2. f_equal.
    destruct (t_levels t) as [|x l] using rev_ind; [rewrite zlen_nil in H1; lia|].
    rewrite last_last, zlen_app, zlen_cons, zlen_nil. rewrite znth_app by (pose proof (zlen_nonneg l); lia).
    replace (zlen l + (0 + 1) - 1 <? zlen l) with false by lia.
    replace (zlen l + (0 + 1) - 1 - zlen l) with 0 by lia. now rewrite znth_cons by lia.
  Qed.

  Lemma tree_pairs_ok t xs : get_sibling_wise_xor t = Ok xs -> t_arity t = 2 -> zlen xs = num_levels t - 1 ->
    (forall l, 0 <= l < zlen xs -> zlen (znth [] xs l) = 2) ->
    tree_ot_pairs t = Ok (map (fun j => (znth 0%N (znth [] xs j) 0, znth 0%N (znth [] xs j) 1)) (zrange 0 (zlen xs))).
  Proof.
    intros E Ha Hl Hr. unfold tree_ot_pairs. rewrite E. cbn [rbind]. rewrite <- Hl.
    apply rmapM_ok. intros j Hj. apply In_zrange in Hj. rewrite (zget_ok []) by lia. cbn [rbind].
    specialize (Hr j Hj). rewrite !(zget_ok 0%N) by lia. reflexivity.
  Qed.

  Lemma per_tree keys n seed idx : zlen keys = 2 -> 1 <= n -> good_size n -> 0 <= idx < n ->
    exists t ps r, ggm_create aes clog n seed keys = Ok t /\ tree_ot_pairs t = Ok ps /\
      zlen ps = zlen (rchoices n idx) /\ num_leaves t = n /\ 1 <= height t /\
      well_shaped t 2 n /\ is_ggm_tree aes seed keys t /\
      ggm_reconstruct aes clog 2 n idx (xtable (rchoices n idx) (chosen (rchoices n idx) ps)) keys = Ok r /\
      num_leaves r = n /\ 1 <= height r /\
      forall j, 0 <= j < n -> leaf r j = if j =? idx then 0%N else leaf t j.
  Proof.
    intros Hk Hn [Hn31 Hp] Hidx. set (h := Z.of_nat (clog 2 n)) in *.
    destruct (create_ok aes clog n seed keys) as (t & Et & Ha & Hks & Heks & Hh & Hnl & Hsh & Hg); [lia|lia|now rewrite Hk|].
    rewrite Hk in *. fold h in Hh.
    destruct (sibling_xors_ok t) as (xs & Ex & Hlx & Hrow); [lia| |].
    { intros l Hl. destruct Hsh as (Hs1 & Hs2 & Hs3 & Hs4).
      assert (Hmono : forall k, 0 <= k -> 0 <= height t - 1 - k -> width t (height t - 1 - k) <= n).
      { intros k Hk0. pattern k. apply natlike_ind; [|intros x Hx IH Hx2|exact Hk0].
        - intros _. replace (height t - 1 - 0) with (height t - 1) by lia. lia.
        - specialize (Hs4 (height t - 1 - Z.succ x) ltac:(lia)).
          replace (height t - 1 - Z.succ x + 1) with (height t - 1 - x) in Hs4 by lia. lia. }
      specialize (Hmono (height t - 1 - l) ltac:(lia) ltac:(lia)).
      replace (height t - 1 - (height t - 1 - l)) with l in Hmono by lia. lia. }
    rewrite Ha in Hrow. assert (Hlx' : zlen xs = h) by lia.
    exists t. pose proof (tree_pairs_ok t xs Ex Ha) as Eps. unfold num_levels in Eps. fold (height t) in Eps.
    rewrite Hlx' in Eps. specialize (Eps ltac:(lia) ltac:(intros; apply Hrow; lia)).
    set (ps := map _ _) in Eps. exists ps.
    destruct (tree_choices_ok n idx) as (cs & Ecs & Hcl & Hcb). fold h in Hcl, Hcb.
    assert (Hrc : rchoices n idx = cs). { unfold rchoices. rewrite Ecs. now replace (n =? 0) with false by lia. }
    rewrite Hrc.
    assert (Hps : zlen ps = h). { unfold ps. rewrite zlen_map, zlen_zrange; lia. }
    destruct (reconstruct_correct aes clog n idx seed keys t xs) as (r & Er & _ & _ & Hhr & Hwr & Hnr);
      [lia|lia|lia|exact Et|exact Ex|].
    exists r. rewrite Hk in *. split; [exact Et|]. split; [exact Eps|]. split; [lia|]. split; [exact Hnl|].
    split; [lia|]. split; [exact Hsh|]. split; [exact Hg|].
    assert (Hco : zlen (chosen cs ps) = zlen cs) by (apply zlen_chosen; lia).
    split; [|split; [|split]].
    - etransitivity; [|exact Er]. apply reconstruct_ignores_path; try lia.
      + rewrite zlen_xtable; lia.
      + intros row Hr. apply (In_znth []) in Hr. destruct Hr as (i & Hi & <-). rewrite zlen_xtable in Hi by lia.
        rewrite znth_xtable by lia. now destruct (znth false cs i).
      + intros row Hr. apply (In_znth []) in Hr. destruct Hr as (i & Hi & <-). apply Hrow. lia.
      + rewrite zlen_xtable by lia. intros l j Hl Hj Hne. rewrite znth_xtable by lia.
        rewrite znth_chosen by lia. rewrite Hcb in * by lia.
        assert (Hpsl : znth (0%N, 0%N) ps l = (znth 0%N (znth [] xs l) 0, znth 0%N (znth [] xs l) 1)).
        { unfold ps. rewrite (znth_map _ 0) by (rewrite zlen_zrange; lia). now rewrite znth_zrange by lia. }
        rewrite Hpsl. cbn [fst snd].
        assert (Hbit : on_path 2 (zlen cs + 1) idx (l + 1) mod 2 = if Z.testbit idx (h - 1 - l) then 1 else 0).
        { unfold on_path. replace (zlen cs + 1 - 1 - (l + 1)) with (h - 1 - l) by lia.
          rewrite Zmod_odd, <- Z.bit0_odd. rewrite <- Z.shiftr_div_pow2 by lia. rewrite Z.shiftr_spec by lia.
          now rewrite Z.add_0_l. }
        rewrite Hbit in Hne. destruct (Z.testbit idx (h - 1 - l)); cbn [negb].
        * replace j with 0 by lia. now rewrite znth_cons by lia.
        * replace j with 1 by lia. rewrite znth_cons by lia. cbn. now rewrite znth_cons by lia.
    - unfold num_leaves in *. rewrite <- Hnl.
      assert (Hl : forall x, 1 <= height x -> zlen (last (t_levels x) []) = width x (height x - 1)).
      { intros x Hx. symmetry. unfold width, height in *.
        destruct (t_levels x) as [|y l] using rev_ind; [rewrite zlen_nil in Hx; lia|].
        rewrite last_last, zlen_app, zlen_cons, zlen_nil. rewrite znth_app by (pose proof (zlen_nonneg l); lia).
        replace (zlen l + (0 + 1) - 1 <? zlen l) with false by lia.
        replace (zlen l + (0 + 1) - 1 - zlen l) with 0 by lia. now rewrite znth_cons by lia. }
      rewrite !Hl by lia. rewrite Hwr. now rewrite Hhr.
    - lia.
    - intros j Hj. unfold leaf. rewrite Hhr. rewrite Hnr.
      + unfold on_path. replace (height t - 1 - (height t - 1)) with 0 by lia. now rewrite Z.pow_0_r, Z.div_1_r.
      + lia.
      + destruct Hsh as (_ & _ & -> & _). lia.
  Qed.

  (** ** sender side *)
  Fixpoint tree_seeds (sizes : list Z) (t : tape S) : list N :=
    match sizes with
    | [] => []
    | n :: s => if n =? 0 then 0%N :: tree_seeds s t else fst (t O) :: tree_seeds s (tape_tl t)
    end.
  Fixpoint tree_tape (sizes : list Z) (t : tape S) : tape S :=
    match sizes with
    | [] => t
    | n :: s => if n =? 0 then tree_tape s t else tree_tape s (tape_tl t)
    end.
  Lemma zlen_tree_seeds sizes t : zlen (tree_seeds sizes t) = zlen sizes.
  Proof.
    revert t. induction sizes as [|n s IH]; intro t; cbn [tree_seeds]; [reflexivity|].
    destruct (n =? 0); rewrite !zlen_cons, IH; reflexivity.
  Qed.
  Definition created (keys : list N) (sizes : list Z) (seeds : list N) : list (option (res tree)) :=
    map (fun '(n, s) => if n =? 0 then None else Some (ggm_create aes clog n s keys)) (combine sizes seeds).
  Lemma jrun_create_trees {RB} sizes keys k ta (pb : proc S RB) tb :
    jrun (create_trees S aes clog sizes keys k) ta pb tb
         (k (created keys sizes (tree_seeds sizes ta))) (tree_tape sizes ta) pb tb.
  Proof.
    revert k ta. induction sizes as [|n s IH]; intros k ta; cbn; [apply jrun_refl|].
    unfold created. destruct (n =? 0) eqn:E; cbn; rewrite E.
    - apply (IH (fun l => k (None :: l))).
    - eapply jrun_trans; [apply jrun_rand_a|]. apply (IH (fun l => k (Some (ggm_create aes clog n (fst (ta O)) keys) :: l))).
  Qed.

  Definition strees (keys : list N) (sizes : list Z) (seeds : list N) : list (option tree) :=
    map (fun '(n, s) => stree keys n s) (combine sizes seeds).
  Lemma prepare_ok keys : zlen keys = 2 -> forall sizes seeds trees opts,
    (forall n, In n sizes -> n = 0 \/ 1 <= n /\ good_size n) -> zlen seeds = zlen sizes ->
    prepare_opts (created keys sizes seeds) trees opts =
      Ok (trees ++ strees keys sizes seeds, opts ++ List.concat (map spairs (strees keys sizes seeds))).
  Proof.
    intros Hk sizes. induction sizes as [|n s IH]; intros seeds trees opts Hg Hl.
    - cbn. now rewrite !app_nil_r.
    - destruct seeds as [|sd seeds]. { exfalso. unfold zlen in Hl. cbn in Hl. lia. }
      rewrite !zlen_cons in Hl. unfold created, strees. cbn [combine map]. unfold stree at 1 3.
      destruct (Z.eqb_spec n 0) as [Hn|Hn].
      + cbn [prepare_opts]. fold (created keys s seeds). rewrite IH; [|intros; apply Hg; now right|lia].
        cbn [map spairs List.concat]. rewrite <- app_assoc. reflexivity.
      + destruct (Hg n) as [?|[Hn1 Hgn]]; [now left|lia|].
        destruct (per_tree keys n sd 0 Hk Hn1 Hgn ltac:(lia)) as (t & ps & r & Et & Eps & _).
        cbn [prepare_opts]. rewrite Et. cbn [rbind]. rewrite Eps. cbn [rbind].
        fold (created keys s seeds). rewrite IH; [|intros; apply Hg; now right|lia].
        cbn [map spairs List.concat]. rewrite Eps, <- !app_assoc. reflexivity.
  Qed.

  (** ** receiver side *)
  Lemma all_choices_ok trees : forall choices offsets,
    all_choices clog 2 trees choices offsets =
      Ok (choices ++ List.concat (map (fun '(n, i) => rchoices n i) trees),
          offsets ++ offsets_from (zlen choices) (map (fun '(n, i) => rchoices n i) trees)).
  Proof.
    induction trees as [|[n i] trees IH]; intros choices offsets; cbn [all_choices map List.concat offsets_from].
    - now rewrite !app_nil_r.
    - destruct (Z.eqb_spec n 0) as [Hn|Hn].
      + assert (E : rchoices n i = []) by (unfold rchoices; now replace (n =? 0) with true by lia).
        rewrite IH, E. rewrite <- app_assoc. cbn [app]. rewrite zlen_nil, Z.add_0_r. reflexivity.
      + destruct (tree_choices_ok n i) as (cs & E & _).
        assert (E2 : rchoices n i = cs) by (unfold rchoices; rewrite E; now replace (n =? 0) with false by lia).
        rewrite E, E2. cbn [rbind]. rewrite IH.
        rewrite <- !app_assoc, zlen_app. reflexivity.
  Qed.

  Definition rtree (keys : list N) (n index : Z) (os : list N) : res (option tree) :=
    if n =? 0 then Ok None else
    let! t := ggm_reconstruct aes clog 2 n index (xtable (rchoices n index) os) keys in Ok (Some t).

  Lemma receive_tree_ok CS OS keys i n index : 0 <= i < zlen CS ->
    Forall2 (fun a b => List.length a = List.length b) CS OS -> znth [] CS i = rchoices n index ->
    receive_tree aes clog 2 (List.concat CS) (List.concat OS) (0 :: offsets_from 0 CS) keys i n index =
      rtree keys n index (znth [] OS i).
  Proof.
    intros Hi HF HC. unfold receive_tree, rtree. destruct (n =? 0); [reflexivity|].
    assert (Hlen : zlen (0 :: offsets_from 0 CS) = zlen CS + 1) by (rewrite zlen_cons, zlen_offsets_from; reflexivity).
    rewrite !(zget_ok 0) by lia. cbn [rbind]. rewrite !znth_offsets by lia. rewrite !Z.add_0_l.
    rewrite off_succ by lia. rewrite HC.
    replace (off CS i + zlen (rchoices n index) - off CS i + 1 - 1) with (zlen (rchoices n index)) by lia.
    destruct (Forall2_znth [] [] _ _ _ HF) as [HL Hl].
    assert (Hlo : zlen (znth [] OS i) = zlen (rchoices n index)). { rewrite <- HC. unfold zlen. f_equal. symmetry. now apply Hl. }
    match goal with |- context [for_range 0 ?h ?b ?s] =>
      assert (E : for_range 0 h b s = Ok (xtable (rchoices n index) (znth [] OS i))) end.
    { erewrite (fill_all [] _ _ _ (fun j => if znth false (rchoices n index) j then [0%N; znth 0%N (znth [] OS i) j] else [znth 0%N (znth [] OS i) j; 0%N])).
      - f_equal. apply (znth_ext []).
        + rewrite zlen_map, zlen_zrange, zlen_xtable by (try apply zlen_nonneg; lia). lia.
        + intros j Hj. rewrite zlen_map, zlen_zrange in Hj by apply zlen_nonneg.
          rewrite znth_xtable by lia. rewrite (znth_map _ 0) by (rewrite zlen_zrange; lia). now rewrite znth_zrange by lia.
      - apply zlen_zrepeat, zlen_nonneg.
      - intros j l Hj Hll Hk. rewrite (zget_concat CS i j false) by (rewrite ?HC; lia). cbn [rbind].
        rewrite (off_same CS OS i HF). rewrite (zget_concat OS i j 0%N) by lia. cbn [rbind].
        rewrite (zget_ok []) by lia. cbn [rbind]. rewrite Hk by lia. rewrite znth_zrepeat by lia.
        rewrite HC. change (zrepeat 0%N 2) with [0%N; 0%N].
        destruct (znth false (rchoices n index) j); 
          rewrite (zset_ok [0%N; 0%N]) by (change (zlen [0%N; 0%N]) with 2; lia); cbn [rbind];
          rewrite zset_ok by lia; reflexivity. }
    rewrite E. reflexivity.
  Qed.

  Lemma collect_ok l : collect (map (fun t => Ok t) l) = Ok l.
  Proof. induction l as [|t l IH]; cbn; [reflexivity|]. now rewrite IH. Qed.

  Lemma num_leaves_width t : 1 <= height t -> num_leaves t = width t (height t - 1).
  Proof.
    intro Hx. symmetry. unfold num_leaves, width, height in *.
    destruct (t_levels t) as [|y l] using rev_ind; [rewrite zlen_nil in Hx; lia|].
    rewrite last_last, zlen_app, zlen_cons, zlen_nil. rewrite znth_app by (pose proof (zlen_nonneg l); lia).
    replace (zlen l + (0 + 1) - 1 <? zlen l) with false by lia.
    replace (zlen l + (0 + 1) - 1 - zlen l) with 0 by lia. now rewrite znth_cons by lia.
  Qed.

  Lemma unpack_ok t out : 1 <= height t -> zlen out = num_leaves t ->
    unpack_last_level S t out = Ok (map (fun i => s_of128 S (leaf t i)) (zrange 0 (num_leaves t))).
  Proof.
    intros Hh Hl. unfold unpack_last_level. apply (fill_all (s_zero S)); [exact Hl|].
    intros i l Hi Hll _. destruct (get_leaf_exact t i Hh) as [H1 _]. rewrite H1 by auto.
    apply zset_ok. lia.
  Qed.

  Definition tree_matches (ot : option tree) (n : Z) : Prop :=
    match ot with None => n = 0 | Some t => 1 <= height t /\ num_leaves t = n end.
  Lemma unpack_all_ok trees outputs : Forall2 tree_matches trees (map zlen outputs) ->
    unpack_all S trees outputs = Ok (map (fun ot => map (s_of128 S) (leaves ot)) trees).
  Proof.
    intro HF. destruct (Forall2_znth None 0 _ _ _ HF) as [HL Hm]. rewrite zlen_map in HL.
    unfold unpack_all. rewrite (fill_all [] _ _ _ (fun i => map (s_of128 S) (leaves (znth None trees i)))).
    - f_equal. rewrite <- (map_map (znth None trees) (fun ot => map (s_of128 S) (leaves ot))).
      now rewrite <- HL, map_zrange_znth.
    - reflexivity.
    - intros i l Hi Hl Hk. rewrite (zget_ok []) by lia. cbn [rbind]. rewrite Hk by lia.
      specialize (Hm i ltac:(lia)). rewrite (znth_map zlen []) in Hm by lia.
      destruct (Z.eqb_spec (zlen (znth [] outputs i)) 0) as [Hz|Hz].
      + f_equal. rewrite <- (list_set_same [] l i) at 1 by lia. f_equal. rewrite Hk by lia.
        apply zlen_0_nil in Hz. rewrite Hz in Hm |- *. rewrite zlen_nil in Hm.
        destruct (znth None trees i) as [t|]; [|reflexivity]. destruct Hm as [_ Hm]. cbn. now rewrite Hm.
      + rewrite (zget_ok None) by lia. cbn [rbind]. destruct (znth None trees i) as [t|]; [|cbn in Hm; lia].
        destruct Hm as [Hm1 Hm2]. rewrite unpack_ok by auto. cbn [rbind]. rewrite zset_ok by lia.
        do 2 f_equal. cbn [leaves]. now rewrite map_map.
  Qed.

  (** ** the joint run *)
  Definition index_ok (index n : Z) : Prop := 0 <= index /\ (n = 0 \/ index < n).

  Definition tree_of (o : option tree) (r : res (option tree)) : option tree :=
    match r with Ok t => t | _ => o end.

  Variable K : Q.

  Lemma per_tree_opt keys n seed idx : zlen keys = 2 -> (n = 0 \/ 1 <= n /\ good_size n) -> index_ok idx n ->
    let s := stree keys n seed in
    let os := chosen (rchoices n idx) (spairs s) in
    List.length (rchoices n idx) = List.length (spairs s) /\
    tree_matches s n /\
    (forall t, s = Some t -> well_shaped t 2 n /\ is_ggm_tree aes seed keys t) /\
    exists r, rtree keys n idx os = Ok r /\ tree_matches r n /\
      zlen (leaves s) = n /\ zlen (leaves r) = n /\
      forall j, 0 <= j < n -> znth 0%N (leaves r) j = if j =? idx then 0%N else znth 0%N (leaves s) j.
  Proof.
    intros Hk Hn Hi s os. subst s os. unfold stree, rchoices at 1 2, rtree.
    destruct (Z.eqb_spec n 0) as [->|Hn0].
    - cbn. split; [reflexivity|]. split; [reflexivity|]. split; [discriminate|].
      exists None. repeat split. intros; lia.
    - destruct Hn as [?|[Hn1 Hg]]; [lia|]. destruct Hi as [Hi0 [?|Hi1]]; [lia|].
      destruct (per_tree keys n seed idx Hk Hn1 Hg ltac:(lia)) as (t & ps & r & Et & Eps & Hl & Hnl & Hh & Hsh & Hgt & Er & Hnr & Hhr & Hlf).
      unfold rchoices in Hl, Er. replace (n =? 0) with false in Hl, Er by lia.
      rewrite Et. cbn [spairs]. rewrite Eps. split; [unfold zlen in Hl; lia|]. split; [split; assumption|].
      split; [intros t' E; injection E as <-; split; assumption|].
      unfold rchoices. replace (n =? 0) with false by lia.
      exists (Some r). rewrite Er. cbn [rbind]. split; [reflexivity|]. split; [split; assumption|].
      cbn [leaves]. rewrite !zlen_map, !zlen_zrange by lia. split; [lia|]. split; [lia|].
      intros j Hj. rewrite !(znth_map _ 0) by (rewrite zlen_zrange; lia). rewrite !znth_zrange by lia.
      apply Hlf. lia.
  Qed.

  (** Sender and receiver trees of the whole batch. *)
  Lemma batch_trees keys : zlen keys = 2 -> forall sizes seeds indices,
    (forall n, In n sizes -> n = 0 \/ 1 <= n /\ good_size n) -> zlen seeds = zlen sizes -> zlen indices = zlen sizes ->
    Forall2 index_ok indices sizes ->
    let ss := strees keys sizes seeds in
    let CS := map (fun '(n, i) => rchoices n i) (combine sizes indices) in
    let PS := map spairs ss in
    Forall2 (fun a b => List.length a = List.length b) CS PS /\
    Forall2 tree_matches ss sizes /\
    exists rs, Forall2 tree_matches rs sizes /\
      (forall i, 0 <= i < zlen sizes ->
         rtree keys (znth 0 sizes i) (znth 0 indices i) (znth [] (map (fun '(c, p) => chosen c p) (combine CS PS)) i) = Ok (znth None rs i)) /\
      (forall i, 0 <= i < zlen sizes ->
         zlen (leaves (znth None ss i)) = znth 0 sizes i /\ zlen (leaves (znth None rs i)) = znth 0 sizes i /\
         (forall t, znth None ss i = Some t -> well_shaped t 2 (znth 0 sizes i) /\ is_ggm_tree aes (znth 0%N seeds i) keys t) /\
         forall j, 0 <= j < znth 0 sizes i ->
           znth 0%N (leaves (znth None rs i)) j =
             if j =? znth 0 indices i then 0%N else znth 0%N (leaves (znth None ss i)) j).
  Proof.
    intros Hk. induction sizes as [|n sizes IH]; intros seeds indices Hg Hl1 Hl2 HF; inversion HF as [|idx n' indices' sizes' Hidx HF' E1 E2]; subst.
    - destruct seeds; [|exfalso; unfold zlen in Hl1; cbn in Hl1; lia].
      cbn. split; [constructor|]. split; [constructor|]. exists []. split; [constructor|].
      split; intros i Hi; unfold zlen in Hi; cbn in Hi; lia.
    - destruct seeds as [|sd seeds]; [exfalso; unfold zlen in Hl1; cbn in Hl1; lia|].
      rewrite !zlen_cons in *.
      destruct (per_tree_opt keys n sd idx Hk (Hg n (or_introl eq_refl)) Hidx) as (H1 & H2 & H3 & r & H4 & H5 & H6 & H7 & H8).
      destruct (IH seeds indices') as (I1 & I2 & rs & I3 & I4 & I5); [intros; apply Hg; now right|lia|lia|exact HF'|].
      unfold strees in *. cbn [combine map]. split; [constructor; assumption|]. split; [constructor; assumption|].
      exists (r :: rs). split; [constructor; assumption|]. split.
      + intros i Hi. rewrite !znth_cons by lia. destruct (Z.eqb_spec i 0); [exact H4|]. apply I4. lia.
      + intros i Hi. rewrite !znth_cons by lia. destruct (Z.eqb_spec i 0).
        * split; [exact H6|]. split; [exact H7|]. split; [exact H3|exact H8].
        * apply I5. lia.
  Qed.

  Lemma rot_run outs_s outs_r indices ta tb :
    s_can_hash S (security_per_leaf K (total_leaves (map zlen outs_s))) 128 = true ->
    map zlen outs_r = map zlen outs_s ->
    (forall o, In o outs_s -> good_size (zlen o)) ->
    Forall2 index_ok indices (map zlen outs_s) ->
    let sizes := map zlen outs_s in
    let keys := tape_blocks 2 ta in
    let seeds := tree_seeds sizes (tape_drop 2 ta) in
    let ss := strees keys sizes seeds in
    exists rs,
      jrun (rot_sender_batched S aes clog K outs_s) ta (rot_receiver_batched S aes clog indices outs_r) tb
           (Ret (Ok (map (fun ot => map (s_of128 S) (leaves ot)) ss))) (tree_tape sizes (tape_drop 2 ta))
           (Ret (Ok (map (fun ot => map (s_of128 S) (leaves ot)) rs))) tb /\
      zlen rs = zlen sizes /\ zlen ss = zlen sizes /\
      forall i, 0 <= i < zlen sizes ->
         zlen (leaves (znth None ss i)) = znth 0 sizes i /\ zlen (leaves (znth None rs i)) = znth 0 sizes i /\
         (forall t, znth None ss i = Some t -> well_shaped t 2 (znth 0 sizes i) /\ is_ggm_tree aes (znth 0%N seeds i) keys t) /\
         forall j, 0 <= j < znth 0 sizes i ->
           znth 0%N (leaves (znth None rs i)) j =
             if j =? znth 0 indices i then 0%N else znth 0%N (leaves (znth None ss i)) j.
  Proof.
    intros Hch Hsz Hg Hidx sizes keys seeds ss.
    assert (Hk : zlen keys = 2) by reflexivity.
    assert (Hgs : forall n, In n sizes -> n = 0 \/ 1 <= n /\ good_size n).
    { intros n Hn. apply in_map_iff in Hn. destruct Hn as (o & <- & Ho). specialize (Hg o Ho).
      pose proof (zlen_nonneg o). destruct (Z.eq_dec (zlen o) 0); [now left|right; split; [lia|exact Hg]]. }
    destruct (Forall2_znth 0 0 _ _ _ Hidx) as [Hli Hib].
    change (zlen indices = zlen sizes) in Hli.
    assert (Hls : zlen seeds = zlen sizes) by apply zlen_tree_seeds.
    destruct (batch_trees keys Hk sizes seeds indices Hgs Hls Hli Hidx) as (B1 & B2 & rs & B3 & B4 & B5).
    fold ss in B1, B2, B4, B5. exists rs.
    set (CS := map (fun '(n, i) => rchoices n i) (combine sizes indices)) in *.
    set (PS := map spairs ss) in *.
    assert (Hlr : zlen rs = zlen sizes) by (destruct (Forall2_znth None 0 _ _ _ B3); lia).
    assert (Hlss : zlen ss = zlen sizes) by (destruct (Forall2_znth None 0 _ _ _ B2); lia).
    split; [|split; [exact Hlr|split; [exact Hlss|exact B5]]].
    unfold rot_sender_batched, rot_receiver_batched.
    assert (Hlo : zlen outs_r = zlen indices).
    { rewrite Hli. unfold sizes. rewrite <- Hsz. now rewrite zlen_map. }
    rewrite Hlo, Z.eqb_refl. cbn [negb].
    assert (Hex : existsb (fun '(index, out) => bad_index index (zlen out)) (combine indices outs_r) = false).
    { apply not_true_is_false. intro HE. apply existsb_exists in HE. destruct HE as ([index out] & Hin & Hb).
      apply (In_znth (0, [])) in Hin. destruct Hin as (i & Hi & E). rewrite zlen_combine in Hi by lia.
      rewrite znth_combine in E by lia. injection E as <- <-. specialize (Hib i Hi).
      change (map zlen outs_s) with sizes in Hib. unfold sizes in Hib. rewrite <- Hsz in Hib. rewrite (znth_map zlen []) in Hib by lia.
      unfold bad_index, index_ok in *. lia. }
    rewrite Hex. rewrite Hsz. fold sizes.
    assert (HCS : zlen CS = zlen sizes). { unfold CS. rewrite zlen_map, zlen_combine; lia. }
    assert (HJ : jrun (send_trees S aes clog K sizes 2) ta (receive_trees S aes clog sizes indices 2) tb
                   (Ret (Ok ss)) (tree_tape sizes (tape_drop 2 ta)) (Ret (Ok rs)) tb).
    { unfold send_trees. fold sizes in Hch. rewrite Hch. cbn [negb].
      eapply jrun_trans; [apply jrun_rand_blocks_a|]. fold keys.
      eapply jrun_trans; [apply jrun_create_trees|]. fold seeds.
      rewrite (prepare_ok keys Hk sizes seeds [] [] Hgs Hls). fold ss PS. cbn [app plift].
      unfold receive_trees. rewrite Hli, Z.eqb_refl. cbn [negb]. change (Z.of_nat 2) with 2.
      rewrite all_choices_ok. fold CS. cbn [app plift]. change (zlen (@nil bool)) with 0.
      assert (Hcl : zlen (List.concat CS) = zlen (List.concat PS)).
      { rewrite <- !off_total. rewrite (off_same CS PS _ B1). f_equal. now destruct (Forall2_znth [] [] _ _ _ B1). }
      set (OS := map (fun '(c, p) => chosen c p) (combine CS PS)) in *.
      assert (HOS : Forall2 (fun a b => List.length a = List.length b) CS OS).
      { destruct (Forall2_znth [] [] _ _ _ B1) as [L1 L2]. apply (zip_ext [] []).
        - unfold OS. rewrite zlen_map, zlen_combine; auto.
        - intros i Hi. unfold OS. rewrite (znth_map _ ([], [])) by (rewrite zlen_combine; auto).
          rewrite znth_combine by auto. specialize (L2 i Hi).
          pose proof (zlen_chosen (znth [] CS i) (znth [] PS i)) as Hz. unfold zlen in Hz. lia. }
      assert (Hfin : forall ots, ots = List.concat OS ->
        collect (map (fun i => receive_tree aes clog 2 (List.concat CS) ots (0 :: offsets_from 0 CS) keys i (znth 0 sizes i) (znth 0 indices i))
                     (zrange 0 (zlen sizes))) = Ok rs).
      { intros ots ->. rewrite <- (collect_ok rs). f_equal. rewrite <- Hlr.
        rewrite <- (map_zrange_znth None rs) at 2. rewrite map_map. apply map_ext_in. intros i Hi. apply In_zrange in Hi.
        rewrite receive_tree_ok; [|lia|exact HOS|].
        - apply B4. lia.
        - unfold CS. rewrite (znth_map _ (0, 0)) by (rewrite zlen_combine; lia). now rewrite znth_combine by lia. }
      destruct (Z.ltb_spec 0 (zlen (List.concat PS))) as [Hpos|Hz].
      - replace (0 <? zlen (List.concat CS)) with true by lia. unfold ot_send, ot_recv.
        eapply jrun_trans; [apply jrun_send_ot; reflexivity|]. unfold ot_choose.
        replace (Datatypes.length (List.concat PS) =? Datatypes.length (List.concat CS))%nat with true by (unfold zlen in Hcl; symmetry; apply Nat.eqb_eq; lia).
        cbn [Bool.eqb andb]. fold (chosen (List.concat CS) (List.concat PS)). rewrite concat_chosen by exact B1. fold OS.
        unfold recv_blocks. eapply jrun_trans; [apply jrun_send_recv; reflexivity|]. cbv beta.
        rewrite Hfin by reflexivity. apply jrun_refl.
      - replace (0 <? zlen (List.concat CS)) with false by lia.
        unfold recv_blocks. eapply jrun_trans; [apply jrun_send_recv; reflexivity|]. cbv beta. rewrite Hfin.
        + apply jrun_refl.
        + symmetry. apply zlen_0_nil. pose proof (zlen_nonneg (List.concat PS)).
          rewrite <- off_total, <- (off_same CS OS _ HOS).
          replace (zlen OS) with (zlen CS) by (now destruct (Forall2_znth [] [] _ _ _ HOS)). rewrite off_total. lia. }
    eapply jrun_trans; [apply (jrun_bindr _ _ _ _ _ _ _ _ _ _ HJ)|]. cbv beta.
    rewrite unpack_all_ok by exact B2. rewrite unpack_all_ok by (rewrite Hsz; exact B3). apply jrun_refl.
  Qed.
End P.
