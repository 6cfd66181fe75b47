(** Lemmas in the exact form of the final random-OT theorems. *)
From Verif Require Import Base BaseFacts ListFacts ScalarModel ScalarSpec ScalarFinal GgmModel GgmSpec
  ProcModel ProcSpec ProcProofs RotModel RotSpec RotProofs.
From Coq Require Import QArith Qabs.
Local Open Scope Z_scope.

Lemma tape_drop_nth {T} n (t : tape T) k : tape_drop n t k = t (n + k)%nat.
Proof. revert t k. induction n as [|n IH]; intros t k; cbn; [reflexivity|]. now rewrite IH. Qed.

Lemma tree_seeds_pos (S : scalar) sizes (t : tape S) i : 0 <= i < zlen sizes -> znth 0 sizes i <> 0 ->
  znth 0%N (tree_seeds S sizes t) i =
  fst (t (List.length (filter (fun n => negb (n =? 0)) (firstn (Z.to_nat i) sizes)))).
Proof.
  revert t i. induction sizes as [|n s IH]; intros t i Hi Hn. { change (0 <= i < 0) in Hi. lia. }
  rewrite zlen_cons in Hi. rewrite znth_cons in Hn by lia. cbn [tree_seeds].
  destruct (Z.eqb_spec i 0) as [->|Hi0].
  - cbn. destruct (Z.eqb_spec n 0); [lia|]. reflexivity.
  - replace (Z.to_nat i) with (Datatypes.S (Z.to_nat (i - 1))) by lia. cbn [firstn filter].
    destruct (Z.eqb_spec n 0); cbn [negb]; rewrite znth_cons by lia; replace (i =? 0) with false by lia;
      rewrite IH by (auto; lia); reflexivity.
Qed.

Lemma leaves_nth (S : scalar) ot j d : 0 <= j < zlen (leaves ot) ->
  znth d (map (s_of128 S) (leaves ot)) j = s_of128 S (znth 0%N (leaves ot) j).
Proof. intro H. now rewrite (znth_map _ 0%N) by auto. Qed.

Section F.
  Variable S : scalar.
  Variable aes : N -> N -> N.
  Variable clog : Z -> Z -> nat.
  Variable K : Q.

  Lemma rot_batched_jrun outs_s outs_r indices ta tb :
    map zlen outs_r = map zlen outs_s ->
    (forall o, In o outs_s -> supported_size clog (zlen o)) ->
    zlen indices = zlen outs_s ->
    (forall i, 0 <= i < zlen outs_s -> valid_index (znth 0 indices i) (zlen (znth [] outs_s i))) ->
    s_can_hash S (security_per_leaf K (total_leaves (map zlen outs_s))) 128 = true ->
    exists rs rr ta', jrun (rot_sender_batched S aes clog K outs_s) ta
              (rot_receiver_batched S aes clog indices outs_r) tb (Ret (Ok rs)) ta' (Ret (Ok rr)) tb /\
      map zlen rs = map zlen outs_s /\ map zlen rr = map zlen outs_s /\
      forall i, 0 <= i < zlen outs_s ->
        let n := zlen (znth [] outs_s i) in
        (forall j d, 0 <= j < n ->
           znth d (znth [] rr i) j = if j =? znth 0 indices i then s_of128 S 0%N else znth d (znth [] rs i) j) /\
        (1 <= n -> exists t, well_shaped t 2 n /\
           is_ggm_tree aes (fst (ta (seed_pos (map zlen outs_s) i))) [fst (ta 0%nat); fst (ta 1%nat)] t /\
           forall j d, 0 <= j < n -> znth d (znth [] rs i) j = s_of128 S (node t (height t - 1) j)).
  Proof.
    intros Hsz Hg Hli Hidx Hch.
    assert (HF : Forall2 index_ok indices (map zlen outs_s)).
    { apply (zip_ext 0 0); [now rewrite zlen_map|]. intros i Hi. rewrite (znth_map zlen []) by lia. apply Hidx. lia. }
    destruct (rot_run S aes clog K outs_s outs_r indices ta tb Hch Hsz Hg HF) as (rs & HJ & Hlr & Hls & Hi).
    rewrite zlen_map in *.
    set (ss := strees aes clog _ _ _) in *.
    do 3 eexists. split; [exact HJ|].
    assert (HM : forall l, zlen l = zlen outs_s -> (forall i, 0 <= i < zlen outs_s -> zlen (leaves (znth None l i)) = znth 0 (map zlen outs_s) i) ->
      map zlen (map (fun ot => map (s_of128 S) (leaves ot)) l) = map zlen outs_s).
    { intros l Hl H. rewrite map_map. apply (znth_ext 0); rewrite !zlen_map; [auto|].
      intros i Hii. rewrite <- H by lia. rewrite (znth_map _ None) by lia. now rewrite zlen_map. }
    split; [apply HM; [auto|intros; now apply Hi]|]. split; [apply HM; [auto|intros; now apply Hi]|].
    intros i Hii. destruct (Hi i Hii) as (H1 & H2 & H3 & H4). rewrite (znth_map zlen []) in * by lia.
    cbv zeta. rewrite !(znth_map (fun ot => map (s_of128 S) (leaves ot)) None) by lia. split.
    - intros j d Hj. rewrite !leaves_nth by lia. rewrite H4 by lia. destruct (j =? znth 0 indices i); reflexivity.
    - intro Hn. remember (znth None ss i) as o eqn:Eo. destruct o as [t|]; [|exfalso; cbn in H1; unfold zlen in H1 at 1; cbn in H1; lia].
      destruct (H3 t eq_refl) as [Hw Ht]. exists t. split; [exact Hw|]. split.
      + rewrite tree_seeds_pos in Ht.
        * rewrite tape_drop_nth in Ht. exact Ht.
        * rewrite zlen_map; lia.
        * rewrite (znth_map zlen []) by lia. lia.
      + intros j d Hj. rewrite leaves_nth by lia. f_equal. cbn [leaves] in *. rewrite zlen_map in H1.
        rewrite (znth_map _ 0) by lia. rewrite zlen_zrange_max in H1. rewrite znth_zrange by lia. reflexivity.
  Qed.

  Lemma rot_batched_correct outs_s outs_r indices ta tb :
    map zlen outs_r = map zlen outs_s ->
    (forall o, In o outs_s -> supported_size clog (zlen o)) ->
    zlen indices = zlen outs_s ->
    (forall i, 0 <= i < zlen outs_s -> valid_index (znth 0 indices i) (zlen (znth [] outs_s i))) ->
    s_can_hash S (security_per_leaf K (total_leaves (map zlen outs_s))) 128 = true ->
    exists rs rr, completes (rot_sender_batched S aes clog K outs_s) ta
              (rot_receiver_batched S aes clog indices outs_r) tb (Ok rs) (Ok rr) /\
      map zlen rs = map zlen outs_s /\ map zlen rr = map zlen outs_s /\
      forall i, 0 <= i < zlen outs_s ->
        let n := zlen (znth [] outs_s i) in
        (forall j d, 0 <= j < n ->
           znth d (znth [] rr i) j = if j =? znth 0 indices i then s_of128 S 0%N else znth d (znth [] rs i) j) /\
        (1 <= n -> exists t, well_shaped t 2 n /\
           is_ggm_tree aes (fst (ta (seed_pos (map zlen outs_s) i))) [fst (ta 0%nat); fst (ta 1%nat)] t /\
           forall j d, 0 <= j < n -> znth d (znth [] rs i) j = s_of128 S (node t (height t - 1) j)).
  Proof.
    intros H1 H2 H3 H4 H5. destruct (rot_batched_jrun outs_s outs_r indices ta tb H1 H2 H3 H4 H5) as (rs & rr & ta' & HJ & H).
    exists rs, rr. split; [|exact H]. eapply jrun_completes; exact HJ.
  Qed.

  Lemma rot_single_correct out_s out_r index ta tb :
    zlen out_r = zlen out_s -> supported_size clog (zlen out_s) -> valid_index index (zlen out_s) ->
    s_can_hash S (security_per_leaf K (total_leaves [zlen out_s])) 128 = true ->
    exists rs rr, completes (rot_sender S aes clog K out_s) ta (rot_receiver S aes clog index out_r) tb (Ok rs) (Ok rr) /\
      zlen rs = zlen out_s /\ zlen rr = zlen out_s /\
      forall j d, 0 <= j < zlen out_s -> znth d rr j = if j =? index then s_of128 S 0%N else znth d rs j.
  Proof.
    intros Hl Hs Hi Hc.
    destruct (rot_batched_jrun [out_s] [out_r] [index] ta tb) as (rs & rr & ta' & HJ & L1 & L2 & H).
    - cbn. now rewrite Hl.
    - intros o [<-|[]]. exact Hs.
    - reflexivity.
    - intros i Hi2. change (0 <= i < 1) in Hi2. replace i with 0 by lia. exact Hi.
    - exact Hc.
    - destruct rs as [|r [|? ?]]; try discriminate. destruct rr as [|r' [|? ?]]; try discriminate.
      cbn in L1, L2. injection L1 as L1. injection L2 as L2.
      exists r, r'. split; [|split; [exact L1|split; [exact L2|]]].
      + apply (jrun_completes _ _ _ _ _ ta' _ tb). unfold rot_sender, rot_receiver.
        replace (bad_index index (zlen out_r)) with false by (unfold bad_index, valid_index in *; lia).
        eapply jrun_trans; [apply (jrun_bindr _ _ _ _ _ _ _ _ _ _ HJ)|]. apply jrun_refl.
      + intros j d Hj. destruct (H 0 ltac:(change (zlen [out_s]) with 1; lia)) as [H0 _]. apply H0. exact Hj.
  Qed.

  (** C15 *)
  Lemma rot_receiver_batched_checks indices outputs :
    let bad := zlen indices <> zlen outputs \/
      exists i, 0 <= i < zlen outputs /\ ~ valid_index (znth 0 indices i) (zlen (znth [] outputs i)) in
    (bad -> exists m, returns (rot_receiver_batched S aes clog indices outputs) (Err (invalid_argument m))) /\
    (~ bad -> forall r, ~ returns (rot_receiver_batched S aes clog indices outputs) r).
  Proof.
    cbv zeta. unfold rot_receiver_batched, returns.
    destruct (Z.eqb_spec (zlen outputs) (zlen indices)) as [Hl|Hl]; cbn [negb].
    2: { split; [intros _; eexists; reflexivity|]. intros H. exfalso. apply H. left. congruence. }
    match goal with |- context [existsb ?f ?l] => destruct (existsb f l) eqn:E end.
    - split; [intros _; eexists; reflexivity|]. intros H. exfalso. apply H. right.
      apply existsb_exists in E. destruct E as ([index out] & Hin & Hb).
      apply (In_znth (0, [])) in Hin. destruct Hin as (i & Hi & E). rewrite zlen_combine in Hi by lia.
      rewrite znth_combine in E by lia. injection E as <- <-. exists i. split; [lia|].
      unfold bad_index, valid_index in *. lia.
    - split.
      + intros [H|(i & Hi & H)]; [congruence|]. exfalso.
        assert (Hin : In (znth 0 indices i, znth [] outputs i) (combine indices outputs)).
        { rewrite <- znth_combine by lia. apply znth_In. rewrite zlen_combine; lia. }
        assert (Ht : existsb (fun '(index, out) => bad_index index (zlen out)) (combine indices outputs) = true).
        { apply existsb_exists. eexists. split; [exact Hin|]. unfold bad_index, valid_index in *. lia. }
        rewrite Ht in E. discriminate.
      + intros _ r. unfold receive_trees. rewrite zlen_map, Hl, Z.eqb_refl. cbn [negb].
        change (Z.of_nat 2) with 2. rewrite all_choices_ok by exact aes. cbn [plift].
        destruct (0 <? _); discriminate.
  Qed.
  Lemma rot_receiver_checks index output :
    (~ valid_index index (zlen output) ->
       exists m, returns (rot_receiver S aes clog index output) (Err (invalid_argument m))) /\
    (valid_index index (zlen output) -> forall r, ~ returns (rot_receiver S aes clog index output) r).
  Proof.
    unfold rot_receiver, returns. destruct (bad_index index (zlen output)) eqn:E.
    - split; [intros _; eexists; reflexivity|]. unfold bad_index, valid_index in *. intros H. lia.
    - split; [unfold bad_index, valid_index in *; intros H; exfalso; lia|]. intros Hv r.
      destruct (rot_receiver_batched_checks [index] [output]) as [_ H].
      assert (HN : ~ (zlen [index] <> zlen [output] \/
        exists i, 0 <= i < zlen [output] /\ ~ valid_index (znth 0 [index] i) (zlen (znth [] [output] i)))).
      { intros [Hb|(i & Hi & Hb)]; [apply Hb; reflexivity|]. change (0 <= i < 1) in Hi.
        apply Hb. replace i with 0 by lia. exact Hv. }
      specialize (H HN). unfold returns in H.
      destruct (rot_receiver_batched S aes clog [index] [output]) as [r0| | | |]; try discriminate.
      exfalso. exact (H r0 eq_refl).
  Qed.

  (** C16 *)
  Lemma create_trees_solo sizes keys k ta :
    solo (create_trees S aes clog sizes keys k) ta =
    solo (k (created aes clog keys sizes (tree_seeds S sizes ta))) (tree_tape S sizes ta).
  Proof.
    revert k ta. induction sizes as [|n s IH]; intros k ta; cbn; [reflexivity|].
    unfold created. destruct (n =? 0) eqn:E; cbn; rewrite E.
    - apply (IH (fun l => k (None :: l))).
    - apply (IH (fun l => k (Some (ggm_create aes clog n (fst (ta O)) keys) :: l))).
  Qed.
  Lemma solo_bind {A B} (p : proc S A) (f : A -> proc S B) t ms a t' ms2 b t2 :
    solo p t = Some (ms, a, t') -> solo (f a) t' = Some (ms2, b, t2) ->
    solo (pbind p f) t = Some (ms ++ ms2, b, t2).
  Proof.
    revert t ms. induction p as [r|m p IH|k IH|c cs k IH|k IH]; intros t ms H1 H2; cbn in *; try discriminate.
    - injection H1 as <- <- <-. rewrite H2. reflexivity.
    - destruct (solo p t) as [[[ms1 a1] t1]|] eqn:E; [|discriminate]. injection H1 as <- <- <-.
      rewrite (IH _ _ E H2). reflexivity.
    - eapply IH; eauto.
  Qed.
  Lemma send_trees_solo sizes ta : exists ms r t', solo (send_trees S aes clog K sizes 2) ta = Some (ms, r, t').
  Proof.
    unfold send_trees. destruct (negb _); [do 3 eexists; reflexivity|].
    cbn [rand_blocks solo]. rewrite create_trees_solo. unfold plift.
    match goal with |- context [prepare_opts ?a ?b ?c] => destruct (prepare_opts a b c) as [[trees opts]| |] end;
      [|do 3 eexists; reflexivity|do 3 eexists; reflexivity].
    destruct (0 <? zlen opts); do 3 eexists; reflexivity.
  Qed.
  Lemma rot_sender_solo outputs ta : exists ms r t', solo (rot_sender_batched S aes clog K outputs) ta = Some (ms, r, t').
  Proof.
    destruct (send_trees_solo (map zlen outputs) ta) as (ms & r & t' & E).
    unfold rot_sender_batched, pbindr.
    destruct r; do 3 eexists; (eapply solo_bind; [exact E|cbn; reflexivity]).
  Qed.
  Lemma rot_sender_oblivious outputs ta :
    exists ms r, forall RB (pb : proc S RB) tb n d,
      steps n (start (rot_sender_batched S aes clog K outputs) ta pb tb) d ->
      (exists got rest, ms = got ++ c_ab d ++ rest) /\ (forall r', c_a d = Ret r' -> r' = r).
  Proof.
    destruct (rot_sender_solo outputs ta) as (ms & r & t' & E). exists ms, r. intros RB pb tb n d H.
    destruct (solo_any_peer _ _ _ _ _ _ _ _ _ E H) as (got & rest & E1 & E2). split; [eauto|].
    intros r' Hr. rewrite Hr in E2. cbn in E2. congruence.
  Qed.

  (** C55 *)
  Lemma rot_sender_security_check outputs :
    s_can_hash S (security_per_leaf K (total_leaves (map zlen outputs))) 128 = false ->
    exists m, returns (rot_sender_batched S aes clog K outputs) (Err (invalid_argument m)).
  Proof.
    intro H. unfold rot_sender_batched, send_trees. rewrite H. eexists. reflexivity.
  Qed.
End F.

Lemma wrap32_add x y : wrap32 (wrap32 x + y) = wrap32 (x + y).
Proof.
  unfold wrap32. f_equal. replace ((x + 2^31) mod 2^32 - 2^31 + y + 2^31) with ((x + 2^31) mod 2^32 + y) by lia.
  rewrite Z.add_mod_idemp_l by lia. f_equal. lia.
Qed.
Lemma total_leaves_wrap sizes : total_leaves sizes = wrap32 (size_sum sizes).
Proof.
  unfold total_leaves. assert (G : forall l acc, fold_left (fun acc n => wrap32 (acc + n)) l (wrap32 acc) = wrap32 (acc + size_sum l)).
  { induction l as [|n l IH]; intro acc; cbn [fold_left size_sum fold_right]; [now rewrite Z.add_0_r|].
    rewrite wrap32_add, IH. f_equal. unfold size_sum. ring. }
  specialize (G sizes 0). change (wrap32 0) with 0 in G. rewrite G. reflexivity.
Qed.
Lemma total_leaves_exact sizes : 0 <= size_sum sizes < 2^31 -> total_leaves sizes = size_sum sizes.
Proof. intro H. rewrite total_leaves_wrap. apply wrap32_id. lia. Qed.

Lemma total_leaves_security t K sizes (B : scalar_of t -> bool) :
  stype_ok t -> s_size (scalar_of t) <= 16 -> (0 < K)%Q ->
  0 < size_sum sizes < 2^31 ->
  s_can_hash (scalar_of t) (security_per_leaf K (total_leaves sizes)) 128 = true ->
  (Qabs (hash_prob t 128 B - uniform_prob t B) < 1 / (inject_Z (size_sum sizes) * K))%Q.
Proof.
  intros Ht Hs HK Hsz H. rewrite total_leaves_exact in H by lia. unfold security_per_leaf in H.
  destruct (size_sum sizes <? 0) eqn:E; [apply Z.ltb_lt in E; exfalso; destruct Hsz as [Hsz _]; apply (Z.lt_asymm _ _ E Hsz)|].
  apply can_hash_128_sound; auto.
  setoid_replace 0%Q with (0 * K)%Q by (symmetry; apply Qmult_0_l).
  apply Qmult_lt_compat_r; [exact HK|]. change 0%Q with (inject_Z 0). rewrite <- Zlt_Qlt. apply Hsz.
Qed.
Lemma total_leaves_wrap_unsound :
  let t := ZZ_p (2^80 + 13) in let sizes := [2^30; 2^30; 2^30; 2^30] in let K := inject_Z (2^40) in
  stype_ok t /\
  s_can_hash (scalar_of t) (security_per_leaf K (total_leaves sizes)) 128 = true /\
  s_can_hash (scalar_of t) (security_per_leaf K (size_sum sizes)) 128 = false.
Proof. cbv zeta. split; [reflexivity|]. split; vm_compute; reflexivity. Qed.
Lemma total_leaves_wrap_rejects :
  let t := zz_p 3 in let sizes := [2^31] in let K := inject_Z (2^40) in
  stype_ok t /\
  s_can_hash (scalar_of t) (security_per_leaf K (total_leaves sizes)) 128 = false /\
  s_can_hash (scalar_of t) (security_per_leaf K (size_sum sizes)) 128 = true.
Proof. cbv zeta. split; [split; [reflexivity|discriminate]|]. split; vm_compute; reflexivity. Qed.
Lemma rot_sender_any_indices (S : scalar) aes clog K outs_s (outs_r outs_r' : list (list S)) ix ix' ta tb tb' rs rr rs' rr' :
  completes (rot_sender_batched S aes clog K outs_s) ta (rot_receiver_batched S aes clog ix outs_r) tb rs rr ->
  completes (rot_sender_batched S aes clog K outs_s) ta (rot_receiver_batched S aes clog ix' outs_r') tb' rs' rr' ->
  rs = rs'.
Proof.
  intros (n & ta1 & tb1 & H1 & _) (m & ta2 & tb2 & H2 & _).
  destruct (rot_sender_oblivious S aes clog K outs_s ta) as (ms & r & H).
  destruct (H _ _ _ _ _ H1) as [_ E1]. destruct (H _ _ _ _ _ H2) as [_ E2].
  rewrite (E1 rs eq_refl), (E2 rs' eq_refl). reflexivity.
Qed.
