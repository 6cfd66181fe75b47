(** Proofs about the amount of communication. *)
From Verif Require Import Base BaseFacts ListFacts ScalarModel ScalarSpec ProcModel GgmModel RotModel RotSpec SpfssModel PackModel GilboaModel GilboaSpec GilboaProofs
  RngModel CuckooModel CuckooSpec MpfssModel MpfssSpec MpfssProofs MpfssFinal VoleModel VoleSpec VoleProofs VoleMeet VolePair VoleSolo VoleHistory VoleUse PatternSpec PatternProofs CostSpec.
From Coq Require Import QArith.
Local Open Scope Z_scope.

(** ** Inversion *)
Section Does.
  Context {T : Type}.
  Lemma does_bind_inv {A B} (p : proc T A) (f : A -> proc T B) l b : does (pbind p f) l (Some b) ->
    exists l1 a l2, does p l1 (Some a) /\ does (f a) l2 (Some b) /\ l = l1 ++ l2.
  Proof.
    revert l. induction p as [r|m k IH|k IH|c cs k IH|k IH]; cbn [pbind]; intros l H.
    - exists [], r, l. split; [constructor|auto].
    - inversion H; subst. match goal with X : does _ _ _ |- _ => apply IH in X; destruct X as (l1 & a & l2 & H1 & H2 & ->) end.
      exists (sending m :: l1), a, l2. split; [now constructor|auto].
    - inversion H; subst. match goal with X : does _ _ _ |- _ => apply IH in X; destruct X as (l1 & a & l2 & H1 & H2 & ->) end.
      exists (Receives :: l1), a, l2. split; [econstructor; eassumption|auto].
    - inversion H; subst. match goal with X : does _ _ _ |- _ => apply IH in X; destruct X as (l1 & a & l2 & H1 & H2 & ->) end.
      exists (ReceivesTransfers c (List.length cs) :: l1), a, l2. split; [econstructor; eassumption|auto].
    - inversion H; subst. match goal with X : does _ _ _ |- _ => apply IH in X; destruct X as (l1 & a & l2 & H1 & H2 & ->) end.
      exists l1, a, l2. split; [econstructor; eassumption|auto].
  Qed.
  Lemma does_done {A} (a : A) l b : does (Ret a : proc T A) l (Some b) -> l = [] /\ b = a.
  Proof. intro H. inversion H; subst; auto. Qed.
  Lemma does_possible {A} (p : proc T A) l a : does p l (Some a) -> possible p a.
  Proof. intro H. remember (Some a) as o eqn:Eo. induction H; try discriminate; try (econstructor; eauto; fail). injection Eo as ->. constructor. Qed.
  Lemma does_send_inv {A} m (k : proc T A) l r : does (Send m k) l (Some r) -> exists l', l = sending m :: l' /\ does k l' (Some r).
  Proof. intro H. inversion H; subst; eauto. Qed.
  Lemma does_bindr {A B} (p : proc T (res A)) (f : A -> proc T (res B)) l b : does (pbindr p f) l (Some (Ok b)) ->
    exists l1 a l2, does p l1 (Some (Ok a)) /\ does (f a) l2 (Some (Ok b)) /\ l = l1 ++ l2.
  Proof.
    intro H. unfold pbindr in H. apply does_bind_inv in H. destruct H as (l1 & r & l2 & H1 & H2 & ->). destruct r as [a|e|w].
    - exists l1, a, l2. auto.
    - apply does_done in H2. destruct H2; discriminate.
    - apply does_done in H2. destruct H2; discriminate.
  Qed.
  Lemma does_lift {A B} (m : res A) (f : A -> proc T (res B)) l b : does (plift m f) l (Some (Ok b)) -> exists a, m = Ok a /\ does (f a) l (Some (Ok b)).
  Proof. destruct m; cbn [plift]; intro H; [eauto| |]; apply does_done in H; destruct H; discriminate. Qed.
  Lemma does_if {A} (c : bool) (r : res A) (k : proc T (res A)) l b : (forall x, r <> Ok x) -> does (if c then Ret r else k) l (Some (Ok b)) -> c = false /\ does k l (Some (Ok b)).
  Proof. intros Hr H. destruct c; [|auto]. apply does_done in H. destruct H as [_ H]. symmetry in H. now apply Hr in H. Qed.
  Lemma does_recv_vec {A} (k : list T -> proc T (res A)) l b : does (recv_vec k) l (Some (Ok b)) -> exists x l', l = Receives :: l' /\ does (k x) l' (Some (Ok b)).
  Proof. intro H. unfold recv_vec in H. inversion H; subst. destruct m; try (match goal with X : does (Ret _) _ _ |- _ => apply does_done in X; destruct X; discriminate end). eauto. Qed.
  Lemma does_recv_blocks {A} (k : list N -> proc T (res A)) l b : does (recv_blocks k) l (Some (Ok b)) -> exists x l', l = Receives :: l' /\ does (k x) l' (Some (Ok b)).
  Proof. intro H. unfold recv_blocks in H. inversion H; subst. destruct m; try (match goal with X : does (Ret _) _ _ |- _ => apply does_done in X; destruct X; discriminate end). eauto. Qed.
  Lemma does_recv_bytes {A} (k : list N -> proc T (res A)) l b : does (recv_bytes k) l (Some (Ok b)) -> exists x l', l = Receives :: l' /\ does (k x) l' (Some (Ok b)).
  Proof. intro H. unfold recv_bytes in H. inversion H; subst. destruct m; try (match goal with X : does (Ret _) _ _ |- _ => apply does_done in X; destruct X; discriminate end). eauto. Qed.
  Lemma does_ot_recv {A} c cs (k : list N -> proc T (res A)) l b : does (ot_recv c cs k) l (Some (Ok b)) ->
    exists x l', l = ReceivesTransfers c (List.length cs) :: l' /\ does (k x) l' (Some (Ok b)).
  Proof. intro H. unfold ot_recv in H. inversion H; subst. destruct x; [eauto|]. match goal with X : does (Ret _) _ _ |- _ => apply does_done in X; destruct X; discriminate end. Qed.
  Lemma does_blocks {A} n : forall (k : list N -> proc T A) l r, does (rand_blocks n k) l (Some r) -> exists bs, List.length bs = n /\ does (k bs) l (Some r).
  Proof.
    induction n as [|n IH]; cbn [rand_blocks]; intros k l r H; [exists []; auto|]. inversion H; subst.
    match goal with X : does (rand_blocks _ _) _ _ |- _ => apply IH in X; destruct X as (bs & Hl & X); exists (x :: bs); cbn; auto end.
  Qed.
  Lemma does_scalars {A} n : forall (k : list T -> proc T A) l r, does (rand_scalars n k) l (Some r) -> exists bs, List.length bs = n /\ does (k bs) l (Some r).
  Proof.
    induction n as [|n IH]; cbn [rand_scalars]; intros k l r H; [exists []; auto|]. inversion H; subst.
    match goal with X : does (rand_scalars _ _) _ _ |- _ => apply IH in X; destruct X as (bs & Hl & X); exists (t :: bs); cbn; auto end.
  Qed.
End Does.

(** ** Trees *)
Section Trees.
  Variable S : scalar.
  Variable aes : N -> N -> N.
  Variable clog : Z -> Z -> nat.

  Lemma alloc_sizes_len k A n acc : List.length (alloc_sizes k A n acc) = (k + List.length acc)%nat.
  Proof. revert n acc. induction k as [|k IH]; intros n acc; cbn [alloc_sizes]; [reflexivity|]. rewrite IH. cbn. lia. Qed.
  Lemma create_levels n seed keys t : ggm_create aes clog n seed keys = Ok t -> GgmModel.num_levels t = 1 + Z.of_nat (clog (zlen keys) n).
  Proof.
    unfold ggm_create. destruct (zlen keys <? 2); [discriminate|]. destruct (n <=? 0); [discriminate|].
    destruct (allocate_levels clog (zlen keys) n) as [lv| |] eqn:E0; cbn [rbind]; try discriminate.
    destruct (set_node lv 0 0 seed) as [l1| |] eqn:E1; cbn [rbind]; try discriminate.
    destruct (expand_subtree _ _ _ _ _ (t_levels (mk_tree l1 keys keys))) as [l2| |] eqn:E2; cbn [rbind]; try discriminate. intro H. injection H as <-.
    unfold GgmModel.num_levels. cbn [t_levels]. apply expand_subtree_zlen in E2. apply set_node_zlen in E1. cbn [t_levels mk_tree] in *.
    unfold allocate_levels in E0. destruct (zget _ 0) as [l0| |]; cbn [rbind] in E0; try discriminate. destruct (negb _); [discriminate|]. injection E0 as <-.
    rewrite E2, E1, zlen_map. unfold zlen. rewrite alloc_sizes_len. cbn [List.length]. lia.
  Qed.

  Definition sized n (o : option (res tree)) : Prop :=
    match o with None => n = 0 | Some r => n <> 0 /\ forall t, r = Ok t -> GgmModel.num_levels t = 1 + Z.of_nat (clog 2 n) end.
  Lemma prepare_count sizes ts : Forall2 sized sizes ts -> forall trees opts x y,
    prepare_opts ts trees opts = Ok (x, y) -> zlen y = zlen opts + tree_transfers clog sizes.
  Proof.
    induction 1 as [|n o sizes ts Ho _ IH]; intros trees opts x y; cbn [prepare_opts].
    - intro H. injection H as <- <-. cbn. lia.
    - destruct o as [r|]; cbn in Ho.
      + destruct Ho as [Hn Ho]. destruct r as [t| |]; cbn [rbind]; try discriminate. destruct (tree_ot_pairs t) as [nw| |] eqn:E; cbn [rbind]; try discriminate.
        intro H. apply IH in H. rewrite H, zlen_app. apply (tree_ot_pairs_zlen clog) in E. rewrite E, (Ho t eq_refl). cbn [tree_transfers fold_right].
        replace (n =? 0) with false by lia. unfold tree_transfers. lia.
      + subst n. intro H. apply IH in H. rewrite H. reflexivity.
  Qed.
  Lemma create_trees_does sizes keys : zlen keys = 2 -> forall k l r, does (create_trees S aes clog sizes keys k) l (Some r) ->
    exists ts, Forall2 sized sizes ts /\ does (k ts) l (Some r).
  Proof.
    intros Hk. induction sizes as [|n sizes IH]; cbn [create_trees]; intros k l r H.
    - exists []. auto.
    - destruct (Z.eqb_spec n 0) as [Hn|Hn].
      + apply IH in H. destruct H as (ts & HF & H). exists (None :: ts). split; [constructor; auto|exact H].
      + inversion H; subst. match goal with X : does (create_trees _ _ _ _ _ _) _ _ |- _ => apply IH in X; destruct X as (ts & HF & X) end.
        eexists (Some _ :: ts). split; [|eassumption]. constructor; [|auto]. split; [auto|]. intros t0 Ht. apply create_levels in Ht. now rewrite Hk in Ht.
  Qed.
  Lemma tree_transfers_nonneg sizes : 0 <= tree_transfers clog sizes.
  Proof. induction sizes as [|n sizes IH]; cbn; [lia|]. destruct (n =? 0); fold (tree_transfers clog sizes); lia. Qed.

  Lemma send_trees_does K sizes l ts : does (send_trees S aes clog K sizes 2) l (Some (Ok ts)) ->
    l = if_any (tree_transfers clog sizes) (SendsTransfers false) ++ [SendsBlocks 2].
  Proof.
    unfold send_trees. intro H. apply does_if in H; [|discriminate]. destruct H as [_ H]. apply does_blocks in H. destruct H as (keys & Lk & H).
    apply create_trees_does in H; [|unfold zlen; lia]. destruct H as (rs & HF & H). apply does_lift in H. destruct H as ([trees opts] & Ep & H).
    apply (prepare_count sizes) in Ep; [|exact HF]. change (zlen (@nil (N * N))) with 0 in Ep. pose proof (tree_transfers_nonneg sizes) as Hnn.
    unfold if_any. destruct (Z.ltb_spec 0 (zlen opts)).
    - replace (_ =? 0) with false by lia. unfold ot_send in H. apply does_send_inv in H. destruct H as (l' & -> & H). apply does_send_inv in H. destruct H as (l2 & -> & H).
      apply does_done in H. destruct H as [-> _]. cbn [sending app]. rewrite Lk. do 2 f_equal. unfold zlen in Ep. lia.
    - replace (_ =? 0) with true by lia. apply does_send_inv in H. destruct H as (l2 & -> & H). apply does_done in H. destruct H as [-> _]. cbn [sending app]. now rewrite Lk.
  Qed.

  Lemma tree_choices_zlen arity n i l : tree_choices clog arity n i = Ok l -> zlen l = Z.of_nat (clog arity n).
  Proof.
    unfold tree_choices. intro H. apply (for_range_keeps zlen) in H; [rewrite H; rewrite zrepeat_same; lia|]. intros j a a'. apply zset_zlen.
  Qed.
  Lemma all_choices_count sizes : forall indices choices offsets x y, zlen sizes = zlen indices ->
    all_choices clog 2 (combine sizes indices) choices offsets = Ok (x, y) -> zlen x = zlen choices + tree_transfers clog sizes.
  Proof.
    induction sizes as [|n sizes IH]; intros [|i indices] choices offsets x y Hl; rewrite ?zlen_cons in Hl; cbn [combine all_choices tree_transfers fold_right].
    - intro H. injection H as <- <-. lia.
    - pose proof (zlen_nonneg indices). change (zlen (@nil Z)) with 0 in Hl. lia.
    - pose proof (zlen_nonneg sizes). change (zlen (@nil Z)) with 0 in Hl. lia.
    - fold (tree_transfers clog sizes). destruct (n =? 0).
      + intro H. apply IH in H; lia.
      + destruct (tree_choices clog 2 n i) as [nw| |] eqn:E; cbn [rbind]; try discriminate. intro H. apply IH in H; [|lia].
        rewrite H, zlen_app. apply tree_choices_zlen in E. lia.
  Qed.
  Lemma receive_trees_does sizes indices l ts : does (receive_trees S aes clog sizes indices 2) l (Some (Ok ts)) ->
    l = if_any (tree_transfers clog sizes) (ReceivesTransfers false) ++ [Receives].
  Proof.
    unfold receive_trees. intro H. apply does_if in H; [|discriminate]. destruct H as [Hl H]. apply negb_false_iff in Hl. apply does_lift in H. destruct H as ([choices offsets] & Ec & H).
    apply all_choices_count in Ec; [|lia]. change (zlen (@nil bool)) with 0 in Ec. pose proof (tree_transfers_nonneg sizes) as Hnn.
    unfold if_any. destruct (Z.ltb_spec 0 (zlen choices)).
    - replace (_ =? 0) with false by lia. apply does_ot_recv in H. destruct H as (x & l' & -> & H). apply does_recv_blocks in H. destruct H as (ks & l2 & -> & H).
      apply does_done in H. destruct H as [-> _]. cbn [app]. do 2 f_equal. unfold zlen in Ec. lia.
    - replace (_ =? 0) with true by lia. apply does_recv_blocks in H. destruct H as (ks & l2 & -> & H). apply does_done in H. now destruct H as [-> _].
  Qed.

  Lemma value_does K vals outs l r : does (spfss_value_provider_batched S aes clog K vals outs) l (Some (Ok r)) ->
    l = value_steps (zlen outs) (tree_transfers clog (map zlen outs)).
  Proof.
    unfold spfss_value_provider_batched. intro H. apply does_if in H; [|discriminate]. destruct H as [Hl H]. apply negb_false_iff in Hl.
    apply does_bindr in H. destruct H as (l1 & outs' & l2 & H1 & H2 & ->). cbv zeta in H2. apply does_send_inv in H2. destruct H2 as (l3 & -> & H2). apply does_done in H2. destruct H2 as [-> _].
    unfold rot_sender_batched in H1. apply does_bindr in H1. destruct H1 as (l3 & ts & l4 & H1 & H2 & ->). apply does_done in H2. destruct H2 as [-> H2].
    apply send_trees_does in H1. subst l3. unfold value_steps. rewrite app_nil_r, <- app_assoc. cbn [app sending]. do 4 f_equal.
    assert (Lo : zlen outs' = zlen outs).
    { symmetry in H2. unfold unpack_all in H2. apply (for_range_keeps zlen) in H2; [exact H2|]. intros i a a' Ha.
      destruct (zget a i) as [o| |]; cbn [rbind] in Ha; try discriminate. destruct (zlen o =? 0); [now injection Ha as <-|].
      destruct (zget ts i) as [[t|]| |]; cbn [rbind] in Ha; try discriminate. destruct (unpack_last_level S t o); cbn [rbind] in Ha; try discriminate. now apply zset_zlen in Ha. }
    rewrite !map_length, combine_length. unfold zlen in *. lia.
  Qed.
  Lemma index_does vals indices outs l r : does (spfss_index_provider_batched S aes clog vals indices outs) l (Some (Ok r)) ->
    l = index_steps (tree_transfers clog (map zlen outs)).
  Proof.
    unfold spfss_index_provider_batched. intro H. apply does_if in H; [|discriminate]. destruct H as [_ H].
    apply does_bindr in H. destruct H as (l1 & outs' & l2 & H1 & H2 & ->). apply does_lift in H2. destruct H2 as (sums & _ & H2).
    apply does_recv_vec in H2. destruct H2 as (x & l3 & -> & H2). apply does_done in H2. destruct H2 as [-> _].
    unfold rot_receiver_batched in H1. apply does_if in H1; [|discriminate]. destruct H1 as [_ H1]. apply does_if in H1; [|discriminate]. destruct H1 as [_ H1].
    apply does_bindr in H1. destruct H1 as (l3 & ts & l4 & H1 & H2 & ->). apply does_done in H2. destruct H2 as [-> H2].
    apply receive_trees_does in H1. subst l3. unfold index_steps. rewrite app_nil_r, <- app_assoc. reflexivity.
  Qed.
End Trees.

(** ** Scalar-vector products *)
Section Gilboa.
  Variable S : scalar.
  Lemma vector_does K (y out : list S) l r : 1 <= s_size S -> does (gilboa_vector_provider S K y out) l (Some (Ok r)) ->
    l = [SendsTransfers (use_correlated_ot S K (zlen y)) (Z.to_nat (transfers (s_size S) (zlen y)))].
  Proof.
    intros Hs. unfold gilboa_vector_provider. intro H. apply does_if in H; [|discriminate]. destruct H as [_ H]. apply does_if in H; [|discriminate]. destruct H as [Hz H].
    apply does_lift in H. destruct H as (ds & Ed & H). apply vector_deltas_zlen in Ed. rewrite zrepeat_same in Ed.
    assert (Hp : 1 <= packing_factor S) by (unfold packing_factor; rewrite Z.quot_div_nonneg by lia; apply Z.div_le_lower_bound; lia).
    assert (Ht : zlen ds = transfers (s_size S) (zlen y)).
    { rewrite Ed. unfold transfers. replace (16 / s_size S) with (packing_factor S) by (unfold packing_factor; apply Z.quot_div_nonneg; lia). cbv zeta. unfold num_bits. pose proof (zlen_nonneg y).
      rewrite Z.quot_div_nonneg by lia. assert (0 <= (zlen y + packing_factor S - 1) / packing_factor S) by (apply Z.div_pos; lia). nia. }
    unfold run_ot_sender in H. destruct (use_correlated_ot S K (zlen y)).
    - apply does_blocks in H. destruct H as (m0 & Lm & H). unfold ot_send in H. apply does_send_inv in H. destruct H as (l' & -> & H). apply does_done in H. destruct H as [-> _].
      cbn [sending]. do 2 f_equal. unfold cot_pairs. rewrite map_length, combine_length. unfold zlen in *. lia.
    - apply does_scalars in H. destruct H as (m0 & Lm & H). unfold ot_send in H. apply does_send_inv in H. destruct H as (l' & -> & H). apply does_done in H. destruct H as [-> _].
      cbn [sending]. do 2 f_equal. unfold ot_pairs. rewrite map_length. pose proof (zlen_zrange_max 0 (zlen ds)) as Hr. unfold zlen in *. lia.
  Qed.
  Lemma vector_len K (y out : list S) l r : does (gilboa_vector_provider S K y out) l (Some (Ok r)) -> zlen r = zlen out.
  Proof.
    assert (Ha : forall (ot : list N) l, does (Ret (accumulate S (s_sub S) ot (zlen y) (fill_zero S out)) : proc S (res (list S))) l (Some (Ok r)) -> zlen r = zlen out).
    { intros ot l0 H. apply does_done in H. destruct H as [_ H]. symmetry in H. apply accumulate_zlen in H. rewrite H. apply zlen_map. }
    unfold gilboa_vector_provider. intro H. apply does_if in H; [|discriminate]. destruct H as [_ H]. apply does_if in H; [|discriminate]. destruct H as [Hz H].
    apply does_lift in H. destruct H as (ds & Ed & H). unfold run_ot_sender in H. destruct (use_correlated_ot S K (zlen y)).
    - apply does_blocks in H. destruct H as (m0 & Lm & H). unfold ot_send in H. apply does_send_inv in H. destruct H as (l' & -> & H). now apply Ha in H.
    - apply does_scalars in H. destruct H as (m0 & Lm & H). unfold ot_send in H. apply does_send_inv in H. destruct H as (l' & -> & H). now apply Ha in H.
  Qed.
  Lemma value_prod_does K (x : S) out l r : 1 <= s_size S -> zlen out < 2^31 -> does (gilboa_value_provider S K x out) l (Some (Ok r)) ->
    l = [ReceivesTransfers (use_correlated_ot S K (zlen out)) (Z.to_nat (transfers (s_size S) (zlen out)))].
  Proof.
    intros Hs Ho. unfold gilboa_value_provider. pose proof (zlen_nonneg out) as Ho0. rewrite wrap32_id by lia. intro H. apply does_if in H; [|discriminate]. destruct H as [Hz H].
    apply does_lift in H. destruct H as (sum & Es & H). apply does_lift in H. destruct H as (n & En & H). apply does_if in H; [|discriminate]. destruct H as [Hn H].
    apply does_lift in H. destruct H as (cs & Ec & H). apply value_choices_zlen in Ec. rewrite zrepeat_same in Ec.
    unfold int_result in Es, En. destruct (_ && _) in Es; [|discriminate]. injection Es as <-. destruct (_ && _) in En; [|discriminate]. injection En as <-.
    assert (Hp : 1 <= packing_factor S) by (unfold packing_factor; rewrite Z.quot_div_nonneg by lia; apply Z.div_le_lower_bound; lia).
    assert (Ht : zlen cs = transfers (s_size S) (zlen out)).
    { rewrite Ec. unfold transfers. replace (16 / s_size S) with (packing_factor S) by (unfold packing_factor; apply Z.quot_div_nonneg; lia). cbv zeta. unfold num_bits.
      rewrite Z.quot_div_nonneg by lia. assert (0 <= (zlen out + packing_factor S - 1) / packing_factor S) by (apply Z.div_pos; lia). nia. }
    unfold run_ot_receiver in H. apply does_ot_recv in H. destruct H as (x' & l' & -> & H). apply does_done in H. destruct H as [-> _]. do 2 f_equal. unfold zlen in *. lia.
  Qed.
End Gilboa.

(** ** Multi-point functions *)
Section Mpfss.
  Variable S : scalar.
  Variable aes : N -> N -> N.
  Variable clog : Z -> Z -> nat.
  Variable too : Z -> Z -> bool.
  Variable e3 e2 : Z -> Z.
  Notation update := (update_buckets aes too e3 e2).

  Lemma bucket_outputs_sizes (B : list (list Z)) bo :
    rmapM (fun i => rbind (zget B i) (fun b => Ok (zrepeat (s_zero S) (zlen b)))) (zrange 0 (zlen B)) = Ok bo -> map zlen bo = map zlen B.
  Proof.
    intro H. assert (E : rmapM (fun i => rbind (zget B i) (fun b => Ok (zrepeat (s_zero S) (zlen b)))) (zrange 0 (zlen B)) = Ok (map (fun i => zrepeat (s_zero S) (zlen (znth [] B i))) (zrange 0 (zlen B)))).
    { apply rmapM_ok. intros i Hi. apply In_zrange in Hi. rewrite (zget_ok []) by lia. reflexivity. }
    rewrite E in H. injection H as <-. rewrite map_map. transitivity (map (fun i => zlen (znth [] B i)) (zrange 0 (zlen B))).
    - apply map_ext. intro i. apply zlen_zrepeat, zlen_nonneg.
    - rewrite <- (map_map (znth [] B) zlen). f_equal. pose proof (zlen_nonneg B). apply (znth_ext []); [rewrite zlen_map, zlen_zrange; lia|]. intros i Hi. rewrite zlen_map, zlen_zrange in Hi by lia. rewrite (znth_map _ 0) by (rewrite zlen_zrange; lia). now rewrite znth_zrange by lia.
  Qed.

  Lemma with_state_does {A} (m m' : mpfss) (p : proc S (res A)) l r : does (with_state S m p) l (Some (m', r)) -> m' = m /\ does p l (Some r).
  Proof.
    unfold with_state. intro H. apply does_bind_inv in H. destruct H as (l1 & x & l2 & H1 & H2 & ->). apply does_done in H2. destruct H2 as [-> H2]. injection H2 as -> ->.
    rewrite app_nil_r. auto.
  Qed.
  Lemma after_update_does {A} u (k : mpfss -> proc S (res A)) l m' x : does (after_update S u k) l (Some (m', Ok x)) ->
    u = (m', Ok tt) /\ does (k m') l (Some (Ok x)).
  Proof.
    destruct u as [m [[]|e|w]]; cbn [after_update]; intro H.
    - apply with_state_does in H. now destruct H as [-> H].
    - apply does_done in H. destruct H; discriminate.
    - apply does_done in H. destruct H; discriminate.
  Qed.
  Lemma does_if2 {X A} (c : bool) (s : X) (r : res A) (k : proc S (X * res A)) l s' b : (forall x, r <> Ok x) -> does (if c then Ret (s, r) else k) l (Some (s', Ok b)) ->
    c = false /\ does k l (Some (s', Ok b)).
  Proof. intros Hr H. destruct c; [|auto]. apply does_done in H. destruct H as [_ H]. injection H as _ H. symmetry in H. now apply Hr in H. Qed.

  Lemma index_body_does (y : list S) idx u v h (B : list (list Z)) out l r : zlen B < 2^31 -> does (index_provider_body S aes clog too y idx u v h B out) l (Some (Ok r)) ->
    l = sender_round (zlen B) (tree_transfers clog (map zlen B)).
  Proof.
    intro HB. unfold index_provider_body. pose proof (zlen_nonneg B). rewrite wrap32_id by lia. intro H0.
    apply does_lift in H0. destruct H0 as (hi & _ & H0). apply does_if in H0; [|discriminate]. destruct H0 as [_ H0]. apply does_lift in H0. destruct H0 as (yp & Ey & H0).
    apply does_if in H0; [|discriminate]. destruct H0 as [Hu H0]. apply negb_false_iff in Hu. apply does_send_inv in H0. destruct H0 as (l1 & -> & H0).
    cbv zeta in H0. apply does_lift in H0. destruct H0 as (bo & Eb & H0). apply does_lift in H0. destruct H0 as (ib & _ & H0).
    apply does_bindr in H0. destruct H0 as (l2 & bo' & l3 & H1 & H2 & ->). apply does_done in H2. destruct H2 as [-> _]. rewrite app_nil_r.
    apply index_does in H1. subst l2. apply bucket_outputs_sizes in Eb. rewrite Eb. unfold sender_round. f_equal. cbn [sending]. f_equal.
    unfold permute_y in Ey. apply rmapM_zlen in Ey. rewrite zlen_zrange_max in Ey. rewrite map_length, combine_length. unfold zlen in *. lia.
  Qed.
  Lemma value_body_does K (x : S) w (B : list (list Z)) out l r : zlen B < 2^31 -> does (value_provider_body S aes clog K x w B out) l (Some (Ok r)) ->
    l = receiver_round (zlen B) (tree_transfers clog (map zlen B)).
  Proof.
    intro HB. unfold value_provider_body. pose proof (zlen_nonneg B). rewrite wrap32_id by lia. intro H0.
    apply does_recv_vec in H0. destruct H0 as (ym & l1 & -> & H0). apply does_if in H0; [|discriminate]. destruct H0 as [_ H0]. cbv zeta in H0.
    apply does_if in H0; [|discriminate]. destruct H0 as [_ H0]. apply does_lift in H0. destruct H0 as (bo & Eb & H0).
    apply does_bindr in H0. destruct H0 as (l2 & bo' & l3 & H1 & H2 & ->). apply does_done in H2. destruct H2 as [-> _]. rewrite app_nil_r.
    apply value_does in H1. subst l2. apply bucket_outputs_sizes in Eb. rewrite Eb. unfold receiver_round. do 2 f_equal.
    rewrite <- (zlen_map zlen bo), Eb. apply zlen_map.
  Qed.

  Lemma mpfss_index_does sizes m (y : list S) idx u v out l m1 m' r : update sizes m (zlen out) (zlen y) = (m1, Ok tt) -> zlen (m_buckets m1) < 2^31 ->
    does (mpfss_index_provider S aes clog too e3 e2 sizes m y idx u v out) l (Some (m', Ok r)) ->
    m' = m1 /\ l = sender_round (zlen (m_buckets m1)) (tree_transfers clog (map zlen (m_buckets m1))).
  Proof.
    intros E1 HB. unfold mpfss_index_provider. intro H. do 5 (apply does_if2 in H; [|discriminate]; destruct H as [_ H]).
    apply after_update_does in H. destruct H as [Hu H]. rewrite E1 in Hu. injection Hu as <-. split; [reflexivity|]. now apply index_body_does in H.
  Qed.
  Lemma mpfss_value_does K sizes m (x : S) n w out l m1 m' r : update sizes m (zlen out) n = (m1, Ok tt) -> zlen (m_buckets m1) < 2^31 ->
    does (mpfss_value_provider S aes clog K too e3 e2 sizes m x n w out) l (Some (m', Ok r)) ->
    m' = m1 /\ l = receiver_round (zlen (m_buckets m1)) (tree_transfers clog (map zlen (m_buckets m1))).
  Proof.
    intros E1 HB. unfold mpfss_value_provider. intro H. apply does_if2 in H; [|discriminate]. destruct H as [_ H].
    apply after_update_does in H. destruct H as [Hu H]. rewrite E1 in Hu. injection Hu as <-. split; [reflexivity|]. now apply value_body_does in H.
  Qed.
End Mpfss.

(** ** Vector-OLE *)
Section Vole.
  Variable S : scalar.
  Variable E : setting.
  Hypothesis G : good_setting S E.
  Variable M : machine S.
  Hypothesis GM : good_machine S M.
  Notation P := (e_parameters E).
  Notation aes := (e_aes E).
  Notation clog := (e_clog E).
  Notation too := (e_too_many_bits E).
  Notation e3 := (e_expansion3 E).
  Notation e2 := (e_expansion2 E).
  Notation lv := (zlen (p_seed_size P)).
  Notation top := (last (p_output_size P) 0).
  Notation sd i := (znth 0 (p_seed_size P) i).
  Notation no i := (znth 0 (p_num_noise P) i).

  Lemma does_mbind {A B} (p : member S A) (f : A -> member S B) st l st' b : does (mbind p f st) l (Some (st', Ok b)) ->
    exists l1 st1 a l2, does (p st) l1 (Some (st1, Ok a)) /\ does (f a st1) l2 (Some (st', Ok b)) /\ l = l1 ++ l2.
  Proof.
    intro H. unfold mbind in H. apply does_bind_inv in H. destruct H as (l1 & [st1 r] & l2 & H1 & H2 & ->). destruct r as [a|e|w].
    - exists l1, st1, a, l2. auto.
    - apply does_done in H2. destruct H2; discriminate.
    - apply does_done in H2. destruct H2; discriminate.
  Qed.
  Lemma does_mcalc {A B} (m : res A) (f : A -> member S B) st l st' b : does (mbind (mcalc m) f st) l (Some (st', Ok b)) -> exists a, m = Ok a /\ does (f a st) l (Some (st', Ok b)).
  Proof.
    intro H. apply does_mbind in H. destruct H as (l1 & st1 & a & l2 & H1 & H2 & ->). unfold mcalc in H1. apply does_done in H1. destruct H1 as [-> H1]. injection H1 as -> <-. eauto.
  Qed.
  Lemma does_mproc {A B} (p : proc S (res A)) (f : A -> member S B) st l st' b : does (mbind (mproc p) f st) l (Some (st', Ok b)) ->
    exists l1 a l2, does p l1 (Some (Ok a)) /\ does (f a st) l2 (Some (st', Ok b)) /\ l = l1 ++ l2.
  Proof.
    intro H. apply does_mbind in H. destruct H as (l1 & st1 & a & l2 & H1 & H2 & ->). unfold mproc in H1. apply does_bind_inv in H1. destruct H1 as (l3 & r & l4 & H1 & H3 & ->).
    apply does_done in H3. destruct H3 as [-> H3]. injection H3 as -> <-. rewrite app_nil_r. eauto 10.
  Qed.
  Lemma does_mfail {A} (c : bool) e (k : member S A) st l st' b : does ((if c then mfail e else k) st) l (Some (st', Ok b)) -> c = false /\ does (k st) l (Some (st', Ok b)).
  Proof. destruct c; [|auto]. intro H. apply does_done in H. destruct H; discriminate. Qed.
  Lemma does_mub {A} (c : bool) w (k : member S A) st l st' b : does ((if c then mcalc (UB w) else k) st) l (Some (st', Ok b)) -> c = false /\ does (k st) l (Some (st', Ok b)).
  Proof. destruct c; [|auto]. intro H. apply does_done in H. destruct H; discriminate. Qed.
  Lemma get_sender_does n st l st' b : does (get_sender_cached S n st) l (Some (st', Ok b)) -> l = [].
  Proof. unfold get_sender_cached. intro H. destruct (_ <? n); [apply does_done in H; tauto|]. destruct (n <? 0); apply does_done in H; tauto. Qed.
  Lemma get_receiver_does n st l st' b : does (get_receiver_cached S n st) l (Some (st', Ok b)) -> l = [].
  Proof. unfold get_receiver_cached. intro H. destruct (_ <? n); [apply does_done in H; tauto|]. destruct (n <? 0); apply does_done in H; tauto. Qed.
  Lemma new_sender_does n k st l st' b : does (new_sender_seeds S n k st) l (Some (st', Ok b)) -> l = [] /\ exists x, st' = set_s S x st.
  Proof.
    unfold new_sender_seeds. intro H. apply does_mbind in H. destruct H as (l1 & st1 & a & l2 & H1 & H2 & ->). pose proof (does_possible _ _ _ H1) as P1. apply get_sender_does in H1. subst l1.
    rewrite bind_set in H2. apply does_mbind in H2. destruct H2 as (l1 & st2 & a2 & l3 & H1 & H2 & ->). pose proof (does_possible _ _ _ H1) as P2. apply get_sender_does in H1. subst l1.
    apply does_done in H2. destruct H2 as [-> H2]. injection H2 as -> _. split; [reflexivity|].
    unfold get_sender_cached in P1, P2. destruct (_ <? n) in P1; [apply possible_ret_inv in P1; discriminate|]. destruct (n <? 0) in P1; apply possible_ret_inv in P1; [discriminate|].
    destruct (_ <? k) in P2; [apply possible_ret_inv in P2; discriminate|]. destruct (k <? 0) in P2; apply possible_ret_inv in P2; [discriminate|]. injection P1 as -> _. injection P2 as -> _. eexists. reflexivity.
  Qed.
  Lemma new_receiver_does n k st l st' b : does (new_receiver_seeds S n k st) l (Some (st', Ok b)) -> l = [] /\ exists x, st' = set_r S x st.
  Proof.
    unfold new_receiver_seeds. intro H. apply does_mbind in H. destruct H as (l1 & st1 & a & l2 & H1 & H2 & ->). pose proof (does_possible _ _ _ H1) as P1. apply get_receiver_does in H1. subst l1.
    rewrite bind_set in H2. apply does_mbind in H2. destruct H2 as (l1 & st2 & a2 & l3 & H1 & H2 & ->). pose proof (does_possible _ _ _ H1) as P2. apply get_receiver_does in H1. subst l1.
    apply does_done in H2. destruct H2 as [-> H2]. injection H2 as -> _. split; [reflexivity|].
    unfold get_receiver_cached in P1, P2. destruct (_ <? n) in P1; [apply possible_ret_inv in P1; discriminate|]. destruct (n <? 0) in P1; apply possible_ret_inv in P1; [discriminate|].
    destruct (_ <? k) in P2; [apply possible_ret_inv in P2; discriminate|]. destruct (k <? 0) in P2; apply possible_ret_inv in P2; [discriminate|]. injection P1 as -> _. injection P2 as -> _. eexists. reflexivity.
  Qed.

  (** Sizes of the buckets, for the seed of the hash functions. *)
  Definition sizes_of seed N n : list Z := map zlen (map (simple_bucket (bucket_of aes seed (e3 n)) 3 (map uint128_of_int64 (zrange 0 N))) (zrange 0 (e3 n))).
  Definition coh seed (m : mpfss) : Prop := coherent aes too e3 e2 (Hasher seed 3) m.

  Lemma sizes_three seed N i : 0 <= i < lv -> 0 <= N -> three_choices (level_buckets E i) N (sizes_of seed N (no i)).
  Proof.
    intros Hi HN. pose proof (level_facts S E G i Hi). pose proof (top_small S E G). unfold three_choices, level_buckets, sizes_of. split; [rewrite !zlen_map, zlen_zrange; lia|]. split.
    - apply Forall_forall. intros s Hs. apply in_map_iff in Hs. destruct Hs as (b & <- & _). apply zlen_nonneg.
    - apply (sizes_total aes clog too e3 e2 (He3 S E G) (He2 S E G)); lia.
  Qed.
  Lemma update_level seed m out i : coh seed m -> 0 <= i < lv -> 0 <= out <= top -> exists m1,
    update_buckets aes too e3 e2 (c_split M out) m out (no i) = (m1, Ok tt) /\ coh seed m1 /\ zlen (m_buckets m1) = e3 (no i) /\ map zlen (m_buckets m1) = sizes_of seed out (no i).
  Proof.
    intros Hc Hi Ho. pose proof (level_facts S E G i Hi) as (Hsd & Hn & Hs & Ht & _). pose proof (top_small S E G).
    pose proof (update_coherent aes too e3 e2 (He3 S E G) (He2 S E G) (Hasher seed 3) ltac:(cbn; lia) (c_split M out) m out (no i) Hc (gm_split S M GM out)) as Hc1.
    rewrite (update_ok aes clog too e3 e2 (He3 S E G) (He2 S E G) seed) in * by first [assumption | lia | apply Ht; lia | apply (gm_split S M GM); lia].
    eexists. split; [reflexivity|]. split; [exact Hc1|]. cbn [m_buckets]. split; [rewrite !zlen_map, zlen_zrange; lia|reflexivity].
  Qed.

  Lemma expand_sender_does seed i out nvs nms st l st' x : coh seed (v_mpfss st) -> 0 <= i < lv -> v_num_noise st = no i -> 0 <= out <= top ->
    does (expand_sender S E M out nvs nms st) l (Some (st', Ok x)) ->
    l = sender_round (level_buckets E i) (tree_transfers clog (sizes_of seed out (no i))) /\ coh seed (v_mpfss st') /\
    v_batch_size st' = v_batch_size st /\ v_vole_seed_size st' = nvs /\ v_mpfss_seed_size st' = nms /\ v_num_noise st' = v_num_noise st.
  Proof.
    intros Hc Hi Hn Ho H. pose proof (level_facts S E G i Hi) as (Hsd & Hno & Hs & Ht & _). pose proof (top_small S E G) as Htop.
    unfold expand_sender in H. rewrite !bind_get in H. cbv zeta in H. apply does_mfail in H. destruct H as [_ H]. apply does_mfail in H. destruct H as [_ H].
    apply does_mproc in H. destruct H as (l1 & bs & l2 & H1 & H & ->). apply does_blocks in H1. destruct H1 as (bs' & _ & H1). apply does_done in H1. destruct H1 as [-> _]. cbn [app].
    apply does_mcalc in H. destruct H as (g & _ & H). apply does_mcalc in H. destruct H as (set & _ & H).
    apply does_mproc in H. destruct H as (l1 & idx & l3 & H1 & H & ->). inversion H1; subst. match goal with X : does (Ret _) _ _ |- _ => apply does_done in X; destruct X as [-> _] end. cbn [app].
    apply does_mub in H. destruct H as [_ H].
    apply does_mproc in H. destruct H as (l1 & y & l2 & Hy & H & ->). apply does_scalars in Hy. destruct Hy as (y' & Ly & Hy). apply does_done in Hy. destruct Hy as [-> Hy]. injection Hy as ->. cbn [app].
    apply does_mbind in H. destruct H as (l1 & st1 & v0 & l3 & H2 & H & ->). unfold mmpfss in H2. apply does_bind_inv in H2. destruct H2 as (l4 & [m r] & l5 & H2 & H3 & ->). apply does_done in H3. destruct H3 as [-> H3]. injection H3 as -> <-.
    assert (Ly' : zlen y' = no i) by (unfold zlen; lia). destruct (update_level seed (v_mpfss st) out i Hc Hi Ho) as (m1 & Eu & Hc1 & Lm & Es).
    eapply mpfss_index_does in H2; [|rewrite zlen_zrepeat, Ly' by lia; exact Eu|lia]. destruct H2 as [-> ->]. rewrite Lm, Es.
    apply does_mcalc in H. destruct H as (mu & _ & H). rewrite bind_set in H. apply does_mbind in H. destruct H as (l5 & st2 & [] & l6 & H4 & H & ->). apply new_sender_does in H4. destruct H4 as [-> [z ->]].
    rewrite bind_set in H. apply does_done in H. destruct H as [-> H]. injection H as -> _. rewrite !app_nil_r. split; [reflexivity|]. split; [exact Hc1|]. cbn. auto.
  Qed.
  Lemma expand_receiver_does seed i out nvs nms st l st' x : coh seed (v_mpfss st) -> 0 <= i < lv -> v_num_noise st = no i -> 0 <= out <= top ->
    does (expand_receiver S E M out nvs nms st) l (Some (st', Ok x)) ->
    l = receiver_round (level_buckets E i) (tree_transfers clog (sizes_of seed out (no i))) /\ coh seed (v_mpfss st') /\
    v_batch_size st' = v_batch_size st /\ v_vole_seed_size st' = nvs /\ v_mpfss_seed_size st' = nms /\ v_num_noise st' = v_num_noise st.
  Proof.
    intros Hc Hi Hn Ho H. pose proof (level_facts S E G i Hi) as (Hsd & Hno & Hs & Ht & _). pose proof (top_small S E G) as Htop.
    unfold expand_receiver in H. rewrite !bind_get in H. cbv zeta in H. apply does_mfail in H. destruct H as [_ H]. rewrite bind_set in H.
    apply does_mbind in H. destruct H as (l1 & st1 & v0 & l3 & H2 & H & ->). unfold mmpfss in H2. apply does_bind_inv in H2. destruct H2 as (l4 & [m r] & l5 & H2 & H3 & ->). apply does_done in H3. destruct H3 as [-> H3]. injection H3 as -> <-.
    destruct (update_level seed (v_mpfss st) out i Hc Hi Ho) as (m1 & Eu & Hc1 & Lm & Es).
    eapply mpfss_value_does in H2; [|rewrite zlen_zrepeat, Hn by lia; exact Eu|lia]. destruct H2 as [-> ->]. rewrite Lm, Es.
    rewrite bind_set in H. apply does_mbind in H. destruct H as (l5 & st2 & [] & l6 & H4 & H & ->). apply new_receiver_does in H4. destruct H4 as [-> [z ->]].
    rewrite bind_set in H. apply does_done in H. destruct H as [-> H]. injection H as -> _. rewrite !app_nil_r. split; [reflexivity|]. split; [exact Hc1|]. cbn. auto.
  Qed.

  Lemma block_bytes_length x : List.length (block_bytes x) = 16%nat.
  Proof. unfold block_bytes. rewrite map_length. reflexivity. Qed.
  Lemma exchange_does l x : does (exchange_seed S M) l (Some (Ok x)) -> l = seed_steps M.
  Proof.
    unfold exchange_seed, seed_steps. destruct (c_id M <? c_peer_id M); intro H.
    - apply does_blocks in H. destruct H as ([|b1 [|b2 [|]]] & Lb & H); try discriminate. apply does_send_inv in H. destruct H as (l' & -> & H). apply does_done in H. destruct H as [-> _].
      cbn [sending map List.concat app]. rewrite !app_length, !block_bytes_length. reflexivity.
    - apply does_recv_bytes in H. destruct H as (y & l' & -> & H). apply does_done in H. now destruct H as [-> _].
  Qed.
  Lemma common_does seed i out st l st' x : coh seed (v_mpfss st) -> 0 <= i < lv -> v_num_noise st = no i -> 0 <= out <= top ->
    does (precompute_common S E M out st) l (Some (st', Ok x)) -> l = seed_steps M /\ exists m cols, st' = set_generator S (v_vole_seed_size st) cols (set_mpfss S m st) /\ coh seed m.
  Proof.
    intros Hc Hi Hn Ho H. unfold precompute_common in H. rewrite bind_get, Hn in H.
    destruct (update_level seed (v_mpfss st) out i Hc Hi Ho) as (m1 & Eu & Hc1 & _).
    erewrite bind_ok in H; [|unfold m_update_buckets; rewrite Eu; reflexivity]. rewrite bind_get, bind_set in H.
    apply does_mproc in H. destruct H as (l1 & bs & l2 & H1 & H & ->). apply exchange_does in H1. subst l1. apply does_mcalc in H. destruct H as (g & _ & H).
    apply does_mfail in H. destruct H as [_ H]. apply does_mcalc in H. destruct H as (cols & _ & H). apply does_done in H. destruct H as [-> H]. injection H as -> _.
    rewrite app_nil_r. split; [reflexivity|]. exists m1, cols. split; [reflexivity|exact Hc1].
  Qed.

  Section Climb.
    Variable step : Z -> Z -> Z -> member S unit.
    Variable round : Z -> Z -> list action.
    Hypothesis Hstep : forall seed i out nvs nms st l st' x, coh seed (v_mpfss st) -> 0 <= i < lv -> v_num_noise st = no i -> 0 <= out <= top ->
      does (step out nvs nms st) l (Some (st', Ok x)) ->
      l = round (level_buckets E i) (tree_transfers clog (sizes_of seed out (no i))) /\ coh seed (v_mpfss st') /\
      v_batch_size st' = v_batch_size st /\ v_vole_seed_size st' = nvs /\ v_mpfss_seed_size st' = nms /\ v_num_noise st' = v_num_noise st.

    Lemma bootstrap_does seed batch n : forall i st l0 l st' x, coh seed (v_mpfss st) -> level S E st i -> 1 <= batch -> Z.to_nat (lv - 1 - i) = n ->
      (forall k, 0 <= k < i -> level_output E k < batch + level_buckets E k + level_seed E k) -> climbs E (seed_steps M) round i l0 ->
      does (bootstrap S E M step batch (zrange i (lv - 1)) st) l (Some (st', Ok x)) ->
      exists j, final_level E batch j /\ climbs E (seed_steps M) round j (l0 ++ l) /\ level S E st' j /\ coh seed (v_mpfss st').
    Proof.
      induction n as [|n IH]; intros i st l0 l st' x Hc Hlv Hb Hn Hlow Hcl H; pose proof Hlv as (Hi & E1 & E2 & E3).
      { rewrite zrange_nil in H by lia. cbn [bootstrap] in H. apply does_done in H. destruct H as [-> H]. injection H as -> ->. rewrite app_nil_r.
        exists i. split; [split; [exact Hi|]; split; [exact Hlow|left; unfold level_count; lia]|auto]. }
      rewrite zrange_cons in H by lia. cbn [bootstrap] in H. pose proof (gs_outputs S E G) as Go. pose proof (gs_noises S E G) as Gn. pose proof (top_small S E G) as Htop.
      rewrite (bind_calc S _ (znth 0 (p_output_size P) i)) in H by (apply zget_ok; lia). rewrite !bind_get in H. apply does_mcalc in H. destruct H as (needed & En & H).
      unfold int64_result in En. destruct (_ && _) in En; [|discriminate]. injection En as <-. rewrite E1, E2 in H.
      change (znth 0 (p_output_size P) i) with (level_output E i) in H. change (e3 (no i)) with (level_buckets E i) in H. change (sd i) with (level_seed E i) in H.
      destruct (Z.leb_spec (batch + level_buckets E i + level_seed E i) (level_output E i)) as [Hfit|Hfit].
      { apply does_done in H. destruct H as [-> H]. injection H as -> ->. rewrite app_nil_r. exists i. split; [split; [exact Hi|]; split; [exact Hlow|right; exact Hfit]|auto]. }
      assert (Hi1 : 0 <= i + 1 < lv) by lia. pose proof (level_facts S E G (i + 1) Hi1) as (F1 & F2 & F3 & _).
      rewrite (bind_calc S _ (sd (i + 1))) in H by (apply zget_ok; lia). rewrite (bind_calc S _ (no (i + 1))) in H by (apply zget_ok; lia).
      rewrite (bind_ok S _ _ st st (e3 (no (i + 1)))) in H by (unfold m_num_buckets; rewrite (num_buckets_solo S E G); auto; now rewrite (proj1 Hc)).
      set (out := sd (i + 1) + e3 (no (i + 1))) in *. rewrite (bind_calc S _ out) in H by (apply int_small; lia).
      apply does_mbind in H. destruct H as (l1 & st1 & [] & l2 & H1 & H & ->). eapply common_does in H1; [|exact Hc|exact Hi|exact E3|lia]. destruct H1 as (-> & m & cols & -> & Hc1).
      apply does_mbind in H. destruct H as (l1 & st2 & [] & l3 & H1 & H & ->). eapply (Hstep seed i) in H1; [|exact Hc1|exact Hi|exact E3|lia]. destruct H1 as (-> & Hc2 & B1 & B2 & B3 & B4).
      rewrite bind_set in H. eapply IH with (i := i + 1) (l0 := l0 ++ seed_steps M ++ round (level_buckets E i) (tree_transfers clog (sizes_of seed out (no i)))) in H; [| |split; [lia|cbn; auto]|exact Hb|lia| |].
      - destruct H as (j & Hj & Hl & Hrest). exists j. split; [exact Hj|]. split; [|exact Hrest].
        rewrite <- !app_assoc in Hl. exact Hl.
      - exact Hc2.
      - intros k Hk. destruct (Z.eq_dec k i) as [->|]; [exact Hfit|apply Hlow; lia].
      - apply climbs_next; [lia|exact Hcl|]. apply sizes_three; [exact Hi|]. unfold level_seed, level_buckets. lia.
    Qed.
  End Climb.

  Lemma last_does seed i batch st l st' x : coh seed (v_mpfss st) -> level S E st i -> 1 <= batch ->
    does (precompute_last S E M batch st) l (Some (st', Ok x)) -> l = seed_steps M /\ coh seed (v_mpfss st') /\ level S E st' i /\ v_batch_size st' = Z.min batch (room E i).
  Proof.
    intros Hc Hlv Hbt H. pose proof Hlv as (Hi & E1 & E2 & E3). pose proof (gs_outputs S E G) as Go. pose proof (gs_levels S E G) as Gl. pose proof (top_small S E G) as Htop. pose proof (level_facts S E G i Hi) as (K1 & K2 & K3 & _).
    unfold precompute_last in H. rewrite (bind_calc S _ top) in H by (rewrite (zget_ok 0) by lia; f_equal; apply znth_last).
    rewrite !bind_get, E1, E2 in H. rewrite (bind_calc S _ (top - e3 (no i) - sd i)) in H by (apply int_small; lia). rewrite bind_set in H.
    set (be := Z.min batch (top - e3 (no i) - sd i)) in H. set (a1 := set_batch_size S be st) in H.
    assert (Ef : full_output S a1 = Ret (a1, Ok (be + sd i + e3 (no i)))).
    { unfold full_output. rewrite !bind_get. cbn [a1 set_batch_size v_batch_size v_vole_seed_size v_mpfss_seed_size]. rewrite E1, E2. unfold mcalc. rewrite int64_small by lia. reflexivity. }
    rewrite (bind_ok S _ _ a1 a1 _ Ef) in H. eapply (common_does seed i) in H; [|exact Hc|exact Hi|exact E3|lia]. destruct H as (-> & m & cols & -> & Hm).
    split; [reflexivity|]. split; [exact Hm|]. split; [split; [exact Hi|cbn; auto]|]. cbn. unfold be, room, level_output, level_count, level_seed, level_buckets. now rewrite <- Go, <- znth_last.
  Qed.

  Lemma precompute_sender_does seed batch st l st' x : base S E st -> coh seed (v_mpfss st) -> 1 <= s_size S -> does (precompute_sender S E M batch st) l (Some (st', Ok x)) ->
    let n := level_seed E 0 + level_buckets E 0 in
    exists j l1, final_level E batch j /\ climbs E (seed_steps M) sender_round j l1 /\ coh seed (v_mpfss st') /\ (level S E st' j /\ v_batch_size st' = Z.min batch (room E j)) /\
      l = [SendsTransfers (use_correlated_ot S (vole_K E) n) (Z.to_nat (transfers (s_size S) n)); SendsVector (Z.to_nat n)] ++ l1 ++ seed_steps M.
  Proof.
    intros Hb Hc Hsz H n. unfold precompute_sender in H. apply does_mfail in H. destruct H as [Hbt H].
    pose proof (gs_levels S E G) as Gl. pose proof (level_facts S E G 0 ltac:(lia)) as (K1 & K2 & K3 & _). pose proof (top_small S E G) as Htop.
    rewrite (bind_ok S _ _ _ _ _ (sizes_solo S E G st (proj1 Hb))) in H. set (st0 := set_mpfss_seed_size S _ _) in H. change (sd 0 + e3 (no 0)) with n in H.
    assert (Hn : 0 <= n) by (unfold n, level_seed, level_buckets; lia).
    apply does_mbind in H. destruct H as (l1 & st1 & [] & l2 & H1 & H & ->). unfold sender_first_seed in H1.
    apply does_mproc in H1. destruct H1 as (k1 & u & k2 & Hu & H1 & ->). apply does_scalars in Hu. destruct Hu as (u' & Lu & Hu). apply does_done in Hu. destruct Hu as [-> Hu]. injection Hu as ->.
    apply does_mproc in H1. destruct H1 as (k1 & v & k3 & Hv & H1 & ->). apply does_scalars in Hv. destruct Hv as (v' & Lv & Hv). apply does_done in Hv. destruct Hv as [-> Hv]. injection Hv as ->.
    rewrite bind_set in H1. apply does_mproc in H1. destruct H1 as (k1 & w & k4 & Hw & H1 & ->). pose proof (vector_len _ _ _ _ _ _ Hw) as Pw. apply vector_does in Hw; [|exact Hsz]. subst k1.
    unfold mproc in H1. cbn [pbind] in H1. apply does_send_inv in H1. destruct H1 as (k5 & -> & H1). apply does_done in H1. destruct H1 as [-> H1]. injection H1 as ->.
    rewrite !bind_get in H. apply does_mbind in H. destruct H as (k6 & st2 & [] & k7 & H1 & H & ->). apply new_sender_does in H1. destruct H1 as [-> [z ->]].
    apply does_mbind in H. destruct H as (k8 & st3 & [] & k9 & H1 & H & ->).
    unfold levels in H1. eapply (bootstrap_does (expand_sender S E M) sender_round expand_sender_does seed batch _ 0 _ []) in H1; [|exact Hc|split; [lia|cbn; auto]|lia|reflexivity|lia|constructor].
    destruct H1 as (j & Hj & Hl & Hlv & Hc3). apply does_mbind in H. destruct H as (k10 & st4 & [] & k11 & H1 & H & ->). eapply last_does in H1; [|exact Hc3|exact Hlv|lia]. destruct H1 as (-> & Hc4 & Hlv4).
    apply does_done in H. destruct H as [-> H]. injection H as -> _. exists j, k8. split; [exact Hj|]. split; [exact Hl|]. split; [exact Hc4|]. split; [exact Hlv4|].
    assert (Lu' : zlen u' = n) by (unfold zlen; lia). rewrite !app_nil_r, Lu'. cbn [app sending]. do 3 f_equal.
    assert (Lw : zlen w = n).
    { rewrite Pw. apply zlen_zrepeat. exact Hn. }
    unfold vec_add. rewrite map_length, combine_length. unfold zlen in *. lia.
  Qed.

  Lemma precompute_receiver_does seed batch d st l st' x : base S E st -> coh seed (v_mpfss st) -> 1 <= s_size S -> does (precompute_receiver S E M batch d st) l (Some (st', Ok x)) ->
    let n := level_seed E 0 + level_buckets E 0 in
    exists j l1, final_level E batch j /\ climbs E (seed_steps M) receiver_round j l1 /\ coh seed (v_mpfss st') /\ (level S E st' j /\ v_batch_size st' = Z.min batch (room E j)) /\
      l = [ReceivesTransfers (use_correlated_ot S (vole_K E) n) (Z.to_nat (transfers (s_size S) n)); Receives] ++ l1 ++ seed_steps M.
  Proof.
    intros Hb Hc Hsz H n. unfold precompute_receiver in H. apply does_mfail in H. destruct H as [Hbt H].
    pose proof (gs_levels S E G) as Gl. pose proof (level_facts S E G 0 ltac:(lia)) as (K1 & K2 & K3 & _). pose proof (top_small S E G) as Htop.
    rewrite (bind_ok S _ _ _ _ _ (sizes_solo S E G st (proj1 Hb))) in H. set (st0 := set_mpfss_seed_size S _ _) in H. change (sd 0 + e3 (no 0)) with n in H.
    assert (Hn : 0 <= n < 2^31) by (unfold n, level_seed, level_buckets; lia).
    apply does_mbind in H. destruct H as (l1 & st1 & [] & l2 & H1 & H & ->). unfold receiver_first_seed in H1. rewrite bind_set in H1.
    assert (Lj : zlen (map (c_junk M) (zrange 0 n)) = n) by (rewrite zlen_map, zlen_zrange; lia).
    apply does_mproc in H1. destruct H1 as (k1 & w & k4 & Hw & H1 & ->). apply value_prod_does in Hw; [|exact Hsz|lia]. subst k1. rewrite Lj.
    apply does_mproc in H1. destruct H1 as (k1 & w2 & k5 & Hw & H1 & ->). apply does_recv_vec in Hw. destruct Hw as (w' & k6 & -> & Hw). apply does_done in Hw. destruct Hw as [-> _].
    apply does_mub in H1. destruct H1 as [_ H1]. apply does_done in H1. destruct H1 as [-> H1]. injection H1 as ->.
    rewrite !bind_get in H. apply does_mbind in H. destruct H as (k6 & st2 & [] & k7 & H1 & H & ->). apply new_receiver_does in H1. destruct H1 as [-> [z ->]].
    apply does_mbind in H. destruct H as (k8 & st3 & [] & k9 & H1 & H & ->).
    unfold levels in H1. eapply (bootstrap_does (expand_receiver S E M) receiver_round expand_receiver_does seed batch _ 0 _ []) in H1; [|exact Hc|split; [lia|cbn; auto]|lia|reflexivity|lia|constructor].
    destruct H1 as (j & Hj & Hl & Hlv & Hc3). apply does_mbind in H. destruct H as (k10 & st4 & [] & k11 & H1 & H & ->). eapply last_does in H1; [|exact Hc3|exact Hlv|lia]. destruct H1 as (-> & Hc4 & Hlv4).
    apply does_done in H. destruct H as [-> H]. injection H as -> _. exists j, k8. split; [exact Hj|]. split; [exact Hl|]. split; [exact Hc4|]. split; [exact Hlv4|].
    rewrite !app_nil_r. reflexivity.
  Qed.

  (** ** Run *)
  Lemma expand_does (step : Z -> Z -> Z -> member S unit) st l st' x : does (expand S step st) l (Some (st', Ok x)) ->
    does (step (v_batch_size st + v_vole_seed_size st + v_mpfss_seed_size st) (v_vole_seed_size st) (v_mpfss_seed_size st) st) l (Some (st', Ok x)).
  Proof.
    unfold expand. intro H. apply does_mbind in H. destruct H as (l1 & st1 & n & l2 & H1 & H & ->). unfold full_output in H1. rewrite !bind_get in H1.
    unfold mcalc in H1. apply does_done in H1. destruct H1 as [-> H1]. unfold int64_result in H1. destruct (_ && _) in H1; [|discriminate]. injection H1 as -> ->.
    rewrite !bind_get in H. exact H.
  Qed.

  Definition fits i (st : vole S) : Prop := level S E st i /\ 1 <= v_batch_size st /\ v_batch_size st + v_vole_seed_size st + v_mpfss_seed_size st <= top.
  Lemma sender_loop_does seed i rounds size : forall u v st l st' x, base S E st -> slens S (v_s st) -> coh seed (v_mpfss st) -> fits i st -> zlen u <= size -> zlen u = zlen v ->
    does (run_sender_loop S E M rounds size u v st) l (Some (st', Ok x)) ->
    l = List.concat (repeat (sender_round (level_buckets E i) (tree_transfers clog (sizes_of seed (v_batch_size st + v_vole_seed_size st + v_mpfss_seed_size st) (no i))))
      (Z.to_nat (expansions (size - zlen u) (zlen (sr_u (s_cached (v_s st)))) (v_batch_size st)))).
  Proof.
    induction rounds as [|rounds IH]; intros u v st l st' x Hb HL Hc Hf Hsz Luv H; pose proof Hf as (Hlv & Hbt & Hroom).
    all: destruct (Z.le_gt_cases size (zlen u)) as [Hle|Hgt].
    1, 3: rewrite run_sender_loop_done in H by auto; apply does_done in H; destruct H as [-> _]; rewrite expansions_0 by (pose proof (zlen_nonneg (sr_u (s_cached (v_s st)))); lia); reflexivity.
    { cbn [run_sender_loop] in H. replace (size <=? zlen u) with false in H by lia. apply does_done in H. destruct H; discriminate. }
    rewrite run_sender_loop_more in H by auto. set (c := s_cached (v_s st)) in *. pose proof (zlen_nonneg (sr_u c)) as Hc0.
    pose proof HL as (HL1 & HL2 & HL3). fold c in HL1.
    destruct (Z.leb_spec (zlen u + zlen (sr_u c)) size) as [Hfit|Hfit].
    - erewrite bind_ok in H; [|rewrite bind_set; reflexivity]. set (st1 := set_s S _ st) in H.
      assert (Hst1 : slens S (v_s st1)) by (cbn; unfold slens; cbn; auto).
      rewrite zlen_app in H. destruct (Z.ltb_spec (zlen u + zlen (sr_u c)) size) as [Hmore|Hend].
      + apply does_mbind in H. destruct H as (l1 & st2 & [] & l2 & H1 & H & ->). apply expand_does in H1.
        pose proof (expand_sender_solo S E M (v_batch_size st1 + v_vole_seed_size st1 + v_mpfss_seed_size st1) (v_vole_seed_size st1) (v_mpfss_seed_size st1) st1 Hst1) as Hsolo.
        pose proof Hb as (Hb1 & (Hb2 & Hb3 & Hb4) & Hb5). specialize (Hsolo Hb2 Hb3 ltac:(cbn; lia) _ _ (does_possible _ _ _ H1)). cbv beta iota in Hsolo.
        destruct Hsolo as (m & mu & v1 & Hm & Lc & Lm & Lv1 & _ & Hst2). cbn [st1 set_s v_batch_size v_vole_seed_size v_mpfss_seed_size v_columns v_s v_num_noise v_mpfss v_rows v_r] in *.
        pose proof Hlv as (Hi & E1 & E2 & E3). apply (expand_sender_does seed i) in H1; [|exact Hc|exact Hi|exact E3|lia]. destruct H1 as (-> & Hc2 & _).
        set (nu := vec_add S _ mu) in *. assert (Lu1 : zlen nu = v_batch_size st + v_vole_seed_size st + v_mpfss_seed_size st) by (unfold nu; rewrite zlen_vec_add; rewrite zlen_encode; lia).
        set (bt := v_batch_size st) in *. set (vs := v_vole_seed_size st) in *. set (ms := v_mpfss_seed_size st) in *.
        assert (Hs2 : v_s st2 = made_by S vs ms nu v1 (v_s st1)) by (rewrite Hst2; reflexivity).
        assert (HL2' : slens S (v_s st2)) by (rewrite Hs2; apply made_lens; auto; lia).
        assert (Hcz : zlen (sr_u (s_cached (v_s st2))) = bt).
        { rewrite Hs2. change (zlen (shrink ms (shrink vs nu)) = bt). rewrite !zlen_shrink by (rewrite ?zlen_shrink; lia). lia. }
        assert (Har : around S st st2 vs ms) by (rewrite Hst2; unfold around; cbn; auto 10).
        pose proof Har as (A1 & A2 & A3 & A4 & A5 & A6 & A7). fold bt in A4.
        assert (Hb' : base S E st2) by (apply (around_base S E st); [exact Hb|exact Har]).
        assert (Hf2 : fits i st2) by (unfold fits, level; rewrite A4, A5, A6, A7; auto 10).
        apply IH in H; [|exact Hb'|exact HL2'|exact Hc2|exact Hf2|rewrite zlen_app; lia|rewrite !zlen_app; lia].
        rewrite H, Hcz, A4, A6, A7, zlen_app. replace (size - (zlen u + zlen (sr_u c))) with (size - zlen u - zlen (sr_u c)) by lia.
        rewrite (expansions_next (size - zlen u)) by lia. fold c. set (k := expansions _ _ _).
        assert (0 <= k) by (unfold k, expansions; lia). replace (Z.to_nat (1 + k)) with (Datatypes.S (Z.to_nat k)) by lia. reflexivity.
      + rewrite run_sender_loop_done in H by (rewrite zlen_app; lia). apply does_done in H. destruct H as [-> _]. rewrite expansions_0 by lia. reflexivity.
    - erewrite bind_ok in H; [|apply get_sender_ok; fold c; lia]. fold c in H. cbn [sr_u sr_v] in H. rewrite zlen_app, zlen_tail in H by lia.
      replace (zlen u + (size - zlen u) <? size) with false in H by lia. rewrite run_sender_loop_done in H by (rewrite zlen_app, zlen_tail; lia). apply does_done in H. destruct H as [-> _].
      rewrite expansions_0 by lia. reflexivity.
  Qed.
  Lemma receiver_loop_does seed i rounds size d : forall w st l st' x, base S E st -> coh seed (v_mpfss st) -> fits i st -> zlen w <= size ->
    does (run_receiver_loop S E M rounds size w d st) l (Some (st', Ok x)) ->
    l = List.concat (repeat (receiver_round (level_buckets E i) (tree_transfers clog (sizes_of seed (v_batch_size st + v_vole_seed_size st + v_mpfss_seed_size st) (no i))))
      (Z.to_nat (expansions (size - zlen w) (zlen (rr_w (r_cached (v_r st)))) (v_batch_size st)))).
  Proof.
    induction rounds as [|rounds IH]; intros w st l st' x Hb Hc Hf Hsz H; pose proof Hf as (Hlv & Hbt & Hroom).
    all: destruct (Z.le_gt_cases size (zlen w)) as [Hle|Hgt].
    1, 3: rewrite run_receiver_loop_done in H by auto; apply does_done in H; destruct H as [-> _]; rewrite expansions_0 by (pose proof (zlen_nonneg (rr_w (r_cached (v_r st)))); lia); reflexivity.
    { cbn [run_receiver_loop] in H. replace (size <=? zlen w) with false in H by lia. apply does_done in H. destruct H; discriminate. }
    rewrite run_receiver_loop_more in H by auto. set (c := r_cached (v_r st)) in *. pose proof (zlen_nonneg (rr_w c)) as Hc0.
    destruct (Z.leb_spec (zlen w + zlen (rr_w c)) size) as [Hfit|Hfit].
    - erewrite bind_ok in H; [|rewrite bind_set; reflexivity]. set (st1 := set_r S _ st) in H.
      rewrite zlen_app in H. destruct (Z.ltb_spec (zlen w + zlen (rr_w c)) size) as [Hmore|Hend].
      + apply does_mbind in H. destruct H as (l1 & st2 & [] & l2 & H1 & H & ->). apply expand_does in H1.
        pose proof (expand_receiver_solo S E M (v_batch_size st1 + v_vole_seed_size st1 + v_mpfss_seed_size st1) (v_vole_seed_size st1) (v_mpfss_seed_size st1) st1) as Hsolo.
        pose proof Hb as (Hb1 & (Hb2 & Hb3 & Hb4) & Hb5). specialize (Hsolo Hb2 Hb3 ltac:(cbn; lia) _ _ (does_possible _ _ _ H1)). cbv beta iota in Hsolo.
        destruct Hsolo as (m & nw & Hm & Lc & Lm & Hst2). cbn [st1 set_r v_batch_size v_vole_seed_size v_mpfss_seed_size v_columns v_s v_num_noise v_mpfss v_rows v_r] in *.
        pose proof Hlv as (Hi & E1 & E2 & E3). apply (expand_receiver_does seed i) in H1; [|exact Hc|exact Hi|exact E3|lia]. destruct H1 as (-> & Hc2 & _).
        set (bt := v_batch_size st) in *. set (vs := v_vole_seed_size st) in *. set (ms := v_mpfss_seed_size st) in *.
        assert (Hs2 : v_r st2 = rmade_by S vs ms nw (v_r st1)) by (rewrite Hst2; reflexivity).
        assert (Hcz : zlen (rr_w (r_cached (v_r st2))) = bt).
        { rewrite Hs2. change (zlen (shrink ms (shrink vs nw)) = bt). rewrite !zlen_shrink by (rewrite ?zlen_shrink; lia). lia. }
        assert (Har : around S st st2 vs ms) by (rewrite Hst2; unfold around; cbn; auto 10).
        pose proof Har as (A1 & A2 & A3 & A4 & A5 & A6 & A7). fold bt in A4.
        assert (Hb' : base S E st2) by (apply (around_base S E st); [exact Hb|exact Har]).
        assert (Hf2 : fits i st2) by (unfold fits, level; rewrite A4, A5, A6, A7; auto 10).
        apply IH in H; [|exact Hb'|exact Hc2|exact Hf2|rewrite zlen_app; lia].
        rewrite H, Hcz, A4, A6, A7, zlen_app. replace (size - (zlen w + zlen (rr_w c))) with (size - zlen w - zlen (rr_w c)) by lia.
        rewrite (expansions_next (size - zlen w)) by lia. fold c. set (k := expansions _ _ _).
        assert (0 <= k) by (unfold k, expansions; lia). replace (Z.to_nat (1 + k)) with (Datatypes.S (Z.to_nat k)) by lia. reflexivity.
      + rewrite run_receiver_loop_done in H by (rewrite zlen_app; lia). apply does_done in H. destruct H as [-> _]. rewrite expansions_0 by lia. reflexivity.
    - erewrite bind_ok in H; [|apply get_receiver_ok; fold c; lia]. fold c in H. cbn [rr_w] in H. rewrite zlen_app, zlen_tail in H by lia.
      replace (zlen w + (size - zlen w) <? size) with false in H by lia. rewrite run_receiver_loop_done in H by (rewrite zlen_app, zlen_tail; lia). apply does_done in H. destruct H as [-> _].
      rewrite expansions_0 by lia. reflexivity.
  Qed.

  Lemma run_sender_does seed i size st l st' x : base S E st -> slens S (v_s st) -> coh seed (v_mpfss st) -> fits i st -> s_done (v_s st) = true ->
    does (run_sender S E M size st) l (Some (st', Ok x)) ->
    l = List.concat (repeat (sender_round (level_buckets E i) (tree_transfers clog (sizes_of seed (v_batch_size st + v_vole_seed_size st + v_mpfss_seed_size st) (no i))))
      (Z.to_nat (expansions size (zlen (sr_u (s_cached (v_s st)))) (v_batch_size st)))).
  Proof.
    intros Hb HL Hc Hf Hd H. unfold run_sender in H. rewrite bind_get, Hd in H. pose proof Hf as (_ & Hbt & _).
    apply does_mbind in H. destruct H as (l1 & st1 & [] & l2 & H1 & H & ->). apply does_done in H1. destruct H1 as [-> H1]. injection H1 as ->. cbn [app].
    apply does_bind_inv in H. destruct H as (l1 & [st1 r] & l3 & H1 & H & ->). pose proof (does_possible _ _ _ H1) as Hp. apply get_sender_solo in Hp.
    assert (Hl : l1 = []) by (unfold get_sender_cached in H1; destruct (_ <? size); [apply does_done in H1; tauto|]; destruct (size <? 0); apply does_done in H1; tauto). subst l1. cbn [app].
    destruct r as [y|e|w].
    - apply does_done in H. destruct H as [-> _]. rewrite expansions_0 by lia. reflexivity.
    - destruct Hp as [Hp ->]. pose proof (zlen_nonneg (sr_u (s_cached (v_s st)))). eapply sender_loop_does in H; try eassumption; [|change (zlen (@nil S)) with 0; lia|reflexivity].
      change (zlen (@nil S)) with 0 in H. rewrite Z.sub_0_r in H. exact H.
    - apply does_done in H. destruct H; discriminate.
  Qed.
  Lemma run_receiver_does seed i size st l st' x : base S E st -> coh seed (v_mpfss st) -> fits i st -> r_done (v_r st) = true ->
    does (run_receiver S E M size st) l (Some (st', Ok x)) ->
    l = List.concat (repeat (receiver_round (level_buckets E i) (tree_transfers clog (sizes_of seed (v_batch_size st + v_vole_seed_size st + v_mpfss_seed_size st) (no i))))
      (Z.to_nat (expansions size (zlen (rr_w (r_cached (v_r st)))) (v_batch_size st)))).
  Proof.
    intros Hb Hc Hf Hd H. unfold run_receiver in H. rewrite bind_get, Hd in H. pose proof Hf as (_ & Hbt & _).
    apply does_mbind in H. destruct H as (l1 & st1 & [] & l2 & H1 & H & ->). apply does_done in H1. destruct H1 as [-> H1]. injection H1 as ->. cbn [app].
    apply does_bind_inv in H. destruct H as (l1 & [st1 r] & l3 & H1 & H & ->). pose proof (does_possible _ _ _ H1) as Hp. apply get_receiver_solo in Hp.
    assert (Hl : l1 = []) by (unfold get_receiver_cached in H1; destruct (_ <? size); [apply does_done in H1; tauto|]; destruct (size <? 0); apply does_done in H1; tauto). subst l1. cbn [app].
    destruct r as [y|e|w].
    - apply does_done in H. destruct H as [-> _]. rewrite expansions_0 by lia. reflexivity.
    - destruct Hp as [Hp ->]. pose proof (zlen_nonneg (rr_w (r_cached (v_r st)))). eapply receiver_loop_does in H; try eassumption; [|change (zlen (@nil S)) with 0; lia].
      change (zlen (@nil S)) with 0 in H. rewrite Z.sub_0_r in H. exact H.
    - apply does_done in H. destruct H; discriminate.
  Qed.

  (** ** The hash functions stay the same *)
  Definition kc {A} (m : member S A) : Prop := forall seed st st' r, coh seed (v_mpfss st) -> possible (m st) (st', r) -> coh seed (v_mpfss st').
  Lemma kc_bind {A B} (m : member S A) (f : A -> member S B) : kc m -> (forall a, kc (f a)) -> kc (mbind m f).
  Proof.
    intros Hm Hf seed st st' r Hc H. unfold mbind in H. apply possible_bind in H. destruct H as ([st1 x] & H1 & H). pose proof (Hm _ _ _ _ Hc H1) as Hc1.
    destruct x as [a|e|w]; [exact (Hf _ _ _ _ _ Hc1 H)| |]; apply possible_ret_inv in H; injection H as -> ->; exact Hc1.
  Qed.
  Lemma kc_ret {A} (m : member S A) : (forall st, exists st' r, m st = Ret (st', r) /\ v_mpfss st' = v_mpfss st) -> kc m.
  Proof. intros H seed st st' r Hc Hp. destruct (H st) as (st1 & r1 & E1 & E2). rewrite E1 in Hp. apply possible_ret_inv in Hp. injection Hp as -> ->. now rewrite E2. Qed.
  Lemma kc_get {A} (f : vole S -> A) : kc (mget f).
  Proof. apply kc_ret. intro st. eexists _, _. split; reflexivity. Qed.
  Lemma kc_calc {A} (m : res A) : kc (mcalc m).
  Proof. apply kc_ret. intro st. eexists _, _. split; reflexivity. Qed.
  Lemma kc_fail {A} e : kc (mfail e : member S A).
  Proof. apply (kc_calc (Err e)). Qed.
  Lemma kc_tt {A} (a : A) : kc (mret a : member S A).
  Proof. apply (kc_calc (Ok a)). Qed.
  Lemma kc_set f : (forall st, v_mpfss (f st) = v_mpfss st) -> kc (mset f : member S unit).
  Proof. intro H. apply kc_ret. intro st. eexists _, _. split; [reflexivity|apply H]. Qed.
  Lemma kc_proc {A} (p : proc S (res A)) : kc (mproc p).
  Proof. intros seed st st' r Hc H. unfold mproc in H. apply possible_bind in H. destruct H as (x & _ & H). apply possible_ret_inv in H. injection H as -> ->. exact Hc. Qed.
  Lemma kc_scached n : kc (get_sender_cached S n).
  Proof. apply kc_ret. intro st. unfold get_sender_cached. destruct (_ <? n); [|destruct (n <? 0)]; (eexists _, _; split; reflexivity). Qed.
  Lemma kc_rcached n : kc (get_receiver_cached S n).
  Proof. apply kc_ret. intro st. unfold get_receiver_cached. destruct (_ <? n); [|destruct (n <? 0)]; (eexists _, _; split; reflexivity). Qed.
  Lemma update_kc seed m out n : coh seed m -> coh seed (fst (update_buckets aes too e3 e2 (c_split M out) m out n)).
  Proof. intro Hc. apply (update_coherent aes too e3 e2 (He3 S E G) (He2 S E G) (Hasher seed 3) ltac:(cbn; lia)); [exact Hc|apply (gm_split S M GM)]. Qed.
  Lemma kc_buckets out n : kc (m_update_buckets S E M out n).
  Proof.
    intros seed st st' r Hc H. unfold m_update_buckets in H. pose proof (update_kc seed (v_mpfss st) out n Hc) as Hu. destruct (update_buckets _ _ _ _ _ _ _ _) as [m x].
    apply possible_ret_inv in H. injection H as -> ->. exact Hu.
  Qed.
  Lemma kc_num n : kc (m_num_buckets S E n).
  Proof. apply kc_ret. intro st. eexists _, _. split; reflexivity. Qed.
  Lemma kc_mpfss {A} (p : mpfss -> proc S (mpfss * res A)) : (forall seed m m' r, coh seed m -> possible (p m) (m', r) -> coh seed m') -> kc (mmpfss p).
  Proof. intros Hp seed st st' r Hc H. unfold mmpfss in H. apply possible_bind in H. destruct H as ([m x] & H1 & H). apply possible_ret_inv in H. injection H as -> ->. exact (Hp _ _ _ _ Hc H1). Qed.
  Lemma after_kc {A} u (k : mpfss -> proc S (res A)) m' r : possible (after_update S u k) (m', r) -> m' = fst u.
  Proof.
    unfold after_update. destruct u as [m [x|e|w]]; intro H; [|apply possible_ret_inv in H; now injection H as -> ->..].
    unfold with_state in H. apply possible_bind in H. destruct H as (y & _ & H). apply possible_ret_inv in H. now injection H as -> ->.
  Qed.
  Lemma index_kc out y idx u v : 0 <= out -> kc (mmpfss (fun m => mpfss_index_provider S aes clog too e3 e2 (c_split M out) m y idx u v (zrepeat (s_zero S) out))).
  Proof.
    intro Ho. apply kc_mpfss. intros seed m m' r Hc H. unfold mpfss_index_provider in H.
    do 5 (match type of H with possible (if ?b then _ else _) _ => destruct b end; [apply possible_ret_inv in H; injection H as -> ->; exact Hc|]).
    apply after_kc in H. rewrite H, zlen_zrepeat by lia. now apply update_kc.
  Qed.
  Lemma value_kc K out x n w : 0 <= out -> kc (mmpfss (fun m => mpfss_value_provider S aes clog K too e3 e2 (c_split M out) m x n w (zrepeat (s_zero S) out))).
  Proof.
    intro Ho. apply kc_mpfss. intros seed m m' r Hc H. unfold mpfss_value_provider in H.
    match type of H with possible (if ?b then _ else _) _ => destruct b end; [apply possible_ret_inv in H; injection H as -> ->; exact Hc|].
    apply after_kc in H. rewrite H, zlen_zrepeat by lia. now apply update_kc.
  Qed.
  Ltac keep := repeat (match goal with
    | |- kc (mbind _ _) => apply kc_bind; [|intro]
    | |- kc (mget _) => apply kc_get
    | |- kc (mcalc _) => apply kc_calc
    | |- kc (mfail _) => apply kc_fail
    | |- kc (mret _) => apply kc_tt
    | |- kc (mproc _) => apply kc_proc
    | |- kc (get_sender_cached _ _) => apply kc_scached
    | |- kc (get_receiver_cached _ _) => apply kc_rcached
    | |- kc (m_update_buckets _ _ _ _ _) => apply kc_buckets
    | |- kc (m_num_buckets _ _ _) => apply kc_num
    | |- kc (mset _) => apply kc_set; reflexivity
    | |- kc (if ?b then _ else _) => let e := fresh "Hif" in destruct b eqn:e
    end; cbv zeta).
  Lemma dimension {A} (columns : list A) out a : (a || negb (zlen columns =? out)) = false -> 0 <= out.
  Proof. intro H. apply orb_false_iff in H. destruct H as [_ H]. apply negb_false_iff, Z.eqb_eq in H. subst out. apply zlen_nonneg. Qed.
  Lemma kc_expand_sender a b c : kc (expand_sender S E M a b c).
  Proof. unfold expand_sender, new_sender_seeds. keep. apply index_kc. eapply dimension. eassumption. Qed.
  Lemma kc_expand_receiver a b c : kc (expand_receiver S E M a b c).
  Proof. unfold expand_receiver, new_receiver_seeds. keep. apply value_kc. eapply dimension. eassumption. Qed.
  Lemma kc_common out : kc (precompute_common S E M out).
  Proof. unfold precompute_common. keep. Qed.
  Lemma kc_bootstrap step b l : (forall x y z, kc (step x y z)) -> kc (bootstrap S E M step b l).
  Proof. intro Hs. induction l as [|i l IH]; cbn [bootstrap]; [apply kc_tt|]. keep; first [exact IH | apply kc_common | apply Hs]. Qed.
  Lemma kc_last b : kc (precompute_last S E M b).
  Proof. unfold precompute_last, full_output. keep. apply kc_common. Qed.
  Lemma kc_precompute_sender b : kc (precompute_sender S E M b).
  Proof. unfold precompute_sender, precompute_sizes, sender_first_seed, new_sender_seeds. keep; first [apply kc_last | apply kc_bootstrap; intros; apply kc_expand_sender]. Qed.
  Lemma kc_precompute_receiver b d : kc (precompute_receiver S E M b d).
  Proof. unfold precompute_receiver, precompute_sizes, receiver_first_seed, new_receiver_seeds. keep; first [apply kc_last | apply kc_bootstrap; intros; apply kc_expand_receiver]. Qed.
  Lemma kc_precompute_random b : kc (precompute_receiver_random S E M b).
  Proof. unfold precompute_receiver_random. keep. apply kc_precompute_receiver. Qed.
  Lemma kc_expand step : (forall x y z, kc (step x y z)) -> kc (expand S step).
  Proof. intro Hs. unfold expand, full_output. keep. apply Hs. Qed.
  Lemma kc_sender_loop n : forall size u v, kc (run_sender_loop S E M n size u v).
  Proof. induction n as [|n IH]; intros size u v; cbn [run_sender_loop]; keep; first [apply IH | apply kc_expand; intros; apply kc_expand_sender]. Qed.
  Lemma kc_receiver_loop n : forall size w d, kc (run_receiver_loop S E M n size w d).
  Proof. induction n as [|n IH]; intros size w d; cbn [run_receiver_loop]; keep; first [apply IH | apply kc_expand; intros; apply kc_expand_receiver]. Qed.
  Lemma kc_run_sender n : kc (run_sender S E M n).
  Proof.
    unfold run_sender. apply kc_bind; [apply kc_get|intro s]. apply kc_bind; [destruct (s_done s); [apply kc_tt|apply kc_precompute_sender]|intros _].
    intros seed st st' r Hc H. apply possible_bind in H. destruct H as ([st1 x] & H1 & H). pose proof (kc_scached _ _ _ _ _ Hc H1) as Hc1.
    destruct x as [a|e|w]; [|exact (kc_sender_loop _ _ _ _ _ _ _ _ Hc1 H)|]; apply possible_ret_inv in H; injection H as -> ->; exact Hc1.
  Qed.
  Lemma kc_run_receiver n : kc (run_receiver S E M n).
  Proof.
    unfold run_receiver. apply kc_bind; [apply kc_get|intro s]. apply kc_bind; [destruct (r_done s); [apply kc_tt|apply kc_precompute_random]|intros _].
    intros seed st st' r Hc H. apply possible_bind in H. destruct H as ([st1 x] & H1 & H). pose proof (kc_rcached _ _ _ _ _ Hc H1) as Hc1.
    destruct x as [a|e|w]; [|exact (kc_receiver_loop _ _ _ _ _ _ _ _ Hc1 H)|]; apply possible_ret_inv in H; injection H as -> ->; exact Hc1.
  Qed.
  Lemma kc_call s c : kc (if s : bool then as_sender S E M c else as_receiver S E M c).
  Proof.
    intros seed st st' r Hc H. destruct s; destruct c as [b d|n]; [| |destruct d as [d|]|]; cbv beta iota delta [as_sender as_receiver] in H; apply possible_bind in H; destruct H as ([st1 x] & H1 & H); apply possible_ret_inv in H; injection H as -> ->.
    - exact (kc_precompute_sender _ _ _ _ _ Hc H1).
    - exact (kc_run_sender _ _ _ _ _ Hc H1).
    - exact (kc_precompute_receiver _ _ _ _ _ _ Hc H1).
    - exact (kc_precompute_random _ _ _ _ _ Hc H1).
    - exact (kc_run_receiver _ _ _ _ _ Hc H1).
  Qed.

  (** ** Histories *)
  Lemma created_coh st : created S M st -> exists seed, coh seed (v_mpfss st).
  Proof.
    intro H. apply created_inv in H. destruct H as ([seed k] & Hk & ->). cbn in Hk. subst k. exists seed. split; [reflexivity|]. cbn. discriminate.
  Qed.
  Lemma history_coh seed st l st' : coh seed (v_mpfss st) -> history S E M st l st' -> coh seed (v_mpfss st').
  Proof. intros Hc H. induction H as [|st l st1 s c r st2 Hh IH Hp Hu]; [exact Hc|]. exact (kc_call _ _ _ _ _ _ (IH Hc) Hp). Qed.
  Lemma possible_does {T A} (p : proc T A) a : possible p a -> exists l, does p l (Some a).
  Proof. induction 1 as [|? ? ? H [l IH]|? ? ? H [l IH]|? ? ? ? ? H [l IH]|? ? ? ? H [l IH]]; eexists; econstructor; eassumption. Qed.

  Definition at_level b j (st : vole S) : Prop := final_level E b j /\ level S E st j /\ v_batch_size st = Z.min b (room E j).
  Lemma room_eq j : room E j = top - level_buckets E j - level_seed E j.
  Proof. pose proof (gs_outputs S E G) as Go. unfold room, level_output, level_count, level_seed, level_buckets. rewrite <- Go, <- znth_last. lia. Qed.
  Lemma at_fits b j st : 1 <= b -> at_level b j st -> fits j st.
  Proof.
    intros Hb (Hf & Hl & Hv). split; [exact Hl|]. pose proof Hl as (Hi & E1 & E2 & E3). pose proof (level_facts S E G j Hi) as (K1 & K2 & K3 & K4 & K5).
    rewrite Hv, E1, E2, room_eq. unfold level_buckets, level_seed. lia.
  Qed.
  Lemma at_around b j st st' : at_level b j st -> around S st st' (v_vole_seed_size st) (v_mpfss_seed_size st) -> at_level b j st'.
  Proof. unfold at_level, level. intros (A & (B0 & B1 & B2 & B3) & C) (A1 & A2 & A3 & A4 & A5 & A6 & A7). rewrite A4, A5, A6, A7. auto 10. Qed.

  Hypothesis Hsize : 1 <= s_size S.
  Lemma sender_at st0 l1 e b st : created S M st0 -> history S E M st0 (l1 ++ [e]) st -> precomputes true b l1 e -> 1 <= b /\ exists j, at_level b j st.
  Proof.
    intros Hc H (c & x & -> & Hp). pose proof (created_ok S E M _ Hc) as Hi. destruct (created_coh _ Hc) as [seed Hs]. apply history_app in H. destruct H as (st1 & H1 & H2).
    pose proof (proj1 (history_inv S E G M GM _ _ _ Hi H1)) as Hi1. pose proof (history_coh _ _ _ _ Hs H1) as Hs1. apply history_one in H2. destruct H2 as [H2 _]. destruct Hp as [(d & ->)|[-> ->]].
    - unfold as_sender in H2. apply possible_bind in H2; destruct H2 as ([sx y] & Ha & Hb). apply possible_ret_inv in Hb. destruct y as [y|e|w0]; try discriminate. injection Hb as -> ->.
      pose proof Ha as Ha'. apply (precompute_sender_solo S E G M GM) in Ha'; try apply Hi1. destruct Ha' as (A0 & _). split; [exact A0|].
      apply possible_does in Ha. destruct Ha as [l Ha]. eapply precompute_sender_does in Ha; [|apply Hi1|exact Hs1|exact Hsize]. destruct Ha as (j & _ & Hj & _ & _ & [Hl Hv] & _). exists j. split; auto.
    - inversion H1 as [|? l0 ? ? ? ? ? ? ? ? E0 E1]; subst; [|destruct l0; discriminate].
      unfold as_sender in H2. apply possible_bind in H2; destruct H2 as ([sx y] & Ha & Hb). apply possible_ret_inv in Hb. destruct y as [y|e|w0]; try discriminate. injection Hb as -> ->.
      unfold run_sender in Ha. rewrite bind_get in Ha. replace (s_done (v_s st1)) with false in Ha by (apply created_inv in Hc; destruct Hc as (h & _ & ->); reflexivity).
      unfold mbind in Ha. apply possible_bind in Ha. destruct Ha as ([sy z] & Ha & Hb). destruct z as [z|e|w0]; [|apply possible_ret_inv in Hb; discriminate..].
      pose proof Ha as Ha'. apply (precompute_sender_solo S E G M GM) in Ha'; try apply Hi1. destruct Ha' as (A0 & Hrd). split; [exact A0|].
      apply possible_does in Ha. destruct Ha as [l Ha]. eapply precompute_sender_does in Ha; [|apply Hi1|exact Hs1|exact Hsize]. destruct Ha as (j & _ & Hj & _ & _ & [Hl Hv] & _). exists j.
      destruct Hrd as (R1 & _ & R3 & _). apply (run_sender_done S E M b sy R1 R3) in Hb. destruct Hb as (_ & Har & _). eapply at_around; [|exact Har]. split; auto.
  Qed.
  Lemma receiver_at st0 l1 e b st : created S M st0 -> history S E M st0 (l1 ++ [e]) st -> precomputes false b l1 e -> 1 <= b /\ exists j, at_level b j st.
  Proof.
    intros Hc H (c & x & -> & Hp). pose proof (created_ok S E M _ Hc) as Hi. destruct (created_coh _ Hc) as [seed Hs]. apply history_app in H. destruct H as (st1 & H1 & H2).
    pose proof (proj1 (history_inv S E G M GM _ _ _ Hi H1)) as Hi1. pose proof (history_coh _ _ _ _ Hs H1) as Hs1. apply history_one in H2. destruct H2 as [H2 _].
    assert (Hpre : forall d sx y, possible (precompute_receiver S E M b d st1) (sx, Ok y) -> 1 <= b /\ base S E sx /\ exists j, at_level b j sx).
    { intros d sx y Ha. pose proof Ha as Ha'. apply (precompute_receiver_solo S E G M GM) in Ha'; try apply Hi1. destruct Ha' as (A0 & A1 & _). split; [exact A0|]. split; [exact A1|].
      apply possible_does in Ha. destruct Ha as [l Ha]. eapply precompute_receiver_does in Ha; [|apply Hi1|exact Hs1|exact Hsize]. destruct Ha as (j & _ & Hj & _ & _ & [Hl Hv] & _). exists j. split; auto. }
    assert (Hran : forall sx y, possible (precompute_receiver_random S E M b st1) (sx, Ok y) -> 1 <= b /\ base S E sx /\ exists j, at_level b j sx).
    { intros sx y Ha. unfold precompute_receiver_random, mbind, mproc in Ha. cbn [pbind] in Ha. inversion Ha; subst. eapply Hpre. eassumption. }
    destruct Hp as [(d & ->)|[-> ->]].
    - destruct d as [d|]; unfold as_receiver in H2; apply possible_bind in H2; destruct H2 as ([sx y] & Ha & Hb); apply possible_ret_inv in Hb; destruct y as [y|e|w0]; try discriminate; injection Hb as -> ->.
      + apply Hpre in Ha. tauto.
      + apply Hran in Ha. tauto.
    - inversion H1 as [|? l0 ? ? ? ? ? ? ? ? E0 E1]; subst; [|destruct l0; discriminate].
      unfold as_receiver in H2. apply possible_bind in H2; destruct H2 as ([sx y] & Ha & Hb). apply possible_ret_inv in Hb. destruct y as [y|e|w0]; try discriminate. injection Hb as -> ->.
      unfold run_receiver in Ha. rewrite bind_get in Ha. replace (r_done (v_r st1)) with false in Ha by (apply created_inv in Hc; destruct Hc as (h & _ & ->); reflexivity).
      unfold mbind in Ha. apply possible_bind in Ha. destruct Ha as ([sy z] & Ha & Hb). destruct z as [z|e|w0]; [|apply possible_ret_inv in Hb; discriminate..].
      apply Hran in Ha. destruct Ha as (A0 & R1 & j & Hj). split; [exact A0|]. exists j. apply (run_receiver_done S E M b sy R1) in Hb. destruct Hb as ((_ & Har & _) & _). eapply at_around; [exact Hj|exact Har].
  Qed.

  (** The final statements. *)
  Lemma precompute_sender_cost st0 h st b d l st' : created S M st0 -> history S E M st0 h st ->
    does (as_sender S E M (Precompute b d) st) l (Some (st', Ok Precomputed)) ->
    let n := level_seed E 0 + level_buckets E 0 in
    exists j l1, final_level E b j /\ climbs E (seed_steps M) sender_round j l1 /\
      l = [SendsTransfers (use_correlated_ot S (vole_K E) n) (Z.to_nat (transfers (s_size S) n)); SendsVector (Z.to_nat n)] ++ l1 ++ seed_steps M.
  Proof.
    intros Hc Hh H n. pose proof (created_ok S E M _ Hc) as Hi. destruct (created_coh _ Hc) as [seed Hs]. apply (history_coh _ _ _ _ Hs) in Hh as Hs1. apply (history_inv S E G M GM) in Hh; [|exact Hi]. destruct Hh as [Hi1 _].
    unfold as_sender in H. apply does_bind_inv in H. destruct H as (l1 & [sx x] & l2 & Ha & Hb & ->). apply does_done in Hb. destruct Hb as [-> Hb]. rewrite app_nil_r.
    destruct x as [x|e|w]; try discriminate. eapply precompute_sender_does in Ha; [|apply Hi1|exact Hs1|exact Hsize]. destruct Ha as (j & k & Hj & Hk & _ & _ & ->). exists j, k. auto.
  Qed.
  Lemma precompute_receiver_cost st0 h st b d l st' : created S M st0 -> history S E M st0 h st ->
    does (as_receiver S E M (Precompute b d) st) l (Some (st', Ok Precomputed)) ->
    let n := level_seed E 0 + level_buckets E 0 in
    exists j l1, final_level E b j /\ climbs E (seed_steps M) receiver_round j l1 /\
      l = [ReceivesTransfers (use_correlated_ot S (vole_K E) n) (Z.to_nat (transfers (s_size S) n)); Receives] ++ l1 ++ seed_steps M.
  Proof.
    intros Hc Hh H n. pose proof (created_ok S E M _ Hc) as Hi. destruct (created_coh _ Hc) as [seed Hs]. apply (history_coh _ _ _ _ Hs) in Hh as Hs1. apply (history_inv S E G M GM) in Hh; [|exact Hi]. destruct Hh as [Hi1 _].
    assert (Hpre : forall d l sx y, does (precompute_receiver S E M b d st) l (Some (sx, Ok y)) -> exists j l1, final_level E b j /\ climbs E (seed_steps M) receiver_round j l1 /\
      l = [ReceivesTransfers (use_correlated_ot S (vole_K E) n) (Z.to_nat (transfers (s_size S) n)); Receives] ++ l1 ++ seed_steps M).
    { intros d0 l0 sx y Ha. eapply precompute_receiver_does in Ha; [|apply Hi1|exact Hs1|exact Hsize]. destruct Ha as (j & k & Hj & Hk & _ & _ & ->). exists j, k. auto. }
    destruct d as [d|]; unfold as_receiver in H; apply does_bind_inv in H; destruct H as (l1 & [sx x] & l2 & Ha & Hb & ->); apply does_done in Hb; destruct Hb as [-> Hb]; rewrite app_nil_r; (destruct x as [x|e|w]; try discriminate).
    - eapply Hpre. exact Ha.
    - unfold precompute_receiver_random in Ha. apply does_mproc in Ha. destruct Ha as (l3 & d & l4 & Hd & Ha & ->). inversion Hd; subst. match goal with X : does (Ret _) _ _ |- _ => apply does_done in X; destruct X as [-> _] end.
      eapply Hpre. exact Ha.
  Qed.
  Lemma run_sender_cost st0 l1 e b l2 st n l u v st' : created S M st0 -> history S E M st0 (l1 ++ e :: l2) st -> precomputes true b l1 e -> Forall sender_run l2 ->
    does (as_sender S E M (Run n) st) l (Some (st', Ok (Sender u v))) ->
    exists j sizes, final_level E b j /\ v_batch_size st = Z.min b (room E j) /\
      three_choices (level_buckets E j) (v_batch_size st + level_seed E j + level_buckets E j) sizes /\
      l = List.concat (repeat (sender_round (level_buckets E j) (tree_transfers clog sizes)) (Z.to_nat (expansions n (zlen (sr_u (s_cached (v_s st)))) (v_batch_size st)))).
  Proof.
    intros Hc H Hp HF Hr. pose proof (created_ok S E M _ Hc) as Hi. destruct (created_coh _ Hc) as [seed Hs]. pose proof (history_coh _ _ _ _ Hs H) as Hs2.
    change (e :: l2) with ([e] ++ l2) in H. rewrite app_assoc in H. apply history_app in H. destruct H as (st1 & H1 & H2).
    pose proof (proj1 (history_inv S E G M GM _ _ _ Hi H1)) as Hi1. pose proof (proj1 (history_inv S E G M GM _ _ _ Hi1 H2)) as Hi2.
    destruct (precomputed_sender S E G M GM _ _ _ _ _ Hc H1 Hp) as (A1 & _ & _). destruct (sender_at _ _ _ _ _ Hc H1 Hp) as (Hb & j & Hj).
    destruct (runs_keep S E G M GM sender_run (fun a => s_done (v_s a)) (sender_run_step S E G M GM) l2 st1 st Hi1 H2 HF A1) as [B1 B2].
    pose proof (at_around _ _ _ _ Hj B2) as Hj2. pose proof (at_fits _ _ _ Hb Hj2) as Hf. pose proof Hj2 as (F1 & F2 & F3). pose proof F2 as (Hjr & E1 & E2 & E3).
    unfold as_sender in Hr. apply does_bind_inv in Hr. destruct Hr as (k1 & [sx x] & k2 & Ha & Hx & ->). apply does_done in Hx. destruct Hx as [-> Hx]. rewrite app_nil_r. destruct x as [x|e0|w0]; try discriminate.
    eapply run_sender_does in Ha; [|apply Hi2|apply Hi2|exact Hs2|exact Hf|exact B1]. subst k1.
    exists j. eexists. split; [exact F1|]. split; [exact F3|]. split; [|reflexivity]. rewrite E1, E2. apply sizes_three; [exact Hjr|].
    pose proof (level_facts S E G j Hjr). pose proof Hf as (_ & ? & _). lia.
  Qed.
  Lemma run_receiver_cost st0 l1 e b l2 st n l w d st' : created S M st0 -> history S E M st0 (l1 ++ e :: l2) st -> precomputes false b l1 e -> Forall receiver_run l2 ->
    does (as_receiver S E M (Run n) st) l (Some (st', Ok (Receiver w d))) ->
    exists j sizes, final_level E b j /\ v_batch_size st = Z.min b (room E j) /\
      three_choices (level_buckets E j) (v_batch_size st + level_seed E j + level_buckets E j) sizes /\
      l = List.concat (repeat (receiver_round (level_buckets E j) (tree_transfers clog sizes)) (Z.to_nat (expansions n (zlen (rr_w (r_cached (v_r st)))) (v_batch_size st)))).
  Proof.
    intros Hc H Hp HF Hr. pose proof (created_ok S E M _ Hc) as Hi. destruct (created_coh _ Hc) as [seed Hs]. pose proof (history_coh _ _ _ _ Hs H) as Hs2.
    change (e :: l2) with ([e] ++ l2) in H. rewrite app_assoc in H. apply history_app in H. destruct H as (st1 & H1 & H2).
    pose proof (proj1 (history_inv S E G M GM _ _ _ Hi H1)) as Hi1. pose proof (proj1 (history_inv S E G M GM _ _ _ Hi1 H2)) as Hi2.
    destruct (precomputed_receiver S E G M GM _ _ _ _ _ Hc H1 Hp) as (A1 & _ & _). destruct (receiver_at _ _ _ _ _ Hc H1 Hp) as (Hb & j & Hj).
    destruct (runs_keep S E G M GM receiver_run (fun a => r_done (v_r a)) (receiver_run_step S E G M GM) l2 st1 st Hi1 H2 HF A1) as [B1 B2].
    pose proof (at_around _ _ _ _ Hj B2) as Hj2. pose proof (at_fits _ _ _ Hb Hj2) as Hf. pose proof Hj2 as (F1 & F2 & F3). pose proof F2 as (Hjr & E1 & E2 & E3).
    unfold as_receiver in Hr. apply does_bind_inv in Hr. destruct Hr as (k1 & [sx x] & k2 & Ha & Hx & ->). apply does_done in Hx. destruct Hx as [-> Hx]. rewrite app_nil_r. destruct x as [x|e0|w0]; try discriminate.
    eapply run_receiver_does in Ha; [|apply Hi2|exact Hs2|exact Hf|exact B1]. subst k1.
    exists j. eexists. split; [exact F1|]. split; [exact F3|]. split; [|reflexivity]. rewrite E1, E2. apply sizes_three; [exact Hjr|].
    pose proof (level_facts S E G j Hjr). pose proof Hf as (_ & ? & _). lia.
  Qed.
End Vole.

Lemma tree_transfers_le clog sizes k : 0 <= k -> Forall (fun s => s = 0 \/ Z.of_nat (clog 2 s) <= k) sizes -> 0 <= tree_transfers clog sizes <= k * zlen sizes.
Proof.
  intros Hk H. induction H as [|s l Hs H IH]; [change (0 <= 0 <= k * 0); lia|]. cbn [tree_transfers fold_right]. fold (tree_transfers clog l). rewrite zlen_cons. destruct (Z.eqb_spec s 0); nia.
Qed.
