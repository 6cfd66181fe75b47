(** Proofs about SpfssInt.v. *)
From Verif Require Import Base BaseFacts ListFacts ScalarModel ScalarSpec ScalarProofs ProcModel ProcSpec ProcProofs TraceSpec TraceProofs UseSpec RotModel RotSpec
  SpfssModel SpfssFinal GilboaModel VoleUse PatternSpec PatternProofs CostProofs RotInt RotIntProofs SpfssInt LaterProofs CostSpec.
From Coq Require Import QArith Lia.
Local Open Scope Z_scope.

Lemma unreached_nil {A B} (vals : list A) (l : list B) : zlen vals < 2^31 -> zlen l = zlen vals -> unreached vals l = [].
Proof. intros H1 H2. unfold unreached. rewrite int_size_id by exact H1. apply skipn_all2. unfold zlen in *. lia. Qed.

Section P.
  Variable S : scalar.
  Variable aes : N -> N -> N.
  Variable clog : Z -> Z -> nat.
  Variable K : Q.
  Notation transfers := (tree_transfers clog).

  Lemma alike_post {A B} (Q : A -> Prop) (p q : proc S A) (f g : A -> proc S B) : alike p q -> returns_all_of Q p -> (forall a, Q a -> alike (f a) (g a)) ->
    alike (pbind p f) (pbind q g).
  Proof. intros H. induction H; intros HQ Hf; cbn [pbind returns_all_of] in *; auto; constructor; auto. Qed.

  Definition same_size (outs : list (list S)) (r : res (list (list S))) : Prop := match r with Ok o => zlen o = zlen outs | _ => True end.
  Lemma unpack_same trees outs : same_size outs (unpack_all S trees outs).
  Proof. destruct (unpack_all S trees outs) eqn:E; cbn; auto. eapply unpack_all_len; eauto. Qed.
  Lemma sender_size outs : zlen outs < 2^31 -> returns_all_of (same_size outs) (rot_sender_batched_int S aes clog K outs).
  Proof.
    intro H. unfold rot_sender_batched_int, pbindr. eapply returns_bind; [apply returns_all; intro; exact I|].
    intros [ts|e|w] _; cbn; auto. rewrite unpack_int_id by exact H. apply unpack_same.
  Qed.
  Lemma receiver_size indices outs : zlen outs < 2^31 -> returns_all_of (same_size outs) (rot_receiver_batched_int S aes clog indices outs).
  Proof.
    intro H. unfold rot_receiver_batched_int, pbindr. destruct (negb _); [exact I|]. destruct (existsb _ _); [exact I|].
    eapply returns_bind; [apply returns_all; intro; exact I|].
    intros [ts|e|w] _; cbn; auto. rewrite unpack_int_id by exact H. apply unpack_same.
  Qed.

  Lemma value_int_id vals outs : zlen outs < 2^31 - 1 -> transfers (map zlen outs) < 2^31 - 1 ->
    alike (spfss_value_provider_batched_int S aes clog K vals outs) (spfss_value_provider_batched S aes clog K vals outs).
  Proof.
    intros H1 H2. unfold spfss_value_provider_batched_int, spfss_value_provider_batched. destruct (Z.eqb_spec (zlen vals) (zlen outs)) as [Hv|]; [|apply alike_refl].
    cbn [negb]. unfold pbindr. apply (alike_post (same_size outs)); [apply sender_int_id; assumption|apply sender_size; lia|].
    intros [o|e|w] Ho; try apply alike_refl. cbn in Ho. cbv zeta.
    rewrite (unreached_nil vals vals), (unreached_nil vals o), !app_nil_r by lia. rewrite visited_id by (rewrite zlen_combine by congruence; lia). apply alike_refl.
  Qed.
  Lemma index_int_id vals indices outs : zlen outs < 2^31 - 1 -> transfers (map zlen outs) < 2^31 - 1 ->
    alike (spfss_index_provider_batched_int S aes clog vals indices outs) (spfss_index_provider_batched S aes clog vals indices outs).
  Proof.
    intros H1 H2. unfold spfss_index_provider_batched_int, spfss_index_provider_batched. destruct (Z.eqb_spec (zlen vals) (zlen outs)) as [Hv|]; [|apply alike_refl].
    cbn [negb orb]. destruct (negb _); [apply alike_refl|]. unfold pbindr.
    apply (alike_post (same_size outs)); [rewrite receiver_int_id by assumption; apply alike_refl|apply receiver_size; lia|].
    intros [o|e|w] Ho; try apply alike_refl. cbn in Ho. rewrite int_size_id by lia. replace (zlen vals) with (zlen o) by lia.
    rewrite (unreached_nil vals o) by lia. destruct (rmapM _ _) as [sums| |]; cbn [plift]; try apply alike_refl.
    unfold recv_vec. apply alike_recv. intros [| | | |]; try apply alike_refl. 
    match goal with |- alike (Ret (rbind ?x _)) _ => destruct x; cbn [rbind]; rewrite ?app_nil_r; apply alike_refl end.
  Qed.
End P.

Lemma spfss_int_correct t : stype_ok t -> forall aes clog K vals_v vals_i indices (outs_v outs_i : list (list (scalar_of t))) ta tb,
  zlen outs_v < 2^31 - 1 -> tree_transfers clog (map zlen outs_v) < 2^31 - 1 ->
  map zlen outs_i = map zlen outs_v ->
  zlen vals_v = zlen outs_v -> zlen vals_i = zlen outs_v -> zlen indices = zlen outs_v ->
  (forall o, In o outs_v -> supported_size clog (zlen o)) ->
  (forall i, 0 <= i < zlen outs_v -> valid_index (znth 0 indices i) (zlen (znth [] outs_v i))) ->
  s_can_hash (scalar_of t) (security_per_leaf K (total_leaves (map zlen outs_v))) 128 = true ->
  exists rv ri, completes (spfss_value_provider_batched_int (scalar_of t) aes clog K vals_v outs_v) ta
            (spfss_index_provider_batched_int (scalar_of t) aes clog vals_i indices outs_i) tb (Ok rv) (Ok ri) /\
    map zlen rv = map zlen outs_v /\ map zlen ri = map zlen outs_v /\
    forall i j, 0 <= i < zlen outs_v -> 0 <= j < zlen (znth [] outs_v i) ->
      let z := s_zero (scalar_of t) in
      s_add (scalar_of t) (znth z (znth [] rv i) j) (znth z (znth [] ri i) j) =
      if j =? znth 0 indices i then s_add (scalar_of t) (znth z vals_v i) (znth z vals_i i) else z.
Proof.
  intros Ht aes clog K vv vi ix ov oi ta tb L1 L2 H1 H2 H3 H4 H5 H6 H7.
  destruct (spfss_batched_correct t Ht aes clog K vv vi ix ov oi ta tb H1 H2 H3 H4 H5 H6 H7) as (rv & ri & HC & HR).
  exists rv, ri. split; [|exact HR]. assert (Hl : zlen oi = zlen ov) by (rewrite <- (zlen_map zlen oi), H1, zlen_map; reflexivity).
  eapply alike_completes; [apply value_int_id; assumption|apply index_int_id; rewrite ?H1; lia|exact HC].
Qed.
Lemma spfss_index_over (S : scalar) aes clog vals indices (outputs : list (list S)) :
  zlen outputs < 2^31 - 1 -> 2^31 - 1 <= tree_transfers clog (map zlen outputs) ->
  zlen vals = zlen outputs -> zlen indices = zlen outputs -> (forall i, 0 <= i < zlen outputs -> valid_index (znth 0 indices i) (zlen (znth [] outputs i))) ->
  exists w, ProcSpec.returns (spfss_index_provider_batched_int S aes clog vals indices outputs) (UB w).
Proof.
  intros H1 H2 H3 H4 H5. destruct (receiver_int_over S aes clog indices outputs H1 H2 (eq_sym H4) H5) as [w Hw]. exists w.
  unfold ProcSpec.returns, spfss_index_provider_batched_int in *. rewrite H3, H4, Z.eqb_refl. cbn [negb orb]. now rewrite Hw.
Qed.
Lemma spfss_value_over (S : scalar) aes clog K vals (outputs : list (list S)) l o :
  zlen outputs < 2^31 - 1 -> 2^31 - 1 <= tree_transfers clog (map zlen outputs) ->
  zlen vals = zlen outputs -> Forall (fun out => supported_size clog (zlen out)) outputs ->
  s_can_hash S (security_per_leaf K (total_leaves (map zlen outputs))) 128 = true ->
  does (spfss_value_provider_batched_int S aes clog K vals outputs) l o ->
  l = [] /\ match o with Some r => exists w, r = UB w | None => True end.
Proof.
  intros H1 H2 H3 H4 H5 H. unfold spfss_value_provider_batched_int in H. rewrite H3, Z.eqb_refl in H. cbn [negb] in H.
  apply does_pbind in H. destruct H as (l1 & o1 & H & Ho). destruct (sender_int_over S aes clog K outputs l1 o1 H1 H2 H4 H5 H) as [-> Hr].
  destruct o1 as [r|]; [|destruct Ho as [-> ->]; auto]. destruct Hr as [w ->]. destruct Ho as (l2 & -> & Ho). cbn in Ho. inversion Ho; subst; split; eauto.
Qed.
Lemma does_then {T A B} (p : proc T A) (f : A -> proc T B) l a l2 o : does p l (Some a) -> does (f a) l2 o -> does (pbind p f) (l ++ l2) o.
Proof. intro H. remember (Some a) as oa eqn:E. revert a E. induction H; intros a' E Hf; try discriminate; cbn [pbind app]; try (econstructor; eauto; fail). now injection E as ->. Qed.
Lemma unreached_all {A B} (vals : list A) (l : list B) : zlen vals = 2^32 -> unreached vals l = l.
Proof. intro H. unfold unreached. rewrite int_size_wraps by exact H. reflexivity. Qed.
Lemma spfss_wrapped (S : scalar) aes clog K vals indices (outputs : list (list S)) :
  zlen outputs = 2^32 -> zlen indices = 2^32 -> zlen vals = 2^32 -> s_can_hash S (security_per_leaf K 0) 128 = true ->
  does (spfss_value_provider_batched_int S aes clog K vals outputs) [SendsBlocks 2; sending (MVec vals)] (Some (Ok outputs)) /\
  does (spfss_index_provider_batched_int S aes clog vals indices outputs) [Receives; Receives] (Some (Ok outputs)).
Proof.
  intros H1 H2 H3 Hc. destruct (wrapped S aes clog K indices outputs H1 H2 Hc) as [HS HR].
  unfold spfss_value_provider_batched_int, spfss_index_provider_batched_int. rewrite H1, H2, H3, Z.eqb_refl. cbn [negb orb]. unfold pbindr. split.
  - eapply (does_then _ _ [SendsBlocks 2]); [exact HS|]. cbv beta iota zeta.
    rewrite !unreached_all by exact H3. rewrite visited_none by (rewrite zlen_combine by congruence; exact H3). cbn [map app]. constructor. constructor.
  - eapply (does_then _ _ [Receives]); [exact HR|]. cbv beta iota zeta.
    rewrite int_size_wraps by exact H3. rewrite unreached_all by exact H3. change (zrange 0 0) with (@nil Z). cbn [rmapM plift]. unfold recv_vec.
    apply (does_recv _ (MVec vals)). cbn [rbind app]. constructor.
Qed.
