(** What the other party can notice of the receiving sides. *)
From Verif Require Import Base BaseFacts ListFacts ScalarModel ProcModel ProcSpec GgmModel RotModel SpfssModel
  PackModel GilboaModel GilboaSpec GilboaProofs TraceSpec.
From Coq Require Import QArith.
Local Open Scope Z_scope.

Section T.
  Context {T : Type}.

  Lemma prefix_nil {A} (l : list A) : prefix [] l.
  Proof. exists l. reflexivity. Qed.
  Lemma prefix_refl {A} (l : list A) : prefix l l.
  Proof. exists []. apply app_nil_r. Qed.
  Lemma prefix_cons {A} (a : A) l l' : prefix l l' -> prefix (a :: l) (a :: l').
  Proof. intros [r <-]. exists r. reflexivity. Qed.

  (** All events of a process, in order. *)
  Definition within {R} (p : proc T R) (evs : list (event T)) : Prop := forall e, trace p e -> prefix e evs.

  Lemma within_ret {R} (r : R) evs : within (Ret r) evs.
  Proof. intros e H. inversion H; subst. apply prefix_nil. Qed.
  Lemma within_send {R} m (k : proc T R) evs : within k evs -> within (Send m k) (Sent m :: evs).
  Proof. intros H e He. inversion He; subst; [apply prefix_nil|]. apply prefix_cons. now apply H. Qed.
  Lemma within_recv {R} (k : _ -> proc T R) evs : (forall m, within (k m) evs) -> within (Recv k) evs.
  Proof. intros H e He. inversion He; subst; [apply prefix_nil|]. eapply H; eauto. Qed.
  Lemma within_ot {R} c cs (k : _ -> proc T R) evs n : List.length cs = n -> (forall r, within (k r) evs) ->
    within (OtRecv c cs k) (Chose c n :: evs).
  Proof. intros <- H e He. inversion He; subst; [apply prefix_nil|]. apply prefix_cons. eapply H; eauto. Qed.
  Lemma within_rand {R} (k : _ -> _ -> proc T R) evs : (forall x t, within (k x t) evs) -> within (Rand k) evs.
  Proof. intros H e He. inversion He; subst; [apply prefix_nil|]. eapply H; eauto. Qed.

  (** The second process only adds events when the first is complete, so this
      rule is for a second part without events. *)
  Lemma within_bind {A B} (p : proc T A) (f : A -> proc T B) evs : within p evs -> (forall a, within (f a) []) ->
    within (pbind p f) evs.
  Proof.
    revert evs. induction p as [a|m k IH|k IH|c cs k IH|k IH]; intros evs Hp Hf; cbn [pbind].
    - intros e He. destruct (Hf a e He) as [r Hr]. apply app_eq_nil in Hr. destruct Hr as [-> _]. apply prefix_nil.
    - assert (exists evs', evs = Sent m :: evs' /\ within k evs') as (evs' & -> & Hk).
      { destruct (Hp [Sent m]) as [r Hr]; [repeat constructor|]. cbn in Hr. subst evs. exists r. split; auto.
        intros e He. destruct (Hp (Sent m :: e)) as [r' Hr']; [now constructor|]. injection Hr' as Hr'. now exists r'. }
      apply within_send. now apply IH.
    - apply within_recv. intro m. apply IH; auto. intros e He. apply Hp. now apply trace_recv with m.
    - assert (exists evs', evs = Chose c (List.length cs) :: evs' /\ forall r, within (k r) evs') as (evs' & -> & Hk).
      { destruct (Hp [Chose c (List.length cs)]) as [r Hr]; [apply trace_ot with None; constructor|]. cbn in Hr. subst evs. exists r. split; auto.
        intros r0 e He. destruct (Hp (Chose c (List.length cs) :: e)) as [r' Hr']; [now apply trace_ot with r0|].
        injection Hr' as Hr'. now exists r'. }
      apply within_ot; auto.
    - apply within_rand. intros x t. apply IH; auto. intros e He. apply Hp. now apply trace_rand with x t.
  Qed.
  Lemma within_bindr {A B} (p : proc T (res A)) (f : A -> proc T (res B)) evs : within p evs -> (forall a, within (f a) []) ->
    within (pbindr p f) evs.
  Proof. intros Hp Hf. apply within_bind; auto. intros [a| |]; auto using within_ret. Qed.
  Lemma within_lift {A B} (m : res A) (f : A -> proc T (res B)) evs : (forall a, m = Ok a -> within (f a) evs) -> within (plift m f) evs.
  Proof. destruct m; cbn; auto using within_ret. Qed.
  Lemma within_recv_vec {A} (k : list T -> proc T (res A)) evs : (forall l, within (k l) evs) -> within (recv_vec k) evs.
  Proof. intro H. apply within_recv. intros []; auto using within_ret. Qed.
  Lemma within_recv_blocks {A} (k : list N -> proc T (res A)) evs : (forall l, within (k l) evs) -> within (recv_blocks k) evs.
  Proof. intro H. apply within_recv. intros []; auto using within_ret. Qed.
  Lemma within_ot_recv {A} c cs (k : list N -> proc T (res A)) evs n : List.length cs = n -> (forall l, within (k l) evs) ->
    within (ot_recv c cs k) (Chose c n :: evs).
  Proof. intros Hn H. apply within_ot; auto. intros []; auto using within_ret. Qed.
End T.

Section Rot.
  Variable S : scalar.
  Variable aes : N -> N -> N.
  Variable clog : Z -> Z -> nat.

  Lemma tree_choices_length arity n index l : tree_choices clog arity n index = Ok l -> List.length l = clog arity n.
  Proof.
    unfold tree_choices. intro H. eapply (for_range_inv_ok (fun _ l => zlen l = Z.of_nat (clog arity n))) in H.
    - unfold zlen in H. lia.
    - lia.
    - rewrite zlen_zrepeat; lia.
    - intros i s s' _ Hs E. unfold zset in E. destruct (_ && _); [|discriminate]. injection E as <-. now rewrite zlen_list_set.
  Qed.

  Lemma all_choices_length sizes : forall indices choices offsets c o, zlen sizes = zlen indices ->
    all_choices clog 2 (combine sizes indices) choices offsets = Ok (c, o) ->
    List.length c = (List.length choices + ot_count clog sizes)%nat.
  Proof.
    induction sizes as [|n sizes IH]; intros [|i indices] choices offsets c o Hl H; try (unfold zlen in Hl; cbn in Hl; lia).
    - injection H as <- _. cbn. lia.
    - cbn [combine all_choices] in H. assert (Hl' : zlen sizes = zlen indices) by (rewrite !zlen_cons in Hl; lia).
      unfold ot_count. cbn [map fold_right]. fold (ot_count clog sizes). destruct (n =? 0).
      + eapply IH in H; eauto.
      + destruct (tree_choices clog 2 n i) as [new| |] eqn:E; cbn [rbind] in H; try discriminate.
        apply tree_choices_length in E. eapply IH in H; auto. rewrite H, app_length. lia.
  Qed.

  Lemma rot_receiver_within indices outputs : exists evs,
    (evs = [] \/ evs = [Chose false (ot_count clog (map zlen outputs))]) /\
    within (rot_receiver_batched S aes clog indices outputs) evs.
  Proof.
    unfold rot_receiver_batched. destruct (negb _) eqn:El; [exists []; auto using within_ret|].
    destruct (existsb _ _); [exists []; auto using within_ret|].
    apply negb_false_iff, Z.eqb_eq in El. unfold receive_trees. rewrite zlen_map.
    replace (zlen outputs =? zlen indices) with true by lia. cbn [negb]. change (Z.of_nat 2) with 2.
    destruct (all_choices clog 2 (combine (map zlen outputs) indices) [] [0]) as [[c o]| |] eqn:E; cbn [plift];
      try (exists []; split; auto; apply within_bindr; auto using within_ret; fail).
    apply all_choices_length in E; [|rewrite zlen_map; lia]. cbn [List.length] in E.
    destruct (Z.ltb_spec 0 (zlen c)).
    - exists [Chose false (ot_count clog (map zlen outputs))]. split; auto. apply within_bindr; [|auto using within_ret].
      apply within_ot_recv; [lia|]. intro l. apply within_recv_blocks. auto using within_ret.
    - exists []. split; auto. apply within_bindr; [|auto using within_ret]. apply within_recv_blocks. auto using within_ret.
  Qed.

  Lemma within_weaken {R} (p : proc S R) evs evs' : within p evs -> prefix evs evs' -> within p evs'.
  Proof. intros H [r <-] e He. destruct (H e He) as [r' <-]. exists (r' ++ r). now rewrite app_assoc. Qed.

  Lemma rot_receiver_trace indices outputs :
    within (rot_receiver_batched S aes clog indices outputs) [Chose false (ot_count clog (map zlen outputs))].
  Proof.
    destruct (rot_receiver_within indices outputs) as (evs & [-> | ->] & H); auto.
    eapply within_weaken; eauto using prefix_nil.
  Qed.

  Lemma spfss_index_trace vals indices outputs :
    within (spfss_index_provider_batched S aes clog vals indices outputs) [Chose false (ot_count clog (map zlen outputs))].
  Proof.
    unfold spfss_index_provider_batched. destruct (_ || _); [apply within_ret|].
    apply within_bindr; [apply rot_receiver_trace|]. intro outs. apply within_lift. intros sums _.
    apply within_recv_vec. intro l. apply within_ret.
  Qed.
End Rot.

Section Gilboa.
  Variable S : scalar.
  Hypothesis Hsize : 1 <= s_size S.
  Variable K : Q.

  Lemma value_choices_length x len n l : value_choices S x len n = Ok l -> 0 <= n -> zlen l = n.
  Proof.
    unfold value_choices. intros H Hn. destruct (Z.leb_spec 0 (chunks S len)).
    - eapply (for_range_inv_ok (fun _ l => zlen l = n)) in H; auto.
      + now apply zlen_zrepeat.
      + intros c s s' _ Hs E. cbv beta in E. destruct (Z.leb_spec 0 (num_bits S)).
        * eapply (for_range_inv_ok (fun _ l => zlen l = n)) in E; auto. intros j t t' _ Ht E'. cbv beta in E'.
          destruct (zget _ _); cbn [rbind] in E'; try discriminate.
          unfold zset in E'. destruct (_ && _); [|discriminate]. injection E' as <-. now rewrite zlen_list_set.
        * rewrite for_range_empty in E by lia. congruence.
    - rewrite for_range_empty in H by lia. injection H as <-. now apply zlen_zrepeat.
  Qed.

  Lemma gilboa_value_trace x out : zlen out < 2^31 ->
    within (gilboa_value_provider S K x out)
      [Chose (use_correlated_ot S K (zlen out)) (Z.to_nat (transfers (s_size S) (zlen out)))].
  Proof.
    intro Hlt. unfold gilboa_value_provider. pose proof (zlen_nonneg out) as H0. rewrite wrap32_id by lia.
    destruct (Z.ltb_spec 16 (s_size S)); [apply within_ret|].
    apply within_lift. intros a Ha. apply within_lift. intros n Hn. destruct (Z.ltb_spec n 0); [apply within_ret|].
    apply within_lift. intros c Hc. apply within_ot_recv; [|auto using within_ret].
    apply value_choices_length in Hc; [|lia]. unfold int_result in Ha, Hn.
    destruct (_ && _) in Ha; [|discriminate]. injection Ha as <-. destruct (_ && _) in Hn; [|discriminate]. injection Hn as <-.
    assert (Hpf : 1 <= packing_factor S).
    { unfold packing_factor. rewrite Z.quot_div_nonneg by lia. apply Z.div_le_lower_bound; lia. }
    rewrite Z.quot_div_nonneg in Hc by lia.
    unfold transfers. replace (16 / s_size S) with (packing_factor S) by (unfold packing_factor; apply Z.quot_div_nonneg; lia).
    change (8 * s_size S) with (num_bits S).
    rewrite <- Hc. unfold zlen. now rewrite Nat2Z.id.
  Qed.
End Gilboa.
