(** Proofs that the steps of a party do not depend on secrets. *)
From Verif Require Import Base BaseFacts ListFacts ScalarModel ScalarSpec ProcModel GgmModel RotModel SpfssFinal SpfssModel PackModel GilboaModel
  RngModel CuckooModel TraceSpec TraceProofs MpfssModel VoleModel VoleSpec VoleHistory PatternSpec.
From Coq Require Import QArith.
Local Open Scope Z_scope.

(** ** A relation between processes *)
Section Sim.
  Context {T : Type}.

  Inductive sim {R} (bad : R -> Prop) (Q : R -> R -> Prop) : proc T R -> proc T R -> Prop :=
  | sim_bad_l : forall r q, bad r -> sim bad Q (Ret r) q
  | sim_bad_r : forall r p, bad r -> sim bad Q p (Ret r)
  | sim_done : forall r r', Q r r' -> sim bad Q (Ret r) (Ret r')
  | sim_send : forall m m' k k', sending m = sending m' -> sim bad Q k k' -> sim bad Q (Send m k) (Send m' k')
  | sim_recv : forall k k', (forall m m', sim bad Q (k m) (k' m')) -> sim bad Q (Recv k) (Recv k')
  | sim_ot : forall c cs cs' k k', List.length cs = List.length cs' -> (forall x x', sim bad Q (k x) (k' x')) ->
      sim bad Q (OtRecv c cs k) (OtRecv c cs' k')
  | sim_rand_l : forall k q, (forall x t, sim bad Q (k x t) q) -> sim bad Q (Rand k) q
  | sim_rand_r : forall k p, (forall x t, sim bad Q p (k x t)) -> sim bad Q p (Rand k).

  Lemma prefix_of_nil {A} (l : list A) : prefix_of [] l.
  Proof. exists l. reflexivity. Qed.
  Lemma prefix_of_cons {A} (a : A) l l' : prefix_of l l' -> prefix_of (a :: l) (a :: l').
  Proof. intros [r ->]. exists r. reflexivity. Qed.

  Lemma does_ret_inv {R} (r : R) l o : does (T := T) (Ret r) l o -> l = [] /\ (o = None \/ o = Some r).
  Proof. intro H. inversion H; subst; auto. Qed.

  Lemma sim_steps {R} (bad : R -> Prop) Q p q : sim bad Q p q -> forall l o l' o', does p l o -> does q l' o' ->
    same_steps (fun r => ~ bad r) l l' o o' /\
    (forall r r', o = Some r -> o' = Some r' -> ~ bad r -> ~ bad r' -> Q r r').
  Proof.
    unfold same_steps.
    induction 1 as [r q Hr|r p Hr|r r' HQ|m m' k k' Hm _ IH|k k' _ IH|c cs cs' k k' Hc _ IH|k q _ IH|k p _ IH]; intros l o l' o' Hp Hq.
    - apply does_ret_inv in Hp. destruct Hp as [-> [-> | ->]]; (split; [|intros; congruence]); (split; [left; apply prefix_of_nil|]); split; intros r0 E Hn; try discriminate; try (injection E as <-; contradiction); apply prefix_of_nil.
    - apply does_ret_inv in Hq. destruct Hq as [-> [-> | ->]]; (split; [|intros; congruence]); (split; [right; apply prefix_of_nil|]); split; intros r0 E Hn; try discriminate; try (injection E as <-; contradiction); apply prefix_of_nil.
    - apply does_ret_inv in Hp. apply does_ret_inv in Hq. destruct Hp as [-> Hp], Hq as [-> Hq].
      split; [repeat split; auto using prefix_of_nil|]. intros a b Ha Hb _ _. destruct Hp, Hq; congruence.
    - inversion Hp; subst.
      + split; [|intros; discriminate]. split; [left; apply prefix_of_nil|]. split; [intros; discriminate|intros; apply prefix_of_nil].
      + inversion Hq; subst.
        * split; [|intros; discriminate]. split; [right; apply prefix_of_nil|]. split; [intros; apply prefix_of_nil|intros; discriminate].
        * rewrite Hm. edestruct IH as [(A & B & C) D]; eauto. split; auto. split; [destruct A; [left|right]; now apply prefix_of_cons|].
          split; intros; apply prefix_of_cons; eauto.
    - inversion Hp; subst.
      + split; [|intros; discriminate]. split; [left; apply prefix_of_nil|]. split; [intros; discriminate|intros; apply prefix_of_nil].
      + inversion Hq; subst.
        * split; [|intros; discriminate]. split; [right; apply prefix_of_nil|]. split; [intros; apply prefix_of_nil|intros; discriminate].
        * edestruct IH as [(A & B & C) D]; eauto. split; auto. split; [destruct A; [left|right]; now apply prefix_of_cons|].
          split; intros; apply prefix_of_cons; eauto.
    - inversion Hp; subst.
      + split; [|intros; discriminate]. split; [left; apply prefix_of_nil|]. split; [intros; discriminate|intros; apply prefix_of_nil].
      + inversion Hq; subst.
        * split; [|intros; discriminate]. split; [right; apply prefix_of_nil|]. split; [intros; apply prefix_of_nil|intros; discriminate].
        * rewrite Hc. edestruct IH as [(A & B & C) D]; eauto. split; auto. split; [destruct A; [left|right]; now apply prefix_of_cons|].
          split; intros; apply prefix_of_cons; eauto.
    - inversion Hp; subst; [|eapply IH; eauto].
      split; [|intros; discriminate]. split; [left; apply prefix_of_nil|]. split; [intros; discriminate|intros; apply prefix_of_nil].
    - inversion Hq; subst; [|eapply IH; eauto].
      split; [|intros; discriminate]. split; [right; apply prefix_of_nil|]. split; [intros; apply prefix_of_nil|intros; discriminate].
  Qed.

  (** An unsuccessful first part makes the whole unsuccessful. *)
  Definition keeps_bad {A B} (bad : A -> Prop) (bad' : B -> Prop) (f : A -> proc T B) : Prop :=
    forall a, bad a -> exists b, f a = Ret b /\ bad' b.

  Lemma sim_bind {A B} (bad : A -> Prop) (bad' : B -> Prop) Q Q' p q (f g : A -> proc T B) : sim bad Q p q ->
    keeps_bad bad bad' f -> keeps_bad bad bad' g -> (forall a a', Q a a' -> sim bad' Q' (f a) (g a')) ->
    sim bad' Q' (pbind p f) (pbind q g).
  Proof.
    intros H Hf Hg HQ. induction H as [r q Hr|r p Hr|r r' Hr|m m' k k' Hm _ IH|k k' _ IH|c cs cs' k k' Hc _ IH|k q _ IH|k p _ IH]; cbn [pbind].
    - destruct (Hf r Hr) as (b & -> & Hb). now apply sim_bad_l.
    - destruct (Hg r Hr) as (b & -> & Hb). now apply sim_bad_r.
    - auto.
    - now apply sim_send.
    - now apply sim_recv.
    - now apply sim_ot.
    - now apply sim_rand_l.
    - now apply sim_rand_r.
  Qed.

  Lemma sim_weaken {A} (bad : A -> Prop) (Q Q' : A -> A -> Prop) p q : sim bad Q p q -> (forall a a', Q a a' -> Q' a a') -> sim bad Q' p q.
  Proof. intros H HQ. induction H; try (constructor; auto; fail). Qed.

  (** For results that may be errors. *)
  Definition failed {A} (r : res A) : Prop := match r with Ok _ => False | _ => True end.
  Definition both_ok {A} (R : A -> A -> Prop) (r r' : res A) : Prop := forall a a', r = Ok a -> r' = Ok a' -> R a a'.
  Definition rsim {A} (R : A -> A -> Prop) : proc T (res A) -> proc T (res A) -> Prop := sim failed (both_ok R).

  Lemma rsim_ret {A} (R : A -> A -> Prop) r r' : both_ok R r r' -> rsim R (Ret r) (Ret r').
  Proof. apply sim_done. Qed.
  Lemma rsim_ok {A} (R : A -> A -> Prop) a a' : R a a' -> rsim R (Ret (Ok a)) (Ret (Ok a')).
  Proof. intro H. apply rsim_ret. intros x y Hx Hy. injection Hx as <-. injection Hy as <-. exact H. Qed.
  Lemma rsim_bad_l {A} (R : A -> A -> Prop) r q : failed r -> rsim R (Ret r) q.
  Proof. apply sim_bad_l. Qed.
  Lemma rsim_bad_r {A} (R : A -> A -> Prop) r q : failed r -> rsim R q (Ret r).
  Proof. apply sim_bad_r. Qed.
  Lemma rsim_bind {A B} R (R' : B -> B -> Prop) p q (f g : A -> proc T (res B)) : rsim R p q ->
    (forall a a', R a a' -> rsim R' (f a) (g a')) -> rsim R' (pbindr p f) (pbindr q g).
  Proof.
    intros Hpq Hfg. unfold pbindr. eapply sim_bind; [exact Hpq| | |].
    - intros [a|e|w] Ha; [destruct Ha| |]; eexists; split; try reflexivity; exact I.
    - intros [a|e|w] Ha; [destruct Ha| |]; eexists; split; try reflexivity; exact I.
    - intros [a|e|w] r'; try (intros; apply rsim_bad_l; exact I). destruct r' as [a'|e|w]; intro H; try (apply rsim_bad_r; exact I). apply Hfg. now apply H.
  Qed.
  Lemma rsim_lift {A B} (R : B -> B -> Prop) m m' (f g : A -> proc T (res B)) :
    (forall a a', m = Ok a -> m' = Ok a' -> rsim R (f a) (g a')) -> rsim R (plift m f) (plift m' g).
  Proof.
    intro H. destruct m as [a| |]; cbn [plift]; try (apply rsim_bad_l; exact I).
    destruct m' as [a'| |]; cbn [plift]; try (apply rsim_bad_r; exact I). auto.
  Qed.
  Lemma rsim_if {A} (R : A -> A -> Prop) (b b' : bool) r r' p q : failed r -> failed r' -> (b = false -> b' = false -> rsim R p q) ->
    rsim R (if b then Ret r else p) (if b' then Ret r' else q).
  Proof. intros. destruct b; [now apply rsim_bad_l|]. destruct b'; [now apply rsim_bad_r|]. auto. Qed.
  Lemma rsim_recv_vec {A} (R : A -> A -> Prop) k k' : (forall l l', rsim R (k l) (k' l')) -> rsim R (recv_vec k) (recv_vec k').
  Proof.
    intro H. apply sim_recv. intros m m'. destruct m; try (apply rsim_bad_l; exact I). destruct m'; try (apply rsim_bad_r; exact I). apply H.
  Qed.
  Lemma rsim_recv_blocks {A} (R : A -> A -> Prop) k k' : (forall l l', rsim R (k l) (k' l')) -> rsim R (recv_blocks k) (recv_blocks k').
  Proof.
    intro H. apply sim_recv. intros m m'. destruct m; try (apply rsim_bad_l; exact I). destruct m'; try (apply rsim_bad_r; exact I). apply H.
  Qed.
  Lemma rsim_recv_bytes {A} (R : A -> A -> Prop) k k' : (forall l l', rsim R (k l) (k' l')) -> rsim R (recv_bytes k) (recv_bytes k').
  Proof.
    intro H. apply sim_recv. intros m m'. destruct m; try (apply rsim_bad_l; exact I). destruct m'; try (apply rsim_bad_r; exact I). apply H.
  Qed.
  Lemma rsim_ot_recv {A} (R : A -> A -> Prop) c cs cs' k k' : List.length cs = List.length cs' -> (forall l l', rsim R (k l) (k' l')) ->
    rsim R (ot_recv c cs k) (ot_recv c cs' k').
  Proof.
    intros Hl H. apply sim_ot; auto. intros m m'. destruct m; try (apply rsim_bad_l; exact I). destruct m'; try (apply rsim_bad_r; exact I). apply H.
  Qed.
  Lemma sim_rand_blocks {R} (bad : R -> Prop) Q n : forall k k', (forall l l', List.length l = n -> List.length l' = n -> sim bad Q (k l) (k' l')) ->
    sim (R := R) bad Q (rand_blocks n k) (rand_blocks n k').
  Proof.
    induction n as [|n IH]; intros k k' H; cbn [rand_blocks]; [now apply H|].
    apply sim_rand_l. intros x t. apply sim_rand_r. intros x' t'. apply IH. intros l l' Hl Hl'. apply H; cbn; congruence.
  Qed.
  Lemma sim_rand_scalars {R} (bad : R -> Prop) Q n : forall k k', (forall l l', List.length l = n -> List.length l' = n -> sim bad Q (k l) (k' l')) ->
    sim (R := R) bad Q (rand_scalars n k) (rand_scalars n k').
  Proof.
    induction n as [|n IH]; intros k k' H; cbn [rand_scalars]; [now apply H|].
    apply sim_rand_l. intros x t. apply sim_rand_r. intros x' t'. apply IH. intros l l' Hl Hl'. apply H; cbn; congruence.
  Qed.
End Sim.

Lemma zlen_length {A B} (l : list A) (l' : list B) : zlen l = zlen l' <-> List.length l = List.length l'.
Proof. unfold zlen. lia. Qed.
Lemma zset_zlen {A} (l : list A) i a l' : zset l i a = Ok l' -> zlen l' = zlen l.
Proof. unfold zset. destruct (_ && _); [|discriminate]. intro H. injection H as <-. apply zlen_list_set. Qed.
(** A loop that keeps a quantity. *)
Lemma for_range_keeps {A X} (f : A -> X) lo hi body s s' : (forall i a a', body i a = Ok a' -> f a' = f a) ->
  for_range lo hi body s = Ok s' -> f s' = f s.
Proof.
  intros Hb H. destruct (Z.leb_spec lo hi).
  - eapply (for_range_inv_ok (fun _ a => f a = f s)) in H; auto. intros i a a' _ Ha Hi. rewrite <- Ha. eauto.
  - rewrite for_range_empty in H by lia. now injection H as <-.
Qed.

(** ** Random OT and single-point functions *)
Section Rot.
  Variable S : scalar.
  Variable aes : N -> N -> N.
  Variable clog : Z -> Z -> nat.

  Lemma set_node_zlen lv l i v lv' : set_node lv l i v = Ok lv' -> zlen lv' = zlen lv.
  Proof.
    unfold set_node. destruct (zget lv l); cbn [rbind]; try discriminate. destruct (zset _ i v); cbn [rbind]; try discriminate. apply zset_zlen.
  Qed.
  Lemma expand_node_zlen A ks l i lv lv' : expand_node aes A ks l i lv = Ok lv' -> zlen lv' = zlen lv.
  Proof.
    unfold expand_node. destruct (level_size _ _); cbn [rbind]; try discriminate. apply for_range_keeps.
    intros s x x' H. destruct (get_node _ _ _); cbn [rbind] in H; try discriminate. destruct (zget ks s); cbn [rbind] in H; try discriminate.
    eauto using set_node_zlen.
  Qed.
  Lemma expand_subtree_zlen A ks l i lv lv' : expand_subtree aes A ks l i lv = Ok lv' -> zlen lv' = zlen lv.
  Proof.
    unfold expand_subtree. destruct (for_range _ _ _ _) as [[[x y] z]| |] eqn:E; cbn [rbind fst]; try discriminate. intro H. injection H as <-.
    apply (for_range_keeps (fun s => zlen (fst (fst s)))) in E; [exact E|]. intros j [[a b] c] [[a' b'] c'] H. cbn [fst].
    destruct (level_size a j); cbn [rbind] in H; try discriminate.
    destruct (for_range b _ _ a) as [a1| |] eqn:E1; cbn [rbind] in H; try discriminate. injection H as <- _ _.
    eapply (for_range_keeps zlen) in E1; [exact E1|]. intros n u u'. apply expand_node_zlen.
  Qed.
  Lemma alloc_levels_zlen A n lv lv' : allocate_levels clog A n = Ok lv -> allocate_levels clog A n = Ok lv' -> zlen lv = zlen lv'.
  Proof. congruence. Qed.
  Lemma create_num_levels n seed seed' keys keys' t t' : zlen keys = zlen keys' -> ggm_create aes clog n seed keys = Ok t ->
    ggm_create aes clog n seed' keys' = Ok t' -> num_levels t = num_levels t'.
  Proof.
    unfold ggm_create. intros Hk. rewrite Hk. destruct (zlen keys' <? 2); [discriminate|]. destruct (n <=? 0); [discriminate|].
    destruct (allocate_levels clog (zlen keys') n) as [lv| |]; cbn [rbind]; try discriminate.
    destruct (set_node lv 0 0 seed) as [l1| |] eqn:E1; cbn [rbind]; try discriminate.
    destruct (expand_subtree _ _ _ _ _ (t_levels (mk_tree l1 keys keys))) as [l2| |] eqn:E2; cbn [rbind]; try discriminate. intro H. injection H as <-.
    destruct (set_node lv 0 0 seed') as [l1'| |] eqn:E1'; cbn [rbind]; try discriminate.
    destruct (expand_subtree _ _ _ _ _ (t_levels (mk_tree l1' keys' keys'))) as [l2'| |] eqn:E2'; cbn [rbind]; try discriminate. intro H. injection H as <-.
    unfold num_levels. cbn [t_levels]. apply expand_subtree_zlen in E2, E2'. apply set_node_zlen in E1, E1'. cbn [t_levels mk_tree] in *. lia.
  Qed.
  Lemma rmapM_zlen {A B} (f : A -> res B) l r : rmapM f l = Ok r -> zlen r = zlen l.
  Proof.
    revert r. induction l as [|a l IH]; cbn [rmapM]; intros r H; [injection H as <-; reflexivity|].
    destruct (f a); cbn [rbind] in H; try discriminate. destruct (rmapM f l); cbn [rbind] in H; try discriminate. injection H as <-.
    rewrite !zlen_cons. now rewrite (IH _ eq_refl).
  Qed.
  Lemma tree_ot_pairs_zlen t l : tree_ot_pairs t = Ok l -> zlen l = Z.max 0 (num_levels t - 1).
  Proof.
    unfold tree_ot_pairs. destruct (get_sibling_wise_xor t); cbn [rbind]; try discriminate. intro H. apply rmapM_zlen in H.
    rewrite H, zlen_zrange_max. lia.
  Qed.

  (** Trees with the same numbers of levels, if they exist. *)
  Definition tree_like (a b : option (res tree)) : Prop :=
    match a, b with
    | None, None => True
    | Some r, Some r' => forall t t', r = Ok t -> r' = Ok t' -> num_levels t = num_levels t'
    | _, _ => False
    end.
  Lemma prepare_opts_like ts ts' : Forall2 tree_like ts ts' -> forall trees trees' opts opts' x y x' y', zlen opts = zlen opts' ->
    prepare_opts ts trees opts = Ok (x, y) -> prepare_opts ts' trees' opts' = Ok (x', y') -> zlen y = zlen y'.
  Proof.
    induction 1 as [|a b ts ts' Hab _ IH]; intros trees trees' opts opts' x y x' y' Ho; cbn [prepare_opts].
    - intros H H'. injection H as <- <-. injection H' as <- <-. exact Ho.
    - destruct a as [r|], b as [r'|]; try contradiction; [|eauto].
      destruct r as [t| |]; cbn [rbind]; try discriminate. destruct r' as [t'| |]; cbn [rbind]; try discriminate.
      destruct (tree_ot_pairs t) as [n1| |] eqn:E; cbn [rbind]; try discriminate.
      destruct (tree_ot_pairs t') as [n2| |] eqn:E'; cbn [rbind]; try discriminate.
      apply tree_ot_pairs_zlen in E, E'. rewrite (Hab t t' eq_refl eq_refl) in E. apply IH. rewrite !zlen_app. lia.
  Qed.
  Lemma create_trees_like {R} sizes keys keys' : zlen keys = zlen keys' -> forall k k',
    (forall l l', Forall2 tree_like l l' -> rsim R (k l) (k' l')) ->
    rsim R (create_trees S aes clog sizes keys k) (create_trees S aes clog sizes keys' k').
  Proof.
    intros Hk. induction sizes as [|n sizes IH]; intros k k' H; cbn [create_trees]; [apply H; constructor|].
    destruct (n =? 0).
    - apply IH. intros l l' Hl. apply H. constructor; [exact I|exact Hl].
    - apply sim_rand_l. intros x t. apply sim_rand_r. intros x' t'. apply IH. intros l l' Hl. apply H. constructor; [|exact Hl].
      intros a a' Ha Ha'. eapply create_num_levels; eauto.
  Qed.

  Lemma send_trees_like K sizes arity : rsim (fun _ _ => True) (send_trees S aes clog K sizes arity) (send_trees S aes clog K sizes arity).
  Proof.
    unfold send_trees. apply rsim_if; [exact I|exact I|]. intros _ _. apply sim_rand_blocks. intros keys keys' Hk Hk'.
    apply create_trees_like; [apply zlen_length; congruence|]. intros ts ts' Hts. apply rsim_lift. intros [trees opts] [trees' opts'] Ho Ho'.
    eapply prepare_opts_like in Ho'; [|exact Hts| |exact Ho]; [|reflexivity]. rewrite Ho'.
    assert (F : rsim (fun _ _ => True) (Send (MBlocks keys) (Ret (Ok trees))) (Send (MBlocks keys') (Ret (Ok trees')) : proc S _)).
    { apply sim_send; [cbn; congruence|]. now apply rsim_ok. }
    destruct (0 <? zlen opts'); [|exact F]. apply sim_send; [|exact F]. cbn. f_equal. now apply zlen_length.
  Qed.

  Lemma rot_sender_like K outs outs' : map zlen outs = map zlen outs' ->
    rsim (fun a b => zlen a = zlen b) (rot_sender_batched S aes clog K outs) (rot_sender_batched S aes clog K outs').
  Proof.
    intro H. unfold rot_sender_batched. rewrite H. eapply rsim_bind; [apply send_trees_like|]. intros t t' _. apply rsim_ret.
    intros a a' Ha Ha'. apply unpack_all_len in Ha, Ha'. rewrite Ha, Ha'. pose proof (f_equal (@zlen Z) H) as E. now rewrite !zlen_map in E.
  Qed.
  Lemma spfss_value_like K vals vals' outs outs' : map zlen outs = map zlen outs' ->
    rsim (fun _ _ => True) (spfss_value_provider_batched S aes clog K vals outs) (spfss_value_provider_batched S aes clog K vals' outs').
  Proof.
    intro H. unfold spfss_value_provider_batched. apply rsim_if; [exact I|exact I|]. intros H1 H2.
    apply negb_false_iff, Z.eqb_eq in H1, H2. pose proof (f_equal (@zlen Z) H) as E. rewrite !zlen_map in E.
    eapply rsim_bind; [apply rot_sender_like; exact H|]. intros a a' Ha. cbv zeta. apply sim_send; [|now apply rsim_ok].
    cbn. f_equal. rewrite !map_length, !combine_length. unfold zlen in *. lia.
  Qed.

  Lemma receive_trees_like sizes indices indices' : zlen sizes = zlen indices -> zlen sizes = zlen indices' ->
    rsim (fun _ _ => True) (receive_trees S aes clog sizes indices 2) (receive_trees S aes clog sizes indices' 2).
  Proof.
    intros H1 H2. unfold receive_trees. apply rsim_if; [exact I|exact I|]. intros _ _. change (Z.of_nat 2) with 2.
    apply rsim_lift. intros [c o] [c' o'] E E'. apply all_choices_length in E, E'; auto. cbn [List.length] in E, E'.
    assert (L : List.length c = List.length c') by congruence. replace (zlen c') with (zlen c) by (now apply zlen_length).
    assert (F : forall x x', rsim (fun _ _ => True)
      (recv_blocks (fun keys => Ret (collect (map (fun i => receive_tree aes clog 2 c x o keys i (znth 0 sizes i) (znth 0 indices i)) (zrange 0 (zlen sizes)))))
        : proc S _)
      (recv_blocks (fun keys => Ret (collect (map (fun i => receive_tree aes clog 2 c' x' o' keys i (znth 0 sizes i) (znth 0 indices' i)) (zrange 0 (zlen sizes))))))).
    { intros x x'. apply rsim_recv_blocks. intros l l'. apply rsim_ret. intros ? ? _ _. exact I. }
    destruct (0 <? zlen c); [|apply F]. apply rsim_ot_recv; [exact L|]. intros. apply F.
  Qed.
  Lemma rot_receiver_like indices indices' outs outs' : map zlen outs = map zlen outs' ->
    rsim (fun a b => zlen a = zlen b) (rot_receiver_batched S aes clog indices outs) (rot_receiver_batched S aes clog indices' outs').
  Proof.
    intro H. unfold rot_receiver_batched. pose proof (f_equal (@zlen Z) H) as E. rewrite !zlen_map in E.
    apply rsim_if; [exact I|exact I|]. intros H1 H2. apply negb_false_iff, Z.eqb_eq in H1, H2. apply rsim_if; [exact I|exact I|]. intros _ _.
    rewrite H. eapply rsim_bind; [apply receive_trees_like; rewrite zlen_map; lia|]. intros t t' _. apply rsim_ret.
    intros a a' Ha Ha'. apply unpack_all_len in Ha, Ha'. lia.
  Qed.
  Lemma spfss_index_like vals vals' indices indices' outs outs' : map zlen outs = map zlen outs' ->
    rsim (fun _ _ => True) (spfss_index_provider_batched S aes clog vals indices outs) (spfss_index_provider_batched S aes clog vals' indices' outs').
  Proof.
    intro H. unfold spfss_index_provider_batched. apply rsim_if; [exact I|exact I|]. intros _ _.
    eapply rsim_bind; [apply rot_receiver_like; exact H|]. intros a a' _. apply rsim_lift. intros s s' _ _.
    apply rsim_recv_vec. intros l l'. apply rsim_ret. intros ? ? _ _. exact I.
  Qed.
End Rot.

(** ** Gilboa products *)
Section Gilboa.
  Variable S : scalar.
  Variable K : Q.
  Lemma accumulate_zlen op ot n out out' : accumulate S op ot n out = Ok out' -> zlen out' = zlen out.
  Proof.
    unfold accumulate. apply for_range_keeps. intros c a a'. apply for_range_keeps. intros j b b' H.
    destruct (zget ot _); cbn [rbind] in H; try discriminate. revert H. apply for_range_keeps. intros k d d' H.
    destruct (zget d _); cbn [rbind] in H; try discriminate. destruct (zget _ k); cbn [rbind] in H; try discriminate. eauto using zset_zlen.
  Qed.
  Lemma vector_deltas_zlen y n l : vector_deltas S y n = Ok l -> zlen l = zlen (zrepeat 0%N n).
  Proof.
    unfold vector_deltas. apply for_range_keeps. intros c a a'. apply for_range_keeps. intros j b b'. apply zset_zlen.
  Qed.
  Lemma value_choices_zlen x len n l : value_choices S x len n = Ok l -> zlen l = zlen (zrepeat false n).
  Proof.
    unfold value_choices. apply for_range_keeps. intros c a a'. apply for_range_keeps. intros j b b' H.
    destruct (zget _ j); cbn [rbind] in H; try discriminate. eauto using zset_zlen.
  Qed.
  Lemma gilboa_vector_like y y' out out' : zlen y = zlen y' ->
    rsim (fun a b => zlen a = zlen b) (gilboa_vector_provider S K y out) (gilboa_vector_provider S K y' out').
  Proof.
    intro H. unfold gilboa_vector_provider. apply rsim_if; [exact I|exact I|]. intros H1 H2. apply negb_false_iff, Z.eqb_eq in H1, H2.
    apply rsim_if; [exact I|exact I|]. intros _ _. cbv zeta. rewrite H. apply rsim_lift. intros d d' Hd Hd'.
    apply vector_deltas_zlen in Hd, Hd'. assert (L : List.length d = List.length d') by (apply zlen_length; congruence).
    assert (F : forall x x', rsim (fun a b => zlen a = zlen b) (Ret (accumulate S (s_sub S) x (zlen y') (fill_zero S out)) : proc S _)
      (Ret (accumulate S (s_sub S) x' (zlen y') (fill_zero S out')))).
    { intros x x'. apply rsim_ret. intros a a' Ha Ha'. apply accumulate_zlen in Ha, Ha'. unfold fill_zero in *. rewrite zlen_map in *. lia. }
    unfold run_ot_sender. destruct (use_correlated_ot S K (zlen y')).
    - rewrite L. apply sim_rand_blocks. intros m m' Hm Hm'. apply sim_send; [|apply F]. cbn. unfold cot_pairs. rewrite !map_length, !combine_length. f_equal. lia.
    - replace (zlen d') with (zlen d) by (now apply zlen_length). apply sim_rand_scalars. intros m m' Hm Hm'. apply sim_send; [|apply F].
      cbn. unfold ot_pairs. rewrite !map_length. f_equal. unfold zlen. now rewrite L.
  Qed.
  Lemma gilboa_value_like x x' out out' : zlen out = zlen out' ->
    rsim (fun a b => zlen a = zlen b) (gilboa_value_provider S K x out) (gilboa_value_provider S K x' out').
  Proof.
    intro H. unfold gilboa_value_provider. rewrite H. apply rsim_if; [exact I|exact I|]. intros _ _. apply rsim_lift. intros a a' Ha Ha'.
    assert (a = a') by congruence. subst a'. apply rsim_lift. intros n n' Hn Hn'. assert (n = n') by congruence. subst n'.
    apply rsim_if; [exact I|exact I|]. intros _ _. apply rsim_lift. intros c c' Hc Hc'. apply value_choices_zlen in Hc, Hc'.
    apply rsim_ot_recv; [apply zlen_length; congruence|]. intros l l'. apply rsim_ret. intros r r' Hr Hr'. apply accumulate_zlen in Hr, Hr'.
    unfold fill_zero in *. rewrite zlen_map in *. lia.
  Qed.
End Gilboa.

(** ** Multi-point functions *)
Lemma zrepeat_same {A} (a : A) n : zlen (zrepeat a n) = Z.max 0 n.
Proof. unfold zrepeat. rewrite zlen_repeat. lia. Qed.

Definition failed2 {X A} (x : X * res A) : Prop := failed (snd x).
Definition both_ok2 {X A} (P : X -> X -> Prop) (R : A -> A -> Prop) (x x' : X * res A) : Prop :=
  forall a a', snd x = Ok a -> snd x' = Ok a' -> P (fst x) (fst x') /\ R a a'.

Section Mpfss.
  Variable S : scalar.
  Variable aes : N -> N -> N.
  Variable clog : Z -> Z -> nat.
  Variable too_many_bits : Z -> Z -> bool.
  Variable e3 e2 : Z -> Z.

  Lemma map_back_zlen buckets n bo out out' : map_back S buckets n bo out = Ok out' -> zlen out' = zlen out.
  Proof.
    unfold map_back. apply for_range_keeps. intros i a a' H. destruct (zget buckets i); cbn [rbind] in H; try discriminate. revert H.
    apply for_range_keeps. intros j b b' H. destruct (zget _ j) as [p| |]; cbn [rbind] in H; try discriminate.
    destruct (zget bo i); cbn [rbind] in H; try discriminate. destruct (zget _ j); cbn [rbind] in H; try discriminate.
    destruct (zget b p); cbn [rbind] in H; try discriminate. eauto using zset_zlen.
  Qed.

  Lemma with_state_like {A} (R : A -> A -> Prop) st p q : rsim R p q ->
    sim failed2 (both_ok2 eq R) (with_state S st p) (with_state S st q).
  Proof.
    intro H. unfold with_state. eapply sim_bind; [exact H| | |].
    - intros r Hr. eexists. split; [reflexivity|exact Hr].
    - intros r Hr. eexists. split; [reflexivity|exact Hr].
    - intros r r' HR. apply sim_done. intros a a' Ha Ha'. cbn [fst snd] in *. split; auto.
  Qed.
  Lemma after_update_like {A} (R : A -> A -> Prop) u k k' : (forall st, rsim R (k st) (k' st)) ->
    sim failed2 (both_ok2 eq R) (after_update S u k) (after_update S u k').
  Proof.
    intro H. unfold after_update. destruct u as [st [x|e|w]]; [now apply with_state_like| |]; apply sim_bad_l; exact I.
  Qed.
  Lemma sim2_if {X A} (P : X -> X -> Prop) (R : A -> A -> Prop) (b b' : bool) x x' (p q : proc S (X * res A)) : failed2 x -> failed2 x' ->
    (b = false -> b' = false -> sim failed2 (both_ok2 P R) p q) ->
    sim failed2 (both_ok2 P R) (if b then Ret x else p) (if b' then Ret x' else q).
  Proof. intros. destruct b; [now apply sim_bad_l|]. destruct b'; [now apply sim_bad_r|]. auto. Qed.

  Lemma value_body_like K x x' w w' buckets out out' : zlen out = zlen out' ->
    rsim (fun a b => zlen a = zlen b) (value_provider_body S aes clog K x w buckets out) (value_provider_body S aes clog K x' w' buckets out').
  Proof.
    intro H. unfold value_provider_body. cbv zeta. apply rsim_recv_vec. intros l l'. apply rsim_if; [exact I|exact I|]. intros _ _.
    apply rsim_if; [exact I|exact I|]. intros _ _. apply rsim_lift. intros bo bo' Hb Hb'. assert (bo = bo') by congruence. subst bo'.
    eapply rsim_bind; [now apply spfss_value_like|]. intros a a' _. apply rsim_ret. intros r r' Hr Hr'. apply map_back_zlen in Hr, Hr'.
    rewrite Hr, Hr', H. reflexivity.
  Qed.
  Lemma mpfss_value_like K sizes st x x' n w w' out out' : zlen out = zlen out' ->
    sim failed2 (both_ok2 eq (fun a b => zlen a = zlen b)) (mpfss_value_provider S aes clog K too_many_bits e3 e2 sizes st x n w out)
      (mpfss_value_provider S aes clog K too_many_bits e3 e2 sizes st x' n w' out').
  Proof.
    intro H. unfold mpfss_value_provider. rewrite H. apply sim2_if; [exact I|exact I|]. intros _ _. apply after_update_like. intro st'. now apply value_body_like.
  Qed.

  Lemma index_body_like y y' indices indices' u u' v v' h buckets out out' : zlen out = zlen out' ->
    rsim (fun a b => zlen a = zlen b) (index_provider_body S aes clog too_many_bits y indices u v h buckets out)
      (index_provider_body S aes clog too_many_bits y' indices' u' v' h buckets out').
  Proof.
    intro H. unfold index_provider_body. cbv zeta. apply rsim_lift. intros hi hi' _ _. apply rsim_if; [exact I|exact I|]. intros _ _.
    apply rsim_lift. intros yp yp' Hy Hy'. apply rmapM_zlen in Hy, Hy'. apply rsim_if; [exact I|exact I|]. intros Hu Hu'.
    apply negb_false_iff, Z.eqb_eq in Hu, Hu'.
    apply sim_send. { cbn. f_equal. rewrite !map_length, !combine_length. unfold zlen in *. lia. }
    apply rsim_lift. intros bo bo' Hb Hb'. assert (bo = bo') by congruence. subst bo'. apply rsim_lift. intros ib ib' _ _.
    eapply rsim_bind; [now apply spfss_index_like|]. intros a a' _. apply rsim_ret. intros r r' Hr Hr'. apply map_back_zlen in Hr, Hr'.
    rewrite Hr, Hr', H. reflexivity.
  Qed.
  Lemma mpfss_index_like sizes st y y' indices indices' u u' v v' out out' : zlen y = zlen y' -> zlen out = zlen out' ->
    sim failed2 (both_ok2 eq (fun a b => zlen a = zlen b)) (mpfss_index_provider S aes clog too_many_bits e3 e2 sizes st y indices u v out)
      (mpfss_index_provider S aes clog too_many_bits e3 e2 sizes st y' indices' u' v' out').
  Proof.
    intros Hy Ho. unfold mpfss_index_provider. rewrite Hy, Ho. do 5 (apply sim2_if; [exact I|exact I|]; intros _ _).
    apply after_update_like. intro st'. now apply index_body_like.
  Qed.
End Mpfss.

(** ** Vector OLE *)
Section Vole.
  Variable S : scalar.
  Variable E : setting.
  Variable M : machine S.

  (** Results and sides of the same sizes. *)
  Definition like_s (c c' : sender_result S) : Prop := zlen (sr_u c) = zlen (sr_u c') /\ zlen (sr_v c) = zlen (sr_v c').
  Definition like_r (c c' : receiver_result S) : Prop := zlen (rr_w c) = zlen (rr_w c').
  Record like_ss (s s' : sender_side S) : Prop := LikeS {
    ls_c : like_s (s_cached s) (s_cached s'); ls_v : like_s (s_vole_seed s) (s_vole_seed s');
    ls_m : like_s (s_mpfss_seed s) (s_mpfss_seed s'); ls_d : s_done s = s_done s' }.
  Record like_rr (r r' : receiver_side S) : Prop := LikeR {
    lr_c : like_r (r_cached r) (r_cached r'); lr_v : like_r (r_vole_seed r) (r_vole_seed r');
    lr_m : like_r (r_mpfss_seed r) (r_mpfss_seed r'); lr_d : r_done r = r_done r' }.
  (** Objects that differ only in the contents of vectors. *)
  Record like (st st' : vole S) : Prop := Like {
    l_mpfss : v_mpfss st = v_mpfss st'; l_rows : v_rows st = v_rows st'; l_columns : zlen (v_columns st) = zlen (v_columns st');
    l_batch : v_batch_size st = v_batch_size st'; l_vs : v_vole_seed_size st = v_vole_seed_size st';
    l_ms : v_mpfss_seed_size st = v_mpfss_seed_size st'; l_noise : v_num_noise st = v_num_noise st';
    l_s : like_ss (v_s st) (v_s st'); l_r : like_rr (v_r st) (v_r st') }.

  Definition msim {A} (R : A -> A -> Prop) (p q : member S A) : Prop :=
    forall st st', like st st' -> sim failed2 (both_ok2 like R) (p st) (q st').

  Lemma msim_bind {A B} R (R' : B -> B -> Prop) (p q : member S A) f g : msim R p q ->
    (forall a a', R a a' -> msim R' (f a) (g a')) -> msim R' (mbind p f) (mbind q g).
  Proof.
    intros Hpq Hfg st st' Hst. unfold mbind. eapply sim_bind; [exact (Hpq _ _ Hst)| | |].
    - intros [s [a|e|w]] Ha; [destruct Ha| |]; eexists; (split; [reflexivity|exact I]).
    - intros [s [a|e|w]] Ha; [destruct Ha| |]; eexists; (split; [reflexivity|exact I]).
    - intros [s [a|e|w]] [s' r'] H; try (apply sim_bad_l; exact I). destruct r' as [a'|e|w]; try (apply sim_bad_r; exact I).
      destruct (H a a' eq_refl eq_refl) as [H1 H2]. now apply Hfg.
  Qed.
  Lemma msim_ret {A} (R : A -> A -> Prop) a a' : R a a' -> msim R (mret a) (mret a').
  Proof. intros H st st' Hst. apply sim_done. intros x x' Hx Hx'. injection Hx as <-. injection Hx' as <-. auto. Qed.
  Lemma msim_fail_l {A} (R : A -> A -> Prop) e q : msim R (mfail e) q.
  Proof. intros st st' Hst. apply sim_bad_l. exact I. Qed.
  Lemma msim_fail_r {A} (R : A -> A -> Prop) e q : msim R q (mfail e).
  Proof. intros st st' Hst. apply sim_bad_r. exact I. Qed.
  Lemma msim_if {A} (R : A -> A -> Prop) (b b' : bool) e e' p q : (b = false -> b' = false -> msim R p q) ->
    msim R (if b then mfail e else p) (if b' then mfail e' else q).
  Proof. intros. destruct b; [apply msim_fail_l|]. destruct b'; [apply msim_fail_r|]. auto. Qed.
  Lemma msim_if_ub {A} (R : A -> A -> Prop) (b b' : bool) e e' p q : (b = false -> b' = false -> msim R p q) ->
    msim R (if b then mcalc (UB e) else p) (if b' then mcalc (UB e') else q).
  Proof.
    intros. destruct b; [intros st st' _; apply sim_bad_l; exact I|]. destruct b'; [intros st st' _; apply sim_bad_r; exact I|]. auto.
  Qed.
  Lemma msim_calc {A} (R : A -> A -> Prop) m m' : both_ok R m m' -> msim R (mcalc m) (mcalc m').
  Proof. intros H st st' Hst. apply sim_done. intros x x' Hx Hx'. cbn in *. auto. Qed.
  Lemma msim_calc_eq {A} (m : res A) : msim eq (mcalc m) (mcalc m).
  Proof. apply msim_calc. intros a a' -> H. congruence. Qed.
  Lemma msim_calc_any {A} (m m' : res A) : msim (fun _ _ => True) (mcalc m) (mcalc m').
  Proof. apply msim_calc. intros a a' _ _. exact I. Qed.
  Lemma msim_proc {A} (R : A -> A -> Prop) p q : rsim R p q -> msim R (mproc p) (mproc q).
  Proof.
    intros H st st' Hst. unfold mproc. eapply sim_bind; [exact H| | |].
    - intros r Hr. eexists. split; [reflexivity|exact Hr].
    - intros r Hr. eexists. split; [reflexivity|exact Hr].
    - intros r r' HR. apply sim_done. intros a a' Ha Ha'. cbn [fst snd] in *. auto.
  Qed.
  Lemma msim_get {A} (R : A -> A -> Prop) f g : (forall st st', like st st' -> R (f st) (g st')) -> msim R (mget f) (mget g).
  Proof. intros H st st' Hst. apply sim_done. intros x x' Hx Hx'. injection Hx as <-. injection Hx' as <-. auto. Qed.
  Lemma msim_set f g : (forall st st', like st st' -> like (f st) (g st')) -> msim (fun _ _ => True) (mset f) (mset g).
  Proof. intros H st st' Hst. apply sim_done. intros x x' Hx Hx'. split; [now apply H|exact I]. Qed.
  Lemma msim_mpfss {A} (R : A -> A -> Prop) p q : (forall m, sim failed2 (both_ok2 eq R) (p m) (q m)) -> msim R (mmpfss p) (mmpfss q).
  Proof.
    intros H st st' Hst. unfold mmpfss. rewrite <- (l_mpfss _ _ Hst). eapply sim_bind; [apply H| | |].
    - intros [m r] Hr. eexists. split; [reflexivity|exact Hr].
    - intros [m r] Hr. eexists. split; [reflexivity|exact Hr].
    - intros [m r] [m' r'] HR. apply sim_done. intros a a' Ha Ha'. cbn [fst snd] in *. destruct (HR a a' Ha Ha') as [Hm HA]. cbn [fst] in Hm. subst m'.
      split; auto. destruct Hst. now constructor.
  Qed.
  Lemma msim_weaken {A} (R R' : A -> A -> Prop) p q : msim R p q -> (forall a a', R a a' -> R' a a') -> msim R' p q.
  Proof. intros H HR st st' Hst. eapply sim_weaken; [apply H, Hst|]. intros x x' Hx a a' Ha Ha'. destruct (Hx a a' Ha Ha'). auto. Qed.

  Lemma exchange_seed_like : rsim (fun _ _ => True) (exchange_seed S M) (exchange_seed S M).
  Proof.
    unfold exchange_seed. destruct (_ <? _).
    - apply sim_rand_blocks. intros l l' Hl Hl'. apply sim_send; [|now apply rsim_ok]. cbn [sending].
      destruct l as [|a [|b [|]]]; try discriminate. destruct l' as [|a' [|b' [|]]]; try discriminate. reflexivity.
    - apply rsim_recv_bytes. intros l l'. now apply rsim_ok.
  Qed.
  Lemma m_update_like n k : msim (fun _ _ => True) (m_update_buckets S E M n k) (m_update_buckets S E M n k).
  Proof.
    intros st st' Hst. unfold m_update_buckets. rewrite <- (l_mpfss _ _ Hst). destruct (update_buckets _ _ _ _ _ _ _ _) as [m r].
    apply sim_done. intros a a' _ _. split; auto. destruct Hst. now constructor.
  Qed.
  Lemma m_num_buckets_like n : msim eq (m_num_buckets S E n) (m_num_buckets S E n).
  Proof.
    intros st st' Hst. unfold m_num_buckets. rewrite <- (l_mpfss _ _ Hst). apply sim_done. intros a a' Ha Ha'. cbn in *. split; auto. congruence.
  Qed.

  Ltac get := eapply (msim_bind eq); [apply msim_get; intros ? ? []; assumption|intros ? ? ->].
  Ltac calc := eapply (msim_bind eq); [apply msim_calc_eq|intros ? ? ->].

  Lemma columns_zlen rows cols g l : sample_generator S E rows cols g = Ok l -> zlen l = Z.max 0 cols.
  Proof.
    unfold sample_generator. destruct (random_elements _ _ _ _) as [[g1 el]| |]; cbn [rbind]; try discriminate.
    destruct (for_range _ _ _ _) as [[g2 c]| |] eqn:H; cbn [rbind]; try discriminate. intro Hl. injection Hl as <-.
    destruct (Z.leb_spec 0 cols).
    - eapply (for_range_inv_ok (fun i s => zlen (snd s) = i)) in H; auto; [cbn in H; lia|].
      intros i [a b] [a' b'] _ Hs Hb. destruct (sample_column _ _ _ _ _ _) as [[g3 col]| |]; cbn [rbind] in Hb; try discriminate.
      injection Hb as <- <-. cbn [snd] in *. rewrite zlen_app, zlen_cons, zlen_nil. lia.
    - rewrite for_range_empty in H by lia. injection H as <- <-. rewrite zlen_nil. lia.
  Qed.
  Lemma precompute_common_like n : msim (fun _ _ => True) (precompute_common S E M n) (precompute_common S E M n).
  Proof.
    unfold precompute_common. get. eapply msim_bind; [apply m_update_like|intros _ _ _]. get.
    eapply msim_bind; [apply msim_set; intros ? ? []; now constructor|intros _ _ _].
    eapply msim_bind; [apply msim_proc, exchange_seed_like|intros sd sd' _].
    eapply msim_bind; [apply msim_calc_any|intros g g' _]. apply msim_if. intros _ _.
    eapply (msim_bind (fun a b => zlen a = zlen b)).
    - apply msim_calc. intros c c' Hc Hc'. apply columns_zlen in Hc, Hc'. congruence.
    - intros c c' Hc. apply msim_set. intros ? ? []. now constructor.
  Qed.

  Lemma tail_like {A} n (l l' : list A) : zlen l = zlen l' -> zlen (tail n l) = zlen (tail n l').
  Proof. intro H. unfold tail. rewrite H. unfold zlen in *. rewrite !skipn_length. lia. Qed.
  Lemma shrink_like {A} n (l l' : list A) : zlen l = zlen l' -> zlen (shrink n l) = zlen (shrink n l').
  Proof. intro H. unfold shrink. rewrite H. unfold zlen in *. rewrite !firstn_length. lia. Qed.

  (** Taking from a cache: the same outcome, not only if it is successful. *)
  Lemma get_sender_like n st st' : like st st' -> exists st1 st1' r r',
    get_sender_cached S n st = Ret (st1, r) /\ get_sender_cached S n st' = Ret (st1', r') /\ like st1 st1' /\
    match r, r' with Ok a, Ok a' => like_s a a' | Err e, Err e' => e = e' | UB w, UB w' => w = w' | _, _ => False end.
  Proof.
    intro Hst. unfold get_sender_cached. destruct (ls_c _ _ (l_s _ _ Hst)) as [Hu Hv]. rewrite Hu. destruct (_ <? n).
    { do 4 eexists. split; [reflexivity|]. split; [reflexivity|]. auto. }
    destruct (n <? 0). { do 4 eexists. split; [reflexivity|]. split; [reflexivity|]. auto. }
    do 4 eexists. split; [reflexivity|]. split; [reflexivity|]. split; [|split; now apply tail_like].
    destruct Hst as [? ? ? ? ? ? ? [] ?]. constructor; try assumption. constructor; try assumption. split; now apply shrink_like.
  Qed.
  Lemma get_receiver_like n st st' : like st st' -> exists st1 st1' r r',
    get_receiver_cached S n st = Ret (st1, r) /\ get_receiver_cached S n st' = Ret (st1', r') /\ like st1 st1' /\
    match r, r' with Ok a, Ok a' => like_r a a' | Err e, Err e' => e = e' | UB w, UB w' => w = w' | _, _ => False end.
  Proof.
    intro Hst. unfold get_receiver_cached. pose proof (lr_c _ _ (l_r _ _ Hst)) as Hw. unfold like_r in Hw. rewrite Hw. destruct (_ <? n).
    { do 4 eexists. split; [reflexivity|]. split; [reflexivity|]. auto. }
    destruct (n <? 0). { do 4 eexists. split; [reflexivity|]. split; [reflexivity|]. auto. }
    do 4 eexists. split; [reflexivity|]. split; [reflexivity|]. split; [|now apply tail_like].
    destruct Hst as [? ? ? ? ? ? ? ? []]. constructor; try assumption. constructor; try assumption. now apply shrink_like.
  Qed.
  Lemma get_sender_msim n : msim like_s (get_sender_cached S n) (get_sender_cached S n).
  Proof.
    intros st st' Hst. destruct (get_sender_like n _ _ Hst) as (s & s' & r & r' & -> & -> & Hs & Hr). apply sim_done.
    intros a a' Ha Ha'. cbn in *. subst. auto.
  Qed.
  Lemma get_receiver_msim n : msim like_r (get_receiver_cached S n) (get_receiver_cached S n).
  Proof.
    intros st st' Hst. destruct (get_receiver_like n _ _ Hst) as (s & s' & r & r' & -> & -> & Hs & Hr). apply sim_done.
    intros a a' Ha Ha'. cbn in *. subst. auto.
  Qed.
  Lemma new_sender_seeds_like n m : msim (fun _ _ => True) (new_sender_seeds S n m) (new_sender_seeds S n m).
  Proof.
    unfold new_sender_seeds. eapply msim_bind; [apply get_sender_msim|intros a a' Ha].
    eapply msim_bind; [apply msim_set; intros ? ? [? ? ? ? ? ? ? [] ?]; constructor; try assumption; constructor; assumption|intros _ _ _].
    eapply msim_bind; [apply get_sender_msim|intros b b' Hb].
    apply msim_set; intros ? ? [? ? ? ? ? ? ? [] ?]; constructor; try assumption; constructor; assumption.
  Qed.
  Lemma new_receiver_seeds_like n m : msim (fun _ _ => True) (new_receiver_seeds S n m) (new_receiver_seeds S n m).
  Proof.
    unfold new_receiver_seeds. eapply msim_bind; [apply get_receiver_msim|intros a a' Ha].
    eapply msim_bind; [apply msim_set; intros ? ? [? ? ? ? ? ? ? ? []]; constructor; try assumption; constructor; assumption|intros _ _ _].
    eapply msim_bind; [apply get_receiver_msim|intros b b' Hb].
    apply msim_set; intros ? ? [? ? ? ? ? ? ? ? []]; constructor; try assumption; constructor; assumption.
  Qed.
  Lemma sizes_like n m : msim (fun _ _ => True)
    (mbind (mset (set_vole_seed_size S n)) (fun _ => mset (set_mpfss_seed_size S m)))
    (mbind (mset (set_vole_seed_size S n)) (fun _ => mset (set_mpfss_seed_size S m))).
  Proof. eapply msim_bind; [|intros _ _ _]; apply msim_set; intros ? ? []; now constructor. Qed.

  Lemma vec_add_like (a a' b b' : list S) : zlen a = zlen a' -> zlen b = zlen b' -> zlen (vec_add S a b) = zlen (vec_add S a' b').
  Proof. intros. unfold vec_add. rewrite !zlen_map. unfold zlen in *. rewrite !combine_length. lia. Qed.
  Lemma vec_sub_like (a a' b b' : list S) : zlen a = zlen a' -> zlen b = zlen b' -> zlen (vec_sub S a b) = zlen (vec_sub S a' b').
  Proof. intros. unfold vec_sub. rewrite !zlen_map. unfold zlen in *. rewrite !combine_length. lia. Qed.
  Lemma spread_zlen n k i y l : spread S n k i y = Ok l -> zlen l = Z.max 0 n.
  Proof.
    unfold spread. intro H. rewrite <- (zrepeat_same (s_zero S)). revert H. apply for_range_keeps. intros j a a' Hj. destruct (zget i j); cbn [rbind] in Hj; try discriminate. destruct (zget y j); cbn [rbind] in Hj; try discriminate. eauto using zset_zlen.
  Qed.

  Lemma expand_sender_like n vs ms : msim (fun _ _ => True) (expand_sender S E M n vs ms) (expand_sender S E M n vs ms).
  Proof.
    unfold expand_sender. eapply msim_bind; [apply msim_get; intros ? ? H; exact (l_s _ _ H)|intros s s' Hs]. get.
    eapply (msim_bind (fun a b => zlen a = zlen b)); [apply msim_get; intros ? ? []; assumption|intros col col' Hcol]. get. cbv zeta.
    apply msim_if. intros _ _. apply msim_if. intros _ _.
    eapply (msim_bind (fun _ _ => True)); [apply msim_proc, sim_rand_blocks; intros; now apply rsim_ok|intros bl bl' _].
    eapply msim_bind; [apply msim_calc_any|intros g g' _]. eapply msim_bind; [apply msim_calc_any|intros se se' _].
    eapply (msim_bind (fun _ _ => True)).
    { apply msim_proc. apply sim_rand_l. intros x t. apply sim_rand_r. intros x' t'. now apply rsim_ok. }
    intros i i' _. apply msim_if_ub. intros Hn _.
    eapply (msim_bind (fun a b => zlen a = zlen b)).
    { apply msim_proc, sim_rand_scalars. intros l l' Hl Hl'. apply rsim_ok. apply zlen_length. congruence. }
    intros y y' Hy.
    eapply (msim_bind (fun a b => zlen a = zlen b)).
    { apply msim_mpfss. intro m. apply mpfss_index_like; auto. }
    intros v0 v0' Hv. eapply (msim_bind (fun a b => zlen a = zlen b)).
    { apply msim_calc. intros mu0 mu1 Ha Ha'. apply spread_zlen in Ha, Ha'. congruence. }
    intros mu mu' Hmu. eapply msim_bind.
    { apply msim_set. intros st st' [? ? ? ? ? ? ? [[Hc1 Hc2] ? ? ?] ?]. constructor; try assumption. constructor; try assumption.
      split; cbn; rewrite !zlen_app; f_equal; auto; [apply vec_add_like|apply vec_sub_like]; auto; unfold encode; now rewrite !zlen_map. }
    intros _ _ _. eapply msim_bind; [apply new_sender_seeds_like|intros _ _ _]. apply sizes_like.
  Qed.
  Lemma expand_receiver_like n vs ms : msim (fun _ _ => True) (expand_receiver S E M n vs ms) (expand_receiver S E M n vs ms).
  Proof.
    unfold expand_receiver. eapply msim_bind; [apply msim_get; intros ? ? H; exact (l_r _ _ H)|intros r r' Hr]. get.
    eapply (msim_bind (fun a b => zlen a = zlen b)); [apply msim_get; intros ? ? []; assumption|intros col col' Hcol]. get. cbv zeta.
    apply msim_if. intros _ _. pose proof (lr_c _ _ Hr) as Hc. unfold like_r in Hc. eapply msim_bind.
    { apply msim_set. intros st st' [? ? ? ? ? ? ? ? []]. constructor; try assumption. constructor; try assumption. unfold like_r. cbn.
      rewrite !zlen_app. now f_equal. }
    intros _ _ _. eapply (msim_bind (fun a b => zlen a = zlen b)).
    { apply msim_mpfss. intro m. apply mpfss_value_like; auto. }
    intros v1 v1' Hv. eapply msim_bind.
    { apply msim_set. intros st st' [? ? ? ? ? ? ? ? []]. constructor; try assumption. constructor; try assumption. unfold like_r. cbn.
      rewrite !zlen_app. f_equal; auto. apply vec_add_like; auto. unfold encode. now rewrite !zlen_map. }
    intros _ _ _. eapply msim_bind; [apply new_receiver_seeds_like|intros _ _ _]. apply sizes_like.
  Qed.

  Lemma full_output_like : msim eq (full_output S) (full_output S).
  Proof. unfold full_output. get. get. get. apply msim_calc_eq. Qed.
  Lemma expand_like step : (forall a b c, msim (fun _ _ => True) (step a b c) (step a b c)) -> msim (fun _ _ => True) (expand S step) (expand S step).
  Proof. intro H. unfold expand. eapply (msim_bind eq); [apply full_output_like|intros ? ? ->]. get. get. apply H. Qed.
  Lemma precompute_sizes_like : msim eq (precompute_sizes S E) (precompute_sizes S E).
  Proof.
    unfold precompute_sizes. eapply msim_bind; [apply msim_set; intros ? ? []; now constructor|intros _ _ _]. calc.
    eapply msim_bind; [apply msim_set; intros ? ? []; now constructor|intros _ _ _]. calc.
    eapply msim_bind; [apply msim_set; intros ? ? []; now constructor|intros _ _ _].
    eapply (msim_bind eq); [apply m_num_buckets_like|intros ? ? ->].
    eapply msim_bind; [apply msim_set; intros ? ? []; now constructor|intros _ _ _]. calc.
    apply msim_if_ub. intros _ _. now apply msim_ret.
  Qed.
  Lemma sender_first_seed_like n : msim (fun _ _ => True) (sender_first_seed S E n) (sender_first_seed S E n).
  Proof.
    unfold sender_first_seed.
    eapply (msim_bind (fun a b => zlen a = zlen b)).
    { apply msim_proc, sim_rand_scalars. intros l l' Hl Hl'. apply rsim_ok. apply zlen_length. congruence. }
    intros u u' Hu. eapply (msim_bind (fun a b => zlen a = zlen b)).
    { apply msim_proc, sim_rand_scalars. intros l l' Hl Hl'. apply rsim_ok. apply zlen_length. congruence. }
    intros v v' Hv. eapply msim_bind.
    { apply msim_set. intros st st' [? ? ? ? ? ? ? [] ?]. constructor; try assumption. constructor; try assumption. now split. }
    intros _ _ _. eapply (msim_bind (fun a b => zlen a = zlen b)).
    { apply msim_proc. now apply gilboa_vector_like. }
    intros w w' Hw. apply msim_proc. apply sim_send; [|now apply rsim_ok]. cbn. f_equal. apply zlen_length. now apply vec_add_like.
  Qed.
  Lemma receiver_first_seed_like n d d' : msim (fun _ _ => True) (receiver_first_seed S E M n d) (receiver_first_seed S E M n d').
  Proof.
    unfold receiver_first_seed. eapply msim_bind.
    { apply msim_set. intros st st' [? ? ? ? ? ? ? ? []]. constructor; try assumption. now constructor. }
    intros _ _ _. eapply (msim_bind (fun a b => zlen a = zlen b)).
    { apply msim_proc. now apply gilboa_value_like. }
    intros w w' Hw. eapply (msim_bind (fun _ _ => True)).
    { apply msim_proc, rsim_recv_vec. intros. now apply rsim_ok. }
    intros w2 w2' _. apply msim_if_ub. intros H1 H2. apply negb_false_iff, Z.eqb_eq in H1, H2. cbv zeta.
    apply msim_set. intros st st' [? ? ? ? ? ? ? ? []]. constructor; try assumption. constructor; try assumption. unfold like_r. cbn. apply vec_add_like; congruence.
  Qed.
  Lemma bootstrap_like step b : (forall x y z, msim (fun _ _ => True) (step x y z) (step x y z)) -> forall l,
    msim (fun _ _ => True) (bootstrap S E M step b l) (bootstrap S E M step b l).
  Proof.
    intros H. induction l as [|i l IH]; cbn [bootstrap]; [now apply msim_ret|]. calc. get. get. calc. destruct (_ <=? _); [now apply msim_ret|].
    calc. calc. eapply (msim_bind eq); [apply m_num_buckets_like|intros ? ? ->]. calc.
    eapply msim_bind; [apply precompute_common_like|intros _ _ _]. eapply msim_bind; [apply H|intros _ _ _].
    eapply msim_bind; [apply msim_set; intros ? ? []; now constructor|intros _ _ _]. exact IH.
  Qed.
  Lemma precompute_last_like b : msim (fun _ _ => True) (precompute_last S E M b) (precompute_last S E M b).
  Proof.
    unfold precompute_last. calc. get. get. calc. eapply msim_bind; [apply msim_set; intros ? ? []; now constructor|intros _ _ _].
    eapply (msim_bind eq); [apply full_output_like|intros ? ? ->]. apply precompute_common_like.
  Qed.
  Lemma precompute_sender_like b : msim (fun _ _ => True) (precompute_sender S E M b) (precompute_sender S E M b).
  Proof.
    unfold precompute_sender. apply msim_if. intros _ _. eapply (msim_bind eq); [apply precompute_sizes_like|intros ? ? ->].
    eapply msim_bind; [apply sender_first_seed_like|intros _ _ _]. get. get. eapply msim_bind; [apply new_sender_seeds_like|intros _ _ _].
    eapply msim_bind; [apply bootstrap_like, expand_sender_like|intros _ _ _]. eapply msim_bind; [apply precompute_last_like|intros _ _ _].
    apply msim_set. intros st st' [? ? ? ? ? ? ? [] ?]. constructor; try assumption. now constructor.
  Qed.
  Lemma precompute_receiver_like b d d' : msim (fun _ _ => True) (precompute_receiver S E M b d) (precompute_receiver S E M b d').
  Proof.
    unfold precompute_receiver. apply msim_if. intros _ _. eapply (msim_bind eq); [apply precompute_sizes_like|intros ? ? ->].
    eapply msim_bind; [apply receiver_first_seed_like|intros _ _ _]. get. get. eapply msim_bind; [apply new_receiver_seeds_like|intros _ _ _].
    eapply msim_bind; [apply bootstrap_like, expand_receiver_like|intros _ _ _]. eapply msim_bind; [apply precompute_last_like|intros _ _ _].
    apply msim_set. intros st st' [? ? ? ? ? ? ? ? []]. constructor; try assumption. now constructor.
  Qed.
  (** A delta that is drawn and one that is given. *)
  Lemma precompute_random_l b q st' : (forall d, msim (fun _ _ => True) (precompute_receiver S E M b d) q) -> forall st, like st st' ->
    sim failed2 (both_ok2 like (fun _ _ => True)) (precompute_receiver_random S E M b st) (q st').
  Proof.
    intros H st Hst. unfold precompute_receiver_random, mbind, mproc. cbn [pbind]. apply sim_rand_l. intros x d. now apply H.
  Qed.
  Lemma precompute_random_r b p st : (forall d, msim (fun _ _ => True) p (precompute_receiver S E M b d)) -> forall st', like st st' ->
    sim failed2 (both_ok2 like (fun _ _ => True)) (p st) (precompute_receiver_random S E M b st').
  Proof.
    intros H st' Hst. unfold precompute_receiver_random, mbind, mproc. cbn [pbind]. apply sim_rand_r. intros x d. now apply H.
  Qed.
  Lemma precompute_random_like b : msim (fun _ _ => True) (precompute_receiver_random S E M b) (precompute_receiver_random S E M b).
  Proof.
    intros st st' Hst. apply precompute_random_l; auto. intro d. intros s s' Hs. apply precompute_random_r; auto.
    intro d'. apply precompute_receiver_like.
  Qed.

  Lemma run_sender_loop_like rounds n : forall u u' v v', zlen u = zlen u' -> zlen v = zlen v' ->
    msim like_s (run_sender_loop S E M rounds n u v) (run_sender_loop S E M rounds n u' v').
  Proof.
    induction rounds as [|rounds IH]; intros u u' v v' Hu Hv; cbn [run_sender_loop]; rewrite <- Hu; destruct (n <=? zlen u); try (apply msim_ret; now split).
    - intros st st' _. apply sim_bad_l. exact I.
    - eapply msim_bind; [apply msim_get; intros ? ? H; exact (l_s _ _ H)|intros s s' Hs]. cbv zeta. destruct (ls_c _ _ Hs) as [Hcu Hcv]. rewrite <- Hcu.
      eapply (msim_bind like_s).
      { destruct (_ <=? n); [|apply get_sender_msim]. eapply msim_bind; [|intros _ _ _; apply msim_ret; now split].
        apply msim_set. intros ? ? [? ? ? ? ? ? ? [] ?]; constructor; try assumption; constructor; try assumption. now split. }
      intros c c' [H1 H2]. assert (Hu' : zlen (u ++ sr_u c) = zlen (u' ++ sr_u c')) by (rewrite !zlen_app; lia).
      assert (Hv' : zlen (v ++ sr_v c) = zlen (v' ++ sr_v c')) by (rewrite !zlen_app; lia). rewrite <- Hu'. destruct (_ <? n).
      + eapply msim_bind; [apply expand_like, expand_sender_like|intros _ _ _]. now apply IH.
      + now apply IH.
  Qed.
  Lemma run_receiver_loop_like rounds n : forall w w' d d', zlen w = zlen w' ->
    msim like_r (run_receiver_loop S E M rounds n w d) (run_receiver_loop S E M rounds n w' d').
  Proof.
    induction rounds as [|rounds IH]; intros w w' d d' Hw; cbn [run_receiver_loop]; rewrite <- Hw; destruct (n <=? zlen w); try (apply msim_ret; exact Hw).
    - intros st st' _. apply sim_bad_l. exact I.
    - eapply msim_bind; [apply msim_get; intros ? ? H; exact (l_r _ _ H)|intros s s' Hs]. cbv zeta. pose proof (lr_c _ _ Hs) as Hc. unfold like_r in Hc. rewrite <- Hc.
      eapply (msim_bind like_r).
      { destruct (_ <=? n); [|apply get_receiver_msim]. eapply msim_bind; [|intros _ _ _; apply msim_ret; exact Hc].
        apply msim_set. intros ? ? [? ? ? ? ? ? ? ? []]; constructor; try assumption; constructor; try assumption. reflexivity. }
      intros c c' H1. unfold like_r in H1. assert (Hw' : zlen (w ++ rr_w c) = zlen (w' ++ rr_w c')) by (rewrite !zlen_app; lia).
      rewrite <- Hw'. destruct (_ <? n).
      + eapply msim_bind; [apply expand_like, expand_receiver_like|intros _ _ _]. now apply IH.
      + now apply IH.
  Qed.
  Lemma run_sender_like n : msim like_s (run_sender S E M n) (run_sender S E M n).
  Proof.
    unfold run_sender. eapply msim_bind; [apply msim_get; intros ? ? H; exact (l_s _ _ H)|intros s s' Hs]. rewrite <- (ls_d _ _ Hs).
    eapply (msim_bind (fun _ _ => True)); [destruct (s_done s); [now apply msim_ret|apply precompute_sender_like]|intros _ _ _].
    intros st st' Hst. destruct (get_sender_like n _ _ Hst) as (s1 & s1' & r & r' & -> & -> & Hs1 & Hr). cbn [pbind].
    destruct r as [a|e|w], r' as [a'|e'|w']; try contradiction.
    - apply sim_done. intros x x' Hx Hx'. injection Hx as <-. injection Hx' as <-. auto.
    - now apply run_sender_loop_like.
    - apply sim_bad_l. exact I.
  Qed.
  Lemma run_receiver_like n : msim like_r (run_receiver S E M n) (run_receiver S E M n).
  Proof.
    unfold run_receiver. eapply msim_bind; [apply msim_get; intros ? ? H; exact (l_r _ _ H)|intros s s' Hs]. rewrite <- (lr_d _ _ Hs).
    eapply (msim_bind (fun _ _ => True)); [destruct (r_done s); [now apply msim_ret|apply precompute_random_like]|intros _ _ _].
    intros st st' Hst. destruct (get_receiver_like n _ _ Hst) as (s1 & s1' & r & r' & -> & -> & Hs1 & Hr). cbn [pbind].
    destruct r as [a|e|w], r' as [a'|e'|w']; try contradiction.
    - apply sim_done. intros x x' Hx Hx'. injection Hx as <-. injection Hx' as <-. auto.
    - now apply run_receiver_loop_like.
    - apply sim_bad_l. exact I.
  Qed.

  (** Calls *)
  Lemma sim_map {A B} (f : A -> B) (R : A -> A -> Prop) p q : sim failed2 (both_ok2 like R) p q ->
    sim failed2 (both_ok2 like (fun _ _ => True)) (pbind p (fun '(st, r) => Ret (st, rmap f r))) (pbind q (fun '(st, r) => Ret (st, rmap f r)) : proc S _).
  Proof.
    intro H. eapply sim_bind; [exact H| | |].
    - intros [s [a|e|w]] Ha; [destruct Ha| |]; eexists; (split; [reflexivity|exact I]).
    - intros [s [a|e|w]] Ha; [destruct Ha| |]; eexists; (split; [reflexivity|exact I]).
    - intros [s r] [s' r'] HR. apply sim_done. intros a a' Ha Ha'. cbn [fst snd] in *. split; auto.
      destruct r as [x| |]; try discriminate. destruct r' as [x'| |]; try discriminate. now destruct (HR x x').
  Qed.
  Lemma as_sender_like c c' st st' : same_sizes (true, c) (true, c') -> like st st' ->
    sim failed2 (both_ok2 like (fun _ _ => True)) (as_sender S E M c st) (as_sender S E M c' st').
  Proof.
    intros [_ Hc] Hst. cbn [snd] in Hc. destruct c, c'; try contradiction; subst; cbn [as_sender].
    - eapply sim_map. now apply precompute_sender_like.
    - eapply sim_map. now apply run_sender_like.
  Qed.
  Lemma as_receiver_like c c' st st' : same_sizes (true, c) (true, c') -> like st st' ->
    sim failed2 (both_ok2 like (fun _ _ => True)) (as_receiver S E M c st) (as_receiver S E M c' st').
  Proof.
    intros [_ Hc] Hst. cbn [snd] in Hc. destruct c as [b [d|]|n], c' as [b' [d'|]|n']; try contradiction; subst; cbn [as_receiver].
    - eapply sim_map. now apply precompute_receiver_like.
    - eapply sim_map. apply precompute_random_r; auto. intro. apply precompute_receiver_like.
    - eapply sim_map. apply precompute_random_l; auto. intro. apply precompute_receiver_like.
    - eapply sim_map. now apply precompute_random_like.
    - eapply sim_map. now apply run_receiver_like.
  Qed.

  Lemma calls_like l l' : Forall2 same_sizes l l' -> forall st st', like st st' ->
    sim (fun rs => ~ all_ok rs) (fun _ _ => True) (calls S E M (fun _ => false) l st) (calls S E M (fun _ => false) l' st').
  Proof.
    induction 1 as [|[s c] [s' c'] l l' Hx _ IH]; intros st st' Hst; cbn [calls]; [now apply sim_done|].
    assert (s = s') by apply Hx. subst s'.
    assert (Hb : forall l, keeps_bad failed2 (fun rs => ~ all_ok rs) (fun '(st0, r) =>
      let continue := pbind (calls S E M (fun _ : status => false) l st0) (fun rs => Ret (r :: rs)) in
      match r with Ok _ => continue | _ => Ret [r] end)).
    { intros l0 [s0 [a|e|w]] Ha; [destruct Ha| |]; eexists; (split; [reflexivity|]); intro Hall; inversion Hall as [|? ? [? ?]]; discriminate. }
    eapply sim_bind; [destruct s; [apply as_sender_like|apply as_receiver_like]; [|exact Hst| |exact Hst]; split; try reflexivity; apply Hx| | |].
    - intros [s0 [a|e|w]] Ha; [destruct Ha| |]; eexists; (split; [reflexivity|]); intro Hall; inversion Hall as [|? ? [? ?]]; discriminate.
    - intros [s0 [a|e|w]] Ha; [destruct Ha| |]; eexists; (split; [reflexivity|]); intro Hall; inversion Hall as [|? ? [? ?]]; discriminate.
    - intros [s1 r] [s1' r'] HR. destruct r as [a| |]; try (apply sim_bad_l; intro Hall; inversion Hall as [|? ? [? ?]]; discriminate).
      destruct r' as [a'| |]; try (apply sim_bad_r; intro Hall; inversion Hall as [|? ? [? ?]]; discriminate).
      destruct (HR a a' eq_refl eq_refl) as [Hs1 _]. cbn [fst] in Hs1. cbv zeta. eapply sim_bind; [apply IH; exact Hs1| | |].
      + intros rs Hrs. eexists. split; [reflexivity|]. intro Hall. apply Hrs. now inversion Hall.
      + intros rs Hrs. eexists. split; [reflexivity|]. intro Hall. apply Hrs. now inversion Hall.
      + intros rs rs' _. now apply sim_done.
  Qed.
End Vole.

(** ** Final form *)
Lemma same_steps_impl {R} (P Q : R -> Prop) l l' o o' : (forall r, P r -> Q r) -> same_steps Q l l' o o' -> same_steps P l l' o o'.
Proof. intros H (A & B & C). split; [exact A|]. split; intros; eauto. Qed.
Lemma rsim_same_steps {T A} (R : A -> A -> Prop) (p q : proc T (res A)) l l' o o' : rsim R p q -> does p l o -> does q l' o' -> same_steps is_ok l l' o o'.
Proof.
  intros H Hp Hq. eapply same_steps_impl; [|exact (proj1 (sim_steps _ _ _ _ H _ _ _ _ Hp Hq))]. intros r [x ->] [].
Qed.
Lemma sim2_same_steps {T X A} (P : X -> X -> Prop) (R : A -> A -> Prop) (p q : proc T (X * res A)) l l' o o' : sim failed2 (both_ok2 P R) p q ->
  does p l o -> does q l' o' -> same_steps (fun x => is_ok (snd x)) l l' o o'.
Proof.
  intros H Hp Hq. eapply same_steps_impl; [|exact (proj1 (sim_steps _ _ _ _ H _ _ _ _ Hp Hq))]. intros [y r] [x Hx] Hf. cbn in Hx. subst r. exact Hf.
Qed.
Lemma calls_same_steps (S : scalar) E (M : machine S) calls1 calls2 st st' l l' o o' :
  like S st st' -> Forall2 same_sizes calls1 calls2 ->
  does (calls S E M (fun _ => false) calls1 st) l o -> does (calls S E M (fun _ => false) calls2 st') l' o' -> same_steps all_ok l l' o o'.
Proof.
  intros Hst Hc Hp Hq. eapply same_steps_impl; [|exact (proj1 (sim_steps _ _ _ _ (calls_like S E M _ _ Hc _ _ Hst) _ _ _ _ Hp Hq))]. intros r Hr Hn. exact (Hn Hr).
Qed.
Lemma new_like (S : scalar) (M : machine S) m : like S (vole_new S M m) (vole_new S M m).
Proof. constructor; auto; constructor; auto; try (now split); reflexivity. Qed.
Lemma same_steps_sizes {R} (P : R -> Prop) l l' r r' : same_steps P l l' (Some r) (Some r') -> P r -> P r' -> l = l'.
Proof.
  intros (_ & A & B) Hr Hr'. destruct (A r eq_refl Hr) as [x Hx], (B r' eq_refl Hr') as [y Hy].
  assert (E : List.length x = O). { pose proof (f_equal (@List.length _) Hx) as L1. pose proof (f_equal (@List.length _) Hy) as L2. rewrite app_length in *. lia. }
  destruct x; [|discriminate]. now rewrite app_nil_r in Hx.
Qed.

Lemma created_same_steps (S : scalar) E (M : machine S) st st' calls1 calls2 l l' o o' :
  created S M st -> created S M st' -> m_hasher (v_mpfss st) = m_hasher (v_mpfss st') -> Forall2 same_sizes calls1 calls2 ->
  does (calls S E M (fun _ => false) calls1 st) l o -> does (calls S E M (fun _ => false) calls2 st') l' o' -> same_steps all_ok l l' o o'.
Proof.
  intros H1 H2 Hm. apply created_inv in H1, H2. destruct H1 as (h & _ & ->), H2 as (h' & _ & ->). cbn in Hm. subst h'.
  apply calls_same_steps, new_like.
Qed.
Lemma gilboa_steps (S : scalar) K (y y' out out' : list S) l l' o o' : zlen y = zlen y' ->
  does (gilboa_vector_provider S K y out) l o -> does (gilboa_vector_provider S K y' out') l' o' -> same_steps is_ok l l' o o'.
Proof. intro H. eapply rsim_same_steps. now apply gilboa_vector_like. Qed.
Lemma gilboa_value_steps (S : scalar) K (x x' : S) (out out' : list S) l l' o o' : zlen out = zlen out' ->
  does (gilboa_value_provider S K x out) l o -> does (gilboa_value_provider S K x' out') l' o' -> same_steps is_ok l l' o o'.
Proof. intro H. eapply rsim_same_steps. now apply gilboa_value_like. Qed.
Lemma spfss_value_steps (S : scalar) aes clog K (vals vals' : list S) outs outs' l l' o o' : map zlen outs = map zlen outs' ->
  does (spfss_value_provider_batched S aes clog K vals outs) l o -> does (spfss_value_provider_batched S aes clog K vals' outs') l' o' -> same_steps is_ok l l' o o'.
Proof. intro H. eapply rsim_same_steps. now apply spfss_value_like. Qed.
Lemma spfss_index_steps (S : scalar) aes clog (vals vals' : list S) indices indices' outs outs' l l' o o' : map zlen outs = map zlen outs' ->
  does (spfss_index_provider_batched S aes clog vals indices outs) l o ->
  does (spfss_index_provider_batched S aes clog vals' indices' outs') l' o' -> same_steps is_ok l l' o o'.
Proof. intro H. eapply rsim_same_steps. now apply spfss_index_like. Qed.
Lemma mpfss_value_steps (S : scalar) aes clog K too e3 e2 sizes st (x x' : S) n w w' out out' l l' o o' : zlen out = zlen out' ->
  does (mpfss_value_provider S aes clog K too e3 e2 sizes st x n w out) l o ->
  does (mpfss_value_provider S aes clog K too e3 e2 sizes st x' n w' out') l' o' -> same_steps (fun r => is_ok (snd r)) l l' o o'.
Proof. intro H. eapply sim2_same_steps. now apply mpfss_value_like. Qed.
Lemma mpfss_index_steps (S : scalar) aes clog too e3 e2 sizes st (y y' : list S) indices indices' u u' v v' out out' l l' o o' :
  zlen y = zlen y' -> zlen out = zlen out' ->
  does (mpfss_index_provider S aes clog too e3 e2 sizes st y indices u v out) l o ->
  does (mpfss_index_provider S aes clog too e3 e2 sizes st y' indices' u' v' out') l' o' -> same_steps (fun r => is_ok (snd r)) l l' o o'.
Proof. intros H H'. eapply sim2_same_steps. now apply mpfss_index_like. Qed.
