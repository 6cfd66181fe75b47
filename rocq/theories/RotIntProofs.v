(** Proofs for RotInt.v: C93. *)
From Verif Require Import Base BaseFacts ListFacts ScalarModel GgmModel GgmSpec ProcModel ProcSpec RngModel RotModel RotSpec RotProofs RotFinal GilboaModel
  VoleModel VoleSpec UseSpec VoleUse PatternSpec PatternProofs CostSpec CostProofs RotInt.
From Coq Require Import QArith.
Local Open Scope Z_scope.

Lemma int_size_id {A} (l : list A) : zlen l < 2^31 -> int_size l = zlen l.
Proof. intro H. unfold int_size. apply wrap32_id. pose proof (zlen_nonneg l). lia. Qed.
Lemma visited_id {A} (l : list A) : zlen l < 2^31 -> visited l = l.
Proof. intro H. unfold visited. rewrite int_size_id by assumption. unfold zlen. rewrite Nat2Z.id. apply firstn_all. Qed.

Lemma int_result_ok z : - 2^31 <= z < 2^31 -> int_result z = Ok z.
Proof. intro H. unfold int_result. replace (_ && _)%bool with true by lia. reflexivity. Qed.
Lemma next_offset_ok o l : 0 <= o -> 1 <= l -> o + l < 2^31 -> next_offset o l = Ok (o + l - 1).
Proof. intros H1 H2 H3. unfold next_offset. rewrite int_result_ok by lia. cbn [rbind]. apply int_result_ok. lia. Qed.
Lemma next_offset_over o l : 2^31 <= o + l -> exists w, next_offset o l = UB w.
Proof. intro H. unfold next_offset, int_result. replace (_ && _)%bool with false by lia. eexists. reflexivity. Qed.

(** ** Processes that behave alike complete alike *)
Definition alike_configs {T RA RB} (c c' : config T RA RB) : Prop :=
  alike (c_a c) (c_a c') /\ alike (c_b c) (c_b c') /\ c_ta c = c_ta c' /\ c_tb c = c_tb c' /\ c_ab c = c_ab c' /\ c_ba c = c_ba c'.
Lemma alike_pstep {T R} (p q : proc T R) t i o p' t' i' o' : alike p q -> pstep p t i o = Some (p', t', i', o') ->
  exists q', pstep q t i o = Some (q', t', i', o') /\ alike p' q'.
Proof.
  intros H E. destruct H; cbn in *; try discriminate.
  - injection E as <- <- <- <-. eauto.
  - destruct i; [discriminate|]. injection E as <- <- <- <-. eauto.
  - destruct i; [discriminate|]. injection E as <- <- <- <-. eauto.
  - injection E as <- <- <- <-. eauto.
Qed.
Lemma alike_step {T RA RB} (c c' d : config T RA RB) : alike_configs c c' -> step c d -> exists d', step c' d' /\ alike_configs d d'.
Proof.
  destruct c' as [qa ta' qb tb' ab' ba']. intros (H1 & H2 & H3 & H4 & H5 & H6) Hs. destruct Hs; cbn in *; subst;
    match goal with E : pstep ?p _ _ _ = _, X : alike ?p _ |- _ => destruct (alike_pstep _ _ _ _ _ _ _ _ _ X E) as (q' & E' & X') end; eexists;
    (split; [first [apply step_a; exact E' | apply step_b; exact E']|]); repeat split; cbn; assumption.
Qed.
Lemma alike_steps {T RA RB} n : forall (c c' d : config T RA RB), alike_configs c c' -> steps n c d -> exists d', steps n c' d' /\ alike_configs d d'.
Proof.
  induction n as [|n IH]; intros c c' d H Hs; inversion Hs; subst.
  - exists c'. split; [constructor|assumption].
  - match goal with X : step c _ |- _ => destruct (alike_step _ _ _ H X) as (c1 & X1 & Y1) end.
    match goal with X : steps n _ d |- _ => destruct (IH _ _ _ Y1 X) as (d' & X2 & Y2) end. exists d'. split; [econstructor; eassumption|assumption].
Qed.
Lemma alike_configs_sym {T RA RB} (c c' : config T RA RB) : alike_configs c c' -> alike_configs c' c.
Proof. intros (H1 & H2 & H3 & H4 & H5 & H6). repeat split; auto using alike_sym. Qed.
Lemma alike_finished {T RA RB} (d : config T RA RB) a ta b tb : alike_configs (finished a ta b tb) d -> d = finished a ta b tb.
Proof.
  destruct d as [pa ta' pb tb' ab ba]. intros (H1 & H2 & H3 & H4 & H5 & H6). cbn in *. subst. inversion H1; subst. inversion H2; subst. reflexivity.
Qed.
Lemma alike_completes {T RA RB} (pa qa : proc T RA) (pb qb : proc T RB) ta tb a b : alike qa pa -> alike qb pb ->
  completes pa ta pb tb a b -> completes qa ta qb tb a b.
Proof.
  intros Ha Hb (n & ta' & tb' & H1 & H2). assert (HC : alike_configs (start qa ta qb tb) (start pa ta pb tb)) by (repeat split; assumption).
  exists n, ta', tb'. split.
  - destruct (alike_steps _ _ _ _ (alike_configs_sym _ _ HC) H1) as (d & X & Y). apply alike_finished in Y. subst d. exact X.
  - intros m d Hd. destruct (alike_steps _ _ _ _ HC Hd) as (d' & X & Y). destruct (H2 m d' X) as (Hm & Hr). split; [exact Hm|].
    destruct (alike_steps _ _ _ _ (alike_configs_sym _ _ Y) Hr) as (e & X2 & Y2). apply alike_finished in Y2. subst e. exact X2.
Qed.

Section RotIntProofs.
  Variable S : scalar.
  Variable aes : N -> N -> N.
  Variable clog : Z -> Z -> nat.
  Variable K : Q.
  Notation transfers := (tree_transfers clog).

  Lemma transfers_cons n sizes : transfers (n :: sizes) = (if n =? 0 then 0 else Z.of_nat (clog 2 n)) + transfers sizes.
  Proof. reflexivity. Qed.

  Lemma sizes_int_id (outputs : list (list S)) : zlen outputs < 2^31 -> sizes_int S outputs = map zlen outputs.
  Proof. intro H. unfold sizes_int. rewrite visited_id by assumption. rewrite Z.sub_diag. apply app_nil_r. Qed.
  Lemma unpack_int_id trees outputs : zlen outputs < 2^31 -> unpack_all_int S trees outputs = unpack_all S trees outputs.
  Proof. intro H. unfold unpack_all_int, unpack_all. rewrite int_size_id by assumption. reflexivity. Qed.

  Lemma all_choices_int_id trees : forall choices offsets, zlen choices + transfers (map fst trees) < 2^31 - 1 ->
    all_choices_int clog 2 trees choices offsets (zlen choices) = all_choices clog 2 trees choices offsets.
  Proof.
    induction trees as [|[n index] trees IH]; intros choices offsets H; cbn [all_choices_int all_choices]; [reflexivity|].
    cbn [map fst] in H. rewrite transfers_cons in H. pose proof (tree_transfers_nonneg clog (map fst trees)) as Hn. pose proof (zlen_nonneg choices) as Hc.
    destruct (n =? 0); [apply IH; lia|]. destruct (tree_choices_ok clog n index) as (cs & E & El & _).
    rewrite int_result_ok by lia. cbn [rbind]. rewrite next_offset_ok by lia. cbn [rbind]. rewrite E. cbn [rbind].
    replace (zlen choices + (1 + Z.of_nat (clog 2 n)) - 1) with (zlen choices + zlen cs) by lia.
    rewrite <- zlen_app. apply IH. rewrite zlen_app. lia.
  Qed.
  Lemma all_choices_int_over trees : forall choices offsets, zlen choices < 2^31 - 1 -> 2^31 - 1 <= zlen choices + transfers (map fst trees) ->
    exists w, all_choices_int clog 2 trees choices offsets (zlen choices) = UB w.
  Proof.
    induction trees as [|[n index] trees IH]; intros choices offsets H1 H2; cbn [all_choices_int].
    { cbn in H2. lia. }
    cbn [map fst] in H2. rewrite transfers_cons in H2. pose proof (zlen_nonneg choices) as Hc.
    destruct (n =? 0); [apply IH; lia|]. destruct (tree_choices_ok clog n index) as (cs & E & El & _).
    unfold int_result at 1. destruct (_ && _)%bool eqn:Eb; cbn [rbind]; [|eexists; reflexivity].
    destruct (Z.lt_ge_cases (zlen choices + (1 + Z.of_nat (clog 2 n))) (2^31)) as [Hlt|Hge].
    - rewrite next_offset_ok by lia. cbn [rbind]. rewrite E. cbn [rbind].
      replace (zlen choices + (1 + Z.of_nat (clog 2 n)) - 1) with (zlen choices + zlen cs) by lia.
      rewrite <- zlen_app. apply IH; rewrite zlen_app; lia.
    - destruct (next_offset_over _ _ Hge) as (w & ->). eexists. reflexivity.
  Qed.
  Lemma fst_combine {A B} (l : list A) (m : list B) : zlen l = zlen m -> map fst (combine l m) = l.
  Proof. revert m. induction l as [|a l IH]; intros [|b m] H; rewrite ?zlen_cons in H; cbn; try reflexivity.
    - pose proof (zlen_nonneg l). change (zlen (@nil B)) with 0 in H. lia.
    - rewrite IH by lia. reflexivity. Qed.

  Lemma receive_trees_int_id sizes indices : zlen sizes < 2^31 - 1 -> transfers sizes < 2^31 - 1 ->
    receive_trees_int S aes clog sizes indices 2 = receive_trees S aes clog sizes indices 2.
  Proof.
    intros H1 H2. unfold receive_trees_int, receive_trees. destruct (Z.eqb_spec (zlen sizes) (zlen indices)) as [El|El]; cbn [negb]; [|reflexivity].
    pose proof (zlen_nonneg sizes) as Hn. cbv zeta. rewrite int_size_id by lia. rewrite int_result_ok by lia. cbn [plift].
    replace (zlen sizes + 1 <? 0) with false by lia. replace (zlen sizes <? 0) with false by lia. rewrite visited_id by (rewrite zlen_combine; lia).
    change (Z.of_nat 2) with 2. change 0 with (zlen (@nil bool)) at 2. rewrite all_choices_int_id; [reflexivity|].
    rewrite fst_combine by assumption. change (zlen (@nil bool)) with 0. lia.
  Qed.
  Lemma receiver_int_id indices outputs : zlen outputs < 2^31 - 1 -> transfers (map zlen outputs) < 2^31 - 1 ->
    rot_receiver_batched_int S aes clog indices outputs = rot_receiver_batched S aes clog indices outputs.
  Proof.
    intros H1 H2. unfold rot_receiver_batched_int, rot_receiver_batched. destruct (Z.eqb_spec (zlen outputs) (zlen indices)) as [El|El]; cbn [negb]; [|reflexivity].
    rewrite visited_id by (rewrite zlen_combine; lia). rewrite sizes_int_id by lia. rewrite receive_trees_int_id by (rewrite ?zlen_map; assumption).
    unfold unpack_all_int, unpack_all. rewrite int_size_id by lia. reflexivity.
  Qed.
  Lemma receiver_int_over indices outputs : zlen outputs < 2^31 - 1 -> 2^31 - 1 <= transfers (map zlen outputs) ->
    zlen outputs = zlen indices -> (forall i, 0 <= i < zlen outputs -> valid_index (znth 0 indices i) (zlen (znth [] outputs i))) ->
    exists w, returns (rot_receiver_batched_int S aes clog indices outputs) (UB w).
  Proof.
    intros H1 H2 El Hv. unfold returns, rot_receiver_batched_int. rewrite El, Z.eqb_refl. cbn [negb]. rewrite visited_id by (rewrite zlen_combine; lia).
    replace (existsb _ _) with false; cycle 1.
    { symmetry. apply not_true_is_false. intro E. apply existsb_exists in E. destruct E as ([index out] & Hin & Hb).
      apply (In_znth (0, [])) in Hin. destruct Hin as (i & Hi & E). rewrite zlen_combine in Hi by lia.
      rewrite znth_combine in E by lia. injection E as <- <-. specialize (Hv i ltac:(lia)). unfold bad_index, valid_index in *. lia. }
    rewrite sizes_int_id by lia. unfold receive_trees_int. rewrite zlen_map, El, Z.eqb_refl. cbn [negb]. cbv zeta.
    pose proof (zlen_nonneg outputs) as Hn. rewrite int_size_id by (rewrite zlen_map; lia). rewrite zlen_map, int_result_ok by lia. cbn [plift].
    replace (zlen outputs + 1 <? 0) with false by lia. rewrite visited_id by (rewrite zlen_combine; rewrite zlen_map; lia).
    change (Z.of_nat 2) with 2. change 0 with (zlen (@nil bool)) at 2.
    destruct (all_choices_int_over (combine (map zlen outputs) indices) [] [0]) as (w & ->).
    - change (zlen (@nil bool)) with 0. lia.
    - rewrite fst_combine by (rewrite zlen_map; assumption). change (zlen (@nil bool)) with 0. lia.
    - exists w. reflexivity.
  Qed.

  (** ** Sender *)
  Lemma prepare_int_id sizes ts : Forall2 (sized clog) sizes ts -> forall trees opts, zlen opts + transfers sizes < 2^31 - 1 ->
    prepare_opts_int ts trees opts (zlen opts) = prepare_opts ts trees opts.
  Proof.
    induction 1 as [|n o sizes ts Ho _ IH]; intros trees opts H; cbn [prepare_opts prepare_opts_int]; [reflexivity|].
    rewrite transfers_cons in H. pose proof (tree_transfers_nonneg clog sizes) as Hn. pose proof (zlen_nonneg opts) as Hp.
    destruct o as [r|]; cbn in Ho.
    - destruct Ho as [H0 Ho]. replace (n =? 0) with false in H by lia. destruct r as [t| |]; cbn [rbind]; try reflexivity.
      specialize (Ho t eq_refl). rewrite next_offset_ok by lia. cbn [rbind].
      destruct (tree_ot_pairs t) as [nw| |] eqn:E; cbn [rbind]; try reflexivity.
      apply (tree_ot_pairs_zlen clog) in E. replace (zlen opts + num_levels t - 1) with (zlen (opts ++ nw)) by (rewrite zlen_app; lia).
      apply IH. rewrite zlen_app. lia.
    - subst n. apply IH. cbn in H. lia.
  Qed.
  Definition fine (o : option (res tree)) : Prop :=
    match o with None => True | Some r => exists t ps, r = Ok t /\ tree_ot_pairs t = Ok ps end.
  Lemma prepare_int_over sizes ts : Forall2 (sized clog) sizes ts -> Forall fine ts -> forall trees opts, zlen opts < 2^31 - 1 ->
    2^31 - 1 <= zlen opts + transfers sizes -> exists w, prepare_opts_int ts trees opts (zlen opts) = UB w.
  Proof.
    induction 1 as [|n o sizes ts Ho _ IH]; intros HF trees opts H1 H2; cbn [prepare_opts_int].
    { cbn in H2. lia. }
    rewrite transfers_cons in H2. pose proof (zlen_nonneg opts) as Hp. inversion HF as [|? ? Hf HF']; subst.
    destruct o as [r|]; cbn in Ho, Hf.
    - destruct Ho as [H0 Ho]. replace (n =? 0) with false in H2 by lia. destruct Hf as (t & ps & -> & Ep). cbn [rbind].
      specialize (Ho t eq_refl). destruct (Z.lt_ge_cases (zlen opts + num_levels t) (2^31)) as [Hlt|Hge].
      + rewrite next_offset_ok by lia. cbn [rbind]. rewrite Ep. cbn [rbind]. apply (tree_ot_pairs_zlen clog) in Ep.
        replace (zlen opts + num_levels t - 1) with (zlen (opts ++ ps)) by (rewrite zlen_app; lia). apply IH; rewrite ?zlen_app; auto; lia.
      + destruct (next_offset_over _ _ Hge) as (w & ->). eexists. reflexivity.
    - subst n. cbn in H2. apply IH; auto; lia.
  Qed.

  Lemma alike_blocks {R} n : forall (k k' : list N -> proc S R), (forall l, List.length l = n -> alike (k l) (k' l)) -> alike (rand_blocks n k) (rand_blocks n k').
  Proof. induction n as [|n IH]; intros k k' H; cbn [rand_blocks]; [apply H; reflexivity|]. constructor. intros x _. apply IH. intros l Hl. apply H. cbn. lia. Qed.
  Lemma alike_trees sizes keys : zlen keys = 2 -> forall k k', (forall ts, Forall2 (sized clog) sizes ts -> alike (k ts) (k' ts)) ->
    alike (create_trees S aes clog sizes keys k) (create_trees S aes clog sizes keys k').
  Proof.
    intro Hk. induction sizes as [|n sizes IH]; intros k k' H; cbn [create_trees]; [apply H; constructor|].
    destruct (Z.eqb_spec n 0) as [Hn|Hn].
    - apply IH. intros ts HF. apply H. constructor; [exact Hn|assumption].
    - constructor. intros x _. apply IH. intros ts HF. apply H. constructor; [|assumption]. split; [assumption|].
      intros t Ht. apply create_levels in Ht. now rewrite Hk in Ht.
  Qed.
  Lemma alike_lift {A B} (m m' : res A) (f : A -> proc S (res B)) : m = m' -> alike (plift m f) (plift m' f).
  Proof. intros ->. apply alike_refl. Qed.

  Lemma send_trees_int_id sizes : zlen sizes < 2^31 - 1 -> transfers sizes < 2^31 - 1 ->
    alike (send_trees_int S aes clog K sizes 2) (send_trees S aes clog K sizes 2).
  Proof.
    intros H1 H2. unfold send_trees_int, send_trees. destruct (negb _); [constructor|]. cbv zeta. pose proof (zlen_nonneg sizes) as Hn.
    rewrite int_size_id by lia. replace (zlen sizes <? 0) with false by lia. rewrite int_result_ok by lia. cbn [plift]. rewrite visited_id by lia.
    apply alike_blocks. intros keys Lk. apply alike_trees; [unfold zlen; lia|]. intros ts HF. apply alike_lift.
    apply (prepare_int_id sizes ts HF [] []). change (zlen (@nil (N * N))) with 0. lia.
  Qed.
  Lemma alike_pbind {A B} (p q : proc S A) (f g : A -> proc S B) : alike p q -> (forall a, alike (f a) (g a)) -> alike (pbind p f) (pbind q g).
  Proof. induction 1; intro Hf; cbn [pbind]; auto; constructor; auto. Qed.
  Lemma sender_int_id outputs : zlen outputs < 2^31 - 1 -> transfers (map zlen outputs) < 2^31 - 1 ->
    alike (rot_sender_batched_int S aes clog K outputs) (rot_sender_batched S aes clog K outputs).
  Proof.
    intros H1 H2. unfold rot_sender_batched_int, rot_sender_batched. rewrite sizes_int_id by lia. unfold pbindr. apply alike_pbind.
    - apply send_trees_int_id; rewrite ?zlen_map; assumption.
    - intros [ts| |]; try apply alike_refl. rewrite unpack_int_id by lia. apply alike_refl.
  Qed.

  Lemma blocks_does {R} n : forall (k : list N -> proc S R) l o, does (rand_blocks n k) l o ->
    l = [] /\ o = None \/ exists keys, List.length keys = n /\ does (k keys) l o.
  Proof.
    induction n as [|n IH]; intros k l o H; cbn [rand_blocks] in H; [right; exists []; auto|].
    inversion H; subst; [left; auto|]. match goal with X : does (rand_blocks _ _) _ _ |- _ => apply IH in X; rename X into HX end. destruct HX as [X|(keys & Lk & X)]; [left; exact X|].
    right. eexists (_ :: keys). split; [cbn; lia|exact X].
  Qed.
  Lemma trees_does sizes keys : zlen keys = 2 -> Forall (fun n => 0 <= n /\ supported_size clog n) sizes -> forall k l o, does (create_trees S aes clog sizes keys k) l o ->
    l = [] /\ o = None \/ exists ts, Forall2 (sized clog) sizes ts /\ Forall fine ts /\ does (k ts) l o.
  Proof.
    intros Hk Hs. induction sizes as [|n sizes IH]; cbn [create_trees]; intros k l o H.
    - right. exists []. auto.
    - inversion Hs as [|? ? [Hn0 Hn1] Hs']; subst. destruct (Z.eqb_spec n 0) as [Hn|Hn].
      + apply (IH Hs') in H. destruct H as [H|(ts & HF & HG & H)]; [left; exact H|]. right. exists (None :: ts).
        split; [constructor; auto|]. split; [constructor; [exact I|auto]|exact H].
      + inversion H; subst; [left; auto|]. match goal with X : does (create_trees _ _ _ _ _ _) _ _ |- _ => apply (IH Hs') in X; rename X into HX end. destruct HX as [X|(ts & HF & HG & X)]; [left; exact X|].
        right. eexists (Some _ :: ts). split; [|split; [|eassumption]].
        * constructor; [|auto]. split; [auto|]. intros t0 Ht. apply create_levels in Ht. now rewrite Hk in Ht.
        * constructor; [|auto]. cbn. match goal with |- exists t ps, ggm_create _ _ _ ?s _ = _ /\ _ =>
            destruct (per_tree aes clog keys n s 0 Hk ltac:(lia) Hn1 ltac:(lia)) as (t & ps & r & E1 & E2 & _) end. eauto.
  Qed.
  Lemma does_pbind {A B} (p : proc S A) (f : A -> proc S B) : forall l o, does (pbind p f) l o ->
    exists l1 o1, does p l1 o1 /\ match o1 with None => o = None /\ l = l1 | Some a => exists l2, l = l1 ++ l2 /\ does (f a) l2 o end.
  Proof.
    induction p as [r|m p IH|k IH|c cs k IH|k IH]; cbn [pbind]; intros l o H.
    - exists [], (Some r). split; [constructor|]. exists l. auto.
    - inversion H; subst; [exists [], None; split; [constructor|auto]|]. match goal with X : does (pbind _ _) _ _ |- _ => apply IH in X; rename X into HX end. destruct HX as (l1 & o1 & X & Y).
      exists (sending m :: l1), o1. split; [constructor; exact X|]. destruct o1; [destruct Y as (l2 & -> & Y); exists l2; auto|destruct Y as [-> ->]; auto].
    - inversion H; subst; [exists [], None; split; [constructor|auto]|]. match goal with X : does (pbind _ _) _ _ |- _ => apply IH in X; rename X into HX end. destruct HX as (l1 & o1 & X & Y).
      exists (Receives :: l1), o1. split; [econstructor; exact X|]. destruct o1; [destruct Y as (l2 & -> & Y); exists l2; auto|destruct Y as [-> ->]; auto].
    - inversion H; subst; [exists [], None; split; [constructor|auto]|]. match goal with X : does (pbind _ _) _ _ |- _ => apply IH in X; rename X into HX end. destruct HX as (l1 & o1 & X & Y).
      eexists (_ :: l1), o1. split; [econstructor; exact X|]. destruct o1; [destruct Y as (l2 & -> & Y); exists l2; auto|destruct Y as [-> ->]; auto].
    - inversion H; subst; [exists [], None; split; [constructor|auto]|]. match goal with X : does (pbind _ _) _ _ |- _ => apply IH in X; rename X into HX end. destruct HX as (l1 & o1 & X & Y).
      exists l1, o1. split; [econstructor; exact X|]. exact Y.
  Qed.

  Lemma sender_int_over outputs l o : zlen outputs < 2^31 - 1 -> 2^31 - 1 <= transfers (map zlen outputs) ->
    Forall (fun out => supported_size clog (zlen out)) outputs ->
    s_can_hash S (security_per_leaf K (total_leaves (map zlen outputs))) 128 = true ->
    does (rot_sender_batched_int S aes clog K outputs) l o ->
    l = [] /\ match o with Some r => exists w, r = UB w | None => True end.
  Proof.
    intros H1 H2 Hs Hc H. unfold rot_sender_batched_int, pbindr in H. apply does_pbind in H. destruct H as (l1 & o1 & H & Hb).
    rewrite sizes_int_id in H by lia. unfold send_trees_int in H. rewrite Hc in H. cbn [negb] in H. cbv zeta in H.
    pose proof (zlen_nonneg outputs) as Hn. rewrite int_size_id in H by (rewrite zlen_map; lia). rewrite zlen_map in H.
    replace (zlen outputs <? 0) with false in H by lia. rewrite int_result_ok in H by lia. cbn [plift] in H. rewrite visited_id in H by (rewrite zlen_map; lia).
    apply blocks_does in H. destruct H as [[-> ->]|(keys & Lk & H)]; [destruct Hb as [-> ->]; auto|].
    apply trees_does in H; [|unfold zlen; lia|].
    2: { apply Forall_forall. intros n Hin. apply in_map_iff in Hin. destruct Hin as (out & <- & Hin). split; [apply zlen_nonneg|].
         rewrite Forall_forall in Hs. now apply Hs. }
    destruct H as [[-> ->]|(ts & HF & HG & H)]; [destruct Hb as [-> ->]; auto|].
    destruct (prepare_int_over _ _ HF HG [] []) as (w & E); [change (zlen (@nil (N * N))) with 0; lia|change (zlen (@nil (N * N))) with 0; lia|].
    change (zlen (@nil (N * N))) with 0 in E. rewrite E in H. cbn [plift] in H. inversion H; subst.
    - destruct Hb as [-> ->]. auto.
    - destruct Hb as (l2 & -> & Hb). inversion Hb; subst; split; auto. eauto.
  Qed.

  (** ** More outputs than an int can count *)
  Lemma int_size_wraps {A} (l : list A) : zlen l = 2^32 -> int_size l = 0.
  Proof. intro H. unfold int_size. rewrite H. reflexivity. Qed.
  Lemma visited_none {A} (l : list A) : zlen l = 2^32 -> visited l = [].
  Proof. intro H. unfold visited. rewrite int_size_wraps by assumption. reflexivity. Qed.
  Lemma total_zeros n : total_leaves (repeat 0 n) = 0.
  Proof. unfold total_leaves. induction n as [|n IH]; cbn [repeat fold_left]; [reflexivity|]. exact IH. Qed.
  Lemma sizes_wrapped (outputs : list (list S)) : zlen outputs = 2^32 ->
    exists zs, sizes_int S outputs = zs /\ zlen zs = 2^32 /\ total_leaves zs = 0.
  Proof.
    intro H. eexists. split; [reflexivity|]. unfold sizes_int. rewrite visited_none by assumption. cbn [map app]. change (zlen (@nil (list S))) with 0. rewrite Z.sub_0_r.
    split; [rewrite zlen_zrepeat by apply zlen_nonneg; exact H|]. apply total_zeros.
  Qed.
  Lemma sender_wrapped outputs : zlen outputs = 2^32 -> s_can_hash S (security_per_leaf K 0) 128 = true ->
    does (rot_sender_batched_int S aes clog K outputs) [SendsBlocks 2] (Some (Ok outputs)).
  Proof.
    intros H Hc. unfold rot_sender_batched_int. destruct (sizes_wrapped outputs H) as (zs & -> & Hz & Ht). unfold send_trees_int. rewrite Ht, Hc. cbn [negb]. cbv zeta.
    rewrite (int_size_wraps _ Hz), (visited_none _ Hz).
    change (0 <? 0) with false. cbv iota. rewrite int_result_ok by lia. cbn [plift rand_blocks create_trees prepare_opts_int].
    change (0 <? zlen (@nil (N * N))) with false. cbv iota. unfold pbindr. cbn [pbind]. apply (does_rand _ 0%N (s_zero S)). apply (does_rand _ 0%N (s_zero S)).
    change (SendsBlocks 2) with (@sending S (MBlocks [0%N; 0%N])). constructor. unfold unpack_all_int. rewrite (int_size_wraps _ H). constructor.
  Qed.
  Lemma receiver_wrapped indices outputs : zlen outputs = 2^32 -> zlen indices = 2^32 ->
    does (rot_receiver_batched_int S aes clog indices outputs) [Receives] (Some (Ok outputs)).
  Proof.
    intros H Hi. assert (Hc : zlen (combine indices outputs) = 2^32) by (rewrite zlen_combine by congruence; exact Hi).
    unfold rot_receiver_batched_int. replace (zlen outputs =? zlen indices) with true by lia. cbn [negb]. rewrite (visited_none _ Hc). cbn [existsb].
    destruct (sizes_wrapped outputs H) as (zs & -> & Hz & _). unfold receive_trees_int.
    assert (Hd : zlen (combine zs indices) = 2^32) by (rewrite zlen_combine by congruence; exact Hz).
    replace (zlen zs =? zlen indices) with true by lia. cbn [negb]. cbv zeta. rewrite (int_size_wraps _ Hz), int_result_ok by lia. cbn [plift].
    change (0 + 1 <? 0) with false. change (0 <? 0) with false. cbv iota.
    rewrite (visited_none _ Hd). cbn [all_choices_int plift]. change (0 <? zlen (@nil bool)) with false. cbv iota. unfold recv_blocks, pbindr. cbn [pbind].
    apply (does_recv _ (MBlocks [0%N; 0%N])). cbn [pbind]. change (zrange 0 0) with (@nil Z). cbn [map collect]. unfold unpack_all_int. rewrite (int_size_wraps _ H). constructor.
  Qed.

  (** ** Enough room *)
  Lemma transfers_le sizes : (forall n, 1 <= n -> 2 ^ (Z.of_nat (clog 2 n) - 1) <= n) -> Forall (fun n => 0 <= n) sizes -> transfers sizes <= size_sum sizes.
  Proof.
    intros Hc. induction 1 as [|n sizes Hn _ IH]; [cbn; lia|]. rewrite transfers_cons. cbn [size_sum fold_right]. fold (size_sum sizes).
    destruct (Z.eqb_spec n 0); [lia|]. specialize (Hc n ltac:(lia)). set (k := Z.of_nat (clog 2 n)) in *. assert (0 <= k) by lia.
    destruct (Z.eq_dec k 0) as [->|Hk]; [lia|]. pose proof (Z.pow_gt_lin_r 2 (k - 1) ltac:(lia) ltac:(lia)). lia.
  Qed.

  Lemma completes_int outs_s outs_r indices ta tb a b : map zlen outs_r = map zlen outs_s -> zlen outs_s < 2^31 - 1 -> transfers (map zlen outs_s) < 2^31 - 1 ->
    completes (rot_sender_batched S aes clog K outs_s) ta (rot_receiver_batched S aes clog indices outs_r) tb a b ->
    completes (rot_sender_batched_int S aes clog K outs_s) ta (rot_receiver_batched_int S aes clog indices outs_r) tb a b.
  Proof.
    intros He H1 H2. assert (Hl : zlen outs_r = zlen outs_s) by (rewrite <- (zlen_map zlen outs_r), He, zlen_map; reflexivity).
    apply alike_completes; [apply sender_int_id; assumption|]. rewrite receiver_int_id by (rewrite ?He; lia). apply alike_refl.
  Qed.
  Lemma rot_int_correct outs_s outs_r indices ta tb :
    zlen outs_s < 2^31 - 1 -> transfers (map zlen outs_s) < 2^31 - 1 ->
    map zlen outs_r = map zlen outs_s ->
    (forall o, In o outs_s -> supported_size clog (zlen o)) ->
    zlen indices = zlen outs_s ->
    (forall i, 0 <= i < zlen outs_s -> valid_index (znth 0 indices i) (zlen (znth [] outs_s i))) ->
    s_can_hash S (security_per_leaf K (total_leaves (map zlen outs_s))) 128 = true ->
    exists rs rr, completes (rot_sender_batched_int S aes clog K outs_s) ta
              (rot_receiver_batched_int S aes clog indices outs_r) tb (Ok rs) (Ok rr) /\
      map zlen rs = map zlen outs_s /\ map zlen rr = map zlen outs_s /\
      forall i, 0 <= i < zlen outs_s ->
        let n := zlen (znth [] outs_s i) in
        (forall j d, 0 <= j < n ->
           znth d (znth [] rr i) j = if j =? znth 0 indices i then s_of128 S 0%N else znth d (znth [] rs i) j) /\
        (1 <= n -> exists t, well_shaped t 2 n /\
           is_ggm_tree aes (fst (ta (seed_pos (map zlen outs_s) i))) [fst (ta 0%nat); fst (ta 1%nat)] t /\
           forall j d, 0 <= j < n -> znth d (znth [] rs i) j = s_of128 S (node t (height t - 1) j)).
  Proof.
    intros H1 H2 H3 H4 H5 H6 H7. destruct (rot_batched_correct S aes clog K outs_s outs_r indices ta tb H3 H4 H5 H6 H7) as (rs & rr & HC & HR).
    exists rs, rr. split; [|exact HR]. now apply completes_int.
  Qed.
  Lemma sizes_int_length outputs : zlen (sizes_int S outputs) = zlen outputs.
  Proof.
    unfold sizes_int. assert (zlen (visited outputs) <= zlen outputs) by (unfold visited, zlen; rewrite firstn_length; lia).
    rewrite zlen_app, zlen_map, zlen_zrepeat by lia. lia.
  Qed.
  Lemma int_size_negative {A} (l : list A) : 2^31 <= zlen l < 2^32 -> int_size l = zlen l - 2^32.
  Proof.
    intro H. unfold int_size, wrap32. replace (zlen l + 2^31) with (zlen l - 2^31 + 1 * 2^32) by lia. rewrite Z.mod_add by lia. rewrite Z.mod_small by lia. lia.
  Qed.
  Lemma int_size_most {A} (l : list A) : zlen l < 2^31 -> int_size l = zlen l.
  Proof. intro H. pose proof (zlen_nonneg l). unfold int_size, wrap32. rewrite Z.mod_small by lia. lia. Qed.
  Lemma too_many indices outputs : 2^31 - 1 <= zlen outputs < 2^32 - 1 -> zlen indices = zlen outputs ->
    (forall i, 0 <= i < zlen outputs -> valid_index (znth 0 indices i) (zlen (znth [] outputs i))) ->
    (forall leaves, s_can_hash S (security_per_leaf K leaves) 128 = true) ->
    (exists w, returns (rot_sender_batched_int S aes clog K outputs) (UB w)) /\
    (exists w, returns (rot_receiver_batched_int S aes clog indices outputs) (UB w)).
  Proof.
    intros H Hi Hv Hc. pose proof (sizes_int_length outputs) as Hz. unfold returns. split.
    - unfold rot_sender_batched_int, send_trees_int. rewrite Hc. cbn [negb]. cbv zeta. destruct (Z.eq_dec (zlen outputs) (2^31 - 1)) as [He|He].
      + rewrite int_size_most by lia. rewrite Hz, He. change (2^31 - 1 <? 0) with false. cbv iota. change (2^31 - 1 + 1) with (2^31).
        replace (int_result (2^31)) with (UB "signed overflow of int" : res Z) by reflexivity. cbn [plift]. unfold pbindr. cbn [pbind]. eauto.
      + rewrite int_size_negative by lia. replace (_ <? 0) with true by lia. unfold pbindr. cbn [pbind]. eauto.
    - unfold rot_receiver_batched_int. replace (zlen outputs =? zlen indices) with true by lia. cbn [negb].
      replace (existsb _ _) with false; cycle 1.
      { symmetry. apply not_true_is_false. intro E. apply existsb_exists in E. destruct E as ([index out] & Hin & Hb).
        assert (Hin' : In (index, out) (combine indices outputs)).
        { unfold visited in Hin. rewrite <- (firstn_skipn (Z.to_nat (int_size (combine indices outputs))) (combine indices outputs)). apply in_app_iff. now left. }
        apply (In_znth (0, [])) in Hin'. destruct Hin' as (i & Hi' & E). rewrite zlen_combine in Hi' by lia.
        rewrite znth_combine in E by lia. injection E as <- <-. specialize (Hv i ltac:(lia)). unfold bad_index, valid_index in *. lia. }
      unfold receive_trees_int. replace (_ =? _) with true by lia. cbn [negb]. cbv zeta. destruct (Z.eq_dec (zlen outputs) (2^31 - 1)) as [He|He].
      + rewrite int_size_most by lia. rewrite Hz, He. change (2^31 - 1 + 1) with (2^31).
        replace (int_result (2^31)) with (UB "signed overflow of int" : res Z) by reflexivity. cbn [plift]. unfold pbindr. cbn [pbind]. eauto.
      + rewrite int_size_negative by lia. rewrite int_result_ok by lia. cbn [plift]. replace (_ <? 0) with true by lia. unfold pbindr. cbn [pbind]. eauto.
  Qed.
  Lemma wrapped indices outputs : zlen outputs = 2^32 -> zlen indices = 2^32 -> s_can_hash S (security_per_leaf K 0) 128 = true ->
    does (rot_sender_batched_int S aes clog K outputs) [SendsBlocks 2] (Some (Ok outputs)) /\
    does (rot_receiver_batched_int S aes clog indices outputs) [Receives] (Some (Ok outputs)).
  Proof. intros H1 H2 H3. split; [now apply sender_wrapped|now apply receiver_wrapped]. Qed.
End RotIntProofs.

Lemma transfers_fit clog sizes : (forall n, 1 <= n -> 2 ^ (Z.of_nat (clog 2 n) - 1) <= n) -> Forall (fun n => 0 <= n) sizes ->
  size_sum sizes < 2^31 - 1 -> tree_transfers clog sizes < 2^31 - 1.
Proof. intros H1 H2 H3. pose proof (transfers_le clog sizes H1 H2). lia. Qed.
Lemma buckets_fit clog n N sizes : (forall n, 1 <= n -> 2 ^ (Z.of_nat (clog 2 n) - 1) <= n) ->
  three_choices n N sizes -> 3 * N < 2^31 -> tree_transfers clog sizes < 2^31 - 1.
Proof. intros H1 (_ & H2 & H3) H4. apply transfers_fit; auto. rewrite H3. lia. Qed.

(** ** Examples *)
Lemma toy_levels : forall n, 1 <= n -> 2 ^ (Z.of_nat (Z.to_nat (Z.log2_up n)) - 1) <= n.
Proof.
  intros n Hn. rewrite Z2Nat.id by apply Z.log2_up_nonneg. destruct (Z.eq_dec n 1) as [->|Hn1]; [cbn; lia|].
  pose proof (Z.log2_up_spec n ltac:(lia)) as [H _]. rewrite <- Z.sub_1_r in H. lia.
Qed.
Lemma transfers_repeat clog n k : tree_transfers clog (repeat n k) = Z.of_nat k * (if n =? 0 then 0 else Z.of_nat (clog 2 n)).
Proof.
  induction k as [|k IH]; [reflexivity|]. cbn [repeat]. rewrite transfers_cons, IH. lia.
Qed.
Lemma total_repeat n k : total_leaves (repeat n k) = wrap32 (Z.of_nat k * n).
Proof.
  rewrite total_leaves_wrap. f_equal. induction k as [|k IH]; [reflexivity|]. cbn [repeat size_sum fold_right]. fold (size_sum (repeat n k)). lia.
Qed.
Lemma map_repeat {A B} (f : A -> B) x n : map f (repeat x n) = repeat (f x) n.
Proof. induction n; cbn; congruence. Qed.
Lemma zlen_repeat {A} (x : A) n : zlen (repeat x n) = Z.of_nat n.
Proof. unfold zlen. now rewrite repeat_length. Qed.
Lemma overflow_gen (S : scalar) (clog : Z -> Z -> nat) k m : Z.of_nat k = m -> m = 2^30 -> clog 2 4 = 2%nat -> clog 2 2 = 1%nat ->
  s_can_hash S (security_per_leaf (inject_Z (2^40)) 0) 128 = true ->
  let outputs n := repeat (repeat (s_zero S) n) k in
  zlen (outputs 4%nat) = m /\ tree_transfers clog (map zlen (outputs 4%nat)) = 2^31 /\
  Forall (fun out => supported_size clog (zlen out)) (outputs 4%nat) /\
  s_can_hash S (security_per_leaf (inject_Z (2^40)) (total_leaves (map zlen (outputs 4%nat)))) 128 = true /\
  (forall i, 0 <= i < m -> valid_index (znth 0 (repeat 3 k) i) (zlen (znth [] (outputs 4%nat) i))) /\
  tree_transfers clog (map zlen (outputs 2%nat)) = 2^30.
Proof.
  intros Hk Hm H4 H2 Hc. cbv beta zeta. rewrite !map_repeat, !transfers_repeat, total_repeat, !zlen_repeat. split; [exact Hk|].
  change (Z.of_nat 4) with 4. change (Z.of_nat 2) with 2. rewrite H4, H2. cbn [Z.eqb]. split; [lia|]. split.
  - apply Forall_forall. intros out Hin. apply repeat_spec in Hin. subst out. rewrite zlen_repeat. change (Z.of_nat 4) with 4. unfold supported_size. rewrite H4. cbn. lia.
  - split; [|split; [|lia]].
    + replace (wrap32 (Z.of_nat k * 4)) with 0; [exact Hc|]. rewrite Hk, Hm. reflexivity.
    + intros i Hi. assert (Hlt : (Z.to_nat i < k)%nat) by lia.
      rewrite !znth_repeat by lia. unfold valid_index. rewrite zlen_repeat. lia.
Qed.
Lemma too_many_gen (S : scalar) N n : Z.of_nat N = n -> 2^31 - 1 <= n < 2^32 - 1 ->
  2^31 - 1 <= zlen (repeat (@nil S) N) < 2^32 - 1 /\ zlen (repeat 0 N) = zlen (repeat (@nil S) N) /\
  (forall i, 0 <= i < zlen (repeat (@nil S) N) -> valid_index (znth 0 (repeat 0 N) i) (zlen (znth [] (repeat (@nil S) N) i))).
Proof.
  intros <- H. rewrite !zlen_repeat. split; [exact H|]. split; [reflexivity|]. intros i Hi. rewrite !znth_repeat by lia.
  split; [lia|]. left. reflexivity.
Qed.
