(** Proofs about all the calls made on one Vector-OLE generator. *)
From Verif Require Import Base BaseFacts ListFacts ScalarModel ScalarSpec ProcModel ProcSpec RotModel SpfssModel
  GilboaModel GilboaSpec RngModel CuckooModel CuckooSpec MpfssModel MpfssSpec MpfssProofs MpfssFinal VoleModel VoleSpec VoleMeet VolePair VoleSolo.
From Coq Require Import QArith Permutation.
Local Open Scope Z_scope.

Section History.
  Variable S : scalar.
  Variable E : setting.
  Hypothesis G : good_setting S E.
  Variable M : machine S.
  Hypothesis GM : good_machine S M.
  Notation P := (e_parameters E).
  Notation e3 := (e_expansion3 E).
  Notation lv := (zlen (p_seed_size P)).
  Notation top := (last (p_output_size P) 0).
  Notation sd i := (znth 0 (p_seed_size P) i).
  Notation no i := (znth 0 (p_num_noise P) i).
  Notation base := (base S E).
  Notation slens := (slens S).
  Notation slack := (slack S).
  Notation rslack := (rslack S).

  Definition inv (st : vole S) : Prop := base st /\ slens (v_s st).

  Lemma possible_sync {T A} (k : proc T (res A)) x : possible (sync k) (Ok x) -> possible k (Ok x).
  Proof.
    unfold sync. intro H. inversion H as [|? ? ? H1| | |]; subst. inversion H1 as [| |? m ? H2| |]; subst.
    destruct m; try (apply possible_ret_inv in H2; discriminate). exact H2.
  Qed.
  Lemma created_inv st : created S M st -> exists h, ch_num_hash_functions h = 3 /\ st = vole_new S M (mpfss_new h).
  Proof.
    unfold created, vole_create. intro H. apply possible_sync in H.
    apply possible_bindr_ok in H. destruct H as (m & H & H4). apply possible_ret_inv in H4. injection H4 as ->.
    unfold mpfss_create in H. do 2 apply possible_sync in H. 
    assert (HH : exists h, ch_num_hash_functions h = 3 /\ m = mpfss_new h); [|destruct HH as (h & Hh & ->); eauto].
    destruct (_ <? _).
    - inversion H as [| | | |? x0 t0 ? H1]; subst. inversion H1 as [|? ? ? H2| | |]; subst. 
      apply possible_ret_inv in H2. injection H2 as ->. eexists. split; [|reflexivity]. reflexivity.
    - unfold recv_blocks in H. inversion H as [| |? m0 ? H1| |]; subst. destruct m0; try (apply possible_ret_inv in H1; discriminate).
      apply possible_lift_ok in H1. destruct H1 as (sd0 & _ & H1).
      apply possible_ret_inv in H1. injection H1 as ->. eexists. split; [|reflexivity]. reflexivity.
  Qed.
  Lemma created_ok st : created S M st -> inv st.
  Proof.
    intro H. apply created_inv in H. destruct H as (h & Hh & ->). split; [|split; [reflexivity|split; reflexivity]].
    split; [exact Hh|]. cbn. split; [lia|]. split; left; reflexivity.
  Qed.

  (** ** One call *)
  Definition soutput (r : res (answer S)) : list (S * S) := match r with Ok (Sender u v) => combine u v | _ => [] end.
  Definition routput (r : res (answer S)) : list S := match r with Ok (Receiver w _) => w | _ => [] end.

  Lemma skept_trans a b c : skept S E a b -> skept S E b c -> skept S E a c.
  Proof.
    intros (A1 & A2 & A3 & A4 & A5) (B1 & B2 & B3 & B4 & B5). split; [auto|]. split; [congruence|]. split; [auto|]. split; [|congruence].
    intro p. specialize (A4 p). specialize (B4 p). lia.
  Qed.
  Lemma ran_s_base n u v st st' x : base st -> ran_s S n u v st st' x -> base st'.
  Proof. intros Hb (_ & Ha & _). eapply around_base; eauto. Qed.
  Lemma ran_r_base n w st st' x : base st -> ran_r S n w st st' x -> base st'.
  Proof. intros Hb (_ & Ha & _). eapply around_base; eauto. Qed.
  Lemma rfailed_base st st' : base st -> rfailed S st st' -> base st'.
  Proof. intros Hb (Ha & _). eapply around_base; eauto. Qed.

  Definition sender_step (c : call S) (st st' : vole S) (r : res (answer S)) : Prop :=
    inv st' /\ v_r st' = v_r st /\ (forall p, slack p (v_s st) + count p (soutput r) <= slack p (v_s st')).
  Lemma sender_call c st st' r : inv st -> possible (as_sender S E M c st) (st', r) -> (forall w, r <> UB w) -> sender_step c st st' r.
  Proof.
    intros [Hb HL] H Hu. destruct c as [b d|n]; cbn in H; apply possible_bind in H; destruct H as ([st1 x] & H1 & H2); apply possible_ret_inv in H2; injection H2 as -> ->.
    - apply (precompute_sender_solo S E G M GM) in H1; auto. destruct x as [x|e|w]; [| |exfalso; eapply Hu; reflexivity].
      + destruct H1 as (_ & A1 & A2 & A3 & A4 & _). split; [split; auto|]. split; [auto|]. intro p. specialize (A4 p). cbn. change (count p []) with 0. lia.
      + destruct H1 as ((A1 & A2 & A3 & A4 & _) & _). split; [split; auto|]. split; [auto|]. intro p. specialize (A4 p). cbn. change (count p []) with 0. lia.
    - apply (run_sender_solo S E G M GM) in H1; auto. destruct x as [x|e|w]; [| |exfalso; eapply Hu; reflexivity].
      + assert (Hrun : forall a, base a -> ran_s S n [] [] a st1 x -> inv st1 /\ v_r st1 = v_r a /\ forall p, slack p (v_s a) + count p (combine (sr_u x) (sr_v x)) <= slack p (v_s st1)).
        { intros a Ha Hr. pose proof (ran_s_base _ _ _ _ _ _ Ha Hr) as Hb1. destruct Hr as (A1 & A2 & A3 & A4 & A5 & A6 & A7 & _).
          split; [split; auto|]. split; [auto|]. intro p. rewrite A7. change (count p (combine (@nil S) (@nil S))) with 0. change (count p (pairs x)) with (count p (combine (sr_u x) (sr_v x))). lia. }
        destruct (s_done (v_s st)); [apply Hrun; auto|]. destruct H1 as (_ & a & (A1 & A2 & A3 & A4 & _) & H1). apply Hrun in H1; auto. destruct H1 as (B1 & B2 & B3).
        split; [auto|]. split; [congruence|]. intro p. specialize (A4 p). specialize (B3 p). cbn in *. lia.
      + assert (Hk : forall a, skept S E a st1 -> inv st1 /\ v_r st1 = v_r a /\ forall p, slack p (v_s a) + count p (@nil (S * S)) <= slack p (v_s st1)).
        { intros a (A1 & A2 & A3 & A4 & _). split; [split; auto|]. split; [auto|]. intro p. specialize (A4 p). change (count p []) with 0. lia. }
        destruct H1 as [[H1 _]|(_ & [H1|(a & (A1 & A2 & A3 & A4 & _) & [H1 _])])]; apply Hk in H1; [exact H1|exact H1|]. destruct H1 as (B1 & B2 & B3).
        split; [auto|]. split; [congruence|]. intro p. specialize (A4 p). specialize (B3 p). cbn in *. lia.
  Qed.

  Definition rfine (r : res (answer S)) := exists x, r = Ok x.
  Definition receiver_step (c : call S) (st st' : vole S) (r : res (answer S)) : Prop :=
    inv st' /\ v_s st' = v_s st /\ (rfine r -> forall p, rslack p (v_r st) + count p (routput r) <= rslack p (v_r st')).
  Lemma receiver_call c st st' r : inv st -> possible (as_receiver S E M c st) (st', r) -> (forall w, r <> UB w) -> receiver_step c st st' r.
  Proof.
    intros [Hb HL] H Hu.
    assert (HP : forall b d st1 (x : res unit), (match x with UB _ => True | Err _ => rgone S E st st1 /\ (b < 1 -> st1 = st) /\ (1 <= b -> stale S st1) | Ok _ => 1 <= b /\ ready_r S E b d st st1 end) ->
        (forall w, x <> UB w) -> receiver_step c st st1 (rmap (fun _ => Precomputed) x)).
    { intros b d st1 x H1 Hx. destruct x as [x|e|w]; [| |exfalso; eapply Hx; reflexivity].
      - destruct H1 as (_ & A1 & A2 & A3 & _). split; [split; [auto|now rewrite A2]|]. split; [auto|]. intros _ p. specialize (A3 p). cbn. change (count p []) with 0. lia.
      - destruct H1 as ((A1 & A2 & A3) & _). split; [split; [auto|now rewrite A2]|]. split; [auto|]. intros [y Hy]. discriminate. }
    destruct c as [b [d|]|n]; unfold as_receiver in H; apply possible_bind in H; destruct H as ([st1 x] & H1 & H2); apply possible_ret_inv in H2; injection H2 as -> ->.
    - apply (precompute_receiver_solo S E G M GM) in H1; auto. apply (HP b d); auto. intros w ->. now apply (Hu w).
    - apply (precompute_random_solo S E G M GM) in H1; auto. destruct x as [x|e|w].
      + destruct H1 as (H0 & d & H1). apply (HP b d _ (Ok x)); auto. discriminate.
      + apply (HP b (s_zero S) _ (Err e)); auto. discriminate.
      + now destruct (Hu w).
    - apply (run_receiver_solo S E G M GM) in H1; auto. destruct x as [x|e|w]; [| |exfalso; eapply Hu; reflexivity].
      + assert (Hrun : forall a, base a -> slens (v_s a) -> ran_r S n [] a st1 x -> inv st1 /\ v_s st1 = v_s a /\ forall p, rslack p (v_r a) + count p (rr_w x) <= rslack p (v_r st1)).
        { intros a Ha Hl Hr. pose proof (ran_r_base _ _ _ _ _ Ha Hr) as Hb1. destruct Hr as (A1 & A2 & A3 & A4 & A5 & A6 & _).
          split; [split; [auto|now rewrite A1]|]. split; [auto|]. intro p. rewrite A6. change (count p (@nil S)) with 0. lia. }
        destruct (r_done (v_r st)).
        * destruct H1 as [H1 _]. apply Hrun in H1; auto. destruct H1 as (B1 & B2 & B3). split; [auto|]. split; [auto|]. intros _. exact B3.
        * destruct H1 as (_ & d & a & (A1 & A2 & A3 & _) & H1 & _). apply Hrun in H1; auto; [|now rewrite A2]. destruct H1 as (B1 & B2 & B3).
          split; [auto|]. split; [congruence|]. intros _ p. specialize (A3 p). specialize (B3 p). cbn. lia.
      + assert (HN : forall a, base a -> v_s a = v_s st -> rfailed S a st1 -> receiver_step (Run n) st st1 (rmap (fun x => Receiver (rr_w x) (rr_delta x)) (Err e))).
        { intros a Ha Hs Hf. pose proof (rfailed_base _ _ Ha Hf) as Hb1. destruct Hf as (_ & A2 & _). split; [split; [auto|rewrite A2, Hs; auto]|]. split; [congruence|]. intros [y Hy]. discriminate. }
        destruct H1 as [H1|(_ & [((A1 & A2 & A3) & _)|(_ & d & a & (A1 & A2 & _) & H1)])].
        * apply (HN st); auto.
        * split; [split; [auto|now rewrite A2]|]. split; [auto|]. intros [y Hy]. discriminate.
        * apply (HN a); auto.
  Qed.

  (** ** Histories *)
  Lemma history_app st l1 l2 st2 : history S E M st (l1 ++ l2) st2 -> exists st1, history S E M st l1 st1 /\ history S E M st1 l2 st2.
  Proof.
    revert st2. induction l2 as [|[[s c] r] l2 IH] using rev_ind; intros st2 H.
    - rewrite app_nil_r in H. exists st2. split; [auto|constructor].
    - rewrite app_assoc in H. inversion H as [|? l0 st1 s' c' r' st2' Hh Hp Hu Ea Eb Ec]; subst; [destruct (l1 ++ l2); discriminate|].
      apply app_inj_tail in Eb. destruct Eb as [-> Eb]. injection Eb as -> -> ->. apply IH in Hh. destruct Hh as (sta & Ha & Hb).
      exists sta. split; [auto|]. econstructor; eauto.
  Qed.
  Lemma history_one st s c r st2 : history S E M st [(s, c, r)] st2 ->
    possible ((if s : bool then as_sender S E M c else as_receiver S E M c) st) (st2, r) /\ forall w, r <> UB w.
  Proof.
    intro H. inversion H as [|? l0 st1 s' c' r' st2' Hh Hp Hu Ea Eb Ec]; subst.
    assert (l0 = []) by (destruct l0 as [|? [|? ?]]; [auto|discriminate|discriminate]). subst l0. cbn in Eb. injection Eb as -> -> ->.
    inversion Hh as [|? l0 ? ? ? ? ? ? ? ? E0 E1]; subst; [auto|destruct l0; discriminate].
  Qed.

  Lemma history_inv st l st' : inv st -> history S E M st l st' -> inv st' /\ forall p, slack p (v_s st) + count p (sender_outputs l) <= slack p (v_s st').
  Proof.
    intros Hi H. induction H as [|st l st1 s c r st2 Hh IH Hp Hu]; [split; [auto|]; intro p; change (count p (sender_outputs [])) with 0; lia|].
    specialize (IH Hi). destruct IH as [I1 I2].
    assert (Eo : sender_outputs (l ++ [(s, c, r)]) = sender_outputs l ++ soutput r).
    { unfold sender_outputs. rewrite map_app, concat_app. cbn. now rewrite app_nil_r. }
    destruct s.
    - apply sender_call in Hp; auto. destruct Hp as (A1 & A2 & A3). split; [auto|]. intro p. rewrite Eo, count_app. specialize (I2 p). specialize (A3 p). lia.
    - assert (Hs : soutput r = []).
      { destruct c as [b [d|]|n]; unfold as_receiver in Hp; apply possible_bind in Hp; destruct Hp as ([sa x] & _ & H2); apply possible_ret_inv in H2; injection H2 as -> ->; now destruct x. }
      apply receiver_call in Hp; auto. destruct Hp as (A1 & A2 & A3). split; [auto|]. intro p. rewrite Eo, Hs, app_nil_r, A2. apply I2.
  Qed.
  Lemma history_receiver st l st' : inv st -> history S E M st l st' -> Forall (fun e => fst (fst e) = true \/ succeeded e) l ->
    forall p, rslack p (v_r st) + count p (receiver_outputs l) <= rslack p (v_r st').
  Proof.
    intros Hi H. induction H as [|st l st1 s c r st2 Hh IH Hp Hu]; intros HF p; [change (count p (receiver_outputs [])) with 0; lia|].
    apply Forall_app in HF. destruct HF as [HF1 HF2]. inversion HF2 as [|? ? HF3 _]; subst. specialize (IH Hi HF1 p). pose proof (proj1 (history_inv _ _ _ Hi Hh)) as Hi1.
    assert (Eo : receiver_outputs (l ++ [(s, c, r)]) = receiver_outputs l ++ routput r).
    { unfold receiver_outputs. rewrite map_app, concat_app. cbn. now rewrite app_nil_r. }
    rewrite Eo, count_app. destruct s.
    - assert (Hs : routput r = []).
      { destruct c as [b d|n]; cbn in Hp; apply possible_bind in Hp; destruct Hp as ([sa x] & _ & H2); apply possible_ret_inv in H2; injection H2 as -> ->; now destruct x. }
      apply sender_call in Hp; auto. destruct Hp as (A1 & A2 & A3). rewrite Hs, A2. change (count p []) with 0. lia.
    - apply receiver_call in Hp; auto. destruct Hp as (A1 & A2 & A3). destruct HF3 as [HF3|[y HF3]]; [discriminate|]. cbn in HF3. specialize (A3 (ex_intro _ y HF3) p). lia.
  Qed.

  (** C44 *)
  Lemma sender_once st0 l st p : created S M st0 -> history S E M st0 l st ->
    count p (sender_outputs l) + count p (s_used (v_s st)) + count p (pairs (s_cached (v_s st))) +
    count p (pairs (s_vole_seed (v_s st))) + count p (pairs (s_mpfss_seed (v_s st))) <= count p (s_made (v_s st)).
  Proof.
    intros Hc H. pose proof (created_ok _ Hc) as Hi. apply history_inv in H; auto. destruct H as [_ H]. specialize (H p).
    apply created_inv in Hc. destruct Hc as (h & _ & ->). unfold VoleSolo.slack in H at 1. cbn in H.
    change (count p []) with 0 in H. change (count p (pairs _)) with 0 in H. unfold VoleSolo.slack in H. lia.
  Qed.
  Lemma receiver_once st0 l st p : created S M st0 -> history S E M st0 l st -> Forall (fun e => fst (fst e) = true \/ succeeded e) l ->
    count p (receiver_outputs l) + count p (r_used (v_r st)) + count p (rr_w (r_cached (v_r st))) +
    count p (rr_w (r_vole_seed (v_r st))) + count p (rr_w (r_mpfss_seed (v_r st))) <= count p (r_made (v_r st)).
  Proof.
    intros Hc H HF. pose proof (created_ok _ Hc) as Hi. pose proof (history_receiver _ _ _ Hi H HF p) as H'. clear H. rename H' into H.
    apply created_inv in Hc. destruct Hc as (h & _ & ->). unfold VoleSolo.rslack in H at 1. cbn in H. change (count p []) with 0 in H. unfold VoleSolo.rslack in H. lia.
  Qed.

  (** C43 *)
  Lemma keeps_delta_step e st st' : inv st -> history S E M st [e] st' -> keeps_delta e -> r_done (v_r st) = true ->
    r_done (v_r st') = true /\ rdelta S (v_r st') = rdelta S (v_r st).
  Proof.
    intros Hi H Hk Hd. destruct e as [[s c] r]. apply history_one in H. destruct H as [H Hu]. destruct s.
    - apply sender_call in H; auto. destruct H as (_ & H & _). now rewrite H.
    - destruct Hi as [Hb HL]. destruct c as [b o|n].
      + cbn in Hk. assert (st' = st); [|now subst].
        destruct o as [d|]; unfold as_receiver in H; apply possible_bind in H; destruct H as ([st1 x] & H1 & H2); apply possible_ret_inv in H2; injection H2 as -> ->.
        * apply (precompute_receiver_solo S E G M GM) in H1; auto. destruct x as [x|e|w]; [lia|now apply H1|now destruct (Hu w)].
        * apply (precompute_random_solo S E G M GM) in H1; auto. destruct x as [x|e|w]; [lia|now apply H1|now destruct (Hu w)].
      + unfold as_receiver in H. apply possible_bind in H; destruct H as ([st1 x] & H1 & H2); apply possible_ret_inv in H2; injection H2 as -> ->.
        apply (run_receiver_solo S E G M GM) in H1; auto. rewrite Hd in H1. destruct x as [x|e|w]; [| |now destruct (Hu w)].
        * destruct H1 as ((_ & _ & A3 & A4 & _) & _). rewrite A3, A4. auto.
        * destruct H1 as [(_ & _ & A3 & A4)|[? _]]; [|discriminate]. rewrite A3, A4. auto.
  Qed.
  Lemma keeps_delta_all l : forall st st', inv st -> history S E M st l st' -> Forall keeps_delta l -> r_done (v_r st) = true ->
    r_done (v_r st') = true /\ rdelta S (v_r st') = rdelta S (v_r st).
  Proof.
    induction l as [|e l IH] using rev_ind; intros st st' Hi H HF Hd.
    - inversion H as [|? l0 ? ? ? ? ? ? ? ? E0 E1]; subst; [auto|destruct l0; discriminate].
    - apply history_app in H. destruct H as (st1 & H1 & H2). apply Forall_app in HF. destruct HF as [HF1 HF2]. inversion HF2; subst.
      pose proof (proj1 (history_inv _ _ _ Hi H1)) as Hi1. destruct (IH _ _ Hi H1 HF1 Hd) as [A1 A2].
      destruct (keeps_delta_step _ _ _ Hi1 H2 ltac:(assumption) A1) as [B1 B2]. split; congruence.
  Qed.
  Lemma run_delta n w d st st' : inv st -> history S E M st [(false, Run n, Ok (Receiver w d))] st' ->
    r_done (v_r st') = true /\ rdelta S (v_r st') = d /\ (r_done (v_r st) = true -> d = rdelta S (v_r st)).
  Proof.
    intros [Hb HL] H. apply history_one in H. destruct H as [H _]. unfold as_receiver in H. apply possible_bind in H; destruct H as ([st1 x] & H1 & H2).
    apply possible_ret_inv in H2. destruct x as [x|e|w0]; try discriminate. injection H2 as -> -> ->.
    apply (run_receiver_solo S E G M GM) in H1; auto. destruct (r_done (v_r st)) eqn:Hd.
    - destruct H1 as ((_ & _ & A3 & A4 & _) & A5). rewrite A3, A4, A5. auto.
    - destruct H1 as (_ & d0 & a & (_ & _ & _ & B4 & B5 & _) & (_ & _ & A3 & A4 & _) & A5). rewrite A3, A4, A5. split; [auto|]. split; [auto|discriminate].
  Qed.
  Lemma latest_delta st0 l1 b d l2 n w delta st : created S M st0 ->
    history S E M st0 (l1 ++ (false, Precompute b (Some d), Ok Precomputed) :: l2 ++ [(false, Run n, Ok (Receiver w delta))]) st ->
    Forall keeps_delta l2 -> delta = d.
  Proof.
    intros Hc H HF. pose proof (created_ok _ Hc) as Hi. apply history_app in H. destruct H as (st1 & H1 & H).
    change (?x :: ?y) with ([x] ++ y) in H. apply history_app in H. destruct H as (st2 & H2 & H). apply history_app in H. destruct H as (st3 & H3 & H4).
    pose proof (proj1 (history_inv _ _ _ Hi H1)) as Hi1. pose proof (proj1 (history_inv _ _ _ Hi1 H2)) as Hi2. pose proof (proj1 (history_inv _ _ _ Hi2 H3)) as Hi3.
    apply history_one in H2. destruct H2 as [H2 _]. unfold as_receiver in H2. apply possible_bind in H2; destruct H2 as ([sx x] & Ha & Hb).
    apply possible_ret_inv in Hb. destruct x as [x|e|w0]; try discriminate. injection Hb as ->.
    apply (precompute_receiver_solo S E G M GM) in Ha; [|apply Hi1]. destruct Ha as (_ & _ & _ & _ & A4 & A5 & _).
    destruct (keeps_delta_all _ _ _ Hi2 H3 HF A4) as [B1 B2]. apply run_delta in H4; auto. destruct H4 as (_ & _ & H4). rewrite H4 by auto. congruence.
  Qed.
  Lemma same_delta st0 l1 n w d l2 n' w' d' st : created S M st0 ->
    history S E M st0 (l1 ++ (false, Run n, Ok (Receiver w d)) :: l2 ++ [(false, Run n', Ok (Receiver w' d'))]) st ->
    Forall keeps_delta l2 -> d' = d.
  Proof.
    intros Hc H HF. pose proof (created_ok _ Hc) as Hi. apply history_app in H. destruct H as (st1 & H1 & H).
    change (?x :: ?y) with ([x] ++ y) in H. apply history_app in H. destruct H as (st2 & H2 & H). apply history_app in H. destruct H as (st3 & H3 & H4).
    pose proof (proj1 (history_inv _ _ _ Hi H1)) as Hi1. pose proof (proj1 (history_inv _ _ _ Hi1 H2)) as Hi2. pose proof (proj1 (history_inv _ _ _ Hi2 H3)) as Hi3.
    apply run_delta in H2; auto. destruct H2 as (A1 & A2 & _). destruct (keeps_delta_all _ _ _ Hi2 H3 HF A1) as [B1 B2].
    apply run_delta in H4; auto. destruct H4 as (_ & _ & H4). rewrite H4 by auto. congruence.
  Qed.

  (** C47 *)
  Lemma sender_run_step e st st' : inv st -> history S E M st [e] st' -> sender_run e -> s_done (v_s st) = true ->
    s_done (v_s st') = true /\ around S st st' (v_vole_seed_size st) (v_mpfss_seed_size st).
  Proof.
    intros [Hb HL] H (n & r & ->) Hd. apply history_one in H. destruct H as [H Hu]. unfold as_sender in H. apply possible_bind in H; destruct H as ([st1 x] & H1 & H2).
    apply possible_ret_inv in H2; injection H2 as -> ->. apply (run_sender_solo S E G M GM) in H1; auto. rewrite Hd in H1. destruct x as [x|e|w]; [| |now destruct (Hu w)].
    - destruct H1 as (_ & A2 & _ & A4 & _). rewrite A4. auto.
    - destruct H1 as [[(_ & _ & _ & _ & A5) A6]|[? _]]; [|discriminate]. rewrite A5. auto.
  Qed.
  Lemma receiver_run_step e st st' : inv st -> history S E M st [e] st' -> receiver_run e -> r_done (v_r st) = true ->
    r_done (v_r st') = true /\ around S st st' (v_vole_seed_size st) (v_mpfss_seed_size st).
  Proof.
    intros [Hb HL] H (n & r & ->) Hd. apply history_one in H. destruct H as [H Hu]. unfold as_receiver in H. apply possible_bind in H; destruct H as ([st1 x] & H1 & H2).
    apply possible_ret_inv in H2; injection H2 as -> ->. apply (run_receiver_solo S E G M GM) in H1; auto. rewrite Hd in H1. destruct x as [x|e|w]; [| |now destruct (Hu w)].
    - destruct H1 as ((_ & A2 & A3 & _) & _). rewrite A3. auto.
    - destruct H1 as [(A1 & _ & A3 & _)|[? _]]; [|discriminate]. rewrite A3. auto.
  Qed.
  Lemma runs_keep (run : bool * call S * res (answer S) -> Prop) (done : vole S -> bool) :
    (forall e st st', inv st -> history S E M st [e] st' -> run e -> done st = true -> done st' = true /\ around S st st' (v_vole_seed_size st) (v_mpfss_seed_size st)) ->
    forall l st st', inv st -> history S E M st l st' -> Forall run l -> done st = true ->
    done st' = true /\ around S st st' (v_vole_seed_size st) (v_mpfss_seed_size st).
  Proof.
    intro Hstep. induction l as [|e l IH] using rev_ind; intros st st' Hi H HF Hd.
    - inversion H as [|? l0 ? ? ? ? ? ? ? ? E0 E1]; subst; [auto using around_refl|destruct l0; discriminate].
    - apply history_app in H. destruct H as (st1 & H1 & H2). apply Forall_app in HF. destruct HF as [HF1 HF2]. inversion HF2; subst.
      pose proof (proj1 (history_inv _ _ _ Hi H1)) as Hi1. destruct (IH _ _ Hi H1 HF1 Hd) as [A1 A2].
      destruct (Hstep _ _ _ Hi1 H2 ltac:(assumption) A1) as [B1 B2]. split; [auto|]. pose proof A2 as (_ & _ & _ & _ & _ & C6 & C7). rewrite C6, C7 in B2. eapply around_trans; eauto.
  Qed.

  Lemma last_size_pos b i : 1 <= b -> 0 <= i < lv -> 1 <= last_size E b i <= b.
  Proof. intros Hb Hi. pose proof (level_facts S E G i Hi) as (C1 & C2 & C3 & _). unfold last_size. lia. Qed.

  Lemma precomputed_sender st0 l1 e b st : created S M st0 -> history S E M st0 (l1 ++ [e]) st -> precomputes true b l1 e ->
    s_done (v_s st) = true /\ 1 <= v_batch_size st <= b /\ (forall d r, e = (true, Precompute b d, r) -> zlen (sr_u (s_cached (v_s st))) = 0).
  Proof.
    intros Hc H (c & x & -> & Hp). pose proof (created_ok _ Hc) as Hi. apply history_app in H. destruct H as (st1 & H1 & H2).
    pose proof (proj1 (history_inv _ _ _ Hi H1)) as Hi1. apply history_one in H2. destruct H2 as [H2 _]. destruct Hp as [(d & ->)|[-> ->]].
    - unfold as_sender in H2. apply possible_bind in H2; destruct H2 as ([sx y] & Ha & Hb). apply possible_ret_inv in Hb. destruct y as [y|e|w0]; try discriminate. injection Hb as -> ->.
      apply (precompute_sender_solo S E G M GM) in Ha; try apply Hi1. destruct Ha as (A0 & _ & _ & _ & _ & A5 & A6 & i & (Hi' & _) & A7 & _).
      split; [auto|]. rewrite A7. split; [apply last_size_pos; auto|]. auto.
    - inversion H1 as [|? l0 ? ? ? ? ? ? ? ? E0 E1]; subst; [|destruct l0; discriminate].
      unfold as_sender in H2. apply possible_bind in H2; destruct H2 as ([sx y] & Ha & Hb). apply possible_ret_inv in Hb. destruct y as [y|e|w0]; try discriminate. injection Hb as -> ->.
      apply (run_sender_solo S E G M GM) in Ha; try apply Hi. replace (s_done (v_s st1)) with false in Ha by (apply created_inv in Hc; destruct Hc as (h & _ & ->); reflexivity).
      destruct Ha as (A0 & a & (_ & _ & _ & _ & A5 & A6 & i & (Hi' & _) & A7 & _) & (_ & (_ & _ & _ & B4 & _) & _ & B5 & _)).
      split; [congruence|]. rewrite B4, A7. split; [apply last_size_pos; auto|]. discriminate.
  Qed.
  Lemma precomputed_receiver st0 l1 e b st : created S M st0 -> history S E M st0 (l1 ++ [e]) st -> precomputes false b l1 e ->
    r_done (v_r st) = true /\ 1 <= v_batch_size st <= b /\ (forall d r, e = (false, Precompute b d, r) -> zlen (rr_w (r_cached (v_r st))) = 0).
  Proof.
    intros Hc H (c & x & -> & Hp). pose proof (created_ok _ Hc) as Hi. apply history_app in H. destruct H as (st1 & H1 & H2).
    pose proof (proj1 (history_inv _ _ _ Hi H1)) as Hi1. apply history_one in H2. destruct H2 as [H2 _]. destruct Hp as [(d & ->)|[-> ->]].
    - destruct d as [d|]; unfold as_receiver in H2; apply possible_bind in H2; destruct H2 as ([sx y] & Ha & Hb); apply possible_ret_inv in Hb; destruct y as [y|e|w0]; try discriminate; injection Hb as -> ->.
      + apply (precompute_receiver_solo S E G M GM) in Ha; try apply Hi1. destruct Ha as (A0 & _ & _ & _ & A5 & _ & A6 & i & (Hi' & _) & A7 & _).
        split; [auto|]. rewrite A7. split; [apply last_size_pos; auto|]. auto.
      + apply (precompute_random_solo S E G M GM) in Ha; try apply Hi1. destruct Ha as (A0 & d & _ & _ & _ & A5 & _ & A6 & i & (Hi' & _) & A7 & _).
        split; [auto|]. rewrite A7. split; [apply last_size_pos; auto|]. auto.
    - inversion H1 as [|? l0 ? ? ? ? ? ? ? ? E0 E1]; subst; [|destruct l0; discriminate].
      unfold as_receiver in H2. apply possible_bind in H2; destruct H2 as ([sx y] & Ha & Hb). apply possible_ret_inv in Hb. destruct y as [y|e|w0]; try discriminate. injection Hb as -> ->.
      apply (run_receiver_solo S E G M GM) in Ha; try apply Hi. replace (r_done (v_r st1)) with false in Ha by (apply created_inv in Hc; destruct Hc as (h & _ & ->); reflexivity).
      destruct Ha as (A0 & d & a & (_ & _ & _ & A5 & _ & A6 & i & (Hi' & _) & A7 & _) & (_ & (_ & _ & _ & B4 & _) & B5 & _) & _).
      split; [congruence|]. rewrite B4, A7. split; [apply last_size_pos; auto|]. discriminate.
  Qed.

  Lemma sender_expansions st0 l1 e b l2 st n u v st' : created S M st0 -> history S E M st0 (l1 ++ e :: l2) st -> precomputes true b l1 e -> Forall sender_run l2 ->
    possible (as_sender S E M (Run n) st) (st', Ok (Sender u v)) ->
    let k := expansions n (zlen (sr_u (s_cached (v_s st)))) (v_batch_size st) in
    1 <= v_batch_size st <= b /\ v_batch_size st' = v_batch_size st /\ zlen u = n /\ zlen v = n /\
    zlen (s_made (v_s st')) = zlen (s_made (v_s st)) + k * (v_batch_size st + v_vole_seed_size st + v_mpfss_seed_size st) /\
    zlen (sr_u (s_cached (v_s st'))) = zlen (sr_u (s_cached (v_s st))) + k * v_batch_size st - n.
  Proof.
    intros Hc H Hp HF Hr k. pose proof (created_ok _ Hc) as Hi. change (e :: l2) with ([e] ++ l2) in H. rewrite app_assoc in H. apply history_app in H. destruct H as (st1 & H1 & H2).
    pose proof (proj1 (history_inv _ _ _ Hi H1)) as Hi1. pose proof (proj1 (history_inv _ _ _ Hi1 H2)) as Hi2.
    destruct (precomputed_sender _ _ _ _ _ Hc H1 Hp) as (A1 & A2 & _).
    destruct (runs_keep sender_run (fun a => s_done (v_s a)) sender_run_step l2 st1 st Hi1 H2 HF A1) as [B1 (_ & _ & _ & B2 & _)].
    unfold as_sender in Hr. apply possible_bind in Hr. destruct Hr as ([sx x] & Ha & Hb). apply possible_ret_inv in Hb. destruct x as [x|e0|w0]; try discriminate. injection Hb as -> -> ->.
    apply (run_sender_solo S E G M GM) in Ha; try apply Hi2. rewrite B1 in Ha. destruct Ha as (_ & (_ & _ & _ & C4 & _) & _ & _ & C5 & C6 & _ & k' & Hk & C8 & _ & C9 & C10 & _).
    change (zlen (@nil S)) with 0 in *. rewrite Z.sub_0_r in *. rewrite B2. specialize (C8 ltac:(lia)). fold k in C8. subst k'. rewrite B2 in *. auto 10.
  Qed.
  Lemma receiver_expansions st0 l1 e b l2 st n w d st' : created S M st0 -> history S E M st0 (l1 ++ e :: l2) st -> precomputes false b l1 e -> Forall receiver_run l2 ->
    possible (as_receiver S E M (Run n) st) (st', Ok (Receiver w d)) ->
    let k := expansions n (zlen (rr_w (r_cached (v_r st)))) (v_batch_size st) in
    1 <= v_batch_size st <= b /\ v_batch_size st' = v_batch_size st /\ zlen w = n /\
    zlen (r_made (v_r st')) = zlen (r_made (v_r st)) + k * (v_batch_size st + v_vole_seed_size st + v_mpfss_seed_size st) /\
    zlen (rr_w (r_cached (v_r st'))) = zlen (rr_w (r_cached (v_r st))) + k * v_batch_size st - n.
  Proof.
    intros Hc H Hp HF Hr k. pose proof (created_ok _ Hc) as Hi. change (e :: l2) with ([e] ++ l2) in H. rewrite app_assoc in H. apply history_app in H. destruct H as (st1 & H1 & H2).
    pose proof (proj1 (history_inv _ _ _ Hi H1)) as Hi1. pose proof (proj1 (history_inv _ _ _ Hi1 H2)) as Hi2.
    destruct (precomputed_receiver _ _ _ _ _ Hc H1 Hp) as (A1 & A2 & _).
    destruct (runs_keep receiver_run (fun a => r_done (v_r a)) receiver_run_step l2 st1 st Hi1 H2 HF A1) as [B1 (_ & _ & _ & B2 & _)].
    unfold as_receiver in Hr. apply possible_bind in Hr. destruct Hr as ([sx x] & Ha & Hb). apply possible_ret_inv in Hb. destruct x as [x|e0|w0]; try discriminate. injection Hb as -> -> ->.
    apply (run_receiver_solo S E G M GM) in Ha; try apply Hi2. rewrite B1 in Ha. destruct Ha as ((_ & (_ & _ & _ & C4 & _) & _ & _ & C5 & _ & k' & Hk & C8 & C9 & C10) & _).
    change (zlen (@nil S)) with 0 in *. rewrite Z.sub_0_r in *. rewrite B2. specialize (C8 ltac:(lia)). fold k in C8. subst k'. rewrite B2 in *. auto 10.
  Qed.

  (** C49 *)
  Lemma shrink_0 {A} (l : list A) : shrink 0 l = l.
  Proof. unfold shrink, zlen. rewrite firstn_all2; [reflexivity|lia]. Qed.
  Lemma tail_0 {A} (l : list A) : tail 0 l = [].
  Proof. unfold tail, zlen. apply skipn_all2. lia. Qed.
  Lemma set_same_s st : set_s S (set_s_cached S (SenderResult (sr_u (s_cached (v_s st))) (sr_v (s_cached (v_s st)))) (v_s st)) st = st.
  Proof. destruct st as [? ? ? ? ? ? ? [[? ?] ? ? ? ? ?] ?]. reflexivity. Qed.
  Lemma set_same_r st : set_r S (set_r_cached S (ReceiverResult (rr_w (r_cached (v_r st))) (rr_delta (r_cached (v_r st)))) (v_r st)) st = st.
  Proof. destruct st as [? ? ? ? ? ? ? ? [[? ?] ? ? ? ? ?]]. reflexivity. Qed.

  Lemma run_sender_0 st : s_done (v_s st) = true -> run_sender S E M 0 st = Ret (st, Ok (SenderResult [] [])).
  Proof.
    intro Hd. unfold run_sender. rewrite bind_get, Hd. rewrite bind_ret. rewrite get_sender_ok by (pose proof (zlen_nonneg (sr_u (s_cached (v_s st)))); lia).
    cbn [pbind]. now rewrite !shrink_0, !tail_0, set_same_s.
  Qed.
  Lemma run_receiver_0 st : r_done (v_r st) = true -> run_receiver S E M 0 st = Ret (st, Ok (ReceiverResult [] (rr_delta (r_cached (v_r st))))).
  Proof.
    intro Hd. unfold run_receiver. rewrite bind_get, Hd. rewrite bind_ret. rewrite get_receiver_ok by (pose proof (zlen_nonneg (rr_w (r_cached (v_r st)))); lia).
    cbn [pbind]. now rewrite !shrink_0, !tail_0, set_same_r.
  Qed.
  Lemma run_sender_neg n st : n < 0 -> s_done (v_s st) = true -> run_sender S E M n st = Ret (st, UB "Eigen: negative size").
  Proof.
    intros Hn Hd. unfold run_sender. rewrite bind_get, Hd. rewrite bind_ret. unfold get_sender_cached. pose proof (zlen_nonneg (sr_u (s_cached (v_s st)))).
    replace (_ <? n) with false by lia. now replace (n <? 0) with true by lia.
  Qed.
  Lemma run_receiver_neg n st : n < 0 -> r_done (v_r st) = true -> run_receiver S E M n st = Ret (st, UB "Eigen: negative size").
  Proof.
    intros Hn Hd. unfold run_receiver. rewrite bind_get, Hd. rewrite bind_ret. unfold get_receiver_cached. pose proof (zlen_nonneg (rr_w (r_cached (v_r st)))).
    replace (_ <? n) with false by lia. now replace (n <? 0) with true by lia.
  Qed.

  Definition bad_batch : status := invalid_argument "`batch_size` must be positive".
  Lemma batch_sender b d st : b < 1 -> as_sender S E M (Precompute b d) st = Ret (st, Err bad_batch).
  Proof. intro H. unfold as_sender, precompute_sender. now replace (b <? 1) with true by lia. Qed.
  Lemma batch_receiver b d st : b < 1 -> as_receiver S E M (Precompute b (Some d)) st = Ret (st, Err bad_batch).
  Proof. intro H. unfold as_receiver, precompute_receiver. now replace (b <? 1) with true by lia. Qed.
  Lemma batch_random b st : b < 1 -> as_receiver S E M (Precompute b None) st = Rand (fun _ _ => Ret (st, Err bad_batch)).
  Proof. intro H. unfold as_receiver, precompute_receiver_random, precompute_receiver. now replace (b <? 1) with true by lia. Qed.
  Lemma size_sender n st : n < 1 -> s_done (v_s st) = false -> as_sender S E M (Run n) st = Ret (st, Err bad_batch).
  Proof. intros H Hd. unfold as_sender, run_sender. rewrite bind_get, Hd. unfold precompute_sender. now replace (n <? 1) with true by lia. Qed.
  Lemma size_receiver n st : n < 1 -> r_done (v_r st) = false -> as_receiver S E M (Run n) st = Rand (fun _ _ => Ret (st, Err bad_batch)).
  Proof. intros H Hd. unfold as_receiver, run_receiver. rewrite bind_get, Hd. unfold precompute_receiver_random, precompute_receiver. now replace (n <? 1) with true by lia. Qed.
  Lemma zero_sender st : s_done (v_s st) = true -> as_sender S E M (Run 0) st = Ret (st, Ok (Sender [] [])).
  Proof. intro H. unfold as_sender. now rewrite run_sender_0. Qed.
  Lemma zero_receiver st : r_done (v_r st) = true -> as_receiver S E M (Run 0) st = Ret (st, Ok (Receiver [] (rr_delta (r_cached (v_r st))))).
  Proof. intro H. unfold as_receiver. now rewrite run_receiver_0. Qed.
  Lemma negative_sender n st : n < 0 -> s_done (v_s st) = true -> as_sender S E M (Run n) st = Ret (st, UB "Eigen: negative size").
  Proof. intros Hn H. unfold as_sender. now rewrite run_sender_neg. Qed.
  Lemma negative_receiver n st : n < 0 -> r_done (v_r st) = true -> as_receiver S E M (Run n) st = Ret (st, UB "Eigen: negative size").
  Proof. intros Hn H. unfold as_receiver. now rewrite run_receiver_neg. Qed.

  Lemma refused_batch b st : b < 1 ->
    let refused := Ret (st, Err (invalid_argument "`batch_size` must be positive")) in
    (forall d, as_sender S E M (Precompute b d) st = refused) /\
    (forall d, as_receiver S E M (Precompute b (Some d)) st = refused) /\
    as_receiver S E M (Precompute b None) st = Rand (fun _ _ => refused).
  Proof. clear G GM. intros H refused. split; [intro; now apply batch_sender|]. split; [intro; now apply batch_receiver|now apply batch_random]. Qed.
  Lemma refused_size n st : n < 1 ->
    let refused := Ret (st, Err (invalid_argument "`batch_size` must be positive")) in
    (s_done (v_s st) = false -> as_sender S E M (Run n) st = refused) /\
    (r_done (v_r st) = false -> as_receiver S E M (Run n) st = Rand (fun _ _ => refused)).
  Proof. clear G GM. intros H refused. split; intro; [now apply size_sender|now apply size_receiver]. Qed.
  Lemma size_zero st :
    (s_done (v_s st) = true -> as_sender S E M (Run 0) st = Ret (st, Ok (Sender [] []))) /\
    (r_done (v_r st) = true -> as_receiver S E M (Run 0) st = Ret (st, Ok (Receiver [] (rr_delta (r_cached (v_r st)))))).
  Proof. clear G GM. split; intro; [now apply zero_sender|now apply zero_receiver]. Qed.
  Lemma size_negative n st : n < 0 ->
    (s_done (v_s st) = true -> as_sender S E M (Run n) st = Ret (st, UB "Eigen: negative size")) /\
    (r_done (v_r st) = true -> as_receiver S E M (Run n) st = Ret (st, UB "Eigen: negative size")).
  Proof. clear G GM. split; intro; [now apply negative_sender|now apply negative_receiver]. Qed.

  (** C50 *)
  Lemma done_step e st st' : inv st -> history S E M st [e] st' -> s_done (v_s st) = true -> s_done (v_s st') = true.
  Proof.
    intros Hi H Hd. destruct e as [[s c] r]. apply history_one in H. destruct H as [H Hu]. destruct s.
    - destruct Hi as [Hb HL]. destruct c as [b o|n]; unfold as_sender in H; apply possible_bind in H; destruct H as ([st1 x] & H1 & H2); apply possible_ret_inv in H2; injection H2 as -> ->.
      + apply (precompute_sender_solo S E G M GM) in H1; auto. destruct x as [x|e|w]; [apply H1| |now destruct (Hu w)]. destruct H1 as ((_ & _ & _ & _ & ->) & _). exact Hd.
      + apply (run_sender_solo S E G M GM) in H1; auto. rewrite Hd in H1. destruct x as [x|e|w]; [| |now destruct (Hu w)].
        * destruct H1 as (_ & _ & _ & -> & _). exact Hd.
        * destruct H1 as [[(_ & _ & _ & _ & ->) _]|[? _]]; [exact Hd|discriminate].
    - apply receiver_call in H; auto. destruct H as (_ & -> & _). exact Hd.
  Qed.
  Lemma done_all l : forall st st', inv st -> history S E M st l st' -> s_done (v_s st) = true -> s_done (v_s st') = true.
  Proof.
    induction l as [|e l IH] using rev_ind; intros st st' Hi H Hd.
    - inversion H as [|? l0 ? ? ? ? ? ? ? ? E0 E1]; subst; [auto|destruct l0; discriminate].
    - apply history_app in H. destruct H as (st1 & H1 & H2). pose proof (proj1 (history_inv _ _ _ Hi H1)) as Hi1. eapply done_step; eauto.
  Qed.
  Lemma zero_generator st0 l1 b0 d0 l2 b d e st n u v st' : scalar_laws S -> created S M st0 ->
    history S E M st0 (l1 ++ (true, Precompute b0 d0, Ok Precomputed) :: l2 ++ [(true, Precompute b d, Err e)]) st -> 1 <= b ->
    possible (as_sender S E M (Run n) st) (st', Ok (Sender u v)) ->
    n = 0 \/ (1 <= v_batch_size st /\ Forall (fun column => column = []) (v_columns st) /\
      forall nonzero, nonzero (s_zero S) = false -> count nonzero u <= expansions n 0 (v_batch_size st) * Z.max 0 (v_num_noise st)).
  Proof.
    intros L Hc H Hb Hr. pose proof (created_ok _ Hc) as Hi. apply history_app in H. destruct H as (st1 & H1 & H).
    change (?x :: ?y) with ([x] ++ y) in H. apply history_app in H. destruct H as (st2 & H2 & H). apply history_app in H. destruct H as (st3 & H3 & H4).
    pose proof (proj1 (history_inv _ _ _ Hi H1)) as Hi1. pose proof (proj1 (history_inv _ _ _ Hi1 H2)) as Hi2. pose proof (proj1 (history_inv _ _ _ Hi2 H3)) as Hi3.
    pose proof (proj1 (history_inv _ _ _ Hi3 H4)) as Hi4.
    apply history_one in H2. destruct H2 as [H2 _]. unfold as_sender in H2. apply possible_bind in H2; destruct H2 as ([sx x] & Ha & Hx).
    apply possible_ret_inv in Hx. destruct x as [x|e0|w0]; try discriminate. injection Hx as ->.
    apply (precompute_sender_solo S E G M GM) in Ha; try apply Hi1. destruct Ha as (_ & _ & _ & _ & _ & Hd2 & _).
    pose proof (done_all _ _ _ Hi2 H3 Hd2) as Hd3. pose proof (done_step _ _ _ Hi3 H4 Hd3) as Hd4.
    apply history_one in H4. destruct H4 as [H4 _]. unfold as_sender in H4. apply possible_bind in H4; destruct H4 as ([sx' x'] & Ha & Hx).
    apply possible_ret_inv in Hx. destruct x' as [x'|e0|w0]; try discriminate. injection Hx as -> ->.
    apply (precompute_sender_solo S E G M GM) in Ha; try apply Hi3. destruct Ha as (_ & _ & Ha). specialize (Ha Hb). destruct Ha as [Hst Hc4].
    unfold as_sender in Hr. apply possible_bind in Hr. destruct Hr as ([sy y] & Hr & Hx). apply possible_ret_inv in Hx. destruct y as [y|e1|w0]; try discriminate. injection Hx as -> -> ->.
    apply (run_sender_solo S E G M GM) in Hr; try apply Hi4. rewrite Hd4 in Hr. destruct Hr as (_ & _ & _ & _ & R5 & _ & _ & k & Hk & R8 & Rk & _ & R10 & R11).
    change (zlen (@nil S)) with 0 in *. rewrite Z.sub_0_r in *. rewrite Hc4 in *. pose proof (zlen_nonneg (sr_u (s_cached (v_s sy)))). pose proof (zlen_nonneg (sr_u y)).
    destruct Hst as [Hst|[Hbt [m Hm]]].
    - destruct Rk as [->|Rk]; [|contradiction]. left. lia.
    - right. split; [auto|]. split.
      + rewrite Hm. unfold zrepeat. induction (Z.to_nat m); constructor; auto.
      + intros z Hz. specialize (R11 L z m Hz Hm). rewrite <- R8 by auto. change (count z []) with 0 in R11.
        assert (count z (sr_u (s_cached (v_s sx'))) = 0).
        { destruct (sr_u (s_cached (v_s sx'))) as [|q qs]; [reflexivity|]. rewrite zlen_cons in Hc4. pose proof (zlen_nonneg qs). lia. }
        pose proof (count_nonneg z (sr_u (s_cached (v_s sy)))). lia.
  Qed.
End History.
