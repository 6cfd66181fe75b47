(** Proofs about objects that precompute in both roles (C61). *)
From Verif Require Import Base BaseFacts ListFacts ScalarModel ScalarSpec ProcModel GgmModel RotModel RotSpec SpfssModel PackModel GilboaModel GilboaSpec
  RngModel CuckooModel CuckooSpec MpfssModel MpfssSpec MpfssProofs MpfssFinal VoleModel VoleSpec VoleProofs VoleMeet VolePair VoleSolo VoleHistory VoleUse VoleFail PatternSpec PatternProofs CostSpec CostProofs.
From Coq Require Import QArith.
Local Open Scope Z_scope.

Section Roles.
  Variable S : scalar.
  Variable E : setting.
  Hypothesis G : good_setting S E.
  Variable M : machine S.
  Hypothesis GM : good_machine S M.
  Hypothesis Hsize : 1 <= s_size S.

  (** ** Seeds have the size of their level *)
  Definition svlen (st : vole S) : Z := zlen (sr_u (s_vole_seed (v_s st))).
  Definition rvlen (st : vole S) : Z := zlen (rr_w (r_vole_seed (v_r st))).
  Section Keep.
    Variable R : vole S -> Prop.
    Definition kr {A} (m : member S A) : Prop := forall st st' a, R st -> possible (m st) (st', Ok a) -> R st'.
    Lemma kr_bind {A B} (m : member S A) (f : A -> member S B) : kr m -> (forall a, kr (f a)) -> kr (mbind m f).
    Proof. intros Hm Hf st st' r HR H. apply ok_bind in H. destruct H as (st1 & a & H1 & H). apply Hm in H1; auto. exact (Hf _ _ _ _ H1 H). Qed.
    Lemma kr_get {A} (f : vole S -> A) : kr (mget f).
    Proof. intros st st' r HR H. apply possible_ret_inv in H. injection H as -> ->. exact HR. Qed.
    Lemma kr_calc {A} (m : res A) : kr (mcalc m).
    Proof. intros st st' r HR H. apply possible_ret_inv in H. injection H as -> _. exact HR. Qed.
    Lemma kr_fail {A} e : kr (mfail e : member S A). Proof. apply (kr_calc (Err e)). Qed.
    Lemma kr_tt {A} (a : A) : kr (mret a : member S A). Proof. apply (kr_calc (Ok a)). Qed.
    Lemma kr_set f : (forall st, R st -> R (f st)) -> kr (mset f : member S unit).
    Proof. intros Hf st st' r HR H. apply possible_ret_inv in H. injection H as -> _. auto. Qed.
    Lemma kr_proc {A} (p : proc S (res A)) : kr (mproc p).
    Proof. intros st st' r HR H. unfold mproc in H. apply possible_bind in H. destruct H as (x & _ & H). apply possible_ret_inv in H. injection H as -> _. exact HR. Qed.
    Hypothesis Hm : forall m st, R st -> R (set_mpfss S m st).
    Lemma kr_mpfss {A} (p : mpfss -> proc S (mpfss * res A)) : kr (mmpfss p).
    Proof. intros st st' r HR H. unfold mmpfss in H. apply possible_bind in H. destruct H as ([m x] & _ & H). apply possible_ret_inv in H. injection H as -> _. now apply Hm. Qed.
    Lemma kr_buckets out n : kr (m_update_buckets S E M out n).
    Proof. intros st st' r HR H. unfold m_update_buckets in H. destruct (update_buckets _ _ _ _ _ _ _ _) as [m x]. apply possible_ret_inv in H. injection H as -> _. now apply Hm. Qed.
    Lemma kr_num n : kr (m_num_buckets S E n).
    Proof. intros st st' r HR H. apply possible_ret_inv in H. injection H as -> _. exact HR. Qed.
  End Keep.
  Definition Rs (st : vole S) : Prop := svlen st = v_vole_seed_size st.
  Definition Rr (st : vole S) : Prop := rvlen st = v_vole_seed_size st.
  Lemma new_sender_seeds_keep vs ms st st' r : possible (new_sender_seeds S vs ms st) (st', r) ->
    v_vole_seed_size st' = v_vole_seed_size st /\ match r with Ok _ => svlen st' = vs | _ => True end.
  Proof.
    unfold new_sender_seeds, mbind at 1. intro H. unfold get_sender_cached at 1 in H. set (c := s_cached (v_s st)) in *.
    destruct (Z.ltb_spec (zlen (sr_u c)) vs) as [Hv|Hv]; [cbn [pbind] in H; apply possible_ret_inv in H; injection H as -> ->; auto|].
    destruct (Z.ltb_spec vs 0) as [Hv0|Hv0]; [cbn [pbind] in H; apply possible_ret_inv in H; injection H as -> ->; auto|]. cbn [pbind] in H. rewrite bind_set in H.
    unfold mbind at 1, get_sender_cached in H. cbn [v_s set_s s_cached set_s_cached set_s_vole_seed sr_u sr_v] in H.
    destruct (Z.ltb_spec (zlen (shrink vs (sr_u c))) ms) as [Hm|Hm]; [cbn [pbind] in H; apply possible_ret_inv in H; injection H as -> ->; auto|].
    destruct (Z.ltb_spec ms 0) as [Hm0|Hm0]; [cbn [pbind] in H; apply possible_ret_inv in H; injection H as -> ->; auto|]. cbn [pbind] in H.
    unfold mset in H. apply possible_ret_inv in H. injection H as -> ->. cbn. split; [reflexivity|]. apply zlen_tail. lia.
  Qed.
  Lemma new_receiver_seeds_keep vs ms st st' r : possible (new_receiver_seeds S vs ms st) (st', r) ->
    v_vole_seed_size st' = v_vole_seed_size st /\ match r with Ok _ => rvlen st' = vs | _ => True end.
  Proof.
    unfold new_receiver_seeds, mbind at 1. intro H. unfold get_receiver_cached at 1 in H. set (c := r_cached (v_r st)) in *.
    destruct (Z.ltb_spec (zlen (rr_w c)) vs) as [Hv|Hv]; [cbn [pbind] in H; apply possible_ret_inv in H; injection H as -> ->; auto|].
    destruct (Z.ltb_spec vs 0) as [Hv0|Hv0]; [cbn [pbind] in H; apply possible_ret_inv in H; injection H as -> ->; auto|]. cbn [pbind] in H. rewrite bind_set in H.
    unfold mbind at 1, get_receiver_cached in H. cbn [v_r set_r r_cached set_r_cached set_r_vole_seed rr_w rr_delta] in H.
    destruct (Z.ltb_spec (zlen (shrink vs (rr_w c))) ms) as [Hm|Hm]; [cbn [pbind] in H; apply possible_ret_inv in H; injection H as -> ->; auto|].
    destruct (Z.ltb_spec ms 0) as [Hm0|Hm0]; [cbn [pbind] in H; apply possible_ret_inv in H; injection H as -> ->; auto|]. cbn [pbind] in H.
    unfold mset in H. apply possible_ret_inv in H. injection H as -> ->. cbn. split; [reflexivity|]. apply zlen_tail. lia.
  Qed.
  Lemma kr_sender_tail vs ms : kr Rs (mbind (new_sender_seeds S vs ms) (fun _ => mbind (mset (set_vole_seed_size S vs)) (fun _ => mset (set_mpfss_seed_size S ms)))).
  Proof.
    intros st st' r HR H. apply ok_bind in H. destruct H as (st1 & x & H1 & H). apply new_sender_seeds_keep in H1. destruct H1 as [H1 H2]. unfold Rs in *.
    rewrite bind_set in H. unfold mset in H. apply possible_ret_inv in H. injection H as -> ->. exact H2.
  Qed.
  Lemma kr_receiver_tail vs ms : kr Rr (mbind (new_receiver_seeds S vs ms) (fun _ => mbind (mset (set_vole_seed_size S vs)) (fun _ => mset (set_mpfss_seed_size S ms)))).
  Proof.
    intros st st' r HR H. apply ok_bind in H. destruct H as (st1 & x & H1 & H). apply new_receiver_seeds_keep in H1. destruct H1 as [H1 H2]. unfold Rr in *.
    rewrite bind_set in H. unfold mset in H. apply possible_ret_inv in H. injection H as -> ->. exact H2.
  Qed.
  Ltac kept := repeat (match goal with
    | |- kr _ (mbind (new_sender_seeds _ _ _) _) => apply kr_sender_tail
    | |- kr _ (mbind (new_receiver_seeds _ _ _) _) => apply kr_receiver_tail
    | |- kr _ (mbind _ _) => apply kr_bind; [|intro]
    | |- kr _ (mget _) => apply kr_get
    | |- kr _ (mcalc _) => apply kr_calc
    | |- kr _ (mfail _) => apply kr_fail
    | |- kr _ (mret _) => apply kr_tt
    | |- kr _ (mproc _) => apply kr_proc
    | |- kr _ (mmpfss _) => apply kr_mpfss; solve [intros ? ? HR; exact HR]
    | |- kr _ (m_update_buckets _ _ _ _ _) => apply kr_buckets; solve [auto | intros ? ? HR; exact HR]
    | |- kr _ (m_num_buckets _ _ _) => apply kr_num
    | |- kr _ (mset _) => apply kr_set; solve [intros ? HR; exact HR | auto]
    | |- kr _ (if ?b then _ else _) => destruct b
    end; cbv zeta).
  Lemma kr_expand_sender a b c : kr Rs (expand_sender S E M a b c).
  Proof. unfold expand_sender. kept. Qed.
  Lemma kr_expand_receiver a b c : kr Rr (expand_receiver S E M a b c).
  Proof. unfold expand_receiver. kept. Qed.
  Definition blind (R : vole S -> Prop) : Prop :=
    (forall m st, R st -> R (set_mpfss S m st)) /\ (forall a b st, R st -> R (set_generator S a b st)) /\
    (forall n st, R st -> R (set_num_noise S n st)) /\ (forall n st, R st -> R (set_batch_size S n st)).
  Lemma kr_common R out : blind R -> kr R (precompute_common S E M out).
  Proof. intros (B1 & B2 & B3 & B4). unfold precompute_common. kept. Qed.
  Lemma kr_bootstrap R step b l : blind R -> (forall x y z, kr R (step x y z)) -> kr R (bootstrap S E M step b l).
  Proof. intros HB Hs. pose proof HB as (B1 & B2 & B3 & B4). induction l as [|i l IH]; cbn [bootstrap]; [apply kr_tt|]. kept; first [exact IH | now apply kr_common | apply Hs]. Qed.
  Lemma kr_last R b : blind R -> kr R (precompute_last S E M b).
  Proof. intros HB. pose proof HB as (B1 & B2 & B3 & B4). unfold precompute_last, full_output. kept. now apply kr_common. Qed.
  Lemma Rs_blind : blind Rs. Proof. repeat split; intros; assumption. Qed.
  Lemma Rr_blind : blind Rr. Proof. repeat split; intros; assumption. Qed.
  Lemma sender_seeded b st st' x : possible (precompute_sender S E M b st) (st', Ok x) -> Rs st'.
  Proof.
    unfold precompute_sender. intro H. destruct (b <? 1); [apply possible_ret_inv in H; discriminate|].
    apply ok_bind in H. destruct H as (st1 & size & _ & H). apply ok_bind in H. destruct H as (st2 & [] & _ & H). rewrite !bind_get in H.
    apply ok_bind in H. destruct H as (st3 & [] & H1 & H). apply new_sender_seeds_keep in H1. destruct H1 as [H1 H2].
    assert (K : Rs st3) by (unfold Rs; congruence).
    apply ok_bind in H. destruct H as (st4 & [] & H3 & H). apply (kr_bootstrap Rs _ _ _ Rs_blind kr_expand_sender _ _ _ K) in H3.
    apply ok_bind in H. destruct H as (st5 & [] & H4 & H). apply (kr_last Rs _ Rs_blind _ _ _ H3) in H4. apply possible_ret_inv in H. injection H as -> _. exact H4.
  Qed.
  Lemma receiver_seeded b d st st' x : possible (precompute_receiver S E M b d st) (st', Ok x) -> Rr st'.
  Proof.
    unfold precompute_receiver. intro H. destruct (b <? 1); [apply possible_ret_inv in H; discriminate|].
    apply ok_bind in H. destruct H as (st1 & size & _ & H). apply ok_bind in H. destruct H as (st2 & [] & _ & H). rewrite !bind_get in H.
    apply ok_bind in H. destruct H as (st3 & [] & H1 & H). apply new_receiver_seeds_keep in H1. destruct H1 as [H1 H2].
    assert (K : Rr st3) by (unfold Rr; congruence).
    apply ok_bind in H. destruct H as (st4 & [] & H3 & H). apply (kr_bootstrap Rr _ _ _ Rr_blind kr_expand_receiver _ _ _ K) in H3.
    apply ok_bind in H. destruct H as (st5 & [] & H4 & H). apply (kr_last Rr _ Rr_blind _ _ _ H3) in H4. apply possible_ret_inv in H. injection H as -> _. exact H4.
  Qed.
  Lemma random_seeded b st st' x : possible (precompute_receiver_random S E M b st) (st', Ok x) -> Rr st'.
  Proof. unfold precompute_receiver_random. intro H. apply ok_bind in H. destruct H as (st1 & d & _ & H). eapply receiver_seeded. exact H. Qed.

  (** ** Histories *)
  Lemma sender_ready st0 l b d x st : created S M st0 -> history S E M st0 (l ++ [(true, Precompute b d, Ok x)]) st ->
    exists j, final_level E b j /\ s_done (v_s st) = true /\ zlen (sr_u (s_cached (v_s st))) = 0 /\ svlen st = level_seed E j /\ v_rows st = level_seed E j /\
      zlen (sr_u (s_vole_seed (v_s st))) = zlen (sr_v (s_vole_seed (v_s st))) /\ - 2^63 <= v_batch_size st + v_vole_seed_size st + v_mpfss_seed_size st < 2^63.
  Proof.
    intros Hc H. assert (Hp : precomputes true b l (true, @Precompute S b d, Ok x)) by (exists (Precompute b d), x; split; [reflexivity|left; eauto]).
    destruct (sender_at S E G M GM Hsize _ _ _ _ _ Hc H Hp) as (Hb & j & Hj). destruct (precomputed_sender S E G M GM _ _ _ _ _ Hc H Hp) as (A1 & _ & A3).
    specialize (A3 _ _ eq_refl). pose proof (at_fits S E G b j st Hb Hj) as Hfit. destruct Hj as (Hf & Hl & _).
    pose proof (created_ok S E M _ Hc) as Hi. pose proof (proj1 (history_inv S E G M GM _ _ _ Hi H)) as ((_ & (Z1 & Z2 & Z3) & _) & _ & HL & _).
    apply history_app in H. destruct H as (st1 & H1 & H2). pose proof (proj1 (history_inv S E G M GM _ _ _ Hi H1)) as Hi1. apply history_one in H2. destruct H2 as [H2 _].
    unfold as_sender in H2. apply possible_bind in H2; destruct H2 as ([sx y] & Ha & Hb'). apply possible_ret_inv in Hb'. destruct y as [y|e|w0]; try discriminate. injection Hb' as -> ->.
    pose proof (sender_seeded _ _ _ _ Ha) as HR. apply (precompute_sender_solo S E G M GM) in Ha; try apply Hi1. destruct Ha as (_ & _ & _ & _ & _ & _ & _ & i & (_ & B1 & _) & _ & B2 & _).
    destruct Hl as (_ & C1 & _). unfold Rs in HR. destruct Hfit as (_ & D1 & D2). pose proof (top_small S E G).
    exists j. split; [exact Hf|]. split; [exact A1|]. split; [exact A3|]. split; [unfold level_seed; lia|]. split; [unfold level_seed; lia|]. split; [exact HL|]. lia.
  Qed.
  Lemma receiver_ready st0 l b d x st : created S M st0 -> history S E M st0 (l ++ [(false, Precompute b d, Ok x)]) st ->
    exists j, final_level E b j /\ r_done (v_r st) = true /\ zlen (rr_w (r_cached (v_r st))) = 0 /\ rvlen st = level_seed E j /\ v_rows st = level_seed E j /\
      - 2^63 <= v_batch_size st + v_vole_seed_size st + v_mpfss_seed_size st < 2^63.
  Proof.
    intros Hc H. assert (Hp : precomputes false b l (false, @Precompute S b d, Ok x)) by (exists (Precompute b d), x; split; [reflexivity|left; eauto]).
    destruct (receiver_at S E G M GM Hsize _ _ _ _ _ Hc H Hp) as (Hb & j & Hj). destruct (precomputed_receiver S E G M GM _ _ _ _ _ Hc H Hp) as (A1 & _ & A3).
    specialize (A3 _ _ eq_refl). pose proof (at_fits S E G b j st Hb Hj) as Hfit. destruct Hj as (Hf & Hl & _).
    pose proof (created_ok S E M _ Hc) as Hi. pose proof (proj1 (history_inv S E G M GM _ _ _ Hi H)) as ((_ & (Z1 & Z2 & Z3) & _) & _).
    apply history_app in H. destruct H as (st1 & H1 & H2). pose proof (proj1 (history_inv S E G M GM _ _ _ Hi H1)) as Hi1. apply history_one in H2. destruct H2 as [H2 _].
    assert (HK : Rr st /\ v_rows st = v_vole_seed_size st).
    { destruct d as [d|]; unfold as_receiver in H2; apply possible_bind in H2; destruct H2 as ([sx y] & Ha & Hb'); apply possible_ret_inv in Hb'; destruct y as [y|e|w0]; try discriminate; injection Hb' as -> ->.
      - split; [exact (receiver_seeded _ _ _ _ _ Ha)|]. apply (precompute_receiver_solo S E G M GM) in Ha; try apply Hi1. destruct Ha as (_ & _ & _ & _ & _ & _ & _ & i & (_ & B1 & _) & _ & B2 & _). congruence.
      - split; [exact (random_seeded _ _ _ _ Ha)|]. apply (precompute_random_solo S E G M GM) in Ha; try apply Hi1. destruct Ha as (_ & d & _ & _ & _ & _ & _ & _ & i & (_ & B1 & _) & _ & B2 & _). congruence. }
    destruct HK as [HR HV]. destruct Hl as (_ & C1 & _). unfold Rr in HR. destruct Hfit as (_ & D1 & D2). pose proof (top_small S E G).
    exists j. split; [exact Hf|]. split; [exact A1|]. split; [exact A3|]. split; [unfold level_seed; lia|]. split; [unfold level_seed; lia|]. lia.
  Qed.
  Lemma receiver_calls_keep st l st' : inv S E st -> history S E M st l st' -> Forall (fun e => fst (fst e) = false) l -> v_s st' = v_s st.
  Proof.
    intros Hi H. induction H as [|st l st1 s c r st2 Hh IH Hp Hu]; intro HF; [reflexivity|]. apply Forall_app in HF. destruct HF as [HF1 HF2]. inversion HF2; subst. cbn in *. subst s.
    pose proof (proj1 (history_inv S E G M GM _ _ _ Hi Hh)) as Hi1. apply (receiver_call S E G M GM) in Hp; auto. destruct Hp as (_ & Hp & _). rewrite Hp. auto.
  Qed.
  Lemma sender_calls_keep st l st' : inv S E st -> history S E M st l st' -> Forall (fun e => fst (fst e) = true) l -> v_r st' = v_r st.
  Proof.
    intros Hi H. induction H as [|st l st1 s c r st2 Hh IH Hp Hu]; intro HF; [reflexivity|]. apply Forall_app in HF. destruct HF as [HF1 HF2]. inversion HF2; subst. cbn in *. subst s.
    pose proof (proj1 (history_inv S E G M GM _ _ _ Hi Hh)) as Hi1. apply (sender_call S E G M GM) in Hp; auto. destruct Hp as (_ & Hp & _). rewrite Hp. auto.
  Qed.

  Lemma both_roles_fail sends st0 l1 b1 d1 x1 l2 b2 d2 x2 st n : created S M st0 ->
    history S E M st0 (l1 ++ (sends, Precompute b1 d1, Ok x1) :: l2 ++ [(negb sends, Precompute b2 d2, Ok x2)]) st ->
    Forall (fun e => fst (fst e) = negb sends) l2 ->
    (forall i j, final_level E b1 i -> final_level E b2 j -> level_seed E i <> level_seed E j) -> 1 <= n ->
    exists st', (if sends then as_sender S E M (Run n) st else as_receiver S E M (Run n) st) = Ret (st', Err (internal_error "Code generator has the wrong dimensions")).
  Proof.
    intros Hc H HF Hd Hn. pose proof (created_ok S E M _ Hc) as Hi. pose proof H as H'.
    change ((sends, Precompute b1 d1, Ok x1) :: l2 ++ [(negb sends, Precompute b2 d2, Ok x2)]) with ([(sends, @Precompute S b1 d1, Ok x1)] ++ (l2 ++ [(negb sends, @Precompute S b2 d2, Ok x2)])) in H.
    rewrite app_assoc in H. apply history_app in H. destruct H as (st1 & H1 & H2). pose proof (proj1 (history_inv S E G M GM _ _ _ Hi H1)) as Hi1.
    replace (l1 ++ (sends, Precompute b1 d1, Ok x1) :: l2 ++ [(negb sends, Precompute b2 d2, Ok x2)]) with ((l1 ++ (sends, Precompute b1 d1, Ok x1) :: l2) ++ [(negb sends, @Precompute S b2 d2, Ok x2)]) in H' by (rewrite <- app_assoc; reflexivity).
    assert (HF' : Forall (fun e => fst (fst e) = negb sends) (l2 ++ [(negb sends, @Precompute S b2 d2, Ok x2)])) by (apply Forall_app; split; auto).
    destruct sends; cbn [negb] in *.
    - destruct (sender_ready _ _ _ _ _ _ Hc H1) as (i & A1 & A2 & A3 & A4 & _ & A6 & _). destruct (receiver_ready _ _ _ _ _ _ Hc H') as (j & B1 & _ & _ & _ & B5 & B6).
      apply receiver_calls_keep in H2; auto. unfold svlen in *. apply (misfit S E M n st B6); rewrite ?H2; auto; [lia|]. rewrite A4, B5. intro Heq. exact (Hd i j A1 B1 (eq_sym Heq)).
    - destruct (receiver_ready _ _ _ _ _ _ Hc H1) as (i & A1 & A2 & A3 & A4 & _). destruct (sender_ready _ _ _ _ _ _ Hc H') as (j & B1 & _ & _ & _ & B5 & _ & B6).
      apply sender_calls_keep in H2; auto. unfold rvlen in *. apply (misfit S E M n st B6); rewrite ?H2; auto; [lia|]. rewrite A4, B5. intro Heq. exact (Hd i j A1 B1 (eq_sym Heq)).
  Qed.
End Roles.
