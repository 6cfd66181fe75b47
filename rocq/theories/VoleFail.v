(** Proofs about failed calls of one Vector-OLE generator, and about calls that
    are served from its cache. *)
From Verif Require Import Base BaseFacts ListFacts ScalarModel ScalarSpec ProcModel ProcSpec RotModel SpfssModel
  GilboaModel GilboaSpec RngModel CuckooModel CuckooSpec MpfssModel MpfssSpec MpfssProofs MpfssFinal VoleModel VoleSpec VoleMeet VolePair VoleSolo VoleHistory.
From Coq Require Import QArith Permutation.
Local Open Scope Z_scope.

Section Fail.
  Variable S : scalar.
  Variable E : setting.
  Hypothesis G : good_setting S E.
  Variable M : machine S.
  Hypothesis GM : good_machine S M.
  Notation base := (base S E).
  Notation slens := (slens S).
  Notation inv := (inv S E).

  Definition wrong_dimensions : status := internal_error "Code generator has the wrong dimensions".

  (** ** Cached elements *)
  Lemma cached_sender n st : s_done (v_s st) = true -> 0 <= n <= zlen (sr_u (s_cached (v_s st))) ->
    let c := s_cached (v_s st) in
    as_sender S E M (Run n) st =
      Ret (set_s S (set_s_cached S (SenderResult (shrink n (sr_u c)) (shrink n (sr_v c))) (v_s st)) st, Ok (Sender (tail n (sr_u c)) (tail n (sr_v c)))).
  Proof.
    intros Hd Hn c. unfold as_sender, run_sender. rewrite bind_get, Hd. unfold mbind, mret. cbn [pbind]. rewrite get_sender_ok by auto. reflexivity.
  Qed.
  Lemma cached_receiver n st : r_done (v_r st) = true -> 0 <= n <= zlen (rr_w (r_cached (v_r st))) ->
    let c := r_cached (v_r st) in
    as_receiver S E M (Run n) st =
      Ret (set_r S (set_r_cached S (ReceiverResult (shrink n (rr_w c)) (rr_delta c)) (v_r st)) st, Ok (Receiver (tail n (rr_w c)) (rr_delta c))).
  Proof.
    intros Hd Hn c. unfold as_receiver, run_receiver. rewrite bind_get, Hd. unfold mbind, mret. cbn [pbind]. rewrite get_receiver_ok by auto. reflexivity.
  Qed.

  (** ** A failed Run of the receiver *)
  Definition junk (k : Z) : list S := map (c_junk M) (zrange 0 k).
  Definition room (st : vole S) : Z := v_batch_size st + v_vole_seed_size st + v_mpfss_seed_size st.
  Lemma expand_receiver_fails out nvs nms st : 0 <= nvs -> 0 <= nms -> nvs + nms <= out ->
    triple S (expand_receiver S E M out nvs nms st)
      (fun st' r => match r with Err e => e = wrong_dimensions /\ st' = st \/ rr_w (r_cached (v_r st')) = rr_w (r_cached (v_r st)) ++ junk out | _ => True end).
  Proof.
    intros H1 H2 H3. unfold expand_receiver. rewrite !bind_get. cbv zeta.
    destruct (negb (_ =? _) || _) eqn:D2; [apply t_ret; left; split; reflexivity|].
    apply orb_false_iff in D2. destruct D2 as [D2 D3]. apply negb_false_iff in D2, D3. rewrite bind_set. apply t_bind.
    intros st1 r Hp. unfold mmpfss in Hp. apply possible_bind in Hp. destruct Hp as ([m x] & Hp & Hr). apply possible_ret_inv in Hr. injection Hr as -> ->.
    apply value_solo in Hp. destruct Hp as [Hm Hx]. rewrite zlen_zrepeat in Hx by lia.
    destruct x as [v1|e|w]; [|right; reflexivity|auto]. specialize (Hx v1 eq_refl). rewrite bind_set.
    set (cols := v_columns st) in *. set (seed := r_vole_seed (v_r st)) in *.
    set (w := vec_add S (encode S cols (rr_w seed)) v1).
    assert (Lw : zlen w = out) by (unfold w; rewrite zlen_vec_add; rewrite zlen_encode; lia).
    pose proof (zlen_nonneg (rr_w (r_cached (v_r st)))).
    erewrite bind_ok; [|apply new_receiver_ok; auto; cbn; rewrite zlen_app; lia]. rewrite bind_set. unfold mset. apply t_ret. exact I.
  Qed.

  Definition lost_r (st st' : vole S) e : Prop :=
    e = wrong_dimensions /\ rr_w (r_cached (v_r st')) = [] \/ rr_w (r_cached (v_r st')) = junk (room st).
  Lemma t_and {A} (m : proc S (vole S * res A)) Q Q' : triple S m Q -> triple S m Q' -> triple S m (fun st r => Q st r /\ Q' st r).
  Proof. intros H1 H2 st r H. split; [apply H1|apply H2]; exact H. Qed.
  Lemma run_receiver_loop_fails rounds size d : forall w st, base st -> zlen w <= size ->
    triple S (run_receiver_loop S E M rounds size w d st) (fun st' r => match r with Err e => lost_r st st' e | _ => True end).
  Proof.
    induction rounds as [|rounds IH]; intros w st Hb Hsz.
    all: destruct (Z.le_gt_cases size (zlen w)) as [Hle|Hgt].
    1, 3: rewrite run_receiver_loop_done by auto; apply t_ret; exact I.
    { cbn [run_receiver_loop]. replace (size <=? zlen w) with false by lia. apply t_ret. exact I. }
    rewrite run_receiver_loop_more by auto. set (c := r_cached (v_r st)). pose proof (zlen_nonneg (rr_w c)) as Hc.
    destruct (Z.leb_spec (zlen w + zlen (rr_w c)) size) as [Hfit|Hfit].
    - erewrite bind_ok; [|rewrite bind_set; reflexivity]. set (st1 := set_r S _ st).
      destruct (Z.ltb_spec (zlen (w ++ rr_w c)) size) as [Hmore|Hend].
      + apply t_bind. apply expand_solo; [|auto]. pose proof Hb as (Hb1 & (Hb2 & Hb3 & Hb4) & Hb5).
        eapply t_weaken; [apply t_and; [apply (expand_receiver_solo S E M); cbn; lia|apply expand_receiver_fails; cbn; lia]|].
        intros st2 [x|e|w0]; [| |auto].
        * intros [(m & nw & Hm & Lc & Lm & Hst2) _].
          assert (Har : around S st st2 (v_vole_seed_size st) (v_mpfss_seed_size st)) by (rewrite Hst2; unfold around; cbn; auto 10).
          assert (Hb' : base st2) by (apply (around_base S E st); [exact Hb|exact Har]).
          replace (room st) with (room st2) by (rewrite Hst2; reflexivity).
          eapply t_weaken; [apply (IH (w ++ rr_w c) st2 Hb'); lia|]. intros st3 [y|e|w0]; auto. unfold lost_r. destruct Har as (_ & _ & _ & A4 & _ & A6 & A7).
          unfold room. rewrite A4, A6, A7. auto.
        * intros [_ [(-> & ->)|Hj]]; [left; split; reflexivity|right; exact Hj].
      + rewrite run_receiver_loop_done by auto. apply t_ret. exact I.
    - erewrite bind_ok; [|apply get_receiver_ok; fold c; lia]. fold c. set (n := size - zlen w). cbn [rr_w].
      assert (Lt : zlen (tail n (rr_w c)) = n) by (apply zlen_tail; lia).
      assert (Hu1 : zlen (w ++ tail n (rr_w c)) = size) by (rewrite zlen_app; lia).
      rewrite Hu1. rewrite Z.ltb_irrefl. rewrite run_receiver_loop_done by lia. apply t_ret. exact I.
  Qed.

  Lemma run_receiver_fails n st st' e : base st -> r_done (v_r st) = true -> possible (as_receiver S E M (Run n) st) (st', Err e) -> lost_r st st' e.
  Proof.
    intros Hb Hd H. unfold as_receiver, run_receiver in H. rewrite bind_get, Hd in H. unfold mbind, mret in H. cbn [pbind] in H.
    apply possible_bind in H. destruct H as ([st1 x] & H & H2). apply possible_ret_inv in H2. injection H2 as -> H2. destruct x as [x|e'|w]; try discriminate. injection H2 as <-.
    apply possible_bind in H. destruct H as ([st2 x] & H1 & H). apply get_receiver_solo in H1. destruct x as [x|e'|w].
    - apply possible_ret_inv in H. discriminate.
    - destruct H1 as [Hn ->]. apply run_receiver_loop_fails in H; auto. change (zlen (@nil S)) with 0. pose proof (zlen_nonneg (rr_w (r_cached (v_r st)))). lia.
    - apply possible_ret_inv in H. discriminate.
  Qed.

  (** ** A failed Run of the sender *)
  Lemma run_sender_loop_fails rounds size : forall u v st, base st -> slens (v_s st) -> zlen u <= size -> zlen u = zlen v ->
    triple S (run_sender_loop S E M rounds size u v st) (fun st' r => match r with Err e => s_cached (v_s st') = SenderResult [] [] | _ => True end).
  Proof.
    induction rounds as [|rounds IH]; intros u v st Hb HL Hsz Luv.
    all: destruct (Z.le_gt_cases size (zlen u)) as [Hle|Hgt].
    1, 3: rewrite run_sender_loop_done by auto; apply t_ret; exact I.
    { cbn [run_sender_loop]. replace (size <=? zlen u) with false by lia. apply t_ret. exact I. }
    rewrite run_sender_loop_more by auto. set (c := s_cached (v_s st)). pose proof (zlen_nonneg (sr_u c)) as Hc.
    pose proof HL as (HL1 & HL2 & HL3). fold c in HL1.
    destruct (Z.leb_spec (zlen u + zlen (sr_u c)) size) as [Hfit|Hfit].
    - erewrite bind_ok; [|rewrite bind_set; reflexivity]. set (st1 := set_s S _ st).
      assert (Hu1 : zlen (u ++ sr_u c) = zlen u + zlen (sr_u c)) by apply zlen_app. assert (Hv1 : zlen (v ++ sr_v c) = zlen (u ++ sr_u c)) by (rewrite !zlen_app; lia).
      assert (Hst1 : slens (v_s st1)) by (cbn; unfold VoleSolo.slens; cbn; auto).
      destruct (Z.ltb_spec (zlen (u ++ sr_u c)) size) as [Hmore|Hend].
      + apply t_bind. apply expand_solo; [|auto]. pose proof Hb as (Hb1 & (Hb2 & Hb3 & Hb4) & Hb5).
        eapply t_weaken; [apply expand_sender_solo; auto; cbn; lia|]. cbn [st1 set_s v_batch_size v_vole_seed_size v_mpfss_seed_size].
        intros st2 [x|e|w]; [| |auto].
        * intros (m & mu & v1 & Hm & Lc & Lm & Lv1 & Cm & Hst2).
          set (nu := vec_add S _ mu) in *. assert (Lu1 : zlen nu = room st) by (unfold nu, room; rewrite zlen_vec_add; rewrite zlen_encode; cbn in *; lia).
          assert (Har : around S st st2 (v_vole_seed_size st) (v_mpfss_seed_size st)) by (rewrite Hst2; unfold around; cbn; auto 10).
          assert (HL2' : slens (v_s st2)) by (rewrite Hst2; apply made_lens; auto; unfold room in *; lia).
          assert (Hb' : base st2) by (apply (around_base S E st); [exact Hb|exact Har]).
          apply IH; auto; lia.
        * intros (m & Hm & ->). reflexivity.
      + rewrite run_sender_loop_done by auto. apply t_ret. exact I.
    - erewrite bind_ok; [|apply get_sender_ok; fold c; lia]. fold c. set (n := size - zlen u). cbn [sr_u sr_v].
      assert (Lt : zlen (tail n (sr_u c)) = n) by (apply zlen_tail; lia).
      assert (Hu1 : zlen (u ++ tail n (sr_u c)) = size) by (rewrite zlen_app; lia).
      rewrite Hu1. rewrite Z.ltb_irrefl. rewrite run_sender_loop_done by lia. apply t_ret. exact I.
  Qed.

  Lemma run_sender_fails n st st' e : base st -> slens (v_s st) -> s_done (v_s st) = true -> possible (as_sender S E M (Run n) st) (st', Err e) ->
    s_cached (v_s st') = SenderResult [] [].
  Proof.
    intros Hb HL Hd H. unfold as_sender, run_sender in H. rewrite bind_get, Hd in H. unfold mbind, mret in H. cbn [pbind] in H.
    apply possible_bind in H. destruct H as ([st1 x] & H & H2). apply possible_ret_inv in H2. injection H2 as -> H2. destruct x as [x|e'|w]; try discriminate. injection H2 as <-.
    apply possible_bind in H. destruct H as ([st2 x] & H1 & H). apply get_sender_solo in H1. destruct x as [x|e'|w].
    - apply possible_ret_inv in H. discriminate.
    - destruct H1 as [Hn ->]. apply run_sender_loop_fails in H; auto. change (zlen (@nil S)) with 0. pose proof (zlen_nonneg (sr_u (s_cached (v_s st)))). lia.
    - apply possible_ret_inv in H. discriminate.
  Qed.

  (** ** After a history *)
  Lemma rdone_step e st st' : inv st -> history S E M st [e] st' -> r_done (v_r st) = true -> r_done (v_r st') = true.
  Proof.
    intros Hi H Hd. destruct e as [[s c] r]. apply history_one in H. destruct H as [H Hu]. destruct s.
    - apply (sender_call S E G M GM) in H; auto. destruct H as (_ & -> & _). exact Hd.
    - destruct Hi as [Hb HL]. destruct c as [b [d|]|n]; unfold as_receiver in H; apply possible_bind in H; destruct H as ([st1 x] & H1 & H2); apply possible_ret_inv in H2; injection H2 as -> ->.
      + apply (precompute_receiver_solo S E G M GM) in H1; auto. destruct x as [x|e|w]; [|destruct H1 as ((_ & _ & ->) & _); exact Hd|now destruct (Hu w)]. destruct H1 as (_ & _ & _ & _ & -> & _). reflexivity.
      + apply (precompute_random_solo S E G M GM) in H1; auto. destruct x as [x|e|w]; [|destruct H1 as ((_ & _ & ->) & _); exact Hd|now destruct (Hu w)]. destruct H1 as (_ & d & _ & _ & _ & -> & _). reflexivity.
      + apply (run_receiver_solo S E G M GM) in H1; auto. rewrite Hd in H1. destruct x as [x|e|w]; [| |now destruct (Hu w)].
        * destruct H1 as ((_ & _ & -> & _) & _). exact Hd.
        * destruct H1 as [(_ & _ & -> & _)|[? _]]; [exact Hd|discriminate].
  Qed.
  Lemma rdone_all l : forall st st', inv st -> history S E M st l st' -> r_done (v_r st) = true -> r_done (v_r st') = true.
  Proof.
    induction l as [|e l IH] using rev_ind; intros st st' Hi H Hd.
    - inversion H as [|? l0 ? ? ? ? ? ? ? ? E0 E1]; subst; [auto|destruct l0; discriminate].
    - apply history_app in H. destruct H as (st1 & H1 & H2). pose proof (proj1 (history_inv _ _ G _ GM _ _ _ Hi H1)) as Hi1. eapply rdone_step; eauto.
  Qed.
  Lemma precompute_done st b d st1 : inv st -> history S E M st [(false, Precompute b d, Ok Precomputed)] st1 -> r_done (v_r st1) = true.
  Proof.
    intros [Hb HL] H. apply history_one in H. destruct H as [H Hu]. destruct d as [d|]; unfold as_receiver in H; apply possible_bind in H; destruct H as ([st2 x] & H1 & H2); apply possible_ret_inv in H2; injection H2 as -> H2;
      destruct x as [x|e|w]; try discriminate.
    - apply (precompute_receiver_solo S E G M GM) in H1; auto. destruct H1 as (_ & _ & _ & _ & -> & _). reflexivity.
    - apply (precompute_random_solo S E G M GM) in H1; auto. destruct H1 as (_ & d & _ & _ & _ & -> & _). reflexivity.
  Qed.

  Lemma failed_receiver st0 l1 b d l2 n e st : created S M st0 ->
    history S E M st0 (l1 ++ (false, Precompute b d, Ok Precomputed) :: l2 ++ [(false, Run n, Err e)]) st ->
    e = wrong_dimensions /\ rr_w (r_cached (v_r st)) = [] \/
    let k := v_batch_size st + v_vole_seed_size st + v_mpfss_seed_size st in
    rr_w (r_cached (v_r st)) = map (c_junk M) (zrange 0 k) /\
    forall n', 0 <= n' <= k -> exists st',
      as_receiver S E M (Run n') st = Ret (st', Ok (Receiver (map (c_junk M) (zrange (k - n') k)) (rr_delta (r_cached (v_r st))))).
  Proof.
    intros Hc H. apply history_app in H. destruct H as (s1 & H1 & H). change (?a :: l2 ++ ?b) with ([a] ++ l2 ++ b) in H.
    apply history_app in H. destruct H as (s2 & H2 & H). apply history_app in H. destruct H as (s3 & H3 & H).
    pose proof (created_ok S E M st0 Hc) as I0. pose proof (proj1 (history_inv _ _ G _ GM _ _ _ I0 H1)) as I1.
    pose proof (proj1 (history_inv _ _ G _ GM _ _ _ I1 H2)) as I2. pose proof (proj1 (history_inv _ _ G _ GM _ _ _ I2 H3)) as I3. pose proof (proj1 (history_inv _ _ G _ GM _ _ _ I3 H)) as I4.
    pose proof (precompute_done _ _ _ _ I1 H2) as D2. pose proof (rdone_all _ _ _ I2 H3 D2) as D3. pose proof (rdone_step _ _ _ I3 H D3) as D4.
    apply history_one in H. destruct H as [H _]. pose proof H as H'. apply run_receiver_fails in H; [|apply I3|exact D3].
    assert (HR : room s3 = room st).
    { unfold as_receiver in H'. apply possible_bind in H'. destruct H' as ([st1 x] & H5 & H6). apply possible_ret_inv in H6. injection H6 as -> H6. destruct x as [x|e'|w]; try discriminate.
      apply (run_receiver_solo S E G M GM) in H5; [|apply I3]. destruct H5 as [((_ & _ & _ & A4 & _ & A6 & A7) & _)|(A & _)]; [unfold room; now rewrite A4, A6, A7|congruence]. }
    destruct H as [H|H]; [left; exact H|right]. cbv zeta. fold (room st). rewrite HR in H. split; [exact H|]. intros n' Hn.
    assert (Hr : 0 <= room st) by lia.
    assert (LJ : zlen (junk (room st)) = room st) by (unfold junk; rewrite zlen_map, zlen_zrange; lia).
    eexists. rewrite cached_receiver; [|exact D4|rewrite H, LJ; exact Hn]. rewrite H. do 4 f_equal.
    unfold tail. rewrite LJ. unfold junk. rewrite (zrange_app 0 (room st - n')) by lia. rewrite map_app, skipn_app.
    assert (LZ : List.length (zrange 0 (room st - n')) = Z.to_nat (room st - n')).
    { pose proof (zlen_zrange 0 (room st - n') ltac:(lia)) as L. unfold zlen in L. lia. }
    rewrite skipn_all2 by (rewrite map_length; lia). rewrite map_length, LZ, Nat.sub_diag. reflexivity.
  Qed.

  Lemma failed_sender st0 l1 b d l2 n e st : created S M st0 ->
    history S E M st0 (l1 ++ (true, Precompute b d, Ok Precomputed) :: l2 ++ [(true, Run n, Err e)]) st ->
    sr_u (s_cached (v_s st)) = [] /\ sr_v (s_cached (v_s st)) = [].
  Proof.
    intros Hc H. apply history_app in H. destruct H as (s1 & H1 & H). change (?a :: l2 ++ ?b) with ([a] ++ l2 ++ b) in H.
    apply history_app in H. destruct H as (s2 & H2 & H). apply history_app in H. destruct H as (s3 & H3 & H).
    pose proof (created_ok S E M st0 Hc) as I0. pose proof (proj1 (history_inv _ _ G _ GM _ _ _ I0 H1)) as I1.
    pose proof (proj1 (history_inv _ _ G _ GM _ _ _ I1 H2)) as I2. pose proof (proj1 (history_inv _ _ G _ GM _ _ _ I2 H3)) as I3.
    assert (D2 : s_done (v_s s2) = true).
    { apply history_one in H2. destruct H2 as [H2 Hu]. unfold as_sender in H2. apply possible_bind in H2. destruct H2 as ([st2 x] & H4 & H5). apply possible_ret_inv in H5. injection H5 as -> H5.
      destruct x as [x|e'|w]; try discriminate. apply (precompute_sender_solo S E G M GM) in H4; [|apply I1|apply I1]. apply H4. }
    pose proof (done_all S E G M GM _ _ _ I2 H3 D2) as D3.
    apply history_one in H. destruct H as [H _]. apply run_sender_fails in H; [|apply I3|apply I3|exact D3]. now rewrite H.
  Qed.

  (** ** A code generator that does not fit *)
  Lemma expand_err (step : Z -> Z -> Z -> member S unit) st e : - 2^63 <= room st < 2^63 ->
    step (room st) (v_vole_seed_size st) (v_mpfss_seed_size st) st = Ret (st, Err e) -> expand S step st = Ret (st, Err e).
  Proof.
    intros Ho H. unfold expand.
    assert (Hf : full_output S st = Ret (st, Ok (room st))).
    { unfold full_output. rewrite !bind_get. unfold mcalc, int64_result, room in *. now replace (_ && _) with true by lia. }
    rewrite (bind_ok S _ _ st st _ Hf). rewrite !bind_get. exact H.
  Qed.
  Lemma bind_err {A B} (p : member S A) (f : A -> member S B) st st' e : p st = Ret (st', Err e) -> mbind p f st = Ret (st', Err e).
  Proof. intro H. unfold mbind. now rewrite H. Qed.
  Lemma misfit_sender n st : s_done (v_s st) = true -> zlen (sr_u (s_cached (v_s st))) < n ->
    zlen (sr_u (s_vole_seed (v_s st))) = zlen (sr_v (s_vole_seed (v_s st))) -> v_rows st <> zlen (sr_u (s_vole_seed (v_s st))) ->
    - 2^63 <= room st < 2^63 ->
    exists st', as_sender S E M (Run n) st = Ret (st', Err wrong_dimensions).
  Proof.
    intros Hd Hn Hl Hr Ho. pose proof (zlen_nonneg (sr_u (s_cached (v_s st)))).
    eexists. unfold as_sender, run_sender. rewrite bind_get, Hd. unfold mbind at 1, mret. cbn [pbind].
    unfold get_sender_cached. replace (_ <? n) with true by lia. cbn [pbind].
    replace (Z.to_nat n + 1)%nat with (Datatypes.S (Z.to_nat n)) by lia. rewrite run_sender_loop_more by (change (zlen (@nil S)) with 0; lia).
    change (zlen (@nil S)) with 0. replace (0 + _ <=? n) with true by lia. erewrite bind_ok; [|rewrite bind_set; reflexivity]. cbn [app].
    replace (zlen (sr_u _) <? n) with true by lia. 
    erewrite bind_err; [|apply expand_err; [exact Ho|]; unfold expand_sender; rewrite !bind_get; cbn [set_s v_s set_s_cached s_vole_seed v_rows];
      rewrite Hl, Z.eqb_refl; cbn [negb]; replace (v_rows st =? _) with false by lia; reflexivity].
    reflexivity.
  Qed.
  Lemma misfit_receiver n st : r_done (v_r st) = true -> zlen (rr_w (r_cached (v_r st))) < n -> v_rows st <> zlen (rr_w (r_vole_seed (v_r st))) ->
    - 2^63 <= room st < 2^63 ->
    exists st', as_receiver S E M (Run n) st = Ret (st', Err wrong_dimensions).
  Proof.
    intros Hd Hn Hr Ho. pose proof (zlen_nonneg (rr_w (r_cached (v_r st)))).
    eexists. unfold as_receiver, run_receiver. rewrite bind_get, Hd. unfold mbind at 1, mret. cbn [pbind].
    unfold get_receiver_cached. replace (_ <? n) with true by lia. cbn [pbind].
    replace (Z.to_nat n + 1)%nat with (Datatypes.S (Z.to_nat n)) by lia. rewrite run_receiver_loop_more by (change (zlen (@nil S)) with 0; lia).
    change (zlen (@nil S)) with 0. replace (0 + _ <=? n) with true by lia. erewrite bind_ok; [|rewrite bind_set; reflexivity]. cbn [app].
    replace (zlen (rr_w _) <? n) with true by lia. 
    erewrite bind_err; [|apply expand_err; [exact Ho|]; unfold expand_receiver; rewrite !bind_get; cbn [set_r v_r set_r_cached r_vole_seed v_rows];
      replace (v_rows st =? _) with false by lia; reflexivity].
    reflexivity.
  Qed.
  Lemma misfit n st : - 2^63 <= v_batch_size st + v_vole_seed_size st + v_mpfss_seed_size st < 2^63 ->
    let failed := Err wrong_dimensions in
    (s_done (v_s st) = true -> zlen (sr_u (s_cached (v_s st))) < n ->
     zlen (sr_u (s_vole_seed (v_s st))) = zlen (sr_v (s_vole_seed (v_s st))) -> v_rows st <> zlen (sr_u (s_vole_seed (v_s st))) ->
     exists st', as_sender S E M (Run n) st = Ret (st', failed)) /\
    (r_done (v_r st) = true -> zlen (rr_w (r_cached (v_r st))) < n -> v_rows st <> zlen (rr_w (r_vole_seed (v_r st))) ->
     exists st', as_receiver S E M (Run n) st = Ret (st', failed)).
  Proof. intros Ho failed. split; intros; [apply misfit_sender|apply misfit_receiver]; auto. Qed.

  Lemma split_tail {A} n (l : list A) : 0 <= n <= zlen l -> l = shrink n l ++ tail n l /\ zlen (tail n l) = n.
  Proof. intro Hn. split; [|apply zlen_tail; lia]. unfold shrink, tail. symmetry. apply firstn_skipn. Qed.
  Lemma from_cache n st :
    (forall u v, s_cached (v_s st) = SenderResult u v -> s_done (v_s st) = true -> 0 <= n <= zlen u -> zlen u = zlen v ->
     exists u' v' u'' v'' st', u = u' ++ u'' /\ v = v' ++ v'' /\ zlen u'' = n /\ zlen v'' = n /\
       as_sender S E M (Run n) st = Ret (st', Ok (Sender u'' v'')) /\
       st' = set_s S (set_s_cached S (SenderResult u' v') (v_s st)) st) /\
    (forall w d, r_cached (v_r st) = ReceiverResult w d -> r_done (v_r st) = true -> 0 <= n <= zlen w ->
     exists w' w'' st', w = w' ++ w'' /\ zlen w'' = n /\
       as_receiver S E M (Run n) st = Ret (st', Ok (Receiver w'' d)) /\
       st' = set_r S (set_r_cached S (ReceiverResult w' d) (v_r st)) st).
  Proof.
    split.
    - intros u v Hc Hd Hn Hl. destruct (split_tail n u Hn) as [U1 U2]. destruct (split_tail n v ltac:(lia)) as [V1 V2].
      exists (shrink n u), (shrink n v), (tail n u), (tail n v). eexists. split; [exact U1|]. split; [exact V1|]. split; [exact U2|]. split; [exact V2|].
      split; [|reflexivity]. rewrite cached_sender by (rewrite ?Hc; auto). cbv zeta. rewrite Hc. reflexivity.
    - intros w d Hc Hd Hn. destruct (split_tail n w Hn) as [W1 W2]. exists (shrink n w), (tail n w). eexists. split; [exact W1|]. split; [exact W2|].
      split; [|reflexivity]. rewrite cached_receiver by (rewrite ?Hc; auto). cbv zeta. rewrite Hc. reflexivity.
  Qed.
End Fail.
