(** Precomputation and the first expansion in two worlds with different secrets
    of the sender. *)
From Verif Require Import Base BaseFacts ListFacts ScalarModel ScalarSpec ScalarProofs SumFacts PackModel
  ProcModel ProcSpec ProcProofs MeetProofs RotModel RotSpec RotProofs RotFinal SpfssModel SpfssProofs
  GilboaModel GilboaSpec GilboaProofs GilboaFinal RngModel RngUsable RngProofs CuckooModel CuckooSpec CuckooProofs CuckooFinal
  MpfssModel MpfssSpec MpfssProofs MpfssFinal VoleModel VoleSpec VoleProofs VoleMeet VolePair
  HideSpec HideRun HideFinal HideMpfss DeltaSpec DeltaRun DeltaSteps SecretRun SecretGilboa SecretSteps.
From Coq Require Import QArith Permutation.
Local Open Scope Z_scope.

Lemma tail_app {A} (l1 l2 : list A) n : zlen l2 = n -> tail n (l1 ++ l2) = l2.
Proof. intros <-. unfold tail. rewrite zlen_app. replace (Z.to_nat _) with (List.length l1) by (unfold zlen; lia). rewrite skipn_app, skipn_all, Nat.sub_diag. reflexivity. Qed.
Lemma shrink_app {A} (l1 l2 : list A) n : zlen l2 = n -> shrink n (l1 ++ l2) = l1.
Proof. intros <-. unfold shrink. rewrite zlen_app. replace (Z.to_nat _) with (List.length l1) by (unfold zlen; lia). rewrite firstn_app, firstn_all, Nat.sub_diag. cbn. apply app_nil_r. Qed.
Lemma tail_all {A} (l : list A) n : zlen l = n -> tail n l = l.
Proof. exact (tail_app [] l n). Qed.
Lemma zlen_0 {A} (l : list A) : zlen l = 0 -> l = [].
Proof. destruct l; [reflexivity|]. unfold zlen. cbn [List.length]. lia. Qed.

Section Play.
  Variable S : scalar.
  Hypothesis L : scalar_laws S.
  Variable E : setting.
  Variables MS MR : machine S.
  Hypothesis G : good_setting S E.
  Hypothesis GA : good_machine S MS.
  Hypothesis GB : good_machine S MR.
  Hypothesis HC : connected MS MR.
  Hypothesis Hsec : secure S E.
  Variable seed : N.
  Notation par := (e_parameters E).
  Notation aes := (e_aes E).
  Notation clog := (e_clog E).
  Notation too := (e_too_many_bits E).
  Notation e3 := (e_expansion3 E).
  Notation e2 := (e_expansion2 E).
  Notation coh := (coherent aes too e3 e2 (Hasher seed 3)).
  Notation lv := (zlen (p_seed_size par)).
  Notation top := (last (p_output_size par) 0).
  Notation sd i := (znth 0 (p_seed_size par) i).
  Notation no i := (znth 0 (p_num_noise par) i).
  Notation zn := (znth (s_zero S)).
  Implicit Types a b : vole S.
  Notation KM := (KM S).

  Notation alt := (alt S).
  Notation alt_ok := (alt_ok S E MS seed).
  Notation masking := (masking S E MS seed).

  (** Both parties are ready for their first expansion. *)
  Definition prepared d batch a b : Prop := same S E seed a b /\ level S E a 0 /\ v_rows a = sd 0 /\ v_batch_size a = batch /\ zlen (v_columns a) = batch + sd 0 + e3 (no 0) /\
    holds S E d 0 (v_s a) (v_r b) /\ s_done (v_s a) = true /\ r_done (v_r b) = true /\ zlen (rr_w (r_cached (v_r b))) = 0.
  Definition room batch : Prop := batch + sd 0 + e3 (no 0) <= top /\ batch + sd 0 + e3 (no 0) <= znth 0 (p_output_size par) 0.

  Lemma boot_0 (M : machine S) step batch (c : vole S) : 1 <= batch -> room batch -> v_vole_seed_size c = sd 0 -> v_mpfss_seed_size c = e3 (no 0) ->
    bootstrap S E M step batch (levels E) c = Ret (c, Ok tt).
  Proof.
    intros Hb [H1 H2] E1 E2. pose proof (gs_levels S E G) as Hlv. pose proof (gs_outputs S E G). pose proof (top_small S E G) as Htop.
    pose proof (level_facts S E G 0 ltac:(lia)) as (K1 & K2 & _). unfold levels.
    destruct (Z.eq_dec lv 1) as [Eq|Ne]; [rewrite Eq, zrange_nil by lia; reflexivity|].
    rewrite zrange_cons by lia. cbn [bootstrap]. rewrite (bind_calc S _ (znth 0 (p_output_size par) 0) _ c) by (apply zget_ok; lia). rewrite !bind_get, E1, E2.
    rewrite (bind_calc S _ (batch + e3 (no 0) + sd 0) _ c) by (apply int64_small; lia). replace (batch + e3 (no 0) + sd 0 <=? _) with true by lia. reflexivity.
  Qed.
  Lemma last_0 (M : machine S) batch (c : vole S) : 1 <= batch -> room batch -> v_vole_seed_size c = sd 0 -> v_mpfss_seed_size c = e3 (no 0) ->
    precompute_last S E M batch c = precompute_common S E M (batch + sd 0 + e3 (no 0)) (set_batch_size S batch c).
  Proof.
    intros Hb [H1 H2] E1 E2. pose proof (gs_outputs S E G). pose proof (gs_levels S E G). pose proof (top_small S E G) as Htop.
    pose proof (level_facts S E G 0 ltac:(lia)) as (K1 & K2 & K3 & K4 & K5). unfold precompute_last.
    assert (Elast : zget (p_output_size par) (zlen (p_output_size par) - 1) = Ok top).
    { rewrite (zget_ok 0) by lia. f_equal. apply znth_last. }
    rewrite (bind_calc S _ _ _ _ Elast). rewrite !bind_get, E1, E2.
    rewrite (bind_calc S _ (top - e3 (no 0) - sd 0) _ c) by (apply int_small; lia). rewrite !bind_set.
    replace (Z.min batch _) with batch by lia.
    erewrite bind_ok; [reflexivity|]. unfold full_output. rewrite !bind_get. cbn [v_batch_size v_vole_seed_size v_mpfss_seed_size set_batch_size]. rewrite E1, E2. unfold mcalc. rewrite int64_small by lia. reflexivity.
  Qed.

  Lemma precompute_K t t2 a b batch d : same S E seed a b -> 1 <= batch -> room batch -> hides_vector S (vole_K E) (sd 0 + e3 (no 0)) ->
    KM t t2 (precompute_sender S E MS batch a)
      (fun zm p' => (zlen (fst zm) = sd 0 /\ zlen (snd zm) = e3 (no 0)) /\ p' = precompute_sender S E MS batch a)
      (precompute_receiver S E MR batch d b)
      (fun a1 _ b1 _ => prepared d batch a1 b1)
      (fun zm a1 _ a1' _ b1 _ => exists s', a1' = set_s S s' a1 /\ holds S E d 0 s' (v_r b1) /\ s_done s' = true /\ sr_u (s_vole_seed s') = fst zm /\ sr_u (s_mpfss_seed s') = snd zm).
  Proof.
    intros Hsm Hge Hroom Hhide.
    pose proof (gs_levels S E G) as Hlv. pose proof (level_facts S E G 0 ltac:(lia)) as (K1 & K2 & K3 & K4 & K5). pose proof (top_small S E G) as Htop.
    pose proof Hsm as Hs'. destruct Hs'.
    set (size := sd 0 + e3 (no 0)). assert (Esz : size = sd 0 + e3 (no 0)) by reflexivity. set (pre := fun c : vole S => set_mpfss_seed_size S (e3 (no 0)) (set_vole_seed_size S (sd 0) (set_num_noise S (no 0) (set_batch_size S 0 c)))).
    set (k1 := fun _ : unit => mbind (mget v_vole_seed_size) (fun vs => mbind (mget v_mpfss_seed_size) (fun ms => mbind (new_sender_seeds S vs ms) (fun _ =>
      mbind (bootstrap S E MS (expand_sender S E MS) batch (levels E)) (fun _ => mbind (precompute_last S E MS batch) (fun _ => mset (fun st => set_s S (set_s_done S (v_s st)) st))))))).
    set (k2 := fun _ : unit => mbind (mget v_vole_seed_size) (fun vs => mbind (mget v_mpfss_seed_size) (fun ms => mbind (new_receiver_seeds S vs ms) (fun _ =>
      mbind (bootstrap S E MR (expand_receiver S E MR) batch (levels E)) (fun _ => mbind (precompute_last S E MR batch) (fun _ => mset (fun st => set_r S (set_r_done S (v_r st)) st))))))).
    assert (Es : precompute_sender S E MS batch a = mbind (sender_first_seed S E size) k1 (pre a)).
    { unfold precompute_sender. replace (batch <? 1) with false by lia. rewrite (bind_ok S _ _ _ _ _ (sizes_ok S E G seed true a same_a)). reflexivity. }
    assert (Er : precompute_receiver S E MR batch d b = mbind (receiver_first_seed S E MR size d) k2 (pre b)).
    { unfold precompute_receiver. replace (batch <? 1) with false by lia. rewrite (bind_ok S _ _ _ _ _ (sizes_ok S E G seed true b same_b)). reflexivity. }
    apply (KM_conv S t t2 _ _ _ (fun zm p' => (zlen (fst zm) = sd 0 /\ zlen (snd zm) = e3 (no 0)) /\ p' = mbind (sender_first_seed S E size) k1 (pre a)) _ _ _ _ Es Er).
    { intros zm p' [H ->]. split; [exact H|exact Es]. }
    eapply KM_bind; [apply (first_K S L E MR G t t2 size d (pre a) (pre b) eq_refl Hhide)|].
    intros t1 t21 a1 x1 b1 x2 St1 (ss & rs & -> & -> & Hc & Lc & Ds & Dr).
    exists (fun zm p' => exists ss', (zlen (fst zm) = sd 0 /\ zlen (snd zm) = e3 (no 0)) /\ corr S d (s_cached ss') (r_cached rs) /\ sr_u (s_cached ss') = snd zm ++ fst zm /\ p' = k1 tt (set_s S ss' (pre a))).
    split.
    2:{ intros [se ma] p' [[L1 L2] ->]. exists (ma ++ se), (sender_first_seed S E size), k1, (pre a). split; [reflexivity|]. split; [split; [rewrite zlen_app; cbn [fst snd] in *; unfold size; lia|reflexivity]|].
      intros a1' u' (ss' & -> & Hc' & Hu' & Ds'). exists ss'. cbn [fst snd] in *. destruct u'. auto 10. }
    destruct x1, x2.
    (* the seeds *)
    set (k := fun (M : machine S) step (fin : vole S -> vole S) => mbind (bootstrap S E M step batch (levels E)) (fun _ => mbind (precompute_last S E M batch) (fun _ => mset fin))).
    set (out := batch + sd 0 + e3 (no 0)).
    assert (Hk : forall M step fin c, v_vole_seed_size c = sd 0 -> v_mpfss_seed_size c = e3 (no 0) -> k M step fin c = mbind (precompute_common S E M out) (fun _ => mset fin) (set_batch_size S batch c)).
    { intros M step fin c E1 E2. unfold k. rewrite (bind_ok S _ _ _ _ _ (boot_0 M step batch c Hge Hroom E1 E2)). unfold mbind at 1. rewrite (last_0 M batch c Hge Hroom E1 E2). reflexivity. }
    assert (E1 : forall s, corr S d (s_cached s) (r_cached rs) -> k1 tt (set_s S s (pre a)) = mbind (precompute_common S E MS out) (fun _ => mset (fun st => set_s S (set_s_done S (v_s st)) st)) (set_s S (reseed_s S (sd 0) (e3 (no 0)) s) (set_batch_size S batch (pre a)))).
    { intros s [_ (Lu & _)]. unfold k1. rewrite !bind_get. rewrite (bind_ok S _ _ _ _ _ (new_sender_ok S (sd 0) (e3 (no 0)) (set_s S s (pre a)) ltac:(lia) ltac:(lia) ltac:(change (sd 0 + e3 (no 0) <= zlen (sr_u (s_cached s))); lia))).
      change (v_vole_seed_size (set_s S s (pre a))) with (sd 0). change (v_mpfss_seed_size (set_s S s (pre a))) with (e3 (no 0)).
      exact (Hk MS (expand_sender S E MS) _ (set_s S (reseed_s S (sd 0) (e3 (no 0)) s) (pre a)) eq_refl eq_refl). }
    assert (E2 : k2 tt (set_r S rs (pre b)) = mbind (precompute_common S E MR out) (fun _ => mset (fun st => set_r S (set_r_done S (v_r st)) st)) (set_r S (reseed_r S (sd 0) (e3 (no 0)) rs) (set_batch_size S batch (pre b)))).
    { unfold k2. rewrite !bind_get. rewrite (bind_ok S _ _ _ _ _ (new_receiver_ok S (sd 0) (e3 (no 0)) (set_r S rs (pre b)) ltac:(lia) ltac:(lia) ltac:(change (sd 0 + e3 (no 0) <= zlen (rr_w (r_cached rs))); lia))).
      exact (Hk MR (expand_receiver S E MR) _ (set_r S (reseed_r S (sd 0) (e3 (no 0)) rs) (pre b)) eq_refl eq_refl). }
    assert (Hh : forall s, corr S d (s_cached s) (r_cached rs) -> holds S E d 0 (reseed_s S (sd 0) (e3 (no 0)) s) (reseed_r S (sd 0) (e3 (no 0)) rs) /\ zlen (rr_w (r_cached (reseed_r S (sd 0) (e3 (no 0)) rs))) = 0).
    { intros s Hcs. pose proof (reseed_corr S true d (sd 0) (e3 (no 0)) s rs Hcs ltac:(lia) ltac:(lia) ltac:(lia)) as (A1 & A2 & A3 & A4 & A5 & A6).
      split; [exact (conj A1 (conj A3 (conj A5 (conj A4 (conj A6 (conj (Z.le_refl 0) (proj1 (Z.le_succ_l 0 lv) Hlv)))))))|]. rewrite A2. lia. }
    set (rs1 := reseed_r S (sd 0) (e3 (no 0)) rs) in *. set (ss1 := reseed_s S (sd 0) (e3 (no 0)) ss).
    set (a1 := set_s S ss1 (set_batch_size S batch (pre a))). set (b1 := set_r S rs1 (set_batch_size S batch (pre b))).
    set (last_s := fun _ : unit => mset (fun st => set_s S (set_s_done S (v_s st)) st) : member S unit).
    apply (KM_conv S t1 t21 _ _ _ (fun zm p' => exists s', (holds S E d 0 s' rs1 /\ sr_u (s_vole_seed s') = fst zm /\ sr_u (s_mpfss_seed s') = snd zm) /\ p' = mbind (precompute_common S E MS out) last_s (set_s S s' a1)) _ _ _ _ (E1 ss Hc) E2).
    { intros [se ma] p' (ss' & [L1 L2] & Hc' & Hu' & ->). cbn [fst snd] in *. exists (reseed_s S (sd 0) (e3 (no 0)) ss'). split; [|rewrite (E1 ss' Hc'); reflexivity].
      split; [apply Hh, Hc'|]. cbn. rewrite Hu', (tail_app ma se), (shrink_app ma se), (tail_all ma) by assumption. auto. }
    assert (Hsm1 : same S E seed a1 b1) by (constructor; cbn; auto).
    assert (Hlev : level S E a1 0) by (unfold level; cbn; repeat split; lia).
    fold last_s. fold a1. eapply KM_bind; [apply (common_K S E MS MR G GA GB HC Hsec seed t1 t21 a1 b1 0 out Hsm1 Hlev); unfold out, room in *; lia|].
    intros t3 t4 a2 x1 b2 x2 St3 (ma & mb & cols & Hma & Hmb & Lcols & -> & ->). unfold last_s, mset.
    exists (fun zm p' => exists s', (holds S E d 0 s' rs1 /\ sr_u (s_vole_seed s') = fst zm /\ sr_u (s_mpfss_seed s') = snd zm) /\ p' = last_s tt (set_s S s' (set_generator S (v_vole_seed_size a1) cols (set_mpfss S ma a1)))). split.
    2:{ intros zm p' (s' & Hs' & ->). exists s', (precompute_common S E MS out), last_s, (set_s S s' a1). split; [reflexivity|]. split; [reflexivity|]. intros a1' u' ->. exists s'. split; [exact Hs'|]. now destruct u'. }
    destruct (Hh ss Hc) as [Hh1 Lc1].
    apply KM_ret.
    - split; [constructor; cbn; auto|]. split; [unfold level; cbn; repeat split; lia|]. split; [reflexivity|]. split; [reflexivity|]. split; [exact Lcols|].
      split; [exact Hh1|]. split; [reflexivity|]. split; [reflexivity|]. exact Lc1.
    - intros zm p' (s' & (H1 & H2 & H3) & ->). do 2 eexists. split; [reflexivity|]. exists (set_s_done S s'). split; [reflexivity|]. split; [exact H1|]. split; [reflexivity|]. auto.
  Qed.

  (** ** Run *)
  Lemma loop_s rounds n (a : vole S) : 1 <= n <= zlen (sr_u (s_cached (v_s a))) -> zlen (sr_v (s_cached (v_s a))) = zlen (sr_u (s_cached (v_s a))) ->
    exists s1, run_sender_loop S E MS (Datatypes.S rounds) n [] [] a = Ret (set_s S s1 a, Ok (SenderResult (tail n (sr_u (s_cached (v_s a)))) (tail n (sr_v (s_cached (v_s a)))))).
  Proof.
    intros Hn Lv. cbn [run_sender_loop]. change (zlen (@nil S)) with 0. replace (n <=? 0) with false by lia. rewrite bind_get. cbv zeta.
    set (u := sr_u (s_cached (v_s a))) in *. set (v := sr_v (s_cached (v_s a))) in *.
    assert (Hend : forall c, run_sender_loop S E MS rounds n (tail n u) (tail n v) c = Ret (c, Ok (SenderResult (tail n u) (tail n v)))).
    { intro c. assert (Lt : zlen (tail n u) = n) by (apply zlen_tail; lia). destruct rounds; cbn [run_sender_loop]; rewrite Lt; replace (n <=? n) with true by lia; reflexivity. }
    destruct (Z.leb_spec (0 + zlen u) n) as [Hle|Hgt].
    - eexists. erewrite (bind_ok S _ _ a) by reflexivity. cbn [app]. fold u. fold v. replace (zlen u <? n) with false by lia.
      rewrite <- (tail_all u n) at 1 by lia. rewrite <- (tail_all v n) at 1 by lia. rewrite Hend. reflexivity.
    - eexists. erewrite (bind_ok S _ _ a) by (apply get_sender_ok; fold u; lia). cbn [app sr_u sr_v]. fold u v. rewrite Z.sub_0_r, zlen_tail by lia. replace (n <? n) with false by lia.
      rewrite Hend. reflexivity.
  Qed.
  Lemma loop_r rounds n d (b : vole S) : 1 <= n <= zlen (rr_w (r_cached (v_r b))) -> 
    exists r1, run_receiver_loop S E MR (Datatypes.S rounds) n [] d b = Ret (set_r S r1 b, Ok (ReceiverResult (tail n (rr_w (r_cached (v_r b)))) d)).
  Proof.
    intros Hn. cbn [run_receiver_loop]. change (zlen (@nil S)) with 0. replace (n <=? 0) with false by lia. rewrite bind_get. cbv zeta.
    set (u := rr_w (r_cached (v_r b))) in *.
    assert (Hend : forall c, run_receiver_loop S E MR rounds n (tail n u) d c = Ret (c, Ok (ReceiverResult (tail n u) d))).
    { intro c. assert (Lt : zlen (tail n u) = n) by (apply zlen_tail; lia). destruct rounds; cbn [run_receiver_loop]; rewrite Lt; replace (n <=? n) with true by lia; reflexivity. }
    destruct (Z.leb_spec (0 + zlen u) n) as [Hle|Hgt].
    - eexists. erewrite (bind_ok S _ _ b) by reflexivity. cbn [app]. fold u. replace (zlen u <? n) with false by lia.
      rewrite <- (tail_all u n) at 1 by lia. rewrite Hend. reflexivity.
    - eexists. erewrite (bind_ok S _ _ b) by (apply get_receiver_ok; fold u; lia). cbn [app rr_w]. fold u. rewrite Z.sub_0_r, zlen_tail by lia. replace (n <? n) with false by lia.
      rewrite Hend. reflexivity.
  Qed.

  Lemma run_K t t2 a b batch n d um : prepared d batch a b -> room batch -> 1 <= n <= batch ->
    let out := batch + sd 0 + e3 (no 0) in
    masking 0 out t (sr_u (s_mpfss_seed (v_s a))) um ->
    KM t t2 (run_sender S E MS n a)
      (fun zs p' => (alt_ok 0 out (fst zs) /\ holds S E d 0 (snd zs) (v_r b) /\ s_done (snd zs) = true /\ sr_u (s_mpfss_seed (snd zs)) = um (fst zs)) /\ p' = run_sender S E MS n (set_s S (snd zs) a))
      (run_receiver S E MR n b)
      (fun a1 x b1 y => vole_correlation S d (sr_u x) (sr_v x) (rr_w y) /\ zlen (rr_w y) = n /\ rr_delta y = d /\ v_columns b1 = v_columns a /\ coh (v_mpfss b1) /\
         exists z mu, alt_ok 0 out z /\ spread S out (no 0) (al_pos S z) (al_y S z) = Ok mu /\
           sr_u x = tail n (shrink (e3 (no 0)) (shrink (sd 0) (vec_add S (encode S (v_columns a) (sr_u (s_vole_seed (v_s a)))) mu))))
      (fun zs a1 x a1' x' b1 y => vole_correlation S d (sr_u x') (sr_v x') (rr_w y) /\
         exists mu, spread S out (no 0) (al_pos S (fst zs)) (al_y S (fst zs)) = Ok mu /\
           sr_u x' = tail n (shrink (e3 (no 0)) (shrink (sd 0) (vec_add S (encode S (v_columns a) (sr_u (s_vole_seed (snd zs)))) mu)))).
  Proof.
    intros (Hsm & Hlev & Ero & Ebt & Lcols & Hh & Dn1 & Dn2 & Lc) [R1 R2] Hn out Hum.
    pose proof (gs_levels S E G) as Hlv. pose proof (level_facts S E G 0 ltac:(lia)) as (K1 & K2 & K3 & K4 & K5). pose proof (top_small S E G) as Htop.
    pose proof Hlev as (_ & Evs & Ems & Eno). pose proof Hsm as Hs'. destruct Hs'. 
    set (clean := fun s : sender_side S => set_s_cached S (SenderResult [] []) s).
    set (as_ := fun s => set_s S (clean s) a).
    set (rc := set_r_cached S (ReceiverResult [] (rr_delta (r_cached (v_r b)))) (v_r b)). set (bs_ := set_r S rc b).
    assert (Hex : forall step (c : vole S), v_batch_size c = batch -> v_vole_seed_size c = sd 0 -> v_mpfss_seed_size c = e3 (no 0) -> expand S step c = step out (sd 0) (e3 (no 0)) c).
    { intros step c G1 G2 G3. unfold expand, full_output. erewrite bind_ok; [|rewrite !bind_get; unfold mcalc; rewrite G1, G2, G3, int64_small by lia; reflexivity].
      rewrite !bind_get, G2, G3. reflexivity. }
    destruct (Z.to_nat n) as [|m] eqn:Em; [lia|].
    assert (Es : forall s, holds S E d 0 s (v_r b) -> s_done s = true ->
      run_sender S E MS n (set_s S s a) = mbind (expand_sender S E MS out (sd 0) (e3 (no 0))) (fun _ => run_sender_loop S E MS (Datatypes.S m) n [] []) (as_ s)).
    { intros s ([_ (Lu & Lv & _)] & _) Ds. rewrite Lc in Lu, Lv. apply zlen_0 in Lu, Lv. unfold run_sender. rewrite bind_get. change (v_s (set_s S s a)) with s. rewrite Ds.
      erewrite (bind_ok S (mret tt)) by reflexivity. unfold get_sender_cached at 1. change (v_s (set_s S s a)) with s. rewrite Lu. change (zlen (@nil S)) with 0. replace (0 <? n) with true by lia. cbn [pbind].
      rewrite Em, Nat.add_1_r. generalize (Datatypes.S m) as rounds. intro rounds. cbn [run_sender_loop]. change (zlen (@nil S)) with 0. replace (n <=? 0) with false by lia. rewrite bind_get. cbv zeta. change (v_s (set_s S s a)) with s. rewrite Lu. change (zlen (@nil S)) with 0. replace (0 + 0 <=? n) with true by lia.
      erewrite (bind_ok S _ _ (set_s S s a)) by reflexivity. rewrite Lu, Lv. cbn [app]. change (zlen (@nil S)) with 0. replace (0 <? n) with true by lia.
      unfold mbind at 1. change (set_s S _ (set_s S s a)) with (as_ s). rewrite Hex by assumption. reflexivity. }
    assert (Er : run_receiver S E MR n b = mbind (expand_receiver S E MR out (sd 0) (e3 (no 0))) (fun _ => run_receiver_loop S E MR (Datatypes.S m) n [] d) bs_).
    { pose proof Hh as ([Hcd _] & _). apply zlen_0 in Lc as Lw. unfold run_receiver. rewrite bind_get, Dn2.
      erewrite (bind_ok S (mret tt)) by reflexivity. unfold get_receiver_cached at 1. rewrite Lw. change (zlen (@nil S)) with 0. replace (0 <? n) with true by lia. cbn [pbind].
      rewrite Em, Nat.add_1_r. generalize (Datatypes.S m) as rounds. intro rounds. cbn [run_receiver_loop]. change (zlen (@nil S)) with 0. replace (n <=? 0) with false by lia. rewrite bind_get. cbv zeta. rewrite Lw. change (zlen (@nil S)) with 0. replace (0 + 0 <=? n) with true by lia.
      erewrite (bind_ok S _ _ b) by reflexivity. rewrite Lw, Hcd. cbn [app]. change (zlen (@nil S)) with 0. replace (0 <? n) with true by lia.
      unfold mbind at 1. rewrite Hex; [|exact (eq_trans (eq_sym same_batch) Ebt)|exact (eq_trans (eq_sym same_vs) Evs)|exact (eq_trans (eq_sym same_ms) Ems)]. unfold bs_, rc. rewrite Hcd. reflexivity. }
    assert (Ea : set_s S (v_s a) a = a) by (destruct a; reflexivity).
    pose proof (Es (v_s a) Hh Dn1) as Es0. rewrite Ea in Es0.
    set (ok := fun zs : alt * sender_side S => alt_ok 0 out (fst zs) /\ holds S E d 0 (snd zs) (v_r b) /\ s_done (snd zs) = true /\ sr_u (s_mpfss_seed (snd zs)) = um (fst zs)).
    apply (KM_conv S t t2 _ _ _ (fun zs p' => ok zs /\ p' = mbind (expand_sender S E MS out (sd 0) (e3 (no 0))) (fun _ => run_sender_loop S E MS (Datatypes.S m) n [] []) (as_ (snd zs))) _ _ _ _ Es0 Er).
    { intros zs p' [Hok ->]. split; [exact Hok|]. apply Es; apply Hok. }
    assert (Hcl : forall s, holds S E d 0 s (v_r b) -> holds S E d 0 (clean s) (v_r bs_)).
    { intros s ([Hcd _] & Hse). split; [split; [exact Hcd|apply correlation_nil]|exact Hse]. }
    eapply KM_bind.
    - apply (expand_K S L E MS MR G GA GB Hsec seed t t2 (as_ (v_s a)) bs_ d 0 out (sd 0) (e3 (no 0)) um); auto; try lia; [constructor; cbn; auto|apply Hcl, Hh].
    - intros t1 t21 a1 x1 b1 x2 St1 [HE (z0 & mu0 & Z1 & Z2 & Z3)].
      exists (fun zs p' => exists a1' mu, expanded S E seed d out (sd 0) (e3 (no 0)) (as_ (snd zs)) bs_ a1' tt b1 tt /\ spread S out (no 0) (al_pos S (fst zs)) (al_y S (fst zs)) = Ok mu /\
        sr_u (s_cached (v_s a1')) = shrink (e3 (no 0)) (shrink (sd 0) (vec_add S (encode S (v_columns a) (sr_u (s_vole_seed (snd zs)))) mu)) /\ p' = run_sender_loop S E MS (Datatypes.S m) n [] [] a1'). split.
      2:{ intros [z s] p' [Hok ->]. pose proof Hok as (O1 & O2 & O3 & O4). cbn [fst snd] in *. exists (z, clean s). exists (expand_sender S E MS out (sd 0) (e3 (no 0))), (fun _ => run_sender_loop S E MS (Datatypes.S m) n [] []), (as_ s).
        split; [reflexivity|]. split; [split; [|reflexivity]|].
        - cbn [fst snd]. split; [exact O1|]. split; [apply Hcl, O2|exact O4].
        - cbn [fst snd]. intros a1' u' (X1 & _ & mu & X2 & X3). exists a1', mu. split; [exact X1|]. split; [exact X2|]. split; [exact X3|reflexivity]. }
      assert (HX : forall s a1, expanded S E seed d out (sd 0) (e3 (no 0)) (as_ s) bs_ a1 tt b1 tt -> corr S d (s_cached (v_s a1)) (r_cached (v_r b1)) /\ zlen (rr_w (r_cached (v_r b1))) = batch /\ v_columns b1 = v_columns a /\ coh (v_mpfss b1)).
      { intros s a2 (ma & mb & ss & rs & Hma & Hmb & Hco & -> & -> & C1 & LC & C2 & L2 & C3 & L3 & D3 & D4). split; [exact C1|]. split; [|split; [symmetry; exact same_columns|exact Hmb]].
        change (zlen (rr_w (r_cached rs)) = batch). rewrite LC. change (zlen (rr_w (r_cached (v_r bs_)))) with 0. unfold out. lia. }
      destruct (HX _ _ HE) as ([C0 C1] & L1 & Ecol & Hmb). pose proof C1 as (Lu & Lv & _).
      destruct (loop_r m n d b1 ltac:(lia)) as [r1 Er1].
      destruct (loop_s m n a1 ltac:(lia) ltac:(lia)) as [s1 Es1]. rewrite Er1, Es1. apply KM_ret.
      + cbn [sr_u sr_v rr_w rr_delta]. split; [apply correlation_tail; auto; lia|]. split; [apply zlen_tail; lia|]. split; [reflexivity|]. split; [exact Ecol|]. split; [exact Hmb|]. exists z0, mu0. split; [exact Z1|]. split; [exact Z2|]. now rewrite Z3.
      + intros [z s] p' (a1' & mu & X1 & X2 & X3 & ->). cbn [fst snd] in *. destruct (HX _ _ X1) as ([C0' C1'] & L1' & _). pose proof C1' as (Lu' & Lv' & _).
        destruct (loop_s m n a1' ltac:(lia) ltac:(lia)) as [s1' Es1']. rewrite Es1'. do 2 eexists. split; [reflexivity|]. cbn [sr_u sr_v rr_w]. split; [apply correlation_tail; auto; lia|].
        exists mu. split; [exact X2|]. now rewrite X3.
  Qed.
End Play.
