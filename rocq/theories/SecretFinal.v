(** The receiver cannot tell the sender's seed and noise. *)
From Verif Require Import Base BaseFacts ListFacts ScalarModel ScalarSpec ScalarProofs SumFacts PackModel
  ProcModel ProcSpec ProcProofs MeetProofs RotModel RotSpec RotProofs RotFinal SpfssModel SpfssProofs
  GilboaModel GilboaSpec GilboaProofs GilboaFinal RngModel RngUsable RngProofs CuckooModel CuckooSpec CuckooProofs CuckooFinal
  MpfssModel MpfssSpec MpfssProofs MpfssFinal VoleModel VoleSpec VoleProofs VoleMeet VolePair
  HideSpec HideRun HideFinal HideMpfss DeltaSpec DeltaRun DeltaSteps SecretRun SecretGilboa SecretSteps SecretSpec SecretPlay DeltaFinal.
From Coq Require Import QArith Permutation.
Local Open Scope Z_scope.

Section Final.
  Variable S : scalar.
  Hypothesis L : scalar_laws S.
  Variable E : setting.
  Variables MS MR : machine S.
  Hypothesis G : good_setting S E.
  Hypothesis GA : good_machine S MS.
  Hypothesis GB : good_machine S MR.
  Hypothesis HC : connected MS MR.
  Hypothesis Hsec : secure S E.
  Notation par := (e_parameters E).
  Notation aes := (e_aes E).
  Notation too := (e_too_many_bits E).
  Notation e3 := (e_expansion3 E).
  Notation e2 := (e_expansion2 E).
  Notation coh seed := (coherent aes too e3 e2 (Hasher seed 3)).
  Notation lv := (zlen (p_seed_size par)).
  Notation top := (last (p_output_size par) 0).
  Notation sd i := (znth 0 (p_seed_size par) i).
  Notation no i := (znth 0 (p_num_noise par) i).
  Notation zn := (znth (s_zero S)).
  Notation KM := (KM S).
  Notation alt := (alt S).
  Notation alt_ok := (alt_ok S E MS).
  Implicit Types a b : vole S.
  Add Ring SR : (sl_ring S L).

  Definition good seed out (z : alt) : Prop := zlen (al_seed S z) = sd 0 /\ alt_ok seed 0 out z.
  (** The sender's vector for the secrets [z]. *)
  Definition word out n b (z : alt) (u : list S) : Prop := exists mu, spread S out (no 0) (al_pos S z) (al_y S z) = Ok mu /\
    u = tail n (shrink (e3 (no 0)) (shrink (sd 0) (vec_add S (encode S (v_columns b) (al_seed S z)) mu))).

  Lemma play_K seed t t2 a b batch n d : same S E seed a b -> room E batch -> 1 <= n <= batch -> hides_vector S (vole_K E) (sd 0 + e3 (no 0)) ->
    let out := batch + sd 0 + e3 (no 0) in
    let p := mbind (precompute_sender S E MS batch) (fun _ => run_sender S E MS n) a in
    KM t t2 p (fun z p' => good seed out z /\ p' = p) (mbind (precompute_receiver S E MR batch d) (fun _ => run_receiver S E MR n) b)
      (fun a1 x b1 y => (vole_correlation S d (sr_u x) (sr_v x) (rr_w y) /\ zlen (rr_w y) = n /\ rr_delta y = d /\ zlen (v_columns b1) = out /\ coh seed (v_mpfss b1)) /\
         exists z, good seed out z /\ word out n b1 z (sr_u x))
      (fun z a1 x a1' x' b1 y => vole_correlation S d (sr_u x') (sr_v x') (rr_w y) /\ word out n b1 z (sr_u x')).
  Proof.
    intros Hsm Hroom Hn Hhide out p. pose proof (gs_levels S E G) as Hlv.
    eapply KM_bind; [apply (precompute_K S L E MS MR G GA GB HC Hsec seed t t2 a b batch d Hsm ltac:(lia) Hroom Hhide)|].
    intros t1 t21 a1 x1 b1 x2 St1 HP. pose proof HP as (Hsm1 & Hlev & Ero & Ebt & Lcols & Hh & _).
    pose proof (level_facts S E G 0 ltac:(lia)) as (K1 & K2 & K3 & K4 & K5). pose proof Hroom as [R1 R2].
    pose proof Hh as (_ & [_ (Lvu & _)] & [_ (Lmu & _)] & Lvs & Lms & _).
    destruct (masking_ex S L E MS G seed 0 out t1 (sr_u (s_mpfss_seed (v_s a1))) ltac:(lia) ltac:(unfold out; lia) ltac:(lia)) as [um Hum].
    exists (fun z p' => good seed out z /\ exists s', (holds S E d 0 s' (v_r b1) /\ s_done s' = true /\ sr_u (s_vole_seed s') = al_seed S z /\ sr_u (s_mpfss_seed s') = um z) /\ p' = run_sender S E MS n (set_s S s' a1)).
    split.
    2:{ intros z p' [Hz ->]. exists (al_seed S z, um z), (precompute_sender S E MS batch), (fun _ => run_sender S E MS n), a. split; [reflexivity|]. split.
      - split; [|reflexivity]. cbn [fst snd]. split; [apply Hz|]. apply (Hum z). apply Hz.
      - cbn [fst snd]. intros a1' u' (s' & -> & H1 & H2 & H3 & H4). split; [exact Hz|]. exists s'. auto. }
    pose proof (run_K S L E MS MR G GA GB Hsec seed t1 t21 a1 b1 batch n d um HP Hroom Hn Hum) as HR. fold out in HR.
    intro Ht. destruct (HR Ht) as [HF|(r & x & t3 & y & t4 & W & S1 & (a2 & u & b2 & v & -> & -> & (Q1 & Q2 & Q3 & Q4 & Q5 & (z0 & mu & Z1 & Z2 & Z3))) & Halt)]; [left; exact HF|].
    right. exists r, (a2, Ok u), t3, (b2, Ok v), t4. split; [exact W|]. split; [exact S1|]. split.
    - exists a2, u, b2, v. split; [reflexivity|]. split; [reflexivity|]. split; [rewrite Q4; auto 10|].
      exists (Alt S (sr_u (s_vole_seed (v_s a1))) (al_blocks S z0) (al_chance S z0) (al_y S z0) (al_pos S z0) (al_hashed S z0)). split; [split; [cbn [al_seed]; lia|exact Z1]|].
      exists mu. cbn [al_pos al_y al_seed]. rewrite Q4. split; [exact Z2|exact Z3].
    - intros z p' (Hz & s' & (H1 & H2 & H3 & H4) & ->). destruct (Halt (z, s') (run_sender S E MS n (set_s S s' a1))) as (seg & x' & S2 & W' & (a3 & u3 & a' & u' & b3 & v3 & E1 & -> & E3 & HQ & mu' & X1 & X2)).
      { split; [|reflexivity]. cbn [fst snd]. split; [apply Hz|]. auto. }
      injection E1 as <- <-. injection E3 as <- <-. exists seg, (a', Ok u'). split; [exact S2|]. split; [exact W'|]. exists a2, u, a', u', b2, v. repeat (split; [reflexivity|]). split; [exact HQ|].
      exists mu'. cbn [fst snd] in *. rewrite Q4, <- H3. auto.
  Qed.

  Definition no_success {A} (r : res A) : Prop := match r with Ok _ => False | _ => True end.
  Lemma session_K t t2 batch n d : room E batch -> 1 <= n <= batch -> hides_vector S (vole_K E) (sd 0 + e3 (no 0)) ->
    let out := batch + sd 0 + e3 (no 0) in
    exists seed, K no_success no_success t t2 (first_sender S E MS batch n) (fun z p' => good seed out z /\ p' = first_sender S E MS batch n) (first_receiver S E MR batch d n)
      (fun rx ry => exists a1 x b1 y, rx = Ok (a1, x) /\ ry = Ok (b1, y) /\
         (vole_correlation S d (sr_u x) (sr_v x) (rr_w y) /\ zlen (rr_w y) = n /\ rr_delta y = d /\ zlen (v_columns b1) = out /\ coh seed (v_mpfss b1)) /\ exists z, good seed out z /\ word out n b1 z (sr_u x))
      (fun z rx rx' ry => exists a1 x b1 y, rx' = Ok (a1, x) /\ ry = Ok (b1, y) /\ vole_correlation S d (sr_u x) (sr_v x) (rr_w y) /\ word out n b1 z (sr_u x)).
  Proof.
    intros Hroom Hn Hhide out. pose proof HC as (H1 & H2 & H3).
    set (fs := fun r : res (vole S) => match r with Ok st => pbind (mbind (precompute_sender S E MS batch) (fun _ => run_sender S E MS n) st) (fun '(st, r) => Ret (match r with Ok x => Ok (st, x) | Err e => Err e | UB w => UB w end)) | Err e => Ret (Err e) | UB w => Ret (UB w) end).
    set (fr := fun r : res (vole S) => match r with Ok st => pbind (mbind (precompute_receiver S E MR batch d) (fun _ => run_receiver S E MR n) st) (fun '(st, r) => Ret (match r with Ok x => Ok (st, x) | Err e => Err e | UB w => UB w end)) | Err e => Ret (Err e) | UB w => Ret (UB w) end).
    assert (Hin : forall seed t t2, K no_success no_success t t2 (fs (Ok (vole_new S MS (mpfss_new (Hasher seed 3))))) (fun z p' => good seed out z /\ p' = fs (Ok (vole_new S MS (mpfss_new (Hasher seed 3))))) (fr (Ok (vole_new S MR (mpfss_new (Hasher seed 3)))))
      (fun rx ry => exists a1 x b1 y, rx = Ok (a1, x) /\ ry = Ok (b1, y) /\
         (vole_correlation S d (sr_u x) (sr_v x) (rr_w y) /\ zlen (rr_w y) = n /\ rr_delta y = d /\ zlen (v_columns b1) = out /\ coh seed (v_mpfss b1)) /\ exists z, good seed out z /\ word out n b1 z (sr_u x))
      (fun z rx rx' ry => exists a1 x b1 y, rx' = Ok (a1, x) /\ ry = Ok (b1, y) /\ vole_correlation S d (sr_u x) (sr_v x) (rr_w y) /\ word out n b1 z (sr_u x))).
    { intros seed t0 t20. set (a0 := vole_new S MS (mpfss_new (Hasher seed 3))). set (b0 := vole_new S MR (mpfss_new (Hasher seed 3))).
      assert (Hsm : same S E seed a0 b0) by (constructor; try reflexivity; (split; [reflexivity|]; cbn; discriminate)).
      eapply K_bind; [exact (play_K seed t0 t20 a0 b0 batch n d Hsm Hroom Hn Hhide)| | |].
      - intros [st [x|e|x]] Hb; cbn in Hb; [contradiction| |]; apply doomed_ret; exact Logic.I.
      - intros [st [x|e|x]] Hb; cbn in Hb; [contradiction| |]; apply doomed_ret; exact Logic.I.
      - intros t1 t21 x y St1 (a1 & u & b1 & v & -> & -> & HR & Hz).
        exists (fun z p' => exists a' u', vole_correlation S d (sr_u u') (sr_v u') (rr_w v) /\ word out n b1 z (sr_u u') /\ p' = Ret (Ok (a', u'))). split.
        + apply K_ret; [exists a1, u, b1, v; auto|]. intros z p' (a' & u' & X1 & X2 & ->). exists (Ok (a', u')). split; [reflexivity|]. exists a', u', b1, v. auto.
        + intros z p' [Hg ->]. exists z, (mbind (precompute_sender S E MS batch) (fun _ => run_sender S E MS n) a0).
          exists (fun '(st, r) => Ret (match r with Ok x => Ok (st, x) | Err e => Err e | UB w => UB w end)). split; [reflexivity|]. split; [split; [exact Hg|reflexivity]|].
          intros x' (a2 & u2 & a' & u' & b2 & v2 & E1 & -> & E3 & X1 & X2). injection E3 as <- <-. exists a', u'. auto. }
    destruct (Z.ltb_spec (c_id MS) (c_id MR)) as [Hlt|Hge].
    - exists (fst (t O)). set (seed := fst (t O)).
      pose proof (fun t => create_a S MS MR HC t t2 ltac:(lia)) as HW; cbn zeta in HW.
      eapply (K_front _ _ 1 t t2); [| |apply (Hin seed)].
      + exact (vrun_bind fs fr _ _ _ _ _ _ _ _ _ (wrun_vrun _ _ _ _ _ _ _ _ _ _ (HW t))).
      + intros z p' [Hg ->]. exists (fs (Ok (vole_new S MS (mpfss_new (Hasher seed 3))))). split; [|auto]. intro s.
        exact (vrun_bind fs fr _ _ _ _ _ _ _ _ _ (wrun_vrun _ _ _ _ _ _ _ _ _ _ (HW (glue (front 1 t) s)))).
    - exists (fst (t2 O)). set (seed := fst (t2 O)).
      pose proof (fun t => create_b S MS MR HC t t2 ltac:(lia)) as HW; cbn zeta in HW.
      eapply (K_same _ _ t t2); [| |apply (Hin seed)].
      + exact (vrun_bind fs fr _ _ _ _ _ _ _ _ _ (wrun_vrun _ _ _ _ _ _ _ _ _ _ (HW t))).
      + intros z p' [Hg ->]. exists (fs (Ok (vole_new S MS (mpfss_new (Hasher seed 3))))). split; [|auto]. intro s. exact (vrun_bind fs fr _ _ _ _ _ _ _ _ _ (wrun_vrun _ _ _ _ _ _ _ _ _ _ (HW s))).
  Qed.

  Lemma word_vector seed batch n b z u : 1 <= n <= batch -> room E batch -> zlen (v_columns b) = word_length E batch -> good seed (word_length E batch) z -> word (word_length E batch) n b z u ->
    sender_vector S b batch n (al_seed S z) (al_y S z) (al_pos S z) u.
  Proof.
    intros Hn [R1 R2] Lc [_ (A1 & A2 & A3 & A4 & (g & set & Eg & Es & Ep) & A6)] (mu & Emu & ->). pose proof (gs_levels S E G) as Hlv.
    pose proof (level_facts S E G 0 ltac:(lia)) as (K1 & K2 & K3 & K4 & K5).
    assert (Ew : word_length E batch = batch + sd 0 + e3 (no 0)) by reflexivity.
    destruct (order_ok S E MS G GA 0 (word_length E batch) (al_blocks S z) g set (al_chance S z) ltac:(lia) ltac:(lia) ltac:(unfold zlen; lia) Eg Es) as (O1 & O2 & O3). rewrite <- Ep in *.
    destruct (spread_ok S L (word_length E batch) (no 0) (al_pos S z) (al_y S z)) as (mu' & Emu' & Lmu & Hmu); auto; try lia. rewrite Emu in Emu'. injection Emu' as <-.
    set (enc := encode S (v_columns b) (al_seed S z)). assert (Le : zlen enc = word_length E batch) by (unfold enc; rewrite zlen_encode; exact Lc).
    set (x := vec_add S enc mu). assert (Lx : zlen x = word_length E batch) by (unfold x; rewrite zlen_vec_add; lia).
    assert (L1 : zlen (shrink (sd 0) x) = batch + e3 (no 0)) by (rewrite zlen_shrink; lia). assert (L2 : zlen (shrink (e3 (no 0)) (shrink (sd 0) x)) = batch) by (rewrite zlen_shrink; lia).
    split; [apply zlen_tail; lia|]. intros k Hk p. rewrite znth_tail, L2 by lia. fold p. rewrite znth_shrink, znth_shrink by (unfold p; lia).
    unfold x. rewrite znth_vec_add by (unfold p; lia). f_equal.
    - unfold enc, encode. rewrite (znth_map _ []) by (unfold p; lia). reflexivity.
    - rewrite (Hmu (s_one S) p) by (unfold p; lia). ring.
  Qed.

  Lemma secret_hidden batch n delta ts tr a x b y log : 1 <= n <= batch -> room E batch -> hides_vector S (vole_K E) (sd 0 + e3 (no 0)) ->
    (forall p, (fst (ts p) < 2^128)%N) ->
    completes (first_sender S E MS batch n) ts (watch (first_receiver S E MR batch delta n) []) tr (Ok (a, x)) (Ok (b, y), log) ->
    (rr_delta y = delta /\ vole_correlation S delta (sr_u x) (sr_v x) (rr_w y) /\
     exists seed noise positions, possible S E MS b batch seed noise positions /\ sender_vector S b batch n seed noise positions (sr_u x)) /\
    forall seed noise positions, possible S E MS b batch seed noise positions -> exists ts' a' x',
      (forall p, (fst (ts' p) < 2^128)%N) /\
      completes (first_sender S E MS batch n) ts' (watch (first_receiver S E MR batch delta n) []) tr (Ok (a', x')) (Ok (b, y), log) /\
      sender_vector S b batch n seed noise positions (sr_u x') /\ vole_correlation S delta (sr_u x') (sr_v x') (rr_w y).
  Proof.
    intros Hn Hroom Hhide Hts Hrun. destruct (session_K ts tr batch n delta Hroom Hn Hhide) as [seed HK].
    destruct (K_final _ _ _ _ _ _ _ _ _ _ _ _ Hts HK Hrun (fun H => H) (fun H => H)) as [(a1 & x1 & b1 & y1 & E1 & E2 & (Q1 & Q2 & Q3 & Q4 & Q5) & z0 & Hz0 & Hw0) Halt].
    injection E1 as <- <-. injection E2 as <- <-. fold (word_length E batch) in *. pose proof Q5 as [Hh _].
    assert (Hpos : forall z, good seed (word_length E batch) z -> possible S E MS b batch (al_seed S z) (al_y S z) (al_pos S z)).
    { intros z (A0 & A1 & A2 & A3 & A4 & (g & set & Eg & Es & Ep) & A6). split; [exact A0|]. split; [exact A4|]. split; [exists (al_blocks S z), (al_chance S z), g, set; auto 10|].
      exists (al_hashed S z). rewrite Hh. exact A6. }
    split.
    - split; [exact Q3|]. split; [exact Q1|]. exists (al_seed S z0), (al_y S z0), (al_pos S z0). split; [apply Hpos, Hz0|]. eapply word_vector; eauto.
    - intros sd' y' pos (P1 & P2 & (blocks & chance & g & set & B1 & B2 & B3 & Eg & Es & Ep) & hashed & HH).
      set (z := Alt S sd' blocks chance y' pos hashed).
      assert (Hz : good seed (word_length E batch) z).
      { split; [exact P1|]. split; [exact B1|]. split; [exact B2|]. split; [exact B3|]. split; [exact P2|]. split; [exists g, set; auto|]. rewrite Hh in HH. exact HH. }
      destruct (Halt z _ (conj Hz eq_refl)) as (seg & rx & S2 & W & (a' & x' & b2 & y2 & -> & E2 & C & Hw)). injection E2 as <- <-.
      exists (glue seg ts), a', x'. split; [apply small_glue; auto|]. split; [apply W|]. split; [|exact C]. exact (word_vector seed batch n b z (sr_u x') Hn Hroom Q4 Hz Hw).
  Qed.
End Final.

Lemma sender_hidden t : stype_ok t -> let S := scalar_of t in forall E (MS MR : machine S),
  good_setting S E -> good_machine S MS -> good_machine S MR -> connected MS MR -> secure S E ->
  use_correlated_ot S (vole_K E) (seed_size E + num_masks E) = false \/ full_range t = true ->
  forall batch n, 1 <= n <= batch ->
  word_length E batch <= znth 0 (p_output_size (e_parameters E)) 0 -> word_length E batch <= last (p_output_size (e_parameters E)) 0 ->
  forall delta ts tr a x b y seen, (forall p, (fst (ts p) < 2^128)%N) ->
  let receiver := watch (first_receiver S E MR batch delta n) [] in
  completes (first_sender S E MS batch n) ts receiver tr (Ok (a, x)) (Ok (b, y), seen) ->
  (rr_delta y = delta /\ vole_correlation S delta (sr_u x) (sr_v x) (rr_w y) /\
   exists seed noise positions, possible S E MS b batch seed noise positions /\ sender_vector S b batch n seed noise positions (sr_u x)) /\
  forall seed noise positions, possible S E MS b batch seed noise positions -> exists ts' a' x',
    (forall p, (fst (ts' p) < 2^128)%N) /\
    completes (first_sender S E MS batch n) ts' receiver tr (Ok (a', x')) (Ok (b, y), seen) /\
    sender_vector S b batch n seed noise positions (sr_u x') /\ vole_correlation S delta (sr_u x') (sr_v x') (rr_w y).
Proof.
  intros Ht S E MS MR G GA GB HC Hsec Hot batch n Hn R1 R2 delta ts tr a x b y seen Hts receiver.
  apply (secret_hidden S (scalar_of_laws t Ht) E MS MR G GA GB HC Hsec batch n delta ts tr a x b y seen Hn (conj R2 R1)); [|exact Hts].
  apply (gilboa_hides t (vole_K E)); [exact Ht|apply (gs_size S E G)|apply (gs_first S E G)|exact Hot].
Qed.
