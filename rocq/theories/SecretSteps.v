(** The member functions of the sender and the receiver in two worlds with
    different secrets of the sender. *)
From Verif Require Import Base BaseFacts ListFacts ScalarModel ScalarSpec ScalarProofs SumFacts PackModel
  ProcModel ProcSpec ProcProofs MeetProofs RotModel RotSpec RotProofs RotFinal SpfssModel SpfssProofs
  GilboaModel GilboaSpec GilboaProofs GilboaFinal RngModel RngUsable RngProofs CuckooModel CuckooSpec CuckooProofs CuckooFinal
  MpfssModel MpfssSpec MpfssProofs MpfssFinal VoleModel VoleSpec VoleProofs VoleMeet VolePair
  HideSpec HideRun HideFinal HideMpfss DeltaSpec DeltaRun DeltaSteps SecretRun SecretGilboa.
From Coq Require Import QArith Permutation.
Local Open Scope Z_scope.

Section Members.
  Variable S : scalar.
  Definition KM {I X Y} (t t2 : tape S) (p : proc S (vole S * res X)) (A : I -> proc S (vole S * res X) -> Prop) (q : proc S (vole S * res Y))
      (R : vole S -> X -> vole S -> Y -> Prop) (Q : I -> vole S -> X -> vole S -> X -> vole S -> Y -> Prop) : Prop :=
    K (bad S) (bad S) t t2 p A q (fun x y => exists a u b v, x = (a, Ok u) /\ y = (b, Ok v) /\ R a u b v)
      (fun i x x' y => exists a u a' u' b v, x = (a, Ok u) /\ x' = (a', Ok u') /\ y = (b, Ok v) /\ Q i a u a' u' b v).

  Lemma KM_small {I X Y} t t2 p (A : I -> proc S (vole S * res X) -> Prop) (q : proc S (vole S * res Y)) R Q : (small t -> KM t t2 p A q R Q) -> KM t t2 p A q R Q.
  Proof. intros H Ht. exact (H Ht Ht). Qed.
  Lemma KM_bind {I1 I X Y X' Y'} t t2 (p : member S X) (q : member S Y) (A1 : I1 -> proc S (vole S * res X) -> Prop) R Q (f : X -> member S X') (g : Y -> member S Y')
      (A : I -> proc S (vole S * res X') -> Prop) R' Q' a b :
    KM t t2 (p a) A1 (q b) R Q ->
    (forall t1 t21 a1 u b1 v, small t1 -> R a1 u b1 v -> exists A2, KM t1 t21 (f u a1) A2 (g v b1) R' Q' /\
       forall i p', A i p' -> exists i1 pm f' a', p' = mbind pm f' a' /\ A1 i1 (pm a') /\ forall a1' u', Q i1 a1 u a1' u' b1 v -> A2 i (f' u' a1')) ->
    KM t t2 (mbind p f a) A (mbind q g b) R' Q'.
  Proof.
    intros H Hk. unfold KM, mbind.
    apply (K_bind (bad S) (bad S) (bad S) (bad S) t t2 _ _ _ _ _ _ _ _ _ _ H).
    - intros [st [x|e|x]] Hb; cbn in Hb; [contradiction| |]; apply doomed_ret; exact Logic.I.
    - intros [st [x|e|x]] Hb; cbn in Hb; [contradiction| |]; apply doomed_ret; exact Logic.I.
    - intros t1 t21 x y St1 (a1 & u & b1 & v & -> & -> & HR). destruct (Hk t1 t21 a1 u b1 v St1 HR) as (A2 & HK & HA). exists A2. split; [exact HK|].
      intros i p' Hp. destruct (HA i p' Hp) as (i1 & pm & f' & a' & -> & H1 & H2). eexists i1, (pm a'), _. split; [reflexivity|]. split; [exact H1|].
      intros x' (a2 & u2 & a3 & u3 & b2 & v2 & E1 & -> & E3 & HQ). injection E1 as <- <-. injection E3 as <- <-. apply H2. exact HQ.
  Qed.
  Lemma KM_ret {I X Y} t t2 (A : I -> proc S (vole S * res X) -> Prop) (R : vole S -> X -> vole S -> Y -> Prop) Q a u b v : R a u b v ->
    (forall i p', A i p' -> exists a' u', p' = Ret (a', Ok u') /\ Q i a u a' u' b v) -> KM t t2 (Ret (a, Ok u)) A (Ret (b, Ok v)) R Q.
  Proof.
    intros H0 H. apply K_ret; [exists a, u, b, v; auto|]. intros i p' Hp. destruct (H i p' Hp) as (a' & u' & -> & HQ).
    eexists. split; [reflexivity|]. exists a, u, a', u', b, v. auto.
  Qed.
  Lemma KM_conv {I X Y} t t2 p p2 (A A2 : I -> proc S (vole S * res X) -> Prop) (q q2 : proc S (vole S * res Y)) R Q :
    p = p2 -> q = q2 -> (forall i p', A i p' -> A2 i p') -> KM t t2 p2 A2 q2 R Q -> KM t t2 p A q R Q.
  Proof. apply K_conv. Qed.
  Lemma KM_weaken {I X Y} t t2 p (A : I -> proc S (vole S * res X) -> Prop) (q : proc S (vole S * res Y)) (R R' : vole S -> X -> vole S -> Y -> Prop) (Q Q' : I -> vole S -> X -> vole S -> X -> vole S -> Y -> Prop) :
    KM t t2 p A q R Q -> (forall a u b v, R a u b v -> R' a u b v) -> (forall i a u a' u' b v, R a u b v -> Q i a u a' u' b v -> Q' i a u a' u' b v) -> KM t t2 p A q R' Q'.
  Proof.
    intros H HR HQ. eapply K_weaken; [exact H| |].
    - intros x y (a & u & b & v & -> & -> & H1). exists a, u, b, v. auto.
    - intros i x x' y (a & u & b & v & -> & -> & H1) (a2 & u2 & a' & u' & b2 & v2 & E1 & -> & E3 & H2). injection E1 as <- <-. injection E3 as <- <-.
      exists a, u, a', u', b, v. auto 10.
  Qed.

  (** Random choices of the first party. *)
  Lemma draw_blocks {A RB} n (g : list N -> member S A) c t (q : proc S RB) t2 :
    vrun (mbind (mproc (rand_blocks n (fun bs => Ret (Ok bs)))) g c) t q t2 [] (g (tape_blocks n t) c) (tape_drop n t) q t2.
  Proof.
    assert (H : forall n (k : list N -> proc S (res (list N))) F1 (F2 : vole S * res (list N) -> proc S (vole S * res A)) t,
      vrun (pbind (pbind (rand_blocks n k) F1) F2) t q t2 [] (pbind (pbind (k (tape_blocks n t)) F1) F2) (tape_drop n t) q t2).
    { clear. induction n as [|n IH]; intros k F1 F2 t; [constructor|]. cbn [rand_blocks pbind tape_drop tape_blocks].
      change (@nil (seen S)) with ([] ++ @nil (seen S)). eapply vrun_cons; [constructor|]. apply IH. }
    exact (H n _ _ _ t).
  Qed.
  Lemma draw_scalars {A RB} n (g : list S -> member S A) c t (q : proc S RB) t2 :
    vrun (mbind (mproc (rand_scalars n (fun bs => Ret (Ok bs)))) g c) t q t2 [] (g (tape_scalars n t) c) (tape_drop n t) q t2.
  Proof.
    assert (H : forall n (k : list S -> proc S (res (list S))) F1 (F2 : vole S * res (list S) -> proc S (vole S * res A)) t,
      vrun (pbind (pbind (rand_scalars n k) F1) F2) t q t2 [] (pbind (pbind (k (tape_scalars n t)) F1) F2) (tape_drop n t) q t2).
    { clear. induction n as [|n IH]; intros k F1 F2 t; [constructor|]. cbn [rand_scalars pbind tape_drop tape_scalars].
      change (@nil (seen S)) with ([] ++ @nil (seen S)). eapply vrun_cons; [constructor|]. apply IH. }
    exact (H n _ _ _ t).
  Qed.
  Lemma draw_rand {X A RB} (k : N -> S -> X) (g : X -> member S A) c t (q : proc S RB) t2 :
    vrun (mbind (mproc (Rand (fun x y => Ret (Ok (k x y))))) g c) t q t2 [] (g (k (fst (t O)) (snd (t O))) c) (tape_drop 1 t) q t2.
  Proof. change (@nil (seen S)) with ([] ++ @nil (seen S)). eapply vrun_cons; [constructor|]. apply (vrun_nil _ _ _ _). Qed.

  Lemma KM_blocks {I X Y} n g c t t2 (A A1 : I -> proc S (vole S * res X) -> Prop) (q : proc S (vole S * res Y)) R Q :
    (forall i p', A i p' -> exists g' c' l, List.length l = n /\ Forall (fun b => (b < 2^128)%N) l /\
       p' = mbind (mproc (rand_blocks n (fun bs => Ret (Ok bs)))) g' c' /\ A1 i (g' l c')) ->
    KM (tape_drop n t) t2 (g (tape_blocks n t) c) A1 q R Q ->
    KM t t2 (mbind (mproc (rand_blocks n (fun bs => Ret (Ok bs)))) g c) A q R Q.
  Proof.
    intros HA H. unfold KM. eapply (K_step _ _ t t2 _ _ _ _ _ _ _ _ _ _ _ (draw_blocks n g c t q t2)); [apply small_drop| |exact H].
    intros i p' Hp. destruct (HA i p' Hp) as (g' & c' & l & Ll & Hl & -> & H1). exists (map (fun b => (b, s_zero S)) l), (g' l c'). split; [|split; [|exact H1]].
    - intros _. apply Forall_map. exact Hl.
    - intro s. pose proof (draw_blocks n g' c' (glue (map (fun b => (b, s_zero S)) l) s) q t2) as D.
      assert (En : n = List.length (map (fun b => (b, s_zero S)) l)) by (rewrite map_length; auto). rewrite En in D at 2 3.
      rewrite glue_drop, glue_blocks, map_map in D. cbn [fst] in D. rewrite map_id in D. exact D.
  Qed.
  Lemma KM_scalars {I X Y} n g c t t2 (A A1 : I -> proc S (vole S * res X) -> Prop) (q : proc S (vole S * res Y)) R Q :
    (forall i p', A i p' -> exists g' c' l, List.length l = n /\ p' = mbind (mproc (rand_scalars n (fun bs => Ret (Ok bs)))) g' c' /\ A1 i (g' l c')) ->
    KM (tape_drop n t) t2 (g (tape_scalars n t) c) A1 q R Q ->
    KM t t2 (mbind (mproc (rand_scalars n (fun bs => Ret (Ok bs)))) g c) A q R Q.
  Proof.
    intros HA H. unfold KM. eapply (K_step _ _ t t2 _ _ _ _ _ _ _ _ _ _ _ (draw_scalars n g c t q t2)); [apply small_drop| |exact H].
    intros i p' Hp. destruct (HA i p' Hp) as (g' & c' & l & Ll & -> & H1). exists (map (fun x => (0%N, x)) l), (g' l c'). split; [|split; [|exact H1]].
    - intros _. apply Forall_map. apply Forall_forall. intros x _. reflexivity.
    - intro s. pose proof (draw_scalars n g' c' (glue (map (fun x => (0%N, x)) l) s) q t2) as D.
      assert (En : n = List.length (map (fun x : S => (0%N, x)) l)) by (rewrite map_length; auto). rewrite En in D at 2 3.
      rewrite glue_drop, glue_scalars, map_map in D. cbn [snd] in D. rewrite map_id in D. exact D.
  Qed.
  Lemma KM_rand {I Z X Y} (k : N -> S -> Z) g c t t2 (A A1 : I -> proc S (vole S * res X) -> Prop) (q : proc S (vole S * res Y)) R Q :
    (forall i p', A i p' -> exists (k' : N -> S -> Z) g' c' x, (x < 2^128)%N /\ p' = mbind (mproc (Rand (fun x y => Ret (Ok (k' x y))))) g' c' /\ A1 i (g' (k' x (s_zero S)) c')) ->
    KM (tape_drop 1 t) t2 (g (k (fst (t O)) (snd (t O))) c) A1 q R Q ->
    KM t t2 (mbind (mproc (Rand (fun x y => Ret (Ok (k x y))))) g c) A q R Q.
  Proof.
    intros HA H. unfold KM. eapply (K_step _ _ t t2 _ _ _ _ _ _ _ _ _ _ _ (draw_rand k g c t q t2)); [apply small_drop| |exact H].
    intros i p' Hp. destruct (HA i p' Hp) as (k' & g' & c' & x & Hx & -> & H1). exists [(x, s_zero S)], (g' (k' x (s_zero S)) c'). split; [|split; [|exact H1]].
    - intros _. repeat constructor. exact Hx.
    - intro s. exact (draw_rand k' g' c' (glue [(x, s_zero S)] s) q t2).
  Qed.
End Members.

Section Steps.
  Variable S : scalar.
  Hypothesis L : scalar_laws S.
  Variable E : setting.
  Variables MS MR : machine S.
  Hypothesis G : good_setting S E.
  Hypothesis GA : good_machine S MS.
  Hypothesis GB : good_machine S MR.
  Hypothesis HC : connected MS MR.
  Hypothesis Hsec : secure S E.
  Variable seed : N.
  Notation par := (e_parameters E).
  Notation aes := (e_aes E).
  Notation clog := (e_clog E).
  Notation too := (e_too_many_bits E).
  Notation e3 := (e_expansion3 E).
  Notation e2 := (e_expansion2 E).
  Notation coh := (coherent aes too e3 e2 (Hasher seed 3)).
  Notation lv := (zlen (p_seed_size par)).
  Notation top := (last (p_output_size par) 0).
  Notation sd i := (znth 0 (p_seed_size par) i).
  Notation no i := (znth 0 (p_num_noise par) i).
  Notation zn := (znth (s_zero S)).
  Implicit Types a b : vole S.
  Notation KM := (KM S).

  (** ** The code generator *)
  Lemma update_s (M : machine S) a out num m' s : m_update_buckets S E M out num a = Ret (set_mpfss S m' a, Ok tt) ->
    m_update_buckets S E M out num (set_s S s a) = Ret (set_mpfss S m' (set_s S s a), Ok tt).
  Proof.
    unfold m_update_buckets. change (v_mpfss (set_s S s a)) with (v_mpfss a). destruct (update_buckets _ _ _ _ _ _ _ _) as [m1 r1].
    intro H. injection H as E1 E2. now subst.
  Qed.

  Lemma common_K t t2 a b i out : same S E seed a b -> level S E a i -> 1 <= out <= top ->
    KM t t2 (precompute_common S E MS out a) (fun s p' => p' = precompute_common S E MS out (set_s S s a)) (precompute_common S E MR out b)
      (fun a1 _ b1 _ => recoded S E seed out a b a1 b1) (fun s a1 _ a1' _ b1 _ => a1' = set_s S s a1).
  Proof.
    intros Hsm (Hi & Evs & Ems & Eno) Ho.
    pose proof (same_noise _ _ _ _ _ Hsm) as Hno. pose proof (same_vs _ _ _ _ _ Hsm) as Hvs.
    destruct (m_update_ok S E G seed true MS a i out GA (same_a _ _ _ _ _ Hsm) Hi ltac:(lia)) as (ma & Hma & EA).
    destruct (m_update_ok S E G seed true MR b i out GB (same_b _ _ _ _ _ Hsm) Hi ltac:(lia)) as (mb & Hmb & EB).
    set (rows := v_vole_seed_size a).
    set (b1 := set_generator S rows (zrepeat [] out) (set_mpfss S mb b)). set (a1 := set_generator S rows (zrepeat [] out) (set_mpfss S ma a)).
    assert (Hch : s_can_hash S (security_per_leaf (vole_K E) (p_nonzeros par * out)) 128 = true) by (apply (Hsec out); lia).
    set (fin := fun (s : list N) => mbind (mcalc (rng_create s (p_nonzeros par * out))) (fun g =>
      if negb (s_can_hash S (security_per_leaf (vole_K E) (p_nonzeros par * out)) 128)
      then mfail (invalid_argument "Cannot sample enough random elements for the code generator with the given statistical security") else
      mbind (mcalc (sample_generator S E rows out g)) (fun columns => mset (set_generator S rows columns)))).
    assert (Hun : forall M c m', v_num_noise c = no i -> v_vole_seed_size c = rows ->
       m_update_buckets S E M out (no i) c = Ret (set_mpfss S m' c, Ok tt) ->
       precompute_common S E M out c = mbind (mproc (exchange_seed S M)) fin (set_generator S rows (zrepeat [] out) (set_mpfss S m' c))).
    { intros M c m' H1 H2 H3. unfold precompute_common. rewrite bind_get, H1. rewrite (bind_ok S _ _ _ _ _ H3), bind_get, bind_set.
      change (v_vole_seed_size (set_mpfss S m' c)) with (v_vole_seed_size c). rewrite H2. reflexivity. }
    apply (KM_conv S t t2 _ _ _ (fun s p' => p' = mbind (mproc (exchange_seed S MS)) fin (set_s S s a1)) _ _ _ _
      (Hun MS a ma Eno eq_refl EA) (Hun MR b mb (eq_trans (eq_sym Hno) Eno) (eq_sym Hvs) ltac:(rewrite <- EB; reflexivity))).
    { intros s p' ->. exact (Hun MS (set_s S s a) ma Eno eq_refl (update_s _ _ _ _ _ s EA)). }
    (* the step with the seed [bs] *)
    assert (Hfin : forall bs t t2, zlen bs = 2 ->
      let s := List.concat (map block_bytes bs) in
      KM t t2 (fin s a1) (fun s' p' => p' = fin s (set_s S s' a1)) (fin s b1) (fun a1 _ b1 _ => recoded S E seed out a b a1 b1) (fun s a1 _ a1' _ b1 _ => a1' = set_s S s a1)).
    { intros bs t0 t20 Hbs s. unfold fin, s. destruct (rng_create_ok bs (p_nonzeros par * out) Hbs) as (g & Eg).
      eapply KM_conv with (A2 := fun s' p' => p' = mbind (mcalc (sample_generator S E rows out g)) (fun columns => mset (set_generator S rows columns)) (set_s S s' a1));
        [rewrite (bind_calc S _ _ _ _ Eg), Hch; cbn [negb]; reflexivity|rewrite (bind_calc S _ _ _ _ Eg), Hch; cbn [negb]; reflexivity|
         intros s' p' ->; rewrite (bind_calc S _ _ _ _ Eg), Hch; cbn [negb]; exact eq_refl|].
      destruct (sample_generator S E rows out g) as [cols|e|u] eqn:Eg2.
      - unfold mbind, mcalc, mset. cbn [pbind]. apply KM_ret.
        + exists ma, mb, cols. split; [exact Hma|]. split; [exact Hmb|].
          split; [apply (sample_generator_len S E rows out g); [lia|exact Eg2]|]. split; reflexivity.
        + intros s' p' ->. do 2 eexists. split; reflexivity.
      - apply K_doomed_a. apply doomed_ret. exact Logic.I.
      - apply K_doomed_a. apply doomed_ret. exact Logic.I. }
    destruct HC as (H1 & H2 & H3).
    destruct (Z.ltb_spec (c_id MS) (c_id MR)) as [Hlt|Hge].
    - set (bs := tape_blocks 2 t). set (sb := List.concat (map block_bytes bs)).
      apply (K_front _ _ 2 t t2 _ _ _ _ _ [Got (MBytes sb)] (fin sb a1) (fun s' p' => p' = fin sb (set_s S s' a1)) (fin sb b1) t2).
      + apply vrun_proc. eapply wrun_vrun. apply exchange_run_a; lia.
      + intros s' p' ->. exists (fin sb (set_s S s' a1)). split; [|reflexivity]. intro s.
        pose proof (exchange_run_a S MS MR (glue (front 2 t) s) t2 ltac:(lia) ltac:(lia)) as W. cbv zeta in W. apply wrun_vrun in W.
        rewrite glue_front_blocks, glue_front_drop in W. apply (vrun_proc S _ _ _ _ _ _ _ _ _ fin fin _ _ W).
      + apply Hfin. reflexivity.
    - set (bs := tape_blocks 2 t2). set (sb := List.concat (map block_bytes bs)).
      apply (K_same _ _ t t2 _ _ _ _ _ (drew_blocks 2 t2) (fin sb a1) (fun s' p' => p' = fin sb (set_s S s' a1)) (fin sb b1) (tape_drop 2 t2)).
      + apply vrun_proc. eapply wrun_vrun. apply exchange_run_b; lia.
      + intros s' p' ->. exists (fin sb (set_s S s' a1)). split; [|reflexivity]. intro s.
        apply (vrun_proc S). eapply wrun_vrun. apply exchange_run_b; lia.
      + apply Hfin. reflexivity.
  Qed.

  Add Ring SR : (sl_ring S L).
  (** ** The first seed *)
  Lemma first_K t t2 size d a b : size = sd 0 + e3 (no 0) -> hides_vector S (vole_K E) size ->
    KM t t2 (sender_first_seed S E size a) (fun u' p' => zlen u' = size /\ p' = sender_first_seed S E size a) (receiver_first_seed S E MR size d b)
      (fun a1 _ b1 _ => exists ss rs, a1 = set_s S ss a /\ b1 = set_r S rs b /\ corr S d (s_cached ss) (r_cached rs) /\ zlen (rr_w (r_cached rs)) = size /\
         s_done ss = s_done (v_s a) /\ r_done rs = r_done (v_r b))
      (fun u' a1 _ a1' _ b1 _ => exists ss, a1' = set_s S ss a /\ corr S d (s_cached ss) (r_cached (v_r b1)) /\ sr_u (s_cached ss) = u' /\ s_done ss = s_done (v_s a)).
  Proof.
    intros Es Hhide. apply KM_small. intro Ht.
    pose proof (gs_levels S E G). pose proof (level_facts S E G 0 ltac:(lia)) as (K1 & K2 & K3 & _). pose proof (top_small S E G) as Htop.
    pose proof (sl_size S L) as Hsz. pose proof (gs_size S E G) as H16. pose proof (gs_first S E G) as Hfst.
    set (n := Z.to_nat size). set (out := map (c_junk MR) (zrange 0 size)). assert (Lo : zlen out = size) by (unfold out; rewrite zlen_map, zlen_zrange; lia).
    set (kg := fun (v w : list S) => mproc (Send (MVec (vec_add S w v)) (Ret (Ok tt))) : member S unit).
    set (aa := fun u v => set_s S (log_s S (combine u v) [] (set_s_cached S (SenderResult u v) (v_s a))) a).
    set (s2 := fun u v => mbind (mset (fun st => set_s S (log_s S (combine u v) [] (set_s_cached S (SenderResult u v) (v_s st))) st)) (fun _ =>
      mbind (mproc (gilboa_vector_provider S (vole_K E) u (zrepeat (s_zero S) size))) (kg v))).
    set (s1 := fun u => mbind (mproc (rand_scalars n (fun v => Ret (Ok v)))) (fun v => s2 u v)).
    set (u := tape_scalars n t). assert (Lu : zlen u = size) by (unfold u, zlen; rewrite length_tape_scalars; lia).
    set (t3 := tape_drop n t). set (v := tape_scalars n t3). assert (Lv : zlen v = size) by (unfold v, zlen; rewrite length_tape_scalars; lia).
    set (t4 := tape_drop n t3).
    destruct (gilboa_two S L H16 (vole_K E) u (zrepeat (s_zero S) size) d out t4 t2) as (r & rv & rx & k & W & Lrv & Lrx & Hq & Halt).
    { rewrite Lu. exact Hhide. } { apply small_drop, small_drop, Ht. } { rewrite zlen_zrepeat; lia. } { lia. } { pose proof (pf_pos S L H16). lia. } { rewrite <- transfers_eq by lia. rewrite Lu, Es. exact Hfst. }
    rewrite Lu in *. set (z := vec_add S rv v). assert (Lz : zlen z = size) by (unfold z; rewrite zlen_vec_add; lia).
    set (bb := set_r S (set_r_cached S (ReceiverResult out d) (v_r b)) b).
    set (r1 := fun (w : list S) => mbind (mproc (recv_vec (fun w2 => Ret (Ok w2)))) (fun w2 =>
      if negb (zlen w =? zlen w2) then mcalc (UB "Eigen: sizes differ") else
      let w := vec_add S w w2 in mset (fun st => set_r S (log_r S w [] (set_r_cached S (ReceiverResult w d) (v_r st))) st))).
    set (rr := set_r S (log_r S (vec_add S rx z) [] (set_r_cached S (ReceiverResult (vec_add S rx z) d) (v_r bb))) bb).
    eapply KM_conv with (q2 := mbind (mproc (gilboa_value_provider S (vole_K E) d out)) r1 bb); [exact (eq_refl (mbind (mproc (rand_scalars n (fun u => Ret (Ok u)))) s1 a))|reflexivity|intros u' p' Hp; exact Hp|].
    apply (KM_scalars S n s1 a t t2 _ (fun u' p' => zlen u' = size /\ p' = s1 u' a)).
    { intros u' p' [Lu' ->]. exists s1, a, u'. split; [unfold n, zlen in *; lia|]. split; [reflexivity|auto]. }
    fold u t3. unfold s1.
    (* what the other world needs *)
    set (fits := fun (u' v' : list S) => exists seg rv', Forall small1 seg /\
        (forall s, vrun (gilboa_vector_provider S (vole_K E) u' (zrepeat (s_zero S) size)) (glue seg s) (gilboa_value_provider S (vole_K E) d out) t2 r (Ret (Ok rv')) s (Ret (Ok rx)) t2) /\
        zlen rv' = size /\ (forall q, 0 <= q < size -> s_add S (zn rv' q) (zn rx q) = s_mul S d (zn u' q)) /\ vec_add S rv' v' = z).
    apply (KM_scalars S n (s2 u) a t3 t2 _ (fun u' p' => exists v', zlen u' = size /\ zlen v' = size /\ fits u' v' /\ p' = s2 u' v' a)).
    { intros u' p' [Lu' ->]. destruct (Halt u' Lu') as (seg & rv' & Hseg & W' & Lrv' & Hq'). set (v' := vec_sub S z rv').
      assert (Lv' : zlen v' = size) by (unfold v'; rewrite zlen_vec_sub; lia).
      exists (s2 u'), a, v'. split; [unfold n, zlen in *; lia|]. split; [reflexivity|]. exists v'. split; [exact Lu'|]. split; [exact Lv'|]. split; [|reflexivity].
      exists seg, rv'. repeat (split; [assumption|]). apply (znth_ext (s_zero S)); [rewrite zlen_vec_add; lia|]. intros p Hp. rewrite zlen_vec_add in Hp by lia.
      unfold v'. rewrite znth_vec_add by (unfold v' in *; lia). rewrite znth_vec_sub by lia. ring. }
    fold v t4. unfold s2. rewrite bind_set.
    assert (Hstep : forall u' v' w' t t2, vec_add S w' v' = z -> vrun (kg v' w' (aa u' v')) t (r1 rx bb) t2 [Got (MVec z)] (Ret (aa u' v', Ok tt)) t (Ret (rr, Ok tt)) t2).
    { intros u' v' w' t0 t20 Hz. assert (Hrr : (if negb (zlen rx =? zlen z) then mcalc (UB "Eigen: sizes differ") else
        let w := vec_add S rx z in mset (fun st => set_r S (log_r S w [] (set_r_cached S (ReceiverResult w d) (v_r st))) st)) bb = Ret (rr, Ok tt)) by (rewrite Lrx, Lz, Z.eqb_refl; reflexivity).
      rewrite <- Hrr. unfold kg. rewrite Hz. eapply vrun_hand. exact (vhand_ab (MVec z) _ _ _ _ eq_refl). }
    unfold KM. eapply (K_step _ _ t4 t2 _ _ _ _ _ r _ _ (fun u' p' => exists v' w', vec_add S w' v' = z /\ zlen u' = size /\ zlen v' = size /\ zlen w' = size /\
        (forall q, 0 <= q < size -> s_add S (zn w' q) (zn rx q) = s_mul S d (zn u' q)) /\ p' = kg v' w' (aa u' v')) _ _
      (vrun_proc S _ _ _ _ _ _ _ _ _ (kg v) r1 (aa u v) bb W)).
    { apply small_drop. }
    { intros u' p' (v' & Lu' & Lv' & (seg & rv' & Hseg & W' & Lrv' & Hq' & Hz) & ->). rewrite bind_set. exists seg, (kg v' rv' (aa u' v')). split; [auto|]. split.
      - intro s. exact (vrun_proc S _ _ _ _ _ _ _ _ _ (kg v') r1 (aa u' v') bb (W' s)).
      - exists v', rv'. auto 10. }
    assert (Hcor : forall u' v' w', zlen u' = size -> zlen v' = size -> zlen w' = size -> vec_add S w' v' = z -> (forall q, 0 <= q < size -> s_add S (zn w' q) (zn rx q) = s_mul S d (zn u' q)) ->
      corr S d (s_cached (v_s (aa u' v'))) (r_cached (v_r rr))).
    { intros u' v' w' Lu' Lv' Lw' Hz Hqx. split; [reflexivity|]. cbn. unfold vole_correlation. rewrite zlen_vec_add by lia. split; [lia|]. split; [lia|].
      intros p Hp. rewrite znth_vec_add by lia. rewrite <- Hz, znth_vec_add by lia. specialize (Hqx p ltac:(lia)).
      assert (E1 : zn rx p = s_sub S (s_mul S d (zn u' p)) (zn w' p)) by (rewrite <- Hqx; ring). rewrite E1. ring. }
    apply (K_same _ _ _ t2 _ _ _ _ _ [Got (MVec z)] (Ret (aa u v, Ok tt)) (fun u' p' => exists v', zlen u' = size /\ zlen v' = size /\ corr S d (s_cached (v_s (aa u' v'))) (r_cached (v_r rr)) /\ p' = Ret (aa u' v', Ok tt)) (Ret (rr, Ok tt)) t2).
    { now apply Hstep. }
    { intros u' p' (v' & w' & Hz & Lu' & Lv' & Lw' & Hqx & ->). exists (Ret (aa u' v', Ok tt)). split; [intro s; now apply Hstep|]. exists v'. repeat (split; [assumption|]). split; [|reflexivity].
      now apply (Hcor u' v' w'). }
    apply KM_ret.
    - exists (v_s (aa u v)), (v_r rr). split; [reflexivity|]. split; [reflexivity|]. split; [apply (Hcor u v rv); auto|]. split; [cbn; rewrite zlen_vec_add; lia|]. split; reflexivity.
    - intros u' p' (v' & Lu' & Lv' & Hc & ->). exists (aa u' v'), tt. split; [reflexivity|]. exists (v_s (aa u' v')). split; [reflexivity|]. split; [exact Hc|]. split; reflexivity.
  Qed.

  (** ** Expansion *)
  (** What the sender's secrets are in another world. *)
  Record alt := Alt { al_seed : list S; al_blocks : list N; al_chance : N; al_y : list S; al_pos : list Z; al_hashed : list Z }.
  Definition alt_ok i out (z : alt) : Prop :=
    List.length (al_blocks z) = 2%nat /\ Forall (fun k => (k < 2^128)%N) (al_blocks z) /\ (al_chance z < 2^128)%N /\ zlen (al_y z) = no i /\
    (exists g set, rng_create (List.concat (map block_bytes (al_blocks z))) (no i) = Ok g /\
       sample_indices S MS (c_patience MS) out (no i) g [] = Ok set /\ al_pos z = c_order MS (al_chance z) set) /\
    hash_cuckoo aes too (Hasher seed 3) (map uint128_of_int64 (al_pos z)) (e3 (no i)) = Ok (al_hashed z).
  Definition ordered out i (indices : list Z) : Prop := NoDup indices /\ zlen indices = no i /\ forall k, 0 <= k < no i -> 0 <= znth 0 indices k < out.
  Lemma order_ok i out blocks g set chance : 0 <= i < lv -> no i <= out <= top -> zlen blocks = 2 -> rng_create (List.concat (map block_bytes blocks)) (no i) = Ok g ->
    sample_indices S MS (c_patience MS) out (no i) g [] = Ok set -> ordered out i (c_order MS chance set).
  Proof.
    intros Hi Ho Hb Eg Esi. pose proof (level_facts S E G i Hi) as (Hsd & Hn & Hs & Ht & Ht2).
    pose proof (sample_indices_ok S MS (c_patience MS) out (no i) g [] GA ltac:(lia) (usable_create _ _ _ Eg) (NoDup_nil _) (Forall_nil _) ltac:(change (zlen (@nil Z)) with 0; lia)) as Hsi.
    rewrite Esi in Hsi. destruct Hsi as (Hnds & Hf & Hls).
    pose proof (gm_order S MS GA chance set) as Hp. set (indices := c_order MS chance set) in *. split; [|split].
    - eapply Permutation_NoDup; [apply Permutation_sym; exact Hp|auto].
    - unfold zlen in *; rewrite (Permutation_length Hp); auto.
    - intros k Hk. assert (Li : zlen indices = no i) by (unfold zlen in *; rewrite (Permutation_length Hp); auto).
      assert (Hin : In (znth 0 indices k) indices) by (apply znth_In; lia).
      apply (Permutation_in _ Hp) in Hin. exact (proj1 (Forall_forall _ _) Hf _ Hin).
  Qed.

  (** One multi-point function: the index provider comes first here. *)
  Lemma mpfss_vrun ma mb d i out (y : list S) indices hashed u v w t t2 : coh ma -> coh mb -> 0 <= i < lv -> no i <= out <= top -> ordered out i indices -> zlen y = no i ->
    zlen w = e3 (no i) -> vole_correlation S d u v w -> hash_cuckoo aes too (Hasher seed 3) (map uint128_of_int64 indices) (e3 (no i)) = Ok hashed ->
    let v1 := zrepeat (s_zero S) out in
    let value := mpfss_value_provider S aes clog (vole_K E) too e3 e2 (c_split MR out) mb d (no i) w v1 in
    let index := mpfss_index_provider S aes clog too e3 e2 (c_split MS out) ma y indices u v v1 in
    exists mm rv ri r t21, coh mm /\ vrun index t value t2 r (Ret (mm, Ok ri)) t (Ret (mm, Ok rv)) t21 /\ zlen ri = out /\ zlen rv = out /\
      (forall p, 0 <= p < out -> s_add S (zn rv p) (zn ri p) = point_value S d y indices p) /\
      fed [MVec (plus S (permuted S y hashed) u)] value t2 = Some (r, (mm, Ok rv), t21).
  Proof.
    intros Ca Cb Hi Ho (Hnd' & Li & Hr) Ly Lw Hv HH v1 value index.
    pose proof (level_facts S E G i Hi) as (Hsd & Hn & Hs & Ht & Ht2). pose proof (top_small S E G) as Htop.
    pose proof (He3 S E G) as He3. pose proof (He2 S E G) as He2.
    assert (Lz : zlen v1 = out) by (apply zlen_zrepeat; lia).
    pose proof (gm_split S _ GA out ltac:(lia)) as Da. pose proof (gm_split S _ GB out ltac:(lia)) as Db.
    pose proof (fresh_ok aes clog too e3 e2 He3 He2 seed out (no i) ltac:(lia) ltac:(lia) ltac:(lia) (Ht out ltac:(lia))) as Hfb.
    match type of Hfb with _ = Ok ?x => set (buckets := x) in Hfb end.
    assert (HG : good_sizes S clog (vole_K E) too e3 out (no i)).
    { split; [lia|]. split; [lia|]. split; [lia|]. split; [apply Ht; lia|]. split; [|apply (Hsec out); lia].
      intros s0 Hs0. apply (gs_clog S E G). lia. }
    pose proof (mpfss_hidden_vrun S L (gs_size S E G) aes clog (vole_K E) too e3 e2 He3 He2 seed mb ma (c_split MR out) (c_split MS out)
      d y indices u v w v1 v1 hashed buckets t2 t) as HM.
    cbv zeta in HM. rewrite Lz, Ly in HM. specialize (HM Cb Ca Db Da HG eq_refl Li Lw Hv Hr HH Hfb).
    destruct HM as (rv & ri & view & HV & Lrv & Lri & Hpv & _).
    destruct (jrun_vrun _ _ _ _ _ _ _ _ (jrun_swap _ _ _ _ _ _ _ _ (vrun_jrun _ _ _ _ _ _ _ _ _ HV))) as [r HW].
    set (st := Mpfss (Hasher seed 3) buckets (Some out) (Some (no i))) in *.
    exists st, rv, ri, r, (tape_drop (drawn_for (map zlen buckets)) t2). split.
    { split; [reflexivity|]. cbn. intros N0 n0 E1 E2. injection E1 as <-. injection E2 as <-. exact Hfb. }
    split; [exact HW|]. split; [exact Lri|]. split; [exact Lrv|]. split; [exact Hpv|].
    refine (hears _ _ _ _ _ _ _ _ _ HW _ _ [Sent (MVec (plus S (permuted S y hashed) u)); Chose false _] eq_refl eq_refl _ _).
    - intros evs He. pose proof (index_provider_trace S aes clog too e3 e2 He3 He2 seed (c_split MS out) ma y indices u v v1 evs Ca) as HT. cbv zeta in HT.
      rewrite Lz, Ly, HH in HT. apply HT; auto. lia.
    - repeat constructor.
  Qed.

  Lemma vrun_mmpfss {X Y A B} (f : mpfss -> proc S (mpfss * res X)) (g : mpfss -> proc S (mpfss * res Y)) (k : X -> member S A) (k2 : Y -> member S B) (a b : vole S) t t2 r ma x t1 mb y t21 :
    vrun (f (v_mpfss a)) t (g (v_mpfss b)) t2 r (Ret (ma, Ok x)) t1 (Ret (mb, Ok y)) t21 ->
    vrun (mbind (mmpfss f) k a) t (mbind (mmpfss g) k2 b) t2 r (k x (set_mpfss S ma a)) t1 (k2 y (set_mpfss S mb b)) t21.
  Proof.
    intro H. exact (vrun_bind (fun '(st, r) => match r with Ok a => k a st | Err e => Ret (st, Err e) | UB w => Ret (st, UB w) end)
      (fun '(st, r) => match r with Ok a => k2 a st | Err e => Ret (st, Err e) | UB w => Ret (st, UB w) end) _ _ _ _ _ _ _ _ _
      (vrun_bind (fun '(m, r) => Ret (set_mpfss S m a, r)) (fun '(m, r) => Ret (set_mpfss S m b, r)) _ _ _ _ _ _ _ _ _ H)).
  Qed.

  (** After the multi-point function. *)
  Lemma post a b d i out nvs nms mm y indices ri rv :
    holds S E d i (v_s a) (v_r b) -> zlen (v_columns a) = out -> 0 <= nvs -> 0 <= nms -> nvs + nms <= out ->
    ordered out i indices -> zlen y = no i ->
    zlen ri = out -> zlen rv = out -> (forall p, 0 <= p < out -> s_add S (zn rv p) (zn ri p) = point_value S d y indices p) ->
    coh mm ->
    exists ss rs mu, ks S out nvs nms (v_columns a) (v_s a) (no i) indices y ri (set_mpfss S mm a) =
        Ret (Vole S mm (v_rows a) (v_columns a) (v_batch_size a) nvs nms (v_num_noise a) ss (v_r a), Ok tt) /\
      kr S nvs nms (v_columns a) (v_r b) rv (set_mpfss S mm (waiting S MR out (v_r b) b)) =
        Ret (Vole S mm (v_rows b) (v_columns b) (v_batch_size b) nvs nms (v_num_noise b) (v_s b) rs, Ok tt) /\
      expanded S E seed d out nvs nms a b
        (Vole S mm (v_rows a) (v_columns a) (v_batch_size a) nvs nms (v_num_noise a) ss (v_r a)) tt
        (Vole S mm (v_rows b) (v_columns b) (v_batch_size b) nvs nms (v_num_noise b) (v_s b) rs) tt /\
      spread S out (no i) indices y = Ok mu /\
      sr_u (s_cached ss) = shrink nms (shrink nvs (sr_u (s_cached (v_s a)) ++ vec_add S (encode S (v_columns a) (sr_u (s_vole_seed (v_s a)))) mu)).
  Proof.
    intros ([Hcd Hc] & [Hvd Hvs] & [Hmd Hms] & Lvs & Lms & Hj) Hco H1 H2 H3 (Hnd' & Li & Hr) Hy Lri Lrv Hpv Hmm.
    pose proof Hvs as (Lu & Lv & _). pose proof (zlen_nonneg indices) as H0. pose proof (zlen_nonneg (v_columns a)) as Hc0.
    destruct (spread_ok S L out (no i) indices y) as (mu & Emu & Lmu & Hmu); auto; try lia.
    set (r := v_r b) in *.
    unfold ks, kr. rewrite (bind_calc S _ _ _ _ Emu), !bind_set. set (cols := v_columns a) in *.
    set (u := vec_add S (encode S cols (sr_u (s_vole_seed (v_s a)))) mu).
    set (v := vec_sub S (encode S cols (sr_v (s_vole_seed (v_s a)))) ri).
    set (w := vec_add S (encode S cols (rr_w (r_vole_seed r))) rv).
    assert (Hx : vole_correlation S d u v w).
    { pose proof (encode_linear S L cols _ _ _ _ Hvs) as (_ & _ & He).
      unfold vole_correlation, u, v, w. rewrite !zlen_vec_add, zlen_vec_sub, !zlen_encode by (rewrite ?zlen_encode; lia).
      repeat split; auto. intros p Hpr. rewrite !znth_vec_add, znth_vec_sub by (rewrite ?zlen_encode; lia).
      rewrite He by (rewrite zlen_encode; lia).
      assert (E1 : zn rv p = s_sub S (s_mul S d (zn mu p)) (zn ri p)) by (rewrite <- Hmu, <- Hpv by lia; ring). rewrite E1. ring. }
    assert (Lw : zlen w = out) by (unfold w; rewrite zlen_vec_add, zlen_encode; rewrite ?zlen_encode; lia).
    assert (Hcc : corr S d (SenderResult (sr_u (s_cached (v_s a)) ++ u) (sr_v (s_cached (v_s a)) ++ v)) (ReceiverResult (rr_w (r_cached r) ++ w) (rr_delta (r_cached r)))).
    { split; [exact Hcd|]. cbn. apply correlation_app; auto. }
    pose proof (zlen_nonneg (rr_w (r_cached r))) as Hnn.
    destruct Hc as (Lcu & Lcv & _). destruct Hx as (Lu' & Lv' & _).
    erewrite (bind_ok S (new_sender_seeds S nvs nms)); [|apply new_sender_ok; auto; cbn; rewrite zlen_app; lia].
    erewrite (bind_ok S (new_receiver_seeds S nvs nms)); [|apply new_receiver_ok; auto; cbn; rewrite zlen_app; lia].
    rewrite !bind_set. unfold mset.
    match goal with |- exists ss rs mu, Ret (set_mpfss_seed_size _ _ (set_vole_seed_size _ _ (set_s _ (reseed_s _ _ _ ?s0) _)), _) = _ /\ Ret (set_mpfss_seed_size _ _ (set_vole_seed_size _ _ (set_r _ (reseed_r _ _ _ ?r0) _)), _) = _ /\ _ =>
      pose proof (reseed_corr S true d nvs nms s0 r0) as Hrs; exists (reseed_s S nvs nms s0), (reseed_r S nvs nms r0), mu end.
    split; [reflexivity|]. split; [reflexivity|].
    cbn zeta in Hrs. destruct Hrs as (A1 & A2 & A3 & A4 & A5 & A6); auto; try lia; [cbn; rewrite zlen_app; lia|].
    split; [|split; [exact Emu|reflexivity]].
    eexists mm, mm, _, _. split; [auto|]. split; [auto|]. split; [exact Hco|]. split; [reflexivity|]. split; [reflexivity|]. split; [exact A1|]. split.
    { rewrite A2. cbn. rewrite zlen_app. fold r. lia. }
    repeat (split; [assumption|]). split; reflexivity.
  Qed.

  (** The vector the sender masks in the first world. *)
  Definition drawn i out (t : tape S) set : Prop := exists g, rng_create (List.concat (map block_bytes (tape_blocks 2 t))) (no i) = Ok g /\ sample_indices S MS (c_patience MS) out (no i) g [] = Ok set.
  Definition placed i out (t : tape S) (y : list S) indices hashed : Prop := exists set, drawn i out t set /\ indices = c_order MS (fst (t 2%nat)) set /\
    y = tape_scalars (Z.to_nat (no i)) (tape_drop 3 t) /\ hash_cuckoo aes too (Hasher seed 3) (map uint128_of_int64 indices) (e3 (no i)) = Ok hashed.
  Definition masking i out (t : tape S) u (um : alt -> list S) : Prop := forall z, alt_ok i out z -> zlen (um z) = e3 (no i) /\
    forall y indices hashed, placed i out t y indices hashed -> plus S (permuted S (al_y z) (al_hashed z)) (um z) = plus S (permuted S y hashed) u.

  Lemma hashed_length i indices hashed : 0 <= i < lv -> hash_cuckoo aes too (Hasher seed 3) (map uint128_of_int64 indices) (e3 (no i)) = Ok hashed -> zlen hashed = e3 (no i).
  Proof.
    intros Hi H. pose proof (level_facts S E G i Hi) as (Hsd & Hn & Hs & Ht & Ht2). pose proof (top_small S E G). apply (cuckoo_placement aes too seed 3) in H; [|reflexivity|lia]. apply H.
  Qed.
  Lemma masking_ex i out t u : 0 <= i < lv -> no i <= out <= top -> zlen u = e3 (no i) -> exists um, masking i out t u um.
  Proof.
    intros Hi Ho Lu. pose proof (level_facts S E G i Hi) as (Hsd & Hn & Hs & Ht & Ht2).
    set (bs := tape_blocks 2 t). destruct (rng_create_ok bs (no i) eq_refl) as (g & Eg).
    assert (Hz : (forall y indices hashed, ~ placed i out t y indices hashed) -> exists um, masking i out t u um).
    { intro Hno. exists (fun _ => zrepeat (s_zero S) (e3 (no i))). intros z Hz. split; [apply zlen_zrepeat; lia|]. intros y indices hashed HP. destruct (Hno _ _ _ HP). }
    destruct (sample_indices S MS (c_patience MS) out (no i) g []) as [set|e|w] eqn:Esi.
    2:{ apply Hz. intros y indices hashed (set & (g2 & Eg2 & Es2) & _). fold bs in Eg2. congruence. }
    2:{ apply Hz. intros y indices hashed (set & (g2 & Eg2 & Es2) & _). fold bs in Eg2. congruence. }
    set (indices := c_order MS (fst (t 2%nat)) set). set (y := tape_scalars (Z.to_nat (no i)) (tape_drop 3 t)).
    assert (Hu : forall y2 indices2 hashed2, placed i out t y2 indices2 hashed2 -> y2 = y /\ indices2 = indices /\ hash_cuckoo aes too (Hasher seed 3) (map uint128_of_int64 indices) (e3 (no i)) = Ok hashed2).
    { intros y2 i2 h2 (set2 & (g2 & Eg2 & Es2) & -> & -> & HH). fold bs in Eg2. rewrite Eg in Eg2. injection Eg2 as <-. rewrite Esi in Es2. injection Es2 as <-. auto. }
    destruct (hash_cuckoo aes too (Hasher seed 3) (map uint128_of_int64 indices) (e3 (no i))) as [hashed|e|w] eqn:HH.
    2:{ apply Hz. intros y2 i2 h2 HP. destruct (Hu _ _ _ HP) as (_ & _ & HC2). discriminate. }
    2:{ apply Hz. intros y2 i2 h2 HP. destruct (Hu _ _ _ HP) as (_ & _ & HC2). discriminate. }
    pose proof (hashed_length i indices hashed Hi HH) as Lh.
    assert (Lm : zlen (vec_add S (permuted S y hashed) u) = e3 (no i)) by (rewrite zlen_vec_add; unfold permuted; rewrite zlen_map; lia).
    exists (fun z => vec_sub S (plus S (permuted S y hashed) u) (permuted S (al_y z) (al_hashed z))). intros z Hz2.
    assert (Lz : zlen (permuted S (al_y z) (al_hashed z)) = e3 (no i)).
    { unfold permuted. rewrite zlen_map. destruct Hz2 as (_ & _ & _ & _ & _ & H6). apply (hashed_length i _ _ Hi H6). }
    change (plus S (permuted S y hashed) u) with (vec_add S (permuted S y hashed) u).
    split; [rewrite zlen_vec_sub; lia|]. intros y2 i2 h2 HP. destruct (Hu _ _ _ HP) as (-> & -> & HC2). injection HC2 as <-.
    change (plus S (permuted S y hashed) u) with (vec_add S (permuted S y hashed) u).
    match goal with |- plus S ?p ?q = _ => change (plus S p q) with (vec_add S p q) end.
    apply (znth_ext (s_zero S)); [rewrite zlen_vec_add; rewrite ?zlen_vec_sub; lia|]. intros p Hp.
    rewrite zlen_vec_add in Hp by (rewrite ?zlen_vec_sub; lia). rewrite znth_vec_add, znth_vec_sub by (rewrite ?zlen_vec_sub; lia). ring.
  Qed.

  Lemma expand_K t t2 a b d i out nvs nms um : same S E seed a b -> 0 <= i < lv -> v_num_noise a = no i -> v_rows a = sd i ->
    holds S E d i (v_s a) (v_r b) -> no i <= out <= top -> 0 <= nvs -> 0 <= nms -> nvs + nms <= out -> zlen (v_columns a) = out ->
    masking i out t (sr_u (s_mpfss_seed (v_s a))) um ->
    KM t t2 (expand_sender S E MS out nvs nms a)
      (fun zs p' => (alt_ok i out (fst zs) /\ holds S E d i (snd zs) (v_r b) /\ sr_u (s_mpfss_seed (snd zs)) = um (fst zs)) /\ p' = expand_sender S E MS out nvs nms (set_s S (snd zs) a))
      (expand_receiver S E MR out nvs nms b)
      (fun a1 _ b1 _ => expanded S E seed d out nvs nms a b a1 tt b1 tt /\ exists z mu, alt_ok i out z /\ spread S out (no i) (al_pos z) (al_y z) = Ok mu /\
         sr_u (s_cached (v_s a1)) = shrink nms (shrink nvs (sr_u (s_cached (v_s a)) ++ vec_add S (encode S (v_columns a) (sr_u (s_vole_seed (v_s a)))) mu)))
      (fun zs a1 _ a1' _ b1 _ => expanded S E seed d out nvs nms (set_s S (snd zs) a) b a1' tt b1 tt /\ a1' = set_s S (v_s a1') a1 /\
         exists mu, spread S out (no i) (al_pos (fst zs)) (al_y (fst zs)) = Ok mu /\
           sr_u (s_cached (v_s a1')) = shrink nms (shrink nvs (sr_u (s_cached (snd zs)) ++ vec_add S (encode S (v_columns a) (sr_u (s_vole_seed (snd zs)))) mu))).
  Proof.
    intros Hsm Hi Eno Ero Hh Ho H1 H2 H3 Hco Hum. apply KM_small. intro Hsmall.
    pose proof (level_facts S E G i Hi) as (Hsd & Hn & Hs & Ht & Ht2). pose proof (top_small S E G) as Htop.
    pose proof Hh as ([Hcd Hc] & [Hvd Hvs] & [Hmd Hms] & Lvs & Lms & Hj).
    set (v1 := zrepeat (s_zero S) out).
    set (value := mmpfss (fun st => mpfss_value_provider S aes clog (vole_K E) too e3 e2 (c_split MR out) st d (no i) (rr_w (r_mpfss_seed (v_r b))) v1) : member S (list S)).
    set (index := fun (s : sender_side S) indices y => mmpfss (fun st => mpfss_index_provider S aes clog too e3 e2 (c_split MS out) st y indices (sr_u (s_mpfss_seed s)) (sr_v (s_mpfss_seed s)) v1) : member S (list S)).
    set (s3 := fun s indices y => mbind (index s indices y) (ks S out nvs nms (v_columns a) s (no i) indices y)).
    set (s2 := fun s set => mbind (mproc (Rand (fun chance _ => Ret (Ok (c_order MS chance set))))) (fun indices =>
      mbind (mproc (rand_scalars (Z.to_nat (no i)) (fun y => Ret (Ok y)))) (fun y => s3 s indices y))).
    set (s1 := fun s blocks => mbind (mcalc (rng_create (List.concat (map block_bytes blocks)) (no i))) (fun g =>
      mbind (mcalc (sample_indices S MS (c_patience MS) out (no i) g [])) (fun set => s2 s set))).
    assert (Hrecv : expand_receiver S E MR out nvs nms b = mbind value (kr S nvs nms (v_columns a) (v_r b)) (waiting S MR out (v_r b) b)).
    { unfold expand_receiver. rewrite !bind_get. cbv zeta.
      rewrite <- (same_rows _ _ _ _ _ Hsm), <- (same_columns _ _ _ _ _ Hsm), <- (same_noise _ _ _ _ _ Hsm), Eno, Ero, Lvs, Hco, !Z.eqb_refl. cbn [negb orb].
      rewrite bind_set. unfold value. rewrite <- Hmd. reflexivity. }
    assert (Hsend : forall s, holds S E d i s (v_r b) -> expand_sender S E MS out nvs nms (set_s S s a) = mbind (mproc (rand_blocks 2 (fun bs => Ret (Ok bs)))) (s1 s) (set_s S s a)).
    { intros s (_ & [_ (Lu & Lv & _)] & _). unfold expand_sender. rewrite !bind_get. cbv zeta. cbn [set_s v_s v_rows v_columns v_num_noise].
      rewrite Eno, Ero, Lu, Lv, Lvs, Hco, !Z.eqb_refl. cbn [negb orb]. replace (no i <? 0) with false by lia. reflexivity. }
    assert (Ea : set_s S (v_s a) a = a) by (destruct a; reflexivity).
    pose proof (Hsend (v_s a) Hh) as Esend. rewrite Ea in Esend.
    set (ok := fun zs : alt * sender_side S => alt_ok i out (fst zs) /\ holds S E d i (snd zs) (v_r b) /\ sr_u (s_mpfss_seed (snd zs)) = um (fst zs)).
    apply (KM_conv S t t2 _ _ _ (fun zs p' => ok zs /\ p' = mbind (mproc (rand_blocks 2 (fun bs => Ret (Ok bs)))) (s1 (snd zs)) (set_s S (snd zs) a)) _ _ _ _ Esend Hrecv).
    { intros [z s] p' [Hok ->]. split; [exact Hok|]. apply Hsend. apply Hok. }
    apply (KM_blocks S 2 (s1 (v_s a)) a t t2 _ (fun zs p' => ok zs /\ exists set, al_pos (fst zs) = c_order MS (al_chance (fst zs)) set /\ p' = s2 (snd zs) set (set_s S (snd zs) a))).
    { intros [z s] p' [Hok ->]. pose proof Hok as ((A1 & A2 & A3 & A4 & (g' & set' & Eg' & Es' & Ep') & A6) & _). exists (s1 s), (set_s S s a), (al_blocks z). split; [exact A1|]. split; [exact A2|]. split; [reflexivity|].
      split; [exact Hok|]. exists set'. split; [exact Ep'|]. cbn [snd]. unfold s1. now rewrite (bind_calc S _ _ _ _ Eg'), (bind_calc S _ _ _ _ Es'). }
    set (bs := tape_blocks 2 t). destruct (rng_create_ok bs (no i) eq_refl) as (g & Eg).
    unfold s1. rewrite (bind_calc S _ _ _ _ Eg).
    destruct (sample_indices S MS (c_patience MS) out (no i) g []) as [set|e|w] eqn:Esi.
    2:{ apply K_doomed_a. apply doomed_ret. exact Logic.I. } 2:{ apply K_doomed_a. apply doomed_ret. exact Logic.I. }
    erewrite bind_calc by reflexivity. unfold s2 at 1.
    apply (KM_rand S (fun chance _ => c_order MS chance set) _ a (tape_drop 2 t) t2 _ (fun zs p' => ok zs /\ p' = mbind (mproc (rand_scalars (Z.to_nat (no i)) (fun y => Ret (Ok y)))) (fun y => s3 (snd zs) (al_pos (fst zs)) y) (set_s S (snd zs) a))).
    { intros [z s] p' [Hok (set' & Ep' & ->)]. exists (fun chance _ => c_order MS chance set'), (fun indices => mbind (mproc (rand_scalars (Z.to_nat (no i)) (fun y => Ret (Ok y)))) (fun y => s3 s indices y)), (set_s S s a), (al_chance z).
      split; [apply Hok|]. split; [reflexivity|]. split; [exact Hok|]. cbn [fst snd] in *. now rewrite Ep'. }
    rewrite tape_drop_drop, tape_drop_at. cbn [Nat.add]. set (indices := c_order MS (fst (t 2%nat)) set).
    apply (KM_scalars S (Z.to_nat (no i)) _ a (tape_drop 3 t) t2 _ (fun zs p' => ok zs /\ p' = s3 (snd zs) (al_pos (fst zs)) (al_y (fst zs)) (set_s S (snd zs) a))).
    { intros [z s] p' [Hok ->]. exists (fun y => s3 s (al_pos z) y), (set_s S s a), (al_y z). pose proof Hok as ((_ & _ & _ & A4 & _) & _). cbn [fst snd] in *. split; [unfold zlen in A4; lia|]. split; [reflexivity|]. split; [exact Hok|reflexivity]. }
    set (y := tape_scalars (Z.to_nat (no i)) (tape_drop 3 t)). set (t3 := tape_drop (Z.to_nat (no i)) (tape_drop 3 t)).
    assert (Hy : zlen y = no i) by (unfold y, zlen; rewrite length_tape_scalars; lia).
    pose proof (order_ok i out bs g set (fst (t 2%nat)) Hi Ho eq_refl Eg Esi) as Hord. fold indices in Hord.
    assert (Lz : zlen v1 = out) by (apply zlen_zrepeat; lia).
    destruct (cuckoo_outcome aes too seed 3 (Hasher seed 3) (map uint128_of_int64 indices) (e3 (no i)) eq_refl ltac:(lia)) as [_ Hout].
    destruct Hord as (Hnd' & Li & Hr). rewrite zlen_map, Li in Hout. destruct Hout as [[hashed HH] | HE]; [intros [?|[?|[?|?]]]; try lia; congruence| |].
    2:{ apply K_doomed_a. destruct (insertion_fails S aes clog too e3 e2 (He3 S E G) (He2 S E G) seed (c_split MS out) (v_mpfss a) y indices (sr_u (s_mpfss_seed (v_s a))) (sr_v (s_mpfss_seed (v_s a))) v1) as (st' & _ & Hret);
          rewrite ?Lz, ?Hy; auto; try lia; try (apply Ht; lia); try (intros k Hk; specialize (Hr k Hk); lia).
        - apply (same_a _ _ _ _ _ Hsm).
        - apply (gm_split S _ GA out ltac:(lia)).
        - specialize (Hret Hnd'). unfold returns in Hret. unfold s3, index, mmpfss, mbind. rewrite Hret. cbn [pbind]. apply doomed_ret. exact Logic.I. }
    assert (Hord : ordered out i indices) by (split; auto).
    assert (HP : placed i out t y indices hashed) by (exists set; split; [exists g; auto|]; split; [reflexivity|]; split; [reflexivity|exact HH]).
    destruct (mpfss_vrun (v_mpfss a) (v_mpfss b) d i out y indices hashed _ _ _ t3 t2 (same_a _ _ _ _ _ Hsm) (same_b _ _ _ _ _ Hsm) Hi Ho Hord Hy Lms Hms HH)
      as (mm & rv & ri & r & t21 & Hmm & HW & Lri & Lrv & Hpv & HF).
    destruct (post a b d i out nvs nms mm y indices ri rv) as (ss & rs & mu & P1 & P2 & P3 & P4 & P5); auto.
    eapply (K_same _ _ t3 t2 _ _ _ _ _ r _ (fun zs p' => exists ri', ok zs /\ zlen ri' = out /\ (forall p, 0 <= p < out -> s_add S (zn rv p) (zn ri' p) = point_value S d (al_y (fst zs)) (al_pos (fst zs)) p) /\ ordered out i (al_pos (fst zs)) /\
         p' = ks S out nvs nms (v_columns a) (snd zs) (no i) (al_pos (fst zs)) (al_y (fst zs)) ri' (set_mpfss S mm (set_s S (snd zs) a))) _ t21).
    - unfold s3, index, value. eapply vrun_mmpfss. exact HW.
    - intros [z s] p' [Hok ->]. pose proof Hok as ((B1 & B2 & B3 & B4 & (g' & set' & Eg' & Es' & Ep') & B6) & Hhs & Em). cbn [fst snd] in *.
      pose proof Hhs as (_ & _ & [_ Hms'] & _).
      assert (Hord' : ordered out i (al_pos z)) by (rewrite Ep'; apply (order_ok i out (al_blocks z) g'); auto; unfold zlen; lia).
      assert (Hrun : forall s0, exists ri', zlen ri' = out /\ (forall p, 0 <= p < out -> s_add S (zn rv p) (zn ri' p) = point_value S d (al_y z) (al_pos z) p) /\
        vrun (mpfss_index_provider S aes clog too e3 e2 (c_split MS out) (v_mpfss a) (al_y z) (al_pos z) (sr_u (s_mpfss_seed s)) (sr_v (s_mpfss_seed s)) v1) s0
          (mpfss_value_provider S aes clog (vole_K E) too e3 e2 (c_split MR out) (v_mpfss b) d (no i) (rr_w (r_mpfss_seed (v_r b))) v1) t2 r (Ret (mm, Ok ri')) s0 (Ret (mm, Ok rv)) t21).
      { intro s0. destruct (mpfss_vrun (v_mpfss a) (v_mpfss b) d i out (al_y z) (al_pos z) (al_hashed z) _ _ _ s0 t2 (same_a _ _ _ _ _ Hsm) (same_b _ _ _ _ _ Hsm) Hi Ho Hord' B4 Lms Hms' B6)
          as (mm2 & rv2 & ri2 & r2 & t22 & Hmm2 & HW2 & Lri2 & Lrv2 & Hpv2 & HF2).
        rewrite Em in HF2. destruct (Hum z (proj1 Hok)) as [_ Hum2]. rewrite (Hum2 _ _ _ HP) in HF2. rewrite HF in HF2. injection HF2 as <- <- <- <-.
        exists ri2. auto. }
      destruct (Hrun t3) as (ri' & Lri' & Hpv' & HW').
      eexists. split.
      + intro s0. unfold s3, index, value. eapply vrun_mmpfss. destruct (Hrun s0) as (ri2 & Lri2 & Hpv2 & HW2).
        assert (ri2 = ri') as ->.
        { apply (znth_ext (s_zero S)); [lia|]. intros p Hp. specialize (Hpv' p ltac:(lia)). specialize (Hpv2 p ltac:(lia)).
          assert (X : forall q, s_add S (zn rv p) q = point_value S d (al_y z) (al_pos z) p -> q = s_sub S (point_value S d (al_y z) (al_pos z) p) (zn rv p)) by (intros q <-; ring).
          rewrite (X _ Hpv'), (X _ Hpv2). reflexivity. }
        exact HW2.
      + cbn [fst snd]. exists ri'. repeat (split; [assumption|]). reflexivity.
    - change (set_mpfss S mm (waiting S MR out (v_r b) b)) with (set_mpfss S mm (waiting S MR out (v_r b) b)). rewrite P1, P2. apply KM_ret.
      { split; [exact P3|]. exists (Alt [] bs (fst (t 2%nat)) y indices hashed), mu. split; [|split; [exact P4|exact P5]].
        split; [reflexivity|]. split; [|split; [apply Hsmall|split; [exact Hy|split; [exists g, set; auto|exact HH]]]].
        cbn [al_blocks]. unfold bs. repeat constructor; apply Hsmall. }
      intros [z s] p' (ri' & Hok & Lri' & Hpv' & Hord' & ->). pose proof Hok as ((B1 & B2 & B3 & B4 & _) & Hhs & Em). cbn [fst snd] in *.
      destruct (post (set_s S s a) b d i out nvs nms mm (al_y z) (al_pos z) ri' rv) as (ss' & rs' & mu' & P1' & P2' & P3' & P4' & P5'); auto.
      change (v_columns (set_s S s a)) with (v_columns a) in *. rewrite P2 in P2'. injection P2' as <-.
      do 2 eexists. split; [exact P1'|]. split; [exact P3'|]. split; [reflexivity|]. exists mu'. split; [exact P4'|exact P5'].
  Qed.
End Steps.
