(** The member functions of the receiver and the sender in two worlds with
    different secrets of the receiver. *)
From Verif Require Import Base BaseFacts ListFacts ScalarModel ScalarSpec ScalarProofs SumFacts PackModel
  ProcModel ProcSpec ProcProofs MeetProofs RotModel RotSpec RotProofs RotFinal SpfssModel SpfssProofs
  GilboaModel GilboaSpec GilboaProofs GilboaFinal RngModel RngUsable RngProofs CuckooModel CuckooSpec CuckooProofs CuckooFinal
  MpfssModel MpfssSpec MpfssProofs MpfssFinal VoleModel VoleSpec VoleProofs VoleMeet VolePair
  HideSpec HideRun HideFinal HideMpfss DeltaSpec DeltaRun DeltaLogic DeltaTrees DeltaRng DeltaGilboa.
From Coq Require Import QArith Permutation.
Local Open Scope Z_scope.

Section Runs.
  Variable S : scalar.
  Lemma wrun_proc {X Y A B} (p : proc S (res X)) (p2 : proc S (res Y)) t t2 l r x t' y t2' (f : X -> member S A) (g : Y -> member S B) c c2 :
    wrun p t p2 t2 l r (Ret (Ok x)) t' (Ret (Ok y)) t2' ->
    wrun (mbind (mproc p) f c) t (mbind (mproc p2) g c2) t2 l r (f x c) t' (g y c2) t2'.
  Proof.
    intro H. exact (wrun_bind (fun '(st, r) => match r with Ok a => f a st | Err e => Ret (st, Err e) | UB w => Ret (st, UB w) end)
      (fun '(st, r) => match r with Ok a => g a st | Err e => Ret (st, Err e) | UB w => Ret (st, UB w) end) _ _ _ _ _ _ _ _ _ _
      (wrun_bind (fun r => Ret (c, r)) (fun r => Ret (c2, r)) _ _ _ _ _ _ _ _ _ _ H)).
  Qed.
  Lemma vrun_proc {X Y A B} (p : proc S (res X)) (p2 : proc S (res Y)) t t2 r x t' y t2' (f : X -> member S A) (g : Y -> member S B) c c2 :
    vrun p t p2 t2 r (Ret (Ok x)) t' (Ret (Ok y)) t2' ->
    vrun (mbind (mproc p) f c) t (mbind (mproc p2) g c2) t2 r (f x c) t' (g y c2) t2'.
  Proof.
    intro H. exact (vrun_bind (fun '(st, r) => match r with Ok a => f a st | Err e => Ret (st, Err e) | UB w => Ret (st, UB w) end)
      (fun '(st, r) => match r with Ok a => g a st | Err e => Ret (st, Err e) | UB w => Ret (st, UB w) end) _ _ _ _ _ _ _ _ _
      (vrun_bind (fun r => Ret (c, r)) (fun r => Ret (c2, r)) _ _ _ _ _ _ _ _ _ H)).
  Qed.

  (** Random choices of the second party only. *)
  Lemma prefix_blocks {RA A} (pa : proc S RA) t n (g : list N -> member S A) c t2 :
    wrun pa t (mbind (mproc (rand_blocks n (fun bs => Ret (Ok bs)))) g c) t2 [] (drew_blocks n t2) pa t (g (tape_blocks n t2) c) (tape_drop n t2).
  Proof.
    assert (H : forall n (k : list N -> proc S (res (list N))) F1 (F2 : vole S * res (list N) -> proc S (vole S * res A)) t2,
      wrun pa t (pbind (pbind (rand_blocks n k) F1) F2) t2 [] (drew_blocks n t2) pa t (pbind (pbind (k (tape_blocks n t2)) F1) F2) (tape_drop n t2)).
    { clear. induction n as [|n IH]; intros k F1 F2 t2; [constructor|]. rewrite drew_blocks_S. cbn [rand_blocks pbind tape_drop tape_blocks].
      eapply (wrun_cons _ _ _ _ [] [_]); [constructor|]. apply IH. }
    exact (H n _ _ _ t2).
  Qed.
  Lemma prefix_scalars {RA A} (pa : proc S RA) t n (g : list S -> member S A) c t2 :
    wrun pa t (mbind (mproc (rand_scalars n (fun bs => Ret (Ok bs)))) g c) t2 [] (drew_blocks n t2) pa t (g (tape_scalars n t2) c) (tape_drop n t2).
  Proof.
    assert (H : forall n (k : list S -> proc S (res (list S))) F1 (F2 : vole S * res (list S) -> proc S (vole S * res A)) t2,
      wrun pa t (pbind (pbind (rand_scalars n k) F1) F2) t2 [] (drew_blocks n t2) pa t (pbind (pbind (k (tape_scalars n t2)) F1) F2) (tape_drop n t2)).
    { clear. induction n as [|n IH]; intros k F1 F2 t2; [constructor|]. rewrite drew_blocks_S. cbn [rand_scalars pbind tape_drop tape_scalars].
      eapply (wrun_cons _ _ _ _ [] [_]); [constructor|]. apply IH. }
    exact (H n _ _ _ t2).
  Qed.
  Lemma prefix_rand {RA X A} (pa : proc S RA) t (k : N -> S -> X) (g : X -> member S A) c t2 :
    wrun pa t (mbind (mproc (Rand (fun x y => Ret (Ok (k x y))))) g c) t2 [] (drew_blocks 1 t2) pa t (g (k (fst (t2 O)) (snd (t2 O))) c) (tape_drop 1 t2).
  Proof. eapply (wrun_cons _ _ _ _ [] [_]); [constructor|]. apply (wrun_nil _ _ _ _). Qed.

  Lemma exchange_run_a (MA MB : machine S) t t2 : c_id MA < c_peer_id MA -> c_peer_id MB <= c_id MB ->
    let seed := List.concat (map block_bytes (tape_blocks 2 t)) in
    wrun (exchange_seed S MA) t (exchange_seed S MB) t2 (drew_blocks 2 t) [Got (MBytes seed)] (Ret (Ok seed)) (tape_drop 2 t) (Ret (Ok seed)) t2.
  Proof.
    intros H1 H2 seed. unfold exchange_seed. replace (c_id MA <? c_peer_id MA) with true by lia. replace (c_id MB <? c_peer_id MB) with false by lia.
    rewrite <- (app_nil_r (drew_blocks 2 t)). change [Got (MBytes seed)] with ([] ++ [@Got S (MBytes seed)]).
    eapply wrun_trans; [apply wrun_rand_blocks_a|]. apply wrun_hand. now constructor.
  Qed.
  Lemma exchange_run_b (MA MB : machine S) t t2 : c_peer_id MA <= c_id MA -> c_id MB < c_peer_id MB ->
    let seed := List.concat (map block_bytes (tape_blocks 2 t2)) in
    wrun (exchange_seed S MA) t (exchange_seed S MB) t2 [Got (MBytes seed)] (drew_blocks 2 t2) (Ret (Ok seed)) t (Ret (Ok seed)) (tape_drop 2 t2).
  Proof.
    intros H1 H2 seed. unfold exchange_seed. replace (c_id MB <? c_peer_id MB) with true by lia. replace (c_id MA <? c_peer_id MA) with false by lia.
    rewrite <- (app_nil_r (drew_blocks 2 t2)). change [Got (MBytes seed)] with ([] ++ [@Got S (MBytes seed)]).
    eapply wrun_trans; [apply wrun_rand_blocks_b|]. apply wrun_hand. now constructor.
  Qed.
End Runs.

Section Steps.
  Variable S : scalar.
  Hypothesis L : scalar_laws S.
  Variable E : setting.
  Variables (uniform uniform64 : (N -> N -> N) -> Z -> rng -> res (rng * Z)).
  Hypothesis Hu : uses_generator uniform.
  Hypothesis Hu64 : uses_generator uniform64.
  Variables MR MS : machine S.
  Notation EE := (with_aes uniform E).
  Notation MA w := (machine_with_aes uniform64 MS w).
  Notation MB w := (machine_with_aes uniform64 MR w).
  Hypothesis G : forall w, good_setting S (EE w).
  Hypothesis GA : forall w, good_machine S (MA w).
  Hypothesis GB : forall w, good_machine S (MB w).
  Hypothesis HC : connected MS MR.
  Hypothesis Hsec : secure S E.
  Variable aes : N -> N -> N.
  Variables ta tb : tape S.
  Variables m0 P PB D : nat.
  Hypothesis Hacc : no_accidents aes D (tape_blocks P ta) (tape_blocks PB tb).
  Hypothesis HD : forall n, 1 <= n <= 3 * last (p_output_size (e_parameters E)) 0 -> (e_clog E 2 n <= D)%nat.
  Variable seed : N.
  Hypothesis Hseed : ~ used ta m0 P seed.
  Notation par := (e_parameters E).
  Notation clog := (e_clog E).
  Notation too := (e_too_many_bits E).
  Notation e3 := (e_expansion3 E).
  Notation e2 := (e_expansion2 E).
  Notation coh := (coherent aes too e3 e2 (Hasher seed 3)).
  Notation lv := (zlen (p_seed_size par)).
  Notation top := (last (p_output_size par) 0).
  Notation sd i := (znth 0 (p_seed_size par) i).
  Notation no i := (znth 0 (p_num_noise par) i).
  Notation zn := (znth (s_zero S)).
  Notation okw := (okw aes ta m0 P).
  Implicit Types a b : vole S.

  Lemma Hnd : NoDup (tape_blocks P ta). Proof. apply Hacc. Qed.
  Lemma sender_key p : (p < PB)%nat -> ~ used ta m0 P (fst (tb p)).
  Proof.
    intros Hp (i & Hi & Eq). destruct Hacc as (_ & _ & Hd & _). apply (Hd (fst (tb p))).
    - apply In_tape_blocks. exists i. split; [lia|exact Eq].
    - apply In_tape_blocks. eauto.
  Qed.
  Lemma small_a p : (p < P)%nat -> (fst (ta p) < 2^128)%N.
  Proof. intro Hp. apply (proj1 (Forall_forall _ _) (proj1 Hacc)). apply in_or_app. left. apply In_tape_blocks. eauto. Qed.
  Lemma small_b p : (p < PB)%nat -> (fst (tb p) < 2^128)%N.
  Proof. intro Hp. apply (proj1 (Forall_forall _ _) (proj1 Hacc)). apply in_or_app. right. apply In_tape_blocks. eauto. Qed.
  Lemma seed_same w x : okw w -> w seed x = aes seed x.
  Proof. intro H. now apply H. Qed.

  Definition bad {A} (r : vole S * res A) : Prop := match snd r with Ok _ => False | _ => True end.
  Definition lift {X Y} (Q : vole S -> X -> vole S -> Y -> vole S -> X -> Prop) (y : vole S * res X) (x : vole S * res Y) (y' : vole S * res X) : Prop :=
    exists b v a u b' v', y = (b, Ok v) /\ x = (a, Ok u) /\ y' = (b', Ok v') /\ Q b v a u b' v'.
  Definition JM {X Y} m q (pr : proc S (vole S * res X)) (pr' : (N -> N -> N) -> proc S (vole S * res X)) (ps : (N -> N -> N) -> proc S (vole S * res Y)) Q : Prop :=
    J aes ta tb m0 P PB bad bad m q pr pr' ps (lift Q).

  Lemma JM_bind {X Y X' Y'} m q Q Q' (p : member S X) p' (s : (N -> N -> N) -> member S Y) (f : X -> member S X') f' (g : (N -> N -> N) -> Y -> member S Y') b b' a :
    JM m q (p b) (fun w => p' w b') (fun w => s w a) Q ->
    (forall ka kb b v a u b' v', (ka + m <= P)%nat -> (kb + q <= PB)%nat -> Q b v a u b' v' ->
       JM (ka + m) (kb + q) (f v b) (fun w => f' w v' b') (fun w => g w u a) Q') ->
    JM m q (mbind p f b) (fun w => mbind (p' w) (f' w) b') (fun w => mbind (s w) (g w) a) Q'.
  Proof.
    intros H Hk. unfold JM, mbind.
    apply (J_bind aes ta tb m0 P PB Hnd bad bad bad bad m q _ _ _ (lift Q) _ _
      (fun y w => let '(st, r) := y in match r with Ok a => f' w a st | Err e => Ret (st, Err e) | UB u => Ret (st, UB u) end)
      (fun y w => let '(st, r) := y in match r with Ok a => g w a st | Err e => Ret (st, Err e) | UB u => Ret (st, UB u) end) H).
    - intros [st [x|e|x]] Hb; cbn in Hb; [contradiction| |]; apply doomed_ret; exact I.
    - intros [st [x|e|x]] Hb; cbn in Hb; [contradiction| |]; apply doomed_ret; exact I.
    - intros ka kb y x y' Hp Hq (b1 & v & a1 & u & b1' & v' & -> & -> & -> & HQ). now apply Hk.
  Qed.
  Lemma JM_ret {X Y} m q (Q : vole S -> X -> vole S -> Y -> vole S -> X -> Prop) b v a u b' v' : (m <= P)%nat -> (q <= PB)%nat -> Q b v a u b' v' ->
    JM m q (Ret (b, Ok v)) (fun _ => Ret (b', Ok v')) (fun _ => Ret (a, Ok u)) Q.
  Proof. intros. apply J_ret; auto. exists b, v, a, u, b', v'. auto. Qed.
  Lemma JM_weaken {X Y} m q (Q Q' : vole S -> X -> vole S -> Y -> vole S -> X -> Prop) pr pr' ps :
    JM m q pr pr' ps Q -> (forall b v a u b' v', Q b v a u b' v' -> Q' b v a u b' v') -> JM m q pr pr' ps Q'.
  Proof.
    intros H HQ. eapply J_weaken; [exact H|]. intros y x y' (b & v & a & u & b' & v' & E1 & E2 & E3 & H1). exists b, v, a, u, b', v'. auto.
  Qed.
  Lemma JM_conv {X Y} m q pr pr2 pr' pr2' ps ps2 (Q : vole S -> X -> vole S -> Y -> vole S -> X -> Prop) :
    pr = pr2 -> (forall w, okw w -> pr' w = pr2' w) -> (forall w, okw w -> ps w = ps2 w) -> JM m q pr2 pr2' ps2 Q -> JM m q pr pr' ps Q.
  Proof. apply J_conv. Qed.

  (** ** The code generator *)
  Lemma update_w (M : (N -> N -> N) -> machine S) (c : vole S) i out : good_machine S (M aes) -> (forall w, c_split (M w) = c_split (M aes)) -> coh (v_mpfss c) -> 0 <= i < lv -> 0 <= out <= top ->
    exists m', coh m' /\ forall w c', okw w -> v_mpfss c' = v_mpfss c -> m_update_buckets S (EE w) (M w) out (no i) c' = Ret (set_mpfss S m' c', Ok tt).
  Proof.
    intros GM Hsp Hc Hi Ho. destruct (m_update_ok S (EE aes) (G aes) seed true (M aes) c i out GM Hc Hi Ho) as (m' & Hm' & EU).
    exists m'. split; [exact Hm'|]. intros w c' Hw Ec. unfold m_update_buckets in *. cbn [with_aes e_aes e_too_many_bits e_expansion3 e_expansion2] in *.
    rewrite Ec, Hsp. rewrite (update_same aes w too (Hasher seed 3) (fun x => seed_same w x Hw)) by apply Hc.
    change (e_parameters (EE aes)) with par in EU.
    destruct (update_buckets _ _ _ _ _ _ _ _) as [m1 r1]. injection EU as E1 E2. now subst.
  Qed.

  Lemma common_J m q a b r' i out : (m0 <= m)%nat -> same S (EE aes) seed a b -> level S (EE aes) a i -> 1 <= out <= top ->
    JM m q (precompute_common S (EE aes) (MB aes) out b) (fun w => precompute_common S (EE w) (MB w) out (set_r S r' b))
      (fun w => precompute_common S (EE w) (MA w) out a)
      (fun b1 _ a1 _ b1' _ => recoded S (EE aes) seed out a b a1 b1 /\ b1' = set_r S r' b1).
  Proof.
    intros Hm Hsm (Hi & Evs & Ems & Eno) Ho. change (e_parameters (EE aes)) with par in *. change (e_expansion3 (EE aes)) with e3 in *.
    pose proof (same_noise _ _ _ _ _ Hsm) as Hno. pose proof (same_vs _ _ _ _ _ Hsm) as Hvs.
    destruct (update_w (fun w => MA w) a i out (GA aes) (fun _ => eq_refl) (same_a _ _ _ _ _ Hsm) Hi ltac:(lia)) as (ma & Hma & EA).
    destruct (update_w (fun w => MB w) b i out (GB aes) (fun _ => eq_refl) (same_b _ _ _ _ _ Hsm) Hi ltac:(lia)) as (mb & Hmb & EB).
    set (rows := v_vole_seed_size a).
    set (b1 := set_generator S rows (zrepeat [] out) (set_mpfss S mb b)). set (a1 := set_generator S rows (zrepeat [] out) (set_mpfss S ma a)).
    set (fin := fun w (s : list N) => mbind (mcalc (rng_create s (p_nonzeros par * out))) (fun g =>
      mbind (mcalc (sample_generator S (EE w) rows out g)) (fun columns => mset (set_generator S rows columns)))).
    assert (Hch : s_can_hash S (security_per_leaf (vole_K E) (p_nonzeros par * out)) 128 = true) by (apply (Hsec out); lia).
    assert (Hun : forall w M M' c m', okw w -> v_num_noise c = no i -> v_vole_seed_size c = rows ->
       m_update_buckets S (EE w) M out (no i) c = Ret (set_mpfss S m' c, Ok tt) -> exchange_seed S M = exchange_seed S M' ->
       exists g, precompute_common S (EE w) M out c = mbind (mproc (exchange_seed S M')) g (set_generator S rows (zrepeat [] out) (set_mpfss S m' c)) /\
         forall s st, (exists bs, zlen bs = 2 /\ s = List.concat (map block_bytes bs)) -> g s st = fin w s st).
    { intros w M M' c m' Hw H1 H2 H3 H4. eexists. split.
      - unfold precompute_common. rewrite bind_get, H1. rewrite (bind_ok S _ _ _ _ _ H3), bind_get, bind_set.
        change (v_vole_seed_size (set_mpfss S m' c)) with (v_vole_seed_size c). rewrite H2, H4. reflexivity.
      - intros s st (bs & Hb & ->). cbv beta. change (e_parameters (EE w)) with par. change (vole_K (EE w)) with (vole_K E). rewrite Hch. cbn [negb].
        unfold fin. destruct (rng_create_ok bs (p_nonzeros par * out) Hb) as (g & Eg). rewrite !(bind_calc S _ _ _ _ Eg). reflexivity. }
    assert (Hga : forall w, okw w -> exists g, precompute_common S (EE w) (MA w) out a = mbind (mproc (exchange_seed S (MA aes))) g a1 /\
      forall s st, (exists bs, zlen bs = 2 /\ s = List.concat (map block_bytes bs)) -> g s st = fin w s st)
      by (intros w Hw; apply Hun; auto).
    assert (Hgb : forall w r, okw w -> exists g, precompute_common S (EE w) (MB w) out (set_r S r b) = mbind (mproc (exchange_seed S (MB aes))) g (set_r S r b1) /\
      forall s st, (exists bs, zlen bs = 2 /\ s = List.concat (map block_bytes bs)) -> g s st = fin w s st).
    { intros w r Hw. apply (Hun w (MB w) (MB aes) (set_r S r b) mb); auto; cbn; congruence. }
    (* the step with the seed [bs] *)
    assert (Hfin : forall bs m1 q1, zlen bs = 2 -> (m1 <= P)%nat -> (q1 <= PB)%nat ->
      let s := List.concat (map block_bytes bs) in
      JM m1 q1 (fin aes s b1) (fun w => fin aes s (set_r S r' b1)) (fun w => fin aes s a1) (fun b1 _ a1 _ b1' _ => recoded S (EE aes) seed out a b a1 b1 /\ b1' = set_r S r' b1)).
    { intros bs m1 q1 Hbs B1 B2 s. unfold fin, s. destruct (rng_create_ok bs (p_nonzeros par * out) Hbs) as (g & Eg).
      eapply JM_conv; [now rewrite (bind_calc S _ _ _ _ Eg)|intros w _; rewrite (bind_calc S _ _ _ _ Eg); exact eq_refl|intros w _; rewrite (bind_calc S _ _ _ _ Eg); exact eq_refl|].
      cbv beta. destruct (sample_generator S (EE aes) rows out g) as [cols|e|u] eqn:Eg2.
      - unfold mbind, mcalc, mset. cbn [pbind]. apply JM_ret; auto. split; [|reflexivity]. exists ma, mb, cols. split; [exact Hma|]. split; [exact Hmb|].
        split; [apply (sample_generator_len S (EE aes) rows out g); [lia|exact Eg2]|]. split; reflexivity.
      - apply J_doomed_a. apply doomed_ret. exact I.
      - apply J_doomed_a. apply doomed_ret. exact I. }
    destruct HC as (H1 & H2 & H3).
    destruct (Z.ltb_spec (c_id MR) (c_id MS)) as [Hlt|Hge].
    - set (bs := tape_blocks 2 (tape_drop m ta)). set (s := List.concat (map block_bytes bs)).
      eapply (J_same aes ta tb m0 P PB Hnd bad bad m q _ _ _ _ 2 0 (drew_blocks 2 (tape_drop m ta)) [Got (MBytes s)] (fin aes s b1) (fun w => fin aes s (set_r S r' b1)) (fun w => fin aes s a1)).
      + destruct (Hga aes (okw_aes _ _ _ _)) as (g1 & -> & Hg1). destruct (Hgb aes (v_r b) (okw_aes _ _ _ _)) as (g2 & Eb & Hg2).
        assert (Hx : exists bs0, zlen bs0 = 2 /\ s = List.concat (map block_bytes bs0)) by (exists bs; split; reflexivity).
        assert (Er : forall c : vole S, set_r S (v_r c) c = c) by (intros []; reflexivity).
        rewrite Er in Eb. rewrite Eb. rewrite <- (Hg1 _ a1 Hx). change (v_r b) with (v_r b1) in Eb. change (v_r b) with (v_r b1). rewrite Er. rewrite <- (Hg2 _ b1 Hx).
        rewrite <- (tape_drop_drop 2 m ta). apply wrun_proc. apply exchange_run_a; cbn [machine_with_aes c_id c_peer_id]; lia.
      + apply drew_drew_blocks.
      + reflexivity.
      + intros B1 B2 w t Ht Hk Hw. destruct (Hga w Hw) as (g1 & -> & Hg1). destruct (Hgb w r' Hw) as (g2 & -> & Hg2).
        assert (Hx : exists bs0, zlen bs0 = 2 /\ s = List.concat (map block_bytes bs0)) by (exists bs; split; reflexivity).
        assert (Hf : forall c, fin aes s c = fin w s c).
        { intro c. unfold fin. destruct (rng_create_ok bs (p_nonzeros par * out) eq_refl) as (g & Eg). fold s in Eg. rewrite !(bind_calc S _ _ _ _ Eg).
          rewrite (generator_same S uniform Hu E aes w (fst (ta m)) (fun x => Hk m x ltac:(lia))); [reflexivity|].
          apply (create_key (fst (ta m)) (fst (ta (m + 1)%nat)) (p_nonzeros par * out)); [apply small_a; lia|]. rewrite <- Eg. unfold s, bs. cbn [tape_blocks]. unfold tape_tl. rewrite !tape_drop_at.
          now rewrite Nat.add_0_r. }
        rewrite !Hf, <- (Hg1 _ a1 Hx), <- (Hg2 _ (set_r S r' b1) Hx). rewrite <- (tape_drop_drop 2 m t). apply vrun_proc.
        assert (Hbt : tape_blocks 2 (tape_drop m t) = bs) by (apply tape_blocks_same; intros j Hj; rewrite !tape_drop_at, Ht by lia; reflexivity).
        unfold s. rewrite <- Hbt. eapply wrun_vrun. apply exchange_run_a; cbn [machine_with_aes c_id c_peer_id]; lia.
      + intros B1 B2. apply Hfin; auto.
    - set (bs := tape_blocks 2 (tape_drop q tb)). set (s := List.concat (map block_bytes bs)).
      eapply (J_same aes ta tb m0 P PB Hnd bad bad m q _ _ _ _ 0 2 [Got (MBytes s)] (drew_blocks 2 (tape_drop q tb)) (fin aes s b1) (fun w => fin aes s (set_r S r' b1)) (fun w => fin aes s a1)).
      + destruct (Hga aes (okw_aes _ _ _ _)) as (g1 & -> & Hg1). destruct (Hgb aes (v_r b) (okw_aes _ _ _ _)) as (g2 & Eb & Hg2).
        assert (Hx : exists bs0, zlen bs0 = 2 /\ s = List.concat (map block_bytes bs0)) by (exists bs; split; reflexivity).
        assert (Er : forall c : vole S, set_r S (v_r c) c = c) by (intros []; reflexivity).
        rewrite Er in Eb. rewrite Eb. rewrite <- (Hg1 _ a1 Hx). change (v_r b) with (v_r b1) in Eb. change (v_r b) with (v_r b1). rewrite Er. rewrite <- (Hg2 _ b1 Hx).
        rewrite <- (tape_drop_drop 2 q tb). apply wrun_proc. apply exchange_run_b; cbn [machine_with_aes c_id c_peer_id]; lia.
      + reflexivity.
      + apply drew_drew_blocks.
      + intros B1 B2 w t Ht _ Hw. destruct (Hga w Hw) as (g1 & -> & Hg1). destruct (Hgb w r' Hw) as (g2 & -> & Hg2).
        assert (Hx : exists bs0, zlen bs0 = 2 /\ s = List.concat (map block_bytes bs0)) by (exists bs; split; reflexivity).
        assert (Hf : forall c, fin aes s c = fin w s c).
        { intro c. unfold fin. destruct (rng_create_ok bs (p_nonzeros par * out) eq_refl) as (g & Eg). fold s in Eg. rewrite !(bind_calc S _ _ _ _ Eg).
          rewrite (generator_same S uniform Hu E aes w (fst (tb q)) (fun x => Hw _ x (sender_key q ltac:(lia)))); [reflexivity|].
          apply (create_key (fst (tb q)) (fst (tb (q + 1)%nat)) (p_nonzeros par * out)); [apply small_b; lia|]. rewrite <- Eg. unfold s, bs. cbn [tape_blocks]. unfold tape_tl. rewrite !tape_drop_at.
          now rewrite Nat.add_0_r. }
        rewrite !Hf, <- (Hg1 _ a1 Hx), <- (Hg2 _ (set_r S r' b1) Hx). rewrite <- (tape_drop_drop 2 q tb). apply vrun_proc.
        eapply wrun_vrun. apply exchange_run_b; cbn [machine_with_aes c_id c_peer_id]; lia.
      + intros B1 B2. apply Hfin; auto.
  Qed.

  (** ** Expansion *)
  Definition kr nvs nms (cols : list (list (Z * S))) (r : receiver_side S) (v1 : list S) : member S unit :=
    let w := vec_add S (encode S cols (rr_w (r_vole_seed r))) v1 in
    mbind (mset (fun st => set_r S (log_r S w (rr_w (r_vole_seed r) ++ rr_w (r_mpfss_seed r))
                        (set_r_cached S (ReceiverResult (rr_w (r_cached r) ++ w) (rr_delta (r_cached r))) (v_r st))) st)) (fun _ =>
    mbind (new_receiver_seeds S nvs nms) (fun _ =>
    mbind (mset (set_vole_seed_size S nvs)) (fun _ => mset (set_mpfss_seed_size S nms)))).
  Definition ks out nvs nms (cols : list (list (Z * S))) (s : sender_side S) num indices y (v0 : list S) : member S unit :=
    mbind (mcalc (spread S out num indices y)) (fun mu =>
    let u := vec_add S (encode S cols (sr_u (s_vole_seed s))) mu in
    let v := vec_sub S (encode S cols (sr_v (s_vole_seed s))) v0 in
    mbind (mset (fun st => set_s S (log_s S (combine u v) (pairs (s_vole_seed s) ++ pairs (s_mpfss_seed s))
                        (set_s_cached S (SenderResult (sr_u (s_cached (v_s st)) ++ u) (sr_v (s_cached (v_s st)) ++ v)) (v_s st))) st)) (fun _ =>
    mbind (new_sender_seeds S nvs nms) (fun _ =>
    mbind (mset (set_vole_seed_size S nvs)) (fun _ => mset (set_mpfss_seed_size S nms))))).
  (** The receiver when the MPFSS starts. *)
  Definition waiting (out : Z) (r : receiver_side S) b : vole S :=
    set_r S (set_r_cached S (ReceiverResult (rr_w (r_cached r) ++ map (c_junk MR) (zrange 0 out)) (rr_delta (r_cached r))) r) b.

  Add Ring SR : (sl_ring S L).
  Lemma post a b d r i out nvs nms mm y indices ri rv :
    holds S (EE aes) d i (v_s a) r -> zlen (v_columns a) = out -> 0 <= nvs -> 0 <= nms -> nvs + nms <= out ->
    zlen indices = no i -> zlen y = no i -> NoDup indices -> (forall k, 0 <= k < no i -> 0 <= znth 0 indices k < out) ->
    zlen ri = out -> zlen rv = out -> (forall p, 0 <= p < out -> s_add S (zn rv p) (zn ri p) = point_value S d y indices p) ->
    coh mm ->
    exists ss rs, ks out nvs nms (v_columns a) (v_s a) (no i) indices y ri (set_mpfss S mm a) =
        Ret (Vole S mm (v_rows a) (v_columns a) (v_batch_size a) nvs nms (v_num_noise a) ss (v_r a), Ok tt) /\
      kr nvs nms (v_columns a) r rv (set_mpfss S mm (waiting out r b)) =
        Ret (Vole S mm (v_rows b) (v_columns b) (v_batch_size b) nvs nms (v_num_noise b) (v_s b) rs, Ok tt) /\
      expanded S (EE aes) seed d out nvs nms a (set_r S r b)
        (Vole S mm (v_rows a) (v_columns a) (v_batch_size a) nvs nms (v_num_noise a) ss (v_r a)) tt
        (Vole S mm (v_rows b) (v_columns b) (v_batch_size b) nvs nms (v_num_noise b) (v_s b) rs) tt.
  Proof.
    intros ([Hcd Hc] & [Hvd Hvs] & [Hmd Hms] & Lvs & Lms & Hj) Hco H1 H2 H3 Li Hy Hnd' Hr Lri Lrv Hpv Hmm.
    pose proof Hvs as (Lu & Lv & _). pose proof (zlen_nonneg indices) as H0. pose proof (zlen_nonneg (v_columns a)) as Hc0.
    destruct (spread_ok S L out (no i) indices y) as (mu & Emu & Lmu & Hmu); auto; try lia.
    unfold ks, kr. rewrite (bind_calc S _ _ _ _ Emu), !bind_set. set (cols := v_columns a) in *.
    set (u := vec_add S (encode S cols (sr_u (s_vole_seed (v_s a)))) mu).
    set (v := vec_sub S (encode S cols (sr_v (s_vole_seed (v_s a)))) ri).
    set (w := vec_add S (encode S cols (rr_w (r_vole_seed r))) rv).
    assert (Hx : vole_correlation S d u v w).
    { pose proof (encode_linear S L cols _ _ _ _ Hvs) as (_ & _ & He).
      unfold vole_correlation, u, v, w. rewrite !zlen_vec_add, zlen_vec_sub, !zlen_encode by (rewrite ?zlen_encode; lia).
      repeat split; auto. intros p Hpr. rewrite !znth_vec_add, znth_vec_sub by (rewrite ?zlen_encode; lia).
      rewrite He by (rewrite zlen_encode; lia).
      assert (E1 : zn rv p = s_sub S (s_mul S d (zn mu p)) (zn ri p)) by (rewrite <- Hmu, <- Hpv by lia; ring). rewrite E1. ring. }
    assert (Lw : zlen w = out) by (unfold w; rewrite zlen_vec_add, zlen_encode; rewrite ?zlen_encode; lia).
    assert (Hcc : corr S d (SenderResult (sr_u (s_cached (v_s a)) ++ u) (sr_v (s_cached (v_s a)) ++ v)) (ReceiverResult (rr_w (r_cached r) ++ w) (rr_delta (r_cached r)))).
    { split; [exact Hcd|]. cbn. apply correlation_app; auto. }
    pose proof (zlen_nonneg (rr_w (r_cached r))) as Hnn.
    destruct Hc as (Lcu & Lcv & _). destruct Hx as (Lu' & Lv' & _).
    erewrite (bind_ok S (new_sender_seeds S nvs nms)); [|apply new_sender_ok; auto; cbn; rewrite zlen_app; lia].
    erewrite (bind_ok S (new_receiver_seeds S nvs nms)); [|apply new_receiver_ok; auto; cbn; rewrite zlen_app; lia].
    rewrite !bind_set. unfold mset.
    match goal with |- exists ss rs, Ret (set_mpfss_seed_size _ _ (set_vole_seed_size _ _ (set_s _ (reseed_s _ _ _ ?s0) _)), _) = _ /\ Ret (set_mpfss_seed_size _ _ (set_vole_seed_size _ _ (set_r _ (reseed_r _ _ _ ?r0) _)), _) = _ /\ _ =>
      pose proof (reseed_corr S true d nvs nms s0 r0) as Hrs; exists (reseed_s S nvs nms s0), (reseed_r S nvs nms r0) end.
    split; [reflexivity|]. split; [reflexivity|].
    cbn zeta in Hrs. destruct Hrs as (A1 & A2 & A3 & A4 & A5 & A6); auto; try lia; [cbn; rewrite zlen_app; lia|].
    eexists mm, mm, _, _. split; [auto|]. split; [auto|]. split; [exact Hco|]. split; [reflexivity|]. split; [reflexivity|]. split; [exact A1|]. split.
    { rewrite A2. cbn. rewrite zlen_app. lia. }
    repeat (split; [assumption|]). split; reflexivity.
  Qed.

  (** One multi-point function. *)
  Lemma mpfss_J m q a (c c' : vole S) d d' i out (y : list S) indices w0 w0' : (m0 <= m)%nat -> coh (v_mpfss a) -> coh (v_mpfss c) -> v_mpfss c' = v_mpfss c ->
    0 <= i < lv -> no i <= out <= top -> zlen indices = no i -> zlen y = no i -> NoDup indices -> (forall k, 0 <= k < no i -> 0 <= znth 0 indices k < out) ->
    forall u v, zlen w0 = e3 (no i) -> vole_correlation S d u v w0 -> vole_correlation S d' u v w0' ->
    let v1 := zrepeat (s_zero S) out in
    let value w d w0 : member S (list S) := mmpfss (fun st => mpfss_value_provider S w clog (vole_K E) too e3 e2 (c_split MR out) st d (no i) w0 v1) in
    let index w : member S (list S) := mmpfss (fun st => mpfss_index_provider S w clog too e3 e2 (c_split MS out) st y indices u v v1) in
    JM m q (value aes d w0 c) (fun w => value w d' w0' c') (fun w => index w a)
      (fun c1 rv a1 ri c1' rv' => exists mm, coh mm /\ c1 = set_mpfss S mm c /\ a1 = set_mpfss S mm a /\ c1' = set_mpfss S mm c' /\
         zlen ri = out /\ zlen rv = out /\ zlen rv' = out /\ (forall p, 0 <= p < out -> s_add S (zn rv p) (zn ri p) = point_value S d y indices p) /\
         forall p, 0 <= p < out -> s_add S (zn rv' p) (zn ri p) = point_value S d' y indices p).
  Proof.
    intros Hm Ca Cc Ec Hi Ho Li Ly Hnd' Hr u v Lw Hv Hv' v1 value index.
    pose proof (level_facts S (EE aes) (G aes) i Hi) as (Hsd & Hn & Hs & Ht & Ht2). pose proof (top_small S (EE aes) (G aes)) as Htop.
    pose proof (He3 S (EE aes) (G aes)) as He3. pose proof (He2 S (EE aes) (G aes)) as He2.
    change (e_parameters (EE aes)) with par in *. change (e_expansion3 (EE aes)) with e3 in *. change (e_expansion2 (EE aes)) with e2 in *. change (e_too_many_bits (EE aes)) with too in *.
    assert (Lz : zlen v1 = out) by (apply zlen_zrepeat; lia).
    pose proof (gm_split S _ (GA aes) out ltac:(lia)) as Da. pose proof (gm_split S _ (GB aes) out ltac:(lia)) as Db. cbn [machine_with_aes c_split] in Da, Db.
    destruct (cuckoo_outcome aes too seed 3 (Hasher seed 3) (map uint128_of_int64 indices) (e3 (no i)) eq_refl ltac:(lia)) as [_ Hout].
    rewrite zlen_map, Li in Hout. destruct Hout as [[hashed HH] | HE]; [intros [?|[?|[?|?]]]; try lia; congruence| |].
    2:{ apply J_doomed_b. destruct (insertion_fails S aes clog too e3 e2 He3 He2 seed (c_split MS out) (v_mpfss a) y indices u v v1) as (st' & _ & Hret);
          rewrite ?Lz, ?Ly; auto; try lia; try (apply Ht; lia); try (intros k Hk; specialize (Hr k Hk); lia).
        specialize (Hret Hnd'). unfold returns in Hret. unfold index, mmpfss. rewrite Hret. cbn [pbind]. apply doomed_ret. exact I. }
    pose proof (fresh_ok aes clog too e3 e2 He3 He2 seed out (no i) ltac:(lia) ltac:(lia) ltac:(lia) (Ht out ltac:(lia))) as Hfb.
    match type of Hfb with _ = Ok ?x => set (buckets := x) in Hfb end.
    assert (HG : good_sizes S clog (vole_K E) too e3 out (no i)).
    { split; [lia|]. split; [lia|]. split; [lia|]. split; [apply Ht; lia|]. split; [|apply (Hsec out); lia].
      intros s0 Hs0. apply (gs_clog S (EE aes) (G aes)). cbn [with_aes e_parameters]. lia. }
    pose proof (fun t t2 => mpfss_hidden_vrun S L (gs_size S (EE aes) (G aes)) aes clog (vole_K E) too e3 e2 He3 He2 seed (v_mpfss c) (v_mpfss a) (c_split MR out) (c_split MS out)
      d y indices u v w0 v1 v1 hashed buckets t t2) as HM.
    cbv zeta in HM. rewrite Lz, Ly in HM. specialize (fun t t2 => HM t t2 Cc Ca Db Da HG eq_refl Li Lw Hv Hr HH Hfb).
    set (sizes := map zlen buckets) in *. set (pos := map (slot buckets hashed indices) (zrange 0 (zlen buckets))) in *.
    set (st := Mpfss (Hasher seed 3) buckets (Some out) (Some (no i))) in *.
    assert (Hst : coh st).
    { split; [reflexivity|]. cbn. intros N0 n0 E1 E2. injection E1 as <-. injection E2 as <-. exact Hfb. }
    set (n := drawn_for sizes) in *.
    destruct (HM (tape_drop m ta) (tape_drop q tb)) as (rv & ri & view & HV & Lrv & Lri & Hpv & Hsz & Halt).
    destruct (fixed_draws _ _ n 0 ltac:(intros t t2; destruct (HM t t2) as (rv0 & ri0 & view0 & HV0 & _); exact (ex_intro _ _ (ex_intro _ _ (ex_intro _ _ HV0)))) _ _ _ _ _ HV) as (l & HW & Dl & Dr).
    assert (HW' : wrun (value aes d w0 c) (tape_drop m ta) (index aes a) (tape_drop q tb) l view (Ret (set_mpfss S st c, Ok rv)) (tape_drop (n + m) ta) (Ret (set_mpfss S st a, Ok ri)) (tape_drop (0 + q) tb)).
    { unfold value, index, mmpfss. rewrite <- (tape_drop_drop n m ta).
      exact (wrun_bind (fun '(m, r) => Ret (set_mpfss S m c, r)) (fun '(m, r) => Ret (set_mpfss S m a, r)) _ _ _ _ _ _ _ _ _ _ HW). }
    destruct (Nat.le_gt_cases (n + m) P) as [B1|B1].
    2:{ right. exists n, 0%nat, l, view, (Ret (set_mpfss S st c, Ok rv)), (Ret (set_mpfss S st a, Ok ri)). auto 10. }
    assert (Hn2 : (2 <= n)%nat) by (unfold n, drawn_for; lia).
    assert (Hok : forall i, nonempty sizes i -> 1 <= znth 0 sizes i /\ supported_size clog (znth 0 sizes i)).
    { intros k Hk. destruct (Hsz k Hk) as [Hb _]. split; [lia|]. apply (gs_clog S (EE aes) (G aes)). cbn [with_aes e_parameters]. lia. }
    destruct (Halt (the_tree aes clog sizes (tape_drop m ta))) with (x' := d') (w' := w0') as (values & rv' & Hv2 & Hdiff & Lrv' & Hpv').
    - intros k Hk. now apply the_tree_ok.
    - assert (Hk : forall p, (p < 2)%nat -> seed <> fst (ta (m + p)%nat)).
      { intros p Hp Eq. apply Hseed. exists (m + p)%nat. split; [lia|exact Eq]. }
      rewrite !tape_drop_at. repeat constructor; cbn [In]; intuition; try (now apply (Hk 0%nat); auto); try (now apply (Hk 1%nat); auto).
      match goal with Eq : _ = _ |- _ => apply (blocks_inj ta P Hnd) in Eq end; lia.
    - apply (the_trees_unique aes clog sizes (tape_drop m ta) Hok D (tape_blocks P ta) m).
      + intros p Hp. fold n in Hp. rewrite length_tape_blocks. split; [lia|]. rewrite tape_blocks_at by lia. now rewrite tape_drop_at.
      + apply Hacc.
      + intros k Hk. apply HD. destruct (Hsz k Hk). lia.
      + intros k Hk. apply Hsz, Hk.
    - exact Hv'.
    - set (aes' := changed_aes _ _ _ _ _ _ _) in *. set (ta' := changed_tape _ _ _ _ _) in *.
      unfold JM. apply (J_step aes ta tb m0 P PB Hnd bad bad m q _ _ _ _ n 0 l view (Ret (set_mpfss S st c, Ok rv)) (fun _ => Ret (set_mpfss S st c', Ok rv')) (fun _ => Ret (set_mpfss S st a, Ok ri)) HW' Dl Dr).
      intros _ B2. exists aes', (fun p => if (p <? m)%nat then ta p else ta' (p - m)%nat). split; [|split].
      + destruct Hdiff as [Hd1 Hd2]. split.
        * intros k x. destruct (Hd1 k x) as [->|(j & Hj & _ & -> & _)]; [now left|]. right. rewrite tape_drop_at.
          exists (m + (if Z.even (znth 0%Z pos j) then 0 else 1))%nat. split; [lia|]. split; [destruct (Z.even _); lia|reflexivity].
        * intro p. destruct (Nat.ltb_spec p m) as [Hp|Hp]; [now left|]. destruct (Hd2 (p - m)%nat) as [->|(j & Hj & _ & Eq & _)].
          -- left. rewrite tape_drop_at. f_equal. lia.
          -- right. pose proof (seed_pos_lt sizes j Hj). fold n in H. lia.
      + intros w t (A1 & A2 & A3). unfold value, index, mmpfss. rewrite Ec, <- (tape_drop_drop n m t).
        refine (vrun_bind (fun '(m, r) => Ret (set_mpfss S m c', r)) (fun '(m, r) => Ret (set_mpfss S m a, r)) _ _ _ _ _ _ _ _ _ (Hv2 w (tape_drop m t) _ _)).
        * split.
          -- intros p x Hp. rewrite tape_drop_at. apply A1. lia.
          -- intros p Hp. fold n in Hp. rewrite tape_drop_at, A2 by lia. destruct (Nat.ltb_spec (m + p) m); [lia|]. f_equal. lia.
        * intro z. now apply seed_same.
      + apply JM_ret; auto. exists st. auto 15.
  Qed.

  (** A step of the sender alone. *)
  Lemma JM_sender {X Y} m q (pr : proc S (vole S * res X)) pr' (ps : (N -> N -> N) -> proc S (vole S * res Y)) ps1 kb lb Q :
    (forall w (pa : proc S (vole S * res X)) t, okw w -> wrun pa t (ps w) (tape_drop q tb) [] lb pa t (ps1 w) (tape_drop (kb + q) tb)) ->
    drew lb = tape_blocks kb (tape_drop q tb) -> ((m <= P)%nat -> (kb + q <= PB)%nat -> JM m (kb + q) pr pr' ps1 Q) -> JM m q pr pr' ps Q.
  Proof.
    intros Hw Hd HJ. unfold JM. apply (J_same aes ta tb m0 P PB Hnd bad bad m q _ _ _ _ 0 kb [] lb pr pr' ps1); auto.
    - apply Hw, okw_aes.
    - intros _ _ w t _ _ Ho. eapply wrun_vrun. now apply Hw.
  Qed.

  Lemma expand_J m q a b r' d d' i out nvs nms : (m0 <= m)%nat -> same S (EE aes) seed a b -> 0 <= i < lv -> v_num_noise a = no i -> v_rows a = sd i ->
    holds S (EE aes) d i (v_s a) (v_r b) -> holds S (EE aes) d' i (v_s a) r' -> r_done r' = r_done (v_r b) ->
    no i <= out <= top -> 0 <= nvs -> 0 <= nms -> nvs + nms <= out -> zlen (v_columns a) = out ->
    JM m q (expand_receiver S (EE aes) (MB aes) out nvs nms b) (fun w => expand_receiver S (EE w) (MB w) out nvs nms (set_r S r' b))
      (fun w => expand_sender S (EE w) (MA w) out nvs nms a)
      (fun b1 _ a1 _ b1' _ => exists r1', b1' = set_r S r1' b1 /\ expanded S (EE aes) seed d out nvs nms a b a1 tt b1 tt /\
         expanded S (EE aes) seed d' out nvs nms a (set_r S r' b) a1 tt b1' tt).
  Proof.
    intros Hm Hsm Hi Eno Ero Hh Hh' Hdn Ho H1 H2 H3 Hco.
    pose proof (level_facts S (EE aes) (G aes) i Hi) as (Hsd & Hn & Hs & Ht & Ht2). pose proof (top_small S (EE aes) (G aes)) as Htop.
    pose proof Hh as ([Hcd Hc] & [Hvd Hvs] & [Hmd Hms] & Lvs & Lms & Hj). pose proof Hh' as ([Hcd' Hc'] & [Hvd' Hvs'] & [Hmd' Hms'] & Lvs' & Lms' & Hj').
    change (e_parameters (EE aes)) with par in *. change (e_expansion3 (EE aes)) with e3 in *.
    set (v1 := zrepeat (s_zero S) out).
    set (value := fun w d w0 => mmpfss (fun st => mpfss_value_provider S w clog (vole_K E) too e3 e2 (c_split MR out) st d (no i) w0 v1) : member S (list S)).
    set (index := fun w indices y => mmpfss (fun st => mpfss_index_provider S w clog too e3 e2 (c_split MS out) st y indices (sr_u (s_mpfss_seed (v_s a))) (sr_v (s_mpfss_seed (v_s a))) v1) : member S (list S)).
    set (s3 := fun w indices y => mbind (index w indices y) (ks out nvs nms (v_columns a) (v_s a) (no i) indices y)).
    set (s2 := fun w set => mbind (mproc (Rand (fun chance _ => Ret (Ok (c_order MS chance set))))) (fun indices =>
      mbind (mproc (rand_scalars (Z.to_nat (no i)) (fun y => Ret (Ok y)))) (fun y => s3 w indices y))).
    set (s1 := fun w blocks => mbind (mcalc (rng_create (List.concat (map block_bytes blocks)) (no i))) (fun g =>
      mbind (mcalc (sample_indices S (MA w) (c_patience MS) out (no i) g [])) (fun set => s2 w set))).
    pose proof Hvs as (Lu & Lv & _).
    assert (Hrecv : forall w r d, rr_delta (r_mpfss_seed r) = d -> zlen (rr_w (r_vole_seed r)) = sd i ->
      expand_receiver S (EE w) (MB w) out nvs nms (set_r S r b) = mbind (value w d (rr_w (r_mpfss_seed r))) (kr nvs nms (v_columns a) r) (waiting out r b)).
    { intros w r d0 <- Hl. unfold expand_receiver. rewrite !bind_get. cbv zeta. cbn [set_r v_r v_rows v_columns v_num_noise].
      rewrite <- (same_rows _ _ _ _ _ Hsm), <- (same_columns _ _ _ _ _ Hsm), <- (same_noise _ _ _ _ _ Hsm), Eno, Ero, Hl, Hco, !Z.eqb_refl. cbn [negb orb].
      rewrite bind_set. reflexivity. }
    assert (Hsend : forall w, expand_sender S (EE w) (MA w) out nvs nms a = mbind (mproc (rand_blocks 2 (fun bs => Ret (Ok bs)))) (s1 w) a).
    { intros w. unfold expand_sender. rewrite !bind_get. cbv zeta.
      rewrite Eno, Ero, Lu, Lv, Lvs, Hco, !Z.eqb_refl. cbn [negb orb]. replace (no i <? 0) with false by lia. reflexivity. }
    assert (Eb : set_r S (v_r b) b = b) by (destruct b; reflexivity).
    pose proof (Hrecv aes (v_r b) d Hmd Lvs) as Erecv. rewrite Eb in Erecv.
    eapply JM_conv; [exact Erecv|intros w _; apply (Hrecv w r' d'); auto|intros w _; apply Hsend|].
    apply (JM_sender m q _ _ _ (fun w => s1 w (tape_blocks 2 (tape_drop q tb)) a) 2 (drew_blocks 2 (tape_drop q tb))); [intros w pa t _; rewrite <- (tape_drop_drop 2 q tb); apply prefix_blocks|apply drew_drew_blocks|]. intros B1 B2.
    set (bs := tape_blocks 2 (tape_drop q tb)). destruct (rng_create_ok bs (no i) eq_refl) as (g & Eg).
    assert (Hkey : r_key g = fst (tb q)).
    { apply (create_key (fst (tb q)) (fst (tb (q + 1)%nat)) (no i)); [apply small_b; lia|]. rewrite <- Eg. unfold bs. cbn [tape_blocks]. unfold tape_tl. rewrite !tape_drop_at.
      now rewrite Nat.add_0_r. }
    eapply JM_conv; [reflexivity|intros w _; exact eq_refl|intros w Hw; unfold s1; rewrite (bind_calc S _ _ _ _ Eg);
      rewrite (indices_same S uniform64 Hu64 aes w (fst (tb q)) (fun x => Hw _ x (sender_key q ltac:(lia))) MS _ _ _ g [] Hkey); exact eq_refl|].
    pose proof (sample_indices_ok S (MA aes) (c_patience MS) out (no i) g [] (GA aes) ltac:(lia) (usable_create _ _ _ Eg) (NoDup_nil _) (Forall_nil _) ltac:(change (zlen (@nil Z)) with 0; lia)) as Hsi.
    destruct (sample_indices S (MA aes) (c_patience MS) out (no i) g []) as [set|e|w] eqn:Esi; [|contradiction|].
    2:{ apply J_doomed_b. unfold mbind, mcalc. cbn [pbind]. apply doomed_ret. exact I. }
    destruct Hsi as (Hnds & Hf & Hls).
    eapply JM_conv; [reflexivity|intros w _; exact eq_refl|intros w Hw; erewrite bind_calc by reflexivity; exact eq_refl|].
    unfold s2. set (q1 := (2 + q)%nat) in *. apply (JM_sender m q1 _ _ _ (fun w => mbind (mproc (rand_scalars (Z.to_nat (no i)) (fun y => Ret (Ok y)))) (fun y => s3 w (c_order MS (fst (tape_drop q1 tb O)) set) y) a) 1 (drew_blocks 1 (tape_drop q1 tb)));
      [intros w pa t _; rewrite <- (tape_drop_drop 1 _ tb); apply prefix_rand|apply drew_drew_blocks|]. intros B3 B4.
    set (chance := fst (tape_drop q1 tb O)). pose proof (gm_order S (MA aes) (GA aes) chance set) as Hp. cbn [machine_with_aes c_order] in Hp. set (indices := c_order MS chance set) in *.
    assert (Hnd' : NoDup indices) by (eapply Permutation_NoDup; [apply Permutation_sym; exact Hp|auto]).
    assert (Li : zlen indices = no i) by (unfold zlen in *; rewrite (Permutation_length Hp); auto).
    assert (Hr : forall k, 0 <= k < no i -> 0 <= znth 0 indices k < out).
    { intros k Hk. assert (Hin : In (znth 0 indices k) indices) by (apply znth_In; lia).
      apply (Permutation_in _ Hp) in Hin. exact (proj1 (Forall_forall _ _) Hf _ Hin). }
    set (q2 := (1 + q1)%nat) in *. apply (JM_sender m q2 _ _ _ (fun w => s3 w indices (tape_scalars (Z.to_nat (no i)) (tape_drop q2 tb)) a) (Z.to_nat (no i)) (drew_blocks (Z.to_nat (no i)) (tape_drop q2 tb)));
      [intros w pa t _; rewrite <- (tape_drop_drop (Z.to_nat (no i)) _ tb); apply prefix_scalars|apply drew_drew_blocks|]. intros B5 B6.
    match goal with |- context [tape_scalars ?n ?t] => set (y := tape_scalars n t) end.
    assert (Hy : zlen y = no i) by (unfold y, zlen; rewrite length_tape_scalars; lia).
    unfold s3, value, index. eapply JM_bind.
    - apply (mpfss_J m _ a (waiting out (v_r b) b) (waiting out r' b) d d' i out y indices (rr_w (r_mpfss_seed (v_r b))) (rr_w (r_mpfss_seed r')) Hm); auto;
        [apply (same_a _ _ _ _ _ Hsm)|apply (same_b _ _ _ _ _ Hsm)].
    - intros ka kb c1 rv a1 ri c1' rv' B7 B8 (mm & Hmm & -> & -> & -> & Lri & Lrv & Lrv' & Hpv & Hpv').
      destruct (post a b d (v_r b) i out nvs nms mm y indices ri rv) as (ss & rs & E1 & E2 & E3); auto.
      destruct (post a b d' r' i out nvs nms mm y indices ri rv') as (ss' & rs' & E1' & E2' & E3'); auto.
      rewrite E1 in E1'. injection E1' as <-.
      eapply JM_conv; [exact E2|intros w _; exact E2'|intros w _; exact E1|]. apply JM_ret; auto.
      rewrite Eb in E3. eexists. split; [reflexivity|]. split; [exact E3|exact E3'].
  Qed.

  (** ** Precomputation *)
  Section Direction.
  Variable ra : receiver_side S.
  Variable sb : sender_side S.
  Variable dn : bool.
  Variables d d' : S.
  Notation mid := (mid S (EE aes) seed ra sb dn).
  Definition mid2 i batch a b r' : Prop := mid d i batch a b /\ mid d' i batch a (set_r S r' b).

  Lemma recoded_r out a b a' b' r : recoded S (EE aes) seed out a b a' b' -> recoded S (EE aes) seed out a (set_r S r b) a' (set_r S r b').
  Proof. intros (ma & mb & cols & H1 & H2 & H3 & -> & ->). exists ma, mb, cols. auto. Qed.
  Lemma mid_expanded x i out a b a2 b2 : mid x i 0 a b -> 0 <= i + 1 < lv ->
    expanded S (EE aes) seed x out (sd (i + 1)) (e3 (no (i + 1))) a b a2 tt b2 tt ->
    mid x (i + 1) 0 (set_num_noise S (no (i + 1)) a2) (set_num_noise S (no (i + 1)) b2).
  Proof.
    intros (Hsm & (Hi & E1 & E2 & E3) & Hb & Hh & Hr & Hs & D1 & D2) Hi1 (ma & mb & ss & rs & Hma & Hmb & Hco & -> & -> & C1 & LC & C2 & L2 & C3 & L3 & D3 & D4).
    destruct Hsm. split; [constructor; cbn; auto|]. split; [unfold level; cbn; auto|].
    cbn. split; [auto|]. split; [unfold holds, seeds; cbn; auto 10|]. cbn in *. rewrite D3, D4. auto.
  Qed.

  Lemma boot_unfold w (M : machine S) (step : Z -> Z -> Z -> member S unit) batch i l (c : vole S) : coh (v_mpfss c) -> v_vole_seed_size c = sd i -> v_mpfss_seed_size c = e3 (no i) -> 0 <= i -> 0 <= i + 1 < lv ->
    let out := sd (i + 1) + e3 (no (i + 1)) in
    bootstrap S (EE w) M step batch (i :: l) c =
      match int64_result (batch + e3 (no i) + sd i) with
      | Ok needed => if needed <=? znth 0 (p_output_size par) i then Ret (c, Ok tt) else
          mbind (precompute_common S (EE w) M out) (fun _ => mbind (step out (sd (i + 1)) (e3 (no (i + 1)))) (fun _ => mbind (mset (set_num_noise S (no (i + 1)))) (fun _ => bootstrap S (EE w) M step batch l))) c
      | Err e => Ret (c, Err e)
      | UB u => Ret (c, UB u)
      end.
  Proof.
    intros Hc E1 E2 Hi0 Hi1 out. pose proof (gs_outputs S (EE w) (G w)). pose proof (gs_noises S (EE w) (G w)). pose proof (top_small S (EE w) (G w)) as Htop.
    pose proof (level_facts S (EE w) (G w) (i + 1) Hi1) as (F1 & F2 & F3 & F4 & F5).
    change (e_parameters (EE w)) with par in *. change (e_expansion3 (EE w)) with e3 in *. change (e_expansion2 (EE w)) with e2 in *.
    cbn [bootstrap]. change (e_parameters (EE w)) with par.
    rewrite (bind_calc S _ (znth 0 (p_output_size par) i) _ c) by (apply zget_ok; lia). rewrite !bind_get, E1, E2.
    destruct (int64_result _) as [needed|e|u]; [erewrite bind_calc by reflexivity|reflexivity|reflexivity].
    destruct (needed <=? _); [reflexivity|].
    rewrite (bind_calc S _ (sd (i + 1)) _ c) by (apply zget_ok; lia). rewrite (bind_calc S _ (no (i + 1)) _ c) by (apply zget_ok; lia).
    rewrite (bind_ok S _ _ c c (e3 (no (i + 1)))) by (unfold m_num_buckets; cbn [with_aes e_expansion3 e_expansion2]; pose proof (num_buckets_ok S (EE aes) (G aes) seed (v_mpfss c) (i + 1) Hc Hi1) as Hb; cbn [with_aes e_parameters e_expansion3 e_expansion2] in Hb; now rewrite Hb).
    rewrite (bind_calc S _ out _ c) by (apply int_small; unfold out; lia). reflexivity.
  Qed.

  Lemma bootstrap_J batch n : forall m q i a b r', (m0 <= m)%nat -> mid2 i 0 a b r' -> Z.to_nat (lv - 1 - i) = n -> (m <= P)%nat -> (q <= PB)%nat ->
    JM m q (bootstrap S (EE aes) (MB aes) (expand_receiver S (EE aes) (MB aes)) batch (zrange i (lv - 1)) b)
      (fun w => bootstrap S (EE w) (MB w) (expand_receiver S (EE w) (MB w)) batch (zrange i (lv - 1)) (set_r S r' b))
      (fun w => bootstrap S (EE w) (MA w) (expand_sender S (EE w) (MA w)) batch (zrange i (lv - 1)) a)
      (fun b1 _ a1 _ b1' _ => exists i' r1', b1' = set_r S r1' b1 /\ mid2 i' 0 a1 b1 r1').
  Proof.
    induction n as [|n IH]; intros m q i a b r' Hm H2 Hn BP BQ.
    { rewrite zrange_nil by lia. cbn [bootstrap]. unfold mret. apply JM_ret; eauto. }
    rewrite zrange_cons by lia. pose proof H2 as [Hm1 Hm2].
    pose proof Hm1 as (Hsm & (Hi & E1 & E2 & E3) & Hb & Hh & Hr & Hs & D1 & D2). pose proof Hm2 as (Hsm' & _ & _ & Hh' & _ & _ & _ & D2'). pose proof Hsm as Hs'. destruct Hs'.
    change (e_parameters (EE aes)) with par in *. change (e_expansion3 (EE aes)) with e3 in *.
    assert (Hi1 : 0 <= i + 1 < lv) by lia. pose proof (level_facts S (EE aes) (G aes) (i + 1) Hi1) as (F1 & F2 & F3 & F4 & F5). pose proof (level_facts S (EE aes) (G aes) i Hi) as (K1 & K2 & K3 & K4 & K5).
    pose proof (gs_grow S (EE aes) (G aes) i) as Hgr.
    change (e_parameters (EE aes)) with par in *. change (e_expansion3 (EE aes)) with e3 in *.
    eapply JM_conv; [apply boot_unfold; try lia; auto; congruence|intros w _; apply boot_unfold; cbn; try lia; auto; congruence|intros w _; apply boot_unfold; try lia; auto|]. cbv zeta.
    destruct (int64_result _) as [needed|e|u]; [|apply J_doomed_a, doomed_ret; exact I|apply J_doomed_a, doomed_ret; exact I].
    destruct (needed <=? _); [apply JM_ret; eauto|].
    set (out := sd (i + 1) + e3 (no (i + 1))).
    eapply JM_bind; [apply (common_J m q a b r' i out); auto; [unfold level; auto|lia]|].
    intros ka kb b1 x1 a1 x2 b1' x3 B1 B2 [Hrec ->].
    destruct (mid_recoded S (EE aes) seed ra sb dn d i 0 out a b a1 b1 Hm1 Hrec) as (Hm1' & R1 & R2 & R3).
    destruct (mid_recoded S (EE aes) seed ra sb dn d' i 0 out a (set_r S r' b) a1 (set_r S r' b1) Hm2 (recoded_r _ _ _ _ _ r' Hrec)) as (Hm2' & _).
    pose proof Hm1' as (Hsm1 & (_ & E1' & E2' & E3') & Hb1 & Hh1 & Hr1 & Hs1 & D1' & D3'). pose proof Hm2' as (_ & _ & _ & Hh2 & _ & _ & _ & D4').
    change (e_parameters (EE aes)) with par in *. change (e_expansion3 (EE aes)) with e3 in *.
    eapply JM_bind; [apply (expand_J (ka + m) (kb + q) a1 b1 r' d d' i out (sd (i + 1)) (e3 (no (i + 1)))); auto; try lia; cbn in D4'; congruence|].
    intros ka2 kb2 b2 x4 a2 x5 b2' x6 B3 B4 (r1' & -> & X1 & X2).
    eapply JM_conv; [rewrite bind_set; reflexivity|intros w _; rewrite bind_set; exact eq_refl|intros w _; rewrite bind_set; exact eq_refl|].
    apply (IH _ _ (i + 1) (set_num_noise S (no (i + 1)) a2) (set_num_noise S (no (i + 1)) b2) r1'); [lia| |lia|lia|lia]. split; [eapply mid_expanded; eauto|]. apply (mid_expanded d' i out a1 (set_r S r' b1) a2 (set_r S r1' b2) Hm2' Hi1 X2).
  Qed.

  Lemma last_unfold w (M : machine S) batch i (c : vole S) : 0 <= i < lv -> 1 <= batch -> v_vole_seed_size c = sd i -> v_mpfss_seed_size c = e3 (no i) ->
    let be := Z.min batch (top - e3 (no i) - sd i) in
    precompute_last S (EE w) M batch c = precompute_common S (EE w) M (be + sd i + e3 (no i)) (set_batch_size S be c).
  Proof.
    intros Hi Hb E1 E2 be. pose proof (gs_outputs S (EE w) (G w)). pose proof (gs_levels S (EE w) (G w)). pose proof (top_small S (EE w) (G w)) as Htop.
    pose proof (level_facts S (EE w) (G w) i Hi) as (K1 & K2 & K3 & K4 & K5).
    change (e_parameters (EE w)) with par in *. change (e_expansion3 (EE w)) with e3 in *. unfold precompute_last. change (e_parameters (EE w)) with par.
    assert (Elast : zget (p_output_size par) (zlen (p_output_size par) - 1) = Ok top).
    { rewrite (zget_ok 0) by lia. f_equal. apply znth_last. }
    rewrite (bind_calc S _ _ _ _ Elast). rewrite !bind_get, E1, E2.
    rewrite (bind_calc S _ (top - e3 (no i) - sd i) _ c) by (apply int_small; lia). rewrite !bind_set. fold be.
    erewrite bind_ok; [reflexivity|]. unfold full_output. rewrite !bind_get. cbn [v_batch_size v_vole_seed_size v_mpfss_seed_size set_batch_size]. rewrite E1, E2. unfold mcalc. rewrite int64_small by lia. reflexivity.
  Qed.

  Lemma last_J m q batch i a b r' : (m0 <= m)%nat -> 1 <= batch -> mid2 i 0 a b r' ->
    JM m q (precompute_last S (EE aes) (MB aes) batch b) (fun w => precompute_last S (EE w) (MB w) batch (set_r S r' b))
      (fun w => precompute_last S (EE w) (MA w) batch a)
      (fun b1 _ a1 _ b1' _ => exists be, b1' = set_r S r' b1 /\ mid2 i be a1 b1 r' /\ 1 <= be /\ be + sd i + e3 (no i) <= top /\ v_rows a1 = sd i /\ zlen (v_columns a1) = be + sd i + e3 (no i)).
  Proof.
    intros Hm Hb [Hm1 Hm2].
    pose proof Hm1 as (Hsm & (Hi & E1 & E2 & E3) & Hbt & Hh & Hr & Hs & D1 & D2). pose proof Hm2 as (_ & _ & _ & Hh' & _ & _ & _ & D2'). pose proof Hsm as Hs'. destruct Hs'.
    pose proof (level_facts S (EE aes) (G aes) i Hi) as (K1 & K2 & K3 & K4 & K5). pose proof (top_small S (EE aes) (G aes)) as Htop.
    change (e_parameters (EE aes)) with par in *. change (e_expansion3 (EE aes)) with e3 in *.
    eapply JM_conv; [apply (last_unfold _ _ _ i); auto; congruence|intros w _; apply (last_unfold _ _ _ i); cbn; auto; congruence|intros w _; apply (last_unfold _ _ _ i); auto|]. cbv zeta.
    set (be := Z.min batch (top - e3 (no i) - sd i)).
    set (a1 := set_batch_size S be a). set (b1 := set_batch_size S be b).
    assert (Hm1' : mid d i be a1 b1).
    { split; [constructor; cbn; auto|]. split; [unfold level; cbn; auto|]. cbn. auto 10. }
    assert (Hm2' : mid d' i be a1 (set_r S r' b1)).
    { split; [constructor; cbn; auto|]. split; [unfold level; cbn; auto|]. cbn. auto 10. }
    eapply JM_weaken; [apply (common_J m q a1 b1 r' i (be + sd i + e3 (no i)) Hm); [apply Hm1'|apply Hm1'|lia]|].
    intros b2 x1 a2 x2 b2' x3 [Hrec ->]. exists be. split; [reflexivity|].
    destruct (mid_recoded S (EE aes) seed ra sb dn d i be _ a1 b1 a2 b2 Hm1' Hrec) as (M1 & R1 & R2 & R3).
    destruct (mid_recoded S (EE aes) seed ra sb dn d' i be _ a1 (set_r S r' b1) a2 (set_r S r' b2) Hm2' (recoded_r _ _ _ _ _ r' Hrec)) as (M2 & _).
    split; [split; [exact M1|exact M2]|]. split; [lia|]. split; [lia|]. split; [exact R1|exact R2].
  Qed.
  End Direction.

  Lemma first_J m q size d d' a b r' : size = sd 0 + e3 (no 0) ->
    JM m q (receiver_first_seed S (EE aes) (MB aes) size d b) (fun w => receiver_first_seed S (EE w) (MB w) size d' (set_r S r' b))
      (fun w => sender_first_seed S (EE w) size a)
      (fun b1 _ a1 _ b1' _ => exists ss rs rs', a1 = set_s S ss a /\ b1 = set_r S rs b /\ b1' = set_r S rs' b /\
         corr S d (s_cached ss) (r_cached rs) /\ corr S d' (s_cached ss) (r_cached rs') /\ zlen (rr_w (r_cached rs)) = size /\ zlen (rr_w (r_cached rs')) = size /\
         s_done ss = s_done (v_s a) /\ r_done rs = r_done (v_r b) /\ r_done rs' = r_done r').
  Proof.
    intros Es. pose proof (gs_levels S (EE aes) (G aes)). pose proof (level_facts S (EE aes) (G aes) 0 ltac:(lia)) as (K1 & K2 & K3 & _). pose proof (top_small S (EE aes) (G aes)) as Htop.
    pose proof (sl_size S L) as Hsz. pose proof (gs_size S (EE aes) (G aes)) as H16. pose proof (gs_first S (EE aes) (G aes)) as Hfst.
    change (e_parameters (EE aes)) with par in *. change (e_expansion3 (EE aes)) with e3 in *.
    set (n := Z.to_nat size). set (out := map (c_junk MR) (zrange 0 size)). assert (Lo : zlen out = size) by (unfold out; rewrite zlen_map, zlen_zrange; lia).
    set (s2 := fun u v => mbind (mset (fun st => set_s S (log_s S (combine u v) [] (set_s_cached S (SenderResult u v) (v_s st))) st)) (fun _ =>
      mbind (mproc (gilboa_vector_provider S (vole_K E) u (zrepeat (s_zero S) size))) (fun w => mproc (Send (MVec (vec_add S w v)) (Ret (Ok tt)))))).
    set (s1 := fun u => mbind (mproc (rand_scalars n (fun v => Ret (Ok v)))) (fun v => s2 u v)).
    apply (JM_sender m q _ _ _ (fun w => s1 (tape_scalars n (tape_drop q tb)) a) n (drew_blocks n (tape_drop q tb)));
      [intros w pa t _; rewrite <- (tape_drop_drop n q tb); apply prefix_scalars|apply drew_drew_blocks|]. intros B1 B2.
    set (u := tape_scalars n (tape_drop q tb)). assert (Lu : zlen u = size) by (unfold u, zlen; rewrite length_tape_scalars; lia).
    set (q1 := (n + q)%nat) in *. unfold s1.
    apply (JM_sender m q1 _ _ _ (fun w => s2 u (tape_scalars n (tape_drop q1 tb)) a) n (drew_blocks n (tape_drop q1 tb)));
      [intros w pa t _; rewrite <- (tape_drop_drop n q1 tb); apply prefix_scalars|apply drew_drew_blocks|]. intros B3 B4.
    set (v := tape_scalars n (tape_drop q1 tb)). assert (Lv : zlen v = size) by (unfold v, zlen; rewrite length_tape_scalars; lia).
    set (q2 := (n + q1)%nat) in *. unfold s2.
    set (r1 := fun (d : S) (w : list S) => mbind (mproc (recv_vec (fun w2 => Ret (Ok w2)))) (fun w2 =>
      if negb (zlen w =? zlen w2) then mcalc (UB "Eigen: sizes differ") else
      let w := vec_add S w w2 in mset (fun st => set_r S (log_r S w [] (set_r_cached S (ReceiverResult w d) (v_r st))) st))).
    set (bb := fun r d => set_r S (set_r_cached S (ReceiverResult out d) r) b).
    eapply JM_conv with (pr2 := mbind (mproc (gilboa_value_provider S (vole_K E) d out)) (r1 d) (bb (v_r b) d))
      (pr2' := fun _ => mbind (mproc (gilboa_value_provider S (vole_K E) d' out)) (r1 d') (bb r' d'));
      [unfold receiver_first_seed; rewrite bind_set; reflexivity|intros w _; unfold receiver_first_seed; rewrite bind_set; reflexivity|intros w _; rewrite bind_set; exact eq_refl|].
    set (aa := set_s S _ a).
    destruct (gilboa_wrun S L H16 (vole_K E) u (zrepeat (s_zero S) size)) as (k & Hk).
    { rewrite zlen_zrepeat; lia. } { pose proof (pf_pos S L H16). lia. } { rewrite <- transfers_eq by lia. rewrite Lu, Es. exact Hfst. }
    destruct (Hk (tape_drop q2 tb)) as (rv & Lrv & Hg). clear Hk.
    destruct (Hg d out (tape_drop m ta) ltac:(lia)) as (l & rx & Dl & W & Lrx & Hq).
    destruct (Hg d' out (tape_drop m ta) ltac:(lia)) as (l' & rx' & Dl' & W' & Lrx' & Hq').
    pose proof (fun t => Hg d' out (tape_drop m t) ltac:(lia)) as Hg'. clear Hg.
    rewrite Lu in *.
    set (z := vec_add S rv v). assert (Lz : zlen z = size) by (unfold z; rewrite zlen_vec_add; lia).
    apply (J_same aes ta tb m0 P PB Hnd bad bad m q2 _ _ _ _ 0 k l (drew_blocks k (tape_drop q2 tb)) (r1 d rx (bb (v_r b) d)) (fun _ => r1 d' rx' (bb r' d')) (fun _ => mproc (Send (MVec z) (Ret (Ok tt))) aa)).
    { rewrite <- (tape_drop_drop k q2 tb). exact (wrun_proc S _ _ _ _ _ _ _ _ _ _ (r1 d) _ _ _ W). }
    { exact Dl. } { apply drew_drew_blocks. }
    { intros _ _ w t _ _ _. destruct (Hg' t) as (l2 & rx2 & _ & W2 & Lrx2 & Hq2).
      assert (rx2 = rx').
      { apply (znth_ext (s_zero S)); [lia|]. intros p Hp. specialize (Hq2 p ltac:(lia)). specialize (Hq' p ltac:(lia)).
        transitivity (s_sub S (s_mul S d' (zn u p)) (zn rv p)); [rewrite <- Hq2|rewrite <- Hq']; ring. }
      subst rx2. rewrite <- (tape_drop_drop k q2 tb). eapply wrun_vrun. exact (wrun_proc S _ _ _ _ _ _ _ _ _ _ (r1 d') _ _ _ W2). }
    intros B5 B6.
    set (fin := fun d r rx => set_r S (log_r S (vec_add S rx z) [] (set_r_cached S (ReceiverResult (vec_add S rx z) d) (v_r (bb r d)))) (bb r d)).
    assert (Hfin : forall x r rx, zlen rx = size -> (if negb (zlen rx =? zlen z) then mcalc (UB "Eigen: sizes differ") else
      let w := vec_add S rx z in mset (fun st => set_r S (log_r S w [] (set_r_cached S (ReceiverResult w x) (v_r st))) st)) (bb r x) = Ret (fin x r rx, Ok tt)).
    { intros x r rx0 Hx. rewrite Hx, Lz, Z.eqb_refl. reflexivity. }
    assert (Hstep : forall x r rx t t2, zlen rx = size -> wrun (r1 x rx (bb r x)) t (mproc (Send (MVec z) (Ret (Ok tt))) aa) t2 [Got (MVec z)] [] (Ret (fin x r rx, Ok tt)) t (Ret (aa, Ok tt)) t2).
    { intros x r rx0 t t2 Hx. rewrite <- (Hfin x r rx0 Hx). eapply wrun_hand. exact (whand_ba (MVec z) _ _ _ _ eq_refl). }
    apply (J_same aes ta tb m0 P PB Hnd bad bad m _ _ _ _ _ 0 0 [Got (MVec z)] [] (Ret (fin d (v_r b) rx, Ok tt)) (fun _ => Ret (fin d' r' rx', Ok tt)) (fun _ => Ret (aa, Ok tt))).
    { apply Hstep. lia. } { reflexivity. } { reflexivity. }
    { intros _ _ w t _ _ _. eapply wrun_vrun. apply Hstep. lia. }
    intros B7 B8. apply JM_ret; auto.
    assert (Hcor : forall x r rx0, zlen rx0 = size -> (forall p, 0 <= p < size -> s_add S (zn rv p) (zn rx0 p) = s_mul S x (zn u p)) -> corr S x (s_cached (v_s aa)) (r_cached (v_r (fin x r rx0))) /\ zlen (rr_w (r_cached (v_r (fin x r rx0)))) = size).
    { intros x r rx0 Hx Hqx. split; [|cbn; rewrite zlen_vec_add; lia]. split; [reflexivity|]. cbn. unfold vole_correlation. rewrite zlen_vec_add by lia. repeat split; try lia.
      intros p Hp. rewrite Hx in Hp. rewrite znth_vec_add by lia. unfold z. rewrite znth_vec_add by lia. specialize (Hqx p Hp).
      assert (E1 : zn rx0 p = s_sub S (s_mul S x (zn u p)) (zn rv p)) by (rewrite <- Hqx; ring). rewrite E1. ring. }
    exists (v_s aa), (v_r (fin d (v_r b) rx)), (v_r (fin d' r' rx')).
    destruct (Hcor d (v_r b) rx ltac:(lia) Hq) as [C1 C2]. destruct (Hcor d' r' rx' ltac:(lia) Hq') as [C3 C4].
    repeat (split; [first [reflexivity | assumption]|]). reflexivity.
  Qed.

  (** Both parties are ready to expand; [d] and [d']: the receiver's delta in the
      two worlds, [r']: what it holds in the other world. *)
  Definition steady d d' a b r' : Prop := exists i, same S (EE aes) seed a b /\ level S (EE aes) a i /\ v_rows a = sd i /\
    1 <= v_batch_size a /\ v_batch_size a + sd i + e3 (no i) <= top /\ zlen (v_columns a) = v_batch_size a + sd i + e3 (no i) /\
    holds S (EE aes) d i (v_s a) (v_r b) /\ holds S (EE aes) d' i (v_s a) r' /\ s_done (v_s a) = true /\ r_done (v_r b) = true /\ r_done r' = true.

  Lemma sizes_w w c : okw w -> coh (v_mpfss c) ->
    precompute_sizes S (EE w) c = Ret (set_mpfss_seed_size S (e3 (no 0)) (set_vole_seed_size S (sd 0) (set_num_noise S (no 0) (set_batch_size S 0 c))), Ok (sd 0 + e3 (no 0))).
  Proof.
    intros Hw Hc. apply (sizes_ok S (EE w) (G w) seed true c). apply (same_coherent aes too e3 e2 seed w); [intro z; now apply seed_same|exact Hc].
  Qed.

  Lemma precompute_J m q a b r' batch d d' : (m0 <= m)%nat -> same S (EE aes) seed a b -> s_done (v_s a) = r_done (v_r b) -> r_done r' = r_done (v_r b) ->
    JM m q (precompute_receiver S (EE aes) (MB aes) batch d b) (fun w => precompute_receiver S (EE w) (MB w) batch d' (set_r S r' b))
      (fun w => precompute_sender S (EE w) (MA w) batch a)
      (fun b1 _ a1 _ b1' _ => exists r1', b1' = set_r S r1' b1 /\ steady d d' a1 b1 r1').
  Proof.
    intros Hm Hsm Hd1 Hd2. unfold precompute_sender, precompute_receiver.
    destruct (Z.ltb_spec batch 1) as [Hlt|Hge]; [apply J_doomed_a, doomed_ret; exact I|].
    pose proof (gs_levels S (EE aes) (G aes)) as Hlv. pose proof (level_facts S (EE aes) (G aes) 0 ltac:(lia)) as (K1 & K2 & K3 & K4 & K5). pose proof (top_small S (EE aes) (G aes)) as Htop.
    change (e_parameters (EE aes)) with par in *. change (e_expansion3 (EE aes)) with e3 in *.
    pose proof Hsm as Hs'. destruct Hs'.
    set (size := sd 0 + e3 (no 0)). set (pre := fun c : vole S => set_mpfss_seed_size S (e3 (no 0)) (set_vole_seed_size S (sd 0) (set_num_noise S (no 0) (set_batch_size S 0 c)))).
    eapply JM_conv; [rewrite (bind_ok S _ _ _ _ _ (sizes_w aes b (okw_aes _ _ _ _) same_b)); reflexivity|intros w Hw; rewrite (bind_ok S _ _ _ _ _ (sizes_w w (set_r S r' b) Hw same_b)); exact eq_refl|
      intros w Hw; rewrite (bind_ok S _ _ _ _ _ (sizes_w w a Hw same_a)); exact eq_refl|].
    eapply JM_bind; [apply (first_J m q size d d' (pre a) (pre b) r'); reflexivity|].
    intros ka kb b1 x1 a1 x2 b1' x3 B1 B2 (ss & rs & rs' & -> & -> & -> & Hc & Hc' & Lc & Lc' & Ds & Dr & Dr').
    pose proof Hc as [_ (Lu & _)]. pose proof (reseed_corr S true d (sd 0) (e3 (no 0)) ss rs Hc ltac:(lia) ltac:(lia) ltac:(lia)) as (A1 & A2 & A3 & A4 & A5 & A6).
    pose proof (reseed_corr S true d' (sd 0) (e3 (no 0)) ss rs' Hc' ltac:(lia) ltac:(lia) ltac:(lia)) as (A1' & A2' & A3' & A4' & A5' & A6').
    assert (Er : forall rr, zlen (rr_w (r_cached rr)) = size -> new_receiver_seeds S (sd 0) (e3 (no 0)) (set_r S rr (pre b)) = Ret (set_r S (reseed_r S (sd 0) (e3 (no 0)) rr) (pre b), Ok tt)).
    { intros rr Hrr. refine (new_receiver_ok S (sd 0) (e3 (no 0)) (set_r S rr (pre b)) _ _ _); [lia|lia|change (size <= zlen (rr_w (r_cached rr))); lia]. }
    assert (Ea : new_sender_seeds S (sd 0) (e3 (no 0)) (set_s S ss (pre a)) = Ret (set_s S (reseed_s S (sd 0) (e3 (no 0)) ss) (pre a), Ok tt)).
    { refine (new_sender_ok S (sd 0) (e3 (no 0)) (set_s S ss (pre a)) _ _ _); [lia|lia|change (size <= zlen (sr_u (s_cached ss))); lia]. }
    set (cb := fun w => mbind (bootstrap S (EE w) (MB w) (expand_receiver S (EE w) (MB w)) batch (levels (EE w)))
      (fun _ => mbind (precompute_last S (EE w) (MB w) batch) (fun _ => mset (fun st0 : vole S => set_r S (set_r_done S (v_r st0)) st0)))).
    set (ca := fun w => mbind (bootstrap S (EE w) (MA w) (expand_sender S (EE w) (MA w)) batch (levels (EE w)))
      (fun _ => mbind (precompute_last S (EE w) (MA w) batch) (fun _ => mset (fun st0 : vole S => set_s S (set_s_done S (v_s st0)) st0)))).
    apply (JM_conv _ _ _ (cb aes (set_r S (reseed_r S (sd 0) (e3 (no 0)) rs) (pre b))) _ (fun w => cb w (set_r S (reseed_r S (sd 0) (e3 (no 0)) rs') (pre b)))
      _ (fun w => ca w (set_s S (reseed_s S (sd 0) (e3 (no 0)) ss) (pre a))));
      [rewrite !bind_get; exact (bind_ok S _ _ _ _ _ (Er rs Lc))|intros w _; rewrite !bind_get; exact (bind_ok S _ _ _ _ _ (Er rs' Lc'))|
      intros w _; rewrite !bind_get; exact (bind_ok S _ _ _ _ _ Ea)|]. unfold ca, cb.
    set (ss1 := reseed_s S _ _ ss) in *. set (rs1 := reseed_r S _ _ rs) in *. set (rs1' := reseed_r S _ _ rs') in *.
    set (dn := s_done (v_s a)).
    eapply JM_bind; [apply (bootstrap_J (v_r a) (v_s b) dn d d' batch (Z.to_nat (lv - 1 - 0)) _ _ 0 (set_s S ss1 (pre a)) (set_r S rs1 (pre b)) rs1'); [lia| |reflexivity|lia|lia]|].
    { split; (split; [constructor; cbn; auto|]; split; [unfold level; cbn; repeat split; auto; lia|]; split; [reflexivity|]).
      - split; [exact (conj A1 (conj A3 (conj A5 (conj A4 (conj A6 (conj (Z.le_refl 0) (proj1 (Z.le_succ_l 0 lv) Hlv)))))))|]. cbn. cbn in Ds, Dr. rewrite Ds, Dr. repeat split; auto.
      - split; [exact (conj A1' (conj A3' (conj A5' (conj A4' (conj A6' (conj (Z.le_refl 0) (proj1 (Z.le_succ_l 0 lv) Hlv)))))))|]. cbn. cbn in Ds, Dr'. rewrite Ds, Dr'. repeat split; auto. unfold dn. congruence. }
    intros ka2 kb2 b2 x4 a2 x5 b2' x6 B3 B4 (i & r2' & -> & Hm2).
    eapply JM_bind; [apply (last_J (v_r a) (v_s b) dn d d' _ _ batch i a2 b2 r2'); [lia|exact Hge|exact Hm2]|].
    intros ka3 kb3 b3 x7 a3 x8 b3' x9 B5 B6 (be & -> & [Hx1 Hx2] & Hb1 & Hb2 & R1 & R2).
    unfold mset. apply JM_ret; auto. exists (set_r_done S r2'). split; [reflexivity|].
    destruct Hx1 as (Hsm3 & Hlv3 & Hb3 & Hh3 & _). destruct Hx2 as (_ & _ & _ & Hh3' & _). destruct Hsm3.
    exists i. split; [constructor; cbn; auto|]. split; [exact Hlv3|]. split; [exact R1|]. cbn. rewrite Hb3. repeat (split; [assumption|]). auto.
  Qed.

  Lemma random_J m q a b r' batch d' : (m0 <= m)%nat -> same S (EE aes) seed a b -> s_done (v_s a) = r_done (v_r b) -> r_done r' = r_done (v_r b) ->
    JM m q (precompute_receiver_random S (EE aes) (MB aes) batch b) (fun w => precompute_receiver_random S (EE w) (MB w) batch (set_r S r' b))
      (fun w => precompute_sender S (EE w) (MA w) batch a)
      (fun b1 _ a1 _ b1' _ => exists r1' d, b1' = set_r S r1' b1 /\ steady d d' a1 b1 r1').
  Proof.
    intros Hm Hsm Hd1 Hd2. unfold precompute_receiver_random.
    apply (J_step aes ta tb m0 P PB Hnd bad bad m q _ _ _ _ 1 0 (drew_blocks 1 (tape_drop m ta)) [] (precompute_receiver S (EE aes) (MB aes) batch (snd (tape_drop m ta O)) b)
      (fun w => precompute_receiver S (EE w) (MB w) batch d' (set_r S r' b)) (fun w => precompute_sender S (EE w) (MA w) batch a)).
    - rewrite <- (tape_drop_drop 1 m ta). eapply (wrun_cons _ _ _ _ [_] []); [constructor|]. apply (wrun_nil _ _ _ _).
    - apply drew_drew_blocks.
    - reflexivity.
    - intros B1 B2. exists aes, (fun p => if Nat.eqb p m then (fst (ta p), d') else ta p). split; [|split].
      + split; [intros; now left|]. intro p. destruct (Nat.eqb_spec p m); [right; lia|now left].
      + intros w t (_ & A2 & _). rewrite <- (tape_drop_drop 1 m t).
        replace d' with (snd (tape_drop m t O)) by (rewrite tape_drop_at, A2, Nat.add_0_r, Nat.eqb_refl by lia; reflexivity).
        eapply (vrun_cons _ _ _ _ []); [constructor|]. apply (vrun_nil _ _ _ _).
      + eapply JM_weaken; [apply precompute_J; auto|]. cbv beta. intros b1 _ a1 _ b1' _ (r1' & H1 & H2). eauto.
  Qed.

  (** ** Run *)
  Definition result d d' size (b1 : vole S) (_ : receiver_result S) (a1 : vole S) (x : sender_result S) (b1' : vole S) (y' : receiver_result S) : Prop :=
    exists r1', b1' = set_r S r1' b1 /\ steady d d' a1 b1 r1' /\ zlen (rr_w y') = size /\ rr_delta y' = d' /\ vole_correlation S d' (sr_u x) (sr_v x) (rr_w y').

  Lemma loop_J d d' rounds size : forall m q u v w w' a b r', (m0 <= m <= P)%nat -> (q <= PB)%nat -> steady d d' a b r' ->
    vole_correlation S d u v w -> vole_correlation S d' u v w' -> zlen w <= size ->
    JM m q (run_receiver_loop S (EE aes) (MB aes) rounds size w d b) (fun w0 => run_receiver_loop S (EE w0) (MB w0) rounds size w' d' (set_r S r' b))
      (fun w0 => run_sender_loop S (EE w0) (MA w0) rounds size u v a) (result d d' size).
  Proof.
    induction rounds as [|rounds IH]; intros m q u v w w' a b r' Hm Hq Hst Hc Hc' Hl; cbn [run_sender_loop run_receiver_loop];
      pose proof Hc as (Lu & Lv & _); pose proof Hc' as (Lu' & _ & _); assert (Lw : zlen w' = zlen w) by congruence; rewrite Lu, Lw.
    { destruct (Z.leb_spec size (zlen w)); [|apply J_doomed_a, doomed_ret; exact I]. apply JM_ret; auto; [lia|].
      exists r'. split; [reflexivity|]. split; [exact Hst|]. split; [cbn; lia|]. split; [reflexivity|exact Hc']. }
    destruct (Z.leb_spec size (zlen w)) as [Hge|Hlt].
    { apply JM_ret; auto; [lia|]. exists r'. split; [reflexivity|]. split; [exact Hst|]. split; [cbn; lia|]. split; [reflexivity|exact Hc']. }
    pose proof Hst as (i & Hsm & (Hi & E1 & E2 & E3) & R1 & R2 & R3 & R4 & Hh & Hh' & Dn1 & Dn2 & Dn3).
    change (e_parameters (EE aes)) with par in *. change (e_expansion3 (EE aes)) with e3 in *.
    pose proof Hh as ([Hcd Hcc] & Hse). pose proof Hcc as (Lcu & Lcv & _). pose proof Hh' as ([Hcd' Hcc'] & Hse'). pose proof Hcc' as (Lcu' & _).
    set (wc := rr_w (r_cached (v_r b))) in *. set (wc' := rr_w (r_cached r')) in *. assert (Lwc : zlen wc' = zlen wc) by congruence. pose proof (zlen_nonneg wc) as Hn0.
    destruct (Z.leb_spec (zlen w + zlen wc) size) as [Hle|Hgt].
    - (* the whole cache *)
      set (a1 := set_s S (set_s_cached S (SenderResult [] []) (v_s a)) a).
      set (r1 := set_r_cached S (ReceiverResult [] (rr_delta (r_cached (v_r b)))) (v_r b)). set (r1' := set_r_cached S (ReceiverResult [] (rr_delta (r_cached r'))) r').
      set (b1 := set_r S r1 b).
      assert (X : vole_correlation S d (u ++ sr_u (s_cached (v_s a))) (v ++ sr_v (s_cached (v_s a))) (w ++ wc)) by (apply correlation_app; auto).
      assert (X' : vole_correlation S d' (u ++ sr_u (s_cached (v_s a))) (v ++ sr_v (s_cached (v_s a))) (w' ++ wc')) by (apply correlation_app; auto).
      assert (Lw2 : zlen (w ++ wc) = zlen w + zlen wc) by apply zlen_app. assert (Lw2' : zlen (w' ++ wc') = zlen w + zlen wc) by (rewrite zlen_app; lia).
      assert (Lu2 : zlen (u ++ sr_u (s_cached (v_s a))) = zlen (w ++ wc)) by apply X.
      assert (Hst1 : steady d d' a1 b1 r1').
      { exists i. destruct Hsm. split; [constructor; cbn; auto|]. split; [unfold level; cbn; auto|]. cbn. repeat (split; [assumption|]).
        split; [split; [split; [exact Hcd|apply correlation_nil]|exact Hse]|]. split; [split; [split; [exact Hcd'|apply correlation_nil]|exact Hse']|]. auto. }
      set (tb1 := fun w0 (x : list S) d => if zlen x <? size then mbind (expand S (expand_receiver S (EE w0) (MB w0))) (fun _ => run_receiver_loop S (EE w0) (MB w0) rounds size x d) else run_receiver_loop S (EE w0) (MB w0) rounds size x d).
      set (ts := fun w0 (x y : list S) => if zlen x <? size then mbind (expand S (expand_sender S (EE w0) (MA w0))) (fun _ => run_sender_loop S (EE w0) (MA w0) rounds size x y) else run_sender_loop S (EE w0) (MA w0) rounds size x y).
      apply (JM_conv m q _ (tb1 aes (w ++ wc) d b1) _ (fun w0 => tb1 w0 (w' ++ wc') d' (set_r S r1' b1)) _ (fun w0 => ts w0 (u ++ sr_u (s_cached (v_s a))) (v ++ sr_v (s_cached (v_s a))) a1)).
      { rewrite bind_get. cbv zeta. fold wc. replace (zlen w + zlen wc <=? size) with true by lia. erewrite (bind_ok S _ _ b) by reflexivity. reflexivity. }
      { intros w0 _. rewrite bind_get. cbv zeta. change (rr_w (r_cached (v_r (set_r S r' b)))) with wc'. replace (zlen w + zlen wc' <=? size) with true by lia. erewrite (bind_ok S _ _ (set_r S r' b)) by reflexivity. reflexivity. }
      { intros w0 _. rewrite bind_get. cbv zeta. rewrite Lcu. fold wc. replace (zlen w + zlen wc <=? size) with true by lia. erewrite (bind_ok S _ _ a) by reflexivity. reflexivity. }
      unfold tb1, ts. rewrite Lu2, Lw2, Lw2'.
      destruct (Z.ltb_spec (zlen w + zlen wc) size) as [Hlt2|Hge2]; [|apply (IH _ _ _ _ _ _ a1 b1 r1'); auto; lia].
      pose proof (level_facts S (EE aes) (G aes) i Hi) as (K1 & K2 & K3 & K4 & K5). pose proof (top_small S (EE aes) (G aes)) as Htop.
      change (e_parameters (EE aes)) with par in *. change (e_expansion3 (EE aes)) with e3 in *.
      pose proof Hst1 as (j & Hsm1 & (Hj & F1 & F2 & F3) & _ & _ & _ & _ & Hh1 & Hh1' & _).
      change (e_parameters (EE aes)) with par in *. change (e_expansion3 (EE aes)) with e3 in *.
      assert (j = i) by (apply (level_inj S (EE aes) (G aes)); auto; change (sd j = sd i); rewrite <- F1; exact E1). subst j.
      set (out := v_batch_size a + sd i + e3 (no i)).
      assert (Hex : forall step (c : vole S), v_batch_size c = v_batch_size a -> v_vole_seed_size c = sd i -> v_mpfss_seed_size c = e3 (no i) -> expand S step c = step out (sd i) (e3 (no i)) c).
      { intros step c G1 G2 G3. unfold expand, full_output. erewrite bind_ok; [|rewrite !bind_get; unfold mcalc; rewrite G1, G2, G3, int64_small by lia; reflexivity].
        rewrite !bind_get, G2, G3. reflexivity. }
      eapply JM_bind with (Q := fun b1' _ a1' _ b1'' _ => exists r1'', b1'' = set_r S r1'' b1' /\ steady d d' a1' b1' r1'').
      + apply (JM_conv m q _ (expand_receiver S (EE aes) (MB aes) out (sd i) (e3 (no i)) b1) _ (fun w0 => expand_receiver S (EE w0) (MB w0) out (sd i) (e3 (no i)) (set_r S r1' b1))
          _ (fun w0 => expand_sender S (EE w0) (MA w0) out (sd i) (e3 (no i)) a1)); [apply Hex|intros w0 _; apply Hex|intros w0 _; apply Hex|]; try (cbn; destruct Hsm; congruence).
        eapply JM_weaken; [apply (expand_J m q a1 b1 r1' d d' i out (sd i) (e3 (no i))); auto; try lia; cbn; congruence|].
        intros b2 _ a2 _ b2' _ (r2' & -> & X1 & X2). exists r2'. split; [reflexivity|].
        destruct X1 as (ma & mb & ss & rs & Hma & Hmb & Hco & -> & -> & C1 & LC & C2 & L2 & C3 & L3 & D3 & D4).
        destruct X2 as (ma' & mb' & ss' & rs' & Hma' & Hmb' & Hco' & E1' & E2' & C1' & LC' & C2' & L2' & C3' & L3' & D3' & D4').
        injection E1' as Em Es. subst ma' ss'. apply (f_equal (fun c : vole S => v_r c)) in E2'. cbn in E2'. subst rs'.
        exists i. destruct Hsm1. split; [constructor; cbn; auto|]. split; [unfold level; cbn; auto|]. cbn in *. repeat (split; [first [assumption|congruence|lia]|]).
        split; [exact (conj C1 (conj C2 (conj C3 (conj L2 (conj L3 Hi)))))|]. split; [exact (conj C1' (conj C2' (conj C3' (conj L2' (conj L3' Hi)))))|]. split; [congruence|]. split; congruence.
      + intros ka kb b2 _ a2 _ b2' _ B1 B2 (r2' & -> & Hst2). apply (IH _ _ _ _ _ _ a2 b2 r2'); auto; lia.
    - (* part of the cache *)
      set (n := size - zlen w).
      set (a1 := set_s S (set_s_cached S (SenderResult (shrink n (sr_u (s_cached (v_s a)))) (shrink n (sr_v (s_cached (v_s a))))) (v_s a)) a).
      set (r1 := set_r_cached S (ReceiverResult (shrink n wc) (rr_delta (r_cached (v_r b)))) (v_r b)). set (r1' := set_r_cached S (ReceiverResult (shrink n wc') (rr_delta (r_cached r'))) r').
      set (b1 := set_r S r1 b).
      assert (X : vole_correlation S d (u ++ tail n (sr_u (s_cached (v_s a)))) (v ++ tail n (sr_v (s_cached (v_s a)))) (w ++ tail n wc))
        by (apply correlation_app; auto; apply correlation_tail; auto; lia).
      assert (X' : vole_correlation S d' (u ++ tail n (sr_u (s_cached (v_s a)))) (v ++ tail n (sr_v (s_cached (v_s a)))) (w' ++ tail n wc'))
        by (apply correlation_app; auto; apply correlation_tail; auto; fold wc'; lia).
      assert (Lw2 : zlen (w ++ tail n wc) = size) by (rewrite zlen_app, zlen_tail; lia). assert (Lw2' : zlen (w' ++ tail n wc') = size) by (rewrite zlen_app, zlen_tail; lia).
      assert (Lu2 : zlen (u ++ tail n (sr_u (s_cached (v_s a)))) = zlen (w ++ tail n wc)) by apply X.
      apply (JM_conv m q _ (run_receiver_loop S (EE aes) (MB aes) rounds size (w ++ tail n wc) d b1) _ (fun w0 => run_receiver_loop S (EE w0) (MB w0) rounds size (w' ++ tail n wc') d' (set_r S r1' b1))
        _ (fun w0 => run_sender_loop S (EE w0) (MA w0) rounds size (u ++ tail n (sr_u (s_cached (v_s a)))) (v ++ tail n (sr_v (s_cached (v_s a)))) a1)).
      { rewrite bind_get. cbv zeta. fold wc. replace (zlen w + zlen wc <=? size) with false by lia. erewrite (bind_ok S _ _ b) by (apply get_receiver_ok; fold wc; lia). cbn [rr_w]. fold wc n. rewrite Lw2. replace (size <? size) with false by lia. reflexivity. }
      { intros w0 _. rewrite bind_get. cbv zeta. change (rr_w (r_cached (v_r (set_r S r' b)))) with wc'. replace (zlen w + zlen wc' <=? size) with false by lia.
        erewrite (bind_ok S _ _ (set_r S r' b)) by (apply get_receiver_ok; change (rr_w (r_cached (v_r (set_r S r' b)))) with wc'; lia). cbn [rr_w]. change (rr_w (r_cached (v_r (set_r S r' b)))) with wc'. fold n. rewrite Lw2'. replace (size <? size) with false by lia. reflexivity. }
      { intros w0 _. rewrite bind_get. cbv zeta. rewrite Lcu. fold wc. replace (zlen w + zlen wc <=? size) with false by lia. erewrite (bind_ok S _ _ a) by (apply get_sender_ok; lia). cbn [sr_u sr_v]. fold n. rewrite Lu2, Lw2. replace (size <? size) with false by lia. reflexivity. }
      apply (IH _ _ _ _ _ _ a1 b1 r1'); auto; try lia.
      exists i. destruct Hsm. split; [constructor; cbn; auto|]. split; [unfold level; cbn; auto|]. cbn. repeat (split; [assumption|]).
      split; [split; [split; [exact Hcd|cbn; apply correlation_shrink; auto; lia]|exact Hse]|]. split; [split; [split; [exact Hcd'|cbn; apply correlation_shrink; auto; fold wc'; lia]|exact Hse']|]. auto.
  Qed.

  (** [cur]: the delta of the last precomputation in the other world. *)
  Definition ready (cur : option S) a b r' : Prop :=
    match cur with
    | None => same S (EE aes) seed a b /\ s_done (v_s a) = false /\ r_done (v_r b) = false /\ r_done r' = false
    | Some d' => exists d, steady d d' a b r'
    end.
  Lemma ready_same cur a b r' : ready cur a b r' -> same S (EE aes) seed a b /\ s_done (v_s a) = r_done (v_r b) /\ r_done r' = r_done (v_r b).
  Proof.
    destruct cur as [d'|]; cbn [ready].
    - intros (d & i & H & _ & _ & _ & _ & _ & _ & _ & E1 & E2 & E3). split; [exact H|]. split; congruence.
    - intros (H & E1 & E2 & E3). split; [exact H|]. split; congruence.
  Qed.

  Lemma run_J m q size cur d0 a b r' : (m0 <= m <= P)%nat -> (q <= PB)%nat -> ready cur a b r' ->
    let d' := match cur with Some d' => d' | None => d0 end in
    JM m q (run_receiver S (EE aes) (MB aes) size b) (fun w => run_receiver S (EE w) (MB w) size (set_r S r' b)) (fun w => run_sender S (EE w) (MA w) size a)
      (fun b1 y a1 x b1' y' => exists d, result d d' size b1 y a1 x b1' y').
  Proof.
    intros Hm Hq Hr d'. pose proof (ready_same _ _ _ _ Hr) as (Hsm & D1 & D2).
    set (fb := fun w (_ : unit) st => pbind (get_receiver_cached S size st) (fun '(st, r) =>
      match r with Ok result => Ret (st, Ok result) | Err _ => run_receiver_loop S (EE w) (MB w) (Z.to_nat size + 1) size [] (rr_delta (r_cached (v_r st))) st | UB w => Ret (st, UB w) end)).
    set (fa := fun w (_ : unit) st => pbind (get_sender_cached S size st) (fun '(st, r) =>
      match r with Ok result => Ret (st, Ok result) | Err _ => run_sender_loop S (EE w) (MA w) (Z.to_nat size + 1) size [] [] st | UB w => Ret (st, UB w) end)).
    apply (JM_conv m q _ (mbind (if s_done (v_s a) then mret tt else precompute_receiver_random S (EE aes) (MB aes) size) (fb aes) b)
      _ (fun w => mbind (if s_done (v_s a) then mret tt else precompute_receiver_random S (EE w) (MB w) size) (fb w) (set_r S r' b))
      _ (fun w => mbind (if s_done (v_s a) then mret tt else precompute_sender S (EE w) (MA w) size) (fa w) a)).
    { rewrite D1. reflexivity. }
    { intros w _. rewrite D1, <- D2. reflexivity. }
    { intros w _. reflexivity. }
    apply (JM_bind m q (fun b1 _ a1 _ b1' _ => exists r1' d, b1' = set_r S r1' b1 /\ steady d d' a1 b1 r1') _
      (if s_done (v_s a) then mret tt else precompute_receiver_random S (EE aes) (MB aes) size) (fun w => if s_done (v_s a) then mret tt else precompute_receiver_random S (EE w) (MB w) size)
      (fun w => if s_done (v_s a) then mret tt else precompute_sender S (EE w) (MA w) size) (fb aes) fb fa b (set_r S r' b) a).
    - destruct cur as [dx|]; cbn [ready] in Hr.
      + destruct Hr as (d & Hst). pose proof Hst as (i & _ & _ & _ & _ & _ & _ & _ & _ & E1 & _). rewrite E1. apply JM_ret; auto; [lia|]. exists r', d. auto.
      + destruct Hr as (_ & E1 & _). rewrite E1. apply random_J; auto; lia.
    - intros ka kb b1 x1 a1 x2 b1' x3 B1 B2 (r1' & d & -> & Hst). unfold fb, fa, get_sender_cached, get_receiver_cached.
      pose proof Hst as (i & Hsm1 & Hlv & R1 & R2 & R3 & R4 & Hh & Hh' & Dn1 & Dn2 & Dn3).
      pose proof Hh as ([Hcd Hcc] & Hse). pose proof Hcc as (Lcu & Lcv & _). pose proof Hh' as ([Hcd' Hcc'] & Hse'). pose proof Hcc' as (Lcu' & _).
      change (v_r (set_r S r1' b1)) with r1'. rewrite <- Lcu, <- Lcu'.
      destruct (Z.ltb_spec (zlen (sr_u (s_cached (v_s a1)))) size) as [Hlt|Hge].
      + cbn [pbind]. change (v_r (set_r S r1' b1)) with r1'. rewrite Hcd, Hcd'. pose proof (zlen_nonneg (sr_u (s_cached (v_s a1)))).
        eapply JM_weaken; [apply (loop_J d d' (Z.to_nat size + 1) size _ _ [] [] [] [] a1 b1 r1'); auto; [lia|apply correlation_nil|apply correlation_nil|change (zlen (@nil S)) with 0; lia]|].
        cbv beta. intros. exists d. assumption.
      + destruct (Z.ltb_spec size 0); [apply J_doomed_a, doomed_ret; exact I|]. cbn [pbind]. change (v_r (set_r S r1' b1)) with r1'. apply JM_ret; auto.
        exists d. eexists. split; [reflexivity|]. split; [|split; [|split]].
        * exists i. destruct Hsm1. split; [constructor; cbn; auto|]. split; [exact Hlv|]. cbn. repeat (split; [assumption|]).
          split; [split; [split; [exact Hcd|cbn; apply correlation_shrink; auto; lia]|exact Hse]|]. split; [split; [split; [exact Hcd'|cbn; apply correlation_shrink; auto; lia]|exact Hse']|]. auto.
        * cbn. rewrite zlen_tail; lia.
        * exact Hcd'.
        * cbn. apply correlation_tail; auto; lia.
  Qed.

  (** ** Sequences of calls *)
  Definition other_call d0 (c : call S) : call S := match c with Precompute n (Some _) => Precompute n (Some d0) | c => c end.
  Definition answered cur d0 (c : call S) (b1 : vole S) (_ : answer S) (a1 : vole S) (x : answer S) (b1' : vole S) (y' : answer S) : Prop :=
    exists r1' cur', b1' = set_r S r1' b1 /\ ready (Some cur') a1 b1 r1' /\
    match c with
    | Precompute _ _ => x = Precomputed /\ y' = Precomputed /\ cur' = d0
    | Run n => exists u v w, x = Sender u v /\ y' = Receiver w cur' /\ cur' = match cur with Some d => d | None => d0 end /\ zlen w = n /\ vole_correlation S cur' u v w
    end.

  Lemma JM_map {X Y X' Y'} m q (Q : vole S -> X -> vole S -> Y -> vole S -> X -> Prop) (Q' : vole S -> X' -> vole S -> Y' -> vole S -> X' -> Prop) pr pr' ps (f : X -> X') (g : Y -> Y') :
    JM m q pr pr' ps Q -> (forall b v a u b' v', Q b v a u b' v' -> Q' b (f v) a (g u) b' (f v')) ->
    JM m q (pbind pr (fun '(st, r) => Ret (st, rmap f r))) (fun w => pbind (pr' w) (fun '(st, r) => Ret (st, rmap f r))) (fun w => pbind (ps w) (fun '(st, r) => Ret (st, rmap g r))) Q'.
  Proof.
    intros H HQ. unfold JM. apply (J_bind aes ta tb m0 P PB Hnd bad bad bad bad m q pr pr' ps (lift Q) (lift Q')
      (fun '(st, r) => Ret (st, rmap f r)) (fun y _ => let '(st, r) := y in Ret (st, rmap f r)) (fun x _ => let '(st, r) := x in Ret (st, rmap g r))); [exact H| | |].
    - intros [st [x|e|w]]; cbn; intro Hb; try contradiction; apply doomed_ret; exact I.
    - intros [st [x|e|w]]; cbn; intro Hb; try contradiction; apply doomed_ret; exact I.
    - intros ka kb y x y' B1 B2 (b & v & a & u & b' & v' & -> & -> & -> & HQ1). cbn [rmap]. apply J_ret; auto. eexists _, _, _, _, _, _. repeat (split; [reflexivity|]). auto.
  Qed.

  Lemma call_J m q c cur d0 a b r' : (m0 <= m <= P)%nat -> (q <= PB)%nat -> ready cur a b r' ->
    JM m q (as_receiver S (EE aes) (MB aes) c b) (fun w => as_receiver S (EE w) (MB w) (other_call d0 c) (set_r S r' b)) (fun w => as_sender S (EE w) (MA w) c a)
      (answered cur d0 c).
  Proof.
    intros Hm Hq Hr. pose proof (ready_same _ _ _ _ Hr) as (Hsm & D1 & D2). destruct c as [n [d|]|n]; cbn [other_call as_receiver as_sender].
    - eapply JM_map; [apply (precompute_J m q a b r' n d d0); auto; lia|]. cbv beta. intros b1 _ a1 _ b1' _ (r1' & -> & Hst). exists r1', d0. split; [auto|]. split; [exists d; auto|auto].
    - eapply JM_map; [apply (random_J m q a b r' n d0); auto; lia|]. cbv beta. intros b1 _ a1 _ b1' _ (r1' & d & -> & Hst). exists r1', d0. split; [auto|]. split; [exists d; auto|auto].
    - eapply JM_map; [apply (run_J m q n cur d0 a b r'); auto|]. cbv beta. intros b1 y a1 x b1' y' (d & r1' & -> & Hst & L1 & Ed & Hc). exists r1', (rr_delta y'). split; [auto|].
      split; [exists d; rewrite Ed; auto|]. exists (sr_u x), (sr_v x), (rr_w y'). split; [auto|]. split; [auto|]. split; [auto|]. split; [auto|]. rewrite Ed. exact Hc.
  Qed.

  Definition unlucky (rs : list (res (answer S))) : Prop := ~ all_ok rs.
  Lemma doomed_call E1 M1 go_on l (st : vole S) (r : res (answer S)) : match r with Ok _ => False | _ => True end ->
    doomed unlucky (match r with
      | Ok _ => pbind (calls S E1 M1 go_on l st) (fun rs => Ret (r :: rs))
      | Err e => if go_on e then pbind (calls S E1 M1 go_on l st) (fun rs => Ret (r :: rs)) else Ret [r]
      | UB _ => Ret [r] end).
  Proof.
    assert (Hx : forall rs, match r with Ok _ => False | _ => True end -> unlucky (r :: rs)).
    { intros rs Hr Ho. inversion Ho as [|? ? [x Hx] _]. subst. contradiction. }
    intro Hr. destruct r as [x|e|w]; [contradiction| |apply doomed_ret; auto].
    destruct (go_on e); [|apply doomed_ret; auto]. apply (doomed_bind (fun _ => True)); [intros r _; exact I|]. intros rs _. apply doomed_ret. auto.
  Qed.

  Lemma calls_J go_on l : forall m q cur deltas a b r', (m0 <= m <= P)%nat -> (q <= PB)%nat -> ready cur a b r' ->
    J aes ta tb m0 P PB unlucky unlucky m q (calls S (EE aes) (MB aes) go_on (map (pair false) l) b)
      (fun w => calls S (EE w) (MB w) go_on (map (pair false) (other_deltas deltas l)) (set_r S r' b))
      (fun w => calls S (EE w) (MA w) go_on (map (pair true) l) a)
      (fun _ x y' => correlated cur deltas l x y').
  Proof.
    induction l as [|c l IH]; intros m q cur deltas a b r' Hm Hq Hr.
    { cbn. apply J_ret; [lia|lia|exact I]. }
    assert (Eo : other_deltas deltas (c :: l) = other_call (deltas O) c :: other_deltas (fun j => deltas (Datatypes.S j)) l) by (destruct c as [n [d|]|n]; reflexivity).
    rewrite Eo. cbn [map calls].
    eapply (J_bind aes ta tb m0 P PB Hnd bad bad unlucky unlucky m q (as_receiver S (EE aes) (MB aes) c b) (fun w => as_receiver S (EE w) (MB w) (other_call (deltas O) c) (set_r S r' b))
      (fun w => as_sender S (EE w) (MA w) c a) (lift (answered cur (deltas O) c)) _
      (fun '(st, r) => match r with
        | Ok _ => pbind (calls S (EE aes) (MB aes) go_on (map (pair false) l) st) (fun rs => Ret (r :: rs))
        | Err e => if go_on e then pbind (calls S (EE aes) (MB aes) go_on (map (pair false) l) st) (fun rs => Ret (r :: rs)) else Ret [r]
        | UB _ => Ret [r] end)
      (fun y w => let '(st, r) := y in match r with
        | Ok _ => pbind (calls S (EE w) (MB w) go_on (map (pair false) (other_deltas (fun j => deltas (Datatypes.S j)) l)) st) (fun rs => Ret (r :: rs))
        | Err e => if go_on e then pbind (calls S (EE w) (MB w) go_on (map (pair false) (other_deltas (fun j => deltas (Datatypes.S j)) l)) st) (fun rs => Ret (r :: rs)) else Ret [r]
        | UB _ => Ret [r] end)
      (fun x w => let '(st, r) := x in match r with
        | Ok _ => pbind (calls S (EE w) (MA w) go_on (map (pair true) l) st) (fun rs => Ret (r :: rs))
        | Err e => if go_on e then pbind (calls S (EE w) (MA w) go_on (map (pair true) l) st) (fun rs => Ret (r :: rs)) else Ret [r]
        | UB _ => Ret [r] end)).
    - apply call_J; auto.
    - intros [st r] Hb. apply doomed_call. exact Hb.
    - intros [st r] Hb. apply doomed_call. exact Hb.
    - intros ka kb y x y' B1 B2 (b1 & v & a1 & u & b1' & v' & -> & -> & -> & (r1' & cur' & -> & Hr1 & Hans)).
      eapply (J_bind aes ta tb m0 P PB Hnd unlucky unlucky unlucky unlucky (ka + m)%nat (kb + q)%nat
        (calls S (EE aes) (MB aes) go_on (map (pair false) l) b1) (fun w => calls S (EE w) (MB w) go_on (map (pair false) (other_deltas (fun j => deltas (Datatypes.S j)) l)) (set_r S r1' b1))
        (fun w => calls S (EE w) (MA w) go_on (map (pair true) l) a1) _ _ (fun rs => Ret (Ok v :: rs)) (fun rs _ => Ret (Ok v' :: rs)) (fun rs _ => Ret (Ok u :: rs))).
      + apply (IH (ka + m)%nat (kb + q)%nat (Some cur') (fun j => deltas (Datatypes.S j)) a1 b1 r1'); auto; lia.
      + intros rs Hb. apply doomed_ret. intro Ho. apply Hb. now inversion Ho.
      + intros rs Hb. apply doomed_ret. intro Ho. apply Hb. now inversion Ho.
      + intros ka' kb' rb ra rb' B3 B4 Hc. apply J_ret; auto. destruct c as [n dd|n].
        * destruct Hans as (-> & -> & ->). exact Hc.
        * destruct Hans as (uu & vv & w & -> & -> & Ec & Hn & Hv). cbn. auto.
  Qed.
End Steps.
