(** Rules for showing that a run of two parties looks the same to the second
    one in another world, where the cipher, the random values and the secrets of
    the first party are different. *)
From Verif Require Import Base BaseFacts ProcModel ProcSpec ProcProofs VoleSpec HideSpec HideRun DeltaSpec DeltaRun.
Local Open Scope nat_scope.

Section Logic.
  Context {T : Type}.
  Variable aes : N -> N -> N.
  Variables ta tb : tape T.
  (** The first [m0] random blocks of the first party stay as they are; the
      parties draw [P] and [PB] blocks in all. *)
  Variables m0 P PB : nat.
  Hypothesis Hnd : NoDup (tape_blocks P ta).

  Lemma In_tape_blocks n (t : tape T) b : In b (tape_blocks n t) <-> exists i, i < n /\ b = fst (t i).
  Proof.
    split.
    - intro H. apply (In_nth _ _ 0%N) in H. destruct H as (i & Hi & <-). rewrite length_tape_blocks in Hi. exists i. split; [auto|]. now apply tape_blocks_at.
    - intros (i & Hi & ->). rewrite <- (tape_blocks_at n t i 0%N Hi). apply nth_In. now rewrite length_tape_blocks.
  Qed.
  Lemma blocks_inj p p' : p < P -> p' < P -> fst (ta p) = fst (ta p') -> p = p'.
  Proof.
    intros Hp Hp' E. apply (proj1 (NoDup_nth _ 0%N) Hnd); rewrite ?length_tape_blocks; auto. now rewrite !tape_blocks_at.
  Qed.

  Definition world := N -> N -> N.
  Definition used (k : N) : Prop := exists p, m0 <= p < P /\ k = fst (ta p).
  Definition okw (w : world) : Prop := forall k x, ~ used k -> w k x = aes k x.
  Definition patch m m' (w2 : world) (ta2 : tape T) : Prop :=
    (forall k x, w2 k x = aes k x \/ exists p, m0 <= p /\ m <= p < m' /\ k = fst (ta p)) /\
    (forall p, ta2 p = ta p \/ m0 <= p /\ m <= p < m').
  Definition agrees m m' (w2 : world) (ta2 : tape T) (w : world) (t : tape T) : Prop :=
    (forall p x, m <= p < m' -> w (fst (ta p)) x = w2 (fst (ta p)) x) /\ (forall p, m <= p < m' -> t p = ta2 p) /\ okw w.

  Lemma okw_aes : okw aes.
  Proof. intros k x _. reflexivity. Qed.
  Lemma patch_none m m' : patch m m' aes ta.
  Proof. split; auto. Qed.
  Lemma patch_ok m m' w2 ta2 : m' <= P -> patch m m' w2 ta2 -> okw w2.
  Proof. intros Hm [H _] k x Hk. destruct (H k x) as [E|(p & H1 & H2 & E)]; [exact E|]. exfalso. apply Hk. exists p. split; [lia|auto]. Qed.

  Definition J {RA RB} (badA : RA -> Prop) (badB : RB -> Prop) (m q : nat) (pr : proc T RA) (pr' : world -> proc T RA) (ps : world -> proc T RB)
    (Q : RA -> RB -> RA -> Prop) : Prop :=
    (exists ka kb la lb y x, wrun pr (tape_drop m ta) (ps aes) (tape_drop q tb) la lb (Ret y) (tape_drop (ka + m) ta) (Ret x) (tape_drop (kb + q) tb) /\
       drew la = tape_blocks ka (tape_drop m ta) /\ drew lb = tape_blocks kb (tape_drop q tb) /\ ka + m <= P /\ kb + q <= PB /\
       exists w2 ta2 y', patch m (ka + m) w2 ta2 /\ Q y x y' /\
         forall w t, agrees m (ka + m) w2 ta2 w t ->
           vrun (pr' w) (tape_drop m t) (ps w) (tape_drop q tb) lb (Ret y') (tape_drop (ka + m) t) (Ret x) (tape_drop (kb + q) tb)) \/
    (exists ka kb la lb p1 p2, wrun pr (tape_drop m ta) (ps aes) (tape_drop q tb) la lb p1 (tape_drop (ka + m) ta) p2 (tape_drop (kb + q) tb) /\
       drew la = tape_blocks ka (tape_drop m ta) /\ drew lb = tape_blocks kb (tape_drop q tb) /\
       (doomed badA p1 \/ doomed badB p2 \/ P < ka + m \/ PB < kb + q)).

  Lemma J_ret {RA RB} badA badB m q (y : RA) (x : RB) y' (Q : RA -> RB -> RA -> Prop) :
    m <= P -> q <= PB -> Q y x y' -> J badA badB m q (Ret y) (fun _ => Ret y') (fun _ => Ret x) Q.
  Proof.
    intros Hm Hq H. left. exists 0, 0, [], [], y, x. split; [constructor|]. split; [reflexivity|]. split; [reflexivity|]. split; [auto|]. split; [auto|].
    exists aes, ta, y'. split; [apply patch_none|]. split; [auto|]. intros. constructor.
  Qed.
  Lemma J_doomed_a {RA RB} (badA : RA -> Prop) (badB : RB -> Prop) m q pr pr' ps Q : doomed badA pr -> J badA badB m q pr pr' ps Q.
  Proof. intro H. right. exists 0, 0, [], [], pr, (ps aes). split; [constructor|]. split; [reflexivity|]. split; [reflexivity|]. auto. Qed.
  Lemma J_doomed_b {RA RB} (badA : RA -> Prop) (badB : RB -> Prop) m q pr pr' ps Q : doomed badB (ps aes) -> J badA badB m q pr pr' ps Q.
  Proof. intro H. right. exists 0, 0, [], [], pr, (ps aes). split; [constructor|]. split; [reflexivity|]. split; [reflexivity|]. auto. Qed.

  Lemma J_conv {RA RB} (badA : RA -> Prop) (badB : RB -> Prop) m q pr pr2 pr' pr2' ps ps2 Q :
    pr = pr2 -> (forall w, okw w -> pr' w = pr2' w) -> (forall w, okw w -> ps w = ps2 w) ->
    J badA badB m q pr2 pr2' ps2 Q -> J badA badB m q pr pr' ps Q.
  Proof.
    intros -> H1 H2 [(ka & kb & la & lb & y & x & W & D1 & D2 & B1 & B2 & w2 & ta2 & y' & Hp & HQ & Hv) | (ka & kb & la & lb & p1 & p2 & W & D1 & D2 & HF)].
    - left. exists ka, kb, la, lb, y, x. rewrite (H2 aes okw_aes). split; [exact W|]. split; [exact D1|]. split; [exact D2|]. split; [exact B1|]. split; [exact B2|].
      exists w2, ta2, y'. split; [exact Hp|]. split; [exact HQ|]. intros w t Ha. pose proof Ha as (_ & _ & Hw). rewrite H1, H2 by exact Hw. now apply Hv.
    - right. exists ka, kb, la, lb, p1, p2. rewrite (H2 aes okw_aes). split; [exact W|]. split; [exact D1|]. split; [exact D2|exact HF].
  Qed.
  Lemma J_weaken {RA RB} (badA : RA -> Prop) (badB : RB -> Prop) m q pr pr' ps (Q Q' : RA -> RB -> RA -> Prop) :
    J badA badB m q pr pr' ps Q -> (forall y x y', Q y x y' -> Q' y x y') -> J badA badB m q pr pr' ps Q'.
  Proof.
    intros [(ka & kb & la & lb & y & x & W & D1 & D2 & B1 & B2 & w2 & ta2 & y' & Hp & HQ & Hv) | H] HQ'; [left|right; exact H].
    exists ka, kb, la, lb, y, x. split; [exact W|]. split; [exact D1|]. split; [exact D2|]. split; [exact B1|]. split; [exact B2|].
    exists w2, ta2, y'. auto.
  Qed.

  (** Two steps: each party's world is patched where the step draws its blocks. *)
  Definition merged m m1 (w2 w2' : world) : world := fun k x =>
    if in_dec N.eq_dec k (tape_blocks (m1 - m) (tape_drop m ta)) then w2 k x else w2' k x.
  Definition merged_tape m1 (t2 t2' : tape T) : tape T := fun p => if p <? m1 then t2 p else t2' p.
  Lemma merged_patch m m1 m2 w2 ta2 w2' ta2' : m <= m1 <= m2 -> patch m m1 w2 ta2 -> patch m1 m2 w2' ta2' ->
    patch m m2 (merged m m1 w2 w2') (merged_tape m1 ta2 ta2').
  Proof.
    intros Hm [H1 H2] [H3 H4]. split.
    - intros k x. unfold merged. destruct (in_dec _ _ _) as [Hi|Hi].
      + destruct (H1 k x) as [E|(p & A1 & A2 & E)]; [now left|]. right. exists p. repeat split; auto; lia.
      + destruct (H3 k x) as [E|(p & A1 & A2 & E)]; [now left|]. right. exists p. repeat split; auto; lia.
    - intro p. unfold merged_tape. destruct (p <? m1).
      + destruct (H2 p) as [E|[A1 A2]]; [now left|]. right. lia.
      + destruct (H4 p) as [E|[A1 A2]]; [now left|]. right. lia.
  Qed.
  Lemma merged_agrees m m1 m2 w2 ta2 w2' ta2' w t : m <= m1 <= m2 -> m2 <= P ->
    agrees m m2 (merged m m1 w2 w2') (merged_tape m1 ta2 ta2') w t -> agrees m m1 w2 ta2 w t /\ agrees m1 m2 w2' ta2' w t.
  Proof.
    intros Hm HP (H1 & H2 & H3). split; (split; [|split; [|exact H3]]).
    - intros p x Hp. rewrite H1 by lia. unfold merged. destruct (in_dec _ _ _) as [Hi|Hi]; [reflexivity|]. exfalso. apply Hi.
      apply In_tape_blocks. exists (p - m). split; [lia|]. rewrite tape_drop_at. f_equal. f_equal. lia.
    - intros p Hp. rewrite H2 by lia. unfold merged_tape. destruct (Nat.ltb_spec p m1); [reflexivity|lia].
    - intros p x Hp. rewrite H1 by lia. unfold merged. destruct (in_dec _ _ _) as [Hi|Hi]; [|reflexivity]. exfalso.
      apply In_tape_blocks in Hi. destruct Hi as (i & Hi & E). rewrite tape_drop_at in E. apply blocks_inj in E; lia.
    - intros p Hp. rewrite H2 by lia. unfold merged_tape. destruct (Nat.ltb_spec p m1); [lia|reflexivity].
  Qed.

  Lemma J_step {RA RB} (badA : RA -> Prop) (badB : RB -> Prop) m q pr pr' ps Q ka kb la lb pr1 pr1' ps1 :
    wrun pr (tape_drop m ta) (ps aes) (tape_drop q tb) la lb pr1 (tape_drop (ka + m) ta) (ps1 aes) (tape_drop (kb + q) tb) ->
    drew la = tape_blocks ka (tape_drop m ta) -> drew lb = tape_blocks kb (tape_drop q tb) ->
    (ka + m <= P -> kb + q <= PB -> exists w2 ta2, patch m (ka + m) w2 ta2 /\
       (forall w t, agrees m (ka + m) w2 ta2 w t ->
         vrun (pr' w) (tape_drop m t) (ps w) (tape_drop q tb) lb (pr1' w) (tape_drop (ka + m) t) (ps1 w) (tape_drop (kb + q) tb)) /\
       J badA badB (ka + m) (kb + q) pr1 pr1' ps1 Q) ->
    J badA badB m q pr pr' ps Q.
  Proof.
    intros W D1 D2 H.
    destruct (le_lt_dec (ka + m) P) as [B1|B1]; [|right; exists ka, kb, la, lb, pr1, (ps1 aes); auto 10].
    destruct (le_lt_dec (kb + q) PB) as [B2|B2]; [|right; exists ka, kb, la, lb, pr1, (ps1 aes); auto 10].
    destruct (H B1 B2) as (w2 & ta2 & Hp & Hv & HJ). clear H.
    assert (D1' : forall ka' la', drew la' = tape_blocks ka' (tape_drop (ka + m) ta) -> drew (la ++ la') = tape_blocks ((ka + ka')) (tape_drop m ta)).
    { intros ka' la' D. rewrite drew_app, tape_blocks_app, tape_drop_drop, D1, D. reflexivity. }
    assert (D2' : forall ka' la', drew la' = tape_blocks ka' (tape_drop (kb + q) tb) -> drew (lb ++ la') = tape_blocks ((kb + ka')) (tape_drop q tb)).
    { intros ka' la' D. rewrite drew_app, tape_blocks_app, tape_drop_drop, D2, D. reflexivity. }
    destruct HJ as [(ka' & kb' & la' & lb' & y & x & W' & D3 & D4 & B3 & B4 & w2' & ta2' & y' & Hp' & HQ & Hv') | (ka' & kb' & la' & lb' & p1 & p2 & W' & D3 & D4 & HF)].
    - left. exists (ka + ka'), (kb + kb'), (la ++ la'), (lb ++ lb'), y, x.
      replace (ka + ka' + m) with (ka' + (ka + m)) by lia. replace (kb + kb' + q) with (kb' + (kb + q)) by lia.
      split; [eapply wrun_trans; eassumption|]. split; [auto|]. split; [auto|]. split; [lia|]. split; [lia|].
      exists (merged m (ka + m) w2 w2'), (merged_tape (ka + m) ta2 ta2'), y'. split; [apply merged_patch; auto; lia|]. split; [exact HQ|].
      intros w t Ha. apply merged_agrees in Ha; [|lia|lia]. destruct Ha as [Ha1 Ha2]. eapply vrun_trans; [apply Hv; exact Ha1|apply Hv'; exact Ha2].
    - right. exists (ka + ka'), (kb + kb'), (la ++ la'), (lb ++ lb'), p1, p2.
      replace (ka + ka' + m) with (ka' + (ka + m)) by lia. replace (kb + kb' + q) with (kb' + (kb + q)) by lia.
      split; [eapply wrun_trans; eassumption|]. auto.
  Qed.

  Lemma J_bind {RA RB RA' RB'} (badA : RA -> Prop) (badB : RB -> Prop) (badA' : RA' -> Prop) (badB' : RB' -> Prop) m q pr pr' ps Q Q'
      (f : RA -> proc T RA') (f' : RA -> world -> proc T RA') (g : RB -> world -> proc T RB') :
    J badA badB m q pr pr' ps Q ->
    (forall y, badA y -> doomed badA' (f y)) -> (forall x, badB x -> doomed badB' (g x aes)) ->
    (forall ka kb y x y', ka + m <= P -> kb + q <= PB -> Q y x y' -> J badA' badB' (ka + m) (kb + q) (f y) (f' y') (g x) Q') ->
    J badA' badB' m q (pbind pr f) (fun w => pbind (pr' w) (fun y => f' y w)) (fun w => pbind (ps w) (fun x => g x w)) Q'.
  Proof.
    intros [(ka & kb & la & lb & y & x & W & D1 & D2 & B1 & B2 & w2 & ta2 & y' & Hp & HQ & Hv) | (ka & kb & la & lb & p1 & p2 & W & D1 & D2 & HF)] HA HB Hk.
    - apply (J_step badA' badB' m q _ _ _ _ ka kb la lb (f y) (f' y') (g x)); auto.
      + exact (wrun_bind f (fun x => g x aes) _ _ _ _ _ _ _ _ _ _ W).
      + intros _ _. exists w2, ta2. split; [auto|]. split; [|auto]. intros w t Ha.
        exact (vrun_bind (fun y => f' y w) (fun x => g x w) _ _ _ _ _ _ _ _ _ (Hv w t Ha)).
    - right. exists ka, kb, la, lb, (pbind p1 f), (pbind p2 (fun x => g x aes)).
      split; [exact (wrun_bind f (fun x => g x aes) _ _ _ _ _ _ _ _ _ _ W)|]. split; [auto|]. split; [auto|].
      destruct HF as [HF|[HF|[HF|HF]]]; auto; [left|right; left]; eapply doomed_bind; eauto.
  Qed.

  (** A step that is the same in every world. *)
  Lemma J_same {RA RB} (badA : RA -> Prop) (badB : RB -> Prop) m q pr pr' ps Q ka kb la lb pr1 pr1' ps1 :
    wrun pr (tape_drop m ta) (ps aes) (tape_drop q tb) la lb pr1 (tape_drop (ka + m) ta) (ps1 aes) (tape_drop (kb + q) tb) ->
    drew la = tape_blocks ka (tape_drop m ta) -> drew lb = tape_blocks kb (tape_drop q tb) ->
    (ka + m <= P -> kb + q <= PB -> forall w t, (forall p, m <= p < ka + m -> t p = ta p) -> (forall p x, m <= p < ka + m -> w (fst (ta p)) x = aes (fst (ta p)) x) -> okw w ->
      vrun (pr' w) (tape_drop m t) (ps w) (tape_drop q tb) lb (pr1' w) (tape_drop (ka + m) t) (ps1 w) (tape_drop (kb + q) tb)) ->
    (ka + m <= P -> kb + q <= PB -> J badA badB (ka + m) (kb + q) pr1 pr1' ps1 Q) ->
    J badA badB m q pr pr' ps Q.
  Proof.
    intros W D1 D2 Hv HJ. eapply J_step; [exact W|exact D1|exact D2|]. intros B1 B2. exists aes, ta. split; [apply patch_none|]. split; [|auto].
    intros w t (H1 & H2 & H3). auto.
  Qed.

  Lemma possible_log {R} (p : proc T R) log r : possible (watch p log) r -> exists l, snd r = log ++ l.
  Proof.
    revert log. induction p; cbn; intros log Hp; inversion Hp; subst; cbn; try (exists []; now rewrite app_nil_r);
      try (now eauto); match goal with IH : forall _ _, _ -> exists _, _ |- _ => idtac | IH : forall _ _ _, _ -> exists _, _ |- _ => idtac | IH : forall _ _ _ _, _ -> exists _, _ |- _ => idtac | _ => idtac end;
      match goal with Hx : possible (watch _ (log ++ ?l0)) _, IH : _ |- _ => apply IH in Hx; destruct Hx as [l2 Hx]; exists (l0 ++ l2); now rewrite app_assoc end.
  Qed.

  Lemma J_final {RA RB} (badA : RA -> Prop) (badB : RB -> Prop) pr pr' ps Q y x la lb :
    J badA badB 0 0 pr pr' ps Q ->
    completes (watch pr []) ta (watch (ps aes) []) tb (y, la) (x, lb) ->
    P = List.length (drew la) -> PB = List.length (drew lb) -> ~ badA y -> ~ badB x ->
    exists w2 ta2 y', patch 0 P w2 ta2 /\ Q y x y' /\ completes (pr' w2) ta2 (watch (ps w2) []) tb y' (x, lb).
  Proof.
    intros [(ka & kb & la' & lb' & y0 & x0 & W & D1 & D2 & B1 & B2 & w2 & ta2 & y' & Hp & HQ & Hv) | (ka & kb & la' & lb' & p1 & p2 & W & D1 & D2 & HF)] HC EP EPB Ny Nx.
    - cbn [tape_drop] in *. destruct (completes_unique _ _ _ _ _ _ _ _ HC (wrun_completes _ _ _ _ _ _ _ _ _ _ W)) as [E1 E2].
      injection E1 as -> ->. injection E2 as -> ->. rewrite D1, length_tape_blocks in EP. subst ka. rewrite Nat.add_0_r in *.
      exists w2, ta2, y'. split; [exact Hp|]. split; [exact HQ|]. eapply vrun_completes. apply Hv. split; [auto|]. split; [auto|]. eapply patch_ok; [|exact Hp]. auto.
    - exfalso. cbn [tape_drop] in *. pose proof (wrun_watch _ _ _ _ _ _ _ _ _ _ [] [] W) as HJ. cbn [app] in HJ.
      pose proof (completes_after _ _ _ _ _ _ _ _ _ _ HC HJ) as HC'. apply completes_possible in HC'. destruct HC' as [PA PB'].
      pose proof (possible_log _ _ _ PA) as [l1 E1]. pose proof (possible_log _ _ _ PB') as [l2 E2]. cbn in E1, E2. subst la lb.
      apply possible_watch in PA, PB'. cbn in PA, PB'. rewrite drew_app, app_length, D1, length_tape_blocks in EP. rewrite drew_app, app_length, D2, length_tape_blocks in EPB.
      destruct HF as [HF|[HF|[HF|HF]]]; [apply Ny; auto|apply Nx; auto|lia|lia].
  Qed.
End Logic.
