(** Whole sessions in two worlds with different secrets of the receiver. *)
From Verif Require Import Base BaseFacts ListFacts ScalarModel ScalarSpec ProcModel ProcSpec ProcProofs
  GilboaSpec RngModel CuckooModel MpfssModel MpfssSpec MpfssProofs VoleModel VoleSpec VolePair
  HideSpec HideRun DeltaSpec DeltaRun DeltaLogic DeltaSteps.
Local Open Scope Z_scope.

Section Create.
  Variable S : scalar.
  Variables A B : machine S.
  Hypothesis HC : connected A B.
  Notation syncs := [@Got S MSync; Got MSync; Got MSync].

  Lemma create_a t t2 : c_id A < c_peer_id A -> let seed := fst (t O) in
    wrun (vole_create S A false) t (vole_create S B false) t2 (syncs ++ [Drew seed (snd (t O))]) (syncs ++ [Got (MBlocks [seed])])
      (Ret (Ok (vole_new S A (mpfss_new (Hasher seed 3))))) (tape_tl t) (Ret (Ok (vole_new S B (mpfss_new (Hasher seed 3))))) t2.
  Proof.
    destruct HC as (H1 & H2 & H3). intros Hlt seed. unfold vole_create, mpfss_create.
    replace (c_id A <? c_peer_id A) with true by lia. replace (c_id B <? c_peer_id B) with false by lia.
    eapply (wrun_cons _ _ _ _ [_] [_]); [exact (whand_sync _ _ _ _)|]. eapply (wrun_cons _ _ _ _ [_] [_]); [exact (whand_sync _ _ _ _)|]. eapply (wrun_cons _ _ _ _ [_] [_]); [exact (whand_sync _ _ _ _)|].
    eapply (wrun_cons _ _ _ _ [_] []); [exact (whand_rand_a _ _ _ _)|]. eapply (wrun_cons _ _ _ _ [] [_]); [exact (whand_ab (MBlocks [seed]) _ _ _ _ eq_refl)|].
    apply (wrun_nil _ _ _ _).
  Qed.
  Lemma create_b t t2 : c_id B < c_peer_id B -> let seed := fst (t2 O) in
    wrun (vole_create S A false) t (vole_create S B false) t2 (syncs ++ [Got (MBlocks [seed])]) (syncs ++ [Drew seed (snd (t2 O))])
      (Ret (Ok (vole_new S A (mpfss_new (Hasher seed 3))))) t (Ret (Ok (vole_new S B (mpfss_new (Hasher seed 3))))) (tape_tl t2).
  Proof.
    destruct HC as (H1 & H2 & H3). intros Hlt seed. unfold vole_create, mpfss_create.
    replace (c_id B <? c_peer_id B) with true by lia. replace (c_id A <? c_peer_id A) with false by lia.
    eapply (wrun_cons _ _ _ _ [_] [_]); [exact (whand_sync _ _ _ _)|]. eapply (wrun_cons _ _ _ _ [_] [_]); [exact (whand_sync _ _ _ _)|]. eapply (wrun_cons _ _ _ _ [_] [_]); [exact (whand_sync _ _ _ _)|].
    eapply (wrun_cons _ _ _ _ [] [_]); [exact (whand_rand_b _ _ _ _)|]. eapply (wrun_cons _ _ _ _ [_] []); [exact (whand_ba (MBlocks [seed]) _ _ _ _ eq_refl)|].
    apply (wrun_nil _ _ _ _).
  Qed.
End Create.

Section Sessions.
  Variable S : scalar.
  Hypothesis L : scalar_laws S.
  Variable E : setting.
  Variables (uniform uniform64 : (N -> N -> N) -> Z -> rng -> res (rng * Z)).
  Hypothesis Hu : uses_generator uniform.
  Hypothesis Hu64 : uses_generator uniform64.
  Variables MR MS : machine S.
  Notation EE := (with_aes uniform E).
  Notation MA w := (machine_with_aes uniform64 MS w).
  Notation MB w := (machine_with_aes uniform64 MR w).
  Hypothesis G : forall w, good_setting S (EE w).
  Hypothesis GA : forall w, good_machine S (MA w).
  Hypothesis GB : forall w, good_machine S (MB w).
  Hypothesis HC : connected MS MR.
  Hypothesis Hsec : secure S E.
  Variable D : nat.
  Hypothesis HD : forall n, 1 <= n <= 3 * last (p_output_size (e_parameters E)) 0 -> (e_clog E 2 n <= D)%nat.
  Variable go_on : status -> bool.
  Definition receiver w l := party S (EE w) (MB w) go_on (map (pair false) l).
  Definition sender w l := party S (EE w) (MA w) go_on (map (pair true) l).
  Definition bad_party (r : res (list (res (answer S)))) : Prop := match r with Ok rs => unlucky S rs | _ => True end.

  Variable aes : N -> N -> N.
  Variables ta tb : tape S.
  Variables P PB : nat.
  Hypothesis Hacc : no_accidents aes D (tape_blocks P ta) (tape_blocks PB tb).
  Notation Hnd := (Hnd S aes ta tb P PB D Hacc).

  Definition same_answers deltas l (_ : res (list (res (answer S)))) (x y' : res (list (res (answer S)))) : Prop :=
    exists rs rs', x = Ok rs /\ y' = Ok rs' /\ correlated None deltas l rs rs'.

  Notation m_of seed := (mpfss_new (Hasher seed 3)).

  Lemma new_ready seed : ready S E uniform aes seed None (vole_new S MS (m_of seed)) (vole_new S MR (m_of seed)) (v_r (vole_new S MR (m_of seed))).
  Proof.
    assert (Hc : coherent aes (e_too_many_bits E) (e_expansion3 E) (e_expansion2 E) (Hasher seed 3) (m_of seed)).
    { split; [reflexivity|]. cbn. discriminate. }
    cbn [ready]. split; [constructor; auto|]. auto.
  Qed.

  Lemma rest_J m0 seed m q l deltas : ~ used ta m0 P seed -> (m0 <= m <= P)%nat -> (q <= PB)%nat ->
    J aes ta tb m0 P PB bad_party bad_party m q
      (pbind (calls S (EE aes) (MB aes) go_on (map (pair false) l) (vole_new S MR (m_of seed))) (fun rs => Ret (Ok rs)))
      (fun w => pbind (calls S (EE w) (MB w) go_on (map (pair false) (other_deltas deltas l)) (vole_new S MR (m_of seed))) (fun rs => Ret (Ok rs)))
      (fun w => pbind (calls S (EE w) (MA w) go_on (map (pair true) l) (vole_new S MS (m_of seed))) (fun rs => Ret (Ok rs)))
      (same_answers deltas l).
  Proof.
    intros Hs Hm Hq.
    apply (J_bind aes ta tb m0 P PB Hnd (unlucky S) (unlucky S) bad_party bad_party m q
      (calls S (EE aes) (MB aes) go_on (map (pair false) l) (vole_new S MR (m_of seed)))
      (fun w => calls S (EE w) (MB w) go_on (map (pair false) (other_deltas deltas l)) (set_r S (v_r (vole_new S MR (m_of seed))) (vole_new S MR (m_of seed))))
      (fun w => calls S (EE w) (MA w) go_on (map (pair true) l) (vole_new S MS (m_of seed))) (fun _ x y' => correlated None deltas l x y') _ (fun rs => Ret (Ok rs)) (fun rs _ => Ret (Ok rs)) (fun rs _ => Ret (Ok rs))).
    - apply (calls_J S L E uniform uniform64 Hu Hu64 MR MS G GA GB HC Hsec aes ta tb m0 P PB D Hacc HD seed Hs go_on l m q None deltas); auto. apply new_ready.
    - intros y Hy. apply doomed_ret. exact Hy.
    - intros y Hy. apply doomed_ret. exact Hy.
    - intros ka kb y x y' B1 B2 Hc. apply J_ret; auto. exists x, y'. auto.
  Qed.

  Lemma party_J l deltas : exists m0, J aes ta tb m0 P PB bad_party bad_party 0 0
    (receiver aes l) (fun w => receiver w (other_deltas deltas l)) (fun w => sender w l) (same_answers deltas l).
  Proof.
    pose proof HC as (H1 & H2 & H3). destruct Hacc as (_ & _ & Hdis & _).
    assert (HC' : connected MR MS) by (repeat split; auto).
    destruct (Z.ltb_spec (c_id MR) (c_peer_id MR)) as [Hlt|Hge].
    - exists 1%nat. set (seed := fst (ta O)).
      apply (J_same aes ta tb 1 P PB Hnd bad_party bad_party 0 0 _ _ _ _ 1 0 [Got MSync; Got MSync; Got MSync; Drew seed (snd (ta O))] [Got MSync; Got MSync; Got MSync; Got (MBlocks [seed])]
        (pbind (calls S (EE aes) (MB aes) go_on (map (pair false) l) (vole_new S MR (m_of seed))) (fun rs => Ret (Ok rs)))
        (fun w => pbind (calls S (EE w) (MB w) go_on (map (pair false) (other_deltas deltas l)) (vole_new S MR (m_of seed))) (fun rs => Ret (Ok rs)))
        (fun w => pbind (calls S (EE w) (MA w) go_on (map (pair true) l) (vole_new S MS (m_of seed))) (fun rs => Ret (Ok rs)))).
      + exact (wrun_bind _ _ _ _ _ _ _ _ _ _ _ _ (create_a S MR MS HC' ta tb Hlt)).
      + reflexivity.
      + reflexivity.
      + intros B1 B2 w t Ht _ _. unfold seed. rewrite <- (Ht O) by lia.
        exact (vrun_bind _ _ _ _ _ _ _ _ _ _ _ (wrun_vrun _ _ _ _ _ _ _ _ _ _ (create_a S MR MS HC' t tb Hlt))).
      + intros B1 B2. apply rest_J; [|lia|lia]. intros (p & Hp & Es). apply (blocks_inj ta P Hnd) in Es; lia.
    - exists 0%nat. set (seed := fst (tb O)).
      apply (J_same aes ta tb 0 P PB Hnd bad_party bad_party 0 0 _ _ _ _ 0 1 [Got MSync; Got MSync; Got MSync; Got (MBlocks [seed])] [Got MSync; Got MSync; Got MSync; Drew seed (snd (tb O))]
        (pbind (calls S (EE aes) (MB aes) go_on (map (pair false) l) (vole_new S MR (m_of seed))) (fun rs => Ret (Ok rs)))
        (fun w => pbind (calls S (EE w) (MB w) go_on (map (pair false) (other_deltas deltas l)) (vole_new S MR (m_of seed))) (fun rs => Ret (Ok rs)))
        (fun w => pbind (calls S (EE w) (MA w) go_on (map (pair true) l) (vole_new S MS (m_of seed))) (fun rs => Ret (Ok rs)))).
      + exact (wrun_bind _ _ _ _ _ _ _ _ _ _ _ _ (create_b S MR MS HC' ta tb ltac:(lia))).
      + reflexivity.
      + reflexivity.
      + intros B1 B2 w t Ht _ _.
        exact (vrun_bind _ _ _ _ _ _ _ _ _ _ _ (wrun_vrun _ _ _ _ _ _ _ _ _ _ (create_b S MR MS HC' t tb ltac:(lia)))).
      + intros B1 B2. apply rest_J; [|lia|lia]. intros (p & Hp & Es). apply (Hdis seed); apply In_tape_blocks; [exists p|exists O]; (split; [lia|auto]).
  Qed.
End Sessions.

(** ** The random blocks that a party saw are those on its tape *)
Section Draws.
  Context {T : Type}.
  Inductive uses {R} : proc T R -> tape T -> R -> Prop :=
  | uses_ret : forall t r, uses (Ret r) t r
  | uses_send : forall t m k r, uses k t r -> uses (Send m k) t r
  | uses_recv : forall t k m r, uses (k m) t r -> uses (Recv k) t r
  | uses_ot : forall t cot choices k x r, uses (k x) t r -> uses (OtRecv cot choices k) t r
  | uses_rand : forall t k r, uses (k (fst (t O)) (snd (t O))) (tape_tl t) r -> uses (Rand k) t r.

  Lemma pstep_uses {R} (p : proc T R) t inq outq p' t' inq' outq' r :
    pstep p t inq outq = Some (p', t', inq', outq') -> uses p' t' r -> uses p t r.
  Proof.
    intros E H. destruct p; cbn in E; try discriminate.
    - injection E as <- <- <- <-. now constructor.
    - destruct inq as [|m q]; [discriminate|]. injection E as <- <- <- <-. now apply (uses_recv _ _ m).
    - destruct inq as [|m q]; [discriminate|]. injection E as <- <- <- <-. eapply uses_ot; exact H.
    - injection E as <- <- <- <-. now constructor.
  Qed.
  Lemma completes_uses {RA RB} (pa : proc T RA) ta (pb : proc T RB) tb a b :
    completes pa ta pb tb a b -> uses pa ta a /\ uses pb tb b.
  Proof.
    intros (n & sa & sb & Hn & _).
    assert (H : forall n (c d : config T RA RB), steps n c d -> uses (c_a d) (c_ta d) a /\ uses (c_b d) (c_tb d) b -> uses (c_a c) (c_ta c) a /\ uses (c_b c) (c_tb c) b).
    { clear. induction 1 as [|n c d e Hs _ IH]; auto. intro H. specialize (IH H). destruct IH as [Ha Hb].
      inversion Hs; subst; cbn in *; split; auto; eapply pstep_uses; eassumption. }
    apply (H _ _ _ Hn). cbn. split; constructor.
  Qed.
  Lemma uses_drew {R} (p : proc T R) : forall t log r l, uses (watch p log) t (r, l) -> exists l', l = log ++ l' /\ drew l' = tape_blocks (List.length (drew l')) t.
  Proof.
    induction p as [r0|m k IH|k IH|c cs k IH|k IH]; cbn [watch]; intros t log r l H; inversion H; subst.
    - exists []. now rewrite app_nil_r.
    - now apply (IH t log r).
    - match goal with Hx : uses (watch _ _) _ _ |- _ => apply IH in Hx; destruct Hx as (l' & -> & Hd) end. eexists (_ :: l'). rewrite <- app_assoc. split; [reflexivity|exact Hd].
    - match goal with Hx : uses (watch _ _) _ _ |- _ => apply IH in Hx; destruct Hx as (l' & -> & Hd) end. eexists (_ :: l'). rewrite <- app_assoc. split; [reflexivity|exact Hd].
    - match goal with Hx : uses (watch _ _) _ _ |- _ => apply IH in Hx; destruct Hx as (l' & -> & Hd) end. eexists (_ :: l'). rewrite <- app_assoc. split; [reflexivity|].
      cbn. f_equal. exact Hd.
  Qed.
  Lemma seen_blocks {RA RB} (pa : proc T RA) ta (pb : proc T RB) tb a la b lb :
    completes (watch pa []) ta (watch pb []) tb (a, la) (b, lb) ->
    drew la = tape_blocks (List.length (drew la)) ta /\ drew lb = tape_blocks (List.length (drew lb)) tb.
  Proof.
    intro H. apply completes_uses in H. destruct H as [H1 H2]. apply uses_drew in H1, H2. destruct H1 as (l1 & -> & D1), H2 as (l2 & -> & D2). auto.
  Qed.
End Draws.

Lemma delta_hidden S (L : scalar_laws S) E uniform uniform64 (Hu : uses_generator uniform) (Hu64 : uses_generator uniform64) (MR MS : machine S)
    (G : forall w, good_setting S (with_aes uniform E w)) (GA : forall w, good_machine S (machine_with_aes uniform64 MS w)) (GB : forall w, good_machine S (machine_with_aes uniform64 MR w))
    (HC : connected MS MR) (Hsec : secure S E) D (HD : forall n, 1 <= n <= 3 * last (p_output_size (e_parameters E)) 0 -> (e_clog E 2 n <= D)%nat)
    go_on l aes ta tb rs ss la lb :
  let receiver aes l := party S (with_aes uniform E aes) (machine_with_aes uniform64 MR aes) go_on (map (pair false) l) in
  let sender aes l := party S (with_aes uniform E aes) (machine_with_aes uniform64 MS aes) go_on (map (pair true) l) in
  completes (watch (receiver aes l) []) ta (watch (sender aes l) []) tb (Ok rs, la) (Ok ss, lb) ->
  all_ok rs -> all_ok ss -> no_accidents aes D (drew la) (drew lb) ->
  forall deltas, exists aes' ta' rs',
    completes (receiver aes' (other_deltas deltas l)) ta' (watch (sender aes' l) []) tb (Ok rs') (Ok ss, lb) /\
    correlated None deltas l ss rs' /\
    (forall k x, ~ In k (drew la) -> aes' k x = aes k x) /\ (forall p, (List.length (drew la) <= p)%nat -> ta' p = ta p).
Proof.
  intros receiver sender Hc Hr Hs Hacc deltas. destruct (seen_blocks _ _ _ _ _ _ _ _ Hc) as [D1 D2].
  set (P := List.length (drew la)) in *. set (PB := List.length (drew lb)) in *. rewrite D1, D2 in Hacc.
  destruct (party_J S L E uniform uniform64 Hu Hu64 MR MS G GA GB HC Hsec D HD go_on aes ta tb P PB Hacc l deltas) as (m0 & HJ).
  destruct (J_final aes ta tb m0 P PB _ _ _ _ _ _ _ _ _ _ HJ Hc eq_refl eq_refl) as (w2 & ta2 & y' & [Hp1 Hp2] & HQ & HC2).
  - cbn. unfold unlucky. auto.
  - cbn. unfold unlucky. auto.
  - destruct HQ as (rs0 & rs' & E1 & -> & Hcor). injection E1 as <-. exists w2, ta2, rs'. split; [exact HC2|]. split; [exact Hcor|]. split.
    + intros k x Hk. destruct (Hp1 k x) as [Ek|(p & _ & Hp & ->)]; [exact Ek|]. exfalso. apply Hk. rewrite D1. apply In_tape_blocks. exists p. split; [lia|auto].
    + intros p Hp. destruct (Hp2 p) as [Ek|[_ Hp']]; [exact Ek|lia].
Qed.
