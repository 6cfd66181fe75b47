(** Schedules do not matter, and processes compose. *)
From Verif Require Import Base ProcModel ProcSpec.
From Coq Require Import Lia.
Local Open Scope nat_scope.

(** Something the two parties do together, with nothing in flight before and
    afterwards: a random choice of one of them, a message handed over from one
    to the other, or both passing [sync]. *)
Inductive hand {T RA RB} : proc T RA -> tape T -> proc T RB -> tape T -> proc T RA -> tape T -> proc T RB -> tape T -> Prop :=
| hand_rand_a : forall ka ta pb tb, hand (Rand ka) ta pb tb (ka (fst (ta O)) (snd (ta O))) (tape_tl ta) pb tb
| hand_rand_b : forall pa ta kb tb, hand pa ta (Rand kb) tb pa ta (kb (fst (tb O)) (snd (tb O))) (tape_tl tb)
| hand_ab : forall m ka ta kb tb, is_ot m = false -> hand (Send m ka) ta (Recv kb) tb ka ta (kb m) tb
| hand_ba : forall m ka ta kb tb, is_ot m = false -> hand (Recv ka) ta (Send m kb) tb (ka m) ta kb tb
| hand_ot_ab : forall m c cs ka ta kb tb, is_ot m = true ->
    hand (Send m ka) ta (OtRecv c cs kb) tb ka ta (kb (ot_choose c cs m)) tb
| hand_ot_ba : forall m c cs ka ta kb tb, is_ot m = true ->
    hand (OtRecv c cs ka) ta (Send m kb) tb (ka (ot_choose c cs m)) ta kb tb
| hand_sync : forall ka ta kb tb,
    hand (Send MSync (Recv ka)) ta (Send MSync (Recv kb)) tb (ka MSync) ta (kb MSync) tb.

(** A run made of such actions. *)
Inductive jrun {T RA RB} : proc T RA -> tape T -> proc T RB -> tape T -> proc T RA -> tape T -> proc T RB -> tape T -> Prop :=
| jrun_nil : forall pa ta pb tb, jrun pa ta pb tb pa ta pb tb
| jrun_cons : forall pa ta pb tb pa1 ta1 pb1 tb1 pa2 ta2 pb2 tb2,
    hand pa ta pb tb pa1 ta1 pb1 tb1 -> jrun pa1 ta1 pb1 tb1 pa2 ta2 pb2 tb2 -> jrun pa ta pb tb pa2 ta2 pb2 tb2.

Section P.
  Context {T : Type}.

  Lemma pstep_inq_app {R} (p : proc T R) t inq outq p' t' inq' outq' l :
    pstep p t inq outq = Some (p', t', inq', outq') ->
    pstep p t (inq ++ l) outq = Some (p', t', inq' ++ l, outq').
  Proof.
    destruct p; cbn; intro H; try discriminate; try (inversion H; subst; reflexivity).
    - destruct inq; [discriminate|]. inversion H; subst; reflexivity.
    - destruct inq; [discriminate|]. inversion H; subst; reflexivity.
  Qed.
  Lemma pstep_outq {R} (p : proc T R) t inq outq p' t' inq' outq' :
    pstep p t inq outq = Some (p', t', inq', outq') ->
    exists new, outq' = outq ++ new /\ forall o, pstep p t inq o = Some (p', t', inq', o ++ new).
  Proof.
    destruct p; cbn; intro H; try discriminate.
    - inversion H; subst. exists [m]. auto.
    - destruct inq; [discriminate|]. inversion H; subst. exists []. split; [now rewrite app_nil_r|].
      intro o. now rewrite app_nil_r.
    - destruct inq; [discriminate|]. inversion H; subst. exists []. split; [now rewrite app_nil_r|].
      intro o. now rewrite app_nil_r.
    - inversion H; subst. exists []. split; [now rewrite app_nil_r|]. intro o. now rewrite app_nil_r.
  Qed.

  (** Diamond: two different steps of the same configuration commute. *)
  Lemma step_diamond {RA RB} (c c1 c2 : config T RA RB) :
    step c c1 -> step c c2 -> c1 = c2 \/ exists d, step c1 d /\ step c2 d.
  Proof.
    intros H1 H2. inversion H1 as [? ? ? ? ? ? ? ? ? ? E1|? ? ? ? ? ? ? ? ? ? E1]; subst;
      inversion H2 as [? ? ? ? ? ? ? ? ? ? E2|? ? ? ? ? ? ? ? ? ? E2]; subst.
    - left. congruence.
    - right. destruct (pstep_outq _ _ _ _ _ _ _ _ E1) as (n1 & -> & F1).
      destruct (pstep_outq _ _ _ _ _ _ _ _ E2) as (n2 & -> & F2).
      eexists. split.
      + apply step_b. apply pstep_inq_app. apply F2.
      + apply step_a. apply pstep_inq_app. apply F1.
    - right. destruct (pstep_outq _ _ _ _ _ _ _ _ E1) as (n1 & -> & F1).
      destruct (pstep_outq _ _ _ _ _ _ _ _ E2) as (n2 & -> & F2).
      eexists. split.
      + apply step_a. apply pstep_inq_app. apply F2.
      + apply step_b. apply pstep_inq_app. apply F1.
    - left. congruence.
  Qed.

  Lemma steps_trans {RA RB} n m (c d e : config T RA RB) :
    steps n c d -> steps m d e -> steps (n + m) c e.
  Proof. induction 1; cbn; [auto|]. intro. econstructor; eauto. Qed.

  Lemma step_on_the_way {RA RB} n (c c1 d : config T RA RB) :
    steps n c d -> stuck d -> step c c1 -> exists n', n = S n' /\ steps n' c1 d.
  Proof.
    intros H Hs. revert c1. induction H as [c|n c c2 d H2 H IH]; intros c1 H1.
    - exfalso. eapply Hs, H1.
    - destruct (step_diamond _ _ _ H1 H2) as [->|(x & Hx1 & Hx2)]; [eauto|].
      destruct (IH Hs _ Hx2) as (n' & -> & Hn). exists (S n'). split; [reflexivity|].
      econstructor; eauto.
  Qed.

  (** If some schedule ends, every schedule makes progress towards the same end. *)
  Lemma schedule_independent {RA RB} n m (c d e : config T RA RB) :
    steps n c d -> stuck d -> steps m c e -> m <= n /\ steps (n - m) e d.
  Proof.
    intros H Hs He. revert n H. induction He as [c|m c c1 e H1 He IH]; intros n H.
    - split; [lia|]. now rewrite Nat.sub_0_r.
    - destruct (step_on_the_way _ _ _ _ H Hs H1) as (n' & -> & Hn).
      destruct (IH _ Hn). split; [lia|auto].
  Qed.

  Lemma ret_stuck {RA RB} (a : RA) ta (b : RB) tb ab ba :
    stuck (Config (T := T) (Ret a) ta (Ret b) tb ab ba).
  Proof. intros c' H. inversion H; discriminate. Qed.
  Lemma finished_stuck {RA RB} (a : RA) ta (b : RB) tb : stuck (finished (T := T) a ta b tb).
  Proof. apply ret_stuck. Qed.

  (** ** jrun *)
  Lemma hand_steps {RA RB} (pa : proc T RA) ta (pb : proc T RB) tb pa1 ta1 pb1 tb1 :
    hand pa ta pb tb pa1 ta1 pb1 tb1 -> exists n, steps n (start pa ta pb tb) (start pa1 ta1 pb1 tb1).
  Proof.
    intros [ka ta0 pb0 tb0|pa0 ta0 kb tb0|m ka ta0 kb tb0 Hm|m ka ta0 kb tb0 Hm|m c cs ka ta0 kb tb0 Hm|m c cs ka ta0 kb tb0 Hm|ka ta0 kb tb0].
    - exists 1. econstructor; [apply step_a; reflexivity|]. constructor.
    - exists 1. econstructor; [apply step_b; reflexivity|]. constructor.
    - exists 2. econstructor; [apply step_a; reflexivity|]. econstructor; [apply step_b; reflexivity|]. constructor.
    - exists 2. econstructor; [apply step_b; reflexivity|]. econstructor; [apply step_a; reflexivity|]. constructor.
    - exists 2. econstructor; [apply step_a; reflexivity|]. econstructor; [apply step_b; reflexivity|]. constructor.
    - exists 2. econstructor; [apply step_b; reflexivity|]. econstructor; [apply step_a; reflexivity|]. constructor.
    - exists 4. econstructor; [apply step_a; reflexivity|]. econstructor; [apply step_b; reflexivity|].
      econstructor; [apply step_a; reflexivity|]. econstructor; [apply step_b; reflexivity|]. constructor.
  Qed.
  Lemma jrun_steps {RA RB} (pa : proc T RA) ta (pb : proc T RB) tb pa1 ta1 pb1 tb1 :
    jrun pa ta pb tb pa1 ta1 pb1 tb1 -> exists n, steps n (start pa ta pb tb) (start pa1 ta1 pb1 tb1).
  Proof.
    induction 1 as [|pa ta pb tb pa1 ta1 pb1 tb1 pa2 ta2 pb2 tb2 H _ [m Hm]]; [exists 0; constructor|].
    destruct (hand_steps _ _ _ _ _ _ _ _ H) as [n Hn]. exists (n + m). eapply steps_trans; eauto.
  Qed.
  Lemma jrun_refl {RA RB} (pa : proc T RA) ta (pb : proc T RB) tb : jrun pa ta pb tb pa ta pb tb.
  Proof. constructor. Qed.
  Lemma jrun_trans {RA RB} (pa : proc T RA) ta (pb : proc T RB) tb pa1 ta1 pb1 tb1 pa2 ta2 pb2 tb2 :
    jrun pa ta pb tb pa1 ta1 pb1 tb1 -> jrun pa1 ta1 pb1 tb1 pa2 ta2 pb2 tb2 ->
    jrun pa ta pb tb pa2 ta2 pb2 tb2.
  Proof. intros H H2. induction H; [exact H2|]. econstructor; [eassumption|]. apply IHjrun, H2. Qed.
  Lemma jrun_hand {RA RB} (pa : proc T RA) ta (pb : proc T RB) tb pa1 ta1 pb1 tb1 :
    hand pa ta pb tb pa1 ta1 pb1 tb1 -> jrun pa ta pb tb pa1 ta1 pb1 tb1.
  Proof. intro H. econstructor; [exact H|constructor]. Qed.

  Lemma jrun_send_recv {RA RB} m (ka : proc T RA) ta (kb : msg T -> proc T RB) tb : is_ot m = false ->
    jrun (Send m ka) ta (Recv kb) tb ka ta (kb m) tb.
  Proof. intro H. apply jrun_hand. now constructor. Qed.
  Lemma jrun_recv_send {RA RB} m (ka : msg T -> proc T RA) ta (kb : proc T RB) tb : is_ot m = false ->
    jrun (Recv ka) ta (Send m kb) tb (ka m) ta kb tb.
  Proof. intro H. apply jrun_hand. now constructor. Qed.
  Lemma jrun_send_ot {RA RB} m c cs (ka : proc T RA) ta (kb : _ -> proc T RB) tb : is_ot m = true ->
    jrun (Send m ka) ta (OtRecv c cs kb) tb ka ta (kb (ot_choose c cs m)) tb.
  Proof. intro H. apply jrun_hand. now constructor. Qed.
  Lemma jrun_rand_a {RA RB} (ka : _ -> _ -> proc T RA) ta (pb : proc T RB) tb :
    jrun (Rand ka) ta pb tb (ka (fst (ta O)) (snd (ta O))) (tape_tl ta) pb tb.
  Proof. apply jrun_hand. constructor. Qed.
  Lemma jrun_rand_b {RA RB} (pa : proc T RA) ta (kb : _ -> _ -> proc T RB) tb :
    jrun pa ta (Rand kb) tb pa ta (kb (fst (tb O)) (snd (tb O))) (tape_tl tb).
  Proof. apply jrun_hand. constructor. Qed.
  Lemma jrun_sync {A B} (ka : proc T (res A)) ta (kb : proc T (res B)) tb :
    jrun (sync ka) ta (sync kb) tb ka ta kb tb.
  Proof. apply jrun_hand. exact (hand_sync _ _ _ _). Qed.

  (** Swapping the roles. *)
  Lemma jrun_swap {RA RB} (pa : proc T RA) ta (pb : proc T RB) tb pa' ta' pb' tb' :
    jrun pa ta pb tb pa' ta' pb' tb' -> jrun pb tb pa ta pb' tb' pa' ta'.
  Proof. induction 1 as [|? ? ? ? ? ? ? ? ? ? ? ? H _ IH]; [constructor|]. econstructor; [|exact IH]. destruct H; constructor; assumption. Qed.

  (** Sequencing: running sub-protocols against each other. *)
  Lemma jrun_bind {A B A' B'} (f : A -> proc T A') (g : B -> proc T B') pa ta pb tb pa' ta' pb' tb' :
    jrun pa ta pb tb pa' ta' pb' tb' ->
    jrun (pbind pa f) ta (pbind pb g) tb (pbind pa' f) ta' (pbind pb' g) tb'.
  Proof. induction 1 as [|? ? ? ? ? ? ? ? ? ? ? ? H _ IH]; [constructor|]. econstructor; [|exact IH]. destruct H; cbn; constructor; assumption. Qed.
  Lemma jrun_bindr {A B A' B'} (f : A -> proc T (res A')) (g : B -> proc T (res B')) pa ta pb tb a ta' b tb' :
    jrun pa ta pb tb (Ret (Ok a)) ta' (Ret (Ok b)) tb' ->
    jrun (pbindr pa f) ta (pbindr pb g) tb (f a) ta' (g b) tb'.
  Proof.
    intro H. unfold pbindr.
    apply (jrun_bind (fun r => match r with Ok a => f a | Err s => Ret (Err s) | UB w => Ret (UB w) end)
                     (fun r => match r with Ok a => g a | Err s => Ret (Err s) | UB w => Ret (UB w) end)
                     _ _ _ _ _ _ _ _ H).
  Qed.

  (** The first [n] random blocks / scalars of a tape, and what remains. *)
  Fixpoint tape_blocks (n : nat) (t : tape T) : list N :=
    match n with O => [] | S n' => fst (t O) :: tape_blocks n' (tape_tl t) end.
  Fixpoint tape_scalars (n : nat) (t : tape T) : list T :=
    match n with O => [] | S n' => snd (t O) :: tape_scalars n' (tape_tl t) end.
  Fixpoint tape_drop (n : nat) (t : tape T) : tape T :=
    match n with O => t | S n' => tape_drop n' (tape_tl t) end.
  Lemma jrun_rand_blocks_a {RA RB} n (k : _ -> proc T RA) ta (pb : proc T RB) tb :
    jrun (rand_blocks n k) ta pb tb (k (tape_blocks n ta)) (tape_drop n ta) pb tb.
  Proof.
    revert k ta. induction n as [|n IH]; intros k ta; cbn; [apply jrun_refl|].
    eapply jrun_trans; [apply jrun_rand_a|]. apply IH.
  Qed.
  Lemma jrun_rand_scalars_a {RA RB} n (k : _ -> proc T RA) ta (pb : proc T RB) tb :
    jrun (rand_scalars n k) ta pb tb (k (tape_scalars n ta)) (tape_drop n ta) pb tb.
  Proof.
    revert k ta. induction n as [|n IH]; intros k ta; cbn; [apply jrun_refl|].
    eapply jrun_trans; [apply jrun_rand_a|]. apply IH.
  Qed.
  Lemma jrun_rand_blocks_b {RA RB} n (k : _ -> proc T RB) tb (pa : proc T RA) ta :
    jrun pa ta (rand_blocks n k) tb pa ta (k (tape_blocks n tb)) (tape_drop n tb).
  Proof. apply jrun_swap, jrun_rand_blocks_a. Qed.
  Lemma jrun_rand_scalars_b {RA RB} n (k : _ -> proc T RB) tb (pa : proc T RA) ta :
    jrun pa ta (rand_scalars n k) tb pa ta (k (tape_scalars n tb)) (tape_drop n tb).
  Proof. apply jrun_swap, jrun_rand_scalars_a. Qed.
  Lemma length_tape_blocks n t : List.length (tape_blocks n t) = n.
  Proof. revert t; induction n; cbn; auto. Qed.
  Lemma length_tape_scalars n t : List.length (tape_scalars n t) = n.
  Proof. revert t; induction n; cbn; auto. Qed.
End P.

Lemma jrun_completes {T RA RB} (pa : proc T RA) ta (pb : proc T RB) tb a ta' b tb' :
  jrun pa ta pb tb (Ret a) ta' (Ret b) tb' -> completes pa ta pb tb a b.
Proof.
  intro J. destruct (jrun_steps _ _ _ _ _ _ _ _ J) as [n H]. exists n, ta', tb'. split; [exact H|]. intros m d Hd.
  eapply schedule_independent; [exact H|apply finished_stuck|exact Hd].
Qed.
Lemma completes_unique {T RA RB} (pa : proc T RA) ta (pb : proc T RB) tb a b a' b' :
  completes pa ta pb tb a b -> completes pa ta pb tb a' b' -> a = a' /\ b = b'.
Proof.
  intros (n & ta' & tb' & H & _) (m & ta2 & tb2 & H2 & H3).
  destruct (H3 _ _ H) as [Hle Hs].
  remember (finished a ta' b tb') as c1 eqn:E1. remember (finished a' ta2 b' tb2) as c2 eqn:E2.
  destruct Hs as [c|k c c' c'' Hst _].
  - rewrite E1 in E2. now inversion E2.
  - exfalso. subst c. eapply finished_stuck, Hst.
Qed.

(** ** One-sided processes *)
Lemma solo_any_peer {T R RB} (p : proc T R) t ms r t' (pb : proc T RB) tb m d :
  solo p t = Some (ms, r, t') ->
  steps m (start p t pb tb) d ->
  exists got rest, ms = got ++ c_ab d ++ rest /\ solo (c_a d) (c_ta d) = Some (rest, r, t').
Proof.
  intros Hs H. change p with (c_a (start p t pb tb)) in Hs. change t with (c_ta (start p t pb tb)) in Hs at 1.
  assert (G : exists got rest, ms = got ++ c_ab (start p t pb tb) ++ rest /\
     solo (c_a (start p t pb tb)) (c_ta (start p t pb tb)) = Some (rest, r, t')).
  { exists [], ms. split; [reflexivity|exact Hs]. }
  clear Hs. remember (start p t pb tb) as c. clear Heqc p t pb tb.
  induction H as [c|m c c' d H _ IH]; [exact G|]. apply IH. clear IH m d.
  destruct G as (got & rest & -> & G). inversion H as [pa ta pb tb ab ba pa' ta' ab' ba' E|pa ta pb tb ab ba pb' tb' ab' ba' E]; subst; cbn in *.
  - destruct pa; cbn in *; try discriminate.
    + inversion E; subst. destruct (solo pa' ta') as [[[ms r2] t2]|] eqn:E2; [|discriminate].
      inversion G; subst. exists got, ms. split; [|reflexivity]. now rewrite <- app_assoc.
    + inversion E; subst. eauto.
  - destruct pb; cbn in *; try discriminate.
    + inversion E; subst. eauto.
    + destruct ab as [|m ab]; [discriminate|]. inversion E; subst.
      exists (got ++ [m]), rest. split; [|exact G]. now rewrite <- app_assoc.
    + destruct ab as [|m ab]; [discriminate|]. inversion E; subst.
      exists (got ++ [m]), rest. split; [|exact G]. now rewrite <- app_assoc.
    + inversion E; subst. eauto.
Qed.

Lemma schedule_independence T RA RB (pa : proc T RA) ta (pb : proc T RB) tb n c :
  steps n (start pa ta pb tb) c -> stuck c ->
  forall m d, steps m (start pa ta pb tb) d ->
    m <= n /\ steps (n - m) d c /\ (stuck d -> m = n /\ d = c).
Proof.
  intros H Hs m d Hd. destruct (schedule_independent _ _ _ _ _ H Hs Hd) as [H1 H2].
  split; [exact H1|]. split; [exact H2|]. intro Hsd.
  remember (n - m) as k eqn:Ek. destruct H2 as [c|k c c' c'' Hst _].
  - split; [lia|reflexivity].
  - exfalso. exact (Hsd _ Hst).
Qed.
Lemma exchange_example :
  let pa := Send (T := nat) (MVec [1]) (Recv (fun m => Ret m)) in
  let pb := Rand (fun _ x => Send (MVec [x]) (Recv (fun m => Ret m))) in
  completes pa (fun _ => (0%N, 7)) pb (fun _ => (0%N, 8)) (MVec [8]) (MVec [1]).
Proof.
  intros pa pb.
  assert (H : steps 5 (start pa (fun _ => (0%N, 7)) pb (fun _ => (0%N, 8))) (finished (MVec [8]) (fun _ => (0%N, 7)) (MVec [1]) (fun _ => (0%N, 8)))).
  2: { exists 5, (fun _ => (0%N, 7)), (fun _ => (0%N, 8)). split; [exact H|]. intros m d Hd. eapply schedule_independent; [exact H|apply finished_stuck|exact Hd]. }
  econstructor; [apply step_b; reflexivity|]. econstructor; [apply step_b; reflexivity|].
  econstructor; [apply step_a; reflexivity|]. econstructor; [apply step_a; reflexivity|].
  econstructor; [apply step_b; reflexivity|]. constructor.
Qed.
