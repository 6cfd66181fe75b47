(** Proofs about later calls (LaterSpec.v). *)
From Verif Require Import Base ProcModel ProcSpec ProcProofs MeetProofs TransportSpec TransportProofs StopSpec StopProofs LaterSpec.
From Coq Require Import Lia.
Local Open Scope nat_scope.

Section P.
  Context {T : Type}.

  (** All that a process can return. *)
  Fixpoint returns_all_of {R} (Q : R -> Prop) (p : proc T R) : Prop :=
    match p with
    | Ret r => Q r
    | Send _ k => returns_all_of Q k
    | Recv k => forall m, returns_all_of Q (k m)
    | OtRecv _ _ k => forall r, returns_all_of Q (k r)
    | Rand k => forall x t, returns_all_of Q (k x t)
    end.
  Lemma returns_bind {A B} (Q : A -> Prop) (Q' : B -> Prop) (p : proc T A) f : returns_all_of Q p -> (forall a, Q a -> returns_all_of Q' (f a)) -> returns_all_of Q' (pbind p f).
  Proof. intros H Hf. induction p; cbn in *; auto. Qed.
  Lemma returns_all {A} (Q : A -> Prop) (p : proc T A) : (forall a, Q a) -> returns_all_of Q p.
  Proof. intro H. induction p; cbn; auto. Qed.

  (** [extends Q p p']: [p'] does what [p] does, and then may go on. *)
  Fixpoint extends {R R'} (Q : R -> proc T R' -> Prop) (p : proc T R) (p' : proc T R') : Prop :=
    match p with
    | Ret r => Q r p'
    | Send m k => match p' with Send m' k' => m' = m /\ extends Q k k' | _ => False end
    | Recv k => match p' with Recv k' => forall m, extends Q (k m) (k' m) | _ => False end
    | OtRecv c cs k => match p' with OtRecv c' cs' k' => c' = c /\ cs' = cs /\ forall r, extends Q (k r) (k' r) | _ => False end
    | Rand k => match p' with Rand k' => forall x t, extends Q (k x t) (k' x t) | _ => False end
    end.
  Lemma extends_bind {A R R'} (Q : R -> proc T R' -> Prop) (p : proc T A) f f' : (forall a, extends Q (f a) (f' a)) -> extends Q (pbind p f) (pbind p f').
  Proof. intro H. induction p; cbn; auto. Qed.
  Lemma extends_map {A A' R R'} (Q : A -> proc T A' -> Prop) (Q' : R -> proc T R' -> Prop) g f p p' : extends Q p p' ->
    (forall a q, Q a q -> extends Q' (g a) (pbind q f)) -> extends Q' (pbind p g) (pbind p' f).
  Proof.
    intros Hx Hq. revert p' Hx. induction p; intros p' Hx; cbn in Hx; [exact (Hq _ _ Hx)|..]; destruct p'; try contradiction; cbn.
    - destruct Hx as [-> Hx]. auto.
    - auto.
    - destruct Hx as (-> & -> & Hx). auto.
    - auto.
  Qed.
  Lemma extends_same {R} (Q : R -> proc T R -> Prop) (p : proc T R) : (forall r, Q r (Ret r)) -> extends Q p p.
  Proof. intro H. induction p; cbn; auto. Qed.

  Lemma extends_waits {R R'} (Q : R -> proc T R' -> Prop) p p' : extends Q p p' -> waits p -> waits p'.
  Proof.
    intros H [[k ->]|(c & cs & k & ->)]; cbn in H; destruct p'; try contradiction; [left|right]; eauto.
  Qed.

  Lemma hand_extends {RA RB RA' RB'} (QA : RA -> proc T RA' -> Prop) (QB : RB -> proc T RB' -> Prop) pa ta pb tb pa1 ta1 pb1 tb1 :
    hand pa ta pb tb pa1 ta1 pb1 tb1 -> forall pa' pb', extends QA pa pa' -> extends QB pb pb' ->
    exists pa1' pb1', hand pa' ta pb' tb pa1' ta1 pb1' tb1 /\ extends QA pa1 pa1' /\ extends QB pb1 pb1'.
  Proof.
    intro H. destruct H; intros pa' pb' HA HB; cbn in HA, HB.
    - destruct pa'; try contradiction. eexists _, _. split; [apply hand_rand_a|auto].
    - destruct pb'; try contradiction. eexists _, _. split; [apply hand_rand_b|auto].
    - destruct pa'; try contradiction. destruct pb'; try contradiction. destruct HA as [-> HA]. eexists _, _. split; [apply hand_ab; assumption|auto].
    - destruct pa'; try contradiction. destruct pb'; try contradiction. destruct HB as [-> HB]. eexists _, _. split; [apply hand_ba; assumption|auto].
    - destruct pa'; try contradiction. destruct pb'; try contradiction. destruct HA as [-> HA]. destruct HB as (-> & -> & HB).
      eexists _, _. split; [apply hand_ot_ab; assumption|auto].
    - destruct pa'; try contradiction. destruct pb'; try contradiction. destruct HB as [-> HB]. destruct HA as (-> & -> & HA).
      eexists _, _. split; [apply hand_ot_ba; assumption|auto].
    - destruct pa'; try contradiction. destruct pb'; try contradiction. destruct HA as [-> HA], HB as [-> HB].
      destruct pa'; try contradiction. destruct pb'; try contradiction. eexists _, _. split; [apply hand_sync|auto].
  Qed.
  Lemma jrun_extends {RA RB RA' RB'} (QA : RA -> proc T RA' -> Prop) (QB : RB -> proc T RB' -> Prop) pa ta pb tb pa1 ta1 pb1 tb1 :
    jrun pa ta pb tb pa1 ta1 pb1 tb1 -> forall pa' pb', extends QA pa pa' -> extends QB pb pb' ->
    exists pa1' pb1', jrun pa' ta pb' tb pa1' ta1 pb1' tb1 /\ extends QA pa1 pa1' /\ extends QB pb1 pb1'.
  Proof.
    induction 1 as [|pa ta pb tb pa1 ta1 pb1 tb1 pa2 ta2 pb2 tb2 H _ IH]; intros pa' pb' HA HB.
    - exists pa', pb'. split; [constructor|auto].
    - destruct (hand_extends _ _ _ _ _ _ _ _ _ _ H _ _ HA HB) as (pa1' & pb1' & H1 & HA1 & HB1).
      destruct (IH _ _ HA1 HB1) as (pa2' & pb2' & H2 & H3). exists pa2', pb2'. split; [|exact H3]. econstructor; eauto.
  Qed.

  (** ** Steps *)
  Section Sep.
    Variable sep : bool.
    Lemma qp_returns {R} (Q : R -> Prop) (p : proc T R) t inq outq p' t' inq' outq' :
      qp sep p t inq outq = Some (p', t', inq', outq') -> returns_all_of Q p -> returns_all_of Q p'.
    Proof.
      destruct p; cbn -[reads]; intros H HQ; try discriminate.
      - injection H as <- <- <- <-. exact HQ.
      - destruct (reads sep (Recv k) inq) as [[p1 q1]|] eqn:E; [|discriminate]. injection H as <- <- <- <-.
        clear - E HQ. revert p1 q1 E. induction inq as [|m inq IH]; intros p1 q1 E; cbn [reads] in E; [discriminate|].
        destruct (for_reader sep (Recv k) m); [injection E as <- <-; apply HQ|].
        destruct (reads sep (Recv k) inq) as [[p2 q2]|]; [|discriminate]. injection E as <- <-. eapply IH; reflexivity.
      - destruct (reads sep (OtRecv cot choices k) inq) as [[p1 q1]|] eqn:E; [|discriminate]. injection H as <- <- <- <-.
        clear - E HQ. revert p1 q1 E. induction inq as [|m inq IH]; intros p1 q1 E; cbn [reads] in E; [discriminate|].
        destruct (for_reader sep (OtRecv cot choices k) m); [injection E as <- <-; apply HQ|].
        destruct (reads sep (OtRecv cot choices k) inq) as [[p2 q2]|]; [|discriminate]. injection E as <- <-. eapply IH; reflexivity.
      - injection H as <- <- <- <-. apply HQ.
    Qed.
    Lemma qsteps_returns {RA RB} n (c d : config T RA RB) : qsteps sep n c d ->
      (forall Q, returns_all_of Q (c_a c) -> returns_all_of Q (c_a d)) /\ (forall Q, returns_all_of Q (c_b c) -> returns_all_of Q (c_b d)).
    Proof.
      induction 1 as [c|n c c1 d H _ [I1 I2]]; [auto|]. destruct H as [H|H]; destruct H as [? ? ? ? ? ? ? ? ? ? E]; cbn in *.
      - split; intros Q HQ; [apply I1; eapply qp_returns; eauto|auto].
      - split; intros Q HQ; [auto|apply I2; eapply qp_returns; eauto].
    Qed.
    Lemma qsteps_stay {RA RB} n (c d : config T RA RB) : qsteps sep n c d ->
      (forall r, c_a c = Ret r -> c_a d = Ret r) /\ (forall r, c_b c = Ret r -> c_b d = Ret r).
    Proof.
      induction 1 as [c|n c c1 d H _ [I1 I2]]; [auto|]. destruct H as [H|H]; destruct H as [? ? ? ? ? ? ? ? ? ? E]; cbn in *;
        split; intros r Hr; auto; subst; discriminate.
    Qed.
    (** Any two runs can be continued to the same state. *)
    Lemma q_strip {RA RB} n (c d c1 : config T RA RB) : qsteps sep n c d -> qstep sep c c1 -> exists m e, qsteps sep m c1 e /\ (d = e \/ qstep sep d e).
    Proof.
      intro H. revert c1. induction H as [c|n c c2 d H2 H IH]; intros c1 H1.
      - exists 0, c1. split; [constructor|auto].
      - destruct (q_diamond _ _ _ _ H1 H2) as [->|(x & Hx1 & Hx2)]; [exists n, d; auto|].
        destruct (IH _ Hx2) as (m & e & He & Hd). exists (S m), e. split; [econstructor; eauto|exact Hd].
    Qed.
    Lemma q_join {RA RB} n m (c d e : config T RA RB) : qsteps sep n c d -> qsteps sep m c e -> exists i j x, qsteps sep i d x /\ qsteps sep j e x.
    Proof.
      intro H. revert m e. induction H as [c|n c c1 d H1 H IH]; intros m e He.
      - exists m, 0, e. split; [exact He|constructor].
      - destruct (q_strip _ _ _ _ He H1) as (k & y & Hy & Hd). destruct (IH _ _ Hy) as (i & j & x & Hi & Hj).
        exists i. destruct Hd as [<-|Hd]; [exists j, x; auto|]. exists (S j), x. split; [exact Hi|econstructor; eauto].
    Qed.
    (** Runs that go through [jrun] cannot end before. *)
    Lemma jrun_passes {RA RB} (pa : proc T RA) ta (pb : proc T RB) tb pa1 ta1 pb1 tb1 : jrun pa ta pb tb pa1 ta1 pb1 tb1 ->
      forall n c, qsteps sep n (start pa ta pb tb) c -> moves sep c \/ exists n', qsteps sep n' (start pa1 ta1 pb1 tb1) c.
    Proof.
      induction 1 as [|pa ta pb tb pa1 ta1 pb1 tb1 pa2 ta2 pb2 tb2 H _ IH]; intros n c Hc; [right; eauto|].
      destruct (hand_first _ _ _ _ _ _ _ _ _ _ _ H Hc) as [M|(n' & Q)]; [left; exact M|]. exact (IH n' c Q).
    Qed.
    Lemma passes_returns {RA RB} (pa : proc T RA) ta (pb : proc T RB) tb pa1 ta1 pb1 tb1 : jrun pa ta pb tb pa1 ta1 pb1 tb1 ->
      forall n c, qsteps sep n (start pa ta pb tb) c ->
      (forall Q r, returns_all_of Q pa1 -> c_a c = Ret r -> Q r) /\ (forall Q r, returns_all_of Q pb1 -> c_b c = Ret r -> Q r).
    Proof.
      intros HJ n c Hc. destruct (jrun_q sep _ _ _ _ _ _ _ _ HJ) as [m Hm]. destruct (q_join _ _ _ _ _ Hc Hm) as (i & j & x & Hi & Hj).
      destruct (qsteps_stay _ _ _ Hi) as [S1 S2]. destruct (qsteps_returns _ _ _ Hj) as [R1 R2]. cbn in R1, R2.
      split; intros Q r HQ Hr.
      - specialize (R1 Q HQ). rewrite (S1 r Hr) in R1. exact R1.
      - specialize (R2 Q HQ). rewrite (S2 r Hr) in R2. exact R2.
    Qed.
  End Sep.

  (** ** Every run ends *)
  Lemma reads_is {R} sep (p : proc T R) q p' q' : reads sep p q = Some (p', q') -> exists m, p' = after_reading p m.
  Proof.
    revert p' q'. induction q as [|m q IH]; intros p' q' E; cbn [reads] in E; [discriminate|].
    destruct (for_reader sep p m); [injection E as <- <-; eauto|].
    destruct (reads sep p q) as [[p2 q2]|]; [|discriminate]. injection E as <- <-. eapply IH; reflexivity.
  Qed.
  Lemma acc_step {RA RB} sep stores (pa : proc T RA) : forall (pb : proc T RB) ta tb ab ba,
    Acc (fun y x : config T RA RB => tstep sep stores x y) (Config pa ta pb tb ab ba).
  Proof.
    induction pa as [r|m ka IHa|ka IHa|co cs ka IHa|ka IHa]; intro pb;
    induction pb as [r'|m' kb IHb|kb IHb|co' cs' kb IHb|kb IHb]; intros ta tb ab ba; constructor; intros y H;
    inversion H; subst; auto; try discriminate; cbn [after_reading]; auto;
    try (exfalso; eapply no_reads; eassumption);
    try match goal with R : reads _ _ _ = Some _ |- _ =>
      let W := fresh in pose proof (reads_waits _ _ _ _ R) as W; destruct W as [[? W]|(? & ? & ? & W)]; try discriminate W end;
    try (match goal with R : reads _ _ _ = Some _ |- _ =>
      destruct (reads_is _ _ _ _ _ R) as [? ->] end; cbn [after_reading]; auto).
  Qed.
End P.
