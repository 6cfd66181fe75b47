(** Runs that hand over one message after the other end alike on every
    transport. *)
From Verif Require Import Base ProcModel ProcSpec ProcProofs MeetProofs TransportSpec.
From Coq Require Import Lia.
Local Open Scope nat_scope.

Section P.
  Context {T : Type}.
  Variable sep : bool.

  (** Reading and sending as steps of one party. *)
  Definition qp {R} (p : proc T R) (t : tape T) (inq outq : list (msg T)) : option (proc T R * tape T * list (msg T) * list (msg T)) :=
    match p with
    | Ret _ => None
    | Send m k => Some (k, t, inq, outq ++ [m])
    | Rand k => Some (k (fst (t O)) (snd (t O)), tape_tl t, inq, outq)
    | _ => match reads sep p inq with Some (p', q) => Some (p', t, q, outq) | None => None end
    end.
  Inductive qa {RA RB} : config T RA RB -> config T RA RB -> Prop :=
  | qa_intro : forall pa ta pb tb ab ba pa' ta' ab' ba', qp pa ta ba ab = Some (pa', ta', ba', ab') ->
      qa (Config pa ta pb tb ab ba) (Config pa' ta' pb tb ab' ba').
  Inductive qb {RA RB} : config T RA RB -> config T RA RB -> Prop :=
  | qb_intro : forall pa ta pb tb ab ba pb' tb' ab' ba', qp pb tb ab ba = Some (pb', tb', ab', ba') ->
      qb (Config pa ta pb tb ab ba) (Config pa ta pb' tb' ab' ba').
  Definition qstep {RA RB} (c c' : config T RA RB) : Prop := qa c c' \/ qb c c'.
  Inductive qsteps {RA RB} : nat -> config T RA RB -> config T RA RB -> Prop :=
  | qsteps_0 : forall c, qsteps 0 c c
  | qsteps_S : forall n c c' c'', qstep c c' -> qsteps n c' c'' -> qsteps (S n) c c''.

  Lemma reads_app {R} (p : proc T R) q p' q' l : reads sep p q = Some (p', q') -> reads sep p (q ++ l) = Some (p', q' ++ l).
  Proof.
    revert q'. induction q as [|m q IH]; intros q' H; cbn in *; [discriminate|].
    destruct (for_reader sep p m); [injection H as <- <-; reflexivity|].
    destruct (reads sep p q) as [[p1 q1]|] eqn:E; [|discriminate]. injection H as <- <-. now rewrite (IH q1).
  Qed.
  Lemma reads_last {R} (p : proc T R) q m : reads sep p q = None -> for_reader sep p m = true -> reads sep p (q ++ [m]) = Some (after_reading p m, q).
  Proof.
    intros H Hm. induction q as [|m' q IH]; cbn in *; [now rewrite Hm|].
    destruct (for_reader sep p m'); [discriminate|]. destruct (reads sep p q) as [[p1 q1]|] eqn:E; [discriminate|]. now rewrite IH.
  Qed.
  Lemma reads_waits {R} (p : proc T R) q x : reads sep p q = Some x -> waits p.
  Proof.
    revert x. induction q as [|m q IH]; intros x H; cbn in H; [discriminate|]. destruct p; cbn in H.
    - destruct (reads sep (Ret r) q) as [y|] eqn:E; [exact (IH y eq_refl)|discriminate].
    - destruct (reads sep (Send m0 p) q) as [y|] eqn:E; [exact (IH y eq_refl)|discriminate].
    - left; eauto.
    - right; eauto.
    - destruct (reads sep (Rand k) q) as [y|] eqn:E; [exact (IH y eq_refl)|discriminate].
  Qed.
  Lemma qp_waits {R} (p : proc T R) t inq outq : waits p -> qp p t inq outq = match reads sep p inq with Some (p', q) => Some (p', t, q, outq) | None => None end.
  Proof. intros [[k ->] | (c & cs & k & ->)]; reflexivity. Qed.
  Lemma reader_waits {R} (p : proc T R) m : for_reader sep p m = true -> waits p.
  Proof. destruct p; cbn; try discriminate; [left|right]; eauto. Qed.

  Lemma qp_in {R} (p : proc T R) t inq outq p' t' inq' outq' l :
    qp p t inq outq = Some (p', t', inq', outq') -> qp p t (inq ++ l) outq = Some (p', t', inq' ++ l, outq').
  Proof.
    destruct p; cbn -[reads]; intro H; try discriminate; try (injection H as <- <- <- <-; reflexivity).
    - destruct (reads sep (Recv k) inq) as [[p1 q1]|] eqn:E; [|discriminate]. rewrite (reads_app _ _ _ _ l E). now injection H as <- <- <- <-.
    - destruct (reads sep (OtRecv cot choices k) inq) as [[p1 q1]|] eqn:E; [|discriminate]. rewrite (reads_app _ _ _ _ l E). now injection H as <- <- <- <-.
  Qed.
  Lemma qp_out {R} (p : proc T R) t inq outq p' t' inq' outq' :
    qp p t inq outq = Some (p', t', inq', outq') ->
    exists new, outq' = outq ++ new /\ forall o, qp p t inq o = Some (p', t', inq', o ++ new).
  Proof.
    destruct p; cbn -[reads]; intro H; try discriminate.
    - injection H as <- <- <- <-. exists [m]. auto.
    - destruct (reads sep (Recv k) inq) as [[p1 q1]|] eqn:E; [|discriminate]. injection H as <- <- <- <-.
      exists []. split; [now rewrite app_nil_r|]. intro o. now rewrite app_nil_r.
    - destruct (reads sep (OtRecv cot choices k) inq) as [[p1 q1]|] eqn:E; [|discriminate]. injection H as <- <- <- <-.
      exists []. split; [now rewrite app_nil_r|]. intro o. now rewrite app_nil_r.
    - injection H as <- <- <- <-. exists []. split; [now rewrite app_nil_r|]. intro o. now rewrite app_nil_r.
  Qed.

  Lemma qab {RA RB} (c c1 c2 : config T RA RB) : qa c c1 -> qb c c2 -> exists d, qb c1 d /\ qa c2 d.
  Proof.
    intros [pa ta pb tb ab ba pa' ta' ab' ba' E1] H2. inversion H2 as [? ? ? ? ? ? ? ? ? ? E2]; subst.
    destruct (qp_out _ _ _ _ _ _ _ _ E1) as (n1 & -> & F1). destruct (qp_out _ _ _ _ _ _ _ _ E2) as (n2 & -> & F2).
    eexists. split.
    - apply qb_intro. apply qp_in, F2.
    - apply qa_intro. apply qp_in, F1.
  Qed.
  Lemma qa_det {RA RB} (c c1 c2 : config T RA RB) : qa c c1 -> qa c c2 -> c1 = c2.
  Proof. intros [? ? ? ? ? ? ? ? ? ? E1] H. inversion H as [? ? ? ? ? ? ? ? ? ? E2]; subst. rewrite E1 in E2. now inversion E2. Qed.
  Lemma qb_det {RA RB} (c c1 c2 : config T RA RB) : qb c c1 -> qb c c2 -> c1 = c2.
  Proof. intros [? ? ? ? ? ? ? ? ? ? E1] H. inversion H as [? ? ? ? ? ? ? ? ? ? E2]; subst. rewrite E1 in E2. now inversion E2. Qed.
  Lemma q_diamond {RA RB} (c c1 c2 : config T RA RB) : qstep c c1 -> qstep c c2 -> c1 = c2 \/ exists d, qstep c1 d /\ qstep c2 d.
  Proof.
    intros [H1|H1] [H2|H2].
    - left. eapply qa_det; eauto.
    - right. destruct (qab _ _ _ H1 H2) as (d & D1 & D2). exists d. split; [right|left]; auto.
    - right. destruct (qab _ _ _ H2 H1) as (d & D1 & D2). exists d. split; [left|right]; auto.
    - left. eapply qb_det; eauto.
  Qed.
  Definition qstuck {RA RB} (c : config T RA RB) : Prop := forall c', ~ qstep c c'.
  Lemma q_on_the_way {RA RB} n (c c1 d : config T RA RB) :
    qsteps n c d -> qstuck d -> qstep c c1 -> exists n', n = S n' /\ qsteps n' c1 d.
  Proof.
    intros H Hs. revert c1. induction H as [c|n c c2 d H2 H IH]; intros c1 H1.
    - exfalso. eapply Hs, H1.
    - destruct (q_diamond _ _ _ H1 H2) as [->|(x & Hx1 & Hx2)]; [eauto|].
      destruct (IH Hs _ Hx2) as (n' & -> & Hn). exists (S n'). split; [reflexivity|]. econstructor; eauto.
  Qed.
  Lemma q_independent {RA RB} n m (c d e : config T RA RB) :
    qsteps n c d -> qstuck d -> qsteps m c e -> m <= n /\ qsteps (n - m) e d.
  Proof.
    intros H Hs He. revert n H. induction He as [c|m c c1 e H1 He IH]; intros n H.
    - split; [lia|]. now rewrite Nat.sub_0_r.
    - destruct (q_on_the_way _ _ _ _ H Hs H1) as (n' & -> & Hn). destruct (IH _ Hn). split; [lia|auto].
  Qed.
  Lemma qsteps_trans {RA RB} n m (c d e : config T RA RB) : qsteps n c d -> qsteps m d e -> qsteps (n + m) c e.
  Proof. induction 1; cbn; [auto|]. intro. econstructor; eauto. Qed.

  (** ** Steps of the transport are one or two steps of the parties *)
  Lemma tstep_q {RA RB} stores (c d : config T RA RB) : tstep sep stores c d -> exists n, 1 <= n /\ qsteps n c d.
  Proof.
    intros [ka ta pb tb ab ba|pa ta kb tb ab ba|m ka ta pb tb ab ba H|m pa ta kb tb ab ba H|pa pa' ta pb tb ab ba ba' H|pa ta pb pb' tb ab ab' ba H
           |m ka ta pb tb ab ba H1 H2|m pa ta kb tb ab ba H1 H2].
    - exists 1. split; [lia|]. econstructor; [left; constructor; reflexivity|constructor].
    - exists 1. split; [lia|]. econstructor; [right; constructor; reflexivity|constructor].
    - exists 1. split; [lia|]. econstructor; [left; constructor; reflexivity|constructor].
    - exists 1. split; [lia|]. econstructor; [right; constructor; reflexivity|constructor].
    - exists 1. split; [lia|]. econstructor; [left; constructor|constructor]. rewrite qp_waits by (eapply reads_waits; eauto). now rewrite H.
    - exists 1. split; [lia|]. econstructor; [right; constructor|constructor]. rewrite qp_waits by (eapply reads_waits; eauto). now rewrite H.
    - exists 2. split; [lia|]. econstructor; [left; constructor; reflexivity|]. econstructor; [right; constructor|constructor].
      rewrite qp_waits by (eapply reader_waits; eauto). now rewrite (reads_last _ _ _ H1 H2).
    - exists 2. split; [lia|]. econstructor; [right; constructor; reflexivity|]. econstructor; [left; constructor|constructor].
      rewrite qp_waits by (eapply reader_waits; eauto). now rewrite (reads_last _ _ _ H1 H2).
  Qed.
  Lemma tsteps_q {RA RB} stores n (c d : config T RA RB) : tsteps sep stores n c d -> exists m, n <= m /\ qsteps m c d.
  Proof.
    induction 1 as [c|n c c1 d H _ (m & Hm & IH)]; [exists 0; split; [lia|constructor]|].
    destruct (tstep_q _ _ _ H) as (k & Hk & Hq). exists (k + m). split; [lia|]. eapply qsteps_trans; eauto.
  Qed.

  (** ** Runs in which only one party moves *)
  Inductive arun {RA RB} : config T RA RB -> config T RA RB -> Prop :=
  | arun_0 : forall c, arun c c
  | arun_S : forall c c' c'', qa c c' -> arun c' c'' -> arun c c''.
  Inductive brun {RA RB} : config T RA RB -> config T RA RB -> Prop :=
  | brun_0 : forall c, brun c c
  | brun_S : forall c c' c'', qb c c' -> brun c' c'' -> brun c c''.
  Lemma split_a {RA RB} n (c0 c c1 : config T RA RB) : qsteps n c0 c -> qa c0 c1 -> brun c0 c \/ exists n', qsteps n' c1 c.
  Proof.
    intro H. revert c1. induction H as [c|n c x d H Hn IH]; intros c1 H1; [left; constructor|].
    destruct H as [H|H].
    - right. rewrite (qa_det _ _ _ H1 H). eauto.
    - destruct (qab _ _ _ H1 H) as (y & D1 & D2). destruct (IH _ D2) as [B|(n' & Q)].
      + left. econstructor; eauto.
      + right. exists (S n'). econstructor; [right; exact D1|exact Q].
  Qed.
  Lemma split_b {RA RB} n (c0 c c1 : config T RA RB) : qsteps n c0 c -> qb c0 c1 -> arun c0 c \/ exists n', qsteps n' c1 c.
  Proof.
    intro H. revert c1. induction H as [c|n c x d H Hn IH]; intros c1 H1; [left; constructor|].
    destruct H as [H|H].
    - destruct (qab _ _ _ H H1) as (y & D1 & D2). destruct (IH _ D1) as [B|(n' & Q)].
      + left. econstructor; eauto.
      + right. exists (S n'). econstructor; [left; exact D2|exact Q].
    - right. rewrite (qb_det _ _ _ H1 H). eauto.
  Qed.
  Lemma reads_nil_rest {R} (p : proc T R) q x : reads sep p q = Some x -> q <> [].
  Proof. now destruct q. Qed.
  Lemma brun_spec {RA RB} (c0 c : config T RA RB) : brun c0 c ->
    c_a c = c_a c0 /\ c_ta c = c_ta c0 /\ (exists new, c_ba c = c_ba c0 ++ new) /\ (c_ab c0 = [] -> c_ab c = []).
  Proof.
    induction 1 as [c|c c1 c2 H _ (I1 & I2 & (new & I3) & I4)]; [repeat split; auto; exists []; now rewrite app_nil_r|].
    destruct H as [pa ta pb tb ab ba pb' tb' ab' ba' E]. cbn in *.
    destruct (qp_out _ _ _ _ _ _ _ _ E) as (n1 & -> & _). split; [auto|]. split; [auto|]. split; [exists (n1 ++ new); rewrite I3; now rewrite app_assoc|].
    intros ->. apply I4. destruct pb; cbn in E; try discriminate; congruence.
  Qed.
  Lemma arun_spec {RA RB} (c0 c : config T RA RB) : arun c0 c ->
    c_b c = c_b c0 /\ c_tb c = c_tb c0 /\ (exists new, c_ab c = c_ab c0 ++ new) /\ (c_ba c0 = [] -> c_ba c = []).
  Proof.
    induction 1 as [c|c c1 c2 H _ (I1 & I2 & (new & I3) & I4)]; [repeat split; auto; exists []; now rewrite app_nil_r|].
    destruct H as [pa ta pb tb ab ba pb' tb' ab' ba' E]. cbn in *.
    destruct (qp_out _ _ _ _ _ _ _ _ E) as (n1 & -> & _). split; [auto|]. split; [auto|]. split; [exists (n1 ++ new); rewrite I3; now rewrite app_assoc|].
    intros ->. apply I4. destruct pa; cbn in E; try discriminate; congruence.
  Qed.
  Lemma brun_waits {RA RB} (pa : proc T RA) ta (pb : proc T RB) tb ba c : waits pb -> brun (Config pa ta pb tb [] ba) c -> c = Config pa ta pb tb [] ba.
  Proof. intros W H. inversion H as [|? ? ? Hb _]; subst; [reflexivity|]. inversion Hb as [? ? ? ? ? ? ? ? ? ? E]; subst. rewrite qp_waits in E by exact W. discriminate. Qed.
  Lemma arun_waits {RA RB} (pa : proc T RA) ta (pb : proc T RB) tb ab c : waits pa -> arun (Config pa ta pb tb ab []) c -> c = Config pa ta pb tb ab [].
  Proof. intros W H. inversion H as [|? ? ? Hb _]; subst; [reflexivity|]. inversion Hb as [? ? ? ? ? ? ? ? ? ? E]; subst. rewrite qp_waits in E by exact W. discriminate. Qed.

  (** ** What a run hands over first is possible without storing it *)
  Definition moves {RA RB} (c : config T RA RB) : Prop := exists c', tstep sep tokens c c'.
  Lemma read_later_b {RA RB} (pa : proc T RA) ta (pb : proc T RB) tb m ba c : for_reader sep pb m = true ->
    arun (Config pa ta pb tb [m] ba) c -> moves c.
  Proof.
    intros Hm H. destruct (arun_spec _ _ H) as (E1 & E2 & (new & E3) & _). destruct c as [qa0 ta0 qb0 tb0 ab0 ba0]. cbn in *. subst.
    eexists. apply t_read_b. cbn. now rewrite Hm.
  Qed.
  Lemma read_later_a {RA RB} (pa : proc T RA) ta (pb : proc T RB) tb m ab c : for_reader sep pa m = true ->
    brun (Config pa ta pb tb ab [m]) c -> moves c.
  Proof.
    intros Hm H. destruct (brun_spec _ _ H) as (E1 & E2 & (new & E3) & _). destruct c as [qa0 ta0 qb0 tb0 ab0 ba0]. cbn in *. subst.
    eexists. apply t_read_a. cbn. now rewrite Hm.
  Qed.
  Lemma qb_reads {RA RB} (pa : proc T RA) ta (pb : proc T RB) tb m q ba : for_reader sep pb m = true ->
    qb (Config pa ta pb tb (m :: q) ba) (Config pa ta (after_reading pb m) tb q ba).
  Proof. intro Hm. constructor. rewrite qp_waits by (eapply reader_waits; eauto). cbn. now rewrite Hm. Qed.
  Lemma qa_reads {RA RB} (pa : proc T RA) ta (pb : proc T RB) tb m q ab : for_reader sep pa m = true ->
    qa (Config pa ta pb tb ab (m :: q)) (Config (after_reading pa m) ta pb tb ab q).
  Proof. intro Hm. constructor. rewrite qp_waits by (eapply reader_waits; eauto). cbn. now rewrite Hm. Qed.

  Lemma pass_ab {RA RB} m (ka : proc T RA) ta (pb : proc T RB) tb n c : for_reader sep pb m = true ->
    qsteps n (start (Send m ka) ta pb tb) c -> moves c \/ exists n', qsteps n' (start ka ta (after_reading pb m) tb) c.
  Proof.
    intros Hm H. assert (W := reader_waits _ _ Hm). destruct (split_a _ _ _ (Config ka ta pb tb [m] []) H) as [B|(n' & Q)].
    - constructor. reflexivity.
    - left. apply brun_waits in B; [|exact W]. subst. eexists. apply t_pass_a; [reflexivity|exact Hm].
    - destruct (split_b _ _ _ _ Q (qb_reads _ _ _ _ _ _ _ Hm)) as [B|Q']; [left|right; exact Q'].
      eapply read_later_b; eauto.
  Qed.
  Lemma pass_ba {RA RB} m (pa : proc T RA) ta (kb : proc T RB) tb n c : for_reader sep pa m = true ->
    qsteps n (start pa ta (Send m kb) tb) c -> moves c \/ exists n', qsteps n' (start (after_reading pa m) ta kb tb) c.
  Proof.
    intros Hm H. assert (W := reader_waits _ _ Hm). destruct (split_b _ _ _ (Config pa ta kb tb [] [m]) H) as [B|(n' & Q)].
    - constructor. reflexivity.
    - left. apply arun_waits in B; [|exact W]. subst. eexists. apply t_pass_b; [reflexivity|exact Hm].
    - destruct (split_a _ _ _ _ Q (qa_reads _ _ _ _ _ _ _ Hm)) as [B|Q']; [left|right; exact Q'].
      eapply read_later_a; eauto.
  Qed.

  Lemma reader_data {R} (k : msg T -> proc T R) m : is_ot m = false -> for_reader sep (Recv k) m = true.
  Proof. intro H. cbn. rewrite H. now rewrite andb_false_r. Qed.
  Lemma reader_ot {R} c cs (k : _ -> proc T R) m : is_ot m = true -> for_reader sep (OtRecv c cs k) m = true.
  Proof. intro H. cbn. rewrite H. cbn. now rewrite andb_false_r. Qed.

  Lemma hand_first {RA RB} (pa : proc T RA) ta (pb : proc T RB) tb pa1 ta1 pb1 tb1 n c :
    hand pa ta pb tb pa1 ta1 pb1 tb1 -> qsteps n (start pa ta pb tb) c ->
    moves c \/ exists n', qsteps n' (start pa1 ta1 pb1 tb1) c.
  Proof.
    intros Hh H. destruct Hh as [ka ta0 pb0 tb0|pa0 ta0 kb tb0|m ka ta0 kb tb0 Hm|m ka ta0 kb tb0 Hm|m c1 cs ka ta0 kb tb0 Hm|m c1 cs ka ta0 kb tb0 Hm|ka ta0 kb tb0].
    - destruct (split_a _ _ _ (start (ka (fst (ta0 O)) (snd (ta0 O))) (tape_tl ta0) pb0 tb0) H) as [B|Q]; [constructor; reflexivity| |right; exact Q].
      left. destruct (brun_spec _ _ B) as (E1 & E2 & _). destruct c as [qa0 ta1 qb0 tb1 ab1 ba1]. cbn in *. subst. eexists. apply t_rand_a.
    - destruct (split_b _ _ _ (start pa0 ta0 (kb (fst (tb0 O)) (snd (tb0 O))) (tape_tl tb0)) H) as [B|Q]; [constructor; reflexivity| |right; exact Q].
      left. destruct (arun_spec _ _ B) as (E1 & E2 & _). destruct c as [qa0 ta1 qb0 tb1 ab1 ba1]. cbn in *. subst. eexists. apply t_rand_b.
    - exact (pass_ab m ka ta0 (Recv kb) tb0 n c (reader_data _ _ Hm) H).
    - exact (pass_ba m (Recv ka) ta0 kb tb0 n c (reader_data _ _ Hm) H).
    - exact (pass_ab m ka ta0 (OtRecv c1 cs kb) tb0 n c (reader_ot _ _ _ _ Hm) H).
    - exact (pass_ba m (OtRecv c1 cs ka) ta0 kb tb0 n c (reader_ot _ _ _ _ Hm) H).
    - assert (RA' : for_reader sep (Recv ka) MSync = true) by now apply reader_data.
      assert (RB' : for_reader sep (Recv kb) MSync = true) by now apply reader_data.
      destruct (split_a _ _ _ (Config (Recv ka) ta0 (Send MSync (Recv kb)) tb0 [MSync] []) H) as [B|(n1 & Q1)]; [constructor; reflexivity| |].
      { left. destruct (brun_spec _ _ B) as (E1 & E2 & _ & E3). destruct c as [qa0 ta1 qb0 tb1 ab1 ba1]. cbn in *. subst. eexists. apply t_store_a. split; auto. }
      destruct (split_b _ _ _ (Config (Recv ka) ta0 (Recv kb) tb0 [MSync] [MSync]) Q1) as [B|(n2 & Q2)]; [constructor; reflexivity| |].
      { left. apply arun_waits in B; [|left; eauto]. subst. eexists. apply t_store_b. split; auto. }
      destruct (split_a _ _ _ _ Q2 (qa_reads _ _ _ _ _ _ _ RA')) as [B|(n3 & Q3)]; [left; eapply read_later_a; eauto|].
      destruct (split_b _ _ _ _ Q3 (qb_reads _ _ _ _ _ _ _ RB')) as [B|Q4]; [left; eapply read_later_b; eauto|].
      right. exact Q4.
  Qed.

  Lemma hand_q {RA RB} (pa : proc T RA) ta (pb : proc T RB) tb pa1 ta1 pb1 tb1 :
    hand pa ta pb tb pa1 ta1 pb1 tb1 -> exists n, qsteps n (start pa ta pb tb) (start pa1 ta1 pb1 tb1).
  Proof.
    intros [ka ta0 pb0 tb0|pa0 ta0 kb tb0|m ka ta0 kb tb0 Hm|m ka ta0 kb tb0 Hm|m c1 cs ka ta0 kb tb0 Hm|m c1 cs ka ta0 kb tb0 Hm|ka ta0 kb tb0].
    - exists 1. econstructor; [left; constructor; reflexivity|constructor].
    - exists 1. econstructor; [right; constructor; reflexivity|constructor].
    - exists 2. econstructor; [left; constructor; reflexivity|]. econstructor; [right; exact (qb_reads _ _ _ _ _ _ _ (reader_data _ _ Hm))|constructor].
    - exists 2. econstructor; [right; constructor; reflexivity|]. econstructor; [left; exact (qa_reads _ _ _ _ _ _ _ (reader_data _ _ Hm))|constructor].
    - exists 2. econstructor; [left; constructor; reflexivity|]. econstructor; [right; exact (qb_reads _ _ _ _ _ _ _ (reader_ot _ _ _ _ Hm))|constructor].
    - exists 2. econstructor; [right; constructor; reflexivity|]. econstructor; [left; exact (qa_reads _ _ _ _ _ _ _ (reader_ot _ _ _ _ Hm))|constructor].
    - assert (RA' : for_reader sep (Recv ka) MSync = true) by now apply reader_data.
      assert (RB' : for_reader sep (Recv kb) MSync = true) by now apply reader_data.
      exists 4. econstructor; [left; constructor; reflexivity|]. econstructor; [right; constructor; reflexivity|].
      econstructor; [left; exact (qa_reads _ _ _ _ _ _ _ RA')|]. econstructor; [right; exact (qb_reads _ _ _ _ _ _ _ RB')|constructor].
  Qed.
  Lemma jrun_q {RA RB} (pa : proc T RA) ta (pb : proc T RB) tb pa1 ta1 pb1 tb1 :
    jrun pa ta pb tb pa1 ta1 pb1 tb1 -> exists n, qsteps n (start pa ta pb tb) (start pa1 ta1 pb1 tb1).
  Proof.
    induction 1 as [|pa ta pb tb pa1 ta1 pb1 tb1 pa2 ta2 pb2 tb2 H _ [m Hm]]; [exists 0; constructor|].
    destruct (hand_q _ _ _ _ _ _ _ _ H) as [n Hn]. exists (n + m). eapply qsteps_trans; eauto.
  Qed.
  Lemma jrun_moves {RA RB} (pa : proc T RA) ta (pb : proc T RB) tb pa1 ta1 pb1 tb1 :
    jrun pa ta pb tb pa1 ta1 pb1 tb1 -> qstuck (start pa1 ta1 pb1 tb1) ->
    forall n c, qsteps n (start pa ta pb tb) c -> c = start pa1 ta1 pb1 tb1 \/ moves c.
  Proof.
    induction 1 as [|pa ta pb tb pa1 ta1 pb1 tb1 pa2 ta2 pb2 tb2 H _ IH]; intros Hs n c Hc.
    - left. inversion Hc as [|? ? ? ? H1 _]; subst; [reflexivity|]. destruct (Hs _ H1).
    - destruct (hand_first _ _ _ _ _ _ _ _ _ _ H Hc) as [M|(n' & Q)]; [right; exact M|]. exact (IH Hs n' c Q).
  Qed.
  Lemma jrun_ends {RA RB} (pa : proc T RA) ta (pb : proc T RB) tb pa1 ta1 pb1 tb1 N :
    jrun pa ta pb tb pa1 ta1 pb1 tb1 -> qstuck (start pa1 ta1 pb1 tb1) -> qsteps N (start pa ta pb tb) (start pa1 ta1 pb1 tb1) ->
    forall n c, qsteps n (start pa ta pb tb) c -> n <= N /\ exists k, tsteps sep tokens k c (start pa1 ta1 pb1 tb1).
  Proof.
    intros HJ Hs HN n c Hc. split; [eapply q_independent; eauto|].
    remember (N - n) as f eqn:Ef. revert n c Hc Ef. induction f as [f IH] using lt_wf_ind. intros n c Hc Ef.
    destruct (jrun_moves _ _ _ _ _ _ _ _ HJ Hs n c Hc) as [->|(c' & M)]; [exists 0; constructor|].
    destruct (tstep_q _ _ _ M) as (j & Hj & Q). assert (Hc' := qsteps_trans _ _ _ _ _ Hc Q).
    destruct (q_independent _ _ _ _ _ HN Hs Hc') as [Hle _].
    destruct (IH (N - (n + j)) ltac:(lia) (n + j) c' Hc' eq_refl) as [k Hk]. exists (S k). econstructor; eauto.
  Qed.

  Lemma rets_stuck {RA RB} (a : RA) ta (b : RB) tb : qstuck (start (T := T) (Ret a) ta (Ret b) tb).
  Proof. intros c [H|H]; inversion H; discriminate. Qed.
  Lemma ret_waits_stuck {RA RB} (a : RA) ta (p : proc T RB) tb : waits p -> qstuck (start (Ret a) ta p tb).
  Proof. intros W c [H|H]; inversion H as [? ? ? ? ? ? ? ? ? ? E]; subst; [discriminate|]. rewrite qp_waits in E by exact W. discriminate. Qed.
  Lemma waits_ret_stuck {RA RB} (b : RB) ta (p : proc T RA) tb : waits p -> qstuck (start p ta (Ret b) tb).
  Proof. intros W c [H|H]; inversion H as [? ? ? ? ? ? ? ? ? ? E]; subst; [|discriminate]. rewrite qp_waits in E by exact W. discriminate. Qed.
End P.

Lemma jrun_every {T RA RB} (pa : proc T RA) ta (pb : proc T RB) tb pa1 ta1 pb1 tb1 (P : config T RA RB -> Prop) :
  jrun pa ta pb tb pa1 ta1 pb1 tb1 -> (forall sep, qstuck sep (start pa1 ta1 pb1 tb1)) -> P (start pa1 ta1 pb1 tb1) ->
  on_every_transport pa ta pb tb P.
Proof.
  intros HJ Hs HP. destruct (jrun_q true _ _ _ _ _ _ _ _ HJ) as [n1 H1]. destruct (jrun_q false _ _ _ _ _ _ _ _ HJ) as [n2 H2].
  exists (Nat.max n1 n2), (start pa1 ta1 pb1 tb1). split; [exact HP|]. split.
  - intros sep stores c Ht. destruct (tstep_q _ _ _ _ Ht) as (j & Hj & Q). inversion Q as [|? ? ? ? Hq _]; subst; [lia|]. exact (Hs sep _ Hq).
  - intros sep n c Hc. destruct (tsteps_q _ _ _ _ _ Hc) as (m & Hm & Q). destruct sep.
    + destruct (jrun_ends true _ _ _ _ _ _ _ _ n1 HJ (Hs true) H1 m c Q) as [Hle Hk]. split; [lia|exact Hk].
    + destruct (jrun_ends false _ _ _ _ _ _ _ _ n2 HJ (Hs false) H2 m c Q) as [Hle Hk]. split; [lia|exact Hk].
Qed.
Lemma jrun_every_ret {T RA RB} (pa : proc T RA) ta (pb : proc T RB) tb a ta1 b tb1 (P : config T RA RB -> Prop) :
  jrun pa ta pb tb (Ret a) ta1 (Ret b) tb1 -> P (finished a ta1 b tb1) -> on_every_transport pa ta pb tb P.
Proof. intros HJ HP. eapply jrun_every; [exact HJ|intro; apply rets_stuck|exact HP]. Qed.

(** A session that meets ends alike on every transport. *)
Lemma meet_every {T A B} fa fb (post : A -> B -> Prop) (pa : proc T A) pb ta tb (P : config T A B -> Prop) :
  meet fa fb post pa pb ->
  (forall a b ta' tb', post a b -> P (start (Ret a) ta' (Ret b) tb')) ->
  (forall a q ta' tb', waits q -> fa a -> P (start (Ret a) ta' q tb')) ->
  (forall q b ta' tb', waits q -> fb b -> P (start q ta' (Ret b) tb')) ->
  on_every_transport pa ta pb tb P.
Proof.
  intros M H1 H2 H3. destruct (M ta tb) as [(a & b & ta' & tb' & J & X) | [(a & q & ta' & tb' & J & W & X) | (q & b & ta' & tb' & J & W & X)]].
  - eapply jrun_every; [exact J|intro; apply rets_stuck|auto].
  - eapply jrun_every; [exact J|intro; now apply ret_waits_stuck|auto].
  - eapply jrun_every; [exact J|intro; now apply waits_ret_stuck|auto].
Qed.

(** Any transport, which may store more or less as it likes. *)
Lemma tstep_more {T RA RB} sep (s1 s2 : policy T) (c c' : config T RA RB) : (forall q m, s1 q m -> s2 q m) -> tstep sep s1 c c' -> tstep sep s2 c c'.
Proof. intros H []; constructor; auto. Qed.
Lemma tsteps_more {T RA RB} sep (s1 s2 : policy T) n (c c' : config T RA RB) : (forall q m, s1 q m -> s2 q m) -> tsteps sep s1 n c c' -> tsteps sep s2 n c c'.
Proof. intros H H1. induction H1; econstructor; eauto using tstep_more. Qed.
Lemma every_policy {T RA RB} (pa : proc T RA) ta (pb : proc T RB) tb P : on_every_transport pa ta pb tb P ->
  exists bound d, P d /\ forall separate (stores : policy T), stores [] MSync -> forall n c, tsteps separate stores n (start pa ta pb tb) c ->
    n <= bound /\ ((forall c', ~ tstep separate stores c c') -> c = d).
Proof.
  intros (bound & d & HP & _ & H). exists bound, d. split; [exact HP|]. intros sep stores H0 n c Hc.
  destruct (H sep n c) as (Hb & k & Hk); [eapply tsteps_more; [|exact Hc]; easy|]. split; [exact Hb|]. intro Hs.
  inversion Hk as [|? ? ? ? Ht _]; subst; [reflexivity|]. exfalso. eapply Hs, tstep_more; [|exact Ht]. intros q m [-> ->]. exact H0.
Qed.

(** ** One run in which the transport stores nothing but tokens, for examples *)
Section Exec.
  Context {T : Type}.
  Variable sep : bool.
  Definition is_sync (m : msg T) : bool := match m with MSync => true | _ => false end.
  Definition try_a {RA RB} (c : config T RA RB) : option (config T RA RB) :=
    let '(Config pa ta pb tb ab ba) := c in
    match pa with
    | Ret _ => None
    | Rand k => Some (Config (k (fst (ta O)) (snd (ta O))) (tape_tl ta) pb tb ab ba)
    | Send m k =>
        match ab with
        | [] => if is_sync m then Some (Config k ta pb tb [m] ba)
                else if for_reader sep pb m then Some (Config k ta (after_reading pb m) tb [] ba) else None
        | _ => None
        end
    | _ => match reads sep pa ba with Some (pa', ba') => Some (Config pa' ta pb tb ab ba') | None => None end
    end.
  Definition try_b {RA RB} (c : config T RA RB) : option (config T RA RB) :=
    let '(Config pa ta pb tb ab ba) := c in
    match pb with
    | Ret _ => None
    | Rand k => Some (Config pa ta (k (fst (tb O)) (snd (tb O))) (tape_tl tb) ab ba)
    | Send m k =>
        match ba with
        | [] => if is_sync m then Some (Config pa ta k tb ab [m])
                else if for_reader sep pa m then Some (Config (after_reading pa m) ta k tb ab []) else None
        | _ => None
        end
    | _ => match reads sep pb ab with Some (pb', ab') => Some (Config pa ta pb' tb ab' ba) | None => None end
    end.
  Fixpoint texec {RA RB} (fuel : nat) (c : config T RA RB) : config T RA RB :=
    match fuel with
    | O => c
    | S fuel' => match try_a c with
                 | Some c' => texec fuel' c'
                 | None => match try_b c with Some c' => texec fuel' c' | None => c end
                 end
    end.
  Lemma sync_is (m : msg T) : is_sync m = true -> m = MSync.
  Proof. now destruct m. Qed.
  Lemma try_a_ok {RA RB} (c c' : config T RA RB) : try_a c = Some c' -> tstep sep tokens c c'.
  Proof.
    destruct c as [pa ta pb tb ab ba]. destruct pa; cbn -[reads for_reader]; intro H; try discriminate.
    - destruct ab; [|discriminate]. destruct (is_sync m) eqn:E; [injection H as <-; apply sync_is in E; apply (t_store_a _ _ m _ _ _ _ []); split; auto|].
      destruct (for_reader sep pb m) eqn:E2; [|discriminate]. injection H as <-. now apply t_pass_a.
    - destruct (reads sep (Recv k) ba) as [[p q]|] eqn:E; [|discriminate]. injection H as <-. now apply t_read_a.
    - destruct (reads sep (OtRecv cot choices k) ba) as [[p q]|] eqn:E; [|discriminate]. injection H as <-. now apply t_read_a.
    - injection H as <-. apply t_rand_a.
  Qed.
  Lemma try_b_ok {RA RB} (c c' : config T RA RB) : try_b c = Some c' -> tstep sep tokens c c'.
  Proof.
    destruct c as [pa ta pb tb ab ba]. destruct pb; cbn -[reads for_reader]; intro H; try discriminate.
    - destruct ba; [|discriminate]. destruct (is_sync m) eqn:E; [injection H as <-; apply sync_is in E; apply (t_store_b _ _ m _ _ _ _ _ []); split; auto|].
      destruct (for_reader sep pa m) eqn:E2; [|discriminate]. injection H as <-. now apply t_pass_b.
    - destruct (reads sep (Recv k) ab) as [[p q]|] eqn:E; [|discriminate]. injection H as <-. now apply t_read_b.
    - destruct (reads sep (OtRecv cot choices k) ab) as [[p q]|] eqn:E; [|discriminate]. injection H as <-. now apply t_read_b.
    - injection H as <-. apply t_rand_b.
  Qed.
  Lemma texec_ok {RA RB} fuel (c : config T RA RB) : exists n, tsteps sep tokens n c (texec fuel c).
  Proof.
    revert c. induction fuel as [|fuel IH]; intro c; cbn [texec]; [exists 0; constructor|].
    destruct (try_a c) as [c'|] eqn:Ea; [destruct (IH c') as [n Hn]; exists (S n); econstructor; [apply try_a_ok; exact Ea|exact Hn]|].
    destruct (try_b c) as [c'|] eqn:Eb; [destruct (IH c') as [n Hn]; exists (S n); econstructor; [apply try_b_ok; exact Eb|exact Hn]|].
    exists 0. constructor.
  Qed.
End Exec.
