(** Proofs about parties that stop (StopSpec.v). *)
From Verif Require Import Base ProcModel ProcSpec ProcProofs TransportSpec TransportProofs StopSpec.
Local Open Scope nat_scope.

Section P.
  Context {T : Type}.

  Lemma prefix_cons {A} (x : A) l l' : prefix (x :: l) l' -> exists r, l' = x :: r /\ prefix l r.
  Proof. intros [s <-]. exists (l ++ s). split; [reflexivity|]. now exists s. Qed.

  (** Reading with separate connections: the first message of one kind. *)
  Lemma reads_first {R} (p : proc T R) q p' q' : reads true p q = Some (p', q') ->
    exists m, for_reader true p m = true /\ p' = after_reading p m /\
      filter (for_reader true p) q = m :: filter (for_reader true p) q' /\
      filter (fun x => negb (for_reader true p x)) q = filter (fun x => negb (for_reader true p x)) q'.
  Proof.
    revert p' q'. induction q as [|x q IH]; [discriminate|]. intros p' q'. cbn [reads].
    destruct (for_reader true p x) eqn:E.
    - intro H. injection H as <- <-. exists x. cbn [filter]. rewrite E. auto.
    - destruct (reads true p q) as [[p1 q1]|]; [|discriminate]. intro H. injection H as <- <-.
      destruct (IH _ _ eq_refl) as (m & Hm & Hp & H1 & H2). exists m. cbn [filter]. rewrite E. cbn [negb].
      rewrite H2. auto.
  Qed.
  Lemma reads_some {R} (p : proc T R) q m l : filter (for_reader true p) q = m :: l ->
    exists q', reads true p q = Some (after_reading p m, q') /\ filter (for_reader true p) q' = l /\
      filter (fun x => negb (for_reader true p x)) q' = filter (fun x => negb (for_reader true p x)) q.
  Proof.
    revert l. induction q as [|x q IH]; [discriminate|]. intros l. cbn [filter reads].
    destruct (for_reader true p x) eqn:E.
    - intro H. injection H as -> <-. exists q. auto.
    - intro H. destruct (IH _ H) as (q' & -> & H1 & H2). exists (x :: q'). cbn [filter]. rewrite E. cbn [negb]. rewrite H1, H2. auto.
  Qed.
  Lemma kinds {R} (p : proc T R) m : for_reader true p m = true ->
    (forall x, for_reader true p x = is_ot x) \/ (forall x, for_reader true p x = not_ot x).
  Proof. destruct p; cbn; try discriminate; intros _; [right|left]; intro x; unfold not_ot; destruct (is_ot x); reflexivity. Qed.

  (** A process that can read what arrived can read what was sent. *)
  Lemma reads_more {R} sep (p : proc T R) kept sent p' kept' : arrived sep kept sent -> reads sep p kept = Some (p', kept') ->
    exists sent', reads sep p sent = Some (p', sent') /\ arrived sep kept' sent'.
  Proof.
    destruct sep; cbn [arrived].
    2:{ intros [lost <-] H. exists (kept' ++ lost). split; [now apply reads_app|]. now exists lost. }
    intros [H1 H2] H. destruct (reads_first _ _ _ _ H) as (m & Hm & -> & F1 & F2).
    destruct (kinds p m Hm) as [K|K].
    - rewrite !(filter_ext _ _ K) in F1.
      assert (K' : forall x, negb (for_reader true p x) = not_ot x) by (intro x; now rewrite K).
      rewrite !(filter_ext _ _ K') in F2. rewrite F1 in H1. destruct (prefix_cons _ _ _ H1) as (r & Hr & Hp).
      destruct (reads_some p sent m r) as (sent' & E & G1 & G2); [now rewrite (filter_ext _ _ K)|].
      rewrite (filter_ext _ _ K) in G1. rewrite !(filter_ext _ _ K') in G2.
      exists sent'. split; [exact E|]. rewrite G1, G2, <- F2. auto.
    - rewrite !(filter_ext _ _ K) in F1.
      assert (K' : forall x, negb (for_reader true p x) = is_ot x) by (intro x; rewrite K; unfold not_ot; now destruct (is_ot x)).
      rewrite !(filter_ext _ _ K') in F2. rewrite F1 in H2. destruct (prefix_cons _ _ _ H2) as (r & Hr & Hp).
      destruct (reads_some p sent m r) as (sent' & E & G1 & G2); [now rewrite (filter_ext _ _ K)|].
      rewrite (filter_ext _ _ K) in G1. rewrite !(filter_ext _ _ K') in G2.
      exists sent'. split; [exact E|]. rewrite G1, G2, <- F2. auto.
  Qed.

  Lemma no_reads {R} sep (r : R) q x : reads (T := T) sep (Ret r) q = Some x -> False.
  Proof. revert x. induction q as [|m q IH]; [discriminate|]. intros x. cbn. destruct (reads sep (Ret r) q) as [[p' q']|] eqn:E; [|discriminate]. intros _. exact (IH _ eq_refl). Qed.

  (** What a party does after the other one has stopped it could have done before. *)
  Lemma mirror_a {RA RB RE} sep stores m (c d : config T RA RE) : tsteps sep stores m c d -> forall e, c_b c = Ret e ->
    forall (pb : proc T RB) tb sent, arrived sep (c_ba c) sent ->
    exists sent', tsteps sep anything m (Config (c_a c) (c_ta c) pb tb (c_ab c) sent) (Config (c_a d) (c_ta d) pb tb (c_ab d) sent').
  Proof.
    intro H. induction H as [c|n c c1 d Hs _ IH]; intros e He pb tb sent Ha.
    - exists sent. constructor.
    - destruct Hs; cbn [c_a c_ta c_b c_tb c_ab c_ba] in *; subst; try discriminate.
      + destruct (IH e eq_refl pb tb sent Ha) as [s' IH']. exists s'. econstructor; [|exact IH']. constructor.
      + destruct (IH e eq_refl pb tb sent Ha) as [s' IH']. exists s'. econstructor; [|exact IH']. now constructor.
      + destruct (reads_more _ _ _ _ _ _ Ha H) as (s1 & E & Ha1). destruct (IH e eq_refl pb tb s1 Ha1) as [s' IH']. exists s'.
        econstructor; [|exact IH']. now constructor.
      + exfalso. exact (no_reads _ _ _ _ H).
  Qed.
  Lemma mirror_b {RA RB RE} sep stores m (c d : config T RE RB) : tsteps sep stores m c d -> forall e, c_a c = Ret e ->
    forall (pa : proc T RA) ta sent, arrived sep (c_ab c) sent ->
    exists sent', tsteps sep anything m (Config pa ta (c_b c) (c_tb c) sent (c_ba c)) (Config pa ta (c_b d) (c_tb d) sent' (c_ba d)).
  Proof.
    intro H. induction H as [c|n c c1 d Hs _ IH]; intros e He pa ta sent Ha.
    - exists sent. constructor.
    - destruct Hs; cbn [c_a c_ta c_b c_tb c_ab c_ba] in *; subst; try discriminate.
      + destruct (IH e eq_refl pa ta sent Ha) as [s' IH']. exists s'. econstructor; [|exact IH']. constructor.
      + destruct (IH e eq_refl pa ta sent Ha) as [s' IH']. exists s'. econstructor; [|exact IH']. now constructor.
      + exfalso. exact (no_reads _ _ _ _ H).
      + destruct (reads_more _ _ _ _ _ _ Ha H) as (s1 & E & Ha1). destruct (IH e eq_refl pa ta s1 Ha1) as [s' IH']. exists s'.
        econstructor; [|exact IH']. now constructor.
  Qed.

  Lemma tsteps_trans {RA RB} sep stores n m (c d e : config T RA RB) : tsteps sep stores n c d -> tsteps sep stores m d e -> tsteps sep stores (n + m) c e.
  Proof. intros H H2. induction H; [exact H2|]. cbn. econstructor; eauto. Qed.
  (** Results stay. *)
  Lemma ret_stays {RA RB} sep stores n (c d : config T RA RB) : tsteps sep stores n c d ->
    (forall r, c_a c = Ret r -> c_a d = Ret r) /\ (forall r, c_b c = Ret r -> c_b d = Ret r).
  Proof.
    intro H. induction H as [c|n c c1 d Hs _ [IH1 IH2]]; [auto|].
    split; intros r Hr.
    - apply IH1. destruct Hs; cbn [c_a] in *; subst; auto; try discriminate. + exfalso; eapply no_reads; eassumption.
    - apply IH2. destruct Hs; cbn [c_b] in *; subst; auto; try discriminate. + exfalso; eapply no_reads; eassumption.
  Qed.

  Lemma every_unaffected {RA RB} (pa : proc T RA) ta (pb : proc T RB) tb P : on_every_transport pa ta pb tb P ->
    exists d, P d /\ unaffected pa ta pb tb d.
  Proof.
    intros (bound & d & HP & _ & H). exists d. split; [exact HP|]. exists bound. intros sep stores n c Hc RE e kept stores' m.
    assert (Hc' : tsteps sep anything n (start pa ta pb tb) c) by (eapply tsteps_more; [|exact Hc]; easy).
    split; intros c' Ha Hs.
    - destruct (mirror_a _ _ _ _ _ Hs e eq_refl (c_b c) (c_tb c) (c_ba c) Ha) as [s' Hm]. cbn [second_stops c_a c_ta c_ab] in Hm.
      destruct c as [a1 ta1 b1 tb1 ab1 ba1]. cbn [c_a c_ta c_b c_tb c_ab c_ba] in *.
      destruct (H sep (n + m) _ (tsteps_trans _ _ _ _ _ _ _ Hc' Hm)) as (Hb & k & Hk). split; [exact Hb|].
      intros r Hr. exact (proj1 (ret_stays _ _ _ _ _ Hk) r Hr).
    - destruct (mirror_b _ _ _ _ _ Hs e eq_refl (c_a c) (c_ta c) (c_ab c) Ha) as [s' Hm]. cbn [first_stops c_b c_tb c_ba] in Hm.
      destruct c as [a1 ta1 b1 tb1 ab1 ba1]. cbn [c_a c_ta c_b c_tb c_ab c_ba] in *.
      destruct (H sep (n + m) _ (tsteps_trans _ _ _ _ _ _ _ Hc' Hm)) as (Hb & k & Hk). split; [exact Hb|].
      intros r Hr. exact (proj2 (ret_stays _ _ _ _ _ Hk) r Hr).
  Qed.
  Lemma returned_only {RA RB} (pa : proc T RA) ta (pb : proc T RB) tb a b : on_every_transport pa ta pb tb (returned a b) -> returns_only pa ta pb tb a b.
  Proof. intro H. destruct (every_unaffected _ _ _ _ _ H) as (d & (ta' & tb' & ->) & U). exists ta', tb'. exact U. Qed.

  (** ** Processes that cannot succeed without reading *)
  Fixpoint early {R} (Q : R -> Prop) (p : proc T R) : Prop :=
    match p with
    | Ret r => Q r
    | Send _ k => early Q k
    | Rand k => forall x t, early Q (k x t)
    | Recv _ | OtRecv _ _ _ => True
    end.
  Lemma early_bind {A B} (Q : A -> Prop) (Q' : B -> Prop) (p : proc T A) f : early Q p -> (forall a, Q a -> early Q' (f a)) -> early Q' (pbind p f).
  Proof. intros H Hf. induction p; cbn in *; auto. Qed.
  Definition not_ok {A} (r : res A) : Prop := match r with Ok _ => False | _ => True end.
  Lemma early_bindr {A B} (p : proc T (res A)) (f : A -> proc T (res B)) : early not_ok p -> early not_ok (pbindr p f).
  Proof. intro H. apply (early_bind _ _ _ _ H). intros [a|s|w] Ha; cbn in *; tauto. Qed.
  Lemma early_lift {A B} (m : res A) (f : A -> proc T (res B)) : (forall a, m = Ok a -> early not_ok (f a)) -> early not_ok (plift m f).
  Proof. intro H. destruct m; cbn; auto. Qed.

  Lemma early_alone_b {RE RB} sep stores n (c d : config T RE RB) (Q : RB -> Prop) : tsteps sep stores n c d -> forall e, c_a c = Ret e -> c_ab c = [] ->
    early Q (c_b c) -> early Q (c_b d).
  Proof.
    intro H. induction H as [c|n c c1 d Hs _ IH]; intros e He Hq HE; [exact HE|].
    destruct Hs; cbn [c_a c_ta c_b c_tb c_ab c_ba] in *; subst; try discriminate.
    - apply (IH e eq_refl eq_refl). apply HE.
    - apply (IH e eq_refl eq_refl). apply HE.
    - exfalso. exact (no_reads _ _ _ _ H).
  Qed.
  Lemma early_alone_a {RE RA} sep stores n (c d : config T RA RE) (Q : RA -> Prop) : tsteps sep stores n c d -> forall e, c_b c = Ret e -> c_ba c = [] ->
    early Q (c_a c) -> early Q (c_a d).
  Proof.
    intro H. induction H as [c|n c c1 d Hs _ IH]; intros e He Hq HE; [exact HE|].
    destruct Hs; cbn [c_a c_ta c_b c_tb c_ab c_ba] in *; subst; try discriminate.
    - apply (IH e eq_refl eq_refl). apply HE.
    - apply (IH e eq_refl eq_refl). apply HE.
    - exfalso. exact (no_reads _ _ _ _ H).
  Qed.

  Lemma arrived_nil sep : arrived (T := T) sep [] [].
  Proof. destruct sep; cbn; [split|]; now exists []. Qed.

  Lemma second_must_wait {RA RB} (pa : proc T RA) ta (pb : proc T RB) tb a b (Q : RB -> Prop) :
    on_every_transport pa ta pb tb (returned a b) -> early Q pb -> ~ Q b -> second_waits pb tb.
  Proof.
    intros H HE Hb RE e ta0 sep stores n c Hc r Hr.
    destruct (returned_only _ _ _ _ _ _ H) as (ta' & tb' & bound & U).
    destruct (U sep stores 0 _ (tsteps_0 _ _ _) RE e [] stores n) as [_ U2]. cbn [c_ab start] in U2.
    assert (Hc' : exists c', tsteps sep stores n (first_stops (start pa ta pb tb) e []) c' /\ c_b c' = c_b c).
    { unfold first_stops, start. cbn [c_a c_ta c_b c_tb c_ab c_ba]. clear -Hc. unfold start in Hc.
      remember (Config (Ret e) ta0 pb tb [] []) as c0 eqn:E0.
      assert (G : forall ta1, exists c', tsteps sep stores n (Config (c_a c0) ta1 (c_b c0) (c_tb c0) (c_ab c0) (c_ba c0)) c' /\ c_b c' = c_b c).
      { assert (He : c_a c0 = Ret e) by now subst. clear E0. induction Hc as [c0|n c0 c1 d Hs _ IH]; intro ta1.
        - eexists. split; [constructor|reflexivity].
        - destruct Hs; cbn [c_a c_ta c_b c_tb c_ab c_ba] in *; subst; try discriminate.
          + destruct (IH eq_refl ta1) as (c' & G1 & G2). exists c'. split; [|exact G2]. econstructor; [|exact G1]. constructor.
          + destruct (IH eq_refl ta1) as (c' & G1 & G2). exists c'. split; [|exact G2]. econstructor; [|exact G1]. now constructor.
          + exfalso. exact (no_reads _ _ _ _ H).
          + destruct (IH eq_refl ta1) as (c' & G1 & G2). exists c'. split; [|exact G2]. econstructor; [|exact G1]. now constructor. }
      subst c0. apply G. }
    destruct Hc' as (c' & Hs & Ec). destruct (U2 c' (arrived_nil sep) Hs) as [_ U3]. rewrite Ec in U3. specialize (U3 r Hr). cbn in U3. injection U3 as <-.
    apply Hb. assert (G : early Q (c_b c)) by (eapply (early_alone_b _ _ _ _ _ Q Hc); [reflexivity|reflexivity|exact HE]).
    rewrite Hr in G. exact G.
  Qed.
  Lemma first_must_wait {RA RB} (pa : proc T RA) ta (pb : proc T RB) tb a b (Q : RA -> Prop) :
    on_every_transport pa ta pb tb (returned a b) -> early Q pa -> ~ Q a -> first_waits pa ta.
  Proof.
    intros H HE Hb RE e tb0 sep stores n c Hc r Hr.
    destruct (returned_only _ _ _ _ _ _ H) as (ta' & tb' & bound & U).
    destruct (U sep stores 0 _ (tsteps_0 _ _ _) RE e [] stores n) as [U1 _]. cbn [c_ba start] in U1.
    assert (Hc' : exists c', tsteps sep stores n (second_stops (start pa ta pb tb) e []) c' /\ c_a c' = c_a c).
    { unfold second_stops, start. cbn [c_a c_ta c_b c_tb c_ab c_ba]. clear -Hc. unfold start in Hc.
      remember (Config pa ta (Ret e) tb0 [] []) as c0 eqn:E0.
      assert (G : forall tb1, exists c', tsteps sep stores n (Config (c_a c0) (c_ta c0) (c_b c0) tb1 (c_ab c0) (c_ba c0)) c' /\ c_a c' = c_a c).
      { assert (He : c_b c0 = Ret e) by now subst. clear E0. induction Hc as [c0|n c0 c1 d Hs _ IH]; intro tb1.
        - eexists. split; [constructor|reflexivity].
        - destruct Hs; cbn [c_a c_ta c_b c_tb c_ab c_ba] in *; subst; try discriminate.
          + destruct (IH eq_refl tb1) as (c' & G1 & G2). exists c'. split; [|exact G2]. econstructor; [|exact G1]. constructor.
          + destruct (IH eq_refl tb1) as (c' & G1 & G2). exists c'. split; [|exact G2]. econstructor; [|exact G1]. now constructor.
          + destruct (IH eq_refl tb1) as (c' & G1 & G2). exists c'. split; [|exact G2]. econstructor; [|exact G1]. now constructor.
          + exfalso. exact (no_reads _ _ _ _ H). }
      subst c0. apply G. }
    destruct Hc' as (c' & Hs & Ec). destruct (U1 c' (arrived_nil sep) Hs) as [_ U3]. rewrite Ec in U3. specialize (U3 r Hr). cbn in U3. injection U3 as <-.
    apply Hb. assert (G : early Q (c_a c)) by (eapply (early_alone_a _ _ _ _ _ Q Hc); [reflexivity|reflexivity|exact HE]).
    rewrite Hr in G. exact G.
  Qed.
End P.
