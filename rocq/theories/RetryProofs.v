(** Proofs for C66: objects whose precomputations have all failed. *)
From Verif Require Import Base BaseFacts ScalarModel ScalarSpec ProcModel ProcSpec GilboaSpec MpfssModel MpfssSpec VoleModel VoleSpec VoleSolo VoleHistory UseSpec VoleUse.
From Coq Require Import QArith Permutation.
Local Open Scope Z_scope.

Section Retry.
  Variable S : scalar.
  Variable E : setting.
  Hypothesis G : good_setting S E.
  Variable M : machine S.
  Hypothesis GM : good_machine S M.

  Lemma retry_step sends e st st' : inv S E st -> history S E M st [e] st' ->
    (fst (fst e) = sends -> exists b d err, e = (sends, Precompute b d, Err err)) ->
    (if sends : bool then s_done (v_s st') = s_done (v_s st) else r_done (v_r st') = r_done (v_r st)).
  Proof.
    intros Hi H He. destruct e as [[s c] r]. apply history_one in H. destruct H as [H Hu]. destruct s, sends.
    - destruct (He eq_refl) as (b & d & err & Ee). injection Ee as -> ->. unfold as_sender in H. apply possible_bind in H. destruct H as ([st1 x] & H1 & H2).
      apply possible_ret_inv in H2. injection H2 as -> H2. apply (precompute_sender_solo S E G M GM) in H1; try apply Hi. destruct x as [x|e|w]; try discriminate. apply H1.
    - apply (sender_call S E G M GM) in H; auto. destruct H as (_ & Hr & _). congruence.
    - apply (receiver_call S E G M GM) in H; auto. destruct H as (_ & Hr & _). congruence.
    - destruct (He eq_refl) as (b & d & err & Ee). injection Ee as -> ->. unfold as_receiver in H. destruct d as [d|]; apply possible_bind in H; destruct H as ([st1 x] & H1 & H2);
        apply possible_ret_inv in H2; injection H2 as -> H2.
      + apply (precompute_receiver_solo S E G M GM) in H1; try apply Hi. destruct x as [x|e|w]; try discriminate. apply H1.
      + apply (precompute_random_solo S E G M GM) in H1; try apply Hi. destruct x as [x|e|w]; try discriminate. apply H1.
  Qed.
  Lemma retry_all (sends : bool) l : forall st st', inv S E st -> history S E M st l st' ->
    Forall (fun e => fst (fst e) = sends -> exists b d err, e = (sends, Precompute b d, Err err)) l ->
    (if sends then s_done (v_s st') = s_done (v_s st) else r_done (v_r st') = r_done (v_r st)).
  Proof.
    induction l as [|e l IH] using rev_ind; intros st st' Hi H HF.
    - inversion H as [|? l0 ? ? ? ? ? ? ? ? E0 E1]; subst; [destruct sends; reflexivity|destruct l0; discriminate].
    - apply history_app in H. destruct H as (st1 & H1 & H2). apply Forall_app in HF. destruct HF as [F1 F2]. inversion F2; subst.
      pose proof (IH _ _ Hi H1 F1) as K1. pose proof (retry_step sends e st1 st' (proj1 (history_inv S E G M GM _ _ _ Hi H1)) H2 ltac:(assumption)) as K2.
      destruct sends; congruence.
  Qed.
  Lemma created_done st : created S M st -> s_done (v_s st) = false /\ r_done (v_r st) = false.
  Proof. intro H. apply created_inv in H. destruct H as (h & _ & ->). auto. Qed.

  Lemma retry_sender st0 l st n d : created S M st0 -> history S E M st0 l st ->
    Forall (fun e => fst (fst e) = true -> exists b d err, e = (true, Precompute b d, Err err)) l ->
    alike (as_sender S E M (Run n) st)
      (pbind (as_sender S E M (Precompute n d) st) (fun '(st, r) =>
         match r with Ok _ => as_sender S E M (Run n) st | Err e => Ret (st, Err e) | UB w => Ret (st, UB w) end)).
  Proof.
    intros Hc H HF. apply implicit_sender. pose proof (retry_all true l st0 st (created_ok S E M _ Hc) H HF) as K. cbn in K. rewrite K. now apply created_done.
  Qed.
  Lemma retry_receiver st0 l st n : created S M st0 -> history S E M st0 l st ->
    Forall (fun e => fst (fst e) = false -> exists b d err, e = (false, Precompute b d, Err err)) l ->
    alike (as_receiver S E M (Run n) st)
      (pbind (as_receiver S E M (Precompute n None) st) (fun '(st, r) =>
         match r with Ok _ => as_receiver S E M (Run n) st | Err e => Ret (st, Err e) | UB w => Ret (st, UB w) end)).
  Proof.
    intros Hc H HF. apply implicit_receiver. pose proof (retry_all false l st0 st (created_ok S E M _ Hc) H HF) as K. cbn in K. rewrite K. now apply created_done.
  Qed.
End Retry.
