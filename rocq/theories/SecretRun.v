(** Joint runs of a first party in two worlds with different secrets, in which
    the second party sees the same. *)
From Verif Require Import Base BaseFacts ProcModel ProcSpec ProcProofs VoleSpec HideSpec HideRun DeltaSpec DeltaRun.
Local Open Scope nat_scope.

Section P.
  Context {T : Type}.

  (** A tape that starts with the given values. *)
  Fixpoint glue (seg : list (N * T)) (s : tape T) : tape T :=
    match seg with [] => s | x :: seg => fun n => match n with O => x | S n => glue seg s n end end.
  Lemma glue_app seg seg' s : glue (seg ++ seg') s = glue seg (glue seg' s).
  Proof. induction seg as [|x seg IH]; cbn; [reflexivity|]. now rewrite IH. Qed.
  Lemma glue_drop seg s : tape_drop (List.length seg) (glue seg s) = s.
  Proof. induction seg as [|x seg IH]; cbn; [reflexivity|]. exact IH. Qed.
  Lemma glue_blocks seg s : tape_blocks (List.length seg) (glue seg s) = map fst seg.
  Proof. induction seg as [|x seg IH]; cbn; [reflexivity|]. f_equal. exact IH. Qed.
  Lemma glue_scalars seg s : tape_scalars (List.length seg) (glue seg s) = map snd seg.
  Proof. induction seg as [|x seg IH]; cbn; [reflexivity|]. f_equal. exact IH. Qed.
  (** The beginning of a tape. *)
  Fixpoint front (n : nat) (t : tape T) : list (N * T) := match n with O => [] | S n => t O :: front n (tape_tl t) end.
  Lemma front_length n t : List.length (front n t) = n.
  Proof. revert t. induction n as [|n IH]; intro t; cbn; auto. Qed.
  Lemma glue_at seg s i : i < List.length seg -> forall d, glue seg s i = nth i seg d.
  Proof. revert i. induction seg as [|x seg IH]; intros i Hi d; [cbn in Hi; lia|]. destruct i as [|i]; [reflexivity|]. cbn in *. apply IH. lia. Qed.
  Lemma front_at n t i d : i < n -> nth i (front n t) d = t i.
  Proof. revert t i. induction n as [|n IH]; intros t i Hi; [lia|]. destruct i as [|i]; [reflexivity|]. cbn. rewrite IH by lia. reflexivity. Qed.

  Lemma front_blocks n t : map fst (front n t) = tape_blocks n t.
  Proof. revert t. induction n as [|n IH]; intro t; cbn; [reflexivity|]. now rewrite IH. Qed.
  Lemma front_scalars n t : map snd (front n t) = tape_scalars n t.
  Proof. revert t. induction n as [|n IH]; intro t; cbn; [reflexivity|]. now rewrite IH. Qed.

  Lemma glue_front_blocks n t s : tape_blocks n (glue (front n t) s) = tape_blocks n t.
  Proof. pose proof (glue_blocks (front n t) s) as H. rewrite front_length in H. rewrite H. apply front_blocks. Qed.
  Lemma glue_front_scalars n t s : tape_scalars n (glue (front n t) s) = tape_scalars n t.
  Proof. pose proof (glue_scalars (front n t) s) as H. rewrite front_length in H. rewrite H. apply front_scalars. Qed.
  Lemma glue_front_drop n t s : tape_drop n (glue (front n t) s) = s.
  Proof. pose proof (glue_drop (front n t) s) as H. now rewrite front_length in H. Qed.
  Lemma vrun_blocks {RA RB} n (k : list N -> proc T RA) t (q : proc T RB) t2 : vrun (rand_blocks n k) t q t2 [] (k (tape_blocks n t)) (tape_drop n t) q t2.
  Proof. revert k t. induction n as [|n IH]; intros k t; cbn; [constructor|]. change (@nil (seen T)) with ([] ++ @nil (seen T)); eapply vrun_cons; [constructor|]. apply (IH (fun l => k (fst (t O) :: l))). Qed.
  Lemma vrun_scalars {RA RB} n (k : list T -> proc T RA) t (q : proc T RB) t2 : vrun (rand_scalars n k) t q t2 [] (k (tape_scalars n t)) (tape_drop n t) q t2.
  Proof. revert k t. induction n as [|n IH]; intros k t; cbn; [constructor|]. change (@nil (seen T)) with ([] ++ @nil (seen T)); eapply vrun_cons; [constructor|]. apply (IH (fun l => k (snd (t O) :: l))). Qed.

  (** A joint run has a view. *)
  Lemma jrun_vrun {RA RB} (pa : proc T RA) ta (pb : proc T RB) tb pa' ta' pb' tb' :
    jrun pa ta pb tb pa' ta' pb' tb' -> exists l, vrun pa ta pb tb l pa' ta' pb' tb'.
  Proof.
    induction 1 as [|? ? ? ? ? ? ? ? ? ? ? ? H _ [l IH]]; [exists []; constructor|].
    destruct H; eexists; (eapply vrun_cons; [|exact IH]); now constructor.
  Qed.

  (** ** What the second party sees if the first one sends given messages *)
  Fixpoint fed {R} (msgs : list (msg T)) (q : proc T R) (t : tape T) : option (list (seen T) * R * tape T) :=
    match q with
    | Ret r => Some ([], r, t)
    | Send _ k => fed msgs k t
    | Rand k => option_map (fun '(l, r, t') => (Drew (fst (t O)) (snd (t O)) :: l, r, t')) (fed msgs (k (fst (t O)) (snd (t O))) (tape_tl t))
    | Recv k => match msgs with [] => None | m :: msgs => option_map (fun '(l, r, t') => (Got m :: l, r, t')) (fed msgs (k m) t) end
    | OtRecv _ _ _ => None
    end.
  Definition sent (l : list (event T)) : list (msg T) := flat_map (fun e => match e with Sent m => [m] | Chose _ _ => [] end) l.
  Definition plain (l : list (event T)) : Prop := Forall (fun e => match e with Sent MSync | Sent (MOt _ _) => False | _ => True end) l.

  Lemma prefix_inv {A} (x : A) l l' : prefix (x :: l) l' -> exists l2, l' = x :: l2 /\ prefix l l2.
  Proof. intros [r <-]. exists (l ++ r). split; [reflexivity|]. now exists r. Qed.

  Lemma hears {RA RB} (p : proc T RA) t (q : proc T RB) t2 r p1 t1 q1 t21 :
    vrun p t q t2 r p1 t1 q1 t21 -> forall x y l, p1 = Ret x -> q1 = Ret y ->
    (forall evs, trace p evs -> prefix evs l) -> plain l -> fed (sent l) q t2 = Some (r, y, t21).
  Proof.
    induction 1 as [|? ? ? ? ? ? ? ? ? r2 ? ? ? ? H _ IH]; intros x y l E1 E2 Hp Hl; [subst; reflexivity|].
    specialize (IH x y). destruct H as [ka ta pb tb|pa ta kb tb|m ka ta kb tb E|m ka ta kb tb E|m c cs ka ta kb tb E|m c cs ka ta kb tb E|ka ta kb tb].
    - apply (IH l E1 E2); auto. intros evs He. apply Hp. now apply trace_rand in He.
    - cbn [fed]. rewrite (IH l E1 E2) by auto. reflexivity.
    - destruct (prefix_inv _ _ _ (Hp _ (trace_send m ka _ (trace_stop _)))) as (l2 & -> & _). cbn [sent flat_map app fed].
      fold (sent l2). rewrite (IH l2 E1 E2); [reflexivity| |now inversion Hl].
      intros evs He. destruct (prefix_inv _ _ _ (Hp _ (trace_send m ka _ He))) as (l3 & E3 & Hl3). injection E3 as <-. exact Hl3.
    - apply (IH l E1 E2); auto. intros evs He. apply Hp. exact (trace_recv _ _ _ He).
    - exfalso. destruct (prefix_inv _ _ _ (Hp _ (trace_send m ka _ (trace_stop _)))) as (l2 & -> & _). inversion Hl as [|? ? Hm _]. subst.
      destruct m; try discriminate E. exact Hm.
    - destruct (prefix_inv _ _ _ (Hp _ (trace_ot c cs ka (ot_choose c cs m) _ (trace_stop _)))) as (l2 & -> & _). cbn [sent flat_map app fed].
      apply (IH l2 E1 E2); [|now inversion Hl].
      intros evs He. destruct (prefix_inv _ _ _ (Hp _ (trace_ot c cs ka _ _ He))) as (l3 & E3 & Hl3). injection E3 as <-. exact Hl3.
    - exfalso. destruct (prefix_inv _ _ _ (Hp _ (trace_send MSync _ _ (trace_stop _)))) as (l2 & -> & _). inversion Hl as [|? ? Hm _]. exact Hm.
  Qed.

  (** The same messages and choices lead the second party to the same result. *)
  Fixpoint replay {R} (l : list (seen T)) (q : proc T R) (t : tape T) : option (R * tape T) :=
    match q with
    | Ret r => Some (r, t)
    | Send _ k => replay l k t
    | Rand k => match l with Drew _ _ :: l => replay l (k (fst (t O)) (snd (t O))) (tape_tl t) | _ => None end
    | Recv k => match l with Got m :: l => replay l (k m) t | _ => None end
    | OtRecv _ _ k => match l with Chosen r :: l => replay l (k r) t | _ => None end
    end.
  Lemma replays {RA RB} (p : proc T RA) t (q : proc T RB) t2 r p1 t1 q1 t21 :
    vrun p t q t2 r p1 t1 q1 t21 -> forall y, q1 = Ret y -> replay r q t2 = Some (y, t21).
  Proof.
    induction 1 as [|? ? ? ? ? ? ? ? ? r2 ? ? ? ? H _ IH]; intros y E; [subst; reflexivity|].
    specialize (IH y E). destruct H; cbn [app replay]; exact IH.
  Qed.
  Lemma replay_same {RA RB} (p p' : proc T RA) t t' (q : proc T RB) t2 r p1 p1' t1 t1' y y' t21 t21' :
    vrun p t q t2 r p1 t1 (Ret y) t21 -> vrun p' t' q t2 r p1' t1' (Ret y') t21' -> y' = y /\ t21' = t21.
  Proof.
    intros H H'. pose proof (replays _ _ _ _ _ _ _ _ _ H _ eq_refl) as E. pose proof (replays _ _ _ _ _ _ _ _ _ H' _ eq_refl) as E'.
    rewrite E in E'. injection E' as -> ->. auto.
  Qed.

  (** Tapes of 128-bit blocks. *)
  Definition small1 (x : N * T) : Prop := (fst x < 2^128)%N.
  Definition small (t : tape T) : Prop := forall n, small1 (t n).
  Lemma small_drop n t : small t -> small (tape_drop n t).
  Proof. intros H i. rewrite tape_drop_at. apply H. Qed.
  Lemma small_front n t : small t -> Forall small1 (front n t).
  Proof.
    revert t. induction n as [|n IH]; intros t H; cbn [front]; constructor; [apply H|]. apply IH. intro i. apply (H (S i)).
  Qed.
  Lemma small_glue seg s : Forall small1 seg -> small s -> small (glue seg s).
  Proof.
    induction seg as [|x seg IH]; intros H Hs; [exact Hs|]. inversion H. intros [|n]; cbn; [assumption|]. now apply IH.
  Qed.

  (** ** Two worlds: [p] in the first; in the second any [p'] with [A i p'], for
      any index [i]. The run of the first world may also have no chance to end
      well. *)
  Definition K {I RA RB} (badA : RA -> Prop) (badB : RB -> Prop) (t t2 : tape T) (p : proc T RA) (A : I -> proc T RA -> Prop) (q : proc T RB)
      (R : RA -> RB -> Prop) (Q : I -> RA -> RA -> RB -> Prop) : Prop :=
    small t ->
    (exists r p1 t1 q1 t21, vrun p t q t2 r p1 t1 q1 t21 /\ (doomed badA p1 \/ doomed badB q1)) \/
    exists r x t1 y t21, vrun p t q t2 r (Ret x) t1 (Ret y) t21 /\ small t1 /\ R x y /\
      forall i p', A i p' -> exists seg x', Forall small1 seg /\ (forall s, vrun p' (glue seg s) q t2 r (Ret x') s (Ret y) t21) /\ Q i x x' y.

  Section Logic.
    Context {I RA RB : Type}.
    Variables (badA : RA -> Prop) (badB : RB -> Prop).
    Implicit Types (A : I -> proc T RA -> Prop) (R : RA -> RB -> Prop) (Q : I -> RA -> RA -> RB -> Prop).
    Notation KK := (K badA badB).
    Lemma K_doomed_a t t2 p A q R Q : doomed badA p -> KK t t2 p A q R Q.
    Proof. intros H _. left. exists [], p, t, q, t2. split; [constructor|auto]. Qed.
    Lemma K_doomed_b t t2 p A q R Q : doomed badB q -> KK t t2 p A q R Q.
    Proof. intros H _. left. exists [], p, t, q, t2. split; [constructor|auto]. Qed.
    Lemma K_ret t t2 x A y R Q : R x y -> (forall i p', A i p' -> exists x', p' = Ret x' /\ Q i x x' y) -> KK t t2 (Ret x) A (Ret y) R Q.
    Proof.
      intros H0 H Ht. right. exists [], x, t, y, t2. split; [constructor|]. split; [exact Ht|]. split; [exact H0|]. intros i p' Hp.
      destruct (H i p' Hp) as (x' & -> & HQ). exists [], x'. split; [constructor|]. split; [intro s; constructor|exact HQ].
    Qed.
    Lemma K_conv t t2 p p2 A A2 q q2 R Q : p = p2 -> q = q2 -> (forall i p', A i p' -> A2 i p') -> KK t t2 p2 A2 q2 R Q -> KK t t2 p A q R Q.
    Proof.
      intros -> -> H HK Ht. destruct (HK Ht) as [HF|(r & x & t1 & y & t21 & H1 & S1 & HQ & H2)]; [left; exact HF|].
      right. exists r, x, t1, y, t21. auto 10.
    Qed.
    Lemma K_weaken t t2 p A q R Q R' Q' : KK t t2 p A q R Q -> (forall x y, R x y -> R' x y) -> (forall i x x' y, R x y -> Q i x x' y -> Q' i x x' y) -> KK t t2 p A q R' Q'.
    Proof.
      intros HK H0 H Ht. destruct (HK Ht) as [HF|(r & x & t1 & y & t21 & H1 & S1 & HQ & H2)]; [left; exact HF|].
      right. exists r, x, t1, y, t21. split; [exact H1|]. split; [exact S1|]. split; [auto|]. intros i p' Hp.
      destruct (H2 i p' Hp) as (seg & x' & S2 & H3 & H4). eauto 10.
    Qed.
    Lemma K_step t t2 p A q R Q r p1 t1 A1 q1 t21 :
      vrun p t q t2 r p1 t1 q1 t21 -> (small t -> small t1) ->
      (forall i p', A i p' -> exists seg p1', (small t -> Forall small1 seg) /\ (forall s, vrun p' (glue seg s) q t2 r p1' s q1 t21) /\ A1 i p1') ->
      KK t1 t21 p1 A1 q1 R Q -> KK t t2 p A q R Q.
    Proof.
      intros H1 S1 H2 HK Ht.
      destruct (HK (S1 Ht)) as [(r2 & p2 & t3 & q2 & t4 & H3 & HF)|(r2 & x & t3 & y & t4 & H3 & S3 & HQ & H4)].
      - left. exists (r ++ r2), p2, t3, q2, t4. split; [eapply vrun_trans; eassumption|exact HF].
      - right. exists (r ++ r2), x, t3, y, t4. split; [eapply vrun_trans; eassumption|].
        split; [exact S3|]. split; [exact HQ|]. intros i p' Hp. destruct (H2 i p' Hp) as (seg & p1' & S4 & H5 & Hp1).
        destruct (H4 i p1' Hp1) as (seg2 & x' & S5 & H6 & H7). exists (seg ++ seg2), x'. split; [apply Forall_app; auto|]. split; [|exact H7].
        intro s. rewrite glue_app. eapply vrun_trans; [apply H5|apply H6].
    Qed.
    (** A step without random choices of the first party. *)
    Lemma K_same t t2 p A q R Q r p1 A1 q1 t21 :
      vrun p t q t2 r p1 t q1 t21 -> (forall i p', A i p' -> exists p1', (forall s, vrun p' s q t2 r p1' s q1 t21) /\ A1 i p1') ->
      KK t t21 p1 A1 q1 R Q -> KK t t2 p A q R Q.
    Proof.
      intros H1 H2. apply (K_step t t2 p A q R Q r p1 t A1 q1 t21 H1); [auto|]. intros i p' Hp. destruct (H2 i p' Hp) as (p1' & H3 & H4).
      exists [], p1'. split; [constructor|]. split; [exact H3|exact H4].
    Qed.
    (** A step with the same [n] random choices of the first party. *)
    Lemma K_front n t t2 p A q R Q r p1 A1 q1 t21 :
      vrun p t q t2 r p1 (tape_drop n t) q1 t21 -> (forall i p', A i p' -> exists p1', (forall s, vrun p' (glue (front n t) s) q t2 r p1' s q1 t21) /\ A1 i p1') ->
      KK (tape_drop n t) t21 p1 A1 q1 R Q -> KK t t2 p A q R Q.
    Proof.
      intros H1 H2. apply (K_step t t2 p A q R Q r p1 _ A1 q1 t21 H1); auto using small_drop. intros i p' Hp. destruct (H2 i p' Hp) as (p1' & H3 & H4).
      exists (front n t), p1'. split; [apply small_front|]. split; [exact H3|exact H4].
    Qed.

    Lemma K_final t t2 p A q R Q x y log :
      small t -> KK t t2 p A q R Q -> completes p t (watch q []) t2 x (y, log) -> ~ badA x -> ~ badB y ->
      R x y /\ forall i p', A i p' -> exists seg x', Forall small1 seg /\ (forall s, completes p' (glue seg s) (watch q []) t2 x' (y, log)) /\ Q i x x' y.
    Proof.
      intros Ht HK HC Nx Ny.
      destruct (HK Ht) as [(r & p1 & t1 & q1 & t21 & H1 & HF)|(r & x0 & t1 & y0 & t21 & H1 & S1 & HQ & H2)].
      - exfalso. pose proof (vrun_watch _ _ _ _ _ _ _ _ _ [] H1) as HJ. cbn [app] in HJ.
        pose proof (completes_after _ _ _ _ _ _ _ _ _ _ HC HJ) as HC'. apply completes_possible in HC'. destruct HC' as [PA PB].
        apply possible_watch in PB. cbn in PB. destruct HF as [HF|HF]; auto.
      - destruct (completes_unique _ _ _ _ _ _ _ _ HC (vrun_completes _ _ _ _ _ _ _ _ _ H1)) as [E1 E2]. subst x0. injection E2 as <- <-.
        split; [exact HQ|]. intros i p' Hp. destruct (H2 i p' Hp) as (seg & x' & S2 & H3 & H4). exists seg, x'. split; [exact S2|]. split; [|exact H4].
        intro s. eapply vrun_completes. apply H3.
    Qed.
  End Logic.

  (** The alternatives of the whole may be alternatives of the first part that
      depend on its result in the first world. *)
  Lemma K_bind {I1 I RA RB RA' RB'} (badA : RA -> Prop) (badB : RB -> Prop) (badA' : RA' -> Prop) (badB' : RB' -> Prop) t t2
      p (A1 : I1 -> proc T RA -> Prop) q R Q (f : RA -> proc T RA') (g : RB -> proc T RB') (A : I -> proc T RA' -> Prop) R' Q' :
    K badA badB t t2 p A1 q R Q -> (forall x, badA x -> doomed badA' (f x)) -> (forall y, badB y -> doomed badB' (g y)) ->
    (forall t1 t21 x y, small t1 -> R x y -> exists A2, K badA' badB' t1 t21 (f x) A2 (g y) R' Q' /\
       forall i p', A i p' -> exists i1 p1 f', p' = pbind p1 f' /\ A1 i1 p1 /\ forall x', Q i1 x x' y -> A2 i (f' x')) ->
    K badA' badB' t t2 (pbind p f) A (pbind q g) R' Q'.
  Proof.
    intros HK HA HB Hk Ht.
    destruct (HK Ht) as [(r & p1 & t1 & q1 & t21 & H1 & HF)|(r & x & t1 & y & t21 & H1 & S1 & HQ & H2)].
    - left. exists r, (pbind p1 f), t1, (pbind q1 g), t21. split; [exact (vrun_bind f g _ _ _ _ _ _ _ _ _ H1)|].
      destruct HF as [HF|HF]; [left|right]; eapply doomed_bind; eauto.
    - destruct (Hk t1 t21 x y S1 HQ) as (A2 & HK2 & HA2). revert Ht.
      apply (K_step badA' badB' t t2 _ _ _ _ _ r (f x) t1 A2 (g y) t21); auto.
      + exact (vrun_bind f g _ _ _ _ _ _ _ _ _ H1).
      + intros i p' Hp. destruct (HA2 i p' Hp) as (i1 & p1 & f' & -> & Hp1 & Hx). destruct (H2 i1 p1 Hp1) as (seg & x' & S2 & H3 & H4).
        exists seg, (f' x'). split; [auto|]. split; [|auto]. intro s. exact (vrun_bind f' g _ _ _ _ _ _ _ _ _ (H3 s)).
  Qed.
End P.
