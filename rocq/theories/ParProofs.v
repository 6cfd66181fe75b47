(** Parallel loops whose iterations write different cells. *)
From Verif Require Import Base BaseFacts ListFacts ParModel ParSpec.
From Coq Require Import Permutation.
Local Open Scope Z_scope.

Section Proofs.
  Context {C V : Type}.
  Variable same : forall c d : C, {c = d} + {c <> d}.
  Variable allocated : C -> bool.
  Notation store := (store same).
  Notation thread := (thread C V).

  (** Weakest precondition of a thread that runs alone; [Q] gets the blocks drawn. *)
  Fixpoint wp (p : thread) (Q : list N -> (C -> V) -> Prop) (m : C -> V) : Prop :=
    match p with
    | Stop => Q [] m
    | Get c k => allocated c = true /\ wp (k (m c)) Q m
    | Put c v k => allocated c = true /\ wp k Q (store m c v)
    | Draw k => forall x, wp (k x) (fun ds => Q (x :: ds)) m
    | Crash _ => False
    end.

  (** Reads only cells in [R] or [W], writes only those in [W]. *)
  Fixpoint obeys (R W : C -> Prop) (p : thread) : Prop :=
    match p with
    | Get c k => (R c \/ W c) /\ forall v, obeys R W (k v)
    | Put c v k => W c /\ obeys R W k
    | Draw k => forall x, obeys R W (k x)
    | _ => True
    end.

  Definition equal_on (X : C -> Prop) (m m' : C -> V) : Prop := forall c, X c -> m c = m' c.

  Lemma store_eq (m : C -> V) c (v : V) : store m c v c = v.
  Proof. unfold ParModel.store. destruct (same c c); congruence. Qed.
  Lemma store_neq (m : C -> V) c (v : V) d : c <> d -> store m c v d = m d.
  Proof. unfold ParModel.store. destruct (same c d); congruence. Qed.

  Lemma wp_mono p : forall (Q Q' : list N -> (C -> V) -> Prop) m, (forall ds m, Q ds m -> Q' ds m) -> wp p Q m -> wp p Q' m.
  Proof.
    induction p; cbn; intros Q Q' m HQ H0; try contradiction.
    - auto.
    - destruct H0. split; eauto.
    - destruct H0. split; eauto.
    - intro x. eapply H; [|apply H0]. cbn. auto.
  Qed.

  (** Other threads may change cells outside [X]. *)
  Lemma wp_equal (X R W : C -> Prop) p : (forall c, R c -> X c) -> (forall c, W c -> X c) ->
    forall (Q : list N -> (C -> V) -> Prop) m m', obeys R W p -> equal_on X m m' ->
    (forall ds a b, equal_on X a b -> Q ds a -> Q ds b) -> wp p Q m -> wp p Q m'.
  Proof.
    intros HR HW. induction p; cbn; intros Q m m' Ho He HQ H0; try contradiction.
    - eauto.
    - destruct H0, Ho as [Hc Hk]. split; [auto|]. rewrite <- (He c); [|destruct Hc; auto]. eauto.
    - destruct H0, Ho as [Hc Hk]. split; [auto|]. eapply IHp; eauto. intros d Hd. unfold ParModel.store. destruct (same c d); auto.
    - intro x. apply (H x _ m); auto. intros ds a b Hab. apply HQ. exact Hab.
  Qed.

  (** What a thread does not write stays. *)
  Lemma wp_frame (R W : C -> Prop) p : forall (Q : list N -> (C -> V) -> Prop) m, obeys R W p -> wp p Q m ->
    wp p (fun ds m' => Q ds m' /\ equal_on (fun c => ~ W c) m m') m.
  Proof.
    induction p; cbn; intros Q m Ho H0; try contradiction.
    - split; [auto|]. intros d _. reflexivity.
    - destruct H0, Ho. split; auto.
    - destruct H0 as [? H0], Ho. split; [auto|]. apply IHp in H0; [|auto]. eapply wp_mono; [|exact H0]. cbn.
      intros ds m' [Ha Hb]. split; [auto|]. intros d Hd. rewrite <- (Hb d Hd). symmetry. apply store_neq. intros ->. auto.
    - intro x. now apply H.
  Qed.

  Lemma wp_then p : forall q (Q : list N -> (C -> V) -> Prop) m,
    wp p (fun ds m => wp q (fun ds' => Q (ds ++ ds')) m) m -> wp (then_do p q) Q m.
  Proof.
    induction p; cbn; intros q Q m H0; try contradiction.
    - auto.
    - destruct H0. auto.
    - destruct H0. auto.
    - intro x. apply H. apply H0.
  Qed.
  Lemma obeys_then R W p q : obeys R W p -> obeys R W q -> obeys R W (then_do p q).
  Proof. clear same allocated. induction p; cbn; intros; try tauto; intuition. Qed.
  Lemma obeys_weaken (R W R' W' : C -> Prop) p : (forall c, R c \/ W c -> R' c \/ W' c) -> (forall c, W c -> W' c) -> obeys R W p -> obeys R' W' p.
  Proof. clear same allocated. intros HR HW. induction p; cbn; intuition. Qed.
  Lemma obeys_mono (R W R' W' : C -> Prop) p : (forall c, R c -> R' c) -> (forall c, W c -> W' c) -> obeys R W p -> obeys R' W' p.
  Proof. clear same allocated. intros HR HW. induction p; cbn; intuition. Qed.

  (** ** Steps of many threads *)
  Variable tape : nat -> N.
  Notation go := (go same allocated tape).
  Notation goes := (goes same allocated tape).

  Fixpoint add_at (l : list (list N)) (t : nat) (x : N) : list (list N) :=
    match l, t with
    | [], _ => []
    | d :: l', O => (d ++ [x]) :: l'
    | d :: l', Datatypes.S t' => d :: add_at l' t' x
    end.
  Lemma add_at_length l t x : List.length (add_at l t x) = List.length l.
  Proof. revert t. induction l; intros [|t]; cbn; auto. Qed.
  Lemma add_at_perm l : forall t x, (t < List.length l)%nat -> Permutation (List.concat (add_at l t x)) (List.concat l ++ [x]).
  Proof.
    induction l as [|d l IH]; intros [|t] x H; cbn in *; try lia.
    - rewrite <- !app_assoc. apply Permutation_app_head. apply Permutation_app_comm.
    - rewrite <- app_assoc. apply Permutation_app_head. apply IH. lia.
  Qed.
  Lemma add_at_same l : forall t x d, nth_error l t = Some d -> nth_error (add_at l t x) t = Some (d ++ [x]).
  Proof. induction l; intros [|t] x d H; cbn in *; try discriminate; auto. congruence. Qed.
  Lemma add_at_other l : forall t t' x, t <> t' -> nth_error (add_at l t x) t' = nth_error l t'.
  Proof. induction l; intros [|t] [|t'] x H; cbn in *; auto; congruence. Qed.

  Lemma list_set_same {A} (l : list A) : forall t a b, nth_error l t = Some b -> nth_error (list_set l t a) t = Some a.
  Proof. induction l; intros [|t] x y H; cbn in *; try discriminate; eauto. Qed.
  Lemma list_set_other {A} (l : list A) : forall t t' a, t <> t' -> nth_error (list_set l t a) t' = nth_error l t'.
  Proof. induction l; intros [|t] [|t'] x H; cbn in *; auto; congruence. Qed.
  Lemma list_set_len {A} (l : list A) : forall t a, List.length (list_set l t a) = List.length l.
  Proof. induction l; intros [|t] x; cbn; auto. Qed.

  (** [W t]: the cells of thread [t]; [R]: cells that nobody writes. *)
  Variable R : C -> Prop.
  Variable W : nat -> C -> Prop.
  Hypothesis W_disjoint : forall t t' c, t <> t' -> W t c -> ~ W t' c.
  Hypothesis R_W : forall t c, R c -> ~ W t c.
  Let X t c := R c \/ W t c.
  Variable Q : nat -> list N -> (C -> V) -> Prop.
  Hypothesis Q_equal : forall t ds a b, equal_on (X t) a b -> Q t ds a -> Q t ds b.
  Variable m0 : C -> V.

  Definition invariant (dss : list (list N)) (s : shared C V) : Prop :=
    List.length dss = List.length (sh_threads s) /\
    Permutation (List.concat dss) (map tape (seq 0 (sh_drawn s))) /\
    equal_on (fun c => forall t, (t < List.length dss)%nat -> ~ W t c) m0 (sh_memory s) /\
    forall t p ds, nth_error (sh_threads s) t = Some p -> nth_error dss t = Some ds ->
      obeys R (W t) p /\ wp p (fun ds' => Q t (ds ++ ds')) (sh_memory s).

  Lemma lt_nth {A} (l : list A) t a : nth_error l t = Some a -> (t < List.length l)%nat.
  Proof. intro H. apply nth_error_Some. congruence. Qed.

  Lemma invariant_step dss s s' : invariant dss s -> go s s' -> exists dss', invariant dss' s'.
  Proof.
    intros (Hl & Hp & Hm & Hi) H. inversion H as [m n l t c k Ht Hc|m n l t c v k Ht Hc|m n l t k Ht]; subst; cbn in *.
    - exists dss. split; [cbn; now rewrite list_set_len|]. split; [exact Hp|]. split; [exact Hm|]. cbn. intros t' p ds H1 H2.
      destruct (Nat.eq_dec t t') as [<-|Hn].
      + erewrite list_set_same in H1 by eauto. injection H1 as <-. destruct (Hi _ _ _ Ht H2) as [Ho [_ Hw]]. split; [apply Ho|exact Hw].
      + rewrite list_set_other in H1 by auto. eauto.
    - exists dss. split; [cbn; now rewrite list_set_len|]. split; [exact Hp|]. cbn.
      destruct (nth_error dss t) as [dt|] eqn:Ed; [|apply nth_error_None in Ed; apply lt_nth in Ht; lia].
      destruct (Hi _ _ _ Ht Ed) as [[Hwc Ho] [_ Hw]]. split.
      { intros d Hd. rewrite store_neq; [apply Hm; exact Hd|]. intros ->. apply (Hd t); auto. apply lt_nth in Ed. exact Ed. }
      intros t' p ds H1 H2. destruct (Nat.eq_dec t t') as [<-|Hn].
      + erewrite list_set_same in H1 by eauto. injection H1 as <-. rewrite Ed in H2. injection H2 as <-. auto.
      + rewrite list_set_other in H1 by auto. destruct (Hi _ _ _ H1 H2) as [Ho' Hw']. split; [exact Ho'|].
        eapply (wp_equal (X t') R (W t')); [| |exact Ho'| | |exact Hw']; unfold X; auto.
        * intros d Hd. symmetry. apply store_neq. intros ->. destruct Hd as [Hd|Hd]; [now apply (R_W t) in Hd|]. now apply (W_disjoint t t') in Hwc.
        * intros ds' a b He. apply Q_equal. exact He.
    - destruct (nth_error dss t) as [dt|] eqn:Ed; [|apply nth_error_None in Ed; apply lt_nth in Ht; lia].
      destruct (Hi _ _ _ Ht Ed) as [Ho Hw]. exists (add_at dss t (tape n)). split; [cbn; now rewrite list_set_len, add_at_length|].
      split. { cbn [sh_drawn]. rewrite seq_S, map_app. cbn. rewrite add_at_perm by (apply lt_nth in Ed; exact Ed). now apply Permutation_app_tail. }
      split. { rewrite add_at_length. exact Hm. }
      cbn. intros t' p ds H1 H2. destruct (Nat.eq_dec t t') as [<-|Hn].
      + erewrite list_set_same in H1 by eauto. injection H1 as <-. erewrite add_at_same in H2 by eauto. injection H2 as <-.
        split; [apply Ho|]. eapply wp_mono; [|apply Hw]. cbn. intros ds' m' Hq. now rewrite <- app_assoc.
      + rewrite list_set_other in H1 by auto. rewrite add_at_other in H2 by auto. eauto.
  Qed.

  Lemma invariant_goes dss s s' : goes s s' -> invariant dss s -> exists dss', invariant dss' s'.
  Proof. intro H. revert dss. induction H as [|s1 s2 s3 H1 IH H2]; intros dss Hi; [eauto|]. destruct (IH _ Hi) as [d' Hd']. eapply invariant_step; eauto. Qed.

  (** Every execution is finite. *)
  Definition sub (q p : thread) : Prop :=
    match p with
    | Get _ k => exists v, q = k v
    | Put _ _ k => q = k
    | Draw k => exists x, q = k x
    | _ => False
    end.
  Lemma sub_wf : forall p, Acc (fun q p => sub q p) p.
  Proof.
    induction p; constructor; cbn; intros q Hq; try contradiction.
    - destruct Hq as [v ->]. apply H.
    - subst q. exact IHp.
    - destruct Hq as [x ->]. apply H.
  Qed.
  Definition below (l' l : list thread) : Prop :=
    exists t p q, nth_error l t = Some p /\ sub q p /\ l' = list_set l t q.
  Lemma below_wf l : Acc below l.
  Proof.
    induction l as [|p l IH].
    - constructor. intros l' (t & p & q & H & _). destruct t; discriminate.
    - revert l IH. induction (sub_wf p) as [p _ IHp]. intros l Hl. induction Hl as [l Hl IHl].
      constructor. intros l' (t & p' & q & H & Hs & ->). destruct t as [|t]; cbn in *.
      + injection H as <-. apply IHp; auto. constructor. exact Hl.
      + apply IHl. exists t, p', q. auto.
  Qed.
  Lemma go_below s s' : go s s' -> below (sh_threads s') (sh_threads s).
  Proof. intro H. inversion H; subst; cbn; unfold below; do 3 eexists; split; eauto; cbn; eauto. Qed.
  Lemma finite (f : nat -> shared C V) : ~ forall n, go (f n) (f (Datatypes.S n)).
  Proof.
    intro H. assert (Hn : forall l, Acc below l -> forall n, sh_threads (f n) <> l).
    { intros l Ha. induction Ha as [l _ IH]. intros n E. eapply (IH (sh_threads (f (Datatypes.S n)))); [|reflexivity].
      subst l. apply go_below, H. }
    apply (Hn _ (below_wf (sh_threads (f O))) O). reflexivity.
  Qed.

  Lemma every_thread (threads : list thread) :
    (forall t p, nth_error threads t = Some p -> obeys R (W t) p /\ wp p (Q t) m0) ->
    every_schedule same allocated tape m0 threads (fun m drawn =>
      exists dss, List.length dss = List.length threads /\ Permutation (List.concat dss) drawn /\
        (forall t ds, nth_error dss t = Some ds -> Q t ds m) /\
        equal_on (fun c => forall t, (t < List.length threads)%nat -> ~ W t c) m0 m).
  Proof.
    intro Hth. assert (Hi : exists dss, invariant dss (Shared m0 0 threads)).
    { exists (map (fun _ => []) threads). split; [cbn; now rewrite map_length|]. split.
      - cbn. replace (List.concat (map (fun _ => []) threads)) with (@nil N); [auto|]. clear Hth. induction threads; cbn; auto.
      - split; [intros c _; reflexivity|]. cbn. intros t p ds H1 H2. rewrite nth_error_map, H1 in H2. injection H2 as <-. apply Hth. exact H1. }
    destruct Hi as [d0 Hi]. assert (Hlen : forall s, goes (Shared m0 0 threads) s -> List.length (sh_threads s) = List.length threads).
    { intros s H. remember (Shared m0 0 threads) as s0. induction H as [|s1 s2 s3 H1 IH H2]; [now subst|]. rewrite <- IH by auto.
      inversion H2; subst; cbn; now rewrite list_set_len. }
    split; [intros f _; apply finite|]. split.
    - intros s Hs (t & t' & p & p' & c & Hn & H1 & H2 & Hw & Ha). destruct (invariant_goes _ _ _ Hs Hi) as (dss & Hl & _ & _ & Hd).
      destruct (nth_error dss t) as [dt|] eqn:Ed; [|apply nth_error_None in Ed; apply lt_nth in H1; lia].
      destruct (nth_error dss t') as [dt'|] eqn:Ed'; [|apply nth_error_None in Ed'; apply lt_nth in H2; lia].
      destruct (Hd _ _ _ H1 Ed) as [Ho _]. destruct (Hd _ _ _ H2 Ed') as [Ho' _].
      destruct p; cbn in Hw; try contradiction. subst. destruct Ho as [Ho _].
      destruct p'; cbn in Ha; try contradiction; subst; destruct Ho' as [Ho' _].
      + destruct Ho' as [Ho'|Ho']; [now apply (R_W t) in Ho'|]. now apply (W_disjoint t t') in Ho.
      + now apply (W_disjoint t t') in Ho.
    - intros s Hs Hstuck. destruct (invariant_goes _ _ _ Hs Hi) as (dss & Hl & Hp & Hm & Hd). specialize (Hlen s Hs).
      assert (Hstop : forall t p, nth_error (sh_threads s) t = Some p -> p = Stop).
      { intros t p H1. destruct (nth_error dss t) as [dt|] eqn:Ed; [|apply nth_error_None in Ed; apply lt_nth in H1; lia].
        destruct (Hd _ _ _ H1 Ed) as [_ Hw]. destruct s as [m n l]. cbn in *. destruct p; cbn in Hw; [reflexivity| | | |contradiction]; exfalso; eapply Hstuck.
        - eapply go_get; [exact H1|tauto].
        - eapply go_put; [exact H1|tauto].
        - eapply go_draw; exact H1. }
      split. { apply Forall_forall. intros p Hin. apply In_nth_error in Hin. destruct Hin as [t Ht]. eauto. }
      exists dss. split; [lia|]. split; [exact Hp|]. split.
      + intros t ds H2. destruct (nth_error (sh_threads s) t) as [p|] eqn:E1; [|apply nth_error_None in E1; apply lt_nth in H2; lia].
        pose proof (Hstop _ _ E1) as ->. destruct (Hd _ _ _ E1 H2) as [_ Hw]. cbn in Hw. now rewrite app_nil_r in Hw.
      + rewrite <- Hlen, <- Hl. exact Hm.
  Qed.
End Proofs.

(** ** Lists *)
Lemma nodup_right {A} (l l' : list A) : NoDup (l ++ l') -> NoDup l'.
Proof. induction l; cbn; auto. intro H. inversion H; auto. Qed.
Lemma nodup_left {A} (l l' : list A) : NoDup (l ++ l') -> NoDup l.
Proof. induction l; cbn; intro H; constructor; inversion H; subst; auto. rewrite in_app_iff in *. tauto. Qed.
Lemma length_zrange lo hi : List.length (zrange lo hi) = Z.to_nat (hi - lo).
Proof. unfold zrange. apply zseq_length. Qed.
Lemma nth_error_zrange lo hi t z : nth_error (zrange lo hi) t = Some z -> z = lo + Z.of_nat t /\ (t < Z.to_nat (hi - lo))%nat.
Proof.
  intro H. assert (Ht : (t < Z.to_nat (hi - lo))%nat) by (rewrite <- length_zrange; apply nth_error_Some; congruence). split; [|exact Ht].
  pose proof (znth_zrange 0 lo hi (Z.of_nat t) ltac:(lia)) as E. unfold znth in E. replace (Z.of_nat t <? 0) with false in E by lia.
  rewrite Nat2Z.id in E. erewrite nth_error_nth in E by eauto. exact E.
Qed.
Lemma forall2_mono {A B} (P Q : A -> B -> Prop) l l' : (forall a b, In a l -> P a b -> Q a b) -> Forall2 P l l' -> Forall2 Q l l'.
Proof. intros H HF. induction HF; constructor; [apply H; [now left|auto]|]. apply IHHF. intros. apply H; auto. now right. Qed.
Lemma permute_forall2 {A B} (P : A -> list B -> Prop) l l' : Permutation l l' -> forall dss, Forall2 P l dss ->
  exists dss', Permutation dss dss' /\ Forall2 P l' dss'.
Proof.
  induction 1; intros dss HF.
  - inversion HF; subst. exists []. auto.
  - inversion HF; subst. destruct (IHPermutation _ H4) as (d' & Hp & Hd). eauto.
  - inversion HF; subst. inversion H3; subst. eexists. split; [apply perm_swap|]. auto.
  - destruct (IHPermutation1 _ HF) as (d1 & Hp1 & H1). destruct (IHPermutation2 _ H1) as (d2 & Hp2 & H2).
    exists d2. split; [eapply Permutation_trans; eauto|auto].
Qed.
Lemma permutation_concat {A} (l l' : list (list A)) : Permutation l l' -> Permutation (List.concat l) (List.concat l').
Proof.
  induction 1; cbn; auto.
  - now apply Permutation_app_head.
  - rewrite !app_assoc. apply Permutation_app_tail. apply Permutation_app_comm.
  - eapply Permutation_trans; eauto.
Qed.
Lemma forall2_length {A B} (P : A -> B -> Prop) l l' : Forall2 P l l' -> List.length l = List.length l'.
Proof. induction 1; cbn; auto. Qed.
Lemma forall2_range {B} (d : B) (P : Z -> B -> Prop) n l : 0 <= n -> Forall2 P (zrange 0 n) l ->
  zlen l = n /\ forall i, 0 <= i < n -> P i (znth d l i).
Proof.
  intros Hn HF. assert (Hl : zlen l = n). { pose proof (forall2_length _ _ _ HF) as H. rewrite length_zrange in H. unfold zlen. lia. }
  split; [exact Hl|]. intros i Hi.
  assert (H : forall k l lo, Forall2 P (zseq lo k) l -> forall j, (j < k)%nat -> P (lo + Z.of_nat j) (nth j l d)).
  { clear. intros k. induction k; intros l lo H j Hj; [lia|]. cbn in H. inversion H; subst. destruct j; cbn.
    - now replace (lo + Z.of_nat 0) with lo by lia.
    - specialize (IHk _ _ H4 j ltac:(lia)). now replace (lo + Z.of_nat (S j)) with (lo + 1 + Z.of_nat j) by lia. }
  unfold zrange in HF. specialize (H _ _ _ HF (Z.to_nat i) ltac:(lia)). unfold znth. replace (i <? 0) with false by lia.
  now replace (0 + Z.of_nat (Z.to_nat i)) with i in H by lia.
Qed.

(** ** Parallel loops *)
Section Loop.
  Context {C V : Type}.
  Variable same : forall c d : C, {c = d} + {c <> d}.
  Variable allocated : C -> bool.
  Variable tape : nat -> N.
  (** Cells of an iteration, cells of a thread, and cells nobody writes. *)
  Variable of_iteration : Z -> C -> Prop.
  Variable of_thread : Z -> C -> Prop.
  Variable fixed : C -> Prop.
  Hypothesis iterations_disjoint : forall i j c, i <> j -> of_iteration i c -> ~ of_iteration j c.
  Hypothesis threads_disjoint : forall t t' c, t <> t' -> of_thread t c -> ~ of_thread t' c.
  Hypothesis iteration_thread : forall i t c, of_iteration i c -> ~ of_thread t c.
  Hypothesis fixed_iteration : forall i c, fixed c -> ~ of_iteration i c.
  Hypothesis fixed_thread : forall t c, fixed c -> ~ of_thread t c.
  Variable m0 : C -> V.
  Variable n : Z.
  Variable prologue : Z -> thread C V.
  Variable body : Z -> Z -> thread C V.
  Variable ready : Z -> (C -> V) -> Prop.
  Variable post : Z -> list N -> (C -> V) -> Prop.
  Hypothesis prologue_obeys : forall t, obeys fixed (of_thread t) (prologue t).
  Hypothesis prologue_wp : forall t m, wp same allocated (prologue t) (fun ds m' => ds = [] /\ ready t m') m.
  Hypothesis body_obeys : forall t i, 0 <= i < n -> obeys fixed (fun c => of_thread t c \/ of_iteration i c) (body t i).
  Hypothesis ready_equal : forall t a b, equal_on (of_thread t) a b -> ready t a -> ready t b.
  Hypothesis post_equal : forall i ds a b, equal_on (of_iteration i) a b -> post i ds a -> post i ds b.
  Hypothesis body_wp : forall t i m, 0 <= i < n -> ready t m -> equal_on (fun c => fixed c \/ of_iteration i c) m0 m ->
    wp same allocated (body t i) (fun ds m' => post i ds m' /\ ready t m') m.

  (** The iterations of one thread. *)
  Definition all_post (l : list Z) (ds : list N) (m : C -> V) : Prop :=
    exists dss, ds = List.concat dss /\ Forall2 (fun i d => post i d m) l dss.

  Definition of_part (l : list Z) (c : C) : Prop := exists i, In i l /\ of_iteration i c.

  Lemma iterations_obey t l : Forall (fun i => 0 <= i < n) l ->
    obeys fixed (fun c => of_thread t c \/ of_part l c) (iterations (body t) l).
  Proof.
    induction l as [|j l IH]; cbn; auto. intro H. inversion H; subst. apply obeys_then.
    - eapply obeys_mono; [| |apply body_obeys; auto]; auto. intros c [Hc|Hc]; [auto|]. right. exists j. cbn. auto.
    - eapply obeys_mono; [| |apply IH; auto]; auto. intros c [Hc|(k & Hk & Hc)]; [auto|]. right. exists k. cbn. auto.
  Qed.

  Lemma iterations_wp t l : NoDup l -> Forall (fun i => 0 <= i < n) l ->
    forall m, ready t m -> equal_on (fun c => fixed c \/ of_part l c) m0 m ->
    wp same allocated (iterations (body t) l) (all_post l) m.
  Proof.
    induction l as [|i l IH]; intros Hn Hr m Ht He; cbn.
    - exists []. auto.
    - inversion Hn; subst. inversion Hr; subst. apply wp_then.
      assert (Hb : wp same allocated (body t i) (fun ds m' => post i ds m' /\ ready t m') m).
      { apply body_wp; auto. intros c [Hc|Hc]; apply He; [auto|]. right. exists i. cbn. auto. }
      apply (wp_frame same allocated _ _ _ _ _ (body_obeys t i ltac:(auto))) in Hb.
      eapply wp_mono; [|exact Hb]. cbn. intros d m1 [[Hp Hready] He1].
      assert (Hl := iterations_obey t l ltac:(auto)).
      assert (Hw : wp same allocated (iterations (body t) l) (all_post l) m1).
      { apply IH; auto. intros c Hc. rewrite <- He1.
        + apply He. destruct Hc as [Hc|(j & Hj & Hc)]; [auto|]. right. exists j. cbn. auto.
        + intros [Hi|Hi].
          * destruct Hc as [Hc|(j & Hj & Hc)]; [now apply (fixed_thread t) in Hc|]. now apply (iteration_thread j t) in Hc.
          * destruct Hc as [Hc|(j & Hj & Hc)]; [now apply (fixed_iteration i) in Hc|].
            apply (iterations_disjoint i j) in Hi; [contradiction|]. intros ->. contradiction. }
      apply (wp_frame same allocated _ _ _ _ _ Hl) in Hw. eapply wp_mono; [|exact Hw]. cbn.
      intros ds' m2 [(dss & -> & HF) He2]. exists (d :: dss). split; [reflexivity|]. constructor; [|exact HF].
      eapply post_equal; [|exact Hp]. intros c Hc. apply He2. intros [Hc'|(j & Hj & Hc')].
      { now apply (iteration_thread i t) in Hc. }
      apply (iterations_disjoint i j) in Hc; [contradiction|]. intros ->. contradiction.
  Qed.

  Variable parts : list (list Z).
  Hypothesis n_nonneg : 0 <= n.
  Hypothesis division : parts_of n parts.

  Lemma parts_nodup : NoDup (List.concat parts).
  Proof. apply Permutation_NoDup with (l := zrange 0 n); [now apply Permutation_sym|]. apply zrange_NoDup. Qed.
  Lemma parts_range t l : nth_error parts t = Some l -> NoDup l /\ Forall (fun i => 0 <= i < n) l.
  Proof.
    intro H. apply nth_error_split in H. destruct H as (l1 & l2 & E & _). pose proof parts_nodup as Hn. pose proof division as Hd. unfold parts_of in Hd.
    rewrite E in Hn, Hd. rewrite List.concat_app in Hn, Hd. cbn in Hn, Hd. split.
    - apply nodup_right in Hn. now apply nodup_left in Hn.
    - apply Forall_forall. intros i Hi. apply In_zrange. eapply Permutation_in; [exact Hd|]. rewrite !in_app_iff. auto.
  Qed.
  Lemma parts_distinct t t' l l' i : t <> t' -> nth_error parts t = Some l -> nth_error parts t' = Some l' -> In i l -> ~ In i l'.
  Proof.
    assert (Hlt : forall t t' l l', (t < t')%nat -> nth_error parts t = Some l -> nth_error parts t' = Some l' -> In i l -> ~ In i l').
    { clear t t' l l'. intros t t' l l' Hlt H H' Hi Hi'. apply nth_error_split in H. destruct H as (l1 & l2 & E & El).
      pose proof parts_nodup as Hn. rewrite E in H', Hn. rewrite nth_error_app2 in H' by lia. destruct (t' - List.length l1)%nat as [|k] eqn:Ek; [lia|]. cbn in H'.
      rewrite List.concat_app in Hn. cbn in Hn. apply nodup_right in Hn. apply nth_error_split in H'. destruct H' as (l3 & l4 & E2 & _).
      rewrite E2, List.concat_app in Hn. cbn in Hn. apply in_split in Hi. destruct Hi as (a & b & ->). rewrite <- app_assoc in Hn. cbn in Hn.
      apply NoDup_remove_2 in Hn. apply Hn. rewrite !in_app_iff. auto. }
    intros Hn H H' Hi Hi'. destruct (Nat.lt_gt_cases t t') as [Hc _]. destruct (Hc Hn); [eapply (Hlt t t')|eapply (Hlt t' t)]; eauto.
  Qed.

  Definition cells (t : nat) (c : C) : Prop := of_thread (Z.of_nat t) c \/ of_part (nth t parts []) c.

  Theorem parallel_loop :
    every_schedule same allocated tape m0 (parallel_for prologue body parts) (fun m drawn =>
      (exists dss, zlen dss = n /\ Permutation (List.concat dss) drawn /\ forall i, 0 <= i < n -> post i (znth [] dss i) m) /\
      equal_on fixed m0 m).
  Proof.
    assert (Hlen : List.length (parallel_for prologue body parts) = List.length parts).
    { unfold parallel_for. rewrite map_length, length_zrange. unfold zlen. lia. }
    assert (Hnth : forall t p, nth_error (parallel_for prologue body parts) t = Some p ->
      exists l, nth_error parts t = Some l /\ p = then_do (prologue (Z.of_nat t)) (iterations (body (Z.of_nat t)) l)).
    { intros t p H. unfold parallel_for in H. rewrite nth_error_map in H. destruct (nth_error (zrange 0 (zlen parts)) t) as [z|] eqn:E; [|discriminate].
      apply nth_error_zrange in E. injection H as <-. destruct (nth_error parts t) as [l|] eqn:E2; [|apply nth_error_None in E2; unfold zlen in *; lia].
      exists l. split; [reflexivity|]. replace z with (Z.of_nat t) by lia. unfold znth. replace (Z.of_nat t <? 0) with false by lia.
      rewrite Nat2Z.id. erewrite nth_error_nth by eauto. reflexivity. }
    assert (Hpart : forall t c, of_part (nth t parts []) c -> exists l i, nth_error parts t = Some l /\ In i l /\ of_iteration i c).
    { intros t c (i & Hi & Hc). destruct (nth_error parts t) as [l|] eqn:E.
      - erewrite nth_error_nth in Hi by eauto. eauto.
      - apply nth_error_None in E. rewrite nth_overflow in Hi by lia. contradiction. }
    pose proof (every_thread (V := V) same allocated tape fixed cells) as HE.
    specialize (HE ltac:(
      intros t t' c Hn [Hc|Hc] [Hc'|Hc'];
      [eapply (threads_disjoint (Z.of_nat t) (Z.of_nat t')); eauto; lia
      |destruct Hc' as (i & _ & Hi); eapply iteration_thread; eauto
      |destruct Hc as (i & _ & Hi); eapply iteration_thread; eauto
      |apply Hpart in Hc, Hc'; destruct Hc as (l & i & H1 & H2 & H3), Hc' as (l' & i' & H1' & H2' & H3');
       destruct (Z.eq_dec i i') as [<-|Hi];
       [eapply (parts_distinct t t'); eauto|eapply (iterations_disjoint i i'); eauto]])).
    specialize (HE ltac:(intros t c Hf [Hc|(i & _ & Hc)]; [eapply fixed_thread; eauto|eapply fixed_iteration; eauto])).
    specialize (HE (fun t ds m => all_post (nth t parts []) ds m)).
    specialize (HE ltac:(
      intros t ds a b He (dss & -> & HF); exists dss; split; [reflexivity|];
      eapply forall2_mono; [|exact HF]; cbn; intros i d Hi Hp; eapply post_equal; [|exact Hp];
      intros c Hc; apply He; right; right; exists i; auto)).
    specialize (HE m0 (parallel_for prologue body parts)).
    destruct HE as (H1 & H2 & H3).
    - intros t p Hp. apply Hnth in Hp. destruct Hp as (l & Hl & ->). pose proof (parts_range _ _ Hl) as [Hn Hr].
      assert (El : nth t parts [] = l) by (erewrite nth_error_nth by eauto; reflexivity).
      split.
      + apply obeys_then.
        * eapply obeys_mono; [| |apply prologue_obeys]; auto. intros c Hc. left. exact Hc.
        * eapply obeys_weaken; [| |exact (iterations_obey (Z.of_nat t) l Hr)]; unfold cells; rewrite El; tauto.
      + apply wp_then. pose proof (wp_frame same allocated _ _ _ _ m0 (prologue_obeys (Z.of_nat t)) (prologue_wp (Z.of_nat t) m0)) as Hw.
        eapply wp_mono; [|exact Hw]. cbn. intros ds m [[-> Hr'] He]. cbn. rewrite El. apply iterations_wp; auto.
        intros c Hc. apply He. intro Ht. destruct Hc as [Hc|(i & _ & Hc)]; [eapply fixed_thread; eauto|eapply iteration_thread; eauto].
    - split; [exact H1|]. split; [exact H2|]. intros s Hs Hstuck. destruct (H3 s Hs Hstuck) as (Hstop & dss & Hl & Hp & Hq & He). split; [exact Hstop|].
      rewrite Hlen in Hl. split.
      + (* the draws by iteration *)
        assert (HL : exists all, List.concat dss = List.concat all /\ Forall2 (fun i d => post i d (sh_memory s)) (List.concat parts) all).
        { assert (Hq' : forall t l ds, nth_error parts t = Some l -> nth_error dss t = Some ds -> all_post l ds (sh_memory s)).
          { intros t l ds Ht Hd. specialize (Hq _ _ Hd). cbn in Hq. erewrite nth_error_nth in Hq by eauto. exact Hq. }
          clear - Hl Hq'. revert dss Hl Hq'. induction parts as [|l ps IH]; intros [|ds dss] Hl Hq'; try discriminate.
          - exists []. split; [reflexivity|constructor].
          - destruct (IH dss ltac:(cbn in Hl; lia) (fun t => Hq' (Datatypes.S t))) as (all & E & HF).
            destruct (Hq' O l ds eq_refl eq_refl) as (a & -> & Ha). exists (a ++ all). cbn. rewrite E, List.concat_app. split; [reflexivity|].
            now apply Forall2_app. }
        destruct HL as (all & E & HF). rewrite E in Hp.
        destruct (permute_forall2 _ _ _ division _ HF) as (all' & Ep & HF').
        destruct (forall2_range [] _ n all' n_nonneg HF') as [Hlen' Hpost].
        exists all'. split; [exact Hlen'|]. split; [|exact Hpost].
        eapply Permutation_trans; [|exact Hp]. apply Permutation_sym. now apply permutation_concat.
      + intros c Hc. apply He. intros t Ht [Hc'|(i & _ & Hc')]; [eapply fixed_thread; eauto|eapply fixed_iteration; eauto].
  Qed.
End Loop.
