(** The OpenMP loops of /repo give the result of the sequential model for every
    division among threads and every interleaving. *)
From Verif Require Import Base BaseFacts ListFacts ScalarModel GgmModel GgmSpec RotModel RotProofs SpfssModel SpfssProofs CuckooModel CuckooSpec CuckooProofs
  MpfssModel ProcModel ParModel ParLoops ParSpec ParProofs.
From Coq Require Import Permutation.
Local Open Scope Z_scope.

Lemma every_schedule_mono {C V} same allocated tape (m : C -> V) threads (Q Q' : (C -> V) -> list N -> Prop) :
  (forall m d, Q m d -> Q' m d) -> every_schedule same allocated tape m threads Q -> every_schedule same allocated tape m threads Q'.
Proof. intros H (H1 & H2 & H3). split; [exact H1|]. split; [exact H2|]. intros s Hs Hst. destruct (H3 s Hs Hst). auto. Qed.

Section Wp.
  Context {C V : Type}.
  Variable same : forall c d : C, {c = d} + {c <> d}.
  Variable allocated : C -> bool.

  (** An inner loop, executed by one thread. *)
  Lemma wp_for (f : Z -> thread C V) (Inv : Z -> (C -> V) -> Prop) lo hi : lo <= hi -> forall m, Inv lo m ->
    (forall k m, lo <= k < hi -> Inv k m -> wp same allocated (f k) (fun ds m' => ds = [] /\ Inv (k + 1) m') m) ->
    wp same allocated (iterations f (zrange lo hi)) (fun ds m' => ds = [] /\ Inv hi m') m.
  Proof.
    intro Hlo. remember (Z.to_nat (hi - lo)) as n eqn:En. revert lo Hlo En. induction n as [|n IH]; intros lo Hlo En m Hm Hf.
    - rewrite zrange_nil by lia. cbn. replace hi with lo by lia. auto.
    - rewrite zrange_cons by lia. cbn. apply wp_then. eapply wp_mono; [|apply Hf; [lia|exact Hm]]. cbn. intros ds m' [-> Hm'].
      apply IH; [lia|lia|exact Hm'|]. intros k m2 Hk. apply Hf. lia.
  Qed.
  Lemma obeys_for R W (f : Z -> thread C V) lo hi : (forall k, lo <= k < hi -> obeys R W (f k)) -> obeys R W (iterations f (zrange lo hi)).
  Proof.
    intro H. assert (HF : Forall (fun k => obeys R W (f k)) (zrange lo hi)) by (apply Forall_forall; intros k Hk; apply H; now apply In_zrange in Hk).
    induction HF; cbn; auto. now apply obeys_then.
  Qed.
End Wp.

(** A parallel loop that does not draw. *)
Record independent {C V} same (allocated : C -> bool) (of_iteration of_thread : Z -> C -> Prop) (fixed : C -> Prop) (m0 : C -> V) (n : Z)
    (prologue : Z -> thread C V) (body : Z -> Z -> thread C V) (ready : Z -> (C -> V) -> Prop) (post : Z -> (C -> V) -> Prop) : Prop := {
  in_iterations : forall i j c, i <> j -> of_iteration i c -> ~ of_iteration j c;
  in_threads : forall t t' c, t <> t' -> of_thread t c -> ~ of_thread t' c;
  in_both : forall i t c, of_iteration i c -> ~ of_thread t c;
  in_fixed : forall c, fixed c -> (forall i, ~ of_iteration i c) /\ (forall t, ~ of_thread t c);
  in_prologue : forall t, obeys fixed (of_thread t) (prologue t);
  in_prologue_wp : forall t m, wp same allocated (prologue t) (fun ds m' => ds = [] /\ ready t m') m;
  in_body : forall t i, 0 <= i < n -> obeys fixed (fun c => of_thread t c \/ of_iteration i c) (body t i);
  in_ready : forall t a b, equal_on (of_thread t) a b -> ready t a -> ready t b;
  in_post : forall i a b, 0 <= i < n -> equal_on (of_iteration i) a b -> post i a -> post i b;
  in_body_wp : forall t i m, 0 <= i < n -> ready t m -> equal_on (fun c => fixed c \/ of_iteration i c) m0 m ->
    wp same allocated (body t i) (fun ds m' => ds = [] /\ post i m' /\ ready t m') m
}.

Lemma independent_loop {C V} same allocated of_iteration of_thread fixed m0 n prologue body ready post tape parts :
  @independent C V same allocated of_iteration of_thread fixed m0 n prologue body ready post -> 0 <= n -> parts_of n parts ->
  every_schedule same allocated tape m0 (parallel_for prologue body parts) (fun m drawn =>
    drawn = [] /\ (forall i, 0 <= i < n -> post i m) /\ equal_on fixed m0 m).
Proof.
  intros [H1 H2 H3 H4 H5 H6 H7 H8 H9 H10] Hn Hparts.
  assert (HL := parallel_loop same allocated tape of_iteration of_thread fixed H1 H2 H3
    (fun i c Hc => proj1 (H4 c Hc) i) (fun t c Hc => proj2 (H4 c Hc) t) m0 n prologue body ready (fun i ds m => ds = [] /\ (0 <= i < n -> post i m)) H5 H6 H7 H8).
  eapply every_schedule_mono; [|apply HL; clear HL; auto].
  - cbn. intros m d ((dss & Hl & Hp & Hpost) & He). split; [|split; [|exact He]].
    + assert (E : List.concat dss = []).
      { apply concat_nil_Forall. apply Forall_forall. intros x Hx. apply (In_nth _ _ []) in Hx. destruct Hx as (k & Hk & <-).
        destruct (Hpost (Z.of_nat k) ltac:(unfold zlen in *; lia)) as [E _]. unfold znth in E. rewrite Nat2Z.id in E.
        now replace (Z.of_nat k <? 0) with false in E by lia. }
      rewrite E in Hp. now apply Permutation_nil in Hp.
    + intros i Hi. apply Hpost; auto.
  - intros i ds a b He [-> Hp]. split; [reflexivity|]. intro Hi. eapply H9; eauto.
  - intros t i m Hi Hr He. eapply wp_mono; [|apply H10; eauto]. cbn. intros ds m' (-> & Hp & Hr'). auto.
Qed.

(** ** CuckooHasher::Hash *)
Lemma hash_parallel aes h inputs nb tape (m : Z * Z -> Z) parts : 1 <= nb < 2^63 -> 1 <= ch_num_hash_functions h -> parts_of (zlen inputs) parts ->
  every_schedule same_pair (hash_allocated h inputs) tape m (hash_threads aes h inputs nb parts) (fun m' drawn =>
    hash aes h inputs nb = Ok (table_in m' (zlen inputs) (ch_num_hash_functions h))).
Proof.
  intros Hnb Hnum Hparts. set (num := ch_num_hash_functions h) in *.
  eapply every_schedule_mono; [|apply (independent_loop same_pair _ (fun i c => fst c = i) (fun _ _ => False) (fun _ => False) m (zlen inputs) no_prologue
    (hash_iteration aes h inputs nb) (fun _ _ => True) (fun i m => forall j, 0 <= j < num -> m (i, j) = bucket_of aes (ch_seed h) nb j (znth 0%N inputs i)) tape parts)].
  - cbn. intros m' d (_ & Hpost & _). rewrite hash_ok by auto. f_equal. unfold table_in.
    rewrite <- (map_zrange_znth 0%N inputs) at 1. rewrite map_map. apply map_ext_in. intros i Hi. apply In_zrange in Hi.
    unfold row. apply map_ext_in. intros j Hj. apply In_zrange in Hj. symmetry. apply Hpost; lia.
  - assert (Hin : forall i, 0 <= i < zlen inputs -> zget inputs i = Ok (znth 0%N inputs i)) by (intros; apply zget_ok; lia).
    constructor; try (intros; tauto).
    + intros i j c Hn <-. auto.
    + cbn. auto.
    + cbn. auto.
    + intros t i Hi. unfold hash_iteration. rewrite Hin by auto. apply obeys_for. intros k Hk. cbn. auto.
    + intros i a b Hi He Hp j Hj. rewrite <- He by reflexivity. auto.
    + intros t i m' Hi _ _. unfold hash_iteration. rewrite Hin by auto. cbv zeta. fold num.
      eapply wp_mono; [|apply (wp_for _ _ _ (fun k m => forall j, 0 <= j < k -> m (i, j) = bucket_of aes (ch_seed h) nb j (znth 0%N inputs i)) 0 num ltac:(lia))].
      * cbn. intuition.
      * intros; lia.
      * intros k m1 Hk Hinv. cbn. split; [|split; [reflexivity|]].
        -- unfold hash_allocated. fold num. lia.
        -- intros j Hj. destruct (Z.eq_dec j k) as [->|Hn].
           ++ rewrite store_eq. apply hash_to_bucket_ok; lia.
           ++ rewrite store_neq by congruence. apply Hinv. lia.
  - apply zlen_nonneg.
  - exact Hparts.
Qed.

(** ** AllButOneRandomOT::SendTrees and ReceiveTrees *)
Definition nonzero (sizes : list Z) : list Z := filter (fun n => negb (n =? 0)) sizes.

Lemma with_no_seeds {S : scalar} {R} (p : proc S R) : with_seeds p [] = p.
Proof. destruct p; reflexivity. Qed.
Lemma firstn_succ {A} (d : A) l k : 0 <= k < zlen l -> firstn (Z.to_nat (k + 1)) l = firstn (Z.to_nat k) l ++ [znth d l k].
Proof.
  intro H. replace (Z.to_nat (k + 1)) with (Datatypes.S (Z.to_nat k)) by lia. unfold znth. replace (k <? 0) with false by lia.
  assert (Hk : (Z.to_nat k < List.length l)%nat) by (unfold zlen in H; lia). generalize dependent (Z.to_nat k). clear. intro n.
  revert l. induction n as [|n IH]; intros [|a l] H; cbn in *; try lia; auto. f_equal. apply IH. lia.
Qed.

Lemma create_seeds (S : scalar) aes clog sizes keys : forall seeds k,
  zlen seeds = zlen (nonzero sizes) ->
  with_seeds (create_trees S aes clog sizes keys k) seeds = k (trees_from aes clog sizes keys seeds).
Proof.
  induction sizes as [|n sizes IH]; intros seeds k Hl; unfold nonzero in Hl; cbn [filter create_trees trees_from] in *.
  - destruct seeds; [apply with_no_seeds|]. rewrite zlen_cons, zlen_nil in Hl. pose proof (zlen_nonneg seeds). lia.
  - destruct (n =? 0) eqn:En; cbn [negb] in Hl.
    + rewrite IH by exact Hl. destruct seeds; reflexivity.
    + rewrite zlen_cons in Hl. destruct seeds as [|seed seeds]; [rewrite zlen_nil in Hl; pose proof (zlen_nonneg (filter (fun n => negb (n =? 0)) sizes)); lia|].
      rewrite zlen_cons in Hl. cbn [with_seeds]. rewrite IH by (unfold nonzero; lia). reflexivity.
Qed.

Lemma trees_from_app aes clog keys s1 : forall s2 d1 d2, zlen d1 = zlen (nonzero s1) ->
  trees_from aes clog (s1 ++ s2) keys (d1 ++ d2) = trees_from aes clog s1 keys d1 ++ trees_from aes clog s2 keys d2.
Proof.
  induction s1 as [|n s1 IH]; intros s2 d1 d2 H; unfold nonzero in *; cbn [filter app trees_from] in *.
  - destruct d1; [reflexivity|]. rewrite zlen_cons, zlen_nil in H. pose proof (zlen_nonneg d1). lia.
  - destruct (n =? 0) eqn:En; cbn [negb] in H.
    + destruct d1 as [|x d1]; cbn [app].
      * destruct d2; cbn [app]; rewrite <- IH by (auto); reflexivity.
      * cbn [app]. now rewrite <- IH.
    + rewrite zlen_cons in H. destruct d1 as [|x d1]; [rewrite zlen_nil in H; pose proof (zlen_nonneg (filter (fun n => negb (n =? 0)) s1)); lia|].
      rewrite zlen_cons in H. cbn [app]. rewrite IH by lia. reflexivity.
Qed.

Lemma create_parallel aes clog sizes keys tape (m : Z -> option (res tree)) parts : (forall i, m i = None) -> parts_of (zlen sizes) parts ->
  every_schedule Z.eq_dec (slot_allocated sizes) tape m (create_threads aes clog sizes keys parts) (fun m' drawn =>
    exists seeds, Permutation seeds drawn /\ zlen seeds = zlen (nonzero sizes) /\
      map m' (zrange 0 (zlen sizes)) = trees_from aes clog sizes keys seeds).
Proof.
  intros Hm Hparts.
  pose (post := fun (i : Z) (ds : list N) (m : Z -> option (res tree)) => 0 <= i < zlen sizes ->
    if znth 0 sizes i =? 0 then ds = [] /\ m i = None
    else exists seed, ds = [seed] /\ m i = Some (ggm_create aes clog (znth 0 sizes i) seed keys)).
  assert (HL := parallel_loop (V := option (res tree)) Z.eq_dec (slot_allocated sizes) tape (fun i c => c = i) (fun _ _ => False) (fun _ => False)).
  specialize (HL ltac:(intros; congruence) ltac:(auto) ltac:(auto) ltac:(auto) ltac:(auto) m (zlen sizes) no_prologue (create_iteration aes clog sizes keys) (fun _ _ => True) post).
  assert (Hin : forall i, 0 <= i < zlen sizes -> zget sizes i = Ok (znth 0 sizes i)) by (intros; apply zget_ok; lia).
  eapply every_schedule_mono; [|apply HL; clear HL].
  - cbn. intros m' d ((dss & Hl & Hp & Hpost) & _).
    assert (HN : forall k, 0 <= k <= zlen sizes -> zlen (List.concat (firstn (Z.to_nat k) dss)) = zlen (nonzero (firstn (Z.to_nat k) sizes)) /\
      map m' (zrange 0 k) = trees_from aes clog (firstn (Z.to_nat k) sizes) keys (List.concat (firstn (Z.to_nat k) dss))).
    { intros k [Hk0 Hk1]. revert k Hk0 Hk1. apply (natlike_ind (fun k => k <= zlen sizes -> zlen (List.concat (firstn (Z.to_nat k) dss)) = zlen (nonzero (firstn (Z.to_nat k) sizes)) /\
        map m' (zrange 0 k) = trees_from aes clog (firstn (Z.to_nat k) sizes) keys (List.concat (firstn (Z.to_nat k) dss)))).
      - intros _. now cbn.
      - intros k Hk IH Hk'. destruct (IH ltac:(lia)) as [IH1 IH2]. unfold Z.succ. rewrite zrange_snoc by lia.
        rewrite (firstn_succ 0 sizes) by lia. rewrite (firstn_succ [] dss) by lia. rewrite map_app, List.concat_app, zlen_app.
        unfold nonzero. rewrite filter_app, zlen_app. cbn [filter List.concat map]. rewrite app_nil_r.
        specialize (Hpost k ltac:(lia) ltac:(lia)). cbn zeta in Hpost. split.
        + fold (nonzero (firstn (Z.to_nat k) sizes)). rewrite IH1. destruct (znth 0 sizes k =? 0); cbn [negb].
          * destruct Hpost as [-> _]. reflexivity.
          * destruct Hpost as (seed & -> & _). reflexivity.
        + rewrite trees_from_app by exact IH1. rewrite IH2. f_equal. cbn [trees_from]. destruct (znth 0 sizes k =? 0) eqn:Ez.
          * destruct Hpost as [-> ->]. reflexivity.
          * destruct Hpost as (seed & -> & ->). reflexivity. }
    destruct (HN (zlen sizes) ltac:(pose proof (zlen_nonneg sizes); lia)) as [H1 H2]. 
    rewrite !firstn_all2 in H1 by (unfold zlen in *; lia). rewrite !firstn_all2 in H2 by (unfold zlen in *; lia). eauto.
  - cbn. auto.
  - cbn. auto.
  - intros t i Hi. unfold create_iteration. rewrite Hin by auto. destruct (znth 0 sizes i =? 0); cbn; auto.
  - auto.
  - intros i ds a b He Hp Hi. specialize (Hp Hi). rewrite <- (He i eq_refl). exact Hp.
  - intros t i m' Hi _ He. unfold create_iteration. rewrite Hin by auto. unfold post. destruct (znth 0 sizes i =? 0) eqn:Ez; cbn.
    + split; [|auto]. intros _. split; [reflexivity|]. rewrite <- He, Hm by auto. reflexivity.
    + intro x. split; [unfold slot_allocated; lia|]. split; [|auto]. intros _. exists x. now rewrite store_eq.
  - apply zlen_nonneg.
  - exact Hparts.
Qed.

Lemma receive_parallel aes clog choices ot_results offsets keys sizes indices tape m parts trees :
  (forall i, m (TreeAt i) = TreeIs None) -> m TheStatus = StatusIs None -> parts_of (zlen sizes) parts ->
  collect (map (fun i => receive_tree aes clog 2 choices ot_results offsets keys i (znth 0 sizes i) (znth 0 indices i)) (zrange 0 (zlen sizes))) = Ok trees ->
  every_schedule same_receive (receive_allocated sizes) tape m (receive_threads aes clog choices ot_results offsets keys sizes indices parts) (fun m' drawn =>
    m' TheStatus = StatusIs None /\ map (fun i => m' (TreeAt i)) (zrange 0 (zlen sizes)) = map TreeIs trees).
Proof.
  intros Hm Hs Hparts Hc.
  set (f := fun i => receive_tree aes clog 2 choices ot_results offsets keys i (znth 0 sizes i) (znth 0 indices i)) in *.
  assert (Hok : Forall2 (fun i t => f i = Ok t) (zrange 0 (zlen sizes)) trees).
  { revert trees Hc. induction (zrange 0 (zlen sizes)) as [|i l IH]; cbn; intros trees Hc.
    - injection Hc as <-. constructor.
    - destruct (collect (map f l)) as [ts|?|?] eqn:E.
      + destruct (f i) eqn:Ei; try discriminate. injection Hc as <-. constructor; auto.
      + destruct (f i); discriminate.
      + discriminate. }
  destruct (forall2_range None _ _ _ (zlen_nonneg sizes) Hok) as [Hlt Hf].
  eapply every_schedule_mono; [|apply (independent_loop same_receive _ (fun i c => c = TreeAt i) (fun _ _ => False) (fun c => c = TheStatus) m (zlen sizes) no_prologue
    (receive_iteration aes clog choices ot_results offsets keys sizes indices) (fun _ _ => True) (fun i m => m (TreeAt i) = TreeIs (znth None trees i)) tape parts)].
  - cbn. intros m' d (_ & Hpost & He). split; [rewrite <- (He TheStatus eq_refl); exact Hs|].
    rewrite <- (map_zrange_znth None trees), Hlt, map_map. apply map_ext_in. intros i Hi. apply In_zrange in Hi. apply Hpost. lia.
  - constructor; try (intros; tauto).
    + intros i j c Hn -> H. congruence.
    + intros c ->. split; [discriminate|tauto].
    + cbn. auto.
    + cbn. auto.
    + intros t i Hi. unfold receive_iteration. fold (f i). rewrite Hf by auto. destruct (znth 0 sizes i =? 0); cbn; auto.
    + intros i a b Hi He Hp. now rewrite <- He.
    + intros t i m' Hi _ He. unfold receive_iteration. fold (f i). specialize (Hf i Hi). rewrite Hf. destruct (znth 0 sizes i =? 0) eqn:Ez; cbn.
      * split; [reflexivity|]. split; [|auto]. rewrite <- He, Hm by auto. unfold f, receive_tree in Hf. rewrite Ez in Hf. congruence.
      * split; [unfold receive_allocated; lia|]. split; [reflexivity|]. split; [|auto]. apply store_eq.
  - apply zlen_nonneg.
  - exact Hparts.
Qed.

Lemma create_parallel_seq aes clog sizes keys tape (m : Z -> option (res tree)) parts :
  (forall i, m i = None) -> parts_of (zlen sizes) parts ->
  every_schedule Z.eq_dec (slot_allocated sizes) tape m (create_threads aes clog sizes keys parts) (fun m' drawn =>
    exists seeds, Permutation seeds drawn /\
      forall (S : scalar) k, with_seeds (create_trees S aes clog sizes keys k) seeds = k (map m' (zrange 0 (zlen sizes)))).
Proof.
  intros Hm Hparts. eapply every_schedule_mono; [|apply (create_parallel aes clog sizes keys tape m parts Hm Hparts)].
  cbn. intros m' d (seeds & Hp & Hl & E). exists seeds. split; [exact Hp|]. intros S k. rewrite E. now apply create_seeds.
Qed.
