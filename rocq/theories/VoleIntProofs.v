(** Proofs about VoleInt.v: with the library's sizes it behaves like VoleModel.v. *)
From Verif Require Import Base BaseFacts ListFacts ScalarModel ScalarSpec ScalarProofs ProcModel ProcSpec RotModel RotSpec SpfssModel CuckooModel CuckooSpec CuckooProofs CuckooFinal RngModel GilboaModel
  MpfssModel MpfssSpec MpfssProofs MpfssFinal VoleModel VoleSpec VolePair VoleSolo VoleHistory VoleFinal UseSpec VoleUse PatternSpec PatternProofs CostSpec CostProofs RotInt RotIntProofs SpfssInt SpfssIntProofs MpfssInt MpfssIntProofs VoleInt.
From Coq Require Import QArith Lia.
Local Open Scope Z_scope.

Section P.
  Variable S : scalar.
  Variable E : setting.
  Variable M : machine S.
  Hypothesis G : good_setting S E.
  Hypothesis GM : good_machine S M.
  Hypothesis Hlog : forall n, 1 <= n -> 2 ^ (Z.of_nat (e_clog E 2 n) - 1) <= n.
  Notation P := (e_parameters E).
  Notation aes := (e_aes E).
  Notation clog := (e_clog E).
  Notation too := (e_too_many_bits E).
  Notation e3 := (e_expansion3 E).
  Notation e2 := (e_expansion2 E).
  Notation top := (last (p_output_size P) 0).
  Variable seed : N.
  Notation h := (Hasher seed 3).
  Notation coh := (coherent aes too e3 e2 h).

  Definition J (st : vole S) : Prop :=
    coh (v_mpfss st) /\ zlen (v_columns st) <= top /\ (v_num_noise st < 1 \/ In (v_num_noise st) (p_num_noise P)).

  (** [m'] behaves like [m] in these states, which stay so; results satisfy [Q]. *)
  Definition same {A} (Q : A -> Prop) (m' m : member S A) : Prop := forall st, J st -> alike (m' st) (m st) /\
    forall st' r, possible (m st) (st', r) -> J st' /\ forall a, r = Ok a -> Q a.
  Notation same0 := (same (fun _ => True)).

  Lemma same_bind {A B} Q R (m' m : member S A) (f' f : A -> member S B) : same Q m' m -> (forall a, Q a -> same R (f' a) (f a)) -> same R (mbind m' f') (mbind m f).
  Proof.
    intros Hm Hf st HJ. destruct (Hm st HJ) as [Ha Hp]. split.
    - unfold mbind. eapply alike_trans; [apply alike_pbind; [exact Ha|intro; apply alike_refl]|]. apply alike_bind. intros [st1 r] Hr. destruct (Hp _ _ Hr) as [HJ1 HQ].
      destruct r as [a|e|w]; try apply alike_refl. apply (Hf a (HQ a eq_refl)). exact HJ1.
    - intros st' r H. unfold mbind in H. apply possible_bind in H. destruct H as ([st1 x] & H1 & H). destruct (Hp _ _ H1) as [HJ1 HQ].
      destruct x as [a|e|w]; [|apply possible_ret_inv in H; injection H as -> ->; split; [exact HJ1|discriminate]..].
      destruct (Hf a (HQ a eq_refl) st1 HJ1) as [_ Hp2]. exact (Hp2 _ _ H).
  Qed.
  Lemma same_weak {A} (Q R : A -> Prop) (m' m : member S A) : same Q m' m -> (forall a, Q a -> R a) -> same R m' m.
  Proof. intros H HQ st HJ. destruct (H st HJ) as [Ha Hp]. split; [exact Ha|]. intros st' r Hr. destruct (Hp _ _ Hr) as [H1 H2]. split; auto. Qed.
  Lemma same_kept {A} (Q : A -> Prop) (m : member S A) : (forall st st' r, J st -> possible (m st) (st', r) -> J st' /\ forall a, r = Ok a -> Q a) -> same Q m m.
  Proof. intros H st HJ. split; [apply alike_refl|]. intros st' r Hr. exact (H _ _ _ HJ Hr). Qed.
  Lemma same_get {A} (f : vole S -> A) : same0 (mget f) (mget f).
  Proof. apply same_kept. intros st st' r HJ H. apply possible_ret_inv in H. injection H as -> ->. auto. Qed.
  Lemma same_calc {A} (m : res A) : same (fun a => m = Ok a) (mcalc m) (mcalc m).
  Proof. apply same_kept. intros st st' r HJ H. apply possible_ret_inv in H. injection H as -> ->. auto. Qed.
  Lemma same_calc0 {A} (m : res A) : same0 (mcalc m) (mcalc m).
  Proof. eapply same_weak; [apply same_calc|auto]. Qed.
  Lemma same_fail {A} e : same0 (mfail e : member S A) (mfail e). Proof. apply (same_calc0 (Err e)). Qed.
  Lemma same_ret {A} (a : A) : same0 (mret a : member S A) (mret a). Proof. apply (same_calc0 (Ok a)). Qed.
  Lemma same_set f : (forall st, J st -> J (f st)) -> same0 (mset f) (mset f).
  Proof. intro Hf. apply same_kept. intros st st' r HJ H. apply possible_ret_inv in H. injection H as -> ->. auto. Qed.
  Lemma same_proc {A} (p : proc S (res A)) : same0 (mproc p) (mproc p).
  Proof. apply same_kept. intros st st' r HJ H. unfold mproc in H. apply possible_bind in H. destruct H as (x & _ & H). apply possible_ret_inv in H. injection H as -> ->. auto. Qed.
  Lemma same_sender_cached n : same0 (get_sender_cached S n) (get_sender_cached S n).
  Proof. apply same_kept. intros st st' r HJ H. unfold get_sender_cached in H. destruct (_ <? n); [|destruct (n <? 0)]; apply possible_ret_inv in H; injection H as -> ->; auto. Qed.
  Lemma same_receiver_cached n : same0 (get_receiver_cached S n) (get_receiver_cached S n).
  Proof. apply same_kept. intros st st' r HJ H. unfold get_receiver_cached in H. destruct (_ <? n); [|destruct (n <? 0)]; apply possible_ret_inv in H; injection H as -> ->; auto. Qed.

  Ltac same := repeat match goal with
    | |- same _ (mbind _ _) (mbind _ _) => eapply (same_bind (fun _ => True)); [|intros ? _]
    | |- same _ (mget _) _ => apply same_get
    | |- same _ (mcalc _) _ => apply same_calc0
    | |- same _ (mfail _) _ => apply same_fail
    | |- same _ (mret _) _ => apply same_ret
    | |- same _ (mproc _) _ => apply same_proc
    | |- same _ (mset _) _ => apply same_set; intros ? [? ?]; split; assumption
    | |- same _ (get_sender_cached _ _) _ => apply same_sender_cached
    | |- same _ (get_receiver_cached _ _) _ => apply same_receiver_cached
    | |- same _ (if ?c then _ else _) _ => destruct c
    end.
  Lemma same_sender_seeds a b : same0 (new_sender_seeds S a b) (new_sender_seeds S a b).
  Proof. unfold new_sender_seeds. same. Qed.
  Lemma same_receiver_seeds a b : same0 (new_receiver_seeds S a b) (new_receiver_seeds S a b).
  Proof. unfold new_receiver_seeds. same. Qed.

  Lemma same_get_by {A} (Q : A -> Prop) (f : vole S -> A) : (forall st, J st -> Q (f st)) -> same Q (mget f) (mget f).
  Proof. intro HQ. apply same_kept. intros st st' r HJ H. apply possible_ret_inv in H. injection H as -> ->. split; [exact HJ|]. intros a Ha. injection Ha as <-. auto. Qed.
  Lemma same_scalars n : same (fun y => zlen y = Z.of_nat n) (mproc (rand_scalars n (fun y => Ret (Ok y))) : member S (list S)) (mproc (rand_scalars n (fun y => Ret (Ok y)))).
  Proof.
    apply same_kept. intros st st' r HJ H. unfold mproc in H. apply possible_bind in H. destruct H as (x & Hx & H). apply possible_ret_inv in H. injection H as -> ->.
    split; [exact HJ|]. intros a ->. apply rand_scalars_len in Hx. destruct Hx as (l & Hl & Hx). apply possible_ret_inv in Hx. injection Hx as ->. unfold zlen. now rewrite Hl.
  Qed.
  Lemma same_mpfss {A} (p' p : mpfss -> proc S (mpfss * res A)) : (forall m, coh m -> alike (p' m) (p m)) -> kc S E (mmpfss p) -> same0 (mmpfss p') (mmpfss p).
  Proof.
    intros Hp Hk st (H1 & H2 & H3). split.
    - unfold mmpfss. apply alike_pbind; [now apply Hp|]. intros. apply alike_refl.
    - intros st' r H. split; [|auto]. split; [exact (Hk seed st st' r H1 H)|]. unfold mmpfss in H. apply possible_bind in H. destruct H as ([m x] & _ & H). apply possible_ret_inv in H. injection H as -> ->. auto.
  Qed.

  Lemma noise_facts n : In n (p_num_noise P) -> 1 <= e3 n < 2^31 - 1 /\ e3 n < top /\ forall N, 0 <= N <= top -> too N (e3 n) = false.
  Proof.
    intro H. destruct (In_znth 0 _ n H) as (i & Hi & <-). rewrite (gs_noises S E G) in Hi. pose proof (level_facts S E G i Hi) as (K1 & K2 & K3 & K4 & _). pose proof (gs_last S E G).
    split; [lia|]. split; [lia|exact K4].
  Qed.
  Lemma same_expand_sender out a b : same0 (expand_sender_int S E M out a b) (expand_sender S E M out a b).
  Proof.
    unfold expand_sender_int, expand_sender. eapply (same_bind (fun _ => True)); [apply same_get|intros s _]. eapply (same_bind (fun _ => True)); [apply same_get|intros rows _].
    apply (same_bind (fun cols => zlen cols <= top)); [apply same_get_by; intros st H; apply H|intros cols Hcols].
    apply (same_bind (fun n => n < 1 \/ In n (p_num_noise P))); [apply same_get_by; intros st H; apply H|intros num Hnum]. cbv zeta.
    destruct (negb (_ =? _)); [apply same_fail|]. destruct (_ || _) eqn:Hd; [apply same_fail|]. pose proof (dimension _ _ _ Hd) as Ho.
    apply orb_false_iff in Hd. destruct Hd as [_ Hd]. apply negb_false_iff, Z.eqb_eq in Hd.
    eapply (same_bind (fun _ => True)); [apply same_proc|intros bl _]. eapply (same_bind (fun _ => True)); [apply same_calc0|intros g _].
    eapply (same_bind (fun _ => True)); [apply same_calc0|intros set _]. eapply (same_bind (fun _ => True)); [apply same_proc|intros idx _].
    destruct (Z.ltb_spec num 0); [apply same_calc0|]. eapply same_bind; [apply same_scalars|]. cbv beta. intros y Hy. rewrite Z2Nat.id in Hy by lia.
    eapply (same_bind (fun _ => True)).
    - apply same_mpfss; [|now apply (index_kc S E G M GM)]. intros m Hm. pose proof (gs_last S E G). apply (index_provider_id S aes clog too e3 e2 (He3 S E G) (He2 S E G) Hlog seed m); auto.
      + rewrite zlen_zrepeat by lia. now apply (gm_split S M GM).
      + rewrite zlen_zrepeat; lia.
      + rewrite zlen_zrepeat by lia. rewrite Hy. intro. destruct Hnum as [|Hnum]; [lia|]. destruct (noise_facts num Hnum) as (K1 & K2 & K3). split; [lia|]. apply K3. lia.
    - intros v0 _. unfold new_sender_seeds. same.
  Qed.
  Lemma same_expand_receiver out a b : same0 (expand_receiver_int S E M out a b) (expand_receiver S E M out a b).
  Proof.
    unfold expand_receiver_int, expand_receiver. eapply (same_bind (fun _ => True)); [apply same_get|intros s _]. eapply (same_bind (fun _ => True)); [apply same_get|intros rows _].
    apply (same_bind (fun cols => zlen cols <= top)); [apply same_get_by; intros st H; apply H|intros cols Hcols].
    apply (same_bind (fun n => n < 1 \/ In n (p_num_noise P))); [apply same_get_by; intros st H; apply H|intros num Hnum]. cbv zeta.
    destruct (_ || _) eqn:Hd; [apply same_fail|]. pose proof (dimension _ _ _ Hd) as Ho.
    apply orb_false_iff in Hd. destruct Hd as [_ Hd]. apply negb_false_iff, Z.eqb_eq in Hd.
    eapply (same_bind (fun _ => True)); [same|intros _ _]. eapply (same_bind (fun _ => True)).
    - apply same_mpfss; [|now apply (value_kc S E G M GM)]. intros m Hm. pose proof (gs_last S E G). apply (value_provider_id S aes clog (vole_K E) too e3 e2 (He3 S E G) (He2 S E G) Hlog seed m); auto.
      + rewrite zlen_zrepeat by lia. now apply (gm_split S M GM).
      + rewrite zlen_zrepeat; lia.
      + rewrite zlen_zrepeat by lia. intro. destruct Hnum as [|Hnum]; [lia|]. destruct (noise_facts num Hnum) as (K1 & K2 & K3). split; [lia|]. apply K3. lia.
    - intros v0 _. unfold new_receiver_seeds. same.
  Qed.

  Lemma common_kept out : out <= top -> same0 (precompute_common S E M out) (precompute_common S E M out).
  Proof.
    intro Ho. pose proof (gs_last S E G). assert (0 <= top) by (pose proof (level_facts S E G 0 ltac:(pose proof (gs_levels S E G); lia)); lia).
    unfold precompute_common. eapply (same_bind (fun _ => True)); [apply same_get|intros num _]. eapply (same_bind (fun _ => True)).
    { apply same_kept. intros st st' r HJ Hp. split; [|auto]. destruct HJ as (H1 & H2 & H3). split; [exact (kc_buckets S E G M GM _ _ seed _ _ _ H1 Hp)|].
      unfold m_update_buckets in Hp. destruct (update_buckets _ _ _ _ _ _ _ _) as [m x]. apply possible_ret_inv in Hp. injection Hp as -> ->. auto. }
    intros _ _. eapply (same_bind (fun _ => True)); [apply same_get|intros rows _]. eapply (same_bind (fun _ => True)).
    { apply same_set. intros st (H1 & H2 & H3). split; [exact H1|]. split; [|exact H3]. cbn [v_columns set_generator].
      destruct (Z.leb_spec 0 out); [rewrite zlen_zrepeat; lia|]. unfold zrepeat. replace (Z.to_nat out) with 0%nat by lia. assumption. }
    intros _ _. eapply (same_bind (fun _ => True)); [apply same_proc|intros sd _]. eapply (same_bind (fun _ => True)); [apply same_calc0|intros g _].
    destruct (negb _); [apply same_fail|]. eapply same_bind; [apply same_calc|]. cbv beta. intros cols Hc. apply columns_zlen in Hc.
    apply same_set. intros st (H1 & H2 & H3). split; [exact H1|]. split; [|exact H3]. change (zlen cols <= top). lia.
  Qed.
  Lemma same_num n : In n (p_num_noise P) -> same (fun ms => ms = e3 n) (m_num_buckets S E n) (m_num_buckets S E n).
  Proof.
    intro Hn. apply same_kept. intros st st' r HJ H. unfold m_num_buckets in H. apply possible_ret_inv in H. injection H as -> ->. split; [exact HJ|]. intros a Ha.
    destruct HJ as ((Hh & _) & _). destruct (noise_facts n Hn) as (K1 & K2 & _). pose proof (proj1 (Forall_forall _ _) (gs_noise S E G) n Hn) as K3. cbv beta in K3.
    unfold num_buckets in Ha. rewrite Hh in Ha. unfold get_optimal_number_of_buckets in Ha. replace (n <? 0) with false in Ha by lia. replace (n =? 0) with false in Ha by lia.
    cbn [ch_num_hash_functions] in Ha. rewrite Z.eqb_refl in Ha. cbn [rbind] in Ha. injection Ha as <-. apply wrap32_id. lia.
  Qed.
  Lemma zget_in (l : list Z) i a : zget l i = Ok a -> In a l /\ 0 <= i < zlen l /\ znth 0 l i = a.
  Proof. intro H. destruct (zget_inv _ _ _ H) as [Hi E0]. specialize (E0 0). split; [|auto]. rewrite <- E0. now apply znth_In. Qed.
  Lemma same_bootstrap (step' step : Z -> Z -> Z -> member S unit) batch : (forall out a b, same0 (step' out a b) (step out a b)) ->
    forall l, same0 (bootstrap S E M step' batch l) (bootstrap S E M step batch l).
  Proof.
    intros Hs. induction l as [|i l IH]; cbn [bootstrap]; [apply same_ret|]. eapply (same_bind (fun _ => True)); [apply same_calc0|intros out _].
    eapply (same_bind (fun _ => True)); [apply same_get|intros vs _]. eapply (same_bind (fun _ => True)); [apply same_get|intros ms _]. eapply (same_bind (fun _ => True)); [apply same_calc0|intros needed _].
    destruct (_ <=? _); [apply same_ret|]. eapply same_bind; [apply same_calc|]. cbv beta. intros nvs Hnvs. eapply same_bind; [apply same_calc|]. cbv beta. intros nn Hnn.
    apply zget_in in Hnvs, Hnn. destruct Hnvs as (_ & Hi & Evs). destruct Hnn as (Hin & _ & Enn). eapply same_bind; [apply same_num; exact Hin|]. cbv beta. intros nms ->.
    eapply same_bind; [apply same_calc|]. cbv beta. intros size Hsize. assert (Hle : size <= top).
    { unfold int_result in Hsize. destruct (_ && _); [|discriminate]. injection Hsize as <-. pose proof (gs_room S E G (i + 1) Hi) as Hr. rewrite Evs, Enn in Hr. lia. }
    eapply (same_bind (fun _ => True)); [now apply common_kept|intros _ _]. eapply (same_bind (fun _ => True)); [apply Hs|intros _ _].
    eapply (same_bind (fun _ => True)); [|intros _ _; exact IH]. apply same_set. intros st (H1 & H2 & H3). split; [exact H1|]. split; [exact H2|]. right. exact Hin.
  Qed.
  Lemma last_kept batch : same0 (precompute_last S E M batch) (precompute_last S E M batch).
  Proof.
    apply same_kept. intros st st' r HJ H. unfold precompute_last in H.
    match type of H with possible (mbind (mcalc ?x) _ _) _ => destruct x as [la|e|w] eqn:El end; [|apply possible_ret_inv in H; injection H as -> ->; auto..].
    unfold mbind at 1, mcalc at 1 in H. cbn [pbind] in H. rewrite !bind_get in H.
    match type of H with possible (mbind (mcalc ?x) _ _) _ => destruct x as [room|e|w] eqn:Er end; [|apply possible_ret_inv in H; injection H as -> ->; auto..].
    unfold mbind at 1, mcalc at 1 in H. cbn [pbind] in H. rewrite bind_set in H.
    set (st1 := set_batch_size S (Z.min batch room) st) in H. assert (HJ1 : J st1) by exact HJ.
    assert (Ef : full_output S st1 = Ret (st1, int64_result (Z.min batch room + v_vole_seed_size st + v_mpfss_seed_size st))) by reflexivity.
    unfold mbind at 1 in H. rewrite Ef in H. cbn [pbind] in H. destruct (int64_result _) as [out|e|w] eqn:Eo; [|apply possible_ret_inv in H; injection H as -> ->; split; [exact HJ1|auto]..].
    assert (Hout : out <= top).
    { unfold int64_result in Eo. destruct (_ && _); [|discriminate]. injection Eo as <-. unfold int_result in Er. destruct (_ && _); [|discriminate]. injection Er as <-.
      apply zget_in in El. destruct El as (_ & _ & <-). rewrite <- znth_last. lia. }
    exact (proj2 (common_kept out Hout st1 HJ1) st' r H).
  Qed.

  Lemma same_sizes : same0 (precompute_sizes S E) (precompute_sizes S E).
  Proof.
    unfold precompute_sizes. eapply (same_bind (fun _ => True)); [same|intros _ _]. eapply same_bind; [apply same_calc|]. cbv beta. intros n Hn. apply zget_in in Hn. destruct Hn as (Hn & _).
    eapply (same_bind (fun _ => True)); [apply same_set; intros st (H1 & H2 & H3); split; [exact H1|]; split; [exact H2|right; exact Hn]|intros _ _].
    eapply (same_bind (fun _ => True)); [apply same_calc0|intros vs _]. eapply (same_bind (fun _ => True)); [same|intros _ _].
    eapply same_bind; [apply same_num; exact Hn|]. cbv beta. intros ms _. same.
  Qed.
  Lemma same_precompute_sender b : same0 (precompute_sender_int S E M b) (precompute_sender S E M b).
  Proof.
    unfold precompute_sender_int, precompute_sender. destruct (b <? 1); [apply same_fail|]. eapply (same_bind (fun _ => True)); [apply same_sizes|intros n _].
    eapply (same_bind (fun _ => True)); [unfold sender_first_seed; same|intros _ _]. eapply (same_bind (fun _ => True)); [apply same_get|intros vs _]. eapply (same_bind (fun _ => True)); [apply same_get|intros ms _].
    eapply (same_bind (fun _ => True)); [apply same_sender_seeds|intros _ _]. eapply (same_bind (fun _ => True)); [apply same_bootstrap; intros; apply same_expand_sender|intros _ _].
    eapply (same_bind (fun _ => True)); [apply last_kept|intros _ _]. same.
  Qed.
  Lemma same_precompute_receiver b d : same0 (precompute_receiver_int S E M b d) (precompute_receiver S E M b d).
  Proof.
    unfold precompute_receiver_int, precompute_receiver. destruct (b <? 1); [apply same_fail|]. eapply (same_bind (fun _ => True)); [apply same_sizes|intros n _].
    eapply (same_bind (fun _ => True)); [unfold receiver_first_seed; same|intros _ _]. eapply (same_bind (fun _ => True)); [apply same_get|intros vs _]. eapply (same_bind (fun _ => True)); [apply same_get|intros ms _].
    eapply (same_bind (fun _ => True)); [apply same_receiver_seeds|intros _ _]. eapply (same_bind (fun _ => True)); [apply same_bootstrap; intros; apply same_expand_receiver|intros _ _].
    eapply (same_bind (fun _ => True)); [apply last_kept|intros _ _]. same.
  Qed.
  Lemma same_precompute_random b : same0 (precompute_receiver_random_int S E M b) (precompute_receiver_random S E M b).
  Proof. unfold precompute_receiver_random_int, precompute_receiver_random. eapply (same_bind (fun _ => True)); [apply same_proc|intros d _]. apply same_precompute_receiver. Qed.
  Lemma same_expand (step' step : Z -> Z -> Z -> member S unit) : (forall out a b, same0 (step' out a b) (step out a b)) -> same0 (expand S step') (expand S step).
  Proof. intro Hs. unfold expand, full_output. same. apply Hs. Qed.
  Lemma same_sender_loop n : forall size u v, same0 (run_sender_loop_int S E M n size u v) (run_sender_loop S E M n size u v).
  Proof.
    induction n as [|n IH]; intros size u v; cbn [run_sender_loop run_sender_loop_int]; (destruct (size <=? zlen u); [apply same_ret|]); [apply same_calc0|].
    eapply (same_bind (fun _ => True)); [apply same_get|intros s _]. cbv zeta. eapply (same_bind (fun _ => True)); [same|intros c _]. destruct (_ <? size); [|apply IH].
    eapply (same_bind (fun _ => True)); [apply same_expand; intros; apply same_expand_sender|intros _ _]. apply IH.
  Qed.
  Lemma same_receiver_loop n : forall size w d, same0 (run_receiver_loop_int S E M n size w d) (run_receiver_loop S E M n size w d).
  Proof.
    induction n as [|n IH]; intros size w d; cbn [run_receiver_loop run_receiver_loop_int]; (destruct (size <=? zlen w); [apply same_ret|]); [apply same_calc0|].
    eapply (same_bind (fun _ => True)); [apply same_get|intros s _]. cbv zeta. eapply (same_bind (fun _ => True)); [same|intros c _]. destruct (_ <? size); [|apply IH].
    eapply (same_bind (fun _ => True)); [apply same_expand; intros; apply same_expand_receiver|intros _ _]. apply IH.
  Qed.
  (** A result that is used unless the first step failed. *)
  Lemma same_or {A B} (m : member S A) (f : A -> B) (g' g : vole S -> member S B) : same0 m m -> (forall st, same0 (g' st) (g st)) ->
    same0 (fun st => pbind (m st) (fun '(st, r) => match r with Ok x => Ret (st, Ok (f x)) | Err _ => g' st st | UB w => Ret (st, UB w) end))
          (fun st => pbind (m st) (fun '(st, r) => match r with Ok x => Ret (st, Ok (f x)) | Err _ => g st st | UB w => Ret (st, UB w) end)).
  Proof.
    intros Hm Hg st HJ. destruct (Hm st HJ) as [_ Hp]. split.
    - apply alike_bind. intros [st1 r] Hr. destruct (Hp _ _ Hr) as [HJ1 _]. destruct r as [a|e|w]; try apply alike_refl. apply (Hg st1). exact HJ1.
    - intros st' r H. apply possible_bind in H. destruct H as ([st1 x] & H1 & H). destruct (Hp _ _ H1) as [HJ1 _].
      destruct x as [a|e|w]; [apply possible_ret_inv in H; injection H as -> ->; auto| |apply possible_ret_inv in H; injection H as -> ->; auto].
      exact (proj2 (Hg st1 st1 HJ1) st' r H).
  Qed.
  Lemma same_run_sender n : same0 (run_sender_int S E M n) (run_sender S E M n).
  Proof.
    unfold run_sender_int, run_sender. eapply (same_bind (fun _ => True)); [apply same_get|intros s _]. eapply (same_bind (fun _ => True)); [destruct (s_done s); [apply same_ret|apply same_precompute_sender]|intros _ _].
    apply (same_or (get_sender_cached S n) (fun x => x) (fun _ => run_sender_loop_int S E M (Z.to_nat n + 1) n [] []) (fun _ => run_sender_loop S E M (Z.to_nat n + 1) n [] [])); [apply same_sender_cached|].
    intros. apply same_sender_loop.
  Qed.
  Lemma same_run_receiver n : same0 (run_receiver_int S E M n) (run_receiver S E M n).
  Proof.
    unfold run_receiver_int, run_receiver. eapply (same_bind (fun _ => True)); [apply same_get|intros s _]. eapply (same_bind (fun _ => True)); [destruct (r_done s); [apply same_ret|apply same_precompute_random]|intros _ _].
    apply (same_or (get_receiver_cached S n) (fun x => x) (fun st => run_receiver_loop_int S E M (Z.to_nat n + 1) n [] (rr_delta (r_cached (v_r st)))) (fun st => run_receiver_loop S E M (Z.to_nat n + 1) n [] (rr_delta (r_cached (v_r st))))); [apply same_receiver_cached|].
    intros. apply same_receiver_loop.
  Qed.
  Lemma same_map {A B} (f : A -> B) (m' m : member S A) : same0 m' m ->
    same0 (fun st => pbind (m' st) (fun '(st, r) => Ret (st, rmap f r))) (fun st => pbind (m st) (fun '(st, r) => Ret (st, rmap f r))).
  Proof.
    intros Hm st HJ. destruct (Hm st HJ) as [Ha Hp]. split; [apply alike_pbind; [exact Ha|intro; apply alike_refl]|].
    intros st' r H. apply possible_bind in H. destruct H as ([st1 x] & H1 & H). apply possible_ret_inv in H. injection H as -> ->. split; [apply (Hp _ _ H1)|auto].
  Qed.
  Lemma same_call (sends : bool) c : same0 ((if sends then as_sender_int S E else as_receiver_int S E) M c) ((if sends then as_sender S E else as_receiver S E) M c).
  Proof.
    destruct sends, c as [b d|n]; [| |destruct d as [d|]|]; unfold as_sender_int, as_sender, as_receiver_int, as_receiver.
    - apply (same_map _ _ _ (same_precompute_sender b)).
    - apply (same_map _ _ _ (same_run_sender n)).
    - apply (same_map _ _ _ (same_precompute_receiver b d)).
    - apply (same_map _ _ _ (same_precompute_random b)).
    - apply (same_map _ _ _ (same_run_receiver n)).
  Qed.
  Lemma same_calls go_on l : forall st, J st -> alike (calls_int S E M go_on l st) (calls S E M go_on l st).
  Proof.
    induction l as [|[sends c] l IH]; intros st HJ; cbn [calls calls_int]; [apply alike_refl|]. destruct (same_call sends c st HJ) as [Ha Hp].
    eapply alike_trans; [apply alike_pbind; [exact Ha|intro; apply alike_refl]|]. apply alike_bind. intros [st1 r] Hr. destruct (Hp _ _ Hr) as [HJ1 _]. cbv zeta.
    assert (Hc : alike (pbind (calls_int S E M go_on l st1) (fun rs => Ret (r :: rs))) (pbind (calls S E M go_on l st1) (fun rs => Ret (r :: rs)))) by (apply alike_pbind; [now apply IH|intro; apply alike_refl]).
    destruct r as [a|e|w]; [exact Hc|destruct (go_on e); [exact Hc|apply alike_refl]|apply alike_refl].
  Qed.
End P.

Lemma party_same S E M go_on l : good_setting S E -> good_machine S M -> (forall n, 1 <= n -> 2 ^ (Z.of_nat (e_clog E 2 n) - 1) <= n) ->
  alike (party_int S E M go_on l) (party S E M go_on l).
Proof.
  intros G GM Hlog. unfold party_int, party, pbindr. simple refine (alike_bind (vole_create S M false) _ _ _). intros [st|e|w] Hst; [|apply alike_refl..]. simple refine (alike_pbind _ _ _ _ _ _ _); [|intro; apply alike_refl].
  apply created_inv in Hst. destruct Hst as ([seed k] & Hk & ->). cbn in Hk. subst k. apply (same_calls S E M G GM Hlog seed). split; [split; [reflexivity|cbn; discriminate]|].
  assert (0 <= last (p_output_size (e_parameters E)) 0) by (pose proof (level_facts S E G 0 ltac:(pose proof (gs_levels S E G); lia)); lia). split; [assumption|left; reflexivity].
Qed.

(** ** Sessions *)
Lemma alike_ret_inv {T R} (p : proc T R) r : alike p (Ret r) -> p = Ret r.
Proof. intro H. now inversion H. Qed.
Lemma alike_waiting {T R} (p q : proc T R) : alike p q -> waiting q -> waiting p.
Proof. intros H [[k ->]|(c & cs & k & ->)]; inversion H; subst; [left|right]; eauto. Qed.
Lemma alike_stuck {T RA RB} (c c' : config T RA RB) : alike_configs c c' -> stuck c -> stuck c'.
Proof. intros H Hs d Hd. destruct (alike_step _ _ _ (alike_configs_sym _ _ H) Hd) as (d' & H1 & _). exact (Hs _ H1). Qed.
Lemma alike_end S go_on l d d' : alike_configs d d' -> session_end S go_on l d' -> session_end S go_on l d.
Proof.
  intros (H1 & H2 & H3 & H4 & H5 & H6) (E1 & E2 & HE). split; [congruence|]. split; [congruence|]. destruct HE as [(la & lb & A & B & C)|[(la & A & B & C)|(lb & A & B & C)]].
  - left. exists la, lb. rewrite A in H1. rewrite B in H2. apply alike_ret_inv in H1, H2. auto.
  - right. left. exists la. rewrite A in H1. apply alike_ret_inv in H1. split; [exact H1|]. split; [exact B|]. exact (alike_waiting _ _ H2 C).
  - right. right. exists lb. rewrite A in H2. apply alike_ret_inv in H2. split; [exact H2|]. split; [exact B|]. exact (alike_waiting _ _ H1 C).
Qed.
Section Sessions.
  Variable t : stype.
  Hypothesis Ht : stype_ok t.
  Notation S := (scalar_of t).
  Variable E : setting.
  Hypothesis G : good_setting S E.
  Hypothesis Hlog : forall n, 1 <= n -> 2 ^ (Z.of_nat (e_clog E 2 n) - 1) <= n.
  Variables MA MB : machine S.
  Hypothesis GA : good_machine S MA.
  Hypothesis GB : good_machine S MB.
  Hypothesis HC : connected MA MB.
  Variable go_on : status -> bool.
  Hypothesis Hgo : forall e, In e one_sided -> go_on e = false.

  Lemma starts_alike l ta tb : alike_configs (start (party_int S E MA go_on l) ta (party_int S E MB go_on (opposite S l)) tb) (start (party S E MA go_on l) ta (party S E MB go_on (opposite S l)) tb).
  Proof.
    pose proof (party_same S E MA go_on l G GA Hlog) as HA. pose proof (party_same S E MB go_on (opposite S l) G GB Hlog) as HB.
    revert HA HB. generalize (party_int S E MA go_on l), (party S E MA go_on l), (party_int S E MB go_on (opposite S l)), (party S E MB go_on (opposite S l)).
    intros. unfold alike_configs, start. cbn [c_a c_b c_ta c_tb c_ab c_ba]. auto 10.
  Qed.
  Lemma int_session_agree l ta tb m d ra rb :
    steps m (start (party_int S E MA go_on l) ta (party_int S E MB go_on (opposite S l)) tb) d ->
    c_a d = Ret ra -> c_b d = Ret rb ->
    c_ab d = [] /\ c_ba d = [] /\ exists la lb, ra = Ok la /\ rb = Ok lb /\ agree S go_on l la lb.
  Proof.
    intros Hs Ha Hb. destruct (alike_steps _ _ _ _ (starts_alike l ta tb) Hs) as (d' & Hs' & (H1 & H2 & H3 & H4 & H5 & H6)).
    rewrite Ha in H1. rewrite Hb in H2. apply alike_sym, alike_ret_inv in H1, H2. rewrite H5, H6. exact (session_agree t Ht E G MA MB GA GB HC go_on Hgo l ta tb m d' ra rb Hs' H1 H2).
  Qed.
  Lemma int_session_stuck l ta tb :
    exists n, forall m d, steps m (start (party_int S E MA go_on l) ta (party_int S E MB go_on (opposite S l)) tb) d ->
      (m <= n)%nat /\ (stuck d -> session_end S go_on l d).
  Proof.
    destruct (session_stuck t Ht E G MA MB GA GB HC go_on Hgo l ta tb) as [n Hn]. exists n. intros m d Hs.
    destruct (alike_steps _ _ _ _ (starts_alike l ta tb) Hs) as (d' & Hs' & Hd). destruct (Hn m d' Hs') as [Hm He]. split; [exact Hm|]. intro Hk.
    eapply alike_end; [exact Hd|]. apply He. exact (alike_stuck _ _ Hd Hk).
  Qed.
End Sessions.
