(** Proofs about one Vector-OLE generator, whatever the other party does. *)
From Verif Require Import Base BaseFacts ListFacts ScalarModel ScalarSpec ProcModel ProcSpec RotModel SpfssModel
  GilboaModel GilboaSpec RngModel CuckooModel CuckooSpec MpfssModel MpfssSpec MpfssProofs MpfssFinal VoleModel VoleSpec VoleMeet VolePair.
From Coq Require Import QArith Permutation.
Local Open Scope Z_scope.

Lemma possible_bind {T A B} (p : proc T A) (f : A -> proc T B) r :
  possible (pbind p f) r -> exists x, possible p x /\ possible (f x) r.
Proof.
  induction p as [x|m k IH|k IH|c cs k IH|k IH]; cbn; intro H.
  - exists x. split; [constructor|exact H].
  - inversion H; subst. destruct (IH ltac:(assumption)) as (x0 & X1 & X2). exists x0. split; [now constructor|auto].
  - inversion H; subst. destruct (IH _ ltac:(eassumption)) as (y0 & X1 & X2). exists y0. split; [econstructor; eauto|auto].
  - inversion H; subst. destruct (IH _ ltac:(eassumption)) as (y0 & X1 & X2). exists y0. split; [econstructor; eauto|auto].
  - inversion H; subst. destruct (IH _ _ ltac:(eassumption)) as (y0 & X1 & X2). exists y0. split; [econstructor; eauto|auto].
Qed.
Lemma possible_ret_inv {T A} (x r : A) : possible (T := T) (Ret x) r -> r = x.
Proof. intro H. now inversion H. Qed.
Lemma possible_bindr_ok {T A B} (p : proc T (res A)) (f : A -> proc T (res B)) y :
  possible (pbindr p f) (Ok y) -> exists x, possible p (Ok x) /\ possible (f x) (Ok y).
Proof.
  intro H. apply possible_bind in H. destruct H as ([x|e|w] & H1 & H2); [eauto| |]; apply possible_ret_inv in H2; discriminate.
Qed.
Lemma possible_lift_ok {T A B} (m : res A) (f : A -> proc T (res B)) y :
  possible (plift m f) (Ok y) -> exists x, m = Ok x /\ possible (f x) (Ok y).
Proof. destruct m; cbn; intro H; [eauto| |]; apply possible_ret_inv in H; discriminate. Qed.

Section Solo.
  Variable S : scalar.

  Definition triple {A} (m : proc S (vole S * res A)) (Q : vole S -> res A -> Prop) : Prop :=
    forall st r, possible m (st, r) -> Q st r.

  Lemma t_ret {A} st (r : res A) (Q : vole S -> res A -> Prop) : Q st r -> triple (Ret (st, r)) Q.
  Proof. intros H st' r' P. apply possible_ret_inv in P. now injection P as -> ->. Qed.
  Lemma t_bind {A B} (p : member S A) (f : A -> member S B) st Q :
    triple (p st) (fun st1 r => match r with Ok x => triple (f x st1) Q | Err e => Q st1 (Err e) | UB w => Q st1 (UB w) end) ->
    triple (mbind p f st) Q.
  Proof.
    intros H st' r' P. apply possible_bind in P. destruct P as ([st1 [x|e|w]] & P1 & P2); apply H in P1.
    - apply P1. exact P2.
    - apply possible_ret_inv in P2. now injection P2 as -> ->.
    - apply possible_ret_inv in P2. now injection P2 as -> ->.
  Qed.
  Lemma t_weaken {A} (m : proc S (vole S * res A)) (Q Q' : vole S -> res A -> Prop) :
    triple m Q -> (forall st r, Q st r -> Q' st r) -> triple m Q'.
  Proof. intros H H' st r P. apply H', H, P. Qed.
  Lemma t_calc {A B} (m : res A) (f : A -> member S B) st (Q : vole S -> res B -> Prop) :
    (forall x, m = Ok x -> triple (f x st) Q) -> (forall e, m = Err e -> Q st (Err e)) -> (forall w, m = UB w -> Q st (UB w)) ->
    triple (mbind (mcalc m) f st) Q.
  Proof. intros H1 H2 H3. apply t_bind. apply t_ret. destruct m; auto. Qed.
  Lemma t_proc {A B} (p : proc S (res A)) (f : A -> member S B) st (Q : vole S -> res B -> Prop) :
    (forall x, possible p (Ok x) -> triple (f x st) Q) -> (forall e, Q st (Err e)) -> (forall w, Q st (UB w)) ->
    triple (mbind (mproc p) f st) Q.
  Proof.
    intros H1 H2 H3. apply t_bind. intros st' r' P. apply possible_bind in P. destruct P as (x & P1 & P2).
    apply possible_ret_inv in P2. injection P2 as -> ->. destruct x; auto.
  Qed.
  Lemma t_proc' {A B} (p : proc S (res A)) (f : A -> member S B) st (Q : vole S -> res B -> Prop) :
    (forall x, possible p (Ok x) -> triple (f x st) Q) -> (forall e, possible p (Err e) -> Q st (Err e)) -> (forall w, Q st (UB w)) ->
    triple (mbind (mproc p) f st) Q.
  Proof.
    intros H1 H2 H3. apply t_bind. intros st' r' P. apply possible_bind in P. destruct P as (x & P1 & P2).
    apply possible_ret_inv in P2. injection P2 as -> ->. destruct x; auto.
  Qed.

  (** ** Number of elements *)
  Lemma count_app {A} (p : A -> bool) l l' : count p (l ++ l') = count p l + count p l'.
  Proof. unfold count. now rewrite filter_app, zlen_app. Qed.
  Lemma count_nonneg {A} (p : A -> bool) l : 0 <= count p l.
  Proof. apply zlen_nonneg. Qed.
  Lemma shrink_tail_count {A} (p : A -> bool) n l : count p (shrink n l) + count p (tail n l) = count p l.
  Proof. rewrite <- count_app. f_equal. unfold shrink, tail. apply firstn_skipn. Qed.
  Lemma combine_firstn {A B} n (l : list A) (l' : list B) : firstn n (combine l l') = combine (firstn n l) (firstn n l').
  Proof. revert l l'. induction n; intros [|a l] [|b l']; cbn; auto. now rewrite IHn. Qed.
  Lemma combine_skipn {A B} n (l : list A) (l' : list B) : skipn n (combine l l') = combine (skipn n l) (skipn n l').
  Proof. revert l l'. induction n; intros [|a l] [|b l']; cbn; auto. now destruct (skipn n l). Qed.
  Lemma combine_app {A B} (l1 l2 : list A) (m1 m2 : list B) : zlen l1 = zlen m1 ->
    combine (l1 ++ l2) (m1 ++ m2) = combine l1 m1 ++ combine l2 m2.
  Proof.
    revert m1. induction l1 as [|a l1 IH]; intros [|b m1] H; rewrite ?zlen_cons in H; cbn; auto;
      try (pose proof (zlen_nonneg m1); change (zlen (@nil A)) with 0 in H; change (zlen (@nil B)) with 0 in H; lia).
    - pose proof (zlen_nonneg l1). change (zlen (@nil B)) with 0 in H. lia.
    - f_equal. apply IH. lia.
  Qed.
  Lemma pairs_split_count p n (u v : list S) : zlen u = zlen v ->
    count p (combine (shrink n u) (shrink n v)) + count p (combine (tail n u) (tail n v)) = count p (combine u v).
  Proof.
    intro H. unfold shrink, tail. rewrite <- H, <- combine_firstn, <- combine_skipn, <- count_app. f_equal. apply firstn_skipn.
  Qed.
  Lemma count_list_set {A} (z : A -> bool) l n a : count z (list_set l n a) <= count z l + 1.
  Proof.
    unfold count. revert n. induction l as [|x l IH]; intros [|n]; cbn; try (destruct (z a)); try (destruct (z x)); rewrite ?zlen_cons;
      try lia; try (specialize (IH n); lia).
  Qed.
  Lemma count_zrepeat {A} (z : A -> bool) a n : z a = false -> count z (zrepeat a n) = 0.
  Proof. intro H. unfold count, zrepeat. induction (Z.to_nat n); cbn; [reflexivity|]. now rewrite H. Qed.

  Variable E : setting.
  Hypothesis G : good_setting S E.
  Variable M : machine S.
  Notation P := (e_parameters E).
  Notation aes := (e_aes E).
  Notation clog := (e_clog E).
  Notation too := (e_too_many_bits E).
  Notation e3 := (e_expansion3 E).
  Notation e2 := (e_expansion2 E).
  Notation lv := (zlen (p_seed_size P)).
  Notation top := (last (p_output_size P) 0).
  Notation sd i := (znth 0 (p_seed_size P) i).
  Notation no i := (znth 0 (p_num_noise P) i).

  (** ** The MPFSS object *)
  Lemma update_hasher sizes m n k : m_hasher (fst (update_buckets aes too e3 e2 sizes m n k)) = m_hasher m.
  Proof.
    unfold update_buckets. destruct (_ || _); [|reflexivity]. destruct (n <? 0); [reflexivity|].
    destruct (get_optimal_number_of_buckets _ _ _ _); auto. now destruct (hash_simple _ _ _ _ _ _).
  Qed.
  Lemma map_back_len B n O out r : map_back S B n O out = Ok r -> zlen r = zlen out.
  Proof.
    unfold map_back. intro H. destruct (Z.le_gt_cases n 0) as [Hn|Hn].
    { rewrite for_range_empty in H by lia. now injection H as <-. }
    apply (for_range_inv_ok (fun _ l => zlen l = zlen out)) in H; auto; [lia|].
    intros i l l' Hi Hl E1. apply rbind_ok_inv in E1. destruct E1 as (bk & _ & E1).
    destruct (Z.le_gt_cases (wrap32 (zlen bk)) 0) as [Hw|Hw].
    { rewrite for_range_empty in E1 by lia. injection E1 as <-. exact Hl. }
    apply (for_range_inv_ok (fun _ l => zlen l = zlen out)) in E1; auto; [lia|].
    intros j a a' Hj Ha E2. do 4 (apply rbind_ok_inv in E2; destruct E2 as (? & _ & E2)).
    unfold zset in E2. destruct (_ && _); [|discriminate]. injection E2 as <-. now rewrite zlen_list_set.
  Qed.
  Lemma after_update_solo {A} u (k : mpfss -> proc S (res A)) m' r : possible (after_update S u k) (m', r) ->
    m' = fst u /\ forall x, r = Ok x -> possible (k m') (Ok x).
  Proof.
    destruct u as [m [y|e|w]]; cbn; intro H.
    - apply possible_bind in H. destruct H as (r0 & H1 & H2). apply possible_ret_inv in H2. injection H2 as -> ->. split; [auto|]. now intros x ->.
    - apply possible_ret_inv in H. injection H as -> ->. split; [auto|discriminate].
    - apply possible_ret_inv in H. injection H as -> ->. split; [auto|discriminate].
  Qed.
  Lemma index_solo sizes m y idx u v out m' r : possible (mpfss_index_provider S aes clog too e3 e2 sizes m y idx u v out) (m', r) ->
    m_hasher m' = m_hasher m /\ forall x, r = Ok x -> zlen x = zlen out.
  Proof.
    unfold mpfss_index_provider. intro H.
    do 3 (destruct (_ : bool) in H; [apply possible_ret_inv in H; injection H as -> ->; split; [auto|discriminate]|]).
    destruct (2 ^ 31 <=? _); [apply possible_ret_inv in H; injection H as -> ->; split; [auto|discriminate]|].
    destruct (negb (check_indices _ _)); [apply possible_ret_inv in H; injection H as -> ->; split; [auto|discriminate]|].
    apply after_update_solo in H. destruct H as [-> H]. split; [apply update_hasher|]. intros x Hx. specialize (H x Hx). clear Hx r.
    unfold index_provider_body in H. apply possible_lift_ok in H. destruct H as (hi & _ & H).
    destruct (_ <? 0); [apply possible_ret_inv in H; discriminate|].
    apply possible_lift_ok in H. destruct H as (yp & _ & H).
    destruct (negb _); [apply possible_ret_inv in H; discriminate|]. inversion H; subst.
    match goal with X : possible (plift _ _) _ |- _ => apply possible_lift_ok in X; destruct X as (bo & _ & X); apply possible_lift_ok in X; destruct X as (ib & _ & X); apply possible_bindr_ok in X; destruct X as (bo' & _ & X); apply possible_ret_inv in X; symmetry in X; apply map_back_len in X; rewrite X end.
    apply zlen_zrepeat, zlen_nonneg.
  Qed.
  Lemma value_solo sizes m x0 n w out m' r : possible (mpfss_value_provider S aes clog (vole_K E) too e3 e2 sizes m x0 n w out) (m', r) ->
    m_hasher m' = m_hasher m /\ forall x, r = Ok x -> zlen x = zlen out.
  Proof.
    unfold mpfss_value_provider. intro H.
    destruct (n <? 1); [apply possible_ret_inv in H; injection H as -> ->; split; [auto|discriminate]|].
    apply after_update_solo in H. destruct H as [-> H]. split; [apply update_hasher|]. intros x Hx. specialize (H x Hx). clear Hx r.
    unfold value_provider_body, recv_vec in H. inversion H; subst.
    match goal with X : possible (match ?m with _ => _ end) _ |- _ => destruct m; try (apply possible_ret_inv in X; discriminate);
      destruct (negb _); [apply possible_ret_inv in X; discriminate|]; destruct (_ <? 0) in X; [apply possible_ret_inv in X; discriminate|];
      apply possible_lift_ok in X; destruct X as (bo & _ & X); apply possible_bindr_ok in X; destruct X as (bo' & _ & X); apply possible_ret_inv in X; symmetry in X; apply map_back_len in X; rewrite X end.
    apply zlen_zrepeat, zlen_nonneg.
  Qed.

  (** ** Sender *)
  Definition slens (s : sender_side S) : Prop :=
    zlen (sr_u (s_cached s)) = zlen (sr_v (s_cached s)) /\
    zlen (sr_u (s_vole_seed s)) = zlen (sr_v (s_vole_seed s)) /\ zlen (sr_u (s_mpfss_seed s)) = zlen (sr_v (s_mpfss_seed s)).
  Definition slack p (s : sender_side S) : Z :=
    count p (s_made s) - (count p (s_used s) + count p (pairs (s_cached s)) + count p (pairs (s_vole_seed s)) + count p (pairs (s_mpfss_seed s))).
  Definition made_by nvs nms (u v : list S) (s : sender_side S) : sender_side S :=
    reseed_s S nvs nms (log_s S (combine u v) (pairs (s_vole_seed s) ++ pairs (s_mpfss_seed s))
      (set_s_cached S (SenderResult (sr_u (s_cached s) ++ u) (sr_v (s_cached s) ++ v)) s)).

  Lemma reseed_lens nvs nms s : zlen (sr_u (s_cached s)) = zlen (sr_v (s_cached s)) -> 0 <= nvs -> 0 <= nms -> nvs + nms <= zlen (sr_u (s_cached s)) ->
    slens (reseed_s S nvs nms s).
  Proof.
    intros H H1 H2 H3. unfold slens, reseed_s. cbn. rewrite !zlen_shrink by (rewrite ?zlen_shrink; lia).
    rewrite !zlen_tail by (rewrite ?zlen_shrink; lia). lia.
  Qed.
  Lemma reseed_count p nvs nms s : zlen (sr_u (s_cached s)) = zlen (sr_v (s_cached s)) -> 0 <= nvs -> 0 <= nms -> nvs + nms <= zlen (sr_u (s_cached s)) ->
    let s' := reseed_s S nvs nms s in
    count p (pairs (s_cached s')) + count p (pairs (s_vole_seed s')) + count p (pairs (s_mpfss_seed s')) = count p (pairs (s_cached s)).
  Proof.
    intros H H1 H2 H3. unfold reseed_s, pairs. cbn.
    pose proof (pairs_split_count p nvs _ _ H). pose proof (pairs_split_count p nms (shrink nvs (sr_u (s_cached s))) (shrink nvs (sr_v (s_cached s)))) as H4.
    rewrite !zlen_shrink in H4 by lia. lia.
  Qed.
  Lemma made_slack p nvs nms u v s : slens s -> zlen u = zlen v -> 0 <= nvs -> 0 <= nms -> nvs + nms <= zlen u ->
    slack p (made_by nvs nms u v s) = slack p s.
  Proof.
    intros (H & _) Hu H1 H2 H3. pose proof (zlen_nonneg (sr_u (s_cached s))).
    pose proof (reseed_count p nvs nms (log_s S (combine u v) (pairs (s_vole_seed s) ++ pairs (s_mpfss_seed s)) (set_s_cached S (SenderResult (sr_u (s_cached s) ++ u) (sr_v (s_cached s) ++ v)) s))) as H4.
    cbv zeta in H4. specialize (H4 ltac:(cbn; rewrite !zlen_app; lia) H1 H2 ltac:(cbn; rewrite !zlen_app; lia)).
    unfold slack, made_by. set (s' := reseed_s _ _ _ _) in *.
    assert (E1 : s_made s' = s_made s ++ combine u v) by reflexivity.
    assert (E2 : s_used s' = s_used s ++ pairs (s_vole_seed s) ++ pairs (s_mpfss_seed s)) by reflexivity.
    rewrite E1, E2, !count_app. cbn [log_s set_s_cached s_cached] in H4. unfold pairs in H4 at 4. cbn [sr_u sr_v] in H4. rewrite combine_app, count_app in H4 by auto.
    unfold pairs in *. lia.
  Qed.
  Lemma made_lens nvs nms u v s : slens s -> zlen u = zlen v -> 0 <= nvs -> 0 <= nms -> nvs + nms <= zlen u -> slens (made_by nvs nms u v s).
  Proof.
    intros (H & _) Hu H1 H2 H3. pose proof (zlen_nonneg (sr_u (s_cached s))). apply reseed_lens; auto; cbn; rewrite !zlen_app; lia.
  Qed.

  Lemma spread_solo out num idx y mu : 0 <= out -> spread S out num idx y = Ok mu ->
    zlen mu = out /\ forall z, z (s_zero S) = false -> count z mu <= Z.max 0 num.
  Proof.
    intros Ho H. unfold spread in H. destruct (Z.le_gt_cases num 0) as [Hn|Hn].
    { rewrite for_range_empty in H by lia. injection H as <-. split; [now apply zlen_zrepeat|]. intros z Hz. rewrite count_zrepeat by auto. lia. }
    apply (for_range_inv_ok (fun i l => zlen l = out /\ forall z, z (s_zero S) = false -> count z l <= i)) in H.
    - destruct H as [H1 H2]. split; [auto|]. intros z Hz. specialize (H2 z Hz). lia.
    - lia.
    - split; [now apply zlen_zrepeat|]. intros z Hz. rewrite count_zrepeat by auto. lia.
    - intros i l l' Hi [Hl Hc] E1. do 2 (apply rbind_ok_inv in E1; destruct E1 as (? & _ & E1)).
      unfold zset in E1. destruct (_ && _); [|discriminate]. injection E1 as <-. rewrite zlen_list_set. split; [auto|].
      intros z Hz. specialize (Hc z Hz). pose proof (count_list_set z l (Z.to_nat x) x0). lia.
  Qed.

  (** What a successful expansion does. *)
  Definition expanded_s out nvs nms (st st' : vole S) : Prop :=
    exists m mu v, m_hasher m = m_hasher (v_mpfss st) /\ zlen (v_columns st) = out /\ zlen mu = out /\ zlen v = out /\
      (forall z, z (s_zero S) = false -> count z mu <= Z.max 0 (v_num_noise st)) /\
      st' = Vole S m (v_rows st) (v_columns st) (v_batch_size st) nvs nms (v_num_noise st)
              (made_by nvs nms (vec_add S (encode S (v_columns st) (sr_u (s_vole_seed (v_s st)))) mu) v (v_s st)) (v_r st).
  Definition failed_expansion (st st' : vole S) : Prop := exists m, m_hasher m = m_hasher (v_mpfss st) /\ st' = set_mpfss S m st.

  Lemma expand_sender_solo out nvs nms st : slens (v_s st) -> 0 <= nvs -> 0 <= nms -> nvs + nms <= out ->
    triple (expand_sender S E M out nvs nms st)
      (fun st' r => match r with Ok _ => expanded_s out nvs nms st st' | Err _ => failed_expansion st st' | UB _ => True end).
  Proof.
    intros HL H1 H2 H3.
    assert (HF : failed_expansion st st) by (exists (v_mpfss st); split; [reflexivity|]; now destruct st).
    unfold expand_sender. rewrite !bind_get. cbv zeta.
    destruct (negb (_ =? _)) eqn:D1; [apply t_ret; exact HF|]. destruct (negb (_ =? _) || _) eqn:D2; [apply t_ret; exact HF|].
    apply orb_false_iff in D2. destruct D2 as [D2 D3]. apply negb_false_iff in D1, D2, D3.
    apply t_proc; [|auto|auto]. intros bs _. apply t_calc; [|auto|auto]. intros g _. apply t_calc; [|auto|auto]. intros set _.
    apply t_proc; [|auto|auto]. intros indices _. destruct (_ <? 0); [apply t_ret; exact I|].
    apply t_proc; [|auto|auto]. intros y _. apply t_bind.
    intros st1 r Hp. unfold mmpfss in Hp. apply possible_bind in Hp. destruct Hp as ([m x] & Hp & Hr). apply possible_ret_inv in Hr. injection Hr as -> ->.
    apply index_solo in Hp. destruct Hp as [Hm Hx]. rewrite zlen_zrepeat in Hx by lia.
    destruct x as [v0|e|w]; [|exists m; auto|auto]. specialize (Hx v0 eq_refl).
    apply t_calc; [|intros; exists m; auto|auto]. intros mu Emu. apply spread_solo in Emu; [|lia]. destruct Emu as [Lmu Cmu]. rewrite bind_set.
    set (cols := v_columns st) in *. set (seed := s_vole_seed (v_s st)) in *.
    set (u := vec_add S (encode S cols (sr_u seed)) mu). set (v := vec_sub S (encode S cols (sr_v seed)) v0).
    assert (Lu : zlen u = out) by (unfold u; rewrite zlen_vec_add; rewrite zlen_encode; lia).
    assert (Lv : zlen v = out) by (unfold v; rewrite zlen_vec_sub; rewrite zlen_encode; lia).
    pose proof (zlen_nonneg (sr_u (s_cached (v_s st)))).
    erewrite bind_ok; [|apply new_sender_ok; auto; cbn; rewrite zlen_app; lia]. rewrite bind_set. unfold mset. apply t_ret.
    assert (Lc : zlen (v_columns st) = out) by (fold cols; lia).
    exists m, mu, v. repeat (split; [first [assumption | lia]|]). reflexivity.
  Qed.

  (** ** Precomputation *)
  Hypothesis GM : good_machine S M.
  Definition hash3 (st : vole S) : Prop := ch_num_hash_functions (m_hasher (v_mpfss st)) = 3.
  (** The code generator is not yet sampled, or larger than that of the first level. *)
  (** A sampled code generator, and one that is sampled or zero. *)
  Definition coded rows (cols : list (list (Z * S))) : Prop :=
    exists seed g, rng_create seed (p_nonzeros P * zlen cols) = Ok g /\ sample_generator S E rows (zlen cols) g = Ok cols /\
      s_can_hash S (security_per_leaf (vole_K E) (p_nonzeros P * zlen cols)) 128 = true.
  Definition gen rows (cols : list (list (Z * S))) : Prop := cols = zrepeat [] (zlen cols) \/ coded rows cols.
  Definition wide (st : vole S) : Prop :=
    gen (v_rows st) (v_columns st) /\ (zlen (v_columns st) = 0 \/ sd 0 + e3 (no 0) < zlen (v_columns st)).
  (** The code generator does not fit, or is zero. *)
  Definition stale (st : vole S) : Prop :=
    zlen (v_columns st) <> v_batch_size st + v_vole_seed_size st + v_mpfss_seed_size st \/
    1 <= v_batch_size st /\ exists n, v_columns st = zrepeat [] n.
  Definition base (st : vole S) : Prop :=
    hash3 st /\ (0 <= v_vole_seed_size st /\ 0 <= v_mpfss_seed_size st /\ 0 <= v_batch_size st) /\ wide st.

  Lemma sizes_grow i j : 0 <= i <= j -> j < lv -> sd i + e3 (no i) <= sd j + e3 (no j).
  Proof.
    intros Hi Hj. replace j with (i + Z.of_nat (Z.to_nat (j - i))) in * by lia. induction (Z.to_nat (j - i)) as [|n IH]; [rewrite Z.add_0_r; lia|].
    pose proof (gs_grow S E G (i + Z.of_nat n)) as Hg. replace (i + Z.of_nat n + 1) with (i + Z.of_nat (Datatypes.S n)) in Hg by lia. specialize (IH ltac:(lia) ltac:(lia)). lia.
  Qed.
  Lemma sizes_grow_0 i : 0 <= i -> i + 1 < lv -> sd 0 + e3 (no 0) < sd (i + 1) + e3 (no (i + 1)).
  Proof. intros Hi Hj. pose proof (sizes_grow 0 i). pose proof (gs_grow S E G i). lia. Qed.

  Lemma num_buckets_solo m i : ch_num_hash_functions (m_hasher m) = 3 -> 0 <= i < lv -> num_buckets e3 e2 m (no i) = Ok (e3 (no i)).
  Proof.
    intros Hm Hi. pose proof (level_facts S E G i Hi). pose proof (top_small S E G). unfold num_buckets, get_optimal_number_of_buckets. rewrite Hm.
    replace (no i <? 0) with false by lia. replace (no i =? 0) with false by lia. cbn. rewrite wrap32_id by lia. reflexivity.
  Qed.
  Lemma update_solo m i out : ch_num_hash_functions (m_hasher m) = 3 -> 0 <= i < lv -> 0 <= out <= top ->
    snd (update_buckets aes too e3 e2 (c_split M out) m out (no i)) = Ok tt.
  Proof.
    intros Hm Hi Ho. pose proof (level_facts S E G i Hi) as (Hsd & Hn & Hs & Ht & _). pose proof (top_small S E G).
    destruct m as [[seed k] bk co cn]. cbn in Hm. subst k.
    pose proof (update_ok aes clog too e3 e2 (He3 S E G) (He2 S E G) seed (c_split M out) (mpfss_new (Hasher seed 3)) out (no i)) as Hu.
    unfold update_buckets. destruct (_ || _) eqn:Ed; [|reflexivity].
    unfold update_buckets in Hu. cbn [mpfss_new m_cached_output_size differs orb m_hasher m_cached_num_indices] in Hu. cbn [m_hasher].
    assert (HC : coherent aes too e3 e2 (Hasher seed 3) (mpfss_new (Hasher seed 3))) by (split; [reflexivity|]; cbn; discriminate).
    specialize (Hu HC (gm_split S M GM out ltac:(lia)) ltac:(lia) ltac:(lia) ltac:(lia) (Ht out Ho)). cbn [m_hasher mpfss_new] in Hu.
    destruct (out <? 0); [discriminate|]. destruct (get_optimal_number_of_buckets _ _ _ _) as [nb|e|w]; try discriminate.
    cbn [m_hasher mpfss_new] in Hu. destruct (hash_simple _ _ _ _ _ _); try discriminate. reflexivity.
  Qed.

  Lemma rand_blocks_len {T A} n (k : list N -> proc T A) r : possible (rand_blocks n k) r -> exists l, List.length l = n /\ possible (k l) r.
  Proof.
    revert k. induction n as [|n IH]; intros k H; cbn in H; [exists []; auto|]. inversion H; subst.
    match goal with X : possible (rand_blocks n _) _ |- _ => apply IH in X; destruct X as (l & Hl & X) end. eexists. split; [|eassumption]. cbn. auto.
  Qed.
  Lemma rand_scalars_len {A} n (k : list S -> proc S A) r : possible (rand_scalars n k) r -> exists l, List.length l = n /\ possible (k l) r.
  Proof.
    revert k. induction n as [|n IH]; intros k H; cbn in H; [exists []; auto|]. inversion H; subst.
    match goal with X : possible (rand_scalars n _) _ |- _ => apply IH in X; destruct X as (l & Hl & X) end. eexists. split; [|eassumption]. cbn. auto.
  Qed.

  Lemma for_range_no_err {A} lo hi (f : Z -> A -> res A) x e : (forall i y e', f i y <> Err e') -> for_range lo hi f x <> Err e.
  Proof.
    intro Hf. unfold for_range. generalize (Z.to_nat (hi - lo)). intro n. revert lo x. induction n as [|n IH]; intros lo x; cbn; [discriminate|].
    destruct (f lo x) as [y|e'|w] eqn:Ef; cbn; [apply IH| |discriminate]. now apply Hf in Ef.
  Qed.
  Lemma accumulate_no_err op l n o e : accumulate S op l n o <> Err e.
  Proof.
    unfold accumulate. apply for_range_no_err. intros i y e'. apply for_range_no_err. intros j y' e''.
    unfold zget at 1. destruct (_ && _); [|discriminate]. destruct (nth_error _ _); [|discriminate]. apply for_range_no_err. intros k y'' e3'.
    unfold zget. do 2 (destruct (_ && _); [|discriminate]; destruct (nth_error _ _); [|discriminate]; cbn). unfold zset. now destruct (_ && _).
  Qed.
  Lemma vector_no_error y o e : zlen y = zlen o -> ~ possible (gilboa_vector_provider S (vole_K E) y o) (Err e).
  Proof.
    intros Hl H. unfold gilboa_vector_provider in H. rewrite Hl, Z.eqb_refl in H. pose proof (gs_size S E G). replace (16 <? s_size S) with false in H by lia. cbn [negb] in H.
    destruct (vector_deltas S y _) as [ds|e'|w] eqn:Ed.
    - cbn [plift] in H. unfold run_ot_sender, ot_send in H. destruct (use_correlated_ot _ _ _).
      + apply rand_blocks_len in H. destruct H as (l & _ & H). inversion H as [|? ? ? H1| | |]; subst. apply possible_ret_inv in H1. symmetry in H1. now apply accumulate_no_err in H1.
      + apply rand_scalars_len in H. destruct H as (l & _ & H). inversion H as [|? ? ? H1| | |]; subst. apply possible_ret_inv in H1. symmetry in H1. now apply accumulate_no_err in H1.
    - unfold vector_deltas in Ed. revert Ed. apply for_range_no_err. intros i l e0. apply for_range_no_err. intros j l' e1. unfold zset. now destruct (_ && _).
    - cbn in H. apply possible_ret_inv in H. discriminate.
  Qed.

  Lemma common_solo out st i : hash3 st -> level S E st i -> 0 <= out <= top ->
    triple (precompute_common S E M out st) (fun st' r => match r with UB _ => True | _ =>
      exists m cols, m_hasher m = m_hasher (v_mpfss st) /\ zlen cols = out /\
        st' = set_generator S (v_vole_seed_size st) cols (set_mpfss S m st) /\
        (forall e, r = Err e -> cols = zrepeat [] out) /\ (forall x, r = Ok x -> coded (v_vole_seed_size st) cols) end).
  Proof.
    intros Hh (Hi & E1 & E2 & E3) Ho. unfold precompute_common. rewrite bind_get. rewrite E3.
    pose proof (update_solo (v_mpfss st) i out Hh Hi Ho) as Hu. pose proof (update_hasher (c_split M out) (v_mpfss st) out (no i)) as Hm.
    set (m := fst (update_buckets aes too e3 e2 (c_split M out) (v_mpfss st) out (no i))) in *.
    erewrite bind_ok; [|unfold m_update_buckets; rewrite (surjective_pairing (update_buckets _ _ _ _ _ _ _ _)), Hu; reflexivity].
    fold m. rewrite bind_get, bind_set. cbn [set_mpfss v_vole_seed_size].
    set (st1 := set_generator S _ _ _).
    assert (H0 : zlen (zrepeat (@nil (Z * S)) out) = out) by (apply zlen_zrepeat; lia).
    assert (HF : forall e, exists m cols, m_hasher m = m_hasher (v_mpfss st) /\ zlen cols = out /\
        st1 = set_generator S (v_vole_seed_size st) cols (set_mpfss S m st) /\ (forall e', Err (A := unit) e = Err e' -> cols = zrepeat [] out) /\ (forall x, Err (A := unit) e = Ok x -> coded (v_vole_seed_size st) cols)).
    { intro e. exists m, (zrepeat [] out). repeat (split; [auto|]). discriminate. }
    apply t_proc; [|auto|auto]. intros seed _. apply t_calc; [|auto|auto]. intros g Hg.
    destruct (negb _) eqn:Hs; [apply t_ret; apply HF|]. apply negb_false_iff in Hs. apply t_calc; [|auto|auto]. intros cols Hc. pose proof Hc as Hc'. apply sample_generator_len in Hc; [|lia].
    unfold mset. apply t_ret. exists m, cols. split; [auto|]. split; [auto|]. split; [reflexivity|]. split; [discriminate|]. intros _ _. exists seed, g. rewrite Hc. auto.
  Qed.

  (** The other members after a step. *)
  Definition around (st st' : vole S) vs ms : Prop :=
    m_hasher (v_mpfss st') = m_hasher (v_mpfss st) /\ v_rows st' = v_rows st /\ v_columns st' = v_columns st /\
    v_batch_size st' = v_batch_size st /\ v_num_noise st' = v_num_noise st /\ v_vole_seed_size st' = vs /\ v_mpfss_seed_size st' = ms.

  Section Boot.
    Variable step : Z -> Z -> Z -> member S unit.
    Variable I F : sender_side S -> receiver_side S -> Prop.
    Hypothesis IF : forall s r, I s r -> F s r.
    Hypothesis Hstep : forall out nvs nms st, I (v_s st) (v_r st) -> 0 <= nvs -> 0 <= nms -> nvs + nms = out ->
      triple (step out nvs nms st) (fun st' r => match r with
        | Ok _ => I (v_s st') (v_r st') /\ around st st' nvs nms
        | Err _ => F (v_s st') (v_r st') /\ around st st' (v_vole_seed_size st) (v_mpfss_seed_size st)
        | UB _ => True end).

    Lemma bootstrap_solo batch n : forall i st, I (v_s st) (v_r st) -> hash3 st -> wide st -> level S E st i -> v_batch_size st = 0 ->
      Z.to_nat (lv - 1 - i) = n ->
      triple (bootstrap S E M step batch (zrange i (lv - 1)) st) (fun st' r => match r with
        | Ok _ => I (v_s st') (v_r st') /\ hash3 st' /\ wide st' /\ v_batch_size st' = 0 /\ exists i', level S E st' i'
        | Err _ => F (v_s st') (v_r st') /\ base st' /\ stale st'
        | UB _ => True end).
    Proof.
      induction n as [|n IH]; intros i st HI Hh HW Hlv Hb Hn.
      { rewrite zrange_nil by lia. cbn [bootstrap]. apply t_ret. eauto 10. }
      rewrite zrange_cons by lia. cbn [bootstrap]. pose proof Hlv as (Hi & E1 & E2 & E3).
      pose proof (gs_outputs S E G). pose proof (gs_noises S E G). pose proof (top_small S E G) as Htop.
      rewrite (bind_calc S _ (znth 0 (p_output_size P) i)) by (apply zget_ok; lia). rewrite !bind_get.
      apply t_calc; [|intros e He; now apply int64_err in He|auto]. intros needed _.
      destruct (needed <=? _); [apply t_ret; eauto 10|].
      assert (Hi1 : 0 <= i + 1 < lv) by lia. pose proof (level_facts S E G (i + 1) Hi1) as (F1 & F2 & F3 & _). pose proof (level_facts S E G i Hi) as (K1 & K2 & K3 & _).
      rewrite (bind_calc S _ (sd (i + 1))) by (apply zget_ok; lia). rewrite (bind_calc S _ (no (i + 1))) by (apply zget_ok; lia).
      rewrite (bind_ok S _ _ st st (e3 (no (i + 1)))) by (unfold m_num_buckets; rewrite num_buckets_solo; auto).
      pose proof (sizes_grow_0 i ltac:(lia) ltac:(lia)) as Hgr. pose proof (gs_grow S E G i ltac:(lia)) as Hgr'.
      set (out := sd (i + 1) + e3 (no (i + 1))) in *. rewrite (bind_calc S _ out) by (apply int_small; lia).
      apply t_bind. eapply t_weaken; [apply (common_solo out st i Hh Hlv); lia|]. cbv beta.
      intros st1 [x|e|w]; [| |auto].
      2: { intros (m & cols & Hm & Lc & -> & He & _). split; [apply IF; exact HI|]. split.
           - unfold base, hash3, wide. cbn. rewrite Hm, Hb. split; [exact Hh|]. split; [lia|]. rewrite Lc. split; [left; rewrite Lc; now apply (He e)|right; exact Hgr].
           - left. cbn. rewrite Lc, Hb. lia. }
      intros (m & cols & Hm & Lc & -> & _ & Hcd). specialize (Hcd x eq_refl). apply t_bind. eapply t_weaken; [apply (Hstep out (sd (i + 1)) (e3 (no (i + 1)))); [exact HI|lia|lia|lia]|]. cbv beta.
      intros st2 [y|e|w]; [| |auto].
      - intros (HI2 & A1 & A2 & A3 & A4 & A5 & A6 & A7). rewrite bind_set. apply IH; cbn; auto.
        + unfold hash3 in *. cbn in *. congruence.
        + cbn in A2, A3. unfold wide. cbn. rewrite A2, A3, Lc. split; [right; exact Hcd|right; exact Hgr].
        + unfold level. cbn. auto.
        + cbn in A4. congruence.
        + lia.
      - intros (HF & A1 & A2 & A3 & A4 & A5 & A6 & A7). split; [exact HF|]. cbn in A1, A2, A3, A4, A5, A6, A7. unfold base, hash3, stale, wide in *. rewrite A1, A2, A3, A4, A6, A7, Hm, Hb, Lc. split; [|left; lia].
        split; [exact Hh|]. split; [lia|]. split; [right; exact Hcd|lia].
    Qed.
  End Boot.

  Definition last_size batch i : Z := Z.min batch (top - e3 (no i) - sd i).
  Lemma last_solo batch i st : hash3 st -> level S E st i -> 1 <= batch ->
    triple (precompute_last S E M batch st) (fun st' r => match r with UB _ => True | _ =>
      v_s st' = v_s st /\ v_r st' = v_r st /\ hash3 st' /\ level S E st' i /\ v_batch_size st' = last_size batch i /\
      v_rows st' = sd i /\ zlen (v_columns st') = last_size batch i + sd i + e3 (no i) /\
      (forall e, r = Err e -> v_columns st' = zrepeat [] (last_size batch i + sd i + e3 (no i))) /\
      (forall x, r = Ok x -> coded (v_rows st') (v_columns st')) end).
  Proof.
    intros Hh Hlv Hbt. pose proof Hlv as (Hi & E1 & E2 & E3). unfold last_size.
    pose proof (gs_outputs S E G). pose proof (top_small S E G) as Htop. pose proof (level_facts S E G i Hi) as (K1 & K2 & K3 & _).
    unfold precompute_last.
    assert (Elast : zget (p_output_size P) (zlen (p_output_size P) - 1) = Ok top).
    { rewrite (zget_ok 0) by lia. f_equal. apply znth_last. }
    rewrite (bind_calc S _ _ _ _ Elast), !bind_get, E1, E2. rewrite (bind_calc S _ (top - e3 (no i) - sd i)) by (apply int_small; lia). rewrite bind_set.
    set (be := Z.min batch (top - e3 (no i) - sd i)). set (a1 := set_batch_size S be st).
    assert (Ef : full_output S a1 = Ret (a1, Ok (be + sd i + e3 (no i)))).
    { unfold full_output. rewrite !bind_get. cbn [a1 set_batch_size v_batch_size v_vole_seed_size v_mpfss_seed_size]. rewrite E1, E2. unfold mcalc. rewrite int64_small by lia. reflexivity. }
    rewrite (bind_ok S _ _ a1 a1 _ Ef). eapply t_weaken; [apply (common_solo _ a1 i); [exact Hh|exact Hlv|lia]|].
    intros st' [x|e|w]; [| |auto].
    - intros (m & cols & Hm & Lc & -> & He & Hcd). unfold hash3. cbn. rewrite Hm. do 7 (split; [first [reflexivity | assumption]|]). split; [discriminate|]. cbn in Hcd. rewrite E1 in *. exact Hcd.
    - intros (m & cols & Hm & Lc & -> & He & _). unfold hash3. cbn. rewrite Hm. do 7 (split; [first [reflexivity | assumption]|]). split; [|discriminate]. intros e' He'. now apply (He e').
  Qed.

  Lemma sizes_solo a : hash3 a ->
    precompute_sizes S E a = Ret (set_mpfss_seed_size S (e3 (no 0)) (set_vole_seed_size S (sd 0) (set_num_noise S (no 0) (set_batch_size S 0 a))), Ok (sd 0 + e3 (no 0))).
  Proof.
    intro Hc. pose proof (gs_levels S E G). pose proof (gs_noises S E G). pose proof (level_facts S E G 0 ltac:(lia)). pose proof (top_small S E G).
    unfold precompute_sizes. rewrite bind_set. rewrite (bind_calc S _ (no 0)) by (apply zget_ok; lia). rewrite bind_set.
    rewrite (bind_calc S _ (sd 0)) by (apply zget_ok; lia). rewrite bind_set.
    erewrite bind_ok by (unfold m_num_buckets; cbn [v_mpfss set_vole_seed_size set_num_noise set_batch_size]; rewrite num_buckets_solo by (auto; lia); reflexivity).
    rewrite bind_set. rewrite (bind_calc S _ (sd 0 + e3 (no 0))) by (apply int_small; lia).
    replace (sd 0 + e3 (no 0) <? 0) with false by lia. reflexivity.
  Qed.

  (** ** Precomputation of the sender *)
  Definition skept (st st' : vole S) : Prop :=
    base st' /\ v_r st' = v_r st /\ slens (v_s st') /\ (forall p, slack p (v_s st) <= slack p (v_s st')) /\ s_done (v_s st') = s_done (v_s st).

  Definition ready_s batch (st st' : vole S) : Prop :=
    base st' /\ v_r st' = v_r st /\ slens (v_s st') /\ (forall p, slack p (v_s st) <= slack p (v_s st')) /\ s_done (v_s st') = true /\
    zlen (sr_u (s_cached (v_s st'))) = 0 /\
    exists i, level S E st' i /\ v_batch_size st' = last_size batch i /\ v_rows st' = sd i /\
      zlen (v_columns st') = last_size batch i + sd i + e3 (no i) /\ coded (v_rows st') (v_columns st').

  Lemma precompute_sender_solo batch st : base st -> slens (v_s st) ->
    triple (precompute_sender S E M batch st) (fun st' r => match r with
      | UB _ => True
      | Err _ => skept st st' /\ (batch < 1 -> st' = st) /\ (1 <= batch -> stale st' /\ zlen (sr_u (s_cached (v_s st'))) = 0)
      | Ok _ => 1 <= batch /\ ready_s batch st st'
      end).
  Proof.
    intros Hb HL. unfold precompute_sender. destruct (Z.ltb_spec batch 1) as [Hlt|Hge].
    { apply t_ret. split; [|split; [auto|lia]]. split; [auto|]. repeat (split; [reflexivity || assumption|]). reflexivity. }
    pose proof (gs_levels S E G). pose proof (level_facts S E G 0 ltac:(lia)) as (K1 & K2 & K3 & _). pose proof (top_small S E G) as Htop.
    destruct Hb as (Hh & _ & HW). rewrite (bind_ok S _ _ _ _ _ (sizes_solo st Hh)).
    set (st0 := set_mpfss_seed_size S _ _). set (size := sd 0 + e3 (no 0)).
    apply t_bind. unfold sender_first_seed.
    apply t_proc'; [|intros e0 He0; apply rand_scalars_len in He0; destruct He0 as (? & _ & He0); apply possible_ret_inv in He0; discriminate|auto]. intros u Hu. apply rand_scalars_len in Hu. destruct Hu as (u' & Lu & Hu). apply possible_ret_inv in Hu. injection Hu as ->.
    apply t_proc'; [|intros e0 He0; apply rand_scalars_len in He0; destruct He0 as (? & _ & He0); apply possible_ret_inv in He0; discriminate|auto]. intros v Hv. apply rand_scalars_len in Hv. destruct Hv as (v' & Lv & Hv). apply possible_ret_inv in Hv. injection Hv as ->.
    rewrite bind_set. set (s1 := log_s S _ _ _).
    assert (Luv : zlen u' = size /\ zlen v' = size) by (unfold zlen, size; lia). destruct Luv as [Lu' Lv'].
    assert (HL1 : slens s1) by (split; [cbn; lia|apply HL]).
    assert (Hs1 : forall p, slack p (v_s st) <= slack p s1).
    { intro p. unfold slack. cbn. unfold pairs. cbn. rewrite !count_app. change (count p (@nil (S * S))) with 0.
      pose proof (count_nonneg p (combine (sr_u (s_cached (v_s st))) (sr_v (s_cached (v_s st))))). lia. }
    apply t_proc'; [|intros e0 He0; exfalso; eapply vector_no_error; [|exact He0]; rewrite zlen_zrepeat; lia|auto]. intros w _. unfold mproc. cbn [pbind]. intros st1 r Hp. inversion Hp; subst.
    match goal with X : possible (Ret _) _ |- _ => apply possible_ret_inv in X; injection X as -> -> end.
    rewrite !bind_get. cbn [set_s st0 set_mpfss_seed_size set_vole_seed_size v_vole_seed_size v_mpfss_seed_size].
    erewrite bind_ok; [|apply new_sender_ok; [lia|lia|change (sd 0 + e3 (no 0) <= zlen u'); lia]].
    cbn [set_s v_s]. set (s2 := reseed_s S _ _ s1).
    assert (Q1 : zlen (sr_u (s_cached s1)) = zlen (sr_v (s_cached s1))) by (change (zlen u' = zlen v'); lia).
    assert (Q2 : sd 0 + e3 (no 0) <= zlen (sr_u (s_cached s1))) by (change (sd 0 + e3 (no 0) <= zlen u'); lia).
    assert (HL2 : slens s2) by (apply reseed_lens; auto; lia).
    assert (Hs2 : forall p, slack p (v_s st) <= slack p s2).
    { intro p. specialize (Hs1 p). pose proof (reseed_count p (sd 0) (e3 (no 0)) s1 Q1 ltac:(lia) ltac:(lia) Q2) as H2. cbv zeta in H2. fold s2 in H2.
      unfold slack in *. assert (EM : s_made s2 = s_made s1) by reflexivity. assert (EU : s_used s2 = s_used s1) by reflexivity. rewrite EM, EU.
      pose proof (count_nonneg p (pairs (s_vole_seed s1))). pose proof (count_nonneg p (pairs (s_mpfss_seed s1))). lia. }
    apply t_bind. eapply t_weaken; [apply (bootstrap_solo (expand_sender S E M)
        (fun s r => r = v_r st /\ slens s /\ (forall p, slack p (v_s st) <= slack p s) /\ s_done s = s_done (v_s st) /\ zlen (sr_u (s_cached s)) = 0)
        (fun s r => r = v_r st /\ slens s /\ (forall p, slack p (v_s st) <= slack p s) /\ s_done s = s_done (v_s st) /\ zlen (sr_u (s_cached s)) = 0)) with (i := 0) (n := Z.to_nat (lv - 1 - 0))|]; auto.
    - intros out nvs nms a (Hr & Hl & Hsl & Hd & Hc) H1 H2 H3. eapply t_weaken; [apply expand_sender_solo; auto; lia|]. cbv beta. intros a' [x|e|w0]; [| |auto].
      + intros (m & mu & v1 & Hm & Lc & Lm & Lv1 & _ & ->). split; [|split; [exact Hm|cbn; auto 10]]. cbn [v_s v_r].
        assert (Lu1 : zlen (vec_add S (encode S (v_columns a) (sr_u (s_vole_seed (v_s a)))) mu) = out) by (rewrite zlen_vec_add; rewrite zlen_encode; lia).
        split; [auto|]. split; [apply made_lens; auto; lia|]. split; [intro p; rewrite made_slack; auto; lia|]. split; [exact Hd|].
        set (nu := vec_add S (encode S _ _) _) in *. change (zlen (shrink nms (shrink nvs (sr_u (s_cached (v_s a)) ++ nu))) = 0).
        rewrite !zlen_shrink by (rewrite ?zlen_shrink, zlen_app; rewrite ?zlen_app; lia). rewrite zlen_app. lia.
      + intros (m & Hm & ->). split; [cbn; auto|]. split; [exact Hm|cbn; auto 10].
    - cbv beta. split; [reflexivity|]. split; [exact HL2|]. split; [exact Hs2|]. split; [reflexivity|].
      change (zlen (shrink (e3 (no 0)) (shrink (sd 0) u')) = 0). rewrite !zlen_shrink by (rewrite ?zlen_shrink; lia). lia.
    - split; [lia|]. split; [reflexivity|]. split; reflexivity.
    - cbv beta. intros st2 [x|e|w0]; [| |auto].
      + intros ((Hr2 & HL3 & Hs3 & Hd3 & Hc3) & Hh2 & HW2 & Hb2 & i & Hlv2). apply t_bind. eapply t_weaken; [apply (last_solo batch i); auto|]. cbv beta.
        intros st3 [y|e|w0]; [| |auto]; intros (A1 & A2 & A3 & A4 & A5 & A6 & A7 & A8 & A9); pose proof A4 as (Hi & B1 & B2 & B3); pose proof (level_facts S E G i Hi) as (C1 & C2 & C3 & _);
          assert (HW3 : sd 0 + e3 (no 0) < zlen (v_columns st3)) by (rewrite A7; pose proof (sizes_grow 0 i ltac:(lia) ltac:(lia)); unfold last_size; lia).
        * specialize (A9 y eq_refl). unfold mset. apply t_ret. split; [auto|]. unfold ready_s, base, hash3. cbn. rewrite A1, A2, A5, B1, B2.
          split; [split; [exact A3|]; split; [unfold last_size; lia|split; [right; exact A9|right; exact HW3]]|]. split; [auto|]. split; [exact HL3|]. split; [exact Hs3|]. split; [reflexivity|].
          split; [exact Hc3|]. exists i. unfold level. cbn. auto 10.
        * split; [|split; [lia|intros _; split; [right; split; [rewrite A5; unfold last_size; lia|eexists; now apply (A8 e)]|now rewrite A1]]].
          split; [unfold base; rewrite A5, B1, B2; split; [exact A3|]; split; [unfold last_size; lia|split; [left; rewrite A7; now apply (A8 e)|right; exact HW3]]|]. rewrite A1, A2. auto.
      + intros ((Hr2 & HL3 & Hs3 & Hd3 & Hc3) & Hb2 & Hst). split; [|split; [lia|auto]]. split; [auto|]. auto.
  Qed.

  (** ** Run of the sender *)
  Lemma vec_add_zero (L : scalar_laws S) n mu : zlen mu = Z.max 0 n -> vec_add S (encode S (zrepeat [] n) []) mu = mu.
  Proof.
    intro H. unfold encode, zrepeat. replace (Z.to_nat n) with (List.length mu) by (unfold zlen in H; lia). clear H. induction mu as [|x mu IH]; [reflexivity|].
    cbn. unfold vec_add in *. rewrite IH. f_equal. apply (Radd_0_l (sl_ring S L)).
  Qed.
  Lemma encode_zero n seed : encode S (zrepeat [] n) seed = encode S (zrepeat [] n) [].
  Proof. unfold encode, zrepeat. induction (Z.to_nat n); cbn; [reflexivity|]. now rewrite IHn0. Qed.

  Lemma count_shrink {A} (z : A -> bool) n l : count z (shrink n l) <= count z l.
  Proof. pose proof (shrink_tail_count z n l). pose proof (count_nonneg z (tail n l)). lia. Qed.

  (** What Run does when the precomputation was done; [u], [v]: the elements copied already. *)
  Definition ran_s size (u v : list S) (st st' : vole S) (x : sender_result S) : Prop :=
    let c := zlen (sr_u (s_cached (v_s st))) in
    v_r st' = v_r st /\ around st st' (v_vole_seed_size st) (v_mpfss_seed_size st) /\ slens (v_s st') /\ s_done (v_s st') = s_done (v_s st) /\
    zlen (sr_u x) = size /\ zlen (sr_v x) = size /\
    (forall p, slack p (v_s st') = slack p (v_s st) + count p (pairs x) - count p (combine u v)) /\
    exists k, 0 <= k /\ (1 <= v_batch_size st -> k = expansions (size - zlen u) c (v_batch_size st)) /\
      (k = 0 \/ zlen (v_columns st) = v_batch_size st + v_vole_seed_size st + v_mpfss_seed_size st) /\
      zlen (s_made (v_s st')) = zlen (s_made (v_s st)) + k * (v_batch_size st + v_vole_seed_size st + v_mpfss_seed_size st) /\
      zlen (sr_u (s_cached (v_s st'))) = c + k * v_batch_size st - (size - zlen u) /\
      (scalar_laws S -> forall z n, z (s_zero S) = false -> v_columns st = zrepeat [] n ->
        count z (sr_u x) + count z (sr_u (s_cached (v_s st'))) <= count z u + count z (sr_u (s_cached (v_s st))) + k * Z.max 0 (v_num_noise st)).

  Lemma around_refl st : around st st (v_vole_seed_size st) (v_mpfss_seed_size st).
  Proof. unfold around. auto 10. Qed.
  Lemma around_trans a b c vs ms vs' ms' : around a b vs ms -> around b c vs' ms' -> around a c vs' ms'.
  Proof. unfold around. intros (A1 & A2 & A3 & A4 & A5 & _) (B1 & B2 & B3 & B4 & B5 & B6 & B7). repeat split; congruence. Qed.
  Lemma around_base a b : base a -> around a b (v_vole_seed_size a) (v_mpfss_seed_size a) -> base b.
  Proof. unfold base, hash3, wide. intros H (A1 & A2 & A3 & A4 & _ & A6 & A7). now rewrite A1, A2, A3, A4, A6, A7. Qed.

  Lemma run_sender_loop_done rounds size u v st : size <= zlen u -> run_sender_loop S E M rounds size u v st = Ret (st, Ok (SenderResult u v)).
  Proof. intro H. destruct rounds; cbn [run_sender_loop]; replace (size <=? zlen u) with true by lia; reflexivity. Qed.
  Lemma run_sender_loop_more rounds size u v st : zlen u < size ->
    run_sender_loop S E M (Datatypes.S rounds) size u v st =
    mbind (if zlen u + zlen (sr_u (s_cached (v_s st))) <=? size
           then mbind (mset (fun st => set_s S (set_s_cached S (SenderResult [] []) (v_s st)) st)) (fun _ => mret (s_cached (v_s st)))
           else get_sender_cached S (size - zlen u))
      (fun copied =>
        if zlen (u ++ sr_u copied) <? size
        then mbind (expand S (expand_sender S E M)) (fun _ => run_sender_loop S E M rounds size (u ++ sr_u copied) (v ++ sr_v copied))
        else run_sender_loop S E M rounds size (u ++ sr_u copied) (v ++ sr_v copied)) st.
  Proof. intro H. cbn [run_sender_loop]. replace (size <=? zlen u) with false by lia. rewrite bind_get. reflexivity. Qed.

  Lemma expansions_0 size c b : 1 <= b -> size <= c -> expansions size c b = 0.
  Proof. intros Hb H. unfold expansions. apply Z.max_l. pose proof (Z.div_le_mono (size - c + b - 1) (b - 1) b ltac:(lia) ltac:(lia)). rewrite (Z.div_small (b - 1)) in H0 by lia. exact H0. Qed.
  Lemma expansions_next size c b : 1 <= b -> c < size -> expansions size c b = 1 + expansions (size - c) b b.
  Proof.
    intros Hb H. unfold expansions. replace (size - c + b - 1) with ((size - c - b + b - 1) + 1 * b) by lia. rewrite Z.div_add by lia.
    assert (0 <= (size - c - b + b - 1) / b) by (apply Z.div_pos; lia). lia.
  Qed.

  Lemma expand_solo (step : Z -> Z -> Z -> member S unit) st Q :
    triple (step (v_batch_size st + v_vole_seed_size st + v_mpfss_seed_size st) (v_vole_seed_size st) (v_mpfss_seed_size st) st) Q ->
    (forall w, Q st (UB w)) -> triple (expand S step st) Q.
  Proof.
    intros H Hub. unfold expand. apply t_bind. unfold full_output. rewrite !bind_get. unfold mcalc. apply t_ret.
    unfold int64_result. destruct (_ && _); [|auto]. rewrite !bind_get. exact H.
  Qed.
  Lemma zlen_combine {A B} (a : list A) (b : list B) : zlen a = zlen b -> zlen (combine a b) = zlen a.
  Proof. unfold zlen. intro H. rewrite combine_length. lia. Qed.

  Definition sfailed (st st' : vole S) : Prop := skept st st' /\ around st st' (v_vole_seed_size st) (v_mpfss_seed_size st).

  Lemma run_sender_loop_solo rounds size : forall u v st, base st -> slens (v_s st) -> zlen u <= size -> zlen u = zlen v ->
    triple (run_sender_loop S E M rounds size u v st) (fun st' r => match r with
      | UB _ => True | Err _ => sfailed st st' | Ok x => ran_s size u v st st' x end).
  Proof.
    induction rounds as [|rounds IH]; intros u v st Hb HL Hsz Luv.
    all: destruct (Z.le_gt_cases size (zlen u)) as [Hle|Hgt].
    1, 3: rewrite run_sender_loop_done by auto; apply t_ret; unfold ran_s; cbn [sr_u sr_v];
      repeat (split; [first [reflexivity | apply around_refl | assumption | lia]|]); (split; [intro p; unfold pairs; cbn; lia|]); exists 0;
      (split; [lia|]); split; [intro; rewrite expansions_0 by (pose proof (zlen_nonneg (sr_u (s_cached (v_s st)))); lia); reflexivity|];
      (split; [lia|]); (split; [lia|]); split; [lia|]; intros; lia.
    { cbn [run_sender_loop]. replace (size <=? zlen u) with false by lia. apply t_ret. exact I. }
    rewrite run_sender_loop_more by auto. set (c := s_cached (v_s st)). pose proof (zlen_nonneg (sr_u c)) as Hc.
    pose proof HL as (HL1 & HL2 & HL3). fold c in HL1.
    destruct (Z.leb_spec (zlen u + zlen (sr_u c)) size) as [Hfit|Hfit].
    - erewrite bind_ok; [|rewrite bind_set; reflexivity]. set (st1 := set_s S _ st).
      assert (Hu1 : zlen (u ++ sr_u c) = zlen u + zlen (sr_u c)) by apply zlen_app. assert (Hv1 : zlen (v ++ sr_v c) = zlen (u ++ sr_u c)) by (rewrite !zlen_app; lia).
      assert (Hst1 : slens (v_s st1)) by (cbn; unfold slens; cbn; auto).
      assert (Hsl1 : forall p, slack p (v_s st1) = slack p (v_s st) + count p (pairs c)).
      { intro p. unfold slack. fold c. cbn [st1 set_s v_s set_s_cached s_made s_used s_cached s_vole_seed s_mpfss_seed]. change (count p (@pairs S (SenderResult [] []))) with 0. lia. }
      assert (Hcc : forall p, count p (combine (u ++ sr_u c) (v ++ sr_v c)) = count p (combine u v) + count p (pairs c)).
      { intro p. rewrite combine_app by auto. apply count_app. }
      destruct (Z.ltb_spec (zlen (u ++ sr_u c)) size) as [Hmore|Hend].
      + apply t_bind. apply expand_solo; [|auto]. pose proof Hb as (Hb1 & (Hb2 & Hb3 & Hb4) & Hb5).
        eapply t_weaken; [apply expand_sender_solo; auto; cbn; lia|]. cbn [st1 set_s v_batch_size v_vole_seed_size v_mpfss_seed_size].
        set (bt := v_batch_size st) in *. set (vs := v_vole_seed_size st) in *. set (ms := v_mpfss_seed_size st) in *.
        intros st2 [x|e|w]; [| |auto].
        * intros (m & mu & v1 & Hm & Lc & Lm & Lv1 & Cm & Hst2).
          set (nu := vec_add S _ mu) in *. assert (Lu1 : zlen nu = bt + vs + ms) by (unfold nu; rewrite zlen_vec_add; rewrite zlen_encode; cbn in *; lia).
          assert (Har : around st st2 vs ms) by (rewrite Hst2; unfold around; cbn; auto 10).
          assert (Hs2 : v_s st2 = made_by vs ms nu v1 (v_s st1)) by (rewrite Hst2; reflexivity).
          assert (HL2' : slens (v_s st2)) by (rewrite Hs2; apply made_lens; auto; lia).
          assert (Hk2 : forall p, slack p (v_s st2) = slack p (v_s st1)) by (intro p; rewrite Hs2; apply made_slack; auto; lia).
          assert (Hc2 : zlen (sr_u (s_cached (v_s st2))) = bt).
          { rewrite Hs2. change (zlen (shrink ms (shrink vs nu)) = bt). rewrite !zlen_shrink by (rewrite ?zlen_shrink; lia). lia. }
          assert (Hm2 : zlen (s_made (v_s st2)) = zlen (s_made (v_s st)) + (bt + vs + ms)).
          { rewrite Hs2. change (zlen (s_made (v_s st) ++ combine nu v1) = zlen (s_made (v_s st)) + (bt + vs + ms)). rewrite zlen_app, zlen_combine by lia. lia. }
          pose proof Har as (A1 & A2 & A3 & A4 & A5 & A6 & A7). fold bt in A4.
          assert (Hb' : base st2) by (apply (around_base st); [exact Hb|exact Har]).
          eapply t_weaken; [apply (IH (u ++ sr_u c) (v ++ sr_v c) st2 Hb' HL2'); lia|]. cbv beta. intros st3 [y|e|w]; [| |auto].
          -- unfold ran_s. cbv zeta. rewrite Hc2, A4, A5, A6, A7. intros (B1 & B2 & B3 & B4 & B5 & B6 & B7 & k & Hk & B8 & Bk & B9 & B10 & B11).
             split; [rewrite B1, Hst2; reflexivity|]. split; [eapply around_trans; eauto|]. split; [auto|]. split; [rewrite B4, Hs2; reflexivity|].
             split; [auto|]. split; [auto|]. split; [intro p; rewrite B7, Hk2, Hsl1, Hcc; lia|].
             exists (1 + k). split; [lia|]. fold c. split.
             { intro Hbt. rewrite expansions_next by lia. rewrite B8 by auto. do 2 f_equal. lia. }
             split; [right; exact Lc|]. split; [rewrite B9, Hm2; lia|]. split; [rewrite B10; lia|]. intros L z n Hz Hn.
             specialize (B11 L z n Hz ltac:(congruence)). rewrite !count_app in B11.
             assert (count z (sr_u (s_cached (v_s st2))) <= Z.max 0 (v_num_noise st)).
             { rewrite Hs2. change (count z (shrink ms (shrink vs nu)) <= Z.max 0 (v_num_noise st)). eapply Z.le_trans; [apply count_shrink|]. eapply Z.le_trans; [apply count_shrink|].
               unfold nu. cbn [st1 set_s v_columns v_s v_num_noise] in Lc, Cm |- *. rewrite Hn, encode_zero. rewrite Hn in Lc. rewrite vec_add_zero; auto.
               rewrite Lm, <- Lc. unfold zrepeat, zlen. rewrite repeat_length. lia. }
             lia.
          -- intros ((B1 & B2 & B3 & B4 & B5) & Bf). split; [|rewrite A6, A7 in Bf; eapply around_trans; eauto]. split; [auto|]. split; [rewrite B2, Hst2; reflexivity|]. split; [auto|].
             split; [intro p; specialize (B4 p); rewrite Hk2, Hsl1 in B4; pose proof (count_nonneg p (pairs c)); lia|]. rewrite B5, Hs2. reflexivity.
        * intros (m & Hm & ->). split; [|unfold around; cbn; auto 10]. split; [unfold base, hash3 in *; cbn; rewrite Hm; auto|]. split; [reflexivity|]. split; [exact Hst1|].
          split; [intro p; cbn; rewrite Hsl1; pose proof (count_nonneg p (pairs c)); lia|]. reflexivity.
      + rewrite run_sender_loop_done by auto. apply t_ret. split; [reflexivity|]. split; [exact (around_refl st)|]. split; [exact Hst1|]. split; [reflexivity|].
        cbn [sr_u sr_v]. split; [lia|]. split; [lia|]. split; [intro p; rewrite Hsl1; unfold pairs at 2; cbn; rewrite Hcc; lia|].
        exists 0. fold c. split; [lia|]. split; [intro; rewrite expansions_0; lia|]. split; [auto|]. split; [cbn; lia|].
        split; [cbn [st1 set_s v_s set_s_cached s_cached sr_u v_batch_size]; change (zlen (@nil S)) with 0; lia|].
        intros _ z n _ _. rewrite count_app. cbn [st1 set_s v_s set_s_cached s_cached sr_u]. change (count z []) with 0. lia.
    - erewrite bind_ok; [|apply get_sender_ok; fold c; lia]. fold c. set (n := size - zlen u). cbn [sr_u sr_v].
      assert (Lt : zlen (tail n (sr_u c)) = n) by (apply zlen_tail; lia). assert (Lt' : zlen (tail n (sr_v c)) = n) by (apply zlen_tail; lia).
      assert (Hu1 : zlen (u ++ tail n (sr_u c)) = size) by (rewrite zlen_app; lia).
      rewrite Hu1. rewrite Z.ltb_irrefl. rewrite run_sender_loop_done by lia. apply t_ret.
      pose proof (fun p => pairs_split_count p n (sr_u c) (sr_v c) HL1) as Hsp.
      split; [reflexivity|]. split; [exact (around_refl st)|]. split.
      { unfold slens. cbn. rewrite !zlen_shrink by lia. lia. }
      split; [reflexivity|]. cbn [sr_u sr_v]. split; [lia|]. split; [rewrite zlen_app; lia|]. split.
      { intro p. specialize (Hsp p). unfold slack. fold c. cbn [set_s v_s set_s_cached s_made s_used s_cached s_vole_seed s_mpfss_seed]. unfold pairs. fold c. cbn [sr_u sr_v]. rewrite combine_app, count_app by auto. lia. }
      exists 0. fold c. split; [lia|]. split; [intro; rewrite expansions_0; lia|]. split; [auto|]. split; [cbn; lia|].
      split; [cbn [set_s v_s set_s_cached s_cached sr_u v_batch_size]; rewrite zlen_shrink; lia|].
      intros _ z k _ _. rewrite count_app. cbn [set_s v_s set_s_cached s_cached sr_u]. fold c. pose proof (shrink_tail_count z n (sr_u c)). lia.
  Qed.

  Lemma get_sender_solo n st : triple (get_sender_cached S n st) (fun st' r => match r with
    | UB _ => n < 0 /\ st' = st
    | Err _ => zlen (sr_u (s_cached (v_s st))) < n /\ st' = st
    | Ok _ => 0 <= n <= zlen (sr_u (s_cached (v_s st))) /\
        get_sender_cached S n st = Ret (st', r) end).
  Proof.
    unfold get_sender_cached. destruct (Z.ltb_spec (zlen (sr_u (s_cached (v_s st)))) n); [apply t_ret; auto|].
    destruct (Z.ltb_spec n 0); [apply t_ret; auto|]. apply t_ret. split; [lia|reflexivity].
  Qed.

  Lemma run_sender_done size st : base st -> slens (v_s st) ->
    triple (pbind (get_sender_cached S size st) (fun '(st, r) =>
      match r with Ok x => Ret (st, Ok x) | Err _ => run_sender_loop S E M (Z.to_nat size + 1) size [] [] st | UB w => Ret (st, UB w) end))
      (fun st' r => match r with UB _ => True | Err _ => sfailed st st' | Ok x => ran_s size [] [] st st' x end).
  Proof.
    intros Hb HL st' r Hp. apply possible_bind in Hp. destruct Hp as ([st1 x] & H1 & H2). apply get_sender_solo in H1.
    destruct x as [x|e|w].
    - destruct H1 as [Hn H1]. rewrite get_sender_ok in H1 by auto. injection H1 as <- <-.
      apply possible_ret_inv in H2. injection H2 as -> ->. set (c := s_cached (v_s st)) in *.
      pose proof HL as (HL1 & HL2 & HL3). fold c in HL1. pose proof (fun p => pairs_split_count p size (sr_u c) (sr_v c) HL1) as Hsp.
      split; [reflexivity|]. split; [exact (around_refl st)|]. split.
      { unfold slens. cbn. fold c. rewrite !zlen_shrink by lia. lia. }
      split; [reflexivity|]. cbn [sr_u sr_v]. split; [apply zlen_tail; lia|]. split; [apply zlen_tail; lia|]. split.
      { intro p. specialize (Hsp p). unfold slack. fold c. cbn [set_s v_s set_s_cached s_made s_used s_cached s_vole_seed s_mpfss_seed]. unfold pairs. fold c. cbn [sr_u sr_v combine]. change (count p []) with 0. lia. }
      exists 0. fold c. change (zlen (@nil S)) with 0. split; [lia|]. split; [intro; rewrite expansions_0; lia|]. split; [auto|]. split; [cbn; lia|].
      split; [cbn [set_s v_s set_s_cached s_cached sr_u v_batch_size]; rewrite zlen_shrink; lia|].
      intros _ z k _ _. cbn [set_s v_s set_s_cached s_cached sr_u]. fold c. change (count z []) with 0. pose proof (shrink_tail_count z size (sr_u c)). lia.
    - destruct H1 as [Hn ->]. revert H2. apply (run_sender_loop_solo (Z.to_nat size + 1) size [] [] st Hb HL); [|reflexivity].
      change (zlen (@nil S)) with 0. pose proof (zlen_nonneg (sr_u (s_cached (v_s st)))). lia.
    - apply possible_ret_inv in H2. injection H2 as -> ->. exact I.
  Qed.

  Lemma run_sender_solo size st : base st -> slens (v_s st) ->
    triple (run_sender S E M size st) (fun st' r => match r with
      | UB _ => True
      | Err _ => sfailed st st' \/ (s_done (v_s st) = false /\ (skept st st' \/ exists st1, ready_s size st st1 /\ sfailed st1 st'))
      | Ok x => if s_done (v_s st) then ran_s size [] [] st st' x else 1 <= size /\ exists st1, ready_s size st st1 /\ ran_s size [] [] st1 st' x end).
  Proof.
    intros Hb HL. unfold run_sender. rewrite bind_get. apply t_bind. destruct (s_done (v_s st)) eqn:Hd.
    - apply t_ret. eapply t_weaken; [apply run_sender_done; auto|]. intros st' [x|e|w]; auto.
    - eapply t_weaken; [apply precompute_sender_solo; auto|]. cbv beta. intros st1 [x|e|w]; [|intros [H1 _]; auto|auto]. intros [H0 H1].
      eapply t_weaken; [apply run_sender_done; apply H1|]. intros st' [x'|e|w]; eauto 10.
  Qed.

  (** ** Receiver *)
  Definition rslack p (r : receiver_side S) : Z :=
    count p (r_made r) - (count p (r_used r) + count p (rr_w (r_cached r)) + count p (rr_w (r_vole_seed r)) + count p (rr_w (r_mpfss_seed r))).
  Definition rmade_by nvs nms (w : list S) (r : receiver_side S) : receiver_side S :=
    reseed_r S nvs nms (log_r S w (rr_w (r_vole_seed r) ++ rr_w (r_mpfss_seed r))
      (set_r_cached S (ReceiverResult (rr_w (r_cached r) ++ w) (rr_delta (r_cached r))) r)).
  Definition rdelta (r : receiver_side S) : S := rr_delta (r_cached r).

  Lemma rreseed_count p nvs nms r : 
    let r' := reseed_r S nvs nms r in
    count p (rr_w (r_cached r')) + count p (rr_w (r_vole_seed r')) + count p (rr_w (r_mpfss_seed r')) = count p (rr_w (r_cached r)).
  Proof.
    unfold reseed_r. cbn.
    pose proof (shrink_tail_count p nvs (rr_w (r_cached r))). pose proof (shrink_tail_count p nms (shrink nvs (rr_w (r_cached r)))). lia.
  Qed.
  Lemma rmade_slack p nvs nms w r : rslack p (rmade_by nvs nms w r) = rslack p r.
  Proof.
    pose proof (rreseed_count p nvs nms (log_r S w (rr_w (r_vole_seed r) ++ rr_w (r_mpfss_seed r)) (set_r_cached S (ReceiverResult (rr_w (r_cached r) ++ w) (rr_delta (r_cached r))) r))) as H4.
    cbv zeta in H4. unfold rslack, rmade_by. set (r' := reseed_r _ _ _ _) in *.
    assert (E1 : r_made r' = r_made r ++ w) by reflexivity.
    assert (E2 : r_used r' = r_used r ++ rr_w (r_vole_seed r) ++ rr_w (r_mpfss_seed r)) by reflexivity.
    rewrite E1, E2, !count_app. cbn [log_r set_r_cached r_cached rr_w] in H4. rewrite count_app in H4. lia.
  Qed.

  Definition expanded_r out nvs nms (st st' : vole S) : Prop :=
    exists m w, m_hasher m = m_hasher (v_mpfss st) /\ zlen (v_columns st) = out /\ zlen w = out /\
      st' = Vole S m (v_rows st) (v_columns st) (v_batch_size st) nvs nms (v_num_noise st) (v_s st) (rmade_by nvs nms w (v_r st)).
  Definition rfailed (st st' : vole S) : Prop :=
    around st st' (v_vole_seed_size st) (v_mpfss_seed_size st) /\ v_s st' = v_s st /\ r_done (v_r st') = r_done (v_r st) /\ rdelta (v_r st') = rdelta (v_r st).

  Lemma expand_receiver_solo out nvs nms st : 0 <= nvs -> 0 <= nms -> nvs + nms <= out ->
    triple (expand_receiver S E M out nvs nms st)
      (fun st' r => match r with Ok _ => expanded_r out nvs nms st st' | Err _ => rfailed st st' | UB _ => True end).
  Proof.
    intros H1 H2 H3.
    assert (HF : rfailed st st) by (unfold rfailed; auto using around_refl).
    unfold expand_receiver. rewrite !bind_get. cbv zeta.
    destruct (negb (_ =? _) || _) eqn:D2; [apply t_ret; exact HF|].
    apply orb_false_iff in D2. destruct D2 as [D2 D3]. apply negb_false_iff in D2, D3. rewrite bind_set. apply t_bind.
    intros st1 r Hp. unfold mmpfss in Hp. apply possible_bind in Hp. destruct Hp as ([m x] & Hp & Hr). apply possible_ret_inv in Hr. injection Hr as -> ->.
    apply value_solo in Hp. destruct Hp as [Hm Hx]. rewrite zlen_zrepeat in Hx by lia.
    destruct x as [v1|e|w]; [|unfold rfailed, around; cbn in *; auto 20|auto]. specialize (Hx v1 eq_refl). rewrite bind_set.
    set (cols := v_columns st) in *. set (seed := r_vole_seed (v_r st)) in *.
    set (w := vec_add S (encode S cols (rr_w seed)) v1).
    assert (Lw : zlen w = out) by (unfold w; rewrite zlen_vec_add; rewrite zlen_encode; lia).
    pose proof (zlen_nonneg (rr_w (r_cached (v_r st)))).
    erewrite bind_ok; [|apply new_receiver_ok; auto; cbn; rewrite zlen_app; lia]. rewrite bind_set. unfold mset. apply t_ret.
    assert (Lc : zlen (v_columns st) = out) by (fold cols; lia).
    exists m, w. repeat (split; [first [assumption | lia]|]). reflexivity.
  Qed.

  Lemma for_range_len {A} lo hi f (x : list A) y : for_range lo hi f x = Ok y ->
    (forall i l l', f i l = Ok l' -> zlen l' = zlen l) -> zlen y = zlen x.
  Proof.
    intros H Hf. destruct (Z.le_gt_cases hi lo) as [Hle|Hgt]; [rewrite for_range_empty in H by lia; now injection H as <-|].
    apply (for_range_inv_ok (fun _ l => zlen l = zlen x)) in H; auto; [lia|]. intros i l l' _ Hl E1. apply Hf in E1. congruence.
  Qed.
  Lemma value_len d o w : possible (gilboa_value_provider S (vole_K E) d o) (Ok w) -> zlen w = zlen o.
  Proof.
    unfold gilboa_value_provider. destruct (16 <? s_size S); [intro H; apply possible_ret_inv in H; discriminate|]. intro H.
    do 2 (apply possible_lift_ok in H; destruct H as (? & _ & H)).
    match type of H with context[if ?b then _ else _] => destruct b end; [apply possible_ret_inv in H; discriminate|]. apply possible_lift_ok in H; destruct H as (? & _ & H).
    unfold run_ot_receiver, ot_recv in H. inversion H; subst. 
    match goal with X : possible (match ?l with _ => _ end) _ |- _ => destruct l; apply possible_ret_inv in X; [|discriminate]; symmetry in X; rename X into HA end.
    unfold accumulate in HA. apply for_range_len in HA; [rewrite HA; apply zlen_map|].
    intros i1 l1 l1' E1. apply for_range_len in E1; [auto|]. intros i2 l2 l2' E2. apply rbind_ok_inv in E2. destruct E2 as (b & _ & E2).
    apply for_range_len in E2; [auto|]. intros i3 l3 l3' E3. do 2 (apply rbind_ok_inv in E3; destruct E3 as (? & _ & E3)).
    unfold zset in E3. destruct (_ && _); [|discriminate]. injection E3 as <-. apply zlen_list_set.
  Qed.

  Definition ready_r batch d (st st' : vole S) : Prop :=
    base st' /\ v_s st' = v_s st /\ (forall p, rslack p (v_r st) <= rslack p (v_r st')) /\ r_done (v_r st') = true /\ rdelta (v_r st') = d /\
    zlen (rr_w (r_cached (v_r st'))) = 0 /\
    exists i, level S E st' i /\ v_batch_size st' = last_size batch i /\ v_rows st' = sd i /\
      zlen (v_columns st') = last_size batch i + sd i + e3 (no i) /\ coded (v_rows st') (v_columns st').
  Definition rgone (st st' : vole S) : Prop :=
    base st' /\ v_s st' = v_s st /\ r_done (v_r st') = r_done (v_r st).

  Lemma precompute_receiver_solo batch d st : base st ->
    triple (precompute_receiver S E M batch d st) (fun st' r => match r with
      | UB _ => True
      | Err _ => rgone st st' /\ (batch < 1 -> st' = st) /\ (1 <= batch -> stale st')
      | Ok _ => 1 <= batch /\ ready_r batch d st st'
      end).
  Proof.
    intros Hb. unfold precompute_receiver. destruct (Z.ltb_spec batch 1) as [Hlt|Hge].
    { apply t_ret. split; [split; auto|split; [auto|lia]]. }
    pose proof (gs_levels S E G). pose proof (level_facts S E G 0 ltac:(lia)) as (K1 & K2 & K3 & _). pose proof (top_small S E G) as Htop.
    destruct Hb as (Hh & _ & HW). rewrite (bind_ok S _ _ _ _ _ (sizes_solo st Hh)).
    set (st0 := set_mpfss_seed_size S _ _). set (size := sd 0 + e3 (no 0)).
    apply t_bind. unfold receiver_first_seed. rewrite bind_set. set (r0 := set_r_cached S _ _).
    assert (HE : forall r, r_done r = r_done (v_r st) -> rgone st (set_r S r st0) /\ (batch < 1 -> set_r S r st0 = st) /\ (1 <= batch -> stale (set_r S r st0))).
    { intros r H3. split; [|split; [lia|]].
      - split; [|auto]. split; [exact Hh|]. split; [change (0 <= sd 0 /\ 0 <= e3 (no 0) /\ 0 <= 0); lia|exact HW].
      - intros _. left. change (zlen (v_columns st) <> 0 + sd 0 + e3 (no 0)). destruct HW as [_ HW]; lia. }
    apply t_proc; [|intros; apply HE; reflexivity|auto]. intros w1 Hw1.
    apply t_proc; [|intros; apply HE; reflexivity|auto]. intros w2 Hw2.
    destruct (negb _) eqn:D; [apply t_ret; exact I|]. cbv zeta. apply negb_false_iff in D. unfold mset. apply t_ret. cbv beta.
    set (w := vec_add S w1 w2). rewrite !bind_get. cbn [set_r st0 set_mpfss_seed_size set_vole_seed_size v_vole_seed_size v_mpfss_seed_size].
    assert (Lw : zlen w = size).
    { apply value_len in Hw1. rewrite zlen_map, zlen_zrange in Hw1 by lia. unfold w. rewrite zlen_vec_add; lia. }
    set (r1 := log_r S w _ _).
    erewrite bind_ok; [|apply new_receiver_ok; [lia|lia|change (sd 0 + e3 (no 0) <= zlen w); lia]].
    cbn [set_r v_r]. set (r2 := reseed_r S _ _ r1).
    assert (Hs2 : forall p, rslack p (v_r st) <= rslack p r2).
    { intro p. pose proof (rreseed_count p (sd 0) (e3 (no 0)) r1) as H2. cbv zeta in H2. fold r2 in H2.
      unfold rslack in *. assert (EM : r_made r2 = r_made (v_r st) ++ w) by reflexivity. assert (EU : r_used r2 = r_used (v_r st) ++ []) by reflexivity. rewrite EM, EU, !count_app.
      change (rr_w (r_cached r1)) with w in H2. change (count p []) with 0.
      pose proof (count_nonneg p (rr_w (r_cached (v_r st)))). pose proof (count_nonneg p (rr_w (r_vole_seed (v_r st)))). pose proof (count_nonneg p (rr_w (r_mpfss_seed (v_r st)))). lia. }
    apply t_bind. eapply t_weaken; [apply (bootstrap_solo (expand_receiver S E M)
        (fun s r => s = v_s st /\ (forall p, rslack p (v_r st) <= rslack p r) /\ r_done r = r_done (v_r st) /\ rdelta r = d /\ zlen (rr_w (r_cached r)) = 0)
        (fun s r => s = v_s st /\ r_done r = r_done (v_r st))) with (i := 0) (n := Z.to_nat (lv - 1 - 0))|]; auto.
    - intros s r (Q1 & Q2 & Q3 & Q4 & Q5). auto.
    - intros out nvs nms a (Hr & Hsl & Hd & Hdl & Hc) H1 H2 H3. eapply t_weaken; [apply expand_receiver_solo; auto; lia|]. cbv beta. intros a' [x|e|w0]; [| |auto].
      + intros (m & w' & Hm & Lc & Lm & ->). split; [|split; [exact Hm|cbn; auto 10]]. cbn [v_s v_r].
        split; [auto|]. split; [intro p; rewrite rmade_slack; auto|]. split; [exact Hd|]. split; [exact Hdl|].
        change (zlen (shrink nms (shrink nvs (rr_w (r_cached (v_r a)) ++ w'))) = 0).
        rewrite !zlen_shrink by (rewrite ?zlen_shrink, zlen_app; rewrite ?zlen_app; lia). rewrite zlen_app. lia.
      + intros (A1 & A2 & A3 & A4). split; [|exact A1]. split; congruence.
    - cbv beta. split; [reflexivity|]. split; [exact Hs2|]. split; [reflexivity|]. split; [reflexivity|].
      change (zlen (shrink (e3 (no 0)) (shrink (sd 0) w)) = 0). rewrite !zlen_shrink by (rewrite ?zlen_shrink; lia). lia.
    - split; [lia|]. split; [reflexivity|]. split; reflexivity.
    - cbv beta. intros st2 [x|e|w0]; [| |auto].
      + intros ((Hr2 & Hs3 & Hd3 & Hdl3 & Hc3) & Hh2 & HW2 & Hb2 & i & Hlv2). apply t_bind. eapply t_weaken; [apply (last_solo batch i); auto|]. cbv beta.
        intros st3 [y|e|w0]; [| |auto]; intros (A1 & A2 & A3 & A4 & A5 & A6 & A7 & A8 & A9); pose proof A4 as (Hi & B1 & B2 & B3); pose proof (level_facts S E G i Hi) as (C1 & C2 & C3 & _);
          assert (HW3 : sd 0 + e3 (no 0) < zlen (v_columns st3)) by (rewrite A7; pose proof (sizes_grow 0 i ltac:(lia) ltac:(lia)); unfold last_size; lia).
        * specialize (A9 y eq_refl). unfold mset. apply t_ret. split; [auto|]. unfold ready_r, base, hash3. cbn. rewrite A1, A2, A5, B1, B2.
          split; [split; [exact A3|]; split; [unfold last_size; lia|split; [right; exact A9|right; exact HW3]]|]. split; [auto|]. split; [exact Hs3|]. split; [reflexivity|]. split; [exact Hdl3|].
          split; [exact Hc3|]. exists i. unfold level. cbn. auto 10.
        * split; [|split; [lia|intros _; right; split; [rewrite A5; unfold last_size; lia|eexists; now apply (A8 e)]]].
          split; [unfold base; rewrite A5, B1, B2; split; [exact A3|]; split; [unfold last_size; lia|split; [left; rewrite A7; now apply (A8 e)|right; exact HW3]]|]. rewrite A1, A2. auto.
      + intros ((Hr2 & Hd3) & Hb2 & Hst). split; [|split; [lia|auto]]. split; auto.
  Qed.

  Lemma precompute_random_solo batch st : base st ->
    triple (precompute_receiver_random S E M batch st) (fun st' r => match r with
      | UB _ => True
      | Err _ => rgone st st' /\ (batch < 1 -> st' = st) /\ (1 <= batch -> stale st')
      | Ok _ => 1 <= batch /\ exists d, ready_r batch d st st'
      end).
  Proof.
    intro Hb. unfold precompute_receiver_random. apply t_bind. intros st1 r Hp. unfold mproc in Hp. cbn in Hp. inversion Hp; subst.
    match goal with X : possible (Ret _) _ |- _ => apply possible_ret_inv in X; injection X as -> -> end.
    eapply t_weaken; [apply precompute_receiver_solo; auto|]. intros st' [x|e|w]; [|auto|auto]. intros [H1 H2]. eauto.
  Qed.

  (** ** Run of the receiver *)
  Definition ran_r size (w : list S) (st st' : vole S) (x : receiver_result S) : Prop :=
    let c := zlen (rr_w (r_cached (v_r st))) in
    v_s st' = v_s st /\ around st st' (v_vole_seed_size st) (v_mpfss_seed_size st) /\ r_done (v_r st') = r_done (v_r st) /\
    rdelta (v_r st') = rdelta (v_r st) /\ zlen (rr_w x) = size /\
    (forall p, rslack p (v_r st') = rslack p (v_r st) + count p (rr_w x) - count p w) /\
    exists k, 0 <= k /\ (1 <= v_batch_size st -> k = expansions (size - zlen w) c (v_batch_size st)) /\
      zlen (r_made (v_r st')) = zlen (r_made (v_r st)) + k * (v_batch_size st + v_vole_seed_size st + v_mpfss_seed_size st) /\
      zlen (rr_w (r_cached (v_r st'))) = c + k * v_batch_size st - (size - zlen w).

  Lemma run_receiver_loop_done rounds size w d st : size <= zlen w -> run_receiver_loop S E M rounds size w d st = Ret (st, Ok (ReceiverResult w d)).
  Proof. intro H. destruct rounds; cbn [run_receiver_loop]; replace (size <=? zlen w) with true by lia; reflexivity. Qed.
  Lemma run_receiver_loop_more rounds size w d st : zlen w < size ->
    run_receiver_loop S E M (Datatypes.S rounds) size w d st =
    mbind (if zlen w + zlen (rr_w (r_cached (v_r st))) <=? size
           then mbind (mset (fun st1 => set_r S (set_r_cached S (ReceiverResult [] (rr_delta (r_cached (v_r st)))) (v_r st1)) st1)) (fun _ => mret (r_cached (v_r st)))
           else get_receiver_cached S (size - zlen w))
      (fun copied =>
        if zlen (w ++ rr_w copied) <? size
        then mbind (expand S (expand_receiver S E M)) (fun _ => run_receiver_loop S E M rounds size (w ++ rr_w copied) d)
        else run_receiver_loop S E M rounds size (w ++ rr_w copied) d) st.
  Proof. intro H. cbn [run_receiver_loop]. replace (size <=? zlen w) with false by lia. rewrite bind_get. reflexivity. Qed.

  Lemma run_receiver_loop_solo rounds size d : forall w st, base st -> zlen w <= size ->
    triple (run_receiver_loop S E M rounds size w d st) (fun st' r => match r with
      | UB _ => True | Err _ => rfailed st st' | Ok x => ran_r size w st st' x /\ rr_delta x = d end).
  Proof.
    induction rounds as [|rounds IH]; intros w st Hb Hsz.
    all: destruct (Z.le_gt_cases size (zlen w)) as [Hle|Hgt].
    1, 3: rewrite run_receiver_loop_done by auto; apply t_ret; split; [|reflexivity]; unfold ran_r; cbn [rr_w rr_delta];
      repeat (split; [first [reflexivity | apply around_refl | assumption | lia]|]); exists 0;
      (split; [lia|]); split; [intro; rewrite expansions_0 by (pose proof (zlen_nonneg (rr_w (r_cached (v_r st)))); lia); reflexivity|];
      split; lia.
    { cbn [run_receiver_loop]. replace (size <=? zlen w) with false by lia. apply t_ret. exact I. }
    rewrite run_receiver_loop_more by auto. set (c := r_cached (v_r st)). pose proof (zlen_nonneg (rr_w c)) as Hc.
    destruct (Z.leb_spec (zlen w + zlen (rr_w c)) size) as [Hfit|Hfit].
    - erewrite bind_ok; [|rewrite bind_set; reflexivity]. set (st1 := set_r S _ st).
      assert (Hu1 : zlen (w ++ rr_w c) = zlen w + zlen (rr_w c)) by apply zlen_app.
      assert (Hsl1 : forall p, rslack p (v_r st1) = rslack p (v_r st) + count p (rr_w c)).
      { intro p. unfold rslack. fold c. cbn [st1 set_r v_r set_r_cached r_made r_used r_cached r_vole_seed r_mpfss_seed rr_w]. change (count p []) with 0. lia. }
      destruct (Z.ltb_spec (zlen (w ++ rr_w c)) size) as [Hmore|Hend].
      + apply t_bind. apply expand_solo; [|auto]. pose proof Hb as (Hb1 & (Hb2 & Hb3 & Hb4) & Hb5).
        eapply t_weaken; [apply expand_receiver_solo; cbn; lia|]. cbn [st1 set_r v_batch_size v_vole_seed_size v_mpfss_seed_size].
        set (bt := v_batch_size st) in *. set (vs := v_vole_seed_size st) in *. set (ms := v_mpfss_seed_size st) in *.
        intros st2 [x|e|w0]; [| |auto].
        * intros (m & nw & Hm & Lc & Lm & Hst2).
          assert (Har : around st st2 vs ms) by (rewrite Hst2; unfold around; cbn; auto 10).
          assert (Hs2 : v_r st2 = rmade_by vs ms nw (v_r st1)) by (rewrite Hst2; reflexivity).
          assert (Hk2 : forall p, rslack p (v_r st2) = rslack p (v_r st1)) by (intro p; rewrite Hs2; apply rmade_slack).
          assert (Hc2 : zlen (rr_w (r_cached (v_r st2))) = bt).
          { rewrite Hs2. change (zlen (shrink ms (shrink vs nw)) = bt). rewrite !zlen_shrink by (rewrite ?zlen_shrink; lia). lia. }
          assert (Hm2 : zlen (r_made (v_r st2)) = zlen (r_made (v_r st)) + (bt + vs + ms)).
          { rewrite Hs2. change (zlen (r_made (v_r st) ++ nw) = zlen (r_made (v_r st)) + (bt + vs + ms)). rewrite zlen_app. lia. }
          pose proof Har as (A1 & A2 & A3 & A4 & A5 & A6 & A7). fold bt in A4.
          assert (Hb' : base st2) by (apply (around_base st); [exact Hb|exact Har]).
          eapply t_weaken; [apply (IH (w ++ rr_w c) st2 Hb'); lia|]. cbv beta. intros st3 [y|e|w0]; [| |auto].
          -- unfold ran_r. cbv zeta. rewrite Hc2, A4, A6, A7. intros ((B1 & B2 & B3 & B4 & B5 & B7 & k & Hk & B8 & B9 & B10) & Bd). split; [|exact Bd].
             split; [rewrite B1, Hst2; reflexivity|]. split; [eapply around_trans; eauto|]. split; [rewrite B3, Hs2; reflexivity|]. split; [rewrite B4, Hs2; reflexivity|].
             split; [auto|]. split; [intro p; rewrite B7, Hk2, Hsl1, count_app; lia|].
             exists (1 + k). split; [lia|]. fold c. split.
             { intro Hbt. rewrite expansions_next by lia. rewrite B8 by auto. do 2 f_equal. lia. }
             split; [rewrite B9, Hm2; lia|]. rewrite B10; lia.
          -- unfold rfailed. rewrite A6, A7. intros (B1 & B2 & B3 & B4). split; [eapply around_trans; eauto|]. split; [rewrite B2, Hst2; reflexivity|].
             split; [rewrite B3, Hs2; reflexivity|]. rewrite B4, Hs2; reflexivity.
        * intros (A1 & A2 & A3 & A4). split; [exact A1|]. split; [exact A2|]. split; [exact A3|exact A4].
      + rewrite run_receiver_loop_done by auto. apply t_ret. split; [|reflexivity]. split; [reflexivity|]. split; [exact (around_refl st)|]. split; [reflexivity|]. split; [reflexivity|].
        cbn [rr_w]. split; [lia|]. split; [intro p; rewrite Hsl1, count_app; lia|].
        exists 0. fold c. split; [lia|]. split; [intro; rewrite expansions_0; lia|]. split; [cbn; lia|].
        cbn [st1 set_r v_r set_r_cached r_cached rr_w v_batch_size]; change (zlen (@nil S)) with 0; lia.
    - erewrite bind_ok; [|apply get_receiver_ok; fold c; lia]. fold c. set (n := size - zlen w). cbn [rr_w].
      assert (Lt : zlen (tail n (rr_w c)) = n) by (apply zlen_tail; lia).
      assert (Hu1 : zlen (w ++ tail n (rr_w c)) = size) by (rewrite zlen_app; lia).
      rewrite Hu1. rewrite Z.ltb_irrefl. rewrite run_receiver_loop_done by lia. apply t_ret. split; [|reflexivity].
      pose proof (fun p => shrink_tail_count p n (rr_w c)) as Hsp.
      split; [reflexivity|]. split; [exact (around_refl st)|]. split; [reflexivity|]. split; [reflexivity|]. cbn [rr_w]. split; [lia|]. split.
      { intro p. specialize (Hsp p). unfold rslack. fold c. cbn [set_r v_r set_r_cached r_made r_used r_cached r_vole_seed r_mpfss_seed rr_w]. rewrite count_app. lia. }
      exists 0. fold c. split; [lia|]. split; [intro; rewrite expansions_0; lia|]. split; [cbn; lia|].
      cbn [set_r v_r set_r_cached r_cached rr_w v_batch_size]; rewrite zlen_shrink; lia.
  Qed.

  Lemma get_receiver_solo n st : triple (get_receiver_cached S n st) (fun st' r => match r with
    | UB _ => n < 0 /\ st' = st
    | Err _ => zlen (rr_w (r_cached (v_r st))) < n /\ st' = st
    | Ok _ => 0 <= n <= zlen (rr_w (r_cached (v_r st))) /\ get_receiver_cached S n st = Ret (st', r) end).
  Proof.
    unfold get_receiver_cached. destruct (Z.ltb_spec (zlen (rr_w (r_cached (v_r st)))) n); [apply t_ret; auto|].
    destruct (Z.ltb_spec n 0); [apply t_ret; auto|]. apply t_ret. split; [lia|reflexivity].
  Qed.

  Lemma run_receiver_done size st : base st ->
    triple (pbind (get_receiver_cached S size st) (fun '(st, r) =>
      match r with Ok x => Ret (st, Ok x) | Err _ => run_receiver_loop S E M (Z.to_nat size + 1) size [] (rr_delta (r_cached (v_r st))) st | UB w => Ret (st, UB w) end))
      (fun st' r => match r with UB _ => True | Err _ => rfailed st st' | Ok x => ran_r size [] st st' x /\ rr_delta x = rdelta (v_r st) end).
  Proof.
    intros Hb st' r Hp. apply possible_bind in Hp. destruct Hp as ([st1 x] & H1 & H2). apply get_receiver_solo in H1.
    destruct x as [x|e|w].
    - destruct H1 as [Hn H1]. rewrite get_receiver_ok in H1 by auto. injection H1 as <- <-.
      apply possible_ret_inv in H2. injection H2 as -> ->. split; [|reflexivity]. set (c := r_cached (v_r st)) in *.
      pose proof (fun p => shrink_tail_count p size (rr_w c)) as Hsp.
      split; [reflexivity|]. split; [exact (around_refl st)|]. split; [reflexivity|]. split; [reflexivity|]. cbn [rr_w]. split; [apply zlen_tail; lia|]. split.
      { intro p. specialize (Hsp p). unfold rslack. fold c. cbn [set_r v_r set_r_cached r_made r_used r_cached r_vole_seed r_mpfss_seed rr_w]. change (count p []) with 0. lia. }
      exists 0. fold c. change (zlen (@nil S)) with 0. split; [lia|]. split; [intro; rewrite expansions_0; lia|]. split; [cbn; lia|].
      cbn [set_r v_r set_r_cached r_cached rr_w v_batch_size]; rewrite zlen_shrink; lia.
    - destruct H1 as [Hn ->]. revert H2. apply (run_receiver_loop_solo (Z.to_nat size + 1) size _ [] st Hb).
      change (zlen (@nil S)) with 0. pose proof (zlen_nonneg (rr_w (r_cached (v_r st)))). lia.
    - apply possible_ret_inv in H2. injection H2 as -> ->. exact I.
  Qed.

  Lemma run_receiver_solo size st : base st ->
    triple (run_receiver S E M size st) (fun st' r => match r with
      | UB _ => True
      | Err _ => rfailed st st' \/ (r_done (v_r st) = false /\ (rgone st st' /\ (size < 1 -> st' = st) /\ (1 <= size -> stale st') \/ 1 <= size /\ exists d st1, ready_r size d st st1 /\ rfailed st1 st'))
      | Ok x => if r_done (v_r st) then ran_r size [] st st' x /\ rr_delta x = rdelta (v_r st)
                else 1 <= size /\ exists d st1, ready_r size d st st1 /\ ran_r size [] st1 st' x /\ rr_delta x = d end).
  Proof.
    intros Hb. unfold run_receiver. rewrite bind_get. apply t_bind. destruct (r_done (v_r st)) eqn:Hd.
    - apply t_ret. eapply t_weaken; [apply run_receiver_done; auto|]. intros st' [x|e|w]; auto.
    - eapply t_weaken; [apply precompute_random_solo; auto|]. cbv beta. intros st1 [x|e|w]; [|auto|auto]. intros (H0 & d & H1).
      eapply t_weaken; [apply run_receiver_done; apply H1|]. intros st' [x'|e|w]; [| |auto].
      + intros [H2 H3]. split; [auto|]. exists d, st1. split; [auto|]. split; [auto|]. rewrite H3. apply H1.
      + intro H2. right. split; [auto|]. right. split; [auto|]. eauto.
  Qed.
End Solo.
