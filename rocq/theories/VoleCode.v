(** Proofs about the code generator of a Vector-OLE object. *)
From Verif Require Import Base BaseFacts ListFacts ScalarModel ScalarSpec ScalarProofs ScalarFinal ProcModel ProcSpec ProcProofs MeetProofs RotModel SpfssModel
  GilboaModel GilboaSpec RngModel CuckooModel CuckooSpec MpfssModel MpfssSpec MpfssProofs MpfssFinal VoleModel VoleSpec VoleMeet VolePair VoleFinal
  VoleSolo VoleHistory.
From Coq Require Import QArith Qabs Permutation.
Local Open Scope Z_scope.

Section Shape.
  Variable S : scalar.
  Variable E : setting.
  Notation nz := (p_nonzeros (e_parameters E)).

  Lemma coeff_set_rows column row (x : S) :
    map fst (coeff_set S column row x) = if existsb (Z.eqb row) (map fst column) then map fst column else map fst column ++ [row].
  Proof.
    induction column as [|[r y] column IH]; [reflexivity|]. cbn. destruct (Z.eqb_spec r row) as [->|Hn].
    - rewrite Z.eqb_refl. reflexivity.
    - replace (row =? r) with false by lia. cbn. rewrite IH. now destruct (existsb _ _).
  Qed.
  Lemma coeff_set_in column row (x : S) r y : In (r, y) (coeff_set S column row x) -> In (r, y) column \/ r = row /\ y = x.
  Proof.
    induction column as [|[r' y'] column IH]; cbn.
    - intros [H|[]]. injection H as <- <-. auto.
    - destruct (Z.eqb_spec r' row) as [->|Hn]; cbn; intros [H|H]; auto.
      + injection H as <- <-. auto.
      + destruct (IH H); auto.
  Qed.
  Lemma good_next rows i column row (x : S) : 0 <= row < rows -> 0 <= i ->
    (zlen column <= i /\ (0 < i -> 1 <= zlen column) /\ NoDup (map fst column) /\ Forall (fun '(r, _) => 0 <= r < rows) column) ->
    let column := coeff_set S column row x in
    zlen column <= i + 1 /\ (0 < i + 1 -> 1 <= zlen column) /\ NoDup (map fst column) /\ Forall (fun '(r, _) => 0 <= r < rows) column.
  Proof.
    intros Hr Hi (H1 & H2 & H3 & H4). cbv zeta. pose proof (coeff_set_rows column row x) as E0.
    assert (El : zlen (coeff_set S column row x) = if existsb (Z.eqb row) (map fst column) then zlen column else zlen column + 1).
    { rewrite <- (zlen_map fst), E0. destruct (existsb _ _); [apply zlen_map|]. rewrite zlen_app, zlen_map. reflexivity. }
    rewrite El, E0. split; [destruct (existsb _ _); lia|]. split; [|split].
    - intros _. destruct (existsb _ _) eqn:Hx; [|pose proof (zlen_nonneg column); lia]. destruct column as [|c column]; [discriminate|]. rewrite zlen_cons. pose proof (zlen_nonneg column). lia.
    - destruct (existsb _ _) eqn:Hx; auto. apply (Permutation_NoDup (Permutation_cons_append _ _)). constructor; auto. intro Hin. rewrite <- not_true_iff_false in Hx. apply Hx. apply existsb_exists. exists row. split; auto. apply Z.eqb_refl.
    - apply Forall_forall. intros [r y] Hin. apply coeff_set_in in Hin. destruct Hin as [Hin|[-> _]]; auto. rewrite Forall_forall in H4. exact (H4 _ Hin).
  Qed.

  Lemma sample_column_good rows el col g g' column : 1 <= nz -> sample_column S E rows el col g = Ok (g', column) -> good_column rows nz column.
  Proof.
    intros Hn H. unfold sample_column in H.
    apply (for_range_inv_ok (fun i '(_, c) => zlen c <= i /\ (0 < i -> 1 <= zlen c) /\ NoDup (map fst c) /\ Forall (fun '(r, _) => 0 <= r < rows) c)) in H.
    - destruct H as (H1 & H2 & H3 & H4). split; [split; [apply H2; lia|auto]|auto].
    - lia.
    - change (zlen (@nil (Z * S))) with 0. split; [lia|]. split; [lia|]. split; constructor.
    - intros i [g1 c] s' Hi Hc E1. apply rbind_ok_inv in E1. destruct E1 as ([g2 row] & _ & E1).
      destruct (negb _) eqn:Hr; [discriminate|]. apply rbind_ok_inv in E1. destruct E1 as (x & _ & E1). injection E1 as <-.
      apply good_next; auto; lia.
  Qed.
  Lemma sample_generator_good rows cols g columns : 1 <= nz -> 0 <= cols -> sample_generator S E rows cols g = Ok columns -> Forall (good_column rows nz) columns.
  Proof.
    intros Hn Hc H. unfold sample_generator in H. apply rbind_ok_inv in H. destruct H as ([g1 el] & _ & H).
    apply rbind_ok_inv in H. destruct H as ([g2 cs] & H & E1). injection E1 as <-.
    apply (for_range_inv_ok (fun _ '(_, l) => Forall (good_column rows nz) l)) in H; auto.
    intros i [g3 l] s' Hi Hl E2. apply rbind_ok_inv in E2. destruct E2 as ([g4 c] & H2 & E2). injection E2 as <-.
    apply Forall_app. split; [auto|]. constructor; [|constructor]. eapply sample_column_good; eauto.
  Qed.
  Lemma coded_good rows cols : 1 <= nz -> coded S E rows cols -> Forall (good_column rows nz) cols.
  Proof. intros Hn (sd & g & _ & H & _). eapply sample_generator_good; [auto| |exact H]. apply zlen_nonneg. Qed.
  Lemma good_not_zero rows cols : Forall (good_column rows nz) cols -> Forall (fun c : list (Z * S) => c = []) cols -> cols = [].
  Proof.
    intros H1 H2. destruct cols as [|c cols]; [reflexivity|]. inversion H1 as [|? ? [H _] _]; subst. inversion H2; subst. change (zlen (@nil (Z * S))) with 0 in H. lia.
  Qed.

  Hypothesis G : good_setting S E.
  Variable M : machine S.
  Hypothesis GM : good_machine S M.

  Lemma history_code st0 l st : 1 <= nz -> created S M st0 -> history S E M st0 l st ->
    Forall (fun c => c = []) (v_columns st) \/ Forall (good_column (v_rows st) nz) (v_columns st).
  Proof.
    intros Hn Hc H. pose proof (created_ok S E M _ Hc) as Hi. pose proof (proj1 (history_inv S E G M GM _ _ _ Hi H)) as ((_ & _ & Hg & _) & _).
    destruct Hg as [Hg|Hg]; [left|right; now apply coded_good]. rewrite Hg. unfold zrepeat. now induction (Z.to_nat _); constructor.
  Qed.

  Definition coded_now (st : vole S) : Prop :=
    Forall (good_column (v_rows st) nz) (v_columns st) /\ zlen (v_columns st) = v_batch_size st + v_vole_seed_size st + v_mpfss_seed_size st /\
    v_rows st = v_vole_seed_size st /\ coded S E (v_rows st) (v_columns st) /\ 0 < zlen (v_columns st).
  Lemma coded_around st st' : around S st st' (v_vole_seed_size st) (v_mpfss_seed_size st) -> coded_now st -> coded_now st'.
  Proof. intros (_ & A2 & A3 & A4 & _ & A6 & A7). unfold coded_now. now rewrite A2, A3, A4, A6, A7. Qed.
  Lemma ready_coded batch i st : 1 <= nz -> 1 <= batch -> level S E st i -> v_batch_size st = last_size E batch i -> v_rows st = znth 0 (p_seed_size (e_parameters E)) i ->
    zlen (v_columns st) = last_size E batch i + znth 0 (p_seed_size (e_parameters E)) i + e_expansion3 E (znth 0 (p_num_noise (e_parameters E)) i) ->
    coded S E (v_rows st) (v_columns st) -> coded_now st.
  Proof.
    intros Hn Hb (Hi & E1 & E2 & _) H1 H2 H3 H4. split; [now apply coded_good|]. pose proof (last_size_pos S E G batch i Hb Hi). pose proof (level_facts S E G i Hi).
    split; [lia|]. split; [lia|]. split; [auto|]. lia.
  Qed.

  Lemma precomputed_code sends st0 l1 e b st : 1 <= nz -> created S M st0 -> history S E M st0 (l1 ++ [e]) st -> precomputes sends b l1 e -> coded_now st.
  Proof.
    intros Hn Hc H (c & x & -> & Hp). pose proof (created_ok S E M _ Hc) as Hi. apply history_app in H. destruct H as (st1 & H1 & H2).
    pose proof (proj1 (history_inv S E G M GM _ _ _ Hi H1)) as Hi1. apply history_one in H2. destruct H2 as [H2 _]. destruct Hp as [(d & ->)|[-> ->]].
    - destruct sends.
      + unfold as_sender in H2. apply possible_bind in H2; destruct H2 as ([sx y] & Ha & Hb). apply possible_ret_inv in Hb. destruct y as [y|e|w0]; try discriminate. injection Hb as -> ->.
        apply (precompute_sender_solo S E G M GM) in Ha; try apply Hi1. destruct Ha as (A0 & _ & _ & _ & _ & A5 & A6 & i & A7 & A8 & A9 & A10 & A11). eapply ready_coded; eauto.
      + destruct d as [d|]; unfold as_receiver in H2; apply possible_bind in H2; destruct H2 as ([sx y] & Ha & Hb); apply possible_ret_inv in Hb; destruct y as [y|e|w0]; try discriminate; injection Hb as -> ->.
        * apply (precompute_receiver_solo S E G M GM) in Ha; try apply Hi1. destruct Ha as (A0 & _ & _ & _ & A5 & _ & A6 & i & A7 & A8 & A9 & A10 & A11). eapply ready_coded; eauto.
        * apply (precompute_random_solo S E G M GM) in Ha; try apply Hi1. destruct Ha as (A0 & d & _ & _ & _ & A5 & _ & A6 & i & A7 & A8 & A9 & A10 & A11). eapply ready_coded; eauto.
    - inversion H1 as [|? l0 ? ? ? ? ? ? ? ? E0 E1]; subst; [|destruct l0; discriminate]. destruct sends.
      + unfold as_sender in H2. apply possible_bind in H2; destruct H2 as ([sx y] & Ha & Hb). apply possible_ret_inv in Hb. destruct y as [y|e|w0]; try discriminate. injection Hb as -> ->.
        apply (run_sender_solo S E G M GM) in Ha; try apply Hi. replace (s_done (v_s st1)) with false in Ha by (apply created_inv in Hc; destruct Hc as (h & _ & ->); reflexivity).
        destruct Ha as (A0 & a & (_ & _ & _ & _ & A5 & A6 & i & A7 & A8 & A9 & A10 & A11) & (_ & B & _)). eapply coded_around; [exact B|]. eapply ready_coded; eauto.
      + unfold as_receiver in H2. apply possible_bind in H2; destruct H2 as ([sx y] & Ha & Hb). apply possible_ret_inv in Hb. destruct y as [y|e|w0]; try discriminate. injection Hb as -> ->.
        apply (run_receiver_solo S E G M GM) in Ha; try apply Hi. replace (r_done (v_r st1)) with false in Ha by (apply created_inv in Hc; destruct Hc as (h & _ & ->); reflexivity).
        destruct Ha as (A0 & d & a & (_ & _ & _ & A5 & _ & A6 & i & A7 & A8 & A9 & A10 & A11) & (_ & B & _) & _). eapply coded_around; [exact B|]. eapply ready_coded; eauto.
  Qed.
  (** The code generator stays until the next precomputation. *)
  Definition run_of (sends : bool) (e : bool * call S * res (answer S)) : Prop := if sends then sender_run e else receiver_run e.
  Lemma code_stays sends st0 l1 e b l2 st : 1 <= nz -> created S M st0 -> history S E M st0 (l1 ++ e :: l2) st -> precomputes sends b l1 e -> Forall (run_of sends) l2 ->
    coded_now st.
  Proof.
    intros Hn Hc H Hp HF. pose proof (created_ok S E M _ Hc) as Hi. change (e :: l2) with ([e] ++ l2) in H. rewrite app_assoc in H. apply history_app in H. destruct H as (st1 & H1 & H2).
    pose proof (proj1 (history_inv S E G M GM _ _ _ Hi H1)) as Hi1. pose proof (precomputed_code _ _ _ _ _ _ Hn Hc H1 Hp) as Hcd. destruct sends.
    - pose proof (proj1 (precomputed_sender S E G M GM _ _ _ _ _ Hc H1 Hp)) as Hd.
      destruct (runs_keep S E G M GM sender_run (fun a => s_done (v_s a)) (sender_run_step S E G M GM) l2 st1 st Hi1 H2 HF Hd) as [_ B]. eapply coded_around; eauto.
    - pose proof (proj1 (precomputed_receiver S E G M GM _ _ _ _ _ Hc H1 Hp)) as Hd.
      destruct (runs_keep S E G M GM receiver_run (fun a => r_done (v_r a)) (receiver_run_step S E G M GM) l2 st1 st Hi1 H2 HF Hd) as [_ B]. eapply coded_around; eauto.
  Qed.
  Lemma generator_shape (sends : bool) st0 l1 e b l2 st : 1 <= nz ->
    created S M st0 -> history S E M st0 (l1 ++ e :: l2) st -> precomputes sends b l1 e -> Forall (if sends then sender_run else receiver_run) l2 ->
    Forall (good_column (v_rows st) nz) (v_columns st) /\
    zlen (v_columns st) = v_batch_size st + v_vole_seed_size st + v_mpfss_seed_size st /\ v_rows st = v_vole_seed_size st.
  Proof. intros Hn Hc H Hp HF. destruct (code_stays sends st0 l1 e b l2 st) as (H1 & H2 & H3 & _); auto. now destruct sends. Qed.
End Shape.

(** ** Distance from uniform *)
Lemma generator_uniform t E (M : machine (scalar_of t)) sends st0 l1 e b l2 st (B : scalar_of t -> bool) : stype_ok t ->
  good_setting (scalar_of t) E -> good_machine (scalar_of t) M -> 1 <= p_nonzeros (e_parameters E) -> (0 < e_K E)%Q ->
  created (scalar_of t) M st0 -> history (scalar_of t) E M st0 (l1 ++ e :: l2) st -> precomputes sends b l1 e -> Forall (if sends : bool then sender_run else receiver_run) l2 ->
  (Qabs (hash_prob t 128 B - uniform_prob t B) < 1 / (inject_Z (p_nonzeros (e_parameters E) * zlen (v_columns st)) * (e_K E * 3)))%Q.
Proof.
  intros Ht G GM Hn HK Hc H Hp HF. destruct (code_stays (scalar_of t) E G M GM sends st0 l1 e b l2 st) as (_ & _ & _ & (seed & g & _ & _ & Hs) & Hl); auto; [now destruct sends|].
  unfold security_per_leaf in Hs. destruct (_ <? 0) eqn:Hx; [apply Z.ltb_lt in Hx; nia|]. apply can_hash_128_sound; auto; [exact (gs_size _ _ G)|].
  apply Qmult_lt_0_compat; [change 0%Q with (inject_Z 0); rewrite <- Zlt_Qlt; nia|]. apply Qmult_lt_0_compat; [auto|reflexivity].
Qed.

(** ** Evaluation order *)
Section Order.
  Variable S : scalar.
  Variable E : setting.
  Notation E' := (other_order E).

  (** The two 64-bit halves of a random 128-bit integer, in the order of [E] and in the other. *)
  Definition joined (E : setting) (d : N * N) : S :=
    s_of128 S (if e_high_first E then (2^64 * fst d + snd d)%N else (2^64 * snd d + fst d)%N).

  Lemma for_range_rel {A B} (R : A -> B -> Prop) lo hi f g a b a' :
    (forall i a b a', lo <= i < hi -> R a b -> f i a = Ok a' -> exists b', g i b = Ok b' /\ R a' b') ->
    R a b -> for_range lo hi f a = Ok a' -> exists b', for_range lo hi g b = Ok b' /\ R a' b'.
  Proof.
    remember (Z.to_nat (hi - lo)) as n eqn:En. revert lo a b En. induction n as [|n IH]; intros lo a b En Hs H0 H.
    - rewrite for_range_empty in H by lia. rewrite for_range_empty by lia. injection H as <-. eauto.
    - rewrite for_range_first in H by lia. rewrite for_range_first by lia. apply rbind_ok_inv in H. destruct H as (a1 & H1 & H2).
      destruct (Hs lo _ _ _ ltac:(lia) H0 H1) as (b1 & -> & Hr). cbn [rbind]. apply (IH (lo + 1) a1 b1); auto; [lia|]. intros i x y x' Hi. apply Hs. lia.
  Qed.
  Lemma elements_order n g g' l : random_elements S E n g = Ok (g', l) ->
    exists ds, l = map (joined E) ds /\ random_elements S E' n g = Ok (g', map (joined E') ds).
  Proof.
    intro H. unfold random_elements in *.
    eapply (for_range_rel (fun a b => fst a = fst b /\ exists ds, snd a = map (joined E) ds /\ snd b = map (joined E') ds)) with (b := (g, [])) in H.
    - destruct H as ([g1 l1] & H & E1 & ds & E2 & E3). cbn in *. subst. eauto.
    - intros i [g1 l1] [g2 l2] a' _ (E1 & ds & E2 & E3) Hx. cbn [fst snd] in *. subst. apply rbind_ok_inv in Hx. destruct Hx as ([g1 x] & Hx & E1). injection E1 as <-.
      unfold random_element in *. change (rng_call E') with (rng_call E) in *.
      apply rbind_ok_inv in Hx. destruct Hx as ([g3 a] & H3 & Hx). apply rbind_ok_inv in Hx. destruct Hx as ([g4 b] & H4 & Hx). injection Hx as <- <-.
      rewrite H3. cbn [rbind]. rewrite H4. cbn [rbind]. eexists. split; [reflexivity|]. split; [reflexivity|]. exists (ds ++ [(a, b)]). now rewrite !map_app.
    - split; [reflexivity|]. now exists [].
  Qed.

  Definition entry (E : setting) (e : Z * (N * N)) : Z * S := (fst e, joined E (snd e)).
  Fixpoint put (c : list (Z * (N * N))) row d :=
    match c with [] => [(row, d)] | (r, x) :: c => if r =? row then (r, d) :: c else (r, x) :: put c row d end.
  Lemma coeff_put E0 c row d : coeff_set S (map (entry E0) c) row (joined E0 d) = map (entry E0) (put c row d).
  Proof. induction c as [|[r x] c IH]; [reflexivity|]. cbn. destruct (r =? row); cbn; [reflexivity|]. now rewrite IH. Qed.
  Lemma column_order rows ds col g g' c : sample_column S E rows (map (joined E) ds) col g = Ok (g', c) ->
    exists e, c = map (entry E) e /\ sample_column S E' rows (map (joined E') ds) col g = Ok (g', map (entry E') e).
  Proof.
    intro H. unfold sample_column in *.
    eapply (for_range_rel (fun a b => fst a = fst b /\ exists e, snd a = map (entry E) e /\ snd b = map (entry E') e)) with (b := (g, [])) in H.
    - destruct H as ([g1 l1] & H & E1 & ds' & E2 & E3). cbn in *. subst. eauto.
    - intros i [g1 l1] [g2 l2] a' _ (E1 & e & E2 & E3) Hx. cbn [fst snd] in *. subst. apply rbind_ok_inv in Hx. destruct Hx as ([g1 row] & Hx & Hy).
      change (e_uniform E') with (e_uniform E). change (p_nonzeros (e_parameters E')) with (p_nonzeros (e_parameters E)). rewrite Hx. cbn [rbind]. destruct (negb _); [discriminate|].
      apply rbind_ok_inv in Hy. destruct Hy as (x & Hy & E1). injection E1 as <-. unfold zget in *. rewrite !zlen_map in *. destruct (_ && _); [|discriminate].
      rewrite !nth_error_map in *. destruct (nth_error ds _) as [d|]; [|discriminate]. cbn in Hy. injection Hy as <-. cbn [option_map rbind].
      eexists. split; [reflexivity|]. split; [reflexivity|]. exists (put e row d). cbn [snd]. now rewrite !coeff_put.
    - split; [reflexivity|]. now exists [].
  Qed.
  Lemma generator_order rows cols g columns : sample_generator S E rows cols g = Ok columns ->
    exists e, columns = map (map (entry E)) e /\ sample_generator S E' rows cols g = Ok (map (map (entry E')) e).
  Proof.
    intro H. unfold sample_generator in *. apply rbind_ok_inv in H. destruct H as ([g1 el] & H1 & H). apply elements_order in H1. destruct H1 as (ds & -> & H1).
    apply rbind_ok_inv in H. destruct H as ([g2 cs] & H & E1). injection E1 as <-.
    eapply (for_range_rel (fun a b => fst a = fst b /\ exists e, snd a = map (map (entry E)) e /\ snd b = map (map (entry E')) e)) with (b := (g1, [])) in H.
    - destruct H as ([g3 l1] & H & E1 & e & E2 & E3). cbn [fst snd] in *. subst. exists e. split; [reflexivity|].
      change (p_nonzeros (e_parameters E')) with (p_nonzeros (e_parameters E)). rewrite H1. cbn [rbind]. rewrite H. reflexivity.
    - intros i [g3 l1] [g4 l2] a' _ (E1 & e & E2 & E3) Hx. cbn [fst snd] in *. subst. apply rbind_ok_inv in Hx. destruct Hx as ([g5 c] & Hx & Hy). injection Hy as <-.
      apply column_order in Hx. destruct Hx as (e' & -> & Hx). rewrite Hx. cbn [rbind]. eexists. split; [reflexivity|]. split; [reflexivity|]. exists (e ++ [e']). cbn [snd]. now rewrite !map_app.
    - split; [reflexivity|]. now exists [].
  Qed.
  Lemma other_order_swaps rows cols g columns : sample_generator S E rows cols g = Ok columns ->
    exists positions : list (list (Z * (N * N))),
      let value (high_first : bool) (d : N * N) : S :=
        s_of128 S (if high_first then 2^64 * fst d + snd d else 2^64 * snd d + fst d)%N in
      columns = map (map (fun '(row, d) => (row, value (e_high_first E) d))) positions /\
      sample_generator S (other_order E) rows cols g = Ok (map (map (fun '(row, d) => (row, value (negb (e_high_first E)) d))) positions).
  Proof.
    intro H. apply generator_order in H. destruct H as (e & -> & H). exists e. cbv zeta. rewrite H. split; [|f_equal];
      (apply map_ext; intro l; apply map_ext; intros [row d]; reflexivity).
  Qed.
End Order.

(** ** Every random number at its own place *)
Section Places.
  Variable S : scalar.
  Variable E : setting.
  Notation nz := (p_nonzeros (e_parameters E)).

  Lemma draws_app aes g l g1 l' g2 : draws aes g l g1 -> draws aes g1 l' g2 -> draws aes g (l ++ l') g2.
  Proof. induction 1; auto. cbn. intro. econstructor; eauto. Qed.
  Lemma picks_app u n g l g1 l' g2 : picks u n g l g1 -> picks u n g1 l' g2 -> picks u n g (l ++ l') g2.
  Proof. induction 1; auto. cbn. intro. econstructor; eauto. Qed.
  Lemma call_draws g g' x : rng_call E g = Ok (g', x) -> draws (e_aes E) g [x] g'.
  Proof.
    unfold rng_call. destruct (rng_next (e_aes E) g) as [[g1 [v|]]| |] eqn:H; cbn; try discriminate. intro H1. injection H1 as <- <-.
    econstructor; [exact H|constructor].
  Qed.

  (** Number [k] of the random elements, from all random numbers. *)
  Definition element (xs : list N) (k : Z) : S :=
    let first := znth 0%N xs (2 * k) in let second := znth 0%N xs (2 * k + 1) in
    s_of128 S (if e_high_first E then 2^64 * first + second else 2^64 * second + first)%N.
  Lemma element_app xs ys k : 0 <= k -> 2 * k + 1 < zlen xs -> element (xs ++ ys) k = element xs k.
  Proof.
    intros H0 H. unfold element. rewrite !znth_app by lia. replace (2 * k <? zlen xs) with true by lia. now replace (2 * k + 1 <? zlen xs) with true by lia.
  Qed.
  Lemma elements_places n g g' l : 0 <= n -> random_elements S E n g = Ok (g', l) ->
    exists xs, draws (e_aes E) g xs g' /\ zlen xs = 2 * n /\ l = map (element xs) (zrange 0 n).
  Proof.
    intros Hn H. unfold random_elements in H.
    apply (for_range_inv_ok (fun i '(g', l) => exists xs, draws (e_aes E) g xs g' /\ zlen xs = 2 * i /\ l = map (element xs) (zrange 0 i))) in H; auto.
    - exists []. split; [constructor|]. split; reflexivity.
    - intros i [g1 l1] s' Hi (xs & Hd & Hl & ->) Hx. apply rbind_ok_inv in Hx. destruct Hx as ([g2 x] & Hx & E1). injection E1 as <-.
      unfold random_element in Hx. apply rbind_ok_inv in Hx. destruct Hx as ([g3 a] & H3 & Hx). apply rbind_ok_inv in Hx. destruct Hx as ([g4 b] & H4 & Hx). injection Hx as <- <-.
      apply call_draws in H3, H4. exists (xs ++ [a; b]). split; [|split].
      + eapply draws_app; [exact Hd|]. exact (draws_app _ _ [a] _ [b] _ H3 H4).
      + rewrite zlen_app, Hl. change (zlen [a; b]) with 2. lia.
      + rewrite zrange_snoc, map_app by lia. f_equal.
        * apply map_ext_in. intros k Hk. apply In_zrange in Hk. symmetry. apply element_app; lia.
        * cbn [map]. f_equal. unfold element. rewrite !znth_app by lia. rewrite Hl. replace (2 * i <? 2 * i) with false by lia. replace (2 * i + 1 <? 2 * i) with false by lia.
          replace (2 * i - 2 * i) with 0 by lia. replace (2 * i + 1 - 2 * i) with 1 by lia. reflexivity.
  Qed.

  Lemma entry_set c row (x : S) r : entry_at (coeff_set S c row x) r = if row =? r then Some x else entry_at c r.
  Proof.
    unfold entry_at. induction c as [|[r0 y] c IH]; cbn.
    - destruct (row =? r); reflexivity.
    - destruct (Z.eqb_spec r0 row) as [->|Hn]; cbn; [destruct (row =? r); reflexivity|].
      destruct (Z.eqb_spec r0 r) as [->|Hn']; [now replace (row =? r) with false by lia|exact IH].
  Qed.
  (** The entry in row [r] if elements [first], [first + 1], ... go to the rows [rs]. *)
  Definition latest (el : Z -> S) (first : Z) (rs : list Z) (n r : Z) : option S :=
    fold_left (fun acc i => if znth 0 rs (first + i) =? r then Some (el (first + i)) else acc) (zrange 0 n) None.
  Lemma latest_ext el first rs el' first' rs' n r : (forall i, 0 <= i < n -> znth 0 rs (first + i) = znth 0 rs' (first' + i) /\ el (first + i) = el' (first' + i)) ->
    latest el first rs n r = latest el' first' rs' n r.
  Proof.
    intro H. unfold latest. assert (H1 : forall i, In i (zrange 0 n) -> znth 0 rs (first + i) = znth 0 rs' (first' + i) /\ el (first + i) = el' (first' + i)) by (intros i Hi; apply H; now apply In_zrange).
    generalize (@None S). clear H. induction (zrange 0 n) as [|i l IH]; intro acc; [reflexivity|]. cbn [fold_left]. destruct (H1 i (or_introl eq_refl)) as [-> ->]. apply IH. intros j Hj. apply H1. now right.
  Qed.
  Lemma column_places rows el col g g' c : 0 <= nz -> sample_column S E rows el col g = Ok (g', c) ->
    exists rs, picks (e_uniform E) rows g rs g' /\ zlen rs = nz /\ forall r, entry_at c r = latest (fun i => znth (s_zero S) el (col * nz + i)) 0 rs nz r.
  Proof.
    intros Hz H. unfold sample_column in H.
    apply (for_range_inv_ok (fun i '(g', c) => exists rs, picks (e_uniform E) rows g rs g' /\ zlen rs = i /\
      forall r, entry_at c r = latest (fun i => znth (s_zero S) el (col * nz + i)) 0 rs i r)) in H; auto.
    - exists []. split; [constructor|]. split; reflexivity.
    - intros i [g1 c1] s' Hi (rs & Hp & Hl & He) Hx. apply rbind_ok_inv in Hx. destruct Hx as ([g2 row] & Hx & Hy). destruct (negb _); [discriminate|].
      apply rbind_ok_inv in Hy. destruct Hy as (x & Hy & E1). injection E1 as <-. exists (rs ++ [row]). split; [|split].
      + eapply picks_app; [exact Hp|]. econstructor; [exact Hx|constructor].
      + rewrite zlen_app, Hl. reflexivity.
      + intro r. rewrite entry_set. unfold latest. rewrite zrange_snoc, fold_left_app by lia. cbn [fold_left]. rewrite znth_app by lia. rewrite Hl.
        replace (0 + i <? i) with false by lia. replace (0 + i - i) with 0 by lia. change (znth 0 [row] 0) with row. replace (0 + i) with i by lia.
        destruct (row =? r).
        * apply zget_inv in Hy. destruct Hy as [_ Hy]. cbv beta. now rewrite Hy.
        * rewrite He. set (at_ := fun i => znth (s_zero S) el (col * nz + i)). apply (latest_ext at_ 0 rs at_ 0 (rs ++ [row]) i r). intros j Hj. split; [|reflexivity]. rewrite znth_app by lia. now replace (0 + j <? zlen rs) with true by lia.
  Qed.

  Lemma generator_places rows cols g columns : 0 <= nz -> 0 <= cols -> sample_generator S E rows cols g = Ok columns ->
    exists xs g' rs g'', draws (e_aes E) g xs g' /\ picks (e_uniform E) rows g' rs g'' /\ zlen xs = 2 * (nz * cols) /\ zlen rs = nz * cols /\ zlen columns = cols /\
    forall col row, 0 <= col < cols -> entry_at (znth [] columns col) row =
      fold_left (fun acc i => let k := col * nz + i in if znth 0 rs k =? row then Some (element xs k) else acc) (zrange 0 nz) None.
  Proof.
    intros Hz Hc H. unfold sample_generator in H. apply rbind_ok_inv in H. destruct H as ([g1 el] & H1 & H). apply elements_places in H1; [|nia]. destruct H1 as (xs & Hd & Hl & ->).
    apply rbind_ok_inv in H. destruct H as ([g2 cs] & H & E1). injection E1 as <-. exists xs, g1.
    apply (for_range_inv_ok (fun n '(g', cs) => exists rs, picks (e_uniform E) rows g1 rs g' /\ zlen rs = nz * n /\ zlen cs = n /\
      forall col row, 0 <= col < n -> entry_at (znth [] cs col) row = latest (element xs) (col * nz) rs nz row)) in H; auto.
    - destruct H as (rs & Hp & Hr & Hn & He). exists rs, g2. auto 10.
    - exists []. split; [constructor|]. split; [change (zlen (@nil Z)) with 0; lia|]. split; [reflexivity|]. lia.
    - intros i [g3 l] s' Hi (rs & Hp & Hr & Hn & He) Hx. apply rbind_ok_inv in Hx. destruct Hx as ([g4 c] & Hx & E1). injection E1 as <-.
      apply column_places in Hx; auto. destruct Hx as (rs' & Hp' & Hr' & He'). exists (rs ++ rs'). split; [eapply picks_app; eauto|].
      split; [rewrite zlen_app; lia|]. split; [rewrite zlen_app, Hn; reflexivity|]. intros col row Hcol. rewrite znth_app by lia. rewrite Hn.
      destruct (Z.ltb_spec col i) as [Hlt|Hge].
      + rewrite He by lia. apply latest_ext. intros j Hj. split; [|reflexivity]. rewrite znth_app by nia. now replace (col * nz + j <? zlen rs) with true by nia.
      + assert (col = i) by lia. subst col. replace (i - i) with 0 by lia. change (znth [] [c] 0) with c. rewrite He'. apply latest_ext. intros j Hj. split.
        * rewrite znth_app by nia. rewrite Hr. replace (i * nz + j <? nz * i) with false by nia. f_equal. nia.
        * rewrite (znth_map _ 0) by (rewrite zlen_zrange; nia). rewrite znth_zrange by nia. f_equal. 
  Qed.

  Lemma generator_elements (M : machine S) sends st0 l1 e b l2 st : good_setting S E -> good_machine S M -> 1 <= nz ->
    created S M st0 -> history S E M st0 (l1 ++ e :: l2) st -> precomputes sends b l1 e -> Forall (if sends : bool then sender_run else receiver_run) l2 ->
    exists seed g xs g' rs g'', rng_create seed (nz * zlen (v_columns st)) = Ok g /\ draws (e_aes E) g xs g' /\ picks (e_uniform E) (v_rows st) g' rs g'' /\
    zlen xs = 2 * (nz * zlen (v_columns st)) /\ zlen rs = nz * zlen (v_columns st) /\
    forall col row, 0 <= col < zlen (v_columns st) -> entry_at (znth [] (v_columns st) col) row =
      fold_left (fun acc i => let k := col * nz + i in if znth 0 rs k =? row then Some (element xs k) else acc) (zrange 0 nz) None.
  Proof.
    intros G GM Hn Hc H Hp HF. destruct (code_stays S E G M GM sends st0 l1 e b l2 st) as (_ & _ & _ & (seed & g & H1 & H2 & _) & _); auto; [now destruct sends|].
    apply generator_places in H2; [|lia|apply zlen_nonneg]. destruct H2 as (xs & g' & rs & g'' & K1 & K2 & K3 & K4 & _ & K5). exists seed, g, xs, g', rs, g''. auto 10.
  Qed.
End Places.

(** ** Both parties have the same generator *)
Section Lives.
  Variable t : stype.
  Hypothesis Ht : stype_ok t.
  Let S := scalar_of t.
  Variable E : setting.
  Hypothesis G : good_setting S E.
  Variable MA MB : machine S.
  Hypothesis GA : good_machine S MA.
  Hypothesis GB : good_machine S MB.
  Hypothesis HC : connected MA MB.

  Definition not_ok (r : res (vole S)) : Prop := forall a, r <> Ok a.
  Lemma go_meet seed l : forall a b, Inv S E seed a b ->
    meet not_ok not_ok (fun ra rb => match ra, rb with Ok a, Ok b => Inv S E seed a b | Ok _, _ | _, Ok _ => False | _, _ => True end)
      (go_through S E MA l a) (go_through S E MB (opposite S l) b).
  Proof.
    induction l as [|[s c] l IH]; intros a b HI; cbn [go_through opposite map]; [apply meet_ret; exact HI|].
    eapply meet_bind; [apply (any_call_meet S (scalar_of_laws t Ht) E G MA MB GA GB HC seed s c a b HI)| | |].
    - intros [a' [x|e|w]] [b' [y|e'|w']] T; cbn in T; try contradiction; [apply IH; apply T|apply meet_ret; exact I|apply meet_ret; exact I].
    - intros [a' [x|e|w]] T; cbn in T; try contradiction; eexists; (split; [reflexivity|discriminate]).
    - intros [a' [x|e|w]] T; cbn in T; try contradiction; eexists; (split; [reflexivity|discriminate]).
  Qed.
  Lemma life_meet l : meet not_ok not_ok (fun ra rb => match ra, rb with Ok a, Ok b => exists seed, Inv S E seed a b | Ok _, _ | _, Ok _ => False | _, _ => True end)
    (life S E MA l) (life S E MB (opposite S l)).
  Proof.
    unfold life, pbindr.
    eapply (meet_bind S (fun _ => False) (fun _ => False)
      _ _ (fun x y => exists seed a b, x = Ok a /\ y = Ok b /\ Inv S E seed a b)); [| |contradiction|contradiction].
    - intros ta tb. left. destruct (create_jrun S MA MB HC ta tb) as (seed & ta' & tb' & J). eexists _, _, _, _. split; [exact J|].
      exists seed. eexists _, _. split; [reflexivity|]. split; [reflexivity|]. apply new_Inv.
    - intros x y (seed & a & b & -> & -> & HI). eapply meet_weaken; [apply (go_meet seed l a b HI)|auto|auto|].
      cbv beta. intros [a'|?|?] [b'|?|?]; auto. eauto.
  Qed.

  Lemma same_code l ta tb m d a b : steps m (start (life S E MA l) ta (life S E MB (opposite S l)) tb) d ->
    c_a d = Ret (Ok a) -> c_b d = Ret (Ok b) ->
    v_rows a = v_rows b /\ v_columns a = v_columns b /\ v_batch_size a = v_batch_size b /\ v_num_noise a = v_num_noise b /\
    v_vole_seed_size a = v_vole_seed_size b /\ v_mpfss_seed_size a = v_mpfss_seed_size b.
  Proof.
    intros Hd Ha Hb. assert (Hs : stuck d) by (destruct d; cbn in *; subst; apply ret_stuck).
    destruct (life_meet l ta tb) as [(ra & rb & ta' & tb' & [n J]%jrun_steps & T) | [(ra & q & ta' & tb' & [n J]%jrun_steps & W & T) | (q & rb & ta' & tb' & [n J]%jrun_steps & W & T)]].
    - destruct (schedule_independence _ _ _ _ _ _ _ _ _ J (finished_stuck _ _ _ _) m d Hd) as (_ & _ & H2). destruct (H2 Hs) as [_ ->]. cbn in Ha, Hb. injection Ha as ->. injection Hb as ->.
      cbn in T. destruct T as (seed & [[] _]). auto 10.
    - destruct (schedule_independence _ _ _ _ _ _ _ _ _ J (waits_stuck _ _ _ _ _ W) m d Hd) as (_ & _ & H2). destruct (H2 Hs) as [_ ->]. cbn in Ha, Hb. injection Ha as ->. now destruct (T a).
    - destruct (schedule_independence _ _ _ _ _ _ _ _ _ J (waits_stuck' _ _ _ _ _ W) m d Hd) as (_ & _ & H2). destruct (H2 Hs) as [_ ->]. cbn in Ha, Hb. injection Hb as ->. now destruct (T b).
  Qed.
End Lives.
