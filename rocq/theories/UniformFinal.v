(** Proofs about the numbers that the library draws. *)
From Verif Require Import Base BaseFacts ListFacts ScalarModel ScalarSpec ProcModel ProcSpec RngModel RngSpec RngProofs RngUsable
  CuckooModel MpfssModel VoleModel VoleSpec VolePair VoleSolo VoleHistory VoleCode UseSpec VoleUse DeltaSpec DeltaRng
  UniformModel UniformSpec UniformProofs UniformRelabel.
From Coq Require Import Permutation.
Local Open Scope Z_scope.

(** ** Good draws *)
Lemma search_inv {A B} (I : A -> Prop) (Q : B -> Prop) (step : A -> A + B) k : (forall x, I x -> match step x with inl y => I y | inr b => Q b end) ->
  forall x, I x -> match search_nat k step x with inl y => I y | inr b => Q b end.
Proof. intro H. induction k as [|k IH]; intros x Hx; cbn; [auto|]. specialize (H x Hx). destruct (step x); [now apply IH|auto]. Qed.
Lemma search_same {A B} (I : A -> Prop) (step step' : A -> A + B) k : (forall x, I x -> step' x = step x /\ match step x with inl y => I y | inr _ => True end) ->
  forall x, I x -> search_nat k step' x = search_nat k step x.
Proof. intro H. induction k as [|k IH]; intros x Hx; cbn; [auto|]. destruct (H x Hx) as [E H0]. rewrite E. destruct (step x); auto. Qed.

Section Good.
  Variable aes : N -> N -> N.
  Definition good_draw (n : Z) (g : rng) (r : res (rng * Z)) : Prop :=
    match r with Ok (g', i) => 0 <= i < n /\ drawn aes g g' /\ usable g' | Err _ => False | UB w => In w rng_ub end.

  Lemma drawn_trans g g1 g2 : drawn aes g g1 -> drawn aes g1 g2 -> drawn aes g g2.
  Proof. induction 1; auto. intro H1. econstructor; eauto. Qed.
  Lemma next_good g : usable g ->
    match next_word aes g with Ok (g', w) => 0 <= w < 2^64 /\ drawn aes g g' /\ usable g' | Err _ => False | UB w => In w rng_ub end.
  Proof.
    intro H. apply (usable_word aes) in H. unfold next_word. destruct (rng_next aes g) as [[g' [w|]]| |] eqn:E; cbn [rbind]; auto; [|cbn; auto].
    destruct H as [H1 H2]. split; [lia|]. split; [econstructor; [exact E|constructor]|auto].
  Qed.
  Lemma good10 n g : 1 <= n -> usable g -> good_draw n g (uniform10 aes n g).
  Proof.
    intros Hn Hg. unfold uniform10. cbv zeta. rewrite search_linear. set (s := (2^64 - 1) / n).
    set (step := fun g => _). pose proof (search_inv (fun g' => usable g' /\ drawn aes g g') (good_draw n g) step (Pos.to_nat many)) as H.
    assert (Hs : 0 <= s) by (apply Z.div_pos; lia).
    assert (Hstep : forall x, usable x /\ drawn aes g x -> match step x with inl y => usable y /\ drawn aes g y | inr b => good_draw n g b end).
    { intros g1 [U1 D1]. unfold step. pose proof (next_good g1 U1) as N1. destruct (next_word aes g1) as [[g2 w]| |]; [|contradiction|exact N1].
      destruct N1 as (W & D2 & U2). pose proof (drawn_trans _ _ _ D1 D2). destruct (Z.leb_spec (n * s) w); [auto|]. cbn. split; [|auto].
      assert (0 < s) by nia. split; [apply Z.div_pos; lia|]. apply Z.div_lt_upper_bound; lia. }
    specialize (H Hstep g (conj Hg (drawn_none _ g))). destruct (search_nat _ step g) as [y|b]; [cbn; auto|exact H].
  Qed.
  Lemma good11 n g : 1 <= n -> usable g -> good_draw n g (uniform11 aes n g).
  Proof.
    intros Hn Hg. unfold uniform11. pose proof (next_good g Hg) as N0. destruct (next_word aes g) as [[g0 w0]| |]; [|contradiction|exact N0]. cbn [rbind]. destruct N0 as (W0 & D0 & U0).
    assert (R : forall w, 0 <= w < 2^64 -> 0 <= w * n / 2^64 < n) by (intros w Hw; split; [apply Z.div_pos; nia|apply Z.div_lt_upper_bound; nia]).
    destruct (_ <? n); [|cbn; auto]. rewrite search_linear. set (step := fun '(g, product, low) => _).
    pose proof (search_inv (fun '(g', product, low) => usable g' /\ drawn aes g g' /\ 0 <= product / 2^64 < n) (good_draw n g) step (Pos.to_nat many)) as H.
    assert (Hstep : forall x, (let '(g', product, low) := x in usable g' /\ drawn aes g g' /\ 0 <= product / 2^64 < n) ->
      match step x with inl y => let '(g', product, low) := y in usable g' /\ drawn aes g g' /\ 0 <= product / 2^64 < n | inr b => good_draw n g b end).
    { intros [[g1 p] lo] (U1 & D1 & P1). unfold step. destruct (_ <? _); [|cbn; auto]. pose proof (next_good g1 U1) as N1. destruct (next_word aes g1) as [[g2 w]| |]; [|contradiction|exact N1].
      destruct N1 as (W & D2 & U2). pose proof (drawn_trans _ _ _ D1 D2). cbv zeta. auto. }
    specialize (H Hstep (g0, w0 * n, (w0 * n) mod 2^64) (conj U0 (conj D0 (R _ W0)))). destruct (search_nat _ step _) as [y|b]; [cbn; auto|exact H].
  Qed.
End Good.
Lemma good_match aes n g r : good_draw aes n g r ->
  match r with Ok (g', i) => 0 <= i < n /\ drawn aes g g' /\ usable g' | Err _ => False | UB w => In w rng_ub end.
Proof. exact (fun H => H). Qed.
Lemma library_good_draw uniform aes n g : library_draw uniform -> 1 <= n -> usable g ->
  match uniform aes n g with Ok (g', i) => 0 <= i < n /\ drawn aes g g' /\ usable g' | Err _ => False | UB w => In w rng_ub end.
Proof.
  intros Hu Hn Hg. apply (good_match aes n g). destruct Hu as [E|E]; rewrite E; [exact (good10 aes n g Hn Hg)|exact (good11 aes n g Hn Hg)].
Qed.

Section Generator.
  Variables aes w : N -> N -> N.
  Variable k : N.
  Hypothesis Hk : forall x, w k x = aes k x.
  Lemma next_word_same g : r_key g = k -> next_word w g = next_word aes g /\ match next_word aes g with Ok (g', _) => r_key g' = k | _ => True end.
  Proof.
    intro Hg. destruct (next_same aes w k Hk g Hg) as [E H]. unfold next_word. rewrite E. split; [reflexivity|].
    destruct (rng_next aes g) as [[g' [x|]]| |]; cbn; auto. now apply (H g' (Value x)).
  Qed.
End Generator.
Definition step10 (n s : Z) (next : rng -> res (rng * Z)) (g : rng) : rng + res (rng * Z) :=
  match next g with
  | Ok (g, ret) => if n * s <=? ret then inl g else inr (Ok (g, ret / s))
  | Err e => inr (Err e)
  | UB w => inr (UB w)
  end.
Definition step11 (n t : Z) (next : rng -> res (rng * Z)) (x : rng * Z * Z) : rng * Z * Z + res (rng * Z) :=
  let '(g, product, low) := x in
  if low <? t then
    match next g with
    | Ok (g, w) => let product := w * n in inl (g, product, product mod 2^64)
    | Err e => inr (Err e)
    | UB w => inr (UB w)
    end
  else inr (Ok (g, product / 2^64)).
Lemma library_uses uniform : library_draw uniform -> uses_generator uniform.
Proof.
  intros Hu aes w n g Hk. set (k := r_key g) in *. pose proof (next_word_same aes w k Hk) as Hn. assert (Hg : r_key g = k) by reflexivity. clearbody k. destruct Hu as [->| ->].
  - unfold uniform10. cbv zeta. rewrite !search_linear. set (s := (2^64 - 1) / n). set (step := step10 n s (next_word aes)). set (step' := step10 n s (next_word w)). match goal with |- result (search_nat _ ?a _) = result (search_nat _ ?b _) /\ _ => change a with step'; change b with step end.
    assert (H : forall x, r_key x = k -> step' x = step x /\ match step x with inl y => r_key y = k | inr _ => True end).
    { intros x Hx. unfold step, step', step10, step11. destruct (Hn x Hx) as [-> H]. split; [reflexivity|]. destruct (next_word aes x) as [[g1 z]| |]; auto. destruct (_ <=? _); auto. }
    rewrite (search_same (fun x => r_key x = k) step step' _ H g Hg). split; [reflexivity|]. intros g' i.
    pose proof (search_inv (fun x => r_key x = k) (fun b : res (rng * Z) => match b with Ok (g', _) => r_key g' = k | _ => True end) step (Pos.to_nat many)) as H1.
    assert (Hs : forall x, r_key x = k -> match step x with inl y => r_key y = k | inr b => match b with Ok (g', _) => r_key g' = k | _ => True end end).
    { intros x Hx. unfold step, step10. destruct (Hn x Hx) as [_ H2]. destruct (next_word aes x) as [[g1 z]| |]; auto. destruct (_ <=? _); auto. }
    specialize (H1 Hs g Hg). destruct (search_nat _ step g) as [y|b]; cbn [result]; [discriminate|]. intro E. rewrite E in H1. exact H1.
  - unfold uniform11. destruct (Hn g Hg) as [-> H0]. destruct (next_word aes g) as [[g0 w0]| |]; cbn [rbind]; try (split; [reflexivity|discriminate]).
    destruct (_ <? n); [|split; [reflexivity|]; intros g' i E; injection E as <- _; auto]. rewrite !search_linear. set (t := (- n) mod 2^64 mod n).
    set (step := step11 n t (next_word aes)). set (step' := step11 n t (next_word w)). match goal with |- result (search_nat _ ?a _) = result (search_nat _ ?b _) /\ _ => change a with step'; change b with step end.
    set (I := fun x : rng * Z * Z => r_key (fst (fst x)) = k).
    assert (H : forall x, I x -> step' x = step x /\ match step x with inl y => I y | inr _ => True end).
    { intros [[x p] lo] Hx. unfold step, step', step10, step11, I in *. cbn [fst] in Hx. destruct (lo <? t); [|auto]. destruct (Hn x Hx) as [-> H]. split; [reflexivity|]. destruct (next_word aes x) as [[g1 z]| |]; auto. }
    rewrite (search_same I step step' _ H (g0, w0 * n, (w0 * n) mod 2^64) H0). split; [reflexivity|]. intros g' i.
    pose proof (search_inv I (fun b : res (rng * Z) => match b with Ok (g', _) => r_key g' = k | _ => True end) step (Pos.to_nat many)) as H1.
    assert (Hs : forall x, I x -> match step x with inl y => I y | inr b => match b with Ok (g', _) => r_key g' = k | _ => True end end).
    { intros [[x p] lo] Hx. unfold step, step11, I in *. cbn [fst] in Hx. destruct (lo <? t); [|auto]. destruct (Hn x Hx) as [_ H2]. destruct (next_word aes x) as [[g1 z]| |]; auto. }
    specialize (H1 Hs (g0, w0 * n, (w0 * n) mod 2^64) H0). destruct (search_nat _ step _) as [y|b]; cbn [result]; [discriminate|]. intro E. rewrite E in H1. exact H1.
Qed.

(** ** Numbers *)
Lemma reads_ext number word word' i l m : (forall k, word k = word' k) -> reads number word i l m -> reads number word' i l m.
Proof. intros He. induction 1; [constructor|]. apply reads_number; auto; [intros; rewrite <- He; auto|now rewrite <- He]. Qed.
Lemma library_number uniform n : library_draw uniform -> 1 <= n <= 2^63 -> exists number, equally_many n number /\
  forall aes seed b, 2 <= b < 2^61 -> Forall (fun x => x < 256)%N seed -> 32 <= zlen seed ->
  forall i g, at_word aes seed b i g -> drawn_number aes seed b number i (uniform aes n g).
Proof.
  intros [->| ->] Hn.
  - exists (number10 n). split; [now apply equally10|]. intros. now apply draw10.
  - exists (number11 n). split; [now apply equally11|]. intros. apply draw11; auto. lia.
Qed.
Lemma create_len seed n g : rng_create seed n = Ok g -> 32 <= zlen seed.
Proof. unfold rng_create, rng_seed. destruct (Z.ltb_spec (zlen seed) kStateSize); [discriminate|]. unfold kStateSize in *. auto. Qed.

Lemma library_numbers uniform n : library_draw uniform -> 1 <= n <= 2^63 -> exists number, equally_many n number /\
  forall aes seed size g xs g1, Forall (fun x => x < 256)%N seed -> even_buffer size -> rng_create seed size = Ok g -> draws aes g xs g1 ->
  let word := ctr_word aes (seed_key seed) (seed_nonce seed) in
  (forall k, 0 <= k < zlen xs -> znth 0%N xs k = word k) /\
  forall l, (exists g2, picks (uniform aes) n g1 l g2) <->
    exists places m, reads number word (zlen xs) places m /\ m <= word_limit size /\ l = map snd places.
Proof.
  intros Hu Hn. destruct (library_number uniform n Hu Hn) as (number & He & Hd). exists number. split; [auto|].
  intros aes seed size g xs g1 Hs [Hb1 Hb2] Hg Hx word. set (b := Z.max 2 size) in *. assert (Hb : 2 <= b < 2^61) by lia.
  pose proof (create_len _ _ _ Hg) as Hl. destruct (at_create aes seed b Hb Hs Hl size eq_refl) as (g0 & E0 & A0). rewrite Hg in E0. injection E0 as <-.
  destruct (at_draws aes seed b Hb xs 0 g g1 A0 Hx) as [A1 A2]. rewrite Z.add_0_l in A1.
  assert (Ew : forall i, stream aes seed b i = word i) by (intro i; apply stream_even; auto; lia).
  split; [intros k Hk; rewrite A2 by auto; rewrite Z.add_0_l; apply Ew|]. intro l.
  rewrite (picks_reads aes seed b Hb (uniform aes) number n (fun i g => Hd aes seed b Hb Hs Hl i g) l (zlen xs) g1 A1). fold (word_limit size).
  split; intros (places & m & R1 & R2 & R3); exists places, m; (split; [|auto]); eapply reads_ext; try exact R1; auto.
Qed.

(** ** Odd buffers *)
Lemma reads_all number word i l m : reads number word i l m -> i <= m /\ zlen l <= m - i /\ forall k, i <= k < m -> number (word k) = None \/ exists x, number (word k) = Some x /\ In (k, x) l.
Proof.
  induction 1 as [i|i j x l m A1 A2 A3 A4 IH]; [split; [lia|]; change (zlen (@nil (Z * Z))) with 0; split; [lia|]; intros; lia|].
  rewrite zlen_cons. destruct IH as (I1 & I2 & I3). split; [lia|]. split; [lia|]. intros k Hk. destruct (Z_lt_le_dec k j); [left; apply A2; lia|].
  destruct (Z.eq_dec k j) as [->|]; [right; exists x; split; [auto|cbn; auto]|]. destruct (I3 k ltac:(lia)) as [|(y & Y1 & Y2)]; [auto|]. right. exists y. split; [auto|cbn; auto].
Qed.
Lemma nodup_short l : zlen (nodup Z.eq_dec l) <= zlen l.
Proof. induction l as [|x l IH]; [reflexivity|]. cbn [nodup]. destruct (in_dec _ _ _); rewrite ?zlen_cons; lia. Qed.
Lemma odd_buffer aes seed num n g l g' : 3 <= num < 2^61 -> Z.odd num = true -> 1 <= n < 2^64 -> Forall (fun x => x < 256)%N seed ->
  rng_create seed num = Ok g -> picks (uniform10 aes) n g l g' -> num <= zlen l -> In 0 l.
Proof.
  intros Hn Ho Hn1 Hs Hg Hp Hl. pose proof (create_len _ _ _ Hg) as Hlen. assert (Hb : 2 <= num < 2^61) by lia.
  destruct (at_create aes seed num Hb Hs Hlen num ltac:(lia)) as (g0 & E0 & A0). rewrite Hg in E0. injection E0 as <-.
  destruct (proj1 (picks_reads aes seed num Hb (uniform10 aes) (number10 n) n (fun i g => draw10 aes seed num Hb n i g) l 0 g A0) (ex_intro _ g' Hp)) as (places & m & R1 & _ & ->).
  destruct (reads_all _ _ _ _ _ R1) as (_ & L & H). rewrite zlen_map in Hl. destruct (H (num - 1) ltac:(lia)) as [E|(x & E & Hi)]; rewrite stream_odd in E by (auto; lia); unfold number10 in E; cbn [Z.of_N] in E.
  - assert (1 <= (2^64 - 1) / n) by (apply Z.div_le_lower_bound; lia). destruct (Z.leb_spec (n * ((2^64 - 1) / n)) 0); [nia|discriminate].
  - destruct (_ <=? _); [discriminate|]. injection E as <-. apply (in_map snd) in Hi. exact Hi.
Qed.

(** ** The noise of an expansion *)
Lemma blocks_key b1 b2 : (b1 < 2^128)%N -> seed_key (block_bytes b1 ++ block_bytes b2) = b1.
Proof. intro H. transitivity (le_bytes (block_bytes b1)); [reflexivity|now apply le_block]. Qed.
Lemma blocks_nonce b1 b2 : (b2 < 2^128)%N -> seed_nonce (block_bytes b1 ++ block_bytes b2) = b2.
Proof. intro H. transitivity (le_bytes (block_bytes b2)); [reflexivity|now apply le_block]. Qed.
Lemma block_small b : Forall (fun x => x < 256)%N (block_bytes b).
Proof. apply Forall_forall. intros x Hx. unfold block_bytes in Hx. apply in_map_iff in Hx. destruct Hx as (i & <- & _). apply N.mod_lt. discriminate. Qed.

Section Noise.
  Variable S : scalar.
  Variable E : setting.
  Variable M : machine S.
  Hypothesis G : good_setting S E.
  Hypothesis GM : good_machine S M.
  Variable uniform : (N -> N -> N) -> Z -> rng -> res (rng * Z).
  Hypothesis Hu : library_draw uniform.

  Lemma history_at (sends : bool) st0 l1 e b l2 st : created S M st0 -> history S E M st0 (l1 ++ e :: l2) st -> precomputes sends b l1 e -> Forall (if sends then sender_run else receiver_run) l2 ->
    exists i, level S E st i /\ v_batch_size st = last_size E b i /\ 1 <= b.
  Proof.
    intros Hc H Hp HF. pose proof (created_ok S E M _ Hc) as Hi. change (e :: l2) with ([e] ++ l2) in H. rewrite app_assoc in H. apply history_app in H. destruct H as (sx & H1 & H2).
    pose proof (proj1 (history_inv S E G M GM _ _ _ Hi H1)) as Hi1.
    assert (K : around S sx st (v_vole_seed_size sx) (v_mpfss_seed_size sx)).
    { destruct sends.
      - destruct (precomputed_sender S E G M GM _ _ _ _ _ Hc H1 Hp) as (A1 & _). apply (runs_keep S E G M GM sender_run (fun a => s_done (v_s a)) (sender_run_step S E G M GM) l2 sx st Hi1 H2 HF A1).
      - destruct (precomputed_receiver S E G M GM _ _ _ _ _ Hc H1 Hp) as (A1 & _). apply (runs_keep S E G M GM receiver_run (fun a => r_done (v_r a)) (receiver_run_step S E G M GM) l2 sx st Hi1 H2 HF A1). }
    assert (Keep : forall s s' i, around S s s' (v_vole_seed_size s) (v_mpfss_seed_size s) -> level S E s i /\ v_batch_size s = last_size E b i -> level S E s' i /\ v_batch_size s' = last_size E b i).
    { intros s s' i (_ & _ & _ & B4 & B5 & B6 & B7) ((L1 & L2 & L3 & L4) & L5). split; [|congruence]. split; [auto|]. split; [congruence|]. split; congruence. }
    enough (L : exists i, (level S E sx i /\ v_batch_size sx = last_size E b i) /\ 1 <= b) by (destruct L as (i & L & Hb); exists i; apply (Keep sx st i K) in L; tauto).
    clear K. destruct Hp as (c & x & -> & Hp). apply history_app in H1. destruct H1 as (st1 & H1 & H3). pose proof (proj1 (history_inv S E G M GM _ _ _ Hi H1)) as Hi0.
    apply history_one in H3. destruct H3 as [H3 _]. destruct Hp as [(d & ->)|[-> ->]].
    - destruct sends.
      + unfold as_sender in H3. apply possible_bind in H3; destruct H3 as ([sy y] & Ha & Hb). apply possible_ret_inv in Hb. destruct y as [y|e|w0]; try discriminate. injection Hb as -> ->.
        apply (precompute_sender_solo S E G M GM) in Ha; try apply Hi0. destruct Ha as (A0 & _ & _ & _ & _ & _ & _ & i & A7 & A8 & _). eauto.
      + destruct d as [d|]; unfold as_receiver in H3; apply possible_bind in H3; destruct H3 as ([sy y] & Ha & Hb); apply possible_ret_inv in Hb; destruct y as [y|e|w0]; try discriminate; injection Hb as -> ->.
        * apply (precompute_receiver_solo S E G M GM) in Ha; try apply Hi0. destruct Ha as (A0 & _ & _ & _ & _ & _ & _ & i & A7 & A8 & _). eauto.
        * apply (precompute_random_solo S E G M GM) in Ha; try apply Hi0. destruct Ha as (A0 & d & _ & _ & _ & _ & _ & _ & i & A7 & A8 & _). eauto.
    - inversion H1 as [|? l0 ? ? ? ? ? ? ? ? E0 E1]; subst; [|destruct l0; discriminate]. destruct sends.
      + unfold as_sender in H3. apply possible_bind in H3; destruct H3 as ([sy y] & Ha & Hb). apply possible_ret_inv in Hb. destruct y as [y|e|w0]; try discriminate. injection Hb as -> ->.
        apply (run_sender_solo S E G M GM) in Ha; try apply Hi. replace (s_done (v_s st1)) with false in Ha by (apply created_inv in Hc; destruct Hc as (h & _ & ->); reflexivity).
        destruct Ha as (A0 & a & (_ & _ & _ & _ & _ & _ & i & A7 & A8 & _) & (_ & B & _)). exists i. split; [|auto]. destruct A7 as (L1 & L2 & L3 & L4). eapply Keep; [exact B|]. split; [split|]; auto.
      + unfold as_receiver in H3. apply possible_bind in H3; destruct H3 as ([sy y] & Ha & Hb). apply possible_ret_inv in Hb. destruct y as [y|e|w0]; try discriminate. injection Hb as -> ->.
        apply (run_receiver_solo S E G M GM) in Ha; try apply Hi. replace (r_done (v_r st1)) with false in Ha by (apply created_inv in Hc; destruct Hc as (h & _ & ->); reflexivity).
        destruct Ha as (A0 & d & a & (_ & _ & _ & _ & _ & _ & i & A7 & A8 & _) & (_ & B & _) & _). exists i. split; [|auto]. eapply Keep; [exact B|]. auto.
  Qed.
  Lemma history_level (sends : bool) st0 l1 e b l2 st : created S M st0 -> history S E M st0 (l1 ++ e :: l2) st -> precomputes sends b l1 e -> Forall (if sends then sender_run else receiver_run) l2 ->
    v_batch_size st + v_vole_seed_size st + v_mpfss_seed_size st <= last (p_output_size (e_parameters E)) 0 /\ In (v_num_noise st) (p_num_noise (e_parameters E)).
  Proof.
    intros Hc H Hp HF. destruct (history_at sends st0 l1 e b l2 st Hc H Hp HF) as (i & (L1 & L2 & L3 & L4) & L5 & _). rewrite L2, L3.
    split; [rewrite L5; unfold last_size; lia|]. rewrite L4. apply znth_In. rewrite (gs_noises S E G). auto.
  Qed.

  Lemma history_noise size : c_uniform64 M = uniform (e_aes E) -> 1 <= size <= 2^63 -> Forall even_buffer (p_num_noise (e_parameters E)) ->
    exists number, equally_many size number /\
    forall st0 l1 e b l2 st n l st' u v,
    created S M st0 -> history S E M st0 (l1 ++ e :: l2) st -> precomputes true b l1 e -> Forall sender_run l2 ->
    size = v_batch_size st + v_vole_seed_size st + v_mpfss_seed_size st ->
    let c := s_cached (v_s st) in zlen (sr_u c) < n -> Forall (fun x => fst x < 2^128)%N l ->
    ran (as_sender S E M (Run n) st) l (st', Ok (Sender u v)) ->
    exists key nonce l1 l2 st1 u' v' places, l = key :: nonce :: l1 ++ l2 /\
      first_different number (ctr_word (e_aes E) (fst key) (fst nonce)) (v_num_noise st) places /\
      zlen (expanded_u st1) = size /\
      (forall k, 0 <= k < size -> ~ In k places ->
        znth (s_zero S) (expanded_u st1) k = s_add S (codeword S (v_columns st) (sr_u (s_vole_seed (v_s st))) k) (s_zero S)) /\
      u = sr_u c ++ u' /\ v = sr_v c ++ v' /\
      ran (as_sender S E M (Run (n - zlen (sr_u c))) st1) l2 (st', Ok (Sender u' v')).
  Proof.
    intros HM Hsize Heven. destruct (library_numbers uniform size Hu Hsize) as (number & He & Hd). exists number. split; [auto|].
    intros st0 l1 e b l2 st n l st' u v Hc H Hp HF Es c Hn Hl Hr.
    pose proof (history_level true st0 l1 e b l2 st Hc H Hp HF) as (_ & Hnum).
    destruct (fresh_history S E M G GM st0 l1 e b l2 st n l st' u v Hc H Hp HF Hn Hr) as (st1 & k1 & k2 & u' & v' & -> & Hf & -> & -> & Hr').
    destruct Hf as (b1 & b2 & order & values & rest & g & places & g' & indices & noise & full & -> & Lv & Hg & Hpk & Hlast & Hperm & Li & Ln & Hval & Hzero & Lf & Hfull & Efull & _).
    rewrite <- Es in *. inversion Hl as [|? ? Hb1 Hl1]; subst. inversion Hl1 as [|? ? Hb2 _]; subst.
    pose proof (proj1 (Forall_forall _ _) Heven _ Hnum) as Hev.
    assert (Hs : Forall (fun x => x < 256)%N (block_bytes (fst b1) ++ block_bytes (fst b2))) by (apply Forall_app; split; apply block_small).
    destruct (Hd (e_aes E) _ _ g [] g Hs Hev Hg (draws_none _ g)) as [_ Hrd]. rewrite blocks_key, blocks_nonce in Hrd by auto. change (zlen (@nil N)) with 0 in Hrd.
    rewrite HM in Hpk. destruct (proj1 (Hrd places) (ex_intro _ g' Hpk)) as (pl & m & R1 & _ & ->).
    exists b1, b2, (order :: values ++ rest), k2, st1, u', v', indices. split; [reflexivity|]. split; [exists pl, m; auto|]. fold (expanded_u st1) in *.
    split; [auto|]. split; [intros k Hk Hi; rewrite Hfull by auto; now rewrite Hzero|]. auto.
  Qed.
End Noise.

(** ** The rows of the code generator *)
Lemma history_rows S E (M : machine S) uniform rows : let nonzeros := p_nonzeros (e_parameters E) in
  good_setting S E -> good_machine S M -> library_draw uniform -> e_uniform E = uniform (e_aes E) -> 1 <= rows <= 2^63 -> 1 <= nonzeros < 2^29 -> Z.even nonzeros = true ->
  exists number, equally_many rows number /\
  forall (sends : bool) st0 l1 e b l2 st,
  created S M st0 -> history S E M st0 (l1 ++ e :: l2) st -> precomputes sends b l1 e -> Forall (if sends then sender_run else receiver_run) l2 ->
  rows = v_rows st -> let entries := nonzeros * zlen (v_columns st) in
  exists seed g xs g' rs g'', rng_create seed entries = Ok g /\
  draws (e_aes E) g xs g' /\ picks (e_uniform E) rows g' rs g'' /\
  (let element k : S :=
    let first := znth 0%N xs (2 * k) in let second := znth 0%N xs (2 * k + 1) in
    s_of128 S (if e_high_first E then 2^64 * first + second else 2^64 * second + first)%N in
  forall col row, 0 <= col < zlen (v_columns st) -> entry_at (znth [] (v_columns st) col) row =
    fold_left (fun entry i => let k := col * nonzeros + i in if znth 0 rs k =? row then Some (element k) else entry) (zrange 0 nonzeros) None) /\
  (Forall (fun x => x < 256)%N seed ->
    let word := ctr_word (e_aes E) (seed_key seed) (seed_nonce seed) in
    (forall k, 0 <= k < 2 * entries -> znth 0%N xs k = word k) /\
    exists places m, reads number word (2 * entries) places m /\ zlen places = entries /\ rs = map snd places).
Proof.
  intros nz G GM Hu EU Hrows Hnz Heven. destruct (library_numbers uniform rows Hu Hrows) as (number & He & Hd). exists number. split; [auto|].
  intros sends st0 l1 e b l2 st Hc H Hp HF -> entries.
  destruct (generator_elements S E M sends st0 l1 e b l2 st G GM ltac:(apply Hnz) Hc H Hp HF) as (seed & g & xs & g' & rs & g'' & K1 & K2 & K3 & K4 & K5 & K6).
  fold nz in K1, K4, K5. fold entries in K1, K4, K5. exists seed, g, xs, g', rs, g''. split; [auto|]. split; [auto|]. split; [auto|]. split; [exact K6|]. intros Hs word.
  assert (Hev : even_buffer entries).
  { assert (Hc2 : zlen (v_columns st) < 2^31).
    { destruct (code_stays S E G M GM sends st0 l1 e b l2 st ltac:(apply Hnz) Hc H Hp ltac:(now destruct sends)) as (_ & L & _).
      pose proof (history_level S E M G GM sends st0 l1 e b l2 st Hc H Hp HF) as (L2 & _). pose proof (gs_last S E G). lia. }
    pose proof (zlen_nonneg (v_columns st)). split; [unfold entries; nia|]. unfold entries. set (c := zlen (v_columns st)) in *.
    destruct (Z_le_gt_dec 2 (nz * c)) as [Hle|Hgt]; [rewrite Z.max_r by auto; rewrite Z.even_mul, Heven; reflexivity|rewrite Z.max_l by lia; reflexivity]. }
  destruct (Hd (e_aes E) seed entries g xs g' Hs Hev K1 K2) as [D1 D2]. rewrite K4 in D1, D2. split; [auto|].
  rewrite EU in K3. destruct (proj1 (D2 rs) (ex_intro _ g'' K3)) as (pl & m & R1 & _ & ->). exists pl, m. split; [auto|]. split; [now rewrite zlen_map in K5|auto].
Qed.
