(** C89: which positions and rows std::uniform_int_distribution gives. *)
From Verif Require Import Base BaseFacts ListFacts ScalarModel ProcModel RngModel RngSpec VoleModel VoleSpec VoleHistory VoleToy UseSpec VoleUse DeltaSpec
  UniformModel UniformSpec UniformProofs UniformRelabel UniformFinal UniformToy.
From Coq Require Import Permutation QArith.
Local Open Scope Z_scope.

(** C89: for every n there is a fixed way to turn 64-bit words into numbers below
    n, or to reject them, where every number has equally many words and at least
    half of the words are accepted. With it, if a generator is created from a seed,
    returns [xs] to direct calls, and is then used to draw numbers below n, the
    words are those of AES in counter mode from the first on, in order and without
    gaps, and the numbers are exactly those of the accepted words; drawing only
    fails when the words the generator can deliver have run out. For both versions
    of std::uniform_int_distribution in libstdc++. *)
Theorem C89_numbers : forall uniform n, library_draw uniform -> 1 <= n <= 2^63 -> exists number, equally_many n number /\
  forall aes seed size g xs g1, Forall (fun x => x < 256)%N seed -> even_buffer size -> rng_create seed size = Ok g -> draws aes g xs g1 ->
  let word := ctr_word aes (seed_key seed) (seed_nonce seed) in
  (forall k, 0 <= k < zlen xs -> znth 0%N xs k = word k) /\
  forall l, (exists g2, picks (uniform aes) n g1 l g2) <->
    exists places m, reads number word (zlen xs) places m /\ m <= word_limit size /\ l = map snd places.
Proof. exact library_numbers. Qed.
Print Assumptions C89_numbers.

(** For such a way of turning words into numbers, the numbers read from a stream of
    independent and uniformly distributed words are independent and uniformly
    distributed: permute the numbers read at each position k in any way (pi k), and
    there are permutations of the words at each position that carry the streams
    which give some numbers exactly to the streams which give the permuted
    numbers, at the same positions. *)
Theorem C89_independent : forall n number pi, equally_many n number -> (forall k, permutes (fun x => 0 <= x < n) (pi k)) ->
  exists phi, (forall k : Z, permutes (fun w => w < 2^64)%N (phi k)) /\
  forall word, (forall k, (word k < 2^64)%N) -> forall i l m, Forall (fun '(_, x) => 0 <= x < n) l ->
    (reads number word i l m <-> reads number (fun k => phi k (word k)) i (map (fun '(k, x) => (k, pi k x)) l) m).
Proof. exact relabel. Qed.
Print Assumptions C89_independent.

(** In the same sense, all sets of [num] different numbers are equally likely to be
    the first [num] different numbers of a stream. *)
Theorem C89_uniform_set : forall n number num A B, equally_many n number ->
  NoDup A -> NoDup B -> zlen A = num -> zlen B = num -> Forall (fun x => 0 <= x < n) A -> Forall (fun x => 0 <= x < n) B ->
  exists phi, permutes (fun w => w < 2^64)%N phi /\
  forall word, (forall k, (word k < 2^64)%N) ->
    (first_different number word num A <-> first_different number (fun k => phi (word k)) num B).
Proof. exact uniform_set. Qed.
Print Assumptions C89_uniform_set.

(** The noise of an expansion in Run (see C67): the first two random blocks that
    the sender draws are key and nonce of a stream of words, and the noise is at
    the first different positions that this stream gives; everywhere else u is a
    codeword of the old seed. *)
Theorem C89_noise : forall S E (M : machine S), good_setting S E -> good_machine S M -> forall uniform, library_draw uniform ->
  forall size, c_uniform64 M = uniform (e_aes E) -> 1 <= size <= 2^63 -> Forall even_buffer (p_num_noise (e_parameters E)) ->
  exists number, equally_many size number /\
  forall st0 l1 e b l2 st n l st' u v,
  created S M st0 -> history S E M st0 (l1 ++ e :: l2) st -> precomputes true b l1 e -> Forall sender_run l2 ->
  size = v_batch_size st + v_vole_seed_size st + v_mpfss_seed_size st ->
  let c := s_cached (v_s st) in zlen (sr_u c) < n -> Forall (fun x => fst x < 2^128)%N l ->
  ran (as_sender S E M (Run n) st) l (st', Ok (Sender u v)) ->
  exists key nonce l1 l2 st1 u' v' places, l = key :: nonce :: l1 ++ l2 /\
    first_different number (ctr_word (e_aes E) (fst key) (fst nonce)) (v_num_noise st) places /\
    zlen (expanded_u st1) = size /\
    (forall k, 0 <= k < size -> ~ In k places ->
      znth (s_zero S) (expanded_u st1) k = s_add S (codeword S (v_columns st) (sr_u (s_vole_seed (v_s st))) k) (s_zero S)) /\
    u = sr_u c ++ u' /\ v = sr_v c ++ v' /\
    ran (as_sender S E M (Run (n - zlen (sr_u c))) st1) l2 (st', Ok (Sender u' v')).
Proof. exact history_noise. Qed.
Print Assumptions C89_noise.

(** The code generator (see C48): its elements are made of the first words of the
    stream of its seed, two for each, and its rows are the numbers that the
    following words give. *)
Theorem C89_rows : forall S E (M : machine S) uniform rows, let nonzeros := p_nonzeros (e_parameters E) in
  good_setting S E -> good_machine S M -> library_draw uniform -> e_uniform E = uniform (e_aes E) -> 1 <= rows <= 2^63 -> 1 <= nonzeros < 2^29 -> Z.even nonzeros = true ->
  exists number, equally_many rows number /\
  forall (sends : bool) st0 l1 e b l2 st,
  created S M st0 -> history S E M st0 (l1 ++ e :: l2) st -> precomputes sends b l1 e -> Forall (if sends then sender_run else receiver_run) l2 ->
  rows = v_rows st -> let entries := nonzeros * zlen (v_columns st) in
  exists seed g xs g' rs g'', rng_create seed entries = Ok g /\
  draws (e_aes E) g xs g' /\ picks (e_uniform E) rows g' rs g'' /\
  (let element k : S :=
    let first := znth 0%N xs (2 * k) in let second := znth 0%N xs (2 * k + 1) in
    s_of128 S (if e_high_first E then 2^64 * first + second else 2^64 * second + first)%N in
  forall col row, 0 <= col < zlen (v_columns st) -> entry_at (znth [] (v_columns st) col) row =
    fold_left (fun entry i => let k := col * nonzeros + i in if znth 0 rs k =? row then Some (element k) else entry) (zrange 0 nonzeros) None) /\
  (Forall (fun x => x < 256)%N seed ->
    let word := ctr_word (e_aes E) (seed_key seed) (seed_nonce seed) in
    (forall k, 0 <= k < 2 * entries -> znth 0%N xs k = word k) /\
    exists places m, reads number word (2 * entries) places m /\ zlen places = entries /\ rs = map snd places).
Proof. exact history_rows. Qed.
Print Assumptions C89_rows.

(** The parameters of the library give even buffers only. *)
Theorem C89_library_buffers : Forall even_buffer (p_num_noise library_parameters) /\ 1 <= p_nonzeros library_parameters < 2^29 /\ Z.even (p_nonzeros library_parameters) = true.
Proof. split; [repeat (constructor; [split; [reflexivity|reflexivity]|]); constructor|]. split; [cbn; lia|reflexivity]. Qed.
Print Assumptions C89_library_buffers.

(** With an odd number of noise positions (at least 3) and GCC up to 10, position 0
    would always be among them: the last word of the generator's buffer is
    constant (C39). *)
Theorem C89_odd_buffer_refuted : forall aes seed num n g l g', 3 <= num < 2^61 -> Z.odd num = true -> 1 <= n < 2^64 -> Forall (fun x => x < 256)%N seed ->
  rng_create seed num = Ok g -> picks (uniform10 aes) n g l g' -> num <= zlen l -> In 0 l.
Proof. exact odd_buffer. Qed.
Print Assumptions C89_odd_buffer_refuted.

(** Both versions do what the other properties ask of the library's draws
    ([good_setting], [good_machine], [uses_generator]). *)
Theorem C89_draws_are_good : forall uniform, library_draw uniform ->
  (forall aes n g, 1 <= n -> usable g ->
    match uniform aes n g with Ok (g', i) => 0 <= i < n /\ drawn aes g g' /\ usable g' | Err _ => False | UB w => In w rng_ub end) /\
  uses_generator uniform.
Proof. intros uniform H. split; [intros aes n g; now apply library_good_draw|now apply library_uses]. Qed.
Print Assumptions C89_draws_are_good.

(** ** Examples *)
Definition example_seed : list N := map N.of_nat (seq 1 32).
(** [k] numbers below [n], from a buffer of [size] words. *)
Fixpoint take (uniform : Z -> rng -> res (rng * Z)) (n : Z) (k : nat) (g : rng) : res (rng * list Z) :=
  match k with
  | O => Ok (g, [])
  | S k => let! (g, x) := uniform n g in let! (g, l) := take uniform n k g in Ok (g, x :: l)
  end.
Lemma take_picks uniform n k : forall g g' l, take uniform n k g = Ok (g', l) -> picks uniform n g l g' /\ zlen l = Z.of_nat k.
Proof.
  induction k as [|k IH]; intros g g' l H; cbn [take] in H; [injection H as <- <-; split; [constructor|reflexivity]|].
  apply rbind_ok_inv in H. destruct H as ([g1 x] & H1 & H). apply rbind_ok_inv in H. destruct H as ([g2 l2] & H2 & H). injection H as <- <-.
  apply IH in H2. destruct H2 as [H2 H3]. split; [econstructor; eauto|]. rewrite zlen_cons. lia.
Qed.
Definition numbers_of (uniform : Z -> rng -> res (rng * Z)) n size k : option (list Z) :=
  match rng_create example_seed size with Ok g => match take uniform n k g with Ok (_, l) => Some l | _ => None end | _ => None end.
Lemma numbers_of_picks uniform n size k l : numbers_of uniform n size k = Some l ->
  exists g g', rng_create example_seed size = Ok g /\ picks uniform n g l g' /\ zlen l = Z.of_nat k.
Proof.
  unfold numbers_of. destruct (rng_create example_seed size) as [g| |]; try discriminate. destruct (take uniform n k g) as [[g' l']| |] eqn:E; try discriminate. intro H. injection H as ->.
  apply take_picks in E. exists g, g'. tauto.
Qed.

Example C89_numbers_example : exists g g', Forall (fun x => x < 256)%N example_seed /\ even_buffer 4 /\ rng_create example_seed 4 = Ok g /\
  draws toy_aes g [] g /\ picks (uniform10 toy_aes) 100 g [92; 76; 38; 69; 73] g'.
Proof.
  assert (H : numbers_of (uniform10 toy_aes) 100 4 5 = Some [92; 76; 38; 69; 73]) by (vm_compute; reflexivity).
  apply numbers_of_picks in H. destruct H as (g & g' & H1 & H2 & _). exists g, g'.
  split; [apply Forall_forall; intros x Hx; apply in_map_iff in Hx; destruct Hx as (i & <- & Hi); apply in_seq in Hi; lia|]. split; [split; reflexivity|]. split; [auto|]. split; [constructor|auto].
Qed.
Example C89_numbers_example_11 : numbers_of (uniform11 toy_aes) 100 4 5 = Some [92; 76; 38; 69; 73].
Proof. vm_compute. reflexivity. Qed.

(** Below 3 * 2^62, a quarter of the words is rejected. Of the first nine words, GCC 10
    rejects the first two and the eighth (those that are not below 3 * 2^62), and
    GCC 11 rejects the eighth. *)
Example C89_rejections_example :
  numbers_of (uniform10 toy_aes) (3 * 2^62) 4 6 = Some [7150373537401054646; 12784357440973314267; 13504963242152118834; 12483795975361299513; 8942443831531322526; 6956105509120328475] /\
  numbers_of (uniform11 toy_aes) (3 * 2^62) 4 8 = Some [12797230170397586127; 10651767322905302126; 5362780153050790984; 9588268080729985700; 10128722431614089125; 9362846981520974634;
    6706832873648491894; 5217079131840246356].
Proof. split; vm_compute; reflexivity. Qed.

(** The words are 3 * 2^62 and 5 in turns, or one less than that and 5. With GCC 10,
    3 * 2^62 is the first word that is rejected. *)
Example C89_boundary_example :
  numbers_of (uniform10 (fun _ _ => 2^64 * 5 + 3 * 2^62)%N) (3 * 2^62) 4 3 = Some [5; 5; 5] /\
  numbers_of (uniform10 (fun _ _ => 2^64 * 5 + 3 * 2^62 - 1)%N) (3 * 2^62) 4 3 = Some [3 * 2^62 - 1; 5; 3 * 2^62 - 1].
Proof. split; vm_compute; reflexivity. Qed.

(** Words that are numbers below 3 with GCC 11: 2^64 is 1 modulo 3, and one word
    is rejected. *)
Example C89_independent_example : equally_many 3 (number11 3) /\ permutes (fun x => 0 <= x < 3) (fun x => (x + 1) mod 3) /\
  let word (k : Z) : N := if k =? 0 then (2^63)%N else if k =? 1 then 0%N else if k =? 2 then 5%N else if k =? 3 then 1%N else (2^64 - 1)%N in
  (forall k, (word k < 2^64)%N) /\ reads (number11 3) word 0 [(0, 1); (2, 0); (3, 0); (4, 2)] 5 /\ first_different (number11 3) word 3 [1; 0; 2].
Proof.
  split; [apply equally11; lia|]. split.
  - split; [intros x Hx; apply Z.mod_pos_bound; lia|]. exists (fun x => (x + 2) mod 3). intros x Hx. assert (C : x = 0 \/ x = 1 \/ x = 2) by lia. destruct C as [->|[->| ->]]; cbn; lia.
  - cbv zeta. set (word := fun k : Z => _). split; [intro k; unfold word; destruct (k =? 0); [reflexivity|]; destruct (k =? 1); [reflexivity|]; destruct (k =? 2); [reflexivity|]; destruct (k =? 3); reflexivity|].
    assert (R : reads (number11 3) word 0 [(0, 1); (2, 0); (3, 0); (4, 2)] 5).
    { apply reads_number; [lia|intros; lia|reflexivity|]. apply reads_number; [lia|intros k Hk; assert (k = 1) by lia; subst; reflexivity|reflexivity|].
      apply reads_number; [lia|intros; lia|reflexivity|]. apply reads_number; [lia|intros; lia|reflexivity|]. constructor. }
    split; [exact R|]. eexists _, _. split; [exact R|]. split; [reflexivity|]. split; [reflexivity|]. intros l' x E.
    change (map snd [(0, 1); (2, 0); (3, 0); (4, 2)]) with ([1; 0; 0] ++ [2]) in E. apply app_inj_tail in E. destruct E as [<- <-]. cbn. lia.
Qed.
Example C89_odd_buffer_example : exists g g', rng_create example_seed 3 = Ok g /\ picks (uniform10 toy_aes) 100 g [92; 76; 0] g' /\ Z.odd 3 = true.
Proof.
  assert (H : numbers_of (uniform10 toy_aes) 100 3 3 = Some [92; 76; 0]) by (vm_compute; reflexivity).
  apply numbers_of_picks in H. destruct H as (g & g' & H1 & H2 & _). eauto.
Qed.

(** A session of two parties that use GCC 11's version. *)
Lemma lib_session : exists st0 st l0 l st' u v,
  created F (lib_machine uniform11 0 1) st0 /\
  ran (as_sender F (lib_setting uniform11) (lib_machine uniform11 0 1) (Precompute 5 (Some (toy_scalar 3))) st0) l0 (st, Ok Precomputed) /\
  ran (as_sender F (lib_setting uniform11) (lib_machine uniform11 0 1) (Run 2) st) l (st', Ok (Sender u v)) /\
  Forall (fun x => exists i, (i < Z.to_nat 5000)%nat /\ x = toy_tape 7 i) l /\ zlen u =? 2 = true.
Proof.
  apply (session_two F (lib_setting uniform11) (lib_machine uniform11 0 1) (lib_machine uniform11 1 0) (Z.to_nat 5000) (toy_tape 7) (toy_tape 13)
    (Precompute 5 (Some (toy_scalar 3))) (Run 2) [(false, Precompute 5 (Some (toy_scalar 3))); (false, Run 2)] (fun u _ _ => zlen u =? 2)). vm_compute. reflexivity.
Qed.
Example C89_noise_example : let E := lib_setting uniform11 in let M := lib_machine uniform11 0 1 in
  good_setting F E /\ good_machine F M /\ library_draw uniform11 /\ c_uniform64 M = uniform11 (e_aes E) /\ e_uniform E = uniform11 (e_aes E) /\
  Forall even_buffer (p_num_noise (e_parameters E)) /\ Z.even (p_nonzeros (e_parameters E)) = true /\
  exists st0 e st l st' u v, created F M st0 /\ history F E M st0 ([] ++ [e]) st /\ precomputes true 5 [] e /\
    zlen (sr_u (s_cached (v_s st))) < 2 /\ Forall (fun x => fst x < 2^128)%N l /\ ran (as_sender F E M (Run 2) st) l (st', Ok (Sender u v)).
Proof.
  assert (Hu : library_draw uniform11) by (right; reflexivity).
  split; [now apply lib_good|]. split; [now apply lib_machine_good|]. split; [exact Hu|]. split; [apply lib_uniform64|]. split; [apply lib_uniform|].
  split; [repeat constructor|]. split; [reflexivity|]. destruct lib_session as (st0 & st & l0 & l & st' & u & v & H1 & H2 & H3 & H4 & _).
  set (E := lib_setting uniform11) in *. set (M := lib_machine uniform11 0 1) in *.
  assert (Hh : history F E M st0 ([] ++ [(true, Precompute 5 (Some (toy_scalar 3)), Ok Precomputed)]) st).
  { eapply history_snoc; [constructor|apply ran_possible in H2; exact H2|discriminate]. }
  assert (Hp : precomputes true 5 [] (true, Precompute 5 (Some (toy_scalar 3)), Ok (@Precomputed F))) by (eexists _, _; split; [reflexivity|]; left; eauto).
  exists st0, (true, Precompute 5 (Some (toy_scalar 3)), Ok Precomputed), st, l, st', u, v. split; [auto|]. split; [auto|]. split; [auto|].
  split; [|split; [|auto]].
  - destruct (precomputed_sender F E (lib_good _ _ _ Hu) M (lib_machine_good _ _ _ _ Hu) st0 [] _ 5 st H1 Hh Hp) as (_ & _ & Hz). rewrite (Hz _ _ eq_refl). reflexivity.
  - eapply Forall_impl; [|exact H4]. intros x (i & Hi & ->). unfold toy_tape. cbn [fst]. assert (N.of_nat i < 5000)%N by lia. apply N.lt_trans with (m := (7 * (1000 * 5000 + 17))%N); [lia|reflexivity].
Qed.
