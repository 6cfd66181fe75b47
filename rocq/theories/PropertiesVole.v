(** Final theorems about the Vector-OLE generator (C42-C45, C47-C50).

    [E]: the setting both parties share (parameters, AES, the floating-point
    results, the standard library's distribution, the evaluation order); [M],
    [MA], [MB]: the machine of a party (division of loops among threads, iteration
    order of hash sets, uninitialised memory, ...); [ta]/[tb]: the random tapes.
    [good_setting] and [good_machine] are in VoleSpec.v; [library_good] below
    shows that the library's own parameters meet the former. *)
From Verif Require Import Base BaseFacts ScalarModel ScalarSpec ScalarProofs ProcModel ProcSpec RotModel RotSpec SpfssModel
  GilboaModel GilboaSpec RngModel CuckooModel CuckooSpec MpfssModel MpfssSpec VoleModel VoleSpec VoleFinal VoleHistory VoleCode VoleToy.
From Coq Require Import QArith Permutation.
Local Open Scope Z_scope.

(** The library's parameters meet the conditions on settings. *)
Theorem library_parameters_are_good : forall t E, stype_ok t -> s_size (scalar_of t) <= 16 ->
  library_setting E -> good_setting (scalar_of t) E.
Proof. exact library_good. Qed.
Print Assumptions library_parameters_are_good.

(** C42: sessions of any calls in any roles, where the parties make the same calls
    in the opposite roles and stop after an error that only one of them has. When
    both have finished, every pair of answers agrees: in particular w = u delta +
    v with the requested length for every pair of Run calls ([agree_on]). A pair
    of Run calls after which something fails is covered by taking the calls up
    to that pair for [l]. *)
Theorem C42_correlation : forall t, stype_ok t -> let S := scalar_of t in
  forall E, good_setting S E ->
  forall MA MB : machine S, good_machine S MA -> good_machine S MB -> connected MA MB ->
  forall go_on, (forall e, In e one_sided -> go_on e = false) ->
  forall l ta tb m d ra rb,
  steps m (start (party S E MA go_on l) ta (party S E MB go_on (opposite S l)) tb) d ->
  c_a d = Ret ra -> c_b d = Ret rb ->
  c_ab d = [] /\ c_ba d = [] /\ exists la lb, ra = Ok la /\ rb = Ok lb /\ agree S go_on l la lb.
Proof. exact session_agree. Qed.
Print Assumptions C42_correlation.

(** C45: every schedule is finite, and it can only end with all messages read
    and both parties finished and in agreement, or with one party that failed
    alone. *)
Theorem C45_lock_step : forall t, stype_ok t -> let S := scalar_of t in
  forall E, good_setting S E ->
  forall MA MB : machine S, good_machine S MA -> good_machine S MB -> connected MA MB ->
  forall go_on, (forall e, In e one_sided -> go_on e = false) ->
  forall l ta tb,
  exists n, forall m d, steps m (start (party S E MA go_on l) ta (party S E MB go_on (opposite S l)) tb) d ->
    (m <= n)%nat /\ (stuck d -> session_end S go_on l d).
Proof. exact session_stuck. Qed.
Print Assumptions C45_lock_step.

(** A session of a precomputation with batches of 5 (two levels) and of two pairs
    of Run calls, the second with two expansions: 797 * 3 + 792 = 156 modulo
    1009, and so on. *)
Example C42_C45_example :
  good_setting F (toy_setting toy_K) /\ good_machine F (toy_machine 0 1) /\ good_machine F (toy_machine 1 0) /\
  connected (toy_machine 0 1) (toy_machine 1 0) /\
  exists n d la lb,
    steps n (start (party F (toy_setting toy_K) (toy_machine 0 1) (fun _ => false) toy_calls) (toy_tape 7)
                   (party F (toy_setting toy_K) (toy_machine 1 0) (fun _ => false) (opposite F toy_calls)) (toy_tape 13)) d /\
    c_a d = Ret (Ok la) /\ c_b d = Ret (Ok lb) /\
    map (rmap show_answer) la =
      [Ok ShowPrecomputed; Ok (ShowSender [321; 81] [518; 486]);
       Ok (ShowSender [719; 264; 347; 883; 649; 498; 405; 848; 795] [937; 157; 177; 717; 560; 3; 552; 876; 767])]%N /\
    map (rmap show_answer) lb =
      [Ok ShowPrecomputed; Ok (ShowReceiver [472; 729] 3);
       Ok (ShowReceiver [67; 949; 209; 339; 489; 488; 758; 393; 125] 3)]%N.
Proof.
  split; [apply toy_good|]. split; [apply toy_machine_good|]. split; [apply toy_machine_good|]. split; [apply toy_connected|].
  apply (exec_shown (Z.to_nat 5000)). vm_compute. reflexivity.
Qed.

(** C43: the delta of the latest PrecomputeReceiver, whatever the other party
    sends and whatever was called in between, apart from further calls of
    PrecomputeReceiver (unless these reject their batch size). *)
Theorem C43_delta_of_latest_precomputation : forall S E, good_setting S E -> forall M : machine S, good_machine S M ->
  forall st0 l1 b d l2 n w delta st, created S M st0 ->
  history S E M st0 (l1 ++ (false, Precompute b (Some d), Ok Precomputed) :: l2 ++ [(false, Run n, Ok (Receiver w delta))]) st ->
  Forall keeps_delta l2 -> delta = d.
Proof. exact latest_delta. Qed.
Print Assumptions C43_delta_of_latest_precomputation.

(** The delta that was drawn implicitly stays, too. *)
Theorem C43_delta_stays : forall S E, good_setting S E -> forall M : machine S, good_machine S M ->
  forall st0 l1 n w d l2 n' w' d' st, created S M st0 ->
  history S E M st0 (l1 ++ (false, Run n, Ok (Receiver w d)) :: l2 ++ [(false, Run n', Ok (Receiver w' d'))]) st ->
  Forall keeps_delta l2 -> d' = d.
Proof. exact same_delta. Qed.
Print Assumptions C43_delta_stays.

(** C44. [s_made] logs every pair (u, v) that was drawn or produced by an
    expansion, [s_used] those an expansion consumed as seeds. For every test [p]
    (for example equality with a given pair): the pairs that passed it and were
    returned, used as seeds, cached, or kept as seeds are together no more than
    those produced. *)
Theorem C44_sender_elements_used_once : forall S E, good_setting S E -> forall M : machine S, good_machine S M ->
  forall st0 l st p, created S M st0 -> history S E M st0 l st ->
  count p (sender_outputs l) + count p (s_used (v_s st)) + count p (pairs (s_cached (v_s st))) +
  count p (pairs (s_vole_seed (v_s st))) + count p (pairs (s_mpfss_seed (v_s st))) <= count p (s_made (v_s st)).
Proof. exact sender_once. Qed.
Print Assumptions C44_sender_elements_used_once.

(** The same for the receiver if its calls succeeded. (A failed expansion leaves
    uninitialised elements in its cache, see C60.) *)
Theorem C44_receiver_elements_used_once : forall S E, good_setting S E -> forall M : machine S, good_machine S M ->
  forall st0 l st p, created S M st0 -> history S E M st0 l st -> Forall (fun e => fst (fst e) = true \/ succeeded e) l ->
  count p (receiver_outputs l) + count p (r_used (v_r st)) + count p (rr_w (r_cached (v_r st))) +
  count p (rr_w (r_vole_seed (v_r st))) + count p (rr_w (r_mpfss_seed (v_r st))) <= count p (r_made (v_r st)).
Proof. exact receiver_once. Qed.
Print Assumptions C44_receiver_elements_used_once.

(** C47: what a successful Run does after a successful precomputation (explicit,
    or implicit in a first Run) and any number of Run calls: the precomputation
    chose a batch size of at least 1; every expansion produces a batch and the
    next seeds; their number is [expansions], the missing elements divided by the
    batch size, rounded up. *)
Theorem C47_sender_expansions : forall S E, good_setting S E -> forall M : machine S, good_machine S M ->
  forall st0 l1 e b l2 st n u v st', created S M st0 -> history S E M st0 (l1 ++ e :: l2) st ->
  precomputes true b l1 e -> Forall sender_run l2 ->
  possible (as_sender S E M (Run n) st) (st', Ok (Sender u v)) ->
  let k := expansions n (zlen (sr_u (s_cached (v_s st)))) (v_batch_size st) in
  1 <= v_batch_size st <= b /\ v_batch_size st' = v_batch_size st /\ zlen u = n /\ zlen v = n /\
  zlen (s_made (v_s st')) = zlen (s_made (v_s st)) + k * (v_batch_size st + v_vole_seed_size st + v_mpfss_seed_size st) /\
  zlen (sr_u (s_cached (v_s st'))) = zlen (sr_u (s_cached (v_s st))) + k * v_batch_size st - n.
Proof. exact sender_expansions. Qed.
Print Assumptions C47_sender_expansions.

Theorem C47_receiver_expansions : forall S E, good_setting S E -> forall M : machine S, good_machine S M ->
  forall st0 l1 e b l2 st n w d st', created S M st0 -> history S E M st0 (l1 ++ e :: l2) st ->
  precomputes false b l1 e -> Forall receiver_run l2 ->
  possible (as_receiver S E M (Run n) st) (st', Ok (Receiver w d)) ->
  let k := expansions n (zlen (rr_w (r_cached (v_r st)))) (v_batch_size st) in
  1 <= v_batch_size st <= b /\ v_batch_size st' = v_batch_size st /\ zlen w = n /\
  zlen (r_made (v_r st')) = zlen (r_made (v_r st)) + k * (v_batch_size st + v_vole_seed_size st + v_mpfss_seed_size st) /\
  zlen (rr_w (r_cached (v_r st'))) = zlen (rr_w (r_cached (v_r st))) + k * v_batch_size st - n.
Proof. exact receiver_expansions. Qed.
Print Assumptions C47_receiver_expansions.

(** Histories of two objects that meet the hypotheses of C43, C44 and C47: 5
    elements for the first Gilboa product, an expansion to 6 seeds, then batches
    of 5 with 6 seeds: after Run(2) and Run(9), 5 + 6 + 3 * 11 elements have been
    produced, 5 + 6 + 6 + 6 were used as seeds, and 3 * 5 - 2 - 9 are cached. *)
Example C43_C44_C47_example : exists sa ha a sb hb b,
  created F (toy_machine 0 1) sa /\ history F (toy_setting toy_K) (toy_machine 0 1) sa ha a /\
  created F (toy_machine 1 0) sb /\ history F (toy_setting toy_K) (toy_machine 1 0) sb hb b /\
  (map fst (show ha), show hb, sizes a) =
  ([(true, ShowPrecompute 5 (Some 3%N)); (true, ShowRun 2); (true, ShowRun 9)],
   [(false, ShowPrecompute 5 (Some 3%N), Ok ShowPrecomputed);
    (false, ShowRun 2, Ok (ShowReceiver [472; 729]%N 3));
    (false, ShowRun 9, Ok (ShowReceiver [67; 949; 209; 339; 489; 488; 758; 393; 125]%N 3))],
   (5, 4, 44, 23)).
Proof. apply (toy_view_history (fun ha a hb b => (map fst ha, hb, sizes a)) toy_K toy_calls). vm_compute. reflexivity. Qed.

(** C48: after the same calls in opposite roles, all successful, the parties have
    the same code generator. *)
Theorem C48_same_generator : forall t, stype_ok t -> let S := scalar_of t in
  forall E, good_setting S E ->
  forall MA MB : machine S, good_machine S MA -> good_machine S MB -> connected MA MB ->
  forall l ta tb m d a b, steps m (start (life S E MA l) ta (life S E MB (opposite S l)) tb) d ->
  c_a d = Ret (Ok a) -> c_b d = Ret (Ok b) ->
  v_rows a = v_rows b /\ v_columns a = v_columns b /\ v_batch_size a = v_batch_size b /\ v_num_noise a = v_num_noise b /\
  v_vole_seed_size a = v_vole_seed_size b /\ v_mpfss_seed_size a = v_mpfss_seed_size b.
Proof. exact same_code. Qed.
Print Assumptions C48_same_generator.

Example C48_example : exists m d a b,
  steps m (start (life F (toy_setting toy_K) (toy_machine 0 1) toy_calls) (toy_tape 7) (life F (toy_setting toy_K) (toy_machine 1 0) (opposite F toy_calls)) (toy_tape 13)) d /\
  c_a d = Ret (Ok a) /\ c_b d = Ret (Ok b) /\ (zlen (v_columns a), zlen (v_columns b), v_rows a) = (11, 11, 3).
Proof. apply (exec_lives (Z.to_nat 5000) _ _ _ _ (fun a b => (zlen (v_columns a), zlen (v_columns b), v_rows a))). vm_compute. reflexivity. Qed.

(** Whatever the other party sends: after a successful precomputation and any Run
    calls, the generator fits the sizes, and every column has between 1 and
    [p_nonzeros] entries in different rows that exist. *)
Theorem C48_generator_shape : forall S E, good_setting S E -> forall M : machine S, good_machine S M ->
  forall sends st0 l1 e b l2 st, 1 <= p_nonzeros (e_parameters E) ->
  created S M st0 -> history S E M st0 (l1 ++ e :: l2) st -> precomputes sends b l1 e -> Forall (if sends : bool then sender_run else receiver_run) l2 ->
  Forall (good_column (v_rows st) (p_nonzeros (e_parameters E))) (v_columns st) /\
  zlen (v_columns st) = v_batch_size st + v_vole_seed_size st + v_mpfss_seed_size st /\ v_rows st = v_vole_seed_size st.
Proof. exact generator_shape. Qed.
Print Assumptions C48_generator_shape.

(** In the same situation: the generator is made from the numbers [xs] that the
    generator of random numbers returns first, and the rows [rs] drawn after them.
    Element number [k] of the code comes from numbers 2k and 2k+1, and column [col]
    has the elements [col * p_nonzeros], [col * p_nonzeros + 1], ... in the rows of
    the same numbers, later ones replacing earlier ones in the same row. *)
Theorem C48_generator_elements : forall S E, forall M : machine S, forall sends st0 l1 e b l2 st,
  let nonzeros := p_nonzeros (e_parameters E) in
  good_setting S E -> good_machine S M -> 1 <= nonzeros ->
  created S M st0 -> history S E M st0 (l1 ++ e :: l2) st -> precomputes sends b l1 e -> Forall (if sends : bool then sender_run else receiver_run) l2 ->
  exists seed g xs g' rs g'', rng_create seed (nonzeros * zlen (v_columns st)) = Ok g /\
  draws (e_aes E) g xs g' /\ picks (e_uniform E) (v_rows st) g' rs g'' /\
  zlen xs = 2 * (nonzeros * zlen (v_columns st)) /\ zlen rs = nonzeros * zlen (v_columns st) /\
  let element k : S :=
    let first := znth 0%N xs (2 * k) in let second := znth 0%N xs (2 * k + 1) in
    s_of128 S (if e_high_first E then 2^64 * first + second else 2^64 * second + first)%N in
  forall col row, 0 <= col < zlen (v_columns st) -> entry_at (znth [] (v_columns st) col) row =
    fold_left (fun entry i => let k := col * nonzeros + i in if znth 0 rs k =? row then Some (element k) else entry) (zrange 0 nonzeros) None.
Proof. exact generator_elements. Qed.
Print Assumptions C48_generator_elements.

(** With the other evaluation order of MakeUint128(rng(), rng()) the same seed
    gives a generator with the same positions, in which the halves of the random
    integers are swapped. *)
Theorem C48_other_order : forall S E rows cols g columns, sample_generator S E rows cols g = Ok columns ->
  exists positions : list (list (Z * (N * N))),
    let value (high_first : bool) (d : N * N) : S :=
      s_of128 S (if high_first then 2^64 * fst d + snd d else 2^64 * snd d + fst d)%N in
    columns = map (map (fun '(row, d) => (row, value (e_high_first E) d))) positions /\
    sample_generator S (other_order E) rows cols g = Ok (map (map (fun '(row, d) => (row, value (negb (e_high_first E)) d))) positions).
Proof. exact other_order_swaps. Qed.
Print Assumptions C48_other_order.

(** If the compilers of the parties evaluate in different orders, everything
    succeeds, but the result is wrong: here (the residues are modulo 1009) the
    receiver's first element is not u delta + v. *)
Theorem C48_different_orders_refuted : exists n d u v w,
  steps n (start (party F (toy_setting toy_K) (toy_machine 0 1) (fun _ => false) [(true, Precompute 2 (Some (toy_scalar 3))); (true, Run 2)]) (toy_tape 7)
                 (party F (other_order (toy_setting toy_K)) (toy_machine 1 0) (fun _ => false) [(false, Precompute 2 (Some (toy_scalar 3))); (false, Run 2)]) (toy_tape 13)) d /\
  c_a d = Ret (Ok [Ok Precomputed; Ok (Sender u v)]) /\
  c_b d = Ret (Ok [Ok Precomputed; Ok (Receiver w (toy_scalar 3))]) /\
  zlen u = 2 /\ zlen v = 2 /\ zlen w = 2 /\ ~ vole_correlation F (toy_scalar 3) u v w.
Proof. exact different_orders. Qed.
Print Assumptions C48_different_orders_refuted.

(** C49 *)
Theorem C49_batch_size_not_positive : forall S E (M : machine S) b st, b < 1 ->
  let refused := Ret (st, Err (invalid_argument "`batch_size` must be positive")) in
  (forall d, as_sender S E M (Precompute b d) st = refused) /\
  (forall d, as_receiver S E M (Precompute b (Some d)) st = refused) /\
  as_receiver S E M (Precompute b None) st = Rand (fun _ _ => refused).
Proof. exact refused_batch. Qed.
Print Assumptions C49_batch_size_not_positive.

Theorem C49_size_not_positive_first : forall S E (M : machine S) n st, n < 1 ->
  let refused := Ret (st, Err (invalid_argument "`batch_size` must be positive")) in
  (s_done (v_s st) = false -> as_sender S E M (Run n) st = refused) /\
  (r_done (v_r st) = false -> as_receiver S E M (Run n) st = Rand (fun _ _ => refused)).
Proof. exact refused_size. Qed.
Print Assumptions C49_size_not_positive_first.

Theorem C49_size_zero : forall S E (M : machine S) st,
  (s_done (v_s st) = true -> as_sender S E M (Run 0) st = Ret (st, Ok (Sender [] []))) /\
  (r_done (v_r st) = true -> as_receiver S E M (Run 0) st = Ret (st, Ok (Receiver [] (rr_delta (r_cached (v_r st)))))).
Proof. exact size_zero. Qed.
Print Assumptions C49_size_zero.

Theorem C49_negative_size_refuted : forall S E (M : machine S) n st, n < 0 ->
  (s_done (v_s st) = true -> as_sender S E M (Run n) st = Ret (st, UB "Eigen: negative size")) /\
  (r_done (v_r st) = true -> as_receiver S E M (Run n) st = Ret (st, UB "Eigen: negative size")).
Proof. exact size_negative. Qed.
Print Assumptions C49_negative_size_refuted.

(** New objects have not precomputed, and the objects of the history above have. *)
Example C49_example :
  (exists st0, created F (toy_machine 0 1) st0 /\ s_done (v_s st0) = false /\ r_done (v_r st0) = false) /\
  (exists st0 l st, created F (toy_machine 0 1) st0 /\ history F (toy_setting toy_K) (toy_machine 0 1) st0 l st /\ s_done (v_s st) = true) /\
  (exists st0 l st, created F (toy_machine 1 0) st0 /\ history F (toy_setting toy_K) (toy_machine 1 0) st0 l st /\ r_done (v_r st) = true).
Proof. exact done_example. Qed.

(** C50: PrecomputeSender succeeded, and a later PrecomputeSender with a valid
    batch size failed. If a Run call directly afterwards succeeds nevertheless,
    for n > 0, then it used a code generator without any entry: for every test
    that zero does not pass (such as being different from zero), at most as many
    elements of u pass it as there are noise positions. *)
Theorem C50_zero_generator_after_failure : forall S E, good_setting S E -> forall M : machine S, good_machine S M ->
  forall st0 l1 b0 d0 l2 b d e st n u v st', scalar_laws S -> created S M st0 ->
  history S E M st0 (l1 ++ (true, Precompute b0 d0, Ok Precomputed) :: l2 ++ [(true, Precompute b d, Err e)]) st -> 1 <= b ->
  possible (as_sender S E M (Run n) st) (st', Ok (Sender u v)) ->
  n = 0 \/ (1 <= v_batch_size st /\ Forall (fun column => column = []) (v_columns st) /\
    forall nonzero, nonzero (s_zero S) = false -> count nonzero u <= expansions n 0 (v_batch_size st) * Z.max 0 (v_num_noise st)).
Proof. exact zero_generator. Qed.
Print Assumptions C50_zero_generator_after_failure.

(** This does happen: after a failed second precomputation, 7 elements of u are
    returned, all of them zero, and v is known to both parties. *)
Theorem C50_insecure_output_refuted : exists sa ha a sb hb b,
  created F (toy_machine 0 1) sa /\ history F (toy_setting low_K) (toy_machine 0 1) sa ha a /\
  created F (toy_machine 1 0) sb /\ history F (toy_setting low_K) (toy_machine 1 0) sb hb b /\
  let failed := Err (invalid_argument "Cannot sample enough random elements for the code generator with the given statistical security") in
  show ha =
  [(true, ShowPrecompute 2 (Some 3%N), Ok ShowPrecomputed);
   (true, ShowPrecompute 5 (Some 4%N), failed);
   (true, ShowRun 7, Ok (ShowSender [0; 0; 0; 0; 0; 0; 0] [883; 843; 14; 291; 248; 342; 545])%N)] /\
  show hb =
  [(false, ShowPrecompute 2 (Some 3%N), Ok ShowPrecomputed);
   (false, ShowPrecompute 5 (Some 4%N), failed);
   (false, ShowRun 7, Ok (ShowReceiver [883; 843; 14; 291; 248; 342; 545] 4)%N)].
Proof. exact insecure_output. Qed.
Print Assumptions C50_insecure_output_refuted.

Example C50_example : good_setting F (toy_setting low_K) /\ good_machine F (toy_machine 0 1) /\ scalar_laws F.
Proof. split; [apply toy_good|]. split; [apply toy_machine_good|]. apply scalar_of_laws. cbn. lia. Qed.
