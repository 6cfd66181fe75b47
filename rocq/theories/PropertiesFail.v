(** Final theorems about failed calls of the Vector-OLE generator, and about calls
    served from its cache (C60-C63). [E], [M]: as in PropertiesVole.v. *)
From Verif Require Import Base BaseFacts ScalarModel ScalarSpec ScalarProofs ProcModel ProcSpec RotModel RotSpec SpfssModel
  GilboaModel GilboaSpec RngModel CuckooModel CuckooSpec MpfssModel MpfssSpec VoleModel VoleSpec VoleFinal VoleHistory VoleCode VoleToy VoleFail VoleWitness CostSpec RolesProofs.
From Coq Require Import QArith Permutation.
Local Open Scope Z_scope.

(** C60: a RunReceiver fails after a successful PrecomputeReceiver (and any other
    calls, whatever the other party sends). Unless the code generator did not
    fit, the cache now holds [k] uninitialised elements, and the next
    RunReceiver(n'), for n' <= k, returns n' of them with OK, without asking the
    other party. *)
Theorem C60_cache_after_failure : forall S E, good_setting S E -> forall M : machine S, good_machine S M ->
  forall st0 l1 b d l2 n e st, created S M st0 ->
  history S E M st0 (l1 ++ (false, Precompute b d, Ok Precomputed) :: l2 ++ [(false, Run n, Err e)]) st ->
  e = internal_error "Code generator has the wrong dimensions" /\ rr_w (r_cached (v_r st)) = [] \/
  let k := v_batch_size st + v_vole_seed_size st + v_mpfss_seed_size st in
  rr_w (r_cached (v_r st)) = map (c_junk M) (zrange 0 k) /\
  forall n', 0 <= n' <= k -> exists st',
    as_receiver S E M (Run n') st = Ret (st', Ok (Receiver (map (c_junk M) (zrange (k - n') k)) (rr_delta (r_cached (v_r st))))).
Proof. exact failed_receiver. Qed.
Print Assumptions C60_cache_after_failure.

(** This does happen between two honest parties: the second Precompute fails on
    both sides, RunReceiver(7) fails, and RunReceiver(7) again returns 7 elements
    that nobody has written, whatever they are. *)
Theorem C60_uninitialised_output_refuted : forall junk : Z -> F, exists n d,
  steps n (start (party F (toy_setting mid_K) (toy_machine 0 1) (fun _ => true) junk_calls) (toy_tape 7)
                 (party F (toy_setting mid_K) (junk_machine junk) (fun _ => true) (opposite F (junk_calls ++ [(true, Run 7)]))) (toy_tape 13)) d /\
  c_b d = Ret (Ok [Ok Precomputed;
                   Err (invalid_argument "Cannot sample enough random elements for the code generator with the given statistical security");
                   Err (invalid_argument "Cannot ensure statistical security with the given modulus");
                   Ok (Receiver (map junk [7; 8; 9; 10; 11; 12; 13]) (toy_scalar 4))]).
Proof. exact junk_output. Qed.
Print Assumptions C60_uninitialised_output_refuted.

Example C60_example : good_setting F (toy_setting mid_K) /\ (forall junk, good_machine F (junk_machine junk)) /\
  junk_calls = [(true, Precompute 2 (Some (toy_scalar 3))); (true, Precompute 8 (Some (toy_scalar 4))); (true, Run 7)].
Proof. split; [apply toy_good|]. split; [apply junk_machine_good|reflexivity]. Qed.

(** C61: when an object has precomputed in both roles, there is only one code
    generator. If it does not have as many rows as the role has seeds, every Run
    that needs an expansion fails, without asking the other party. *)
Theorem C61_generator_of_other_role : forall S E (M : machine S) n st,
  let size := v_batch_size st + v_vole_seed_size st + v_mpfss_seed_size st in
  - 2^63 <= size < 2^63 ->
  let failed := Err (internal_error "Code generator has the wrong dimensions") in
  (s_done (v_s st) = true -> zlen (sr_u (s_cached (v_s st))) < n ->
   zlen (sr_u (s_vole_seed (v_s st))) = zlen (sr_v (s_vole_seed (v_s st))) ->
   v_rows st <> zlen (sr_u (s_vole_seed (v_s st))) ->
   exists st', as_sender S E M (Run n) st = Ret (st', failed)) /\
  (r_done (v_r st) = true -> zlen (rr_w (r_cached (v_r st))) < n ->
   v_rows st <> zlen (rr_w (r_vole_seed (v_r st))) ->
   exists st', as_receiver S E M (Run n) st = Ret (st', failed)).
Proof. exact misfit. Qed.
Print Assumptions C61_generator_of_other_role.

(** So an object that precomputes successfully in one role for batches of [b1]
    and then, after any calls in the other role, in that role for batches of [b2]
    cannot run in the first role any more, if the two need seeds of different sizes
    ([final_level], [level_seed]: CostSpec.v). *)
Theorem C61_other_precomputation_refuted : forall S E, good_setting S E -> forall M : machine S, good_machine S M -> 1 <= s_size S ->
  forall (sends : bool) st0 l1 b1 d1 x1 l2 b2 d2 x2 st n, created S M st0 ->
  history S E M st0 (l1 ++ (sends, Precompute b1 d1, Ok x1) :: l2 ++ [(negb sends, Precompute b2 d2, Ok x2)]) st ->
  Forall (fun e => fst (fst e) = negb sends) l2 ->
  (forall i j, final_level E b1 i -> final_level E b2 j -> level_seed E i <> level_seed E j) -> 1 <= n ->
  exists st', (if sends then as_sender S E M (Run n) st else as_receiver S E M (Run n) st) =
    Ret (st', Err (internal_error "Code generator has the wrong dimensions")).
Proof. exact both_roles_fail. Qed.
Print Assumptions C61_other_precomputation_refuted.

(** This does happen: after two successful precomputations in opposite roles, the
    first pair of Run calls fails on both sides. *)
Theorem C61_both_roles_refuted : exists sa ha a sb hb b,
  created F (toy_machine 0 1) sa /\ history F (toy_setting toy_K) (toy_machine 0 1) sa ha a /\
  created F (toy_machine 1 0) sb /\ history F (toy_setting toy_K) (toy_machine 1 0) sb hb b /\
  let failed := Err (internal_error "Code generator has the wrong dimensions") in
  show ha =
  [(true, ShowPrecompute 2 (Some 3%N), Ok ShowPrecomputed);
   (false, ShowPrecompute 5 (Some 4%N), Ok ShowPrecomputed);
   (true, ShowRun 2, failed)] /\
  show hb =
  [(false, ShowPrecompute 2 (Some 3%N), Ok ShowPrecomputed);
   (true, ShowPrecompute 5 (Some 4%N), Ok ShowPrecomputed);
   (false, ShowRun 2, failed)].
Proof. exact both_roles. Qed.
Print Assumptions C61_both_roles_refuted.

(** The session of C61_both_roles_refuted, before the last call. *)
Example C61_example : let E := toy_setting toy_K in let M := toy_machine 0 1 in
  good_setting F E /\ good_machine F M /\ s_size F = 2 /\
  (forall i j, final_level E 2 i -> final_level E 5 j -> level_seed E i <> level_seed E j) /\
  exists st0 h st, created F M st0 /\ history F E M st0 h st /\
    show h = [(true, ShowPrecompute 2 (Some 3%N), Ok ShowPrecomputed); (false, ShowPrecompute 5 (Some 4%N), Ok ShowPrecomputed)].
Proof.
  split; [apply toy_good|]. split; [apply toy_machine_good|]. split; [reflexivity|]. split.
  - intros i j (Hi & Hi1 & _) (Hj & _ & Hj2). change (level_count (toy_setting toy_K)) with 2 in *.
    assert (i = 0) as -> by (destruct (Z.eq_dec i 0) as [|Hn]; [assumption|]; specialize (Hi1 0 ltac:(lia)); vm_compute in Hi1; discriminate Hi1).
    assert (j = 1) as -> by (destruct (Z.eq_dec j 0) as [->|Hn]; [|lia]; destruct Hj2 as [Hj2|Hj2]; [lia|]; vm_compute in Hj2; now destruct Hj2).
    vm_compute. discriminate.
  - destruct both_roles as (sa & ha & a & _ & _ & _ & H1 & H2 & _ & _ & H3 & _). exists sa.
    destruct ha as [|e1 [|e2 [|e3 [|e4 l]]]]; try discriminate H3.
    change [e1; e2; e3] with ([e1; e2] ++ [e3]) in H2. apply VoleHistory.history_app in H2. destruct H2 as (st & H2 & _).
    exists [e1; e2], st. split; [exact H1|]. split; [exact H2|]. cbn [show map] in *. injection H3 as H3 H4 _. cbn. congruence.
Qed.

(** C62: a RunSender that fails after a successful PrecomputeSender discards all
    cached elements. *)
Theorem C62_failed_sender_discards : forall S E, good_setting S E -> forall M : machine S, good_machine S M ->
  forall st0 l1 b d l2 n e st, created S M st0 ->
  history S E M st0 (l1 ++ (true, Precompute b d, Ok Precomputed) :: l2 ++ [(true, Run n, Err e)]) st ->
  sr_u (s_cached (v_s st)) = [] /\ sr_v (s_cached (v_s st)) = [].
Proof. exact failed_sender. Qed.
Print Assumptions C62_failed_sender_discards.

(** The other party does not notice. If the sender just calls RunSender again
    (here after cuckoo hashing failed), everything succeeds, but the result is
    wrong: the first element of w is not u delta + v. *)
Theorem C62_retry_refuted : exists n d u1 v1 w1 d1 u v w,
  steps n (start (party F tight_setting (toy_machine 0 1) (fun _ => true)
                   [(true, Precompute 5 (Some (toy_scalar 3))); (true, Run 2); (true, Run 5); (true, Run 5)]) (toy_tape 32)
                 (party F tight_setting (toy_machine 1 0) (fun _ => true)
                   [(false, Precompute 5 (Some (toy_scalar 3))); (false, Run 2); (false, Run 5)]) (toy_tape 13)) d /\
  c_a d = Ret (Ok [Ok Precomputed; Ok (Sender u1 v1); Err insertion_failed; Ok (Sender u v)]) /\
  c_b d = Ret (Ok [Ok Precomputed; Ok (Receiver w1 d1); Ok (Receiver w (toy_scalar 3))]) /\
  zlen u = 5 /\ zlen v = 5 /\ zlen w = 5 /\ ~ vole_correlation F (toy_scalar 3) u v w.
Proof. exact retry. Qed.
Print Assumptions C62_retry_refuted.

Example C62_example : good_setting F tight_setting /\ good_machine F (toy_machine 0 1) /\ good_machine F (toy_machine 1 0) /\
  connected (toy_machine 0 1) (toy_machine 1 0).
Proof. split; [apply tight_good|]. split; [apply toy_machine_good|]. split; [apply toy_machine_good|apply toy_connected]. Qed.

(** C63: a request that the cache covers is served without any message or
    randomness, and cannot fail: the last n cached elements are returned and
    removed. Nothing else changes. *)
Theorem C63_served_from_cache : forall S E (M : machine S) n st,
  (forall u v, s_cached (v_s st) = SenderResult u v -> s_done (v_s st) = true -> 0 <= n <= zlen u -> zlen u = zlen v ->
   exists u' v' u'' v'' st', u = u' ++ u'' /\ v = v' ++ v'' /\ zlen u'' = n /\ zlen v'' = n /\
     as_sender S E M (Run n) st = Ret (st', Ok (Sender u'' v'')) /\
     st' = set_s S (set_s_cached S (SenderResult u' v') (v_s st)) st) /\
  (forall w d, r_cached (v_r st) = ReceiverResult w d -> r_done (v_r st) = true -> 0 <= n <= zlen w ->
   exists w' w'' st', w = w' ++ w'' /\ zlen w'' = n /\
     as_receiver S E M (Run n) st = Ret (st', Ok (Receiver w'' d)) /\
     st' = set_r S (set_r_cached S (ReceiverResult w' d) (v_r st)) st).
Proof. exact from_cache. Qed.
Print Assumptions C63_served_from_cache.

(** The objects of C43_C44_C47_example have 4 cached elements in the end. *)
Example C63_example : exists sa ha a sb hb b,
  created F (toy_machine 0 1) sa /\ history F (toy_setting toy_K) (toy_machine 0 1) sa ha a /\
  created F (toy_machine 1 0) sb /\ history F (toy_setting toy_K) (toy_machine 1 0) sb hb b /\
  (s_done (v_s a), zlen (sr_u (s_cached (v_s a))), zlen (sr_v (s_cached (v_s a))), r_done (v_r b), zlen (rr_w (r_cached (v_r b)))) = (true, 4, 4, true, 4).
Proof.
  apply (toy_view_history (fun _ a _ b => (s_done (v_s a), zlen (sr_u (s_cached (v_s a))), zlen (sr_v (s_cached (v_s a))), r_done (v_r b), zlen (rr_w (r_cached (v_r b))))) toy_K toy_calls).
  vm_compute. reflexivity.
Qed.
