(** Final theorems about what a Vector-OLE object makes of its randomness, and
    about implicit precomputation (C64-C68). [E], [M]: as in PropertiesVole.v. *)
From Verif Require Import Base BaseFacts ScalarModel ScalarSpec ScalarProofs ProcModel ProcSpec RotModel RotSpec SpfssModel
  GilboaModel GilboaSpec RngModel CuckooModel CuckooSpec MpfssModel MpfssSpec VoleModel VoleSpec VoleFinal VoleHistory VoleCode VoleToy UseSpec VoleUse RetryProofs.
From Coq Require Import QArith Qabs Permutation.
Local Open Scope Z_scope.

(** C64: after a successful precomputation (and Run calls), every element of the
    code generator has at most the distance 1 / (3 n 2^s) from uniform, where n is
    the number of elements and 2^s is [e_K], so that all of them together stay
    below a third of 2^-s. *)
Theorem C64_generator_close_to_uniform : forall t E (M : machine (scalar_of t)) sends st0 l1 e b l2 st (B : scalar_of t -> bool), stype_ok t ->
  good_setting (scalar_of t) E -> good_machine (scalar_of t) M -> 1 <= p_nonzeros (e_parameters E) -> (0 < e_K E)%Q ->
  created (scalar_of t) M st0 -> history (scalar_of t) E M st0 (l1 ++ e :: l2) st -> precomputes sends b l1 e ->
  Forall (if sends : bool then sender_run else receiver_run) l2 ->
  (Qabs (hash_prob t 128 B - uniform_prob t B) < 1 / (inject_Z (p_nonzeros (e_parameters E) * zlen (v_columns st)) * (e_K E * 3)))%Q.
Proof. exact generator_uniform. Qed.
Print Assumptions C64_generator_close_to_uniform.

(** C65: without a delta, PrecomputeReceiver draws a random scalar first and then
    does what it does with this scalar as its argument. *)
Theorem C65_random_delta : forall S E (M : machine S) b st,
  as_receiver S E M (Precompute b None) st = Rand (fun _ delta => as_receiver S E M (Precompute b (Some delta)) st).
Proof. exact random_delta. Qed.
Print Assumptions C65_random_delta.

(** C66: a Run without precomputation behaves like a precomputation with this
    size as batch size, followed by the same Run if it succeeds. *)
Theorem C66_implicit_sender : forall S E (M : machine S) n st d, s_done (v_s st) = false ->
  alike (as_sender S E M (Run n) st)
    (pbind (as_sender S E M (Precompute n d) st) (fun '(st, r) =>
       match r with Ok _ => as_sender S E M (Run n) st | Err e => Ret (st, Err e) | UB w => Ret (st, UB w) end)).
Proof. exact implicit_sender. Qed.
Print Assumptions C66_implicit_sender.

Theorem C66_implicit_receiver : forall S E (M : machine S) n st, r_done (v_r st) = false ->
  alike (as_receiver S E M (Run n) st)
    (pbind (as_receiver S E M (Precompute n None) st) (fun '(st, r) =>
       match r with Ok _ => as_receiver S E M (Run n) st | Err e => Ret (st, Err e) | UB w => Ret (st, UB w) end)).
Proof. exact implicit_receiver. Qed.
Print Assumptions C66_implicit_receiver.

(** A failed precomputation is not taken for a successful one. If all calls in a role
    were failed precomputations (with any calls in the other role in between), Run
    still precomputes. *)
Theorem C66_after_failures_sender : forall S E, good_setting S E -> forall M : machine S, good_machine S M ->
  forall st0 l st n d, created S M st0 -> history S E M st0 l st ->
  Forall (fun e => fst (fst e) = true -> exists b d err, e = (true, Precompute b d, Err err)) l ->
  alike (as_sender S E M (Run n) st)
    (pbind (as_sender S E M (Precompute n d) st) (fun '(st, r) =>
       match r with Ok _ => as_sender S E M (Run n) st | Err e => Ret (st, Err e) | UB w => Ret (st, UB w) end)).
Proof. exact retry_sender. Qed.
Print Assumptions C66_after_failures_sender.

Theorem C66_after_failures_receiver : forall S E, good_setting S E -> forall M : machine S, good_machine S M ->
  forall st0 l st n, created S M st0 -> history S E M st0 l st ->
  Forall (fun e => fst (fst e) = false -> exists b d err, e = (false, Precompute b d, Err err)) l ->
  alike (as_receiver S E M (Run n) st)
    (pbind (as_receiver S E M (Precompute n None) st) (fun '(st, r) =>
       match r with Ok _ => as_receiver S E M (Run n) st | Err e => Ret (st, Err e) | UB w => Ret (st, UB w) end)).
Proof. exact retry_receiver. Qed.
Print Assumptions C66_after_failures_receiver.

(** A first precomputation that fails on both sides after communication; Run then
    precomputes, and succeeds, for a smaller size. *)
Example C66_after_failures_example : exists sa ha a sb hb b,
  created F (toy_machine 0 1) sa /\ history F (toy_setting low_K) (toy_machine 0 1) sa ha a /\
  created F (toy_machine 1 0) sb /\ history F (toy_setting low_K) (toy_machine 1 0) sb hb b /\
  map (fun e => match e with (s, c, Ok _) => (s, c, true) | (s, c, _) => (s, c, false) end) (show ha) =
    [(true, ShowPrecompute 5 (Some 4%N), false); (true, ShowRun 2, true)].
Proof. exact (toy_view_history (fun ha _ _ _ => map (fun e => match e with (s, c, Ok _) => (s, c, true) | (s, c, _) => (s, c, false) end) ha) low_K [(true, Precompute 5 (Some (toy_scalar 4))); (true, Run 2)] _ ltac:(vm_compute; reflexivity)). Qed.

(** New objects have not precomputed; after Precompute, they have. *)
Example C65_C66_example :
  (exists st, created F (toy_machine 0 1) st /\ s_done (v_s st) = false /\ r_done (v_r st) = false) /\
  (exists st0 l st, created F (toy_machine 0 1) st0 /\ history F (toy_setting toy_K) (toy_machine 0 1) st0 l st /\ s_done (v_s st) = true).
Proof.
  destruct (toy_view_history (fun _ a _ b => s_done (v_s a)) toy_K [(true, Precompute 1 None)] true ltac:(vm_compute; reflexivity)) as (sa & ha & a & sb & hb & b & H1 & H2 & _ & _ & H5).
  split; [|eauto 10]. exists sa. split; [auto|]. apply created_inv in H1. destruct H1 as (h & _ & ->). auto.
Qed.

(** C67: after a successful precomputation and Run calls, a RunSender for more
    elements than are cached returns the cached ones first. For the others it
    makes an expansion: a codeword of the old seed, plus as many noise values as
    the level asks for, drawn at random, at different random positions; all
    other coordinates are those of the codeword. The result goes into the cache
    and the new seeds, and the rest of the call is a RunSender for the missing
    elements. *)
Theorem C67_expansion_is_fresh : forall S E (M : machine S), good_setting S E -> good_machine S M ->
  forall st0 l1 e b l2 st n l st' u v,
  created S M st0 -> history S E M st0 (l1 ++ e :: l2) st -> precomputes true b l1 e -> Forall sender_run l2 ->
  let c := s_cached (v_s st) in zlen (sr_u c) < n ->
  ran (as_sender S E M (Run n) st) l (st', Ok (Sender u v)) ->
  exists st1 l1 l2 u' v', l = l1 ++ l2 /\ fresh S M st l1 st1 /\ u = sr_u c ++ u' /\ v = sr_v c ++ v' /\
    ran (as_sender S E M (Run (n - zlen (sr_u c))) st1) l2 (st', Ok (Sender u' v')).
Proof. exact fresh_history. Qed.
Print Assumptions C67_expansion_is_fresh.

(** C68: the first correlations that a successful PrecomputeSender makes (the
    first ones that it adds to the log [s_made] of C44) are the random scalars it
    draws first: those for u, then those for v. *)
Theorem C68_first_seed_is_random : forall S E (M : machine S), good_setting S E -> good_machine S M ->
  forall st0 h b d l st st' r,
  created S M st0 -> history S E M st0 h st -> ran (as_sender S E M (Precompute b d) st) l (st', Ok r) ->
  exists us vs rest more, l = us ++ vs ++ rest /\
  zlen us = znth 0 (p_seed_size (e_parameters E)) 0 + e_expansion3 E (znth 0 (p_num_noise (e_parameters E)) 0) /\ zlen vs = zlen us /\
  s_made (v_s st') = s_made (v_s st) ++ combine (map snd us) (map snd vs) ++ more.
Proof. exact first_seed_history. Qed.
Print Assumptions C68_first_seed_is_random.

(** A history that meets the hypotheses of C64, C67 and C68. *)
Example C64_C67_C68_example : exists st0 e st l0 l st' u v r,
  good_setting F (toy_setting toy_K) /\ good_machine F (toy_machine 0 1) /\ (0 < e_K (toy_setting toy_K))%Q /\ 1 <= p_nonzeros (e_parameters (toy_setting toy_K)) /\
  created F (toy_machine 0 1) st0 /\ history F (toy_setting toy_K) (toy_machine 0 1) st0 [e] st /\
  precomputes true 5 [] e /\ zlen (sr_u (s_cached (v_s st))) < 2 /\
  ran (as_sender F (toy_setting toy_K) (toy_machine 0 1) (Precompute 5 (Some (toy_scalar 3))) st0) l0 (st, Ok r) /\
  ran (as_sender F (toy_setting toy_K) (toy_machine 0 1) (Run 2) st) l (st', Ok (Sender u v)).
Proof.
  destruct (toy_view_history (fun ha _ _ _ => map (fun x => match x with (s, c, Ok ShowPrecomputed) => (s, c, 1) | (s, c, Ok (ShowSender _ _)) => (s, c, 2) | (s, c, _) => (s, c, 3) end) ha)
    toy_K [(true, Precompute 5 (Some (toy_scalar 3))); (true, Run 2)] [(true, ShowPrecompute 5 (Some 3%N), 1); (true, ShowRun 2, 2)] ltac:(vm_compute; reflexivity))
    as (sa & ha & a & sb & hb & b & H1 & H2 & _ & _ & H5).
  destruct ha as [|[[s1 c1] r1] [|[[s2 c2] r2] [|]]]; try discriminate. unfold show in H5. cbn [map] in H5. injection H5 as H5 H6.
  destruct r1 as [[|u1 v1|w1 d1]|?|?]; cbn in H5; try discriminate. destruct r2 as [[|u v|w1 d1]|?|?]; cbn in H6; try discriminate.
  injection H5 as -> H5. injection H6 as -> H6. destruct c1 as [b1 [d1|]|]; try discriminate. destruct c2 as [|n]; try discriminate. cbn in H5, H6. injection H5 as -> H5. injection H6 as ->.
  assert (d1 = toy_scalar 3) as -> by (apply zval_inj; exact H5).
  change ([_; _]) with ([(true, Precompute 5 (Some (toy_scalar 3)), Ok Precomputed)] ++ [(true, Run 2, Ok (Sender u v))]) in H2.
  apply history_app in H2. destruct H2 as (st & H2 & H3). pose proof H2 as H2'. apply history_one in H2'. apply history_one in H3. destruct H2' as [H4 _], H3 as [H3 _].
  apply possible_ran in H4, H3. destruct H4 as (l0 & H4), H3 as (l & H3).
  assert (Hp : precomputes true 5 [] (true, Precompute 5 (Some (toy_scalar 3)), Ok (@Precomputed F))) by (eexists _, _; split; [reflexivity|]; left; eauto).
  exists sa, (true, Precompute 5 (Some (toy_scalar 3)), Ok Precomputed), st, l0, l, a, u, v, Precomputed.
  split; [apply toy_good|]. split; [apply toy_machine_good|]. split; [reflexivity|]. split; [cbn; lia|]. split; [auto|]. split; [auto|]. split; [auto|].
  split; [|auto]. destruct (precomputed_sender F (toy_setting toy_K) (toy_good _) (toy_machine 0 1) (toy_machine_good _ _) sa [] _ 5 st H1 H2 Hp) as (_ & _ & Hz).
  rewrite (Hz _ _ eq_refl). reflexivity.
Qed.
