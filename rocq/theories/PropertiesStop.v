(** Final theorems about a party that stops in the middle of a protocol (C95).
    [unaffected], [returns_only], [first_waits] and [second_waits] are in
    StopSpec.v. *)
From Verif Require Import Base BaseFacts ScalarModel ScalarSpec ScalarProofs ScalarFinal ProcModel ProcSpec ProcProofs RotModel RotSpec SpfssModel
  GilboaModel GilboaSpec CuckooModel CuckooSpec MpfssModel MpfssSpec VoleModel VoleSpec VoleToy TransportSpec TransportProofs StopSpec StopProofs StopFinal.
From Coq Require Import QArith.
Local Open Scope Z_scope.

(** C95: two generators, any calls in any roles. The party that goes on returns
    what it would have returned anyway, or nothing. *)
Theorem C95_sessions : forall t, stype_ok t -> let S := scalar_of t in forall E, good_setting S E ->
  forall MA MB : machine S, good_machine S MA -> good_machine S MB -> connected MA MB ->
  forall go_on, (forall e, In e one_sided -> go_on e = false) -> forall l ta tb,
  exists d, session_end S go_on l d /\ unaffected (party S E MA go_on l) ta (party S E MB go_on (opposite S l)) tb d.
Proof. exact sessions_stop. Qed.
Print Assumptions C95_sessions.

(** The protocols below, used on their own, with arguments that both parties
    accept. *)
Theorem C95_all_but_one : forall (S : scalar) aes clog K (outs_s outs_r : list (list S)) indices ta tb,
  map zlen outs_r = map zlen outs_s ->
  (forall o, In o outs_s -> supported_size clog (zlen o)) ->
  zlen indices = zlen outs_s ->
  (forall i, 0 <= i < zlen outs_s -> valid_index (znth 0 indices i) (zlen (znth [] outs_s i))) ->
  s_can_hash S (security_per_leaf K (total_leaves (map zlen outs_s))) 128 = true ->
  exists rs rr, let pa := rot_sender_batched S aes clog K outs_s in let pb := rot_receiver_batched S aes clog indices outs_r in
    completes pa ta pb tb (Ok rs) (Ok rr) /\ returns_only pa ta pb tb (Ok rs) (Ok rr) /\ second_waits pb tb.
Proof. exact rot_stop. Qed.
Print Assumptions C95_all_but_one.

Theorem C95_spfss : forall t, stype_ok t -> forall aes clog K vals_v vals_i indices (outs_v outs_i : list (list (scalar_of t))) ta tb,
  map zlen outs_i = map zlen outs_v ->
  zlen vals_v = zlen outs_v -> zlen vals_i = zlen outs_v -> zlen indices = zlen outs_v ->
  (forall o, In o outs_v -> supported_size clog (zlen o)) ->
  (forall i, 0 <= i < zlen outs_v -> valid_index (znth 0 indices i) (zlen (znth [] outs_v i))) ->
  s_can_hash (scalar_of t) (security_per_leaf K (total_leaves (map zlen outs_v))) 128 = true ->
  exists rv ri, let pa := spfss_value_provider_batched (scalar_of t) aes clog K vals_v outs_v in
    let pb := spfss_index_provider_batched (scalar_of t) aes clog vals_i indices outs_i in
    completes pa ta pb tb (Ok rv) (Ok ri) /\ returns_only pa ta pb tb (Ok rv) (Ok ri) /\ second_waits pb tb.
Proof. exact spfss_stop. Qed.
Print Assumptions C95_spfss.

Theorem C95_gilboa : forall t, stype_ok t -> s_size (scalar_of t) <= 16 ->
  forall K x (y out_v out_x : list (scalar_of t)) ta tb,
  zlen out_v = zlen y -> zlen out_x = zlen y -> 0 < zlen y ->
  zlen y + 16 / s_size (scalar_of t) < 2^31 -> transfers (s_size (scalar_of t)) (zlen y) < 2^31 ->
  exists rv rx, let pa := gilboa_vector_provider (scalar_of t) K y out_v in let pb := gilboa_value_provider (scalar_of t) K x out_x in
    completes pa ta pb tb (Ok rv) (Ok rx) /\ returns_only pa ta pb tb (Ok rv) (Ok rx) /\ second_waits pb tb.
Proof. exact gilboa_stop. Qed.
Print Assumptions C95_gilboa.

Theorem C95_mpfss : forall t, stype_ok t -> forall aes clog K too_many_bits e3 e2, (forall n, e3 n < 2^63) -> (forall n, e2 n < 2^63) ->
  forall seed h, let S := scalar_of t in let after := mpfss_after aes too_many_bits e3 e2 h in
  cuckoo_create seed 3 = Ok h -> forall hist_v hist_i sizes_v sizes_i x y indices u v w (out_v out_i : list S) hashed ta tb,
  divisions hist_v -> divisions hist_i ->
  let N := zlen out_v in let n := zlen y in
  division N sizes_v -> division N sizes_i -> good_sizes S clog K too_many_bits e3 N n ->
  zlen out_i = N -> zlen indices = n -> num_buckets e3 e2 (mpfss_new h) n = Ok (zlen w) -> vole_correlation S x u v w ->
  (forall k, 0 <= k < n -> 0 <= znth 0 indices k < N) ->
  hash_cuckoo aes too_many_bits h (map uint128_of_int64 indices) (zlen w) = Ok hashed ->
  exists stv sti rv ri, let pa := mpfss_value_provider S aes clog K too_many_bits e3 e2 sizes_v (after hist_v) x n w out_v in
    let pb := mpfss_index_provider S aes clog too_many_bits e3 e2 sizes_i (after hist_i) y indices u v out_i in
    completes pa ta pb tb (stv, Ok rv) (sti, Ok ri) /\ returns_only pa ta pb tb (stv, Ok rv) (sti, Ok ri) /\ first_waits pa ta /\ second_waits pb tb.
Proof. exact mpfss_stop. Qed.
Print Assumptions C95_mpfss.

Theorem C95_mpfss_create : forall (S : scalar) id_a id_b (ta tb : tape S), id_a < id_b ->
  exists st, let pa := mpfss_create S false id_a id_b in let pb := mpfss_create S false id_b id_a in
    completes pa ta pb tb (Ok st) (Ok st) /\ returns_only pa ta pb tb (Ok st) (Ok st) /\ first_waits pa ta /\ second_waits pb tb.
Proof. exact create_stop. Qed.
Print Assumptions C95_mpfss_create.

(** A session of which the second party stops just before it sends a message: on
    no transport can the first party do anything then. *)
Definition first_waiting {T RA RB} (c : config T RA RB) : bool :=
  match c with
  | Config (Recv _) _ (Send _ _) _ _ [] | Config (OtRecv _ _ _) _ (Send _ _) _ _ [] => true
  | _ => false
  end.
Example C95_example : let calls := [(true, Run 2)] in
  good_setting F (toy_setting toy_K) /\ good_machine F (toy_machine 0 1) /\ good_machine F (toy_machine 1 0) /\
  connected (toy_machine 0 1) (toy_machine 1 0) /\
  exists n c,
    tsteps true tokens n (start (party F (toy_setting toy_K) (toy_machine 0 1) (fun _ => false) calls) (toy_tape 7)
                                (party F (toy_setting toy_K) (toy_machine 1 0) (fun _ => false) (opposite F calls)) (toy_tape 13)) c /\
    (exists m k, c_b c = Send m k) /\ arrived true [] (c_ba c) /\ waiting (c_a c) /\
    forall stores c', ~ tstep true stores (second_stops c tt []) c'.
Proof.
  intro calls. split; [apply toy_good|]. split; [apply toy_machine_good|]. split; [apply toy_machine_good|]. split; [apply toy_connected|].
  set (c := start _ _ _ _). destruct (texec_ok true (Z.to_nat 170) c) as [n Hn].
  assert (E : first_waiting (texec true (Z.to_nat 170) c) = true) by (vm_compute; reflexivity).
  exists n, (texec true (Z.to_nat 170) c). split; [exact Hn|]. clear Hn. revert E. generalize (texec true (Z.to_nat 170) c). clear.
  intros [pa ta pb tb ab ba] E. unfold first_waiting in E.
  assert (G : waiting pa /\ (exists m k, pb = Send m k) /\ ba = []).
  { unfold waiting. destruct pa; try discriminate; destruct pb; try discriminate; destruct ba; try discriminate; eauto 10. }
  destruct G as (G1 & G2 & ->). cbn [c_a c_b c_ba]. split; [exact G2|]. split; [apply arrived_nil|]. split; [exact G1|].
  intros stores c' H. unfold second_stops in H. cbn [c_a c_ta c_b c_tb c_ab c_ba] in H.
  destruct G1 as [[k ->]|(cot & ch & k & ->)]; inversion H; subst; try discriminate;
    match goal with R : reads _ (Ret _) _ = Some _ |- _ => exact (no_reads _ _ _ _ R) end.
Qed.
