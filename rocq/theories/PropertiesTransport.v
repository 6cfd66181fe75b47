(** Final theorems about the connections between the parties (C80).
    [on_every_transport] is in TransportSpec.v: whether or not oblivious
    transfers have a connection of their own, and whatever the connections are
    ready to store at any time, the session ends in the same way. *)
From Verif Require Import Base BaseFacts ScalarModel ScalarSpec ScalarProofs ScalarFinal ProcModel ProcSpec ProcProofs RotModel RotSpec SpfssModel
  GilboaModel GilboaSpec CuckooModel CuckooSpec MpfssModel MpfssSpec VoleModel VoleSpec VoleToy TransportSpec TransportProofs TransportFinal.
From Coq Require Import QArith.
Local Open Scope Z_scope.

(** C80: sessions of two connected generators, with any calls in any roles, end
    as in C45, and those of C69 as in C69. *)
Theorem C80_sessions : forall t, stype_ok t -> let S := scalar_of t in forall E, good_setting S E ->
  forall MA MB : machine S, good_machine S MA -> good_machine S MB -> connected MA MB ->
  forall go_on, (forall e, In e one_sided -> go_on e = false) -> forall l ta tb,
  on_every_transport (party S E MA go_on l) ta (party S E MB go_on (opposite S l)) tb (session_end S go_on l).
Proof. exact sessions_transport. Qed.
Print Assumptions C80_sessions.

Theorem C80_orderly_sessions : forall t, stype_ok t -> let S := scalar_of t in forall E, good_setting S E -> secure S E ->
  forall MA MB : machine S, good_machine S MA -> good_machine S MB -> connected MA MB ->
  forall go_on, go_on insertion_failed = false -> forall l ta tb, orderly None l ->
  on_every_transport (party S E MA go_on l) ta (party S E MB go_on (opposite S l)) tb (good_end S go_on l).
Proof. exact orderly_transport. Qed.
Print Assumptions C80_orderly_sessions.

(** The protocols below, used on their own: the results are those of C14, C17,
    C23, C33 and C59 ([completes] determines them, see C46). *)
Theorem C80_all_but_one : forall (S : scalar) aes clog K (outs_s outs_r : list (list S)) indices ta tb,
  map zlen outs_r = map zlen outs_s ->
  (forall o, In o outs_s -> supported_size clog (zlen o)) ->
  zlen indices = zlen outs_s ->
  (forall i, 0 <= i < zlen outs_s -> valid_index (znth 0 indices i) (zlen (znth [] outs_s i))) ->
  s_can_hash S (security_per_leaf K (total_leaves (map zlen outs_s))) 128 = true ->
  exists rs rr, let pa := rot_sender_batched S aes clog K outs_s in let pb := rot_receiver_batched S aes clog indices outs_r in
    completes pa ta pb tb (Ok rs) (Ok rr) /\ on_every_transport pa ta pb tb (returned (Ok rs) (Ok rr)).
Proof. exact rot_transport. Qed.
Print Assumptions C80_all_but_one.

Theorem C80_spfss : forall t, stype_ok t -> forall aes clog K vals_v vals_i indices (outs_v outs_i : list (list (scalar_of t))) ta tb,
  map zlen outs_i = map zlen outs_v ->
  zlen vals_v = zlen outs_v -> zlen vals_i = zlen outs_v -> zlen indices = zlen outs_v ->
  (forall o, In o outs_v -> supported_size clog (zlen o)) ->
  (forall i, 0 <= i < zlen outs_v -> valid_index (znth 0 indices i) (zlen (znth [] outs_v i))) ->
  s_can_hash (scalar_of t) (security_per_leaf K (total_leaves (map zlen outs_v))) 128 = true ->
  exists rv ri, let pa := spfss_value_provider_batched (scalar_of t) aes clog K vals_v outs_v in
    let pb := spfss_index_provider_batched (scalar_of t) aes clog vals_i indices outs_i in
    completes pa ta pb tb (Ok rv) (Ok ri) /\ on_every_transport pa ta pb tb (returned (Ok rv) (Ok ri)).
Proof. exact spfss_transport. Qed.
Print Assumptions C80_spfss.

Theorem C80_gilboa : forall t, stype_ok t -> s_size (scalar_of t) <= 16 ->
  forall K x (y out_v out_x : list (scalar_of t)) ta tb,
  zlen out_v = zlen y -> zlen out_x = zlen y ->
  zlen y + 16 / s_size (scalar_of t) < 2^31 -> transfers (s_size (scalar_of t)) (zlen y) < 2^31 ->
  exists rv rx, let pa := gilboa_vector_provider (scalar_of t) K y out_v in let pb := gilboa_value_provider (scalar_of t) K x out_x in
    completes pa ta pb tb (Ok rv) (Ok rx) /\ on_every_transport pa ta pb tb (returned (Ok rv) (Ok rx)).
Proof. exact gilboa_transport. Qed.
Print Assumptions C80_gilboa.

Theorem C80_mpfss : forall t, stype_ok t -> forall aes clog K too_many_bits e3 e2, (forall n, e3 n < 2^63) -> (forall n, e2 n < 2^63) ->
  forall seed h, let S := scalar_of t in let after := mpfss_after aes too_many_bits e3 e2 h in
  cuckoo_create seed 3 = Ok h -> forall hist_v hist_i sizes_v sizes_i x y indices u v w (out_v out_i : list S) hashed ta tb,
  divisions hist_v -> divisions hist_i ->
  let N := zlen out_v in let n := zlen y in
  division N sizes_v -> division N sizes_i -> good_sizes S clog K too_many_bits e3 N n ->
  zlen out_i = N -> zlen indices = n -> num_buckets e3 e2 (mpfss_new h) n = Ok (zlen w) -> vole_correlation S x u v w ->
  (forall k, 0 <= k < n -> 0 <= znth 0 indices k < N) ->
  hash_cuckoo aes too_many_bits h (map uint128_of_int64 indices) (zlen w) = Ok hashed ->
  exists stv sti rv ri, let pa := mpfss_value_provider S aes clog K too_many_bits e3 e2 sizes_v (after hist_v) x n w out_v in
    let pb := mpfss_index_provider S aes clog too_many_bits e3 e2 sizes_i (after hist_i) y indices u v out_i in
    completes pa ta pb tb (stv, Ok rv) (sti, Ok ri) /\ on_every_transport pa ta pb tb (returned (stv, Ok rv) (sti, Ok ri)).
Proof. exact mpfss_transport. Qed.
Print Assumptions C80_mpfss.

Theorem C80_mpfss_create : forall (S : scalar) id_a id_b (ta tb : tape S), id_a < id_b ->
  exists st, let pa := mpfss_create S false id_a id_b in let pb := mpfss_create S false id_b id_a in
    completes pa ta pb tb (Ok st) (Ok st) /\ on_every_transport pa ta pb tb (returned (Ok st) (Ok st)).
Proof. exact create_transport. Qed.
Print Assumptions C80_mpfss_create.

(** What this means for a transport that stores what it likes, as long as it has
    room for one token of sync: every run is finite, and the parties can only
    stop at the end of the session. *)
Theorem C80_any_policy : forall T RA RB (pa : proc T RA) ta (pb : proc T RB) tb P, on_every_transport pa ta pb tb P ->
  exists bound d, P d /\ forall separate (stores : policy T), stores [] MSync -> forall n c, tsteps separate stores n (start pa ta pb tb) c ->
    (n <= bound)%nat /\ ((forall c', ~ tstep separate stores c c') -> c = d).
Proof. exact @every_policy. Qed.
Print Assumptions C80_any_policy.

(** Not every protocol that completes has this property: parties that first send
    and then receive need room for their messages, and one that reads in another
    order than that of the messages needs separate connections. *)
Theorem C80_crossing_messages_refuted : forall T (x y : list T) ta tb P,
  ~ on_every_transport (Send (MVec x) (Recv (fun m => Ret m))) ta (Send (MVec y) (Recv (fun m => Ret m))) tb P.
Proof. exact @crossing. Qed.
Print Assumptions C80_crossing_messages_refuted.

Theorem C80_out_of_order_refuted : forall T (x : list T) pairs cs ta tb P,
  ~ on_every_transport (Send (MVec x) (Send (MOt false pairs) (Ret tt))) ta
      (OtRecv false cs (fun r => match r with Some l => Recv (fun m => Ret l) | None => Ret [] end)) tb P.
Proof. exact @out_of_order. Qed.
Print Assumptions C80_out_of_order_refuted.

(** A session on a transport that stores nothing but tokens, with separate
    connections. *)
Example C80_example : let calls := [(true, Run 2)] in
  good_setting F (toy_setting toy_K) /\ good_machine F (toy_machine 0 1) /\ good_machine F (toy_machine 1 0) /\
  connected (toy_machine 0 1) (toy_machine 1 0) /\
  exists n d la lb,
    tsteps true tokens n (start (party F (toy_setting toy_K) (toy_machine 0 1) (fun _ => false) calls) (toy_tape 7)
                                (party F (toy_setting toy_K) (toy_machine 1 0) (fun _ => false) (opposite F calls)) (toy_tape 13)) d /\
    c_a d = Ret (Ok la) /\ c_b d = Ret (Ok lb) /\
    map (rmap show_answer) la = [Ok (ShowSender [564; 460] [568; 113])]%N /\
    map (rmap show_answer) lb = [Ok (ShowReceiver [718; 128] 11)]%N.
Proof.
  intro calls. split; [apply toy_good|]. split; [apply toy_machine_good|]. split; [apply toy_machine_good|]. split; [apply toy_connected|].
  set (c := start _ _ _ _). destruct (texec_ok true (Z.to_nat 5000) c) as [n Hn].
  assert (E : match texec true (Z.to_nat 5000) c with
              | Config (Ret (Ok la)) _ (Ret (Ok lb)) _ _ _ => Some (map (rmap show_answer) la, map (rmap show_answer) lb)
              | _ => None end = Some ([Ok (ShowSender [564; 460] [568; 113])], [Ok (ShowReceiver [718; 128] 11)])%N) by (vm_compute; reflexivity).
  destruct (texec true (Z.to_nat 5000) c) as [[[la|e|w]| | | |] ta [[lb|e'|w']| | | |] tb ab ba]; try discriminate. injection E as E1 E2.
  eexists n, _, la, lb. split; [exact Hn|]. split; [reflexivity|]. split; [reflexivity|]. split; assumption.
Qed.
