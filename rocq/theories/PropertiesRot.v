(** Final theorems about all-but-one random OT (C14-C16, C55).
    [aes], [clog] as in PropertiesGgm.v; [K] = 2^statistical_security; [ta],
    [tb] the parties' random tapes. *)
From Verif Require Import Base BaseFacts ScalarModel ScalarSpec GgmModel GgmSpec
  ProcModel ProcSpec RotModel RotSpec RotFinal.
From Coq Require Import QArith Qabs.
Local Open Scope Z_scope.

(** C14 *)
Theorem C14_all_but_one : forall (S : scalar) aes clog K (outs_s outs_r : list (list S)) indices ta tb,
  map zlen outs_r = map zlen outs_s ->
  (forall o, In o outs_s -> supported_size clog (zlen o)) ->
  zlen indices = zlen outs_s ->
  (forall i, 0 <= i < zlen outs_s -> valid_index (znth 0 indices i) (zlen (znth [] outs_s i))) ->
  s_can_hash S (security_per_leaf K (total_leaves (map zlen outs_s))) 128 = true ->
  exists rs rr, completes (rot_sender_batched S aes clog K outs_s) ta
            (rot_receiver_batched S aes clog indices outs_r) tb (Ok rs) (Ok rr) /\
    map zlen rs = map zlen outs_s /\ map zlen rr = map zlen outs_s /\
    forall i, 0 <= i < zlen outs_s ->
      let n := zlen (znth [] outs_s i) in
      (forall j d, 0 <= j < n ->
         znth d (znth [] rr i) j = if j =? znth 0 indices i then s_of128 S 0%N else znth d (znth [] rs i) j) /\
      (1 <= n -> exists t, well_shaped t 2 n /\
         is_ggm_tree aes (fst (ta (seed_pos (map zlen outs_s) i))) [fst (ta 0%nat); fst (ta 1%nat)] t /\
         forall j d, 0 <= j < n -> znth d (znth [] rs i) j = s_of128 S (node t (height t - 1) j)).
Proof. exact rot_batched_correct. Qed.
Print Assumptions C14_all_but_one.

Theorem C14_single : forall (S : scalar) aes clog K (out_s out_r : list S) index ta tb,
  zlen out_r = zlen out_s -> supported_size clog (zlen out_s) -> valid_index index (zlen out_s) ->
  s_can_hash S (security_per_leaf K (total_leaves [zlen out_s])) 128 = true ->
  exists rs rr, completes (rot_sender S aes clog K out_s) ta (rot_receiver S aes clog index out_r) tb (Ok rs) (Ok rr) /\
    zlen rs = zlen out_s /\ zlen rr = zlen out_s /\
    forall j d, 0 <= j < zlen out_s -> znth d rr j = if j =? index then s_of128 S 0%N else znth d rs j.
Proof. exact rot_single_correct. Qed.
Print Assumptions C14_single.

Definition toy_aes (k x : N) : N := ((k * 31 + x * 7 + 1) mod 2^128)%N.
Definition toy_clog (a n : Z) : nat := if n <=? 1 then 0 else if n <=? a then 1 else if n <=? a * a then 2 else 3.
Definition toy_tape {T} (x : T) : tape T := fun n => (N.of_nat (n * 1000 + 17), x).

Definition shown {m} (r : option (res (list (list (zmod m))) * res (list (list (zmod m))))) :=
  match r with Some (Ok a, Ok b) => Some (map (map zval) a, map (map zval) b) | _ => None end.

(** A batch with an empty output, a single-element output and two larger ones. *)
Example C14_example :
  let S := scalar_of (zz_p 1009) in
  let z := s_zero S in
  let outs := [[z; z; z]; []; [z]; [z; z; z; z; z]] in
  (forall o, In o outs -> supported_size toy_clog (zlen o)) /\
  s_can_hash S (security_per_leaf (inject_Z (2^40)) (total_leaves (map zlen outs))) 128 = true /\
  shown (exec 100 (rot_sender_batched S toy_aes toy_clog (inject_Z (2^40)) outs) (toy_tape z)
    (rot_receiver_batched S toy_aes toy_clog [1; 5; 0; 4] outs) (toy_tape z) [] []) =
    Some ([[265; 415; 213]; []; [999]; [641; 521; 507; 785; 622]],
          [[265; 0; 213]; []; [0]; [641; 521; 507; 785; 0]])%N.
Proof.
  cbv zeta. split; [|split; vm_compute; reflexivity].
  intros o Ho. repeat destruct Ho as [<-|Ho]; try destruct Ho; vm_compute; split; discriminate.
Qed.

(** C15 *)
Theorem C15_receiver_checks : forall (S : scalar) aes clog indices (outputs : list (list S)),
  let bad := zlen indices <> zlen outputs \/
    exists i, 0 <= i < zlen outputs /\ ~ valid_index (znth 0 indices i) (zlen (znth [] outputs i)) in
  (bad -> exists m, returns (rot_receiver_batched S aes clog indices outputs) (Err (invalid_argument m))) /\
  (~ bad -> forall r, ~ returns (rot_receiver_batched S aes clog indices outputs) r).
Proof. exact rot_receiver_batched_checks. Qed.
Print Assumptions C15_receiver_checks.

Theorem C15_single_receiver_checks : forall (S : scalar) aes clog index (output : list S),
  (~ valid_index index (zlen output) ->
     exists m, returns (rot_receiver S aes clog index output) (Err (invalid_argument m))) /\
  (valid_index index (zlen output) -> forall r, ~ returns (rot_receiver S aes clog index output) r).
Proof. exact rot_receiver_checks. Qed.
Print Assumptions C15_single_receiver_checks.

Example C15_example :
  let S := scalar_of UInt32 in let z := s_zero S in
  returns (rot_receiver_batched S toy_aes toy_clog [0; 2] [[z]; [z; z]])
    (Err (invalid_argument "`indices[i]` out of range")) /\
  valid_index 1 (zlen [z; z]) /\ valid_index 9 (zlen (@nil S)).
Proof. cbv zeta. split; [reflexivity|]. split; [split; [discriminate|now right]|split; [discriminate|now left]]. Qed.

(** C16: against any peer whatsoever - in particular against receivers with
    different indices - the sender sends the same messages (what is in the
    channel is a segment of the fixed list [ms]) and ends with the same result. *)
Theorem C16_sender_oblivious : forall (S : scalar) aes clog K (outputs : list (list S)) ta,
  exists ms r, forall RB (pb : proc S RB) tb n d,
    steps n (start (rot_sender_batched S aes clog K outputs) ta pb tb) d ->
    (exists got rest, ms = got ++ c_ab d ++ rest) /\ (forall r', c_a d = Ret r' -> r' = r).
Proof. exact rot_sender_oblivious. Qed.
Print Assumptions C16_sender_oblivious.

Theorem C16_any_indices : forall (S : scalar) aes clog K outs_s (outs_r outs_r' : list (list S)) ix ix' ta tb tb' rs rr rs' rr',
  completes (rot_sender_batched S aes clog K outs_s) ta (rot_receiver_batched S aes clog ix outs_r) tb rs rr ->
  completes (rot_sender_batched S aes clog K outs_s) ta (rot_receiver_batched S aes clog ix' outs_r') tb' rs' rr' ->
  rs = rs'.
Proof. exact rot_sender_any_indices. Qed.
Print Assumptions C16_any_indices.

Example C16_example :
  let S := scalar_of UInt32 in let z := s_zero S in let outs := [[z; z]] in
  let s := rot_sender_batched S toy_aes toy_clog 1 outs in
  let r index := rot_receiver_batched S toy_aes toy_clog [index] outs in
  shown (exec 50 s (toy_tape z) (r 0) (toy_tape z) [] []) = Some ([[16086; 46510]], [[0; 46510]])%N /\
  shown (exec 50 s (toy_tape z) (r 1) (toy_tape z) [] []) = Some ([[16086; 46510]], [[16086; 0]])%N.
Proof. vm_compute. split; reflexivity. Qed.

(** C55 *)
Theorem C55_total_is_wrapped_sum : forall sizes, total_leaves sizes = wrap32 (size_sum sizes).
Proof. exact total_leaves_wrap. Qed.
Print Assumptions C55_total_is_wrapped_sum.

Theorem C55_exact_below_2_31 : forall sizes, 0 <= size_sum sizes < 2^31 -> total_leaves sizes = size_sum sizes.
Proof. exact total_leaves_exact. Qed.
Print Assumptions C55_exact_below_2_31.

(** Below 2^31 leaves, passing the check gives every leaf the security level
    statistical_security + log2(number of leaves). *)
Theorem C55_check_sound_below_2_31 : forall t K sizes (B : scalar_of t -> bool),
  stype_ok t -> s_size (scalar_of t) <= 16 -> (0 < K)%Q -> 0 < size_sum sizes < 2^31 ->
  s_can_hash (scalar_of t) (security_per_leaf K (total_leaves sizes)) 128 = true ->
  (Qabs (hash_prob t 128 B - uniform_prob t B) < 1 / (inject_Z (size_sum sizes) * K))%Q.
Proof. exact total_leaves_security. Qed.
Print Assumptions C55_check_sound_below_2_31.

(** Failing the check stops the sender before anything is sent. *)
Theorem C55_check_failure : forall (S : scalar) aes clog K (outputs : list (list S)),
  s_can_hash S (security_per_leaf K (total_leaves (map zlen outputs))) 128 = false ->
  exists m, returns (rot_sender_batched S aes clog K outputs) (Err (invalid_argument m)).
Proof. exact rot_sender_security_check. Qed.
Print Assumptions C55_check_failure.

Theorem C55_wrap_accepts_refuted :
  let t := ZZ_p (2^80 + 13) in let sizes := [2^30; 2^30; 2^30; 2^30] in let K := inject_Z (2^40) in
  stype_ok t /\
  s_can_hash (scalar_of t) (security_per_leaf K (total_leaves sizes)) 128 = true /\
  s_can_hash (scalar_of t) (security_per_leaf K (size_sum sizes)) 128 = false.
Proof. exact total_leaves_wrap_unsound. Qed.
Print Assumptions C55_wrap_accepts_refuted.

Theorem C55_wrap_rejects_refuted :
  let t := zz_p 3 in let sizes := [2^31] in let K := inject_Z (2^40) in
  stype_ok t /\
  s_can_hash (scalar_of t) (security_per_leaf K (total_leaves sizes)) 128 = false /\
  s_can_hash (scalar_of t) (security_per_leaf K (size_sum sizes)) 128 = true.
Proof. exact total_leaves_wrap_rejects. Qed.
Print Assumptions C55_wrap_rejects_refuted.

Example C55_example :
  let t := ZZ_p (2^80 + 13) in
  s_can_hash (scalar_of t) (security_per_leaf (inject_Z (2^40)) (total_leaves [7; 0; 13])) 128 = true /\
  s_size (scalar_of t) = 11.
Proof. vm_compute. split; reflexivity. Qed.
