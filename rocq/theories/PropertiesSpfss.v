(** Final theorems about single-point function secret sharing (C17-C19).
    Parameters as in PropertiesRot.v; [t] is the scalar type. *)
From Verif Require Import Base BaseFacts ScalarModel ScalarSpec ProcModel ProcSpec
  RotModel RotSpec SpfssModel SpfssProofs SpfssFinal.
From Coq Require Import QArith.
Local Open Scope Z_scope.

(** C17 *)
Theorem C17_batched : forall t, stype_ok t -> forall aes clog K vals_v vals_i indices
    (outs_v outs_i : list (list (scalar_of t))) ta tb,
  map zlen outs_i = map zlen outs_v ->
  zlen vals_v = zlen outs_v -> zlen vals_i = zlen outs_v -> zlen indices = zlen outs_v ->
  (forall o, In o outs_v -> supported_size clog (zlen o)) ->
  (forall i, 0 <= i < zlen outs_v -> valid_index (znth 0 indices i) (zlen (znth [] outs_v i))) ->
  s_can_hash (scalar_of t) (security_per_leaf K (total_leaves (map zlen outs_v))) 128 = true ->
  exists rv ri, completes (spfss_value_provider_batched (scalar_of t) aes clog K vals_v outs_v) ta
            (spfss_index_provider_batched (scalar_of t) aes clog vals_i indices outs_i) tb (Ok rv) (Ok ri) /\
    map zlen rv = map zlen outs_v /\ map zlen ri = map zlen outs_v /\
    forall i j, 0 <= i < zlen outs_v -> 0 <= j < zlen (znth [] outs_v i) ->
      let z := s_zero (scalar_of t) in
      s_add (scalar_of t) (znth z (znth [] rv i) j) (znth z (znth [] ri i) j) =
      if j =? znth 0 indices i then s_add (scalar_of t) (znth z vals_v i) (znth z vals_i i) else z.
Proof. exact spfss_batched_correct. Qed.
Print Assumptions C17_batched.

Theorem C17_single : forall t, stype_ok t -> forall aes clog K val_v val_i index
    (out_v out_i : list (scalar_of t)) ta tb,
  zlen out_i = zlen out_v -> supported_size clog (zlen out_v) -> valid_index index (zlen out_v) ->
  s_can_hash (scalar_of t) (security_per_leaf K (total_leaves [zlen out_v])) 128 = true ->
  exists rv ri, completes (spfss_value_provider (scalar_of t) aes clog K val_v out_v) ta
            (spfss_index_provider (scalar_of t) aes clog val_i index out_i) tb (Ok rv) (Ok ri) /\
    zlen rv = zlen out_v /\ zlen ri = zlen out_v /\
    forall j, 0 <= j < zlen out_v ->
      let z := s_zero (scalar_of t) in
      s_add (scalar_of t) (znth z rv j) (znth z ri j) =
      if j =? index then s_add (scalar_of t) val_v val_i else z.
Proof. exact spfss_single_correct. Qed.
Print Assumptions C17_single.

Theorem C17_sized : forall t, stype_ok t -> forall aes clog K val_v val_i index size ta tb,
  0 <= size -> supported_size clog size -> valid_index index size ->
  s_can_hash (scalar_of t) (security_per_leaf K (total_leaves [size])) 128 = true ->
  exists rv ri, completes (spfss_value_provider_size (scalar_of t) aes clog K val_v size) ta
            (spfss_index_provider_size (scalar_of t) aes clog val_i index size) tb (Ok rv) (Ok ri) /\
    zlen rv = size /\ zlen ri = size /\
    forall j, 0 <= j < size ->
      let z := s_zero (scalar_of t) in
      s_add (scalar_of t) (znth z rv j) (znth z ri j) =
      if j =? index then s_add (scalar_of t) val_v val_i else z.
Proof. exact spfss_sized_correct. Qed.
Print Assumptions C17_sized.

(** A negative size, unlike 0, makes both sides throw std::length_error before they
    send or receive anything. *)
Theorem C17_sized_negative : forall t aes clog K val_v val_i index size, size < 0 ->
  (exists w, returns (spfss_value_provider_size (scalar_of t) aes clog K val_v size) (UB w)) /\
  (exists w, returns (spfss_index_provider_size (scalar_of t) aes clog val_i index size) (UB w)).
Proof. exact spfss_sized_negative. Qed.
Print Assumptions C17_sized_negative.

Definition toy_aes (k x : N) : N := ((k * 31 + x * 7 + 1) mod 2^128)%N.
Definition toy_clog (a n : Z) : nat := if n <=? 1 then 0 else if n <=? a then 1 else if n <=? a * a then 2 else 3.
Definition toy_tape {T} (x : T) : tape T := fun n => (N.of_nat (n * 1000 + 17), x).
Definition shown {m} (r : option (res (list (list (zmod m))) * res (list (list (zmod m))))) :=
  match r with Some (Ok a, Ok b) => Some (map (map zval) a, map (map zval) b) | _ => None end.

(** Two functions over ZZ modulo 1009, of sizes 3 and 1, with values 5+6 at 1
    and 7+8 at 0. *)
Example C17_example :
  let S := scalar_of (zz_p 1009) in
  let z := s_zero S in let c := s_of128 S in
  let outs := [[z; z; z]; [z]] in
  stype_ok (zz_p 1009) /\ (forall o, In o outs -> supported_size toy_clog (zlen o)) /\
  s_can_hash S (security_per_leaf (inject_Z (2^40)) (total_leaves (map zlen outs))) 128 = true /\
  shown (exec 100 (spfss_value_provider_batched S toy_aes toy_clog (inject_Z (2^40)) [c 5; c 7]%N outs) (toy_tape z)
    (spfss_index_provider_batched S toy_aes toy_clog [c 6; c 8]%N [1; 0] outs) (toy_tape z) [] []) =
    Some ([[744; 594; 796]; [10]], [[265; 426; 213]; [5]])%N.
Proof.
  cbv zeta. split; [split; [reflexivity|discriminate]|]. split; [|split; vm_compute; reflexivity].
  intros o Ho. repeat destruct Ho as [<-|Ho]; try destruct Ho; vm_compute; split; discriminate.
Qed.

(** C18: no message is sent and no output written when the arguments do not
    fit together; a well-formed call never stops at the checks. *)
Theorem C18_value_checks : forall (S : scalar) aes clog K (vals : list S) outs,
  zlen vals <> zlen outs ->
  exists m, returns (spfss_value_provider_batched S aes clog K vals outs) (Err (invalid_argument m)).
Proof. exact spfss_value_checks. Qed.
Print Assumptions C18_value_checks.

Theorem C18_index_checks : forall (S : scalar) aes clog (vals : list S) indices outs,
  let bad := zlen vals <> zlen outs \/ zlen vals <> zlen indices \/
     exists i, 0 <= i < zlen outs /\ ~ valid_index (znth 0 indices i) (zlen (znth [] outs i)) in
  (bad -> exists m, returns (spfss_index_provider_batched S aes clog vals indices outs) (Err (invalid_argument m))) /\
  (~ bad -> forall r, ~ returns (spfss_index_provider_batched S aes clog vals indices outs) r).
Proof. exact spfss_index_checks. Qed.
Print Assumptions C18_index_checks.

Theorem C18_single_index_checks : forall (S : scalar) aes clog (val : S) index output,
  (~ valid_index index (zlen output) ->
     exists m, returns (spfss_index_provider S aes clog val index output) (Err (invalid_argument m))) /\
  (valid_index index (zlen output) -> forall r, ~ returns (spfss_index_provider S aes clog val index output) r).
Proof. exact spfss_single_index_checks. Qed.
Print Assumptions C18_single_index_checks.

Example C18_example :
  let S := scalar_of UInt32 in let z := s_zero S in
  returns (spfss_index_provider_batched S toy_aes toy_clog [z; z] [0; -1] [[z]; [z; z]])
    (Err (invalid_argument "`indices[i]` out of range")) /\
  returns (spfss_value_provider_batched S toy_aes toy_clog 1 [z] [[z]; [z; z]])
    (Err (invalid_argument "`val-shares` and `outputs` must have the same size")).
Proof. cbv zeta. split; reflexivity. Qed.

(** C19: whoever the peer is, everything the value provider sends is a list
    [ms0] that does not depend on its values, followed (if it succeeds) by one
    vector holding value minus the sum of its own output; its result does not
    depend on the values either. *)
Theorem C19_only_masked_values : forall t, stype_ok t -> forall aes clog K (outs : list (list (scalar_of t))) ta,
  exists ms0 r, forall vals, zlen vals = zlen outs ->
  forall RB (pb : proc (scalar_of t) RB) tb n d,
    steps n (start (spfss_value_provider_batched (scalar_of t) aes clog K vals outs) ta pb tb) d ->
    (exists got rest, ms0 ++ match r with
       | Ok o => [MVec (map (fun '(v, o) => s_sub (scalar_of t) v (s_sum (scalar_of t) o)) (combine vals o))]
       | _ => [] end = got ++ c_ab d ++ rest) /\
    (forall r', c_a d = Ret r' -> r' = r).
Proof. exact spfss_any_peer. Qed.
Print Assumptions C19_only_masked_values.

(** The whole transcript, when the provider runs to its end. *)
Theorem C19_transcript : forall t, stype_ok t -> forall aes clog K (vals : list (scalar_of t)) outs ta ms r t',
  zlen vals = zlen outs ->
  solo (spfss_value_provider_batched (scalar_of t) aes clog K vals outs) ta = Some (ms, Ok r, t') ->
  let masked vals := map (fun '(v, o) => s_sub (scalar_of t) v (s_sum (scalar_of t) o)) (combine vals r) in
  exists ms0, zlen r = zlen outs /\ ms = ms0 ++ [MVec (masked vals)] /\
    forall vals', zlen vals' = zlen outs ->
      solo (spfss_value_provider_batched (scalar_of t) aes clog K vals' outs) ta =
        Some (ms0 ++ [MVec (masked vals')], Ok r, t').
Proof. exact spfss_message. Qed.
Print Assumptions C19_transcript.

(** The sum hides the value perfectly in the one output element the index
    provider does not know: for every other value there is exactly one
    alternative for that element which explains the same message. *)
Theorem C19_mask_is_one_time_pad : forall t, stype_ok t -> forall (out : list (scalar_of t)) idx (v v' : scalar_of t),
  0 <= idx < zlen out ->
  let message v out := s_sub (scalar_of t) v (s_sum (scalar_of t) out) in
  exists x, message v' (list_set out (Z.to_nat idx) x) = message v out /\
    forall y, message v' (list_set out (Z.to_nat idx) y) = message v out -> y = x.
Proof. exact spfss_mask. Qed.
Print Assumptions C19_mask_is_one_time_pad.

Example C19_example :
  let S := scalar_of UInt32 in let z := s_zero S in
  exists ms r t', solo (spfss_value_provider_batched S toy_aes toy_clog 1 [s_one S] [[z; z; z]]) (toy_tape z) = Some (ms, Ok r, t') /\
    zlen ms = 3.
Proof. cbv zeta. do 3 eexists. split; reflexivity. Qed.
