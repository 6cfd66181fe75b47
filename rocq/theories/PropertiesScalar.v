(** Final theorems about scalar types and packing
    (C20-C22, C26, C27, C51, C53, C54). *)
From Coq Require Import QArith Qabs Ring_theory.
From Verif Require Import Base BaseFacts ScalarModel ScalarSpec ScalarProofs ScalarFinal PackModel PackProofs.
Local Open Scope N_scope.

(** C20 *)
Theorem C20_packing_lossless : forall t (v : list (scalar_of t)) (c : scalar_of t) (k : Z) (d : scalar_of t),
  stype_ok t -> (s_size (scalar_of t) <= 16)%Z ->
  (zlen v <= Z.quot 16 (s_size (scalar_of t)))%Z -> (0 <= k < zlen v)%Z ->
  znth d (block_to_span (scalar_of t) (span_to_block (scalar_of t) v c)) k = s_mul (scalar_of t) (znth d v k) c.
Proof. exact pack_roundtrip. Qed.
Print Assumptions C20_packing_lossless.

Example C20_example :
  let S := scalar_of (ZZ_p 1000003) in
  let v := map (s_of128 S) [5; 1000002; 0; 77; 12] in
  s_size S = 3%Z /\ map zval (block_to_span S (span_to_block S v (s_of128 S 2))) = [10; 1000001; 0; 154; 24].
Proof. vm_compute. split; reflexivity. Qed.

(** C21 *)
Theorem C21_bit_decomposition : forall t (x : scalar_of t), stype_ok t ->
  zlen (get_bits (scalar_of t) x) = (8 * s_size (scalar_of t))%Z /\
  s_sum (scalar_of t)
    (map (fun j => if znth false (get_bits (scalar_of t) x) j then s_setbit (scalar_of t) j else s_zero (scalar_of t))
       (zrange 0 (8 * s_size (scalar_of t)))) = x.
Proof. exact (fun t x H => recombine (scalar_of t) x (scalar_of_laws t H)). Qed.
Print Assumptions C21_bit_decomposition.

Example C21_example :
  let S := scalar_of (zz_p 257) in
  get_bits S (s_of128 S 256) = [false; false; false; false; false; false; false; false; true;
                                false; false; false; false; false; false; false].
Proof. vm_compute. reflexivity. Qed.

(** C22 *)
Theorem C22_scalar_types : forall t, stype_ok t ->
  let S := scalar_of t in
  ring_theory (s_zero S) (s_one S) (s_add S) (s_mul S) (s_sub S) (s_opp S) eq /\
  (1 <= s_size S)%Z /\
  (forall v, v < 2^128 -> s_of128 S (v mod order t) = s_of128 S v) /\
  ((s_size S <= 16)%Z ->
     order t <= 2 ^ Z.to_N (8 * s_size S) /\
     (forall x, s_to128 S x < order t) /\
     (forall x, s_of128 S (s_to128 S x) = x) /\
     (forall v, v < order t -> s_to128 S (s_of128 S v) = v)).
Proof. exact scalar_facts. Qed.
Print Assumptions C22_scalar_types.

Example C22_example :
  let S := scalar_of (ZZ_p (2^127 - 1)) in
  stype_ok (ZZ_p (2^127 - 1)) /\ s_size S = 16%Z /\
  zval (s_mul S (s_of128 S (2^127 - 2)) (s_of128 S (2^127 - 2))) = 1 /\
  let U := scalar_of UInt128 in s_to128 U (s_of128 U (2^127 + 5)) = 2^127 + 5.
Proof. vm_compute. repeat split; reflexivity. Qed.

(** C26. [K] is 2^statistical_security. *)
Theorem C26_can_be_hashed_into_128_sound : forall t K (B : scalar_of t -> bool),
  stype_ok t -> (s_size (scalar_of t) <= 16)%Z -> (0 < K)%Q ->
  s_can_hash (scalar_of t) (Some K) 128 = true ->
  (Qabs (hash_prob t 128 B - uniform_prob t B) < 1 / K)%Q.
Proof. exact can_hash_128_sound. Qed.
Print Assumptions C26_can_be_hashed_into_128_sound.

(** Without the restriction to 16 bytes (which CanBeHashedInto does not make),
    the guarantee fails. *)
Theorem C26_large_modulus_refuted : forall k s h, (2 <= k)%positive ->
  let t := ZZ_p (k * 2^128) in
  stype_ok t /\ s_can_hash (scalar_of t) s h = true /\
  (forall (v : N) (x : zmod (k * 2^128)), 2^128 <= zval x -> s_of128 (scalar_of t) v <> x).
Proof. exact can_hash_large_unsound. Qed.
Print Assumptions C26_large_modulus_refuted.

Example C26_example :
  let p := (2^80 - 65)%positive in
  stype_ok (ZZ_p p) /\ s_size (scalar_of (ZZ_p p)) = 10%Z /\
  s_can_hash (scalar_of (ZZ_p p)) (Some (inject_Z (2^40))) 128 = true /\
  s_can_hash (scalar_of (ZZ_p p)) (Some (inject_Z (2^80))) 128 = false.
Proof. vm_compute. repeat split; reflexivity. Qed.

(** C27 *)
Theorem C27_hash_bits_64_sound : forall t K (B : scalar_of t -> bool),
  stype_ok t -> s_size (scalar_of t) = 8%Z -> (0 < K)%Q ->
  s_can_hash (scalar_of t) (Some K) 64 = true ->
  (Qabs (hash_prob t 64 B - uniform_prob t B) < 1 / K)%Q.
Proof. exact can_hash_64_sound. Qed.
Print Assumptions C27_hash_bits_64_sound.

Theorem C27_integers_sound : forall t s h (B : scalar_of t -> bool),
  match t with ZZ_p _ | zz_p _ => False | _ => True end -> (h <= 128)%Z ->
  s_can_hash (scalar_of t) s h = true ->
  (hash_prob t h B == uniform_prob t B)%Q.
Proof. exact can_hash_uint_sound. Qed.
Print Assumptions C27_integers_sound.

Theorem C27_packed_check_accepts_every_modulus : forall p K,
  (89 <= ntl_num_bits p <= 120)%Z -> (K <= inject_Z (2^63))%Q -> (0 < K)%Q ->
  s_can_hash (scalar_of (ZZ_p p)) (Some K) (8 * s_size (scalar_of (ZZ_p p))) = true.
Proof. exact can_hash_packed_accepts. Qed.
Print Assumptions C27_packed_check_accepts_every_modulus.

Theorem C27_hash_bits_below_128_refuted :
  let t := ZZ_p (3 * 2^102) in
  let B := fun x : zmod (3 * 2^102) => zval x <? 2^102 in
  stype_ok t /\ s_size (scalar_of t) = 13%Z /\
  s_can_hash (scalar_of t) (Some (inject_Z (2^40))) (8 * s_size (scalar_of t)) = true /\
  (hash_prob t (8 * 13) B - uniform_prob t B == 1 # 6)%Q.
Proof. exact can_hash_packed_unsound. Qed.
Print Assumptions C27_hash_bits_below_128_refuted.

Example C27_example :
  let p := (2^59 - 55)%positive in
  s_size (scalar_of (zz_p p)) = 8%Z /\
  s_can_hash (scalar_of (zz_p p)) (Some (inject_Z (2^40))) 64 = true /\
  s_can_hash (scalar_of (zz_p (2^60 - 2^40))) (Some (inject_Z (2^40))) 64 = false /\
  ntl_num_bits (2^100 - 3) = 100%Z.
Proof. vm_compute. repeat split; reflexivity. Qed.

(** C51 *)
Theorem C51_num_bits_cache : forall p ops,
  ntl_run (NtlThread p None None) ops = ntl_expected p ops.
Proof. exact ntl_cache_correct. Qed.
Print Assumptions C51_num_bits_cache.

Theorem C51_num_bits_value : forall p, (1 < p)%positive ->
  (1 <= ntl_num_bits p)%Z /\ 2 ^ (Z.to_N (ntl_num_bits p) - 1) <= Npos p - 1 < 2 ^ Z.to_N (ntl_num_bits p).
Proof. exact ntl_num_bits_spec. Qed.
Print Assumptions C51_num_bits_value.

Example C51_example :
  ntl_run (NtlThread 17 None None) [NumBits; Install 1000; NumBits; NumBits; Install 17; Install 16; NumBits]
  = [5; 10; 10; 4]%Z.
Proof. vm_compute. reflexivity. Qed.

(** C53 *)
Theorem C53_products_defined : forall bytes x y, bytes <> 2%positive -> bytes <> 3%positive ->
  x < 2 ^ (8 * Npos bytes) -> y < 2 ^ (8 * Npos bytes) ->
  cpp_mul bytes x y = Ok (x * y mod 2 ^ (8 * Npos bytes)).
Proof. exact cpp_mul_wide. Qed.
Print Assumptions C53_products_defined.

Theorem C53_packing_products_defined : forall x j, x < 2^16 -> j < 16 ->
  cpp_mul 2 x (2^j) = Ok (x * 2^j mod 2^16).
Proof. exact cpp_mul_16_pow2. Qed.
Print Assumptions C53_packing_products_defined.

Theorem C53_uint16_products : forall x y, x < 2^16 -> y < 2^16 ->
  (x * y < 2^31 -> cpp_mul 2 x y = Ok (x * y mod 2^16)) /\
  (2^31 <= x * y -> exists w, cpp_mul 2 x y = UB w).
Proof. exact cpp_mul_16. Qed.
Print Assumptions C53_uint16_products.

Theorem C53_uint16_products_refuted : exists x y w, x < 2^16 /\ y < 2^16 /\ cpp_mul 2 x y = UB w.
Proof. exact (ex_intro _ 65535 (ex_intro _ 65535 (ex_intro _ _ (conj eq_refl (conj eq_refl eq_refl))))). Qed.
Print Assumptions C53_uint16_products_refuted.

Example C53_example : cpp_mul 2 65535 (2^15) = Ok 32768 /\ cpp_mul 2 300 300 = Ok 24464.
Proof. vm_compute. split; reflexivity. Qed.

(** C54: an element is returned unchanged iff no earlier product in the block is
    negative; otherwise it becomes -1. *)
Theorem C54_signed_packing : forall bytes, (bytes <= 16)%positive ->
  forall (v : list (sint_scalar bytes)) (c : sint_scalar bytes) (k : Z) (d : sint_scalar bytes),
  (zlen v <= packing_factor (sint_scalar bytes))%Z -> (0 <= k < zlen v)%Z ->
  znth d (block_to_span (sint_scalar bytes) (span_to_block (sint_scalar bytes) v c)) k =
  if existsb (fun x => negative bytes (s_mul (sint_scalar bytes) x c)) (firstn (Z.to_nat k) v)
  then minus_one bytes
  else s_mul (sint_scalar bytes) (znth d v k) c.
Proof. exact sint_pack. Qed.
Print Assumptions C54_signed_packing.

Theorem C54_signed_packing_refuted :
  let S := sint_scalar 4 in
  exists v : list S, zlen v = 2%Z /\
  block_to_span S (span_to_block S v (s_one S)) <> v ++ [s_zero S; s_zero S].
Proof. exact sint_pack_lossy. Qed.
Print Assumptions C54_signed_packing_refuted.

Example C54_example :
  let S := sint_scalar 4 in
  map zval (block_to_span S (span_to_block S (map (zmod_of_N _) [7; 2^32 - 2; 5; 6]) (s_one S)))
  = [7; 2^32 - 2; 2^32 - 1; 2^32 - 1].
Proof. vm_compute. reflexivity. Qed.
