(** C71 and C72 for all elements and all bucket numbers at once: what the checks
    with doubles say about the joint distribution. *)
From Coq Require Import ZArith NArith Reals Lra Lia QArith Qreals Qabs List.
From Verif Require Import Base BaseFacts ScalarModel ScalarSpec CuckooModel FloatSpec FloatModel FloatSecurity FloatFinal JointSpec FloatJoint.
Import ListNotations.
Local Open Scope R_scope.

(** C71: if the check accepts, no test [D] tells [total] elements made from
    independent uniform 128-bit values apart from [total] independent uniform
    elements with an advantage above 2^-s, up to 2^-39 bits. *)
Theorem C71_together : forall log2 t s total (D : list (scalar_of t) -> bool),
  accurate Rlog2 log2 -> stype_ok t -> (s_size (scalar_of t) <= 16)%Z -> 0 <= s <= 512 -> (1 <= total < 2^63)%Z ->
  can_be_hashed_into log2 t (security_per_element log2 (Fin s) total) 128 = true ->
  Q2R (Qabs (joint_hash_prob t (Z.to_nat total) D - joint_uniform_prob t (Z.to_nat total) D)) <= exp2 (rounding_slack - s).
Proof. exact sound_together. Qed.
Print Assumptions C71_together.

(** C72: the bucket numbers of all inputs and hash functions, computed from
    independent uniform 128-bit hash values. *)
Theorem C72_simple_together : forall log2 aes seed num h s sizes inputs b r (D : list Z -> bool),
  accurate Rlog2 log2 -> cuckoo_create seed num = Ok h ->
  0 <= s <= 512 -> (num < 2^31)%Z -> (1 <= zlen inputs < 2^63)%Z -> (b < 2^63)%Z ->
  hash_simple aes (too_many_bits_double log2 (Fin s) num) h sizes inputs b = Ok r ->
  let n := Z.to_nat (zlen inputs * num) in
  Q2R (Qabs (fraction_of_lists (2^128) n (fun l => D (map (fun v => hash_to_bucket aes h v b 0) l)) -
             fraction_of_lists (Z.to_N b) n (fun l => D (map Z.of_N l)))) <= exp2 (rounding_slack - s).
Proof. exact simple_together. Qed.
Print Assumptions C72_simple_together.

Theorem C72_cuckoo_together : forall log2 aes seed num h s inputs b r (D : list Z -> bool),
  accurate Rlog2 log2 -> cuckoo_create seed num = Ok h ->
  0 <= s <= 512 -> (num < 2^31)%Z -> (1 <= zlen inputs < 2^63)%Z -> (b < 2^63)%Z ->
  hash_cuckoo aes (too_many_bits_double log2 (Fin s) num) h inputs b = Ok r ->
  let n := Z.to_nat (zlen inputs * num) in
  Q2R (Qabs (fraction_of_lists (2^128) n (fun l => D (map (fun v => hash_to_bucket aes h v b 0) l)) -
             fraction_of_lists (Z.to_N b) n (fun l => D (map Z.of_N l)))) <= exp2 (rounding_slack - s).
Proof. exact cuckoo_together. Qed.
Print Assumptions C72_cuckoo_together.
