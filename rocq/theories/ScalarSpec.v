(** Specification of scalar types. *)
From Coq Require Import QArith Ring_theory.
From Verif Require Import Base ScalarModel.
Local Open Scope Z_scope.

(** Sum of a list of scalars. *)
Definition s_sum (S : scalar) (l : list S) : S := fold_right (s_add S) (s_zero S) l.

(** What the protocols need from a scalar type. *)
Record scalar_laws (S : scalar) : Prop := {
  sl_ring : ring_theory (s_zero S) (s_one S) (s_add S) (s_mul S) (s_sub S) (s_opp S) eq;
  sl_size : 1 <= s_size S;
  sl_of_to : s_size S <= 16 -> forall x, s_of128 S (s_to128 S x) = x;
  sl_to_lt : s_size S <= 16 -> forall x, (s_to128 S x < 2 ^ Z.to_N (8 * s_size S))%N;
  sl_of_0 : s_of128 S 0%N = s_zero S;
  sl_bits : forall x,
    s_sum S (map (fun k => if s_bit S x k then s_setbit S k else s_zero S) (zrange 0 (8 * s_size S))) = x
}.

(** Number of values v < n with f v. *)
Definition count_below (n : N) (f : N -> bool) : N :=
  N.peano_rect (fun _ => N) 0%N (fun k c => ((if f k then 1 else 0) + c)%N) n.

(** Number of elements of a scalar type. *)
Definition order (t : stype) : N :=
  match t with
  | UInt8 => 2^8 | UInt16 => 2^16 | UInt32 => 2^32 | UInt64 => 2^64 | UInt128 => 2^128
  | GF128 _ => 2^128
  | ZZ_p p => Npos p
  | zz_p p => Npos p
  end%N.

(** Fraction of the v < n with f v. *)
Definition fraction (n : N) (f : N -> bool) : Q :=
  inject_Z (Z.of_N (count_below n f)) / inject_Z (Z.of_N n).

(** Probability that the element obtained from a uniform h-bit hash value is in
    [B], and the fraction of elements of the type in [B] (for types of at most
    16 bytes FromUint128 enumerates the elements: ScalarFinal.elements). *)
Definition hash_prob (t : stype) (h : Z) (B : scalar_of t -> bool) : Q :=
  fraction (2 ^ Z.to_N h) (fun v => B (s_of128 (scalar_of t) v)).
Definition uniform_prob (t : stype) (B : scalar_of t -> bool) : Q :=
  fraction (order t) (fun v => B (s_of128 (scalar_of t) v)).

(** What a history should return: one bit length per query, of the modulus
    installed last. *)
Fixpoint ntl_expected (p : positive) (ops : list ntl_op) : list Z :=
  match ops with
  | [] => []
  | Install p :: ops => ntl_expected p ops
  | NumBits :: ops => ntl_num_bits p :: ntl_expected p ops
  end.

(** Signed integers: negative elements and -1. *)
Definition negative (bytes : positive) (x : zmod (uint_modulus bytes)) : bool :=
  (2 ^ (8 * Npos bytes - 1) <=? zval x)%N.
Definition minus_one (bytes : positive) : zmod (uint_modulus bytes) :=
  zmod_of_Z (uint_modulus bytes) (-1).

