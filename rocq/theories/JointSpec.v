(** Joint distribution of several elements that are derived from independent
    uniform numbers. *)
From Coq Require Import QArith.
From Verif Require Import Base ScalarModel ScalarSpec ViewSpec.
Local Open Scope N_scope.

(** Number of lists of n numbers below m in [E], and their fraction among all of
    them: the probability of [E] for n independent uniform numbers below m. *)
Fixpoint lists_below (m : N) (n : nat) (E : list N -> bool) : N :=
  match n with
  | O => if E [] then 1 else 0
  | S n => sum_below m (fun v => lists_below m n (fun l => E (v :: l)))
  end.
Definition fraction_of_lists (m : N) (n : nat) (E : list N -> bool) : Q :=
  inject_Z (Z.of_N (lists_below m n E)) / inject_Z (Z.of_N (m ^ N.of_nat n)).

(** Probability that [D] accepts n elements obtained from independent uniform
    128-bit values, and n independent uniform elements of the type. *)
Definition joint_hash_prob (t : stype) (n : nat) (D : list (scalar_of t) -> bool) : Q :=
  fraction_of_lists (2^128) n (fun l => D (map (s_of128 (scalar_of t)) l)).
Definition joint_uniform_prob (t : stype) (n : nat) (D : list (scalar_of t) -> bool) : Q :=
  fraction_of_lists (order t) n (fun l => D (map (s_of128 (scalar_of t)) l)).
