(** Probabilities over the random blocks of the Gilboa product's vector provider,
    and what a value provider sees of it. *)
From Coq Require Import QArith.
From Verif Require Import Base ScalarModel ScalarSpec ProcModel ProcSpec GilboaModel GilboaSpec.
Local Open Scope N_scope.

(** f 0 + ... + f (n - 1) *)
Definition sum_below (n : N) (f : N -> N) : N :=
  N.peano_rect (fun _ => N) 0 (fun k c => f k + c) n.

(** Number of lists of n blocks in [E], and their fraction among all of them. *)
Fixpoint outcomes (n : nat) (E : list N -> bool) : N :=
  match n with
  | O => if E [] then 1 else 0
  | S n => sum_below (2^128) (fun b => outcomes n (fun l => E (b :: l)))
  end.
Definition probability (n : nat) (E : list N -> bool) : Q :=
  inject_Z (Z.of_N (outcomes n E)) / inject_Z (2 ^ (128 * Z.of_nat n)).

(** A tape that starts with the given blocks. *)
Definition block_tape {T} (d : T) (blocks : list N) : tape T := fun n => (nth n blocks 0, d).

(** Probability that [D] accepts what a value provider with the given choice bits
    sees of a vector provider that uses correlated OTs. *)
Definition view_probability (t : stype) (K : Q) (y out : list (scalar_of t)) (choices : list bool)
    (D : list N -> bool) : Q :=
  probability (Z.to_nat (transfers (s_size (scalar_of t)) (zlen y))) (fun blocks =>
    match ot_view (gilboa_vector_provider (scalar_of t) K y out) (block_tape (s_zero (scalar_of t)) blocks) choices with
    | Some view => D view
    | None => false
    end).
