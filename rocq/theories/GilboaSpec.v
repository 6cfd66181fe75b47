(** Specification vocabulary for the Gilboa product. *)
From Verif Require Import Base ScalarModel ProcModel ProcSpec.
Local Open Scope Z_scope.

(** Number of oblivious transfers for a vector of length [len]: elements of
    [size] bytes, 16 / size of them per transfer, 8 * size transfers each. *)
Definition transfers (size len : Z) : Z :=
  let per_block := 16 / size in 8 * size * ((len + per_block - 1) / per_block).

(** What a receiver with the given choice bits sees of a sender whose only
    message is one batch of OTs. *)
Definition ot_view {T R} (sender : proc T R) (ta : tape T) (choices : list bool) : option (list N) :=
  match solo sender ta with
  | Some ([MOt cot pairs], _, _) => ot_choose cot choices (MOt (T := T) cot pairs)
  | _ => None
  end.

(** A bijection of the 128-bit blocks. *)
Definition block_bijection (f : N -> N) : Prop :=
  exists g, forall x, (x < 2^128 -> f x < 2^128 /\ g x < 2^128 /\ g (f x) = x /\ f (g x) = x)%N.

(** Types that use every bit pattern of their size. *)
Definition full_range (t : stype) : bool :=
  match t with ZZ_p _ | zz_p _ => false | _ => true end.
