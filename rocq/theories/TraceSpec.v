(** Specification vocabulary for what the other party can notice. *)
From Verif Require Import Base.
Local Open Scope Z_scope.

(** Number of oblivious transfers for trees with these numbers of leaves: one per
    level below the root, none for empty trees. *)
Definition ot_count (clog : Z -> Z -> nat) (sizes : list Z) : nat :=
  fold_right Nat.add O (map (fun n => if n =? 0 then O else clog 2 n) sizes).
