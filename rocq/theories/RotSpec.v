(** Specification vocabulary for all-but-one random OT. *)
From Verif Require Import Base ScalarModel ProcModel.

(** Sum of the sizes, without machine arithmetic. *)
Definition size_sum (sizes : list Z) : Z := fold_right Z.add 0 sizes.

(** Tape position of the seed of tree i: two keys come first, then one seed for
    every non-empty tree. *)
Definition seed_pos (sizes : list Z) (i : Z) : nat :=
  2 + List.length (filter (fun n => negb (n =? 0)) (firstn (Z.to_nat i) sizes)).

(** The index of entry i lies inside output i, or output i is empty. *)
Definition valid_index (index size : Z) : Prop := 0 <= index /\ (size = 0 \/ index < size).

(** A size that GGMTree::Create can represent: at most 2^31 leaves, and the
    computed number of levels is sufficient. *)
Definition supported_size (clog : Z -> Z -> nat) (n : Z) : Prop :=
  n <= 2^31 /\ n <= 2 ^ Z.of_nat (clog 2 n).
