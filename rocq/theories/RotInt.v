(** Model of /repo/distributed_vector_ole/all_but_one_random_ot.h and
    all_but_one_random_ot.cpp with the int arithmetic that RotModel.v leaves out:
    the numbers of outputs and trees are cast to int, and the positions of the
    trees in the batch of oblivious transfers are sums of ints. The parts without
    such arithmetic are those of RotModel.v. *)
From Verif Require Import Base ScalarModel GgmModel ProcModel RotModel GilboaModel.
From Coq Require Import QArith.
Local Open Scope Z_scope.

(** static_cast<int>(l.size()) *)
Definition int_size {A} (l : list A) : Z := wrap32 (zlen l).
(** What for (int i = 0; i < static_cast<int>(l.size()); i++) visits. *)
Definition visited {A} (l : list A) : list A := firstn (Z.to_nat (int_size l)) l.

Section RotInt.
  Variable S : scalar.
  Variable aes : N -> N -> N.
  Variable clog : Z -> Z -> nat.
  (** 2^statistical_security_ *)
  Variable K : Q.

  (** offsets[i] + num_levels - 1 (all_but_one_random_ot.h:202,
      all_but_one_random_ot.cpp:80) *)
  Definition next_offset (offset num_levels : Z) : res Z :=
    let! sum := int_result (offset + num_levels) in
    int_result (sum - 1).

  (** all_but_one_random_ot.h:195-215 *)
  Fixpoint prepare_opts_int (ts : list (option (res tree))) (trees : list (option tree)) (opts : list (N * N)) (offset : Z)
    : res (list (option tree) * list (N * N)) :=
    match ts with
    | [] => Ok (trees, opts)
    | None :: ts' => prepare_opts_int ts' (trees ++ [None]) opts offset
    | Some r :: ts' =>
        let! t := r in
        let! offset' := next_offset offset (num_levels t) in
        let! new := tree_ot_pairs t in
        prepare_opts_int ts' (trees ++ [Some t]) (opts ++ new) offset'
    end.

  (** all_but_one_random_ot.h:155-226. Lines 172-174: the vectors of num_trees and
      num_trees + 1 elements. *)
  Definition send_trees_int (num_leaves : list Z) (arity : nat) : proc S (res (list (option tree))) :=
    if negb (s_can_hash S (security_per_leaf K (total_leaves num_leaves)) 128)
    then Ret (Err (invalid_argument "Cannot ensure statistical security with the given modulus")) else
    let num_trees := int_size num_leaves in
    if num_trees <? 0 then Ret (UB "std::length_error") else
    calc! _ := int_result (num_trees + 1) in
    rand_blocks arity (fun keys =>
    create_trees S aes clog (visited num_leaves) keys (fun ts =>
    calc! (trees, opts) := prepare_opts_int ts [] [] 0 in
    let finish := Send (MBlocks keys) (Ret (Ok trees)) in
    if 0 <? zlen opts then ot_send false opts finish else finish)).

  (** all_but_one_random_ot.cpp:71-88 *)
  Fixpoint all_choices_int (arity : Z) (trees : list (Z * Z)) (choices : list bool) (offsets : list Z) (offset : Z)
    : res (list bool * list Z) :=
    match trees with
    | [] => Ok (choices, offsets)
    | (n, index) :: trees' =>
        if n =? 0 then all_choices_int arity trees' choices (offsets ++ [offset]) offset else
        let! num_levels := int_result (1 + Z.of_nat (clog arity n)) in
        let! offset' := next_offset offset num_levels in
        let! new := tree_choices clog arity n index in
        all_choices_int arity trees' (choices ++ new) (offsets ++ [offset']) offset'
    end.

  (** all_but_one_random_ot.cpp:58-131. Lines 70 and 102: the vectors of
      num_trees + 1 and num_trees elements. *)
  Definition receive_trees_int (num_leaves indices : list Z) (arity : nat) : proc S (res (list (option tree))) :=
    if negb (zlen num_leaves =? zlen indices)
    then Ret (Err (invalid_argument "`num_leaves` and `indices` must have the same size")) else
    let num_trees := int_size num_leaves in
    calc! num_offsets := int_result (num_trees + 1) in
    if num_offsets <? 0 then Ret (UB "std::length_error") else
    calc! (choices, offsets) := all_choices_int (Z.of_nat arity) (visited (combine num_leaves indices)) [] [0] 0 in
    let finish ot_results :=
      recv_blocks (fun keys =>
        if num_trees <? 0 then Ret (UB "std::length_error") else
        Ret (collect (map (fun i =>
          receive_tree aes clog (Z.of_nat arity) choices ot_results offsets keys i (znth 0 num_leaves i) (znth 0 indices i))
          (zrange 0 num_trees)))) in
    if 0 <? zlen choices then ot_recv false choices finish else finish [].

  (** all_but_one_random_ot.h:70-73 and 107-110: the sizes of the outputs; the
      vector is filled with 0 first. *)
  Definition sizes_int (outputs : list (list S)) : list Z :=
    map zlen (visited outputs) ++ zrepeat 0 (zlen outputs - zlen (visited outputs)).

  (** all_but_one_random_ot.h:79-86 and 113-123 *)
  Definition unpack_all_int (trees : list (option tree)) (outputs : list (list S)) : res (list (list S)) :=
    for_range 0 (int_size outputs) (fun i outputs =>
      let! out := zget outputs i in
      if zlen out =? 0 then Ok outputs else
      let! ot := zget trees i in
      match ot with
      | None => UB "null pointer"
      | Some t => let! out := unpack_last_level S t out in zset outputs i out
      end) outputs.

  (** all_but_one_random_ot.h:68-89 *)
  Definition rot_sender_batched_int (outputs : list (list S)) : proc S (res (list (list S))) :=
    do! trees := send_trees_int (sizes_int outputs) 2 in
    Ret (unpack_all_int trees outputs).

  (** all_but_one_random_ot.h:91-126 *)
  Definition rot_receiver_batched_int (indices : list Z) (outputs : list (list S)) : proc S (res (list (list S))) :=
    if negb (zlen outputs =? zlen indices)
    then Ret (Err (invalid_argument "`indices` and `outputs` must have the same size")) else
    if existsb (fun '(index, out) => bad_index index (zlen out)) (visited (combine indices outputs))
    then Ret (Err (invalid_argument "`indices[i]` out of range")) else
    do! trees := receive_trees_int (sizes_int outputs) indices 2 in
    Ret (unpack_all_int trees outputs).
End RotInt.
