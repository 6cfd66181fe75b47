(** Model of /repo/distributed_vector_ole/all_but_one_random_ot.h,
    all_but_one_random_ot.cpp and internal/all_but_one_random_ot_internal.h.

    An emp::block is identified with the 128-bit number of the conversions of
    EmpBlockModel.v (a bijection, C06). Output spans are lists; the functions
    return the new contents of all output spans. Numbers of trees, and the
    total number of tree levels (the int offsets), are assumed to fit in int
    (RotInt.v lifts this).
    OpenMP loops write disjoint slots and are executed in index order (C52);
    the seeds drawn inside the parallel loop are attributed in index order. *)
From Verif Require Import Base ScalarModel GgmModel ProcModel.
From Coq Require Import QArith.
Local Open Scope Z_scope.

(** std::accumulate(num_leaves.begin(), num_leaves.end(), 0): the accumulator
    has type int (all_but_one_random_ot.h:160-161). *)
Definition total_leaves (sizes : list Z) : Z :=
  fold_left (fun acc n => wrap32 (acc + n)) sizes 0.

(** 2^(log2(double(total)) + statistical_security) for K = 2^statistical_security
    (all_but_one_random_ot.h:164-165); log2 of a negative number is NaN. *)
Definition security_per_leaf (K : Q) (total : Z) : option Q :=
  if total <? 0 then None else Some (inject_Z total * K)%Q.

Section Rot.
  Variable S : scalar.
  Variable aes : N -> N -> N.
  Variable clog : Z -> Z -> nat.
  (** 2^statistical_security_ *)
  Variable K : Q.

  (** all_but_one_random_ot_internal.h:43-50; ValueOrDie aborts on an error. *)
  Definition unpack_last_level (t : tree) (output : list S) : res (list S) :=
    for_range 0 (num_leaves t) (fun i output =>
      match get_value_at_leaf t i with
      | Ok leaf => zset output i (s_of128 S leaf)
      | _ => UB "ValueOrDie"
      end) output.

  (** all_but_one_random_ot.h:179-190: one random seed per non-empty tree. *)
  Fixpoint create_trees (sizes : list Z) (keys : list N) (k : list (option (res tree)) -> proc S (res (list (option tree))))
    : proc S (res (list (option tree))) :=
    match sizes with
    | [] => k []
    | n :: sizes' =>
        if n =? 0 then create_trees sizes' keys (fun l => k (None :: l))
        else Rand (fun seed _ =>
               create_trees sizes' keys (fun l => k (Some (ggm_create aes clog n seed keys) :: l)))
    end.

  (** all_but_one_random_ot.h:206-214: OT messages of one tree. *)
  Definition tree_ot_pairs (t : tree) : res (list (N * N)) :=
    let! xors := get_sibling_wise_xor t in
    rmapM (fun j =>
      let! row := zget xors j in
      let! x0 := zget row 0 in
      let! x1 := zget row 1 in
      Ok (x0, x1)) (zrange 0 (num_levels t - 1)).

  (** all_but_one_random_ot.h:195-215: trees and OT messages, in order; the
      offsets are the lengths of the concatenated prefix. *)
  Fixpoint prepare_opts (ts : list (option (res tree))) (trees : list (option tree)) (opts : list (N * N))
    : res (list (option tree) * list (N * N)) :=
    match ts with
    | [] => Ok (trees, opts)
    | None :: ts' => prepare_opts ts' (trees ++ [None]) opts
    | Some r :: ts' =>
        let! t := r in
        let! new := tree_ot_pairs t in
        prepare_opts ts' (trees ++ [Some t]) (opts ++ new)
    end.

  (** all_but_one_random_ot.h:155-226 *)
  Definition send_trees (num_leaves : list Z) (arity : nat) : proc S (res (list (option tree))) :=
    if negb (s_can_hash S (security_per_leaf K (total_leaves num_leaves)) 128)
    then Ret (Err (invalid_argument "Cannot ensure statistical security with the given modulus")) else
    rand_blocks arity (fun keys =>
    create_trees num_leaves keys (fun ts =>
    calc! (trees, opts) := prepare_opts ts [] [] in
    let finish := Send (MBlocks keys) (Ret (Ok trees)) in
    if 0 <? zlen opts then ot_send false opts finish else finish)).

  (** all_but_one_random_ot.cpp:78-87: the choice bits of one tree. *)
  Definition tree_choices (arity n index : Z) : res (list bool) :=
    let num_levels := 1 + Z.of_nat (clog arity n) in
    for_range 0 (num_levels - 1) (fun j choices =>
      zset choices (num_levels - 2 - j) (negb (Z.testbit index j)))
      (zrepeat false (num_levels - 1)).

  (** all_but_one_random_ot.cpp:71-88 *)
  Fixpoint all_choices (arity : Z) (trees : list (Z * Z)) (choices : list bool) (offsets : list Z)
    : res (list bool * list Z) :=
    match trees with
    | [] => Ok (choices, offsets)
    | (n, index) :: trees' =>
        if n =? 0 then all_choices arity trees' choices (offsets ++ [zlen choices]) else
        let! new := tree_choices arity n index in
        all_choices arity trees' (choices ++ new) (offsets ++ [zlen choices + zlen new])
    end.

  (** all_but_one_random_ot.cpp:104-127, iteration i. *)
  Definition receive_tree (arity : Z) (choices : list bool) (ot_results : list N) (offsets : list Z)
      (keys : list N) (i : Z) (n index : Z) : res (option tree) :=
    if n =? 0 then Ok None else
    let! off := zget offsets i in
    let! off' := zget offsets (i + 1) in
    let num_levels := off' - off + 1 in
    let! xors := for_range 0 (num_levels - 1) (fun j xors =>
      let! c := zget choices (off + j) in
      let! x := zget ot_results (off + j) in
      let! row := zget xors j in
      let! row := zset row (if c then 1 else 0) x in
      zset xors j row) (zrepeat (zrepeat 0%N arity) (num_levels - 1)) in
    let! t := ggm_reconstruct aes clog arity n index xors keys in
    Ok (Some t).

  (** all_but_one_random_ot.cpp:101-131: any failure wins over success. *)
  Fixpoint collect (l : list (res (option tree))) : res (list (option tree)) :=
    match l with
    | [] => Ok []
    | r :: l' =>
        match collect l' with
        | Ok ts => match r with Ok t => Ok (t :: ts) | Err s => Err s | UB w => UB w end
        | Err s => match r with UB w => UB w | _ => Err s end
        | UB w => UB w
        end
    end.

  (** all_but_one_random_ot.cpp:58-131. recv_data at :99 reads as many bytes as the
      keys of [arity] have; here the whole message is read. Messages of another
      length, of which a part would be left, are not considered. *)
  Definition receive_trees (num_leaves indices : list Z) (arity : nat) : proc S (res (list (option tree))) :=
    if negb (zlen num_leaves =? zlen indices)
    then Ret (Err (invalid_argument "`num_leaves` and `indices` must have the same size")) else
    calc! (choices, offsets) := all_choices (Z.of_nat arity) (combine num_leaves indices) [] [0] in
    let finish ot_results :=
      recv_blocks (fun keys =>
        Ret (collect (map (fun i =>
          receive_tree (Z.of_nat arity) choices ot_results offsets keys i (znth 0 num_leaves i) (znth 0 indices i))
          (zrange 0 (zlen num_leaves))))) in
    if 0 <? zlen choices then ot_recv false choices finish else finish [].

  (** all_but_one_random_ot.h:79-86 and 113-123 *)
  Definition unpack_all (trees : list (option tree)) (outputs : list (list S)) : res (list (list S)) :=
    for_range 0 (zlen outputs) (fun i outputs =>
      let! out := zget outputs i in
      if zlen out =? 0 then Ok outputs else
      let! ot := zget trees i in
      match ot with
      | None => UB "null pointer"
      | Some t => let! out := unpack_last_level t out in zset outputs i out
      end) outputs.

  (** all_but_one_random_ot.h:68-89 *)
  Definition rot_sender_batched (outputs : list (list S)) : proc S (res (list (list S))) :=
    do! trees := send_trees (map zlen outputs) 2 in
    Ret (unpack_all trees outputs).

  (** all_but_one_random_ot.h:59-62 / 99-102 *)
  Definition bad_index (index size : Z) : bool :=
    (index <? 0) || ((size <=? index) && negb (size =? 0)).

  (** all_but_one_random_ot.h:91-126 *)
  Definition rot_receiver_batched (indices : list Z) (outputs : list (list S)) : proc S (res (list (list S))) :=
    if negb (zlen outputs =? zlen indices)
    then Ret (Err (invalid_argument "`indices` and `outputs` must have the same size")) else
    if existsb (fun '(index, out) => bad_index index (zlen out)) (combine indices outputs)
    then Ret (Err (invalid_argument "`indices[i]` out of range")) else
    do! trees := receive_trees (map zlen outputs) indices 2 in
    Ret (unpack_all trees outputs).

  (** The single span passed as a batch of one (all_but_one_random_ot.h:52, 64). *)
  Definition hd_output (outs : list (list S)) : proc S (res (list S)) :=
    match outs with o :: _ => Ret (Ok o) | [] => Ret (UB "empty batch") end.
  (** all_but_one_random_ot.h:50-53 *)
  Definition rot_sender (output : list S) : proc S (res (list S)) :=
    do! outs := rot_sender_batched [output] in hd_output outs.
  (** all_but_one_random_ot.h:58-66 *)
  Definition rot_receiver (index : Z) (output : list S) : proc S (res (list S)) :=
    if bad_index index (zlen output)
    then Ret (Err (invalid_argument "`index` out of range")) else
    do! outs := rot_receiver_batched [index] [output] in hd_output outs.
End Rot.
