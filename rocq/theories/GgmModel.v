(** Model of /repo/distributed_vector_ole/ggm_tree.h and ggm_tree.cpp.
    A GGMTree::Block (absl::uint128, ggm_tree.h:51) is an N below 2^128.

    Simplifications: AES_set_encrypt_key never fails (it fails only for null
    pointers or unsupported key sizes; ggm_tree.cpp:111-114, 163-166), so an
    expanded key is represented by the key itself; int64_t products of node
    indices do not overflow (they are bounded by arity times the number of
    allocated blocks); std::pow(arity, k) (line 144) is exact; the OpenMP-free
    loops are executed in program order. *)
From Verif Require Import Base.

(** class GGMTree, data members (ggm_tree.h:121-137). num_leaves_ and
    num_levels_ are functions of levels_ (constructor, ggm_tree.cpp:196-203). *)
Record tree := Tree {
  t_arity : Z;
  t_levels : list (list N);
  t_keys : list N;
  t_expanded_keys : list N
}.

(** ggm_tree.cpp:196-203 *)
Definition mk_tree (levels : list (list N)) (keys expanded : list N) : tree :=
  Tree (zlen keys) levels keys expanded.
Definition num_levels (t : tree) : Z := zlen (t_levels t).
Definition num_leaves (t : tree) : Z := zlen (last (t_levels t) []).

(** ggm_tree.h:110 *)
Definition level_size (levels : list (list N)) (level : Z) : res Z :=
  let! lv := zget levels level in Ok (zlen lv).

Section Ggm.
  (** AES_encrypt with a given key: an arbitrary function of key and block. *)
  Variable aes : N -> N -> N.
  (** ceil(log(num_leaves) / log(arity)) as computed in double precision
      (ggm_tree.cpp:43): an arbitrary function, see FloatModel.v; it is nonnegative because
      num_leaves >= 1 and arity >= 2 at both call sites. *)
  Variable clog : Z -> Z -> nat.

  (** ggm_tree.cpp:46-54: sizes of levels 0..k-1, the last one being [num]. *)
  Fixpoint alloc_sizes (k : nat) (arity num : Z) (acc : list Z) : list Z :=
    match k with
    | O => acc
    | S k' => alloc_sizes k' arity (Z.quot (num + arity - 1) arity) (num :: acc)
    end.

  (** ggm_tree.cpp:40-61 *)
  Definition allocate_levels (arity num_leaves : Z) : res (list (list N)) :=
    let num_levels := S (clog arity num_leaves) in
    let levels := map (fun n => zrepeat 0%N n) (alloc_sizes num_levels arity num_leaves []) in
    let! l0 := zget levels 0 in
    if negb (zlen l0 =? 1)
    then Err (internal_error "First level should always have one block")
    else Ok levels.

  (** ggm_tree.cpp:64-82. [int child] (line 78) truncates to 32 bits. *)
  Definition xor_blocks (inp out : list N) : res (list N) :=
    let batch_size := zlen out in
    if batch_size =? 0 then UB "division by zero" else
    let num_batches := Z.quot (zlen inp + batch_size - 1) batch_size in
    for_range 0 num_batches (fun batch out =>
      let num_blocks := Z.min batch_size (zlen inp - batch * batch_size) in
      for_range 0 num_blocks (fun block out =>
        let child := wrap32 (batch * batch_size + block) in
        let! x := zget out block in
        let! y := zget inp child in
        zset out block (N.lxor x y)) out) out.

  (** ggm_tree.cpp:85-91 *)
  Definition compute_prg (seed key : N) : N := N.lxor (aes key seed) seed.

  (** levels_[level][node] = v *)
  Definition set_node (levels : list (list N)) (level node : Z) (v : N) : res (list (list N)) :=
    let! lv := zget levels level in
    let! lv' := zset lv node v in
    zset levels level lv'.
  Definition get_node (levels : list (list N)) (level node : Z) : res N :=
    let! lv := zget levels level in zget lv node.

  (** ggm_tree.cpp:215-223: children of one node. *)
  Definition expand_node (arity : Z) (ekeys : list N) (level node : Z) (levels : list (list N))
    : res (list (list N)) :=
    let! next := level_size levels (level + 1) in
    let num_siblings := Z.min arity (next - node * arity) in
    for_range 0 num_siblings (fun s levels =>
      let! seed := get_node levels level node in
      let! key := zget ekeys s in
      set_node levels (level + 1) (arity * node + s) (compute_prg seed key)) levels.

  (** ggm_tree.cpp:205-228; loop state (levels, start_node, max_node_index). *)
  Definition expand_subtree (arity : Z) (ekeys : list N) (start_level start_node : Z)
      (levels : list (list N)) : res (list (list N)) :=
    let! st := for_range start_level (zlen levels - 1) (fun level '(levels, start, max) =>
      let! sz := level_size levels level in
      let max := Z.min max sz in
      let! levels := for_range start max (fun node levels =>
        expand_node arity ekeys level node levels) levels in
      Ok (levels, start * arity, max * arity)) (levels, start_node, start_node + 1) in
    Ok (fst (fst st)).

  (** ggm_tree.cpp:95-121 *)
  Definition ggm_create (num_leaves : Z) (seed : N) (keys : list N) : res tree :=
    let arity := zlen keys in
    if arity <? 2 then Err (invalid_argument "arity must be at least 2") else
    if num_leaves <=? 0 then Err (invalid_argument "num_leaves must be positive") else
    let! levels := allocate_levels arity num_leaves in
    let! levels := set_node levels 0 0 seed in
    let t := mk_tree levels keys keys in
    let! levels := expand_subtree (t_arity t) (t_expanded_keys t) 0 0 (t_levels t) in
    Ok (Tree (t_arity t) levels (t_keys t) (t_expanded_keys t)).

  (** ggm_tree.cpp:153-157; int64_t division truncates towards zero. *)
  Fixpoint missing_path_down (k : nat) (arity idx : Z) (acc : list Z) : list Z :=
    match k with
    | O => acc
    | S k' => missing_path_down k' arity (Z.quot idx arity) (idx :: acc)
    end.
  Definition missing_path (num_levels : nat) (arity missing_index : Z) : list Z :=
    missing_path_down num_levels arity missing_index [].

  (** ggm_tree.cpp:161-167: copies keys_copy[0..arity-1]. *)
  Definition expand_keys (arity : Z) (keys : list N) : res (list N) :=
    rmapM (fun i => zget keys i) (zrange 0 arity).

  (** ggm_tree.cpp:183-191: body of the loop over siblings. *)
  Definition reconstruct_sibling (tree_arity : Z) (ekeys : list N) (path : list Z)
      (cur row : list N) (level node_base s : Z) (levels : list (list N)) : res (list (list N)) :=
    let! p := zget path level in
    if node_base + s =? p then Ok levels else
    let! c := zget cur s in
    let! x := zget row s in
    let! levels := set_node levels level (node_base + s) (N.lxor c x) in
    expand_subtree tree_arity ekeys level (node_base + s) levels.

  (** ggm_tree.cpp:176-192: body of the loop over levels. *)
  Definition reconstruct_level (arity tree_arity : Z) (ekeys : list N) (path : list Z)
      (xors : list (list N)) (level : Z) (levels : list (list N)) : res (list (list N)) :=
    let! lv := zget levels level in
    let! cur := xor_blocks lv (zrepeat 0%N arity) in
    let! pp := zget path (level - 1) in
    let node_base := pp * arity in
    let! sz := level_size levels level in
    let num_siblings := wrap32 (Z.min arity (sz - node_base)) in
    let! row := zget xors (level - 1) in
    for_range 0 num_siblings (fun s levels =>
      reconstruct_sibling tree_arity ekeys path cur row level node_base s levels) levels.

  (** ggm_tree.cpp:123-194. The assert of line 171 is UB "assert". *)
  Definition ggm_reconstruct (arity num_leaves missing_index : Z)
      (xors : list (list N)) (keys : list N) : res tree :=
    if arity <? 2 then Err (invalid_argument "arity must be at least 2") else
    if num_leaves <=? 0 then Err (invalid_argument "`num_leaves` must be positive") else
    if num_leaves <=? missing_index
    then Err (invalid_argument "`missing_index` must be smaller than `num_leaves`") else
    let num_levels := zlen xors + 1 in
    if negb (forallb (fun row => zlen row =? arity) xors)
    then Err (invalid_argument "All elements of `sibling_wise_xors` must have length `arity`") else
    if arity ^ (num_levels - 1) <? num_leaves
    then Err (invalid_argument "Dimensions passed in `sibling_wise_xors` to small for `num_leaves`") else
    if zlen keys =? 0 then Err (invalid_argument "`keys` must not be empty") else
    let path := missing_path (Z.to_nat num_levels) arity missing_index in
    let! ekeys := expand_keys arity keys in
    let! levels := allocate_levels arity num_leaves in
    let t := mk_tree levels keys ekeys in
    if negb (zlen levels =? num_levels) then UB "assert" else
    let! levels := for_range 1 num_levels
      (reconstruct_level arity (t_arity t) ekeys path xors) levels in
    Ok (Tree (t_arity t) levels (t_keys t) (t_expanded_keys t)).

  (** ggm_tree.cpp:230-240 *)
  Definition get_value_at_node (t : tree) (level node : Z) : res N :=
    if (level <? 0) || (num_levels t <=? level)
    then Err (invalid_argument "level_index out of range") else
    let! lv := zget (t_levels t) level in
    if (node <? 0) || (zlen lv <=? node)
    then Err (invalid_argument "node_index out of range") else
    zget lv node.

  (** ggm_tree.h:92-94 *)
  Definition get_value_at_leaf (t : tree) (leaf : Z) : res N :=
    get_value_at_node t (num_levels t - 1) leaf.

  (** ggm_tree.cpp:242-250 *)
  Definition get_sibling_wise_xor (t : tree) : res (list (list N)) :=
    rmapM (fun l =>
      let! lv := zget (t_levels t) (l + 1) in
      xor_blocks lv (zrepeat 0%N (t_arity t)))
      (zrange 0 (num_levels t - 1)).
End Ggm.
