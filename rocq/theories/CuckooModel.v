(** Model of /repo/distributed_vector_ole/cuckoo_hasher.h and .cpp.

    Inputs are given by their conversion to absl::uint128. AES_set_encrypt_key
    does not fail for 128-bit keys, so Create keeps the seed. The double
    computations are abstracted: [too_many_bits] is the test
    `bits_needed > 128` (cuckoo_hasher.h:137-139 and 190-192) as a function of
    the number of inputs and of buckets, [expansion3] and [expansion2] are the
    formulas of GetOptimalNumberOfBuckets; FloatModel.v models all of them. *)
From Verif Require Import Base.
Local Open Scope Z_scope.

(** Conversion of an int64_t to absl::uint128: sign extension. *)
Definition uint128_of_int64 (z : Z) : N := Z.to_N (z mod 2^128).

(** cuckoo_hasher.h:101-107, cuckoo_hasher.cpp:26-30 *)
Record hasher := Hasher { ch_seed : N; ch_num_hash_functions : Z }.

(** cuckoo_hasher.cpp:32-46 *)
Definition cuckoo_create (seed : N) (num_hash_functions : Z) : res hasher :=
  if num_hash_functions <=? 0
  then Err (invalid_argument "`num_hash_functions` must be positive")
  else Ok (Hasher seed num_hash_functions).

Section Cuckoo.
  Variable aes : N -> N -> N.
  Variable too_many_bits : Z -> Z -> bool.
  Variable h : hasher.
  Let num := ch_num_hash_functions h.

  (** cuckoo_hasher.h:233-242 *)
  Definition hash_to_uint128 (x : N) : N := N.lxor (aes (ch_seed h) x) x.

  (** cuckoo_hasher.cpp:48-56; the result is converted to int64_t. *)
  Definition hash_to_bucket (hash : N) (num_buckets : Z) (hash_function : Z) : Z :=
    let hash := if 0 <? hash_function
                then hash_to_uint128 (N.lxor hash (Z.to_N hash_function))
                else hash in
    wrap64 (Z.of_N ((hash mod Z.to_N num_buckets) mod 2^64)%N).

  (** cuckoo_hasher.h:111-129: body of the parallel loop, for input i. *)
  Definition hash_row (inputs : list N) (num_buckets : Z) (i : Z) (result : list (list Z)) : res (list (list Z)) :=
    let! x := zget inputs i in
    let current_hash := hash_to_uint128 x in
    for_range 0 num (fun j result =>
      let! row := zget result i in
      let! row := zset row j (hash_to_bucket current_hash num_buckets j) in
      zset result i row) result.
  (** cuckoo_hasher.h:111-129; iterations in index order, see hash_any_order
      in CuckooProofs.v for other orders. *)
  Definition hash (inputs : list N) (num_buckets : Z) : res (list (list Z)) :=
    if num_buckets <=? 0 then Err (invalid_argument "`num_buckets` must be positive") else
    for_range 0 (zlen inputs) (hash_row inputs num_buckets)
      (zrepeat (zrepeat 0 num) (zlen inputs)).

  (** v[b].push_back(i) *)
  Definition push (b : Z) (xs : list Z) (v : list (list Z)) : res (list (list Z)) :=
    let! l := zget v b in zset v b (l ++ xs).

  (** cuckoo_hasher.h:150-159: the buckets of a thread whose part of the loop is
      [lo, hi). *)
  Definition thread_result (hashes : list (list Z)) (num_buckets lo hi : Z) : res (list (list Z)) :=
    for_range lo hi (fun i v =>
      for_range 0 num (fun j v =>
        let! row := zget hashes i in
        let! b := zget row j in
        push b [i] v) v) (zrepeat [] num_buckets).

  (** cuckoo_hasher.h:160-169: the threads append their buckets in order. *)
  Fixpoint merge_threads (num_buckets : Z) (threads : list (list (list Z))) (result : list (list Z)) : res (list (list Z)) :=
    match threads with
    | [] => Ok result
    | t :: threads' =>
        let! result := for_range 0 num_buckets (fun i result =>
          let! l := zget t i in push i l result) result in
        merge_threads num_buckets threads' result
    end.

  (** schedule(static) without a chunk size: one contiguous chunk per thread,
      in thread order; [sizes] are the chunk sizes. *)
  Fixpoint chunk_bounds (lo : Z) (sizes : list Z) : list (Z * Z) :=
    match sizes with
    | [] => []
    | n :: sizes' => (lo, lo + n) :: chunk_bounds (lo + n) sizes'
    end.

  (** cuckoo_hasher.h:131-173 *)
  Definition hash_simple (sizes : list Z) (inputs : list N) (num_buckets : Z) : res (list (list Z)) :=
    if num_buckets <=? 0 then Err (invalid_argument "`num_buckets` must be positive") else
    if too_many_bits (zlen inputs) num_buckets
    then Err (invalid_argument "The current hash function only supports 128 bits") else
    let! hashes := hash inputs num_buckets in
    let! threads := rmapM (fun '(lo, hi) => thread_result hashes num_buckets lo hi) (chunk_bounds 0 sizes) in
    merge_threads num_buckets threads (zrepeat [] num_buckets).

  (** cuckoo_hasher.h:207-227: the loop over `tries`, with the number of tries
      that are left. *)
  Fixpoint insert (hashes : list (list Z)) (tries_left : nat) (current_element current_hash_function : Z)
      (buckets next_hash_function : list Z) : res (list Z * list Z) :=
    match tries_left with
    | O => Err (internal_error "Failed to insert element, maximum number of tries exhausted")
    | Datatypes.S tries_left' =>
        let! row := zget hashes current_element in
        let! index := zget row current_hash_function in
        let! there := zget buckets index in
        if there =? -1 then
          let! buckets := zset buckets index current_element in
          Ok (buckets, next_hash_function)
        else
          let! buckets := zset buckets index current_element in
          let! next := zget next_hash_function index in
          let! next_hash_function := zset next_hash_function index (Z.rem (current_hash_function + 1) num) in
          insert hashes tries_left' there next buckets next_hash_function
    end.

  (** cuckoo_hasher.h:175-231 *)
  Definition hash_cuckoo (inputs : list N) (num_buckets : Z) : res (list Z) :=
    if num =? 1 then Err (invalid_argument "`HashCuckoo` can only be called when at least 2 hash functions were specified at construction") else
    if num_buckets <=? 0 then Err (invalid_argument "`num_buckets` must be positive") else
    if num_buckets <? zlen inputs then Err (invalid_argument "`inputs.size()` must not be larger than `num_buckets`") else
    if too_many_bits (zlen inputs) num_buckets
    then Err (invalid_argument "The current hash function only supports 128 bits") else
    let! hashes := hash inputs num_buckets in
    let! (buckets, _) := for_range 0 (zlen inputs) (fun i '(buckets, next_hash_function) =>
      insert hashes (List.length inputs) i 0 buckets next_hash_function)
      (zrepeat (-1) num_buckets, zrepeat 0 num_buckets) in
    Ok buckets.
End Cuckoo.

Section NumBuckets.
  (** ceil((statistical_security_ - b) / a * num_inputs) for 3 hash functions
      (cuckoo_hasher.cpp:72-91) *)
  Variable expansion3 : Z -> Z.
  (** The result for 2 hash functions (cuckoo_hasher.cpp:92-111). The search loop
      is modelled in FloatModel.v. *)
  Variable expansion2 : Z -> Z.

  (** cuckoo_hasher.cpp:58-116 *)
  Definition get_optimal_number_of_buckets (h : hasher) (num_inputs : Z) : res Z :=
    if num_inputs <? 0 then Err (invalid_argument "`num_inputs` must be positive") else
    if num_inputs =? 0 then Ok 1 else
    if ch_num_hash_functions h =? 3 then Ok (expansion3 num_inputs) else
    if ch_num_hash_functions h =? 2 then Ok (expansion2 num_inputs) else
    Err (Status Unimplemented "Automatic estimation of the number of buckets only implemented for 2 or 3 hash functions.").
End NumBuckets.
