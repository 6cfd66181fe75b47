(** Model of /repo/distributed_vector_ole/mpfss_known_indices.h and .cpp.

    The parameters [too_many_bits], [expansion3] and [expansion2] are those of
    CuckooModel.v, for the statistical security of this object. Every function
    returns the object's new state next to its result, since a failed call can
    leave a modified object behind. uint16_t products are those of ScalarModel.v
    (see C53 for the promotion to int in `y_masked * x`). *)
From Verif Require Import Base ScalarModel ProcModel SpfssModel CuckooModel.
From Coq Require Import QArith.
Local Open Scope Z_scope.

(** mpfss_known_indices.h:113-135; spfss_ and channel_ have no state of their own. *)
Record mpfss := Mpfss {
  m_hasher : hasher;
  m_buckets : list (list Z);
  m_cached_output_size : option Z;
  m_cached_num_indices : option Z
}.

(** mpfss_known_indices.h:113-114 *)
Definition kNumHashFunctions : Z := 3.

(** absl::optional comparison in mpfss_known_indices.cpp:70-72 *)
Definition differs (cached : option Z) (z : Z) : bool :=
  match cached with None => true | Some c => negb (c =? z) end.

(** std::lower_bound on a sorted sequence, as a position: the number of leading
    elements that are smaller. *)
Fixpoint lower_bound (l : list Z) (x : Z) : Z :=
  match l with
  | [] => 0
  | y :: l' => if y <? x then 1 + lower_bound l' x else 0
  end.

(** Size of absl::flat_hash_set<int64_t>(indices.begin(), indices.end()). *)
Definition set_size (l : list Z) : Z := zlen (nodup Z.eq_dec l).

(** The status of cuckoo_hasher.h when no place is found. *)
Definition insertion_failed : status :=
  internal_error "Failed to insert element, maximum number of tries exhausted".

Section Mpfss.
  Variable S : scalar.
  Variable aes : N -> N -> N.
  Variable clog : Z -> Z -> nat.
  (** 2^statistical_security as given to Create, which passes one bit more to
      the single-point functions (mpfss_known_indices.cpp:42). *)
  Variable K : Q.
  Variable too_many_bits : Z -> Z -> bool.
  Variable expansion3 expansion2 : Z -> Z.

  (** mpfss_known_indices.cpp:25-28 *)
  Definition mpfss_new (h : hasher) : mpfss := Mpfss h [] None None.

  (** mpfss_known_indices.cpp:30-66 for a non-null channel. [negative_security]:
      the test on statistical_security. The syncs are those at :45 and in
      all_but_one_random_ot.cpp:51; the set-up of the EMP adapter is not
      modelled. *)
  Definition mpfss_create (negative_security : bool) (id peer_id : Z) : proc S (res mpfss) :=
    if negative_security then Ret (Err (invalid_argument "`statistical_security` must not be negative.")) else
    sync (sync (
    if id <? peer_id then
      Rand (fun hasher_seed _ =>
      Send (MBlocks [hasher_seed])
      (calc! hasher := cuckoo_create hasher_seed kNumHashFunctions in
       Ret (Ok (mpfss_new hasher))))
    else
      recv_blocks (fun l =>
      calc! hasher_seed := zget l 0 in
      calc! hasher := cuckoo_create hasher_seed kNumHashFunctions in
      Ret (Ok (mpfss_new hasher))))).

  (** mpfss_known_indices.h:66-68; the int64_t is converted to int. *)
  Definition num_buckets (st : mpfss) (num_indices : Z) : res Z :=
    let! n := get_optimal_number_of_buckets expansion3 expansion2 (m_hasher st) num_indices in
    Ok (wrap32 n).

  (** mpfss_known_indices.cpp:68-85; [sizes] divides the loop of HashSimple
      among the threads. *)
  Definition update_buckets (sizes : list Z) (st : mpfss) (output_size num_indices : Z) : mpfss * res unit :=
    if differs (m_cached_output_size st) output_size || differs (m_cached_num_indices st) num_indices then
      if output_size <? 0 then (st, UB "std::length_error") else
      let all_indices := zrange 0 output_size in
      match get_optimal_number_of_buckets expansion3 expansion2 (m_hasher st) num_indices with
      | Ok num_buckets =>
          match hash_simple aes too_many_bits (m_hasher st) sizes (map uint128_of_int64 all_indices) num_buckets with
          | Ok buckets => (Mpfss (m_hasher st) buckets (Some output_size) (Some num_indices), Ok tt)
          | Err e => (st, Err e)
          | UB w => (st, UB w)
          end
      | Err e => (st, Err e)
      | UB w => (st, UB w)
      end
    else (st, Ok tt).

  (** mpfss_known_indices.h:168-172 and 263-267: map the results back. *)
  Definition map_back (buckets : list (list Z)) (num_buckets : Z) (bucket_outputs : list (list S)) (output : list S) : res (list S) :=
    for_range 0 num_buckets (fun i output =>
      let! bucket := zget buckets i in
      for_range 0 (wrap32 (zlen bucket)) (fun j output =>
        let! p := zget bucket j in
        let! outs := zget bucket_outputs i in
        let! x := zget outs j in
        let! o := zget output p in
        zset output p (s_add S o x)) output) output.

  (** mpfss_known_indices.h:147-173. Eigen's size mismatch is an assertion or a
      read past the end: UB. *)
  Definition value_provider_body (x : S) (w : list S) (buckets : list (list Z)) (output : list S)
    : proc S (res (list S)) :=
    let num_buckets := wrap32 (zlen buckets) in
    recv_vec (fun y_masked =>
    if negb (zlen y_masked =? zlen w) then Ret (UB "Eigen: sizes differ") else
    let val_share := map (fun '(a, b) => s_sub S (s_mul S a x) b) (combine y_masked w) in
    let output := zrepeat (s_zero S) (zlen output) in
    if num_buckets <? 0 then Ret (UB "std::length_error") else
    calc! bucket_outputs := rmapM (fun i => let! b := zget buckets i in Ok (zrepeat (s_zero S) (zlen b)))
                                  (zrange 0 num_buckets) in
    do! bucket_outputs := spfss_value_provider_batched S aes clog (K * 2) val_share bucket_outputs in
    Ret (map_back buckets num_buckets bucket_outputs output)).

  (** The new state next to the result of the rest of the function. *)
  Definition with_state {A} (st : mpfss) (p : proc S (res A)) : proc S (mpfss * res A) :=
    pbind p (fun r => Ret (st, r)).

  (** RETURN_IF_ERROR(UpdateBuckets(...)); *)
  Definition after_update {A} (u : mpfss * res unit) (k : mpfss -> proc S (res A)) : proc S (mpfss * res A) :=
    let '(st, r) := u in
    match r with
    | Ok _ => with_state st (k st)
    | Err e => Ret (st, Err e)
    | UB w => Ret (st, UB w)
    end.

  (** mpfss_known_indices.h:140-174 *)
  Definition mpfss_value_provider (sizes : list Z) (st : mpfss) (x : S) (y_len : Z) (w output : list S)
    : proc S (mpfss * res (list S)) :=
    if y_len <? 1 then Ret (st, Err (invalid_argument "`y_len` must be positive")) else
    after_update (update_buckets sizes st (zlen output) y_len) (fun st =>
    value_provider_body x w (m_buckets st) output).

  (** mpfss_known_indices.h:202-215 *)
  Definition hash_indices (h : hasher) (indices : list Z) (num_buckets : Z) : res (list Z) :=
    match hash_cuckoo aes too_many_bits h (map uint128_of_int64 indices) num_buckets with
    | Err (Status Internal message) =>
        if String.eqb message "Failed to insert element, maximum number of tries exhausted"
           && negb (zlen indices =? set_size indices)
        then Err (invalid_argument "All `indices` must be unique")
        else Err (Status Internal message)
    | r => r
    end.

  (** mpfss_known_indices.h:217-226 *)
  Definition permute_y (hashed_inputs : list Z) (num_buckets : Z) (y : list S) : res (list S) :=
    rmapM (fun i =>
      let! k := zget hashed_inputs i in
      if k =? -1 then Ok (s_zero S) else zget y k) (zrange 0 num_buckets).

  (** mpfss_known_indices.h:240-259, one iteration of the parallel loop: the
      index in bucket i. *)
  Definition index_in_bucket (buckets : list (list Z)) (hashed_inputs indices : list Z) (i : Z) : res Z :=
    let! bucket := zget buckets i in
    if zlen bucket =? 0 then Ok 0 else
    let! k := zget hashed_inputs i in
    if k =? -1 then Ok 0 else
    let! index := zget indices k in
    Ok (lower_bound bucket index).

  (** mpfss_known_indices.h:199-268 *)
  Definition index_provider_body (y : list S) (indices : list Z) (u v : list S)
    (h : hasher) (buckets : list (list Z)) (output : list S) : proc S (res (list S)) :=
    let num_buckets := wrap32 (zlen buckets) in
    calc! hashed_inputs := hash_indices h indices num_buckets in
    if num_buckets <? 0 then Ret (UB "std::length_error") else
    calc! y_permuted := permute_y hashed_inputs num_buckets y in
    if negb (zlen y_permuted =? zlen u) then Ret (UB "Eigen: sizes differ") else
    Send (MVec (map (fun '(a, b) => s_add S a b) (combine y_permuted u)))
    (let output := zrepeat (s_zero S) (zlen output) in
     calc! bucket_outputs := rmapM (fun i => let! b := zget buckets i in Ok (zrepeat (s_zero S) (zlen b)))
                                   (zrange 0 num_buckets) in
     calc! indices_in_buckets := rmapM (index_in_bucket buckets hashed_inputs indices) (zrange 0 num_buckets) in
     do! bucket_outputs := spfss_index_provider_batched S aes clog v indices_in_buckets bucket_outputs in
     Ret (map_back buckets num_buckets bucket_outputs output)).

  (** mpfss_known_indices.h:191-196 *)
  Definition check_indices (indices : list Z) (output_size : Z) : bool :=
    forallb (fun i => negb (output_size <? i)) indices.

  (** mpfss_known_indices.h:176-269. The loop counter at :191 is an int, so for
      2^31 indices or more the check is skipped or overflows: UB here. y.size()
      is converted to int for UpdateBuckets. *)
  Definition mpfss_index_provider (sizes : list Z) (st : mpfss) (y : list S) (indices : list Z) (u v output : list S)
    : proc S (mpfss * res (list S)) :=
    if negb (zlen y =? zlen indices)
    then Ret (st, Err (invalid_argument "`y` and `indices` must have the same size")) else
    if zlen output <? zlen indices
    then Ret (st, Err (invalid_argument "`output` must be at least as long as `indices`")) else
    if zlen y =? 0
    then Ret (st, Err (invalid_argument "`y` and `indices` must not be empty")) else
    if 2^31 <=? zlen indices then Ret (st, UB "number of indices exceeds int") else
    if negb (check_indices indices (zlen output))
    then Ret (st, Err (invalid_argument "`indices[i]` out of range")) else
    after_update (update_buckets sizes st (zlen output) (zlen y)) (fun st =>
    index_provider_body y indices u v (m_hasher st) (m_buckets st) output).

  (** mpfss_known_indices.h:73-77 and 83-89 *)
  Definition mpfss_plain_value_provider : res (list S) :=
    Err (Status Unimplemented "MPFSSKnownIndices::RunValueProvider is unimplemented").
  Definition mpfss_plain_index_provider : res (list S) :=
    Err (Status Unimplemented "MPFSSKnownIndices::RunIndexProvider is unimplemented").
End Mpfss.
