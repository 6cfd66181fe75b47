(** Model of /repo/distributed_vector_ole/mpfss_known_indices.h on top of
    SpfssInt.v: MpfssModel.v, which has the int arithmetic of this file, with the
    single-point functions whose loops have int bounds. *)
From Verif Require Import Base ScalarModel ProcModel SpfssModel CuckooModel MpfssModel RotInt SpfssInt.
From Coq Require Import QArith.
Local Open Scope Z_scope.

Section MpfssInt.
  Variable S : scalar.
  Variable aes : N -> N -> N.
  Variable clog : Z -> Z -> nat.
  (** 2^statistical_security *)
  Variable K : Q.
  Variable too_many_bits : Z -> Z -> bool.
  Variable expansion3 expansion2 : Z -> Z.

  (** mpfss_known_indices.h:147-173 *)
  Definition value_provider_body_int (x : S) (w : list S) (buckets : list (list Z)) (output : list S)
    : proc S (res (list S)) :=
    let num_buckets := wrap32 (zlen buckets) in
    recv_vec (fun y_masked =>
    if negb (zlen y_masked =? zlen w) then Ret (UB "Eigen: sizes differ") else
    let val_share := map (fun '(a, b) => s_sub S (s_mul S a x) b) (combine y_masked w) in
    let output := zrepeat (s_zero S) (zlen output) in
    if num_buckets <? 0 then Ret (UB "std::length_error") else
    calc! bucket_outputs := rmapM (fun i => let! b := zget buckets i in Ok (zrepeat (s_zero S) (zlen b)))
                                  (zrange 0 num_buckets) in
    do! bucket_outputs := spfss_value_provider_batched_int S aes clog (K * 2) val_share bucket_outputs in
    Ret (map_back S buckets num_buckets bucket_outputs output)).

  (** mpfss_known_indices.h:140-174 *)
  Definition mpfss_value_provider_int (sizes : list Z) (st : mpfss) (x : S) (y_len : Z) (w output : list S)
    : proc S (mpfss * res (list S)) :=
    if y_len <? 1 then Ret (st, Err (invalid_argument "`y_len` must be positive")) else
    after_update S (update_buckets aes too_many_bits expansion3 expansion2 sizes st (zlen output) y_len) (fun st =>
    value_provider_body_int x w (m_buckets st) output).

  (** mpfss_known_indices.h:199-268 *)
  Definition index_provider_body_int (y : list S) (indices : list Z) (u v : list S)
    (h : hasher) (buckets : list (list Z)) (output : list S) : proc S (res (list S)) :=
    let num_buckets := wrap32 (zlen buckets) in
    calc! hashed_inputs := hash_indices aes too_many_bits h indices num_buckets in
    if num_buckets <? 0 then Ret (UB "std::length_error") else
    calc! y_permuted := permute_y S hashed_inputs num_buckets y in
    if negb (zlen y_permuted =? zlen u) then Ret (UB "Eigen: sizes differ") else
    Send (MVec (map (fun '(a, b) => s_add S a b) (combine y_permuted u)))
    (let output := zrepeat (s_zero S) (zlen output) in
     calc! bucket_outputs := rmapM (fun i => let! b := zget buckets i in Ok (zrepeat (s_zero S) (zlen b)))
                                   (zrange 0 num_buckets) in
     calc! indices_in_buckets := rmapM (index_in_bucket buckets hashed_inputs indices) (zrange 0 num_buckets) in
     do! bucket_outputs := spfss_index_provider_batched_int S aes clog v indices_in_buckets bucket_outputs in
     Ret (map_back S buckets num_buckets bucket_outputs output)).

  (** mpfss_known_indices.h:176-269 *)
  Definition mpfss_index_provider_int (sizes : list Z) (st : mpfss) (y : list S) (indices : list Z) (u v output : list S)
    : proc S (mpfss * res (list S)) :=
    if negb (zlen y =? zlen indices)
    then Ret (st, Err (invalid_argument "`y` and `indices` must have the same size")) else
    if zlen output <? zlen indices
    then Ret (st, Err (invalid_argument "`output` must be at least as long as `indices`")) else
    if zlen y =? 0
    then Ret (st, Err (invalid_argument "`y` and `indices` must not be empty")) else
    if 2^31 <=? zlen indices then Ret (st, UB "number of indices exceeds int") else
    if negb (check_indices indices (zlen output))
    then Ret (st, Err (invalid_argument "`indices[i]` out of range")) else
    after_update S (update_buckets aes too_many_bits expansion3 expansion2 sizes st (zlen output) (zlen y)) (fun st =>
    index_provider_body_int y indices u v (m_hasher st) (m_buckets st) output).
End MpfssInt.
