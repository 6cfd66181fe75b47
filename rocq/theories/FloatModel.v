(** The computations of /repo with doubles. The other models use exact
    comparisons, or parameters, in their place; the theorems about this file
    relate the two.

    [log], [log2], [pow], [erf] and [sqrt] are the functions of the C library,
    given by their results for finite arguments. A decimal literal is the double
    nearest to it. Where only finite values can occur, doubles are written as
    real numbers and every operation is followed by [nearest]. Multiplications and
    additions are not fused. *)
From Coq Require Import ZArith NArith Reals.
From Flocq.Core Require Import Core.
From Verif Require Import Base ScalarModel FloatSpec.
Local Open Scope R_scope.

(** ** Levels of the tree *)
(** 1 + std::ceil(std::log(num_leaves) / std::log(arity)), converted to int
    (ggm_tree.cpp:42-43, all_but_one_random_ot.cpp:78-79). *)
Definition num_levels_double (log : R -> R) (arity num_leaves : Z) : Z :=
  let quotient := nearest (log (nearest (IZR num_leaves)) / log (nearest (IZR arity))) in
  Ztrunc (nearest (1 + IZR (Zceil quotient))).

(** The parameter [clog] of GgmModel.v and RotModel.v. *)
Definition clog_double (log : R -> R) (arity num_leaves : Z) : nat :=
  Z.to_nat (num_levels_double log arity num_leaves - 1).

(** std::pow(arity, num_levels - 1) < num_leaves (ggm_tree.cpp:144). *)
Definition too_few_levels (pow : R -> R -> R) (arity levels num_leaves : Z) : bool :=
  Rlt_bool (pow (nearest (IZR arity)) (nearest (IZR (levels - 1)))) (nearest (IZR num_leaves)).

(** ** Statistical security *)
(** std::log2(x): -infinity at zero, NaN for negative arguments. *)
Definition dlog2 (log2 : R -> R) (x : double) : double :=
  match x with
  | Fin x => if Rlt_dec x 0 then NaN else if Req_EM_T x 0 then Inf true else Fin (log2 x)
  | Inf false => Inf false
  | Inf true | NaN => NaN
  end.

(** scalar_helpers.h:132-137 and 158-163, for the modulus truncated to 128 bits:
    hash_bits - std::log2(double(rem)) > statistical_security. *)
Definition can_hash_ntl_double (log2 : R -> R) (modulus : N) (statistical_security : double) (hash_bits : Z) : bool :=
  (let max_value := 2^128 - 1 in
   let max_value := if (hash_bits <? 128)%Z then max_value / 2 ^ Z.to_N hash_bits else max_value in
   let rem := ((max_value mod modulus) + 1) mod modulus in
   dlt statistical_security (dsub (of_int hash_bits) (dlog2 log2 (of_int (Z.of_N rem)))))%N.

(** ScalarHelper<T>::CanBeHashedInto for the type t (scalar_helpers.h:66-70,
    93-96, 122-138, 155-164). *)
Definition can_be_hashed_into (log2 : R -> R) (t : stype) (statistical_security : double) (hash_bits : Z) : bool :=
  match t with
  | ZZ_p p =>
      (let modulus_low := Npos p mod 2^64 in
       let modulus_high := N.shiftr (Npos p) 64 mod 2^64 in
       let modulus := modulus_high * 2^64 + modulus_low in
       if modulus =? 0 then true else can_hash_ntl_double log2 modulus statistical_security hash_bits)%N
  | zz_p p => can_hash_ntl_double log2 (Npos p) statistical_security hash_bits
  | GF128 _ => (128 <=? hash_bits)%Z
  | UInt8 => (8 <=? hash_bits)%Z
  | UInt16 => (16 <=? hash_bits)%Z
  | UInt32 => (32 <=? hash_bits)%Z
  | UInt64 => (64 <=? hash_bits)%Z
  | UInt128 => (128 <=? hash_bits)%Z
  end.

(** std::log2(double(total)) + statistical_security_ (all_but_one_random_ot.h:164-165,
    scalar_vector_gilboa_product.h:87-88, distributed_vector_ole.h:385-387). *)
Definition security_per_element (log2 : R -> R) (statistical_security : double) (total : Z) : double :=
  dadd (dlog2 log2 (of_int total)) statistical_security.

(** statistical_security += std::log2(3) (distributed_vector_ole.h:216). *)
Definition vole_security (log2 : R -> R) (statistical_security : double) : double :=
  dadd statistical_security (dlog2 log2 (of_int 3)).

(** The security with which MPFSSKnownIndices::Create creates its hasher and its
    single-point functions (mpfss_known_indices.cpp:42-62), if called by
    DistributedVectorOLE::Create (distributed_vector_ole.h:229). *)
Definition mpfss_security (log2 : R -> R) (statistical_security : double) : double :=
  dadd (vole_security log2 statistical_security) (of_int 1).

(** statistical_security_ + std::log2(inputs.size()) + std::log2(num_hash_functions_) +
    std::log2(num_buckets) > 128 (cuckoo_hasher.h:137-139 and 190-192): the
    parameter [too_many_bits] of CuckooModel.v. *)
Definition too_many_bits_double (log2 : R -> R) (statistical_security : double) (num_hash_functions : Z)
    (num_inputs num_buckets : Z) : bool :=
  let bits_needed :=
    dadd (dadd (dadd statistical_security (dlog2 log2 (of_int num_inputs)))
               (dlog2 log2 (of_int num_hash_functions)))
         (dlog2 log2 (of_int num_buckets)) in
  dlt (of_int 128) bits_needed.

(** ** Create *)
(** The checks with which Create starts in AllButOneRandomOT
    (all_but_one_random_ot.cpp:43-49), SPFSSKnownIndex (spfss_known_index.cpp:28-34),
    ScalarVectorGilboaProduct (scalar_vector_gilboa_product.cpp:33-39),
    MPFSSKnownIndices (mpfss_known_indices.cpp:33-39) and DistributedVectorOLE
    (distributed_vector_ole.h:207-213). *)
Definition check_arguments (channel_is_null : bool) (statistical_security : double) : res unit :=
  if channel_is_null then Err (invalid_argument "`channel` must not be NULL") else
  if dlt statistical_security (Fin 0) then Err (invalid_argument "`statistical_security` must not be negative.") else
  Ok tt.

(** What the objects created by these functions remember of the statistical
    security. The channel is not used, communication does not fail. *)
(** all_but_one_random_ot.cpp:41-56 *)
Definition rot_create_security (null : bool) (s : double) : res double :=
  let! _ := check_arguments null s in Ok s.
(** spfss_known_index.cpp:26-40 *)
Definition spfss_create_security (null : bool) (s : double) : res double :=
  let! _ := check_arguments null s in rot_create_security null s.
(** scalar_vector_gilboa_product.cpp:31-46 *)
Definition gilboa_create_security (null : bool) (s : double) : res double :=
  let! _ := check_arguments null s in Ok s.
(** mpfss_known_indices.cpp:30-66: the security of the random OTs and that of the
    hasher. CuckooHasher::Create (cuckoo_hasher.cpp:32-46) does not check it. *)
Definition mpfss_create_security (null : bool) (s : double) : res (double * double) :=
  let! _ := check_arguments null s in
  let s := dadd s (of_int 1) in
  let! rot := spfss_create_security null s in
  Ok (rot, s).
(** distributed_vector_ole.h:203-235: the security of the generator itself, of the
    Gilboa product, of the random OTs and of the hasher. *)
Definition vole_create_security (log2 : R -> R) (null : bool) (s : double) : res (double * double * (double * double)) :=
  let! _ := check_arguments null s in
  let s := vole_security log2 s in
  let! gilboa := gilboa_create_security null s in
  let! mpfss := mpfss_create_security null s in
  Ok (s, gilboa, mpfss).

(** ** Number of buckets *)
(** static_cast<int64_t> of a double with an integer value. Values that are out of
    range make the behaviour undefined; -2^63 is what x86-64 processors return. *)
Definition to_int64 (z : Z) : Z := if ((- 2^63 <=? z) && (z <? 2^63))%Z%bool then z else (- 2^63)%Z.

Section NumBuckets.
  Variables log2 sqrt erf : R -> R.
  Variable pow : R -> R -> R.
  Variable statistical_security : R.

  (** max / 2 * (1 + std::erf((log_n - mean) / (sd * std::sqrt(2)))) *)
  Definition scaled_erf (max mean sd log_n : R) : R :=
    let argument := nearest (nearest (log_n - mean) / nearest (sd * sqrt 2)) in
    nearest (nearest (max / 2) * nearest (1 + erf argument)).

  (** cuckoo_hasher.cpp:73-90: three hash functions. The parameter [expansion3] of
      CuckooModel.v. *)
  Definition num_buckets_3 (num_inputs : Z) : Z :=
    let log_n := log2 (nearest (IZR num_inputs)) in
    let a_max := nearest (1235 / 10) in
    let b_max := -130 in
    let a_sd := nearest (23 / 10) in
    let b_sd := nearest (218 / 100) in
    let a_mean := nearest (63 / 10) in
    let b_mean := nearest (645 / 100) in
    let a := scaled_erf a_max a_mean a_sd log_n in
    let b := nearest (scaled_erf b_max b_mean b_sd log_n - log_n) in
    let e := nearest (nearest (statistical_security - b) / a) in
    Zceil (nearest (e * nearest (IZR num_inputs))).

  (** cuckoo_hasher.cpp:98-101: `sec`; stash_size is 0. *)
  Definition sec (log_n e : R) : R :=
    let a := nearest (-8 / 10) in
    let b := nearest (33 / 10) in
    let c := nearest (25 / 10) in
    let d := 14 in
    let f := 5 in
    let g := nearest (65 / 100) in
    nearest (nearest (1 + nearest (g * 0)) *
      nearest (nearest (nearest (nearest (b * log2 e) + a) + log_n) -
               nearest (nearest (nearest (f * log_n) + d) * pow e (- c)))).

  (** cuckoo_hasher.cpp:104-109: one round of the loop. *)
  Definition grow (log_n : R) (es : R * R) : R * R :=
    let e := nearest (fst es + 1) in (e, sec log_n e).
  (** The loop, for at most [fuel] rounds. *)
  Fixpoint grow_until (fuel : nat) (log_n : R) (es : R * R) : option R :=
    if Rlt_bool (snd es) statistical_security then
      match fuel with
      | O => None
      | S fuel => grow_until fuel log_n (grow log_n es)
      end
    else Some (fst es).
  (** cuckoo_hasher.cpp:92-111: two hash functions; nothing if the loop needs more
      than [fuel] rounds. *)
  Definition num_buckets_2 (fuel : nat) (num_inputs : Z) : option Z :=
    let log_n := log2 (nearest (IZR num_inputs)) in
    match grow_until fuel log_n (1, 0) with
    | Some e => Some (Zceil (nearest (e * nearest (IZR num_inputs))))
    | None => None
    end.
End NumBuckets.
