(** Property theorems about simple and cuckoo hashing; see CuckooSpec.v. *)
From Verif Require Import Base CuckooModel CuckooSpec CuckooProofs CuckooFinal.
From Coq Require Import Sorted.
Local Open Scope Z_scope.

(** C28 *)
Theorem C28_bucket_numbers : forall aes seed num inputs num_buckets h,
  cuckoo_create seed num = Ok h -> 1 <= num_buckets < 2^63 ->
  exists rows, hash aes h inputs num_buckets = Ok rows /\ zlen rows = zlen inputs /\
  forall i, 0 <= i < zlen inputs ->
    zlen (znth [] rows i) = num /\
    forall j, 0 <= j < num ->
      znth 0 (znth [] rows i) j = bucket_of aes seed num_buckets j (znth 0%N inputs i) /\
      0 <= znth 0 (znth [] rows i) j < num_buckets.
Proof. exact hash_spec. Qed.
Print Assumptions C28_bucket_numbers.

Theorem C28_no_buckets : forall aes h inputs num_buckets, num_buckets <= 0 ->
  exists m, hash aes h inputs num_buckets = Err (invalid_argument m).
Proof. exact hash_no_buckets. Qed.
Print Assumptions C28_no_buckets.

Theorem C28_create : forall seed num,
  (1 <= num -> cuckoo_create seed num = Ok (Hasher seed num)) /\
  (num <= 0 -> exists m, cuckoo_create seed num = Err (invalid_argument m)).
Proof. exact create_valid. Qed.
Print Assumptions C28_create.

Definition toy_aes (k x : N) : N := ((k * 31 + x * (2^77 + 123456789) + x * x * 9 + 5) mod 2^128)%N.
Definition toy_hasher : hasher := Hasher 12345 3.
Definition small (n b : Z) : bool := 2^40 <? n * b.
Example C28_example : cuckoo_create 12345 3 = Ok toy_hasher /\
  hash toy_aes toy_hasher [10; 20; 10]%N 7 = Ok [[0; 6; 1]; [6; 6; 0]; [0; 6; 1]].
Proof. vm_compute. split; reflexivity. Qed.

(** C29: for any number of threads and any division of the loop. *)
Theorem C29_simple_hashing : forall aes too_many_bits seed num h inputs num_buckets sizes,
  cuckoo_create seed num = Ok h -> 1 <= num_buckets < 2^63 ->
  too_many_bits (zlen inputs) num_buckets = false -> division (zlen inputs) sizes ->
  hash_simple aes too_many_bits h sizes inputs num_buckets =
    Ok (map (simple_bucket (bucket_of aes seed num_buckets) num inputs) (zrange 0 num_buckets)).
Proof. exact simple_spec. Qed.
Print Assumptions C29_simple_hashing.

(** The content of a bucket: how often each index occurs, and in which order. *)
Theorem C29_bucket_counts : forall place num inputs b i, 0 <= i < zlen inputs ->
  count_occ Z.eq_dec (simple_bucket place num inputs b) i =
  List.length (filter (fun j => place j (znth 0%N inputs i) =? b) (zrange 0 num)).
Proof. exact simple_bucket_count. Qed.
Print Assumptions C29_bucket_counts.

Theorem C29_bucket_members : forall place num inputs b i,
  In i (simple_bucket place num inputs b) <->
  0 <= i < zlen inputs /\ exists j, 0 <= j < num /\ place j (znth 0%N inputs i) = b.
Proof. exact simple_bucket_In. Qed.
Print Assumptions C29_bucket_members.

Theorem C29_bucket_sorted : forall place num inputs b,
  StronglySorted Z.le (simple_bucket place num inputs b).
Proof. exact simple_bucket_sorted. Qed.
Print Assumptions C29_bucket_sorted.

Theorem C29_errors : forall aes too_many_bits h inputs num_buckets sizes,
  num_buckets <= 0 \/ too_many_bits (zlen inputs) num_buckets = true ->
  exists m, hash_simple aes too_many_bits h sizes inputs num_buckets = Err (invalid_argument m).
Proof. exact simple_errors. Qed.
Print Assumptions C29_errors.

Example C29_example : division 4 [2; 0; 2] /\ division 4 [4] /\
  hash_simple toy_aes small toy_hasher [2; 0; 2] [10; 20; 10; 5]%N 7 =
  hash_simple toy_aes small toy_hasher [4] [10; 20; 10; 5]%N 7 /\
  hash_simple toy_aes small toy_hasher [4] [10; 20; 10; 5]%N 7 = Ok [[0; 1; 2]; [0; 2]; [3]; [3]; []; [3]; [0; 1; 1; 2]].
Proof. split; [|split]; [unfold division; split; [repeat constructor; lia|reflexivity]..|]. vm_compute. split; reflexivity. Qed.

(** C30 *)
Theorem C30_perfect_placement : forall aes too_many_bits seed num h inputs num_buckets buckets,
  cuckoo_create seed num = Ok h -> num_buckets < 2^63 ->
  hash_cuckoo aes too_many_bits h inputs num_buckets = Ok buckets ->
  placement (bucket_of aes seed num_buckets) num inputs num_buckets buckets.
Proof. exact cuckoo_placement. Qed.
Print Assumptions C30_perfect_placement.

(** Six inputs, one of them twice, with evictions. *)
Example C30_example :
  hash_cuckoo toy_aes small toy_hasher [10; 20; 10; 5; 3; 2]%N 9 = Ok [-1; 5; 0; -1; 2; 1; 3; -1; 4].
Proof. vm_compute. reflexivity. Qed.

(** C31 *)
Theorem C31_outcomes : forall aes too_many_bits seed num h inputs num_buckets,
  cuckoo_create seed num = Ok h -> num_buckets < 2^63 ->
  let bad := num = 1 \/ num_buckets <= 0 \/ num_buckets < zlen inputs \/ too_many_bits (zlen inputs) num_buckets = true in
  (bad -> exists m, hash_cuckoo aes too_many_bits h inputs num_buckets = Err (invalid_argument m)) /\
  (~ bad -> (exists buckets, hash_cuckoo aes too_many_bits h inputs num_buckets = Ok buckets) \/
            hash_cuckoo aes too_many_bits h inputs num_buckets =
              Err (internal_error "Failed to insert element, maximum number of tries exhausted")).
Proof. exact cuckoo_outcome. Qed.
Print Assumptions C31_outcomes.

(** Two inputs are placed exactly when their first hash values differ; with
    more buckets or hash functions the others are still never tried. *)
Theorem C31_two_inputs : forall aes too_many_bits seed num h num_buckets x y,
  cuckoo_create seed num = Ok h -> num <> 1 -> 2 <= num_buckets < 2^63 -> too_many_bits 2 num_buckets = false ->
  ((exists buckets, hash_cuckoo aes too_many_bits h [x; y] num_buckets = Ok buckets) <->
   bucket_of aes seed num_buckets 0 x <> bucket_of aes seed num_buckets 0 y).
Proof. exact cuckoo_two. Qed.
Print Assumptions C31_two_inputs.

Theorem C31_distinct_first_hashes : forall aes too_many_bits seed num h num_buckets inputs,
  cuckoo_create seed num = Ok h -> num <> 1 -> 1 <= num_buckets < 2^63 -> zlen inputs <= num_buckets ->
  too_many_bits (zlen inputs) num_buckets = false ->
  (forall i k, 0 <= i < k -> k < zlen inputs ->
     bucket_of aes seed num_buckets 0 (znth 0%N inputs i) <> bucket_of aes seed num_buckets 0 (znth 0%N inputs k)) ->
  exists buckets, hash_cuckoo aes too_many_bits h inputs num_buckets = Ok buckets /\
    forall i, 0 <= i < zlen inputs -> znth 0 buckets (bucket_of aes seed num_buckets 0 (znth 0%N inputs i)) = i.
Proof. exact cuckoo_distinct. Qed.
Print Assumptions C31_distinct_first_hashes.

(** A collision is resolved with the second hash function of the later input
    when there is at least one input more. *)
Theorem C31_third_try : forall aes too_many_bits seed num h num_buckets x y z,
  cuckoo_create seed num = Ok h -> num <> 1 -> 3 <= num_buckets < 2^63 -> too_many_bits 3 num_buckets = false ->
  let place := bucket_of aes seed num_buckets in
  place 0 x = place 0 y -> place 1 y <> place 0 x -> place 0 z <> place 0 x -> place 0 z <> place 1 y ->
  exists buckets, hash_cuckoo aes too_many_bits h [x; y; z] num_buckets = Ok buckets /\
    znth 0 buckets (place 0 x) = 0 /\ znth 0 buckets (place 1 y) = 1 /\ znth 0 buckets (place 0 z) = 2.
Proof. exact cuckoo_three. Qed.
Print Assumptions C31_third_try.

(** Inputs 1 and 3 collide under the first hash function although the third
    separates them. *)
Example C31_example :
  map (fun x => map (fun j => bucket_of toy_aes 12345 7 j x) [0; 1; 2]) [1; 3]%N = [[4; 3; 6]; [4; 3; 5]] /\
  (exists m, hash_cuckoo toy_aes small toy_hasher [1; 3]%N 7 = Err (internal_error m)) /\
  (exists b, hash_cuckoo toy_aes small toy_hasher [10; 20]%N 7 = Ok b) /\
  map (fun j => bucket_of toy_aes 12345 7 j 10%N) [0; 1; 2] = [0; 6; 1] /\
  hash_cuckoo toy_aes small toy_hasher [1; 3; 10]%N 7 = Ok [2; -1; -1; 1; 0; -1; -1].
Proof. vm_compute. split; [reflexivity|split; [eexists; reflexivity|split; [eexists; reflexivity|split; reflexivity]]]. Qed.

(** C32 *)
Theorem C32_consistent : forall aes too_many_bits seed num h indices domain num_buckets sizes buckets simple b k,
  cuckoo_create seed num = Ok h -> num_buckets < 2^63 -> 0 <= domain < 2^63 -> division domain sizes ->
  hash_cuckoo aes too_many_bits h (map uint128_of_int64 indices) num_buckets = Ok buckets ->
  hash_simple aes too_many_bits h sizes (map uint128_of_int64 (zrange 0 domain)) num_buckets = Ok simple ->
  0 <= b < num_buckets -> znth 0 buckets b = k -> k <> -1 -> 0 <= znth 0 indices k < domain ->
  0 <= k < zlen indices /\ In (znth 0 indices k) (znth [] simple b).
Proof. exact consistent. Qed.
Print Assumptions C32_consistent.

Example C32_example :
  hash_cuckoo toy_aes small toy_hasher (map uint128_of_int64 [10; 20; 5]) 7 = Ok [0; -1; -1; -1; -1; 2; 1] /\
  match hash_simple toy_aes small toy_hasher [21] (map uint128_of_int64 (zrange 0 21)) 7 with
  | Ok simple => In 10 (znth [] simple 0) | _ => False
  end.
Proof. vm_compute. repeat (split || reflexivity). tauto. Qed.

(** C57 *)
Theorem C57_number_of_buckets : forall expansion3 expansion2 seed num h n,
  cuckoo_create seed num = Ok h ->
  (n < 0 -> exists m, get_optimal_number_of_buckets expansion3 expansion2 h n = Err (invalid_argument m)) /\
  (n = 0 -> get_optimal_number_of_buckets expansion3 expansion2 h n = Ok 1) /\
  (0 < n -> num <> 2 -> num <> 3 ->
     exists m, get_optimal_number_of_buckets expansion3 expansion2 h n = Err (Status Unimplemented m)).
Proof. exact num_buckets_spec. Qed.
Print Assumptions C57_number_of_buckets.

Example C57_example : exists m, get_optimal_number_of_buckets (fun n => 2 * n) (fun n => 3 * n) (Hasher 1 4) 10 = Err (Status Unimplemented m).
Proof. eexists. reflexivity. Qed.
