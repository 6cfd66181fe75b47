(** Specification vocabulary for simple and cuckoo hashing. *)
From Verif Require Import Base.
From Coq Require Import Permutation.
Local Open Scope Z_scope.

(** The hash functions of a hasher with this seed, written out: the first is
    AES(x) xor x reduced modulo the number of buckets; the others hash the
    128-bit hash once more after flipping the bits of their number. *)
Definition mix (aes : N -> N -> N) (seed x : N) : N := N.lxor (aes seed x) x.
Definition bucket_of (aes : N -> N -> N) (seed : N) (num_buckets : Z) (j : Z) (x : N) : Z :=
  let hash := mix aes seed x in
  if j =? 0 then Z.of_N hash mod num_buckets
  else Z.of_N (mix aes seed (N.lxor hash (Z.to_N j))) mod num_buckets.

(** Bucket [b] of simple hashing: index i once for every hash function that
    sends inputs[i] to b, in ascending order. *)
Definition simple_bucket (place : Z -> N -> Z) (num : Z) (inputs : list N) (b : Z) : list Z :=
  flat_map (fun i => map (fun _ => i) (filter (fun j => place j (znth 0%N inputs i) =? b) (zrange 0 num)))
    (zrange 0 (zlen inputs)).

(** A perfect placement of the inputs. *)
Definition placement (place : Z -> N -> Z) (num : Z) (inputs : list N) (num_buckets : Z) (buckets : list Z) : Prop :=
  zlen buckets = num_buckets /\
  (forall i, 0 <= i < zlen inputs -> exists! b, 0 <= b < num_buckets /\ znth 0 buckets b = i) /\
  (forall b, 0 <= b < num_buckets -> let i := znth 0 buckets b in
     i = -1 \/ 0 <= i < zlen inputs /\ exists j, 0 <= j < num /\ place j (znth 0%N inputs i) = b).

(** A division of a loop over [n] iterations among threads. *)
Definition division (n : Z) (sizes : list Z) : Prop :=
  Forall (fun s => 0 <= s) sizes /\ fold_right Z.add 0 sizes = n.
