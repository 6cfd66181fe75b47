(** Specification vocabulary for multi-point function secret sharing. *)
From Verif Require Import Base ScalarModel ScalarSpec RotModel RotSpec CuckooModel CuckooSpec MpfssModel.
From Coq Require Import QArith.
Local Open Scope Z_scope.

(** Value at position [p] of the multi-point function with points [indices] and
    values x * y. *)
Definition point_value (S : scalar) (x : S) (y : list S) (indices : list Z) (p : Z) : S :=
  s_sum S (map (fun k => if znth 0 indices k =? p then s_mul S x (znth (s_zero S) y k) else s_zero S)
               (zrange 0 (zlen indices))).

(** The object after earlier calls of UpdateBuckets (which the Run functions
    make as well) with arbitrary sizes, successful or not. Each call comes with
    the division of its loop among threads. *)
Definition mpfss_after aes too_many_bits expansion3 expansion2 (h : hasher) (calls : list (list Z * Z * Z)) : mpfss :=
  fold_left (fun st '(sizes, output_size, num_indices) =>
      fst (update_buckets aes too_many_bits expansion3 expansion2 sizes st output_size num_indices))
    calls (mpfss_new h).
Definition divisions (calls : list (list Z * Z * Z)) : Prop :=
  Forall (fun '(sizes, output_size, _) => 0 <= output_size -> division output_size sizes) calls.

(** The buckets for these sizes, computed from scratch by one thread. *)
Definition fresh_buckets aes too_many_bits expansion3 expansion2 (h : hasher) (output_size num_indices : Z) : res (list (list Z)) :=
  let! num_buckets := get_optimal_number_of_buckets expansion3 expansion2 h num_indices in
  hash_simple aes too_many_bits h [output_size] (map uint128_of_int64 (zrange 0 output_size)) num_buckets.

(** w = u x + v *)
Definition vole_correlation (S : scalar) (x : S) (u v w : list S) : Prop :=
  zlen u = zlen w /\ zlen v = zlen w /\
  forall i, 0 <= i < zlen w ->
    znth (s_zero S) w i = s_add S (s_mul S (znth (s_zero S) u i) x) (znth (s_zero S) v i).

(** The y values in the order of the buckets, zero in empty buckets. *)
Definition permuted (S : scalar) (y : list S) (hashed : list Z) : list S :=
  map (fun k => if k =? -1 then s_zero S else znth (s_zero S) y k) hashed.
Definition plus (S : scalar) (a b : list S) : list S := map (fun '(p, q) => s_add S p q) (combine a b).

(** Sizes for which the protocol is meant to work: N outputs, n points. *)
Definition good_sizes (S : scalar) clog (K : Q) too_many_bits (expansion3 : Z -> Z) (N n : Z) : Prop :=
  1 <= n <= N /\ 3 * N < 2^31 /\ 1 <= expansion3 n < 2^31 /\ too_many_bits N (expansion3 n) = false /\
  (forall s, 0 <= s <= 3 * N -> supported_size clog s) /\
  s_can_hash S (security_per_leaf (K * 2) (3 * N)) 128 = true.
