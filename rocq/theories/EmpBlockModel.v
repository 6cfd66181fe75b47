(** Model of the block conversions of
    /repo/distributed_vector_ole/internal/all_but_one_random_ot_internal.h. *)
From Verif Require Import Base.

(** emp::block is __m128i, indexed as a vector of two int64_t lanes. *)
Record emp_block := EmpBlock { lane0 : Z; lane1 : Z }.
Definition int64 (x : Z) : Prop := -2^63 <= x < 2^63.
Definition emp_block_wf (b : emp_block) : Prop := int64 (lane0 b) /\ int64 (lane1 b).

(** static_cast<uint64_t>(int64_t) and static_cast<int64_t>(uint64_t). *)
Definition to_uint64 (x : Z) : N := Z.to_N (x mod 2^64).
Definition to_int64 (x : N) : Z := if (x <? 2^63)%N then Z.of_N x else Z.of_N x - 2^64.

(** all_but_one_random_ot_internal.h:53-56 *)
Definition emp_to_ggm_block (b : emp_block) : N :=
  (to_uint64 (lane1 b) * 2^64 + to_uint64 (lane0 b))%N.

(** all_but_one_random_ot_internal.h:58-63 *)
Definition ggm_to_emp_block (x : N) : emp_block :=
  EmpBlock (to_int64 (x mod 2^64)%N) (to_int64 (x / 2^64)%N).
