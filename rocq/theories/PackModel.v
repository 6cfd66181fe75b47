(** Model of the packing functions of
    /repo/distributed_vector_ole/internal/gilboa_internal.h. An emp::block is
    identified with the 128-bit number MakeUint128(b[1], b[0]);
    emp::makeBlock(high, low) and the lane accesses are the bijection of
    EmpBlockModel.v (C06). *)
From Verif Require Import Base ScalarModel.
Local Open Scope N_scope.

(** absl::uint128 left shift. *)
Definition shl128 (x k : N) : N := N.shiftl x k mod 2^128.

Section Pack.
  Variable S : scalar.

  (** SizeOf() * 8 *)
  Definition num_bits : Z := 8 * s_size S.

  (** gilboa_internal.h:36-43 *)
  Definition get_bits (x : S) : list bool :=
    map (fun i => s_bit S x i) (zrange 0 num_bits).

  (** gilboa_internal.h:52-59: iterations i = n-1, ..., 0. *)
  Fixpoint pack_loop (v : list S) (multiplier : S) (n : nat) (packed : N) : N :=
    match n with
    | O => packed
    | Datatypes.S i =>
        let temp := nth i v (s_zero S) in
        let temp := s_mul S temp multiplier in
        let packed := N.lor packed (s_to128 S temp) in
        let packed := if (0 <? i)%nat then shl128 packed (Z.to_N num_bits) else packed in
        pack_loop v multiplier i packed
    end.
  (** gilboa_internal.h:48-63 *)
  Definition span_to_block (v : list S) (multiplier : S) : N :=
    pack_loop v multiplier (List.length v) 0.

  (** 16 / SizeOf() *)
  Definition packing_factor : Z := Z.quot 16 (s_size S).

  (** gilboa_internal.h:65-82, for an output span of packing_factor elements
      (the assertion on line 69; all callers pass such a span). *)
  Definition block_to_span (b : N) : list S :=
    map (fun i =>
      let current := N.shiftr b (Z.to_N (i * num_bits)) in
      let current := if (num_bits <? 128)%Z then current mod 2 ^ Z.to_N num_bits else current in
      s_of128 S current) (zrange 0 packing_factor).
End Pack.
