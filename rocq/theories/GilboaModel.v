(** Model of /repo/distributed_vector_ole/scalar_vector_gilboa_product.h and of
    the OT senders in internal/gilboa_internal.h.

    An emp::block is identified with its 128-bit number (EmpBlockModel.v, C06).
    Output spans are lists; the functions return their new contents. The random
    blocks of a correlated OT (chosen inside emp::SHOTExtension::send_cot_ft)
    and the random elements of RunOTSender1of2 come from the sender's tape; all
    elements are drawn before the first is used. *)
From Verif Require Import Base ScalarModel PackModel ProcModel RotModel.
From Coq Require Import QArith.
Local Open Scope Z_scope.

(** Arithmetic in int: overflow is undefined. *)
Definition int_result (z : Z) : res Z :=
  if (- 2^31 <=? z) && (z <? 2^31) then Ok z else UB "signed overflow of int".

Section Gilboa.
  Variable S : scalar.
  (** 2^statistical_security_ *)
  Variable K : Q.

  (** scalar_vector_gilboa_product.h:83-92; log2(double(size)) +
      statistical_security is the logarithm of size * K. *)
  Definition use_correlated_ot (size : Z) : bool :=
    s_can_hash S (security_per_leaf K size) (num_bits S).

  (** gilboa_internal.h:105-111 and 136-144: second OT message for the first
      message [m0] and a packed difference. *)
  Definition correlate (delta m0 : N) : N :=
    span_to_block S
      (map (fun '(d, m) => s_add S d m) (combine (block_to_span S delta) (block_to_span S m0)))
      (s_one S).

  (** gilboa_internal.h:94-114 *)
  Definition cot_pairs (deltas m0 : list N) : list (N * N) :=
    map (fun '(d, m) => (m, correlate d m)) (combine deltas m0).

  (** gilboa_internal.h:118-147. The loop counter and bound are ints: messages
      from static_cast<int>(size) on keep their initial value 0. *)
  Definition pad_block (pads : list S) (i : Z) : N :=
    span_to_block S (firstn (Z.to_nat (packing_factor S)) (skipn (Z.to_nat (i * packing_factor S)) pads)) (s_one S).
  Definition ot_pairs (deltas : list N) (pads : list S) : list (N * N) :=
    map (fun i =>
      if i <? wrap32 (zlen deltas) then
        let opt0 := pad_block pads i in (opt0, correlate (znth 0%N deltas i) opt0)
      else (0%N, 0%N)) (zrange 0 (zlen deltas)).

  (** scalar_vector_gilboa_product.h:94-102 *)
  Definition run_ot_sender (deltas : list N) (size : Z) (k : list N -> proc S (res (list S))) : proc S (res (list S)) :=
    if use_correlated_ot size then
      rand_blocks (List.length deltas) (fun m0 =>
        ot_send true (cot_pairs deltas m0) (k m0))
    else
      rand_scalars (Z.to_nat (wrap32 (zlen deltas) * packing_factor S)) (fun pads =>
        ot_send false (ot_pairs deltas pads) (k (map fst (ot_pairs deltas pads)))).

  (** scalar_vector_gilboa_product.h:104-114 *)
  Definition run_ot_receiver (choices : list bool) (size : Z) (k : list N -> proc S (res (list S))) : proc S (res (list S)) :=
    ot_recv (use_correlated_ot size) choices k.

  (** absl::Span::subspan *)
  Definition subspan {A} (l : list A) (pos len : Z) : list A :=
    firstn (Z.to_nat len) (skipn (Z.to_nat pos) l).

  (** for (i = 0; i < len; i += stride) with chunk c at i = c * stride: the
      number of iterations. *)
  Definition chunks (len : Z) : Z := (len + packing_factor S - 1) / packing_factor S.

  (** scalar_vector_gilboa_product.h:139-153 *)
  Definition vector_deltas (y : list S) (n : Z) : res (list N) :=
    for_range 0 (chunks (zlen y)) (fun c deltas =>
      let data := subspan y (c * packing_factor S) (packing_factor S) in
      for_range 0 (num_bits S) (fun j deltas =>
        zset deltas (c * num_bits S + j) (span_to_block S data (s_setbit S j))) deltas)
      (zrepeat 0%N n).

  (** scalar_vector_gilboa_product.h:159-170 and 199-210; [op] is -= or +=. *)
  Definition accumulate (op : S -> S -> S) (ot_result : list N) (y_len : Z) (output : list S) : res (list S) :=
    for_range 0 (chunks y_len) (fun c output =>
      for_range 0 (num_bits S) (fun j output =>
        let! b := zget ot_result (c * num_bits S + j) in
        let data := block_to_span S b in
        for_range 0 (Z.min (packing_factor S) (y_len - c * packing_factor S)) (fun k output =>
          let! o := zget output (c * packing_factor S + k) in
          let! d := zget data k in
          zset output (c * packing_factor S + k) (op o d)) output) output) output.

  (** std::fill(output.begin(), output.end(), T(0)) *)
  Definition fill_zero (output : list S) : list S := map (fun _ => s_zero S) output.

  (** scalar_vector_gilboa_product.h:121-172 *)
  Definition gilboa_vector_provider (y output : list S) : proc S (res (list S)) :=
    if negb (zlen y =? zlen output)
    then Ret (Err (invalid_argument "`y` and `output` must have the same size")) else
    if 16 <? s_size S
    then Ret (Err (invalid_argument "Integers may be at most 16 bytes long")) else
    let y_len := zlen y in
    let n := num_bits S * Z.quot (y_len + packing_factor S - 1) (packing_factor S) in
    calc! deltas := vector_deltas y n in
    run_ot_sender deltas y_len (fun ot_result =>
      Ret (accumulate (s_sub S) ot_result y_len (fill_zero output))).

  (** scalar_vector_gilboa_product.h:190-194 *)
  Definition value_choices (x : S) (y_len n : Z) : res (list bool) :=
    for_range 0 (chunks y_len) (fun c choices =>
      for_range 0 (num_bits S) (fun j choices =>
        let! b := zget (get_bits S x) j in
        zset choices (c * num_bits S + j) b) choices)
      (zrepeat false n).

  (** scalar_vector_gilboa_product.h:174-212; y_len, and with it the number of
      OTs, is computed in int. A negative number of OTs makes the vector
      constructor throw. *)
  Definition gilboa_value_provider (x : S) (output : list S) : proc S (res (list S)) :=
    let y_len := wrap32 (zlen output) in
    if 16 <? s_size S
    then Ret (Err (invalid_argument "Integers may be at most 16 bytes long")) else
    calc! sum := int_result (y_len + packing_factor S) in
    calc! n := int_result (num_bits S * Z.quot (sum - 1) (packing_factor S)) in
    if n <? 0 then Ret (UB "std::length_error") else
    calc! choices := value_choices x y_len n in
    run_ot_receiver choices y_len (fun ot_result =>
      Ret (accumulate (s_add S) ot_result y_len (fill_zero output))).

  (** scalar_vector_gilboa_product.h:54-59 *)
  Definition gilboa_vector_provider_sized (y : list S) : proc S (res (list S)) :=
    gilboa_vector_provider y (zrepeat (s_zero S) (zlen y)).
  (** scalar_vector_gilboa_product.h:68-76 *)
  Definition gilboa_value_provider_sized (x : S) (y_len : Z) : proc S (res (list S)) :=
    if y_len <? 0 then Ret (Err (invalid_argument "`y_len` must not be negative")) else
    gilboa_value_provider x (zrepeat (s_zero S) y_len).
End Gilboa.
