(** Model of /repo/distributed_vector_ole/gf128.h and gf128.cpp. *)
From Verif Require Import Base.
Local Open Scope N_scope.

(** gf128::value_ (gf128.h:102): two little-endian uint64_t words. *)
Record gf128 := Gf { v0 : N; v1 : N }.

(** Well-formedness: both words are uint64_t values. *)
Definition gf_wf (a : gf128) : Prop := v0 a < 2^64 /\ v1 a < 2^64.

(** uint64_t left shift (discarding overflowing bits), [x << k]. *)
Definition shl64 (x k : N) : N := N.shiftl x k mod 2^64.

(** gf128::modulus_ (gf128.h:46): 0b10000111. *)
Definition modulus_ : N := 135.

(** gf128.cpp:38 *)
Definition gf_default : gf128 := Gf 0 0.
(** gf128.cpp:40 *)
Definition gf_of_low (value_low : N) : gf128 := Gf value_low 0.
(** gf128.cpp:42-43; argument order (high, low). *)
Definition gf_of_words (value_high value_low : N) : gf128 := Gf value_low value_high.
(** gf128.cpp:45-46; Uint128Low64 / Uint128High64. *)
Definition gf_of_uint128 (value : N) : gf128 := Gf (value mod 2^64) (value / 2^64).
(** gf128.cpp:48-50 *)
Definition as_words (a : gf128) : list N := [v0 a; v1 a].
(** gf128.cpp:52-54; MakeUint128(high, low). *)
Definition gf_to_uint128 (a : gf128) : N := v1 a * 2^64 + v0 a.

(** gf128.cpp:56-60, :143-146 *)
Definition gf_add (a b : gf128) : gf128 := Gf (N.lxor (v0 a) (v0 b)) (N.lxor (v1 a) (v1 b)).
(** gf128.cpp:62-66, :148-151 *)
Definition gf_sub (a b : gf128) : gf128 := Gf (N.lxor (v0 a) (v0 b)) (N.lxor (v1 a) (v1 b)).
(** gf128.cpp:153-155 *)
Definition gf_opp (a : gf128) : gf128 := gf_of_words (v1 a) (v0 a).

(** ** operator*=, portable path (gf128.cpp:113-137). *)

(** other.value_[i] *)
Definition word (a : gf128) (i : N) : N := if i =? 0 then v0 a else v1 a.

(** Loop state: shifted[0], shifted[1], result[0], result[1] (lines 114-115). *)
Record mul_state := Ms { sh0 : N; sh1 : N; rs0 : N; rs1 : N }.

(** Body of the inner loop (lines 119-130). *)
Definition mul_body (other : gf128) (i j : N) (s : mul_state) : mul_state :=
  let '(Ms h0 h1 r0 r1) := s in
  let '(r0, r1) :=
    if negb (N.land (word other i) (shl64 1 j) =? 0)
    then (N.lxor r0 h0, N.lxor r1 h1) else (r0, r1) in
  if negb (N.land h1 (shl64 1 63) =? 0)
  then Ms (N.lxor (shl64 h0 1) modulus_) (N.lor (shl64 h1 1) (N.shiftr h0 63)) r0 r1
  else Ms (shl64 h0 1) (N.lor (shl64 h1 1) (N.shiftr h0 63)) r0 r1.

(** for (j = j0; j < j0 + n; ++j) *)
Fixpoint mul_inner (other : gf128) (i : N) (n : nat) (j : N) (s : mul_state) : mul_state :=
  match n with
  | O => s
  | S n' => mul_inner other i n' (j + 1) (mul_body other i j s)
  end.

(** Lines 114-137. The outer loop over i = 0, 1 is unrolled. *)
Definition gf_mul_portable (a b : gf128) : gf128 :=
  let s := mul_inner b 1 64 0 (mul_inner b 0 64 0 (Ms (v0 a) (v1 a) 0 0)) in
  Gf (rs0 s) (rs1 s).

(** ** operator*=, USE_ASM path (gf128.cpp:75-111), the path selected by the
    BUILD file.  A __m128i register is an N below 2^128. *)

(** PCLMULQDQ on two 64-bit operands (Intel SDM: temp[i] ^= a[i-j] & b[j]):
    xor of the shifted copies of b for each set bit of a. *)
Fixpoint clmul_pos (a : positive) (b : N) : N :=
  match a with
  | xH => b
  | xO a' => N.double (clmul_pos a' b)
  | xI a' => N.lxor b (N.double (clmul_pos a' b))
  end.
Definition clmul64 (a b : N) : N := match a with 0 => 0 | Npos p => clmul_pos p b end.

(** Quadword selection by the immediate operand. *)
Definition lo64 (x : N) : N := x mod 2^64.
Definition hi64 (x : N) : N := x / 2^64.
(** _mm_clmulepi64_si128(a, b, imm): imm bit 0 selects the quadword of a, bit 4
    that of b. *)
Definition mm_clmul (a b : N) (imm_a imm_b : bool) : N :=
  clmul64 (if imm_a then hi64 a else lo64 a) (if imm_b then hi64 b else lo64 b).
(** _mm_srli_si128(x, 8), _mm_slli_si128(x, 8): byte shifts by 8. *)
Definition mm_srli8 (x : N) : N := N.shiftr x 64.
Definition mm_slli8 (x : N) : N := N.shiftl x 64 mod 2^128.
Definition mm_xor : N -> N -> N := N.lxor.

(** Lines 77-109. *)
Definition gf_mul_asm (x y : gf128) : gf128 :=
  let a := gf_to_uint128 x in
  let b := gf_to_uint128 y in
  let modulus := modulus_ in
  let mul256_high := mm_clmul a b true true in      (* 0x11 *)
  let mul256_low := mm_clmul a b false false in     (* 0x00 *)
  let mul256_mid1 := mm_clmul a b true false in     (* 0x01 *)
  let mul256_mid2 := mm_clmul a b false true in     (* 0x10 *)
  let mul256_mid := mm_xor mul256_mid1 mul256_mid2 in
  let mul256_high := mm_xor mul256_high (mm_srli8 mul256_mid) in
  let mul256_low := mm_xor mul256_low (mm_slli8 mul256_mid) in
  let tmp := mm_clmul mul256_high modulus true false in   (* 0x01 *)
  let mul256_low := mm_xor mul256_low (mm_slli8 tmp) in
  let mul256_high := mm_xor mul256_high (mm_srli8 tmp) in
  let tmp := mm_clmul mul256_high modulus false false in  (* 0x00 *)
  let mul256_low := mm_xor mul256_low tmp in
  gf_of_uint128 mul256_low.

(** The multiplication of a given build; [use_asm] is the USE_ASM macro. *)
Definition gf_mul (use_asm : bool) (a b : gf128) : gf128 :=
  if use_asm then gf_mul_asm a b else gf_mul_portable a b.

(** gf128.cpp:141, :162-166 *)
Definition gf_square (asm : bool) (a : gf128) : gf128 := gf_mul asm a a.

(** Lines 177-179: square n times. *)
Fixpoint gf_square_n (asm : bool) (n : nat) (b : gf128) : gf128 :=
  match n with
  | O => b
  | S n' => gf_square_n asm n' (gf_square asm b)
  end.

(** gf128.cpp:170-192: iterations i = i0 .. 6 with the variables a, result. *)
Fixpoint gf_inverse_loop (asm : bool) (n : nat) (i : nat) (a result : gf128) : gf128 :=
  match n with
  | O => result
  | S n' =>
      let b := gf_square_n asm (2 ^ i) a in
      let a := gf_mul asm a b in
      let result := if Nat.eqb i 0 then b else gf_mul asm result b in
      gf_inverse_loop asm n' (S i) a result
  end.
Definition gf_inverse (asm : bool) (x : gf128) : gf128 :=
  gf_inverse_loop asm 7 0 x (gf_of_low 0).

(** gf128.cpp:198-205 *)
Definition gf_eqb (a b : gf128) : bool := (v0 a =? v0 b) && (v1 a =? v1 b).
(** gf128.cpp:207-209 *)
Definition gf_is_zero (a : gf128) : bool := (v0 a =? 0) && (v1 a =? 0).
(** gf128.cpp:217, :219 *)
Definition gf_zero : gf128 := gf_of_low 0.
Definition gf_one : gf128 := gf_of_low 1.
(** gf128.cpp:36 *)
Definition multiplicative_generator : gf128 := gf_of_low 2.
