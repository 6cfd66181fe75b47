(** Model of /repo/distributed_vector_ole/internal/scalar_helpers.h and
    internal/ntl_helpers.{h,cpp}: the scalar types the protocols are
    instantiated with.

    A scalar type is a record of the operations the templates use.  Elements of
    an unsigned integer type of w bits and of an NTL modular type are residues;
    a residue is a number together with the (boolean, hence unique) fact that
    it is below the modulus, so that equality of elements is Leibniz equality.

    Simplifications: NTL's arithmetic (+, -, *, conv, rep, bit, NumBits) is
    taken to be exact arithmetic modulo the installed modulus; double
    arithmetic in CanBeHashedInto is exact (see [can_hash_ntl], and FloatModel.v for
    the rounding); Randomize is an
    arbitrary element (see ProcModel.v). *)
From Coq Require Import QArith.
From Verif Require Import Base Gf128Model.
Local Open Scope N_scope.

(** Residues modulo m. *)
Definition zmod (m : positive) : Type := { n : N | (n <? Npos m) = true }.
Definition zval {m} (x : zmod m) : N := proj1_sig x.
Definition zmod_of_N (m : positive) (n : N) : zmod m :=
  exist _ (n mod Npos m) (proj2 (N.ltb_lt _ _) (N.mod_lt n (Npos m) (fun H => match H with eq_refl => I end))).
Definition zmod_of_Z (m : positive) (z : Z) : zmod m := zmod_of_N m (Z.to_N (z mod Zpos m)).
Definition zadd {m} (x y : zmod m) : zmod m := zmod_of_N m (zval x + zval y).
Definition zmul {m} (x y : zmod m) : zmod m := zmod_of_N m (zval x * zval y).
Definition zopp {m} (x : zmod m) : zmod m := zmod_of_Z m (- Z.of_N (zval x)).
Definition zsub {m} (x y : zmod m) : zmod m := zmod_of_Z m (Z.of_N (zval x) - Z.of_N (zval y)).

(** gf128 elements whose words fit in 64 bits (they always do: C++ stores them
    in uint64_t).  The second case of [gf_box] never occurs for the operations
    below (ScalarProofs.gf_box_ok). *)
Definition gf_wfb (a : gf128) : bool := (v0 a <? 2^64) && (v1 a <? 2^64).
Definition gfs : Type := { a : gf128 | gf_wfb a = true }.
Definition gf_box (a : gf128) : gfs :=
  match bool_dec (gf_wfb a) true with
  | left H => exist _ a H
  | right _ => exist _ gf_zero eq_refl
  end.

(** The operations of a scalar type T used by the protocols: T(0), T(1),
    operator+, -, unary -, *, and struct ScalarHelper<T>
    (scalar_helpers.h:36-58). The security parameter s of CanBeHashedInto is
    represented by 2^s; [None] is NaN. *)
Record scalar := Scalar {
  s_T :> Type;
  s_zero : s_T; s_one : s_T;
  s_add : s_T -> s_T -> s_T; s_mul : s_T -> s_T -> s_T;
  s_sub : s_T -> s_T -> s_T; s_opp : s_T -> s_T;
  s_size : Z;                              (* SizeOf(), bytes *)
  s_to128 : s_T -> N;                      (* ToUint128 *)
  s_of128 : N -> s_T;                      (* FromUint128 *)
  s_bit : s_T -> Z -> bool;                (* GetBit *)
  s_setbit : Z -> s_T;                     (* SetBit *)
  s_can_hash : option Q -> Z -> bool       (* CanBeHashedInto *)
}.

(** Unsigned integers of [bytes] bytes, including absl::uint128
    (scalar_helpers.h:61-77). The product of two uint8_t/uint16_t is computed in
    [int] and truncated; overflow of that [int] is treated in C53
    (ScalarProofs), here the mathematical value is truncated. *)
Definition uint_modulus (bytes : positive) : positive := (2 ^ (8 * bytes))%positive.
Definition uint_scalar (bytes : positive) : scalar :=
  let m := uint_modulus bytes in
  Scalar (zmod m) (zmod_of_N m 0) (zmod_of_N m 1) zadd zmul zsub zopp
    (Zpos bytes)
    (fun x => zval x)
    (fun x => zmod_of_N m x)
    (fun x k => N.testbit (zval x) (Z.to_N k))
    (fun k => zmod_of_N m (2 ^ Z.to_N k))
    (fun _ h => (8 * Zpos bytes <=? h)%Z).

(** Signed integers of [bytes] bytes: numeric_limits<T>::is_integer holds for
    them too, so scalar_helpers.h:61-77 also defines this instance. An element is
    represented by its residue modulo 2^(8*bytes); absl::uint128(x)
    sign-extends. (Signed overflow in + and * is undefined in C++; here it
    wraps.) *)
Definition sint_scalar (bytes : positive) : scalar :=
  let m := uint_modulus bytes in
  Scalar (zmod m) (zmod_of_N m 0) (zmod_of_N m 1) zadd zmul zsub zopp
    (Zpos bytes)
    (fun x => if zval x <? 2 ^ (8 * Npos bytes - 1) then zval x
              else zval x + (2^128 - 2 ^ (8 * Npos bytes)))
    (fun x => zmod_of_N m x)
    (fun x k => N.testbit (zval x) (Z.to_N k))
    (fun k => zmod_of_N m (2 ^ Z.to_N k))
    (fun _ h => (8 * Zpos bytes <=? h)%Z).

(** scalar_helpers.h:80-100; [asm]: USE_ASM (gf128.h). *)
Definition gf128_scalar (asm : bool) : scalar :=
  Scalar gfs (gf_box gf_zero) (gf_box gf_one)
    (fun a b => gf_box (gf_add (proj1_sig a) (proj1_sig b)))
    (fun a b => gf_box (gf_mul asm (proj1_sig a) (proj1_sig b)))
    (fun a b => gf_box (gf_sub (proj1_sig a) (proj1_sig b)))
    (fun a => gf_box (gf_opp (proj1_sig a)))
    16%Z
    (fun a => gf_to_uint128 (proj1_sig a))
    (fun x => gf_box (gf_of_uint128 (x mod 2^128)))
    (fun a k => N.testbit (gf_to_uint128 (proj1_sig a)) (Z.to_N k))
    (fun k => gf_box (gf_of_uint128 (2 ^ Z.to_N k mod 2^128)))
    (fun _ h => (128 <=? h)%Z).

(** NTLNumBits (ntl_helpers.h:53-58) : NTL::NumBits(modulus - 1). *)
Definition ntl_num_bits (p : positive) : Z := Z.of_N (N.size (Npos p - 1)).
(** scalar_helpers.h:183 *)
Definition ntl_size (p : positive) : Z := Z.quot (ntl_num_bits p + 7) 8.

(** scalar_helpers.h:132-137 and 158-163, for the modulus truncated to 128
    bits. hash_bits - log2(rem) > s  is  rem * 2^s < 2^hash_bits  (log2(0) is
    -infinity; comparisons with NaN are false). *)
Definition can_hash_ntl (modulus : N) (two_s : option Q) (h : Z) : bool :=
  let max_value := 2^128 - 1 in
  let max_value := if (h <? 128)%Z then max_value / 2 ^ Z.to_N h else max_value in
  let rem := ((max_value mod modulus) + 1) mod modulus in
  match two_s with
  | None => false
  | Some s => negb (Qle_bool (inject_Z (2 ^ h)) (inject_Z (Z.of_N rem) * s))
  end.

(** NTL::ZZ_p with modulus p (scalar_helpers.h:106-145, 174-194). *)
Definition ZZp_scalar (p : positive) : scalar :=
  Scalar (zmod p) (zmod_of_N p 0) (zmod_of_N p 1) zadd zmul zsub zopp
    (ntl_size p)
    (fun x =>                                     (* lines 108-112 *)
       let low := zval x mod 2^64 in
       let high := N.shiftr (zval x) 64 mod 2^64 in
       high * 2^64 + low)
    (fun x =>                                     (* lines 113-121 *)
       let temp := x / 2^64 mod 2^64 in
       let temp := N.shiftl temp 64 in
       let temp := N.lor temp (x mod 2^64) in
       zmod_of_N p temp)
    (fun x k => N.testbit (zval x) (Z.to_N k))    (* line 184 *)
    (fun k => zmod_of_N p (N.shiftl 1 (Z.to_N k)))     (* line 185 *)
    (fun s h =>                                   (* lines 122-138 *)
       let modulus_low := Npos p mod 2^64 in
       let modulus_high := N.shiftr (Npos p) 64 mod 2^64 in
       let modulus := modulus_high * 2^64 + modulus_low in
       if modulus =? 0 then true else can_hash_ntl modulus s h).

(** NTL::zz_p with modulus p (scalar_helpers.h:147-171, 174-194). rep_type is
    long: long(1) << 63 is LONG_MIN. *)
Definition zzp_scalar (p : positive) : scalar :=
  Scalar (zmod p) (zmod_of_N p 0) (zmod_of_N p 1) zadd zmul zsub zopp
    (ntl_size p)
    (fun x => zval x)                             (* lines 149-151 *)
    (fun x => zmod_of_N p ((x mod Npos p) mod 2^64))  (* lines 152-154 *)
    (fun x k => N.testbit (zval x) (Z.to_N k))
    (fun k => zmod_of_Z p (wrap64 (2 ^ k)))
    (fun s h => can_hash_ntl (Npos p) s h).       (* lines 155-164 *)

(** The scalar types the library is meant for (README; the typed tests
    instantiate the same list). *)
Inductive stype :=
| UInt8 | UInt16 | UInt32 | UInt64 | UInt128
| GF128 (asm : bool)
| ZZ_p (p : positive)
| zz_p (p : positive).

Definition scalar_of (t : stype) : scalar :=
  match t with
  | UInt8 => uint_scalar 1 | UInt16 => uint_scalar 2 | UInt32 => uint_scalar 4
  | UInt64 => uint_scalar 8 | UInt128 => uint_scalar 16
  | GF128 asm => gf128_scalar asm
  | ZZ_p p => ZZp_scalar p
  | zz_p p => zzp_scalar p
  end.

(** Moduli NTL accepts: p > 1 for ZZ_p, 1 < p < 2^60 for zz_p
    (NTL_SP_BOUND). *)
Definition stype_ok (t : stype) : Prop :=
  match t with
  | ZZ_p p => (1 < p)%positive
  | zz_p p => (1 < p)%positive /\ (p <= 2^60)%positive
  | _ => True
  end.

(** ntl_helpers.cpp:26-36. State of a thread: installed modulus, the two
    thread_local optionals. *)
Record ntl_thread := NtlThread {
  nt_modulus : positive;
  nt_cached_modulus : option positive;
  nt_cached_num_bits : option Z
}.
Definition ntl_install (p : positive) (s : ntl_thread) : ntl_thread :=
  NtlThread p (nt_cached_modulus s) (nt_cached_num_bits s).
Definition ntl_num_bits_cached (s : ntl_thread) : Z * ntl_thread :=
  let update := match nt_cached_num_bits s, nt_cached_modulus s with
                | Some _, Some c => negb (nt_modulus s =? c)%positive
                | _, _ => true
                end in
  let s := if update
           then NtlThread (nt_modulus s) (Some (nt_modulus s)) (Some (ntl_num_bits (nt_modulus s)))
           else s in
  (match nt_cached_num_bits s with Some b => b | None => (-1)%Z end, s).

(** A history of NTL::ZZ_p::init / context restores and NTLNumBits calls on one
    thread, and the values the calls return. *)
Inductive ntl_op := Install (p : positive) | NumBits.
Fixpoint ntl_run (s : ntl_thread) (ops : list ntl_op) : list Z :=
  match ops with
  | [] => []
  | Install p :: ops => ntl_run (ntl_install p s) ops
  | NumBits :: ops => let '(b, s) := ntl_num_bits_cached s in b :: ntl_run s ops
  end.

(** Integer promotion (SpanToEMPBlock, gilboa_internal.h:54; products of shares in
    mpfss_known_indices.h and distributed_vector_ole.h): a*b for two unsigned integers of [bytes] bytes is
    computed in int (32 bits, signed) if bytes < 4, and modulo 2^(8*bytes)
    otherwise. *)
Definition cpp_mul (bytes : positive) (x y : N) : res N :=
  if (Npos bytes <? 4)
  then if x * y <? 2^31 then Ok (x * y mod 2 ^ (8 * Npos bytes)) else UB "signed integer overflow"
  else Ok (x * y mod 2 ^ (8 * Npos bytes)).
