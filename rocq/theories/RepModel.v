(** Representation of scalars outside of arithmetic: random bytes
    (scalar_helpers.h:73-76, 96-99; gf128.cpp:194-196, 211-215), hashing, archives
    and printing of gf128 (gf128.h:91-100, gf128.cpp:223-227), and the
    thread-local temporary of NTL::ZZ_p conversions (ntl_helpers.cpp:38-45,
    scalar_helpers.h:113-121). *)
From Coq Require Import DecimalString.
From Verif Require Import Base Gf128Model ScalarModel RngModel.
Local Open Scope Z_scope.

(** The [n] bytes of a number in memory, least significant first (x86-64). *)
Fixpoint to_bytes (n : nat) (x : N) : list N :=
  match n with
  | O => []
  | S n' => (x mod 256)%N :: to_bytes n' (x / 256)%N
  end.

(** Memory of a span of elements of [size] bytes, and back. *)
Definition span_bytes (S : scalar) (out : list S) : list N :=
  flat_map (fun x => to_bytes (Z.to_nat (s_size S)) (s_to128 S x)) out.
Fixpoint bytes_span (S : scalar) (n : nat) (mem : list N) : list S :=
  match n with
  | O => []
  | Datatypes.S n' =>
      s_of128 S (le_bytes (firstn (Z.to_nat (s_size S)) mem))
        :: bytes_span S n' (skipn (Z.to_nat (s_size S)) mem)
  end.

(** OpenSSL's int RAND_bytes(unsigned char *buf, int num). [draw] is the stream
    of bytes the generator would deliver, or None if it fails (no entropy); on
    failure, and for num <= 0, the buffer keeps its contents. The result (1 or
    0) is ignored by all callers in /repo, so it is not modelled. *)
Definition RAND_bytes (draw : option (nat -> N)) (num : Z) (buf : list N) : list N :=
  match draw with
  | None => buf
  | Some bytes =>
      if num <=? 0 then buf
      else map bytes (seq 0 (Z.to_nat num)) ++ skipn (Z.to_nat num) buf
  end.

(** scalar_helpers.h:73-76 and 96-99 (integers and gf128). The byte count is a
    size_t that is converted to int at the call. *)
Definition randomize (S : scalar) (draw : option (nat -> N)) (output : list S) : list S :=
  bytes_span S (List.length output)
    (RAND_bytes draw (wrap32 (zlen output * s_size S)) (span_bytes S output)).

(** gf128.cpp:194-196 *)
Definition gf_randomize (draw : option (nat -> N)) (a : gf128) : gf128 :=
  let mem := RAND_bytes draw (Z.quot 128 8) (to_bytes 8 (v0 a) ++ to_bytes 8 (v1 a)) in
  Gf (le_bytes (firstn 8 mem)) (le_bytes (skipn 8 mem)).
(** gf128.cpp:211-215 *)
Definition gf_random_element (draw : option (nat -> N)) : gf128 :=
  gf_randomize draw gf_default.

(** gf128.h:97-100; [combine] adds one 64-bit word to the state of the hash. *)
Definition gf_hash {H} (combine : H -> N -> H) (h : H) (x : gf128) : H :=
  combine (combine h (v1 x)) (v0 x).
(** AbslHashValue of absl::uint128 (int128.h of Abseil): high word, low word. *)
Definition uint128_hash {H} (combine : H -> N -> H) (h : H) (x : N) : H :=
  combine (combine h (x / 2^64)%N) (x mod 2^64)%N.

(** gf128.h:91-95. An archive is a sequence of numbers. Boost saves an array as
    its length followed by the elements. Loading reads the length, throws
    (None) if it is greater than that of the array and otherwise reads as many
    elements. *)
Definition gf_save (x : gf128) (ar : list N) : list N := ar ++ [2; v0 x; v1 x]%N.
Definition gf_load (x : gf128) (ar : list N) : option (gf128 * list N) :=
  match ar with
  | 0%N :: ar => Some (x, ar)
  | 1%N :: a :: ar => Some (Gf a (v1 x), ar)
  | 2%N :: a :: b :: ar => Some (Gf a b, ar)
  | _ => None
  end.
Definition gf_save_all (xs : list gf128) : list N := fold_left (fun ar x => gf_save x ar) xs [].
Fixpoint gf_load_all (xs : list gf128) (ar : list N) : option (list gf128 * list N) :=
  match xs with
  | [] => Some ([], ar)
  | x :: xs =>
      match gf_load x ar with
      | None => None
      | Some (x, ar) =>
          match gf_load_all xs ar with
          | None => None
          | Some (xs, ar) => Some (x :: xs, ar)
          end
      end
  end.

(** gf128.cpp:223-227, for a stream with default flags: Abseil prints a uint128 in
    decimal. *)
Definition gf_print (x : gf128) : string :=
  ("gf128(" ++ NilZero.string_of_uint (N.to_uint (gf_to_uint128 x)) ++ ")")%string.

(** ** The temporary of ScalarHelper<ZZ_p>::FromUint128 *)

(** ntl_helpers.cpp:38-45: contents of *NTLTemp() of a thread. *)
Definition ntl_temp (temp : option N) : N := match temp with None => 0%N | Some t => t end.

(** scalar_helpers.h:113-121 with the assignments to the temporary; the result
    and the temporary left behind. *)
Definition from_uint128_temp (p : positive) (temp : option N) (x : N) : zmod p * option N :=
  let t := ntl_temp temp in                               (* lines 114-115 *)
  let t := 0%N in                                         (* line 116 *)
  let t := (x / 2^64 mod 2^64)%N in                       (* line 117 *)
  let t := N.shiftl t 64 in                               (* line 118 *)
  let t := N.lor t (x mod 2^64) in                        (* line 119 *)
  (zmod_of_N p t, Some t).                                (* line 120 *)

(** Threads with their own modulus and temporary. *)
Definition threads := nat -> positive * option N.
Definition set_thread (ts : threads) (k : nat) v : threads :=
  fun j => if Nat.eqb j k then v else ts j.
(** A history: thread [k] installs a modulus or converts a number. The results are
    given as the modulus and the residue. *)
Inductive temp_op := TInstall (k : nat) (p : positive) | TConvert (k : nat) (x : N).
Fixpoint temp_run (ts : threads) (ops : list temp_op) : list (positive * N) :=
  match ops with
  | [] => []
  | TInstall k p :: ops => temp_run (set_thread ts k (p, snd (ts k))) ops
  | TConvert k x :: ops =>
      let '(p, temp) := ts k in
      let '(r, temp) := from_uint128_temp p temp x in
      (p, zval r) :: temp_run (set_thread ts k (p, temp)) ops
  end.
