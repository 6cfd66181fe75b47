(** C85-C87: random elements, gf128 as a key, in archives and in print, and the
    shared temporary of conversions. *)
From Coq Require Import DecimalString.
From Verif Require Import Base Gf128Model ScalarModel ScalarSpec RepModel RepSpec RepProofs.
Local Open Scope Z_scope.

(** C85. Integers and gf128: as long as the span has fewer than 2^31 bytes, every
    vector is the result for exactly one string of random bytes. *)
Theorem C85_every_vector_once : forall t (out v : list (scalar_of t)), raw_type t ->
  zlen out * s_size (scalar_of t) < 2^31 -> zlen v = zlen out ->
  exists! bytes, byte_string (zlen out * s_size (scalar_of t)) bytes /\
    randomize (scalar_of t) (Some (stream bytes)) out = v.
Proof. exact (fun t out v Ht => randomize_bijective t Ht out v). Qed.
Print Assumptions C85_every_vector_once.

Theorem C85_gf128_randomize : forall a v, gf_wf v ->
  exists! bytes, byte_string 16 bytes /\ gf_randomize (Some (stream bytes)) a = v.
Proof. exact gf_randomize_uniform. Qed.
Print Assumptions C85_gf128_randomize.

(** The number of bytes is passed to RAND_bytes as an int: in longer spans the
    elements from the wrapped count on keep their values. *)
Theorem C85_long_spans : forall t draw (out : list (scalar_of t)) d i, raw_type t ->
  0 <= i < zlen out -> wrap32 (zlen out * s_size (scalar_of t)) <= i * s_size (scalar_of t) ->
  znth d (randomize (scalar_of t) draw out) i = znth d out i.
Proof. exact (fun t draw out d i Ht => randomize_tail t Ht draw out d i). Qed.
Print Assumptions C85_long_spans.

Theorem C85_long_spans_refuted : forall t draw (x : scalar_of t) n, raw_type t ->
  2^31 <= n * s_size (scalar_of t) <= 2^32 ->
  randomize (scalar_of t) draw (zrepeat x n) = zrepeat x n.
Proof. exact randomize_repeat. Qed.
Print Assumptions C85_long_spans_refuted.

(** A failure of RAND_bytes goes unnoticed. *)
Theorem C85_failure_refuted :
  (forall t (out : list (scalar_of t)), raw_type t -> randomize (scalar_of t) None out = out) /\
  gf_random_element None = gf_zero.
Proof. exact randomize_unnoticed. Qed.
Print Assumptions C85_failure_refuted.

Example C85_example :
  raw_type UInt32 /\
  map (fun x => zval x) (randomize (scalar_of UInt32) (Some (stream [1; 2; 0; 0; 0; 0; 0; 255]%N))
                  [s_zero (scalar_of UInt32); s_one (scalar_of UInt32)]) = [513; 4278190080]%N /\
  gf_random_element (Some (stream [1; 0; 0; 0; 0; 0; 0; 0; 2; 0; 0; 0; 0; 0; 0; 0]%N)) = Gf 1 2 /\
  2^31 <= 2^28 * s_size (scalar_of (GF128 true)) <= 2^32.
Proof. vm_compute. repeat split; discriminate. Qed.

(** C86 *)
Theorem C86_hash : 
  (forall H (combine : H -> N -> H) h x y, gf_eqb x y = true -> gf_hash combine h x = gf_hash combine h y) /\
  (forall H (combine : H -> N -> H) h x, gf_wf x ->
     gf_hash combine h x = uint128_hash combine h (gf_to_uint128 x)) /\
  (forall x y h, gf_hash (fun words w => words ++ [w]) h x = gf_hash (fun words w => words ++ [w]) h y ->
     gf_eqb x y = true).
Proof. exact gf_hash_facts. Qed.
Print Assumptions C86_hash.

Theorem C86_archive : forall xs objects rest, List.length objects = List.length xs ->
  gf_load_all objects (gf_save_all xs ++ rest) = Some (xs, rest).
Proof. exact gf_archive. Qed.
Print Assumptions C86_archive.

(** An array of another length in the archive: a shorter one replaces the first
    words only, a longer one is an error. *)
Theorem C86_foreign_archive : forall x words rest,
  gf_load x (N.of_nat (List.length words) :: words ++ rest) =
  if (List.length words <=? 2)%nat
  then Some (Gf (nth 0 words (v0 x)) (nth 1 words (v1 x)), rest) else None.
Proof. exact gf_load_foreign. Qed.
Print Assumptions C86_foreign_archive.

Theorem C86_print : forall x, gf_wf x ->
  exists digits d, gf_print x = ("gf128(" ++ digits ++ ")")%string /\
    NilZero.uint_of_string digits = Some d /\ N.of_uint d = gf_to_uint128 x /\ Decimal.unorm d = d.
Proof. exact gf_print_facts. Qed.
Print Assumptions C86_print.

Theorem C86_print_injective : forall x y, gf_wf x -> gf_wf y -> gf_print x = gf_print y -> x = y.
Proof. exact gf_print_injective. Qed.
Print Assumptions C86_print_injective.

Example C86_example :
  gf_print (Gf 7 1) = "gf128(18446744073709551623)"%string /\
  gf_load_all [Gf 9 9; Gf 9 9] (gf_save_all [Gf 1 2; Gf 3 4]) = Some ([Gf 1 2; Gf 3 4], []) /\
  gf_hash (fun words w => words ++ [w]) [] (Gf 1 2) = [2; 1]%N.
Proof. vm_compute. repeat split. Qed.

(** C87 *)
Theorem C87_conversions : forall ops ts moduli, Forall converted ops -> (forall k, fst (ts k) = moduli k) ->
  temp_run ts ops = temp_expected moduli ops.
Proof. exact (fun ops ts moduli H => temp_run_correct ops H ts moduli). Qed.
Print Assumptions C87_conversions.

(** The same result as the conversion used by the protocols. *)
Theorem C87_same_conversion : forall p temp x, (x < 2^128)%N ->
  zval (fst (from_uint128_temp p temp x)) = (x mod Npos p)%N /\
  fst (from_uint128_temp p temp x) = s_of128 (scalar_of (ZZ_p p)) x.
Proof. exact from_uint128_temp_value. Qed.
Print Assumptions C87_same_conversion.

Example C87_example :
  let ops := [TConvert 0 100; TInstall 1 7; TConvert 1 (2^64 + 5); TConvert 0 20; TInstall 0 11; TConvert 0 20] in
  Forall converted ops /\
  temp_run (fun _ => (13%positive, None)) ops = [(13%positive, 9); (7%positive, 0); (13%positive, 7); (11%positive, 9)]%N.
Proof. split; [repeat constructor|vm_compute; reflexivity]. Qed.
