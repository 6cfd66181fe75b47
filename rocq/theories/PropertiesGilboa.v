(** Final theorems about the Gilboa product (C23-C25, C56). [K] =
    2^statistical_security; [ta], [tb] the parties' random tapes; [t] the scalar
    type. *)
From Verif Require Import Base BaseFacts ScalarModel ScalarSpec ProcModel ProcSpec
  GilboaModel GilboaSpec GilboaFinal.
From Coq Require Import QArith.
Local Open Scope Z_scope.

(** C23 *)
Theorem C23_shares_of_the_product : forall t, stype_ok t -> s_size (scalar_of t) <= 16 ->
  forall K x (y out_v out_x : list (scalar_of t)) ta tb,
  zlen out_v = zlen y -> zlen out_x = zlen y ->
  zlen y + 16 / s_size (scalar_of t) < 2^31 -> transfers (s_size (scalar_of t)) (zlen y) < 2^31 ->
  exists rv rx, completes (gilboa_vector_provider (scalar_of t) K y out_v) ta
                          (gilboa_value_provider (scalar_of t) K x out_x) tb (Ok rv) (Ok rx) /\
    zlen rv = zlen y /\ zlen rx = zlen y /\
    forall q, 0 <= q < zlen y ->
      let z := s_zero (scalar_of t) in
      s_add (scalar_of t) (znth z rv q) (znth z rx q) = s_mul (scalar_of t) x (znth z y q).
Proof. exact gilboa_correct. Qed.
Print Assumptions C23_shares_of_the_product.

Theorem C23_returned_vectors : forall t, stype_ok t -> s_size (scalar_of t) <= 16 ->
  forall K x (y : list (scalar_of t)) ta tb,
  zlen y + 16 / s_size (scalar_of t) < 2^31 -> transfers (s_size (scalar_of t)) (zlen y) < 2^31 ->
  exists rv rx, completes (gilboa_vector_provider_sized (scalar_of t) K y) ta
                          (gilboa_value_provider_sized (scalar_of t) K x (zlen y)) tb (Ok rv) (Ok rx) /\
    zlen rv = zlen y /\ zlen rx = zlen y /\
    forall q, 0 <= q < zlen y ->
      let z := s_zero (scalar_of t) in
      s_add (scalar_of t) (znth z rv q) (znth z rx q) = s_mul (scalar_of t) x (znth z y q).
Proof. exact gilboa_sized_correct. Qed.
Print Assumptions C23_returned_vectors.

Definition toy_tape (m : positive) : tape (zmod m) :=
  fun n => let i := N.of_nat n in (((i * i + 17) * 3^70) mod 2^128, zmod_of_N m (i * 77 + 5))%N.
Definition shown {m} (r : option (res (list (zmod m)) * res (list (zmod m)))) :=
  match r with Some (Ok a, Ok b) => Some (map zval a, map zval b) | _ => None end.

(** x = 1000, y = [3; 1; 4] modulo 1009 (1-out-of-2 OTs), and with uint32_t
    (correlated OTs, the vector is longer than one block). *)
Example C23_example :
  let S := scalar_of (zz_p 1009) in let c := s_of128 S in let z := s_zero S in
  let U := scalar_of UInt32 in let u := s_of128 U in
  use_correlated_ot S (inject_Z (2^40)) 3 = false /\
  shown (exec 2000 (gilboa_vector_provider S (inject_Z (2^40)) [c 3; c 1; c 4]%N [z; z; z]) (toy_tape _)
         (gilboa_value_provider S (inject_Z (2^40)) (c 1000%N) [z; z; z]) (toy_tape _) [] []) =
    Some ([666; 443; 220], [316; 557; 753])%N /\
  use_correlated_ot U (inject_Z (2^40)) 5 = true /\
  shown (exec 2000 (gilboa_vector_provider_sized U (inject_Z (2^40)) [u 3; u 1; u 4; u 1; u (2^31)]%N) (toy_tape _)
         (gilboa_value_provider_sized U (inject_Z (2^40)) (u 1000%N) 5) (toy_tape _) [] []) =
    Some ([3660121520; 2529677363; 2050995644; 3948694175; 1127180720],
          [634848776; 1765290933; 2243975652; 346274121; 3167786576])%N.
Proof. vm_compute. repeat split; reflexivity. Qed.

(** C24 *)
Theorem C24_vector_checks : forall (S : scalar) K (y out : list S),
  zlen y <> zlen out \/ 16 < s_size S ->
  exists m, returns (gilboa_vector_provider S K y out) (Err (invalid_argument m)).
Proof. exact gilboa_vector_checks. Qed.
Print Assumptions C24_vector_checks.

Theorem C24_value_checks : forall (S : scalar) K x (out : list S), 16 < s_size S ->
  exists m, returns (gilboa_value_provider S K x out) (Err (invalid_argument m)).
Proof. exact gilboa_value_checks. Qed.
Print Assumptions C24_value_checks.

Theorem C24_length_checks : forall (S : scalar) K x len, len < 0 \/ 16 < s_size S ->
  exists m, returns (gilboa_value_provider_sized S K x len) (Err (invalid_argument m)).
Proof. exact gilboa_value_sized_checks. Qed.
Print Assumptions C24_length_checks.

Example C24_example : 16 < s_size (scalar_of (ZZ_p (2^128 + 51))) /\ s_size (scalar_of (ZZ_p (2^127 + 29))) = 16.
Proof. vm_compute. split; reflexivity. Qed.

(** C25: with 1-out-of-2 OTs, replacing y by y' and translating the vector
    provider's random elements leaves the value provider's view unchanged,
    whatever its choice bits. The translation does not depend on the random
    elements, so it is a bijection on them. *)
Theorem C25_view_hides_vector_1of2 : forall t, stype_ok t -> s_size (scalar_of t) <= 16 ->
  forall K (y y' out : list (scalar_of t)) choices,
  zlen out = zlen y -> zlen y' = zlen y -> use_correlated_ot (scalar_of t) K (zlen y) = false ->
  zlen choices = transfers (s_size (scalar_of t)) (zlen y) -> transfers (s_size (scalar_of t)) (zlen y) < 2^31 ->
  exists shift : nat -> scalar_of t, forall ta, exists view,
    ot_view (gilboa_vector_provider (scalar_of t) K y out) ta choices = Some view /\
    ot_view (gilboa_vector_provider (scalar_of t) K y' out)
      (fun n => (fst (ta n), s_add (scalar_of t) (snd (ta n)) (shift n))) choices = Some view.
Proof. exact gilboa_view_1of2. Qed.
Print Assumptions C25_view_hides_vector_1of2.

(** The same for correlated OTs and the types that use all bit patterns, with a
    bijection of each random block. *)
Theorem C25_view_hides_vector_cot : forall t, stype_ok t -> s_size (scalar_of t) <= 16 ->
  forall K (y y' out : list (scalar_of t)) choices,
  full_range t = true ->
  zlen out = zlen y -> zlen y' = zlen y -> use_correlated_ot (scalar_of t) K (zlen y) = true ->
  zlen choices = transfers (s_size (scalar_of t)) (zlen y) ->
  exists f : nat -> N -> N, (forall i, block_bijection (f i)) /\
  forall ta, (forall i, (fst (ta i) < 2^128)%N) -> exists view,
    ot_view (gilboa_vector_provider (scalar_of t) K y out) ta choices = Some view /\
    ot_view (gilboa_vector_provider (scalar_of t) K y' out) (fun n => (f n (fst (ta n)), snd (ta n))) choices = Some view.
Proof. exact gilboa_view_cot. Qed.
Print Assumptions C25_view_hides_vector_cot.

Example C25_example :
  (forall n, 0 <= n -> use_correlated_ot (scalar_of UInt16) (inject_Z (2^40)) n = true) /\
  use_correlated_ot (scalar_of (ZZ_p (2^80 + 13))) (inject_Z (2^40)) 1000 = false /\
  transfers (s_size (scalar_of (ZZ_p (2^80 + 13)))) 3 = 264 /\ transfers 2 9 = 32.
Proof. split; [reflexivity|]. vm_compute. repeat split; reflexivity. Qed.

(** C56: the limits on the length are exact. *)
Theorem C56_too_many_transfers : forall t, stype_ok t -> s_size (scalar_of t) <= 16 ->
  forall K x (out : list (scalar_of t)),
  zlen out + 16 / s_size (scalar_of t) < 2^31 -> 2^31 <= transfers (s_size (scalar_of t)) (zlen out) ->
  exists w, returns (gilboa_value_provider (scalar_of t) K x out) (UB w).
Proof. exact gilboa_overflow. Qed.
Print Assumptions C56_too_many_transfers.

Theorem C56_too_long : forall t, stype_ok t -> s_size (scalar_of t) <= 16 ->
  forall K x (out : list (scalar_of t)),
  zlen out < 2^31 <= zlen out + 16 / s_size (scalar_of t) ->
  exists w, returns (gilboa_value_provider (scalar_of t) K x out) (UB w).
Proof. exact gilboa_overflow2. Qed.
Print Assumptions C56_too_long.

(** On the other side, a vector provider with 1-out-of-2 transfers and that
    many of them transfers only zeros, whatever its vector and randomness. *)
Theorem C56_vector_provider_sends_zeros : forall t, stype_ok t -> s_size (scalar_of t) <= 16 ->
  forall K (y out : list (scalar_of t)) choices,
  zlen out = zlen y -> use_correlated_ot (scalar_of t) K (zlen y) = false ->
  zlen choices = transfers (s_size (scalar_of t)) (zlen y) ->
  2^31 <= transfers (s_size (scalar_of t)) (zlen y) < 2^32 ->
  forall ta, ot_view (gilboa_vector_provider (scalar_of t) K y out) ta choices = Some (map (fun _ => 0%N) choices).
Proof. exact gilboa_view_zeros. Qed.
Print Assumptions C56_vector_provider_sends_zeros.

(** 2^24 elements of gf128 are enough; 2^24 - 1 are still fine. *)
Example C56_example : transfers 16 (2^24) = 2^31 /\ transfers 16 (2^24 - 1) < 2^31.
Proof. vm_compute. split; reflexivity. Qed.
