(** C81: how much a value provider of the Gilboa product learns when correlated
    oblivious transfers are used. *)
From Coq Require Import QArith Qabs.
From Verif Require Import Base ScalarModel ScalarSpec PackModel ProcModel ProcSpec GilboaModel GilboaSpec ViewSpec ViewFinal ViewWitness.
Local Open Scope Z_scope.

(** The vector provider's random blocks are uniform. Whatever choice bits the
    value provider uses, and whatever test [D] it makes on the messages it gets,
    two vectors of the same length are told apart with an advantage of at most
    (bits of an element) * (number of elements) * (2^bits mod order) / 2^bits. *)
Theorem C81_distance : forall t K (y y' out : list (scalar_of t)) choices D,
  stype_ok t -> s_size (scalar_of t) <= 16 -> zlen out = zlen y -> zlen y' = zlen y ->
  use_correlated_ot (scalar_of t) K (zlen y) = true ->
  zlen choices = transfers (s_size (scalar_of t)) (zlen y) ->
  let bits := 8 * s_size (scalar_of t) in
  (Qabs (view_probability t K y out choices D - view_probability t K y' out choices D)
   <= inject_Z (bits * zlen y) * (inject_Z (2 ^ bits mod Z.of_N (order t)) / inject_Z (2 ^ bits)))%Q.
Proof. intros t K y y' out choices D Ht H16 H1 H2 Hc H3. exact (view_distance t Ht H16 K y y' out choices D H1 H2 Hc H3). Qed.
Print Assumptions C81_distance.

(** Nothing is learnt with unsigned integers and gf128. *)
Theorem C81_full_range : forall t K (y y' out : list (scalar_of t)) choices D,
  stype_ok t -> s_size (scalar_of t) <= 16 -> full_range t = true -> zlen out = zlen y -> zlen y' = zlen y ->
  use_correlated_ot (scalar_of t) K (zlen y) = true ->
  zlen choices = transfers (s_size (scalar_of t)) (zlen y) ->
  (view_probability t K y out choices D == view_probability t K y' out choices D)%Q.
Proof. intros t K y y' out choices D Ht H16 Hf. exact (views_full_range t Ht H16 K y y' out choices D Hf). Qed.
Print Assumptions C81_full_range.

(** Nothing is learnt either with elements so small that 2^bits is at most the
    length times 2^statistical_security: only moduli that divide 2^bits are then
    used with correlated oblivious transfers. *)
Theorem C81_small : forall t K (y y' out : list (scalar_of t)) choices D,
  stype_ok t -> s_size (scalar_of t) <= 16 ->
  (inject_Z (2 ^ (8 * s_size (scalar_of t))) <= inject_Z (zlen y) * K)%Q ->
  zlen out = zlen y -> zlen y' = zlen y ->
  use_correlated_ot (scalar_of t) K (zlen y) = true ->
  zlen choices = transfers (s_size (scalar_of t)) (zlen y) ->
  (view_probability t K y out choices D == view_probability t K y' out choices D)%Q.
Proof. intros t K y y' out choices D Ht H16 HK. exact (views_small t Ht H16 K y y' out choices D HK). Qed.
Print Assumptions C81_small.

(** Elements of 8 or 16 bytes: the advantage is below 8 * SizeOf / 2^statistical_security. *)
Theorem C81_sizes_8_and_16 : forall t K (y y' out : list (scalar_of t)) choices D,
  stype_ok t -> (0 < K)%Q -> s_size (scalar_of t) = 8 \/ s_size (scalar_of t) = 16 ->
  zlen out = zlen y -> zlen y' = zlen y ->
  use_correlated_ot (scalar_of t) K (zlen y) = true ->
  zlen choices = transfers (s_size (scalar_of t)) (zlen y) ->
  (Qabs (view_probability t K y out choices D - view_probability t K y' out choices D)
   < inject_Z (8 * s_size (scalar_of t)) / K)%Q.
Proof.
  intros t K y y' out choices D Ht HK Hs.
  exact (views_8_16 t Ht ltac:(destruct Hs; lia) K y y' out choices D HK Hs).
Qed.
Print Assumptions C81_sizes_8_and_16.

(** "Below 2^-statistical_security" is false. The check ignores that 8 * SizeOf
    transfers carry each element: with 40 bits of security, 64-bit elements and
    an honest value provider, 39 times as much is reached. *)
Theorem C81_one_transfer_per_element_refuted : exists p x y y' out D,
  let t := ZZ_p p in let S := scalar_of t in let K := inject_Z (2 ^ 40) in
  stype_ok t /\ s_size S = 8 /\ zlen y = 1 /\ zlen y' = 1 /\ use_correlated_ot S K 1 = true /\
  (39 / K < Qabs (view_probability t K y out (get_bits S x) D - view_probability t K y' out (get_bits S x) D))%Q.
Proof. exact one_transfer_per_element. Qed.
Print Assumptions C81_one_transfer_per_element_refuted.

(** With 104-bit elements an honest value provider tells two vectors apart with
    advantage 1/4 although 40 bits of security were asked for. *)
Theorem C81_middle_sizes_refuted : exists p x y y' out D,
  let t := ZZ_p p in let S := scalar_of t in let K := inject_Z (2 ^ 40) in
  stype_ok t /\ s_size S = 13 /\ zlen y = 1 /\ zlen y' = 1 /\ use_correlated_ot S K 1 = true /\
  (Qabs (view_probability t K y out (get_bits S x) D - view_probability t K y' out (get_bits S x) D) == 1 # 4)%Q.
Proof. exact middle_sizes. Qed.
Print Assumptions C81_middle_sizes_refuted.

(** The hypotheses hold for two uint32_t vectors, for two vectors modulo 2^7, and
    for a 64-bit prime with vectors of length two. *)
Example C81_example :
  (use_correlated_ot (scalar_of UInt32) (inject_Z (2^40)) 2 = true /\ transfers (s_size (scalar_of UInt32)) 2 = 32) /\
  (use_correlated_ot (scalar_of (ZZ_p (2^7))) (inject_Z (2^40)) 2 = true /\ s_size (scalar_of (ZZ_p (2^7))) = 1 /\
   Qle_bool (inject_Z (2 ^ 8)) (inject_Z 2 * inject_Z (2^40)) = true) /\
  (let p := (2^64 - 59)%positive in use_correlated_ot (scalar_of (ZZ_p p)) (inject_Z (2^40)) 2 = true /\
   s_size (scalar_of (ZZ_p p)) = 8 /\ transfers 8 2 = 64 /\ 2 ^ 64 mod Z.of_N (order (ZZ_p p)) = 59).
Proof. vm_compute. repeat split; reflexivity. Qed.
