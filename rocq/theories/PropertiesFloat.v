(** Final theorems about the computations with doubles (C70-C76). [log], [log2],
    [sqrt], [erf] and [pow] are the functions of the C library; [accurate] says
    that their error is below one unit in the last place (FloatSpec.v). *)
From Coq Require Import ZArith NArith Reals Lra Lia QArith Qreals Qabs List.
From Flocq.Core Require Import Core.
From Verif Require Import Base BaseFacts ScalarModel ScalarSpec ScalarProofs GgmModel GgmSpec RotModel RotSpec CuckooModel CuckooSpec
  RngModel ProcModel ProcSpec MpfssModel MpfssSpec VoleModel VoleSpec VoleToy VoleSucceed FloatSpec FloatModel FloatFacts FloatLevels FloatSecurity FloatErf FloatBuckets FloatFinal UniformModel UniformSpec.
Import ListNotations.
Local Open Scope R_scope.

(** The hypotheses on the C library can be met: correctly rounded functions are
    accurate. *)
Lemma correctly_rounded f : accurate f (fun x => nearest (f x)).
Proof. intros x. apply round_DN_or_UP. typeclasses eauto. Qed.
Lemma correctly_rounded_pow : accurate_pow (fun x y => nearest (Rpower x y)).
Proof. intros x y _. apply round_DN_or_UP. typeclasses eauto. Qed.

(** C70: with k + 1 levels there is room for all leaves, and with k - 1 levels
    there would be room for fewer leaves, or just enough. *)
Theorem C70_levels : forall log arity n, accurate ln log -> (2 <= arity < 2^31)%Z -> (1 <= n <= 2^42)%Z ->
  exists k, (num_levels_double log arity n = k + 1 /\ n <= arity ^ k /\
    (n = 1 -> k = 0) /\ (1 < n -> 1 <= k /\ arity ^ (k - 1) <= n))%Z.
Proof. exact levels_ok. Qed.
Print Assumptions C70_levels.

(** GGMTree::Create, computing the number of levels with doubles. *)
Theorem C70_create : forall log aes n seed keys, accurate ln log -> (2 <= zlen keys < 2^31)%Z -> (1 <= n <= 2^42)%Z ->
  exists t, ggm_create aes (clog_double log) n seed keys = Ok t /\
    height t = num_levels_double log (zlen keys) n /\ num_leaves t = n /\
    well_shaped t (zlen keys) n /\ is_ggm_tree aes seed keys t.
Proof. exact create_double. Qed.
Print Assumptions C70_create.

(** What the theorems about protocols ask of the number of levels. *)
Theorem C70_supported : forall log n, accurate ln log -> (n <= 2^31)%Z -> supported_size (clog_double log) n.
Proof. exact supported_double. Qed.
Print Assumptions C70_supported.

(** The check of GGMTree::CreateFromSiblingWiseXOR that there are enough levels is
    exact. *)
Theorem C70_check : forall pow arity levels n, accurate_pow pow ->
  (2 <= arity < 2^31)%Z -> (1 <= levels <= 2^31)%Z -> (0 <= n < 2^53)%Z ->
  too_few_levels pow arity levels n = (arity ^ (levels - 1) <? n)%Z.
Proof. exact pow_check. Qed.
Print Assumptions C70_check.

Example C70_example : let log x := nearest (ln x) in
  accurate ln log /\ exists k, (num_levels_double log 5 1000 = k + 1 /\ k = 5)%Z.
Proof.
  split; [apply correctly_rounded|].
  destruct (C70_levels (fun x => nearest (ln x)) 5 1000 (correctly_rounded _) ltac:(lia) ltac:(lia)) as (k & E & H1 & _ & H2).
  exists k. split; [exact E|]. destruct (H2 ltac:(lia)) as (H3 & H4).
  assert (k <= 5)%Z. { destruct (Z_le_gt_dec k 5) as [G|G]; [exact G|]. assert (5^5 <= 5^(k-1))%Z by (apply Z.pow_le_mono_r; lia). lia. }
  assert (5 <= k)%Z. { destruct (Z_le_gt_dec 5 k) as [G|G]; [exact G|]. assert (5^k <= 5^4)%Z by (apply Z.pow_le_mono_r; lia). lia. }
  lia.
Qed.

(** C71: if the check accepts, all [total] elements together have at most the
    distance 2^-s from uniform, up to 2^-39 bits. *)
Theorem C71_sound : forall log2 t s total (B : scalar_of t -> bool),
  accurate Rlog2 log2 -> stype_ok t -> (s_size (scalar_of t) <= 16)%Z -> 0 <= s <= 512 -> (1 <= total < 2^63)%Z ->
  can_be_hashed_into log2 t (security_per_element log2 (Fin s) total) 128 = true ->
  IZR total * Q2R (Qabs (hash_prob t 128 B - uniform_prob t B)) <= exp2 (rounding_slack - s).
Proof. exact sound. Qed.
Print Assumptions C71_sound.

(** Types with few enough elements are accepted. *)
Theorem C71_complete : forall log2 t s total, accurate Rlog2 log2 -> stype_ok t -> 0 <= s <= 512 -> (1 <= total < 2^63)%Z ->
  IZR (Z.of_N (order t)) * IZR total * exp2 (s + rounding_slack) <= exp2 128 ->
  can_be_hashed_into log2 t (security_per_element log2 (Fin s) total) 128 = true.
Proof. exact complete. Qed.
Print Assumptions C71_complete.

(** A sum of sizes that became negative by overflow is rejected. *)
Theorem C71_negative : forall log2 p s total, accurate Rlog2 log2 -> (- 2^63 <= total < 0)%Z ->
  can_be_hashed_into log2 (zz_p p) (security_per_element log2 s total) 128 = false /\
  ((Npos p < 2^128)%N -> can_be_hashed_into log2 (ZZ_p p) (security_per_element log2 s total) 128 = false).
Proof. exact negative_rejected. Qed.
Print Assumptions C71_negative.

(** The check agrees with the exact one of the other models for all K that differ
    from 2^s by more than 2^-39 bits. *)
Theorem C71_exact : forall log2, accurate Rlog2 log2 -> forall t s total h K,
  stype_ok t -> 0 <= s <= 512 -> (0 <= h <= 512)%Z -> (- 2^63 <= total < 2^63)%Z ->
  let double := can_be_hashed_into log2 t (security_per_element log2 (Fin s) total) h in
  let exact := s_can_hash (scalar_of t) (security_per_leaf K total) h in
  (Q2R K <= exp2 (s - rounding_slack) -> double = true -> exact = true) /\
  (exp2 (s + rounding_slack) <= Q2R K -> exact = true -> double = true).
Proof. exact check. Qed.
Print Assumptions C71_exact.

(** What DistributedVectorOLE::Create passes on: s + log2(3) to its components, and
    one more bit to the components of MPFSSKnownIndices. *)
Theorem C71_passed_on : forall log2 s, accurate Rlog2 log2 -> 0 <= s <= 256 ->
  exists x y, vole_security log2 (Fin s) = Fin x /\ - rounding_slack < x - (s + Rlog2 3) < rounding_slack /\
              mpfss_security log2 (Fin s) = Fin y /\ - rounding_slack < y - (s + Rlog2 3 + 1) < rounding_slack.
Proof. exact passed_on. Qed.
Print Assumptions C71_passed_on.

Example C71_example : let log2 x := nearest (Rlog2 x) in
  accurate Rlog2 log2 /\ stype_ok (zz_p 1009) /\ (s_size (scalar_of (zz_p 1009)) <= 16)%Z /\
  can_be_hashed_into log2 (zz_p 1009) (security_per_element log2 (Fin 40) 1000000) 128 = true.
Proof.
  pose proof (correctly_rounded Rlog2) as H. split; [exact H|]. split; [split; [reflexivity|discriminate]|]. split; [vm_compute; discriminate|].
  apply C71_complete; [exact H|split; [reflexivity|discriminate]|lra|lia|].
  change (Z.of_N (order (zz_p 1009))) with 1009%Z. rewrite <- mult_IZR.
  assert (E : exp2 (40 + rounding_slack) <= IZR (2^41)).
  { rewrite <- exp2_int by lia. apply exp2_le. unfold rounding_slack. lra. }
  assert (F : exp2 128 = IZR (2^128)) by (apply exp2_int; lia).
  rewrite F. eapply Rle_trans; [apply Rmult_le_compat_l; [|exact E]; apply IZR_le; lia|]. rewrite <- mult_IZR. apply IZR_le. vm_compute. discriminate.
Qed.

(** C72: the remainders that HashSimple and HashCuckoo use as bucket numbers. For
    uniform 128-bit hash values the bucket numbers of all inputs and hash functions
    together have at most the distance 2^-s from uniform, up to 2^-39 bits. *)
Theorem C72_simple : forall log2 aes seed num h s sizes inputs b r (B : Z -> bool),
  accurate Rlog2 log2 -> cuckoo_create seed num = Ok h ->
  0 <= s <= 512 -> (num < 2^31)%Z -> (1 <= zlen inputs < 2^63)%Z -> (b < 2^63)%Z ->
  hash_simple aes (too_many_bits_double log2 (Fin s) num) h sizes inputs b = Ok r ->
  IZR (zlen inputs * num) *
    Q2R (Qabs (fraction (2^128) (fun v => B (hash_to_bucket aes h v b 0)) - fraction (Z.to_N b) (fun v => B (Z.of_N v))))
  <= exp2 (rounding_slack - s).
Proof. exact simple_close. Qed.
Print Assumptions C72_simple.

Theorem C72_cuckoo : forall log2 aes seed num h s inputs b r (B : Z -> bool),
  accurate Rlog2 log2 -> cuckoo_create seed num = Ok h ->
  0 <= s <= 512 -> (num < 2^31)%Z -> (1 <= zlen inputs < 2^63)%Z -> (b < 2^63)%Z ->
  hash_cuckoo aes (too_many_bits_double log2 (Fin s) num) h inputs b = Ok r ->
  IZR (zlen inputs * num) *
    Q2R (Qabs (fraction (2^128) (fun v => B (hash_to_bucket aes h v b 0)) - fraction (Z.to_N b) (fun v => B (Z.of_N v))))
  <= exp2 (rounding_slack - s).
Proof. exact cuckoo_close. Qed.
Print Assumptions C72_cuckoo.

(** n * num * b values below 2^(128 - s) are accepted, larger ones are rejected. *)
Theorem C72_accepts : forall log2 aes seed num h s sizes inputs b, accurate Rlog2 log2 -> cuckoo_create seed num = Ok h ->
  0 <= s <= 512 -> (num < 2^31)%Z -> (zlen inputs < 2^63)%Z -> (1 <= b < 2^63)%Z -> division (zlen inputs) sizes ->
  IZR (zlen inputs * num * b) < exp2 (128 - s - rounding_slack) ->
  exists r, hash_simple aes (too_many_bits_double log2 (Fin s) num) h sizes inputs b = Ok r.
Proof. exact simple_accepts. Qed.
Print Assumptions C72_accepts.

Theorem C72_rejects : forall log2 aes seed num h s sizes inputs b, accurate Rlog2 log2 -> cuckoo_create seed num = Ok h ->
  0 <= s <= 512 -> (num < 2^31)%Z -> (1 <= zlen inputs < 2^63)%Z -> (1 <= b < 2^63)%Z ->
  exp2 (128 - s + rounding_slack) < IZR (zlen inputs * num * b) ->
  exists m, hash_simple aes (too_many_bits_double log2 (Fin s) num) h sizes inputs b = Err (invalid_argument m).
Proof. exact simple_rejects. Qed.
Print Assumptions C72_rejects.

Example C72_example : let log2 x := nearest (Rlog2 x) in
  exists r, hash_simple toy_aes (too_many_bits_double log2 (Fin 40) 3) (Hasher 7 3) [3%Z] [5; 6; 7]%N 10 = Ok r.
Proof.
  apply (C72_accepts _ toy_aes 7 3 (Hasher 7 3) 40 [3%Z] [5; 6; 7]%N 10); try reflexivity; try lia; try lra.
  - apply correctly_rounded.
  - split; [repeat constructor; lia|reflexivity].
  - change (zlen [5; 6; 7]%N * 3 * 10)%Z with 90%Z. apply Rlt_trans with (IZR (2^10)); [apply IZR_lt; reflexivity|].
    rewrite <- exp2_int by lia. apply exp2_lt. unfold rounding_slack. lra.
Qed.
Example C72_example_rejected : let log2 x := nearest (Rlog2 x) in
  exists m, hash_simple toy_aes (too_many_bits_double log2 (Fin 128) 3) (Hasher 7 3) [3%Z] [5; 6; 7]%N 10 = Err (invalid_argument m).
Proof.
  apply (C72_rejects _ toy_aes 7 3 (Hasher 7 3) 128 [3%Z] [5; 6; 7]%N 10); try reflexivity; try lia; try lra.
  - apply correctly_rounded.
  - split; [discriminate|reflexivity].
  - change (zlen [5; 6; 7]%N * 3 * 10)%Z with 90%Z. apply Rlt_trans with (IZR (2^1)); [|apply IZR_lt; reflexivity].
    rewrite <- exp2_int by lia. apply exp2_lt. unfold rounding_slack. lra.
Qed.

(** C73: GetOptimalNumberOfBuckets with three hash functions. There are at least as
    many buckets as inputs, so that HashCuckoo does not reject the result, and the
    conversion to int64_t is defined. *)
Theorem C73_three_hash_functions : forall log2 csqrt f erf s seed h n expansion2,
  accurate Rlog2 log2 -> accurate sqrt csqrt -> is_erf f -> accurate f erf ->
  12 <= s <= 512 -> (1 <= n < 2^48)%Z -> cuckoo_create seed 3 = Ok h ->
  exists b, get_optimal_number_of_buckets (fun n => to_int64 (num_buckets_3 log2 csqrt erf s n)) expansion2 h n = Ok b /\
    (n <= b <= 2^14 * n /\ (64 <= n < 2^12 -> b <= 16 * n))%Z.
Proof. exact buckets_3. Qed.
Print Assumptions C73_three_hash_functions.

Example C73_example : exists f, is_erf f /\
  let log2 x := nearest (Rlog2 x) in let csqrt x := nearest (sqrt x) in let erf x := nearest (f x) in
  accurate Rlog2 log2 /\ accurate sqrt csqrt /\ accurate f erf /\
  exists b, get_optimal_number_of_buckets (fun n => to_int64 (num_buckets_3 log2 csqrt erf 40 n)) (fun _ => 0%Z) (Hasher 7 3) 1254 = Ok b /\
    (1254 <= b <= 16 * 1254)%Z.
Proof.
  destruct erf_exists as (f & Hf). exists f. split; [exact Hf|]. split; [apply correctly_rounded|]. split; [apply correctly_rounded|].
  split; [apply correctly_rounded|].
  destruct (C73_three_hash_functions (fun x => nearest (Rlog2 x)) (fun x => nearest (sqrt x)) f (fun x => nearest (f x)) 40 7 (Hasher 7 3) 1254 (fun _ => 0%Z)) as (b & E & H1 & H2);
    try apply correctly_rounded; try exact Hf; try lra; try lia; try reflexivity.
  exists b. split; [exact E|]. specialize (H2 ltac:(lia)). lia.
Qed.

(** C74: with two hash functions the search ends after at most 2^k rounds if
    s <= 3.3 k - 1.3, and there are between n and 2^k n buckets. *)
Theorem C74_two_hash_functions : forall log2 pow s n k, accurate Rlog2 log2 -> accurate_pow pow ->
  (1 <= n < 2^48)%Z -> (2 <= k <= 50)%Z -> s <= 33 / 10 * IZR k - 13 / 10 ->
  exists b, (forall rounds, (2^k <= Z.of_nat rounds)%Z -> num_buckets_2 log2 pow s rounds n = Some b) /\ (n <= b <= 2^k * n)%Z.
Proof. exact buckets_2. Qed.
Print Assumptions C74_two_hash_functions.

(** "GetOptimalNumberOfBuckets returns for every statistical security" is refuted:
    from 225 bits on the loop does not end, because adding 1 to 2^53 changes
    nothing. *)
Theorem C74_termination_refuted : forall log2 pow s n, accurate Rlog2 log2 -> accurate_pow pow ->
  (1 <= n < 2^48)%Z -> 225 <= s -> forall rounds, num_buckets_2 log2 pow s rounds n = None.
Proof. exact (fun log2 pow s n H1 H2 H3 H4 rounds => two_diverges log2 pow H1 H2 s n H3 rounds H4). Qed.
Print Assumptions C74_termination_refuted.

Example C74_example : let log2 x := nearest (Rlog2 x) in let pow x y := nearest (Rpower x y) in
  accurate Rlog2 log2 /\ accurate_pow pow /\
  (exists b, (forall rounds, (2^13 <= Z.of_nat rounds)%Z -> num_buckets_2 log2 pow 40 rounds 1000 = Some b) /\ (1000 <= b <= 2^13 * 1000)%Z) /\
  (forall rounds, num_buckets_2 log2 pow 256 rounds 1000 = None).
Proof.
  split; [apply correctly_rounded|]. split; [exact correctly_rounded_pow|]. split.
  - apply C74_two_hash_functions; [apply correctly_rounded|exact correctly_rounded_pow|lia|lia|lra].
  - apply C74_termination_refuted; [apply correctly_rounded|exact correctly_rounded_pow|lia|lra].
Qed.

(** C75: the library's parameters, with levels, bucket numbers and bit checks
    computed as the code does, meet the hypotheses of the theorems about
    DistributedVectorOLE (C38-C51, C58-C69). *)
Theorem C75_library_parameters : forall t log log2 csqrt f erf s (E : setting),
  stype_ok t -> (s_size (scalar_of t) <= 16)%Z ->
  accurate ln log -> accurate Rlog2 log2 -> accurate sqrt csqrt -> is_erf f -> accurate f erf -> 12 <= s <= 80 ->
  e_parameters E = library_parameters -> e_clog E = clog_double log ->
  (exists x, mpfss_security log2 (Fin s) = Fin x /\
     e_too_many_bits E = too_many_bits_double log2 (Fin x) 3 /\
     e_expansion3 E = (fun n => to_int64 (num_buckets_3 log2 csqrt erf x n))) ->
  (forall n, (e_expansion2 E n < 2^63)%Z) ->
  (forall n g, (1 <= n)%Z -> usable g ->
    match e_uniform E n g with
    | Ok (g', i) => (0 <= i < n)%Z /\ drawn (e_aes E) g g'
    | Err _ => False
    | UB w => In w rng_ub
    end) ->
  good_setting (scalar_of t) E.
Proof. exact library_double. Qed.
Print Assumptions C75_library_parameters.
(** With std::uniform_int_distribution as in libstdc++ (C89) nothing remains to be
    assumed about the draws. *)
Theorem C75_library_draws : forall t log log2 csqrt f erf s uniform (E : setting),
  stype_ok t -> (s_size (scalar_of t) <= 16)%Z ->
  accurate ln log -> accurate Rlog2 log2 -> accurate sqrt csqrt -> is_erf f -> accurate f erf -> 12 <= s <= 80 ->
  e_parameters E = library_parameters -> e_clog E = clog_double log ->
  (exists x, mpfss_security log2 (Fin s) = Fin x /\
     e_too_many_bits E = too_many_bits_double log2 (Fin x) 3 /\
     e_expansion3 E = (fun n => to_int64 (num_buckets_3 log2 csqrt erf x n))) ->
  (forall n, (e_expansion2 E n < 2^63)%Z) -> library_draw uniform -> e_uniform E = uniform (e_aes E) ->
  good_setting (scalar_of t) E.
Proof. exact library_draws_good. Qed.
Print Assumptions C75_library_draws.

Example C75_example : exists E : setting, e_parameters E = library_parameters /\ good_setting (scalar_of UInt64) E /\ good_setting (scalar_of (zz_p 1009)) E.
Proof.
  destruct erf_exists as (f & Hf).
  destruct (passed_on (fun x => nearest (Rlog2 x)) 40 (correctly_rounded _) ltac:(lra)) as (u & x & _ & _ & Ex & _).
  exists (Setting library_parameters toy_aes (clog_double (fun x => nearest (ln x))) (inject_Z (2^40)) (too_many_bits_double (fun x => nearest (Rlog2 x)) (Fin x) 3)
    (fun n => to_int64 (num_buckets_3 (fun x => nearest (Rlog2 x)) (fun x => nearest (sqrt x)) (fun x => nearest (f x)) x n)) (fun _ => 0%Z) toy_uniform true).
  split; [reflexivity|].
  split; (apply (C75_library_parameters _ (fun x => nearest (ln x)) (fun x => nearest (Rlog2 x)) (fun x => nearest (sqrt x)) f (fun x => nearest (f x)) 40);
    [exact I || (split; [reflexivity|discriminate])|vm_compute; discriminate|apply correctly_rounded|apply correctly_rounded|apply correctly_rounded|exact Hf|apply correctly_rounded|lra|reflexivity|reflexivity|exists x; auto|intros; cbn; lia|cbn [e_uniform e_aes]; exact (gs_uniform _ _ (toy_good (inject_Z (2^40))))]).
Qed.

(** Sessions with the library's parameters, as in C69. The scalar types here pass
    the security checks whatever the security, so that K does not matter. *)
Theorem C75_sessions : forall t log log2 csqrt f erf s (E : setting),
  In t [UInt8; UInt16; UInt32; UInt64; UInt128; GF128 true; GF128 false] ->
  accurate ln log -> accurate Rlog2 log2 -> accurate sqrt csqrt -> is_erf f -> accurate f erf -> 12 <= s <= 80 ->
  e_parameters E = library_parameters -> e_clog E = clog_double log -> (0 < e_K E)%Q ->
  (exists x, mpfss_security log2 (Fin s) = Fin x /\
     e_too_many_bits E = too_many_bits_double log2 (Fin x) 3 /\
     e_expansion3 E = (fun n => to_int64 (num_buckets_3 log2 csqrt erf x n))) ->
  (forall n, (e_expansion2 E n < 2^63)%Z) ->
  (forall n g, (1 <= n)%Z -> usable g ->
    match e_uniform E n g with
    | Ok (g', i) => (0 <= i < n)%Z /\ drawn (e_aes E) g g'
    | Err _ => False
    | UB w => In w rng_ub
    end) ->
  let S := scalar_of t in
  forall MA MB : machine S, good_machine S MA -> good_machine S MB -> connected MA MB ->
  forall go_on, go_on insertion_failed = false -> forall l ta tb, orderly None l ->
  exists n, forall m d, steps m (start (party S E MA go_on l) ta (party S E MB go_on (opposite S l)) tb) d ->
    (m <= n)%nat /\ (stuck d -> good_end S go_on l d).
Proof. exact library_sessions. Qed.
Print Assumptions C75_sessions.

(** example/example.cpp: one call RunSender(200000) and one call RunReceiver(200000)
    with 16-bit integers. *)
Example C75_example_program : orderly (S := scalar_of UInt16) None [(true, Run 200000)] /\ In UInt16 [UInt8; UInt16; UInt32; UInt64; UInt128; GF128 true; GF128 false].
Proof. split; [cbn; intuition lia|cbn; auto]. Qed.

(** C76: DistributedVectorOLE::Create fails for a missing channel and for negative
    securities, and then only; otherwise the same security reaches the generator
    and the Gilboa product, and the same security the random OTs and the hasher. *)
Theorem C76_create : forall log2 null s, accurate Rlog2 log2 ->
  (null = true \/ dlt s (Fin 0) = true -> exists m, vole_create_security log2 null s = Err (invalid_argument m)) /\
  (null = false -> dlt s (Fin 0) = false ->
   vole_create_security log2 null s = Ok (vole_security log2 s, vole_security log2 s, (mpfss_security log2 s, mpfss_security log2 s))).
Proof. exact create_outcome. Qed.
Print Assumptions C76_create.

Theorem C76_accepted_values : forall s, dlt s (Fin 0) = false <-> s = NaN \/ s = Inf false \/ exists x, s = Fin x /\ 0 <= x.
Proof. exact accepted_values. Qed.
Print Assumptions C76_accepted_values.

(** "Create accepts only securities that make sense" is refuted: NaN is accepted
    and passed on, and then the hasher accepts every number of buckets, although
    integers modulo p are never accepted. *)
Theorem C76_nan_refuted : forall log2,
  vole_create_security log2 false NaN = Ok (NaN, NaN, (NaN, NaN)) /\
  (forall num n b, too_many_bits_double log2 NaN num n b = false) /\
  (forall p total h, (0 <= h <= 128)%Z -> can_be_hashed_into log2 (zz_p p) (security_per_element log2 NaN total) h = false).
Proof. exact (fun log2 => conj (nan_passed_on log2) (conj (nan_accepts log2) (nan_rejects log2))). Qed.
Print Assumptions C76_nan_refuted.

(** The same for CuckooHasher::Create, which does not check the security: with -100
    all sizes are accepted. *)
Theorem C76_hasher_refuted : forall log2 num n b, accurate Rlog2 log2 -> (1 <= num < 2^31)%Z -> (1 <= n < 2^63)%Z -> (1 <= b < 2^63)%Z ->
  too_many_bits_double log2 (Fin (-100)) num n b = false.
Proof. exact negative_accepts. Qed.
Print Assumptions C76_hasher_refuted.

Example C76_example : let log2 x := nearest (Rlog2 x) in accurate Rlog2 log2 /\
  dlt (Fin 40) (Fin 0) = false /\ dlt (Fin (-1)) (Fin 0) = true /\
  exists x y, vole_create_security log2 false (Fin 40) = Ok (Fin x, Fin x, (Fin y, Fin y)).
Proof.
  pose proof (correctly_rounded Rlog2) as H. split; [exact H|]. split; [cbn; destruct (Rlt_dec 40 0); [lra|reflexivity]|].
  split; [cbn; destruct (Rlt_dec (-1) 0); [reflexivity|lra]|].
  destruct (C71_passed_on _ 40 H ltac:(lra)) as (x & y & Ex & _ & Ey & _). exists x, y.
  rewrite (proj2 (C76_create _ false (Fin 40) H)), Ex, Ey; [reflexivity|reflexivity|cbn; destruct (Rlt_dec 40 0); [lra|reflexivity]].
Qed.
