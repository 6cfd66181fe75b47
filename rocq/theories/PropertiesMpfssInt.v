(** Final theorem about the int arithmetic of multi-point functions (C93).
    Parameters as in PropertiesMpfss.v. *)
From Verif Require Import Base BaseFacts ScalarModel ScalarSpec ProcModel ProcSpec RotModel RotSpec SpfssModel
  CuckooModel CuckooSpec MpfssModel MpfssSpec MpfssInt RotIntProofs MpfssIntProofs PropertiesMpfss.
From Coq Require Import QArith.
Local Open Scope Z_scope.

(** The guarantees of C33 hold with int arithmetic, for fewer than 2^31 - 1
    buckets and a number of levels as computed with doubles (C70). *)
Theorem C93_mpfss : forall t, stype_ok t -> let S := scalar_of t in
  forall aes clog K too_many_bits e3 e2, (forall n, e3 n < 2^63) -> (forall n, e2 n < 2^63) ->
  (forall n, 1 <= n -> 2 ^ (Z.of_nat (clog 2 n) - 1) <= n) ->
  forall seed h, cuckoo_create seed 3 = Ok h ->
  let after := mpfss_after aes too_many_bits e3 e2 h in
  forall hist_v hist_i sizes_v sizes_i x y indices u v w (out_v out_i : list S) hashed ta tb,
  divisions hist_v -> divisions hist_i ->
  let N := zlen out_v in let n := zlen y in
  division N sizes_v -> division N sizes_i -> good_sizes S clog K too_many_bits e3 N n ->
  zlen out_i = N -> zlen indices = n -> num_buckets e3 e2 (mpfss_new h) n = Ok (zlen w) -> zlen w < 2^31 - 1 -> vole_correlation S x u v w ->
  (forall k, 0 <= k < n -> 0 <= znth 0 indices k < N) ->
  hash_cuckoo aes too_many_bits h (map uint128_of_int64 indices) (zlen w) = Ok hashed ->
  exists rv ri, completes
      (mpfss_value_provider_int S aes clog K too_many_bits e3 e2 sizes_v (after hist_v) x n w out_v) ta
      (mpfss_index_provider_int S aes clog too_many_bits e3 e2 sizes_i (after hist_i) y indices u v out_i) tb
      (after (hist_v ++ [(sizes_v, N, n)]), Ok rv) (after (hist_i ++ [(sizes_i, N, n)]), Ok ri) /\
    zlen rv = N /\ zlen ri = N /\
    forall p, 0 <= p < N -> s_add S (znth (s_zero S) rv p) (znth (s_zero S) ri p) = point_value S x y indices p.
Proof. exact mpfss_int_correct. Qed.
Print Assumptions C93_mpfss.

(** The function of C33_example; its other hypotheses are shown there. *)
Example C93_mpfss_example :
  (forall n, 1 <= n -> 2 ^ (Z.of_nat (toy_clog 2 n) - 1) <= n) /\
  shown (exec 200
    (mpfss_value_provider_int F toy_aes toy_clog (inject_Z (2^20)) toy_too toy_e toy_e [3; 4]
       (mpfss_after toy_aes toy_too toy_e toy_e toy_h toy_hist) (c 5) 2 toy_w toy_z) (toy_tape (c 0))
    (mpfss_index_provider_int F toy_aes toy_clog toy_too toy_e toy_e [7]
       (mpfss_new toy_h) [c 3; c 4] [6; 2] toy_u toy_v toy_z) (toy_tape (c 0)) [] []) =
  Some [0; 0; 20; 0; 0; 0; 15]%N.
Proof. split; [exact toy_levels|vm_compute; reflexivity]. Qed.
