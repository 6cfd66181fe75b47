(** Final theorems about multi-point function secret sharing (C33-C37, C59) and
    about what the receiving side of the oblivious transfers reveals (C58).

    [aes] is the block cipher, [clog] the computed number of tree levels, [K] =
    2^statistical_security, [too_many_bits] and [e3]/[e2] the floating-point
    results of CuckooModel.v, [ta]/[tb] the random tapes, [sizes] the division of
    the HashSimple loop among threads, [hist] earlier calls on the object. *)
From Verif Require Import Base BaseFacts ScalarModel ScalarSpec ProcModel ProcSpec RotModel RotSpec SpfssModel
  GilboaModel GilboaSpec CuckooModel CuckooSpec TraceSpec TraceProofs MpfssModel MpfssSpec MpfssProofs MpfssFinal.
From Coq Require Import QArith.
Local Open Scope Z_scope.

(** C33 *)
Theorem C33_shares_of_the_function : forall t, stype_ok t -> let S := scalar_of t in
  forall aes clog K too_many_bits e3 e2, (forall n, e3 n < 2^63) -> (forall n, e2 n < 2^63) ->
  forall seed h, cuckoo_create seed 3 = Ok h ->
  let after := mpfss_after aes too_many_bits e3 e2 h in
  forall hist_v hist_i sizes_v sizes_i x y indices u v w (out_v out_i : list S) hashed ta tb,
  divisions hist_v -> divisions hist_i ->
  let N := zlen out_v in let n := zlen y in
  division N sizes_v -> division N sizes_i -> good_sizes S clog K too_many_bits e3 N n ->
  zlen out_i = N -> zlen indices = n -> num_buckets e3 e2 (mpfss_new h) n = Ok (zlen w) -> vole_correlation S x u v w ->
  (forall k, 0 <= k < n -> 0 <= znth 0 indices k < N) ->
  hash_cuckoo aes too_many_bits h (map uint128_of_int64 indices) (zlen w) = Ok hashed ->
  exists rv ri, completes
      (mpfss_value_provider S aes clog K too_many_bits e3 e2 sizes_v (after hist_v) x n w out_v) ta
      (mpfss_index_provider S aes clog too_many_bits e3 e2 sizes_i (after hist_i) y indices u v out_i) tb
      (after (hist_v ++ [(sizes_v, N, n)]), Ok rv) (after (hist_i ++ [(sizes_i, N, n)]), Ok ri) /\
    zlen rv = N /\ zlen ri = N /\
    forall p, 0 <= p < N -> s_add S (znth (s_zero S) rv p) (znth (s_zero S) ri p) = point_value S x y indices p.
Proof. exact mpfss_correct. Qed.
Print Assumptions C33_shares_of_the_function.

Theorem C33_distinct_indices : forall t, stype_ok t -> let S := scalar_of t in
  forall aes clog K too_many_bits e3 e2, (forall n, e3 n < 2^63) -> (forall n, e2 n < 2^63) ->
  forall seed h, cuckoo_create seed 3 = Ok h ->
  let after := mpfss_after aes too_many_bits e3 e2 h in
  forall hist_v hist_i sizes_v sizes_i x y indices u v w (out_v out_i : list S) hashed ta tb,
  divisions hist_v -> divisions hist_i ->
  let N := zlen out_v in let n := zlen y in
  division N sizes_v -> division N sizes_i -> good_sizes S clog K too_many_bits e3 N n ->
  zlen out_i = N -> zlen indices = n -> num_buckets e3 e2 (mpfss_new h) n = Ok (zlen w) -> vole_correlation S x u v w ->
  (forall k, 0 <= k < n -> 0 <= znth 0 indices k < N) -> NoDup indices ->
  hash_cuckoo aes too_many_bits h (map uint128_of_int64 indices) (zlen w) = Ok hashed ->
  exists stv sti rv ri, completes
      (mpfss_value_provider S aes clog K too_many_bits e3 e2 sizes_v (after hist_v) x n w out_v) ta
      (mpfss_index_provider S aes clog too_many_bits e3 e2 sizes_i (after hist_i) y indices u v out_i) tb
      (stv, Ok rv) (sti, Ok ri) /\
    (forall k, 0 <= k < n -> s_add S (znth (s_zero S) rv (znth 0 indices k)) (znth (s_zero S) ri (znth 0 indices k)) =
                             s_mul S x (znth (s_zero S) y k)) /\
    (forall p, 0 <= p < N -> ~ In p indices -> s_add S (znth (s_zero S) rv p) (znth (s_zero S) ri p) = s_zero S).
Proof. exact mpfss_distinct. Qed.
Print Assumptions C33_distinct_indices.

Definition toy_aes (k x : N) : N := ((k * 31 + (x + 12345) * (x mod 2^64 + 77) * 210306068529402873165736369884012333109) / 2^61 mod 2^128)%N.
Definition toy_clog (a n : Z) : nat := Z.to_nat (Z.log2_up n).
Definition toy_too (n b : Z) : bool := 2^40 <? n * b.
Definition toy_e (n : Z) : Z := Z.min (3 * n) (2^20).
Definition toy_tape {T} (x : T) : tape T := fun n => (N.of_nat (n * 1000 + 17), x).
Notation F := (scalar_of (zz_p 1009)).
Definition c (n : N) : F := s_of128 F n.
Definition toy_h := Hasher 12345 3.
Definition toy_value := mpfss_value_provider F toy_aes toy_clog (inject_Z (2^20)) toy_too toy_e toy_e.
Definition toy_index := mpfss_index_provider F toy_aes toy_clog toy_too toy_e toy_e.
Definition shown (r : option ((mpfss * res (list F)) * (mpfss * res (list F)))) :=
  match r with
  | Some ((_, Ok a), (_, Ok b)) => Some (map zval (plus F a b))
  | _ => None
  end.

Lemma toy_sizes n N : 1 <= n <= 4 -> n <= N <= 10 -> good_sizes F toy_clog (inject_Z (2^20)) toy_too toy_e N n.
Proof.
  intros Hn HN. unfold good_sizes. split; [lia|]. split; [lia|]. unfold toy_e, toy_too.
  replace (Z.min (3 * n) (2^20)) with (3 * n) by lia.
  assert (HN' : N = 1 \/ N = 2 \/ N = 3 \/ N = 4 \/ N = 5 \/ N = 6 \/ N = 7 \/ N = 8 \/ N = 9 \/ N = 10) by lia.
  split; [lia|]. split; [nia|]. split.
  - intros s Hs. split; [lia|]. unfold toy_clog. pose proof (Z.log2_up_nonneg s). rewrite Z2Nat.id by auto.
    destruct (Z.ltb_spec 1 s) as [H1|H1]; [apply Z.log2_up_spec; lia|].
    assert (2 ^ 0 <= 2 ^ Z.log2_up s) by (apply Z.pow_le_mono_r; lia). lia.
  - repeat destruct HN' as [-> | HN']; try subst N; vm_compute; reflexivity.
Qed.
Lemma toy_e_bound n : toy_e n < 2^63.
Proof. unfold toy_e. lia. Qed.

Lemma toy_division l n : forallb (fun s => 0 <=? s) l = true -> fold_right Z.add 0 l = n -> division n l.
Proof.
  intros H E. split; [|exact E]. apply Forall_forall. intros s Hs. rewrite forallb_forall in H. specialize (H s Hs). lia.
Qed.
Lemma toy_vole (x : F) u v w : zlen u = zlen w -> zlen v = zlen w -> plus F (map (fun a => s_mul F a x) u) v = w ->
  vole_correlation F x u v w.
Proof.
  intros Hu Hv E. split; [auto|]. split; [auto|]. intros i Hi. rewrite <- E. unfold plus.
  assert (L1 : zlen (map (fun a => s_mul F a x) u) = zlen v) by (rewrite zlen_map; lia).
  rewrite (znth_map _ (s_zero F, s_zero F)) by (rewrite ListFacts.zlen_combine; rewrite ?zlen_map; lia).
  rewrite ListFacts.znth_combine by auto. now rewrite (znth_map _ (s_zero F)) by lia.
Qed.

(** The function of size 7 with values 5 * 3 at 6 and 5 * 4 at 2 over ZZ modulo
    1009, on an object with three earlier calls. *)
Definition toy_hist := [([4], 4, 2); ([1; 2; 4], 7, 2); ([], -1, 3)].
Definition toy_u := map c [1; 2; 3; 4; 5; 6]%N.
Definition toy_v := map c [10; 20; 30; 40; 50; 60]%N.
Definition toy_w := map c [15; 30; 45; 60; 75; 90]%N.
Definition toy_z := zrepeat (s_zero F) 7.
Example C33_example :
  (stype_ok (zz_p 1009) /\ divisions toy_hist /\ division 7 [3; 4] /\ division 7 [7]) /\
  good_sizes F toy_clog (inject_Z (2^20)) toy_too toy_e 7 2 /\
  num_buckets toy_e toy_e (mpfss_new toy_h) 2 = Ok (zlen toy_w) /\ vole_correlation F (c 5) toy_u toy_v toy_w /\
  hash_cuckoo toy_aes toy_too toy_h (map uint128_of_int64 [6; 2]) 6 = Ok [1; -1; -1; 0; -1; -1] /\
  shown (exec 200
    (toy_value [3; 4] (mpfss_after toy_aes toy_too toy_e toy_e toy_h toy_hist) (c 5) 2 toy_w toy_z) (toy_tape (c 0))
    (toy_index [7] (mpfss_new toy_h) [c 3; c 4] [6; 2] toy_u toy_v toy_z) (toy_tape (c 0)) [] []) =
  Some [0; 0; 20; 0; 0; 0; 15]%N.
Proof.
  split; [split; [split; [reflexivity|discriminate]|split; [|split; now apply toy_division]]|].
  { constructor; [now intros; apply toy_division|]. constructor; [now intros; apply toy_division|]. constructor; [intro; lia|constructor]. }
  split; [now apply toy_sizes|]. split; [vm_compute; reflexivity|]. split; [apply toy_vole; vm_compute; reflexivity|].
  split; vm_compute; reflexivity.
Qed.

(** C34: no message is sent before these errors. *)
Theorem C34_index_provider_checks : forall (S : scalar) aes clog too_many_bits e3 e2 sizes st y indices u v (out : list S),
  zlen y <> zlen indices \/ zlen out < zlen indices \/ zlen y = 0 \/
  (zlen indices < 2^31 /\ exists k, 0 <= k < zlen indices /\ zlen out < znth 0 indices k) ->
  exists m, returns (mpfss_index_provider S aes clog too_many_bits e3 e2 sizes st y indices u v out)
                    (st, Err (invalid_argument m)).
Proof. exact index_checks. Qed.
Print Assumptions C34_index_provider_checks.

Theorem C34_value_provider_checks : forall (S : scalar) aes clog K too_many_bits e3 e2 sizes st x y_len w (out : list S),
  y_len < 1 ->
  exists m, returns (mpfss_value_provider S aes clog K too_many_bits e3 e2 sizes st x y_len w out)
                    (st, Err (invalid_argument m)).
Proof. exact value_checks. Qed.
Print Assumptions C34_value_provider_checks.

(** The variants that take no vector OLE never succeed; they have no process
    because they do not use the connection. *)
Theorem C34_plain_variants_unimplemented : forall S : scalar,
  (exists m, mpfss_plain_value_provider S = Err (Status Unimplemented m)) /\ (exists m, mpfss_plain_index_provider S = Err (Status Unimplemented m)).
Proof. exact plain_unimplemented. Qed.
Print Assumptions C34_plain_variants_unimplemented.

(** An index equal to the output size passes the check. If its bucket is not
    empty, the error comes after the masked values have been sent. *)
Theorem C34_index_at_end_rejected_late : forall t, let S := scalar_of t in
  forall aes clog K too_many_bits e3 e2, (forall n, e3 n < 2^63) -> (forall n, e2 n < 2^63) ->
  forall seed h, cuckoo_create seed 3 = Ok h ->
  forall hist sizes y indices u v (out : list S) hashed, divisions hist ->
  let N := zlen out in let n := zlen y in
  division N sizes -> good_sizes S clog K too_many_bits e3 N n ->
  zlen indices = n -> zlen u = e3 n -> zlen v = e3 n ->
  (forall k, 0 <= k < n -> znth 0 indices k <= N) ->
  hash_cuckoo aes too_many_bits h (map uint128_of_int64 indices) (e3 n) = Ok hashed ->
  (exists b, 0 <= b < e3 n /\ znth 0 hashed b <> -1 /\ znth 0 indices (znth 0 hashed b) = N /\
     simple_bucket (bucket_of aes seed (e3 n)) 3 (map uint128_of_int64 (zrange 0 N)) b <> []) ->
  exists st' m, mpfss_index_provider S aes clog too_many_bits e3 e2 sizes (mpfss_after aes too_many_bits e3 e2 h hist) y indices u v out =
    Send (MVec (plus S (permuted S y hashed) u)) (Ret (st', Err (invalid_argument m))).
Proof. exact at_end_rejected_late. Qed.
Print Assumptions C34_index_at_end_rejected_late.

(** A single negative index is accepted: the value appears at the smallest
    element of the bucket the index hashes to, or nowhere if there is none. *)
Theorem C34_negative_index_misplaced : forall t, stype_ok t -> let S := scalar_of t in
  forall aes clog K too_many_bits e3 e2, (forall n, e3 n < 2^63) -> (forall n, e2 n < 2^63) ->
  forall seed h, cuckoo_create seed 3 = Ok h ->
  let after := mpfss_after aes too_many_bits e3 e2 h in
  forall hist_v hist_i sizes_v sizes_i x y0 i u v w (out_v out_i : list S) ta tb,
  divisions hist_v -> divisions hist_i ->
  let N := zlen out_v in
  division N sizes_v -> division N sizes_i -> good_sizes S clog K too_many_bits e3 N 1 -> too_many_bits 1 (e3 1) = false ->
  zlen out_i = N -> num_buckets e3 e2 (mpfss_new h) 1 = Ok (zlen w) -> vole_correlation S x u v w -> i < 0 ->
  let bucket := simple_bucket (bucket_of aes seed (e3 1)) 3 (map uint128_of_int64 (zrange 0 N))
                  (bucket_of aes seed (e3 1) 0 (uint128_of_int64 i)) in
  exists stv sti rv ri, completes
      (mpfss_value_provider S aes clog K too_many_bits e3 e2 sizes_v (after hist_v) x 1 w out_v) ta
      (mpfss_index_provider S aes clog too_many_bits e3 e2 sizes_i (after hist_i) [y0] [i] u v out_i) tb
      (stv, Ok rv) (sti, Ok ri) /\
    forall p, 0 <= p < N -> s_add S (znth (s_zero S) rv p) (znth (s_zero S) ri p) =
      match bucket with [] => s_zero S | q :: _ => if q =? p then s_mul S x y0 else s_zero S end.
Proof. exact negative_index. Qed.
Print Assumptions C34_negative_index_misplaced.

(** Index -1 produces the function with its point at 0; index 7 for size 7 is
    only rejected after a message. *)
Example C34_example :
  let u := map c [1; 2; 3]%N in let v := map c [10; 20; 30]%N in let w := map c [15; 30; 45]%N in
  good_sizes F toy_clog (inject_Z (2^20)) toy_too toy_e 7 1 /\ toy_too 1 (toy_e 1) = false /\
  num_buckets toy_e toy_e (mpfss_new toy_h) 1 = Ok (zlen w) /\ vole_correlation F (c 5) u v w /\
  shown (exec 200
    (toy_value [7] (mpfss_new toy_h) (c 5) 1 w toy_z) (toy_tape (c 0))
    (toy_index [7] (mpfss_new toy_h) [c 3] [-1] u v toy_z) (toy_tape (c 0)) [] []) =
  Some [15; 0; 0; 0; 0; 0; 0]%N /\
  hash_cuckoo toy_aes toy_too toy_h (map uint128_of_int64 [7]) 3 = Ok [-1; -1; 0] /\
  simple_bucket (bucket_of toy_aes 12345 3) 3 (map uint128_of_int64 (zrange 0 7)) 2 = [1; 1; 3; 4; 4] /\
  match toy_index [7] (mpfss_new toy_h) [c 3] [7] u v toy_z with
  | Send (MVec l) (Ret (_, Err e)) => map zval l = [1; 2; 6]%N /\ e = invalid_argument "`indices[i]` out of range"
  | _ => False
  end.
Proof.
  cbv zeta. split; [now apply toy_sizes|]. split; [reflexivity|]. split; [vm_compute; reflexivity|].
  split; [apply toy_vole; vm_compute; reflexivity|]. split; [vm_compute; reflexivity|].
  split; [vm_compute; reflexivity|]. split; vm_compute; [reflexivity|split; reflexivity].
Qed.

(** C35 *)
Theorem C35_cache_is_coherent : forall aes too_many_bits e3 e2, (forall n, e3 n < 2^63) -> (forall n, e2 n < 2^63) ->
  forall seed h, cuckoo_create seed 3 = Ok h ->
  let after := mpfss_after aes too_many_bits e3 e2 h in
  forall hist sizes N n, divisions hist -> 0 <= N -> division N sizes ->
  update_buckets aes too_many_bits e3 e2 sizes (after hist) N n =
  match fresh_buckets aes too_many_bits e3 e2 h N n with
  | Ok b => (Mpfss h b (Some N) (Some n), Ok tt)
  | Err e => (after hist, Err e)
  | UB w => (after hist, UB w)
  end.
Proof. exact cache_spec. Qed.
Print Assumptions C35_cache_is_coherent.

(** The messages and results of both roles are those of a new object. *)
Theorem C35_value_provider_like_new : forall t, let S := scalar_of t in
  forall aes clog K too_many_bits e3 e2, (forall n, e3 n < 2^63) -> (forall n, e2 n < 2^63) ->
  forall seed h, cuckoo_create seed 3 = Ok h ->
  forall hist sizes x y_len w (out : list S), divisions hist -> division (zlen out) sizes ->
  let result p := pbind p (fun '(_, r) => Ret r) in
  let run sizes st := mpfss_value_provider S aes clog K too_many_bits e3 e2 sizes st x y_len w out in
  result (run sizes (mpfss_after aes too_many_bits e3 e2 h hist)) = result (run [zlen out] (mpfss_new h)).
Proof. exact value_like_fresh. Qed.
Print Assumptions C35_value_provider_like_new.

Theorem C35_index_provider_like_new : forall t, let S := scalar_of t in
  forall aes clog too_many_bits e3 e2, (forall n, e3 n < 2^63) -> (forall n, e2 n < 2^63) ->
  forall seed h, cuckoo_create seed 3 = Ok h ->
  forall hist sizes y indices u v (out : list S), divisions hist -> division (zlen out) sizes ->
  let result p := pbind p (fun '(_, r) => Ret r) in
  let run sizes st := mpfss_index_provider S aes clog too_many_bits e3 e2 sizes st y indices u v out in
  result (run sizes (mpfss_after aes too_many_bits e3 e2 h hist)) = result (run [zlen out] (mpfss_new h)).
Proof. exact index_like_fresh. Qed.
Print Assumptions C35_index_provider_like_new.

(** Three calls, one of them failing, and one that finds its cached result. *)
Example C35_example :
  let st := mpfss_after toy_aes toy_too toy_e toy_e toy_h toy_hist in
  m_cached_output_size st = Some 7 /\ m_cached_num_indices st = Some 2 /\
  update_buckets toy_aes toy_too toy_e toy_e [7] st 7 2 = (st, Ok tt) /\
  zlen (m_buckets st) = 6 /\
  m_cached_output_size (fst (update_buckets toy_aes toy_too toy_e toy_e [7] st 7 3)) = Some 7 /\
  zlen (m_buckets (fst (update_buckets toy_aes toy_too toy_e toy_e [7] st 7 3))) = 9.
Proof. vm_compute. repeat split. Qed.

(** C36: whatever the other party does, everything it can notice of the index
    provider is one masked vector and a number of oblivious transfers fixed by
    the sizes; nothing at all if the hashing fails. *)
Theorem C36_what_is_sent : forall t, let S := scalar_of t in
  forall aes clog too_many_bits e3 e2, (forall n, e3 n < 2^63) -> (forall n, e2 n < 2^63) ->
  forall seed h, cuckoo_create seed 3 = Ok h ->
  forall hist sizes y indices u v (out : list S) evs, divisions hist -> division (zlen out) sizes ->
  e3 (zlen y) < 2^31 ->
  trace (mpfss_index_provider S aes clog too_many_bits e3 e2 sizes (mpfss_after aes too_many_bits e3 e2 h hist) y indices u v out) evs ->
  let bucket b := simple_bucket (bucket_of aes seed (e3 (zlen y))) 3 (map uint128_of_int64 (zrange 0 (zlen out))) b in
  prefix evs
    match hash_cuckoo aes too_many_bits h (map uint128_of_int64 indices) (e3 (zlen y)) with
    | Ok hashed => [Sent (MVec (plus S (permuted S y hashed) u));
                    Chose false (ot_count clog (map (fun b => zlen (bucket b)) (zrange 0 (e3 (zlen y)))))]
    | _ => [] end.
Proof. exact index_view. Qed.
Print Assumptions C36_what_is_sent.

(** The masked vector fits every other input that can be hashed, for exactly one
    correlation consistent with the value provider's x and w. *)
Theorem C36_masks_hide : forall t, stype_ok t -> let S := scalar_of t in
  forall aes too_many_bits seed h, cuckoo_create seed 3 = Ok h ->
  forall y indices hashed y' indices' hashed' x (u v w : list S), 1 <= zlen w < 2^63 ->
  hash_cuckoo aes too_many_bits h (map uint128_of_int64 indices) (zlen w) = Ok hashed ->
  hash_cuckoo aes too_many_bits h (map uint128_of_int64 indices') (zlen w) = Ok hashed' ->
  vole_correlation S x u v w ->
  exists u' v',
    (vole_correlation S x u' v' w /\ plus S (permuted S y' hashed') u' = plus S (permuted S y hashed) u) /\
    forall u'' v'', vole_correlation S x u'' v'' w ->
      plus S (permuted S y' hashed') u'' = plus S (permuted S y hashed) u -> u'' = u' /\ v'' = v'.
Proof. exact view_hiding. Qed.
Print Assumptions C36_masks_hide.

(** Points 6, 2 with values 3, 4 and points 0, 3 with values 9, 8: the same
    message for masks u and u'. *)
Example C36_example :
  let H := [1; -1; -1; 0; -1; -1] in let H' := [-1; 0; -1; -1; -1; 1] in
  let u' := map c [5; 1002; 3; 7; 5; 1007]%N in
  hash_cuckoo toy_aes toy_too toy_h (map uint128_of_int64 [6; 2]) 6 = Ok H /\
  hash_cuckoo toy_aes toy_too toy_h (map uint128_of_int64 [0; 3]) 6 = Ok H' /\
  map zval (plus F (permuted F [c 3; c 4] H) toy_u) = [5; 2; 3; 7; 5; 6]%N /\
  map zval (plus F (permuted F [c 9; c 8] H') u') = [5; 2; 3; 7; 5; 6]%N.
Proof. cbv zeta. repeat split; vm_compute; reflexivity. Qed.

(** C37 *)
Theorem C37_failed_hashing : forall t, let S := scalar_of t in
  forall aes clog K too_many_bits e3 e2, (forall n, e3 n < 2^63) -> (forall n, e2 n < 2^63) ->
  forall seed h, cuckoo_create seed 3 = Ok h ->
  forall hist sizes y indices u v (out : list S), divisions hist ->
  let N := zlen out in let n := zlen y in
  division N sizes -> good_sizes S clog K too_many_bits e3 N n -> zlen indices = n ->
  (forall k, 0 <= k < n -> znth 0 indices k <= N) ->
  hash_cuckoo aes too_many_bits h (map uint128_of_int64 indices) (e3 n) =
    Err (internal_error "Failed to insert element, maximum number of tries exhausted") ->
  let p := mpfss_index_provider S aes clog too_many_bits e3 e2 sizes (mpfss_after aes too_many_bits e3 e2 h hist) y indices u v out in
  exists st', (~ NoDup indices -> returns p (st', Err (invalid_argument "All `indices` must be unique"))) /\
    (NoDup indices ->
       returns p (st', Err (internal_error "Failed to insert element, maximum number of tries exhausted"))).
Proof. exact failing. Qed.
Print Assumptions C37_failed_hashing.

Theorem C37_twice_the_same : forall t, let S := scalar_of t in
  forall aes clog K too_many_bits e3 e2, (forall n, e3 n < 2^63) -> (forall n, e2 n < 2^63) ->
  forall seed h, cuckoo_create seed 3 = Ok h ->
  forall hist sizes y0 y1 i u v (out : list S), divisions hist ->
  let N := zlen out in
  division N sizes -> good_sizes S clog K too_many_bits e3 N 2 -> 2 <= e3 2 -> too_many_bits 2 (e3 2) = false -> i <= N ->
  exists st', returns (mpfss_index_provider S aes clog too_many_bits e3 e2 sizes (mpfss_after aes too_many_bits e3 e2 h hist)
                         [y0; y1] [i; i] u v out)
    (st', Err (invalid_argument "All `indices` must be unique")).
Proof. exact twice. Qed.
Print Assumptions C37_twice_the_same.

(** Repeated indices that can be hashed are accepted, and the values add up. *)
Theorem C37_repeated_and_accepted : forall t, stype_ok t -> let S := scalar_of t in
  forall aes clog K too_many_bits e3 e2, (forall n, e3 n < 2^63) -> (forall n, e2 n < 2^63) ->
  forall seed h, cuckoo_create seed 3 = Ok h ->
  let after := mpfss_after aes too_many_bits e3 e2 h in
  forall hist_v hist_i sizes_v sizes_i x y0 y1 y2 i j u v w (out_v out_i : list S) ta tb,
  divisions hist_v -> divisions hist_i ->
  let N := zlen out_v in
  division N sizes_v -> division N sizes_i -> good_sizes S clog K too_many_bits e3 N 3 -> 3 <= e3 3 -> too_many_bits 3 (e3 3) = false ->
  zlen out_i = N -> num_buckets e3 e2 (mpfss_new h) 3 = Ok (zlen w) -> vole_correlation S x u v w ->
  0 <= i < N -> 0 <= j < N -> i <> j ->
  let place f a := bucket_of aes seed (zlen w) f (uint128_of_int64 a) in
  place 1 i <> place 0 i -> place 0 j <> place 0 i -> place 0 j <> place 1 i ->
  exists stv sti rv ri, completes
      (mpfss_value_provider S aes clog K too_many_bits e3 e2 sizes_v (after hist_v) x 3 w out_v) ta
      (mpfss_index_provider S aes clog too_many_bits e3 e2 sizes_i (after hist_i) [y0; y1; y2] [i; i; j] u v out_i) tb
      (stv, Ok rv) (sti, Ok ri) /\
    forall p, 0 <= p < N -> s_add S (znth (s_zero S) rv p) (znth (s_zero S) ri p) =
      if p =? i then s_mul S x (s_add S y0 y1) else if p =? j then s_mul S x y2 else s_zero S.
Proof. exact thrice. Qed.
Print Assumptions C37_repeated_and_accepted.

Example C37_example :
  let u := map c [1; 2; 3; 4; 5; 6; 7; 8; 9]%N in let v := map c [10; 20; 30; 40; 50; 60; 70; 80; 90]%N in
  let w := map c [15; 30; 45; 60; 75; 90; 105; 120; 135]%N in
  let place f a := bucket_of toy_aes 12345 (zlen w) f (uint128_of_int64 a) in
  good_sizes F toy_clog (inject_Z (2^20)) toy_too toy_e 7 3 /\
  num_buckets toy_e toy_e (mpfss_new toy_h) 3 = Ok (zlen w) /\ vole_correlation F (c 5) u v w /\
  (place 0 0 = 7 /\ place 1 0 = 4 /\ place 0 1 = 8) /\
  shown (exec 200
    (toy_value [7] (mpfss_new toy_h) (c 5) 3 w toy_z) (toy_tape (c 0))
    (toy_index [7] (mpfss_new toy_h) [c 3; c 4; c 9] [0; 0; 1] u v toy_z) (toy_tape (c 0)) [] []) =
  Some [35; 45; 0; 0; 0; 0; 0]%N /\
  (exists st, toy_index [7] (mpfss_new toy_h) [c 3; c 4] [5; 5] u v toy_z = Ret (st, Err (invalid_argument "All `indices` must be unique"))) /\
  (exists st, toy_index [7] (mpfss_new toy_h) [c 3; c 4] [5; 6] u v toy_z =
     Ret (st, Err (internal_error "Failed to insert element, maximum number of tries exhausted"))).
Proof.
  cbv zeta. split; [now apply toy_sizes|]. split; [vm_compute; reflexivity|]. split; [apply toy_vole; vm_compute; reflexivity|].
  split; [vm_compute; auto|]. split; [vm_compute; reflexivity|]. split; eexists; vm_compute; reflexivity.
Qed.

(** C58: whatever the other party does, what it can notice of the receiving side
    of the oblivious transfers is their number, fixed by the sizes. *)
Theorem C58_random_ot_receiver : forall (S : scalar) aes clog indices (outs : list (list S)) evs,
  trace (rot_receiver_batched S aes clog indices outs) evs ->
  prefix evs [Chose false (ot_count clog (map zlen outs))].
Proof. exact rot_receiver_trace. Qed.
Print Assumptions C58_random_ot_receiver.

Theorem C58_spfss_index_provider : forall (S : scalar) aes clog vals indices (outs : list (list S)) evs,
  trace (spfss_index_provider_batched S aes clog vals indices outs) evs ->
  prefix evs [Chose false (ot_count clog (map zlen outs))].
Proof. exact spfss_index_trace. Qed.
Print Assumptions C58_spfss_index_provider.

Theorem C58_gilboa_value_provider : forall t, stype_ok t -> let S := scalar_of t in
  forall K x (out : list S) evs, zlen out < 2^31 ->
  trace (gilboa_value_provider S K x out) evs ->
  prefix evs [Chose (use_correlated_ot S K (zlen out)) (Z.to_nat (transfers (s_size S) (zlen out)))].
Proof. exact gilboa_value_view. Qed.
Print Assumptions C58_gilboa_value_provider.

(** Two trees, of 3 and 1 leaves: two transfers, for both values of the index. *)
Example C58_example :
  let outs := [[c 0; c 0; c 0]; [c 0]] in
  ot_count toy_clog (map zlen outs) = 2%nat /\
  match rot_receiver_batched F toy_aes toy_clog [0; 0] outs with OtRecv false l _ => List.length l = 2%nat | _ => False end /\
  match rot_receiver_batched F toy_aes toy_clog [2; 0] outs with OtRecv false l _ => List.length l = 2%nat | _ => False end /\
  trace (rot_receiver_batched F toy_aes toy_clog [2; 0] outs) [Chose false 2].
Proof.
  cbv zeta. split; [reflexivity|]. split; [vm_compute; reflexivity|]. split; [vm_compute; reflexivity|].
  change 2%nat with (List.length [false; true]). eapply (trace_ot false [false; true] _ None). constructor.
Qed.

(** C59 *)
Theorem C59_create_agrees : forall (S : scalar) id_a id_b (ta tb : tape S), id_a < id_b ->
  exists h, cuckoo_create (fst (ta O)) 3 = Ok h /\
    completes (mpfss_create S false id_a id_b) ta (mpfss_create S false id_b id_a) tb (Ok (mpfss_new h)) (Ok (mpfss_new h)).
Proof. exact create_agree. Qed.
Print Assumptions C59_create_agrees.

Theorem C59_equal_ids_wait_forever : forall (S : scalar) id (ta tb : tape S) n d,
  steps n (start (mpfss_create S false id id) ta (mpfss_create S false id id) tb) d ->
  (forall r, c_a d <> Ret r) /\ (forall r, c_b d <> Ret r).
Proof. exact create_same_id. Qed.
Print Assumptions C59_equal_ids_wait_forever.

Theorem C59_negative_security : forall (S : scalar) id peer_id,
  returns (mpfss_create S true id peer_id) (Err (invalid_argument "`statistical_security` must not be negative.")).
Proof. exact create_negative. Qed.
Print Assumptions C59_negative_security.

Example C59_example : match exec 20 (mpfss_create F false 0 1) (toy_tape (c 0)) (mpfss_create F false 1 0) (toy_tape (c 0)) [] [] with
  | Some (Ok a, Ok b) => a = mpfss_new (Hasher 17 3) /\ b = a
  | _ => False end.
Proof. vm_compute. split; reflexivity. Qed.
