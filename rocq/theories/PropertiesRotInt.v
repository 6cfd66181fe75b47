(** Final theorems about the int arithmetic of all-but-one random OT and
    of single-point functions (C93).
    [aes], [clog], [K], [ta], [tb] as in PropertiesRot.v. *)
From Verif Require Import Base BaseFacts ScalarModel ScalarSpec GgmModel GgmSpec ProcModel ProcSpec RotModel RotSpec PatternSpec CostSpec RotInt RotIntProofs
  SpfssModel SpfssInt SpfssIntProofs.
From Coq Require Import QArith.
Local Open Scope Z_scope.

(** C93. Fewer than 2^31 - 1 outputs that need fewer than 2^31 - 1 oblivious
    transfers: the guarantees of C14 hold with int arithmetic. *)
Theorem C93_all_but_one : forall (S : scalar) aes clog K (outs_s outs_r : list (list S)) indices ta tb,
  zlen outs_s < 2^31 - 1 -> tree_transfers clog (map zlen outs_s) < 2^31 - 1 ->
  map zlen outs_r = map zlen outs_s ->
  (forall o, In o outs_s -> supported_size clog (zlen o)) ->
  zlen indices = zlen outs_s ->
  (forall i, 0 <= i < zlen outs_s -> valid_index (znth 0 indices i) (zlen (znth [] outs_s i))) ->
  s_can_hash S (security_per_leaf K (total_leaves (map zlen outs_s))) 128 = true ->
  exists rs rr, completes (rot_sender_batched_int S aes clog K outs_s) ta
            (rot_receiver_batched_int S aes clog indices outs_r) tb (Ok rs) (Ok rr) /\
    map zlen rs = map zlen outs_s /\ map zlen rr = map zlen outs_s /\
    forall i, 0 <= i < zlen outs_s ->
      let n := zlen (znth [] outs_s i) in
      (forall j d, 0 <= j < n ->
         znth d (znth [] rr i) j = if j =? znth 0 indices i then s_of128 S 0%N else znth d (znth [] rs i) j) /\
      (1 <= n -> exists t, well_shaped t 2 n /\
         is_ggm_tree aes (fst (ta (seed_pos (map zlen outs_s) i))) [fst (ta 0%nat); fst (ta 1%nat)] t /\
         forall j d, 0 <= j < n -> znth d (znth [] rs i) j = s_of128 S (node t (height t - 1) j)).
Proof. exact rot_int_correct. Qed.
Print Assumptions C93_all_but_one.

(** Fewer than 2^31 - 1 elements in total are enough, for a number of levels as
    computed with doubles (C70). *)
Theorem C93_elements : forall clog sizes, (forall n, 1 <= n -> 2 ^ (Z.of_nat (clog 2 n) - 1) <= n) -> Forall (fun n => 0 <= n) sizes ->
  size_sum sizes < 2^31 - 1 -> tree_transfers clog sizes < 2^31 - 1.
Proof. exact transfers_fit. Qed.
Print Assumptions C93_elements.

(** The buckets of a multi-point function of [N] elements, if 3 * N fits in int. *)
Theorem C93_buckets : forall clog n N sizes, (forall n, 1 <= n -> 2 ^ (Z.of_nat (clog 2 n) - 1) <= n) ->
  three_choices n N sizes -> 3 * N < 2^31 -> tree_transfers clog sizes < 2^31 - 1.
Proof. exact buckets_fit. Qed.
Print Assumptions C93_buckets.

(** With one more transfer, for the same valid arguments, both sides overflow before they send or
    receive anything. *)
Theorem C93_receiver_overflows_refuted : forall (S : scalar) aes clog indices (outputs : list (list S)),
  zlen outputs < 2^31 - 1 -> 2^31 - 1 <= tree_transfers clog (map zlen outputs) ->
  zlen outputs = zlen indices -> (forall i, 0 <= i < zlen outputs -> valid_index (znth 0 indices i) (zlen (znth [] outputs i))) ->
  exists w, returns (rot_receiver_batched_int S aes clog indices outputs) (UB w).
Proof. exact receiver_int_over. Qed.
Print Assumptions C93_receiver_overflows_refuted.

Theorem C93_sender_overflows_refuted : forall (S : scalar) aes clog K (outputs : list (list S)) l o,
  zlen outputs < 2^31 - 1 -> 2^31 - 1 <= tree_transfers clog (map zlen outputs) ->
  Forall (fun out => supported_size clog (zlen out)) outputs ->
  s_can_hash S (security_per_leaf K (total_leaves (map zlen outputs))) 128 = true ->
  does (rot_sender_batched_int S aes clog K outputs) l o ->
  l = [] /\ match o with Some r => exists w, r = UB w | None => True end.
Proof. exact sender_int_over. Qed.
Print Assumptions C93_sender_overflows_refuted.

(** From 2^31 - 1 to 2^32 - 2 outputs, of whatever sizes, both sides fail before they send or
    receive anything. *)
Theorem C93_too_many_refuted : forall (S : scalar) aes clog K indices (outputs : list (list S)),
  2^31 - 1 <= zlen outputs < 2^32 - 1 -> zlen indices = zlen outputs ->
  (forall i, 0 <= i < zlen outputs -> valid_index (znth 0 indices i) (zlen (znth [] outputs i))) ->
  (forall leaves, s_can_hash S (security_per_leaf K leaves) 128 = true) ->
  (exists w, returns (rot_sender_batched_int S aes clog K outputs) (UB w)) /\
  (exists w, returns (rot_receiver_batched_int S aes clog indices outputs) (UB w)).
Proof. exact too_many. Qed.
Print Assumptions C93_too_many_refuted.

(** 2^32 outputs: both sides succeed without any transfer and leave all outputs
    as they were. *)
Theorem C93_wrapped_refuted : forall (S : scalar) aes clog K indices (outputs : list (list S)),
  zlen outputs = 2^32 -> zlen indices = 2^32 -> s_can_hash S (security_per_leaf K 0) 128 = true ->
  does (rot_sender_batched_int S aes clog K outputs) [SendsBlocks 2] (Some (Ok outputs)) /\
  does (rot_receiver_batched_int S aes clog indices outputs) [Receives] (Some (Ok outputs)).
Proof. exact wrapped. Qed.
Print Assumptions C93_wrapped_refuted.

(** The same for batches of single-point functions: what C17 promises. *)
Theorem C93_spfss : forall t, stype_ok t -> forall aes clog K vals_v vals_i indices (outs_v outs_i : list (list (scalar_of t))) ta tb,
  zlen outs_v < 2^31 - 1 -> tree_transfers clog (map zlen outs_v) < 2^31 - 1 ->
  map zlen outs_i = map zlen outs_v ->
  zlen vals_v = zlen outs_v -> zlen vals_i = zlen outs_v -> zlen indices = zlen outs_v ->
  (forall o, In o outs_v -> supported_size clog (zlen o)) ->
  (forall i, 0 <= i < zlen outs_v -> valid_index (znth 0 indices i) (zlen (znth [] outs_v i))) ->
  s_can_hash (scalar_of t) (security_per_leaf K (total_leaves (map zlen outs_v))) 128 = true ->
  exists rv ri, completes (spfss_value_provider_batched_int (scalar_of t) aes clog K vals_v outs_v) ta
            (spfss_index_provider_batched_int (scalar_of t) aes clog vals_i indices outs_i) tb (Ok rv) (Ok ri) /\
    map zlen rv = map zlen outs_v /\ map zlen ri = map zlen outs_v /\
    forall i j, 0 <= i < zlen outs_v -> 0 <= j < zlen (znth [] outs_v i) ->
      let z := s_zero (scalar_of t) in
      s_add (scalar_of t) (znth z (znth [] rv i) j) (znth z (znth [] ri i) j) =
      if j =? znth 0 indices i then s_add (scalar_of t) (znth z vals_v i) (znth z vals_i i) else z.
Proof. exact spfss_int_correct. Qed.
Print Assumptions C93_spfss.

Theorem C93_spfss_index_overflows_refuted : forall (S : scalar) aes clog vals indices (outputs : list (list S)),
  zlen outputs < 2^31 - 1 -> 2^31 - 1 <= tree_transfers clog (map zlen outputs) ->
  zlen vals = zlen outputs -> zlen indices = zlen outputs ->
  (forall i, 0 <= i < zlen outputs -> valid_index (znth 0 indices i) (zlen (znth [] outputs i))) ->
  exists w, returns (spfss_index_provider_batched_int S aes clog vals indices outputs) (UB w).
Proof. exact spfss_index_over. Qed.
Print Assumptions C93_spfss_index_overflows_refuted.

Theorem C93_spfss_value_overflows_refuted : forall (S : scalar) aes clog K vals (outputs : list (list S)) l o,
  zlen outputs < 2^31 - 1 -> 2^31 - 1 <= tree_transfers clog (map zlen outputs) ->
  zlen vals = zlen outputs -> Forall (fun out => supported_size clog (zlen out)) outputs ->
  s_can_hash S (security_per_leaf K (total_leaves (map zlen outputs))) 128 = true ->
  does (spfss_value_provider_batched_int S aes clog K vals outputs) l o ->
  l = [] /\ match o with Some r => exists w, r = UB w | None => True end.
Proof. exact spfss_value_over. Qed.
Print Assumptions C93_spfss_value_overflows_refuted.

Theorem C93_spfss_wrapped_refuted : forall (S : scalar) aes clog K vals indices (outputs : list (list S)),
  zlen outputs = 2^32 -> zlen indices = 2^32 -> zlen vals = 2^32 -> s_can_hash S (security_per_leaf K 0) 128 = true ->
  does (spfss_value_provider_batched_int S aes clog K vals outputs) [SendsBlocks 2; sending (MVec vals)] (Some (Ok outputs)) /\
  does (spfss_index_provider_batched_int S aes clog vals indices outputs) [Receives; Receives] (Some (Ok outputs)).
Proof. exact spfss_wrapped. Qed.
Print Assumptions C93_spfss_wrapped_refuted.

Definition toy_aes (k x : N) : N := ((k * 31 + x * 7 + 1) mod 2^128)%N.
Definition toy_clog (a n : Z) : nat := Z.to_nat (Z.log2_up n).
Definition toy_tape {T} (x : T) : tape T := fun n => (N.of_nat (n * 1000 + 17), x).
Definition shown {m} (r : option (res (list (list (zmod m))) * res (list (list (zmod m))))) :=
  match r with Some (Ok a, Ok b) => Some (map (map zval) a, map (map zval) b) | _ => None end.

Example C93_example :
  let S := scalar_of (zz_p 1009) in
  let z := s_zero S in
  let outs := [[z; z; z]; []; [z]; [z; z; z; z; z]] in
  (forall n, 1 <= n -> 2 ^ (Z.of_nat (toy_clog 2 n) - 1) <= n) /\
  (forall o, In o outs -> supported_size toy_clog (zlen o)) /\
  tree_transfers toy_clog (map zlen outs) = 5 /\
  shown (exec 100 (rot_sender_batched_int S toy_aes toy_clog (inject_Z (2^40)) outs) (toy_tape z)
    (rot_receiver_batched_int S toy_aes toy_clog [1; 5; 0; 4] outs) (toy_tape z) [] []) =
    Some ([[265; 415; 213]; []; [999]; [641; 521; 507; 785; 622]],
          [[265; 0; 213]; []; [0]; [641; 521; 507; 785; 0]])%N.
Proof.
  cbv zeta. split; [exact toy_levels|]. split; [|split; vm_compute; reflexivity].
  intros o Ho. repeat destruct Ho as [<-|Ho]; try destruct Ho; vm_compute; split; discriminate.
Qed.

(** 2^30 outputs of four elements need 2^31 transfers, and 2^30 outputs of two
    elements 2^30. *)
Example C93_overflow_example :
  let S := scalar_of (zz_p 3) in
  let outputs n := repeat (repeat (s_zero S) n) (Z.to_nat (2^30)) in
  zlen (outputs 4%nat) = 2^30 /\ tree_transfers toy_clog (map zlen (outputs 4%nat)) = 2^31 /\
  Forall (fun out => supported_size toy_clog (zlen out)) (outputs 4%nat) /\
  s_can_hash S (security_per_leaf (inject_Z (2^40)) (total_leaves (map zlen (outputs 4%nat)))) 128 = true /\
  (forall i, 0 <= i < 2^30 -> valid_index (znth 0 (repeat 3 (Z.to_nat (2^30))) i) (zlen (znth [] (outputs 4%nat) i))) /\
  tree_transfers toy_clog (map zlen (outputs 2%nat)) = 2^30.
Proof.
  refine (overflow_gen (scalar_of (zz_p 3)) toy_clog (Z.to_nat (2^30)) (2^30) _ _ _ _ _);
    [apply Z2Nat.id; lia|reflexivity|vm_compute; reflexivity|vm_compute; reflexivity|vm_compute; reflexivity].
Qed.

(** 2^31 empty outputs of 64-bit numbers. *)
Example C93_too_many_example :
  let S := scalar_of UInt64 in
  let outputs := repeat (@nil S) (Z.to_nat (2^31)) in
  let indices := repeat 0 (Z.to_nat (2^31)) in
  (2^31 - 1 <= zlen outputs < 2^32 - 1 /\ zlen indices = zlen outputs /\
   (forall i, 0 <= i < zlen outputs -> valid_index (znth 0 indices i) (zlen (znth [] outputs i)))) /\
  (forall K leaves, s_can_hash S (security_per_leaf K leaves) 128 = true).
Proof.
  cbv zeta. split; [|reflexivity]. apply (too_many_gen (scalar_of UInt64) (Z.to_nat (2^31)) (2^31)); [apply Z2Nat.id; lia|split; reflexivity || discriminate].
Qed.

(** Three point functions, the second one empty. *)
Example C93_spfss_example :
  let S := scalar_of (zz_p 1009) in
  let z := s_zero S in
  let outs := [[z; z; z]; []; [z; z; z; z; z]] in
  let val x := s_of128 S x in
  shown (exec 100 (spfss_value_provider_batched_int S toy_aes toy_clog (inject_Z (2^40)) [val 10; val 20; val 30]%N outs) (toy_tape z)
    (spfss_index_provider_batched_int S toy_aes toy_clog [val 1; val 2; val 3]%N [1; 5; 4] outs) (toy_tape z) [] []) =
    Some ([[744; 594; 796]; []; [353; 6; 190; 497; 348]],
          [[265; 426; 213]; []; [656; 1003; 819; 512; 694]])%N.
Proof. cbv zeta. vm_compute. reflexivity. Qed.
