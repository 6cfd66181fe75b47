(** Final theorems about GGM trees (C07-C13).
    [aes key block] is an arbitrary block cipher, [clog arity n] the value the
    C++ expression ceil(log(n)/log(arity)) has on the platform: both are
    universally quantified. *)
From Verif Require Import Base BaseFacts GgmModel GgmSpec GgmFinal.

(** Toy instances used in the examples only. *)
Definition toy_aes (k x : N) : N := ((k * 31 + x * 7 + 1) mod 2^128)%N.
Definition toy_clog (a n : Z) : nat := if n <=? 1 then 0 else if n <=? a then 1 else if n <=? a * a then 2 else 3.

(** C07 *)
Theorem C07_create : forall aes clog n seed keys,
  2 <= zlen keys -> 1 <= n -> n <= zlen keys ^ Z.of_nat (clog (zlen keys) n) ->
  exists t, ggm_create aes clog n seed keys = Ok t /\
    t_arity t = zlen keys /\ t_keys t = keys /\ t_expanded_keys t = keys /\
    height t = Z.of_nat (clog (zlen keys) n) + 1 /\ num_leaves t = n /\
    well_shaped t (zlen keys) n /\ is_ggm_tree aes seed keys t.
Proof. exact create_ok. Qed.
Print Assumptions C07_create.

Theorem C07_create_fails_only : forall aes clog n seed keys,
  (zlen keys < 2 -> exists m, ggm_create aes clog n seed keys = Err (invalid_argument m)) /\
  (n <= 0 -> exists m, ggm_create aes clog n seed keys = Err (invalid_argument m)) /\
  (2 <= zlen keys -> 1 <= n -> zlen keys ^ Z.of_nat (clog (zlen keys) n) < n ->
     exists m, ggm_create aes clog n seed keys = Err (internal_error m)).
Proof. exact create_err. Qed.
Print Assumptions C07_create_fails_only.

(** The specification determines every node. *)
Theorem C07_tree_unique : forall aes seed keys n t1 t2, 2 <= zlen keys ->
  height t1 = height t2 -> well_shaped t1 (zlen keys) n -> well_shaped t2 (zlen keys) n ->
  is_ggm_tree aes seed keys t1 -> is_ggm_tree aes seed keys t2 -> t_levels t1 = t_levels t2.
Proof. exact ggm_tree_unique. Qed.
Print Assumptions C07_tree_unique.

Example C07_example : exists t, ggm_create toy_aes toy_clog 7 5 [11; 12; 13]%N = Ok t /\
  map (fun l => zlen l) (t_levels t) = [1; 3; 7].
Proof. eexists. split; vm_compute; reflexivity. Qed.

(** C08 *)
Theorem C08_get_value_at_node : forall t level i,
  (0 <= level < height t /\ 0 <= i < width t level -> get_value_at_node t level i = Ok (node t level i)) /\
  (~ (0 <= level < height t /\ 0 <= i < width t level) ->
     exists m, get_value_at_node t level i = Err (invalid_argument m)).
Proof. exact get_value_exact. Qed.
Print Assumptions C08_get_value_at_node.

Theorem C08_get_value_at_leaf : forall t i, 1 <= height t ->
  (0 <= i < num_leaves t -> get_value_at_leaf t i = Ok (node t (height t - 1) i)) /\
  (~ (0 <= i < num_leaves t) -> exists m, get_value_at_leaf t i = Err (invalid_argument m)).
Proof. exact get_leaf_exact. Qed.
Print Assumptions C08_get_value_at_leaf.

Example C08_example :
  let t := Tree 2 [[9]; [1; 2]; [3; 4; 5]]%N [] [] in
  get_value_at_leaf t 2 = Ok 5%N /\ get_value_at_leaf t 3 = Err (invalid_argument "node_index out of range").
Proof. vm_compute. split; reflexivity. Qed.

(** C09 *)
Theorem C09_sibling_wise_xor : forall t, 1 <= t_arity t ->
  (forall l, 1 <= l < height t -> width t l <= 2^31) ->
  exists xs, get_sibling_wise_xor t = Ok xs /\ zlen xs = Z.max 0 (height t - 1) /\
    forall l, 0 <= l < height t - 1 ->
      zlen (znth [] xs l) = t_arity t /\
      forall j, 0 <= j < t_arity t ->
        znth 0%N (znth [] xs l) j = sibling_xor (znth [] (t_levels t) (l + 1)) (t_arity t) j.
Proof. exact sibling_xors_ok. Qed.
Print Assumptions C09_sibling_wise_xor.

Example C09_example : get_sibling_wise_xor (Tree 2 [[9]; [1; 2]; [3; 4; 8]]%N [] []) = Ok [[1; 2]; [11; 4]]%N.
Proof. vm_compute. reflexivity. Qed.

(** C10 *)
Theorem C10_reconstruct : forall aes clog n m seed keys t xs,
  2 <= zlen keys < 2^31 -> 1 <= n <= 2^31 -> 0 <= m < n ->
  ggm_create aes clog n seed keys = Ok t -> get_sibling_wise_xor t = Ok xs ->
  exists r, ggm_reconstruct aes clog (zlen keys) n m xs keys = Ok r /\
    t_arity r = t_arity t /\ t_keys r = keys /\ height r = height t /\
    (forall l, width r l = width t l) /\
    forall l i, 0 <= l < height t -> 0 <= i < width t l ->
      node r l i = if i =? on_path (zlen keys) (height t) m l then 0%N else node t l i.
Proof. exact reconstruct_correct. Qed.
Print Assumptions C10_reconstruct.

Example C10_example : exists t xs r,
  ggm_create toy_aes toy_clog 7 5 [11; 12; 13]%N = Ok t /\ get_sibling_wise_xor t = Ok xs /\
  ggm_reconstruct toy_aes toy_clog 3 7 4 xs [11; 12; 13]%N = Ok r /\
  node r 2 4 = 0%N /\ node r 1 1 = 0%N /\ node r 2 3 = node t 2 3 /\ node t 2 4 <> 0%N.
Proof. do 3 eexists. split; [vm_compute; reflexivity|]. split; [vm_compute; reflexivity|].
  split; [vm_compute; reflexivity|]. vm_compute. repeat split; auto; discriminate. Qed.

(** C11: row l of the table belongs to level l+1. *)
Theorem C11_ignores_path_entries : forall aes clog A n m xs xs' keys,
  2 <= A < 2^31 -> 1 <= n <= 2^31 -> 0 <= m < n -> zlen keys = A ->
  zlen xs = zlen xs' -> (forall row, In row xs -> zlen row = A) -> (forall row, In row xs' -> zlen row = A) ->
  (forall l j, 0 <= l < zlen xs -> 0 <= j < A -> j <> on_path A (zlen xs + 1) m (l + 1) mod A ->
     znth 0%N (znth [] xs l) j = znth 0%N (znth [] xs' l) j) ->
  ggm_reconstruct aes clog A n m xs keys = ggm_reconstruct aes clog A n m xs' keys.
Proof. exact reconstruct_ignores_path. Qed.
Print Assumptions C11_ignores_path_entries.

Example C11_example :
  (* leaf 1 of 4 is missing: entries (0,0) and (1,1) are on the path *)
  ggm_reconstruct toy_aes toy_clog 2 4 1 [[77; 2]; [3; 78]]%N [5; 6]%N =
  ggm_reconstruct toy_aes toy_clog 2 4 1 [[0; 2]; [3; 0]]%N [5; 6]%N /\
  ggm_reconstruct toy_aes toy_clog 2 4 1 [[77; 2]; [3; 78]]%N [5; 6]%N <>
  ggm_reconstruct toy_aes toy_clog 2 4 1 [[77; 1]; [3; 78]]%N [5; 6]%N.
Proof. vm_compute. split; [reflexivity|discriminate]. Qed.

(** C12 *)
Theorem C12_rejects : forall aes clog A n m xs keys,
  A < 2 \/ n <= 0 \/ n <= m \/ (exists row, In row xs /\ zlen row <> A) \/
  A ^ zlen xs < n \/ keys = [] ->
  exists msg, ggm_reconstruct aes clog A n m xs keys = Err (invalid_argument msg).
Proof. exact reconstruct_rejects. Qed.
Print Assumptions C12_rejects.

(** Valid arguments succeed whatever the XOR table contains. *)
Theorem C12_valid_succeeds : forall aes clog A n m xs keys,
  2 <= A < 2^31 /\ 1 <= n /\ 0 <= m < n /\ zlen keys = A /\
  (forall row, In row xs -> zlen row = A) /\
  zlen xs = Z.of_nat (clog A n) /\ n <= A ^ zlen xs ->
  n <= 2^31 ->
  exists t, ggm_reconstruct aes clog A n m xs keys = Ok t /\ t_arity t = A /\ t_keys t = keys /\
    height t = zlen xs + 1 /\ well_shaped t A n.
Proof. exact reconstruct_valid_ok. Qed.
Print Assumptions C12_valid_succeeds.

(** What the checks miss. *)
Theorem C12_few_keys_undefined : forall aes clog A n m xs keys,
  2 <= A -> 1 <= n -> m < n -> (forall row, In row xs -> zlen row = A) -> n <= A ^ zlen xs ->
  1 <= zlen keys < A -> exists why, ggm_reconstruct aes clog A n m xs keys = UB why.
Proof. exact reconstruct_few_keys. Qed.
Print Assumptions C12_few_keys_undefined.

Theorem C12_row_count_asserts : forall aes clog A n m xs keys,
  2 <= A -> 1 <= n -> m < n -> (forall row, In row xs -> zlen row = A) -> n <= A ^ zlen xs ->
  zlen keys = A -> n <= A ^ Z.of_nat (clog A n) -> zlen xs <> Z.of_nat (clog A n) ->
  ggm_reconstruct aes clog A n m xs keys = UB "assert".
Proof. exact reconstruct_row_count. Qed.
Print Assumptions C12_row_count_asserts.

Theorem C12_negative_index_accepted_refuted :
  exists aes clog A n m xs keys, m < 0 /\ 2 <= A /\ 1 <= n /\ zlen keys = A /\
    (forall row, In row xs -> zlen row = A) /\ zlen xs = Z.of_nat (clog A n) /\ n <= A ^ zlen xs /\
    exists why, ggm_reconstruct aes clog A n m xs keys = UB why.
Proof.
  exists toy_aes, toy_clog, 2, 4, (-5), [[1; 2]; [3; 4]]%N, [5; 6]%N.
  repeat (split; [first [reflexivity|discriminate|cbn; intros row [<-|[<-|[]]]; reflexivity]|]).
  vm_compute. eexists; reflexivity.
Qed.
Print Assumptions C12_negative_index_accepted_refuted.

Theorem C12_extra_keys_accepted_refuted :
  exists aes clog A n m xs keys, A < zlen keys /\ 2 <= A /\ 0 <= m < n /\
    (forall row, In row xs -> zlen row = A) /\ zlen xs = Z.of_nat (clog A n) /\ n <= A ^ zlen xs /\
    exists why, ggm_reconstruct aes clog A n m xs keys = UB why.
Proof.
  exists toy_aes, toy_clog, 2, 4, 3, [[1; 2]; [3; 4]]%N, [5; 6; 7]%N.
  split; [reflexivity|]. split; [discriminate|]. split; [split; [discriminate|reflexivity]|].
  split; [cbn; intros row [<-|[<-|[]]]; reflexivity|]. split; [reflexivity|]. split; [discriminate|].
  vm_compute. eexists; reflexivity.
Qed.
Print Assumptions C12_extra_keys_accepted_refuted.

Example C12_example : exists t,
  ggm_reconstruct toy_aes toy_clog 2 4 1 [[77; 2]; [3; 78]]%N [5; 6]%N = Ok t.
Proof. eexists. vm_compute. reflexivity. Qed.

(** C13: safe up to 2^31 nodes per level (C09, C10, C12), undefined beyond. *)
Theorem C13_xor_overflow : forall t l,
  1 <= t_arity t -> 1 <= l < height t -> 2^31 < width t l ->
  exists why, get_sibling_wise_xor t = UB why.
Proof. exact sibling_xors_overflow. Qed.
Print Assumptions C13_xor_overflow.

Theorem C13_xor_safe : forall t, 1 <= t_arity t ->
  (forall l, 1 <= l < height t -> width t l <= 2^31) ->
  exists xs, get_sibling_wise_xor t = Ok xs.
Proof. exact (fun t H1 H2 => match sibling_xors_ok t H1 H2 with ex_intro _ xs (conj E _) => ex_intro _ xs E end). Qed.
Print Assumptions C13_xor_safe.

Theorem C13_reconstruct_overflow : forall aes clog A n m xs keys,
  2 <= A < 2^31 /\ 1 <= n /\ 0 <= m < n /\ zlen keys = A /\
  (forall row, In row xs -> zlen row = A) /\
  zlen xs = Z.of_nat (clog A n) /\ n <= A ^ zlen xs ->
  2 <= n -> 2^31 < n ->
  exists why, ggm_reconstruct aes clog A n m xs keys = UB why.
Proof. exact reconstruct_overflow. Qed.
Print Assumptions C13_reconstruct_overflow.

Example C13_example :
  let t := Tree 2 [[0%N]; zrepeat 0%N (2^31 + 1)] [] [] in
  1 <= t_arity t /\ 1 <= 1 < height t /\ 2^31 < width t 1.
Proof.
  cbv zeta. split; [discriminate|]. split; [split; [discriminate|reflexivity]|].
  unfold width. cbn [t_levels]. change (znth [] [[0%N]; ?x] 1) with x. rewrite zlen_zrepeat; reflexivity || discriminate.
Qed.
