(** Final theorems about the OpenMP loops (C52).
    [parts]: any division of the iterations among any number of threads, each of
    which executes its part in any order; [every_schedule] quantifies over all
    interleavings of the threads' memory accesses and includes the absence of
    data races. [tape]: what RAND_bytes returns. [context]: the NTL modulus saved
    by the thread that starts the region, if the scalar type has one. *)
From Verif Require Import Base BaseFacts ListFacts ScalarModel GgmModel GgmSpec RotModel RotSpec SpfssModel CuckooModel MpfssModel ProcModel
  ParModel ParLoops ParSpec ParProofs ParFinal ParScalars.
From Coq Require Import Permutation.
Local Open Scope Z_scope.

(** C52: CuckooHasher::Hash *)
Theorem C52_hash : forall aes h inputs num_buckets tape (m : Z * Z -> Z) parts,
  1 <= num_buckets < 2^63 -> 1 <= ch_num_hash_functions h -> parts_of (zlen inputs) parts ->
  every_schedule same_pair (hash_allocated h inputs) tape m (hash_threads aes h inputs num_buckets parts) (fun m' drawn =>
    hash aes h inputs num_buckets = Ok (table_in m' (zlen inputs) (ch_num_hash_functions h))).
Proof. exact hash_parallel. Qed.
Print Assumptions C52_hash.

(** C52: AllButOneRandomOT, sender: the trees are those of the sequential
    program for the seeds that were drawn, in some order. *)
Theorem C52_create_trees : forall aes clog sizes keys tape (m : Z -> option (res tree)) parts,
  (forall i, m i = None) -> parts_of (zlen sizes) parts ->
  every_schedule Z.eq_dec (slot_allocated sizes) tape m (create_threads aes clog sizes keys parts) (fun m' drawn =>
    exists seeds, Permutation seeds drawn /\
      forall (S : scalar) k, with_seeds (create_trees S aes clog sizes keys k) seeds = k (map m' (zrange 0 (zlen sizes)))).
Proof. exact create_parallel_seq. Qed.
Print Assumptions C52_create_trees.

(** C52: AllButOneRandomOT, receiver. For supported sizes and valid indices no
    iteration fails, so the variable `status`, which all threads share, is never
    written. *)
Theorem C52_receive_trees : forall aes clog sizes indices choices offsets ot_results keys tape m parts,
  zlen sizes = zlen indices -> zlen keys = 2 ->
  (forall n, In n sizes -> n = 0 \/ 1 <= n /\ supported_size clog n) ->
  (forall i, 0 <= i < zlen sizes -> valid_index (znth 0 indices i) (znth 0 sizes i)) ->
  all_choices clog 2 (combine sizes indices) [] [0] = Ok (choices, offsets) -> zlen ot_results = zlen choices ->
  (forall i, m (TreeAt i) = TreeIs None) -> m TheStatus = StatusIs None -> parts_of (zlen sizes) parts ->
  every_schedule same_receive (receive_allocated sizes) tape m
    (receive_threads aes clog choices ot_results offsets keys sizes indices parts) (fun m' drawn =>
    m' TheStatus = StatusIs None /\
    exists trees, map (fun i => m' (TreeAt i)) (zrange 0 (zlen sizes)) = map TreeIs trees /\
      collect (map (fun i => receive_tree aes clog 2 choices ot_results offsets keys i (znth 0 sizes i) (znth 0 indices i))
        (zrange 0 (zlen sizes))) = Ok trees).
Proof. exact receive_parallel_valid. Qed.
Print Assumptions C52_receive_trees.

(** C52: AllButOneRandomOT, both roles: converting the leaves to scalars *)
Theorem C52_unpack : forall (S : scalar) context trees spans outputs tape (m : cell -> value S) parts,
  disjoint_spans spans -> spans_contain m spans outputs -> Forall2 has_leaves trees (map zlen outputs) -> parts_of (zlen spans) parts ->
  every_schedule same_cell (spans_allocated spans) tape m (unpack_threads S context trees spans parts) (fun m' drawn =>
    (exists r, unpack_all S trees outputs = Ok r /\ spans_contain m' spans r) /\
    (forall a, outside_spans spans a -> m' (At a) = m (At a))).
Proof. exact unpack_parallel. Qed.
Print Assumptions C52_unpack.

(** C52: SPFSSKnownIndex, value provider *)
Theorem C52_value_provider : forall (S : scalar) context val_shares spans outputs tape (m : cell -> value S) parts,
  disjoint_spans spans -> spans_contain m spans outputs -> zlen val_shares = zlen spans -> sums_contain m val_shares ->
  parts_of (zlen spans) parts ->
  every_schedule same_cell (spans_allocated spans) tape m (provider_threads S context spans parts) (fun m' drawn =>
    let r := map (fun '(v, o) => provider_sum S v o) (combine val_shares outputs) in
    sums_contain m' (map fst r) /\ spans_contain m' spans (map snd r) /\
    (forall a, outside_spans spans a -> m' (At a) = m (At a))).
Proof. exact provider_parallel. Qed.
Print Assumptions C52_value_provider.

(** C52: SPFSSKnownIndex, index provider. The spans are only read, so they may
    even overlap. *)
Theorem C52_index_provider : forall (S : scalar) context val_shares indices spans outputs tape (m : cell -> value S) parts,
  spans_contain m spans outputs -> zlen val_shares = zlen spans -> zlen indices = zlen spans -> sums_contain m val_shares ->
  parts_of (zlen spans) parts ->
  every_schedule same_cell (spans_allocated spans) tape m (index_threads S context indices spans parts) (fun m' drawn =>
    (exists r, rmapM (fun j => index_sum S (znth (s_zero S) val_shares j) (znth 0 indices j) (znth [] outputs j))
       (zrange 0 (zlen outputs)) = Ok r /\ sums_contain m' r) /\
    (forall a, m' (At a) = m (At a))).
Proof. exact index_parallel. Qed.
Print Assumptions C52_index_provider.

(** C52: MPFSSKnownIndices, index provider: bucket outputs, their spans and the
    indices in the buckets. *)
Theorem C52_bucket_search : forall (S : scalar) context buckets hashed_inputs indices tape (m : search_cell -> search_value S) parts ixs null,
  (forall i, m (OutputOf i) = Vector [] /\ m (SpanOf i) = Span null 0 /\ m (IndexOf i) = Index 0) ->
  parts_of (zlen buckets) parts ->
  rmapM (index_in_bucket buckets hashed_inputs indices) (zrange 0 (zlen buckets)) = Ok ixs ->
  every_schedule same_search (search_allocated (zlen buckets)) tape m
    (search_threads S context buckets hashed_inputs indices parts) (fun m' drawn =>
    forall i, 0 <= i < zlen buckets ->
      m' (OutputOf i) = Vector (zrepeat (s_zero S) (zlen (znth [] buckets i))) /\
      (zlen (znth [] buckets i) = 0 /\ m' (SpanOf i) = Span null 0 \/ m' (SpanOf i) = Span i (zlen (znth [] buckets i))) /\
      m' (IndexOf i) = Index (znth 0 ixs i)).
Proof. exact search_parallel. Qed.
Print Assumptions C52_bucket_search.

(** ** Concrete executions *)

(** The threads move in the given order. *)
Section Play.
  Context {C V : Type}.
  Variable same : forall c d : C, {c = d} + {c <> d}.
  Variable allocated : C -> bool.
  Variable tape : nat -> N.
  Definition move (s : shared C V) (t : nat) : shared C V :=
    let 'Shared m n l := s in
    match nth_error l t with
    | Some (Get c k) => if allocated c then Shared m n (list_set l t (k (m c))) else s
    | Some (Put c v k) => if allocated c then Shared (store same m c v) n (list_set l t k) else s
    | Some (Draw k) => Shared m (Datatypes.S n) (list_set l t (k (tape n)))
    | _ => s
    end.
  Lemma move_goes s0 s t : goes same allocated tape s0 s -> goes same allocated tape s0 (move s t).
  Proof.
    destruct s as [m n l]. cbn. intro H. destruct (nth_error l t) as [[|c k|c v k|k|w]|] eqn:E; auto.
    - destruct (allocated c) eqn:Ea; auto. eapply goes_step; [exact H|]. now apply go_get.
    - destruct (allocated c) eqn:Ea; auto. eapply goes_step; [exact H|]. now apply go_put.
    - eapply goes_step; [exact H|]. now apply go_draw.
  Qed.
  Definition play (order : list nat) (s : shared C V) : shared C V := fold_left move order s.
  Lemma play_goes order : forall s, goes same allocated tape s (play order s).
  Proof.
    intro s. unfold play. assert (G : forall s1, goes same allocated tape s s1 -> goes same allocated tape s (fold_left move order s1)).
    { induction order as [|t order IH]; cbn; auto. intros s1 H. apply IH. now apply move_goes. }
    apply G. constructor.
  Qed.
End Play.
Definition finished {C V} (s : shared C V) : bool := forallb (fun p => match p with Stop => true | _ => false end) (sh_threads s).

Definition toy_aes (k x : N) : N := ((k * 31 + x * 7 + 1) mod 2^128)%N.
Definition toy_clog (a n : Z) : nat := if n <=? 1 then 0 else if n <=? a then 1 else if n <=? a * a then 2 else 3.
Definition toy_tape (n : nat) : N := (N.of_nat n * 1000 + 17)%N.

(** Two threads, a division in which the first thread executes iteration 2
    before iteration 0, and an interleaving. *)
Lemma three_iterations : parts_of 3 [[2; 0]; [1]].
Proof. change (Permutation [2; 0; 1] [0; 1; 2]). apply Permutation_sym. apply (Permutation_cons_app [2] [1] 0). apply (Permutation_cons_app [2] [] 1). auto. Qed.

Example C52_hash_example :
  let h := Hasher 5 2 in let inputs := [10; 20; 30]%N in
  let s := play same_pair (hash_allocated h inputs) toy_tape [0; 1; 0; 1; 0; 0]%nat
             (Shared (fun _ => -7) 0 (hash_threads toy_aes h inputs 11 [[2; 0]; [1]])) in
  finished s = true /\ table_in (sh_memory s) 3 2 = [[1; 3]; [8; 3]; [5; 7]] /\
  hash toy_aes h inputs 11 = Ok [[1; 3]; [8; 3]; [5; 7]].
Proof. vm_compute. repeat split; reflexivity. Qed.

(** The seeds are not drawn in index order. *)
Example C52_create_trees_example :
  let sizes := [3; 0; 2] in
  let s := play Z.eq_dec (slot_allocated sizes) toy_tape [0; 1; 0; 0; 0]%nat
             (Shared (fun _ => None) 0 (create_threads toy_aes toy_clog sizes [3; 5]%N [[2; 0]; [1]])) in
  finished s = true /\ sh_drawn s = 2%nat /\
  map (sh_memory s) (zrange 0 3) = trees_from toy_aes toy_clog sizes [3; 5]%N [1017; 17]%N.
Proof. vm_compute. repeat split; reflexivity. Qed.

Example C52_receive_trees_example :
  let sizes := [3; 0; 2] in let indices := [1; 0; 0] in
  exists choices offsets, all_choices toy_clog 2 (combine sizes indices) [] [0] = Ok (choices, offsets) /\ zlen choices = 3 /\
  (forall n, In n sizes -> n = 0 \/ 1 <= n /\ supported_size toy_clog n) /\
  (forall i, 0 <= i < 3 -> valid_index (znth 0 indices i) (znth 0 sizes i)) /\
  let s := play same_receive (receive_allocated sizes) toy_tape [0; 1; 0]%nat
             (Shared (fun c => match c with TreeAt _ => TreeIs None | TheStatus => StatusIs None end) 0
               (receive_threads toy_aes toy_clog choices [100; 200; 300]%N offsets [3; 5]%N sizes indices [[2; 0]; [1]])) in
  finished s = true /\ sh_memory s TheStatus = StatusIs None /\
  exists t0 t2, map (fun i => sh_memory s (TreeAt i)) (zrange 0 3) = [TreeIs (Some t0); TreeIs None; TreeIs (Some t2)] /\
    num_leaves t0 = 3 /\ num_leaves t2 = 2.
Proof.
  eexists. eexists. split; [vm_compute; reflexivity|]. split; [reflexivity|]. split; [|split].
  - intros n H. repeat destruct H as [<-|H]; try contradiction; vm_compute; intuition discriminate.
  - intros i Hi. assert (E : i = 0 \/ i = 1 \/ i = 2) by lia. destruct E as [-> | [-> | ->]]; vm_compute; intuition discriminate.
  - split; [vm_compute; reflexivity|]. split; [vm_compute; reflexivity|]. eexists. eexists. split; [vm_compute; reflexivity|]. split; vm_compute; reflexivity.
Qed.

(** Scalars modulo 1009. *)
Definition toy_scalar : scalar := scalar_of (zz_p 1009).
Definition toy_value (z : Z) : toy_scalar := s_of128 toy_scalar (Z.to_N z).
Definition read (v : value toy_scalar) : Z := match v with Scalar x => Z.of_N (zval x) | _ => -1 end.
(** Before the region: address a contains 10 a; the sums are 1, 2 and 3; the
    threads have no modulus. *)
Definition toy_memory (c : cell) : value toy_scalar :=
  match c with At a => Scalar (toy_value (10 * a)) | SumOf j => Scalar (toy_value (j + 1)) | ModulusOf _ => Modulus None end.
Definition toy_spans : list (Z * Z) := [(100, 2); (50, 0); (90, 3)].
Definition alternate (n : nat) : list nat := List.concat (repeat [0; 1; 1; 0]%nat n).

Lemma toy_disjoint : disjoint_spans toy_spans.
Proof.
  intros i j Hi Hj Hn. change (zlen toy_spans) with 3 in *.
  assert (E : i = 0 \/ i = 1 \/ i = 2) by lia. assert (E' : j = 0 \/ j = 1 \/ j = 2) by lia.
  destruct E as [-> | [-> | ->]], E' as [-> | [-> | ->]]; try contradiction; [right|right|left|left|left|right]; vm_compute; discriminate.
Qed.
Lemma toy_contains : spans_contain toy_memory toy_spans [[toy_value 1000; toy_value 1010]; []; [toy_value 900; toy_value 910; toy_value 920]].
Proof.
  split; [reflexivity|]. cbn [zlen List.length]. intros i k Hi Hk. assert (E : i = 0 \/ i = 1 \/ i = 2) by (unfold zlen in Hi; cbn in Hi; lia).
  destruct E as [-> | [-> | ->]]; match type of Hk with 0 <= k < ?n => let v := eval vm_compute in n in change n with v in Hk end; [|lia|].
  - assert (E : k = 0 \/ k = 1) by lia. destruct E as [->| ->]; reflexivity.
  - assert (E : k = 0 \/ k = 1 \/ k = 2) by lia. destruct E as [-> | [-> | ->]]; reflexivity.
Qed.
Lemma toy_sums : sums_contain toy_memory [toy_value 1; toy_value 2; toy_value 3].
Proof. intros j Hj. unfold zlen in Hj. cbn in Hj. assert (E : j = 0 \/ j = 1 \/ j = 2) by lia. destruct E as [-> | [-> | ->]]; reflexivity. Qed.

Definition two_trees : option (tree * tree) :=
  match ggm_create toy_aes toy_clog 2 17 [3; 5]%N, ggm_create toy_aes toy_clog 3 18 [3; 5]%N with Ok a, Ok b => Some (a, b) | _, _ => None end.
Example C52_unpack_example :
  exists a b, two_trees = Some (a, b) /\ Forall2 has_leaves [Some a; None; Some b] (map snd toy_spans) /\
  let s := play same_cell (spans_allocated toy_spans) toy_tape (alternate 10)
             (Shared toy_memory 0 (unpack_threads toy_scalar (Some 1009%positive) [Some a; None; Some b] toy_spans [[2; 0]; [1]])) in
  finished s = true /\ map (fun x => read (sh_memory s (At x))) [99; 100; 101; 102; 89; 90; 91; 92; 93] = [990; 196; 258; 11; 890; 733; 767; 685; 930].
Proof.
  eexists. eexists. split; [vm_compute; reflexivity|]. split.
  - repeat constructor; vm_compute; discriminate.
  - vm_compute. split; reflexivity.
Qed.

Example C52_value_provider_example :
  let s := play same_cell (spans_allocated toy_spans) toy_tape (alternate 20)
             (Shared toy_memory 0 (provider_threads toy_scalar (Some 1009%positive) toy_spans [[2; 0]; [1]])) in
  finished s = true /\ map (fun j => read (sh_memory s (SumOf j))) [0; 1; 2] = [1002; 2; 715] /\
  map (fun x => read (sh_memory s (At x))) [99; 100; 101; 102; 90; 91; 92; 93] = [990; 9; 1008; 11; 109; 99; 89; 930].
Proof. vm_compute. repeat split; reflexivity. Qed.

Example C52_index_provider_example :
  let s := play same_cell (spans_allocated toy_spans) toy_tape (alternate 20)
             (Shared toy_memory 0 (index_threads toy_scalar (Some 1009%positive) [1; 0; 0] toy_spans [[2; 0]; [1]])) in
  finished s = true /\ map (fun j => read (sh_memory s (SumOf j))) [0; 1; 2] = [10; 2; 191].
Proof. vm_compute. repeat split; reflexivity. Qed.

Definition toy_search (c : search_cell) : search_value toy_scalar :=
  match c with OutputOf _ => Vector [] | SpanOf _ => Span (-1) 0 | IndexOf _ => Index 0 | SearchModulus _ => SearchContext None end.
Example C52_bucket_search_example :
  let buckets := [[2; 5; 9]; []; [1; 4]] in
  rmapM (index_in_bucket buckets [1; -1; 0] [4; 9]) (zrange 0 3) = Ok [2; 0; 1] /\
  let s := play same_search (search_allocated 3) toy_tape (alternate 10)
             (Shared toy_search 0 (search_threads toy_scalar (Some 1009%positive) buckets [1; -1; 0] [4; 9] [[2; 0]; [1]])) in
  finished s = true /\
  map (fun i => match sh_memory s (IndexOf i), sh_memory s (SpanOf i) with Index k, Span v n => (k, v, n) | _, _ => (0, 0, 0) end) [0; 1; 2] =
    [(2, 0, 3); (0, -1, 0); (1, 2, 2)].
Proof. vm_compute. repeat split; reflexivity. Qed.

(** The spans must not overlap: otherwise two threads write the same element. *)
(** The cell that a thread is about to write. *)
Definition next_write {C V} (p : thread C V) : option C := match p with Put c _ _ => Some c | _ => None end.
Lemma both_write {C V} (s : shared C V) c : map next_write (sh_threads s) = [Some c; Some c] -> race s.
Proof.
  unfold race. destruct (sh_threads s) as [|p [|q [|? ?]]]; try discriminate. cbn. intro H. injection H as Hp Hq.
  exists 0%nat, 1%nat, p, q, c. split; [discriminate|]. split; [reflexivity|]. split; [reflexivity|].
  destruct p; try discriminate. destruct q; try discriminate. cbn in *. split; congruence.
Qed.

Lemma overlapping_race : exists (S : scalar) context trees spans outputs tape (m : cell -> value S) parts,
  spans_contain m spans outputs /\ Forall2 has_leaves trees (map zlen outputs) /\ parts_of (zlen spans) parts /\
  exists s, goes same_cell (spans_allocated spans) tape (Shared m 0 (unpack_threads S context trees spans parts)) s /\ race s.
Proof.
  destruct two_trees as [[a b]|] eqn:E; [|vm_compute in E; discriminate].
  exists toy_scalar, None, [Some a; Some a], [(100, 2); (101, 2)], [[toy_value 1000; toy_value 1010]; [toy_value 1010; toy_value 1020]], toy_tape, toy_memory, [[0]; [1]].
  vm_compute in E. injection E as <- <-. split; [|split; [|split]].
  - split; [reflexivity|]. intros i k Hi Hk. unfold zlen in Hi. cbn in Hi. assert (Ei : i = 0 \/ i = 1) by lia.
    destruct Ei as [-> | ->]; match type of Hk with 0 <= k < ?n => let v := eval vm_compute in n in change n with v in Hk end; assert (Ek : k = 0 \/ k = 1) by lia; destruct Ek as [-> | ->]; reflexivity.
  - repeat constructor; vm_compute; discriminate.
  - apply Permutation_refl.
  - eexists. split; [apply (play_goes _ _ _ [0]%nat)|]. apply (both_write _ (At 101)). vm_compute. reflexivity.
Qed.

Theorem C52_overlapping_outputs_race : exists (S : scalar) context trees spans outputs tape (m : cell -> value S) parts,
  spans_contain m spans outputs /\ Forall2 has_leaves trees (map zlen outputs) /\ parts_of (zlen spans) parts /\
  exists s, goes same_cell (spans_allocated spans) tape (Shared m 0 (unpack_threads S context trees spans parts)) s /\ race s.
Proof. exact overlapping_race. Qed.
Print Assumptions C52_overlapping_outputs_race.
