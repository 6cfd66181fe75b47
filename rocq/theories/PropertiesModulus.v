(** Final theorems about the moduli of the threads (C90).
    [context]: the modulus that the calling thread had when it entered the
    function, if the scalar type has one. [parts], [tape], [every_schedule]: as in
    PropertiesPar.v. In the model a thread that computes with another modulus, or
    with none, crashes, and [every_schedule] excludes crashes. *)
From Verif Require Import Base BaseFacts ListFacts ScalarModel ScalarSpec ScalarProofs ScalarFinal GgmModel GgmSpec SpfssModel ParModel ParLoops ParSpec
  VoleModel VoleSpec ParEigen ParModulusSpec ParModulusFinal PropertiesPar.
From Coq Require Import Permutation.
Local Open Scope Z_scope.

(** C90: what the threads' moduli were before a region does not matter: when it
    ends, in any schedule, every thread of its team has the caller's. *)
Theorem C90_create : forall (S : scalar) context (m : cell -> value S) tape parts, parts_of 0 parts ->
  every_schedule same_cell (spans_allocated []) tape m (create_region S context parts) (fun m' drawn =>
    moduli context m' (zlen parts) /\ forall a, m' (At a) = m (At a)).
Proof. exact create_moduli. Qed.
Print Assumptions C90_create.

Theorem C90_unpack : forall (S : scalar) context trees spans outputs tape (m : cell -> value S) parts,
  disjoint_spans spans -> spans_contain m spans outputs -> Forall2 has_leaves trees (map zlen outputs) -> parts_of (zlen spans) parts ->
  every_schedule same_cell (spans_allocated spans) tape m (unpack_threads S context trees spans parts) (fun m' drawn =>
    moduli context m' (zlen parts)).
Proof. exact unpack_moduli. Qed.
Print Assumptions C90_unpack.

(** C90: the sender of an expansion: after the region of SPFSSKnownIndex, with any
    moduli before it, the products with the generator are right. *)
Theorem C90_sender_products : forall (S : scalar) context, scalar_laws S ->
  forall val_shares indices spans outputs tape (m : cell -> value S) parts,
  spans_contain m spans outputs -> zlen val_shares = zlen spans -> zlen indices = zlen spans -> sums_contain m val_shares ->
  parts_of (zlen spans) parts ->
  every_schedule same_cell (spans_allocated spans) tape m (index_threads S context indices spans parts) (fun m' drawn =>
    products_correct context m' (zlen parts)).
Proof. exact index_then_product. Qed.
Print Assumptions C90_sender_products.

(** C90: the receiver. *)
Theorem C90_receiver_products : forall (S : scalar) context, scalar_laws S ->
  forall val_shares spans outputs tape (m : cell -> value S) parts,
  disjoint_spans spans -> spans_contain m spans outputs -> zlen val_shares = zlen spans -> sums_contain m val_shares ->
  parts_of (zlen spans) parts ->
  every_schedule same_cell (spans_allocated spans) tape m (provider_threads S context spans parts) (fun m' drawn =>
    products_correct context m' (zlen parts)).
Proof. exact provider_then_product. Qed.
Print Assumptions C90_receiver_products.

(** C90: [products_correct] asks that the elements of the generator are in its
    rows; they are, in every object that calls can produce. *)
Theorem C90_generator_rows : forall (S : scalar) E, good_setting S E -> forall M : machine S, good_machine S M ->
  forall st0 l st, 1 <= p_nonzeros (e_parameters E) -> created S M st0 -> history S E M st0 l st ->
  rows_below (v_rows st) (v_columns st).
Proof. exact generator_rows. Qed.
Print Assumptions C90_generator_rows.

(** The threads must be kept: in a product whose team contains a thread that took
    part in no region (Eigen::setNbThreads with more threads than OpenMP uses),
    that thread computes without the modulus. *)
Theorem C90_foreign_thread_refuted : forall (S : scalar) p t i row x column work (stored : list (list (Z * S))) (vector result : Z * Z) parts tape (m : cell -> value S),
  0 <= t < zlen parts -> znth [] parts t = i :: work -> zget stored i = Ok ((row, x) :: column) -> 0 <= row < snd vector ->
  m (ModulusOf t) <> Modulus (Some p) ->
  exists s why, goes same_cell (spans_allocated [vector; result]) tape (Shared m 0 (product_threads S (Some p) stored vector result parts)) s /\
    nth_error (sh_threads s) (Z.to_nat t) = Some (Crash why).
Proof. exact foreign_crash. Qed.
Print Assumptions C90_foreign_thread_refuted.

(** ** Concrete executions *)

(** Scalars modulo 1009, two threads. Thread 0 starts with modulus 7, thread 1
    with none. A vector of three elements at 100, a result of three zeros at 200. *)
Definition mixed_memory (c : cell) : value toy_scalar :=
  match c with
  | At a => Scalar (toy_value (if a <? 200 then 10 * a else 0))
  | SumOf j => Scalar (toy_value (j + 1))
  | ModulusOf t => Modulus (if t =? 0 then Some 7%positive else None)
  end.
Definition toy_columns : list (list (Z * toy_scalar)) := [[(2, toy_value 3); (0, toy_value 5)]; []; [(1, toy_value 4)]].
Definition toy_stored : list (list (Z * toy_scalar)) := [[(0, toy_value 5); (2, toy_value 3)]; []; [(1, toy_value 4)]].
Definition toy_seed : list toy_scalar := [toy_value 1000; toy_value 1010; toy_value 1020].
(** After the region of the value provider. *)
Definition after_region : shared cell (value toy_scalar) :=
  play same_cell (spans_allocated toy_spans) toy_tape (alternate 20)
    (Shared mixed_memory 0 (provider_threads toy_scalar (Some 1009%positive) toy_spans [[2; 0]; [1]])).
(** The program puts the vector and the zeros into memory. *)
Definition before_product (c : cell) : value toy_scalar := match c with ModulusOf t => sh_memory after_region c | _ => mixed_memory c end.

Definition installed (v : value toy_scalar) : Z := match v with Modulus (Some p) => Z.pos p | _ => 0 end.
Example C90_example :
  finished after_region = true /\ map (fun t => installed (sh_memory after_region (ModulusOf t))) [0; 1; 2] = [1009; 1009; 0] /\
  let s := play same_cell (spans_allocated [(100, 3); (200, 3)]) toy_tape (alternate 10)
    (Shared before_product 0 (product_threads toy_scalar (Some 1009%positive) toy_stored (100, 3) (200, 3) [[2; 0]; [1]])) in
  finished s = true /\ map (fun x => read (sh_memory s (At x))) [200; 201; 202] = [997; 0; 4] /\
  map (fun x => Z.of_N (zval x)) (encode toy_scalar toy_columns toy_seed) = [997; 0; 4].
Proof. vm_compute. repeat split; reflexivity. Qed.

(** The hypotheses in [products_correct]. *)
Example C90_hypotheses : scalar_laws toy_scalar /\ zlen [[2; 0]; [1]] <= 2 /\ keeps_threads (sh_memory after_region) before_product 2 /\
  same_columns toy_columns toy_stored /\ rows_below (zlen toy_seed) toy_columns /\ disjoint_spans [(100, 3); (200, 3)] /\
  spans_contain before_product [(100, 3); (200, 3)] [toy_seed; zrepeat (s_zero toy_scalar) (zlen toy_columns)] /\
  parts_of (zlen toy_columns) [[2; 0]; [1]].
Proof.
  split; [apply scalar_of_laws; split; [reflexivity|discriminate]|]. split; [unfold zlen; cbn; lia|]. split; [intros t Ht; reflexivity|].
  split; [constructor; [apply perm_swap|repeat constructor]|]. split; [repeat constructor; discriminate|]. split; [|split].
  - intros i j Hi Hj Hn. unfold zlen in Hi, Hj. cbn in Hi, Hj. assert (E : i = 0 \/ i = 1) by lia. assert (E' : j = 0 \/ j = 1) by lia.
    destruct E as [->| ->], E' as [->| ->]; try contradiction; [left|right]; vm_compute; discriminate.
  - split; [reflexivity|]. intros i k Hi Hk. unfold zlen in Hi. cbn in Hi. assert (E : i = 0 \/ i = 1) by lia.
    destruct E as [->| ->]; match type of Hk with 0 <= k < ?n => let v := eval vm_compute in n in change n with v in Hk end;
      (assert (E : k = 0 \/ k = 1 \/ k = 2) by lia); destruct E as [->|[->| ->]]; reflexivity.
  - exact three_iterations.
Qed.

Example C90_create_example :
  parts_of 0 [[]; []; []] /\
  let s := play same_cell (spans_allocated []) toy_tape [1; 0; 2]%nat (Shared mixed_memory 0 (create_region toy_scalar (Some 1009%positive) [[]; []; []])) in
  finished s = true /\ map (fun t => installed (sh_memory s (ModulusOf t))) [0; 1; 2; 3] = [1009; 1009; 1009; 0].
Proof. split; [apply Permutation_refl|]. vm_compute. split; reflexivity. Qed.

(** A third thread in the product after a region of two. *)
Example C90_foreign_example :
  let s := play same_cell (spans_allocated [(100, 3); (200, 3)]) toy_tape [2]%nat
    (Shared before_product 0 (product_threads toy_scalar (Some 1009%positive) toy_stored (100, 3) (200, 3) [[0]; [1]; [2]])) in
  option_map (fun p => match p with Crash why => why | _ => ""%string end) (nth_error (sh_threads s) 2) = Some "no modulus"%string.
Proof. vm_compute. reflexivity. Qed.
