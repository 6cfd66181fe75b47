(** Specification vocabulary: the moduli of the threads. *)
From Verif Require Import Base ScalarModel ParModel ParLoops ParSpec VoleModel ParEigen.
Local Open Scope Z_scope.

(** The threads 0, ..., n - 1 (0 is the caller) have the modulus in [context]
    installed. Types that are not of NTL have no modulus. *)
Definition moduli {S : scalar} (context : option positive) (m : cell -> value S) (n : Z) : Prop :=
  match context with
  | None => True
  | Some p => forall t, 0 <= t < n -> m (ModulusOf t) = Modulus (Some p)
  end.

(** Between two parallel regions the threads that took part in the first one are
    kept: OpenMP promises this for teams of the same size (as for threadprivate
    variables), libgomp also for smaller teams. Other memory may have changed. *)
Definition keeps_threads {S : scalar} (m m' : cell -> value S) (n : Z) : Prop :=
  forall t, 0 <= t < n -> m' (ModulusOf t) = m (ModulusOf t).

(** The columns with their elements in the order of Eigen instead of the order of
    insertion. *)
From Coq Require Import Permutation.
Definition same_columns {S : scalar} (columns stored : list (list (Z * S))) : Prop := Forall2 (@Permutation (Z * S)) columns stored.
Definition rows_below {S : scalar} (rows : Z) (columns : list (list (Z * S))) : Prop :=
  Forall (Forall (fun '(row, _) => 0 <= row < rows)) columns.

(** From memory [m] on, as long as the first n threads are kept, every product of
    a vector and a generator by at most n threads, however its rows are divided
    among them and interleaved, is the product [encode] of the sequential program,
    changes nothing else, and leaves the threads ready for the next one. *)
Definition products_correct {S : scalar} (context : option positive) (m : cell -> value S) (n : Z) : Prop :=
  forall m' parts columns stored seed vector result tape,
    keeps_threads m m' n -> zlen parts <= n ->
    same_columns columns stored -> rows_below (zlen seed) columns -> disjoint_spans [vector; result] ->
    spans_contain m' [vector; result] [seed; zrepeat (s_zero S) (zlen columns)] -> parts_of (zlen columns) parts ->
    every_schedule same_cell (spans_allocated [vector; result]) tape m' (product_threads S context stored vector result parts) (fun m'' drawn =>
      spans_contain m'' [vector; result] [seed; encode S columns seed] /\
      (forall a, outside_spans [result] a -> m'' (At a) = m' (At a)) /\ keeps_threads m' m'' n).
