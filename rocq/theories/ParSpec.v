(** Specification vocabulary for parallel loops. *)
From Verif Require Import Base ParModel.
From Coq Require Import Permutation.
Local Open Scope Z_scope.

(** Any division of the iterations 0, ..., n - 1 among threads, each of which
    executes its part in any order. This includes the static, guided and dynamic
    schedules with any number of threads. *)
Definition parts_of (n : Z) (parts : list (list Z)) : Prop :=
  Permutation (List.concat parts) (zrange 0 n).

(** However the threads are interleaved, starting with memory [m]: they do not go
    on forever, there is never a data race, and when nothing can happen any more
    then all threads have finished, and [Q] holds of the memory and of the blocks
    that were drawn from the tape. *)
Definition every_schedule {C V} same allocated tape (m : C -> V) (threads : list (thread C V))
    (Q : (C -> V) -> list N -> Prop) : Prop :=
  let start := Shared m 0 threads in
  (forall f : nat -> shared C V, f O = start -> ~ forall n, go same allocated tape (f n) (f (Datatypes.S n))) /\
  (forall s, goes same allocated tape start s -> ~ race s) /\
  (forall s, goes same allocated tape start s -> (forall s', ~ go same allocated tape s s') ->
     Forall (fun p => p = Stop) (sh_threads s) /\ Q (sh_memory s) (map tape (seq 0 (sh_drawn s)))).

(** ** Contents of memory *)
From Verif Require Import ScalarModel GgmModel GgmSpec ParLoops.

(** The two-dimensional vector in the cells (i, j). *)
Definition table_in (m : Z * Z -> Z) (rows columns : Z) : list (list Z) :=
  map (fun i => map (fun j => m (i, j)) (zrange 0 columns)) (zrange 0 rows).

(** Spans that do not overlap. *)
Definition disjoint_spans (spans : list (Z * Z)) : Prop :=
  forall i j, 0 <= i < zlen spans -> 0 <= j < zlen spans -> i <> j ->
    let '(a, n) := znth (0, 0) spans i in let '(b, k) := znth (0, 0) spans j in
    a + n <= b \/ b + k <= a.
(** The spans contain these vectors. *)
Definition spans_contain {S : scalar} (m : cell -> value S) (spans : list (Z * Z)) (outputs : list (list S)) : Prop :=
  map snd spans = map zlen outputs /\
  forall i k, 0 <= i < zlen outputs -> 0 <= k < zlen (znth [] outputs i) ->
    m (At (fst (znth (0, 0) spans i) + k)) = Scalar (znth (s_zero S) (znth [] outputs i) k).
Definition sums_contain {S : scalar} (m : cell -> value S) (sums : list S) : Prop :=
  forall j, 0 <= j < zlen sums -> m (SumOf j) = Scalar (znth (s_zero S) sums j).

(** A tree with [n] leaves; no tree for an empty output. *)
Definition has_leaves (ot : option tree) (n : Z) : Prop :=
  match ot with None => n = 0 | Some t => 1 <= height t /\ num_leaves t = n end.
(** An address that belongs to none of the spans. *)
Definition outside_spans (spans : list (Z * Z)) (a : Z) : Prop :=
  forall i, 0 <= i < zlen spans ->
    let '(b, n) := znth (0, 0) spans i in a < b \/ b + n <= a.

(** One tree for every non-zero size, created from the seeds in index order. *)
Fixpoint trees_from aes clog (sizes : list Z) (keys seeds : list N) : list (option (res tree)) :=
  match sizes, seeds with
  | [], _ => []
  | n :: sizes', seed :: seeds' =>
      if n =? 0 then None :: trees_from aes clog sizes' keys seeds
      else Some (ggm_create aes clog n seed keys) :: trees_from aes clog sizes' keys seeds'
  | n :: sizes', [] => None :: trees_from aes clog sizes' keys []
  end.

(** A program of one party whose next random blocks are given. *)
From Verif Require Import ProcModel.
Fixpoint with_seeds {S : scalar} {R} (p : proc S R) (seeds : list N) : proc S R :=
  match seeds, p with
  | seed :: seeds', Rand k => with_seeds (k seed (s_zero S)) seeds'
  | _, _ => p
  end.
