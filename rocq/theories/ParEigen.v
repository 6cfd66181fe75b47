(** The products of a row vector and the code generator
    (distributed_vector_ole.h:459-463 and 490-491), as Eigen computes them.

    Eigen 3.3, src/SparseCore/SparseDenseProduct.h (not in /repo): the product
    is that of the transposed matrix, whose rows are the columns of
    [code_generator_], and the transposed vector; the result is a new vector of
    zeros. With more than one thread and more than 20000 non-zero elements the
    loop over the rows is `#pragma omp parallel for schedule(dynamic, ...)
    num_threads(Eigen::nbThreads())`; otherwise there is one thread. No thread
    installs a modulus. *)
From Verif Require Import Base ScalarModel GgmModel ParModel ParLoops.
Local Open Scope Z_scope.

Section Eigen.
  Variable S : scalar.
  Variable context : option positive.

  (** processRow: tmp += it.value() * rhs.coeff(it.index(), col) for the elements
      of a row, then res.coeffRef(i, col) += alpha * tmp, where alpha = 1. [vector],
      [result]: spans of rhs and res. *)
  Fixpoint row_products (t : Z) (vector : Z * Z) (elements : list (Z * S)) (tmp : S) (k : S -> thread cell (value S)) : thread cell (value S) :=
    match elements with
    | [] => k tmp
    | (index, x) :: elements =>
        in_span S vector index (fun c => compute S context t (get_scalar S c (fun y =>
        row_products t vector elements (s_add S tmp (s_mul S x y)) k)))
    end.
  Definition product_iteration (columns : list (list (Z * S))) (vector result : Z * Z) (t i : Z) : thread cell (value S) :=
    match zget columns i with
    | Ok column =>
        row_products t vector column (s_zero S) (fun tmp =>
        in_span S result i (fun c => compute S context t (get_scalar S c (fun r =>
        Put c (Scalar (s_add S r (s_mul S (s_one S) tmp))) Stop))))
    | _ => Crash "row of the product"
    end.
  Definition no_restore (t : Z) : thread cell (value S) := Stop.
  Definition product_threads columns vector result parts :=
    parallel_for no_restore (product_iteration columns vector result) parts.

  (** distributed_vector_ole.h:219-224, the region of Create. *)
  Definition create_region (parts : list (list Z)) : list (thread cell (value S)) :=
    parallel_for (restore S context) (fun _ _ => Stop) parts.
End Eigen.
