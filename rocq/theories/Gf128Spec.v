(** Specification: GF(2)[X] with polynomials as binary numbers (bit k of p is
    the coefficient of X^k), and the quotient by F = X^128+X^7+X^2+X+1.
    Independent of Gf128Model.v. *)
From Verif Require Import Base.
Local Open Scope N_scope.

(** Coefficient k of the product: sum over GF(2) of p_i * q_(k-i), i = 0..k. *)
Fixpoint conv (p q : N) (k i : nat) : bool :=
  let t := N.testbit p (N.of_nat i) && N.testbit q (N.of_nat (k - i)) in
  match i with
  | O => t
  | S i' => xorb t (conv p q k i')
  end.

(** [r] is the product of the polynomials [p] and [q]. *)
Definition is_poly_product (r p q : N) : Prop :=
  forall k : nat, N.testbit r (N.of_nat k) = conv p q k k.

(** X^128 + X^7 + X^2 + X + 1 *)
Definition F : N := 2^128 + 2^7 + 2^2 + 2^1 + 2^0.

(** [c] is the product of [a] and [b] in GF(2)[X]/(F): the representative of
    degree < 128 that differs from the polynomial product by a multiple of F. *)
Definition is_field_product (c a b : N) : Prop :=
  c < 2^128 /\
  exists ab q qF, is_poly_product ab a b /\ is_poly_product qF q F /\ ab = N.lxor c qF.
