(** Vocabulary for computations with doubles: IEEE 754 binary64, rounding to
    nearest, and library functions with an error of less than one unit in the
    last place. The real numbers and their functions are those of the standard
    library; rounding is that of Flocq. *)
From Coq Require Import ZArith Reals Lra.
From Flocq.Core Require Import Core.
Local Open Scope R_scope.

(** Exponents of doubles: 53 bits of precision, smallest positive double 2^-1074. *)
Definition double_exp : Z -> Z := FLT_exp (-1074) 53.
Definition nearest (x : R) : R := round radix2 double_exp ZnearestE x.
Definition down (x : R) : R := round radix2 double_exp Zfloor x.
Definition up (x : R) : R := round radix2 double_exp Zceil x.

(** The doubles. *)
Inductive double := Fin (x : R) | Inf (negative : bool) | NaN.

(** The result of an operation whose exact result is x. Rounded results of
    magnitude 2^1024 and more are infinite. *)
Definition rounded (x : R) : double :=
  if Rlt_dec (Rabs (nearest x)) (bpow radix2 1024) then Fin (nearest x)
  else Inf (if Rlt_dec x 0 then true else false).

(** double(n), for an integer n *)
Definition of_int (n : Z) : double := rounded (IZR n).

(** x + y *)
Definition dadd (x y : double) : double :=
  match x, y with
  | Fin a, Fin b => rounded (a + b)
  | NaN, _ | _, NaN => NaN
  | Inf s, Inf t => if Bool.eqb s t then Inf s else NaN
  | Inf s, Fin _ | Fin _, Inf s => Inf s
  end.
Definition dopp (x : double) : double :=
  match x with Fin a => Fin (- a) | Inf s => Inf (negb s) | NaN => NaN end.
(** x - y *)
Definition dsub (x y : double) : double := dadd x (dopp y).

(** x < y; comparisons with NaN are false. *)
Definition dlt (x y : double) : bool :=
  match x, y with
  | Fin a, Fin b => if Rlt_dec a b then true else false
  | Inf true, Fin _ | Inf true, Inf false | Fin _, Inf false => true
  | _, _ => false
  end.

(** [g] computes [f] with an error of less than one unit in the last place: the
    result is one of the two doubles next to the exact value, or the exact
    value if that is a double. The C library documents such bounds for log,
    log2 and pow. *)
Definition accurate (f g : R -> R) : Prop := forall x, g x = down (f x) \/ g x = up (f x).

(** The binary logarithm. *)
Definition Rlog2 (x : R) : R := ln x / ln 2.
(** 2^x *)
Definition exp2 (x : R) : R := Rpower 2 x.

(** 2^-39: bounds the rounding errors of the security checks, in bits. *)
Definition rounding_slack : R := / 549755813888.

(** The error function: zero at zero, with derivative 2/sqrt(pi) exp(-x^2). *)
Definition is_erf (f : R -> R) : Prop :=
  f 0 = 0 /\ forall x, derivable_pt_lim f x (2 / sqrt PI * exp (- (x * x))).

(** The same accuracy for pow, with a positive base. *)
Definition accurate_pow (pow : R -> R -> R) : Prop :=
  forall x y, 0 < x -> pow x y = down (Rpower x y) \/ pow x y = up (Rpower x y).
