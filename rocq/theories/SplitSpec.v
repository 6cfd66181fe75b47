(** Specification vocabulary: behaviours that differ only in how results are
    presented. *)
From Verif Require Import Base ScalarModel ProcModel VoleModel VoleSpec.
From Coq Require Import Permutation.
Local Open Scope Z_scope.

(** [alike_up R p q]: the two processes send the same messages, receive and make
    oblivious transfers at the same points, draw random values at the same
    points, and return values related by [R], whatever they receive and draw. *)
Inductive alike_up {T A B} (R : A -> B -> Prop) : proc T A -> proc T B -> Prop :=
| up_ret : forall a b, R a b -> alike_up R (Ret a) (Ret b)
| up_send : forall m k k', alike_up R k k' -> alike_up R (Send m k) (Send m k')
| up_recv : forall k k', (forall m, alike_up R (k m) (k' m)) -> alike_up R (Recv k) (Recv k')
| up_ot : forall cot choices k k', (forall x, alike_up R (k x) (k' x)) -> alike_up R (OtRecv cot choices k) (OtRecv cot choices k')
| up_rand : forall k k', (forall x t, alike_up R (k x t) (k' x t)) -> alike_up R (Rand k) (Rand k').

(** Two calls in a row; the second one is made only if the first one succeeds. *)
Definition both {S : scalar} (first second : vole S -> proc S (vole S * res (answer S))) (st : vole S) : proc S (vole S * res (answer S * answer S)) :=
  pbind (first st) (fun '(st1, r1) =>
    match r1 with
    | Ok x1 => pbind (second st1) (fun '(st2, r2) => Ret (st2, match r2 with Ok x2 => Ok (x1, x2) | Err e => Err e | UB w => UB w end))
    | Err e => Ret (st1, Err e)
    | UB w => Ret (st1, UB w)
    end).

(** [joined x1 x2 x]: [x] has exactly the elements of [x1] and [x2]. *)
Definition joined {S : scalar} (x1 x2 x : answer S) : Prop :=
  match x1, x2, x with
  | Sender u1 v1, Sender u2 v2, Sender u v => zlen u1 = zlen v1 /\ zlen u2 = zlen v2 /\ zlen u = zlen v /\ Permutation (combine u v) (combine u1 v1 ++ combine u2 v2)
  | Receiver w1 d1, Receiver w2 d2, Receiver w d => d1 = d /\ d2 = d /\ Permutation w (w1 ++ w2)
  | _, _, _ => False
  end.

(** The object is left in the same state, and the two answers together are the
    one, or the error is the same. *)
Definition same_elements {S : scalar} (two : vole S * res (answer S * answer S)) (one : vole S * res (answer S)) : Prop :=
  fst two = fst one /\
  match snd two, snd one with
  | Ok (x1, x2), Ok x => joined x1 x2 x
  | Err e, Err e' => e = e'
  | UB w, UB w' => w = w'
  | _, _ => False
  end.

(** ** The order of the elements *)

(** Elements that the last batch contributes to a request for [n] elements, and
    elements that are left of it, if [cache] elements are left of an earlier one
    and new batches have [batch] elements. *)
Definition last_part n cache batch : Z := if n <=? cache then n else (n - cache - 1) mod batch + 1.
Definition left_over n cache batch : Z := if n <=? cache then cache - n else batch - last_part n cache batch.

(** The first [q] elements of [l2] go before the last [p] elements of [l1]. *)
Definition splice {A} (p q : Z) (l1 l2 : list A) : list A :=
  firstn (Z.to_nat (zlen l1 - p)) l1 ++ firstn (Z.to_nat q) l2 ++ skipn (Z.to_nat (zlen l1 - p)) l1 ++ skipn (Z.to_nat q) l2.

Definition in_order {S : scalar} p q (two : vole S * res (answer S * answer S)) (one : vole S * res (answer S)) : Prop :=
  match snd two, snd one with
  | Ok (Sender u1 v1, Sender u2 v2), Ok (Sender u v) => u = splice p q u1 u2 /\ v = splice p q v1 v2
  | Ok (Receiver w1 _, Receiver w2 _), Ok (Receiver w _) => w = splice p q w1 w2
  | _, _ => True
  end.
