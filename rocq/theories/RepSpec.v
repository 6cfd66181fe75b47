(** Vocabulary of the properties about representations. *)
From Verif Require Import Base ScalarModel RepModel.
Local Open Scope Z_scope.

(** Strings of n bytes, as a stream. *)
Definition byte_string (n : Z) (bs : list N) : Prop := zlen bs = n /\ Forall (fun b => b < 256)%N bs.
Definition stream (bs : list N) (i : nat) : N := nth i bs 0%N.

(** Types whose random elements come from RAND_bytes. *)
Definition raw_type (t : stype) : Prop :=
  match t with ZZ_p _ | zz_p _ => False | _ => True end.

(** What conversions on threads with the given moduli must return. *)
Fixpoint temp_expected (moduli : nat -> positive) (ops : list temp_op) : list (positive * N) :=
  match ops with
  | [] => []
  | TInstall k p :: ops => temp_expected (fun j => if Nat.eqb j k then p else moduli j) ops
  | TConvert k x :: ops => (moduli k, (x mod Npos (moduli k))%N) :: temp_expected moduli ops
  end.

(** The converted numbers are absl::uint128. *)
Definition converted (o : temp_op) : Prop :=
  match o with TInstall _ _ => True | TConvert _ x => (x < 2^128)%N end.
