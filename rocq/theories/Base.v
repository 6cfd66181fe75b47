(** Common vocabulary of the model: outcomes of C++ functions, indexed access
    to vectors with explicit undefined behaviour, counted loops, wrap-around of
    machine integers.  Nothing here models a specific file of /repo; it fixes
    how C++ constructs used all over /repo are represented. *)
From Coq Require Export ZArith NArith List Bool Lia String.
From Coq Require Export ZifyBool ZifyNat ZifyN.
Export ListNotations.
Open Scope Z_scope.

(** mpc_utils::Status codes that occur in /repo (canonical_errors.h of
    mpc_utils, used e.g. in ggm_tree.cpp:126, mpfss_known_indices.h:79). *)
Inductive code := InvalidArgument | Internal | Unimplemented | OutOfRange.

(** mpc_utils::Status with a non-OK code. *)
Record status := Status { st_code : code; st_msg : string }.

Definition invalid_argument (m : string) : status := Status InvalidArgument m.
Definition internal_error (m : string) : status := Status Internal m.

(** Outcome of a C++ function returning StatusOr<A>: a value, an error status,
    or undefined behaviour (out-of-bounds access, failed assert, ...). *)
Inductive res (A : Type) : Type :=
| Ok (a : A)
| Err (s : status)
| UB (why : string).
Arguments Ok {A} a.
Arguments Err {A} s.
Arguments UB {A} why.

Definition rbind {A B} (m : res A) (f : A -> res B) : res B :=
  match m with
  | Ok a => f a
  | Err s => Err s
  | UB w => UB w
  end.
Definition rmap {A B} (f : A -> B) (m : res A) : res B :=
  rbind m (fun a => Ok (f a)).

Declare Scope res_scope.
Delimit Scope res_scope with res.
Notation "'let!' x ':=' m 'in' k" := (rbind m (fun x => k))
  (at level 200, x pattern, m at level 100, k at level 200, right associativity).

(** Size of a std::vector / absl::Span, as the int64_t the code casts it to. *)
Definition zlen {A} (l : list A) : Z := Z.of_nat (List.length l).

(** v[i] : undefined outside [0, size). *)
Definition zget {A} (l : list A) (i : Z) : res A :=
  if (0 <=? i) && (i <? zlen l) then
    match nth_error l (Z.to_nat i) with
    | Some a => Ok a
    | None => UB "index"
    end
  else UB "vector index out of bounds".

Fixpoint list_set {A} (l : list A) (n : nat) (a : A) : list A :=
  match l, n with
  | [], _ => []
  | _ :: t, O => a :: t
  | h :: t, S n' => h :: list_set t n' a
  end.

(** v[i] = a : undefined outside [0, size). *)
Definition zset {A} (l : list A) (i : Z) (a : A) : res (list A) :=
  if (0 <=? i) && (i <? zlen l) then Ok (list_set l (Z.to_nat i) a)
  else UB "vector store out of bounds".

(** v[i] in a specification: total, with a default that is never used when the
    index is in range. *)
Definition znth {A} (d : A) (l : list A) (i : Z) : A :=
  if i <? 0 then d else nth (Z.to_nat i) l d.

(** for (i = lo; i < lo + n; i++) body(i) *)
Fixpoint for_n {S} (n : nat) (lo : Z) (body : Z -> S -> res S) (s : S) : res S :=
  match n with
  | O => Ok s
  | Datatypes.S n' => let! s' := body lo s in for_n n' (lo + 1) body s'
  end.

(** for (i = lo; i < hi; i++) body(i) *)
Definition for_range {S} (lo hi : Z) (body : Z -> S -> res S) (s : S) : res S :=
  for_n (Z.to_nat (hi - lo)) lo body s.

(** Indices lo, lo+1, ..., lo+n-1. *)
Fixpoint zseq (lo : Z) (n : nat) : list Z :=
  match n with
  | O => []
  | S n' => lo :: zseq (lo + 1) n'
  end.
Definition zrange (lo hi : Z) : list Z := zseq lo (Z.to_nat (hi - lo)).

(** std::vector<A> v(n, a); a negative n converts to a huge size_t and throws,
    which we do not distinguish from undefined behaviour; call sites in /repo
    are shown never to do this. *)
Definition zrepeat {A} (a : A) (n : Z) : list A := repeat a (Z.to_nat n).

(** Sequential map with early exit (loop filling one slot per iteration). *)
Fixpoint rmapM {A B} (f : A -> res B) (l : list A) : res (list B) :=
  match l with
  | [] => Ok []
  | a :: t => let! b := f a in let! bs := rmapM f t in Ok (b :: bs)
  end.

(** Two's complement wrap-around of an int32_t / int64_t conversion. *)
Definition wrap32 (x : Z) : Z := (x + 2^31) mod 2^32 - 2^31.
Definition wrap64 (x : Z) : Z := (x + 2^63) mod 2^64 - 2^63.

Arguments Z.add : simpl never.
Arguments Z.mul : simpl never.
Arguments Z.sub : simpl never.
Arguments Z.pow : simpl never.
Arguments Z.div : simpl never.
Arguments Z.modulo : simpl never.
Arguments N.add : simpl never.
Arguments N.mul : simpl never.
Arguments N.sub : simpl never.
Arguments N.pow : simpl never.
Arguments N.div : simpl never.
Arguments N.modulo : simpl never.
Arguments N.lxor : simpl never.
Arguments N.land : simpl never.
Arguments N.lor : simpl never.
Arguments N.shiftl : simpl never.
Arguments N.shiftr : simpl never.
Arguments N.testbit : simpl never.
Arguments Z.of_nat : simpl never.
Arguments Z.to_nat : simpl never.
