(** Specification vocabulary: what an eavesdropper who cannot read the contents
    of messages notices of a party. *)
From Verif Require Import Base ScalarModel ProcModel VoleModel VoleSpec.
Local Open Scope Z_scope.

(** Steps of a party that involve the connection, with the lengths of messages
    and the numbers of oblivious transfers, but without their contents. *)
Inductive action :=
| SendsSync
| SendsBlocks (number : nat)
| SendsVector (size : nat)
| SendsBytes (number : nat)
| SendsTransfers (correlated : bool) (number : nat)
| Receives
| ReceivesTransfers (correlated : bool) (number : nat).

Definition sending {T} (m : msg T) : action :=
  match m with
  | MSync => SendsSync
  | MBlocks l => SendsBlocks (List.length l)
  | MVec l => SendsVector (List.length l)
  | MBytes l => SendsBytes (List.length l)
  | MOt cot pairs => SendsTransfers cot (List.length pairs)
  end.

(** [does p l o]: [p] can take the steps [l] in this order, whatever the other
    party sends and whatever [p] draws; [o] is the result if [p] has then
    returned. *)
Inductive does {T R} : proc T R -> list action -> option R -> Prop :=
| does_start : forall p, does p [] None
| does_ret : forall r, does (Ret r) [] (Some r)
| does_send : forall m k l o, does k l o -> does (Send m k) (sending m :: l) o
| does_recv : forall k m l o, does (k m) l o -> does (Recv k) (Receives :: l) o
| does_ot : forall cot choices k x l o,
    does (k x) l o -> does (OtRecv cot choices k) (ReceivesTransfers cot (List.length choices) :: l) o
| does_rand : forall k x t l o, does (k x t) l o -> does (Rand k) l o.

Definition prefix_of {A} (l l' : list A) : Prop := exists rest, l' = l ++ rest.

(** Two executions that differ at most in how far they got; one that returned
    with success was complete. *)
Definition same_steps {R} (success : R -> Prop) (l l' : list action) (o o' : option R) : Prop :=
  (prefix_of l l' \/ prefix_of l' l) /\
  (forall r, o = Some r -> success r -> prefix_of l' l) /\
  (forall r, o' = Some r -> success r -> prefix_of l l').

(** All calls were successful. *)
Definition all_ok {A} (rs : list (res A)) : Prop := Forall (fun r => exists x, r = Ok x) rs.
Definition is_ok {A} (r : res A) : Prop := exists x, r = Ok x.

(** The same calls with the same sizes in the same roles; delta may differ. *)
Definition same_sizes {S : scalar} (x y : bool * call S) : Prop :=
  fst x = fst y /\
  match snd x, snd y with
  | Precompute b _, Precompute b' _ => b = b'
  | Run n, Run n' => n = n'
  | _, _ => False
  end.
