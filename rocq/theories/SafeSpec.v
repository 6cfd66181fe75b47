(** Specification vocabulary: executions with a peer that sends arbitrary
    contents. *)
From Verif Require Import Base ProcModel VoleModel VoleSpec CostSpec.
Local Open Scope Z_scope.

(** The kind of a message and the number of its elements. The number of bytes of
    a seed does not matter. *)
Inductive shape := Sync | Blocks (n : Z) | Vector (n : Z) | Bytes.
Definition has_shape {T} (m : msg T) (s : shape) : Prop :=
  match m, s with
  | MSync, Sync => True
  | MBlocks l, Blocks n => zlen l = n
  | MVec l, Vector n => zlen l = n
  | MBytes _, Bytes => True
  | _, _ => False
  end.

(** [gets p ms r]: [p] can return [r] after it has received the messages [ms],
    whatever it obtains from oblivious transfers (one block for each choice) and
    draws at random. *)
Inductive gets {T R} : proc T R -> list (msg T) -> R -> Prop :=
| gets_ret : forall r, gets (Ret r) [] r
| gets_send : forall m k ms r, gets k ms r -> gets (Send m k) ms r
| gets_recv : forall k m ms r, gets (k m) ms r -> gets (Recv k) (m :: ms) r
| gets_ot : forall cot choices k x ms r, List.length x = List.length choices ->
    gets (k (Some x)) ms r -> gets (OtRecv cot choices k) ms r
| gets_rand : forall k x t ms r, gets (k x t) ms r -> gets (Rand k) ms r.

(** The first messages have the expected shapes. *)
Inductive shaped_as {T} : list (msg T) -> list shape -> Prop :=
| shaped_few : forall l, shaped_as [] l
| shaped_more : forall ms, shaped_as ms []
| shaped_next : forall m ms s l, has_shape m s -> shaped_as ms l -> shaped_as (m :: ms) (s :: l).

(** A result without undefined behaviour, except for that in [allowed]. *)
Definition defined {A} (allowed : list string) (r : res A) : Prop := forall w, r = UB w -> In w allowed.

(** What a party receives: for the agreement on a seed, in one expansion with
    [n] buckets as the sender or the receiver, ... *)
Definition seed_inbox {S} (M : machine S) : list shape := if c_id M <? c_peer_id M then [] else [Bytes].
Definition sender_inbox (n : Z) : list shape := [Blocks 2; Vector n].
Definition receiver_inbox (n : Z) : list shape := [Vector n].
(** ... on the way from level 0 to level [j], ... *)
Definition climb_inbox {S} (E : setting) (M : machine S) (round : Z -> list shape) (j : Z) : list shape :=
  List.concat (map (fun i => seed_inbox M ++ round (level_buckets E i)) (zrange 0 j)).
(** ... for a precomputation that ends at level [j], ... *)
Definition precompute_sender_inbox {S} (E : setting) (M : machine S) (j : Z) : list shape :=
  climb_inbox E M sender_inbox j ++ seed_inbox M.
Definition precompute_receiver_inbox {S} (E : setting) (M : machine S) (j : Z) : list shape :=
  Vector (level_seed E 0 + level_buckets E 0) :: climb_inbox E M receiver_inbox j ++ seed_inbox M.
(** ... and for [k] expansions at level [j]. *)
Definition expansions_inbox (E : setting) (round : Z -> list shape) (j k : Z) : list shape :=
  List.concat (repeat (round (level_buckets E j)) (Z.to_nat k)).
