(** Specification vocabulary: how much communication the protocols need. *)
From Verif Require Import Base ScalarModel GilboaSpec MpfssSpec RotSpec ProcModel VoleModel VoleSpec PatternSpec.
Local Open Scope Z_scope.

(** Number of oblivious transfers for binary trees with the given numbers of
    leaves: one per level below the root; none for an empty tree.
    [clog 2 n]: the number of levels below the root for [n] leaves. *)
Definition tree_transfers (clog : Z -> Z -> nat) (sizes : list Z) : Z :=
  fold_right (fun n t => (if n =? 0 then 0 else Z.of_nat (clog 2 n)) + t) 0 sizes.

(** A batch of [t] oblivious transfers takes place unless it is empty. *)
Definition if_any (t : Z) (a : nat -> action) : list action := if t =? 0 then [] else [a (Z.to_nat t)].

(** Steps of the two parties for single-point functions: [n] functions that need
    [t] oblivious transfers. *)
Definition index_steps (t : Z) : list action := if_any t (ReceivesTransfers false) ++ [Receives; Receives].
Definition value_steps (n t : Z) : list action := if_any t (SendsTransfers false) ++ [SendsBlocks 2; SendsVector (Z.to_nat n)].

(** Steps of the sender and the receiver for one expansion with [n] buckets that
    need [t] oblivious transfers. *)
Definition sender_round (n t : Z) : list action := SendsVector (Z.to_nat n) :: index_steps t.
Definition receiver_round (n t : Z) : list action := Receives :: value_steps n t.

(** The sizes of [n] buckets for [N] indices with three hash functions. *)
Definition three_choices (n N : Z) (sizes : list Z) : Prop :=
  zlen sizes = n /\ Forall (fun s => 0 <= s) sizes /\ size_sum sizes = 3 * N.

(** Agreement on a seed of 32 bytes. *)
Definition seed_steps {S} (M : machine S) : list action :=
  if c_id M <? c_peer_id M then [SendsBytes 32] else [Receives].

(** The parameters of level [i]. *)
Definition level_seed (E : setting) i : Z := znth 0 (p_seed_size (e_parameters E)) i.
Definition level_buckets (E : setting) i : Z := e_expansion3 E (znth 0 (p_num_noise (e_parameters E)) i).
Definition level_output (E : setting) i : Z := znth 0 (p_output_size (e_parameters E)) i.
Definition level_count (E : setting) : Z := zlen (p_seed_size (e_parameters E)).

(** The largest batch at level [j]: what the last output leaves beside the new
    seeds. *)
Definition room (E : setting) j : Z := level_output E (level_count E - 1) - level_buckets E j - level_seed E j.

(** Level [j] is the first with enough room for batches of [b] elements and new
    seeds, or the last. *)
Definition final_level (E : setting) b j : Prop :=
  0 <= j < level_count E /\
  (forall i, 0 <= i < j -> level_output E i < b + level_buckets E i + level_seed E i) /\
  (j = level_count E - 1 \/ b + level_buckets E j + level_seed E j <= level_output E j).

(** The steps of the expansions from level 0 to level [j]: expansion [i] is
    large enough for the seeds of level [i + 1]. *)
Inductive climbs (E : setting) (seed : list action) (round : Z -> Z -> list action) : Z -> list action -> Prop :=
| climbs_none : climbs E seed round 0 []
| climbs_next : forall i l sizes, 0 <= i -> climbs E seed round i l ->
    three_choices (level_buckets E i) (level_seed E (i + 1) + level_buckets E (i + 1)) sizes ->
    climbs E seed round (i + 1) (l ++ seed ++ round (level_buckets E i) (tree_transfers (e_clog E) sizes)).
