(** Everything a party sees in a run, and what it means that the GGM trees of a
    batch have no collisions that matter. *)
From Verif Require Import Base GgmModel GgmSpec ProcModel RotSpec.
Local Open Scope Z_scope.

(** What a party gets to know: messages, results of oblivious transfers, its own
    random values. *)
Inductive seen {T : Type} := Got (m : msg T) | Chosen (r : option (list N)) | Drew (block : N) (x : T).
Arguments seen : clear implicits.

(** The process [p], which also returns everything it saw. *)
Fixpoint watch {T R} (p : proc T R) (log : list (seen T)) : proc T (R * list (seen T)) :=
  match p with
  | Ret r => Ret (r, log)
  | Send m k => Send m (watch k log)
  | Recv k => Recv (fun m => watch (k m) (log ++ [Got m]))
  | OtRecv cot choices k => OtRecv cot choices (fun r => watch (k r) (log ++ [Chosen r]))
  | Rand k => Rand (fun b x => watch (k b x) (log ++ [Drew b x]))
  end.

(** [t] is the tree that the sender of all-but-one random OT with tape [ta]
    creates for output [i]: two keys come first on the tape, then the seeds. *)
Definition batch_tree {T} (aes : N -> N -> N) (clog : Z -> Z -> nat) (sizes : list Z) (ta : tape T) (i : Z) (t : tree) : Prop :=
  let n := znth 0 sizes i in
  well_shaped t 2 n /\ height t = Z.of_nat (clog 2 n) + 1 /\
  is_ggm_tree aes (fst (ta (seed_pos sizes i))) [fst (ta 0%nat); fst (ta 1%nat)] t.

(** The node above the leaf that the receiver does not get. *)
Definition last_parent (t : tree) (index : Z) : N := node t (height t - 2) (index / 2).

(** Outputs that are not empty. *)
Definition nonempty (sizes : list Z) (i : Z) : Prop := 0 <= i < zlen sizes /\ znth 0 sizes i <> 0.

(** No other inner node of the batch has the same value as the node above a
    missing leaf. *)
Definition parents_unique (sizes indices : list Z) (trees : Z -> tree) : Prop :=
  forall i j l x, nonempty sizes i -> nonempty sizes j -> 2 <= height (trees i) ->
    0 <= l < height (trees j) - 1 -> 0 <= x < width (trees j) l ->
    node (trees j) l x = last_parent (trees i) (znth 0 indices i) ->
    j = i /\ l = height (trees i) - 2 /\ x = znth 0 indices i / 2.

(** [aes'] and [ta'] differ from [aes] and [ta] only where the missing leaves are
    computed: in one value of one key per tree, or in the seed of a tree that is
    a single leaf. *)
Definition differ_at_missing {T} (sizes indices : list Z) (trees : Z -> tree)
    (aes aes' : N -> N -> N) (ta ta' : tape T) : Prop :=
  (forall k x, aes' k x = aes k x \/
     exists i, nonempty sizes i /\ 2 <= height (trees i) /\
       k = fst (ta (if Z.even (znth 0 indices i) then 0%nat else 1%nat)) /\ x = last_parent (trees i) (znth 0 indices i)) /\
  (forall q, ta' q = ta q \/
     exists i, nonempty sizes i /\ height (trees i) = 1 /\ q = seed_pos sizes i /\ snd (ta' q) = snd (ta q)).

(** [pos] gives, for every bucket, where its point is: the first position of the
    index that was hashed to the bucket, and 0 if there is none. *)
Definition positions_in (buckets : list (list Z)) (indices hashed pos : list Z) : Prop :=
  zlen pos = zlen buckets /\
  forall b, 0 <= b < zlen buckets ->
    let bucket := znth [] buckets b in let p := znth 0 pos b in
    if znth 0 hashed b =? -1 then p = 0 else
    0 <= p < zlen bucket /\ znth 0 bucket p = znth 0 indices (znth 0 hashed b) /\
    forall q, 0 <= q < p -> znth 0 bucket q <> znth 0 indices (znth 0 hashed b).
