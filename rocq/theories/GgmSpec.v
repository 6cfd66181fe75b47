(** Specification of GGM trees, independent of the model's loops. *)
From Verif Require Import Base GgmModel.

(** Value of node [i] of level [l] (0 outside the tree). *)
Definition node (t : tree) (l i : Z) : N := znth 0%N (znth [] (t_levels t) l) i.
(** Number of nodes of level [l]. *)
Definition width (t : tree) (l : Z) : Z := zlen (znth [] (t_levels t) l).
(** Number of levels. *)
Definition height (t : tree) : Z := zlen (t_levels t).

(** A complete [a]-ary level structure over [n] leaves. *)
Definition well_shaped (t : tree) (a n : Z) : Prop :=
  1 <= height t /\ width t 0 = 1 /\ width t (height t - 1) = n /\
  (forall l, 0 <= l < height t - 1 ->
     (* width t l = ceil (width t (l+1) / a) *)
     a * (width t l - 1) < width t (l + 1) <= a * width t l).

(** [t] is the GGM tree of [seed] and [keys]: child j of node v is
    AES(k_j, v) xor v. *)
Definition is_ggm_tree (aes : N -> N -> N) (seed : N) (keys : list N) (t : tree) : Prop :=
  node t 0 0 = seed /\
  forall l i, 0 <= l < height t - 1 -> 0 <= i < width t (l + 1) ->
    let parent := node t l (i / zlen keys) in
    node t (l + 1) i = N.lxor (aes (znth 0%N keys (i mod zlen keys)) parent) parent.

(** XOR of f 0, ..., f (n-1). *)
Definition xor_sum (n : Z) (f : Z -> N) : N :=
  fold_right (fun i acc => N.lxor (f i) acc) 0%N (zrange 0 n).

(** XOR of all entries of [lv] at positions i with i mod a = j. *)
Definition sibling_xor (lv : list N) (a j : Z) : N :=
  xor_sum (zlen lv) (fun i => if i mod a =? j then znth 0%N lv i else 0%N).

(** The node of level [l] on the path from the root to leaf [m] in a tree with
    [h] levels. *)
Definition on_path (a h m l : Z) : Z := m / a ^ (h - 1 - l).
