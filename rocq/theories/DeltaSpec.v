(** What it means that the receiver's delta stays hidden in a session. *)
From Verif Require Import Base ScalarModel ProcModel GilboaSpec RngModel MpfssSpec VoleModel VoleSpec HideSpec.
Local Open Scope Z_scope.

(** The random blocks in what a party saw. *)
Definition drew {T} (log : list (seen T)) : list N :=
  flat_map (fun e => match e with Drew b _ => [b] | _ => [] end) log.

(** Node [x] of level [l] of the GGM tree with the given keys and root. *)
Fixpoint tree_node (aes : N -> N -> N) (k0 k1 root : N) (l : nat) (x : Z) : N :=
  match l with
  | O => root
  | S l => let parent := tree_node aes k0 k1 root l (x / 2) in
           N.lxor (aes (if Z.even x then k0 else k1) parent) parent
  end.

(** Two consecutive blocks as keys and later blocks as roots: the nodes on the
    first [depth] levels of the GGM trees are all different. *)
Definition no_collisions (aes : N -> N -> N) (depth : nat) (blocks : list N) : Prop :=
  forall i s s' l l' x x',
    (i + 1 < s < List.length blocks)%nat -> (i + 1 < s' < List.length blocks)%nat -> (l < depth)%nat -> (l' < depth)%nat ->
    0 <= x < 2 ^ Z.of_nat l -> 0 <= x' < 2 ^ Z.of_nat l' ->
    let at_node s := tree_node aes (nth i blocks 0%N) (nth (i + 1) blocks 0%N) (nth s blocks 0%N) in
    at_node s l x = at_node s' l' x' -> s = s' /\ l = l' /\ x = x'.

(** Random blocks of the receiver and of the sender without accidental
    repetitions. *)
Definition no_accidents (aes : N -> N -> N) (depth : nat) (receiver sender : list N) : Prop :=
  Forall (fun b => (b < 2^128)%N) (receiver ++ sender) /\ NoDup receiver /\
  (forall b, In b receiver -> ~ In b sender) /\ no_collisions aes depth receiver.

(** Library functions that draw from a random generator, for every cipher: the
    result depends on the cipher only through the generator's key, which stays
    the same. *)
Definition uses_generator (uniform : (N -> N -> N) -> Z -> rng -> res (rng * Z)) : Prop :=
  forall aes aes' n g, (forall x, aes' (r_key g) x = aes (r_key g) x) -> uniform aes' n g = uniform aes n g /\
    forall g' i, uniform aes n g = Ok (g', i) -> r_key g' = r_key g.

(** The same setting and the same machine with another cipher. *)
Definition with_aes (uniform : (N -> N -> N) -> Z -> rng -> res (rng * Z)) (E : setting) (aes : N -> N -> N) : setting :=
  Setting (e_parameters E) aes (e_clog E) (e_K E) (e_too_many_bits E) (e_expansion3 E) (e_expansion2 E) (uniform aes) (e_high_first E).
Definition machine_with_aes {S} (uniform64 : (N -> N -> N) -> Z -> rng -> res (rng * Z)) (M : machine S) (aes : N -> N -> N) : machine S :=
  Machine S (c_id M) (c_peer_id M) (c_split M) (uniform64 aes) (c_patience M) (c_order M) (c_junk M).

(** The same calls where the receiver gives [deltas j] to the [j]-th call, if it
    gives a delta at all. *)
Fixpoint other_deltas {S : scalar} (deltas : nat -> S) (l : list (call S)) : list (call S) :=
  match l with
  | [] => []
  | Precompute n (Some _) :: l => Precompute n (Some (deltas O)) :: other_deltas (fun j => deltas (Datatypes.S j)) l
  | c :: l => c :: other_deltas (fun j => deltas (Datatypes.S j)) l
  end.

(** The answers of sender and receiver to the calls [l] are as they should be,
    and the delta of the [j]-th call, if it precomputes, is [deltas j];
    [current]: the delta of the last precomputation. *)
Fixpoint correlated {S : scalar} (current : option S) (deltas : nat -> S) (l : list (call S)) (ss rs : list (res (answer S))) : Prop :=
  match l, ss, rs with
  | [], [], [] => True
  | Precompute _ _ :: l, Ok Precomputed :: ss, Ok Precomputed :: rs =>
      correlated (Some (deltas O)) (fun j => deltas (Datatypes.S j)) l ss rs
  | Run n :: l, Ok (Sender u v) :: ss, Ok (Receiver w delta) :: rs =>
      delta = match current with Some d => d | None => deltas O end /\
      zlen w = n /\ vole_correlation S delta u v w /\ correlated (Some delta) (fun j => deltas (Datatypes.S j)) l ss rs
  | _, _, _ => False
  end.

(** All calls succeeded. *)
Definition all_ok {S} (rs : list (res (answer S))) : Prop := Forall (fun r => exists x, r = Ok x) rs.
