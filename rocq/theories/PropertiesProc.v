(** Final theorems about schedules (C46). *)
From Verif Require Import Base ProcModel ProcSpec ProcProofs.
Local Open Scope nat_scope.

(** C46: whatever two programs are run against each other with whatever
    randomness: if one interleaving gets stuck or finishes after n steps, every
    other interleaving also ends, after the same number of steps, in the very
    same state (results, unread messages, unused randomness). *)
Theorem C46_schedule_independence : forall T RA RB (pa : proc T RA) ta (pb : proc T RB) tb n c,
  steps n (start pa ta pb tb) c -> stuck c ->
  forall m d, steps m (start pa ta pb tb) d ->
    m <= n /\ steps (n - m) d c /\ (stuck d -> m = n /\ d = c).
Proof. exact schedule_independence. Qed.
Print Assumptions C46_schedule_independence.

(** In particular the outcome is unique. *)
Theorem C46_unique_outcome : forall T RA RB (pa : proc T RA) ta (pb : proc T RB) tb a b a' b',
  completes pa ta pb tb a b -> completes pa ta pb tb a' b' -> a = a' /\ b = b'.
Proof. exact @completes_unique. Qed.
Print Assumptions C46_unique_outcome.

(** Two parties that both send first and then receive. *)
Example C46_example :
  let pa := Send (T := nat) (MVec [1]) (Recv (fun m => Ret m)) in
  let pb := Rand (fun _ x => Send (MVec [x]) (Recv (fun m => Ret m))) in
  completes pa (fun _ => (0%N, 7)) pb (fun _ => (0%N, 8)) (MVec [8]) (MVec [1]).
Proof. exact exchange_example. Qed.
