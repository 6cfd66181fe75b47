(** A party that stops in the middle of a protocol: it crashes, is killed, or
    returns an error and never calls the library again. Its connection stays open,
    so that the other party is not told. *)
From Verif Require Import Base ProcModel ProcSpec TransportSpec.
Local Open Scope nat_scope.

Section Stop.
  Context {T : Type}.

  (** What arrives of the messages [sent] that the other party had not read when
      their sender stopped: all of them, or, if the last ones were still in a
      buffer of the sender, the first ones of each connection. *)
  Definition not_ot (m : msg T) : bool := negb (is_ot m).
  Definition arrived (separate : bool) (kept sent : list (msg T)) : Prop :=
    if separate then prefix (filter is_ot kept) (filter is_ot sent) /\ prefix (filter not_ot kept) (filter not_ot sent)
    else prefix kept sent.

  (** From now on the second (the first) party does nothing; [e] is what it
      returned, if anything. *)
  Definition second_stops {RA RB RE} (c : config T RA RB) (e : RE) (kept : list (msg T)) : config T RA RE :=
    Config (c_a c) (c_ta c) (Ret e) (c_tb c) (c_ab c) kept.
  Definition first_stops {RA RB RE} (c : config T RA RB) (e : RE) (kept : list (msg T)) : config T RE RB :=
    Config (Ret e) (c_ta c) (c_b c) (c_tb c) kept (c_ba c).

  (** [unaffected pa ta pb tb d]: the session ends in [d] if nobody stops. If the
      second party stops after any number of steps, the first one takes finitely
      many more, and if it returns something, then what it returns in [d];
      likewise if the first party stops. All this on any transport. *)
  Definition unaffected {RA RB} (pa : proc T RA) ta (pb : proc T RB) tb (d : config T RA RB) : Prop :=
    exists bound, forall separate stores n c, tsteps separate stores n (start pa ta pb tb) c ->
      forall RE (e : RE) kept stores' m,
      (forall c', arrived separate kept (c_ba c) -> tsteps separate stores' m (second_stops c e kept) c' ->
         n + m <= bound /\ forall r, c_a c' = Ret r -> c_a d = Ret r) /\
      (forall c', arrived separate kept (c_ab c) -> tsteps separate stores' m (first_stops c e kept) c' ->
         n + m <= bound /\ forall r, c_b c' = Ret r -> c_b d = Ret r).

  (** [returns_only pa ta pb tb a b]: if the other party stops at any point, the
      first party can return nothing but [a], the second nothing but [b]. *)
  Definition returns_only {RA RB} (pa : proc T RA) ta (pb : proc T RB) tb (a : RA) (b : RB) : Prop :=
    exists ta' tb', unaffected pa ta pb tb (finished a ta' b tb').

  (** The first (the second) party never returns if the other one stops before it
      has sent anything, for example since it did not accept its arguments. *)
  Definition first_waits {RA} (pa : proc T RA) ta : Prop :=
    forall RE (e : RE) tb separate stores n c, tsteps separate stores n (start pa ta (Ret e) tb) c -> forall r, c_a c <> Ret r.
  Definition second_waits {RB} (pb : proc T RB) tb : Prop :=
    forall RE (e : RE) ta separate stores n c, tsteps separate stores n (start (Ret e) ta pb tb) c -> forall r, c_b c <> Ret r.
End Stop.
