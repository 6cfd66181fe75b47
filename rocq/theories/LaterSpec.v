(** What later calls, of either party, can do to the answers of earlier ones. *)
From Verif Require Import Base ProcModel ProcSpec TransportSpec StopSpec.
Local Open Scope nat_scope.

(** The answers of a party begin with those of a shorter session. *)
Definition begins {A} (first all : res (list A)) : Prop :=
  match first, all with
  | Ok l, Ok l' => prefix l l'
  | _, _ => all = first
  end.

Section Later.
  Context {T : Type}.

  (** Whatever the first (the second) party has returned in [c] relates to what
      it returned in [d]. *)
  Definition first_keeps {RA RB RA' RB'} (rel : RA -> RA' -> Prop) (d : config T RA RB) (c : config T RA' RB') : Prop :=
    forall r, c_a c = Ret r -> exists r0, c_a d = Ret r0 /\ rel r0 r.
  Definition second_keeps {RA RB RA' RB'} (rel : RB -> RB' -> Prop) (d : config T RA RB) (c : config T RA' RB') : Prop :=
    forall r, c_b c = Ret r -> exists r0, c_b d = Ret r0 /\ rel r0 r.

  (** [keeps rela relb pa ta pb tb d]: at any time, on any transport, whatever a
      party has returned relates to [d], even if the other one stops. *)
  Definition keeps {RA RB RA' RB'} (rela : RA -> RA' -> Prop) (relb : RB -> RB' -> Prop) (pa : proc T RA') ta (pb : proc T RB') tb
      (d : config T RA RB) : Prop :=
    forall separate stores n c, tsteps separate stores n (start pa ta pb tb) c ->
      first_keeps rela d c /\ second_keeps relb d c /\
      forall RE (e : RE) kept stores' m,
      (forall c', arrived separate kept (c_ba c) -> tsteps separate stores' m (second_stops c e kept) c' -> first_keeps rela d c') /\
      (forall c', arrived separate kept (c_ab c) -> tsteps separate stores' m (first_stops c e kept) c' -> second_keeps relb d c').

  (** [first_gets pa ta pb tb d]: the session does not go on for ever, and it
      cannot stop, on a transport that stores single tokens at least, before the
      first party has returned what it returned in [d], if it returned in [d]. *)
  Definition finite {RA RB} (pa : proc T RA) ta (pb : proc T RB) tb : Prop :=
    forall separate stores (c : nat -> config T RA RB), c 0 = start pa ta pb tb -> ~ forall i, tstep separate stores (c i) (c (S i)).
  Definition first_gets {RA RB RB'} (pa : proc T RA) ta (pb : proc T RB') tb (d : config T RA RB) : Prop :=
    finite pa ta pb tb /\
    forall separate stores n c, tsteps separate stores n (start pa ta pb tb) c ->
      forall r, c_a d = Ret r -> c_a c = Ret r \/ exists c', tstep separate tokens c c'.
  Definition second_gets {RA RB RA'} (pa : proc T RA') ta (pb : proc T RB) tb (d : config T RA RB) : Prop :=
    finite pa ta pb tb /\
    forall separate stores n c, tsteps separate stores n (start pa ta pb tb) c ->
      forall r, c_b d = Ret r -> c_b c = Ret r \/ exists c', tstep separate tokens c c'.
End Later.
