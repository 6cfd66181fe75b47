(** Specification vocabulary for the random generator. *)
From Verif Require Import Base RngModel.
Local Open Scope Z_scope.

(** Key and nonce of a seed: its first and second 16 bytes. *)
Definition seed_key (seed : list N) : N := le_bytes (firstn 16 seed).
Definition seed_nonce (seed : list N) : N := le_bytes (firstn 16 (skipn 16 seed)).

(** AES in counter mode, as a sequence of 64-bit words, low word first. *)
Definition ctr_word (aes : N -> N -> N) (key nonce : N) (n : Z) : N :=
  let block := aes key ((nonce + Z.to_N (n / 2)) mod 2^128)%N in
  if Z.even n then (block mod 2^64)%N else ((block / 2^64) mod 2^64)%N.

(** What a user can do with a generator, and what they observe. *)
Inductive rng_op := OpSeed (seed : list N) | OpNext.
Inductive rng_obs := ObsSeed (st : option status) | ObsNext (o : outcome) | ObsUB.

Section Ops.
  Variable aes : N -> N -> N.

  (** A failing seed() returns its status and keeps the generator. *)
  Definition rng_do (g : rng) (op : rng_op) : rng * rng_obs :=
    match op with
    | OpSeed s =>
        match rng_seed g s with
        | Ok g' => (g', ObsSeed None)
        | Err st => (g, ObsSeed (Some st))
        | UB _ => (g, ObsUB)
        end
    | OpNext =>
        match rng_next aes g with
        | Ok (g', o) => (g', ObsNext o)
        | _ => (g, ObsUB)
        end
    end.

  Fixpoint rng_run (g : rng) (ops : list rng_op) : rng :=
    match ops with
    | [] => g
    | op :: ops' => rng_run (fst (rng_do g op)) ops'
    end.
  Fixpoint rng_observe (g : rng) (ops : list rng_op) : list rng_obs :=
    match ops with
    | [] => []
    | op :: ops' => snd (rng_do g op) :: rng_observe (fst (rng_do g op)) ops'
    end.

  (** The result of the [n]-th call (from 0) of a generator with this seed. *)
  Definition rng_output (seed : list N) (buffer_size : Z) (n : Z) : option rng_obs :=
    match rng_create seed buffer_size with
    | Ok g => Some (snd (rng_do (rng_run g (repeat OpNext (Z.to_nat n))) OpNext))
    | _ => None
    end.
End Ops.
