(** Property theorems about AESUniformBitGenerator; see RngSpec.v. *)
From Verif Require Import Base RngModel RngSpec RngProofs.
Local Open Scope Z_scope.

(** C38: an even buffer size gives the AES counter mode key stream. *)
Theorem C38_counter_mode : forall aes seed buffer_size n,
  Forall (fun x => x < 256)%N seed -> 32 <= zlen seed ->
  Z.even (Z.max 2 buffer_size) = true ->
  0 <= n < 2^48 / (Z.max 2 buffer_size / 2) * Z.max 2 buffer_size ->
  rng_output aes seed buffer_size n =
    Some (ObsNext (Value (ctr_word aes (seed_key seed) (seed_nonce seed) n))).
Proof. exact ctr_stream. Qed.
Print Assumptions C38_counter_mode.

Definition toy_aes (k x : N) : N := ((k * 31 + x * (2^64 + 77) + 5) mod 2^128)%N.
Definition toy_seed : list N := map N.of_nat (seq 200 40).
(** The default buffer size of 2^17 words yields 2^49 words before the limit. *)
Example C38_example :
  2^48 / (2^17 / 2) * 2^17 = 2^49 /\ Z.even 0 = true /\
  Forall (fun x => x < 256)%N toy_seed /\
  map (rng_output toy_aes toy_seed 4) [0; 1; 5; 6] =
  map (fun n => Some (ObsNext (Value (ctr_word toy_aes (seed_key toy_seed) (seed_nonce toy_seed) n)))) [0; 1; 5; 6].
Proof. repeat split; try (vm_compute; reflexivity). apply Forall_forall. intros x H. vm_compute in H. repeat (destruct H as [<-|H]; [reflexivity|]). destruct H. Qed.

(** C39: with an odd buffer size the last element of each buffer is always 0,
    and the others are the key stream. *)
Theorem C39_odd_buffer_size : forall aes seed buffer_size n,
  Forall (fun x => x < 256)%N seed -> 32 <= zlen seed ->
  2 <= buffer_size -> Z.odd buffer_size = true -> 0 <= n < 2^48 / (buffer_size / 2) * buffer_size ->
  rng_output aes seed buffer_size n = Some (ObsNext (Value
    (if n mod buffer_size =? buffer_size - 1 then 0%N
     else ctr_word aes (seed_key seed) (seed_nonce seed) (n - n / buffer_size)))).
Proof. exact odd_zero. Qed.
Print Assumptions C39_odd_buffer_size.

Example C39_example :
  rng_output toy_aes toy_seed 3 5 = Some (ObsNext (Value 0%N)) /\
  rng_output toy_aes toy_seed 3 4 <> Some (ObsNext (Value 0%N)).
Proof. vm_compute. split; [reflexivity|discriminate]. Qed.

(** C40: reseeding after any history gives a fresh generator. *)
Theorem C40_reseed_forgets : forall aes seed0 buffer_size g history seed more,
  rng_create seed0 buffer_size = Ok g -> 32 <= zlen seed ->
  exists g', rng_create seed buffer_size = Ok g' /\
    rng_observe aes (rng_run aes g (history ++ [OpSeed seed])) more = rng_observe aes g' more.
Proof. exact reseed_forgets. Qed.
Print Assumptions C40_reseed_forgets.

Theorem C40_short_seed_changes_nothing : forall aes g seed, zlen seed < 32 ->
  exists m, rng_do aes g (OpSeed seed) = (g, ObsSeed (Some (invalid_argument m))).
Proof. exact short_seed. Qed.
Print Assumptions C40_short_seed_changes_nothing.

Theorem C40_first_32_bytes : forall aes g seed seed',
  32 <= zlen seed -> 32 <= zlen seed' -> firstn 32 seed = firstn 32 seed' ->
  rng_do aes g (OpSeed seed) = rng_do aes g (OpSeed seed').
Proof. exact first_32. Qed.
Print Assumptions C40_first_32_bytes.

Example C40_example :
  match rng_create toy_seed 3 with
  | Ok g => rng_observe toy_aes (rng_run toy_aes g ([OpNext; OpSeed []; OpNext] ++ [OpSeed (rev toy_seed)])) [OpNext] =
            [match rng_output toy_aes (rev toy_seed) 3 0 with Some o => o | None => ObsUB end]
  | _ => False
  end.
Proof. vm_compute. reflexivity. Qed.

(** C41: the calls that throw are exactly those that refill the buffer after
    2^48 AES calls. *)
Theorem C41_reseed_limit : forall aes seed buffer_size n,
  Forall (fun x => x < 256)%N seed -> 32 <= zlen seed ->
  let b := Z.max 2 buffer_size in
  let limit := 2^48 / (b / 2) * b in
  0 <= n -> n < 2^62 -> b < 2^61 ->
  (rng_output aes seed buffer_size n = Some (ObsNext Throw) <-> limit <= n /\ (n - limit) mod (b + 1) = 0).
Proof. exact throws. Qed.
Print Assumptions C41_reseed_limit.

(** After the exception the generator hands out a whole buffer again; if its size
    is even, these are the next words of the key stream. *)
Theorem C41_values_after_the_exception : forall aes seed buffer_size m,
  Forall (fun x => x < 256)%N seed -> 32 <= zlen seed ->
  let b := Z.max 2 buffer_size in
  let limit := 2^48 / (b / 2) * b in
  0 <= m < b -> b < 2^61 ->
  rng_output aes seed buffer_size limit = Some (ObsNext Throw) /\
  exists v, rng_output aes seed buffer_size (limit + 1 + m) = Some (ObsNext (Value v)) /\
    (Z.even b = true -> v = ctr_word aes (seed_key seed) (seed_nonce seed) (limit + m)).
Proof. exact values_go_on. Qed.
Print Assumptions C41_values_after_the_exception.

Example C41_example : let b := Z.max 2 (2^17) in
  2^48 / (b / 2) * b = 2^49 /\ (2^49 - 2^49) mod (b + 1) = 0 /\ (2^49 + 2 * b + 2 - 2^49) mod (b + 1) = 0.
Proof. vm_compute. repeat split; reflexivity. Qed.

(** C92: under one seed no 128-bit block of the output occurs twice, if AES with
    this key is a permutation of the 128-bit blocks. *)
Theorem C92_blocks_differ : forall aes seed buffer_size,
  Forall (fun x => x < 256)%N seed -> 32 <= zlen seed -> Z.even (Z.max 2 buffer_size) = true ->
  let key := seed_key seed in
  (forall x, (x < 2^128)%N -> (aes key x < 2^128)%N) -> (forall x y, (x < 2^128)%N -> (y < 2^128)%N -> aes key x = aes key y -> x = y) ->
  forall i j low high, let limit := 2^48 / (Z.max 2 buffer_size / 2) * Z.max 2 buffer_size in
  0 <= i -> 2 * i + 1 < limit -> 0 <= j -> 2 * j + 1 < limit ->
  rng_output aes seed buffer_size (2 * i) = Some (ObsNext (Value low)) -> rng_output aes seed buffer_size (2 * i + 1) = Some (ObsNext (Value high)) ->
  rng_output aes seed buffer_size (2 * j) = Some (ObsNext (Value low)) -> rng_output aes seed buffer_size (2 * j + 1) = Some (ObsNext (Value high)) -> i = j.
Proof. exact blocks_differ. Qed.
Print Assumptions C92_blocks_differ.

(** Addition of a constant is a permutation; blocks 0 and 3 of its key stream. *)
Definition adding_aes (k x : N) : N := ((x + k) mod 2^128)%N.
Example C92_example :
  (forall x, (x < 2^128)%N -> (adding_aes (seed_key toy_seed) x < 2^128)%N) /\
  (forall x y, (x < 2^128)%N -> (y < 2^128)%N -> adding_aes (seed_key toy_seed) x = adding_aes (seed_key toy_seed) y -> x = y) /\
  2 * 3 + 1 < 2^48 / (Z.max 2 4 / 2) * Z.max 2 4 /\
  map (rng_output adding_aes toy_seed 4) [1; 7] = map (fun n => Some (ObsNext (Value n))) [13816405638168032177; 13816405638168032177]%N /\
  rng_output adding_aes toy_seed 4 0 <> rng_output adding_aes toy_seed 4 6.
Proof.
  split; [intros x _; apply N.mod_lt; discriminate|]. split.
  - intros x y Hx Hy H. unfold adding_aes in H. set (k := seed_key toy_seed) in H. clearbody k. apply (f_equal (fun z => ((z + (2^128 - k mod 2^128)) mod 2^128)%N)) in H.
    rewrite !N.add_mod_idemp_l in H by discriminate.
    assert (E : forall z, (z < 2^128)%N -> ((z + k + (2^128 - k mod 2^128)) mod 2^128 = z)%N).
    { intros z Hz. pose proof (N.mod_lt k (2^128) ltac:(discriminate)). rewrite (N.div_mod k (2^128)) at 1 by discriminate.
      replace (z + (2^128 * (k / 2^128) + k mod 2^128) + (2^128 - k mod 2^128))%N with (z + (k / 2^128 + 1) * 2^128)%N by lia.
      rewrite N.mod_add by discriminate. apply N.mod_small, Hz. }
    rewrite !E in H by assumption. exact H.
  - split; [reflexivity|]. split; [vm_compute; reflexivity|vm_compute; discriminate].
Qed.
