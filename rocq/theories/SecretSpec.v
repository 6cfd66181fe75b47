(** What it means that the sender's seed and noise stay hidden. *)
From Verif Require Import Base ScalarModel ScalarSpec ProcModel GilboaSpec RngModel CuckooModel MpfssModel MpfssSpec VoleModel VoleSpec.
Local Open Scope Z_scope.

(** First use of an object: construction, one precomputation for batches of
    [batch] elements, and one call for [n] elements. The object is part of the
    result. *)
Definition first_use {S} (M : machine S) {A} (calls : member S A) : proc S (res (vole S * A)) :=
  pbind (vole_create S M false) (fun r =>
  match r with
  | Ok st => pbind (calls st) (fun '(st, r) => Ret (match r with Ok x => Ok (st, x) | Err e => Err e | UB w => UB w end))
  | Err e => Ret (Err e)
  | UB w => Ret (UB w)
  end).
Definition first_sender S E (M : machine S) batch n : proc S (res (vole S * sender_result S)) :=
  first_use M (mbind (precompute_sender S E M batch) (fun _ => run_sender S E M n)).
Definition first_receiver S E (M : machine S) batch delta n : proc S (res (vole S * receiver_result S)) :=
  first_use M (mbind (precompute_receiver S E M batch delta) (fun _ => run_receiver S E M n)).

(** Sizes of the first seed and the first noise, and the length of the first
    code word: the batch and the next seeds. *)
Definition seed_size E : Z := znth 0 (p_seed_size (e_parameters E)) 0.
Definition noise_weight E : Z := znth 0 (p_num_noise (e_parameters E)) 0.
Definition num_masks E : Z := e_expansion3 E (noise_weight E).
Definition word_length E batch : Z := batch + seed_size E + num_masks E.

(** Position [p] of the code word of [seed]: the product with column [p] of the
    sparse code generator. *)
Definition coded (S : scalar) (columns : list (list (Z * S))) (seed : list S) (p : Z) : S :=
  s_sum S (map (fun '(row, x) => s_mul S (znth (s_zero S) seed row) x) (znth [] columns p)).

(** Noise positions that the sender's sampling can yield: two random blocks are
    the seed of a generator, and [chance] stands for the order in which a hash
    set is traversed. *)
Definition drawable (S : scalar) E (M : machine S) (length : Z) (positions : list Z) : Prop :=
  exists blocks chance g set, List.length blocks = 2%nat /\ Forall (fun b => (b < 2^128)%N) blocks /\ (chance < 2^128)%N /\
    rng_create (List.concat (map block_bytes blocks)) (noise_weight E) = Ok g /\
    sample_indices S M (c_patience M) length (noise_weight E) g [] = Ok set /\ positions = c_order M chance set.

(** Secrets with which the sender succeeds: the seed, the noise values and the
    noise positions; the latter are sampled, and the receiver's hash functions
    can place them in the buckets. *)
Definition possible (S : scalar) E (M : machine S) (receiver : vole S) batch (seed y : list S) (positions : list Z) : Prop :=
  zlen seed = seed_size E /\ zlen y = noise_weight E /\ drawable S E M (word_length E batch) positions /\
  exists hashed, hash_cuckoo (e_aes E) (e_too_many_bits E) (m_hasher (v_mpfss receiver)) (map uint128_of_int64 positions) (num_masks E) = Ok hashed.

(** The sender's vector: the last [n] elements of the batch, each the sum of the
    code word of the seed and the noise. The receiver's object has the same code
    generator. *)
Definition sender_vector (S : scalar) (receiver : vole S) batch n (seed y : list S) (positions : list Z) (u : list S) : Prop :=
  zlen u = n /\ forall k, 0 <= k < n -> let p := batch - n + k in
  znth (s_zero S) u k = s_add S (coded S (v_columns receiver) seed p) (point_value S (s_one S) y positions p).
