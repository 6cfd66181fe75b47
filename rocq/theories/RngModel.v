(** Model of /repo/distributed_vector_ole/aes_uniform_bit_generator.h and .cpp.

    Not modelled: failures of memory allocation, the alignment of the seed
    (aes_uniform_bit_generator.cpp:38) and failures of AES_set_encrypt_key,
    which OpenSSL only reports for null pointers and other key sizes. *)
From Verif Require Import Base.
Local Open Scope Z_scope.

(** A uint128 (or an AES key) stored in memory as bytes, least significant
    first (x86-64): reinterpret_casts in aes_uniform_bit_generator.cpp:34, 38. *)
Fixpoint le_bytes (bytes : list N) : N :=
  match bytes with
  | [] => 0%N
  | b :: rest => (b + 256 * le_bytes rest)%N
  end.

(** aes_uniform_bit_generator.h:53-62; the expanded key is represented by the
    key. *)
Record rng := Rng {
  r_buffer : list N;
  r_elements_used : Z;
  r_nonce : N;
  r_counter : Z;
  r_key : N
}.

(** aes_uniform_bit_generator.h:25-26 *)
Definition kReseedInterval : Z := 2^48.
Definition kStateSize : Z := 32.

(** A call of operator() either returns a value or throws std::runtime_error. *)
Inductive outcome := Value (v : N) | Throw.

Section Rng.
  Variable aes : N -> N -> N.

  (** aes_uniform_bit_generator.cpp:12-16; the other members are set by seed(). *)
  Definition rng_new (buffer_size : Z) : rng :=
    Rng (zrepeat 0%N buffer_size) buffer_size 0 0 0.

  (** aes_uniform_bit_generator.cpp:28-43 *)
  Definition rng_seed (g : rng) (seed : list N) : res rng :=
    if zlen seed <? kStateSize
    then Err (invalid_argument "`seed` must be at least 32 bytes long") else
    Ok (Rng (r_buffer g) (zlen (r_buffer g)) (le_bytes (firstn 16 (skipn 16 seed))) 0
            (le_bytes (firstn 16 seed))).

  (** aes_uniform_bit_generator.cpp:18-26 *)
  Definition rng_create (seed : list N) (buffer_size : Z) : res rng :=
    let buffer_size := if buffer_size <? 2 then 2 else buffer_size in
    rng_seed (rng_new buffer_size) seed.

  (** aes_uniform_bit_generator.cpp:51-56 *)
  Definition rng_nonces (nonce : N) (num_blocks : Z) : res (list N * N) :=
    for_range 0 num_blocks (fun i '(nonces, nonce) =>
      let! nonces := zset nonces i nonce in
      Ok (nonces, ((nonce + 1) mod 2^128)%N)) (zrepeat 0%N num_blocks, nonce).

  (** aes_uniform_bit_generator.cpp:57-60: each call writes the 16 bytes of two
      buffer elements. *)
  Definition rng_fill (key : N) (nonces : list N) (num_blocks : Z) (buffer : list N) : res (list N) :=
    for_range 0 num_blocks (fun i buffer =>
      let! nonce := zget nonces i in
      let c := aes key nonce in
      let! buffer := zset buffer (2 * i) (c mod 2^64)%N in
      zset buffer (2 * i + 1) ((c / 2^64) mod 2^64)%N) buffer.

  (** aes_uniform_bit_generator.cpp:71-73 *)
  Definition rng_take (g : rng) : res (rng * outcome) :=
    let! v := zget (r_buffer g) (r_elements_used g) in
    Ok (Rng (r_buffer g) (r_elements_used g + 1) (r_nonce g) (r_counter g) (r_key g), Value v).

  (** aes_uniform_bit_generator.cpp:45-74; the counter is an int64_t. *)
  Definition rng_next (g : rng) : res (rng * outcome) :=
    let buffer_size := zlen (r_buffer g) in
    if buffer_size <=? r_elements_used g then
      let num_blocks := Z.quot buffer_size 2 in
      let! (nonces, nonce) := rng_nonces (r_nonce g) num_blocks in
      let! buffer := rng_fill (r_key g) nonces num_blocks (r_buffer g) in
      let counter := r_counter g + num_blocks in
      if 2^63 <=? counter then UB "signed overflow of int64_t" else
      let g := Rng buffer 0 nonce counter (r_key g) in
      if kReseedInterval <? counter then Ok (g, Throw) else rng_take g
    else rng_take g.
End Rng.
