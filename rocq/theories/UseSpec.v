(** Specification vocabulary: equality of behaviours, and results together with
    the random values that were drawn. *)
From Verif Require Import Base ScalarModel ProcModel RngModel VoleModel VoleSpec.
From Coq Require Import Permutation.
Local Open Scope Z_scope.

(** [alike p q]: the two processes send the same messages, receive and make
    oblivious transfers at the same points, draw random values at the same
    points, and return the same, whatever they receive and draw. *)
Inductive alike {T R} : proc T R -> proc T R -> Prop :=
| alike_ret : forall r, alike (Ret r) (Ret r)
| alike_send : forall m k k', alike k k' -> alike (Send m k) (Send m k')
| alike_recv : forall k k', (forall m, alike (k m) (k' m)) -> alike (Recv k) (Recv k')
| alike_ot : forall cot choices k k', (forall x, alike (k x) (k' x)) -> alike (OtRecv cot choices k) (OtRecv cot choices k')
| alike_rand : forall k k', (forall x t, alike (k x t) (k' x t)) -> alike (Rand k) (Rand k').

(** [ran p l r]: [p] can return [r] after drawing the random values [l], each a
    block and a scalar, whatever the other party sends. *)
Inductive ran {T R} : proc T R -> list (N * T) -> R -> Prop :=
| ran_ret : forall r, ran (Ret r) [] r
| ran_send : forall m k l r, ran k l r -> ran (Send m k) l r
| ran_recv : forall k m l r, ran (k m) l r -> ran (Recv k) l r
| ran_ot : forall cot choices k x l r, ran (k x) l r -> ran (OtRecv cot choices k) l r
| ran_rand : forall k x t l r, ran (k x t) l r -> ran (Rand k) ((x, t) :: l) r.

(** Coordinate [k] of seed * code generator. *)
Definition codeword (S : scalar) (columns : list (list (Z * S))) (seed : list S) (k : Z) : S :=
  fold_right (s_add S) (s_zero S) (map (fun '(row, x) => s_mul S (znth (s_zero S) seed row) x) (znth [] columns k)).

(** [fresh S M st l st']: from [st] to [st'], an expansion of the sender replaced
    the cached and the seed elements of u by [full], a codeword of its old seed
    plus noise, where [l] are the random values it drew. The first two of them
    seed the generator for the positions of the noise, which draws until there are
    enough different ones; a third one decides in which order these are used, and
    the next ones are the values of the noise. *)
Definition fresh (S : scalar) (M : machine S) (st : vole S) (l : list (N * S)) (st' : vole S) : Prop :=
  let size := v_batch_size st + v_vole_seed_size st + v_mpfss_seed_size st in
  let num := v_num_noise st in
  exists b1 b2 order values rest g places g' indices noise full,
    l = b1 :: b2 :: order :: values ++ rest /\ zlen values = num /\
    rng_create (block_bytes (fst b1) ++ block_bytes (fst b2)) num = Ok g /\ picks (c_uniform64 M) size g places g' /\
    (forall l x, places = l ++ [x] -> ~ In x l) /\
    Permutation indices (nodup Z.eq_dec places) /\ zlen indices = num /\
    zlen noise = size /\
    (forall i d, 0 <= i < num -> znth (s_zero S) noise (znth 0 indices i) = snd (znth d values i)) /\
    (forall k, ~ In k indices -> znth (s_zero S) noise k = s_zero S) /\
    zlen full = size /\
    (forall k, 0 <= k < size -> znth (s_zero S) full k =
       s_add S (codeword S (v_columns st) (sr_u (s_vole_seed (v_s st))) k) (znth (s_zero S) noise k)) /\
    full = sr_u (s_cached (v_s st')) ++ sr_u (s_mpfss_seed (v_s st')) ++ sr_u (s_vole_seed (v_s st')) /\
    zlen (sr_u (s_cached (v_s st'))) = v_batch_size st /\ zlen (sr_u (s_mpfss_seed (v_s st'))) = v_mpfss_seed_size st /\
    zlen (sr_u (s_vole_seed (v_s st'))) = v_vole_seed_size st.
