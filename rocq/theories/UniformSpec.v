(** Specification vocabulary: which words of a stream give which numbers. *)
From Verif Require Import Base ScalarModel RngModel VoleModel VoleSpec UseSpec UniformModel.
From Coq Require Import Permutation.
Local Open Scope Z_scope.

(** [f] permutes the elements that satisfy [P]. *)
Definition permutes {A} (P : A -> Prop) (f : A -> A) : Prop :=
  (forall x, P x -> P (f x)) /\ exists f', forall x, P x -> P (f' x) /\ f (f' x) = x /\ f' (f x) = x.

(** [number w]: the number below [n] that the 64-bit word [w] stands for; None if
    the word is rejected. Each number has the same number [q] of words, [nth_word
    x 0] to [nth_word x (q - 1)], and at least half of all words are accepted. *)
Definition equally_many (n : Z) (number : N -> option Z) : Prop := exists q (nth_word : Z -> Z -> N),
  2^63 <= n * q /\
  (forall x r, 0 <= x < n -> 0 <= r < q -> (nth_word x r < 2^64)%N /\ number (nth_word x r) = Some x) /\
  (forall x r r', 0 <= x < n -> 0 <= r < q -> 0 <= r' < q -> nth_word x r = nth_word x r' -> r = r') /\
  (forall w x, (w < 2^64)%N -> number w = Some x -> 0 <= x < n /\ exists r, 0 <= r < q /\ nth_word x r = w).

(** [reads number word i l m]: from position [i] of a stream of words, up to
    position [m], the accepted words are [l], each with its position and its
    number; word m - 1 is the last of them. *)
Inductive reads (number : N -> option Z) (word : Z -> N) : Z -> list (Z * Z) -> Z -> Prop :=
| reads_end : forall i, reads number word i [] i
| reads_number : forall i j x l m, i <= j -> (forall k, i <= k < j -> number (word k) = None) -> number (word j) = Some x ->
    reads number word (j + 1) l m -> reads number word i ((j, x) :: l) m.

(** The first [num] different numbers of a stream. *)
Definition first_different (number : N -> option Z) (word : Z -> N) (num : Z) (set : list Z) : Prop :=
  exists l m, reads number word 0 l m /\ Permutation set (nodup Z.eq_dec (map snd l)) /\ zlen set = num /\
    forall l' x, map snd l = l' ++ [x] -> ~ In x l'.

(** All elements of u after an expansion (see [fresh] in UseSpec.v). *)
Definition expanded_u {S} (st : vole S) : list S :=
  sr_u (s_cached (v_s st)) ++ sr_u (s_mpfss_seed (v_s st)) ++ sr_u (s_vole_seed (v_s st)).

(** The two versions of std::uniform_int_distribution. *)
Definition library_draw (uniform : (N -> N -> N) -> Z -> rng -> res (rng * Z)) : Prop := uniform = uniform10 \/ uniform = uniform11.

(** AESUniformBitGenerator::Create(seed, n) gives a buffer with an even number of
    words (of max(2, n); C39: the last word of other buffers is always 0). *)
Definition even_buffer (n : Z) : Prop := n < 2^61 /\ Z.even (Z.max 2 n) = true.
(** How many words it can deliver before it throws. *)
Definition word_limit (n : Z) : Z := 2^48 / (Z.max 2 n / 2) * Z.max 2 n.
