(** std::uniform_int_distribution of libstdc++ (bits/uniform_int_dist.h, not in
    /repo), which distributed_vector_ole.h:406-411 and 440-443 apply to an
    AESUniformBitGenerator, whose min() and max() are 0 and 2^64 - 1
    (aes_uniform_bit_generator.h:41-47). The distribution has the bounds 0 and
    n - 1; all arithmetic is in uint64_t, for int and for int64_t. Two versions:
    the one of GCC up to 10 and the one of GCC 11 and later. *)
From Verif Require Import Base RngModel.
Local Open Scope Z_scope.

(** Repeat [step] until it ends with a result, at most [p] times. *)
Fixpoint search {A B} (p : positive) (step : A -> A + B) (x : A) : A + B :=
  match p with
  | xH => step x
  | xO p => match search p step x with inl y => search p step y | inr b => inr b end
  | xI p =>
      match step x with
      | inl y => match search p step y with inl z => search p step z | inr b => inr b end
      | inr b => inr b
      end
  end.
(** The generator throws after fewer calls than that (C41). *)
Definition many : positive := 2^62.
Definition result {A} (r : A + res (rng * Z)) : res (rng * Z) :=
  match r with inr b => b | inl _ => UB "std::runtime_error" end.

Section Uniform.
  Variable aes : N -> N -> N.

  (** rng(); the exception ends the program. *)
  Definition next_word (g : rng) : res (rng * Z) :=
    let! (g, o) := rng_next aes g in
    match o with Value w => Ok (g, Z.of_N w) | Throw => UB "std::runtime_error" end.

  (** GCC up to 10, the case __urngrange > __urange: a loop
      `do ret = rng(); while (ret >= past); ret /= scaling;` *)
  Definition uniform10 (n : Z) (g : rng) : res (rng * Z) :=
    let scaling := (2^64 - 1) / n in
    let past := n * scaling in
    result (search many (fun g =>
      match next_word g with
      | Ok (g, ret) => if past <=? ret then inl g else inr (Ok (g, ret / scaling))
      | Err e => inr (Err e)
      | UB w => inr (UB w)
      end) g).

  (** GCC 11 and later, _S_nd<unsigned __int128> of the same header. *)
  Definition uniform11 (n : Z) (g : rng) : res (rng * Z) :=
    let! (g, w) := next_word g in
    let product := w * n in
    let low := product mod 2^64 in
    if low <? n then
      let threshold := (- n) mod 2^64 mod n in
      result (search many (fun '(g, product, low) =>
        if low <? threshold then
          match next_word g with
          | Ok (g, w) => let product := w * n in inl (g, product, product mod 2^64)
          | Err e => inr (Err e)
          | UB w => inr (UB w)
          end
        else inr (Ok (g, product / 2^64))) (g, product, low))
    else Ok (g, product / 2^64).
End Uniform.
