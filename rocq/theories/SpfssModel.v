(** Model of /repo/distributed_vector_ole/spfss_known_index.h. *)
From Verif Require Import Base ScalarModel ProcModel RotModel.
From Coq Require Import QArith.
Local Open Scope Z_scope.

Section Spfss.
  Variable S : scalar.
  Variable aes : N -> N -> N.
  Variable clog : Z -> Z -> nat.
  Variable K : Q.

  (** spfss_known_index.h:118-124, one iteration: the sum, and the negated
      output. *)
  Definition provider_sum (val_share : S) (output : list S) : S * list S :=
    fold_left (fun '(sum, out) x => (s_add S sum x, out ++ [s_opp S x])) output (val_share, []).

  (** spfss_known_index.h:103-130 *)
  Definition spfss_value_provider_batched (val_shares : list S) (outputs : list (list S))
    : proc S (res (list (list S))) :=
    if negb (zlen val_shares =? zlen outputs)
    then Ret (Err (invalid_argument "`val-shares` and `outputs` must have the same size")) else
    do! outputs := rot_sender_batched S aes clog K outputs in
    let r := map (fun '(v, o) => provider_sum v o) (combine val_shares outputs) in
    Send (MVec (map fst r)) (Ret (Ok (map snd r))).

  (** spfss_known_index.h:148-156, one iteration. *)
  Definition index_sum (val_share : S) (index : Z) (output : list S) : res S :=
    for_range 0 (zlen output) (fun i sum =>
      if i =? index then Ok sum else
      let! x := zget output i in Ok (s_sub S sum x)) val_share.

  (** spfss_known_index.h:160-166, one iteration. *)
  Definition correct_output (index : Z) (sum sum_server : S) (output : list S) : res (list S) :=
    if 0 <? zlen output then zset output index (s_add S sum sum_server) else Ok output.

  (** spfss_known_index.h:132-168 *)
  Definition spfss_index_provider_batched (val_shares : list S) (indices : list Z) (outputs : list (list S))
    : proc S (res (list (list S))) :=
    if negb (zlen val_shares =? zlen outputs) || negb (zlen val_shares =? zlen indices)
    then Ret (Err (invalid_argument "`val-shares`, `indices`, and `outputs` must have the same size")) else
    do! outputs := rot_receiver_batched S aes clog indices outputs in
    calc! sums := rmapM (fun j => index_sum (znth (s_zero S) val_shares j) (znth 0 indices j) (znth [] outputs j))
                        (zrange 0 (zlen outputs)) in
    recv_vec (fun sums_server =>
    Ret (rmapM (fun j =>
      let! sum := zget sums j in
      let! sum_server := zget sums_server j in
      correct_output (znth 0 indices j) sum sum_server (znth [] outputs j))
      (zrange 0 (zlen outputs)))).

  (** spfss_known_index.h:55-59 *)
  Definition spfss_value_provider (val_share : S) (output : list S) : proc S (res (list S)) :=
    do! outs := spfss_value_provider_batched [val_share] [output] in hd_output S outs.
  (** spfss_known_index.h:74-81 *)
  Definition spfss_index_provider (val_share : S) (index : Z) (output : list S) : proc S (res (list S)) :=
    do! outs := spfss_index_provider_batched [val_share] [index] [output] in hd_output S outs.
  (** std::vector<T> output(size): throws std::length_error if size is negative
      (modelled as UB); elements are value-initialised. *)
  Definition sized_output (size : Z) : res (list S) :=
    if size <? 0 then UB "std::length_error" else Ok (zrepeat (s_zero S) size).
  (** spfss_known_index.h:60-66 *)
  Definition spfss_value_provider_size (val_share : S) (size : Z) : proc S (res (list S)) :=
    calc! output := sized_output size in spfss_value_provider val_share output.
  (** spfss_known_index.h:82-89 *)
  Definition spfss_index_provider_size (val_share : S) (index size : Z) : proc S (res (list S)) :=
    calc! output := sized_output size in spfss_index_provider val_share index output.
End Spfss.
