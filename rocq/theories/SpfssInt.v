(** Model of /repo/distributed_vector_ole/spfss_known_index.h with the int loop
    bounds that SpfssModel.v leaves out, on top of RotInt.v. *)
From Verif Require Import Base ScalarModel ProcModel RotModel SpfssModel RotInt.
From Coq Require Import QArith.
Local Open Scope Z_scope.

Section SpfssInt.
  Variable S : scalar.
  Variable aes : N -> N -> N.
  Variable clog : Z -> Z -> nat.
  (** 2^statistical_security_ *)
  Variable K : Q.

  (** Elements that a loop from 0 to static_cast<int>(vals.size()) does not reach. *)
  Definition unreached {A B} (vals : list A) (l : list B) : list B := skipn (Z.to_nat (int_size vals)) l.

  (** spfss_known_index.h:103-130; [unreached]: line 110 copies all of val_shares
      into the sums. *)
  Definition spfss_value_provider_batched_int (val_shares : list S) (outputs : list (list S)) : proc S (res (list (list S))) :=
    if negb (zlen val_shares =? zlen outputs)
    then Ret (Err (invalid_argument "`val-shares` and `outputs` must have the same size")) else
    do! outputs := rot_sender_batched_int S aes clog K outputs in
    let r := map (fun '(v, o) => provider_sum S v o) (visited (combine val_shares outputs)) in
    Send (MVec (map fst r ++ unreached val_shares val_shares)) (Ret (Ok (map snd r ++ unreached val_shares outputs))).

  (** spfss_known_index.h:132-168 *)
  Definition spfss_index_provider_batched_int (val_shares : list S) (indices : list Z) (outputs : list (list S))
    : proc S (res (list (list S))) :=
    if negb (zlen val_shares =? zlen outputs) || negb (zlen val_shares =? zlen indices)
    then Ret (Err (invalid_argument "`val-shares`, `indices`, and `outputs` must have the same size")) else
    do! outputs := rot_receiver_batched_int S aes clog indices outputs in
    calc! sums := rmapM (fun j => index_sum S (znth (s_zero S) val_shares j) (znth 0 indices j) (znth [] outputs j))
                        (zrange 0 (int_size val_shares)) in
    recv_vec (fun sums_server =>
    Ret (let! corrected := rmapM (fun j =>
           let! sum := zget sums j in
           let! sum_server := zget sums_server j in
           correct_output S (znth 0 indices j) sum sum_server (znth [] outputs j))
           (zrange 0 (int_size val_shares)) in
         Ok (corrected ++ unreached val_shares outputs))).
End SpfssInt.
