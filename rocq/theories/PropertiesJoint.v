(** Final theorems about the joint distribution of all elements that are derived
    from 128-bit values (C94). *)
From Coq Require Import QArith Qabs.
From Verif Require Import Base BaseFacts ScalarModel ScalarSpec ScalarProofs ProcModel ProcSpec GgmModel RotModel RotSpec SpfssModel
  GilboaModel RngModel CuckooModel MpfssModel VoleModel VoleSpec JointSpec JointProofs JointFinal.
Local Open Scope Z_scope.

(** C94: if the check accepts n elements with statistical security log2(K), no
    test [D] tells n elements that come from independent uniform 128-bit values
    apart from n independent uniform elements with an advantage above 1/K. *)
Theorem C94_elements_together : forall t K n (D : list (scalar_of t) -> bool), stype_ok t -> s_size (scalar_of t) <= 16 -> (0 < K)%Q -> 1 <= n ->
  s_can_hash (scalar_of t) (security_per_leaf K n) 128 = true ->
  (Qabs (joint_hash_prob t (Z.to_nat n) D - joint_uniform_prob t (Z.to_nat n) D) <= 1 / K)%Q.
Proof. exact elements_together. Qed.
Print Assumptions C94_elements_together.

(** A sender of random OTs that succeeds has made this check for all elements of
    its batch. *)
Theorem C94_random_ot : forall t aes clog K (outs rs : list (list (scalar_of t))) (D : list (scalar_of t) -> bool),
  stype_ok t -> s_size (scalar_of t) <= 16 -> (0 < K)%Q ->
  possible (rot_sender_batched (scalar_of t) aes clog K outs) (Ok rs) ->
  let n := size_sum (map zlen outs) in 0 < n < 2^31 ->
  (Qabs (joint_hash_prob t (Z.to_nat n) D - joint_uniform_prob t (Z.to_nat n) D) <= 1 / K)%Q.
Proof. exact random_ot_together. Qed.
Print Assumptions C94_random_ot.

(** After a successful precomputation, for all elements of the code generator. *)
Theorem C94_generator : forall t E (M : machine (scalar_of t)) sends st0 l1 e b l2 st (D : list (scalar_of t) -> bool), stype_ok t ->
  good_setting (scalar_of t) E -> good_machine (scalar_of t) M -> 1 <= p_nonzeros (e_parameters E) -> (0 < e_K E)%Q ->
  created (scalar_of t) M st0 -> history (scalar_of t) E M st0 (l1 ++ e :: l2) st -> precomputes sends b l1 e ->
  Forall (if sends : bool then sender_run else receiver_run) l2 ->
  let n := Z.to_nat (p_nonzeros (e_parameters E) * zlen (v_columns st)) in
  (Qabs (joint_hash_prob t n D - joint_uniform_prob t n D) <= 1 / (e_K E * 3))%Q.
Proof. exact generator_together. Qed.
Print Assumptions C94_generator.

(** The elements are independent in both distributions. *)
Theorem C94_independent : forall t n (B : scalar_of t -> bool) (D : list (scalar_of t) -> bool),
  let both l := match l with [] => false | x :: l => B x && D l end in
  (joint_hash_prob t (S n) both == hash_prob t 128 B * joint_hash_prob t n D)%Q /\
  (joint_uniform_prob t (S n) both == uniform_prob t B * joint_uniform_prob t n D)%Q.
Proof. exact product. Qed.
Print Assumptions C94_independent.

(** 127 elements modulo an 81-bit number are accepted for a security of 40 bits; a
    batch with one element succeeds; two elements modulo 3 are both 0 with
    probability 1/9. The history in C64_C67_C68_example meets the hypotheses of
    C94_generator. *)
Example C94_example :
  (stype_ok (ZZ_p (2^80 + 13)) /\ s_size (scalar_of (ZZ_p (2^80 + 13))) = 11 /\
   s_can_hash (scalar_of (ZZ_p (2^80 + 13))) (security_per_leaf (inject_Z (2^40)) 127) 128 = true) /\
  (exists rs, possible (rot_sender_batched (scalar_of UInt8) (fun k x => N.lxor k x) (fun _ _ => 0%nat) (inject_Z (2^40)) [[s_zero (scalar_of UInt8)]]) (Ok rs)) /\
  (joint_uniform_prob (zz_p 3) 2 (fun l => forallb (fun x : scalar_of (zz_p 3) => zval (x : zmod 3) =? 0)%N l) == 1 # 9)%Q.
Proof.
  split; [|split].
  - split; [reflexivity|]. split; vm_compute; reflexivity.
  - eexists. unfold rot_sender_batched, send_trees. cbn.
    do 3 (apply possible_rand with (x := 1%N) (t := s_zero (scalar_of UInt8))). apply possible_send. apply possible_ret.
  - vm_compute. reflexivity.
Qed.
