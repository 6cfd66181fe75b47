(** The checks of the protocols bound the joint distance of all elements. *)
From Coq Require Import QArith Qabs Lqa.
From Verif Require Import Base BaseFacts ScalarModel ScalarSpec ScalarProofs ScalarFinal ProcModel ProcSpec RotModel RotSpec RotFinal SpfssModel
  GilboaModel RngModel CuckooModel MpfssModel VoleModel VoleSpec VoleSolo VoleCode ViewSpec ViewProofs JointSpec JointProofs.
Local Open Scope Z_scope.

Lemma product t n (B : scalar_of t -> bool) (D : list (scalar_of t) -> bool) :
  let both l := match l with [] => false | x :: l => B x && D l end in
  (joint_hash_prob t (S n) both == hash_prob t 128 B * joint_hash_prob t n D)%Q /\
  (joint_uniform_prob t (S n) both == uniform_prob t B * joint_uniform_prob t n D)%Q.
Proof.
  intro both.
  assert (E : forall m, (0 < m)%N -> (fraction_of_lists m (S n) (fun l => both (map (s_of128 (scalar_of t)) l)) ==
    fraction m (fun v => B (s_of128 (scalar_of t) v)) * fraction_of_lists m n (fun l => D (map (s_of128 (scalar_of t)) l)))%Q).
  { intros m Hm. unfold fraction_of_lists, fraction. cbn [lists_below map both].
    rewrite (sum_ext m _ (fun v => (if B (s_of128 (scalar_of t) v) then 1 else 0) * lists_below m n (fun l => D (map (s_of128 (scalar_of t)) l)))%N).
    2:{ intros v _. destruct (B _); cbn [andb]; [now rewrite N.mul_1_l|].
        rewrite N.mul_0_l. clear. induction n as [|n IH]; cbn [lists_below]; [reflexivity|].
        rewrite (sum_ext m _ (fun _ => 0%N)) by (intros; exact IH). rewrite sum_const. lia. }
    rewrite sum_scale, sum_count, Nat2N.inj_succ, N.pow_succ_r', !N2Z.inj_mul, !inject_Z_mult.
    assert (0 < m ^ N.of_nat n)%N by (apply N.neq_0_lt_0, N.pow_nonzero; lia).
    field. split; apply Qnot_eq_sym, Qlt_not_eq, Q_of_N_pos; assumption. }
  split; apply E; [reflexivity|apply order_pos].
Qed.

Lemma elements_together t K n (D : list (scalar_of t) -> bool) : stype_ok t -> s_size (scalar_of t) <= 16 -> (0 < K)%Q -> 1 <= n ->
  s_can_hash (scalar_of t) (security_per_leaf K n) 128 = true ->
  (Qabs (joint_hash_prob t (Z.to_nat n) D - joint_uniform_prob t (Z.to_nat n) D) <= 1 / K)%Q.
Proof.
  intros Ht Hs HK Hn Hc. apply together; auto; [lia|]. intro B. rewrite Z2Nat.id by lia.
  unfold security_per_leaf in Hc. destruct (n <? 0) eqn:E; [lia|].
  apply can_hash_128_sound; auto. apply Qmult_lt_0_compat; [|exact HK]. change 0%Q with (inject_Z 0). rewrite <- Zlt_Qlt. lia.
Qed.

Lemma random_ot_together t aes clog K (outs rs : list (list (scalar_of t))) (D : list (scalar_of t) -> bool) :
  stype_ok t -> s_size (scalar_of t) <= 16 -> (0 < K)%Q ->
  possible (rot_sender_batched (scalar_of t) aes clog K outs) (Ok rs) ->
  let n := size_sum (map zlen outs) in 0 < n < 2^31 ->
  (Qabs (joint_hash_prob t (Z.to_nat n) D - joint_uniform_prob t (Z.to_nat n) D) <= 1 / K)%Q.
Proof.
  intros Ht Hs HK H n Hn. apply together; auto; [lia|]. intro B. rewrite Z2Nat.id by lia. apply total_leaves_security; auto.
  destruct (s_can_hash _ _ 128) eqn:E; [reflexivity|]. exfalso.
  unfold rot_sender_batched, send_trees in H. rewrite E in H. cbn [negb] in H.
  apply possible_bindr_ok in H. destruct H as (x & H & _). inversion H.
Qed.

Lemma generator_together t E (M : machine (scalar_of t)) sends st0 l1 e b l2 st (D : list (scalar_of t) -> bool) : stype_ok t ->
  good_setting (scalar_of t) E -> good_machine (scalar_of t) M -> 1 <= p_nonzeros (e_parameters E) -> (0 < e_K E)%Q ->
  created (scalar_of t) M st0 -> history (scalar_of t) E M st0 (l1 ++ e :: l2) st -> precomputes sends b l1 e ->
  Forall (if sends : bool then sender_run else receiver_run) l2 ->
  let n := Z.to_nat (p_nonzeros (e_parameters E) * zlen (v_columns st)) in
  (Qabs (joint_hash_prob t n D - joint_uniform_prob t n D) <= 1 / (e_K E * 3))%Q.
Proof.
  intros Ht G GM Hn HK Hc H Hp HF n.
  destruct (code_stays (scalar_of t) E G M GM sends st0 l1 e b l2 st) as (_ & _ & _ & _ & Hl); auto; [now destruct sends|].
  assert (Hz : 1 <= p_nonzeros (e_parameters E) * zlen (v_columns st)) by nia.
  apply together; auto; [exact (gs_size _ _ G)| |lia|].
  - apply Qmult_lt_0_compat; [auto|reflexivity].
  - intro B. unfold n. rewrite Z2Nat.id by lia. eapply generator_uniform; eauto.
Qed.
