(** Final theorems about sessions in which the parties change roles (C98). [E],
    [MA], [MB]: as in PropertiesVole.v. *)
From Verif Require Import Base BaseFacts ScalarModel ScalarSpec ScalarProofs ScalarFinal ProcModel ProcSpec RotModel MpfssModel MpfssSpec
  VoleModel VoleSpec VoleToy VoleSucceed CostSpec LevelSpec VoleLevel.
From Coq Require Import QArith.
Local Open Scope Z_scope.

(** C98: the parties may change roles without precomputing again as long as every
    Run finds a code generator for as many seeds as its role has ([roles_fit]).
    Then the session has no errors: it ends as in C69. *)
Theorem C98_role_changes_succeed : forall t, stype_ok t -> let S := scalar_of t in
  forall E, good_setting S E -> secure S E ->
  forall MA MB : machine S, good_machine S MA -> good_machine S MB -> connected MA MB ->
  forall go_on, go_on insertion_failed = false -> forall l now ta tb, roles_fit E (fun _ => None) now l ->
  exists n, forall m d, steps m (start (party S E MA go_on l) ta (party S E MB go_on (opposite S l)) tb) d ->
    (m <= n)%nat /\ (stuck d -> good_end S go_on l d).
Proof. exact (fun t Ht E G Hs => levels_session (scalar_of t) (scalar_of_laws t Ht) E G Hs (scalar_size_pos t Ht)). Qed.
Print Assumptions C98_role_changes_succeed.

(** If all sizes lead to the same level, the roles can change from call to call. *)
Theorem C98_same_level : forall t, stype_ok t -> let S := scalar_of t in
  forall E, good_setting S E -> secure S E ->
  forall MA MB : machine S, good_machine S MA -> good_machine S MB -> connected MA MB ->
  forall go_on, go_on insertion_failed = false -> forall j l ta tb,
  Forall (fun '(_, c) => match c with Precompute n _ | Run n => 1 <= n /\ final_level E n j end) l ->
  exists n, forall m d, steps m (start (party S E MA go_on l) ta (party S E MB go_on (opposite S l)) tb) d ->
    (m <= n)%nat /\ (stuck d -> good_end S go_on l d).
Proof. exact same_level_session. Qed.
Print Assumptions C98_same_level.

(** The sessions of C69 are among those of C98_role_changes_succeed. *)
Theorem C98_orderly_sessions : forall (S : scalar) E (l : list (bool * call S)), 1 <= level_count E -> orderly None l -> roles_fit E (fun _ => None) 0 l.
Proof. exact orderly_fits. Qed.
Print Assumptions C98_orderly_sessions.

(** Each party is the sender, the receiver and the sender again, with only the
    precomputations that Run starts; the session is not one of C69. *)
Example C98_example : let calls := [(true, Run 2); (false, Run 1); (true, Run 2); (false, Run 2)] in
  secure F (toy_setting toy_K) /\ ~ orderly None calls /\
  Forall (fun '(_, c) => match c with Precompute n _ | Run n => 1 <= n /\ final_level (toy_setting toy_K) n 0 end) calls /\
  exists n d la lb,
    steps n (start (party F (toy_setting toy_K) (toy_machine 0 1) (fun _ => false) calls) (toy_tape 7)
                   (party F (toy_setting toy_K) (toy_machine 1 0) (fun _ => false) (opposite F calls)) (toy_tape 13)) d /\
    c_a d = Ret (Ok la) /\ c_b d = Ret (Ok lb) /\
    map (rmap show_answer) la = [Ok (ShowSender [564; 460] [568; 113]); Ok (ShowReceiver [241] 899); Ok (ShowSender [381; 937] [789; 417]); Ok (ShowReceiver [684; 732] 899)]%N /\
    map (rmap show_answer) lb = [Ok (ShowReceiver [718; 128] 11); Ok (ShowSender [512] [57]); Ok (ShowReceiver [944; 634] 11); Ok (ShowSender [62; 256] [441; 640])]%N.
Proof.
  intro calls. split; [apply (secure_types (zz_p 1009)); [split; [cbn; lia|vm_compute; discriminate]|discriminate|reflexivity|discriminate|vm_compute; discriminate]|].
  split; [cbn; intros (_ & _ & _ & [H|H] & _); discriminate|].
  assert (Hl : forall n, 1 <= n <= 2 -> 1 <= n /\ final_level (toy_setting toy_K) n 0).
  { intros n Hn. split; [lia|]. split; [vm_compute; split; [discriminate|reflexivity]|]. split; [intros; lia|]. right.
    change (n + 3 + 2 <= 7). lia. }
  split; [unfold calls; repeat (apply Forall_cons; [apply Hl; lia|]); apply Forall_nil|]. unfold calls. apply (exec_shown (Z.to_nat 9000)). vm_compute. reflexivity.
Qed.
