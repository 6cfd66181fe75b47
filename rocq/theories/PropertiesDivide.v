(** Final theorems about parties that divide the same request differently (C100).
    [E], [MA], [MB]: as in PropertiesVole.v. *)
From Verif Require Import Base BaseFacts ScalarModel ScalarSpec ScalarProofs ScalarFinal ProcModel ProcSpec RotModel MpfssModel MpfssSpec
  VoleModel VoleSpec VoleToy VoleSucceed CostSpec VoleLevel SplitSpec DivideSpec DivideProofs.
From Coq Require Import QArith Permutation.
Local Open Scope Z_scope.

(** C100: after the same precomputation, the sender makes Run calls of the sizes
    [ns] and the receiver of the sizes [ms]; both ask for the same number of
    elements in total. Then the session ends as it would with the same sizes: no
    message is left over, and w = u delta + v after both parties have brought their
    elements into the order of one call ([arrange]), which depends only on the sizes
    and on the batch size. *)
Theorem C100_divided_differently : forall t, stype_ok t -> let S := scalar_of t in
  forall E, good_setting S E -> secure S E ->
  forall MA MB : machine S, good_machine S MA -> good_machine S MB -> connected MA MB ->
  forall b d ns ms ta tb j, final_level E b j -> 1 <= b -> Forall (fun n => 0 <= n) ns -> Forall (fun n => 0 <= n) ms -> 1 <= total ns -> total ms = total ns ->
  exists n, forall m c, steps m (start (party S E MA stop (divided true b d ns)) ta (party S E MB stop (divided false b d ms)) tb) c ->
    (m <= n)%nat /\ (stuck c -> divided_end (Z.min b (room E j)) ns ms c).
Proof. exact (fun t Ht E G Hs => divided_session (scalar_of t) (scalar_of_laws t Ht) E G Hs (scalar_size_pos t Ht)). Qed.
Print Assumptions C100_divided_differently.

(** The elements do not match by their position: the sender asks for 4 and 5
    elements, the receiver for 2 and 7. Modulo 1009, 264 * 3 + 157 = 949 is the
    second element of the second answer, not the first one of the first. *)
Theorem C100_same_positions_refuted : secure F (toy_setting toy_K) /\ exists n c la lb,
  steps n (start (party F (toy_setting toy_K) (toy_machine 0 1) stop (divided true 5 (Some (toy_scalar 3)) [4; 5])) (toy_tape 7)
                 (party F (toy_setting toy_K) (toy_machine 1 0) stop (divided false 5 (Some (toy_scalar 3)) [2; 7])) (toy_tape 13)) c /\
  c_a c = Ret (Ok la) /\ c_b c = Ret (Ok lb) /\
  map (rmap show_answer) la = [Ok ShowPrecomputed; Ok (ShowSender [264; 347; 321; 81] [157; 177; 518; 486]); Ok (ShowSender [719; 649; 498; 405; 848] [937; 560; 3; 552; 876])]%N /\
  map (rmap show_answer) lb = [Ok ShowPrecomputed; Ok (ShowReceiver [472; 729] 3); Ok (ShowReceiver [67; 949; 209; 489; 488; 758; 393] 3)]%N.
Proof.
  split; [apply (secure_types (zz_p 1009)); [split; [cbn; lia|vm_compute; discriminate]|discriminate|reflexivity|discriminate|vm_compute; discriminate]|].
  apply (exec_shown (Z.to_nat 9000)). vm_compute. reflexivity.
Qed.
Print Assumptions C100_same_positions_refuted.

(** The same session satisfies the hypotheses of C100_divided_differently, and the
    elements match in the order of [arrange]. *)
Example C100_example : stype_ok (zz_p 1009) /\ good_setting F (toy_setting toy_K) /\ secure F (toy_setting toy_K) /\
  good_machine F (toy_machine 0 1) /\ good_machine F (toy_machine 1 0) /\ connected (toy_machine 0 1) (toy_machine 1 0) /\
  total [4; 5] = 9 /\ total [2; 7] = 9 /\ final_level (toy_setting toy_K) 5 1 /\ Z.min 5 (room (toy_setting toy_K) 1) = 5 /\
  let u := arrange 0 5 [4; 5] [[264; 347; 321; 81]; [719; 649; 498; 405; 848]]%N in let v := arrange 0 5 [4; 5] [[157; 177; 518; 486]; [937; 560; 3; 552; 876]]%N in
  let w := arrange 0 5 [2; 7] [[472; 729]; [67; 949; 209; 489; 488; 758; 393]]%N in
  w = map (fun '(x, y) => (x * 3 + y) mod 1009)%N (combine u v).
Proof.
  split; [split; [cbn; lia|vm_compute; discriminate]|]. split; [apply toy_good|]. split; [apply C100_same_positions_refuted|].
  split; [apply toy_machine_good|]. split; [apply toy_machine_good|]. split; [split; [reflexivity|]; split; [reflexivity|discriminate]|]. split; [reflexivity|]. split; [reflexivity|].
  split; [|split; vm_compute; reflexivity]. split; [vm_compute; split; [discriminate|reflexivity]|]. split; [intros i Hi; assert (i = 0) as -> by lia; vm_compute; reflexivity|]. left. reflexivity.
Qed.
