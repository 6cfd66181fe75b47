(** Final theorems about requests that are split (C99). [E], [M]: as in
    PropertiesVole.v. *)
From Verif Require Import Base BaseFacts ScalarModel ScalarSpec ScalarFinal ProcModel ProcSpec MpfssModel MpfssSpec
  VoleModel VoleSpec VoleHistory VoleToy CostSpec PropertiesCost SplitSpec SplitProofs.
From Coq Require Import QArith Permutation.
Local Open Scope Z_scope.

(** C99: after a precomputation and any further Run calls, Run(n1) followed by
    Run(n2) and Run(n1 + n2) cannot be told apart by the other party: they send
    the same messages, and receive, transfer and draw at the same points,
    whatever is received and drawn. They leave the object in the same state. They
    fail with the same error, or the results of the two calls have exactly the
    elements of the result of the one, pairs and delta included ([same_elements]).
    Their order is known ([in_order]): it depends only on the sizes, the number of
    cached elements and the batch size (C78: the requested one or the room of the
    level). *)
Theorem C99_sender : forall S E, good_setting S E -> forall M : machine S, good_machine S M -> 1 <= s_size S ->
  forall st0 l1 e b l2 st n1 n2, created S M st0 -> history S E M st0 (l1 ++ e :: l2) st -> precomputes true b l1 e -> Forall sender_run l2 ->
  0 <= n1 -> 0 <= n2 -> let c := zlen (sr_u (s_cached (v_s st))) in
  alike_up (fun two one => same_elements two one /\ in_order (last_part n1 c (v_batch_size st)) (Z.min n2 (left_over n1 c (v_batch_size st))) two one)
    (both (as_sender S E M (Run n1)) (as_sender S E M (Run n2)) st) (as_sender S E M (Run (n1 + n2)) st).
Proof. exact split_sender_history. Qed.
Print Assumptions C99_sender.

Theorem C99_receiver : forall S E, good_setting S E -> forall M : machine S, good_machine S M -> 1 <= s_size S ->
  forall st0 l1 e b l2 st n1 n2, created S M st0 -> history S E M st0 (l1 ++ e :: l2) st -> precomputes false b l1 e -> Forall receiver_run l2 ->
  0 <= n1 -> 0 <= n2 -> let c := zlen (rr_w (r_cached (v_r st))) in
  alike_up (fun two one => same_elements two one /\ in_order (last_part n1 c (v_batch_size st)) (Z.min n2 (left_over n1 c (v_batch_size st))) two one)
    (both (as_receiver S E M (Run n1)) (as_receiver S E M (Run n2)) st) (as_receiver S E M (Run (n1 + n2)) st).
Proof. exact split_receiver_history. Qed.
Print Assumptions C99_receiver.

(** An object that meets the hypotheses. *)
Example C99_hypotheses : let E := toy_setting toy_K in let M := toy_machine 1 0 in
  good_setting F E /\ good_machine F M /\ 1 <= s_size F /\ exists st0 e st,
  created F M st0 /\ history F E M st0 ([] ++ e :: []) st /\ precomputes false 5 [] e /\ Forall receiver_run (@nil (bool * call F * res (answer F))) /\
  alike_up (fun two one => same_elements two one /\ in_order (last_part 4 (zlen (rr_w (r_cached (v_r st)))) (v_batch_size st))
    (Z.min 5 (left_over 4 (zlen (rr_w (r_cached (v_r st)))) (v_batch_size st))) two one) (both (as_receiver F E M (Run 4)) (as_receiver F E M (Run 5)) st) (as_receiver F E M (Run 9) st).
Proof.
  intros E M. destruct C78_example as (G & GM & Hs & st0 & l0 & st & l & w & d & st' & Hc & _ & Hh & _).
  assert (Hz : 1 <= s_size F) by (rewrite Hs; lia).
  assert (Hp : precomputes false 5 [] (false, Precompute 5 (Some (toy_scalar 3)), Ok Precomputed)) by (eexists _, _; split; [reflexivity|left; eexists; reflexivity]).
  split; [exact G|]. split; [exact GM|]. split; [exact Hz|]. exists st0, (false, Precompute 5 (Some (toy_scalar 3)), Ok Precomputed), st.
  split; [exact Hc|]. split; [exact Hh|]. split; [exact Hp|]. split; [constructor|].
  exact (C99_receiver F E G M GM Hz st0 [] _ 5 [] st 4 5 Hc Hh Hp (Forall_nil _) ltac:(lia) ltac:(lia)).
Qed.

(** The same random values, with one Run and with two: the order of the elements
    is not the same, because a result is cut from the end of a batch. Here the first
    call takes 4 elements of a batch of 5 and leaves 1. *)
Example C99_example : last_part 4 0 5 = 4 /\ left_over 4 0 5 = 1 /\
  splice 4 1 [264; 347; 321; 81]%N [719; 649; 498; 405; 848]%N = [719; 264; 347; 321; 81; 649; 498; 405; 848]%N /\
  let session calls sa sb := exists n d la lb,
    steps n (start (party F (toy_setting toy_K) (toy_machine 0 1) (fun _ => false) calls) (toy_tape 7)
                   (party F (toy_setting toy_K) (toy_machine 1 0) (fun _ => false) (opposite F calls)) (toy_tape 13)) d /\
    c_a d = Ret (Ok la) /\ c_b d = Ret (Ok lb) /\ map (rmap show_answer) la = sa /\ map (rmap show_answer) lb = sb in
  let p := (true, Precompute 5 (Some (toy_scalar 3))) in
  session [p; (true, Run 4); (true, Run 5)]
    [Ok ShowPrecomputed; Ok (ShowSender [264; 347; 321; 81] [157; 177; 518; 486]); Ok (ShowSender [719; 649; 498; 405; 848] [937; 560; 3; 552; 876])]%N
    [Ok ShowPrecomputed; Ok (ShowReceiver [949; 209; 472; 729] 3); Ok (ShowReceiver [67; 489; 488; 758; 393] 3)]%N /\
  session [p; (true, Run 9)]
    [Ok ShowPrecomputed; Ok (ShowSender [719; 264; 347; 321; 81; 649; 498; 405; 848] [937; 157; 177; 518; 486; 560; 3; 552; 876])]%N
    [Ok ShowPrecomputed; Ok (ShowReceiver [67; 949; 209; 472; 729; 489; 488; 758; 393] 3)]%N.
Proof. cbv zeta. split; [reflexivity|]. split; [reflexivity|]. split; [reflexivity|]. split; apply (exec_shown (Z.to_nat 9000)); vm_compute; reflexivity. Qed.
