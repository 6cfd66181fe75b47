(** Final theorems about later calls (C96). [keeps], [first_gets] and
    [second_gets] are in LaterSpec.v. *)
From Verif Require Import Base BaseFacts ScalarModel ScalarSpec ScalarProofs ScalarFinal ProcModel ProcSpec ProcProofs VoleModel VoleSpec VoleToy
  TransportSpec TransportProofs StopSpec LaterSpec LaterProofs LaterFinal.
Local Open Scope Z_scope.

(** C96: two generators make the calls [l] in opposite roles, after which each
    may make further ones, not necessarily the same number or matching ones.
    [d] is how the session of the calls [l] alone ends. Whatever a party returns
    begins with its answers in [d], and a party that makes no further calls
    returns these. *)
Theorem C96_sessions : forall t, stype_ok t -> let S := scalar_of t in forall E, good_setting S E ->
  forall MA MB : machine S, good_machine S MA -> good_machine S MB -> connected MA MB ->
  forall go_on, (forall e, In e one_sided -> go_on e = false) -> forall l ta tb,
  let pa more := party S E MA go_on (l ++ more) in let pb more := party S E MB go_on (opposite S l ++ more) in
  exists d, session_end S go_on l d /\
    (forall la lb, keeps begins begins (pa la) ta (pb lb) tb d) /\
    (forall lb, keeps eq begins (pa []) ta (pb lb) tb d /\ first_gets (pa []) ta (pb lb) tb d) /\
    (forall la, keeps begins eq (pa la) ta (pb []) tb d /\ second_gets (pa la) ta (pb []) tb d).
Proof. exact sessions_later. Qed.
Print Assumptions C96_sessions.

(** The second party makes one call more than the first, and waits for it; the
    first one has its answers. *)
Definition second_alone {T A RB} (c : config T (res (list (res A))) RB) : bool :=
  match c_a c, c_b c with
  | Ret (Ok [Ok _]), Recv _ | Ret (Ok [Ok _]), OtRecv _ _ _ => true
  | _, _ => false
  end.
Example C96_example : let first := [(true, Run 2)] in let more := [(false, Precompute 3 None)] in
  good_setting F (toy_setting toy_K) /\ good_machine F (toy_machine 0 1) /\ good_machine F (toy_machine 1 0) /\
  connected (toy_machine 0 1) (toy_machine 1 0) /\
  exists n c,
    tsteps true tokens n (start (party F (toy_setting toy_K) (toy_machine 0 1) (fun _ => false) first) (toy_tape 7)
                                (party F (toy_setting toy_K) (toy_machine 1 0) (fun _ => false) (opposite F first ++ more)) (toy_tape 13)) c /\
    (exists x, c_a c = Ret (Ok [Ok x])) /\ waiting (c_b c).
Proof.
  intros first more. split; [apply toy_good|]. split; [apply toy_machine_good|]. split; [apply toy_machine_good|]. split; [apply toy_connected|].
  set (c := start _ _ _ _). destruct (texec_ok true (Z.to_nat 2000) c) as [n Hn].
  assert (E : second_alone (texec true (Z.to_nat 2000) c) = true) by (vm_compute; reflexivity).
  exists n, (texec true (Z.to_nat 2000) c). split; [exact Hn|]. clear Hn. revert E. generalize (texec true (Z.to_nat 2000) c). clear.
  intros [pa ta pb tb ab ba] E. unfold second_alone in E. cbn [c_a c_b] in *.
  destruct pa as [[[|[x| |] [|]]| |]| | | |]; try discriminate. destruct pb; try discriminate; (split; [eauto|]); [left|right]; eauto.
Qed.
