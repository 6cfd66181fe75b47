(** Final theorems about int loop bounds in whole sessions (C97). Parameters as
    in PropertiesVole.v. *)
From Verif Require Import Base BaseFacts ScalarModel ScalarSpec ScalarProofs ProcModel ProcSpec RotModel RotSpec SpfssModel
  GilboaModel GilboaSpec RngModel CuckooModel CuckooSpec MpfssModel MpfssSpec VoleModel VoleSpec UseSpec VoleFinal VoleToy VoleInt RotIntProofs VoleIntProofs.
From Coq Require Import QArith.
Local Open Scope Z_scope.

(** C97. The whole life of a party, with any calls and whatever the other party
    does: the int arithmetic of the batches changes neither its messages nor its
    answers ([alike] in UseSpec.v). Three times the largest output fits in int
    ([gs_last]), and the number of levels is as computed with doubles (C70). *)
Theorem C97_same_behaviour : forall S E M go_on l, good_setting S E -> good_machine S M ->
  (forall n, 1 <= n -> 2 ^ (Z.of_nat (e_clog E 2 n) - 1) <= n) ->
  alike (party_int S E M go_on l) (party S E M go_on l).
Proof. exact party_same. Qed.
Print Assumptions C97_same_behaviour.

(** What C42 and C45 promise. *)
Theorem C97_correlation : forall t, stype_ok t -> let S := scalar_of t in
  forall E, good_setting S E -> (forall n, 1 <= n -> 2 ^ (Z.of_nat (e_clog E 2 n) - 1) <= n) ->
  forall MA MB : machine S, good_machine S MA -> good_machine S MB -> connected MA MB ->
  forall go_on, (forall e, In e one_sided -> go_on e = false) ->
  forall l ta tb m d ra rb,
  steps m (start (party_int S E MA go_on l) ta (party_int S E MB go_on (opposite S l)) tb) d ->
  c_a d = Ret ra -> c_b d = Ret rb ->
  c_ab d = [] /\ c_ba d = [] /\ exists la lb, ra = Ok la /\ rb = Ok lb /\ agree S go_on l la lb.
Proof. exact int_session_agree. Qed.
Print Assumptions C97_correlation.

Theorem C97_lock_step : forall t, stype_ok t -> let S := scalar_of t in
  forall E, good_setting S E -> (forall n, 1 <= n -> 2 ^ (Z.of_nat (e_clog E 2 n) - 1) <= n) ->
  forall MA MB : machine S, good_machine S MA -> good_machine S MB -> connected MA MB ->
  forall go_on, (forall e, In e one_sided -> go_on e = false) ->
  forall l ta tb,
  exists n, forall m d, steps m (start (party_int S E MA go_on l) ta (party_int S E MB go_on (opposite S l)) tb) d ->
    (m <= n)%nat /\ (stuck d -> session_end S go_on l d).
Proof. exact int_session_stuck. Qed.
Print Assumptions C97_lock_step.

(** The session of C42_C45_example. *)
Example C97_example :
  good_setting F (toy_setting toy_K) /\ good_machine F (toy_machine 0 1) /\ good_machine F (toy_machine 1 0) /\
  connected (toy_machine 0 1) (toy_machine 1 0) /\
  (forall n, 1 <= n -> 2 ^ (Z.of_nat (e_clog (toy_setting toy_K) 2 n) - 1) <= n) /\
  exists n d la lb,
    steps n (start (party_int F (toy_setting toy_K) (toy_machine 0 1) (fun _ => false) toy_calls) (toy_tape 7)
                   (party_int F (toy_setting toy_K) (toy_machine 1 0) (fun _ => false) (opposite F toy_calls)) (toy_tape 13)) d /\
    c_a d = Ret (Ok la) /\ c_b d = Ret (Ok lb) /\
    map (rmap show_answer) la =
      [Ok ShowPrecomputed; Ok (ShowSender [321; 81] [518; 486]);
       Ok (ShowSender [719; 264; 347; 883; 649; 498; 405; 848; 795] [937; 157; 177; 717; 560; 3; 552; 876; 767])]%N /\
    map (rmap show_answer) lb =
      [Ok ShowPrecomputed; Ok (ShowReceiver [472; 729] 3);
       Ok (ShowReceiver [67; 949; 209; 339; 489; 488; 758; 393; 125] 3)]%N.
Proof.
  split; [apply toy_good|]. split; [apply toy_machine_good|]. split; [apply toy_machine_good|]. split; [apply toy_connected|]. split; [exact toy_levels|].
  apply (exec_shown (Z.to_nat 5000)). vm_compute. reflexivity.
Qed.
