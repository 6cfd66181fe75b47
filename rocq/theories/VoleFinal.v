(** Final lemmas about two connected Vector-OLE generators. *)
From Verif Require Import Base ScalarModel ScalarSpec ScalarProofs ScalarFinal ProcModel ProcSpec ProcProofs MeetProofs
  VoleModel VoleSpec VolePair.
From Coq Require Import QArith Permutation.
Local Open Scope Z_scope.

Section Sessions.
  Variable t : stype.
  Hypothesis Ht : stype_ok t.
  Let S := scalar_of t.
  Variable E : setting.
  Hypothesis G : good_setting S E.
  Variable MA MB : machine S.
  Hypothesis GA : good_machine S MA.
  Hypothesis GB : good_machine S MB.
  Hypothesis HC : connected MA MB.
  Variable go_on : status -> bool.
  Hypothesis Hgo : forall e, In e one_sided -> go_on e = false.
  Variable l : list (bool * call S).
  Variable ta tb : tape S.
  Notation PA := (party S E MA go_on l).
  Notation PB := (party S E MB go_on (opposite S l)).

  Lemma waits_stuck {RA RB} (a : RA) ta' (p : proc S RB) tb' : waits p -> stuck (start (Ret a) ta' p tb').
  Proof. intros W c' H. inversion H; subst; [discriminate|]. destruct W as [[k ->] | (c & cs & k & ->)]; discriminate. Qed.
  Lemma waits_stuck' {RA RB} (b : RB) ta' (p : proc S RA) tb' : waits p -> stuck (start p ta' (Ret b) tb').
  Proof. intros W c' H. inversion H; subst; [|discriminate]. destruct W as [[k ->] | (c & cs & k & ->)]; discriminate. Qed.

  Lemma session_ends : exists n c, steps n (start PA ta PB tb) c /\ stuck c /\ session_end S go_on l c.
  Proof.
    destruct (party_meet S (scalar_of_laws t Ht) E G MA MB GA GB HC go_on Hgo l ta tb)
      as [(a & b & ta' & tb' & [n J]%jrun_steps & la & lb & -> & -> & Hag) | [(a & q & ta' & tb' & [n J]%jrun_steps & W & la & -> & Hb) | (q & b & ta' & tb' & [n J]%jrun_steps & W & lb & -> & Hb)]];
      eexists n, _; (split; [exact J|]); (split; [first [apply finished_stuck | now apply waits_stuck | now apply waits_stuck']|]);
      (split; [reflexivity|]); (split; [reflexivity|]); cbn.
    - left. eauto.
    - right; left. eauto.
    - right; right. eauto.
  Qed.

  Lemma session_stuck : exists n, forall m d, steps m (start PA ta PB tb) d -> (m <= n)%nat /\ (stuck d -> session_end S go_on l d).
  Proof.
    destruct session_ends as (n & c & Hc & Hs & Ho). exists n. intros m d Hd.
    destruct (schedule_independence _ _ _ _ _ _ _ _ _ Hc Hs m d Hd) as (H1 & _ & H2). split; [exact H1|].
    intro H. destruct (H2 H) as [_ ->]. exact Ho.
  Qed.

  Lemma session_agree m d ra rb : steps m (start PA ta PB tb) d -> c_a d = Ret ra -> c_b d = Ret rb ->
    c_ab d = [] /\ c_ba d = [] /\ exists la lb, ra = Ok la /\ rb = Ok lb /\ agree S go_on l la lb.
  Proof.
    intros Hd Ha Hb. destruct session_stuck as [n Hn]. destruct (Hn m d Hd) as [_ Ho].
    destruct Ho as (Q1 & Q2 & Ho).
    { destruct d. cbn in *. subst. apply ret_stuck. }
    split; [exact Q1|]. split; [exact Q2|]. destruct Ho as [(la & lb & E1 & E2 & Hag) | [(la & E1 & _ & W) | (lb & E1 & _ & W)]].
    - rewrite Ha in E1. rewrite Hb in E2. injection E1 as ->. injection E2 as ->. eauto.
    - rewrite Hb in W. destruct W as [[k W] | (c & cs & k & W)]; discriminate.
    - rewrite Ha in W. destruct W as [[k W] | (c & cs & k & W)]; discriminate.
  Qed.
End Sessions.
