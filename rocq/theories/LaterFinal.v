(** Later calls: lemmas behind PropertiesLater.v. *)
From Verif Require Import Base ScalarModel ScalarSpec ScalarProofs ScalarFinal ProcModel ProcSpec ProcProofs MeetProofs RotModel SpfssModel
  GilboaModel CuckooModel MpfssModel VoleModel VoleSpec VolePair TransportSpec TransportProofs TransportFinal StopSpec StopProofs LaterSpec LaterProofs.
From Coq Require Import Lia.

Section G.
  Context {T : Type}.

  (** A session that runs to [d]. *)
  Definition runs_to {A B} (fa : A -> Prop) (fb : B -> Prop) (pa : proc T A) ta (pb : proc T B) tb (d : config T A B) : Prop :=
    exists pa1 ta1 pb1 tb1, d = start pa1 ta1 pb1 tb1 /\ jrun pa ta pb tb pa1 ta1 pb1 tb1 /\
      ((exists a b, pa1 = Ret a /\ pb1 = Ret b) \/ (exists a, pa1 = Ret a /\ fa a /\ waits pb1) \/ (exists b, pb1 = Ret b /\ fb b /\ waits pa1)).
  Lemma meet_runs {A B} fa fb (post : A -> B -> Prop) (pa : proc T A) pb ta tb (P : config T A B -> Prop) :
    meet fa fb post pa pb ->
    (forall a b ta' tb', post a b -> P (start (Ret a) ta' (Ret b) tb')) ->
    (forall a q ta' tb', waits q -> fa a -> P (start (Ret a) ta' q tb')) ->
    (forall q b ta' tb', waits q -> fb b -> P (start q ta' (Ret b) tb')) ->
    exists d, P d /\ runs_to fa fb pa ta pb tb d.
  Proof.
    intros M H1 H2 H3. destruct (M ta tb) as [(a & b & ta' & tb' & J & X) | [(a & q & ta' & tb' & J & W & X) | (q & b & ta' & tb' & J & W & X)]].
    - eexists. split; [apply H1, X|]. eexists _, _, _, _. split; [reflexivity|]. split; [exact J|]. left; eauto.
    - eexists. split; [apply H2; [exact W|exact X]|]. eexists _, _, _, _. split; [reflexivity|]. split; [exact J|]. right; left; eauto.
    - eexists. split; [apply H3; [exact W|exact X]|]. eexists _, _, _, _. split; [reflexivity|]. split; [exact J|]. right; right; eauto.
  Qed.

  Section Ext.
    Context {RA RB RA' RB' : Type} (fa : RA -> Prop) (fb : RB -> Prop) (QA : RA -> proc T RA' -> Prop) (QB : RB -> proc T RB' -> Prop)
            (rela : RA -> RA' -> Prop) (relb : RB -> RB' -> Prop).
    Hypothesis HA : forall r q, QA r q -> returns_all_of (rela r) q.
    Hypothesis HB : forall r q, QB r q -> returns_all_of (relb r) q.
    Hypothesis FA : forall r q, fa r -> QA r q -> exists r', q = Ret r'.
    Hypothesis FB : forall r q, fb r -> QB r q -> exists r', q = Ret r'.

    Lemma qsteps_stuck sep n (c d : config T RA' RB') : qstuck sep c -> qsteps sep n c d -> d = c.
    Proof. intros Hs H. inversion H as [|? ? ? ? H1 _]; subst; [reflexivity|]. destruct (Hs _ H1). Qed.

    Lemma q_keeps pa ta pb tb d pa' pb' : runs_to fa fb pa ta pb tb d -> extends QA pa pa' -> extends QB pb pb' ->
      forall sep n c, qsteps sep n (start pa' ta pb' tb) c -> first_keeps rela d c /\ second_keeps relb d c.
    Proof.
      intros (pa1 & ta1 & pb1 & tb1 & -> & J & H) EA EB sep n c Hc.
      destruct (jrun_extends _ _ _ _ _ _ _ _ _ _ J _ _ EA EB) as (pa1' & pb1' & J' & EA1 & EB1).
      destruct (passes_returns sep _ _ _ _ _ _ _ _ J' n c Hc) as [R1 R2].
      assert (W : forall R (r : R), waits (T := T) (Ret r) -> False) by (intros R r [[k X]|(c1 & cs & k & X)]; discriminate).
      destruct H as [(a & b & -> & ->)|[(a & -> & Hf & Hw)|(b & -> & Hf & Hw)]]; cbn in EA1, EB1.
      - split; intros r Hr; cbn.
        + exists a. split; [reflexivity|]. exact (R1 _ r (HA _ _ EA1) Hr).
        + exists b. split; [reflexivity|]. exact (R2 _ r (HB _ _ EB1) Hr).
      - destruct (FA _ _ Hf EA1) as [a' ->]. assert (Hw' := extends_waits _ _ _ EB1 Hw). split; intros r Hr; cbn.
        + exists a. split; [reflexivity|]. exact (R1 _ r (HA _ _ EA1) Hr).
        + exfalso. destruct (jrun_q sep _ _ _ _ _ _ _ _ J') as [m Hm]. destruct (q_join sep _ _ _ _ _ Hc Hm) as (i & j & x & Hi & Hj).
          apply qsteps_stuck in Hj; [|now apply ret_waits_stuck]. subst x. destruct (qsteps_stay _ _ _ _ Hi) as [_ S2].
          specialize (S2 r Hr). cbn in S2. subst pb1'. exact (W _ _ Hw').
      - destruct (FB _ _ Hf EB1) as [b' ->]. assert (Hw' := extends_waits _ _ _ EA1 Hw). split; intros r Hr; cbn.
        + exfalso. destruct (jrun_q sep _ _ _ _ _ _ _ _ J') as [m Hm]. destruct (q_join sep _ _ _ _ _ Hc Hm) as (i & j & x & Hi & Hj).
          apply qsteps_stuck in Hj; [|now apply waits_ret_stuck]. subst x. destruct (qsteps_stay _ _ _ _ Hi) as [S1 _].
          specialize (S1 r Hr). cbn in S1. subst pa1'. exact (W _ _ Hw').
        + exists b. split; [reflexivity|]. exact (R2 _ r (HB _ _ EB1) Hr).
    Qed.
    Lemma extends_keeps pa ta pb tb d pa' pb' : runs_to fa fb pa ta pb tb d -> extends QA pa pa' -> extends QB pb pb' ->
      keeps rela relb pa' ta pb' tb d.
    Proof.
      intros HR EA EB sep stores n c Hc. assert (K := q_keeps _ _ _ _ _ _ _ HR EA EB sep).
      destruct (tsteps_q _ _ _ _ _ Hc) as (m & _ & Q). split; [apply (K m c Q)|]. split; [apply (K m c Q)|].
      intros RE e kept stores' j. split; intros c' Ha Hs r Hr.
      - destruct (mirror_a _ _ _ _ _ Hs e eq_refl (c_b c) (c_tb c) (c_ba c) Ha) as [s' Hm]. cbn [second_stops c_a c_ta c_ab] in Hm.
        destruct c as [a1 ta1 b1 tb1 ab1 ba1]. cbn [c_a c_ta c_b c_tb c_ab c_ba] in *.
        destruct (tsteps_q _ _ _ _ _ Hm) as (i & _ & Qm). exact (proj1 (K _ _ (qsteps_trans _ _ _ _ _ _ Q Qm)) r Hr).
      - destruct (mirror_b _ _ _ _ _ Hs e eq_refl (c_a c) (c_ta c) (c_ab c) Ha) as [s' Hm]. cbn [first_stops c_b c_tb c_ba] in Hm.
        destruct c as [a1 ta1 b1 tb1 ab1 ba1]. cbn [c_a c_ta c_b c_tb c_ab c_ba] in *.
        destruct (tsteps_q _ _ _ _ _ Hm) as (i & _ & Qm). exact (proj2 (K _ _ (qsteps_trans _ _ _ _ _ _ Q Qm)) r Hr).
    Qed.
  End Ext.

  Lemma all_finite {A B} (pa : proc T A) ta (pb : proc T B) tb : finite pa ta pb tb.
  Proof.
    intros sep stores c H0 Hs. pose proof (acc_step sep stores pa pb ta tb [] []) as HA.
    change (Config pa ta pb tb [] []) with (start pa ta pb tb) in HA. rewrite <- H0 in HA. revert HA. generalize O. clear H0.
    intros i HA. remember (c i) as x eqn:Ex. revert i Ex. induction HA as [x _ IH]. intros i ->. exact (IH _ (Hs i) (S i) eq_refl).
  Qed.
  Lemma extends_first_gets {A B B'} fa fb (QB : B -> proc T B' -> Prop) (pa : proc T A) ta (pb : proc T B) tb d pb' : runs_to fa fb pa ta pb tb d ->
    extends QB pb pb' -> first_gets pa ta pb' tb d.
  Proof.
    intros (pa1 & ta1 & pb1 & tb1 & -> & J & _) EB. split; [apply all_finite|]. intros sep stores n c Hc r Hr. cbn in Hr. subst pa1.
    destruct (jrun_extends (fun r q => q = Ret r) QB _ _ _ _ _ _ _ _ J pa pb' (extends_same _ _ (fun _ => eq_refl)) EB) as (pa1' & pb1' & J' & -> & _).
    destruct (tsteps_q _ _ _ _ _ Hc) as (m & _ & Q). destruct (jrun_passes sep _ _ _ _ _ _ _ _ J' m c Q) as [M|(n' & Q')]; [right; exact M|].
    left. exact (proj1 (qsteps_stay _ _ _ _ Q') r eq_refl).
  Qed.
  Lemma extends_second_gets {A B A'} fa fb (QA : A -> proc T A' -> Prop) (pa : proc T A) ta (pb : proc T B) tb d pa' : runs_to fa fb pa ta pb tb d ->
    extends QA pa pa' -> second_gets pa' ta pb tb d.
  Proof.
    intros (pa1 & ta1 & pb1 & tb1 & -> & J & _) EA. split; [apply all_finite|]. intros sep stores n c Hc r Hr. cbn in Hr. subst pb1.
    destruct (jrun_extends QA (fun r q => q = Ret r) _ _ _ _ _ _ _ _ J pa' pb EA (extends_same _ _ (fun _ => eq_refl))) as (pa1' & pb1' & J' & _ & ->).
    destruct (tsteps_q _ _ _ _ _ Hc) as (m & _ & Q). destruct (jrun_passes sep _ _ _ _ _ _ _ _ J' m c Q) as [M|(n' & Q')]; [right; exact M|].
    left. exact (proj2 (qsteps_stay _ _ _ _ Q') r eq_refl).
  Qed.
End G.

(** ** Sessions *)
Section S.
  Variable S : scalar.
  Variable E : setting.
  Variable M : machine S.
  Variable go_on : status -> bool.

  Definition goes_on (rs : list (res (answer S))) : Prop := forallb (continues go_on) rs = true.
  Definition longer (r : res (list (res (answer S)))) (q : proc S (res (list (res (answer S))))) : Prop :=
    q = Ret r \/ exists rs, r = Ok rs /\ goes_on rs /\ returns_all_of (begins r) q.

  Lemma calls_extends l la : forall st, extends (fun rs q => q = Ret rs \/ (goes_on rs /\ returns_all_of (prefix rs) q))
    (calls S E M go_on l st) (calls S E M go_on (l ++ la) st).
  Proof.
    induction l as [|[sends c] l IH]; intro st.
    - cbn. right. split; [reflexivity|]. apply returns_all. intro a. now exists a.
    - cbn [calls app]. apply extends_bind. intros [st' r].
      assert (K : continues go_on r = true -> extends (fun rs q => q = Ret rs \/ (goes_on rs /\ returns_all_of (prefix rs) q))
        (pbind (calls S E M go_on l st') (fun rs => Ret (r :: rs))) (pbind (calls S E M go_on (l ++ la) st') (fun rs => Ret (r :: rs)))).
      { intro Hr. eapply extends_map; [apply IH|]. intros rs q [->|[Hg Hq]]; cbn; [left; reflexivity|right].
        split; [unfold goes_on; cbn; now rewrite Hr|]. eapply returns_bind; [exact Hq|]. intros rs' [x <-]. cbn. now exists x. }
      destruct r as [a|e|w]; cbn zeta; [apply K; reflexivity| |cbn; left; reflexivity].
      destruct (go_on e) eqn:He; [apply K; exact He|cbn; left; reflexivity].
  Qed.
  Lemma party_extends l la : extends longer (party S E M go_on l) (party S E M go_on (l ++ la)).
  Proof.
    unfold party, pbindr. apply extends_bind. intros [st|e|w]; [|cbn; left; reflexivity|cbn; left; reflexivity].
    eapply extends_map; [apply calls_extends|]. intros rs q [->|[Hg Hq]]; cbn; [left; reflexivity|right].
    exists rs. split; [reflexivity|]. split; [exact Hg|]. eapply returns_bind; [exact Hq|]. intros rs' Hp. exact Hp.
  Qed.
  Lemma longer_begins r q : longer r q -> returns_all_of (begins r) q.
  Proof. intros [->|(rs' & _ & _ & H)]; [|exact H]. destruct r; cbn; auto. exists []. apply app_nil_r. Qed.
  (** A party that failed alone makes no further call. *)
  Lemma bad_stops r q : (forall e, In e one_sided -> go_on e = false) -> bad_end S r -> longer r q -> exists r', q = Ret r'.
  Proof.
    intros Hgo (rs & -> & l & x & -> & Hx) [->|(rs' & Hr & Hg & _)]; [eauto|]. exfalso. injection Hr as <-.
    unfold goes_on in Hg. rewrite forallb_app in Hg. apply andb_true_iff in Hg. destruct Hg as [_ Hg]. cbn in Hg.
    destruct x as [a|e|w]; cbn in Hg; [contradiction| |discriminate]. rewrite (Hgo e Hx) in Hg. discriminate.
  Qed.
End S.

Lemma opposite_app (S : scalar) l l' : opposite S (l ++ l') = opposite S l ++ opposite S l'.
Proof. apply map_app. Qed.

Lemma sessions_later t : stype_ok t -> let S := scalar_of t in forall E, good_setting S E ->
  forall MA MB : machine S, good_machine S MA -> good_machine S MB -> connected MA MB ->
  forall go_on, (forall e, In e one_sided -> go_on e = false) -> forall l ta tb,
  let pa more := party S E MA go_on (l ++ more) in let pb more := party S E MB go_on (opposite S l ++ more) in
  exists d, session_end S go_on l d /\
    (forall la lb, keeps begins begins (pa la) ta (pb lb) tb d) /\
    (forall lb, keeps eq begins (pa []) ta (pb lb) tb d /\ first_gets (pa []) ta (pb lb) tb d) /\
    (forall la, keeps begins eq (pa la) ta (pb []) tb d /\ second_gets (pa la) ta (pb []) tb d).
Proof.
  intros Ht S E G MA MB GA GB HC go_on Hgo l ta tb pa pb.
  destruct (meet_runs _ _ _ (party S E MA go_on l) (party S E MB go_on (opposite S l)) ta tb (session_end S go_on l)
    (party_meet S (scalar_of_laws t Ht) E G MA MB GA GB HC go_on Hgo l)) as (d & Hd & HR);
    [| | |exists d; split; [exact Hd|]]; subst pa pb.
  1-3: intros; (split; [reflexivity|]); (split; [reflexivity|]); cbn.
  - left. destruct H as (la & lb & -> & -> & Hag). eauto.
  - right; left. destruct H0 as (la & -> & Hb). eauto.
  - right; right. destruct H0 as (la & -> & Hb). eauto.
  - cbv beta zeta. rewrite !app_nil_r.
    assert (SA : extends (fun r q => q = Ret r) (party S E MA go_on l) (party S E MA go_on l)) by (apply extends_same; reflexivity).
    assert (SB : extends (fun r q => q = Ret r) (party S E MB go_on (opposite S l)) (party S E MB go_on (opposite S l))) by (apply extends_same; reflexivity).
    split; [intros la lb|split; [intro lb; split|intro la; split]].
    + eapply extends_keeps; [| | | |exact HR|apply party_extends|apply party_extends];
        intros r q; try apply longer_begins; apply bad_stops, Hgo.
    + eapply extends_keeps; [| | | |exact HR|exact SA|apply party_extends].
      * intros r q ->. reflexivity.
      * intros r q; apply longer_begins.
      * intros r q _ ->. eauto.
      * intros r q; apply bad_stops, Hgo.
    + eapply extends_first_gets; [exact HR|apply party_extends].
    + eapply extends_keeps; [| | | |exact HR|apply party_extends|exact SB].
      * intros r q; apply longer_begins.
      * intros r q ->. reflexivity.
      * intros r q; apply bad_stops, Hgo.
      * intros r q _ ->. eauto.
    + eapply extends_second_gets; [exact HR|apply party_extends].
Qed.
