(** Two parties that change roles without precomputing again. *)
From Verif Require Import Base BaseFacts ListFacts ScalarModel ScalarSpec ScalarProofs ScalarFinal ProcModel ProcSpec ProcProofs MeetProofs
  GgmModel RotModel SpfssModel RngModel MpfssModel MpfssSpec MpfssProofs MpfssFinal VoleModel VoleSpec VoleProofs VoleMeet VolePair VoleFinal
  VoleSolo VoleHistory VoleSucceed PatternSpec PatternProofs CostSpec CostProofs LevelSpec.
From Coq Require Import QArith.
Local Open Scope Z_scope.

Lemma final_level_unique E b i j : final_level E b i -> final_level E b j -> i = j.
Proof.
  intros (A1 & A2 & A3) (B1 & B2 & B3). destruct (Z.lt_trichotomy i j) as [H|[H|H]]; [|exact H|].
  - specialize (B2 i ltac:(lia)). lia.
  - specialize (A2 j ltac:(lia)). lia.
Qed.

(** ** Results of joint runs are possible for each party *)
Lemma hand_possible {T RA RB} (pa : proc T RA) ta (pb : proc T RB) tb pa1 ta1 pb1 tb1 : hand pa ta pb tb pa1 ta1 pb1 tb1 ->
  (forall r, possible pa1 r -> possible pa r) /\ (forall r, possible pb1 r -> possible pb r).
Proof. intro H. destruct H; split; intros r Hr; try exact Hr; econstructor; try exact Hr; econstructor; exact Hr. Qed.
Lemma jrun_possible {T RA RB} (pa : proc T RA) ta (pb : proc T RB) tb pa1 ta1 pb1 tb1 : jrun pa ta pb tb pa1 ta1 pb1 tb1 ->
  (forall r, possible pa1 r -> possible pa r) /\ (forall r, possible pb1 r -> possible pb r).
Proof.
  intro H. induction H as [|pa ta pb tb pa1 ta1 pb1 tb1 pa2 ta2 pb2 tb2 H1 H2 [IHa IHb]]; [auto|].
  destruct (hand_possible _ _ _ _ _ _ _ _ H1) as [Ha Hb]. auto.
Qed.
Lemma meet_possible {T A B} fa fb (post : A -> B -> Prop) (pa : proc T A) (pb : proc T B) : meet fa fb post pa pb ->
  meet fa fb (fun a b => post a b /\ possible pa a /\ possible pb b) pa pb.
Proof.
  intros H ta tb. destruct (H ta tb) as [(a & b & ta' & tb' & J & X) | [X | X]]; [|auto|auto].
  left. exists a, b, ta', tb'. split; [exact J|]. split; [exact X|]. apply jrun_possible in J. destruct J as [Ja Jb].
  split; [apply Ja|apply Jb]; constructor.
Qed.

Section Levels.
  Variable S : scalar.
  Hypothesis L : scalar_laws S.
  Variable E : setting.
  Hypothesis G : good_setting S E.
  Hypothesis Hsec : secure S E.
  Hypothesis Hsize : 1 <= s_size S.
  Notation P := (e_parameters E).
  Notation sd i := (znth 0 (p_seed_size P) i).

  Section Solo.
    Variable M : machine S.
    Hypothesis GM : good_machine S M.

    (** What a successful call of the sender does to the generator. *)
    Definition starts (st : vole S) (c : call S) : option Z :=
      match c with Precompute n _ => Some n | Run n => if s_done (v_s st) then None else Some n end.
    Lemma sender_rows seed c st st' x : VoleHistory.inv S E st -> CostProofs.coh E seed (v_mpfss st) -> possible (as_sender S E M c st) (st', Ok x) ->
      s_done (v_s st') = true /\
      match starts st c with
      | Some n => forall j, final_level E n j -> v_rows st' = level_seed E j
      | None => v_rows st' = v_rows st
      end.
    Proof.
      intros [Hb HL] Hs H.
      assert (Hpre : forall n st1 y, possible (precompute_sender S E M n st) (st1, Ok y) ->
                ready_s S E n st st1 /\ forall j, final_level E n j -> v_rows st1 = level_seed E j).
      { intros n st1 y Ha. pose proof Ha as Ha'. apply (precompute_sender_solo S E G M GM) in Ha'; auto. destruct Ha' as [_ Hr]. split; [exact Hr|].
        apply possible_does in Ha. destruct Ha as [l Ha]. eapply (precompute_sender_does S E G M GM) in Ha; [|exact Hb|exact Hs|exact Hsize].
        destruct Ha as (k & _ & Hk & _ & _ & [Hl _] & _). intros j Hj. rewrite (final_level_unique _ _ _ _ Hj Hk).
        destruct Hr as (_ & _ & _ & _ & _ & _ & i & (_ & E1 & _) & _ & E2 & _). destruct Hl as (_ & E3 & _). unfold level_seed. congruence. }
      destruct c as [n d|n]; unfold as_sender in H; apply possible_bind in H; destruct H as ([st1 y] & Ha & Hb'); apply possible_ret_inv in Hb';
        destruct y as [y|e|w0]; try discriminate; injection Hb' as -> ->; cbn [starts].
      - apply Hpre in Ha. destruct Ha as [Hr Hj]. split; [apply Hr|exact Hj].
      - destruct (s_done (v_s st)) eqn:Hd.
        + apply (run_sender_solo S E G M GM) in Ha; auto. cbv beta iota in Ha. rewrite Hd in Ha. destruct Ha as (_ & (_ & A1 & _) & _ & A2 & _). split; congruence.
        + unfold run_sender in Ha. rewrite bind_get, Hd in Ha.
          unfold mbind in Ha. apply possible_bind in Ha. destruct Ha as ([sy z] & Ha & Hb'). destruct z as [z|e|w0]; [|apply possible_ret_inv in Hb'; discriminate..].
          apply Hpre in Ha. destruct Ha as [(R1 & _ & R3 & _ & R4 & _) Hj]. apply (run_sender_done S E M n sy R1 R3) in Hb'. destruct Hb' as (_ & (_ & A1 & _) & _ & A2 & _).
          split; [congruence|]. intros j Hf. rewrite A1. auto.
    Qed.
  End Solo.

  Definition sound seed (a b : vole S) : Prop := Inv S E seed a b /\ VoleHistory.inv S E a /\ VoleHistory.inv S E b.

  Section Call.
    Variable MA MB : machine S.
    Hypothesis GA : good_machine S MA.
    Hypothesis GB : good_machine S MB.
    Hypothesis HC : connected MA MB.

    Lemma call_levels seed c a b : sound seed a b ->
      match c with Precompute n _ => 1 <= n | Run n => 1 <= n /\ (s_done (v_s a) = true -> fit S a b) end ->
      pair_ok ([insertion_failed], alone_ub) ([], []) rng_ub (fun a' x b' y => sound seed a' b' /\ agree_on S c (Ok x) (Ok y) /\ fit S a' b' /\ v_r a' = v_r a /\ v_s b' = v_s b /\
          s_done (v_s a') = true /\ match starts a c with Some n => forall j, final_level E n j -> v_rows a' = level_seed E j | None => v_rows a' = v_rows a end)
        (fun _ _ => False) (as_sender S E MA c a) (as_receiver S E MB c b).
    Proof.
      intros (HI & Ia & Ib) Hf.
      pose proof (call_meet S L E G seed MA MB GA GB HC true) as HM. specialize (HM (fun _ => Hsec)). specialize (HM c a b HI (fun _ => Hf)). apply meet_possible in HM.
      eapply meet_weaken; [exact HM|auto|auto|].
      intros [a' [x|e|w]] [b' [y|e'|w']] [T [Pa Pb]]; cbn in T; cbn; try contradiction; [|destruct T as [_ [T _]]; discriminate|exact T].
      destruct T as (H1 & H2 & H3). pose proof Pa as Ra. apply (sender_call S E G MA GA) in Pa; [|auto|discriminate]. destruct Pa as (Ia' & Va & _).
      apply (receiver_call S E G MB GB) in Pb; [|auto|discriminate]. destruct Pb as (Ib' & Vb & _).
      split; [split; auto|]. split; [exact H2|]. split; [now apply H3|]. split; [exact Va|]. split; [exact Vb|].
      eapply (sender_rows MA GA seed); [exact Ia| |exact Ra]. apply HI.
    Qed.
  End Call.

  (** ** Sessions *)
  Section Session.
    Variable MA MB : machine S.
    Hypothesis GA : good_machine S MA.
    Hypothesis GB : good_machine S MB.
    Hypothesis HC : connected MA MB.
    Variable go_on : status -> bool.
    Hypothesis Hgo : go_on insertion_failed = false.

    Notation lone_s := ([insertion_failed], alone_ub).
    Notation lone_r := (@nil status, @nil string).

    (** The sender of direction [s] and its receiver. *)
    Definition from (s : bool) (a b : vole S) : vole S := if s then a else b.
    Definition done (s : bool) (a b : vole S) : bool := s_done (v_s (from s a b)).
    Definition seeds (s : bool) (a b : vole S) : Z := zlen (rr_w (r_vole_seed (v_r (from (negb s) a b)))).
    Definition covers (a : vole S) : Prop := zlen (v_columns a) = v_batch_size a + v_vole_seed_size a + v_mpfss_seed_size a.
    Definition levelled (at_level : bool -> option Z) (now : Z) (a b : vole S) : Prop :=
      forall s, match at_level s with
                | None => done s a b = false
                | Some i => done s a b = true /\ seeds s a b = level_seed E i /\ v_rows a = level_seed E now /\ covers a
                end.
    Definition good_call (s : bool) (c : call S) (a b : vole S) : Prop :=
      match c with
      | Precompute n _ => 1 <= n
      | Run n => 1 <= n /\ (done s a b = true -> seeds s a b = v_rows a /\ covers a)
      end.

    Lemma any_call_levels seed (s : bool) c a b : sound seed a b -> good_call s c a b ->
      pair_ok (if s then lone_s else lone_r) (if s then lone_r else lone_s) rng_ub
        (fun a' x b' y => sound seed a' b' /\ (if s then agree_on S c (Ok x) (Ok y) else agree_on S c (Ok y) (Ok x)) /\
          done (negb s) a' b' = done (negb s) a b /\ seeds (negb s) a' b' = seeds (negb s) a b /\
          done s a' b' = true /\ seeds s a' b' = v_rows a' /\ covers a' /\
          match starts (from s a b) c with Some n => forall j, final_level E n j -> v_rows a' = level_seed E j | None => v_rows a' = v_rows a end) (fun _ _ => False)
        ((if s then as_sender S E else as_receiver S E) MA c a) ((if negb s then as_sender S E else as_receiver S E) MB c b).
    Proof.
      intros HS Hf. pose proof HS as ((Hsame & _) & _). destruct s; cbn [negb].
      - eapply pair_weaken; [apply (call_levels MA MB GA GB HC seed c a b HS)| |auto].
        + destruct c as [n d|n]; cbn in *; [exact Hf|]. destruct Hf as [H1 H2]. split; [exact H1|]. intro Hd. destruct (H2 Hd). split; auto.
        + intros a' x b' y (H1 & H2 & [H3 H3'] & H4 & H5 & H6 & H7). unfold done, seeds, from; cbn [negb]. rewrite H4, H5. repeat (split; [auto; fail|]). exact H7.
      - apply pair_swap. assert (HC' : connected MB MA) by (destruct HC as (H1 & H2 & H3); repeat split; auto).
        assert (HS' : sound seed b a) by (destruct HS as (A & B & C); split; [now apply Inv_sym|auto]).
        eapply pair_weaken; [apply (call_levels MB MA GB GA HC' seed c b a HS')| |auto].
        + destruct Hsame. destruct c as [n d|n]; cbn in *; [exact Hf|]. destruct Hf as [H1 H2]. split; [exact H1|]. intro Hd. destruct (H2 Hd) as [H3 H4].
          split; [unfold seeds, from in H3; cbn in H3; congruence|]. unfold covers in H4. congruence.
        + intros b' x a' y ((HI & I1 & I2) & H2 & [H3 H3'] & H4 & H5 & H6 & H7). unfold done, seeds, from; cbn [negb].
          pose proof HI as ([] & _). destruct Hsame. rewrite H4, H5. split; [split; [now apply Inv_sym|auto]|]. split; [auto|]. split; [auto|]. split; [auto|]. split; [auto|].
          split; [congruence|]. split; [unfold covers; congruence|].
          destruct (starts b c); [intros j Hj; rewrite <- (H7 j Hj); congruence|congruence].
    Qed.

    Lemma calls_levels seed l : forall at_level now a b, sound seed a b -> levelled at_level now a b -> roles_fit E at_level now l ->
      meet (sender_fails l) (sender_fails (opposite S l)) (fun la lb => agree S go_on l la lb /\ no_errors la /\ no_errors lb)
        (calls S E MA go_on l a) (calls S E MB go_on (opposite S l) b).
    Proof.
      induction l as [|[s c] l IH]; intros at_level now a b HS Hlv Ho; cbn [calls opposite map].
      { apply meet_ret. repeat constructor. }
      assert (Hf : good_call s c a b /\ forall a' b', done (negb s) a' b' = done (negb s) a b -> seeds (negb s) a' b' = seeds (negb s) a b ->
          done s a' b' = true -> seeds s a' b' = v_rows a' -> covers a' ->
          match starts (from s a b) c with Some n => forall j, final_level E n j -> v_rows a' = level_seed E j | None => v_rows a' = v_rows a end ->
          exists at_level' now', levelled at_level' now' a' b' /\ roles_fit E at_level' now' l).
      { assert (Hset : forall n, (exists j, final_level E n j /\ roles_fit E (set_level at_level s j) j l) -> forall a' b', done (negb s) a' b' = done (negb s) a b -> seeds (negb s) a' b' = seeds (negb s) a b ->
          done s a' b' = true -> seeds s a' b' = v_rows a' -> covers a' -> (forall j, final_level E n j -> v_rows a' = level_seed E j) ->
          exists at_level' now', levelled at_level' now' a' b' /\ roles_fit E at_level' now' l).
        { intros n (j & Hj & Hr) a' b' D1 D2 D3 D4 D5 D6. exists (set_level at_level s j), j. split; [|exact Hr].
          specialize (D6 j Hj). intro s'. unfold set_level. destruct (Bool.eqb s' s) eqn:Es.
          - apply Bool.eqb_prop in Es. subst s'. split; [auto|]. split; [congruence|]. split; auto.
          - assert (Hn : s' = negb s) by (destruct s, s'; cbn in *; congruence). subst s'. specialize (Hlv (negb s)). destruct (at_level (negb s)) as [i|].
            + destruct Hlv as (K1 & K2 & K3 & K4). split; [congruence|]. split; [congruence|]. split; auto.
            + congruence. }
        destruct c as [n d|n]; cbn [roles_fit] in Ho; destruct Ho as [Hn Ho].
        - split; [exact Hn|]. cbn [starts]. eauto.
        - pose proof (Hlv s) as Hls. destruct (at_level s) as [i|] eqn:Ei.
          + destruct Hls as (K1 & K2 & K3 & K4). destruct Ho as [Heq Ho]. split; [split; [exact Hn|]; intros _; split; [congruence|exact K4]|].
            cbn [starts]. unfold done in K1. rewrite K1. intros a' b' D1 D2 D3 D4 D5 D6. exists at_level, now. split; [|exact Ho].
            intro s'. destruct (Bool.eqb s' s) eqn:Es.
            * apply Bool.eqb_prop in Es. subst s'. rewrite Ei. split; [auto|]. split; [congruence|]. split; [congruence|auto].
            * assert (Hne : s' = negb s) by (destruct s, s'; cbn in *; congruence). subst s'. specialize (Hlv (negb s)). destruct (at_level (negb s)) as [i'|]; [|congruence].
              destruct Hlv as (K1' & K2' & K3' & K4'). split; [congruence|]. split; [congruence|]. split; [congruence|auto].
          + split; [split; [exact Hn|congruence]|]. cbn [starts]. unfold done in Hls. rewrite Hls. eauto. }
      destruct Hf as [Hf Hol].
      eapply meet_bind; [apply any_call_levels; [exact HS|exact Hf]| | |].
      - intros [a' [x|e|w]] [b' [y|e'|w']] T; cbn in T; try tauto.
        + destruct T as (HS' & Hag & D1 & D2 & D3 & D4 & D5 & D6). destruct (Hol a' b' D1 D2 D3 D4 D5 D6) as (at_level' & now' & Hlv' & Ho').
          eapply meet_bind; [apply (IH at_level' now'); eauto| | |].
          * intros ra rb (H1 & H2 & H3). apply meet_ret. split; [now constructor|]. split; constructor; auto.
          * intros ra H. eexists. split; [reflexivity|]. now apply sender_fails_next.
          * intros ra H. eexists. split; [reflexivity|]. now apply sender_fails_next.
        + destruct T as [<- T]. apply meet_ret. split; [apply agree_stop; [|reflexivity]|split; (apply Forall_cons; [exact T|apply Forall_nil])].
          assert (Hw : In w local_ub) by (apply in_or_app; auto). destruct s; exact (conj eq_refl Hw).
      - intros [a' [x|e|w]] T; destruct s; cbn in T; try tauto.
        + destruct T as [<-|[]]. rewrite Hgo. eexists. split; [reflexivity|]. exists [], c, l, [], (Err insertion_failed). repeat split; auto.
        + eexists. split; [reflexivity|]. exists [], c, l, [], (UB w). repeat split; eauto.
      - intros [a' [x|e|w]] T; destruct s; cbn in T; try tauto.
        + destruct T as [<-|[]]. rewrite Hgo. eexists. split; [reflexivity|]. exists [], c, (opposite S l), [], (Err insertion_failed). repeat split; auto.
        + eexists. split; [reflexivity|]. exists [], c, (opposite S l), [], (UB w). repeat split; eauto.
    Qed.

    Lemma party_levels l now : roles_fit E (fun _ => None) now l ->
      meet (fun r => exists rs, r = Ok rs /\ sender_fails l rs) (fun r => exists rs, r = Ok rs /\ sender_fails (opposite S l) rs)
        (fun ra rb => exists la lb, ra = Ok la /\ rb = Ok lb /\ agree S go_on l la lb /\ no_errors la /\ no_errors lb)
        (party S E MA go_on l) (party S E MB go_on (opposite S l)).
    Proof.
      intro Ho. unfold party, pbindr.
      eapply (meet_bind S (fun _ => False) (fun _ => False)
        _ _ (fun x y => exists seed a b, x = Ok a /\ y = Ok b /\ sound seed a b /\ levelled (fun _ => None) now a b)); [| |contradiction|contradiction].
      - intros ta tb. left. destruct (create_jrun S MA MB HC ta tb) as (seed & ta' & tb' & J). eexists _, _, _, _. split; [exact J|].
        exists seed. eexists _, _. split; [reflexivity|]. split; [reflexivity|]. pose proof (jrun_possible _ _ _ _ _ _ _ _ J) as [Ja Jb].
        split; [split; [apply new_Inv|split; [apply (created_ok S E MA), Ja|apply (created_ok S E MB), Jb]; constructor]|]. intros [|]; reflexivity.
      - intros x y (seed & a & b & -> & -> & HI & Hin). eapply meet_bind; [apply (calls_levels seed _ (fun _ => None) now); [exact HI|exact Hin|exact Ho]| | |].
        + intros ra rb Hr. apply meet_ret. eauto 10.
        + intros ra Hr. eexists. split; [reflexivity|]. exists ra. auto.
        + intros ra Hr. eexists. split; [reflexivity|]. exists ra. auto.
    Qed.

    Lemma levels_end l now ta tb : roles_fit E (fun _ => None) now l ->
      exists n c, steps n (start (party S E MA go_on l) ta (party S E MB go_on (opposite S l)) tb) c /\ stuck c /\ good_end S go_on l c.
    Proof.
      intro Ho. destruct (party_levels l now Ho ta tb)
        as [(a & b & ta' & tb' & [n J]%jrun_steps & la & lb & -> & -> & Hag) | [(a & q & ta' & tb' & [n J]%jrun_steps & W & la & -> & Hb) | (q & b & ta' & tb' & [n J]%jrun_steps & W & lb & -> & Hb)]];
        eexists n, _; (split; [exact J|]); (split; [first [apply finished_stuck | now apply waiting_stuck | now apply waiting_stuck']|]);
        (split; [reflexivity|]); (split; [reflexivity|]); cbn.
      - left. eauto 10.
      - right; left. eauto.
      - right; right. eauto.
    Qed.

    Lemma levels_session l now ta tb : roles_fit E (fun _ => None) now l ->
      exists n, forall m d, steps m (start (party S E MA go_on l) ta (party S E MB go_on (opposite S l)) tb) d ->
        (m <= n)%nat /\ (stuck d -> good_end S go_on l d).
    Proof.
      intro Ho. destruct (levels_end l now ta tb Ho) as (n & c & Hc & Hs & He). exists n. intros m d Hd.
      destruct (schedule_independence _ _ _ _ _ _ _ _ _ Hc Hs m d Hd) as (H1 & _ & H2). split; [exact H1|].
      intro H. destruct (H2 H) as [_ ->]. exact He.
    Qed.
  End Session.
End Levels.

(** ** Sessions that fit *)
Lemma final_level_exists E b : 1 <= level_count E -> exists j, final_level E b j.
Proof.
  intro Hc. assert (H : forall n i, Z.to_nat (level_count E - 1 - i) = n -> 0 <= i < level_count E ->
    (forall k, 0 <= k < i -> level_output E k < b + level_buckets E k + level_seed E k) -> exists j, final_level E b j).
  { induction n as [|n IH]; intros i Hn Hi Hk.
    - exists i. split; [exact Hi|]. split; [exact Hk|]. left. lia.
    - destruct (Z.le_gt_cases (b + level_buckets E i + level_seed E i) (level_output E i)) as [H|H].
      + exists i. split; [exact Hi|]. split; [exact Hk|]. now right.
      + apply (IH (i + 1)); [lia|lia|]. intros k Hkk. destruct (Z.eq_dec k i) as [->|]; [exact H|apply Hk; lia]. }
  apply (H _ 0 eq_refl); [lia|]. intros; lia.
Qed.

Lemma orderly_fits (S : scalar) E (l : list (bool * call S)) : 1 <= level_count E -> orderly None l -> roles_fit E (fun _ => None) 0 l.
Proof.
  intros Hc Ho.
  assert (H : forall before at_level now, match before with None => forall s, at_level s = None | Some s => at_level s = Some now end -> orderly before l -> roles_fit E at_level now l).
  { clear Ho. induction l as [|[s [n d|n]] l IH]; intros before at_level now Hb Ho; cbn [orderly roles_fit] in *; [exact I| |].
    - destruct Ho as [Hn Ho]. split; [exact Hn|]. destruct (final_level_exists E n Hc) as [j Hj]. exists j. split; [exact Hj|].
      apply (IH (Some s)); [|exact Ho]. unfold set_level. now rewrite Bool.eqb_reflx.
    - destruct Ho as (Hn & [->| ->] & Ho); (split; [exact Hn|]).
      + rewrite Hb. destruct (final_level_exists E n Hc) as [j Hj]. exists j. split; [exact Hj|].
        apply (IH (Some s)); [|exact Ho]. unfold set_level. now rewrite Bool.eqb_reflx.
      + rewrite Hb. split; [reflexivity|]. apply (IH (Some s)); auto. }
  apply (H None); [reflexivity|exact Ho].
Qed.

Lemma same_level_fits (S : scalar) E j (l : list (bool * call S)) :
  Forall (fun '(_, c) => match c with Precompute n _ | Run n => 1 <= n /\ final_level E n j end) l -> roles_fit E (fun _ => None) j l.
Proof.
  assert (H : forall at_level, (forall s i, at_level s = Some i -> i = j) ->
    Forall (fun '(_, c) => match c with Precompute n _ | Run n => 1 <= n /\ final_level E n j end) l -> roles_fit E at_level j l); [|now apply H].
  induction l as [|[s c] l IH]; intros at_level Ha HF; cbn [roles_fit]; [exact I|]. inversion HF as [|? ? H1 H2]; subst.
  assert (Hs : forall s' i, set_level at_level s j s' = Some i -> i = j) by (intros s' i; unfold set_level; destruct (Bool.eqb s' s); [congruence|apply Ha]).
  destruct c as [n d|n]; destruct H1 as [H0 H1]; (split; [exact H0|]).
  - exists j. auto.
  - destruct (at_level s) as [i|] eqn:Ei; [rewrite (Ha s i Ei); auto|]. exists j. auto.
Qed.

Lemma scalar_size_pos t : stype_ok t -> 1 <= s_size (scalar_of t).
Proof. intro H. apply (scalar_facts t H). Qed.

Lemma same_level_session t (Ht : stype_ok t) : let S := scalar_of t in forall E, good_setting S E -> secure S E ->
  forall MA MB : machine S, good_machine S MA -> good_machine S MB -> connected MA MB ->
  forall go_on, go_on insertion_failed = false -> forall j l ta tb,
  Forall (fun '(_, c) => match c with Precompute n _ | Run n => 1 <= n /\ final_level E n j end) l ->
  exists n, forall m d, steps m (start (party S E MA go_on l) ta (party S E MB go_on (opposite S l)) tb) d ->
    (m <= n)%nat /\ (stuck d -> good_end S go_on l d).
Proof.
  intros S E G Hs MA MB GA GB HC go_on Hgo j l ta tb HF.
  apply (levels_session S (scalar_of_laws t Ht) E G Hs (scalar_size_pos t Ht) MA MB GA GB HC go_on Hgo l j). now apply same_level_fits.
Qed.
