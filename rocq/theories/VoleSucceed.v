(** Two parties with orderly calls: no errors other than the sender's. *)
From Verif Require Import Base BaseFacts ListFacts ScalarModel ScalarSpec ScalarProofs ScalarFinal ProcModel ProcSpec ProcProofs MeetProofs
  RotModel MpfssModel VoleModel VoleSpec VoleProofs VoleMeet VolePair VoleFinal.
From Coq Require Import QArith Permutation.
Local Open Scope Z_scope.

Section Orderly.
  Variable S : scalar.
  Hypothesis L : scalar_laws S.
  Variable E : setting.
  Hypothesis G : good_setting S E.
  Hypothesis Hsec : secure S E.
  Variable MA MB : machine S.
  Hypothesis GA : good_machine S MA.
  Hypothesis GB : good_machine S MB.
  Hypothesis HC : connected MA MB.
  Variable go_on : status -> bool.
  Hypothesis Hgo : go_on insertion_failed = false.

  Notation lone_s := ([insertion_failed], alone_ub).
  Notation lone_r := (@nil status, @nil string).
  Definition in_step (before : option bool) (a b : vole S) : Prop :=
    match before with
    | None => s_done (v_s a) = false /\ s_done (v_s b) = false
    | Some true => fit S a b
    | Some false => fit S b a
    end.
  Definition fine (s : bool) (c : call S) (a b : vole S) : Prop :=
    match c with
    | Precompute n _ => 1 <= n
    | Run n => 1 <= n /\ (if s then s_done (v_s a) = true -> fit S a b else s_done (v_s b) = true -> fit S b a)
    end.

  Lemma any_call_succeeds seed (s : bool) c a b : Inv S E seed a b -> fine s c a b ->
    pair_ok (if s then lone_s else lone_r) (if s then lone_r else lone_s) rng_ub
      (fun a' x b' y => Inv S E seed a' b' /\ (if s then agree_on S c (Ok x) (Ok y) else agree_on S c (Ok y) (Ok x)) /\ in_step (Some s) a' b') (fun _ _ => False)
      ((if s then as_sender S E else as_receiver S E) MA c a) ((if negb s then as_sender S E else as_receiver S E) MB c b).
  Proof.
    intros HI Hf. destruct s; cbn [negb].
    - eapply pair_weaken; [apply (call_meet S L E G seed MA MB GA GB HC true)| |]; auto.
      + intros a' x b' y (H1 & H2 & H3). split; [auto|]. split; [auto|]. now apply H3.
      + intros a' b' [H _]. discriminate.
    - apply pair_swap. eapply pair_weaken; [apply (call_meet S L E G seed MB MA GB GA) with (strict := true)| |]; auto.
      + destruct HC as (H1 & H2 & H3). repeat split; auto.
      + now apply Inv_sym.
      + intros a' x b' y (H1 & H2 & H3). split; [now apply Inv_sym|]. split; [auto|]. now apply H3.
      + intros a' b' [H _]. discriminate.
  Qed.

  Lemma sender_fails_next s c l r rs : sender_fails l rs -> sender_fails ((s, c) :: l) (Ok r :: rs : list (res (answer S))).
  Proof.
    intros (l1 & c1 & l2 & rs1 & r1 & -> & -> & H1 & H2 & H3). exists ((s, c) :: l1), c1, l2, (Ok r :: rs1), r1.
    split; [reflexivity|]. split; [reflexivity|]. rewrite !zlen_cons. split; [lia|]. split; [constructor; eauto|auto].
  Qed.

  Lemma calls_succeed seed l : forall before a b, Inv S E seed a b -> in_step before a b -> orderly before l ->
    meet (sender_fails l) (sender_fails (opposite S l)) (fun la lb => agree S go_on l la lb /\ no_errors la /\ no_errors lb)
      (calls S E MA go_on l a) (calls S E MB go_on (opposite S l) b).
  Proof.
    induction l as [|[s c] l IH]; intros before a b HI Hin Ho; cbn [calls opposite map].
    { apply meet_ret. repeat constructor. }
    assert (Hf : fine s c a b /\ orderly (Some s) l).
    { destruct c as [n d|n]; cbn in Ho; [tauto|]. destruct Ho as (H1 & H2 & H3). split; [|auto]. cbn. split; [auto|].
      destruct H2 as [-> | ->]; cbn in Hin; [destruct Hin as [D1 D2]; rewrite D1, D2; destruct s; discriminate|]. destruct s; auto. }
    destruct Hf as [Hf Hol].
    eapply meet_bind; [apply any_call_succeeds; [exact HI|exact Hf]| | |].
    - intros [a' [x|e|w]] [b' [y|e'|w']] T; cbn in T; try tauto.
      + destruct T as (HI' & Hag & Hin'). eapply meet_bind; [apply (IH (Some s)); eauto| | |].
        * intros ra rb (H1 & H2 & H3). apply meet_ret. split; [now constructor|]. split; constructor; auto.
        * intros ra H. eexists. split; [reflexivity|]. now apply sender_fails_next.
        * intros ra H. eexists. split; [reflexivity|]. now apply sender_fails_next.
      + destruct T as [<- T]. apply meet_ret. split; [apply agree_stop; [|reflexivity]|split; (apply Forall_cons; [exact T|apply Forall_nil])].
        assert (Hw : In w local_ub) by (apply in_or_app; auto). destruct s; exact (conj eq_refl Hw).
    - intros [a' [x|e|w]] T; destruct s; cbn in T; try tauto.
      + destruct T as [<-|[]]. rewrite Hgo. eexists. split; [reflexivity|]. exists [], c, l, [], (Err insertion_failed). repeat split; auto.
      + eexists. split; [reflexivity|]. exists [], c, l, [], (UB w). repeat split; eauto.
    - intros [a' [x|e|w]] T; destruct s; cbn in T; try tauto.
      + destruct T as [<-|[]]. rewrite Hgo. eexists. split; [reflexivity|]. exists [], c, (opposite S l), [], (Err insertion_failed). repeat split; auto.
      + eexists. split; [reflexivity|]. exists [], c, (opposite S l), [], (UB w). repeat split; eauto.
  Qed.

  Lemma party_succeeds l : orderly None l ->
    meet (fun r => exists rs, r = Ok rs /\ sender_fails l rs) (fun r => exists rs, r = Ok rs /\ sender_fails (opposite S l) rs)
      (fun ra rb => exists la lb, ra = Ok la /\ rb = Ok lb /\ agree S go_on l la lb /\ no_errors la /\ no_errors lb)
      (party S E MA go_on l) (party S E MB go_on (opposite S l)).
  Proof.
    intro Ho. unfold party, pbindr.
    eapply (meet_bind S (fun _ => False) (fun _ => False)
      _ _ (fun x y => exists seed a b, x = Ok a /\ y = Ok b /\ Inv S E seed a b /\ in_step None a b)); [| |contradiction|contradiction].
    - intros ta tb. left. destruct (create_jrun S MA MB HC ta tb) as (seed & ta' & tb' & J). eexists _, _, _, _. split; [exact J|].
      exists seed. eexists _, _. split; [reflexivity|]. split; [reflexivity|]. split; [apply new_Inv|]. split; reflexivity.
    - intros x y (seed & a & b & -> & -> & HI & Hin). eapply meet_bind; [apply (calls_succeed seed _ None); [exact HI|exact Hin|exact Ho]| | |].
      + intros ra rb Hr. apply meet_ret. eauto 10.
      + intros ra Hr. eexists. split; [reflexivity|]. exists ra. auto.
      + intros ra Hr. eexists. split; [reflexivity|]. exists ra. auto.
  Qed.

  Lemma waiting_stuck {RA RB} (a : RA) ta' (p : proc S RB) tb' : waits p -> stuck (start (Ret a) ta' p tb').
  Proof. clear. intros W c' H. inversion H; subst; [discriminate|]. destruct W as [[k ->] | (c & cs & k & ->)]; discriminate. Qed.
  Lemma waiting_stuck' {RA RB} (b : RB) ta' (p : proc S RA) tb' : waits p -> stuck (start p ta' (Ret b) tb').
  Proof. clear. intros W c' H. inversion H; subst; [|discriminate]. destruct W as [[k ->] | (c & cs & k & ->)]; discriminate. Qed.

  Lemma orderly_ends l ta tb : orderly None l ->
    exists n c, steps n (start (party S E MA go_on l) ta (party S E MB go_on (opposite S l)) tb) c /\ stuck c /\ good_end S go_on l c.
  Proof.
    intro Ho. destruct (party_succeeds l Ho ta tb)
      as [(a & b & ta' & tb' & [n J]%jrun_steps & la & lb & -> & -> & Hag) | [(a & q & ta' & tb' & [n J]%jrun_steps & W & la & -> & Hb) | (q & b & ta' & tb' & [n J]%jrun_steps & W & lb & -> & Hb)]];
      eexists n, _; (split; [exact J|]); (split; [first [apply finished_stuck | now apply waiting_stuck | now apply waiting_stuck']|]);
      (split; [reflexivity|]); (split; [reflexivity|]); cbn.
    - left. eauto 10.
    - right; left. eauto.
    - right; right. eauto.
  Qed.

  Lemma orderly_session l ta tb : orderly None l ->
    exists n, forall m d, steps m (start (party S E MA go_on l) ta (party S E MB go_on (opposite S l)) tb) d ->
      (m <= n)%nat /\ (stuck d -> good_end S go_on l d).
  Proof.
    intro Ho. destruct (orderly_ends l ta tb Ho) as (n & c & Hc & Hs & He). exists n. intros m d Hd.
    destruct (schedule_independence _ _ _ _ _ _ _ _ _ Hc Hs m d Hd) as (H1 & _ & H2). split; [exact H1|].
    intro H. destruct (H2 H) as [_ ->]. exact He.
  Qed.
End Orderly.

(** ** Scalar types that are secure *)
Lemma hashes_ntl p K : (0 < K)%Q -> (inject_Z (Zpos p) * K <= inject_Z (2^128))%Q -> can_hash_ntl (Npos p) (Some K) 128 = true.
Proof.
  intros HK H. apply can_hash_ntl_exact; [reflexivity|lia|]. change (128 <? 128) with false. cbv iota.
  eapply Qlt_le_trans; [|exact H]. apply Qmult_lt_compat_r; [exact HK|]. rewrite <- Zlt_Qlt.
  assert (2 ^ 128 mod N.pos p < N.pos p)%N by (apply N.mod_lt; discriminate). lia.
Qed.

Lemma hashes t K : stype_ok t -> s_size (scalar_of t) <= 16 -> (0 < K)%Q ->
  match t with ZZ_p p | zz_p p => (inject_Z (Zpos p) * K <= inject_Z (2^128))%Q | _ => True end ->
  s_can_hash (scalar_of t) (Some K) 128 = true.
Proof.
  intros Ht Hs HK H. destruct t; try reflexivity.
  - cbn [scalar_of s_can_hash ZZp_scalar]. cbv zeta. rewrite modulus_low_high.
    pose proof (order_le_128 (ZZ_p p) Ht Hs) as HO. cbn [ScalarSpec.order] in HO. destruct (N.eq_dec (Npos p) (2^128)) as [->|Ne]; [reflexivity|].
    rewrite N.mod_small by lia. change (Npos p =? 0)%N with false. now apply hashes_ntl.
  - cbn [scalar_of s_can_hash zzp_scalar]. now apply hashes_ntl.
Qed.

Lemma secure_types t E : stype_ok t -> s_size (scalar_of t) <= 16 -> (0 < e_K E)%Q -> 1 <= p_nonzeros (e_parameters E) ->
  match t with
  | ZZ_p p | zz_p p => (inject_Z (Zpos p) * (e_K E * 3 * inject_Z (Z.max (p_nonzeros (e_parameters E)) 6 * last (p_output_size (e_parameters E)) 0%Z)) <= inject_Z (2^128))%Q
  | _ => True
  end -> secure (scalar_of t) E.
Proof.
  intros Ht Hs HK Hz H n Hn. unfold security_per_leaf. replace (_ <? 0) with false by nia. replace (3 * n <? 0) with false by lia.
  set (z := p_nonzeros _) in *. set (top := last _ _) in *.
  assert (HK3 : (0 < e_K E * 3)%Q) by (rewrite <- (Qmult_0_l 3); apply Qmult_lt_compat_r; [reflexivity|exact HK]).
  assert (HP : forall m, 0 < m -> (0 < inject_Z m * (e_K E * 3))%Q).
  { intros m Hm. rewrite <- (Qmult_0_l (e_K E * 3)). apply Qmult_lt_compat_r; [exact HK3|]. change 0%Q with (inject_Z 0). now rewrite <- Zlt_Qlt. }
  assert (E2 : (inject_Z (3 * n) * (e_K E * 3 * 2) == inject_Z (6 * n) * (e_K E * 3))%Q) by (rewrite !inject_Z_mult; ring).
  assert (HB : forall m p X, 0 <= m <= Z.max z 6 * top -> (X == inject_Z m * (e_K E * 3))%Q ->
     (inject_Z (Zpos p) * (e_K E * 3 * inject_Z (Z.max z 6 * top)) <= inject_Z (2^128))%Q -> (inject_Z (Zpos p) * X <= inject_Z (2^128))%Q).
  { intros m p X Hm EX Hp. eapply Qle_trans; [|exact Hp]. rewrite EX. rewrite (Qmult_comm (e_K E * 3)).
    rewrite !(Qmult_comm (inject_Z (Zpos p))). apply Qmult_le_compat_r; [|discriminate].
    apply Qmult_le_compat_r; [|now apply Qlt_le_weak]. rewrite <- Zle_Qle. lia. }
  split; apply hashes; auto.
  - apply HP. nia.
  - destruct t; auto; apply (HB (z * n)); auto; try reflexivity; nia.
  - rewrite E2. apply HP. lia.
  - destruct t; auto; apply (HB (6 * n)); auto; nia.
Qed.
