(** Proofs about parties that divide the same request differently (C100). *)
From Verif Require Import Base BaseFacts ListFacts ScalarModel ScalarSpec ProcModel ProcSpec RotModel GilboaModel
  MpfssModel MpfssSpec VoleModel VoleSpec VoleProofs VoleMeet VolePair VoleSolo VoleHistory VoleSucceed UseSpec VoleUse PatternSpec PatternProofs CostSpec CostProofs VoleLevel SplitSpec SplitProofs DivideSpec.
From Coq Require Import QArith Permutation.
Local Open Scope Z_scope.

Lemma up_trans {T A B C} (R : A -> B -> Prop) (R' : B -> C -> Prop) (R2 : A -> C -> Prop) (p : proc T A) q (r : proc T C) :
  (forall a b c, R a b -> R' b c -> R2 a c) -> alike_up R p q -> alike_up R' q r -> alike_up R2 p r.
Proof. intros HR HH. revert r. induction HH; intros r0 HU; inversion HU; subst; constructor; eauto. Qed.
Lemma up_refl {T A} (p : proc T A) : alike_up eq p p.
Proof. induction p; constructor; auto. Qed.

(** ** Sessions of processes that are alike *)
Section Sim.
  Context {T : Type} {A A' B B' : Type} (RA : A -> A' -> Prop) (RB : B -> B' -> Prop).
  Lemma up_pstep {X Y} (R : X -> Y -> Prop) (p : proc T X) q t inq outq : alike_up R p q ->
    match pstep p t inq outq, pstep q t inq outq with
    | Some (p', t', i', o'), Some (q', t2, i2, o2) => alike_up R p' q' /\ t2 = t' /\ i2 = i' /\ o2 = o'
    | None, None => True
    | _, _ => False
    end.
  Proof. intros [a b H|m k k' H|k k' H|cot cs k k' H|k k' H]; cbn; auto; destruct inq; cbn; auto. Qed.
  Definition sim (c : config T A B) (d : config T A' B') : Prop :=
    alike_up RA (c_a c) (c_a d) /\ alike_up RB (c_b c) (c_b d) /\ c_ta c = c_ta d /\ c_tb c = c_tb d /\ c_ab c = c_ab d /\ c_ba c = c_ba d.
  Lemma sim_step c d c' : sim c d -> step c c' -> exists d', step d d' /\ sim c' d'.
  Proof.
    intros (HA & HB & Ht & Ht' & Hq & Hq') Hs. destruct d as [da dta db dtb dab dba]. destruct Hs as [pa ta pb tb ab ba pa' ta' ab' ba' Hp|pa ta pb tb ab ba pb' tb' ab' ba' Hp]; cbn in *; subst.
    - pose proof (up_pstep RA pa da dta dba dab HA) as H. rewrite Hp in H. destruct (pstep da dta dba dab) as [[[[q' t'] i'] o']|] eqn:Eq; [|contradiction]. destruct H as (H & -> & -> & ->).
      eexists. split; [apply step_a; exact Eq|]. unfold sim. cbn. auto 10.
    - pose proof (up_pstep RB pb db dtb dab dba HB) as H. rewrite Hp in H. destruct (pstep db dtb dab dba) as [[[[q' t'] i'] o']|] eqn:Eq; [|contradiction]. destruct H as (H & -> & -> & ->).
      eexists. split; [apply step_b; exact Eq|]. unfold sim. cbn. auto 10.
  Qed.
  Lemma sim_back c d d' : sim c d -> step d d' -> exists c', step c c'.
  Proof.
    intros (HA & HB & Ht & Ht' & Hq & Hq') Hs. destruct c as [ca cta cb ctb cab cba]. destruct Hs as [pa ta pb tb ab ba pa' ta' ab' ba' Hp|pa ta pb tb ab ba pb' tb' ab' ba' Hp]; cbn in *; subst.
    - pose proof (up_pstep RA ca pa ta ba ab HA) as H. rewrite Hp in H. destruct (pstep ca ta ba ab) as [[[[q' t'] i'] o']|] eqn:Eq; [|contradiction].
      eexists. apply step_a. exact Eq.
    - pose proof (up_pstep RB cb pb tb ab ba HB) as H. rewrite Hp in H. destruct (pstep cb tb ab ba) as [[[[q' t'] i'] o']|] eqn:Eq; [|contradiction].
      eexists. apply step_b. exact Eq.
  Qed.
  Lemma sim_steps n c c' : steps n c c' -> forall d, sim c d -> exists d', steps n d d' /\ sim c' d'.
  Proof.
    induction 1 as [c|n c c1 c2 H1 H IH]; intros d Hd; [exists d; split; [constructor|exact Hd]|].
    destruct (sim_step _ _ _ Hd H1) as (d1 & Hs & Hd1). destruct (IH _ Hd1) as (d2 & Hn & Hd2). exists d2. split; [econstructor; eassumption|exact Hd2].
  Qed.
  Lemma sim_stuck c d : sim c d -> stuck c -> stuck d.
  Proof. intros H Hs d' Hd. destruct (sim_back _ _ _ H Hd) as [c' Hc]. exact (Hs _ Hc). Qed.
  Lemma up_waiting {X Y} (R : X -> Y -> Prop) (p : proc T X) q : alike_up R p q -> waiting q -> waiting p.
  Proof. intros H [(k & ->)|(cot & cs & k & ->)]; inversion H; subst; [left|right]; eauto. Qed.
  Lemma up_done {X Y} (R : X -> Y -> Prop) (p : proc T X) b : alike_up R p (Ret b) -> exists a, p = Ret a /\ R a b.
  Proof. intro H. inversion H; subst. eauto. Qed.
End Sim.

Lemma left_over_expansions n c b : 1 <= b -> 0 <= n -> 0 <= c -> c + expansions n c b * b - n = left_over n c b.
Proof.
  intros Hb Hn Hc. unfold left_over, expansions, last_part. destruct (Z.leb_spec n c) as [H|H].
  - assert ((n - c + b - 1) / b <= 0) by (apply Z.lt_succ_r, Z.div_lt_upper_bound; lia). rewrite Z.max_l by lia. lia.
  - replace (n - c + b - 1) with (n - c - 1 + 1 * b) by lia. rewrite Z.div_add by lia. pose proof (Z.div_mod (n - c - 1) b ltac:(lia)) as E0.
    assert (0 <= (n - c - 1) / b) by (apply Z.div_pos; lia). rewrite Z.max_r by lia. nia.
Qed.

Section Divide.
  Context (S : scalar) (E : setting) (M : machine S).
  (** [rs]: the answers to Run calls of the sizes [ns]; [q]: the answer to one call. *)
  Definition gath (cache batch : Z) (ns : list Z) (rs : list (res (answer S))) (r : res (answer S)) : Prop :=
    match r with
    | Ok x => exists xs, rs = map Ok xs /\ gathered cache batch ns xs x
    | _ => exists xs, rs = map Ok xs ++ [r]
    end.
  Definition runs (sends : bool) (ns : list Z) : list (bool * call S) := map (fun n => (sends, Run n)) ns.

  Definition ready_s (st : vole S) : Prop := good_s S E st /\ s_done (v_s st) = true.
  Definition ready_r (st : vole S) : Prop := (exists d, good_r S E d st) /\ r_done (v_r st) = true.

  Lemma sender_keeps n st st1 r : ready_s st -> 0 <= n -> possible (as_sender S E M (Run n) st) (st1, Ok r) ->
    ready_s st1 /\ v_batch_size st1 = v_batch_size st /\ zlen (sr_u (sc S st1)) = left_over n (zlen (sr_u (sc S st))) (v_batch_size st) /\
    exists u v, r = Sender u v /\ zlen u = n /\ zlen v = n.
  Proof.
    intros [Hg Hd] Hn Hp. unfold as_sender in Hp. rewrite (run_is_loop S E M n st Hg Hd Hn) in Hp. apply VoleSolo.possible_bind in Hp. destruct Hp as ([s1 [x|e|w]] & Ha & Hx); inversion Hx; subst. clear Hx.
    pose proof Ha as Hb. apply loop_good in Ha; [|exact Hg|exact Hd|exact Hn|reflexivity]. split; [exact Ha|].
    destruct Hg as [[Hb1 HL] Hbt]. apply (run_sender_loop_solo S E M) in Hb; auto. cbv beta iota in Hb. destruct Hb as (_ & A2 & _ & _ & B1 & B2 & _ & k & _ & K1 & _ & _ & K2 & _).
    split; [apply A2|]. split; [|eauto]. rewrite (K1 Hbt) in K2. change (zlen (@nil S)) with 0 in K2. rewrite Z.sub_0_r in K2. rewrite <- left_over_expansions; [exact K2|exact Hbt|exact Hn|apply zlen_nonneg].
  Qed.
  Lemma receiver_keeps n st st1 r : ready_r st -> 0 <= n -> possible (as_receiver S E M (Run n) st) (st1, Ok r) ->
    ready_r st1 /\ v_batch_size st1 = v_batch_size st /\ zlen (rc S st1) = left_over n (zlen (rc S st)) (v_batch_size st) /\
    exists w d, r = Receiver w d /\ zlen w = n.
  Proof.
    intros [[d Hg] Hd] Hn Hp. unfold as_receiver in Hp. rewrite (run_is_rloop S E M d n st Hg Hd Hn) in Hp. apply VoleSolo.possible_bind in Hp. destruct Hp as ([s1 [x|e|w]] & Ha & Hx); inversion Hx; subst. clear Hx.
    pose proof Ha as Hb. apply rloop_good in Ha; [|exact Hg|exact Hd|exact Hn]. split; [destruct Ha; split; eauto|].
    destruct Hg as (Hb1 & Hbt & _). apply (run_receiver_loop_solo S E M) in Hb; auto. cbv beta iota in Hb. destruct Hb as ((_ & A2 & _ & _ & B1 & _ & k & _ & K1 & _ & K2) & _).
    split; [apply A2|]. split; [|eauto]. rewrite (K1 Hbt) in K2. change (zlen (@nil S)) with 0 in K2. rewrite Z.sub_0_r in K2. rewrite <- left_over_expansions; [exact K2|exact Hbt|exact Hn|apply zlen_nonneg].
  Qed.
  Lemma total_nonneg ns : Forall (fun n => 0 <= n) ns -> 0 <= total ns.
  Proof. induction 1 as [|n l Hn H IH]; [reflexivity|change (0 <= n + total l); lia]. Qed.

  Lemma sender_first c b ns n (u1 v1 u2 v2 : list S) x xs st st' : zlen u1 = n -> zlen v1 = n -> gathered (left_over n c b) b ns xs (Sender u2 v2) -> joined (Sender u1 v1) (Sender u2 v2) x ->
    in_order (last_part n c b) (Z.min (total ns) (left_over n c b)) (st, Ok (Sender u1 v1, Sender u2 v2)) (st', Ok x) -> gathered c b (n :: ns) (Sender u1 v1 :: xs) x.
  Proof.
    intros H1 H2 (l & -> & HF & L2 & HP & HA & HB) HJ HO. destruct x as [|u v|w d]; try contradiction. destruct HJ as (J1 & J2 & J3 & J4). cbn in HO. destruct HO as [O1 O2].
    exists ((u1, v1) :: l). split; [reflexivity|]. split; [constructor; auto|]. split; [exact J3|]. split; [cbn; rewrite J4; now apply Permutation_app_head|].
    cbn [map fst snd arrange]. rewrite <- HA, <- HB. auto.
  Qed.
  Lemma receiver_first c b ns n (w1 : list S) d1 w2 d2 x xs st st' : zlen w1 = n -> gathered (left_over n c b) b ns xs (Receiver w2 d2) -> joined (Receiver w1 d1) (Receiver w2 d2) x ->
    in_order (last_part n c b) (Z.min (total ns) (left_over n c b)) (st, Ok (Receiver w1 d1, Receiver w2 d2)) (st', Ok x) -> gathered c b (n :: ns) (Receiver w1 d1 :: xs) x.
  Proof.
    intros H1 (l & -> & HF & HP & HA) HJ HO. destruct x as [|u v|w d]; try contradiction. destruct HJ as (-> & -> & J4). cbn in HO.
    exists (w1 :: l). split; [reflexivity|]. split; [constructor; auto|]. split; [cbn; rewrite J4; now apply Permutation_app_head|]. cbn [arrange]. rewrite <- HA. exact HO.
  Qed.

  Lemma divide_sender ns : Forall (fun n => 0 <= n) ns -> forall st, ready_s st ->
    alike_up (fun rs q => gath (zlen (sr_u (sc S st))) (v_batch_size st) ns rs (snd q)) (calls S E M stop (runs true ns) st) (as_sender S E M (Run (total ns)) st).
  Proof.
    induction 1 as [|n ns Hn HF IH]; intros st Hr.
    - change (total []) with 0. unfold as_sender. cbn [runs map calls]. destruct Hr as [Hg Hd]. rewrite (run_is_loop S E M 0 st Hg Hd) by lia. rewrite run_sender_loop_done by (change (zlen (@nil S)) with 0; lia). cbn. constructor. exists []. split; [reflexivity|]. exists [].
      repeat split; constructor.
    - eapply up_trans; [|shelve|destruct Hr as [Hg Hd]; apply (split_sender_order S E M n (total ns) st Hg Hd Hn (total_nonneg _ HF))]. Unshelve. 2:{
        exact (fun rs q => match snd q with
          | Ok (x1, x2) => exists xs u1 v1, rs = Ok x1 :: map Ok xs /\ x1 = Sender u1 v1 /\ zlen u1 = n /\ zlen v1 = n /\ gathered (left_over n (zlen (sr_u (sc S st))) (v_batch_size st)) (v_batch_size st) ns xs x2
          | Err e => exists xs, rs = map Ok xs ++ [Err e] | UB w => exists xs, rs = map Ok xs ++ [UB w] end). }
      2:{ cbn [runs map calls]. unfold both. apply up_bind. intros [st1 [x1|e|w]] Hp; cbn [stop]; [|constructor; exists []; reflexivity..].
          apply sender_keeps in Hp; [|exact Hr|exact Hn]. destruct Hp as (Hr1 & Hbe & Hce & u1 & v1 & -> & L1 & L2). eapply up_binds; [apply IH; exact Hr1|]. rewrite Hbe, Hce.
          intros rs [st2 [x2|e|w]] Hx; constructor; cbn in *.
          - destruct Hx as (xs & -> & Hx). exists xs, u1, v1. auto.
          - destruct Hx as (xs & ->). exists (Sender u1 v1 :: xs). reflexivity.
          - destruct Hx as (xs & ->). exists (Sender u1 v1 :: xs). reflexivity. }
      intros rs [s1 [[x1 x2]|e|w]] [s2 [y|e'|w']] HA [[HB1 HB2] HB3]; cbn [snd fst] in *; try contradiction.
      + destruct HA as (xs & u1 & v1 & -> & -> & L1 & L2 & HG). exists (Sender u1 v1 :: xs). split; [reflexivity|].
        destruct x2 as [|u2 v2|w2 d2]; try contradiction. now apply (sender_first _ _ ns n u1 v1 u2 v2 y xs s1 s2).
      + subst. exact HA.
      + subst. exact HA.
  Qed.
  Lemma divide_receiver ns : Forall (fun n => 0 <= n) ns -> forall st, ready_r st ->
    alike_up (fun rs q => gath (zlen (rc S st)) (v_batch_size st) ns rs (snd q)) (calls S E M stop (runs false ns) st) (as_receiver S E M (Run (total ns)) st).
  Proof.
    induction 1 as [|n ns Hn HF IH]; intros st Hr.
    - change (total []) with 0. unfold as_receiver. cbn [runs map calls]. destruct Hr as [[d Hg] Hd]. rewrite (run_is_rloop S E M d 0 st Hg Hd) by lia. rewrite run_receiver_loop_done by (change (zlen (@nil S)) with 0; lia). cbn. constructor. exists []. split; [reflexivity|]. exists [].
      repeat split; constructor.
    - eapply up_trans; [|shelve|destruct Hr as [[d Hg] Hd]; apply (split_receiver_order S E M d n (total ns) st Hg Hd Hn (total_nonneg _ HF))]. Unshelve. 2:{
        exact (fun rs q => match snd q with
          | Ok (x1, x2) => exists xs w1 d1, rs = Ok x1 :: map Ok xs /\ x1 = Receiver w1 d1 /\ zlen w1 = n /\ gathered (left_over n (zlen (rc S st)) (v_batch_size st)) (v_batch_size st) ns xs x2
          | Err e => exists xs, rs = map Ok xs ++ [Err e] | UB w => exists xs, rs = map Ok xs ++ [UB w] end). }
      2:{ cbn [runs map calls]. unfold both. apply up_bind. intros [st1 [x1|e|w]] Hp; cbn [stop]; [|constructor; exists []; reflexivity..].
          apply receiver_keeps in Hp; [|exact Hr|exact Hn]. destruct Hp as (Hr1 & Hbe & Hce & w1 & d1 & -> & L1). eapply up_binds; [apply IH; exact Hr1|]. rewrite Hbe, Hce.
          intros rs [st2 [x2|e|w]] Hx; constructor; cbn in *.
          - destruct Hx as (xs & -> & Hx). exists xs, w1, d1. auto.
          - destruct Hx as (xs & ->). exists (Receiver w1 d1 :: xs). reflexivity.
          - destruct Hx as (xs & ->). exists (Receiver w1 d1 :: xs). reflexivity. }
      intros rs [s1 [[x1 x2]|e|w]] [s2 [y|e'|w']] HA [[HB1 HB2] HB3]; cbn [snd fst] in *; try contradiction.
      + destruct HA as (xs & w1 & d1 & -> & -> & L1 & HG). exists (Receiver w1 d1 :: xs). split; [reflexivity|].
        destruct x2 as [|u2 v2|w2 d2]; try contradiction. now apply (receiver_first _ _ ns n w1 d1 w2 d2 y xs s1 s2).
      + subst. exact HA.
      + subst. exact HA.
  Qed.
End Divide.

Lemma up_right {T A B B'} (R : A -> B -> Prop) (R' : A -> B' -> Prop) (g : B -> proc T B') (p : proc T A) (q : proc T B) :
  alike_up R p q -> (forall a b, R a b -> alike_up R' (Ret a) (g b)) -> alike_up R' p (pbind q g).
Proof. intros HH HR. induction HH; cbn; [auto|..]; constructor; auto. Qed.

Section Party.
  Context (S : scalar) (E : setting) (G : good_setting S E) (M : machine S) (GM : good_machine S M) (Hsize : 1 <= s_size S).
  Lemma ready_sender st0 b d st x j : final_level E b j -> created S M st0 -> possible (as_sender S E M (Precompute b d) st0) (st, Ok x) ->
    ready_s S E st /\ zlen (sr_u (sc S st)) = 0 /\ v_batch_size st = Z.min b (room E j).
  Proof.
    intros Hfl Hc Hp. pose proof (created_ok S E M _ Hc) as Hi.
    pose proof (history_snoc S E M st0 [] st0 true _ _ st (history_nil S E M st0) Hp ltac:(discriminate)) as Ha.
    assert (Hpre : precomputes true b [] (true, Precompute b d, Ok x)) by (eexists _, _; split; [reflexivity|left; eexists; reflexivity]).
    pose proof (proj1 (history_inv S E G M GM _ _ _ Hi Ha)) as Hi1.
    destruct (precomputed_sender S E G M GM _ _ _ _ _ Hc Ha Hpre) as (A1 & _ & A3). destruct (sender_at S E G M GM Hsize _ _ _ _ _ Hc Ha Hpre) as (Hbt & j' & Hj). assert (j' = j) as -> by (apply (final_level_unique E b); [apply Hj|exact Hfl]).
    pose proof (at_fits S E G _ _ _ Hbt Hj) as (_ & Hf & _). split; [split; [split; auto|exact A1]|]. split; [exact (A3 d _ eq_refl)|apply Hj].
  Qed.
  Lemma ready_receiver st0 b d st x j : final_level E b j -> created S M st0 -> possible (as_receiver S E M (Precompute b d) st0) (st, Ok x) ->
    ready_r S E st /\ zlen (rc S st) = 0 /\ v_batch_size st = Z.min b (room E j).
  Proof.
    intros Hfl Hc Hp. pose proof (created_ok S E M _ Hc) as Hi.
    pose proof (history_snoc S E M st0 [] st0 false _ _ st (history_nil S E M st0) Hp ltac:(discriminate)) as Ha.
    assert (Hpre : precomputes false b [] (false, Precompute b d, Ok x)) by (eexists _, _; split; [reflexivity|left; eexists; reflexivity]).
    pose proof (proj1 (history_inv S E G M GM _ _ _ Hi Ha)) as Hi1.
    destruct (precomputed_receiver S E G M GM _ _ _ _ _ Hc Ha Hpre) as (A1 & _ & A3). destruct (receiver_at S E G M GM Hsize _ _ _ _ _ Hc Ha Hpre) as (Hbt & j' & Hj). assert (j' = j) as -> by (apply (final_level_unique E b); [apply Hj|exact Hfl]).
    pose proof (at_fits S E G _ _ _ Hbt Hj) as (_ & Hf & _). split; [|split; [exact (A3 d _ eq_refl)|apply Hj]]. split; [|exact A1]. exists (rdelta S (v_r st)). split; [apply Hi1|]. split; [exact Hf|reflexivity].
  Qed.

  Definition same_answers (bt : Z) (ns : list Z) (rs one : list (res (answer S))) : Prop :=
    match one with
    | [Ok x; r] => exists rs', rs = Ok x :: rs' /\ gath S 0 bt ns rs' r
    | _ => rs = one
    end.
  Lemma divided_calls bt (sends : bool) b d ns st0 :
    (forall st x, possible ((if sends then as_sender S E else as_receiver S E) M (Precompute b d) st0) (st, Ok x) ->
       alike_up (fun rs q => gath S 0 bt ns rs (snd q)) (calls S E M stop (runs S sends ns) st) ((if sends then as_sender S E else as_receiver S E) M (Run (total ns)) st)) ->
    alike_up (same_answers bt ns) (calls S E M stop (divided sends b d ns) st0) (calls S E M stop (divided sends b d [total ns]) st0).
  Proof.
    intro H. unfold divided. cbn [calls map].
    apply up_bind. intros [st [x|e|w]] Hp; cbn [stop]; [|constructor; reflexivity..]. specialize (H st x Hp).
    eapply (up_binds (fun rs one => exists r, one = [r] /\ gath S 0 bt ns rs r)).
    - eapply up_right; [exact H|]. intros rs [s r] Hr. destruct r as [y|e|w]; cbn; constructor; eexists; split; try reflexivity; exact Hr.
    - intros rs one (r & -> & Hr). constructor. exists rs. auto.
  Qed.
  Definition same_party bt ns (ra rb : res (list (res (answer S)))) : Prop :=
    match ra, rb with Ok la, Ok lb => same_answers bt ns la lb | Err e, Err e' => e = e' | UB w, UB w' => w = w' | _, _ => False end.
  Lemma divided_party sends b d ns j : final_level E b j -> Forall (fun n => 0 <= n) ns ->
    alike_up (same_party (Z.min b (room E j)) ns) (party S E M stop (divided sends b d ns)) (party S E M stop (divided sends b d [total ns])).
  Proof.
    intros Hj HF. unfold party, pbindr. apply up_bind. intros [st0|e|w] Hc; [|constructor; reflexivity..]. eapply up_binds.
    - apply (divided_calls (Z.min b (room E j))). intros st x Hp. destruct sends.
      + destruct (ready_sender _ _ _ _ _ j Hj Hc Hp) as (R1 & R2 & R3). rewrite <- R3, <- R2. now apply divide_sender.
      + destruct (ready_receiver _ _ _ _ _ j Hj Hc Hp) as (R1 & R2 & R3). rewrite <- R3, <- R2. now apply divide_receiver.
    - intros la lb H. constructor. exact H.
  Qed.
End Party.

Lemma same_bad {S} bt ns rs (one : list (res (answer S))) l r : same_answers S bt ns rs one -> one = l ++ [r] -> (forall x, r <> Ok x) -> exists l', rs = l' ++ [r].
Proof.
  intros H -> Hr. destruct l as [|a [|b l]]; cbn in H.
  - destruct r as [x|e|w]; [destruct (Hr x eq_refl)|..]; exists []; exact H.
  - destruct a as [x|e|w].
    + destruct H as (rs' & -> & H). destruct r as [y|e|w]; [destruct (Hr y eq_refl)|..]; destruct H as (xs & ->); eexists (_ :: _); reflexivity.
    + exists [Err e]. exact H.
    + exists [UB w]. exact H.
  - exists (a :: b :: l). destruct a as [x|e|w]; [destruct l|..]; exact H.
Qed.

Section Session.
  Context (S : scalar) (L : scalar_laws S) (E : setting) (G : good_setting S E) (Hs : secure S E) (Hsize : 1 <= s_size S)
    (MA MB : machine S) (GA : good_machine S MA) (GB : good_machine S MB) (HC : connected MA MB).
  Lemma divided_session b d ns ms ta tb j : final_level E b j -> 1 <= b -> Forall (fun n => 0 <= n) ns -> Forall (fun n => 0 <= n) ms -> 1 <= total ns -> total ms = total ns ->
    exists n, forall m c, steps m (start (party S E MA stop (divided true b d ns)) ta (party S E MB stop (divided false b d ms)) tb) c ->
      (m <= n)%nat /\ (stuck c -> divided_end (Z.min b (room E j)) ns ms c).
  Proof.
    intros Hj Hb HF HF' HN Heq. destruct (orderly_session S L E G Hs MA MB GA GB HC stop eq_refl (divided true b d [total ns]) ta tb) as [n Hn].
    { cbn. auto 10. }
    change (opposite S (divided true b d [total ns])) with (@divided S false b d [total ns]) in Hn.
    assert (Hn' : forall m c, steps m (start (party S E MA stop (divided true b d [total ns])) ta (party S E MB stop (divided false b d [total ms])) tb) c ->
      (m <= n)%nat /\ (stuck c -> good_end S stop (divided true b d [total ns]) c)) by (rewrite Heq; exact Hn).
    exists n. intros m c Hm.
    destruct (sim_steps (same_party S (Z.min b (room E j)) ns) (same_party S (Z.min b (room E j)) ms) _ _ _ Hm (start (party S E MA stop (divided true b d [total ns])) ta (party S E MB stop (divided false b d [total ms])) tb)) as (c' & Hm' & Hsim).
    { unfold sim, start. cbn [c_a c_b c_ta c_tb c_ab c_ba]. split; [apply divided_party; auto|]. split; [apply divided_party; auto|]. auto. }
    destruct (Hn' m c' Hm') as [Hle He]. split; [exact Hle|]. intro Hst. specialize (He (sim_stuck _ _ _ _ Hsim Hst)).
    destruct Hsim as (SA & SB & _ & _ & Q1 & Q2). destruct He as (Z1 & Z2 & He). unfold divided_end. rewrite Q1, Q2. split; [exact Z1|]. split; [exact Z2|].
    destruct He as [(la & lb & Ea & Eb & Hag & Na & Nb)|[(la & Ea & Hf & Hw)|(lb & Eb & Hf & Hw)]].
    - rewrite Ea in SA. rewrite Eb in SB. apply up_done in SA. apply up_done in SB. destruct SA as ([la'|e|w] & EA & HA), SB as ([lb'|e'|w'] & EB & HB); try contradiction. cbn in HA, HB. rewrite EA, EB.
      inversion Hag as [|? ? ? a0 b0 ra rb Hon Hcont Hag'|? ? ? a0 b0 Hon Hcont]; subst.
      + destruct a0 as [x|e|w]; try discriminate. destruct x; cbn in Hon; destruct b0 as [[| |]|?|?]; try contradiction; [|destruct Hon; discriminate].
        inversion Hag' as [|? ? ? a1 b1 ra1 rb1 Hon1 Hcont1 Hag1|? ? ? a1 b1 Hon1 Hcont1]; subst.
        * inversion Hag1; subst. destruct HA as (rs & -> & HA), HB as (rs' & -> & HB). destruct a1 as [[|u v|]|?|?]; try discriminate; cbn in Hon1; destruct b1 as [[| |w1 dl]|?|?]; try contradiction.
          { destruct Hon1 as (? & ? & ?). discriminate. }
          destruct Hon1 as [_ Hv]. destruct HA as (xs & -> & HA), HB as (ys & -> & HB). left. exists xs, ys, u, v, w1, dl. auto 10.
        * apply Forall_cons_iff in Na. destruct Na as [_ Na]. apply Forall_cons_iff in Na. destruct Na as [Na _]. destruct a1 as [x|e|w]; try discriminate; try contradiction.
          cbn in Hon1. destruct b1 as [x|e|w']; try contradiction. destruct Hon1 as [<- _]. right. left.
          destruct (same_bad _ ns la' _ [Ok Precomputed] (UB w) HA eq_refl) as [l1 ->]; [discriminate|]. destruct (same_bad _ ms lb' _ [Ok Precomputed] (UB w) HB eq_refl) as [l2 ->]; [discriminate|].
          exists l1, l2, w. auto.
      + apply Forall_cons_iff in Na. destruct Na as [Na _]. destruct a0 as [x|e|w]; try discriminate; try contradiction. cbn in Hon. destruct b0 as [x|e|w']; try contradiction. destruct Hon as [<- _]. right. left.
        destruct (same_bad _ ns la' _ [] (UB w) HA eq_refl) as [l1 ->]; [discriminate|]. destruct (same_bad _ ms lb' _ [] (UB w) HB eq_refl) as [l2 ->]; [discriminate|].
        exists l1, l2, w. auto.
    - rewrite Ea in SA. apply up_done in SA. destruct SA as ([la'|e|w] & EA & HA); try contradiction. cbn in HA. destruct Hf as (l1 & c0 & l2 & rs1 & r & _ & -> & _ & _ & Hr).
      destruct (same_bad _ ns la' _ rs1 r HA eq_refl) as [l' ->]; [intros x ->; destruct Hr as [Hr|(w & Hr & _)]; discriminate|].
      right. right. exists l', r. rewrite EA. split; [reflexivity|]. split; [exact Hr|]. exact (up_waiting _ _ _ SB Hw).
    - exfalso. destruct Hf as (l1 & c0 & l2 & rs1 & r & Hl & _). unfold divided, opposite in Hl. cbn in Hl.
      destruct l1 as [|? [|? [|? ?]]]; discriminate Hl.
  Qed.
End Session.
