(** Joint runs with everything that both parties see. *)
From Verif Require Import Base BaseFacts ProcModel ProcSpec ProcProofs VoleSpec HideSpec HideRun DeltaSpec.
Local Open Scope nat_scope.

Inductive whand {T RA RB} : proc T RA -> tape T -> proc T RB -> tape T -> list (seen T) -> list (seen T) ->
    proc T RA -> tape T -> proc T RB -> tape T -> Prop :=
| whand_rand_a : forall ka ta pb tb,
    whand (Rand ka) ta pb tb [Drew (fst (ta O)) (snd (ta O))] [] (ka (fst (ta O)) (snd (ta O))) (tape_tl ta) pb tb
| whand_rand_b : forall pa ta kb tb,
    whand pa ta (Rand kb) tb [] [Drew (fst (tb O)) (snd (tb O))] pa ta (kb (fst (tb O)) (snd (tb O))) (tape_tl tb)
| whand_ab : forall m ka ta kb tb, is_ot m = false -> whand (Send m ka) ta (Recv kb) tb [] [Got m] ka ta (kb m) tb
| whand_ba : forall m ka ta kb tb, is_ot m = false -> whand (Recv ka) ta (Send m kb) tb [Got m] [] (ka m) ta kb tb
| whand_ot_ab : forall m c cs ka ta kb tb, is_ot m = true ->
    whand (Send m ka) ta (OtRecv c cs kb) tb [] [Chosen (ot_choose c cs m)] ka ta (kb (ot_choose c cs m)) tb
| whand_ot_ba : forall m c cs ka ta kb tb, is_ot m = true ->
    whand (OtRecv c cs ka) ta (Send m kb) tb [Chosen (ot_choose c cs m)] [] (ka (ot_choose c cs m)) ta kb tb
| whand_sync : forall ka ta kb tb,
    whand (Send MSync (Recv ka)) ta (Send MSync (Recv kb)) tb [Got MSync] [Got MSync] (ka MSync) ta (kb MSync) tb.

Inductive wrun {T RA RB} : proc T RA -> tape T -> proc T RB -> tape T -> list (seen T) -> list (seen T) ->
    proc T RA -> tape T -> proc T RB -> tape T -> Prop :=
| wrun_nil : forall pa ta pb tb, wrun pa ta pb tb [] [] pa ta pb tb
| wrun_cons : forall pa ta pb tb l1 r1 pa1 ta1 pb1 tb1 l2 r2 pa2 ta2 pb2 tb2,
    whand pa ta pb tb l1 r1 pa1 ta1 pb1 tb1 -> wrun pa1 ta1 pb1 tb1 l2 r2 pa2 ta2 pb2 tb2 ->
    wrun pa ta pb tb (l1 ++ l2) (r1 ++ r2) pa2 ta2 pb2 tb2.

Section P.
  Context {T : Type}.

  Lemma drew_app (l1 l2 : list (seen T)) : drew (l1 ++ l2) = drew l1 ++ drew l2.
  Proof. apply flat_map_app. Qed.
  Lemma tape_drop_at n (t : tape T) i : tape_drop n t i = t (n + i).
  Proof. revert t i. induction n as [|n IH]; intros t i; cbn; [reflexivity|]. rewrite IH. reflexivity. Qed.
  Lemma tape_drop_drop n m (t : tape T) : tape_drop n (tape_drop m t) = tape_drop (n + m) t.
  Proof. revert t. induction m as [|m IH]; intro t; [now rewrite Nat.add_0_r|]. rewrite <- plus_n_Sm. cbn. apply IH. Qed.
  Lemma tape_blocks_app n m (t : tape T) : tape_blocks (n + m) t = tape_blocks n t ++ tape_blocks m (tape_drop n t).
  Proof. revert t. induction n as [|n IH]; intro t; cbn; [reflexivity|]. now rewrite IH. Qed.
  Lemma tape_blocks_at n (t : tape T) i d : i < n -> nth i (tape_blocks n t) d = fst (t i).
  Proof.
    revert t i. induction n as [|n IH]; intros t i Hi; [lia|]. destruct i as [|i]; cbn; [reflexivity|]. rewrite IH by lia. reflexivity.
  Qed.
  Lemma tape_blocks_same n (t t' : tape T) : (forall i, i < n -> fst (t i) = fst (t' i)) -> tape_blocks n t = tape_blocks n t'.
  Proof.
    revert t t'. induction n as [|n IH]; intros t t' H; cbn; [reflexivity|]. f_equal; [apply H; lia|]. apply IH. intros i Hi. apply H. lia.
  Qed.

  Lemma wrun_trans {RA RB} (pa : proc T RA) ta (pb : proc T RB) tb l1 r1 pa1 ta1 pb1 tb1 l2 r2 pa2 ta2 pb2 tb2 :
    wrun pa ta pb tb l1 r1 pa1 ta1 pb1 tb1 -> wrun pa1 ta1 pb1 tb1 l2 r2 pa2 ta2 pb2 tb2 ->
    wrun pa ta pb tb (l1 ++ l2) (r1 ++ r2) pa2 ta2 pb2 tb2.
  Proof. intros H H2. induction H; [exact H2|]. rewrite <- !app_assoc. econstructor; [eassumption|]. apply IHwrun, H2. Qed.
  Lemma wrun_hand {RA RB} (pa : proc T RA) ta (pb : proc T RB) tb l r pa1 ta1 pb1 tb1 :
    whand pa ta pb tb l r pa1 ta1 pb1 tb1 -> wrun pa ta pb tb l r pa1 ta1 pb1 tb1.
  Proof. intro H. rewrite <- (app_nil_r l), <- (app_nil_r r). econstructor; [exact H|constructor]. Qed.
  Lemma wrun_bind {A B A' B'} (f : A -> proc T A') (g : B -> proc T B') pa ta pb tb l r pa' ta' pb' tb' :
    wrun pa ta pb tb l r pa' ta' pb' tb' ->
    wrun (pbind pa f) ta (pbind pb g) tb l r (pbind pa' f) ta' (pbind pb' g) tb'.
  Proof.
    induction 1 as [|? ? ? ? ? ? ? ? ? ? ? ? ? ? ? ? H _ IH]; [constructor|]. econstructor; [|exact IH].
    destruct H; cbn; constructor; assumption.
  Qed.
  Lemma wrun_watch {RA RB} (pa : proc T RA) ta (pb : proc T RB) tb l r pa' ta' pb' tb' log log' :
    wrun pa ta pb tb l r pa' ta' pb' tb' ->
    jrun (watch pa log) ta (watch pb log') tb (watch pa' (log ++ l)) ta' (watch pb' (log' ++ r)) tb'.
  Proof.
    intro H. revert log log'. induction H as [|? ? ? ? ? ? ? ? ? ? ? ? ? ? ? ? H _ IH]; intros log log'; [rewrite !app_nil_r; constructor|].
    eapply jrun_trans; [|rewrite !app_assoc; apply IH]. destruct H; cbn [watch]; rewrite ?app_nil_r; apply jrun_hand; now constructor.
  Qed.
  Lemma wrun_vrun {RA RB} (pa : proc T RA) ta (pb : proc T RB) tb l r pa' ta' pb' tb' :
    wrun pa ta pb tb l r pa' ta' pb' tb' -> vrun pa ta pb tb r pa' ta' pb' tb'.
  Proof.
    induction 1 as [|? ? ? ? ? ? ? ? ? ? ? ? ? ? ? ? H _ IH]; [constructor|]. econstructor; [|exact IH]. destruct H; now constructor.
  Qed.
  Lemma wrun_completes {RA RB} (pa : proc T RA) ta (pb : proc T RB) tb l r a ta' b tb' :
    wrun pa ta pb tb l r (Ret a) ta' (Ret b) tb' -> completes (watch pa []) ta (watch pb []) tb (a, l) (b, r).
  Proof. intro H. eapply jrun_completes. exact (wrun_watch _ _ _ _ _ _ _ _ _ _ [] [] H). Qed.

  (** The random values of a run come from the beginnings of the tapes, and only
      these matter. *)
  Lemma vrun_wrun {RA RB} (pa : proc T RA) ta (pb : proc T RB) tb r pa' ta' pb' tb' :
    vrun pa ta pb tb r pa' ta' pb' tb' -> exists l n k, wrun pa ta pb tb l r pa' ta' pb' tb' /\
      drew l = tape_blocks n ta /\ ta' = tape_drop n ta /\ drew r = tape_blocks k tb /\ tb' = tape_drop k tb /\
      forall sa sb, (forall i, i < n -> sa i = ta i) -> (forall i, i < k -> sb i = tb i) ->
        wrun pa sa pb sb l r pa' (tape_drop n sa) pb' (tape_drop k sb).
  Proof.
    induction 1 as [|? ? ? ? ? ? ? ? ? l2 ? ? ? ? H _ (l & n & k & IH & E1 & E2 & E3 & E4 & IH')].
    { exists [], 0, 0. repeat split; try constructor. }
    destruct H as [ka ta pb tb|pa ta kb tb|m ka ta kb tb E|m ka ta kb tb E|m c cs ka ta kb tb E|m c cs ka ta kb tb E|ka ta kb tb].
    - exists (Drew (fst (ta 0)) (snd (ta 0)) :: l), (S n), k. change (drew (Drew (fst (ta 0)) (snd (ta 0)) :: l)) with (fst (ta 0) :: drew l). cbn [tape_blocks tape_drop]. rewrite E1.
      split; [eapply (wrun_cons _ _ _ _ [_] []); [constructor|exact IH]|]. repeat split; auto.
      intros sa sb Ha Hb. eapply (wrun_cons _ _ _ _ [_] []); [|apply (IH' (tape_tl sa)); [intros i Hi; apply Ha; lia|exact Hb]].
      rewrite <- (Ha 0) by lia. constructor.
    - exists l, n, (S k). cbn [app]. change (drew (Drew (fst (tb 0)) (snd (tb 0)) :: l2)) with (fst (tb 0) :: drew l2). cbn [tape_blocks tape_drop]. rewrite E3.
      split; [eapply (wrun_cons _ _ _ _ [] [_]); [constructor|exact IH]|]. repeat split; auto.
      intros sa sb Ha Hb. eapply (wrun_cons _ _ _ _ [] [_]); [|apply (IH' sa (tape_tl sb)); [exact Ha|intros i Hi; apply Hb; lia]].
      rewrite <- (Hb 0) by lia. constructor.
    - exists l, n, k. split; [eapply (wrun_cons _ _ _ _ [] [_]); [constructor; exact E|exact IH]|]. repeat split; auto.
      intros sa sb Ha Hb. eapply (wrun_cons _ _ _ _ [] [_]); [constructor; exact E|now apply IH'].
    - exists (Got m :: l), n, k. split; [eapply (wrun_cons _ _ _ _ [_] []); [constructor; exact E|exact IH]|]. repeat split; auto.
      intros sa sb Ha Hb. eapply (wrun_cons _ _ _ _ [_] []); [constructor; exact E|now apply IH'].
    - exists l, n, k. split; [eapply (wrun_cons _ _ _ _ [] [_]); [constructor; exact E|exact IH]|]. repeat split; auto.
      intros sa sb Ha Hb. eapply (wrun_cons _ _ _ _ [] [_]); [constructor; exact E|now apply IH'].
    - exists (Chosen (ot_choose c cs m) :: l), n, k. split; [eapply (wrun_cons _ _ _ _ [_] []); [constructor; exact E|exact IH]|]. repeat split; auto.
      intros sa sb Ha Hb. eapply (wrun_cons _ _ _ _ [_] []); [constructor; exact E|now apply IH'].
    - exists (Got MSync :: l), n, k. split; [eapply (wrun_cons _ _ _ _ [_] [_]); [constructor|exact IH]|]. repeat split; auto.
      intros sa sb Ha Hb. eapply (wrun_cons _ _ _ _ [_] [_]); [constructor|now apply IH'].
  Qed.

  (** A tape that starts like [t] and does not repeat itself. *)
  Definition growing n (t : tape T) : tape T := fun i => if i <? n then t i else (N.of_nat i, snd (t i)).
  Lemma growing_drop n k (t : tape T) m : tape_drop n (growing k t) = tape_drop m (growing k t) -> n = m.
  Proof.
    intro E. assert (H : tape_drop n (growing k t) k = tape_drop m (growing k t) k) by now rewrite E.
    rewrite !tape_drop_at in H. unfold growing in H. replace (n + k <? k) with false in H by (symmetry; apply Nat.ltb_ge; lia).
    replace (m + k <? k) with false in H by (symmetry; apply Nat.ltb_ge; lia). injection H as H _. lia.
  Qed.

  (** If a run takes the same numbers of random values whatever the tapes are,
      then it draws exactly these. *)
  Lemma fixed_draws {RA RB} (pa : proc T RA) (pb : proc T RB) n k :
    (forall ta tb, exists a b r, vrun pa ta pb tb r (Ret a) (tape_drop n ta) (Ret b) (tape_drop k tb)) ->
    forall ta tb a b r, vrun pa ta pb tb r (Ret a) (tape_drop n ta) (Ret b) (tape_drop k tb) ->
    exists l, wrun pa ta pb tb l r (Ret a) (tape_drop n ta) (Ret b) (tape_drop k tb) /\
      drew l = tape_blocks n ta /\ drew r = tape_blocks k tb.
  Proof.
    intros H ta tb a b r HV. destruct (H (growing n ta) (growing k tb)) as (a1 & b1 & r1 & HV1).
    destruct (vrun_wrun _ _ _ _ _ _ _ _ _ HV1) as (l1 & n1 & k1 & HW & D1 & E1 & D2 & E2 & Hany).
    apply growing_drop in E1, E2. subst n1 k1.
    assert (HW' : wrun pa ta pb tb l1 r1 (Ret a1) (tape_drop n ta) (Ret b1) (tape_drop k tb)).
    { apply Hany; intros i Hi; unfold growing; apply Nat.ltb_lt in Hi; now rewrite Hi. }
    destruct (completes_unique _ _ _ _ _ _ _ _ (vrun_completes _ _ _ _ _ _ _ _ _ HV) (vrun_completes _ _ _ _ _ _ _ _ _ (wrun_vrun _ _ _ _ _ _ _ _ _ _ HW'))) as [Ea Eb].
    injection Eb as Eb Er. subst a1 b1 r1. exists l1. split; [exact HW'|]. rewrite D1, D2. split; apply tape_blocks_same; intros i Hi; unfold growing;
      apply Nat.ltb_lt in Hi; now rewrite Hi.
  Qed.

  (** Random choices of one party. *)
  Definition drew_blocks n (t : tape T) : list (seen T) := map (fun i => Drew (fst (t i)) (snd (t i))) (seq 0 n).
  Lemma drew_blocks_S n t : drew_blocks (S n) t = Drew (fst (t 0)) (snd (t 0)) :: drew_blocks n (tape_tl t).
  Proof. unfold drew_blocks. cbn [seq map]. f_equal. rewrite <- seq_shift, map_map. reflexivity. Qed.
  Lemma drew_drew_blocks n t : drew (drew_blocks n t) = tape_blocks n t.
  Proof. revert t. induction n as [|n IH]; intro t; [reflexivity|]. rewrite drew_blocks_S. cbn. f_equal. apply IH. Qed.
  Lemma wrun_rand_blocks_a {RA RB} n (k : _ -> proc T RA) ta (pb : proc T RB) tb :
    wrun (rand_blocks n k) ta pb tb (drew_blocks n ta) [] (k (tape_blocks n ta)) (tape_drop n ta) pb tb.
  Proof.
    revert k ta. induction n as [|n IH]; intros k ta; [constructor|]. rewrite drew_blocks_S. cbn.
    eapply (wrun_cons _ _ _ _ [_] []); [constructor|]. apply IH.
  Qed.
  Lemma wrun_rand_blocks_b {RA RB} n (k : _ -> proc T RB) tb (pa : proc T RA) ta :
    wrun pa ta (rand_blocks n k) tb [] (drew_blocks n tb) pa ta (k (tape_blocks n tb)) (tape_drop n tb).
  Proof.
    revert k tb. induction n as [|n IH]; intros k tb; [constructor|]. rewrite drew_blocks_S. cbn.
    eapply (wrun_cons _ _ _ _ [] [_]); [constructor|]. apply IH.
  Qed.
  Lemma wrun_rand_scalars_b {RA RB} n (k : _ -> proc T RB) tb (pa : proc T RA) ta :
    wrun pa ta (rand_scalars n k) tb [] (drew_blocks n tb) pa ta (k (tape_scalars n tb)) (tape_drop n tb).
  Proof.
    revert k tb. induction n as [|n IH]; intros k tb; [constructor|]. rewrite drew_blocks_S. cbn.
    eapply (wrun_cons _ _ _ _ [] [_]); [constructor|]. apply IH.
  Qed.

  (** A completed session and a run of it. *)
  Lemma completes_after {RA RB} (pa : proc T RA) ta (pb : proc T RB) tb a b pa' ta' pb' tb' :
    completes pa ta pb tb a b -> jrun pa ta pb tb pa' ta' pb' tb' -> completes pa' ta' pb' tb' a b.
  Proof.
    intros (n & sa & sb & Hn & Hall) HJ. apply jrun_steps in HJ. destruct HJ as (m & Hm).
    destruct (Hall _ _ Hm) as [Hle Hrest]. exists (n - m), sa, sb. split; [exact Hrest|]. intros m2 d Hd.
    destruct (Hall (m + m2) d) as [Hle2 Hr2]; [eapply steps_trans; eassumption|]. split; [lia|]. now replace (n - m - m2) with (n - (m + m2)) by lia.
  Qed.
  Lemma completes_ret_a {RA RB} (r : RA) ta (pb : proc T RB) tb a b : completes (Ret r) ta pb tb a b -> a = r.
  Proof.
    intros (n & sa & sb & Hn & _).
    assert (H : forall n (c d : config T RA RB), steps n c d -> c_a c = Ret r -> c_a d = Ret r).
    { clear. induction 1 as [|n c d e Hs _ IH]; auto. intro E. apply IH. destruct c as [pa ta0 pb0 tb0 ab ba]. cbn in E. subst pa.
      inversion Hs; subst; cbn in *; congruence || auto. }
    apply H in Hn; [|reflexivity]. cbn in Hn. congruence.
  Qed.
End P.

Section Possible.
  Context {T : Type}.
  Lemma pstep_possible {R} (p : proc T R) t inq outq p' t' inq' outq' r :
    pstep p t inq outq = Some (p', t', inq', outq') -> possible p' r -> possible p r.
  Proof.
    destruct p; cbn; intros E H.
    - discriminate.
    - injection E as <- <- <- <-. now constructor.
    - destruct inq as [|m q]; [discriminate|]. injection E as <- <- <- <-. now apply (possible_recv _ m).
    - destruct inq as [|m q]; [discriminate|]. injection E as <- <- <- <-. eapply possible_ot; exact H.
    - injection E as <- <- <- <-. eapply possible_rand; exact H.
  Qed.
  Lemma completes_possible {RA RB} (pa : proc T RA) ta (pb : proc T RB) tb a b :
    completes pa ta pb tb a b -> possible pa a /\ possible pb b.
  Proof.
    intros (n & sa & sb & Hn & _).
    assert (H : forall n (c d : config T RA RB), steps n c d -> possible (c_a d) a /\ possible (c_b d) b -> possible (c_a c) a /\ possible (c_b c) b).
    { clear. induction 1 as [|n c d e Hs _ IH]; auto. intro H. specialize (IH H). destruct IH as [Ha Hb].
      inversion Hs; subst; cbn in *; split; auto; eapply pstep_possible; eassumption. }
    apply (H _ _ _ Hn). cbn. split; constructor.
  Qed.
  Lemma possible_bind {A B} (p : proc T A) (f : A -> proc T B) r : possible (pbind p f) r -> exists a, possible p a /\ possible (f a) r.
  Proof.
    induction p as [r0|m k IHk|k IHk|c cs k IHk|k IHk]; cbn; intro Hp.
    - eexists. split; [constructor|exact Hp].
    - inversion Hp as [|? ? ? H0| | |]; subst. destruct (IHk H0) as (a & ? & ?). exists a. split; auto. now constructor.
    - inversion Hp as [| |? ? ? H0| |]; subst. destruct (IHk _ H0) as (a & ? & ?). exists a. split; auto. econstructor; eassumption.
    - inversion Hp as [| | |? ? ? ? ? H0|]; subst. destruct (IHk _ H0) as (a & ? & ?). exists a. split; auto. econstructor; eassumption.
    - inversion Hp as [| | | |? ? ? ? H0]; subst. destruct (IHk _ _ H0) as (a & ? & ?). exists a. split; auto. econstructor; eassumption.
  Qed.

  (** A process that can only end badly. *)
  Definition doomed {R} (bad : R -> Prop) (p : proc T R) : Prop := forall r, possible p r -> bad r.
  Lemma doomed_ret {R} (bad : R -> Prop) r : bad r -> doomed bad (Ret r).
  Proof. intros H r' Hp. inversion Hp; subst. exact H. Qed.
  Lemma doomed_bind {A B} (bad : A -> Prop) (bad' : B -> Prop) (p : proc T A) f : doomed bad p ->
    (forall r, bad r -> doomed bad' (f r)) -> doomed bad' (pbind p f).
  Proof. intros H Hf r Hr. apply possible_bind in Hr. destruct Hr as (a & Ha & Hr). exact (Hf a (H a Ha) r Hr). Qed.
  Lemma possible_watch {R} (p : proc T R) log r : possible (watch p log) r -> possible p (fst r).
  Proof.
    revert log. induction p; cbn; intros log Hp; inversion Hp; subst; cbn; try (now constructor); try (econstructor; eauto).
  Qed.
  Lemma jrun_wrun {RA RB} (pa : proc T RA) ta (pb : proc T RB) tb pa' ta' pb' tb' :
    jrun pa ta pb tb pa' ta' pb' tb' -> exists l r, wrun pa ta pb tb l r pa' ta' pb' tb'.
  Proof.
    induction 1 as [|pa ta pb tb pa1 ta1 pb1 tb1 pa2 ta2 pb2 tb2 H _ (l & r & IH)]; [exists [], []; constructor|].
    assert (Hw : exists l r, whand pa ta pb tb l r pa1 ta1 pb1 tb1) by (destruct H; eexists _, _; constructor; assumption).
    destruct Hw as (l1 & r1 & Hw). exists (l1 ++ l), (r1 ++ r). econstructor; eassumption.
  Qed.
  Lemma jrun_watched {RA RB} (pa : proc T RA) ta (pb : proc T RB) tb pa' ta' pb' tb' log log' :
    jrun pa ta pb tb pa' ta' pb' tb' -> exists l l', jrun (watch pa log) ta (watch pb log') tb (watch pa' l) ta' (watch pb' l') tb'.
  Proof. intro H. apply jrun_wrun in H. destruct H as (l & r & H). eexists _, _. exact (wrun_watch _ _ _ _ _ _ _ _ _ _ log log' H). Qed.
End Possible.
