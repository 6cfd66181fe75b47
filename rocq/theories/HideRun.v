(** Joint runs with everything the second party sees. *)
From Verif Require Import Base ProcModel ProcSpec ProcProofs HideSpec.
Local Open Scope nat_scope.

Inductive vhand {T RA RB} : proc T RA -> tape T -> proc T RB -> tape T -> list (seen T) ->
    proc T RA -> tape T -> proc T RB -> tape T -> Prop :=
| vhand_rand_a : forall ka ta pb tb, vhand (Rand ka) ta pb tb [] (ka (fst (ta O)) (snd (ta O))) (tape_tl ta) pb tb
| vhand_rand_b : forall pa ta kb tb,
    vhand pa ta (Rand kb) tb [Drew (fst (tb O)) (snd (tb O))] pa ta (kb (fst (tb O)) (snd (tb O))) (tape_tl tb)
| vhand_ab : forall m ka ta kb tb, is_ot m = false -> vhand (Send m ka) ta (Recv kb) tb [Got m] ka ta (kb m) tb
| vhand_ba : forall m ka ta kb tb, is_ot m = false -> vhand (Recv ka) ta (Send m kb) tb [] (ka m) ta kb tb
| vhand_ot_ab : forall m c cs ka ta kb tb, is_ot m = true ->
    vhand (Send m ka) ta (OtRecv c cs kb) tb [Chosen (ot_choose c cs m)] ka ta (kb (ot_choose c cs m)) tb
| vhand_ot_ba : forall m c cs ka ta kb tb, is_ot m = true ->
    vhand (OtRecv c cs ka) ta (Send m kb) tb [] (ka (ot_choose c cs m)) ta kb tb
| vhand_sync : forall ka ta kb tb,
    vhand (Send MSync (Recv ka)) ta (Send MSync (Recv kb)) tb [Got MSync] (ka MSync) ta (kb MSync) tb.

Inductive vrun {T RA RB} : proc T RA -> tape T -> proc T RB -> tape T -> list (seen T) ->
    proc T RA -> tape T -> proc T RB -> tape T -> Prop :=
| vrun_nil : forall pa ta pb tb, vrun pa ta pb tb [] pa ta pb tb
| vrun_cons : forall pa ta pb tb l1 pa1 ta1 pb1 tb1 l2 pa2 ta2 pb2 tb2,
    vhand pa ta pb tb l1 pa1 ta1 pb1 tb1 -> vrun pa1 ta1 pb1 tb1 l2 pa2 ta2 pb2 tb2 ->
    vrun pa ta pb tb (l1 ++ l2) pa2 ta2 pb2 tb2.

Section P.
  Context {T : Type}.

  Lemma vrun_trans {RA RB} (pa : proc T RA) ta (pb : proc T RB) tb l1 pa1 ta1 pb1 tb1 l2 pa2 ta2 pb2 tb2 :
    vrun pa ta pb tb l1 pa1 ta1 pb1 tb1 -> vrun pa1 ta1 pb1 tb1 l2 pa2 ta2 pb2 tb2 ->
    vrun pa ta pb tb (l1 ++ l2) pa2 ta2 pb2 tb2.
  Proof. intros H H2. induction H; [exact H2|]. rewrite <- app_assoc. econstructor; [eassumption|]. apply IHvrun, H2. Qed.
  Lemma vrun_hand {RA RB} (pa : proc T RA) ta (pb : proc T RB) tb l pa1 ta1 pb1 tb1 :
    vhand pa ta pb tb l pa1 ta1 pb1 tb1 -> vrun pa ta pb tb l pa1 ta1 pb1 tb1.
  Proof. intro H. rewrite <- (app_nil_r l). econstructor; [exact H|constructor]. Qed.
  Lemma vrun_bind {A B A' B'} (f : A -> proc T A') (g : B -> proc T B') pa ta pb tb l pa' ta' pb' tb' :
    vrun pa ta pb tb l pa' ta' pb' tb' ->
    vrun (pbind pa f) ta (pbind pb g) tb l (pbind pa' f) ta' (pbind pb' g) tb'.
  Proof.
    induction 1 as [|? ? ? ? ? ? ? ? ? ? ? ? ? ? H _ IH]; [constructor|]. econstructor; [|exact IH].
    destruct H; cbn; constructor; assumption.
  Qed.
  Lemma vrun_bindr {A B A' B'} (f : A -> proc T (res A')) (g : B -> proc T (res B')) pa ta pb tb l a ta' b tb' :
    vrun pa ta pb tb l (Ret (Ok a)) ta' (Ret (Ok b)) tb' ->
    vrun (pbindr pa f) ta (pbindr pb g) tb l (f a) ta' (g b) tb'.
  Proof.
    intro H. unfold pbindr.
    apply (vrun_bind (fun r => match r with Ok a => f a | Err s => Ret (Err s) | UB w => Ret (UB w) end)
                     (fun r => match r with Ok a => g a | Err s => Ret (Err s) | UB w => Ret (UB w) end)
                     _ _ _ _ _ _ _ _ _ H).
  Qed.
  Lemma vrun_rand_blocks_a {RA RB} n (k : _ -> proc T RA) ta (pb : proc T RB) tb :
    vrun (rand_blocks n k) ta pb tb [] (k (tape_blocks n ta)) (tape_drop n ta) pb tb.
  Proof.
    revert k ta. induction n as [|n IH]; intros k ta; cbn; [constructor|].
    change (@nil (seen T)) with (@nil (seen T) ++ []). eapply vrun_trans; [apply vrun_hand; constructor|]. apply IH.
  Qed.

  (** The watched process collects exactly this. *)
  Lemma vhand_watch {RA RB} (pa : proc T RA) ta (pb : proc T RB) tb l pa' ta' pb' tb' log :
    vhand pa ta pb tb l pa' ta' pb' tb' -> jrun pa ta (watch pb log) tb pa' ta' (watch pb' (log ++ l)) tb'.
  Proof.
    intro H. destruct H; cbn [watch]; rewrite ?app_nil_r; apply jrun_hand; now constructor.
  Qed.
  Lemma vrun_watch {RA RB} (pa : proc T RA) ta (pb : proc T RB) tb l pa' ta' pb' tb' log :
    vrun pa ta pb tb l pa' ta' pb' tb' -> jrun pa ta (watch pb log) tb pa' ta' (watch pb' (log ++ l)) tb'.
  Proof.
    intro H. revert log. induction H as [|? ? ? ? ? ? ? ? ? ? ? ? ? ? H _ IH]; intro log; [rewrite app_nil_r; constructor|].
    eapply jrun_trans; [apply (vhand_watch _ _ _ _ _ _ _ _ _ log H)|]. rewrite app_assoc. apply IH.
  Qed.
  Lemma vrun_jrun {RA RB} (pa : proc T RA) ta (pb : proc T RB) tb l pa' ta' pb' tb' :
    vrun pa ta pb tb l pa' ta' pb' tb' -> jrun pa ta pb tb pa' ta' pb' tb'.
  Proof.
    induction 1 as [|? ? ? ? ? ? ? ? ? ? ? ? ? ? H _ IH]; [constructor|]. eapply jrun_trans; [|exact IH].
    apply jrun_hand. destruct H; now constructor.
  Qed.
  Lemma vrun_completes {RA RB} (pa : proc T RA) ta (pb : proc T RB) tb l a ta' b tb' :
    vrun pa ta pb tb l (Ret a) ta' (Ret b) tb' -> completes pa ta (watch pb []) tb a (b, l).
  Proof. intro H. eapply jrun_completes. exact (vrun_watch _ _ _ _ _ _ _ _ _ [] H). Qed.
End P.
