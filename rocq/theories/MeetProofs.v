(** Two processes running against each other, one of which may fail while the
    other waits for it. *)
From Verif Require Import Base ProcModel ProcSpec ProcProofs.

Section Meet.
  Variable T : Type.

  (** The process waits for a message. *)
  Definition waits {R} (p : proc T R) : Prop :=
    (exists k, p = Recv k) \/ (exists c cs k, p = OtRecv c cs k).
  Lemma waits_bind {A B} (p : proc T A) (f : A -> proc T B) : waits p -> waits (pbind p f).
  Proof. intros [[k ->] | (c & cs & k & ->)]; cbn; [left|right]; eauto. Qed.

  Definition meet {A B} (fa : A -> Prop) (fb : B -> Prop) (post : A -> B -> Prop) (pa : proc T A) (pb : proc T B) : Prop :=
    forall ta tb,
      (exists a b ta' tb', jrun pa ta pb tb (Ret a) ta' (Ret b) tb' /\ post a b) \/
      (exists a pb' ta' tb', jrun pa ta pb tb (Ret a) ta' pb' tb' /\ waits pb' /\ fa a) \/
      (exists pa' b ta' tb', jrun pa ta pb tb pa' ta' (Ret b) tb' /\ waits pa' /\ fb b).

  Lemma meet_ret {A B} fa fb (post : A -> B -> Prop) a b : post a b -> meet fa fb post (Ret a) (Ret b).
  Proof. intros H ta tb. left. exists a, b, ta, tb. split; [apply jrun_refl|auto]. Qed.

  Lemma meet_prefix {A B} fa fb (post : A -> B -> Prop) pa pb pa' pb' :
    (forall ta tb, exists ta' tb', jrun pa ta pb tb pa' ta' pb' tb') ->
    meet fa fb post pa' pb' -> meet fa fb post pa pb.
  Proof.
    intros HJ H ta tb. destruct (HJ ta tb) as (ta1 & tb1 & J). destruct (H ta1 tb1) as [(a & b & ta' & tb' & J' & X) | [(a & q & ta' & tb' & J' & X) | (q & b & ta' & tb' & J' & X)]].
    - left. exists a, b, ta', tb'. split; auto. eapply jrun_trans; eauto.
    - right; left. exists a, q, ta', tb'. split; auto. eapply jrun_trans; eauto.
    - right; right. exists q, b, ta', tb'. split; auto. eapply jrun_trans; eauto.
  Qed.
  (** The next state may depend on random choices. *)
  Lemma meet_random {A B I} fa fb (post : A -> B -> Prop) pa pb (pa' : I -> proc T A) (pb' : I -> proc T B) :
    (forall ta tb, exists i ta' tb', jrun pa ta pb tb (pa' i) ta' (pb' i) tb') ->
    (forall i, meet fa fb post (pa' i) (pb' i)) -> meet fa fb post pa pb.
  Proof.
    intros HJ H ta tb. destruct (HJ ta tb) as (i & ta1 & tb1 & J). destruct (H i ta1 tb1) as [(a & b & ta' & tb' & J' & X) | [(a & q & ta' & tb' & J' & X) | (q & b & ta' & tb' & J' & X)]].
    - left. exists a, b, ta', tb'. split; auto. eapply jrun_trans; eauto.
    - right; left. exists a, q, ta', tb'. split; auto. eapply jrun_trans; eauto.
    - right; right. exists q, b, ta', tb'. split; auto. eapply jrun_trans; eauto.
  Qed.

  Lemma meet_a_fails {A B} (fa : A -> Prop) fb (post : A -> B -> Prop) a pb : fa a -> waits pb -> meet fa fb post (Ret a) pb.
  Proof. intros H W ta tb. right; left. exists a, pb, ta, tb. split; [apply jrun_refl|auto]. Qed.
  Lemma meet_b_fails {A B} fa (fb : B -> Prop) (post : A -> B -> Prop) pa b : fb b -> waits pa -> meet fa fb post pa (Ret b).
  Proof. intros H W ta tb. right; right. exists pa, b, ta, tb. split; [apply jrun_refl|auto]. Qed.

  Lemma meet_bind {A B A' B'} (fa : A -> Prop) (fb : B -> Prop) fa' fb' (post : A -> B -> Prop) (post' : A' -> B' -> Prop) pa pb
      (f : A -> proc T A') (g : B -> proc T B') :
    meet fa fb post pa pb ->
    (forall a b, post a b -> meet fa' fb' post' (f a) (g b)) ->
    (forall a, fa a -> exists a', f a = Ret a' /\ fa' a') ->
    (forall b, fb b -> exists b', g b = Ret b' /\ fb' b') ->
    meet fa' fb' post' (pbind pa f) (pbind pb g).
  Proof.
    intros H Hk Hfa Hfb ta tb. destruct (H ta tb) as [(a & b & ta' & tb' & J & X) | [(a & q & ta' & tb' & J & W & X) | (q & b & ta' & tb' & J & W & X)]];
      apply (jrun_bind f g) in J; cbn [pbind] in J.
    - destruct (Hk a b X ta' tb') as [(a1 & b1 & ta1 & tb1 & J1 & X1) | [(a1 & q1 & ta1 & tb1 & J1 & X1) | (q1 & b1 & ta1 & tb1 & J1 & X1)]].
      + left. exists a1, b1, ta1, tb1. split; auto. eapply jrun_trans; eauto.
      + right; left. exists a1, q1, ta1, tb1. split; auto. eapply jrun_trans; eauto.
      + right; right. exists q1, b1, ta1, tb1. split; auto. eapply jrun_trans; eauto.
    - right; left. destruct (Hfa a X) as (a' & E & X'). rewrite E in J. exists a', (pbind q g), ta', tb'.
      split; [exact J|]. split; [now apply waits_bind|auto].
    - right; right. destruct (Hfb b X) as (b' & E & X'). rewrite E in J. exists (pbind q f), b', ta', tb'.
      split; [exact J|]. split; [now apply waits_bind|auto].
  Qed.

  Lemma meet_swap {A B} fa fb (post : A -> B -> Prop) pa pb :
    meet fb fa (fun b a => post a b) pb pa -> meet fa fb post pa pb.
  Proof.
    intros H ta tb. destruct (H tb ta) as [(b & a & tb' & ta' & J & X) | [(b & q & tb' & ta' & J & X) | (q & a & tb' & ta' & J & X)]]; apply jrun_swap in J.
    - left. exists a, b, ta', tb'. auto.
    - right; right. exists q, b, ta', tb'. auto.
    - right; left. exists a, q, ta', tb'. auto.
  Qed.

  Lemma meet_weaken {A B} (fa fa' : A -> Prop) (fb fb' : B -> Prop) (post post' : A -> B -> Prop) pa pb :
    meet fa fb post pa pb -> (forall a, fa a -> fa' a) -> (forall b, fb b -> fb' b) -> (forall a b, post a b -> post' a b) ->
    meet fa' fb' post' pa pb.
  Proof.
    intros H H1 H2 H3 ta tb. destruct (H ta tb) as [(a & b & ta' & tb' & J & X) | [(a & q & ta' & tb' & J & W & X) | (q & b & ta' & tb' & J & W & X)]].
    - left. exists a, b, ta', tb'. auto.
    - right; left. exists a, q, ta', tb'. auto.
    - right; right. exists q, b, ta', tb'. auto.
  Qed.
End Meet.
Arguments waits {T R}. Arguments meet {T A B}.
