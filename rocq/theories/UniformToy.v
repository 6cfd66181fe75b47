(** A small session with the library's distributions. *)
From Verif Require Import Base BaseFacts ListFacts ScalarModel ScalarSpec ScalarProofs ProcModel ProcSpec ProcProofs RngModel RngUsable VoleModel VoleSpec VoleSolo VoleHistory VoleToy UseSpec VoleUse DeltaSpec
  UniformModel UniformSpec UniformProofs UniformFinal.
From Coq Require Import Permutation QArith.
Local Open Scope Z_scope.

Notation lib_setting uniform := (with_aes uniform (toy_setting toy_K) toy_aes).
Notation lib_machine uniform id peer := (machine_with_aes uniform (toy_machine id peer) toy_aes).

Lemma lib_good uniform aes K : library_draw uniform -> good_setting F (with_aes uniform (toy_setting K) aes).
Proof.
  intro Hu. destruct (toy_good K). constructor; try assumption. intros n g Hn Hg. cbn [with_aes e_uniform e_aes].
  pose proof (library_good_draw uniform aes n g Hu Hn Hg) as H. destruct (uniform aes n g) as [[g' i]| |]; [|exact H|exact H]. destruct H as (H1 & H2 & _). auto.
Qed.
Lemma lib_machine_good uniform aes id peer : library_draw uniform -> good_machine F (machine_with_aes uniform (toy_machine id peer) aes).
Proof.
  intro Hu. destruct (toy_machine_good id peer). constructor; try assumption. intros n g Hn Hg. cbn [machine_with_aes c_uniform64].
  pose proof (library_good_draw uniform aes n g Hu Hn Hg) as H. destruct (uniform aes n g) as [[g' i]| |]; [|exact H|exact H]. destruct H as (H1 & _ & H2). auto.
Qed.

Lemma lib_uniform64 uniform (E : setting) (M : machine F) aes : c_uniform64 (machine_with_aes uniform M aes) = uniform (e_aes (with_aes uniform E aes)).
Proof. reflexivity. Qed.
Lemma lib_uniform uniform (E : setting) aes : e_uniform (with_aes uniform E aes) = uniform (e_aes (with_aes uniform E aes)).
Proof. reflexivity. Qed.

Definition life S E (M : machine S) l : proc S (res (list (bool * call S * res (answer S)) * vole S)) :=
  pbindr (vole_create S M false) (fun st => pbind (recorded S E M l st) (fun r => Ret (Ok r))).

Lemma exec_ran {T RA RB} fuel : forall (pa : proc T RA) ta (pb : proc T RB) tb ab ba a b,
  exec fuel pa ta pb tb ab ba = Some (a, b) -> exists l, ran pa l a /\ Forall (fun x => exists i, (i < fuel)%nat /\ x = ta i) l.
Proof.
  induction fuel as [|fuel IH]; intros pa ta pb tb ab ba a b H; cbn in H; [discriminate|].
  destruct (pstep pa ta ba ab) as [[[[pa' ta'] ba'] ab']|] eqn:Ea.
  - apply IH in H. destruct H as (l & H1 & H2). assert (H2' : Forall (fun x => exists i, (i < S fuel)%nat /\ x = ta' i) l) by (eapply Forall_impl; [|exact H2]; intros x (i & Hi & ->); exists i; split; [lia|reflexivity]). destruct pa as [x|m k|k|cot cs k|k]; cbn in Ea.
    + discriminate.
    + injection Ea as <- <- <- <-. exists l. split; [now constructor|auto].
    + destruct ba as [|m ba]; [discriminate|]. injection Ea as <- <- <- <-. exists l. split; [now apply ran_recv with (m := m)|auto].
    + destruct ba as [|m ba]; [discriminate|]. injection Ea as <- <- <- <-. exists l. split; [eapply ran_ot; exact H1|auto].
    + injection Ea as <- <- <- <-. exists (ta 0%nat :: l). split; [destruct (ta 0%nat); now constructor|]. constructor; [exists 0%nat; split; [lia|reflexivity]|].
      eapply Forall_impl; [|exact H2]. intros x (i & Hi & ->). exists (S i). split; [lia|reflexivity].
  - destruct (pstep pb tb ab ba) as [[[[pb' tb'] ab'] ba']|] eqn:Eb.
    { apply IH in H. destruct H as (l & H1 & H2). exists l. split; [auto|]. eapply Forall_impl; [|exact H2]. intros x (i & Hi & ->). exists i. split; [lia|reflexivity]. }
    destruct pa; try discriminate. destruct pb; try discriminate. injection H as <- <-. exists []. split; constructor.
Qed.
Lemma session_two S E (M M' : machine S) fuel ta tb c1 c2 l' ok : match exec fuel (life S E M [(true, c1); (true, c2)]) ta (life S E M' l') tb [] [] with
    | Some (Ok ([(_, _, Ok Precomputed); (_, _, Ok (Sender u v))], st), _) => ok u v st
    | _ => false
    end = true ->
  exists st0 st l0 l st' u v, created S M st0 /\ ran (as_sender S E M c1 st0) l0 (st, Ok Precomputed) /\ ran (as_sender S E M c2 st) l (st', Ok (Sender u v)) /\
    Forall (fun x => exists i, (i < fuel)%nat /\ x = ta i) l /\ ok u v st' = true.
Proof.
  destruct (exec _ _ _ _ _ _ _) as [[a b]|] eqn:Hx; [|discriminate]. apply exec_ran in Hx. destruct Hx as (l & H & HF). intro Hok. destruct a as [[h st']|?|?]; try discriminate.
  unfold life in H. unfold pbindr in H. apply ran_bind_inv in H. destruct H as (l1 & r & l2 & H1 & H & ->). destruct r as [st0|?|?]; [|apply ran_ret_inv in H; destruct H; discriminate|apply ran_ret_inv in H; destruct H; discriminate].
  apply ran_bind_inv in H. destruct H as (l3 & r & l4 & H & H2 & ->). apply ran_ret_inv in H2. destruct H2 as [-> H2]. injection H2 as <-.
  cbn [recorded] in H. apply ran_bind_inv in H. destruct H as (l5 & [st r1] & l6 & H3 & H & ->). apply ran_bind_inv in H. destruct H as (l7 & [h1 st2] & l8 & H & H2 & ->).
  apply ran_ret_inv in H2. destruct H2 as [-> H2]. injection H2 as -> ->.
  apply ran_bind_inv in H. destruct H as (l9 & [st3 r2] & l10 & H4 & H & ->). cbn [pbind] in H. apply ran_ret_inv in H. destruct H as [-> H]. injection H as -> ->.
  destruct r1 as [[|? ?|? ?]|?|?]; try discriminate. destruct r2 as [[|u v|? ?]|?|?]; try discriminate. rewrite !app_nil_r in HF.
  exists st0, st, l5, l9, st3, u, v. split; [apply ran_possible in H1; exact H1|]. split; [auto|]. split; [auto|]. split; [|auto]. rewrite !Forall_app in HF. tauto.
Qed.
