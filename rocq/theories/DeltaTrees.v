(** The GGM trees of an expansion have no accidental collisions. *)
From Verif Require Import Base BaseFacts ListFacts GgmModel GgmSpec GgmFinal ProcModel RotSpec HideSpec HideFinal DeltaSpec DeltaRun.
Local Open Scope Z_scope.

Lemma width_le t n l : well_shaped t 2 n -> 0 <= l < height t -> width t l <= 2 ^ l.
Proof.
  intros (H1 & H2 & H3 & H4) Hl. assert (H0 : 0 <= l) by lia. revert Hl. pattern l. apply natlike_ind; [|intros x Hx IH Hx2|exact H0].
  - intros _. rewrite H2. reflexivity.
  - specialize (H4 x ltac:(lia)). unfold Z.succ in *. rewrite Z.pow_add_r by lia. specialize (IH ltac:(lia)). lia.
Qed.
Lemma node_tree_node aes seed k0 k1 t n : well_shaped t 2 n -> is_ggm_tree aes seed [k0; k1] t ->
  forall l x, Z.of_nat l < height t -> 0 <= x < width t (Z.of_nat l) -> node t (Z.of_nat l) x = tree_node aes k0 k1 seed l x.
Proof.
  intros Hw [H0 H1]. induction l as [|l IH]; intros x Hl Hx.
  - destruct Hw as (_ & W & _). change (Z.of_nat 0) with 0 in *. replace x with 0 by lia. exact H0.
  - rewrite Nat2Z.inj_succ in *. unfold Z.succ in *. specialize (H1 (Z.of_nat l) x ltac:(lia) Hx). cbv zeta in H1. change (zlen [k0; k1]) with 2 in H1.
    rewrite H1. cbn [tree_node]. assert (Hd : 0 <= x / 2 < width t (Z.of_nat l)).
    { destruct Hw as (_ & _ & _ & Hw). specialize (Hw (Z.of_nat l) ltac:(lia)). split; [apply Z.div_pos; lia|]. apply Z.div_lt_upper_bound; lia. }
    rewrite IH by (auto; lia). f_equal. f_equal. rewrite Zeven_mod. pose proof (Z.mod_pos_bound x 2 ltac:(lia)).
    destruct (Z.eqb_spec (x mod 2) 0) as [E|E]; [now rewrite E|]. now replace (x mod 2) with 1 by lia.
Qed.

Lemma seed_pos_lt sizes i : nonempty sizes i -> (2 <= seed_pos sizes i < drawn_for sizes)%nat.
Proof.
  intros [Hi Hne]. unfold seed_pos, drawn_for. split; [lia|].
  rewrite <- (firstn_skipn (Z.to_nat i) sizes) at 2. rewrite filter_app, app_length.
  assert (E : exists l, skipn (Z.to_nat i) sizes = znth 0 sizes i :: l).
  { unfold znth in *. replace (i <? 0) with false in * by lia. unfold zlen in Hi. assert (Hl : (Z.to_nat i < List.length sizes)%nat) by lia. clear Hi Hne.
    revert Hl. generalize (Z.to_nat i). clear i. induction sizes as [|x l IH]; cbn; intros n Hl; [lia|]. destruct n; cbn; [eauto|]. apply IH. lia. }
  destruct E as [l E]. rewrite E. cbn [filter]. replace (znth 0 sizes i =? 0) with false by lia. cbn. lia.
Qed.

Section Trees.
  Context {T : Type}.
  Variable aes : N -> N -> N.
  Variable clog : Z -> Z -> nat.
  Variable sizes : list Z.
  Variable ta : tape T.
  Hypothesis Hok : forall i, nonempty sizes i -> 1 <= znth 0 sizes i /\ supported_size clog (znth 0 sizes i).

  Definition the_tree (i : Z) : tree :=
    match ggm_create aes clog (znth 0 sizes i) (fst (ta (seed_pos sizes i))) [fst (ta 0%nat); fst (ta 1%nat)] with
    | Ok t => t
    | _ => Tree 2 [] [] []
    end.
  Lemma the_tree_ok i : nonempty sizes i -> batch_tree aes clog sizes ta i (the_tree i).
  Proof.
    intro Hi. destruct (Hok i Hi) as [H1 [_ H2]].
    destruct (create_ok aes clog (znth 0 sizes i) (fst (ta (seed_pos sizes i))) [fst (ta 0%nat); fst (ta 1%nat)])
      as (t & E & _ & _ & _ & Hh & _ & Hs & Hg); [change (2 <= 2); lia|exact H1|exact H2|].
    unfold batch_tree, the_tree. rewrite E. split; [exact Hs|]. split; [exact Hh|exact Hg].
  Qed.

  (** The tape is the rest of the receiver's tape from position [m] on. *)
  Lemma the_trees_unique depth blocks m (pos : list Z) :
    (forall p, (p < drawn_for sizes)%nat -> (m + p < List.length blocks)%nat /\ nth (m + p) blocks 0%N = fst (ta p)) ->
    no_collisions aes depth blocks -> (forall i, nonempty sizes i -> (clog 2 (znth 0%Z sizes i) <= depth)%nat) ->
    (forall i, nonempty sizes i -> (0 <= znth 0 pos i < znth 0 sizes i)%Z) -> parents_unique sizes pos the_tree.
  Proof.
    intros Hb Hc Hd Hp i j l x Hi Hj Hh Hl Hx E.
    destruct (the_tree_ok i Hi) as (Wi & Hhi & Gi). destruct (the_tree_ok j Hj) as (Wj & Hhj & Gj).
    unfold last_parent in E. set (l' := height (the_tree i) - 2) in *. set (x' := znth 0 pos i / 2) in *.
    assert (Hx' : 0 <= x' < width (the_tree i) l').
    { destruct Wi as (_ & _ & W3 & W4). specialize (W4 l' ltac:(lia)). replace (l' + 1) with (height (the_tree i) - 1) in W4 by lia. rewrite W3 in W4.
      pose proof (Hp i Hi). unfold x'. split; [apply Z.div_pos; lia|apply Z.div_lt_upper_bound; lia]. }
    rewrite <- (Z2Nat.id l) in E, Hx by lia. rewrite <- (Z2Nat.id l') in E, Hx' by lia.
    rewrite (node_tree_node _ _ _ _ _ _ Wj Gj), (node_tree_node _ _ _ _ _ _ Wi Gi) in E by (auto; lia).
    pose proof (seed_pos_lt sizes i Hi) as Si. pose proof (seed_pos_lt sizes j Hj) as Sj.
    destruct (Hb 0%nat ltac:(lia)) as [B0 N0]. destruct (Hb 1%nat ltac:(lia)) as [B1 N1].
    destruct (Hb (seed_pos sizes i) ltac:(lia)) as [Bi Ni]. destruct (Hb (seed_pos sizes j) ltac:(lia)) as [Bj Nj].
    pose proof (Hd i Hi). pose proof (Hd j Hj).
    pose proof (width_le _ _ (Z.of_nat (Z.to_nat l')) Wi ltac:(lia)). pose proof (width_le _ _ (Z.of_nat (Z.to_nat l)) Wj ltac:(lia)).
    destruct (Hc (m + 0)%nat (m + seed_pos sizes j)%nat (m + seed_pos sizes i)%nat (Z.to_nat l) (Z.to_nat l') x x') as (E1 & E2 & E3); try lia.
    - replace (m + 0 + 1)%nat with (m + 1)%nat by lia. rewrite N0, N1, Ni, Nj. exact E.
    - split; [apply (seed_pos_inj sizes); auto; lia|]. split; lia.
  Qed.
End Trees.
