(** GGM tree: reconstruction from sibling-wise XORs. *)
From Verif Require Import Base BaseFacts GgmModel GgmSpec GgmProofs NBits GgmProofs2.

(** lia with divisions and remainders treated as opaque. *)
Ltac olia :=
  repeat match goal with H : forall _ : Z, _ |- _ => clear H end;
  repeat match goal with
  | H : context [Z.modulo ?a ?b] |- _ => let x := fresh "x" in set (x := Z.modulo a b) in *; clearbody x
  | |- context [Z.modulo ?a ?b] => let x := fresh "x" in set (x := Z.modulo a b) in *; clearbody x
  | H : context [Z.div ?a ?b] |- _ => let x := fresh "x" in set (x := Z.div a b) in *; clearbody x
  | |- context [Z.div ?a ?b] => let x := fresh "x" in set (x := Z.div a b) in *; clearbody x
  end; lia.

Lemma missing_path_spec A k : 0 < A -> forall idx acc, 0 <= idx ->
  zlen (missing_path_down k A idx acc) = Z.of_nat k + zlen acc /\
  forall i, 0 <= i ->
    znth 0 (missing_path_down k A idx acc) i =
      if i <? Z.of_nat k then idx / A ^ (Z.of_nat k - 1 - i) else znth 0 acc (i - Z.of_nat k).
Proof.
  intro HA. induction k as [|k IH]; intros idx acc Hi; cbn [missing_path_down].
  - split; [lia|]. intros i Hi0. replace (i <? Z.of_nat 0) with false by lia. f_equal; lia.
  - rewrite Z.quot_div_nonneg by lia.
    destruct (IH (idx / A) (idx :: acc)) as [H1 H2]; [apply Z.div_pos; lia|].
    split; [rewrite H1, zlen_cons; lia|].
    intros i Hi0. rewrite H2 by auto.
    destruct (Z.ltb_spec i (Z.of_nat k)).
    + replace (i <? Z.of_nat (S k)) with true by lia.
      rewrite Z.div_div by (try lia; apply Z.pow_pos_nonneg; lia).
      replace (Z.of_nat (S k) - 1 - i) with (Z.succ (Z.of_nat k - 1 - i)) by lia.
      now rewrite Z.pow_succ_r by lia.
    + rewrite znth_cons by lia. destruct (Z.eqb_spec (i - Z.of_nat k) 0).
      * replace (i <? Z.of_nat (S k)) with true by lia.
        replace (Z.of_nat (S k) - 1 - i) with 0 by lia. now rewrite Z.pow_0_r, Z.div_1_r.
      * replace (i <? Z.of_nat (S k)) with false by lia. f_equal; lia.
Qed.

Lemma expand_keys_ok A keys : A = zlen keys -> expand_keys A keys = Ok keys.
Proof.
  intros ->. unfold expand_keys.
  rewrite (rmapM_ok _ (fun i => znth 0%N keys i)).
  - f_equal. apply (znth_ext 0%N).
    + rewrite zlen_map, zlen_zrange; pose proof (zlen_nonneg keys); lia.
    + intros i Hi. rewrite zlen_map, zlen_zrange in Hi by apply zlen_nonneg.
      rewrite (znth_map _ 0) by (rewrite zlen_zrange by apply zlen_nonneg; lia).
      rewrite znth_zrange by lia. f_equal; lia.
  - intros i Hi. apply In_zrange in Hi. apply zget_ok. lia.
Qed.

Lemma g_outside lv l i : ~ (0 <= l < zlen lv /\ 0 <= i < w lv l) -> g lv l i = 0%N.
Proof.
  intro H. destruct (Z_lt_dec l 0); [apply g_out; rewrite w_out by lia; lia|].
  destruct (Z_lt_dec l (zlen lv)); [apply g_out; lia|apply g_out; rewrite w_out by lia; lia].
Qed.

Section Rec.
  Variable aes : N -> N -> N.
  Variable A : Z.
  Variable keys : list N.
  Hypothesis HA : 2 <= A.
  Hypothesis Hkeys : zlen keys = A.
  Variable n m : Z.
  Hypothesis Hm : 0 <= m < n.
  Variable lv0 : list (list N).
  Hypothesis Hsh : shaped A n lv0.
  Hypothesis Hroot : w lv0 0 = 1.

  Let L := zlen lv0.
  Let W := w lv0.
  (** Node of level l on the path to leaf m. *)
  Definition pth (l : Z) : Z := m / A ^ (L - 1 - l).

  Lemma L_pos : 1 <= L. Proof. apply Hsh. Qed.
  Lemma HA0 : 0 < A. Proof. lia. Qed.
  Lemma powA d : 0 <= d -> 0 < A ^ d. Proof. intro. apply Z.pow_pos_nonneg; lia. Qed.
  Lemma Wpos l : 0 <= l < L -> 1 <= W l.
  Proof. apply (shaped_pos A n lv0 HA0 ltac:(lia) Hsh). Qed.
  Lemma Wstep l : 0 <= l -> l + 1 < L -> A * (W l - 1) < W (l + 1) <= A * W l.
  Proof. intros. apply (shaped_step A n lv0 HA0 Hsh). fold L. lia. Qed.

  Lemma pth_parent l : 1 <= l < L -> pth l / A = pth (l - 1).
  Proof.
    intro Hl. unfold pth. rewrite Z.div_div by (try lia; pose proof (powA (L - 1 - l)); lia).
    f_equal. replace (L - 1 - (l - 1)) with (Z.succ (L - 1 - l)) by lia. rewrite Z.pow_succ_r by lia. lia.
  Qed.
  Lemma pth_range l : 0 <= l < L -> 0 <= pth l < W l.
  Proof.
    intro Hl. unfold pth. pose proof (powA (L - 1 - l) ltac:(lia)) as HP.
    apply div_range; auto. unfold W. rewrite (proj2 Hsh) by auto. fold L.
    pose proof (ceil_div_spec n _ HP). lia.
  Qed.
  Lemma pth_0 : pth 0 = 0.
  Proof. pose proof L_pos. pose proof (pth_range 0 ltac:(lia)) as HH. unfold W in HH. rewrite Hroot in HH. lia. Qed.

  Lemma anc_range l' l i : 0 <= l -> l <= l' < L -> 0 <= i < W l' -> 0 <= i / A ^ (l' - l) < W l.
  Proof.
    intros Hl Hl' Hi. apply div_range; [apply powA; lia|].
    split; [lia|]. unfold W in *. rewrite (proj2 Hsh) in Hi |- * by (fold L; lia). fold L in Hi |- *.
    pose proof (powA (L - 1 - l) ltac:(lia)) as HP. pose proof (powA (L - 1 - l') ltac:(lia)) as HP'.
    pose proof (powA (l' - l) ltac:(lia)) as HP2.
    pose proof (ceil_div_spec n _ HP) as H1. pose proof (ceil_div_spec n _ HP') as H2.
    assert (E : A ^ (L - 1 - l) = A ^ (L - 1 - l') * A ^ (l' - l)).
    { rewrite <- Z.pow_add_r by lia. f_equal. lia. }
    rewrite E in *. set (P := A ^ (L - 1 - l')) in *. set (Q := A ^ (l' - l)) in *.
    set (c := ceil_div n P) in *. set (d := ceil_div n (P * Q)) in *. clearbody P Q c d. clear E.
    assert (P * (c - 1) < P * (Q * d)) by nia. nia.
  Qed.
  Lemma anc_step l' l i : 0 <= l -> l < l' -> i / A ^ (l' - l) = i / A / A ^ (l' - 1 - l).
  Proof.
    intros. rewrite Z.div_div by (try lia; pose proof (powA (l' - 1 - l)); lia).
    f_equal. replace (l' - l) with (Z.succ (l' - 1 - l)) by lia. rewrite Z.pow_succ_r by lia. lia.
  Qed.
  Lemma anc_up l' l i : 1 <= l -> l <= l' -> i / A ^ (l' - (l - 1)) = i / A ^ (l' - l) / A.
  Proof.
    intros. rewrite Z.div_div by (try lia; pose proof (powA (l' - l)); lia).
    f_equal. replace (l' - (l - 1)) with (Z.succ (l' - l)) by lia. rewrite Z.pow_succ_r by lia. lia.
  Qed.

  Notation childA := (child aes A keys).

  (** Sum of the nodes of level [l], position [j], outside the sibling group of
      the path. *)
  Definition outside (R : list (list N)) (l j : Z) : N :=
    xor_sum (W l) (fun i => if (i mod A =? j) && negb (i / A =? pth (l - 1)) then g R l i else 0%N).

  (** Characterisation of level [l] of the reconstruction. *)
  Definition level_spec (X R : list (list N)) (l : Z) : Prop :=
    g R l (pth l) = 0%N /\
    (1 <= l -> forall i, 0 <= i < W l ->
       (i / A <> pth (l - 1) -> g R l i = childA R l i) /\
       (i / A = pth (l - 1) -> i <> pth l ->
          g R l i = N.lxor (outside R l (i mod A)) (g X (l - 1) (i mod A)))).
  Definition rec_spec (X R : list (list N)) : Prop := forall l, 0 <= l < L -> level_spec X R l.

  Definition inv (X : list (list N)) (l : Z) (R : list (list N)) : Prop :=
    same_shape R lv0 /\ (forall l', 0 <= l' < l -> level_spec X R l') /\
    forall l' i, l <= l' < L -> 0 <= i < W l' ->
      (i / A ^ (l' - (l - 1)) = pth (l - 1) -> g R l' i = 0%N) /\
      (i / A ^ (l' - (l - 1)) <> pth (l - 1) -> g R l' i = childA R l' i).

  Lemma level_spec_ext X R R' l : (forall i, g R' l i = g R l i) -> (forall i, g R' (l - 1) i = g R (l - 1) i) ->
    level_spec X R l -> level_spec X R' l.
  Proof.
    intros E1 E2 [H1 H2]. split; [now rewrite E1|]. intros Hl i Hi. destruct (H2 Hl i Hi) as [H3 H4].
    unfold child in *. rewrite E1, E2. split; [auto|]. intros Hp Hn. rewrite H4 by auto. f_equal.
    unfold outside. apply xor_sum_ext. intros j Hj. now rewrite E1.
  Qed.

  Lemma inv_init X : (forall l i, g lv0 l i = 0%N) -> inv X 1 lv0.
  Proof.
    intro Hz. split; [apply same_shape_refl|]. split.
    - intros l' Hl'. replace l' with 0 by lia. split; [apply Hz|lia].
    - intros l' i Hl' Hi. split; [intros; apply Hz|]. intro H. exfalso. apply H.
      replace (1 - 1) with 0 by lia. rewrite pth_0.
      pose proof (anc_range l' 0 i ltac:(lia) ltac:(lia) Hi) as H2. unfold W in H2 at 1. rewrite Hroot in H2. lia.
  Qed.

  (** State of the loop over siblings at level [l]. *)
  Definition sib_inv (X R : list (list N)) (cur row : list N) (l s : Z) (R' : list (list N)) : Prop :=
    same_shape R' lv0 /\
    (forall l' i, l' < l -> g R' l' i = g R l' i) /\
    (forall i, 0 <= i < W l -> i / A <> pth (l - 1) -> g R' l i = g R l i) /\
    (forall i, 0 <= i < W l -> i / A = pth (l - 1) ->
       g R' l i = if negb (i =? pth l) && (i mod A <? s)
                  then N.lxor (znth 0%N cur (i mod A)) (znth 0%N row (i mod A)) else 0%N) /\
    (forall l' i, l < l' < L -> 0 <= i < W l' ->
       let a := i / A ^ (l' - l) in
       if (a / A =? pth (l - 1)) && ((a =? pth l) || (s <=? a mod A))
       then g R' l' i = 0%N else g R' l' i = childA R' l' i).

  Lemma mod_base i p : i / A = p -> i = p * A + i mod A.
  Proof. intro H. pose proof (Z.div_mod i A ltac:(lia)). nia. Qed.

  Lemma sib_step X R cur row l s R' path :
    1 <= l < L -> 0 <= s -> s < A -> pth (l - 1) * A + s < W l ->
    zlen cur = A -> zlen row = A -> zget path l = Ok (pth l) ->
    sib_inv X R cur row l s R' ->
    exists R'', reconstruct_sibling aes A keys path cur row l (pth (l - 1) * A) s R' = Ok R'' /\
      sib_inv X R cur row l (s + 1) R''.
  Proof.
    intros Hl Hs HsA Hsw Hcur Hrow Hpath (Hss & Hlow & Hoth & Hsib & Hdesc).
    set (base := pth (l - 1) * A) in *. pose proof (pth_range (l - 1) ltac:(olia)) as Hp1.
    assert (Hbase : 0 <= base) by (unfold base; nia).
    assert (Hmod : (base + s) mod A = s).
    { unfold base. rewrite Z.add_comm, Z.mod_add by olia. apply Z.mod_small; olia. }
    assert (Hdiv : (base + s) / A = pth (l - 1)).
    { unfold base. apply div_eq_iff; olia. }
    assert (Hgrp : forall i, i / A = pth (l - 1) -> i mod A = s -> i = base + s).
    { intros i H1 H2. rewrite (mod_base i _ H1), H2. reflexivity. }
    unfold reconstruct_sibling. rewrite Hpath. cbn [rbind].
    destruct (Z.eqb_spec (base + s) (pth l)) as [Ep|Ep].
    - (* the node on the path is skipped *)
      exists R'. split; auto. split; [auto|]. split; [auto|]. split; [auto|]. split.
      + intros i Hi Hg. rewrite Hsib by auto.
        destruct (Z.eqb_spec i (pth l)); cbn [negb andb]; auto.
        pose proof (Z.mod_pos_bound i A HA0).
        assert (i mod A <> s) by (intro E; apply n0; rewrite (Hgrp i) by auto; auto).
        replace (i mod A <? s + 1) with (i mod A <? s) by olia. reflexivity.
      + intros l' i Hl' Hi. specialize (Hdesc l' i Hl' Hi). cbv zeta in *. set (a := i / A ^ (l' - l)) in *.
        destruct (Z.eqb_spec (a / A) (pth (l - 1))); cbn [andb] in *; auto.
        destruct (Z.eqb_spec a (pth l)); cbn [orb] in *; auto.
        assert (a mod A <> s) by (intro E; apply n0; rewrite (Hgrp a) by auto; auto).
        replace (s + 1 <=? a mod A) with (s <=? a mod A) by olia. exact Hdesc.
    - rewrite (zget_ok 0%N cur) by olia. cbn [rbind]. rewrite (zget_ok 0%N row) by olia. cbn [rbind].
      set (v := N.lxor (znth 0%N cur s) (znth 0%N row s)).
      assert (HwR : forall l, w R' l = W l) by apply Hss.
      assert (HzR : zlen R' = L) by apply Hss.
      destruct (set_node_ok R' l (base + s) v) as (R1 & E1 & Hs1 & Hg1); [olia|rewrite HwR; olia|].
      rewrite E1. cbn [rbind].
      assert (HwR1 : forall l, w R1 l = W l) by (intro; destruct Hs1 as [_ ->]; apply HwR).
      assert (HzR1 : zlen R1 = L) by (destruct Hs1 as [-> _]; auto).
      destruct (expand_subtree_ok aes A keys HA0 ltac:(olia) l (base + s) R1) as (R2 & E2 & Hs2 & Hb & Hnb).
      { olia. } { rewrite HwR1; olia. }
      { intros l1 H1 H2. rewrite !HwR1. rewrite HzR1 in H2. exact (proj2 (Wstep l1 H1 H2)). }
      exists R2. split; auto.
      assert (HwR2 : forall l, w R2 l = W l) by (intro; destruct Hs2 as [_ ->]; apply HwR1).
      assert (HzR2 : zlen R2 = L) by (destruct Hs2 as [-> _]; auto).
      assert (Hu : forall l' i, ~ below A l (base + s) l' i -> ~ (l' = l /\ i = base + s) -> g R2 l' i = g R' l' i).
      { intros l' i Hn1 Hn2.
        assert (Hin : (0 <= l' < L /\ 0 <= i < W l') \/ ~ (0 <= l' < L /\ 0 <= i < W l')) by (clear; olia).
        destruct Hin as [[Hin1 Hin2]|Hout];
          [|rewrite !g_outside; [reflexivity|rewrite HzR, HwR; exact Hout|rewrite HzR2, HwR2; exact Hout]].
        rewrite Hnb; [|rewrite HzR1; exact Hin1|rewrite HwR1; exact Hin2|exact Hn1].
        rewrite Hg1. destruct (Z.eqb_spec l l'), (Z.eqb_spec (base + s) i); cbn [andb]; auto.
        exfalso; apply Hn2; auto. }
      split; [split; [olia|intro; rewrite HwR2; reflexivity]|].
      split. { intros l' i Hl'. rewrite <- Hlow by auto. apply Hu; unfold below; olia. }
      split. { intros i Hi Hg. rewrite <- Hoth by auto. apply Hu; [unfold below; olia|]. intros [_ ->]. auto. }
      split.
      + intros i Hi Hg. destruct (Z.eq_dec i (base + s)) as [->|Hn].
        * rewrite Hnb; [|olia|rewrite HwR1; olia|unfold below; olia].
          rewrite Hg1, !Z.eqb_refl. cbn [andb]. rewrite Hmod.
          replace (base + s =? pth l) with false by olia. replace (s <? s + 1) with true by olia. reflexivity.
        * rewrite Hu; [|unfold below; olia|olia]. rewrite Hsib by auto.
          assert (i mod A <> s) by (intro E; apply Hn; apply Hgrp; auto).
          replace (i mod A <? s + 1) with (i mod A <? s) by olia. reflexivity.
      + intros l' i Hl' Hi. specialize (Hdesc l' i Hl' Hi). cbv zeta in *. set (a := i / A ^ (l' - l)) in *.
        destruct (Z.eq_dec a (base + s)) as [Ea|Ea].
        * rewrite Ea. replace (base + s =? pth l) with false by olia. rewrite Hmod.
          replace (s + 1 <=? s) with false by olia. cbn [orb]. rewrite andb_false_r.
          apply Hb; [olia|rewrite HwR1; auto|split; [olia|exact Ea]].
        * assert (Eb : g R2 l' i = g R' l' i).
          { apply Hu; [|olia]. intros [_ H]. apply Ea. exact H. }
          assert (Epar : g R2 (l' - 1) (i / A) = g R' (l' - 1) (i / A)).
          { apply Hu.
            - intros [H1 H2]. apply Ea. unfold a. rewrite anc_step by olia. exact H2.
            - intros [H1 H2]. apply Ea. unfold a. rewrite anc_step by olia.
              replace (l' - 1 - l) with 0 by olia. now rewrite Z.pow_0_r, Z.div_1_r. }
          assert (Ec : childA R2 l' i = childA R' l' i) by (unfold child; now rewrite Epar).
          rewrite Eb, Ec.
          destruct (Z.eqb_spec (a / A) (pth (l - 1))); cbn [andb] in *; auto.
          assert (a mod A <> s) by (intro E; apply Ea; apply Hgrp; auto).
          replace (s + 1 <=? a mod A) with (s <=? a mod A) by olia. exact Hdesc.
  Qed.

  Lemma level_step X l R path :
    1 <= l < L -> A < 2^31 -> W l <= 2^31 ->
    (forall l, 0 <= l < L -> zget path l = Ok (pth l)) ->
    zlen X = L - 1 -> (forall l, 0 <= l < L - 1 -> w X l = A) ->
    inv X l R ->
    exists R', reconstruct_level aes A A keys path X l R = Ok R' /\ inv X (l + 1) R'.
  Proof.
    intros Hl HA31 HW31 Hpath HX HXw (Hss & Hlow & Hdesc). unfold reconstruct_level.
    assert (HwR : forall l, w R l = W l) by apply Hss.
    assert (HzR : zlen R = L) by apply Hss.
    rewrite (zget_ok []) by olia. cbn [rbind].
    destruct (xor_blocks_ok (znth [] R l) A HA0) as (cur & Ecur & Hcl & Hcur).
    { change (w R l <= 2^31). rewrite HwR. auto. }
    rewrite Ecur. cbn [rbind]. rewrite Hpath by olia. cbn [rbind].
    rewrite level_size_ok by olia. cbn [rbind]. rewrite HwR.
    pose proof (pth_range (l - 1) ltac:(olia)) as Hp1. set (base := pth (l - 1) * A).
    pose proof (Wstep (l - 1) ltac:(olia) ltac:(olia)) as Hst. replace (l - 1 + 1) with l in Hst by olia.
    assert (HbW : base < W l) by (unfold base; nia).
    rewrite wrap32_id by (unfold base in *; olia).
    rewrite (zget_ok [] X) by olia. cbn [rbind]. set (row := znth [] X (l - 1)).
    assert (Hrow : zlen row = A) by (unfold row; apply HXw; olia).
    set (ns := Z.min A (W l - base)).
    destruct (for_range_inv (sib_inv X R cur row l) 0 ns
               (fun s levels => reconstruct_sibling aes A keys path cur row l base s levels) R)
      as (R' & E & Hss' & Hlow' & Hoth & Hsib & Hdesc').
    - olia.
    - (* initial state *)
      split; [auto|]. split; [auto|]. split; [auto|]. split.
      + intros i Hi Hg. pose proof (Z.mod_pos_bound i A HA0).
        replace (i mod A <? 0) with false by olia. rewrite andb_false_r.
        apply Hdesc; [olia|auto|]. replace (l - (l - 1)) with 1 by olia. now rewrite Z.pow_1_r.
      + intros l' i Hl' Hi. cbv zeta. destruct (Hdesc l' i ltac:(olia) Hi) as [D1 D2].
        rewrite anc_up in D1, D2 by olia. set (a := i / A ^ (l' - l)) in *.
        pose proof (Z.mod_pos_bound a A HA0). replace (0 <=? a mod A) with true by olia. rewrite orb_true_r, andb_true_r.
        destruct (Z.eqb_spec (a / A) (pth (l - 1))); auto.
    - intros s R1 Hs HI. apply (sib_step X R); auto; try (apply Hpath; olia); unfold ns, base in *; olia.
    - exists R'. split; [exact E|]. split; auto.
      assert (HpthA : pth l / A = pth (l - 1)) by (apply pth_parent; auto).
      pose proof (pth_range l ltac:(olia)) as Hpl.
      split.
      + intros l' Hl'. destruct (Z.eq_dec l' l) as [->|Hn].
        * split.
          -- rewrite Hsib by auto. rewrite Z.eqb_refl. reflexivity.
          -- intros _ i Hi. split.
             ++ intro Hg. rewrite Hoth by auto. unfold child. rewrite Hlow' by olia.
                apply (Hdesc l i ltac:(olia) Hi). replace (l - (l - 1)) with 1 by olia. now rewrite Z.pow_1_r.
             ++ intros Hg Hn. rewrite Hsib by auto. pose proof (Z.mod_pos_bound i A HA0).
                replace (i =? pth l) with false by olia.
                replace (i mod A <? ns) with true by (unfold ns, base; pose proof (mod_base i _ Hg); olia).
                cbn [negb andb]. rewrite Hcur by auto. f_equal. unfold sibling_xor, outside.
                change (zlen (znth [] R l)) with (w R l). rewrite HwR.
                apply xor_sum_ext. intros j Hj. change (znth 0%N (znth [] R l) j) with (g R l j).
                destruct (Z.eqb_spec (j mod A) (i mod A)); cbn [andb]; auto.
                destruct (Z.eqb_spec (j / A) (pth (l - 1))); cbn [negb].
                ** apply (Hdesc l j ltac:(olia) Hj). replace (l - (l - 1)) with 1 by olia. now rewrite Z.pow_1_r.
                ** symmetry. now apply Hoth.
        * apply (level_spec_ext X R R' l'); [intro; apply Hlow'; olia|intro; apply Hlow'; olia|apply Hlow; olia].
      + intros l' i Hl' Hi. specialize (Hdesc' l' i ltac:(olia) Hi). cbv zeta in Hdesc'.
        replace (l + 1 - 1) with l by olia. set (a := i / A ^ (l' - l)) in *.
        pose proof (anc_range l' l i ltac:(olia) ltac:(olia) Hi) as Ha. fold a in Ha.
        split; intro H.
        * rewrite H, HpthA, !Z.eqb_refl in Hdesc'. cbn [andb orb] in Hdesc'. exact Hdesc'.
        * destruct (Z.eqb_spec (a / A) (pth (l - 1))) as [Eg|]; cbn [andb] in Hdesc'; auto.
          replace (a =? pth l) with false in Hdesc' by olia. cbn [orb] in Hdesc'.
          pose proof (Z.mod_pos_bound a A HA0).
          replace (ns <=? a mod A) with false in Hdesc'; auto.
          symmetry. apply Z.leb_gt. unfold ns, base. pose proof (mod_base a _ Eg). olia.
  Qed.

  Lemma levels_loop X path :
    A < 2^31 -> n <= 2^31 -> (forall l i, g lv0 l i = 0%N) ->
    (forall l, 0 <= l < L -> zget path l = Ok (pth l)) ->
    zlen X = L - 1 -> (forall l, 0 <= l < L - 1 -> w X l = A) ->
    exists R, for_range 1 L (reconstruct_level aes A A keys path X) lv0 = Ok R /\
      same_shape R lv0 /\ rec_spec X R.
  Proof.
    intros HA31 Hn31 Hz Hpath HX HXw. pose proof L_pos.
    destruct (for_range_inv (inv X) 1 L (reconstruct_level aes A A keys path X) lv0) as (R & E & HI).
    - lia.
    - now apply inv_init.
    - intros l R Hl HI. apply level_step; auto; try lia.
      pose proof (shaped_le A n lv0 HA0 ltac:(lia) Hsh l ltac:(fold L; lia)). unfold W. lia.
    - exists R. split; auto. destruct HI as (H1 & H2 & _). split; auto.
  Qed.

  (** The characterisation determines the result, using only the XOR entries
      that are off the path. *)
  Lemma rec_spec_unique X X' R R' :
    same_shape R lv0 -> same_shape R' lv0 -> rec_spec X R -> rec_spec X' R' ->
    (forall l j, 1 <= l < L -> 0 <= j < A -> j <> pth l mod A -> g X (l - 1) j = g X' (l - 1) j) ->
    R = R'.
  Proof.
    intros Hs Hs' HR HR' HX. pose proof L_pos.
    assert (HG : forall k, forall i, Z.of_nat k < L -> 0 <= i < W (Z.of_nat k) -> g R (Z.of_nat k) i = g R' (Z.of_nat k) i).
    { induction k as [|k IH]; intros i Hk Hi.
      - change (Z.of_nat 0) with 0 in *. destruct (HR 0 ltac:(lia)) as [H1 _], (HR' 0 ltac:(lia)) as [H2 _].
        unfold W in Hi. rewrite Hroot in Hi. replace i with 0 by lia.
        rewrite pth_0 in *. congruence.
      - set (l := Z.of_nat (S k)) in *. assert (El : l - 1 = Z.of_nat k) by lia.
        assert (Hl : 1 <= l < L) by lia.
        destruct (HR l ltac:(lia)) as [H1 H2], (HR' l ltac:(lia)) as [H3 H4].
        destruct (Z.eq_dec i (pth l)) as [->|Hn]; [congruence|].
        assert (HC : forall j, 0 <= j < W l -> j / A <> pth (l - 1) -> g R l j = g R' l j).
        { intros j Hj Hg. rewrite (proj1 (H2 (proj1 Hl) j Hj) Hg), (proj1 (H4 (proj1 Hl) j Hj) Hg).
          unfold child. rewrite El, IH; auto; [lia|]. rewrite <- El.
          replace A with (A ^ (l - (l - 1))) by (replace (l - (l - 1)) with 1 by lia; now rewrite Z.pow_1_r).
          apply anc_range; lia. }
        destruct (Z.eq_dec (i / A) (pth (l - 1))) as [Eg|Eg]; [|now apply HC].
        rewrite (proj2 (H2 (proj1 Hl) i Hi) Eg Hn), (proj2 (H4 (proj1 Hl) i Hi) Eg Hn). f_equal.
        + unfold outside. apply xor_sum_ext. intros j Hj.
          destruct (Z.eqb_spec (j mod A) (i mod A)); cbn [andb]; auto.
          destruct (Z.eqb_spec (j / A) (pth (l - 1))); cbn [negb]; auto.
        + apply HX; auto; [apply Z.mod_pos_bound; lia|].
          intro E. apply Hn. rewrite (mod_base i _ Eg), E.
          symmetry. apply mod_base. now apply pth_parent. }
    apply levels_ext.
    - eapply same_shape_trans; eauto. destruct Hs' as [A1 A2]. split; [lia|intro; now rewrite A2].
    - intros l i Hl Hi. destruct Hs as [A1 A2]. rewrite A2 in Hi. fold W in Hi.
      replace l with (Z.of_nat (Z.to_nat l)) in * by lia. apply HG; auto. fold L in A1. lia.
  Qed.

  (** Reconstructing from the XORs of a real tree. *)
  Lemma rec_spec_tree seed T X R :
    same_shape T lv0 -> same_shape R lv0 -> ggm_levels aes keys seed T ->
    (forall l j, 1 <= l < L -> 0 <= j < A -> g X (l - 1) j = sibling_xor (znth [] T l) A j) ->
    rec_spec X R ->
    forall l i, 0 <= l < L -> 0 <= i < W l ->
      g R l i = if i =? pth l then 0%N else g T l i.
  Proof.
    intros HsT HsR [HT0 HT] HX HR l i Hl. revert i.
    replace l with (Z.of_nat (Z.to_nat l)) in * by lia. set (k := Z.to_nat l) in *. clearbody k. clear l.
    induction k as [|k IH]; intros i Hi.
    - change (Z.of_nat 0) with 0 in *. destruct (HR 0 ltac:(lia)) as [H1 _].
      unfold W in Hi. rewrite Hroot in Hi. replace i with 0 by lia. rewrite pth_0 in *. exact H1.
    - set (l := Z.of_nat (S k)) in *. assert (El : l - 1 = Z.of_nat k) by lia.
      destruct (HR l ltac:(lia)) as [H1 H2]. specialize (H2 ltac:(lia)).
      destruct (Z.eqb_spec i (pth l)) as [->|Hn]; auto.
      assert (HTl : forall j, 0 <= j < W l -> g T l j = childA T l j).
      { intros j Hj. rewrite HT; [now rewrite Hkeys|destruct HsT as [-> _]; fold L; lia|].
        destruct HsT as [_ ->]. exact Hj. }
      assert (HC : forall j, 0 <= j < W l -> j / A <> pth (l - 1) -> g R l j = g T l j).
      { intros j Hj Hg. rewrite (proj1 (H2 j Hj) Hg), HTl by auto.
        unfold child. rewrite El, IH; [|lia|].
        - rewrite <- El. replace (j / A =? pth (l - 1)) with false by lia. reflexivity.
        - rewrite <- El.
          replace A with (A ^ (l - (l - 1))) by (replace (l - (l - 1)) with 1 by lia; now rewrite Z.pow_1_r).
          apply anc_range; lia. }
      destruct (Z.eq_dec (i / A) (pth (l - 1))) as [Eg|Eg]; [|now apply HC].
      rewrite (proj2 (H2 i Hi) Eg Hn). pose proof (Z.mod_pos_bound i A HA0).
      rewrite HX by lia. unfold sibling_xor, outside.
      change (zlen (znth [] T l)) with (w T l). destruct HsT as [HsT1 HsT2]. rewrite HsT2. fold W.
      rewrite (xor_sum_single (W l)
        (fun j => if j mod A =? i mod A then znth 0%N (znth [] T l) j else 0%N)
        (fun j => if (j mod A =? i mod A) && negb (j / A =? pth (l - 1)) then g R l j else 0%N) i); auto.
      + rewrite Z.eqb_refl. replace (i / A =? pth (l - 1)) with true by lia. cbn [andb negb].
        change (znth 0%N (znth [] T l) i) with (g T l i). xor_solve.
      + intros j Hj Hji. destruct (Z.eqb_spec (j mod A) (i mod A)) as [Em|]; cbn [andb]; auto.
        destruct (Z.eqb_spec (j / A) (pth (l - 1))) as [Eg'|]; cbn [negb].
        * exfalso. apply Hji. rewrite (mod_base j _ Eg'), (mod_base i _ Eg), Em. reflexivity.
        * symmetry. now apply HC.
  Qed.
End Rec.
