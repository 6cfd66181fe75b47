(** Changing one leaf of a GGM tree by changing one value of the block cipher. *)
From Verif Require Import Base BaseFacts ListFacts ScalarModel GgmModel GgmSpec GgmFinal GgmProofs GgmProofs2 GgmProofs3
  ProcModel RotModel RotProofs.
Local Open Scope Z_scope.
Local Arguments znth : simpl never.

Lemma same_width t1 t2 n : height t1 = height t2 -> well_shaped t1 2 n -> well_shaped t2 2 n ->
  forall l, width t1 l = width t2 l.
Proof.
  intros Hh (Ha1 & Hr1 & Hl1 & Hs1) (Ha2 & Hr2 & Hl2 & Hs2).
  assert (HW : forall k, (Z.of_nat k < height t1) ->
     width t1 (height t1 - 1 - Z.of_nat k) = width t2 (height t1 - 1 - Z.of_nat k)).
  { induction k as [|k IH]; intro Hk.
    - change (Z.of_nat 0) with 0. rewrite Z.sub_0_r, Hl1, Hh, Hl2. reflexivity.
    - set (l := height t1 - 1 - Z.of_nat (S k)) in *.
      replace (height t1 - 1 - Z.of_nat k) with (l + 1) in IH by lia. specialize (IH ltac:(lia)).
      specialize (Hs1 l ltac:(lia)). specialize (Hs2 l ltac:(lia)). nia. }
  intro l. destruct (Z_lt_dec l 0); [unfold width; rewrite !znth_out by lia; auto|].
  destruct (Z_lt_dec l (height t1)).
  - pose proof (HW (Z.to_nat (height t1 - 1 - l)) ltac:(lia)) as E.
    now replace (height t1 - 1 - Z.of_nat (Z.to_nat (height t1 - 1 - l))) with l in E by lia.
  - unfold width, height in *. rewrite !znth_out by lia. auto.
Qed.

Lemma widths_le t n : well_shaped t 2 n -> forall l, 0 <= l < height t -> width t l <= n.
Proof.
  intros (Hs1 & Hs2 & Hs3 & Hs4) l Hl.
  assert (Hmono : forall k, 0 <= k -> 0 <= height t - 1 - k -> 1 <= width t (height t - 1 - k) <= n).
  2: { specialize (Hmono (height t - 1 - l) ltac:(lia) ltac:(lia)).
       replace (height t - 1 - (height t - 1 - l)) with l in Hmono by lia. lia. }
  assert (Hpos : forall m, 0 <= m -> m < height t -> 1 <= width t m).
  { intros m Hm. pattern m. apply natlike_ind; [lia| |exact Hm]. intros x Hx IH Hx2.
    specialize (Hs4 x ltac:(lia)). replace (Z.succ x) with (x + 1) by lia. specialize (IH ltac:(lia)). lia. }
  intros k Hk0. pattern k. apply natlike_ind; [|intros x Hx IH Hx2|exact Hk0].
  - intros _. specialize (Hpos (height t - 1)). replace (height t - 1 - 0) with (height t - 1) by lia. lia.
  - specialize (Hpos (height t - 1 - Z.succ x) ltac:(lia) ltac:(lia)).
    specialize (Hs4 (height t - 1 - Z.succ x) ltac:(lia)).
    replace (height t - 1 - Z.succ x + 1) with (height t - 1 - x) in Hs4 by lia. lia.
Qed.

Section G.
  Variable clog : Z -> Z -> nat.

  (** The new tree has [v] as leaf [idx] and is the same everywhere else. *)
  Lemma create_changed aes' n seed' keys t idx v : zlen keys = 2 -> 1 <= n -> good_size clog n -> 0 <= idx < n ->
    well_shaped t 2 n -> height t = Z.of_nat (clog 2 n) + 1 ->
    (forall l x, 0 <= l < height t - 1 -> 0 <= x < width t (l + 1) ->
       N.lxor (aes' (znth 0%N keys (x mod 2)) (node t l (x / 2))) (node t l (x / 2)) =
       if (l =? height t - 2) && (x =? idx) then v else node t (l + 1) x) ->
    seed' = (if height t =? 1 then v else node t 0 0) ->
    exists t', ggm_create aes' clog n seed' keys = Ok t' /\ t_arity t' = 2 /\ well_shaped t' 2 n /\ height t' = height t /\
      forall l x, 0 <= l < height t -> 0 <= x < width t l ->
        node t' l x = if (l =? height t - 1) && (x =? idx) then v else node t l x.
  Proof.
    intros Hk Hn [Hn31 Hp] Hidx Hsh Hh Hc Hs.
    destruct (create_ok aes' clog n seed' keys) as (t' & Et & Ha & _ & _ & Hh' & _ & Hsh' & Hg0 & Hg1); [lia|lia|now rewrite Hk|].
    rewrite Hk in *. exists t'. split; [exact Et|]. split; [exact Ha|]. split; [exact Hsh'|]. split; [lia|].
    assert (HW : forall l, width t' l = width t l) by (apply (same_width _ _ n); [lia|assumption|assumption]).
    intros l x Hl. revert x. assert (Hl0 : 0 <= l) by lia. revert Hl. pattern l.
    apply natlike_ind; [| |exact Hl0].
    - intros _ x Hx. destruct Hsh as (_ & Hw0 & Hwl & _). rewrite Hw0 in Hx. replace x with 0 by lia.
      rewrite Hg0, Hs. replace (0 =? height t - 1) with (height t =? 1) by lia.
      destruct (Z.eqb_spec (height t) 1) as [E|E]; cbn [andb]; [|reflexivity].
      rewrite E in Hwl. replace (1 - 1) with 0 in Hwl by lia. replace (0 =? idx) with true by lia. reflexivity.
    - intros y Hy IH Hl x Hx. replace (Z.succ y) with (y + 1) in * by lia.
      rewrite Hg1 by (rewrite ?HW; lia).
      rewrite (IH ltac:(lia) (x / 2)).
      2: { apply div_range; [lia|]. destruct Hsh as (_ & _ & _ & Hs4). specialize (Hs4 y ltac:(lia)). lia. }
      replace (y =? height t - 1) with false by lia. cbn [andb]. rewrite Hc by lia.
      replace (y + 1 =? height t - 1) with (y =? height t - 2) by lia. reflexivity.
  Qed.

  (** The messages the receiver chooses do not depend on that leaf. *)
  Lemma chosen_same n idx t t' v : 1 <= n -> good_size clog n -> 0 <= idx < n ->
    t_arity t = 2 -> t_arity t' = 2 -> well_shaped t 2 n -> well_shaped t' 2 n ->
    height t = Z.of_nat (clog 2 n) + 1 -> height t' = height t ->
    (forall l x, 0 <= l < height t -> 0 <= x < width t l ->
        node t' l x = if (l =? height t - 1) && (x =? idx) then v else node t l x) ->
    chosen (rchoices clog n idx) (spairs (Some t')) = chosen (rchoices clog n idx) (spairs (Some t)).
  Proof.
    intros Hn [Hn31 Hp] Hidx Ha Ha' Hsh Hsh' Hh Hh' Hc. set (h := Z.of_nat (clog 2 n)) in *.
    assert (HW : forall l, width t' l = width t l) by (apply (same_width _ _ n); [lia|assumption|assumption]).
    destruct (sibling_xors_ok t) as (xs & Ex & Hlx & Hrow); [lia|intros l Hl; pose proof (widths_le t n Hsh l); lia|].
    destruct (sibling_xors_ok t') as (xs' & Ex' & Hlx' & Hrow'); [lia|intros l Hl; pose proof (widths_le t' n Hsh' l); lia|].
    rewrite Ha in Hrow. rewrite Ha' in Hrow'.
    pose proof (tree_pairs_ok clog t xs Ex Ha ltac:(unfold num_levels; fold (height t); lia) ltac:(intros; apply Hrow; lia)) as Ep.
    pose proof (tree_pairs_ok clog t' xs' Ex' Ha' ltac:(unfold num_levels; fold (height t'); lia) ltac:(intros; apply Hrow'; lia)) as Ep'.
    destruct (tree_choices_ok clog n idx) as (cs & Ecs & Hcl & Hcb). fold h in Hcl, Hcb.
    assert (Hrc : rchoices clog n idx = cs). { unfold rchoices. rewrite Ecs. now replace (n =? 0) with false by lia. }
    rewrite Hrc. cbn [spairs]. rewrite Ep, Ep'.
    replace (zlen xs') with h by lia. replace (zlen xs) with h by lia.
    apply (znth_ext 0%N).
    - rewrite !zlen_chosen; rewrite ?zlen_map, ?zlen_zrange_max; lia.
    - rewrite zlen_chosen by (rewrite ?zlen_map, ?zlen_zrange_max; lia). intros i Hi.
      rewrite !znth_chosen by (rewrite ?zlen_map, ?zlen_zrange_max; lia).
      rewrite !(znth_map _ 0) by (rewrite zlen_zrange_max; lia). rewrite znth_zrange by lia. cbn [fst snd]. rewrite Hcb by lia.
      destruct (Hrow (0 + i) ltac:(lia)) as [_ R]. destruct (Hrow' (0 + i) ltac:(lia)) as [_ R']. rewrite Z.add_0_l in *.
      assert (E : forall j, 0 <= j < 2 -> j <> (if Z.testbit idx (h - 1 - i) then 1 else 0) ->
        znth 0%N (znth [] xs' i) j = znth 0%N (znth [] xs i) j).
      { intros j Hj Hne. rewrite R, R' by lia. unfold sibling_xor.
        change (zlen (znth [] (t_levels t') (i + 1))) with (width t' (i + 1)). rewrite HW.
        apply xor_sum_ext. intros x Hx. change (znth 0%N (znth [] (t_levels t') (i + 1)) x) with (node t' (i + 1) x).
        change (zlen (znth [] (t_levels t) (i + 1))) with (width t (i + 1)) in Hx.
        destruct (Z.eqb_spec (x mod 2) j) as [Ej|Ej]; [|reflexivity]. rewrite Hc by lia.
        destruct (Z.eqb_spec (i + 1) (height t - 1)) as [E1|E1]; cbn [andb]; [|reflexivity].
        destruct (Z.eqb_spec x idx) as [E2|E2]; [|reflexivity]. exfalso. apply Hne. rewrite <- Ej, E2.
        replace (h - 1 - i) with 0 by lia. rewrite Z.bit0_odd. now rewrite Zmod_odd. }
      destruct (Z.testbit idx (h - 1 - i)); cbn [negb]; apply E; lia.
  Qed.
End G.
