(** Lemmas in the exact form of the final SPFSS theorems. *)
From Verif Require Import Base BaseFacts ListFacts ScalarModel ScalarSpec ScalarProofs GgmModel
  ProcModel ProcSpec ProcProofs RotModel RotSpec RotFinal SpfssModel SpfssProofs.
From Coq Require Import QArith Ring_theory Ring.
Local Open Scope Z_scope.

Lemma unpack_all_len (S : scalar) trees outs r : unpack_all S trees outs = Ok r -> zlen r = zlen outs.
Proof.
  intro H. unfold unpack_all in H.
  eapply (for_range_inv_ok (fun _ l => zlen l = zlen outs)) in H; [exact H|apply zlen_nonneg|reflexivity|].
  intros i s s' Hi Hs E. cbn beta in E. destruct (zget s i) as [out| |] eqn:Eo; cbn [rbind] in E; try discriminate.
  destruct (zlen out =? 0); [congruence|].
  destruct (zget trees i) as [[t|]| |]; cbn [rbind] in E; try discriminate.
  destruct (unpack_last_level S t out); cbn [rbind] in E; try discriminate.
  unfold zset in E. destruct (_ && _); [|discriminate]. injection E as <-. now rewrite zlen_list_set.
Qed.

Lemma rot_sender_solo_len (S : scalar) aes clog K outs ta ms r t' :
  solo (rot_sender_batched S aes clog K outs) ta = Some (ms, Ok r, t') -> zlen r = zlen outs.
Proof.
  destruct (send_trees_solo S aes clog K (map zlen outs) ta) as (ms1 & r1 & t1 & E).
  unfold rot_sender_batched, pbindr. intro H.
  assert (Hb : forall f x, solo (f r1) t1 = x -> (forall r, exists y, f r = Ret y) ->
     solo (pbind (send_trees S aes clog K (map zlen outs) 2) f) ta = Some (ms, Ok r, t') -> f r1 = Ret (Ok r)).
  { intros f x Hx Hf Hs. destruct (Hf r1) as [y Ey].
    erewrite solo_bind in Hs; [|exact E|rewrite Ey; reflexivity]. injection Hs as _ -> _. exact Ey. }
  apply (Hb _ _ eq_refl) in H.
  - destruct r1; try discriminate. injection H as H. apply unpack_all_len in H. exact H.
  - intros [? | ? | ?]; eexists; reflexivity.
Qed.

Section F.
  Variable t : stype.
  Hypothesis Ht : stype_ok t.
  Notation S := (scalar_of t).

  Lemma spfss_batched_correct aes clog K vals_v vals_i indices outs_v outs_i ta tb :
    map zlen outs_i = map zlen outs_v ->
    zlen vals_v = zlen outs_v -> zlen vals_i = zlen outs_v -> zlen indices = zlen outs_v ->
    (forall o, In o outs_v -> supported_size clog (zlen o)) ->
    (forall i, 0 <= i < zlen outs_v -> valid_index (znth 0 indices i) (zlen (znth [] outs_v i))) ->
    s_can_hash S (security_per_leaf K (total_leaves (map zlen outs_v))) 128 = true ->
    exists rv ri, completes (spfss_value_provider_batched S aes clog K vals_v outs_v) ta
              (spfss_index_provider_batched S aes clog vals_i indices outs_i) tb (Ok rv) (Ok ri) /\
      map zlen rv = map zlen outs_v /\ map zlen ri = map zlen outs_v /\
      forall i j, 0 <= i < zlen outs_v -> 0 <= j < zlen (znth [] outs_v i) ->
        s_add S (znth (s_zero S) (znth [] rv i) j) (znth (s_zero S) (znth [] ri i) j) =
        if j =? znth 0 indices i
        then s_add S (znth (s_zero S) vals_v i) (znth (s_zero S) vals_i i) else s_zero S.
  Proof.
    intros H1 H2 H3 H4 H5 H6 H7.
    destruct (spfss_jrun S (scalar_of_laws t Ht) aes clog K vals_v vals_i indices outs_v outs_i ta tb H1 H2 H3 H4 H5 H6 H7)
      as (rv & ri & ta' & HJ & H). exists rv, ri. split; [|exact H]. eapply jrun_completes; exact HJ.
  Qed.

  Lemma spfss_single_correct aes clog K val_v val_i index out_v out_i ta tb :
    zlen out_i = zlen out_v -> supported_size clog (zlen out_v) -> valid_index index (zlen out_v) ->
    s_can_hash S (security_per_leaf K (total_leaves [zlen out_v])) 128 = true ->
    exists rv ri, completes (spfss_value_provider S aes clog K val_v out_v) ta
              (spfss_index_provider S aes clog val_i index out_i) tb (Ok rv) (Ok ri) /\
      zlen rv = zlen out_v /\ zlen ri = zlen out_v /\
      forall j, 0 <= j < zlen out_v ->
        s_add S (znth (s_zero S) rv j) (znth (s_zero S) ri j) =
        if j =? index then s_add S val_v val_i else s_zero S.
  Proof.
    intros H1 H2 H3 H4.
    destruct (spfss_single_jrun S (scalar_of_laws t Ht) aes clog K val_v val_i index out_v out_i ta tb H1 H2 H3 H4)
      as (rv & ri & ta' & HJ & H). exists rv, ri. split; [|exact H]. eapply jrun_completes; exact HJ.
  Qed.

  Lemma spfss_sized_correct aes clog K val_v val_i index size ta tb :
    0 <= size -> supported_size clog size -> valid_index index size ->
    s_can_hash S (security_per_leaf K (total_leaves [size])) 128 = true ->
    exists rv ri, completes (spfss_value_provider_size S aes clog K val_v size) ta
              (spfss_index_provider_size S aes clog val_i index size) tb (Ok rv) (Ok ri) /\
      zlen rv = size /\ zlen ri = size /\
      forall j, 0 <= j < size ->
        s_add S (znth (s_zero S) rv j) (znth (s_zero S) ri j) =
        if j =? index then s_add S val_v val_i else s_zero S.
  Proof.
    intros H0 H1 H2 H3. unfold spfss_value_provider_size, spfss_index_provider_size, sized_output.
    replace (size <? 0) with false by lia. cbn [plift].
    assert (Hz : zlen (zrepeat (s_zero S) size) = size) by now apply zlen_zrepeat.
    pose proof (spfss_single_correct aes clog K val_v val_i index (zrepeat (s_zero S) size) (zrepeat (s_zero S) size) ta tb) as H.
    rewrite Hz in H. now apply H.
  Qed.

  Lemma spfss_sized_negative aes clog K val_v val_i index size : size < 0 ->
    (exists w, returns (spfss_value_provider_size S aes clog K val_v size) (UB w)) /\
    (exists w, returns (spfss_index_provider_size S aes clog val_i index size) (UB w)).
  Proof. intro H. unfold returns, spfss_value_provider_size, spfss_index_provider_size, sized_output. replace (size <? 0) with true by lia. cbn [plift]. eauto. Qed.

  Lemma spfss_message aes clog K vals outs ta ms r t' :
    zlen vals = zlen outs ->
    solo (spfss_value_provider_batched S aes clog K vals outs) ta = Some (ms, Ok r, t') ->
    exists ms0, zlen r = zlen outs /\
      ms = ms0 ++ [MVec (map (fun '(v, o) => s_sub S v (s_sum S o)) (combine vals r))] /\
      forall vals', zlen vals' = zlen outs ->
        solo (spfss_value_provider_batched S aes clog K vals' outs) ta =
          Some (ms0 ++ [MVec (map (fun '(v, o) => s_sub S v (s_sum S o)) (combine vals' r))], Ok r, t').
  Proof.
    intros Hl E. pose proof (scalar_of_laws t Ht) as L.
    destruct (rot_sender_solo S aes clog K outs ta) as (ms1 & r1 & t1 & E1).
    destruct r1 as [r1|e|w].
    - pose proof (rot_sender_solo_len S aes clog K outs ta ms1 r1 t1 E1) as Hr1.
      assert (Hsub : forall vals, map (fun '(v, o) => s_sub S v (s_sum S o)) (combine vals (map (map (s_opp S)) r1)) =
                map (fun '(v, o) => s_add S v (s_sum S o)) (combine vals r1)).
      { intro vs. revert r1 Hr1 E1 E. clear -Ht L. intros r1 _ _ _. revert vs. induction r1 as [|o r1 IH]; intros [|v vs]; cbn; auto.
        f_equal; [|apply IH]. pose proof (f_equal (fun l => match l with x :: _ => x | [] => s_zero S end) (map_map_opp S L [o])) as Ho.
        cbn in Ho. rewrite <- Ho. rewrite (Rsub_def (sl_ring S L)). reflexivity. }
      rewrite (spfss_value_message S L aes clog K vals outs ta ms1 r1 t1 Hl E1 Hr1) in E.
      injection E as <- <- <-. exists ms1. split; [now rewrite zlen_map|]. split; [now rewrite Hsub|].
      intros vals' Hl'. rewrite (spfss_value_message S L aes clog K vals' outs ta ms1 r1 t1 Hl' E1 Hr1). now rewrite Hsub.
    - exfalso. unfold spfss_value_provider_batched, pbindr in E. rewrite Hl, Z.eqb_refl in E. cbn [negb] in E.
      erewrite solo_bind in E; [|exact E1|reflexivity]. discriminate.
    - exfalso. unfold spfss_value_provider_batched, pbindr in E. rewrite Hl, Z.eqb_refl in E. cbn [negb] in E.
      erewrite solo_bind in E; [|exact E1|reflexivity]. discriminate.
  Qed.

  Lemma spfss_mask (out : list S) idx (v v' : S) : 0 <= idx < zlen out ->
    exists x, s_sub S v' (s_sum S (list_set out (Z.to_nat idx) x)) = s_sub S v (s_sum S out) /\
      forall y, s_sub S v' (s_sum S (list_set out (Z.to_nat idx) y)) = s_sub S v (s_sum S out) -> y = x.
  Proof.
    exact (mask_unique S (scalar_of_laws t Ht) (fun _ _ => O) out idx v v').
  Qed.

  Lemma spfss_any_peer aes clog K outs ta :
    exists ms0 r, forall vals, zlen vals = zlen outs ->
    forall RB (pb : proc S RB) tb n d,
      steps n (start (spfss_value_provider_batched S aes clog K vals outs) ta pb tb) d ->
      (exists got rest, ms0 ++ match r with
         | Ok o => [MVec (map (fun '(v, o) => s_sub S v (s_sum S o)) (combine vals o))]
         | _ => [] end = got ++ c_ab d ++ rest) /\
      (forall r', c_a d = Ret r' -> r' = r).
  Proof.
    assert (G : exists ms0 r t', forall vals, zlen vals = zlen outs ->
      solo (spfss_value_provider_batched S aes clog K vals outs) ta = Some (ms0 ++ match r with
         | Ok o => [MVec (map (fun '(v, o) => s_sub S v (s_sum S o)) (combine vals o))]
         | _ => [] end, r, t')).
    { destruct (rot_sender_solo S aes clog K outs ta) as (ms1 & r1 & t1 & E1).
      destruct r1 as [r1|e|w].
      - destruct (solo (spfss_value_provider_batched S aes clog K (zrepeat (s_zero S) (zlen outs)) outs) ta)
          as [[[ms r] t']|] eqn:E.
        + pose proof (rot_sender_solo_len S aes clog K outs ta ms1 r1 t1 E1) as Hr1.
          assert (Hl : zlen (zrepeat (s_zero S) (zlen outs)) = zlen outs) by (apply zlen_zrepeat, zlen_nonneg).
          pose proof E as E'.
          rewrite (spfss_value_message S (scalar_of_laws t Ht) aes clog K _ outs ta ms1 r1 t1 Hl E1 Hr1) in E'.
          injection E' as _ Er _. subst r.
          destruct (spfss_message _ _ _ _ _ _ _ _ _ Hl E) as (ms0 & _ & _ & H).
          exists ms0, (Ok (map (map (s_opp S)) r1)), t'. exact H.
        + exfalso. pose proof (rot_sender_solo_len S aes clog K outs ta ms1 r1 t1 E1) as Hr1.
          assert (Hl : zlen (zrepeat (s_zero S) (zlen outs)) = zlen outs) by (apply zlen_zrepeat, zlen_nonneg).
          rewrite (spfss_value_message S (scalar_of_laws t Ht) aes clog K _ outs ta ms1 r1 t1 Hl E1 Hr1) in E. discriminate.
      - exists ms1, (Err e), t1. intros vals Hl.
        unfold spfss_value_provider_batched, pbindr. rewrite Hl, Z.eqb_refl. cbn [negb].
        erewrite solo_bind; [|exact E1|reflexivity]. reflexivity.
      - exists ms1, (UB w), t1. intros vals Hl.
        unfold spfss_value_provider_batched, pbindr. rewrite Hl, Z.eqb_refl. cbn [negb].
        erewrite solo_bind; [|exact E1|reflexivity]. reflexivity. }
    destruct G as (ms0 & r & t' & G). exists ms0, r. intros vals Hl RB pb tb n d H.
    destruct (solo_any_peer _ _ _ _ _ _ _ _ _ (G vals Hl) H) as (got & rest & E1 & E2).
    split; [exists got, rest; exact E1|]. intros r' Er. rewrite Er in E2. cbn in E2. congruence.
  Qed.
End F.

Lemma spfss_single_index_checks (S : scalar) aes clog (val : S) index output :
  (~ valid_index index (zlen output) ->
     exists m, returns (spfss_index_provider S aes clog val index output) (Err (invalid_argument m))) /\
  (valid_index index (zlen output) -> forall r, ~ returns (spfss_index_provider S aes clog val index output) r).
Proof.
  destruct (spfss_index_checks S aes clog [val] [index] [output]) as [H1 H2]. split.
  - intro H. destruct H1 as [m Hm]; [right; right; exists 0; split; [split; [discriminate|reflexivity]|exact H]|].
    exists m. unfold spfss_index_provider, returns in *. rewrite Hm. reflexivity.
  - intros H r. assert (HN : ~ (zlen [val] <> zlen [output] \/ zlen [val] <> zlen [index] \/
      exists i, 0 <= i < zlen [output] /\ ~ valid_index (znth 0 [index] i) (zlen (znth [] [output] i)))).
    { intros [Hb|[Hb|(i & Hi & Hb)]]; [apply Hb; reflexivity|apply Hb; reflexivity|].
      change (0 <= i < 1) in Hi. apply Hb. replace i with 0 by lia. exact H. }
    specialize (H2 HN). unfold spfss_index_provider, returns in *.
    destruct (spfss_index_provider_batched S aes clog [val] [index] [output]) as [r0| | | |]; try discriminate.
    exfalso. exact (H2 r0 eq_refl).
Qed.
