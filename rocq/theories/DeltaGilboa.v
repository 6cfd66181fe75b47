(** What the vector provider of a Gilboa product sees does not depend on the
    scalar. *)
From Verif Require Import Base BaseFacts ListFacts ScalarModel ScalarSpec ScalarProofs PackModel PackProofs
  ProcModel ProcSpec ProcProofs RotModel GilboaModel GilboaProofs HideSpec HideRun DeltaSpec DeltaRun.
From Coq Require Import QArith Ring_theory Ring.
Local Open Scope Z_scope.

Section P.
  Variable S : scalar.
  Hypothesis L : scalar_laws S.
  Hypothesis H16 : s_size S <= 16.
  Variable K : Q.
  Notation pf := (packing_factor S).
  Notation bw := (num_bits S).

  Lemma ot_wrun deltas size : zlen deltas < 2^31 -> exists n, forall tb, exists P, zlen P = zlen deltas /\
    forall (ka : list N -> proc S (res (list S))) kb choices ta, zlen choices = zlen deltas -> exists l, drew l = [] /\
      wrun (run_ot_receiver S K choices size ka) ta (run_ot_sender S K deltas size kb) tb l (drew_blocks n tb)
        (ka (map (fun '(c, (x0, x1)) => if c : bool then x1 else x0) (combine choices P))) ta (kb (map fst P)) (tape_drop n tb).
  Proof.
    intro Hn. unfold run_ot_sender, run_ot_receiver, ot_recv.
    assert (G : forall cot P choices (ka kb : list N -> proc S (res (list S))) ta tb, zlen P = zlen deltas -> zlen choices = zlen deltas -> exists l, drew l = [] /\
      wrun (OtRecv cot choices (fun r => match r with Some l => ka l | None => Ret (UB "OT mismatch") end)) ta (ot_send cot P (kb (map fst P))) tb l []
        (ka (map (fun '(c, (x0, x1)) => if c : bool then x1 else x0) (combine choices P))) ta (kb (map fst P)) tb).
    { intros cot P choices ka kb ta tb HP Hc. exists ([Chosen (ot_choose cot choices (@MOt S cot P))] ++ []). split.
      - reflexivity.
      - eapply (wrun_cons _ _ _ _ [_] []); [apply whand_ot_ba; reflexivity|]. unfold ot_choose.
        rewrite Bool.eqb_reflx. replace (List.length P =? List.length choices)%nat with true; [constructor|].
        symmetry. apply Nat.eqb_eq. unfold zlen in *. lia. }
    destruct (use_correlated_ot S K size).
    - exists (List.length deltas). intro tb. set (m0 := tape_blocks (List.length deltas) tb).
      assert (Hm : zlen m0 = zlen deltas) by (unfold m0, zlen; now rewrite length_tape_blocks).
      destruct (cot_batch S deltas m0 Hm) as [Hb Hf].
      exists (cot_pairs S deltas m0). split; [apply Hb|]. intros ka kb choices ta Hc.
      destruct (G true (cot_pairs S deltas m0) choices ka kb ta (tape_drop (List.length deltas) tb)) as (l & Dl & W); [apply Hb|exact Hc|].
      exists l. split; [exact Dl|]. change l with ([] ++ l). rewrite <- (app_nil_r (drew_blocks _ _)).
      eapply wrun_trans; [apply wrun_rand_blocks_b|]. fold m0. rewrite Hf in *. exact W.
    - eexists. intro tb. eexists (ot_pairs S deltas _). split; [apply (pads_batch S); auto|]. intros ka kb choices ta Hc.
      edestruct (G false (ot_pairs S deltas (tape_scalars (Z.to_nat (wrap32 (zlen deltas) * pf)) tb)) choices ka kb ta) as (l & Dl & W); [apply (pads_batch S); auto|exact Hc|].
      exists l. split; [exact Dl|]. change l with ([] ++ l). rewrite <- (app_nil_r (drew_blocks _ _)).
      eapply wrun_trans; [apply wrun_rand_scalars_b|]. cbv beta. exact W.
  Qed.

  Lemma gilboa_wrun y out_v : zlen out_v = zlen y -> zlen y < 2^31 - pf -> bw * chunks S (zlen y) < 2^31 ->
    exists n, forall tb, exists rv, zlen rv = zlen y /\ forall x out_x ta, zlen out_x = zlen y -> exists l rx, drew l = [] /\
      wrun (gilboa_value_provider S K x out_x) ta (gilboa_vector_provider S K y out_v) tb l (drew_blocks n tb)
        (Ret (Ok rx)) ta (Ret (Ok rv)) (tape_drop n tb) /\
      zlen rx = zlen y /\ forall q, 0 <= q < zlen y -> s_add S (znth (s_zero S) rv q) (znth (s_zero S) rx q) = s_mul S x (znth (s_zero S) y q).
  Proof.
    intros Hv Hy Hn. pose proof (pf_pos S L H16) as Hpf. pose proof (bw_pos S L H16) as Hbw. pose proof (zlen_nonneg y) as H0.
    pose proof (chunks_nonneg S L H16 _ H0) as Hc0.
    set (n := Z.mul (chunks S (zlen y)) bw) in *.
    assert (En : Z.mul bw (chunks S (zlen y)) = n) by (subst n; lia).
    assert (Hn0 : 0 <= n) by nia.
    set (deltas := map (fun q => delta S y (q / bw) (q mod bw)) (zrange 0 n)).
    assert (Hld : zlen deltas = n) by (unfold deltas; rewrite zlen_map, zlen_zrange; lia).
    destruct (ot_wrun deltas (zlen y) ltac:(lia)) as (k & Hk). exists k. intro tb. destruct (Hk tb) as (P & LP & HP). clear Hk.
    assert (Hz : forall o q, 0 <= q < zlen (fill_zero S o) -> znth (s_zero S) (fill_zero S o) q = s_zero S).
    { intros o q Hq. unfold fill_zero in *. rewrite zlen_map in Hq. now rewrite (znth_map _ (s_zero S)) by lia. }
    destruct (accumulate_ok S L H16 (s_sub S) (map fst P) (zlen y) (fill_zero S out_v)) as (rv & E1 & L1 & _); auto.
    { rewrite zlen_map. fold n. lia. } { unfold fill_zero. rewrite zlen_map. lia. }
    exists rv. split; [unfold fill_zero in L1; rewrite zlen_map in L1; lia|]. intros x out_x ta Hx.
    set (choices := map (fun q => s_bit S x (q mod bw)) (zrange 0 n)).
    assert (Hlc : zlen choices = n) by (unfold choices; rewrite zlen_map, zlen_zrange; lia).
    destruct (HP (fun ot => Ret (accumulate S (s_add S) ot (zlen y) (fill_zero S out_x)))
                 (fun ot => Ret (accumulate S (s_sub S) ot (zlen y) (fill_zero S out_v))) choices ta ltac:(lia)) as (l & Dl & W).
    set (R := map _ (combine choices P)) in W.
    assert (HlR : zlen R = n) by (unfold R; rewrite zlen_map, zlen_combine; lia).
    destruct (accumulate_ok S L H16 (s_add S) R (zlen y) (fill_zero S out_x)) as (rx & E2 & L2 & _); auto.
    { unfold fill_zero. rewrite zlen_map. lia. }
    assert (HW : wrun (gilboa_value_provider S K x out_x) ta (gilboa_vector_provider S K y out_v) tb l (drew_blocks k tb) (Ret (Ok rx)) ta (Ret (Ok rv)) (tape_drop k tb)).
    { unfold gilboa_vector_provider, gilboa_value_provider.
      replace (zlen y =? zlen out_v) with true by lia. replace (16 <? s_size S) with false by lia. cbn [negb].
      rewrite Hx, wrap32_id by lia. unfold int_result at 1.
      replace ((- 2 ^ 31 <=? zlen y + pf) && (zlen y + pf <? 2 ^ 31)) with true by lia. cbn [plift].
      rewrite (quot_chunks S L H16) by lia. rewrite En. unfold int_result.
      replace ((- 2 ^ 31 <=? n) && (n <? 2 ^ 31)) with true by lia. cbn [plift].
      replace (n <? 0) with false by lia.
      unfold n. rewrite (vector_deltas_ok S L H16), (value_choices_ok S L H16) by lia. cbn [plift]. fold n. fold deltas choices.
      rewrite E1, E2 in W. exact W. }
    exists l, rx. split; [exact Dl|]. split; [exact HW|].
    destruct (gilboa_jrun S L H16 K x y out_v out_x tb ta Hv Hx Hy) as (rv2 & rx2 & tb' & J & M1 & M2 & M3); [lia|].
    apply jrun_swap, jrun_completes in J. apply wrun_vrun, vrun_jrun, jrun_completes in HW.
    destruct (completes_unique _ _ _ _ _ _ _ _ J HW) as [F1 F2]. injection F1 as ->. injection F2 as ->. auto.
  Qed.
End P.
