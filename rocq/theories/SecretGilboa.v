(** The Gilboa product with two vectors: the value provider sees the same. *)
From Verif Require Import Base BaseFacts ListFacts ScalarModel ScalarSpec ScalarProofs SumFacts PackModel
  ProcModel ProcSpec ProcProofs GilboaModel GilboaSpec GilboaProofs GilboaFinal HideSpec HideRun DeltaSpec DeltaRun SecretRun.
From Coq Require Import QArith.
Local Open Scope Z_scope.

(** What the value provider sees is possible for every other vector. *)
Definition hides_vector (S : scalar) (K : Q) (size : Z) : Prop :=
  forall y y' out choices ta, zlen y = size -> zlen y' = size -> zlen out = size -> zlen choices = transfers (s_size S) size ->
    (forall i, (fst (ta i) < 2^128)%N) -> exists ta' view, (forall i, (fst (ta' i) < 2^128)%N) /\
      ot_view (gilboa_vector_provider S K y out) ta choices = Some view /\
      ot_view (gilboa_vector_provider S K y' out) ta' choices = Some view.

Lemma gilboa_hides t K size : stype_ok t -> s_size (scalar_of t) <= 16 -> transfers (s_size (scalar_of t)) size < 2^31 ->
  use_correlated_ot (scalar_of t) K size = false \/ full_range t = true -> hides_vector (scalar_of t) K size.
Proof.
  intros Ht H16 Hs Hf y y' out choices ta Ly Ly' Lo Lc Hta.
  destruct (use_correlated_ot (scalar_of t) K size) eqn:Ec.
  - destruct Hf as [Hf|Hf]; [discriminate|].
    destruct (gilboa_view_cot t Ht H16 K y y' out choices Hf) as (f & Hb & HV); rewrite ?Ly; auto; try lia.
    destruct (HV ta Hta) as (view & V1 & V2). eexists _, view. split; [|split; [exact V1|exact V2]].
    intro i. cbn [fst]. destruct (Hb i) as [g Hg]. apply (Hg (fst (ta i))). apply Hta.
  - destruct (gilboa_view_1of2 t Ht H16 K y y' out choices) as (shift & HV); rewrite ?Ly; auto; try lia.
    destruct (HV ta) as (view & V1 & V2). eexists _, view. split; [|split; [exact V1|exact V2]]. exact Hta.
Qed.

Section P.
  Variable S : scalar.
  Hypothesis L : scalar_laws S.
  Hypothesis H16 : s_size S <= 16.
  Variable K : Q.
  Notation pf := (packing_factor S).
  Notation bw := (num_bits S).
  Notation chosen choices P := (map (fun '(c, (x0, x1)) => if c : bool then x1 else x0) (combine choices P)).

  (** The pairs offered and the number of random choices. *)
  Definition pairs_of (deltas : list N) (size : Z) (t : tape S) : list (N * N) :=
    if use_correlated_ot S K size then cot_pairs S deltas (tape_blocks (List.length deltas) t)
    else ot_pairs S deltas (tape_scalars (Z.to_nat (wrap32 (zlen deltas) * pf)) t).
  Definition draws_of (deltas : list N) (size : Z) : nat :=
    if use_correlated_ot S K size then List.length deltas else Z.to_nat (wrap32 (zlen deltas) * pf).

  Lemma pairs_len deltas size t : zlen deltas < 2^31 -> zlen (pairs_of deltas size t) = zlen deltas.
  Proof.
    intro H. unfold pairs_of. destruct (use_correlated_ot S K size).
    - apply (cot_batch S deltas). unfold zlen. now rewrite length_tape_blocks.
    - now apply (pads_batch S).
  Qed.

  Lemma ot_vrun deltas size t (ka : list N -> proc S (res (list S))) kb choices t2 : zlen deltas < 2^31 -> zlen choices = zlen deltas ->
    let P := pairs_of deltas size t in
    vrun (run_ot_sender S K deltas size kb) t (run_ot_receiver S K choices size ka) t2 [Chosen (Some (chosen choices P))]
      (kb (map fst P)) (tape_drop (draws_of deltas size) t) (ka (chosen choices P)) t2.
  Proof.
    intros Hn Hc P. pose proof (pairs_len deltas size t Hn) as HP. fold P in HP. unfold P, pairs_of, draws_of, run_ot_sender, run_ot_receiver, ot_recv in *.
    assert (G : forall cot P t, zlen P = zlen deltas ->
      vrun (ot_send cot P (kb (map fst P))) t (OtRecv cot choices (fun r => match r with Some l => ka l | None => Ret (UB "OT mismatch") end)) t2 [Chosen (Some (chosen choices P))]
        (kb (map fst P)) t (ka (chosen choices P)) t2).
    { intros cot P0 t0 H0. assert (Eo : ot_choose cot choices (@MOt S cot P0) = Some (chosen choices P0)).
      { unfold ot_choose. rewrite Bool.eqb_reflx. replace (List.length P0 =? List.length choices)%nat with true; [reflexivity|]. symmetry. apply Nat.eqb_eq. unfold zlen in *. lia. }
      pose proof (vrun_hand _ _ _ _ _ _ _ _ _ (vhand_ot_ab (@MOt S cot P0) cot choices (kb (map fst P0)) t0 (fun r => match r with Some l => ka l | None => Ret (UB "OT mismatch") end) t2 eq_refl)) as V.
      rewrite Eo in V. exact V. }
    destruct (use_correlated_ot S K size).
    - set (m0 := tape_blocks (List.length deltas) t) in *. assert (Hm : zlen m0 = zlen deltas) by (unfold m0, zlen; now rewrite length_tape_blocks).
      destruct (cot_batch S deltas m0 Hm) as [_ Hf].
      rewrite <- (app_nil_l [Chosen _]). eapply vrun_trans; [apply vrun_blocks|]. fold m0. pose proof (G true (cot_pairs S deltas m0) (tape_drop (List.length deltas) t) HP) as V. rewrite Hf in *. exact V.
    - rewrite <- (app_nil_l [Chosen _]). eapply vrun_trans; [apply vrun_scalars|]. cbv beta. apply G. exact HP.
  Qed.
  (** Random choices beyond those needed do not matter. *)
  Lemma pairs_glue deltas size t s : pairs_of deltas size (glue (front (draws_of deltas size) t) s) = pairs_of deltas size t.
  Proof.
    unfold pairs_of, draws_of. destruct (use_correlated_ot S K size).
    - now rewrite glue_front_blocks.
    - now rewrite glue_front_scalars.
  Qed.

  Lemma gilboa_two y out_v x out_x t t2 : hides_vector S K (zlen y) -> small t ->
    zlen out_v = zlen y -> zlen out_x = zlen y -> zlen y < 2^31 - pf -> bw * chunks S (zlen y) < 2^31 ->
    exists r rv rx n, vrun (gilboa_vector_provider S K y out_v) t (gilboa_value_provider S K x out_x) t2 r (Ret (Ok rv)) (tape_drop n t) (Ret (Ok rx)) t2 /\
      zlen rv = zlen y /\ zlen rx = zlen y /\
      (forall q, 0 <= q < zlen y -> s_add S (znth (s_zero S) rv q) (znth (s_zero S) rx q) = s_mul S x (znth (s_zero S) y q)) /\
      forall y', zlen y' = zlen y -> exists seg rv', Forall small1 seg /\
        (forall s, vrun (gilboa_vector_provider S K y' out_v) (glue seg s) (gilboa_value_provider S K x out_x) t2 r (Ret (Ok rv')) s (Ret (Ok rx)) t2) /\
        zlen rv' = zlen y /\ forall q, 0 <= q < zlen y -> s_add S (znth (s_zero S) rv' q) (znth (s_zero S) rx q) = s_mul S x (znth (s_zero S) y' q).
  Proof.
    intros Hh Ht Hv Hx Hy Hn. pose proof (pf_pos S L H16) as Hpf. pose proof (bw_pos S L H16) as Hbw. pose proof (zlen_nonneg y) as H0. pose proof (sl_size S L) as Hsz.
    pose proof (chunks_nonneg S L H16 _ H0) as Hc0.
    set (n := Z.mul (chunks S (zlen y)) bw) in *.
    assert (En : Z.mul bw (chunks S (zlen y)) = n) by (subst n; lia).
    assert (Hn0 : 0 <= n) by nia.
    set (deltas := fun y => map (fun q => delta S y (q / bw) (q mod bw)) (zrange 0 n)).
    assert (Hld : forall y, zlen (deltas y) = n) by (intro yy; unfold deltas; rewrite zlen_map, zlen_zrange; lia).
    set (choices := map (fun q => s_bit S x (q mod bw)) (zrange 0 n)).
    assert (Hlc : zlen choices = n) by (unfold choices; rewrite zlen_map, zlen_zrange; lia).
    set (kb := fun ot => Ret (accumulate S (s_sub S) ot (zlen y) (fill_zero S out_v)) : proc S (res (list S))).
    set (ka := fun ot => Ret (accumulate S (s_add S) ot (zlen y) (fill_zero S out_x)) : proc S (res (list S))).
    assert (Ev : forall yy, zlen yy = zlen y -> gilboa_vector_provider S K yy out_v = run_ot_sender S K (deltas yy) (zlen y) kb).
    { intros yy Eyy. unfold gilboa_vector_provider. rewrite Eyy. replace (zlen y =? zlen out_v) with true by lia. replace (16 <? s_size S) with false by lia. cbn [negb].
      rewrite (quot_chunks S L H16) by lia. rewrite En. unfold n. rewrite <- Eyy. rewrite (vector_deltas_ok S L H16) by lia. cbn [plift]. unfold deltas, n. now rewrite Eyy. }
    assert (Ex : gilboa_value_provider S K x out_x = run_ot_receiver S K choices (zlen y) ka).
    { unfold gilboa_value_provider. replace (16 <? s_size S) with false by lia. rewrite Hx, wrap32_id by lia. unfold int_result at 1.
      replace ((- 2 ^ 31 <=? zlen y + pf) && (zlen y + pf <? 2 ^ 31)) with true by lia. cbn [plift].
      rewrite (quot_chunks S L H16) by lia. rewrite En. unfold int_result.
      replace ((- 2 ^ 31 <=? n) && (n <? 2 ^ 31)) with true by lia. cbn [plift].
      replace (n <? 0) with false by lia. unfold n. rewrite (value_choices_ok S L H16) by lia. reflexivity. }
    (* one run *)
    assert (Hrun : forall yy t, zlen yy = zlen y -> exists rv rx, 
      let P := pairs_of (deltas yy) (zlen y) t in
      vrun (gilboa_vector_provider S K yy out_v) t (gilboa_value_provider S K x out_x) t2 [Chosen (Some (chosen choices P))]
        (Ret (Ok rv)) (tape_drop (draws_of (deltas yy) (zlen y)) t) (Ret (Ok rx)) t2 /\
      accumulate S (s_sub S) (map fst P) (zlen y) (fill_zero S out_v) = Ok rv /\ accumulate S (s_add S) (chosen choices P) (zlen y) (fill_zero S out_x) = Ok rx /\
      zlen rv = zlen y /\ zlen rx = zlen y /\
      forall q, 0 <= q < zlen y -> s_add S (znth (s_zero S) rv q) (znth (s_zero S) rx q) = s_mul S x (znth (s_zero S) yy q)).
    { intros yy t0 Eyy. set (P := pairs_of (deltas yy) (zlen y) t0).
      destruct (gilboa_jrun S L H16 K x yy out_v out_x t0 t2) as (rv & rx & ta' & J & M1 & M2 & M3); rewrite ?Eyy; auto; try lia.
      pose proof (ot_vrun (deltas yy) (zlen y) t0 ka kb choices t2 ltac:(rewrite Hld; lia) ltac:(rewrite Hld; lia)) as W. cbv zeta in W. fold P in W.
      rewrite <- Ev, <- Ex in W by exact Eyy. pose proof (vrun_jrun _ _ _ _ _ _ _ _ _ W) as J2. unfold ka, kb in J2.
      destruct (completes_unique _ _ _ _ _ _ _ _ (jrun_completes _ _ _ _ _ _ _ _ J) (jrun_completes _ _ _ _ _ _ _ _ J2)) as [F1 F2].
      unfold ka, kb in W. rewrite <- F1, <- F2 in W. exists rv, rx. cbv zeta. rewrite Eyy in *. auto 10. }
    (* the view *)
    assert (Hview : forall yy t, zlen yy = zlen y -> ot_view (gilboa_vector_provider S K yy out_v) t choices = Some (chosen choices (pairs_of (deltas yy) (zlen y) t))).
    { intros yy t0 Eyy. unfold ot_view. rewrite Ev by exact Eyy.
      assert (HL : zlen (pairs_of (deltas yy) (zlen y) t0) = n) by (rewrite pairs_len; rewrite Hld; lia). unfold pairs_of in *. unfold run_ot_sender.
      destruct (use_correlated_ot S K (zlen y)); [rewrite solo_rand_blocks|rewrite solo_rand_scalars]; cbn [solo ot_send]; unfold kb; cbn [solo]; unfold ot_choose; rewrite Bool.eqb_reflx;
        (match goal with |- context [(?a =? ?b)%nat] => replace (a =? b)%nat with true; [reflexivity|symmetry; apply Nat.eqb_eq; unfold zlen in *; lia] end). }
    destruct (Hrun y t eq_refl) as (rv & rx & W & A1 & A2 & L1 & L2 & Hq). cbv zeta in W.
    eexists _, rv, rx, _. split; [exact W|]. split; [exact L1|]. split; [exact L2|]. split; [exact Hq|]. intros y' Ey'.
    destruct (Hh y y' out_v choices t) as (t' & view & St' & V1 & V2); auto; [rewrite transfers_eq by lia; lia|].
    rewrite Hview in V1, V2 by auto. rewrite <- V2 in V1. injection V1 as EC.
    set (k := draws_of (deltas y') (zlen y)). exists (front k t').
    assert (Hrun' : forall s, pairs_of (deltas y') (zlen y) (glue (front k t') s) = pairs_of (deltas y') (zlen y) t') by (intro s; apply pairs_glue).
    destruct (Hrun y' t' Ey') as (rv' & rx' & _ & A1' & A2' & L1' & _ & Hq'). rewrite <- EC, A2 in A2'. injection A2' as <-.
    exists rv'. split; [apply small_front; exact St'|]. split; [|split; [exact L1'|exact Hq']].
    intro s. destruct (Hrun y' (glue (front k t') s) Ey') as (rv2 & rx2 & W2 & B1 & B2 & _). cbv zeta in W2. rewrite Hrun' in *. rewrite <- EC in *.
    rewrite A1' in B1. injection B1 as <-. rewrite A2 in B2. injection B2 as <-. fold k in W2. rewrite glue_front_drop in W2. exact W2.
  Qed.
End P.
