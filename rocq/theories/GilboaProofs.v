(** Proofs about the Gilboa product. *)
From Verif Require Import Base BaseFacts ListFacts ScalarModel ScalarSpec ScalarProofs PackModel PackProofs
  ProcModel ProcSpec ProcProofs RotModel GilboaModel.
From Coq Require Import QArith Ring_theory Ring.
Local Open Scope Z_scope.

(** Two nested loops that fill slot c * w + j. *)
Lemma nested_fill {A} (d : A) (m w : Z) (body : Z -> Z -> list A -> res (list A)) (v : Z -> Z -> A) l :
  0 <= m -> 0 < w -> zlen l = m * w ->
  (forall c j l', 0 <= c < m -> 0 <= j < w -> zlen l' = m * w ->
     body c j l' = Ok (list_set l' (Z.to_nat (c * w + j)) (v c j))) ->
  for_range 0 m (fun c l => for_range 0 w (body c) l) l =
    Ok (map (fun q => v (q / w) (q mod w)) (zrange 0 (m * w))).
Proof.
  intros Hm Hw Hl H.
  destruct (for_range_inv (fun c l' => zlen l' = m * w /\
      forall q, 0 <= q < c * w -> znth d l' q = v (q / w) (q mod w)) 0 m (fun c l => for_range 0 w (body c) l) l)
    as (r & E & Hr & Hv); auto.
  - split; [exact Hl|]. intros; lia.
  - intros c l1 Hc (Hl1 & Hv1).
    destruct (for_range_inv (fun j l' => zlen l' = m * w /\
      forall q, 0 <= q < c * w + j -> znth d l' q = v (q / w) (q mod w)) 0 w (body c) l1) as (r & E & Hr & Hv).
    + lia.
    + split; [exact Hl1|]. intros q Hq. apply Hv1. lia.
    + intros j l2 Hj (Hl2 & Hv2). rewrite H by auto. eexists. split; [reflexivity|].
      rewrite zlen_list_set. split; [exact Hl2|]. intros q Hq.
      assert (c * w + w <= m * w) by (replace (c * w + w) with ((c + 1) * w) by lia; apply Z.mul_le_mono_nonneg_r; lia).
      rewrite znth_list_set by lia. destruct (Z.eqb_spec (c * w + j) q) as [<-|Hne].
      * rewrite Z.mul_comm, Z.add_comm, Z.mul_comm, Z.div_add, Z.mod_add by lia. rewrite Z.div_small, Z.mod_small by lia. reflexivity.
      * apply Hv2. lia.
    + exists r. split; [exact E|]. split; [exact Hr|]. intros q Hq. apply Hv. lia.
  - rewrite E. f_equal. apply (znth_ext d).
    + rewrite zlen_map, zlen_zrange; nia.
    + intros q Hq. rewrite Hr in Hq. rewrite Hv by lia. rewrite (znth_map _ 0) by (rewrite zlen_zrange; lia).
      rewrite znth_zrange by lia. reflexivity.
Qed.

(** A loop over a window of [n] slots from [base] on. *)
Lemma window_fill {A} (d : A) (base n : Z) (body : Z -> list A -> res (list A)) (f : Z -> A -> A) l :
  0 <= n -> 0 <= base -> base + n <= zlen l ->
  (forall k l', 0 <= k < n -> zlen l' = zlen l ->
     body k l' = Ok (list_set l' (Z.to_nat (base + k)) (f k (znth d l' (base + k))))) ->
  exists r, for_range 0 n body l = Ok r /\ zlen r = zlen l /\
    forall q, 0 <= q < zlen l -> znth d r q = if (base <=? q) && (q <? base + n) then f (q - base) (znth d l q) else znth d l q.
Proof.
  intros Hn Hb Hl H.
  destruct (for_range_inv (fun k r => zlen r = zlen l /\
    forall q, 0 <= q < zlen l -> znth d r q = if (base <=? q) && (q <? base + k) then f (q - base) (znth d l q) else znth d l q)
    0 n body l) as (r & E & Hr & Hv); auto.
  - split; auto. intros q Hq. replace ((base <=? q) && (q <? base + 0)) with false by lia. reflexivity.
  - intros k r Hk (Hr & Hv). rewrite H by auto. eexists. split; [reflexivity|].
    rewrite zlen_list_set. split; auto. intros q Hq.
    rewrite znth_list_set by lia. destruct (Z.eqb_spec (base + k) q) as [<-|Hne].
    + rewrite Hv by lia. replace ((base <=? base + k) && (base + k <? base + k)) with false by lia.
      replace ((base <=? base + k) && (base + k <? base + (k + 1))) with true by lia. f_equal. lia.
    + rewrite Hv by lia. destruct ((base <=? q) && (q <? base + k)) eqn:E1, ((base <=? q) && (q <? base + (k + 1))) eqn:E2; auto; lia.
  - eauto.
Qed.

Section P.
  Variable S : scalar.
  Hypothesis L : scalar_laws S.
  Hypothesis H16 : s_size S <= 16.
  Add Ring SR : (sl_ring S L).
  Declare Scope sc_scope.
  Notation "x + y" := (s_add S x y) : sc_scope.
  Notation "x - y" := (s_sub S x y) : sc_scope.
  Notation "x * y" := (s_mul S x y) : sc_scope.
  Notation "- x" := (s_opp S x) : sc_scope.
  Delimit Scope sc_scope with sc.
  Notation zn := (znth (s_zero S)).
  Notation bw := (num_bits S).
  Notation pf := (packing_factor S).

  Lemma pf_pos : 1 <= pf <= 16.
  Proof. pose proof (packing_factor_bounds S L H16). lia. Qed.
  Lemma bw_pos : 8 <= bw <= 128.
  Proof. pose proof (packing_factor_bounds S L H16). lia. Qed.

  Lemma chunks_bounds len : 0 <= len -> 0 <= chunks S len /\ len <= chunks S len * pf /\ (chunks S len - 1) * pf < len \/ len = 0 /\ chunks S len = 0.
  Proof.
    intro H. pose proof pf_pos. unfold chunks. pose proof (Z.div_mod (len + pf - 1) pf ltac:(lia)) as Hd.
    pose proof (Z.mod_pos_bound (len + pf - 1) pf ltac:(lia)). set (c := (len + pf - 1) / pf) in *.
    destruct (Z.eq_dec len 0) as [->|]; [right; split; auto; subst c; apply Z.div_small; lia|left].
    assert (0 <= c) by (subst c; apply Z.div_pos; lia). nia.
  Qed.
  Lemma chunks_nonneg len : 0 <= len -> 0 <= chunks S len.
  Proof. intro H. destruct (chunks_bounds len H); lia. Qed.
  Lemma chunks_cover len c : 0 <= len -> 0 <= c < chunks S len -> c * pf < len.
  Proof. intros H Hc. pose proof pf_pos. destruct (chunks_bounds len H) as [(H1 & H2 & H3)|[-> E]]; nia. Qed.
  Lemma chunk_of len q : 0 <= q < len -> 0 <= q / pf < chunks S len.
  Proof.
    intro H. pose proof pf_pos. destruct (chunks_bounds len ltac:(lia)) as [(H1 & H2 & H3)|[-> E]]; [|lia].
    split; [apply Z.div_pos; lia|]. apply Z.div_lt_upper_bound; nia.
  Qed.
  Lemma quot_chunks len : 0 <= len -> Z.quot (len + pf - 1) pf = chunks S len.
  Proof. intro H. pose proof pf_pos. unfold chunks. apply Z.quot_div_nonneg; lia. Qed.

  Lemma zlen_subspan {A} (l : list A) pos len : 0 <= pos <= zlen l -> 0 <= len -> zlen (subspan l pos len) = Z.min len (zlen l - pos).
  Proof. intros H Hn. unfold subspan, zlen in *. rewrite firstn_length, skipn_length. lia. Qed.
  Lemma znth_subspan {A} (d : A) l pos len k : 0 <= pos -> 0 <= k < len -> pos + k < zlen l ->
    znth d (subspan l pos len) k = znth d l (pos + k).
  Proof.
    intros Hp Hk Hl. unfold subspan, znth, zlen in *. replace (k <? 0) with false by lia. replace (pos + k <? 0) with false by lia.
    rewrite <- (firstn_skipn (Z.to_nat pos) l) at 2. rewrite app_nth2; rewrite firstn_length; [|lia].
    replace (Z.to_nat (pos + k) - Nat.min (Z.to_nat pos) (List.length l))%nat with (Z.to_nat k) by lia.
    set (s := skipn (Z.to_nat pos) l). rewrite <- (firstn_skipn (Z.to_nat len) s) at 2.
    assert (Hs : List.length s = (List.length l - Z.to_nat pos)%nat) by apply skipn_length.
    rewrite app_nth1; [reflexivity|]. rewrite firstn_length. lia.
  Qed.

  (** The packed differences. *)
  Definition delta (y : list S) (c j : Z) : N := span_to_block S (subspan y (c * pf) pf) (s_setbit S j).
  Lemma vector_deltas_ok y : vector_deltas S y (chunks S (zlen y) * bw) =
    Ok (map (fun q => delta y (q / bw) (q mod bw)) (zrange 0 (chunks S (zlen y) * bw))).
  Proof.
    pose proof bw_pos. pose proof (chunks_nonneg _ (zlen_nonneg y)). unfold vector_deltas.
    apply (nested_fill 0%N); [lia|lia|apply zlen_zrepeat; nia|].
    intros c j l' Hc Hj Hl. apply zset_ok. nia.
  Qed.
  Lemma value_choices_ok x len : 0 <= len -> value_choices S x len (chunks S len * bw) =
    Ok (map (fun q => s_bit S x (q mod bw)) (zrange 0 (chunks S len * bw))).
  Proof.
    intro Hlen. pose proof bw_pos. pose proof (chunks_nonneg _ Hlen). unfold value_choices.
    apply (nested_fill false _ _ _ (fun _ j => s_bit S x j)); [lia|lia|apply zlen_zrepeat; nia|].
    intros c j l' Hc Hj Hl. unfold get_bits. rewrite (zget_ok false) by (rewrite zlen_map, zlen_zrange; lia).
    rewrite (znth_map _ 0) by (rewrite zlen_zrange; lia). rewrite znth_zrange by lia. cbn [rbind]. rewrite Z.add_0_l.
    apply zset_ok. nia.
  Qed.

  (** The value at position q after the accumulation loops. *)
  Definition acc_value (op : S -> S -> S) (ot : list N) (q : Z) (n : Z) : S :=
    fold_left (fun a j => op a (zn (block_to_span S (znth 0%N ot (q / pf * bw + j))) (q mod pf))) (zrange 0 n) (s_zero S).
  Lemma accumulate_ok op ot len out : 0 <= len -> zlen ot = chunks S len * bw -> len <= zlen out ->
    (forall q, 0 <= q < zlen out -> zn out q = s_zero S) ->
    exists r, accumulate S op ot len out = Ok r /\ zlen r = zlen out /\
      (forall q, 0 <= q < len -> zn r q = acc_value op ot q bw) /\
      (forall q, len <= q < zlen out -> zn r q = s_zero S).
  Proof.
    intros Hlen Hot Hout Hz. pose proof bw_pos. pose proof pf_pos. pose proof (chunks_nonneg _ Hlen).
    unfold accumulate.
    match goal with |- context [for_range 0 (chunks S len) ?b out] => set (body := b) end.
    destruct (for_range_inv (fun c r => zlen r = zlen out /\ forall q, 0 <= q < zlen out ->
        zn r q = if (q <? len) && (q / pf <? c) then acc_value op ot q bw else s_zero S) 0 (chunks S len) body out)
      as (r & E & Hr & Hv); auto.
    - split; auto. intros q Hq. assert (0 <= q / pf) by (apply Z.div_pos; lia).
      replace ((q <? len) && (q / pf <? 0)) with false by lia. apply Hz; auto.
    - intros c r Hc (Hr & Hv). unfold body.
      pose proof (chunks_cover len c Hlen Hc) as Hcl.
      match goal with |- context [for_range 0 bw ?b r] => set (body2 := b) end.
      destruct (for_range_inv (fun j r' => zlen r' = zlen out /\ forall q, 0 <= q < zlen out ->
        zn r' q = if (q <? len) && (q / pf =? c) then acc_value op ot q j else zn r q) 0 bw body2 r)
        as (r' & E & Hr' & Hv'); try lia.
      + split; auto. intros q Hq. destruct (Z.ltb_spec q len), (Z.eqb_spec (q / pf) c); cbn [andb]; auto.
        rewrite Hv by auto. replace ((q <? len) && (q / pf <? c)) with false by lia. reflexivity.
      + intros j r' Hj (Hr' & Hv'). unfold body2. rewrite (zget_ok 0%N) by nia. cbn [rbind].
        set (data := block_to_span S (znth 0%N ot (c * bw + j))).
        assert (Hd : zlen data = pf) by apply (zlen_block_to_span S L H16).
        match goal with |- context [for_range 0 (Z.min _ _) ?b r'] => set (body3 := b) end.
        destruct (window_fill (s_zero S) (c * pf) (Z.min pf (len - c * pf)) body3 (fun k o => op o (zn data k)) r')
          as (r2 & E2 & Hr2 & Hv2); try nia.
        { intros k l' Hk Hl'. unfold body3. rewrite (zget_ok (s_zero S)) by nia. cbn [rbind].
          rewrite (zget_ok (s_zero S)) by lia. cbn [rbind]. apply zset_ok. nia. }
        exists r2. split; [exact E2|]. split; [lia|]. intros q Hq. rewrite Hv2 by lia. rewrite Hv' by lia.
        pose proof (Z.div_mod q pf ltac:(lia)) as Hdm. pose proof (Z.mod_pos_bound q pf ltac:(lia)).
        destruct (Z.eqb_spec (q / pf) c) as [Ec|Ec].
        * replace ((c * pf <=? q) && (q <? c * pf + Z.min pf (len - c * pf))) with (q <? len) by nia.
          destruct (q <? len); cbn [andb]; [|reflexivity].
          unfold acc_value. rewrite zrange_snoc by lia. rewrite fold_left_app. cbn [fold_left]. f_equal.
          unfold data. rewrite Ec. f_equal. nia.
        * rewrite andb_false_r. destruct ((c * pf <=? q) && (q <? c * pf + Z.min pf (len - c * pf))) eqn:Eb; auto.
          exfalso. apply Ec. symmetry. apply (Z.div_unique q pf c (q - c * pf)); lia.
      + exists r'. split; [exact E|]. split; auto. intros q Hq. rewrite Hv' by auto. rewrite Hv by auto.
        destruct (Z.ltb_spec q len), (Z.eqb_spec (q / pf) c), (Z.ltb_spec (q / pf) c), (Z.ltb_spec (q / pf) (c + 1)); cbn [andb]; auto; lia.
    - exists r. split; [exact E|]. split; auto. split; intros q Hq; rewrite Hv by lia.
      + pose proof (chunk_of len q Hq). replace ((q <? len) && (q / pf <? chunks S len)) with true by lia. reflexivity.
      + replace (q <? len) with false by lia. reflexivity.
  Qed.

  Lemma correlate_ok d m k : 0 <= k < pf ->
    zn (block_to_span S (correlate S d m)) k = (zn (block_to_span S d) k + zn (block_to_span S m) k)%sc.
  Proof.
    intro Hk. unfold correlate.
    assert (Hl : zlen (map (fun '(d, m) => s_add S d m) (combine (block_to_span S d) (block_to_span S m))) = pf).
    { rewrite zlen_map, zlen_combine; rewrite !(zlen_block_to_span S L H16); auto. }
    rewrite (pack_unpack_1 S L H16) by exact Hl.
    rewrite (znth_map _ (s_zero S, s_zero S)) by (rewrite zlen_map in Hl; lia).
    rewrite znth_combine by (rewrite !(zlen_block_to_span S L H16); auto). reflexivity.
  Qed.

  Variable K : Q.

  (** What the OTs of one run do, whichever kind is used. *)
  Definition ot_batch (deltas : list N) (P : list (N * N)) : Prop :=
    zlen P = zlen deltas /\
    forall q, 0 <= q < zlen deltas ->
      snd (znth (0%N, 0%N) P q) = correlate S (znth 0%N deltas q) (fst (znth (0%N, 0%N) P q)).
  Lemma cot_batch deltas m0 : zlen m0 = zlen deltas -> ot_batch deltas (cot_pairs S deltas m0) /\ map fst (cot_pairs S deltas m0) = m0.
  Proof.
    intro H. unfold ot_batch, cot_pairs. split; [split|].
    - rewrite zlen_map, zlen_combine by lia. reflexivity.
    - intros q Hq. rewrite (znth_map _ (0%N, 0%N)) by (rewrite zlen_combine; lia).
      rewrite znth_combine by lia. reflexivity.
    - revert m0 H. induction deltas as [|d l IH]; intros [|m m0] H; auto.
      + pose proof (zlen_nonneg m0). rewrite zlen_cons in H. change (zlen (@nil N)) with 0 in H. lia.
      + cbn [combine map fst]. f_equal. apply IH. rewrite !zlen_cons in H. lia.
  Qed.
  Lemma pads_batch deltas pads : zlen deltas < 2^31 -> ot_batch deltas (ot_pairs S deltas pads).
  Proof.
    intro H. pose proof (zlen_nonneg deltas). unfold ot_batch, ot_pairs. rewrite wrap32_id by lia. split.
    - rewrite zlen_map, zlen_zrange; lia.
    - intros q Hq. rewrite (znth_map _ 0) by (rewrite zlen_zrange; lia). rewrite znth_zrange by lia.
      replace (0 + q <? zlen deltas) with true by lia. reflexivity.
  Qed.

  Lemma ot_run deltas size choices ka kb ta tb :
    zlen choices = zlen deltas -> zlen deltas < 2^31 ->
    exists P ta', ot_batch deltas P /\
      jrun (run_ot_sender S K deltas size ka) ta (run_ot_receiver S K choices size kb) tb
        (ka (map fst P)) ta' (kb (map (fun '(c, (x0, x1)) => if c : bool then x1 else x0) (combine choices P))) tb.
  Proof.
    intros Hc Hn. pose proof (zlen_nonneg deltas) as H0. unfold run_ot_sender, run_ot_receiver, ot_recv.
    assert (G : forall cot P ta, zlen P = zlen deltas ->
      jrun (ot_send cot P (ka (map fst P))) ta (OtRecv cot choices (fun r => match r with Some l => kb l | None => Ret (UB "OT mismatch") end)) tb
        (ka (map fst P)) ta (kb (map (fun '(c, (x0, x1)) => if c : bool then x1 else x0) (combine choices P))) tb).
    { intros cot P ta0 HP. eapply jrun_trans; [apply jrun_send_ot; reflexivity|]. unfold ot_choose.
      rewrite Bool.eqb_reflx. replace (List.length P =? List.length choices)%nat with true.
      - cbn [andb]. apply jrun_refl.
      - symmetry. apply Nat.eqb_eq. unfold zlen in *. lia. }
    destruct (use_correlated_ot S K size).
    - set (m0 := tape_blocks (List.length deltas) ta).
      assert (Hm : zlen m0 = zlen deltas) by (unfold m0, zlen; now rewrite length_tape_blocks).
      destruct (cot_batch deltas m0 Hm) as [Hb Hf].
      exists (cot_pairs S deltas m0). eexists. split; [exact Hb|].
      eapply jrun_trans; [apply jrun_rand_blocks_a|]. fold m0.
      rewrite <- Hf at 2. apply G. apply Hb.
    - eexists (ot_pairs S deltas _). eexists. split; [apply pads_batch; auto|].
      eapply jrun_trans; [apply jrun_rand_scalars_a|]. cbv beta. apply G. apply pads_batch; auto.
  Qed.

  Lemma acc_add ot q n : 0 <= n ->
    acc_value (s_add S) ot q n = s_sum S (map (fun j => zn (block_to_span S (znth 0%N ot (q / pf * bw + j))) (q mod pf)) (zrange 0 n)).
  Proof.
    intro Hn. pattern n. apply natlike_ind; [| |exact Hn].
    - unfold acc_value. rewrite zrange_nil by lia. reflexivity.
    - intros x Hx IH. change (Z.succ x) with (Z.add x 1). unfold acc_value in *.
      rewrite zrange_snoc by lia. rewrite fold_left_app, map_app. cbn [fold_left map].
      rewrite (s_sum_app S (sl_ring S L)). cbn [s_sum fold_right]. rewrite IH. unfold s_sum. ring.
  Qed.
  Lemma acc_sub ot q n : 0 <= n ->
    acc_value (s_sub S) ot q n = (- s_sum S (map (fun j => zn (block_to_span S (znth 0%N ot (q / pf * bw + j))) (q mod pf)) (zrange 0 n)))%sc.
  Proof.
    intro Hn. pattern n. apply natlike_ind; [| |exact Hn].
    - unfold acc_value. rewrite zrange_nil by lia. cbn. ring.
    - intros x Hx IH. change (Z.succ x) with (Z.add x 1). unfold acc_value in *.
      rewrite zrange_snoc by lia. rewrite fold_left_app, map_app. cbn [fold_left map].
      rewrite (s_sum_app S (sl_ring S L)). cbn [s_sum fold_right]. rewrite IH. unfold s_sum. ring.
  Qed.
  Lemma sum_map_add {A} (f g : A -> S) l :
    s_sum S (map (fun j => (f j + g j)%sc) l) = (s_sum S (map f l) + s_sum S (map g l))%sc.
  Proof. induction l as [|a l IH]; unfold s_sum in *; cbn [map fold_right]; [ring|]. rewrite IH. ring. Qed.
  Lemma sum_map_scale {A} (c : S) (g : A -> S) l :
    s_sum S (map (fun j => (c * g j)%sc) l) = (c * s_sum S (map g l))%sc.
  Proof. induction l as [|a l IH]; unfold s_sum in *; cbn [map fold_right]; [ring|]. rewrite IH. ring. Qed.

  Lemma gilboa_jrun (x : S) y out_v out_x ta tb :
    zlen out_v = zlen y -> zlen out_x = zlen y -> zlen y < 2^31 - pf -> bw * chunks S (zlen y) < 2^31 ->
    exists rv rx ta', jrun (gilboa_vector_provider S K y out_v) ta (gilboa_value_provider S K x out_x) tb
        (Ret (Ok rv)) ta' (Ret (Ok rx)) tb /\
      zlen rv = zlen y /\ zlen rx = zlen y /\
      forall q, 0 <= q < zlen y -> (zn rv q + zn rx q)%sc = (x * zn y q)%sc.
  Proof.
    intros Hv Hx Hy Hn. pose proof pf_pos as Hpf. pose proof bw_pos as Hbw. pose proof (zlen_nonneg y) as H0.
    pose proof (chunks_nonneg _ H0) as Hc0.
    set (n := Z.mul (chunks S (zlen y)) bw) in *.
    assert (En : Z.mul bw (chunks S (zlen y)) = n) by (subst n; lia).
    unfold gilboa_vector_provider, gilboa_value_provider.
    replace (zlen y =? zlen out_v) with true by lia. replace (16 <? s_size S) with false by lia. cbn [negb].
    rewrite Hx, wrap32_id by lia. unfold int_result at 1.
    replace ((- 2 ^ 31 <=? zlen y + pf) && (zlen y + pf <? 2 ^ 31)) with true by lia. cbn [plift].
    rewrite quot_chunks by lia. rewrite En. unfold int_result.
    assert (Hn0 : 0 <= n) by nia.
    replace ((- 2 ^ 31 <=? n) && (n <? 2 ^ 31)) with true by lia. cbn [plift].
    replace (n <? 0) with false by lia.
    unfold n. rewrite vector_deltas_ok, value_choices_ok by lia. cbn [plift]. fold n.
    set (deltas := map _ (zrange 0 n)).
    assert (Hld : zlen deltas = n) by (unfold deltas; rewrite zlen_map, zlen_zrange; lia).
    set (choices := map (fun q => s_bit S x (q mod bw)) (zrange 0 n)).
    assert (Hlc : zlen choices = n) by (unfold choices; rewrite zlen_map, zlen_zrange; lia).
    destruct (ot_run deltas (zlen y) choices
       (fun ot => Ret (accumulate S (s_sub S) ot (zlen y) (fill_zero S out_v)))
       (fun ot => Ret (accumulate S (s_add S) ot (zlen y) (fill_zero S out_x))) ta tb) as (P & ta' & (HP & Hcor) & HJ); try lia.
    assert (Hz : forall o q, 0 <= q < zlen (fill_zero S o) -> zn (fill_zero S o) q = s_zero S).
    { intros o q Hq. unfold fill_zero in *. rewrite zlen_map in Hq. now rewrite (znth_map _ (s_zero S)) by lia. }
    destruct (accumulate_ok (s_sub S) (map fst P) (zlen y) (fill_zero S out_v)) as (rv & E1 & L1 & V1 & _); auto.
    { rewrite zlen_map. fold n. lia. } { unfold fill_zero. rewrite zlen_map. lia. }
    set (R := map _ (combine choices P)) in HJ.
    assert (HlR : zlen R = n) by (unfold R; rewrite zlen_map, zlen_combine; lia).
    destruct (accumulate_ok (s_add S) R (zlen y) (fill_zero S out_x)) as (rx & E2 & L2 & V2 & _); auto.
    { unfold fill_zero. rewrite zlen_map. lia. }
    rewrite E1, E2 in HJ. exists rv, rx, ta'. split; [exact HJ|].
    unfold fill_zero in L1, L2. rewrite zlen_map in L1, L2. split; [lia|]. split; [lia|].
    intros q Hq. rewrite V1, V2 by auto. rewrite acc_sub, acc_add by lia.
    pose proof (chunk_of (zlen y) q Hq) as Hcq. pose proof (Z.mod_pos_bound q pf ltac:(lia)) as Hm.
    pose proof (Z.div_mod q pf ltac:(lia)) as Hdm.
    set (c := q / pf) in *. set (k := q mod pf) in *.
    transitivity (zn y q * s_sum S (map (fun j => if s_bit S x j then s_setbit S j else s_zero S) (zrange 0 bw)))%sc.
    2:{ unfold num_bits. rewrite (sl_bits S L). ring. }
    rewrite <- sum_map_scale.
    match goal with |- (- ?a + ?b)%sc = ?d => assert (Hs : b = (a + d)%sc); [|rewrite Hs; ring] end.
    rewrite <- sum_map_add. f_equal. apply map_ext_in. intros j Hj. apply In_zrange in Hj.
    assert (Hi : 0 <= Z.add (Z.mul c bw) j < n) by (subst n; nia).
    unfold R. rewrite (znth_map _ (false, (0%N, 0%N))) by (rewrite zlen_combine; lia).
    rewrite znth_combine by lia. rewrite (znth_map _ (0%N, 0%N)) by lia.
    unfold choices. rewrite (znth_map _ 0) by (rewrite zlen_zrange; lia). rewrite znth_zrange by lia.
    rewrite Z.add_0_l. replace ((Z.add (Z.mul c bw) j) mod bw) with j
      by (rewrite Z.add_comm, Z.mod_add, Z.mod_small; lia).
    specialize (Hcor _ (eq_ind_r (fun z => 0 <= Z.add (Z.mul c bw) j < z) Hi Hld)).
    destruct (znth (0%N, 0%N) P (Z.add (Z.mul c bw) j)) as [x0 x1]. cbn [fst snd] in *.
    destruct (s_bit S x j); [|ring]. rewrite Hcor, correlate_ok by lia.
    unfold deltas. rewrite (znth_map _ 0) by (rewrite zlen_zrange; lia). rewrite znth_zrange by lia. rewrite Z.add_0_l.
    replace ((Z.add (Z.mul c bw) j) mod bw) with j by (rewrite Z.add_comm, Z.mod_add, Z.mod_small; lia).
    replace ((Z.add (Z.mul c bw) j) / bw) with c by (rewrite Z.add_comm, Z.div_add, Z.div_small; lia).
    unfold delta. assert (Hsub : zlen (subspan y (Z.mul c pf) pf) = Z.min pf (Z.sub (zlen y) (Z.mul c pf))) by (apply zlen_subspan; nia).
    rewrite (pack_unpack S L H16) by lia. replace (k <? zlen (subspan y (Z.mul c pf) pf)) with true by nia.
    rewrite znth_subspan by nia. replace (Z.add (Z.mul c pf) k) with q by nia. ring.
  Qed.
End P.
