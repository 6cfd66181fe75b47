(** The parallel regions of an expansion followed by the product, and threads that
    took part in no region. *)
From Verif Require Import Base BaseFacts ListFacts ScalarModel ScalarSpec GgmModel GgmSpec SpfssModel ParModel ParLoops ParSpec ParProofs ParFinal ParScalars
  VoleModel VoleSpec VoleHistory VoleCode ParEigen ParModulusSpec ParModulus.
From Coq Require Import Permutation.
Local Open Scope Z_scope.

Section Final.
  Variable S : scalar.
  Variable context : option positive.

  Lemma create_moduli (m : cell -> value S) tape parts : parts_of 0 parts ->
    every_schedule same_cell (spans_allocated []) tape m (create_region S context parts) (fun m' drawn =>
      moduli context m' (zlen parts) /\ forall a, m' (At a) = m (At a)).
  Proof.
    intro Hp. eapply every_schedule_mono; [|apply region_moduli; [intros; exact I|]]. 2:{
      apply (independent_loop same_cell _ (fun _ _ => False) (fun t c => c = ModulusOf t) (fun c => exists a, c = At a) m 0 (restore S context) (fun _ _ => Stop)
        (fun _ _ => True) (fun _ _ => True) tape parts); [|lia|exact Hp].
      constructor; try (cbn; tauto).
      - intros t t' c Ht -> E. injection E as E. auto.
      - intros c [a ->]. split; [tauto|]. discriminate.
      - intro t. unfold restore. destruct context; cbn; auto.
      - intros t m1. unfold restore. destruct context; cbn; auto. }
    cbn. intros m' d [(_ & _ & He) Hm]. split; [exact Hm|]. intro a. symmetry. apply He. now exists a.
  Qed.

  Lemma unpack_moduli trees spans outputs tape (m : cell -> value S) parts :
    disjoint_spans spans -> spans_contain m spans outputs -> Forall2 has_leaves trees (map zlen outputs) -> parts_of (zlen spans) parts ->
    every_schedule same_cell (spans_allocated spans) tape m (unpack_threads S context trees spans parts) (fun m' drawn => moduli context m' (zlen parts)).
  Proof.
    intros. eapply every_schedule_mono; [|apply region_moduli; [apply plain_unpack|eapply unpack_parallel; eauto]]. cbn. tauto.
  Qed.
  Lemma provider_moduli val_shares spans outputs tape (m : cell -> value S) parts :
    disjoint_spans spans -> spans_contain m spans outputs -> zlen val_shares = zlen spans -> sums_contain m val_shares ->
    parts_of (zlen spans) parts ->
    every_schedule same_cell (spans_allocated spans) tape m (provider_threads S context spans parts) (fun m' drawn => moduli context m' (zlen parts)).
  Proof.
    intros. eapply every_schedule_mono; [|apply region_moduli; [apply plain_provider|eapply provider_parallel; eauto]]. cbn. tauto.
  Qed.
  Lemma index_moduli val_shares indices spans outputs tape (m : cell -> value S) parts :
    spans_contain m spans outputs -> zlen val_shares = zlen spans -> zlen indices = zlen spans -> sums_contain m val_shares ->
    parts_of (zlen spans) parts ->
    every_schedule same_cell (spans_allocated spans) tape m (index_threads S context indices spans parts) (fun m' drawn => moduli context m' (zlen parts)).
  Proof.
    intros. eapply every_schedule_mono; [|apply region_moduli; [apply plain_index|eapply index_parallel; eauto]]. cbn. tauto.
  Qed.

  Lemma moduli_kept (m m' : cell -> value S) n n' : moduli context m n -> keeps_threads m m' n -> n' <= n -> moduli context m' n'.
  Proof. unfold moduli, keeps_threads. destruct context; auto. intros H1 H2 Hn t Ht. rewrite H2 by lia. apply H1. lia. Qed.

  Variable Laws : scalar_laws S.
  Lemma moduli_product (m : cell -> value S) n : moduli context m n -> products_correct context m n.
  Proof.
    intros Hm m' parts columns stored seed vector result tape Hk Hn H1 H2 H3 H4 H5.
    eapply every_schedule_mono; [|apply (product_parallel S context Laws columns stored seed vector result tape m' parts); auto; now apply (moduli_kept m m' n)].
    cbn. intros m1 d (E1 & E2 & E3). split; [exact E1|]. split; [exact E2|]. intros t Ht. now rewrite E3.
  Qed.

  Lemma index_then_product val_shares indices spans outputs tape (m : cell -> value S) parts :
    spans_contain m spans outputs -> zlen val_shares = zlen spans -> zlen indices = zlen spans -> sums_contain m val_shares ->
    parts_of (zlen spans) parts ->
    every_schedule same_cell (spans_allocated spans) tape m (index_threads S context indices spans parts) (fun m' drawn => products_correct context m' (zlen parts)).
  Proof. intros. eapply every_schedule_mono; [|eapply index_moduli; eauto]. cbn. intros. now apply moduli_product. Qed.
  Lemma provider_then_product val_shares spans outputs tape (m : cell -> value S) parts :
    disjoint_spans spans -> spans_contain m spans outputs -> zlen val_shares = zlen spans -> sums_contain m val_shares ->
    parts_of (zlen spans) parts ->
    every_schedule same_cell (spans_allocated spans) tape m (provider_threads S context spans parts) (fun m' drawn => products_correct context m' (zlen parts)).
  Proof. intros. eapply every_schedule_mono; [|eapply provider_moduli; eauto]. cbn. intros. now apply moduli_product. Qed.
End Final.

(** ** A thread that has another modulus *)
Lemma foreign_crash (S : scalar) p t i row x column work (stored : list (list (Z * S))) (vector result : Z * Z) parts tape (m : cell -> value S) :
  0 <= t < zlen parts -> znth [] parts t = i :: work -> zget stored i = Ok ((row, x) :: column) -> 0 <= row < snd vector ->
  m (ModulusOf t) <> Modulus (Some p) ->
  exists s why, goes same_cell (spans_allocated [vector; result]) tape (Shared m 0 (product_threads S (Some p) stored vector result parts)) s /\
    nth_error (sh_threads s) (Z.to_nat t) = Some (Crash why).
Proof.
  intros Ht Hw Hc Hrow Hm.
  assert (E : exists k, nth_error (product_threads S (Some p) stored vector result parts) (Z.to_nat t) = Some (Get (ModulusOf t) k) /\
    exists why, k (m (ModulusOf t)) = Crash why).
  { unfold product_threads, parallel_for. rewrite nth_error_map.
    destruct (nth_error (zrange 0 (zlen parts)) (Z.to_nat t)) as [z|] eqn:E.
    2:{ apply nth_error_None in E. rewrite length_zrange in E. lia. }
    apply nth_error_zrange in E. destruct E as [E _]. replace z with t by lia. cbn [option_map]. rewrite Hw.
    cbn [no_restore then_do iterations]. unfold product_iteration at 1. rewrite Hc. cbn [row_products]. unfold in_span at 1.
    replace ((0 <=? row) && (row <? snd vector)) with true by lia. cbn [compute then_do]. eexists. split; [reflexivity|].
    destruct (m (ModulusOf t)) as [y|[q|]]; cbn; eauto. destruct (Pos.eqb_spec p q) as [->|Hn]; [now destruct Hm|]. cbn. eauto. }
  destruct E as (k & E & why & Ek). exists (Shared m 0 (list_set (product_threads S (Some p) stored vector result parts) (Z.to_nat t) (k (m (ModulusOf t))))), why.
  split.
  - eapply goes_step; [constructor|]. apply go_get; [exact E|reflexivity].
  - cbn. erewrite list_set_same by eauto. now rewrite Ek.
Qed.

(** ** The generator of every reachable object *)
Lemma generator_rows (S : scalar) E (G : good_setting S E) M (GM : good_machine S M) st0 l st :
  1 <= p_nonzeros (e_parameters E) -> created S M st0 -> history S E M st0 l st -> rows_below (v_rows st) (v_columns st).
Proof.
  intros Hn Hc H. unfold rows_below. destruct (history_code S E G M GM st0 l st Hn Hc H) as [Hz|Hg].
  - eapply Forall_impl; [|exact Hz]. cbn. intros a ->. constructor.
  - eapply Forall_impl; [|exact Hg]. intros a [_ [_ Ha]]. exact Ha.
Qed.
