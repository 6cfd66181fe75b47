(** Bijections of blocks that translate packed elements. *)
From Verif Require Import Base BaseFacts NBits ListFacts ScalarModel ScalarSpec ScalarProofs ScalarFinal PackModel PackProofs GilboaSpec.
From Coq Require Import Ring_theory Ring.
Local Open Scope N_scope.

(** Replace chunk k of width w. *)
Definition put (w k b v : N) : N := N.lor (N.ldiff b (N.shiftl (N.ones w) (k * w))) (N.shiftl v (k * w)).
Lemma put_spec w k b v i : v < 2^w ->
  N.testbit (put w k b v) i = if (k * w <=? i) && (i <? k * w + w) then N.testbit v (i - k * w) else N.testbit b i.
Proof.
  intro Hv. unfold put. rewrite N.lor_spec, N.ldiff_spec.
  destruct (N.leb_spec (k * w) i) as [H|H]; cbn [andb].
  - rewrite !N.shiftl_spec_high' by exact H. destruct (N.ltb_spec i (k * w + w)).
    + rewrite N.ones_spec_low by lia. cbn [negb]. now rewrite andb_false_r.
    + rewrite N.ones_spec_high by lia. cbn [negb]. rewrite andb_true_r.
      rewrite (proj1 (lt_pow2_testbit v w) Hv) by lia. apply orb_false_r.
  - rewrite !N.shiftl_spec_low by exact H. cbn [negb]. rewrite andb_true_r. apply orb_false_r.
Qed.
Lemma chunk_put w k b v : v < 2^w -> chunk w k (put w k b v) = v.
Proof.
  intro Hv. apply N.bits_inj. intro i. rewrite chunk_spec, put_spec by exact Hv.
  destruct (N.ltb_spec i w); cbn [andb].
  - replace (k * w <=? k * w + i) with true by (symmetry; apply N.leb_le; lia).
    replace (k * w + i <? k * w + w) with true by (symmetry; apply N.ltb_lt; lia). cbn [andb]. f_equal. lia.
  - symmetry. apply (proj1 (lt_pow2_testbit v w) Hv). lia.
Qed.
Lemma chunk_put_other w k j b v : v < 2^w -> j <> k -> chunk w j (put w k b v) = chunk w j b.
Proof.
  intros Hv Hne. apply N.bits_inj. intro i. rewrite !chunk_spec, put_spec by exact Hv.
  destruct (N.ltb_spec i w); cbn [andb]; [|reflexivity].
  destruct (N.leb_spec (k * w) (j * w + i)), (N.ltb_spec (j * w + i) (k * w + w)); cbn [andb]; try reflexivity.
  exfalso. apply Hne. assert (j < k + 1) by nia. assert (k < j + 1) by nia. lia.
Qed.
Lemma put_chunk w k b v : v < 2^w -> put w k (put w k b v) (chunk w k b) = b.
Proof.
  intro Hv. apply N.bits_inj. intro i. rewrite put_spec by apply chunk_lt.
  destruct (N.leb_spec (k * w) i), (N.ltb_spec i (k * w + w)); cbn [andb].
  - rewrite chunk_spec. replace (i - k * w <? w) with true by (symmetry; apply N.ltb_lt; lia). cbn [andb]. f_equal. lia.
  - rewrite put_spec by exact Hv. replace (i <? k * w + w) with false by (symmetry; apply N.ltb_ge; lia). now rewrite andb_false_r.
  - rewrite put_spec by exact Hv. replace (k * w <=? i) with false by (symmetry; apply N.leb_gt; lia). reflexivity.
  - rewrite put_spec by exact Hv. replace (k * w <=? i) with false by (symmetry; apply N.leb_gt; lia). reflexivity.
Qed.
Lemma put_lt w k b v n : v < 2^w -> (k + 1) * w <= n -> b < 2^n -> put w k b v < 2^n.
Proof.
  intros Hv Hk Hb. apply lt_pow2_testbit. intros i Hi. rewrite put_spec by exact Hv.
  replace (i <? k * w + w) with false by (symmetry; apply N.ltb_ge; lia). rewrite andb_false_r.
  exact (proj1 (lt_pow2_testbit b n) Hb i Hi).
Qed.

Lemma bijection_compose f g : block_bijection f -> block_bijection g -> block_bijection (fun x => g (f x)).
Proof.
  intros [f' Hf] [g' Hg]. exists (fun x => f' (g' x)). intros x Hx.
  destruct (Hf x Hx) as (F1 & _ & F3 & _), (Hg _ F1) as (G1 & _ & G3 & _).
  destruct (Hg x Hx) as (_ & G2 & _ & G4), (Hf _ G2) as (_ & F2 & _ & F4).
  rewrite G3, F4. auto.
Qed.
Lemma bijection_id : block_bijection (fun x => x).
Proof. exists (fun x => x). auto. Qed.

Section Shift.
  Variable t : stype.
  Hypothesis Ht : stype_ok t.
  Notation S := (scalar_of t).
  Hypothesis H16 : (s_size S <= 16)%Z.
  Let L := scalar_of_laws t Ht.
  Add Ring SR : (sl_ring S L).
  Let w := Z.to_N (num_bits S).
  Let o := order t.

  Lemma w_bounds : 8 <= w <= 128.
  Proof. pose proof (packing_factor_bounds S L H16) as (_ & _ & _ & H). unfold w. lia. Qed.
  Lemma w_lt v : v < 2^w -> v < 2^128.
  Proof. intro H. apply N.lt_le_trans with (1 := H). apply N.pow_le_mono_r; [discriminate|apply w_bounds]. Qed.

  (** Values from here on are not reduced fairly. *)
  Definition fair : N := 2^w / o * o.
  Lemma fair_le : fair <= 2^w.
  Proof. unfold fair. pose proof (order_pos t). pose proof (N.mul_div_le (2^w) o). fold o in H. lia. Qed.
  Lemma fair_rest : 2^w - fair = 2^w mod o.
  Proof. unfold fair. pose proof (order_pos t). fold o in H. pose proof (N.div_mod (2^w) o). lia. Qed.

  Definition translate (a : S) (v : N) : N :=
    if v <? fair then v / o * o + s_to128 S (s_add S (s_of128 S (v mod o)) a) else v.

  Lemma div_below v : v < fair -> v / o < 2^w / o.
  Proof.
    intro H. pose proof (order_pos t). fold o in H0. apply N.div_lt_upper_bound; [lia|]. unfold fair in H. lia.
  Qed.
  Lemma translate_fair a v : v < fair ->
    translate a v < fair /\ translate a v / o = v / o /\ s_of128 S (translate a v mod o) = s_add S (s_of128 S (v mod o)) a.
  Proof.
    intro H. pose proof (order_pos t) as Ho. fold o in Ho. destruct (elements t Ht H16) as (E1 & E2 & E3).
    unfold translate. replace (v <? fair) with true by (symmetry; apply N.ltb_lt; exact H).
    set (e := s_add S _ a). pose proof (E1 e) as He. fold o in He. pose proof (div_below v H) as Hd.
    assert (D : (v / o * o + s_to128 S e) / o = v / o) by (rewrite N.div_add_l, (N.div_small (s_to128 S e)) by lia; lia).
    assert (M : (v / o * o + s_to128 S e) mod o = s_to128 S e).
    { rewrite N.add_comm, N.mod_add, N.mod_small by lia. reflexivity. }
    repeat split; [|exact D|rewrite M; apply E2]. unfold fair. nia.
  Qed.
  Lemma translate_lt a v : v < 2^w -> translate a v < 2^w.
  Proof.
    intro H. destruct (N.ltb_spec v fair) as [F|F].
    - pose proof (translate_fair a v F) as (A & _). pose proof fair_le. lia.
    - unfold translate. replace (v <? fair) with false by (symmetry; apply N.ltb_ge; exact F). exact H.
  Qed.
  Lemma translate_back a v : translate (s_opp S a) (translate a v) = v.
  Proof.
    pose proof (order_pos t) as Ho. fold o in Ho. destruct (elements t Ht H16) as (E1 & E2 & E3).
    destruct (N.ltb_spec v fair) as [F|F].
    - pose proof (translate_fair a v F) as (A & B & C). unfold translate at 1.
      replace (translate a v <? fair) with true by (symmetry; apply N.ltb_lt; exact A).
      rewrite B, C. replace (s_add S (s_add S (s_of128 S (v mod o)) a) (s_opp S a)) with (s_of128 S (v mod o)) by ring.
      rewrite E3 by (apply N.mod_lt; lia). pose proof (N.div_mod v o). lia.
    - unfold translate. replace (v <? fair) with false by (symmetry; apply N.ltb_ge; exact F).
      now replace (v <? fair) with false by (symmetry; apply N.ltb_ge; exact F).
  Qed.
  Lemma translate_of a v : v < fair -> s_of128 S (translate a v) = s_add S (s_of128 S v) a.
  Proof.
    intro F. pose proof (translate_fair a v F) as (A & B & C). pose proof fair_le.
    rewrite <- (of128_mod t (translate a v)), <- (of128_mod t v) by (auto; apply w_lt; lia). exact C.
  Qed.
  Lemma translate_0 v : translate (s_zero S) v = v.
  Proof.
    pose proof (order_pos t) as Ho. fold o in Ho. destruct (elements t Ht H16) as (E1 & E2 & E3).
    unfold translate. destruct (v <? fair); [|reflexivity].
    replace (s_add S (s_of128 S (v mod o)) (s_zero S)) with (s_of128 S (v mod o)) by ring.
    rewrite E3 by (apply N.mod_lt; lia). pose proof (N.div_mod v o). lia.
  Qed.

  (** Translate the packed elements k, k+1, ... of a block. *)
  Fixpoint shift_all (k : N) (l : list S) (b : N) : N :=
    match l with
    | [] => b
    | a :: l => shift_all (k + 1) l (put w k b (translate a (chunk w k b)))
    end.
  Lemma shift_all_before k l b j : j < k -> chunk w j (shift_all k l b) = chunk w j b.
  Proof.
    revert k b. induction l as [|a l IH]; intros k b H; [reflexivity|]. cbn [shift_all].
    rewrite IH by lia. apply chunk_put_other; [apply translate_lt, chunk_lt|lia].
  Qed.
  Lemma shift_all_chunk l : forall k b j, k <= j -> (Z.of_N (j - k) < zlen l)%Z ->
    chunk w j (shift_all k l b) = translate (znth (s_zero S) l (Z.of_N (j - k))) (chunk w j b).
  Proof.
    induction l as [|a l IH]; intros k b j Hk Hj; [rewrite zlen_nil in Hj; lia|]. cbn [shift_all].
    assert (T : translate a (chunk w k b) < 2^w) by (apply translate_lt, chunk_lt). rewrite zlen_cons in Hj.
    rewrite znth_cons by lia. destruct (N.eq_dec j k) as [->|Hne].
    - rewrite N.sub_diag, shift_all_before by lia. now rewrite chunk_put by exact T.
    - rewrite IH by lia. rewrite chunk_put_other by auto. replace (Z.of_N (j - k) =? 0)%Z with false by lia.
      do 2 f_equal. lia.
  Qed.
  Lemma shift_one_bijection k a : (k + 1) * w <= 128 -> block_bijection (fun b => put w k b (translate a (chunk w k b))).
  Proof.
    intro Hk. exists (fun b => put w k b (translate (s_opp S a) (chunk w k b))). intros b Hb.
    assert (T : forall a b, translate a (chunk w k b) < 2^w) by (intros; apply translate_lt, chunk_lt).
    repeat split.
    - apply put_lt; auto.
    - apply put_lt; auto.
    - rewrite chunk_put, translate_back by apply T. apply put_chunk, T.
    - rewrite chunk_put by apply T.
      replace (translate a (translate (s_opp S a) (chunk w k b))) with (chunk w k b); [apply put_chunk, T|].
      rewrite <- (translate_back (s_opp S a) (chunk w k b)) at 1. f_equal. ring.
  Qed.
  Lemma shift_all_bijection l : forall k, (Z.of_N ((k + Z.to_N (zlen l)) * w) <= 128)%Z -> block_bijection (shift_all k l).
  Proof.
    induction l as [|a l IH]; intros k H; cbn [shift_all]; [apply bijection_id|].
    pose proof (zlen_nonneg l). rewrite zlen_cons in H. apply (bijection_compose _ (shift_all (k + 1) l)).
    - apply shift_one_bijection. nia.
    - apply IH. nia.
  Qed.
End Shift.
