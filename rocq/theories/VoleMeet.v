(** Proofs about the Vector-OLE generator: both parties step by step. *)
From Verif Require Import Base BaseFacts ListFacts ScalarModel ScalarSpec ScalarProofs SumFacts PackModel
  ProcModel ProcSpec ProcProofs MeetProofs RotModel RotSpec RotProofs RotFinal SpfssModel SpfssProofs
  GilboaModel GilboaSpec GilboaProofs GilboaFinal RngModel CuckooModel CuckooSpec CuckooProofs CuckooFinal
  MpfssModel MpfssSpec MpfssProofs MpfssFinal VoleModel VoleSpec VoleProofs.
From Coq Require Import QArith Ring_theory Ring Permutation.
Local Open Scope Z_scope.

(** ** Lists *)
Lemma zlen_tail {A} n (l : list A) : 0 <= n <= zlen l -> zlen (tail n l) = n.
Proof. intro H. unfold tail, zlen in *. rewrite skipn_length. lia. Qed.
Lemma zlen_shrink {A} n (l : list A) : 0 <= n <= zlen l -> zlen (shrink n l) = zlen l - n.
Proof. intro H. unfold shrink, zlen in *. rewrite firstn_length. lia. Qed.
Lemma shrink_tail {A} n (l : list A) : shrink n l ++ tail n l = l.
Proof. apply firstn_skipn. Qed.
Lemma znth_shrink {A} (d : A) n l i : 0 <= n <= zlen l -> 0 <= i < zlen l - n -> znth d (shrink n l) i = znth d l i.
Proof. intros H Hi. rewrite <- (shrink_tail n l) at 2. rewrite znth_app by lia. rewrite zlen_shrink by lia. now replace (i <? zlen l - n) with true by lia. Qed.
Lemma znth_tail {A} (d : A) n l i : 0 <= n <= zlen l -> 0 <= i < n -> znth d (tail n l) i = znth d l (zlen l - n + i).
Proof.
  intros H Hi. rewrite <- (shrink_tail n l) at 2. rewrite znth_app by lia. rewrite zlen_shrink by lia.
  replace (zlen l - n + i <? zlen l - n) with false by lia. f_equal. lia.
Qed.

(** ** Random choices of one party *)
Section R.
  Context {T : Type}.
  Inductive rsteps {R} : proc T R -> tape T -> proc T R -> tape T -> Prop :=
  | rsteps_refl : forall p t, rsteps p t p t
  | rsteps_rand : forall k t p' t', rsteps (k (fst (t O)) (snd (t O))) (tape_tl t) p' t' -> rsteps (Rand k) t p' t'.
  Lemma rsteps_trans {R} (p : proc T R) t p1 t1 p2 t2 : rsteps p t p1 t1 -> rsteps p1 t1 p2 t2 -> rsteps p t p2 t2.
  Proof. induction 1; auto. intro H2. constructor. auto. Qed.
  Lemma rsteps_bind {A B} (f : A -> proc T B) p t p' t' : rsteps p t p' t' -> rsteps (pbind p f) t (pbind p' f) t'.
  Proof. induction 1; cbn; constructor; auto. Qed.
  Lemma rsteps_scalars {R} n (k : list T -> proc T R) t : rsteps (rand_scalars n k) t (k (tape_scalars n t)) (tape_drop n t).
  Proof. revert k t. induction n as [|n IH]; intros k t; cbn; [constructor|]. constructor. apply (IH (fun l => k (snd (t O) :: l))). Qed.
  Lemma rsteps_blocks {R} n (k : list N -> proc T R) t : rsteps (rand_blocks n k) t (k (tape_blocks n t)) (tape_drop n t).
  Proof. revert k t. induction n as [|n IH]; intros k t; cbn; [constructor|]. constructor. apply (IH (fun l => k (fst (t O) :: l))). Qed.
  Lemma rsteps_jrun {RA RB} (p : proc T RA) t p' t' (pb : proc T RB) tb : rsteps p t p' t' -> jrun p t pb tb p' t' pb tb.
  Proof. induction 1; [apply jrun_refl|]. eapply jrun_trans; [apply jrun_rand_a|]. exact IHrsteps. Qed.

  Lemma meet_rand {A B I} (P : I -> Prop) fa fb (post : A -> B -> Prop) pa (pa' : I -> proc T A) pb :
    (forall ta, exists i ta', P i /\ rsteps pa ta (pa' i) ta') ->
    (forall i, P i -> meet fa fb post (pa' i) pb) -> meet fa fb post pa pb.
  Proof.
    intros HR H ta tb. destruct (HR ta) as (i & ta1 & HP & R). apply (rsteps_jrun _ _ _ _ pb tb) in R.
    destruct (H i HP ta1 tb) as [(a & b & ta' & tb' & J' & X) | [(a & q & ta' & tb' & J' & X) | (q & b & ta' & tb' & J' & X)]].
    - left. exists a, b, ta', tb'. split; auto. eapply jrun_trans; eauto.
    - right; left. exists a, q, ta', tb'. split; auto. eapply jrun_trans; eauto.
    - right; right. exists q, b, ta', tb'. split; auto. eapply jrun_trans; eauto.
  Qed.
End R.

(** ** Correlations *)
Section C.
  Variable S : scalar.
  Hypothesis L : scalar_laws S.
  Add Ring SR : (sl_ring S L).
  Notation zn := (znth (s_zero S)).
  Local Notation add := (s_add S).
  Local Notation mul := (s_mul S).

  Lemma correlation_nil x : vole_correlation S x [] [] [].
  Proof. repeat split; auto. change (zlen (@nil S)) with 0. lia. Qed.
  Lemma correlation_tail x u v w n : vole_correlation S x u v w -> 0 <= n <= zlen w ->
    vole_correlation S x (tail n u) (tail n v) (tail n w).
  Proof.
    intros (Hu & Hv & H) Hn. unfold vole_correlation. rewrite !zlen_tail by lia. repeat split; auto. intros i Hi.
    rewrite !znth_tail by lia. rewrite Hu, Hv. apply H. lia.
  Qed.
  Lemma correlation_shrink x u v w n : vole_correlation S x u v w -> 0 <= n <= zlen w ->
    vole_correlation S x (shrink n u) (shrink n v) (shrink n w).
  Proof.
    intros (Hu & Hv & H) Hn. unfold vole_correlation. rewrite !zlen_shrink by lia. repeat split; auto; try lia. intros i Hi.
    rewrite !znth_shrink by lia. apply H. lia.
  Qed.
  Lemma correlation_app x u v w u' v' w' : vole_correlation S x u v w -> vole_correlation S x u' v' w' ->
    vole_correlation S x (u ++ u') (v ++ v') (w ++ w').
  Proof.
    intros (Hu & Hv & H) (Hu' & Hv' & H'). unfold vole_correlation. rewrite !zlen_app. repeat split; try lia. intros i Hi.
    rewrite !znth_app by lia. rewrite Hu, Hv. destruct (Z.ltb_spec i (zlen w)); [apply H|apply H']; lia.
  Qed.
  Lemma correlation_all x u v w : vole_correlation S x u v w -> forall i, zn w i = add (mul (zn u i) x) (zn v i).
  Proof.
    intros (Hu & Hv & H) i. destruct (Z.ltb_spec i 0); [rewrite !znth_out by lia; ring|].
    destruct (Z.ltb_spec i (zlen w)); [apply H; lia|rewrite !znth_out by lia; ring].
  Qed.

  Lemma zlen_encode columns seed : zlen (encode S columns seed) = zlen columns.
  Proof. apply zlen_map. Qed.
  Lemma encode_linear columns x u v w : vole_correlation S x u v w ->
    vole_correlation S x (encode S columns u) (encode S columns v) (encode S columns w).
  Proof.
    intro H. unfold vole_correlation. rewrite !zlen_encode. repeat split; auto. intros i Hi.
    unfold encode. rewrite !(znth_map _ []) by lia. induction (znth [] columns i) as [|[r c] l IH]; cbn [map fold_right]; [ring|].
    rewrite IH, (correlation_all _ _ _ _ H). ring.
  Qed.

  Lemma zlen_vec_add a b : zlen a = zlen b -> zlen (vec_add S a b) = zlen a.
  Proof. intro H. unfold vec_add. rewrite zlen_map. now apply zlen_combine. Qed.
  Lemma zlen_vec_sub a b : zlen a = zlen b -> zlen (vec_sub S a b) = zlen a.
  Proof. intro H. unfold vec_sub. rewrite zlen_map. now apply zlen_combine. Qed.
  Lemma znth_vec_add a b i : zlen a = zlen b -> 0 <= i < zlen a -> zn (vec_add S a b) i = add (zn a i) (zn b i).
  Proof.
    intros H Hi. unfold vec_add. rewrite (znth_map _ (s_zero S, s_zero S)) by (rewrite zlen_combine; lia).
    now rewrite znth_combine by auto.
  Qed.
  Lemma znth_vec_sub a b i : zlen a = zlen b -> 0 <= i < zlen a -> zn (vec_sub S a b) i = s_sub S (zn a i) (zn b i).
  Proof.
    intros H Hi. unfold vec_sub. rewrite (znth_map _ (s_zero S, s_zero S)) by (rewrite zlen_combine; lia).
    now rewrite znth_combine by auto.
  Qed.

  (** mu has the values at the noise indices. *)
  Lemma spread_ok out num indices y : 0 <= out -> zlen indices = num -> zlen y = num -> NoDup indices ->
    (forall k, 0 <= k < num -> 0 <= znth 0 indices k < out) ->
    exists mu, spread S out num indices y = Ok mu /\ zlen mu = out /\
      forall x p, 0 <= p < out -> point_value S x y indices p = mul x (zn mu p).
  Proof.
    intros Ho Hi Hy Hnd Hr. unfold spread.
    assert (H0 : 0 <= num) by (pose proof (zlen_nonneg y); lia).
    set (part := fun k => fun x p => s_sum S (map (fun k => if znth 0 indices k =? p then mul x (zn y k) else s_zero S) (zrange 0 k))).
    destruct (for_range_inv (fun k mu => zlen mu = out /\ forall x p, 0 <= p < out -> part k x p = mul x (zn mu p)) 0 num
      (fun i mu => let! index := zget indices i in let! x := zget y i in zset mu index x) (zrepeat (s_zero S) out)) as (mu & E & Hm & Hp); auto.
    - split; [apply zlen_zrepeat; auto|]. intros x p Hp. unfold part. rewrite zrange_nil by lia. cbn.
      rewrite znth_zrepeat by lia. unfold s_sum; cbn; ring.
    - intros k mu Hk (Hl & Hp). rewrite (zget_ok 0) by lia. cbn [rbind]. rewrite (zget_ok (s_zero S)) by lia. cbn [rbind].
      rewrite zset_ok by (rewrite Hl; apply Hr; lia). eexists. split; [reflexivity|]. rewrite zlen_list_set. split; [auto|].
      intros x p Hpp. unfold part. rewrite sum_range_snoc by (auto; lia). fold (part k x p).
      rewrite znth_list_set by (rewrite Hl; apply Hr; lia).
      destruct (Z.eqb_spec (znth 0 indices k) p) as [Ep|Ep].
      + unfold part. rewrite sum_zero; [ring|auto|]. intros j Hj. apply In_zrange in Hj.
        destruct (Z.eqb_spec (znth 0 indices j) p) as [Ej|]; auto. exfalso.
        assert (j = k); [|lia]. apply (proj1 (NoDup_nth indices 0)) with (i := Z.to_nat j) (j := Z.to_nat k) in Hnd; try (unfold zlen in Hi; lia).
        unfold znth in *. destruct (Z.ltb_spec j 0); [lia|]. destruct (Z.ltb_spec k 0); [lia|]. congruence.
      + rewrite Hp by auto. ring.
    - exists mu. split; [exact E|]. split; [auto|]. intros x p Hpp. rewrite <- Hp by auto. unfold point_value, part. now rewrite Hi.
  Qed.
End C.
