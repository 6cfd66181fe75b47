(** Proofs about the moduli of the threads and Eigen's products. *)
From Verif Require Import Base BaseFacts ListFacts ScalarModel ScalarSpec GgmModel GgmSpec ParModel ParLoops ParSpec ParProofs ParFinal ParScalars
  VoleModel ParEigen ParModulusSpec.
From Coq Require Import Permutation Ring.
Local Open Scope Z_scope.

Section Restore.
  Variable S : scalar.
  Variable context : option positive.

  (** A thread that installs no modulus. *)
  Definition plain (p : thread cell (value S)) : Prop := obeys (fun _ => True) (fun c => forall t, c <> ModulusOf t) p.

  (** In every state of a region that begins with restore(): a thread is at its
      beginning or has its modulus. *)
  Lemma region_invariant p0 (context_is : context = Some p0) body parts allocated tape m s :
    (forall t i, plain (body t i)) -> goes same_cell allocated tape (Shared m 0 (parallel_for (restore S context) body parts)) s ->
    forall t p, nth_error (sh_threads s) t = Some p ->
      (exists rest, p = Put (ModulusOf (Z.of_nat t)) (Modulus (Some p0)) rest /\ plain rest) \/
      plain p /\ sh_memory s (ModulusOf (Z.of_nat t)) = Modulus (Some p0).
  Proof.
    intro Hb. remember (Shared m 0 _) as s0 eqn:E0. induction 1 as [s|s s' s'' _ IH Hgo]; subst.
    - intros t p Hp. left. cbn in Hp. unfold parallel_for in Hp. rewrite nth_error_map in Hp.
      destruct (nth_error (zrange 0 (zlen parts)) t) as [z|] eqn:E; [|discriminate]. apply nth_error_zrange in E. destruct E as [E _]. injection Hp as <-.
      cbn. replace z with (Z.of_nat t) by lia. eexists. split; [reflexivity|]. unfold plain. induction (znth [] parts _) as [|i l IHl]; cbn; auto.
      apply obeys_then; [apply Hb|exact IHl].
    - specialize (IH eq_refl). assert (IH0 := IH). inversion Hgo as [m1 n1 l t0 c k Hk Ha E1 E2|m1 n1 l t0 c v k Hk Ha E1 E2|m1 n1 l t0 k Hk E1 E2]; subst; cbn [sh_threads sh_memory] in *;
        intros t p Hp; (destruct (Nat.eq_dec t0 t) as [->|Hn];
        [erewrite list_set_same in Hp by eauto; injection Hp as <-; destruct (IH t _ Hk) as [(rest & E & Hr)|[Hr Hm]]; try discriminate
        |rewrite list_set_other in Hp by auto; specialize (IH t _ Hp)]).
      + right. cbn in Hr. split; [apply Hr|exact Hm].
      + exact IH.
      + injection E as -> -> ->. right. split; [exact Hr|]. apply store_eq.
      + right. cbn in Hr. split; [apply Hr|]. rewrite store_neq; [exact Hm|]. apply Hr.
      + destruct IH as [IH'|[H1 H2]]; [left; exact IH'|right]. split; [exact H1|]. rewrite store_neq; [exact H2|].
        destruct (IH0 t0 _ Hk) as [(rest & E & _)|[Hr _]]; [injection E as -> _ _; intro E; injection E as E; lia|apply Hr].
      + right. cbn in Hr. split; [apply Hr|exact Hm].
      + exact IH.
  Qed.

  Lemma region_moduli body parts allocated tape m Q :
    (forall t i, plain (body t i)) ->
    every_schedule same_cell allocated tape m (parallel_for (restore S context) body parts) Q ->
    every_schedule same_cell allocated tape m (parallel_for (restore S context) body parts) (fun m' drawn => Q m' drawn /\ moduli context m' (zlen parts)).
  Proof.
    intros Hb (H1 & H2 & H3). split; [exact H1|]. split; [exact H2|]. intros s Hs Hst. destruct (H3 s Hs Hst) as [Hstop HQ]. split; [exact Hstop|]. split; [exact HQ|].
    unfold moduli. destruct context as [p0|] eqn:Ec; [|exact I]. intros t Ht.
    assert (Hl : List.length (sh_threads s) = List.length parts).
    { assert (G : forall s, goes same_cell allocated tape (Shared m 0 (parallel_for (restore S (Some p0)) body parts)) s -> List.length (sh_threads s) = List.length parts).
      { clear H1 H2 H3 Hs Hst Hstop HQ s. intros s' H. remember (Shared m 0 _) as s0 eqn:E0. induction H as [s'|s1 s2 s3 _ IH Hgo]; subst.
        - cbn. unfold parallel_for. rewrite map_length, length_zrange. unfold zlen. lia.
        - rewrite <- IH by reflexivity. inversion Hgo; cbn; apply list_set_length. }
      now apply G. }
    destruct (nth_error (sh_threads s) (Z.to_nat t)) as [p|] eqn:E; [|apply nth_error_None in E; unfold zlen in Ht; lia].
    pose proof (nth_error_In _ _ E) as Hi. rewrite Forall_forall in Hstop. rewrite (Hstop _ Hi) in E.
    rewrite <- Ec in Hs. destruct (region_invariant p0 Ec body parts allocated tape m s Hb Hs _ _ E) as [(rest & E2 & _)|[_ E2]]; [discriminate|].
    now rewrite Z2Nat.id in E2 by lia.
  Qed.

  Lemma plain_for (f : Z -> thread cell (value S)) l : (forall k, plain (f k)) -> plain (iterations f l).
  Proof. intro H. unfold plain in *. induction l; cbn; auto. apply obeys_then; auto. Qed.
  Lemma plain_compute t k : plain k -> plain (compute S context t k).
  Proof. intro H. unfold compute. destruct context; auto. cbn. split; [auto|]. intros [x|[q|]]; cbn; auto. now destruct (_ =? _)%positive. Qed.
  Lemma plain_get c k : (forall x, plain (k x)) -> plain (get_scalar S c k).
  Proof. intro H. cbn. split; [auto|]. intros [x|q]; cbn; auto. apply H. Qed.
  Lemma plain_span span k f : (forall a, plain (f (At a))) -> plain (in_span S span k f).
  Proof. intro H. unfold in_span. destruct (_ && _); [apply H|exact I]. Qed.
  Lemma plain_put a v k : plain k -> plain (Put (At a) v k).
  Proof. intro H. split; [discriminate|exact H]. Qed.
  Lemma plain_sum j v k : plain k -> plain (Put (SumOf j) v k).
  Proof. intro H. split; [discriminate|exact H]. Qed.
  Hint Resolve plain_for plain_compute plain_get plain_span plain_put plain_sum : plain.

  Lemma plain_unpack trees spans t i : plain (unpack_iteration S context trees spans t i).
  Proof.
    unfold unpack_iteration. destruct (zget spans i) as [span| |]; try exact I. destruct (zget trees i) as [[tr|]| |]; try (now destruct (_ =? 0)). destruct (_ =? 0); [exact I|].
    apply plain_for. intro k. destruct (get_value_at_leaf tr k); try exact I. apply plain_compute, plain_span. intro b. now apply plain_put.
  Qed.
  Lemma plain_provider spans t j : plain (provider_iteration S context spans t j).
  Proof.
    unfold provider_iteration. destruct (zget spans j) as [span| |]; try exact I. apply plain_for. intro k. apply plain_span. intro a. apply plain_compute, plain_get. intro x.
    apply plain_get. intro y. apply plain_sum, plain_get. intro z. now apply plain_put.
  Qed.
  Lemma plain_index indices spans t j : plain (index_iteration S context indices spans t j).
  Proof.
    unfold index_iteration. destruct (zget spans j) as [span| |]; try exact I. apply plain_for. intro k. destruct (zget indices j) as [ix| |]; try exact I. destruct (k =? ix); [exact I|].
    apply plain_span. intro a. apply plain_compute, plain_get. intro x. apply plain_get. intro y. now apply plain_sum.
  Qed.

  (** ** The product *)
  Lemma row_products_obeys (R W : cell -> Prop) t vector l k : R (ModulusOf t) -> (forall i, 0 <= i < snd vector -> R (At (fst vector + i))) ->
    (forall x, obeys R W (k x)) -> forall tmp, obeys R W (row_products S context t vector l tmp k).
  Proof.
    intros Hm Hv Hk. induction l as [|[r x] l IH]; intro tmp; cbn [row_products]; [auto|].
    unfold in_span. destruct ((0 <=? r) && (r <? snd vector)) eqn:E; [|exact I].
    assert (G : obeys R W (get_scalar S (At (fst vector + r)) (fun y => row_products S context t vector l (s_add S tmp (s_mul S x y)) k))).
    { apply obeys_get; [left; apply Hv; lia|]. intro y. apply IH. }
    unfold compute. destruct context; auto. cbn. split; [auto|]. intros [y|[q|]]; cbn; auto. destruct (_ =? _)%positive; cbn; auto.
  Qed.

  Variable Laws : scalar_laws S.
  Add Ring sring : (sl_ring S Laws).
  Notation zn := (znth (s_zero S)).
  Definition dot (seed : list S) (column : list (Z * S)) : S :=
    fold_right (s_add S) (s_zero S) (map (fun '(row, x) => s_mul S (zn seed row) x) column).
  Lemma dot_perm seed l l' : Permutation l l' -> dot seed l = dot seed l'.
  Proof.
    unfold dot. induction 1 as [|[r x] l l' _ IH|[r x] [r' x'] l|l l' l'' _ IH1 _ IH2]; cbn; auto.
    - now rewrite IH.
    - ring.
    - congruence.
  Qed.

  Lemma row_products_wp allocated t vector seed l k Q m : (forall t, allocated (ModulusOf t) = true) -> ready S context t m ->
    snd vector = zlen seed -> (forall i, 0 <= i < zlen seed -> allocated (At (fst vector + i)) = true /\ m (At (fst vector + i)) = Scalar (zn seed i)) ->
    Forall (fun '(row, _) => 0 <= row < zlen seed) l ->
    forall tmp, wp same_cell allocated (k (s_add S tmp (dot seed l))) Q m -> wp same_cell allocated (row_products S context t vector l tmp k) Q m.
  Proof.
    intros Ha Hr Hs Hv. induction 1 as [|[r x] l Hrow _ IH]; intros tmp Hk; cbn [row_products].
    - replace tmp with (s_add S tmp (dot seed [])) by (cbn; ring). exact Hk.
    - unfold in_span. rewrite Hs. replace ((0 <=? r) && (r <? zlen seed)) with true by lia. apply wp_compute; auto. unfold get_scalar. cbn [wp].
      destruct (Hv r Hrow) as [H1 H2]. split; [exact H1|]. rewrite H2. apply IH. cbn in Hk. fold (dot seed l) in Hk.
      replace (s_add S (s_add S tmp (s_mul S x (zn seed r))) (dot seed l)) with (s_add S tmp (s_add S (s_mul S (zn seed r) x) (dot seed l))) by ring. exact Hk.
  Qed.

  Definition team (parts : list (list Z)) (t : Z) : Z := if (0 <=? t) && (t <? zlen parts) then t else 0.

  Lemma product_parallel columns stored seed vector result tape m parts :
    same_columns columns stored -> rows_below (zlen seed) columns -> disjoint_spans [vector; result] ->
    spans_contain m [vector; result] [seed; zrepeat (s_zero S) (zlen columns)] -> parts_of (zlen columns) parts -> moduli context m (zlen parts) ->
    every_schedule same_cell (spans_allocated [vector; result]) tape m (product_threads S context stored vector result parts) (fun m' drawn =>
      spans_contain m' [vector; result] [seed; encode S columns seed] /\
      (forall a, outside_spans [result] a -> m' (At a) = m (At a)) /\ (forall t, m' (ModulusOf t) = m (ModulusOf t))).
  Proof.
    intros Hcol Hrows Hd [Hsz Hin] Hparts Hmod. cbn in Hsz. injection Hsz as Hv Hr. pose proof (zlen_nonneg columns) as Hn0. pose proof (zlen_nonneg seed) as Hs0.
    rewrite zlen_zrepeat in Hr by lia.
    destruct (Forall2_znth [] [] _ _ _ Hcol) as [Hlen Hperm].
    assert (Hdis : fst vector + snd vector <= fst result \/ fst result + snd result <= fst vector).
    { specialize (Hd 0 1 ltac:(unfold zlen; cbn; lia) ltac:(unfold zlen; cbn; lia) ltac:(lia)). cbn in Hd. destruct vector, result. exact Hd. }
    assert (Hseed : forall k, 0 <= k < zlen seed -> m (At (fst vector + k)) = Scalar (zn seed k)) by (intros k Hk; apply (Hin 0 k); [unfold zlen; cbn; lia|exact Hk]).
    assert (Hres : forall k, 0 <= k < zlen columns -> m (At (fst result + k)) = Scalar (s_zero S)).
    { intros k Hk. pose proof (Hin 1 k ltac:(unfold zlen; cbn; lia)) as H. change (znth [] [seed; zrepeat (s_zero S) (zlen columns)] 1) with (zrepeat (s_zero S) (zlen columns)) in H. change (znth (0, 0) [vector; result] 1) with result in H. rewrite zlen_zrepeat in H by lia. rewrite (H Hk). now rewrite znth_zrepeat by lia. }
    assert (Hav : forall k, 0 <= k < zlen seed -> spans_allocated [vector; result] (At (fst vector + k)) = true).
    { intros k Hk. cbn. destruct vector, result. cbn in *. lia. }
    assert (Har : forall k, 0 <= k < zlen columns -> spans_allocated [vector; result] (At (fst result + k)) = true).
    { intros k Hk. cbn. destruct vector, result. cbn in *. lia. }
    assert (Hfix : forall k, 0 <= k < snd vector -> outside_spans [result] (fst vector + k)).
    { intros k Hk j Hj. change (zlen [result]) with 1 in Hj. replace j with 0 by lia. change (znth (0, 0) [result] 0) with result. destruct vector, result. cbn [fst snd] in *. lia. }
    assert (E : product_threads S context stored vector result parts = parallel_for (no_restore S) (fun t => product_iteration S context stored vector result (team parts t)) parts).
    { unfold product_threads, parallel_for. apply map_ext_in. intros t Ht. apply In_zrange in Ht. unfold team. now replace ((0 <=? t) && (t <? zlen parts)) with true by lia. }
    rewrite E.
    eapply every_schedule_mono; [|apply (independent_loop same_cell _ (fun i c => 0 <= i < zlen columns /\ c = At (fst result + i)) (fun _ _ => False)
      (fun c => match c with At a => outside_spans [result] a | SumOf _ => True | ModulusOf _ => True end) m (zlen columns) (no_restore S)
      (fun t => product_iteration S context stored vector result (team parts t)) (fun _ _ => True)
      (fun i m => m (At (fst result + i)) = Scalar (dot seed (znth [] columns i))) tape parts)].
    - cbn. intros m' d (_ & Hpost & He). split; [|split].
      + split; [cbn; unfold encode; rewrite zlen_map; congruence|]. intros i k Hi Hk. change (zlen [seed; encode S columns seed]) with 2 in Hi.
        assert (C : i = 0 \/ i = 1) by lia. destruct C as [->| ->].
        * change (0 <= k < zlen seed) in Hk. change (m' (At (fst vector + k)) = Scalar (zn seed k)).
          rewrite <- He; [now apply Hseed|]. apply Hfix. lia.
        * change (0 <= k < zlen (encode S columns seed)) in Hk. change (m' (At (fst result + k)) = Scalar (zn (encode S columns seed) k)).
          unfold encode in *. rewrite zlen_map in Hk. rewrite Hpost by lia. now rewrite (znth_map _ []) by lia.
      + intros a Ha. symmetry. now apply He.
      + intros t. symmetry. now apply He.
    - constructor.
      + intros i j c Hij [_ ->] [_ E2]. injection E2 as E2. lia.
      + auto.
      + auto.
      + intros c Hc. split; [|auto]. intros i [Hi ->]. specialize (Hc 0 ltac:(unfold zlen; cbn; lia)). change (znth (0, 0) [result] 0) with result in Hc. destruct result. cbn [fst snd] in *. lia.
      + cbn. auto.
      + cbn. auto.
      + intros t i Hi. unfold product_iteration. rewrite (zget_ok []) by lia. apply row_products_obeys; [exact I|exact Hfix|].
        intro x. unfold in_span. destruct ((0 <=? i) && (i <? snd result)) eqn:Ei; [|exact I].
        assert (G : obeys (fun c => match c with At a => outside_spans [result] a | SumOf _ => True | ModulusOf _ => True end) (fun c => False \/ 0 <= i < zlen columns /\ c = At (fst result + i))
          (get_scalar S (At (fst result + i)) (fun r => Put (At (fst result + i)) (Scalar (s_add S r (s_mul S (s_one S) x))) Stop))).
        { apply obeys_get; [auto|]. intro r. cbn. auto. }
        unfold compute. destruct context; auto. cbn [obeys]. split; [auto|]. intros [y|[q|]]; cbn; auto. destruct (_ =? _)%positive; cbn; auto.
      + auto.
      + intros i a b Hi He Hp. rewrite <- He; auto.
      + intros t i m' Hi _ He. unfold product_iteration. rewrite (zget_ok []) by lia.
        assert (Hteam : 0 <= team parts t < zlen parts).
        { unfold team. destruct ((0 <=? t) && (t <? zlen parts)) eqn:Et; [lia|]. pose proof (zlen_nonneg parts). split; [lia|].
          destruct parts as [|l ps]; [|rewrite zlen_cons; pose proof (zlen_nonneg ps); lia]. exfalso. unfold parts_of in Hparts. cbn in Hparts.
          apply Permutation_length in Hparts. rewrite length_zrange in Hparts. cbn in Hparts. lia. }
        assert (Hready : ready S context (team parts t) m').
        { unfold ready. unfold moduli in Hmod. destruct context as [p|]; [|exact I]. rewrite <- He by (left; exact I). now apply Hmod. }
        apply (row_products_wp _ _ _ seed); auto.
        * intros k Hk. split; [now apply Hav|]. rewrite <- He; [now apply Hseed|]. left. apply Hfix. lia.
        * eapply Permutation_Forall; [exact (Hperm i Hi)|]. unfold rows_below in Hrows. rewrite Forall_forall in Hrows. apply Hrows. apply znth_In. lia.
        * unfold in_span. rewrite Hr. replace ((0 <=? i) && (i <? zlen columns)) with true by lia. apply wp_compute; auto. unfold get_scalar. cbn [wp].
          split; [now apply Har|]. rewrite <- He by auto. rewrite Hres by lia. cbn [wp]. split; [now apply Har|]. split; [reflexivity|]. split; [|exact I].
          rewrite store_eq. f_equal. rewrite <- (dot_perm _ _ _ (Hperm i Hi)). ring.
    - lia.
    - exact Hparts.
  Qed.
End Restore.
