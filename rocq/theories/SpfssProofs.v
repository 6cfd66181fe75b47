(** Proofs about single-point function secret sharing. *)
From Verif Require Import Base BaseFacts ListFacts ScalarModel ScalarSpec ScalarProofs GgmModel
  ProcModel ProcSpec ProcProofs RotModel RotSpec RotFinal SpfssModel.
From Coq Require Import QArith Ring_theory Ring.
Local Open Scope Z_scope.

Section P.
  Variable S : scalar.
  Hypothesis L : scalar_laws S.
  Add Ring SR : (sl_ring S L).
  Declare Scope sc_scope.
  Notation "x + y" := (s_add S x y) : sc_scope.
  Notation "x - y" := (s_sub S x y) : sc_scope.
  Notation "- x" := (s_opp S x) : sc_scope.
  Delimit Scope sc_scope with sc.
  Notation zn := (znth (s_zero S)).

  Lemma s_sum_snoc l x : s_sum S (l ++ [x]) = (s_sum S l + x)%sc.
  Proof. rewrite (s_sum_app S (sl_ring S L)). cbn. ring. Qed.

  Lemma provider_sum_ok v out : provider_sum S v out = ((v + s_sum S out)%sc, map (s_opp S) out).
  Proof.
    unfold provider_sum. assert (G : forall out s acc,
      fold_left (fun '(sum, out) x => (s_add S sum x, out ++ [s_opp S x])) out (s, acc) =
      ((s + s_sum S out)%sc, acc ++ map (s_opp S) out)).
    { clear out v. induction out as [|x out IH]; intros s acc; cbn [fold_left map s_sum fold_right].
      - rewrite app_nil_r. f_equal. unfold s_sum. cbn. ring.
      - rewrite IH. rewrite <- app_assoc. cbn [app]. f_equal. unfold s_sum. cbn [fold_right]. ring. }
    apply (G out v []).
  Qed.

  (** Sum of all entries but one. *)
  Definition sum_except (idx : Z) (out : list S) (n : Z) : S :=
    s_sum S (map (fun k => if k =? idx then s_zero S else zn out k) (zrange 0 n)).
  Lemma index_sum_ok w idx out : index_sum S w idx out = Ok (w - sum_except idx out (zlen out))%sc.
  Proof.
    unfold index_sum. pose proof (zlen_nonneg out) as Hn.
    destruct (for_range_inv (fun i s => s = (w - sum_except idx out i)%sc) 0 (zlen out)
      (fun i sum => if i =? idx then Ok sum else let! x := zget out i in Ok (s_sub S sum x)) w) as (s & E & ->).
    - exact Hn.
    - unfold sum_except. rewrite zrange_nil by lia. cbn. ring.
    - intros i s Hi ->. assert (HS : sum_except idx out (i + 1) = (sum_except idx out i + (if i =? idx then s_zero S else zn out i))%sc).
      { unfold sum_except. rewrite zrange_snoc by lia. rewrite map_app. apply s_sum_snoc. }
      rewrite HS. destruct (i =? idx).
      + eexists. split; [reflexivity|]. ring.
      + rewrite (zget_ok (s_zero S)) by lia. cbn [rbind]. eexists. split; [reflexivity|]. ring.
    - exact E.
  Qed.

  Lemma s_sum_map_znth l : s_sum S l = s_sum S (map (zn l) (zrange 0 (zlen l))).
  Proof. now rewrite map_zrange_znth. Qed.
  Lemma sum_except_ext idx l1 l2 n : (forall k, 0 <= k < n -> k <> idx -> zn l1 k = zn l2 k) ->
    sum_except idx l1 n = sum_except idx l2 n.
  Proof.
    intro H. unfold sum_except. f_equal. apply map_ext_in. intros k Hk. apply In_zrange in Hk.
    destruct (Z.eqb_spec k idx); auto.
  Qed.
  Lemma sum_split idx l : forall n, 0 <= n ->
    s_sum S (map (zn l) (zrange 0 n)) = (sum_except idx l n + (if (0 <=? idx) && (idx <? n) then zn l idx else s_zero S))%sc.
  Proof.
    intros n Hn. pattern n. apply natlike_ind; [| |exact Hn].
    - unfold sum_except. rewrite zrange_nil by lia. replace ((0 <=? idx) && (idx <? 0)) with false by lia. cbn. ring.
    - intros x Hx IH. change (Z.succ x) with (x + 1). unfold sum_except in *. rewrite zrange_snoc by lia.
      rewrite !map_app. cbn [map]. rewrite !s_sum_snoc, IH.
      destruct (Z.eqb_spec x idx) as [->|Hne].
      + replace ((0 <=? idx) && (idx <? idx)) with false by lia.
        replace ((0 <=? idx) && (idx <? idx + 1)) with true by lia. ring.
      + destruct ((0 <=? idx) && (idx <? x)) eqn:E.
        * replace ((0 <=? idx) && (idx <? x + 1)) with true by lia. ring.
        * replace ((0 <=? idx) && (idx <? x + 1)) with false by lia. ring.
  Qed.
  Lemma sum_split_at idx l : 0 <= idx < zlen l -> s_sum S l = (sum_except idx l (zlen l) + zn l idx)%sc.
  Proof.
    intro H. rewrite s_sum_map_znth, (sum_split idx) by lia.
    now replace ((0 <=? idx) && (idx <? zlen l)) with true by lia.
  Qed.

  Variable aes : N -> N -> N.
  Variable clog : Z -> Z -> nat.
  Variable K : Q.

  Lemma spfss_jrun vals_v vals_i indices outs_v outs_i ta tb :
    map zlen outs_i = map zlen outs_v ->
    zlen vals_v = zlen outs_v -> zlen vals_i = zlen outs_v -> zlen indices = zlen outs_v ->
    (forall o, In o outs_v -> supported_size clog (zlen o)) ->
    (forall i, 0 <= i < zlen outs_v -> valid_index (znth 0 indices i) (zlen (znth [] outs_v i))) ->
    s_can_hash S (security_per_leaf K (total_leaves (map zlen outs_v))) 128 = true ->
    exists rv ri ta', jrun (spfss_value_provider_batched S aes clog K vals_v outs_v) ta
              (spfss_index_provider_batched S aes clog vals_i indices outs_i) tb (Ret (Ok rv)) ta' (Ret (Ok ri)) tb /\
      map zlen rv = map zlen outs_v /\ map zlen ri = map zlen outs_v /\
      forall i j, 0 <= i < zlen outs_v -> 0 <= j < zlen (znth [] outs_v i) ->
        s_add S (zn (znth [] rv i) j) (zn (znth [] ri i) j) =
        if j =? znth 0 indices i then s_add S (zn vals_v i) (zn vals_i i) else s_zero S.
  Proof.
    intros Hsz Hlv Hli Hlx Hg Hidx Hch.
    destruct (rot_batched_jrun S aes clog K outs_v outs_i indices ta tb Hsz Hg Hlx Hidx Hch)
      as (rs & rr & ta' & HJ & Ls & Lr & H).
    destruct (map_zlen_eq _ _ Ls) as [Hrs Hns']. destruct (map_zlen_eq _ _ Lr) as [Hrr Hnr'].
    destruct (map_zlen_eq _ _ Hsz) as [Hloi _].
    assert (Hns : forall i, 0 <= i < zlen outs_v -> zlen (znth [] rs i) = zlen (znth [] outs_v i)) by auto.
    assert (Hnr : forall i, 0 <= i < zlen outs_v -> zlen (znth [] rr i) = zlen (znth [] outs_v i)) by auto.
    clear Hns' Hnr'.
    set (sums_v := map (fun '(v, o) => (v + s_sum S o)%sc) (combine vals_v rs)).
    set (sums_i := map (fun j => (zn vals_i j - sum_except (znth 0 indices j) (znth [] rr j) (zlen (znth [] rr j)))%sc) (zrange 0 (zlen rr))).
    set (rv := map (map (s_opp S)) rs).
    set (ri := map (fun j => if 0 <? zlen (znth [] rr j)
                    then list_set (znth [] rr j) (Z.to_nat (znth 0 indices j)) (zn sums_i j + zn sums_v j)%sc
                    else znth [] rr j) (zrange 0 (zlen rr))).
    assert (Hsv : zlen sums_v = zlen outs_v) by (unfold sums_v; rewrite zlen_map, zlen_combine; lia).
    pose proof (zlen_nonneg rr) as Hrr0.
    assert (Hsi : zlen sums_i = zlen outs_v) by (unfold sums_i; rewrite zlen_map, zlen_zrange; lia).
    exists rv, ri, ta'. split; [|split; [|split]].
    - unfold spfss_value_provider_batched, spfss_index_provider_batched.
      rewrite Hlv, Hli, Hloi, Hlx, !Z.eqb_refl. cbn [negb orb].
      eapply jrun_trans; [apply (jrun_bindr _ _ _ _ _ _ _ _ _ _ HJ)|]. cbv beta zeta.
      rewrite (rmapM_ok _ (fun j => (zn vals_i j - sum_except (znth 0 indices j) (znth [] rr j) (zlen (znth [] rr j)))%sc))
        by (intros; apply index_sum_ok).
      cbn [plift]. fold sums_i. unfold recv_vec. eapply jrun_trans; [apply jrun_send_recv; reflexivity|]. cbv beta.
      rewrite !map_map.
      assert (E1 : map (fun x => fst (let '(v, o) := x in provider_sum S v o)) (combine vals_v rs) = sums_v).
      { unfold sums_v. apply map_ext. intros [v o]. now rewrite provider_sum_ok. }
      assert (E2 : map (fun x => snd (let '(v, o) := x in provider_sum S v o)) (combine vals_v rs) = rv).
      { assert (Hll : List.length vals_v = List.length rs) by (unfold zlen in *; lia). unfold rv. clear -L Hll.
        revert rs Hll. induction vals_v as [|v vs IH]; destruct rs as [|r rs]; cbn; intro H; try discriminate; auto.
        rewrite provider_sum_ok. cbn. f_equal. apply IH. lia. }
      rewrite E1, E2.
      rewrite (rmapM_ok _ (fun j => if 0 <? zlen (znth [] rr j)
                    then list_set (znth [] rr j) (Z.to_nat (znth 0 indices j)) (zn sums_i j + zn sums_v j)%sc
                    else znth [] rr j)).
      + apply jrun_refl.
      + intros j Hj. apply In_zrange in Hj. rewrite !(zget_ok (s_zero S)) by lia. cbn [rbind].
        unfold correct_output. destruct (Z.ltb_spec 0 (zlen (znth [] rr j))); [|reflexivity].
        apply zset_ok. destruct (Hidx j ltac:(lia)) as [? [?|?]]; rewrite <- Hnr in * by lia; lia.
    - unfold rv. rewrite <- Ls. rewrite map_map. apply map_ext. intro a. apply zlen_map.
    - transitivity (map zlen (map (znth [] rr) (zrange 0 (zlen rr)))); [|now rewrite map_zrange_znth].
      unfold ri. rewrite !map_map.
      apply map_ext. intro j. destruct (0 <? _); [apply zlen_list_set|reflexivity].
    - intros i j Hi Hj. unfold rv, ri. rewrite (znth_map (map (s_opp S)) []) by lia.
      rewrite (znth_map _ 0) by (rewrite zlen_zrange; lia). rewrite znth_zrange by lia. rewrite Z.add_0_l.
      rewrite (znth_map (s_opp S) (s_zero S)) by (rewrite Hns; lia).
      rewrite Hnr by lia. replace (0 <? zlen (znth [] outs_v i)) with true by lia.
      destruct (Hidx i Hi) as [Hx0 [?|Hx1]]; [lia|].
      rewrite znth_list_set by (rewrite Hnr; lia).
      destruct (H i Hi) as [Hd _]. cbv zeta in Hd.
      rewrite (Z.eqb_sym j). destruct (Z.eqb_spec (znth 0 indices i) j) as [<-|Hne].
      + assert (Ev : zn sums_v i = (zn vals_v i + s_sum S (znth [] rs i))%sc).
        { unfold sums_v. rewrite (znth_map _ (s_zero S, [])) by (rewrite zlen_combine; lia). now rewrite znth_combine by lia. }
        assert (Ei : zn sums_i i = (zn vals_i i - sum_except (znth 0 indices i) (znth [] rr i) (zlen (znth [] rr i)))%sc).
        { unfold sums_i. rewrite (znth_map _ 0) by (rewrite zlen_zrange; lia). now rewrite znth_zrange by lia. }
        rewrite Ev, Ei. rewrite (sum_split_at (znth 0 indices i) (znth [] rs i)) by (rewrite Hns; lia).
        rewrite Hns, Hnr by lia.
        rewrite (sum_except_ext (znth 0 indices i) (znth [] rr i) (znth [] rs i)).
        * ring.
        * intros k Hk Hk2. rewrite Hd by lia. replace (k =? znth 0 indices i) with false by lia. reflexivity.
      + rewrite Hd by lia. replace (j =? znth 0 indices i) with false by lia. ring.
  Qed.

  Lemma spfss_single_jrun val_v val_i index out_v out_i ta tb :
    zlen out_i = zlen out_v -> supported_size clog (zlen out_v) -> valid_index index (zlen out_v) ->
    s_can_hash S (security_per_leaf K (total_leaves [zlen out_v])) 128 = true ->
    exists rv ri ta', jrun (spfss_value_provider S aes clog K val_v out_v) ta
              (spfss_index_provider S aes clog val_i index out_i) tb (Ret (Ok rv)) ta' (Ret (Ok ri)) tb /\
      zlen rv = zlen out_v /\ zlen ri = zlen out_v /\
      forall j, 0 <= j < zlen out_v ->
        s_add S (zn rv j) (zn ri j) = if j =? index then s_add S val_v val_i else s_zero S.
  Proof.
    intros Hl Hs Hi Hc.
    destruct (spfss_jrun [val_v] [val_i] [index] [out_v] [out_i] ta tb) as (rv & ri & ta' & HJ & L1 & L2 & H).
    - cbn. now rewrite Hl.
    - reflexivity.
    - reflexivity.
    - reflexivity.
    - intros o [<-|[]]. exact Hs.
    - intros i Hi2. change (0 <= i < 1) in Hi2. replace i with 0 by lia. exact Hi.
    - exact Hc.
    - destruct rv as [|r [|? ?]]; try discriminate. destruct ri as [|r' [|? ?]]; try discriminate.
      cbn in L1, L2. injection L1 as L1. injection L2 as L2.
      exists r, r', ta'. split; [|split; [exact L1|split; [exact L2|]]].
      + unfold spfss_value_provider, spfss_index_provider.
        eapply jrun_trans; [apply (jrun_bindr _ _ _ _ _ _ _ _ _ _ HJ)|]. apply jrun_refl.
      + intros j Hj. apply (H 0 j); [change (zlen [out_v]) with 1; lia|exact Hj].
  Qed.

  (** C18 *)
  Lemma spfss_value_checks vals outs : zlen vals <> zlen outs ->
    exists m, returns (spfss_value_provider_batched S aes clog K vals outs) (Err (invalid_argument m)).
  Proof.
    intro H. unfold spfss_value_provider_batched. replace (zlen vals =? zlen outs) with false by lia.
    eexists. reflexivity.
  Qed.
  Lemma spfss_index_checks vals indices outs :
    let bad := zlen vals <> zlen outs \/ zlen vals <> zlen indices \/
       exists i, 0 <= i < zlen outs /\ ~ valid_index (znth 0 indices i) (zlen (znth [] outs i)) in
    (bad -> exists m, returns (spfss_index_provider_batched S aes clog vals indices outs) (Err (invalid_argument m))) /\
    (~ bad -> forall r, ~ returns (spfss_index_provider_batched S aes clog vals indices outs) r).
  Proof.
    cbv zeta. unfold spfss_index_provider_batched.
    destruct (Z.eqb_spec (zlen vals) (zlen outs)) as [H1|H1]; cbn [negb orb];
      [|split; [intros _; eexists; reflexivity|intros Hb; exfalso; apply Hb; auto]].
    destruct (Z.eqb_spec (zlen vals) (zlen indices)) as [H2|H2]; cbn [negb];
      [|split; [intros _; eexists; reflexivity|intros Hb; exfalso; apply Hb; auto]].
    destruct (rot_receiver_batched_checks S aes clog indices outs) as [H3 H4].
    split.
    - intros [?|[?|Hb]]; [congruence|congruence|]. destruct H3 as [m Hm]; [right; exact Hb|].
      exists m. unfold returns in *. rewrite Hm. reflexivity.
    - intros Hb r. assert (HN : ~ (zlen indices <> zlen outs \/
        exists i, 0 <= i < zlen outs /\ ~ valid_index (znth 0 indices i) (zlen (znth [] outs i)))).
      { intros [?|?]; [congruence|]. apply Hb. auto. }
      specialize (H4 HN). unfold returns in *.
      destruct (rot_receiver_batched S aes clog indices outs) as [r0| | | |]; try discriminate.
      exfalso. exact (H4 r0 eq_refl).
  Qed.

  (** C19 *)
  Lemma map_map_opp rs : map (fun x : list S => s_opp S (s_sum S (map (s_opp S) x))) rs = map (s_sum S) rs.
  Proof.
    apply map_ext. intro l. induction l as [|x l IH]; [cbn; ring|]. cbn [map].
    unfold s_sum in *. cbn [fold_right]. rewrite <- IH. ring.
  Qed.

  Lemma spfss_value_message vals outs ta ms r t' : zlen vals = zlen outs ->
    solo (rot_sender_batched S aes clog K outs) ta = Some (ms, Ok r, t') -> zlen r = zlen outs ->
    solo (spfss_value_provider_batched S aes clog K vals outs) ta =
      Some (ms ++ [MVec (map (fun '(v, o) => (v + s_sum S o)%sc) (combine vals r))], Ok (map (map (s_opp S)) r), t').
  Proof.
    intros Hl E Hr. unfold spfss_value_provider_batched, pbindr. rewrite Hl, Z.eqb_refl. cbn [negb].
    eapply solo_bind; [exact E|]. cbn [solo]. do 3 f_equal.
    - f_equal. f_equal. rewrite map_map. apply map_ext. intros [v o]. now rewrite provider_sum_ok.
    - f_equal. f_equal. assert (Hll : List.length vals = List.length r) by (unfold zlen in *; lia). clear -L Hll.
      revert r Hll. induction vals as [|v vs IH]; destruct r as [|r rs]; cbn; intro H; try discriminate; auto.
      rewrite provider_sum_ok. cbn. f_equal. apply IH. lia.
  Qed.
  Lemma mask_unique (l : list S) idx v v' : 0 <= idx < zlen l ->
    exists x, (v' - s_sum S (list_set l (Z.to_nat idx) x) = v - s_sum S l)%sc /\
      forall y, (v' - s_sum S (list_set l (Z.to_nat idx) y) = v - s_sum S l)%sc -> y = x.
  Proof.
    intro Hi. assert (HE : forall x, s_sum S (list_set l (Z.to_nat idx) x) = (sum_except idx l (zlen l) + x)%sc).
    { intro x. rewrite (sum_split_at idx) by (rewrite zlen_list_set; lia). rewrite zlen_list_set.
      rewrite znth_list_set_eq by lia. f_equal. apply sum_except_ext. intros k Hk Hne.
      apply znth_list_set_neq; lia. }
    exists (v' - v + zn l idx)%sc. split.
    - rewrite HE, (sum_split_at idx l) by lia. ring.
    - intros y Hy. rewrite HE, (sum_split_at idx l) in Hy by lia.
      transitivity (v' - sum_except idx l (zlen l) - (v' - (sum_except idx l (zlen l) + y)))%sc; [ring|].
      rewrite Hy. ring.
  Qed.
End P.
