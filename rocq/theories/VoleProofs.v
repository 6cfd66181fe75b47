(** Proofs about the Vector-OLE generator: both parties together. *)
From Verif Require Import Base BaseFacts ListFacts ScalarModel ScalarSpec ScalarProofs SumFacts PackModel
  ProcModel ProcSpec ProcProofs MeetProofs RotModel RotSpec RotProofs RotFinal SpfssModel SpfssProofs
  GilboaModel GilboaSpec GilboaProofs GilboaFinal RngModel CuckooModel CuckooSpec CuckooProofs CuckooFinal
  MpfssModel MpfssSpec MpfssProofs MpfssFinal VoleModel VoleSpec.
From Coq Require Import QArith Ring_theory Ring Permutation.
Local Open Scope Z_scope.

Definition cannot_ensure : status := invalid_argument "Cannot ensure statistical security with the given modulus".

(** ** Multi-point functions with one-sided failures *)
Section M.
  Variable S : scalar.
  Hypothesis L : scalar_laws S.
  Notation zn := (znth (s_zero S)).
  Variable aes : N -> N -> N.
  Variable clog : Z -> Z -> nat.
  Variable K : Q.
  Variable too : Z -> Z -> bool.
  Variable e3 e2 : Z -> Z.
  Hypothesis He3 : forall n, e3 n < 2^63.
  Hypothesis He2 : forall n, e2 n < 2^63.
  Variable seed : N.
  Notation h := (Hasher seed 3).
  Notation all_buckets NN n := (map (simple_bucket (bucket_of aes seed (e3 n)) 3 (map uint128_of_int64 (zrange 0 NN))) (zrange 0 (e3 n))).
  Notation coh := (coherent aes too e3 e2 h).

  Lemma waits_rot_receiver indices (outputs : list (list S)) : zlen outputs = zlen indices ->
    (forall b, 0 <= b < zlen outputs -> valid_index (znth 0 indices b) (zlen (znth [] outputs b))) ->
    waits (rot_receiver_batched S aes clog indices outputs).
  Proof.
    clear He3 He2 seed. intros Hl Hv. unfold rot_receiver_batched. replace (zlen outputs =? zlen indices) with true by lia. cbn [negb].
    replace (existsb _ _) with false.
    2:{ symmetry. apply not_true_iff_false. intro Hx. apply existsb_exists in Hx. destruct Hx as ([i o] & Hin & Hb).
        apply (In_znth (0, [])) in Hin. destruct Hin as (b & Hb1 & Hb2). rewrite zlen_combine in Hb1 by lia.
        rewrite znth_combine in Hb2 by lia. injection Hb2 as <- <-. specialize (Hv b ltac:(lia)). destruct Hv as [Hv1 Hv2].
        unfold bad_index in Hb. lia. }
    unfold pbindr. apply waits_bind. unfold receive_trees. rewrite zlen_map.
    replace (zlen outputs =? zlen indices) with true by lia. cbn [negb].
    change (Z.of_nat 2) with 2. rewrite all_choices_ok. cbn [plift]. destruct (0 <? zlen _).
    - right. unfold ot_recv. eauto.
    - left. unfold recv_blocks. eauto.
  Qed.

  Lemma bodies_fail NN n x y indices u v w H (out_v out_i : list S) ta tb :
    0 <= NN -> 3 * NN < 2^31 -> zlen y = n -> zlen indices = n -> 1 <= n -> 1 <= e3 n < 2^31 -> zlen w = e3 n -> vole_correlation S x u v w ->
    hash_cuckoo aes too h (map uint128_of_int64 indices) (e3 n) = Ok H ->
    (forall k, 0 <= k < n -> 0 <= znth 0 indices k < NN) ->
    s_can_hash S (security_per_leaf (K * 2) (3 * NN)) 128 = false ->
    exists p', jrun (index_provider_body S aes clog too y indices u v h (all_buckets NN n) out_i) ta
       (value_provider_body S aes clog K x w (all_buckets NN n) out_v) tb p' ta (Ret (Err cannot_ensure)) tb /\ waits p'.
  Proof.
    intros HN0 HN Hy Hix Hn Hnb Hw (Hu & Hv & _) HH Hr Hch. set (B := all_buckets NN n) in *.
    assert (LB : zlen B = e3 n) by (unfold B; rewrite zlen_map, zlen_zrange; lia).
    unfold value_provider_body, index_provider_body. rewrite !wrap32_id by lia. rewrite LB.
    rewrite (hash_indices_ok aes too seed _ _ H) by auto. cbn [plift]. replace (e3 n <? 0) with false by lia.
    destruct (permuted_ok S aes clog too e3 e2 He3 He2 seed y indices H) as [HL HPy]; [lia|rewrite Hy; lia|rewrite Hy; auto|].
    rewrite Hy in *. rewrite HPy. cbn [plift].
    assert (Lp : zlen (permuted S y H) = e3 n) by (unfold permuted; rewrite zlen_map; auto).
    rewrite Lp. replace (e3 n =? zlen u) with true by lia. cbn [negb].
    set (O0 := map (fun i => zrepeat (s_zero S) (zlen (znth [] B i))) (zrange 0 (e3 n))).
    assert (EO : rmapM (fun i => let! b := zget B i in Ok (zrepeat (s_zero S) (zlen b))) (zrange 0 (e3 n)) = Ok O0).
    { apply rmapM_ok. intros i Hi. apply In_zrange in Hi. rewrite (zget_ok []) by lia. reflexivity. }
    assert (LO : zlen O0 = e3 n) by (unfold O0; rewrite zlen_map, zlen_zrange; lia).
    assert (EO1 : map zlen O0 = map zlen B).
    { unfold O0. rewrite map_map. rewrite <- (map_zrange_znth [] B) at 2 || rewrite <- (map_zrange_znth [] B) at 1. rewrite map_map, LB. apply map_ext_in.
      intros i _. apply zlen_zrepeat. apply zlen_nonneg. }
    pose proof HH as HP. apply (cuckoo_placement aes too seed 3) in HP; [|reflexivity|lia]. destruct HP as (_ & _ & HP).
    rewrite zlen_map, Hix in HP.
    set (ix := map (slot B H indices) (zrange 0 (e3 n))).
    assert (Eix : rmapM (index_in_bucket B H indices) (zrange 0 (e3 n)) = Ok ix).
    { apply rmapM_ok. intros i Hi. apply In_zrange in Hi. unfold index_in_bucket, slot.
      rewrite (zget_ok []) by lia. cbn [rbind]. destruct (zlen (znth [] B i) =? 0); cbn [orb]; auto.
      rewrite (zget_ok 0) by lia. cbn [rbind]. destruct (Z.eqb_spec (znth 0 H i) (-1)); auto.
      rewrite (zget_ok 0) by (destruct (HP i Hi) as [?|[? _]]; lia). reflexivity. }
    assert (Lix : zlen ix = e3 n) by (unfold ix; rewrite zlen_map, zlen_zrange; lia).
    eexists. split.
    - eapply jrun_trans; [apply jrun_send_recv; reflexivity|]. cbv beta iota zeta.
      assert (Ll : zlen (map (fun '(a, b) => s_add S a b) (combine (permuted S y H) u)) = e3 n)
        by (rewrite zlen_map, zlen_combine; lia).
      rewrite Ll, Hw, Z.eqb_refl. cbn [negb]. rewrite EO. cbn [plift].
      unfold spfss_value_provider_batched. rewrite zlen_map, zlen_combine by lia. rewrite Ll, LO, Z.eqb_refl. cbn [negb].
      unfold rot_sender_batched, send_trees. rewrite EO1.
      rewrite total_leaves_exact; unfold B; rewrite (sizes_total aes clog too e3 e2 He3 He2) by lia; [|lia]. rewrite Hch. cbn [negb pbindr pbind].
      apply jrun_refl.
    - fold B. rewrite Eix. cbn [plift]. unfold pbindr. apply waits_bind.
      unfold spfss_index_provider_batched. rewrite LO, Lix. replace (zlen v =? e3 n) with true by lia. cbn [negb orb].
      unfold pbindr. apply waits_bind. apply waits_rot_receiver; [lia|]. intros b Hb. rewrite LO in Hb.
      assert (LOb : zlen (znth [] O0 b) = zlen (znth [] B b)) by (destruct (map_zlen_eq _ _ EO1) as [_ G]; apply G).
      rewrite LOb. unfold ix. rewrite (znth_map _ 0) by (rewrite zlen_zrange; lia). rewrite znth_zrange by lia. rewrite Z.add_0_l.
      unfold slot. pose proof (zlen_nonneg (znth [] B b)) as Hz. destruct (Z.eqb_spec (zlen (znth [] B b)) 0) as [E0|E0]; cbn [orb]; [split; lia|].
      destruct (Z.eqb_spec (znth 0 H b) (-1)); [split; lia|]. destruct (HP b Hb) as [?|[Hk Hk2]]; [lia|].
      assert (Hin : In (znth 0 indices (znth 0 H b)) (znth [] B b)).
      { unfold B. rewrite (znth_buckets aes clog too e3 e2 He3 He2) by lia. eapply (hashed_in aes clog too e3 e2 He3 He2); eauto; try lia; rewrite ?Hix; auto. }
      destruct (lower_bound_In (znth [] B b) (znth 0 indices (znth 0 H b))) as [Hr1 Hr2]; auto.
      { unfold B. rewrite (znth_buckets aes clog too e3 e2 He3 He2) by lia. apply simple_bucket_sorted. }
      split; lia.
  Qed.

  Lemma mpfss_meet stv sti sizes_v sizes_i x y indices u v w (out_v out_i : list S) :
    let NN := zlen out_v in let n := zlen y in
    coh stv -> coh sti -> division NN sizes_v -> division NN sizes_i ->
    1 <= n <= NN -> 3 * NN < 2^31 -> n <= e3 n < 2^31 -> too NN (e3 n) = false -> too n (e3 n) = false ->
    (forall s, 0 <= s <= 3 * NN -> supported_size clog s) ->
    zlen out_i = NN -> zlen indices = n -> zlen w = e3 n -> vole_correlation S x u v w ->
    NoDup indices -> (forall k, 0 <= k < n -> 0 <= znth 0 indices k < NN) ->
    meet (fun r : mpfss * res (list S) => snd r = Err insertion_failed) (fun r : mpfss * res (list S) => snd r = Err cannot_ensure /\ s_can_hash S (security_per_leaf (K * 2) (3 * NN)) 128 = false)
      (fun a b => coh (fst a) /\ coh (fst b) /\ exists ri rv, snd a = Ok ri /\ snd b = Ok rv /\ zlen ri = NN /\ zlen rv = NN /\
          forall p, 0 <= p < NN -> s_add S (zn rv p) (zn ri p) = point_value S x y indices p)
      (mpfss_index_provider S aes clog too e3 e2 sizes_i sti y indices u v out_i)
      (mpfss_value_provider S aes clog K too e3 e2 sizes_v stv x n w out_v).
  Proof.
    intros NN n Hcv Hci Hdv Hdi Hn HN Hnb Ht Htn Hsup Hoi Hix Hw Hvole Hnd Hr ta tb.
    assert (Hst : coh (Mpfss h (all_buckets NN n) (Some NN) (Some n))).
    { split; [reflexivity|]. cbn. intros N0 n0 E1 E2. injection E1 as <-. injection E2 as <-.
      apply (fresh_ok aes clog too e3 e2 He3 He2); auto; lia. }
    destruct (cuckoo_outcome aes too seed 3 h (map uint128_of_int64 indices) (e3 n) eq_refl ltac:(lia)) as [_ Ho].
    rewrite zlen_map, Hix in Ho. destruct Ho as [[H HH] | HE]; [intros [?|[?|[?|?]]]; try lia; congruence| |].
    - destruct (s_can_hash S (security_per_leaf (K * 2) (3 * NN)) 128) eqn:Hch.
      + left. destruct (mpfss_correct_jrun S L aes clog K too e3 e2 He3 He2 seed stv sti sizes_v sizes_i x y indices u v w out_v out_i H tb ta)
          as (rv & ri & tb' & J & Lv & Li & Hs); auto.
        { fold NN n. unfold good_sizes. split; [lia|]. split; [lia|]. split; [lia|]. split; [auto|]. split; auto. }
        eexists _, _, _, _. split; [apply jrun_swap; exact J|]. cbn [fst snd]. split; [exact Hst|]. split; [exact Hst|].
        exists ri, rv. auto 10.
      + right; right. rewrite (index_provider_eq S aes clog too e3 e2 He3 He2 seed) by (fold n; rewrite ?Hoi; auto; try lia; intros k Hk; specialize (Hr k Hk); lia).
        unfold mpfss_value_provider. replace (n <? 1) with false by lia. fold NN.
        rewrite (update_ok aes clog too e3 e2 He3 He2 seed) by (auto; lia). unfold after_update. cbn [m_buckets].
        destruct (bodies_fail NN n x y indices u v w H out_v out_i ta tb) as (p' & J & W); auto; try lia.
        apply (jrun_bind (fun r => Ret (Mpfss h (all_buckets (zlen out_i) (zlen y)) (Some (zlen out_i)) (Some (zlen y)), r))
                 (fun r => Ret (Mpfss h (all_buckets NN n) (Some NN) (Some n), r))) in J.
        rewrite <- Hoi in J. fold n. rewrite <- Hoi.
        eexists _, _, _, _. split; [exact J|]. split; [now apply waits_bind|]. split; reflexivity.
    - right; left. destruct (insertion_fails S aes clog too e3 e2 He3 He2 seed sizes_i sti y indices u v out_i) as (st' & _ & Hret);
        fold n; rewrite ?Hoi; auto; try lia; try (intros k Hk; specialize (Hr k Hk); lia).
      specialize (Hret Hnd). unfold returns in Hret. rewrite Hret. eexists _, _, ta, tb. split; [apply jrun_refl|]. split; [|reflexivity].
      unfold mpfss_value_provider. replace (n <? 1) with false by lia. fold NN.
      rewrite (update_ok aes clog too e3 e2 He3 He2 seed) by (auto; lia). unfold after_update, with_state. apply waits_bind.
      unfold value_provider_body, recv_vec. left. eauto.
  Qed.
End M.
