(** Proofs about multi-point function secret sharing. *)
From Verif Require Import Base BaseFacts ListFacts ScalarModel ScalarSpec ScalarProofs SumFacts
  ProcModel ProcSpec ProcProofs RotModel RotSpec RotFinal SpfssModel SpfssProofs
  CuckooModel CuckooSpec CuckooProofs CuckooFinal MpfssModel MpfssSpec.
From Coq Require Import QArith Ring_theory Ring Sorted Permutation.
Local Open Scope Z_scope.

(** ** The bucket cache *)
  Lemma division_one n : 0 <= n -> division n [n].
  Proof. intro H. split; [repeat constructor; lia|cbn; lia]. Qed.
  Lemma zlen_inputs N : 0 <= N -> zlen (map uint128_of_int64 (zrange 0 N)) = N.
  Proof. intro H. rewrite zlen_map, zlen_zrange; lia. Qed.

Section Cache.
  Variable aes : N -> N -> N.
  Variable too : Z -> Z -> bool.
  Variable e3 e2 : Z -> Z.
  Hypothesis He3 : forall n, e3 n < 2^63.
  Hypothesis He2 : forall n, e2 n < 2^63.
  Variable h : hasher.
  Hypothesis Hh : 1 <= ch_num_hash_functions h.
  Notation fresh := (fresh_buckets aes too e3 e2 h).
  Notation update := (update_buckets aes too e3 e2).

  Lemma hash_simple_div inputs sizes sizes' nb : nb < 2^63 -> division (zlen inputs) sizes -> division (zlen inputs) sizes' ->
    hash_simple aes too h sizes inputs nb = hash_simple aes too h sizes' inputs nb.
  Proof.
    intros Hnb Hd Hd'. destruct (Z.leb_spec nb 0).
    - unfold hash_simple. now replace (nb <=? 0) with true by lia.
    - destruct (too (zlen inputs) nb) eqn:E.
      + unfold hash_simple. rewrite E. reflexivity.
      + rewrite !(hash_simple_ok aes h nb Hh) by (auto; lia). reflexivity.
  Qed.

  Lemma optimal_lt n nb : get_optimal_number_of_buckets e3 e2 h n = Ok nb -> nb < 2^63.
  Proof.
    unfold get_optimal_number_of_buckets. destruct (n <? 0); [discriminate|]. destruct (n =? 0).
    { intro E. injection E as <-. lia. }
    destruct (_ =? 3); [intro E; injection E as <-; apply He3|].
    destruct (_ =? 2); [intro E; injection E as <-; apply He2|discriminate].
  Qed.

  Definition coherent (st : mpfss) : Prop :=
    m_hasher st = h /\
    forall N n, m_cached_output_size st = Some N -> m_cached_num_indices st = Some n -> fresh N n = Ok (m_buckets st).

  Lemma update_spec sizes st N n : coherent st -> 0 <= N -> division N sizes ->
    update sizes st N n = match fresh N n with
                          | Ok b => (Mpfss h b (Some N) (Some n), Ok tt)
                          | Err e => (st, Err e)
                          | UB w => (st, UB w)
                          end.
  Proof.
    intros [Eh Hc] HN Hd. unfold update_buckets, fresh_buckets.
    destruct (differs (m_cached_output_size st) N || differs (m_cached_num_indices st) n) eqn:Ed.
    - replace (N <? 0) with false by lia. rewrite Eh.
      destruct (get_optimal_number_of_buckets e3 e2 h n) as [nb| |] eqn:Eo; cbn [rbind]; auto.
      rewrite (hash_simple_div _ sizes [N]).
      + destruct (hash_simple _ _ _ _ _); reflexivity.
      + eapply optimal_lt; eauto.
      + now rewrite zlen_inputs.
      + rewrite zlen_inputs by auto. now apply division_one.
    - apply orb_false_elim in Ed. destruct Ed as [E1 E2].
      destruct st as [hh b oN on]. cbn in *. destruct oN as [N'|]; [|discriminate]. destruct on as [n'|]; [|discriminate].
      cbn in E1, E2. apply negb_false_iff in E1, E2. apply Z.eqb_eq in E1, E2. subst.
      specialize (Hc _ _ eq_refl eq_refl). unfold fresh_buckets in Hc. cbn beta. rewrite Hc. reflexivity.
  Qed.

  Lemma update_coherent sizes st N n : coherent st -> (0 <= N -> division N sizes) ->
    coherent (fst (update sizes st N n)).
  Proof.
    intros Hc Hd. destruct (Z.ltb_spec N 0).
    - unfold update_buckets. destruct (_ || _); [|exact Hc]. replace (N <? 0) with true by lia. exact Hc.
    - rewrite update_spec by auto. destruct (fresh N n) eqn:E; auto. split; [reflexivity|].
      cbn. intros ? ? E1 E2. injection E1 as <-. injection E2 as <-. exact E.
  Qed.

  Lemma after_coherent calls : divisions calls -> coherent (mpfss_after aes too e3 e2 h calls).
  Proof.
    unfold mpfss_after. assert (G : forall calls st, divisions calls -> coherent st ->
      coherent (fold_left (fun st '(sizes, N, n) => fst (update sizes st N n)) calls st)).
    { clear calls. induction calls as [|((s, N), n) calls IH]; intros st Hd Hc; cbn [fold_left]; auto.
      inversion Hd; subst. apply IH; auto. now apply update_coherent. }
    intro Hd. apply G; auto. split; [reflexivity|]. cbn. discriminate.
  Qed.
End Cache.

(** ** The total size of the buckets *)
  Lemma size_sum_add {A} (f g : A -> Z) l : size_sum (map (fun a => f a + g a) l) = size_sum (map f l) + size_sum (map g l).
  Proof. induction l as [|a l IH]; cbn in *; [reflexivity|]. unfold size_sum in *. cbn. lia. Qed.
  Lemma size_sum_ext {A} (f g : A -> Z) l : (forall a, In a l -> f a = g a) -> size_sum (map f l) = size_sum (map g l).
  Proof. intro H. f_equal. now apply map_ext_in. Qed.
  Lemma size_sum_zero {A} (l : list A) : size_sum (map (fun _ => 0) l) = 0.
  Proof. induction l; cbn in *; auto. Qed.
  Lemma size_sum_indicator k l : NoDup l -> In k l -> size_sum (map (fun b => if k =? b then 1 else 0) l) = 1.
  Proof.
    induction l as [|a l IH]; intros Hd Hk; [destruct Hk|]. inversion Hd; subst. cbn [map]. unfold size_sum in *. cbn [fold_right].
    destruct (Z.eqb_spec k a) as [->|Hne].
    - assert (E : fold_right Z.add 0 (map (fun b => if a =? b then 1 else 0) l) = 0); [|lia].
      rewrite (size_sum_ext _ (fun _ => 0)); [apply size_sum_zero|]. intros b Hb.
      destruct (Z.eqb_spec a b); congruence.
    - rewrite IH; auto. destruct Hk; congruence.
  Qed.
  Lemma size_sum_nonneg l : Forall (fun z => 0 <= z) l -> 0 <= size_sum l.
  Proof. induction 1; cbn in *; unfold size_sum in *; cbn; lia. Qed.
  Lemma size_sum_le l x : Forall (fun z => 0 <= z) l -> In x l -> x <= size_sum l.
  Proof.
    induction 1 as [|a l Ha Hl IH]; intros []; subst; unfold size_sum in *; cbn.
    - pose proof (size_sum_nonneg l Hl). unfold size_sum in *. lia.
    - specialize (IH H). lia.
  Qed.

Section Sizes.
  Variable place : Z -> N -> Z.
  Variable nb : Z.
  Hypothesis Hplace : forall j x, 0 <= place j x < nb.
  Variable num : Z.

  Lemma count_total {A} (f : A -> Z) (l : list A) : (forall a, 0 <= f a < nb) ->
    size_sum (map (fun b => zlen (filter (fun a => f a =? b) l)) (zrange 0 nb)) = zlen l.
  Proof.
    intro Hf. induction l as [|a l IH].
    - cbn [filter]. change (zlen (@nil A)) with 0. apply size_sum_zero.
    - rewrite zlen_cons, <- IH.
      rewrite (size_sum_ext _ (fun b => zlen (filter (fun a => f a =? b) l) + (if f a =? b then 1 else 0))).
      + rewrite size_sum_add. rewrite size_sum_indicator; [reflexivity|apply zrange_NoDup|]. apply In_zrange. apply Hf.
      + intros b _. cbn [filter]. destruct (f a =? b); [rewrite zlen_cons; lia|lia].
  Qed.

  Lemma bucket_size inputs b : zlen (simple_bucket place num inputs b) =
    zlen (filter (fun p => place (snd p) (znth 0%N inputs (fst p)) =? b)
                 (list_prod (zrange 0 (zlen inputs)) (zrange 0 num))).
  Proof.
    unfold simple_bucket. generalize (zrange 0 (zlen inputs)). intro l. induction l as [|i l IH]; cbn [flat_map list_prod]; [reflexivity|].
    rewrite filter_app, !zlen_app, IH. f_equal. rewrite zlen_map.
    generalize (zrange 0 num). intro js. induction js as [|j js IHj]; cbn [filter map fst snd]; [reflexivity|].
    destruct (_ =? b); rewrite ?zlen_cons; lia.
  Qed.

  Lemma buckets_total inputs : 0 <= num ->
    size_sum (map (fun b => zlen (simple_bucket place num inputs b)) (zrange 0 nb)) = num * zlen inputs.
  Proof.
    intro Hn. rewrite (size_sum_ext _ (fun b => zlen (filter (fun p => place (snd p) (znth 0%N inputs (fst p)) =? b)
                 (list_prod (zrange 0 (zlen inputs)) (zrange 0 num))))) by (intros; apply bucket_size).
    rewrite (count_total (fun p => place (snd p) (znth 0%N inputs (fst p)))) by (intro; apply Hplace).
    unfold zlen at 1. rewrite prod_length. rewrite Nat2Z.inj_mul.
    fold (zlen (zrange 0 (zlen inputs))). fold (zlen (zrange 0 num)).
    pose proof (zlen_nonneg inputs). rewrite !zlen_zrange by lia. lia.
  Qed.
End Sizes.

(** ** lower_bound *)
Lemma lower_bound_range l x : 0 <= lower_bound l x <= zlen l.
Proof. induction l as [|a l IH]; cbn [lower_bound]; [change (zlen []) with 0; lia|]. rewrite zlen_cons. destruct (a <? x); lia. Qed.
Lemma lower_bound_In l x : StronglySorted Z.le l -> In x l -> 0 <= lower_bound l x < zlen l /\ znth 0 l (lower_bound l x) = x.
Proof.
  induction 1 as [|a l Hl IH Ha]; intro Hx; [destruct Hx|]. cbn [lower_bound]. rewrite zlen_cons. pose proof (zlen_nonneg l).
  destruct (Z.ltb_spec a x) as [Hlt|Hge].
  - destruct Hx as [->|Hx]; [lia|]. destruct (IH Hx) as [H1 H2]. split; [lia|].
    rewrite znth_cons by lia. destruct (1 + lower_bound l x =? 0) eqn:?; [lia|]. replace (1 + lower_bound l x - 1) with (lower_bound l x) by lia. exact H2.
  - split; [lia|]. destruct Hx as [->|Hx]; [reflexivity|]. rewrite Forall_forall in Ha. specialize (Ha x Hx).
    change (x = znth 0 (a :: l) 0 / True) || idtac. change (znth 0 (a :: l) 0) with a. lia.
Qed.
Lemma lower_bound_small l x : Forall (fun a => x <= a) l -> lower_bound l x = 0.
Proof. intro H. destruct l as [|a l]; cbn [lower_bound]; auto. inversion H; subst. now replace (a <? x) with false by lia. Qed.
Lemma lower_bound_large l x : Forall (fun a => a < x) l -> lower_bound l x = zlen l.
Proof. induction 1 as [|a l Ha _ IH]; cbn [lower_bound]; auto. rewrite zlen_cons, IH. replace (a <? x) with true by lia. lia. Qed.

(** ** The protocol *)
Section Run.
  Variable S : scalar.
  Hypothesis L : scalar_laws S.
  Add Ring SR3 : (sl_ring S L).
  Notation zn := (znth (s_zero S)).
  Notation sum := (s_sum S).

  (** What bucket [b] adds to position [p]. *)
  Definition bucket_part (B : list (list Z)) (O : list (list S)) (p b : Z) (m : Z) : S :=
    sum (map (fun j => if znth 0 (znth [] B b) j =? p then zn (znth [] O b) j else s_zero S) (zrange 0 m)).

  Lemma map_back_ok B O out : zlen O = zlen B ->
    (forall b, 0 <= b < zlen B -> zlen (znth [] O b) = zlen (znth [] B b) /\ zlen (znth [] B b) < 2^31) ->
    (forall b j, 0 <= b < zlen B -> 0 <= j < zlen (znth [] B b) -> 0 <= znth 0 (znth [] B b) j < zlen out) ->
    exists r, map_back S B (zlen B) O out = Ok r /\ zlen r = zlen out /\
      forall p, 0 <= p < zlen out ->
        zn r p = s_add S (zn out p) (sum (map (fun b => bucket_part B O p b (zlen (znth [] B b))) (zrange 0 (zlen B)))).
  Proof.
    intros HO Hlen Hr. unfold map_back.
    apply (for_range_inv (fun b r => zlen r = zlen out /\ forall p, 0 <= p < zlen out ->
        zn r p = s_add S (zn out p) (sum (map (fun b => bucket_part B O p b (zlen (znth [] B b))) (zrange 0 b))))).
    - apply zlen_nonneg.
    - split; auto. intros p Hp. rewrite zrange_nil by lia. cbn. ring.
    - intros b r Hb [Hl Hp]. rewrite (zget_ok []) by lia. cbn [rbind]. destruct (Hlen b Hb) as [H1 H2].
      pose proof (zlen_nonneg (znth [] B b)) as H0. rewrite wrap32_id by lia.
      destruct (for_range_inv (fun j r' => zlen r' = zlen out /\ forall p, 0 <= p < zlen out ->
          zn r' p = s_add S (zn r p) (bucket_part B O p b j)) 0 (zlen (znth [] B b))
          (fun j output => let! p := zget (znth [] B b) j in let! outs := zget O b in let! x := zget outs j in
             let! o := zget output p in zset output p (s_add S o x)) r) as (r' & E & Hl' & Hp').
      + lia.
      + split; auto. intros p Hpp. unfold bucket_part. rewrite zrange_nil by lia. cbn. ring.
      + intros j r' Hj [Hl' Hp']. rewrite (zget_ok 0) by lia. cbn [rbind]. rewrite (zget_ok []) by lia. cbn [rbind].
        rewrite (zget_ok (s_zero S)) by lia. cbn [rbind]. pose proof (Hr b j Hb Hj) as Hq.
        rewrite (zget_ok (s_zero S)) by lia. cbn [rbind]. rewrite zset_ok by lia. eexists. split; [reflexivity|].
        split; [now rewrite zlen_list_set|]. intros p Hpp. unfold bucket_part. rewrite (sum_range_snoc S L) by lia.
        rewrite znth_list_set by lia. fold (bucket_part B O p b j).
        destruct (Z.eqb_spec (znth 0 (znth [] B b) j) p) as [->|Hne]; rewrite Hp' by lia; ring.
      + exists r'. split; [exact E|]. split; auto. intros p Hpp. rewrite Hp', Hp by auto. rewrite (sum_range_snoc S L) by lia. ring.
  Qed.

  Variable aes : N -> N -> N.
  Variable clog : Z -> Z -> nat.
  Variable K : Q.
  Variable too : Z -> Z -> bool.

  (** Both bodies, with the same buckets [B] and the hashed positions [H]. *)
  Variable h : hasher.
  Variable B : list (list Z).
  Variable H indices : list Z.
  Notation nb := (zlen B).
  Hypothesis Hnb : nb < 2^31.
  Hypothesis HH : zlen H = nb.
  Variable NN : Z.
  Hypothesis HB : forall b j, 0 <= b < nb -> 0 <= j < zlen (znth [] B b) -> 0 <= znth 0 (znth [] B b) j < NN.
  Hypothesis Hsz : size_sum (map zlen B) < 2^31.
  Hypothesis Hsup : forall b, In b B -> supported_size clog (zlen b).
  Hypothesis Hch : s_can_hash S (security_per_leaf (K * 2) (size_sum (map zlen B))) 128 = true.
  Hypothesis Hslot : forall b, 0 <= b < nb -> znth 0 H b = -1 \/ 0 <= znth 0 H b < zlen indices.
  (** Position of a placed index in its bucket. *)
  Definition slot (b : Z) : Z :=
    if (zlen (znth [] B b) =? 0) || (znth 0 H b =? -1) then 0 else lower_bound (znth [] B b) (znth 0 indices (znth 0 H b)).
  Hypothesis Hin : forall b, 0 <= b < nb -> valid_index (slot b) (zlen (znth [] B b)).

  Lemma bucket_small b : 0 <= b < nb -> zlen (znth [] B b) < 2^31.
  Proof.
    intro Hb. assert (zlen (znth [] B b) <= size_sum (map zlen B)); [|lia].
    apply size_sum_le.
    - apply Forall_forall. intros z Hz. apply in_map_iff in Hz. destruct Hz as (l & <- & _). apply zlen_nonneg.
    - apply in_map. apply znth_In. lia.
  Qed.

  Lemma bodies_jrun x y u v w out_v out_i ta tb : zlen y = zlen indices ->
    hash_indices aes too h indices nb = Ok H ->
    zlen w = nb -> vole_correlation S x u v w -> zlen out_v = NN -> zlen out_i = NN ->
    exists rv ri ta', jrun (value_provider_body S aes clog K x w B out_v) ta
       (index_provider_body S aes clog too y indices u v h B out_i) tb (Ret (Ok rv)) ta' (Ret (Ok ri)) tb /\
      zlen rv = NN /\ zlen ri = NN /\
      forall p, 0 <= p < NN ->
        s_add S (zn rv p) (zn ri p) =
        sum (map (fun b => if (negb (znth 0 H b =? -1)) && (0 <? zlen (znth [] B b)) && (znth 0 (znth [] B b) (slot b) =? p)
                           then s_mul S x (zn y (znth 0 H b)) else s_zero S) (zrange 0 nb)).
  Proof.
    intros Hy Hhash Hw (Hu & Hv & Hvole) Hov Hoi. pose proof (zlen_nonneg B) as Hnb0.
    unfold value_provider_body, index_provider_body. rewrite !wrap32_id by lia. rewrite Hhash. cbn [plift].
    replace (nb <? 0) with false by lia.
    unfold permute_y.
    rewrite (rmapM_ok _ (fun i => if znth 0 H i =? -1 then s_zero S else zn y (znth 0 H i))).
    2:{ intros i Hi. apply In_zrange in Hi. rewrite (zget_ok 0) by lia. cbn [rbind].
        destruct (Z.eqb_spec (znth 0 H i) (-1)); auto. apply zget_ok. destruct (Hslot i Hi); lia. }
    cbn [plift]. set (yp := map _ (zrange 0 nb)).
    assert (Lyp : zlen yp = nb) by (unfold yp; rewrite zlen_map, zlen_zrange; lia).
    rewrite Lyp. replace (nb =? zlen u) with true by lia. cbn [negb].
    unfold recv_vec.
    set (ym := map (fun '(a, b) => s_add S a b) (combine yp u)).
    assert (Lym : zlen ym = nb) by (unfold ym; rewrite zlen_map, zlen_combine; lia).
    set (O0 := map (fun i => zrepeat (s_zero S) (zlen (znth [] B i))) (zrange 0 nb)).
    assert (EO : rmapM (fun i => let! b := zget B i in Ok (zrepeat (s_zero S) (zlen b))) (zrange 0 nb) = Ok O0).
    { apply rmapM_ok. intros i Hi. apply In_zrange in Hi. rewrite (zget_ok []) by lia. reflexivity. }
    assert (LO : zlen O0 = nb) by (unfold O0; rewrite zlen_map, zlen_zrange; lia).
    assert (EO1 : map zlen O0 = map zlen B).
    { unfold O0. rewrite map_map. rewrite <- (map_zrange_znth [] B) at 2. rewrite map_map. apply map_ext_in.
      intros i _. apply zlen_zrepeat. apply zlen_nonneg. }
    assert (LO1 : forall b, 0 <= b < nb -> zlen (znth [] O0 b) = zlen (znth [] B b)).
    { intros b Hb. destruct (map_zlen_eq _ _ EO1) as [_ G]. apply G. }
    set (vs := map (fun '(a, b) => s_sub S (s_mul S a x) b) (combine ym w)).
    assert (Lvs : zlen vs = nb) by (unfold vs; rewrite zlen_map, zlen_combine; lia).
    set (ix := map slot (zrange 0 nb)).
    assert (Eix : rmapM (index_in_bucket B H indices) (zrange 0 nb) = Ok ix).
    { apply rmapM_ok. intros i Hi. apply In_zrange in Hi. unfold index_in_bucket, slot.
      rewrite (zget_ok []) by lia. cbn [rbind]. destruct (zlen (znth [] B i) =? 0); cbn [orb]; auto.
      rewrite (zget_ok 0) by lia. cbn [rbind]. destruct (Z.eqb_spec (znth 0 H i) (-1)); auto.
      rewrite (zget_ok 0) by (destruct (Hslot i Hi); lia). reflexivity. }
    assert (Lix : zlen ix = nb) by (unfold ix; rewrite zlen_map, zlen_zrange; lia).
    assert (Nix : forall b, 0 <= b < nb -> znth 0 ix b = slot b).
    { intros b Hb. unfold ix. rewrite (znth_map _ 0) by (rewrite zlen_zrange; lia). now rewrite znth_zrange by lia. }
    destruct (spfss_jrun S L aes clog (K * 2) vs v ix O0 O0 ta tb) as (rv & ri & ta' & HJ & Lrv & Lri & Hs).
    - reflexivity.
    - lia.
    - lia.
    - lia.
    - intros o Ho. apply (In_znth []) in Ho. destruct Ho as (b & Hb & <-). rewrite LO1 by lia. apply Hsup. apply znth_In. lia.
    - intros b Hb. rewrite LO1 by lia. rewrite Nix by lia. apply Hin. lia.
    - rewrite EO1. rewrite total_leaves_exact; auto. split; [|lia]. apply size_sum_nonneg.
      apply Forall_forall. intros z Hz. apply in_map_iff in Hz. destruct Hz as (l & <- & _). apply zlen_nonneg.
    - destruct (map_zlen_eq _ _ (eq_trans Lrv EO1)) as [Lrv1 Lrv2]. destruct (map_zlen_eq _ _ (eq_trans Lri EO1)) as [Lri1 Lri2].
      assert (HNN : 0 <= NN) by (rewrite <- Hov; apply zlen_nonneg).
      assert (Lz : zlen (zrepeat (s_zero S) NN) = NN) by (apply zlen_zrepeat; auto).
      destruct (map_back_ok B rv (zrepeat (s_zero S) NN)) as (ov & Eov & Lov & Hov').
      { auto. } { intros b Hb. split; [apply Lrv2|now apply bucket_small]. } { rewrite Lz. exact HB. }
      destruct (map_back_ok B ri (zrepeat (s_zero S) NN)) as (oi & Eoi & Loi & Hoi').
      { auto. } { intros b Hb. split; [apply Lri2|now apply bucket_small]. } { rewrite Lz. exact HB. }
      exists ov, oi, ta'. split; [|split; [lia|split; [lia|]]].
      + eapply jrun_trans; [apply jrun_recv_send; reflexivity|]. cbv beta iota zeta. rewrite Lym, Hw, Z.eqb_refl. cbn [negb].
        rewrite EO. cbn [plift]. rewrite Eix. cbn [plift]. fold vs.
        eapply jrun_trans; [apply (jrun_bindr _ _ _ _ _ _ _ _ _ _ HJ)|]. cbv beta.
        rewrite Hov, Hoi, Eov, Eoi. apply jrun_refl.
      + intros p Hp. rewrite Hov', Hoi' by lia. rewrite !znth_zrepeat by lia.
        transitivity (s_add S (sum (map (fun b => bucket_part B rv p b (zlen (znth [] B b))) (zrange 0 nb)))
                              (sum (map (fun b => bucket_part B ri p b (zlen (znth [] B b))) (zrange 0 nb)))); [ring|].
        rewrite <- (sum_add S L). apply sum_ext. intros b Hb. apply In_zrange in Hb.
        unfold bucket_part. rewrite <- (sum_add S L).
        pose proof (zlen_nonneg (znth [] B b)) as Hl0.
        assert (Eval : s_add S (zn vs b) (zn v b) = if znth 0 H b =? -1 then s_zero S else s_mul S x (zn y (znth 0 H b))).
        { unfold vs. rewrite (znth_map _ (s_zero S, s_zero S)) by (rewrite zlen_combine; lia).
          rewrite znth_combine by lia. unfold ym. rewrite (znth_map _ (s_zero S, s_zero S)) by (rewrite zlen_combine; lia).
          rewrite znth_combine by lia. unfold yp. rewrite (znth_map _ 0) by (rewrite zlen_zrange; lia).
          rewrite znth_zrange by lia. rewrite Z.add_0_l. rewrite (Hvole b) by lia.
          destruct (znth 0 H b =? -1); ring. }
        destruct (Z.ltb_spec 0 (zlen (znth [] B b))) as [Hpos|Hz0].
        * rewrite (sum_single S L _ _ (slot b)).
          -- specialize (Hs b (slot b)). rewrite Nix, Z.eqb_refl, LO1, Eval in Hs by lia.
             destruct (Hin b Hb) as [Hs0 [?|Hs1]]; [lia|]. specialize (Hs ltac:(lia) ltac:(lia)).
             destruct (znth 0 (znth [] B b) (slot b) =? p); cbn [negb andb].
             ++ rewrite Hs. destruct (znth 0 H b =? -1); reflexivity.
             ++ rewrite andb_false_r. ring.
          -- apply zrange_NoDup.
          -- apply In_zrange. destruct (Hin b Hb) as [Hs0 [?|Hs1]]; lia.
          -- intros j Hj Hne. apply In_zrange in Hj. destruct (znth 0 (znth [] B b) j =? p); [|ring].
             rewrite (Hs b j) by (rewrite ?LO1; lia). rewrite Nix by lia. now replace (j =? slot b) with false by lia.
        * rewrite zrange_nil by lia. rewrite andb_false_r. reflexivity.
  Qed.
End Run.
