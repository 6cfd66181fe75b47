(** Final forms of the hashing theorems. *)
From Verif Require Import Base BaseFacts ListFacts CuckooModel CuckooSpec CuckooProofs.
From Coq Require Import Permutation Sorted.
Local Open Scope Z_scope.

Section More.
  Variable aes : N -> N -> N.
  Variable h : hasher.
  Variable nb : Z.
  Hypothesis Hnum : 1 <= ch_num_hash_functions h.
  Hypothesis Hnb : 1 <= nb < 2^63.
  Notation num := (ch_num_hash_functions h).
  Notation place := (bucket_of aes (ch_seed h) nb).
  Variable inputs : list N.
  Notation n := (zlen inputs).
  Notation hashes := (map (row aes h nb) inputs).
  Notation x_ i := (znth 0%N inputs i).

  Lemma insert_step fuel cur hf buckets next : 0 <= cur < n -> 0 <= hf < num -> zlen buckets = nb -> zlen next = nb ->
    insert h hashes (Datatypes.S fuel) cur hf buckets next =
    let idx := place hf (x_ cur) in
    if znth 0 buckets idx =? -1 then Ok (list_set buckets (Z.to_nat idx) cur, next)
    else insert h hashes fuel (znth 0 buckets idx) (znth 0 next idx) (list_set buckets (Z.to_nat idx) cur)
           (list_set next (Z.to_nat idx) (Z.rem (hf + 1) num)).
  Proof.
    intros Hc Hh Hb Hn. cbn [insert]. rewrite (zget_ok []) by (rewrite zlen_map; lia). cbn [rbind].
    rewrite znth_hashes by lia. rewrite (zget_ok 0) by (rewrite zlen_row; lia). cbn [rbind]. rewrite znth_row by lia.
    cbv zeta. set (idx := place hf (x_ cur)). assert (Hidx : 0 <= idx < nb) by (apply place_range; lia).
    rewrite (zget_ok 0 buckets) by lia. cbn [rbind]. destruct (znth 0 buckets idx =? -1).
    - rewrite zset_ok by lia. reflexivity.
    - rewrite zset_ok by lia. cbn [rbind]. rewrite (zget_ok 0 next) by lia. cbn [rbind]. rewrite zset_ok by lia. reflexivity.
  Qed.

  Lemma distinct_first_hashes too : num <> 1 -> n <= nb -> too n nb = false ->
    (forall i k, 0 <= i < k -> k < n -> place 0 (x_ i) <> place 0 (x_ k)) ->
    exists buckets, hash_cuckoo aes too h inputs nb = Ok buckets /\
      forall i, 0 <= i < n -> znth 0 buckets (place 0 (x_ i)) = i.
  Proof.
    intros H1 H2 H3 Hd. unfold hash_cuckoo. replace (num =? 1) with false by lia. replace (nb <=? 0) with false by lia.
    replace (nb <? n) with false by lia. rewrite H3, hash_ok by auto. cbn [rbind].
    set (body := fun (i : Z) (p : list Z * list Z) => _).
    pose proof (zlen_nonneg inputs) as Hn.
    destruct (for_range_inv (fun k '(b, nx) => zlen b = nb /\ nx = zrepeat 0 nb /\
       (forall i, 0 <= i < k -> znth 0 b (place 0 (x_ i)) = i) /\
       (forall s, 0 <= s < nb -> (forall i, 0 <= i < k -> place 0 (x_ i) <> s) -> znth 0 b s = -1)) 0 n body
       (zrepeat (-1) nb, zrepeat 0 nb)) as ((b & nx) & E & Hb & _ & Hk & _).
    - lia.
    - split; [apply zlen_zrepeat; lia|]. split; [auto|]. split; [intros; lia|]. intros s Hs _. apply znth_zrepeat. lia.
    - intros k (b & nx) Hk (K1 & K2 & K3 & K4). unfold body.
      destruct (List.length inputs) as [|f] eqn:El; [unfold zlen in Hk; lia|].
      rewrite insert_step; [|lia|lia|auto|subst nx; apply zlen_zrepeat; lia]. cbv zeta.
      pose proof (place_range aes h nb Hnb 0 (x_ k)) as Hp.
      rewrite K4; [|auto|]. 2:{ intros i Hi. apply Hd; lia. }
      rewrite Z.eqb_refl. eexists. split; [reflexivity|].
      split; [now rewrite zlen_list_set|]. split; [auto|]. split.
      + intros i Hi. rewrite znth_list_set by lia. destruct (Z.eqb_spec (place 0 (x_ k)) (place 0 (x_ i))) as [Ee|Ee].
        * destruct (Z.eq_dec i k) as [->|]; auto. exfalso. apply (Hd i k); auto; lia.
        * apply K3. destruct (Z.eq_dec i k) as [->|]; [congruence|lia].
      + intros s Hs Hall. rewrite znth_list_set by lia. destruct (Z.eqb_spec (place 0 (x_ k)) s) as [Ee|Ee].
        * exfalso. apply (Hall k); auto; lia.
        * apply K4; auto. intros i Hi. apply Hall. lia.
    - rewrite E. cbn [rbind]. eauto.
  Qed.
End More.

Section Two.
  Variable aes : N -> N -> N.
  Variable h : hasher.
  Variable nb : Z.
  Hypothesis Hnum : 1 <= ch_num_hash_functions h.
  Hypothesis Hnb : 1 <= nb < 2^63.
  Notation num := (ch_num_hash_functions h).
  Notation place := (bucket_of aes (ch_seed h) nb).

  Lemma two_collide too x y : num <> 1 -> 2 <= nb -> too 2 nb = false -> place 0 x = place 0 y ->
    exists m, hash_cuckoo aes too h [x; y] nb = Err (internal_error m).
  Proof.
    intros H1 H2 H3 E. unfold hash_cuckoo. change (zlen [x; y]) with 2.
    replace (num =? 1) with false by lia. replace (nb <=? 0) with false by lia.
    replace (nb <? 2) with false by lia. rewrite H3, hash_ok by auto. cbn [rbind].
    rewrite for_range_first by lia. change (List.length [x; y]) with 2%nat.
    pose proof (place_range aes h nb Hnb 0 x) as Hx.
    assert (L1 : forall z : Z, zlen (zrepeat z nb) = nb) by (intro; apply zlen_zrepeat; lia).
    rewrite insert_step; auto; [|change (zlen [x; y]) with 2; lia|lia]. cbv zeta. change (znth 0%N [x; y] 0) with x.
    rewrite znth_zrepeat by lia. rewrite Z.eqb_refl. cbn [rbind].
    rewrite for_range_first by lia. set (b1 := list_set (zrepeat (-1) nb) (Z.to_nat (place 0 x)) 0).
    assert (Lb : zlen b1 = nb) by (unfold b1; rewrite zlen_list_set; auto).
    assert (Eb : znth 0 b1 (place 0 x) = 0) by (unfold b1; apply znth_list_set_eq; rewrite L1; lia).
    change (0 + 1) with 1.
    rewrite insert_step; auto; [|change (zlen [x; y]) with 2; lia|lia]. cbv zeta. change (znth 0%N [x; y] 1) with y. rewrite <- E, Eb.
    change (0 =? -1) with false. cbv iota. rewrite znth_zrepeat by lia.
    rewrite insert_step; rewrite ?zlen_list_set; auto; [|change (zlen [x; y]) with 2; lia|lia]. cbv zeta. change (znth 0%N [x; y] 0) with x.
    rewrite !znth_list_set_eq by (rewrite ?Lb, ?L1; lia). change (1 =? -1) with false. cbv iota.
    cbn [insert rbind]. eauto.
  Qed.
  Lemma three_evict too x y z : num <> 1 -> 3 <= nb -> too 3 nb = false -> place 0 x = place 0 y ->
    place 1 y <> place 0 x -> place 0 z <> place 0 x -> place 0 z <> place 1 y ->
    exists buckets, hash_cuckoo aes too h [x; y; z] nb = Ok buckets /\
      znth 0 buckets (place 0 x) = 0 /\ znth 0 buckets (place 1 y) = 1 /\ znth 0 buckets (place 0 z) = 2.
  Proof.
    intros H1 H2 H3 E N1 N2 N3. unfold hash_cuckoo. change (zlen [x; y; z]) with 3.
    replace (num =? 1) with false by lia. replace (nb <=? 0) with false by lia.
    replace (nb <? 3) with false by lia. rewrite H3, hash_ok by auto. cbn [rbind].
    rewrite for_range_first by lia. change (List.length [x; y; z]) with 3%nat.
    pose proof (place_range aes h nb Hnb 0 x) as Hx. pose proof (place_range aes h nb Hnb 1 y) as Hy.
    pose proof (place_range aes h nb Hnb 0 z) as Hz.
    assert (L1 : forall z : Z, zlen (zrepeat z nb) = nb) by (intro; apply zlen_zrepeat; lia).
    rewrite insert_step; auto; [|change (zlen [x; y; z]) with 3; lia|lia]. cbv zeta. change (znth 0%N [x; y; z] 0) with x.
    rewrite znth_zrepeat by lia. rewrite Z.eqb_refl. cbn [rbind].
    rewrite for_range_first by lia. set (b1 := list_set (zrepeat (-1) nb) (Z.to_nat (place 0 x)) 0).
    assert (Lb : zlen b1 = nb) by (unfold b1; rewrite zlen_list_set; auto).
    assert (Eb : znth 0 b1 (place 0 x) = 0) by (unfold b1; apply znth_list_set_eq; rewrite L1; lia).
    assert (Eb' : forall s, 0 <= s < nb -> s <> place 0 x -> znth 0 b1 s = -1).
    { intros s Hs Hne. unfold b1. rewrite znth_list_set by (rewrite L1; lia).
      replace (place 0 x =? s) with false by lia. apply znth_zrepeat. lia. }
    change (0 + 1) with 1.
    rewrite insert_step; auto; [|change (zlen [x; y; z]) with 3; lia|lia]. cbv zeta. change (znth 0%N [x; y; z] 1) with y. rewrite <- E, Eb.
    change (0 =? -1) with false. cbv iota. rewrite znth_zrepeat by lia.
    rewrite insert_step; rewrite ?zlen_list_set; auto; [|change (zlen [x; y; z]) with 3; lia|lia]. cbv zeta. change (znth 0%N [x; y; z] 0) with x.
    rewrite !znth_list_set_eq by (rewrite ?Lb, ?L1; lia). change (1 =? -1) with false. cbv iota.
    replace (Z.rem (0 + 1) num) with 1 by (symmetry; apply Z.rem_small; lia).
    rewrite insert_step; rewrite ?zlen_list_set; auto; [|change (zlen [x; y; z]) with 3; lia|lia]. cbv zeta. change (znth 0%N [x; y; z] 1) with y.
    rewrite !znth_list_set by (rewrite ?zlen_list_set, ?Lb; lia).
    replace (place 0 x =? place 1 y) with false by lia. rewrite Eb' by lia. rewrite Z.eqb_refl. cbn [rbind].
    rewrite for_range_first by lia. change (1 + 1) with 2.
    rewrite insert_step; rewrite ?zlen_list_set; auto; [|change (zlen [x; y; z]) with 3; lia|lia]. cbv zeta. change (znth 0%N [x; y; z] 2) with z.
    rewrite !znth_list_set by (rewrite ?zlen_list_set, ?Lb; lia).
    replace (place 1 y =? place 0 z) with false by lia. replace (place 0 x =? place 0 z) with false by lia.
    rewrite Eb' by lia. rewrite Z.eqb_refl. cbn [rbind].
    rewrite for_range_empty by lia. cbn [rbind]. eexists. split; [reflexivity|].
    rewrite !znth_list_set by (rewrite ?zlen_list_set, ?Lb; lia).
    rewrite !Z.eqb_refl. replace (place 0 z =? place 0 x) with false by lia. replace (place 1 y =? place 0 x) with false by lia.
    replace (place 0 z =? place 1 y) with false by lia. auto.
  Qed.
End Two.

(** ** The statements *)
Definition valid_hasher (h : hasher) := 1 <= ch_num_hash_functions h.

Lemma create_valid seed num :
  (1 <= num -> cuckoo_create seed num = Ok (Hasher seed num)) /\
  (num <= 0 -> exists m, cuckoo_create seed num = Err (invalid_argument m)).
Proof.
  unfold cuckoo_create. split; intro H; [replace (num <=? 0) with false by lia; auto|].
  replace (num <=? 0) with true by lia. eauto.
Qed.

Lemma hash_spec aes seed num inputs nb h : cuckoo_create seed num = Ok h -> 1 <= nb < 2^63 ->
  exists rows, hash aes h inputs nb = Ok rows /\ zlen rows = zlen inputs /\
  forall i, 0 <= i < zlen inputs ->
    zlen (znth [] rows i) = num /\
    forall j, 0 <= j < num ->
      znth 0 (znth [] rows i) j = bucket_of aes seed nb j (znth 0%N inputs i) /\
      0 <= znth 0 (znth [] rows i) j < nb.
Proof.
  intros E Hnb. assert (Hn : 1 <= num /\ h = Hasher seed num).
  { unfold cuckoo_create in E. destruct (num <=? 0) eqn:?; [discriminate|]. injection E as <-. split; [lia|auto]. }
  destruct Hn as [Hn ->]. exists (map (row aes (Hasher seed num) nb) inputs).
  split; [apply hash_ok; auto|]. split; [apply zlen_map|]. intros i Hi. rewrite znth_hashes by auto.
  split; [now apply zlen_row|]. intros j Hj. rewrite znth_row by auto. split; [reflexivity|]. now apply place_range.
Qed.
Lemma hash_no_buckets aes h inputs nb : nb <= 0 -> exists m, hash aes h inputs nb = Err (invalid_argument m).
Proof. intro H. unfold hash. replace (nb <=? 0) with true by lia. eauto. Qed.

Lemma create_inv seed num h : cuckoo_create seed num = Ok h -> 1 <= num /\ h = Hasher seed num.
Proof. unfold cuckoo_create. destruct (num <=? 0) eqn:?; [discriminate|]. intro E. injection E as <-. split; [lia|auto]. Qed.

Lemma simple_spec aes too seed num h inputs nb sizes : cuckoo_create seed num = Ok h -> 1 <= nb < 2^63 ->
  too (zlen inputs) nb = false -> division (zlen inputs) sizes ->
  hash_simple aes too h sizes inputs nb = Ok (map (simple_bucket (bucket_of aes seed nb) num inputs) (zrange 0 nb)).
Proof. intros E Hnb Ht Hd. apply create_inv in E. destruct E as [Hn ->]. now apply (hash_simple_ok aes (Hasher seed num)). Qed.
Lemma simple_errors aes too h inputs nb sizes : nb <= 0 \/ too (zlen inputs) nb = true ->
  exists m, hash_simple aes too h sizes inputs nb = Err (invalid_argument m).
Proof.
  intro H. unfold hash_simple. destruct (nb <=? 0) eqn:E; [eauto|].
  destruct H as [H|H]; [lia|]. rewrite H. eauto.
Qed.

(** What simple_bucket says about membership and order. *)
Lemma simple_bucket_In place num inputs b i :
  In i (simple_bucket place num inputs b) <->
  0 <= i < zlen inputs /\ exists j, 0 <= j < num /\ place j (znth 0%N inputs i) = b.
Proof.
  unfold simple_bucket. rewrite in_flat_map. split.
  - intros (k & Hk & Hin). apply In_zrange in Hk. apply in_map_iff in Hin. destruct Hin as (j & <- & Hj).
    apply filter_In in Hj. destruct Hj as [Hj E]. apply In_zrange in Hj. apply Z.eqb_eq in E. split; [lia|]. exists j. split; [lia|exact E].
  - intros (Hi & j & Hj & E). exists i. split; [apply In_zrange; lia|]. apply in_map_iff. exists j. split; auto.
    apply filter_In. split; [apply In_zrange; lia|now apply Z.eqb_eq].
Qed.
Lemma simple_bucket_count place num inputs b i : 0 <= i < zlen inputs ->
  count_occ Z.eq_dec (simple_bucket place num inputs b) i =
  List.length (filter (fun j => place j (znth 0%N inputs i) =? b) (zrange 0 num)).
Proof.
  intro Hi. unfold simple_bucket. rewrite (zrange_app 0 i (zlen inputs)) by lia. rewrite (zrange_cons i (zlen inputs)) by lia.
  rewrite flat_map_app. cbn [flat_map]. rewrite !count_occ_app.
  assert (Hz : forall lo hi, ~ lo <= i < hi -> count_occ Z.eq_dec (flat_map (fun i => map (fun _ => i)
     (filter (fun j => place j (znth 0%N inputs i) =? b) (zrange 0 num))) (zrange lo hi)) i = 0%nat).
  { intros lo hi Hn. apply count_occ_not_In. rewrite in_flat_map. intros (k & Hk & Hin). apply In_zrange in Hk.
    apply in_map_iff in Hin. destruct Hin as (j & <- & _). lia. }
  rewrite !Hz by lia. rewrite Nat.add_0_r, Nat.add_0_l.
  induction (filter _ (zrange 0 num)) as [|x l IH]; cbn [map count_occ List.length]; auto.
  destruct (Z.eq_dec i i); [|congruence]. now rewrite IH.
Qed.
Lemma sorted_flat (f : Z -> list Z) : (forall i, Forall (eq i) (f i)) ->
  forall k lo, StronglySorted Z.le (flat_map f (zseq lo k)).
Proof.
  intro Hf. induction k as [|k IH]; intro lo; cbn [zseq flat_map]; [constructor|].
  assert (Hge : Forall (Z.le lo) (flat_map f (zseq (lo + 1) k))).
  { apply Forall_forall. intros x Hx. apply in_flat_map in Hx. destruct Hx as (q & Hq & Hin).
    apply In_zseq in Hq. specialize (Hf q). rewrite Forall_forall in Hf. rewrite <- (Hf x Hin). lia. }
  specialize (Hf lo). induction Hf as [|x l Hx Hl IHl]; cbn [app]; auto.
  constructor; auto. subst x. apply Forall_app. split; auto.
  eapply Forall_impl; [|exact Hl]. intros; lia.
Qed.
Lemma simple_bucket_sorted place num inputs b : StronglySorted Z.le (simple_bucket place num inputs b).
Proof.
  apply sorted_flat. intro i. apply Forall_forall. intros z Hz. apply in_map_iff in Hz. now destruct Hz as (j & <- & _).
Qed.

Lemma cuckoo_ok_inv aes too num seed inputs nb buckets : hash_cuckoo aes too (Hasher seed num) inputs nb = Ok buckets ->
  num <> 1 /\ 1 <= nb /\ zlen inputs <= nb /\ too (zlen inputs) nb = false.
Proof.
  intro H. unfold hash_cuckoo in H. cbn [ch_num_hash_functions] in H. destruct (num =? 1) eqn:?; [discriminate|].
  destruct (nb <=? 0) eqn:?; [discriminate|]. destruct (nb <? zlen inputs) eqn:?; [discriminate|].
  destruct (too (zlen inputs) nb) eqn:?; [discriminate|]. repeat split; lia.
Qed.
Lemma cuckoo_perm aes too seed num h inputs nb buckets : cuckoo_create seed num = Ok h -> nb < 2^63 ->
  hash_cuckoo aes too h inputs nb = Ok buckets ->
  Permutation (filter (fun b => negb (b =? -1)) buckets) (zrange 0 (zlen inputs)).
Proof.
  intros E Hnb H. apply create_inv in E. destruct E as [Hn ->]. destruct (cuckoo_ok_inv _ _ _ _ _ _ _ H) as (H1 & H2 & H3 & H4).
  apply (hash_cuckoo_perm aes (Hasher seed num) nb Hn ltac:(lia) inputs too); auto.
Qed.
Lemma cuckoo_placement aes too seed num h inputs nb buckets : cuckoo_create seed num = Ok h -> nb < 2^63 ->
  hash_cuckoo aes too h inputs nb = Ok buckets ->
  placement (bucket_of aes seed nb) num inputs nb buckets.
Proof.
  intros E Hnb H. apply create_inv in E. destruct E as [Hn ->].
  assert (Hc : num <> 1 /\ 1 <= nb /\ zlen inputs <= nb /\ too (zlen inputs) nb = false).
  { unfold hash_cuckoo in H. cbn [ch_num_hash_functions] in H. destruct (num =? 1) eqn:?; [discriminate|].
    destruct (nb <=? 0) eqn:?; [discriminate|]. destruct (nb <? zlen inputs) eqn:?; [discriminate|].
    destruct (too (zlen inputs) nb) eqn:?; [discriminate|]. repeat split; lia. }
  destruct Hc as (H1 & H2 & H3 & H4).
  destruct (hash_cuckoo_cases aes (Hasher seed num) nb Hn ltac:(lia) inputs too) as [(b & E & Hp)|E]; auto; rewrite E in H.
  - injection H as <-. exact Hp.
  - discriminate.
Qed.
Lemma cuckoo_outcome aes too seed num h inputs nb : cuckoo_create seed num = Ok h -> nb < 2^63 ->
  let bad := num = 1 \/ nb <= 0 \/ nb < zlen inputs \/ too (zlen inputs) nb = true in
  (bad -> exists m, hash_cuckoo aes too h inputs nb = Err (invalid_argument m)) /\
  (~ bad -> (exists buckets, hash_cuckoo aes too h inputs nb = Ok buckets) \/
            hash_cuckoo aes too h inputs nb = Err (internal_error exhausted)).
Proof.
  intros E Hnb bad. apply create_inv in E. destruct E as [Hn ->]. split; intro H.
  - unfold hash_cuckoo. cbn [ch_num_hash_functions]. destruct (num =? 1) eqn:?; [eauto|].
    destruct (nb <=? 0) eqn:?; [eauto|]. destruct (nb <? zlen inputs) eqn:?; [eauto|].
    destruct H as [H|[H|[H|H]]]; try lia. rewrite H. eauto.
  - assert (Hc : num <> 1 /\ 1 <= nb < 2^63 /\ zlen inputs <= nb) by (subst bad; lia). destruct Hc as (H1 & H2 & H3).
    assert (H4 : too (zlen inputs) nb = false) by (destruct (too (zlen inputs) nb) eqn:?; auto; exfalso; apply H; unfold bad; auto).
    destruct (hash_cuckoo_cases aes (Hasher seed num) nb Hn H2 inputs too H1 H3 H4) as [(b & E & Hp)|E]; eauto.
Qed.
Lemma cuckoo_two aes too seed num h nb x y : cuckoo_create seed num = Ok h -> num <> 1 -> 2 <= nb < 2^63 ->
  too 2 nb = false ->
  ((exists buckets, hash_cuckoo aes too h [x; y] nb = Ok buckets) <-> bucket_of aes seed nb 0 x <> bucket_of aes seed nb 0 y).
Proof.
  intros E H1 Hnb Ht. apply create_inv in E. destruct E as [Hn ->]. split.
  - intros (b & E) Heq. destruct (two_collide aes (Hasher seed num) nb Hn ltac:(lia) too x y) as (m & E2); auto; [lia|].
    rewrite E2 in E. discriminate.
  - intro Hne. destruct (distinct_first_hashes aes (Hasher seed num) nb Hn ltac:(lia) [x; y] too) as (b & E & _); eauto.
    + change (zlen [x; y]) with 2. lia.
    + change (zlen [x; y]) with 2. intros i k Hi Hk. assert (i = 0) by lia. assert (k = 1) by lia. subst. exact Hne.
Qed.
Lemma cuckoo_three aes too seed num h nb x y z : cuckoo_create seed num = Ok h -> num <> 1 -> 3 <= nb < 2^63 ->
  too 3 nb = false ->
  bucket_of aes seed nb 0 x = bucket_of aes seed nb 0 y -> bucket_of aes seed nb 1 y <> bucket_of aes seed nb 0 x ->
  bucket_of aes seed nb 0 z <> bucket_of aes seed nb 0 x -> bucket_of aes seed nb 0 z <> bucket_of aes seed nb 1 y ->
  exists buckets, hash_cuckoo aes too h [x; y; z] nb = Ok buckets /\
    znth 0 buckets (bucket_of aes seed nb 0 x) = 0 /\ znth 0 buckets (bucket_of aes seed nb 1 y) = 1 /\
    znth 0 buckets (bucket_of aes seed nb 0 z) = 2.
Proof.
  intros E H1 H2 H3 H4 H5 H6 H7. apply create_inv in E. destruct E as [Hn ->].
  apply (three_evict aes (Hasher seed num) nb Hn ltac:(lia) too x y z); auto; lia.
Qed.
Lemma cuckoo_distinct aes too seed num h nb inputs : cuckoo_create seed num = Ok h -> num <> 1 ->
  1 <= nb < 2^63 -> zlen inputs <= nb -> too (zlen inputs) nb = false ->
  (forall i k, 0 <= i < k -> k < zlen inputs ->
     bucket_of aes seed nb 0 (znth 0%N inputs i) <> bucket_of aes seed nb 0 (znth 0%N inputs k)) ->
  exists buckets, hash_cuckoo aes too h inputs nb = Ok buckets /\
    forall i, 0 <= i < zlen inputs -> znth 0 buckets (bucket_of aes seed nb 0 (znth 0%N inputs i)) = i.
Proof. intros E H1 Hnb Hle Ht Hd. apply create_inv in E. destruct E as [Hn ->]. now apply (distinct_first_hashes aes (Hasher seed num)). Qed.

(** C32 *)
Lemma uint128_of_nat_range i : 0 <= i < 2^63 -> uint128_of_int64 i = Z.to_N i.
Proof. intro H. unfold uint128_of_int64. now rewrite Z.mod_small by lia. Qed.
Lemma consistent aes too seed num h indices N_ nb sizes buckets simple b k :
  cuckoo_create seed num = Ok h -> nb < 2^63 -> 0 <= N_ < 2^63 -> division N_ sizes ->
  hash_cuckoo aes too h (map uint128_of_int64 indices) nb = Ok buckets ->
  hash_simple aes too h sizes (map uint128_of_int64 (zrange 0 N_)) nb = Ok simple ->
  0 <= b < nb -> znth 0 buckets b = k -> k <> -1 -> 0 <= znth 0 indices k < N_ ->
  0 <= k < zlen indices /\ In (znth 0 indices k) (znth [] simple b).
Proof.
  intros E Hnb HN Hd Hc Hs Hb Hk Hk1 Hr.
  pose proof (cuckoo_placement aes too seed num h _ nb buckets E Hnb Hc) as (P1 & P2 & P3).
  specialize (P3 b Hb). cbv zeta in P3. rewrite Hk in P3. destruct P3 as [P3|(P3 & j & Hj & Hp)]; [congruence|].
  rewrite zlen_map in P3. rewrite (znth_map _ 0) in Hp by lia. split; [lia|].
  assert (Ht : too N_ nb = false).
  { unfold hash_simple in Hs. destruct (nb <=? 0); [discriminate|].
    rewrite zlen_map, zlen_zrange in Hs by lia. rewrite Z.sub_0_r in Hs. now destruct (too N_ nb). }
  rewrite (simple_spec aes too seed num h) in Hs; auto; try lia.
  2:{ now rewrite zlen_map, zlen_zrange, Z.sub_0_r by lia. }
  2:{ now rewrite zlen_map, zlen_zrange, Z.sub_0_r by lia. }
  injection Hs as <-. rewrite (znth_map _ 0) by (rewrite zlen_zrange; lia). rewrite znth_zrange by lia. rewrite Z.add_0_l.
  apply simple_bucket_In. rewrite zlen_map, zlen_zrange by lia. split; [lia|]. exists j. split; auto.
  rewrite (znth_map _ 0) by (rewrite zlen_zrange; lia). now rewrite znth_zrange by lia.
Qed.

Lemma num_buckets_spec e3 e2 seed num h n : cuckoo_create seed num = Ok h ->
  (n < 0 -> exists m, get_optimal_number_of_buckets e3 e2 h n = Err (invalid_argument m)) /\
  (n = 0 -> get_optimal_number_of_buckets e3 e2 h n = Ok 1) /\
  (0 < n -> num <> 2 -> num <> 3 -> exists m, get_optimal_number_of_buckets e3 e2 h n = Err (Status Unimplemented m)).
Proof.
  intro E. apply create_inv in E. destruct E as [Hn ->]. unfold get_optimal_number_of_buckets. cbn [ch_num_hash_functions].
  split; [|split]; intros.
  - replace (n <? 0) with true by lia. eauto.
  - subst. reflexivity.
  - replace (n <? 0) with false by lia. replace (n =? 0) with false by lia. replace (num =? 3) with false by lia.
    replace (num =? 2) with false by lia. eauto.
Qed.
