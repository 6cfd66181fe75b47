(** Proofs about simple and cuckoo hashing. *)
From Verif Require Import Base BaseFacts ListFacts CuckooModel CuckooSpec.
From Coq Require Import Permutation.
Local Open Scope Z_scope.

(** A loop that updates one element of a vector in place. *)
Notation exhausted := "Failed to insert element, maximum number of tries exhausted"%string.

Lemma for_range_slot {A} (d : A) (i m : Z) (f : Z -> A -> res A) (v : list A) r :
  0 <= m -> 0 <= i < zlen v -> for_range 0 m f (znth d v i) = Ok r ->
  for_range 0 m (fun j v => let! row := zget v i in let! row := f j row in zset v i row) v =
    Ok (list_set v (Z.to_nat i) r).
Proof.
  intros Hm Hi. revert r. revert m Hm.
  apply (natlike_ind (fun m => forall r, for_range 0 m f (znth d v i) = Ok r ->
    for_range 0 m (fun j v => let! row := zget v i in let! row := f j row in zset v i row) v = Ok (list_set v (Z.to_nat i) r))).
  - intros r. rewrite !for_range_empty by lia. intro E. injection E as <-. now rewrite list_set_same by lia.
  - intros m Hm IH r E. replace (Z.succ m) with (m + 1) in * by lia. rewrite for_range_last in E by lia. rewrite for_range_last by lia.
    destruct (for_range 0 m f (znth d v i)) as [r0| |]; cbn [rbind] in E; try discriminate.
    rewrite (IH r0 eq_refl). cbn [rbind]. rewrite (zget_ok d) by (rewrite zlen_list_set; lia).
    rewrite znth_list_set_eq by lia. cbn [rbind]. rewrite E. cbn [rbind].
    rewrite zset_ok by (rewrite zlen_list_set; lia). f_equal.
    apply (znth_ext d).
    + now rewrite !zlen_list_set.
    + intros k Hk. rewrite !zlen_list_set in Hk. rewrite !znth_list_set by (rewrite ?zlen_list_set; lia).
      destruct (i =? k); reflexivity.
Qed.

Lemma wrap64_id z : - 2^63 <= z < 2^63 -> wrap64 z = z.
Proof. intro H. unfold wrap64. rewrite Z.mod_small; lia. Qed.

Section Hash.
  Variable aes : N -> N -> N.
  Variable h : hasher.
  Variable nb : Z.
  Hypothesis Hnum : 1 <= ch_num_hash_functions h.
  Hypothesis Hnb : 1 <= nb < 2^63.
  Notation num := (ch_num_hash_functions h).
  Notation place := (bucket_of aes (ch_seed h) nb).

  Lemma mod_N hash : wrap64 (Z.of_N ((hash mod Z.to_N nb) mod 2^64)%N) = Z.of_N hash mod nb.
  Proof.
    assert (Hm : (hash mod Z.to_N nb < Z.to_N nb)%N) by (apply N.mod_lt; lia).
    rewrite N.mod_small by lia. rewrite wrap64_id by lia. rewrite N2Z.inj_mod, Z2N.id by lia. reflexivity.
  Qed.
  Lemma hash_to_bucket_ok x j : 0 <= j -> hash_to_bucket aes h (hash_to_uint128 aes h x) nb j = place j x.
  Proof.
    intro Hj. unfold hash_to_bucket, bucket_of, mix. fold (hash_to_uint128 aes h x). rewrite mod_N.
    destruct (0 <? j) eqn:E1, (j =? 0) eqn:E2; try lia; reflexivity.
  Qed.
  Lemma place_range j x : 0 <= place j x < nb.
  Proof. unfold bucket_of. destruct (j =? 0); apply Z.mod_pos_bound; lia. Qed.

  Definition row (x : N) : list Z := map (fun j => place j x) (zrange 0 num).
  Lemma zlen_row x : zlen (row x) = num.
  Proof. unfold row. rewrite zlen_map, zlen_zrange; lia. Qed.
  Lemma znth_row x j : 0 <= j < num -> znth 0 (row x) j = place j x.
  Proof. intro H. unfold row. rewrite (znth_map _ 0) by (rewrite zlen_zrange; lia). now rewrite znth_zrange by lia. Qed.

  Lemma hash_row_ok inputs i v : 0 <= i < zlen inputs -> zlen v = zlen inputs -> zlen (znth [] v i) = num ->
    hash_row aes h inputs nb i v = Ok (list_set v (Z.to_nat i) (row (znth 0%N inputs i))).
  Proof.
    intros Hi Hv Hr. unfold hash_row. rewrite (zget_ok 0%N) by lia. cbn [rbind].
    apply (for_range_slot [] i num
      (fun j row => zset row j (hash_to_bucket aes h (hash_to_uint128 aes h (znth 0%N inputs i)) nb j))); [lia|lia|].
    apply (fill_all 0); auto. intros j l Hj Hl _. rewrite zset_ok by lia. now rewrite hash_to_bucket_ok by lia.
  Qed.
  Lemma hash_ok inputs : hash aes h inputs nb = Ok (map row inputs).
  Proof.
    unfold hash. replace (nb <=? 0) with false by lia. pose proof (zlen_nonneg inputs).
    rewrite (fill_all [] _ (zlen inputs) _ (fun i => row (znth 0%N inputs i))).
    - f_equal. rewrite <- (map_map (znth 0%N inputs) row). now rewrite map_zrange_znth.
    - now apply zlen_zrepeat.
    - intros i l Hi Hl Hrest. apply hash_row_ok; auto. rewrite Hrest by lia. rewrite znth_zrepeat by lia. apply zlen_zrepeat. lia.
  Qed.
  Lemma zlen_hashes inputs : zlen (map row inputs) = zlen inputs.
  Proof. apply zlen_map. Qed.
  Lemma znth_hashes inputs i : 0 <= i < zlen inputs -> znth [] (map row inputs) i = row (znth 0%N inputs i).
  Proof. intro H. now rewrite (znth_map _ 0%N) by lia. Qed.

  (** ** Simple hashing *)
  Definition table (f : Z -> list Z) : list (list Z) := map f (zrange 0 nb).
  Lemma zlen_table f : zlen (table f) = nb.
  Proof. unfold table. rewrite zlen_map, zlen_zrange; lia. Qed.
  Lemma znth_table f b : 0 <= b < nb -> znth [] (table f) b = f b.
  Proof. intro H. unfold table. rewrite (znth_map _ 0) by (rewrite zlen_zrange; lia). now rewrite znth_zrange by lia. Qed.
  Lemma table_ext f g : (forall b, 0 <= b < nb -> f b = g b) -> table f = table g.
  Proof. intro H. apply map_ext_in. intros b Hb. apply In_zrange in Hb. auto. Qed.
  Lemma table_nil : zrepeat [] nb = table (fun _ => []).
  Proof.
    apply (znth_ext []); [rewrite zlen_table, zlen_zrepeat; lia|].
    intros i Hi. rewrite zlen_zrepeat in Hi by lia. now rewrite znth_table, znth_zrepeat by lia.
  Qed.
  Lemma push_table b0 xs f : 0 <= b0 < nb -> push b0 xs (table f) = Ok (table (fun b => if b =? b0 then f b ++ xs else f b)).
  Proof.
    intro H. unfold push. rewrite (zget_ok []) by (rewrite zlen_table; lia). cbn [rbind].
    rewrite zset_ok by (rewrite zlen_table; lia). f_equal. apply (znth_ext []); [now rewrite zlen_list_set, !zlen_table|].
    intros i Hi. rewrite zlen_list_set, zlen_table in Hi. rewrite znth_list_set by (rewrite zlen_table; lia).
    rewrite !znth_table by lia. rewrite (Z.eqb_sym b0 i). destruct (Z.eqb_spec i b0) as [->|]; reflexivity.
  Qed.

  Variable inputs : list N.
  (** Contribution of input i to bucket b. *)
  Definition contrib (b i : Z) : list Z :=
    map (fun _ => i) (filter (fun j => place j (znth 0%N inputs i) =? b) (zrange 0 num)).

  Lemma push_row i f : 0 <= i < zlen inputs ->
    for_range 0 num (fun j v =>
        let! row := zget (map row inputs) i in
        let! b := zget row j in
        push b [i] v) (table f) = Ok (table (fun b => f b ++ contrib b i)).
  Proof.
    intro Hi.
    destruct (for_range_inv (fun m v => v = table (fun b => f b ++
      map (fun _ => i) (filter (fun j => place j (znth 0%N inputs i) =? b) (zrange 0 m)))) 0 num
      (fun j v => let! row := zget (map row inputs) i in let! b := zget row j in push b [i] v) (table f)) as (v & E & ->).
    - lia.
    - apply table_ext. intros. now rewrite zrange_nil, app_nil_r by lia.
    - intros j v Hj ->. rewrite (zget_ok []) by (rewrite zlen_hashes; lia). cbn [rbind].
      rewrite znth_hashes by lia. rewrite (zget_ok 0) by (rewrite zlen_row; lia). cbn [rbind].
      rewrite znth_row by lia. rewrite push_table by apply place_range. eexists. split; [reflexivity|].
      apply table_ext. intros b Hb. rewrite zrange_snoc by lia. rewrite filter_app, map_app. cbn [filter].
      rewrite (Z.eqb_sym _ b). destruct (b =? place j (znth 0%N inputs i)); cbn [map]; now rewrite ?app_nil_r, ?app_assoc.
    - exact E.
  Qed.
  Lemma thread_result_ok lo hi : 0 <= lo <= hi -> hi <= zlen inputs ->
    thread_result h (map row inputs) nb lo hi = Ok (table (fun b => flat_map (contrib b) (zrange lo hi))).
  Proof.
    intros H1 H2. unfold thread_result. rewrite table_nil.
    destruct (for_range_inv (fun i v => v = table (fun b => flat_map (contrib b) (zrange lo i))) lo hi
      (fun i v => for_range 0 num (fun j v => let! row := zget (map row inputs) i in let! b := zget row j in push b [i] v) v)
      (table (fun _ => []))) as (v & E & ->).
    - lia.
    - apply table_ext. intros. now rewrite zrange_nil by lia.
    - intros i v Hi ->. rewrite push_row by lia. eexists. split; [reflexivity|].
      apply table_ext. intros b Hb. rewrite zrange_snoc by lia. rewrite flat_map_app. cbn [flat_map]. now rewrite app_nil_r.
    - exact E.
  Qed.
  Lemma merge_one f g : for_range 0 nb (fun i result => let! l := zget (table g) i in push i l result) (table f) =
    Ok (table (fun b => f b ++ g b)).
  Proof.
    destruct (for_range_inv (fun k v => v = table (fun b => if b <? k then f b ++ g b else f b)) 0 nb
      (fun i result => let! l := zget (table g) i in push i l result) (table f)) as (v & E & ->).
    - lia.
    - apply table_ext. intros b Hb. now replace (b <? 0) with false by lia.
    - intros k v Hk ->. rewrite (zget_ok []) by (rewrite zlen_table; lia). cbn [rbind]. rewrite znth_table by lia.
      rewrite push_table by lia. eexists. split; [reflexivity|]. apply table_ext. intros b Hb.
      destruct (b =? k) eqn:E1, (b <? k) eqn:E2, (b <? k + 1) eqn:E3; try lia; auto. now replace k with b by lia.
    - rewrite E. f_equal. apply table_ext. intros b Hb. now replace (b <? nb) with true by lia.
  Qed.
  Lemma threads_ok sizes : forall lo f, Forall (fun s => 0 <= s) sizes -> 0 <= lo ->
    lo + fold_right Z.add 0 sizes <= zlen inputs ->
    (let! threads := rmapM (fun '(lo, hi) => thread_result h (map row inputs) nb lo hi) (chunk_bounds lo sizes) in
     merge_threads nb threads (table f)) =
    Ok (table (fun b => f b ++ flat_map (contrib b) (zrange lo (lo + fold_right Z.add 0 sizes)))).
  Proof.
    induction sizes as [|n sizes IH]; intros lo f Hs Hlo Hle; cbn [chunk_bounds rmapM fold_right].
    - cbn [rbind merge_threads]. f_equal. apply table_ext. intros. now rewrite zrange_nil, app_nil_r by lia.
    - inversion Hs as [|? ? Hn Hs']; subst. cbn [fold_right] in Hle.
      assert (Hsum : 0 <= fold_right Z.add 0 sizes). { clear - Hs'. induction Hs'; cbn [fold_right]; lia. }
      rewrite thread_result_ok by lia. cbn [rbind].
      specialize (IH (lo + n) (fun b => f b ++ flat_map (contrib b) (zrange lo (lo + n))) Hs' ltac:(lia) ltac:(lia)).
      destruct (rmapM _ (chunk_bounds (lo + n) sizes)) as [ts| |]; cbn [rbind] in *; try discriminate.
      cbn [merge_threads]. rewrite merge_one. cbn [rbind]. rewrite IH. f_equal. apply table_ext. intros b Hb.
      rewrite <- app_assoc, <- flat_map_app. rewrite <- zrange_app by lia. now rewrite Z.add_assoc.
  Qed.
  Lemma hash_simple_ok too sizes : too (zlen inputs) nb = false -> division (zlen inputs) sizes ->
    hash_simple aes too h sizes inputs nb = Ok (map (simple_bucket place num inputs) (zrange 0 nb)).
  Proof.
    intros Ht [H1 H2]. unfold hash_simple. replace (nb <=? 0) with false by lia. rewrite Ht, hash_ok. cbn [rbind].
    rewrite table_nil, threads_ok by (auto; lia). f_equal. apply table_ext. intros b Hb. now rewrite Z.add_0_l, H2.
  Qed.

  (** ** Cuckoo hashing *)
  Notation n := (zlen inputs).
  Notation full := (fun x => negb (x =? -1)).

  Lemma perm_list_set {A} (d : A) l i a : 0 <= i < zlen l -> Permutation (a :: l) (znth d l i :: list_set l (Z.to_nat i) a).
  Proof.
    intro H. unfold znth. replace (i <? 0) with false by lia. unfold zlen in H.
    assert (Hi : (Z.to_nat i < List.length l)%nat) by lia. clear H. revert Hi. generalize (Z.to_nat i). clear i.
    induction l as [|x l IH]; intros [|k] Hk; cbn in *; try lia.
    - apply perm_swap.
    - rewrite perm_swap. rewrite (IH k) by lia. apply perm_swap.
  Qed.
  Lemma perm_filter {A} (p : A -> bool) l l' : Permutation l l' -> Permutation (filter p l) (filter p l').
  Proof.
    induction 1; cbn [filter]; auto.
    - destruct (p x); auto.
    - destruct (p x), (p y); auto. apply perm_swap.
    - now transitivity (filter p l').
  Qed.

  Definition ok_state (P buckets next : list Z) : Prop :=
    zlen buckets = nb /\ zlen next = nb /\
    (forall b, 0 <= b < nb -> 0 <= znth 0 next b < num) /\
    Permutation (filter full buckets) P /\
    (forall b, 0 <= b < nb -> znth 0 buckets b = -1 \/
       0 <= znth 0 buckets b < n /\ exists j, 0 <= j < num /\ place j (znth 0%N inputs (znth 0 buckets b)) = b).

  Lemma insert_ok fuel : forall cur hf P buckets next,
    0 <= cur < n -> 0 <= hf < num -> ok_state P buckets next ->
    (exists b' n', insert h (map row inputs) fuel cur hf buckets next = Ok (b', n') /\ ok_state (cur :: P) b' n') \/
    insert h (map row inputs) fuel cur hf buckets next = Err (internal_error exhausted).
  Proof.
    induction fuel as [|fuel IH]; intros cur hf P buckets next Hc Hh H; cbn [insert].
    - right. reflexivity.
    - destruct H as (H1 & H2 & H3 & H4 & H5).
      rewrite (zget_ok []) by (rewrite zlen_hashes; lia). cbn [rbind]. rewrite znth_hashes by lia.
      rewrite (zget_ok 0) by (rewrite zlen_row; lia). cbn [rbind]. rewrite znth_row by lia.
      set (idx := place hf (znth 0%N inputs cur)). assert (Hidx : 0 <= idx < nb) by apply place_range.
      rewrite (zget_ok 0 buckets) by lia. cbn [rbind]. set (there := znth 0 buckets idx).
      assert (Hset : Permutation (cur :: filter full buckets)
        (if there =? -1 then filter full (list_set buckets (Z.to_nat idx) cur) else there :: filter full (list_set buckets (Z.to_nat idx) cur))).
      { pose proof (perm_filter full _ _ (perm_list_set 0 buckets idx cur ltac:(lia))) as Hp. fold there in Hp.
        cbn [filter] in Hp. replace (cur =? -1) with false in Hp by lia. cbn [negb] in Hp.
        destruct (there =? -1); exact Hp. }
      assert (Hpos : forall b, 0 <= b < nb -> znth 0 (list_set buckets (Z.to_nat idx) cur) b = -1 \/
        0 <= znth 0 (list_set buckets (Z.to_nat idx) cur) b < n /\
        exists j, 0 <= j < num /\ place j (znth 0%N inputs (znth 0 (list_set buckets (Z.to_nat idx) cur) b)) = b).
      { intros b Hb. rewrite znth_list_set by lia. destruct (Z.eqb_spec idx b) as [<-|]; [|auto].
        right. split; [auto|]. exists hf. split; auto. }
      destruct (there =? -1) eqn:Et.
      + rewrite zset_ok by lia. cbn [rbind]. left. do 2 eexists. split; [reflexivity|].
        split; [now rewrite zlen_list_set|]. split; [auto|]. split; [auto|]. split; [|exact Hpos].
        rewrite <- Hset. now rewrite H4.
      + rewrite zset_ok by lia. cbn [rbind]. rewrite (zget_ok 0 next) by lia. cbn [rbind].
        rewrite zset_ok by lia. cbn [rbind].
        assert (Hthere : 0 <= there < n) by (destruct (H5 idx Hidx) as [E|[E _]]; unfold there in *; lia).
        destruct (IH there (znth 0 next idx) (filter full (list_set buckets (Z.to_nat idx) cur))
           (list_set buckets (Z.to_nat idx) cur) (list_set next (Z.to_nat idx) (Z.rem (hf + 1) num)))
          as [(b' & n' & E & Hok)|E]; auto.
        * split; [now rewrite zlen_list_set|]. split; [now rewrite zlen_list_set|]. split; [|split; [auto|exact Hpos]].
          intros b Hb. rewrite znth_list_set by lia. destruct (idx =? b); [|auto].
          rewrite Z.rem_mod_nonneg by lia. apply Z.mod_pos_bound. lia.
        * left. exists b', n'. split; [exact E|]. destruct Hok as (K1 & K2 & K3 & K4 & K5).
          repeat split; auto; try apply K3; auto. rewrite K4, <- Hset. now rewrite H4.
  Qed.

  Lemma init_state : ok_state [] (zrepeat (-1) nb) (zrepeat 0 nb).
  Proof.
    split; [apply zlen_zrepeat; lia|]. split; [apply zlen_zrepeat; lia|]. split; [|split].
    - intros b Hb. rewrite znth_zrepeat by lia. lia.
    - unfold zrepeat. induction (Z.to_nat nb); cbn; auto.
    - intros b Hb. rewrite znth_zrepeat by lia. auto.
  Qed.

  Lemma insert_all k : 0 <= k <= n ->
    (exists b' n', for_range 0 k (fun i '(buckets, next_hash_function) =>
      insert h (map row inputs) (List.length inputs) i 0 buckets next_hash_function)
      (zrepeat (-1) nb, zrepeat 0 nb) = Ok (b', n') /\ ok_state (rev (zrange 0 k)) b' n') \/
    for_range 0 k (fun i '(buckets, next_hash_function) =>
      insert h (map row inputs) (List.length inputs) i 0 buckets next_hash_function)
      (zrepeat (-1) nb, zrepeat 0 nb) = Err (internal_error exhausted).
  Proof.
    intros [Hk0 Hk]. revert Hk. pattern k. revert k Hk0. apply natlike_ind.
    - intros _. left. do 2 eexists. split; [reflexivity|]. apply init_state.
    - intros k Hk IH Hle. replace (Z.succ k) with (k + 1) by lia. rewrite for_range_last by lia.
      destruct IH as [(b' & n' & E & Hok)|E]; [lia| |]; rewrite E; cbn [rbind].
      + rewrite zrange_snoc by lia. rewrite rev_app_distr. cbn [rev app].
        apply insert_ok; auto; lia.
      + right. reflexivity.
  Qed.

  Lemma unique_slot (l : list Z) a b : NoDup (filter full l) -> 0 <= a < zlen l -> 0 <= b < zlen l ->
    znth 0 l a = znth 0 l b -> znth 0 l a <> -1 -> a = b.
  Proof.
    intros Hd Ha Hb E Hf. unfold znth in *. replace (a <? 0) with false in * by lia. replace (b <? 0) with false in * by lia.
    unfold zlen in *. assert (Z.to_nat a = Z.to_nat b); [|lia].
    assert (Ha' : (Z.to_nat a < List.length l)%nat) by lia. assert (Hb' : (Z.to_nat b < List.length l)%nat) by lia.
    revert Hd Ha' Hb' E Hf. generalize (Z.to_nat a) (Z.to_nat b). clear.
    induction l as [|x l IH]; intros [|a] [|b] Hd Ha Hb E Hf; cbn in *; try lia.
    - exfalso. subst x. replace (nth b l 0 =? -1) with false in Hd by lia. cbn in Hd. inversion Hd; subst.
      apply H1. apply filter_In. split; [apply nth_In; lia|lia].
    - exfalso. subst x. replace (nth a l 0 =? -1) with false in Hd by lia. cbn in Hd. inversion Hd; subst.
      apply H1. apply filter_In. split; [apply nth_In; lia|lia].
    - f_equal. apply IH; auto; try lia. destruct (negb (x =? -1)); auto. now inversion Hd.
  Qed.

  Lemma NoDup_zrange lo hi : NoDup (zrange lo hi).
  Proof.
    unfold zrange. generalize (Z.to_nat (hi - lo)). intro k. revert lo. induction k; intro lo; cbn [zseq]; constructor; auto.
    rewrite In_zseq. lia.
  Qed.

  Lemma final_placement b' n' : ok_state (rev (zrange 0 n)) b' n' -> placement place num inputs nb b'.
  Proof.
    intros (H1 & H2 & H3 & H4 & H5). pose proof (zlen_nonneg inputs) as Hn. split; [auto|]. split; [|exact H5].
    assert (Hp : Permutation (filter full b') (zrange 0 n)) by (rewrite H4; symmetry; apply Permutation_rev).
    assert (Hd : NoDup (filter full b')) by (eapply Permutation_NoDup; [symmetry; exact Hp|apply NoDup_zrange]).
    intros i Hi. assert (Hin : In i (filter full b')) by (eapply Permutation_in; [symmetry; exact Hp|apply In_zrange; lia]).
    apply filter_In in Hin. destruct Hin as [Hin _]. apply (In_nth _ _ 0) in Hin. destruct Hin as (k & Hk & E).
    assert (Ek : znth 0 b' (Z.of_nat k) = i). { unfold znth. replace (Z.of_nat k <? 0) with false by lia. now rewrite Nat2Z.id. }
    exists (Z.of_nat k). split; [split; [unfold zlen in H1; lia|exact Ek]|].
    intros b (Hb & Eb). apply (unique_slot b'); auto; try (unfold zlen in *; lia).
  Qed.

  Lemma hash_cuckoo_cases too : num <> 1 -> n <= nb -> too n nb = false ->
    (exists buckets, hash_cuckoo aes too h inputs nb = Ok buckets /\ placement place num inputs nb buckets) \/
    hash_cuckoo aes too h inputs nb = Err (internal_error exhausted).
  Proof.
    intros H1 H2 H3. unfold hash_cuckoo. replace (num =? 1) with false by lia. replace (nb <=? 0) with false by lia.
    replace (nb <? n) with false by lia. rewrite H3, hash_ok. cbn [rbind].
    pose proof (zlen_nonneg inputs). destruct (insert_all n) as [(b' & n' & E & Hok)|E]; [lia| |].
    - left. exists b'. rewrite E. cbn [rbind]. split; auto. eapply final_placement; eauto.
    - right. rewrite E. reflexivity.
  Qed.

  Lemma hash_cuckoo_perm too buckets : num <> 1 -> n <= nb -> too n nb = false ->
    hash_cuckoo aes too h inputs nb = Ok buckets -> Permutation (filter full buckets) (zrange 0 n).
  Proof.
    intros H1 H2 H3. unfold hash_cuckoo. replace (num =? 1) with false by lia. replace (nb <=? 0) with false by lia.
    replace (nb <? n) with false by lia. rewrite H3, hash_ok. cbn [rbind].
    pose proof (zlen_nonneg inputs). destruct (insert_all n) as [(b' & n' & E & Hok)|E]; [lia| |]; rewrite E; cbn [rbind]; [|discriminate].
    intro E'. injection E' as <-. destruct Hok as (_ & _ & _ & Hp & _). rewrite Hp. symmetry. apply Permutation_rev.
  Qed.
End Hash.
