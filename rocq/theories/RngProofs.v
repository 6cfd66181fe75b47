(** Proofs about the random generator. *)
From Verif Require Import Base BaseFacts ListFacts RngModel RngSpec.
Local Open Scope Z_scope.

Section Facts.
  Variable aes : N -> N -> N.

  Lemma nonces_ok nonce n : 0 <= n -> (nonce < 2^128)%N ->
    rng_nonces nonce n =
      Ok (map (fun i => (nonce + Z.to_N i) mod 2^128)%N (zrange 0 n), ((nonce + Z.to_N n) mod 2^128)%N).
  Proof.
    intros Hn Hlt. unfold rng_nonces.
    set (body := fun (i : Z) (p : list N * N) => _).
    destruct (for_range_inv (fun i '(l, x) => zlen l = n /\ x = ((nonce + Z.to_N i) mod 2^128)%N /\
       forall k, 0 <= k < i -> znth 0%N l k = ((nonce + Z.to_N k) mod 2^128)%N)
       0 n body (zrepeat 0%N n, nonce)) as ((l & x) & E & Hl & Hx & Hk).
    - auto.
    - repeat split; [apply zlen_zrepeat; auto| |intros; lia]. rewrite N.add_0_r, N.mod_small; auto.
    - intros i (l & x) Hi (Hl & Hx & Hk). unfold body. rewrite zset_ok by lia. cbn [rbind].
      eexists. split; [reflexivity|]. cbn. split; [now rewrite zlen_list_set|]. split.
      + subst x. rewrite N.add_mod_idemp_l by discriminate. f_equal. lia.
      + intros k Hk'. rewrite znth_list_set by lia. destruct (i =? k) eqn:Ek.
        * now replace k with i by lia.
        * apply Hk. lia.
    - rewrite E. subst x. f_equal. f_equal. apply (znth_ext 0%N).
      + rewrite zlen_map, zlen_zrange; lia.
      + intros k Hk'. rewrite Hk by lia. rewrite (znth_map _ 0) by (rewrite zlen_zrange; lia).
        now rewrite znth_zrange by lia.
  Qed.

  Lemma fill_ok key nonces n buf : 0 <= n -> zlen nonces = n -> 2 * n <= zlen buf ->
    exists r, rng_fill aes key nonces n buf = Ok r /\ zlen r = zlen buf /\
      (forall k, 0 <= k < 2 * n -> znth 0%N r k =
         let c := aes key (znth 0%N nonces (k / 2)) in if Z.even k then (c mod 2^64)%N else ((c / 2^64) mod 2^64)%N) /\
      (forall k, 2 * n <= k < zlen buf -> znth 0%N r k = znth 0%N buf k).
  Proof.
    intros Hn Hl Hb. unfold rng_fill.
    set (body := fun (i : Z) (buffer : list N) => _).
    destruct (for_range_inv (fun i r => zlen r = zlen buf /\
      (forall k, 0 <= k < 2 * i -> znth 0%N r k =
         let c := aes key (znth 0%N nonces (k / 2)) in if Z.even k then (c mod 2^64)%N else ((c / 2^64) mod 2^64)%N) /\
      (forall k, 2 * i <= k < zlen buf -> znth 0%N r k = znth 0%N buf k)) 0 n body buf) as (r & E & H).
    - auto.
    - repeat split; auto. intros; lia.
    - intros i r Hi (H1 & H2 & H3). unfold body. rewrite (zget_ok 0%N) by lia. cbn [rbind].
      rewrite zset_ok by lia. cbn [rbind]. rewrite zset_ok by (rewrite zlen_list_set; lia).
      eexists. split; [reflexivity|]. split; [now rewrite !zlen_list_set|]. split.
      + intros k Hk. rewrite znth_list_set by (rewrite zlen_list_set; lia). destruct (2 * i + 1 =? k) eqn:E1.
        * replace k with (2 * i + 1) by lia. replace ((2 * i + 1) / 2) with i by (Z.div_mod_to_equations; lia).
          cbv zeta. rewrite Z.even_add, Z.even_mul. reflexivity.
        * rewrite znth_list_set by lia. destruct (2 * i =? k) eqn:E2.
          -- replace k with (2 * i) by lia. replace ((2 * i) / 2) with i by (Z.div_mod_to_equations; lia).
             cbv zeta. rewrite Z.even_mul. reflexivity.
          -- apply H2. lia.
      + intros k Hk. rewrite znth_list_set by (rewrite zlen_list_set; lia).
        replace (2 * i + 1 =? k) with false by lia. rewrite znth_list_set by lia.
        replace (2 * i =? k) with false by lia. apply H3. lia.
    - exists r. split; [auto|]. exact H.
  Qed.

  Variable seed : list N.
  Variable b : Z.
  Hypothesis Hb : 2 <= b.
  Hypothesis Hseed : Forall (fun x => x < 256)%N seed.
  Hypothesis Hlen : 32 <= zlen seed.

  Lemma le_bytes_lt l : Forall (fun x => x < 256)%N l -> (le_bytes l < 256 ^ N.of_nat (List.length l))%N.
  Proof.
    induction l as [|x l IH]; intro H; [reflexivity|]. inversion H; subst. cbn [le_bytes List.length].
    specialize (IH H3). rewrite Nat2N.inj_succ, N.pow_succ_r'. nia.
  Qed.
  Lemma Forall_firstn {A} (P : A -> Prop) n l : Forall P l -> Forall P (firstn n l).
  Proof. revert n. induction l; intros [|n] H; cbn; auto. inversion H; subst. auto. Qed.
  Lemma Forall_skipn {A} (P : A -> Prop) n l : Forall P l -> Forall P (skipn n l).
  Proof. revert n. induction l; intros [|n] H; cbn; auto. inversion H; subst. auto. Qed.
  Lemma nonce_lt : (seed_nonce seed < 2^128)%N.
  Proof.
    unfold seed_nonce. pose proof (le_bytes_lt _ (Forall_firstn _ 16 _ (Forall_skipn _ 16 _ Hseed))) as H.
    rewrite firstn_length, skipn_length in H. unfold zlen in Hlen.
    replace (Nat.min 16 (List.length seed - 16)) with 16%nat in H by lia. exact H.
  Qed.

  Notation h := (b / 2).
  Notation e := (2 * (b / 2)).
  Let key := seed_key seed.
  Let nonce := seed_nonce seed.
  (** Element [k] of the buffer after the refill with number [q] (from 0). *)
  Definition word (q k : Z) : N := if k <? e then ctr_word aes key nonce (q * e + k) else 0%N.

  (** The state after [q] refills with [k] elements used. *)
  Definition repr (q k : Z) (g : rng) : Prop :=
    zlen (r_buffer g) = b /\ r_elements_used g = k /\ r_nonce g = ((nonce + Z.to_N (q * h)) mod 2^128)%N /\
    r_counter g = q * h /\ r_key g = key /\ (e < b -> znth 0%N (r_buffer g) (b - 1) = 0%N) /\
    (0 < q -> forall i, 0 <= i < b -> znth 0%N (r_buffer g) i = word (q - 1) i).

  Lemma take_ok q k g : 0 < q -> 0 <= k < b -> repr q k g ->
    exists g', rng_take g = Ok (g', Value (word (q - 1) k)) /\ repr q (k + 1) g'.
  Proof.
    intros Hq Hk (H1 & H2 & H3 & H4 & H5 & H6 & H7). unfold rng_take. rewrite H2.
    rewrite (zget_ok 0%N) by lia. cbn [rbind]. rewrite H7 by auto.
    eexists. split; [reflexivity|]. repeat split; cbn; auto.
  Qed.
  Lemma next_take q k g : 0 < q -> 0 <= k < b -> repr q k g ->
    exists g', rng_next aes g = Ok (g', Value (word (q - 1) k)) /\ repr q (k + 1) g'.
  Proof.
    intros Hq Hk H. unfold rng_next. pose proof H as (H1 & H2 & _).
    rewrite H1, H2. replace (b <=? k) with false by lia. apply take_ok; auto.
  Qed.
  Lemma next_refill q g : 0 <= q -> repr q b g -> (q + 1) * h < 2^63 ->
    exists g', repr (q + 1) 0 g' /\
      rng_next aes g = if 2^48 <? (q + 1) * h then Ok (g', Throw) else rng_take g'.
  Proof.
    intros Hq (H1 & H2 & H3 & H4 & H5 & H6 & H7) Hc. unfold rng_next. rewrite H1, H2.
    replace (b <=? b) with true by lia. rewrite Z.quot_div_nonneg by lia.
    assert (Hh : 1 <= h) by (apply Z.div_le_lower_bound; lia).
    assert (He : e <= b) by (apply Z.mul_div_le; lia).
    assert (Hn : (r_nonce g < 2^128)%N) by (rewrite H3; apply N.mod_lt; discriminate).
    rewrite nonces_ok by (auto; lia). cbn [rbind].
    set (ns := map _ (zrange 0 h)).
    assert (Hns : zlen ns = h) by (unfold ns; rewrite zlen_map, zlen_zrange; lia).
    destruct (fill_ok (r_key g) ns h (r_buffer g)) as (r & E & Hr & F1 & F2); [lia|auto|lia|].
    rewrite E. cbn [rbind]. rewrite H4. replace (q * h + h) with ((q + 1) * h) by lia.
    replace (2^63 <=? (q + 1) * h) with false by lia. unfold kReseedInterval.
    exists (Rng r 0 ((r_nonce g + Z.to_N h) mod 2^128)%N ((q + 1) * h) (r_key g)). split; [|reflexivity].
    unfold repr. cbn [r_buffer r_elements_used r_nonce r_counter r_key].
    split; [lia|]. split; [auto|]. split; [|split; [auto|split; [auto|split]]].
    - rewrite H3, N.add_mod_idemp_l by discriminate. f_equal. nia.
    - intro Hodd. rewrite F2 by lia. auto.
    - intros _ i Hi. replace (q + 1 - 1) with q by lia. unfold word. destruct (i <? e) eqn:Ei.
      + rewrite F1 by lia. cbv zeta. unfold ns. rewrite (znth_map _ 0).
        2:{ rewrite zlen_zrange; [|lia]. split; [apply Z.div_pos; lia|]. apply Z.lt_le_trans with h; [|lia].
            apply Z.div_lt_upper_bound; lia. }
        rewrite znth_zrange. 2:{ split; [apply Z.div_pos; lia|]. rewrite Z.sub_0_r. apply Z.div_lt_upper_bound; lia. }
        unfold ctr_word. rewrite H3, H5.
        rewrite N.add_mod_idemp_l by discriminate.
        replace ((q * e + i) / 2) with (q * h + i / 2).
        2:{ replace (q * e + i) with (i + (q * h) * 2) by lia. rewrite Z.div_add by lia. lia. }
        replace (Z.even (q * e + i)) with (Z.even i).
        2:{ rewrite Z.even_add, !Z.even_mul. cbn [Z.even orb]. rewrite Bool.orb_true_r. now destruct (Z.even i). }
        assert (0 <= i / 2) by (apply Z.div_pos; lia).
        replace (Z.to_N (q * h + i / 2)) with (Z.to_N (q * h) + Z.to_N (0 + i / 2))%N by nia.
        rewrite N.add_assoc. reflexivity.
      + rewrite F2 by lia. replace i with (b - 1); [apply H6; lia|].
        assert (b - e < 2) by (pose proof (Z.div_mod b 2); pose proof (Z.mod_pos_bound b 2); lia). lia.
  Qed.

  Lemma run_app ops1 ops2 g : rng_run aes g (ops1 ++ ops2) = rng_run aes (rng_run aes g ops1) ops2.
  Proof. revert g. induction ops1; intro g; cbn; auto. Qed.
  Definition nexts (n : Z) (g : rng) : rng := rng_run aes g (repeat OpNext (Z.to_nat n)).
  Lemma nexts_add m n g : 0 <= m -> 0 <= n -> nexts (m + n) g = nexts n (nexts m g).
  Proof. intros. unfold nexts. rewrite Z2Nat.inj_add, repeat_app, run_app by lia. reflexivity. Qed.
  Lemma nexts_1 g : nexts 1 g = fst (rng_do aes g OpNext).
  Proof. reflexivity. Qed.

  Lemma do_next g g' o : rng_next aes g = Ok (g', o) -> rng_do aes g OpNext = (g', ObsNext o).
  Proof. intro E. cbn. now rewrite E. Qed.

  Lemma nexts_take q j n g : 0 < q -> 0 <= j -> 0 <= n -> j + n <= b -> repr q j g -> repr q (j + n) (nexts n g).
  Proof.
    intros Hq Hj Hn. revert n Hn. apply (natlike_ind (fun n => j + n <= b -> repr q j g -> repr q (j + n) (nexts n g))).
    - intros _ H. rewrite Z.add_0_r. exact H.
    - intros n Hn IH Hle H. replace (Z.succ n) with (n + 1) by lia. rewrite nexts_add, nexts_1 by lia.
      destruct (next_take q (j + n) (nexts n g)) as (g' & E & H'); auto; [lia|apply IH; auto; lia|].
      erewrite do_next by exact E. cbn [fst]. now rewrite Z.add_assoc.
  Qed.

  Lemma one_refill q j g : 0 <= q -> (q + 1) * h <= 2^48 -> 1 <= j <= b -> repr q b g -> repr (q + 1) j (nexts j g).
  Proof.
    intros Hq Hc Hj H. replace j with (1 + (j - 1)) at 2 by lia. rewrite nexts_add, nexts_1 by lia.
    destruct (next_refill q g) as (g1 & H1 & E); [auto|auto|lia|].
    replace (2^48 <? (q + 1) * h) with false in E by lia.
    destruct (take_ok (q + 1) 0 g1) as (g2 & E2 & H2); [lia|lia|auto|]. rewrite E2 in E.
    erewrite do_next by exact E. cbn [fst]. replace j with (0 + 1 + (j - 1)) at 1 by lia.
    apply nexts_take; auto; lia.
  Qed.
  Lemma before_limit q g : 0 <= q -> q * h <= 2^48 -> repr 0 b g -> repr q b (nexts (q * b) g).
  Proof.
    intros Hq. revert q Hq. apply (natlike_ind (fun q => q * h <= 2^48 -> repr 0 b g -> repr q b (nexts (q * b) g))).
    - auto.
    - intros q Hq IH Hc H. replace (Z.succ q * b) with (q * b + b) by lia. rewrite nexts_add by nia.
      assert (0 <= h) by (apply Z.div_pos; lia).
      replace (Z.succ q) with (q + 1) in * by lia. apply one_refill; auto; try lia. apply IH; auto. nia.
  Qed.
  Lemma one_throw q j g : 0 <= q -> 2^48 < (q + 1) * h < 2^63 -> 1 <= j <= b + 1 -> repr q b g -> repr (q + 1) (j - 1) (nexts j g).
  Proof.
    intros Hq Hc Hj H. replace j with (1 + (j - 1)) at 2 by lia. rewrite nexts_add, nexts_1 by lia.
    destruct (next_refill q g) as (g1 & H1 & E); [auto|auto|lia|].
    replace (2^48 <? (q + 1) * h) with true in E by lia.
    erewrite do_next by exact E. cbn [fst]. replace (j - 1) with (0 + (j - 1)) at 1 by lia.
    apply nexts_take; auto; lia.
  Qed.
  Lemma after_limit R i g : 0 <= R -> 2^48 < (R + 1) * h -> 0 <= i -> (R + i) * h < 2^63 -> repr R b g ->
    repr (R + i) b (nexts (i * (b + 1)) g).
  Proof.
    intros HR Hc Hi. revert i Hi.
    apply (natlike_ind (fun i => (R + i) * h < 2^63 -> repr R b g -> repr (R + i) b (nexts (i * (b + 1)) g))).
    - intros _ H. rewrite Z.add_0_r. exact H.
    - intros i Hi IH Hc2 H. replace (Z.succ i * (b + 1)) with (i * (b + 1) + (b + 1)) by lia. rewrite nexts_add by nia.
      assert (0 <= h) by (apply Z.div_pos; lia).
      replace (R + Z.succ i) with (R + i + 1) in * by lia. replace b with (b + 1 - 1) at 1 by lia.
      assert (Hq : repr (R + i) b (nexts (i * (b + 1)) g)) by (apply IH; [nia|auto]).
      assert (Hl2 : 2^48 < (R + i + 1) * h) by nia.
      apply one_throw; [lia|lia|lia|exact Hq].
  Qed.

  Lemma create_ok bs : b = Z.max 2 bs -> exists g, rng_create seed bs = Ok g /\ repr 0 b g.
  Proof.
    intro E. unfold rng_create. replace (if bs <? 2 then 2 else bs) with b by (destruct (bs <? 2) eqn:?; lia).
    unfold rng_seed, kStateSize. replace (zlen seed <? 32) with false by lia.
    eexists. split; [reflexivity|]. unfold repr, rng_new. cbn [r_buffer r_elements_used r_nonce r_counter r_key].
    rewrite zlen_zrepeat by lia. repeat split; auto.
    - rewrite Z.mul_0_l, N.add_0_r, N.mod_small; [reflexivity|]. apply nonce_lt.
    - intros _. apply znth_zrepeat. lia.
    - intro. lia.
  Qed.

  (** The call with number [n]: refill and position, before the limit. *)
  Lemma output_before bs n : b = Z.max 2 bs -> 0 <= n < 2^48 / h * b ->
    rng_output aes seed bs n = Some (ObsNext (Value (word (n / b) (n mod b)))).
  Proof.
    intros Eb Hn. destruct (create_ok bs Eb) as (g & E & Hg). unfold rng_output. rewrite E. f_equal.
    change (rng_run aes g (repeat OpNext (Z.to_nat n))) with (nexts n g).
    assert (Hh : 1 <= h) by (apply Z.div_le_lower_bound; lia).
    pose proof (Z.div_mod n b). pose proof (Z.mod_pos_bound n b). set (q := n / b) in *. set (j := n mod b) in *.
    assert (Hq : 0 <= q) by (apply Z.div_pos; lia).
    assert (HqR : (q + 1) * h <= 2^48).
    { assert (q < 2^48 / h) by (apply Z.div_lt_upper_bound; lia). pose proof (Z.mul_div_le (2^48) h). nia. }
    replace n with (q * b + j) by lia. rewrite nexts_add by nia.
    assert (Hr : repr q b (nexts (q * b) g)) by (apply before_limit; auto; nia).
    destruct (Z.eq_dec j 0) as [->|Hj].
    - change (nexts 0 (nexts (q * b) g)) with (nexts (q * b) g).
      destruct (next_refill q _ Hq Hr) as (g1 & H1 & E1); [lia|].
      replace (2^48 <? (q + 1) * h) with false in E1 by lia.
      destruct (take_ok (q + 1) 0 g1) as (g2 & E2 & H2); [lia|lia|auto|]. rewrite E2 in E1.
      erewrite do_next by exact E1. cbn [snd]. now replace (q + 1 - 1) with q by lia.
    - destruct (next_take (q + 1) j (nexts j (nexts (q * b) g))) as (g2 & E2 & H2); [lia|lia|apply one_refill; auto; lia|].
      erewrite do_next by exact E2. cbn [snd]. now replace (q + 1 - 1) with q by lia.
  Qed.

  (** The [m]-th call after the limit. *)
  Lemma output_after bs m : b = Z.max 2 bs -> 0 <= m -> (2^48 / h + m / (b + 1) + 1) * h < 2^63 ->
    rng_output aes seed bs (2^48 / h * b + m) = Some (ObsNext
      (if m mod (b + 1) =? 0 then Throw else Value (word (2^48 / h + m / (b + 1)) (m mod (b + 1) - 1)))).
  Proof.
    intros Eb Hm Hc. destruct (create_ok bs Eb) as (g & E & Hg). unfold rng_output. rewrite E. f_equal.
    assert (Hh : 1 <= h) by (apply Z.div_le_lower_bound; lia).
    pose proof (Z.div_mod m (b + 1)). pose proof (Z.mod_pos_bound m (b + 1)).
    set (i := m / (b + 1)) in *. set (j := m mod (b + 1)) in *.
    assert (Hi : 0 <= i) by (apply Z.div_pos; lia).
    pose proof (Z.div_mod (2^48) h). pose proof (Z.mod_pos_bound (2^48) h).
    assert (HR : 0 <= 2^48 / h) by (apply Z.div_pos; lia).
    set (R := 2^48 / h) in *. clearbody R.
    change (rng_run aes g (repeat OpNext (Z.to_nat (R * b + m)))) with (nexts (R * b + m) g).
    replace (R * b + m) with (R * b + (i * (b + 1) + j)) by lia. rewrite !nexts_add by nia.
    assert (Hr : repr R b (nexts (R * b) g)) by (apply before_limit; auto; nia).
    assert (Hr2 : repr (R + i) b (nexts (i * (b + 1)) (nexts (R * b) g))) by (apply after_limit; auto; nia).
    set (g0 := nexts (i * (b + 1)) (nexts (R * b) g)) in *. clearbody g0.
    assert (Hlim : 2^48 < (R + i + 1) * h) by nia.
    destruct (j =? 0) eqn:Ej.
    - replace j with 0 by lia. change (nexts 0 g0) with g0.
      destruct (next_refill (R + i) _ ltac:(lia) Hr2) as (g1 & H3 & E1); [lia|].
      replace (2^48 <? (R + i + 1) * h) with true in E1 by lia.
      erewrite do_next by exact E1. reflexivity.
    - destruct (next_take (R + i + 1) (j - 1) (nexts j g0)) as (g2 & E2 & H3); [lia|lia|apply one_throw; auto; lia|].
      erewrite do_next by exact E2. cbn [snd]. now replace (R + i + 1 - 1) with (R + i) by lia.
  Qed.
End Facts.

(** ** Reseeding *)
Section Reseed.
  Variable aes : N -> N -> N.

  (** Same key, nonce, counters, size; same elements where they can still be
      read; and, for odd sizes, the same last element. *)
  Definition sim (g1 g2 : rng) : Prop :=
    zlen (r_buffer g1) = zlen (r_buffer g2) /\ r_elements_used g1 = r_elements_used g2 /\
    r_nonce g1 = r_nonce g2 /\ r_counter g1 = r_counter g2 /\ r_key g1 = r_key g2 /\
    (2 * (zlen (r_buffer g1) / 2) < zlen (r_buffer g1) ->
       znth 0%N (r_buffer g1) (zlen (r_buffer g1) - 1) = znth 0%N (r_buffer g2) (zlen (r_buffer g1) - 1)) /\
    (r_elements_used g1 < zlen (r_buffer g1) -> r_buffer g1 = r_buffer g2).

  Lemma nonces_len nonce n : 0 <= n -> exists ns x, rng_nonces nonce n = Ok (ns, x) /\ zlen ns = n.
  Proof.
    intro Hn. unfold rng_nonces. set (body := fun (i : Z) (p : list N * N) => _).
    destruct (for_range_inv (fun _ '(l, _) => zlen l = n) 0 n body (zrepeat 0%N n, nonce)) as ((l & x) & E & Hl); auto.
    - now apply zlen_zrepeat.
    - intros i (l & x) Hi Hl. unfold body. rewrite zset_ok by lia. cbn [rbind].
      eexists. split; [reflexivity|]. cbn. now rewrite zlen_list_set.
    - eauto.
  Qed.

  (** A refill computes the same buffer from similar states. *)
  Lemma fill_sim key ns b1 b2 : zlen b1 = zlen b2 -> zlen ns = zlen b1 / 2 ->
    (2 * (zlen b1 / 2) < zlen b1 -> znth 0%N b1 (zlen b1 - 1) = znth 0%N b2 (zlen b1 - 1)) ->
    exists r, rng_fill aes key ns (zlen b1 / 2) b1 = Ok r /\ rng_fill aes key ns (zlen b1 / 2) b2 = Ok r /\ zlen r = zlen b1 /\
      (2 * (zlen b1 / 2) < zlen b1 -> znth 0%N r (zlen b1 - 1) = znth 0%N b1 (zlen b1 - 1)).
  Proof.
    intros Hl Hn Hlast. pose proof (zlen_nonneg b1).
    assert (0 <= zlen b1 / 2) by (apply Z.div_pos; lia).
    pose proof (Z.div_mod (zlen b1) 2). pose proof (Z.mod_pos_bound (zlen b1) 2).
    destruct (fill_ok aes key ns (zlen b1 / 2) b1) as (r1 & E1 & L1 & A1 & B1); auto; [lia|].
    destruct (fill_ok aes key ns (zlen b1 / 2) b2) as (r2 & E2 & L2 & A2 & B2); auto; [lia|].
    assert (r2 = r1).
    { apply (znth_ext 0%N); [lia|]. intros i Hi. destruct (Z_lt_dec i (2 * (zlen b1 / 2))).
      - rewrite A1, A2 by lia. reflexivity.
      - rewrite B1, B2 by lia. replace i with (zlen b1 - 1) by lia. symmetry. apply Hlast. lia. }
    subst r2. exists r1. repeat split; auto. intro. apply B1. lia.
  Qed.

  Lemma sim_take g1 g2 : sim g1 g2 -> r_elements_used g1 < zlen (r_buffer g1) ->
    match rng_take g1, rng_take g2 with
    | Ok (g1', o1), Ok (g2', o2) => sim g1' g2' /\ o1 = o2
    | Ok _, _ | _, Ok _ => False
    | _, _ => True
    end.
  Proof.
    intros (H1 & H2 & H3 & H4 & H5 & H6 & H7) Hu. unfold rng_take. rewrite <- H2, <- (H7 Hu).
    destruct (zget (r_buffer g1) (r_elements_used g1)); cbn [rbind]; auto. split; auto.
    unfold sim; cbn [r_buffer r_elements_used r_nonce r_counter r_key]. repeat split; auto.
  Qed.

  Lemma sim_next g1 g2 : sim g1 g2 ->
    match rng_next aes g1, rng_next aes g2 with
    | Ok (g1', o1), Ok (g2', o2) => sim g1' g2' /\ o1 = o2
    | Ok _, _ | _, Ok _ => False
    | _, _ => True
    end.
  Proof.
    intros H. pose proof H as (H1 & H2 & H3 & H4 & H5 & H6 & H7). unfold rng_next. rewrite <- H1, <- H2, <- H3, <- H4, <- H5.
    pose proof (zlen_nonneg (r_buffer g1)).
    destruct (zlen (r_buffer g1) <=? r_elements_used g1) eqn:E.
    - rewrite Z.quot_div_nonneg by lia.
      destruct (nonces_len (r_nonce g1) (zlen (r_buffer g1) / 2)) as (ns & x & En & Hn); [apply Z.div_pos; lia|].
      rewrite En. cbn [rbind].
      destruct (fill_sim (r_key g1) ns (r_buffer g1) (r_buffer g2)) as (r & E1 & E2 & Hr & Hlast); auto.
      rewrite E1, E2. cbn [rbind]. destruct (2^63 <=? _); auto.
      set (g := Rng r 0 x _ _). assert (Hg : sim g g) by (unfold sim; repeat split; auto).
      destruct (kReseedInterval <? _); [split; auto|].
      destruct (rng_take g) as [[g' o]| |]; auto.
      split; auto. unfold sim; repeat split; auto.
    - apply sim_take; auto. lia.
  Qed.

  Lemma sim_do g1 g2 op : sim g1 g2 ->
    sim (fst (rng_do aes g1 op)) (fst (rng_do aes g2 op)) /\ snd (rng_do aes g1 op) = snd (rng_do aes g2 op).
  Proof.
    intro H. destruct op as [s|]; cbn [rng_do].
    - unfold rng_seed. destruct (zlen s <? kStateSize); cbn [fst snd]; [auto|]. split; [|auto].
      destruct H as (H1 & H2 & H3 & H4 & H5 & H6 & H7).
      unfold sim; cbn [r_buffer r_elements_used r_nonce r_counter r_key]. repeat split; auto. lia.
    - pose proof (sim_next g1 g2 H). destruct (rng_next aes g1) as [[? ?]| |], (rng_next aes g2) as [[? ?]| |]; cbn [fst snd]; try tauto.
      destruct H0 as [? ->]. auto.
  Qed.
  Lemma sim_observe ops g1 g2 : sim g1 g2 -> rng_observe aes g1 ops = rng_observe aes g2 ops.
  Proof.
    revert g1 g2. induction ops as [|op ops IH]; intros g1 g2 H; cbn [rng_observe]; auto.
    destruct (sim_do g1 g2 op H) as [H1 ->]. f_equal. apply IH. exact H1.
  Qed.

  (** What every reachable generator with a given buffer size satisfies. *)
  Definition reach (b : Z) (g : rng) : Prop :=
    zlen (r_buffer g) = b /\ (2 * (b / 2) < b -> znth 0%N (r_buffer g) (b - 1) = 0%N).
  Lemma reach_take b g : reach b g -> forall g' o, rng_take g = Ok (g', o) -> reach b g'.
  Proof.
    intros H g' o E. unfold rng_take in E. destruct (zget _ _); cbn [rbind] in E; try discriminate.
    injection E as <- _. exact H.
  Qed.
  Lemma reach_do b g op : reach b g -> reach b (fst (rng_do aes g op)).
  Proof.
    intros H. pose proof H as [H1 H2]. destruct op as [s|]; cbn [rng_do].
    - unfold rng_seed. destruct (zlen s <? kStateSize); cbn [fst]; auto.
    - unfold rng_next. pose proof (zlen_nonneg (r_buffer g)).
      destruct (zlen (r_buffer g) <=? r_elements_used g).
      + rewrite Z.quot_div_nonneg by lia.
        destruct (nonces_len (r_nonce g) (zlen (r_buffer g) / 2)) as (ns & x & En & Hn); [apply Z.div_pos; lia|].
        rewrite En. cbn [rbind].
        destruct (fill_sim (r_key g) ns (r_buffer g) (r_buffer g)) as (r & E1 & _ & Hr & Hlast); auto.
        rewrite E1. cbn [rbind]. destruct (2^63 <=? _); cbn [fst]; auto.
        set (g' := Rng r 0 x _ _). assert (Hg : reach b g').
        { split; [change (zlen r = b); lia|]. intro Ho. change (znth 0%N r (b - 1) = 0%N).
          rewrite H1 in Hlast. rewrite Hlast by exact Ho. apply H2. exact Ho. }
        destruct (kReseedInterval <? _); [exact Hg|].
        destruct (rng_take g') as [[g'' o]| |] eqn:E; cbn [fst]; auto. eapply reach_take; eauto.
      + destruct (rng_take g) as [[g'' o]| |] eqn:E; cbn [fst]; auto. eapply reach_take; eauto.
  Qed.
  Lemma reach_run b ops g : reach b g -> reach b (rng_run aes g ops).
  Proof. revert g. induction ops; intros g H; cbn [rng_run]; auto. apply IHops. now apply reach_do. Qed.
  Lemma reach_create s bs g : rng_create s bs = Ok g -> reach (Z.max 2 bs) g.
  Proof.
    unfold rng_create, rng_seed. destruct (zlen s <? kStateSize); [discriminate|]. intro E. injection E as <-.
    replace (if bs <? 2 then 2 else bs) with (Z.max 2 bs) by (destruct (bs <? 2) eqn:?; lia).
    split; cbn [r_buffer rng_new]; [apply zlen_zrepeat; lia|]. intro. apply znth_zrepeat. lia.
  Qed.

  Lemma reseed_forgets s0 bs g history s more : rng_create s0 bs = Ok g -> 32 <= zlen s ->
    exists g', rng_create s bs = Ok g' /\
      rng_observe aes (rng_run aes g (history ++ [OpSeed s])) more = rng_observe aes g' more.
  Proof.
    intros E Hs. apply reach_create in E. unfold rng_create.
    replace (if bs <? 2 then 2 else bs) with (Z.max 2 bs) by (destruct (bs <? 2) eqn:?; lia).
    apply (reach_run _ history) in E. set (b := Z.max 2 bs) in *. assert (Hb : 2 <= b) by lia. clearbody b.
    rewrite run_app. set (h := rng_run aes g history) in *. clearbody h. destruct E as [E1 E2].
    cbn [rng_run rng_do]. unfold rng_seed, kStateSize. replace (zlen s <? 32) with false by lia. cbn [fst].
    eexists. split; [reflexivity|]. apply sim_observe.
    unfold sim; cbn [r_buffer r_elements_used r_nonce r_counter r_key rng_new]. rewrite zlen_zrepeat, E1 by lia.
    repeat split; auto.
    - intro. rewrite E2 by auto. now rewrite znth_zrepeat by lia.
    - intro. lia.
  Qed.
  Lemma short_seed g s : zlen s < 32 -> exists m, rng_do aes g (OpSeed s) = (g, ObsSeed (Some (invalid_argument m))).
  Proof. intro H. cbn [rng_do]. unfold rng_seed, kStateSize. replace (zlen s <? 32) with true by lia. eauto. Qed.
  Lemma first_32 g s s' : 32 <= zlen s -> 32 <= zlen s' -> firstn 32 s = firstn 32 s' ->
    rng_do aes g (OpSeed s) = rng_do aes g (OpSeed s').
  Proof.
    intros H H' E. cbn [rng_do]. unfold rng_seed, kStateSize.
    replace (zlen s <? 32) with false by lia. replace (zlen s' <? 32) with false by lia.
    replace (firstn 16 s') with (firstn 16 s).
    2:{ change 16%nat with (Nat.min 16 32). rewrite <- !firstn_firstn. now rewrite E. }
    replace (firstn 16 (skipn 16 s')) with (firstn 16 (skipn 16 s)).
    2:{ rewrite !firstn_skipn_comm. change (16 + 16)%nat with 32%nat. now rewrite E. }
    reflexivity.
  Qed.
End Reseed.

(** ** Final forms *)
Lemma ctr_stream aes seed bs n : Forall (fun x => x < 256)%N seed -> 32 <= zlen seed ->
  Z.even (Z.max 2 bs) = true -> 0 <= n < 2^48 / (Z.max 2 bs / 2) * Z.max 2 bs ->
  rng_output aes seed bs n = Some (ObsNext (Value (ctr_word aes (seed_key seed) (seed_nonce seed) n))).
Proof.
  intros Hs Hl He Hn. rewrite (output_before aes seed (Z.max 2 bs)) by (auto; lia).
  set (b := Z.max 2 bs) in *. assert (2 <= b) by lia. clearbody b. apply Z.even_spec in He. destruct He as [c He].
  unfold word. subst b. rewrite (Z.mul_comm 2 c), Z.div_mul by lia.
  pose proof (Z.mod_pos_bound n (c * 2)). replace (n mod (c * 2) <? 2 * c) with true by lia.
  do 4 f_equal. rewrite (Z.div_mod n (c * 2)) at 3 by lia. lia.
Qed.
Lemma odd_zero aes seed bs n : Forall (fun x => x < 256)%N seed -> 32 <= zlen seed ->
  2 <= bs -> Z.odd bs = true -> 0 <= n < 2^48 / (bs / 2) * bs ->
  rng_output aes seed bs n = Some (ObsNext (Value
    (if n mod bs =? bs - 1 then 0%N
     else ctr_word aes (seed_key seed) (seed_nonce seed) (n - n / bs)))).
Proof.
  intros Hs Hl Hb Ho Hn. rewrite (output_before aes seed bs) by (auto; lia).
  apply Z.odd_spec in Ho. destruct Ho as [c Ho]. unfold word. do 3 f_equal.
  replace (bs / 2) with c in * by (subst bs; rewrite Z.add_comm, Z.mul_comm, Z.div_add by lia; reflexivity).
  pose proof (Z.mod_pos_bound n bs). destruct (n mod bs =? bs - 1) eqn:E.
  - now replace (n mod bs <? 2 * c) with false by lia.
  - replace (n mod bs <? 2 * c) with true by lia. f_equal. rewrite (Z.div_mod n bs) at 3 by lia. nia.
Qed.
Lemma throws aes seed bs n : Forall (fun x => x < 256)%N seed -> 32 <= zlen seed ->
  let b := Z.max 2 bs in let limit := 2^48 / (b / 2) * b in
  0 <= n -> n < 2^62 ->
  b < 2^61 ->
  (rng_output aes seed bs n = Some (ObsNext Throw) <-> limit <= n /\ (n - limit) mod (b + 1) = 0).
Proof.
  intros Hs Hl b limit Hn0 Hn Hb. assert (H2 : 2 <= b) by (unfold b; lia).
  assert (Hh : 1 <= b / 2) by (apply Z.div_le_lower_bound; lia).
  destruct (Z_lt_dec n limit) as [Hlt|Hge].
  - unfold limit in Hlt. rewrite (output_before aes seed b) by (auto; unfold b in *; lia).
    split; [discriminate|]. intros [H _]. unfold limit in H. lia.
  - replace n with (limit + (n - limit)) at 1 by lia. set (m := n - limit). assert (0 <= m) by (unfold m; lia).
    unfold limit. rewrite (output_after aes seed b); auto.
    + pose proof (Z.mod_pos_bound m (b + 1)). destruct (m mod (b + 1) =? 0) eqn:E; split; intro; try discriminate; try lia; auto.
    + fold limit. pose proof (Z.mul_div_le m (b + 1)). pose proof (Z.mul_div_le b 2). pose proof (Z.mul_div_le (2^48) (b / 2)).
      assert (m / (b + 1) * (b / 2) <= m) by nia. assert (m <= n).
      { unfold m, limit. assert (0 <= 2^48 / (b / 2)) by (apply Z.div_pos; lia). nia. }
      nia.
Qed.
Lemma values_go_on aes seed bs m : Forall (fun x => x < 256)%N seed -> 32 <= zlen seed ->
  let b := Z.max 2 bs in let limit := 2^48 / (b / 2) * b in
  0 <= m < b -> b < 2^61 ->
  rng_output aes seed bs limit = Some (ObsNext Throw) /\
  exists v, rng_output aes seed bs (limit + 1 + m) = Some (ObsNext (Value v)) /\
    (Z.even b = true -> v = ctr_word aes (seed_key seed) (seed_nonce seed) (limit + m)).
Proof.
  intros Hs Hl b limit Hm Hb. assert (H2 : 2 <= b) by (unfold b; lia).
  assert (Hh : 1 <= b / 2) by (apply Z.div_le_lower_bound; lia).
  pose proof (Z.mul_div_le b 2). pose proof (Z.mul_div_le (2^48) (b / 2)).
  split.
  - replace limit with (2^48 / (b / 2) * b + 0) by (unfold limit; lia).
    rewrite (output_after aes seed b) by (auto; try lia; rewrite Z.div_0_l by lia; nia).
    rewrite Z.mod_0_l by lia. reflexivity.
  - replace (limit + 1 + m) with (limit + (1 + m)) by lia. unfold limit.
    rewrite (output_after aes seed b) by (auto; try lia; rewrite (Z.div_small (1 + m)) by lia; nia).
    rewrite (Z.mod_small (1 + m)) by lia. replace (1 + m =? 0) with false by lia. eexists. split; [reflexivity|].
    intro He. clear -He H2 Hm. clearbody b. apply Z.even_spec in He. destruct He as [c ->]. rewrite (Z.mul_comm 2 c), Z.div_mul in * by lia.
    rewrite (Z.div_small (1 + m)) by lia. unfold word. rewrite Z.div_mul by lia. replace (1 + m - 1 <? 2 * c) with true by lia. f_equal. lia.
Qed.

(** With a permutation as cipher, no block occurs twice. *)
Lemma ctr_block aes key nonce i : (aes key ((nonce + Z.to_N i) mod 2^128) < 2^128)%N -> 0 <= i ->
  (ctr_word aes key nonce (2 * i) + 2^64 * ctr_word aes key nonce (2 * i + 1))%N = aes key ((nonce + Z.to_N i) mod 2^128)%N.
Proof.
  intros Hb Hi. unfold ctr_word. replace (2 * i / 2) with i by (rewrite Z.mul_comm, Z.div_mul by lia; reflexivity).
  replace ((2 * i + 1) / 2) with i by (rewrite Z.add_comm, Z.mul_comm, Z.div_add by lia; reflexivity).
  rewrite Z.add_1_r, Z.even_succ, <- Z.negb_even, Z.even_mul. cbn [orb negb Z.even]. set (c := aes _ _) in *.
  rewrite (N.mod_small (c / 2^64)); [|apply N.div_lt_upper_bound; [discriminate|exact Hb]].
  rewrite (N.div_mod c (2^64)) at 3 by discriminate. lia.
Qed.
Lemma blocks_differ aes seed bs : Forall (fun x => x < 256)%N seed -> 32 <= zlen seed -> Z.even (Z.max 2 bs) = true ->
  let key := seed_key seed in
  (forall x, (x < 2^128)%N -> (aes key x < 2^128)%N) -> (forall x y, (x < 2^128)%N -> (y < 2^128)%N -> aes key x = aes key y -> x = y) ->
  forall i j low high, let limit := 2^48 / (Z.max 2 bs / 2) * Z.max 2 bs in
  0 <= i -> 2 * i + 1 < limit -> 0 <= j -> 2 * j + 1 < limit ->
  rng_output aes seed bs (2 * i) = Some (ObsNext (Value low)) -> rng_output aes seed bs (2 * i + 1) = Some (ObsNext (Value high)) ->
  rng_output aes seed bs (2 * j) = Some (ObsNext (Value low)) -> rng_output aes seed bs (2 * j + 1) = Some (ObsNext (Value high)) -> i = j.
Proof.
  intros Hs Hl He key Hr Hi i j low high limit Hi0 Hi1 Hj0 Hj1. rewrite !(ctr_stream aes seed bs) by (auto; fold limit; lia). fold key. set (nonce := seed_nonce seed).
  intros E1 E2 E3 E4. injection E1 as E1. injection E2 as E2. injection E3 as E3. injection E4 as E4.
  assert (Hm : forall k, ((nonce + Z.to_N k) mod 2^128 < 2^128)%N) by (intro k; apply N.mod_lt; discriminate).
  pose proof (ctr_block aes key nonce i (Hr _ (Hm i)) Hi0) as B1. pose proof (ctr_block aes key nonce j (Hr _ (Hm j)) Hj0) as B2.
  rewrite E1, E2 in B1. rewrite E3, E4 in B2. rewrite B1 in B2. apply Hi in B2; [|apply Hm|apply Hm].
  assert (Hlim : limit <= 2^49 + 2^48).
  { unfold limit. clear. set (b := Z.max 2 bs). assert (H2 : 2 <= b) by (unfold b; lia). clearbody b. pose proof (Z.div_mod b 2 ltac:(lia)). pose proof (Z.mod_pos_bound b 2 ltac:(lia)).
    assert (1 <= b / 2) by (apply Z.div_le_lower_bound; lia). pose proof (Z.mul_div_le (2^48) (b / 2) ltac:(lia)).
    assert (0 <= 2^48 / (b / 2)) by (apply Z.div_pos; lia). set (h := b / 2) in *. set (Q := 2^48 / h) in *. assert (Hq : Q <= h * Q) by nia. assert (Hb : b <= 2 * h + 1) by lia. clearbody Q h. set (X := 2^48) in *. assert (HX : 2^49 = 2 * X) by reflexivity. clearbody X. nia. }
  assert (Hz : (Z.of_N nonce + i) mod 2^128 = (Z.of_N nonce + j) mod 2^128).
  { apply (f_equal Z.of_N) in B2. rewrite !N2Z.inj_mod, !N2Z.inj_add, !Z2N.id in B2 by lia. exact B2. }
  assert (Hd : (i - j) mod 2^128 = 0).
  { replace (i - j) with ((Z.of_N nonce + i) - (Z.of_N nonce + j)) by lia. rewrite Zminus_mod, Hz, Z.sub_diag. reflexivity. }
  apply Z.mod_divide in Hd; [|lia]. destruct Hd as [k Hk]. clearbody limit. clear -Hk Hi0 Hi1 Hj0 Hj1 Hlim. lia.
Qed.
