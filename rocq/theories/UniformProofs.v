(** Proofs about std::uniform_int_distribution. *)
From Verif Require Import Base BaseFacts ListFacts ScalarModel RngModel RngSpec RngProofs VoleModel VoleSpec UseSpec UniformModel UniformSpec.
From Coq Require Import Permutation.
Local Open Scope Z_scope.

(** ** Search *)
Fixpoint search_nat {A B} (n : nat) (step : A -> A + B) (x : A) : A + B :=
  match n with
  | O => inl x
  | S n => match step x with inl y => search_nat n step y | inr b => inr b end
  end.
Lemma search_nat_add {A B} (step : A -> A + B) m n : forall x,
  search_nat (m + n) step x = match search_nat m step x with inl y => search_nat n step y | inr b => inr b end.
Proof. induction m as [|m IH]; intro x; cbn; [reflexivity|]. destruct (step x); auto. Qed.
Lemma search_linear {A B} (step : A -> A + B) p : forall x, search p step x = search_nat (Pos.to_nat p) step x.
Proof.
  induction p as [p IH|p IH|]; intro x; cbn [search].
  - rewrite Pos2Nat.inj_xI. cbn [search_nat]. destruct (step x) as [y|]; [|reflexivity].
    replace (2 * Pos.to_nat p)%nat with (Pos.to_nat p + Pos.to_nat p)%nat by lia. rewrite search_nat_add, <- IH. destruct (search p step y); [apply IH|reflexivity].
  - rewrite Pos2Nat.inj_xO. replace (2 * Pos.to_nat p)%nat with (Pos.to_nat p + Pos.to_nat p)%nat by lia. rewrite search_nat_add, <- IH. destruct (search p step x); [apply IH|reflexivity].
  - change (Pos.to_nat 1) with 1%nat. cbn. destruct (step x); reflexivity.
Qed.

(** ** The stream of a generator *)
Section Stream.
  Variable aes : N -> N -> N.
  Variable seed : list N.
  Variable b : Z.
  Hypothesis Hb : 2 <= b < 2^61.
  Hypothesis Hseed : Forall (fun x => x < 256)%N seed.
  Hypothesis Hlen : 32 <= zlen seed.
  Notation h := (b / 2).
  Definition stream (i : Z) : N := word aes seed b (i / b) (i mod b).
  Definition limit : Z := 2^48 / h * b.

  (** The state after [i] words. *)
  Definition at_word (i : Z) (g : rng) : Prop :=
    exists q k, repr aes seed b q k g /\ i = (q - 1) * b + k /\ 0 <= q /\ 0 <= k <= b /\ (q = 0 -> k = b) /\ q * h <= 2^48.

  Lemma at_range i g : at_word i g -> 0 <= i <= limit.
  Proof.
    intros (q & k & _ & -> & H1 & H2 & H3 & H4). unfold limit. assert (Hh : 1 <= h) by (apply Z.div_le_lower_bound; lia).
    assert (q <= 2^48 / h) by (apply Z.div_le_lower_bound; lia). destruct (Z.eq_dec q 0); [nia|]. nia.
  Qed.
  Lemma at_next i g : at_word i g ->
    (i < limit /\ exists g', rng_next aes g = Ok (g', Value (stream i)) /\ at_word (i + 1) g') \/
    (i = limit /\ exists g', rng_next aes g = Ok (g', Throw)).
  Proof.
    intro H. pose proof (at_range i g H) as Hi. destruct H as (q & k & Hr & -> & H1 & H2 & H3 & H4).
    assert (Hh : 1 <= h) by (apply Z.div_le_lower_bound; lia).
    pose proof (Z.div_mod (2^48) h ltac:(lia)) as D1. pose proof (Z.mod_pos_bound (2^48) h ltac:(lia)) as D2.
    destruct (Z_lt_dec k b) as [Hk|Hk].
    - left. assert (Hq : 0 < q) by (destruct (Z.eq_dec q 0); [specialize (H3 e)|]; lia). assert (q <= 2^48 / h) by (apply Z.div_le_lower_bound; lia).
      split; [unfold limit; nia|]. destruct (next_take aes seed b q k g Hq ltac:(lia) Hr) as (g' & E & Hr').
      exists g'. split.
      + rewrite E. do 3 f_equal. unfold stream. rewrite Z.add_comm, Z.div_add, Z.mod_add by lia. rewrite Z.div_small, Z.mod_small by lia. reflexivity.
      + exists q, (k + 1). split; [auto|]. split; [lia|]. split; [lia|]. split; [lia|]. split; [lia|auto].
    - assert (k = b) by lia. subst k. replace ((q - 1) * b + b) with (q * b) in * by lia.
      assert (Hhb : h < 2^61) by (apply Z.div_lt_upper_bound; lia).
      destruct (next_refill aes seed b ltac:(lia) q g H1 Hr ltac:(lia)) as (g1 & Hr1 & E).
      destruct (Z.ltb_spec (2^48) ((q + 1) * h)) as [L|L].
      + right. split; [|eauto]. unfold limit. f_equal. assert (q <= 2^48 / h) by (apply Z.div_le_lower_bound; lia).
        assert (2^48 / h < q + 1) by (apply Z.div_lt_upper_bound; lia). lia.
      + left. assert (q + 1 <= 2^48 / h) by (apply Z.div_le_lower_bound; lia). split; [unfold limit; nia|].
        destruct (take_ok aes seed b (q + 1) 0 g1 ltac:(lia) ltac:(lia) Hr1) as (g2 & E2 & Hr2). rewrite E2 in E. exists g2. split.
        * rewrite E. do 3 f_equal. unfold stream. rewrite Z.div_mul, Z.mod_mul by lia. now replace (q + 1 - 1) with q by lia.
        * exists (q + 1), (0 + 1). split; [auto|]. split; [lia|]. split; [lia|]. split; [lia|]. split; [lia|auto].
  Qed.
  Lemma at_word_next i g : at_word i g ->
    (i < limit /\ exists g', next_word aes g = Ok (g', Z.of_N (stream i)) /\ at_word (i + 1) g') \/
    (i = limit /\ next_word aes g = UB "std::runtime_error").
  Proof.
    intro H. unfold next_word. destruct (at_next i g H) as [(H1 & g' & E & H2)|(H1 & g' & E)]; rewrite E; cbn; [left|right]; eauto.
  Qed.
  Lemma at_create bs : b = Z.max 2 bs -> exists g, rng_create seed bs = Ok g /\ at_word 0 g.
  Proof.
    intro E. destruct (create_ok aes seed b ltac:(lia) Hseed Hlen bs E) as (g & H1 & H2). exists g. split; [auto|].
    exists 0, b. split; [auto|]. split; [lia|]. split; [lia|]. split; [lia|]. split; [auto|lia].
  Qed.
  Lemma at_draws xs : forall i g g', at_word i g -> draws aes g xs g' -> at_word (i + zlen xs) g' /\ forall k, 0 <= k < zlen xs -> znth 0%N xs k = stream (i + k).
  Proof.
    induction xs as [|x xs IH]; intros i g g' Hg H; inversion H; subst.
    - change (zlen (@nil N)) with 0. rewrite Z.add_0_r. split; [auto|]. intros. lia.
    - destruct (at_next i g Hg) as [(H1 & g2 & E & H2)|(H1 & g2 & E)]; rewrite E in H3; [|discriminate]. injection H3 as <- <-.
      specialize (IH (i + 1) g2 g' H2 H5). destruct IH as [I1 I2]. rewrite zlen_cons. split; [replace (i + (zlen xs + 1)) with (i + 1 + zlen xs) by lia; auto|].
      intros k Hk. destruct (Z.eq_dec k 0) as [->|Hk0]; [rewrite Z.add_0_r; reflexivity|]. rewrite znth_cons by lia. destruct (Z.eqb_spec k 0); [lia|]. rewrite I2 by lia. f_equal. lia.
  Qed.

  (** ** One number *)
  (** The result of a draw from position [i]. *)
  Definition drawn_number (number : N -> option Z) (i : Z) (r : res (rng * Z)) : Prop :=
    match r with
    | Ok (g', x) => exists j, i <= j < limit /\ (forall k, i <= k < j -> number (stream k) = None) /\ number (stream j) = Some x /\ at_word (j + 1) g'
    | Err _ => False
    | UB _ => forall k, i <= k < limit -> number (stream k) = None
    end.
  Lemma drawn_skip number i r : number (stream i) = None -> drawn_number number (i + 1) r -> drawn_number number i r.
  Proof.
    intros H0 H. destruct r as [[g' x]|e|w]; cbn in *; [|auto|].
    - destruct H as (j & H1 & H2 & H3 & H4). exists j. split; [lia|]. split; [|auto]. intros k Hk. destruct (Z.eq_dec k i) as [->|]; [auto|]. apply H2. lia.
    - intros k Hk. destruct (Z.eq_dec k i) as [->|]; [auto|]. apply H. lia.
  Qed.

  Definition number10 (n : Z) (w : N) : option Z :=
    if n * ((2^64 - 1) / n) <=? Z.of_N w then None else Some (Z.of_N w / ((2^64 - 1) / n)).
  Definition number11 (n : Z) (w : N) : option Z :=
    if (Z.of_N w * n) mod 2^64 <? (- n) mod 2^64 mod n then None else Some ((Z.of_N w * n) / 2^64).

  Lemma fuel_ok i : 0 <= i -> (Z.to_nat (limit - i) + 1 < Pos.to_nat many)%nat.
  Proof.
    intro Hi. assert (Hh : 1 <= h) by (apply Z.div_le_lower_bound; lia).
    assert (Hl : limit <= 3 * 2^48).
    { unfold limit. pose proof (Z.mul_div_le (2^48) h ltac:(lia)). assert (b <= 3 * h) by (pose proof (Z.div_mod b 2); pose proof (Z.mod_pos_bound b 2); lia).
      assert (0 <= 2^48 / h) by (apply Z.div_pos; lia). nia. }
    apply Nat2Z.inj_lt. rewrite Nat2Z.inj_add, positive_nat_Z. unfold many. change (Z.pos (2^62)) with (2^62). destruct (Z_le_dec 0 (limit - i)); [rewrite Z2Nat.id by lia; lia|]. replace (Z.to_nat (limit - i)) with 0%nat by lia. lia.
  Qed.

  Lemma draw10 n i g : at_word i g -> drawn_number (number10 n) i (uniform10 aes n g).
  Proof.
    intro Hg. unfold uniform10. cbv zeta. rewrite search_linear. pose proof (fuel_ok i ltac:(pose proof (at_range i g Hg); lia)) as Hf.
    remember (Pos.to_nat many) as fuel eqn:E. clear E. revert i g Hg Hf. induction fuel as [|fuel IH]; intros i g Hg Hf; [lia|].
    cbn [search_nat]. destruct (at_word_next i g Hg) as [(H1 & g' & E & H2)|(-> & E)]; rewrite E.
    - destruct (_ <=? _) eqn:Ew.
      + apply drawn_skip; [unfold number10; now rewrite Ew|]. apply IH; [auto|]. lia.
      + exists i. split; [lia|]. split; [intros; lia|]. split; [unfold number10; now rewrite Ew|auto].
    - cbn. intros; lia.
  Qed.
  Lemma loop11 n fuel : forall j g w, at_word (j + 1) g -> w = stream j -> 0 <= j < limit -> (Z.to_nat (limit - j) < fuel)%nat ->
    drawn_number (number11 n) j (result (search_nat fuel (fun '(g, product, low) =>
        if low <? (- n) mod 2^64 mod n then
          match next_word aes g with
          | Ok (g, w) => let product := w * n in inl (g, product, product mod 2^64)
          | Err e => inr (Err e)
          | UB w => inr (UB w)
          end
        else inr (Ok (g, product / 2^64))) (g, Z.of_N w * n, (Z.of_N w * n) mod 2^64))).
  Proof.
    induction fuel as [|fuel IH]; intros j g w Hg -> Hj Hf; [lia|]. cbn [search_nat]. destruct (_ <? _) eqn:Ew.
    - apply drawn_skip; [unfold number11; now rewrite Ew|]. destruct (at_word_next (j + 1) g Hg) as [(H1 & g' & E & H2)|(H1 & E)]; rewrite E.
      + apply IH; auto; lia.
      + cbn. intros; lia.
    - cbn. exists j. split; [lia|]. split; [intros; lia|]. split; [unfold number11; now rewrite Ew|auto].
  Qed.
  Lemma draw11 n i g : 1 <= n -> at_word i g -> drawn_number (number11 n) i (uniform11 aes n g).
  Proof.
    intros Hn Hg. unfold uniform11. destruct (at_word_next i g Hg) as [(H1 & g' & E & H2)|(-> & E)]; rewrite E; cbn [rbind].
    - destruct (_ <? n) eqn:El.
      + rewrite search_linear. pose proof (at_range i g Hg). simple apply loop11; auto; [lia|]. pose proof (fuel_ok i ltac:(lia)). lia.
      + exists i. split; [lia|]. split; [intros; lia|]. split; [|auto]. unfold number11.
        pose proof (Z.mod_pos_bound ((- n) mod 2^64) n ltac:(lia)). replace (_ <? _) with false by lia. reflexivity.
    - cbn. intros; lia.
  Qed.

  (** ** Several numbers *)
  Lemma picks_reads uniform number n : (forall i g, at_word i g -> drawn_number number i (uniform n g)) ->
    forall l i g, at_word i g ->
      ((exists g', picks uniform n g l g') <-> exists places m, reads number stream i places m /\ m <= limit /\ l = map snd places).
  Proof.
    intros Hd. induction l as [|x l IH]; intros i g Hg.
    - split; [|intros _; exists g; constructor]. intros _. exists [], i. split; [constructor|]. pose proof (at_range i g Hg). split; [lia|reflexivity].
    - pose proof (Hd i g Hg) as H. split.
      + intros (g' & Hp). inversion Hp as [|? g1 ? ? ? H1 H2]; subst. rewrite H1 in H. destruct H as (j & Hj & H3 & H4 & H5).
        destruct (proj1 (IH (j + 1) g1 H5) (ex_intro _ g' H2)) as (places & m & R1 & R2 & R3). exists ((j, x) :: places), m. split; [|split; [auto|now rewrite R3]].
        apply reads_number; auto. lia.
      + intros ([|[j y] places] & m & R1 & R2 & R3); [discriminate|]. injection R3 as -> ->. inversion R1 as [|? ? ? ? ? K1 K2 K3 K4]; subst.
        assert (Hm : j < m). { clear - K4. remember (j + 1) as j' eqn:Ej. assert (j < j') by lia. clear Ej. revert H. induction K4; intro; [auto|]. apply IHK4. lia. }
        destruct (uniform n g) as [[g1 z]|e|w] eqn:Eu; cbn in H.
        * destruct H as (j' & Hj & H3 & H4 & H5).
          assert (j' = j). { destruct (Z.lt_trichotomy j' j) as [L|[L|L]]; [|auto|]; exfalso; [rewrite K2 in H4 by lia; discriminate|]. rewrite H3 in K3 by lia. discriminate. }
          subst j'. assert (z = y) by congruence. subst z. destruct (proj2 (IH (j + 1) g1 H5)) as (g' & Hp); [exists places, m; auto|].
          exists g'. econstructor; eauto.
        * contradiction.
        * rewrite H in K3 by lia. discriminate.
  Qed.
End Stream.

Lemma stream_even aes seed b i : 2 <= b -> Z.even b = true -> stream aes seed b i = ctr_word aes (seed_key seed) (seed_nonce seed) i.
Proof.
  intros Hb He. apply Z.even_spec in He. destruct He as [c He]. unfold stream, word. subst b. rewrite (Z.mul_comm 2 c), Z.div_mul by lia.
  pose proof (Z.mod_pos_bound i (c * 2)). replace (i mod (c * 2) <? 2 * c) with true by lia. f_equal. rewrite (Z.div_mod i (c * 2)) at 3 by lia. lia.
Qed.
Lemma stream_odd aes seed b : 2 <= b -> Z.odd b = true -> stream aes seed b (b - 1) = 0%N.
Proof.
  intros Hb Ho. apply Z.odd_spec in Ho. destruct Ho as [c Ho]. unfold stream, word. rewrite (Z.div_small (b - 1) b), (Z.mod_small (b - 1) b) by lia.
  replace (b / 2) with c by (subst b; rewrite Z.add_comm, Z.mul_comm, Z.div_add by lia; reflexivity). replace (b - 1 <? 2 * c) with false by lia. reflexivity.
Qed.

(** ** Each number has equally many words *)
Lemma equally10 n : 1 <= n <= 2^63 -> equally_many n (number10 n).
Proof.
  intro Hn. set (s := (2^64 - 1) / n). pose proof (Z.div_mod (2^64 - 1) n ltac:(lia)) as D. pose proof (Z.mod_pos_bound (2^64 - 1) n ltac:(lia)) as D2. fold s in D.
  assert (Hs : 1 <= s) by (apply Z.div_le_lower_bound; lia).
  exists s, (fun x r => Z.to_N (x * s + r)). split; [lia|]. unfold number10. fold s. split; [|split].
  - intros x r Hx Hr. assert (0 <= x * s) by nia. assert (x * s + r < n * s) by nia. split; [lia|]. rewrite Z2N.id by lia.
    replace (n * s <=? x * s + r) with false by lia. f_equal. rewrite Z.add_comm, Z.div_add by lia. rewrite Z.div_small by lia. reflexivity.
  - intros x r r' Hx Hr Hr' E. assert (0 <= x * s) by nia. lia.
  - intros w x Hw E. destruct (Z.leb_spec (n * s) (Z.of_N w)) as [L|L]; [discriminate|]. injection E as <-. split.
    + split; [apply Z.div_pos; lia|]. apply Z.div_lt_upper_bound; lia.
    + exists (Z.of_N w mod s). split; [apply Z.mod_pos_bound; lia|]. rewrite (Z.mul_comm _ s), <- Z.div_mod by lia. apply N2Z.id.
Qed.
Lemma equally11 n : 1 <= n <= 2^63 -> equally_many n (number11 n).
Proof.
  intro Hn. set (t := (- n) mod 2^64 mod n). set (q := 2^64 / n).
  pose proof (Z.div_mod (2^64) n ltac:(lia)) as D. fold q in D. pose proof (Z.mod_pos_bound (2^64) n ltac:(lia)) as D2.
  assert (Ht : t = 2^64 mod n).
  { unfold t. replace ((- n) mod 2^64) with (2^64 - n) by (rewrite <- (Z.mod_small (2^64 - n) (2^64)) by lia; replace (2^64 - n) with (- n + 1 * 2^64) by lia; now rewrite Z.mod_add by lia).
    replace (2^64 - n) with (2^64 + (-1) * n) by lia. now rewrite Z.mod_add by lia. }
  rewrite <- Ht in D, D2. assert (Et : (- n) mod 2^64 mod n = t) by reflexivity. clearbody t q. assert (Hq : 1 <= q) by nia.
  set (first := fun x => (x * 2^64 + t + n - 1) / n).
  assert (F : forall x, 0 <= x -> 0 <= first x /\ x * 2^64 + t <= first x * n < x * 2^64 + t + n).
  { intros x Hx. unfold first. pose proof (Z.div_mod (x * 2^64 + t + n - 1) n ltac:(lia)). pose proof (Z.mod_pos_bound (x * 2^64 + t + n - 1) n ltac:(lia)).
    split; [apply Z.div_pos; lia|]. lia. }
  clearbody first. exists q, (fun x r => Z.to_N (first x + r)). split; [nia|]. unfold number11. rewrite Et. split; [|split].
  - intros x r Hx Hr. destruct (F x ltac:(lia)) as [F1 F2]. rewrite Z2N.id by lia.
    assert (P : x * 2^64 + t <= (first x + r) * n < (x + 1) * 2^64) by nia.
    assert (Dx : (first x + r) * n / 2^64 = x) by (symmetry; apply (Z.div_unique _ _ x ((first x + r) * n - x * 2^64)); lia).
    assert (Mx : ((first x + r) * n) mod 2^64 = (first x + r) * n - x * 2^64) by (symmetry; apply (Z.mod_unique _ _ x); lia).
    rewrite Mx, Dx. split.
    + assert (n * (first x + r) < n * 2^64) by lia. apply (proj2 (Z.mul_lt_mono_pos_l n _ _ ltac:(lia))) in H. lia.
    + replace (_ <? _) with false; [reflexivity|]. symmetry. apply Z.ltb_ge. lia.
  - intros x r r' Hx Hr Hr' E. destruct (F x ltac:(lia)). lia.
  - intros w x Hw E. destruct (_ <? _) eqn:L in E; [discriminate|]. injection E as <-. apply Z.ltb_ge in L.
    pose proof (Z.div_mod (Z.of_N w * n) (2^64) ltac:(lia)) as Dw. pose proof (Z.mod_pos_bound (Z.of_N w * n) (2^64) ltac:(lia)) as Mw.
    set (x := Z.of_N w * n / 2^64) in *. set (lo := (Z.of_N w * n) mod 2^64) in *.
    assert (Hx : 0 <= x < n) by (split; [apply Z.div_pos; lia|apply Z.div_lt_upper_bound; nia]). split; [auto|].
    destruct (F x ltac:(lia)) as [F1 F2]. exists (Z.of_N w - first x).
    assert (A1 : n * first x < n * (Z.of_N w + 1)) by lia. assert (A2 : n * (Z.of_N w - first x) < n * q) by lia.
    apply (proj2 (Z.mul_lt_mono_pos_l n _ _ ltac:(lia))) in A1, A2. split; [lia|]. replace (first x + (Z.of_N w - first x)) with (Z.of_N w) by lia. apply N2Z.id.
Qed.
