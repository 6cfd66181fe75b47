(** Random generators in worlds with different ciphers. *)
From Verif Require Import Base BaseFacts ListFacts ScalarModel ProcModel RngModel RngProofs VoleModel VoleSpec DeltaSpec.
Local Open Scope Z_scope.

Lemma for_range_same {A} (Inv : A -> Prop) lo hi (body body' : Z -> A -> res A) s : Inv s ->
  (forall i s, Inv s -> body' i s = body i s /\ forall s', body i s = Ok s' -> Inv s') ->
  for_range lo hi body' s = for_range lo hi body s /\ forall s', for_range lo hi body s = Ok s' -> Inv s'.
Proof.
  intros H0 Hb. destruct (Z.le_gt_cases hi lo) as [Hle|Hgt].
  { rewrite !for_range_empty by lia. split; [reflexivity|]. intros s' E. now injection E as <-. }
  assert (Hle : lo <= hi) by lia. clear Hgt. remember (Z.to_nat (hi - lo)) as n eqn:En. revert lo s Hle En H0.
  induction n as [|n IH]; intros lo s Hle En H0.
  - assert (lo = hi) by lia. subst. rewrite !for_range_empty by lia. split; [reflexivity|]. intros s' E. now injection E as <-.
  - rewrite !for_range_first by lia. destruct (Hb lo s H0) as [E1 E2]. rewrite E1. destruct (body lo s) as [s1| |]; cbn [rbind]; try (split; [reflexivity|discriminate]).
    apply IH; auto; lia.
Qed.

Lemma le_block b : (b < 2^128)%N -> le_bytes (block_bytes b) = b.
Proof.
  intro H. unfold block_bytes.
  assert (Hg : forall n k, le_bytes (map (fun i => ((b / 2 ^ (8 * N.of_nat i)) mod 256)%N) (seq k n)) = ((b / 2 ^ (8 * N.of_nat k)) mod 2 ^ (8 * N.of_nat n))%N).
  { clear H. induction n as [|n IH]; intro k; cbn [seq map le_bytes]; [now rewrite N.mod_1_r|].
    rewrite IH. set (x := (b / 2 ^ (8 * N.of_nat k))%N).
    replace (b / 2 ^ (8 * N.of_nat (S k)))%N with (x / 256)%N.
    2:{ unfold x. rewrite N.div_div by (try lia; apply N.pow_nonzero; lia). f_equal. replace (8 * N.of_nat (S k))%N with (8 * N.of_nat k + 8)%N by lia.
        rewrite N.pow_add_r. reflexivity. }
    replace (8 * N.of_nat (S n))%N with (8 + 8 * N.of_nat n)%N by lia. rewrite N.pow_add_r. change (2 ^ 8)%N with 256%N.
    rewrite N.mod_mul_r by (try lia; apply N.pow_nonzero; lia). reflexivity. }
  rewrite Hg. change (8 * N.of_nat 0)%N with 0%N. change (8 * N.of_nat 16)%N with 128%N. rewrite N.pow_0_r, N.div_1_r. now apply N.mod_small.
Qed.

Lemma create_key b0 b1 n g : (b0 < 2^128)%N -> rng_create (List.concat (map block_bytes [b0; b1])) n = Ok g -> r_key g = b0.
Proof.
  intros Hb. unfold rng_create, rng_seed. destruct (_ <? kStateSize); [discriminate|]. intro H. injection H as <-. cbn [r_key].
  transitivity (le_bytes (block_bytes b0)); [reflexivity|now apply le_block].
Qed.

Section Same.
  Variable S : scalar.
  Variables (uniform uniform64 : (N -> N -> N) -> Z -> rng -> res (rng * Z)).
  Hypothesis Hu : uses_generator uniform.
  Hypothesis Hu64 : uses_generator uniform64.
  Variable E : setting.
  Variables aes w : N -> N -> N.
  Variable k : N.
  Hypothesis Hk : forall x, w k x = aes k x.

  Lemma next_same g : r_key g = k -> rng_next w g = rng_next aes g /\ forall g' o, rng_next aes g = Ok (g', o) -> r_key g' = k.
  Proof.
    intro Hg. assert (Ht : forall g, r_key g = k -> forall g' o, rng_take g = Ok (g', o) -> r_key g' = k).
    { intros g0 H0 g' o. unfold rng_take. destruct (zget _ _); cbn [rbind]; try discriminate. intro H. now injection H as <- _. }
    unfold rng_next. destruct (_ <=? _); [|split; [reflexivity|now apply Ht]].
    destruct (rng_nonces _ _) as [[ns nonce]| |]; cbn [rbind]; try (split; [reflexivity|discriminate]).
    assert (Hf : rng_fill w (r_key g) ns (Z.quot (zlen (r_buffer g)) 2) (r_buffer g) = rng_fill aes (r_key g) ns (Z.quot (zlen (r_buffer g)) 2) (r_buffer g)).
    { unfold rng_fill. apply (for_range_same (fun _ => True)); auto. intros i s _. split; [|auto]. destruct (zget ns i); cbn [rbind]; auto. now rewrite Hg, Hk. }
    rewrite Hf. destruct (rng_fill aes _ _ _ _) as [bf| |]; cbn [rbind]; try (split; [reflexivity|discriminate]). destruct (_ <=? _); [split; [reflexivity|discriminate]|].
    destruct (_ <? _); split; try reflexivity; intros g' o H; [now injection H as <- _|]. eapply Ht; [|exact H]. exact Hg.
  Qed.
  Lemma call_same g : r_key g = k -> rng_call (with_aes uniform E w) g = rng_call (with_aes uniform E aes) g /\
    forall g' o, rng_call (with_aes uniform E aes) g = Ok (g', o) -> r_key g' = k.
  Proof.
    intro Hg. unfold rng_call. cbn [with_aes e_aes]. destruct (next_same g Hg) as [H1 H2]. rewrite H1.
    destruct (rng_next aes g) as [[g' [v|]]| |] eqn:E1; cbn [rbind]; split; try reflexivity; try discriminate. intros g2 o H. injection H as <- _. now apply (H2 g' (Value v)).
  Qed.
  Lemma element_same g : r_key g = k -> random_element S (with_aes uniform E w) g = random_element S (with_aes uniform E aes) g /\
    forall g' o, random_element S (with_aes uniform E aes) g = Ok (g', o) -> r_key g' = k.
  Proof.
    intro Hg. unfold random_element. destruct (call_same g Hg) as [H1 H2]. rewrite H1. clear H1.
    destruct (rng_call _ g) as [[g1 x]| |]; cbn [rbind]; try (split; [reflexivity|discriminate]). specialize (H2 g1 x eq_refl).
    destruct (call_same g1 H2) as [H3 H4]. rewrite H3. clear H3. destruct (rng_call _ g1) as [[g2 y]| |]; cbn [rbind]; split; try reflexivity; try discriminate.
    intros g3 o H. injection H as <- _. now apply (H4 g2 y).
  Qed.
  Lemma uniform_same n g : r_key g = k -> uniform w n g = uniform aes n g /\ forall g' i, uniform aes n g = Ok (g', i) -> r_key g' = k.
  Proof.
    intro Hg. destruct (Hu aes w n g) as [H1 H2]; [intro x; rewrite Hg; apply Hk|]. split; [exact H1|]. intros g' i Hi. rewrite <- Hg. eauto.
  Qed.
  Lemma generator_same rows cols g : r_key g = k ->
    sample_generator S (with_aes uniform E w) rows cols g = sample_generator S (with_aes uniform E aes) rows cols g.
  Proof.
    intro Hg. unfold sample_generator.
    assert (H1 : random_elements S (with_aes uniform E w) (p_nonzeros (e_parameters E) * cols) g = random_elements S (with_aes uniform E aes) (p_nonzeros (e_parameters E) * cols) g /\
      forall s, random_elements S (with_aes uniform E aes) (p_nonzeros (e_parameters E) * cols) g = Ok s -> r_key (fst s) = k).
    { unfold random_elements. apply (for_range_same (fun s => r_key (fst s) = k)); [exact Hg|]. intros i [g1 l] H1. cbn [fst] in H1.
      destruct (element_same g1 H1) as [H2 H3]. rewrite H2. clear H2. split; [reflexivity|]. intros s' Hs. destruct (random_element _ _ _) as [[g2 x]| |]; cbn [rbind] in Hs; try discriminate.
      injection Hs as <-. now apply (H3 g2 x). }
    cbn [with_aes e_parameters] in *. destruct H1 as [H1 H2]. rewrite H1. clear H1.
    destruct (random_elements _ _ _ _) as [[g1 el]| |]; cbn [rbind]; try reflexivity. specialize (H2 _ eq_refl). cbn [fst] in H2.
    match goal with |- rbind (for_range 0 cols ?b' ?s0) _ = rbind (for_range 0 cols ?b ?s0) _ =>
      destruct (for_range_same (fun s : rng * list (list (Z * S)) => r_key (fst s) = k) 0 cols b b' s0) as [E1 _] end; [exact H2| |now rewrite E1].
    intros i [g2 cs] H3. cbn [fst] in H3.
    assert (H4 : sample_column S (with_aes uniform E w) rows el i g2 = sample_column S (with_aes uniform E aes) rows el i g2 /\
      forall s, sample_column S (with_aes uniform E aes) rows el i g2 = Ok s -> r_key (fst s) = k).
    { unfold sample_column. apply (for_range_same (fun s => r_key (fst s) = k)); [exact H3|]. intros j [g3 l] H4. cbn [fst] in H4. cbn [with_aes e_uniform e_parameters].
      destruct (uniform_same rows g3 H4) as [H5 H6]. rewrite H5. split; [reflexivity|]. intros s' Hs. destruct (uniform aes rows g3) as [[g4 row]| |]; cbn [rbind] in Hs; try discriminate.
      destruct (negb _); [discriminate|]. destruct (zget el _); cbn [rbind] in Hs; try discriminate. injection Hs as <-. now apply (H6 g4 row). }
    destruct H4 as [H4 H5]. rewrite H4. clear H4. split; [reflexivity|]. intros s' Hs. destruct (sample_column _ _ _ _ _ _) as [[g3 c]| |]; cbn [rbind] in Hs; try discriminate.
    injection Hs as <-. now apply (H5 (g3, c)).
  Qed.
  Lemma indices_same (M : machine S) tries out num : forall g set, r_key g = k ->
    sample_indices S (machine_with_aes uniform64 M w) tries out num g set = sample_indices S (machine_with_aes uniform64 M aes) tries out num g set.
  Proof.
    induction tries as [|tries IH]; intros g set Hg; cbn [sample_indices]; [reflexivity|]. destruct (_ <=? _); [reflexivity|].
    cbn [machine_with_aes c_uniform64]. destruct (Hu64 aes w out g) as [H1 H2]; [intro x; rewrite Hg; apply Hk|]. rewrite H1.
    destruct (uniform64 aes out g) as [[g' i]| |]; cbn [rbind]; try reflexivity. apply IH. rewrite <- Hg. eauto.
  Qed.
End Same.
