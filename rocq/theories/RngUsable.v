(** Generators stay usable. *)
From Verif Require Import Base BaseFacts ListFacts RngModel RngSpec RngProofs ScalarModel ProcModel VoleModel VoleSpec.
Local Open Scope Z_scope.

Lemma usable_create seed n g : rng_create seed n = Ok g -> usable g.
Proof.
  unfold rng_create, rng_seed. destruct (_ <? kStateSize); [discriminate|]. intro H. injection H as <-. split; [|split]; cbn.
  - rewrite zlen_zrepeat; destruct (n <? 2) eqn:?; lia.
  - rewrite zlen_zrepeat; destruct (n <? 2) eqn:?; lia.
  - apply Forall_forall. intros w Hw. unfold zrepeat in Hw. apply repeat_spec in Hw. subst. reflexivity.
Qed.

Section Usable.
  Variable aes : N -> N -> N.

  Lemma usable_take g : usable g -> r_elements_used g < zlen (r_buffer g) ->
    exists g' w, rng_take g = Ok (g', Value w) /\ usable g' /\ (w < 2^64)%N.
  Proof.
    intros (A1 & A2 & A3) A4. unfold rng_take. rewrite (zget_ok 0%N) by lia. cbn. eexists _, _. split; [reflexivity|]. split; [split; cbn; [lia|split; [lia|auto]]|].
    apply (proj1 (Forall_forall _ _) A3). apply znth_In. lia.
  Qed.
  Lemma usable_word g : usable g ->
    match rng_next aes g with Ok (g', o) => usable g' /\ match o with Value w => (w < 2^64)%N | Throw => True end | Err _ => False | UB w => In w rng_ub end.
  Proof.
    intros (H1 & H2 & H3). unfold rng_next.
    destruct (Z.leb_spec (zlen (r_buffer g)) (r_elements_used g)).
    2:{ destruct (usable_take g) as (g' & w & -> & ? & ?); auto. split; auto. }
    rewrite Z.quot_div_nonneg by lia. assert (0 <= zlen (r_buffer g) / 2) by (apply Z.div_pos; lia).
    destruct (nonces_len aes (r_nonce g) (zlen (r_buffer g) / 2)) as (ns & x & En & Ln); [auto|]. rewrite En. cbn [rbind].
    assert (2 * (zlen (r_buffer g) / 2) <= zlen (r_buffer g)) by (apply Z.mul_div_le; lia).
    destruct (fill_ok aes (r_key g) ns (zlen (r_buffer g) / 2) (r_buffer g)) as (bf & Ef & Lf & Fa & Fb); auto. rewrite Ef. cbn [rbind].
    assert (Hbf : Forall (fun w => w < 2^64)%N bf).
    { apply Forall_forall. intros w Hw. apply (In_nth _ _ 0%N) in Hw. destruct Hw as (k & Hk & <-).
      assert (Ez : nth k bf 0%N = znth 0%N bf (Z.of_nat k)) by (unfold znth; rewrite Nat2Z.id; destruct (Z.ltb_spec (Z.of_nat k) 0); [lia|reflexivity]). rewrite Ez. unfold zlen in *.
      destruct (Z_lt_le_dec (Z.of_nat k) (2 * (Z.of_nat (List.length (r_buffer g)) / 2))).
      - rewrite Fa by lia. cbv zeta. destruct (Z.even _); apply N.mod_lt; discriminate.
      - rewrite Fb by lia. apply (proj1 (Forall_forall _ _) H3). apply znth_In. unfold zlen. lia. }
    destruct (2 ^ 63 <=? _); [cbn; auto|]. destruct (kReseedInterval <? _); [split; [|exact I]; split; cbn; [lia|split; [lia|auto]]|].
    destruct (usable_take (Rng bf 0 x (r_counter g + zlen (r_buffer g) / 2) (r_key g))) as (g' & w & -> & ? & ?); [split; cbn; [lia|split; [lia|auto]]|cbn; lia|]. split; auto.
  Qed.
  Lemma usable_next g : usable g -> match rng_next aes g with Ok (g', _) => usable g' | Err _ => False | UB w => In w rng_ub end.
  Proof. intro H. apply usable_word in H. destruct (rng_next aes g) as [[g' o]| |]; tauto. Qed.
  Lemma usable_drawn g g' : drawn aes g g' -> usable g -> usable g'.
  Proof. induction 1 as [|g g1 x g2 H _ IH]; auto. intro Hl. apply IH. apply usable_next in Hl. now rewrite H in Hl. Qed.
End Usable.
