(** Proofs about requests that are split (C99). *)
From Verif Require Import Base BaseFacts ListFacts ScalarModel ScalarSpec ProcModel GgmModel RotModel SpfssModel GilboaModel
  RngModel MpfssModel MpfssSpec MpfssProofs MpfssFinal VoleModel VoleSpec VoleProofs VoleMeet VolePair VoleSolo VoleHistory UseSpec VoleUse PatternSpec PatternProofs CostSpec CostProofs SplitSpec.
From Coq Require Import QArith Permutation.
Local Open Scope Z_scope.

Lemma up_bind {T A B C} (R : B -> C -> Prop) (p : proc T A) (f : A -> proc T B) (g : A -> proc T C) :
  (forall a, possible p a -> alike_up R (f a) (g a)) -> alike_up R (pbind p f) (pbind p g).
Proof.
  induction p as [a|m p IH|k IH|c cs k IH|k IH]; cbn; intro H.
  - apply H. constructor.
  - constructor. apply IH. intros a Ha. apply H. now constructor.
  - constructor. intro m. apply IH. intros a Ha. apply H. econstructor. exact Ha.
  - constructor. intro m. apply IH. intros a Ha. apply H. econstructor. exact Ha.
  - constructor. intros x t. apply IH. intros a Ha. apply H. econstructor. exact Ha.
Qed.
Lemma up_assoc {T A B C D} (R : C -> D -> Prop) (p : proc T A) (f : A -> proc T B) (g : B -> proc T C) (q : proc T D) :
  alike_up R (pbind p (fun a => pbind (f a) g)) q -> alike_up R (pbind (pbind p f) g) q.
Proof. revert q. induction p; cbn; intros q HH; [exact HH|..]; inversion HH; subst; constructor; auto. Qed.
Lemma up_mono {T A B} (R R' : A -> B -> Prop) (p : proc T A) q : (forall a b, R a b -> R' a b) -> alike_up R p q -> alike_up R' p q.
Proof. intros HR HH. induction HH; constructor; auto. Qed.
Lemma up_left {T A B A'} (R : A -> B -> Prop) (R' : A' -> B -> Prop) (f : A -> proc T A') (p : proc T A) (q : proc T B) :
  alike_up R p q -> (forall a b, R a b -> alike_up R' (f a) (Ret b)) -> alike_up R' (pbind p f) q.
Proof. intros HH HR. induction HH; cbn; [auto|..]; constructor; auto. Qed.

Lemma up_binds {T A B A' B'} (R : A -> B -> Prop) (R' : A' -> B' -> Prop) (f : A -> proc T A') (g : B -> proc T B') (p : proc T A) (q : proc T B) :
  alike_up R p q -> (forall a b, R a b -> alike_up R' (f a) (g b)) -> alike_up R' (pbind p f) (pbind q g).
Proof. intros HH HR. induction HH; cbn; [auto|..]; constructor; auto. Qed.
Lemma up_alike {T A B} (R : A -> B -> Prop) (p p' : proc T A) (q : proc T B) : alike p p' -> alike_up R p' q -> alike_up R p q.
Proof. intros HH. revert q. induction HH; intros q HU; [exact HU|..]; inversion HU; subst; constructor; auto. Qed.

Lemma tail_sum {A} (l : list A) m n : 0 <= m -> 0 <= n -> m + n <= zlen l -> tail (m + n) l = tail n (shrink m l) ++ tail m l.
Proof.
  intros Hm Hn H. pose proof (shrink_tail m l) as E. pose proof (shrink_tail n (shrink m l)) as E2.
  assert (L1 : zlen (shrink m l) = zlen l - m) by (apply zlen_shrink; lia).
  assert (L2 : zlen (shrink n (shrink m l)) = zlen l - m - n) by (rewrite zlen_shrink; lia).
  assert (L3 : zlen (tail n (shrink m l)) = n) by (apply zlen_tail; lia). assert (L4 : zlen (tail m l) = m) by (apply zlen_tail; lia).
  unfold tail at 1. rewrite <- E at 2. rewrite <- E2 at 1. rewrite <- app_assoc. rewrite skipn_app.
  replace (Z.to_nat (zlen l - (m + n))) with (List.length (shrink n (shrink m l))) by (unfold zlen in L2 at 1; lia).
  rewrite skipn_all, Nat.sub_diag. reflexivity.
Qed.
Lemma shrink_sum {A} (l : list A) m n : 0 <= m -> 0 <= n -> m + n <= zlen l -> shrink (m + n) l = shrink n (shrink m l).
Proof.
  intros Hm Hn H. pose proof (shrink_tail (m + n) l) as E. pose proof (shrink_tail m l) as E1. pose proof (shrink_tail n (shrink m l)) as E2.
  rewrite (tail_sum l m n Hm Hn H) in E. rewrite app_assoc in E.
  assert (E' : (shrink (m + n) l ++ tail n (shrink m l)) ++ tail m l = shrink m l ++ tail m l) by congruence. apply app_inv_tail in E'.
  assert (E'' : shrink (m + n) l ++ tail n (shrink m l) = shrink n (shrink m l) ++ tail n (shrink m l)) by congruence. now apply app_inv_tail in E''.
Qed.

Lemma splice_parts {A} p q (a b c d : list A) : zlen b = p -> zlen c = q -> a ++ c ++ b ++ d = splice p q (a ++ b) (c ++ d).
Proof.
  intros <- <-. unfold splice. replace (zlen (a ++ b) - zlen b) with (zlen a) by (rewrite zlen_app; lia). unfold zlen. rewrite !Nat2Z.id.
  rewrite !firstn_app, !firstn_all, !skipn_app, !skipn_all, !Nat.sub_diag. cbn [firstn skipn app]. rewrite !app_nil_r. reflexivity.
Qed.
Lemma splice_0 {A} q (a b : list A) : a ++ b = splice 0 q a b.
Proof.
  unfold splice. rewrite Z.sub_0_r. unfold zlen. rewrite Nat2Z.id, firstn_all, skipn_all. cbn [app]. now rewrite firstn_skipn.
Qed.
Lemma splice_none {A} p (a b : list A) : a ++ b = splice p 0 a b.
Proof. unfold splice. change (Z.to_nat 0) with 0%nat. generalize (Z.to_nat (zlen a - p)). intro k. change (a ++ b = firstn k a ++ skipn k a ++ b). rewrite app_assoc. now rewrite firstn_skipn. Qed.
Lemma last_part_0 m c b : m = 0 -> 0 <= c -> last_part m c b = 0.
Proof. intros -> H. unfold last_part. destruct (Z.leb_spec 0 c); lia. Qed.
Lemma last_part_next m c b : 1 <= b -> c < m -> last_part (m - c) b b = last_part m c b /\ left_over (m - c) b b = left_over m c b.
Proof.
  intros Hb Hm. assert (H : last_part (m - c) b b = last_part m c b).
  { unfold last_part. destruct (Z.leb_spec m c); [lia|]. destruct (Z.leb_spec (m - c) b); [rewrite Z.mod_small; lia|].
    replace (m - c - 1) with (m - c - b - 1 + 1 * b) by lia. now rewrite Z.mod_add by lia. }
  split; [exact H|]. unfold left_over. destruct (Z.leb_spec m c); [lia|]. destruct (Z.leb_spec (m - c) b); [|now rewrite H].
  rewrite <- H. unfold last_part. destruct (Z.leb_spec (m - c) b); lia.
Qed.

Section Split.
  Variable S : scalar.
  Variable E : setting.
  Hypothesis G : good_setting S E.
  Variable M : machine S.
  Hypothesis GM : good_machine S M.

  (** ** The sender *)
  Notation loop := (run_sender_loop S E M).
  Definition good_s (st : vole S) : Prop := VoleHistory.inv S E st /\ 1 <= v_batch_size st.
  Definition sc (st : vole S) := s_cached (v_s st).
  Definition put_s c (st : vole S) : vole S := set_s S (set_s_cached S c (v_s st)) st.
  Definition enough (r : nat) size (u : list S) (st : vole S) : Prop :=
    size <= zlen u \/ size - zlen u + (if zlen (sr_u (sc st)) =? 0 then 1 else 0) <= Z.of_nat r.

  Lemma loop_take r size u v st : zlen u < size -> zlen u + zlen (sr_u (sc st)) <= size ->
    loop (Datatypes.S r) size u v st =
    if zlen (u ++ sr_u (sc st)) <? size
    then mbind (expand S (expand_sender S E M)) (fun _ => loop r size (u ++ sr_u (sc st)) (v ++ sr_v (sc st))) (put_s (SenderResult [] []) st)
    else Ret (put_s (SenderResult [] []) st, Ok (SenderResult (u ++ sr_u (sc st)) (v ++ sr_v (sc st)))).
  Proof.
    intros H1 H2. rewrite run_sender_loop_more by auto. unfold sc in *. destruct (Z.leb_spec (zlen u + zlen (sr_u (s_cached (v_s st)))) size); [|lia].
    erewrite bind_ok; [|rewrite bind_set; reflexivity]. destruct (Z.ltb_spec (zlen (u ++ sr_u (s_cached (v_s st)))) size); [reflexivity|]. now apply run_sender_loop_done.
  Qed.
  Lemma loop_part r size u v st : zlen u < size -> size < zlen u + zlen (sr_u (sc st)) ->
    loop (Datatypes.S r) size u v st =
    Ret (put_s (SenderResult (shrink (size - zlen u) (sr_u (sc st))) (shrink (size - zlen u) (sr_v (sc st)))) st,
         Ok (SenderResult (u ++ tail (size - zlen u) (sr_u (sc st))) (v ++ tail (size - zlen u) (sr_v (sc st))))).
  Proof.
    intros H1 H2. rewrite run_sender_loop_more by auto. unfold sc in *. destruct (Z.leb_spec (zlen u + zlen (sr_u (s_cached (v_s st)))) size); [lia|].
    erewrite bind_ok; [|apply get_sender_ok; lia]. cbn [sr_u sr_v]. assert (Ht : zlen (u ++ tail (size - zlen u) (sr_u (s_cached (v_s st)))) = size) by (rewrite zlen_app, zlen_tail; lia).
    rewrite Ht, Z.ltb_irrefl. rewrite run_sender_loop_done by lia. reflexivity.
  Qed.

  Lemma expand_good st x st' : good_s st -> zlen (sr_u (sc st)) = 0 -> possible (expand S (expand_sender S E M) st) (st', Ok x) ->
    good_s st' /\ zlen (sr_u (sc st')) = v_batch_size st' /\ v_batch_size st' = v_batch_size st.
  Proof.
    intros [[Hb HL] Hbt] H0 Hp. pose proof Hb as (Hb1 & (Hb2 & Hb3 & Hb4) & Hb5).
    assert (HT : triple S (expand S (expand_sender S E M) st) (fun st' r => match r with Ok _ => expanded_s S (v_batch_size st + v_vole_seed_size st + v_mpfss_seed_size st) (v_vole_seed_size st) (v_mpfss_seed_size st) st st' | _ => True end)).
    { apply expand_solo; [|auto]. eapply t_weaken; [apply (expand_sender_solo S E M); auto; lia|]. cbv beta. intros st2 [y|e|w]; auto. }
    specialize (HT _ _ Hp). cbv beta iota in HT. destruct HT as (m & mu & v1 & Hm & Lc & Lm & Lv1 & Cm & Hst2).
    set (bt := v_batch_size st) in *. set (vs := v_vole_seed_size st) in *. set (ms := v_mpfss_seed_size st) in *.
    set (nu := vec_add S _ mu) in *. assert (Lu1 : zlen nu = bt + vs + ms) by (unfold nu; rewrite zlen_vec_add; rewrite zlen_encode; lia).
    assert (Har : around S st st' vs ms) by (rewrite Hst2; unfold around; cbn; auto 10).
    assert (Hs2 : v_s st' = made_by S vs ms nu v1 (v_s st)) by (rewrite Hst2; reflexivity).
    assert (Hn : sr_u (s_cached (v_s st)) = []) by (unfold sc in H0; destruct (sr_u (s_cached (v_s st))); [reflexivity|rewrite zlen_cons in H0; pose proof (zlen_nonneg l); lia]).
    assert (Hn' : sr_v (s_cached (v_s st)) = []) by (destruct HL as (HL & _); rewrite Hn in HL; destruct (sr_v (s_cached (v_s st))); [reflexivity|rewrite zlen_cons in HL; pose proof (zlen_nonneg l); change (zlen (@nil S)) with 0 in HL; lia]).
    assert (Hc2 : zlen (sr_u (sc st')) = bt).
    { unfold sc. rewrite Hs2. unfold made_by. rewrite Hn, Hn'. change (zlen (shrink ms (shrink vs nu)) = bt). rewrite !zlen_shrink by (rewrite ?zlen_shrink; lia). lia. }
    pose proof Har as (A1 & A2 & A3 & A4 & A5 & A6 & A7). fold bt in A4. split; [|split; [congruence|exact A4]]. split; [split; [apply (around_base S E st); [exact Hb|exact Har]|]|unfold bt in A4; lia].
    rewrite Hs2. apply made_lens; auto; lia.
  Qed.
  Lemma put_good c st : good_s st -> zlen (sr_u c) = zlen (sr_v c) -> good_s (put_s c st).
  Proof. intros [[Hb (H1 & H2 & H3)] Hbt] H. split; [split; [exact Hb|]|exact Hbt]. unfold slens. cbn. auto. Qed.

  (** The same elements after different beginnings. *)
  Definition after (a b a' b' : list S) (p q : vole S * res (sender_result S)) : Prop :=
    fst p = fst q /\
    match snd p, snd q with
    | Ok x, Ok y => exists cu cv, zlen cu = zlen cv /\ x = SenderResult (a ++ cu) (b ++ cv) /\ y = SenderResult (a' ++ cu) (b' ++ cv)
    | Err e, Err e' => e = e'
    | UB w, UB w' => w = w'
    | _, _ => False
    end.
  Lemma loop_after r2 : forall r size size' a b a' b' st, good_s st -> size - zlen a = size' - zlen a' -> 
    enough r2 size a st -> enough r size' a' st -> alike_up (after a b a' b') (loop r2 size a b st) (loop r size' a' b' st).
  Proof.
    induction r2 as [|r2 IH]; intros r size size' a b a' b' st Hg Hd He He'.
    all: destruct (Z.le_gt_cases size (zlen a)) as [Hle|Hgt];
      [rewrite !run_sender_loop_done by lia; constructor; split; [reflexivity|]; exists [], []; rewrite !app_nil_r; auto|].
    { exfalso. destruct He as [He|He]; [lia|]. destruct (_ =? 0); lia. }
    destruct r as [|r]; [exfalso; destruct He' as [He'|He']; [lia|]; destruct (_ =? 0); lia|].
    destruct He as [He|He]; [lia|]. destruct He' as [He'|He']; [lia|]. pose proof (zlen_nonneg (sr_u (sc st))) as Hc0.
    assert (HL : zlen (sr_u (sc st)) = zlen (sr_v (sc st))) by apply Hg.
    destruct (Z.le_gt_cases (zlen a + zlen (sr_u (sc st))) size) as [Hfit|Hfit].
    - rewrite !loop_take by lia. rewrite !zlen_app. destruct (Z.ltb_spec (zlen a + zlen (sr_u (sc st))) size) as [Hm|Hm].
      + destruct (Z.ltb_spec (zlen a' + zlen (sr_u (sc st))) size') as [_|]; [|lia]. unfold mbind. apply up_bind. intros [st2 [x|e|w]] Hp; [|constructor; split; reflexivity..].
        apply expand_good in Hp; [|apply put_good; [exact Hg|reflexivity]|reflexivity]. destruct Hp as (Hg2 & Hc2 & Hb2). pose proof Hg2 as [_ Hbt].
        eapply up_mono; [|apply IH; [exact Hg2|rewrite !zlen_app; lia|right|right]].
        * intros [s1 r1] [s2 r3] [E1 E2]. split; [exact E1|]. cbn [fst snd] in *. destruct r1 as [x1|e1|w1], r3 as [x3|e3|w3]; auto.
          destruct E2 as (cu & cv & Lc & -> & ->). exists (sr_u (sc st) ++ cu), (sr_v (sc st) ++ cv). rewrite !zlen_app, !app_assoc. repeat split; lia.
        * rewrite Hc2, zlen_app. destruct (Z.eqb_spec (v_batch_size st2) 0); [lia|]. destruct (Z.eqb_spec (zlen (sr_u (sc st))) 0); lia.
        * rewrite Hc2, zlen_app. destruct (Z.eqb_spec (v_batch_size st2) 0); [lia|]. destruct (Z.eqb_spec (zlen (sr_u (sc st))) 0); lia.
      + destruct (Z.ltb_spec (zlen a' + zlen (sr_u (sc st))) size') as [|_]; [lia|]. constructor. split; [reflexivity|]. exists (sr_u (sc st)), (sr_v (sc st)). auto.
    - rewrite !loop_part by lia. rewrite Hd. constructor. split; [reflexivity|]. eexists _, _. split; [|split; reflexivity]. rewrite !zlen_tail; lia.
  Qed.

  (** Two requests against one. *)
  Definition split_s p0 q0 (p : vole S * res (sender_result S * sender_result S)) (q : vole S * res (sender_result S)) : Prop :=
    fst p = fst q /\
    match snd p, snd q with
    | Ok (x1, x2), Ok y => zlen (sr_u x1) = zlen (sr_v x1) /\ zlen (sr_u x2) = zlen (sr_v x2) /\ zlen (sr_u y) = zlen (sr_v y) /\ 
        Permutation (combine (sr_u y) (sr_v y)) (combine (sr_u x1) (sr_v x1) ++ combine (sr_u x2) (sr_v x2)) /\
        sr_u y = splice p0 q0 (sr_u x1) (sr_u x2) /\ sr_v y = splice p0 q0 (sr_v x1) (sr_v x2)
    | Err e, Err e' => e = e'
    | UB w, UB w' => w = w'
    | _, _ => False
    end.
  Definition then_loop r2 n2 (p : proc S (vole S * res (sender_result S))) : proc S (vole S * res (sender_result S * sender_result S)) :=
    pbind p (fun '(st1, r1) => match r1 with
      | Ok x1 => pbind (loop r2 n2 [] [] st1) (fun '(st2, r2) => Ret (st2, rmap (pair x1) r2))
      | Err e => Ret (st1, Err e)
      | UB w => Ret (st1, UB w) end).

  (** The first request is complete, with other elements than the one request has. *)
  Lemma rest_s p0 q0 r2 r n1 n2 u v u' v' a b st : good_s st -> zlen a = zlen b -> zlen u = zlen v -> zlen u' = zlen v' -> zlen u' - zlen a = n1 -> 
    Permutation (combine u' v') (combine u v ++ combine a b) ->
    (forall x, u' ++ x = splice p0 q0 u (a ++ x)) -> (forall x, v' ++ x = splice p0 q0 v (b ++ x)) -> enough r2 n2 a st -> enough r (n1 + n2) u' st ->
    alike_up (split_s p0 q0) (pbind (loop r2 n2 a b st) (fun '(st2, r2) => Ret (st2, rmap (pair (SenderResult u v)) r2))) (loop r (n1 + n2) u' v' st).
  Proof.
    intros Hg Hab Huv Huv' Hn HP HS1 HS2 He He'.
    eapply up_left; [apply (loop_after r2 r n2 (n1 + n2) a b u' v' st); auto; lia|].
    intros [s1 [x|e|w]] [s2 [y|e'|w']] [E1 E2]; cbn [fst snd] in *; try contradiction; constructor; split; cbn; auto.
    destruct E2 as (cu & cv & Lc & -> & ->). cbn [sr_u sr_v]. rewrite !zlen_app. split; [auto|]. split; [lia|]. split; [lia|].
    split; [|split; auto]. rewrite !combine_app by lia. rewrite app_assoc. now apply Permutation_app_tail.
  Qed.

  Lemma put_put c c' st : put_s c (put_s c' st) = put_s c st.
  Proof. reflexivity. Qed.
  Lemma swap_perm {A} (u x y : list A) : Permutation (u ++ x ++ y) ((u ++ y) ++ x).
  Proof. rewrite <- app_assoc. apply Permutation_app_head, Permutation_app_comm. Qed.
  Lemma enough_new n st : 0 <= n -> enough (Z.to_nat n + 1) n [] st.
  Proof. intro H. right. change (zlen (@nil S)) with 0. destruct (_ =? 0); lia. Qed.

  Lemma split_loop r1 : forall r n1 n2 u v st, good_s st -> zlen u = zlen v -> zlen u <= n1 -> 0 <= n2 -> enough r1 n1 u st -> enough r (n1 + n2) u st ->
    alike_up (split_s (last_part (n1 - zlen u) (zlen (sr_u (sc st))) (v_batch_size st)) (Z.min n2 (left_over (n1 - zlen u) (zlen (sr_u (sc st))) (v_batch_size st)))) (then_loop (Z.to_nat n2 + 1) n2 (loop r1 n1 u v st)) (loop r (n1 + n2) u v st).
  Proof.
    induction r1 as [|r1 IH]; intros r n1 n2 u v st Hg Luv Hu Hn2 He He'.
    all: destruct (Z.le_gt_cases n1 (zlen u)) as [Hle|Hgt];
      [rewrite (run_sender_loop_done S E M _ n1) by lia; unfold then_loop; cbn [pbind]; rewrite (last_part_0 (n1 - zlen u)) by (pose proof (zlen_nonneg (sr_u (sc st))); lia);
       apply rest_s; [exact Hg|reflexivity|exact Luv|exact Luv|change (zlen (@nil S)) with 0; lia|cbn; rewrite app_nil_r; reflexivity|intro; apply splice_0|intro; apply splice_0|apply enough_new; exact Hn2|exact He']|].
    { exfalso. destruct He as [He|He]; [lia|]. destruct (_ =? 0); lia. }
    destruct r as [|r]; [exfalso; destruct He' as [He'|He']; [lia|]; destruct (_ =? 0); lia|].
    destruct He as [He|He]; [lia|]. destruct He' as [He'|He']; [lia|]. pose proof (zlen_nonneg (sr_u (sc st))) as Hc0.
    assert (HL : zlen (sr_u (sc st)) = zlen (sr_v (sc st))) by apply Hg. set (c := sr_u (sc st)) in *. set (d := sr_v (sc st)) in *.
    assert (Hg0 : good_s (put_s (SenderResult [] []) st)) by (apply put_good; [exact Hg|reflexivity]).
    destruct (Z.le_gt_cases (zlen u + zlen c) n1) as [Hfit|Hfit].
    - rewrite !loop_take by (fold c; lia). fold c d. rewrite !zlen_app. destruct (Z.ltb_spec (zlen u + zlen c) n1) as [Hm|Hm].
      + destruct (Z.ltb_spec (zlen u + zlen c) (n1 + n2)) as [_|]; [|lia]. unfold then_loop, mbind. apply up_assoc, up_bind. intros [st2 [x|e|w]] Hp; [|constructor; split; reflexivity..].
        apply expand_good in Hp; [|exact Hg0|reflexivity]. destruct Hp as (Hg2 & Hc2 & Hb2). pose proof Hg2 as [_ Hbt].
        assert (Hbe : v_batch_size st2 = v_batch_size st) by exact Hb2. rewrite Hbe in Hbt.
        destruct (last_part_next (n1 - zlen u) (zlen c) (v_batch_size st) Hbt) as [P1 P2]; [lia|]. rewrite <- P1, <- P2.
        replace (n1 - zlen u - zlen c) with (n1 - zlen (u ++ c)) by (rewrite zlen_app; lia).
        pose proof (IH r n1 n2 (u ++ c) (v ++ d) st2) as HI. rewrite Hc2, Hbe in HI. apply HI; auto; try (rewrite !zlen_app; lia); right; rewrite Hc2, zlen_app; destruct (Z.eqb_spec (v_batch_size st2) 0); try lia; destruct (Z.eqb_spec (zlen c) 0); lia.
      + unfold then_loop. cbn [pbind]. destruct (Z.ltb_spec (zlen u + zlen c) (n1 + n2)) as [Hn|Hn].
        * match goal with |- alike_up _ _ ?q => replace q with (loop (Datatypes.S r) (n1 + n2) (u ++ c) (v ++ d) (put_s (SenderResult [] []) st)) end.
          2:{ rewrite loop_take; cbn [sc put_s set_s v_s set_s_cached s_cached sr_u sr_v]; rewrite ?app_nil_r, ?zlen_app; change (zlen (@nil S)) with 0; try lia.
              destruct (Z.ltb_spec (zlen u + zlen c) (n1 + n2)); [|lia]. reflexivity. }
          assert (Hlo : Z.min n2 (left_over (n1 - zlen u) (zlen c) (v_batch_size st)) = 0) by (unfold left_over; destruct (Z.leb_spec (n1 - zlen u) (zlen c)); lia). rewrite Hlo.
          apply rest_s; [exact Hg0|reflexivity|rewrite !zlen_app; lia|rewrite !zlen_app; lia| | |intro; apply splice_none|intro; apply splice_none|apply enough_new; exact Hn2|].
          -- rewrite zlen_app. change (zlen (@nil S)) with 0. lia.
          -- cbn. rewrite app_nil_r. reflexivity.
          -- right. rewrite zlen_app. destruct (Z.eqb_spec (zlen c) 0); [lia|]. destruct (_ =? 0); lia.
        * assert (n2 = 0) as -> by lia. rewrite run_sender_loop_done by (change (zlen (@nil S)) with 0; lia). cbn [pbind]. constructor. split; [reflexivity|]. cbn. rewrite !zlen_app.
          assert (Hlo : Z.min 0 (left_over (n1 - zlen u) (zlen c) (v_batch_size st)) = 0) by (unfold left_over; destruct (Z.leb_spec (n1 - zlen u) (zlen c)); lia). rewrite Hlo, <- !splice_none, !app_nil_r.
          split; [lia|]. split; [reflexivity|]. split; [lia|]. split; [reflexivity|]. split; reflexivity.
    - rewrite (loop_part r1) by (fold c; lia). fold c d. set (m := n1 - zlen u). set (st1 := put_s (SenderResult (shrink m c) (shrink m d)) st).
      assert (S1 : zlen (shrink m c) = zlen c - m) by (apply zlen_shrink; lia). assert (S2 : zlen (shrink m d) = zlen d - m) by (apply zlen_shrink; lia).
      assert (T1 : zlen (tail m c) = m) by (apply zlen_tail; lia). assert (T2 : zlen (tail m d) = m) by (apply zlen_tail; lia).
      assert (HP : Permutation (combine (u ++ c) (v ++ d)) (combine (u ++ tail m c) (v ++ tail m d) ++ combine (shrink m c) (shrink m d))).
      { rewrite <- (shrink_tail m c), <- (shrink_tail m d) at 1. rewrite !combine_app by lia. apply swap_perm. }
      assert (Hlp : last_part m (zlen c) (v_batch_size st) = m) by (unfold last_part; destruct (Z.leb_spec m (zlen c)); lia).
      assert (Hlo : left_over m (zlen c) (v_batch_size st) = zlen c - m) by (unfold left_over; destruct (Z.leb_spec m (zlen c)); lia).
      rewrite Hlp, Hlo. unfold then_loop. cbn [pbind].
      destruct (Z.eq_dec n2 0) as [->|Hn0].
      { rewrite Z.add_0_r. rewrite loop_part by (fold c; lia). fold c d m st1. rewrite run_sender_loop_done by (change (zlen (@nil S)) with 0; lia). cbn [pbind]. constructor. split; [reflexivity|]. cbn. rewrite !zlen_app. rewrite (Z.min_l 0) by lia. rewrite <- !splice_none, !app_nil_r.
        split; [lia|]. split; [reflexivity|]. split; [lia|]. split; [reflexivity|]. split; reflexivity. }
      replace (Z.to_nat n2 + 1)%nat with (Datatypes.S (Z.to_nat n2)) by lia.
      assert (Hsc : sc st1 = SenderResult (shrink m c) (shrink m d)) by reflexivity.
      destruct (Z.le_gt_cases (zlen u + zlen c) (n1 + n2)) as [Hf2|Hf2].
      + rewrite !loop_take; rewrite ?Hsc; cbn [sr_u sr_v app]; change (zlen (@nil S)) with 0; fold c d; try lia. rewrite zlen_app. unfold st1. rewrite !put_put.
        rewrite (Z.min_r n2) by lia.
        assert (HS1 : forall x, (u ++ c) ++ x = splice m (zlen c - m) (u ++ tail m c) (shrink m c ++ x)) by (intro x; rewrite <- (shrink_tail m c) at 1; rewrite <- splice_parts by lia; now rewrite <- !app_assoc).
        assert (HS2 : forall x, (v ++ d) ++ x = splice m (zlen c - m) (v ++ tail m d) (shrink m d ++ x)) by (intro x; rewrite <- (shrink_tail m d) at 1; rewrite <- splice_parts by lia; now rewrite <- !app_assoc).
        destruct (Z.ltb_spec (zlen (shrink m c)) n2) as [Hl|Hl]; destruct (Z.ltb_spec (zlen u + zlen c) (n1 + n2)) as [Hl'|Hl']; try lia.
        * unfold mbind. apply up_assoc, up_bind. intros [st2 [x|e|w]] Hp; [|constructor; split; reflexivity..].
          apply expand_good in Hp; [|exact Hg0|reflexivity]. destruct Hp as (Hg2 & Hc2 & Hb2). pose proof Hg2 as [_ Hbt].
          apply rest_s; auto; try (rewrite !zlen_app; lia); try lia; right; rewrite Hc2, ?zlen_app; destruct (Z.eqb_spec (v_batch_size st2) 0); try lia; destruct (Z.eqb_spec (zlen c) 0); lia.
        * cbn [pbind]. constructor. split; [reflexivity|]. cbn. rewrite !zlen_app. split; [lia|]. split; [lia|]. split; [lia|]. split; [exact HP|].
          specialize (HS1 []). specialize (HS2 []). rewrite !app_nil_r in HS1, HS2. split; assumption.
      + rewrite !loop_part; rewrite ?Hsc; cbn [sr_u sr_v app]; change (zlen (@nil S)) with 0; fold c d; try lia. rewrite !Z.sub_0_r. replace (n1 + n2 - zlen u) with (m + n2) by lia.
        cbn [pbind]. constructor. rewrite !(shrink_sum _ m n2), !(tail_sum _ m n2) by lia. split; [reflexivity|]. cbn. rewrite !zlen_app.
        assert (zlen (tail n2 (shrink m c)) = n2) by (apply zlen_tail; lia). assert (zlen (tail n2 (shrink m d)) = n2) by (apply zlen_tail; lia).
        split; [lia|]. split; [lia|]. split; [lia|]. split; [rewrite !combine_app by lia; apply swap_perm|]. rewrite (Z.min_l n2) by lia.
        rewrite <- (app_nil_r (tail n2 (shrink m c))) at 2. rewrite <- (app_nil_r (tail n2 (shrink m d))) at 2. rewrite <- !splice_parts by lia. rewrite !app_nil_r. split; reflexivity.
  Qed.

  Lemma run_is_loop n st : good_s st -> s_done (v_s st) = true -> 0 <= n -> run_sender S E M n st = loop (Z.to_nat n + 1) n [] [] st.
  Proof.
    intros [[_ (HL & _)] _] Hd Hn. unfold run_sender. rewrite bind_get, Hd, bind_ret. destruct (Z.le_gt_cases n (zlen (sr_u (s_cached (v_s st))))) as [H|H].
    - rewrite get_sender_ok by lia. cbn [pbind]. replace (Z.to_nat n + 1)%nat with (Datatypes.S (Z.to_nat n)) by lia.
      destruct (Z.eq_dec n 0) as [->|Hn0].
      + rewrite run_sender_loop_done by (change (zlen (@nil S)) with 0; lia). rewrite !shrink_0, !tail_0. rewrite set_same_s. reflexivity.
      + destruct (Z.eq_dec n (zlen (sr_u (s_cached (v_s st))))) as [->|Hne].
        * rewrite loop_take by (unfold sc; change (zlen (@nil S)) with 0; lia). cbn [app]. unfold sc. rewrite Z.ltb_irrefl. unfold put_s, shrink, tail. rewrite <- HL, Z.sub_diag. reflexivity.
        * rewrite loop_part by (unfold sc; change (zlen (@nil S)) with 0; lia). change (zlen (@nil S)) with 0. rewrite Z.sub_0_r. reflexivity.
    - unfold get_sender_cached. destruct (Z.ltb_spec (zlen (sr_u (s_cached (v_s st)))) n); [|lia]. reflexivity.
  Qed.

  Lemma loop_good r n u v st st' x : good_s st -> s_done (v_s st) = true -> zlen u <= n -> zlen u = zlen v -> possible (loop r n u v st) (st', Ok x) -> good_s st' /\ s_done (v_s st') = true.
  Proof.
    intros [[Hb HL] Hbt] Hd Hu Luv Hp. apply (run_sender_loop_solo S E M) in Hp; auto. cbv beta iota in Hp. destruct Hp as (_ & A2 & A3 & A4 & _).
    split; [|congruence]. split; [split; [exact (around_base S E _ _ Hb A2)|exact A3]|]. destruct A2 as (_ & _ & _ & A2 & _). lia.
  Qed.

  Definition to_sender (x : sender_result S) : answer S := Sender (sr_u x) (sr_v x).
  Lemma both_sender n1 n2 st : good_s st -> s_done (v_s st) = true -> 0 <= n1 -> 0 <= n2 ->
    alike (both (as_sender S E M (Run n1)) (as_sender S E M (Run n2)) st)
      (pbind (then_loop (Z.to_nat n2 + 1) n2 (loop (Z.to_nat n1 + 1) n1 [] [] st)) (fun '(st2, r) => Ret (st2, rmap (fun '(x1, x2) => (to_sender x1, to_sender x2)) r))).
  Proof.
    intros Hg Hd H1 H2. unfold both, then_loop, as_sender. rewrite (run_is_loop n1 st Hg Hd H1).
    eapply alike_trans; [apply alike_assoc|]. eapply alike_trans; [|apply alike_sym, alike_assoc]. apply alike_bind. intros [st1 [x1|e|w]] Hp; cbn [pbind rmap]; [|apply alike_refl..].
    apply loop_good in Hp; [|exact Hg|exact Hd|exact H1|reflexivity]. destruct Hp as [Hg1 Hd1]. rewrite (run_is_loop n2 st1 Hg1 Hd1 H2).
    eapply alike_trans; [apply alike_assoc|]. eapply alike_trans; [|apply alike_sym, alike_assoc]. apply alike_bind. intros [st2 [x2|e|w]] _; apply alike_refl.
  Qed.
  Definition ordered p q two one : Prop := same_elements two one /\ @in_order S p q two one.
  Lemma split_sender_order n1 n2 st : good_s st -> s_done (v_s st) = true -> 0 <= n1 -> 0 <= n2 ->
    alike_up (ordered (last_part n1 (zlen (sr_u (sc st))) (v_batch_size st)) (Z.min n2 (left_over n1 (zlen (sr_u (sc st))) (v_batch_size st))))
      (both (as_sender S E M (Run n1)) (as_sender S E M (Run n2)) st) (as_sender S E M (Run (n1 + n2)) st).
  Proof.
    intros Hg Hd H1 H2. eapply up_alike; [apply both_sender; auto|]. unfold as_sender. rewrite (run_is_loop (n1 + n2) st Hg Hd) by lia.
    eapply up_binds; [apply split_loop; [exact Hg|reflexivity|exact H1|exact H2|apply enough_new; lia|apply enough_new; lia]|]. change (zlen (@nil S)) with 0. rewrite Z.sub_0_r.
    intros [s1 [[x1 x2]|e|w]] [s2 [y|e'|w']] [E1 E2]; cbn [fst snd] in *; try contradiction; constructor; [|split; [split; cbn; auto|exact I]..].
    destruct E2 as (A1 & A2 & A3 & A4 & A5 & A6). split; [split; [exact E1|cbn; auto]|cbn; auto].
  Qed.
  Lemma split_sender n1 n2 st : good_s st -> s_done (v_s st) = true -> 0 <= n1 -> 0 <= n2 ->
    alike_up same_elements (both (as_sender S E M (Run n1)) (as_sender S E M (Run n2)) st) (as_sender S E M (Run (n1 + n2)) st).
  Proof. intros Hg Hd H1 H2. eapply up_mono; [|apply split_sender_order; auto]. intros a b H. apply H. Qed.

  (** ** The receiver *)
  Notation rloop := (run_receiver_loop S E M).
  Definition good_r (d : S) (st : vole S) : Prop := base S E st /\ 1 <= v_batch_size st /\ rdelta S (v_r st) = d.
  Definition rc (st : vole S) := rr_w (r_cached (v_r st)).
  Definition put_r w d (st : vole S) : vole S := set_r S (set_r_cached S (ReceiverResult w d) (v_r st)) st.
  Definition renough (r : nat) size (w : list S) (st : vole S) : Prop :=
    size <= zlen w \/ size - zlen w + (if zlen (rc st) =? 0 then 1 else 0) <= Z.of_nat r.

  Lemma rloop_take r size w d st : good_r d st -> zlen w < size -> zlen w + zlen (rc st) <= size ->
    rloop (Datatypes.S r) size w d st =
    if zlen (w ++ rc st) <? size
    then mbind (expand S (expand_receiver S E M)) (fun _ => rloop r size (w ++ rc st) d) (put_r [] d st)
    else Ret (put_r [] d st, Ok (ReceiverResult (w ++ rc st) d)).
  Proof.
    intros (_ & _ & <-) H1 H2. rewrite run_receiver_loop_more by auto. unfold rc in *. destruct (Z.leb_spec (zlen w + zlen (rr_w (r_cached (v_r st)))) size); [|lia].
    erewrite bind_ok; [|rewrite bind_set; reflexivity]. destruct (Z.ltb_spec (zlen (w ++ rr_w (r_cached (v_r st)))) size); [reflexivity|]. now apply run_receiver_loop_done.
  Qed.
  Lemma rloop_part r size w d st : good_r d st -> zlen w < size -> size < zlen w + zlen (rc st) ->
    rloop (Datatypes.S r) size w d st =
    Ret (put_r (shrink (size - zlen w) (rc st)) d st, Ok (ReceiverResult (w ++ tail (size - zlen w) (rc st)) d)).
  Proof.
    intros (_ & _ & <-) H1 H2. rewrite run_receiver_loop_more by auto. unfold rc in *. destruct (Z.leb_spec (zlen w + zlen (rr_w (r_cached (v_r st)))) size); [lia|].
    erewrite bind_ok; [|apply get_receiver_ok; lia]. cbn [rr_w rr_delta]. assert (Ht : zlen (w ++ tail (size - zlen w) (rr_w (r_cached (v_r st)))) = size) by (rewrite zlen_app, zlen_tail; lia).
    rewrite Ht, Z.ltb_irrefl. rewrite run_receiver_loop_done by lia. reflexivity.
  Qed.

  Lemma rexpand_good d st x st' : good_r d st -> zlen (rc st) = 0 -> possible (expand S (expand_receiver S E M) st) (st', Ok x) ->
    good_r d st' /\ zlen (rc st') = v_batch_size st' /\ v_batch_size st' = v_batch_size st.
  Proof.
    intros (Hb & Hbt & Hd) H0 Hp. pose proof Hb as (Hb1 & (Hb2 & Hb3 & Hb4) & Hb5).
    assert (HT : triple S (expand S (expand_receiver S E M) st) (fun st' r => match r with Ok _ => expanded_r S (v_batch_size st + v_vole_seed_size st + v_mpfss_seed_size st) (v_vole_seed_size st) (v_mpfss_seed_size st) st st' | _ => True end)).
    { apply expand_solo; [|auto]. eapply t_weaken; [apply (expand_receiver_solo S E M); lia|]. cbv beta. intros st2 [y|e|w]; auto. }
    specialize (HT _ _ Hp). cbv beta iota in HT. destruct HT as (m & w & Hm & Lc & Lw & Hst2).
    set (bt := v_batch_size st) in *. set (vs := v_vole_seed_size st) in *. set (ms := v_mpfss_seed_size st) in *.
    assert (Har : around S st st' vs ms) by (rewrite Hst2; unfold around; cbn; auto 10).
    assert (Hs2 : v_r st' = rmade_by S vs ms w (v_r st)) by (rewrite Hst2; reflexivity).
    assert (Hn : rr_w (r_cached (v_r st)) = []) by (unfold rc in H0; destruct (rr_w (r_cached (v_r st))); [reflexivity|rewrite zlen_cons in H0; pose proof (zlen_nonneg l); lia]).
    assert (Hc2 : zlen (rc st') = bt).
    { unfold rc. rewrite Hs2. unfold rmade_by. rewrite Hn. change (zlen (shrink ms (shrink vs w)) = bt). rewrite !zlen_shrink by (rewrite ?zlen_shrink; lia). lia. }
    pose proof Har as (A1 & A2 & A3 & A4 & A5 & A6 & A7). fold bt in A4. split; [|split; [congruence|exact A4]]. split; [apply (around_base S E st); [exact Hb|exact Har]|]. split; [unfold bt in A4; lia|].
    rewrite Hs2. exact Hd.
  Qed.
  Lemma put_rgood w d st : good_r d st -> good_r d (put_r w d st).
  Proof. intros (Hb & Hbt & Hd). split; [exact Hb|]. split; [exact Hbt|reflexivity]. Qed.

  Definition rafter (d : S) (a a' : list S) (p q : vole S * res (receiver_result S)) : Prop :=
    fst p = fst q /\
    match snd p, snd q with
    | Ok x, Ok y => exists c, x = ReceiverResult (a ++ c) d /\ y = ReceiverResult (a' ++ c) d
    | Err e, Err e' => e = e'
    | UB w, UB w' => w = w'
    | _, _ => False
    end.
  Lemma rloop_after d r2 : forall r size size' a a' st, good_r d st -> size - zlen a = size' - zlen a' -> 
    renough r2 size a st -> renough r size' a' st -> alike_up (rafter d a a') (rloop r2 size a d st) (rloop r size' a' d st).
  Proof.
    induction r2 as [|r2 IH]; intros r size size' a a' st Hg Hd He He'.
    all: destruct (Z.le_gt_cases size (zlen a)) as [Hle|Hgt];
      [rewrite !run_receiver_loop_done by lia; constructor; split; [reflexivity|]; exists []; rewrite !app_nil_r; auto|].
    { exfalso. destruct He as [He|He]; [lia|]. destruct (_ =? 0); lia. }
    destruct r as [|r]; [exfalso; destruct He' as [He'|He']; [lia|]; destruct (_ =? 0); lia|].
    destruct He as [He|He]; [lia|]. destruct He' as [He'|He']; [lia|]. pose proof (zlen_nonneg (rc st)) as Hc0.
    destruct (Z.le_gt_cases (zlen a + zlen (rc st)) size) as [Hfit|Hfit].
    - rewrite !rloop_take by (auto; lia). rewrite !zlen_app. destruct (Z.ltb_spec (zlen a + zlen (rc st)) size) as [Hm|Hm].
      + destruct (Z.ltb_spec (zlen a' + zlen (rc st)) size') as [_|]; [|lia]. unfold mbind. apply up_bind. intros [st2 [x|e|w]] Hp; [|constructor; split; reflexivity..].
        apply (rexpand_good d) in Hp; [|apply put_rgood; exact Hg|reflexivity]. destruct Hp as (Hg2 & Hc2 & Hb2). pose proof Hg2 as (_ & Hbt & _).
        eapply up_mono; [|apply IH; [exact Hg2|rewrite !zlen_app; lia|right|right]].
        * intros [s1 r1] [s2 r3] [E1 E2]. split; [exact E1|]. cbn [fst snd] in *. destruct r1 as [x1|e1|w1], r3 as [x3|e3|w3]; auto.
          destruct E2 as (c & -> & ->). exists (rc st ++ c). rewrite !app_assoc. auto.
        * rewrite Hc2, zlen_app. destruct (Z.eqb_spec (v_batch_size st2) 0); [lia|]. destruct (Z.eqb_spec (zlen (rc st)) 0); lia.
        * rewrite Hc2, zlen_app. destruct (Z.eqb_spec (v_batch_size st2) 0); [lia|]. destruct (Z.eqb_spec (zlen (rc st)) 0); lia.
      + destruct (Z.ltb_spec (zlen a' + zlen (rc st)) size') as [|_]; [lia|]. constructor. split; [reflexivity|]. exists (rc st). auto.
    - rewrite !rloop_part by (auto; lia). rewrite Hd. constructor. split; [reflexivity|]. eexists. split; reflexivity.
  Qed.

  Definition split_r p0 q0 (d : S) (p : vole S * res (receiver_result S * receiver_result S)) (q : vole S * res (receiver_result S)) : Prop :=
    fst p = fst q /\
    match snd p, snd q with
    | Ok (x1, x2), Ok y => rr_delta x1 = d /\ rr_delta x2 = d /\ rr_delta y = d /\ Permutation (rr_w y) (rr_w x1 ++ rr_w x2) /\
        rr_w y = splice p0 q0 (rr_w x1) (rr_w x2)
    | Err e, Err e' => e = e'
    | UB w, UB w' => w = w'
    | _, _ => False
    end.
  Definition then_rloop d r2 n2 (p : proc S (vole S * res (receiver_result S))) : proc S (vole S * res (receiver_result S * receiver_result S)) :=
    pbind p (fun '(st1, r1) => match r1 with
      | Ok x1 => pbind (rloop r2 n2 [] d st1) (fun '(st2, r2) => Ret (st2, rmap (pair x1) r2))
      | Err e => Ret (st1, Err e)
      | UB w => Ret (st1, UB w) end).
  Lemma rest_r p0 q0 d r2 r n1 n2 u u' a st : good_r d st -> zlen u' - zlen a = n1 -> 
    Permutation u' (u ++ a) -> (forall x, u' ++ x = splice p0 q0 u (a ++ x)) -> renough r2 n2 a st -> renough r (n1 + n2) u' st ->
    alike_up (split_r p0 q0 d) (pbind (rloop r2 n2 a d st) (fun '(st2, r2) => Ret (st2, rmap (pair (ReceiverResult u d)) r2))) (rloop r (n1 + n2) u' d st).
  Proof.
    intros Hg Hn HP HS1 He He'.
    eapply up_left; [apply (rloop_after d r2 r n2 (n1 + n2) a u' st); auto; lia|].
    intros [s1 [x|e|w]] [s2 [y|e'|w']] [E1 E2]; cbn [fst snd] in *; try contradiction; constructor; split; cbn; auto.
    destruct E2 as (c & -> & ->). cbn [rr_w rr_delta]. repeat (split; [reflexivity|]). split; [|apply HS1]. rewrite app_assoc. now apply Permutation_app_tail.
  Qed.
  Lemma renough_new n st : 0 <= n -> renough (Z.to_nat n + 1) n [] st.
  Proof. intro H. right. change (zlen (@nil S)) with 0. destruct (_ =? 0); lia. Qed.
  Lemma rput_put c c' d st : put_r c d (put_r c' d st) = put_r c d st.
  Proof. reflexivity. Qed.

  Lemma split_rloop d r1 : forall r n1 n2 u st, good_r d st -> zlen u <= n1 -> 0 <= n2 -> renough r1 n1 u st -> renough r (n1 + n2) u st ->
    alike_up (split_r (last_part (n1 - zlen u) (zlen (rc st)) (v_batch_size st)) (Z.min n2 (left_over (n1 - zlen u) (zlen (rc st)) (v_batch_size st))) d) (then_rloop d (Z.to_nat n2 + 1) n2 (rloop r1 n1 u d st)) (rloop r (n1 + n2) u d st).
  Proof.
    induction r1 as [|r1 IH]; intros r n1 n2 u st Hg Hu Hn2 He He'.
    all: destruct (Z.le_gt_cases n1 (zlen u)) as [Hle|Hgt];
      [rewrite (run_receiver_loop_done S E M _ n1) by lia; unfold then_rloop; cbn [pbind]; rewrite (last_part_0 (n1 - zlen u)) by (pose proof (zlen_nonneg (rc st)); lia);
       apply rest_r; [exact Hg|change (zlen (@nil S)) with 0; lia|rewrite app_nil_r; reflexivity|intro; apply splice_0|apply renough_new; exact Hn2|exact He']|].
    { exfalso. destruct He as [He|He]; [lia|]. destruct (_ =? 0); lia. }
    destruct r as [|r]; [exfalso; destruct He' as [He'|He']; [lia|]; destruct (_ =? 0); lia|].
    destruct He as [He|He]; [lia|]. destruct He' as [He'|He']; [lia|]. pose proof (zlen_nonneg (rc st)) as Hc0. set (c := rc st) in *.
    assert (Hg0 : good_r d (put_r [] d st)) by (apply put_rgood; exact Hg).
    destruct (Z.le_gt_cases (zlen u + zlen c) n1) as [Hfit|Hfit].
    - rewrite !rloop_take by (auto; fold c; lia). fold c. rewrite !zlen_app. destruct (Z.ltb_spec (zlen u + zlen c) n1) as [Hm|Hm].
      + destruct (Z.ltb_spec (zlen u + zlen c) (n1 + n2)) as [_|]; [|lia]. unfold then_rloop, mbind. apply up_assoc, up_bind. intros [st2 [x|e|w]] Hp; [|constructor; split; reflexivity..].
        apply (rexpand_good d) in Hp; [|exact Hg0|reflexivity]. destruct Hp as (Hg2 & Hc2 & Hb2). pose proof Hg2 as (_ & Hbt & _).
        assert (Hbe : v_batch_size st2 = v_batch_size st) by exact Hb2. rewrite Hbe in Hbt.
        destruct (last_part_next (n1 - zlen u) (zlen c) (v_batch_size st) Hbt) as [P1 P2]; [lia|]. rewrite <- P1, <- P2.
        replace (n1 - zlen u - zlen c) with (n1 - zlen (u ++ c)) by (rewrite zlen_app; lia).
        pose proof (IH r n1 n2 (u ++ c) st2) as HI. rewrite Hc2, Hbe in HI. apply HI; auto; try (rewrite !zlen_app; lia); right; rewrite Hc2, zlen_app; destruct (Z.eqb_spec (v_batch_size st2) 0); try lia; destruct (Z.eqb_spec (zlen c) 0); lia.
      + unfold then_rloop. cbn [pbind]. destruct (Z.ltb_spec (zlen u + zlen c) (n1 + n2)) as [Hn|Hn].
        * match goal with |- alike_up _ _ ?q => replace q with (rloop (Datatypes.S r) (n1 + n2) (u ++ c) d (put_r [] d st)) end.
          2:{ rewrite rloop_take; cbn [rc put_r set_r v_r set_r_cached r_cached rr_w rr_delta]; rewrite ?app_nil_r, ?zlen_app; change (zlen (@nil S)) with 0; try lia; [|exact Hg0].
              destruct (Z.ltb_spec (zlen u + zlen c) (n1 + n2)); [|lia]. reflexivity. }
          assert (Hlo : Z.min n2 (left_over (n1 - zlen u) (zlen c) (v_batch_size st)) = 0) by (unfold left_over; destruct (Z.leb_spec (n1 - zlen u) (zlen c)); lia). rewrite Hlo.
          apply rest_r; [exact Hg0| | |intro; apply splice_none|apply renough_new; exact Hn2|].
          -- rewrite zlen_app. change (zlen (@nil S)) with 0. lia.
          -- rewrite app_nil_r. reflexivity.
          -- right. rewrite zlen_app. destruct (Z.eqb_spec (zlen c) 0); [lia|]. destruct (_ =? 0); lia.
        * assert (n2 = 0) as -> by lia. rewrite run_receiver_loop_done by (change (zlen (@nil S)) with 0; lia). cbn [pbind]. constructor. split; [reflexivity|]. cbn.
          assert (Hlo : Z.min 0 (left_over (n1 - zlen u) (zlen c) (v_batch_size st)) = 0) by (unfold left_over; destruct (Z.leb_spec (n1 - zlen u) (zlen c)); lia). rewrite Hlo, <- splice_none, app_nil_r.
          repeat (split; [reflexivity|]). reflexivity.
    - rewrite (rloop_part r1) by (auto; fold c; lia). fold c. set (m := n1 - zlen u). set (st1 := put_r (shrink m c) d st).
      assert (S1 : zlen (shrink m c) = zlen c - m) by (apply zlen_shrink; lia).
      assert (T1 : zlen (tail m c) = m) by (apply zlen_tail; lia).
      assert (HP : Permutation (u ++ c) ((u ++ tail m c) ++ shrink m c)).
      { rewrite <- (shrink_tail m c) at 1. apply swap_perm. }
      assert (Hg1 : good_r d st1) by (apply put_rgood; exact Hg).
      assert (Hlp : last_part m (zlen c) (v_batch_size st) = m) by (unfold last_part; destruct (Z.leb_spec m (zlen c)); lia).
      assert (Hlo : left_over m (zlen c) (v_batch_size st) = zlen c - m) by (unfold left_over; destruct (Z.leb_spec m (zlen c)); lia).
      rewrite Hlp, Hlo. unfold then_rloop. cbn [pbind].
      destruct (Z.eq_dec n2 0) as [->|Hn0].
      { rewrite Z.add_0_r. rewrite rloop_part by (auto; fold c; lia). fold c m st1. rewrite run_receiver_loop_done by (change (zlen (@nil S)) with 0; lia). cbn [pbind]. constructor. split; [reflexivity|]. cbn.
        rewrite (Z.min_l 0) by lia. rewrite <- splice_none, app_nil_r. repeat (split; [reflexivity|]). reflexivity. }
      replace (Z.to_nat n2 + 1)%nat with (Datatypes.S (Z.to_nat n2)) by lia.
      assert (Hsc : rc st1 = shrink m c) by reflexivity.
      destruct (Z.le_gt_cases (zlen u + zlen c) (n1 + n2)) as [Hf2|Hf2].
      + rewrite !rloop_take; rewrite ?Hsc; cbn [app]; change (zlen (@nil S)) with 0; fold c; auto; try lia. rewrite zlen_app. unfold st1. rewrite !rput_put.
        rewrite (Z.min_r n2) by lia.
        assert (HS1 : forall x, (u ++ c) ++ x = splice m (zlen c - m) (u ++ tail m c) (shrink m c ++ x)) by (intro x; rewrite <- (shrink_tail m c) at 1; rewrite <- splice_parts by lia; now rewrite <- !app_assoc).
        destruct (Z.ltb_spec (zlen (shrink m c)) n2) as [Hl|Hl]; destruct (Z.ltb_spec (zlen u + zlen c) (n1 + n2)) as [Hl'|Hl']; try lia.
        * unfold mbind. apply up_assoc, up_bind. intros [st2 [x|e|w]] Hp; [|constructor; split; reflexivity..].
          apply (rexpand_good d) in Hp; [|exact Hg0|reflexivity]. destruct Hp as (Hg2 & Hc2 & Hb2). pose proof Hg2 as (_ & Hbt & _).
          apply rest_r; auto; try (rewrite !zlen_app; lia); try lia; right; rewrite Hc2, ?zlen_app; destruct (Z.eqb_spec (v_batch_size st2) 0); try lia; destruct (Z.eqb_spec (zlen c) 0); lia.
        * cbn [pbind]. constructor. split; [reflexivity|]. cbn. repeat (split; [reflexivity|]). split; [exact HP|]. specialize (HS1 []). rewrite !app_nil_r in HS1. exact HS1.
      + rewrite !rloop_part; rewrite ?Hsc; cbn [app]; change (zlen (@nil S)) with 0; fold c; auto; try lia. rewrite !Z.sub_0_r. replace (n1 + n2 - zlen u) with (m + n2) by lia.
        cbn [pbind]. constructor. rewrite !(shrink_sum _ m n2), !(tail_sum _ m n2) by lia. split; [reflexivity|]. cbn.
        repeat (split; [reflexivity|]). split; [apply swap_perm|]. rewrite (Z.min_l n2) by lia. assert (zlen (tail n2 (shrink m c)) = n2) by (apply zlen_tail; lia).
        rewrite <- (app_nil_r (tail n2 (shrink m c))) at 2. rewrite <- splice_parts by lia. rewrite app_nil_r. reflexivity.
  Qed.

  Lemma run_is_rloop d n st : good_r d st -> r_done (v_r st) = true -> 0 <= n -> run_receiver S E M n st = rloop (Z.to_nat n + 1) n [] d st.
  Proof.
    intros Hg Hd Hn. pose proof Hg as (_ & _ & Hdl). unfold run_receiver. rewrite bind_get, Hd, bind_ret. destruct (Z.le_gt_cases n (zlen (rr_w (r_cached (v_r st))))) as [H|H].
    - rewrite get_receiver_ok by lia. cbn [pbind]. replace (Z.to_nat n + 1)%nat with (Datatypes.S (Z.to_nat n)) by lia.
      destruct (Z.eq_dec n 0) as [->|Hn0].
      + rewrite run_receiver_loop_done by (change (zlen (@nil S)) with 0; lia). rewrite shrink_0, tail_0. rewrite set_same_r. unfold rdelta in Hdl. rewrite Hdl. reflexivity.
      + destruct (Z.eq_dec n (zlen (rr_w (r_cached (v_r st))))) as [->|Hne].
        * rewrite (rloop_take _ _ _ _ _ Hg) by (unfold rc; change (zlen (@nil S)) with 0; lia). cbn [app]. unfold rc. rewrite Z.ltb_irrefl. unfold put_r, shrink, tail. rewrite Z.sub_diag. unfold rdelta in Hdl. rewrite Hdl. reflexivity.
        * rewrite (rloop_part _ _ _ _ _ Hg) by (unfold rc; change (zlen (@nil S)) with 0; lia). change (zlen (@nil S)) with 0. rewrite Z.sub_0_r. unfold put_r, rc. unfold rdelta in Hdl. rewrite Hdl. reflexivity.
    - unfold get_receiver_cached. destruct (Z.ltb_spec (zlen (rr_w (r_cached (v_r st)))) n); [|lia]. unfold rdelta in Hdl. cbn [pbind]. rewrite Hdl. reflexivity.
  Qed.

  Lemma rloop_good d r n w st st' x : good_r d st -> r_done (v_r st) = true -> zlen w <= n -> possible (rloop r n w d st) (st', Ok x) -> good_r d st' /\ r_done (v_r st') = true.
  Proof.
    intros (Hb & Hbt & Hd) Hdn Hu Hp. apply (run_receiver_loop_solo S E M) in Hp; auto. cbv beta iota in Hp. destruct Hp as ((_ & A2 & A3 & A4 & _) & _).
    split; [|congruence]. split; [exact (around_base S E _ _ Hb A2)|]. split; [destruct A2 as (_ & _ & _ & A2 & _); lia|congruence].
  Qed.

  Definition to_receiver (x : receiver_result S) : answer S := Receiver (rr_w x) (rr_delta x).
  Lemma both_receiver d n1 n2 st : good_r d st -> r_done (v_r st) = true -> 0 <= n1 -> 0 <= n2 ->
    alike (both (as_receiver S E M (Run n1)) (as_receiver S E M (Run n2)) st)
      (pbind (then_rloop d (Z.to_nat n2 + 1) n2 (rloop (Z.to_nat n1 + 1) n1 [] d st)) (fun '(st2, r) => Ret (st2, rmap (fun '(x1, x2) => (to_receiver x1, to_receiver x2)) r))).
  Proof.
    intros Hg Hd H1 H2. unfold both, then_rloop, as_receiver. rewrite (run_is_rloop d n1 st Hg Hd H1).
    eapply alike_trans; [apply alike_assoc|]. eapply alike_trans; [|apply alike_sym, alike_assoc]. apply alike_bind. intros [st1 [x1|e|w]] Hp; cbn [pbind rmap]; [|apply alike_refl..].
    apply rloop_good in Hp; [|exact Hg|exact Hd|exact H1]. destruct Hp as [Hg1 Hd1]. rewrite (run_is_rloop d n2 st1 Hg1 Hd1 H2).
    eapply alike_trans; [apply alike_assoc|]. eapply alike_trans; [|apply alike_sym, alike_assoc]. apply alike_bind. intros [st2 [x2|e|w]] _; apply alike_refl.
  Qed.
  Lemma split_receiver_order d n1 n2 st : good_r d st -> r_done (v_r st) = true -> 0 <= n1 -> 0 <= n2 ->
    alike_up (ordered (last_part n1 (zlen (rc st)) (v_batch_size st)) (Z.min n2 (left_over n1 (zlen (rc st)) (v_batch_size st))))
      (both (as_receiver S E M (Run n1)) (as_receiver S E M (Run n2)) st) (as_receiver S E M (Run (n1 + n2)) st).
  Proof.
    intros Hg Hd H1 H2. eapply up_alike; [apply (both_receiver d); auto|]. unfold as_receiver. rewrite (run_is_rloop d (n1 + n2) st Hg Hd) by lia.
    eapply up_binds; [apply split_rloop; [exact Hg|exact H1|exact H2|apply renough_new; lia|apply renough_new; lia]|]. change (zlen (@nil S)) with 0. rewrite Z.sub_0_r.
    intros [s1 [[x1 x2]|e|w]] [s2 [y|e'|w']] [E1 E2]; cbn [fst snd] in *; try contradiction; constructor; [|split; [split; cbn; auto|exact I]..].
    destruct E2 as (D1 & D2 & D3 & HP & HS1). split; [split; [exact E1|]|exact HS1]. split; [congruence|]. split; [congruence|exact HP].
  Qed.
  Lemma split_receiver d n1 n2 st : good_r d st -> r_done (v_r st) = true -> 0 <= n1 -> 0 <= n2 ->
    alike_up same_elements (both (as_receiver S E M (Run n1)) (as_receiver S E M (Run n2)) st) (as_receiver S E M (Run (n1 + n2)) st).
  Proof. intros Hg Hd H1 H2. eapply up_mono; [|apply (split_receiver_order d); auto]. intros a b H. apply H. Qed.
End Split.

Section History.
  Context (S : scalar) (E : setting) (G : good_setting S E) (M : machine S) (GM : good_machine S M) (Hsize : 1 <= s_size S).
  Lemma split_sender_history st0 l1 e b l2 st n1 n2 : created S M st0 -> history S E M st0 (l1 ++ e :: l2) st -> precomputes true b l1 e -> Forall sender_run l2 ->
    0 <= n1 -> 0 <= n2 -> alike_up (ordered S (last_part n1 (zlen (sr_u (s_cached (v_s st)))) (v_batch_size st)) (Z.min n2 (left_over n1 (zlen (sr_u (s_cached (v_s st)))) (v_batch_size st)))) (both (as_sender S E M (Run n1)) (as_sender S E M (Run n2)) st) (as_sender S E M (Run (n1 + n2)) st).
  Proof.
    intros Hc H Hp HF H1 H2. pose proof (created_ok S E M _ Hc) as Hi.
    change (e :: l2) with ([e] ++ l2) in H. rewrite app_assoc in H. apply history_app in H. destruct H as (st1 & Ha & Hb).
    pose proof (proj1 (history_inv S E G M GM _ _ _ Hi Ha)) as Hi1. pose proof (proj1 (history_inv S E G M GM _ _ _ Hi1 Hb)) as Hi2.
    destruct (precomputed_sender S E G M GM _ _ _ _ _ Hc Ha Hp) as (A1 & _ & _). destruct (sender_at S E G M GM Hsize _ _ _ _ _ Hc Ha Hp) as (Hbt & j & Hj).
    destruct (runs_keep S E G M GM sender_run (fun a => s_done (v_s a)) (sender_run_step S E G M GM) l2 st1 st Hi1 Hb HF A1) as [B1 B2].
    pose proof (at_around S E _ _ _ _ Hj B2) as Hj2. pose proof (at_fits S E G _ _ _ Hbt Hj2) as (_ & Hf & _).
    apply (split_sender_order S E M); auto. split; auto.
  Qed.
  Lemma split_receiver_history st0 l1 e b l2 st n1 n2 : created S M st0 -> history S E M st0 (l1 ++ e :: l2) st -> precomputes false b l1 e -> Forall receiver_run l2 ->
    0 <= n1 -> 0 <= n2 -> alike_up (ordered S (last_part n1 (zlen (rr_w (r_cached (v_r st)))) (v_batch_size st)) (Z.min n2 (left_over n1 (zlen (rr_w (r_cached (v_r st)))) (v_batch_size st)))) (both (as_receiver S E M (Run n1)) (as_receiver S E M (Run n2)) st) (as_receiver S E M (Run (n1 + n2)) st).
  Proof.
    intros Hc H Hp HF H1 H2. pose proof (created_ok S E M _ Hc) as Hi.
    change (e :: l2) with ([e] ++ l2) in H. rewrite app_assoc in H. apply history_app in H. destruct H as (st1 & Ha & Hb).
    pose proof (proj1 (history_inv S E G M GM _ _ _ Hi Ha)) as Hi1. pose proof (proj1 (history_inv S E G M GM _ _ _ Hi1 Hb)) as Hi2.
    destruct (precomputed_receiver S E G M GM _ _ _ _ _ Hc Ha Hp) as (A1 & _ & _). destruct (receiver_at S E G M GM Hsize _ _ _ _ _ Hc Ha Hp) as (Hbt & j & Hj).
    destruct (runs_keep S E G M GM receiver_run (fun a => r_done (v_r a)) (receiver_run_step S E G M GM) l2 st1 st Hi1 Hb HF A1) as [B1 B2].
    pose proof (at_around S E _ _ _ _ Hj B2) as Hj2. pose proof (at_fits S E G _ _ _ Hbt Hj2) as (_ & Hf & _).
    apply (split_receiver_order S E M (rdelta S (v_r st))); auto. split; [apply Hi2|]. split; [exact Hf|reflexivity].
  Qed.
End History.
