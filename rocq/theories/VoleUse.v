(** Proofs about implicit precomputation and about the randomness of the sender's
    elements. *)
From Verif Require Import Base BaseFacts ListFacts ScalarModel ScalarSpec ProcModel ProcSpec RotModel SpfssModel
  GilboaModel GilboaSpec RngModel CuckooModel CuckooSpec MpfssModel MpfssSpec MpfssProofs MpfssFinal VoleModel VoleSpec VoleMeet VolePair VoleSolo VoleHistory
  UseSpec.
From Coq Require Import QArith Permutation.
Local Open Scope Z_scope.

(** ** Behaviours *)
Lemma alike_refl {T R} (p : proc T R) : alike p p.
Proof. induction p; constructor; auto. Qed.
Lemma alike_bind {T A B} (p : proc T A) (f g : A -> proc T B) : (forall a, possible p a -> alike (f a) (g a)) -> alike (pbind p f) (pbind p g).
Proof.
  induction p as [a|m p IH|k IH|c cs k IH|k IH]; cbn; intro H.
  - apply H. constructor.
  - constructor. apply IH. intros a Ha. apply H. now constructor.
  - constructor. intro m. apply IH. intros a Ha. apply H. econstructor. exact Ha.
  - constructor. intro m. apply IH. intros a Ha. apply H. econstructor. exact Ha.
  - constructor. intros x t. apply IH. intros a Ha. apply H. econstructor. exact Ha.
Qed.
Lemma alike_assoc {T A B C} (p : proc T A) (f : A -> proc T B) (g : B -> proc T C) :
  alike (pbind (pbind p f) g) (pbind p (fun a => pbind (f a) g)).
Proof. induction p; cbn; try constructor; auto. apply alike_refl. Qed.
Lemma alike_trans {T R} (p q r : proc T R) : alike p q -> alike q r -> alike p r.
Proof. intro H. revert r. induction H; intros r' H'; inversion H'; subst; constructor; auto. Qed.
Lemma alike_sym {T R} (p q : proc T R) : alike p q -> alike q p.
Proof. induction 1; constructor; auto. Qed.

Section Implicit.
  Variable S : scalar.
  Variable E : setting.
  Variable M : machine S.

  Lemma mset_last {A} (m : member S A) f st st' (r : res unit) : possible (mbind m (fun _ => mset f) st) (st', r) -> forall x, r = Ok x -> exists st1, st' = f st1.
  Proof.
    intros H x ->. unfold mbind in H. apply possible_bind in H. destruct H as ([st1 [y|e|w]] & _ & H); cbn in H; apply possible_ret_inv in H; try discriminate.
    injection H as ->. eauto.
  Qed.
  Lemma ok_bind {A B} (m : member S A) (f : A -> member S B) st st' b : possible (mbind m f st) (st', Ok b) -> exists st1 a, possible (m st) (st1, Ok a) /\ possible (f a st1) (st', Ok b).
  Proof.
    unfold mbind. intro H. apply possible_bind in H. destruct H as ([st1 [y|e|w]] & H1 & H2); [eauto| |]; apply possible_ret_inv in H2; discriminate.
  Qed.
  Lemma precompute_sender_done b st st' x : possible (precompute_sender S E M b st) (st', Ok x) -> s_done (v_s st') = true.
  Proof.
    unfold precompute_sender. destruct (b <? 1); [intro H; apply possible_ret_inv in H; discriminate|].
    intro H. do 7 (apply ok_bind in H; destruct H as (? & ? & _ & H)). apply possible_ret_inv in H. injection H as ->. reflexivity.
  Qed.
  Lemma precompute_receiver_done b d st st' x : possible (precompute_receiver S E M b d st) (st', Ok x) -> r_done (v_r st') = true.
  Proof.
    unfold precompute_receiver. destruct (b <? 1); [intro H; apply possible_ret_inv in H; discriminate|].
    intro H. do 7 (apply ok_bind in H; destruct H as (? & ? & _ & H)). apply possible_ret_inv in H. injection H as ->. reflexivity.
  Qed.

  (** A call, and another one if it succeeds. *)
  Definition and_then {A B} (p : proc S (vole S * res A)) (q : vole S -> proc S (vole S * res B)) : proc S (vole S * res B) :=
    pbind p (fun '(st, r) => match r with Ok _ => q st | Err e => Ret (st, Err e) | UB w => Ret (st, UB w) end).

  Lemma implicit_sender n st d : s_done (v_s st) = false ->
    alike (as_sender S E M (Run n) st)
          (and_then (as_sender S E M (Precompute n d) st) (as_sender S E M (Run n))).
  Proof.
    intro Hd. unfold as_sender, and_then, run_sender. rewrite bind_get, Hd. unfold mbind.
    eapply alike_trans; [apply alike_assoc|]. eapply alike_trans; [|apply alike_sym; apply alike_assoc].
    apply alike_bind. intros [st1 [x|e|w]] H; cbn; try apply alike_refl.
    apply precompute_sender_done in H. rewrite H. cbn. apply alike_refl.
  Qed.
  Lemma implicit_receiver n st : r_done (v_r st) = false ->
    alike (as_receiver S E M (Run n) st)
          (and_then (as_receiver S E M (Precompute n None) st) (as_receiver S E M (Run n))).
  Proof.
    intro Hd. unfold as_receiver, and_then, run_receiver. rewrite bind_get, Hd. unfold mbind at 1.
    eapply alike_trans; [apply alike_assoc|]. eapply alike_trans; [|apply alike_sym; apply alike_assoc].
    apply alike_bind. intros [st1 [x|e|w]] H; cbn; try apply alike_refl.
    unfold precompute_receiver_random in H. apply ok_bind in H. destruct H as (st2 & d & _ & H).
    apply precompute_receiver_done in H. rewrite H. cbn. apply alike_refl.
  Qed.
  Lemma random_delta b st :
    as_receiver S E M (Precompute b None) st = Rand (fun _ delta => as_receiver S E M (Precompute b (Some delta)) st).
  Proof. reflexivity. Qed.
End Implicit.

(** ** Random values *)
Section Ran.
  Context {T : Type}.
  Lemma ran_bind_inv {A B} (p : proc T A) (f : A -> proc T B) l b : ran (pbind p f) l b -> exists l1 a l2, ran p l1 a /\ ran (f a) l2 b /\ l = l1 ++ l2.
  Proof.
    revert l. induction p as [a|m p IH|k IH|c cs k IH|k IH]; cbn; intros l H.
    - exists [], a, l. split; [constructor|auto].
    - inversion H as [|? ? ? ? Hk| | |]; subst. destruct (IH _ Hk) as (l1 & a & l2 & H3 & H4 & ->). exists l1, a, l2. split; [econstructor; eauto|auto].
    - inversion H as [| |? m ? ? Hk| |]; subst. destruct (IH _ _ Hk) as (l1 & a & l2 & H3 & H4 & ->). exists l1, a, l2. split; [econstructor; eauto|auto].
    - inversion H as [| | |? ? ? x ? ? Hk|]; subst. destruct (IH _ _ Hk) as (l1 & a & l2 & H3 & H4 & ->). exists l1, a, l2. split; [econstructor; eauto|auto].
    - inversion H as [| | | |? x t ? ? Hk]; subst. destruct (IH _ _ _ Hk) as (l1 & a & l2 & H3 & H4 & ->). exists ((x, t) :: l1), a, l2. split; [econstructor; eauto|auto].
  Qed.
  Lemma ran_bind {A B} (p : proc T A) (f : A -> proc T B) l1 a l2 b : ran p l1 a -> ran (f a) l2 b -> ran (pbind p f) (l1 ++ l2) b.
  Proof. induction 1; cbn; intro H2; auto; econstructor; eauto. Qed.
  Lemma ran_ret_inv {A} (a : A) l b : ran (Ret a : proc T A) l b -> l = [] /\ b = a.
  Proof. intro H. inversion H; auto. Qed.
  Lemma ran_possible {A} (p : proc T A) l a : ran p l a -> possible p a.
  Proof. induction 1; econstructor; eauto. Qed.
  Lemma ran_blocks {A} n : forall (k : list N -> proc T A) l r, ran (rand_blocks n k) l r ->
    exists bs l2, List.length bs = n /\ l = bs ++ l2 /\ ran (k (map fst bs)) l2 r.
  Proof.
    induction n as [|n IH]; intros k l r H; cbn in H.
    - exists [], l. auto.
    - inversion H as [| | | |? x t ? ? Hk]; subst. apply IH in Hk. destruct Hk as (bs & l2 & H1 & -> & H2). exists ((x, t) :: bs), l2. cbn. auto.
  Qed.
  Lemma ran_scalars {A} n : forall (k : list T -> proc T A) l r, ran (rand_scalars n k) l r ->
    exists bs l2, List.length bs = n /\ l = bs ++ l2 /\ ran (k (map snd bs)) l2 r.
  Proof.
    induction n as [|n IH]; intros k l r H; cbn in H.
    - exists [], l. auto.
    - inversion H as [| | | |? x t ? ? Hk]; subst. apply IH in Hk. destruct Hk as (bs & l2 & H1 & -> & H2). exists ((x, t) :: bs), l2. cbn. auto.
  Qed.
End Ran.

Section Fresh.
  Variable S : scalar.
  Variable E : setting.
  Variable M : machine S.

  Lemma ran_ok {A B} (m : member S A) (f : A -> member S B) st l st' b : ran (mbind m f st) l (st', Ok b) ->
    exists st1 a l1 l2, ran (m st) l1 (st1, Ok a) /\ ran (f a st1) l2 (st', Ok b) /\ l = l1 ++ l2.
  Proof.
    unfold mbind. intro H. apply ran_bind_inv in H. destruct H as (l1 & [st1 [a|e|w]] & l2 & H1 & H2 & ->); [eauto 10| |]; apply ran_ret_inv in H2; destruct H2; discriminate.
  Qed.
  Lemma ran_calc {A B} (m : res A) (f : A -> member S B) st l st' b : ran (mbind (mcalc m) f st) l (st', Ok b) -> exists a, m = Ok a /\ ran (f a st) l (st', Ok b).
  Proof. unfold mbind, mcalc. cbn. destruct m; intro H; [eauto| |]; apply ran_ret_inv in H; destruct H; discriminate. Qed.

  Lemma sample_places tries out num : forall g set set', NoDup set -> zlen set <= num -> sample_indices S M tries out num g set = Ok set' ->
    exists places g', picks (c_uniform64 M) out g places g' /\ NoDup set' /\ zlen set' = num /\ (forall x, In x set' <-> In x places \/ In x set) /\
      forall l x, places = l ++ [x] -> ~ In x l /\ ~ In x set.
  Proof.
    induction tries as [|tries IH]; intros g set set' Hn Hl H; cbn [sample_indices] in H.
    all: destruct (Z.leb_spec num (zlen set)); [injection H as <-; exists [], g; split; [constructor|]; split; [auto|]; split; [lia|]; split; [intro x; cbn; tauto|intros [|] x Hx; discriminate]|].
    - discriminate.
    - apply rbind_ok_inv in H. destruct H as ([g1 i] & H1 & H). destruct (existsb (Z.eqb i) set) eqn:Ex.
      + apply IH in H; auto. destruct H as (places & g' & K1 & K2 & K3 & K4 & K5). exists (i :: places), g'. split; [econstructor; eauto|]. split; [auto|]. split; [auto|].
        apply existsb_exists in Ex. destruct Ex as (j & Hj & Ej). apply Z.eqb_eq in Ej. subst j. split.
        * intro x. rewrite K4. cbn. split; [tauto|]. intros [[->|Hx]|Hx]; auto.
        * intros l x Hx. destruct l as [|y l].
          -- injection Hx as -> ->. exfalso. assert (Hs : incl set' set) by (intros y Hy; apply K4 in Hy; destruct Hy as [[]|Hy]; exact Hy).
             apply NoDup_incl_length in Hs; [|auto]. unfold zlen in *. lia.
          -- injection Hx as <- ->. specialize (K5 l x eq_refl). destruct K5 as [K5 K6]. split; [|auto]. intros [<-|Hx]; auto.
      + apply IH in H.
        * destruct H as (places & g' & K1 & K2 & K3 & K4 & K5). exists (i :: places), g'. split; [econstructor; eauto|]. split; [auto|]. split; [auto|]. split; [intro x; rewrite K4; cbn; tauto|].
          intros l x Hx. destruct l as [|y l].
          -- injection Hx as -> ->. split; [auto|]. intro Hin. rewrite <- not_true_iff_false in Ex. apply Ex. apply existsb_exists. exists x. split; [auto|apply Z.eqb_refl].
          -- injection Hx as <- ->. specialize (K5 l x eq_refl). destruct K5 as [K5 K6]. split; [|intro Hx; apply K6; now right]. intros [<-|Hx]; [apply K6; now left|auto].
        * constructor; auto. intro Hin. rewrite <- not_true_iff_false in Ex. apply Ex. apply existsb_exists. exists i. split; [auto|apply Z.eqb_refl].
        * rewrite zlen_cons. lia.
  Qed.

  Lemma zset_inv {A} (l : list A) i a l' : zset l i a = Ok l' -> 0 <= i < zlen l /\ zlen l' = zlen l /\ forall d k, znth d l' k = if k =? i then a else znth d l k.
  Proof.
    intro H. unfold zset in H. destruct ((0 <=? i) && (i <? zlen l)) eqn:Hb; [|discriminate]. injection H as <-. assert (Hi : 0 <= i < zlen l) by lia. clear Hb.
    split; [auto|]. split; [apply zlen_list_set|]. intros d k. destruct (Z.eqb_spec k i) as [->|Hn]; [now apply znth_list_set_eq|].
    destruct (Z_lt_dec k 0); [rewrite !znth_out by (rewrite ?zlen_list_set; lia); reflexivity|]. apply znth_list_set_neq; lia.
  Qed.
  Lemma NoDup_znth {A} (d : A) l i j : NoDup l -> 0 <= i < zlen l -> 0 <= j < zlen l -> znth d l i = znth d l j -> i = j.
  Proof.
    intros H Hi Hj He. unfold znth, zlen in *. destruct (_ <? 0) eqn:E1 in He; [lia|]. destruct (_ <? 0) eqn:E2 in He; [lia|].
    apply (proj1 (NoDup_nth l d) H) in He; lia.
  Qed.
  Lemma spread_noise out num indices y mu : 0 <= out -> 0 <= num -> zlen indices = num -> NoDup indices -> spread S out num indices y = Ok mu ->
    zlen mu = out /\ (forall i, 0 <= i < num -> znth (s_zero S) mu (znth 0 indices i) = znth (s_zero S) y i) /\ forall k, ~ In k indices -> znth (s_zero S) mu k = s_zero S.
  Proof.
    intros Ho Hn Hl Hd H. unfold spread in H.
    apply (for_range_inv_ok (fun j mu => zlen mu = out /\ (forall i, 0 <= i < j -> znth (s_zero S) mu (znth 0 indices i) = znth (s_zero S) y i) /\
      forall k, ~ In k indices -> znth (s_zero S) mu k = s_zero S)) in H; auto.
    - split; [apply zlen_zrepeat; auto|]. split; [lia|]. intros k _. destruct (Z_lt_dec k 0); [apply znth_out; lia|]. destruct (Z_lt_dec k out); [apply znth_zrepeat; lia|].
      apply znth_out. rewrite zlen_zrepeat; lia.
    - intros j m m' Hj (H1 & H2 & H3) Hx. apply rbind_ok_inv in Hx. destruct Hx as (ix & Hix & Hx). apply rbind_ok_inv in Hx. destruct Hx as (v & Hv & Hx).
      apply zget_inv in Hix, Hv. destruct Hix as [_ Hix], Hv as [_ Hv]. apply zset_inv in Hx. destruct Hx as (K1 & K2 & K3). split; [lia|]. split.
      + intros i Hi. rewrite K3. destruct (Z.eqb_spec (znth 0 indices i) ix) as [He|He].
        * rewrite <- (Hix 0) in He. apply (NoDup_znth 0 indices i j Hd) in He; try lia. subst i. symmetry. apply Hv.
        * apply H2. assert (i <> j) by (intros ->; rewrite Hix in He; auto). lia.
      + intros k Hk. rewrite K3. destruct (Z.eqb_spec k ix) as [->|_]; [|auto]. exfalso. apply Hk. rewrite <- (Hix 0). apply znth_In. lia.
  Qed.

  Hypothesis G : good_setting S E.
  Hypothesis GM : good_machine S M.

  Lemma expand_fresh st l st' x : 0 <= v_batch_size st -> 0 <= v_vole_seed_size st -> 0 <= v_mpfss_seed_size st ->
    s_cached (v_s st) = SenderResult [] [] -> ran (expand S (expand_sender S E M) st) l (st', Ok x) -> fresh S M st l st'.
  Proof.
    intros Hb Hv Hm Hc H. unfold expand in H. apply ran_ok in H. destruct H as (st1 & out & l1 & l2 & H1 & H & ->).
    unfold full_output in H1. rewrite !bind_get in H1. unfold mcalc in H1. apply ran_ret_inv in H1. destruct H1 as [-> H1].
    unfold int64_result in H1. destruct (_ && _); [|discriminate]. injection H1 as -> ->. set (out := v_batch_size st + _ + _) in *. cbn [app].
    rewrite !bind_get in H. unfold expand_sender in H. rewrite !bind_get in H. cbv zeta in H.
    destruct (negb (_ =? _)) eqn:D1 in H; [apply ran_ret_inv in H; destruct H; discriminate|]. destruct (negb (_ =? _) || _) eqn:D2 in H; [apply ran_ret_inv in H; destruct H; discriminate|].
    apply orb_false_iff in D2. destruct D2 as [D2 D3]. apply negb_false_iff in D1, D2, D3. apply Z.eqb_eq in D1, D2, D3.
    apply ran_ok in H. destruct H as (st1 & bs & k1 & l3 & H1 & H & ->). unfold mproc in H1. apply ran_bind_inv in H1. destruct H1 as (k2 & r & k3 & H1 & H2 & ->).
    apply ran_blocks in H1. destruct H1 as (bl & k4 & Lb & -> & H1). apply ran_ret_inv in H1. destruct H1 as [-> ->]. apply ran_ret_inv in H2. destruct H2 as [-> H2]. injection H2 as -> ->.
    destruct bl as [|b1 [|b2 [|b3 bl]]]; try discriminate. clear Lb. cbn [map List.concat] in H. rewrite app_nil_r in H.
    apply ran_calc in H. destruct H as (g & Hg & H). apply ran_calc in H. destruct H as (set & Hset & H).
    apply ran_ok in H. destruct H as (st1 & indices & k1 & l4 & H1 & H & ->). unfold mproc in H1. cbn [pbind] in H1. inversion H1 as [| | | |? chance t ? ? Hk]; subst. cbn [pbind] in Hk.
    apply ran_ret_inv in Hk. destruct Hk as [-> Hk]. injection Hk as -> ->. destruct (_ <? 0) eqn:Hneg in H; [apply ran_ret_inv in H; destruct H; discriminate|].
    apply ran_ok in H. destruct H as (st1 & y & k1 & l5 & H1' & H & ->). unfold mproc in H1'. apply ran_bind_inv in H1'. destruct H1' as (k2 & r & k3 & H1' & H2 & ->).
    apply ran_scalars in H1'. destruct H1' as (ys & k4 & Ly & -> & H1'). apply ran_ret_inv in H1'. destruct H1' as [-> ->]. apply ran_ret_inv in H2. destruct H2 as [-> H2]. injection H2 as -> ->.
    apply ran_ok in H. destruct H as (st1 & v0 & k1 & l6 & Hp & H & ->). apply ran_possible in Hp. unfold mmpfss in Hp. apply possible_bind in Hp. destruct Hp as ([m x0] & Hp & Hr). apply possible_ret_inv in Hr. injection Hr as -> <-.
    apply index_solo in Hp. destruct Hp as [_ Hx]. specialize (Hx v0 eq_refl). rewrite zlen_zrepeat in Hx by lia.
    apply ran_calc in H. destruct H as (mu & Hmu & H). rewrite bind_set in H.
    assert (Hnum : 0 <= v_num_noise st) by lia.
    apply sample_places in Hset; [|constructor|exact Hnum]. destruct Hset as (places & g' & S1 & S2 & S3 & S4 & S5).
    pose proof (gm_order S M GM chance set) as Hperm. set (indices := c_order M chance set) in *.
    assert (Li : zlen indices = v_num_noise st) by (unfold zlen in *; rewrite (Permutation_length Hperm); auto).
    assert (Nd : NoDup indices) by (eapply Permutation_NoDup; [apply Permutation_sym; exact Hperm|auto]).
    apply spread_noise in Hmu; auto; [|lia]. destruct Hmu as (U1 & U2 & U3).
    set (u := vec_add S (encode S (v_columns st) (sr_u (s_vole_seed (v_s st)))) mu) in *.
    assert (Lu : zlen u = out) by (unfold u; rewrite zlen_vec_add; rewrite zlen_encode; lia).
    erewrite bind_ok in H; [|apply new_sender_ok; auto; cbn; rewrite Hc; cbn; fold out; lia].
    rewrite bind_set in H. unfold mset in H. apply ran_ret_inv in H. destruct H as [-> H]. injection H as ->.
    cbn. rewrite Hc. cbn [sr_u sr_v app]. unfold fresh. fold out.
    exists b1, b2, (chance, t), ys, (k1 ++ []), g, places, g', indices, mu, u. cbn [app]. split; [now rewrite <- !app_assoc|].
    split; [unfold zlen in *; lia|]. split; [auto|]. split; [auto|]. split; [intros l' x' Hx'; apply (S5 l' x' Hx')|]. split.
    { eapply Permutation_trans; [exact Hperm|]. apply NoDup_Permutation; [auto|apply NoDup_nodup|]. intro z. rewrite S4, nodup_In. cbn. tauto. }
    split; [auto|]. split; [auto|]. split.
    { intros i d Hi. rewrite U2 by auto. apply (znth_map snd d). unfold zlen. lia. }
    split; [auto|]. split; [auto|]. split.
    { intros k Hk. unfold u. rewrite znth_vec_add; rewrite ?zlen_encode; try lia. f_equal. unfold encode. rewrite (znth_map _ []) by lia. reflexivity. }
    cbn. fold u. split; [now rewrite app_assoc, !shrink_tail|]. rewrite !zlen_tail, !zlen_shrink; rewrite ?zlen_shrink; lia.
  Qed.

  Notation loop := (run_sender_loop S E M).
  Definition keeps (st st' : vole S) : Prop :=
    v_batch_size st' = v_batch_size st /\ v_vole_seed_size st' = v_vole_seed_size st /\ v_mpfss_seed_size st' = v_mpfss_seed_size st /\ s_done (v_s st') = s_done (v_s st).
  Definition sound (st : vole S) : Prop := 1 <= v_batch_size st /\ 0 <= v_vole_seed_size st /\ 0 <= v_mpfss_seed_size st /\ slens S (v_s st).
  Lemma expand_keeps st l st' x : sound st -> ran (expand S (expand_sender S E M) st) l (st', Ok x) -> keeps st st' /\ sound st'.
  Proof.
    intros (Hb & Hv & Hm & HL) H. apply ran_possible in H.
    assert (K : triple S (expand S (expand_sender S E M) st) (fun st' r => match r with Ok _ => expanded_s S (v_batch_size st + v_vole_seed_size st + v_mpfss_seed_size st) (v_vole_seed_size st) (v_mpfss_seed_size st) st st' | _ => True end)).
    { apply expand_solo; [|auto]. eapply t_weaken; [apply expand_sender_solo; auto; lia|]. intros st1 [y|e|w]; auto. }
    apply K in H. destruct H as (m & mu & v0 & _ & Lc & Lm & Lv & _ & ->). split; [repeat split|]. split; [auto|]. split; [auto|]. split; [auto|]. cbn.
    assert (Lu : zlen (vec_add S (encode S (v_columns st) (sr_u (s_vole_seed (v_s st)))) mu) = zlen (v_columns st)) by (rewrite zlen_vec_add; rewrite zlen_encode; lia).
    apply made_lens; auto; lia.
  Qed.

  Definition take_cache (st : vole S) : vole S := set_s S (set_s_cached S (SenderResult [] []) (v_s st)) st.
  Lemma loop_step r size u v st l st' x : zlen u < size -> sound st -> ran (loop (Datatypes.S r) size u v st) l (st', Ok x) ->
    let c := s_cached (v_s st) in
    (zlen u + zlen (sr_u c) < size /\ exists l1 l2 st1, l = l1 ++ l2 /\ ran (expand S (expand_sender S E M) (take_cache st)) l1 (st1, Ok tt) /\
      ran (loop r size (u ++ sr_u c) (v ++ sr_v c) st1) l2 (st', Ok x)) \/
    (size <= zlen u + zlen (sr_u c) /\ l = [] /\ get_sender_cached S (size - zlen u) st = Ret (st', Ok (SenderResult (tail (size - zlen u) (sr_u c)) (tail (size - zlen u) (sr_v c)))) /\
      x = SenderResult (u ++ tail (size - zlen u) (sr_u c)) (v ++ tail (size - zlen u) (sr_v c))).
  Proof.
    intros Hlt (_ & _ & _ & Hl & _) H c. rewrite run_sender_loop_more in H by auto. fold c in H, Hl. destruct (Z.leb_spec (zlen u + zlen (sr_u c)) size) as [Hf|Hf].
    - erewrite bind_ok in H; [|rewrite bind_set; reflexivity]. rewrite zlen_app in H. destruct (Z.ltb_spec (zlen u + zlen (sr_u c)) size) as [Hm|Hm].
      + left. split; [auto|]. apply ran_ok in H. destruct H as (st1 & [] & l1 & l2 & H1 & H2 & ->). exists l1, l2, st1. auto.
      + right. split; [lia|]. rewrite run_sender_loop_done in H by (rewrite zlen_app; lia). apply ran_ret_inv in H. destruct H as [-> H]. injection H as -> ->.
        split; [auto|]. rewrite get_sender_ok by (fold c; lia). fold c. replace (size - zlen u) with (zlen (sr_u c)) by lia.
        unfold shrink, tail. rewrite <- Hl, Z.sub_diag. cbn. auto.
    - right. split; [lia|]. erewrite bind_ok in H by (apply get_sender_ok; fold c; lia). fold c in H. cbn [sr_u sr_v] in H. rewrite zlen_app, zlen_tail in H by lia.
      replace (zlen u + (size - zlen u) <? size) with false in H by lia. rewrite run_sender_loop_done in H by (rewrite zlen_app, zlen_tail; lia). apply ran_ret_inv in H. destruct H as [-> H]. injection H as -> ->.
      split; [auto|]. rewrite get_sender_ok by (fold c; lia). auto.
  Qed.
  Lemma take_sound st : sound st -> sound (take_cache st).
  Proof. intros (H1 & H2 & H3 & H4 & H5 & H6). split; [auto|]. split; [auto|]. split; [auto|]. split; [reflexivity|auto]. Qed.
  Lemma expand_cached st l st' : sound st -> ran (expand S (expand_sender S E M) (take_cache st)) l (st', Ok tt) ->
    zlen (sr_u (s_cached (v_s st'))) = v_batch_size st /\ sound st' /\ keeps st st' /\ fresh S M st l st'.
  Proof.
    intros Hs H. pose proof (take_sound _ Hs) as Ht. destruct (expand_keeps _ _ _ _ Ht H) as [K1 K2]. destruct Ht as (T1 & T2 & T3 & _).
    apply expand_fresh in H; try lia; [|reflexivity]. split; [|auto]. destruct H as (? & ? & ? & ? & ? & ? & ? & ? & ? & ? & ? & H). apply H.
  Qed.

  (** Elements in front of the result. *)
  Lemma loop_front r : forall size p q u v st l st' x, sound st -> zlen p = zlen q ->
    ran (loop r size (p ++ u) (q ++ v) st) l (st', Ok x) ->
    exists y, ran (loop r (size - zlen p) u v st) l (st', Ok y) /\ sr_u x = p ++ sr_u y /\ sr_v x = q ++ sr_v y.
  Proof.
    induction r as [|r IH]; intros size p q u v st l st' x Hs Hpq H; (destruct (Z_le_gt_dec size (zlen (p ++ u))) as [Hle|Hgt];
      [rewrite run_sender_loop_done in H by auto; apply ran_ret_inv in H; destruct H as [-> H]; injection H as -> ->; rewrite zlen_app in Hle;
       exists (SenderResult u v); rewrite run_sender_loop_done by lia; split; [constructor|auto]|]).
    - cbn [run_sender_loop] in H. replace (size <=? zlen (p ++ u)) with false in H by lia. apply ran_ret_inv in H. destruct H. discriminate.
    - apply loop_step in H; [|lia|auto]. rewrite zlen_app in *. destruct H as [(Hf & l1 & l2 & st1 & -> & H1 & H2)|(Hf & -> & H1 & ->)].
      + rewrite <- !app_assoc in H2. pose proof (proj1 (proj2 (expand_cached _ _ _ Hs H1))) as Hs1. apply IH in H2; auto. destruct H2 as (y & H2 & Y1 & Y2).
        exists y. split; [|auto]. rewrite run_sender_loop_more by lia. replace (zlen u + _ <=? size - zlen p) with true by lia.
        erewrite bind_ok; [|rewrite bind_set; reflexivity]. rewrite zlen_app. replace (zlen u + _ <? size - zlen p) with true by lia.
        unfold mbind. eapply ran_bind; [exact H1|]. exact H2.
      + replace (size - (zlen p + zlen u)) with (size - zlen p - zlen u) in * by lia. set (k := size - zlen p - zlen u) in *. set (c := s_cached (v_s st)) in *.
        exists (SenderResult (u ++ tail k (sr_u c)) (v ++ tail k (sr_v c))). split; [|cbn; now rewrite <- !app_assoc].
        rewrite run_sender_loop_more by lia. fold c. destruct (Z.leb_spec (zlen u + zlen (sr_u c)) (size - zlen p)) as [Hx|Hx].
        * assert (Ek : k = zlen (sr_u c)) by lia. assert (Ev : zlen (sr_v c) = k) by (destruct Hs as (_ & _ & _ & Hs & _); unfold c in *; lia).
          erewrite bind_ok; [|rewrite bind_set; reflexivity]. rewrite zlen_app. replace (_ <? size - zlen p) with false by lia.
          rewrite run_sender_loop_done by (rewrite zlen_app; lia). rewrite get_sender_ok in H1 by (fold c; lia). injection H1 as <-. fold c.
          unfold shrink, tail. rewrite Ev, <- Ek, !Z.sub_diag. cbn. constructor.
        * erewrite bind_ok by exact H1. cbn [sr_u sr_v]. rewrite zlen_app, zlen_tail by lia. replace (_ <? size - zlen p) with false by lia.
          rewrite run_sender_loop_done by (rewrite zlen_app, zlen_tail; lia). constructor.
  Qed.
  (** The bound of the recursion does not matter. *)
  Lemma loop_fuel r : forall r' size u v st l st' x, sound st -> ran (loop r size u v st) l (st', Ok x) ->
    (Z.to_nat (size - zlen u) + (if (zlen (sr_u (s_cached (v_s st))) =? 0)%Z then 1 else 0) <= r')%nat -> ran (loop r' size u v st) l (st', Ok x).
  Proof.
    induction r as [|r IH]; intros r' size u v st l st' x Hs H Hr; (destruct (Z_le_gt_dec size (zlen u)) as [Hle|Hgt]; [rewrite run_sender_loop_done in * by auto; exact H|]).
    - cbn [run_sender_loop] in H. replace (size <=? zlen u) with false in H by lia. apply ran_ret_inv in H. destruct H. discriminate.
    - destruct r' as [|r']; [lia|]. pose proof H as H0. apply loop_step in H; [|lia|auto]. destruct H as [(Hf & l1 & l2 & st1 & -> & H1 & H2)|(Hf & -> & H1 & ->)].
      + destruct (expand_cached _ _ _ Hs H1) as (C1 & Hs1 & _). apply (IH r') in H2; auto.
        * rewrite run_sender_loop_more by lia. replace (zlen u + _ <=? size) with true by lia. erewrite bind_ok; [|rewrite bind_set; reflexivity]. rewrite zlen_app.
          replace (zlen u + _ <? size) with true by lia. unfold mbind. eapply ran_bind; [exact H1|]. exact H2.
        * rewrite C1, zlen_app. destruct Hs as (Hs & _). replace (v_batch_size st =? 0) with false by lia. pose proof (zlen_nonneg (sr_u (s_cached (v_s st)))).
          destruct (Z.eqb_spec (zlen (sr_u (s_cached (v_s st)))) 0); lia.
      + rewrite run_sender_loop_more in * by lia. set (c := s_cached (v_s st)) in *. destruct (Z.leb_spec (zlen u + zlen (sr_u c)) size) as [Hx|Hx].
        * erewrite bind_ok in *; try (rewrite bind_set; reflexivity). rewrite zlen_app in *. replace (_ <? size) with false in * by lia.
          rewrite run_sender_loop_done in * by (rewrite zlen_app; lia). exact H0.
        * erewrite bind_ok in * by exact H1. cbn [sr_u sr_v] in *. rewrite zlen_app, zlen_tail in * by lia. replace (_ <? size) with false in * by lia.
          rewrite run_sender_loop_done in * by (rewrite zlen_app, zlen_tail; lia). exact H0.
  Qed.

  Lemma run_fresh n st l st' u v : sound st -> s_done (v_s st) = true -> let c := s_cached (v_s st) in zlen (sr_u c) < n ->
    ran (as_sender S E M (Run n) st) l (st', Ok (Sender u v)) ->
    exists st1 l1 l2 u' v', l = l1 ++ l2 /\ fresh S M st l1 st1 /\ u = sr_u c ++ u' /\ v = sr_v c ++ v' /\
      ran (as_sender S E M (Run (n - zlen (sr_u c))) st1) l2 (st', Ok (Sender u' v')).
  Proof.
    intros Hs Hd c Hc H. unfold as_sender, run_sender in H. rewrite bind_get, Hd in H. unfold mbind, mret in H. cbn [pbind] in H.
    unfold get_sender_cached in H. fold c in H. replace (zlen (sr_u c) <? n) with true in H by lia. cbn [pbind] in H.
    apply ran_bind_inv in H. destruct H as (l0 & [st0 r] & l3 & H & H3 & ->). apply ran_ret_inv in H3. destruct H3 as [-> H3]. rewrite app_nil_r. destruct r as [x|e|w]; try discriminate. injection H3 as -> -> ->.
    pose proof (zlen_nonneg (sr_u c)) as Hc0. replace (Z.to_nat n + 1)%nat with (Datatypes.S (Z.to_nat n)) in H by lia.
    apply loop_step in H; [|change (0 < n); lia|auto]. fold c in H. change (zlen (@nil S)) with 0 in H. destruct H as [(_ & l1 & l2 & st1 & -> & H1 & H2)|(Hf & _)]; [|lia].
    cbn [app] in H2. destruct (expand_cached _ _ _ Hs H1) as (C1 & Hs1 & (K1 & K2 & K3 & K4) & Hfr). rewrite <- (app_nil_r (sr_u c)) in H2. rewrite <- (app_nil_r (sr_v c)) in H2.
    apply loop_front in H2; [|auto|apply Hs]. destruct H2 as (y & H2 & -> & ->). exists st1, l1, l2, (sr_u y), (sr_v y). split; [auto|]. split; [auto|]. split; [auto|]. split; [auto|].
    set (k := n - zlen (sr_u c)) in *. assert (Hk : 0 < k) by lia. unfold as_sender, run_sender. rewrite bind_get, K4. replace (s_done (v_s st)) with true. unfold mbind, mret. cbn [pbind].
    set (c1 := s_cached (v_s st1)) in *. destruct (Z_lt_le_dec (zlen (sr_u c1)) k) as [Hlt|Hge].
    - unfold get_sender_cached. fold c1. replace (zlen (sr_u c1) <? k) with true by lia. cbn [pbind]. rewrite <- (app_nil_r l2). apply (ran_bind _ _ _ (st0, Ok y)); [|constructor].
      eapply loop_fuel; [auto|exact H2|]. change (zlen (@nil S)) with 0. fold c1. destruct (zlen (sr_u c1) =? 0); lia.
    - rewrite get_sender_ok by (fold c1; lia). fold c1. cbn [pbind]. destruct (Z.to_nat n) as [|r0] eqn:En; [lia|].
      apply loop_step in H2; [|exact Hk|auto]. fold c1 in H2. change (zlen (@nil S)) with 0 in H2. destruct H2 as [(Hf & _)|(_ & -> & H2 & ->)]; [lia|].
      rewrite Z.sub_0_r in *. rewrite get_sender_ok in H2 by (fold c1; lia). fold c1 in H2. injection H2 as <-. cbn. constructor.
  Qed.

  Lemma fresh_history st0 l1 e b l2 st n l st' u v : created S M st0 -> history S E M st0 (l1 ++ e :: l2) st -> precomputes true b l1 e -> Forall sender_run l2 ->
    let c := s_cached (v_s st) in zlen (sr_u c) < n ->
    ran (as_sender S E M (Run n) st) l (st', Ok (Sender u v)) ->
    exists st1 l1 l2 u' v', l = l1 ++ l2 /\ fresh S M st l1 st1 /\ u = sr_u c ++ u' /\ v = sr_v c ++ v' /\
      ran (as_sender S E M (Run (n - zlen (sr_u c))) st1) l2 (st', Ok (Sender u' v')).
  Proof.
    intros Hc H Hp HF c Hn Hr. pose proof (created_ok S E M _ Hc) as Hi. change (e :: l2) with ([e] ++ l2) in H. rewrite app_assoc in H. apply history_app in H. destruct H as (sx & H1 & H2).
    pose proof (proj1 (history_inv S E G M GM _ _ _ Hi H1)) as Hi1. pose proof (proj1 (history_inv S E G M GM _ _ _ Hi1 H2)) as [Hb2 HL2].
    destruct (precomputed_sender S E G M GM _ _ _ _ _ Hc H1 Hp) as (A1 & A2 & _).
    destruct (runs_keep S E G M GM sender_run (fun a => s_done (v_s a)) (sender_run_step S E G M GM) l2 sx st Hi1 H2 HF A1) as [B1 (_ & _ & _ & B2 & _)].
    apply run_fresh; auto. destruct Hb2 as (_ & (? & ? & ?) & _). split; [lia|]. split; [auto|]. split; auto.
  Qed.

  (** ** The first seeds *)
  Definition grows {A} (m : member S A) : Prop := forall st st' r, possible (m st) (st', r) -> exists more, s_made (v_s st') = s_made (v_s st) ++ more.
  Lemma grows_bind {A B} (m : member S A) (f : A -> member S B) : grows m -> (forall a, grows (f a)) -> grows (mbind m f).
  Proof.
    intros H1 H2 st st' r H. unfold mbind in H. apply possible_bind in H. destruct H as ([st1 x] & Ha & Hb). apply H1 in Ha. destruct Ha as (m1 & Ha).
    destruct x as [a|e|w]; [apply H2 in Hb; destruct Hb as (m2 & Hb); exists (m1 ++ m2); rewrite Hb, Ha; now rewrite app_assoc| |];
      apply possible_ret_inv in Hb; injection Hb as -> ->; eauto.
  Qed.
  Lemma grows_same {A} (m : member S A) : (forall st st' r, possible (m st) (st', r) -> s_made (v_s st') = s_made (v_s st)) -> grows m.
  Proof. intros H st st' r Hp. exists []. rewrite app_nil_r. eauto. Qed.
  Lemma grows_ret {A} (m : member S A) : (forall st, exists st' r, m st = Ret (st', r) /\ exists more, s_made (v_s st') = s_made (v_s st) ++ more) -> grows m.
  Proof. intros H st st' r Hp. destruct (H st) as (st1 & r1 & E1 & Hm). rewrite E1 in Hp. apply possible_ret_inv in Hp. now injection Hp as -> ->. Qed.
  Lemma grows_get {A} (f : vole S -> A) : grows (mget f).
  Proof. apply grows_ret. intro st. eexists _, _. split; [reflexivity|]. exists []. now rewrite app_nil_r. Qed.
  Lemma grows_calc {A} (m : res A) : grows (mcalc m).
  Proof. apply grows_ret. intro st. eexists _, _. split; [reflexivity|]. exists []. now rewrite app_nil_r. Qed.
  Lemma grows_fail {A} e : grows (mfail e : member S A).
  Proof. apply (grows_calc (Err e)). Qed.
  Lemma grows_tt {A} (a : A) : grows (mret a : member S A).
  Proof. apply (grows_calc (Ok a)). Qed.
  Lemma grows_set f : (forall st, exists more, s_made (v_s (f st)) = s_made (v_s st) ++ more) -> grows (mset f : member S unit).
  Proof. intro H. apply grows_ret. intro st. eexists _, _. split; [reflexivity|apply H]. Qed.
  Lemma grows_proc {A} (p : proc S (res A)) : grows (mproc p).
  Proof. apply grows_same. intros st st' r H. unfold mproc in H. apply possible_bind in H. destruct H as (x & _ & H). apply possible_ret_inv in H. now injection H as -> ->. Qed.
  Lemma grows_mpfss {A} (p : mpfss -> proc S (mpfss * res A)) : grows (mmpfss p).
  Proof. apply grows_same. intros st st' r H. unfold mmpfss in H. apply possible_bind in H. destruct H as ([m x] & _ & H). apply possible_ret_inv in H. now injection H as -> ->. Qed.
  Lemma grows_cached n : grows (get_sender_cached S n).
  Proof.
    apply grows_ret. intro st. unfold get_sender_cached. destruct (_ <? n); [|destruct (n <? 0)]; (eexists _, _; split; [reflexivity|]; exists []; now rewrite app_nil_r).
  Qed.
  Ltac grow := repeat lazymatch goal with
    | |- grows (mbind _ _) => apply grows_bind; [|intro]
    | |- grows (mget _) => apply grows_get
    | |- grows (mcalc _) => apply grows_calc
    | |- grows (mfail _) => apply grows_fail
    | |- grows (mret _) => apply grows_tt
    | |- grows (mproc _) => apply grows_proc
    | |- grows (mmpfss _) => apply grows_mpfss
    | |- grows (get_sender_cached _ _) => apply grows_cached
    | |- grows (mset _) => apply grows_set; intro; first [exists []; now rewrite app_nil_r | now eexists]
    | |- grows (if ?b then _ else _) => destruct b
    end.
  Lemma grows_expand a b c : grows (expand_sender S E M a b c).
  Proof. unfold expand_sender, new_sender_seeds. cbv zeta. grow. Qed.
  Lemma grows_buckets out n : grows (m_update_buckets S E M out n).
  Proof. apply grows_ret. intro st. unfold m_update_buckets. destruct (update_buckets _ _ _ _ _ _ _ _). eexists _, _. split; [reflexivity|]. exists []. now rewrite app_nil_r. Qed.
  Lemma grows_num n : grows (m_num_buckets S E n).
  Proof. apply grows_ret. intro st. unfold m_num_buckets. eexists _, _. split; [reflexivity|]. exists []. now rewrite app_nil_r. Qed.
  Lemma grows_common out : grows (precompute_common S E M out).
  Proof. unfold precompute_common. apply grows_bind; [apply grows_get|intro]. apply grows_bind; [apply grows_buckets|intro]. grow. Qed.
  Lemma grows_bootstrap b l : grows (bootstrap S E M (expand_sender S E M) b l).
  Proof.
    induction l as [|i l IH]; cbn [bootstrap]; [apply grows_tt|]. grow; first [exact IH | apply grows_num | apply grows_common | apply grows_expand].
  Qed.
  Lemma grows_last b : grows (precompute_last S E M b).
  Proof. unfold precompute_last, full_output. grow. apply grows_common. Qed.

  Lemma first_seed b d l st st' r : base S E st -> ran (as_sender S E M (Precompute b d) st) l (st', Ok r) ->
    exists us vs rest more, l = us ++ vs ++ rest /\
    zlen us = znth 0 (p_seed_size (e_parameters E)) 0 + e_expansion3 E (znth 0 (p_num_noise (e_parameters E)) 0) /\ zlen vs = zlen us /\
    s_made (v_s st') = s_made (v_s st) ++ combine (map snd us) (map snd vs) ++ more.
  Proof.
    intros Hb H. unfold as_sender in H. apply ran_bind_inv in H. destruct H as (l1 & [st1 x] & l2 & H & H2 & ->). apply ran_ret_inv in H2. destruct H2 as [-> H2]. destruct x as [x|e|w]; try discriminate.
    injection H2 as -> _. rewrite app_nil_r. unfold precompute_sender in H. destruct (b <? 1); [apply ran_ret_inv in H; destruct H; discriminate|].
    rewrite (bind_ok S _ _ _ _ _ (sizes_solo S E G st (proj1 Hb))) in H. set (size := _ + _) in H. set (st2 := set_mpfss_seed_size _ _ _) in H.
    apply ran_ok in H. destruct H as (st3 & [] & k1 & k2 & H1 & H & ->). unfold sender_first_seed in H1.
    apply ran_ok in H1. destruct H1 as (st4 & u & j1 & j2 & K1 & H1 & ->). unfold mproc in K1. apply ran_bind_inv in K1. destruct K1 as (i1 & r1 & i2 & K1 & K2 & ->).
    apply ran_scalars in K1. destruct K1 as (us & i3 & Lu & -> & K1). apply ran_ret_inv in K1. destruct K1 as [-> ->]. apply ran_ret_inv in K2. destruct K2 as [-> K2]. injection K2 as -> ->.
    apply ran_ok in H1. destruct H1 as (st4 & v & j3 & j4 & K1 & H1 & ->). unfold mproc in K1. apply ran_bind_inv in K1. destruct K1 as (i1 & r1 & i2 & K1 & K2 & ->).
    apply ran_scalars in K1. destruct K1 as (vs & i3 & Lv & -> & K1). apply ran_ret_inv in K1. destruct K1 as [-> ->]. apply ran_ret_inv in K2. destruct K2 as [-> K2]. injection K2 as -> ->.
    rewrite bind_set in H1. 
    assert (Hg : grows (mbind (mproc (gilboa_vector_provider S (vole_K E) (map snd us) (zrepeat (s_zero S) size))) (fun w => mproc (Send (MVec (vec_add S w (map snd vs))) (Ret (Ok tt)))))) by grow.
    apply ran_possible in H1. apply Hg in H1. destruct H1 as (more1 & H1).
    apply ran_possible in H. assert (Hg2 : grows (mbind (mget v_vole_seed_size) (fun vs => mbind (mget v_mpfss_seed_size) (fun ms => mbind (new_sender_seeds S vs ms) (fun _ => mbind (bootstrap S E M (expand_sender S E M) b (levels E)) (fun _ =>
      mbind (precompute_last S E M b) (fun _ => mset (fun st => set_s S (set_s_done S (v_s st)) st)))))))).
    { unfold new_sender_seeds. grow; first [apply grows_bootstrap | apply grows_last]. }
    apply Hg2 in H. destruct H as (more2 & H). assert (Hs : 0 <= size) by (pose proof (level_facts S E G 0 ltac:(pose proof (gs_levels S E G); lia)); unfold size; lia).
    exists us, vs, (j4 ++ k2), (more1 ++ more2). split; [now rewrite !app_nil_r, <- !app_assoc|]. split; [unfold zlen; lia|]. split; [unfold zlen; lia|].
    rewrite H, H1. cbn. now rewrite <- !app_assoc.
  Qed.
  Lemma first_seed_history st0 h b d l st st' r : created S M st0 -> history S E M st0 h st -> ran (as_sender S E M (Precompute b d) st) l (st', Ok r) ->
    exists us vs rest more, l = us ++ vs ++ rest /\
    zlen us = znth 0 (p_seed_size (e_parameters E)) 0 + e_expansion3 E (znth 0 (p_num_noise (e_parameters E)) 0) /\ zlen vs = zlen us /\
    s_made (v_s st') = s_made (v_s st) ++ combine (map snd us) (map snd vs) ++ more.
  Proof.
    intros Hc H. pose proof (created_ok S E M _ Hc) as Hi. pose proof (proj1 (history_inv S E G M GM _ _ _ Hi H)) as [Hb _]. eapply first_seed; eauto.
  Qed.
End Fresh.

Lemma possible_ran {T A} (p : proc T A) a : possible p a -> exists l, ran p l a.
Proof. induction 1 as [r|m k r _ [l IH]|k m r _ [l IH]|c cs k x r _ [l IH]|k x t r _ [l IH]]; eexists; econstructor; eauto. Qed.
