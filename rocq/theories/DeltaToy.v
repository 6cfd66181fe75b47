(** A small session that meets the hypotheses of the theorem on the receiver's
    delta. *)
From Verif Require Import Base BaseFacts ListFacts ScalarModel ScalarSpec ScalarProofs ProcModel ProcSpec ProcProofs
  RotModel RotSpec GilboaSpec RngModel RngUsable MpfssSpec VoleModel VoleSpec VoleToy HideSpec DeltaSpec DeltaRng.
From Coq Require Import FMapPositive QArith Permutation.
Local Open Scope Z_scope.

(** [exec] to the very end: no message is left over. *)
Fixpoint finishes {T RA RB} (fuel : nat) (pa : proc T RA) (ta : tape T) (pb : proc T RB) (tb : tape T) (ab ba : list (msg T)) : option (RA * RB) :=
  match fuel with
  | O => None
  | Datatypes.S fuel =>
      match pstep pa ta ba ab with
      | Some (pa, ta, ba, ab) => finishes fuel pa ta pb tb ab ba
      | None =>
          match pstep pb tb ab ba with
          | Some (pb, tb, ab, ba) => finishes fuel pa ta pb tb ab ba
          | None => match pa, pb, ab, ba with Ret a, Ret b, [], [] => Some (a, b) | _, _, _, _ => None end
          end
      end
  end.
Lemma finishes_steps {T RA RB} fuel : forall (pa : proc T RA) ta (pb : proc T RB) tb ab ba a b,
  finishes fuel pa ta pb tb ab ba = Some (a, b) -> exists n ta' tb', steps n (Config pa ta pb tb ab ba) (finished a ta' b tb').
Proof.
  induction fuel as [|fuel IH]; intros pa ta pb tb ab ba a b H; cbn in H; [discriminate|].
  destruct (pstep pa ta ba ab) as [[[[pa' ta'] ba'] ab']|] eqn:Ea.
  - apply IH in H. destruct H as (n & t1 & t2 & H). exists (Datatypes.S n), t1, t2. econstructor; [|exact H]. now constructor.
  - destruct (pstep pb tb ab ba) as [[[[pb' tb'] ab'] ba']|] eqn:Eb.
    + apply IH in H. destruct H as (n & t1 & t2 & H). exists (Datatypes.S n), t1, t2. econstructor; [|exact H]. now constructor.
    + destruct pa; try discriminate. destruct pb; try discriminate. destruct ab; try discriminate. destruct ba; try discriminate.
      injection H as <- <-. exists 0%nat, ta, tb. constructor.
Qed.
Lemma finishes_completes {T RA RB} fuel (pa : proc T RA) ta (pb : proc T RB) tb a b :
  finishes fuel pa ta pb tb [] [] = Some (a, b) -> completes pa ta pb tb a b.
Proof.
  intro H. apply finishes_steps in H. destruct H as (n & ta' & tb' & H). exists n, ta', tb'. split; [exact H|].
  intros m d Hd. eapply schedule_independent; [exact H|apply finished_stuck|exact Hd].
Qed.

(** ** Checking that random blocks do not repeat *)
Definition triples (i n depth : nat) : list (nat * nat * Z) :=
  flat_map (fun s => flat_map (fun l => map (fun x => (s, l, Z.of_nat x)) (seq 0 (2 ^ l))) (seq 0 depth)) (seq (i + 2) (n - (i + 2))).
Definition triple_eqb (a b : nat * nat * Z) : bool := let '(s, l, x) := a in let '(s', l', x') := b in Nat.eqb s s' && Nat.eqb l l' && Z.eqb x x'.
Definition distinct_nodes (aes : N -> N -> N) depth blocks i : bool :=
  let node '(s, l, x) := tree_node aes (nth i blocks 0%N) (nth (i + 1) blocks 0%N) (nth s blocks 0%N) l x in
  let all := map (fun t => (N.succ_pos (node t), t)) (triples i (List.length blocks) depth) in
  let m := fold_left (fun m '(k, t) => PositiveMap.add k t m) all (PositiveMap.empty _) in
  forallb (fun '(k, t) => match PositiveMap.find k m with Some t' => triple_eqb t t' | None => false end) all.
Fixpoint all_different (l : list N) : bool := match l with [] => true | b :: l => negb (existsb (N.eqb b) l) && all_different l end.
Lemma all_different_ok l : all_different l = true -> NoDup l.
Proof.
  induction l as [|b l IH]; cbn; intro H; constructor; apply andb_prop in H; destruct H as [H1 H2]; [|auto]. intro Hb. apply negb_true_iff in H1.
  assert (existsb (N.eqb b) l = true) by (apply existsb_exists; exists b; split; [exact Hb|apply N.eqb_refl]). congruence.
Qed.
Definition lucky (aes : N -> N -> N) depth (receiver sender : list N) : bool :=
  forallb (fun b => (b <? 2^128)%N) (receiver ++ sender) && all_different receiver &&
  forallb (fun b => negb (existsb (N.eqb b) sender)) receiver && forallb (distinct_nodes aes depth receiver) (seq 0 (List.length receiver)).

Lemma triples_in i n depth s l x : (i + 1 < s < n)%nat -> (l < depth)%nat -> 0 <= x < 2 ^ Z.of_nat l -> In (s, l, x) (triples i n depth).
Proof.
  intros Hs Hl Hx. apply in_flat_map. exists s. split; [apply in_seq; lia|]. apply in_flat_map. exists l. split; [apply in_seq; lia|].
  apply in_map_iff. exists (Z.to_nat x). split; [rewrite Z2Nat.id by lia; reflexivity|]. apply in_seq.
  assert (E : 2 ^ Z.of_nat l = Z.of_nat (2 ^ l)) by (rewrite Nat2Z.inj_pow; reflexivity). lia.
Qed.
Lemma lucky_ok aes depth receiver sender : lucky aes depth receiver sender = true -> no_accidents aes depth receiver sender.
Proof.
  intro H. apply andb_prop in H. destruct H as [H H4]. apply andb_prop in H. destruct H as [H H3]. apply andb_prop in H. destruct H as [H1 H2].
  split; [|split; [|split]].
  - apply Forall_forall. intros b Hb. rewrite forallb_forall in H1. specialize (H1 b Hb). now apply N.ltb_lt.
  - now apply all_different_ok.
  - intros b Hb Hs. rewrite forallb_forall in H3. specialize (H3 b Hb). apply negb_true_iff in H3.
    assert (existsb (N.eqb b) sender = true) by (apply existsb_exists; exists b; split; [exact Hs|apply N.eqb_refl]). congruence.
  - intros i s s' l l' x x' Hs Hs' Hl Hl' Hx Hx' at_node E. rewrite forallb_forall in H4.
    specialize (H4 i ltac:(apply in_seq; lia)). unfold distinct_nodes in H4. rewrite forallb_forall in H4.
    assert (P : forall s l x, (i + 1 < s < List.length receiver)%nat -> (l < depth)%nat -> 0 <= x < 2 ^ Z.of_nat l ->
      In (N.succ_pos (at_node s l x), (s, l, x)) (map (fun t => (N.succ_pos (let '(s, l, x) := t in at_node s l x), t)) (triples i (List.length receiver) depth))).
    { intros s0 l0 x0 A1 A2 A3. apply in_map_iff. exists (s0, l0, x0). split; [reflexivity|]. now apply triples_in. }
    pose proof (H4 _ (P s l x Hs Hl Hx)) as Q1. pose proof (H4 _ (P s' l' x' Hs' Hl' Hx')) as Q2. cbv beta iota in Q1, Q2. rewrite <- E in Q2.
    destruct (PositiveMap.find _ _) as [[[s0 l0] x0]|]; [|discriminate]. cbn [triple_eqb] in Q1, Q2.
    apply andb_prop in Q1, Q2. destruct Q1 as [Q1 Q3], Q2 as [Q2 Q4]. apply andb_prop in Q1, Q2. destruct Q1 as [Q1 Q5], Q2 as [Q2 Q6].
    apply Nat.eqb_eq in Q1, Q2, Q5, Q6. apply Z.eqb_eq in Q3, Q4. split; [congruence|]. split; congruence.
Qed.

(** ** The session *)
Definition any_uniform (aes : N -> N -> N) (n : Z) (g : rng) : res (rng * Z) :=
  match rng_next aes g with
  | Ok (g, Value x) => Ok (g, Z.of_N x mod n)
  | _ => UB "std::runtime_error"
  end.
Lemma any_uniform_ok : uses_generator any_uniform.
Proof.
  intros aes aes' n g H. unfold any_uniform. destruct (next_same aes aes' (r_key g) H g eq_refl) as [H1 H2]. rewrite H1. split; [reflexivity|].
  intros g' i. destruct (rng_next aes g) as [[g1 [x|]]| |] eqn:Eg; try discriminate. intro H0. injection H0 as <- _. now apply (H2 g1 (Value x)).
Qed.

Lemma any_good K w : good_setting F (with_aes any_uniform (toy_setting K) w).
Proof.
  destruct (toy_good K). constructor; try assumption.
  intros n g Hn _. cbn [with_aes e_uniform e_aes]. unfold any_uniform. destruct (rng_next w g) as [[g' [x|]]| |] eqn:Eg; try (cbn; auto; fail).
  split; [apply Z.mod_pos_bound; lia|]. econstructor; [exact Eg|constructor].
Qed.
Lemma any_machine_good id peer w : good_machine F (machine_with_aes any_uniform (toy_machine id peer) w).
Proof.
  destruct (toy_machine_good id peer). constructor; try assumption.
  intros n g Hn Hg. apply (usable_next w) in Hg. cbn [machine_with_aes c_uniform64]. unfold any_uniform. destruct (rng_next w g) as [[g' [x|]]| |]; try (cbn; auto; fail). split; [apply Z.mod_pos_bound; lia|auto].
Qed.
Lemma toy_secure : secure F (toy_setting toy_K).
Proof.
  assert (H : forallb (fun n => s_can_hash F (security_per_leaf (toy_K * 3) (10 * n)) 128 && s_can_hash F (security_per_leaf (toy_K * 3 * 2) (3 * n)) 128) (map Z.of_nat (seq 1 14)) = true) by (vm_compute; reflexivity).
  intros n Hn. change (1 <= n <= 14) in Hn. rewrite forallb_forall in H. specialize (H n). apply andb_prop in H; [exact H|].
  apply in_map_iff. exists (Z.to_nat n). split; [lia|]. apply in_seq. lia.
Qed.

Definition is_ok {A} (r : res A) : bool := match r with Ok _ => true | _ => false end.
Lemma is_ok_all {S} (rs : list (res (answer S))) : forallb is_ok rs = true -> all_ok rs.
Proof. intro H. apply Forall_forall. intros r Hr. rewrite forallb_forall in H. specialize (H r Hr). destruct r; try discriminate. eauto. Qed.

Lemma finishes_lucky fuel (pa pb : proc F (res (list (res (answer F))))) ta tb aes depth n :
  match finishes fuel (watch pa []) ta (watch pb []) tb [] [] with
  | Some ((Ok rs, la), (Ok ss, lb)) => forallb is_ok rs && forallb is_ok ss && (zlen rs =? n) && lucky aes depth (drew la) (drew lb)
  | _ => false
  end = true ->
  exists rs la ss lb, completes (watch pa []) ta (watch pb []) tb (Ok rs, la) (Ok ss, lb) /\
    all_ok rs /\ all_ok ss /\ zlen rs = n /\ no_accidents aes depth (drew la) (drew lb).
Proof.
  intro H. destruct (finishes _ _ _ _ _ _ _) as [[[[rs|?|?] la] [[ss|?|?] lb]]|] eqn:Ef; try discriminate.
  apply andb_prop in H. destruct H as [H H4]. apply andb_prop in H. destruct H as [H H3]. apply andb_prop in H. destruct H as [H1 H2].
  apply finishes_completes in Ef. apply is_ok_all in H1, H2. apply lucky_ok in H4. apply Z.eqb_eq in H3. exists rs, la, ss, lb. auto.
Qed.


Definition toy_receiver l := party F (with_aes any_uniform (toy_setting toy_K) toy_aes) (machine_with_aes any_uniform (toy_machine 1 0) toy_aes) (fun _ => false) (map (pair false) l).
Definition toy_sender l := party F (with_aes any_uniform (toy_setting toy_K) toy_aes) (machine_with_aes any_uniform (toy_machine 0 1) toy_aes) (fun _ => false) (map (pair true) l).
Lemma delta_example : let l := [Precompute 1 (Some (toy_scalar 3)); Run 2] in exists rs la ss lb,
  completes (watch (toy_receiver l) []) (toy_tape 7) (watch (toy_sender l) []) (toy_tape 13) (Ok rs, la) (Ok ss, lb) /\
  all_ok rs /\ all_ok ss /\ zlen rs = 2 /\ no_accidents toy_aes 6 (drew la) (drew lb).
Proof. apply (finishes_lucky (Z.to_nat 9000)). vm_compute. reflexivity. Qed.
