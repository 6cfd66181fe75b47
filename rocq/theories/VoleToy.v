(** Concrete settings for the Vector-OLE generator, used to show that the
    hypotheses of its theorems can be met: the library's parameters, and a small
    setting in which whole sessions are executed. *)
From Verif Require Import Base BaseFacts ListFacts ScalarModel ScalarSpec ScalarProofs ProcModel ProcSpec ProcProofs RotModel RotSpec SpfssModel
  GilboaModel GilboaSpec RngModel RngUsable CuckooModel CuckooSpec MpfssModel MpfssSpec VoleModel VoleSpec VoleMeet VoleSolo VoleHistory.
From Coq Require Import QArith Permutation.
Local Open Scope Z_scope.

(** ** The library's parameters *)

(** [e_parameters] are those of the library, the number of buckets is between
    the number of indices and 19 times that number (it is about 1.5 times), and
    the remaining oracles behave. *)
Record library_setting (E : setting) : Prop := {
  ls_parameters : e_parameters E = library_parameters;
  ls_expansion : forall n, In n (p_num_noise library_parameters) -> n <= e_expansion3 E n <= 19 * n;
  ls_expansions : forall n, e_expansion3 E n < 2^63 /\ e_expansion2 E n < 2^63;
  ls_too_many : forall N n, 0 <= N <= 10616092 -> In n (p_num_noise library_parameters) -> e_too_many_bits E N (e_expansion3 E n) = false;
  ls_clog : forall s, 0 <= s <= 3 * 10616092 -> supported_size (e_clog E) s;
  ls_uniform : forall n g, 1 <= n -> usable g ->
    match e_uniform E n g with
    | Ok (g', i) => 0 <= i < n /\ drawn (e_aes E) g g'
    | Err _ => False
    | UB w => In w rng_ub
    end
}.

Lemma library_good t E : stype_ok t -> s_size (scalar_of t) <= 16 -> library_setting E -> good_setting (scalar_of t) E.
Proof.
  intros Ht Hs [H1 H2 H3 H4 H5 H6].
  pose proof (H2 98 ltac:(cbn; auto)). pose proof (H2 198 ltac:(cbn; auto)). pose proof (H2 382 ltac:(cbn; auto)).
  pose proof (H2 1254 ltac:(cbn; auto 10)). pose proof (H2 1324 ltac:(cbn; auto 10)).
  constructor; rewrite ?H1; auto.
  - discriminate.
  - cbn. repeat constructor; lia.
  - cbn. repeat (constructor; [cbn; lia|]). constructor.
  - cbn [p_num_noise library_parameters]. repeat (constructor; [lia|]). constructor.
  - change (zlen (p_seed_size library_parameters)) with 5. intros i Hi. assert (Hc : i = 0 \/ i = 1 \/ i = 2 \/ i = 3 \/ i = 4) by lia.
    destruct Hc as [-> | [-> | [-> | [-> | ->]]]]; unfold znth; cbn -[e_expansion3 Z.to_nat]; change (Z.to_nat 0) with 0%nat; change (Z.to_nat 1) with 1%nat; change (Z.to_nat 2) with 2%nat; change (Z.to_nat 3) with 3%nat; change (Z.to_nat 4) with 4%nat; cbn iota; lia.
  - change (zlen (p_seed_size library_parameters)) with 5. intros i Hi. assert (Hc : i = 0 \/ i = 1 \/ i = 2 \/ i = 3) by lia.
    destruct Hc as [-> | [-> | [-> | ->]]]; [change (0 + 1) with 1|change (1 + 1) with 2|change (2 + 1) with 3|change (3 + 1) with 4]; unfold znth; cbn -[e_expansion3 Z.to_nat]; change (Z.to_nat 0) with 0%nat; change (Z.to_nat 1) with 1%nat; change (Z.to_nat 2) with 2%nat; change (Z.to_nat 3) with 3%nat; change (Z.to_nat 4) with 4%nat; cbn iota; lia.
  - cbn. lia.
  - change (znth 0 (p_seed_size library_parameters) 0 + e_expansion3 E (znth 0 (p_num_noise library_parameters) 0)) with (1589 + e_expansion3 E 98).
    pose proof (sl_size _ (scalar_of_laws t Ht)). unfold transfers. set (s := s_size (scalar_of t)) in *.
    assert (1 <= 16 / s) by (apply Z.div_le_lower_bound; lia).
    assert ((1589 + e_expansion3 E 98 + 16 / s - 1) / (16 / s) <= 1589 + e_expansion3 E 98) by (apply Z.div_le_upper_bound; nia). nia.
Qed.

(** ** A small setting *)
Definition toy_mix (a b : N) (x : N) : N :=
  let y := N.land (x + N.shiftl x a + N.shiftl x b) 340282366920938463463374607431768211455 in N.lxor y (N.shiftr y (128 - b)).
Definition toy_aes (k x : N) : N :=
  toy_mix 17 93 (toy_mix 29 101 (toy_mix 13 71 (N.land (x + 31 * k + 12345) 340282366920938463463374607431768211455))).
Definition toy_clog (a n : Z) : nat := Z.to_nat (Z.log2_up n).
Definition toy_too (n b : Z) : bool := 2^40 <? n * b.
Definition toy_e (n : Z) : Z := Z.min (3 * n) (2^20).
Definition toy_uniform (n : Z) (g : rng) : res (rng * Z) :=
  match rng_next toy_aes g with
  | Ok (g, Value x) => Ok (g, Z.of_N x mod n)
  | _ => UB "std::runtime_error"
  end.
Notation F := (scalar_of (zz_p 1009)).
Definition toy_scalar (n : N) : F := s_of128 F n.
Definition toy_parameters := VoleParameters [7; 14] [2; 3] [1; 1] 10.
Definition toy_setting K := Setting toy_parameters toy_aes toy_clog K toy_too toy_e toy_e toy_uniform true.
Definition toy_machine id peer := Machine F id peer (fun n => [n]) toy_uniform 100 (fun _ l => l) (fun _ => toy_scalar 5).
Definition toy_tape (k : N) : tape F := fun n =>
  let x := N.of_nat n in (k * (1000 * x + 17), toy_scalar (k * (x * x + 3 * x) + 11))%N.

Lemma toy_good K : good_setting F (toy_setting K).
Proof.
  constructor; cbn [toy_setting e_parameters toy_parameters p_seed_size p_output_size p_num_noise e_expansion3 e_expansion2 e_too_many_bits e_clog e_uniform e_aes].
  - discriminate.
  - reflexivity.
  - reflexivity.
  - repeat constructor; lia.
  - repeat (constructor; [cbn; lia|]). constructor.
  - repeat (constructor; [vm_compute; split; discriminate|]). constructor.
  - change (zlen [2; 3]) with 2. intros i Hi. assert (Hc : i = 0 \/ i = 1) by lia. destruct Hc as [-> | ->]; reflexivity.
  - change (zlen [2; 3]) with 2. intros i Hi. assert (Hc : i = 0) by lia. subst. reflexivity.
  - reflexivity.
  - cbn [last]. intros N n HN [<- | [<- | []]]; unfold toy_too, toy_e; lia.
  - cbn [last]. intros s Hs. split; [lia|]. unfold toy_clog. destruct (Z.le_gt_cases s 1).
    + rewrite Z.log2_up_eqn0 by lia. cbn. lia.
    + rewrite Z2Nat.id by apply Z.log2_up_nonneg. apply Z.log2_up_spec. lia.
  - intro n. unfold toy_e. lia.
  - vm_compute. discriminate.
  - reflexivity.
  - intros n g Hn _. unfold toy_uniform. destruct (rng_next toy_aes g) as [[g' [x|]]| |] eqn:Eg; try (cbn; auto; fail).
    split; [apply Z.mod_pos_bound; lia|]. econstructor; [exact Eg|constructor].
Qed.
Lemma toy_machine_good id peer : good_machine F (toy_machine id peer).
Proof.
  constructor; cbn [toy_machine c_split c_uniform64 c_order].
  - intros n Hn. split; [repeat constructor; auto|]. cbn. lia.
  - intros n g Hn Hg. apply (usable_next toy_aes) in Hg. unfold toy_uniform. destruct (rng_next toy_aes g) as [[g' [x|]]| |]; try (cbn; auto; fail). split; [apply Z.mod_pos_bound; lia|auto].
  - intros x l. apply Permutation_refl.
Qed.
Lemma toy_connected : connected (toy_machine 0 1) (toy_machine 1 0).
Proof. repeat split. discriminate. Qed.

(** A list of calls with their results, and the object afterwards; the party
    goes on after errors. *)
Fixpoint recorded S E (M : machine S) (l : list (bool * call S)) (st : vole S) : proc S (list (bool * call S * res (answer S)) * vole S) :=
  match l with
  | [] => Ret ([], st)
  | (sends, c) :: l =>
      pbind ((if sends : bool then as_sender S E M c else as_receiver S E M c) st) (fun '(st, r) =>
        pbind (recorded S E M l st) (fun '(h, st) => Ret ((sends, c, r) :: h, st)))
  end.
Definition toy_life K id l : proc F (res (list (bool * call F * res (answer F)) * vole F)) :=
  pbindr (vole_create F (toy_machine id (1 - id)) false) (fun st => pbind (recorded F (toy_setting K) (toy_machine id (1 - id)) l st) (fun r => Ret (Ok r))).
(** Both parties. *)
Definition toy_session K l :=
  exec (Z.to_nat 5000) (toy_life K 0 l) (toy_tape 7) (toy_life K 1 (opposite F l)) (toy_tape 13) [] [].

Lemma exec_possible {T RA RB} fuel : forall (pa : proc T RA) ta (pb : proc T RB) tb ab ba a b,
  exec fuel pa ta pb tb ab ba = Some (a, b) -> possible pa a /\ possible pb b.
Proof.
  assert (Hs : forall R (p p' : proc T R) t t' i i' o o' r, pstep p t i o = Some (p', t', i', o') -> possible p' r -> possible p r).
  { intros R p p' t t' i i' o o' r H Hp. destruct p as [x|m k|k|cot cs k|k]; cbn in H.
    - discriminate.
    - injection H as <- <- <- <-. now constructor.
    - destruct i as [|m i]; [discriminate|]. injection H as <- <- <- <-. econstructor. exact Hp.
    - destruct i as [|m i]; [discriminate|]. injection H as <- <- <- <-. econstructor. exact Hp.
    - injection H as <- <- <- <-. econstructor. exact Hp. }
  induction fuel as [|fuel IH]; intros pa ta pb tb ab ba a b H; cbn in H; [discriminate|].
  destruct (pstep pa ta ba ab) as [[[[pa' ta'] ba'] ab']|] eqn:Ea.
  - apply IH in H. destruct H as [H1 H2]. split; [eapply Hs; eauto|auto].
  - destruct (pstep pb tb ab ba) as [[[[pb' tb'] ab'] ba']|] eqn:Eb.
    + apply IH in H. destruct H as [H1 H2]. split; [auto|eapply Hs; eauto].
    + destruct pa; try discriminate. destruct pb; try discriminate. injection H as <- <-. split; constructor.
Qed.

Lemma history_trans S E M (a : vole S) l1 b l2 d : history S E M a l1 b -> history S E M b l2 d -> history S E M a (l1 ++ l2) d.
Proof.
  intros H1 H2. induction H2; [now rewrite app_nil_r|]. rewrite app_assoc. econstructor; eauto.
Qed.
Definition defined {S} (e : bool * call S * res (answer S)) : Prop := forall w, snd e <> UB w.
Lemma recorded_history S E M l : forall (st : vole S) h st', possible (recorded S E M l st) (h, st') -> Forall defined h -> history S E M st h st'.
Proof.
  induction l as [|[s c] l IH]; intros st h st' H HF; cbn [recorded] in H.
  - apply possible_ret_inv in H. injection H as -> ->. constructor.
  - apply possible_bind in H. destruct H as ([st1 r] & H1 & H). apply possible_bind in H. destruct H as ([h1 st2] & H2 & H). apply possible_ret_inv in H. injection H as -> ->.
    inversion HF; subst. change ((s, c, r) :: h1) with ([(s, c, r)] ++ h1). eapply history_trans; [|apply IH; eauto].
    apply (history_snoc S E M st [] st s c r st1); auto. constructor.
Qed.
Lemma toy_history K l ha a hb b : toy_session K l = Some (Ok (ha, a), Ok (hb, b)) -> Forall defined ha -> Forall defined hb ->
  (exists st0, created F (toy_machine 0 1) st0 /\ history F (toy_setting K) (toy_machine 0 1) st0 ha a) /\
  (exists st0, created F (toy_machine 1 0) st0 /\ history F (toy_setting K) (toy_machine 1 0) st0 hb b).
Proof.
  unfold toy_session. generalize (Z.to_nat 5000). intros n H Ha Hb. apply exec_possible in H. destruct H as [H1 H2].
  split.
  - unfold toy_life in H1. apply possible_bindr_ok in H1. destruct H1 as (st0 & H1 & H3). apply possible_bind in H3. destruct H3 as (r & H3 & H4). apply possible_ret_inv in H4. injection H4 as <-.
    exists st0. split; [exact H1|]. eapply recorded_history; eauto.
  - unfold toy_life in H2. apply possible_bindr_ok in H2. destruct H2 as (st0 & H1' & H3). apply possible_bind in H3. destruct H3 as (r & H3 & H4). apply possible_ret_inv in H4. injection H4 as <-.
    exists st0. split; [exact H1'|]. eapply recorded_history; eauto.
Qed.

Lemma exec_steps {T RA RB} fuel : forall (pa : proc T RA) ta (pb : proc T RB) tb ab ba a b,
  exec fuel pa ta pb tb ab ba = Some (a, b) ->
  exists n d, steps n (Config pa ta pb tb ab ba) d /\ c_a d = Ret a /\ c_b d = Ret b.
Proof.
  induction fuel as [|fuel IH]; intros pa ta pb tb ab ba a b H; cbn in H; [discriminate|].
  destruct (pstep pa ta ba ab) as [[[[pa' ta'] ba'] ab']|] eqn:Ea.
  - apply IH in H. destruct H as (n & d & H & H1). exists (Datatypes.S n), d. split; [|exact H1]. econstructor; [|exact H]. now constructor.
  - destruct (pstep pb tb ab ba) as [[[[pb' tb'] ab'] ba']|] eqn:Eb.
    + apply IH in H. destruct H as (n & d & H & H1). exists (Datatypes.S n), d. split; [|exact H1]. econstructor; [|exact H]. now constructor.
    + destruct pa; try discriminate. destruct pb; try discriminate. injection H as <- <-. eexists 0%nat, _. split; [constructor|]. auto.
Qed.

(** Calls and answers with numbers in place of residues. *)
Inductive shown_call := ShowPrecompute (batch_size : Z) (delta : option N) | ShowRun (size : Z).
Inductive shown_answer := ShowPrecomputed | ShowSender (u v : list N) | ShowReceiver (w : list N) (delta : N).
Definition show_call (c : call F) : shown_call :=
  match c with Precompute b d => ShowPrecompute b (option_map zval d) | Run n => ShowRun n end.
Definition show_answer (a : answer F) : shown_answer :=
  match a with
  | Precomputed => ShowPrecomputed
  | Sender u v => ShowSender (map zval u) (map zval v)
  | Receiver w d => ShowReceiver (map zval w) (zval d)
  end.
Definition show (h : list (bool * call F * res (answer F))) : list (bool * shown_call * res shown_answer) :=
  map (fun '(s, c, r) => (s, show_call c, rmap show_answer r)) h.
Definition is_defined (e : bool * call F * res (answer F)) : bool := match snd e with UB _ => false | _ => true end.
Definition toy_view {A} (f : _ -> vole F -> _ -> vole F -> A) K l : option A :=
  match toy_session K l with
  | Some (Ok (ha, a), Ok (hb, b)) => if forallb is_defined ha && forallb is_defined hb then Some (f (show ha) a (show hb) b) else None
  | _ => None
  end.
(** What [toy_view] shows are histories of the two objects. *)
Lemma toy_view_history {A} (f : _ -> vole F -> _ -> vole F -> A) K l x : toy_view f K l = Some x ->
  exists sa ha a sb hb b,
    created F (toy_machine 0 1) sa /\ history F (toy_setting K) (toy_machine 0 1) sa ha a /\
    created F (toy_machine 1 0) sb /\ history F (toy_setting K) (toy_machine 1 0) sb hb b /\ f (show ha) a (show hb) b = x.
Proof.
  unfold toy_view. destruct (toy_session K l) as [[[[ha a]|?|?] [[hb b]|?|?]]|] eqn:E0; try discriminate. intro H.
  destruct (forallb is_defined ha) eqn:Ha; [|discriminate]. destruct (forallb is_defined hb) eqn:Hb; [|discriminate]. injection H as <-.
  assert (Hd : forall h, forallb is_defined h = true -> Forall defined h).
  { intros h Hh. apply Forall_forall. intros e He w Hw. rewrite forallb_forall in Hh. specialize (Hh e He). unfold is_defined in Hh. now rewrite Hw in Hh. }
  destruct (toy_history K l ha a hb b E0 (Hd _ Ha) (Hd _ Hb)) as [(sa & H1 & H2) (sb & H3 & H4)]. exists sa, ha, a, sb, hb, b. auto 10.
Qed.

(** ** Executed sessions *)
Definition toy_K := inject_Z (2^20).
(** So high that 10 * 7 elements can be sampled, but not 10 * 11. *)
Definition low_K := inject_Z (2^128 / (300 * (2^128 mod 1009))).
Definition toy_calls : list (bool * call F) := [(true, Precompute 5 (Some (toy_scalar 3))); (true, Run 2); (true, Run 9)].
Definition sizes (st : vole F) :=
  (v_batch_size st, zlen (sr_u (s_cached (v_s st))), zlen (s_made (v_s st)), zlen (s_used (v_s st))).

Lemma exec_lives {A} fuel (pa pb : proc F (res (vole F))) ta tb (f : vole F -> vole F -> A) x :
  match exec fuel pa ta pb tb [] [] with
  | Some (Ok a, Ok b) => Some (f a b)
  | _ => None
  end = Some x ->
  exists n d a b, steps n (start pa ta pb tb) d /\ c_a d = Ret (Ok a) /\ c_b d = Ret (Ok b) /\ f a b = x.
Proof.
  intro H. destruct (exec fuel pa ta pb tb [] []) as [[[a|?|?] [b|?|?]]|] eqn:E; try discriminate. injection H as <-.
  apply exec_steps in E. destruct E as (n & d & H1 & H2 & H3). exists n, d, a, b. auto.
Qed.
Lemma exec_shown fuel (pa pb : proc F (res (list (res (answer F))))) ta tb sa sb :
  match exec fuel pa ta pb tb [] [] with
  | Some (Ok la, Ok lb) => Some (map (rmap show_answer) la, map (rmap show_answer) lb)
  | _ => None
  end = Some (sa, sb) ->
  exists n d la lb, steps n (start pa ta pb tb) d /\ c_a d = Ret (Ok la) /\ c_b d = Ret (Ok lb) /\
    map (rmap show_answer) la = sa /\ map (rmap show_answer) lb = sb.
Proof.
  destruct (exec fuel pa ta pb tb [] []) as [[[la|?|?] [lb|?|?]]|] eqn:E0; try discriminate. intro H. injection H as <- <-.
  apply exec_steps in E0. destruct E0 as (n & d & H1 & H2 & H3). exists n, d, la, lb. auto 10.
Qed.

Definition wrong (u v w : list F) : bool :=
  negb (N.eqb (zval (znth (s_zero F) w 0)) (zval (s_add F (s_mul F (znth (s_zero F) u 0) (toy_scalar 3)) (znth (s_zero F) v 0)))).
Lemma exec_wrong fuel (pa pb : proc F (res (list (res (answer F))))) ta tb :
  match exec fuel pa ta pb tb [] [] with
  | Some (Ok [Ok Precomputed; Ok (Sender u v)], Ok [Ok Precomputed; Ok (Receiver w d)]) =>
      (zlen u =? 2) && (zlen v =? 2) && (zlen w =? 2) && N.eqb (zval d) 3 && wrong u v w
  | _ => false
  end = true ->
  exists n d u v w, steps n (start pa ta pb tb) d /\
    c_a d = Ret (Ok [Ok Precomputed; Ok (Sender u v)]) /\
    c_b d = Ret (Ok [Ok Precomputed; Ok (Receiver w (toy_scalar 3))]) /\
    zlen u = 2 /\ zlen v = 2 /\ zlen w = 2 /\ ~ vole_correlation F (toy_scalar 3) u v w.
Proof.
  destruct (exec fuel pa ta pb tb [] []) as [[ra rb]|] eqn:E0; [|discriminate].
  destruct ra as [la|?|?]; try discriminate.
  destruct la as [|[[| |]|?|?] [|[[|u v|]|?|?] [|]]]; try discriminate.
  destruct rb as [lb|?|?]; try discriminate.
  destruct lb as [|[[| |]|?|?] [|[[| |w d]|?|?] [|]]]; try discriminate.
  intro H. apply andb_prop in H. destruct H as [H Hw]. apply andb_prop in H. destruct H as [H Hd].
  apply andb_prop in H. destruct H as [H H3]. apply andb_prop in H. destruct H as [H1 H2].
  apply Z.eqb_eq in H1, H2, H3. apply N.eqb_eq in Hd.
  apply exec_steps in E0. destruct E0 as (n & cf & S1 & S2 & S3). exists n, cf, u, v, w. split; [exact S1|].
  assert (Ed : d = toy_scalar 3) by (apply zval_inj; exact Hd).
  subst d. split; [exact S2|]. split; [exact S3|]. split; [exact H1|]. split; [exact H2|]. split; [exact H3|].
  intros (_ & _ & Hc). specialize (Hc 0 ltac:(rewrite H3; lia)). unfold wrong in Hw. rewrite Hc, N.eqb_refl in Hw. discriminate.
Qed.

Lemma different_orders : exists n d u v w,
  steps n (start (party F (toy_setting toy_K) (toy_machine 0 1) (fun _ => false) [(true, Precompute 2 (Some (toy_scalar 3))); (true, Run 2)]) (toy_tape 7)
                 (party F (other_order (toy_setting toy_K)) (toy_machine 1 0) (fun _ => false) [(false, Precompute 2 (Some (toy_scalar 3))); (false, Run 2)]) (toy_tape 13)) d /\
  c_a d = Ret (Ok [Ok Precomputed; Ok (Sender u v)]) /\
  c_b d = Ret (Ok [Ok Precomputed; Ok (Receiver w (toy_scalar 3))]) /\
  zlen u = 2 /\ zlen v = 2 /\ zlen w = 2 /\ ~ vole_correlation F (toy_scalar 3) u v w.
Proof. apply (exec_wrong (Z.to_nat 5000)). vm_compute. reflexivity. Qed.

Lemma done_example :
  (exists st0, created F (toy_machine 0 1) st0 /\ s_done (v_s st0) = false /\ r_done (v_r st0) = false) /\
  (exists st0 l st, created F (toy_machine 0 1) st0 /\ history F (toy_setting toy_K) (toy_machine 0 1) st0 l st /\ s_done (v_s st) = true) /\
  (exists st0 l st, created F (toy_machine 1 0) st0 /\ history F (toy_setting toy_K) (toy_machine 1 0) st0 l st /\ r_done (v_r st) = true).
Proof.
  destruct (toy_view_history (fun _ a _ b => s_done (v_s a) && r_done (v_r b)) toy_K [(true, Precompute 1 None)] true) as (sa & ha & a & sb & hb & b & H1 & H2 & H3 & H4 & H5).
  { vm_compute. reflexivity. }
  apply andb_prop in H5. destruct H5. split; [|split; eauto 10].
  exists sa. split; [auto|]. apply created_inv in H1. destruct H1 as (h & _ & ->). auto.
Qed.

Lemma insecure_output : exists sa ha a sb hb b,
  created F (toy_machine 0 1) sa /\ history F (toy_setting low_K) (toy_machine 0 1) sa ha a /\
  created F (toy_machine 1 0) sb /\ history F (toy_setting low_K) (toy_machine 1 0) sb hb b /\
  let failed := Err (invalid_argument "Cannot sample enough random elements for the code generator with the given statistical security") in
  show ha =
  [(true, ShowPrecompute 2 (Some 3%N), Ok ShowPrecomputed);
   (true, ShowPrecompute 5 (Some 4%N), failed);
   (true, ShowRun 7, Ok (ShowSender [0; 0; 0; 0; 0; 0; 0] [883; 843; 14; 291; 248; 342; 545])%N)] /\
  show hb =
  [(false, ShowPrecompute 2 (Some 3%N), Ok ShowPrecomputed);
   (false, ShowPrecompute 5 (Some 4%N), failed);
   (false, ShowRun 7, Ok (ShowReceiver [883; 843; 14; 291; 248; 342; 545] 4)%N)].
Proof.
  destruct (toy_view_history (fun ha _ hb _ => (ha, hb)) low_K [(true, Precompute 2 (Some (toy_scalar 3))); (true, Precompute 5 (Some (toy_scalar 4))); (true, Run 7)]
     _ ltac:(vm_compute; reflexivity)) as (sa & ha & a & sb & hb & b & H1 & H2 & H3 & H4 & H5).
  injection H5 as H5 H6. exists sa, ha, a, sb, hb, b. auto 10.
Qed.
