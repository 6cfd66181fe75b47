(** Proofs about the Vector-OLE generator: the two parties' member functions
    against each other. *)
From Verif Require Import Base BaseFacts ListFacts ScalarModel ScalarSpec ScalarProofs SumFacts PackModel
  ProcModel ProcSpec ProcProofs MeetProofs RotModel RotSpec RotProofs RotFinal SpfssModel SpfssProofs
  GilboaModel GilboaSpec GilboaProofs GilboaFinal RngModel RngProofs RngUsable CuckooModel CuckooSpec CuckooProofs CuckooFinal
  MpfssModel MpfssSpec MpfssProofs MpfssFinal VoleModel VoleSpec VoleProofs VoleMeet.
From Coq Require Import QArith Ring_theory Ring Permutation.
Local Open Scope Z_scope.

Lemma znth_last {A} (d : A) l : znth d l (zlen l - 1) = last l d.
Proof.
  destruct l as [|x l] using rev_ind; [reflexivity|]. rewrite last_last, zlen_app. change (zlen [x]) with 1.
  pose proof (zlen_nonneg l). rewrite znth_app by lia. replace (_ <? _) with false by lia. now replace (zlen l + 1 - 1 - zlen l) with 0 by lia.
Qed.

Lemma for_range_res {S} (Inv : Z -> S -> Prop) (bad : string -> Prop) lo hi (body : Z -> S -> res S) s :
  lo <= hi -> Inv lo s ->
  (forall i s, lo <= i < hi -> Inv i s -> match body i s with Ok s' => Inv (i + 1) s' | Err _ => False | UB w => bad w end) ->
  match for_range lo hi body s with Ok s' => Inv hi s' | Err _ => False | UB w => bad w end.
Proof.
  intros Hle. remember (Z.to_nat (hi - lo)) as n eqn:En. revert lo s Hle En.
  induction n as [|n IH]; intros lo s Hle En H0 Hs.
  - assert (lo = hi) by lia. subst. rewrite for_range_empty by lia. exact H0.
  - rewrite for_range_first by lia. pose proof (Hs lo s ltac:(lia) H0) as H1. destruct (body lo s) as [s1| |]; cbn [rbind]; auto.
    apply IH; auto; try lia. intros i s2 Hi. apply Hs. lia.
Qed.

Section Rules.
  Variable S : scalar.
  (** Errors and undefined behaviour that only the first, and only the second
      party may have, and undefined behaviour that they may have together. *)
  Context {ea eb : list status * list string} {uj : list string}.
  Implicit Types a b : vole S.

  (** A result that only one of the parties may have. *)
  Definition failed {A} (fs : list status * list string) (r : vole S * res A) : Prop :=
    match snd r with Ok _ => False | Err e => In e (fst fs) | UB w => In w (snd fs) end.
  (** Results of both parties. *)
  Definition together {X Y} (Q : vole S -> X -> vole S -> Y -> Prop) (F : vole S -> vole S -> Prop)
    (ra : vole S * res X) (rb : vole S * res Y) : Prop :=
    match snd ra, snd rb with
    | Ok x, Ok y => Q (fst ra) x (fst rb) y
    | Err e, Err e' => e = e' /\ F (fst ra) (fst rb)
    | UB w, UB w' => w = w' /\ In w uj
    | _, _ => False
    end.
  Definition pair_ok {X Y} Q F (pa : proc S (vole S * res X)) (pb : proc S (vole S * res Y)) : Prop :=
    meet (failed ea) (failed eb) (together Q F) pa pb.

  Lemma pair_bind {X Y X' Y'} Q Q' (F0 F : vole S -> vole S -> Prop) (p : member S X) (q : member S Y) (f : X -> member S X') (g : Y -> member S Y') a b :
    pair_ok Q F0 (p a) (q b) -> (forall a b, F0 a b -> F a b) ->
    (forall a x b y, Q a x b y -> pair_ok Q' F (f x a) (g y b)) ->
    pair_ok Q' F (mbind p f a) (mbind q g b).
  Proof.
    intros H HF Hk. unfold mbind. eapply meet_bind; [exact H| | |].
    - intros [a' [x|e|w]] [b' [y|e'|w']] T; cbn in T; try contradiction.
      + apply Hk. exact T.
      + apply meet_ret. cbn. destruct T; auto.
      + apply meet_ret. exact T.
    - intros [a' [x|e|w]] T; cbn in T; try contradiction; eexists; (split; [reflexivity|exact T]).
    - intros [a' [x|e|w]] T; cbn in T; try contradiction; eexists; (split; [reflexivity|exact T]).
  Qed.
  Lemma pair_weaken {X Y} (Q Q' : vole S -> X -> vole S -> Y -> Prop) (F F' : vole S -> vole S -> Prop) pa pb :
    pair_ok Q F pa pb -> (forall a x b y, Q a x b y -> Q' a x b y) -> (forall a b, F a b -> F' a b) -> pair_ok Q' F' pa pb.
  Proof.
    intros H HQ HF. eapply meet_weaken; [exact H|auto|auto|].
    intros [a' [x|e|w]] [b' [y|e'|w']] T; cbn in *; auto. destruct T; auto.
  Qed.
  Lemma pair_ret {X Y} (Q : vole S -> X -> vole S -> Y -> Prop) F a x b y : Q a x b y -> pair_ok Q F (Ret (a, Ok x)) (Ret (b, Ok y)).
  Proof. intro H. apply meet_ret. exact H. Qed.
  Lemma pair_err {X Y} (Q : vole S -> X -> vole S -> Y -> Prop) (F : vole S -> vole S -> Prop) a b e :
    F a b -> pair_ok Q F (Ret (a, Err e)) (Ret (b, Err e)).
  Proof. intro H. apply meet_ret. split; auto. Qed.
  Lemma pair_ub {X Y} (Q : vole S -> X -> vole S -> Y -> Prop) F a b e : In e uj -> pair_ok Q F (Ret (a, UB e)) (Ret (b, UB e)).
  Proof. intro H. apply meet_ret. split; [reflexivity|exact H]. Qed.
  (** The same local computation on both sides. *)
  Lemma pair_calc {X A B} (Q : vole S -> A -> vole S -> B -> Prop) (F : vole S -> vole S -> Prop) (m : res X) (f : X -> member S A) (g : X -> member S B) a b :
    (forall w, m = UB w -> In w uj) -> (forall e, m = Err e -> F a b) -> (forall x, m = Ok x -> pair_ok Q F (f x a) (g x b)) ->
    pair_ok Q F (mbind (mcalc m) f a) (mbind (mcalc m) g b).
  Proof.
    intros Hw He Hx. unfold mbind, mcalc. cbn [pbind]. destruct m as [x|e|w].
    - now apply Hx.
    - apply pair_err. eauto.
    - apply pair_ub. eauto.
  Qed.
  Lemma bind_ok {X A} (p : member S X) (f : X -> member S A) a a' x : p a = Ret (a', Ok x) -> mbind p f a = f x a'.
  Proof. intro E. unfold mbind. now rewrite E. Qed.
  Lemma bind_err {X A} (p : member S X) (f : X -> member S A) a a' e : p a = Ret (a', Err e) -> mbind p f a = Ret (a', Err e).
  Proof. intro E. unfold mbind. now rewrite E. Qed.
  Lemma bind_get {X A} (p : vole S -> X) (f : X -> member S A) a : mbind (mget p) f a = f (p a) a.
  Proof. reflexivity. Qed.
  Lemma bind_set {A} p (f : unit -> member S A) a : mbind (mset p) f a = f tt (p a).
  Proof. reflexivity. Qed.
  Lemma bind_ret {X A} (x : X) (f : X -> member S A) a : mbind (mret x) f a = f x a.
  Proof. reflexivity. Qed.
  Lemma bind_calc {X A} m (x : X) (f : X -> member S A) a : m = Ok x -> mbind (mcalc m) f a = f x a.
  Proof. now intros ->. Qed.

  (** Random choices of the first party. *)
  Lemma pair_blocks {A B} (Q : vole S -> A -> vole S -> B -> Prop) F n f a pb :
    (forall l, zlen l = Z.of_nat n -> pair_ok Q F (f l a) pb) -> pair_ok Q F (mbind (mproc (rand_blocks n (fun bs => Ret (Ok bs)))) f a) pb.
  Proof.
    intro H. apply (meet_rand (fun l => zlen l = Z.of_nat n)) with (pa' := fun l => f l a); [|intros l Hl; now apply H].
    intro ta. exists (tape_blocks n ta), (tape_drop n ta). split; [unfold zlen; now rewrite length_tape_blocks|].
    exact (rsteps_bind _ _ _ _ _ (rsteps_bind _ _ _ _ _ (rsteps_blocks n (fun bs => Ret (Ok bs)) ta))).
  Qed.
  Lemma pair_scalars {A B} (Q : vole S -> A -> vole S -> B -> Prop) F n f a pb :
    (forall l, zlen l = Z.of_nat n -> pair_ok Q F (f l a) pb) -> pair_ok Q F (mbind (mproc (rand_scalars n (fun bs => Ret (Ok bs)))) f a) pb.
  Proof.
    intro H. apply (meet_rand (fun l => zlen l = Z.of_nat n)) with (pa' := fun l => f l a); [|intros l Hl; now apply H].
    intro ta. exists (tape_scalars n ta), (tape_drop n ta). split; [unfold zlen; now rewrite length_tape_scalars|].
    exact (rsteps_bind _ _ _ _ _ (rsteps_bind _ _ _ _ _ (rsteps_scalars n (fun bs => Ret (Ok bs)) ta))).
  Qed.
  Lemma pair_rand {X A B} (Q : vole S -> A -> vole S -> B -> Prop) F (k : N -> S -> res X) f a pb :
    (forall c t, pair_ok Q F (mbind (mcalc (k c t)) f a) pb) -> pair_ok Q F (mbind (mproc (Rand (fun c t => Ret (k c t)))) f a) pb.
  Proof.
    intro H. apply (meet_rand (fun _ => True)) with (pa' := fun i => mbind (mcalc (k (fst i) (snd i))) f a); [|intros [c t] _; apply H].
    intro ta. exists (ta O), (tape_tl ta). split; [exact I|]. cbn. constructor. constructor.
  Qed.
  (** A protocol of stateless objects. *)
  Lemma pair_proc {X Y A B} (Q : vole S -> A -> vole S -> B -> Prop) F (P : X -> Y -> Prop) p q f g a b :
    (forall ta tb, exists x y ta' tb', jrun p ta q tb (Ret (Ok x)) ta' (Ret (Ok y)) tb' /\ P x y) ->
    (forall x y, P x y -> pair_ok Q F (f x a) (g y b)) ->
    pair_ok Q F (mbind (mproc p) f a) (mbind (mproc q) g b).
  Proof.
    intros HJ H. eapply (pair_bind (fun a' x b' y => P x y /\ a' = a /\ b' = b) Q (fun _ _ => False)); [|contradiction|].
    - intros ta tb. destruct (HJ ta tb) as (x & y & ta' & tb' & J & HP). left.
      apply (jrun_bind (fun r => Ret (a, r)) (fun r => Ret (b, r))) in J. eexists _, _, _, _. split; [exact J|]. cbn. auto.
    - intros a' x b' y (HP & -> & ->). auto.
  Qed.
End Rules.
Arguments failed {S A}. Arguments together {S} uj {X Y}. Arguments pair_ok {S} ea eb uj {X Y}.
Lemma pair_swap S ea eb uj {X Y} (Q : vole S -> X -> vole S -> Y -> Prop) (F : vole S -> vole S -> Prop) pa pb :
  pair_ok eb ea uj (fun b y a x => Q a x b y) (fun b a => F a b) pb pa -> pair_ok ea eb uj Q F pa pb.
Proof.
  intro H. apply meet_swap. eapply meet_weaken; [exact H|auto|auto|].
  intros [a' [x|e|w]] [b' [y|e'|w']] T; cbn in *; auto; destruct T; subst; auto.
Qed.

Section Steps.
  Variable S : scalar.
  Hypothesis L : scalar_laws S.
  Add Ring SR : (sl_ring S L).
  Variable E : setting.
  Hypothesis G : good_setting S E.
  Variable seed : N.
  Notation zn := (znth (s_zero S)).
  Notation P := (e_parameters E).
  Notation aes := (e_aes E).
  Notation clog := (e_clog E).
  Notation too := (e_too_many_bits E).
  Notation e3 := (e_expansion3 E).
  Notation e2 := (e_expansion2 E).
  Notation h := (Hasher seed 3).
  Notation coh := (coherent aes too e3 e2 h).
  Notation lv := (zlen (p_seed_size P)).
  Notation top := (last (p_output_size P) 0).
  Notation sd i := (znth 0 (p_seed_size P) i).
  Notation no i := (znth 0 (p_num_noise P) i).

  Lemma He3 : forall n, e3 n < 2^63. Proof. intro n. apply (gs_expansions S E G). Qed.
  Lemma He2 : forall n, e2 n < 2^63. Proof. intro n. apply (gs_expansions S E G). Qed.

  Lemma level_facts i : 0 <= i < lv ->
    1 <= sd i /\ 1 <= no i <= e3 (no i) /\ sd i + e3 (no i) < top /\ (forall N, 0 <= N <= top -> too N (e3 (no i)) = false) /\ too (no i) (e3 (no i)) = false.
  Proof.
    intro Hi. assert (In (sd i) (p_seed_size P)) by (apply znth_In; auto).
    assert (Hn : In (no i) (p_num_noise P)) by (apply znth_In; rewrite (gs_noises S E G); auto).
    pose proof (proj1 (Forall_forall _ _) (gs_seeds S E G) _ H). pose proof (proj1 (Forall_forall _ _) (gs_noise S E G) _ Hn) as Hb.
    cbv beta in H0, Hb. pose proof (gs_room S E G i Hi). split; [lia|]. split; [lia|]. split; [lia|]. split.
    - intros N HN. apply (gs_buckets S E G); auto.
    - apply (gs_buckets S E G); auto. lia.
  Qed.
  Lemma level_inj i j : 0 <= i < lv -> 0 <= j < lv -> sd i = sd j -> i = j.
  Proof.
    intros Hi Hj. pose proof (proj1 (NoDup_nth (p_seed_size P) 0) (gs_distinct S E G) (Z.to_nat i) (Z.to_nat j)) as H.
    unfold znth. replace (i <? 0) with false by lia. replace (j <? 0) with false by lia. unfold zlen in *. intro Es.
    apply H in Es; lia.
  Qed.
  Lemma top_small : 0 <= top /\ 3 * top < 2^31.
  Proof. pose proof (gs_levels S E G). pose proof (level_facts 0 ltac:(lia)). pose proof (gs_last S E G). lia. Qed.
  Lemma num_buckets_ok m i : coh m -> 0 <= i < lv -> num_buckets e3 e2 m (no i) = Ok (e3 (no i)).
  Proof.
    intros [Hm _] Hi. pose proof (level_facts i Hi). pose proof top_small. unfold num_buckets, get_optimal_number_of_buckets. rewrite Hm.
    replace (no i <? 0) with false by lia. replace (no i =? 0) with false by lia. cbn. rewrite wrap32_id by lia. reflexivity.
  Qed.

  (** ** Invariants *)
  Definition corr (d : S) (s : sender_result S) (r : receiver_result S) : Prop :=
    rr_delta r = d /\ vole_correlation S d (sr_u s) (sr_v s) (rr_w r).
  Definition seeds d j (s : sender_side S) (r : receiver_side S) : Prop :=
    corr d (s_vole_seed s) (r_vole_seed r) /\ corr d (s_mpfss_seed s) (r_mpfss_seed r) /\
    zlen (rr_w (r_vole_seed r)) = sd j /\ zlen (rr_w (r_mpfss_seed r)) = e3 (no j) /\ 0 <= j < lv.
  Definition holds d j s r : Prop := corr d (s_cached s) (r_cached r) /\ seeds d j s r.
  Definition link (s : sender_side S) (r : receiver_side S) : Prop :=
    s_done s = r_done r /\ (s_done s = true -> exists d j, holds d j s r).
  Record same (a b : vole S) : Prop := {
    same_a : coh (v_mpfss a); same_b : coh (v_mpfss b);
    same_rows : v_rows a = v_rows b; same_columns : v_columns a = v_columns b;
    same_batch : v_batch_size a = v_batch_size b; same_vs : v_vole_seed_size a = v_vole_seed_size b;
    same_ms : v_mpfss_seed_size a = v_mpfss_seed_size b; same_noise : v_num_noise a = v_num_noise b
  }.
  Definition level (a : vole S) i : Prop :=
    0 <= i < lv /\ v_vole_seed_size a = sd i /\ v_mpfss_seed_size a = e3 (no i) /\ v_num_noise a = no i.
  Definition ready (a : vole S) : Prop :=
    exists i, level a i /\ v_rows a = v_vole_seed_size a /\ 0 <= v_batch_size a /\
      v_batch_size a + v_vole_seed_size a + v_mpfss_seed_size a <= top /\
      (1 <= v_batch_size a \/ zlen (v_columns a) <> v_batch_size a + v_vole_seed_size a + v_mpfss_seed_size a).
  Definition Inv (a b : vole S) : Prop :=
    same a b /\ link (v_s a) (v_r b) /\ link (v_s b) (v_r a) /\
    (s_done (v_s a) = true \/ s_done (v_s b) = true -> ready a).

  Lemma Inv_sym a b : Inv a b -> Inv b a.
  Proof.
    intros ([] & H1 & H2 & H3). split; [constructor; congruence|]. split; [auto|]. split; [auto|].
    intro Hd. destruct H3 as (i & (Hi & E1 & E2 & E3) & R); [tauto|]. exists i. unfold level. rewrite <- same_vs0, <- same_ms0, <- same_noise0, <- same_rows0, <- same_batch0, <- same_columns0.
    auto.
  Qed.

  Variable MA MB : machine S.
  Hypothesis GA : good_machine S MA.
  Hypothesis GB : good_machine S MB.
  Hypothesis HC : connected MA MB.
  (** Whether errors of both parties, and of the receiver alone, are excluded. *)
  Variable strict : bool.
  Hypothesis Hsec : strict = true -> secure S E.
  Notation ea := ([insertion_failed], alone_ub).
  Notation eb := (if strict then [] else [cannot_ensure], []).
  Notation uj := (if strict then rng_ub else local_ub).
  Notation pair_ok := (pair_ok ea eb uj).
  Lemma rng_uj w : In w rng_ub -> In w uj.
  Proof. destruct strict; [auto|]. intro. apply in_or_app. auto. Qed.
  Definition lax (F : vole S -> vole S -> Prop) (a b : vole S) : Prop := strict = false /\ F a b.
  Lemma lax_weaken (F F' : vole S -> vole S -> Prop) : (forall a b, F a b -> F' a b) -> forall a b, lax F a b -> lax F' a b.
  Proof. unfold lax. intuition. Qed.

  (** ** Code generator *)
  Lemma sample_generator_len rows cols g columns : 0 <= cols -> sample_generator S E rows cols g = Ok columns -> zlen columns = cols.
  Proof.
    clear. intros Hc H. unfold sample_generator in H. apply rbind_ok_inv in H. destruct H as ([g1 el] & _ & H).
    apply rbind_ok_inv in H. destruct H as ([g2 cs] & H & E1). injection E1 as <-.
    apply (for_range_inv_ok (fun n '(_, l) => zlen l = n)) in H; auto.
    intros i [g3 l] s' Hi Hl E2. apply rbind_ok_inv in E2. destruct E2 as ([g4 c] & _ & E2). injection E2 as <-.
    rewrite zlen_app, Hl. reflexivity.
  Qed.

  Notation live := usable.
  Lemma live_call g : live g -> match rng_call E g with Ok (g', _) => live g' | Err _ => False | UB w => In w rng_ub end.
  Proof.
    intro H. apply (usable_next aes) in H. unfold rng_call. destruct (rng_next aes g) as [[g' [v|]]| |]; cbn [rbind]; auto. cbn. auto.
  Qed.
  Lemma random_elements_ok n g : 0 <= n -> live g ->
    match random_elements S E n g with Ok (g', l) => live g' /\ zlen l = n | Err _ => False | UB w => In w rng_ub end.
  Proof.
    intros Hn Hg. unfold random_elements. set (body := fun (_ : Z) (p : rng * list S) => _).
    pose proof (for_range_res (fun i '(g, l) => live g /\ zlen l = i) (fun w => In w rng_ub) 0 n body (g, [])) as H. cbv beta iota in H.
    assert (Hb : forall i (p : rng * list S), 0 <= i < n -> (let '(g, l) := p in live g /\ zlen l = i) ->
      match body i p with Ok p' => let '(g, l) := p' in live g /\ zlen l = i + 1 | Err _ => False | UB w => In w rng_ub end).
    { intros i [g1 l] Hi [Hl1 Hl2]. unfold body, random_element. apply live_call in Hl1.
      destruct (rng_call E g1) as [[g2 x]| |]; cbn [rbind]; auto. apply live_call in Hl1.
      destruct (rng_call E g2) as [[g3 y]| |]; cbn [rbind]; auto. rewrite zlen_app, Hl2. auto. }
    specialize (H Hn (conj Hg eq_refl) Hb). destruct (for_range 0 n body (g, [])) as [[g' l]| |]; exact H.
  Qed.
  Lemma sample_column_ok rows el col cols g : 1 <= rows -> live g -> 0 <= col < cols -> zlen el = Z.max 0 (p_nonzeros P * cols) ->
    match sample_column S E rows el col g with Ok (g', _) => live g' | Err _ => False | UB w => In w rng_ub end.
  Proof.
    intros Hr Hg Hc He. unfold sample_column. set (body := fun (_ : Z) (p : rng * list (Z * S)) => _).
    destruct (Z.le_gt_cases (p_nonzeros P) 0) as [Hz|Hz]; [rewrite for_range_empty by lia; exact Hg|].
    pose proof (for_range_res (fun i '(g, l) => live g) (fun w => In w rng_ub) 0 (p_nonzeros P) body (g, [])) as H. cbv beta iota in H.
    assert (Hb : forall i (p : rng * list (Z * S)), 0 <= i < p_nonzeros P -> (let '(g, l) := p in live g) ->
      match body i p with Ok p' => let '(g, l) := p' in live g | Err _ => False | UB w => In w rng_ub end).
    { intros i [g1 l0] Hi Hl. unfold body. pose proof (gs_uniform S E G rows g1 Hr Hl) as Hu.
      destruct (e_uniform E rows g1) as [[g2 row]| |]; cbn [rbind]; auto. destruct Hu as [Hu Hd].
      replace ((0 <=? row) && (row <? rows)) with true by lia. cbn [negb].
      rewrite (zget_ok (s_zero S)) by nia. cbn [rbind]. now apply (usable_drawn aes g1). }
    specialize (H ltac:(lia) Hg Hb). destruct (for_range 0 (p_nonzeros P) body (g, [])) as [[g' l]| |]; exact H.
  Qed.
  Lemma sample_generator_ub rows cols g : 1 <= rows -> 0 <= cols -> live g ->
    match sample_generator S E rows cols g with Ok _ => True | Err _ => False | UB w => In w rng_ub end.
  Proof.
    intros Hr Hc Hg. unfold sample_generator.
    assert (He : match random_elements S E (p_nonzeros P * cols) g with Ok (g', l) => live g' /\ zlen l = Z.max 0 (p_nonzeros P * cols) | Err _ => False | UB w => In w rng_ub end).
    { destruct (Z.le_gt_cases 0 (p_nonzeros P * cols)) as [H|H].
      - apply (random_elements_ok _ _ H) in Hg. destruct (random_elements S E _ g) as [[g' l]| |]; auto. split; [apply Hg|]. lia.
      - unfold random_elements. rewrite for_range_empty by lia. split; [auto|]. change (zlen (@nil S)) with 0. lia. }
    destruct (random_elements S E _ g) as [[g' el]| |]; cbn [rbind]; auto. destruct He as [Hg' Hl].
    set (body := fun (_ : Z) (p : rng * list (list (Z * S))) => _).
    pose proof (for_range_res (fun i '(g, l) => live g) (fun w => In w rng_ub) 0 cols body (g', [])) as H.
    assert (Hb : forall i (p : rng * list (list (Z * S))), 0 <= i < cols -> (let '(g, l) := p in live g) ->
      match body i p with Ok p' => let '(g, l) := p' in live g | Err _ => False | UB w => In w rng_ub end).
    { intros i [g1 l0] Hi Hl1. unfold body. pose proof (sample_column_ok rows el i cols g1 Hr Hl1 Hi Hl) as H1.
      destruct (sample_column S E rows el i g1) as [[g2 c]| |]; cbn [rbind]; auto. }
    specialize (H Hc Hg' Hb). destruct (for_range 0 cols body (g', [])) as [[g2 cs]| |]; cbn [rbind]; auto.
  Qed.

  Definition recoded out (a b a' b' : vole S) : Prop :=
    exists ma mb cols, coh ma /\ coh mb /\ zlen cols = out /\
      a' = set_generator S (v_vole_seed_size a) cols (set_mpfss S ma a) /\ b' = set_generator S (v_vole_seed_size a) cols (set_mpfss S mb b).

  Lemma exchange_agree ta tb : exists x y ta' tb',
    jrun (exchange_seed S MA) ta (exchange_seed S MB) tb (Ret (Ok x)) ta' (Ret (Ok y)) tb' /\ x = y /\ exists bs, zlen bs = 2 /\ x = List.concat (map block_bytes bs).
  Proof.
    destruct HC as (H1 & H2 & H3). unfold exchange_seed. rewrite H1, H2. destruct (Z.ltb_spec (c_id MA) (c_id MB)) as [Hlt|Hlt].
    - replace (c_id MB <? c_id MA) with false by lia. eexists _, _, _, _. split.
      + eapply jrun_trans; [apply jrun_rand_blocks_a|]. eapply jrun_trans; [apply jrun_send_recv; reflexivity|]. apply jrun_refl.
      + split; [reflexivity|]. eexists. split; [|reflexivity]. unfold zlen. now rewrite length_tape_blocks.
    - replace (c_id MB <? c_id MA) with true by lia. eexists _, _, _, _. split.
      + eapply jrun_trans; [apply jrun_rand_blocks_b|]. eapply jrun_trans; [apply jrun_recv_send; reflexivity|]. apply jrun_refl.
      + split; [reflexivity|]. eexists. split; [|reflexivity]. unfold zlen. now rewrite length_tape_blocks.
  Qed.

  Lemma m_update_ok M m i out : good_machine S M -> coh (v_mpfss m) -> 0 <= i < lv -> 0 <= out <= top ->
    exists m', coh m' /\ m_update_buckets S E M out (no i) m = Ret (set_mpfss S m' m, Ok tt).
  Proof.
    intros GM Hc Hi Ho. pose proof (level_facts i Hi) as (Hsd & Hn & Hs & Ht & _). pose proof top_small. unfold m_update_buckets.
    rewrite (update_ok aes clog too e3 e2 He3 He2 seed) by first [assumption | lia | apply Ht; lia | apply (gm_split S M GM); lia]. eexists. split; [|reflexivity].
    split; [reflexivity|]. cbn. intros N0 n0 E1 E2. injection E1 as <-. injection E2 as <-.
    apply (fresh_ok aes clog too e3 e2 He3 He2); first [lia | apply Ht; lia].
  Qed.

  Lemma rng_create_ok bs n : zlen bs = 2 -> exists g, rng_create (List.concat (map block_bytes bs)) n = Ok g.
  Proof.
    clear. intro H. destruct bs as [|x [|y [|z bs]]]; rewrite ?zlen_cons in H; try (pose proof (zlen_nonneg bs)); change (zlen (@nil N)) with 0 in *; try lia.
    unfold rng_create, rng_seed. eexists. replace (_ <? kStateSize) with false; [reflexivity|]. reflexivity.
  Qed.

  Lemma common_meet a b i out : same a b -> level a i -> 1 <= out <= top ->
    pair_ok (fun a' _ b' _ => recoded out a b a' b') (lax (recoded out a b)) (precompute_common S E MA out a) (precompute_common S E MB out b).
  Proof.
    intros Hsm (Hi & Evs & Ems & Eno) Ho. pose proof (same_noise _ _ Hsm) as Hno. pose proof (same_vs _ _ Hsm) as Hvs.
    destruct (m_update_ok MA a i out GA (same_a _ _ Hsm) Hi ltac:(lia)) as (ma & Hma & EA).
    destruct (m_update_ok MB b i out GB (same_b _ _ Hsm) Hi ltac:(lia)) as (mb & Hmb & EB).
    unfold precompute_common. rewrite !bind_get, <- Hno, Eno. rewrite (bind_ok S _ _ _ _ _ EA), (bind_ok S _ _ _ _ _ EB).
    rewrite !bind_get, !bind_set. cbn [set_mpfss v_vole_seed_size]. rewrite <- Hvs.
    assert (HF : forall cols, zlen cols = out -> recoded out a b (set_generator S (v_vole_seed_size a) cols (set_mpfss S ma a)) (set_generator S (v_vole_seed_size a) cols (set_mpfss S mb b))).
    { intros cols Hl. exists ma, mb, cols. auto 10. }
    assert (H0 : zlen (zrepeat (@nil (Z * S)) out) = out) by (apply zlen_zrepeat; lia).
    eapply (pair_proc S _ _ (fun x y => x = y /\ exists bs, zlen bs = 2 /\ x = List.concat (map block_bytes bs))); [exact exchange_agree|]. intros x ? [<- (bs & Hx & ->)].
    destruct (rng_create_ok bs (p_nonzeros P * out) Hx) as (g & Eg). rewrite !(bind_calc S _ _ _ _ Eg). apply usable_create in Eg as Hg.
    destruct (s_can_hash S _ _) eqn:Hch; cbn [negb].
    2:{ apply pair_err. split; [|apply HF; auto]. destruct strict; auto. pose proof (proj1 (Hsec eq_refl out ltac:(lia))) as Hch'.
        unfold vole_K in Hch. congruence. }
    pose proof (level_facts i Hi) as (Hsd & _).
    pose proof (sample_generator_ub (v_vole_seed_size a) out g ltac:(lia) ltac:(lia) Hg) as Hub.
    apply pair_calc; [intros w Ew; rewrite Ew in Hub; now apply rng_uj|intros e Ew; rewrite Ew in Hub; contradiction|]. intros cols Hcols. apply sample_generator_len in Hcols; [|lia].
    unfold mset. apply pair_ret. exists ma, mb, cols. auto 10.
  Qed.

  (** ** Caches *)
  Lemma get_sender_ok n a : let c := s_cached (v_s a) in 0 <= n <= zlen (sr_u c) ->
    get_sender_cached S n a = Ret (set_s S (set_s_cached S (SenderResult (shrink n (sr_u c)) (shrink n (sr_v c))) (v_s a)) a,
                                   Ok (SenderResult (tail n (sr_u c)) (tail n (sr_v c)))).
  Proof. clear. intros c H. unfold get_sender_cached. fold c. replace (zlen (sr_u c) <? n) with false by lia. now replace (n <? 0) with false by lia. Qed.
  Lemma get_receiver_ok n a : let c := r_cached (v_r a) in 0 <= n <= zlen (rr_w c) ->
    get_receiver_cached S n a = Ret (set_r S (set_r_cached S (ReceiverResult (shrink n (rr_w c)) (rr_delta c)) (v_r a)) a,
                                     Ok (ReceiverResult (tail n (rr_w c)) (rr_delta c))).
  Proof. clear. intros c H. unfold get_receiver_cached. fold c. replace (zlen (rr_w c) <? n) with false by lia. now replace (n <? 0) with false by lia. Qed.

  Definition reseed_s vs ms (s : sender_side S) : sender_side S :=
    let u := sr_u (s_cached s) in let v := sr_v (s_cached s) in
    SenderSide S (SenderResult (shrink ms (shrink vs u)) (shrink ms (shrink vs v))) (SenderResult (tail vs u) (tail vs v))
      (SenderResult (tail ms (shrink vs u)) (tail ms (shrink vs v))) (s_done s) (s_made s) (s_used s).
  Definition reseed_r vs ms (r : receiver_side S) : receiver_side S :=
    let w := rr_w (r_cached r) in let d := rr_delta (r_cached r) in
    ReceiverSide S (ReceiverResult (shrink ms (shrink vs w)) d) (ReceiverResult (tail vs w) d)
      (ReceiverResult (tail ms (shrink vs w)) d) (r_done r) (r_made r) (r_used r).
  Lemma new_sender_ok vs ms a : 0 <= vs -> 0 <= ms -> vs + ms <= zlen (sr_u (s_cached (v_s a))) ->
    new_sender_seeds S vs ms a = Ret (set_s S (reseed_s vs ms (v_s a)) a, Ok tt).
  Proof.
    clear. intros H1 H2 H3. unfold new_sender_seeds. erewrite bind_ok by (apply get_sender_ok; lia). rewrite bind_set.
    erewrite bind_ok; [|apply get_sender_ok; cbn; rewrite zlen_shrink; lia]. reflexivity.
  Qed.
  Lemma new_receiver_ok vs ms a : 0 <= vs -> 0 <= ms -> vs + ms <= zlen (rr_w (r_cached (v_r a))) ->
    new_receiver_seeds S vs ms a = Ret (set_r S (reseed_r vs ms (v_r a)) a, Ok tt).
  Proof.
    clear. intros H1 H2 H3. unfold new_receiver_seeds. erewrite bind_ok by (apply get_receiver_ok; lia). rewrite bind_set.
    erewrite bind_ok; [|apply get_receiver_ok; cbn; rewrite zlen_shrink; lia]. reflexivity.
  Qed.
  Lemma reseed_corr d vs ms s r : corr d (s_cached s) (r_cached r) -> 0 <= vs -> 0 <= ms -> vs + ms <= zlen (rr_w (r_cached r)) ->
    let s' := reseed_s vs ms s in let r' := reseed_r vs ms r in
    corr d (s_cached s') (r_cached r') /\ zlen (rr_w (r_cached r')) = zlen (rr_w (r_cached r)) - vs - ms /\
    corr d (s_vole_seed s') (r_vole_seed r') /\ zlen (rr_w (r_vole_seed r')) = vs /\
    corr d (s_mpfss_seed s') (r_mpfss_seed r') /\ zlen (rr_w (r_mpfss_seed r')) = ms.
  Proof.
    clear G. intros [Hd Hc] H1 H2 H3 s' r'. cbn. unfold corr. cbn [rr_delta rr_w sr_u sr_v].
    pose proof (correlation_shrink S _ _ _ _ vs Hc ltac:(lia)) as Hs.
    assert (Ls : zlen (shrink vs (rr_w (r_cached r))) = zlen (rr_w (r_cached r)) - vs) by (rewrite zlen_shrink; lia).
    split; [split; [auto|apply correlation_shrink; auto; lia]|]. split; [rewrite zlen_shrink; lia|].
    split; [split; [auto|apply correlation_tail; auto; lia]|]. split; [rewrite zlen_tail; lia|].
    split; [split; [auto|apply correlation_tail; auto; lia]|]. rewrite zlen_tail; lia.
  Qed.

  (** ** Expansion *)
  Lemma sample_indices_ok M tries out num g set : good_machine S M -> 1 <= out -> usable g -> NoDup set -> Forall (fun i => 0 <= i < out) set -> zlen set <= num ->
    match sample_indices S M tries out num g set with
    | Ok set' => NoDup set' /\ Forall (fun i => 0 <= i < out) set' /\ zlen set' = num
    | Err _ => False
    | UB w => In w alone_ub
    end.
  Proof.
    clear - S. intros GM Ho. revert g set. induction tries as [|tries IH]; intros g set Hg Hn Hf Hl; cbn; (destruct (Z.leb_spec num (zlen set)); [repeat split; auto; lia|]); [cbn; auto|].
    pose proof (gm_uniform64 S M GM out g Ho Hg) as Hu. destruct (c_uniform64 M out g) as [[g' i]| |]; cbn [rbind]; auto; [|cbn in Hu; tauto].
    destruct Hu as [Hu Hg']. apply IH; [auto| | |].
    - destruct (existsb (Z.eqb i) set) eqn:Ee; auto. constructor; auto. intro Hin. rewrite <- not_true_iff_false in Ee. apply Ee.
      apply existsb_exists. exists i. split; auto. apply Z.eqb_refl.
    - destruct (existsb (Z.eqb i) set); auto.
    - destruct (existsb (Z.eqb i) set); [lia|]. rewrite zlen_cons. lia.
  Qed.
  Lemma value_waits {A} b i x w out out_v (g : list S -> member S A) : coh (v_mpfss b) -> 0 <= i < lv -> zlen out_v = out -> out <= top ->
    waits (mbind (mmpfss (fun m => mpfss_value_provider S aes clog (vole_K E) too e3 e2 (c_split MB out) m x (no i) w out_v)) g b).
  Proof.
    intros Hc Hi <- Ho. pose proof (level_facts i Hi) as (Hsd & Hn & Hs & Ht & _). pose proof top_small. pose proof (zlen_nonneg out_v).
    unfold mbind, mmpfss. apply waits_bind, waits_bind. unfold mpfss_value_provider. replace (no i <? 1) with false by lia.
    rewrite (update_ok aes clog too e3 e2 He3 He2 seed) by first [assumption | lia | apply Ht; lia | apply (gm_split S MB GB); lia].
    unfold after_update, with_state. apply waits_bind. unfold value_provider_body, recv_vec. left. eauto.
  Qed.

  Definition expanded d out nvs nms (a b a' : vole S) (_ : unit) (b' : vole S) (_ : unit) : Prop :=
    exists ma mb ss rs, coh ma /\ coh mb /\ zlen (v_columns a) = out /\
      a' = Vole S ma (v_rows a) (v_columns a) (v_batch_size a) nvs nms (v_num_noise a) ss (v_r a) /\
      b' = Vole S mb (v_rows b) (v_columns b) (v_batch_size b) nvs nms (v_num_noise b) (v_s b) rs /\
      corr d (s_cached ss) (r_cached rs) /\ zlen (rr_w (r_cached rs)) = zlen (rr_w (r_cached (v_r b))) + out - nvs - nms /\
      corr d (s_vole_seed ss) (r_vole_seed rs) /\ zlen (rr_w (r_vole_seed rs)) = nvs /\
      corr d (s_mpfss_seed ss) (r_mpfss_seed rs) /\ zlen (rr_w (r_mpfss_seed rs)) = nms /\
      s_done ss = s_done (v_s a) /\ r_done rs = r_done (v_r b).

  Lemma expand_meet a b d i j out nvs nms : same a b -> 0 <= i < lv -> v_num_noise a = no i -> v_rows a = sd i ->
    holds d j (v_s a) (v_r b) -> no i <= out <= top -> 0 <= nvs -> 0 <= nms -> nvs + nms <= out ->
    (strict = true -> zlen (rr_w (r_vole_seed (v_r b))) = v_rows a /\ zlen (v_columns a) = out) ->
    pair_ok (expanded d out nvs nms a b) (lax (fun a' b' => a' = a /\ b' = b))
      (expand_sender S E MA out nvs nms a) (expand_receiver S E MB out nvs nms b).
  Proof.
    intros Hsm Hi Eno Ero ([Hcd Hc] & [Hvd Hvs] & [Hmd Hms] & Lvs & Lms & Hj) Ho H1 H2 H3 Hfit.
    unfold expand_sender, expand_receiver. rewrite !bind_get. cbv zeta.
    rewrite <- (same_rows _ _ Hsm), <- (same_columns _ _ Hsm), <- (same_noise _ _ Hsm), Eno.
    pose proof Hvs as (Lu & Lv & _). rewrite Lu, Lv, Z.eqb_refl. cbn [negb].
    destruct (negb _ || negb _) eqn:Hdim.
    { apply pair_err. split; [|auto]. destruct strict; auto. destruct (Hfit eq_refl) as [Hf1 Hf2]. rewrite Hf1, Hf2, !Z.eqb_refl in Hdim. discriminate. }
    clear Hfit. apply orb_false_iff in Hdim. destruct Hdim as [Hd1 Hd2].
    apply negb_false_iff in Hd1, Hd2. assert (j = i) by (apply level_inj; lia). subst j.
    pose proof (level_facts i Hi) as (Hsd & Hn & Hs & Ht & Ht2). pose proof top_small as Htop.
    rewrite bind_set. apply pair_blocks. intros bs Hbs. destruct (rng_create_ok bs (no i) Hbs) as (g & Eg).
    rewrite (bind_calc S _ _ _ _ Eg).
    set (b1 := set_r S _ b). set (v1 := zrepeat (s_zero S) out).
    assert (Lz : zlen v1 = out) by (apply zlen_zrepeat; lia).
    pose proof (sample_indices_ok MA (c_patience MA) out (no i) g [] GA ltac:(lia) (usable_create _ _ _ Eg) (NoDup_nil _) (Forall_nil _) ltac:(change (zlen (@nil Z)) with 0; lia)) as Hsi.
    destruct (sample_indices S MA (c_patience MA) out (no i) g []) as [set|e|w] eqn:Esi; [|contradiction|].
    2:{ unfold mbind at 1, mcalc. cbn [pbind]. apply meet_a_fails; [exact Hsi|].
        apply value_waits; auto; [apply (same_b _ _ Hsm)|lia]. }
    destruct Hsi as (Hnd & Hf & Hls). erewrite bind_calc by reflexivity. apply pair_rand. intros chance _. erewrite bind_calc by reflexivity.
    pose proof (gm_order S MA GA chance set) as Hp. set (indices := c_order MA chance set) in *.
    assert (Hnd' : NoDup indices) by (eapply Permutation_NoDup; [apply Permutation_sym; exact Hp|auto]).
    assert (Li : zlen indices = no i) by (unfold zlen in *; rewrite (Permutation_length Hp); auto).
    assert (Hr : forall k, 0 <= k < no i -> 0 <= znth 0 indices k < out).
    { intros k Hk. assert (Hin : In (znth 0 indices k) indices) by (apply znth_In; lia).
      apply (Permutation_in _ Hp) in Hin. exact (proj1 (Forall_forall _ _) Hf _ Hin). }
    replace (no i <? 0) with false by lia. apply pair_scalars. intros y Hy. rewrite Z2Nat.id in Hy by lia.
    eapply (pair_bind S (fun a' ri b' rv => exists ma mb, coh ma /\ coh mb /\ a' = set_mpfss S ma a /\ b' = set_mpfss S mb b1 /\
              zlen ri = out /\ zlen rv = out /\ forall p, 0 <= p < out -> s_add S (zn rv p) (zn ri p) = point_value S d y indices p) _ (fun _ _ => False)).
    - unfold mmpfss. eapply meet_bind.
      + pose proof (mpfss_meet S L aes clog (vole_K E) too e3 e2 He3 He2 seed (v_mpfss b) (v_mpfss a) (c_split MB out) (c_split MA out) d y indices
          (sr_u (s_mpfss_seed (v_s a))) (sr_v (s_mpfss_seed (v_s a))) (rr_w (r_mpfss_seed (v_r b))) v1 v1) as HM.
        cbv zeta in HM. rewrite Hy, Lz in HM. change (v_mpfss b1) with (v_mpfss b). rewrite Hmd.
        apply HM; clear HM; auto; try lia;
          first [apply (same_a _ _ Hsm) | apply (same_b _ _ Hsm) | apply (gm_split S MA GA); lia | apply (gm_split S MB GB); lia | apply Ht; lia | idtac].
        intros s0 Hs0. apply (gs_clog S E G). lia.
      + intros [ma ra] [mb rb] (Hma & Hmb & ri & rv & E1 & E2 & Lri & Lrv & Hpv). cbn [fst snd] in *. subst ra rb.
        apply meet_ret. cbn. exists ma, mb. auto 10.
      + intros [ma ra] Hf1. cbn in Hf1. subst ra. eexists. split; [reflexivity|]. cbn. auto.
      + intros [mb rb] [Hf1 Hf2]. cbn in Hf1. subst rb. eexists. split; [reflexivity|]. cbn. destruct strict; [|cbn; auto].
        pose proof (proj2 (Hsec eq_refl out ltac:(lia))) as Hf3. unfold vole_K in Hf2. congruence.
    - contradiction.
    - intros a' ri b' rv (ma & mb & Hma & Hmb & -> & -> & Lri & Lrv & Hpv).
      destruct (spread_ok S L out (no i) indices y) as (mu & Emu & Lmu & Hmu); auto; try lia.
      rewrite (bind_calc S _ _ _ _ Emu), !bind_set. set (cols := v_columns a) in *.
      set (u := vec_add S (encode S cols (sr_u (s_vole_seed (v_s a)))) mu).
      set (v := vec_sub S (encode S cols (sr_v (s_vole_seed (v_s a)))) ri).
      set (w := vec_add S (encode S cols (rr_w (r_vole_seed (v_r b)))) rv).
      assert (Lc : zlen cols = out) by lia.
      assert (Hx : vole_correlation S d u v w).
      { pose proof (encode_linear S L cols _ _ _ _ Hvs) as (_ & _ & He).
        unfold vole_correlation, u, v, w. rewrite !zlen_vec_add, zlen_vec_sub, !zlen_encode by (rewrite ?zlen_encode; lia).
        repeat split; auto. intros p Hpr. rewrite !znth_vec_add, znth_vec_sub by (rewrite ?zlen_encode; lia).
        rewrite He by (rewrite zlen_encode; lia).
        assert (E1 : zn rv p = s_sub S (s_mul S d (zn mu p)) (zn ri p)) by (rewrite <- Hmu, <- Hpv by lia; ring). rewrite E1. ring. }
      assert (Lw : zlen w = out) by (unfold w; rewrite zlen_vec_add, zlen_encode; rewrite ?zlen_encode; lia).
      assert (Hcc : corr d (SenderResult (sr_u (s_cached (v_s a)) ++ u) (sr_v (s_cached (v_s a)) ++ v)) (ReceiverResult (rr_w (r_cached (v_r b)) ++ w) (rr_delta (r_cached (v_r b))))).
      { split; [exact Hcd|]. cbn. apply correlation_app; auto. }
      pose proof (zlen_nonneg (rr_w (r_cached (v_r b)))) as Hnn.
      destruct Hc as (Lcu & Lcv & _). destruct Hx as (Lu' & Lv' & _).
      erewrite (bind_ok S (new_sender_seeds S nvs nms)); [|apply new_sender_ok; auto; cbn; rewrite zlen_app; lia].
      erewrite (bind_ok S (new_receiver_seeds S nvs nms)); [|apply new_receiver_ok; auto; cbn; rewrite zlen_app; lia].
      rewrite !bind_set. unfold mset. apply pair_ret.
      match goal with |- expanded _ _ _ _ _ _ (set_mpfss_seed_size _ _ (set_vole_seed_size _ _ (set_s _ (reseed_s _ _ ?s) _))) _ (set_mpfss_seed_size _ _ (set_vole_seed_size _ _ (set_r _ (reseed_r _ _ ?r) _))) _ =>
        pose proof (reseed_corr d nvs nms s r) as Hrs; exists ma, mb, (reseed_s nvs nms s), (reseed_r nvs nms r) end.
      cbn zeta in Hrs. destruct Hrs as (A1 & A2 & A3 & A4 & A5 & A6); auto; try lia; [cbn; rewrite zlen_app; lia|].
      split; [auto|]. split; [auto|]. split; [exact Lc|]. split; [reflexivity|]. split; [reflexivity|]. split; [auto|]. split.
      { rewrite A2. cbn. rewrite zlen_app. lia. }
      auto 10.
  Qed.

  (** ** Precomputation *)
  (** During the precomputation of one direction; [ra], [sb], [dn]: the members of
      the other direction and whether this one was precomputed before. *)
  Section Direction.
  Variable ra : receiver_side S.
  Variable sb : sender_side S.
  Variable dn : bool.
  Definition mid d i batch (a b : vole S) : Prop :=
    same a b /\ level a i /\ v_batch_size a = batch /\ holds d i (v_s a) (v_r b) /\
    v_r a = ra /\ v_s b = sb /\ s_done (v_s a) = dn /\ r_done (v_r b) = dn.
  Definition fit (a b : vole S) : Prop :=
    zlen (rr_w (r_vole_seed (v_r b))) = v_rows a /\ zlen (v_columns a) = v_batch_size a + v_vole_seed_size a + v_mpfss_seed_size a.
  Definition late (a b : vole S) : Prop :=
    exists d i batch, mid d i batch a b /\ v_rows a = v_vole_seed_size a /\ 0 <= batch /\ batch + sd i + e3 (no i) <= top /\
      (1 <= batch \/ zlen (v_columns a) <> batch + sd i + e3 (no i)).

  Lemma mid_recoded d i batch out a b a' b' : mid d i batch a b -> recoded out a b a' b' ->
    mid d i batch a' b' /\ v_rows a' = sd i /\ zlen (v_columns a') = out /\ v_vole_seed_size a' = sd i.
  Proof.
    intros (Hsm & (Hi & E1 & E2 & E3) & Hb & Hh & Hr & Hs & D1 & D2) (ma & mb & cols & Hma & Hmb & Hl & -> & ->). destruct Hsm.
    split; [|cbn; auto]. split; [constructor; cbn; auto|]. split; [unfold level; cbn; auto|]. cbn. auto 10.
  Qed.

  Lemma room0 i : 0 <= i < lv -> 0 + sd i + e3 (no i) <= top.
  Proof. intro Hi. pose proof (level_facts i Hi). lia. Qed.
  Lemma int64_small z : 0 <= z < 2^62 -> int64_result z = Ok z.
  Proof. clear. intro H. unfold int64_result. now replace ((- 2 ^ 63 <=? z) && (z <? 2 ^ 63)) with true by lia. Qed.
  Lemma int_small z : 0 <= z < 2^31 -> int_result z = Ok z.
  Proof. clear. intro H. unfold int_result. now replace ((- 2 ^ 31 <=? z) && (z <? 2 ^ 31)) with true by lia. Qed.
  Lemma int64_err z e : int64_result z <> Err e.
  Proof. clear. unfold int64_result. destruct (_ && _); discriminate. Qed.

  Lemma int64_ub z w : int64_result z = UB w -> In w rng_ub.
  Proof. clear. unfold int64_result. destruct (_ && _); [discriminate|]. intro H. injection H as <-. cbn. auto. Qed.

  Lemma bootstrap_meet batch n : forall i a b d, mid d i 0 a b -> Z.to_nat (lv - 1 - i) = n ->
    pair_ok (fun a' _ b' _ => exists i', mid d i' 0 a' b') (lax late)
      (bootstrap S E MA (expand_sender S E MA) batch (zrange i (lv - 1)) a)
      (bootstrap S E MB (expand_receiver S E MB) batch (zrange i (lv - 1)) b).
  Proof.
    induction n as [|n IH]; intros i a b d Hm Hn.
    { rewrite zrange_nil by lia. cbn [bootstrap]. unfold mret. apply pair_ret. eauto. }
    rewrite zrange_cons by lia. cbn [bootstrap].
    pose proof Hm as (Hsm & (Hi & E1 & E2 & E3) & Hb & Hh & Hr & Hs & D1 & D2). pose proof Hsm as Hsm'. destruct Hsm'.
    pose proof (gs_outputs S E G). pose proof (gs_noises S E G). pose proof top_small as Htop.
    rewrite (bind_calc S _ (znth 0 (p_output_size P) i) _ a) by (apply zget_ok; lia); rewrite (bind_calc S _ (znth 0 (p_output_size P) i) _ b) by (apply zget_ok; lia). rewrite !bind_get.
    rewrite <- same_vs0, <- same_ms0.
    apply pair_calc; [intros w Hw; apply int64_ub in Hw; now apply rng_uj|intros e He; now apply int64_err in He|]. intros needed _.
    destruct (needed <=? _); [unfold mret; apply pair_ret; eauto|].
    assert (Hi1 : 0 <= i + 1 < lv) by lia. pose proof (level_facts (i + 1) Hi1) as (F1 & F2 & F3 & F4 & F5). pose proof (level_facts i Hi) as (K1 & K2 & K3 & K4 & K5).
    rewrite (bind_calc S _ (sd (i + 1)) _ a) by (apply zget_ok; lia); rewrite (bind_calc S _ (sd (i + 1)) _ b) by (apply zget_ok; lia).
    rewrite (bind_calc S _ (no (i + 1)) _ a) by (apply zget_ok; lia); rewrite (bind_calc S _ (no (i + 1)) _ b) by (apply zget_ok; lia).
    rewrite (bind_ok S _ _ a a (e3 (no (i + 1)))) by (unfold m_num_buckets; rewrite num_buckets_ok; auto).
    rewrite (bind_ok S _ _ b b (e3 (no (i + 1)))) by (unfold m_num_buckets; rewrite num_buckets_ok; auto).
    set (out := sd (i + 1) + e3 (no (i + 1))). rewrite (bind_calc S _ out _ a) by (apply int_small; lia); rewrite (bind_calc S _ out _ b) by (apply int_small; lia).
    eapply pair_bind; [apply (common_meet a b i out); auto; [unfold level; auto|lia]| |].
    { apply lax_weaken. intros a' b' Hrec. destruct (mid_recoded d i 0 out a b a' b' Hm Hrec) as (Hm' & R1 & R2 & R3).
      exists d, i, 0. split; [auto|]. split; [congruence|]. split; [lia|]. split; [apply room0; auto|]. right. pose proof (gs_grow S E G i). lia. }
    intros a1 x1 b1 x2 Hrec. destruct (mid_recoded d i 0 out a b a1 b1 Hm Hrec) as (Hm' & R1 & R2 & R3). clear Hrec.
    pose proof Hm' as (Hsm1 & (_ & E1' & E2' & E3') & Hb1 & Hh1 & Hr1 & Hs1 & D1' & D2').
    eapply pair_bind; [apply (expand_meet a1 b1 d i i out (sd (i + 1)) (e3 (no (i + 1)))); auto; try lia; try (pose proof (gs_grow S E G i); lia);
      intros _; split; [|auto]; rewrite R1; apply Hh1| |].
    { apply lax_weaken. intros a' b' [-> ->]. exists d, i, 0. split; [auto|]. split; [congruence|]. split; [lia|]. split; [apply room0; auto|]. right. pose proof (gs_grow S E G i). lia. }
    intros a2 x3 b2 x4 (ma & mb & ss & rs & Hma & Hmb & Hco & -> & -> & C1 & LC & C2 & L2 & C3 & L3 & D3 & D4).
    rewrite !bind_set. apply IH; [|lia]. destruct Hsm1. split; [constructor; cbn; auto|]. split; [unfold level; cbn; auto|].
    cbn. split; [auto|]. split; [unfold holds, seeds; cbn; auto 10|]. cbn in *. rewrite D3, D4. auto.
  Qed.

  Lemma last_meet batch i a b d : mid d i 0 a b -> 1 <= batch ->
    pair_ok (fun a' _ b' _ => late a' b' /\ (exists i', mid d i' (Z.min batch (top - e3 (no i') - sd i')) a' b') /\ fit a' b') (lax late)
      (precompute_last S E MA batch a) (precompute_last S E MB batch b).
  Proof.
    intros Hm Hbt. pose proof Hm as (Hsm & (Hi & E1 & E2 & E3) & Hb & Hh & Hr & Hs & D1 & D2). pose proof Hsm as Hsm'. destruct Hsm'.
    pose proof (gs_outputs S E G). pose proof top_small as Htop. pose proof (level_facts i Hi) as (K1 & K2 & K3 & K4 & K5).
    unfold precompute_last.
    assert (Elast : zget (p_output_size P) (zlen (p_output_size P) - 1) = Ok top).
    { rewrite (zget_ok 0) by lia. f_equal. apply znth_last. }
    rewrite !(bind_calc S _ _ _ _ Elast). rewrite !bind_get, <- same_vs0, <- same_ms0, E1, E2.
    rewrite (bind_calc S _ (top - e3 (no i) - sd i) _ a) by (apply int_small; lia); rewrite (bind_calc S _ (top - e3 (no i) - sd i) _ b) by (apply int_small; lia). rewrite !bind_set.
    set (be := Z.min batch (top - e3 (no i) - sd i)).
    set (a1 := set_batch_size S be a). set (b1 := set_batch_size S be b).
    assert (Hm1 : mid d i be a1 b1).
    { split; [constructor; cbn; auto|]. split; [unfold level; cbn; auto|]. cbn. auto 10. }
    assert (Ef : forall c : vole S, v_batch_size c = be -> v_vole_seed_size c = sd i -> v_mpfss_seed_size c = e3 (no i) -> full_output S c = Ret (c, Ok (be + sd i + e3 (no i)))).
    { intros c H1 H2 H3. unfold full_output. rewrite !bind_get, H1, H2, H3. unfold mcalc. rewrite int64_small by lia. reflexivity. }
    rewrite (bind_ok S _ _ a1 a1 _ (Ef a1 eq_refl E1 E2)), (bind_ok S _ _ b1 b1 _ (Ef b1 eq_refl ltac:(cbn; congruence) ltac:(cbn; congruence))).
    assert (HL : forall a' b', recoded (be + sd i + e3 (no i)) a1 b1 a' b' -> late a' b' /\ mid d i be a' b' /\ fit a' b').
    { intros a' b' Hrec. destruct (mid_recoded d i be _ a1 b1 a' b' Hm1 Hrec) as (Hm' & R1 & R2 & R3).
      split; [exists d, i, be; split; [auto|]; split; [congruence|]; split; [lia|]; split; [lia|]; left; lia|]. split; [auto|].
      destruct Hm' as (_ & (_ & M1 & M2 & _) & M3 & (_ & _ & _ & M4 & _) & _). split; congruence. }
    eapply pair_weaken; [apply (common_meet a1 b1 i); [apply Hm1|apply Hm1|lia]| |].
    - intros a1' x1 b1' x2 Hrec. apply HL in Hrec. destruct Hrec as (? & ? & ?). split; [auto|]. split; [exists i; auto|auto].
    - apply lax_weaken. intros a' b' Hrec. now apply HL in Hrec.
  Qed.

  Lemma late_Inv a b : link sb ra -> late a b -> Inv a b.
  Proof.
    intros Hl (d & i & batch & (Hsm & Hlv & Hb & Hh & Hr & Hs & D1 & D2) & R1 & R2 & R3 & R4). split; [auto|]. split.
    { split; [congruence|]. eauto. }
    split; [congruence|]. intros _. exists i. destruct Hlv as (Hi & E1 & E2 & E3). unfold level. repeat split; auto; try lia; try congruence.
  Qed.

  Lemma sizes_ok a : coh (v_mpfss a) ->
    precompute_sizes S E a = Ret (set_mpfss_seed_size S (e3 (no 0)) (set_vole_seed_size S (sd 0) (set_num_noise S (no 0) (set_batch_size S 0 a))), Ok (sd 0 + e3 (no 0))).
  Proof.
    intro Hc. pose proof (gs_levels S E G). pose proof (gs_noises S E G). pose proof (level_facts 0 ltac:(lia)). pose proof top_small.
    unfold precompute_sizes. rewrite bind_set. rewrite (bind_calc S _ (no 0)) by (apply zget_ok; lia). rewrite bind_set.
    rewrite (bind_calc S _ (sd 0)) by (apply zget_ok; lia). rewrite bind_set.
    erewrite bind_ok by (unfold m_num_buckets; cbn [v_mpfss set_vole_seed_size set_num_noise set_batch_size]; rewrite num_buckets_ok by (auto; lia); reflexivity).
    rewrite bind_set. rewrite (bind_calc S _ (sd 0 + e3 (no 0))) by (apply int_small; lia).
    replace (sd 0 + e3 (no 0) <? 0) with false by lia. reflexivity.
  Qed.

  (** The first seeds. *)
  Lemma first_meet size d a b : size = sd 0 + e3 (no 0) ->
    pair_ok (fun a' _ b' _ => exists ss rs, a' = set_s S ss a /\ b' = set_r S rs b /\ corr d (s_cached ss) (r_cached rs) /\
                zlen (rr_w (r_cached rs)) = size /\ s_done ss = s_done (v_s a) /\ r_done rs = r_done (v_r b)) (fun _ _ => False)
      (sender_first_seed S E size a) (receiver_first_seed S E MB size d b).
  Proof.
    intros Es. pose proof (gs_levels S E G). pose proof (level_facts 0 ltac:(lia)) as (K1 & K2 & K3 & _). pose proof top_small as Htop.
    pose proof (sl_size S L) as Hsz. pose proof (gs_size S E G) as H16.
    unfold sender_first_seed, receiver_first_seed. apply pair_scalars. intros u Lu. apply pair_scalars. intros v Lv.
    rewrite Z2Nat.id in Lu, Lv by lia. rewrite !bind_set.
    set (out := map (c_junk MB) (zrange 0 size)). assert (Lo : zlen out = size) by (unfold out; rewrite zlen_map, zlen_zrange; lia).
    eapply (pair_proc S _ _ (fun rv rx => zlen rv = size /\ zlen rx = size /\ forall q, 0 <= q < size -> s_add S (zn rv q) (zn rx q) = s_mul S d (zn u q))).
    - intros ta tb. destruct (gilboa_jrun S L H16 (vole_K E) d u (zrepeat (s_zero S) size) out ta tb) as (rv & rx & ta' & J & L1 & L2 & Hq).
      + rewrite zlen_zrepeat; lia.
      + lia.
      + pose proof (pf_pos S L H16). lia.
      + rewrite <- transfers_eq by lia. rewrite Lu, Es. apply (gs_first S E G).
      + exists rv, rx, ta', tb. rewrite Lu in *. auto.
    - intros rv rx (L1 & L2 & Hq). unfold mbind at 1, mproc. cbn [pbind]. unfold recv_vec. cbn [pbind].
      eapply meet_prefix; [intros ta tb; exists ta, tb; apply jrun_send_recv; reflexivity|]. cbn [pbind].
      assert (L3 : zlen (vec_add S rv v) = size) by (rewrite zlen_vec_add; lia).
      rewrite L2, L3, Z.eqb_refl. cbn [negb]. unfold mset. apply pair_ret.
      eexists _, _. split; [reflexivity|]. split; [reflexivity|]. cbn. split; [|split; [rewrite zlen_vec_add; lia|auto]].
      split; [reflexivity|]. cbn. unfold vole_correlation. rewrite zlen_vec_add by lia. repeat split; try lia.
      intros q Hqr. rewrite !znth_vec_add by lia. specialize (Hq q ltac:(lia)).
      assert (Hx : zn rx q = s_sub S (s_mul S d (zn u q)) (zn rv q)) by (rewrite <- Hq; ring). rewrite Hx. ring.
  Qed.
  End Direction.

  Lemma precompute_meet a b batch d : Inv a b -> (strict = true -> 1 <= batch) ->
    pair_ok (fun a' _ b' _ => Inv a' b' /\ s_done (v_s a') = true /\ 1 <= batch /\ fit a' b') (lax Inv)
      (precompute_sender S E MA batch a) (precompute_receiver S E MB batch d b).
  Proof.
    intros HI Hst. pose proof HI as (Hsm & Hl1 & Hl2 & Hrd). unfold precompute_sender, precompute_receiver.
    destruct (Z.ltb_spec batch 1) as [Hlt|Hge].
    { apply pair_err. split; [|auto]. destruct strict; auto. specialize (Hst eq_refl). lia. }
    pose proof (gs_levels S E G). pose proof (level_facts 0 ltac:(lia)) as (K1 & K2 & K3 & K4 & K5). pose proof top_small as Htop.
    rewrite (bind_ok S _ _ _ _ _ (sizes_ok a (same_a _ _ Hsm))), (bind_ok S _ _ _ _ _ (sizes_ok b (same_b _ _ Hsm))).
    eapply pair_bind; [apply first_meet; reflexivity|contradiction|].
    intros a1 x1 b1 x2 (ss & rs & -> & -> & Hc & Lc & Ds & Dr). rewrite !bind_get. cbn [set_s set_r set_mpfss_seed_size set_vole_seed_size v_vole_seed_size v_mpfss_seed_size].
    erewrite (bind_ok S (new_sender_seeds S (sd 0) (e3 (no 0)))); [|apply new_sender_ok; [lia|lia|change (sd 0 + e3 (no 0) <= zlen (sr_u (s_cached ss))); destruct Hc as [_ (Lu & _)]; lia]].
    erewrite (bind_ok S (new_receiver_seeds S (sd 0) (e3 (no 0)))); [|apply new_receiver_ok; [lia|lia|change (sd 0 + e3 (no 0) <= zlen (rr_w (r_cached rs))); lia]].
    pose proof (reseed_corr d (sd 0) (e3 (no 0)) ss rs Hc ltac:(lia) ltac:(lia) ltac:(lia)) as (A1 & A2 & A3 & A4 & A5 & A6).
    set (dn := s_done (v_s a)).
    eapply pair_bind; [apply (bootstrap_meet (v_r a) (v_s b) dn batch (Z.to_nat (lv - 1 - 0)) 0 _ _ d); [|reflexivity]|apply lax_weaken; intros; now apply (late_Inv (v_r a) (v_s b) dn)|].
    { destruct Hsm. split; [constructor; cbn; auto|]. split; [unfold level; cbn; repeat split; auto; lia|]. split; [reflexivity|].
      split; [exact (conj A1 (conj A3 (conj A5 (conj A4 (conj A6 (conj (Z.le_refl 0) (proj1 (Z.le_succ_l 0 lv) H)))))))|]. cbn. cbn in Ds, Dr. rewrite Ds, Dr. repeat split; auto. symmetry. apply Hl1. }
    intros a2 x3 b2 x4 (i & Hm).
    eapply pair_bind; [apply (last_meet (v_r a) (v_s b) dn batch i _ _ d Hm Hge)|apply lax_weaken; intros; now apply (late_Inv (v_r a) (v_s b) dn)|].
    intros a3 x5 b3 x6 (Hlate & _ & Hfit). unfold mset. apply pair_ret. cbn. split; [|split; [reflexivity|split; [lia|exact Hfit]]].
    destruct Hlate as (d' & i' & batch' & (Hsm' & Hlv & Hb & Hh & Hr & Hs & D1 & D2) & R1 & R2 & R3 & R4).
    destruct Hsm'. split; [constructor; cbn; auto|]. split; [split; [reflexivity|]; cbn; intros _; exists d', i'; exact Hh|].
    cbn. split; [rewrite Hr, Hs; exact Hl2|]. intros _. exists i'. destruct Hlv as (Hi & E1 & E2 & E3). unfold level. cbn. repeat split; auto; try lia.
  Qed.

  Lemma random_meet a b batch : Inv a b -> (strict = true -> 1 <= batch) ->
    pair_ok (fun a' _ b' _ => Inv a' b' /\ s_done (v_s a') = true /\ 1 <= batch /\ fit a' b') (lax Inv)
      (precompute_sender S E MA batch a) (precompute_receiver_random S E MB batch b).
  Proof.
    intros HI Hst. unfold precompute_receiver_random. apply pair_swap.
    apply (pair_rand S _ _ (fun _ t => Ok t)). intros c t. erewrite bind_calc by reflexivity. apply pair_swap. now apply precompute_meet.
  Qed.

  (** ** Run *)
  (** What the parties have after a call that returned correlated vectors. *)
  Definition returned size (a : vole S) (x : sender_result S) (b : vole S) (y : receiver_result S) : Prop :=
    Inv a b /\ zlen (rr_w y) = size /\ vole_correlation S (rr_delta y) (sr_u x) (sr_v x) (rr_w y) /\ (strict = true -> fit a b).

  Lemma Inv_sides a b s r d j : Inv a b -> s_done (v_s a) = true -> holds d j s r -> s_done s = true -> r_done r = true -> Inv (set_s S s a) (set_r S r b).
  Proof.
    intros (Hsm & Hl1 & Hl2 & Hrd) Hd Hh H1 H2. destruct Hsm. split; [constructor; cbn; auto|]. cbn.
    split; [split; [congruence|]; eauto|]. split; [auto|]. intros _. apply (Hrd (or_introl Hd)).
  Qed.

  Lemma loop_meet rounds size : forall u v w d j a b, Inv a b -> s_done (v_s a) = true -> holds d j (v_s a) (v_r b) ->
    vole_correlation S d u v w -> zlen w <= size -> (strict = true -> fit a b) ->
    size <= zlen w \/ size - zlen w + (if zlen (rr_w (r_cached (v_r b))) =? 0 then 1 else 0) <= Z.of_nat rounds ->
    pair_ok (returned size) (lax Inv) (run_sender_loop S E MA rounds size u v a) (run_receiver_loop S E MB rounds size w d b).
  Proof.
    induction rounds as [|rounds IH]; intros u v w d j a b HI Hd Hh Hc Hl Hfit Hr; cbn [run_sender_loop run_receiver_loop];
      pose proof Hc as (Lu & Lv & _); rewrite Lu.
    { assert (size <= zlen w) by (destruct (_ =? 0) in Hr; lia). replace (size <=? zlen w) with true by lia. unfold mret. apply pair_ret. split; [auto|]. split; [cbn; lia|]. split; [exact Hc|auto]. }
    destruct (Z.leb_spec size (zlen w)) as [Hge|Hlt].
    { unfold mret. apply pair_ret. split; [auto|]. split; [cbn; lia|]. split; [exact Hc|auto]. }
    rewrite !bind_get. cbv zeta. pose proof Hh as ([Hcd Hcc] & Hse). pose proof Hcc as (Lcu & Lcv & _). rewrite Lcu.
    set (wc := rr_w (r_cached (v_r b))) in *. pose proof (zlen_nonneg wc) as Hn0.
    assert (Hrd : r_done (v_r b) = true) by (destruct HI as (_ & [E1 _] & _); congruence).
    destruct (Z.leb_spec (zlen w + zlen wc) size) as [Hle|Hgt].
    - (* the whole cache *)
      erewrite (bind_ok S _ _ a) by reflexivity. erewrite (bind_ok S _ _ b) by reflexivity. cbn [sr_u sr_v rr_w]. fold wc.
      set (a1 := set_s S _ a). set (b1 := set_r S _ b).
      assert (Hc' : vole_correlation S d (u ++ sr_u (s_cached (v_s a))) (v ++ sr_v (s_cached (v_s a))) (w ++ wc)) by (apply correlation_app; auto).
      assert (Hh1 : holds d j (v_s a1) (v_r b1)).
      { split; [split; [exact Hcd|apply correlation_nil]|]. exact Hse. }
      assert (HI1 : Inv a1 b1) by (apply (Inv_sides a b _ _ d j); auto).
      assert (Lw : zlen (w ++ wc) = zlen w + zlen wc) by apply zlen_app.
      assert (Lu1 : zlen (u ++ sr_u (s_cached (v_s a))) = zlen (w ++ wc)) by apply Hc'. rewrite Lu1.
      destruct (Z.ltb_spec (zlen (w ++ wc)) size) as [Hlt2|Hge2]; [|apply (IH _ _ _ d j); auto; lia].
      pose proof HI1 as (Hsm1 & _ & _ & Hr1). destruct (Hr1 (or_introl Hd)) as (i & (Hi & E1 & E2 & E3) & R1 & R2 & R3 & R4).
      pose proof (level_facts i Hi) as (K1 & K2 & K3 & K4 & K5). pose proof top_small as Htop.
      eapply (pair_bind S (expanded d (v_batch_size a1 + v_vole_seed_size a1 + v_mpfss_seed_size a1) (v_vole_seed_size a1) (v_mpfss_seed_size a1) a1 b1) _ (lax (fun a' b' => a' = a1 /\ b' = b1))).
      + unfold expand, full_output.
        erewrite (bind_ok S _ _ a1); [|rewrite !bind_get; unfold mcalc; rewrite int64_small by lia; reflexivity].
        erewrite (bind_ok S _ _ b1); [|rewrite !bind_get; unfold mcalc; rewrite <- (same_batch _ _ Hsm1), <- (same_vs _ _ Hsm1), <- (same_ms _ _ Hsm1); rewrite int64_small by lia; reflexivity].
        rewrite !bind_get. rewrite <- (same_vs _ _ Hsm1), <- (same_ms _ _ Hsm1).
        apply (expand_meet a1 b1 d i j); auto; lia.
      + apply lax_weaken. intros a' b' [-> ->]. exact HI1.
      + intros a2 x3 b2 x4 (ma & mb & ss & rs & Hma & Hmb & Hco & -> & -> & C1 & LC & C2 & L2 & C3 & L3 & D3 & D4).
        assert (Hh2 : holds d i ss rs) by (exact (conj C1 (conj C2 (conj C3 (conj (eq_trans L2 E1) (conj (eq_trans L3 E2) Hi)))))).
        change (s_done (v_s a1)) with (s_done (v_s a)) in D3. change (r_done (v_r b1)) with (r_done (v_r b)) in D4.
        apply (IH _ _ _ d i).
        * destruct Hsm1. split; [constructor; auto|]. cbn. split; [split; [congruence|]; eauto|].
          split; [apply HI|]. intros _. exists i. exact (conj (conj Hi (conj E1 (conj E2 E3))) (conj R1 (conj R2 (conj R3 R4)))).
        * cbn. congruence.
        * exact Hh2.
        * exact Hc'.
        * lia.
        * intro Hst. destruct (Hfit Hst) as [Hf1 Hf2]. split; cbn; [|exact Hf2]. rewrite L2. symmetry. exact R1.
        * right. cbn [v_r]. rewrite LC. change (zlen (rr_w (r_cached (v_r b1)))) with 0. replace (0 + _ - _ - _ =? 0) with false by lia.
          destruct (Z.eqb_spec (zlen wc) 0); lia.
    - (* part of the cache *)
      erewrite (bind_ok S _ _ a) by (apply get_sender_ok; lia). erewrite (bind_ok S _ _ b) by (apply get_receiver_ok; fold wc; lia).
      cbn [sr_u sr_v rr_w]. fold wc. set (n := size - zlen w).
      assert (Hc' : vole_correlation S d (u ++ tail n (sr_u (s_cached (v_s a)))) (v ++ tail n (sr_v (s_cached (v_s a)))) (w ++ tail n wc))
        by (apply correlation_app; auto; apply correlation_tail; auto; lia).
      assert (Lw : zlen (w ++ tail n wc) = size) by (rewrite zlen_app, zlen_tail; lia).
      assert (Lu1 : zlen (u ++ tail n (sr_u (s_cached (v_s a)))) = zlen (w ++ tail n wc)) by apply Hc'. rewrite Lu1.
      replace (zlen (w ++ tail n wc) <? size) with false by lia. apply (IH _ _ _ d j); auto; try lia.
      + apply (Inv_sides a b _ _ d j); auto. split; [|exact Hse]. split; [exact Hcd|]. cbn. apply correlation_shrink; auto; lia.
      + split; [|exact Hse]. split; [exact Hcd|]. cbn. apply correlation_shrink; auto; lia.
  Qed.

  Lemma run_meet size a b : Inv a b -> (strict = true -> 1 <= size /\ (s_done (v_s a) = true -> fit a b)) ->
    pair_ok (returned size) (lax Inv) (run_sender S E MA size a) (run_receiver S E MB size b).
  Proof.
    intros HI Hst. unfold run_sender, run_receiver. rewrite !bind_get.
    eapply (pair_bind S (fun a' _ b' _ => Inv a' b' /\ s_done (v_s a') = true /\ (strict = true -> fit a' b')) _ (lax Inv)); [|auto|].
    - assert (Ed : r_done (v_r b) = s_done (v_s a)) by (destruct HI as (_ & [E1 _] & _); congruence). rewrite Ed.
      destruct (s_done (v_s a)) eqn:Hd.
      + unfold mret. apply pair_ret. split; [auto|]. split; [auto|]. intro H. now apply Hst.
      + eapply pair_weaken; [apply random_meet; auto| |auto]; [intro H; now apply Hst|]. cbv beta. intros; tauto.
    - intros a1 x1 b1 x2 (HI1 & Hd1 & Hf1). pose proof HI1 as (_ & [Ed1 Hl] & _). destruct (Hl Hd1) as (d & j & Hh). pose proof Hh as ([Hcd Hcc] & Hse). pose proof Hcc as (Lcu & Lcv & _).
      unfold get_sender_cached, get_receiver_cached. rewrite Lcu. destruct (Z.ltb_spec (zlen (rr_w (r_cached (v_r b1)))) size) as [Hlt|Hge].
      + cbn [pbind]. rewrite Hcd. pose proof (zlen_nonneg (rr_w (r_cached (v_r b1)))).
        apply (loop_meet _ size [] [] [] d j); auto; [apply correlation_nil|change (zlen (@nil S)) with 0; lia|right; change (zlen (@nil S)) with 0; destruct (_ =? 0); lia].
      + destruct (Z.ltb_spec size 0).
        { apply pair_ub. destruct strict; [specialize (Hst eq_refl); lia|cbn; auto 6]. } cbn [pbind]. apply pair_ret. split; [|split; [|split]].
        * apply (Inv_sides a1 b1 _ _ d j); auto; [|cbn; congruence]. split; [|exact Hse]. split; [exact Hcd|]. cbn. apply correlation_shrink; auto; lia.
        * cbn. rewrite zlen_tail; lia.
        * cbn. rewrite Hcd. apply correlation_tail; auto; lia.
        * exact Hf1.
  Qed.

  Lemma call_meet c a b : Inv a b ->
    (strict = true -> match c with Precompute n _ => 1 <= n | Run n => 1 <= n /\ (s_done (v_s a) = true -> fit a b) end) ->
    pair_ok (fun a' x b' y => Inv a' b' /\ agree_on S c (Ok x) (Ok y) /\ (strict = true -> fit a' b')) (lax Inv) (as_sender S E MA c a) (as_receiver S E MB c b).
  Proof.
    intros HI Hst.
    assert (Hb : forall X Y X' Y' (Q : vole S -> X -> vole S -> Y -> Prop) (Q' : vole S -> X' -> vole S -> Y' -> Prop) pa pb (f : X -> X') (g : Y -> Y'),
              pair_ok Q (lax Inv) pa pb -> (forall a x b y, Q a x b y -> Q' a (f x) b (g y)) ->
              pair_ok Q' (lax Inv) (pbind pa (fun '(st, r) => Ret (st, rmap f r))) (pbind pb (fun '(st, r) => Ret (st, rmap g r)))).
    { intros X Y X' Y' Q Q' pa pb f g Hp HQ. eapply meet_bind; [exact Hp| | |].
      - intros [a' [x|e|w]] [b' [y|e'|w']] T; cbn in T; try contradiction; apply meet_ret; cbn; auto.
      - intros [a' [x|e|w]] T; cbn in T; try contradiction; (eexists; split; [reflexivity|exact T]).
      - intros [a' [x|e|w]] T; cbn in T; try contradiction; (eexists; split; [reflexivity|exact T]). }
    destruct c as [batch [d|]|size]; cbn [as_sender as_receiver].
    - eapply Hb; [apply precompute_meet; auto|]. cbn. intros a' x b' y (H1 & _ & _ & H2). split; [auto|]. split; [eauto|auto].
    - eapply Hb; [apply random_meet; auto|]. cbn. intros a' x b' y (H1 & _ & _ & H2). split; [auto|]. split; [eauto|auto].
    - eapply Hb; [apply run_meet; auto|]. cbn. intros a' x b' y (H1 & H2 & H3 & H4). split; [auto|]. rewrite H2. auto.
  Qed.
End Steps.

(** ** Whole sessions *)
Section Sessions.
  Variable S : scalar.
  Hypothesis L : scalar_laws S.
  Variable E : setting.
  Hypothesis G : good_setting S E.
  Variable MA MB : machine S.
  Hypothesis GA : good_machine S MA.
  Hypothesis GB : good_machine S MB.
  Hypothesis HC : connected MA MB.
  Variable go_on : status -> bool.
  Hypothesis Hgo : forall e, In e one_sided -> go_on e = false.

  Lemma any_call_meet seed (s : bool) c a b : Inv S E seed a b ->
    pair_ok (one_sided, local_ub) (one_sided, local_ub) local_ub (fun a' x b' y => Inv S E seed a' b' /\ if s then agree_on S c (Ok x) (Ok y) else agree_on S c (Ok y) (Ok x)) (Inv S E seed)
      ((if s then as_sender S E else as_receiver S E) MA c a) ((if negb s then as_sender S E else as_receiver S E) MB c b).
  Proof.
    intro HI.
    assert (Hw : forall (Q Q' : vole S -> answer S -> vole S -> answer S -> Prop) (F F' : vole S -> vole S -> Prop) pa pb,
      pair_ok ([insertion_failed], alone_ub) ([cannot_ensure], []) local_ub Q F pa pb -> (forall a x b y, Q a x b y -> Q' a x b y) -> (forall a b, F a b -> F' a b) -> pair_ok (one_sided, local_ub) (one_sided, local_ub) local_ub Q' F' pa pb).
    { intros Q Q' F F' pa pb H HQ HF. eapply meet_weaken; [exact H| | |].
      - intros [a' [x|e|w]]; cbn; try tauto.
      - intros [a' [x|e|w]]; cbn; try tauto.
      - intros [a' [x|e|w]] [b' [y|e'|w']] T; cbn in *; auto. destruct T; auto. }
    destruct s; cbn [negb].
    - eapply Hw; [apply (call_meet S L E G seed MA MB GA GB HC false); auto; discriminate| |]; unfold lax; cbv beta; tauto.
    - apply pair_swap. eapply Hw; [apply (call_meet S L E G seed MB MA GB GA) with (strict := false); try discriminate|  |].
      + destruct HC as (H1 & H2 & H3). repeat split; auto.
      + now apply Inv_sym.
      + cbn. intros a' x b' y (H1 & H2 & _). split; [now apply Inv_sym|]. exact H2.
      + intros a' b' [_ H]. now apply Inv_sym.
  Qed.

  Lemma calls_meet seed l : forall a b, Inv S E seed a b ->
    meet ends_badly ends_badly (agree S go_on l) (calls S E MA go_on l a) (calls S E MB go_on (opposite S l) b).
  Proof.
    induction l as [|[s c] l IH]; intros a b HI; cbn [calls opposite map].
    { apply meet_ret. constructor. }
    assert (Hsame : forall x : res (answer S), match x with Ok _ => False | Err _ => True | UB w => In w local_ub end ->
              if s then agree_on S c x x else agree_on S c x x) by (intros [?|?|?] Hx; destruct s; cbn in *; auto; contradiction).
    eapply meet_bind; [apply any_call_meet; exact HI| | |].
    - assert (Hcont : forall a' b' x y, Inv S E seed a' b' -> (if s then agree_on S c x y else agree_on S c y x) -> continues go_on x = true ->
        meet ends_badly ends_badly (agree S go_on ((s, c) :: l)) (pbind (calls S E MA go_on l a') (fun rs => Ret (x :: rs)))
          (pbind (calls S E MB go_on (opposite S l) b') (fun rs => Ret (y :: rs)))).
      { intros a' b' x y HI' Hag Hgn. eapply meet_bind; [apply IH; exact HI'| | |].
        - intros ra rb Hr. apply meet_ret. now constructor.
        - intros ra (l0 & r & -> & Hr). eexists. split; [reflexivity|]. exists (x :: l0), r. auto.
        - intros ra (l0 & r & -> & Hr). eexists. split; [reflexivity|]. exists (y :: l0), r. auto. }
      intros [a' [x|e|w]] [b' [y|e'|w']] T; cbn in T; try contradiction.
      + apply Hcont; [apply T|apply T|reflexivity].
      + destruct T as [<- T]. destruct (go_on e) eqn:Hg; [apply Hcont; [auto|now apply (Hsame (Err e))|exact Hg]|].
        apply meet_ret. apply agree_stop; [now apply (Hsame (Err e))|exact Hg].
      + destruct T as [<- T]. apply meet_ret. apply agree_stop; [now apply (Hsame (UB w))|reflexivity].
    - intros [a' [x|e|w]] T; cbn in T; try contradiction.
      + rewrite (Hgo e T). eexists. split; [reflexivity|]. exists [], (Err e). auto.
      + eexists. split; [reflexivity|]. exists [], (UB w). auto.
    - intros [a' [x|e|w]] T; cbn in T; try contradiction.
      + rewrite (Hgo e T). eexists. split; [reflexivity|]. exists [], (Err e). auto.
      + eexists. split; [reflexivity|]. exists [], (UB w). auto.
  Qed.

  Lemma new_Inv seed : Inv S E seed (vole_new S MA (mpfss_new (Hasher seed 3))) (vole_new S MB (mpfss_new (Hasher seed 3))).
  Proof.
    clear. assert (Hc : coherent (e_aes E) (e_too_many_bits E) (e_expansion3 E) (e_expansion2 E) (Hasher seed 3) (mpfss_new (Hasher seed 3))).
    { split; [reflexivity|]. cbn. discriminate. }
    split; [constructor; auto|]. cbn. split; [split; [reflexivity|discriminate]|]. split; [split; [reflexivity|discriminate]|]. intros [?|?]; discriminate.
  Qed.

  Lemma create_jrun ta tb : exists seed ta' tb', jrun (vole_create S MA false) ta (vole_create S MB false) tb
    (Ret (Ok (vole_new S MA (mpfss_new (Hasher seed 3))))) ta' (Ret (Ok (vole_new S MB (mpfss_new (Hasher seed 3))))) tb'.
  Proof.
    clear G GA GB go_on Hgo. destruct HC as (H1 & H2 & H3). unfold vole_create. rewrite H1, H2.
    destruct (Z.ltb_spec (c_id MA) (c_id MB)) as [Hlt|Hge].
    - eexists _, _, _. eapply jrun_trans; [apply jrun_sync|]. unfold mpfss_create.
      replace (c_id MA <? c_id MB) with true by lia. replace (c_id MB <? c_id MA) with false by lia.
      apply (jrun_bindr (fun m => Ret (Ok (vole_new S MA m))) (fun m => Ret (Ok (vole_new S MB m)))).
      eapply jrun_trans; [apply jrun_sync|]. eapply jrun_trans; [apply jrun_sync|].
      eapply jrun_trans; [apply jrun_rand_a|]. eapply jrun_trans; [apply jrun_send_recv; reflexivity|]. apply jrun_refl.
    - eexists _, _, _. eapply jrun_trans; [apply jrun_sync|]. unfold mpfss_create.
      replace (c_id MA <? c_id MB) with false by lia. replace (c_id MB <? c_id MA) with true by lia.
      apply (jrun_bindr (fun m => Ret (Ok (vole_new S MA m))) (fun m => Ret (Ok (vole_new S MB m)))).
      eapply jrun_trans; [apply jrun_sync|]. eapply jrun_trans; [apply jrun_sync|].
      eapply jrun_trans; [apply jrun_rand_b|]. eapply jrun_trans; [apply jrun_recv_send; reflexivity|]. apply jrun_refl.
  Qed.

  Definition bad_end (r : res (list (res (answer S)))) : Prop := exists rs, r = Ok rs /\ ends_badly rs.

  Lemma party_meet l : meet bad_end bad_end (fun ra rb => exists la lb, ra = Ok la /\ rb = Ok lb /\ agree S go_on l la lb)
    (party S E MA go_on l) (party S E MB go_on (opposite S l)).
  Proof.
    unfold party, pbindr.
    eapply (meet_bind S (fun _ => False) (fun _ => False)
      _ _ (fun x y => exists seed a b, x = Ok a /\ y = Ok b /\ Inv S E seed a b)); [| |contradiction|contradiction].
    - intros ta tb. left. destruct (create_jrun ta tb) as (seed & ta' & tb' & J). eexists _, _, _, _. split; [exact J|].
      exists seed. eexists _, _. split; [reflexivity|]. split; [reflexivity|]. apply new_Inv.
    - intros x y (seed & a & b & -> & -> & HI). eapply meet_bind; [apply (calls_meet seed); exact HI| | |].
      + intros ra rb Hr. apply meet_ret. eauto.
      + intros ra Hr. eexists. split; [reflexivity|]. exists ra. auto.
      + intros ra Hr. eexists. split; [reflexivity|]. exists ra. auto.
  Qed.
End Sessions.
