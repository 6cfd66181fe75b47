(** The quotient GF(2)[X]/(F) is a field; the model's inverse is its inverse. *)
From Verif Require Import Base NBits Gf128Spec Gf128Model Gf128Poly Gf128Proofs.
Local Open Scope N_scope.

(** A certificate: images of the basis vectors 2^0..2^127 under a linear map L
    with L(e*e + e) = e + (bit 0 of e) for all e; checked by computation below. *)
Definition L_table : list N :=
  [54969562866131847669016652494142573320;
   305526867633558886955404559995676324868;
   305526867633558886955404559995676324870;
   104469799312523126935073530960423461388;
   305526867633558886955404559995676324866;
   56734434906695435454005472259553578602;
   104469799312523126935073530960423461380;
   271830150077582418345900040240152313368;
   305526867633558886955404559995676324882;
   104470118804432205535668098632526617412;
   56734434906695435454005472259553578570;
   227145695117876428321601179286510436182;
   104469799312523126935073530960423461444;
   305967500991204419130524647600360013666;
   271830150077582418345900040240152313496;
   227728627380917811012951187023350445606;
   305526867633558886955404559995676325138;
   56815181714465587187729576693626853178;
   104470118804432205535668098632526616900;
   2537993204061707162883588357039153916;
   56734434906695435454005472259553577546;
   3012428575888700110705650160495551628;
   227145695117876428321601179286510434134;
   275671395948664093117384310641479295528;
   104469799312523126935073530960423465540;
   271915852323952067842399232303023203416;
   305967500991204419130524647600360005474;
   102998777379450204286412735627287799860;
   271830150077582418345900040240152297112;
   272209106874770544727132909282711537316;
   227728627380917811012951187023350412838;
   135325830696997074197434372310186257282;
   305526867633558886955404559995676390674;
   57232084741685004684866676497372669754;
   56815181714465587187729576693626984250;
   135411474552265958872087683058005180738;
   104470118804432205535668098632526879044;
   275757512462385460142162890854388625828;
   2537993204061707162883588357039678204;
   274842411402277094064293402576501149528;
   56734434906695435454005472259554626122;
   175382474467339210118195525752143821788;
   3012428575888700110705650160497648780;
   5261797816253387317062014170447638976;
   227145695117876428321601179286514628438;
   272210066766835802062006483639670336468;
   275671395948664093117384310641470906920;
   225136856268418471551472419225175749014;
   104469799312523126935073530960440242756;
   102164174349821125137969924442995585924;
   271915852323952067842399232302989648984;
   226936647763116174786496543602468507498;
   305967500991204419130524647600427114338;
   305532029585887981283514747020026657774;
   102998777379450204286412735627422017588;
   133211003395652039953403666705387164366;
   271830150077582418345900040239883861656;
   102148097239065330920971689869502701364;
   272209106874770544727132909283248408228;
   173139448164521758332819425568250980204;
   227728627380917811012951187022276671014;
   305961988162602755697098987302884752222;
   135325830696997074197434372312333740930;
   175397880387343143921058595535091746080;
   305526867633558886955404559991381423378;
   329634352286836299080082914081100;
   57232084741685004684866676505962604346;
   172705286512742171128536335012890908524;
   56815181714465587187729576710806853434;
   303614986222712004812458293485509624930;
   135411474552265958872087683023645442370;
   170536380025231687221712635462198253856;
   104470118804432205535668098701246355780;
   225051247907070202050589524227723711914;
   275757512462385460142162890991827579300;
   308170559265311564786252692292247708062;
   2537993204061707162883588082161771260;
   102169133813289299704984590013427707636;
   274842411402277094064293402026745335640;
   303326766809063102477989677003176958226;
   56734434906695435454005473359066253898;
   172841837191359616877872241477191677152;
   175382474467339210118195523553120566236;
   54888141419452711199816878900948880442;
   3012428575888700110705654558544159884;
   307799342647640341558117533281787318686;
   5261797816253387317062022966540661184;
   273119276677551945356669168913118222868;
   227145695117876428321601196878700672854;
   272311600527812781647585363233504111460;
   272210066766835802062006518824042425300;
   5181299727675599870287693023180209980;
   275671395948664093117384240272726729256;
   305525142620375929691910208574098026146;
   225136856268418471551472278487687393686;
   307772801086609188417528170053220769746;
   104469799312523126935073249485463532100;
   54596111748351997025280216654447342278;
   102164174349821125137970487392949007236;
   308164931596625094656266467235253809106;
   271915852323952067842398106403082806360;
   227647953955287367714133036452945544742;
   226936647763116174786494291802654822250;
   308170555145571807541189819739699809694;
   305967500991204419130520144000799743842;
   133105130754254600986622393405343152142;
   305532029585887981283523754219281398766;
   172410759080424577518324870893406614048;
   102998777379450204286394721228912535604;
   54969320214588899006126198736319185926;
   133211003395652039953439695502406128334;
   227375442280390979429973553919662004774;
   271830150077582418345827982645845933720;
   4955917326648230773508684280683823104;
   102148097239065330921115805057578557236;
   172885700256406002458384310923462859152;
   272209106874770544726844678907096696484;
   56538291399058816093646072645906817530;
   173139448164521758332242964815947556716;
   55418003596362017635628740176384579466;
   227728627380917811014104108526883517990;
   0;
   305961988162602755699404830312098446174;
   178356100567250831900639352525185366892;
   135325830696997074202046058330761128834;
   189481146061086134017106552491789565356;
   175397880387343143911835223498236970272;
   75361565302940573017734093940626417402].

(** Linear combination: xor of the table entries selected by the bits of x. *)
Fixpoint lin (t : list N) (k : N) (x : N) : N :=
  match t with
  | [] => 0
  | y :: t' => N.lxor (if N.testbit x k then y else 0) (lin t' (k + 1) x)
  end.

Lemma lin_lxor t k x y : lin t k (N.lxor x y) = N.lxor (lin t k x) (lin t k y).
Proof.
  revert k; induction t as [|z t IH]; intro k; cbn [lin]; [reflexivity|].
  rewrite IH, N.lxor_spec. destruct (N.testbit x k), (N.testbit y k); cbn [xorb]; xor_solve.
Qed.

(** Two additive maps that agree on 2^k, k < n, agree below 2^n. *)
Lemma additive_ext (f g : N -> N) (n : nat) :
  (forall x y, f (N.lxor x y) = N.lxor (f x) (f y)) ->
  (forall x y, g (N.lxor x y) = N.lxor (g x) (g y)) ->
  (forall k, (k < n)%nat -> f (2^N.of_nat k) = g (2^N.of_nat k)) ->
  forall x, x < 2^N.of_nat n -> f x = g x.
Proof.
  intros Hf Hg. assert (Hf0 : f 0 = 0).
  { pose proof (Hf 0 0) as H. rewrite N.lxor_nilpotent in H.  rewrite H. apply N.lxor_nilpotent. }
  assert (Hg0 : g 0 = 0).
  { pose proof (Hg 0 0) as H. rewrite N.lxor_nilpotent in H.  rewrite H. apply N.lxor_nilpotent. }
  induction n as [|n IH]; intros Hb x Hx.
  - change (2^N.of_nat 0) with 1 in Hx. assert (x = 0) as -> by lia. congruence.
  - assert (E : x = if N.testbit x (N.of_nat n) then N.lxor (x mod 2^N.of_nat n) (2^N.of_nat n) else x mod 2^N.of_nat n).
    { rewrite <- mod_pow2_succ. symmetry. apply N.mod_small. now rewrite N.add_1_r, <- Nat2N.inj_succ. }
    assert (G : f (x mod 2^N.of_nat n) = g (x mod 2^N.of_nat n)).
    { apply IH; [intros; apply Hb; lia|]. apply N.mod_lt. apply N.pow_nonzero. lia. }
    rewrite E. destruct (N.testbit x (N.of_nat n)); auto.
    rewrite Hf, Hg, G, Hb by lia. reflexivity.
Qed.

Definition frob (a : N) : N := fmul a a.
Lemma frob_lxor a b : frob (N.lxor a b) = N.lxor (frob a) (frob b).
Proof.
  unfold frob. rewrite fmul_lxor_l, !fmul_lxor_r, (fmul_comm b a). xor_solve.
Qed.
Lemma frob_fmul a b : frob (fmul a b) = fmul (frob a) (frob b).
Proof.
  unfold frob. rewrite !fmul_assoc. f_equal.
  rewrite <- !fmul_assoc. f_equal. apply fmul_comm.
Qed.
Lemma frob_lt a : frob a < 2^128. Proof. apply fmul_lt. Qed.

Fixpoint frobn (n : nat) (a : N) : N :=
  match n with O => a | S n' => frobn n' (frob a) end.
Lemma frobn_lxor n a b : frobn n (N.lxor a b) = N.lxor (frobn n a) (frobn n b).
Proof. revert a b; induction n as [|n IH]; intros a b; cbn [frobn]; auto. now rewrite frob_lxor, IH. Qed.
Lemma frobn_fmul n a b : frobn n (fmul a b) = fmul (frobn n a) (frobn n b).
Proof. revert a b; induction n as [|n IH]; intros a b; cbn [frobn]; auto. now rewrite frob_fmul, IH. Qed.

(** X^(2^128) = X, by computation. *)
Lemma frobn_X : frobn 128 2 = 2.
Proof. vm_compute. reflexivity. Qed.

Lemma pow2_succ_fmul k : (S k < 128)%nat -> 2^N.of_nat (S k) = fmul 2 (2^N.of_nat k).
Proof.
  intro H. apply fmul_unique.
  - apply N.pow_lt_mono_r; lia.
  - apply cong_eq. change 2 with (2^1) at 1. rewrite pmul_pow2_l, N.shiftl_mul_pow2, <- N.pow_add_r.
    f_equal; lia.
Qed.

Lemma frobn_pow2 k : (k < 128)%nat -> frobn 128 (2^N.of_nat k) = 2^N.of_nat k.
Proof.
  induction k as [|k IH]; intro Hk.
  - vm_compute; reflexivity.
  - rewrite pow2_succ_fmul by auto. rewrite frobn_fmul, frobn_X, IH by lia. reflexivity.
Qed.

Lemma frobn_id a : a < 2^128 -> frobn 128 a = a.
Proof.
  intro H. apply (additive_ext (frobn 128) (fun x => x) 128); auto.
  - apply frobn_lxor.
  - apply frobn_pow2.
Qed.

(** Idempotents of the quotient ring are 0 and 1. *)
Definition bit0 (e : N) : N := if N.testbit e 0 then 1 else 0.
Lemma bit0_lxor x y : bit0 (N.lxor x y) = N.lxor (bit0 x) (bit0 y).
Proof. unfold bit0. rewrite N.lxor_spec. destruct (N.testbit x 0), (N.testbit y 0); reflexivity. Qed.

Lemma L_certificate : forallb (fun k =>
    let e := 2^N.of_nat k in lin L_table 0 (N.lxor (frob e) e) =? N.lxor e (bit0 e)) (seq 0 128) = true.
Proof. vm_compute. reflexivity. Qed.

Lemma L_spec e : e < 2^128 -> lin L_table 0 (N.lxor (frob e) e) = N.lxor e (bit0 e).
Proof.
  intro H.
  apply (additive_ext (fun e => lin L_table 0 (N.lxor (frob e) e)) (fun e => N.lxor e (bit0 e)) 128); auto.
  - intros x y. rewrite frob_lxor, <- lin_lxor. f_equal. xor_solve.
  - intros x y. rewrite bit0_lxor. xor_solve.
  - intros k Hk. pose proof L_certificate as C. rewrite forallb_forall in C.
    apply N.eqb_eq. apply (C k). apply in_seq. lia.
Qed.

Lemma idempotent e : e < 2^128 -> fmul e e = e -> e = 0 \/ e = 1.
Proof.
  intros He Hi. pose proof (L_spec e He) as H. unfold frob in H. rewrite Hi, N.lxor_nilpotent in H.
  assert (Hz : lin L_table 0 0 = 0) by (vm_compute; reflexivity).
  rewrite Hz in H. symmetry in H. apply N.lxor_eq in H. unfold bit0 in H.
  destruct (N.testbit e 0); auto.
Qed.

(** ** Powers *)
Fixpoint fpow_pos (a : N) (p : positive) : N :=
  match p with
  | xH => a
  | xO p' => let r := fpow_pos a p' in fmul r r
  | xI p' => let r := fpow_pos a p' in fmul a (fmul r r)
  end.
(** a^n in the quotient ring *)
Definition fpow (a n : N) : N := match n with 0 => 1 | Npos p => fpow_pos a p end.

Lemma fpow_0 a : fpow a 0 = 1. Proof. reflexivity. Qed.
Lemma fpow_lt a n : a < 2^128 -> fpow a n < 2^128.
Proof.
  intro H. destruct n as [|p]; [reflexivity|]. destruct p; cbn [fpow fpow_pos]; auto using fmul_lt.
Qed.
Lemma fpow_double a n : a < 2^128 -> fpow a (N.double n) = fmul (fpow a n) (fpow a n).
Proof. intro H. destruct n as [|p]; cbn; auto. Qed.
Lemma fpow_succ_double a n : a < 2^128 -> fpow a (N.succ_double n) = fmul a (fmul (fpow a n) (fpow a n)).
Proof. intro H. destruct n as [|p]; cbn -[fmul]; auto. rewrite fmul_1_r; auto. Qed.

Lemma fpow_succ a n : a < 2^128 -> fpow a (N.succ n) = fmul a (fpow a n).
Proof.
  intro H. pattern n; apply N.binary_ind; clear n.
  - cbn -[fmul]. now rewrite fmul_1_r.
  - intros n IH. replace (N.succ (N.double n)) with (N.succ_double n) by (rewrite N.double_spec, N.succ_double_spec; lia).
    now rewrite fpow_succ_double, fpow_double.
  - intros n IH. replace (N.succ (N.succ_double n)) with (N.double (N.succ n)) by (rewrite N.double_spec, N.succ_double_spec; lia).
    rewrite fpow_double, fpow_succ_double, IH by auto.
    rewrite !fmul_assoc. f_equal. rewrite <- !fmul_assoc. f_equal. apply fmul_comm.
Qed.
Lemma fpow_add a n m : a < 2^128 -> fpow a (n + m) = fmul (fpow a n) (fpow a m).
Proof.
  intro H. induction n as [|n IH] using N.peano_ind.
  - rewrite N.add_0_l, fpow_0, fmul_1_l; auto using fpow_lt.
  - rewrite N.add_succ_l, !fpow_succ, IH by auto. now rewrite fmul_assoc.
Qed.
Lemma fpow_1 a : fpow a 1 = a. Proof. reflexivity. Qed.
Lemma fpow_mul a n m : a < 2^128 -> fpow a (n * m) = fpow (fpow a n) m.
Proof.
  intro H. induction m as [|m IH] using N.peano_ind.
  - now rewrite N.mul_0_r.
  - rewrite N.mul_succ_r, N.add_comm, fpow_add, fpow_succ, IH by auto using fpow_lt. reflexivity.
Qed.
Lemma fpow_1_l n : fpow 1 n = 1.
Proof. induction n as [|n IH] using N.peano_ind; auto. rewrite fpow_succ, IH; reflexivity. Qed.
Lemma fpow_0_l n : n <> 0 -> fpow 0 n = 0.
Proof. intro H. replace n with (N.succ (N.pred n)) by lia. rewrite fpow_succ by reflexivity. reflexivity. Qed.

Lemma frobn_fpow n a : a < 2^128 -> frobn n a = fpow a (2^N.of_nat n).
Proof.
  revert a; induction n as [|n IH]; intros a H; cbn [frobn]; [reflexivity|].
  rewrite IH by apply frob_lt. unfold frob.
  replace (fmul a a) with (fpow a 2) by reflexivity.
  rewrite <- fpow_mul by auto. f_equal. rewrite Nat2N.inj_succ, N.pow_succ_r'. reflexivity.
Qed.

Lemma fpow_order a : a < 2^128 -> fpow a (2^128) = a.
Proof. intro H. change (2^128) with (2^N.of_nat 128) at 1. rewrite <- frobn_fpow by auto. now apply frobn_id. Qed.

Lemma fpow_inverse a : a < 2^128 -> a <> 0 -> fmul a (fpow a (2^128 - 2)) = 1.
Proof.
  intros H Hn. set (e := fmul a (fpow a (2^128 - 2))).
  assert (Ee : e = fpow a (2^128 - 1)).
  { unfold e. rewrite <- fpow_succ by auto. f_equal. }
  assert (Ha : fmul a e = a).
  { rewrite Ee, <- fpow_succ by auto. change (N.succ (2^128 - 1)) with (2^128). now apply fpow_order. }
  assert (Hi : fmul e e = e).
  { unfold e at 2. rewrite <- fmul_assoc, (fmul_comm e a), Ha. reflexivity. }
  assert (He : e < 2^128) by apply fmul_lt.
  clear Ee. clearbody e.
  destruct (idempotent e He Hi) as [E|E]; [|exact E].
  exfalso. rewrite E, fmul_0_r in Ha. congruence.
Qed.

Lemma fmul_integral a b : a < 2^128 -> b < 2^128 -> fmul a b = 0 -> a = 0 \/ b = 0.
Proof.
  intros Ha Hb E. destruct (N.eq_dec a 0) as [|Hn]; auto. right.
  assert (H : fmul (fmul a (fpow a (2^128 - 2))) b = b).
  { rewrite fpow_inverse, fmul_1_l; auto. }
  rewrite <- H, (fmul_comm a), fmul_assoc, E. apply fmul_0_r.
Qed.

(** ** The model's inverse *)
Lemma gf_square_n_spec asm n b : gf_wf b ->
  gf_wf (gf_square_n asm n b) /\ u (gf_square_n asm n b) = fpow (u b) (2^N.of_nat n).
Proof.
  intro H. rewrite <- frobn_fpow by now apply u_lt.
  revert b H; induction n as [|n IH]; intros b H; cbn [gf_square_n frobn]; auto.
  destruct (gf_mul_spec asm b b H H) as [H1 H2]. unfold gf_square.
  destruct (IH _ H1) as [H3 H4]. split; auto. rewrite H4, H2. reflexivity.
Qed.

Lemma inverse_step asm n i x a result ea er eb :
  gf_wf x -> gf_wf a -> gf_wf result ->
  u a = fpow (u x) ea -> u result = fpow (u x) er ->
  eb = ea * 2^N.of_nat (2^i) ->
  exists a' result', gf_wf a' /\ gf_wf result' /\
    u a' = fpow (u x) (ea + eb) /\
    u result' = fpow (u x) (if Nat.eqb i 0 then eb else er + eb) /\
    gf_inverse_loop asm (S n) i a result = gf_inverse_loop asm n (S i) a' result'.
Proof.
  intros Hx Ha Hr Ea Er Eb. pose proof (u_lt x Hx) as Bx.
  destruct (gf_square_n_spec asm (2^i) a Ha) as [Hb Eb'].
  set (b := gf_square_n asm (2^i) a) in *.
  assert (Ub : u b = fpow (u x) eb).
  { rewrite Eb', Ea, <- fpow_mul, Eb by auto. reflexivity. }
  destruct (gf_mul_spec asm a b Ha Hb) as [Ha' Ea'].
  destruct (gf_mul_spec asm result b Hr Hb) as [Hr' Er'].
  exists (gf_mul asm a b), (if Nat.eqb i 0 then b else gf_mul asm result b).
  split; [exact Ha'|]. split; [destruct (Nat.eqb i 0); [exact Hb|exact Hr']|].
  split; [rewrite Ea', Ea, Ub, fpow_add by exact Bx; reflexivity|].
  split; [|reflexivity].
  destruct (Nat.eqb i 0); [exact Ub|]. rewrite Er', Er, Ub, fpow_add by exact Bx. reflexivity.
Qed.

Lemma gf_inverse_spec asm x : gf_wf x ->
  gf_wf (gf_inverse asm x) /\ u (gf_inverse asm x) = fpow (u x) (2^128 - 2).
Proof.
  intro Hx. unfold gf_inverse.
  destruct (inverse_step asm 6 0 x x x 1 1 2 Hx Hx Hx eq_refl eq_refl eq_refl)
    as (a1 & r1 & Ha1 & Hr1 & Ea1 & Er1 & E1).
  change (gf_inverse_loop asm 7 0 x (gf_of_low 0)) with (gf_inverse_loop asm 7 0 x x).
  rewrite E1. clear E1. cbn [Nat.eqb] in Er1.
  assert (G : forall n i a r ea er, gf_wf a -> gf_wf r -> u a = fpow (u x) ea -> u r = fpow (u x) er ->
     i <> 0%nat ->
     exists a' r', gf_wf a' /\ gf_wf r' /\ u a' = fpow (u x) (ea + ea * 2^N.of_nat (2^i)) /\
       u r' = fpow (u x) (er + ea * 2^N.of_nat (2^i)) /\
       gf_inverse_loop asm (S n) i a r = gf_inverse_loop asm n (S i) a' r').
  { intros n i a r ea er Ha Hr Ea Er Hi.
    destruct (inverse_step asm n i x a r ea er _ Hx Ha Hr Ea Er eq_refl) as (a' & r' & H).
    exists a', r'. replace (Nat.eqb i 0) with false in H; auto. symmetry. now apply Nat.eqb_neq. }
  destruct (G 5%nat 1%nat a1 r1 _ _ Ha1 Hr1 Ea1 Er1 ltac:(discriminate)) as (a2 & r2 & Ha2 & Hr2 & Ea2 & Er2 & ->).
  destruct (G 4%nat 2%nat a2 r2 _ _ Ha2 Hr2 Ea2 Er2 ltac:(discriminate)) as (a3 & r3 & Ha3 & Hr3 & Ea3 & Er3 & ->).
  destruct (G 3%nat 3%nat a3 r3 _ _ Ha3 Hr3 Ea3 Er3 ltac:(discriminate)) as (a4 & r4 & Ha4 & Hr4 & Ea4 & Er4 & ->).
  destruct (G 2%nat 4%nat a4 r4 _ _ Ha4 Hr4 Ea4 Er4 ltac:(discriminate)) as (a5 & r5 & Ha5 & Hr5 & Ea5 & Er5 & ->).
  destruct (G 1%nat 5%nat a5 r5 _ _ Ha5 Hr5 Ea5 Er5 ltac:(discriminate)) as (a6 & r6 & Ha6 & Hr6 & Ea6 & Er6 & ->).
  destruct (G 0%nat 6%nat a6 r6 _ _ Ha6 Hr6 Ea6 Er6 ltac:(discriminate)) as (a7 & r7 & Ha7 & Hr7 & Ea7 & Er7 & ->).
  cbn [gf_inverse_loop]. split; [exact Hr7|exact Er7].
Qed.
