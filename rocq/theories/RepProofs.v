From Coq Require Import DecimalString DecimalN DecimalFacts.
From Verif Require Import Base Gf128Model Gf128Proofs Gf128Final ScalarModel ScalarSpec ScalarProofs ScalarFinal RngModel RepModel RepSpec.
Local Open Scope Z_scope.

Lemma to_bytes_length n x : List.length (to_bytes n x) = n.
Proof. revert x. induction n as [|n IH]; intro x; [reflexivity|]. cbn. rewrite IH. reflexivity. Qed.

Lemma to_bytes_byte n x : Forall (fun b => b < 256)%N (to_bytes n x).
Proof.
  revert x. induction n as [|n IH]; intro x; [constructor|]. cbn [to_bytes]. constructor; [|apply IH].
  apply N.mod_lt. discriminate.
Qed.

Lemma le_to_bytes n x : (x < 256 ^ N.of_nat n)%N -> le_bytes (to_bytes n x) = x.
Proof.
  revert x. induction n as [|n IH]; intros x Hx.
  - cbn in *. lia.
  - cbn [to_bytes le_bytes]. rewrite IH.
    + pose proof (N.div_mod x 256). lia.
    + apply N.div_lt_upper_bound; [discriminate|]. rewrite <- N.pow_succ_r by lia.
      replace (N.succ (N.of_nat n)) with (N.of_nat (S n)) by lia. exact Hx.
Qed.

Lemma to_le_bytes l : Forall (fun b => b < 256)%N l -> to_bytes (List.length l) (le_bytes l) = l.
Proof.
  induction l as [|b l IH]; intro H; [reflexivity|]. apply Forall_cons_iff in H as [Hb Hl].
  cbn [List.length to_bytes le_bytes]. f_equal.
  - rewrite N.add_comm, N.mul_comm, N.add_mod, N.mod_mul by lia. rewrite N.add_0_l, N.mod_mod by lia.
    apply N.mod_small, Hb.
  - rewrite N.add_comm, N.mul_comm, N.div_add_l, N.div_small by lia. rewrite N.add_0_r. apply IH, Hl.
Qed.

Lemma le_bytes_lt' l : Forall (fun x => x < 256)%N l -> (le_bytes l < 256 ^ N.of_nat (List.length l))%N.
Proof.
  induction l as [|x l IH]; intro H; [reflexivity|]. apply Forall_cons_iff in H as [Hx Hl].
  cbn [le_bytes List.length]. specialize (IH Hl).
  replace (N.of_nat (S (List.length l))) with (N.succ (N.of_nat (List.length l))) by lia.
  rewrite N.pow_succ_r by lia. lia.
Qed.

Lemma pow256 n : (256 ^ N.of_nat n = 2 ^ (8 * N.of_nat n))%N.
Proof. rewrite N.pow_mul_r. reflexivity. Qed.

Lemma raw_facts t : raw_type t -> let S := scalar_of t in
  1 <= s_size S <= 16 /\ order t = (256 ^ N.of_nat (Z.to_nat (s_size S)))%N /\
  (forall x, s_to128 S x < order t)%N /\ (forall x, s_of128 S (s_to128 S x) = x) /\
  (forall v, v < order t -> s_to128 S (s_of128 S v) = v)%N.
Proof.
  intros Ht S.
  assert (Hok : stype_ok t) by (destruct t; try exact I; contradiction).
  assert (Hs : 1 <= s_size S <= 16) by (destruct t; cbn; try lia; contradiction).
  destruct (scalar_facts t Hok) as (_ & _ & _ & H).
  destruct (H ltac:(apply Hs)) as (_ & Hlt & Hof & Hto).
  repeat split; try assumption; try apply Hs.
  destruct t; try contradiction; vm_compute; reflexivity.
Qed.

Lemma skip_skip {A} a b (l : list A) : skipn a (skipn b l) = skipn (b + a) l.
Proof.
  revert l. induction b as [|b IH]; intro l; [reflexivity|].
  destruct l as [|x l]; [rewrite !skipn_nil; reflexivity|]. cbn. apply IH.
Qed.

Lemma str_length a b : String.length (a ++ b) = (String.length a + String.length b)%nat.
Proof. induction a as [|c a IH]; [reflexivity|]. cbn. rewrite IH. reflexivity. Qed.

Section Raw.
  Variable t : stype.
  Hypothesis Ht : raw_type t.
  Notation S := (scalar_of t).
  Notation k := (Z.to_nat (s_size (scalar_of t))).

  Lemma size_pos : 1 <= s_size S <= 16.
  Proof. apply (raw_facts t Ht). Qed.

  Lemma bytes_span_bytes out : bytes_span S (List.length out) (span_bytes S out) = out.
  Proof.
    destruct (raw_facts t Ht) as (_ & Ho & Hlt & Hof & _). fold S in *.
    induction out as [|x out IH]; [reflexivity|].
    cbn [List.length bytes_span span_bytes flat_map].
    rewrite firstn_app, skipn_app, to_bytes_length, Nat.sub_diag, firstn_O, skipn_O, app_nil_r.
    rewrite firstn_all2, skipn_all2 by (rewrite to_bytes_length; lia). cbn [app].
    rewrite le_to_bytes, Hof by (rewrite <- Ho; apply Hlt). f_equal. apply IH.
  Qed.

  Lemma span_bytes_length out : zlen (span_bytes S out) = zlen out * s_size S.
  Proof.
    pose proof size_pos as Hp. unfold zlen. induction out as [|x out IH]; [reflexivity|].
    cbn [span_bytes flat_map]. rewrite app_length, to_bytes_length. fold (span_bytes S out).
    cbn [List.length]. lia.
  Qed.

  Lemma span_bytes_byte out : Forall (fun b => b < 256)%N (span_bytes S out).
  Proof.
    apply Forall_forall. intros b Hb. apply in_flat_map in Hb as (x & _ & Hb).
    exact (proj1 (Forall_forall _ _) (to_bytes_byte _ _) b Hb).
  Qed.

  Lemma span_of_bytes n mem : List.length mem = (n * k)%nat -> Forall (fun b => b < 256)%N mem ->
    span_bytes S (bytes_span S n mem) = mem /\ List.length (bytes_span S n mem) = n.
  Proof.
    destruct (raw_facts t Ht) as (Hp & Ho & Hlt & Hof & Hto). fold S in *.
    revert mem. induction n as [|n IH]; intros mem Hlen Hmem.
    - destruct mem; [split; reflexivity|discriminate].
    - cbn [bytes_span List.length span_bytes flat_map].
      assert (Hf : List.length (firstn k mem) = k) by (rewrite firstn_length_le; [reflexivity|]; cbn in Hlen; lia).
      assert (Hbf : Forall (fun b => b < 256)%N (firstn k mem)).
      { apply Forall_forall. intros b Hb. apply (proj1 (Forall_forall _ _) Hmem).
        rewrite <- (firstn_skipn k mem). apply in_or_app. left. exact Hb. }
      assert (Hbs : Forall (fun b => b < 256)%N (skipn k mem)).
      { apply Forall_forall. intros b Hb. apply (proj1 (Forall_forall _ _) Hmem).
        rewrite <- (firstn_skipn k mem). apply in_or_app. right. exact Hb. }
      destruct (IH (skipn k mem)) as [H1 H2]; [rewrite skipn_length; cbn in Hlen; lia|exact Hbs|].
      fold (span_bytes S (bytes_span S n (skipn k mem))). rewrite H1, H2. split; [|reflexivity].
      rewrite Hto.
      + rewrite <- Hf at 1. rewrite to_le_bytes by exact Hbf. apply firstn_skipn.
      + rewrite Ho. rewrite <- Hf at 2. apply le_bytes_lt', Hbf.
  Qed.

  Lemma map_stream bs : map (stream bs) (seq 0 (List.length bs)) = bs.
  Proof.
    apply (nth_ext _ _ 0%N 0%N); [rewrite map_length, seq_length; reflexivity|].
    intros i Hi. rewrite map_length, seq_length in Hi.
    rewrite nth_indep with (d' := stream bs 0%nat) by (rewrite map_length, seq_length; exact Hi).
    rewrite map_nth, seq_nth by exact Hi. reflexivity.
  Qed.

  Lemma wrap32_small x : 0 <= x < 2^31 -> wrap32 x = x.
  Proof. intro H. unfold wrap32. rewrite Z.mod_small by lia. lia. Qed.

  Lemma randomize_stream out bs : zlen out * s_size S < 2^31 ->
    byte_string (zlen out * s_size S) bs ->
    randomize S (Some (stream bs)) out = bytes_span S (List.length out) bs.
  Proof.
    intros Hlt [Hlen _]. pose proof size_pos as Hp. unfold randomize, RAND_bytes.
    rewrite wrap32_small by (unfold zlen in *; lia).
    destruct (Z.leb_spec (zlen out * s_size S) 0) as [Hz|Hz].
    - assert (out = []) as -> by (destruct out; [reflexivity|unfold zlen in Hz; cbn in Hz; lia]).
      reflexivity.
    - rewrite <- Hlen at 1. unfold zlen at 1. rewrite Nat2Z.id, map_stream.
      rewrite skipn_all2 by (pose proof (span_bytes_length out); unfold zlen in *; lia).
      rewrite app_nil_r. reflexivity.
  Qed.

  Lemma randomize_bijective out v : zlen out * s_size S < 2^31 -> zlen v = zlen out ->
    exists! bs, byte_string (zlen out * s_size S) bs /\ randomize S (Some (stream bs)) out = v.
  Proof.
    intros Hlt Hv. pose proof size_pos as Hp. exists (span_bytes S v). split.
    - split; [split; [rewrite span_bytes_length, Hv; reflexivity|apply span_bytes_byte]|].
      rewrite randomize_stream; [|exact Hlt|split; [rewrite span_bytes_length, Hv; reflexivity|apply span_bytes_byte]].
      replace (List.length out) with (List.length v) by (unfold zlen in Hv; lia). apply bytes_span_bytes.
    - intros bs [Hbs Hr]. rewrite randomize_stream in Hr by assumption. destruct Hbs as [Hl Hb].
      rewrite <- Hr. apply span_of_bytes; [|exact Hb]. unfold zlen in Hl. lia.
  Qed.

  Lemma randomize_length draw out : List.length (randomize S draw out) = List.length out.
  Proof.
    unfold randomize. generalize (RAND_bytes draw (wrap32 (zlen out * s_size S)) (span_bytes S out)).
    generalize (List.length out). intro n. induction n as [|n IH]; intro mem; [reflexivity|].
    cbn. rewrite IH. reflexivity.
  Qed.

  Lemma randomize_failure out : randomize S None out = out.
  Proof. unfold randomize, RAND_bytes. apply bytes_span_bytes. Qed.

  Lemma randomize_long draw out : wrap32 (zlen out * s_size S) <= 0 -> randomize S draw out = out.
  Proof.
    intro H. unfold randomize, RAND_bytes. destruct draw as [bytes|]; [|apply bytes_span_bytes].
    destruct (Z.leb_spec (wrap32 (zlen out * s_size S)) 0); [apply bytes_span_bytes|lia].
  Qed.

  Lemma nth_bytes_span d n mem i : (i < n)%nat -> nth i (bytes_span S n mem) d =
    s_of128 S (le_bytes (firstn k (skipn (i * k) mem))).
  Proof.
    revert n mem. induction i as [|i IH]; intros n mem Hi; (destruct n as [|n]; [lia|]); [reflexivity|].
    cbn [bytes_span nth]. rewrite IH by lia. do 3 f_equal. rewrite skip_skip. reflexivity.
  Qed.

  Lemma nth_span_bytes d out i : (i < List.length out)%nat ->
    s_of128 S (le_bytes (firstn k (skipn (i * k) (span_bytes S out)))) = nth i out d.
  Proof.
    intro Hi. rewrite <- (nth_bytes_span d (List.length out)) by exact Hi. rewrite bytes_span_bytes. reflexivity.
  Qed.

  Lemma randomize_tail draw out d i : 0 <= i < zlen out -> wrap32 (zlen out * s_size S) <= i * s_size S ->
    znth d (randomize S draw out) i = znth d out i.
  Proof.
    intros Hi Hw. pose proof size_pos as Hp. unfold znth. destruct (Z.ltb_spec i 0); [lia|].
    unfold zlen in Hi. unfold randomize. rewrite nth_bytes_span by lia.
    rewrite <- (nth_span_bytes d out) by lia. do 3 f_equal.
    set (num := wrap32 (zlen out * s_size S)) in *. clearbody num.
    unfold RAND_bytes. destruct draw as [bytes|]; [|reflexivity].
    destruct (Z.leb_spec num 0); [reflexivity|].
    rewrite skipn_app, map_length, seq_length.
    rewrite skipn_all2 by (rewrite map_length, seq_length; nia).
    cbn [app]. rewrite skip_skip. f_equal. nia.
  Qed.
End Raw.

Lemma gf_randomize_uniform a v : gf_wf v ->
  exists! bs, byte_string 16 bs /\ gf_randomize (Some (stream bs)) a = v.
Proof.
  intros [H0 H1].
  assert (Hg : forall bs, byte_string 16 bs -> gf_randomize (Some (stream bs)) a =
                 Gf (le_bytes (firstn 8 bs)) (le_bytes (skipn 8 bs))).
  { intros bs [Hl _]. unfold zlen in Hl. unfold gf_randomize, RAND_bytes. change (Z.quot 128 8) with 16.
    cbn [Z.leb Z.compare]. change (Z.to_nat 16) with 16%nat.
    replace 16%nat with (List.length bs) by lia. rewrite map_stream.
    rewrite skipn_all2 by (rewrite app_length, !to_bytes_length; lia). rewrite app_nil_r. reflexivity. }
  assert (Hb : byte_string 16 (to_bytes 8 (v0 v) ++ to_bytes 8 (v1 v))).
  { split; [unfold zlen; rewrite app_length, !to_bytes_length; reflexivity|].
    apply Forall_app. split; apply to_bytes_byte. }
  exists (to_bytes 8 (v0 v) ++ to_bytes 8 (v1 v)). split.
  - split; [exact Hb|]. rewrite Hg by exact Hb.
    rewrite firstn_app, skipn_app, to_bytes_length, Nat.sub_diag, firstn_O, skipn_O, app_nil_r.
    rewrite firstn_all2, skipn_all2 by (rewrite to_bytes_length; lia). cbn [app].
    rewrite !le_to_bytes by assumption. destruct v; reflexivity.
  - intros bs [Hbs Hr]. rewrite Hg in Hr by exact Hbs. destruct Hbs as [Hl Hbs]. unfold zlen in Hl.
    subst v. cbn [v0 v1].
    assert (Hf : List.length (firstn 8 bs) = 8%nat) by (rewrite firstn_length_le; lia).
    assert (Hs : List.length (skipn 8 bs) = 8%nat) by (rewrite skipn_length; lia).
    rewrite <- (firstn_skipn 8 bs) in Hbs. apply Forall_app in Hbs as [B1 B2].
    pose proof (to_le_bytes _ B1) as E1. rewrite Hf in E1.
    pose proof (to_le_bytes _ B2) as E2. rewrite Hs in E2.
    rewrite E1, E2. apply firstn_skipn.
Qed.

Lemma gf_randomize_failure a : gf_wf a -> gf_randomize None a = a.
Proof.
  intros [H0 H1]. unfold gf_randomize, RAND_bytes.
  rewrite firstn_app, skipn_app, to_bytes_length, Nat.sub_diag, firstn_O, skipn_O, app_nil_r.
  rewrite firstn_all2, skipn_all2 by (rewrite to_bytes_length; lia). cbn [app].
  rewrite !le_to_bytes by assumption. destruct a; reflexivity.
Qed.

Lemma gf_hash_facts : 
  (forall H (combine : H -> N -> H) h x y, gf_eqb x y = true -> gf_hash combine h x = gf_hash combine h y) /\
  (forall H (combine : H -> N -> H) h x, gf_wf x -> gf_hash combine h x = uint128_hash combine h (gf_to_uint128 x)) /\
  (forall x y h, gf_hash (fun h w => h ++ [w]) h x = gf_hash (fun h w => h ++ [w]) h y -> gf_eqb x y = true).
Proof.
  split; [|split].
  - intros H combine h x y E. unfold gf_eqb in E. apply andb_prop in E as [E0 E1].
    apply N.eqb_eq in E0, E1. unfold gf_hash. rewrite E0, E1. reflexivity.
  - intros H combine h [a b] [H0 H1]. unfold gf_hash, uint128_hash, gf_to_uint128. cbn [v0 v1] in *.
    rewrite N.div_add_l, N.div_small, N.add_0_r by lia.
    rewrite N.add_comm, N.mod_add, N.mod_small by lia. reflexivity.
  - intros x y h E. unfold gf_hash in E. apply app_inj_tail in E as [E E0]. apply app_inj_tail in E as [_ E1].
    unfold gf_eqb. rewrite E0, E1, !N.eqb_refl. reflexivity.
Qed.

Lemma gf_save_all_flat xs : gf_save_all xs = flat_map (fun x => [2%N; v0 x; v1 x]) xs.
Proof.
  unfold gf_save_all. enough (H : forall ar, fold_left (fun ar x => gf_save x ar) xs ar =
    ar ++ flat_map (fun x => [2%N; v0 x; v1 x]) xs) by apply H.
  induction xs as [|x xs IH]; intro ar; cbn [fold_left flat_map]; [rewrite app_nil_r; reflexivity|].
  rewrite IH. unfold gf_save. rewrite <- app_assoc. reflexivity.
Qed.

Lemma gf_archive xs olds rest : List.length olds = List.length xs ->
  gf_load_all olds (gf_save_all xs ++ rest) = Some (xs, rest).
Proof.
  rewrite gf_save_all_flat. revert olds. induction xs as [|[a b] xs IH]; intros [|old olds] H; try discriminate.
  - reflexivity.
  - cbn [flat_map v0 v1 app gf_load_all gf_load]. rewrite IH by (cbn in H; lia). reflexivity.
Qed.

Lemma to_uint_nonnil n : N.to_uint n <> Decimal.Nil.
Proof. destruct n as [|p]; [discriminate|apply DecimalPos.Unsigned.to_uint_nonnil]. Qed.

Lemma append_nil s : (s ++ "")%string = s.
Proof. induction s as [|c s IH]; [reflexivity|]. cbn. rewrite IH. reflexivity. Qed.

Lemma append_inj s s' u : (s ++ u = s' ++ u)%string -> s = s'.
Proof.
  revert s'. induction s as [|c s IH]; intros [|c' s'] H.
  - reflexivity.
  - exfalso. apply (f_equal String.length) in H. cbn in H. rewrite str_length in H. lia.
  - exfalso. apply (f_equal String.length) in H. cbn in H. rewrite str_length in H. lia.
  - cbn in H. injection H as -> H. f_equal. apply IH, H.
Qed.

Lemma gf_print_facts x : gf_wf x ->
  exists digits d, gf_print x = ("gf128(" ++ digits ++ ")")%string /\
    NilZero.uint_of_string digits = Some d /\ N.of_uint d = gf_to_uint128 x /\ Decimal.unorm d = d.
Proof.
  intros _. exists (NilZero.string_of_uint (N.to_uint (gf_to_uint128 x))), (N.to_uint (gf_to_uint128 x)).
  split; [reflexivity|]. split; [apply NilZero.usu, to_uint_nonnil|]. split; [apply DecimalN.Unsigned.of_to|].
  rewrite <- (DecimalN.Unsigned.to_of (N.to_uint (gf_to_uint128 x))), DecimalN.Unsigned.of_to. reflexivity.
Qed.

Lemma gf_print_injective x y : gf_wf x -> gf_wf y -> gf_print x = gf_print y -> x = y.
Proof.
  intros Hx Hy E. unfold gf_print in E. cbn in E. repeat (injection E as E).
  apply append_inj in E.
  assert (E' : N.to_uint (gf_to_uint128 x) = N.to_uint (gf_to_uint128 y)).
  { apply (f_equal NilZero.uint_of_string) in E. rewrite !NilZero.usu in E by apply to_uint_nonnil.
    injection E. trivial. }
  apply DecimalN.Unsigned.to_uint_inj in E'.
  destruct gf_conversions as (_ & _ & _ & H & _).
  rewrite <- (proj2 (H x Hx)), <- (proj2 (H y Hy)), E'. reflexivity.
Qed.

Lemma from_uint128_temp_value p temp x : (x < 2^128)%N ->
  zval (fst (from_uint128_temp p temp x)) = (x mod Npos p)%N /\
  fst (from_uint128_temp p temp x) = s_of128 (scalar_of (ZZ_p p)) x.
Proof.
  intro Hx. split; [|reflexivity]. unfold from_uint128_temp. cbn [fst].
  rewrite split_lor, (N.mod_small x) by exact Hx. reflexivity.
Qed.


Lemma temp_run_correct ops : Forall converted ops -> forall ts moduli, (forall k, fst (ts k) = moduli k) ->
  temp_run ts ops = temp_expected moduli ops.
Proof.
  induction ops as [|[k p|k x] ops IH]; intros Hops ts moduli Hm; [reflexivity| |];
    apply Forall_cons_iff in Hops as [Ho Hops]; cbn [temp_run temp_expected].
  - apply IH; [exact Hops|]. intro j. unfold set_thread. destruct (Nat.eqb j k); [reflexivity|apply Hm].
  - destruct (ts k) as [p temp] eqn:Ek. pose proof (Hm k) as Hk. rewrite Ek in Hk. cbn [fst] in Hk. subst p.
    destruct (from_uint128_temp_value (moduli k) temp x Ho) as [Hv _].
    destruct (from_uint128_temp (moduli k) temp x) as [r temp'] eqn:E. cbn [fst] in Hv. rewrite Hv.
    f_equal. apply IH; [exact Hops|]. intro j. unfold set_thread.
    destruct (Nat.eqb_spec j k) as [->|]; [reflexivity|apply Hm].
Qed.

Lemma randomize_repeat t draw (x : scalar_of t) n : raw_type t ->
  2^31 <= n * s_size (scalar_of t) <= 2^32 ->
  randomize (scalar_of t) draw (zrepeat x n) = zrepeat x n.
Proof.
  intros Ht Hn. pose proof (size_pos t Ht) as Hp. apply randomize_long; [exact Ht|].
  assert (zlen (zrepeat x n) = n) as -> by (unfold zlen, zrepeat; rewrite repeat_length; nia).
  unfold wrap32. set (a := n * s_size (scalar_of t)) in *. clearbody a.
  destruct (Z.eq_dec a (2^32)) as [->|Ha]; [vm_compute; discriminate|].
  rewrite <- (Z_mod_plus_full (a + 2^31) (-1)). rewrite Z.mod_small by lia. lia.
Qed.

Lemma randomize_unnoticed :
  (forall t (out : list (scalar_of t)), raw_type t -> randomize (scalar_of t) None out = out) /\
  gf_random_element None = gf_zero.
Proof.
  split; [intros t out Ht; apply randomize_failure, Ht|].
  apply gf_randomize_failure. split; reflexivity.
Qed.

Lemma gf_load_foreign x words rest :
  gf_load x (N.of_nat (List.length words) :: words ++ rest) =
  if (List.length words <=? 2)%nat
  then Some (Gf (nth 0 words (v0 x)) (nth 1 words (v1 x)), rest) else None.
Proof.
  destruct words as [|a [|b [|c words]]]; try (destruct x; reflexivity).
  replace (Nat.leb _ _) with false by (symmetry; reflexivity). unfold gf_load.
  remember (N.of_nat (List.length (a :: b :: c :: words))) as n eqn:En. assert (2 < n)%N by (rewrite En; cbn [List.length]; lia).
  destruct n as [|[p|p|]]; try lia; try reflexivity. destruct p; try lia; reflexivity.
Qed.
