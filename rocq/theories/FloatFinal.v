(** Consequences for the functions of the library, and the library's parameters in
    double arithmetic. *)
From Coq Require Import ZArith NArith Reals Lra Lia QArith Qreals Qabs Bool List.
From Flocq.Core Require Import Core.
From Verif Require Import Base BaseFacts ScalarModel ScalarSpec ScalarProofs ScalarFinal GgmModel GgmSpec GgmFinal RotModel RotSpec CuckooModel CuckooSpec CuckooFinal
  RngModel ProcModel ProcSpec MpfssModel MpfssSpec VoleModel VoleSpec VoleToy VoleSucceed FloatSpec FloatModel FloatFacts FloatLevels FloatSecurity FloatBits FloatErf FloatBuckets UniformSpec UniformFinal.
Import ListNotations.
Local Open Scope R_scope.

(** ** Levels *)
Lemma levels_ok log a n : accurate ln log -> (2 <= a < 2^31)%Z -> (1 <= n <= 2^42)%Z ->
  exists k, (num_levels_double log a n = k + 1 /\ n <= a ^ k /\ (n = 1 -> k = 0) /\ (1 < n -> 1 <= k /\ a ^ (k - 1) <= n))%Z.
Proof. intros H Ha Hn. eexists. apply (levels_spec log H a n Ha Hn). Qed.
Lemma supported_double log n : accurate ln log -> (n <= 2^31)%Z -> supported_size (clog_double log) n.
Proof.
  intros H Hn. split; [exact Hn|]. destruct (Z_le_gt_dec n 0) as [L|L].
  - apply Z.le_trans with 0%Z; [exact L|apply Z.pow_nonneg; lia].
  - apply (levels_spec log H 2 n); lia.
Qed.
Lemma create_double log aes n seed keys : accurate ln log -> (2 <= zlen keys < 2^31)%Z -> (1 <= n <= 2^42)%Z ->
  exists t, ggm_create aes (clog_double log) n seed keys = Ok t /\
    height t = num_levels_double log (zlen keys) n /\ num_leaves t = n /\
    well_shaped t (zlen keys) n /\ is_ggm_tree aes seed keys t.
Proof.
  intros H Hk Hn. destruct (levels_spec log H (zlen keys) n Hk Hn) as (E & G & _).
  destruct (create_ok aes (clog_double log) n seed keys ltac:(lia) ltac:(lia) G) as (t & Et & _ & _ & _ & Hh & Hl & Hw & Hg).
  exists t. rewrite E. auto.
Qed.

(** ** Security *)
Lemma exp2_neg x : exp2 (- x) = / exp2 x.
Proof. unfold exp2. apply Rpower_Ropp. Qed.

(** A bound for all rational K below y is a bound for y. *)
Lemma rational_bound (d : Q) (total : Z) (y : R) : (1 <= total)%Z -> 0 < y ->
  (forall K, (0 < K)%Q -> Q2R K <= y -> (d < 1 / (inject_Z total * K))%Q) -> IZR total * Q2R d <= / y.
Proof.
  intros Ht Hy H. assert (T : 0 < IZR total) by (apply IZR_lt; lia). pose proof (Rinv_0_lt_compat y Hy) as P.
  destruct (Rle_dec (IZR total * Q2R d) (/ y)) as [G|G]; [exact G|exfalso]. apply Rnot_le_lt in G.
  assert (Pd : 0 < Q2R d). { apply Rmult_lt_reg_l with (IZR total); [exact T|]. lra. }
  assert (Nt : ~ (inject_Z total == 0)%Q). { intros E. apply Qeq_eqR in E. rewrite Q2R_inject, RMicromega.Q2R_0 in E. lra. }
  assert (Nd : ~ (d == 0)%Q). { intros E. apply Qeq_eqR in E. rewrite RMicromega.Q2R_0 in E. lra. }
  specialize (H (/ (inject_Z total * d))%Q).
  assert (QK : Q2R (/ (inject_Z total * d)) = / (IZR total * Q2R d)).
  { rewrite Q2R_inv, Q2R_mult, Q2R_inject; [reflexivity|]. intros E. apply Qmult_integral in E. tauto. }
  apply (Qlt_irrefl d). eapply Qlt_le_trans; [apply H|].
  - apply Rlt_Qlt. rewrite RMicromega.Q2R_0, QK. apply Rinv_0_lt_compat, Rmult_lt_0_compat; assumption.
  - rewrite QK. rewrite <- (Rinv_inv y). apply Rinv_le_contravar; lra.
  - apply Qle_lteq. right. field. auto.
Qed.

Lemma sound log2 t s total (B : scalar_of t -> bool) : accurate Rlog2 log2 -> stype_ok t -> (s_size (scalar_of t) <= 16)%Z -> 0 <= s <= 512 ->
  (1 <= total < 2^63)%Z -> can_be_hashed_into log2 t (security_per_element log2 (Fin s) total) 128 = true ->
  IZR total * Q2R (Qabs (hash_prob t 128 B - uniform_prob t B)) <= exp2 (rounding_slack - s).
Proof.
  intros Hlog Ok Hsz Hs Ht Hc. replace (rounding_slack - s) with (- (s - rounding_slack)) by ring. rewrite exp2_neg.
  apply (rational_bound _ total (exp2 (s - rounding_slack))); [lia|apply exp2_pos|]. intros K PK HK.
  pose proof (proj1 (check log2 Hlog t s total 128 K Ok Hs ltac:(lia) ltac:(lia)) HK Hc) as C.
  unfold security_per_leaf in C. replace (total <? 0)%Z with false in C by lia.
  refine (can_hash_128_sound t (inject_Z total * K) B Ok Hsz _ C).
  rewrite <- (Qmult_0_r (inject_Z total)). apply Qmult_lt_l; [|exact PK]. change 0%Q with (inject_Z 0). rewrite <- Zlt_Qlt. lia.
Qed.

Lemma ntl_complete m total (K : Q) : (0 < m <= 2^128)%N -> (0 <= total)%Z -> (0 < K)%Q ->
  (inject_Z (Z.of_N m) * (inject_Z total * K) <= inject_Z (2^128))%Q ->
  can_hash_ntl m (security_per_leaf K total) 128 = true.
Proof.
  intros Hm Ht PK H. unfold can_hash_ntl, security_per_leaf. replace (total <? 0)%Z with false by lia. cbv zeta.
  match goal with |- context [Z.of_N ?x] => set (r := x) end. assert (Hr : (r < m)%N) by (apply N.mod_lt; lia). clearbody r.
  apply negb_true_iff. destruct (Qle_bool _ _) eqn:E; [|reflexivity]. exfalso. apply Qle_bool_iff in E.
  destruct (Z.eq_dec total 0) as [->|T].
  - change (inject_Z 0) with 0%Q in E. rewrite Qmult_0_l, Qmult_0_r in E. apply Qle_not_lt in E. apply E. reflexivity.
  - assert (PT : (0 < inject_Z total * K)%Q).
    { rewrite <- (Qmult_0_r (inject_Z total)). apply Qmult_lt_l; [|exact PK]. change 0%Q with (inject_Z 0). rewrite <- Zlt_Qlt. lia. }
    assert (L : (inject_Z (Z.of_N r) * (inject_Z total * K) < inject_Z (Z.of_N m) * (inject_Z total * K))%Q).
    { apply Qmult_lt_r; [exact PT|]. rewrite <- Zlt_Qlt. lia. }
    apply (Qlt_irrefl (inject_Z (2^128))). eapply Qle_lt_trans; [exact E|]. eapply Qlt_le_trans; [exact L|exact H].
Qed.

Lemma complete log2 t s total : accurate Rlog2 log2 -> stype_ok t -> 0 <= s <= 512 -> (1 <= total < 2^63)%Z ->
  IZR (Z.of_N (order t)) * IZR total * exp2 (s + rounding_slack) <= exp2 128 ->
  can_be_hashed_into log2 t (security_per_element log2 (Fin s) total) 128 = true.
Proof.
  intros Hlog Ok Hs Ht H.
  assert (C : forall p, IZR (Zpos p) * IZR total * exp2 (s + rounding_slack) <= exp2 128 ->
    (Npos p <= 2^128)%N /\ can_hash_ntl_double log2 (Npos p) (security_per_element log2 (Fin s) total) 128 = true).
  { clear H t Ok. intros p H. assert (PT : 1 <= IZR total) by (apply IZR_le; lia). assert (PP : 1 <= IZR (Zpos p)) by (apply IZR_le; lia).
    assert (PS : 1 <= exp2 (s + rounding_slack)).
    { change 1 with (IZR (2^0)). rewrite <- exp2_int by lia. apply exp2_le. unfold rounding_slack. lra. }
    assert (PPT : IZR (Zpos p) * 1 <= IZR (Zpos p) * IZR total) by (apply Rmult_le_compat_l; lra).
    assert (PPTS : IZR (Zpos p) * IZR total * 1 <= IZR (Zpos p) * IZR total * exp2 (s + rounding_slack)) by (apply Rmult_le_compat_l; lra).
    assert (Hp : (Npos p <= 2^128)%N).
    { assert (G : IZR (Zpos p) <= exp2 (IZR 128)) by lra. rewrite exp2_int in G by lia. apply le_IZR in G. lia. }
    split; [exact Hp|].
    set (K := (inject_Z (2^128) / (inject_Z (Zpos p) * inject_Z total))%Q).
    assert (NO : ~ (inject_Z (Zpos p) * inject_Z total == 0)%Q).
    { intros E. apply Qeq_eqR in E. rewrite Q2R_mult, !Q2R_inject, RMicromega.Q2R_0 in E. lra. }
    assert (QK : Q2R K = exp2 (IZR 128) / (IZR (Zpos p) * IZR total)).
    { unfold K, Qdiv. rewrite Q2R_mult, Q2R_inv by exact NO. rewrite Q2R_mult, !Q2R_inject. rewrite exp2_int by lia. reflexivity. }
    assert (HK : exp2 (s + rounding_slack) <= Q2R K).
    { rewrite QK. apply Rmult_le_reg_r with (IZR (Zpos p) * IZR total); [lra|]. unfold Rdiv. rewrite Rmult_assoc, Rinv_l by lra. lra. }
    apply (proj2 (ntl_check log2 Hlog (Npos p) s total 128 K ltac:(lia) Hs ltac:(lia) ltac:(lia)) HK).
    apply ntl_complete; [lia|lia| |].
    - apply Rlt_Qlt. rewrite RMicromega.Q2R_0. lra.
    - change (Z.of_N (Npos p)) with (Zpos p). apply Qle_lteq. right. unfold K. field. split; intros E; apply NO; rewrite E; ring. }
  destruct t as [| | | | | | p|p]; try reflexivity; cbn [order] in H; change (Z.of_N (Npos p)) with (Zpos p) in H; destruct (C p H) as (Hp & E).
  - cbn [can_be_hashed_into]. cbv zeta. rewrite modulus_low_high.
    destruct (N.eq_dec (Npos p) (2^128)) as [F|F].
    + rewrite F. reflexivity.
    + rewrite N.mod_small by lia. cbn [N.eqb]. exact E.
  - exact E.
Qed.

Lemma negative_rejected log2 p s total : accurate Rlog2 log2 -> (- 2^63 <= total < 0)%Z ->
  can_be_hashed_into log2 (zz_p p) (security_per_element log2 s total) 128 = false /\
  ((Npos p < 2^128)%N -> can_be_hashed_into log2 (ZZ_p p) (security_per_element log2 s total) 128 = false).
Proof.
  intros Hlog Ht. assert (E : security_per_element log2 s total = NaN) by (unfold security_per_element; rewrite dlog2_negative by lia; reflexivity).
  rewrite E. split; [reflexivity|]. intros Hp. cbn [can_be_hashed_into]. cbv zeta. rewrite modulus_low_high, N.mod_small by lia. reflexivity.
Qed.

Lemma passed_on log2 s : accurate Rlog2 log2 -> 0 <= s <= 256 ->
  exists x y, vole_security log2 (Fin s) = Fin x /\ - rounding_slack < x - (s + Rlog2 3) < rounding_slack /\
              mpfss_security log2 (Fin s) = Fin y /\ - rounding_slack < y - (s + Rlog2 3 + 1) < rounding_slack.
Proof.
  intros Hlog Hs. destruct (dlog2_int log2 3 Hlog ltac:(lia)) as (l & E & B). pose proof (Rlog2_bounds 3 ltac:(lia)).
  unfold mpfss_security, vole_security. rewrite E, of_int_fin, nearest_int by lia. cbn [dadd]. unfold log_error, rounding_slack in *.
  rewrite rounded_small by lra. pose proof (nearest_near (s + l) ltac:(lra)). cbn [dadd]. rewrite rounded_small by lra.
  pose proof (nearest_near (nearest (s + l) + 1) ltac:(lra)).
  do 2 eexists. split; [reflexivity|]. split; [lra|]. split; [reflexivity|]. lra.
Qed.

(** ** Create *)
Lemma dlt_zero s : dlt s (Fin 0) = true <-> s = Inf true \/ exists x, s = Fin x /\ x < 0.
Proof.
  destruct s as [x|[|]|]; cbn; try destruct (Rlt_dec x 0) as [H|H]; split; intros G; try discriminate; try reflexivity; auto.
  - right. exists x. auto.
  - destruct G as [G|(y & G & L)]; [discriminate|]. injection G as <-. lra.
  - destruct G as [G|(y & G & L)]; discriminate.
  - destruct G as [G|(y & G & L)]; discriminate.
Qed.
Lemma not_below x y : dlt x (Fin 0) = false -> 0 <= y -> dlt (dadd x (Fin y)) (Fin 0) = false.
Proof.
  destruct x as [x|[|]|]; cbn; try discriminate; try reflexivity. destruct (Rlt_dec x 0) as [H|H]; [discriminate|]. intros _ Hy. unfold rounded.
  assert (N : 0 <= nearest (x + y)) by (apply (nearest_ge 0); [lia|lra]).
  destruct (Rlt_dec _ _) as [G|G]; cbn.
  - destruct (Rlt_dec (nearest (x + y)) 0); [lra|reflexivity].
  - destruct (Rlt_dec (x + y) 0); [lra|reflexivity].
Qed.
Lemma log2_3 log2 : accurate Rlog2 log2 -> exists l, dlog2 log2 (of_int 3) = Fin l /\ 1 <= l <= 2.
Proof.
  intros Hlog. destruct (dlog2_int log2 3 Hlog ltac:(lia)) as (l & E & B). exists l. split; [exact E|]. pose proof ln2_bounds.
  assert (13 / 10 <= Rlog2 3 <= 19 / 10); [|unfold log_error in B; lra].
  unfold Rlog2. assert (A : 10 * ln 3 <= 19 * ln 2).
  { rewrite <- (ln_IZR_pow 3 10), <- (ln_IZR_pow 2 19) by lia. apply Rcomplements.ln_le; [apply IZR_lt; reflexivity|apply IZR_le; vm_compute; discriminate]. }
  assert (C : 13 * ln 2 <= 10 * ln 3).
  { rewrite <- (ln_IZR_pow 3 10), <- (ln_IZR_pow 2 13) by lia. apply Rcomplements.ln_le; [apply IZR_lt; reflexivity|apply IZR_le; vm_compute; discriminate]. }
  assert (D : ln 3 / ln 2 * ln 2 = ln 3) by (field; lra).
  split; apply Rmult_le_reg_r with (ln 2); lra.
Qed.
Lemma create_outcome log2 null s : accurate Rlog2 log2 ->
  (null = true \/ dlt s (Fin 0) = true -> exists m, vole_create_security log2 null s = Err (invalid_argument m)) /\
  (null = false -> dlt s (Fin 0) = false ->
   vole_create_security log2 null s = Ok (vole_security log2 s, vole_security log2 s, (mpfss_security log2 s, mpfss_security log2 s))).
Proof.
  intros Hlog. split.
  - intros H. unfold vole_create_security, check_arguments. destruct null; [eexists; reflexivity|]. destruct H as [H|H]; [discriminate|]. rewrite H. eexists. reflexivity.
  - intros -> H. destruct (log2_3 log2 Hlog) as (l & El & Bl).
    assert (H1 : dlt (vole_security log2 s) (Fin 0) = false) by (unfold vole_security; rewrite El; apply not_below; [exact H|lra]).
    assert (H2 : dlt (mpfss_security log2 s) (Fin 0) = false).
    { unfold mpfss_security. rewrite of_int_fin, nearest_int by lia. apply not_below; [exact H1|lra]. }
    unfold vole_create_security, check_arguments. rewrite H. cbn [rbind]. unfold gilboa_create_security, check_arguments. rewrite H1. cbn [rbind].
    unfold mpfss_create_security, check_arguments. rewrite H1. cbn [rbind]. change (dadd (vole_security log2 s) (of_int 1)) with (mpfss_security log2 s).
    unfold spfss_create_security, rot_create_security, check_arguments. rewrite H2. cbn [rbind]. reflexivity.
Qed.
Lemma accepted_values s : dlt s (Fin 0) = false <-> s = NaN \/ s = Inf false \/ exists x, s = Fin x /\ 0 <= x.
Proof.
  destruct s as [x|[|]|]; cbn; try destruct (Rlt_dec x 0) as [H|H]; split; intros G; try discriminate; try reflexivity; auto.
  - destruct G as [G|[G|(y & G & L)]]; try discriminate. injection G as <-. lra.
  - right. right. exists x. split; [reflexivity|lra].
  - destruct G as [G|[G|(y & G & L)]]; discriminate.
Qed.
(** Not a number *)
Lemma nan_passed_on log2 : vole_create_security log2 false NaN = Ok (NaN, NaN, (NaN, NaN)).
Proof. reflexivity. Qed.
Lemma nan_accepts log2 num n b : too_many_bits_double log2 NaN num n b = false.
Proof. unfold too_many_bits_double. cbv zeta. destruct (dlog2 log2 (of_int n)) as [|[|]|], (dlog2 log2 (of_int num)) as [|[|]|], (dlog2 log2 (of_int b)) as [|[|]|]; cbn; destruct (of_int 128) as [|[|]|]; reflexivity. Qed.
Lemma nan_rejects log2 p total h : (0 <= h <= 128)%Z ->
  can_be_hashed_into log2 (zz_p p) (security_per_element log2 NaN total) h = false.
Proof.
  intros _. assert (E : security_per_element log2 NaN total = NaN) by (unfold security_per_element; destruct (dlog2 _ _) as [|[|]|]; reflexivity).
  rewrite E. reflexivity.
Qed.
(** A negative security of a hasher *)
Lemma negative_accepts log2 num n b : accurate Rlog2 log2 -> (1 <= num < 2^31)%Z -> (1 <= n < 2^63)%Z -> (1 <= b < 2^63)%Z ->
  too_many_bits_double log2 (Fin (-100)) num n b = false.
Proof.
  intros Hlog H1 H2 H3. unfold too_many_bits_double. cbv zeta.
  destruct (dlog2_int log2 n Hlog ltac:(lia)) as (ln & -> & Bn). destruct (dlog2_int log2 num Hlog ltac:(lia)) as (lh & -> & Bh).
  destruct (dlog2_int log2 b Hlog ltac:(lia)) as (lb & -> & Bb).
  pose proof (log2_64 n ltac:(lia)). pose proof (log2_64 num ltac:(lia)). pose proof (log2_64 b ltac:(lia)).
  unfold log_error in *. cbn [dadd]. rewrite (rounded_small (-100 + ln)) by lra. cbn [dadd]. pose proof (nearest_near (-100 + ln) ltac:(lra)).
  rewrite rounded_small by lra. cbn [dadd]. pose proof (nearest_near (nearest (-100 + ln) + lh) ltac:(lra)).
  rewrite rounded_small by lra. pose proof (nearest_near (nearest (nearest (-100 + ln) + lh) + lb) ltac:(lra)).
  rewrite of_int_fin, nearest_int by lia. cbn [dlt]. destruct (Rlt_dec _ _); [lra|reflexivity].
Qed.

(** ** Number of bits of the hash values *)
Lemma simple_close log2 aes seed num h s sizes inputs b r (B : Z -> bool) : accurate Rlog2 log2 -> cuckoo_create seed num = Ok h ->
  0 <= s <= 512 -> (num < 2^31)%Z -> (1 <= zlen inputs < 2^63)%Z -> (b < 2^63)%Z ->
  hash_simple aes (too_many_bits_double log2 (Fin s) num) h sizes inputs b = Ok r ->
  IZR (zlen inputs * num) *
    Q2R (Qabs (fraction (2^128) (fun v => B (hash_to_bucket aes h v b 0)) - fraction (Z.to_N b) (fun v => B (Z.of_N v))))
  <= exp2 (rounding_slack - s).
Proof.
  intros Hlog Hh Hs Hnum Hn Hb H. unfold hash_simple in H.
  destruct (Z.leb_spec b 0); [discriminate|]. destruct (too_many_bits_double log2 (Fin s) num (zlen inputs) b) eqn:E; [discriminate|].
  destruct (create_inv _ _ _ Hh) as (H1 & ->). exact (bucket_close log2 Hlog aes (Hasher seed num) s (zlen inputs) b B Hs Hn (conj H1 Hnum) ltac:(lia) E).
Qed.
Lemma cuckoo_close log2 aes seed num h s inputs b r (B : Z -> bool) : accurate Rlog2 log2 -> cuckoo_create seed num = Ok h ->
  0 <= s <= 512 -> (num < 2^31)%Z -> (1 <= zlen inputs < 2^63)%Z -> (b < 2^63)%Z ->
  hash_cuckoo aes (too_many_bits_double log2 (Fin s) num) h inputs b = Ok r ->
  IZR (zlen inputs * num) *
    Q2R (Qabs (fraction (2^128) (fun v => B (hash_to_bucket aes h v b 0)) - fraction (Z.to_N b) (fun v => B (Z.of_N v))))
  <= exp2 (rounding_slack - s).
Proof.
  intros Hlog Hh Hs Hnum Hn Hb H. unfold hash_cuckoo in H.
  destruct (_ =? 1)%Z; [discriminate|]. destruct (Z.leb_spec b 0); [discriminate|]. destruct (b <? zlen inputs)%Z; [discriminate|].
  destruct (too_many_bits_double log2 (Fin s) num (zlen inputs) b) eqn:E; [discriminate|].
  destruct (create_inv _ _ _ Hh) as (H1 & ->). exact (bucket_close log2 Hlog aes (Hasher seed num) s (zlen inputs) b B Hs Hn (conj H1 Hnum) ltac:(lia) E).
Qed.
Lemma small_accepted log2 s num n b : accurate Rlog2 log2 -> 0 <= s <= 512 -> (1 <= num < 2^31)%Z -> (0 <= n < 2^63)%Z -> (1 <= b < 2^63)%Z ->
  IZR (n * num * b) < exp2 (128 - s - rounding_slack) -> too_many_bits_double log2 (Fin s) num n b = false.
Proof.
  intros Hlog Hs Hnum Hn Hb H. destruct (Z.eq_dec n 0) as [->|N]; [apply bits_check_empty; auto; lia|].
  destruct (too_many_bits_double log2 (Fin s) num n b) eqn:E; [exfalso|reflexivity].
  apply (proj2 (bits_check log2 Hlog s n num b Hs ltac:(lia) ltac:(lia) ltac:(lia))) in E. lra.
Qed.
Lemma large_rejected log2 s num n b : accurate Rlog2 log2 -> 0 <= s <= 512 -> (1 <= num < 2^31)%Z -> (1 <= n < 2^63)%Z -> (1 <= b < 2^63)%Z ->
  exp2 (128 - s + rounding_slack) < IZR (n * num * b) -> too_many_bits_double log2 (Fin s) num n b = true.
Proof.
  intros Hlog Hs Hnum Hn Hb H. destruct (too_many_bits_double log2 (Fin s) num n b) eqn:E; [reflexivity|exfalso].
  apply (proj1 (bits_check log2 Hlog s n num b Hs ltac:(lia) ltac:(lia) ltac:(lia))) in E. lra.
Qed.
Lemma simple_accepts log2 aes seed num h s sizes inputs b : accurate Rlog2 log2 -> cuckoo_create seed num = Ok h ->
  0 <= s <= 512 -> (num < 2^31)%Z -> (zlen inputs < 2^63)%Z -> (1 <= b < 2^63)%Z -> division (zlen inputs) sizes ->
  IZR (zlen inputs * num * b) < exp2 (128 - s - rounding_slack) ->
  exists r, hash_simple aes (too_many_bits_double log2 (Fin s) num) h sizes inputs b = Ok r.
Proof.
  intros Hlog Hh Hs Hnum Hn Hb Hd H. destruct (create_inv _ _ _ Hh) as (H1 & _). eexists.
  apply (simple_spec aes _ seed num h inputs b sizes Hh Hb); [|exact Hd].
  apply small_accepted; auto; try lia. split; [apply zlen_nonneg|lia].
Qed.
Lemma simple_rejects log2 aes seed num h s sizes inputs b : accurate Rlog2 log2 -> cuckoo_create seed num = Ok h ->
  0 <= s <= 512 -> (num < 2^31)%Z -> (1 <= zlen inputs < 2^63)%Z -> (1 <= b < 2^63)%Z ->
  exp2 (128 - s + rounding_slack) < IZR (zlen inputs * num * b) ->
  exists m, hash_simple aes (too_many_bits_double log2 (Fin s) num) h sizes inputs b = Err (invalid_argument m).
Proof.
  intros Hlog Hh Hs Hnum Hn Hb H. destruct (create_inv _ _ _ Hh) as (H1 & _). eexists. unfold hash_simple.
  replace (b <=? 0)%Z with false by lia. rewrite large_rejected by (auto; lia). reflexivity.
Qed.

(** ** Number of buckets *)
Lemma to_int64_id z : (- 2^63 <= z < 2^63)%Z -> to_int64 z = z.
Proof. intros H. unfold to_int64. replace (- 2^63 <=? z)%Z with true by lia. replace (z <? 2^63)%Z with true by lia. reflexivity. Qed.
Lemma to_int64_lt z : (to_int64 z < 2^63)%Z.
Proof. unfold to_int64. destruct ((- 2^63 <=? z) && (z <? 2^63))%Z%bool eqn:E; lia. Qed.

Lemma buckets_3 log2 csqrt f erf s seed h n e2 : accurate Rlog2 log2 -> accurate sqrt csqrt -> is_erf f -> accurate f erf ->
  12 <= s <= 512 -> (1 <= n < 2^48)%Z -> cuckoo_create seed 3 = Ok h ->
  exists b, get_optimal_number_of_buckets (fun n => to_int64 (num_buckets_3 log2 csqrt erf s n)) e2 h n = Ok b /\
    (n <= b <= 2^14 * n /\ (64 <= n < 2^12 -> b <= 16 * n))%Z.
Proof.
  intros H1 H2 H3 H4 Hs Hn Hh. destruct (create_inv _ _ _ Hh) as (_ & ->).
  pose proof (three_bounds log2 csqrt erf f H1 H2 H3 H4 s Hs n Hn) as B.
  pose proof (three_medium log2 csqrt erf f H1 H2 H3 H4 s Hs n Hn) as B'.
  unfold get_optimal_number_of_buckets. replace (n <? 0)%Z with false by lia. replace (n =? 0)%Z with false by lia.
  cbn [ch_num_hash_functions Z.eqb Pos.eqb]. rewrite to_int64_id by lia. eexists. split; [reflexivity|]. split; [exact B|exact B'].
Qed.

Lemma fuel_mono log2 pow s fuel L es e : grow_until log2 pow s fuel L es = Some e ->
  forall fuel', (fuel <= fuel')%nat -> grow_until log2 pow s fuel' L es = Some e.
Proof.
  revert es. induction fuel as [|fuel IH]; intros es H fuel' Hf; cbn [grow_until] in H; destruct fuel' as [|fuel']; cbn [grow_until]; try lia.
  - exact H.
  - destruct (Rlt_bool _ _); [discriminate|exact H].
  - destruct (Rlt_bool _ _); [|exact H]. apply IH; [exact H|lia].
Qed.
Lemma buckets_2 log2 pow s n k : accurate Rlog2 log2 -> accurate_pow pow -> (1 <= n < 2^48)%Z -> (2 <= k <= 50)%Z ->
  s <= 33 / 10 * IZR k - 13 / 10 ->
  exists b, (forall fuel, (2^k <= Z.of_nat fuel)%Z -> num_buckets_2 log2 pow s fuel n = Some b) /\ (n <= b <= 2^k * n)%Z.
Proof.
  intros H1 H2 Hn Hk Hs.
  destruct (two_bounds log2 pow H1 H2 s n Hn k (Z.to_nat (2^k)) Hk Hs) as (b & E & B).
  { rewrite Z2Nat.id; [lia|apply Z.pow_nonneg; lia]. }
  exists b. split; [|exact B]. intros fuel Hf. unfold num_buckets_2 in *. cbv zeta in *.
  destruct (grow_until log2 pow s (Z.to_nat (2^k)) _ _) as [e|] eqn:G; [|discriminate].
  rewrite (fuel_mono _ _ _ _ _ _ _ G); [exact E|lia].
Qed.

(** ** The library's parameters *)
Lemma library_double t log log2 csqrt f erf s (E : setting) :
  stype_ok t -> (s_size (scalar_of t) <= 16)%Z ->
  accurate ln log -> accurate Rlog2 log2 -> accurate sqrt csqrt -> is_erf f -> accurate f erf -> 12 <= s <= 80 ->
  e_parameters E = library_parameters -> e_clog E = clog_double log ->
  (exists x, mpfss_security log2 (Fin s) = Fin x /\
     e_too_many_bits E = too_many_bits_double log2 (Fin x) 3 /\
     e_expansion3 E = (fun n => to_int64 (num_buckets_3 log2 csqrt erf x n))) ->
  (forall n, (e_expansion2 E n < 2^63)%Z) ->
  (forall n g, (1 <= n)%Z -> usable g ->
    match e_uniform E n g with
    | Ok (g', i) => (0 <= i < n)%Z /\ drawn (e_aes E) g g'
    | Err _ => False
    | UB w => In w rng_ub
    end) ->
  good_setting (scalar_of t) E.
Proof.
  intros Ht Hsz Hln Hlog Hsqrt Hf Herf Hs Hp Hc (x & Ex & Et & E3) H2 Hu.
  assert (Hx : 12 <= x <= 84).
  { destruct (passed_on log2 s Hlog ltac:(lra)) as (u & y & _ & _ & Ey & B). rewrite Ex in Ey. injection Ey as <-. pose proof ln2_bounds.
    assert (0 <= Rlog2 3 <= 2).
    { unfold Rlog2. assert (ln 3 <= 2 * ln 2). { rewrite <- (ln_IZR_pow 2 2) by lia. apply Rcomplements.ln_le; [lra|apply IZR_le; lia]. }
      pose proof (ln_pos 3 ltac:(lra)). split; [apply Rle_mult_inv_pos; lra|]. apply Rmult_le_reg_r with (ln 2); [lra|]. unfold Rdiv. rewrite Rmult_assoc, Rinv_l by lra. lra. }
    unfold rounding_slack in B. lra. }
  assert (N : forall n, In n (p_num_noise library_parameters) -> (n <= e_expansion3 E n <= 16 * n)%Z /\ (64 <= n <= 1324)%Z).
  { intros n Hn. assert (R : (64 <= n <= 1324)%Z). { cbn in Hn. destruct Hn as [<-|[<-|[<-|[<-|[<-|[]]]]]]; lia. }
    split; [|exact R]. rewrite E3. pose proof (three_bounds log2 csqrt erf f Hlog Hsqrt Hf Herf x ltac:(lra) n ltac:(lia)).
    pose proof (three_medium log2 csqrt erf f Hlog Hsqrt Hf Herf x ltac:(lra) n ltac:(lia) ltac:(lia)). rewrite to_int64_id by lia. lia. }
  apply library_good; auto. constructor; auto.
  - intros n Hn. pose proof (N n Hn). lia.
  - intros n. split; [rewrite E3; apply to_int64_lt|apply H2].
  - intros m n Hm Hn. pose proof (N n Hn) as (B & R). rewrite Et.
    apply small_accepted; [exact Hlog|lra|lia|lia|lia|].
    apply Rle_lt_trans with (IZR (2^43)); [apply IZR_le; nia|]. rewrite <- exp2_int by lia. apply exp2_lt. unfold rounding_slack. lra.
  - intros n Hn. rewrite Hc. apply supported_double; [exact Hln|lia].
Qed.

Lemma library_draws_good t log log2 csqrt f erf s uniform (E : setting) :
  stype_ok t -> (s_size (scalar_of t) <= 16)%Z ->
  accurate ln log -> accurate Rlog2 log2 -> accurate sqrt csqrt -> is_erf f -> accurate f erf -> 12 <= s <= 80 ->
  e_parameters E = library_parameters -> e_clog E = clog_double log ->
  (exists x, mpfss_security log2 (Fin s) = Fin x /\
     e_too_many_bits E = too_many_bits_double log2 (Fin x) 3 /\
     e_expansion3 E = (fun n => to_int64 (num_buckets_3 log2 csqrt erf x n))) ->
  (forall n, (e_expansion2 E n < 2^63)%Z) -> library_draw uniform -> e_uniform E = uniform (e_aes E) ->
  good_setting (scalar_of t) E.
Proof.
  intros Ht Hsz Hln Hlog Hsqrt Hf Herf Hs Hp Hc Hx H2 Hu Eu. apply (library_double t log log2 csqrt f erf s E); auto.
  intros n g Hn Hg. rewrite Eu. pose proof (library_good_draw uniform (e_aes E) n g Hu Hn Hg) as D.
  destruct (uniform (e_aes E) n g) as [[g' i]| |]; intuition.
Qed.

Lemma library_sessions t log log2 csqrt f erf s (E : setting) :
  In t [UInt8; UInt16; UInt32; UInt64; UInt128; GF128 true; GF128 false] ->
  accurate ln log -> accurate Rlog2 log2 -> accurate sqrt csqrt -> is_erf f -> accurate f erf -> 12 <= s <= 80 ->
  e_parameters E = library_parameters -> e_clog E = clog_double log -> (0 < e_K E)%Q ->
  (exists x, mpfss_security log2 (Fin s) = Fin x /\
     e_too_many_bits E = too_many_bits_double log2 (Fin x) 3 /\
     e_expansion3 E = (fun n => to_int64 (num_buckets_3 log2 csqrt erf x n))) ->
  (forall n, (e_expansion2 E n < 2^63)%Z) ->
  (forall n g, (1 <= n)%Z -> usable g ->
    match e_uniform E n g with
    | Ok (g', i) => (0 <= i < n)%Z /\ drawn (e_aes E) g g'
    | Err _ => False
    | UB w => In w rng_ub
    end) ->
  let S := scalar_of t in
  forall MA MB : machine S, good_machine S MA -> good_machine S MB -> connected MA MB ->
  forall go_on, go_on insertion_failed = false -> forall l ta tb, orderly None l ->
  exists n, forall m d, steps m (start (party S E MA go_on l) ta (party S E MB go_on (opposite S l)) tb) d ->
    (m <= n)%nat /\ (stuck d -> good_end S go_on l d).
Proof.
  intros Ht Hln Hlog Hsqrt Hf Herf Hs Hp Hc HK Hx H2 Hu S MA MB GA GB HC go_on Hgo.
  assert (Ok : stype_ok t) by (cbn in Ht; intuition subst; exact I).
  assert (Sz : (s_size (scalar_of t) <= 16)%Z) by (cbn in Ht; intuition subst; vm_compute; discriminate).
  apply (orderly_session (scalar_of t) (scalar_of_laws t Ok) E); auto.
  - apply (library_double t log log2 csqrt f erf s E); assumption.
  - apply secure_types; [exact Ok|exact Sz|exact HK|rewrite Hp; discriminate|]. cbn in Ht. intuition subst; exact I.
Qed.
