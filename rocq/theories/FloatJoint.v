(** The joint distance of all elements and bucket numbers, for the checks with
    doubles. *)
From Coq Require Import ZArith NArith Reals Lra Lia QArith Qreals Qabs List.
From Flocq.Core Require Import Core.
From Verif Require Import Base BaseFacts ScalarModel ScalarSpec ScalarProofs GgmModel GgmSpec RotModel RotSpec CuckooModel CuckooSpec
  FloatSpec FloatModel FloatFacts FloatLevels FloatSecurity FloatFinal ViewSpec JointSpec JointProofs.
Import ListNotations.
Local Open Scope R_scope.

Lemma rational_between x y : x < y -> exists q : Q, x < Q2R q < y.
Proof.
  intro H. set (d := 2 / (y - x)). assert (Hd : 0 < d) by (apply Rdiv_lt_0_compat; lra).
  destruct (archimed d) as [A _]. set (n := Rdefinitions.up d) in *. assert (Hn : (0 < n)%Z) by (apply lt_IZR; lra).
  destruct (archimed (x * IZR n)) as [B C]. set (m := Rdefinitions.up (x * IZR n)) in *.
  assert (Pn : 0 < IZR n) by now apply IZR_lt.
  exists (m # Z.to_pos n). unfold Q2R. cbn [Qnum Qden]. rewrite Z2Pos.id by exact Hn.
  assert (E : IZR n * (y - x) > 2).
  { replace 2 with (d * (y - x)) by (unfold d; field; lra). apply Rmult_gt_compat_r; lra. }
  split; apply (Rmult_lt_reg_r (IZR n)); try exact Pn; rewrite Rmult_assoc, Rinv_l, Rmult_1_r by lra; lra.
Qed.

Lemma real_joint X m1 m2 (g1 g2 : N -> X) (n : Z) (x : R) : (0 < m1)%N -> (0 < m2)%N -> (1 <= n)%Z ->
  (forall f : X -> bool, IZR n * Q2R (Qabs (fraction m1 (fun v => f (g1 v)) - fraction m2 (fun v => f (g2 v)))) <= x) ->
  forall D : list X -> bool,
  Q2R (Qabs (fraction_of_lists m1 (Z.to_nat n) (fun l => D (map g1 l)) - fraction_of_lists m2 (Z.to_nat n) (fun l => D (map g2 l)))) <= x.
Proof.
  intros H1 H2 Hn C D. set (q := Qabs (fraction_of_lists _ _ _ - _)).
  destruct (Rle_or_lt (Q2R q) x) as [H|H]; [exact H|]. exfalso.
  assert (Pn : 0 < IZR n) by (apply IZR_lt; lia).
  destruct (rational_between (x / IZR n) (Q2R q / IZR n)) as (eps & L & U); [now apply Rmult_lt_compat_r; [apply Rinv_0_lt_compat|]|].
  assert (C' : forall f : X -> bool, (Qabs (fraction m1 (fun v => f (g1 v)) - fraction m2 (fun v => f (g2 v))) <= eps)%Q).
  { intro f. apply Rle_Qle. apply Rlt_le. eapply Rle_lt_trans; [|exact L].
    apply (Rmult_le_reg_l (IZR n)); [exact Pn|]. replace (IZR n * (x / IZR n)) with x by (field; lra). apply C. }
  assert (He : (0 <= eps)%Q) by (eapply Qle_trans; [apply Qabs_nonneg|apply (C' (fun _ => true))]).
  pose proof (joint_distance X m1 m2 g1 g2 eps H1 H2 He C' (Z.to_nat n) D) as J. fold q in J.
  apply Qle_Rle in J. rewrite Q2R_mult in J. rewrite Z2Nat.id in J by lia.
  replace (Q2R (inject_Z n)) with (IZR n) in J by (unfold Q2R, inject_Z; cbn [Qnum Qden]; field).
  apply (Rmult_lt_compat_l (IZR n)) in U; [|exact Pn].
  replace (IZR n * (Q2R q / IZR n)) with (Q2R q) in U by (field; lra). lra.
Qed.

Lemma sound_together log2 t s total (D : list (scalar_of t) -> bool) :
  accurate Rlog2 log2 -> stype_ok t -> (s_size (scalar_of t) <= 16)%Z -> 0 <= s <= 512 -> (1 <= total < 2^63)%Z ->
  can_be_hashed_into log2 t (security_per_element log2 (Fin s) total) 128 = true ->
  Q2R (Qabs (joint_hash_prob t (Z.to_nat total) D - joint_uniform_prob t (Z.to_nat total) D)) <= exp2 (rounding_slack - s).
Proof.
  intros A Ht Hs Hr Hn Hc. apply real_joint; [reflexivity|apply order_pos|lia|].
  intro B. apply (sound log2 t s total B A Ht Hs Hr Hn Hc).
Qed.

Lemma buckets_together aes h b total x (D : list Z -> bool) : (1 <= b)%Z -> (1 <= total)%Z ->
  (forall B, IZR total * Q2R (Qabs (fraction (2^128) (fun v => B (hash_to_bucket aes h v b 0)) - fraction (Z.to_N b) (fun v => B (Z.of_N v)))) <= x) ->
  Q2R (Qabs (fraction_of_lists (2^128) (Z.to_nat total) (fun l => D (map (fun v => hash_to_bucket aes h v b 0) l)) -
             fraction_of_lists (Z.to_N b) (Z.to_nat total) (fun l => D (map Z.of_N l)))) <= x.
Proof.
  intros Hb Hn C. apply (real_joint Z (2^128) (Z.to_N b) (fun v => hash_to_bucket aes h v b 0) Z.of_N); [reflexivity|lia|lia|exact C].
Qed.
Lemma simple_together log2 aes seed num h s sizes inputs b r (D : list Z -> bool) :
  accurate Rlog2 log2 -> cuckoo_create seed num = Ok h ->
  0 <= s <= 512 -> (num < 2^31)%Z -> (1 <= zlen inputs < 2^63)%Z -> (b < 2^63)%Z ->
  hash_simple aes (too_many_bits_double log2 (Fin s) num) h sizes inputs b = Ok r ->
  let n := Z.to_nat (zlen inputs * num) in
  Q2R (Qabs (fraction_of_lists (2^128) n (fun l => D (map (fun v => hash_to_bucket aes h v b 0) l)) -
             fraction_of_lists (Z.to_N b) n (fun l => D (map Z.of_N l)))) <= exp2 (rounding_slack - s).
Proof.
  intros A Hh Hs Hn Hi Hb H n. apply buckets_together.
  - unfold hash_simple in H. destruct (b <=? 0)%Z eqn:E; [discriminate|lia].
  - unfold cuckoo_create in Hh. destruct (num <=? 0)%Z eqn:E; [discriminate|nia].
  - intro B. exact (simple_close log2 aes seed num h s sizes inputs b r B A Hh Hs Hn Hi Hb H).
Qed.
Lemma cuckoo_together log2 aes seed num h s inputs b r (D : list Z -> bool) :
  accurate Rlog2 log2 -> cuckoo_create seed num = Ok h ->
  0 <= s <= 512 -> (num < 2^31)%Z -> (1 <= zlen inputs < 2^63)%Z -> (b < 2^63)%Z ->
  hash_cuckoo aes (too_many_bits_double log2 (Fin s) num) h inputs b = Ok r ->
  let n := Z.to_nat (zlen inputs * num) in
  Q2R (Qabs (fraction_of_lists (2^128) n (fun l => D (map (fun v => hash_to_bucket aes h v b 0) l)) -
             fraction_of_lists (Z.to_N b) n (fun l => D (map Z.of_N l)))) <= exp2 (rounding_slack - s).
Proof.
  intros A Hh Hs Hn Hi Hb H n. apply buckets_together.
  - unfold hash_cuckoo in H. destruct (_ =? 1)%Z; [discriminate|]. destruct (b <=? 0)%Z eqn:E; [discriminate|lia].
  - unfold cuckoo_create in Hh. destruct (num <=? 0)%Z eqn:E; [discriminate|nia].
  - intro B. exact (cuckoo_close log2 aes seed num h s inputs b r B A Hh Hs Hn Hi Hb H).
Qed.
