(** The protocols of the library when a party stops (StopSpec.v). *)
From Verif Require Import Base BaseFacts ScalarModel ScalarSpec ScalarProofs ScalarFinal ProcModel ProcSpec ProcProofs RotModel RotSpec SpfssModel
  GilboaModel GilboaSpec CuckooModel CuckooSpec MpfssModel MpfssSpec VoleModel VoleSpec TransportSpec TransportProofs TransportFinal StopSpec StopProofs.
From Coq Require Import QArith.
Local Open Scope Z_scope.

(** ** Nobody succeeds without reading *)
Section Early.
  Variable S : scalar.
  Variable aes : N -> N -> N.
  Variable clog : Z -> Z -> nat.

  Lemma early_receive_trees sizes indices arity : early not_ok (receive_trees S aes clog sizes indices arity).
  Proof.
    unfold receive_trees. destruct (negb _); [exact I|]. apply early_lift. intros [choices offsets] _.
    destruct (0 <? zlen choices); exact I.
  Qed.
  Lemma early_rot_receiver indices outs : early not_ok (rot_receiver_batched S aes clog indices outs).
  Proof.
    unfold rot_receiver_batched. destruct (negb _); [exact I|]. destruct (existsb _ _); [exact I|].
    apply early_bindr, early_receive_trees.
  Qed.
  Lemma early_spfss_index vals indices outs : early not_ok (spfss_index_provider_batched S aes clog vals indices outs).
  Proof. unfold spfss_index_provider_batched. destruct (_ || _)%bool; [exact I|]. apply early_bindr, early_rot_receiver. Qed.
  Lemma early_gilboa_value K x out : early not_ok (gilboa_value_provider S K x out).
  Proof.
    unfold gilboa_value_provider. cbv zeta. destruct (16 <? s_size S); [exact I|]. do 2 (apply early_lift; intros ? _).
    destruct (_ <? 0); [exact I|]. apply early_lift. intros ? _. exact I.
  Qed.

  Variable K : Q.
  Variable too_many_bits : Z -> Z -> bool.
  Variables e3 e2 : Z -> Z.
  Let bad (r : mpfss * res (list S)) : Prop := not_ok (snd r).
  Lemma early_after (u : mpfss * res unit) (k : mpfss -> proc S (res (list S))) : (forall st, early not_ok (k st)) -> early bad (after_update S u k).
  Proof.
    intro H. destruct u as [st [a|s|w]]; cbn; auto; try exact I. unfold with_state. apply (early_bind _ _ _ _ (H st)). intros r Hr. exact Hr.
  Qed.
  Lemma early_mpfss_value sizes st x n w out : early bad (mpfss_value_provider S aes clog K too_many_bits e3 e2 sizes st x n w out).
  Proof. unfold mpfss_value_provider. destruct (n <? 1); [exact I|]. apply early_after. intro st'. exact I. Qed.
  Lemma early_mpfss_index sizes st y indices u v out : early bad (mpfss_index_provider S aes clog too_many_bits e3 e2 sizes st y indices u v out).
  Proof.
    unfold mpfss_index_provider. do 5 (match goal with |- early _ (if ?b then _ else _) => destruct b; [exact I|] end).
    apply early_after. intro st'. unfold index_provider_body. cbv zeta. apply early_lift. intros hashed _.
    destruct (_ <? 0); [exact I|]. apply early_lift. intros yp _. destruct (negb _); [exact I|]. cbn [early].
    do 2 (apply early_lift; intros ? _). apply early_bindr, early_spfss_index.
  Qed.
  Lemma early_create id peer : early not_ok (mpfss_create S false id peer).
  Proof. exact I. Qed.
End Early.

(** ** The protocols *)
Ltac stop_rest := split; [|split]; [assumption|apply returned_only; assumption|].

Lemma sessions_stop t : stype_ok t -> let S := scalar_of t in forall E, good_setting S E ->
  forall MA MB : machine S, good_machine S MA -> good_machine S MB -> connected MA MB ->
  forall go_on, (forall e, In e one_sided -> go_on e = false) -> forall l ta tb,
  exists d, session_end S go_on l d /\ unaffected (party S E MA go_on l) ta (party S E MB go_on (opposite S l)) tb d.
Proof. intros Ht S E HE MA MB HA HB Hc go_on Hg l ta tb. apply every_unaffected. now apply sessions_transport. Qed.

Lemma rot_stop (S : scalar) aes clog K (outs_s outs_r : list (list S)) indices ta tb :
  map zlen outs_r = map zlen outs_s ->
  (forall o, In o outs_s -> supported_size clog (zlen o)) ->
  zlen indices = zlen outs_s ->
  (forall i, 0 <= i < zlen outs_s -> valid_index (znth 0 indices i) (zlen (znth [] outs_s i))) ->
  s_can_hash S (security_per_leaf K (total_leaves (map zlen outs_s))) 128 = true ->
  exists rs rr, let pa := rot_sender_batched S aes clog K outs_s in let pb := rot_receiver_batched S aes clog indices outs_r in
    completes pa ta pb tb (Ok rs) (Ok rr) /\ returns_only pa ta pb tb (Ok rs) (Ok rr) /\ second_waits pb tb.
Proof.
  intros H1 H2 H3 H4 H5. destruct (rot_transport S aes clog K outs_s outs_r indices ta tb H1 H2 H3 H4 H5) as (rs & rr & HC & HT).
  exists rs, rr. cbv zeta in *. stop_rest. eapply second_must_wait; [exact HT|apply early_rot_receiver|exact (fun H => H)].
Qed.

Lemma spfss_stop t : stype_ok t -> forall aes clog K vals_v vals_i indices (outs_v outs_i : list (list (scalar_of t))) ta tb,
  map zlen outs_i = map zlen outs_v ->
  zlen vals_v = zlen outs_v -> zlen vals_i = zlen outs_v -> zlen indices = zlen outs_v ->
  (forall o, In o outs_v -> supported_size clog (zlen o)) ->
  (forall i, 0 <= i < zlen outs_v -> valid_index (znth 0 indices i) (zlen (znth [] outs_v i))) ->
  s_can_hash (scalar_of t) (security_per_leaf K (total_leaves (map zlen outs_v))) 128 = true ->
  exists rv ri, let pa := spfss_value_provider_batched (scalar_of t) aes clog K vals_v outs_v in
    let pb := spfss_index_provider_batched (scalar_of t) aes clog vals_i indices outs_i in
    completes pa ta pb tb (Ok rv) (Ok ri) /\ returns_only pa ta pb tb (Ok rv) (Ok ri) /\ second_waits pb tb.
Proof.
  intros Ht aes clog K vv vi ix ov oi ta tb H1 H2 H3 H4 H5 H6 H7.
  destruct (spfss_transport t Ht aes clog K vv vi ix ov oi ta tb H1 H2 H3 H4 H5 H6 H7) as (rs & rr & HC & HT).
  exists rs, rr. cbv zeta in *. stop_rest. eapply second_must_wait; [exact HT|apply early_spfss_index|exact (fun H => H)].
Qed.

Lemma gilboa_stop t : stype_ok t -> s_size (scalar_of t) <= 16 ->
  forall K x (y out_v out_x : list (scalar_of t)) ta tb,
  zlen out_v = zlen y -> zlen out_x = zlen y -> 0 < zlen y ->
  zlen y + 16 / s_size (scalar_of t) < 2^31 -> transfers (s_size (scalar_of t)) (zlen y) < 2^31 ->
  exists rv rx, let pa := gilboa_vector_provider (scalar_of t) K y out_v in let pb := gilboa_value_provider (scalar_of t) K x out_x in
    completes pa ta pb tb (Ok rv) (Ok rx) /\ returns_only pa ta pb tb (Ok rv) (Ok rx) /\ second_waits pb tb.
Proof.
  intros Ht Hs K x y ov ox ta tb H1 H2 H0 H3 H4.
  destruct (gilboa_transport t Ht Hs K x y ov ox ta tb H1 H2 H3 H4) as (rs & rr & HC & HT).
  exists rs, rr. cbv zeta in *. stop_rest. eapply second_must_wait; [exact HT|apply early_gilboa_value|exact (fun H => H)].
Qed.

Lemma mpfss_stop t : stype_ok t -> forall aes clog K too_many_bits e3 e2, (forall n, e3 n < 2^63) -> (forall n, e2 n < 2^63) ->
  forall seed h, let S := scalar_of t in let after := mpfss_after aes too_many_bits e3 e2 h in
  cuckoo_create seed 3 = Ok h -> forall hist_v hist_i sizes_v sizes_i x y indices u v w (out_v out_i : list S) hashed ta tb,
  divisions hist_v -> divisions hist_i ->
  let N := zlen out_v in let n := zlen y in
  division N sizes_v -> division N sizes_i -> good_sizes S clog K too_many_bits e3 N n ->
  zlen out_i = N -> zlen indices = n -> num_buckets e3 e2 (mpfss_new h) n = Ok (zlen w) -> vole_correlation S x u v w ->
  (forall k, 0 <= k < n -> 0 <= znth 0 indices k < N) ->
  hash_cuckoo aes too_many_bits h (map uint128_of_int64 indices) (zlen w) = Ok hashed ->
  exists stv sti rv ri, let pa := mpfss_value_provider S aes clog K too_many_bits e3 e2 sizes_v (after hist_v) x n w out_v in
    let pb := mpfss_index_provider S aes clog too_many_bits e3 e2 sizes_i (after hist_i) y indices u v out_i in
    completes pa ta pb tb (stv, Ok rv) (sti, Ok ri) /\ returns_only pa ta pb tb (stv, Ok rv) (sti, Ok ri) /\ first_waits pa ta /\ second_waits pb tb.
Proof.
  intros Ht aes clog K tmb e3 e2 He3 He2 seed h S after Hh hv hi sv si x y indices u v w ov oi hashed ta tb D1 D2 N n D3 D4 G Ho Hi Hn Hc Hr Hk.
  destruct (mpfss_transport t Ht aes clog K tmb e3 e2 He3 He2 seed h Hh hv hi sv si x y indices u v w ov oi hashed ta tb D1 D2 D3 D4 G Ho Hi Hn Hc Hr Hk)
    as (stv & sti & rv & ri & HC & HT).
  exists stv, sti, rv, ri. cbv zeta in *. stop_rest. split.
  - eapply first_must_wait; [exact HT|apply early_mpfss_value|exact (fun H => H)].
  - eapply second_must_wait; [exact HT|apply early_mpfss_index|exact (fun H => H)].
Qed.

Lemma create_stop (S : scalar) id_a id_b (ta tb : tape S) : id_a < id_b ->
  exists st, let pa := mpfss_create S false id_a id_b in let pb := mpfss_create S false id_b id_a in
    completes pa ta pb tb (Ok st) (Ok st) /\ returns_only pa ta pb tb (Ok st) (Ok st) /\ first_waits pa ta /\ second_waits pb tb.
Proof.
  intro H. destruct (create_transport S id_a id_b ta tb H) as (st & HC & HT). exists st. cbv zeta in *. stop_rest. split.
  - eapply first_must_wait; [exact HT|apply early_create|exact (fun H => H)].
  - eapply second_must_wait; [exact HT|apply early_create|exact (fun H => H)].
Qed.
