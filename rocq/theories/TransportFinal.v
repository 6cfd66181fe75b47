(** The protocols of this library end alike on every transport. *)
From Verif Require Import Base BaseFacts ScalarModel ScalarSpec ScalarProofs ScalarFinal ProcModel ProcSpec ProcProofs MeetProofs
  RotModel RotSpec RotFinal SpfssModel SpfssProofs GilboaModel GilboaSpec GilboaProofs GilboaFinal
  CuckooModel CuckooSpec CuckooProofs CuckooFinal MpfssModel MpfssSpec MpfssProofs MpfssFinal
  VoleModel VoleSpec VolePair VoleSucceed TransportSpec TransportProofs.
From Coq Require Import QArith.
Local Open Scope Z_scope.

Lemma jrun_both {T RA RB} (pa : proc T RA) ta (pb : proc T RB) tb a ta1 b tb1 : jrun pa ta pb tb (Ret a) ta1 (Ret b) tb1 ->
  completes pa ta pb tb a b /\ on_every_transport pa ta pb tb (returned a b).
Proof.
  intro HJ. split; [eapply jrun_completes; exact HJ|]. eapply jrun_every_ret; [exact HJ|]. exists ta1, tb1. reflexivity.
Qed.

Lemma rot_transport (S : scalar) aes clog K (outs_s outs_r : list (list S)) indices ta tb :
  map zlen outs_r = map zlen outs_s ->
  (forall o, In o outs_s -> supported_size clog (zlen o)) ->
  zlen indices = zlen outs_s ->
  (forall i, 0 <= i < zlen outs_s -> valid_index (znth 0 indices i) (zlen (znth [] outs_s i))) ->
  s_can_hash S (security_per_leaf K (total_leaves (map zlen outs_s))) 128 = true ->
  exists rs rr, let pa := rot_sender_batched S aes clog K outs_s in let pb := rot_receiver_batched S aes clog indices outs_r in
    completes pa ta pb tb (Ok rs) (Ok rr) /\ on_every_transport pa ta pb tb (returned (Ok rs) (Ok rr)).
Proof.
  intros H1 H2 H3 H4 H5. destruct (rot_batched_jrun S aes clog K outs_s outs_r indices ta tb H1 H2 H3 H4 H5) as (rs & rr & ta' & HJ & _).
  exists rs, rr. exact (jrun_both _ _ _ _ _ _ _ _ HJ).
Qed.

Lemma spfss_transport t (Ht : stype_ok t) aes clog K vals_v vals_i indices (outs_v outs_i : list (list (scalar_of t))) ta tb :
  map zlen outs_i = map zlen outs_v ->
  zlen vals_v = zlen outs_v -> zlen vals_i = zlen outs_v -> zlen indices = zlen outs_v ->
  (forall o, In o outs_v -> supported_size clog (zlen o)) ->
  (forall i, 0 <= i < zlen outs_v -> valid_index (znth 0 indices i) (zlen (znth [] outs_v i))) ->
  s_can_hash (scalar_of t) (security_per_leaf K (total_leaves (map zlen outs_v))) 128 = true ->
  exists rv ri, let pa := spfss_value_provider_batched (scalar_of t) aes clog K vals_v outs_v in
    let pb := spfss_index_provider_batched (scalar_of t) aes clog vals_i indices outs_i in
    completes pa ta pb tb (Ok rv) (Ok ri) /\ on_every_transport pa ta pb tb (returned (Ok rv) (Ok ri)).
Proof.
  intros H1 H2 H3 H4 H5 H6 H7.
  destruct (spfss_jrun _ (scalar_of_laws t Ht) aes clog K vals_v vals_i indices outs_v outs_i ta tb H1 H2 H3 H4 H5 H6 H7) as (rv & ri & ta' & HJ & _).
  exists rv, ri. exact (jrun_both _ _ _ _ _ _ _ _ HJ).
Qed.

Lemma gilboa_transport t (Ht : stype_ok t) (H16 : s_size (scalar_of t) <= 16) K x (y out_v out_x : list (scalar_of t)) ta tb :
  zlen out_v = zlen y -> zlen out_x = zlen y ->
  zlen y + 16 / s_size (scalar_of t) < 2^31 -> transfers (s_size (scalar_of t)) (zlen y) < 2^31 ->
  exists rv rx, let pa := gilboa_vector_provider (scalar_of t) K y out_v in let pb := gilboa_value_provider (scalar_of t) K x out_x in
    completes pa ta pb tb (Ok rv) (Ok rx) /\ on_every_transport pa ta pb tb (returned (Ok rv) (Ok rx)).
Proof.
  intros H1 H2 H3 H4. pose proof (scalar_of_laws t Ht) as L. pose proof (sl_size _ L). rewrite <- (pf_eq t Ht) in H3. rewrite transfers_eq in H4 by lia.
  destruct (gilboa_jrun _ L H16 K x y out_v out_x ta tb) as (rv & rx & ta' & HJ & _); try lia.
  exists rv, rx. exact (jrun_both _ _ _ _ _ _ _ _ HJ).
Qed.

Lemma mpfss_transport t (Ht : stype_ok t) aes clog K too e3 e2 (He3 : forall n, e3 n < 2^63) (He2 : forall n, e2 n < 2^63) seed h :
  let S := scalar_of t in let after := mpfss_after aes too e3 e2 h in
  cuckoo_create seed 3 = Ok h -> forall hist_v hist_i sizes_v sizes_i x y indices u v w (out_v out_i : list S) hashed ta tb,
  divisions hist_v -> divisions hist_i ->
  let NN := zlen out_v in let n := zlen y in
  division NN sizes_v -> division NN sizes_i -> good_sizes S clog K too e3 NN n ->
  zlen out_i = NN -> zlen indices = n -> num_buckets e3 e2 (mpfss_new h) n = Ok (zlen w) -> vole_correlation S x u v w ->
  (forall k, 0 <= k < n -> 0 <= znth 0 indices k < NN) ->
  hash_cuckoo aes too h (map uint128_of_int64 indices) (zlen w) = Ok hashed ->
  exists stv sti rv ri, let pa := mpfss_value_provider S aes clog K too e3 e2 sizes_v (after hist_v) x n w out_v in
    let pb := mpfss_index_provider S aes clog too e3 e2 sizes_i (after hist_i) y indices u v out_i in
    completes pa ta pb tb (stv, Ok rv) (sti, Ok ri) /\ on_every_transport pa ta pb tb (returned (stv, Ok rv) (sti, Ok ri)).
Proof.
  intros S after Hh hist_v hist_i sizes_v sizes_i x y indices u v w out_v out_i hashed ta tb Hv Hi NN n Hdv Hdi Hg Hoi Hix Hw Hvole Hr HH.
  pose proof Hg as (Hn & HN3 & Hnb & Htoo & _). pose proof (H1h aes seed h Hh) as H1.
  pose proof (num_buckets_eq aes clog too e3 e2 He3 He2 seed h Hh n (zlen w) ltac:(lia) Hnb Hw) as Ew. rewrite Ew in HH.
  pose proof (after_coherent aes too e3 e2 He3 He2 h H1 _ Hv) as Cv. pose proof (after_coherent aes too e3 e2 He3 He2 h H1 _ Hi) as Ci.
  destruct (create_inv _ _ _ Hh) as [_ Eh]. subst h.
  destruct (mpfss_correct_jrun S (scalar_of_laws t Ht) aes clog K too e3 e2 He3 He2 seed (after hist_v) (after hist_i)
    sizes_v sizes_i x y indices u v w out_v out_i hashed ta tb) as (rv & ri & ta' & HJ & _); auto.
  do 4 eexists. exact (jrun_both _ _ _ _ _ _ _ _ HJ).
Qed.

Lemma create_transport (S : scalar) id_a id_b (ta tb : tape S) : id_a < id_b ->
  exists st, let pa := mpfss_create S false id_a id_b in let pb := mpfss_create S false id_b id_a in
    completes pa ta pb tb (Ok st) (Ok st) /\ on_every_transport pa ta pb tb (returned (Ok st) (Ok st)).
Proof.
  intro H. exists (mpfss_new (Hasher (fst (ta O)) 3)). cbv zeta. eapply jrun_both. unfold mpfss_create.
  replace (id_a <? id_b) with true by lia. replace (id_b <? id_a) with false by lia.
  eapply jrun_trans; [apply jrun_sync|]. eapply jrun_trans; [apply jrun_sync|].
  eapply jrun_trans; [apply jrun_rand_a|]. eapply jrun_trans; [apply jrun_send_recv; reflexivity|]. apply jrun_refl.
Qed.

Lemma sessions_transport t (Ht : stype_ok t) : let S := scalar_of t in forall E, good_setting S E ->
  forall MA MB : machine S, good_machine S MA -> good_machine S MB -> connected MA MB ->
  forall go_on, (forall e, In e one_sided -> go_on e = false) -> forall l ta tb,
  on_every_transport (party S E MA go_on l) ta (party S E MB go_on (opposite S l)) tb (session_end S go_on l).
Proof.
  intros S E G MA MB GA GB HC go_on Hgo l ta tb.
  eapply meet_every; [exact (party_meet S (scalar_of_laws t Ht) E G MA MB GA GB HC go_on Hgo l)| | |];
    intros; (split; [reflexivity|]); (split; [reflexivity|]); cbn.
  - left. destruct H as (la & lb & -> & -> & Hag). eauto.
  - right; left. destruct H0 as (la & -> & Hb). eauto.
  - right; right. destruct H0 as (la & -> & Hb). eauto.
Qed.
Lemma orderly_transport t (Ht : stype_ok t) : let S := scalar_of t in forall E, good_setting S E -> secure S E ->
  forall MA MB : machine S, good_machine S MA -> good_machine S MB -> connected MA MB ->
  forall go_on, go_on insertion_failed = false -> forall l ta tb, orderly None l ->
  on_every_transport (party S E MA go_on l) ta (party S E MB go_on (opposite S l)) tb (good_end S go_on l).
Proof.
  intros S E G Hs MA MB GA GB HC go_on Hgo l ta tb Ho.
  eapply meet_every; [exact (party_succeeds S (scalar_of_laws t Ht) E G Hs MA MB GA GB HC go_on Hgo l Ho)| | |];
    intros; (split; [reflexivity|]); (split; [reflexivity|]); cbn.
  - left. destruct H as (la & lb & -> & -> & Hag). eauto 10.
  - right; left. destruct H0 as (la & -> & Hb). eauto.
  - right; right. destruct H0 as (la & -> & Hb). eauto.
Qed.

(** ** Sessions that do need a transport that stores messages *)
Lemma stays {T RA RB} sep stores n (c d : config T RA RB) : (forall c', ~ tstep sep stores c c') -> tsteps sep stores n c d -> d = c.
Proof. intros H Hs. inversion Hs as [|? ? ? ? Ht _]; subst; [reflexivity|]. destruct (H _ Ht). Qed.

Lemma crossing {T} (x y : list T) ta tb P :
  ~ on_every_transport (Send (MVec x) (Recv (fun m => Ret m))) ta (Send (MVec y) (Recv (fun m => Ret m))) tb P.
Proof.
  intros (b & d & _ & Hd & H).
  assert (N : forall c', ~ tstep false tokens (start (Send (MVec x) (Recv (fun m => Ret m))) ta (Send (MVec y) (Recv (fun m => Ret m))) tb) c').
  { intros c' Hc. inversion Hc; subst; try discriminate; match goal with H : tokens _ _ |- _ => destruct H; discriminate end. }
  destruct (H false O _ (tsteps_0 _ _ _)) as (_ & k & Hk). apply stays in Hk; [|exact N]. subst d.
  apply (Hd false anything (Config (Recv (fun m => Ret m)) ta (Send (MVec y) (Recv (fun m => Ret m))) tb [MVec x] [])).
  apply (t_store_a false anything (MVec x)). exact I.
Qed.
Lemma out_of_order {T} (x : list T) pairs cs ta tb P :
  ~ on_every_transport (Send (MVec x) (Send (MOt false pairs) (Ret tt))) ta
      (OtRecv false cs (fun r => match r with Some l => Recv (fun m => Ret l) | None => Ret [] end)) tb P.
Proof.
  set (pa := Send (MVec x) (Send (MOt false pairs) (Ret tt))). set (pb := OtRecv false cs _).
  intros (b & d & _ & _ & H).
  destruct (H false 3%nat (Config (Ret tt) ta (Ret []) tb [MOt false pairs] [])) as (_ & k & Hk).
  { econstructor; [apply t_store_a; exact I|]. econstructor; [apply t_store_a; exact I|]. econstructor; [apply t_read_b; reflexivity|]. constructor. }
  apply stays in Hk; [|intros c' Hc; inversion Hc; subst; discriminate].
  destruct (H false 2%nat (Config (Send (MOt false pairs) (Ret tt)) ta (Ret []) tb [] [])) as (_ & k' & Hk').
  { econstructor; [apply t_store_a; exact I|]. econstructor; [apply t_read_b; reflexivity|]. constructor. }
  apply stays in Hk'; [|intros c' Hc; inversion Hc; subst; try discriminate; match goal with H : tokens _ _ |- _ => destruct H; discriminate end].
  congruence.
Qed.
