(** Final theorems about sessions whose calls should succeed (C69). [E], [MA],
    [MB]: as in PropertiesVole.v. *)
From Verif Require Import Base BaseFacts ScalarModel ScalarSpec ScalarProofs ScalarFinal ProcModel ProcSpec RotModel MpfssModel MpfssSpec
  VoleModel VoleSpec VoleToy VoleSucceed.
From Coq Require Import QArith.
Local Open Scope Z_scope.

(** C69: with a scalar type that admits the statistical security, a session in
    which all sizes are positive and the parties precompute again when they change
    roles has no errors: it ends with all messages read and all calls answered
    (see C42 for [agree]), unless a random generator is used up or the sender of
    a call fails alone ([sender_fails]). *)
Theorem C69_orderly_calls_succeed : forall t, stype_ok t -> let S := scalar_of t in
  forall E, good_setting S E -> secure S E ->
  forall MA MB : machine S, good_machine S MA -> good_machine S MB -> connected MA MB ->
  forall go_on, go_on insertion_failed = false -> forall l ta tb, orderly None l ->
  exists n, forall m d, steps m (start (party S E MA go_on l) ta (party S E MB go_on (opposite S l)) tb) d ->
    (m <= n)%nat /\ (stuck d -> good_end S go_on l d).
Proof. exact (fun t Ht E G Hs MA MB GA GB HC go_on Hgo => orderly_session (scalar_of t) (scalar_of_laws t Ht) E G Hs MA MB GA GB HC go_on Hgo). Qed.
Print Assumptions C69_orderly_calls_succeed.

(** Unsigned integers and gf128 always admit the security; types of integers
    modulo p do if p 2^s is small enough. *)
Theorem C69_secure_types : forall t E, stype_ok t -> s_size (scalar_of t) <= 16 -> (0 < e_K E)%Q -> 1 <= p_nonzeros (e_parameters E) ->
  match t with
  | ZZ_p p | zz_p p => (inject_Z (Zpos p) * (e_K E * 3 * inject_Z (Z.max (p_nonzeros (e_parameters E)) 6 * last (p_output_size (e_parameters E)) 0%Z)) <= inject_Z (2^128))%Q
  | _ => True
  end -> secure (scalar_of t) E.
Proof. exact secure_types. Qed.
Print Assumptions C69_secure_types.

(** A session in which the parties change their roles. *)
Example C69_example : let calls := [(true, Run 2); (false, Precompute 1 (Some (toy_scalar 4))); (false, Run 2)] in
  secure F (toy_setting toy_K) /\ orderly None calls /\
  exists n d la lb,
    steps n (start (party F (toy_setting toy_K) (toy_machine 0 1) (fun _ => false) calls) (toy_tape 7)
                   (party F (toy_setting toy_K) (toy_machine 1 0) (fun _ => false) (opposite F calls)) (toy_tape 13)) d /\
    c_a d = Ret (Ok la) /\ c_b d = Ret (Ok lb) /\
    map (rmap show_answer) la = [Ok (ShowSender [564; 460] [568; 113]); Ok ShowPrecomputed; Ok (ShowReceiver [172; 367] 4)]%N /\
    map (rmap show_answer) lb = [Ok (ShowReceiver [718; 128] 11); Ok ShowPrecomputed; Ok (ShowSender [859; 28] [772; 255])]%N.
Proof.
  intro calls. split; [apply (secure_types (zz_p 1009)); [split; [cbn; lia|vm_compute; discriminate]|discriminate|reflexivity|discriminate|vm_compute; discriminate]|].
  split; [cbn; intuition lia|]. unfold calls. apply (exec_shown (Z.to_nat 5000)). vm_compute. reflexivity.
Qed.

(** The library's parameters with 40 bits of security: all moduli up to 2^59. *)
Example C69_library_example : forall t E, e_parameters E = library_parameters -> e_K E = inject_Z (2^40) ->
  t = UInt64 \/ t = GF128 true \/ (exists p, t = zz_p p /\ (1 < p <= 2^59)%positive) -> secure (scalar_of t) E.
Proof.
  intros t E EP EK Ht. apply secure_types; rewrite ?EP, ?EK.
  - destruct Ht as [-> | [-> | (p & -> & H1 & H2)]]; [exact I|exact I|]. split; [exact H1|]. lia.
  - destruct Ht as [-> | [-> | (p & -> & H1 & H2)]]; [discriminate|discriminate|].
    assert (zz : stype_ok (zz_p p)) by (split; [exact H1|lia]). cbn [scalar_of s_size zzp_scalar]. unfold ntl_size, ntl_num_bits.
    assert (Hs : (N.size (Npos p - 1) <= 60)%N) by (destruct (N.eq_dec (Npos p - 1) 0) as [->|Hne]; [discriminate|rewrite N.size_log2 by auto; assert (N.log2 (Npos p - 1) < 60)%N by (apply N.log2_lt_pow2; lia); lia]).
    rewrite Z.quot_div_nonneg by lia. apply Z.lt_succ_r, Z.div_lt_upper_bound; lia.
  - reflexivity.
  - discriminate.
  - destruct Ht as [-> | [-> | (p & -> & H1 & H2)]]; [exact I|exact I|].
    apply Qle_trans with (inject_Z (2^59) * (inject_Z (2^40) * 3 * inject_Z (Z.max 10 6 * 10616092)))%Q; [|vm_compute; discriminate].
    apply Qmult_le_compat_r; [rewrite <- Zle_Qle; lia|discriminate].
Qed.
