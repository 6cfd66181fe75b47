(** C88: after a whole session, the sender cannot know the receiver's delta:
    everything it saw is explained by every other delta as well.

    As in C82-C84, the block cipher is an arbitrary function that the other
    explanation may change, here only under keys that the receiver drew at
    random. So this is the usual argument for an ideal cipher; that AES behaves
    like one, and how likely accidents among random blocks are, is not proved. *)
From Verif Require Import Base ScalarModel ScalarSpec ScalarProofs ProcModel ProcSpec GilboaSpec RngModel MpfssSpec VoleModel VoleSpec VoleToy HideSpec
  DeltaSpec DeltaFinal DeltaToy.
Local Open Scope Z_scope.

(** C88: the receiver and the sender create their objects and make the calls [l],
    all of which succeed. For all [deltas] there are a cipher and random values of
    the receiver such that the sender sees and gets exactly the same, while the
    receiver's delta in the [j]-th call is [deltas j], whether it is given or drawn
    at random, and the receiver gets shares that fit. *)
Theorem C88_delta_hidden : forall (S : scalar), scalar_laws S -> forall E uniform uniform64,
  uses_generator uniform -> uses_generator uniform64 -> forall MR MS : machine S,
  (forall aes, good_setting S (with_aes uniform E aes)) ->
  (forall aes, good_machine S (machine_with_aes uniform64 MS aes)) -> (forall aes, good_machine S (machine_with_aes uniform64 MR aes)) ->
  connected MS MR -> secure S E ->
  forall depth, (forall n, 1 <= n <= 3 * last (p_output_size (e_parameters E)) 0 -> (e_clog E 2 n <= depth)%nat) ->
  forall go_on (l : list (call S)) aes ta tb rs ss seen_r seen_s,
  let receiver aes l := party S (with_aes uniform E aes) (machine_with_aes uniform64 MR aes) go_on (map (pair false) l) in
  let sender aes l := party S (with_aes uniform E aes) (machine_with_aes uniform64 MS aes) go_on (map (pair true) l) in
  completes (watch (receiver aes l) []) ta (watch (sender aes l) []) tb (Ok rs, seen_r) (Ok ss, seen_s) ->
  all_ok rs -> all_ok ss -> no_accidents aes depth (drew seen_r) (drew seen_s) ->
  forall deltas : nat -> S, exists aes' ta' rs',
    completes (receiver aes' (other_deltas deltas l)) ta' (watch (sender aes' l) []) tb (Ok rs') (Ok ss, seen_s) /\
    correlated None deltas l ss rs' /\
    (forall k x, ~ In k (drew seen_r) -> aes' k x = aes k x) /\ (forall p, (List.length (drew seen_r) <= p)%nat -> ta' p = ta p).
Proof. exact delta_hidden. Qed.
Print Assumptions C88_delta_hidden.

(** A session meets the hypotheses. *)
Example C88_example :
  scalar_laws F /\ uses_generator any_uniform /\
  (forall aes, good_setting F (with_aes any_uniform (toy_setting toy_K) aes)) /\
  (forall aes, good_machine F (machine_with_aes any_uniform (toy_machine 0 1) aes)) /\
  (forall aes, good_machine F (machine_with_aes any_uniform (toy_machine 1 0) aes)) /\
  connected (toy_machine 0 1) (toy_machine 1 0) /\ secure F (toy_setting toy_K) /\
  (forall n, 1 <= n <= 3 * last (p_output_size toy_parameters) 0 -> (toy_clog 2 n <= 6)%nat) /\
  let l := [Precompute 1 (Some (toy_scalar 3)); Run 2] in exists rs seen_r ss seen_s,
    completes (watch (toy_receiver l) []) (toy_tape 7) (watch (toy_sender l) []) (toy_tape 13) (Ok rs, seen_r) (Ok ss, seen_s) /\
    all_ok rs /\ all_ok ss /\ zlen rs = 2 /\ no_accidents toy_aes 6 (drew seen_r) (drew seen_s).
Proof.
  split; [apply scalar_of_laws; split; [cbn; lia|vm_compute; discriminate]|]. split; [exact any_uniform_ok|]. split; [apply any_good|]. split; [apply any_machine_good|]. split; [apply any_machine_good|].
  split; [exact toy_connected|]. split; [exact toy_secure|]. split; [|exact delta_example].
  intros n Hn. change (1 <= n <= 42) in Hn. unfold toy_clog. pose proof (Z.log2_up_le_mono n 42 ltac:(lia)) as H. change (Z.log2_up 42) with 6 in H. lia.
Qed.
