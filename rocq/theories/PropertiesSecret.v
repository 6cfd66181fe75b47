(** C91: after the first expansion the receiver cannot know the sender's seed and
    noise, and so not its vector beyond what is public: everything the receiver
    saw is explained by all other possible secrets as well.

    Unlike in C88 nothing is assumed about the block cipher, it is the same in
    both worlds, and there are no accidents to exclude. Requests that fit the
    first level of the parameters are covered. With more levels, and in later
    runs, the masks are outputs of earlier expansions, which are pseudorandom only
    under the LPN assumption. *)
From Verif Require Import Base ScalarModel ScalarSpec ScalarProofs ProcModel ProcSpec GilboaModel GilboaSpec GilboaFinal MpfssSpec VoleModel VoleSpec VoleToy HideSpec
  DeltaToy SecretSpec SecretGilboa SecretFinal SecretToy.
Local Open Scope Z_scope.

(** C91: both parties construct their objects, precompute for [batch] elements
    and run once for [n]. There are a seed and noise that explain the sender's
    vector; and for all other possible secrets there are random values of the
    sender such that the receiver sees and gets exactly the same, while the
    sender's vector is that of the other secrets. *)
Theorem C91_sender_hidden : forall t, stype_ok t -> let S := scalar_of t in forall E (MS MR : machine S),
  good_setting S E -> good_machine S MS -> good_machine S MR -> connected MS MR -> secure S E ->
  use_correlated_ot S (vole_K E) (seed_size E + num_masks E) = false \/ full_range t = true ->
  forall batch n, 1 <= n <= batch ->
  word_length E batch <= znth 0 (p_output_size (e_parameters E)) 0 -> word_length E batch <= last (p_output_size (e_parameters E)) 0 ->
  forall delta ts tr a x b y seen, (forall p, (fst (ts p) < 2^128)%N) ->
  let receiver := watch (first_receiver S E MR batch delta n) [] in
  completes (first_sender S E MS batch n) ts receiver tr (Ok (a, x)) (Ok (b, y), seen) ->
  (rr_delta y = delta /\ vole_correlation S delta (sr_u x) (sr_v x) (rr_w y) /\
   exists seed noise positions, possible S E MS b batch seed noise positions /\ sender_vector S b batch n seed noise positions (sr_u x)) /\
  forall seed noise positions, possible S E MS b batch seed noise positions -> exists ts' a' x',
    (forall p, (fst (ts' p) < 2^128)%N) /\
    completes (first_sender S E MS batch n) ts' receiver tr (Ok (a', x')) (Ok (b, y), seen) /\
    sender_vector S b batch n seed noise positions (sr_u x') /\ vole_correlation S delta (sr_u x') (sr_v x') (rr_w y).
Proof. exact sender_hidden. Qed.
Print Assumptions C91_sender_hidden.

(** A first use meets the hypotheses, and there are different secrets. *)
Example C91_example :
  stype_ok (zz_p 1009) /\ good_setting F (toy_setting toy_K) /\ good_machine F (toy_machine 0 1) /\ good_machine F (toy_machine 1 0) /\
  connected (toy_machine 0 1) (toy_machine 1 0) /\ secure F (toy_setting toy_K) /\
  use_correlated_ot F (vole_K (toy_setting toy_K)) (seed_size (toy_setting toy_K) + num_masks (toy_setting toy_K)) = false /\
  word_length (toy_setting toy_K) 2 <= znth 0 (p_output_size toy_parameters) 0 /\ word_length (toy_setting toy_K) 2 <= last (p_output_size toy_parameters) 0 /\
  (forall p, (fst (block_tape p) < 2^128)%N) /\
  exists a x b y seen, completes (first_sender F (toy_setting toy_K) (toy_machine 0 1) 2 1) block_tape
    (watch (first_receiver F (toy_setting toy_K) (toy_machine 1 0) 2 (toy_scalar 3) 1) []) (toy_tape 7) (Ok (a, x)) (Ok (b, y), seen) /\
    possible F (toy_setting toy_K) (toy_machine 0 1) b 2 [toy_scalar 4; toy_scalar 5] [toy_scalar 6] [1] /\
    possible F (toy_setting toy_K) (toy_machine 0 1) b 2 [toy_scalar 7; toy_scalar 8] [toy_scalar 9] [2].
Proof.
  split; [split; [cbn; lia|vm_compute; discriminate]|]. split; [apply toy_good|]. split; [apply toy_machine_good|]. split; [apply toy_machine_good|].
  split; [exact toy_connected|]. split; [exact toy_secure|]. split; [vm_compute; reflexivity|]. split; [vm_compute; discriminate|]. split; [vm_compute; discriminate|].
  split; [exact block_tape_ok|exact first_example].
Qed.
