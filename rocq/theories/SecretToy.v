(** A first use of a small setting, for the example beside C91. *)
From Verif Require Import Base ScalarModel ScalarSpec ScalarProofs ProcModel ProcSpec ProcProofs GilboaSpec RngModel CuckooModel MpfssModel MpfssSpec VoleModel VoleSpec
  VoleToy HideSpec DeltaSpec DeltaToy SecretSpec.
Local Open Scope Z_scope.

Definition block_tape : tape F := fun n => let '(b, x) := toy_tape 13 n in ((b mod 2^128)%N, x).
Lemma block_tape_ok p : (fst (block_tape p) < 2^128)%N.
Proof. unfold block_tape. destruct (toy_tape 13 p) as [b x]. apply N.mod_lt. discriminate. Qed.

Definition toy_positions (b1 b2 : N) : res (list Z) :=
  rbind (rng_create (List.concat (map block_bytes [b1; b2])) 1) (fun g => sample_indices F (toy_machine 0 1) 100 7 1 g []).
Definition placeable (seed : N) (r : res (list Z)) : bool :=
  match r with Ok l => is_ok (hash_cuckoo toy_aes toy_too (Hasher seed 3) (map uint128_of_int64 l) 3) | _ => false end.

Lemma possible_gen {S} E (M : machine S) (b : vole S) batch len noise masks aes too patience seed b1 b2 positions s y :
  zlen s = seed_size E -> zlen y = noise_weight E -> noise_weight E = noise -> num_masks E = masks -> word_length E batch = len -> e_aes E = aes -> e_too_many_bits E = too ->
  c_patience M = patience -> (forall x l, c_order M x l = l) ->
  m_hasher (v_mpfss b) = Hasher seed 3 -> (b1 < 2^128)%N -> (b2 < 2^128)%N ->
  rbind (rng_create (List.concat (map block_bytes [b1; b2])) noise) (fun g => sample_indices S M patience len noise g []) = Ok positions ->
  is_ok (hash_cuckoo aes too (Hasher seed 3) (map uint128_of_int64 positions) masks) = true ->
  SecretSpec.possible S E M b batch s y positions.
Proof.
  intros Es Ey <- <- <- <- <- <- Ho Hh H1 H2 Hp Hc. split; [exact Es|]. split; [exact Ey|]. split.
  - destruct (rng_create (List.concat (map block_bytes [b1; b2])) _) as [g| |] eqn:Eg; try discriminate. exists [b1; b2], 0%N, g, positions. rewrite Ho.
    split; [reflexivity|]. split; [repeat constructor; auto|]. split; [reflexivity|]. split; [exact Eg|]. split; [exact Hp|reflexivity].
  - rewrite Hh. destruct (hash_cuckoo _ _ _ _ _) as [h| |]; try discriminate. eauto.
Qed.
Lemma toy_possible (b : vole F) seed b1 b2 positions (s1 s2 y : F) : m_hasher (v_mpfss b) = Hasher seed 3 -> (b1 < 2^128)%N -> (b2 < 2^128)%N ->
  toy_positions b1 b2 = Ok positions -> placeable seed (Ok positions) = true ->
  SecretSpec.possible F (toy_setting toy_K) (toy_machine 0 1) b 2 [s1; s2] [y] positions.
Proof. intros Hh H1 H2 Hp Hc. apply (possible_gen _ _ _ _ 7 1 3 toy_aes toy_too 100%nat seed b1 b2); auto; reflexivity. Qed.

Definition seed_of (r : option ((res (vole F * sender_result F)) * (res (vole F * receiver_result F) * list (seen F)))) : option N :=
  match r with
  | Some (Ok (_, x), (Ok (b, _), _)) => if zlen (sr_u x) =? 1 then if ch_num_hash_functions (m_hasher (v_mpfss b)) =? 3 then Some (ch_seed (m_hasher (v_mpfss b))) else None else None
  | _ => None
  end.
Lemma hasher_eta h : ch_num_hash_functions h = 3 -> h = Hasher (ch_seed h) 3.
Proof. destruct h. cbn. now intros ->. Qed.
Lemma first_example_gen fuel seed :
  seed_of (finishes fuel (first_sender F (toy_setting toy_K) (toy_machine 0 1) 2 1) block_tape
    (watch (first_receiver F (toy_setting toy_K) (toy_machine 1 0) 2 (toy_scalar 3) 1) []) (toy_tape 7) [] []) = Some seed ->
  exists a x b y log, completes (first_sender F (toy_setting toy_K) (toy_machine 0 1) 2 1) block_tape
    (watch (first_receiver F (toy_setting toy_K) (toy_machine 1 0) 2 (toy_scalar 3) 1) []) (toy_tape 7) (Ok (a, x)) (Ok (b, y), log) /\
    m_hasher (v_mpfss b) = Hasher seed 3.
Proof.
  intro H. destruct (finishes _ _ _ _ _ _ _) as [[[[a x]|?|?] [[[b y]|?|?] log]]|] eqn:Ef; try discriminate.
  apply finishes_completes in Ef. exists a, x, b, y, log. split; [exact Ef|]. unfold seed_of in H. destruct (_ =? 1); [|discriminate].
  destruct (ch_num_hash_functions _ =? 3) eqn:E3; [|discriminate]. injection H as <-. apply Z.eqb_eq in E3. exact (hasher_eta _ E3).
Qed.
Lemma first_example : exists a x b y log, completes (first_sender F (toy_setting toy_K) (toy_machine 0 1) 2 1) block_tape
    (watch (first_receiver F (toy_setting toy_K) (toy_machine 1 0) 2 (toy_scalar 3) 1) []) (toy_tape 7) (Ok (a, x)) (Ok (b, y), log) /\
  SecretSpec.possible F (toy_setting toy_K) (toy_machine 0 1) b 2 [toy_scalar 4; toy_scalar 5] [toy_scalar 6] [1] /\
  SecretSpec.possible F (toy_setting toy_K) (toy_machine 0 1) b 2 [toy_scalar 7; toy_scalar 8] [toy_scalar 9] [2].
Proof.
  destruct (first_example_gen (Z.to_nat 9000) 221) as (a & x & b & y & log & H & Hh); [vm_compute; reflexivity|]. exists a, x, b, y, log. split; [exact H|].
  split; [apply (toy_possible b 221 1024 1)|apply (toy_possible b 221 4 1)]; try exact Hh; vm_compute; reflexivity.
Qed.
