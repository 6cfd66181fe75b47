(** Final theorems about what an eavesdropper learns from the lengths and the
    order of messages (C77). *)
From Verif Require Import Base BaseFacts ScalarModel ScalarSpec ProcModel RotModel SpfssModel GilboaModel CuckooModel MpfssModel VoleModel VoleSpec VoleToy
  PatternSpec PatternProofs PatternToy.
From Coq Require Import QArith.
Local Open Scope Z_scope.

(** C77: a party makes calls on a new object and stops at the first error. The
    kinds, lengths and order of the messages it sends and receives, and the
    numbers of its oblivious transfers, are the same as in any other execution
    with calls of the same sizes in the same roles and with the same hash
    function: they do not depend on delta, on its random values or on what the
    other party sends, except that an unsuccessful execution stops earlier. *)
Theorem C77_vole : forall S E (M : machine S) st st' calls1 calls2 l l' o o',
  created S M st -> created S M st' -> m_hasher (v_mpfss st) = m_hasher (v_mpfss st') -> Forall2 same_sizes calls1 calls2 ->
  does (calls S E M (fun _ => false) calls1 st) l o -> does (calls S E M (fun _ => false) calls2 st') l' o' ->
  same_steps all_ok l l' o o'.
Proof. exact created_same_steps. Qed.
Print Assumptions C77_vole.

(** Two receivers with different deltas and random values. *)
Example C77_vole_example : exists l rs rs',
  created F (toy_machine 1 0) (toy_object 1) /\
  does (calls F (toy_setting toy_K) (toy_machine 1 0) (fun _ => false) [(false, Precompute 2 (Some (toy_scalar 3))); (false, Run 3)] (toy_object 1)) l (Some rs) /\
  does (calls F (toy_setting toy_K) (toy_machine 1 0) (fun _ => false) [(false, Precompute 2 (Some (toy_scalar 900))); (false, Run 3)] (toy_object 1)) l (Some rs') /\
  map (rmap show_answer) rs = [Ok ShowPrecomputed; Ok (ShowReceiver [47; 729; 883]%N 3)] /\
  map (rmap show_answer) rs' = [Ok ShowPrecomputed; Ok (ShowReceiver [1007; 895; 150]%N 900)] /\
  l = [ReceivesTransfers false 16; Receives; Receives; Receives; SendsTransfers false 9; SendsBlocks 2; SendsVector 3;
       Receives; SendsTransfers false 9; SendsBlocks 2; SendsVector 3].
Proof.
  destruct (toy_watch_does 13 (toy_scalar 3) _ _ ltac:(vm_compute; reflexivity)) as (rs & H1 & H2).
  destruct (toy_watch_does 14 (toy_scalar 900) _ _ ltac:(vm_compute; reflexivity)) as (rs' & H3 & H4).
  eexists _, rs, rs'. split; [exact toy_object_created|]. split; [exact H1|]. split; [exact H3|]. auto.
Qed.

(** The same for single protocols: the steps depend on the lengths of the
    arguments only. *)
Theorem C77_gilboa_vector : forall (S : scalar) K (y y' out out' : list S) l l' o o', zlen y = zlen y' ->
  does (gilboa_vector_provider S K y out) l o -> does (gilboa_vector_provider S K y' out') l' o' -> same_steps is_ok l l' o o'.
Proof. exact gilboa_steps. Qed.
Print Assumptions C77_gilboa_vector.

Theorem C77_gilboa_value : forall (S : scalar) K (x x' : S) (out out' : list S) l l' o o', zlen out = zlen out' ->
  does (gilboa_value_provider S K x out) l o -> does (gilboa_value_provider S K x' out') l' o' -> same_steps is_ok l l' o o'.
Proof. exact gilboa_value_steps. Qed.
Print Assumptions C77_gilboa_value.

Theorem C77_spfss_value : forall (S : scalar) aes clog K (vals vals' : list S) outs outs' l l' o o', map zlen outs = map zlen outs' ->
  does (spfss_value_provider_batched S aes clog K vals outs) l o -> does (spfss_value_provider_batched S aes clog K vals' outs') l' o' ->
  same_steps is_ok l l' o o'.
Proof. exact spfss_value_steps. Qed.
Print Assumptions C77_spfss_value.

Theorem C77_spfss_index : forall (S : scalar) aes clog (vals vals' : list S) indices indices' outs outs' l l' o o', map zlen outs = map zlen outs' ->
  does (spfss_index_provider_batched S aes clog vals indices outs) l o ->
  does (spfss_index_provider_batched S aes clog vals' indices' outs') l' o' -> same_steps is_ok l l' o o'.
Proof. exact spfss_index_steps. Qed.
Print Assumptions C77_spfss_index.

(** For the same object, and so the same hash function. *)
Theorem C77_mpfss_value : forall (S : scalar) aes clog K too_many_bits e3 e2 sizes st (x x' : S) n w w' out out' l l' o o', zlen out = zlen out' ->
  does (mpfss_value_provider S aes clog K too_many_bits e3 e2 sizes st x n w out) l o ->
  does (mpfss_value_provider S aes clog K too_many_bits e3 e2 sizes st x' n w' out') l' o' -> same_steps (fun r => is_ok (snd r)) l l' o o'.
Proof. exact mpfss_value_steps. Qed.
Print Assumptions C77_mpfss_value.

Theorem C77_mpfss_index : forall (S : scalar) aes clog too_many_bits e3 e2 sizes st (y y' : list S) indices indices' u u' v v' out out' l l' o o',
  zlen y = zlen y' -> zlen out = zlen out' ->
  does (mpfss_index_provider S aes clog too_many_bits e3 e2 sizes st y indices u v out) l o ->
  does (mpfss_index_provider S aes clog too_many_bits e3 e2 sizes st y' indices' u' v' out') l' o' -> same_steps (fun r => is_ok (snd r)) l l' o o'.
Proof. exact mpfss_index_steps. Qed.
Print Assumptions C77_mpfss_index.

(** Successful executions make exactly the same steps. *)
Theorem C77_same : forall R (success : R -> Prop) l l' r r', same_steps success l l' (Some r) (Some r') -> success r -> success r' -> l = l'.
Proof. exact @same_steps_sizes. Qed.
Print Assumptions C77_same.

(** Two vectors of length 3, and two sets of indices. *)
Example C77_gilboa_example : let numbers := map toy_scalar in exists l r r',
  does (gilboa_vector_provider F toy_K (numbers [1; 2; 3]%N) (numbers [0; 0; 0]%N)) l (Some (Ok r)) /\
  does (gilboa_vector_provider F toy_K (numbers [900; 0; 77]%N) (numbers [0; 0; 0]%N)) l (Some (Ok r')) /\
  l = [SendsTransfers false 16] /\ map zval r <> map zval r'.
Proof.
  intro numbers.
  destruct (watch_ok (map zval) (Z.to_nat 200) (gilboa_value_provider F toy_K (toy_scalar 5) (numbers [0; 0; 0]%N)) (gilboa_vector_provider F toy_K (numbers [1; 2; 3]%N) (numbers [0; 0; 0]%N))
    (toy_tape 3) (toy_tape 4) _ _ ltac:(vm_compute; reflexivity)) as (r & H1 & H2).
  destruct (watch_ok (map zval) (Z.to_nat 200) (gilboa_value_provider F toy_K (toy_scalar 5) (numbers [0; 0; 0]%N)) (gilboa_vector_provider F toy_K (numbers [900; 0; 77]%N) (numbers [0; 0; 0]%N))
    (toy_tape 3) (toy_tape 5) _ _ ltac:(vm_compute; reflexivity)) as (r' & H3 & H4).
  eexists _, r, r'. split; [exact H1|]. split; [exact H3|]. split; [reflexivity|]. rewrite H2, H4. vm_compute. discriminate.
Qed.

Example C77_spfss_example : let numbers := map toy_scalar in let outs := [numbers [0; 0; 0; 0; 0]; numbers [0; 0; 0]]%N in exists l r r',
  does (spfss_index_provider_batched F toy_aes toy_clog (numbers [8; 9]%N) [2; 1] outs) l (Some (Ok r)) /\
  does (spfss_index_provider_batched F toy_aes toy_clog (numbers [1; 1]%N) [0; 2] outs) l (Some (Ok r')) /\
  l = [ReceivesTransfers false 5; Receives; Receives] /\ map (map zval) r <> map (map zval) r'.
Proof.
  intros numbers outs.
  destruct (watch_ok (map (map zval)) (Z.to_nat 200) (spfss_value_provider_batched F toy_aes toy_clog toy_K (numbers [8; 9]%N) outs)
    (spfss_index_provider_batched F toy_aes toy_clog (numbers [8; 9]%N) [2; 1] outs) (toy_tape 3) (toy_tape 4) _ _ ltac:(vm_compute; reflexivity)) as (r & H1 & H2).
  destruct (watch_ok (map (map zval)) (Z.to_nat 200) (spfss_value_provider_batched F toy_aes toy_clog toy_K (numbers [8; 9]%N) outs)
    (spfss_index_provider_batched F toy_aes toy_clog (numbers [1; 1]%N) [0; 2] outs) (toy_tape 3) (toy_tape 4) _ _ ltac:(vm_compute; reflexivity)) as (r' & H3 & H4).
  eexists _, r, r'. split; [exact H1|]. split; [exact H3|]. split; [reflexivity|]. rewrite H2, H4. vm_compute. discriminate.
Qed.
