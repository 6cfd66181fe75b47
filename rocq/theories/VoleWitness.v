(** Executed sessions in which calls fail. *)
From Verif Require Import Base BaseFacts ListFacts ScalarModel ScalarSpec ScalarProofs ProcModel ProcSpec ProcProofs RotModel RotSpec SpfssModel
  GilboaModel GilboaSpec RngModel CuckooModel CuckooSpec MpfssModel MpfssSpec VoleModel VoleSpec VoleMeet VoleSolo VoleHistory VoleToy VoleFail.
From Coq Require Import QArith Permutation.
Local Open Scope Z_scope.

(** ** Sessions in which the first party can remain stuck *)
Fixpoint exec_second {T RA RB} (fuel : nat) (pa : proc T RA) (ta : tape T) (pb : proc T RB) (tb : tape T)
    (ab ba : list (msg T)) : option RB :=
  match fuel with
  | O => None
  | Datatypes.S fuel =>
      match pstep pa ta ba ab with
      | Some (pa, ta, ba, ab) => exec_second fuel pa ta pb tb ab ba
      | None =>
          match pstep pb tb ab ba with
          | Some (pb, tb, ab, ba) => exec_second fuel pa ta pb tb ab ba
          | None => match pb with Ret b => Some b | _ => None end
          end
      end
  end.
Lemma exec_second_steps {T RA RB} fuel : forall (pa : proc T RA) ta (pb : proc T RB) tb ab ba b,
  exec_second fuel pa ta pb tb ab ba = Some b -> exists n d, steps n (Config pa ta pb tb ab ba) d /\ c_b d = Ret b.
Proof.
  induction fuel as [|fuel IH]; intros pa ta pb tb ab ba b H; cbn in H; [discriminate|].
  destruct (pstep pa ta ba ab) as [[[[pa' ta'] ba'] ab']|] eqn:Ea.
  - apply IH in H. destruct H as (n & d & H & H1). exists (Datatypes.S n), d. split; [|exact H1]. econstructor; [|exact H]. now constructor.
  - destruct (pstep pb tb ab ba) as [[[[pb' tb'] ab'] ba']|] eqn:Eb.
    + apply IH in H. destruct H as (n & d & H & H1). exists (Datatypes.S n), d. split; [|exact H1]. econstructor; [|exact H]. now constructor.
    + destruct pb; try discriminate. injection H as <-. eexists 0%nat, _. split; [constructor|]. auto.
Qed.

(** ** Uninitialised elements *)
Definition junk_machine junk : machine F := Machine F 1 0 (fun n => [n]) toy_uniform 100 (fun _ l => l) junk.
Lemma junk_machine_good junk : good_machine F (junk_machine junk).
Proof. destruct (toy_machine_good 1 0) as [H1 H2 H3]. constructor; [exact H1|exact H2|exact H3]. Qed.
(** So high that 230 elements can be sampled, but not 252. *)
Definition mid_K := inject_Z (2^128 / (230 * (2^128 mod 1009))).
Definition junk_calls : list (bool * call F) :=
  [(true, Precompute 2 (Some (toy_scalar 3))); (true, Precompute 8 (Some (toy_scalar 4))); (true, Run 7)].
Definition too_insecure : status :=
  invalid_argument "Cannot sample enough random elements for the code generator with the given statistical security".

Lemma exec_junk fuel (pa pb : proc F (res (list (res (answer F))))) ta tb e2 e3 (l : list F) d :
  match exec_second fuel pa ta pb tb [] [] with
  | Some (Ok [Ok Precomputed; Err e; Err e'; Ok (Receiver w d')]) => Some (e, e', w, zval d')
  | _ => None
  end = Some (e2, e3, l, zval d) ->
  exists n d', steps n (start pa ta pb tb) d' /\ c_b d' = Ret (Ok [Ok Precomputed; Err e2; Err e3; Ok (Receiver l d)]).
Proof.
  destruct (exec_second fuel pa ta pb tb [] []) as [r|] eqn:E0; [|discriminate].
  destruct r as [r|?|?]; try discriminate.
  destruct r as [|[[| |]|?|?] r]; try discriminate. destruct r as [|[?|e|?] r]; try discriminate. destruct r as [|[?|e'|?] r]; try discriminate.
  destruct r as [|[[| |w d0]|?|?] r]; try discriminate. destruct r; try discriminate.
  intro H. injection H as <- <- <- Hd. apply exec_second_steps in E0. destruct E0 as (n & d' & H1 & H2). exists n, d'. split; [exact H1|].
  rewrite H2. do 6 f_equal. f_equal. f_equal. f_equal. apply zval_inj. exact Hd.
Qed.

Lemma junk_output : forall junk : Z -> F, exists n d,
  steps n (start (party F (toy_setting mid_K) (toy_machine 0 1) (fun _ => true) junk_calls) (toy_tape 7)
                 (party F (toy_setting mid_K) (junk_machine junk) (fun _ => true) (opposite F (junk_calls ++ [(true, Run 7)]))) (toy_tape 13)) d /\
  c_b d = Ret (Ok [Ok Precomputed; Err too_insecure; Err (invalid_argument "Cannot ensure statistical security with the given modulus");
                   Ok (Receiver (map junk [7; 8; 9; 10; 11; 12; 13]) (toy_scalar 4))]).
Proof.
  intro junk. apply (exec_junk (Z.to_nat 5000)). vm_compute. reflexivity.
Qed.

(** ** One object in both roles *)
Lemma both_roles : exists sa ha a sb hb b,
  created F (toy_machine 0 1) sa /\ history F (toy_setting toy_K) (toy_machine 0 1) sa ha a /\
  created F (toy_machine 1 0) sb /\ history F (toy_setting toy_K) (toy_machine 1 0) sb hb b /\
  show ha =
  [(true, ShowPrecompute 2 (Some 3%N), Ok ShowPrecomputed); (false, ShowPrecompute 5 (Some 4%N), Ok ShowPrecomputed); (true, ShowRun 2, Err wrong_dimensions)] /\
  show hb =
  [(false, ShowPrecompute 2 (Some 3%N), Ok ShowPrecomputed); (true, ShowPrecompute 5 (Some 4%N), Ok ShowPrecomputed); (false, ShowRun 2, Err wrong_dimensions)].
Proof.
  destruct (toy_view_history (fun ha _ hb _ => (ha, hb)) toy_K [(true, Precompute 2 (Some (toy_scalar 3))); (false, Precompute 5 (Some (toy_scalar 4))); (true, Run 2)]
     _ ltac:(vm_compute; reflexivity)) as (sa & ha & a & sb & hb & b & H1 & H2 & H3 & H4 & H5).
  injection H5 as H5 H6. exists sa, ha, a, sb, hb, b. auto 10.
Qed.

(** ** A retry *)
(** As many buckets as indices, so that cuckoo hashing fails now and then. *)
Definition tight_parameters := VoleParameters [9] [2] [2] 3.
Definition tight_e (n : Z) : Z := Z.min n (2^20).
Definition tight_setting := Setting tight_parameters toy_aes toy_clog toy_K toy_too tight_e tight_e toy_uniform true.
Lemma tight_good : good_setting F tight_setting.
Proof.
  constructor; cbn [tight_setting e_parameters tight_parameters p_seed_size p_output_size p_num_noise e_expansion3 e_expansion2 e_too_many_bits e_clog e_uniform e_aes].
  - discriminate.
  - reflexivity.
  - reflexivity.
  - repeat constructor; lia.
  - repeat (constructor; [cbn; lia|]). constructor.
  - repeat (constructor; [vm_compute; split; discriminate|]). constructor.
  - change (zlen [2]) with 1. intros i Hi. assert (Hc : i = 0) by lia. subst. reflexivity.
  - change (zlen [2]) with 1. intros i Hi. lia.
  - reflexivity.
  - cbn [last]. intros N n HN [<- | []]; unfold toy_too, tight_e; lia.
  - cbn [last]. intros s Hs. split; [lia|]. unfold toy_clog. destruct (Z.le_gt_cases s 1).
    + rewrite Z.log2_up_eqn0 by lia. cbn. lia.
    + rewrite Z2Nat.id by apply Z.log2_up_nonneg. apply Z.log2_up_spec. lia.
  - intro n. unfold tight_e. lia.
  - vm_compute. discriminate.
  - reflexivity.
  - intros n g Hn _. unfold toy_uniform. destruct (rng_next toy_aes g) as [[g' [x|]]| |] eqn:Eg; try (cbn; auto; fail).
    split; [apply Z.mod_pos_bound; lia|]. econstructor; [exact Eg|constructor].
Qed.
Definition once : list (bool * call F) := [(true, Precompute 5 (Some (toy_scalar 3))); (true, Run 2); (true, Run 5)].
Definition twice : list (bool * call F) := once ++ [(true, Run 5)].

Lemma exec_retry fuel (pa pb : proc F (res (list (res (answer F))))) ta tb e0 :
  match exec fuel pa ta pb tb [] [] with
  | Some (Ok [Ok Precomputed; Ok (Sender _ _); Err e; Ok (Sender u v)], Ok [Ok Precomputed; Ok (Receiver _ _); Ok (Receiver w d)]) =>
      Some (e, (zlen u =? 5) && (zlen v =? 5) && (zlen w =? 5) && N.eqb (zval d) 3 && wrong u v w)
  | _ => None
  end = Some (e0, true) ->
  exists n d u1 v1 w1 d1 u v w, steps n (start pa ta pb tb) d /\
    c_a d = Ret (Ok [Ok Precomputed; Ok (Sender u1 v1); Err e0; Ok (Sender u v)]) /\
    c_b d = Ret (Ok [Ok Precomputed; Ok (Receiver w1 d1); Ok (Receiver w (toy_scalar 3))]) /\
    zlen u = 5 /\ zlen v = 5 /\ zlen w = 5 /\ ~ vole_correlation F (toy_scalar 3) u v w.
Proof.
  destruct (exec fuel pa ta pb tb [] []) as [[ra rb]|] eqn:E0; [|discriminate].
  destruct ra as [la|?|?]; try discriminate.
  destruct la as [|[[| |]|?|?] la]; try discriminate. destruct la as [|[[|u1 v1|]|?|?] la]; try discriminate.
  destruct la as [|[?|e|?] la]; try discriminate. destruct la as [|[[|u v|]|?|?] la]; try discriminate. destruct la; try discriminate.
  destruct rb as [lb|?|?]; try discriminate.
  destruct lb as [|[[| |]|?|?] lb]; try discriminate. destruct lb as [|[[| |w1 d1]|?|?] lb]; try discriminate.
  destruct lb as [|[[| |w d]|?|?] lb]; try discriminate. destruct lb; try discriminate.
  intro H. injection H as <- H. apply andb_prop in H. destruct H as [H Hw]. apply andb_prop in H. destruct H as [H Hd].
  apply andb_prop in H. destruct H as [H H3]. apply andb_prop in H. destruct H as [H1 H2].
  apply Z.eqb_eq in H1, H2, H3. apply N.eqb_eq in Hd.
  apply exec_steps in E0. destruct E0 as (n & cf & S1 & S2 & S3). exists n, cf, u1, v1, w1, d1, u, v, w. split; [exact S1|].
  assert (Ed : d = toy_scalar 3) by (apply zval_inj; exact Hd).
  subst d. split; [exact S2|]. split; [exact S3|]. split; [exact H1|]. split; [exact H2|]. split; [exact H3|].
  intros (_ & _ & Hc). assert (Hp : 0 <= 0 < zlen w) by (change (zlen w = 5) in H3; lia). specialize (Hc 0 Hp). unfold wrong in Hw. rewrite Hc, N.eqb_refl in Hw. discriminate.
Qed.

Lemma retry : exists n d u1 v1 w1 d1 u v w,
  steps n (start (party F tight_setting (toy_machine 0 1) (fun _ => true) twice) (toy_tape 32)
                 (party F tight_setting (toy_machine 1 0) (fun _ => true) (opposite F once)) (toy_tape 13)) d /\
  c_a d = Ret (Ok [Ok Precomputed; Ok (Sender u1 v1); Err insertion_failed; Ok (Sender u v)]) /\
  c_b d = Ret (Ok [Ok Precomputed; Ok (Receiver w1 d1); Ok (Receiver w (toy_scalar 3))]) /\
  zlen u = 5 /\ zlen v = 5 /\ zlen w = 5 /\ ~ vole_correlation F (toy_scalar 3) u v w.
Proof. apply (exec_retry (Z.to_nat 5000)). vm_compute. reflexivity. Qed.
