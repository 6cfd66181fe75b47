(** Executions in which the steps of a party are recorded. *)
From Verif Require Import Base ScalarModel ProcModel MpfssModel CuckooModel VoleModel VoleSpec VoleHistory VoleToy PatternSpec.
Local Open Scope Z_scope.

(** Run both parties and record the steps of the second one. *)
Fixpoint watch {T RA RB} (fuel : nat) (pa : proc T RA) (ta : tape T) (pb : proc T RB) (tb : tape T) (ab ba : list (msg T))
  : option (list action * RB) :=
  match fuel with
  | O => None
  | S fuel =>
      match pstep pa ta ba ab with
      | Some (pa', ta', ba', ab') => watch fuel pa' ta' pb tb ab' ba'
      | None =>
          match pstep pb tb ab ba with
          | Some (pb', tb', ab', ba') =>
              match watch fuel pa ta pb' tb' ab' ba' with
              | Some (l, r) =>
                  Some (match pb with
                        | Send m _ => sending m :: l
                        | Recv _ => Receives :: l
                        | OtRecv cot choices _ => ReceivesTransfers cot (List.length choices) :: l
                        | _ => l
                        end, r)
              | None => None
              end
          | None => match pb with Ret r => Some ([], r) | _ => None end
          end
      end
  end.
Lemma watch_does {T RA RB} fuel : forall (pa : proc T RA) ta (pb : proc T RB) tb ab ba l r,
  watch fuel pa ta pb tb ab ba = Some (l, r) -> does pb l (Some r).
Proof.
  induction fuel as [|fuel IH]; intros pa ta pb tb ab ba l r H; cbn in H; [discriminate|].
  destruct (pstep pa ta ba ab) as [[[[pa' ta'] ba'] ab']|]; [eauto|].
  destruct (pstep pb tb ab ba) as [[[[pb' tb'] ab'] ba']|] eqn:Eb.
  - destruct (watch fuel pa ta pb' tb' ab' ba') as [[l1 r1]|] eqn:E; [|discriminate]. injection H as <- <-. apply IH in E.
    destruct pb as [x|m k|k|cot cs k|k]; cbn in Eb.
    + discriminate.
    + injection Eb as <- <- <- <-. now constructor.
    + destruct ab as [|m ab]; [discriminate|]. injection Eb as <- <- <- <-. econstructor. exact E.
    + destruct ab as [|m ab]; [discriminate|]. injection Eb as <- <- <- <-. econstructor. exact E.
    + injection Eb as <- <- <- <-. econstructor. exact E.
  - destruct pb; try discriminate. injection H as <- <-. constructor.
Qed.

(** A receiver and its sender with the hash seed 3. *)
Definition toy_object id : vole F := vole_new F (toy_machine id (1 - id)) (mpfss_new (Hasher 3 3)).
Lemma toy_object_created : created F (toy_machine 1 0) (toy_object 1).
Proof.
  unfold created, vole_create, mpfss_create, sync. cbn [pbindr pbind].
  do 3 (apply possible_send; apply (possible_recv _ MSync)).
  apply (possible_recv _ (MBlocks [3%N])). apply possible_ret.
Qed.
Definition toy_watch (k : N) (delta : F) :=
  watch (Z.to_nat 5000) (calls F (toy_setting toy_K) (toy_machine 0 1) (fun _ => false) [(true, Precompute 2 None); (true, Run 3)] (toy_object 0)) (toy_tape 7)
    (calls F (toy_setting toy_K) (toy_machine 1 0) (fun _ => false) [(false, Precompute 2 (Some delta)); (false, Run 3)] (toy_object 1)) (toy_tape k) [] [].
Lemma toy_watch_does k delta l sr :
  match toy_watch k delta with Some (l, rs) => Some (l, map (rmap show_answer) rs) | None => None end = Some (l, sr) ->
  exists rs, does (calls F (toy_setting toy_K) (toy_machine 1 0) (fun _ => false) [(false, Precompute 2 (Some delta)); (false, Run 3)] (toy_object 1)) l (Some rs) /\
    map (rmap show_answer) rs = sr.
Proof.
  unfold toy_watch. match goal with |- context [watch ?n ?a ?b ?c ?d ?e ?f] => destruct (watch n a b c d e f) as [[l1 rs]|] eqn:E end; [|discriminate].
  intro H. injection H as <- <-. apply watch_does in E. eauto.
Qed.

(** Single protocols. *)
Lemma watch_ok {A B} (f : A -> B) fuel (pa pb : proc F (res A)) ta tb l b :
  match watch fuel pa ta pb tb [] [] with Some (l, Ok r) => Some (l, f r) | _ => None end = Some (l, b) ->
  exists r, does pb l (Some (Ok r)) /\ f r = b.
Proof.
  destruct (watch fuel pa ta pb tb [] []) as [[l1 [r|?|?]]|] eqn:E; try discriminate. intro H. injection H as <- <-. apply watch_does in E. eauto.
Qed.
