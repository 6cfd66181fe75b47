(** Specification vocabulary: parties that divide the same request differently. *)
From Verif Require Import Base ScalarModel ProcModel CuckooModel MpfssModel MpfssSpec VoleModel VoleSpec SplitSpec.
From Coq Require Import Permutation.
Local Open Scope Z_scope.

(** The user stops at the first error. *)
Definition stop : status -> bool := fun _ => false.

(** A precomputation and Run calls of the sizes [ns]. *)
Definition divided {S : scalar} (sends : bool) b (d : option S) (ns : list Z) : list (bool * call S) :=
  (sends, Precompute b d) :: map (fun n => (sends, Run n)) ns.

Definition total (ns : list Z) : Z := fold_right Z.add 0 ns.

(** The order of the elements [ls] of Run calls of the sizes [ns] as in the answer
    to one call, if at first [cache] elements are left of an earlier batch. *)
Fixpoint arrange {A} (cache batch : Z) (ns : list Z) (ls : list (list A)) : list A :=
  match ns, ls with
  | n :: ns, l :: ls => splice (last_part n cache batch) (Z.min (total ns) (left_over n cache batch)) l (arrange (left_over n cache batch) batch ns ls)
  | _, _ => []
  end.

(** [gathered cache batch ns xs x]: the answers [xs] have the lengths [ns] and
    together exactly the elements of [x], which has them in the order of [arrange]. *)
Definition gathered {S : scalar} (cache batch : Z) (ns : list Z) (xs : list (answer S)) (x : answer S) : Prop :=
  match x with
  | Precomputed => False
  | Sender u v => exists l, xs = map (fun '(u, v) => Sender u v) l /\ Forall2 (fun n '(u, v) => zlen u = n /\ zlen v = n) ns l /\
      zlen u = zlen v /\ Permutation (combine u v) (List.concat (map (fun '(u, v) => combine u v) l)) /\
      u = arrange cache batch ns (map fst l) /\ v = arrange cache batch ns (map snd l)
  | Receiver w d => exists l, xs = map (fun w => Receiver w d) l /\ Forall2 (fun n w => zlen w = n) ns l /\ Permutation w (List.concat l) /\
      w = arrange cache batch ns l
  end.

(** How a session ends in which the first party sends and makes Run calls of the
    sizes [ns], the second of the sizes [ms], with batches of [batch] elements: all
    messages were read, and all calls succeeded with elements such that
    w = u delta + v after both parties have brought them into the order of one
    call, or a random generator was used up, or the sender failed alone and the
    receiver waits for it. *)
Definition divided_end {S : scalar} (batch : Z) (ns ms : list Z)
    (c : config S (res (list (res (answer S)))) (res (list (res (answer S))))) : Prop :=
  c_ab c = [] /\ c_ba c = [] /\
  ((exists xs ys u v w delta, c_a c = Ret (Ok (Ok Precomputed :: map Ok xs)) /\ c_b c = Ret (Ok (Ok Precomputed :: map Ok ys)) /\
      gathered 0 batch ns xs (Sender u v) /\ gathered 0 batch ms ys (Receiver w delta) /\ vole_correlation S delta u v w) \/
   (exists la lb x, c_a c = Ret (Ok (la ++ [UB x])) /\ c_b c = Ret (Ok (lb ++ [UB x])) /\ In x rng_ub) \/
   (exists la r, c_a c = Ret (Ok (la ++ [r])) /\ (r = Err insertion_failed \/ exists x, r = UB x /\ In x alone_ub) /\ waiting (c_b c))).
