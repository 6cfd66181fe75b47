(** Specification vocabulary: role changes in a session. *)
From Verif Require Import Base ScalarModel VoleModel VoleSpec CostSpec.
Local Open Scope Z_scope.

(** [at_level]: the level at which the seeds of each role of the first party
    were precomputed ([true]: sender), if any. *)
Definition set_level (at_level : bool -> option Z) (sends : bool) (j : Z) : bool -> option Z :=
  fun s => if Bool.eqb s sends then Some j else at_level s.

(** Calls with positive sizes in which the parties change roles only as follows.
    A Precompute, and the first Run in a role, leads to a level ([final_level]),
    which is then the level of the code generator ([now]). Every other Run finds
    a code generator for as many seeds as its role has: the levels have the same
    number of seeds. *)
Fixpoint roles_fit {S : scalar} (E : setting) (at_level : bool -> option Z) (now : Z) (l : list (bool * call S)) : Prop :=
  match l with
  | [] => True
  | (sends, Precompute n _) :: l => 1 <= n /\ exists j, final_level E n j /\ roles_fit E (set_level at_level sends j) j l
  | (sends, Run n) :: l => 1 <= n /\
      match at_level sends with
      | Some i => level_seed E i = level_seed E now /\ roles_fit E at_level now l
      | None => exists j, final_level E n j /\ roles_fit E (set_level at_level sends j) j l
      end
  end.
