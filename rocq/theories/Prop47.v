(** C47: array_equiv compares labelled contents up to broadcasting. *)
From Coq Require Import String List Arith ZArith Bool Lia Sorted.
From Verif Require Import Base Numpy Shapes Scalar Reorder Spec ReorderFacts.
Import ListNotations.
Open Scope nat_scope.
Open Scope list_scope.

Theorem C47_array_equiv :
  forall (A : Type) (eqb : A -> A -> bool) (a b : sarr A),
  (forall x y, eqb x y = true <-> x = y) -> wf a -> wf b ->
  match broadcast_shapes [sshape a; sshape b] with
  | Err _ => na_array_equiv eqb a b = Err ValueError
  | Ok sh => exists v, na_array_equiv eqb a b = Ok v /\
      (v = true <-> forall e, inside e sh -> bat a e = bat b e)
  end.
Proof. exact @array_equiv_spec. Qed.
Print Assumptions C47_array_equiv.

Open Scope string_scope.
Definition ex_a : sarr Z := mkS (of_list 0%Z [2; 3] [0; 1; 2; 0; 1; 2]%Z) ["x"; "y"].
Definition ex_b : sarr Z := mkS (of_list 0%Z [3; 1] [0; 1; 2]%Z) ["y"; "x"].

Example C47_example : na_array_equiv Z.eqb ex_a ex_b = Ok true.
Proof. reflexivity. Qed.
Example C47_example_differ :
  na_array_equiv Z.eqb ex_a (mkS (of_list 0%Z [3; 1] [0; 1; 3]%Z) ["y"; "x"]) = Ok false.
Proof. reflexivity. Qed.
Example C47_example_fail :
  na_array_equiv Z.eqb ex_a (mkS (of_list 0%Z [3; 1] [0; 1; 3]%Z) ["x"; "y"]) = Err ValueError.
Proof. reflexivity. Qed.
