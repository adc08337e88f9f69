(** C02: elementwise operations pair elements by axis name. *)
From Coq Require Import String List Arith ZArith Bool Lia.
From Verif Require Import Base Numpy Shapes Scalar Spec AlignFacts.
Import ListNotations.
Open Scope nat_scope.
Open Scope list_scope.

(** The call fails exactly when the shapes of the operands cannot be
    broadcasted; otherwise the result has the broadcasted shape and its element
    at a labelled index is the function of the operands' elements there. *)
Theorem C02_ufunc_by_name :
  forall (A B : Type) (f : list A -> B) (inputs : list (operand A)),
  Forall op_wf inputs ->
  match broadcast_shapes (op_shapes inputs) with
  | Ok sh =>
      exists r, array_ufunc f inputs = Ok r /\ wf r /\ sshape r = sh /\
        forall e, at_ r e = f (map (fun o => op_at o e) inputs)
  | Err _ => array_ufunc f inputs = Err ValueError
  end.
Proof.
  intros A B f l W. fold (shape_broadcasted l). destruct (shape_broadcasted l) eqn:E.
  - now apply array_ufunc_ok.
  - destruct (array_ufunc f l) eqn:R.
    + unfold array_ufunc in R. rewrite E in R. discriminate.
    + apply array_ufunc_err in R as [? ->]; auto.
Qed.
Print Assumptions C02_ufunc_by_name.

Open Scope string_scope.
Definition ex_a := mkS (of_list 0%Z [2; 3] [1; 2; 3; 4; 5; 6]%Z) ["x"; "y"].
Definition ex_b := mkS (of_list 0%Z [3; 1; 2] [10; 20; 30; 40; 50; 60]%Z) ["y"; "w"; "x"].

Example C02_example :
  exists r, array_ufunc (fun l => fold_right Z.add 0%Z l) [OpArr ex_a; OpNum 1000%Z; OpArr ex_b] = Ok r
    /\ sshape r = [("x", 2); ("y", 3); ("w", 1)]
    /\ ravel (s_nd r) = [1011; 1032; 1053; 1024; 1045; 1066]%Z.
Proof. eexists; repeat split. Qed.

Example C02_example_fail :
  array_ufunc (fun l => fold_right Z.add 0%Z l)
    [OpArr ex_a; OpArr (mkS (of_list 0%Z [3] [1; 2; 3]%Z) ["x"])] = Err ValueError.
Proof. reflexivity. Qed.
