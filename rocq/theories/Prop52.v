(** C52: concatenate and stack with [out]. *)
From Coq Require Import String List Arith ZArith Bool Lia.
From Verif Require Import Base Numpy Shapes Scalar Elementwise Along Spec AlongFacts.
Import ListNotations.
Open Scope nat_scope.
Open Scope list_scope.

Theorem C52_concatenate_out :
  forall (A : Type) (arrays : list (operand A)) (axis : string) (o r : sarr A),
  Forall op_wf arrays -> wf o -> na_concatenate arrays axis None = Ok r ->
  (out_fits o r -> exists r', na_concatenate arrays axis (Some o) = Ok r' /\ wf r' /\ sshape r' = sshape o /\
           forall e, inside e (sshape r) -> at_ r' e = at_ r e) /\
  (~ out_fits o r -> na_concatenate arrays axis (Some o) = Err ValueError).
Proof. exact @concatenate_out. Qed.
Print Assumptions C52_concatenate_out.

Theorem C52_stack_out :
  forall (A : Type) (arrays : list (operand A)) (axis : string) (o r : sarr A),
  Forall op_wf arrays -> wf o -> na_stack arrays axis None = Ok r ->
  (out_fits o r -> exists r', na_stack arrays axis (Some o) = Ok r' /\ wf r' /\ sshape r' = sshape o /\
           forall e, inside e (sshape r) -> at_ r' e = at_ r e) /\
  (~ out_fits o r -> na_stack arrays axis (Some o) = Err ValueError).
Proof. exact @stack_out. Qed.
Print Assumptions C52_stack_out.

Open Scope string_scope.
Definition ex_l : list (operand Z) :=
  [OpArr (mkS (of_list 0%Z [2; 2] [1; 2; 3; 4]%Z) ["x"; "y"]); OpArr (mkS (of_list 0%Z [1] [9]%Z) ["x"])].
Definition ex_o : sarr Z := mkS (of_list 0%Z [2; 3] [0; 0; 0; 0; 0; 0]%Z) ["y"; "x"].

Example C52_example :
  (exists r, na_concatenate ex_l "x" (Some ex_o) = Ok r /\
     sshape r = [("y", 2); ("x", 3)] /\ ravel (s_nd r) = [1; 3; 9; 2; 4; 9]%Z) /\
  na_concatenate ex_l "x" (Some (mkS (of_list 0%Z [3; 2] [0; 0; 0; 0; 0; 0]%Z) ["y"; "x"])) = Err ValueError /\
  (exists r, na_stack [OpNum 1%Z; OpArr (mkS (of_list 0%Z [2] [5; 6]%Z) ["y"]); OpNum 3%Z] "x" (Some ex_o) = Ok r /\
     sshape r = [("y", 2); ("x", 3)] /\ ravel (s_nd r) = [1; 5; 3; 1; 6; 3]%Z).
Proof. split; [eexists; repeat split|split; [reflexivity|eexists; repeat split]]. Qed.
