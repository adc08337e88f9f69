(** C03: the storage order of axes is unobservable in elementwise operations. *)
From Coq Require Import String List Arith ZArith Bool Lia.
From Verif Require Import Base Numpy Shapes Scalar Spec AlignFacts.
Import ListNotations.
Open Scope nat_scope.
Open Scope list_scope.

(** Replacing operands by operands with the same labelled content (axes stored
    in any order) gives the same labelled result, or the same failure. *)
Theorem C03_storage_order :
  forall (A B : Type) (f : list A -> B) (l l' : list (operand A)),
  Forall op_wf l -> Forall op_wf l' -> Forall2 same_operand l l' ->
  same_result (array_ufunc f l) (array_ufunc f l').
Proof. exact @array_ufunc_same. Qed.
Print Assumptions C03_storage_order.

Open Scope string_scope.
Definition ex_a := mkS (of_list 0%Z [2; 3] [1; 2; 3; 4; 5; 6]%Z) ["x"; "y"].
Definition ex_at := mkS (of_list 0%Z [3; 2] [1; 4; 2; 5; 3; 6]%Z) ["y"; "x"].

Example C03_same : same_array ex_a ex_at.
Proof.
  split.
  - intros ax n. simpl. tauto.
  - intros e H. unfold at_, ex_a, ex_at. simpl.
    assert (H1 := H "x" 2 (or_introl eq_refl)).
    assert (H2 := H "y" 3 (or_intror (or_introl eq_refl))).
    destruct (e "x") as [|[|x]], (e "y") as [|[|[|y]]]; try lia; reflexivity.
Qed.

Example C03_example :
  exists r r',
    array_ufunc (fun l => nth 0 l 0%Z - nth 1 l 0%Z)%Z
      [OpArr ex_a; OpArr (mkS (of_list 0%Z [3] [1; 2; 3]%Z) ["y"])] = Ok r /\
    array_ufunc (fun l => nth 0 l 0%Z - nth 1 l 0%Z)%Z
      [OpArr ex_at; OpArr (mkS (of_list 0%Z [3] [1; 2; 3]%Z) ["y"])] = Ok r' /\
    sshape r = [("x", 2); ("y", 3)] /\ sshape r' = [("y", 3); ("x", 2)] /\
    ravel (s_nd r) = [0; 0; 0; 3; 3; 3]%Z /\ ravel (s_nd r') = [0; 3; 0; 3; 0; 3]%Z.
Proof. do 2 eexists; repeat split. Qed.
