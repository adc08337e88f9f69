(** C18: [np.take_along_axis] gathers within each line. *)
From Coq Require Import String List Arith ZArith Bool Lia.
From Verif Require Import Base Numpy Shapes Scalar Elementwise Along Spec AlongFacts.
Import ListNotations.
Open Scope nat_scope.
Open Scope list_scope.

Theorem C18_take_along_axis :
  forall (A : Type) (arr : operand A) (indices : operand Z) (axis : string),
  op_wf arr -> op_wf indices ->
  let a := normalize arr in
  let i := normalize indices in
  let without (sh : shape) := filter (fun kv => negb (String.eqb (fst kv) axis)) sh in
  let n := size_of (sshape a) axis in
  (~ In axis (s_axes a) -> na_take_along_axis arr indices axis = Err ValueError) /\
  (In axis (s_axes a) ->
   match broadcast_shapes [without (sshape a); without (sshape i)] with
   | Err _ => na_take_along_axis arr indices axis = Err ValueError
   | Ok sh =>
       ((forall e, inside e (sshape i) -> in_range n (at_ i e)) ->
        exists r, na_take_along_axis arr indices axis = Ok r /\ wf r /\
          sshape r = (axis, size_of (sshape i) axis) :: sh /\
          forall e, inside e (sshape r) ->
            exists p, index_is n (bat i e) p /\ at_ r e = bat a (set_env e axis p)) /\
       (~ (forall e, inside e (sshape i) -> in_range n (at_ i e)) ->
        na_take_along_axis arr indices axis = Err IndexError)
   end).
Proof. exact @take_along_axis_spec. Qed.
Print Assumptions C18_take_along_axis.

Open Scope string_scope.
Definition ex_a : sarr Z := mkS (of_list 0%Z [2; 3] [1; 2; 3; 4; 5; 6]%Z) ["x"; "y"].
(** the indices are stored in the other order, have another axis and one of them
    counts from the end *)
Definition ex_i : sarr Z := mkS (of_list 0%Z [2; 2; 2] [0; -1; 1; 1; 2; 0; 0; 2]%Z) ["y"; "z"; "x"].

Example C18_example :
  exists r, na_take_along_axis (OpArr ex_a) (OpArr ex_i) "y" = Ok r /\
    sshape r = [("y", 2); ("x", 2); ("z", 2)] /\ ravel (s_nd r) = [1; 2; 6; 5; 3; 1; 4; 6]%Z.
Proof. eexists. repeat split. Qed.

Example C18_example_range :
  na_take_along_axis (OpArr ex_a) (OpNum 3%Z) "y" = Err IndexError /\
  na_take_along_axis (OpArr ex_a) (OpArr ex_i) "x" = Err ValueError /\
  na_take_along_axis (OpArr ex_a) (OpArr ex_i) "z" = Err ValueError.
Proof. repeat split; reflexivity. Qed.
