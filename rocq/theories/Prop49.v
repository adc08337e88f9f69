(** C49: reductions into an existing array ([out]). *)
From Coq Require Import String List Arith ZArith Bool Lia Permutation.
From Verif Require Import Base Numpy Shapes Scalar Reduce Spec ReduceFacts.
Import ListNotations.
Open Scope nat_scope.
Open Scope list_scope.

(** If [out] has the named shape of the result, stored in any order, it receives
    the labelled elements of the result; if its sizes differ it is refused. *)
Theorem C49_reduce_out_partial :
  forall (A B : Type) (identity : bool) (f : list A -> B) (a : sarr A)
         (axis : option (list string)) (keepdims : bool) (w : option (operand bool)) (r o : sarr B),
  wf a -> (forall m, w = Some m -> op_wf m) -> symmetric f -> wf o ->
  na_reduce identity f a axis keepdims w None = Ok r ->
  (forall ax, In ax (s_axes o) <-> In ax (s_axes r)) ->
  (same_shape (sshape o) (sshape r) ->
   exists r', na_reduce identity f a axis keepdims w (Some o) = Ok r' /\
              wf r' /\ sshape r' = sshape o /\ forall e, at_ r' e = at_ r e) /\
  (~ same_shape (sshape o) (sshape r) ->
   na_reduce identity f a axis keepdims w (Some o) = Err ValueError).
Proof. exact @reduce_out. Qed.
Print Assumptions C49_reduce_out_partial.

Open Scope string_scope.
Definition ex_a : sarr Z := mkS (of_list 0%Z [2; 3; 2] [1; 2; 3; 4; 5; 6; 10; 20; 30; 40; 50; 60]%Z) ["x"; "y"; "z"].
Definition sum := fold_right Z.add 0%Z.

Example C49_example :
  exists r, na_reduce true sum ex_a (Some ["y"]) false None
              (Some (mkS (of_list 0%Z [2; 2] [7; 7; 7; 7]%Z) ["z"; "x"])) = Ok r /\
    sshape r = [("z", 2); ("x", 2)] /\ ravel (s_nd r) = [9; 90; 12; 120]%Z.
Proof. eexists; repeat split. Qed.

Example C49_example_size :
  na_reduce true sum ex_a (Some ["y"]) false None
    (Some (mkS (of_list 0%Z [3; 2] [7; 7; 7; 7; 7; 7]%Z) ["z"; "x"])) = Err ValueError.
Proof. reflexivity. Qed.

(** An [out] array with a name that the result does not have is accepted when
    the sizes agree: the sums along x, which run over y, are stored under the
    name x. *)
Theorem C49_reduce_out_refuted :
  exists (a o r r' : sarr Z), wf a /\ wf o /\
    na_reduce true (fold_right Z.add 0%Z) a (Some ["x"]) false None None = Ok r /\
    s_axes r = ["y"] /\ s_axes o = ["x"] /\
    na_reduce true (fold_right Z.add 0%Z) a (Some ["x"]) false None (Some o) = Ok r' /\
    s_axes r' = ["x"] /\ ravel (s_nd r') = ravel (s_nd r) /\ ~ same_shape (sshape r') (sshape r).
Proof.
  exists (mkS (of_list 0%Z [2; 2] [1; 2; 3; 4]%Z) ["x"; "y"]), (mkS (of_list 0%Z [2] [0; 0]%Z) ["x"]).
  do 2 eexists.
  split; [split; [repeat constructor; simpl; intuition discriminate|reflexivity]|].
  split; [split; [repeat constructor; simpl; intuition discriminate|reflexivity]|].
  repeat split. intros H. destruct (proj1 (H "x" 2) (or_introl eq_refl)) as [E|[]]. discriminate.
Qed.
Print Assumptions C49_reduce_out_refuted.
