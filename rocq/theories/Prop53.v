(** C53: partition acts on the lines along the named axis. *)
From Coq Require Import String List Arith ZArith Bool Lia Permutation Sorted.
From Verif Require Import Base Numpy Shapes Scalar Reorder Elementwise Reduce Along Sorting Spec SortingFacts.
Import ListNotations.
Open Scope nat_scope.
Open Scope list_scope.

Theorem C53_partition :
  forall (A : Type) (part1 : list A -> list A) (kth : list Z) (a : sarr A) (axis : string),
  wf a -> (forall x, length (part1 x) = length x) ->
  let ok := In axis (s_axes a) /\ Forall (in_range (size_of (sshape a) axis)) kth in
  (ok -> exists r, na_partition part1 kth a axis = Ok r /\ wf r /\ sshape r = sshape a /\
     forall e, line r axis e = part1 (line a axis e)) /\
  (~ ok -> na_partition part1 kth a axis = Err ValueError).
Proof. exact @partition_spec. Qed.
Print Assumptions C53_partition.

(** When [part1] partitions a line at [k], every element before the position [k]
    of the named axis is at most the element at [k] and every element after it is
    at least that element, and the line is a permutation of the original one. *)
Theorem C53_partitioned :
  forall (A : Type) (le : A -> A -> Prop) (part1 : list A -> list A) (k : nat) (a : sarr A) (axis : string),
  wf a -> In axis (s_axes a) -> k < size_of (sshape a) axis ->
  (forall x, Permutation x (part1 x) /\
     forall i y z, nth_error (part1 x) i = Some y -> nth_error (part1 x) k = Some z ->
       (i < k -> le y z) /\ (k < i -> le z y)) ->
  exists r, na_partition part1 [Z.of_nat k] a axis = Ok r /\ wf r /\ sshape r = sshape a /\
    forall e, inside e (sshape a) ->
      Permutation (line a axis e) (line r axis e) /\
      (e axis < k -> le (at_ r e) (at_ r (set_env e axis k))) /\
      (k < e axis -> le (at_ r (set_env e axis k)) (at_ r e)).
Proof. exact @partition_partitions. Qed.
Print Assumptions C53_partitioned.

Open Scope string_scope.

Definition ex_a : sarr nat := mkS (of_list 0 [2; 3; 2] [5; 1; 1; 4; 7; 1;  9; 9; 8; 2; 2; 8]) ["x"; "y"; "z"].

(** a partition at 1 that is not a sort *)
Definition part1 (l : list nat) : list nat :=
  match sort_nat l with x :: y :: l' => x :: y :: rev l' | l' => l' end.

Example C53_example :
  exists r, na_partition part1 [1%Z] ex_a "y" = Ok r /\ sshape r = [("x", 2); ("y", 3); ("z", 2)] /\
    ravel (s_nd r) = [1; 1; 5; 1; 7; 4; 2; 2; 8; 8; 9; 9].
Proof. eexists; repeat split. Qed.

Example C53_example_refused : na_partition part1 [3%Z] ex_a "y" = Err ValueError /\ na_partition part1 [0%Z] ex_a "w" = Err ValueError.
Proof. split; reflexivity. Qed.

Example C53_example_hypothesis : forall x, Permutation x (sort_nat x) /\
     forall i y z, nth_error (sort_nat x) i = Some y -> nth_error (sort_nat x) 1 = Some z ->
       (i < 1 -> y <= z) /\ (1 < i -> z <= y).
Proof. exact (sort_nat_partitions 1). Qed.
