(** C22: ndindex visits every index exactly once, in row-major order. *)
From Coq Require Import String List Arith ZArith Bool Lia Sorted.
From Verif Require Import Base Numpy Shapes Scalar Reorder Spec ReorderFacts.
Import ListNotations.
Open Scope nat_scope.
Open Scope list_scope.

Theorem C22_ndindex :
  forall (s : shape) (ign : list string),
  NoDup (dkeys s) ->
  let ks := filter (fun ax => negb (smem ax ign)) (dkeys s) in
  let l := na_ndindex s ign in
  (forall d, In d l <-> dkeys d = ks /\ forall ax i, In (ax, i) d -> exists n, In (ax, n) s /\ i < n) /\
  StronglySorted (fun d1 d2 => lex_lt (dvals d1) (dvals d2)) l /\
  length l = total_size s ks.
Proof. exact na_ndindex_spec. Qed.
Print Assumptions C22_ndindex.

Open Scope string_scope.
Example C22_example :
  NoDup (dkeys [("x", 2); ("y", 5); ("z", 2)]) /\
  na_ndindex [("x", 2); ("y", 5); ("z", 2)] ["y"; "w"] =
  [[("x", 0); ("z", 0)]; [("x", 0); ("z", 1)]; [("x", 1); ("z", 0)]; [("x", 1); ("z", 1)]].
Proof. split; [repeat constructor; simpl; intuition discriminate|reflexivity]. Qed.

Example C22_example_empty : na_ndindex [("x", 2); ("y", 0)] [] = [].
Proof. reflexivity. Qed.
