(** Specification of percentiles of uncertain scalars. *)
From Coq Require Import String List Arith ZArith Bool.
From Verif Require Import Base Numpy Shapes Scalar Elementwise Uncertain Spec SpecUncertain SpecUncertainEqual.
Import ListNotations.
Open Scope nat_scope.
Open Scope list_scope.

(** percentiles along the axes [l] make sense in a world: the percentages have at most two axes,
    which are neither reduced nor axes of the array, and are in range *)
Definition percentages {A Q} (valid : Q -> bool) (x : uop A) (q : uop Q) (l : list string) (w : option nat) : Prop :=
  (forall ax, In ax (dkeys (op_shape (part_of q w))) -> ~ In ax (dkeys (op_shape (part_of x w))) /\ ~ In ax l) /\
  length (op_shape (part_of q w)) <= 2 /\
  forall e, inside e (op_shape (part_of q w)) -> valid (op_at (part_of q w) e) = true.
