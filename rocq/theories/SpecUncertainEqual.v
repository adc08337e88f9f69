(** What comparing two uncertain scalars means. *)
From Coq Require Import String List Arith ZArith Bool.
From Verif Require Import Base Numpy Shapes Scalar Elementwise Uncertain Spec SpecVectorReduce SpecUncertain.
Import ListNotations.
Open Scope nat_scope.
Open Scope list_scope.

(** the part of an operand that belongs to a world *)
Definition part_of {A} (x : uop A) (w : option nat) : operand A :=
  match w with Some _ => distribution_of x | None => nominal_of x end.

(** all corresponding elements are related in every world, the parts being repeated along
    the axes of each other *)
Definition u_agree {A} (R : A -> A -> Prop) (x y : uop A) : Prop :=
  forall w sh e, joint [op_shape (part_of x w); op_shape (part_of y w)] sh -> inside (in_world w e) sh ->
    R (u_at x w e) (u_at y w e).

(** the two operands have, in every world, the same labels and the same elements *)
Definition u_same {A} (x y : uop A) : Prop :=
  forall w, same_shape (op_shape (part_of x w)) (op_shape (part_of y w)) /\
    forall e, inside (in_world w e) (op_shape (part_of x w)) -> u_at x w e = u_at y w e.
