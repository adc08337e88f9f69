(** Specification of arguments of uncertain operations. *)
From Coq Require Import String List Arith ZArith Bool.
From Verif Require Import Base Numpy Shapes Scalar Elementwise Uncertain Spec SpecUncertain.
Import ListNotations.
Open Scope nat_scope.
Open Scope list_scope.

(** a certain argument does not have the axis of the samples *)
Definition sample_free {A} (x : uop A) : Prop :=
  match x with Certain o => ~ In axis_distribution (dkeys (op_shape o)) | Uncertain _ => True end.

(** the two parts of [x] fit into the two parts of [y] *)
Definition u_fits {A B} (x : uop A) (y : uop B) : Prop :=
  fits_in (op_shape (nominal_of x)) (op_shape (nominal_of y)) /\
  fits_in (op_shape (distribution_of x)) (op_shape (distribution_of y)).
