(** Specification vocabulary for [na.interp]. *)
From Coq Require Import String List Arith Bool.
From Verif Require Import Base Numpy Shapes Scalar Spec.
Import ListNotations.
Open Scope nat_scope.
Open Scope list_scope.

(** the [n] elements of an operand along an axis, at a position of the other axes *)
Definition samples {A} (o : operand A) (ax : string) (n : nat) (e : env) : list A :=
  map (fun k => op_at o (set_env e ax k)) (seq 0 n).

(** the value of an optional operand *)
Definition opt_at {A} (o : option (operand A)) (e : env) : option A :=
  match o with Some o => Some (op_at o e) | None => None end.

Definition opt_operand_wf {A} (o : option (operand A)) : Prop := forall a, o = Some a -> op_wf a.

Definition opt_operand_shape {A} (o : option (operand A)) : list shape :=
  match o with Some o => [op_shape o] | None => [] end.
