(** Specification of joining uncertain arrays. *)
From Coq Require Import String List Arith ZArith Bool.
From Verif Require Import Base Numpy Shapes Scalar Elementwise Uncertain Spec SpecUncertain SpecUncertainAlong SpecUncertainChoice.
Import ListNotations.
Open Scope nat_scope.
Open Scope list_scope.

(** the shape of an argument, which does not count the axis of the samples *)
Definition has_shape {A} (x : uop A) (sh : shape) : Prop :=
  match x with Uncertain u => u_shape u = Ok sh | Certain o => op_shape o = sh end.

(** an argument together with its shape *)
Definition joinable {A} (p : uop A * shape) : Prop :=
  uop_wf (fst p) /\ sample_free (fst p) /\ has_shape (fst p) (snd p).

(** the shape in a world: with the axis of the samples, if there are any, in the worlds of the samples *)
Definition full_shape {A} (w : option nat) (p : uop A * shape) : shape :=
  match w with
  | None => snd p
  | Some _ => snd p ++ samples (mkU (nominal_of (fst p)) (distribution_of (fst p)))
  end.
