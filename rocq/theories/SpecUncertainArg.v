(** Specification of the positions of the extremes of uncertain scalars. *)
From Coq Require Import String List Arith ZArith Bool.
From Verif Require Import Base Numpy Shapes Scalar Elementwise Uncertain Spec SpecUncertain SpecUncertainSort.
Import ListNotations.
Open Scope nat_scope.
Open Scope list_scope.

(** there is something to pick from along the axes [l], in every world *)
Definition pickable {A} (u : unc A) (sh : shape) (l : list string) : Prop :=
  arrangeable sh l /\ (forall ax, In ax l -> ~ In (ax, 0) sh) /\ ~ In (axis_distribution, 0) (op_shape (u_distribution u)).

(** the world exists: the nominal values, or one of the samples; an array without an axis of
    samples has the same values in all of them *)
Definition exists_world {A} (u : unc A) (w : option nat) : Prop :=
  forall num, In (axis_distribution, num) (op_shape (u_distribution u)) -> world num w.

(** in the world [w], the index [d] leads from [e] to the position [p] *)
Definition leads_to (d : dict (unc Z)) (sh : shape) (w : option nat) (e p : env) : Prop :=
  forall ax, In ax (dkeys sh) -> exists v, dget d ax = Some v /\ u_at (Uncertain v) w e = Z.of_nat (p ax).
