(** Specification of the elements of uncertain scalars that are not zero. *)
From Coq Require Import String List Arith ZArith Bool Sorted.
From Verif Require Import Base Numpy Shapes Scalar Elementwise Uncertain Spec SpecUncertain SpecUncertainSort.
Import ListNotations.
Open Scope nat_scope.
Open Scope list_scope.

(** a product is zero exactly if one of the factors is *)
Definition no_zero_divisors {A} (truth : A -> bool) (mul prod : list A -> A) : Prop :=
  (forall x y, truth (mul [x; y]) = true <-> truth x = true /\ truth y = true) /\
  forall l, truth (prod l) = true <-> forall x, In x l -> truth x = true.

(** the element at [e] is not zero, in every world *)
Definition never_zero {A} (truth : A -> bool) (u : unc A) (num : nat) (e : env) : Prop :=
  forall w, world num w -> truth (u_at (Uncertain u) w e) = true.

(** [l] lists the positions of the elements that are never zero, in row-major order of the axes [axes] *)
Definition never_zeros {A} (truth : A -> bool) (u : unc A) (num : nat) (sh : shape) (axes : list string) (l : list (list nat)) : Prop :=
  StronglySorted lex_lt l /\ forall idx, In idx l <-> exists e, inside e sh /\ never_zero truth u num e /\ idx = map e axes.
