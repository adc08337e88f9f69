(** Specification vocabulary for programs. *)
From Coq Require Import String List Arith ZArith Bool QArith Qcanon Lia.
From Verif Require Import Base Numpy Shapes Scalar Reorder Elementwise Reduce Along Sorting Derived History Spec.
Import ListNotations.
Open Scope nat_scope.
Open Scope list_scope.

(** the axis names are pairwise distinct, and there is one for each dimension *)
Definition named {A} (a : sarr A) : Prop := NoDup (s_axes a) /\ length (s_axes a) = length (nshape (s_nd a)).

(** the calls that check the names or cannot change them.  The others are: an
    ndarray with dimensions handed to [from_scalar_array], a reduction into an [out]
    that holds a Python number, and [copyto] when numpy raises a TypeError. *)
Definition checked {V} (c : @call V) : Prop :=
  match c with
  | FromScalar (inr n) => nshape n = []
  | ReduceNumber _ _ _ _ _ _ _ => False
  | CopyTo accepted _ _ _ => accepted = true
  | _ => True
  end.
