(** What it means to take elements of uncertain scalars along an axis. *)
From Coq Require Import String List Arith ZArith Bool.
From Verif Require Import Base Numpy Shapes Scalar Elementwise Uncertain Spec SpecVectorReduce SpecUncertain SpecUncertainAlong SpecUncertainEqual SpecUncertainJoin.
Import ListNotations.
Open Scope nat_scope.
Open Scope list_scope.

(** the other axes of an array *)
Definition beside (axis : string) (sh : shape) : shape := filter (fun kv => negb (String.eqb (fst kv) axis)) sh.

(** the other axes of the two arguments in a world: the nominal values keep their own axes, the
    distribution has all axes of the array *)
Definition sides {A} (x : uop A) (sh : shape) (i : uop Z) (axis : string) (w : option nat) : list shape :=
  [beside axis (match w with Some _ => full_shape w (x, sh) | None => op_shape (nominal_of x) end);
   beside axis (op_shape (part_of i w))].

(** all positions exist in a world *)
Definition positions (num : nat) (i : uop Z) (w : option nat) : Prop :=
  forall e, inside e (op_shape (part_of i w)) -> in_range num (op_at (part_of i w) e).

(** why the part of a world is refused *)
Definition refused {A} (x : uop A) (sh : shape) (num : nat) (i : uop Z) (axis : string) (w : option nat) (er : err) : Prop :=
  (er = ValueError /\ conflict (sides x sh i axis w)) \/
  (er = IndexError /\ ~ conflict (sides x sh i axis w) /\ ~ positions num i w).
