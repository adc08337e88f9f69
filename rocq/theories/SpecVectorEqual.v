(** What comparing two vectors means. *)
From Coq Require Import String List Arith ZArith Bool Lia.
From Verif Require Import Base Numpy Shapes Scalar Vector Spec SpecVector SpecVectorReduce.
Import ListNotations.
Open Scope nat_scope.
Open Scope list_scope.

(** the type of the vector at the end of a path *)
Definition type_at {L} (t : tree L) (p : list string) : option string := option_map fst (kind t p).

(** vectors of the same types, whose scalars are at the same places and related by [P] *)
Definition same_vectors {A} (P : operand A -> operand A -> Prop) (u w : vec A) : Prop :=
  (forall p, type_at u p = type_at w p) /\
  forall p, match leaf_at u p, leaf_at w p with
            | Some x, Some y => P x y
            | None, None => True
            | _, _ => False
            end.

(** at each place the type decides the names of the components *)
Definition named_by_type {L M} (t : tree L) (u : tree M) : Prop :=
  forall p ty names names', kind t p = Some (ty, names) -> kind u p = Some (ty, names') ->
    forall c, In c names <-> In c names'.

(** nowhere is a scalar of [u] compared with a vector of [w], or a vector of [u] with a
    plain number *)
Definition comparable {A} (u w : vec A) : Prop :=
  (forall p x, leaf_at u p = Some x -> kind w p = None) /\
  (forall p x, leaf_at w p = Some (OpNum x) -> kind u p = None).

(** the same labels and the same elements *)
Definition same_contents {A} (x y : operand A) : Prop :=
  same_shape (op_shape x) (op_shape y) /\ forall e, inside e (op_shape x) -> op_at x e = op_at y e.

(** all corresponding elements are related, each scalar being repeated along the axes of
    the other *)
Definition agree {A} (R : A -> A -> Prop) (x y : operand A) : Prop :=
  forall sh e, joint [op_shape x; op_shape y] sh -> inside e sh -> R (op_at x e) (op_at y e).
