(** Specification vocabulary for percentiles, continuing Spec.v. *)
From Coq Require Import String List Arith ZArith Bool.
From Verif Require Import Base Numpy Shapes Scalar Spec.
Import ListNotations.
Open Scope nat_scope.
Open Scope list_scope.

(** the shape [sh] with size one along each of the axes [l] *)
Definition squeezed (sh : shape) (l : list string) : shape := map (fun kv => if smem (fst kv) l then (fst kv, 1) else kv) sh.

(** percentiles along the axes [l] make sense: the axes are distinct axes of [a], [q]
    has other axes than [a] and at most two, and is in range *)
Definition percentile_ok {A Q} (valid : Q -> bool) (a : operand A) (q : operand Q) (l : list string) : Prop :=
  NoDup l /\ incl l (dkeys (op_shape a)) /\ (forall ax, In ax (dkeys (op_shape q)) -> ~ In ax (dkeys (op_shape a))) /\
  length (op_shape q) <= 2 /\ forall e, inside e (op_shape q) -> valid (op_at q e) = true.
