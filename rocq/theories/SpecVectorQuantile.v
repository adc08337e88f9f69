(** The vocabulary for percentiles of vectors. *)
From Coq Require Import String List Arith ZArith Bool Lia.
From Verif Require Import Base Numpy Shapes Scalar Vector Spec SpecVector.
Import ListNotations.
Open Scope nat_scope.
Open Scope list_scope.

(** [q] gives, for every scalar of [v], which has the axes [T] together with the others, percentiles
    in range along at most two other axes *)
Definition percentiles_for {A Q} (valid : Q -> bool) (v : vec A) (q : vec Q) (T : shape) : Prop :=
  vec_wf q /\
  forall p o, leaf_at v p = Some o ->
    exists x, reaches q p = Some x /\ (forall ax, In ax (dkeys (op_shape x)) -> ~ In ax (dkeys T)) /\
      length (op_shape x) <= 2 /\ forall e, inside e (op_shape x) -> valid (op_at x e) = true.
