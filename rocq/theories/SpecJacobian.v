(** The vocabulary of slopes: functions that act index by index, and what a step
    does to one component. *)
From Coq Require Import Ascii String List Arith ZArith Bool Lia.
From Verif Require Import Base Numpy Shapes Scalar Vector Matrix Spec SpecVector SpecMatrix SpecTransform.
Import ListNotations.
Open Scope nat_scope.
Open Scope list_scope.

Section Slopes.
Context {F : Type} (K : arith F) (B : shape).

(** The function takes vectors of the kind [p] to vectors of the kind [q], and the
    components at every labelled index as [f] does. *)
Definition realises (p q : tree unit) (function : vec F -> res (vec F)) (f : env -> (string -> F) -> string -> F) : Prop :=
  forall v, member B p v -> exists w, function v = Ok w /\ member B q w /\
    forall e V, inside e B -> vector_reads v e V -> vector_reads w e (f e V).

(** a scalar array or number that can be broadcast to [B] *)
Definition scalar_in (o : operand F) : Prop := op_wf o /\ fits_in (op_shape o) B.

(** The function takes vectors of the kind [p] to scalars. *)
Definition realises_scalar (p : tree unit) (function : vec F -> res (vec F)) (g : env -> (string -> F) -> F) : Prop :=
  forall v, member B p v -> exists o, function v = Ok (Leaf o) /\ scalar_in o /\
    forall e V, inside e B -> vector_reads v e V -> op_at o e = g e V.

(** The function takes scalar arrays to scalar arrays. *)
Definition realises_plain (function : vec F -> res (vec F)) (g : env -> F -> F) : Prop :=
  forall a, scalar_in (OpArr a) -> exists b, function (Leaf (OpArr a)) = Ok (Leaf (OpArr b)) /\ scalar_in (OpArr b) /\
    forall e, inside e B -> op_at (OpArr b) e = g e (op_at (OpArr a) e).

(** The function takes scalar arrays to vectors of the kind [q]. *)
Definition realises_curve (q : tree unit) (function : vec F -> res (vec F)) (g : env -> F -> string -> F) : Prop :=
  forall a, scalar_in (OpArr a) -> exists w, function (Leaf (OpArr a)) = Ok w /\ member B q w /\
    forall e, inside e B -> vector_reads w e (g e (op_at (OpArr a) e)).

(** A step for vectors of the kind [p]: a scalar, or a vector of the same type,
    whose components are scalars or again such vectors. *)
Definition step_ok (p : tree unit) (dx : vec F) : Prop :=
  vec_wf dx /\ alike p dx /\
  forall c, leaf_at p c <> None -> exists o, reaches dx c = Some o /\ fits_in (op_shape o) B.
Definition step_reads (p : tree unit) (dx : vec F) (e : env) (D : string -> F) : Prop :=
  forall c o, leaf_at p c <> None -> reaches dx c = Some o -> D (String.concat "." c) = op_at o e.

(** one component is moved *)
Definition moved (X : string -> F) (c : string) (d : F) : string -> F :=
  fun k => if String.eqb k c then plus K (X k) d else X k.

(** the difference quotient *)
Definition quotient (f1 f0 d : F) : F := over K (minus K f1 f0) d.
End Slopes.
