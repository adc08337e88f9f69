(** The vocabulary for transformations: what a transformation does to the
    components of a vector. *)
From Coq Require Import Ascii String List Arith ZArith Bool Lia.
From Verif Require Import Base Numpy Shapes Scalar Vector Matrix Transform Spec SpecVector SpecMatrix.
Import ListNotations.
Open Scope nat_scope.
Open Scope list_scope.

(** the types and the component names of [p], at every level *)
Definition of_kind {L M} (p : tree L) (t : tree M) : Prop := forall q, kind t q = kind p q.

(** a kind of vectors *)
Definition space (p : tree unit) : Prop := is_node p /\ tree_ok (fun _ => True) p /\ NoDup (names p) /\ filled p.

Section Transform.
Context {F : Type} (K : arith F) (B : shape).

(** a vector of the kind [p] that can be broadcast to the shape [B] *)
Definition member (p : tree unit) (v : vec F) : Prop := vector_ok v /\ vector_fits B v /\ of_kind p v.

(** a matrix that takes vectors of the kind [p] to vectors of the kind [q] *)
Definition between (p q : tree unit) (m : matrix F) : Prop :=
  matrix_ok m /\ matrix_fits B m /\ of_kind q m /\ has_columns m (names p) /\ rows_typed m p.

(** the components, by name, before and after, at every labelled index *)
Definition action : Type := env -> (string -> F) -> string -> F.

(** a square matrix of at most three rows with determinant different from zero *)
Definition regular (p q : tree unit) (m : matrix F) : Prop :=
  (forall row, In row (leaves m) -> of_kind p row) /\ length (names p) = length (names q) /\ length (names p) <= 3 /\
  forall e M, inside e B -> matrix_reads m e M -> determinant K (names q) (names p) M <> zero K.

(** no further requirement on a matrix *)
Definition any (p q : tree unit) (m : matrix F) : Prop := True.

Section Means.
Variable req : tree unit -> tree unit -> matrix F -> Prop.

(** The transformation [t] takes vectors of the kind [p] to vectors of the kind
    [q], and components as [f] does; its matrices meet the requirement. *)
Inductive means : tree unit -> tree unit -> trans F -> action -> Prop :=
| means_identity p : space p -> means p p Identity (fun _ V => V)
| means_translation p u T : space p -> member p u ->
    (forall e, inside e B -> vector_reads u e (T e)) ->
    means p p (Translation u) (fun e V c => plus K (V c) (T e c))
| means_linear p q m M : space p -> space q -> between p q m -> req p q m ->
    (forall e, inside e B -> matrix_reads m e (M e)) ->
    means p q (Linear m) (fun e V i => sum_over K (names p) (fun k => times K (M e i k) (V k)))
| means_affine p q m u M T : space p -> space q -> between p q m -> req p q m -> member q u ->
    (forall e, inside e B -> matrix_reads m e (M e)) -> (forall e, inside e B -> vector_reads u e (T e)) ->
    means p q (Affine m u) (fun e V i => plus K (sum_over K (names p) (fun k => times K (M e i k) (V k))) (T e i))
| means_sequence p q l (intrinsic : bool) f : means_all p q (if intrinsic then l else rev l) f -> means p q (Sequence l intrinsic) f
with means_all : tree unit -> tree unit -> list (trans F) -> action -> Prop :=
| means_nil p : space p -> means_all p p [] (fun _ V => V)
| means_cons p q r t l f g : means p q t f -> means_all q r l g -> means_all p r (t :: l) (fun e V => g e (f e V)).

End Means.
End Transform.

(** the same components everywhere *)
Definition agree {F} (B : shape) (v w : vec F) : Prop :=
  names v = names w /\ forall e c o o', inside e B -> part v c o -> part w c o' -> op_at o e = op_at o' e.

(** [None] stands for the identity *)
Definition or_identity {F} (a : option (trans F)) : trans F := match a with Some a => a | None => Identity end.
