(** The vocabulary for matrix arrays: a matrix is observed through the names of
    its rows and columns, at one labelled index of its entries. *)
From Coq Require Import Ascii String List Arith ZArith Bool Lia Field_theory.
From Verif Require Import Base Numpy Shapes Scalar Vector Matrix Spec SpecVector.
Import ListNotations.
Open Scope nat_scope.
Open Scope list_scope.

(** the elements form a field, and zero is recognised *)
Definition is_field {F} (K : arith F) : Prop :=
  field_theory (zero K) (one K) (plus K) (times K) (minus K) (neg K) (over K) (over K (one K)) eq /\
  forall x, is_zero K x = true <-> x = zero K.

Definition is_node {L} (t : tree L) : Prop := exists ty cs, t = Node ty cs.

(** the names of the leaves, nested names joined by dots *)
Definition names {L} (t : tree L) : list string := map (String.concat ".") (paths t).

(** the component [c] of a vector; the entry of a matrix at row [r], column [c] *)
Definition part {A} (v : vec A) (c : string) (o : operand A) : Prop :=
  exists q, leaf_at v q = Some o /\ String.concat "." q = c.
Definition cell {A} (m : matrix A) (r c : string) (o : operand A) : Prop :=
  exists p row, leaf_at m p = Some row /\ String.concat "." p = r /\ part row c o.

(** well-formed vectors and matrices: at least one component, distinct names *)
Definition filled {L} (t : tree L) : Prop := forall p ty cs, kind t p = Some (ty, cs) -> cs <> [].
Definition vector_ok {A} (v : vec A) : Prop := is_node v /\ vec_wf v /\ NoDup (names v) /\ filled v.
Definition matrix_ok {A} (m : matrix A) : Prop := is_node m /\ tree_ok vector_ok m /\ NoDup (names m) /\ filled m.

(** every row has the columns [cs] *)
Definition has_columns {A} (m : matrix A) (cs : list string) : Prop :=
  forall row, In row (leaves m) -> forall c, In c (names row) <-> In c cs.

(** the entries can be broadcast to the shape [B] *)
Definition vector_fits {A} (B : shape) (v : vec A) : Prop := forall c o, part v c o -> fits_in (op_shape o) B.
Definition matrix_fits {A} (B : shape) (m : matrix A) : Prop := forall r c o, cell m r c o -> fits_in (op_shape o) B.

(** the numbers at the labelled index [e] *)
Definition vector_reads {A} (v : vec A) (e : env) (V : string -> A) : Prop :=
  forall c o, part v c o -> V c = op_at o e.
Definition matrix_reads {A} (m : matrix A) (e : env) (M : string -> string -> A) : Prop :=
  forall r c o, cell m r c o -> M r c = op_at o e.

(** the sum of [f k] over a list of names *)
Definition sum_over {F} (K : arith F) (l : list string) (f : string -> F) : F :=
  fold_right (fun k acc => plus K (f k) acc) (zero K) l.

(** the type of a vector or of a matrix *)
Definition type_name {L} (t : tree L) : option string := option_map fst (kind t []).

(** the rows of [m] have the type of [v] *)
Definition rows_typed {A L} (m : matrix A) (v : tree L) : Prop :=
  forall row, In row (leaves m) -> type_name row = type_name v.

(** the determinant by expansion along the first row, for the rows [rs] and the
    columns [cs] in this order *)
Section Determinant.
Context {F : Type} (K : arith F).

Fixpoint expand (sub : list string -> F) (f : string -> F) (before after : list string) : F :=
  match after with
  | [] => zero K
  | c :: after' => minus K (times K (f c) (sub (before ++ after'))) (expand sub f (before ++ [c]) after')
  end.

Fixpoint determinant (rs cs : list string) (M : string -> string -> F) : F :=
  match rs with
  | [] => one K
  | r :: rs' => expand (fun cs' => determinant rs' cs' M) (M r) [] cs
  end.

(** the entries of the identity *)
Definition delta (i j : string) : F := if String.eqb i j then one K else zero K.
End Determinant.

(** every row lists the columns [cs], in this order *)
Definition ordered_columns {A} (m : matrix A) (cs : list string) : Prop :=
  forall row, In row (leaves m) -> names row = cs.
