(** The vocabulary of polynomial fits: the factors of a term, the inputs by name
    of component, the selected points, and sums over points. *)
From Coq Require Import Ascii String List Arith ZArith Bool Lia.
From Verif Require Import Base Numpy Shapes Scalar Vector Matrix Spec SpecNumeric SpecVector SpecMatrix.
Import ListNotations.
Open Scope nat_scope.
Open Scope list_scope.

(** no star in the name *)
Definition star_free (s : string) : Prop := ~ In "*"%char (list_ascii_of_string s).

(** the factors of the term called [name]; the empty name is the constant term *)
Definition factors (name : string) (l : list string) : Prop :=
  Forall star_free l /\ String.concat "*" l = name /\ (name = ""%string <-> l = []).

(** the components of the inputs; those of a scalar are called "dummy" *)
Definition input_part {A} (x : vec A) (c : string) (o : operand A) : Prop :=
  match x with Leaf o' => c = "dummy"%string /\ o = o' | Node _ _ => part x c o end.
Definition input_ok {A} (x : vec A) : Prop :=
  match x with Leaf o => op_wf o | Node _ _ => vector_ok x end.
Definition input_reads {A} (x : vec A) (e : env) (X : string -> A) : Prop :=
  forall c o, input_part x c o -> X c = op_at o e.

(** the product of the values of some components *)
Definition product_of {F} (K : arith F) (X : string -> F) (l : list string) : F :=
  fold_right (fun k acc => times K (X k) acc) (one K) l.

(** the points of the fit at the position [e] of the result *)
Definition points (S : shape) (A : list string) (w : operand bool) (e : env) : list env :=
  filter (op_at w) (fibre S A e).

(** the sum of [f p] over a list of points *)
Definition sum_points {F} (K : arith F) (l : list env) (f : env -> F) : F :=
  fold_right (fun p acc => plus K (f p) acc) (zero K) l.

(** two-sided inverse of the square matrix [M] of the rows and columns [ns], the
    inverse being given by its rows *)
Definition inverts {F} (K : arith F) (ns : list string) (M : string -> string -> F) (N : list (list F)) : Prop :=
  exists N' : string -> string -> F, N = map (fun i => map (N' i) ns) ns /\
    (forall i j, In i ns -> In j ns -> sum_over K ns (fun k => times K (N' i k) (M k j)) = delta K i j) /\
    (forall i j, In i ns -> In j ns -> sum_over K ns (fun k => times K (M i k) (N' k j)) = delta K i j).

(** the matrix can be inverted: a nonzero determinant for at most three rows;
    with more rows [np.linalg.inv] finds the inverse *)
Definition invertible {F} (K : arith F) (np_inv : list (list F) -> list (list F)) (ns : list string)
  (M : string -> string -> F) : Prop :=
  if length ns <? 4 then determinant K ns ns M <> zero K
  else inverts K ns M (np_inv (map (fun i => map (M i) ns) ns)).

(** A fit of the terms [ns] of the (centered) inputs [x] to the outputs along the
    axes [A], using the points where [w] is true: [S] is the shape of the inputs,
    [T] that of inputs and outputs together.  The outputs do not stretch the axes
    of the inputs, the mask has only axes of the inputs, and the fitted axes are
    axes of the inputs; without [axis] all the axes of inputs and outputs are
    fitted.  At least one term is not the constant. *)
Record fit_problem {F} (x : vec F) (ns : list string) (fs : string -> list string) (outputs : operand F)
  (axis : option (list string)) (w : operand bool) (S T : shape) (A : list string) : Prop := {
  fp_inputs : input_ok x;
  fp_shape : broadcast_shapes (map op_shape (leaves x)) = Ok S;
  fp_names : NoDup ns;
  fp_factors : forall n, In n ns -> factors n (fs n) /\ forall k, In k (fs n) -> exists o, input_part x k o;
  fp_varies : exists n, In n ns /\ n <> ""%string;
  fp_outputs : op_wf outputs;
  fp_all : broadcast_shapes [S; op_shape outputs] = Ok T;
  fp_same : incl S T;
  fp_where : op_wf w /\ fits_in (op_shape w) S;
  fp_axes : NoDup A /\ incl A (dkeys S) /\ match axis with Some l => l = A | None => incl (dkeys T) A end
}.

(** the value of the term [n] at the point [p], and of the polynomial with the
    coefficients [C] *)
Definition term_at {F} (K : arith F) (X : env -> string -> F) (fs : string -> list string) (n : string) (p : env) : F :=
  product_of K (X p) (fs n).
Definition poly_at {F} (K : arith F) (X : env -> string -> F) (fs : string -> list string) (ns : list string)
  (C : string -> F) (p : env) : F :=
  sum_over K ns (fun n => times K (term_at K X fs n p) (C n)).

(** the sums of products of two terms *)
Definition gram_at {F} (K : arith F) (X : env -> string -> F) (fs : string -> list string) (l : list env) (i j : string) : F :=
  sum_points K l (fun p => times K (term_at K X fs i p) (term_at K X fs j p)).

(** the coefficients at the position [e] of the result *)
Definition coefficients_at {F} (cf : dict (operand F)) (e : env) (C : string -> F) : Prop :=
  forall n o, In (n, o) cf -> C n = op_at o e.

(** the sum of the squared differences between the polynomial and the values [y] *)
Definition squared_error {F} (K : arith F) (X : env -> string -> F) (fs : string -> list string) (ns : list string)
  (l : list env) (y : env -> F) (C : string -> F) : F :=
  sum_points K l (fun p => times K (minus K (poly_at K X fs ns C p) (y p)) (minus K (poly_at K X fs ns C p) (y p))).
