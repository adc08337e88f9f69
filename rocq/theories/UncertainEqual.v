(** Model of the comparisons of whole uncertain scalars: [array_equal], [array_equiv] and
    [allclose] (named_arrays/_scalars/uncertainties/uncertainties_array_functions.py). *)
From Coq Require Import String List Arith ZArith Bool.
From Verif Require Import Base Numpy Shapes Scalar Elementwise Reorder Uncertain.
Import ListNotations.
Open Scope nat_scope.
Open Scope list_scope.

Section Equal.
Context {A : Type}.

(** both parts are compared before [and] is taken, uncertainties_array_functions.py:809-819 *)
Definition both_parts (f : operand A -> operand A -> res bool) (x y : uop A) : res bool :=
  n <- f (nominal_of x) (nominal_of y) ;;
  d <- f (distribution_of x) (distribution_of y) ;;
  Ok (n && d).

(** [array_equal], uncertainties_array_functions.py:803-819: only uncertain scalars have
    the attribute [nominal].  A scalar array that comes first is asked first and uses
    [ndarray], scalar_array_functions.py:854-864, which uncertain scalars do not have.
    The comparison of two parts is that of scalar arrays and numbers. *)
Definition u_array_equal (eqb : A -> A -> bool) (x y : uop A) : res bool :=
  let f a b := Ok (na_array_equal eqb (normalize a) (normalize b)) in
  match x, y with
  | Uncertain _, Uncertain _ => both_parts f x y
  | Certain a, Certain b => f a b
  | _, _ => Err AttributeError
  end.

(** [array_equiv], uncertainties_array_functions.py:822-835.  A scalar array that comes
    first broadcasts the shapes, scalar_array_functions.py:867-876, before it looks for
    [ndarray_aligned]. *)
Definition u_array_equiv (eqb : A -> A -> bool) (x y : uop A) : res bool :=
  let f a b := na_array_equiv eqb (normalize a) (normalize b) in
  match x, y with
  | Uncertain _, Uncertain _ => both_parts f x y
  | Certain a, Certain b => f a b
  | Certain (OpArr a), Uncertain u => sh <- u_shape u ;; _ <- broadcast_shapes [sshape a; sh] ;; Err AttributeError
  | _, _ => Err AttributeError
  end.

(** [allclose], uncertainties_array_functions.py:838-886; [close] says whether two numbers
    are close.  A scalar array that comes first broadcasts the shapes,
    scalar_array_functions.py:888, and hands over. *)
Definition u_allclose (close : A -> A -> bool) (x y : uop A) : res bool :=
  let f a b := na_array_equiv close (normalize a) (normalize b) in
  match x, y with
  | Certain a, Certain b => f a b
  | Certain (OpArr a), Uncertain u => sh <- u_shape u ;; _ <- broadcast_shapes [sshape a; sh] ;; both_parts f x y
  | _, _ => both_parts f x y
  end.
End Equal.
