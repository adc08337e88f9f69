(** Model of [na.jacobian]: named_arrays/_named_array_functions.py, the scalar
    implementation, _scalars/scalar_named_array_functions.py, and the vector
    implementation, _vectors/vector_named_array_functions.py. *)
From Coq Require Import Ascii String List Arith ZArith Bool Lia.
From Verif Require Import Base Numpy Shapes Scalar Elementwise Vector Matrix.
Import ListNotations.
Open Scope nat_scope.
Open Scope list_scope.

(** The result: a scalar array or a vector, or a matrix. *)
Inductive slope (F : Type) : Type :=
| Column : vec F -> slope F
| Square : matrix F -> slope F.
Arguments Column {F} _.
Arguments Square {F} _.

(** [na.asanyarray(a, like=like)], vector_named_array_functions.py:49-102 and
    scalar_named_array_functions.py:91-135, called at
    _named_array_functions.py:1525.  Types of elements are not modelled. *)
Fixpoint any_like {F} (a like : vec F) : res (vec F) :=
  match like with
  | Node ty ls =>
      match a with
      | Node ty' cs =>
          if String.eqb ty' ty
          then r <- traverse (fun kl => match dget cs (fst kl) with
                                        | Some x => y <- any_like x (snd kl) ;; Ok (fst kl, y)
                                        | None => Err KeyError
                                        end) ls ;;
               Ok (Node ty r)
          else Err TypeError
      | Leaf o => r <- traverse (fun kl => y <- any_like (Leaf o) (snd kl) ;; Ok (fst kl, y)) ls ;; Ok (Node ty r)
      end
  | Leaf _ => Ok (map_tree (fun o => OpArr (normalize o)) a)
  end.

Section Jacobian.
Context {F : Type} (K : arith F).

(** a binary ufunc on vectors *)
Definition vsub (a b : vec F) : res (vec F) :=
  vec_ufunc (fun l => match l with [x; y] => minus K x y | _ => zero K end) [a; b].
Definition vdiv (a b : vec F) : res (vec F) :=
  vec_ufunc (fun l => match l with [x; y] => over K x y | _ => zero K end) [a; b].

(** the function whose slope is wanted; it has no state *)
Variable function : vec F -> res (vec F).

(** [x0] and [f0 - f] for the component [c_x],
    vector_named_array_functions.py:648-654, 671-677 *)
Definition change (x f : vec F) (components_dx : dict (operand F)) (c_x : string) : res (vec F) :=
  let components_x := cartesian_nd x in
  match dget components_x c_x, dget components_dx c_x with
  | Some a, Some d =>
      y <- op2 K (plus K) a d ;;
      x0 <- from_cartesian_nd (dset components_x c_x y) x ;;
      f0 <- function x0 ;;
      vsub f0 f
  | _, _ => Err KeyError
  end.

(** the slopes of all components of the value along [c_x], lines 655-656 *)
Definition slopes (df : vec F) (names_f : list string) (dx : operand F) : res (dict (operand F)) :=
  mapM (fun c_f => match dget (cartesian_nd df) c_f with
                   | Some d => s <- op2 K (over K) d dx ;; Ok (c_f, s)
                   | None => Err KeyError
                   end) names_f.

Definition step_of (components_dx : dict (operand F)) (c_x : string) : res (operand F) :=
  match dget components_dx c_x with Some d => Ok d | None => Err KeyError end.

(** a vector function of a vector, lines 642-663.  [like.matrix] has the names and
    the types of the value; its rows are replaced. *)
Definition jacobian_matrix (x f : vec F) (components_dx : dict (operand F)) : res (matrix F) :=
  let names_f := map fst (cartesian_nd f) in
  columns <- mapM (fun c_x =>
               df <- change x f components_dx c_x ;;
               dx <- step_of components_dx c_x ;;
               s <- slopes df names_f dx ;; Ok (c_x, s)) (map fst (cartesian_nd x)) ;;
  rows <- mapM (fun c_f =>
            row <- mapM (fun column => match dget (snd column) c_f with
                                       | Some s => Ok (fst column, s)
                                       | None => Err KeyError
                                       end) columns ;;
            v <- from_cartesian_nd row x ;; Ok (c_f, v)) names_f ;;
  from_cartesian_nd rows (prototype_matrix f x).

(** a scalar function of a vector, lines 665-681.  A function whose value is a
    scalar at [x] and a vector elsewhere is not modelled. *)
Definition jacobian_gradient (x f : vec F) (components_dx : dict (operand F)) : res (vec F) :=
  row <- mapM (fun c_x =>
           df <- change x f components_dx c_x ;;
           dx <- step_of components_dx c_x ;;
           match df with
           | Leaf d => s <- op2 K (over K) d dx ;; Ok (c_x, s)
           | Node _ _ => Err TypeError
           end) (map fst (cartesian_nd x)) ;;
  from_cartesian_nd row x.

(** a function of a scalar, lines 686-690, and
    scalar_named_array_functions.py:1513-1521 *)
Definition jacobian_scalar (x f dx : vec F) : res (vec F) :=
  x0 <- vec_ufunc (fun l => match l with [a; b] => plus K a b | _ => zero K end) [x; dx] ;;
  f0 <- function x0 ;;
  df <- vsub f0 f ;;
  vdiv df dx.

(** [na.jacobian], _named_array_functions.py:1502-1535, with [dx] given, and the
    dispatch.  The scalar implementation declines a plain number [x] or a plain
    number [f]; the vector implementation asks a plain number [x] for its type. *)
Definition na_jacobian (x dx : vec F) : res (slope F) :=
  dx <- any_like dx x ;;
  f <- function x ;;
  match x, f with
  | Node _ _, Node _ _ => m <- jacobian_matrix x f (cartesian_nd dx) ;; Ok (Square m)
  | Node _ _, Leaf _ => v <- jacobian_gradient x f (cartesian_nd dx) ;; Ok (Column v)
  | Leaf (OpArr _), Leaf (OpArr _) | Leaf (OpArr _), Node _ _ => v <- jacobian_scalar x f dx ;; Ok (Column v)
  | Leaf (OpNum _), Node _ _ => Err AttributeError
  | Leaf (OpNum _), Leaf _ | Leaf (OpArr _), Leaf (OpNum _) => Err TypeError
  end.
End Jacobian.
