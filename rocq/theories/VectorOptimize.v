(** Model of Newton's method and gradient descent for vectors:
    named_arrays/optimize.py and _vectors/vector_named_array_functions.py. *)
From Coq Require Import String List Arith ZArith Bool Lia.
From Verif Require Import Base Numpy Shapes Scalar Elementwise Vector Matrix Poly BigMatrix Jacobian VectorReduce.
Import ListNotations.
Open Scope nat_scope.
Open Scope list_scope.

(** one call [callback(i, x, f, converged)] *)
Record vseen (F : Type) : Type := mkVseen { v_step : nat; v_x : vec F; v_f : vec F; v_flags : vec bool }.
Arguments mkVseen {F} _ _ _ _.
Arguments v_step {F} _.
Arguments v_x {F} _.
Arguments v_f {F} _.
Arguments v_flags {F} _.

Section Newton.
Context {F : Type} (K : arith F) (absolute : F -> F) (less : F -> F -> bool) (np_inv : list (list F) -> list (list F)).

(** the functions of the user; they have no state *)
Variable function : vec F -> res (vec F).
Variable jacobian : vec F -> res (matrix F).

(** ufuncs on vectors, vectors_cartesian.py:87-170 *)
Definition vabs (v : vec F) : res (vec F) := vec_ufunc (fun l => match l with [x] => absolute x | _ => zero K end) [v].
Definition vless (v w : vec F) : res (vec bool) := vec_ufunc (fun l => match l with [x; y] => less x y | _ => false end) [v; w].

(** [np.abs(f) < max_abs_error], vector_named_array_functions.py:725 *)
Definition small (f tolerance : vec F) : res (vec bool) := size <- vabs f ;; vless size tolerance.

(** the flags at the beginning,
    [broadcast_to(0 * value(f), shape=shape).astype(bool)], line 715 *)
Definition vflags (f : vec F) (sh : shape) : res (vec bool) :=
  z <- vec_ufunc (fun l => match l with [x; y] => times K x y | _ => zero K end) [Leaf (OpNum (zero K)); f] ;;
  z <- vec_broadcast_to z sh ;;
  vec_ufunc (fun l => match l with [x] => negb (is_zero K x) | _ => false end) [z].

(** one pass through the body of the loop after the callback, lines 725-736 *)
Definition vnewton_pass (tolerance x f : vec F) : res (option (vec bool * vec F * vec F)) :=
  converged <- small f tolerance ;;
  done <- vec_all converged ;;
  if done : bool then Ok None
  else
    jac <- jacobian x ;;
    inv <- m_inverse_any K np_inv jac ;;
    correction <- matvec K inv f ;;
    x' <- vsub K x correction ;;
    f' <- function x' ;;
    Ok (Some (converged, x', f')).

(** the loop, lines 720-738: what the callback was given, and the outcome *)
Fixpoint vnewton_loop (tolerance : vec F) (n i : nat) (x f : vec F) (converged : vec bool) : list (vseen F) * res (vec F) :=
  match n with
  | 0 => ([], Err ValueError)
  | S n' =>
      let now := mkVseen i x f converged in
      match vnewton_pass tolerance x f with
      | Err e => ([now], Err e)
      | Ok None => ([now], Ok x)
      | Ok (Some (converged', x', f')) =>
          let rest := vnewton_loop tolerance n' (S i) x' f' converged' in (now :: fst rest, snd rest)
      end
  end.

(** [root_newton], optimize.py:22-79, with [jacobian] and [max_abs_error] given, and
    [optimize_root_newton] before the loop, lines 702-718.  A guess or a value that
    is not a vector is declined here; scalars are in Optimize.v. *)
Definition vnewton_start (guess tolerance : vec F) : res (vec F * vec F * vec F * vec bool) :=
  f <- function guess ;;
  tolerance <- any_like tolerance f ;;
  match guess, f with
  | Node _ _, Node _ _ =>
      sht <- vec_shape tolerance ;;
      match sht with
      | [] =>
          shf <- vec_shape f ;;
          shx <- vec_shape guess ;;
          sh <- broadcast_shapes [shf; shx] ;;
          converged <- vflags f sh ;;
          x <- vec_broadcast_to guess sh ;;
          Ok (tolerance, x, f, converged)
      | _ => Err ValueError
      end
  | _, _ => Err TypeError
  end.

Definition vroot_newton (guess tolerance : vec F) (max_iterations : nat) : list (vseen F) * res (vec F) :=
  match vnewton_start guess tolerance with
  | Err e => ([], Err e)
  | Ok (tolerance, x, f, converged) => vnewton_loop tolerance max_iterations 0 x f converged
  end.

End Newton.

(** the default of [jacobian], optimize.py:57-62; the step of [na.jacobian] is given *)
Definition default_jacobian {F} (K : arith F) (function : vec F -> res (vec F)) (dx x : vec F) : res (matrix F) :=
  j <- na_jacobian K function x dx ;;
  match j with Square m => Ok m | Column _ => Err AttributeError end.

Section Descent.
Context {F : Type} (K : arith F) (absolute : F -> F) (less : F -> F -> bool).

(** the function and the gradient of the user; they have no state *)
Variables function gradient : vec F -> res (vec F).

(** products and sums of vectors and scalars, vectors_cartesian.py:87-170 *)
Definition vtimes (v w : vec F) : res (vec F) := vec_ufunc (fun l => match l with [x; y] => times K x y | _ => zero K end) [v; w].
Definition vplus (v w : vec F) : res (vec F) := vec_ufunc (fun l => match l with [x; y] => plus K x y | _ => zero K end) [v; w].

(** one pass through the body of the loop after the callback,
    vector_named_array_functions.py:831-844; the momentum [z] is not given to the
    callback *)
Definition descent_pass (step momentum tolerance x z : vec F) : res (option (vec bool * vec F * vec F * vec F)) :=
  grad <- gradient x ;;
  converged <- small K absolute less grad tolerance ;;
  done <- vec_all converged ;;
  if done : bool then Ok None
  else
    kept <- vtimes momentum z ;;
    z' <- vplus kept grad ;;
    correction <- vtimes step z' ;;
    x' <- vsub K x correction ;;
    f' <- function x' ;;
    Ok (Some (converged, x', f', z')).

(** the loop, lines 826-846 *)
Fixpoint descent_loop (step momentum tolerance : vec F) (n i : nat) (x f z : vec F) (converged : vec bool) : list (vseen F) * res (vec F) :=
  match n with
  | 0 => ([], Err ValueError)
  | S n' =>
      let now := mkVseen i x f converged in
      match descent_pass step momentum tolerance x z with
      | Err e => ([now], Err e)
      | Ok None => ([now], Ok x)
      | Ok (Some (converged', x', f', z')) =>
          let rest := descent_loop step momentum tolerance n' (S i) x' f' z' converged' in (now :: fst rest, snd rest)
      end
  end.

(** [minimum_gradient_descent], optimize.py:221-253, with [step_size], [gradient] and
    [min_gradient] given, and [optimize_minimum_gradient_descent] before the loop,
    lines 804-824.  There is no implementation for other guesses, so the dispatch of
    _named_array_functions.py:63-78 raises TypeError. *)
Definition descent_start (guess tolerance : vec F) : res (vec F * vec F * vec F * vec bool) :=
  f <- function guess ;;
  tolerance <- any_like tolerance f ;;
  match guess, f with
  | Node _ _, Leaf _ =>
      sht <- vec_shape tolerance ;;
      match sht with
      | [] =>
          shf <- vec_shape f ;;
          shx <- vec_shape guess ;;
          sh <- broadcast_shapes [shf; shx] ;;
          converged <- vflags K guess sh ;;
          x <- vec_broadcast_to guess sh ;;
          Ok (tolerance, x, f, converged)
      | _ => Err ValueError
      end
  | _, _ => Err TypeError
  end.

Definition minimum_gradient_descent (guess step momentum tolerance : vec F) (max_iterations : nat) : list (vseen F) * res (vec F) :=
  match descent_start guess tolerance with
  | Err e => ([], Err e)
  | Ok (tolerance, x, f, converged) => descent_loop step momentum tolerance max_iterations 0 x f (Leaf (OpNum (zero K))) converged
  end.

End Descent.

(** the default of [gradient], optimize.py:232-237; the step of [na.jacobian] is given *)
Definition default_gradient {F} (K : arith F) (function : vec F -> res (vec F)) (dx x : vec F) : res (vec F) :=
  j <- na_jacobian K function x dx ;;
  match j with Column v => Ok v | Square m => Err TypeError end.
