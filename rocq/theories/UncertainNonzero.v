(** Model of [np.nonzero] for uncertain scalars
    (named_arrays/_scalars/uncertainties/uncertainties_array_functions.py). *)
From Coq Require Import String List Arith ZArith Bool.
From Verif Require Import Base Numpy Shapes Scalar Elementwise Reduce Nonzero Uncertain.
Import ListNotations.
Open Scope nat_scope.
Open Scope list_scope.

(** [nonzero], uncertainties_array_functions.py:889-895.  [truth] tells whether a number is not
    zero, [mul] multiplies the two numbers of a list and [prod] all of them; rounding and overflow are left out.
    A distribution that is a plain number makes numpy's own [np.prod] refuse the name of the axis. *)
Definition u_nonzero {A} (truth : A -> bool) (mul prod : list A -> A) (u : unc A) : res (dict (sarr Z)) :=
  match u_distribution u with
  | OpNum _ => Err TypeError
  | OpArr distribution =>
      p <- na_reduce true prod distribution (Some [axis_distribution]) false None None ;;
      r <- array_ufunc mul [u_nominal u; OpArr p] ;;
      na_nonzero truth r
  end.
