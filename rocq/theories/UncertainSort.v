(** Model of sorting uncertain scalars
    (named_arrays/_scalars/uncertainties/uncertainties_array_functions.py). *)
From Coq Require Import String List Arith ZArith Bool.
From Verif Require Import Base Numpy Shapes Scalar Elementwise Reduce Sorting Uncertain.
Import ListNotations.
Open Scope nat_scope.
Open Scope list_scope.

(** [argsort], uncertainties_array_functions.py:689-705.  [mean] is the mean of a list,
    [argsort1] gives the positions that sort a line. *)
Definition u_argsort {A B} (mean : list A -> B) (argsort1 : list B -> list nat) (u : unc A) (axis : option (list string))
  : res (dict (sarr Z)) :=
  a <- u_broadcasted u ;;
  m <- na_reduce true mean (normalize (u_distribution a)) (Some [axis_distribution]) false None None ;;
  na_argsort argsort1 m axis.

(** [sort], uncertainties_array_functions.py:665-686 *)
Definition u_sort {A B} (mean : list A -> B) (argsort1 : list B -> list nat) (u : unc A) (axis : option (list string))
  : res (unc A) :=
  a <- u_broadcasted u ;;
  indices <- u_argsort mean argsort1 a axis ;;
  n <- getitem (normalize (u_nominal a)) (as_item indices) ;;
  d <- getitem (normalize (u_distribution a)) (as_item indices) ;;
  mk_unc (OpArr n) (OpArr d).
