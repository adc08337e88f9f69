(** Model of [np.unravel_index] for uncertain scalars
    (named_arrays/_scalars/uncertainties/uncertainties_array_functions.py). *)
From Coq Require Import String List Arith ZArith Bool.
From Verif Require Import Base Numpy Shapes Scalar Elementwise Reorder Uncertain.
Import ListNotations.
Open Scope nat_scope.
Open Scope list_scope.

(** [unravel_index], uncertainties_array_functions.py:784-800 *)
Definition u_unravel_index (indices : unc Z) (sh : shape) : res (dict (unc Z)) :=
  match sh with
  | [] => Ok []
  | _ =>
      result_nominal <- na_unravel_index (normalize (u_nominal indices)) sh ;;
      result_distribution <- na_unravel_index (normalize (u_distribution indices)) sh ;;
      mapM (fun ax =>
        match dget result_nominal ax, dget result_distribution ax with
        | Some n, Some d => v <- mk_unc (OpArr n) (OpArr d) ;; Ok (ax, v)
        | _, _ => Err KeyError
        end) (dkeys sh)
  end.
