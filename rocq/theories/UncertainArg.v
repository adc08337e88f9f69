(** Model of the positions of the extremes of uncertain scalars
    (named_arrays/_scalars/uncertainties/uncertainties_array_functions.py). *)
From Coq Require Import String List Arith ZArith Bool.
From Verif Require Import Base Numpy Shapes Scalar Reorder Elementwise Sorting Uncertain.
Import ListNotations.
Open Scope nat_scope.
Open Scope list_scope.

(** [array_function_arg_reduce] ([np.argmin], [np.argmax]),
    uncertainties_array_functions.py:339-374.  [pick] gives the position of the extreme of a list. *)
Definition u_arg_reduce {A} (pick : list A -> nat) (u : unc A) (axis : option (list string)) : res (dict (unc Z)) :=
  a <- u_broadcasted u ;;
  result_nominal <- na_arg_reduce pick (normalize (u_nominal a)) axis ;;
  result_distribution <-
    match axis with
    | None =>
        sh <- u_shape a ;;
        axis_flattened <- flatten_axes (dkeys sh) ;;
        c <- combine_axes (normalize (u_distribution a)) (Some (dkeys sh)) (Some axis_flattened) ;;
        r <- na_arg_reduce pick c (Some [axis_flattened]) ;;
        match dget r axis_flattened with
        | Some result_distribution_axis =>
            d <- na_unravel_index result_distribution_axis sh ;;
            Ok (dunion d (ddel r axis_flattened))
        | None => Err KeyError
        end
    | Some axis => na_arg_reduce pick (normalize (u_distribution a)) (Some axis)
    end ;;
  mapM (fun kv =>
    d <- add_axes (snd kv) [axis_distribution] ;;
    v <- mk_unc (match dget result_nominal (fst kv) with Some n => OpArr n | None => OpNum 0%Z end) (OpArr d) ;;
    Ok (fst kv, v)) result_distribution.
