(** Model of the operations of uncertain scalars along one axis
    (named_arrays/_scalars/uncertainties/uncertainties_array_functions.py). *)
From Coq Require Import String List Arith ZArith Bool.
From Verif Require Import Base Numpy Shapes Scalar Elementwise Reorder Along Sorting Uncertain UncertainChoice.
Import ListNotations.
Open Scope nat_scope.
Open Scope list_scope.

(** [array_function_cumulative_reduce], uncertainties_array_functions.py:180-236,
    without [out] and [dtype]; [shape[_axis]] raises KeyError *)
Definition u_cumulative {A B} (scan : list A -> B) (include_initial : bool) (u : unc A) (axis : option (list string))
  : res (unc B) :=
  sh <- u_shape u ;;
  match match axis with Some l => l | None => dkeys sh end with
  | [ax] =>
      match dget sh ax with
      | None => Err KeyError
      | Some num =>
          n <- na_broadcast_to (normalize (u_nominal u)) [(ax, num)] true ;;
          d <- na_broadcast_to (normalize (u_distribution u)) [(ax, num)] true ;;
          rn <- na_cumulative scan include_initial n (Some [ax]) None ;;
          rd <- na_cumulative scan include_initial d (Some [ax]) None ;;
          mk_unc (OpArr rn) (OpArr rd)
      end
  | _ => Err ValueError
  end.

(** [partition], uncertainties_array_functions.py:736-781 *)
Definition u_partition {A} (part1 : list A -> list A) (kth : list Z) (u : unc A) (axis : string) : res (unc A) :=
  let shape_nominal := sshape (normalize (u_nominal u)) in
  let shape_distribution := sshape (normalize (u_distribution u)) in
  s <- broadcast_shapes [shape_nominal; shape_distribution] ;;
  sh <- u_shape u ;;
  match dget sh axis, dget s axis with
  | Some _, Some num =>
      n <- na_broadcast_to (normalize (u_nominal u)) (dset shape_nominal axis num) false ;;
      d <- na_broadcast_to (normalize (u_distribution u)) (dset shape_distribution axis num) false ;;
      rn <- na_partition part1 kth n axis ;;
      rd <- na_partition part1 kth d axis ;;
      mk_unc (OpArr rn) (OpArr rd)
  | _, _ => Err ValueError
  end.

(** [repeat], uncertainties_array_functions.py:996-1016 *)
Definition u_repeat {A} (u : unc A) (repeats : operand nat) (axis : string) : res (unc A) :=
  u <- u_broadcasted u ;;
  n <- na_repeat (normalize (u_nominal u)) repeats axis ;;
  d <- na_repeat (normalize (u_distribution u)) repeats axis ;;
  mk_unc (OpArr n) (OpArr d).

(** [diff], uncertainties_array_functions.py:1019-1052; an array without
    uncertainty is its own distribution *)
Definition u_diff {A} (sub : A -> A -> A) (n : nat) (a : uop A) (axis : string) (prepend append : option (uop A)) : res (unc A) :=
  u <- as_unc a ;;
  pre <- as_bound prepend ;;
  app <- as_bound append ;;
  u <- u_broadcasted u ;;
  rn <- na_diff sub n (normalize (u_nominal u)) axis (option_map u_nominal pre) (option_map u_nominal app) ;;
  rd <- na_diff sub n (normalize (u_distribution u)) axis (option_map u_distribution pre) (option_map u_distribution app) ;;
  mk_unc (OpArr rn) (OpArr rd).
