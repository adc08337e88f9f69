(** Model of reorganising uncertain scalars
    (named_arrays/_scalars/uncertainties/uncertainties_array_functions.py). *)
From Coq Require Import String List Arith ZArith Bool.
From Verif Require Import Base Numpy Shapes Scalar Elementwise Reorder Uncertain.
Import ListNotations.
Open Scope nat_scope.
Open Scope list_scope.

(** [transpose], uncertainties_array_functions.py:523-539; the parts of [u.broadcasted] are arrays *)
Definition u_transpose {A} (u : unc A) (axes : option (list string)) : res (unc A) :=
  u <- u_broadcasted u ;;
  let axes_distribution := option_map (fun l => l ++ [axis_distribution]) axes in
  n <- na_transpose (normalize (u_nominal u)) axes ;;
  d <- na_transpose (normalize (u_distribution u)) axes_distribution ;;
  mk_unc (OpArr n) (OpArr d).

(** the part of [moveaxis] for one of the two parts, uncertainties_array_functions.py:557-583 *)
Definition u_moveaxis_part {A} (o : operand A) (pairs : list (string * string)) : res (sarr A) :=
  let a := normalize o in
  let ps := filter (fun p => smem (fst p) (s_axes a)) pairs in
  na_moveaxis a (map fst ps) (map snd ps).

(** [moveaxis], uncertainties_array_functions.py:542-583; [destination[i]] raises
    IndexError when there are too few destinations, further ones are ignored *)
Definition u_moveaxis {A} (u : unc A) (source destination : list string) : res (unc A) :=
  sh <- u_shape u ;;
  if negb (forallb (fun s => smem s (dkeys sh)) source) then Err ValueError
  else if length destination <? length source then Err IndexError
  else
    n <- u_moveaxis_part (u_nominal u) (combine source destination) ;;
    d <- u_moveaxis_part (u_distribution u) (combine source destination) ;;
    mk_unc (OpArr n) (OpArr d).

(** [reshape], uncertainties_array_functions.py:586-603: the shape of the
    distribution is taken after the nominal values have been broadcast.  The
    result of [change_axis_index] is thrown away, only its exception counts. *)
Definition u_reshape {A} (u : unc A) (sh : shape) : res (unc A) :=
  s <- u_shape u ;;
  n <- na_broadcast_to (normalize (u_nominal u)) s false ;;
  sd <- u_shape_distribution (mkU (OpArr n) (u_distribution u)) ;;
  d <- na_broadcast_to (normalize (u_distribution u)) sd false ;;
  _ <- change_axis_index d axis_distribution (-1)%Z ;;
  match dget (sshape d) axis_distribution with
  | None => Err KeyError
  | Some num =>
      rn <- na_reshape n sh ;;
      rd <- na_reshape d (dset sh axis_distribution num) ;;
      mk_unc (OpArr rn) (OpArr rd)
  end.
