(** Model of the Fourier transforms of uncertain scalars
    (named_arrays/_scalars/uncertainties/uncertainties_array_functions.py). *)
From Coq Require Import String List Arith ZArith Bool.
From Verif Require Import Base Numpy Shapes Scalar Elementwise Along Fourier Vector Uncertain.
Import ListNotations.
Open Scope nat_scope.
Open Scope list_scope.

(** The common scheme of [array_function_fft_like], uncertainties_array_functions.py:377-407,
    and [array_function_fftn_like], 410-440: the axes must be axes of the array; the nominal
    values and the distribution are broadcast along them and transformed by [leaf] *)
Definition u_transformed {A} (axes : list string) (leaf : sarr A -> res (sarr A)) (u : unc A) : res (unc A) :=
  shape_a <- u_shape u ;;
  if negb (forallb (fun ax => smem ax (dkeys shape_a)) axes) then Err ValueError
  else
    let shape_base := dict_of (flat_map (fun ax => match dget shape_a ax with Some n => [(ax, n)] | None => [] end) axes) in
    shn <- broadcast_shapes [sshape (normalize (u_nominal u)); shape_base] ;;
    nominal <- na_broadcast_to (normalize (u_nominal u)) shn false ;;
    shd <- broadcast_shapes [sshape (normalize (u_distribution u)); shape_base] ;;
    distribution <- na_broadcast_to (normalize (u_distribution u)) shd false ;;
    n <- leaf nominal ;;
    d <- leaf distribution ;;
    mk_unc (OpArr n) (OpArr d).

(** [array_function_fft_like], uncertainties_array_functions.py:377-407 *)
Definition u_fft {A} (zero : A) (t : transform A) (u : unc A) (axis : string * string) (n : option nat) : res (unc A) :=
  u_transformed [fst axis] (fun a => na_fft zero t a axis n) u.

(** [array_function_fftn_like], uncertainties_array_functions.py:410-440 *)
Definition u_fftn {A} (zero : A) (w : ntransform A) (u : unc A) (axes : dict string) (s : option (dict nat)) : res (unc A) :=
  u_transformed (dkeys axes) (fun a => na_fftn zero w a axes s) u.
