(** Regridding with given weights: the wrapper of named_arrays and a model of the
    part of the package [regridding] (3.1, pyproject.toml:27) that it calls.  The
    calculation of the weights from coordinates is not modelled.  Numbers are exact
    and have no unit. *)
From Coq Require Import String List Arith ZArith Bool QArith Qcanon.
From Verif Require Import Base Numpy Shapes Scalar Elementwise Interp.
Import ListNotations.
Open Scope nat_scope.
Open Scope list_scope.

(** one weight: the number of the input cell, of the output cell, and the factor *)
Definition weight : Type := (nat * nat * Qc)%type.

(** ** The package [regridding] *)

Definition same_sizes (s t : list nat) : bool := if list_eq_dec Nat.eq_dec s t then true else false.

(** the positions of a shape that are not in [axis] *)
Definition rest (shape axis : list nat) : list nat := filter (fun k => negb (nmem k axis)) (seq 0 (length shape)).
Definition sizes_at (shape l : list nat) : list nat := map (fun k => nth k shape 0) l.

(** [regridding.regrid_from_weights] on ndarrays: the axes [axis_in] and [axis_out]
    are moved to the end and flattened, and for every position along the other
    axes [out[j] += w * in[i]] for all weights [(i, j, w)] of that position.  A cell
    number out of range, which the compiled code does not check, is an error here,
    and so are other axes that differ. *)
Definition rg_apply (weights : nd (list weight)) (shape_in shape_out : list nat) (values : nd Qc) (axis_in axis_out : list nat)
  : res (nd Qc) :=
  let orth_in := rest shape_in axis_in in
  let orth_out := rest shape_out axis_out in
  let cells_in := sizes_at shape_in axis_in in
  let cells_out := sizes_at shape_out axis_out in
  if negb (same_sizes (sizes_at shape_in orth_in) (nshape weights) && same_sizes (sizes_at shape_out orth_out) (nshape weights))
  then Err ValueError
  else if negb (forallb (forallb (fun w : weight => (fst (fst w) <? prod cells_in) && (snd (fst w) <? prod cells_out))) (ravel weights))
  then Err IndexError
  else
    let v := transpose (orth_in ++ axis_in) values in
    Ok (mkNd shape_out (fun idx =>
          let d := sizes_at idx orth_out in
          let j := ravel_idx cells_out (sizes_at idx axis_out) in
          fold_left (fun acc (w : weight) =>
                       if snd (fst w) =? j then (acc + snd w * nget v (d ++ unravel cells_in (fst (fst w))))%Qc else acc)
                    (nget weights d) (qz 0))).

(** [regridding.transpose_weights]: the two cell numbers of every weight are
    exchanged *)
Definition rg_transpose (weights : nd (list weight)) : nd (list weight) :=
  mkNd (nshape weights) (fun idx => map (fun w : weight => (snd (fst w), fst (fst w), snd w)) (nget weights idx)).

(** ** named_arrays *)

Definition not_in (sh : shape) (l : list string) : list string := filter (fun ax => negb (smem ax l)) (dkeys sh).

(** [regridding_regrid_from_weights], scalar_named_array_functions.py:1905-1954 *)
Definition regrid_from_weights (weights : sarr (list weight)) (shape_input shape_output : shape) (values : operand Qc)
  : res (sarr Qc) :=
  let values := normalize values in
  let axis_in := not_in shape_input (s_axes weights) in
  let axis_out := not_in shape_output (s_axes weights) in
  orth <- broadcast_shapes [filter (fun kv => negb (smem (fst kv) axis_in)) (sshape values); sshape weights] ;;
  sin <- broadcast_shapes [orth; shape_input] ;;
  sout <- broadcast_shapes [orth; shape_output] ;;
  w <- na_broadcast_to weights (filter (fun kv => negb (smem (fst kv) axis_in)) sin) false ;;
  v <- na_broadcast_to values sin false ;;
  pin <- mapM (fun ax => index_of ax (dkeys sin)) axis_in ;;
  pout <- mapM (fun ax => index_of ax (dkeys sout)) axis_out ;;
  r <- rg_apply (s_nd w) (dvals sin) (dvals sout) (s_nd v) pin pout ;;
  mk_sarr r (dkeys sout).

(** [regridding_transpose_weights], scalar_named_array_functions.py:1956-1965 *)
Definition transpose_weights (w : sarr (list weight) * shape * shape) : res (sarr (list weight) * shape * shape) :=
  let '(weights, shape_input, shape_output) := w in
  t <- mk_sarr (rg_transpose (s_nd weights)) (s_axes weights) ;;
  Ok (t, shape_output, shape_input).
