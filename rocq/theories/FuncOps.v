(** Model of operations on function arrays (named_arrays/_functions) whose inputs
    and outputs are scalar arrays: broadcasting, integrals, reductions, cumulative
    functions, renaming of axes, assignment, elementwise functions, taking
    elements along an axis, concatenation, percentiles, other orders and shapes,
    repetition and copying.  Not modelled: units, vector inputs,
    the arguments [where], [dtype], [initial] and [out], and items of an
    assignment that are function arrays. *)
From Coq Require Import String List Arith ZArith Bool.
From Verif Require Import Base Numpy Shapes Scalar Reorder Elementwise Reduce Along Derived Quantile Func.
Import ListNotations.
Open Scope nat_scope.
Open Scope list_scope.

(** [na.broadcast_to], function_named_array_functions.py:105-131 *)
Definition f_broadcast_to {A B} (f : farr A B) (sh : shape) (append : bool) : res (farr A B) :=
  v <- axes_vertex f ;;
  let sh_in := map (fun kv : string * nat => (fst kv, if smem (fst kv) v then snd kv + 1 else snd kv)) sh in
  i <- na_broadcast_to (f_inputs f) sh_in append ;;
  o <- na_broadcast_to (f_outputs f) sh append ;;
  Ok (mkF i o).

(** [broadcasted], _core.py:678-686 *)
Definition f_broadcasted {A B} (f : farr A B) : res (farr A B) :=
  sh <- f_shape f ;; f_broadcast_to f sh false.

(** [volume_cell] of a scalar array with a tuple of axes, scalars.py:122-132; a
    tuple that does not hold one axis cannot be unpacked *)
Definition volume_cell {A} (sub : A -> A -> A) (a : sarr A) (axis : list string) : res (sarr A) :=
  match axis with
  | [ax] => na_diff sub 1 a ax None None
  | _ => Err ValueError
  end.

(** [integrate] with [component=None], functions.py:434-507; [mean] is the mean
    value of the elements *)
Definition f_integrate {A} (add mul sub : A -> A -> A) (zero one half : A) (mean : list A -> A)
           (f : farr A A) (axis : list string) : res (farr A A) :=
  if negb (forallb (fun ax => smem ax (f_axes f)) axis) then Err ValueError
  else
    v <- axes_vertex f ;;
    let axes_center := filter (fun ax => negb (smem ax v)) axis in
    outputs <- match axes_center with
               | [] => Ok (f_outputs f)
               | _ => na_cell_centers add mul sub zero one half (f_outputs f) (Some axes_center) None
               end ;;
    measure <- volume_cell sub (f_inputs f) axis ;;
    p <- array_ufunc (bin mul zero) [OpArr outputs; OpArr measure] ;;
    o <- na_reduce true (fun l => fold_right add zero l) p (Some axis) false None None ;;
    i <- na_reduce true mean (f_inputs f) (Some axis) false None None ;;
    Ok (mkF i o).

(** [array_function_default], function_array_functions.py:32-125, without
    [where], [out], [dtype] and [initial].  The default of [keepdims] is [True].
    The set of axes of [cell_centers] has no order; here it is that of [axis]. *)
Definition f_reduce {A B C} (add mul sub : A -> A -> A) (zero one half : A) (mean : list A -> A)
           (identity : bool) (red : list B -> C) (f : farr A B) (axis : option (list string)) (keepdims : bool)
  : res (farr A C) :=
  sh <- f_shape f ;;
  let axis_n := match axis with Some l => l | None => dkeys sh end in
  if match axis with Some l => negb (forallb (fun ax => smem ax (dkeys sh)) l) | None => false end
  then Err ValueError
  else
    let along (s : shape) := Some (filter (fun ax => smem ax axis_n) (dkeys s)) in
    i <- (if keepdims then Ok (f_inputs f)
          else
            c <- axes_center f ;;
            a <- na_cell_centers add mul sub zero one half (f_inputs f)
                   (Some (filter (fun ax => negb (smem ax c)) axis_n)) None ;;
            na_reduce true mean a (along (sshape a)) false None None) ;;
    o <- na_reduce identity red (f_outputs f) (along (sshape (f_outputs f))) keepdims None None ;;
    Ok (mkF i o).

(** [array_function_cumulative_reduce], function_array_functions.py:128-187,
    without [out] and [dtype] *)
Definition f_cumulative {A B C} (scan : list B -> C) (f : farr A B) (axis : option (list string)) : res (farr A C) :=
  sh <- f_shape f ;;
  match match axis with Some l => l | None => dkeys sh end with
  | [ax] =>
      match dget sh ax with
      | None => Err KeyError
      | Some n =>
          b <- na_broadcast_to (f_outputs f) [(ax, n)] true ;;
          o <- na_cumulative scan false b (Some [ax]) None ;;
          Ok (mkF (f_inputs f) o)
      end
  | _ => Err ValueError
  end.

(** [moveaxis], function_array_functions.py:407-445; a part without any of the
    source axes gives no pairs, which cannot be unpacked *)
Definition f_moveaxis {A B} (f : farr A B) (source destination : list string) : res (farr A B) :=
  sh <- f_shape f ;;
  if negb (forallb (fun s => smem s (dkeys sh)) source) then Err ValueError
  else
    let pairs (s : shape) := filter (fun p : string * string => smem (fst p) (dkeys s)) (combine source destination) in
    match pairs (sshape (f_inputs f)), pairs (sshape (f_outputs f)) with
    | [], _ | _, [] => Err ValueError
    | pi, po =>
        i <- na_moveaxis (f_inputs f) (map fst pi) (map snd pi) ;;
        o <- na_moveaxis (f_outputs f) (map fst po) (map snd po) ;;
        Ok (mkF i o)
    end.

(** [take_along_axis], function_array_functions.py:468-497 *)
Definition f_take_along_axis {A B} (f : farr A B) (indices : operand Z) (axis : string) : res (farr A B) :=
  sh <- f_shape f ;;
  match dget sh axis with
  | None => Err ValueError
  | Some n =>
      v <- axes_vertex f ;;
      if smem axis v then Err ValueError
      else
        i <- na_broadcast_to (f_inputs f) [(axis, n)] true ;;
        o <- na_broadcast_to (f_outputs f) [(axis, n)] true ;;
        i <- na_take_along_axis (OpArr i) indices axis ;;
        o <- na_take_along_axis (OpArr o) indices axis ;;
        Ok (mkF i o)
  end.

(** [array_function_stack_like] with [np.concatenate],
    function_array_functions.py:271-341, without [out] *)
Definition f_concatenate {A B} (arrays : list (farr A B)) (axis : string) : res (farr A B) :=
  shapes <- mapM f_shape arrays ;;
  if existsb (fun sh => negb (smem axis (dkeys sh))) shapes then Err ValueError
  else
    vs <- mapM axes_vertex arrays ;;
    if existsb (fun v => smem axis v) vs then Err ValueError
    else
      arrays <- mapM (fun f => sh <- f_shape f ;;
                               match dget sh axis with
                               | Some n => f_broadcast_to f [(axis, n)] true
                               | None => Err KeyError
                               end) arrays ;;
      i <- na_concatenate (map (fun f => OpArr (f_inputs f)) arrays) axis None ;;
      o <- na_concatenate (map (fun f => OpArr (f_outputs f)) arrays) axis None ;;
      Ok (mkF i o).

(** ** Elementwise functions *)

(** an argument of a ufunc: a function array, or a scalar array or number *)
Inductive fop (A B : Type) := FFun (f : farr A B) | FOp (o : operand B).
Arguments FFun {A B}. Arguments FOp {A B}.

Definition fop_outputs {A B} (x : fop A B) : operand B :=
  match x with FFun f => OpArr (f_outputs f) | FOp o => o end.

Definition fop_inputs {A B} (x : fop A B) : list (sarr A) :=
  match x with FFun f => [f_inputs f] | FOp _ => [] end.

(** [np.any(a != b)] *)
Definition na_differ {A} (eqb : A -> A -> bool) (a b : sarr A) : res bool :=
  d <- array_ufunc (bin (fun x y => negb (eqb x y)) true) [OpArr a; OpArr b] ;;
  Ok (existsb (fun x => x) (ravel (s_nd d))).

(** [__array_ufunc__], functions.py:713-803, without [out] and [where];
    [InputValueError] is a ValueError, functions.py:25.  At least one argument is
    a function array, otherwise the method is not called. *)
Definition f_ufunc {A B C} (eqb : A -> A -> bool) (g : list B -> C) (args : list (fop A B)) : res (farr A C) :=
  match flat_map fop_inputs args with
  | [] => Err TypeError
  | i0 :: rest =>
      ds <- mapM (fun i => d <- na_differ eqb i i0 ;; if d then Err ValueError else Ok tt) rest ;;
      o <- array_ufunc g (map fop_outputs args) ;;
      Ok (mkF i0 o)
  end.

(** ** Assignment *)

(** the value of an assignment, functions.py:1132-1153: a function array, or a
    number or scalar array without axes *)
Inductive fvalue (A B : Type) := FVFun (f : farr A B) | FVOp (o : operand B).
Arguments FVFun {A B}. Arguments FVOp {A B}.

(** [__setitem__] with a dict of items, functions.py:1099-1157.  The inputs are
    assigned before the outputs: the first result is what is left in the array
    if an exception occurs. *)
Definition f_setitem {A B} (f : farr A B) (it : dict item) (value : fvalue A B) : farr A B * res unit :=
  match value with
  | FVFun g =>
      match axes_vertex f with
      | Err e => (f, Err e)
      | Ok v =>
          let ri := if existsb (fun ax => smem ax v) (dkeys (sshape (f_inputs g))) then Ok (f_inputs f)
                    else setitem (f_inputs f) it (OpArr (f_inputs g)) in
          match ri with
          | Err e => (f, Err e)
          | Ok i =>
              match setitem (f_outputs f) it (OpArr (f_outputs g)) with
              | Err e => (mkF i (f_outputs f), Err e)
              | Ok o => (mkF i o, Ok tt)
              end
          end
      end
  | FVOp o =>
      match o with
      | OpArr a => if 0 <? length (s_axes a) then (f, Err ValueError)
                   else match setitem (f_outputs f) it o with Err e => (f, Err e) | Ok r => (mkF (f_inputs f) r, Ok tt) end
      | OpNum _ => match setitem (f_outputs f) it o with Err e => (f, Err e) | Ok r => (mkF (f_inputs f) r, Ok tt) end
      end
  end.

(** ** Other shapes *)

(** [transpose], function_array_functions.py:386-404 *)
Definition f_transpose {A B} (f : farr A B) (axes : option (list string)) : res (farr A B) :=
  a <- f_broadcasted f ;;
  sh <- f_shape a ;;
  let axes := match axes with Some l => l | None => rev (dkeys sh) end in
  i <- na_transpose (f_inputs a) (Some axes) ;;
  o <- na_transpose (f_outputs a) (Some axes) ;;
  Ok (mkF i o).

(** [reshape], function_array_functions.py:448-465 *)
Definition f_reshape {A B} (f : farr A B) (sh : shape) : res (farr A B) :=
  v <- axes_vertex f ;;
  match v with
  | _ :: _ => Err ValueError
  | [] =>
      a <- f_broadcasted f ;;
      i <- na_reshape (f_inputs a) sh ;;
      o <- na_reshape (f_outputs a) sh ;;
      Ok (mkF i o)
  end.

(** [repeat], function_array_functions.py:599-624 *)
Definition f_repeat {A B} (f : farr A B) (repeats : operand nat) (axis : string) : res (farr A B) :=
  v <- axes_vertex f ;;
  if smem axis v then Err ValueError
  else
    a <- f_broadcasted f ;;
    i <- na_repeat (f_inputs a) repeats axis ;;
    o <- na_repeat (f_outputs a) repeats axis ;;
    Ok (mkF i o).

(** ** Percentiles *)

(** [array_function_percentile_like], function_array_functions.py:190-259, without
    [out] *)
Definition f_percentile {A B C Q} (mean : list A -> A) (valid : Q -> bool) (perc : Q -> list B -> C)
           (f : farr A B) (q : operand Q) (axis : option (list string)) (keepdims : bool) : res (farr A C) :=
  sh <- f_shape f ;;
  let axis_n := match axis with Some l => l | None => dkeys sh end in
  if match axis with Some l => negb (forallb (fun ax => smem ax (dkeys sh)) l) | None => false end
  then Err ValueError
  else
    let along (s : shape) := Some (filter (fun ax => smem ax axis_n) (dkeys s)) in
    i <- (if keepdims then Ok (f_inputs f)
          else na_reduce true mean (f_inputs f) (along (sshape (f_inputs f))) false None None) ;;
    o <- na_percentile valid perc (OpArr (f_outputs f)) q (along (sshape (f_outputs f))) None keepdims ;;
    Ok (mkF i o).

(** ** Copying *)

(** the mask of [np.copyto]: a Python bool or a function array *)
Inductive fmask (A : Type) := FMBool (b : bool) | FMFun (g : farr A bool).
Arguments FMBool {A}. Arguments FMFun {A}.

(** [copyto], function_array_functions.py:351-383, for function arrays that hold
    ndarrays; the first result is what [dst] is afterwards.  The mask of the inputs
    is [where.inputs], which is not boolean, unless the inputs are: [np.copyto] raises
    [TypeError], which the scalar [copyto] catches (scalar_array_functions.py:524-532),
    replacing the array without looking at its axes. *)
Definition f_copyto {A B} (eqb : A -> A -> bool) (dst src : farr A B) (where_ : fmask A) : farr A B * res unit :=
  let finish (i : res (sarr A)) (w : operand bool) :=
    match i with
    | Err e => (dst, Err e)
    | Ok i => match na_copyto true (f_outputs dst) (OpArr (f_outputs src)) w with
              | Err e => (mkF i (f_outputs dst), Err e)
              | Ok o => (mkF i o, Ok tt)
              end
    end in
  match where_ with
  | FMBool b => finish (na_copyto true (f_inputs dst) (OpArr (f_inputs src)) (OpNum b)) (OpNum b)
  | FMFun g =>
      match na_differ eqb (f_inputs g) (f_inputs src) with
      | Err e => (dst, Err e)
      | Ok true => (dst, Err ValueError)
      | Ok false =>
          let n := s_nd (f_inputs g) in
          let mask := mkS (mkNd (nshape n) (fun _ => true)) (s_axes (f_inputs g)) in
          finish (na_copyto false (f_inputs dst) (OpArr (f_inputs src)) (OpArr mask)) (OpArr (f_outputs g))
      end
  end.
