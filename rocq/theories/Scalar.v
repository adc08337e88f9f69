(** Model of [ScalarArray] (named_arrays/_scalars/scalars.py). *)
From Coq Require Import String List Arith ZArith Bool Lia.
From Verif Require Import Base Numpy Shapes.
Import ListNotations.
Open Scope nat_scope.
Open Scope list_scope.

(** [ScalarArray], scalars.py:840-900: an ndarray and one name for each of its
    dimensions. *)
Record sarr (A : Type) : Type := mkS {
  s_nd : nd A;
  s_axes : list string
}.
Arguments mkS {A} _ _.
Arguments s_nd {A} _.
Arguments s_axes {A} _.

(** [ScalarArray.__post_init__], scalars.py:889-900 *)
Definition mk_sarr {A} (ndarray : nd A) (axes : list string) : res (sarr A) :=
  if negb (ndim ndarray =? length axes) then Err ValueError
  else if negb (nodupb axes) then Err ValueError
  else Ok (mkS ndarray axes).

(** [ScalarArray.shape], scalars.py:1025-1030 *)
Definition sshape {A} (a : sarr A) : shape := combine (s_axes a) (nshape (s_nd a)).

Definition index_of (ax : string) (axes : list string) : res nat :=
  match sindex ax axes with Some i => Ok i | None => Err ValueError end.

Definition axes_eqb (l1 l2 : list string) : bool :=
  if list_eq_dec string_dec l1 l2 then true else false.

(** [ndarray_aligned], scalars.py:283-319 *)
Definition ndarray_aligned {A} (self : sarr A) (axes : list string) : res (nd A) :=
  if axes_eqb axes (s_axes self) then Ok (s_nd self)
  else
    let value := newaxes (length axes - ndim (s_nd self)) (s_nd self) in
    destination <- mapM (fun ax => index_of ax axes) (s_axes self) ;;
    Ok (moveaxis (seq 0 (length (s_axes self))) destination value).

(** [add_axes], scalars.py:321-329 *)
Definition add_axes {A} (self : sarr A) (axes : list string) : res (sarr A) :=
  let shape_new := fold_left (fun d ax => dset d ax 1) axes [] in
  let sh := dunion shape_new (sshape self) in
  n <- ndarray_aligned self (dkeys sh) ;;
  mk_sarr n (dkeys sh).

(** Python's [list.insert(i, x)] for the nonnegative [i] computed below; an
    index past the end appends. *)

(** [change_axis_index], scalars.py:331-353.  [shape.pop(axis)] raises KeyError
    when the axis is absent; [%] is Python's (nonnegative) modulo. *)
Definition change_axis_index {A} (self : sarr A) (axis : string) (index : Z) : res (sarr A) :=
  match dget (sshape self) axis with
  | None => Err KeyError
  | Some _ =>
      let keys := dkeys (ddel (sshape self) axis) in
      let i := Z.to_nat (Z.modulo index (Z.of_nat (length (sshape self))) + 1) in
      let keys' := insert_at i axis keys in
      n <- ndarray_aligned self keys' ;;
      mk_sarr n keys'
  end.

(** [combine_axes], scalars.py:355-388.  The three loops of the code only
    compute the axes that stay (in order), the axes to merge (in the order
    given) and the source/destination lists of [np.moveaxis]; [list.index] on
    an absent name raises ValueError. *)
Definition pop_append (l : list string) (ax : string) : res (list string) :=
  if smem ax l
  then Ok (filter (fun x => negb (String.eqb x ax)) l ++ [ax])
  else Err ValueError.

Definition sremove (l : list string) (ax : string) : list string :=
  filter (fun x => negb (String.eqb x ax)) l.

Definition combine_axes {A} (self : sarr A) (axes : option (list string))
           (axis_new : option string) : res (sarr A) :=
  let axes := match axes with None => s_axes self | Some l => l end in
  axis_new <- match axis_new with None => flatten_axes axes | Some s => Ok s end ;;
  axes_new <- foldM pop_append axes (s_axes self) ;;
  source <- mapM (fun ax => index_of ax (s_axes self)) axes ;;
  destination <- mapM (fun ax => index_of ax axes_new) axes ;;
  if negb (nodupb axes) then Err ValueError   (* second [remove] of a repeated name fails *)
  else
    let moved := moveaxis source destination (s_nd self) in
    let kept := fold_left sremove axes axes_new in
    let k := length kept in
    let dims := nshape moved in
    (* [reshape((..., -1))]: numpy cannot infer the size when the other sizes
       have product 0 and raises ValueError *)
    if prod (firstn k dims) =? 0 then Err ValueError
    else
      let shape_new := firstn k dims ++ [prod (skipn k dims)] in
      mk_sarr (reshape shape_new moved) (kept ++ [axis_new]).

(** ** Elementwise operations *)

(** an operand: a scalar array or a plain number *)
Inductive operand (A : Type) : Type :=
| OpArr (a : sarr A)
| OpNum (x : A).
Arguments OpArr {A} _.
Arguments OpNum {A} _.

Definition op_shapes {A} (l : list (operand A)) : list shape :=
  flat_map (fun o => match o with OpArr a => [sshape a] | OpNum _ => [] end) l.

(** [shape_broadcasted], named_arrays/_core.py:206-216 *)
Definition shape_broadcasted {A} (l : list (operand A)) : res shape :=
  broadcast_shapes (op_shapes l).

Definition op_aligned {A} (axes : list string) (o : operand A) : res (nd A) :=
  match o with
  | OpArr a => ndarray_aligned a axes
  | OpNum x => Ok (scalar x)
  end.

(** [__array_ufunc__], scalars.py:527-610, without [out] and [where] *)
Definition array_ufunc {A B} (f : list A -> B) (inputs : list (operand A)) : res (sarr B) :=
  sh <- shape_broadcasted inputs ;;
  inputs_ndarray <- mapM (op_aligned (dkeys sh)) inputs ;;
  r <- ufunc f inputs_ndarray ;;
  mk_sarr r (dkeys sh).

(** ** Broadcasting *)

(** [broadcast_to], scalar_named_array_functions.py:193-208 *)
Definition na_broadcast_to {A} (a : sarr A) (sh : shape) (append : bool) : res (sarr A) :=
  sh <- (if append then broadcast_shapes [sshape a; sh] else Ok sh) ;;
  n <- ndarray_aligned a (dkeys sh) ;;
  r <- broadcast_to n (dvals sh) ;;
  mk_sarr r (dkeys sh).

(** ** Indexing *)

(** the values a dict item may have *)
Inductive item : Type :=
| ItNone                      (* [None], skipped like a full slice *)
| ItInt (z : Z)               (* a Python [int] *)
| ItNpInt (z : Z)             (* a numpy integer scalar such as [np.int64] *)
| ItSlice (s : pyslice)
| ItArr (v : sarr Z).         (* an integer [ScalarArray] *)

(** [np.issubdtype(type(item_axis), np.integer)] accepts both kinds of integers,
    scalars.py:452-459 *)
Definition get_advanced (i : item) : bool :=
  match i with ItInt _ | ItNpInt _ | ItArr _ => true | _ => false end.

Definition item_operand (i : item) : list (operand Z) :=
  match i with
  | ItArr v => [OpArr v]
  | ItInt z | ItNpInt z => [OpNum z]
  | _ => []
  end.

(** element of the numpy index tuple for one item, scalars.py:473-480 *)
Definition item_ix (axes_adv : list string) (i : item) : res ixel :=
  match i with
  | ItNone => Ok (IxSlice slice_all)
  | ItInt z | ItNpInt z => Ok (IxInt z)
  | ItSlice s => Ok (IxSlice s)
  | ItArr v => n <- ndarray_aligned v axes_adv ;; Ok (IxArr n)
  end.

(** index tuple in the order of [axes_self] *)
Definition index_tuple (axes_adv : list string) (it : dict item) (axes_self : list string)
  : res (list ixel) :=
  mapM (fun ax => match dget it ax with
                  | Some i => item_ix axes_adv i
                  | None => Ok (IxSlice slice_all)
                  end) axes_self.

(** [_getitem] with a dict, scalars.py:433-485 *)
Definition getitem {A} (self : sarr A) (it : dict item) : res (sarr A) :=
  let axes := s_axes self in
  let it := filter (fun kv => smem (fst kv) axes) it in
  match it with
  | [] => Ok self
  | _ =>
      let adv := filter (fun kv => get_advanced (snd kv)) it in
      shape_advanced <- shape_broadcasted (flat_map (fun kv => item_operand (snd kv)) adv) ;;
      source <- mapM (fun ax => index_of ax axes) (dkeys adv) ;;
      let organized := moveaxis source (seq 0 (length adv)) (s_nd self) in
      let axes_basic := filter (fun ax => negb (smem ax (dkeys adv))) axes in
      let axes_self := dkeys adv ++ axes_basic in
      let axes_value := dkeys shape_advanced ++ axes_basic in
      ix <- index_tuple (dkeys shape_advanced) it axes_self ;;
      r <- np_index ix organized ;;
      mk_sarr r axes_value
  end.

(** name of the axis holding masked elements, scalars.py:424-427 *)
Definition mask_axis (axes : list string) : string :=
  match axes with [] => "boolean"%string | _ => String.concat "*" axes end.

(** [_getitem] with a boolean array, scalars.py:412-431 *)
Definition getitem_mask {A} (self : sarr A) (mask : sarr bool) : res (sarr A) :=
  if negb (forallb (fun ax => smem ax (s_axes self)) (s_axes mask)) then Err ValueError
  else
    source <- mapM (fun ax => index_of ax (s_axes self)) (s_axes mask) ;;
    let value := moveaxis source (seq 0 (length (s_axes mask))) (s_nd self) in
    r <- np_mask (s_nd mask) value ;;
    mk_sarr (moveaxis [0] [ndim r - 1] r)
            (filter (fun ax => negb (smem ax (s_axes mask))) (s_axes self)
             ++ [mask_axis (s_axes mask)]).

(** ** Assignment *)

(** [isinstance(item_axis, int)] accepts only Python integers, scalars.py:1103 *)
Definition set_advanced (i : item) : bool :=
  match i with ItInt _ | ItArr _ => true | _ => false end.

(** the view of [self] written by [self.ndarray_aligned(axes_self)[...] = ...];
    aligning the array of multi-indices describes which element of the buffer
    each element of the view is. *)
Definition iota_of {A} (self : sarr A) : sarr (list nat) :=
  mkS (iota (nshape (s_nd self))) (s_axes self).

(** [ScalarArray.__setitem__] with a dict, scalars.py:1084-1126.  The result is
    the array after the assignment (the buffer is updated in place, the axes do
    not change).  In this function an item [None] would be passed on to numpy as
    [np.newaxis]; that use is not modelled and treated as an error. *)
Definition setitem {A} (self : sarr A) (it : dict item) (value : operand A) : res (sarr A) :=
  let axes := s_axes self in
  if negb (forallb (fun kv => smem (fst kv) axes) it) then Err ValueError
  else if existsb (fun kv => match snd kv with ItNone => true | _ => false end) it
  then Err TypeError
  else
    let adv := filter (fun kv => set_advanced (snd kv)) it in
    shape_advanced <- shape_broadcasted (flat_map (fun kv => item_operand (snd kv)) adv) ;;
    let axes_basic := filter (fun ax => negb (smem ax (dkeys adv))) axes in
    let axes_self := dkeys adv ++ axes_basic in
    let axes_value := dkeys shape_advanced ++ axes_basic in
    ix <- index_tuple (dkeys shape_advanced) it axes_self ;;
    v <- match value with
         | OpNum x => Ok (scalar x)
         | OpArr a => match sshape a with
                      | [] => Ok (s_nd a)
                      | _ => ndarray_aligned a axes_value
                      end
         end ;;
    whole <- ndarray_aligned (iota_of self) axes_self ;;
    view <- np_index ix whole ;;
    r <- assign (s_nd self) view v ;;
    Ok (mkS r axes).

(** [ScalarArray.__setitem__] with a boolean array, scalars.py:1064-1082 *)
Definition setitem_mask {A} (self : sarr A) (mask : sarr bool) (value : operand A)
  : res (sarr A) :=
  if negb (forallb (fun ax => smem ax (s_axes self)) (s_axes mask)) then Err ValueError
  else
    let axes_untouched := filter (fun ax => negb (smem ax (s_axes mask))) (s_axes self) in
    let axes_value := mask_axis (s_axes mask) :: axes_untouched in
    let axes_self := s_axes mask ++ axes_untouched in
    whole <- ndarray_aligned (iota_of self) axes_self ;;
    view <- np_mask (s_nd mask) whole ;;
    v <- match value with
         | OpNum x => ndarray_aligned (mkS (scalar x) []) axes_value
         | OpArr a => ndarray_aligned a axes_value
         end ;;
    r <- assign (s_nd self) view v ;;
    Ok (mkS r (s_axes self)).
