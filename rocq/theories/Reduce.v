(** Model of the reductions along named axes
    (named_arrays/_scalars/scalar_array_functions.py). *)
From Coq Require Import String List Arith ZArith Bool Lia.
From Verif Require Import Base Numpy Shapes Scalar Reorder.
Import ListNotations.
Open Scope nat_scope.
Open Scope list_scope.

(** the entries of [l] whose flag is [b] *)
Fixpoint pick {A} (b : bool) (flags : list bool) (l : list A) : list A :=
  match flags, l with
  | f :: flags', x :: l' => if Bool.eqb f b then x :: pick b flags' l' else pick b flags' l'
  | _, _ => []
  end.

(** put the reduced positions [red] back between the kept positions [kept] *)
Fixpoint merge_idx (flags : list bool) (kept red : list nat) : list nat :=
  match flags with
  | [] => []
  | true :: flags' => hd 0 red :: merge_idx flags' kept (tl red)
  | false :: flags' => hd 0 kept :: merge_idx flags' (tl kept) red
  end.

(** A numpy reduction [func(a, axis=axes, keepdims=keepdims, where=mask, out=out)]
    (trusted numpy behaviour).  [f] computes one element of the result from the
    list of the reduced elements in row-major order.  [identity] tells whether
    [f] is defined on the empty list: functions like [min] without [initial]
    raise when there is nothing to reduce and do not accept a mask.  The mask
    must broadcast to the shape of [a]; [axes] must not repeat; [out], if given,
    must have the shape of the result. *)
Definition np_reduce {A B} (identity : bool) (f : list A -> B) (a : nd A) (axes : list nat)
           (keepdims : bool) (mask : option (nd bool)) (out : option (nd B)) : res (nd B) :=
  let flags := map (fun p => nmem p axes) (seq 0 (ndim a)) in
  let kept := pick false flags (nshape a) in
  let red := pick true flags (nshape a) in
  let result_shape :=
    if keepdims then map (fun p : bool * nat => if fst p then 1 else snd p) (combine flags (nshape a)) else kept in
  let selected idx := match mask with Some m => bget m idx | None => true end in
  if negb (nnodupb axes) then Err ValueError
  else if negb (match mask with
                | Some m => identity && bto_rev (rev (nshape m)) (rev (nshape a))
                | None => true
                end) then Err ValueError
  else if negb identity && (prod red =? 0) && negb (prod kept =? 0) then Err ValueError
  else if negb (match out with Some o => idx_eqb (nshape o) result_shape | None => true end)
  then Err ValueError
  else Ok (mkNd result_shape
             (fun idx =>
                let k := if keepdims then pick false flags idx else idx in
                f (map (nget a) (filter selected (map (merge_idx flags k) (ndindex red)))))).

(** [axis_normalized], named_arrays/_core.py:282-303 (a single name is a
    one-element sequence) *)
Definition axis_normalized {A} (a : sarr A) (axis : option (list string)) : list string :=
  match axis with None => s_axes a | Some l => l end.

(** [array_function_default], scalar_array_functions.py:179-242.  [dtype] is not
    modelled; [initial] is part of [f]. *)
Definition na_reduce {A B} (identity : bool) (f : list A -> B) (a : sarr A)
           (axis : option (list string)) (keepdims : bool) (where_ : option (operand bool))
           (out : option (sarr B)) : res (sarr B) :=
  sh <- broadcast_shapes (sshape a :: match where_ with Some w => op_shapes [w] | None => [] end) ;;
  let axis_n := axis_normalized a axis in
  if match axis with
     | Some _ => negb (forallb (fun ax => smem ax (dkeys sh)) axis_n)
     | None => false
     end then Err ValueError
  else
    let axes_ndarray :=
      match out with
      | Some o => if keepdims then s_axes o
                  else s_axes o ++ filter (fun ax => negb (smem ax (s_axes o))) (dkeys sh)
      | None => dkeys sh
      end in
    axes <- mapM (fun ax => index_of ax axes_ndarray) axis_n ;;
    mask <- match where_ with
            | Some w => m <- op_aligned axes_ndarray w ;; Ok (Some m)
            | None => Ok None
            end ;;
    let axes_result := if keepdims then axes_ndarray
                       else filter (fun ax => negb (smem ax axis_n)) axes_ndarray in
    n <- ndarray_aligned a axes_ndarray ;;
    r <- np_reduce identity f n axes keepdims mask (option_map s_nd out) ;;
    match out with
    | None => mk_sarr r axes_result
    | Some o => Ok (mkS r (s_axes o))
    end.
