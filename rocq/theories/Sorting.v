(** Model of sorting, partitioning and of the functions that return index
    dictionaries (named_arrays/_scalars/scalar_array_functions.py). *)
From Coq Require Import String List Arith ZArith Bool Lia.
From Verif Require Import Base Numpy Shapes Scalar Reorder Elementwise Reduce Along.
Import ListNotations.
Open Scope nat_scope.
Open Scope list_scope.

(** a numpy function that replaces every line along the dimension [p] by a line
    of the same length (trusted numpy behaviour) *)
Definition np_lines {A} (h : list A -> list A) (a : nd A) (p : nat) : nd A :=
  mkNd (nshape a) (fun idx => nth (nth p idx 0) (h (np_line a p idx)) (nget a idx)).

(** [sort], scalar_array_functions.py:688-726.  [sort1] sorts one line
    ([kind] and [order] only change it).  [np.sort(a, axis=None)] sorts the
    flattened array. *)
Definition na_sort {A} (sort1 : list A -> list A) (a : sarr A) (axis : option (list string))
  : res (sarr A) :=
  match axis with
  | Some axis =>
      match axis with
      | [] => Err ValueError
      | _ =>
          if negb (forallb (fun ax => smem ax (s_axes a)) axis) then Err ValueError
          else
            axis_new <- flatten_axes axis ;;
            c <- combine_axes a (Some axis) (Some axis_new) ;;
            p <- index_of axis_new (s_axes c) ;;
            mk_sarr (np_lines sort1 (s_nd c) p) (s_axes c)
      end
  | None =>
      if length (s_axes a) =? 0 then Ok a
      else
        name <- flatten_axes (s_axes a) ;;
        mk_sarr (np_lines sort1 (reshape [size (s_nd a)] (s_nd a)) 0) [name]
  end.

(** [na.ScalarArrayRange(0, n, axis=ax)] *)
Definition arange (ax : string) (n : nat) : sarr Z :=
  mkS (mkNd [n] (fun idx => Z.of_nat (nth 0 idx 0))) [ax].

(** the entries that [argsort] and [arg_reduce] add for the axes that are not
    in [axis] *)
Definition add_ranges (sh : shape) (axis : list string) (d : dict (sarr Z)) : dict (sarr Z) :=
  fold_left (fun d kv => if smem (fst kv) axis then d else dset d (fst kv) (arange (fst kv) (snd kv))) sh d.

(** the part of the shape for the axes [axis], in the order of [axis] *)
Definition subshape (sh : shape) (axis : list string) : shape :=
  flat_map (fun ax => match dget sh ax with Some n => [(ax, n)] | None => [] end) axis.

(** [argsort], scalar_array_functions.py:729-779.  [argsort1] gives the
    positions that sort one line. *)
Definition na_argsort {A} (argsort1 : list A -> list nat) (a : sarr A) (axis : option (list string))
  : res (dict (sarr Z)) :=
  if match axis with None => length (s_axes a) =? 0 | Some _ => false end then Ok []
  else
    let axis := match axis with Some l => l | None => s_axes a end in
    if negb (forallb (fun ax => smem ax (s_axes a)) axis) then Err ValueError
    else
      axis_flattened <- flatten_axes axis ;;   (* raises ValueError for an empty sequence *)
      c <- combine_axes a (Some axis) (Some axis_flattened) ;;
      p <- index_of axis_flattened (s_axes c) ;;
      indices <- mk_sarr (np_along (fun n => n) (fun l i => Z.of_nat (nth i (argsort1 l) 0)) (s_nd c) p) (s_axes c) ;;
      d <- na_unravel_index indices (subshape (sshape a) axis) ;;
      Ok (add_ranges (sshape a) (dkeys d) d).

Fixpoint del_nth {A} (p : nat) (l : list A) : list A :=
  match l with
  | [] => []
  | x :: l' => match p with 0 => l' | S p' => x :: del_nth p' l' end
  end.

Fixpoint ins_nth {A} (p : nat) (x : A) (l : list A) : list A :=
  match p with
  | 0 => x :: l
  | S p' => match l with [] => [x] | y :: l' => y :: ins_nth p' x l' end
  end.

(** [np.argmin(a, axis=p)], [np.argmax]: [pick] gives the position in a line;
    numpy refuses an empty axis *)
Definition np_arg_reduce {A} (pick : list A -> nat) (a : nd A) (p : nat) : res (nd Z) :=
  if nth p (nshape a) 0 =? 0 then Err ValueError
  else Ok (mkNd (del_nth p (nshape a)) (fun idx => Z.of_nat (pick (np_line a p (ins_nth p 0 idx))))).

(** [array_function_arg_reduce], scalar_array_functions.py:376-413 *)
Definition na_arg_reduce {A} (pick : list A -> nat) (a : sarr A) (axis : option (list string))
  : res (dict (sarr Z)) :=
  match axis with
  | Some axis =>
      if negb (forallb (fun ax => smem ax (s_axes a)) axis) then Err ValueError
      else
        axis_flattened <- flatten_axes axis ;;
        c <- combine_axes a (Some axis) (Some axis_flattened) ;;
        p <- index_of axis_flattened (s_axes c) ;;
        n <- np_arg_reduce pick (s_nd c) p ;;
        indices <- mk_sarr n (filter (fun ax => negb (String.eqb ax axis_flattened)) (s_axes c)) ;;
        d <- na_unravel_index indices (subshape (sshape a) axis) ;;
        Ok (add_ranges (sshape a) axis d)
  | None =>
      if length (s_axes a) =? 0 then Err ValueError
      else if size (s_nd a) =? 0 then Err ValueError  (* numpy: argmin of an empty sequence *)
      else na_unravel_index (mkS (scalar (Z.of_nat (pick (ravel (s_nd a))))) []) (sshape a)
  end.

(** [partition], scalar_array_functions.py:816-838.  [part1 l] partitions one
    line; numpy requires the positions [kth] to be in range. *)
Definition na_partition {A} (part1 : list A -> list A) (kth : list Z) (a : sarr A) (axis : string)
  : res (sarr A) :=
  if negb (smem axis (s_axes a)) then Err ValueError
  else
    p <- index_of axis (s_axes a) ;;
    if negb (forallb (zvalid (nth p (nshape (s_nd a)) 0)) kth) then Err ValueError
    else mk_sarr (np_lines part1 (s_nd a) p) (s_axes a).

(** the index dictionary as an item for indexing *)
Definition as_item (d : dict (sarr Z)) : dict item := map (fun kv => (fst kv, ItArr (snd kv))) d.
