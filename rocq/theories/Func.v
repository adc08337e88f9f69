(** Model of function arrays (named_arrays/_functions/functions.py) whose inputs
    and outputs are scalar arrays: bin centers and vertices, the shape, and
    indexing with a dict whose items are integers, slices and scalar arrays.
    Vector inputs, items that are function arrays, and masks are not modelled. *)
From Coq Require Import String List Arith ZArith Bool.
From Verif Require Import Base Numpy Shapes Scalar.
Import ListNotations.
Open Scope nat_scope.
Open Scope list_scope.

(** [FunctionArray], functions.py:1013-1030 *)
Record farr (A B : Type) := mkF { f_inputs : sarr A; f_outputs : sarr B }.
Arguments mkF {A B}. Arguments f_inputs {A B}. Arguments f_outputs {A B}.

(** [axes], functions.py:1056-1058 *)
Definition f_axes {A B} (f : farr A B) : list string := dkeys (dunion (sshape (f_inputs f)) (sshape (f_outputs f))).

(** one round of the loop of [axes_center], functions.py:62-83 *)
Definition axis_center (si so : shape) (ax : string) : res (list string) :=
  match dget si ax with
  | Some n =>
      match dget so ax with
      | Some m =>
          if n =? m then Ok [ax]
          else if n =? m + 1 then Ok []
          else if (m =? 1) || (n =? 1) then Ok [ax] else Err ValueError
      | None => Ok [ax]
      end
  | None => Ok [ax]
  end.

(** [axes_center], functions.py:53-85 *)
Definition axes_center {A B} (f : farr A B) : res (list string) :=
  l <- mapM (axis_center (sshape (f_inputs f)) (sshape (f_outputs f))) (f_axes f) ;; Ok (concat l).

(** [axes_vertex], functions.py:87-98 *)
Definition axes_vertex {A B} (f : farr A B) : res (list string) :=
  c <- axes_center f ;; Ok (filter (fun ax => negb (smem ax c)) (f_axes f)).

(** [shape], functions.py:1060-1079 *)
Definition f_shape {A B} (f : farr A B) : res shape :=
  c <- axes_center f ;;
  v <- axes_vertex f ;;
  let so := sshape (f_outputs f) in
  let si := sshape (f_inputs f) in
  broadcast_shapes [filter (fun kv => smem (fst kv) c) so; filter (fun kv => smem (fst kv) v) so;
                    filter (fun kv => smem (fst kv) c) si].

(** the items for the inputs and for the outputs along an axis of bin vertices,
    functions.py:585-599; [NotImplemented] ends in the ValueError of
    [__getitem__], _core.py:1052-1073, since [_getitem_reversed] of scalar arrays
    is not implemented, scalars.py:490-495 *)
Definition vertex_item (i : item) : res (item * item) :=
  match i with
  | ItInt z | ItNpInt z =>
      Ok (ItSlice (mkSlice (Some z) (Some (z + 2)%Z) None), ItSlice (mkSlice (Some z) (Some (z + 1)%Z) None))
  | ItSlice s =>
      let inp := match sl_start s, sl_stop s with
                 | None, None => s
                 | _, Some k => mkSlice (sl_start s) (Some (k + 1)%Z) None
                 | _, None => mkSlice (sl_start s) None None
                 end in
      Ok (ItSlice inp, ItSlice s)
  | ItNone | ItArr _ => Err ValueError
  end.

(** the entries added to [item_inputs] and [item_outputs] for one item,
    functions.py:571-599 *)
Definition f_item {A B} (f : farr A B) (kv : string * item) : res (dict item * dict item) :=
  c <- axes_center f ;;
  v <- axes_vertex f ;;
  let (ax, i) := kv in
  if smem ax v then q <- vertex_item i ;; Ok ([(ax, fst q)], [(ax, snd q)])
  else Ok (if smem ax c && dmem (sshape (f_inputs f)) ax then [(ax, i)] else [],
           if smem ax c && dmem (sshape (f_outputs f)) ax then [(ax, i)] else []).

(** [_getitem] with a dict, functions.py:562-607 *)
Definition f_getitem {A B} (f : farr A B) (it : dict item) : res (farr A B) :=
  let it := filter (fun kv => smem (fst kv) (f_axes f)) it in
  parts <- mapM (f_item f) it ;;
  inputs <- getitem (f_inputs f) (concat (map fst parts)) ;;
  outputs <- getitem (f_outputs f) (concat (map snd parts)) ;;
  Ok (mkF inputs outputs).
