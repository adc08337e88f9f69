(** Named shapes: model of the free functions on shapes in [_core.py]. *)
From Coq Require Import String List Arith ZArith Bool Lia.
From Verif Require Import Base Numpy.
Import ListNotations.
Open Scope nat_scope.
Open Scope list_scope.

Definition shape := dict nat.

(** Python's [==] on dicts: same keys with the same values, any order. *)
Definition dict_eqb (d1 d2 : shape) : bool :=
  (length d1 =? length d2) &&
  forallb (fun kv => match dget d2 (fst kv) with
                     | Some v => v =? snd kv
                     | None => false
                     end) d1.

Fixpoint foldM {A B} (f : A -> B -> res A) (l : list B) (a : A) : res A :=
  match l with
  | [] => Ok a
  | x :: l' => a' <- f a x ;; foldM f l' a'
  end.

(** body of the inner loop, named_arrays/_core.py:189-202 *)
Definition bs_axis (result : shape) (kv : string * nat) : res shape :=
  let (axis, shape_axis) := kv in
  match dget result axis with
  | Some result_axis =>
      if result_axis =? shape_axis then Ok result
      else if shape_axis =? 1 then Ok result
      else if result_axis =? 1 then Ok (dset result axis shape_axis)
      else Err ValueError
  | None => Ok (dset result axis shape_axis)
  end.

(** body of the outer loop, named_arrays/_core.py:186-202 *)
Definition bs_shape (result s : shape) : res shape :=
  if dict_eqb s result then Ok result else foldM bs_axis s result.

(** [broadcast_shapes], named_arrays/_core.py:170-203 *)
Definition broadcast_shapes (shapes : list shape) : res shape :=
  match shapes with
  | [] => Ok []
  | s :: l => foldM bs_shape l s
  end.

(** [ndindex], named_arrays/_core.py:219-249.  [axis_ignored] is already a
    sequence (a single string is a one-element sequence, [None] the empty one). *)
Definition na_ndindex (s : shape) (axis_ignored : list string) : list (dict nat) :=
  let s' := fold_left ddel axis_ignored s in
  map (fun idx => combine (dkeys s') idx) (ndindex (dvals s')).

(** [flatten_axes], named_arrays/_core.py:264-279 *)
Definition flatten_axes (axes : list string) : res string :=
  match axes with
  | [] => Err ValueError
  | _ => Ok (String.concat "*" axes)
  end.
