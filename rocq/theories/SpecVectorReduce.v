(** The vocabulary for reductions of vectors. *)
From Coq Require Import Ascii String List Arith ZArith Bool Lia.
From Verif Require Import Base Numpy Shapes Scalar Vector Spec SpecVector.
Import ListNotations.
Open Scope nat_scope.
Open Scope list_scope.

(** the axes that are reduced *)
Definition axes_of (axis : option (list string)) (sh : shape) : list string :=
  match axis with Some l => l | None => dkeys sh end.

(** the shape after a reduction over [S] *)
Definition reduced (keepdims : bool) (S : list string) (sh : shape) : shape :=
  if keepdims then map (fun kv => if smem (fst kv) S then (fst kv, 1) else kv) sh
  else filter (fun kv => negb (smem (fst kv) S)) sh.

(** the flag at a labelled index for the component [p] *)
Definition allowed (where_ : option (vec bool)) (p : list string) (e : env) : bool :=
  match where_ with
  | None => true
  | Some w => match reaches w p with Some m => op_at m e | None => true end
  end.

(** a mask for the vector [v]: a scalar, or a vector with a flag for every component *)
Definition mask_for {A} (v : vec A) (where_ : option (vec bool)) : Prop :=
  forall w, where_ = Some w -> vec_wf w /\ forall p o, leaf_at v p = Some o -> reaches w p <> None.

(** the shape of an operation on arrays with the shapes [l]: an axis has size [n]
    when some array has it with that size, and every array fits *)
Definition joint (l : list shape) (T : shape) : Prop :=
  NoDup (dkeys T) /\ (forall s, In s l -> fits_in s T) /\ forall ax n, In (ax, n) T -> exists s, In s l /\ In (ax, n) s.

(** the shapes of the scalars of a vector and of its mask *)
Definition leaf_shapes {A} (v : vec A) (where_ : option (vec bool)) : list shape :=
  map op_shape (leaves v) ++ match where_ with Some w => map op_shape (leaves w) | None => [] end.
