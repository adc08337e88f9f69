(** The vocabulary for [np.argmin] and [np.argmax] of vectors. *)
From Coq Require Import String List Arith ZArith Bool Lia.
From Verif Require Import Base Numpy Shapes Scalar Vector Spec SpecVector.
Import ListNotations.
Open Scope nat_scope.
Open Scope list_scope.

(** the axes of [l] that an array of shape [sh] has *)
Definition shared (l : list string) (sh : shape) : list string := filter (fun ax => smem ax (dkeys sh)) l.

(** the order of a set: every element once *)
Definition lists_set (arrange : list string -> list string) : Prop :=
  forall l, NoDup (arrange l) /\ forall x, In x (arrange l) <-> In x l.

(** [q] is a position in [o] that differs from [e] only along the axes [l] *)
Definition varies {A} (o : operand A) (l : list string) (e q : env) : Prop :=
  inside q (op_shape o) /\ forall ax, In ax (dkeys (op_shape o)) -> ~ In ax l -> q ax = e ax.

(** [q] is the position of a least element among those, and the first in row-major order *)
Definition first_at {A} (le : A -> A -> Prop) (o : operand A) (l : list string) (e q : env) : Prop :=
  varies o l e q /\
  forall q', varies o l e q' -> le (op_at o q) (op_at o q') /\
    let s := shared l (op_shape o) in let n := map (size_of (op_shape o)) s in
    (row_major n (map q' s) < row_major n (map q s) -> ~ le (op_at o q') (op_at o q)).

(** every array of the vector can be searched: it has none of the axes, or it has elements and
    no other axis has the name of the combination of the axes *)
Definition searchable {A} (v : vec A) (l : list string) : Prop :=
  forall p a, leaf_at v p = Some (OpArr a) -> shared l (sshape a) <> [] ->
    (forall ax n, In (ax, n) (sshape a) -> n <> 0) /\
    (forall ax, In ax (s_axes a) -> ~ In ax l -> ax <> flat_name (shared l (sshape a))).
