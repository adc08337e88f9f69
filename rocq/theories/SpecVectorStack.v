(** What joining vectors means. *)
From Coq Require Import String List Arith ZArith Bool Lia.
From Verif Require Import Base Numpy Shapes Scalar Vector Spec SpecVector.
Import ListNotations.
Open Scope nat_scope.
Open Scope list_scope.

(** [t] is the structure that the vectors and scalars [vs] have together: all of them fit, and
    every vector inside [t] has the type and the components of the first of them that is a vector
    at that place *)
Definition merges {L M} (t : tree L) (vs : list (tree M)) : Prop :=
  (forall v, In v vs -> suits t v) /\
  forall p, kind t p = first_some (map (fun v => kind v p) vs).

(** the scalars that the vectors have for the component at [p] *)
Definition scalars_at {L} (vs : list (tree L)) (p : list string) (os : list L) : Prop :=
  Forall2 (fun v o => reaches v p = Some o) vs os.

(** the sizes of the vectors along an axis *)
Definition lengths {A} (vs : list (vec A)) (axis : string) (ns : list nat) : Prop :=
  Forall2 (fun v n => exists sh, vec_shape v = Ok sh /\ In (axis, n) sh) vs ns.

(** [a] holds the arrays [os], of the sizes [ns] along the axis, one behind the other; the other
    axes are broadcast *)
Definition concatenated {A} (os : list (operand A)) (axis : string) (ns : list nat) (a : sarr A) : Prop :=
  (forall ax m, In (ax, m) (sshape a) <->
     if String.eqb ax axis then m = list_sum ns
     else sizes_of (map op_shape os) ax <> [] /\ common_size (sizes_of (map op_shape os) ax) m) /\
  forall k o n e, nth_error os k = Some o -> nth_error ns k = Some n -> e axis < n ->
    at_ a (set_env e axis (list_sum (firstn k ns) + e axis)) = op_at o e.

(** [a] holds the arrays [os] at the positions 0, 1, ... of a new axis *)
Definition stacked {A} (os : list (operand A)) (axis : string) (a : sarr A) : Prop :=
  (forall ax m, In (ax, m) (sshape a) <->
     if String.eqb ax axis then m = length os
     else sizes_of (map op_shape os) ax <> [] /\ common_size (sizes_of (map op_shape os) ax) m) /\
  forall k o e, nth_error os k = Some o -> e axis = k -> at_ a e = op_at o e.

(** arrays without the axis that broadcast *)
Definition stackable {A} (axis : string) (os : list (operand A)) : Prop :=
  (forall o, In o os -> ~ In axis (dkeys (op_shape o))) /\ ~ conflict (map op_shape os).
