(** What choosing elements of vectors means. *)
From Coq Require Import String List Arith ZArith Bool Lia.
From Verif Require Import Base Numpy Shapes Scalar Vector Spec SpecVector SpecVectorReduce.
Import ListNotations.
Open Scope nat_scope.
Open Scope list_scope.

(** [t] is the structure that three vectors or scalars have together: all of them fit, and every
    vector inside [t] has the type and the components of the first of them that is a vector at
    that place *)
Definition together {L X Y Z} (t : tree L) (x : tree X) (y : tree Y) (z : tree Z) : Prop :=
  suits t x /\ suits t y /\ suits t z /\ forall p, kind t p = first_some [kind x p; kind y p; kind z p].

(** a bound that may be missing, as a vector of bounds that may be missing *)
Fixpoint given {A} (t : vec A) : tree (option (operand A)) :=
  match t with
  | Leaf o => Leaf (Some o)
  | Node ty cs => Node ty (map (fun kv => (fst kv, given (snd kv))) cs)
  end.
Definition bounds {A} (b : option (vec A)) : tree (option (operand A)) :=
  match b with Some v => given v | None => Leaf None end.

(** the value [v] not below [lo] and not above [hi], at one place *)
Definition clipped {A} (minimum maximum : A -> A -> A) (v : A) (lo hi : option (operand A)) (e : env) : A :=
  let v := match lo with Some b => maximum v (op_at b e) | None => v end in
  match hi with Some b => minimum v (op_at b e) | None => v end.

(** [o] may be missing, otherwise it fits into the shape *)
Definition bound_fits {A} (o : option (operand A)) (sh : shape) : Prop :=
  match o with Some b => op_fits b sh | None => True end.
Definition bound_wf {A} (b : option (vec A)) : Prop := match b with Some v => vec_wf v | None => True end.

(** every scalar of the vector is an array, not a plain number *)
Definition stored {A} (v : vec A) : Prop := tree_ok (fun o => exists a, o = OpArr a /\ wf a) v.
