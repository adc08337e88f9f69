(** The vocabulary for nested structures. *)
From Coq Require Import String List Arith ZArith Bool Lia.
From Verif Require Import Base Numpy Shapes Scalar Vector Struct Spec SpecVector.
Import ListNotations.
Open Scope nat_scope.
Open Scope list_scope.

(** the same nesting with the same names, types related by [T] and leaves related
    by [R] *)
Inductive tree_rel {L M} (T : string -> string -> Prop) (R : L -> M -> Prop) : tree L -> tree M -> Prop :=
| rel_leaf l m : R l m -> tree_rel T R (Leaf l) (Leaf m)
| rel_node ty ty' cs cs' : T ty ty' ->
    Forall2 (fun kv kv' => fst kv' = fst kv /\ tree_rel T R (snd kv) (snd kv')) cs cs' ->
    tree_rel T R (Node ty cs) (Node ty' cs').

(** every node of a structure satisfies [P] *)
Inductive nodes_ok {L} (P : string -> Prop) : tree L -> Prop :=
| nodes_leaf l : nodes_ok P (Leaf l)
| nodes_node ty cs : P ty -> (forall c x, In (c, x) cs -> nodes_ok P x) -> nodes_ok P (Node ty cs).

(** the same storage: the axes in the same order with the same sizes, the same
    elements *)
Definition same_operand_storage {A} (o o' : operand A) : Prop :=
  match o, o' with
  | OpArr a, OpArr b => sshape b = sshape a /\ forall e, inside e (sshape a) -> at_ b e = at_ a e
  | OpNum x, OpNum y => y = x
  | _, _ => False
  end.

Definition layout_operand {A} (o o' : operand A) : Prop :=
  match o, o' with
  | OpArr a, OpArr b => wf b /\ sshape b = sshape a
  | OpNum _, OpNum _ => True
  | _, _ => False
  end.

Definition inside_nd (idx sh : list nat) : Prop := Forall2 lt idx sh.

Definition same_leaf {A} (l l' : leaf A) : Prop :=
  match l, l' with
  | LVec v, LVec w => tree_rel eq same_operand_storage v w
  | LNd n, LNd m => nshape m = nshape n /\ forall idx, inside_nd idx (nshape n) -> nget m idx = nget n idx
  | LOther x, LOther y | LClass x, LClass y => x = y
  | _, _ => False
  end.

Definition layout_leaf {A} (l l' : leaf A) : Prop :=
  match l, l' with
  | LVec v, LVec w => tree_rel eq layout_operand v w
  | LNd n, LNd m => nshape m = nshape n
  | LOther x, LOther y | LClass x, LClass y => x = y
  | _, _ => False
  end.

Definition leaf_wf {A} (l : leaf A) : Prop := match l with LVec v => vec_wf v | _ => True end.
Definition struct_wf {A} (s : struct A) : Prop := tree_ok leaf_wf s.

(** a leaf after indexing *)
Definition leaf_indexed {A} (it : dict (tree item)) (l l' : leaf A) : Prop :=
  match l with
  | LVec v => exists r, vec_getitem v it = Ok r /\ l' = LVec r
  | LNd _ | LOther _ => l' = l
  | LClass _ => False
  end.

(** the shapes of the arrays in a leaf *)
Definition leaf_shapes {A} (l : leaf A) : list shape :=
  match l with LVec v => map op_shape (leaves v) | _ => [] end.

(** an array whose dimensions have no names *)
Definition unnamed {A} (l : leaf A) : Prop :=
  match l with LNd n => nshape n <> [] | _ => False end.

(** the elements of an operand, in row-major order *)
Definition operand_chunk {A} (o : operand A) (c : list A) : Prop :=
  match o with
  | OpNum x => c = [x]
  | OpArr a =>
      length c = fold_right Nat.mul 1 (dvals (sshape a)) /\
      forall e, inside e (sshape a) ->
        nth_error c (row_major (dvals (sshape a)) (map e (s_axes a))) = Some (at_ a e)
  end.

Definition leaf_chunk {A} (l : leaf A) (c : list A) : Prop :=
  match l with
  | LVec v => exists cs, Forall2 operand_chunk (leaves v) cs /\ c = concat cs
  | LNd n => length c = fold_right Nat.mul 1 (nshape n) /\
      forall idx, inside_nd idx (nshape n) -> nth_error c (row_major (nshape n) idx) = Some (nget n idx)
  | LOther _ | LClass _ => c = []
  end.

(** for every element of a leaf, whether it is a Python number *)
Definition numbers {A} (l : leaf A) : list bool :=
  match l with
  | LVec v => flat_map (fun o => match o with
                                 | OpNum _ => [true]
                                 | OpArr a => repeat false (fold_right Nat.mul 1 (dvals (sshape a)))
                                 end) (leaves v)
  | LNd n => repeat false (fold_right Nat.mul 1 (nshape n))
  | LOther _ | LClass _ => []
  end.

(** the new elements [ys]; where the old element of [xs] is a Python number, the
    new one takes its type *)
Fixpoint retyped {A} (cast : A -> A -> A) (bs : list bool) (xs ys : list A) : list A :=
  match bs, xs, ys with
  | b :: bs', x :: xs', y :: ys' => (if b then cast x y else y) :: retyped cast bs' xs' ys'
  | _, _, _ => []
  end.
