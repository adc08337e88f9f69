(** C21: na.getitem and na.shape traverse structures faithfully (violated by the
    code for leaves that are dataclass types). *)
From Coq Require Import Ascii String List Arith ZArith Bool Lia.
From Verif Require Import Base Numpy Shapes Scalar Elementwise Vector Struct Spec SpecVector SpecStruct StructFacts.
Import ListNotations.
Open Scope nat_scope.
Open Scope list_scope.

(** The result has the same nesting, every array leaf is [leaf[item]], and every
    other leaf is unchanged.  A NamedTuple becomes a tuple. *)
Theorem C21_getitem_partial :
  forall (A : Type) (s : struct A) (it : dict (tree item)) (r : struct A),
  s_getitem s it = Ok r ->
  tree_rel (fun ty ty' => ty' = if is_named_tuple ty then "tuple"%string else ty) (leaf_indexed it) s r.
Proof. exact @s_getitem_spec. Qed.
Print Assumptions C21_getitem_partial.

(** It succeeds exactly when every leaf can be indexed: a leaf which is a
    dataclass type cannot, although it is not an array.  See below. *)
Theorem C21_getitem_success_partial :
  forall (A : Type) (s : struct A) (it : dict (tree item)),
  (exists r, s_getitem s it = Ok r) <-> (forall l, In l (leaves s) -> exists l', leaf_indexed it l l').
Proof. exact @s_getitem_success. Qed.
Print Assumptions C21_getitem_success_partial.

(** na.shape is the broadcasted shape of all the array leaves. *)
Theorem C21_shape :
  forall (A : Type) (s : struct A),
  struct_wf s -> (forall l, In l (leaves s) -> ~ unnamed l) ->
  match s_shape s, broadcast_shapes (flat_map leaf_shapes (leaves s)) with
  | Ok r, Ok r' => same_shape r r'
  | Err e, Err e' => e = e'
  | _, _ => False
  end.
Proof. exact @s_shape_leaves. Qed.
Print Assumptions C21_shape.

(** An array with dimensions but without axis names is refused. *)
Theorem C21_shape_unnamed :
  forall (A : Type) (s : struct A) (l : leaf A),
  In l (leaves s) -> unnamed l -> exists e, s_shape s = Err e.
Proof. exact @s_shape_unnamed. Qed.
Print Assumptions C21_shape_unnamed.

(** An axis fixed by an integer is not in the shape of the result, unless an
    index array brings the name back. *)
Theorem C21_integer :
  forall (A : Type) (s r : struct A) (d : dict item) ax z sh,
  struct_wf s -> NoDup (dkeys d) -> Forall (fun kv => item_wf (snd kv)) d ->
  dget d ax = Some (ItInt z) -> (forall ax' v, In (ax', ItArr v) d -> ~ In ax (s_axes v)) ->
  s_getitem s (plain d) = Ok r -> s_shape r = Ok sh -> ~ In ax (dkeys sh).
Proof. exact @s_getitem_int_axis. Qed.
Print Assumptions C21_integer.

Open Scope string_scope.

(** A structure with a dataclass type among its leaves has a shape, but na.getitem
    raises even for the empty item. *)
Theorem C21_dataclass_type_refuted :
  exists (s : struct Z), struct_wf s /\ s_shape s = Ok [] /\ s_getitem s (plain []) = Err TypeError.
Proof.
  exists (Node "dict" [("kind", Leaf (LClass "Config"))]).
  split; [apply node_ok; [repeat constructor; simpl; tauto|]|split; reflexivity].
  simpl. intros c x [H|[]]. injection H as <- <-. apply leaf_ok. exact I.
Qed.
Print Assumptions C21_dataclass_type_refuted.

Definition ex_a : sarr Z := mkS (of_list 0%Z [2; 3] [1; 2; 3; 4; 5; 6]%Z) ["x"; "y"].
Definition ex_b : sarr Z := mkS (of_list 0%Z [3] [7; 8; 9]%Z) ["y"].
Definition ex_s : struct Z :=
  Node "dict" [("a", Leaf (LVec (Leaf (OpArr ex_a))));
               ("l", Node "list" [("0", Leaf (LVec (Node "Cartesian2d" [("x", Leaf (OpArr ex_b)); ("y", Leaf (OpNum 5%Z))])));
                                  ("1", Leaf (LOther "name"))])].

Fixpoint show_vec (v : vec Z) : list (shape * list Z) :=
  match v with
  | Leaf (OpArr a) => [(sshape a, ravel (s_nd a))]
  | Leaf (OpNum x) => [([], [x])]
  | Node _ cs => flat_map (fun kv => show_vec (snd kv)) cs
  end.
Definition show_leaf (l : leaf Z) := match l with LVec v => show_vec v | _ => [] end.
Definition show (r : res (struct Z)) := match r with Ok s => Some (map show_leaf (leaves s)) | Err _ => None end.

Example C21_example :
  show (s_getitem ex_s (plain [("y", ItInt (-1)%Z)])) =
    Some [[([("x", 2)], [3; 6]%Z)]; [([], [9%Z]); ([], [5%Z])]; []] /\
  s_shape ex_s = Ok [("x", 2); ("y", 3)] /\
  (match s_getitem ex_s (plain [("y", ItInt (-1)%Z)]) with Ok r => s_shape r | Err e => Err e end) = Ok [("x", 2)] /\
  s_getitem ex_s (plain [("y", ItInt 3%Z)]) = Err IndexError.
Proof. vm_compute. repeat split. Qed.

Example C21_example_wf : struct_wf ex_s.
Proof.
  assert (Wa : wf ex_a) by (split; [repeat constructor; simpl; intuition discriminate|reflexivity]).
  assert (Wb : wf ex_b) by (split; [repeat constructor; simpl; intuition discriminate|reflexivity]).
  apply node_ok; [repeat constructor; simpl; intuition discriminate|].
  simpl. intros c x [H|[H|[]]]; injection H as <- <-; [apply leaf_ok; apply leaf_ok; exact Wa|].
  apply node_ok; [repeat constructor; simpl; intuition discriminate|].
  simpl. intros c x [H|[H|[]]]; injection H as <- <-; apply leaf_ok; [|exact I].
  apply node_ok; [repeat constructor; simpl; intuition discriminate|].
  simpl. intros c x [H|[H|[]]]; injection H as <- <-; apply leaf_ok; [exact Wb|exact I].
Qed.

(** a conflict between two leaves, and an array without names *)
Example C21_example_errors :
  s_shape (Node "list" [("0", Leaf (LVec (Leaf (OpArr ex_b)))); ("1", Leaf (LVec (Leaf (OpArr (mkS (of_list 0%Z [2] [1; 2]%Z) ["y"])))))])
    = Err ValueError /\
  s_shape (Node "list" [("0", Leaf (LNd (of_list 0%Z [2] [1; 2]%Z)))]) = Err ValueError /\
  s_shape (Node "list" [("0", Leaf (LNd (scalar 3%Z)))]) = Ok [].
Proof. vm_compute. repeat split. Qed.

(** a NamedTuple becomes a tuple *)
Example C21_example_named_tuple :
  s_getitem (Node "NamedTupleP" [("x", Leaf (@LOther Z "q"))]) (plain []) = Ok (Node "tuple" [("x", Leaf (LOther "q"))]).
Proof. reflexivity. Qed.
