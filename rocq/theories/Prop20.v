(** C20: pack and unpack are inverse (violated by the code for NamedTuples). *)
From Coq Require Import Ascii String List Arith ZArith Bool Lia.
From Verif Require Import Base Numpy Shapes Scalar Elementwise Vector Struct Spec SpecVector SpecStruct StructFacts.
Import ListNotations.
Open Scope nat_scope.
Open Scope list_scope.

(** The packed array is the elements of the leaves, one leaf after the other, each
    in row-major order. *)
Theorem C20_pack :
  forall (A : Type) (s : struct A), struct_wf s ->
  exists chunks, Forall2 leaf_chunk (leaves s) chunks /\ pack s = concat chunks.
Proof. exact @pack_spec. Qed.
Print Assumptions C20_pack.

(** The unpacked structure has the layout of the prototype, and packing it gives
    the flat array, where numbers take the type of the prototype's. *)
Theorem C20_unpack :
  forall (A : Type) (zero : A) (cast : A -> A -> A) (flat : list A) (p r : struct A),
  struct_wf p -> unpack zero cast flat p = Ok r ->
  tree_rel eq layout_leaf p r /\ length flat = length (pack p) /\
  pack r = retyped cast (flat_map numbers (leaves p)) (pack p) flat.
Proof. exact @unpack_spec. Qed.
Print Assumptions C20_unpack.

(** The layout and the elements determine the structure. *)
Theorem C20_unique :
  forall (A : Type) (s : struct A), struct_wf s -> forall r, tree_rel eq layout_leaf s r ->
  pack r = pack s -> tree_rel eq same_leaf s r.
Proof. exact @layout_unique. Qed.
Print Assumptions C20_unique.

(** Without NamedTuples, unpacking raises exactly when the flat array does not
    have the number of elements of the prototype. *)
Theorem C20_success_partial :
  forall (A : Type) (zero : A) (cast : A -> A -> A) (flat : list A) (p : struct A),
  struct_wf p -> nodes_ok (fun ty => is_named_tuple ty = false) p ->
  (exists r, unpack zero cast flat p = Ok r) <-> length flat = length (flat_map numbers (leaves p)).
Proof. exact @unpack_success. Qed.
Print Assumptions C20_success_partial.

(** Without NamedTuples, packing and unpacking gives the structure back. *)
Theorem C20_round_trip_partial :
  forall (A : Type) (zero : A) (cast : A -> A -> A) (s : struct A),
  (forall x, cast x x = x) -> struct_wf s -> nodes_ok (fun ty => is_named_tuple ty = false) s ->
  exists r, unpack zero cast (pack s) s = Ok r /\ tree_rel eq same_leaf s r.
Proof. exact @round_trip. Qed.
Print Assumptions C20_round_trip_partial.

(** Every NamedTuple is packed, but none can be unpacked. *)
Theorem C20_named_tuple_refuted :
  forall (A : Type) (zero : A) (cast : A -> A -> A) (flat : list A) ty cs,
  is_named_tuple ty = true -> exists e, unpack zero cast flat (Node ty cs) = Err e.
Proof. exact @unpack_named_tuple. Qed.
Print Assumptions C20_named_tuple_refuted.

Open Scope string_scope.
Definition ex_a : sarr Z := mkS (of_list 0%Z [2; 3] [1; 2; 3; 4; 5; 6]%Z) ["x"; "y"].
Definition ex_b : sarr Z := mkS (of_list 0%Z [2] [7; 8]%Z) ["y"].
Definition ex_s : struct Z :=
  Node "dict" [("a", Leaf (LVec (Leaf (OpArr ex_a))));
               ("l", Node "list" [("0", Leaf (LVec (Node "Cartesian2d" [("x", Leaf (OpNum 5%Z)); ("y", Leaf (OpArr ex_b))])));
                                  ("1", Leaf (LOther "name"));
                                  ("2", Leaf (LNd (of_list 0%Z [2] [9; 10]%Z)))])].

(** a type of numbers which can only be even, to see where types are restored *)
Definition even (x y : Z) : Z := (2 * (y / 2))%Z.

Definition show_operand (o : operand Z) := match o with OpArr a => (sshape a, ravel (s_nd a)) | OpNum x => ([], [x]) end.
Definition show_leaf (l : leaf Z) :=
  match l with
  | LVec v => map show_operand (leaves v)
  | LNd n => [(combine (map (fun _ => "_") (nshape n)) (nshape n), ravel n)]
  | _ => []
  end.
Definition show (r : res (struct Z)) := match r with Ok s => Some (map show_leaf (leaves s)) | Err _ => None end.

Example C20_example :
  pack ex_s = [1; 2; 3; 4; 5; 6; 5; 7; 8; 9; 10]%Z /\
  show (unpack 0%Z even [11; 12; 13; 14; 15; 16; 17; 18; 19; 20; 21]%Z ex_s) =
    Some [[([("x", 2); ("y", 3)], [11; 12; 13; 14; 15; 16]%Z)];
          [([], [16%Z]); ([("y", 2)], [18; 19]%Z)]; []; [([("_", 2)], [20; 21]%Z)]] /\
  show (unpack 0%Z (fun _ y => y) (pack ex_s) ex_s) = show (Ok ex_s) /\
  unpack 0%Z even [11; 12; 13; 14; 15; 16; 17; 18; 19; 20]%Z ex_s = Err ValueError /\
  unpack 0%Z even [11; 12; 13; 14; 15; 16; 17; 18; 19; 20; 21; 22]%Z ex_s = Err ValueError /\
  unpack 0%Z even [] (Node "list" [("0", Leaf (LVec (Leaf (OpNum 3%Z))))]) = Err IndexError.
Proof. vm_compute. repeat split. Qed.

Example C20_example_wf : struct_wf ex_s /\ nodes_ok (fun ty => is_named_tuple ty = false) ex_s.
Proof.
  assert (Wa : wf ex_a) by (split; [repeat constructor; simpl; intuition discriminate|reflexivity]).
  assert (Wb : wf ex_b) by (split; [repeat constructor; simpl; intuition discriminate|reflexivity]).
  split.
  - apply node_ok; [repeat constructor; simpl; intuition discriminate|].
    simpl. intros c x [H|[H|[]]]; injection H as <- <-; [apply leaf_ok; apply leaf_ok; exact Wa|].
    apply node_ok; [repeat constructor; simpl; intuition discriminate|].
    simpl. intros c x [H|[H|[H|[]]]]; injection H as <- <-; apply leaf_ok; [|exact I|exact I].
    apply node_ok; [repeat constructor; simpl; intuition discriminate|].
    simpl. intros c x [H|[H|[]]]; injection H as <- <-; apply leaf_ok; [exact I|exact Wb].
  - apply nodes_node; [reflexivity|]. simpl. intros c x [H|[H|[]]]; injection H as <- <-; [constructor|].
    apply nodes_node; [reflexivity|]. simpl. intros c x [H|[H|[H|[]]]]; injection H as <- <-; constructor.
Qed.

(** a NamedTuple *)
Example C20_example_named_tuple :
  let s := Node "NamedTuplePoint" [("x", Leaf (LVec (Leaf (OpNum 1%Z)))); ("y", Leaf (LVec (Leaf (OpNum 2%Z))))] in
  pack s = [1; 2]%Z /\ unpack 0%Z (fun _ y => y) (pack s) s = Err TypeError.
Proof. vm_compute. repeat split. Qed.
