(** C56: assigning to a vector (violated by the code). *)
From Coq Require Import Ascii String List Arith ZArith Bool Lia.
From Verif Require Import Base Numpy Shapes Scalar Elementwise Vector Spec SpecVector VectorIndexFacts.
Import ListNotations.
Open Scope nat_scope.
Open Scope list_scope.

(** After an assignment that does not raise, every leaf has received its own part
    of the value at its own indices, and the type and the names of the components
    are unchanged. *)
Theorem C56_setitem_partial :
  forall (A : Type) (v : vec A) (it : dict (tree item)) (value r : vec A),
  vec_setitem v it value = (r, None) ->
  (forall p, kind r p = kind v p) /\ assigned v r it value.
Proof. exact @vec_setitem_spec. Qed.
Print Assumptions C56_setitem_partial.

(** The assignment does not raise when every leaf is an array that accepts its
    own part. *)
Theorem C56_setitem_success_partial :
  forall (A : Type) (v : vec A) (it : dict (tree item)) (value : vec A),
  vec_wf v -> items_suit v it -> suits v value ->
  (forall p x, leaf_at v p <> Some (OpNum x)) ->
  (forall p a d x, leaf_at v p = Some (OpArr a) -> items_at it p d -> reaches value p = Some x ->
     exists b, setitem a d x = Ok b) ->
  exists r, vec_setitem v it value = (r, None).
Proof. exact @vec_setitem_success. Qed.
Print Assumptions C56_setitem_success_partial.

Open Scope string_scope.
Definition ex_a : sarr Z := mkS (of_list 0%Z [3] [0; 1; 2]%Z) ["a"].
Definition ex_b : sarr Z := mkS (of_list 0%Z [2] [5; 6]%Z) ["b"].
Definition ex_v : vec Z := Node "Cartesian2d" [("x", Leaf (OpArr ex_a)); ("y", Leaf (OpArr ex_b))].

(** Indexing this vector along [a] is accepted, but assigning a number to the
    same selection raises, and leaves the vector half changed. *)
Theorem C56_not_atomic_refuted :
  exists (v r s : vec Z),
    vec_getitem v (plain [("a", ItInt 1%Z)]) = Ok s /\
    vec_setitem v (plain [("a", ItInt 1%Z)]) (Leaf (OpNum 9%Z)) = (r, Some ValueError) /\
    match leaf_at r ["x"] with Some (OpArr a) => ravel (s_nd a) = [0; 9; 2]%Z | _ => False end.
Proof. exists ex_v. eexists. eexists. repeat split. Qed.
Print Assumptions C56_not_atomic_refuted.

(** A component that is a plain number is refused even when the assignment
    changes nothing in it. *)
Theorem C56_number_refuted :
  exists (v r s : vec Z),
    vec_getitem v (plain [("a", ItInt 1%Z)]) = Ok s /\
    vec_setitem v (plain [("a", ItInt 1%Z)]) s = (r, Some TypeError).
Proof. exists (Node "Cartesian2d" [("x", Leaf (OpNum 3%Z)); ("y", Leaf (OpArr ex_a))]). eexists. eexists. repeat split. Qed.
Print Assumptions C56_number_refuted.

Definition ex_w : vec Z :=
  Node "Spectral" [("w", Leaf (OpArr ex_a)); ("p", Node "Cartesian2d" [("x", Leaf (OpArr (mkS (of_list 0%Z [3] [10; 11; 12]%Z) ["a"]))); ("y", Leaf (OpArr (mkS (of_list 0%Z [3] [20; 21; 22]%Z) ["a"])))])].
Example C56_example :
  exists r, vec_setitem ex_w [("a", Node "Spectral" [("w", Leaf (ItInt 0%Z)); ("p", Leaf (ItInt (-1)%Z))])]
    (Node "Spectral" [("w", Leaf (OpNum 7%Z)); ("p", Node "Cartesian2d" [("x", Leaf (OpNum 8%Z)); ("y", Leaf (OpNum 9%Z))])]) = (r, None) /\
  map (fun o => ravel (s_nd (normalize o))) (leaves r) = [[7; 1; 2]; [10; 11; 8]; [20; 21; 9]]%Z.
Proof. eexists. repeat split. Qed.

(** a nested component that fails is itself left half changed *)
Example C56_example_nested_state :
  exists r, vec_setitem (Node "Spectral" [("p", ex_v); ("w", Leaf (OpArr ex_a))]) (plain [("a", ItInt 1%Z)]) (Leaf (OpNum 9%Z))
            = (r, Some ValueError) /\
  map (fun o => ravel (s_nd (normalize o))) (leaves r) = [[0; 9; 2]; [5; 6]; [0; 1; 2]]%Z.
Proof. eexists. repeat split. Qed.
