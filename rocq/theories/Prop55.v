(** C55: indexing a vector agrees with its shape (violated by the code). *)
From Coq Require Import Ascii String List Arith ZArith Bool Lia.
From Verif Require Import Base Numpy Shapes Scalar Elementwise Vector Spec SpecVector VectorIndexFacts.
Import ListNotations.
Open Scope nat_scope.
Open Scope list_scope.

(** When every component has its full size along the axes that are indexed (or
    lacks them), indexing the vector gives the same elements as broadcasting it
    to its own shape first.  Components of size one along an indexed axis are
    excluded, see below. *)
Theorem C55_getitem_broadcast_partial :
  forall (A : Type) (v b rb : vec A) (sh : shape) (d : dict item),
  vec_wf v -> vec_shape v = Ok sh -> vec_broadcast_to v sh = Ok b ->
  NoDup (dkeys d) -> Forall (fun kv => item_wf (snd kv)) d ->
  (forall o ax n, In o (leaves v) -> In (ax, n) (op_shape o) -> In ax (dkeys d) -> In (ax, n) sh) ->
  vec_getitem b (plain d) = Ok rb ->
  exists r, vec_getitem v (plain d) = Ok r /\ (forall p, kind r p = kind rb p) /\
    forall p ob, leaf_at rb p = Some ob ->
      exists o, leaf_at r p = Some o /\ forall e, inside e (op_shape ob) -> op_at o e = op_at ob e.
Proof. exact @vec_getitem_broadcast. Qed.
Print Assumptions C55_getitem_broadcast_partial.

Open Scope string_scope.
Definition ex_one : sarr Z := mkS (of_list 0%Z [1] [5]%Z) ["a"].
Definition ex_three : sarr Z := mkS (of_list 0%Z [3] [0; 1; 2]%Z) ["a"].
Definition ex_v : vec Z := Node "Cartesian2d" [("x", Leaf (OpArr ex_one)); ("y", Leaf (OpArr ex_three))].

(** The shape of this vector says that it has three positions along [a], but the
    position 1 is refused. *)
Theorem C55_size_one_refuted :
  exists (v b rb : vec Z), vec_wf v /\
    vec_shape v = Ok [("a", 3)] /\ vec_broadcast_to v [("a", 3)] = Ok b /\
    vec_getitem b (plain [("a", ItInt 1%Z)]) = Ok rb /\
    vec_getitem v (plain [("a", ItInt 1%Z)]) = Err IndexError.
Proof.
  exists ex_v. eexists. eexists.
  split; [apply node_ok; [repeat constructor; simpl; intuition discriminate|simpl; intros ? ? H; repeat (destruct H as [H|H]; [injection H as <- <-; apply leaf_ok; split; [repeat constructor; simpl; intuition discriminate|reflexivity]|]); contradiction]|].
  repeat split.
Qed.
Print Assumptions C55_size_one_refuted.

(** A slice gives components of different sizes, so that the result has no
    shape. *)
Theorem C55_slice_refuted :
  exists (v r : vec Z), vec_shape v = Ok [("a", 3)] /\
    vec_getitem v (plain [("a", ItSlice (mkSlice (Some 1%Z) None None))]) = Ok r /\
    vec_shape r = Err ValueError.
Proof. exists ex_v. eexists. repeat split. Qed.
Print Assumptions C55_slice_refuted.

Definition ex_w : vec Z :=
  Node "Cartesian2d" [("x", Leaf (OpArr (mkS (of_list 0%Z [1; 3] [7; 8; 9]%Z) ["b"; "a"]))); ("y", Leaf (OpArr ex_three)); ("z", Leaf (OpArr (mkS (of_list 0%Z [2] [3; 4]%Z) ["b"])))].
Example C55_example :
  (forall o ax n, In o (leaves ex_w) -> In (ax, n) (op_shape o) -> In ax ["a"] -> In (ax, n) [("b", 2); ("a", 3)]) /\
  vec_shape ex_w = Ok [("b", 2); ("a", 3)] /\
  exists b rb r, vec_broadcast_to ex_w [("b", 2); ("a", 3)] = Ok b /\
  vec_getitem b (plain [("a", ItInt (-1)%Z)]) = Ok rb /\ vec_getitem ex_w (plain [("a", ItInt (-1)%Z)]) = Ok r /\
  match leaf_at rb ["x"], leaf_at r ["x"] with
  | Some (OpArr ob), Some (OpArr o) =>
      sshape ob = [("b", 2)] /\ ravel (s_nd ob) = [9; 9]%Z /\ sshape o = [("b", 1)] /\ ravel (s_nd o) = [9]%Z
  | _, _ => False
  end.
Proof.
  split; [|split; [reflexivity|do 3 eexists; repeat split]].
  intros o ax n H K [<- |[]]. simpl in H.
  destruct H as [<- |[<- |[<- |[]]]]; simpl in *; intuition congruence.
Qed.
