(** C54: vectors with different components do not combine (violated by the code). *)
From Coq Require Import Ascii String List Arith ZArith Bool Lia.
From Verif Require Import Base Numpy Shapes Scalar Elementwise Vector Spec SpecVector VectorIndexFacts.
Import ListNotations.
Open Scope nat_scope.
Open Scope list_scope.

(** An argument that lacks a component of the first vector is refused.  The
    refusal of components that the first vector lacks is missing, see below. *)
Theorem C54_missing_component_partial :
  forall (A B : Type) (f : list A -> B) (inputs : list (vec A)) ty cs cs' c,
  first_node inputs = Some (ty, cs) -> In (Node ty cs') inputs -> In c (map fst cs) -> ~ In c (map fst cs') ->
  exists e, vec_ufunc f inputs = Err e.
Proof. exact @vec_ufunc_missing. Qed.
Print Assumptions C54_missing_component_partial.

Open Scope string_scope.
Definition ex_v : vec Z := Node "CartesianNd" [("x", Leaf (OpNum 1%Z)); ("y", Leaf (OpNum 2%Z))].
Definition ex_w : vec Z := Node "CartesianNd" [("x", Leaf (OpNum 10%Z)); ("y", Leaf (OpNum 20%Z)); ("z", Leaf (OpNum 30%Z))].
Definition add (l : list Z) : Z := fold_right Z.add 0%Z l.

(** Components that the first vector lacks are dropped in silence, while the same
    operands in the other order are refused. *)
Theorem C54_dropped_refuted :
  exists (v w r : vec Z),
    vec_wf v /\ vec_wf w /\ leaf_at w ["z"] = Some (OpNum 30%Z) /\ leaf_at v ["z"] = None /\
    vec_ufunc add [v; w] = Ok r /\ leaf_at r ["z"] = None /\
    vec_ufunc add [w; v] = Err KeyError.
Proof.
  exists ex_v, ex_w. eexists.
  split; [apply node_ok; [repeat constructor; simpl; intuition discriminate|simpl; intros ? ? H; repeat (destruct H as [H|H]; [injection H as <- <-; apply leaf_ok; exact I|]); contradiction]|].
  split; [apply node_ok; [repeat constructor; simpl; intuition discriminate|simpl; intros ? ? H; repeat (destruct H as [H|H]; [injection H as <- <-; apply leaf_ok; exact I|]); contradiction]|].
  repeat split.
Qed.
Print Assumptions C54_dropped_refuted.

Example C54_example : vec_ufunc add [ex_w; ex_v] = Err KeyError.
Proof. reflexivity. Qed.
