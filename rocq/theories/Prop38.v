(** C38: array_equal compares labelled contents (violated by the code). *)
From Coq Require Import String List Arith ZArith Bool Lia Sorted.
From Verif Require Import Base Numpy Shapes Scalar Reorder Spec ReorderFacts.
Import ListNotations.
Open Scope nat_scope.
Open Scope list_scope.

(** Partial: correct for arrays that store the same axes in the same order. *)
Theorem C38_array_equal_partial :
  forall (A : Type) (eqb : A -> A -> bool) (a b : sarr A),
  (forall x y, eqb x y = true <-> x = y) ->
  wf a -> wf b -> s_axes a = s_axes b ->
  (na_array_equal eqb a b = true <-> same_array a b).
Proof. exact @array_equal_same_axes. Qed.
Print Assumptions C38_array_equal_partial.

Open Scope string_scope.
Definition ex_a : sarr Z := mkS (of_list 0%Z [2; 3] [0; 1; 2; 10; 11; 12]%Z) ["x"; "y"].
Definition ex_b : sarr Z := mkS (of_list 0%Z [3; 2] [0; 10; 1; 11; 2; 12]%Z) ["y"; "x"].
Definition ex_c : sarr Z := mkS (of_list 0%Z [2; 3] [0; 1; 2; 10; 11; 12]%Z) ["x"; "z"].
Lemma ex_wf (n : nd Z) (x y : string) : length (nshape n) = 2 -> x <> y -> wf (mkS n [x; y]).
Proof. intros L H. split; simpl; [repeat constructor; simpl; intuition congruence|auto]. Qed.

Example C38_example :
  wf ex_a /\ na_array_equal Z.eqb ex_a ex_a = true /\
  na_array_equal Z.eqb ex_a (mkS (of_list 0%Z [2; 3] [0; 1; 2; 10; 11; 13]%Z) ["x"; "y"]) = false.
Proof. split; [apply ex_wf; [reflexivity|discriminate]|split; reflexivity]. Qed.

(** Arrays with different axes are reported equal. *)
Theorem C38_different_axes_refuted :
  exists a b : sarr Z, wf a /\ wf b /\ ~ same_array a b /\ na_array_equal Z.eqb a b = true.
Proof.
  exists ex_a, ex_c.
  split; [apply ex_wf; [reflexivity|discriminate]|].
  split; [apply ex_wf; [reflexivity|discriminate]|].
  split; [|reflexivity]. intros [H _]. specialize (H "y" 3). simpl in H.
  assert (K : ("x", 2) = ("y", 3) \/ ("z", 3) = ("y", 3) \/ False) by (apply H; auto).
  destruct K as [K|[K|[]]]; discriminate.
Qed.
Print Assumptions C38_different_axes_refuted.

(** The same labelled array stored in two orders is reported different. *)
Theorem C38_storage_order_refuted :
  exists a b : sarr Z, wf a /\ wf b /\ same_array a b /\ na_array_equal Z.eqb a b = false.
Proof.
  exists ex_a, ex_b.
  split; [apply ex_wf; [reflexivity|discriminate]|].
  split; [apply ex_wf; [reflexivity|discriminate]|].
  split; [|reflexivity]. split.
  - intros ax n. simpl. split; intros [H|[H|[]]]; injection H as <- <-; auto.
  - intros e He.
    assert (Hx : e "x" < 2) by (apply He; left; auto).
    assert (Hy : e "y" < 3) by (apply He; right; left; auto).
    unfold at_. simpl. destruct (e "x") as [|[|]]; [| |lia]; (destruct (e "y") as [|[|[|]]]; [| | |lia]); reflexivity.
Qed.
Print Assumptions C38_storage_order_refuted.
