(** C11: axis reordering preserves content; the requested order is honoured. *)
From Coq Require Import String List Arith ZArith Bool Lia Sorted.
From Verif Require Import Base Numpy Shapes Scalar Reorder Spec ReorderFacts.
Import ListNotations.
Open Scope nat_scope.
Open Scope list_scope.

(** [np.transpose(a, axes)] works exactly when [axes] is a list of distinct
    names containing those of [a]; the result lists the axes in that order, new
    names have size 1, and no labelled element changes. *)
Theorem C11_transpose_success :
  forall (A : Type) (a : sarr A) (axes : list string),
  wf a -> ((exists r, na_transpose a (Some axes) = Ok r) <-> NoDup axes /\ incl (s_axes a) axes).
Proof. exact @transpose_some_success. Qed.
Print Assumptions C11_transpose_success.

Theorem C11_transpose :
  forall (A : Type) (a : sarr A) (axes : list string) (r : sarr A),
  wf a -> na_transpose a (Some axes) = Ok r ->
  wf r /\ s_axes r = axes /\
  (forall ax n, In (ax, n) (sshape r) <->
     In (ax, n) (sshape a) \/ (~ In ax (s_axes a) /\ In ax axes /\ n = 1)) /\
  forall e, at_ r e = at_ a e.
Proof. exact @transpose_some. Qed.
Print Assumptions C11_transpose.

Theorem C11_transpose_default :
  forall (A : Type) (a : sarr A),
  wf a -> exists r, na_transpose a None = Ok r /\ wf r /\ s_axes r = rev (s_axes a) /\
    same_shape (sshape r) (sshape a) /\ forall e, at_ r e = at_ a e.
Proof. exact @transpose_none. Qed.
Print Assumptions C11_transpose_default.

(** [add_axes]: the requested names first, then the remaining axes of [a] *)
Theorem C11_add_axes :
  forall (A : Type) (a : sarr A) (axes : list string),
  wf a ->
  exists r, add_axes a axes = Ok r /\ wf r /\
    s_axes r = first_appearance (axes ++ s_axes a) /\
    (forall ax, dget (sshape r) ax =
       match dget (sshape a) ax with Some n => Some n | None => if smem ax axes then Some 1 else None end) /\
    forall e, at_ r e = at_ a e.
Proof. exact @add_axes_full. Qed.
Print Assumptions C11_add_axes.

(** [change_axis_index] keeps all the labelled elements and the relative order
    of the other axes, but it puts the axis one position too far (clipped to the
    last position): the requested position is [index mod n]. *)
Theorem C11_change_axis_index_partial :
  forall (A : Type) (a : sarr A) (axis : string) (index : Z),
  wf a -> In axis (s_axes a) ->
  exists r, change_axis_index a axis index = Ok r /\ wf r /\
    same_shape (sshape r) (sshape a) /\ (forall e, at_ r e = at_ a e) /\
    let n := length (s_axes a) in
    let i := Z.to_nat (Z.modulo index (Z.of_nat n)) in
    filter (fun x => negb (String.eqb x axis)) (s_axes r) =
      filter (fun x => negb (String.eqb x axis)) (s_axes a) /\
    nth_error (s_axes r) (Nat.min (S i) (n - 1)) = Some axis.
Proof. exact @change_axis_index_spec. Qed.
Print Assumptions C11_change_axis_index_partial.

Theorem C11_change_axis_index_absent :
  forall (A : Type) (a : sarr A) (axis : string) (index : Z),
  wf a -> ~ In axis (s_axes a) -> change_axis_index a axis index = Err KeyError.
Proof. exact @change_axis_index_absent. Qed.
Print Assumptions C11_change_axis_index_absent.

Open Scope string_scope.
Definition ex_a : sarr Z := mkS (of_list 0%Z [2; 3] [0; 1; 2; 10; 11; 12]%Z) ["x"; "y"].

Lemma ex_a_wf : wf ex_a.
Proof. split; [repeat constructor; simpl; intuition discriminate|reflexivity]. Qed.

Example C11_example :
  wf ex_a /\
  exists r, na_transpose ex_a (Some ["y"; "w"; "x"]) = Ok r /\
    sshape r = [("y", 3); ("w", 1); ("x", 2)] /\ ravel (s_nd r) = [0; 10; 1; 11; 2; 12]%Z.
Proof. split; [exact ex_a_wf|]. eexists; repeat split. Qed.

Example C11_example_fail : na_transpose ex_a (Some ["y"; "w"]) = Err ValueError.
Proof. reflexivity. Qed.

Example C11_example_add :
  exists r, add_axes ex_a ["w"; "y"] = Ok r /\
    sshape r = [("w", 1); ("y", 3); ("x", 2)] /\ ravel (s_nd r) = [0; 10; 1; 11; 2; 12]%Z.
Proof. eexists; repeat split. Qed.

(** Asking for position 0 does not put the axis at position 0. *)
Theorem C11_change_axis_index_refuted :
  exists (a : sarr Z) (axis : string) (r : sarr Z),
    wf a /\ In axis (s_axes a) /\ change_axis_index a axis 0%Z = Ok r /\
    nth_error (s_axes r) 0 <> Some axis.
Proof.
  exists ex_a, "y". eexists. split; [exact ex_a_wf|]. split; [right; left; auto|].
  split; [reflexivity|]. simpl. discriminate.
Qed.
Print Assumptions C11_change_axis_index_refuted.
