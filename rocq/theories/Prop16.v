(** C16: sort and argsort agree; sorting is a sorted permutation along the axis. *)
From Coq Require Import String List Arith ZArith Bool Lia Permutation Sorted.
From Verif Require Import Base Numpy Shapes Scalar Reorder Elementwise Reduce Along Sorting Spec SortingFacts.
Import ListNotations.
Open Scope nat_scope.
Open Scope list_scope.

(** Each line of the sorted array is sorted and is a permutation of the elements
    of the original array with the same position along the other axes.  Missing
    from the full statement: arrays with an empty axis other than the sorted
    ones, and an axis with the name of the combination; see below. *)
Theorem C16_sort_partial :
  forall (A : Type) (le : A -> A -> Prop) (sort1 : list A -> list A) (a : sarr A) (l : list string),
  wf a -> sorts le sort1 -> sortable a l ->
  exists s, na_sort sort1 a (Some l) = Ok s /\ wf s /\
    s_axes s = filter (fun ax => negb (smem ax l)) (s_axes a) ++ [flat_name l] /\
    (forall ax n, In (ax, n) (sshape s) <->
        (In (ax, n) (sshape a) /\ ~ In ax l) \/ (ax = flat_name l /\ n = total_size (sshape a) l)) /\
    forall e, inside_but e (sshape a) l ->
      StronglySorted le (line s (flat_name l) e) /\
      Permutation (map (at_ a) (fibre (sshape a) l e)) (line s (flat_name l) e).
Proof. exact @sort_sorted. Qed.
Print Assumptions C16_sort_partial.

(** The same for the elements addressed by [argsort]. *)
Theorem C16_argsort_partial :
  forall (A : Type) (le : A -> A -> Prop) (argsort1 : list A -> list nat) (a : sarr A) (l : list string),
  wf a -> argsorts le argsort1 -> sortable a l ->
  exists d s, na_argsort argsort1 a (Some l) = Ok d /\
    dkeys d = l ++ filter (fun ax => negb (smem ax l)) (s_axes a) /\
    getitem a (as_item d) = Ok s /\ wf s /\
    s_axes s = filter (fun ax => negb (smem ax l)) (s_axes a) ++ [flat_name l] /\
    (forall ax n, In (ax, n) (sshape s) <->
        (In (ax, n) (sshape a) /\ ~ In ax l) \/ (ax = flat_name l /\ n = total_size (sshape a) l)) /\
    forall e, inside_but e (sshape a) l ->
      StronglySorted le (line s (flat_name l) e) /\
      Permutation (map (at_ a) (fibre (sshape a) l e)) (line s (flat_name l) e).
Proof. exact @argsort_sorted. Qed.
Print Assumptions C16_argsort_partial.

(** For a total order the two are the same array. *)
Theorem C16_agree_partial :
  forall (A : Type) (le : A -> A -> Prop) (sort1 : list A -> list A) (argsort1 : list A -> list nat)
         (a : sarr A) (l : list string),
  wf a -> (forall x y, le x y -> le y x -> x = y) -> sorts le sort1 -> argsorts le argsort1 -> sortable a l ->
  exists s d r, na_sort sort1 a (Some l) = Ok s /\ na_argsort argsort1 a (Some l) = Ok d /\
    getitem a (as_item d) = Ok r /\ wf r /\ s_axes r = s_axes s /\ same_array r s.
Proof. exact @sort_argsort_order. Qed.
Print Assumptions C16_agree_partial.

(** For elements that are equivalent without being equal they are the same when
    the algorithms agree on a line, for instance when both are stable. *)
Theorem C16_agree_stable_partial :
  forall (A : Type) (sort1 : list A -> list A) (argsort1 : list A -> list nat) (a : sarr A) (l : list string),
  wf a -> (forall x, length (argsort1 x) = length x) -> (forall x i, In i (argsort1 x) -> i < length x) ->
  (forall x, map Some (sort1 x) = map (nth_error x) (argsort1 x)) -> sortable a l ->
  exists s d r, na_sort sort1 a (Some l) = Ok s /\ na_argsort argsort1 a (Some l) = Ok d /\
    getitem a (as_item d) = Ok r /\ wf r /\ s_axes r = s_axes s /\ same_array r s.
Proof. exact @sort_argsort_agree. Qed.
Print Assumptions C16_agree_stable_partial.

(** Without [axis] all the axes are sorted together. *)
Theorem C16_sort_all :
  forall (A : Type) (sort1 : list A -> list A) (a : sarr A),
  wf a -> (forall x, length (sort1 x) = length x) ->
  (s_axes a = [] -> na_sort sort1 a None = Ok a) /\
  (s_axes a <> [] -> exists r r', na_sort sort1 a None = Ok r /\ na_sort sort1 a (Some (s_axes a)) = Ok r' /\
     wf r /\ s_axes r = s_axes r' /\ same_array r r').
Proof. exact @sort_none. Qed.
Print Assumptions C16_sort_all.

Theorem C16_argsort_all :
  forall (A : Type) (argsort1 : list A -> list nat) (a : sarr A), wf a ->
  (s_axes a = [] -> na_argsort argsort1 a None = Ok [] /\ getitem a (as_item []) = Ok a) /\
  (s_axes a <> [] -> na_argsort argsort1 a None = na_argsort argsort1 a (Some (s_axes a))).
Proof. exact @argsort_none. Qed.
Print Assumptions C16_argsort_all.

Theorem C16_sortable_all : forall (A : Type) (a : sarr A), wf a -> s_axes a <> [] -> sortable a (s_axes a).
Proof. exact @sortable_all. Qed.
Print Assumptions C16_sortable_all.

(** Everything else is refused, by both functions. *)
Theorem C16_refused :
  forall (A : Type) (sort1 : list A -> list A) (argsort1 : list A -> list nat) (a : sarr A) (l : list string),
  wf a -> (forall x, length (sort1 x) = length x) ->
  (forall x, length (argsort1 x) = length x) -> (forall x i, In i (argsort1 x) -> i < length x) ->
  ~ sortable a l -> na_sort sort1 a (Some l) = Err ValueError /\ na_argsort argsort1 a (Some l) = Err ValueError.
Proof.
  intros A sort1 argsort1 a l W H1 H2 H3 N.
  exact (conj (proj2 (sort_spec sort1 a l W H1) N) (proj2 (argsort_spec argsort1 a l W H2 H3) N)).
Qed.
Print Assumptions C16_refused.

Open Scope string_scope.

(** An array with two columns and no rows cannot be sorted along its columns:
    sorting fails although every line along "x" (there is none) is sorted. *)
Theorem C16_empty_axis_refuted :
  exists (a : sarr nat) (ax : string), wf a /\ In ax (s_axes a) /\ sorts le sort_nat /\
    na_sort sort_nat a (Some [ax]) = Err ValueError /\ na_argsort argsort_nat a (Some [ax]) = Err ValueError.
Proof.
  exists (mkS (of_list 0 [2; 0] []) ["x"; "y"]), "x".
  split; [split; [repeat constructor; simpl; intuition discriminate|reflexivity]|].
  split; [now left|]. split; [apply sort_nat_sorts|]. split; reflexivity.
Qed.
Print Assumptions C16_empty_axis_refuted.

(** Sorting the axes "x" and "y" together fails when a third axis is named "x*y". *)
Theorem C16_name_clash_refuted :
  exists (a : sarr nat) (l : list string), wf a /\ NoDup l /\ incl l (s_axes a) /\ size (s_nd a) <> 0 /\
    na_sort sort_nat a (Some l) = Err ValueError /\ na_argsort argsort_nat a (Some l) = Err ValueError.
Proof.
  exists (mkS (of_list 0 [2; 1; 1] [2; 1]) ["x"; "y"; "x*y"]), ["x"; "y"].
  split; [split; [repeat constructor; simpl; intuition discriminate|reflexivity]|].
  split; [repeat constructor; simpl; intuition discriminate|].
  split; [intros x; simpl; tauto|]. split; [discriminate|]. split; reflexivity.
Qed.
Print Assumptions C16_name_clash_refuted.

Definition ex_a : sarr nat := mkS (of_list 0 [2; 3; 2] [5; 1; 1; 4; 7; 1;  9; 9; 8; 2; 2; 8]) ["x"; "y"; "z"].

Example C16_example_orders : sorts le sort_nat /\ argsorts le argsort_nat.
Proof. split; [apply sort_nat_sorts|apply argsort_nat_argsorts]. Qed.

Example C16_example_axis :
  exists s d r, na_sort sort_nat ex_a (Some ["y"]) = Ok s /\ s_axes s = ["x"; "z"; "y"] /\
    na_argsort argsort_nat ex_a (Some ["y"]) = Ok d /\ getitem ex_a (as_item d) = Ok r /\
    sshape s = [("x", 2); ("z", 2); ("y", 3)] /\ sshape r = sshape s /\
    ravel (s_nd s) = [1; 5; 7; 1; 1; 4; 2; 8; 9; 2; 8; 9] /\ ravel (s_nd r) = ravel (s_nd s).
Proof. do 3 eexists; repeat split. Qed.

Example C16_example_two_axes :
  exists s d r, na_sort sort_nat ex_a (Some ["z"; "x"]) = Ok s /\
    na_argsort argsort_nat ex_a (Some ["z"; "x"]) = Ok d /\ getitem ex_a (as_item d) = Ok r /\
    sshape s = [("y", 3); ("z*x", 4)] /\ sshape r = sshape s /\
    ravel (s_nd s) = [1; 5; 9; 9; 1; 2; 4; 8; 1; 2; 7; 8] /\ ravel (s_nd r) = ravel (s_nd s).
Proof. do 3 eexists; repeat split. Qed.

Example C16_example_all :
  exists s d r, na_sort sort_nat ex_a None = Ok s /\
    na_argsort argsort_nat ex_a None = Ok d /\ getitem ex_a (as_item d) = Ok r /\
    sshape s = [("x*y*z", 12)] /\ sshape r = sshape s /\
    ravel (s_nd s) = [1; 1; 1; 2; 2; 4; 5; 7; 8; 8; 9; 9] /\ ravel (s_nd r) = ravel (s_nd s).
Proof. do 3 eexists; repeat split. Qed.
