(** C15: argmin and argmax address the extreme element. *)
From Coq Require Import String List Arith ZArith Bool Lia Permutation Sorted.
From Verif Require Import Base Numpy Shapes Scalar Reorder Elementwise Reduce Along Sorting Spec SortingFacts.
Import ListNotations.
Open Scope nat_scope.
Open Scope list_scope.

(** The index dictionary addresses, at every labelled index of the result, a
    least element of the array among those with the same position along the
    other axes, and the first such element in row-major order of the named axes.
    With the reversed order this is argmax. *)
Theorem C15_argmin :
  forall (A : Type) (le : A -> A -> Prop) (pick : list A -> nat) (a : sarr A) (l : list string),
  wf a -> first_least le pick -> sortable a l -> total_size (sshape a) l <> 0 ->
  exists d r, na_arg_reduce pick a (Some l) = Ok d /\ getitem a (as_item d) = Ok r /\ wf r /\
    dkeys d = l ++ filter (fun ax => negb (smem ax l)) (s_axes a) /\
    sshape r = filter (fun kv => negb (smem (fst kv) l)) (sshape a) /\
    forall e, inside e (sshape r) ->
      exists p, inside p (sshape a) /\ (forall ax, In ax (s_axes a) -> ~ In ax l -> p ax = e ax) /\
        (forall ax, In ax (s_axes a) -> exists v, dget d ax = Some v /\ wf v /\ bat v e = Z.of_nat (p ax)) /\
        at_ r e = at_ a p /\
        forall q, inside q (sshape a) -> (forall ax, In ax (s_axes a) -> ~ In ax l -> q ax = e ax) ->
          le (at_ a p) (at_ a q) /\
          (row_major (map (size_of (sshape a)) l) (map q l) < row_major (map (size_of (sshape a)) l) (map p l) ->
           ~ le (at_ a q) (at_ a p)).
Proof. exact @argmin_spec. Qed.
Print Assumptions C15_argmin.

(** [a[argmin(a, axis)]] is [min(a, axis)]. *)
Theorem C15_argmin_min :
  forall (A : Type) (le : A -> A -> Prop) (pick : list A -> nat) (m : list A -> A) (a : sarr A) (l : list string),
  wf a -> (forall x y, le x y -> le y x -> x = y) -> first_least le pick -> least le m ->
  sortable a l -> total_size (sshape a) l <> 0 ->
  exists d r v, na_arg_reduce pick a (Some l) = Ok d /\ getitem a (as_item d) = Ok r /\
    na_reduce false m a (Some l) false None None = Ok v /\ s_axes r = s_axes v /\ same_array r v.
Proof. exact @argmin_min. Qed.
Print Assumptions C15_argmin_min.

(** Without [axis]: the first least element of the whole array in row-major order. *)
Theorem C15_argmin_all :
  forall (A : Type) (le : A -> A -> Prop) (pick : list A -> nat) (m : list A -> A) (a : sarr A),
  wf a -> (forall x y, le x y -> le y x -> x = y) -> first_least le pick -> least le m ->
  s_axes a <> [] -> (forall ax n, In (ax, n) (sshape a) -> n <> 0) ->
  exists d r v, na_arg_reduce pick a None = Ok d /\ dkeys d = s_axes a /\ getitem a (as_item d) = Ok r /\
    na_reduce false m a None false None None = Ok v /\ sshape r = [] /\ same_array r v /\
    forall e, exists p, inside p (sshape a) /\ at_ r e = at_ a p /\
      (forall ax, In ax (s_axes a) -> exists v, dget d ax = Some v /\ sshape v = [] /\ at_ v e = Z.of_nat (p ax)) /\
      forall q, inside q (sshape a) -> le (at_ a p) (at_ a q) /\
        (row_major (map (size_of (sshape a)) (s_axes a)) (map q (s_axes a)) <
         row_major (map (size_of (sshape a)) (s_axes a)) (map p (s_axes a)) -> ~ le (at_ a q) (at_ a p)).
Proof. exact @argmin_none. Qed.
Print Assumptions C15_argmin_all.

(** Every other argument is refused with ValueError: no axis, unknown or repeated
    axes, an empty array, or an axis with the name of the combination. *)
Theorem C15_refused :
  forall (A : Type) (pick : list A -> nat) (a : sarr A) (l : list string),
  wf a -> (forall x, x <> [] -> pick x < length x) ->
  ~ (sortable a l /\ total_size (sshape a) l <> 0) -> na_arg_reduce pick a (Some l) = Err ValueError.
Proof. intros A pick a l W H. exact (proj2 (arg_reduce_spec pick a l W H)). Qed.
Print Assumptions C15_refused.

Theorem C15_refused_all :
  forall (A : Type) (pick : list A -> nat) (a : sarr A),
  wf a -> (forall x, x <> [] -> pick x < length x) ->
  s_axes a = [] \/ size (s_nd a) = 0 -> na_arg_reduce pick a None = Err ValueError.
Proof. intros A pick a W H. exact (proj2 (arg_reduce_none pick a W H)). Qed.
Print Assumptions C15_refused_all.

Open Scope string_scope.

Definition ex_a : sarr nat := mkS (of_list 0 [2; 3; 2] [5; 1; 1; 4; 7; 1;  9; 9; 8; 2; 2; 8]) ["x"; "y"; "z"].

Example C15_example_order : first_least le argmin_nat /\ least le min_nat.
Proof. split; [apply argmin_nat_first|apply min_nat_least]. Qed.

Example C15_example_sortable : sortable ex_a ["z"; "x"] /\ total_size (sshape ex_a) ["z"; "x"] <> 0.
Proof.
  split; [|discriminate]. split; [discriminate|]. split; [repeat constructor; simpl; intuition discriminate|].
  split; [intros x; simpl; tauto|]. intros ax n H Hl. simpl in H, Hl.
  destruct H as [H|[H|[H|[]]]]; injection H as <- <-; try tauto. split; discriminate.
Qed.

Example C15_example_axis :
  exists d r x y, na_arg_reduce argmin_nat ex_a (Some ["y"]) = Ok d /\ dkeys d = ["y"; "x"; "z"] /\
    dget d "y" = Some y /\ ravel (s_nd y) = [1; 0; 2; 1]%Z /\ dget d "x" = Some x /\ ravel (s_nd x) = [0; 1]%Z /\
    getitem ex_a (as_item d) = Ok r /\ sshape r = [("x", 2); ("z", 2)] /\ ravel (s_nd r) = [1; 1; 2; 2].
Proof. do 4 eexists; repeat split. Qed.

(** ties: the first position in the order in which the axes are named *)
Example C15_example_two_axes :
  exists d r y z, na_arg_reduce argmin_nat ex_a (Some ["z"; "y"]) = Ok d /\
    dget d "y" = Some y /\ dget d "z" = Some z /\ ravel (s_nd y) = [1; 2]%Z /\ ravel (s_nd z) = [0; 0]%Z /\
    getitem ex_a (as_item d) = Ok r /\ sshape r = [("x", 2)] /\ ravel (s_nd r) = [1; 2].
Proof. do 4 eexists; repeat split. Qed.

Example C15_example_all :
  exists d r x y z, na_arg_reduce argmin_nat ex_a None = Ok d /\
    dget d "x" = Some x /\ dget d "y" = Some y /\ dget d "z" = Some z /\
    map (fun v => ravel (s_nd v)) [x; y; z] = [[0]; [0]; [1]]%Z /\
    getitem ex_a (as_item d) = Ok r /\ sshape r = [] /\ ravel (s_nd r) = [1].
Proof. do 5 eexists; repeat split. Qed.

Example C15_example_empty :
  na_arg_reduce argmin_nat (mkS (of_list 0 [2; 0] []) ["x"; "y"]) (Some ["y"]) = Err ValueError.
Proof. reflexivity. Qed.
