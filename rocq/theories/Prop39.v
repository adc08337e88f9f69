(** C39: [na.mean_trimmed] is the mean of the central part of the sorted values. *)
From Coq Require Import String List Arith ZArith QArith Qround Bool Lia Permutation Sorted.
From Verif Require Import Base Numpy Shapes Scalar Reorder Elementwise Reduce Along Sorting Derived Spec SpecDerived
     SortingFacts DerivedFacts.
Import ListNotations.
Open Scope nat_scope.
Open Scope list_scope.

(** [part1 kth] is any partition at the positions [kth], [sort1] any sort and
    [mean] any function of a list that does not depend on its order.  The array
    must have no other empty axis and no other axis with the name of the
    combination of [l] (see the refutations below). *)
Theorem C39_mean_trimmed_partial :
  forall (A : Type) (le : A -> A -> Prop) (sort1 : list A -> list A) (part1 : list Z -> list A -> list A)
         (mean : list A -> A) (a : sarr A) (q : Q) (l : list string) (keepdims : bool),
  wf a -> (forall x y z, le x y -> le y z -> le x z) -> (forall x y, le x y -> le y x -> x = y) -> sorts le sort1 ->
  (forall kth x, Permutation x (part1 kth x) /\
     forall j i y z, In (Z.of_nat j) kth -> nth_error (part1 kth x) i = Some y -> nth_error (part1 kth x) j = Some z ->
       (i < j -> le y z) /\ (j < i -> le z y)) ->
  symmetric mean -> (0 <= q)%Q -> (q < 1 # 2)%Q ->
  let n := total_size (sshape a) l in
  let k := Z.to_nat (Qfloor (q * inject_Z (Z.of_nat n))) in
  sortable a l -> n <> 0 ->
  exists r, na_mean_trimmed part1 mean a q (Some l) keepdims = Ok r /\ wf r /\
    s_axes r = filter (fun ax => negb (smem ax l)) (s_axes a) ++ (if keepdims then [flat_name l] else []) /\
    (forall ax m, In (ax, m) (sshape r) <->
       (In (ax, m) (sshape a) /\ ~ In ax l) \/ (keepdims = true /\ ax = flat_name l /\ m = 1)) /\
    forall e, inside_but e (sshape a) l ->
      at_ r e = mean (firstn (n - 2 * k) (skipn k (sort1 (map (at_ a) (fibre (sshape a) l e))))).
Proof. exact @mean_trimmed_spec. Qed.
Print Assumptions C39_mean_trimmed_partial.

(** The order of the values along the axes is irrelevant. *)
Theorem C39_order_irrelevant_partial :
  forall (A : Type) (le : A -> A -> Prop) (sort1 : list A -> list A) (part1 : list Z -> list A -> list A)
         (mean : list A -> A) (a b : sarr A) (q : Q) (l : list string) (keepdims : bool),
  wf a -> wf b -> sshape a = sshape b ->
  (forall x y z, le x y -> le y z -> le x z) -> (forall x y, le x y -> le y x -> x = y) -> sorts le sort1 ->
  (forall kth x, Permutation x (part1 kth x) /\
     forall j i y z, In (Z.of_nat j) kth -> nth_error (part1 kth x) i = Some y -> nth_error (part1 kth x) j = Some z ->
       (i < j -> le y z) /\ (j < i -> le z y)) ->
  symmetric mean -> (0 <= q)%Q -> (q < 1 # 2)%Q ->
  sortable a l -> total_size (sshape a) l <> 0 ->
  (forall e, inside_but e (sshape a) l -> Permutation (map (at_ a) (fibre (sshape a) l e)) (map (at_ b) (fibre (sshape b) l e))) ->
  exists r s, na_mean_trimmed part1 mean a q (Some l) keepdims = Ok r /\ na_mean_trimmed part1 mean b q (Some l) keepdims = Ok s /\
    same_array r s.
Proof. exact @mean_trimmed_order. Qed.
Print Assumptions C39_order_irrelevant_partial.

(** Without [axis] all the axes are used; an array without axes is returned. *)
Theorem C39_all_axes :
  forall (A : Type) (part1 : list Z -> list A -> list A) (mean : list A -> A) (a : sarr A) (q : Q) (keepdims : bool),
  wf a ->
  (s_axes a = [] -> na_mean_trimmed part1 mean a q None keepdims = Ok a) /\
  (s_axes a <> [] -> na_mean_trimmed part1 mean a q None keepdims = na_mean_trimmed part1 mean a q (Some (s_axes a)) keepdims).
Proof. exact @mean_trimmed_none. Qed.
Print Assumptions C39_all_axes.

(** Everything else is refused. *)
Theorem C39_refused :
  forall (A : Type) (part1 : list Z -> list A -> list A) (mean : list A -> A) (a : sarr A) (q : Q) (l : list string) (keepdims : bool),
  wf a -> s_axes a <> [] -> (0 <= q)%Q -> (forall kth x, length (part1 kth x) = length x) ->
  ~ (sortable a l /\ total_size (sshape a) l <> 0) ->
  na_mean_trimmed part1 mean a q (Some l) keepdims = Err ValueError.
Proof. exact @mean_trimmed_refused. Qed.
Print Assumptions C39_refused.

Open Scope string_scope.

(** the sum stands for the mean, sorting for the partition *)
Definition total (l : list nat) : nat := fold_right Nat.add 0 l.

Definition show (r : res (sarr nat)) : option (shape * list nat) :=
  match r with Ok r => Some (sshape r, ravel (s_nd r)) | Err _ => None end.

Definition ex_a : sarr nat := mkS (of_list 0 [2; 2; 2] [15; 1; 7; 4; 3; 9; 8; 20]) ["x"; "y"; "z"].

(** the axes "x" and "z" of four values, a quarter on each side *)
Example C39_example :
  show (na_mean_trimmed (fun _ => sort_nat) total ex_a (1 # 4) (Some ["x"; "z"]) false) = Some ([("y", 2)], [3 + 9; 7 + 8]).
Proof. vm_compute. reflexivity. Qed.

Example C39_example_hypotheses :
  wf ex_a /\ sortable ex_a ["x"; "z"] /\ total_size (sshape ex_a) ["x"; "z"] = 4 /\ symmetric total /\ sorts le sort_nat /\
  forall k, (forall x, Permutation x (sort_nat x) /\
     forall i y z, nth_error (sort_nat x) i = Some y -> nth_error (sort_nat x) k = Some z ->
       (i < k -> y <= z) /\ (k < i -> z <= y)).
Proof.
  split; [split; [repeat constructor; simpl; intuition discriminate|reflexivity]|].
  split; [|split; [reflexivity|split; [|split; [apply sort_nat_sorts|exact sort_nat_partitions]]]].
  - split; [discriminate|]. split; [repeat constructor; simpl; intuition discriminate|].
    split; [intros x [<-|[<-|[]]]; simpl; auto|].
    intros ax n [E|[E|[E|[]]]] H; injection E as <- <-; simpl in H; (split; [discriminate|discriminate]).
  - intros l m P. unfold total. induction P; simpl; lia.
Qed.

(** half of an even number of values is trimmed on each side: nothing is left *)
Example C39_example_half :
  show (na_mean_trimmed (fun _ => sort_nat) total ex_a (1 # 2) (Some ["x"; "z"]) false) = Some ([("y", 2)], [total []; total []]).
Proof. vm_compute. reflexivity. Qed.

(** An array with another empty axis is refused, where an empty result is expected. *)
Theorem C39_empty_axis_refuted :
  exists (a : sarr nat) (ax : string), wf a /\ In ax (s_axes a) /\ size_of (sshape a) ax = 2 /\
    na_mean_trimmed (fun _ => sort_nat) total a (1 # 4) (Some [ax]) false = Err ValueError.
Proof.
  exists (mkS (of_list 0 [2; 0] []) ["x"; "y"]), "x".
  split; [split; [repeat constructor; simpl; intuition discriminate|reflexivity]|].
  split; [now left|]. split; reflexivity.
Qed.
Print Assumptions C39_empty_axis_refuted.

(** With [keepdims] the documentation promises the same dimensionality, but
    several axes are replaced by their combination. *)
Theorem C39_keepdims_refuted :
  exists (a r : sarr nat) (l : list string), wf a /\ sortable a l /\
    na_mean_trimmed (fun _ => sort_nat) total a (1 # 4) (Some l) true = Ok r /\
    length (s_axes r) <> length (s_axes a) /\ ~ In "x" (s_axes r) /\ In "x*z" (s_axes r).
Proof.
  assert (H : show (na_mean_trimmed (fun _ => sort_nat) total ex_a (1 # 4) (Some ["x"; "z"]) true)
              = Some ([("y", 2); ("x*z", 1)], [12; 15])) by (vm_compute; reflexivity).
  assert (W : forall r, na_mean_trimmed (fun _ => sort_nat) total ex_a (1 # 4) (Some ["x"; "z"]) true = Ok r -> s_axes r = ["y"; "x*z"]).
  { intros r E. assert (H' : match na_mean_trimmed (fun _ => sort_nat) total ex_a (1 # 4) (Some ["x"; "z"]) true with
                             | Ok r => s_axes r | Err _ => [] end = ["y"; "x*z"]) by (vm_compute; reflexivity).
    now rewrite E in H'. }
  destruct (na_mean_trimmed (fun _ => sort_nat) total ex_a (1 # 4) (Some ["x"; "z"]) true) as [r|] eqn:E; [|discriminate H].
  exists ex_a, r, ["x"; "z"]. rewrite (W r eq_refl).
  split; [apply C39_example_hypotheses|]. split; [apply C39_example_hypotheses|]. split; [exact E|].
  split; [discriminate|]. split; [simpl; intuition discriminate|simpl; auto].
Qed.
Print Assumptions C39_keepdims_refuted.
