(** C103: sorting uncertain scalars sorts the means of the samples: every world is rearranged
    in the same way. *)
From Coq Require Import String List Arith ZArith Bool Lia Sorted.
From Verif Require Import Base Numpy Shapes Scalar Elementwise Uncertain UncertainSort
  Spec SpecUncertain SpecUncertainAlong SpecUncertainJoin SpecUncertainSort RankdataFacts UncertainSortFacts.
Import ListNotations.
Open Scope nat_scope.
Open Scope list_scope.

(** The index has an entry for every axis; along the combined axes it lists the positions in an order
    that sorts the means of the samples.  Axes that cannot be combined are refused.
    Partial: only for arrays with an axis of samples, see [C103_certain_refuted], and for explicit axes. *)
Theorem C103_argsort_partial :
  forall (A B : Type) (le : B -> B -> Prop) (mean : list A -> B) argsort1 (u : unc A) sh num l,
  argsorts le argsort1 -> u_wf u -> u_shape u = Ok sh -> In (axis_distribution, num) (op_shape (u_distribution u)) ->
  (~ arrangeable sh l -> u_argsort mean argsort1 u (Some l) = Err ValueError) /\
  (arrangeable sh l -> exists d, u_argsort mean argsort1 u (Some l) = Ok d /\
     NoDup (dkeys d) /\ (forall ax, In ax (dkeys d) <-> In ax (dkeys sh)) /\
     forall e, inside_but e sh l -> exists p, order_of le (map (sample_mean mean u num) (fibre sh l e)) p /\
       forall i, i < total_size sh l -> exists e', inside e' sh /\ (forall ax, In ax (dkeys sh) -> ~ In ax l -> e' ax = e ax) /\
         nth_error p i = Some (row_major (map (size_of sh) l) (map e' l)) /\
         forall ax, In ax (dkeys sh) -> exists v, dget d ax = Some v /\ op_at (OpArr v) (set_env e (flat_name l) i) = Z.of_nat (e' ax)).
Proof. exact @u_argsort_spec. Qed.
Print Assumptions C103_argsort_partial.

(** Along the combined axes, the nominal values and every sample are rearranged by one
    permutation, which sorts the means of the samples.  Partial: the values of a world are in general not sorted,
    see [C103_worlds_refuted]; arrays without samples are refused, see [C103_certain_refuted]. *)
Theorem C103_sort_partial :
  forall (A B : Type) (le : B -> B -> Prop) (mean : list A -> B) argsort1 (u : unc A) sh num l,
  argsorts le argsort1 -> u_wf u -> u_shape u = Ok sh -> In (axis_distribution, num) (op_shape (u_distribution u)) ->
  (~ arrangeable sh l -> u_sort mean argsort1 u (Some l) = Err ValueError) /\
  (arrangeable sh l -> exists n d, let r := mkU (OpArr n) (OpArr d) in u_sort mean argsort1 u (Some l) = Ok r /\ u_wf r /\
     (forall w ax k, In (ax, k) (op_shape (u_part r w)) <->
        (In (ax, k) (full_shape w (Uncertain u, sh)) /\ ~ In ax l) \/ (ax = flat_name l /\ k = total_size sh l)) /\
     forall e, inside_but e sh l -> exists p, order_of le (map (sample_mean mean u num) (fibre sh l e)) p /\
       forall w, world num w -> map Some (u_run (Uncertain r) w (flat_name l) (total_size sh l) e) =
                                map (nth_error (map (u_at (Uncertain u) w) (fibre sh l e))) p).
Proof. exact @u_sort_spec. Qed.
Print Assumptions C103_sort_partial.

(** Arrays without an axis of samples, which hold certain values, cannot be sorted at all. *)
Theorem C103_certain_refuted :
  forall (A B : Type) (mean : list A -> B) argsort1 (u : unc A) sh axis,
  u_wf u -> u_shape u = Ok sh -> ~ In axis_distribution (dkeys (op_shape (u_distribution u))) ->
  u_argsort mean argsort1 u axis = Err ValueError /\ u_sort mean argsort1 u axis = Err ValueError.
Proof. exact @u_sort_certain. Qed.
Print Assumptions C103_certain_refuted.

Open Scope string_scope.

Definition arr (l : list Z) (s : list nat) (axes : list string) : operand Z := OpArr (mkS (of_list 0%Z s l) axes).

Definition zmean (l : list Z) : Z := (fold_right Z.add 0 l / Z.of_nat (length l))%Z.
Definition zargsort : list Z -> list nat := arg_by Z.leb 0%Z.

(** means 1 and 2; the nominal values and the second sample are in descending order *)
Definition ex_d : unc Z := mkU (arr [2; 1]%Z [2] ["x"]) (arr [0; 5; 3; 0]%Z [2; 2] ["_distribution"; "x"]).

Definition no_env : env := fun _ => 0.

(** the values of a world are sorted by [sort] *)
Definition sorts_world (w : option nat) : Prop :=
  forall (u : unc Z) sh num l r e, u_wf u -> u_shape u = Ok sh -> In (axis_distribution, num) (op_shape (u_distribution u)) ->
    arrangeable sh l -> inside_but e sh l -> world num w -> u_sort zmean zargsort u (Some l) = Ok r ->
    StronglySorted Z.le (u_run (Uncertain r) w (flat_name l) (total_size sh l) e).

(** The nominal values of a sorted array need not be sorted, and neither need its samples. *)
Theorem C103_worlds_refuted : ~ sorts_world None /\ ~ sorts_world (Some 1).
Proof.
  assert (W : u_wf ex_d).
  { split; [split; [repeat constructor; cbn; intuition discriminate|reflexivity]|].
    split; [split; [repeat constructor; cbn; intuition discriminate|reflexivity]|]. cbn. intuition discriminate. }
  assert (A : arrangeable [("x", 2)] ["x"]).
  { split; [discriminate|]. split; [repeat constructor; auto|]. split; [intros x H; exact H|]. intros ax n [H|[]] K. injection H as <- <-. destruct K. now left. }
  assert (I : inside_but no_env [("x", 2)] ["x"]).
  { intros ax n [H|[]] K. injection H as <- <-. destruct K. now left. }
  split; intros H.
  - specialize (H ex_d [("x", 2)] 2 ["x"]). destruct (u_sort zmean zargsort ex_d (Some ["x"])) as [r|] eqn:E; [|vm_compute in E; discriminate].
    specialize (H r no_env W eq_refl (or_introl eq_refl) A I ltac:(exact Logic.I) eq_refl). vm_compute in E. injection E as <-. vm_compute in H.
    inversion H as [|? ? _ F]. inversion F as [|? ? K _]. now apply K.
  - specialize (H ex_d [("x", 2)] 2 ["x"]). destruct (u_sort zmean zargsort ex_d (Some ["x"])) as [r|] eqn:E; [|vm_compute in E; discriminate].
    specialize (H r no_env W eq_refl (or_introl eq_refl) A I ltac:(cbn; lia) eq_refl). vm_compute in E. injection E as <-. vm_compute in H.
    inversion H as [|? ? _ F]. inversion F as [|? ? K _]. now apply K.
Qed.
Print Assumptions C103_worlds_refuted.

(** nominal values that are constant along an axis *)
Definition ex_u : unc Z := mkU (arr [7; 8]%Z [2] ["y"]) (arr [9; 2; 3; 4; 5; 0]%Z [2; 3] ["_distribution"; "x"]).

Lemma ex_wf : u_wf ex_u /\ u_shape ex_u = Ok [("y", 2); ("x", 3)] /\ In (axis_distribution, 2) (op_shape (u_distribution ex_u)) /\
  argsorts Z.le zargsort /\ arrangeable [("y", 2); ("x", 3)] ["x"] /\ arrangeable [("y", 2); ("x", 3)] ["x"; "y"].
Proof.
  split. { split; [split; [repeat constructor; cbn; intuition discriminate|reflexivity]|].
    split; [split; [repeat constructor; cbn; intuition discriminate|reflexivity]|]. cbn. intuition discriminate. }
  split; [reflexivity|]. split; [now left|]. split; [exact zint_argsorts|].
  split; (split; [discriminate|]; split; [repeat constructor; cbn; intuition discriminate|]; split; [intros x H; cbn in *; tauto|]);
    intros ax n [H|[H|[]]] K; injection H as <- <-; cbn in K; intuition discriminate.
Qed.

Definition show (r : res (unc Z)) : res ((shape * list Z) * (shape * list Z)) :=
  match r with
  | Ok u => let f o := (sshape (normalize o), ravel (s_nd (normalize o))) in Ok (f (u_nominal u), f (u_distribution u))
  | Err e => Err e
  end.
Definition show_index (r : res (dict (sarr Z))) : res (dict (shape * list Z)) :=
  match r with Ok d => Ok (map (fun kv => (fst kv, (sshape (snd kv), ravel (s_nd (snd kv))))) d) | Err e => Err e end.

Example C103_example :
  show (u_sort zmean zargsort ex_u (Some ["x"])) = Ok ([("y", 2); ("x", 3)], [7%Z; 7%Z; 7%Z; 8%Z; 8%Z; 8%Z], ([("y", 2); ("x", 3); ("_distribution", 2)], [3%Z; 0%Z; 2%Z; 5%Z; 9%Z; 4%Z; 3%Z; 0%Z; 2%Z; 5%Z; 9%Z; 4%Z])) /\
  show (u_sort zmean zargsort ex_u (Some ["x"; "y"])) = Ok ([("x*y", 6)], [7%Z; 8%Z; 7%Z; 8%Z; 7%Z; 8%Z], ([("x*y", 6); ("_distribution", 2)], [3%Z; 0%Z; 3%Z; 0%Z; 2%Z; 5%Z; 2%Z; 5%Z; 9%Z; 4%Z; 9%Z; 4%Z])) /\
  show (u_sort zmean zargsort ex_d None) = Ok ([("x", 2)], [2%Z; 1%Z], ([("x", 2); ("_distribution", 2)], [0%Z; 3%Z; 5%Z; 0%Z])) /\
  show_index (u_argsort zmean zargsort ex_u (Some ["x"])) = Ok [("x", ([("y", 2); ("x", 3)], [2%Z; 1%Z; 0%Z; 2%Z; 1%Z; 0%Z])); ("y", ([("y", 2)], [0%Z; 1%Z]))].
Proof. repeat split; vm_compute; reflexivity. Qed.

Example C103_refused_example :
  u_sort zmean zargsort ex_u (Some ["z"]) = Err ValueError /\
  u_sort zmean zargsort ex_u (Some []) = Err ValueError /\
  u_sort zmean zargsort ex_u (Some ["_distribution"]) = Err ValueError /\
  u_argsort zmean zargsort ex_u (Some ["x"; "x"]) = Err ValueError /\
  u_sort zmean zargsort (mkU (arr [2; 1]%Z [2] ["x"]) (arr [2; 1]%Z [2] ["x"])) (Some ["x"]) = Err ValueError.
Proof. repeat split; vm_compute; reflexivity. Qed.
