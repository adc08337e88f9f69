(** C63: reductions and cumulative functions of function arrays. *)
From Coq Require Import String List Arith ZArith QArith Qcanon Bool Lia Ring_theory.
From Verif Require Import Base Numpy Shapes Scalar Func FuncOps Spec SpecDerived SpecNumeric SpecQuantile SpecFunc SpecFuncOps FuncOpsFacts.
Import ListNotations.
Open Scope nat_scope.
Open Scope list_scope.

(** A reduction with [keepdims=False] along axes of the shape takes them away from
    both parts; the outputs are reduced over all points along these axes, and the
    inputs are averaged over them, at the middle of the bins.  Missing from the
    full statement: axes along which the outputs are not as long as the shape, and
    the default [keepdims=True]; see below. *)
Theorem C63_reduce_partial :
  forall (A B C : Type) (add mul sub : A -> A -> A) (opp : A -> A) (zero one half : A) (mean : list A -> A)
         (identity : bool) (red : list B -> C) (f : farr A B) (l : list string) (sh : shape),
  ring_theory zero one add mul sub opp (@eq A) -> add half half = one ->
  wf (f_inputs f) -> wf (f_outputs f) -> compatible f -> f_shape f = Ok sh -> NoDup l -> incl l (dkeys sh) ->
  symmetric red -> symmetric mean -> (identity = true \/ total_size sh l <> 0) ->
  (forall ax, In ax l -> dget (sshape (f_outputs f)) ax = dget sh ax) ->
  exists r, f_reduce add mul sub zero one half mean identity red f (Some l) false = Ok r /\
    wf (f_inputs r) /\ wf (f_outputs r) /\
    sshape (f_inputs r) = without (sshape (f_inputs f)) l /\ sshape (f_outputs r) = without (sshape (f_outputs f)) l /\
    (forall e, at_ (f_outputs r) e = red (map (at_ (f_outputs f)) (fibre sh l e))) /\
    (forall e, inside e (sshape (f_inputs r)) -> at_ (f_inputs r) e =
       mean (map (middle add mul zero one half f l)
                 (fibre (shrunk (sshape (f_inputs f)) (vertices f l)) (filter (fun ax => smem ax (s_axes (f_inputs f))) l) e))).
Proof. exact @f_reduce_spec. Qed.
Print Assumptions C63_reduce_partial.

(** A cumulative function along any axis of the shape keeps the inputs; the output
    at a point comes from the outputs up to this point, also where the outputs are
    a constant. *)
Theorem C63_cumulative :
  forall (A B C : Type) (scan : list B -> C) (f : farr A B) (x : string) (sh : shape) (n : nat),
  wf (f_inputs f) -> wf (f_outputs f) -> compatible f -> f_shape f = Ok sh -> In (x, n) sh ->
  exists o, f_cumulative scan f (Some [x]) = Ok (mkF (f_inputs f) o) /\ wf o /\
    (forall ax k, In (ax, k) (sshape o) <-> if String.eqb ax x then k = n else In (ax, k) (sshape (f_outputs f))) /\
    forall e, inside e (sshape o) ->
      at_ o e = scan (map (fun j => bat (f_outputs f) (set_env e x j)) (seq 0 (S (e x)))).
Proof. exact @f_cumulative_spec. Qed.
Print Assumptions C63_cumulative.

(** With [keepdims=True] the inputs are kept as they are, also where the outputs
    are reduced to one: this is the function that the statement below is about. *)
Theorem C63_keepdims_partial :
  forall (A B C : Type) (add mul sub : A -> A -> A) (zero one half : A) (mean : list A -> A)
         (identity : bool) (red : list B -> C) (f : farr A B) (l : list string) (sh : shape),
  wf (f_inputs f) -> wf (f_outputs f) -> compatible f -> f_shape f = Ok sh -> NoDup l -> incl l (dkeys sh) ->
  symmetric red -> (identity = true \/ total_size sh l <> 0) ->
  (forall ax, In ax l -> dget (sshape (f_outputs f)) ax = dget sh ax) ->
  exists o, f_reduce add mul sub zero one half mean identity red f (Some l) true = Ok (mkF (f_inputs f) o) /\
    wf o /\ sshape o = squeezed (sshape (f_outputs f)) l /\
    forall e, at_ o e = red (map (at_ (f_outputs f)) (fibre sh l e)).
Proof. exact @f_reduce_kept. Qed.
Print Assumptions C63_keepdims_partial.

(** A cumulative function takes exactly one axis, which the function must have. *)
Theorem C63_cumulative_axis :
  forall (A B C : Type) (scan : list B -> C) (f : farr A B) (sh : shape) (l : list string),
  f_shape f = Ok sh ->
  (length l <> 1 -> f_cumulative scan f (Some l) = Err ValueError) /\
  (forall x, l = [x] -> ~ In x (dkeys sh) -> f_cumulative scan f (Some l) = Err KeyError) /\
  f_cumulative scan f None = f_cumulative scan f (Some (dkeys sh)).
Proof. exact @f_cumulative_axis. Qed.
Print Assumptions C63_cumulative_axis.

Open Scope string_scope.

Definition qc (z : Z) : Qc := Q2Qc (inject_Z z).
Definition half : Qc := Q2Qc (1 # 2).
Definition total (l : list Qc) : Qc := fold_right Qcplus (qc 0) l.
Definition mean (l : list Qc) : Qc := (total l / qc (Z.of_nat (length l)))%Qc.
Definition sum_of := f_reduce Qcplus Qcmult Qcminus (qc 0) (qc 1) half mean true total.

Definition show (r : res (farr Qc Qc)) :=
  match r with
  | Ok f => Ok (sshape (f_inputs f), map this (ravel (s_nd (f_inputs f))), sshape (f_outputs f), map this (ravel (s_nd (f_outputs f))))
  | Err e => Err e
  end.

Definition arr (sh : list nat) (axes : list string) (l : list Z) : sarr Qc := mkS (of_list (qc 0) sh (map qc l)) axes.

Definition bars : farr Qc Qc := mkF (arr [4] ["x"] [0; 2; 4; 12]%Z) (arr [2; 3] ["y"; "x"] [1; 2; 3; 10; 20; 30]%Z).

Example C63_bars : show (sum_of bars (Some ["x"]) false) = Ok ([], [4]%Q, [("y", 2)], [6; 60]%Q).
Proof. vm_compute. reflexivity. Qed.

Example C63_bars_all : show (sum_of bars None false) = Ok ([], [4]%Q, [], [66]%Q).
Proof. vm_compute. reflexivity. Qed.

Example C63_bars_cumulative :
  show (f_cumulative total bars (Some ["x"])) = Ok ([("x", 4)], [0; 2; 4; 12]%Q, [("y", 2); ("x", 3)], [1; 3; 6; 10; 30; 60]%Q).
Proof. vm_compute. reflexivity. Qed.

Lemma bars_wf : wf (f_inputs bars) /\ wf (f_outputs bars) /\ compatible bars.
Proof.
  split; [split; [repeat constructor; simpl; intuition discriminate|reflexivity]|].
  split; [split; [repeat constructor; simpl; intuition discriminate|reflexivity]|].
  intros ax n m [E|[E|[]]] [E'|[]]; injection E as <- <-; injection E' as E'; try discriminate E'; subst; auto.
Qed.

Lemma symmetric_fold {A B} (g : A -> B -> B) (b : B) : (forall x y z, g x (g y z) = g y (g x z)) -> symmetric (fold_right g b).
Proof. intros H l l' P. induction P; cbn; [reflexivity|now rewrite IHP|apply H|congruence]. Qed.

Example C63_reduce_applies : exists r, sum_of bars (Some ["x"]) false = Ok r /\ wf (f_inputs r).
Proof.
  assert (T : symmetric total) by (apply symmetric_fold; intros; ring).
  destruct bars_wf as (Wi & Wo & C).
  destruct (C63_reduce_partial Qc Qc Qc Qcplus Qcmult Qcminus Qcopp (qc 0) (qc 1) half mean true total bars ["x"] [("y", 2); ("x", 3)])
    as (r & E & W & _); auto.
  - exact Qcrt.
  - apply Qc_is_canon. reflexivity.
  - repeat constructor. intros [].
  - intros ax [<- |[]]. simpl. auto.
  - intros l l' P. unfold mean. now rewrite (T l l' P), (Permutation.Permutation_length P).
  - exists r. auto.
Qed.

Example C63_cumulative_applies : exists o, f_cumulative total bars (Some ["x"]) = Ok (mkF (f_inputs bars) o).
Proof.
  destruct bars_wf as (Wi & Wo & C).
  destruct (C63_cumulative Qc Qc Qc total bars "x" [("y", 2); ("x", 3)] 3 Wi Wo C) as (o & E & _); eauto. right. now left.
Qed.

(** Along an axis that only the inputs have, the outputs are a constant: the sum
    takes the constant once, but the last cumulative sum, and the sum of the same
    function after broadcasting, take it for every point. *)
Definition level : farr Qc Qc := mkF (arr [3] ["x"] [0; 1; 2]%Z) (arr [] [] [5]%Z).
Definition level_spread : farr Qc Qc := match f_broadcasted level with Ok b => b | Err _ => level end.

Theorem C63_constant_refuted :
  exists f b : farr Qc Qc, wf (f_inputs f) /\ wf (f_outputs f) /\ compatible f /\ f_shape f = Ok [("x", 3)] /\
    f_broadcasted f = Ok b /\ (forall e, bat (f_outputs f) e = bat (f_outputs b) e) /\
    show (sum_of f (Some ["x"]) false) = Ok ([], [1]%Q, [], [5]%Q) /\
    show (sum_of b (Some ["x"]) false) = Ok ([], [1]%Q, [], [15]%Q) /\
    show (f_cumulative total f (Some ["x"])) = Ok ([("x", 3)], [0; 1; 2]%Q, [("x", 3)], [5; 10; 15]%Q).
Proof.
  exists level, level_spread.
  split; [split; [repeat constructor; simpl; intuition discriminate|reflexivity]|].
  split; [split; [repeat constructor; simpl; intuition discriminate|reflexivity]|].
  split; [intros ax n m []|]. split; [reflexivity|]. split; [reflexivity|]. split; [intros e; reflexivity|].
  repeat split; vm_compute; reflexivity.
Qed.
Print Assumptions C63_constant_refuted.

(** With the default [keepdims=True] the inputs are left as they are: the sum of
    three bins is a single output on four inputs, a function of four points. *)
Theorem C63_keepdims_refuted :
  exists f r : farr Qc Qc, wf (f_inputs f) /\ wf (f_outputs f) /\ matched f /\ bins f "x" 3 /\ f_shape f = Ok [("y", 2); ("x", 3)] /\
    sum_of f (Some ["x"]) true = Ok r /\ f_shape r = Ok [("y", 2); ("x", 4)].
Proof.
  exists bars. destruct bars_wf as (Wi & Wo & C).
  assert (E : match sum_of bars (Some ["x"]) true with Ok r => f_shape r | Err e => Err e end = Ok [("y", 2); ("x", 4)])
    by (vm_compute; reflexivity).
  destruct (sum_of bars (Some ["x"]) true) as [r|]; [|discriminate]. exists r.
  split; [exact Wi|]. split; [exact Wo|]. split; [|split; [split; simpl; auto|split; [reflexivity|auto]]].
  intros ax n m [H|[H|[]]] [H'|[]]; injection H as <- <-; injection H' as H'; try discriminate H'; subst; auto.
Qed.
Print Assumptions C63_keepdims_refuted.
