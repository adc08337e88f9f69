(** C70: percentiles of function arrays. *)
From Coq Require Import String List Arith ZArith Bool Lia QArith Qcanon Permutation.
From Verif Require Import Base BaseFacts Numpy Shapes Scalar Elementwise Reduce Derived Interp Quantile Func FuncOps
  Spec SpecNumeric SpecQuantile SpecFuncOps FuncShapeFacts.
Import ListNotations.
Open Scope nat_scope.
Open Scope list_scope.

(** The outputs are the percentiles along those of the axes that they have, with
    the axes of [q] first; the inputs are kept with [keepdims], and are otherwise
    the mean along those of the axes that they have. *)
Theorem C70_percentile :
  forall (A B C Q : Type) (mean : list A -> A) (valid : Q -> bool) (perc : Q -> list B -> C)
    (f : farr A B) (q : operand Q) (axis : option (list string)) (keepdims : bool) (sh : shape),
  wf (f_inputs f) -> wf (f_outputs f) -> compatible f -> f_shape f = Ok sh -> op_wf q ->
  (forall x, symmetric (perc x)) -> symmetric mean -> (forall ax n, In (ax, n) (sshape (f_outputs f)) -> n <> 0) ->
  let l := match axis with Some l => l | None => dkeys sh end in
  let li := filter (fun ax => smem ax (s_axes (f_inputs f))) l in
  let lo := filter (fun ax => smem ax (s_axes (f_outputs f))) l in
  NoDup l ->
  (incl l (dkeys sh) -> percentile_ok valid (OpArr (f_outputs f)) q lo ->
   exists r, f_percentile mean valid perc f q axis keepdims = Ok r /\ wf (f_inputs r) /\ wf (f_outputs r) /\
     (keepdims = true -> f_inputs r = f_inputs f) /\
     (keepdims = false -> sshape (f_inputs r) = without (sshape (f_inputs f)) l /\
        forall e, at_ (f_inputs r) e = mean (map (at_ (f_inputs f)) (fibre (sshape (f_inputs f)) li e))) /\
     sshape (f_outputs r) = op_shape q ++ (if keepdims then squeezed (sshape (f_outputs f)) l else without (sshape (f_outputs f)) l) /\
     forall e, inside e (sshape (f_outputs r)) ->
       at_ (f_outputs r) e = perc (op_at q e) (map (bat (f_outputs f)) (fibre (sshape (f_outputs f)) lo e))) /\
  (~ (incl l (dkeys sh) /\ percentile_ok valid (OpArr (f_outputs f)) q lo) ->
   f_percentile mean valid perc f q axis keepdims = Err ValueError).
Proof. exact @f_percentile_spec. Qed.
Print Assumptions C70_percentile.

Open Scope string_scope.

Definition total (l : list Qc) : Qc := fold_right Qcplus 0%Qc l.
Definition mean (l : list Qc) : Qc := (total l / qnat (length l))%Qc.
(** the number of elements that are at most [x] stands for a percentile *)
Definition rank (x : Qc) (l : list Qc) : Qc := qnat (length (filter (fun y => qc_leb y x) l)).
Definition valid (x : Qc) : bool := qc_leb 0%Qc x && qc_leb x (qint 100).

Definition qs (l : list Q) : list Qc := map Q2Qc l.
Definition arr (sh : list nat) (axes : list string) (l : list Q) : sarr Qc := mkS (of_list 0%Qc sh (qs l)) axes.
Definition show (r : res (farr Qc Qc)) :=
  match r with
  | Ok f => Ok (sshape (f_inputs f), map this (ravel (s_nd (f_inputs f))), sshape (f_outputs f), map this (ravel (s_nd (f_outputs f))))
  | Err e => Err e
  end.

(** bins along [x], whose vertices do not depend on [t] *)
Definition ex_f : farr Qc Qc := mkF (arr [3] ["x"] [0; 1; 4]%Q) (arr [2; 2] ["t"; "x"] [5; 6; 7; 8]%Q).

Example C70_applies :
  wf (f_inputs ex_f) /\ wf (f_outputs ex_f) /\ compatible ex_f /\ f_shape ex_f = Ok [("t", 2); ("x", 2)] /\
  (forall x, symmetric (rank x)) /\ symmetric mean /\ (forall ax n, In (ax, n) (sshape (f_outputs ex_f)) -> n <> 0) /\
  percentile_ok valid (OpArr (f_outputs ex_f)) (OpNum (qint 6)) ["x"].
Proof.
  assert (W : forall sh l d, NoDup l -> length l = length sh -> wf (arr sh l d)) by (intros; split; auto).
  split; [apply W; [repeat (constructor; [simpl; intuition discriminate|]); constructor|reflexivity]|].
  split; [apply W; [repeat (constructor; [simpl; intuition discriminate|]); constructor|reflexivity]|].
  split. { intros ax n m [H|[H|[]]] [K|[]]; injection H as <- <-; inversion K; subst; auto. }
  split; [vm_compute; reflexivity|]. split.
  { intros x l l' P. unfold rank. f_equal. induction P; simpl; auto; try congruence; repeat (destruct (qc_leb _ _); simpl; auto). }
  split.
  { intros l l' P. unfold mean. rewrite (Permutation_length P). f_equal. clear -P. unfold total. induction P; cbn; auto; try congruence.
    now rewrite !Qcplus_assoc, (Qcplus_comm y). }
  split; [intros ax n [H|[H|[]]]; injection H as <- <-; discriminate|].
  split; [repeat (constructor; [simpl; intuition discriminate|]); constructor|]. split; [intros y [<- |[]]; right; now left|].
  split; [intros y []|]. split; [apply le_S, le_S, le_n|]. intros e _. reflexivity.
Qed.

Example C70_example :
  show (f_percentile mean valid rank ex_f (OpArr (arr [3] ["q"] [6; 1; 7]%Q)) (Some ["t"]) false)
  = Ok ([("x", 3)], [0; 1; 4]%Q, [("q", 3); ("x", 2)], [1; 1; 0; 0; 2; 1]%Q) /\
  show (f_percentile mean valid rank ex_f (OpNum (qint 6)) (Some ["x"]) false)
  = Ok ([], [(5 # 3)%Q], [("t", 2)], [2; 0]%Q) /\
  show (f_percentile mean valid rank ex_f (OpNum (qint 6)) (Some ["x"]) true)
  = Ok ([("x", 3)], [0; 1; 4]%Q, [("t", 2); ("x", 1)], [2; 0]%Q) /\
  show (f_percentile mean valid rank ex_f (OpNum (qint 6)) None false) = Ok ([], [(5 # 3)%Q], [], [2]%Q) /\
  show (f_percentile mean valid rank ex_f (OpNum (qint 6)) (Some ["z"]) false) = Err ValueError /\
  show (f_percentile mean valid rank ex_f (OpNum (qint 101)) (Some ["t"]) false) = Err ValueError.
Proof. vm_compute. repeat split; reflexivity. Qed.

(** The percentile and the maximum of the same bins stand at different inputs: the
    percentile at the mean of the vertices, 5/3, every other reduction at the mean of the
    middles of the bins, 3/2. *)
Definition half : Qc := Q2Qc (1 # 2).

Theorem C70_position_refuted :
  forall (perc : Qc -> list Qc -> Qc) (red : list Qc -> Qc), exists r r',
  f_percentile mean valid perc ex_f (OpNum (qint 50)) (Some ["x"]) false = Ok r /\
  f_reduce Qcplus Qcmult Qcminus 0%Qc 1%Qc half mean true red ex_f (Some ["x"]) false = Ok r' /\
  this (at_ (f_inputs r) (fun _ => 0)) = (5 # 3)%Q /\ this (at_ (f_inputs r') (fun _ => 0)) = (3 # 2)%Q.
Proof.
  intros perc red. eexists. eexists. split; [reflexivity|]. split; [reflexivity|]. split; vm_compute; reflexivity.
Qed.
Print Assumptions C70_position_refuted.
