(** C108: evenly spaced uncertain scalars are evenly spaced in every world. *)
From Coq Require Import String List Arith ZArith QArith Qcanon Bool Lia.
From Verif Require Import Base Numpy Shapes Scalar Elementwise Interp Uncertain UncertainChoice UncertainLinspace
  Spec SpecNumeric SpecUncertain SpecUncertainChoice SpecUncertainLinspace UncertainLinspaceFacts.
Import ListNotations.
Open Scope nat_scope.
Open Scope list_scope.

(** The ends may be uncertain scalars, scalar arrays or numbers.  In every world, element [i] along the
    new axis is the start of that world plus [i] pieces of the interval of that world; a single element that is also the
    endpoint is the start.  Both parts have the new axis, whatever the ends are. *)
Theorem C108_linspace :
  forall (start stop : uop Qc) axis (num : nat) endpoint shn shd,
  uop_wf start -> uop_wf stop -> sample_free start -> sample_free stop -> spaceable start stop axis (Z.of_nat num) shn shd ->
  exists u, u_linspace start stop axis (Z.of_nat num) endpoint = Ok u /\ u_wf u /\
    same_shape (op_shape (u_nominal u)) (shn ++ [(axis, num)]) /\ same_shape (op_shape (u_distribution u)) (shd ++ [(axis, num)]) /\
    forall w e, u_inside u w e ->
      (pieces num endpoint false = 0%Z -> u_at (Uncertain u) w e = u_at start w e) /\
      (pieces num endpoint false <> 0%Z ->
       u_at (Uncertain u) w e = (u_at start w e + qnat (e axis) * piece (u_at start w e) (u_at stop w e) num endpoint false)%Qc).
Proof. exact @u_linspace_spec. Qed.
Print Assumptions C108_linspace.

(** Everything else is refused: parts that do not broadcast, a negative number of elements, an
    axis that an end already has in either part, and the axis of the samples. *)
Theorem C108_refused :
  forall (start stop : uop Qc) axis num endpoint,
  uop_wf start -> uop_wf stop -> sample_free start -> sample_free stop -> (forall shn shd, ~ spaceable start stop axis num shn shd) ->
  u_linspace start stop axis num endpoint = Err ValueError.
Proof. exact @u_linspace_refused. Qed.
Print Assumptions C108_refused.

(** Scalar arrays that have the axis of the samples themselves are refused. *)
Theorem C108_samples_refused :
  forall (start stop : uop Qc) axis num endpoint,
  uop_wf start -> ~ sample_free start \/ ~ sample_free stop ->
  u_linspace start stop axis num endpoint = Err ValueError.
Proof. exact @u_linspace_samples. Qed.
Print Assumptions C108_samples_refused.

Open Scope string_scope.

Definition arr (l : list Z) (s : list nat) (axes : list string) : operand Qc := OpArr (mkS (of_list (qint 0) s (map qint l)) axes).

(** an uncertain start, and an end without uncertainty *)
Definition ex_s : uop Qc := Uncertain (mkU (OpNum (qint 1)) (arr [0; 3]%Z [2] ["_distribution"])).
Definition ex_t : uop Qc := Certain (arr [9; 6]%Z [2] ["y"]).
(** the samples do not fit *)
Definition ex_3 : uop Qc := Uncertain (mkU (OpNum (qint 1)) (arr [0; 3; 5]%Z [3] ["_distribution"])).
(** an array that has the axis of the samples *)
Definition ex_d : uop Qc := Certain (arr [0; 3]%Z [2] ["_distribution"]).

Example C108_applies : uop_wf ex_s /\ uop_wf ex_t /\ sample_free ex_s /\ sample_free ex_t /\
  spaceable ex_s ex_t "x" (Z.of_nat 4) [("y", 2)] [("_distribution", 2); ("y", 2)] /\ pieces 4 true false <> 0%Z /\ pieces 1 true false = 0%Z /\
  uop_wf ex_3 /\ (forall shn shd, ~ spaceable ex_s ex_3 "x" 4 shn shd) /\ (forall shn shd, ~ spaceable ex_s ex_t "_distribution" 4 shn shd) /\
  ~ sample_free ex_d.
Proof.
  assert (W : forall l s ax, length s = 1 -> op_wf (arr l s [ax])). { intros l s ax H. split; [apply NoDup_cons; [intros []|apply NoDup_nil]|symmetry; exact H]. }
  split. { split; [exact I|]. split; [now apply W|]. intros []. }
  split. { now apply W. }
  split; [exact I|]. split. { cbn. intuition discriminate. }
  split. { split; [reflexivity|]. split; [reflexivity|]. split; [lia|]. cbn. intuition discriminate. }
  split; [discriminate|]. split; [reflexivity|].
  split. { split; [exact I|]. split; [now apply W|]. intros []. }
  split. { intros shn shd (_ & H & _). discriminate. }
  split. { intros shn shd (_ & _ & _ & _ & _ & H). now apply H. }
  intros H. apply H. now left.
Qed.

Definition show (r : res (unc Qc)) :=
  let f o := (sshape (normalize o), map this (ravel (s_nd (normalize o)))) in
  match r with Ok u => Ok (f (u_nominal u), f (u_distribution u)) | Err e => Err e end.

(** every sample has its own spacing *)
Example C108_example :
  show (u_linspace ex_s ex_t "x" 3 true) = Ok ([("y", 2); ("x", 3)], [1%Q; 5%Q; 9%Q; 1%Q; 7 # 2; 6%Q], ([("_distribution", 2); ("y", 2); ("x", 3)], [0%Q; 9 # 2; 9%Q; 0%Q; 3%Q; 6%Q; 3%Q; 6%Q; 9%Q; 3%Q; 9 # 2; 6%Q])) /\
  show (u_linspace ex_s (Certain (OpNum (qint 5))) "x" 2 false) = Ok ([("x", 2)], [1%Q; 3%Q], ([("_distribution", 2); ("x", 2)], [0%Q; 5 # 2; 3%Q; 4%Q])).
Proof. split; vm_compute; reflexivity. Qed.

Example C108_example_refusals :
  u_linspace ex_s ex_3 "x" 4 true = Err ValueError /\ u_linspace ex_s ex_t "y" 4 true = Err ValueError /\
  u_linspace ex_s ex_t "x" (-1) true = Err ValueError /\ u_linspace ex_s ex_t "_distribution" 4 true = Err ValueError /\
  u_linspace (Certain (OpNum (qint 1))) (Certain (OpNum (qint 5))) "_distribution" 4 true = Err ValueError.
Proof. vm_compute. repeat split; reflexivity. Qed.
