(** C23: [linspace] and [step] agree, with and without endpoints and centers. *)
From Coq Require Import String List Arith ZArith QArith Qcanon Bool Lia.
From Verif Require Import Base Numpy Shapes Scalar Interp Spec SpecNumeric LinspaceFacts.
Import ListNotations.
Open Scope nat_scope.
Open Scope list_scope.

(** [start] and [stop] are numbers or arrays that broadcast to [sh].  Without
    centers sample [i] is [start + i * piece]; a single sample that is also the
    endpoint is [start]. *)
Theorem C23_edges :
  forall (start stop : operand Qc) (sh : shape) (axis : string),
  op_wf start -> op_wf stop -> broadcast_shapes [op_shape start; op_shape stop] = Ok sh ->
  ~ In axis (dkeys sh) ->
  forall (num : nat) (endpoint : bool),
  exists r, na_linspace start stop axis (Z.of_nat num) endpoint false = Ok r /\ wf r /\
    same_shape (sshape r) (sh ++ [(axis, num)]) /\
    forall e, inside e (sshape r) ->
      (pieces num endpoint false = 0%Z -> at_ r e = op_at start e) /\
      (pieces num endpoint false <> 0%Z ->
       at_ r e = (op_at start e + qnat (e axis) * piece (op_at start e) (op_at stop e) num endpoint false)%Qc).
Proof. exact linspace_edges. Qed.
Print Assumptions C23_edges.

(** With centers sample [i] is the middle of piece [i]. *)
Theorem C23_centers :
  forall (start stop : operand Qc) (sh : shape) (axis : string),
  op_wf start -> op_wf stop -> broadcast_shapes [op_shape start; op_shape stop] = Ok sh ->
  ~ In axis (dkeys sh) ->
  forall (num : nat) (endpoint : bool), pieces num endpoint true <> 0%Z ->
  exists r, na_linspace start stop axis (Z.of_nat num) endpoint true = Ok r /\ wf r /\
    same_shape (sshape r) (sh ++ [(axis, num)]) /\
    forall e, inside e (sshape r) ->
      at_ r e = (op_at start e + (qnat (e axis) + half) * piece (op_at start e) (op_at stop e) num endpoint true)%Qc.
Proof. exact linspace_centers. Qed.
Print Assumptions C23_centers.

(** Two consecutive samples differ by [step], for all flags. *)
Theorem C23_step :
  forall (start stop : operand Qc) (sh : shape) (axis : string),
  op_wf start -> op_wf stop -> broadcast_shapes [op_shape start; op_shape stop] = Ok sh ->
  ~ In axis (dkeys sh) ->
  forall (num : nat) (endpoint centers : bool) (r : sarr Qc), 2 <= num ->
  na_linspace start stop axis (Z.of_nat num) endpoint centers = Ok r ->
  exists h, na_step start stop (Z.of_nat num) endpoint centers = Ok h /\
    forall e, inside e (sshape r) -> S (e axis) < num ->
      (at_ r (set_env e axis (S (e axis))) - at_ r e)%Qc = op_at h e.
Proof. exact linspace_step. Qed.
Print Assumptions C23_step.

(** The first sample is [start], the last one is [stop] if it is included. *)
Theorem C23_ends :
  forall (start stop : operand Qc) (sh : shape) (axis : string),
  op_wf start -> op_wf stop -> broadcast_shapes [op_shape start; op_shape stop] = Ok sh ->
  ~ In axis (dkeys sh) ->
  forall (num : nat) (endpoint : bool) (r : sarr Qc), 2 <= num ->
  na_linspace start stop axis (Z.of_nat num) endpoint false = Ok r ->
  forall e, inside e (sshape r) ->
    (e axis = 0 -> at_ r e = op_at start e) /\
    (endpoint = true -> e axis = num - 1 -> at_ r e = op_at stop e).
Proof. exact linspace_ends. Qed.
Print Assumptions C23_ends.

(** Centers are strictly inside the interval. *)
Theorem C23_inside :
  forall (start stop : operand Qc) (sh : shape) (axis : string),
  op_wf start -> op_wf stop -> broadcast_shapes [op_shape start; op_shape stop] = Ok sh ->
  ~ In axis (dkeys sh) ->
  forall (num : nat) (endpoint : bool) (r : sarr Qc),
  na_linspace start stop axis (Z.of_nat num) endpoint true = Ok r ->
  forall e, inside e (sshape r) ->
    ((op_at start e < op_at stop e)%Qc -> (op_at start e < at_ r e < op_at stop e)%Qc) /\
    ((op_at stop e < op_at start e)%Qc -> (op_at stop e < at_ r e < op_at start e)%Qc).
Proof. exact linspace_inside. Qed.
Print Assumptions C23_inside.

(** A negative number of samples and an axis that an argument already has are
    refused. *)
Theorem C23_refused :
  forall (start stop : operand Qc) (axis : string) (num : Z) (endpoint : bool) (sh : shape),
  op_wf start -> op_wf stop -> broadcast_shapes [op_shape start; op_shape stop] = Ok sh ->
  (num < 0)%Z \/ In axis (dkeys sh) ->
  na_linspace start stop axis num endpoint false = Err ValueError.
Proof.
  exact (fun start stop axis num endpoint sh Ws Wt SH H =>
    match Z_lt_ge_dec num 0 with
    | left L => linspace_negative start stop axis num endpoint sh Ws Wt SH L
    | right G =>
        match H with
        | or_introl L => False_ind _ (Zlt_not_le _ _ L (Z.ge_le _ _ G))
        | or_intror K =>
            eq_ind (Z.of_nat (Z.to_nat num)) (fun n => na_linspace start stop axis n endpoint false = Err ValueError)
              (linspace_repeated start stop axis (Z.to_nat num) endpoint sh Ws Wt SH K) num (Z2Nat.id _ (Z.ge_le _ _ G))
        end
    end).
Qed.
Print Assumptions C23_refused.

Open Scope string_scope.
Definition q (a : Z) (b : positive) : Q := Qred (a # b).
Definition show (r : res (sarr Qc)) : option (shape * list Q) :=
  match r with Ok a => Some (sshape a, map this (ravel (s_nd a))) | Err _ => None end.
Definition ex_start : sarr Qc := mkS (of_list (qint 0) [2] [qint 0; qint 10]) ["y"].

Example C23_example_wf : op_wf (OpArr ex_start) /\ op_wf (OpNum (qint 3)) /\
  broadcast_shapes [op_shape (OpArr ex_start); op_shape (OpNum (qint 3))] = Ok [("y", 2)] /\ ~ In "x" ["y"].
Proof.
  split; [split; [repeat constructor; simpl; intuition|reflexivity]|]. split; [exact I|]. split; [reflexivity|].
  simpl. intuition discriminate.
Qed.

Example C23_example_edges :
  show (na_linspace (OpArr ex_start) (OpNum (qint 3)) "x" 4 true false)
  = Some ([("y", 2); ("x", 4)], [q 0 1; q 1 1; q 2 1; q 3 1; q 10 1; q 23 3; q 16 3; q 3 1]).
Proof. vm_compute. reflexivity. Qed.

Example C23_example_centers :
  show (na_linspace (OpArr ex_start) (OpNum (qint 3)) "x" 2 true true)
  = Some ([("y", 2); ("x", 2)], [q 3 4; q 9 4; q 33 4; q 19 4]).
Proof. vm_compute. reflexivity. Qed.

Example C23_example_open :
  show (na_linspace (OpNum (qint 0)) (OpNum (qint 3)) "x" 3 false true)
  = Some ([("x", 3)], [q 3 8; q 9 8; q 15 8]).
Proof. vm_compute. reflexivity. Qed.

Example C23_example_single :
  show (na_linspace (OpNum (qint 5)) (OpNum (qint 3)) "x" 1 true false) = Some ([("x", 1)], [q 5 1]) /\
  na_step (OpNum (qint 5)) (OpNum (qint 3)) 1 true false = Err ZeroDivisionError /\
  match na_step (OpNum (qint 5)) (OpNum (qint 3)) 4 false false with Ok (OpNum v) => this v = q (-1) 2 | _ => False end.
Proof. vm_compute. auto. Qed.

Example C23_example_refused :
  na_linspace (OpArr ex_start) (OpNum (qint 3)) "y" 4 true false = Err ValueError /\
  na_linspace (OpArr ex_start) (OpNum (qint 3)) "x" (-1) true false = Err ValueError.
Proof. vm_compute. auto. Qed.
