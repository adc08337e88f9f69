(** C77: uniform random samples and stratified random spaces. *)
From Coq Require Import String List Arith ZArith QArith Qcanon Bool Lia.
From Verif Require Import Base Numpy Shapes Scalar Elementwise Interp Random Strata Spec SpecNumeric SpecStrata StrataFacts.
Import ListNotations.
Open Scope nat_scope.
Open Scope list_scope.

(** A uniform sample has the common shape of the limits and of the requested shape,
    its own random number at every position, and is between the limits there. *)
Theorem C77_uniform :
  forall (u : option Z -> list nat -> list nat -> Qc) (low high : operand Qc) (shape_random : shape) (seed : option Z) (sb sd : shape),
  op_wf low -> op_wf high -> NoDup (dkeys shape_random) ->
  broadcast_shapes (op_shapes [low; high]) = Ok sb -> broadcast_shapes [sb; shape_random] = Ok sd ->
  exists r, na_uniform u low high shape_random seed = Ok r /\ wf r /\ sshape r = sd /\
    forall e, at_ r e = (op_at low e + (op_at high e - op_at low e) * u seed (dvals sd) (map e (dkeys sd)))%Qc.
Proof. exact uniform_ok. Qed.
Print Assumptions C77_uniform.

Theorem C77_between :
  forall (u : option Z -> list nat -> list nat -> Qc) (low high : operand Qc) (shape_random : shape) (seed : option Z) (sb sd : shape) (r : sarr Qc),
  op_wf low -> op_wf high -> NoDup (dkeys shape_random) -> unit_interval u ->
  broadcast_shapes (op_shapes [low; high]) = Ok sb -> broadcast_shapes [sb; shape_random] = Ok sd ->
  na_uniform u low high shape_random seed = Ok r ->
  sshape r = sd /\ forall e, inside e sd -> between (op_at low e) (op_at high e) (at_ r e).
Proof. exact uniform_between. Qed.
Print Assumptions C77_between.

(** A stratified random space has the shape of the equally spaced points, and every
    sample is moved from its point by its own random part of a piece.  Missing from
    the full statement: a single edge and no centers, see [C77_refused] below. *)
Theorem C77_samples_partial :
  forall (u : option Z -> list nat -> list nat -> Qc) (start stop : operand Qc) (sh : shape) (axis : string),
  op_wf start -> op_wf stop -> broadcast_shapes [op_shape start; op_shape stop] = Ok sh -> ~ In axis (dkeys sh) ->
  forall (num : nat) (endpoint centers : bool) (seed : option Z), pieces num endpoint centers <> 0%Z ->
  exists r sd, na_stratified u start stop axis (Z.of_nat num) endpoint centers seed = Ok r /\ wf r /\
    same_shape (sshape r) (sh ++ [(axis, num)]) /\ NoDup (dkeys sd) /\ same_shape sd (sshape r) /\
    forall e, inside e (sshape r) ->
      at_ r e = (op_at start e + (qnat (e axis) + (if centers then half else qint 0) + (u seed (dvals sd) (map e (dkeys sd)) - half))
                                 * piece (op_at start e) (op_at stop e) num endpoint centers)%Qc.
Proof. exact stratified_ok. Qed.
Print Assumptions C77_samples_partial.

(** Sample [i] is in piece [i]. *)
Theorem C77_stratum :
  forall (u : option Z -> list nat -> list nat -> Qc) (start stop : operand Qc) (sh : shape) (axis : string),
  op_wf start -> op_wf stop -> broadcast_shapes [op_shape start; op_shape stop] = Ok sh -> ~ In axis (dkeys sh) -> unit_interval u ->
  forall (num : nat) (endpoint centers : bool) (seed : option Z) (r : sarr Qc),
  na_stratified u start stop axis (Z.of_nat num) endpoint centers seed = Ok r ->
  forall e, inside e (sshape r) ->
    between (stratum_begin (op_at start e) (op_at stop e) num endpoint centers (e axis))
            (stratum_end (op_at start e) (op_at stop e) num endpoint centers (e axis)) (at_ r e).
Proof. exact stratified_stratum. Qed.
Print Assumptions C77_stratum.

(** Consecutive samples are in order. *)
Theorem C77_increasing :
  forall (u : option Z -> list nat -> list nat -> Qc) (start stop : operand Qc) (sh : shape) (axis : string),
  op_wf start -> op_wf stop -> broadcast_shapes [op_shape start; op_shape stop] = Ok sh -> ~ In axis (dkeys sh) -> unit_interval u ->
  forall (num : nat) (endpoint centers : bool) (seed : option Z) (r : sarr Qc),
  na_stratified u start stop axis (Z.of_nat num) endpoint centers seed = Ok r ->
  forall e, inside e (sshape r) -> S (e axis) < num -> (op_at start e < op_at stop e)%Qc ->
    (at_ r e < at_ r (set_env e axis (S (e axis))))%Qc.
Proof. exact stratified_increasing. Qed.
Print Assumptions C77_increasing.

Theorem C77_decreasing :
  forall (u : option Z -> list nat -> list nat -> Qc) (start stop : operand Qc) (sh : shape) (axis : string),
  op_wf start -> op_wf stop -> broadcast_shapes [op_shape start; op_shape stop] = Ok sh -> ~ In axis (dkeys sh) -> unit_interval u ->
  forall (num : nat) (endpoint centers : bool) (seed : option Z) (r : sarr Qc),
  na_stratified u start stop axis (Z.of_nat num) endpoint centers seed = Ok r ->
  forall e, inside e (sshape r) -> S (e axis) < num -> (op_at stop e < op_at start e)%Qc ->
    (at_ r (set_env e axis (S (e axis))) < at_ r e)%Qc.
Proof. exact stratified_decreasing. Qed.
Print Assumptions C77_decreasing.

(** With centers all samples are in the interval.  Missing from the full statement:
    the samples without centers, see [C77_outside_refuted]. *)
Theorem C77_inside_partial :
  forall (u : option Z -> list nat -> list nat -> Qc) (start stop : operand Qc) (sh : shape) (axis : string),
  op_wf start -> op_wf stop -> broadcast_shapes [op_shape start; op_shape stop] = Ok sh -> ~ In axis (dkeys sh) -> unit_interval u ->
  forall (num : nat) (endpoint centers : bool) (seed : option Z) (r : sarr Qc),
  na_stratified u start stop axis (Z.of_nat num) endpoint centers seed = Ok r ->
  forall e, centers = true -> inside e (sshape r) -> between (op_at start e) (op_at stop e) (at_ r e).
Proof. exact stratified_inside. Qed.
Print Assumptions C77_inside_partial.

(** Without centers the first sample can be before the start. *)
Theorem C77_outside_refuted :
  forall (s t : Qc) (axis : string) (num : nat) (endpoint : bool) (seed : option Z), (s < t)%Qc -> 2 <= num ->
  exists r, na_stratified (fun _ _ _ => 0%Qc) (OpNum s) (OpNum t) axis (Z.of_nat num) endpoint false seed = Ok r /\
    exists e, inside e (sshape r) /\ (at_ r e < s)%Qc.
Proof. exact stratified_outside. Qed.
Print Assumptions C77_outside_refuted.

(** One point that is the endpoint, and no centers, raise an exception. *)
Theorem C77_refused :
  forall (u : option Z -> list nat -> list nat -> Qc) (start stop : operand Qc) (sh : shape) (axis : string),
  op_wf start -> op_wf stop -> broadcast_shapes [op_shape start; op_shape stop] = Ok sh -> ~ In axis (dkeys sh) ->
  forall (num : nat) (endpoint centers : bool) (seed : option Z), pieces num endpoint centers = 0%Z ->
  na_stratified u start stop axis (Z.of_nat num) endpoint centers seed = Err ZeroDivisionError.
Proof. exact stratified_refused. Qed.
Print Assumptions C77_refused.

Open Scope string_scope.
Definition q (a : Z) (b : positive) : Q := Qred (a # b).
Definition show (r : res (sarr Qc)) : option (shape * list Q) :=
  match r with Ok a => Some (sshape a, map this (ravel (s_nd a))) | Err _ => None end.
Definition ex_start : sarr Qc := mkS (of_list (qint 0) [2] [qint 0; qint 10]) ["y"].

(** a generator: 0, 1/4, 1/2, 3/4 in turn *)
Definition ex_u : option Z -> list nat -> list nat -> Qc :=
  fun _ sizes idx => Q2Qc (Z.of_nat (ravel_idx sizes idx mod 4) # 4).

Example C77_example_unit : unit_interval ex_u.
Proof.
  intros seed sizes idx. unfold ex_u. assert (H := Nat.mod_upper_bound (ravel_idx sizes idx) 4).
  destruct (ravel_idx sizes idx mod 4) as [|[|[|[|n]]]]; try (split; [discriminate|reflexivity]).
  exfalso. assert (S (S (S (S n))) < 4) by auto. lia.
Qed.

Example C77_example_wf : op_wf (OpArr ex_start) /\ op_wf (OpNum (qint 4)) /\
  broadcast_shapes [op_shape (OpArr ex_start); op_shape (OpNum (qint 4))] = Ok [("y", 2)] /\ ~ In "x" ["y"].
Proof.
  split; [split; [repeat constructor; simpl; intuition|reflexivity]|]. split; [exact Logic.I|]. split; [reflexivity|].
  simpl. intuition discriminate.
Qed.

Example C77_example_uniform :
  show (na_uniform ex_u (OpArr ex_start) (OpNum (qint 4)) [("x", 2)] None)
  = Some ([("y", 2); ("x", 2)], [q 0 1; q 1 1; q 7 1; q 11 2]).
Proof. vm_compute. reflexivity. Qed.

Example C77_example_centers :
  show (na_stratified ex_u (OpArr ex_start) (OpNum (qint 4)) "x" 2 true true (Some 42%Z))
  = Some ([("y", 2); ("x", 2)], [q 0 1; q 5 2; q 17 2; q 19 4]).
Proof. vm_compute. reflexivity. Qed.

Example C77_example_edges :
  show (na_stratified ex_u (OpNum (qint 0)) (OpNum (qint 4)) "x" 3 true false None)
  = Some ([("x", 3)], [q (-1) 1; q 3 2; q 4 1]).
Proof. vm_compute. reflexivity. Qed.

Example C77_example_refused :
  na_stratified ex_u (OpNum (qint 0)) (OpNum (qint 4)) "x" 1 true false None = Err ZeroDivisionError /\
  pieces 1 true false = 0%Z /\ pieces 3 true false = 2%Z.
Proof. vm_compute. auto. Qed.
