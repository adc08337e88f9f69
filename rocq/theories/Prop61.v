(** C61: percentiles and quantiles along named axes. *)
From Coq Require Import String List Arith ZArith Bool Lia Permutation.
From Verif Require Import Base Numpy Shapes Scalar Elementwise Reduce Quantile Spec SpecNumeric SpecQuantile QuantileFacts.
Import ListNotations.
Open Scope nat_scope.
Open Scope list_scope.

(** [perc x l] is the percentile [x] of the numbers [l].  The result has the axes of
    [q] and then the remaining axes of [a]; every element is the percentile, for the
    [q] at its position, of the elements of [a] above its position. *)
Theorem C61_percentile :
  forall (A Q B : Type) (valid : Q -> bool) (perc : Q -> list A -> B) (a : operand A) (q : operand Q)
         (axis : option (list string)) (keepdims : bool),
  (forall x, symmetric (perc x)) ->
  op_wf a -> op_wf q -> (forall ax n, In (ax, n) (op_shape a) -> n <> 0) ->
  let S := match axis with Some l => l | None => dkeys (op_shape a) end in
  (percentile_ok valid a q S -> exists r, na_percentile valid perc a q axis None keepdims = Ok r /\ wf r /\
     sshape r = op_shape q ++ (if keepdims then squeezed (op_shape a) S else without (op_shape a) S) /\
     forall e, inside e (sshape r) -> at_ r e = perc (op_at q e) (map (op_at a) (fibre (op_shape a) S e))) /\
  (~ percentile_ok valid a q S -> na_percentile valid perc a q axis None keepdims = Err ValueError).
Proof. exact @percentile_spec. Qed.
Print Assumptions C61_percentile.

(** The storage order of [a] and [q] and the order in which the axes are named do not
    matter, nor for the exceptions. *)
Theorem C61_storage_order :
  forall (A Q B : Type) (valid : Q -> bool) (perc : Q -> list A -> B) (a a' : operand A) (q q' : operand Q)
         (axis axis' : option (list string)) (keepdims : bool),
  (forall x, symmetric (perc x)) ->
  op_wf a -> op_wf q -> op_wf a' -> op_wf q' -> (forall ax n, In (ax, n) (op_shape a) -> n <> 0) ->
  same_operand a a' -> same_operand q q' ->
  Permutation (match axis with Some l => l | None => dkeys (op_shape a) end)
              (match axis' with Some l => l | None => dkeys (op_shape a') end) ->
  same_result (na_percentile valid perc a q axis None keepdims) (na_percentile valid perc a' q' axis' None keepdims).
Proof. exact @percentile_same. Qed.
Print Assumptions C61_storage_order.

(** An output array with the named shape of the result, stored in any order, receives
    the labelled elements of the result; one with other names is refused. *)
Theorem C61_out :
  forall (A Q B : Type) (valid : Q -> bool) (perc : Q -> list A -> B) (a : operand A) (q : operand Q)
         (axis : option (list string)) (keepdims : bool) (r o : sarr B),
  na_percentile valid perc a q axis None keepdims = Ok r -> wf o ->
  (same_shape (sshape o) (sshape r) ->
   exists r', na_percentile valid perc a q axis (Some o) keepdims = Ok r' /\ wf r' /\ sshape r' = sshape o /\
     forall e, at_ r' e = at_ r e) /\
  (~ (forall ax, In ax (s_axes o) <-> In ax (s_axes r)) ->
   na_percentile valid perc a q axis (Some o) keepdims = Err ValueError).
Proof. exact @percentile_out. Qed.
Print Assumptions C61_out.

(** ** Examples *)
Open Scope string_scope.

(** the number of elements that are at most [x] stands for a percentile *)
Definition rank (x : Z) (l : list Z) : Z := Z.of_nat (length (filter (fun y => (y <=? x)%Z) l)).
Definition in_range (x : Z) : bool := (0 <=? x)%Z && (x <=? 100)%Z.
Definition ex_a : sarr Z := mkS (of_list 0%Z [2; 3] [1; 20; 3; 40; 5; 60]%Z) ["x"; "y"].
Definition ex_q : sarr Z := mkS (of_list 0%Z [2] [4; 30]%Z) ["q"].
Definition show (r : res (sarr Z)) := match r with Ok a => inl (sshape a, ravel (s_nd a)) | Err e => inr e end.

Example C61_example_symmetric : forall x, symmetric (rank x).
Proof.
  intros x l l' P. unfold rank. f_equal. induction P; simpl; auto.
  - destruct (x0 <=? x)%Z; simpl; auto.
  - destruct (y <=? x)%Z, (x0 <=? x)%Z; auto.
  - congruence.
Qed.

Example C61_example :
  show (na_percentile in_range rank (OpArr ex_a) (OpArr ex_q) (Some ["x"]) None false) =
  inl ([("q", 2); ("y", 3)], [1; 0; 1; 1; 2; 1]%Z) /\
  show (na_percentile in_range rank (OpArr ex_a) (OpArr ex_q) (Some ["y"]) None true) =
  inl ([("q", 2); ("x", 2); ("y", 1)], [2; 0; 3; 1]%Z) /\
  show (na_percentile in_range rank (OpArr ex_a) (OpNum 4%Z) None None false) = inl ([], [2%Z]) /\
  show (na_percentile in_range rank (OpArr ex_a) (OpArr ex_q) (Some ["x"]) (Some (mkS (of_list 0%Z [3; 2] [0; 0; 0; 0; 0; 0]%Z) ["y"; "q"])) false) =
  inl ([("y", 3); ("q", 2)], [1; 1; 0; 2; 1; 1]%Z).
Proof. vm_compute. auto. Qed.

(** a shared axis, an axis that is not there, a percentage out of range, and three
    axes are refused *)
Example C61_example_refused :
  show (na_percentile in_range rank (OpArr ex_a) (OpArr (mkS (of_list 0%Z [2] [4; 30]%Z) ["y"])) (Some ["x"]) None false) = inr ValueError /\
  show (na_percentile in_range rank (OpArr ex_a) (OpArr ex_q) (Some ["z"]) None false) = inr ValueError /\
  show (na_percentile in_range rank (OpArr ex_a) (OpNum 101%Z) (Some ["x"]) None false) = inr ValueError /\
  show (na_percentile in_range rank (OpArr ex_a) (OpArr (mkS (of_list 0%Z [1; 1; 1] [4]%Z) ["p"; "q"; "r"])) (Some ["x"]) None false) = inr ValueError.
Proof. vm_compute. auto. Qed.
