(** C98: operations of uncertain scalars along one axis act in every world. *)
From Coq Require Import String List Arith ZArith Bool Lia.
From Verif Require Import Base Numpy Shapes Scalar Elementwise Reorder Along Sorting Uncertain UncertainChoice UncertainAlong
  Spec SpecUncertain SpecUncertainChoice SpecUncertainAlong UncertainAlongFacts.
Import ListNotations.
Open Scope nat_scope.
Open Scope list_scope.

(** The cumulative operation given by [scan] on the beginnings of every run.
    (Partial: an axis that the array does not have is a KeyError.) *)
Theorem C98_cumulative_partial :
  forall (A B : Type) (scan : list A -> B) (initial : bool) (u : unc A) (axis : option (list string)) (sh : shape),
  u_wf u -> u_shape u = Ok sh ->
  let S := match axis with Some l => l | None => dkeys sh end in
  (forall ax num, S = [ax] -> In (ax, num) sh ->
     exists n d, let r := mkU (OpArr n) (OpArr d) in
       u_cumulative scan initial u axis = Ok r /\ u_wf r /\
       (forall w x, dget (op_shape (u_part r w)) x =
          if String.eqb x ax then Some (num + if initial then 1 else 0) else dget (op_shape (u_part u w)) x) /\
       forall w e, u_inside r w e ->
         u_at (Uncertain r) w e = scan (firstn (e ax + if initial then 0 else 1) (u_run (Uncertain u) w ax num e))) /\
  (forall ax, S = [ax] -> ~ In ax (dkeys sh) -> u_cumulative scan initial u axis = Err KeyError) /\
  (length S <> 1 -> u_cumulative scan initial u axis = Err ValueError).
Proof. exact @u_cumulative_spec. Qed.
Print Assumptions C98_cumulative_partial.

(** Every run is partitioned, by any function that keeps the number of elements. *)
Theorem C98_partition :
  forall (A : Type) (part1 : list A -> list A) (kth : list Z) (u : unc A) (axis : string) (sh : shape),
  u_wf u -> u_shape u = Ok sh -> (forall x, length (part1 x) = length x) ->
  let ok num := In (axis, num) sh /\ Forall (in_range num) kth in
  (forall num, ok num -> exists n d, let r := mkU (OpArr n) (OpArr d) in
     u_partition part1 kth u axis = Ok r /\ u_wf r /\
     (forall w x, dget (op_shape (u_part r w)) x = if String.eqb x axis then Some num else dget (op_shape (u_part u w)) x) /\
     forall w e, u_line r w axis e = part1 (u_run (Uncertain u) w axis num e)) /\
  (~ (exists num, ok num) -> u_partition part1 kth u axis = Err ValueError).
Proof. exact @u_partition_spec. Qed.
Print Assumptions C98_partition.

(** The elements of every run are repeated; the last clause lists the refusals. *)
Theorem C98_repeat :
  forall (A : Type) (u : unc A) (repeats : operand nat) (axis : string) (sh : shape),
  u_wf u -> u_shape u = Ok sh -> op_wf repeats ->
  let num := size_of sh axis in
  let ok := In axis (dkeys sh) /\
    (op_shape repeats = [] \/ exists ax m, op_shape repeats = [(ax, m)] /\ (m = 1 \/ m = num)) in
  (ok -> exists n d, let r := mkU (OpArr n) (OpArr d) in
     u_repeat u repeats axis = Ok r /\ u_wf r /\
     (forall x, x <> axis -> dget (sshape n) x = dget sh x /\ dget (sshape d) x = dget (sh ++ samples u) x) /\
     forall w e, u_line r w axis e =
       expand (map (fun j => op_at repeats (fun _ => j)) (seq 0 num)) (u_run (Uncertain u) w axis num e)) /\
  (~ ok -> u_repeat u repeats axis = Err ValueError).
Proof. exact @u_repeat_spec. Qed.
Print Assumptions C98_repeat.

(** Differences of consecutive elements, repeated [n] times, for any subtraction.
    (Partial: the ends must fit, part by part, into the parts of the array.) *)
Theorem C98_diff_partial :
  forall (A : Type) (sub : A -> A -> A) (n : nat) (a : uop A) (axis : string) (prepend append : option (uop A)) (sh : shape),
  let u := mkU (nominal_of a) (distribution_of a) in
  uop_wf a -> sample_free a -> u_shape u = Ok sh ->
  match prepend with Some b => uop_wf b /\ sample_free b | None => True end ->
  match append with Some b => uop_wf b /\ sample_free b | None => True end ->
  let num := size_of sh axis in
  let extra (x : option (uop A)) w e := match x with Some b => [u_at b w e] | None => [] end in
  let ok := In axis (dkeys sh) /\
    (forall b, prepend = Some b \/ append = Some b ->
       op_fits (nominal_of b) (resized sh axis 1) /\ op_fits (distribution_of b) (resized (sh ++ samples u) axis 1)) in
  (ok -> exists n' d', let r := mkU (OpArr n') (OpArr d') in
     u_diff sub n a axis prepend append = Ok r /\ u_wf r /\
     (forall x, x <> axis -> dget (sshape n') x = dget sh x /\ dget (sshape d') x = dget (sh ++ samples u) x) /\
     forall w e, u_line r w axis e =
       match n with
       | 0 => u_run a w axis num e
       | _ => Nat.iter n (delta sub) (extra prepend w e ++ u_run a w axis num e ++ extra append w e)
       end) /\
  (~ ok -> u_diff sub n a axis prepend append = Err ValueError).
Proof. exact @u_diff_spec. Qed.
Print Assumptions C98_diff_partial.

(** The differences of an array without uncertainty with an uncertain end are refused. *)
Theorem C98_diff_certain_refuted :
  forall (A : Type) (sub : A -> A -> A) (n : nat) (a : operand A) (axis : string) (b : unc A) (append : option (uop A)),
  op_wf a -> ~ In axis_distribution (dkeys (op_shape a)) -> u_wf b -> In axis_distribution (dkeys (op_shape (u_distribution b))) ->
  match append with Some b => uop_wf b /\ sample_free b | None => True end ->
  u_diff sub n (Certain a) axis (Some (Uncertain b)) append = Err ValueError.
Proof. exact @u_diff_certain. Qed.
Print Assumptions C98_diff_certain_refuted.

Open Scope string_scope.

Definition arr (l : list Z) (s : list nat) (axes : list string) : operand Z := OpArr (mkS (of_list 0%Z s l) axes).

Definition ex_u : unc Z := mkU (arr [1; 3; 2]%Z [3] ["x"]) (arr [7; 5]%Z [2] ["_distribution"]).
Definition ex_v : unc Z := mkU (OpNum 4%Z) (arr [7; 5; 6; 1; 9; 0]%Z [2; 3] ["_distribution"; "x"]).

Definition values {A} (o : operand A) : list A := match o with OpArr a => ravel (s_nd a) | OpNum x => [x] end.

Example C98_wf_example : u_wf ex_u /\ u_wf ex_v /\ u_shape ex_u = Ok [("x", 3)] /\ u_shape ex_v = Ok [("x", 3)].
Proof.
  split; [|split; [|split; reflexivity]].
  - split; [split; [repeat constructor; cbn; intuition discriminate|reflexivity]|].
    split; [split; [repeat constructor; cbn; intuition discriminate|reflexivity]|]. cbn. intuition discriminate.
  - split; [exact Logic.I|].
    split; [split; [repeat constructor; cbn; intuition discriminate|reflexivity]|]. cbn. intuition.
Qed.

(** a constant part is accumulated like the others *)
Example C98_cumulative_example :
  exists r, u_cumulative (fold_right Z.add 0%Z) false ex_u None = Ok r /\
    values (u_nominal r) = [1; 4; 6]%Z /\ op_shape (u_distribution r) = [("_distribution", 2); ("x", 3)] /\
    values (u_distribution r) = [7; 14; 21; 5; 10; 15]%Z.
Proof. eexists. repeat split; reflexivity. Qed.

Example C98_cumulative_initial_example :
  exists r, u_cumulative (fold_right Z.add 0%Z) true ex_v (Some ["x"]) = Ok r /\
    values (u_nominal r) = [0; 4; 8; 12]%Z /\ values (u_distribution r) = [0; 7; 12; 18; 0; 1; 10; 10]%Z.
Proof. eexists. repeat split; reflexivity. Qed.

Example C98_cumulative_refusals :
  u_cumulative (fold_right Z.add 0%Z) true ex_v (Some ["y"]) = Err KeyError /\
  u_cumulative (fold_right Z.add 0%Z) true ex_v (Some ["_distribution"]) = Err KeyError /\
  u_cumulative (fold_right Z.add 0%Z) true ex_v (Some ["x"; "y"]) = Err ValueError.
Proof. repeat split; reflexivity. Qed.

Example C98_partition_example :
  exists r, u_partition (@rev Z) [0; -1]%Z ex_v "x" = Ok r /\
    values (u_nominal r) = [4; 4; 4]%Z /\ values (u_distribution r) = [6; 5; 7; 0; 9; 1]%Z.
Proof. eexists. repeat split; reflexivity. Qed.

Example C98_partition_refusals :
  u_partition (@rev Z) [0]%Z ex_v "_distribution" = Err ValueError /\ u_partition (@rev Z) [3]%Z ex_v "x" = Err ValueError.
Proof. split; reflexivity. Qed.

Example C98_repeat_example :
  exists r, u_repeat ex_v (OpArr (mkS (of_list 0 [3] [2; 0; 1]) ["k"])) "x" = Ok r /\
    values (u_nominal r) = [4; 4; 4]%Z /\ op_shape (u_distribution r) = [("x", 3); ("_distribution", 2)] /\
    values (u_distribution r) = [7; 1; 7; 1; 6; 0]%Z.
Proof. eexists. repeat split; reflexivity. Qed.

Example C98_diff_example :
  exists r, u_diff Z.sub 2 (Uncertain ex_v) "x" None (Some (Uncertain (mkU (OpNum 1%Z) (arr [2; 3]%Z [2] ["_distribution"])))) = Ok r /\
    values (u_nominal r) = [0; -3]%Z /\ op_shape (u_distribution r) = [("x", 2); ("_distribution", 2)] /\
    values (u_distribution r) = [3; -17; -5; 12]%Z.
Proof. eexists. repeat split; reflexivity. Qed.

Example C98_diff_certain_example :
  u_diff Z.sub 1 (Certain (arr [1; 3]%Z [2] ["x"])) "x" (Some (Uncertain (mkU (OpNum 1%Z) (arr [2; 3]%Z [2] ["_distribution"])))) None = Err ValueError /\
  exists r, u_diff Z.sub 1 (Certain (arr [1; 3]%Z [2] ["x"])) "x" (Some (Certain (OpNum 5%Z))) None = Ok r /\ values (u_distribution r) = [-4; 2]%Z.
Proof. split; [reflexivity|]. eexists. split; reflexivity. Qed.
