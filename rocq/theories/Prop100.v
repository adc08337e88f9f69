(** C100: stacking and concatenating uncertain scalars does so in every world. *)
From Coq Require Import String List Arith ZArith Bool Lia.
From Verif Require Import Base Numpy Shapes Scalar Elementwise Reorder Uncertain UncertainJoin
  Spec SpecVectorReduce SpecUncertain SpecUncertainChoice SpecUncertainAlong SpecUncertainJoin UncertainJoinFacts.
Import ListNotations.
Open Scope nat_scope.
Open Scope list_scope.

(** The [k]-th slice of a stack is the [k]-th array in every world, the nominal one and that of
    each sample; arrays whose labels conflict, an axis that exists already, the axis of the
    samples and an empty list are refused. *)
Theorem C100_stack :
  forall (A : Type) (xs : list (uop A * shape)) (axis : string),
  Forall joinable xs ->
  let shapes w := map (full_shape w) xs in
  let ok := xs <> [] /\ axis <> axis_distribution /\ (forall p, In p xs -> ~ In axis (dkeys (snd p))) /\ ~ conflict (shapes (Some 0)) in
  (ok -> exists n d, let r := mkU (OpArr n) (OpArr d) in
     u_stack (map fst xs) axis = Ok r /\ u_wf r /\
     (forall w, exists T, joint (shapes w) T /\ op_shape (u_part r w) = (axis, length xs) :: T) /\
     forall w k x sh e, nth_error xs k = Some (x, sh) -> e axis = k ->
       u_inside r w e -> u_at (Uncertain r) w e = u_at x w e) /\
  (~ ok -> u_stack (map fst xs) axis = Err ValueError).
Proof. exact @u_stack_spec. Qed.
Print Assumptions C100_stack.

(** The [k]-th segment of a concatenation is the [k]-th array in every world. *)
Theorem C100_concatenate :
  forall (A : Type) (xs : list (uop A * shape)) (axis : string),
  Forall joinable xs ->
  let sizes := map (fun p => size_of (snd p) axis) xs in
  let shapes w := map (fun p => resized (full_shape w p) axis 1) xs in
  let ok := xs <> [] /\ (forall p, In p xs -> In axis (dkeys (snd p))) /\ ~ conflict (shapes (Some 0)) in
  (ok -> exists n d, let r := mkU (OpArr n) (OpArr d) in
     u_concatenate (map fst xs) axis = Ok r /\ u_wf r /\
     (forall w, exists T, joint (shapes w) T /\ op_shape (u_part r w) = resized T axis (list_sum sizes)) /\
     forall w k x sh e, nth_error xs k = Some (x, sh) -> e axis < size_of sh axis ->
       let e' := set_env e axis (list_sum (firstn k sizes) + e axis) in
       u_inside r w e' -> u_at (Uncertain r) w e' = u_at x w e) /\
  (~ ok -> u_concatenate (map fst xs) axis = Err ValueError).
Proof. exact @u_concatenate_spec. Qed.
Print Assumptions C100_concatenate.

Open Scope string_scope.

Definition arr (l : list Z) (s : list nat) (axes : list string) : operand Z := OpArr (mkS (of_list 0%Z s l) axes).

Definition ex_u : unc Z := mkU (arr [1; 2]%Z [2] ["x"]) (arr [3; 4]%Z [2] ["_distribution"]).
Definition ex_xs : list (uop Z * shape) := [(Uncertain ex_u, [("x", 2)]); (Certain (arr [7; 8; 9]%Z [3] ["x"]), [("x", 3)])].
Definition ex_ys : list (uop Z * shape) := [(Certain (OpNum 5%Z), []); (Uncertain ex_u, [("x", 2)])].

Lemma ex_joinable : Forall joinable ex_xs /\ Forall joinable ex_ys.
Proof.
  assert (U : joinable (Uncertain ex_u, [("x", 2)])).
  { split; [|split; [exact Logic.I|reflexivity]].
    split; [split; [repeat constructor; cbn; intuition discriminate|reflexivity]|].
    split; [split; [repeat constructor; cbn; intuition discriminate|reflexivity]|]. cbn. intuition discriminate. }
  split; repeat constructor; try exact U; cbn; try (intuition discriminate); repeat constructor; cbn; intuition discriminate.
Qed.

(** the distribution, which does not store the axis, is joined as well *)
Example C100_concatenate_example : Forall joinable ex_xs /\
  exists n d, u_concatenate (map fst ex_xs) "x" = Ok (mkU (OpArr n) (OpArr d)) /\
    sshape n = [("x", 5)] /\ ravel (s_nd n) = [1; 2; 7; 8; 9]%Z /\
    sshape d = [("x", 5); ("_distribution", 2)] /\ ravel (s_nd d) = [3; 4; 3; 4; 7; 7; 8; 8; 9; 9]%Z.
Proof. split; [apply ex_joinable|]. eexists. eexists. split; [reflexivity|]. repeat split; reflexivity. Qed.

Example C100_stack_example : Forall joinable ex_ys /\
  exists n d, u_stack (map fst ex_ys) "y" = Ok (mkU (OpArr n) (OpArr d)) /\
    sshape n = [("y", 2); ("x", 2)] /\ ravel (s_nd n) = [5; 5; 1; 2]%Z /\
    sshape d = [("y", 2); ("x", 2); ("_distribution", 2)] /\ ravel (s_nd d) = [5; 5; 5; 5; 3; 4; 3; 4]%Z.
Proof. split; [apply ex_joinable|]. eexists. eexists. split; [reflexivity|]. repeat split; reflexivity. Qed.

Example C100_refused_example :
  u_stack (map fst ex_ys) "x" = Err ValueError /\ u_stack (map fst ex_ys) "_distribution" = Err ValueError /\
  u_stack (map fst ex_xs) "y" = Err ValueError /\ u_concatenate (map fst ex_ys) "x" = Err ValueError /\
  u_concatenate (@nil (uop Z)) "x" = Err ValueError /\
  u_concatenate [Uncertain ex_u; Uncertain (mkU (u_nominal ex_u) (arr [1; 2; 3]%Z [3] ["_distribution"]))] "x" = Err ValueError.
Proof. repeat split; reflexivity. Qed.
