(** C96: reorganising uncertain arrays acts in the same way on the nominal values
    and on every sample. *)
From Coq Require Import String List Arith ZArith Bool Lia.
From Verif Require Import Base Numpy Shapes Scalar Elementwise Reorder Uncertain UncertainReorder Spec SpecUncertain UncertainReorderFacts.
Import ListNotations.
Open Scope nat_scope.
Open Scope list_scope.

(** [np.transpose(a, axes)] works exactly when [axes] are distinct names that
    contain those of [a] and not the name of the sample axis; the samples are the
    last axis of the distribution, and no value changes in any world. *)
Theorem C96_transpose :
  forall (A : Type) (u : unc A) (axes : list string) (sh : shape),
  u_wf u -> u_shape u = Ok sh ->
  ((exists r, u_transpose u (Some axes) = Ok r) <-> NoDup axes /\ incl (dkeys sh) axes /\ ~ In axis_distribution axes) /\
  forall r, u_transpose u (Some axes) = Ok r ->
  exists n d, r = mkU (OpArr n) (OpArr d) /\ u_wf r /\ s_axes n = axes /\ s_axes d = axes ++ [axis_distribution] /\
    (forall ax m, In (ax, m) (sshape n) <-> In (ax, m) sh \/ (~ In ax (dkeys sh) /\ In ax axes /\ m = 1)) /\
    (forall ax m, In (ax, m) (sshape d) <->
       In (ax, m) (sshape n) \/
       (ax = axis_distribution /\ m = match dget (op_shape (u_distribution u)) axis_distribution with Some k => k | None => 1 end)) /\
    forall w e, u_inside r w e -> u_at (Uncertain r) w e = u_at (Uncertain u) w e.
Proof. exact @u_transpose_spec. Qed.
Print Assumptions C96_transpose.

Theorem C96_transpose_default :
  forall (A : Type) (u : unc A) (sh : shape),
  u_wf u -> u_shape u = Ok sh ->
  exists n d, let r := mkU (OpArr n) (OpArr d) in
    u_transpose u None = Ok r /\ u_wf r /\ s_axes n = rev (dkeys sh) /\ same_shape (sshape n) sh /\
    (forall ax m, In (ax, m) (sshape d) <-> In (ax, m) sh \/ (ax = axis_distribution /\ In (ax, m) (op_shape (u_distribution u)))) /\
    (In axis_distribution (dkeys (op_shape (u_distribution u))) -> s_axes d = axis_distribution :: rev (dkeys sh)) /\
    forall w e, u_inside r w e -> u_at (Uncertain r) w e = u_at (Uncertain u) w e.
Proof. exact @u_transpose_default. Qed.
Print Assumptions C96_transpose_default.

(** Partial: [np.moveaxis] renames the axes in every world when the new names are
    apart (and no new name is the old name of a later pair, as in C13). *)
Theorem C96_moveaxis_partial :
  forall (A : Type) (u : unc A) (source destination : list string) (sh : shape),
  u_wf u -> u_shape u = Ok sh ->
  NoDup source -> length source = length destination -> incl source (dkeys sh) ->
  ForallOrdPairs (fun p q => snd p <> fst q) (combine source destination) ->
  let rho := rename (combine source destination) in
  NoDup (map rho (dkeys sh)) -> ~ In axis_distribution destination ->
  exists n d, let r := mkU (OpArr n) (OpArr d) in
    u_moveaxis u source destination = Ok r /\ u_wf r /\
    sshape n = map (fun kv => (rho (fst kv), snd kv)) (op_shape (u_nominal u)) /\
    sshape d = map (fun kv => (rho (fst kv), snd kv)) (op_shape (u_distribution u)) /\
    forall w e, u_inside r w e -> u_at (Uncertain r) w e = u_at (Uncertain u) w (fun ax => e (rho ax)).
Proof. exact @u_moveaxis_spec. Qed.
Print Assumptions C96_moveaxis_partial.

Theorem C96_moveaxis_missing :
  forall (A : Type) (u : unc A) (source destination : list string) (sh : shape),
  u_shape u = Ok sh -> ~ incl source (dkeys sh) -> u_moveaxis u source destination = Err ValueError.
Proof. exact @u_moveaxis_missing. Qed.
Print Assumptions C96_moveaxis_missing.

Theorem C96_moveaxis_few :
  forall (A : Type) (u : unc A) (source destination : list string) (sh : shape),
  u_shape u = Ok sh -> incl source (dkeys sh) -> length destination < length source ->
  u_moveaxis u source destination = Err IndexError.
Proof. exact @u_moveaxis_few. Qed.
Print Assumptions C96_moveaxis_few.

(** [np.reshape(a, shape)]: in every world the values stay in row-major order.
    The sizes must agree and the new shape must not name the sample axis. *)
Theorem C96_reshape_partial :
  forall (A : Type) (u : unc A) (sh new : shape) (num : nat),
  u_wf u -> u_shape u = Ok sh -> NoDup (dkeys new) ->
  In (axis_distribution, num) (op_shape (u_distribution u)) ->
  (In axis_distribution (dkeys new) \/ total_size new (dkeys new) <> total_size sh (dkeys sh) -> u_reshape u new = Err ValueError) /\
  (~ In axis_distribution (dkeys new) -> total_size new (dkeys new) = total_size sh (dkeys sh) ->
   exists n d, let r := mkU (OpArr n) (OpArr d) in
     u_reshape u new = Ok r /\ u_wf r /\ sshape n = new /\ sshape d = new ++ [(axis_distribution, num)] /\
     forall w e, (forall k, w = Some k -> k < num) ->
       map (u_at (Uncertain r) w) (fibre new (dkeys new) e) = map (u_at (Uncertain u) w) (fibre sh (dkeys sh) e)).
Proof. exact @u_reshape_spec. Qed.
Print Assumptions C96_reshape_partial.

(** An uncertain array whose distribution has no samples cannot be reshaped at all. *)
Theorem C96_reshape_no_samples_refuted :
  forall (A : Type) (u : unc A) (sh new : shape),
  u_wf u -> u_shape u = Ok sh -> ~ In axis_distribution (dkeys (op_shape (u_distribution u))) ->
  u_reshape u new = Err KeyError.
Proof. exact @u_reshape_no_samples. Qed.
Print Assumptions C96_reshape_no_samples_refuted.

Open Scope string_scope.

(** the samples come first in storage, and the nominal values lack the axis [y] *)
Definition ex_u : unc Z :=
  mkU (OpArr (mkS (of_list 0%Z [2] [5; 7]%Z) ["x"]))
      (OpArr (mkS (of_list 0%Z [2; 3] [1; 2; 3; 40; 50; 60]%Z) ["_distribution"; "y"])).

Lemma ex_u_wf : u_wf ex_u.
Proof.
  split; [split; [repeat constructor; cbn; intuition discriminate|reflexivity]|].
  split; [split; [repeat constructor; cbn; intuition discriminate|reflexivity]|]. cbn. intuition discriminate.
Qed.

Example C96_reshape_example :
  u_wf ex_u /\ u_shape ex_u = Ok [("x", 2); ("y", 3)] /\ In (axis_distribution, 2) (op_shape (u_distribution ex_u)) /\
  exists n d, u_reshape ex_u [("a", 3); ("b", 2)] = Ok (mkU (OpArr n) (OpArr d)) /\
    ravel (s_nd n) = [5; 5; 5; 7; 7; 7]%Z /\ ravel (s_nd d) = [1; 40; 2; 50; 3; 60; 1; 40; 2; 50; 3; 60]%Z /\
    s_axes d = ["a"; "b"; "_distribution"].
Proof. split; [exact ex_u_wf|]. split; [reflexivity|]. split; [now left|]. eexists _, _. repeat split; reflexivity. Qed.

Example C96_transpose_example :
  exists n d, u_transpose ex_u (Some ["y"; "z"; "x"]) = Ok (mkU (OpArr n) (OpArr d)) /\
    sshape n = [("y", 3); ("z", 1); ("x", 2)] /\ sshape d = [("y", 3); ("z", 1); ("x", 2); ("_distribution", 2)] /\
    ravel (s_nd n) = [5; 7; 5; 7; 5; 7]%Z /\ ravel (s_nd d) = [1; 40; 1; 40; 2; 50; 2; 50; 3; 60; 3; 60]%Z.
Proof. eexists _, _. repeat split; reflexivity. Qed.

Example C96_moveaxis_example :
  exists n d, u_moveaxis ex_u ["y"; "x"] ["z"; "y"] = Ok (mkU (OpArr n) (OpArr d)) /\
    sshape n = [("y", 2)] /\ sshape d = [("_distribution", 2); ("z", 3)].
Proof. eexists _, _. repeat split; reflexivity. Qed.

(** Renaming an axis of the nominal values to one that only the distribution has
    is not refused: two axes become one, and the result pairs the nominal value
    at [x] with the samples at [y = x]. *)
Definition ex_v : unc Z :=
  mkU (OpArr (mkS (of_list 0%Z [2] [5; 7]%Z) ["x"]))
      (OpArr (mkS (of_list 0%Z [2; 2] [1; 2; 30; 40]%Z) ["y"; "_distribution"])).

Theorem C96_moveaxis_merge_refuted :
  exists (u r : unc Z), u_wf u /\ u_shape u = Ok [("x", 2); ("y", 2)] /\
    u_moveaxis u ["x"] ["y"] = Ok r /\ u_wf r /\ u_shape r = Ok [("y", 2)].
Proof.
  exists ex_v, (mkU (OpArr (mkS (of_list 0%Z [2] [5; 7]%Z) ["y"])) (u_distribution ex_v)).
  assert (W : forall ax, ax <> axis_distribution -> u_wf (mkU (OpArr (mkS (of_list 0%Z [2] [5; 7]%Z) [ax])) (u_distribution ex_v))).
  { intros ax N. split; [split; [repeat constructor; cbn; tauto|reflexivity]|].
    split; [split; [repeat constructor; cbn; intuition discriminate|reflexivity]|]. cbn. intros [B|[]]. now apply N. }
  split; [apply (W "x"); discriminate|]. split; [reflexivity|]. split; [reflexivity|]. split; [apply (W "y"); discriminate|reflexivity].
Qed.
Print Assumptions C96_moveaxis_merge_refuted.
