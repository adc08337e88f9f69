(** C45: applying regridding weights is linear in the values, applying the
    transposed weights is the adjoint operation, and transposing twice gives the
    original weights. *)
From Coq Require Import String List Arith ZArith QArith Qcanon Bool Lia.
From Verif Require Import Base Numpy Shapes Scalar Elementwise Interp Regrid Spec SpecNumeric SpecHist SpecRegrid RegridFacts.
Import ListNotations.
Open Scope nat_scope.
Open Scope list_scope.

(** every output cell is the weighted sum of its input cells, separately for every
    position along the other axes *)
Theorem C45_regrid W sh_in sh_out x orth : grids_ok W sh_in sh_out -> values_ok W sh_in sh_out x orth ->
  exists r, regrid_from_weights W sh_in sh_out x = Ok r /\ regridded W sh_in sh_out x orth r.
Proof. intros G. exact (regrid_ok W sh_in sh_out G x orth). Qed.
Print Assumptions C45_regrid.

Theorem C45_linear W sh_in sh_out x y z ox oy oz (a b : Qc) : grids_ok W sh_in sh_out ->
  values_ok W sh_in sh_out x ox -> values_ok W sh_in sh_out y oy -> values_ok W sh_in sh_out z oz ->
  fits_in (op_shape x) (op_shape z) -> fits_in (op_shape y) (op_shape z) ->
  (forall e, inside e (op_shape z) -> op_at z e = (a * op_at x e + b * op_at y e)%Qc) ->
  exists rx ry rz, regrid_from_weights W sh_in sh_out x = Ok rx /\ regrid_from_weights W sh_in sh_out y = Ok ry /\
    regrid_from_weights W sh_in sh_out z = Ok rz /\
    forall e, inside e (sshape rz) -> at_ rz e = (a * bat rx e + b * bat ry e)%Qc.
Proof. exact (regrid_linear W sh_in sh_out x y z ox oy oz a b). Qed.
Print Assumptions C45_linear.

(** the products agree for every position along the other axes, and summed over any
    shape of other axes *)
Theorem C45_adjoint W sh_in sh_out x y ox oy : grids_ok W sh_in sh_out ->
  values_ok W sh_in sh_out x ox -> values_ok W sh_out sh_in y oy ->
  exists T r s, transpose_weights (W, sh_in, sh_out) = Ok (T, sh_out, sh_in) /\
    regrid_from_weights W sh_in sh_out x = Ok r /\ regrid_from_weights T sh_out sh_in y = Ok s /\
    (forall e, reaches e ox -> reaches e oy ->
       inner (bat r) (op_at y) (grid_cells W sh_out) e = inner (op_at x) (bat s) (grid_cells W sh_in) e) /\
    (forall o e, NoDup (dkeys (o ++ grid_cells W sh_in)) -> NoDup (dkeys (o ++ grid_cells W sh_out)) ->
       fits_in ox o -> fits_in oy o ->
       inner (bat r) (op_at y) (o ++ grid_cells W sh_out) e = inner (op_at x) (bat s) (o ++ grid_cells W sh_in) e).
Proof. exact (adjoint W sh_in sh_out x y ox oy). Qed.
Print Assumptions C45_adjoint.

Theorem C45_transpose W sh_in sh_out : wf W ->
  exists T, transpose_weights (W, sh_in, sh_out) = Ok (T, sh_out, sh_in) /\ wf T /\ sshape T = sshape W /\ s_axes T = s_axes W /\
    forall e, at_ T e = map swap (at_ W e).
Proof. exact (transpose_weights_ok W sh_in sh_out). Qed.
Print Assumptions C45_transpose.

Theorem C45_transpose_twice W sh_in sh_out : wf W ->
  exists T W', transpose_weights (W, sh_in, sh_out) = Ok (T, sh_out, sh_in) /\ transpose_weights (T, sh_out, sh_in) = Ok (W', sh_in, sh_out) /\
    sshape W' = sshape W /\ forall e, at_ W' e = at_ W e.
Proof. exact (transpose_twice W sh_in sh_out). Qed.
Print Assumptions C45_transpose_twice.

(** ** Examples *)
Open Scope string_scope.

Definition show (a : sarr Qc) := (sshape a, map this (ravel (s_nd a))).

(** two lists of weights, along ["t"], from three cells along ["x"] to two along
    ["y"] *)
Definition W45 : weights_array := mkS (mkNd [2] (fun idx => match idx with
  | [0] => [(0, 0, qz 1); (1, 0, qz 2); (2, 1, qz 3)]
  | _ => [(0, 1, qz 5); (2, 1, qz 7)] end)) ["t"].
Definition in45 : shape := [("x", 3); ("t", 2)].
Definition out45 : shape := [("t", 2); ("y", 2)].

(** values with a further axis ["k"], without the axis ["t"] *)
Definition x45 : operand Qc := OpArr (mkS (mkNd [2; 3] (fun idx => qz (Z.of_nat (nth 0 idx 0 * 10 + nth 1 idx 0 + 1)))) ["k"; "x"]).
Definition y45 : operand Qc := OpArr (mkS (mkNd [2] (fun idx => qz (Z.of_nat (nth 0 idx 0 + 1)))) ["y"]).

Example C45_grids : grids_ok W45 in45 out45 /\ grid_cells W45 in45 = [("x", 3)] /\ grid_cells W45 out45 = [("y", 2)].
Proof.
  split; [|split; reflexivity]. repeat split; try (repeat constructor; simpl; intuition congruence).
  1,2: simpl in H; destruct H as [E|[]]; injection E as <- <-; simpl; auto.
  all: assert (T : e "t" < 2) by (apply H; left; reflexivity); unfold at_ in H0; cbn [W45 s_nd nget map s_axes] in H0;
    destruct (e "t") as [|[|n]]; [| |lia]; simpl in H0;
    repeat (destruct H0 as [E|H0]; [injection E as <- <- <-; cbv; lia|]); destruct H0.
Qed.

Example C45_values : values_ok W45 in45 out45 x45 [("k", 2); ("t", 2)] /\ values_ok W45 out45 in45 y45 [("t", 2)].
Proof.
  assert (N : forall (l : list string), nodupb l = true -> NoDup l) by (intros; now apply BaseFacts.nodupb_NoDup).
  split; (split; [split; [apply N; reflexivity|reflexivity]|split; [vm_compute; reflexivity|split]]).
  - intros ax n m H K. cbv in H, K. repeat destruct H as [H|H]; repeat destruct K as [K|K]; try contradiction;
      inversion H; subst; inversion K; subst; auto.
  - intros ax H K. cbv in H, K. intuition (subst; try discriminate).
  - intros ax n m H K. cbv in H, K. repeat destruct H as [H|H]; repeat destruct K as [K|K]; try contradiction;
      inversion H; subst; inversion K; subst; auto.
  - intros ax H K. cbv in H, K. intuition (subst; try discriminate).
Qed.

Example C45_regrid_example :
  (r <- regrid_from_weights W45 in45 out45 x45 ;; Ok (show r)) =
  Ok ([("k", 2); ("t", 2); ("y", 2)], [5; 9; 0; 26; 35; 39; 0; 146]%Q).
Proof. vm_compute. reflexivity. Qed.

Example C45_adjoint_example :
  (t <- transpose_weights (W45, in45, out45) ;;
   let '(T, si, so) := t in
   r <- regrid_from_weights W45 in45 out45 x45 ;;
   s <- regrid_from_weights T si so y45 ;;
   let o := [("k", 2); ("t", 2)] in
   Ok (this (inner (bat r) (op_at y45) (o ++ [("y", 2)])%list (fun _ => 0)), this (inner (op_at x45) (bat s) (o ++ [("x", 3)])%list (fun _ => 0)),
       show s)) =
  Ok (480%Q, 480%Q, ([("t", 2); ("x", 3)], [1; 2; 6; 10; 0; 14]%Q)).
Proof. vm_compute. reflexivity. Qed.

(** the same values plus twice a number *)
Example C45_linear_example :
  (r <- regrid_from_weights W45 in45 out45 (OpNum (qz 1)) ;; Ok (show r)) = Ok ([("t", 2); ("y", 2)], [3; 3; 0; 12]%Q).
Proof. vm_compute. reflexivity. Qed.

Example C45_transpose_example :
  (t <- transpose_weights (W45, in45, out45) ;; let '(T, si, so) := t in
   Ok (map (map (fun w => (fst w, this (snd w)))) (ravel (s_nd T)), si, so)) =
  Ok ([[(0, 0, 1%Q); (0, 1, 2%Q); (1, 2, 3%Q)]; [(1, 0, 5%Q); (1, 2, 7%Q)]], out45, in45).
Proof. vm_compute. reflexivity. Qed.

(** an axis of the values named like a resampled axis of the output is refused *)
Example C45_name_clash :
  regrid_from_weights W45 in45 out45 (OpArr (mkS (mkNd [3; 2] (fun _ => qz 1)) ["x"; "y"])) = Err ValueError.
Proof. vm_compute. reflexivity. Qed.
