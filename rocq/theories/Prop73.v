(** C73: [na.despike] cleans every image with the arguments of the same labels. *)
From Coq Require Import String List Arith ZArith Bool Lia.
From Verif Require Import Base BaseFacts Numpy Shapes Scalar Elementwise Derived Hist InterpAxis Despike
  Spec SpecNumeric SpecInterp SpecDespike DespikeFacts.
Import ListNotations.
Open Scope nat_scope.
Open Scope list_scope.

(** For every position of the other axes, the image along the two axes is given to
    the detector together with the pixels that are excluded (those where [where] is
    false), the background, the variance and the kernel of the same position, and
    the cleaned pixels are put back at their labels.  Missing from the full
    statement: the rows and columns are the two axes in storage order, not in the
    order of the argument [axis], and the kernel has an order of its own; see below. *)
Theorem C73_despike_partial :
  forall (A P : Type) (detect : detector A P) (a : operand A) (axis : list string) (w : option (operand bool))
         (bk vr : option (operand A)) (k : option (operand P)) (S : shape) (x y kx ky : string) (m n p q : nat),
  op_wf a -> opt_operand_wf w -> opt_operand_wf bk -> opt_operand_wf vr -> opt_operand_wf k ->
  broadcast_shapes (op_shape a :: opt_operand_shape w ++ opt_operand_shape bk ++ opt_operand_shape vr) = Ok S ->
  filter (fun ax => smem ax axis) (dkeys S) = [x; y] -> In (x, m) S -> In (y, n) S ->
  (forall c, k = Some c -> broadcast_shapes [without S axis; op_shape c] = Ok (without S axis ++ [(kx, p); (ky, q)])) ->
  exists r, na_despike detect a axis w bk vr k = Ok r /\ wf r /\ sshape r = S /\
    forall e, inside e S ->
      at_ r e = detect (table m n (plane a x y e)) (opt_table m n (excluded w x y e)) (opt_table m n (opt_plane bk x y e))
                  (opt_table m n (opt_plane vr x y e)) (opt_table p q (opt_plane k kx ky e)) (e x) (e y).
Proof. exact (fun A P => despike_ok). Qed.
Print Assumptions C73_despike_partial.

(** If the detector treats rows and columns alike and there is no kernel, the result
    does not depend on the order in which the axes of the arguments are stored. *)
Theorem C73_order_partial :
  forall (A P : Type) (detect : detector A P) (a a' : operand A) (axis : list string) (w w' : option (operand bool))
         (bk bk' vr vr' : option (operand A)) (S : shape),
  impartial detect ->
  op_wf a -> opt_operand_wf w -> opt_operand_wf bk -> opt_operand_wf vr ->
  op_wf a' -> opt_operand_wf w' -> opt_operand_wf bk' -> opt_operand_wf vr' ->
  same_operand a a' -> same_option w w' -> same_option bk bk' -> same_option vr vr' ->
  broadcast_shapes (op_shape a :: opt_operand_shape w ++ opt_operand_shape bk ++ opt_operand_shape vr) = Ok S ->
  length (filter (fun ax => smem ax axis) (dkeys S)) = 2 ->
  exists r r', na_despike detect a axis w bk vr None = Ok r /\ na_despike detect a' axis w' bk' vr' None = Ok r' /\ same_array r r'.
Proof. exact (fun A P => despike_order). Qed.
Print Assumptions C73_order_partial.

Open Scope string_scope.

Definition square : sarr Z := mkS (of_list 0%Z [2; 2] [1; 2; 3; 4]%Z) ["x"; "y"].
Definition square' : sarr Z := mkS (of_list 0%Z [2; 2] [1; 3; 2; 4]%Z) ["y"; "x"].
Definition kernel : sarr Z := mkS (of_list 0%Z [2; 2] [1; 10; 100; 1000]%Z) ["x"; "y"].
Definition kernel' : sarr Z := mkS (of_list 0%Z [2; 2] [1; 100; 10; 1000]%Z) ["y"; "x"].

(** the pixel to the left *)
Definition leftwards : detector Z Z := fun im _ _ _ _ i j => match j with 0 => 0%Z | Datatypes.S j => pixel im i j end.

Definition show {A} (r : res (sarr A)) : res (list string * list nat * list A) :=
  match r with Ok a => Ok (s_axes a, nshape (s_nd a), ravel (s_nd a)) | Err e => Err e end.

Lemma wf_square : wf square /\ wf square' /\ wf kernel /\ wf kernel'.
Proof. repeat split; simpl; try (repeat constructor; simpl; intuition discriminate). Qed.

Lemma same_square : same_array square square' /\ same_array kernel kernel'.
Proof.
  assert (Q : forall e : env, inside e [("x", 2); ("y", 2)] ->
    (e "x" = 0 \/ e "x" = 1) /\ (e "y" = 0 \/ e "y" = 1)).
  { intros e H. assert (H1 := H "x" 2 (or_introl eq_refl)). assert (H2 := H "y" 2 (or_intror (or_introl eq_refl))). lia. }
  split; (split; [intros ax n; simpl; tauto|]); intros e H; destruct (Q e H) as [[X|X] [Y|Y]];
    unfold at_; simpl; rewrite X, Y; reflexivity.
Qed.

(** For a detector with a direction (like the models "gaussx" and "gaussy") the
    result depends on the order in which the axes are stored, although [axis] names
    the two axes in order. *)
Theorem C73_order_refuted :
  exists r r', na_despike leftwards (OpArr square) ["x"; "y"] None None None None = Ok r /\
    na_despike leftwards (OpArr square') ["x"; "y"] None None None None = Ok r' /\
    same_array square square' /\ ~ same_array r r'.
Proof.
  eexists. eexists. split; [vm_compute; reflexivity|]. split; [vm_compute; reflexivity|]. split; [apply same_square|].
  intros [_ H]. assert (X := H (fun ax => if String.eqb ax "x" then 0 else 1)).
  assert (Y : forall ax n, In (ax, n) [("x", 2); ("y", 2)] -> (if String.eqb ax "x" then 0 else 1) < n).
  { intros ax n [E|[E|[]]]; injection E as <- <-; vm_compute; lia. }
  specialize (X Y). vm_compute in X. discriminate.
Qed.
Print Assumptions C73_order_refuted.

(** Even for a detector that treats rows and columns alike, the result depends on
    the order in which the axes of the kernel are stored. *)
Theorem C73_kernel_refuted :
  impartial scaled /\
  exists r r', na_despike scaled (OpArr square) ["x"; "y"] None None None (Some (OpArr kernel)) = Ok r /\
    na_despike scaled (OpArr square) ["x"; "y"] None None None (Some (OpArr kernel')) = Ok r' /\
    same_array kernel kernel' /\ ~ same_array r r'.
Proof.
  split; [exact scaled_impartial|].
  eexists. eexists. split; [vm_compute; reflexivity|]. split; [vm_compute; reflexivity|]. split; [apply same_square|].
  intros [_ H]. assert (X := H (fun ax => if String.eqb ax "x" then 0 else 1)).
  assert (Y : forall ax n, In (ax, n) [("x", 2); ("y", 2)] -> (if String.eqb ax "x" then 0 else 1) < n).
  { intros ax n [E|[E|[]]]; injection E as <- <-; vm_compute; lia. }
  specialize (X Y). vm_compute in X. discriminate.
Qed.
Print Assumptions C73_kernel_refuted.

Definition one : sarr Z := mkS (of_list 0%Z [1; 2; 2] [1; 2; 3; 4]%Z) ["t"; "x"; "y"].
Definition kernels (z : Z) : sarr Z := mkS (of_list 0%Z [2; 2; 2] [1; 1; 1; 1; z; z; z; z]%Z) ["t"; "x"; "y"].

(** Kernels along an axis of size 1 of the images are not broadcast against the
    images: all but the first are ignored. *)
Theorem C73_kernels_refuted :
  broadcast_shapes [sshape one; sshape (kernels 5)] = Ok [("t", 2); ("x", 2); ("y", 2)] /\
  forall z, show (na_despike scaled (OpArr one) ["x"; "y"] None None None (Some (OpArr (kernels z))))
            = Ok (["t"; "x"; "y"], [1; 2; 2], [1; 2; 3; 4]%Z).
Proof. split; [reflexivity|]. intros z. vm_compute. reflexivity. Qed.
Print Assumptions C73_kernels_refuted.

(** ** Examples *)

(** excluded pixels are kept, all others are replaced by the background *)
Definition patched : detector Z Z := fun im ex bk _ _ i j =>
  match ex, bk with
  | Some (m, n, l), Some bk => if nth (i * n + j) l false then pixel im i j else pixel bk i j
  | _, _ => pixel im i j
  end.

Definition keep : operand bool := OpArr (mkS (of_list false [2] [true; false]) ["t"]).
Definition background : operand Z := OpArr (mkS (of_list 0%Z [2; 2] [7; 8; 9; 10]%Z) ["y"; "t"]).

Example ex_arguments :
  show (na_despike patched (OpArr square) ["y"; "x"] (Some keep) (Some background) None None)
  = Ok (["x"; "y"; "t"], [2; 2; 2], [7; 1; 9; 2; 7; 3; 9; 4]%Z).
Proof. vm_compute. reflexivity. Qed.

Example ex_hypotheses :
  broadcast_shapes (op_shape (OpArr square) :: opt_operand_shape (Some keep) ++ opt_operand_shape (Some background) ++ [])%list
  = Ok [("x", 2); ("y", 2); ("t", 2)] /\
  filter (fun ax => smem ax ["y"; "x"]) (dkeys [("x", 2); ("y", 2); ("t", 2)]) = ["x"; "y"] /\
  broadcast_shapes [without [("x", 2); ("y", 2); ("t", 2)] ["y"; "x"]; sshape kernel] = Ok [("t", 2); ("x", 2); ("y", 2)].
Proof. repeat split; vm_compute; reflexivity. Qed.
