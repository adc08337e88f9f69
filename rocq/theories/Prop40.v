(** C40: [cell_centers] averages the surrounding vertices. *)
From Coq Require Import String List Arith ZArith QArith Qcanon Bool Lia Ring_theory.
From Verif Require Import Base Numpy Shapes Scalar Elementwise Derived Spec SpecDerived CenterFacts.
Import ListNotations.
Open Scope nat_scope.
Open Scope list_scope.

(** Over any commutative ring with a half: the shape loses one element along each
    of the axes and every value is the mean of the 2^k surrounding vertices. *)
Theorem C40_cell_centers :
  forall (A : Type) (add mul sub : A -> A -> A) (opp : A -> A) (zero one : A),
  ring_theory zero one add mul sub opp eq ->
  forall (half : A) (a : sarr A) (axis : option (list string)), wf a -> add half half = one ->
  exists r, na_cell_centers add mul sub zero one half a axis None = Ok r /\ wf r /\
    sshape r = shrunk (sshape a) (center_axes a axis) /\
    forall e, inside e (sshape r) ->
      at_ r e = mul (power mul one half (length (center_axes a axis)))
                    (sum add zero (map (at_ a) (corners (center_axes a axis) e))).
Proof. exact @cell_centers_spec. Qed.
Print Assumptions C40_cell_centers.

(** The order in which the axes are given, their repetition and names that are
    not axes of the array are irrelevant. *)
Theorem C40_order_irrelevant :
  forall (A : Type) (add mul sub : A -> A -> A) (opp : A -> A) (zero one : A),
  ring_theory zero one add mul sub opp eq ->
  forall (half : A) (a : sarr A) (l l' : list string), wf a -> add half half = one ->
  (forall ax, In ax (s_axes a) -> (In ax l <-> In ax l')) ->
  exists r r', na_cell_centers add mul sub zero one half a (Some l) None = Ok r /\
    na_cell_centers add mul sub zero one half a (Some l') None = Ok r' /\
    s_axes r = s_axes r' /\ same_array r r'.
Proof. exact @cell_centers_order. Qed.
Print Assumptions C40_order_irrelevant.

(** With [random=True] the value is the multilinear interpolation at the drawn
    fractions [f ax] of the cell. *)
Theorem C40_random :
  forall (A : Type) (add mul sub : A -> A -> A) (opp : A -> A) (zero one : A),
  ring_theory zero one add mul sub opp eq ->
  forall (half : A) (a : sarr A) (axis : option (list string)) (f : string -> sarr A), wf a ->
  (forall ax, In ax (center_axes a axis) -> wf (f ax) /\ covered (sshape (f ax)) (shrunk (sshape a) (center_axes a axis))) ->
  exists r, na_cell_centers add mul sub zero one half a axis (Some f) = Ok r /\ wf r /\
    sshape r = shrunk (sshape a) (center_axes a axis) /\
    forall e, inside e (sshape r) ->
      at_ r e = sum add zero
        (map (fun c => mul (at_ a c) (weight mul sub one (map (fun ax => (ax, bat (f ax) e)) (center_axes a axis)) e c))
             (corners (center_axes a axis) e)).
Proof. exact @cell_centers_random_spec. Qed.
Print Assumptions C40_random.

(** On data affine in the positions the result is the value at the centre, or at
    the drawn point. *)
Theorem C40_affine :
  forall (A : Type) (add mul sub : A -> A -> A) (opp : A -> A) (zero one : A),
  ring_theory zero one add mul sub opp eq ->
  forall (half : A) (a : sarr A) (axis : option (list string)) (random : option (string -> sarr A)) (c : A) (s : string -> A),
  wf a ->
  (forall f ax, random = Some f -> In ax (center_axes a axis) ->
     wf (f ax) /\ covered (sshape (f ax)) (shrunk (sshape a) (center_axes a axis))) ->
  (forall e, inside e (sshape a) -> at_ a e = affine add mul zero c s (s_axes a) (fun ax => of_nat add zero one (e ax))) ->
  exists r, na_cell_centers add mul sub zero one half a axis random = Ok r /\
    forall e, inside e (sshape r) ->
      at_ r e = affine add mul zero c s (s_axes a) (fun ax => add (of_nat add zero one (e ax))
        (if smem ax (center_axes a axis)
         then match random with Some f => bat (f ax) e | None => half end else zero)).
Proof. exact @cell_centers_affine. Qed.
Print Assumptions C40_affine.

Open Scope string_scope.

Definition qc (z : Z) : Qc := Q2Qc (inject_Z z).
Definition half : Qc := Q2Qc (1 # 2).
Definition centers := na_cell_centers Qcplus Qcmult Qcminus (qc 0) (qc 1) half.

Definition show (r : res (sarr Qc)) : option (shape * list Q) :=
  match r with Ok r => Some (sshape r, map this (ravel (s_nd r))) | Err _ => None end.

Definition ex_a : sarr Qc := mkS (of_list (qc 0) [2; 3] (map qc [1; 2; 4;  8; 16; 32]%Z)) ["x"; "y"].

Example C40_example :
  show (centers ex_a None None) = Some ([("x", 1); ("y", 2)], [27 # 4; 27 # 2]%Q).
Proof. vm_compute. reflexivity. Qed.

Example C40_example_axis :
  show (centers ex_a (Some ["y"; "w"; "y"]) None) = Some ([("x", 2); ("y", 2)], [3 # 2; 3; 12; 24]%Q).
Proof. vm_compute. reflexivity. Qed.

(** the fractions are drawn per cell *)
Definition ex_f (ax : string) : sarr Qc :=
  mkS (of_list (qc 0) [1; 2] (map (fun q => Q2Qc q) (if String.eqb ax "x" then [1 # 4; 1 # 2] else [0; 1 # 8])%Q)) ["x"; "y"].

Example C40_example_random :
  show (centers ex_a None (Some ex_f)) = Some ([("x", 1); ("y", 2)], [11 # 4; 81 # 8]%Q).
Proof. vm_compute. reflexivity. Qed.

Example C40_example_hypotheses :
  wf ex_a /\ Qcplus half half = qc 1 /\ ring_theory (qc 0) (qc 1) Qcplus Qcmult Qcminus Qcopp eq /\
  (forall ax, wf (ex_f ax) /\ covered (sshape (ex_f ax)) (shrunk (sshape ex_a) (center_axes ex_a None))).
Proof.
  split; [split; [repeat constructor; simpl; intuition discriminate|reflexivity]|].
  split; [apply Qc_is_canon; reflexivity|]. split; [exact Qcrt|].
  intros ax. split; [split; [repeat constructor; simpl; intuition discriminate|reflexivity]|].
  intros x n [E|[E|[]]]; injection E as <- <-; (split; [simpl; tauto|right; simpl; tauto]).
Qed.
