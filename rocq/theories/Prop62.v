(** C62: integrating a function array along an axis. *)
From Coq Require Import String List Arith ZArith QArith Qcanon Bool Lia Ring_theory.
From Verif Require Import Base Numpy Shapes Scalar Func FuncOps Spec SpecDerived SpecNumeric SpecFunc SpecFuncOps FuncOpsFacts.
Import ListNotations.
Open Scope nat_scope.
Open Scope list_scope.

(** The result at every position of the other axes is the integral: the sum over
    the intervals between the inputs of the height of the bin, of the mean of the
    two samples, or of the only output, times the length of the interval.  The
    axis is gone from both parts, and the inputs are averaged.  Missing from the
    full statement: other axes of bins, and outputs with a single element along
    an axis with more inputs; see below. *)
Theorem C62_integrate_partial :
  forall (A : Type) (add mul sub : A -> A -> A) (opp : A -> A) (zero one half : A) (mean : list A -> A)
         (f : farr A A) (x : string) (n : nat),
  ring_theory zero one add mul sub opp (@eq A) -> add half half = one ->
  wf (f_inputs f) -> wf (f_outputs f) -> In (x, n) (sshape (f_inputs f)) ->
  (forall m, In (x, m) (sshape (f_outputs f)) -> n = m \/ n = S m) ->
  (forall ax a b, ax <> x -> In (ax, a) (sshape (f_outputs f)) -> In (ax, b) (sshape (f_inputs f)) ->
     a = b \/ a = 1 \/ b = 1) ->
  exists r, f_integrate add mul sub zero one half mean f [x] = Ok r /\
    wf (f_inputs r) /\ wf (f_outputs r) /\
    sshape (f_inputs r) = without (sshape (f_inputs f)) [x] /\
    (forall ax k, In (ax, k) (sshape (f_outputs r)) <->
       ax <> x /\ (In ax (dkeys (sshape (f_outputs f))) \/ In ax (dkeys (sshape (f_inputs f)))) /\
       common_size (sizes_of [sshape (f_outputs f); sshape (f_inputs f)] ax) k) /\
    (forall e, at_ (f_inputs r) e = mean (line (f_inputs f) x e)) /\
    forall e, inside e (sshape (f_outputs r)) -> at_ (f_outputs r) e = integral add mul sub zero half f x e.
Proof. exact @integrate_spec. Qed.
Print Assumptions C62_integrate_partial.

(** The integral of a constant is the constant times the distance of the first
    and the last input, whatever lies in between. *)
Theorem C62_constant :
  forall (A : Type) (add mul sub : A -> A -> A) (opp : A -> A) (zero one half : A)
         (f : farr A A) (x : string) (n : nat) (e : env) (c : A),
  ring_theory zero one add mul sub opp (@eq A) -> add half half = one ->
  wf (f_inputs f) -> In (x, n) (sshape (f_inputs f)) ->
  (forall j, j < n -> bat (f_outputs f) (set_env e x j) = c) ->
  integral add mul sub zero half f x e = mul c (sub (knot f x e (n - 1)) (knot f x e 0)).
Proof. exact @integral_constant_spec. Qed.
Print Assumptions C62_constant.

(** The integral of samples of a linear function is exact. *)
Theorem C62_linear :
  forall (A : Type) (add mul sub : A -> A -> A) (opp : A -> A) (zero one half : A)
         (f : farr A A) (x : string) (n : nat) (e : env) (a b : A),
  ring_theory zero one add mul sub opp (@eq A) -> add half half = one ->
  wf (f_inputs f) -> wf (f_outputs f) -> In (x, n) (sshape (f_inputs f)) -> In (x, n) (sshape (f_outputs f)) ->
  (forall j, j < n -> bat (f_outputs f) (set_env e x j) = add (mul a (knot f x e j)) b) ->
  let first := knot f x e 0 in
  let last := knot f x e (n - 1) in
  integral add mul sub zero half f x e = add (mul (mul half a) (sub (mul last last) (mul first first))) (mul b (sub last first)).
Proof. exact @integral_linear_spec. Qed.
Print Assumptions C62_linear.

Open Scope string_scope.

Definition qc (z : Z) : Qc := Q2Qc (inject_Z z).
Definition half : Qc := Q2Qc (1 # 2).
Definition mean (l : list Qc) : Qc := (fold_right Qcplus (qc 0) l / qc (Z.of_nat (length l)))%Qc.
Definition integrate := f_integrate Qcplus Qcmult Qcminus (qc 0) (qc 1) half mean.

Definition show (r : res (farr Qc Qc)) :=
  match r with
  | Ok f => Ok (sshape (f_inputs f), map this (ravel (s_nd (f_inputs f))), sshape (f_outputs f), map this (ravel (s_nd (f_outputs f))))
  | Err e => Err e
  end.

Definition arr (sh : list nat) (axes : list string) (l : list Z) : sarr Qc := mkS (of_list (qc 0) sh (map qc l)) axes.

(** samples of the identity and of a constant at 0, 1 and 3 *)
Definition samples : farr Qc Qc := mkF (arr [3] ["x"] [0; 1; 3]%Z) (arr [2; 3] ["y"; "x"] [0; 1; 3; 2; 2; 2]%Z).
(** two bins *)
Definition counts : farr Qc Qc := mkF (arr [3] ["x"] [0; 1; 3]%Z) (arr [2] ["x"] [5; 7]%Z).
(** a constant that does not have the axis; the inputs depend on another axis *)
Definition flat : farr Qc Qc := mkF (arr [2; 3] ["z"; "x"] [0; 1; 3; 10; 20; 40]%Z) (arr [] [] [4]%Z).

Example C62_samples : show (integrate samples ["x"]) = Ok ([], [4 # 3]%Q, [("y", 2)], [9 # 2; 6]%Q).
Proof. vm_compute. reflexivity. Qed.

Example C62_bins : show (integrate counts ["x"]) = Ok ([], [4 # 3]%Q, [], [19]%Q).
Proof. vm_compute. reflexivity. Qed.

Example C62_flat : show (integrate flat ["x"]) = Ok ([("z", 2)], [4 # 3; 70 # 3]%Q, [("z", 2)], [12; 120]%Q).
Proof. vm_compute. reflexivity. Qed.

Example C62_applies : exists r, integrate samples ["x"] = Ok r /\ wf (f_outputs r).
Proof.
  destruct (C62_integrate_partial Qc Qcplus Qcmult Qcminus Qcopp (qc 0) (qc 1) half mean samples "x" 3) as (r & E & _ & W & _).
  - exact Qcrt.
  - apply Qc_is_canon. reflexivity.
  - split; [repeat constructor; simpl; intuition discriminate|reflexivity].
  - split; [repeat constructor; simpl; intuition discriminate|reflexivity].
  - now left.
  - intros m [E|[E|[]]]; [discriminate|injection E as <-; now left].
  - intros ax a b Nx _ [E|[]]. injection E as <- <-. now destruct Nx.
  - exists r. auto.
Qed.

(** If another axis has bins too, the lengths of the intervals depend on the
    vertices of that axis and cannot be multiplied with the outputs. *)
Definition grid : farr Qc Qc :=
  mkF (arr [3; 3] ["x"; "y"] [0; 10; 20; 1; 11; 21; 3; 13; 23]%Z) (arr [2; 2] ["x"; "y"] [1; 1; 1; 1]%Z).

Theorem C62_other_bins_refuted :
  exists f : farr Qc Qc, wf (f_inputs f) /\ wf (f_outputs f) /\ matched f /\ bins f "x" 2 /\ bins f "y" 2 /\
    integrate f ["x"] = Err ValueError.
Proof.
  exists grid. split; [split; [repeat constructor; simpl; intuition discriminate|reflexivity]|].
  split; [split; [repeat constructor; simpl; intuition discriminate|reflexivity]|].
  split; [intros ax n m [E|[E|[]]] [E'|[E'|[]]]; injection E as <- <-; (discriminate E' || (injection E' as <-; now right))|].
  split; [split; now left|]. split; [split; right; now left|]. vm_compute. reflexivity.
Qed.
Print Assumptions C62_other_bins_refuted.

(** With a single bin along the other axis the calculation succeeds, but the
    outputs are repeated for both vertices: the bin has become two samples. *)
Definition one_bin : farr Qc Qc :=
  mkF (arr [3; 2] ["x"; "y"] [0; 10; 1; 11; 3; 13]%Z) (arr [2; 1] ["x"; "y"] [1; 1]%Z).

Theorem C62_one_bin_refuted :
  exists f : farr Qc Qc, wf (f_inputs f) /\ wf (f_outputs f) /\ matched f /\ bins f "y" 1 /\
    f_shape f = Ok [("x", 2); ("y", 1)] /\
    exists r, integrate f ["x"] = Ok r /\ f_shape r = Ok [("y", 2)].
Proof.
  exists one_bin. split; [split; [repeat constructor; simpl; intuition discriminate|reflexivity]|].
  split; [split; [repeat constructor; simpl; intuition discriminate|reflexivity]|].
  split; [intros ax n m [E|[E|[]]] [E'|[E'|[]]]; injection E as <- <-; (discriminate E' || (injection E' as <-; now right))|].
  split; [split; right; now left|]. split; [reflexivity|]. 
  assert (E : match integrate one_bin ["x"] with Ok r => f_shape r | Err e => Err e end = Ok [("y", 2)]) by (vm_compute; reflexivity).
  destruct (integrate one_bin ["x"]) as [r|]; [exists r; auto|discriminate].
Qed.
Print Assumptions C62_one_bin_refuted.

(** A single output along the axis stands for a constant, as in the other
    operations, but cannot be integrated; the same function, broadcast, can. *)
Definition single : farr Qc Qc := mkF (arr [4] ["x"] [0; 1; 3; 4]%Z) (arr [1] ["x"] [5]%Z).
Definition spread : farr Qc Qc := match f_broadcasted single with Ok b => b | Err _ => single end.

Theorem C62_single_refuted :
  exists f b : farr Qc Qc, wf (f_inputs f) /\ wf (f_outputs f) /\ compatible f /\ f_shape f = Ok [("x", 4)] /\
    f_broadcasted f = Ok b /\ (forall e, bat (f_outputs f) e = bat (f_outputs b) e) /\ (forall e, bat (f_inputs f) e = bat (f_inputs b) e) /\
    integrate f ["x"] = Err ValueError /\ show (integrate b ["x"]) = Ok ([], [2]%Q, [], [20]%Q).
Proof.
  exists single, spread. split; [split; [repeat constructor; simpl; intuition discriminate|reflexivity]|].
  split; [split; [repeat constructor; simpl; intuition discriminate|reflexivity]|].
  split; [intros ax n m [E|[]] [E'|[]]; injection E as <- <-; injection E' as <-; auto|].
  split; [reflexivity|]. split; [reflexivity|]. split; [intros e; reflexivity|]. split; [intros e; reflexivity|].
  split; vm_compute; reflexivity.
Qed.
Print Assumptions C62_single_refuted.
