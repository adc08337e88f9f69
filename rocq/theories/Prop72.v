(** C72: [na.random.choice] draws from the choices with the same labels. *)
From Coq Require Import String List Arith ZArith Bool Lia QArith Qcanon.
From Verif Require Import Base BaseFacts Numpy Shapes Scalar Elementwise Derived Interp Hist Choice
  Spec SpecNumeric SpecHist SpecInterp SpecChoice ChoiceFacts.
Import ListNotations.
Open Scope nat_scope.
Open Scope list_scope.

(** The result has the broadcast shape of [shape_random] and of the axes of the
    choices that are not flattened.  Every element of the result is a choice of
    non-zero weight at the same position of those axes, converted to the data type
    of the result.  Without replacement no choice is used twice at one position.
    The random numbers are arbitrary ones that follow the rules of numpy.  Missing
    from the full statement: a longer axis of [shape_random] where the choices have
    size 1, see below. *)
Theorem C72_choice_partial :
  forall (A B G : Type) (draw : drawing G) (cast : A -> B) (junk : A) (empty : B) (g : G)
         (a : operand A) (p : option (operand Qc)) (axis : option (list string)) (replace : bool) (R S T : shape),
  lawful draw -> op_wf a -> opt_operand_wf p -> NoDup (dkeys R) ->
  broadcast_shapes (op_shape a :: opt_operand_shape p) = Ok S ->
  let K := flattened S axis in
  let O := without S K in
  broadcast_shapes [R; O] = Ok T ->
  (forall k n m, In (k, n) R -> In (k, m) O -> n = 1 \/ n = m) ->
  (forall e, inside e O -> drawable p S K replace (prod (dvals (free R O))) e) ->
  exists r g', na_random_choice draw cast junk empty g a p axis replace R = Ok (r, g') /\ wf r /\ sshape r = T /\
  exists src : env -> env,
    (forall e, inside e T -> In (src e) (candidates p S K e) /\ at_ r e = cast (op_at a (src e))) /\
    (replace = false -> forall e e', inside e T -> inside e' T -> (forall ax, In ax (dkeys O) -> e ax = e' ax) ->
       (forall ax, In ax K -> src e ax = src e' ax) -> forall ax, In ax (dkeys T) -> e ax = e' ax).
Proof. exact (fun A B G => choice_ok). Qed.
Print Assumptions C72_choice_partial.

(** If at some position there are no choices, or too few without replacement, or
    the weights add up to zero or are of both signs, the call is refused. *)
Theorem C72_refused :
  forall (A B G : Type) (draw : drawing G) (cast : A -> B) (junk : A) (empty : B) (g : G)
         (a : operand A) (p : option (operand Qc)) (axis : option (list string)) (replace : bool) (R S T : shape),
  op_wf a -> opt_operand_wf p -> NoDup (dkeys R) ->
  broadcast_shapes (op_shape a :: opt_operand_shape p) = Ok S ->
  let K := flattened S axis in
  let O := without S K in
  broadcast_shapes [R; O] = Ok T ->
  (forall k n m, In (k, n) R -> In (k, m) O -> n = 1 \/ n = m) ->
  forall e, inside e O -> undrawable p S K replace (prod (dvals (free R O))) e ->
  na_random_choice draw cast junk empty g a p axis replace R = Err ValueError.
Proof. exact (fun A B G => choice_refused). Qed.
Print Assumptions C72_refused.

(** There are random numbers that follow the rules. *)
Theorem C72_lawful : lawful in_order.
Proof. exact in_order_lawful. Qed.
Print Assumptions C72_lawful.

Open Scope string_scope.

Definition choices : sarr Z := mkS (of_list 0%Z [3; 1] [10; 20; 30]%Z) ["x"; "y"].

(** For an axis of size 1 of the choices which is longer in [shape_random], only the
    first elements are drawn; the others keep what the memory happened to contain. *)
Theorem C72_choice_refuted :
  wf choices /\
  forall empty : Z, exists r g' e,
    na_random_choice in_order (fun z => z) 0%Z empty 0 (OpArr choices) None (Some ["x"]) true [("y", 2)] = Ok (r, g') /\
    inside e (sshape r) /\ at_ r e = empty.
Proof.
  split.
  { split; [simpl; repeat constructor; simpl; intuition discriminate|reflexivity]. }
  intros empty. eexists. eexists. exists (fun _ => 1). split; [vm_compute; reflexivity|].
  split; [|vm_compute; reflexivity].
  intros ax n H. vm_compute in H. destruct H as [H|[]]. injection H as <- <-. lia.
Qed.
Print Assumptions C72_choice_refuted.

(** ** Examples *)

Definition show {A G} (r : res (sarr A * G)) : res (list string * list nat * list A * G) :=
  match r with Ok (a, g) => Ok (s_axes a, nshape (s_nd a), ravel (s_nd a), g) | Err e => Err e end.

(** two rows of choices, with weights for every choice *)
Definition rows : operand Z := OpArr (mkS (of_list 0%Z [2; 3] [1; 2; 3; 4; 5; 6]%Z) ["y"; "x"]).
Definition weights : operand Qc := OpArr (mkS (of_list 0%Qc [3] [qint 1; qint 0; qint 3]) ["x"]).

Example ex_rows :
  show (na_random_choice in_order (fun z => z) 0%Z 77%Z 0 rows (Some weights) (Some ["x"]) false [("s", 2)])
  = Ok (["s"; "y"], [2; 2], [1; 4; 3; 6]%Z, 2).
Proof. vm_compute. reflexivity. Qed.

(** the hypotheses hold there *)
Example ex_rows_drawable :
  broadcast_shapes (op_shape rows :: opt_operand_shape (Some weights)) = Ok [("y", 2); ("x", 3)] /\
  flattened [("y", 2); ("x", 3)] (Some ["x"]) = ["x"] /\
  forall e, drawable (Some weights) [("y", 2); ("x", 3)] ["x"] false 2 e.
Proof.
  split; [reflexivity|]. split; [reflexivity|]. intros e. unfold drawable. simpl fibre. split; [|split; [|split]].
  - intros e' [<- |[<- |[<- |[]]]]; vm_compute; discriminate.
  - intros _. vm_compute. reflexivity.
  - discriminate.
  - intros _. vm_compute. lia.
Qed.

Example ex_all :
  show (na_random_choice in_order (fun z => z) 0%Z 77%Z 5 rows None None true [("x", 4)]) = Ok (["x"], [4], [1; 2; 3; 4]%Z, 6).
Proof. vm_compute. reflexivity. Qed.

Example ex_too_few :
  show (na_random_choice in_order (fun z => z) 0%Z 77%Z 0 rows (Some weights) (Some ["x"]) false [("s", 3)]) = Err ValueError.
Proof. vm_compute. reflexivity. Qed.
