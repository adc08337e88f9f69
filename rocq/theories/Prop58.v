(** C58: the shape of a scalar product. *)
From Coq Require Import Ascii String List Arith ZArith QArith Qcanon Bool Lia.
From Verif Require Import Base Numpy Shapes Scalar Elementwise Vector Matrix Spec SpecVector SpecMatrix SpecGeometry MatrixLaws DotFacts.
Import ListNotations.
Open Scope nat_scope.
Open Scope list_scope.

(** The axes of [v @ w] are those of the pairs of components that are both
    different from zero somewhere.  Missing: the axes of the other pairs. *)
Theorem C58_axes_partial :
  forall (F : Type) (K : arith F), is_field K ->
  forall (v w : vec F) (o : operand F), vector_ok v -> vector_ok w -> vec_dot K v w = Ok o ->
  (forall c x y, part v c x -> part w c y -> live K x y -> fits_in (op_shape x) (op_shape o) /\ fits_in (op_shape y) (op_shape o)) /\
  (forall ax n, In (ax, n) (op_shape o) -> exists c x y, part v c x /\ part w c y /\ live K x y /\
     (In (ax, n) (op_shape x) \/ In (ax, n) (op_shape y))).
Proof. exact @dot_shape. Qed.
Print Assumptions C58_axes_partial.

(** When all the pairs are different from zero somewhere the product has the
    broadcast shape of all the components. *)
Theorem C58_shape_partial :
  forall (F : Type) (K : arith F), is_field K ->
  forall (v w : vec F) (o : operand F) (sh : shape), vector_ok v -> vector_ok w -> vec_dot K v w = Ok o ->
  (forall k, In k (names v) <-> In k (names w)) ->
  (forall c x y, part v c x -> part w c y -> live K x y) ->
  broadcast_shapes (map op_shape (leaves v ++ leaves w)) = Ok sh -> same_shape (op_shape o) sh.
Proof. exact @dot_full. Qed.
Print Assumptions C58_shape_partial.

Open Scope string_scope.

Definition q (z : Z) : Qc := Q2Qc (inject_Z z).
Definition line (a : string) (l : list Z) : operand Qc := OpArr (mkS (of_list (Q2Qc 0) [length l] (map q l)) [a]).
Definition shows (r : res (operand Qc)) : option (shape * list Q) :=
  match r with
  | Ok (OpArr a) => Some (sshape a, map this (ravel (s_nd a)))
  | Ok (OpNum x) => Some ([], [this x])
  | Err _ => None
  end.

(** Vectors with the components x along an axis of two elements and y = 1: the
    product has the axis, except when all elements of x are zero or there are none. *)
Definition ex_v (l : list Z) : vec Qc := xy "v" (line "t" l) (OpNum (q 1)).

Theorem C58_refuted :
  exists v w, vector_ok v /\ vector_ok w /\
    broadcast_shapes (map op_shape (leaves v ++ leaves w)) = Ok [("t", 2)] /\
    shows (vec_dot qK v w) = Some ([], [1%Q]).
Proof.
  exists (ex_v [0; 0]%Z), (ex_v [3; 4]%Z).
  assert (V : forall a b, vector_ok (ex_v [a; b])).
  { intros a b. split; [eexists; eexists; reflexivity|]. split.
    - constructor; [repeat constructor; simpl; intuition discriminate|].
      intros c x [H|[H|[]]]; injection H as <- <-; repeat constructor; simpl; intuition discriminate.
    - split; [cbn; repeat constructor; simpl; intuition discriminate|].
      intros [|c p] ty cs H; [injection H as <- <-; discriminate|]. exfalso. simpl in H.
      destruct (String.eqb c "x"); [destruct p; discriminate|]. destruct (String.eqb c "y"); [destruct p; discriminate|]. discriminate. }
  split; [apply V|]. split; [apply V|]. split; vm_compute; reflexivity.
Qed.
Print Assumptions C58_refuted.

Theorem C58_empty_refuted :
  exists v w, vector_ok v /\ vector_ok w /\
    broadcast_shapes (map op_shape (leaves v ++ leaves w)) = Ok [("t", 0)] /\
    shows (vec_dot qK v w) = Some ([], [1%Q]).
Proof.
  exists (ex_v []), (ex_v []).
  assert (V : vector_ok (ex_v [])).
  { split; [eexists; eexists; reflexivity|]. split.
    - constructor; [repeat constructor; simpl; intuition discriminate|].
      intros c x [H|[H|[]]]; injection H as <- <-; repeat constructor; simpl; intuition discriminate.
    - split; [cbn; repeat constructor; simpl; intuition discriminate|].
      intros [|c p] ty cs H; [injection H as <- <-; discriminate|]. exfalso. simpl in H.
      destruct (String.eqb c "x"); [destruct p; discriminate|]. destruct (String.eqb c "y"); [destruct p; discriminate|]. discriminate. }
  split; [apply V|]. split; [apply V|]. split; vm_compute; reflexivity.
Qed.
Print Assumptions C58_empty_refuted.

Example ex_kept : shows (vec_dot qK (ex_v [0; 1]%Z) (ex_v [3; 4]%Z)) = Some ([("t", 2)], [1; 5]%Q).
Proof. vm_compute. reflexivity. Qed.

Example ex_live : live qK (line "t" [0; 1]%Z) (line "t" [3; 4]%Z).
Proof.
  split; (exists (fun _ => 1); split; [intros ax n [H|[]]; injection H as <- <-; auto|]); vm_compute; discriminate.
Qed.
