(** C82: reductions of vectors reduce every component by name, as if it had all
    the axes of the vector and of the mask. *)
From Coq Require Import Ascii String List Arith ZArith Bool Lia.
From Verif Require Import Base Numpy Shapes Scalar Elementwise Reduce Vector VectorReduce Spec SpecVector SpecMatrix SpecVectorReduce.
From Verif Require VectorReduceFacts.
Import ListNotations.
Open Scope nat_scope.
Open Scope list_scope.

(** The result is a vector like [v].  The component [p] holds the reduction of the
    broadcast elements of [v] that the mask allows: [T] is the shape of [v] and of
    the mask together, and a component that does not have an axis of [T] counts as
    often as that axis is long.  Without an identity (as for the minimum) the mask is
    not allowed and the reduced axes are not empty. *)
Theorem C82_values : forall (A B : Type) (identity : bool) (f : list A -> B) (axis : option (list string)) (keepdims : bool)
  (ty : string) (cs : list (string * vec A)) (where_ : option (vec bool)) (T : shape),
  symmetric f ->
  let v := Node ty cs in
  vec_wf v -> filled v -> mask_for v where_ -> joint (leaf_shapes v where_) T ->
  (forall l, axis = Some l -> NoDup l /\ incl l (dkeys T)) ->
  (identity = true \/ (where_ = None /\ forall ax, In ax (axes_of axis T) -> size_of T ax <> 0)) ->
  exists r, vec_reduce identity f v axis keepdims where_ = Ok r /\ (forall p, kind r p = kind v p) /\
    forall p, match leaf_at v p with
              | None => leaf_at r p = None
              | Some o => exists a, leaf_at r p = Some (OpArr a) /\ wf a /\ fits_in (sshape a) (reduced keepdims (axes_of axis T) T) /\
                  forall e, inside e (reduced keepdims (axes_of axis T) T) ->
                    bat a e = f (map (op_at o) (filter (allowed where_ p) (fibre T (axes_of axis T) e)))
              end.
Proof. intros. now apply VectorReduceFacts.vec_reduce_values. Qed.
Print Assumptions C82_values.

(** An axis that neither the vector nor the mask has is refused, also when there
    are no components to reduce. *)
Theorem C82_axis_absent : forall (A B : Type) (identity : bool) (f : list A -> B) (l : list string) (keepdims : bool)
  (ty : string) (cs : list (string * vec A)) (where_ : option (vec bool)) (T : shape) (ax : string),
  let v := Node ty cs in
  vec_wf v -> mask_for v where_ -> joint (leaf_shapes v where_) T -> In ax l -> ~ In ax (dkeys T) ->
  vec_reduce identity f v (Some l) keepdims where_ = Err ValueError.
Proof. intros. now apply (VectorReduceFacts.vec_reduce_absent identity f l keepdims ty cs where_ T ax). Qed.
Print Assumptions C82_axis_absent.

(** Components and masks that do not have a shape together are refused. *)
Theorem C82_shapes_conflict : forall (A B : Type) (identity : bool) (f : list A -> B) (axis : option (list string)) (keepdims : bool)
  (ty : string) (cs : list (string * vec A)) (where_ : option (vec bool)),
  let v := Node ty cs in
  vec_wf v -> mask_for v where_ -> (forall T, ~ joint (leaf_shapes v where_) T) ->
  vec_reduce identity f v axis keepdims where_ = Err ValueError.
Proof. intros. now apply VectorReduceFacts.vec_reduce_conflict. Qed.
Print Assumptions C82_shapes_conflict.

(** A vector of masks for a scalar is refused. *)
Theorem C82_mask_of_scalar : forall (A B : Type) (identity : bool) (f : list A -> B) (o : operand A) (axis : option (list string)) (keepdims : bool)
  (ty : string) (ms : list (string * vec bool)),
  vec_reduce identity f (Leaf o) axis keepdims (Some (Node ty ms)) = Err TypeError.
Proof. reflexivity. Qed.
Print Assumptions C82_mask_of_scalar.

(** [np.all(v)] as a condition is true when every component is true everywhere. *)
Theorem C82_all : forall (ty : string) (cs : list (string * vec bool)) (T : shape),
  let v := Node ty cs in
  vec_wf v -> filled v -> joint (map op_shape (leaves v)) T ->
  exists b, vec_all v = Ok b /\ (b = true <-> forall p o e, leaf_at v p = Some o -> inside e T -> op_at o e = true).
Proof. intros. now apply VectorReduceFacts.vec_all_spec. Qed.
Print Assumptions C82_all.

Open Scope string_scope.

(** The functions of numpy that can be called this way. *)
Theorem C82_functions_partial : forall (R : Type) (name : string) (body : res R),
  In name (map fst default_functions) -> name <> "ndim" -> name <> "count_nonzero" -> call_default name [] body = body.
Proof.
  intros R name body H N1 N2. cbn in H.
  repeat match goal with H : _ \/ _ |- _ => destruct H as [<- |H] end; try congruence; try reflexivity. contradiction.
Qed.
Print Assumptions C82_functions_partial.

(** Those that accept a mask. *)
Theorem C82_functions_where_partial : forall (R : Type) (name : string) (body : res R),
  In name (map fst default_functions) -> ~ In name ["ndim"; "count_nonzero"; "median"; "nanmedian"; "ptp"] ->
  call_default name ["where"] body = body.
Proof.
  intros R name body H N. cbn in H, N.
  repeat match goal with H : _ \/ _ |- _ => destruct H as [<- |H] end; try (exfalso; apply N; tauto); try reflexivity.
Qed.
Print Assumptions C82_functions_where_partial.

(** Two of the functions of the list raise for every argument, because [axis],
    [keepdims] and [out] are always passed on. *)
Theorem C82_functions_refuted : forall (R : Type) (given : list string) (body : res R),
  In "ndim" (map fst default_functions) /\ In "count_nonzero" (map fst default_functions) /\
  call_default "ndim" given body = Err TypeError /\ call_default "count_nonzero" given body = Err TypeError.
Proof. intros. repeat split; cbn; auto 30. Qed.
Print Assumptions C82_functions_refuted.

(** ** Examples *)

Definition sum (l : list Z) : Z := fold_right Z.add 0%Z l.
Lemma sum_symmetric : symmetric sum.
Proof. intros l l' P. unfold sum. induction P; cbn [fold_right]; lia. Qed.

Definition arr (sh : list nat) (axes : list string) (l : list Z) : vec Z := Leaf (OpArr (mkS (of_list 0%Z sh l) axes)).
Definition flags (sh : list nat) (axes : list string) (l : list bool) : vec bool := Leaf (OpArr (mkS (of_list false sh l) axes)).
Definition show {A} (r : res (vec A)) : res (list (list string * list (list string * list nat * list A))) :=
  match r with
  | Err e => Err e
  | Ok v => Ok (map (fun p => (p, match leaf_at v p with Some (OpArr a) => [(s_axes a, nshape (s_nd a), ravel (s_nd a))] | _ => [] end)) (paths v))
  end.

(** a nested vector: a number, an array with both axes and one with one axis *)
Definition ex : vec Z :=
  Node "SpectralPositional" [("wavelength", Leaf (OpNum 7%Z));
    ("position", Node "Cartesian2d" [("x", arr [2; 3] ["t"; "u"] [1; 2; 3; 4; 5; 6]%Z); ("y", arr [3] ["u"] [10; 20; 30]%Z)])].
Definition ex_mask : vec bool :=
  Node "SpectralPositional" [("wavelength", flags [3] ["u"] [true; true; false]);
    ("position", flags [2] ["t"] [false; true])].

Example C82_example_sum :
  show (vec_reduce true sum ex None false None) =
    Ok [(["wavelength"], [([], [], [42%Z])]); (["position"; "x"], [([], [], [21%Z])]); (["position"; "y"], [([], [], [120%Z])])] /\
  show (vec_reduce true sum ex (Some ["t"]) true None) =
    Ok [(["wavelength"], [(["t"], [1], [14%Z])]); (["position"; "x"], [(["t"; "u"], [1; 3], [5; 7; 9]%Z)]);
        (["position"; "y"], [(["t"; "u"], [1; 3], [20; 40; 60]%Z)])] /\
  show (vec_reduce true sum ex (Some ["u"]) false (Some ex_mask)) =
    Ok [(["wavelength"], [([], [], [14%Z])]); (["position"; "x"], [(["t"], [2], [0; 15]%Z)]); (["position"; "y"], [(["t"], [2], [0; 60]%Z)])] /\
  show (vec_reduce true sum ex (Some ["w"]) false None) = Err ValueError.
Proof. split; [|split; [|split]]; vm_compute; reflexivity. Qed.

(** the hypotheses of [C82_values] hold *)
Ltac names := repeat constructor; cbn; intuition discriminate.
Example C82_example_hypotheses :
  vec_wf ex /\ filled ex /\ mask_for ex (Some ex_mask) /\ joint (leaf_shapes ex (Some ex_mask)) [("t", 2); ("u", 3)].
Proof.
  split; [|split; [|split]].
  - constructor; [names|]. intros c x [H|[H|[]]]; injection H as <- <-; [now constructor|]. constructor; [names|].
    intros c x [H|[H|[]]]; injection H as <- <-; constructor; (split; [names|reflexivity]).
  - intros p ty cs H ->. destruct p as [|c p]; [discriminate|]. cbn in H.
    destruct (String.eqb c "wavelength"); [destruct p; discriminate|]. destruct (String.eqb c "position"); [|discriminate].
    destruct p as [|c' p]; [discriminate|]. cbn in H. destruct (String.eqb c' "x"); [destruct p; discriminate|].
    destruct (String.eqb c' "y"); [destruct p; discriminate|discriminate].
  - intros w H. injection H as <-. split.
    + constructor; [names|]. intros c x [H|[H|[]]]; injection H as <- <-; constructor; (split; [names|reflexivity]).
    + intros [|c p] o H; [discriminate|]. cbn in *. destruct (String.eqb c "wavelength"); [destruct p; discriminate|].
      destruct (String.eqb c "position"); [destruct p; discriminate|discriminate].
  - split; [names|]. split.
    + intros s Hs. cbn in Hs. intuition; subst s; intros ax n H; cbn in H; intuition; try discriminate;
        match goal with E : (_, _) = (_, _) |- _ => injection E as <- <- end; eexists; (split; [cbn; eauto|now right]).
    + intros ax n [H|[H|[]]]; injection H as <- <-.
      * exists [("t", 2); ("u", 3)]. split; cbn; auto.
      * exists [("u", 3)]. split; cbn; auto.
Qed.

Example C82_example_all :
  vec_all (Node "Cartesian2d" [("x", flags [2] ["t"] [true; true]); ("y", Leaf (OpNum true))]) = Ok true /\
  vec_all (Node "Cartesian2d" [("x", flags [2] ["t"] [true; true]); ("y", flags [1; 2] ["u"; "t"] [true; false])]) = Ok false /\
  vec_all (Node "Cartesian2d" [("x", flags [0] ["t"] []); ("y", Leaf (OpNum false))]) = Ok true.
Proof. split; [|split]; vm_compute; reflexivity. Qed.

Example C82_example_functions :
  call_default "sum" ["where"] (vec_reduce true sum ex None false None) = vec_reduce true sum ex None false None /\
  call_default "median" ["where"] (vec_reduce true sum ex None false None) = Err TypeError.
Proof. split; reflexivity. Qed.

(** shapes that do not go together *)
Example C82_example_conflict :
  show (vec_reduce true sum (Node "Cartesian2d" [("x", arr [2] ["t"] [1; 2]%Z); ("y", arr [3] ["t"] [1; 2; 3]%Z)]) None false None) = Err ValueError.
Proof. vm_compute. reflexivity. Qed.
