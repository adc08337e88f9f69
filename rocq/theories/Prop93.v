(** C93: percentiles of vectors. *)
From Coq Require Import String List Arith ZArith Bool Lia.
From Verif Require Import Base Numpy Shapes Scalar Elementwise Reduce Vector Quantile VectorQuantile Spec SpecVector SpecVectorReduce
  SpecMatrix SpecQuantile SpecVectorQuantile.
From Verif Require VectorQuantileFacts.
Import ListNotations.
Open Scope nat_scope.
Open Scope list_scope.

(** The result is a vector like [v].  The component [p] holds, for every element of the component
    [p] of [q], that percentile of the broadcast elements of [v]: [T] is the shape of [v], and a
    component that does not have a reduced axis counts as often as that axis is long. *)
Theorem C93_values_partial :
  forall (A Q B : Type) (valid : Q -> bool) (perc : Q -> list A -> B) (axis : option (list string)) (keepdims : bool)
         (ty : string) (cs : list (string * vec A)) (q : vec Q) (T : shape),
  (forall x, symmetric (perc x)) ->
  let v := Node ty cs in
  vec_wf v -> filled v -> joint (map op_shape (leaves v)) T -> percentiles_for valid v q T ->
  (forall ax n, In (ax, n) T -> n <> 0) -> (forall l, axis = Some l -> NoDup l /\ incl l (dkeys T)) ->
  exists r, vec_percentile valid perc v q axis keepdims = Ok r /\ (forall p, kind r p = kind v p) /\
    forall p, match leaf_at v p with
              | None => leaf_at r p = None
              | Some o => exists x a, reaches q p = Some x /\ leaf_at r p = Some (OpArr a) /\ wf a /\
                  (forall ax n, In (ax, n) (op_shape x) -> In (ax, n) (sshape a)) /\
                  fits_in (sshape a) (op_shape x ++ reduced keepdims (axes_of axis T) T) /\
                  forall e, inside e (op_shape x ++ reduced keepdims (axes_of axis T) T) ->
                    bat a e = perc (op_at x e) (map (op_at o) (fibre T (axes_of axis T) e))
              end.
Proof. exact @VectorQuantileFacts.vec_percentile_values. Qed.
Print Assumptions C93_values_partial.

(** An axis that the vector does not have is refused, as are components that do not broadcast. *)
Theorem C93_axis_absent :
  forall (A Q B : Type) (valid : Q -> bool) (perc : Q -> list A -> B) (l : list string) (keepdims : bool)
         (ty : string) (cs : list (string * vec A)) (q : vec Q) (T : shape) (ax : string),
  let v := Node ty cs in
  vec_wf v -> filled v -> joint (map op_shape (leaves v)) T -> In ax l -> ~ In ax (dkeys T) ->
  vec_percentile valid perc v q (Some l) keepdims = Err ValueError.
Proof. exact @VectorQuantileFacts.vec_percentile_absent. Qed.
Print Assumptions C93_axis_absent.

Theorem C93_conflict :
  forall (A Q B : Type) (valid : Q -> bool) (perc : Q -> list A -> B) (axis : option (list string)) (keepdims : bool)
         (ty : string) (cs : list (string * vec A)) (q : vec Q),
  let v := Node ty cs in
  vec_wf v -> filled v -> (forall T, ~ joint (map op_shape (leaves v)) T) ->
  vec_percentile valid perc v q axis keepdims = Err ValueError.
Proof. exact @VectorQuantileFacts.vec_percentile_conflict. Qed.
Print Assumptions C93_conflict.

(** A scalar [q] that shares an axis with the vector is refused, also when only one of the
    components has the axis. *)
Theorem C93_shared :
  forall (A Q B : Type) (valid : Q -> bool) (perc : Q -> list A -> B) (axis : option (list string)) (keepdims : bool)
         (ty : string) (cs : list (string * vec A)) (x : operand Q) (T : shape) (ax : string),
  (forall y, symmetric (perc y)) ->
  let v := Node ty cs in
  vec_wf v -> filled v -> op_wf x -> joint (map op_shape (leaves v)) T ->
  (forall ax n, In (ax, n) T -> n <> 0) -> In ax (dkeys (op_shape x)) -> In ax (dkeys T) ->
  vec_percentile valid perc v (Leaf x) axis keepdims = Err ValueError.
Proof. exact @VectorQuantileFacts.vec_percentile_shared. Qed.
Print Assumptions C93_shared.

(** A vector [q] for a scalar is not refused with TypeError but with AttributeError. *)
Theorem C93_vector_of_scalar_refuted :
  forall (A Q B : Type) (valid : Q -> bool) (perc : Q -> list A -> B) (o : operand A) (ty : string) (qs : list (string * vec Q))
         (axis : option (list string)) (keepdims : bool),
  op_wf o -> (forall l, axis = Some l -> incl l (dkeys (op_shape o))) ->
  vec_percentile valid perc (Leaf o) (Node ty qs) axis keepdims = Err AttributeError.
Proof. exact @VectorQuantileFacts.vec_percentile_of_scalar. Qed.
Print Assumptions C93_vector_of_scalar_refuted.

(** An axis that the scalar does not have is noticed before that. *)
Theorem C93_vector_of_scalar_absent :
  forall (A Q B : Type) (valid : Q -> bool) (perc : Q -> list A -> B) (o : operand A) (ty : string) (qs : list (string * vec Q))
         (l : list string) (ax : string) (keepdims : bool),
  op_wf o -> In ax l -> ~ In ax (dkeys (op_shape o)) ->
  vec_percentile valid perc (Leaf o) (Node ty qs) (Some l) keepdims = Err ValueError.
Proof. exact @VectorQuantileFacts.vec_percentile_of_scalar_absent. Qed.
Print Assumptions C93_vector_of_scalar_absent.

Open Scope string_scope.

(** the element of rank [k] from below, a percentile for the examples *)
Fixpoint insert (x : Z) (l : list Z) : list Z :=
  match l with [] => [x] | y :: l' => if (x <=? y)%Z then x :: l else y :: insert x l' end.
Definition rank (k : nat) (l : list Z) : Z := nth k (fold_right insert [] l) (-1)%Z.
Definition small (k : nat) : bool := Nat.ltb k 6.

Fixpoint show (v : vec Z) : tree (shape * list Z) :=
  match v with
  | Leaf o => Leaf (sshape (normalize o), ravel (s_nd (normalize o)))
  | Node ty cs => Node ty (map (fun kv => (fst kv, show (snd kv))) cs)
  end.
Definition shows (r : res (vec Z)) : option (tree (shape * list Z)) :=
  match r with Ok v => Some (show v) | Err _ => None end.

Definition ex_x : operand Z := OpArr (mkS (of_list 0%Z [3] [5; 1; 9]%Z) ["t"]).
Definition ex_y : operand Z := OpArr (mkS (of_list 0%Z [2; 3] [4; 6; 2; 8; 7; 3]%Z) ["b"; "t"]).
Definition ex_v : vec Z := Node "CartesianNdVectorArray" [("x", Leaf ex_x); ("y", Leaf ex_y); ("z", Leaf (OpNum 7%Z))].
Definition ex_q : operand nat := OpArr (mkS (of_list 0 [2] [0; 2]) ["q"]).

Lemma ex_wf : vec_wf ex_v.
Proof.
  constructor; [repeat constructor; cbn; intuition discriminate|]. intros c x [H|[H|[H|[]]]]; injection H as <- <-; constructor; cbn; auto.
  - split; [repeat constructor; intros []|reflexivity].
  - split; [repeat constructor; cbn; intuition discriminate|reflexivity].
Qed.

Lemma ex_filled : filled ex_v.
Proof. intros [|c p] ty cs K; cbn in K; [now injection K as <- <-|].
  destruct (String.eqb c "x"); [now destruct p|]. destruct (String.eqb c "y"); [now destruct p|]. destruct (String.eqb c "z"); [now destruct p|discriminate].
Qed.

Lemma ex_joint : joint (map op_shape (leaves ex_v)) [("b", 2); ("t", 3)].
Proof.
  split; [repeat constructor; cbn; intuition discriminate|]. split.
  - intros s [<- |[<- |[<- |[]]]] ax n H; cbn in H; [| |contradiction]; exists n; cbn; intuition.
  - intros ax n H. exists [("b", 2); ("t", 3)]. split; [right; left; reflexivity|exact H].
Qed.

(* the smallest and the largest of three: the number counts three times *)
Example C93_example :
  vec_wf ex_v /\ filled ex_v /\ joint (map op_shape (leaves ex_v)) [("b", 2); ("t", 3)] /\
  shows (vec_percentile small rank ex_v (Leaf ex_q) (Some ["t"]) false) =
  Some (Node "CartesianNdVectorArray"
    [("x", Leaf ([("q", 2)], [1; 9]%Z)); ("y", Leaf ([("q", 2); ("b", 2)], [2; 3; 6; 8]%Z)); ("z", Leaf ([("q", 2)], [7; 7]%Z))]).
Proof. split; [exact ex_wf|]. split; [exact ex_filled|]. split; [exact ex_joint|]. vm_compute. reflexivity. Qed.

(* a percentile for each component, all the axes: the component x counts twice *)
Example C93_example_vector :
  shows (vec_percentile small rank ex_v (Node "CartesianNdVectorArray" [("z", Leaf (OpNum 0)); ("x", Leaf (OpNum 1)); ("y", Leaf ex_q)]) None false) =
  Some (Node "CartesianNdVectorArray" [("x", Leaf ([], [1]%Z)); ("y", Leaf ([("q", 2)], [2; 4]%Z)); ("z", Leaf ([], [7]%Z))]) /\
  shows (vec_percentile small rank ex_v (Leaf (OpNum 1)) (Some ["b"]) true) =
  Some (Node "CartesianNdVectorArray" [("x", Leaf ([("t", 3); ("b", 1)], [5; 1; 9]%Z)); ("y", Leaf ([("b", 1); ("t", 3)], [8; 7; 3]%Z)); ("z", Leaf ([("b", 1)], [7]%Z))]).
Proof. split; vm_compute; reflexivity. Qed.

(* the hypothesis on [q] *)
Example C93_example_for : percentiles_for small ex_v (Leaf ex_q) [("b", 2); ("t", 3)].
Proof.
  split; [constructor; split; [repeat constructor; intros []|reflexivity]|]. intros p o L. exists ex_q. split; [now destruct p|].
  split; [intros ax [<- |[]] H; cbn in H; intuition discriminate|]. split; [cbn; lia|]. intros e H. assert (K : e "q" < 2) by (apply H; now left).
  unfold ex_q, op_at. rewrite SortingFacts.bat_inside.
  - unfold at_. cbn [s_axes map s_nd]. destruct (e "q") as [|[|k]]; cbn; auto. lia.
  - split; [repeat constructor; intros []|reflexivity].
  - exact H.
Qed.

(* the axis b is only in the component y, the others would accept it in [q] *)
Example C93_example_shared :
  vec_percentile small rank ex_v (Leaf (OpArr (mkS (of_list 0 [2] [0; 2]) ["b"]))) (Some ["t"]) false = Err ValueError.
Proof. vm_compute. reflexivity. Qed.

(* a vector [q] that lacks a component is refused with KeyError *)
Example C93_example_missing :
  vec_percentile small rank ex_v (Node "CartesianNdVectorArray" [("x", Leaf (OpNum 1))]) (Some ["t"]) false = Err KeyError.
Proof. vm_compute. reflexivity. Qed.

(** In a vector [q] a shared axis is accepted when the component of [v] does not have it, and a
    vector of another type is accepted when the names agree. *)
Theorem C93_q_vector_refuted :
  exists q r, vec_percentile small rank ex_v q (Some ["t"]) false = Ok r /\
    leaf_at q ["x"] = Some (OpArr (mkS (of_list 0 [2] [0; 2]) ["b"])) /\ In "b" (dkeys (op_shape ex_y)) /\
    kind q [] <> kind ex_v [].
Proof.
  exists (Node "Other" [("x", Leaf (OpArr (mkS (of_list 0 [2] [0; 2]) ["b"]))); ("y", Leaf (OpNum 0)); ("z", Leaf (OpNum 0))]).
  eexists. split; [vm_compute; reflexivity|]. split; [reflexivity|]. split; [now left|discriminate].
Qed.
Print Assumptions C93_q_vector_refuted.
