(** C86: array_equal, array_equiv and allclose compare vectors component by component. *)
From Coq Require Import String List Arith ZArith Bool Lia.
From Verif Require Import Base Numpy Shapes Scalar Reorder Vector VectorEqual Spec SpecVector SpecVectorReduce SpecVectorEqual VectorEqualFacts.
Import ListNotations.
Open Scope nat_scope.
Open Scope list_scope.

(** [np.array_equal] says whether two vectors have the same types and the same labelled
    contents.  Scalars at the same place must store their axes in the same order (see C38),
    vectors of one type must have the same component names, and a scalar must not meet a
    vector the wrong way round. *)
Theorem C86_array_equal_partial :
  forall (A : Type) (eqb : A -> A -> bool) (u w : vec A),
  (forall s t, eqb s t = true <-> s = t) -> vec_wf u -> vec_wf w ->
  named_by_type u w -> comparable u w ->
  (forall p x y, leaf_at u p = Some x -> leaf_at w p = Some y -> dkeys (op_shape x) = dkeys (op_shape y)) ->
  exists b, vec_array_equal eqb u w = Ok b /\ (b = true <-> same_vectors same_contents u w).
Proof. exact @vec_array_equal_spec. Qed.
Print Assumptions C86_array_equal_partial.

(** [np.array_equiv] does the same up to broadcasting; the scalars must broadcast. *)
Theorem C86_array_equiv_partial :
  forall (A : Type) (eqb : A -> A -> bool) (u w : vec A) (B : shape),
  (forall s t, eqb s t = true <-> s = t) -> vec_wf u -> vec_wf w ->
  named_by_type u w -> comparable u w -> NoDup (dkeys B) ->
  (forall x, In x (leaves u ++ leaves w) -> fits_in (op_shape x) B) ->
  exists b, vec_array_equiv eqb u w = Ok b /\ (b = true <-> same_vectors (agree eq) u w).
Proof. exact @vec_array_equiv_spec. Qed.
Print Assumptions C86_array_equiv_partial.

(** [np.allclose] compares all scalars that meet; a scalar meets every component. *)
Theorem C86_allclose :
  forall (A : Type) (close : A -> A -> bool) (u w : vec A) (B : shape),
  vec_wf u -> vec_wf w -> alike u w -> NoDup (dkeys B) ->
  (forall x, In x (leaves u ++ leaves w) -> fits_in (op_shape x) B) ->
  exists b, vec_allclose close u w = Ok b /\
    (b = true <-> forall p x y, reaches u p = Some x -> reaches w p = Some y -> agree (fun s t => close s t = true) x y).
Proof. exact @vec_allclose_spec. Qed.
Print Assumptions C86_allclose.

Theorem C86_allclose_types :
  forall (A : Type) (close : A -> A -> bool) (ty ty' : string) (cs cs' : dict (vec A)), ty <> ty' ->
  vec_allclose close (Node ty cs) (Node ty' cs') = Err TypeError.
Proof. exact @vec_allclose_types. Qed.
Print Assumptions C86_allclose_types.

Open Scope string_scope.
Definition ex_row (l : list Z) : operand Z := OpArr (mkS (of_list 0%Z [length l] l) ["t"]).
Definition ex_u : vec Z := Node "Cartesian2dVectorArray" [("x", Leaf (ex_row [1; 2; 3]%Z)); ("y", Leaf (OpNum 7%Z))].
Definition ex_w : vec Z := Node "Cartesian2dVectorArray" [("y", Leaf (OpNum 7%Z)); ("x", Leaf (ex_row [1; 2; 3]%Z))].
Definition ex_v : vec Z := Node "Cartesian2dVectorArray" [("y", Leaf (ex_row [7; 7; 7]%Z)); ("x", Leaf (ex_row [1; 2; 3]%Z))].
Definition ex_more : vec Z :=
  Node "CartesianNdVectorArray" [("a", Leaf (OpNum 1%Z)); ("b", Leaf (OpNum 2%Z))].
Definition ex_less : vec Z := Node "CartesianNdVectorArray" [("a", Leaf (OpNum 1%Z))].
Definition ex_near (x y : Z) : bool := (Z.abs (x - y) <=? 1)%Z.

Example C86_example_equal :
  vec_array_equal Z.eqb ex_u ex_w = Ok true /\ vec_array_equal Z.eqb ex_u ex_v = Ok false /\
  vec_array_equiv Z.eqb ex_u ex_v = Ok true /\
  vec_array_equal Z.eqb ex_u (Leaf (ex_row [1; 2; 3]%Z)) = Ok false.
Proof. vm_compute. auto. Qed.

Lemma ex_kind (a b : operand Z) (ty c d : string) p k :
  kind (Node ty [(c, Leaf a); (d, Leaf b)]) p = Some k -> p = [] /\ k = (ty, [c; d]).
Proof.
  destruct p as [|e p]; intros H; cbn in H; [inversion H; auto|]. exfalso. revert H.
  repeat match goal with |- context[if ?q then _ else _] => destruct q end; try discriminate; destruct p; discriminate.
Qed.

Lemma ex_row_wf l : op_wf (ex_row l).
Proof. split; [constructor; [intros []|constructor]|reflexivity]. Qed.

Lemma ex_two (a b : vec Z) (ty c d : string) : c <> d -> vec_wf a -> vec_wf b -> vec_wf (Node ty [(c, a); (d, b)]).
Proof.
  intros D Wa Wb. constructor.
  - constructor; [intros [E|[]]; cbn in E; congruence|]. constructor; [intros []|constructor].
  - intros k x [E|[E|[]]]; injection E as <- <-; assumption.
Qed.

Lemma ex_u_wf : vec_wf ex_u.
Proof. apply ex_two; [discriminate| |]; constructor; [apply ex_row_wf|exact Logic.I]. Qed.
Lemma ex_w_wf : vec_wf ex_w.
Proof. apply ex_two; [discriminate| |]; constructor; [exact Logic.I|apply ex_row_wf]. Qed.
Lemma ex_v_wf : vec_wf ex_v.
Proof. apply ex_two; [discriminate| |]; constructor; apply ex_row_wf. Qed.

Example C86_example_hypotheses :
  named_by_type ex_u ex_w /\ comparable ex_u ex_w /\ named_by_type ex_u ex_v /\ comparable ex_u ex_v /\ alike ex_u ex_v /\
  (forall x, In x (leaves ex_u ++ leaves ex_v) -> fits_in (op_shape x) [("t", 3)]) /\
  (forall p x y, leaf_at ex_u p = Some x -> leaf_at ex_w p = Some y -> dkeys (op_shape x) = dkeys (op_shape y)).
Proof.
  assert (K : forall p k, kind ex_u p = Some k -> p = [] /\ k = ("Cartesian2dVectorArray", ["x"; "y"])).
  { intros p k. apply ex_kind. }
  assert (Kw : forall p k, kind ex_w p = Some k -> p = [] /\ k = ("Cartesian2dVectorArray", ["y"; "x"])).
  { intros p k. apply ex_kind. }
  assert (Kv : forall p k, kind ex_v p = Some k -> p = [] /\ k = ("Cartesian2dVectorArray", ["y"; "x"])).
  { intros p k. apply ex_kind. }
  split; [|split; [|split; [|split; [|split; [|split]]]]].
  - intros p ty n n' H H' c. apply K in H. apply Kw in H'. destruct H as (_ & H), H' as (_ & H'). inversion H. inversion H'. cbn. tauto.
  - split; intros p x H; [destruct (kind ex_w p) eqn:E|destruct (kind ex_u p) eqn:E]; try reflexivity;
      [apply Kw in E|apply K in E]; destruct E as (-> & _); discriminate.
  - intros p ty n n' H H' c. apply K in H. apply Kv in H'. destruct H as (_ & H), H' as (_ & H'). inversion H. inversion H'. cbn. tauto.
  - split; intros p x H; [destruct (kind ex_v p) eqn:E|destruct (kind ex_u p) eqn:E]; try reflexivity;
      [apply Kv in E|apply K in E]; destruct E as (-> & _); discriminate.
  - intros p ty n ty' n' H H'. apply K in H. apply Kv in H'. destruct H as (_ & H), H' as (_ & H'). inversion H. inversion H'. cbn. split; [reflexivity|tauto].
  - intros x Hx ax n Hn. cbn in Hx. destruct Hx as [<- |[<- |[<- |[<- |[]]]]]; cbn in Hn; try contradiction;
      destruct Hn as [E|[]]; inversion E; subst; exists 3; cbn; auto.
  - intros p x y Hx Hy. cbn in Hx, Hy. destruct p as [|c p]; [discriminate|]. cbn in Hx, Hy.
    revert Hx Hy. destruct (String.eqb_spec c "x") as [E|E]; destruct (String.eqb_spec c "y") as [E'|E']; try congruence; try discriminate;
      destruct p; try discriminate; intros Hx Hy; inversion Hx; inversion Hy; reflexivity.
Qed.

Example C86_example_close :
  vec_allclose ex_near ex_u (Leaf (ex_row [2; 2; 2]%Z)) = Ok false /\
  vec_allclose ex_near (Leaf (OpNum 6%Z)) (Node "Cartesian2dVectorArray" [("x", Leaf (ex_row [5; 6; 7]%Z)); ("y", Leaf (OpNum 7%Z))]) = Ok true /\
  vec_allclose ex_near (Node "Cartesian2dVectorArray" [("x", Leaf (ex_row [5; 6; 7]%Z)); ("y", Leaf (OpNum 7%Z))]) (Leaf (OpNum 6%Z)) = Ok true /\
  vec_allclose ex_near (Leaf (ex_row [2; 2; 2]%Z)) ex_u = Ok false /\
  vec_allclose ex_near ex_u ex_v = Ok true /\ vec_allclose ex_near ex_less ex_u = Err TypeError.
Proof. vm_compute. auto 10. Qed.

(** Not in general: a vector with an extra component is equal to the one without it, in
    one order only; and comparing a scalar with a vector is an exception instead of
    [False] in one order only. *)
Theorem C86_array_equal_refuted :
  (exists u w : vec Z, vec_wf u /\ vec_wf w /\ ~ same_vectors same_contents u w /\
     vec_array_equal Z.eqb u w = Ok true /\ vec_array_equiv Z.eqb u w = Ok true /\ vec_allclose Z.eqb u w = Ok true /\
     vec_array_equal Z.eqb w u = Err KeyError /\ vec_array_equiv Z.eqb w u = Err KeyError /\ vec_allclose Z.eqb w u = Err KeyError) /\
  (exists u w : vec Z, vec_wf u /\ vec_wf w /\ ~ same_vectors same_contents u w /\
     vec_array_equal Z.eqb u w = Ok false /\ vec_array_equiv Z.eqb u w = Ok false /\
     vec_array_equal Z.eqb w u = Err AttributeError /\ vec_array_equiv Z.eqb w u = Err AttributeError).
Proof.
  split.
  - exists ex_less, ex_more. split; [|split; [|split]].
    + constructor; [constructor; [intros []|constructor]|]. intros c x [E|[]]. inversion E; subst. constructor. exact Logic.I.
    + apply ex_two; [discriminate| |]; constructor; exact Logic.I.
    + intros (_ & H). exact (H ["b"]).
    + vm_compute. auto 10.
  - exists ex_u, (Leaf (ex_row [1; 2; 3]%Z)). split; [apply ex_u_wf|]. split; [constructor; apply ex_row_wf|]. split.
    + intros (H & _). discriminate (H []).
    + vm_compute. auto 10.
Qed.
Print Assumptions C86_array_equal_refuted.

(** a scalar array and a vector: the shapes must broadcast before the types matter *)
Example C86_example_shapes :
  vec_array_equiv Z.eqb (Leaf (ex_row [1; 2; 3]%Z)) (Node "Cartesian2dVectorArray" [("x", Leaf (ex_row [1; 2]%Z)); ("y", Leaf (OpNum 7%Z))]) = Err ValueError /\
  vec_array_equiv Z.eqb (Leaf (ex_row [1; 2; 3]%Z)) ex_u = Err AttributeError.
Proof. vm_compute. auto. Qed.
