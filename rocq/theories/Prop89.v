(** C89: joining vectors joins every component. *)
From Coq Require Import String List Arith ZArith Bool Lia.
From Verif Require Import Base Numpy Shapes Scalar Vector VectorStack Spec SpecNumeric SpecVector SpecMatrix SpecVectorStack
  VectorStackFacts.
Import ListNotations.
Open Scope nat_scope.
Open Scope list_scope.

(** The exact domain and result of a concatenation of vectors and scalars.  [ns] holds the sizes
    of the arrays along the axis; a component without the axis is repeated to that size, so every
    component is as long as the others.  A component fails exactly when its arrays do not broadcast along the
    other axes. *)
Theorem C89_concatenate :
  forall (A L : Type) (t : tree L) (vs : list (vec A)) (axis : string) (ns : list nat),
  vs <> [] -> Forall vec_wf vs -> Forall filled vs -> tree_ok (fun _ => True) t -> merges t vs -> lengths vs axis ns ->
  let fits p := forall os, scalars_at vs p os -> ~ conflict (map (fun o => without (op_shape o) [axis]) os) in
  ((forall p, leaf_at t p <> None -> fits p) -> exists r, vec_concatenate vs axis = Ok r /\ same_kind t r /\
     forall p os, leaf_at t p <> None -> scalars_at vs p os -> exists a, leaf_at r p = Some (OpArr a) /\ wf a /\ concatenated os axis ns a) /\
  (~ (forall p, leaf_at t p <> None -> fits p) -> vec_concatenate vs axis = Err ValueError).
Proof. exact @vec_concatenate_spec. Qed.
Print Assumptions C89_concatenate.

(** An array that does not have the axis is refused. *)
Theorem C89_missing_axis :
  forall (A L : Type) (t : tree L) (vs : list (vec A)) (axis : string), is_node t -> merges t vs ->
  (forall v, In v vs -> exists sh, vec_shape v = Ok sh) ->
  (exists v sh, In v vs /\ vec_shape v = Ok sh /\ ~ In axis (dkeys sh)) -> vec_concatenate vs axis = Err ValueError.
Proof. exact @vec_concatenate_missing. Qed.
Print Assumptions C89_missing_axis.

(** The exact domain and result of a stack of vectors and scalars. *)
Theorem C89_stack :
  forall (A L : Type) (t : tree L) (vs : list (vec A)) (axis : string),
  vs <> [] -> Forall vec_wf vs -> Forall filled vs -> tree_ok (fun _ => True) t -> merges t vs ->
  let fits p := forall os, scalars_at vs p os -> stackable axis os in
  ((forall p, leaf_at t p <> None -> fits p) -> exists r, vec_stack vs axis = Ok r /\ same_kind t r /\
     forall p os, leaf_at t p <> None -> scalars_at vs p os -> exists a, leaf_at r p = Some (OpArr a) /\ wf a /\ stacked os axis a) /\
  (~ (forall p, leaf_at t p <> None -> fits p) -> vec_stack vs axis = Err ValueError).
Proof. exact @vec_stack_spec. Qed.
Print Assumptions C89_stack.

(** Vectors of different types are refused. *)
Theorem C89_types :
  forall (A : Type) (b : bool) (vs : list (vec A)) (axis : string) (v w : vec A) t1 n1 t2 n2, In v vs -> In w vs ->
  kind v [] = Some (t1, n1) -> kind w [] = Some (t2, n2) -> t1 <> t2 -> vec_join b vs axis = Err TypeError.
Proof. exact @vec_join_types. Qed.
Print Assumptions C89_types.

Open Scope string_scope.

(** A vector with a component without the axis and a nested one, a scalar, and another vector
    whose component [x] is a scalar where the first has a vector. *)
Definition arr (sh : shape) (l : list nat) : vec nat := Leaf (OpArr (mkS (of_list 0 (map snd sh) l) (dkeys sh))).
Definition ex_a : vec nat := Node "V" [("x", Node "W" [("p", arr [("t", 2)] [1; 2]); ("q", Leaf (OpNum 3))]); ("y", arr [("u", 2)] [4; 5])].
Definition ex_b : vec nat := arr [("t", 1)] [6].
Definition ex_c : vec nat := Node "V" [("x", arr [("u", 2); ("t", 3)] [7; 8; 9; 10; 11; 12]); ("y", arr [("t", 1)] [13])].
Definition ex_t : tree unit := Node "V" [("x", Node "W" [("p", Leaf tt); ("q", Leaf tt)]); ("y", Leaf tt)].

Fixpoint show (fuel : nat) (t : vec nat) : list (list string * list nat) :=
  match fuel, t with
  | S fuel, Node _ cs => flat_map (fun kv => show fuel (snd kv)) cs
  | _, Leaf (OpArr a) => [(s_axes a, ravel (s_nd a))]
  | _, _ => []
  end.

Ltac names := repeat match goal with |- context [String.eqb ?a ?b] => destruct (String.eqb a b); cbn end.
Ltac nodup := repeat constructor; cbn; intuition discriminate.
Ltac members := let H := fresh in intros ? ? H; cbn in H; repeat destruct H as [H|H]; try contradiction; injection H as <- <-.
Ltac alike_ := intros p t1 n1 t2 n2;
  destruct p as [|c p]; cbn; [|names; destruct p as [|d p]; cbn; names; try (destruct p; cbn)];
  solve [discriminate | intros _; discriminate | intros [= <- <-] [= <- <-]; split; [reflexivity|tauto]].

Lemma ex_merges : merges ex_t [ex_a; ex_b; ex_c].
Proof.
  split.
  - intros v [<- |[<- |[<- |[]]]]; (split; [alike_|]);
      intros p; (destruct p as [|c p]; cbn; [|names; destruct p as [|d p]; cbn; names; try (destruct p; cbn)]); solve [congruence | discriminate].
  - intros p; destruct p as [|c p]; cbn; [|names; destruct p as [|d p]; cbn; names; try (destruct p; cbn)]; reflexivity.
Qed.

Lemma ex_scalars (P : list string -> list (operand nat) -> Prop) (vs : list (vec nat)) :
  (forall os, scalars_at vs ["x"; "p"] os -> P ["x"; "p"] os) -> (forall os, scalars_at vs ["x"; "q"] os -> P ["x"; "q"] os) ->
  (forall os, scalars_at vs ["y"] os -> P ["y"] os) ->
  forall p os, leaf_at ex_t p <> None -> scalars_at vs p os -> P p os.
Proof.
  intros H1 H2 H3 p os Hp. revert Hp. destruct p as [|c p]; cbn; [congruence|].
  destruct (String.eqb_spec c "x") as [-> |]; [|destruct (String.eqb_spec c "y") as [-> |]; [destruct p; cbn; [intros _; apply H3|congruence]|congruence]].
  destruct p as [|d p]; cbn; [congruence|].
  destruct (String.eqb_spec d "p") as [-> |]; [destruct p; cbn; [intros _; apply H1|congruence]|].
  destruct (String.eqb_spec d "q") as [-> |]; [destruct p; cbn; [intros _; apply H2|congruence]|congruence].
Qed.

(** no conflict when the computed shapes broadcast *)
Lemma no_conflict (l : list shape) : Forall (fun s => NoDup (dkeys s)) l -> (exists s, broadcast_shapes l = Ok s) -> ~ conflict l.
Proof. intros N (s & E) C. apply (ShapesFacts.broadcast_shapes_conflict l N) in C. congruence. Qed.

(** the hypotheses of the theorems *)
Example C89_example :
  Forall vec_wf [ex_a; ex_b; ex_c] /\ Forall filled [ex_a; ex_b; ex_c] /\ tree_ok (fun _ => True) ex_t /\ merges ex_t [ex_a; ex_b; ex_c] /\
  lengths [ex_a; ex_b; ex_c] "t" [2; 1; 3] /\
  (forall p os, leaf_at ex_t p <> None -> scalars_at [ex_a; ex_b; ex_c] p os -> ~ conflict (map (fun o => without (op_shape o) ["t"]) os)).
Proof.
  split; [|split; [|split; [|split; [exact ex_merges|split]]]].
  - repeat apply Forall_cons; try apply Forall_nil; repeat (constructor; [nodup|members]); constructor; try exact Logic.I; split; try reflexivity; nodup.
  - repeat apply Forall_cons; try apply Forall_nil; intros p ty ns; (destruct p as [|c p]; cbn; [|names; destruct p as [|d p]; cbn; names; try (destruct p; cbn)]); solve [discriminate | intros [= <- <-]; discriminate].
  - constructor; [nodup|members]; [constructor; [nodup|members]; constructor; exact Logic.I|constructor; exact Logic.I].
  - repeat constructor; eexists; (split; [vm_compute; reflexivity|]); cbn; auto.
  - apply ex_scalars; intros os Sc; unfold scalars_at in Sc;
      repeat match goal with H : Forall2 _ _ _ |- _ => inversion H; subst; clear H end;
      repeat match goal with H : reaches _ _ = Some _ |- _ => vm_compute in H; injection H as <- end;
      (apply no_conflict; [repeat constructor; cbn; intuition discriminate|eexists; vm_compute; reflexivity]).
Qed.

Example C89_example_values :
  (exists r, vec_concatenate [ex_a; ex_b; ex_c] "t" = Ok r /\
     show 3 r = [(["t"; "u"], [1; 1; 2; 2; 6; 6; 7; 10; 8; 11; 9; 12]); (["t"; "u"], [3; 3; 3; 3; 6; 6; 7; 10; 8; 11; 9; 12]);
                 (["u"; "t"], [4; 4; 6; 13; 13; 13; 5; 5; 6; 13; 13; 13])]) /\
  (exists r, vec_stack [ex_a; ex_b; Leaf (OpNum 9)] "s" = Ok r /\
     show 3 r = [(["s"; "t"], [1; 2; 6; 6; 9; 9]); (["s"; "t"], [3; 6; 9]); (["s"; "u"; "t"], [4; 5; 6; 6; 9; 9])]) /\
  vec_stack [ex_a; ex_b] "t" = Err ValueError /\
  vec_concatenate [ex_a; ex_b] "u" = Err ValueError /\
  vec_concatenate [ex_a; arr [("u", 3); ("t", 1)] [1; 2; 3]] "t" = Err ValueError.
Proof.
  split; [eexists; split; vm_compute; reflexivity|]. split; [eexists; split; vm_compute; reflexivity|]. vm_compute. auto.
Qed.
