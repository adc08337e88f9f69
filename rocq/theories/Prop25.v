(** C25: vector operations act component by component. *)
From Coq Require Import Ascii String List Arith ZArith Bool Lia.
From Verif Require Import Base Numpy Shapes Scalar Elementwise Vector Spec SpecVector ShapesFacts BaseFacts VectorFacts VectorIndexFacts.
Import ListNotations.
Open Scope nat_scope.
Open Scope list_scope.

(** Every leaf of the result is the scalar operation on the leaves that the
    arguments have at the same path; a scalar argument takes part in every
    component. *)
Theorem C25_ufunc_leaves :
  forall (A B : Type) (f : list A -> B) (inputs : list (vec A)) (r : vec B),
  Forall vec_wf inputs -> vec_ufunc f inputs = Ok r ->
  forall p o, leaf_at r p = Some o ->
  exists os, Forall2 (fun v x => reaches v p = Some x) inputs os /\ elementwise f os o.
Proof. exact @vec_ufunc_leaves. Qed.
Print Assumptions C25_ufunc_leaves.

(** The result has, at every path, the type and the component names of the first
    argument that is a vector there. *)
Theorem C25_ufunc_components :
  forall (A B : Type) (f : list A -> B) (inputs : list (vec A)) (r : vec B),
  vec_ufunc f inputs = Ok r -> pairwise_alike inputs ->
  forall p, kind r p = first_some (map (fun v => kind v p) inputs).
Proof. intros A B f inputs r. exact (@vec_ufunc_rec_kinds A B f (list_max (map depth inputs)) inputs r). Qed.
Print Assumptions C25_ufunc_components.

(** No leaf is lost. *)
Theorem C25_ufunc_all_leaves :
  forall (A B : Type) (f : list A -> B) (inputs : list (vec A)) (r : vec B),
  vec_ufunc f inputs = Ok r -> pairwise_alike inputs ->
  forall p os, Forall2 (fun v x => reaches v p = Some x) inputs os ->
  (exists v, In v inputs /\ leaf_at v p <> None) -> exists o, leaf_at r p = Some o.
Proof. exact @vec_ufunc_leaf_exists. Qed.
Print Assumptions C25_ufunc_all_leaves.

(** The operation succeeds when vectors at the same path have the same type and
    components and the shapes of the leaves at each path broadcast. *)
Theorem C25_ufunc_success :
  forall (A B : Type) (f : list A -> B) (inputs : list (vec A)),
  Forall vec_wf inputs -> pairwise_alike inputs ->
  (forall p os, Forall2 (fun v x => reaches v p = Some x) inputs os -> ~ conflict (op_shapes os)) ->
  exists r, vec_ufunc f inputs = Ok r.
Proof. exact @vec_ufunc_success. Qed.
Print Assumptions C25_ufunc_success.

(** Vectors of different types are refused. *)
Theorem C25_ufunc_types :
  forall (A B : Type) (f : list A -> B) (inputs : list (vec A)) ty cs ty' cs',
  In (Node ty cs) inputs -> In (Node ty' cs') inputs -> ty <> ty' ->
  vec_ufunc f inputs = Err TypeError.
Proof. exact @vec_ufunc_type_error. Qed.
Print Assumptions C25_ufunc_types.

(** The shape of a vector is the broadcast of the shapes of all its leaves,
    however they are nested, and is refused exactly when that one is. *)
Theorem C25_shape :
  forall (A : Type) (v : vec A), vec_wf v ->
  match vec_shape v, broadcast_shapes (map op_shape (leaves v)) with
  | Ok s, Ok s' => same_shape s s'
  | Err e, Err e' => e = e'
  | _, _ => False
  end.
Proof. exact @vec_shape_leaves. Qed.
Print Assumptions C25_shape.

(** Indexing by a dictionary indexes every leaf by its own indices. *)
Theorem C25_getitem :
  forall (A : Type) (v : vec A) (it : dict (tree item)) (r : vec A),
  items_suit v it -> vec_getitem v it = Ok r ->
  (forall p, kind r p = kind v p) /\ indexed v r it.
Proof. exact @vec_getitem_spec. Qed.
Print Assumptions C25_getitem.

Theorem C25_getitem_success :
  forall (A : Type) (v : vec A) (it : dict (tree item)),
  vec_wf v -> items_suit v it ->
  (forall p a d, leaf_at v p = Some (OpArr a) -> items_at it p d -> exists b, getitem a d = Ok b) ->
  exists r, vec_getitem v it = Ok r.
Proof. exact @vec_getitem_success. Qed.
Print Assumptions C25_getitem_success.

(** A scalar array indexed by vectors of indices gives one leaf for each of
    their components. *)
Theorem C25_scalar_getitem :
  forall (A : Type) (a : sarr A) (it : dict (tree item)) (r : vec A),
  vec_getitem (Leaf (OpArr a)) it = Ok r ->
  forall p o, leaf_at r p = Some o ->
  exists d b, items_at (filter (fun kv => smem (fst kv) (s_axes a)) it) p d /\
              getitem a d = Ok b /\ o = OpArr b.
Proof. exact @vec_getitem_scalar. Qed.
Print Assumptions C25_scalar_getitem.

(** Indexing by a mask selects, in every leaf, the positions where the mask is
    true, in row-major order of the mask; a leaf that lacks an axis of the mask,
    or has size one along it, is repeated. *)
Theorem C25_mask :
  forall (A : Type) (v r : vec A) (m : operand bool) (l : list (list nat)),
  vec_wf v -> op_wf m -> true_positions (normalize m) l -> vec_getitem_mask v (Leaf m) = Ok r ->
  (forall p, kind r p = kind v p) /\
  forall p, match leaf_at v p with
            | Some o => exists b, leaf_at r p = Some (OpArr b) /\ masked (normalize m) l o b /\
                forall ax, In ax (s_axes b) -> ax = mask_axis (s_axes (normalize m)) \/
                   exists o', In o' (leaves v) /\ In ax (dkeys (op_shape o'))
            | None => leaf_at r p = None
            end.
Proof. exact @vec_getitem_mask_spec. Qed.
Print Assumptions C25_mask.

Theorem C25_mask_success :
  forall (A : Type) (v : vec A) (m : operand bool) (sh : shape),
  vec_wf v -> op_wf m -> vec_shape v = Ok sh ->
  (forall ax n, In (ax, n) (op_shape m) -> In (ax, n) sh) ->
  (In (mask_axis (s_axes (normalize m))) (dkeys sh) ->
   In (mask_axis (s_axes (normalize m))) (s_axes (normalize m))) ->
  exists r, vec_getitem_mask v (Leaf m) = Ok r.
Proof. exact @vec_getitem_mask_success. Qed.
Print Assumptions C25_mask_success.

(** A vector of masks acts as the conjunction of its components. *)
Theorem C25_mask_vector :
  forall (A : Type) (v r : vec A) (ty : string) (cs : list (string * vec bool)) (ls : list (operand bool)),
  vec_wf v -> map snd cs = map Leaf ls -> Forall op_wf ls -> vec_getitem_mask v (Node ty cs) = Ok r ->
  accepts ty v = true /\
  exists m, wf m /\
    (exists s, broadcast_shapes (map op_shape ls) = Ok s /\ same_shape s (sshape m)) /\
    (forall e, inside e (sshape m) -> at_ m e = forallb (fun x => op_at x e) ls) /\
    vec_getitem_mask v (Leaf (OpArr m)) = Ok r.
Proof. exact @vec_masks. Qed.
Print Assumptions C25_mask_vector.

Open Scope string_scope.

(** a two-dimensional vector inside of a spectral vector, with leaves of
    different shapes and storage orders *)
Definition ex_a : sarr Z := mkS (of_list 0%Z [2; 3] [0; 1; 2; 10; 11; 12]%Z) ["x"; "y"].
Definition ex_b : sarr Z := mkS (of_list 0%Z [3; 2] [5; 6; 7; 8; 9; 4]%Z) ["y"; "x"].
Definition ex_c : sarr Z := mkS (of_list 0%Z [2] [100; 200]%Z) ["x"].
Definition ex_v : vec Z :=
  Node "Spectral" [("w", Leaf (OpArr ex_a));
                   ("p", Node "Cartesian2d" [("x", Leaf (OpArr ex_b)); ("y", Leaf (OpNum 7%Z))])].
(** the position part is a scalar *)
Definition ex_w : vec Z := Node "Spectral" [("w", Leaf (OpNum 1%Z)); ("p", Leaf (OpArr ex_c))].

Fixpoint show {A} (v : vec A) : list (string * (shape * list A)) :=
  match v with
  | Leaf (OpNum x) => [("", ([], [x]))]
  | Leaf (OpArr a) => [("", (sshape a, ravel (s_nd a)))]
  | Node _ cs => flat_map (fun kv => map (fun q => (fst kv ++ "/" ++ fst q, snd q)%string) (show (snd kv))) cs
  end.
Definition shows {A} (r : res (vec A)) := match r with Ok v => Some (show v) | Err _ => None end.
Definition add (l : list Z) : Z := fold_right Z.add 0%Z l.

Ltac wf_tac := repeat first [apply leaf_ok | apply node_ok; [repeat constructor; simpl; intuition discriminate|
   simpl; intros ? ? H; repeat (destruct H as [H|H]; [injection H as <- <-|]); [..|contradiction]]].

Example C25_example_wf : vec_wf ex_v /\ vec_wf ex_w.
Proof.
  split; wf_tac; try exact I; split; try reflexivity; repeat constructor; simpl; intuition discriminate.
Qed.

Example C25_example_alike : pairwise_alike [ex_v; ex_w; Leaf (OpNum 3%Z)].
Proof.
  intros v v' H H'. assert (P : forall (u : vec Z), In u [ex_v; ex_w; Leaf (OpNum 3%Z)] ->
    forall p k, kind u p = Some k -> (p = [] /\ k = ("Spectral", ["w"; "p"])) \/ (p = ["p"] /\ k = ("Cartesian2d", ["x"; "y"]))).
  { assert (L : forall p k, kind (@Leaf (operand Z) (OpNum 3%Z)) p <> Some k) by (intros [|] k; discriminate).
    assert (P2 : forall p k, kind (Node "Cartesian2d" [("x", Leaf (OpArr ex_b)); ("y", Leaf (OpNum 7%Z))]) p = Some k ->
                   p = [] /\ k = ("Cartesian2d", ["x"; "y"])).
    { intros [|c p] k K; [injection K as <-; auto|]. cbn [kind] in K.
      match type of K with match ?d with _ => _ end = _ => destruct d as [x|] eqn:D; [|discriminate] end.
      apply dget_In in D. destruct D as [D|[D|[]]]; injection D as <- <-; destruct p; discriminate. }
    intros u Hu [|c p] k K; (destruct Hu as [<- |[<- |[<- |[]]]]; [..|exfalso; exact (L _ _ K)]);
      [left; injection K as <-; auto..|cbn [kind ex_v ex_w] in K|cbn [kind ex_v ex_w] in K];
      match type of K with match ?d with _ => _ end = _ => destruct d as [x|] eqn:D; [|discriminate] end;
      apply dget_In in D; destruct D as [D|[D|[]]]; injection D as <- <-; try (destruct p; discriminate).
    right. destruct (P2 p k K) as [-> ->]. auto. }
  intros p ty n ty' n' K K'. apply (P v H) in K. apply (P v' H') in K'.
  destruct K as [[-> E]|[-> E]], K' as [[E1 E2]|[E1 E2]]; try discriminate; injection E as -> ->; injection E2 as -> ->;
    split; reflexivity || tauto.
Qed.

Example C25_example_ufunc :
  shows (vec_ufunc add [ex_v; ex_w; Leaf (OpNum 3%Z)]) =
  Some [("w/", ([("x", 2); ("y", 3)], [4; 5; 6; 14; 15; 16]%Z));
        ("p/x/", ([("y", 3); ("x", 2)], [108; 209; 110; 211; 112; 207]%Z));
        ("p/y/", ([("x", 2)], [110; 210]%Z))].
Proof. vm_compute. reflexivity. Qed.

Example C25_example_refused :
  vec_ufunc add [ex_v; Node "Cartesian2d" [("x", Leaf (OpNum 1%Z)); ("y", Leaf (OpNum 2%Z))]] = Err TypeError.
Proof. reflexivity. Qed.

(** the spectral and the position parts are indexed at different places *)
Example C25_example_getitem :
  shows (vec_getitem ex_v [("y", Node "Spectral" [("w", Leaf (ItInt (-1)%Z)); ("p", Leaf (ItSlice (mkSlice (Some 1%Z) None None)))]);
                           ("x", Leaf (ItInt 0%Z))]) =
  Some [("w/", ([], [2]%Z)); ("p/x/", ([("y", 2)], [7; 9]%Z)); ("p/y/", ([], [7]%Z))].
Proof. vm_compute. reflexivity. Qed.

Example C25_example_scalar_getitem :
  shows (vec_getitem (Leaf (OpArr ex_a)) [("y", Node "Cartesian2d" [("x", Leaf (ItInt 1%Z)); ("y", Leaf (ItInt 2%Z))])]) =
  Some [("x/", ([("x", 2)], [1; 11]%Z)); ("y/", ([("x", 2)], [2; 12]%Z))].
Proof. vm_compute. reflexivity. Qed.

Definition ex_m : sarr bool := mkS (of_list false [3; 2] [true; false; false; true; true; true]) ["y"; "x"].

Example C25_example_mask :
  shows (vec_getitem_mask ex_v (Leaf (OpArr ex_m))) =
  Some [("w/", ([("y*x", 4)], [0; 11; 2; 12]%Z)); ("p/x/", ([("y*x", 4)], [5; 8; 9; 4]%Z));
        ("p/y/", ([("y*x", 4)], [7; 7; 7; 7]%Z))].
Proof. vm_compute. reflexivity. Qed.

Example C25_example_mask_vector :
  shows (vec_getitem_mask ex_v
    (Node "Spectral" [("w", Leaf (OpArr ex_m)); ("p", Leaf (OpArr (mkS (of_list false [2] [false; true]) ["x"])))])) =
  Some [("w/", ([("y*x", 2)], [11; 12]%Z)); ("p/x/", ([("y*x", 2)], [8; 4]%Z)); ("p/y/", ([("y*x", 2)], [7; 7]%Z))].
Proof. vm_compute. reflexivity. Qed.
