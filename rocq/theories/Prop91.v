(** C91: where, clip and copyto of vectors. *)
From Coq Require Import String List Arith ZArith Bool Lia.
From Verif Require Import Base Numpy Shapes Scalar Elementwise Vector VectorChoice Spec SpecVector SpecVectorReduce SpecVectorChoice VectorChoiceFacts.
Import ListNotations.
Open Scope nat_scope.
Open Scope list_scope.

(** [np.where]: the condition and both values may be vectors or scalars; every scalar of the result
    takes its elements from the values for the same component, with the axes of all three. *)
Theorem C91_where :
  forall (A L : Type) (t : tree L) (c : vec bool) (x y : vec A),
  vec_wf c -> vec_wf x -> vec_wf y -> tree_ok (fun _ => True) t -> together t c x y ->
  let fits := forall p oc ox oy, leaf_at t p <> None -> reaches c p = Some oc -> reaches x p = Some ox -> reaches y p = Some oy ->
                ~ conflict [op_shape oc; op_shape ox; op_shape oy] in
  (fits -> exists r, vec_where c x y = Ok r /\ same_kind t r /\
     forall p oc ox oy, leaf_at t p <> None -> reaches c p = Some oc -> reaches x p = Some ox -> reaches y p = Some oy ->
       exists o, leaf_at r p = Some o /\ op_wf o /\ joint [op_shape oc; op_shape ox; op_shape oy] (op_shape o) /\
         (forall e, inside e (op_shape o) -> op_at o e = if op_at oc e then op_at ox e else op_at oy e) /\
         ((exists u, o = OpNum u) <-> (exists u, oc = OpNum u) /\ (exists u, ox = OpNum u) /\ (exists u, oy = OpNum u))) /\
  (~ fits -> vec_where c x y = Err ValueError).
Proof. exact @vec_where_spec. Qed.
Print Assumptions C91_where.

Theorem C91_where_types :
  forall (A : Type) (c : vec bool) (x y : vec A) ks t1 n1 t2 n2,
  ks = [kind c []; kind x []; kind y []] -> In (Some (t1, n1)) ks -> In (Some (t2, n2)) ks -> t1 <> t2 ->
  vec_where c x y = Err TypeError.
Proof. exact @vec_where_types. Qed.
Print Assumptions C91_where_types.

(** [np.clip], for any functions [minimum] and [maximum]; each bound may be missing, a scalar or a
    vector.  (Partial: the bounds must fit into the components, as for scalars; without [out].) *)
Theorem C91_clip_partial :
  forall (A : Type) (minimum maximum : A -> A -> A) (L : Type) (t : tree L) (a : vec A) (lo hi : option (vec A)),
  vec_wf a -> bound_wf lo -> bound_wf hi -> tree_ok (fun _ => True) t -> together t a (bounds lo) (bounds hi) ->
  let fits := forall p o l h, leaf_at t p <> None -> reaches a p = Some o -> reaches (bounds lo) p = Some l -> reaches (bounds hi) p = Some h ->
                bound_fits l (op_shape o) /\ bound_fits h (op_shape o) in
  (fits -> exists r, vec_clip minimum maximum a lo hi = Ok r /\ same_kind t r /\
     forall p o l h, leaf_at t p <> None -> reaches a p = Some o -> reaches (bounds lo) p = Some l -> reaches (bounds hi) p = Some h ->
       exists q, leaf_at r p = Some q /\ op_wf q /\ op_shape q = op_shape o /\
         forall e, inside e (op_shape q) -> op_at q e = clipped minimum maximum (op_at o e) l h e) /\
  (~ fits -> vec_clip minimum maximum a lo hi = Err ValueError).
Proof. exact @vec_clip_spec. Qed.
Print Assumptions C91_clip_partial.

Theorem C91_clip_types :
  forall (A : Type) (minimum maximum : A -> A -> A) (a : vec A) (lo hi : option (vec A)) ks t1 n1 t2 n2,
  ks = [kind a []; kind (bounds lo) []; kind (bounds hi) []] -> In (Some (t1, n1)) ks -> In (Some (t2, n2)) ks -> t1 <> t2 ->
  vec_clip minimum maximum a lo hi = Err TypeError.
Proof. exact @vec_clip_types. Qed.
Print Assumptions C91_clip_types.

(** [np.copyto]: the elements where the mask is true are replaced.  If something does not fit there
    is a [ValueError], and every component is either replaced or as it was.  (Partial: for a mask
    that is a scalar and a destination without plain numbers, whose structure the source has; see
    the refutations.) *)
Theorem C91_copyto_partial :
  forall (A : Type) (dst src : vec A) (m : operand bool),
  stored dst -> vec_wf src -> op_wf m -> suits dst src ->
  let fits := forall p a s, leaf_at dst p = Some (OpArr a) -> reaches src p = Some s -> op_fits s (sshape a) /\ op_fits m (sshape a) in
  let r := fst (vec_copyto dst src (Leaf m)) in
  let e := snd (vec_copyto dst src (Leaf m)) in
  same_kind dst r /\ (e = None \/ e = Some ValueError) /\ (e = None <-> fits) /\
  forall p a s, leaf_at dst p = Some (OpArr a) -> reaches src p = Some s ->
    exists b, leaf_at r p = Some (OpArr b) /\
      (wf b /\ sshape b = sshape a /\ (forall e, at_ b e = if op_at m e then op_at s e else at_ a e) \/ e = Some ValueError /\ b = a).
Proof. exact @vec_copyto_spec. Qed.
Print Assumptions C91_copyto_partial.

Theorem C91_copyto_types :
  forall (A : Type) (dst src : vec A) (w : vec bool) t1 n1 t2 n2,
  kind dst [] = Some (t1, n1) -> kind src [] = Some (t2, n2) -> t1 <> t2 -> vec_copyto dst src w = (dst, Some TypeError).
Proof. exact @vec_copyto_types. Qed.
Print Assumptions C91_copyto_types.

Open Scope string_scope.
Definition ex_x : sarr Z := mkS (of_list 0%Z [2] [1; 2]%Z) ["a"].
Definition ex_y : sarr Z := mkS (of_list 0%Z [3] [10; 20; 30]%Z) ["b"].
Definition ex_m : sarr bool := mkS (of_list false [2] [true; false]) ["a"].
Definition ex_v : vec Z := Node "Spectral" [("w", Leaf (OpArr ex_x)); ("pos", Node "Cartesian2d" [("x", Leaf (OpArr ex_y)); ("y", Leaf (OpArr ex_x))])].
Definition ex_c : vec bool := Node "Spectral" [("w", Leaf (OpArr ex_m)); ("pos", Leaf (OpNum false))].

Lemma C91_x_wf : wf ex_x.
Proof. split; [repeat constructor; simpl; intuition discriminate|reflexivity]. Qed.
Lemma C91_y_wf : wf ex_y.
Proof. split; [repeat constructor; simpl; intuition discriminate|reflexivity]. Qed.
Lemma C91_m_wf : wf ex_m.
Proof. split; [repeat constructor; simpl; intuition discriminate|reflexivity]. Qed.

Example C91_example_where :
  exists r w x y, vec_where ex_c (Leaf (OpNum 7%Z)) ex_v = Ok r /\
    leaf_at r ["w"] = Some (OpArr w) /\ ravel (s_nd w) = [7; 2]%Z /\
    leaf_at r ["pos"; "x"] = Some (OpArr x) /\ ravel (s_nd x) = [10; 20; 30]%Z /\
    leaf_at r ["pos"; "y"] = Some (OpArr y) /\ ravel (s_nd y) = [1; 2]%Z.
Proof. do 4 eexists. vm_compute. auto 10. Qed.

Example C91_example_where_hypotheses :
  vec_wf ex_c /\ vec_wf ex_v /\ tree_ok (fun _ => True) ex_v /\ together ex_v ex_c (Leaf (OpNum 7%Z)) ex_v.
Proof.
  assert (W : vec_wf ex_v).
  { assert (X := C91_x_wf). assert (Y := C91_y_wf). apply node_ok; [repeat constructor; simpl; intuition discriminate|].
    intros c x [[= <- <-]|[[= <- <-]|[]]]; [now apply leaf_ok|]. apply node_ok; [repeat constructor; simpl; intuition discriminate|].
    intros c x [[= <- <-]|[[= <- <-]|[]]]; now apply leaf_ok. }
  split; [|split; [exact W|split]].
  - assert (X := C91_m_wf). apply node_ok; [repeat constructor; simpl; intuition discriminate|].
    intros c x [[= <- <-]|[[= <- <-]|[]]]; [now apply leaf_ok|now apply leaf_ok].
  - apply node_ok; [repeat constructor; simpl; intuition discriminate|].
    intros c x [[= <- <-]|[[= <- <-]|[]]]; [now apply leaf_ok|]. apply node_ok; [repeat constructor; simpl; intuition discriminate|].
    intros c x [[= <- <-]|[[= <- <-]|[]]]; now apply leaf_ok.
  - split; [|split; [|split]].
    + split.
      * intros [|c [|d p]]; cbn [kind ex_v ex_c dget]; [intros ? ? ? ? [= <- <-] [= <- <-]; simpl; tauto| |].
        all: repeat match goal with |- context [String.eqb ?a ?b] => destruct (String.eqb a b); cbn [kind] end; try discriminate; destruct p; discriminate.
      * intros [|c [|d p]]; cbn [leaf_at reaches ex_v ex_c dget]; try congruence.
        all: repeat match goal with |- context [String.eqb ?a ?b] => destruct (String.eqb a b); cbn [reaches leaf_at] end; congruence.
    + split; [intros [|]; discriminate|intros [|]; discriminate].
    + split; [intros p t1 n1 t2 n2 E1 E2; rewrite E1 in E2; injection E2 as <- <-; tauto|].
      intros p H. destruct (leaf_at ex_v p) as [o|] eqn:E; [|congruence]. rewrite (leaf_reach ex_v p o E). discriminate.
    + intros [|c [|d p]]; cbn [kind ex_v ex_c dget first_some]; [reflexivity| |].
      all: repeat match goal with |- context [String.eqb ?a ?b] => destruct (String.eqb a b); cbn [kind first_some] end; try reflexivity; match goal with |- ?a = _ => destruct a; reflexivity end.
Qed.

Example C91_example_where_conflict :
  vec_where ex_c (Node "Spectral" [("w", Leaf (OpArr (mkS (of_list 0%Z [3] [1; 2; 3]%Z) ["a"]))); ("pos", Leaf (OpNum 0%Z))]) ex_v = Err ValueError.
Proof. vm_compute. reflexivity. Qed.

Example C91_example_where_types :
  vec_where ex_c (Node "Cartesian2d" [("x", Leaf (OpNum 0%Z)); ("y", Leaf (OpNum 0%Z))]) (Leaf (OpNum 0%Z)) = Err TypeError.
Proof. vm_compute. reflexivity. Qed.

Example C91_example_clip :
  exists r w x y, vec_clip Z.min Z.max ex_v (Some (Node "Spectral" [("w", Leaf (OpNum 2%Z)); ("pos", Leaf (OpNum 15%Z))])) (Some (Leaf (OpNum 25%Z))) = Ok r /\
    leaf_at r ["w"] = Some (OpArr w) /\ ravel (s_nd w) = [2; 2]%Z /\
    leaf_at r ["pos"; "x"] = Some (OpArr x) /\ ravel (s_nd x) = [15; 20; 25]%Z /\
    leaf_at r ["pos"; "y"] = Some (OpArr y) /\ ravel (s_nd y) = [15; 15]%Z.
Proof. do 4 eexists. vm_compute. auto 10. Qed.

(** numbers with one bound and with two *)
Example C91_example_clip_numbers :
  vec_clip Z.min Z.max (Leaf (OpNum 5%Z)) (Some (Node "Cartesian2d" [("x", Leaf (OpNum 7%Z)); ("y", Leaf (OpNum 1%Z))])) None
    = Ok (Node "Cartesian2d" [("x", Leaf (OpNum 7%Z)); ("y", Leaf (OpNum 5%Z))]) /\
  vec_clip Z.min Z.max (Leaf (OpNum 5%Z)) (Some (Node "Cartesian2d" [("x", Leaf (OpNum 7%Z)); ("y", Leaf (OpNum 1%Z))])) (Some (Leaf (OpNum 3%Z)))
    = Ok (Node "Cartesian2d" [("x", Leaf (OpNum 3%Z)); ("y", Leaf (OpNum 3%Z))]).
Proof. vm_compute. auto. Qed.

(** A vector whose components have different axes can not be clipped with one bound that has an
    axis, although [minimum] and [maximum] can be used. *)
Theorem C91_clip_broadcast_refuted :
  exists (v b r : vec Z), vec_wf v /\ vec_wf b /\
    vec_ufunc (fun l => Z.max (nth 0 l 0%Z) (nth 1 l 0%Z)) [v; b] = Ok r /\
    vec_clip Z.min Z.max v (Some b) None = Err ValueError.
Proof.
  exists (Node "Cartesian2d" [("x", Leaf (OpArr ex_x)); ("y", Leaf (OpNum 0%Z))]), (Leaf (OpArr ex_x)). eexists.
  split; [|split; [|split; vm_compute; reflexivity]].
  - apply node_ok; [repeat constructor; simpl; intuition discriminate|]. intros c x [[= <- <-]|[[= <- <-]|[]]]; apply leaf_ok; [exact C91_x_wf|exact Logic.I].
  - apply leaf_ok. exact C91_x_wf.
Qed.
Print Assumptions C91_clip_broadcast_refuted.

Definition ex_dst : vec Z := Node "Cartesian2d" [("x", Leaf (OpArr ex_x)); ("y", Leaf (OpArr ex_x))].

Lemma C91_dst_stored : stored ex_dst.
Proof.
  apply node_ok; [repeat constructor; simpl; intuition discriminate|]. intros c x [[= <- <-]|[[= <- <-]|[]]]; apply leaf_ok; exists ex_x; (split; [reflexivity|exact C91_x_wf]).
Qed.

Example C91_example_copyto :
  exists r x y, vec_copyto ex_dst (Node "Cartesian2d" [("x", Leaf (OpNum 5%Z)); ("y", Leaf (OpNum 6%Z))]) (Leaf (OpArr ex_m)) = (r, None) /\
    leaf_at r ["x"] = Some (OpArr x) /\ ravel (s_nd x) = [5; 2]%Z /\
    leaf_at r ["y"] = Some (OpArr y) /\ ravel (s_nd y) = [6; 2]%Z.
Proof. do 3 eexists. vm_compute. auto 10. Qed.

Example C91_example_copyto_hypotheses :
  stored ex_dst /\ suits ex_dst (Node "Cartesian2d" [("x", Leaf (OpNum 5%Z)); ("y", Leaf (OpNum 6%Z))]) /\ op_wf (OpArr ex_m).
Proof.
  split; [exact C91_dst_stored|]. split; [split|exact C91_m_wf].
  - intros [|c p]; cbn [kind ex_dst dget]; [intros ? ? ? ? [= <- <-] [= <- <-]; simpl; tauto|].
    repeat match goal with |- context [String.eqb ?a ?b] => destruct (String.eqb a b); cbn [kind] end; try discriminate; destruct p; discriminate.
  - intros [|c p]; cbn [leaf_at reaches ex_dst dget]; [congruence|].
    repeat match goal with |- context [String.eqb ?a ?b] => destruct (String.eqb a b); cbn [reaches leaf_at] end; destruct p; cbn; congruence.
Qed.

(** A mask that is a vector of the same type, with a mask for each component, is always refused. *)
Theorem C91_copyto_vector_mask_refuted :
  (forall (A : Type) (dst src : vec A) (w : vec bool) k, kind w [] = Some k -> vec_copyto dst src w = (dst, Some TypeError)) /\
  exists (dst src : vec Z) (w : vec bool) k, stored dst /\ same_kind dst src /\ same_kind dst w /\ kind w [] = Some k /\
    (forall p a m, leaf_at dst p = Some (OpArr a) -> leaf_at w p = Some m -> op_fits m (sshape a)) /\
    vec_copyto dst src w = (dst, Some TypeError).
Proof.
  split; [exact @vec_copyto_vector_mask|].
  exists ex_dst, ex_dst, (Node "Cartesian2d" [("x", Leaf (OpArr ex_m)); ("y", Leaf (OpArr ex_m))]). eexists.
  split; [exact C91_dst_stored|]. split; [split; reflexivity|]. split; [split|].
  - intros [|c p]; cbn [kind ex_dst dget]; [reflexivity|]. repeat match goal with |- context [String.eqb ?a ?b] => destruct (String.eqb a b); cbn [kind] end; destruct p; reflexivity.
  - intros [|c p]; cbn [leaf_at ex_dst dget]; [tauto|]. repeat match goal with |- context [String.eqb ?a ?b] => destruct (String.eqb a b); cbn [leaf_at] end; try tauto; destruct p; cbn; split; congruence.
  - split; [reflexivity|]. split; [|reflexivity].
    assert (F : op_fits (OpArr ex_m) (sshape ex_x)) by (intros ax n H; exists n; split; [exact H|now right]).
    intros [|c p] a m; cbn [leaf_at ex_dst dget]; [discriminate|].
    repeat match goal with |- context [String.eqb ?a ?b] => destruct (String.eqb a b); cbn [leaf_at] end; try discriminate; destruct p; try discriminate; intros [= <-] [= <-]; exact F.
Qed.
Print Assumptions C91_copyto_vector_mask_refuted.

(** A component that is a plain number is replaced although the mask is false. *)
Theorem C91_copyto_number_refuted :
  exists (dst src r : vec Z), vec_wf dst /\ vec_wf src /\ same_kind dst src /\
    vec_copyto dst src (Leaf (OpNum false)) = (r, None) /\ leaf_at dst ["x"] = Some (OpNum 1%Z) /\ leaf_at r ["x"] = Some (OpNum 5%Z).
Proof.
  exists (Node "Cartesian2d" [("x", Leaf (OpNum 1%Z)); ("y", Leaf (OpNum 2%Z))]), (Node "Cartesian2d" [("x", Leaf (OpNum 5%Z)); ("y", Leaf (OpNum 6%Z))]). eexists.
  split; [|split; [|split; [split|split; [|split]; vm_compute; reflexivity]]].
  1, 2: apply node_ok; [repeat constructor; simpl; intuition discriminate|]; intros c x [[= <- <-]|[[= <- <-]|[]]]; apply leaf_ok; exact Logic.I.
  - intros [|c p]; cbn [kind dget]; [reflexivity|]. repeat match goal with |- context [String.eqb ?a ?b] => destruct (String.eqb a b); cbn [kind] end; destruct p; reflexivity.
  - intros [|c p]; cbn [leaf_at dget]; [tauto|]. repeat match goal with |- context [String.eqb ?a ?b] => destruct (String.eqb a b); cbn [leaf_at] end; try tauto; destruct p; cbn; split; congruence.
Qed.
Print Assumptions C91_copyto_number_refuted.

(** A component that is a vector of another type than that of the source is replaced, mask and all,
    although the same call for this component alone is refused. *)
Theorem C91_copyto_types_refuted :
  exists (dst src r : vec Z) d s, vec_wf dst /\ vec_wf src /\
    component "pos" dst = Ok d /\ component "pos" src = Ok s /\ vec_copyto d s (Leaf (OpNum false)) = (d, Some TypeError) /\
    vec_copyto dst src (Leaf (OpNum false)) = (r, None) /\ component "pos" r = Ok s /\ d <> s.
Proof.
  exists (Node "Positional" [("pos", Node "Cartesian2d" [("x", Leaf (OpNum 1%Z)); ("y", Leaf (OpNum 2%Z))])]),
         (Node "Positional" [("pos", Node "Cartesian1d" [("x", Leaf (OpNum 5%Z))])]).
  do 3 eexists. split; [|split].
  1, 2: apply node_ok; [repeat constructor; simpl; intuition discriminate|]; intros c x [[= <- <-]|[]];
    apply node_ok; [repeat constructor; simpl; intuition discriminate|]; intros c x H;
    repeat (destruct H as [[= <- <-]|H]; [apply leaf_ok; exact Logic.I|]); destruct H.
  do 5 (split; [vm_compute; reflexivity|]). discriminate.
Qed.
Print Assumptions C91_copyto_types_refuted.

(** When a later component does not fit the earlier ones are already changed. *)
Theorem C91_copyto_unchanged_refuted :
  exists (dst src r : vec Z) a, stored dst /\ vec_copyto dst src (Leaf (OpNum true)) = (r, Some ValueError) /\
    leaf_at dst ["x"] = Some (OpArr ex_x) /\ leaf_at r ["x"] = Some (OpArr a) /\ ravel (s_nd ex_x) = [1; 2]%Z /\ ravel (s_nd a) = [5; 5]%Z.
Proof.
  exists ex_dst, (Node "Cartesian2d" [("x", Leaf (OpNum 5%Z)); ("y", Leaf (OpArr ex_y))]). do 2 eexists. split; [exact C91_dst_stored|].
  vm_compute. auto 10.
Qed.
Print Assumptions C91_copyto_unchanged_refuted.
