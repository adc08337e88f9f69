(** Proofs about choosing elements of vectors. *)
From Coq Require Import String List Arith ZArith Bool Lia.
From Verif Require Import Base BaseFacts Numpy NumpyFacts Shapes ShapesFacts Scalar Elementwise ElementwiseFacts Vector Matrix VectorChoice
  Spec SpecVector SpecVectorReduce SpecVectorStack SpecVectorChoice AlignFacts FuncOpsFacts SortingFacts VectorFacts VectorIndexFacts MatrixFacts VectorAlongFacts VectorReduceFacts VectorStackFacts.
Import ListNotations.
Open Scope nat_scope.
Open Scope list_scope.

Lemma first_kind' {L} (vs : list (tree L)) :
  match first_node vs with
  | Some (ty, cs) => first_some (map (fun v => kind v []) vs) = Some (ty, map fst cs) /\ In (Node ty cs) vs
  | None => first_some (map (fun v => kind v []) vs) = None
  end.
Proof.
  induction vs as [|[x|ty cs] vs IH]; unfold first_node in *; cbn [flat_map app map kind]; [reflexivity| |].
  - rewrite first_some_cons. destruct (flat_map _ vs) as [|[ty cs] l]; cbn in *; [exact IH|]. destruct IH as [E H]. auto.
  - cbn. auto.
Qed.

(** ** Arguments with the same structure *)
Section Zip.
Context {L M N : Type} (F : list L -> res M) (er : err).

Lemma zip_rec_ok fuel : forall (t : tree N) (vs : list (tree L)) (R : list string -> M -> Prop) (Bad : list string -> Prop),
  tree_ok (fun _ => True) t -> Forall (fun v => depth v <= fuel) vs -> merges t vs ->
  (forall p os, leaf_at t p <> None -> scalars_at vs p os -> (exists r, F os = Ok r /\ R p r) \/ F os = Err er /\ Bad p) ->
  (exists r, zip_rec fuel F vs = Ok r /\ same_kind t r /\
    forall p, leaf_at t p <> None -> exists a, leaf_at r p = Some a /\ R p a) \/
  zip_rec fuel F vs = Err er /\ exists p, leaf_at t p <> None /\ Bad p.
Proof.
  induction fuel as [|fuel IH]; intros t vs R Bad T D (Su & Kd) H; (destruct t as [l|ty ts]).
  1, 3: assert (X : exists os, vs = map Leaf os);
    [clear - Su; induction vs as [|v vs IHz]; [now exists []|];
      destruct IHz as (os & E); [intros v' Hv; apply Su; now right|];
      destruct (Su v (or_introl eq_refl)) as [_ Re]; specialize (Re [] ltac:(discriminate));
      destruct v as [o|]; [|exfalso; now apply Re]; exists (o :: os); cbn [map]; now rewrite E|];
    destruct X as (os & E); assert (Y := proj2 (first_node_None _) (ex_intro _ os E));
    destruct (H [] os) as [(r & Er & Hr)|(Er & Hb)];
    [discriminate
    |subst vs; clear; unfold scalars_at; induction os as [|o os IHo]; cbn [map]; constructor; [reflexivity|exact IHo]
    | |];
    cbn [zip_rec]; rewrite Y, E, leaves_of_Leaf, Er; cbn [bind];
    [left; eexists; split; [reflexivity|]; split;
     [split; [intros [|]; reflexivity|intros [|]; cbn; split; congruence]|];
     intros [|c p] Hp; [exists r; auto|now elim Hp]
    |right; split; [reflexivity|]; exists []; split; [discriminate|exact Hb]].
  - exfalso. assert (X := first_kind' vs). rewrite <- Kd in X. destruct (first_node vs) as [[ty' cs]|]; [|discriminate].
    destruct X as [_ X]. rewrite Forall_forall in D. specialize (D _ X). cbn in D. lia.
  - assert (X := first_kind' vs). rewrite <- Kd in X. cbn [zip_rec]. destruct (first_node vs) as [[ty' cs]|] eqn:Fn; [|discriminate].
    destruct X as [X Xin]. cbn [kind] in X. injection X as <- Names.
    assert (Acc : forallb (accepts ty) vs = true) by (apply forallb_forall; intros v Hv; exact (suits_accepts ty ts v (Su v Hv))).
    rewrite Acc. cbn [negb].
    inversion T as [|? ? Nt Tc]; subst.
    assert (Child : forall c x, dget ts c = Some x -> exists xs, mapM (component c) vs = Ok xs /\
        ((exists r, zip_rec fuel F xs = Ok r /\ same_kind x r /\
          forall p, leaf_at x p <> None -> exists a, leaf_at r p = Some a /\ R (c :: p) a) \/
         zip_rec fuel F xs = Err er /\ exists p, leaf_at x p <> None /\ Bad (c :: p))).
    { intros c x Dx. assert (Hx := dget_In _ _ _ Dx).
      assert (Cs : exists xs, Forall2 (fun b y => component c b = Ok y) vs xs).
      { clear - Su Hx. induction vs as [|b bs IHb]; [exists []; constructor|]. destruct IHb as (xs & G); [intros b' Hb; apply Su; now right|].
        destruct (suits_exists ty ts c x b Hx (Su b (or_introl eq_refl))) as (y & E). exists (y :: xs). now constructor. }
      destruct Cs as (xs & C). exists xs. split; [now apply mapM_ok_intro|].
      apply (IH x xs (fun p => R (c :: p)) (fun p => Bad (c :: p))).
      - exact (Tc c x Hx).
      - clear - D C. revert D. induction C as [|b y vs xs Ey C IHc]; intros D; inversion D as [|? ? Db D']; subst; constructor; [|now apply IHc].
        destruct b as [o|ty cs]; cbn [component] in Ey; [injection Ey as <-; cbn; lia|].
        destruct (dget cs c) as [y'|] eqn:Dy; [|discriminate]. injection Ey as ->. assert (X := depth_In ty cs c y (dget_In _ _ _ Dy)). lia.
      - split.
        + intros y Hy. destruct (Forall2_in_r _ _ _ y C Hy) as (b & Hb & Ey). exact (suits_component ty ts c x b y Dx (Su b Hb) Ey).
        + intros p. assert (K := Kd (c :: p)). cbn [kind] in K. rewrite Dx in K. rewrite K. f_equal. clear - C.
          induction C as [|b y vs xs Ey C IHc]; [reflexivity|]. cbn [map]. f_equal; [|exact IHc]. exact (component_kind c b y p Ey).
      - intros p os Hp G. apply (H (c :: p) os); [cbn [leaf_at]; now rewrite Dx|]. clear - C G. revert os G. unfold scalars_at.
        induction C as [|b y vs xs Ey C IHc]; intros os G; inversion G as [|? o ? os' Ro G']; subst; constructor; [|now apply IHc].
        rewrite <- Ro. exact (component_reaches c b y p Ey). }
    assert (Dk : forall c, dget cs c = None <-> dget ts c = None).
    { intros c. rewrite !dget_None. unfold dkeys. rewrite Names. tauto. }
    destruct (on_components_or (fun c (_ : tree L) => xs <- mapM (component c) vs ;; zip_rec fuel F xs) er
        (fun c => exists p, leaf_at (Node ty ts) (c :: p) <> None /\ Bad (c :: p)) cs) as [(qs & Eq)|(Eq & c & _ & p & Hp)].
    { intros c y Hy. destruct (dget ts c) as [x|] eqn:Dx.
      - destruct (Child c x Dx) as (xs & Ex & [(r & Er & _)|(Er & p & Hp)]); rewrite Ex; cbn [bind]; [left; eauto|right].
        split; [exact Er|]. exists p. cbn [leaf_at]. now rewrite Dx.
      - exfalso. apply Dk in Dx. apply dget_None in Dx. apply Dx. exact (in_map fst _ _ Hy). }
    2:{ right. rewrite Eq. split; [reflexivity|]. exists (c :: p). exact Hp. }
    left. rewrite Eq. cbn [bind]. eexists. split; [reflexivity|]. destruct (on_components_get _ _ _ Eq) as (Nq & Gq).
    assert (Q : forall c, match dget ts c, dget qs c with Some x, Some r => same_kind x r /\ forall p, leaf_at x p <> None -> exists a, leaf_at r p = Some a /\ R (c :: p) a | None, None => True | _, _ => False end).
    { intros c. specialize (Gq c). destruct (dget ts c) as [x|] eqn:Dx.
      - destruct (dget cs c) as [y|] eqn:Dy; [|apply Dk in Dy; congruence]. destruct (dget qs c) as [q|]; [|contradiction].
        destruct (Child c x Dx) as (xs & Ex & [(r & Er & Hr)|(Er & _)]); rewrite Ex in Gq; cbn [bind] in Gq; [|congruence]. assert (r = q) by congruence. subst q. exact Hr.
      - apply Dk in Dx. rewrite Dx in Gq. destruct (dget qs c); [contradiction|exact Logic.I]. }
    split; [split|].
    + intros [|c p]; cbn [kind]; [congruence|]. specialize (Q c). destruct (dget ts c), (dget qs c); try contradiction; [|reflexivity]. apply Q.
    + intros [|c p]; cbn [leaf_at]; [tauto|]. specialize (Q c). destruct (dget ts c), (dget qs c); try contradiction; [|tauto]. apply Q.
    + intros [|c p] Hp; cbn [leaf_at] in *; [now elim Hp|]. specialize (Q c). destruct (dget ts c), (dget qs c); try contradiction. now apply Q.
Qed.

Lemma zip_trees_ok (t : tree N) (vs : list (tree L)) : tree_ok (fun _ => True) t -> merges t vs ->
  (forall p os, leaf_at t p <> None -> scalars_at vs p os -> (exists r, F os = Ok r) \/ F os = Err er) ->
  (exists r, zip_trees F vs = Ok r /\ same_kind t r /\
    forall p os, leaf_at t p <> None -> scalars_at vs p os -> exists a, leaf_at r p = Some a /\ F os = Ok a) \/
  zip_trees F vs = Err er /\ exists p os, leaf_at t p <> None /\ scalars_at vs p os /\ F os = Err er.
Proof.
  intros T Mg H. destruct (zip_rec_ok (list_max (map depth vs)) t vs (fun p a => exists os, scalars_at vs p os /\ F os = Ok a)
    (fun p => exists os, scalars_at vs p os /\ F os = Err er) T) as [(r & Er & Kr & Hr)|(Er & p & Hp & os & S & E)].
  - apply Forall_forall. intros v Hv. apply list_max_In. now apply in_map.
  - exact Mg.
  - intros p os Hp S. destruct (H p os Hp S) as [(r & E)|E]; [left; exists r|right]; eauto.
  - left. exists r. split; [exact Er|]. split; [exact Kr|]. intros p os Hp S. destruct (Hr p Hp) as (a & La & os' & S' & E).
    exists a. now rewrite (scalars_unique vs p os os' S S').
  - right. split; [exact Er|]. exists p, os. auto.
Qed.

Lemma zip_trees_types (vs : list (tree L)) (v w : tree L) t1 n1 t2 n2 : In v vs -> In w vs ->
  kind v [] = Some (t1, n1) -> kind w [] = Some (t2, n2) -> t1 <> t2 -> zip_trees F vs = Err TypeError.
Proof.
  intros Hv Hw Kv Kw D. destruct v as [|ty1 cs1]; [discriminate|]. destruct w as [|ty2 cs2]; [discriminate|]. cbn [kind] in Kv, Kw.
  injection Kv as -> _. injection Kw as -> _. unfold zip_trees.
  destruct (leaf_or_node vs) as [(xs & E & _)|(ty & cs & xs & l & E & Fn)].
  { exfalso. rewrite E in Hv. apply in_map_iff in Hv. destruct Hv as (x & Q & _). discriminate. }
  destruct (list_max (map depth vs)) as [|fuel] eqn:El.
  { exfalso. assert (Z := list_max_In _ _ (in_map depth _ _ Hv)). cbn [depth] in Z. lia. }
  cbn [zip_rec]. rewrite Fn.
  assert (Acc : forallb (accepts ty) vs = false).
  { destruct (forallb (accepts ty) vs) eqn:Q; [|reflexivity]. exfalso. rewrite forallb_forall in Q. assert (Q1 := Q _ Hv). assert (Q2 := Q _ Hw).
    cbn [accepts] in Q1, Q2. apply String.eqb_eq in Q1, Q2. congruence. }
  now rewrite Acc.
Qed.
End Zip.

Lemma map_tree_reaches {L M} (f : L -> M) (t : tree L) p : reaches (map_tree f t) p = option_map f (reaches t p).
Proof.
  revert p. induction t as [l|ty cs IH] using tree_rect'; intros [|c p]; try reflexivity; simpl.
  rewrite (dget_map_snd (map_tree f)). destruct (dget cs c) as [x|] eqn:D; [|reflexivity]. simpl. apply dget_In in D. now apply (IH c x).
Qed.

Lemma map_tree_suits {L M N} (f : M -> N) (t : tree L) (v : tree M) : suits t v -> suits t (map_tree f v).
Proof.
  intros (Al & Re). split.
  - intros p t1 n1 t2 n2 K1 K2. rewrite map_tree_kind in K2. exact (Al p t1 n1 t2 n2 K1 K2).
  - intros p Hp. rewrite map_tree_reaches. specialize (Re p Hp). destruct (reaches v p); [discriminate|congruence].
Qed.

Lemma scalars3 {X} (a b c : tree X) p os : scalars_at [a; b; c] p os ->
  exists x y z, os = [x; y; z] /\ reaches a p = Some x /\ reaches b p = Some y /\ reaches c p = Some z.
Proof. intros S. inversion S as [|? x ? l1 E1 S1]; subst. inversion S1 as [|? y ? l2 E2 S2]; subst. inversion S2 as [|? z ? l3 E3 S3]; subst. inversion S3; subst. exists x, y, z. auto. Qed.

Lemma mapped {X Y} (f : X -> Y) (v : tree X) p y : reaches (map_tree f v) p = Some y -> exists x, reaches v p = Some x /\ y = f x.
Proof. rewrite map_tree_reaches. destruct (reaches v p) as [x|]; [|discriminate]. intros [= <-]. eauto. Qed.

(** ** where *)
Lemma where_leaf_spec {A} (c : operand bool) (x y : operand A) : op_wf c -> op_wf x -> op_wf y ->
  (~ conflict [op_shape c; op_shape x; op_shape y] ->
   exists o, where_leaf [AFlag c; AVal x; AVal y] = Ok o /\ op_wf o /\ joint [op_shape c; op_shape x; op_shape y] (op_shape o) /\
     (forall e, inside e (op_shape o) -> op_at o e = if op_at c e then op_at x e else op_at y e) /\
     ((exists u, o = OpNum u) <-> (exists u, c = OpNum u) /\ (exists u, x = OpNum u) /\ (exists u, y = OpNum u))) /\
  (conflict [op_shape c; op_shape x; op_shape y] -> where_leaf [AFlag c; AVal x; AVal y] = Err ValueError).
Proof.
  intros Wc Wx Wy. assert (Ns : Forall (fun s : shape => NoDup (dkeys s)) [op_shape c; op_shape x; op_shape y]) by (repeat constructor; now apply op_nodup').
  assert (S := where_spec c x y Wc Wx Wy). assert (B := broadcast_shapes_conflict _ Ns).
  assert (E : where_leaf [AFlag c; AVal x; AVal y] = r <- na_where c x y ;; Ok (OpArr r) \/
              exists u v w, c = OpNum u /\ x = OpNum v /\ y = OpNum w).
  { destruct c as [c|u]; [now left|]. destruct x as [x|v]; [now left|]. destruct y as [y|w]; [now left|]. right. eauto 10. }
  destruct E as [E|(u & v & w & -> & -> & ->)].
  - destruct (broadcast_shapes_total _ Ns) as [(sh & Bs)|Bs]; rewrite Bs in *.
    + destruct S as (r & Er & Wr & Sr & Vr). split; [|intros C; apply B in C; discriminate]. intros _. 
      assert (NN : ~ ((exists u, c = OpNum u) /\ (exists u, x = OpNum u) /\ (exists u, y = OpNum u))).
      { intros ((u & ->) & (v & ->) & (w & ->)). rewrite Er in E. cbn in E. discriminate. }
      rewrite Er in E. cbn [bind] in E. exists (OpArr r).
      split; [exact E|]. split; [exact Wr|]. split; [cbn [op_shape]; rewrite Sr; now apply broadcast_joint|]. split; [intros e He; rewrite <- Vr; now apply bat_inside|].
      split; [intros (u & Q); discriminate|]. intros Q. now elim NN.
    + split; [intros C; elim C; now apply B|]. intros _. now rewrite E, S.
  - split.
    + intros _. exists (OpNum (if u then v else w)). split; [reflexivity|]. split; [exact Logic.I|]. split; [|split; [intros e _; cbn; now destruct u|split; eauto 10]].
      cbn. split; [constructor|]. split; [intros s [<- |[<- |[<- |[]]]] ax n []|intros ax n []].
    + intros C. apply B in C. cbn in C. discriminate.
Qed.

Lemma vec_where_spec {A L} (t : tree L) (c : vec bool) (x y : vec A) :
  vec_wf c -> vec_wf x -> vec_wf y -> tree_ok (fun _ => True) t -> together t c x y ->
  let fits := forall p oc ox oy, leaf_at t p <> None -> reaches c p = Some oc -> reaches x p = Some ox -> reaches y p = Some oy ->
                ~ conflict [op_shape oc; op_shape ox; op_shape oy] in
  (fits -> exists r, vec_where c x y = Ok r /\ same_kind t r /\
     forall p oc ox oy, leaf_at t p <> None -> reaches c p = Some oc -> reaches x p = Some ox -> reaches y p = Some oy ->
       exists o, leaf_at r p = Some o /\ op_wf o /\ joint [op_shape oc; op_shape ox; op_shape oy] (op_shape o) /\
         (forall e, inside e (op_shape o) -> op_at o e = if op_at oc e then op_at ox e else op_at oy e) /\
         ((exists u, o = OpNum u) <-> (exists u, oc = OpNum u) /\ (exists u, ox = OpNum u) /\ (exists u, oy = OpNum u))) /\
  (~ fits -> vec_where c x y = Err ValueError).
Proof.
  intros Wc Wx Wy T (Sc & Sx & Sy & K) fits.
  assert (Mg : merges t [map_tree (@AFlag A) c; map_tree AVal x; map_tree AVal y]).
  { split; [intros v [<- |[<- |[<- |[]]]]; now apply map_tree_suits|]. intros p. cbn [map]. now rewrite !map_tree_kind. }
  assert (Leaf_ok : forall p oc ox oy, reaches c p = Some oc -> reaches x p = Some ox -> reaches y p = Some oy -> op_wf oc /\ op_wf ox /\ op_wf oy).
  { intros p oc ox oy Rc Rx Ry. split; [exact (tree_ok_reaches _ _ _ _ Wc Rc)|]. split; [exact (tree_ok_reaches _ _ _ _ Wx Rx)|exact (tree_ok_reaches _ _ _ _ Wy Ry)]. }
  assert (Args : forall p os, scalars_at [map_tree (@AFlag A) c; map_tree AVal x; map_tree AVal y] p os ->
    exists oc ox oy, os = [AFlag oc; AVal ox; AVal oy] /\ reaches c p = Some oc /\ reaches x p = Some ox /\ reaches y p = Some oy).
  { intros p os S. apply scalars3 in S. destruct S as (a1 & a2 & a3 & -> & R1 & R2 & R3). apply mapped in R1, R2, R3.
    destruct R1 as (oc & Rc & ->), R2 as (ox & Rx & ->), R3 as (oy & Ry & ->). eauto 10. }
  destruct (zip_trees_ok where_leaf ValueError t _ T Mg) as [(r & Er & Kr & Hr)|(Er & p & os & Hp & S & E)].
  - intros p os Hp S. destruct (Args p os S) as (oc & ox & oy & -> & Rc & Rx & Ry). destruct (Leaf_ok p oc ox oy Rc Rx Ry) as (W1 & W2 & W3).
    destruct (where_leaf_spec oc ox oy W1 W2 W3) as (Good & Bad).
    assert (Ns : Forall (fun s : shape => NoDup (dkeys s)) [op_shape oc; op_shape ox; op_shape oy]) by (repeat constructor; now apply op_nodup').
    destruct (broadcast_shapes_total _ Ns) as [(sh & Bs)|Bs].
    + left. destruct Good as (o & Eo & _); [|eauto]. intros C. apply (broadcast_shapes_conflict _ Ns) in C. congruence.
    + right. apply Bad. now apply (broadcast_shapes_conflict _ Ns).
  - assert (All : forall p oc ox oy, leaf_at t p <> None -> reaches c p = Some oc -> reaches x p = Some ox -> reaches y p = Some oy ->
       exists o, leaf_at r p = Some o /\ where_leaf [AFlag oc; AVal ox; AVal oy] = Ok o).
    { intros p oc ox oy Hp Rc Rx Ry. apply (Hr p _ Hp). repeat constructor; rewrite map_tree_reaches; [rewrite Rc|rewrite Rx|rewrite Ry]; reflexivity. }
    split.
    + intros H. exists r. split; [exact Er|]. split; [exact Kr|]. intros p oc ox oy Hp Rc Rx Ry. destruct (All p oc ox oy Hp Rc Rx Ry) as (o & Lo & Eo).
      destruct (Leaf_ok p oc ox oy Rc Rx Ry) as (W1 & W2 & W3). destruct (proj1 (where_leaf_spec oc ox oy W1 W2 W3) (H p oc ox oy Hp Rc Rx Ry)) as (o' & Eo' & Ho').
      assert (o' = o) by congruence. subst o'. eauto.
    + intros H. exfalso. apply H. intros p oc ox oy Hp Rc Rx Ry C. destruct (All p oc ox oy Hp Rc Rx Ry) as (o & Lo & Eo).
      destruct (Leaf_ok p oc ox oy Rc Rx Ry) as (W1 & W2 & W3). apply (where_leaf_spec oc ox oy W1 W2 W3) in C. congruence.
  - split; [|intros _; exact Er]. intros H. exfalso. destruct (Args p os S) as (oc & ox & oy & -> & Rc & Rx & Ry). destruct (Leaf_ok p oc ox oy Rc Rx Ry) as (W1 & W2 & W3).
    destruct (proj1 (where_leaf_spec oc ox oy W1 W2 W3) (H p oc ox oy Hp Rc Rx Ry)) as (o' & Eo' & _). congruence.
Qed.

Lemma vec_where_types {A} (c : vec bool) (x y : vec A) ks t1 n1 t2 n2 :
  ks = [kind c []; kind x []; kind y []] -> In (Some (t1, n1)) ks -> In (Some (t2, n2)) ks -> t1 <> t2 -> vec_where c x y = Err TypeError.
Proof.
  intros -> H1 H2 D.
  assert (X : forall k, In k [kind c []; kind x []; kind y []] -> exists v, In v [map_tree (@AFlag A) c; map_tree AVal x; map_tree AVal y] /\ kind v [] = k).
  { intros k Hk. assert (E : [kind c []; kind x []; kind y []] = map (fun v => kind v []) [map_tree (@AFlag A) c; map_tree AVal x; map_tree AVal y]) by (cbn [map]; now rewrite !map_tree_kind).
    rewrite E in Hk. apply in_map_iff in Hk. destruct Hk as (v & Ev & Hv). eauto. }
  destruct (X _ H1) as (v & Hv & Kv), (X _ H2) as (w & Hw & Kw). exact (zip_trees_types where_leaf _ v w t1 n1 t2 n2 Hv Hw Kv Kw D).
Qed.

(** ** clip *)
Section Clip.
Context {A : Type} (minimum maximum : A -> A -> A).

Definition as_arg (o : option (operand A)) : arg A := match o with Some b => AVal b | None => ANone end.

Lemma bound_as_arg o : bound_of (as_arg o) = o.
Proof. destruct o; reflexivity. Qed.

Lemma given_map (v : vec A) : map_tree AVal v = map_tree as_arg (given v).
Proof.
  induction v as [o|ty cs IH] using tree_rect'; [reflexivity|]. cbn [map_tree given]. f_equal. rewrite map_map. apply map_ext_in.
  intros [c x] H. cbn [fst snd]. f_equal. exact (IH c x H).
Qed.

Lemma bounds_map (b : option (vec A)) : bound_tree b = map_tree as_arg (bounds b).
Proof. destruct b as [v|]; [apply given_map|reflexivity]. Qed.

Lemma given_eq (v : vec A) : given v = map_tree Some v.
Proof.
  induction v as [o|ty cs IH] using tree_rect'; [reflexivity|]. cbn [map_tree given]. f_equal. apply map_ext_in.
  intros [c x] H. cbn [fst snd]. f_equal. exact (IH c x H).
Qed.

Lemma bounds_wf (b : option (vec A)) p o : bound_wf b -> reaches (bounds b) p = Some (Some o) -> op_wf o.
Proof.
  destruct b as [v|]; cbn [bounds bound_wf]; [|destruct p; discriminate]. rewrite given_eq. intros W R. apply mapped in R. destruct R as (x & R & [= <-]).
  exact (tree_ok_reaches _ _ _ _ W R).
Qed.

Lemma op_fits_dec {B} (o : operand B) (sh : shape) : op_wf o -> NoDup (dkeys sh) -> op_fits o sh \/ ~ op_fits o sh.
Proof.
  intros W N. assert (D := op_fits_aligned o sh W N). destruct (op_aligned (dkeys sh) o) as [n|e].
  - destruct (bto_rev (rev (nshape n)) (rev (dvals sh))) eqn:Q; [left; apply D; eauto|right]. intros F. apply D in F. destruct F as (m & [= <-] & Q'). congruence.
  - right. intros F. apply D in F. destruct F as (m & Q & _). discriminate.
Qed.

Lemma bounds_dec (o : operand A) (l h : option (operand A)) : op_wf o -> (forall b, l = Some b -> op_wf b) -> (forall b, h = Some b -> op_wf b) ->
  (bound_fits l (op_shape o) /\ bound_fits h (op_shape o)) \/ ~ (bound_fits l (op_shape o) /\ bound_fits h (op_shape o)).
Proof.
  intros Wo Wl Wh.
  assert (D1 : forall b : option (operand A), (forall c, b = Some c -> op_wf c) -> bound_fits b (op_shape o) \/ ~ bound_fits b (op_shape o)).
  { intros [b|] Wb; [|left; exact Logic.I]. cbn [bound_fits]. apply op_fits_dec; [now apply Wb|now apply op_nodup']. }
  destruct (D1 l Wl), (D1 h Wh); tauto.
Qed.

Lemma clip_leaf_spec (a : operand A) (lo hi : option (operand A)) : op_wf a -> (forall b, lo = Some b -> op_wf b) -> (forall b, hi = Some b -> op_wf b) ->
  let ok := bound_fits lo (op_shape a) /\ bound_fits hi (op_shape a) in
  (ok -> exists o, clip_leaf minimum maximum [AVal a; as_arg lo; as_arg hi] = Ok o /\ op_wf o /\ op_shape o = op_shape a /\
     forall e, inside e (op_shape o) -> op_at o e = clipped minimum maximum (op_at a e) lo hi e) /\
  (~ ok -> clip_leaf minimum maximum [AVal a; as_arg lo; as_arg hi] = Err ValueError).
Proof.
  intros Wa Wl Wh ok.
  destruct (clip_spec minimum maximum a lo hi None Wa) as (Good & Bad).
  { destruct lo; [now apply Wl|exact Logic.I]. }
  { destruct hi; [now apply Wh|exact Logic.I]. }
  { exact Logic.I. }
  assert (Fa : op_fits a (op_shape a)).
  { destruct a; [|exact Logic.I]. intros ax n H. exists n. split; [exact H|now right]. }
  assert (E : clip_leaf minimum maximum [AVal a; as_arg lo; as_arg hi] = r <- na_clip minimum maximum a lo hi None ;; Ok (OpArr r) \/
     (ok /\ exists u, a = OpNum u /\ exists w, clip_leaf minimum maximum [AVal a; as_arg lo; as_arg hi] = Ok (OpNum w) /\ forall e, w = clipped minimum maximum u lo hi e)).
  { unfold clip_leaf. rewrite !bound_as_arg. destruct a as [a|u]; [now left|].
    assert (Nf : forall w, op_fits (@OpNum A w) (op_shape (OpNum u))) by (intros w; exact Logic.I).
    destruct lo as [[l|l]|]; [now left| |]; (destruct hi as [[h|h]|]; [now left| |]); right; (split; [split; cbn [bound_fits]; auto; exact Logic.I|]);
      exists u; (split; [reflexivity|]); eexists; (split; [reflexivity|]); intros e; reflexivity. }
  destruct E as [E|(Hok & u & -> & w & E & V)].
  - split.
    + intros (Hl & Hh). destruct Good as (r & Er & Wr & Sr & Vr); [split; [exact Fa|split; assumption]|]. rewrite Er in E. exists (OpArr r). split; [exact E|]. split; [exact Wr|]. split; [exact Sr|]. intros e He. unfold clipped. rewrite <- Vr. now apply bat_inside.
    + intros H. rewrite E, Bad; [reflexivity|]. intros (_ & Hl & Hh). apply H. split; assumption.
  - split; [|intros H; now elim H]. intros _. exists (OpNum w). split; [exact E|]. split; [exact Logic.I|]. split; [reflexivity|]. intros e _. apply V.
Qed.

Lemma vec_clip_spec {L} (t : tree L) (a : vec A) (lo hi : option (vec A)) :
  vec_wf a -> bound_wf lo -> bound_wf hi -> tree_ok (fun _ => True) t -> together t a (bounds lo) (bounds hi) ->
  let fits := forall p o l h, leaf_at t p <> None -> reaches a p = Some o -> reaches (bounds lo) p = Some l -> reaches (bounds hi) p = Some h ->
                bound_fits l (op_shape o) /\ bound_fits h (op_shape o) in
  (fits -> exists r, vec_clip minimum maximum a lo hi = Ok r /\ same_kind t r /\
     forall p o l h, leaf_at t p <> None -> reaches a p = Some o -> reaches (bounds lo) p = Some l -> reaches (bounds hi) p = Some h ->
       exists q, leaf_at r p = Some q /\ op_wf q /\ op_shape q = op_shape o /\ forall e, inside e (op_shape q) -> op_at q e = clipped minimum maximum (op_at o e) l h e) /\
  (~ fits -> vec_clip minimum maximum a lo hi = Err ValueError).
Proof.
  intros Wa Wl Wh T (Sa & Sl & Sh & K) fits. unfold vec_clip. rewrite !bounds_map.
  set (vs := [map_tree AVal a; map_tree as_arg (bounds lo); map_tree as_arg (bounds hi)]).
  assert (Mg : merges t vs).
  { split; [intros v [<- |[<- |[<- |[]]]]; now apply map_tree_suits|]. intros p. cbn [map vs]. now rewrite !map_tree_kind. }
  assert (Args : forall p os, scalars_at vs p os ->
    exists o l h, os = [AVal o; as_arg l; as_arg h] /\ reaches a p = Some o /\ reaches (bounds lo) p = Some l /\ reaches (bounds hi) p = Some h).
  { intros p os S. apply scalars3 in S. destruct S as (a1 & a2 & a3 & -> & R1 & R2 & R3). apply mapped in R1, R2, R3.
    destruct R1 as (oc & Rc & ->), R2 as (ox & Rx & ->), R3 as (oy & Ry & ->). eauto 10. }
  assert (Spec : forall p o l h, reaches a p = Some o -> reaches (bounds lo) p = Some l -> reaches (bounds hi) p = Some h ->
    let ok := bound_fits l (op_shape o) /\ bound_fits h (op_shape o) in
    (ok -> exists q, clip_leaf minimum maximum [AVal o; as_arg l; as_arg h] = Ok q /\ op_wf q /\ op_shape q = op_shape o /\
       forall e, inside e (op_shape q) -> op_at q e = clipped minimum maximum (op_at o e) l h e) /\
    (~ ok -> clip_leaf minimum maximum [AVal o; as_arg l; as_arg h] = Err ValueError)).
  { intros p o l h Ro Rl Rh. apply clip_leaf_spec.
    - exact (tree_ok_reaches _ _ _ _ Wa Ro).
    - intros b ->. exact (bounds_wf lo p b Wl Rl).
    - intros b ->. exact (bounds_wf hi p b Wh Rh). }
  destruct (zip_trees_ok (clip_leaf minimum maximum) ValueError t _ T Mg) as [(r & Er & Kr & Hr)|(Er & p & os & Hp & S & E)].
  - intros p os Hp S. destruct (Args p os S) as (o & l & h & -> & Ro & Rl & Rh). destruct (Spec p o l h Ro Rl Rh) as (Good & Bad).
    assert (Dec := bounds_dec o l h (tree_ok_reaches _ _ _ _ Wa Ro) (fun b Eb => bounds_wf lo p b Wl (eq_trans Rl (f_equal Some Eb))) (fun b Eb => bounds_wf hi p b Wh (eq_trans Rh (f_equal Some Eb)))).
    destruct Dec as [D|D]; [left; destruct (Good D) as (q & Eq & _); eauto|right; now apply Bad].
  - assert (All : forall p o l h, leaf_at t p <> None -> reaches a p = Some o -> reaches (bounds lo) p = Some l -> reaches (bounds hi) p = Some h ->
       exists q, leaf_at r p = Some q /\ clip_leaf minimum maximum [AVal o; as_arg l; as_arg h] = Ok q).
    { intros p o l h Hp Ro Rl Rh. apply (Hr p _ Hp). repeat constructor; rewrite map_tree_reaches; [rewrite Ro|rewrite Rl|rewrite Rh]; reflexivity. }
    split.
    + intros H. exists r. split; [exact Er|]. split; [exact Kr|]. intros p o l h Hp Ro Rl Rh. destruct (All p o l h Hp Ro Rl Rh) as (q & Lq & Eq).
      destruct (proj1 (Spec p o l h Ro Rl Rh) (H p o l h Hp Ro Rl Rh)) as (q' & Eq' & Hq'). assert (q' = q) by congruence. subst q'. eauto.
    + intros H. exfalso. apply H. intros p o l h Hp Ro Rl Rh. destruct (All p o l h Hp Ro Rl Rh) as (q & Lq & Eq).
      destruct (Spec p o l h Ro Rl Rh) as (_ & Bad).
      destruct (bounds_dec o l h (tree_ok_reaches _ _ _ _ Wa Ro) (fun b Eb => bounds_wf lo p b Wl (eq_trans Rl (f_equal Some Eb))) (fun b Eb => bounds_wf hi p b Wh (eq_trans Rh (f_equal Some Eb)))) as [D|D]; [exact D|].
      apply Bad in D. congruence.
  - split; [|intros _; exact Er]. intros H. exfalso. destruct (Args p os S) as (o & l & h & -> & Ro & Rl & Rh).
    destruct (proj1 (Spec p o l h Ro Rl Rh) (H p o l h Hp Ro Rl Rh)) as (o' & Eo' & _). congruence.
Qed.
End Clip.

(** ** copyto *)
Section Each.
Context {A : Type} (F : vec A -> vec A -> vec A * option err) (src : vec A).
Definition copy_each := fix each (cs : list (string * vec A)) : list (string * vec A) * option err :=
  match cs with
  | [] => ([], None)
  | (c, x) :: cs' =>
      match component c src with
      | Err e => (cs, Some e)
      | Ok s =>
          match F x s with
          | (x', None) => let (r, e) := each cs' in ((c, x') :: r, e)
          | (_, Some TypeError) => let (r, e) := each cs' in ((c, s) :: r, e)
          | (x', Some e) => ((c, x') :: cs', Some e)
          end
      end
  end.

Lemma copy_each_ok cs : NoDup (map fst cs) ->
  (forall c x, In (c, x) cs -> exists s, component c src = Ok s /\ (snd (F x s) = None \/ snd (F x s) = Some ValueError)) ->
  map fst (fst (copy_each cs)) = map fst cs /\
  (snd (copy_each cs) = None \/ snd (copy_each cs) = Some ValueError) /\
  (forall c x, In (c, x) cs -> exists s x', component c src = Ok s /\ In (c, x') (fst (copy_each cs)) /\
     (x' = fst (F x s) /\ (snd (copy_each cs) = None -> snd (F x s) = None) \/ snd (copy_each cs) = Some ValueError /\ x' = x)) /\
  (snd (copy_each cs) = Some ValueError -> exists c x s, In (c, x) cs /\ component c src = Ok s /\ snd (F x s) = Some ValueError).
Proof.
  induction cs as [|[c x] cs IH]; intros N H.
  { cbn. split; [reflexivity|]. split; [now left|]. split; [intros c x []|discriminate]. }
  inversion N as [|? ? Nc N']; subst. destruct (IH N') as (I1 & I2 & I3 & I4); [intros c' x' H'; apply H; now right|].
  destruct (H c x (or_introl eq_refl)) as (s & Es & Hs). cbn [copy_each]. fold copy_each. rewrite Es.
  destruct (F x s) as [x' e] eqn:Ef. cbn [snd] in Hs. destruct Hs as [-> | ->].
  - destruct (copy_each cs) as [r e]. cbn [fst snd map] in *. split; [now f_equal|]. split; [exact I2|]. split.
    + intros c' y [[= <- <-]|Hy].
      * exists s, x'. rewrite Ef. cbn [fst snd]. split; [exact Es|]. split; [now left|]. left. auto.
      * destruct (I3 c' y Hy) as (s' & y' & E' & Hy' & Q). exists s', y'. split; [exact E'|]. split; [now right|exact Q].
    + intros E. destruct (I4 E) as (c' & y & s' & Hy & Q). exists c', y, s'. split; [now right|exact Q].
  - cbn [fst snd map] in *. split; [reflexivity|]. split; [now right|]. split.
    + intros c' y [[= <- <-]|Hy].
      * exists s, x'. rewrite Ef. cbn. split; [exact Es|]. split; [now left|]. left. split; [reflexivity|discriminate].
      * destruct (H c' y (or_intror Hy)) as (s' & E' & _). exists s', y. split; [exact E'|]. split; [now right|]. right. auto.
    + intros _. exists c, x, s. split; [now left|]. split; [exact Es|]. now rewrite Ef.
Qed.
End Each.

Lemma vec_copyto_node {A} ty cs (src : vec A) (w : operand bool) : vec_copyto (Node ty cs) src (Leaf w) =
  if negb (accepts ty src) then (Node ty cs, Some TypeError)
  else let (r, e) := copy_each (fun x s => vec_copyto x s (Leaf w)) src cs in (Node ty r, e).
Proof. reflexivity. Qed.

Lemma vec_copyto_spec {A} (dst : vec A) : forall (src : vec A) (m : operand bool),
  stored dst -> vec_wf src -> op_wf m -> suits dst src ->
  let fits := forall p a s, leaf_at dst p = Some (OpArr a) -> reaches src p = Some s -> op_fits s (sshape a) /\ op_fits m (sshape a) in
  let r := fst (vec_copyto dst src (Leaf m)) in
  let e := snd (vec_copyto dst src (Leaf m)) in
  same_kind dst r /\ (e = None \/ e = Some ValueError) /\ (e = None <-> fits) /\
  forall p a s, leaf_at dst p = Some (OpArr a) -> reaches src p = Some s ->
    exists b, leaf_at r p = Some (OpArr b) /\
      (wf b /\ sshape b = sshape a /\ (forall e, at_ b e = if op_at m e then op_at s e else at_ a e) \/ e = Some ValueError /\ b = a).
Proof.
  induction dst as [o|ty cs IH] using tree_rect'; intros src m St Ws Wm Su.
  - inversion St as [? (a & -> & Wa)|]; subst. destruct src as [s|ty cs]; [|exfalso; destruct Su as [_ Re]; apply (Re []); [discriminate|reflexivity]].
    inversion Ws as [? Wo|]; subst. destruct (copyto_spec a s m Wa Wo Wm) as (Good & Bad).
    assert (D : (op_fits s (sshape a) /\ op_fits m (sshape a)) \/ ~ (op_fits s (sshape a) /\ op_fits m (sshape a))).
    { assert (Na := wf_nodup a Wa). destruct (op_fits_dec s (sshape a) Wo Na), (op_fits_dec m (sshape a) Wm Na); tauto. }
    cbn [vec_copyto]. destruct D as [D|D].
    + destruct (Good D) as (r & Er & Wr & Sr & Vr). rewrite Er. cbn [fst snd]. split; [split; [intros [|]; reflexivity|intros [|]; cbn; split; congruence]|].
      split; [now left|]. split; [split; [|reflexivity]|].
      * intros _ [|c p] a' s' L R; cbn in L, R; [|discriminate]. injection L as <-. injection R as <-. exact D.
      * intros [|c p] a' s' L R; cbn in L, R; [|discriminate]. injection L as <-. injection R as <-. exists r. split; [reflexivity|]. left. auto.
    + rewrite (Bad D). cbn [fst snd]. split; [split; reflexivity|]. split; [now right|]. split.
      * split; [discriminate|]. intros H. exfalso. apply D. now apply (H [] a s).
      * intros p a' s' L R. exists a'. auto.
  - inversion St as [|? ? Nd Sc]; subst. rewrite vec_copyto_node, (suits_accepts ty cs src Su). cbn [negb].
    assert (Comp : forall c x, In (c, x) cs -> exists s, component c src = Ok s /\ vec_wf s /\ suits x s).
    { intros c x Hx. destruct (suits_exists ty cs c x src Hx Su) as (s & Es). exists s. split; [exact Es|]. split.
      - destruct src as [o|ty' cs']; cbn [component] in Es; [injection Es as <-; exact Ws|]. destruct (dget cs' c) as [y|] eqn:Dy; [|discriminate]. injection Es as ->.
        inversion Ws as [|? ? _ Wc]; subst. exact (Wc c s (dget_In _ _ _ Dy)).
      - apply (suits_component ty cs c x src s); [|exact Su|exact Es]. apply dget_NoDup; [exact Nd|exact Hx]. }
    assert (E := copy_each_ok (fun x s => vec_copyto x s (Leaf m)) src cs Nd).
    destruct E as (E1 & E2 & E3 & E4).
    { intros c x Hx. destruct (Comp c x Hx) as (s & Es & Wsx & Sx). exists s. split; [exact Es|]. apply (IH c x Hx s m (Sc c x Hx) Wsx Wm Sx). }
    destruct (copy_each (fun x s => vec_copyto x s (Leaf m)) src cs) as [rs e]. cbn [fst snd] in *.
    assert (Nr : NoDup (map fst rs)) by now rewrite E1.
    assert (Get : forall c, match dget cs c, dget rs c with Some x, Some x' => exists s, component c src = Ok s /\
        (x' = fst (vec_copyto x s (Leaf m)) /\ (e = None -> snd (vec_copyto x s (Leaf m)) = None) \/ e = Some ValueError /\ x' = x) | None, None => True | _, _ => False end).
    { intros c. destruct (dget cs c) as [x|] eqn:Dx.
      - destruct (E3 c x (dget_In _ _ _ Dx)) as (s & x' & Es & Hx' & Q). apply (dget_NoDup rs c x' Nr) in Hx'. rewrite Hx'. eauto.
      - destruct (dget rs c) as [x'|] eqn:Dr; [|exact Logic.I]. apply dget_None in Dx. apply Dx. unfold dkeys. rewrite <- E1. exact (in_map fst _ _ (dget_In _ _ _ Dr)). }
    assert (Sub : forall c x s, dget cs c = Some x -> component c src = Ok s -> vec_wf s /\ suits x s).
    { intros c x s Dx Es. destruct (Comp c x (dget_In _ _ _ Dx)) as (s' & Es' & Q). assert (s' = s) by congruence. now subst s'. }
    assert (Sub' := fun c x s Dx Es => IH c x (dget_In _ _ _ Dx) s m (Sc c x (dget_In _ _ _ Dx)) (proj1 (Sub c x s Dx Es)) Wm (proj2 (Sub c x s Dx Es))).
    cbv zeta in Sub'. clear Sub. rename Sub' into Sub. split; [split|split; [exact E2|split; [split|]]].
    + intros [|c p]; cbn [kind]; [now rewrite E1|]. specialize (Get c). destruct (dget cs c) as [x|] eqn:Dx, (dget rs c) as [x'|]; try contradiction; [|reflexivity].
      destruct Get as (s & Es & [(-> & _)|(_ & ->)]); [|reflexivity]. apply (Sub c x s Dx Es).
    + intros [|c p]; cbn [leaf_at]; [tauto|]. specialize (Get c). destruct (dget cs c) as [x|] eqn:Dx, (dget rs c) as [x'|]; try contradiction; [|tauto].
      destruct Get as (s & Es & [(-> & _)|(_ & ->)]); [|tauto]. apply (Sub c x s Dx Es).
    + intros -> [|c p] a s L R; cbn [leaf_at] in L; [discriminate|]. specialize (Get c). destruct (dget cs c) as [x|] eqn:Dx; [|discriminate].
      destruct (dget rs c) as [x'|]; [|contradiction]. destruct Get as (s' & Es & [(_ & Q)|(Q & _)]); [|discriminate].
      destruct (Sub c x s' Dx Es) as (_ & _ & Q2 & _). apply (proj1 Q2 (Q eq_refl) p a s L). now rewrite <- (component_reaches c src s' p Es).
    + intros H. destruct E2 as [E2|E2]; [exact E2|]. exfalso. destruct (E4 E2) as (c & x & s & Hx & Es & Q). apply (dget_NoDup cs c x Nd) in Hx.
      destruct (Sub c x s Hx Es) as (_ & _ & Q2 & _). rewrite (proj2 Q2) in Q; [discriminate|]. intros p a s' L R. apply (H (c :: p) a s'); [cbn [leaf_at]; now rewrite Hx|].
      now rewrite (component_reaches c src s p Es).
    + intros [|c p] a s L R; cbn [leaf_at] in L |- *; [discriminate|]. specialize (Get c). destruct (dget cs c) as [x|] eqn:Dx; [|discriminate].
      destruct (dget rs c) as [x'|]; [|contradiction]. destruct Get as (s' & Es & [(-> & Q)|(Q & ->)]); [|exists a; auto].
      destruct (Sub c x s' Dx Es) as (_ & _ & _ & Q2). rewrite (component_reaches c src s' p Es) in R. destruct (Q2 p a s L R) as (b & Lb & [Hb|(Eb & ->)]).
      * exists b. auto.
      * exists a. split; [exact Lb|]. right. split; [|reflexivity]. destruct E2 as [E2|E2]; [|exact E2]. rewrite (Q E2) in Eb. discriminate.
Qed.

(** a vector as mask *)
Lemma vec_copyto_vector_mask {A} (dst src : vec A) (w : vec bool) k : kind w [] = Some k -> vec_copyto dst src w = (dst, Some TypeError).
Proof. destruct w as [|ty cs]; [discriminate|]. intros _. destruct dst as [[a|x]|ty' cs']; [|reflexivity|reflexivity]. cbn [vec_copyto]. now destruct src. Qed.

(** vectors of another type *)
Lemma vec_copyto_types {A} (dst src : vec A) (w : vec bool) t1 n1 t2 n2 : kind dst [] = Some (t1, n1) -> kind src [] = Some (t2, n2) -> t1 <> t2 ->
  vec_copyto dst src w = (dst, Some TypeError).
Proof.
  destruct dst as [|ty cs]; [discriminate|]. destruct src as [|ty' cs']; [discriminate|]. cbn [kind]. intros [= -> _] [= -> _] D. cbn [vec_copyto accepts].
  destruct w; [|reflexivity]. destruct (String.eqb_spec t2 t1) as [E|_]; [congruence|]. reflexivity.
Qed.

Lemma vec_clip_types {A} (minimum maximum : A -> A -> A) (a : vec A) (lo hi : option (vec A)) ks t1 n1 t2 n2 :
  ks = [kind a []; kind (bounds lo) []; kind (bounds hi) []] -> In (Some (t1, n1)) ks -> In (Some (t2, n2)) ks -> t1 <> t2 ->
  vec_clip minimum maximum a lo hi = Err TypeError.
Proof.
  intros -> H1 H2 D. unfold vec_clip. rewrite !bounds_map. set (vs := [map_tree AVal a; map_tree as_arg (bounds lo); map_tree as_arg (bounds hi)]).
  assert (X : forall k, In k [kind a []; kind (bounds lo) []; kind (bounds hi) []] -> exists v, In v vs /\ kind v [] = k).
  { intros k Hk. assert (E : [kind a []; kind (bounds lo) []; kind (bounds hi) []] = map (fun v => kind v []) vs) by (cbn [map vs]; now rewrite !map_tree_kind).
    rewrite E in Hk. apply in_map_iff in Hk. destruct Hk as (v & Ev & Hv). eauto. }
  destruct (X _ H1) as (v & Hv & Kv), (X _ H2) as (w & Hw & Kw). exact (zip_trees_types (clip_leaf minimum maximum) _ v w t1 n1 t2 n2 Hv Hw Kv Kw D).
Qed.

Lemma leaf_reach {L} (t : tree L) p l : leaf_at t p = Some l -> reaches t p = Some l.
Proof.
  revert p. induction t as [x|ty cs IH] using tree_rect'; intros [|c p]; cbn; try (intros; congruence).
  destruct (dget cs c) as [y|] eqn:D; [|discriminate]. apply (IH c y). now apply dget_In in D.
Qed.
