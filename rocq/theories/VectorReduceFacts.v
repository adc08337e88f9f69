(** Proofs about reductions of vectors. *)
From Coq Require Import Ascii String List Arith ZArith Bool Lia Permutation.
From Verif Require Import Base Numpy Shapes Scalar Elementwise Reduce Vector VectorReduce Spec SpecVector SpecVectorReduce
  SpecMatrix BaseFacts ShapesFacts AlignFacts ElementwiseFacts ReduceFacts SortingFacts LinspaceFacts VectorFacts VectorIndexFacts.
From Verif Require OptimizeFacts DerivedFacts PdfFacts DotFacts MatrixFacts TransformFacts.
Import ListNotations.
Open Scope nat_scope.
Open Scope list_scope.

Lemma reduced_In kd S (sh : shape) ax n : In (ax, n) (reduced kd S sh) <->
  (~ In ax S /\ In (ax, n) sh) \/ (kd = true /\ In ax S /\ n = 1 /\ In ax (dkeys sh)).
Proof.
  unfold reduced. destruct kd.
  - rewrite in_map_iff. split.
    + intros ([k m] & E & H). cbn [fst] in E. destruct (smem k S) eqn:M; injection E as -> <-.
      * right. apply smem_In in M. repeat split; auto. now apply (in_map fst) in H.
      * left. apply smem_false in M. auto.
    + intros [[H1 H2]|(_ & H1 & -> & H2)].
      * exists (ax, n). cbn [fst]. apply smem_false in H1. rewrite H1. auto.
      * apply in_map_iff in H2. destruct H2 as ([k m] & E & H2). cbn [fst] in E. subst k.
        exists (ax, m). cbn [fst]. apply smem_In in H1. rewrite H1. auto.
  - rewrite filter_In. cbn [fst]. rewrite negb_true_iff, smem_false. split; [tauto|]. intros [H|(H & _)]; [tauto|discriminate].
Qed.

Lemma reduced_NoDup kd S (sh : shape) : NoDup (dkeys sh) -> NoDup (dkeys (reduced kd S sh)).
Proof.
  intros N. unfold reduced, dkeys. destruct kd.
  - rewrite map_map. rewrite (map_ext _ fst); [exact N|]. intros [k m]. cbn [fst]. now destruct (smem k S).
  - revert N. unfold dkeys. induction sh as [|[k m] sh IH]; intros N; [constructor|]. cbn [filter map fst] in *. inversion N; subst.
    destruct (negb (smem k S)); [|now apply IH]. cbn [map fst]. constructor; [|now apply IH].
    intros H. apply H1. apply in_map_iff in H. destruct H as (x & E & H). apply filter_In in H. apply in_map_iff. exists x. tauto.
Qed.

Lemma reduced_fits kd S (s t : shape) : fits_in s t -> fits_in (reduced kd S s) (reduced kd S t).
Proof.
  intros F ax n H. apply reduced_In in H. destruct H as [[H1 H2]|(K & H1 & -> & H2)].
  - destruct (F ax n H2) as (m & Hm & E). exists m. split; [|exact E]. apply reduced_In. auto.
  - exists 1. split; [|now left]. apply reduced_In. right. repeat split; auto.
    apply in_map_iff in H2. destruct H2 as ([k m] & E & H2). cbn [fst] in E. subst k.
    destruct (F ax m H2) as (q & Hq & _). now apply (in_map fst) in Hq.
Qed.

(** the same positions along the reduced axes *)
Lemma fibre_pair sh S : forall e0 e,
  Forall2 (fun e1 e2 : env => (forall ax, In ax S -> e1 ax = e2 ax) /\ (forall ax, In ax S -> e1 ax < size_of sh ax) /\
             forall ax, ~ In ax S -> e1 ax = e0 ax /\ e2 ax = e ax) (fibre sh S e0) (fibre sh S e).
Proof.
  induction S as [|a S IH]; intros e0 e; cbn [fibre].
  - constructor; [|constructor]. split; [intros ? []|]. split; [intros ? []|auto].
  - assert (G : forall l, (forall i, In i l -> i < size_of sh a) ->
      Forall2 (fun e1 e2 : env => (forall ax, In ax (a :: S) -> e1 ax = e2 ax) /\ (forall ax, In ax (a :: S) -> e1 ax < size_of sh ax) /\
             forall ax, ~ In ax (a :: S) -> e1 ax = e0 ax /\ e2 ax = e ax)
        (flat_map (fun i => fibre sh S (set_env e0 a i)) l) (flat_map (fun i => fibre sh S (set_env e a i)) l)).
    { induction l as [|i l IHl]; intros Hl; [constructor|]. cbn [flat_map]. apply Forall2_app; [|apply IHl; intros; apply Hl; now right].
      assert (Hi : i < size_of sh a) by (apply Hl; now left).
      eapply Forall2_weaken; [|apply (IH (set_env e0 a i) (set_env e a i))].
      cbn beta. intros e1 e2 (H1 & H2 & H3). destruct (in_dec string_dec a S) as [M|M].
      - split; [|split].
        + intros ax [<- |H]; auto.
        + intros ax [<- |H]; auto.
        + intros ax H. assert (D : ax <> a) by (intros ->; apply H; now left). destruct (H3 ax) as [X Y]; [intros Z; apply H; now right|].
          unfold set_env in X, Y. apply String.eqb_neq in D. rewrite D in X, Y. auto.
      - destruct (H3 a M) as [Xa Ya]. unfold set_env in Xa, Ya. rewrite String.eqb_refl in Xa, Ya. split; [|split].
        + intros ax [<- |H]; [congruence|auto].
        + intros ax [<- |H]; [lia|auto].
        + intros ax H. assert (D : ax <> a) by (intros ->; apply H; now left). destruct (H3 ax) as [X Y]; [intros Z; apply H; now right|].
          unfold set_env in X, Y. apply String.eqb_neq in D. rewrite D in X, Y. auto. }
    apply G. intros i Hi. apply in_seq in Hi. lia.
Qed.

(** only the positions along axes of size different from one matter *)
Lemma op_at_near {A} (o : operand A) e e' : op_wf o -> (forall ax n, In (ax, n) (op_shape o) -> n = 1 \/ e ax = e' ax) -> op_at o e = op_at o e'.
Proof.
  intros W H. destruct o as [a|x]; [|reflexivity]. cbn [op_at op_shape op_wf] in *. unfold bat, at_. f_equal. apply map_ext_in. intros ax Hax.
  rewrite <- (wf_keys a W) in Hax. apply in_map_iff in Hax. destruct Hax as ([k n] & E & Hn). cbn [fst] in E. subst k.
  unfold bclamp. rewrite (dget_NoDup _ ax n (wf_nodup a W) Hn). destruct (H ax n Hn) as [-> |X]; [reflexivity|]. now rewrite X.
Qed.

Lemma fibre_values {A} (g g' : env -> A) (q q' : env -> bool) l l' :
  Forall2 (fun e1 e2 => g e1 = g' e2 /\ q e1 = q' e2) l l' -> map g (filter q l) = map g' (filter q' l').
Proof.
  induction 1 as [|e1 e2 l l' [E1 E2] _ IH]; [reflexivity|]. cbn [filter]. rewrite E2. destruct (q' e2); cbn [map]; congruence.
Qed.

Lemma Forall2_refl_in {X} (R : X -> X -> Prop) l : (forall x, In x l -> R x x) -> Forall2 R l l.
Proof. induction l; constructor; [apply H; now left|apply IHl; intros; apply H; now right]. Qed.

(** the value of a reduction as a function of the broadcast elements *)
Definition total {A B} (f : list A -> B) (o : operand A) (q : env -> bool) (sh : shape) (S : list string) (e : env) : B :=
  f (map (op_at o) (filter q (fibre sh S e))).

(** the list of elements does not depend on the order of the axes or on the shape,
    as long as the sizes along the reduced axes agree *)
Lemma total_same {A B} (f : list A -> B) (o o' : operand A) (q q' : env -> bool) (s t : shape) S S' e e' : symmetric f -> NoDup S -> Permutation S S' ->
  respects q -> (forall ax, In ax S -> size_of s ax = size_of t ax) ->
  (forall e1 e2, (forall ax, In ax S' -> e1 ax = e2 ax) -> (forall ax, In ax S' -> e1 ax < size_of t ax) ->
     (forall ax, ~ In ax S' -> e1 ax = e ax /\ e2 ax = e' ax) -> op_at o e1 = op_at o' e2 /\ q e1 = q' e2) ->
  total f o q s S e = total f o' q' t S' e'.
Proof.
  intros Sy N P Rq Sz H. unfold total. rewrite (fibre_ext s t S e Sz).
  transitivity (f (map (op_at o) (filter q (fibre t S' e)))).
  - apply Sy. rewrite !map_filter_flat_map. apply fibre_perm; auto. intros e1 e2 E. rewrite (op_at_respects o e1 e2 E), (Rq e1 e2 E). reflexivity.
  - f_equal. apply fibre_values. eapply Forall2_weaken; [|apply (fibre_pair t S' e e')]. cbn beta. intros e1 e2 (H1 & H2 & H3). now apply H.
Qed.

(** ** One scalar *)

Section Reductions.
Context {A B : Type} (identity : bool) (f : list A -> B) (axis : option (list string)) (keepdims : bool).
Hypothesis Sy : symmetric f.

(** what is required of the shape [sh] *)
Definition reducible (sh : shape) (masked : bool) : Prop :=
  NoDup (axes_of axis sh) /\ incl (axes_of axis sh) (dkeys sh) /\
  (identity = true \/ (masked = false /\ forall ax, In ax (axes_of axis sh) -> size_of sh ax <> 0)).

Lemma nonzero_total (sh : shape) l : (forall ax, In ax l -> In ax (dkeys sh)) -> (forall ax, In ax l -> size_of sh ax <> 0) -> total_size sh l <> 0.
Proof.
  induction l as [|a l IH]; intros I H; cbn [total_size fold_right]; [discriminate|].
  assert (Ha := H a (or_introl eq_refl)). unfold size_of in Ha. destruct (dget sh a) as [n|] eqn:E.
  - assert (X : total_size sh l <> 0) by (apply IH; [intros; apply I; now right|intros; apply H; now right]).
    unfold total_size in X. intros Z. apply Nat.mul_eq_0 in Z. destruct Z; congruence.
  - exfalso. assert (X := I a (or_introl eq_refl)). apply dget_Some_key in X. destruct X as (n & X). congruence.
Qed.

Lemma leaf_reduce (o : operand A) (w : option (operand bool)) (s : shape) : op_wf o -> op_shape o = s -> NoDup (dkeys s) ->
  (forall m, w = Some m -> op_wf m /\ (op_shape m = s \/ exists b, m = OpNum b)) ->
  reducible s (match w with Some _ => true | None => false end) ->
  exists r, na_reduce identity f (normalize o) axis keepdims w None = Ok r /\ wf r /\ fits_in (sshape r) (reduced keepdims (axes_of axis s) s) /\
    forall e, inside e (reduced keepdims (axes_of axis s) s) ->
      op_at (OpArr r) e = total f o (fun e' => match w with Some m => op_at m e' | None => true end) s (axes_of axis s) e.
Proof.
  intros W Sh N Hw (NS & IS & Id). assert (Wn := normalize_wf o W).
  assert (Sn : sshape (normalize o) = s) by (rewrite normalize_shape; exact Sh).
  assert (R := reduce_spec identity f (normalize o) axis keepdims w Wn). cbn zeta in R.
  assert (Hw' : forall m, w = Some m -> op_wf m) by (intros m Em; apply (Hw m Em)). specialize (R Hw').
  assert (Eb : broadcast_shapes (sshape (normalize o) :: match w with Some o0 => op_shapes [o0] | None => [] end) = Ok s).
  { rewrite Sn. apply DerivedFacts.bs_covered; [exact N|]. intros t Ht. destruct w as [m|]; [|destruct Ht].
    destruct m as [m|b]; [|destruct Ht]. cbn in Ht. destruct Ht as [<- |[]]. destruct (Hw _ eq_refl) as (Wm & Sm). cbn in Wm. split; [now apply wf_nodup|].
    destruct Sm as [Sm|(b & X)]; [|discriminate]. cbn in Sm. rewrite Sm. intros ax n H. split; [now apply (in_map fst) in H|now right]. }
  rewrite Eb in R. assert (ES : match axis with Some l => l | None => s_axes (normalize o) end = axes_of axis s).
  { destruct axis; [reflexivity|]. cbn. rewrite <- Sn. symmetry. now apply wf_keys. }
  rewrite ES in R. destruct R as (R & _). destruct R as (r & E & Wr & Ar & Er & V).
  { split; [exact NS|]. split; [exact IS|]. split.
    - intros m Em. destruct Id as [Id|(Id & _)]; [|subst w; discriminate]. split; [exact Id|]. intros ax. rewrite Sn.
      destruct (Hw m Em) as (_ & [Sm|(b & ->)]); [right; now rewrite Sm|left; reflexivity].
    - destruct Id as [Id|(_ & Id)]; [now left|]. right. left. apply nonzero_total; auto. }
  exists r. split; [exact E|]. split; [exact Wr|].
  assert (Same : forall ax n, In (ax, n) (sshape r) <-> In (ax, n) (reduced keepdims (axes_of axis s) s)).
  { intros ax n. rewrite Er, Ar, reduced_In, Sn. destruct keepdims.
    - split.
      + intros [H ->]. destruct (smem ax (axes_of axis s)) eqn:M.
        * right. apply smem_In in M. auto.
        * left. apply smem_false in M. split; [exact M|]. apply dget_Some_key in H. destruct H as (n & H). unfold size_of. rewrite H. now apply dget_In.
      + intros [[H1 H2]|(_ & H1 & -> & H2)].
        * split; [now apply (in_map fst) in H2|]. apply smem_false in H1. rewrite H1. symmetry. now apply size_of_In.
        * split; [exact H2|]. apply smem_In in H1. now rewrite H1.
    - rewrite filter_In, negb_true_iff. split.
      + intros [[H M] ->]. left. rewrite M. apply smem_false in M. split; [exact M|]. apply dget_Some_key in H. destruct H as (n & H). unfold size_of. rewrite H. now apply dget_In.
      + intros [[H1 H2]|(X & _)]; [|discriminate]. apply smem_false in H1. rewrite H1. split; [split; [now apply (in_map fst) in H2|reflexivity]|]. symmetry. now apply size_of_In. }
  split; [intros ax n H; exists n; split; [now apply Same|now right]|].
  intros e I. cbn [op_at]. assert (Ir : inside e (sshape r)) by (intros ax n H; apply I; now apply Same).
  rewrite bat_inside by assumption. rewrite V, Sn.
  set (q := fun e' : env => match w with Some m => op_at m e' | None => true end).
  transitivity (total f (OpArr (normalize o)) q s (filter (fun ax => smem ax (axes_of axis s)) (dkeys s)) e).
  - unfold total. f_equal. apply fibre_values. apply Forall2_refl_in. intros e1 H1. split; [|reflexivity].
    cbn [op_at]. symmetry. apply bat_inside; [exact Wn|]. rewrite Sn. intros ax n Hn. apply fibre_inside in H1. destruct H1 as [H1 H2].
    assert (Hs : size_of s ax = n) by now apply size_of_In.
    destruct (smem ax (axes_of axis s)) eqn:M.
    + rewrite <- Hs. apply H1. apply filter_In. split; [now apply (in_map fst) in Hn|exact M].
    + rewrite H2 by (rewrite filter_In, M; intuition discriminate). apply I. apply reduced_In. left. apply smem_false in M. auto.
  - assert (NF : NoDup (filter (fun ax => smem ax (axes_of axis s)) (dkeys s))) by now apply NoDup_filter.
    apply total_same; auto.
    + now apply filter_smem_perm.
    + intros e1 e2 X. unfold q. destruct w; [|reflexivity]. now apply op_at_respects.
    + intros e1 e2 H1 H2 H3. assert (X : forall ax, e1 ax = e2 ax).
      { intros ax. destruct (in_dec string_dec ax (axes_of axis s)) as [M|M]; [now apply H1|]. destruct (H3 ax M). congruence. }
      split; [|unfold q; destruct w; [now apply op_at_respects|reflexivity]].
      cbn [op_at]. etransitivity; [apply op_at_normalize|]. now apply op_at_respects.
Qed.

(** ** Trees *)

Lemma filled_child {L} ty (cs : list (string * tree L)) c x : NoDup (map fst cs) -> filled (Node ty cs) -> In (c, x) cs -> filled x.
Proof.
  intros N H Hc p ty' cs' K. apply (H (c :: p) ty' cs'). cbn [kind]. now rewrite (dget_NoDup cs c x N Hc).
Qed.

Lemma filled_leaf {L} (t : tree L) : tree_ok (fun _ => True) t -> filled t -> exists p l, leaf_at t p = Some l.
Proof.
  induction t as [l|ty cs IH] using tree_rect'; intros W H; [now exists [], l|].
  destruct cs as [|[c x] cs]; [exfalso; exact (H [] ty [] eq_refl eq_refl)|].
  inversion W as [|? ? N W']; subst. destruct (IH c x (or_introl eq_refl)) as (p & l & E).
  - apply (W' c x). now left.
  - apply (filled_child ty ((c, x) :: cs) c x N H). now left.
  - exists (c :: p), l. cbn [leaf_at dget]. now rewrite String.eqb_refl.
Qed.

Lemma tree_ok_any {L} (P : L -> Prop) (t : tree L) : tree_ok P t -> tree_ok (fun _ => True) t.
Proof.
  induction t as [l|ty cs IH] using tree_rect'; intros W; constructor; inversion W; subst; auto. intros c x Hc. apply (IH c x Hc). eauto.
Qed.

Lemma reaches_prefix {L} (t : tree L) : forall p x, reaches t p = Some x <-> exists q q', p = q ++ q' /\ leaf_at t q = Some x.
Proof.
  induction t as [l|ty cs IH] using tree_rect'; intros p x.
  - assert (E : reaches (Leaf l) p = Some l) by now destruct p. rewrite E. split.
    + intros H. exists [], p. split; [reflexivity|exact H].
    + intros ([|c q] & q' & _ & H); [exact H|discriminate].
  - destruct p as [|c p]; cbn [reaches].
    + split; [discriminate|]. intros ([|c q] & q' & E & H); discriminate.
    + destruct (dget cs c) as [y|] eqn:D.
      * assert (Hy := dget_In _ _ _ D). rewrite (IH c y Hy). split.
        -- intros (q & q' & -> & H). exists (c :: q), q'. split; [reflexivity|]. cbn [leaf_at]. now rewrite D.
        -- intros ([|c' q] & q' & E & H); [discriminate|]. injection E as -> ->. cbn [leaf_at] in H. rewrite D in H. eauto.
      * split; [discriminate|]. intros ([|c' q] & q' & E & H); [discriminate|]. injection E as -> ->. cbn [leaf_at] in H. now rewrite D in H.
Qed.

Lemma leaf_fits_shape {C} (v : vec C) sh o : vec_wf v -> vec_shape v = Ok sh -> In o (leaves v) -> fits_in (op_shape o) sh.
Proof.
  intros W E Ho. assert (Q := vec_shape_leaves v W). rewrite E in Q.
  destruct (broadcast_shapes (map op_shape (leaves v))) as [r|] eqn:Er; [|contradiction]. cbn in Q.
  assert (F := OptimizeFacts.broadcast_fits _ _ (op_shape o) (leaf_shapes_NoDup v W) Er (in_map op_shape _ _ Ho)).
  intros ax n H. destruct (F ax n H) as (m & Hm & X). exists m. split; [now apply Q|exact X].
Qed.

Lemma child_shape {C} ty (cs : list (string * vec C)) c x sh : vec_wf (Node ty cs) -> vec_shape (Node ty cs) = Ok sh -> In (c, x) cs ->
  exists shx, vec_shape x = Ok shx /\ fits_in shx sh.
Proof.
  intros W E Hc. cbn [vec_shape] in E. apply bind_ok in E. destruct E as (l & T & E). rewrite traverse_mapM in T. apply mapM_ok in T.
  assert (G : forall cs l, Forall2 (fun kv y => vec_shape (snd kv) = Ok y) cs l -> In (c, x) cs -> exists y, vec_shape x = Ok y /\ In y l).
  { clear. induction 1 as [|kv y cs l H _ IH]; intros Hc; [destruct Hc|]. destruct Hc as [-> |Hc]; [exists y; split; [exact H|now left]|].
    destruct (IH Hc) as (z & Ez & Hz). exists z. split; [exact Ez|now right]. }
  assert (GN : Forall (fun s => NoDup (dkeys s)) l).
  { inversion W as [|? ? N W']; subst. clear - T W'. induction T as [|[k t] y cs l H _ IH]; constructor.
    - apply (vec_shape_NoDup t y); [apply (W' k t); now left|exact H].
    - apply IH. intros c x Hc. apply (W' c x). now right. }
  destruct (G cs l T Hc) as (shx & Ex & Hx). exists shx. split; [exact Ex|]. exact (OptimizeFacts.broadcast_fits l sh shx GN E Hx).
Qed.

(** all leaves have the same shape *)
Lemma uniform_shape {C} (v : vec C) s : NoDup (dkeys s) -> filled v -> tree_ok (fun _ => True) v -> Forall (fun o => op_shape o = s) (leaves v) -> vec_shape v = Ok s.
Proof.
  intros N. induction v as [o|ty cs IH] using tree_rect'; intros Hf W H.
  - cbn [leaves] in H. inversion H; subst. destruct o; reflexivity.
  - inversion W as [|? ? Nc W']; subst. cbn [vec_shape leaves] in *.
    assert (T : traverse (fun kv => vec_shape (snd kv)) cs = Ok (map (fun _ => s) cs)).
    { assert (G : forall c x, In (c, x) cs -> vec_shape x = Ok s).
      { intros c x Hc. apply (IH c x Hc); [exact (filled_child ty cs c x Nc Hf Hc)|exact (W' c x Hc)|].
        rewrite Forall_forall in H |- *. intros o Ho. apply H. apply in_flat_map. exists (c, x). auto. }
      clear - G. induction cs as [|[c x] cs IH]; [reflexivity|]. cbn [traverse map snd]. rewrite (G c x) by now left. cbn [bind].
      rewrite IH; [reflexivity|]. intros c' x' Hc. apply (G c' x'). now right. }
    rewrite T. cbn [bind]. destruct cs as [|[c x] cs]; [exfalso; exact (Hf [] ty [] eq_refl eq_refl)|]. cbn [map].
    apply DerivedFacts.bs_covered; [exact N|]. intros t Ht. apply in_map_iff in Ht. destruct Ht as (kv & <- & _). split; [exact N|].
    intros ax n Hn. split; [now apply (in_map fst) in Hn|now right].
Qed.

(** ** The mask *)

(** a mask whose leaves have the shape [s], or a number *)
Definition mask_uniform (s : shape) (y : vec bool) : Prop :=
  (exists b, y = Leaf (OpNum b)) \/ Forall (fun o => op_shape o = s) (leaves y).

Lemma mask_broadcast (y : vec bool) (s : shape) : NoDup (dkeys s) -> vec_wf y -> (forall m, In m (leaves y) -> fits_in (op_shape m) s) ->
  exists y', where_broadcast (Some y) s = Ok (Some y') /\ vec_wf y' /\ mask_uniform s y' /\
    forall p m, reaches y p = Some m -> exists m', reaches y' p = Some m' /\ forall e, op_at m' e = op_at m e.
Proof.
  intros N W F.
  assert (G : (exists b, y = Leaf (OpNum b)) \/ where_broadcast (Some y) s = (x <- vec_broadcast_to y s ;; Ok (Some x))).
  { destruct y as [[a|b]|ty cs]; [right|left; now exists b|right]; reflexivity. }
  destruct G as [(b & ->)|G].
  - exists (Leaf (OpNum b)). split; [reflexivity|]. split; [exact W|]. split; [left; now exists b|]. intros p m H. exists m. auto.
  - destruct (vec_broadcast_total s y W N) as (y' & E).
    { intros m Hm ax n Hn. destruct (F m Hm ax n Hn) as (k & Hk & X). split; [now apply (in_map fst) in Hk|]. destruct X as [-> | ->]; auto. }
    destruct (vec_broadcast_wf s y y' W N E) as (W' & _ & S' & _). destruct (vec_broadcast_spec s y y' W N E) as (_ & L).
    exists y'. split; [rewrite G, E; reflexivity|]. split; [exact W'|]. split; [now right|].
    intros p m H. apply reaches_prefix in H. destruct H as (q & q' & -> & H). specialize (L q). rewrite H in L.
    destruct L as (m' & Lm & _ & _ & V & _). exists m'. split; [apply reaches_prefix; eauto|exact V].
Qed.

Lemma uniform_mask_shape (y : vec bool) s : NoDup (dkeys s) -> vec_wf y -> mask_uniform s y ->
  exists t, vec_shape y = Ok t /\ NoDup (dkeys t) /\ forall ax n, In (ax, n) t -> In (ax, n) s.
Proof.
  intros N W [(b & ->)|U].
  - exists []. split; [reflexivity|]. split; [constructor|intros ax n []].
  - assert (Q := vec_shape_leaves y W).
    assert (Eall : broadcast_shapes (map op_shape (leaves y)) = Ok (match leaves y with [] => [] | _ => s end)).
    { destruct (leaves y) as [|o l]; [reflexivity|]. cbn [map]. inversion U; subst.
      apply DerivedFacts.bs_covered; [exact N|]. intros t Ht. apply in_map_iff in Ht. destruct Ht as (o' & <- & Ho').
      rewrite Forall_forall in H2. rewrite (H2 o' Ho'). split; [exact N|]. intros ax n H. split; [now apply (in_map fst) in H|now right]. }
    rewrite Eall in Q. destruct (vec_shape y) as [t|] eqn:E; [|contradiction]. exists t. split; [reflexivity|]. split; [exact (vec_shape_NoDup y t W E)|].
    cbn in Q. intros ax n H. apply Q in H. destruct (leaves y); [destruct H|exact H].
Qed.

Lemma mask_uniform_leaf s y m : mask_uniform s y -> In m (leaves y) -> op_shape m = s \/ exists b, m = OpNum b.
Proof.
  intros [(b & ->)|U] H.
  - destruct H as [<- |[]]. right. now exists b.
  - left. rewrite Forall_forall in U. now apply U.
Qed.

(** ** The axes *)

Definition base_of (sh : shape) (l : list string) : shape :=
  dict_of (flat_map (fun ax => match dget sh ax with Some n => [(ax, n)] | None => [] end) l).

Lemma dset_get {V} (d : dict V) k v k' : dget (dset d k v) k' = if String.eqb k' k then Some v else dget d k'.
Proof. rewrite dget_dset. reflexivity. Qed.

Lemma base_spec (sh : shape) (l : list string) : NoDup (dkeys sh) ->
  NoDup (dkeys (base_of sh l)) /\ forall ax n, In (ax, n) (base_of sh l) <-> In ax l /\ In (ax, n) sh.
Proof.
  intros N. unfold base_of, dict_of.
  set (es := flat_map (fun ax => match dget sh ax with Some n => [(ax, n)] | None => [] end) l).
  assert (He : forall ax n, In (ax, n) es <-> In ax l /\ In (ax, n) sh).
  { intros ax n. unfold es. rewrite in_flat_map. split.
    - intros (k & Hk & H). destruct (dget sh k) as [m|] eqn:D; [|destruct H]. destruct H as [H|[]]. injection H as <- <-. split; [exact Hk|now apply dget_In].
    - intros [H1 H2]. exists ax. split; [exact H1|]. rewrite (dget_NoDup sh ax n N H2). now left. }
  assert (G : forall es d, NoDup (dkeys d) -> (forall ax n m, In (ax, n) (es ++ d) -> In (ax, m) (es ++ d) -> n = m) ->
    NoDup (dkeys (fold_left (fun d (kv : string * nat) => dset d (fst kv) (snd kv)) es d)) /\
    forall ax n, In (ax, n) (fold_left (fun d (kv : string * nat) => dset d (fst kv) (snd kv)) es d) <-> In (ax, n) (es ++ d)).
  { clear. induction es as [|[k v] es IH]; intros d Nd U; [split; [exact Nd|intros; reflexivity]|]. cbn [fold_left fst snd].
    assert (Nd' : NoDup (dkeys (dset d k v))) by now apply NoDup_dset.
    assert (Hd : forall ax n, In (ax, n) (dset d k v) <-> (ax, n) = (k, v) \/ In (ax, n) d).
    { intros ax n. split.
      - intros H. apply (dget_NoDup _ _ _ Nd') in H. rewrite dset_get in H. destruct (String.eqb_spec ax k) as [-> |D].
        + injection H as <-. now left.
        + right. now apply dget_In.
      - intros [H|H]; apply dget_In; rewrite dset_get.
        + injection H as -> ->. now rewrite String.eqb_refl.
        + destruct (String.eqb_spec ax k) as [-> |D]; [|now apply dget_NoDup]. f_equal. apply (U k v n); [now left|]. apply in_or_app. now right. }
    destruct (IH (dset d k v) Nd') as [H1 H2].
    - intros ax n m Hn Hm. apply (U ax n m); apply in_app_or in Hn, Hm.
      + destruct Hn as [Hn|Hn]; [right; apply in_or_app; now left|]. apply Hd in Hn. destruct Hn as [Hn|Hn]; [left; now symmetry|right; apply in_or_app; now right].
      + destruct Hm as [Hm|Hm]; [right; apply in_or_app; now left|]. apply Hd in Hm. destruct Hm as [Hm|Hm]; [left; now symmetry|right; apply in_or_app; now right].
    - split; [exact H1|]. intros ax n. rewrite H2. rewrite !in_app_iff, Hd. cbn [In]. intuition congruence. }
  destruct (G es []) as [H1 H2]; [constructor| |].
  - rewrite app_nil_r. intros ax n m Hn Hm. apply He in Hn, Hm. destruct Hn as [_ Hn], Hm as [_ Hm]. apply (dget_NoDup sh ax _ N) in Hn, Hm. congruence.
  - split; [exact H1|]. intros ax n. rewrite H2, app_nil_r. apply He.
Qed.

(** ** One component *)

Lemma broadcast_NoDup l r : Forall (fun s => NoDup (dkeys s)) l -> broadcast_shapes l = Ok r -> NoDup (dkeys r).
Proof. intros N E. exact (proj1 (broadcast_shapes_ok l r N E)). Qed.

Lemma shape_with_NoDup {C} (v : vec C) w T : vec_wf v -> mask_for v w -> shape_with v w = Ok T -> NoDup (dkeys T).
Proof.
  intros W M E. unfold shape_with in E. apply bind_ok in E. destruct E as (sv & Ev & E). assert (Nv := vec_shape_NoDup _ _ W Ev). destruct w as [w|].
  - apply bind_ok in E. destruct E as (sw & Ew & E). destruct (M w eq_refl) as (Ww & _). apply (broadcast_NoDup _ _) in E; [exact E|].
    repeat constructor; [exact Nv|exact (vec_shape_NoDup _ _ Ww Ew)].
  - apply (broadcast_NoDup _ _) in E; [exact E|]. repeat constructor. exact Nv.
Qed.

Lemma mask_component (w : option (vec bool)) ty (cs : list (string * vec A)) c x T : vec_wf (Node ty cs) -> filled (Node ty cs) ->
  mask_for (Node ty cs) w -> shape_with (Node ty cs) w = Ok T -> In (c, x) cs ->
  (w = None /\ where_component w c = Ok None) \/
  exists w0 wx shw, w = Some w0 /\ where_component w c = Ok (Some wx) /\ vec_wf wx /\ vec_shape wx = Ok shw /\ fits_in shw T /\
    forall p, reaches wx p = reaches w0 (c :: p).
Proof.
  intros W Hf M E Hc. destruct w as [w|]; [right|left; auto]. destruct (M w eq_refl) as (Ww & R).
  assert (Nc : NoDup (map fst cs)) by (inversion W; auto).
  unfold shape_with in E. apply bind_ok in E. destruct E as (sv & Ev & E). apply bind_ok in E. destruct E as (sw & Ew & E).
  assert (Nl : Forall (fun s => NoDup (dkeys s)) [sv; sw]).
  { repeat constructor; [exact (vec_shape_NoDup _ _ W Ev)|exact (vec_shape_NoDup _ _ Ww Ew)]. }
  assert (Fw : fits_in sw T) by (apply (OptimizeFacts.broadcast_fits _ _ sw Nl E); cbn; auto).
  destruct w as [m|ty' ws].
  - exists (Leaf m), (Leaf m), sw. split; [reflexivity|]. split; [reflexivity|]. split; [exact Ww|]. split; [exact Ew|]. split; [exact Fw|]. now intros [|].
  - destruct (filled_leaf x) as (p & o & L).
    { inversion W as [|? ? _ W']; subst. exact (tree_ok_any _ x (W' c x Hc)). }
    { exact (filled_child ty cs c x Nc Hf Hc). }
    assert (R' := R (c :: p) o). cbn [leaf_at reaches] in R'. rewrite (dget_NoDup cs c x Nc Hc) in R'. specialize (R' L).
    destruct (dget ws c) as [wx|] eqn:D; [|congruence]. assert (Hw := dget_In _ _ _ D).
    destruct (child_shape ty' ws c wx sw Ww Ew Hw) as (shw & Es & Fs).
    exists (Node ty' ws), wx, shw. split; [reflexivity|]. split; [cbn [where_component component]; now rewrite D|].
    split; [inversion Ww as [|? ? _ Ww']; subst; exact (Ww' c wx Hw)|]. split; [exact Es|]. split; [exact (DotFacts.fits_trans _ _ _ Fs Fw)|].
    intros q. cbn [reaches]. now rewrite D.
Qed.

Lemma component_step (w : option (vec bool)) ty (cs : list (string * vec A)) c x T : vec_wf (Node ty cs) -> filled (Node ty cs) ->
  mask_for (Node ty cs) w -> shape_with (Node ty cs) w = Ok T -> In (c, x) cs ->
  exists wc shx shw shc wb b, where_component w c = Ok wc /\ vec_shape x = Ok shx /\ where_shape wc = Ok shw /\
    broadcast_shapes [shx; shw; base_of T (axes_of axis T)] = Ok shc /\ where_broadcast wc shc = Ok wb /\ vec_broadcast_to x shc = Ok b /\
    NoDup (dkeys shc) /\ fits_in shc T /\ (forall ax n, In ax (axes_of axis T) -> In (ax, n) T -> In (ax, n) shc) /\
    vec_wf b /\ filled b /\ depth b = depth x /\ broadcasted shc x b /\ Forall (fun o => op_shape o = shc) (leaves b) /\
    mask_for b wb /\ shape_with b wb = Ok shc /\ (wb = None <-> w = None) /\ (forall y, wb = Some y -> mask_uniform shc y) /\
    forall p o, leaf_at x p = Some o -> forall e, allowed wb p e = allowed w (c :: p) e.
Proof.
  intros W Hf M E Hc. assert (Nc : NoDup (map fst cs)) by (inversion W; auto).
  assert (Wx : vec_wf x) by (inversion W as [|? ? _ W']; subst; exact (W' c x Hc)).
  assert (Fx := filled_child ty cs c x Nc Hf Hc).
  assert (NT := shape_with_NoDup _ _ _ W M E).
  assert (Sx : exists shx, vec_shape x = Ok shx /\ fits_in shx T).
  { assert (X := E). unfold shape_with in X. apply bind_ok in X. destruct X as (sv & Ev & X).
    destruct (child_shape ty cs c x sv W Ev Hc) as (shx & Ex & Fs). exists shx. split; [exact Ex|].
    assert (Nv := vec_shape_NoDup _ _ W Ev). apply (DotFacts.fits_trans _ sv _ Fs). destruct w as [w|].
    - apply bind_ok in X. destruct X as (sw & Ew & X). destruct (M w eq_refl) as (Ww & _).
      apply (OptimizeFacts.broadcast_fits _ _ sv) in X; [exact X| |cbn; auto]. repeat constructor; [exact Nv|exact (vec_shape_NoDup _ _ Ww Ew)].
    - apply (OptimizeFacts.broadcast_fits _ _ sv) in X; [exact X| |cbn; auto]. repeat constructor. exact Nv. }
  destruct Sx as (shx & Ex & Fsx). assert (Nx := vec_shape_NoDup _ _ Wx Ex).
  destruct (base_spec T (axes_of axis T) NT) as (Nb & Hb).
  assert (Fb : fits_in (base_of T (axes_of axis T)) T).
  { intros ax n H. apply Hb in H. exists n. split; [tauto|now right]. }
  assert (G : exists wc shw, where_component w c = Ok wc /\ where_shape wc = Ok shw /\ NoDup (dkeys shw) /\ fits_in shw T).
  { destruct (mask_component w ty cs c x T W Hf M E Hc) as [(_ & Ew)|(w0 & wx & shw & _ & Ew & Wwx & Es & Fs & _)].
    - exists None, []. split; [exact Ew|]. split; [reflexivity|]. split; [constructor|intros ax n []].
    - exists (Some wx), shw. split; [exact Ew|]. split; [exact Es|]. split; [exact (vec_shape_NoDup _ _ Wwx Es)|exact Fs]. }
  destruct G as (wc & shw & Ewc & Ews & Nw & Fw).
  assert (Nl : Forall (fun s => NoDup (dkeys s)) [shx; shw; base_of T (axes_of axis T)]) by (repeat constructor; assumption).
  destruct (PdfFacts.fits_broadcast [shx; shw; base_of T (axes_of axis T)] T Nl NT) as (shc & Ec & Fc).
  { intros s [<- |[<- |[<- |[]]]]; assumption. }
  assert (Nc' := broadcast_NoDup _ _ Nl Ec).
  assert (Cov : forall ax n, In ax (axes_of axis T) -> In (ax, n) T -> In (ax, n) shc).
  { intros ax n H1 H2. assert (Hbn : In (ax, n) (base_of T (axes_of axis T))) by (apply Hb; auto).
    destruct (OptimizeFacts.broadcast_fits _ _ (base_of T (axes_of axis T)) Nl Ec ltac:(cbn; auto) ax n Hbn) as (m & Hm & X).
    destruct (Fc ax m Hm) as (k & Hk & Y). apply (dget_NoDup _ _ _ NT) in Hk, H2. rewrite Hk in H2. injection H2 as ->.
    destruct X as [-> | ->]; [|exact Hm]. destruct Y as [-> | ->]; exact Hm. }
  destruct (vec_broadcast_total shc x Wx Nc') as (b & Eb).
  { intros o Ho ax n Hn. assert (Q := leaf_fits_shape x shx o Wx Ex Ho). assert (Q' := OptimizeFacts.broadcast_fits _ _ shx Nl Ec ltac:(cbn; auto)).
    destruct (DotFacts.fits_trans _ _ _ Q Q' ax n Hn) as (m & Hm & X). split; [now apply (in_map fst) in Hm|]. destruct X as [-> | ->]; auto. }
  destruct (vec_broadcast_wf shc x b Wx Nc' Eb) as (Wb & Db & Ub & _). assert (Sb := vec_broadcast_spec shc x b Wx Nc' Eb).
  assert (Fb' : filled b) by (intros p ty' cs' K; rewrite (proj1 Sb) in K; exact (Fx p ty' cs' K)).
  assert (Vb := uniform_shape b shc Nc' Fb' (tree_ok_any _ b Wb) Ub).
  assert (One : forall s, NoDup (dkeys s) -> (forall ax n, In (ax, n) s -> In (ax, n) shc) -> broadcast_shapes [shc; s] = Ok shc).
  { intros s Ns H. apply DerivedFacts.bs_covered; [exact Nc'|]. intros t [<- |[]]. split; [exact Ns|]. intros ax n Hn. apply H in Hn.
    split; [now apply (in_map fst) in Hn|now right]. }
  assert (LB : forall p, leaf_at b p <> None -> leaf_at x p <> None).
  { intros p H K. destruct Sb as (_ & Sb). specialize (Sb p). rewrite K in Sb. congruence. }
  destruct (mask_component w ty cs c x T W Hf M E Hc) as [(-> & Ew)|(w0 & wx & shw' & -> & Ew & Wwx & Es & Fs & Rw)].
  - cbn in Ewc. injection Ewc as <-. cbn in Ews. injection Ews as <-.
    exists None, shx, [], shc, None, b. do 13 (split; [solve [assumption|reflexivity]|]). split; [assumption|].
    split; [intros y [=]|]. split.
    { unfold shape_with. rewrite Vb. cbn [bind]. apply DerivedFacts.bs_covered; [exact Nc'|intros t []]. }
    split; [tauto|]. split; [intros y [=]|]. reflexivity.
  - rewrite Ew in Ewc. injection Ewc as <-. cbn [where_shape] in Ews. rewrite Es in Ews. injection Ews as ->.
    destruct (mask_broadcast wx shc Nc' Wwx) as (y' & Ey & Wy & Uy & Ry).
    { intros m Hm. apply (DotFacts.fits_trans _ shw); [exact (leaf_fits_shape wx shw m Wwx Es Hm)|].
      exact (OptimizeFacts.broadcast_fits _ _ shw Nl Ec ltac:(cbn; auto)). }
    assert (RR : forall p o, leaf_at x p = Some o -> exists m m', reaches w0 (c :: p) = Some m /\ reaches y' p = Some m' /\ forall e, op_at m' e = op_at m e).
    { intros p o L. destruct (M w0 eq_refl) as (_ & R). assert (Rp := R (c :: p) o). cbn [leaf_at] in Rp. rewrite (dget_NoDup cs c x Nc Hc) in Rp.
      specialize (Rp L). destruct (reaches w0 (c :: p)) as [m|] eqn:Em; [|congruence]. rewrite <- Rw in Em.
      destruct (Ry p m Em) as (m' & Em' & V). exists m, m'. auto. }
    exists (Some wx), shx, shw, shc, (Some y'), b. do 13 (split; [solve [assumption|reflexivity]|]). split; [assumption|]. split.
    { intros y Hy. injection Hy as <-. split; [exact Wy|]. intros p o L. assert (Lx : leaf_at x p <> None) by (apply LB; congruence).
      destruct (leaf_at x p) as [o'|] eqn:Lx'; [|congruence]. destruct (RR p o' Lx') as (m & m' & _ & Hm & _). congruence. }
    split.
    { unfold shape_with. rewrite Vb. cbn [bind]. destruct (uniform_mask_shape y' shc Nc' Wy Uy) as (t & Et & Nt & Ht). rewrite Et. cbn [bind]. now apply One. }
    split; [split; discriminate|]. split; [intros y Hy; injection Hy as <-; exact Uy|].
    intros p o L e. destruct (RR p o L) as (m & m' & H1 & H2 & V). unfold allowed. rewrite H1, H2. apply V.
Qed.

(** ** The vector *)

Definition masked (w : option (vec bool)) : bool := match w with Some _ => true | None => false end.

Lemma axes_step (T s : shape) w w' : NoDup (dkeys T) -> NoDup (dkeys s) -> fits_in s T -> (w' = None <-> w = None) ->
  (forall ax n, In ax (axes_of axis T) -> In (ax, n) T -> In (ax, n) s) -> reducible T (masked w) ->
  Permutation (axes_of axis T) (axes_of axis s) /\ (forall ax, In ax (axes_of axis T) -> size_of T ax = size_of s ax) /\ reducible s (masked w').
Proof.
  intros NT Ns F Hw Cov (Na & I & Id).
  assert (Keys : forall ax, In ax (axes_of axis T) -> In ax (dkeys s)).
  { intros ax H. assert (K := I ax H). apply in_map_iff in K. destruct K as ([k n] & X & K). cbn [fst] in X. subst k.
    assert (Z := Cov ax n H K). now apply (in_map fst) in Z. }
  assert (P : Permutation (axes_of axis T) (axes_of axis s)).
  { destruct axis as [l|]; [apply Permutation_refl|]. cbn [axes_of] in *. apply NoDup_Permutation; [exact NT|exact Ns|]. intros ax. split; [apply Keys|].
    intros H. apply in_map_iff in H. destruct H as ([k n] & X & H). cbn [fst] in X. subst k. destruct (F ax n H) as (m & Hm & _). now apply (in_map fst) in Hm. }
  assert (Sz : forall ax, In ax (axes_of axis T) -> size_of T ax = size_of s ax).
  { intros ax H. assert (K := I ax H). apply in_map_iff in K. destruct K as ([k n] & X & K). cbn [fst] in X. subst k.
    assert (Z := Cov ax n H K). unfold size_of. now rewrite (dget_NoDup _ _ _ NT K), (dget_NoDup _ _ _ Ns Z). }
  split; [exact P|]. split; [exact Sz|]. split; [exact (Permutation_NoDup P Na)|]. split.
  - intros ax H. apply Keys. exact (Permutation_in ax (Permutation_sym P) H).
  - destruct Id as [Id|(Id & Z)]; [now left|]. right. split.
    + destruct w' as [y|]; [|reflexivity]. destruct w; [discriminate|]. assert (X := proj2 Hw eq_refl). discriminate.
    + intros ax H. apply (Permutation_in ax (Permutation_sym P)) in H. rewrite <- Sz by exact H. now apply Z.
Qed.

Definition reduces (v : vec A) (w : option (vec bool)) (T : shape) (r : vec B) : Prop :=
  (forall p, kind r p = kind v p) /\
  forall p, match leaf_at v p with
            | None => leaf_at r p = None
            | Some o => exists a, leaf_at r p = Some (OpArr a) /\ wf a /\ fits_in (sshape a) (reduced keepdims (axes_of axis T) T) /\
                forall e, inside e (reduced keepdims (axes_of axis T) T) -> op_at (OpArr a) e = total f o (allowed w p) T (axes_of axis T) e
            end.

Lemma vec_reduce_ok fuel : forall v w T, depth v <= fuel -> vec_wf v -> filled v -> mask_for v w -> shape_with v w = Ok T ->
  (forall o, v = Leaf o -> op_shape o = T /\ forall y, w = Some y -> mask_uniform T y) ->
  reducible T (masked w) -> exists r, vec_reduce_rec fuel identity f v axis keepdims w = Ok r /\ reduces v w T r.
Proof.
  assert (Leafcase : forall fuel o w T, vec_wf (Leaf o) -> mask_for (Leaf o) w -> shape_with (Leaf o) w = Ok T ->
    op_shape o = T -> (forall y, w = Some y -> mask_uniform T y) -> reducible T (masked w) ->
    exists r, vec_reduce_rec fuel identity f (Leaf o) axis keepdims w = Ok r /\ reduces (Leaf o) w T r).
  { clear fuel. intros fuel o w T W M E So Uw Rd. assert (Wo : op_wf o) by (inversion W; auto).
    assert (NT : NoDup (dkeys T)) by (rewrite <- So; now apply op_shape_NoDup).
    assert (Wm : exists wm, (forall m, wm = Some m -> op_wf m /\ (op_shape m = T \/ exists b, m = OpNum b)) /\
              w = option_map (fun m => Leaf m) wm).
    { destruct w as [y|]; [|exists None; split; [intros m [=]|reflexivity]]. destruct (M y eq_refl) as (Wy & R). specialize (R [] o eq_refl).
      destruct y as [m|ty cs]; [|now destruct R]. exists (Some m). split; [|reflexivity]. intros m' Hm. injection Hm as <-.
      split; [inversion Wy; auto|]. apply (mask_uniform_leaf T (Leaf m) m (Uw _ eq_refl)). now left. }
    destruct Wm as (wm & Hm & ->). destruct (leaf_reduce o wm T Wo So NT Hm) as (r & Er & Wr & Fr & Vr).
    { destruct wm; exact Rd. }
    exists (Leaf (OpArr r)). split.
    - destruct fuel, wm; cbn [vec_reduce_rec option_map]; rewrite Er; reflexivity.
    - split; [intros [|c p]; reflexivity|]. intros [|c p]; cbn [leaf_at]; [|reflexivity]. exists r. split; [reflexivity|]. split; [exact Wr|]. split; [exact Fr|].
      intros e He. rewrite (Vr e He). unfold total. f_equal. f_equal. apply filter_ext. intros e'. destruct wm; reflexivity. }
  induction fuel as [|fuel IH]; intros v w T D W Hf M E Hl Rd; destruct v as [o|ty cs].
  1,3: destruct (Hl o eq_refl); now apply Leafcase.
  - cbn in D. lia.
  - cbn [vec_reduce_rec]. rewrite E. cbn [bind].
    assert (NT := shape_with_NoDup _ _ _ W M E).
    assert (Guard : match axis with
             | Some _ => negb (forallb (fun ax => smem ax (dkeys T)) (axes_of axis T))
             | None => false
             end = false).
    { destruct Rd as (_ & I & _). destruct axis as [l|]; [|reflexivity]. apply negb_false_iff, forallb_forall. intros ax H. apply smem_In. now apply I. }
    change (match axis with Some l => l | None => dkeys T end) with (axes_of axis T). rewrite Guard. fold (base_of T (axes_of axis T)).
    match goal with |- context [on_components ?g cs] => set (step := g) end.
    assert (St : forall c x, In (c, x) cs -> exists r, step c x = Ok r /\
      (forall p, kind r p = kind x p) /\
      forall p, match leaf_at x p with
            | None => leaf_at r p = None
            | Some o => exists a, leaf_at r p = Some (OpArr a) /\ wf a /\ fits_in (sshape a) (reduced keepdims (axes_of axis T) T) /\
                forall e, inside e (reduced keepdims (axes_of axis T) T) -> op_at (OpArr a) e = total f o (allowed w (c :: p)) T (axes_of axis T) e
            end).
    { intros c x Hc.
      destruct (component_step w ty cs c x T W Hf M E Hc) as (wc & shx & shw & shc & wb & b & E1 & E2 & E3 & E4 & E5 & E6 & Nc & Fc & Cov & Wb & Fb & Db & Bc & Ub & Mb & Eb & Hw & Uw & Al).
      destruct (axes_step T shc w wb NT Nc Fc Hw Cov Rd) as (P & Sz & Rd').
      destruct (IH b wb shc) as (r & Er & Kr & Vr); try assumption.
      { rewrite Db. assert (Z := depth_In ty cs c x Hc). lia. }
      { intros o ->. split; [|exact Uw]. inversion Ub; auto. }
      exists r. split.
      { unfold step. rewrite E1. cbn [bind]. rewrite E2. cbn [bind]. rewrite E3. cbn [bind]. match goal with |- context [broadcast_shapes ?l] => replace (broadcast_shapes l) with (Ok shc) by (symmetry; exact E4) end. cbn [bind]. rewrite E5. cbn [bind]. rewrite E6. cbn [bind]. exact Er. }
      split; [intros p; rewrite Kr; apply (proj1 Bc)|]. intros p. specialize (Vr p). destruct Bc as (_ & Bc). specialize (Bc p).
      destruct (leaf_at x p) as [o|] eqn:Lx; [|rewrite Bc in Vr; exact Vr]. destruct Bc as (ob & Lb & Wob & Sob & Vob & Fob). rewrite Lb in Vr.
      destruct Vr as (a & La & Wa & Fa & Va). exists a. split; [exact La|]. split; [exact Wa|].
      assert (Fr : fits_in (reduced keepdims (axes_of axis shc) shc) (reduced keepdims (axes_of axis T) T)).
      { intros ax n H. apply reduced_In in H. destruct H as [[H1 H2]|(K & H1 & -> & H2)].
        - destruct (Fc ax n H2) as (m & Hm & X). exists m. split; [|exact X]. apply reduced_In. left. split; [|exact Hm].
          intros Z. apply H1. exact (Permutation_in ax P Z).
        - exists 1. split; [|now left]. apply reduced_In. right. split; [exact K|]. split; [exact (Permutation_in ax (Permutation_sym P) H1)|]. split; [reflexivity|].
          destruct Rd as (_ & I & _). apply I. exact (Permutation_in ax (Permutation_sym P) H1). }
      split; [exact (DotFacts.fits_trans _ _ _ Fa Fr)|]. intros e He.
      set (R := reduced keepdims (axes_of axis shc) shc) in *. assert (NR : NoDup (dkeys R)) by now apply reduced_NoDup.
      assert (He' : inside (bclamp R e) R) by (apply clamp_inside; [exact NR|exact (MatrixFacts.fits_within _ _ _ Fr He)]).
      transitivity (op_at (OpArr a) (bclamp R e)).
      { symmetry. apply op_at_clamp; [exact Wa|exact NR|]. intros ax n Hn. destruct (Fa ax n Hn) as (m & Hm & [-> | ->]); auto. }
      rewrite (Va _ He'). symmetry.
      assert (Near : forall (e1 e2 : env) ax n, (forall ax, In ax (axes_of axis shc) -> e1 ax = e2 ax) ->
        (forall ax, ~ In ax (axes_of axis shc) -> e1 ax = e ax /\ e2 ax = bclamp R e ax) -> In (ax, n) shc -> n = 1 \/ e1 ax = e2 ax).
      { intros e1 e2 ax n H1 H2 Hn. destruct (in_dec string_dec ax (axes_of axis shc)) as [Z|Z]; [right; now apply H1|]. destruct (H2 ax Z) as [-> ->].
        assert (HR : In (ax, n) R) by (apply reduced_In; auto). unfold bclamp. rewrite (dget_NoDup _ _ _ NR HR). destruct n as [|[|n]]; auto. }
      assert (Rq : respects (allowed w (c :: p))).
      { intros e1 e2 H. unfold allowed. destruct w as [y|]; [|reflexivity]. destruct (reaches y (c :: p)); [|reflexivity]. now apply op_at_respects. }
      apply total_same; [exact Sy|apply Rd|exact P|exact Rq|exact Sz|]. intros e1 e2 H1 _ H2. split.
      - rewrite Vob. apply op_at_near.
        + assert (Z := tree_ok_leaf_at _ b p ob Wb Lb). inversion W as [|? ? Ncs W']; subst. exact (tree_ok_leaf_at _ x p o (W' c x Hc) Lx).
        + intros ax n Hn. destruct (Fob ax n Hn) as [-> |Hn']; [now left|]. exact (Near e1 e2 ax n H1 H2 Hn').
      - rewrite <- (Al p o Lx e1). unfold allowed. destruct wb as [y|]; [|reflexivity]. destruct (reaches y p) as [m|] eqn:Ry; [|reflexivity].
        assert (Lm : In m (leaves y)) by (apply reaches_prefix in Ry; destruct Ry as (q & q' & _ & Lq); exact (MatrixFacts.leaf_In _ _ _ Lq)).
        destruct (mask_uniform_leaf shc y m (Uw y eq_refl) Lm) as [Sm|(bb & ->)]; [|reflexivity]. destruct (Mb y eq_refl) as (Wy & _).
        apply op_at_near.
        + apply reaches_prefix in Ry. destruct Ry as (q & q' & _ & Lq). exact (tree_ok_leaf_at _ y q m Wy Lq).
        + rewrite Sm. intros ax n Hn. exact (Near e1 e2 ax n H1 H2 Hn). }
    destruct (on_components_intro step cs) as (rs & Ers).
    { intros c x Hc. destruct (St c x Hc) as (r & Er & _). eauto. }
    rewrite Ers. cbn [bind]. exists (Node ty rs). split; [reflexivity|]. apply on_components_ok in Ers.
    assert (Names := Forall2_names (fun kv kr => step (fst kv) (snd kv) = Ok (snd kr)) cs rs Ers).
    assert (Get := Forall2_dget (fun c x y => step c x = Ok y) cs rs Ers).
    split; intros [|c p]; cbn [kind leaf_at].
    + now rewrite Names.
    + specialize (Get c). destruct (dget cs c) as [x|] eqn:Dc, (dget rs c) as [y|]; try contradiction; [|reflexivity].
      destruct (St c x (dget_In _ _ _ Dc)) as (r & Er & Kr & _). rewrite Er in Get. injection Get as <-. apply Kr.
    + reflexivity.
    + specialize (Get c). destruct (dget cs c) as [x|] eqn:Dc, (dget rs c) as [y|]; try contradiction; [|reflexivity].
      destruct (St c x (dget_In _ _ _ Dc)) as (r & Er & _ & Vr). rewrite Er in Get. injection Get as <-. apply Vr.
Qed.

End Reductions.

(** ** The shape *)

Lemma joint_unique l T T' : joint l T -> joint l T' -> same_shape T T'.
Proof.
  assert (G : forall T T', joint l T -> joint l T' -> forall ax n, In (ax, n) T -> In (ax, n) T').
  { clear T T'. intros T T' (N & F & At) (N' & F' & At') ax n H. destruct (At ax n H) as (s & Hs & Hn). destruct (F' s Hs ax n Hn) as (m & Hm & X).
    destruct X as [-> | ->]; [|exact Hm]. destruct (At' ax m Hm) as (s' & Hs' & Hm'). destruct (F s' Hs' ax m Hm') as (k & Hk & Y).
    apply (dget_NoDup _ _ _ N) in H, Hk. rewrite H in Hk. injection Hk as <-. destruct Y as [-> | ->]; exact Hm. }
  intros J J' ax n. split; now apply G.
Qed.

Lemma broadcast_joint l r : Forall (fun s => NoDup (dkeys s)) l -> broadcast_shapes l = Ok r -> joint l r.
Proof.
  intros N E. split; [exact (broadcast_NoDup l r N E)|]. split; [intros s Hs; exact (OptimizeFacts.broadcast_fits l r s N E Hs)|].
  intros ax n H. exact (broadcast_attained l r ax n N E H).
Qed.

Lemma joint_broadcast l T : Forall (fun s => NoDup (dkeys s)) l -> joint l T -> exists r, broadcast_shapes l = Ok r /\ same_shape r T.
Proof.
  intros N J. destruct (PdfFacts.fits_broadcast l T N (proj1 J) (proj1 (proj2 J))) as (r & E & _). exists r. split; [exact E|].
  apply (joint_unique l); [now apply broadcast_joint|exact J].
Qed.

Lemma vec_shape_joint {C} (v : vec C) s : vec_wf v -> vec_shape v = Ok s -> joint (map op_shape (leaves v)) s.
Proof.
  intros W E. assert (Q := vec_shape_leaves v W). rewrite E in Q.
  destruct (broadcast_shapes (map op_shape (leaves v))) as [r|] eqn:Er; [|contradiction]. cbn in Q.
  destruct (broadcast_joint _ _ (leaf_shapes_NoDup v W) Er) as (N & F & At). split; [exact (vec_shape_NoDup v s W E)|]. split.
  - intros t Ht ax n Hn. destruct (F t Ht ax n Hn) as (m & Hm & X). exists m. split; [now apply Q|exact X].
  - intros ax n H. apply At. now apply Q.
Qed.

Lemma vec_shape_fits {C} (v : vec C) T : vec_wf v -> NoDup (dkeys T) -> (forall o, In o (leaves v) -> fits_in (op_shape o) T) ->
  exists s, vec_shape v = Ok s /\ fits_in s T.
Proof.
  intros W N F. destruct (PdfFacts.fits_broadcast (map op_shape (leaves v)) T (leaf_shapes_NoDup v W) N) as (r & E & Fr).
  { intros s Hs. apply in_map_iff in Hs. destruct Hs as (o & <- & Ho). now apply F. }
  assert (Q := vec_shape_leaves v W). rewrite E in Q. destruct (vec_shape v) as [s|]; [|contradiction]. exists s. split; [reflexivity|].
  intros ax n H. apply Fr. now apply Q.
Qed.

Lemma shape_with_ok {C} (v : vec C) w T : vec_wf v -> mask_for v w -> shape_with v w = Ok T -> joint (leaf_shapes v w) T.
Proof.
  intros W M E. assert (N := shape_with_NoDup v w T W M E). unfold shape_with in E. apply bind_ok in E. destruct E as (sv & Ev & E).
  destruct (vec_shape_joint v sv W Ev) as (Nv & Fv & Av). split; [exact N|]. unfold leaf_shapes. destruct w as [w|].
  - apply bind_ok in E. destruct E as (sw & Ew & E). destruct (M w eq_refl) as (Ww & _). destruct (vec_shape_joint w sw Ww Ew) as (Nw & Fw & Aw).
    assert (Nl : Forall (fun s => NoDup (dkeys s)) [sv; sw]) by (repeat constructor; assumption).
    destruct (broadcast_joint _ _ Nl E) as (_ & F & At). split.
    + intros s Hs. apply in_app_or in Hs. destruct Hs as [Hs|Hs].
      * apply (DotFacts.fits_trans _ sv); [now apply Fv|apply F; cbn; auto].
      * apply (DotFacts.fits_trans _ sw); [now apply Fw|apply F; cbn; auto].
    + intros ax n H. destruct (At ax n H) as (s & [<- |[<- |[]]] & Hs).
      * destruct (Av ax n Hs) as (t & Ht & Hn). exists t. split; [apply in_or_app; auto|exact Hn].
      * destruct (Aw ax n Hs) as (t & Ht & Hn). exists t. split; [apply in_or_app; auto|exact Hn].
  - rewrite app_nil_r. assert (Nl : Forall (fun s => NoDup (dkeys s)) [sv]) by (repeat constructor; assumption).
    destruct (broadcast_joint _ _ Nl E) as (_ & F & At). split.
    + intros s Hs. apply (DotFacts.fits_trans _ sv); [now apply Fv|apply F; cbn; auto].
    + intros ax n H. destruct (At ax n H) as (s & [<- |[]] & Hs). now apply Av.
Qed.

Lemma shape_with_total {C} (v : vec C) w : vec_wf v -> mask_for v w ->
  (exists T, shape_with v w = Ok T) \/ (shape_with v w = Err ValueError /\ forall T, ~ joint (leaf_shapes v w) T).
Proof.
  intros W M.
  assert (Tot : forall D (u : vec D), vec_wf u -> (exists s, vec_shape u = Ok s) \/ vec_shape u = Err ValueError).
  { intros D u Wu. assert (Q := vec_shape_leaves u Wu). destruct (broadcast_shapes_total _ (leaf_shapes_NoDup u Wu)) as [(r & E)|E]; rewrite E in Q;
      destruct (vec_shape u) as [s|e]; try contradiction; [left; eauto|right; cbn in Q; now subst]. }
  destruct (shape_with v w) as [T|e] eqn:E; [left; eauto|right]. split.
  - unfold shape_with in E. destruct (Tot _ v W) as [(sv & Ev)|Ev]; rewrite Ev in E; cbn [bind] in E; [|congruence].
    assert (Nv := vec_shape_NoDup v sv W Ev). destruct w as [w|].
    + destruct (M w eq_refl) as (Ww & _). destruct (Tot _ w Ww) as [(sw & Ew)|Ew]; rewrite Ew in E; cbn [bind] in E; [|congruence].
      assert (Nw := vec_shape_NoDup w sw Ww Ew).
      destruct (broadcast_shapes_total [sv; sw] ltac:(repeat constructor; assumption)) as [(r & X)|X]; congruence.
    + destruct (broadcast_shapes_total [sv] ltac:(repeat constructor; assumption)) as [(r & X)|X]; congruence.
  - intros T (N & F & _). unfold shape_with in E. destruct (vec_shape_fits v T W N) as (sv & Ev & Fv).
    { intros o Ho. apply F. apply in_or_app. left. now apply in_map. }
    rewrite Ev in E. cbn [bind] in E. assert (Nv := vec_shape_NoDup v sv W Ev). destruct w as [w|].
    + destruct (M w eq_refl) as (Ww & _). destruct (vec_shape_fits w T Ww N) as (sw & Ew & Fw).
      { intros o Ho. apply F. apply in_or_app. right. now apply in_map. }
      rewrite Ew in E. cbn [bind] in E. assert (Nw := vec_shape_NoDup w sw Ww Ew).
      destruct (PdfFacts.fits_broadcast [sv; sw] T ltac:(repeat constructor; assumption) N) as (r & X & _); [|congruence].
      intros s [<- |[<- |[]]]; assumption.
    + destruct (PdfFacts.fits_broadcast [sv] T ltac:(repeat constructor; assumption) N) as (r & X & _); [|congruence]. intros s [<- |[]]; assumption.
Qed.

(** ** The statements *)

Lemma same_keys (s t : shape) ax : same_shape s t -> In ax (dkeys s) -> In ax (dkeys t).
Proof. intros E H. apply in_map_iff in H. destruct H as ([k n] & X & H). cbn [fst] in X. subst k. apply E in H. now apply (in_map fst) in H. Qed.

Lemma same_size (s t : shape) ax : NoDup (dkeys s) -> NoDup (dkeys t) -> same_shape s t -> size_of s ax = size_of t ax.
Proof.
  intros Ns Nt E. unfold size_of. destruct (dget s ax) as [n|] eqn:D.
  - apply dget_In in D. apply E in D. now rewrite (dget_NoDup _ _ _ Nt D).
  - destruct (dget t ax) as [n|] eqn:D'; [|reflexivity]. apply dget_In in D'. apply E in D'. apply (dget_NoDup _ _ _ Ns) in D'. congruence.
Qed.

Theorem vec_reduce_values {A B} (identity : bool) (f : list A -> B) axis keepdims ty cs (w : option (vec bool)) T : symmetric f ->
  let v := Node ty cs in vec_wf v -> filled v -> mask_for v w -> joint (leaf_shapes v w) T ->
  (forall l, axis = Some l -> NoDup l /\ incl l (dkeys T)) ->
  (identity = true \/ (w = None /\ forall ax, In ax (axes_of axis T) -> size_of T ax <> 0)) ->
  exists r, vec_reduce identity f v axis keepdims w = Ok r /\ (forall p, kind r p = kind v p) /\
    forall p, match leaf_at v p with
              | None => leaf_at r p = None
              | Some o => exists a, leaf_at r p = Some (OpArr a) /\ wf a /\ fits_in (sshape a) (reduced keepdims (axes_of axis T) T) /\
                  forall e, inside e (reduced keepdims (axes_of axis T) T) ->
                    bat a e = f (map (op_at o) (filter (allowed w p) (fibre T (axes_of axis T) e)))
              end.
Proof.
  intros Sy v W Hf M J Ax Id.
  destruct (shape_with_total v w W M) as [(T' & E)|(_ & No)]; [|now destruct (No T)].
  assert (J' := shape_with_ok v w T' W M E). assert (Q := joint_unique _ _ _ J' J). assert (N := proj1 J). assert (N' := proj1 J').
  assert (P : Permutation (axes_of axis T') (axes_of axis T)).
  { destruct axis as [l|]; [apply Permutation_refl|]. cbn [axes_of]. apply NoDup_Permutation; [exact N'|exact N|]. intros ax.
    split; apply same_keys; [exact Q|intros k n; symmetry; apply Q]. }
  assert (Na : NoDup (axes_of axis T)) by (destruct axis as [l|]; [apply (Ax l eq_refl)|exact N]).
  assert (Ia : incl (axes_of axis T) (dkeys T)) by (destruct axis as [l|]; [apply (Ax l eq_refl)|apply incl_refl]).
  assert (Q' : same_shape T T') by (intros k n; symmetry; apply Q).
  assert (Rd : reducible identity axis T' (masked w)).
  { split; [exact (Permutation_NoDup (Permutation_sym P) Na)|]. split.
    - intros ax H. apply (same_keys T T' ax Q'). apply Ia. exact (Permutation_in ax P H).
    - destruct Id as [Id|(-> & Id)]; [now left|]. right. split; [reflexivity|]. intros ax H. rewrite (same_size T' T ax N' N Q). apply Id. exact (Permutation_in ax P H). }
  destruct (vec_reduce_ok identity f axis keepdims Sy (depth v) v w T' (le_n _) W Hf M E ltac:(intros o [=]) Rd) as (r & Er & Kr & Vr).
  exists r. split; [exact Er|]. split; [exact Kr|]. intros p. specialize (Vr p). destruct (leaf_at v p) as [o|] eqn:L; [|exact Vr].
  destruct Vr as (a & La & Wa & Fa & Va). exists a. split; [exact La|]. split; [exact Wa|].
  assert (RR : same_shape (reduced keepdims (axes_of axis T') T') (reduced keepdims (axes_of axis T) T)).
  { intros ax n. rewrite !reduced_In. assert (Pi : In ax (axes_of axis T') <-> In ax (axes_of axis T)).
    { split; apply Permutation_in; [exact P|now apply Permutation_sym]. }
    assert (Ki : In ax (dkeys T') <-> In ax (dkeys T)) by (split; now apply same_keys). rewrite Pi, Ki, (Q ax n). reflexivity. }
  split.
  - intros ax n Hn. destruct (Fa ax n Hn) as (m & Hm & X). exists m. split; [now apply RR|exact X].
  - intros e He. change (bat a e) with (op_at (OpArr a) e). rewrite (Va e).
    + apply total_same; [exact Sy|exact (Permutation_NoDup (Permutation_sym P) Na)|exact P| | |].
      * intros e1 e2 H. unfold allowed. destruct w as [y|]; [|reflexivity]. destruct (reaches y p); [|reflexivity]. now apply op_at_respects.
      * intros ax _. exact (same_size T' T ax N' N Q).
      * intros e1 e2 H1 _ H2. assert (X : forall ax, e1 ax = e2 ax).
        { intros ax. destruct (in_dec string_dec ax (axes_of axis T)) as [Z|Z]; [now apply H1|]. destruct (H2 ax Z). congruence. }
        split; [now apply op_at_respects|]. unfold allowed. destruct w as [y|]; [|reflexivity]. destruct (reaches y p); [|reflexivity]. now apply op_at_respects.
    + intros ax n Hn. apply He. now apply RR.
Qed.

Theorem vec_reduce_absent {A B} (identity : bool) (f : list A -> B) l keepdims ty cs (w : option (vec bool)) T ax :
  let v := Node ty cs in vec_wf v -> mask_for v w -> joint (leaf_shapes v w) T -> In ax l -> ~ In ax (dkeys T) ->
  vec_reduce identity f v (Some l) keepdims w = Err ValueError.
Proof.
  intros v W M J Hl Ha. destruct (shape_with_total v w W M) as [(T' & E)|(_ & No)]; [|now destruct (No T)].
  assert (Q := joint_unique _ _ _ (shape_with_ok v w T' W M E) J).
  unfold vec_reduce. cbn [depth v vec_reduce_rec]. fold v. rewrite E. cbn [bind].
  replace (negb (forallb (fun ax => smem ax (dkeys T')) l)) with true; [reflexivity|]. symmetry. apply negb_true_iff.
  destruct (forallb (fun ax => smem ax (dkeys T')) l) eqn:X; [|reflexivity]. rewrite forallb_forall in X. specialize (X ax Hl). apply smem_In in X.
  destruct Ha. exact (same_keys T' T ax Q X).
Qed.

Theorem vec_reduce_conflict {A B} (identity : bool) (f : list A -> B) axis keepdims ty cs (w : option (vec bool)) :
  let v := Node ty cs in vec_wf v -> mask_for v w -> (forall T, ~ joint (leaf_shapes v w) T) ->
  vec_reduce identity f v axis keepdims w = Err ValueError.
Proof.
  intros v W M No. destruct (shape_with_total v w W M) as [(T' & E)|(E & _)].
  - destruct (No T'). now apply shape_with_ok.
  - unfold vec_reduce. cbn [depth v vec_reduce_rec]. fold v. now rewrite E.
Qed.

(** ** Truth *)

Lemma symmetric_all : symmetric (forallb (fun b : bool => b)).
Proof.
  intros l l' P. induction P; cbn; [reflexivity|congruence|now rewrite !andb_assoc, (andb_comm x y)|congruence].
Qed.

Lemma truth_leaf (a : sarr bool) : wf a -> sshape a = [] -> op_truth (OpArr a) = Ok (bat a (fun _ => 0)).
Proof.
  intros W E. assert (L : s_axes a = []) by (rewrite <- (wf_keys a W), E; reflexivity). assert (O := OptimizeFacts.truth_single a W L).
  unfold op_truth, normalize, Optimize.truth in *. rewrite O. f_equal. unfold SpecOptimize.single, bat, at_. now rewrite L.
Qed.

Lemma truth_tree (v : vec bool) (P : list string -> operand bool -> Prop) : vec_wf v ->
  (forall p o, leaf_at v p = Some o -> exists b, op_truth o = Ok b /\ (b = true <-> P p o)) ->
  exists b, vec_truth v = Ok b /\ (b = true <-> forall p o, leaf_at v p = Some o -> P p o).
Proof.
  revert P. induction v as [o|ty cs IH] using tree_rect'; intros P W H.
  - destruct (H [] o eq_refl) as (b & E & Q). exists b. split; [exact E|]. rewrite Q. split.
    + intros X [|c p] o' L; [|discriminate]. injection L as <-. exact X.
    + intros X. now apply X.
  - inversion W as [|? ? N W']; subst. cbn [vec_truth].
    assert (G : forall ds, incl ds cs -> exists l, traverse (fun kv => vec_truth (snd kv)) ds = Ok l /\
      (forallb (fun b => b) l = true <-> forall c x p o, In (c, x) ds -> leaf_at x p = Some o -> P (c :: p) o)).
    { induction ds as [|[c x] ds IHd]; intros I.
      - exists []. split; [reflexivity|]. split; [intros _ c x p o []|reflexivity].
      - assert (Hc : In (c, x) cs) by (apply I; now left).
        destruct (IH c x Hc (fun p o => P (c :: p) o) (W' c x Hc)) as (b & E & Q).
        { intros p o L. apply H. cbn [leaf_at]. now rewrite (dget_NoDup cs c x N Hc). }
        destruct IHd as (l & El & Ql); [intros z Hz; apply I; now right|]. exists (b :: l). cbn [traverse snd]. rewrite E. cbn [bind]. rewrite El. cbn [bind].
        split; [reflexivity|]. cbn [forallb]. rewrite andb_true_iff, Q, Ql. split.
        + intros [X Y] c' x' p o [K|K] L; [injection K as <- <-; now apply X|now apply (Y c' x')].
        + intros X. split; [intros p o L; apply (X c x); [now left|exact L]|]. intros c' x' p o K L. apply (X c' x'); [now right|exact L]. }
    destruct (G cs (incl_refl _)) as (l & El & Ql). rewrite El. cbn [bind]. eexists. split; [reflexivity|]. rewrite Ql. split.
    + intros X [|c p] o L; [discriminate|]. cbn [leaf_at] in L. destruct (dget cs c) as [x|] eqn:D; [|discriminate]. apply (X c x); [now apply dget_In|exact L].
    + intros X c x p o K L. apply X. cbn [leaf_at]. now rewrite (dget_NoDup cs c x N K).
Qed.

Lemma reduced_all (T : shape) : reduced false (dkeys T) T = [].
Proof.
  unfold reduced. assert (G : forall l, incl l T -> filter (fun kv : string * nat => negb (smem (fst kv) (dkeys T))) l = []).
  { induction l as [|[k n] l IH]; intros I; [reflexivity|]. cbn [filter fst]. replace (smem k (dkeys T)) with true; [apply IH; intros z Hz; apply I; now right|].
    symmetry. apply smem_In. assert (Z := I (k, n) (or_introl eq_refl)). now apply (in_map fst) in Z. }
  apply G, incl_refl.
Qed.

Lemma vec_reduce_wf {A B} (v : vec A) (r : vec B) : tree_ok (fun _ => True) v -> (forall p, kind r p = kind v p) ->
  (forall p, match leaf_at v p with None => leaf_at r p = None | Some _ => exists a, leaf_at r p = Some (OpArr a) /\ wf a end) -> vec_wf r.
Proof.
  revert r. induction v as [o|ty cs IH] using tree_rect'; intros r W K L.
  - specialize (L []). cbn [leaf_at] in L. destruct L as (a & La & Wa). destruct r as [o'|]; [|discriminate]. injection La as ->. now constructor.
  - assert (K0 := K []). cbn [kind] in K0. destruct r as [o'|ty' rs]; [discriminate|]. injection K0 as -> E. inversion W as [|? ? N W']; subst.
    constructor; [now rewrite E|]. intros c y Hy. assert (Nr : NoDup (map fst rs)) by now rewrite E.
    assert (Hc : In c (map fst cs)) by (rewrite <- E; now apply (in_map fst) in Hy). apply in_map_iff in Hc. destruct Hc as ([k x] & X & Hc). cbn [fst] in X. subst k.
    apply (IH c x Hc).
    + exact (W' c x Hc).
    + intros p. specialize (K (c :: p)). cbn [kind] in K. now rewrite (dget_NoDup rs c y Nr Hy), (dget_NoDup cs c x N Hc) in K.
    + intros p. specialize (L (c :: p)). cbn [leaf_at] in L. now rewrite (dget_NoDup rs c y Nr Hy), (dget_NoDup cs c x N Hc) in L.
Qed.

Theorem vec_all_spec ty cs T : let v := Node ty cs in vec_wf v -> filled v -> joint (map op_shape (leaves v)) T ->
  exists b, vec_all v = Ok b /\ (b = true <-> forall p o e, leaf_at v p = Some o -> inside e T -> op_at o e = true).
Proof.
  intros v W Hf J.
  destruct (vec_reduce_values true (forallb (fun b => b)) None false ty cs None T symmetric_all W Hf) as (r & E & K & V).
  { intros y [=]. } { unfold leaf_shapes. now rewrite app_nil_r. } { intros l [=]. } { now left. }
  fold v in E, K, V. cbn [axes_of] in V. rewrite reduced_all in V. unfold vec_all. rewrite E. cbn [bind].
  assert (Wr : vec_wf r).
  { apply (vec_reduce_wf v r (tree_ok_any _ _ W) K). intros p. specialize (V p). destruct (leaf_at v p); [|exact V]. destruct V as (a & La & Wa & _). eauto. }
  destruct (truth_tree r (fun p _ => forall o e, leaf_at v p = Some o -> inside e T -> op_at o e = true) Wr) as (b & Eb & Q).
  - intros p o' L'. specialize (V p). destruct (leaf_at v p) as [o|] eqn:L; [|congruence]. destruct V as (a & La & Wa & Fa & Va).
    rewrite La in L'. injection L' as <-. assert (S0 : sshape a = []).
    { destruct (sshape a) as [|[ax n] s] eqn:Sa; [reflexivity|]. destruct (Fa ax n (or_introl eq_refl)) as (m & [] & _). }
    exists (bat a (fun _ => 0)). split; [exact (truth_leaf a Wa S0)|]. rewrite (Va (fun _ => 0)) by (intros ax n []). rewrite forallb_forall.
    destruct J as (N & Fj & _). split.
    + intros X o2 e L2 He. injection L2 as <-.
      destruct (OptimizeFacts.fibre_all T (dkeys T) e (fun _ => 0)) as (e' & He' & X').
      { intros ax H. apply dget_Some_key in H. destruct H as (n & H). unfold size_of. rewrite H. apply He. now apply dget_In. }
      transitivity (op_at o e').
      * apply op_at_near; [exact (tree_ok_leaf_at _ v p o W L)|]. intros ax n Hn. right. symmetry. apply X'.
        destruct (Fj (op_shape o) (in_map op_shape _ _ (MatrixFacts.leaf_In _ _ _ L)) ax n Hn) as (m & Hm & _). now apply (in_map fst) in Hm.
      * apply X. apply in_map. apply filter_In. split; [exact He'|reflexivity].
    + intros X y Hy. apply in_map_iff in Hy. destruct Hy as (e & <- & He). apply filter_In in He. destruct He as [He _]. apply (X o e eq_refl).
      intros ax n Hn. apply fibre_inside in He. destruct He as (He & _). assert (Z := He ax). unfold size_of in Z. rewrite (dget_NoDup _ _ _ N Hn) in Z.
      apply Z. now apply (in_map fst) in Hn.
  - exists b. split; [exact Eb|]. rewrite Q. split.
    + intros X p o e L He. specialize (V p). rewrite L in V. destruct V as (a & La & _). exact (X p _ La o e L He).
    + intros X p o' L' o e L He. exact (X p o e L He).
Qed.
