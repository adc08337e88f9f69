(** Facts about nested structures. *)
From Coq Require Import String List Arith ZArith Bool Lia.
From Verif Require Import Base BaseFacts Numpy NumpyFacts Shapes Scalar Elementwise Vector Struct
  Spec SpecVector SpecStruct ShapesFacts AlignFacts GetitemFacts ReorderFacts VectorFacts CartesianFacts VectorIndexFacts.
Import ListNotations.
Open Scope nat_scope.
Open Scope list_scope.

(** ** Indexing *)

Definition indexed_type (ty ty' : string) : Prop := ty' = if is_named_tuple ty then "tuple"%string else ty.

Lemma s_getitem_spec {A} (s : struct A) it : forall r,
  s_getitem s it = Ok r -> tree_rel indexed_type (leaf_indexed it) s r.
Proof.
  induction s as [l|ty cs IH] using tree_rect'; intros r H.
  - destruct l as [v|n|x|x]; cbn [s_getitem] in H; try discriminate; try (inversion H; constructor; reflexivity).
    apply bind_ok in H. destruct H as (w & H & E). inversion E. constructor. exists w. auto.
  - cbn [s_getitem] in H. apply bind_ok in H. destruct H as (rs & H & E). inversion E; subst. clear E.
    constructor; [reflexivity|]. rewrite traverse_mapM in H. apply mapM_ok in H.
    induction H as [|[c x] y cs rs E _ IHF]; constructor.
    + apply bind_ok in E. destruct E as (z & E & Q). inversion Q. cbn [fst snd]. split; [reflexivity|].
      apply (IH c x (or_introl eq_refl)). exact E.
    + apply IHF. intros c' x' H'. apply (IH c' x'). now right.
Qed.

Lemma s_getitem_success {A} (s : struct A) it :
  (exists r, s_getitem s it = Ok r) <-> (forall l, In l (leaves s) -> exists l', leaf_indexed it l l').
Proof.
  split.
  - intros (r & H). apply s_getitem_spec in H.
    revert r H. induction s as [l|ty cs IH] using tree_rect'; intros r H l' Hl.
    + inversion H; subst. destruct Hl as [<- |[]]. eauto.
    + inversion H as [|? ? ? cs' _ F]; subst. clear H. simpl in Hl. apply in_flat_map in Hl.
      destruct Hl as ([c x] & Hc & Hl). simpl in Hl.
      assert (X : exists y, tree_rel indexed_type (leaf_indexed it) x y).
      { clear - F Hc. induction F as [|kv kv' cs cs' [_ R] _ IHF]; [contradiction|]. destruct Hc as [-> |Hc]; [|auto].
        eexists; exact R. }
      destruct X as (y & X). exact (IH c x Hc y X l' Hl).
  - induction s as [l|ty cs IH] using tree_rect'; intros H.
    + destruct (H l (or_introl eq_refl)) as (l' & K). destruct l as [v|n|x|x]; cbn [s_getitem]; eauto.
      * destruct K as (r & E & _). rewrite E. simpl. eauto.
      * contradiction.
    + cbn [s_getitem].
      enough (X : exists rs, traverse (fun kv => x <- s_getitem (snd kv) it ;; Ok (fst kv, x)) cs = Ok rs)
        by (destruct X as (rs & X); rewrite X; simpl; eauto).
      apply (on_components_intro (fun _ x => s_getitem x it)). intros c x Hc. apply (IH c x Hc).
      intros l Hl. apply H. simpl. apply in_flat_map. exists (c, x). auto.
Qed.

(** ** Shape *)

(** the structure as one vector *)
Fixpoint as_vec {A} (s : struct A) : vec A :=
  match s with
  | Leaf (LVec v) => v
  | Leaf _ => Node ""%string []
  | Node ty cs => Node ty (map (fun kv => (fst kv, as_vec (snd kv))) cs)
  end.

Lemma as_vec_wf {A} (s : struct A) : struct_wf s -> vec_wf (as_vec s).
Proof.
  induction s as [l|ty cs IH] using tree_rect'; intros W; inversion W; subst.
  - destruct l; simpl; try (constructor; [constructor|intros ? ? []]). exact H0.
  - simpl. constructor.
    + rewrite map_map. exact H1.
    + intros c x H. apply in_map_iff in H. destruct H as ([c' y] & E & H). inversion E; subst. eapply IH; eauto.
      exact (H2 c y H).
Qed.

Lemma as_vec_shapes {A} (s : struct A) : map op_shape (leaves (as_vec s)) = flat_map leaf_shapes (leaves s).
Proof.
  induction s as [l|ty cs IH] using tree_rect'.
  - simpl. rewrite app_nil_r. destruct l; reflexivity.
  - simpl. induction cs as [|[c x] cs IHc]; [reflexivity|]. simpl. rewrite map_app, flat_map_app.
    rewrite (IH c x) by now left. f_equal. apply IHc. intros c' x' H'. apply (IH c' x'). now right.
Qed.

Lemma as_vec_shape {A} (s : struct A) :
  (forall l, In l (leaves s) -> ~ unnamed l) -> s_shape s = vec_shape (as_vec s).
Proof.
  induction s as [l|ty cs IH] using tree_rect'; intros H.
  - destruct l as [v|n|x|x]; try reflexivity. cbn [s_shape as_vec vec_shape]. simpl.
    destruct (ndim n =? 0) eqn:E; [reflexivity|]. exfalso. apply (H (LNd n) (or_introl eq_refl)). simpl.
    intros Z. unfold ndim in E. rewrite Z in E. discriminate.
  - cbn [s_shape as_vec vec_shape]. f_equal. rewrite !traverse_mapM.
    induction cs as [|[c x] cs IHc]; [reflexivity|]. cbn [map mapM fst snd].
    rewrite (IH c x (or_introl eq_refl)).
    + destruct (vec_shape (as_vec x)); [|reflexivity]. cbn [bind]. rewrite IHc; [reflexivity| |].
      * intros c' x' H'. apply (IH c' x'). now right.
      * intros l Hl. apply H. simpl. apply in_or_app. now right.
    + intros l Hl. apply H. simpl. apply in_or_app. now left.
Qed.

Lemma s_shape_leaves {A} (s : struct A) :
  struct_wf s -> (forall l, In l (leaves s) -> ~ unnamed l) ->
  match s_shape s, broadcast_shapes (flat_map leaf_shapes (leaves s)) with
  | Ok r, Ok r' => same_shape r r'
  | Err e, Err e' => e = e'
  | _, _ => False
  end.
Proof.
  intros W H. rewrite (as_vec_shape s H), <- as_vec_shapes. apply vec_shape_leaves. now apply as_vec_wf.
Qed.

Lemma s_shape_unnamed {A} (s : struct A) l :
  In l (leaves s) -> unnamed l -> exists e, s_shape s = Err e.
Proof.
  induction s as [l'|ty cs IH] using tree_rect'; intros H U.
  - destruct H as [<- |[]]. destruct l' as [v|n|x|x]; try contradiction. simpl in *. unfold ndim.
    destruct (nshape n); [congruence|]. simpl. eauto.
  - simpl in H. apply in_flat_map in H. destruct H as ([c x] & Hc & H). simpl in H.
    destruct (IH c x Hc H U) as (e & E). cbn [s_shape]. rewrite traverse_mapM.
    destruct (mapM (fun kv => s_shape (snd kv)) cs) as [shs|e'] eqn:M; [|simpl; eauto].
    exfalso. apply mapM_ok in M. clear - M Hc E. induction M as [|kv s cs shs Q _ IHM]; [contradiction|].
    destruct Hc as [-> |Hc]; [simpl in Q; congruence|auto].
Qed.

(** the shapes after indexing *)
Lemma tree_rel_leaves {L M} T (R : L -> M -> Prop) (t : tree L) : forall u,
  tree_rel T R t u -> Forall2 R (leaves t) (leaves u).
Proof.
  induction t as [l|ty cs IH] using tree_rect'; intros u H; inversion H as [|? ? ? cs' _ F]; subst.
  - simpl. constructor; [assumption|constructor].
  - simpl. clear H. induction F as [|[c x] [c' y] cs cs' [E Q] F IHF]; [constructor|]. simpl in *.
    apply Forall2_app.
    + apply (IH c x (or_introl eq_refl)). exact Q.
    + apply IHF. intros c1 x1 H1. apply (IH c1 x1). now right.
Qed.

(** an axis indexed by an integer disappears from a scalar array *)
Lemma getitem_int_axis {A} (a b : sarr A) d ax z :
  wf a -> NoDup (dkeys d) -> Forall (fun kv => item_wf (snd kv)) d -> dget d ax = Some (ItInt z) ->
  (forall ax' v, In (ax', ItArr v) d -> ~ In ax (s_axes v)) ->
  getitem a d = Ok b -> ~ In ax (s_axes b).
Proof.
  intros W N Wd D Ar G. destruct (getitem_full a d b W N Wd G) as (_ & _ & sa & Ea & Ax & _). rewrite Ax.
  intros H. apply in_app_or in H. destruct H as [H|H].
  - apply in_map_iff in H. destruct H as ([ax' n] & <- & H).
    destruct (broadcast_attained _ sa ax' n (index_shapes_NoDup _ _ Wd) Ea H) as (s & Hs & K).
    apply index_shapes_In in Hs. destruct Hs as (ax2 & v & Hv & _ & ->). apply (Ar ax2 v Hv).
    rewrite Forall_forall in Wd. rewrite <- (wf_keys v (Wd _ Hv)). apply in_map_iff. now exists (ax', n).
  - apply filter_In in H. destruct H as [_ H]. rewrite D in H. discriminate.
Qed.

Lemma vec_getitem_int_axis {A} (v r : vec A) d ax z :
  vec_wf v -> NoDup (dkeys d) -> Forall (fun kv => item_wf (snd kv)) d -> dget d ax = Some (ItInt z) ->
  (forall ax' v, In (ax', ItArr v) d -> ~ In ax (s_axes v)) ->
  vec_getitem v (plain d) = Ok r -> forall o, In o (leaves r) -> ~ In ax (dkeys (op_shape o)).
Proof.
  intros W N Wd D Ar H o Ho.
  destruct (vec_getitem_spec v (plain d) r (plain_suits _ _) H) as [K I].
  assert (X : exists p, leaf_at r p = Some o).
  { assert (Wr : tree_ok (fun _ => True) r).
    { clear - K I W. assert (Names : forall p ty n, kind r p = Some (ty, n) -> NoDup n).
      { intros p ty n Q. rewrite K in Q. clear - W Q. revert p Q. induction v as [x|ty' cs IH] using tree_rect'; intros [|c p] Q; try discriminate.
        - simpl in Q. injection Q as <- <-. now inversion W.
        - simpl in Q. destruct (dget cs c) as [y|] eqn:E; [|discriminate]. apply dget_In in E. inversion W; subst.
          exact (IH c y E (H2 c y E) p Q). }
      clear - Names. induction r as [x|ty cs IH] using tree_rect'; [constructor; exact Logic.I|].
      assert (Nc : NoDup (map fst cs)) by exact (Names [] ty _ eq_refl).
      constructor; [exact Nc|]. intros c x H. apply (IH c x H). intros p ty' n Q.
      apply (Names (c :: p) ty' n). simpl. now rewrite (dget_NoDup cs c x Nc H). }
    destruct (In_nth _ _ o Ho) as (i & Li & Ei).
    exists (nth i (paths r) []). apply (In_leaf_at r); [exact Wr|].
    replace (nth i (paths r) [], o) with (nth i (combine (paths r) (leaves r)) ([], o)).
    - apply nth_In. rewrite combine_length, paths_leaves. lia.
    - rewrite combine_nth by apply paths_leaves. now rewrite Ei. }
  destruct X as (p & L). assert (Q := I p).
  destruct (leaf_at v p) as [[a|x]|] eqn:Lv.
  - destruct Q as (d' & b & Id & G & Lb). apply plain_at in Id. subst d'. assert (o = OpArr b) by congruence. subst o.
    simpl. assert (Wa : wf a) by exact (tree_ok_leaf_at op_wf v p (OpArr a) W Lv).
    destruct (getitem_full a d b Wa N Wd G) as (Wb & _). rewrite wf_keys by exact Wb.
    exact (getitem_int_axis a b d ax z Wa N Wd D Ar G).
  - assert (o = OpNum x) by congruence. subst o. simpl. tauto.
  - congruence.
Qed.

Lemma s_getitem_int_axis {A} (s r : struct A) d ax z sh :
  struct_wf s -> NoDup (dkeys d) -> Forall (fun kv => item_wf (snd kv)) d -> dget d ax = Some (ItInt z) ->
  (forall ax' v, In (ax', ItArr v) d -> ~ In ax (s_axes v)) ->
  s_getitem s (plain d) = Ok r -> s_shape r = Ok sh -> ~ In ax (dkeys sh).
Proof.
  intros W N Wd D Ar H Hsh. apply s_getitem_spec in H. apply tree_rel_leaves in H.
  assert (Wl : Forall leaf_wf (leaves s)).
  { clear - W. induction s as [l|ty cs IH] using tree_rect'; inversion W; subst; simpl; [now repeat constructor|].
    apply Forall_flat_map. apply Forall_forall. intros [c x] Hx. apply (IH c x Hx). exact (H2 c x Hx). }
  assert (NU : forall l, In l (leaves r) -> ~ unnamed l).
  { intros l Hl U. destruct (s_shape_unnamed r l Hl U) as (e & E). congruence. }
  rewrite (as_vec_shape r NU) in Hsh.
  assert (Key : forall o, In o (leaves (as_vec r)) -> ~ In ax (dkeys (op_shape o))).
  { intros o Ho K. assert (Hs : In (op_shape o) (map op_shape (leaves (as_vec r)))) by now apply in_map.
    rewrite as_vec_shapes in Hs. apply in_flat_map in Hs. destruct Hs as (l' & Hl' & Hs).
    assert (X : exists l, leaf_wf l /\ leaf_indexed (plain d) l l').
    { clear - H Hl' Wl. induction H as [|x y xs ys R _ IH]; [contradiction|]. inversion Wl; subst. destruct Hl' as [-> |Hl'].
      - eauto.
      - auto. }
    destruct X as (l & Wf & X). destruct l as [v|n|y|y]; simpl in X; try contradiction; try (subst l'; contradiction).
    destruct X as (w & G & ->). simpl in Hs. apply in_map_iff in Hs. destruct Hs as (o' & E & Ho').
    apply (vec_getitem_int_axis v w d ax z Wf N Wd D Ar G o' Ho'). now rewrite E. }
  clear - Hsh Key. revert sh Hsh. induction (as_vec r) as [o|ty cs IH] using tree_rect'; intros sh Hsh K.
  - apply (Key o); [now left|]. destruct o; inversion Hsh; subst; exact K.
  - cbn [vec_shape] in Hsh. apply bind_ok in Hsh. destruct Hsh as (l & T & B). rewrite traverse_mapM in T. apply mapM_ok in T.
    assert (Z : forall s, In s l -> ~ In ax (dkeys s)).
    { intros s Hs. assert (X : exists c x, In (c, x) cs /\ vec_shape x = Ok s).
      { clear - T Hs. induction T as [|[c x] y cs l E _ IHT]; [contradiction|]. destruct Hs as [-> |Hs].
        - exists c, x. split; [now left|exact E].
        - destruct (IHT Hs) as (c' & x' & ? & ?). exists c', x'. split; [now right|auto]. }
      destruct X as (c & x & Hx & E). apply (IH c x Hx); [|exact E]. intros o Ho. apply Key. simpl.
      apply in_flat_map. exists (c, x). auto. }
    revert K. clear - B Z. destruct l as [|s l]; [inversion B; subst; simpl; tauto|]. simpl in B.
    assert (Zs : ~ In ax (dkeys s)) by (apply Z; now left).
    assert (Zl : forall s, In s l -> ~ In ax (dkeys s)) by (intros s' H'; apply Z; now right). clear Z.
    revert s Zs B. induction l as [|t l IH]; intros s Zs B; simpl in B; [inversion B; now subst|].
    apply bind_ok in B. destruct B as (s' & B1 & B). apply (IH (fun u Hu => Zl u (or_intror Hu)) s'); [|exact B].
    assert (Zt := Zl t (or_introl eq_refl)). revert Zs Zt B1. clear. unfold bs_shape. intros Zs Zt B.
    destruct (dict_eqb t s); [inversion B; now subst|].
    revert s Zs B. induction t as [|[k n] t IH]; intros s Zs B; simpl in B; [inversion B; now subst|].
    apply bind_ok in B. destruct B as (s2 & B1 & B). apply (IH (fun H => Zt (or_intror H)) s2); [|exact B].
    assert (Kn : k <> ax) by (intros ->; apply Zt; now left).
    assert (Q : forall m, ~ In ax (dkeys (dset s k m))).
    { intros m H. rewrite dkeys_dset in H. destruct (smem k (dkeys s)); [contradiction|].
      apply in_app_or in H. destruct H as [H|[H|[]]]; contradiction. }
    destruct (dget s k) as [q|]; [|inversion B1; subst; apply Q].
    destruct (q =? n); [inversion B1; now subst|]. destruct (n =? 1); [inversion B1; now subst|].
    destruct (q =? 1); inversion B1; subst; apply Q.
Qed.

(** ** Packing *)

Lemma prod_fold l : prod l = fold_right Nat.mul 1 l.
Proof. induction l; simpl; congruence. Qed.

Lemma ravel_chunk {A} (n : nd A) idx : inb idx (nshape n) ->
  nth_error (ravel n) (row_major (nshape n) idx) = Some (nget n idx).
Proof.
  intros H. rewrite row_major_ravel by (symmetry; now apply inb_length).
  rewrite <- (nth_ravel n idx (nget n idx) H). apply nth_error_nth'. rewrite ravel_length. now apply ravel_idx_lt.
Qed.

Lemma pack_vec_leaves {A} (v : vec A) :
  pack_vec v = concat (map (fun o => match o with OpArr a => ravel (s_nd a) | OpNum x => [x] end) (leaves v)).
Proof.
  induction v as [o|ty cs IH] using tree_rect'.
  - simpl. rewrite app_nil_r. now destruct o.
  - simpl. induction cs as [|[c x] cs IHc]; [reflexivity|]. simpl. rewrite map_app, concat_app.
    rewrite (IH c x) by now left. f_equal. apply IHc. intros c' x' H'. apply (IH c' x'). now right.
Qed.

Definition leaf_pack {A} (l : leaf A) : list A :=
  match l with LVec v => pack_vec v | LNd n => ravel n | _ => [] end.

Lemma pack_leaves {A} (s : struct A) : pack s = concat (map leaf_pack (leaves s)).
Proof.
  induction s as [l|ty cs IH] using tree_rect'.
  - simpl. rewrite app_nil_r. now destruct l.
  - simpl. induction cs as [|[c x] cs IHc]; [reflexivity|]. simpl. rewrite map_app, concat_app.
    rewrite (IH c x) by now left. f_equal. apply IHc. intros c' x' H'. apply (IH c' x'). now right.
Qed.

Lemma tree_ok_leaves {L} (P : L -> Prop) (t : tree L) : tree_ok P t -> Forall P (leaves t).
Proof.
  induction t as [l|ty cs IH] using tree_rect'; intros W; inversion W; subst; simpl; [now repeat constructor|].
  apply Forall_flat_map. apply Forall_forall. intros [c x] Hx. apply (IH c x Hx). eauto.
Qed.

Lemma operand_chunk_ok {A} (o : operand A) : op_wf o ->
  operand_chunk o (match o with OpArr a => ravel (s_nd a) | OpNum x => [x] end).
Proof.
  destruct o as [a|x]; intros W; [|reflexivity]. simpl in W. split.
  - rewrite ravel_length, prod_fold. f_equal. symmetry. now apply wf_vals.
  - intros e He. rewrite wf_vals by exact W. apply ravel_chunk. now apply inside_inb.
Qed.

Lemma pack_spec {A} (s : struct A) : struct_wf s ->
  exists chunks, Forall2 leaf_chunk (leaves s) chunks /\ pack s = concat chunks.
Proof.
  intros W. exists (map leaf_pack (leaves s)). split; [|apply pack_leaves].
  apply tree_ok_leaves in W. apply Forall2_map_r. apply Forall2_same. intros l Hl.
  rewrite Forall_forall in W. specialize (W l Hl). destruct l as [v|n|x|x]; simpl; try reflexivity.
  - eexists. split; [|apply pack_vec_leaves]. apply Forall2_map_r. apply Forall2_same. intros o Ho.
    apply tree_ok_leaves in W. rewrite Forall_forall in W. apply operand_chunk_ok. now apply W.
  - split; [rewrite ravel_length; apply prod_fold|]. intros idx H. now apply ravel_chunk.
Qed.

(** ** Unpacking *)

Lemma retyped_app {A} (cast : A -> A -> A) bs bs' : forall xs xs' ys ys',
  length xs = length bs -> length ys = length bs ->
  retyped cast (bs ++ bs') (xs ++ xs') (ys ++ ys') = retyped cast bs xs ys ++ retyped cast bs' xs' ys'.
Proof.
  induction bs as [|b bs IH]; intros [|x xs] xs' [|y ys] ys' L1 L2; try discriminate; [reflexivity|].
  simpl. f_equal. apply IH; simpl in *; lia.
Qed.

Lemma retyped_false {A} (cast : A -> A -> A) n : forall xs ys,
  length xs = n -> length ys = n -> retyped cast (repeat false n) xs ys = ys.
Proof.
  induction n as [|n IH]; intros [|x xs] [|y ys] L1 L2; try discriminate; [reflexivity|].
  simpl. f_equal. apply IH; simpl in *; lia.
Qed.

Lemma retyped_id {A} (cast : A -> A -> A) : (forall x, cast x x = x) -> forall bs xs,
  length bs = length xs -> retyped cast bs xs xs = xs.
Proof.
  intros C. induction bs as [|b bs IH]; intros [|x xs] L; try discriminate; [reflexivity|].
  simpl. rewrite IH by (simpl in L; lia). rewrite C. now destruct b.
Qed.

Lemma firstn_skipn_add {A} (l : list A) n m pos :
  firstn (n + m) (skipn pos l) = firstn n (skipn pos l) ++ firstn m (skipn (pos + n) l).
Proof.
  revert l. induction pos as [|pos IH]; intros l.
  - simpl. revert l. induction n as [|n IHn]; intros l; [reflexivity|]. destruct l as [|x l]; simpl.
    + now rewrite firstn_nil.
    + f_equal. apply IHn.
  - destruct l as [|x l]; simpl; [now rewrite !firstn_nil|]. apply IH.
Qed.

Section UnpackFacts.
Context {A : Type} (zero : A) (cast : A -> A -> A) (flat : list A).

Lemma take_chunk_ok sh pos n : take_chunk zero flat sh pos = Ok n ->
  nshape n = sh /\ ravel n = firstn (prod sh) (skipn pos flat) /\
  length (firstn (prod sh) (skipn pos flat)) = prod sh.
Proof.
  unfold take_chunk. set (c := firstn (prod sh) (skipn pos flat)).
  destruct (Nat.eqb_spec (length c) (prod sh)) as [E|]; [|discriminate]. intros H. injection H as <-.
  split; [reflexivity|]. split; [|exact E]. unfold ravel. simpl.
  apply nth_ext with (d := zero) (d' := zero).
  - now rewrite map_length, ndindex_length.
  - intros k Hk. rewrite map_length, ndindex_length in Hk.
    rewrite map_nth_in with (d := []) by (now rewrite ndindex_length). rewrite nth_ndindex' by exact Hk.
    now rewrite ravel_unravel.
Qed.

Lemma take_chunk_intro sh pos : pos + prod sh <= length flat -> exists n, take_chunk zero flat sh pos = Ok n.
Proof.
  intros H. unfold take_chunk. rewrite firstn_length, skipn_length, Nat.min_l by lia. rewrite Nat.eqb_refl. eauto.
Qed.

Lemma take_number_ok pos y : take_number flat pos = Ok y -> firstn 1 (skipn pos flat) = [y].
Proof.
  unfold take_number. destruct (nth_error flat pos) as [z|] eqn:E; [|discriminate]. intros H. injection H as ->.
  revert flat E. induction pos as [|pos IH]; intros [|x l] E; try discriminate; simpl in E.
  - injection E as ->. reflexivity.
  - simpl. apply IH. exact E.
Qed.

Lemma take_number_intro pos : pos < length flat -> exists y, take_number flat pos = Ok y.
Proof.
  intros H. unfold take_number. destruct (nth_error flat pos) eqn:E; [eauto|]. apply nth_error_None in E. lia.
Qed.

Definition vnumbers (v : vec A) : list bool := numbers (LVec v).

(** what one step of the traversal gives: [xs] are the elements of the prototype,
    [zs] those of the result *)
Definition step_ok (bs : list bool) (xs zs : list A) (pos pos' : nat) : Prop :=
  length bs = length xs /\ pos' = pos + length xs /\
  length (firstn (length xs) (skipn pos flat)) = length xs /\
  zs = retyped cast bs xs (firstn (length xs) (skipn pos flat)).

Lemma step_nil pos : step_ok [] [] [] pos pos.
Proof. repeat split; simpl; lia. Qed.

Lemma step_app bs xs zs pos pos' bs' xs' zs' pos'' :
  step_ok bs xs zs pos pos' -> step_ok bs' xs' zs' pos' pos'' ->
  step_ok (bs ++ bs') (xs ++ xs') (zs ++ zs') pos pos''.
Proof.
  intros (L & -> & F & ->) (L' & -> & F' & ->). unfold step_ok. rewrite !app_length.
  repeat split; try lia.
  - rewrite firstn_skipn_add, app_length, F, F'. reflexivity.
  - rewrite firstn_skipn_add. symmetry. apply retyped_app; lia.
Qed.

Lemma unpack_vec_spec (v : vec A) : vec_wf v -> forall pos w,
  unpack_vec zero cast flat v pos = Ok w ->
  tree_rel eq layout_operand v (fst w) /\ step_ok (vnumbers v) (pack_vec v) (pack_vec (fst w)) pos (snd w).
Proof.
  induction v as [o|ty cs IH] using tree_rect'; intros W pos w H.
  - inversion W as [? Wo|]; subst. destruct o as [a|x]; cbn [unpack_vec] in H.
    + apply bind_ok in H. destruct H as (n & T & H). injection H as <-. apply take_chunk_ok in T.
      destruct T as (Sn & R & L). simpl in Wo. cbn [fst snd pack_vec]. split.
      * constructor. simpl. unfold wf, sshape. cbn [s_axes s_nd]. rewrite Sn. split; [exact Wo|reflexivity].
      * unfold step_ok, vnumbers. cbn [numbers leaves flat_map]. rewrite app_nil_r.
        rewrite wf_vals, <- prod_fold, ravel_length, repeat_length by exact Wo. cbn [s_nd]. rewrite R.
        repeat split; auto. symmetry. apply retyped_false; [apply ravel_length|exact L].
    + apply bind_ok in H. destruct H as (y & T & H). injection H as <-. apply take_number_ok in T. cbn [fst snd pack_vec].
      split; [now constructor|]. unfold step_ok. cbn [length]. rewrite T. repeat split.
  - cbn [unpack_vec] in H. apply bind_ok in H. destruct H as (r & T & H). injection H as <-. cbn [fst snd].
    inversion W as [|? ? _ Wc]; subst. clear W.
    assert (Goal : Forall2 (fun kv kv' => fst kv' = fst kv /\ tree_rel eq layout_operand (snd kv) (snd kv')) cs (fst r) /\
                   step_ok (vnumbers (Node ty cs)) (pack_vec (Node ty cs)) (pack_vec (Node ty (fst r))) pos (snd r)).
    { revert pos r T. induction cs as [|[c x] cs IHc]; intros pos r T; cbn [traverse_at] in T.
      - injection T as <-. split; [constructor|]. apply step_nil.
      - apply bind_ok in T. destruct T as (y & U & T). apply bind_ok in T. destruct T as (r' & T & H). injection H as <-.
        cbn [fst snd] in U. apply bind_ok in U. destruct U as (y' & U & H). injection H as <-. cbn [fst snd] in *.
        destruct (IH c x (or_introl eq_refl) (Wc c x (or_introl eq_refl)) _ _ U) as [R1 S1].
        destruct (IHc (fun c' x' H' => IH c' x' (or_intror H')) (fun c' x' H' => Wc c' x' (or_intror H')) _ _ T) as [R2 S2].
        split; [constructor; auto|].
        unfold vnumbers in *. cbn [numbers leaves flat_map snd pack_vec fst] in *. rewrite flat_map_app.
        exact (step_app _ _ _ _ _ _ _ _ _ S1 S2). }
    destruct Goal as [G1 G2]. split; [now constructor|exact G2].
Qed.

Lemma unpack_rec_spec (p : struct A) : struct_wf p -> forall pos w,
  unpack_rec zero cast flat p pos = Ok w ->
  tree_rel eq layout_leaf p (fst w) /\
  step_ok (flat_map numbers (leaves p)) (pack p) (pack (fst w)) pos (snd w).
Proof.
  induction p as [l|ty cs IH] using tree_rect'; intros W pos w H.
  - inversion W as [? Wl|]; subst. simpl leaves. cbn [flat_map]. rewrite app_nil_r. destruct l as [v|n|x|x]; cbn [unpack_rec] in H.
    + apply bind_ok in H. destruct H as (y & U & H). injection H as <-. cbn [fst snd pack].
      destruct (unpack_vec_spec v Wl pos y U) as [R S']. split; [constructor; exact R|exact S'].
    + unfold ndim in H. destruct (nshape n) as [|m sh] eqn:Sh.
      * cbn [length Nat.eqb] in H. apply bind_ok in H. destruct H as (y & T & H). injection H as <-. apply take_number_ok in T.
        cbn [fst snd pack]. split; [constructor; simpl; now rewrite Sh|]. unfold step_ok, numbers. rewrite Sh.
        assert (Lr : length (ravel n) = 1) by (rewrite ravel_length, Sh; reflexivity). rewrite Lr, T. simpl.
        repeat split. destruct (ravel n) as [|q [|]]; try discriminate. reflexivity.
      * cbn [length Nat.eqb] in H. apply bind_ok in H. destruct H as (m' & T & H). rewrite <- Sh in *. injection H as <-. cbn [fst snd pack].
        apply take_chunk_ok in T. destruct T as (Sm & R & L). split; [constructor; exact Sm|].
        unfold step_ok, numbers. rewrite ravel_length, <- prod_fold, repeat_length, R. repeat split; auto.
        symmetry. apply retyped_false; [apply ravel_length|exact L].
    + injection H as <-. split; [now constructor|apply step_nil].
    + injection H as <-. split; [now constructor|apply step_nil].
  - cbn [unpack_rec] in H. apply bind_ok in H. destruct H as (r & T & H).
    destruct (is_named_tuple ty); [discriminate|]. injection H as <-. cbn [fst snd].
    inversion W as [|? ? _ Wc]; subst. clear W.
    assert (Goal : Forall2 (fun kv kv' => fst kv' = fst kv /\ tree_rel eq layout_leaf (snd kv) (snd kv')) cs (fst r) /\
                   step_ok (flat_map numbers (leaves (Node ty cs))) (pack (Node ty cs)) (pack (Node ty (fst r))) pos (snd r)).
    { revert pos r T. induction cs as [|[c x] cs IHc]; intros pos r T; cbn [traverse_at] in T.
      - injection T as <-. split; [constructor|]. apply step_nil.
      - apply bind_ok in T. destruct T as (y & U & T). apply bind_ok in T. destruct T as (r' & T & H). injection H as <-.
        cbn [fst snd] in U. apply bind_ok in U. destruct U as (y' & U & H). injection H as <-. cbn [fst snd] in *.
        destruct (IH c x (or_introl eq_refl) (Wc c x (or_introl eq_refl)) _ _ U) as [R1 S1].
        destruct (IHc (fun c' x' H' => IH c' x' (or_intror H')) (fun c' x' H' => Wc c' x' (or_intror H')) _ _ T) as [R2 S2].
        split; [constructor; auto|].
        cbn [leaves flat_map snd pack fst] in *. rewrite flat_map_app.
        exact (step_app _ _ _ _ _ _ _ _ _ S1 S2). }
    destruct Goal as [G1 G2]. split; [now constructor|exact G2].
Qed.

Lemma unpack_spec (p r : struct A) : struct_wf p -> unpack zero cast flat p = Ok r ->
  tree_rel eq layout_leaf p r /\ length flat = length (pack p) /\
  pack r = retyped cast (flat_map numbers (leaves p)) (pack p) flat.
Proof.
  intros W H. unfold unpack in H. apply bind_ok in H. destruct H as (w & U & H).
  destruct (Nat.eqb_spec (snd w) (length flat)) as [E|]; [|discriminate]. injection H as <-.
  destruct (unpack_rec_spec p W 0 w U) as (R & L & P & F & Z). split; [exact R|]. simpl in P. split; [congruence|].
  rewrite Z. simpl. rewrite <- P, E. now rewrite firstn_all.
Qed.

Lemma numbers_length (p : struct A) : struct_wf p -> length (flat_map numbers (leaves p)) = length (pack p).
Proof.
  intros W. rewrite pack_leaves. apply tree_ok_leaves in W. induction W as [|l ls Wl _ IH]; [reflexivity|].
  cbn [flat_map map concat]. rewrite !app_length, IH. f_equal. destruct l as [v|n|x|x]; simpl; try reflexivity.
  - rewrite pack_vec_leaves. apply tree_ok_leaves in Wl. induction Wl as [|o os Wo _ IHo]; [reflexivity|].
    cbn [flat_map map concat]. rewrite !app_length, IHo. f_equal. destruct o as [a|x]; [|reflexivity].
    simpl in Wo. rewrite repeat_length, ravel_length, <- prod_fold. f_equal. now apply wf_vals.
  - rewrite repeat_length, ravel_length. symmetry. apply prod_fold.
Qed.

Lemma unpack_vec_intro (v : vec A) : vec_wf v -> forall pos,
  pos + length (pack_vec v) <= length flat -> exists w, unpack_vec zero cast flat v pos = Ok w.
Proof.
  induction v as [o|ty cs IH] using tree_rect'; intros W pos L.
  - destruct o as [a|x]; cbn [unpack_vec].
    + cbn [pack_vec] in L. rewrite ravel_length in L. destruct (take_chunk_intro _ _ L) as (n & ->). simpl. eauto.
    + destruct (take_number_intro pos) as (y & ->); [simpl in L; lia|]. simpl. eauto.
  - cbn [unpack_vec]. inversion W as [|? ? _ Wc]; subst. clear W.
    assert (Goal : exists r, traverse_at (fun kv pos => y <- unpack_vec zero cast flat (snd kv) pos ;; Ok ((fst kv, fst y), snd y)) cs pos = Ok r).
    { revert pos L. induction cs as [|[c x] cs IHc]; intros pos L; cbn [traverse_at]; [eauto|].
      cbn [pack_vec flat_map fst snd] in *. rewrite app_length in L.
      destruct (IH c x (or_introl eq_refl) (Wc c x (or_introl eq_refl)) pos) as (y & U); [lia|]. rewrite U. simpl.
      destruct (unpack_vec_spec x (Wc c x (or_introl eq_refl)) pos y U) as (_ & _ & P & _).
      destruct (IHc (fun c' x' H' => IH c' x' (or_intror H')) (fun c' x' H' => Wc c' x' (or_intror H')) (snd y)) as (r & T); [lia|].
      rewrite T. simpl. eauto. }
    destruct Goal as (r & ->). simpl. eauto.
Qed.

Lemma unpack_rec_intro (p : struct A) : struct_wf p -> nodes_ok (fun ty => is_named_tuple ty = false) p -> forall pos,
  pos + length (pack p) <= length flat -> exists w, unpack_rec zero cast flat p pos = Ok w.
Proof.
  induction p as [l|ty cs IH] using tree_rect'; intros W N pos L.
  - inversion W as [? Wl|]; subst. destruct l as [v|n|x|x]; cbn [unpack_rec]; try (simpl; now eauto).
    + destruct (unpack_vec_intro v Wl pos L) as (w & ->). simpl. eauto.
    + cbn [pack] in L. rewrite ravel_length in L. unfold ndim. destruct (nshape n) as [|m sh] eqn:Sh.
      * simpl. destruct (take_number_intro pos) as (y & ->); [simpl in L; lia|]. simpl. eauto.
      * cbn [length Nat.eqb]. destruct (take_chunk_intro _ _ L) as (q & ->). simpl. eauto.
  - cbn [unpack_rec]. inversion W as [|? ? _ Wc]; subst. clear W. inversion N as [|? ? Nt Nc]; subst. clear N. rewrite Nt.
    assert (Goal : exists r, traverse_at (fun kv pos => y <- unpack_rec zero cast flat (snd kv) pos ;; Ok ((fst kv, fst y), snd y)) cs pos = Ok r).
    { revert pos L. induction cs as [|[c x] cs IHc]; intros pos L; cbn [traverse_at]; [eauto|].
      cbn [pack flat_map fst snd] in *. rewrite app_length in L.
      destruct (IH c x (or_introl eq_refl) (Wc c x (or_introl eq_refl)) (Nc c x (or_introl eq_refl)) pos) as (y & U); [lia|]. rewrite U. simpl.
      destruct (unpack_rec_spec x (Wc c x (or_introl eq_refl)) pos y U) as (_ & _ & P & _).
      destruct (IHc (fun c' x' H' => IH c' x' (or_intror H')) (fun c' x' H' => Wc c' x' (or_intror H'))
                    (fun c' x' H' => Nc c' x' (or_intror H')) (snd y)) as (r & T); [lia|].
      rewrite T. simpl. eauto. }
    destruct Goal as (r & ->). simpl. eauto.
Qed.

Lemma unpack_success (p : struct A) : struct_wf p -> nodes_ok (fun ty => is_named_tuple ty = false) p ->
  (exists r, unpack zero cast flat p = Ok r) <-> length flat = length (flat_map numbers (leaves p)).
Proof.
  intros W N. rewrite numbers_length by exact W. split.
  - intros (r & H). apply (unpack_spec p r W H).
  - intros L. unfold unpack. destruct (unpack_rec_intro p W N 0) as (w & U); [lia|]. rewrite U. cbn [bind].
    destruct (unpack_rec_spec p W 0 w U) as (_ & _ & P & _).
    replace (snd w =? length flat) with true by (symmetry; apply Nat.eqb_eq; simpl in P; lia). eauto.
Qed.
End UnpackFacts.

(** ** The elements and the layout determine the structure *)

Lemma ravel_ext_inv {A} (n m : nd A) : nshape m = nshape n -> ravel m = ravel n ->
  forall idx, inb idx (nshape n) -> nget m idx = nget n idx.
Proof.
  intros S' R idx H. rewrite <- (nth_ravel n idx (nget n idx) H), <- R, <- S'.
  symmetry. rewrite <- S' in H. apply nth_ravel. exact H.
Qed.

Lemma app_inv_length {A} (l1 l2 l3 l4 : list A) : length l1 = length l3 -> l1 ++ l2 = l3 ++ l4 -> l1 = l3 /\ l2 = l4.
Proof.
  revert l3. induction l1 as [|x l1 IH]; intros [|y l3] L H; try discriminate; [auto|].
  injection H as -> H. simpl in L. destruct (IH l3 ltac:(lia) H) as [-> ->]. auto.
Qed.

Lemma layout_vec_length {A} (v : vec A) : vec_wf v -> forall w, tree_rel eq layout_operand v w ->
  length (pack_vec w) = length (pack_vec v).
Proof.
  induction v as [o|ty cs IH] using tree_rect'; intros W w H; inversion H as [? o' R|? ? ? cs' E F]; subst.
  - inversion W as [? Wo|]; subst. destruct o as [a|x], o' as [b|y]; simpl in *; try contradiction; [|reflexivity].
    destruct R as [Wb Sb]. rewrite !ravel_length, <- (wf_vals a), <- (wf_vals b) by assumption. now rewrite Sb.
  - inversion W as [|? ? _ Wc]; subst. clear W H. simpl. induction F as [|[c x] [c' y] cs cs' [E Q] F IHF]; [reflexivity|].
    simpl in *. rewrite !app_length. rewrite (IH c x (or_introl eq_refl) (Wc c x (or_introl eq_refl)) y Q). f_equal.
    apply IHF; [intros c1 x1 H1; apply (IH c1 x1); now right|intros c1 x1 H1; apply (Wc c1 x1); now right].
Qed.

Lemma layout_vec_unique {A} (v : vec A) : vec_wf v -> forall w, tree_rel eq layout_operand v w ->
  pack_vec w = pack_vec v -> tree_rel eq same_operand_storage v w.
Proof.
  induction v as [o|ty cs IH] using tree_rect'; intros W w H P; inversion H as [? o' R|? ? ? cs' E F]; subst.
  - inversion W as [? Wo|]; subst. constructor. destruct o as [a|x], o' as [b|y]; simpl in *; try contradiction; [|congruence].
    destruct R as [Wb Sb]. split; [exact Sb|]. intros e He. unfold at_.
    assert (Ax : s_axes b = s_axes a) by (rewrite <- (wf_keys a), <- (wf_keys b) by assumption; now rewrite Sb).
    rewrite Ax. apply ravel_ext_inv.
    + rewrite <- (wf_vals a), <- (wf_vals b) by assumption. now rewrite Sb.
    + exact P.
    + now apply inside_inb.
  - constructor; [reflexivity|]. inversion W as [|? ? _ Wc]; subst. clear W H. simpl in P.
    induction F as [|[c x] [c' y] cs cs' [E Q] F IHF]; [constructor|]. simpl in *.
    destruct (app_inv_length _ _ _ _ (layout_vec_length x (Wc c x (or_introl eq_refl)) y Q) P) as [P1 P2].
    constructor.
    + simpl. split; [exact E|]. apply (IH c x (or_introl eq_refl) (Wc c x (or_introl eq_refl)) y Q P1).
    + apply IHF; try exact P2; intros c1 x1 H1; [apply (IH c1 x1)|apply (Wc c1 x1)]; now right.
Qed.

Lemma layout_leaf_length {A} (l l' : leaf A) : leaf_wf l -> layout_leaf l l' -> length (leaf_pack l') = length (leaf_pack l).
Proof.
  intros W R. destruct l as [v|n|x|x], l' as [w|m|y|y]; simpl in *; try contradiction; try reflexivity.
  - now apply layout_vec_length.
  - rewrite !ravel_length. now rewrite R.
Qed.

Lemma layout_length {A} (s : struct A) : struct_wf s -> forall r, tree_rel eq layout_leaf s r ->
  length (pack r) = length (pack s).
Proof.
  intros W r H. rewrite !pack_leaves. apply tree_ok_leaves in W. apply tree_rel_leaves in H.
  induction H as [|l l' ls ls' R _ IH]; [reflexivity|]. inversion W; subst. cbn [map concat]. rewrite !app_length, IH by assumption.
  f_equal. now apply layout_leaf_length.
Qed.

Lemma layout_unique {A} (s : struct A) : struct_wf s -> forall r, tree_rel eq layout_leaf s r ->
  pack r = pack s -> tree_rel eq same_leaf s r.
Proof.
  induction s as [l|ty cs IH] using tree_rect'; intros W r H P; inversion H as [? l' R|? ? ? cs' E F]; subst.
  - inversion W as [? Wl|]; subst. constructor. destruct l as [v|n|x|x], l' as [w|m|y|y]; simpl in *; try contradiction; auto.
    + now apply layout_vec_unique.
    + split; [exact R|]. intros idx Hi. now apply ravel_ext_inv.
  - constructor; [reflexivity|]. inversion W as [|? ? _ Wc]; subst. clear W H. simpl in P.
    induction F as [|[c x] [c' y] cs cs' [E Q] F IHF]; [constructor|]. simpl in *.
    destruct (app_inv_length _ _ _ _ (layout_length x (Wc c x (or_introl eq_refl)) y Q) P) as [P1 P2].
    constructor.
    + simpl. split; [exact E|]. apply (IH c x (or_introl eq_refl) (Wc c x (or_introl eq_refl)) y Q P1).
    + apply IHF; try exact P2; intros c1 x1 H1; [apply (IH c1 x1)|apply (Wc c1 x1)]; now right.
Qed.

Lemma round_trip {A} (zero : A) (cast : A -> A -> A) (s : struct A) :
  (forall x, cast x x = x) -> struct_wf s -> nodes_ok (fun ty => is_named_tuple ty = false) s ->
  exists r, unpack zero cast (pack s) s = Ok r /\ tree_rel eq same_leaf s r.
Proof.
  intros C W N. destruct (proj2 (unpack_success zero cast (pack s) s W N)) as (r & H); [symmetry; now apply numbers_length|].
  exists r. split; [exact H|]. destruct (unpack_spec zero cast (pack s) s r W H) as (R & _ & P).
  apply layout_unique; [exact W|exact R|]. rewrite P. apply retyped_id; [exact C|]. now apply numbers_length.
Qed.

Lemma unpack_named_tuple {A} (zero : A) (cast : A -> A -> A) (flat : list A) ty cs :
  is_named_tuple ty = true -> exists e, unpack zero cast flat (Node ty cs) = Err e.
Proof.
  intros N. unfold unpack. cbn [unpack_rec]. rewrite N.
  destruct (traverse_at _ cs 0) as [r|e]; simpl; eauto.
Qed.
