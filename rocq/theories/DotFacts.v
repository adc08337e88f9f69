(** The axes of a scalar product. *)
From Coq Require Import Ascii String List Arith ZArith Bool Lia.
From Verif Require Import Base BaseFacts Numpy NumpyFacts Shapes Scalar Elementwise Vector Matrix Geometry Spec SpecDerived SpecVector SpecMatrix SpecGeometry.
From Verif Require Import ShapesFacts AlignFacts ElementwiseFacts DerivedFacts LinspaceFacts VectorFacts CartesianFacts VectorIndexFacts MatrixFacts MatrixLaws GeometryFacts.
Import ListNotations.
Open Scope nat_scope.
Open Scope list_scope.

Section Dot.
Context {F : Type} (K : arith F) (FK : is_field K).

Lemma all_zero_iff (o : operand F) : op_wf o -> op_all_zero K (normalize o) = false ->
  exists e, inside e (op_shape o) /\ op_at o e <> zero K.
Proof.
  intros W Z. unfold op_all_zero in Z.
  assert (H : exists x, In x (ravel (s_nd (normalize o))) /\ is_zero K x = false).
  { induction (ravel (s_nd (normalize o))) as [|x l IH]; [discriminate|]. cbn [forallb] in Z. apply andb_false_iff in Z.
    destruct Z as [Z|Z]; [exists x; split; [now left|exact Z]|]. destruct (IH Z) as (y & Hy & Qy). exists y. split; [now right|exact Qy]. }
  destruct H as (x & Hx & Zx). apply ravel_In in Hx. destruct Hx as (i & Hi & <-).
  assert (Wn : wf (normalize o)) by (apply normalize_wf; exact W).
  exists (env_of (s_axes (normalize o)) i). split.
  - rewrite <- normalize_shape. apply inside_inb; [exact Wn|]. rewrite map_env_of; [exact Hi|apply Wn|].
    rewrite (inb_length _ _ Hi). symmetry. apply Wn.
  - rewrite <- op_at_normalize. intros Q. cbn [op_at] in Q. rewrite exact_at in Q; [|exact Wn|].
    + unfold at_ in Q. rewrite map_env_of in Q; [|apply Wn|rewrite (inb_length _ _ Hi); symmetry; apply Wn].
      assert (P := proj2 (proj2 FK _) Q). congruence.
    + apply inside_inb; [exact Wn|]. rewrite map_env_of; [exact Hi|apply Wn|]. rewrite (inb_length _ _ Hi). symmetry. apply Wn.
Qed.

Lemma live_iff (x y : operand F) : op_wf x -> op_wf y ->
  (op_all_zero K (normalize x) || op_all_zero K (normalize y) = false <-> live K x y).
Proof.
  intros Wx Wy. rewrite orb_false_iff. split.
  - intros [Zx Zy]. split; now apply all_zero_iff.
  - assert (Q : forall o : operand F, op_wf o -> (exists e, inside e (op_shape o) /\ op_at o e <> zero K) -> op_all_zero K (normalize o) = false).
    { intros o W (e & I & Ne). destruct (op_all_zero K (normalize o)) eqn:Z; [|reflexivity]. exfalso. apply Ne.
      apply (all_zero_at K FK (op_shape o) (normalize o) (op_at o) e); auto. split; [now apply normalize_wf|]. split.
      - intros ax n H. exists n. simpl in H. rewrite normalize_shape in H. auto.
      - intros e' _. apply op_at_normalize. }
    intros [Lx Ly]. split; now apply Q.
Qed.

Lemma fits_trans s t u : fits_in s t -> fits_in t u -> fits_in s u.
Proof.
  intros H H' ax n Hn. destruct (H ax n Hn) as (m & Hm & Q). destruct (H' ax m Hm) as (k & Hk & Q'). exists k. split; [exact Hk|].
  destruct Q as [-> | ->]; auto.
Qed.

Lemma op2_spans h (a b o : operand F) : op_wf a -> op_wf b -> op2 K h a b = Ok o -> op_wf o /\
  fits_in (op_shape a) (op_shape o) /\ fits_in (op_shape b) (op_shape o) /\
  forall ax n, In (ax, n) (op_shape o) -> In (ax, n) (op_shape a) \/ In (ax, n) (op_shape b).
Proof.
  intros Wa Wb E. unfold op2 in E. assert (W : Forall op_wf [a; b]) by auto.
  destruct (ufunc_spans _ _ _ W E) as [S T]. split; [apply (op_ufunc_spec _ _ _ W E)|]. split; [apply S; simpl; auto|]. split; [apply S; simpl; auto|].
  intros ax n H. destruct (T ax n H) as (x & [<- |[<- |[]]] & Hx); auto.
Qed.

Lemma dot_axes (x1 x2 : dict (operand F)) o :
  (forall k a, In (k, a) x1 -> op_wf a) -> (forall k b, dget x2 k = Some b -> op_wf b) -> dot K x1 x2 = Ok o ->
  op_wf o /\
  (forall k a b, In (k, a) x1 -> dget x2 k = Some b -> live K a b -> fits_in (op_shape a) (op_shape o) /\ fits_in (op_shape b) (op_shape o)) /\
  (forall ax n, In (ax, n) (op_shape o) -> exists k a b, In (k, a) x1 /\ dget x2 k = Some b /\ live K a b /\
     (In (ax, n) (op_shape a) \/ In (ax, n) (op_shape b))).
Proof.
  intros W1 W2 E. unfold dot in E. destruct (keys_eq _ _); [|discriminate].
  enough (G : forall (l : dict (operand F)) acc, (forall k a, In (k, a) l -> op_wf a) -> op_wf acc ->
    foldM (fun result kv => match dget x2 (fst kv) with
         | Some b => p <- scalar_matmul K (normalize (snd kv)) (normalize b) ;; op2 K (plus K) result p
         | None => Err KeyError end) l acc = Ok o ->
    op_wf o /\ fits_in (op_shape acc) (op_shape o) /\
    (forall k a b, In (k, a) l -> dget x2 k = Some b -> live K a b -> fits_in (op_shape a) (op_shape o) /\ fits_in (op_shape b) (op_shape o)) /\
    (forall ax n, In (ax, n) (op_shape o) -> In (ax, n) (op_shape acc) \/ exists k a b, In (k, a) l /\ dget x2 k = Some b /\ live K a b /\
       (In (ax, n) (op_shape a) \/ In (ax, n) (op_shape b)))).
  { destruct (G x1 (OpNum (zero K)) W1 I E) as (Wo & _ & A & B). split; [exact Wo|]. split; [exact A|].
    intros ax n H. destruct (B ax n H) as [[]|Q]; exact Q. }
  clear E W1. induction l as [|[k a] l IH]; intros acc W1 Wacc E.
  - injection E as <-. split; [exact Wacc|]. split; [intros ax n H; eauto|]. split; [intros ? ? ? []|]. auto.
  - cbn [foldM fst snd] in E. apply bind_ok in E. destruct E as (acc' & E1 & E2).
    destruct (dget x2 k) as [b|] eqn:D; [|discriminate]. apply bind_ok in E1. destruct E1 as (p & Ep & Es).
    assert (Wa : op_wf a) by (apply (W1 k); now left). assert (Wb := W2 k b D).
    assert (P : op_wf p /\ (live K a b -> fits_in (op_shape a) (op_shape p) /\ fits_in (op_shape b) (op_shape p)) /\
      forall ax n, In (ax, n) (op_shape p) -> live K a b /\ (In (ax, n) (op_shape a) \/ In (ax, n) (op_shape b))).
    { unfold scalar_matmul in Ep. assert (Q := live_iff a b Wa Wb).
      destruct (op_all_zero K (normalize a) || op_all_zero K (normalize b)).
      - injection Ep as <-. split; [exact I|]. split; [|intros ? ? []]. intros L. apply Q in L. discriminate.
      - assert (L : live K a b) by (now apply Q).
        destruct (op2_spans _ (OpArr (normalize a)) (OpArr (normalize b)) _ (normalize_wf a Wa) (normalize_wf b Wb) Ep) as (Wp & F1 & F2 & T). cbn [op_shape] in F1, F2, T.
        rewrite normalize_shape in F1, F2. split; [exact Wp|]. split; [auto|]. intros ax n H. split; [exact L|].
        specialize (T ax n H). rewrite !normalize_shape in T. exact T. }
    destruct P as (Wp & Pf & Pt). destruct (op2_spans _ _ _ _ Wacc Wp Es) as (Wacc' & F1 & F2 & T).
    destruct (IH acc' (fun k' a' H => W1 k' a' (or_intror H)) Wacc' E2) as (Wo & Fa & A & B).
    split; [exact Wo|]. split; [eapply fits_trans; eassumption|]. split.
    + intros k' a' b' [H|H] D' L; [|now apply (A k')]. injection H as -> ->. rewrite D in D'. injection D' as <-.
      destruct (Pf L) as [G1 G2]. split; (eapply fits_trans; [eassumption|]; eapply fits_trans; eassumption).
    + intros ax n H. destruct (B ax n H) as [H'|(k' & a' & b' & Hi & R)]; [|right; exists k', a', b'; split; [now right|exact R]].
      apply T in H'. destruct H' as [H'|H']; [now left|]. right. exists k, a, b. split; [now left|]. split; [exact D|]. now apply Pt.
Qed.

Lemma dot_shape (v w : vec F) o : vector_ok v -> vector_ok w -> vec_dot K v w = Ok o ->
  (forall c x y, part v c x -> part w c y -> live K x y -> fits_in (op_shape x) (op_shape o) /\ fits_in (op_shape y) (op_shape o)) /\
  (forall ax n, In (ax, n) (op_shape o) -> exists c x y, part v c x /\ part w c y /\ live K x y /\
     (In (ax, n) (op_shape x) \/ In (ax, n) (op_shape y))).
Proof.
  intros Vk Wk E. unfold vec_dot in E.
  assert (E' : dot K (cartesian_nd v) (cartesian_nd w) = Ok o) by (destruct v, w; congruence). clear E.
  assert (Kv : NoDup (dkeys (cartesian_nd v))) by (unfold dkeys; rewrite cart_keys; apply Vk).
  assert (Iv : forall k a, In (k, a) (cartesian_nd v) <-> part v k a).
  { intros k a. rewrite (part_get v k a Vk). split; [now apply dget_NoDup|apply dget_In]. }
  assert (Iw : forall k b, dget (cartesian_nd w) k = Some b <-> part w k b) by (intros k b; now rewrite (part_get w k b Wk)).
  destruct (dot_axes (cartesian_nd v) (cartesian_nd w) o) as (_ & A & B); [| |exact E'|].
  - intros k a H. apply Iv in H. exact (part_wf v k a Vk H).
  - intros k b H. apply Iw in H. exact (part_wf w k b Wk H).
  - split.
    + intros c x y Hx Hy L. apply Iv in Hx. apply Iw in Hy. exact (A c x y Hx Hy L).
    + intros ax n H. destruct (B ax n H) as (k & a & b & Ha & Hb & R). exists k, a, b. split; [now apply Iv|]. split; [now apply Iw|exact R].
Qed.

Lemma dot_full (v w : vec F) o sh : vector_ok v -> vector_ok w -> vec_dot K v w = Ok o ->
  (forall k, In k (names v) <-> In k (names w)) ->
  (forall c x y, part v c x -> part w c y -> live K x y) ->
  broadcast_shapes (map op_shape (leaves v ++ leaves w)) = Ok sh -> same_shape (op_shape o) sh.
Proof.
  intros Vk Wk E Ks L Sh. destruct (dot_shape v w o Vk Wk E) as [A B].
  assert (Pl : forall (u : vec F) (U : vector_ok u) x, In x (leaves u) -> exists c, part u c x).
  { intros u U x Hx. destruct (In_leaf u x) as (p & Hp); [eapply tree_ok_imp; [|apply U]; auto|exact Hx|]. exists (String.concat "." p). now exists p. }
  assert (Lp : forall (u : vec F) c x, part u c x -> In x (leaves u)).
  { intros u c x (p & Hp & _). eapply leaf_In; eauto. }
  assert (Cov : forall x, In x (leaves v ++ leaves w) -> fits_in (op_shape x) (op_shape o)).
  { intros x H. apply in_app_iff in H. destruct H as [H|H].
    - destruct (Pl v Vk x H) as (c & Hc). destruct (proj1 (part_name w c Wk)) as (y & Hy).
      { apply Ks. apply part_name; eauto. }
      apply (A c x y); eauto.
    - destruct (Pl w Wk x H) as (c & Hc). destruct (proj1 (part_name v c Vk)) as (y & Hy).
      { apply Ks. apply part_name; eauto. }
      apply (A c y x); eauto. }
  assert (Wl : forall x, In x (leaves v ++ leaves w) -> op_wf x).
  { intros x H. apply in_app_iff in H. destruct H as [H|H]; [destruct (Pl v Vk x H) as (c & Hc)|destruct (Pl w Wk x H) as (c & Hc)]; eauto using part_wf. }
  assert (Nd : Forall (fun s => NoDup (dkeys s)) (map op_shape (leaves v ++ leaves w))).
  { apply Forall_forall. intros s H. apply in_map_iff in H. destruct H as (x & <- & H). now apply op_shape_NoDup, Wl. }
  assert (No : NoDup (dkeys (op_shape o))).
  { apply op_shape_NoDup. unfold vec_dot in E. destruct (dot_axes (cartesian_nd v) (cartesian_nd w) o) as (Wo & _).
    - intros k a H. apply (part_wf v k a Vk). apply part_get; [exact Vk|]. apply dget_NoDup; [|exact H].
      unfold dkeys. rewrite cart_keys; apply Vk.
    - intros k b H. apply (part_wf w k b Wk). now apply part_get.
    - destruct v, w; congruence.
    - exact Wo. }
  assert (Nsh : NoDup (dkeys sh)).
  { destruct (broadcast_shapes_ok _ _ Nd Sh) as (Q & _). exact Q. }
  assert (Uo : forall ax n m, In (ax, n) (op_shape o) -> In (ax, m) (op_shape o) -> n = m).
  { intros ax n m H1 H2. apply (dget_NoDup _ _ _ No) in H1. apply (dget_NoDup _ _ _ No) in H2. congruence. }
  assert (Us : forall ax n m, In (ax, n) sh -> In (ax, m) sh -> n = m).
  { intros ax n m H1 H2. apply (dget_NoDup _ _ _ Nsh) in H1. apply (dget_NoDup _ _ _ Nsh) in H2. congruence. }
  assert (At : forall ax n, In (ax, n) (op_shape o) -> exists x, In x (leaves v ++ leaves w) /\ In (ax, n) (op_shape x)).
  { intros ax n H. destruct (B ax n H) as (c & x & y & Px & Py & _ & [Q|Q]); [exists x|exists y]; (split; [apply in_app_iff; eauto|exact Q]). }
  assert (As : forall ax n, In (ax, n) sh -> exists x, In x (leaves v ++ leaves w) /\ In (ax, n) (op_shape x)).
  { intros ax n H. destruct (broadcast_attained _ _ _ _ Nd Sh H) as (s & Hs & Hn). apply in_map_iff in Hs. destruct Hs as (x & <- & Hx). eauto. }
  assert (Cs : forall x ax n, In x (leaves v ++ leaves w) -> In (ax, n) (op_shape x) -> In ax (dkeys sh) /\ (n = 1 \/ In (ax, n) sh)).
  { intros x ax n Hx Hn. eapply broadcast_covers; [exact Nd|exact Sh|apply in_map; exact Hx|exact Hn]. }
  intros ax n. split; intros H.
  - destruct (At ax n H) as (x & Hx & Hn). destruct (Cs x ax n Hx Hn) as [Hk [-> |Q]]; [|exact Q].
    apply in_map_iff in Hk. destruct Hk as ([ax' m] & Em & Hm). simpl in Em. subst ax'.
    destruct (As ax m Hm) as (x' & Hx' & Hn'). destruct (Cov x' Hx' ax m Hn') as (k & Hk & Q).
    assert (k = 1) by eauto. subst k. destruct Q as [-> | ->]; exact Hm.
  - destruct (As ax n H) as (x & Hx & Hn). destruct (Cov x Hx ax n Hn) as (k & Hk & [-> | ->]); [|exact Hk].
    destruct (At ax k Hk) as (x' & Hx' & Hn'). destruct (Cs x' ax k Hx' Hn') as [_ [-> |Q]]; [exact Hk|].
    assert (k = 1) by eauto. now subst k.
Qed.
End Dot.
