(** Facts about transformations. *)
From Coq Require Import Ascii String List Arith ZArith Bool Lia Permutation Field Field_theory.
From Verif Require Import Base BaseFacts Numpy NumpyFacts Shapes Scalar Elementwise Vector Matrix Geometry Transform Spec SpecDerived SpecVector SpecMatrix SpecTransform.
From Verif Require Import ShapesFacts AlignFacts ElementwiseFacts DerivedFacts LinspaceFacts VectorFacts CartesianFacts VectorIndexFacts MatrixFacts MatrixLaws GeometryFacts.
Import ListNotations.
Open Scope nat_scope.
Open Scope list_scope.

(** ** Kinds *)

Lemma kind_leaf {L M} (t : tree L) : forall u : tree M, of_kind t u -> forall p, leaf_at u p = None <-> leaf_at t p = None.
Proof.
  induction t as [l|ty cs IH] using tree_rect'; intros u H p.
  - destruct u as [m|ty' cs']; [|specialize (H []); discriminate]. destruct p; simpl; split; intros; congruence.
  - destruct u as [m|ty' cs']; [specialize (H []); discriminate|]. destruct p as [|c p]; [simpl; tauto|]. simpl.
    assert (Hn := H []). simpl in Hn. injection Hn as _ Hn.
    destruct (dget cs c) as [x|] eqn:D.
    + assert (Kc : In c (map fst cs')) by (rewrite Hn; apply in_map_iff; exists (c, x); split; [reflexivity|now apply dget_In]).
      change (In c (dkeys cs')) in Kc. apply dget_Some_key in Kc. destruct Kc as (y & Dy). rewrite Dy.
      apply dget_In in D as Di. apply (IH c x Di). intros q. specialize (H (c :: q)). simpl in H. now rewrite D, Dy in H.
    + destruct (dget cs' c) as [y|] eqn:Dy; [|tauto]. exfalso. apply dget_In in Dy.
      assert (Kc : In c (dkeys cs)) by (unfold dkeys; rewrite <- Hn; apply in_map_iff; now exists (c, y)).
      apply dget_Some_key in Kc. destruct Kc as (z & Dz). congruence.
Qed.

Lemma kind_names {L M} (t : tree L) (u : tree M) : tree_ok (fun _ => True) t -> of_kind t u -> names u = names t.
Proof. intros W H. unfold names. f_equal. apply same_paths; [exact W|exact H|now apply kind_leaf]. Qed.

Lemma kind_reaches {L M} (t : tree L) : forall (u : tree M) p l, of_kind t u -> leaf_at t p = Some l -> forall x, reaches u p = Some x -> leaf_at u p = Some x.
Proof.
  intros u p l H Lt x R. destruct (leaf_at u p) as [y|] eqn:Lu.
  - clear Lt. revert p Lu R. clear. induction u as [m|ty cs IH] using tree_rect'; intros [|c p] Lu R; simpl in *; try congruence.
    destruct (dget cs c) as [z|] eqn:D; [|discriminate]. apply dget_In in D. now apply (IH c z D p).
  - apply (kind_leaf t u H) in Lu. congruence.
Qed.

Lemma reaches_leaf {L} (t : tree L) : forall p x, reaches t p = Some x -> exists q, leaf_at t q = Some x.
Proof.
  induction t as [m|ty cs IH] using tree_rect'; intros [|c p] x H; simpl in *; try discriminate; [injection H as <-; now exists []..|].
  destruct (dget cs c) as [z|] eqn:D; [|discriminate]. apply dget_In in D as Di. destruct (IH c z Di p x H) as (q & Hq).
  exists (c :: q). simpl. now rewrite D.
Qed.

Lemma Forall2_In_right {X Y} (R : X -> Y -> Prop) l l' y : Forall2 R l l' -> In y l' -> exists x, In x l /\ R x y.
Proof.
  induction 1 as [|a b l l' H _ IH]; intros Hy; [destruct Hy|]. destruct Hy as [<- |Hy]; [exists a; simpl; auto|].
  destruct (IH Hy) as (x & Hx & Hr). exists x. simpl. auto.
Qed.

Lemma kind_filled {L M} (t : tree L) (u : tree M) : of_kind t u -> filled t -> filled u.
Proof. intros H E p ty cs Hk. apply (E p ty). now rewrite <- H. Qed.

Lemma leaf_reaches {L} (t : tree L) : forall p x, leaf_at t p = Some x -> reaches t p = Some x.
Proof.
  induction t as [m|ty cs IH] using tree_rect'; intros [|c p] x H; simpl in *; try congruence.
  destruct (dget cs c) as [z|] eqn:D; [|discriminate]. apply dget_In in D. now apply (IH c z D p).
Qed.

Section Transform.
Context {F : Type} (K : arith F) (FK : is_field K).
Let Fth : field_theory (zero K) (one K) (plus K) (times K) (minus K) (neg K) (over K) (over K (one K)) eq := proj1 FK.
Add Field Kf7 : Fth.
Variable B : shape.
Hypothesis N : NoDup (dkeys B).

Lemma space_names {L} (p : tree unit) (t : tree L) : space p -> of_kind p t -> names t = names p.
Proof. intros (_ & W & _ & _) H. now apply kind_names. Qed.

(** a ufunc on vectors of one kind *)
Lemma vec_ufunc_reads {Y} (h : list F -> Y) p (vs : list (vec F)) : space p -> vs <> [] -> Forall (member B p) vs ->
  exists r, vec_ufunc h vs = Ok r /\ member B p r /\
    forall e (Vs : list (string -> F)), inside e B -> Forall2 (fun v V => vector_reads v e V) vs Vs ->
      vector_reads r e (fun c => h (map (fun V => V c) Vs)).
Proof.
  intros Sp Ne Mb. rewrite Forall_forall in Mb.
  assert (Wv : Forall vec_wf vs) by (apply Forall_forall; intros v Hv; apply (Mb v Hv)).
  assert (Al : pairwise_alike vs).
  { intros v w Hv Hw q ty ns ty' ns' H1 H2. destruct (Mb v Hv) as (_ & _ & Kv), (Mb w Hw) as (_ & _ & Kw).
    rewrite Kv in H1. rewrite Kw in H2. rewrite H1 in H2. injection H2 as <- <-. split; [reflexivity|tauto]. }
  assert (Fit : forall q os, Forall2 (fun v x => reaches v q = Some x) vs os -> Forall op_wf os /\ Forall (fun o => fits_in (op_shape o) B) os).
  { intros q os R.
    assert (G : forall o, In o os -> op_wf o /\ fits_in (op_shape o) B).
    { intros o Ho. destruct (Forall2_In_right _ _ _ _ R Ho) as (v & Hv & Hr).
      destruct (Mb v Hv) as (Vk & Vf & Kv). destruct (reaches_leaf v q o Hr) as (q' & Lv).
      split; [eapply tree_ok_leaf_at; [apply Vk|exact Lv]|]. apply (Vf (String.concat "." q')). now exists q'. }
    split; apply Forall_forall; intros o Ho; now apply G. }
  destruct (vec_ufunc_success h vs Wv Al) as (r & E).
  { intros q os R C. destruct (Fit q os R) as [Wo Fo]. destruct (ufunc_reads h B os N Wo Fo) as (o & Eo & _).
    destruct (op_ufunc_spec h os o Wo Eo) as (_ & S & _).
    assert (Nd : Forall (fun s => NoDup (dkeys s)) (op_shapes os)).
    { apply Forall_forall. intros s H. unfold op_shapes in H. apply in_flat_map in H.
      destruct H as ([b|y] & Hb & H); [|contradiction]. destruct H as [<- |[]]. rewrite Forall_forall in Wo. apply wf_nodup. exact (Wo _ Hb). }
    apply (broadcast_shapes_conflict _ Nd) in C. congruence. }
  assert (Kr : of_kind p r).
  { intros q. rewrite (vec_ufunc_rec_kinds _ _ _ _ E Al q). destruct vs as [|v vs]; [congruence|]. cbn [map first_some].
    destruct (Mb v (or_introl eq_refl)) as (_ & _ & Kv). rewrite Kv.
    destruct (kind p q) eqn:Kp; [reflexivity|]. clear - Mb Kp. assert (Q : forall w, In w vs -> kind w q = None).
    { intros w Hw. destruct (Mb w (or_intror Hw)) as (_ & _ & Kw). now rewrite Kw. }
    clear Mb. induction vs as [|w vs IH]; [reflexivity|]. cbn [map first_some]. rewrite (Q w) by now left. apply IH. intros; apply Q. now right. }
  assert (Sr : forall q o, leaf_at r q = Some o -> reads B o (fun e => h (map (fun v => match leaf_at v q with Some x => op_at x e | None => zero K end) vs))).
  { intros q o Lo. destruct (vec_ufunc_leaves h vs r Wv E q o Lo) as (os & R & El). destruct (Fit q os R) as [Wo Fo].
    destruct (ufunc_reads h B os N Wo Fo) as (o' & Eo & (W' & F' & V')).
    destruct (op_ufunc_spec h os o' Wo Eo) as (_ & S' & _). assert (El' := El). destruct El' as (W & S & _ & _).
    assert (Sh : op_shape o = op_shape o') by congruence.
    split; [exact W|]. split; [now rewrite Sh|]. intros e I.
    assert (Q : map (fun v => match leaf_at v q with Some x => op_at x e | None => zero K end) vs = map (fun x => op_at x e) os).
    { assert (Lv : forall v, In v vs -> forall x, reaches v q = Some x -> leaf_at v q = Some x).
      { intros v Hv x Hx. destruct (leaf_at p q) as [y|] eqn:Lp.
        - apply (kind_reaches p v q y); auto. apply (Mb v Hv).
        - exfalso. apply (kind_leaf p r Kr) in Lp. congruence. }
      clear - R Lv. induction R as [|v x vs os Hr _ IH]; [reflexivity|]. cbn [map].
      rewrite (Lv v (or_introl eq_refl) x Hr). f_equal. apply IH. intros; apply Lv; auto. now right. }
    rewrite Q. apply elementwise_within; [exact Wo|exact El|]. eapply fits_within; [|exact I]. now rewrite Sh. }
  exists r. split; [exact E|].
  assert (Vr : vector_ok r).
  { destruct Sp as (Pn & Pt & Pd & Pf). split; [exact (kind_node p r Pn Kr)|]. split; [|split; [|exact (kind_filled p r Kr Pf)]].
    - apply (tree_ok_kind (fun _ => True) op_wf p r Pt Kr). intros q o Lo. apply (Sr q o Lo).
    - rewrite (kind_names p r Pt Kr). exact Pd. }
  split; [split; [exact Vr|]; split; [|exact Kr]; intros c o (q & Lo & _); apply (Sr q o Lo)|].
  intros e Vs I R c o (q & Lo & Hc). destruct (Sr q o Lo) as (_ & _ & V). rewrite V by exact I. f_equal.
  assert (Lv : forall v, In v vs -> leaf_at v q <> None).
  { intros v Hv Z. apply (kind_leaf p v) in Z; [|apply (Mb v Hv)]. apply (kind_leaf p r Kr) in Z. congruence. }
  clear - R Lv Hc. induction R as [|v V0 vs Vs H R IH]; [reflexivity|]. cbn [map]. f_equal; [|apply IH; intros; apply Lv; now right].
  destruct (leaf_at v q) as [x|] eqn:Lx; [|exfalso; exact (Lv v (or_introl eq_refl) Lx)]. apply H. exists q. auto.
Qed.

Lemma vadd_reads p (v w : vec F) : space p -> member B p v -> member B p w ->
  exists r, vadd K v w = Ok r /\ member B p r /\
    forall e V W, inside e B -> vector_reads v e V -> vector_reads w e W -> vector_reads r e (fun c => plus K (V c) (W c)).
Proof.
  intros Sp Mv Mw. unfold vadd, vec2.
  destruct (vec_ufunc_reads (fun l => match l with [x; y] => plus K x y | _ => zero K end) p [v; w] Sp) as (r & E & M & R); [discriminate|auto|].
  exists r. split; [exact E|]. split; [exact M|]. intros e V W I Rv Rw. apply (R e [V; W] I). auto.
Qed.

Lemma vneg_reads p (v : vec F) : space p -> member B p v ->
  exists r, vneg K v = Ok r /\ member B p r /\
    forall e V, inside e B -> vector_reads v e V -> vector_reads r e (fun c => neg K (V c)).
Proof.
  intros Sp Mv. unfold vneg, vec1.
  destruct (vec_ufunc_reads (fun l => match l with [x] => neg K x | _ => zero K end) p [v] Sp) as (r & E & M & R); [discriminate|auto|].
  exists r. split; [exact E|]. split; [exact M|]. intros e V I Rv. apply (R e [V] I). auto.
Qed.

Lemma kind_type {L M} (p : tree L) (t : tree M) : of_kind p t -> type_name t = type_name p.
Proof. intros H. unfold type_name. now rewrite H. Qed.

Lemma matvec_reads p q (m : matrix F) (v : vec F) : space p -> space q -> between B p q m -> member B p v ->
  exists r, matvec K m v = Ok r /\ member B q r /\
    forall e M V, inside e B -> matrix_reads m e M -> vector_reads v e V ->
      vector_reads r e (fun i => sum_over K (names p) (fun k => times K (M i k) (V k))).
Proof.
  intros Sp Sq (Mk & Mf & Km & Mc & Mt) (Vk & Vf & Kv). assert (Nv := space_names p v Sp Kv).
  destruct (matvec_value K FK B m v N Mk Vk Mf Vf) as (r & E & Rk & Kr & Nr & Rf & R).
  - now rewrite Nv.
  - intros row Hr. rewrite (Mt row Hr). symmetry. now apply kind_type.
  - exists r. split; [exact E|]. split.
    + split; [exact Rk|]. split; [exact Rf|]. intros x. now rewrite Kr.
    + intros e M V I Rm Rv. rewrite <- Nv. now apply R.
Qed.

Lemma matmul_reads p q s (m1 m2 : matrix F) : space p -> space q -> space s -> between B q s m1 -> between B p q m2 ->
  exists m, matmul K m1 m2 = Ok m /\ between B p s m /\
    (forall row, In row (leaves m) -> exists row2, In row2 (leaves m2) /\ forall x, kind row x = kind row2 x) /\
    forall e M1 M2, inside e B -> matrix_reads m1 e M1 -> matrix_reads m2 e M2 ->
      matrix_reads m e (fun i j => sum_over K (names q) (fun k => times K (M1 i k) (M2 k j))).
Proof.
  intros Sp Sq Ss (Mk1 & Mf1 & Km1 & Mc1 & Mt1) (Mk2 & Mf2 & Km2 & Mc2 & Mt2). assert (N2 := space_names q m2 Sq Km2).
  assert (C1 : has_columns m1 (names m2)) by now rewrite N2.
  destruct (matmul_value K FK B m1 m2 (names p) N Mk1 Mk2 Mf1 Mf2 C1 Mc2) as (m & E & Mk & Km & Nm & Mc & _ & Mt & Mf & R).
  destruct (matmul_spec K FK B m1 m2 (names p) N Mk1 Mk2 Mf1 Mf2 C1 Mc2) as (m' & row2 & E' & Rp & _ & _ & _ & Kr & _).
  assert (Z := eq_trans (eq_sym E) E'). injection Z as <-. exists m. split; [exact E|]. split; [|split].
  - split; [exact Mk|]. split; [exact Mf|]. split; [intros x; now rewrite Km|]. split; [exact Mc|]. now apply Mt.
  - intros row Hr. exists row2. split; [apply (row_prototype_ok m2 row2 Mk2 Rp)|]. apply (Kr row Hr).
  - intros e M1 M2 I R1 R2. rewrite <- N2. now apply R.
Qed.

Definition closed (req : tree unit -> tree unit -> matrix F -> Prop) : Prop :=
  forall p q s m1 m2 m, space p -> space q -> space s -> between B q s m1 -> between B p q m2 ->
    req q s m1 -> req p q m2 -> matmul K m1 m2 = Ok m -> req p s m.

Lemma any_closed : closed any.
Proof. repeat intro. exact Logic.I. Qed.

Scheme means_ind2 := Induction for means Sort Prop
  with means_all_ind2 := Induction for means_all Sort Prop.

Section Req.
Variable req : tree unit -> tree unit -> matrix F -> Prop.
Hypothesis Cl : closed req.

Lemma means_spaces p q t f : means K B req p q t f -> space p /\ space q.
Proof.
  revert p q t f. apply (means_ind2 F K B req (fun p q t f _ => space p /\ space q) (fun p q l f _ => space p /\ space q)); intros; tauto.
Qed.

Lemma means_ext p q t f : means K B req p q t f -> forall e V V', inside e B ->
  (forall k, In k (names p) -> V k = V' k) -> forall i, In i (names q) -> f e V i = f e V' i.
Proof.
  revert p q t f. apply (means_ind2 F K B req
    (fun p q t f _ => forall e V V', inside e B -> (forall k, In k (names p) -> V k = V' k) -> forall i, In i (names q) -> f e V i = f e V' i)
    (fun p q l f _ => forall e V V', inside e B -> (forall k, In k (names p) -> V k = V' k) -> forall i, In i (names q) -> f e V i = f e V' i)).
  - intros p Sp e V V' I H i Hi. now apply H.
  - intros p u T Sp Mu R e V V' I H i Hi. now rewrite H.
  - intros p q m M Sp Sq Bm Rq R e V V' I H i Hi. apply sum_over_ext. intros k Hk. now rewrite H.
  - intros p q m u M T Sp Sq Bm Rq Mu R RT e V V' I H i Hi. f_equal. apply sum_over_ext. intros k Hk. now rewrite H.
  - auto.
  - intros p Sp e V V' I H i Hi. now apply H.
  - intros p q r t l f g Hf IHf Hg IHg e V V' I H i Hi. apply IHg; auto.
Qed.

Lemma means_all_spaces p q l f : means_all K B req p q l f -> space p /\ space q.
Proof.
  induction 1 as [p Hp|p q r t l f g Hf Hg IH]; [auto|]. split; [apply (means_spaces _ _ _ _ Hf)|apply IH].
Qed.

Lemma means_all_ext p q l f : means_all K B req p q l f -> forall e V V', inside e B ->
  (forall k, In k (names p) -> V k = V' k) -> forall i, In i (names q) -> f e V i = f e V' i.
Proof.
  induction 1 as [p Hp|p q r t l f g Hf Hg IH]; intros e V V' I X i Hi; [now apply X|].
  apply IH; auto. intros k Hk. exact (means_ext p q t f Hf e V V' I X k Hk).
Qed.

Definition simple (t : trans F) : Prop := match t with Sequence _ _ => False | _ => True end.

Lemma join_means p q s a b f g : means K B req q s a g -> means K B req p q b f -> simple a -> simple b ->
  exists c h, join K a b = Ok c /\ simple c /\ means K B req p s c h /\
    forall e V i, inside e B -> In i (names s) -> h e V i = g e (f e V) i.
Proof.
  intros Ha Hb Sa Sb. destruct (means_spaces _ _ _ _ Ha) as [Sq Ss]. destruct (means_spaces _ _ _ _ Hb) as [Sp _].
  assert (Ha' := Ha). assert (Hb' := Hb).
  destruct Ha' as [q Hq|q u T Hq Mu Ru|q s m M Hq Hs Bm Rq Rm|q s m u M T Hq Hs Bm Rq Mu Rm Ru|q s l i g Hl]; [| | | |contradiction].
  - exists b, f. split; [destruct b; reflexivity|]. auto.
  - inversion Hb' as [p' Hp|p' w W Hp Mw Rw|p' q' m' M' Hp Hq2 Bm' Rq' Rm'|p' q' m' w M' W Hp Hq2 Bm' Rq' Mw Rm' Rw|]; subst; [| | | |contradiction].
    + eexists _, _. split; [reflexivity|]. split; [exact Sa|]. split; [exact Ha|]. reflexivity.
    + destruct (vadd_reads q u w Hq Mu Mw) as (r & E & Mr & Rr). cbn [join]. rewrite E. cbn [bind].
      eexists _, _. split; [reflexivity|]. split; [exact Logic.I|]. split.
      * apply (means_translation K B req q r (fun e c => plus K (T e c) (W e c)) Hq Mr). intros e I. apply Rr; auto.
      * intros e V i I Hi. cbn. ring.
    + eexists _, _. split; [reflexivity|]. split; [exact Logic.I|]. split; [apply (means_affine K B req p q m' u M' T); auto|]. reflexivity.
    + destruct (vadd_reads q u w Hq Mu Mw) as (r & E & Mr & Rr). cbn [join]. rewrite E. cbn [bind].
      eexists _, _. split; [reflexivity|]. split; [exact Logic.I|]. split.
      * apply (means_affine K B req p q m' r M' (fun e c => plus K (T e c) (W e c))); auto.
      * intros e V i I Hi. cbn. ring.
  - inversion Hb' as [p' Hp|p' w W Hp Mw Rw|p' q' m' M' Hp Hq2 Bm' Rq' Rm'|p' q' m' w M' W Hp Hq2 Bm' Rq' Mw Rm' Rw|]; subst; [| | | |contradiction].
    + eexists _, _. split; [reflexivity|]. split; [exact Sa|]. split; [exact Ha|]. reflexivity.
    + destruct (matvec_reads q s m w Hq Hs Bm Mw) as (r & E & Mr & Rr). cbn [join]. rewrite E. cbn [bind].
      eexists _, _. split; [reflexivity|]. split; [exact Logic.I|]. split.
      * apply (means_affine K B req q s m r M (fun e i => sum_over K (names q) (fun k => times K (M e i k) (W e k)))); auto.
      * intros e V i I Hi. cbn. rewrite <- sum_over_plus by exact FK. apply sum_over_ext. intros. ring.
    + destruct (matmul_reads p q s m m' Sp Hq Hs Bm Bm') as (r & E & Br & _ & Rr). cbn [join]. rewrite E. cbn [bind].
      eexists _, _. split; [reflexivity|]. split; [exact Logic.I|]. split.
      * apply (means_linear K B req p s r (fun e i j => sum_over K (names q) (fun k => times K (M e i k) (M' e k j)))); auto.
        exact (Cl p q s m m' r Sp Hq Hs Bm Bm' Rq Rq' E).
      * intros e V i I Hi. cbn. apply sum_assoc. exact FK.
    + destruct (matmul_reads p q s m m' Sp Hq Hs Bm Bm') as (r & E & Br & _ & Rr).
      destruct (matvec_reads q s m w Hq Hs Bm Mw) as (x & E1 & Mx & Rx). cbn [join]. rewrite E. cbn [bind]. rewrite E1. cbn [bind].
      eexists _, _. split; [reflexivity|]. split; [exact Logic.I|]. split.
      * apply (means_affine K B req p s r x (fun e i j => sum_over K (names q) (fun k => times K (M e i k) (M' e k j)))
                 (fun e i => sum_over K (names q) (fun k => times K (M e i k) (W e k)))); auto.
        exact (Cl p q s m m' r Sp Hq Hs Bm Bm' Rq Rq' E).
      * intros e V i I Hi. cbn. rewrite sum_assoc by exact FK. rewrite <- sum_over_plus by exact FK. apply sum_over_ext. intros. ring.
  - inversion Hb' as [p' Hp|p' w W Hp Mw Rw|p' q' m' M' Hp Hq2 Bm' Rq' Rm'|p' q' m' w M' W Hp Hq2 Bm' Rq' Mw Rm' Rw|]; subst; [| | | |contradiction].
    + eexists _, _. split; [reflexivity|]. split; [exact Sa|]. split; [exact Ha|]. reflexivity.
    + destruct (matvec_reads q s m w Hq Hs Bm Mw) as (r & E & Mr & Rr). cbn [join]. rewrite E. cbn [bind].
      destruct (vadd_reads s r u Hs Mr Mu) as (x & E1 & Mx & Rx). rewrite E1. cbn [bind].
      eexists _, _. split; [reflexivity|]. split; [exact Logic.I|]. split.
      * apply (means_affine K B req q s m x M (fun e i => plus K (sum_over K (names q) (fun k => times K (M e i k) (W e k))) (T e i))); auto.
      * intros e V i I Hi. cbn. transitivity (plus K (plus K (sum_over K (names q) (fun k => times K (M e i k) (V k))) (sum_over K (names q) (fun k => times K (M e i k) (W e k)))) (T e i)); [ring|].
        f_equal. rewrite <- sum_over_plus by exact FK. apply sum_over_ext. intros. ring.
    + destruct (matmul_reads p q s m m' Sp Hq Hs Bm Bm') as (r & E & Br & _ & Rr). cbn [join]. rewrite E. cbn [bind].
      eexists _, _. split; [reflexivity|]. split; [exact Logic.I|]. split.
      * apply (means_affine K B req p s r u (fun e i j => sum_over K (names q) (fun k => times K (M e i k) (M' e k j))) T); auto.
        exact (Cl p q s m m' r Sp Hq Hs Bm Bm' Rq Rq' E).
      * intros e V i I Hi. cbn. f_equal. apply sum_assoc. exact FK.
    + destruct (matmul_reads p q s m m' Sp Hq Hs Bm Bm') as (r & E & Br & _ & Rr).
      destruct (matvec_reads q s m w Hq Hs Bm Mw) as (x & E1 & Mx & Rx). cbn [join]. rewrite E. cbn [bind]. rewrite E1. cbn [bind].
      destruct (vadd_reads s x u Hs Mx Mu) as (y & E2 & My & Ry). rewrite E2. cbn [bind].
      eexists _, _. split; [reflexivity|]. split; [exact Logic.I|]. split.
      * apply (means_affine K B req p s r y (fun e i j => sum_over K (names q) (fun k => times K (M e i k) (M' e k j)))
                 (fun e i => plus K (sum_over K (names q) (fun k => times K (M e i k) (W e k))) (T e i))); auto.
        exact (Cl p q s m m' r Sp Hq Hs Bm Bm' Rq Rq' E).
      * intros e V i I Hi. cbn. rewrite sum_assoc by exact FK.
        transitivity (plus K (plus K (sum_over K (names q) (fun k => times K (M e i k) (sum_over K (names p) (fun j => times K (M' e k j) (V j))))) (sum_over K (names q) (fun k => times K (M e i k) (W e k)))) (T e i)); [ring|].
        f_equal. rewrite <- sum_over_plus by exact FK. apply sum_over_ext. intros. ring.
Qed.

Lemma composed_means p q t f : means K B req p q t f ->
  exists c h, composed K t = Ok c /\ simple c /\ means K B req p q c h /\
    forall e V i, inside e B -> In i (names q) -> h e V i = f e V i.
Proof.
  revert p q t f. apply (means_ind2 F K B req
    (fun p q t f _ => exists c h, composed K t = Ok c /\ simple c /\ means K B req p q c h /\
       forall e V i, inside e B -> In i (names q) -> h e V i = f e V i)
    (fun p q l f _ => exists cs, Forall2 (fun t c => composed K t = Ok c) l cs /\
       forall p0 c0 f0, means K B req p0 p c0 f0 -> simple c0 ->
         exists c h, foldM (fun result c => join K c result) cs c0 = Ok c /\ simple c /\ means K B req p0 q c h /\
           forall e V i, inside e B -> In i (names q) -> h e V i = f e (f0 e V) i)).
  - intros p Sp. eexists _, _. split; [reflexivity|]. split; [exact Logic.I|]. split; [now constructor|]. reflexivity.
  - intros p u T Sp Mu R. eexists _, _. split; [reflexivity|]. split; [exact Logic.I|]. split; [apply (means_translation K B req p u T); auto|]. reflexivity.
  - intros p q m M Sp Sq Bm Rq R. eexists _, _. split; [reflexivity|]. split; [exact Logic.I|]. split; [apply (means_linear K B req p q m M); auto|]. reflexivity.
  - intros p q m u M T Sp Sq Bm Rq Mu R RT. eexists _, _. split; [reflexivity|]. split; [exact Logic.I|]. split; [apply (means_affine K B req p q m u M T); auto|]. reflexivity.
  - intros p q l intrinsic f Hl (cs & H2 & Hf).
    assert (Sp : space p).
    { apply (means_all_spaces _ _ _ _ Hl). }
    assert (G : exists ds, traverse (composed K) l = Ok ds /\ (if intrinsic then ds else rev ds) = cs).
    { destruct intrinsic.
      - exists cs. split; [|reflexivity]. rewrite traverse_mapM. now apply mapM_ok_intro.
      - exists (rev cs). split; [|apply rev_involutive]. rewrite traverse_mapM. apply mapM_ok_intro.
        rewrite <- (rev_involutive l). clear - H2. revert cs H2. generalize (rev l). intros l0 cs H2.
        induction H2; [constructor|]. cbn [rev]. apply Forall2_app; auto. }
    destruct G as (ds & E & Ed). destruct (Hf p Identity (fun _ V => V)) as (c & h & Ec & Sc & Mc & Hc); [now constructor|exact Logic.I|].
    exists c, h. split; [|auto]. cbn [composed]. rewrite E. cbn [bind]. now rewrite Ed.
  - intros p Sp. exists []. split; [constructor|]. intros p0 c0 f0 M0 S0. exists c0, f0. split; [reflexivity|]. split; [exact S0|]. split; [exact M0|]. reflexivity.
  - intros p q r t l f g Hf (c1 & h1 & E1 & S1 & M1 & H1) Hg (cs & H2 & IH).
    exists (c1 :: cs). split; [now constructor|]. intros p0 c0 f0 M0 S0.
    destruct (join_means p0 p q c1 c0 f0 h1 M1 M0 S1 S0) as (c2 & h2 & E2 & S2 & M2 & Hh2).
    destruct (IH p0 c2 h2 M2 S2) as (c & h & E & Sc & Mc & Hh). exists c, h. cbn [foldM]. rewrite E2. cbn [bind].
    split; [exact E|]. split; [exact Sc|]. split; [exact Mc|]. intros e V i I Hi. rewrite Hh by auto.
    apply (means_all_ext q r l g Hg); auto. intros k Hk. rewrite Hh2 by auto. now apply H1.
Qed.

Lemma apply_simple_means p q t f v : means K B req p q t f -> simple t -> member B p v ->
  exists w, apply_simple K t v = Ok w /\ member B q w /\
    forall e V, inside e B -> vector_reads v e V -> vector_reads w e (f e V).
Proof.
  intros H S Mv. destruct H as [p Hp|p u T Hp Mu Ru|p q m M Hp Hq Bm Rq Rm|p q m u M T Hp Hq Bm Rq Mu Rm Ru|]; [| | | |contradiction]; cbn [apply_simple].
  - exists v. auto.
  - destruct (vadd_reads p v u Hp Mv Mu) as (r & E & Mr & R). exists r. split; [exact E|]. split; [exact Mr|]. intros e V I Rv. apply R; auto.
  - destruct (matvec_reads p q m v Hp Hq Bm Mv) as (r & E & Mr & R). exists r. split; [exact E|]. split; [exact Mr|]. intros e V I Rv. apply R; auto.
  - destruct (matvec_reads p q m v Hp Hq Bm Mv) as (r & E & Mr & R). rewrite E. cbn [bind].
    destruct (vadd_reads q r u Hq Mr Mu) as (x & E1 & Mx & Rx). exists x. split; [exact E1|]. split; [exact Mx|].
    intros e V I Rv. apply (Rx e (fun i => sum_over K (names p) (fun k => times K (M e i k) (V k))) (T e)); auto.
Qed.

Lemma reads_part_ext p (w : vec F) e V V' : space p -> member B p w -> (forall i, In i (names p) -> V i = V' i) ->
  vector_reads w e V -> vector_reads w e V'.
Proof.
  intros Sp (Wk & _ & Kw) H R c o P. rewrite <- H; [now apply R|]. rewrite <- (space_names p w Sp Kw).
  apply (part_name w c Wk). now exists o.
Qed.

Lemma apply_means p q t f v : means K B req p q t f -> member B p v ->
  exists w, apply K t v = Ok w /\ member B q w /\
    forall e V, inside e B -> vector_reads v e V -> vector_reads w e (f e V).
Proof.
  intros H Mv. destruct (composed_means p q t f H) as (c & h & E & Sc & Mc & Hh). unfold apply. rewrite E. cbn [bind].
  destruct (apply_simple_means p q c h v Mc Sc Mv) as (w & Ew & Mw & R). exists w. split; [exact Ew|]. split; [exact Mw|].
  intros e V I Rv. destruct (means_spaces _ _ _ _ H) as [_ Sq]. apply (reads_part_ext q w e (h e V)); auto.
Qed.

Lemma tmatmul_means p q s a b f g : means K B req q s a g -> means K B req p q b f ->
  exists c h, tmatmul K a b = Ok c /\ means K B req p s c h /\
    forall e V i, inside e B -> In i (names s) -> h e V i = g e (f e V) i.
Proof.
  intros Ha Hb. destruct (composed_means _ _ _ _ Ha) as (a' & g' & Ea & Sa & Ma & Hg).
  destruct (composed_means _ _ _ _ Hb) as (b' & f' & Eb & Sb & Mb & Hf).
  destruct (join_means p q s a' b' f' g' Ma Mb Sa Sb) as (c & h & Ec & Sc & Mc & Hh).
  assert (X : forall e V i, inside e B -> In i (names s) -> g' e (f' e V) i = g e (f e V) i).
  { intros e V i I Hi. rewrite Hg by auto. apply (means_ext q s a g Ha); auto. }
  assert (Id : a' = Identity -> exists c h, Ok b = Ok c /\ means K B req p s c h /\ forall e V i, inside e B -> In i (names s) -> h e V i = g e (f e V) i).
  { intros ->. inversion Ma; subst. exists b, f. split; [reflexivity|]. split; [exact Hb|]. intros e V i I Hi. now rewrite <- (Hg e (f e V) i I Hi). }
  unfold tmatmul. destruct a as [|u|m|m u|l i]; [apply Id; cbn in Ea; congruence| | | |]; rewrite Ea; cbn [bind];
    (destruct a' as [|u'|m'|m' u'|l' i']; [now apply Id| | | |contradiction]);
    rewrite Eb; cbn [bind]; exists c, h; (split; [exact Ec|]); (split; [exact Mc|]); intros e V j I Hj; rewrite Hh by auto; now apply X.
Qed.
End Req.

Lemma member_agree p (v w : vec F) (V : env -> string -> F) : space p -> member B p v -> member B p w ->
  (forall e, inside e B -> vector_reads v e (V e)) -> (forall e, inside e B -> vector_reads w e (V e)) -> agree B v w.
Proof.
  intros Sp (_ & _ & Kv) (_ & _ & Kw) Rv Rw. split; [rewrite (space_names p v Sp Kv); symmetry; now apply space_names|].
  intros e c o o' I P P'. rewrite <- (Rv e I c o P). now apply Rw.
Qed.

(** ** Inverses *)

Lemma regular_closed : closed (regular K B).
Proof.
  intros p q s m1 m2 m Sp Sq Ss B1 B2 (R1 & L1 & T1 & D1) (R2 & L2 & T2 & D2) E.
  destruct (matmul_reads p q s m1 m2 Sp Sq Ss B1 B2) as (m' & E' & Bm & Rows & Rd).
  assert (Z := eq_trans (eq_sym E) E'). injection Z as <-.
  split; [|split; [congruence|split; [exact T2|]]].
  - intros row Hr x. destruct (Rows row Hr) as (row2 & H2 & ->). now apply R2.
  - intros e M I Rm. destruct B1 as (Mk1 & Mf1 & Km1 & Mc1 & Mt1), B2 as (Mk2 & Mf2 & Km2 & Mc2 & Mt2), Bm as (Mk & Mf & Km & Mc & Mt).
    assert (Z1 := entry_reads K m1 e Mk1). assert (Z2 := entry_reads K m2 e Mk2).
    assert (Z := Rd e _ _ I Z1 Z2). specialize (D1 e _ I Z1). specialize (D2 e _ I Z2).
    rewrite (determinant_ext K (names s) (names p) M (fun i j => sum_over K (names q) (fun k => times K (entry K m1 i k e) (entry K m2 k j e)))).
    + rewrite determinant_product by (congruence || lia || exact FK).
      intros X. apply (f_equal (fun x => over K x (determinant K (names q) (names p) (fun k j => entry K m2 k j e)))) in X.
      apply D1. transitivity (over K (times K (determinant K (names s) (names q) (fun i k => entry K m1 i k e)) (determinant K (names q) (names p) (fun k j => entry K m2 k j e))) (determinant K (names q) (names p) (fun k j => entry K m2 k j e))); [field; exact D2|]. rewrite X. field. exact D2.
    + intros r c Hr Hc. assert (Nm := space_names s m Ss Km).
      destruct (proj1 (cell_exists m (names p) r c Mk Mc)) as (o & Ho); [now rewrite Nm|].
      rewrite (Rm r c o Ho). symmetry. now apply Z.
Qed.

Lemma sum_delta l (V : string -> F) i : NoDup l -> In i l -> sum_over K l (fun k => times K (delta K i k) (V k)) = V i.
Proof.
  induction l as [|k l IH]; intros Nd Hi; [destruct Hi|]. inversion Nd; subst. cbn [sum_over fold_right]. change (fold_right _ _ l) with (sum_over K l (fun k => times K (delta K i k) (V k))).
  destruct Hi as [-> |Hi].
  - unfold delta at 1. rewrite String.eqb_refl. rewrite (sum_over_ext K l _ (fun _ => zero K)).
    + rewrite sum_over_zero by exact FK. ring.
    + intros k Hk. unfold delta. destruct (String.eqb_spec i k) as [-> |]; [contradiction|ring].
  - rewrite IH by auto. unfold delta. destruct (String.eqb_spec i k) as [-> |]; [contradiction|ring].
Qed.

Lemma inverse_between p q (m : matrix F) M : space p -> space q -> between B p q m -> regular K B p q m ->
  (forall e, inside e B -> matrix_reads m e (M e)) ->
  exists inv, m_inverse K m = Ok inv /\ between B q p inv /\
    exists W, (forall e, inside e B -> matrix_reads inv e (W e)) /\
      (forall e V i, inside e B -> In i (names p) ->
         sum_over K (names q) (fun k => times K (W e i k) (sum_over K (names p) (fun j => times K (M e k j) (V j)))) = V i) /\
      (forall e V i, inside e B -> In i (names q) ->
         sum_over K (names p) (fun k => times K (M e i k) (sum_over K (names q) (fun j => times K (W e k j) (V j)))) = V i).
Proof.
  intros Sp Sq (Mk & Mf & Km & Mc & Mt) (Rows & L & T & D) Rm.
  assert (Nm := space_names q m Sq Km).
  assert (Oc : ordered_columns m (names p)) by (intros row Hr; apply space_names; auto).
  destruct (inverse_spec K FK B m (names p) N Mk Mf Oc) as (inv & row & E & Rp & Ik & Ki & Ni & Kr & If & X); [congruence|exact T|].
  assert (Hrow := proj1 (row_prototype_ok m row Mk Rp)).
  assert (Ic : has_columns inv (names q)) by (intros v Hv c; rewrite (proj2 (Kr v Hv)), Nm; tauto).
  exists inv. split; [exact E|]. split.
  - split; [exact Ik|]. split; [exact If|]. split; [intros x; rewrite Ki; now apply Rows|]. split; [exact Ic|].
    intros v Hv. unfold type_name. rewrite (proj1 (Kr v Hv)). now rewrite Km.
  - exists (fun e r c => entry K inv r c e). split; [intros e I; now apply entry_reads|].
    assert (Ent : forall e i k, inside e B -> In i (names q) -> In k (names p) -> M e i k = entry K m i k e).
    { intros e i k I Hi Hk. symmetry. apply (reads_entry K m e (M e) (names p) i k Mk Mc (Rm e I)); [now rewrite Nm|exact Hk]. }
    assert (Dz : forall e, inside e B -> determinant K (names m) (names p) (fun r c => entry K m r c e) <> zero K).
    { intros e I. rewrite Nm. apply (D e); [exact I|]. now apply entry_reads. }
    assert (Pd := proj1 (proj2 (proj2 Sp))). assert (Qd := proj1 (proj2 (proj2 Sq))).
    split; intros e V i I Hi; destruct (X e I (Dz e I)) as [X1 X2]; cbn beta.
    + etransitivity; [symmetry; exact (sum_assoc K FK (names p) (names q) (fun r c => entry K inv r c e) (M e) V i)|].
      rewrite (sum_over_ext K _ _ (fun k => times K (delta K i k) (V k))); [now apply sum_delta|].
      intros k Hk. f_equal. rewrite <- X1 by auto. rewrite Nm. apply sum_over_ext. intros j Hj. now rewrite Ent.
    + etransitivity; [symmetry; exact (sum_assoc K FK (names q) (names p) (M e) (fun r c => entry K inv r c e) V i)|].
      rewrite (sum_over_ext K _ _ (fun k => times K (delta K i k) (V k))); [now apply sum_delta|].
      intros k Hk. f_equal. rewrite <- X2 by (now rewrite Nm). apply sum_over_ext. intros j Hj. now rewrite Ent.
Qed.

Lemma means_any req p q t f : means K B req p q t f -> means K B any p q t f.
Proof.
  revert p q t f. apply (means_ind2 F K B req (fun p q t f _ => means K B any p q t f) (fun p q l f _ => means_all K B any p q l f)); intros.
  - now constructor.
  - now apply means_translation.
  - apply means_linear; auto. exact Logic.I.
  - apply means_affine; auto. exact Logic.I.
  - now apply means_sequence.
  - now constructor.
  - eapply means_cons; eauto.
Qed.

Lemma invert_simple_means p q t f : means K B (regular K B) p q t f -> simple t ->
  exists u g, invert_simple K t = Ok u /\ simple u /\ means K B any q p u g /\
    (forall e V i, inside e B -> In i (names p) -> g e (f e V) i = V i) /\
    (forall e V i, inside e B -> In i (names q) -> f e (g e V) i = V i).
Proof.
  intros H S. destruct H as [p Hp|p u T Hp Mu Ru|p q m M Hp Hq Bm Rq Rm|p q m u M T Hp Hq Bm Rq Mu Rm Ru|]; [| | | |contradiction]; cbn [invert_simple].
  - eexists _, _. split; [reflexivity|]. split; [exact Logic.I|]. split; [now constructor|]. auto.
  - destruct (vneg_reads p u Hp Mu) as (n & E & Mn & R). rewrite E. cbn [bind]. eexists _, _. split; [reflexivity|]. split; [exact Logic.I|].
    split; [apply (means_translation K B any p n (fun e c => neg K (T e c))); auto|]. split; intros; cbn; ring.
  - destruct (inverse_between p q m M Hp Hq Bm Rq Rm) as (inv & E & Bi & W & RW & X1 & X2). rewrite E. cbn [bind].
    eexists _, _. split; [reflexivity|]. split; [exact Logic.I|]. split; [apply (means_linear K B any q p inv W); auto; exact Logic.I|]. split; auto.
  - destruct (inverse_between p q m M Hp Hq Bm Rq Rm) as (inv & E & Bi & W & RW & X1 & X2). rewrite E. cbn [bind].
    destruct (vneg_reads q u Hq Mu) as (n & En & Mn & Rn). rewrite En. cbn [bind].
    destruct (matvec_reads q p inv n Hq Hp Bi Mn) as (x & Ex & Mx & Rx). rewrite Ex. cbn [bind].
    eexists _, _. split; [reflexivity|]. split; [exact Logic.I|]. split.
    + apply (means_affine K B any q p inv x W (fun e i => sum_over K (names q) (fun k => times K (W e i k) (neg K (T e k))))); auto; exact Logic.I.
    + split; intros e V i I Hi; cbn.
      * rewrite <- sum_over_plus by exact FK. transitivity (sum_over K (names q) (fun k => times K (W e i k) (sum_over K (names p) (fun j => times K (M e k j) (V j))))); [|now apply X1].
        apply sum_over_ext. intros. ring.
      * transitivity (plus K (sum_over K (names p) (fun k => times K (M e i k) (sum_over K (names q) (fun j => times K (W e k j) (plus K (V j) (neg K (T e j))))))) (T e i)).
        -- f_equal. apply sum_over_ext. intros k Hk. f_equal. rewrite <- sum_over_plus by exact FK. apply sum_over_ext. intros. ring.
        -- rewrite X2 by auto. ring.
Qed.

Lemma invert_means p q t f : means K B (regular K B) p q t f ->
  exists u g, invert K t = Ok u /\ means K B any q p u g /\
    (forall e V i, inside e B -> In i (names p) -> g e (f e V) i = V i) /\
    (forall e V i, inside e B -> In i (names q) -> f e (g e V) i = V i).
Proof.
  intros H. destruct (composed_means _ regular_closed p q t f H) as (c & h & E & Sc & Mc & Hh).
  destruct (invert_simple_means p q c h Mc Sc) as (u & g & Eu & _ & Mu & X1 & X2). unfold invert. rewrite E. cbn [bind].
  exists u, g. split; [exact Eu|]. split; [exact Mu|]. split; intros e V i I Hi.
  - rewrite <- (X1 e V i I Hi). apply (means_ext any q p u g Mu); auto. intros k Hk. symmetry. now apply Hh.
  - rewrite <- (X2 e V i I Hi). symmetry. now apply Hh.
Qed.

(** ** The laws *)

Lemma call_law p q t f (v : vec F) : means K B any p q t f -> member B p v ->
  exists w, apply K t v = Ok w /\ member B q w /\
    forall e V, inside e B -> vector_reads v e V -> vector_reads w e (f e V).
Proof. apply apply_means. exact any_closed. Qed.

Lemma compose_law p q s a b f g (v : vec F) : means K B any q s a g -> means K B any p q b f -> member B p v ->
  exists c x y z, tmatmul K a b = Ok c /\ apply K c v = Ok x /\ apply K b v = Ok y /\ apply K a y = Ok z /\
    member B s x /\ agree B x z.
Proof.
  intros Ha Hb Mv. destruct (means_spaces _ _ _ _ _ Ha) as [_ Ss].
  destruct (tmatmul_means any any_closed p q s a b f g Ha Hb) as (c & h & Ec & Mc & Hh).
  destruct (call_law p s c h v Mc Mv) as (x & Ex & Mx & Rx). destruct (call_law p q b f v Hb Mv) as (y & Ey & My & Ry).
  destruct (call_law q s a g y Ha My) as (z & Ez & Mz & Rz). exists c, x, y, z. do 4 (split; [assumption|]). split; [exact Mx|].
  assert (Rv : forall e, vector_reads v e (fun k => comp K v k e)) by (intros e; apply comp_reads; apply Mv).
  apply (member_agree s x z (fun e => g e (f e (fun k => comp K v k e)))); auto.
  intros e I. apply (reads_part_ext s x e (h e (fun k => comp K v k e))); auto.
Qed.

Lemma assoc_law p q r s a b c f g h (v : vec F) : means K B any r s a h -> means K B any q r b g -> means K B any p q c f -> member B p v ->
  exists ab bc l m x y, tmatmul K a b = Ok ab /\ tmatmul K ab c = Ok l /\ tmatmul K b c = Ok bc /\ tmatmul K a bc = Ok m /\
    apply K l v = Ok x /\ apply K m v = Ok y /\ member B s x /\ agree B x y.
Proof.
  intros Ha Hb Hc Mv. destruct (means_spaces _ _ _ _ _ Ha) as [_ Ss].
  destruct (tmatmul_means any any_closed q r s a b g h Ha Hb) as (ab & k1 & E1 & M1 & H1).
  destruct (tmatmul_means any any_closed p q s ab c f k1 M1 Hc) as (l & k2 & E2 & M2 & H2).
  destruct (tmatmul_means any any_closed p q r b c f g Hb Hc) as (bc & k3 & E3 & M3 & H3).
  destruct (tmatmul_means any any_closed p r s a bc k3 h Ha M3) as (m & k4 & E4 & M4 & H4).
  destruct (call_law p s l k2 v M2 Mv) as (x & Ex & Mx & Rx). destruct (call_law p s m k4 v M4 Mv) as (y & Ey & My & Ry).
  exists ab, bc, l, m, x, y. do 6 (split; [assumption|]). split; [exact Mx|].
  assert (Rv : forall e, vector_reads v e (fun k => comp K v k e)) by (intros e; apply comp_reads; apply Mv).
  apply (member_agree s x y (fun e => k2 e (fun k => comp K v k e))); auto.
  intros e I. apply (reads_part_ext s y e (k4 e (fun k => comp K v k e))); auto.
  intros i Hi. rewrite H4, H2, H1 by auto. apply (means_ext any r s a h Ha); auto.
Qed.

Lemma inverse_law p q a f : means K B (regular K B) p q a f ->
  exists a', invert K a = Ok a' /\
    (forall v : vec F, member B p v -> exists x y, apply K a v = Ok x /\ apply K a' x = Ok y /\ member B q x /\ member B p y /\ agree B y v) /\
    (forall w : vec F, member B q w -> exists x y, apply K a' w = Ok x /\ apply K a x = Ok y /\ member B p x /\ member B q y /\ agree B y w).
Proof.
  intros Ha. destruct (means_spaces _ _ _ _ _ Ha) as [Sp Sq]. destruct (invert_means p q a f Ha) as (u & g & E & Mu & X1 & X2).
  assert (Ha' := means_any _ _ _ _ _ Ha). exists u. split; [exact E|]. split; intros v Mv.
  - destruct (call_law p q a f v Ha' Mv) as (x & Ex & Mx & Rx). destruct (call_law q p u g x Mu Mx) as (y & Ey & My & Ry).
    exists x, y. do 4 (split; [assumption|]).
    assert (Rv : forall e, vector_reads v e (fun k => comp K v k e)) by (intros e; apply comp_reads; apply Mv).
    apply (member_agree p y v (fun e k => comp K v k e)); auto.
    intros e I. apply (reads_part_ext p y e (g e (f e (fun k => comp K v k e)))); auto. intros i Hi. now apply (X1 e (fun k => comp K v k e) i).
  - destruct (call_law q p u g v Mu Mv) as (x & Ex & Mx & Rx). destruct (call_law p q a f x Ha' Mx) as (y & Ey & My & Ry).
    exists x, y. do 4 (split; [assumption|]).
    assert (Rv : forall e, vector_reads v e (fun k => comp K v k e)) by (intros e; apply comp_reads; apply Mv).
    apply (member_agree q y v (fun e k => comp K v k e)); auto.
    intros e I. apply (reads_part_ext q y e (f e (g e (fun k => comp K v k e)))); auto. intros i Hi. now apply (X2 e (fun k => comp K v k e) i).
Qed.

Lemma inverse_product_law p q s a b f g (w : vec F) : means K B (regular K B) q s a g -> means K B (regular K B) p q b f -> member B s w ->
  exists c c' a' b' x y z, tmatmul K a b = Ok c /\ invert K c = Ok c' /\ invert K a = Ok a' /\ invert K b = Ok b' /\
    apply K c' w = Ok x /\ apply K a' w = Ok y /\ apply K b' y = Ok z /\ member B p x /\ agree B x z.
Proof.
  intros Ha Hb Mw. destruct (means_spaces _ _ _ _ _ Hb) as [Sp _].
  destruct (tmatmul_means _ regular_closed p q s a b f g Ha Hb) as (c & h & Ec & Mc & Hh).
  destruct (invert_means p s c h Mc) as (c' & h' & Ec' & Mc' & X1 & X2).
  destruct (invert_means q s a g Ha) as (a' & g' & Ea' & Ma' & Y1 & Y2).
  destruct (invert_means p q b f Hb) as (b' & f' & Eb' & Mb' & Z1 & Z2).
  destruct (call_law s p c' h' w Mc' Mw) as (x & Ex & Mx & Rx). destruct (call_law s q a' g' w Ma' Mw) as (y & Ey & My & Ry).
  destruct (call_law q p b' f' y Mb' My) as (z & Ez & Mz & Rz). exists c, c', a', b', x, y, z. do 8 (split; [assumption|]).
  assert (Rw : forall e, vector_reads w e (fun k => comp K w k e)) by (intros e; apply comp_reads; apply Mw).
  apply (member_agree p x z (fun e => h' e (fun k => comp K w k e))); auto.
  intros e I. apply (reads_part_ext p z e (f' e (g' e (fun k => comp K w k e)))); auto.
  intros i Hi. rewrite <- (Z1 e (h' e (fun k => comp K w k e)) i I Hi). apply (means_ext any q p b' f' Mb'); auto. intros k Hk.
  rewrite <- (Y1 e (f e (h' e (fun k => comp K w k e))) k I Hk). apply (means_ext any s q a' g' Ma'); auto. intros j Hj.
  rewrite <- Hh by auto. symmetry. now apply X2.
Qed.

Lemma foldM_apply p q l f : means_all K B any p q l f -> forall v : vec F, member B p v ->
  exists w, foldM (fun v t => apply K t v) l v = Ok w /\ member B q w /\
    forall e V, inside e B -> vector_reads v e V -> vector_reads w e (f e V).
Proof.
  induction 1 as [p Hp|p q r t l f g Hf Hg IH]; intros v Mv; [exists v; cbn; auto|].
  destruct (call_law p q t f v Hf Mv) as (x & Ex & Mx & Rx). destruct (IH x Mx) as (w & Ew & Mw & Rw).
  exists w. cbn [foldM]. rewrite Ex. cbn [bind]. auto.
Qed.

Lemma list_law p q l intrinsic f (v : vec F) : means K B any p q (Sequence l intrinsic) f -> member B p v ->
  exists x y, apply K (Sequence l intrinsic) v = Ok x /\ foldM (fun v t => apply K t v) (if intrinsic then l else rev l) v = Ok y /\
    member B q x /\ agree B x y.
Proof.
  intros H Mv. destruct (means_spaces _ _ _ _ _ H) as [_ Sq]. destruct (call_law _ _ _ _ v H Mv) as (x & Ex & Mx & Rx).
  inversion H as [| | | |? ? ? ? ? Hl]; subst. destruct (foldM_apply _ _ _ _ Hl v Mv) as (y & Ey & My & Ry).
  exists x, y. do 3 (split; [assumption|]).
  assert (Rv : forall e, vector_reads v e (fun k => comp K v k e)) by (intros e; apply comp_reads; apply Mv).
  apply (member_agree q x y (fun e => f e (fun k => comp K v k e))); auto.
Qed.

Lemma compose_none p q s a b f g (v : vec F) : means K B any q s (or_identity a) g -> means K B any p q (or_identity b) f -> member B p v ->
  exists c x y z, compose K a b = Ok c /\ apply K (or_identity c) v = Ok x /\ apply K (or_identity b) v = Ok y /\ apply K (or_identity a) y = Ok z /\
    member B s x /\ agree B x z.
Proof.
  intros Ha Hb Mv. destruct (means_spaces _ _ _ _ _ Ha) as [_ Ss]. destruct a as [a|]; [destruct b as [b|]|].
  - destruct (compose_law p q s a b f g v Ha Hb Mv) as (c & x & y & z & E & H). exists (Some c), x, y, z. cbn [compose]. rewrite E. cbn [bind]. split; [reflexivity|exact H].
  - inversion Hb; subst. destruct (call_law q s a g v Ha Mv) as (x & Ex & Mx & Rx). exists (Some a), x, v, x. split; [reflexivity|].
    split; [exact Ex|]. split; [reflexivity|]. split; [exact Ex|]. split; [exact Mx|].
    assert (Rv : forall e, vector_reads v e (fun k => comp K v k e)) by (intros e; apply comp_reads; apply Mv).
    apply (member_agree s x x (fun e => g e (fun k => comp K v k e))); auto.
  - inversion Ha; subst. destruct (call_law p s (or_identity b) f v Hb Mv) as (x & Ex & Mx & Rx). exists b, x, x, x. split; [destruct b; reflexivity|].
    split; [exact Ex|]. split; [exact Ex|]. split; [reflexivity|]. split; [exact Mx|].
    assert (Rv : forall e, vector_reads v e (fun k => comp K v k e)) by (intros e; apply comp_reads; apply Mv).
    apply (member_agree s x x (fun e => f e (fun k => comp K v k e))); auto.
Qed.
End Transform.
