From Coq Require Import Ascii String List Arith ZArith Bool Lia Field_theory Field.
From Verif Require Import Base Numpy Shapes Scalar Elementwise Vector Matrix Transform Poly BigMatrix Jacobian VectorReduce VectorOptimize.
From Verif Require Import Spec SpecVector SpecMatrix SpecTransform SpecJacobian SpecVectorReduce SpecOptimize SpecInverse SpecVectorOptimize.
From Verif Require Import BaseFacts ShapesFacts VectorFacts VectorIndexFacts MatrixFacts MatrixLaws AlignFacts ElementwiseFacts TransformFacts JacobianFacts JacobianLaws VectorReduceFacts BigInverseFacts BigInverseLaws PdfFacts DotFacts.
Import ListNotations.
Open Scope nat_scope.
Open Scope list_scope.

Section Basics.
Context {F : Type} (K : arith F).
Variable B : shape.
Hypothesis N : NoDup (dkeys B).

(** a vector has numbers at every index *)
Lemma some_reads {A} (v : vec A) (d : A) e : vector_ok v -> exists V, vector_reads v e V.
Proof.
  intros Vk. exists (fun c => match dget (cartesian_nd v) c with Some o => op_at o e | None => d end).
  intros c o Po. assert (E : dget (cartesian_nd v) c = Some o).
  { apply cart_get; [exact (proj1 Vk)|exact (vector_tree v Vk)|exact (proj1 (proj2 (proj2 Vk)))|exact Po]. }
  now rewrite E.
Qed.

(** all flags of a vector *)
Lemma member_all (q : tree unit) (v : vec bool) e0 : space q -> member B q v -> inside e0 B ->
  exists b, vec_all v = Ok b /\ (b = true <-> forall e V c, inside e B -> vector_reads v e V -> In c (names q) -> V c = true).
Proof.
  intros Sq Mv I0. assert (Nm := member_names B q v Sq Mv). destruct Mv as (Vk & Vf & Kv). assert (Vk' := Vk).
  destruct Vk as ((ty & cs & Ev) & Vw & Vd & Vfl). subst v. set (v := Node ty cs) in *.
  destruct (vec_shape_fits v B Vw N) as (s & Es & Fs).
  { intros o Ho. destruct (In_leaf v o (vector_tree v Vk') Ho) as (pth & Lp). apply (Vf (String.concat "." pth)). now exists pth. }
  assert (Jt := vec_shape_joint v s Vw Es). destruct (vec_all_spec ty cs s Vw Vfl Jt) as (b & Eb & Hb).
  exists b. split; [exact Eb|]. rewrite Hb. destruct Jt as (Ns & Jf & _).
  assert (Fo : forall pth o, leaf_at v pth = Some o -> op_wf o /\ fits_in (op_shape o) s).
  { intros pth o Lp. split; [exact (tree_ok_leaf_at op_wf v pth o Vw Lp)|]. apply Jf, in_map, (leaf_In v pth o Lp). }
  split.
  - intros H e V c I Rv Hc. rewrite <- Nm in Hc. apply (part_name v c Vk') in Hc. destruct Hc as (o & Po).
    rewrite (Rv c o Po). destruct Po as (pth & Lp & _). destruct (Fo pth o Lp) as (Wo & Fos).
    rewrite <- (op_at_clamp o s e Wo Ns).
    + apply (H pth o); [exact Lp|]. apply clamp_inside; [exact Ns|]. now apply (fits_within B).
    + intros ax n Hn. destruct (Fos ax n Hn) as (m & Hm & [-> | ->]); auto.
  - intros H pth o e Lp I. destruct (Fo pth o Lp) as (Wo & Fos).
    set (e' := fun ax => match dget s ax with Some 1 | None => e0 ax | _ => e ax end).
    assert (I' : inside e' B).
    { intros ax m Hm. unfold e'. destruct (dget s ax) as [n|] eqn:D; [|now apply I0]. apply dget_In in D.
      destruct (Nat.eq_dec n 1) as [-> |Hn]; [now apply I0|]. destruct (Fs ax n D) as (m' & Hm' & [?|<-]); [contradiction|].
      assert (n = m) as <- by (apply (dget_NoDup B ax n N) in Hm'; apply (dget_NoDup B ax m N) in Hm; congruence).
      assert (e ax < n) by now apply I. destruct n as [|[|n]]; [lia|lia|assumption]. }
    destruct (some_reads v true e' Vk') as (V & RV).
    rewrite (op_at_near o e e' Wo).
    + rewrite <- (RV (String.concat "." pth) o) by (now exists pth). apply (H e' V); [exact I'|exact RV|].
      rewrite <- Nm. apply (part_name v _ Vk'). exists o. now exists pth.
    + intros ax n Hn. destruct (Fos ax n Hn) as (m & Hm & [-> | ->]); [now left|]. destruct (Nat.eq_dec m 1) as [-> |H1]; [now left|right].
      unfold e'. rewrite (dget_NoDup s ax m Ns Hm). destruct m as [|[|m]]; [reflexivity|lia|reflexivity].
Qed.

(** ufuncs of vectors and scalars *)
Lemma mixed_reads {Y} (h : list F -> Y) q (vs : list (vec F)) w : space q -> In w vs -> member B q w -> Forall (setting B q) vs ->
  exists r, vec_ufunc h vs = Ok r /\ member B q r /\
    forall e (Vs : list (string -> F)), inside e B -> Forall2 (fun v V => setting_reads v e V) vs Vs ->
      vector_reads r e (fun c => h (map (fun V => V c) Vs)).
Proof.
  intros Sq Hw Mw Mb. rewrite Forall_forall in Mb.
  assert (Wv : Forall vec_wf vs).
  { apply Forall_forall; intros v Hv. specialize (Mb v Hv). destruct v as [s|ty cs]; cbn in Mb; [constructor; apply Mb|apply Mb]. }
  assert (Kd : forall v c, In v vs -> kind v c = None \/ kind v c = kind q c).
  { intros v c Hv. specialize (Mb v Hv). destruct v as [s|ty cs]; [left; apply kind_Leaf|right; apply Mb]. }
  assert (Al : pairwise_alike vs).
  { intros t u Ht Hu c ty ns ty' ns' H1 H2. destruct (Kd t c Ht) as [Z|K1]; [congruence|]. destruct (Kd u c Hu) as [Z|K2]; [congruence|].
    rewrite K1 in H1. rewrite K2 in H2. rewrite H1 in H2. injection H2 as <- <-. split; [reflexivity|tauto]. }
  assert (Fit : forall c os, Forall2 (fun v x => reaches v c = Some x) vs os -> Forall op_wf os /\ Forall (fun o => fits_in (op_shape o) B) os).
  { intros c os R.
    assert (G : forall o, In o os -> op_wf o /\ fits_in (op_shape o) B).
    { intros o Ho. destruct (Forall2_In_right _ _ _ _ R Ho) as (v & Hv & Hr). specialize (Mb v Hv). destruct v as [s|ty cs].
      - rewrite reaches_Leaf in Hr. injection Hr as <-. exact Mb.
      - destruct Mb as (Vk & Vf & Kv). destruct (reaches_leaf _ c o Hr) as (c' & Lv).
        split; [eapply tree_ok_leaf_at; [apply Vk|exact Lv]|]. apply (Vf (String.concat "." c')). now exists c'. }
    split; apply Forall_forall; intros o Ho; now apply G. }
  destruct (vec_ufunc_success h vs Wv Al) as (r & E).
  { intros c os R C. destruct (Fit c os R) as [Wo Fo]. destruct (ufunc_reads h B os N Wo Fo) as (o & Eo & _).
    destruct (op_ufunc_spec h os o Wo Eo) as (_ & S & _).
    assert (Nd : Forall (fun s => NoDup (dkeys s)) (op_shapes os)).
    { apply Forall_forall. intros s H. unfold op_shapes in H. apply in_flat_map in H.
      destruct H as ([b|y] & Hb & H); [|contradiction]. destruct H as [<- |[]]. rewrite Forall_forall in Wo. apply wf_nodup. exact (Wo _ Hb). }
    apply (broadcast_shapes_conflict _ Nd) in C. congruence. }
  assert (Kr : of_kind q r).
  { intros c. rewrite (vec_ufunc_rec_kinds _ _ _ _ E Al c). assert (Kw := proj2 (proj2 Mw) c). clear - Kd Hw Kw.
    induction vs as [|v vs IH]; [contradiction|]. cbn [map first_some].
    destruct Hw as [-> |Hw].
    - rewrite Kw. destruct (kind q c) eqn:Kq; [reflexivity|]. apply first_some_None. intros u Hu.
      destruct (Kd u c (or_intror Hu)) as [Z|Z]; [exact Z|now rewrite Kq in Z].
    - destruct (Kd v c (or_introl eq_refl)) as [Z|Z]; rewrite Z.
      + apply IH; [exact Hw|intros; apply Kd; now right].
      + destruct (kind q c) eqn:Kq; [reflexivity|]. rewrite IH; [congruence|exact Hw|intros; apply Kd; now right]. }
  assert (Sr : forall c o, leaf_at r c = Some o -> reads B o (fun e => h (map (fun v => match reaches v c with Some x => op_at x e | None => zero K end) vs))).
  { intros c o Lo. destruct (vec_ufunc_leaves h vs r Wv E c o Lo) as (os & R & El). destruct (Fit c os R) as [Wo Fo].
    destruct (ufunc_reads h B os N Wo Fo) as (o' & Eo & (W' & F' & V')).
    destruct (op_ufunc_spec h os o' Wo Eo) as (_ & S' & _). assert (El' := El). destruct El' as (W & S & _ & _).
    assert (Sh : op_shape o = op_shape o') by congruence.
    split; [exact W|]. split; [now rewrite Sh|]. intros e I.
    assert (Q : map (fun v => match reaches v c with Some x => op_at x e | None => zero K end) vs = map (fun x => op_at x e) os).
    { clear - R. induction R as [|v x vs os Hr _ IH]; [reflexivity|]. cbn [map]. now rewrite Hr, IH. }
    rewrite Q. apply elementwise_within; [exact Wo|exact El|]. eapply fits_within; [|exact I]. now rewrite Sh. }
  exists r. split; [exact E|].
  assert (Vr : vector_ok r).
  { destruct Sq as (Pn & Pt & Pd & Pf). split; [exact (kind_node q r Pn Kr)|]. split; [|split; [|exact (kind_filled q r Kr Pf)]].
    - apply (tree_ok_kind (fun _ => True) op_wf q r Pt Kr). intros c o Lo. apply (Sr c o Lo).
    - rewrite (kind_names q r Pt Kr). exact Pd. }
  split; [split; [exact Vr|]; split; [|exact Kr]; intros c o (c' & Lo & _); apply (Sr c' o Lo)|].
  intros e Vs I R c o (c' & Lo & Hc). destruct (Sr c' o Lo) as (_ & _ & V). rewrite V by exact I. f_equal.
  assert (Lq : leaf_at q c' <> None) by (intros Z; apply (kind_leaf q r Kr) in Z; congruence).
  clear - R Mb Hc Lq. induction R as [|v V0 vs Vs H R IH]; [reflexivity|]. cbn [map]. f_equal; [|apply IH; intros; apply Mb; now right].
  specialize (Mb v (or_introl eq_refl)). destruct v as [s|ty cs]; cbn [setting setting_reads] in Mb, H.
  - rewrite reaches_Leaf. apply H.
  - destruct (leaf_at (Node ty cs) c') as [x|] eqn:Lx.
    + rewrite (leaf_reaches _ _ _ Lx). apply H. now exists c'.
    + exfalso. apply Lq. now apply (kind_leaf q _ (proj2 (proj2 Mb))).
Qed.

Lemma member_setting q (v : vec F) : member B q v -> setting B q v.
Proof. intros M. destruct M as (((ty & cs & ->) & R) & R'). split; [split; [now exists ty, cs|exact R]|exact R']. Qed.
Lemma member_setting_reads q (v : vec F) e V : member B q v -> vector_reads v e V -> setting_reads v e V.
Proof. intros (((ty & cs & ->) & _) & _). trivial. Qed.

(** broadcasting a vector *)
Lemma broadcast_member {A} q (v : vec A) sh : member B q v -> NoDup (dkeys sh) -> fits_in sh B ->
  (forall c o, part v c o -> fits_in (op_shape o) sh) ->
  exists b, vec_broadcast_to v sh = Ok b /\ member B q b /\ forall e V, vector_reads v e V <-> vector_reads b e V.
Proof.
  intros (Vk & Vf & Kv) Ns Fs Fo.
  destruct (vec_broadcast_total sh v (proj1 (proj2 Vk)) Ns) as (b & E).
  { intros o Ho ax n Hn. destruct (In_leaf v o (vector_tree v Vk) Ho) as (c & Lc). destruct (Fo (String.concat "." c) o (ex_intro _ c (conj Lc eq_refl)) ax n Hn) as (m & Hm & Hmn).
    split; [now apply (in_map fst) in Hm|]. destruct Hmn as [-> | ->]; auto. }
  exists b. split; [exact E|]. destruct (vec_broadcast_wf sh v b (proj1 (proj2 Vk)) Ns E) as (Wb & _ & Ub & _).
  destruct (vec_broadcast_spec sh v b (proj1 (proj2 Vk)) Ns E) as (Kb & Lb).
  assert (Pb : forall c, match leaf_at v c with Some o => exists r, leaf_at b c = Some r /\ op_shape r = sh /\ forall e, op_at r e = op_at o e | None => leaf_at b c = None end).
  { intros c. specialize (Lb c). destruct (leaf_at v c); [|exact Lb]. destruct Lb as (r & ? & ? & ? & ? & ?). eauto. }
  split.
  - split; [|split].
    + split; [|split; [exact Wb|split]].
      * exact (kind_node v b (proj1 Vk) Kb).
      * rewrite (kind_names v b (vector_tree v Vk) Kb). apply Vk.
      * exact (kind_filled v b Kb (proj2 (proj2 (proj2 Vk)))).
    + intros c o (c' & Lo & _). specialize (Pb c'). destruct (leaf_at v c') as [o'|]; [|congruence]. destruct Pb as (r & Lr & Sr & _).
      assert (o = r) as -> by congruence. now rewrite Sr.
    + intros c. rewrite Kb. apply Kv.
  - intros e V. split; intros H c o (c' & Lo & Hc); specialize (Pb c').
    + destruct (leaf_at v c') as [o'|] eqn:Lv; [|congruence]. destruct Pb as (r & Lr & _ & Er). assert (o = r) as -> by congruence. rewrite Er. apply H. now exists c'.
    + rewrite Lo in Pb. destruct Pb as (r & Lr & _ & Er). rewrite <- Er. apply H. now exists c'.
Qed.

End Basics.

Lemma no_axes {A} (o : operand A) : fits_in (op_shape o) [] -> op_shape o = [].
Proof. destruct (op_shape o) as [|[ax n] s]; [reflexivity|]. intros H. destruct (H ax n (or_introl eq_refl)) as (m & [] & _). Qed.

(** a tolerance: one number for every component *)
Definition tolerance_of {F} (B : shape) (q : tree unit) (T : string -> F) (t : vec F) : Prop := member B q t /\ forall e, inside e B -> vector_reads t e T.

Lemma tolerance_ok {F} (q : tree unit) (T : string -> F) (t v : vec F) : space q -> step_ok [] q t -> step_reads q t (fun _ => 0) T ->
  vector_ok v -> of_kind q v ->
  exists t', any_like t v = Ok t' /\ vec_shape t' = Ok [] /\ forall B, tolerance_of B q T t'.
Proof.
  intros (Qn & Qt & Qd & Qf) (Wt & Al & R) Rt Vk Kv.
  destruct (any_like_ok [] v q t Qt Kv (vector_tree v Vk) Wt Al R) as (t' & E & Kt & L2).
  assert (Lf : forall c o, leaf_at t' c = Some o -> op_shape o = [] /\ op_wf o /\ forall e, T (String.concat "." c) = op_at o e).
  { intros c o Lo. specialize (L2 c). destruct (leaf_at q c) as [u|] eqn:Lq; [|congruence]. destruct L2 as (o' & Ro & Lo'). assert (o = OpArr (normalize o')) as -> by congruence.
    assert (Hq : leaf_at q c <> None) by congruence.
    destruct (R c Hq) as (o2 & Ro2 & Fo2). rewrite Ro in Ro2. injection Ro2 as <-. assert (Wo := tree_ok_reaches op_wf t c o' Wt Ro).
    assert (Rd : reads [] (OpArr (normalize o')) (op_at o')) by (apply normalize_reads; now apply reads_self).
    apply no_axes in Fo2. split; [destruct o'; [exact Fo2|reflexivity]|]. split; [apply Rd|].
    intros e. rewrite (Rt c o' Hq Ro). destruct Rd as (_ & _ & Rd). rewrite Rd by (intros ax n []). apply op_at_near; [exact Wo|]. rewrite Fo2. intros ax n []. }
  assert (Tk : vector_ok t').
  { split; [exact (kind_node q t' Qn Kt)|]. split; [|split; [|exact (kind_filled q t' Kt Qf)]].
    - apply (tree_ok_kind (fun _ => True) op_wf q t' Qt Kt). intros c o Lo. apply (Lf c o Lo).
    - rewrite (kind_names q t' Qt Kt). exact Qd. }
  exists t'. split; [exact E|]. split.
  - apply uniform_shape; [constructor|exact (proj2 (proj2 (proj2 Tk)))|exact (vector_tree t' Tk)|].
    apply Forall_forall. intros o Ho. destruct (In_leaf t' o (vector_tree t' Tk) Ho) as (c & Lc). apply (Lf c o Lc).
  - intros B. split; [split; [exact Tk|split; [|exact Kt]]|].
    + intros c o (c' & Lo & _). destruct (Lf c' o Lo) as (-> & _). intros ax n [].
    + intros e _ c o (c' & Lo & <-). now apply (Lf c' o Lo).
Qed.

Section Facts.
Context {F : Type} (K : arith F) (FK : is_field K) (absolute : F -> F) (less : F -> F -> bool) (np_inv : list (list F) -> list (list F)).
Let Fth : field_theory (zero K) (one K) (plus K) (times K) (minus K) (neg K) (over K) (over K (one K)) eq := proj1 FK.
Add Field Kf83 : Fth.
Variable B : shape.
Hypothesis N : NoDup (dkeys B).

(** the inverse of a small square matrix, index by index *)
Lemma inverse_at p q (m : matrix F) M : space p -> space q -> between B p q m -> (forall row, In row (leaves m) -> of_kind p row) ->
  length (names p) = length (names q) -> length (names p) <= 3 ->
  (forall e, inside e B -> matrix_reads m e (M e)) ->
  exists inv, m_inverse K m = Ok inv /\ between B q p inv /\
    exists W, (forall e, inside e B -> matrix_reads inv e (W e)) /\
      forall e V i, inside e B -> determinant K (names q) (names p) (M e) <> zero K -> In i (names q) ->
         sum_over K (names p) (fun k => times K (M e i k) (sum_over K (names q) (fun j => times K (W e k j) (V j)))) = V i.
Proof.
  intros Sp Sq (Mk & Mf & Km & Mc & Mt) Rows L T Rm.
  assert (Nm := space_names q m Sq Km).
  assert (Oc : ordered_columns m (names p)) by (intros row Hr; apply space_names; auto).
  destruct (inverse_spec K FK B m (names p) N Mk Mf Oc) as (inv & row & E & Rp & Ik & Ki & Ni & Kr & If & X); [congruence|exact T|].
  assert (Ic : has_columns inv (names q)) by (intros v Hv c; rewrite (proj2 (Kr v Hv)), Nm; tauto).
  exists inv. split; [exact E|]. split.
  - split; [exact Ik|]. split; [exact If|]. split; [intros x; rewrite Ki; apply Rows; exact (proj1 (row_prototype_ok m row Mk Rp))|]. split; [exact Ic|].
    intros v Hv. unfold type_name. rewrite (proj1 (Kr v Hv)). now rewrite Km.
  - exists (fun e r c => entry K inv r c e). split; [intros e I; now apply entry_reads|].
    assert (Ent : forall e i k, inside e B -> In i (names q) -> In k (names p) -> M e i k = entry K m i k e).
    { intros e i k I Hi Hk. symmetry. apply (reads_entry K m e (M e) (names p) i k Mk Mc (Rm e I)); [now rewrite Nm|exact Hk]. }
    assert (Qd := proj1 (proj2 (proj2 Sq))).
    intros e V i I Dz Hi. destruct (X e I) as [X1 X2].
    { rewrite Nm. rewrite (determinant_ext K (names q) (names p) _ (M e)); [exact Dz|]. intros r c Hr Hc. symmetry. now apply Ent. }
    cbn beta. etransitivity; [symmetry; exact (sum_assoc K FK (names q) (names p) (M e) (fun r c => entry K inv r c e) V i)|].
    rewrite (sum_over_ext K _ _ (fun k => times K (delta K i k) (V k))); [now apply sum_delta|].
    intros k Hk. f_equal. rewrite <- X2 by (now rewrite Nm). apply sum_over_ext. intros j Hj. now rewrite Ent.
Qed.

(** whether a matrix is inverted depends on its entries *)
Lemma rows_by_ext rs cs (M M' : string -> string -> F) : (forall r c, In r rs -> In c cs -> M r c = M' r c) -> rows_by rs cs M = rows_by rs cs M'.
Proof. intros H. unfold rows_by. apply map_ext_in. intros r Hr. apply map_ext_in. intros c Hc. now apply H. Qed.

Lemma invertible_ext p q (M M' : string -> string -> F) : (forall r c, In r (names q) -> In c (names p) -> M r c = M' r c) ->
  invertible K np_inv p q M -> invertible K np_inv p q M'.
Proof.
  intros H [(L3 & Dz)|(L4 & Sy & N0 & EN & Ts1 & Ts2)]; [left|right].
  - split; [exact L3|]. rewrite (determinant_ext K (names q) (names p) _ M); [exact Dz|]. intros; symmetry; now apply H.
  - split; [exact L4|]. split.
    + intros r c r' c' P P'. assert (Q := in_combine_l _ _ _ _ P). assert (Q1 := in_combine_r _ _ _ _ P). assert (Q2 := in_combine_l _ _ _ _ P'). assert (Q3 := in_combine_r _ _ _ _ P').
      rewrite <- !H by assumption. now apply Sy.
    + exists N0. split; [rewrite <- EN; symmetry; f_equal; now apply rows_by_ext|].
      split; intros a b Ha Hb; [rewrite <- Ts1 by assumption|rewrite <- Ts2 by assumption]; apply sum_over_ext; intros k Hk; now rewrite H.
Qed.

(** any size *)
Lemma inverse_any_at p q (m : matrix F) M : space p -> space q -> between B p q m -> (forall row, In row (leaves m) -> of_kind p row) ->
  length (names p) = length (names q) -> (forall e, inside e B -> matrix_reads m e (M e)) ->
  exists inv, m_inverse_any K np_inv m = Ok inv /\ between B q p inv /\
    exists W, (forall e, inside e B -> matrix_reads inv e (W e)) /\
      forall e V i, inside e B -> invertible K np_inv p q (M e) -> In i (names q) ->
         sum_over K (names p) (fun k => times K (M e i k) (sum_over K (names q) (fun j => times K (W e k j) (V j)))) = V i.
Proof.
  intros Sp Sq Bm Rows L Rm. assert (Nm := space_names q m Sq (proj1 (proj2 (proj2 Bm)))).
  destruct (le_lt_dec (length (names p)) 3) as [L3|L4].
  - rewrite (small_laws K np_inv m); [|rewrite Nm, <- L; exact L3|exact (proj1 Bm)].
    destruct (inverse_at p q m M Sp Sq Bm Rows L L3 Rm) as (inv & E & Bi & W & RW & H). exists inv. split; [exact E|]. split; [exact Bi|].
    exists W. split; [exact RW|]. intros e V i I [(_ & Dz)|(L4 & _)]; [now apply H|lia].
  - assert (Bm' := Bm). destruct Bm as (Mk & Mf & Km & Mc & Mt).
    assert (Oc : ordered_columns m (names p)) by (intros row Hr; apply space_names; auto).
    assert (L' : length (names p) = length (names m)) by congruence.
    destruct (inverse_big K np_inv B m (names p) N Mk Mf Oc L') as (inv & row & E & Rp & Ik & Ki & Ni & Kr & If & _); [lia|].
    destruct (big_laws K FK np_inv B m (names p) N Mk Mf Oc L') as (inv' & pp & qq & E' & _ & Eq & _ & _ & _ & _ & X); [lia|].
    assert (inv' = inv) as -> by congruence. clear E'.
    assert (Bi : between B q p inv).
    { split; [exact Ik|]. split; [exact If|]. split; [intros x; rewrite Ki; apply Rows; exact (proj1 (row_prototype_ok m row Mk Rp))|].
      split; [intros v Hv c; rewrite (proj2 (Kr v Hv)), Nm; tauto|]. intros v Hv. unfold type_name. rewrite (proj1 (Kr v Hv)). now rewrite Km. }
    exists inv. split; [exact E|]. split; [exact Bi|].
    exists (fun e r c => entry K inv r c e). split; [intros e I; now apply entry_reads|].
    intros e V i I [(L3 & _)|(_ & Sy & N0 & EN & Ts)] Hi; [lia|].
    destruct (X e (M e) N0 I (Rm e I)) as (_ & _ & Q); [now rewrite Nm|now rewrite Nm|]. rewrite Nm in Q. apply Q in Sy.
    destruct (matmul_reads K FK B N q p q m inv Sq Sp Sq Bm' Bi) as (q2 & Eq2 & Bq & _ & Rq). assert (q2 = qq) as -> by congruence.
    assert (Rq' := Rq e (M e) _ I (Rm e I) (entry_reads K inv e Ik)).
    assert (Nq := space_names q qq Sq (proj1 (proj2 (proj2 Bq)))).
    etransitivity; [symmetry; exact (sum_assoc K FK (names q) (names p) (M e) (fun r c => entry K inv r c e) V i)|].
    rewrite (sum_over_ext K _ _ (fun k => times K (delta K i k) (V k))); [apply sum_delta; [exact FK|exact (proj1 (proj2 (proj2 Sq)))|exact Hi]|].
    intros k Hk. f_equal. assert (Hi' : In i (names qq)) by now rewrite Nq.
    rewrite <- (reads_entry K qq e _ (names q) i k (proj1 Bq) (proj1 (proj2 (proj2 (proj2 Bq)))) Sy Hi' Hk).
    now rewrite <- (reads_entry K qq e _ (names q) i k (proj1 Bq) (proj1 (proj2 (proj2 (proj2 Bq)))) Rq' Hi' Hk).
Qed.

Variables (p q : tree unit) (function : vec F -> res (vec F)) (jacobian : vec F -> res (matrix F)).
Variable f : env -> (string -> F) -> string -> F.
Variable J : env -> (string -> F) -> string -> string -> F.
Variable T : string -> F.
Hypotheses (Sp : space p) (Sq : space q) (Rf : realises B p q function f) (RJ : slopes B p q jacobian J).
Hypothesis L : length (names p) = length (names q).
Variable e0 : env.
Hypothesis I0 : inside e0 B.

Notation threshold := (tolerance_of B q T).

(** the position, the value and the comparison *)
Definition state_ok (x v : vec F) : Prop :=
  member B p x /\ member B q v /\ forall e X, inside e B -> vector_reads x e X -> vector_reads v e (f e X).

Lemma small_ok t x v : threshold t -> state_ok x v ->
  exists flags b, small K absolute less v t = Ok flags /\ vec_all flags = Ok b /\ member B q flags /\
    (forall e X, inside e B -> vector_reads x e X -> vector_reads flags e (fun c => less (absolute (f e X c)) (T c))) /\
    (b = true <-> all_below absolute less B q f T x).
Proof.
  intros (Mt & Rt) (Mx & Mv & Rv). unfold small, vabs, vless.
  destruct (vec_ufunc_reads K B N (fun l => match l with [x] => absolute x | _ => zero K end) q [v] Sq) as (a & Ea & Ma & Ra); [discriminate|constructor; [exact Mv|constructor]|].
  rewrite Ea. cbn [bind].
  destruct (vec_ufunc_reads K B N (fun l => match l with [x; y] => less x y | _ => false end) q [a; t] Sq) as (w & Ew & Mw & Rw); [discriminate|constructor; [exact Ma|constructor; [exact Mt|constructor]]|].
  destruct (member_all B N q w e0 Sq Mw I0) as (b & Eb & Hb).
  assert (Rd : forall e X, inside e B -> vector_reads x e X -> vector_reads w e (fun c => less (absolute (f e X c)) (T c))).
  { intros e X I RX. refine (Rw e [_; T] I _). constructor; [|constructor; [now apply Rt|constructor]].
    refine (Ra e [f e X] I _). constructor; [now apply Rv|constructor]. }
  exists w, b. split; [exact Ew|]. split; [exact Eb|]. split; [exact Mw|]. split; [exact Rd|]. rewrite Hb. split.
  - intros H e X c I RX Hc. exact (H e _ c I (Rd e X I RX) Hc).
  - intros H e V c I RV Hc. destruct (some_reads x (zero K) e (proj1 Mx)) as (X & RX).
    assert (Nw := member_names B q w Sq Mw). rewrite <- Nw in Hc. assert (Hc' := Hc). apply (part_name w c (proj1 Mw)) in Hc. destruct Hc as (o & Po).
    rewrite (RV c o Po). rewrite <- (Rd e X I RX c o Po). apply (H e X c I RX). now rewrite <- Nw.
Qed.

Lemma pass_ok t x v : threshold t -> state_ok x v ->
  (vnewton_pass K absolute less np_inv function jacobian t x v = Ok None /\ all_below absolute less B q f T x) \/
  exists flags x' v', vnewton_pass K absolute less np_inv function jacobian t x v = Ok (Some (flags, x', v')) /\
    ~ all_below absolute less B q f T x /\ state_ok x' v' /\ member B q flags /\
    (forall e X, inside e B -> vector_reads x e X -> vector_reads flags e (fun c => less (absolute (f e X c)) (T c))) /\
    forall e X X' r, inside e B -> vector_reads x e X -> vector_reads x' e X' ->
      invertible K np_inv p q (J e X) -> In r (names q) ->
      sum_over K (names p) (fun c => times K (J e X r c) (minus K (X c) (X' c))) = f e X r.
Proof.
  intros Ht St. destruct (small_ok t x v Ht St) as (flags & b & Es & Ea & Mfl & Rfl & Hb).
  destruct St as (Mx & Mv & Rv). unfold vnewton_pass. rewrite Es. cbn [bind]. rewrite Ea. cbn [bind]. destruct b.
  - left. split; [reflexivity|]. now apply Hb.
  - right. destruct (RJ x Mx) as (m & Em & Bm & Rows & Rm). rewrite Em. cbn [bind].
    destruct (inverse_any_at p q m (fun e r c => entry K m r c e) Sp Sq Bm Rows L) as (inv & Ei & Bi & W & RW & HW).
    { intros e I. apply entry_reads. exact (proj1 Bm). }
    rewrite Ei. cbn [bind].
    destruct (matvec_reads K FK B N q p inv v Sq Sp Bi Mv) as (cor & Ec & Mc & Rc). rewrite Ec. cbn [bind].
    destruct (vsub_reads K B N p x cor Sp Mx Mc) as (x' & Ex & Mx' & Rx'). rewrite Ex. cbn [bind].
    destruct (Rf x' Mx') as (v' & Ev & Mv' & Rv'). rewrite Ev. cbn [bind].
    exists flags, x', v'. split; [reflexivity|]. split; [intros A; apply Hb in A; discriminate|]. split; [exact (conj Mx' (conj Mv' Rv'))|].
    split; [exact Mfl|]. split; [exact Rfl|].
    intros e X X' r I RX RX' Dz Hr.
    assert (Ent : forall i k, In i (names q) -> In k (names p) -> J e X i k = entry K m i k e).
    { intros i k Hi Hk. symmetry. apply (reads_entry K m e (J e X) (names p) i k (proj1 Bm) (proj1 (proj2 (proj2 (proj2 Bm)))) (Rm e X I RX)); [|exact Hk].
      now rewrite (space_names q m Sq (proj1 (proj2 (proj2 Bm)))). }
    rewrite <- (HW e (f e X) r I); [|apply (invertible_ext p q (J e X)); [exact Ent|exact Dz]|exact Hr].
    apply sum_over_ext. intros c Hc. cbn beta. rewrite <- Ent by assumption. f_equal.
    assert (R1 := Rx' e X _ I RX (Rc e (W e) (f e X) I (RW e I) (Rv e X I RX))).
    assert (Nx := member_names B p x' Sp Mx'). rewrite <- Nx in Hc. apply (part_name x' c (proj1 Mx')) in Hc. destruct Hc as (o & Po).
    rewrite (RX' c o Po), <- (R1 c o Po). cbn beta. ring.
Qed.

Lemma linked_cons {A} (R : A -> A -> Prop) s l : linked R l -> (forall s', hd_error l = Some s' -> R s s') -> linked R (s :: l).
Proof. intros H H0 [|k] a b Ha Hb; cbn in Ha, Hb; [injection Ha as <-; apply H0; now destruct l|exact (H k a b Ha Hb)]. Qed.

Lemma loop_ok t n : threshold t -> forall i x v flags, state_ok x v ->
  let run := vnewton_loop K absolute less np_inv function jacobian t n i x v flags in
  (forall k s, nth_error (fst run) k = Some s -> at_step B p q f (i + k) s) /\
  (forall s, hd_error (fst run) = Some s -> v_x s = x /\ v_f s = v /\ v_flags s = flags) /\
  linked (newton_linked K np_inv B p q f J) (fst run) /\ linked (flags_linked absolute less B q f T) (fst run) /\
  newton_outcome absolute less B q f T n (fst run) (snd run).
Proof.
  intros Ht. induction n as [|n IH]; intros i x v flags St; cbn [vnewton_loop].
  - cbn [fst snd]. split; [intros [|k] s; discriminate|]. split; [discriminate|]. split; [intros [|k] s s' E; discriminate|]. split; [intros [|k] s s' E; discriminate|].
    right. repeat split; constructor.
  - assert (A0 : at_step B p q f i (mkVseen i x v flags)) by exact (conj eq_refl St).
    destruct (pass_ok t x v Ht St) as [(E & Ab)|(flags' & x' & v' & E & Nb & St' & Mfl & Rfl & Lk)]; rewrite E; cbn [fst snd].
    + split; [intros [|k] s Hs; cbn in Hs; [injection Hs as <-; now rewrite Nat.add_0_r|destruct k; discriminate]|].
      split; [intros s Hs; injection Hs as <-; now repeat split|].
      split; [intros [|[|k]] s s' E1 E2; discriminate|]. split; [intros [|[|k]] s s' E1 E2; discriminate|].
      left. exists [], (mkVseen i x v flags). cbn. repeat split; [lia|exact Ab|constructor].
    + destruct (IH (S i) x' v' flags' St') as (H1 & H2 & H3 & H4 & H5).
      set (rest := vnewton_loop K absolute less np_inv function jacobian t n (S i) x' v' flags') in *. clearbody rest.
      split; [intros [|k] s Hs; cbn in Hs; [injection Hs as <-; now rewrite Nat.add_0_r|replace (i + S k) with (S i + k) by lia; now apply H1]|].
      split; [intros s Hs; injection Hs as <-; now repeat split|].
      split; [apply linked_cons; [exact H3|]; intros s' Hs; destruct (H2 s' Hs) as (Ex & _ & _); unfold newton_linked; cbn [v_x]; rewrite Ex; exact Lk|].
      split; [apply linked_cons; [exact H4|]; intros s' Hs; destruct (H2 s' Hs) as (_ & _ & Ef); unfold flags_linked; cbn [v_x]; rewrite Ef; now split|].
      destruct H5 as [(before & s & E1 & Ln & E2 & Ab & Fb)|(E1 & E2 & Fb)]; [left|right].
      * exists (mkVseen i x v flags :: before), s. rewrite E1. rewrite E1 in Ln. cbn [length app] in *. repeat split; [lia|exact E2|exact Ab|]. constructor; [exact Nb|exact Fb].
      * cbn [length]. repeat split; [exact E1|lia|]. constructor; [exact Nb|exact Fb].
Qed.

(** ** before the loop *)

Lemma vec_shape_member r (v : vec F) : space r -> member B r v -> exists s, vec_shape v = Ok s /\ fits_in s B /\ NoDup (dkeys s) /\
  forall c o, part v c o -> fits_in (op_shape o) s.
Proof.
  intros Sr (Vk & Vf & Kv). destruct (vec_shape_fits v B (proj1 (proj2 Vk)) N) as (s & Es & Fs).
  { intros o Ho. destruct (In_leaf v o (vector_tree v Vk) Ho) as (c & Lc). apply (Vf (String.concat "." c)). now exists c. }
  exists s. split; [exact Es|]. split; [exact Fs|]. destruct (vec_shape_joint v s (proj1 (proj2 Vk)) Es) as (Ns & Js & _). split; [exact Ns|].
  intros c o (c' & Lc & _). apply Js, in_map, (leaf_In v c' o Lc).
Qed.

(** the shape of the value and the guess together *)
Lemma joint_shape r r' (v : vec F) (w : vec F) : space r -> space r' -> member B r v -> member B r' w ->
  exists sv sw sh, vec_shape v = Ok sv /\ vec_shape w = Ok sw /\ broadcast_shapes [sv; sw] = Ok sh /\ fits_in sh B /\ NoDup (dkeys sh) /\
    (forall c o, part v c o -> fits_in (op_shape o) sh) /\ (forall c o, part w c o -> fits_in (op_shape o) sh).
Proof.
  intros Sr Sr' Mv Mw. destruct (vec_shape_member r v Sr Mv) as (sv & Ev & Fv & Nv & Pv). destruct (vec_shape_member r' w Sr' Mw) as (sw & Ew & Fw & Nw & Pw).
  assert (Nd : Forall (fun s => NoDup (dkeys s)) [sv; sw]) by auto.
  destruct (fits_broadcast [sv; sw] B Nd N) as (sh & Es & Fs); [intros s [<- |[<- |[]]]; assumption|].
  destruct (broadcast_joint [sv; sw] sh Nd Es) as (Ns & Js & _).
  exists sv, sw, sh. split; [exact Ev|]. split; [exact Ew|]. split; [exact Es|]. split; [exact Fs|]. split; [exact Ns|].
  split; intros c o Po; eapply fits_trans; [exact (Pv c o Po)|apply Js; now left|exact (Pw c o Po)|apply Js; right; now left].
Qed.

(** the tolerance, given the components of the value *)
Lemma threshold_ok (t v : vec F) : step_ok [] q t -> step_reads q t (fun _ => 0) T -> member B q v ->
  exists t', any_like t v = Ok t' /\ vec_shape t' = Ok [] /\ threshold t'.
Proof. intros St Rt (Vk & _ & Kv). destruct (tolerance_ok q T t v Sq St Rt Vk Kv) as (t' & E & Es & Th). exists t'. split; [exact E|]. split; [exact Es|apply Th]. Qed.

(** no component has converged at the beginning *)
Lemma flags_start (v : vec F) sh : member B q v -> NoDup (dkeys sh) -> fits_in sh B -> (forall c o, part v c o -> fits_in (op_shape o) sh) ->
  exists w, vflags K v sh = Ok w /\ member B q w /\ forall e, inside e B -> vector_reads w e (fun _ => false).
Proof.
  intros Mv Ns Fs Po. unfold vflags.
  destruct (mixed_reads K B N (fun l => match l with [x; y] => times K x y | _ => zero K end) q [Leaf (OpNum (zero K)); v] v Sq) as (z & Ez & Mz & Rz).
  { right; now left. } { exact Mv. }
  { constructor; [split; [exact I|intros ax n []]|constructor; [now apply member_setting|constructor]]. }
  assert (Mv2 : member sh q v) by exact (conj (proj1 Mv) (conj Po (proj2 (proj2 Mv)))).
  destruct (mixed_reads K sh Ns (fun l => match l with [x; y] => times K x y | _ => zero K end) q [Leaf (OpNum (zero K)); v] v Sq) as (z2 & Ez2 & Mz2 & _).
  { right; now left. } { exact Mv2. }
  { constructor; [split; [exact I|intros ax n []]|constructor; [now apply member_setting|constructor]]. }
  assert (z2 = z) as -> by congruence. rewrite Ez. cbn [bind].
  destruct (broadcast_member B q z sh Mz Ns Fs (proj1 (proj2 Mz2))) as (b & Eb & Mb & Rb). rewrite Eb. cbn [bind].
  destruct (vec_ufunc_reads K B N (fun l => match l with [x] => negb (is_zero K x) | _ => false end) q [b] Sq) as (w & Ew & Mw & Rw); [discriminate|constructor; [exact Mb|constructor]|].
  exists w. split; [exact Ew|]. split; [exact Mw|]. intros e Ie c o Pc.
  destruct (some_reads v (zero K) e (proj1 Mv)) as (V & RV).
  assert (R1 : vector_reads z e (fun c => times K (zero K) (V c))).
  { refine (Rz e [fun _ => zero K; V] Ie _). constructor; [intros c'; reflexivity|]. constructor; [exact (member_setting_reads B q v e V Mv RV)|constructor]. }
  apply Rb in R1. 
  rewrite <- (Rw e [fun c => times K (zero K) (V c)] Ie) with (c := c) (o := o); [|constructor; [exact R1|constructor]|exact Pc]. cbn [map].
  symmetry. apply negb_false_iff, (proj2 FK). ring.
Qed.

Theorem start_ok guess t : member B p guess -> step_ok [] q t -> step_reads q t (fun _ => 0) T ->
  exists t' x v flags, vnewton_start K function guess t = Ok (t', x, v, flags) /\ threshold t' /\ state_ok x v /\
    (forall e X, vector_reads guess e X <-> vector_reads x e X) /\ function guess = Ok v /\
    member B q flags /\ forall e, inside e B -> vector_reads flags e (fun _ => false).
Proof.
  intros Mg St Rt. unfold vnewton_start. destruct (Rf guess Mg) as (v & Ev & Mv & Rv). rewrite Ev. cbn [bind].
  destruct (threshold_ok t v St Rt Mv) as (t' & Et & Sh & Th). rewrite Et. cbn [bind].
  destruct (joint_shape q p v guess Sq Sp Mv Mg) as (sv & sg & sh & Esv & Esg & Esh & Fs & Ns & Pv & Pg).
  destruct (flags_start v sh Mv Ns Fs Pv) as (w & Ew & Mw & Rw).
  destruct (broadcast_member B p guess sh Mg Ns Fs Pg) as (x & Ex & Mx & Rx).
  exists t', x, v, w. split.
  - destruct (proj1 (proj1 Mg)) as (ty & cs & Eg). destruct (proj1 (proj1 Mv)) as (ty' & cs' & Ev').
    rewrite Sh, Esv, Esg. cbn [bind]. rewrite Esh. cbn [bind]. rewrite Ew, Ex. cbn [bind]. rewrite Eg, Ev'. reflexivity.
  - split; [exact Th|]. split; [split; [exact Mx|split; [exact Mv|intros e X I RX; apply (Rv e X I); now apply Rx]]|].
    split; [exact Rx|]. split; [reflexivity|]. split; [exact Mw|exact Rw].
Qed.

Theorem newton_history guess t n : member B p guess -> step_ok [] q t -> step_reads q t (fun _ => 0) T ->
  let run := vroot_newton K absolute less np_inv function jacobian guess t n in
  (forall k s, nth_error (fst run) k = Some s -> at_step B p q f k s) /\
  (forall s, hd_error (fst run) = Some s -> (forall e X, vector_reads guess e X <-> vector_reads (v_x s) e X) /\ function guess = Ok (v_f s) /\
     member B q (v_flags s) /\ forall e, inside e B -> vector_reads (v_flags s) e (fun _ => false)) /\
  linked (newton_linked K np_inv B p q f J) (fst run) /\ linked (flags_linked absolute less B q f T) (fst run) /\
  newton_outcome absolute less B q f T n (fst run) (snd run).
Proof.
  intros Mg St Rt. unfold vroot_newton. destruct (start_ok guess t Mg St Rt) as (t' & x & v & flags & E & Th & Sx & Rg & Ev & Mw & Rw).
  rewrite E. destruct (loop_ok t' n Th 0 x v flags Sx) as (H1 & H2 & H3 & H4 & H5). cbv zeta in *.
  split; [exact H1|]. split; [|exact (conj H3 (conj H4 H5))].
  intros s Hs. destruct (H2 s Hs) as (-> & -> & ->). split; [exact Rg|]. split; [exact Ev|]. now split.
Qed.
End Facts.

(** ** affine functions *)
Section Affine.
Context {F : Type} (K : arith F) (FK : is_field K) (absolute : F -> F) (less : F -> F -> bool) (np_inv : list (list F) -> list (list F)).
Let Fth : field_theory (zero K) (one K) (plus K) (times K) (minus K) (neg K) (over K) (over K (one K)) eq := proj1 FK.
Add Field Kf84 : Fth.
Variable B : shape.
Hypothesis N : NoDup (dkeys B).

Lemma sum_minus l (A X Y : string -> F) :
  sum_over K l (fun c => times K (A c) (minus K (X c) (Y c))) = minus K (sum_over K l (fun c => times K (A c) (X c))) (sum_over K l (fun c => times K (A c) (Y c))).
Proof. induction l as [|c l IH]; cbn [sum_over fold_right map]; [ring|]. unfold sum_over in *. cbn [map fold_right]. rewrite IH. ring. Qed.

Theorem newton_affine (p q : tree unit) (function : vec F -> res (vec F)) (jacobian : vec F -> res (matrix F)) (A : env -> string -> string -> F) (b : env -> string -> F) (T : string -> F) guess t n :
  let f := fun e V r => plus K (b e r) (sum_over K (names p) (fun c => times K (A e r c) (V c))) in
  space p -> space q -> realises B p q function f -> slopes B p q jacobian (fun e _ => A e) ->
  length (names p) = length (names q) -> (exists e, inside e B) ->
  (forall e, inside e B -> invertible K np_inv p q (A e)) ->
  member B p guess -> step_ok [] q t -> step_reads q t (fun _ => 0) T ->
  (forall c, In c (names q) -> less (absolute (zero K)) (T c) = true) -> 2 <= n ->
  exists x, snd (vroot_newton K absolute less np_inv function jacobian guess t n) = Ok x /\ member B p x /\
    ((all_below absolute less B q f T guess /\ forall e X, vector_reads guess e X <-> vector_reads x e X) \/
     (~ all_below absolute less B q f T guess /\ forall e X r, inside e B -> vector_reads x e X -> In r (names q) -> f e X r = zero K)).
Proof.
  intros f Sp Sq Rf RJ L (e0 & I0) Dz Mg St Rt Z0 Hn.
  destruct (newton_history K FK absolute less np_inv B N p q function jacobian f (fun e _ => A e) T Sp Sq Rf RJ L e0 I0 guess t n Mg St Rt) as (H1 & H2 & H3 & _ & H5).
  set (run := vroot_newton K absolute less np_inv function jacobian guess t n) in *. cbv zeta in *. clearbody run.
  assert (Root : forall s0 s1, nth_error (fst run) 0 = Some s0 -> nth_error (fst run) 1 = Some s1 ->
            forall e X r, inside e B -> vector_reads (v_x s1) e X -> In r (names q) -> f e X r = zero K).
  { intros s0 s1 E0 E1 e X r Ie RX Hr. destruct (H1 0 s0 E0) as (_ & M0 & _). destruct (some_reads (v_x s0) (zero K) e (proj1 M0)) as (X0 & R0).
    assert (Q := H3 0 s0 s1 E0 E1 e X0 X r Ie R0 RX (Dz e Ie) Hr). cbv beta in Q. rewrite sum_minus in Q. unfold f in Q |- *.
    set (u := sum_over K (names p) (fun c => times K (A e r c) (X0 c))) in *. set (w := sum_over K (names p) (fun c => times K (A e r c) (X c))) in *.
    transitivity (minus K (plus K (b e r) u) (minus K u w)); [ring|]. rewrite Q. ring. }
  assert (Guess : forall s0, nth_error (fst run) 0 = Some s0 -> all_below absolute less B q f T (v_x s0) <-> all_below absolute less B q f T guess).
  { intros s0 E0. assert (E0' : hd_error (fst run) = Some s0) by (destruct (fst run); [discriminate|exact E0]). destruct (H2 s0 E0') as (Rg & _).
    split; intros H e X c Ie RX Hc; apply (H e X c Ie); auto; now apply Rg. }
  assert (Second : forall s0 s1, nth_error (fst run) 0 = Some s0 -> nth_error (fst run) 1 = Some s1 -> all_below absolute less B q f T (v_x s1)).
  { intros s0 s1 E0 E1 e X c Ie RX Hc. rewrite (Root s0 s1 E0 E1 e X c Ie RX Hc). now apply Z0. }
  destruct H5 as [(before & s & Eh & Ln & Eo & Ab & Fb)|(Eo & Ln & Fb)].
  - exists (v_x s). split; [exact Eo|]. assert (Es : nth_error (fst run) (length before) = Some s) by (rewrite Eh, nth_error_app2, Nat.sub_diag by lia; reflexivity).
    split; [apply (H1 _ s Es)|]. destruct before as [|s0 [|s1 before]]; cbn [length] in Es.
    + left. split; [now apply (Guess s)|]. assert (E0' : hd_error (fst run) = Some s) by (destruct (fst run); [discriminate|exact Es]). apply (H2 s E0').
    + right. assert (E0 : nth_error (fst run) 0 = Some s0) by (rewrite Eh; reflexivity). inversion Fb as [|? ? Nb _]; subst.
      split; [intros H; apply Nb; now apply (Guess s0 E0)|]. exact (Root s0 s E0 Es).
    + exfalso. inversion Fb as [|? ? _ Fb']; subst. inversion Fb' as [|? ? Nb _]; subst. apply Nb. apply (Second s0 s1); rewrite Eh; reflexivity.
  - exfalso. destruct (fst run) as [|s0 [|s1 l]] eqn:Eh; cbn [length] in Ln; [lia|lia|].
    inversion Fb as [|? ? _ Fb']; subst. inversion Fb' as [|? ? Nb _]; subst. apply Nb. apply (Second s0 s1); reflexivity.
Qed.

(** systems of linear equations *)
Theorem newton_linear (p q : tree unit) (m : matrix F) (M : env -> string -> string -> F) (b : vec F) (T : string -> F) guess t n :
  space p -> space q -> between B p q m -> (forall row, In row (leaves m) -> of_kind p row) -> (forall e, inside e B -> matrix_reads m e (M e)) ->
  member B q b -> length (names p) = length (names q) -> (exists e, inside e B) ->
  (forall e, inside e B -> invertible K np_inv p q (M e)) ->
  member B p guess -> step_ok [] q t -> step_reads q t (fun _ => 0) T ->
  (forall c, In c (names q) -> less (absolute (zero K)) (T c) = true) -> 2 <= n ->
  let function := fun v => w <- matvec K m v ;; vsub K w b in
  exists x, snd (vroot_newton K absolute less np_inv function (fun _ => Ok m) guess t n) = Ok x /\ member B p x /\
    ((forall e X, vector_reads guess e X <-> vector_reads x e X) \/
     forall e X V r, inside e B -> vector_reads x e X -> vector_reads b e V -> In r (names q) ->
       sum_over K (names p) (fun c => times K (M e r c) (X c)) = V r).
Proof.
  intros Sp Sq Bm Rows Rm Mb L Ne Iv Mg St Rt Z0 Hn function.
  set (b0 := fun e c => neg K (comp K b c e)).
  assert (Rf : realises B p q function (fun e V r => plus K (b0 e r) (sum_over K (names p) (fun c => times K (M e r c) (V c))))).
  { intros v Mv. unfold function. destruct (matvec_reads K FK B N p q m v Sp Sq Bm Mv) as (w & Ew & Mw & Rw). rewrite Ew. cbn [bind].
    destruct (vsub_reads K B N q w b Sq Mw Mb) as (r & Er & Mr & Rr). exists r. split; [exact Er|]. split; [exact Mr|].
    intros e V I RV c o Pc. rewrite <- (Rr e _ _ I (Rw e (M e) V I (Rm e I) RV) (comp_reads K b e (proj1 Mb)) c o Pc). cbn beta. unfold b0. ring. }
  assert (RJ : slopes B p q (fun _ => Ok m) (fun e _ => M e)).
  { intros v _. exists m. split; [reflexivity|]. split; [exact Bm|]. split; [exact Rows|]. intros e V I _. now apply Rm. }
  destruct (newton_affine p q function _ M b0 T guess t n Sp Sq Rf RJ L Ne Iv Mg St Rt Z0 Hn) as (x & E & Mx & H).
  exists x. split; [exact E|]. split; [exact Mx|]. destruct H as [(_ & H)|(_ & H)]; [now left|right].
  intros e X V r I RX RV Hr. assert (Q := H e X r I RX Hr). cbv beta in Q. unfold b0 in Q.
  assert (Hr' : In r (names b)) by now rewrite (member_names B q b Sq Mb). apply (part_name b r (proj1 Mb)) in Hr'. destruct Hr' as (o & Po).
  rewrite (RV r o Po). rewrite (comp_reads K b e (proj1 Mb) r o Po) in Q.
  set (u := sum_over K (names p) (fun c => times K (M e r c) (X c))) in *. transitivity (plus K (plus K (neg K (op_at o e)) u) (op_at o e)); [ring|]. rewrite Q. ring.
Qed.

(** the default jacobian *)
Lemma default_slopes (p q : tree unit) (function : vec F -> res (vec F)) f dx (D : env -> string -> F) :
  space p -> space q -> realises B p q function f -> step_ok B p dx -> (forall e, inside e B -> step_reads p dx e (D e)) ->
  slopes B p q (default_jacobian K function dx) (fun e X r c => quotient K (f e (moved K X c (D e c)) r) (f e X r) (D e c)).
Proof.
  intros Sp Sq Rf Sd Rd x Mx.
  destruct (jacobian_vector K B N p q function x dx Sp Mx Sd f Sq Rf) as (m & E & Mk & Mf & Km & Rows & Rm).
  exists m. unfold default_jacobian. rewrite E. cbn [bind]. split; [reflexivity|].
  assert (Hc : has_columns m (names p)) by (intros row Hr c; rewrite (space_names p row Sp (Rows row Hr)); tauto).
  split; [|split; [exact Rows|intros e X I RX; exact (Rm e X (D e) I RX (Rd e I))]].
  split; [exact Mk|]. split; [exact Mf|]. split; [exact Km|]. split; [exact Hc|]. intros row Hr. now rewrite (kind_type p row (Rows row Hr)).
Qed.

Lemma default_affine (p q : tree unit) (function : vec F -> res (vec F)) (A : env -> string -> string -> F) (b : env -> string -> F) dx (D : env -> string -> F) :
  space p -> space q -> realises B p q function (fun e V r => plus K (b e r) (sum_over K (names p) (fun c => times K (A e r c) (V c)))) ->
  step_ok B p dx -> (forall e, inside e B -> step_reads p dx e (D e)) -> (forall e c, inside e B -> In c (names p) -> D e c <> zero K) ->
  slopes B p q (default_jacobian K function dx) (fun e _ => A e).
Proof.
  intros Sp Sq Rf Sd Rd Nz x Mx.
  destruct (jacobian_affine K FK B p q function x dx A b N Sp Sq Mx Sd Rf) as (m & E & Bm & Rows & Rm).
  exists m. unfold default_jacobian. rewrite E. cbn [bind]. split; [reflexivity|]. split; [exact Bm|]. split; [exact Rows|].
  intros e X I _. exact (Rm e (D e) I (Rd e I) (fun c Hc => Nz e c I Hc)).
Qed.
End Affine.

(** ** what is returned is below the tolerance, whatever the function, the jacobian and the inverse *)
Section Returns.
Context {F : Type} (K : arith F) (absolute : F -> F) (less : F -> F -> bool) (np_inv : list (list F) -> list (list F)).

Lemma small_value B q (v t : vec F) T e0 : NoDup (dkeys B) -> space q -> member B q v -> tolerance_of B q T t -> inside e0 B ->
  exists flags b, small K absolute less v t = Ok flags /\ vec_all flags = Ok b /\
    (b = true -> forall e V c, inside e B -> vector_reads v e V -> In c (names q) -> less (absolute (V c)) (T c) = true).
Proof.
  intros N Sq Mv (Mt & Rt) I0. unfold small, vabs, vless.
  destruct (vec_ufunc_reads K B N (fun l => match l with [x] => absolute x | _ => zero K end) q [v] Sq) as (a & Ea & Ma & Ra); [discriminate|constructor; [exact Mv|constructor]|].
  rewrite Ea. cbn [bind].
  destruct (vec_ufunc_reads K B N (fun l => match l with [x; y] => less x y | _ => false end) q [a; t] Sq) as (w & Ew & Mw & Rw); [discriminate|constructor; [exact Ma|constructor; [exact Mt|constructor]]|].
  destruct (member_all B N q w e0 Sq Mw I0) as (b & Eb & Hb). exists w, b. split; [exact Ew|]. split; [exact Eb|].
  intros Tb e V c Ie RV Hc.
  assert (Rd : vector_reads w e (fun c => less (absolute (V c)) (T c))).
  { refine (Rw e [_; T] Ie _). constructor; [|constructor; [now apply Rt|constructor]]. refine (Ra e [V] Ie _). constructor; [exact RV|constructor]. }
  exact (proj1 Hb Tb e _ c Ie Rd Hc).
Qed.

Variables (function : vec F -> res (vec F)) (jacobian : vec F -> res (matrix F)).

Lemma pass_done t x v : vnewton_pass K absolute less np_inv function jacobian t x v = Ok None ->
  exists flags, small K absolute less v t = Ok flags /\ vec_all flags = Ok true.
Proof.
  unfold vnewton_pass. destruct (small K absolute less v t) as [flags|]; [|discriminate]. cbn [bind].
  destruct (vec_all flags) as [[|]|] eqn:E; cbn [bind]; [eauto| |discriminate].
  destruct (jacobian x) as [m|]; [|discriminate]. cbn [bind]. destruct (m_inverse_any K np_inv m) as [i|]; [|discriminate]. cbn [bind].
  destruct (matvec K i v) as [c|]; [|discriminate]. cbn [bind]. destruct (vsub K x c) as [x'|]; [|discriminate]. cbn [bind].
  destruct (function x'); discriminate.
Qed.

Lemma pass_next t x v flags x' v' : vnewton_pass K absolute less np_inv function jacobian t x v = Ok (Some (flags, x', v')) -> function x' = Ok v'.
Proof.
  unfold vnewton_pass. destruct (small K absolute less v t) as [fl|]; [|discriminate]. cbn [bind].
  destruct (vec_all fl) as [[|]|] eqn:E; cbn [bind]; [discriminate| |discriminate].
  destruct (jacobian x) as [m|]; [|discriminate]. cbn [bind]. destruct (m_inverse_any K np_inv m) as [i|]; [|discriminate]. cbn [bind].
  destruct (matvec K i v) as [c|]; [|discriminate]. cbn [bind]. destruct (vsub K x c) as [y|]; [|discriminate]. cbn [bind].
  destruct (function y) eqn:Ey; [|discriminate]. cbn [bind]. intros Q. injection Q as <- <- <-. exact Ey.
Qed.

Lemma loop_returns t n : forall i x v flags y, snd (vnewton_loop K absolute less np_inv function jacobian t n i x v flags) = Ok y ->
  exists before s, fst (vnewton_loop K absolute less np_inv function jacobian t n i x v flags) = before ++ [s] /\ y = v_x s /\
    (before = [] -> v_x s = x /\ v_f s = v) /\ (before <> [] -> function (v_x s) = Ok (v_f s)) /\
    exists fl, small K absolute less (v_f s) t = Ok fl /\ vec_all fl = Ok true.
Proof.
  induction n as [|n IH]; intros i x v flags y; cbn [vnewton_loop]; [discriminate|].
  destruct (vnewton_pass K absolute less np_inv function jacobian t x v) as [[[[fl x'] v']|]|e] eqn:E; cbn [fst snd]; [| |discriminate].
  - intros H. destruct (IH (S i) x' v' fl y H) as (before & s & E1 & E2 & H1 & H2 & H3).
    exists (mkVseen i x v flags :: before), s. rewrite E1. split; [reflexivity|]. split; [exact E2|]. split; [discriminate|]. split; [|exact H3].
    intros _. destruct before as [|s0 before]; [|apply H2; discriminate]. destruct (H1 eq_refl) as (-> & ->). exact (pass_next _ _ _ _ _ _ E).
  - intros H. injection H as <-. exists [], (mkVseen i x v flags). split; [reflexivity|]. split; [reflexivity|]. split; [now split|]. split; [congruence|].
    exact (pass_done _ _ _ E).
Qed.

Theorem newton_returns (q : tree unit) guess t n T y : space q ->
  (forall v w, function v = Ok w -> vector_ok w /\ of_kind q w) ->
  step_ok [] q t -> step_reads q t (fun _ => 0) T ->
  snd (vroot_newton K absolute less np_inv function jacobian guess t n) = Ok y ->
  exists before s, fst (vroot_newton K absolute less np_inv function jacobian guess t n) = before ++ [s] /\ y = v_x s /\
    function (match before with [] => guess | _ => y end) = Ok (v_f s) /\
    forall S e V c, joint (map op_shape (leaves (v_f s))) S -> inside e S -> vector_reads (v_f s) e V -> In c (names q) ->
      less (absolute (V c)) (T c) = true.
Proof.
  intros Sq Hf St Rt. unfold vroot_newton, vnewton_start.
  destruct (function guess) as [v|] eqn:Ev; [|discriminate]. cbn [bind]. destruct (any_like t v) as [t'|] eqn:Et; [|discriminate]. cbn [bind].
  destruct guess as [o|gty gcs] eqn:Eg; [discriminate|]. destruct v as [o|vty vcs] eqn:Ev0; [discriminate|]. rewrite <- Ev0, <- Eg in *. clear Eg gty gcs Ev0 vty vcs.
  destruct (vec_shape t') as [[|]|]; cbn [bind]; [|discriminate|discriminate].
  destruct (vec_shape v) as [shv|]; [|discriminate]. cbn [bind]. destruct (vec_shape guess) as [shg|]; [|discriminate]. cbn [bind].
  destruct (broadcast_shapes [shv; shg]) as [sh|]; [|discriminate]. cbn [bind]. destruct (vflags K v sh) as [fl|]; [|discriminate]. cbn [bind].
  destruct (vec_broadcast_to guess sh) as [x|]; [|discriminate]. cbn [bind].
  intros H. destruct (loop_returns t' n 0 x v fl y H) as (before & s & E1 & -> & H1 & H2 & flags & Es & Ea).
  exists before, s. split; [exact E1|]. split; [reflexivity|].
  assert (Fv : function (match before with [] => guess | _ => v_x s end) = Ok (v_f s)).
  { destruct before; [destruct (H1 eq_refl) as (_ & ->); exact Ev|apply H2; discriminate]. }
  split; [exact Fv|]. intros S e V c Jt Ie RV Hc. destruct (Hf _ _ Fv) as (Vk & Kv). destruct (Hf _ _ Ev) as (Vk0 & Kv0).
  assert (Ms : member S q (v_f s)).
  { split; [exact Vk|]. split; [|exact Kv]. intros c' o (c'' & Lo & _). apply (proj1 (proj2 Jt)), in_map, (leaf_In _ _ _ Lo). }
  destruct (tolerance_ok q T t v Sq St Rt Vk0 Kv0) as (t2 & Et2 & _ & Th). assert (t2 = t') as -> by congruence.
  destruct (small_value S q (v_f s) t' T e (proj1 Jt) Sq Ms (Th S) Ie) as (fl2 & b & Es2 & Ea2 & Hb).
  assert (fl2 = flags) as -> by congruence. assert (b = true) as -> by congruence. exact (Hb eq_refl e V c Ie RV Hc).
Qed.
End Returns.
