(** Facts about comparisons of whole uncertain scalars. *)
From Coq Require Import String List Arith ZArith Bool Lia.
From Verif Require Import Base BaseFacts Numpy NumpyFacts Shapes Scalar Elementwise Reorder Uncertain UncertainEqual
  Spec SpecVector SpecVectorReduce SpecVectorEqual SpecUncertain SpecUncertainChoice SpecUncertainEqual
  ShapesFacts AlignFacts ElementwiseFacts ReorderFacts ReduceFacts VectorFacts VectorReduceFacts MatrixFacts VectorEqualFacts PdfFacts GeometryFacts
  UncertainFacts UncertainIndexFacts UncertainChoiceFacts.
Import ListNotations.
Open Scope nat_scope.
Open Scope list_scope.

Lemma world_of (e : env) : forall ax, in_world (Some (e axis_distribution)) e ax = e ax.
Proof. intros ax. cbn [in_world]. unfold set_env. destruct (String.eqb_spec ax axis_distribution) as [E|_]; congruence. Qed.

Lemma part_wf {A} (x : uop A) w : uop_wf x -> op_wf (part_of x w).
Proof. intros W. destruct w; cbn; [now apply distribution_wf|now apply nominal_wf]. Qed.

Lemma u_at_part_of {A} (x : uop A) w e : uop_wf x -> sample_free x -> u_at x w e = op_at (part_of x w) (in_world w e).
Proof. intros W F. destruct w as [k|]; cbn [part_of in_world]; [now apply u_at_distribution|now apply u_at_nominal]. Qed.

Lemma inside_ext (e e' : env) sh : (forall ax, e ax = e' ax) -> inside e sh -> inside e' sh.
Proof. intros H I ax n Hn. rewrite <- H. exact (I ax n Hn). Qed.

Lemma agree_worlds {A} (R : A -> A -> Prop) (x y : uop A) : uop_wf x -> uop_wf y -> sample_free x -> sample_free y ->
  (u_agree R x y <-> agree R (nominal_of x) (nominal_of y) /\ agree R (distribution_of x) (distribution_of y)).
Proof.
  intros Wx Wy Fx Fy. split.
  - intros H. split; intros sh e J I.
    + assert (Q := H None sh e J I). rewrite !u_at_nominal in Q. exact Q.
    + assert (Q := H (Some (e axis_distribution)) sh e J (inside_ext _ _ _ (fun ax => eq_sym (world_of e ax)) I)).
      rewrite (u_at_part_of x), (u_at_part_of y) in Q by auto. cbn [part_of] in Q.
      rewrite (op_at_ext (distribution_of x) _ e (world_of e)), (op_at_ext (distribution_of y) _ e (world_of e)) in Q. exact Q.
  - intros [Hn Hd] w sh e J I. rewrite (u_at_part_of x), (u_at_part_of y) by auto.
    destruct w as [k|]; cbn [part_of] in *; [exact (Hd sh _ J I)|exact (Hn sh _ J I)].
Qed.

Lemma same_worlds {A} (x y : uop A) : uop_wf x -> uop_wf y -> sample_free x -> sample_free y ->
  (u_same x y <-> same_contents (nominal_of x) (nominal_of y) /\ same_contents (distribution_of x) (distribution_of y)).
Proof.
  intros Wx Wy Fx Fy. split.
  - intros H. split.
    + destruct (H None) as [S V]. split; [exact S|]. intros e I. specialize (V e I). rewrite !u_at_nominal in V. exact V.
    + destruct (H (Some 0)) as [S _]. split; [exact S|]. intros e I. destruct (H (Some (e axis_distribution))) as [_ V].
      specialize (V e (inside_ext _ _ _ (fun ax => eq_sym (world_of e ax)) I)).
      rewrite (u_at_part_of x), (u_at_part_of y) in V by auto. cbn [part_of] in V.
      rewrite (op_at_ext (distribution_of x) _ e (world_of e)), (op_at_ext (distribution_of y) _ e (world_of e)) in V. exact V.
  - intros [[Sn Vn] [Sd Vd]] w. destruct w as [k|]; cbn [part_of].
    + split; [exact Sd|]. intros e I. rewrite (u_at_part_of x), (u_at_part_of y) by auto. exact (Vd _ I).
    + split; [exact Sn|]. intros e I. rewrite !u_at_nominal. exact (Vn e I).
Qed.

Theorem u_array_equal_spec {A} (eqb : A -> A -> bool) (u v : unc A) :
  (forall s t, eqb s t = true <-> s = t) -> u_wf u -> u_wf v ->
  (forall w, dkeys (op_shape (u_part u w)) = dkeys (op_shape (u_part v w))) ->
  exists b, u_array_equal eqb (Uncertain u) (Uncertain v) = Ok b /\ (b = true <-> u_same (Uncertain u) (Uncertain v)).
Proof.
  intros Q Wu Wv K. unfold u_array_equal, both_parts. cbn [bind nominal_of distribution_of]. eexists. split; [reflexivity|].
  destruct Wu as (Wn & Wd & Wx) eqn:Eu, Wv as (Vn & Vd & Vx) eqn:Ev. clear Eu Ev.
  rewrite andb_true_iff, (leaf_equal eqb _ _ Q Wn Vn (K None)), (leaf_equal eqb _ _ Q Wd Vd (K (Some 0))).
  rewrite (same_worlds (Uncertain u) (Uncertain v)); [reflexivity|exact Wu|exact Wv|exact Logic.I|exact Logic.I].
Qed.

Lemma close_parts {A} (close : A -> A -> bool) (x y : uop A) B : uop_wf x -> uop_wf y -> sample_free x -> sample_free y -> NoDup (dkeys B) ->
  (forall w, fits_in (op_shape (part_of x w)) B /\ fits_in (op_shape (part_of y w)) B) ->
  exists b, both_parts (fun a b => na_array_equiv close (normalize a) (normalize b)) x y = Ok b /\
    (b = true <-> u_agree (fun s t => close s t = true) x y).
Proof.
  intros Wx Wy Fx Fy N F. unfold both_parts.
  destruct (leaf_close close (nominal_of x) (nominal_of y) B (nominal_wf _ Wx) (nominal_wf _ Wy) N (proj1 (F None)) (proj2 (F None))) as (n & En & Hn).
  destruct (leaf_close close (distribution_of x) (distribution_of y) B (distribution_wf _ Wx) (distribution_wf _ Wy) N (proj1 (F (Some 0))) (proj2 (F (Some 0)))) as (d & Ed & Hd).
  rewrite En. cbn [bind]. rewrite Ed. cbn [bind]. eexists. split; [reflexivity|]. rewrite andb_true_iff, Hn, Hd. symmetry. now apply agree_worlds.
Qed.

Theorem u_array_equiv_spec {A} (eqb : A -> A -> bool) (u v : unc A) (B : shape) :
  (forall s t, eqb s t = true <-> s = t) -> u_wf u -> u_wf v -> NoDup (dkeys B) ->
  (forall w, fits_in (op_shape (u_part u w)) B /\ fits_in (op_shape (u_part v w)) B) ->
  exists b, u_array_equiv eqb (Uncertain u) (Uncertain v) = Ok b /\ (b = true <-> u_agree eq (Uncertain u) (Uncertain v)).
Proof.
  intros Q Wu Wv N F. destruct (close_parts eqb (Uncertain u) (Uncertain v) B Wu Wv Logic.I Logic.I N F) as (b & E & H).
  exists b. split; [exact E|]. rewrite H. split; intros G w sh e J I; apply Q; exact (G w sh e J I).
Qed.

Theorem u_allclose_spec {A} (close : A -> A -> bool) (x y : uop A) (B : shape) :
  uop_wf x -> uop_wf y -> sample_free x -> sample_free y -> NoDup (dkeys B) ->
  (forall w, fits_in (op_shape (part_of x w)) B /\ fits_in (op_shape (part_of y w)) B) ->
  exists b, u_allclose close x y = Ok b /\ (b = true <-> u_agree (fun s t => close s t = true) x y).
Proof.
  intros Wx Wy Fx Fy N F. destruct (close_parts close x y B Wx Wy Fx Fy N F) as (b & E & H).
  destruct x as [u|[a|c]], y as [v|o]; cbn [u_allclose]; try (exists b; split; [exact E|exact H]).
  - assert (Fo : Forall op_wf [u_nominal v; u_distribution v]) by (destruct Wy as (H1 & H2 & _); auto).
    assert (Fv : forall s, In s (op_shapes [u_nominal v; u_distribution v]) -> fits_in s B).
    { intros s Hs. unfold op_shapes in Hs. cbn [flat_map] in Hs. rewrite app_nil_r in Hs. apply in_app_iff in Hs.
      destruct Hs as [Hs|Hs]; [assert (Z := proj2 (F None))|assert (Z := proj2 (F (Some 0)))]; cbn [part_of nominal_of distribution_of] in Z;
        [destruct (u_nominal v)|destruct (u_distribution v)]; cbn in Hs; try contradiction; destruct Hs as [<- |[]]; exact Z. }
    assert (Nv := op_shapes_nodup _ Fo).
    destruct (PdfFacts.fits_broadcast _ B Nv N Fv) as (sd & Ed & Fd).
    assert (Nd : NoDup (dkeys sd)) by (apply (broadcast_joint _ _ Nv Ed)).
    assert (Es : u_shape v = Ok (ddel sd axis_distribution)).
    { unfold u_shape, u_shape_distribution, shape_broadcasted. rewrite Ed. reflexivity. }
    rewrite Es. cbn [bind].
    assert (Wa : wf a) by exact Wx.
    destruct (PdfFacts.fits_broadcast [sshape a; ddel sd axis_distribution] B) as (s & Eb & _).
    + constructor; [now apply wf_nodup|]. constructor; [|constructor]. rewrite dkeys_ddel by auto. now apply NoDup_filter.
    + exact N.
    + intros s [<- |[<- |[]]]; [exact (proj1 (F None))|]. intros ax n Hn. apply Fd. exact (proj1 (proj1 (in_ddel _ _ _ _ Nd) Hn)).
    + exists b. split; [|exact H]. exact (eq_trans (f_equal (fun r => bind r (fun _ => both_parts _ (Certain (OpArr a)) (Uncertain v))) Eb) E).
  - assert (Fs := F None). cbn [part_of nominal_of] in Fs.
    destruct (leaf_close close (OpArr a) o B Wx Wy N (proj1 Fs) (proj2 Fs)) as (b' & E' & H'). exists b'. split; [exact E'|].
    rewrite H', (agree_worlds _ (Certain (OpArr a)) (Certain o)) by auto. cbn [nominal_of distribution_of]. tauto.
  - assert (Fs := F None). cbn [part_of nominal_of] in Fs.
    destruct (leaf_close close (OpNum c) o B Wx Wy N (proj1 Fs) (proj2 Fs)) as (b' & E' & H'). exists b'. split; [exact E'|].
    rewrite H', (agree_worlds _ (Certain (OpNum c)) (Certain o)) by auto. cbn [nominal_of distribution_of]. tauto.
Qed.

Theorem u_equal_mixed {A} (eqb : A -> A -> bool) (u : unc A) (o : operand A) :
  u_array_equal eqb (Uncertain u) (Certain o) = Err AttributeError /\
  u_array_equal eqb (Certain o) (Uncertain u) = Err AttributeError /\
  u_array_equiv eqb (Uncertain u) (Certain o) = Err AttributeError.
Proof. repeat split; destruct o; reflexivity. Qed.

Theorem u_refused {A} (close : A -> A -> bool) (x y : uop A) w : uop_wf x -> uop_wf y ->
  (forall sh, ~ joint [op_shape (part_of x w); op_shape (part_of y w)] sh) ->
  u_allclose close x y = Err ValueError.
Proof.
  intros Wx Wy NJ.
  assert (Bad : forall a b, op_wf a -> op_wf b -> (forall sh, ~ joint [op_shape a; op_shape b] sh) ->
            na_array_equiv close (normalize a) (normalize b) = Err ValueError).
  { intros a b Wa Wb H. unfold na_array_equiv.
    change (shape_broadcasted [OpArr (normalize a); OpArr (normalize b)]) with (broadcast_shapes [sshape (normalize a); sshape (normalize b)]).
    rewrite !ElementwiseFacts.normalize_shape.
    assert (N : Forall (fun s => NoDup (dkeys s)) [op_shape a; op_shape b]) by (repeat constructor; now apply op_shape_nodup).
    destruct (broadcast_shapes_total _ N) as [(sh & E)|E]; [destruct (H sh (broadcast_joint _ _ N E))|]. now rewrite E. }
  assert (Any : forall a b, op_wf a -> op_wf b -> (exists v, na_array_equiv close (normalize a) (normalize b) = Ok v) \/
            na_array_equiv close (normalize a) (normalize b) = Err ValueError).
  { intros a b Wa Wb.
    assert (N : Forall (fun s => NoDup (dkeys s)) [op_shape a; op_shape b]) by (repeat constructor; now apply op_shape_nodup).
    destruct (broadcast_shapes_total _ N) as [(sh & E)|E].
    - left. rewrite <- !ElementwiseFacts.normalize_shape in E.
      destruct (array_equiv_close close _ _ sh (ElementwiseFacts.normalize_wf _ Wa) (ElementwiseFacts.normalize_wf _ Wb) E) as (v & Ev & _). eauto.
    - right. unfold na_array_equiv.
      change (shape_broadcasted [OpArr (normalize a); OpArr (normalize b)]) with (broadcast_shapes [sshape (normalize a); sshape (normalize b)]).
      rewrite !ElementwiseFacts.normalize_shape. now rewrite E. }
  assert (BP : both_parts (fun a b => na_array_equiv close (normalize a) (normalize b)) x y = Err ValueError).
  { unfold both_parts. destruct w as [k|]; cbn [part_of] in NJ.
    - destruct (Any _ _ (nominal_wf _ Wx) (nominal_wf _ Wy)) as [(v & E)|E]; rewrite E; cbn [bind]; [|reflexivity].
      rewrite (Bad _ _ (distribution_wf _ Wx) (distribution_wf _ Wy) NJ). reflexivity.
    - rewrite (Bad _ _ (nominal_wf _ Wx) (nominal_wf _ Wy) NJ). reflexivity. }
  destruct x as [u|[a|c]], y as [v|o]; cbn [u_allclose]; try exact BP.
  - unfold u_shape, u_shape_distribution, shape_broadcasted.
    assert (Fo : Forall op_wf [u_nominal v; u_distribution v]) by (destruct Wy as (H1 & H2 & _); auto).
    assert (Nv := op_shapes_nodup _ Fo).
    destruct (broadcast_shapes_total _ Nv) as [(sd & E)|E]; rewrite E; cbn [bind]; [|reflexivity].
    assert (Nd : NoDup (dkeys sd)) by (apply (broadcast_joint _ _ Nv E)).
    assert (N2 : Forall (fun s => NoDup (dkeys s)) [sshape a; ddel sd axis_distribution]).
    { constructor; [now apply wf_nodup|]. constructor; [|constructor]. rewrite dkeys_ddel by auto. now apply NoDup_filter. }
    destruct (broadcast_shapes_total _ N2) as [(s & E2)|E2];
      (refine (eq_trans (f_equal (fun r => bind r (fun _ => both_parts _ (Certain (OpArr a)) (Uncertain v))) E2) _); cbn [bind]); [exact BP|reflexivity].
  - apply (Bad (OpArr a) o); auto. destruct w; exact NJ.
  - apply (Bad (OpNum c) o); auto. destruct w; exact NJ.
Qed.
