(** Facts about [np.emath]. *)
From Coq Require Import String List Arith ZArith Bool Lia.
From Verif Require Import Base BaseFacts Numpy NumpyFacts Shapes Scalar Elementwise Uncertain UncertainChoice Emath
  Spec SpecUncertain SpecUncertainChoice
  ShapesFacts AlignFacts ElementwiseFacts SortingFacts RankdataFacts DerivedFacts LinspaceFacts InterpFacts
  UncertainFacts UncertainChoiceFacts UncertainLinspaceFacts.
Import ListNotations.
Open Scope nat_scope.
Open Scope list_scope.

Lemma emath_as_ufunc {A B} (f : list A -> B) l : na_emath f l = array_ufunc f (map (fun o => OpArr (normalize o)) l).
Proof.
  unfold na_emath, array_ufunc. rewrite map_map. destruct (shape_broadcasted _) as [sh|]; cbn [bind]; [|reflexivity].
  assert (E : mapM (fun a => ndarray_aligned a (dkeys sh)) (map normalize l) = mapM (op_aligned (dkeys sh)) (map (fun o => OpArr (normalize o)) l)).
  { clear. induction l as [|o l IH]; [reflexivity|]. cbn [map mapM op_aligned]. now rewrite IH. }
  now rewrite E.
Qed.

Lemma normal_shapes {A} (l : list (operand A)) : shape_broadcasted (map (fun o => OpArr (normalize o)) l) = broadcast_shapes (map op_shape l).
Proof.
  unfold shape_broadcasted. f_equal. induction l as [|o l IH]; [reflexivity|]. cbn [map]. unfold op_shapes in *. cbn [flat_map app].
  rewrite IH. now rewrite normalize_shape.
Qed.

Lemma normal_wf {A} (l : list (operand A)) : Forall op_wf l -> Forall op_wf (map (fun o => OpArr (normalize o)) l).
Proof. intros W. apply Forall_map. eapply Forall_impl; [|exact W]. intros o Ho. now apply normalize_wf. Qed.

Theorem na_emath_spec {A B} (f : list A -> B) l : Forall op_wf l ->
  (forall sh, broadcast_shapes (map op_shape l) = Ok sh ->
     exists r, na_emath f l = Ok r /\ wf r /\ sshape r = sh /\ forall e, at_ r e = f (map (fun o => op_at o e) l)) /\
  (forall x, broadcast_shapes (map op_shape l) = Err x -> na_emath f l = Err ValueError).
Proof.
  intros W. rewrite emath_as_ufunc. split.
  - intros sh E. rewrite <- normal_shapes in E. destruct (array_ufunc_ok f _ sh (normal_wf l W) E) as (r & R1 & R2 & R3 & R4).
    exists r. split; auto. split; auto. split; auto. intros e. rewrite R4, map_map. f_equal. apply map_ext. intros o. apply normalize_at.
  - intros x E. rewrite <- normal_shapes in E. destruct (array_ufunc f _) as [r|y] eqn:R.
    + unfold array_ufunc in R. rewrite E in R. discriminate.
    + destruct (array_ufunc_err f _ y (normal_wf l W) R) as [_ ->]. reflexivity.
Qed.

(** one part of an uncertain result *)
Lemma op_emath_spec {A B} (f : list A -> B) l : Forall op_wf l ->
  (forall sh, broadcast_shapes (map op_shape l) = Ok sh ->
     exists r, op_emath f l = Ok r /\ op_wf r /\ op_shape r = sh /\ forall e, inside e sh -> op_at r e = f (map (fun o => op_at o e) l)) /\
  (forall x, broadcast_shapes (map op_shape l) = Err x -> op_emath f l = Err ValueError).
Proof.
  intros W. unfold op_emath. destruct (forallb _ l) eqn:N.
  - assert (E : broadcast_shapes (map op_shape l) = Ok []).
    { assert (F : forall s, In s (map op_shape l) -> s = []).
      { intros s Hs. apply in_map_iff in Hs as (o & <- & Ho). rewrite forallb_forall in N. specialize (N o Ho). destruct o; [discriminate|reflexivity]. }
      destruct (bs_attained (map op_shape l) []) as (sr & Er & _ & S); [constructor| |].
      - split; [intros s Hs; rewrite (F s Hs); split; [constructor|intros ? ? []]|intros ? ? []].
      - rewrite Er. f_equal. destruct sr as [|[ax n] sr]; [reflexivity|]. exfalso. exact (proj1 (S ax n) (or_introl eq_refl)). }
    rewrite E. split; [|discriminate]. intros sh X. injection X as <-. eexists. split; [reflexivity|]. split; [exact I|]. split; [reflexivity|].
    intros e _. cbn [op_at]. f_equal. clear - N. induction l as [|[a|x] l IH]; [reflexivity|discriminate|]. cbn [flat_map map app op_at]. f_equal. apply IH. exact N.
  - destruct (na_emath_spec f l W) as [S1 S2]. split.
    + intros sh E. destruct (S1 sh E) as (r & -> & R2 & R3 & R4). exists (OpArr r). split; [reflexivity|]. split; [exact R2|]. split; [exact R3|].
      intros e He. cbn [op_at]. rewrite bat_inside; [apply R4|exact R2|now rewrite R3].
    + intros x E. now rewrite (S2 x E).
Qed.

Theorem u_emath_spec {A B} (f : list A -> B) (l : list (uop A)) : Forall uop_wf l -> Forall sample_free l ->
  (forall shn shd, broadcast_shapes (map (fun x => op_shape (nominal_of x)) l) = Ok shn ->
     broadcast_shapes (map (fun x => op_shape (distribution_of x)) l) = Ok shd ->
     exists u, u_emath f l = Ok u /\ u_wf u /\ op_shape (u_nominal u) = shn /\ op_shape (u_distribution u) = shd /\
       forall w e, u_inside u w e -> u_at (Uncertain u) w e = f (map (fun x => u_at x w e) l)) /\
  (forall x, broadcast_shapes (map (fun x => op_shape (nominal_of x)) l) = Err x \/
     broadcast_shapes (map (fun x => op_shape (distribution_of x)) l) = Err x -> u_emath f l = Err ValueError).
Proof.
  intros W F. unfold u_emath.
  assert (US : exists us, mapM as_unc l = Ok us /\ map u_nominal us = map nominal_of l /\ map u_distribution us = map distribution_of l).
  { clear - W F. induction l as [|x l IH]; [exists []; auto|]. inversion W; inversion F; subst. destruct IH as (us & E1 & E2 & E3); auto.
    destruct (as_unc_ok x) as (u & Eu & _ & Nu & Du); auto. exists (u :: us). cbn [mapM]. rewrite Eu. cbn [bind]. rewrite E1. cbn [bind map].
    split; [reflexivity|]. split; congruence. }
  destruct US as (us & -> & E2 & E3). cbn [bind]. rewrite E2, E3.
  assert (Wn : Forall op_wf (map nominal_of l)) by (apply Forall_map; eapply Forall_impl; [|exact W]; intros x Hx; now apply parts_wf).
  assert (Wd : Forall op_wf (map distribution_of l)) by (apply Forall_map; eapply Forall_impl; [|exact W]; intros x Hx; now apply parts_wf).
  destruct (op_emath_spec f _ Wn) as [N1 N2]. destruct (op_emath_spec f _ Wd) as [D1 D2].
  rewrite map_map in N1, N2, D1, D2. split.
  - intros shn shd En Ed. destruct (N1 shn En) as (n & -> & Nw & Ns & Nv). destruct (D1 shd Ed) as (d & -> & Dw & Ds & Dv). cbn [bind].
    assert (X : ~ In axis_distribution (dkeys (op_shape n))).
    { rewrite Ns. intros H. apply key_size in H as [m H].
      assert (ND : Forall (fun s : shape => NoDup (dkeys s)) (map (fun x => op_shape (nominal_of x)) l)).
      { apply Forall_map. eapply Forall_impl; [|exact W]. intros x Hx. apply op_shape_nodup. now apply parts_wf. }
      destruct (InterpFacts.broadcast_attained _ _ ND En) as [_ [_ B']]. destruct (B' _ _ H) as (q & Hq & K). apply (in_map fst) in K.
      apply in_map_iff in Hq as (x & <- & Hx). rewrite Forall_forall in W, F. exact (nominal_free x (W x Hx) (F x Hx) K). }
    rewrite mk_unc_intro by exact X. exists (mkU n d). split; [reflexivity|]. split; [split; [exact Nw|split; [exact Dw|exact X]]|].
    split; [exact Ns|]. split; [exact Ds|]. rewrite Forall_forall in W, F. intros [k|] e He; cbn [u_inside u_nominal u_distribution] in He.
    + change (u_at (Uncertain (mkU n d)) (Some k) e) with (op_at d (set_env e axis_distribution k)). rewrite Dv by now rewrite <- Ds.
      rewrite map_map. f_equal. apply map_ext_in. intros x Hx. apply distribution_at; auto.
    + change (u_at (Uncertain (mkU n d)) None e) with (op_at n e). rewrite Nv by now rewrite <- Ns.
      rewrite map_map. f_equal. apply map_ext. intros x. apply nominal_at.
  - intros x [E|E].
    + now rewrite (N2 x E).
    + destruct (op_emath f (map nominal_of l)) as [n|y] eqn:R; cbn [bind]; [now rewrite (D2 x E)|].
      destruct (broadcast_shapes (map (fun x => op_shape (nominal_of x)) l)) as [shn|z] eqn:En.
      * destruct (N1 shn eq_refl) as (n & H & _). congruence.
      * assert (Q := N2 z eq_refl). congruence.
Qed.

Theorem u_emath_samples {A B} (f : list A -> B) (l : list (uop A)) : Exists (fun x => ~ sample_free x) l -> u_emath f l = Err ValueError.
Proof.
  intros H. unfold u_emath. replace (mapM as_unc l) with (@Err (list (unc A)) ValueError); [reflexivity|]. symmetry.
  induction l as [|x l IH]; [inversion H|]. cbn [mapM].
  assert (D : ~ sample_free x \/ exists u, as_unc x = Ok u).
  { destruct x as [u|o]; [right; now exists u|]. cbn [sample_free as_unc]. rewrite mk_unc_def.
    destruct (dget (op_shape o) axis_distribution) eqn:D; [|right; eauto]. left. intros C. apply C. apply dget_In in D. now apply (in_map fst) in D. }
  destruct D as [D|(u & E)]; [now rewrite (as_unc_refused x D)|]. rewrite E. cbn [bind]. rewrite IH; [reflexivity|].
  inversion H as [y q Hy|]; subst; auto. rewrite (as_unc_refused x Hy) in E. discriminate.
Qed.
