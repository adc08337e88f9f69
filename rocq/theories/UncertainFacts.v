(** Facts about uncertain arrays. *)
From Coq Require Import String List Arith ZArith Bool Lia.
From Verif Require Import Base BaseFacts Numpy NumpyFacts Shapes Scalar Elementwise Reduce Vector Uncertain Spec SpecVector SpecUncertain ShapesFacts AlignFacts GetitemFacts ElementwiseFacts ReduceFacts AlongFacts SortingFacts VectorFacts VectorIndexFacts OptimizeFacts RankFacts RankdataFacts PdfFacts FuncFacts.
Import ListNotations.
Open Scope nat_scope.
Open Scope list_scope.

Lemma nominal_wf {A} (x : uop A) : uop_wf x -> op_wf (nominal_of x).
Proof. destruct x as [u|o]; simpl; auto. now intros (H & _). Qed.

Lemma distribution_wf {A} (x : uop A) : uop_wf x -> op_wf (distribution_of x).
Proof. destruct x as [u|o]; simpl; auto. now intros (_ & H & _). Qed.

Lemma mk_unc_def {A} (n d : operand A) :
  mk_unc n d = match dget (op_shape n) axis_distribution with Some _ => Err ValueError | None => Ok (mkU n d) end.
Proof. unfold mk_unc, dmem. destruct n as [a|x]; cbn [op_shape]; auto. now destruct (dget (sshape a) axis_distribution). Qed.

Lemma mk_unc_ok {A} (n d : operand A) r : mk_unc n d = Ok r ->
  r = mkU n d /\ ~ In axis_distribution (dkeys (op_shape n)).
Proof.
  rewrite mk_unc_def. destruct (dget (op_shape n) axis_distribution) eqn:E; [discriminate|]. intros X. injection X as <-.
  split; auto. now apply dget_None.
Qed.

Lemma mk_unc_intro {A} (n d : operand A) : ~ In axis_distribution (dkeys (op_shape n)) -> mk_unc n d = Ok (mkU n d).
Proof. intros H. apply dget_None in H. rewrite mk_unc_def. now rewrite H. Qed.

Lemma op_at_unseen {A} (o : operand A) ax k e : op_wf o -> ~ In ax (dkeys (op_shape o)) -> op_at o (set_env e ax k) = op_at o e.
Proof.
  destruct o as [a|x]; cbn [op_wf op_shape op_at]; auto. intros W H. rewrite wf_keys in H by auto.
  unfold bat. apply at_ext. intros b Hb. unfold bclamp. rewrite set_env_other; auto. intros ->. contradiction.
Qed.

Lemma broadcast_keys (l : list shape) sh s ax : Forall (fun s => NoDup (dkeys s)) l -> broadcast_shapes l = Ok sh ->
  In s l -> In ax (dkeys s) -> In ax (dkeys sh).
Proof.
  intros N E Hs H. apply key_size in H as [n H]. exact (proj1 (broadcast_covers l sh s ax n N E Hs H)).
Qed.

Lemma op_shapes_nodup {A} (l : list (operand A)) : Forall op_wf l -> Forall (fun s => NoDup (dkeys s)) (op_shapes l).
Proof.
  intros H. apply Forall_forall. intros s Hs. unfold op_shapes in Hs. apply in_flat_map in Hs as (o & Ho & Hs).
  rewrite Forall_forall in H. specialize (H o Ho). destruct o as [a|x]; [destruct Hs as [<- |[]]; now apply wf_nodup|destruct Hs].
Qed.

Lemma op_shapes_in {A} (l : list (operand A)) o ax : In o l -> In ax (dkeys (op_shape o)) -> In (op_shape o) (op_shapes l).
Proof.
  intros Ho H. unfold op_shapes. apply in_flat_map. exists o. split; auto. destruct o; cbn in *; auto.
Qed.

(** the certain arguments of an operation that succeeded do not have the axis of
    the samples *)
Definition world_ok {A} (x : uop A) : Prop :=
  match x with Certain o => ~ In axis_distribution (dkeys (op_shape o)) | Uncertain _ => True end.

Lemma u_at_distribution {A} (x : uop A) k e : uop_wf x -> world_ok x ->
  u_at x (Some k) e = op_at (distribution_of x) (set_env e axis_distribution k).
Proof. destruct x as [u|o]; cbn; auto. intros W H. now rewrite op_at_unseen. Qed.

Lemma u_at_nominal {A} (x : uop A) e : u_at x None e = op_at (nominal_of x) e.
Proof. now destruct x. Qed.

Lemma u_ufunc_ok {A B} (fs : list (list A -> B)) (inputs : list (uop A)) rs :
  Forall uop_wf inputs -> u_ufunc fs inputs = Ok rs ->
  Forall2 (fun f r => u_wf r /\ elementwise f (map nominal_of inputs) (u_nominal r) /\
                      elementwise f (map distribution_of inputs) (u_distribution r)) fs rs.
Proof.
  intros W H. unfold u_ufunc in H. apply bind_ok in H as (ns & E1 & H). apply bind_ok in H as (ds & E2 & H).
  apply mapM_ok in E1, E2, H.
  assert (Wn : Forall op_wf (map nominal_of inputs)).
  { apply Forall_map. eapply Forall_impl; [|exact W]. intros x. apply nominal_wf. }
  assert (Wd : Forall op_wf (map distribution_of inputs)).
  { apply Forall_map. eapply Forall_impl; [|exact W]. intros x. apply distribution_wf. }
  revert ds E2 rs H. induction E1 as [|f n fs ns En E1 IH]; intros ds E2 rs H.
  - inversion E2; subst. inversion H; subst. constructor.
  - inversion E2 as [|? d ? ds' Ed E2']; subst. cbn [combine] in H. inversion H as [|? r ? rs' Hr H']; subst.
    constructor; [|now apply (IH ds')]. cbn [fst snd] in Hr. apply mk_unc_ok in Hr as [-> Hr]. cbn [u_nominal u_distribution].
    apply (op_ufunc_spec f _ n Wn) in En. apply (op_ufunc_spec f _ d Wd) in Ed.
    split; [|auto]. split; [apply En|]. split; [apply Ed|exact Hr].
Qed.

Theorem u_ufunc_spec {A B} (fs : list (list A -> B)) (inputs : list (uop A)) rs :
  Forall uop_wf inputs -> u_ufunc fs inputs = Ok rs ->
  Forall2 (fun f r => u_wf r /\
    broadcast_shapes (op_shapes (map nominal_of inputs)) = Ok (op_shape (u_nominal r)) /\
    broadcast_shapes (op_shapes (map distribution_of inputs)) = Ok (op_shape (u_distribution r)) /\
    forall w e, u_inside r w e -> u_at (Uncertain r) w e = f (map (fun x => u_at x w e) inputs)) fs rs.
Proof.
  intros W H. apply u_ufunc_ok in H; auto. induction H as [|f r fs rs (Wr & En & Ed) H IH]; constructor; auto.
  pose proof En as (N1 & N2 & N3 & _). pose proof Ed as (D1 & D2 & D3 & _).
  assert (OKw : Forall world_ok inputs).
  { apply Forall_forall. intros x Hx. destruct x as [u|o]; cbn; auto. intros C. apply (proj2 (proj2 Wr)).
    assert (Hi : In (op_shape o) (op_shapes (map nominal_of inputs))).
    { apply (op_shapes_in _ o axis_distribution); auto. apply in_map_iff. exists (Certain o). auto. }
    refine (broadcast_keys _ _ _ _ _ N2 Hi C). apply op_shapes_nodup. apply Forall_map.
    eapply Forall_impl; [|exact W]. intros x. apply nominal_wf. }
  split; auto. split; auto. split; auto. intros [k|] e I; cbn [u_inside] in I; cbn [u_at].
  - rewrite D3 by auto. rewrite map_map. f_equal. apply map_ext_in. intros x Hx. symmetry.
    rewrite Forall_forall in W, OKw. apply u_at_distribution; auto.
  - rewrite N3 by auto. rewrite map_map. f_equal. apply map_ext_in. intros x Hx. symmetry. apply u_at_nominal.
Qed.

Theorem u_ufunc_success {A B} (fs : list (list A -> B)) (inputs : list (uop A)) :
  Forall uop_wf inputs -> fs <> [] ->
  ((exists rs, u_ufunc fs inputs = Ok rs) <->
   ~ conflict (op_shapes (map nominal_of inputs)) /\ ~ conflict (op_shapes (map distribution_of inputs)) /\
   (forall o, In (Certain o) inputs -> ~ In axis_distribution (dkeys (op_shape o)))).
Proof.
  intros W NE.
  assert (Wn : Forall op_wf (map nominal_of inputs)).
  { apply Forall_map. eapply Forall_impl; [|exact W]. intros x. apply nominal_wf. }
  assert (Wd : Forall op_wf (map distribution_of inputs)).
  { apply Forall_map. eapply Forall_impl; [|exact W]. intros x. apply distribution_wf. }
  assert (NC : forall s l, Forall op_wf l -> broadcast_shapes (op_shapes l) = Ok s -> ~ conflict (@op_shapes A l)).
  { intros s l Wl E C. apply (broadcast_shapes_conflict _ (op_shapes_nodup l Wl)) in C. congruence. }
  split.
  - intros [rs H]. pose proof (u_ufunc_ok _ _ _ W H) as S. destruct fs as [|f fs]; [congruence|].
    inversion S as [|? r ? ? (Wr & En & Ed) _]; subst. pose proof En as (N1 & N2 & _). pose proof Ed as (D1 & D2 & _).
    split; [exact (NC _ _ Wn N2)|]. split; [exact (NC _ _ Wd D2)|]. intros o Ho C. apply (proj2 (proj2 Wr)).
    assert (Hi : In (op_shape o) (op_shapes (map nominal_of inputs))).
    { apply (op_shapes_in _ o axis_distribution); auto. apply in_map_iff. exists (Certain o). auto. }
    exact (broadcast_keys _ _ _ _ (op_shapes_nodup _ Wn) N2 Hi C).
  - intros (C1 & C2 & C3).
    destruct (broadcast_shapes (op_shapes (map nominal_of inputs))) as [sn|] eqn:En.
    2:{ exfalso. apply C1. apply (broadcast_shapes_conflict _ (op_shapes_nodup _ Wn)).
        destruct (broadcast_shapes_total _ (op_shapes_nodup _ Wn)) as [[s E]|E]; [congruence|exact E]. }
    destruct (broadcast_shapes (op_shapes (map distribution_of inputs))) as [sd|] eqn:Ed.
    2:{ exfalso. apply C2. apply (broadcast_shapes_conflict _ (op_shapes_nodup _ Wd)).
        destruct (broadcast_shapes_total _ (op_shapes_nodup _ Wd)) as [[s E]|E]; [congruence|exact E]. }
    assert (NA : ~ In axis_distribution (dkeys sn)).
    { intros C. apply key_size in C as [k C].
      destruct (broadcast_attained _ _ _ _ (op_shapes_nodup _ Wn) En C) as (s & Hs & Hk).
      unfold op_shapes in Hs. apply in_flat_map in Hs as (o & Ho & Hs). apply in_map_iff in Ho as (x & <- & Hx).
      assert (Hk' : In axis_distribution (dkeys (op_shape (nominal_of x)))).
      { destruct (nominal_of x); [destruct Hs as [<- |[]]; now apply (in_map fst) in Hk|destruct Hs]. }
      rewrite Forall_forall in W. specialize (W x Hx). destruct x as [u|o].
      - destruct W as (_ & _ & W). contradiction.
      - apply (C3 o Hx). exact Hk'. }
    assert (G : forall f : list A -> B, exists n d, op_ufunc f (map nominal_of inputs) = Ok n /\
      op_ufunc f (map distribution_of inputs) = Ok d /\ mk_unc n d = Ok (mkU n d)).
    { intros f. destruct (op_ufunc_intro f _ sn Wn En) as [n Hn]. destruct (op_ufunc_intro f _ sd Wd Ed) as [d Hd].
      exists n, d. split; auto. split; auto. apply mk_unc_intro.
      apply (op_ufunc_spec f _ n Wn) in Hn. destruct Hn as (_ & Hn & _). rewrite En in Hn. injection Hn as Hn. now rewrite <- Hn. }
    clear - G. unfold u_ufunc. induction fs as [|f fs (rs & IH)]; [now exists []|].
    destruct (G f) as (n & d & E1 & E2 & E3).
    apply bind_ok in IH as (ns & F1 & IH). apply bind_ok in IH as (ds & F2 & IH).
    exists (mkU n d :: rs). cbn [mapM]. rewrite E1, F1, E2, F2. cbn [bind]. cbn [combine mapM fst snd]. rewrite E3, IH. reflexivity.
Qed.

Lemma op_shape_nodup {A} (o : operand A) : op_wf o -> NoDup (dkeys (op_shape o)).
Proof. apply op_shape_NoDup. Qed.

Theorem u_where_spec {A} (c : uop bool) (x y : uop A) r : uop_wf c -> uop_wf x -> uop_wf y -> u_where c x y = Ok r ->
  u_wf r /\ 
  broadcast_shapes [op_shape (nominal_of c); op_shape (nominal_of x); op_shape (nominal_of y)] = Ok (op_shape (u_nominal r)) /\
  broadcast_shapes [op_shape (distribution_of c); op_shape (distribution_of x); op_shape (distribution_of y)]
    = Ok (op_shape (u_distribution r)) /\
  forall w e, u_inside r w e -> u_at (Uncertain r) w e = if u_at c w e then u_at x w e else u_at y w e.
Proof.
  intros Wc Wx Wy H. unfold u_where in H. apply bind_ok in H as (n & En & H). apply bind_ok in H as (d & Ed & H).
  apply mk_unc_ok in H as [-> H]. cbn [op_shape] in H.
  pose proof (nominal_wf c Wc) as Nc. pose proof (nominal_wf x Wx) as Nx. pose proof (nominal_wf y Wy) as Ny.
  pose proof (where_spec (nominal_of c) (nominal_of x) (nominal_of y) Nc Nx Ny) as S1.
  pose proof (where_spec (distribution_of c) (distribution_of x) (distribution_of y) (distribution_wf c Wc) (distribution_wf x Wx) (distribution_wf y Wy)) as S2.
  destruct (broadcast_shapes [op_shape (nominal_of c); op_shape (nominal_of x); op_shape (nominal_of y)]) as [sn|] eqn:Es; [|congruence].
  destruct (broadcast_shapes [op_shape (distribution_of c); op_shape (distribution_of x); op_shape (distribution_of y)]) as [sd|]; [|congruence].
  destruct S1 as (n' & E1 & W1 & Sn & V1). destruct S2 as (d' & E2 & W2 & Sd & V2).
  rewrite En in E1. injection E1 as <-. rewrite Ed in E2. injection E2 as <-.
  cbn [u_nominal u_distribution op_shape]. rewrite Sn, Sd.
  split; [split; [exact W1|split; [exact W2|exact H]]|]. split; [reflexivity|]. split; [reflexivity|].
  assert (Nl : Forall (fun s : shape => NoDup (dkeys s)) [op_shape (nominal_of c); op_shape (nominal_of x); op_shape (nominal_of y)]).
  { constructor; [now apply op_shape_NoDup|]. constructor; [now apply op_shape_NoDup|].
    constructor; [now apply op_shape_NoDup|constructor]. }
  rewrite Sn in H.
  assert (OKw : world_ok c /\ world_ok x /\ world_ok y).
  { split; [|split]; match goal with |- world_ok ?z => destruct z as [u|o]; [exact Logic.I|] end; cbn; intros C; apply H;
      cbn [nominal_of] in *; eapply broadcast_keys; try exact Es; eauto; simpl; auto. }
  destruct OKw as (Oc & Ox & Oy).
  intros [k|] e I; cbn [u_inside u_distribution u_nominal op_shape] in I.
  - change (u_at (Uncertain (mkU (OpArr n) (OpArr d))) (Some k) e) with (bat d (set_env e axis_distribution k)).
    rewrite bat_inside, V2 by auto. now rewrite !u_at_distribution.
  - change (u_at (Uncertain (mkU (OpArr n) (OpArr d))) None e) with (bat n e).
    rewrite bat_inside, V1 by auto. now rewrite !u_at_nominal.
Qed.

Lemma u_ufunc_certain {A B} (fs : list (list A -> B)) (inputs : list (uop A)) rs k e :
  Forall uop_wf inputs -> u_ufunc fs inputs = Ok rs ->
  (forall x, In x inputs -> u_at x (Some k) e = u_at x None e) ->
  Forall (fun r => u_inside r None e -> u_inside r (Some k) e ->
                   u_at (Uncertain r) (Some k) e = u_at (Uncertain r) None e) rs.
Proof.
  intros W H Hx. pose proof (u_ufunc_spec fs inputs rs W H) as F. clear H.
  induction F as [|f r fs rs (Wr & _ & _ & V) F IH]; constructor; auto.
  intros I0 I1. rewrite (V _ _ I0), (V _ _ I1). f_equal. apply map_ext_in. exact Hx.
Qed.
