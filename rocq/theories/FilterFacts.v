(** Facts about convolutions and filters (Filter.v). *)
From Coq Require Import String List Arith ZArith Bool Lia.
From Verif Require Import Base BaseFacts Numpy NumpyFacts Shapes Scalar Reorder Elementwise Along Uncertain Hist Filter Spec SpecNumeric SpecUncertain SpecFilter.
From Verif Require Import ShapesFacts AlignFacts ElementwiseFacts ReorderFacts AlongFacts SortingFacts RegridFacts InterpAxisFacts.
From Verif Require ReduceFacts QuantileFacts UncertainFacts UncertainIndexFacts VectorIndexFacts LinspaceFacts.
Import ListNotations.
Open Scope nat_scope.
Open Scope list_scope.

(** ** Positions *)

Lemma np_fibre_named sh sizes axes ks e : NoDup axes -> incl ks axes ->
  (forall ax, In ax ks -> nth (spos ax axes) sizes 0 = size_of sh ax) ->
  np_fibre sizes (map (fun ax => spos ax axes) ks) (map e axes) = map (fun e' : env => map e' axes) (fibre sh ks e).
Proof.
  intros N. revert e. induction ks as [|k ks IH]; intros e I H; [reflexivity|].
  cbn [map np_fibre fibre]. rewrite (H k (or_introl eq_refl)).
  induction (seq 0 (size_of sh k)) as [|i l IHl]; [reflexivity|]. cbn [flat_map].
  rewrite map_app, IHl. f_equal. rewrite set_nth_named by (auto; apply I; now left).
  apply IH; [intros x Hx; apply I; now right|]. intros ax Hax. apply H. now right.
Qed.

Lemma nth_spos_map {B} (f : string -> B) ax axes d : In ax axes -> nth (spos ax axes) (map f axes) d = f ax.
Proof.
  intros H. rewrite map_nth_in with (d := ""%string) by now apply spos_lt. now rewrite nth_spos.
Qed.

Lemma map_nth_named (f : string -> nat) axes ks d : incl ks axes ->
  map (fun p => nth p (map f axes) d) (map (fun ax => spos ax axes) ks) = map f ks.
Proof. intros I. rewrite map_map. apply map_ext_in. intros ax H. apply nth_spos_map. now apply I. Qed.

(** sizes of 1 along some axes *)
Lemma ones_named (f : env) axes ks : NoDup axes -> incl ks axes ->
  fold_right (fun p s => set_nth p 1 s) (map f axes) (map (fun ax => spos ax axes) ks)
  = map (fun ax => if smem ax ks then 1 else f ax) axes.
Proof.
  intros N. induction ks as [|k ks IH]; intros I; [reflexivity|]. cbn [map fold_right].
  rewrite IH by (intros x Hx; apply I; now right). rewrite set_nth_named by (auto; apply I; now left).
  apply map_ext. intros ax. unfold set_env, smem. cbn [existsb]. destruct (String.eqb_spec ax k); reflexivity.
Qed.

Lemma size_of_without sh ks ax : NoDup (dkeys sh) -> size_of (without sh ks) ax = if smem ax ks then 1 else size_of sh ax.
Proof.
  intros N. unfold size_of. destruct (smem ax ks) eqn:E.
  - destruct (dget (without sh ks) ax) as [n|] eqn:D; auto. apply dget_In in D. apply without_In in D as [_ D].
    exfalso. apply D. now apply smem_In.
  - assert (~ In ax ks) by (intros K; apply smem_In in K; congruence).
    destruct (dget sh ax) as [n|] eqn:D.
    + rewrite (dget_NoDup _ _ n); auto; [now apply without_nodup|]. apply without_In. split; auto. now apply dget_In.
    + destruct (dget (without sh ks) ax) as [n|] eqn:D'; auto. apply dget_In in D'. apply without_In in D' as [D' _].
      rewrite (dget_NoDup _ _ _ N D') in D. discriminate.
Qed.

(** ** Convolution *)

Lemma subset_true l ks : incl l ks -> forallb (fun ax => smem ax ks) l = true.
Proof. intros I. apply forallb_forall. intros x Hx. apply smem_In. now apply I. Qed.

Lemma subset_false l ks : ~ incl l ks -> forallb (fun ax => smem ax ks) l = false.
Proof.
  intros I. destruct (forallb _ l) eqn:E; auto. exfalso. apply I. rewrite forallb_forall in E. intros x Hx. apply smem_In. now apply E.
Qed.

Lemma op_nodup {A} (o : operand A) : op_wf o -> NoDup (dkeys (op_shape o)).
Proof. destruct o; [apply wf_nodup|constructor]. Qed.

Lemma broadcast_keys l sh s : Forall (fun s : shape => NoDup (dkeys s)) l -> broadcast_shapes l = Ok sh -> In s l ->
  incl (dkeys s) (dkeys sh).
Proof.
  intros F E H ax Hax. destruct (broadcast_shapes_ok _ _ F E) as (_ & K & _). rewrite K. apply first_appearance_In.
  apply in_concat. exists (dkeys s). split; auto. now apply in_map.
Qed.

Lemma normalize_sub {A} (o : operand A) axes : op_wf o -> NoDup axes -> incl (dkeys (op_shape o)) axes ->
  exists n, ndarray_aligned (normalize o) axes = Ok n /\ nshape n = map (size_of (op_shape o)) axes /\
    forall e, bget n (map e axes) = op_at o e.
Proof.
  intros W N I. assert (Wn := normalize_wf o W).
  assert (I' : incl (s_axes (normalize o)) axes) by (rewrite <- (wf_keys _ Wn), normalize_shape; exact I).
  destruct (align_sub _ _ Wn N I') as [n (E & S & _)]. exists n. split; auto. split.
  - rewrite S. apply map_ext. intros ax. rewrite <- normalize_shape. reflexivity.
  - intros e. rewrite (bget_aligned _ _ _ e Wn N E). apply normalize_at.
Qed.

Section Convolve.
  Context {A K B : Type} (conv : convolution A K B) (array : operand A) (kernel : operand K) (axis : axis_arg) (where_ : operand bool).
  Context (Wa : op_wf array) (Wk : op_wf kernel) (Ww : op_wf where_).
  Let ks := names_of axis kernel.

  Lemma convolve_nodups : Forall (fun s : shape => NoDup (dkeys s)) [op_shape array; without (op_shape kernel) ks; op_shape where_].
  Proof.
    apply Forall_cons; [now apply op_nodup|]. apply Forall_cons; [apply without_nodup; now apply op_nodup|].
    apply Forall_cons; [now apply op_nodup|auto].
  Qed.

  Lemma convolve_unfold : na_convolve conv array kernel axis where_ =
    if negb (forallb (fun ax => smem ax (dkeys (op_shape array))) ks) then Err ValueError
    else if negb (forallb (fun ax => smem ax (dkeys (op_shape kernel))) ks) then Err ValueError
    else
      sh <- broadcast_shapes [op_shape array; without (op_shape kernel) ks; op_shape where_] ;;
      let axes := dkeys sh in
      a <- ndarray_aligned (normalize array) axes ;;
      k <- ndarray_aligned (normalize kernel) axes ;;
      ps <- mapM (fun ax => index_of ax axes) ks ;;
      w <- ndarray_aligned (normalize where_) axes ;;
      r <- np_convolve conv a k ps w ;;
      mk_sarr r axes.
  Proof. unfold na_convolve, ks, names_of. rewrite !normalize_shape. reflexivity. Qed.

  Theorem convolve_ok sh : incl ks (dkeys (op_shape array)) -> incl ks (dkeys (op_shape kernel)) ->
    broadcast_shapes [op_shape array; without (op_shape kernel) ks; op_shape where_] = Ok sh ->
    exists r, na_convolve conv array kernel axis where_ = Ok r /\ wf r /\ sshape r = sh /\
      forall e, at_ r e = convolved conv sh (op_at array) (op_at where_) (op_shape kernel) (op_at kernel) ks e.
  Proof.
    intros Ia Ik E. assert (F := convolve_nodups).
    assert (N : NoDup (dkeys sh)) by (destruct (broadcast_shapes_ok _ _ F E) as (X & _); exact X).
    assert (Ka : incl (dkeys (op_shape array)) (dkeys sh)) by (apply (broadcast_keys _ _ _ F E); simpl; auto).
    assert (Kw : incl (dkeys (op_shape where_)) (dkeys sh)) by (apply (broadcast_keys _ _ _ F E); simpl; auto).
    assert (Ks : incl ks (dkeys sh)) by exact (incl_tran Ia Ka).
    assert (Kk : incl (dkeys (op_shape kernel)) (dkeys sh)).
    { intros ax Hax. destruct (in_dec string_dec ax ks) as [H|H]; [now apply Ks|].
      apply (broadcast_keys _ _ (without (op_shape kernel) ks) F E); [simpl; auto|].
      rewrite dkeys_without. apply filter_In. split; auto. apply negb_true_iff.
      destruct (smem ax ks) eqn:Q; auto. apply smem_In in Q. contradiction. }
    destruct (normalize_sub array _ Wa N Ka) as [a (Ea & Sa & Ga)].
    destruct (normalize_sub kernel _ Wk N Kk) as [k (Ek & Sk & Gk)].
    destruct (normalize_sub where_ _ Ww N Kw) as [w (Ew & Sw & Gw)].
    rewrite convolve_unfold, (subset_true _ _ Ia), (subset_true _ _ Ik). cbn [negb]. rewrite E. cbn [bind]. cbv zeta.
    rewrite Ea. cbn [bind]. rewrite Ek. cbn [bind]. rewrite (mapM_index_of ks (dkeys sh) Ks). cbn [bind]. rewrite Ew. cbn [bind].
    unfold np_convolve. rewrite Sa, Sk, Sw.
    rewrite (ones_named (size_of (op_shape kernel)) (dkeys sh) ks N Ks).
    assert (BN := bshapes_named (dkeys sh) (map Some [op_shape array; without (op_shape kernel) ks; op_shape where_]) N F).
    assert (I3 : Forall (fun s : shape => incl (dkeys s) (dkeys sh)) (flat_map olist (map Some [op_shape array; without (op_shape kernel) ks; op_shape where_]))).
    { apply Forall_forall. intros s Hs. apply (broadcast_keys _ _ _ F E). exact Hs. }
    specialize (BN I3). cbn [map flat_map olist app] in BN. rewrite E in BN.
    assert (ES : map (size_of sh) (dkeys sh) = dvals sh).
    { clear - N. unfold dvals, dkeys. rewrite map_map. apply map_ext_in. intros [ax n] H. cbn [fst snd]. now apply size_of_key. }
    rewrite ES in BN.
    assert (EW : map (fun ax => if smem ax ks then 1 else size_of (op_shape kernel) ax) (dkeys sh)
      = aligned_shape (dkeys sh) (Some (without (op_shape kernel) ks))).
    { cbn [aligned_shape]. apply map_ext. intros ax. symmetry. apply size_of_without. now apply op_nodup. }
    rewrite EW. cbn [aligned_shape] in BN |- *. rewrite BN. cbn [bind].
    rewrite mk_sarr_intro; cbn [nshape]; auto; [|unfold dkeys, dvals; now rewrite !map_length].
    eexists. split; [reflexivity|]. split; [split; cbn; auto; unfold dkeys, dvals; now rewrite !map_length|].
    split; [unfold sshape; cbn; apply combine_dkeys_dvals|].
    intros e. unfold at_, convolved. cbn [s_nd nget s_axes].
    rewrite !(map_nth_named e (dkeys sh) ks 0 Ks).
    rewrite (map_nth_named (size_of (op_shape kernel)) (dkeys sh) ks 0 Ks).
    rewrite (np_fibre_named (op_shape kernel) (map (size_of (op_shape kernel)) (dkeys sh)) (dkeys sh) ks e N Ks).
    2:{ intros ax Hax. apply nth_spos_map. now apply Ks. }
    assert (M0 : map (fun p => nth p (dvals sh) 0) (map (fun ax => spos ax (dkeys sh)) ks) = map (size_of sh) ks).
    { rewrite <- ES. now apply map_nth_named. }
    assert (FB : np_fibre (dvals sh) (map (fun ax => spos ax (dkeys sh)) ks) (map e (dkeys sh)) = map (fun e' : env => map e' (dkeys sh)) (fibre sh ks e)).
    { apply np_fibre_named; auto. intros ax Hax. rewrite <- ES. apply nth_spos_map. now apply Ks. }
    rewrite M0, FB. rewrite !map_map. f_equal; apply map_ext; auto.
  Qed.

  Theorem convolve_missing : ~ incl ks (dkeys (op_shape array)) \/ ~ incl ks (dkeys (op_shape kernel)) ->
    na_convolve conv array kernel axis where_ = Err ValueError.
  Proof.
    intros H. rewrite convolve_unfold. destruct H as [H|H]; rewrite (subset_false _ _ H); cbn [negb]; auto.
    destruct (negb _); reflexivity.
  Qed.

  Theorem convolve_conflict e : incl ks (dkeys (op_shape array)) -> incl ks (dkeys (op_shape kernel)) ->
    broadcast_shapes [op_shape array; without (op_shape kernel) ks; op_shape where_] = Err e ->
    na_convolve conv array kernel axis where_ = Err e.
  Proof.
    intros Ia Ik E. rewrite convolve_unfold, (subset_true _ _ Ia), (subset_true _ _ Ik), E. reflexivity.
  Qed.
End Convolve.

(** ** Windows *)

Section Window.
  Context {A B : Type} (flt : window A B) (array : operand A) (size : dict nat) (where_ : operand bool).
  Context (Wa : op_wf array) (Ww : op_wf where_).

  Lemma ndfilter_nodups : Forall (fun s : shape => NoDup (dkeys s)) [op_shape array; op_shape where_].
  Proof. apply Forall_cons; [now apply op_nodup|]. apply Forall_cons; [now apply op_nodup|auto]. Qed.

  Lemma ndfilter_unfold : na_ndfilter flt array size where_ =
    sh <- broadcast_shapes [op_shape array; op_shape where_] ;;
    if negb (forallb (fun ax => smem ax (dkeys sh)) (dkeys size)) then Err ValueError
    else
      array <- na_broadcast_to (normalize array) sh false ;;
      where_ <- na_broadcast_to (normalize where_) sh false ;;
      ps <- mapM (fun ax => index_of ax (dkeys sh)) (dkeys size) ;;
      mk_sarr (np_ndfilter flt (s_nd array) (dvals size) ps (s_nd where_)) (dkeys sh).
  Proof. unfold na_ndfilter. rewrite !normalize_shape. reflexivity. Qed.

  Lemma s_axes_shape {C} (a : sarr C) sh : wf a -> sshape a = sh -> s_axes a = dkeys sh /\ nshape (s_nd a) = dvals sh.
  Proof.
    intros W <-. split; [now rewrite wf_keys|]. unfold sshape, dvals. destruct W as [_ L]. clear - L. revert L.
    generalize (nshape (s_nd a)). induction (s_axes a) as [|x l IH]; intros [|n s] L; cbn in *; try discriminate; auto.
    f_equal. apply IH. lia.
  Qed.

  Theorem ndfilter_ok sh : broadcast_shapes [op_shape array; op_shape where_] = Ok sh -> incl (dkeys size) (dkeys sh) ->
    exists r, na_ndfilter flt array size where_ = Ok r /\ wf r /\ sshape r = sh /\
      forall e, at_ r e = filtered flt sh (op_at array) (op_at where_) size e.
  Proof.
    intros E I. assert (F := ndfilter_nodups).
    assert (N : NoDup (dkeys sh)) by (destruct (broadcast_shapes_ok _ _ F E) as (X & _); exact X).
    assert (Fa := broadcast_fits _ _ F E).
    destruct (UncertainIndexFacts.broadcast_normalized array sh Wa N) as (a & Ea & Wfa & Sa & Ga); [apply Fa; simpl; auto|].
    destruct (UncertainIndexFacts.broadcast_normalized where_ sh Ww N) as (w & Ew & Wfw & Sw & Gw); [apply Fa; simpl; auto|].
    rewrite ndfilter_unfold, E. cbn [bind]. rewrite (subset_true _ _ I). cbn [negb]. rewrite Ea. cbn [bind]. rewrite Ew. cbn [bind].
    rewrite (mapM_index_of _ _ I). cbn [bind].
    destruct (s_axes_shape a sh Wfa Sa) as [Aa Na]. destruct (s_axes_shape w sh Wfw Sw) as [Aw Nw].
    rewrite mk_sarr_intro; unfold np_ndfilter; cbn [nshape]; auto; rewrite Na; [|unfold dkeys, dvals; now rewrite !map_length].
    eexists. split; [reflexivity|]. split; [split; cbn; auto; unfold dkeys, dvals; now rewrite !map_length|].
    split; [unfold sshape; cbn; apply combine_dkeys_dvals|].
    intros e. unfold at_ at 1. cbn [s_nd nget s_axes]. unfold filtered.
    assert (ES : map (size_of sh) (dkeys sh) = dvals sh).
    { clear - N. unfold dvals, dkeys. rewrite map_map. apply map_ext_in. intros [ax n] H. cbn [fst snd]. now apply size_of_key. }
    rewrite (map_nth_named e (dkeys sh) _ 0 I).
    assert (M0 : map (fun p => nth p (dvals sh) 0) (map (fun ax => spos ax (dkeys sh)) (dkeys size)) = map (size_of sh) (dkeys size)).
    { rewrite <- ES. now apply map_nth_named. }
    rewrite M0, (np_fibre_named sh (dvals sh) (dkeys sh) (dkeys size) e N I).
    2:{ intros ax Hax. rewrite <- ES. apply nth_spos_map. now apply I. }
    rewrite !map_map. f_equal; apply map_ext; intros e'.
    - rewrite <- Aa. apply Ga.
    - rewrite <- Aw. apply Gw.
  Qed.

  Theorem ndfilter_missing sh : broadcast_shapes [op_shape array; op_shape where_] = Ok sh -> ~ incl (dkeys size) (dkeys sh) ->
    na_ndfilter flt array size where_ = Err ValueError.
  Proof. intros E I. rewrite ndfilter_unfold, E. cbn [bind]. now rewrite (subset_false _ _ I). Qed.

  Theorem ndfilter_conflict e : broadcast_shapes [op_shape array; op_shape where_] = Err e -> na_ndfilter flt array size where_ = Err e.
  Proof. intros E. now rewrite ndfilter_unfold, E. Qed.
End Window.

(** ** Storage order *)

Lemma same_keys (s t : shape) : same_shape s t -> forall ax, In ax (dkeys s) <-> In ax (dkeys t).
Proof.
  intros H ax. unfold dkeys. rewrite !in_map_iff. split; intros [[a n] [<- K]]; exists (a, n); split; auto; now apply H.
Qed.

Lemma same_size (s t : shape) ax : NoDup (dkeys s) -> NoDup (dkeys t) -> same_shape s t -> size_of s ax = size_of t ax.
Proof. intros N M H. unfold size_of. now rewrite (same_shape_dget s t ax N M H). Qed.

Lemma same_without (s t : shape) ks : same_shape s t -> same_shape (without s ks) (without t ks).
Proof. intros H ax n. rewrite !without_In. now rewrite (H ax n). Qed.

(** the values read along some axes do not depend on the storage order *)
Lemma map_fibre_same {C} (o p : operand C) (sh : shape) ks e : op_wf o -> op_wf p -> same_operand o p ->
  fits_in (op_shape o) sh -> NoDup (dkeys sh) -> inside e sh ->
  map (op_at o) (fibre sh ks e) = map (op_at p) (fibre sh ks e).
Proof.
  intros Wo Wp S F N H. apply map_ext_in. intros e' He'.
  assert (I : inside e' sh) by (apply (QuantileFacts.fibre_in sh ks e e' N He'); intros ax n K _; now apply H).
  destruct o as [a|x], p as [b|y]; cbn in S; try contradiction; [|exact S].
  apply bat_same; auto. apply (bclamp_inside a sh); auto. intros ax n D. apply dget_In in D. destruct (F _ _ D) as (m & Hm & [-> | ->]); auto.
Qed.

Theorem convolve_same {A K B} (conv : convolution A K B) array kernel where_ array' kernel' where_' axis :
  op_wf array -> op_wf kernel -> op_wf where_ -> op_wf array' -> op_wf kernel' -> op_wf where_' ->
  same_operand array array' -> same_operand kernel kernel' -> same_operand where_ where_' -> axis <> AxNone ->
  same_result (na_convolve conv array kernel axis where_) (na_convolve conv array' kernel' axis where_').
Proof.
  intros Wa Wk Ww Wa' Wk' Ww' Sa Sk Sw NN.
  assert (KS : names_of axis kernel = names_of axis kernel') by (destruct axis; auto; contradiction).
  assert (Ha := QuantileFacts.same_operand_shape _ _ Sa). assert (Hk := QuantileFacts.same_operand_shape _ _ Sk).
  assert (Hw := QuantileFacts.same_operand_shape _ _ Sw).
  assert (DEC : forall l m : list string, incl l m \/ ~ incl l m).
  { intros l m. destruct (forallb (fun ax => smem ax m) l) eqn:E; [left|right].
    - rewrite forallb_forall in E. intros x Hx. apply smem_In. now apply E.
    - intros I. rewrite (subset_true _ _ I) in E. discriminate. }
  assert (T : forall l s t, same_shape s t -> incl l (dkeys s) -> incl l (dkeys t)).
  { intros l s t H I x Hx. apply (same_keys s t H). now apply I. }
  destruct (DEC (names_of axis kernel) (dkeys (op_shape array))) as [Ia|Ia].
  2:{ rewrite (convolve_missing conv array kernel axis where_), (convolve_missing conv array' kernel' axis where_'); cbn; auto.
      left. rewrite <- KS. intros I. apply Ia. eapply T; [apply same_shape_sym; exact Ha|exact I]. }
  destruct (DEC (names_of axis kernel) (dkeys (op_shape kernel))) as [Ik|Ik].
  2:{ rewrite (convolve_missing conv array kernel axis where_), (convolve_missing conv array' kernel' axis where_'); cbn; auto.
      right. rewrite <- KS. intros I. apply Ik. eapply T; [apply same_shape_sym; exact Hk|exact I]. }
  assert (Ia' := T _ _ _ Ha Ia). assert (Ik' := T _ _ _ Hk Ik). rewrite KS in Ia', Ik'.
  assert (F := convolve_nodups array kernel axis where_ Wa Wk Ww).
  assert (F' := convolve_nodups array' kernel' axis where_' Wa' Wk' Ww').
  assert (BS := broadcast_shapes_same [op_shape array; without (op_shape kernel) (names_of axis kernel); op_shape where_]
    [op_shape array'; without (op_shape kernel') (names_of axis kernel'); op_shape where_']).
  rewrite <- KS in BS, F'. specialize (BS ltac:(repeat (constructor; auto using same_without)) F F').
  destruct (broadcast_shapes [op_shape array; _; _]) as [sh|x] eqn:E;
    destruct (broadcast_shapes [op_shape array'; _; _]) as [sh'|x'] eqn:E'; try contradiction; rewrite KS in E' .
  2:{ subst x'. rewrite (convolve_conflict conv array kernel axis where_ x Ia Ik E), (convolve_conflict conv array' kernel' axis where_' x Ia' Ik' E').
      reflexivity. }
  destruct (convolve_ok conv array kernel axis where_ Wa Wk Ww sh Ia Ik E) as (r & -> & Wr & Sr & Gr).
  destruct (convolve_ok conv array' kernel' axis where_' Wa' Wk' Ww' sh' Ia' Ik' E') as (r' & -> & Wr' & Sr' & Gr').
  cbn. split; [now rewrite Sr, Sr'|]. intros e He. rewrite Gr, Gr', <- KS. rewrite Sr in He.
  assert (N : NoDup (dkeys sh)) by (rewrite <- Sr; now apply wf_nodup).
  assert (N' : NoDup (dkeys sh')) by (rewrite <- Sr'; now apply wf_nodup).
  set (ks := names_of axis kernel) in *. unfold convolved.
  assert (Z : forall ax, size_of sh' ax = size_of sh ax) by (intros ax; symmetry; now apply same_size).
  assert (Zk : forall ax, size_of (op_shape kernel') ax = size_of (op_shape kernel) ax).
  { intros ax. symmetry. apply same_size; auto; now apply op_nodup. }
  rewrite (ReduceFacts.fibre_ext sh' sh ks e) by auto. rewrite (ReduceFacts.fibre_ext (op_shape kernel') (op_shape kernel) ks e) by auto.
  assert (Fs := broadcast_fits _ _ F E).
  rewrite (map_fibre_same array array' sh ks e), (map_fibre_same where_ where_' sh ks e); auto; try (apply Fs; simpl; auto; fail).
  rewrite (map_ext _ _ Z), (map_ext _ _ Zk). f_equal.
  apply map_ext_in. intros e' He'. destruct (ReduceFacts.fibre_inside _ _ _ _ He') as [I1 I2].
  destruct kernel as [a|y], kernel' as [b|y']; cbn in Sk; try contradiction; [|exact Sk]. cbn [op_at op_shape] in *.
  apply bat_same; auto. intros ax n D. unfold bclamp. rewrite (dget_NoDup _ _ n (wf_nodup _ Wk) D).
  destruct (Nat.eq_dec n 1) as [-> |NE]; [lia|].
  assert (G : (match n with 1 => 0 | _ => e' ax end) = e' ax) by (destruct n as [|[|n]]; auto; congruence). rewrite G.
  destruct (in_dec string_dec ax ks) as [M|M].
  - specialize (I1 ax M). now rewrite (size_of_key _ _ _ (wf_nodup _ Wk) D) in I1.
  - rewrite (I2 ax M). assert (D' : In (ax, n) (without (sshape a) ks)) by now apply without_In.
    destruct (VectorIndexFacts.broadcast_covers _ sh (without (sshape a) ks) ax n F E ltac:(simpl; auto) D') as [_ [-> |K']]; [congruence|].
    now apply He.
Qed.

Theorem ndfilter_same {A B} (flt : window A B) array where_ array' where_' size :
  op_wf array -> op_wf where_ -> op_wf array' -> op_wf where_' ->
  same_operand array array' -> same_operand where_ where_' ->
  same_result (na_ndfilter flt array size where_) (na_ndfilter flt array' size where_').
Proof.
  intros Wa Ww Wa' Ww' Sa Sw.
  assert (Ha := QuantileFacts.same_operand_shape _ _ Sa). assert (Hw := QuantileFacts.same_operand_shape _ _ Sw).
  assert (F := ndfilter_nodups array where_ Wa Ww). assert (F' := ndfilter_nodups array' where_' Wa' Ww').
  assert (BS := broadcast_shapes_same [op_shape array; op_shape where_] [op_shape array'; op_shape where_']
    ltac:(repeat (constructor; auto)) F F').
  destruct (broadcast_shapes [op_shape array; _]) as [sh|x] eqn:E;
    destruct (broadcast_shapes [op_shape array'; _]) as [sh'|x'] eqn:E'; try contradiction.
  2:{ subst x'. rewrite (ndfilter_conflict flt array size where_ x E), (ndfilter_conflict flt array' size where_' x E'). reflexivity. }
  destruct (forallb (fun ax => smem ax (dkeys sh)) (dkeys size)) eqn:I.
  - assert (I1 : incl (dkeys size) (dkeys sh)) by (rewrite forallb_forall in I; intros y Hy; apply smem_In; now apply I).
    assert (I2 : incl (dkeys size) (dkeys sh')) by (intros y Hy; apply (same_keys _ _ BS); now apply I1).
    destruct (ndfilter_ok flt array size where_ Wa Ww sh E I1) as (r & -> & Wr & Sr & Gr).
    destruct (ndfilter_ok flt array' size where_' Wa' Ww' sh' E' I2) as (r' & -> & Wr' & Sr' & Gr').
    cbn. split; [now rewrite Sr, Sr'|]. intros e He. rewrite Gr, Gr'. rewrite Sr in He.
    assert (N : NoDup (dkeys sh)) by (rewrite <- Sr; now apply wf_nodup).
    assert (N' : NoDup (dkeys sh')) by (rewrite <- Sr'; now apply wf_nodup).
    assert (Z : forall ax, size_of sh' ax = size_of sh ax) by (intros ax; symmetry; now apply same_size).
    unfold filtered. rewrite (ReduceFacts.fibre_ext sh' sh (dkeys size) e) by auto.
    assert (Fs := broadcast_fits _ _ F E).
    rewrite (map_fibre_same array array' sh (dkeys size) e), (map_fibre_same where_ where_' sh (dkeys size) e); auto; try (apply Fs; simpl; auto; fail).
    now rewrite (map_ext _ _ Z).
  - assert (I1 : ~ incl (dkeys size) (dkeys sh)) by (intros J; rewrite (subset_true _ _ J) in I; discriminate).
    assert (I2 : ~ incl (dkeys size) (dkeys sh')) by (intros J; apply I1; intros y Hy; apply (same_keys _ _ BS); now apply J).
    rewrite (ndfilter_missing flt array size where_ sh E I1), (ndfilter_missing flt array' size where_' sh' E' I2). reflexivity.
Qed.
