(** Proofs about percentiles along named axes. *)
From Coq Require Import String List Arith ZArith Bool Lia Permutation.
From Verif Require Import Base BaseFacts Numpy NumpyFacts Shapes Scalar Reorder Elementwise Reduce Quantile Spec SpecNumeric SpecQuantile
  ShapesFacts AlignFacts ReduceFacts SortingFacts OptimizeFacts LinspaceFacts RegridFacts UncertainIndexFacts.
Import ListNotations.
Open Scope nat_scope.
Open Scope list_scope.

Section Percentile.
Context {A Q B : Type} (valid : Q -> bool) (perc : Q -> list A -> B).

Let f : list A -> Q -> B := fun l x => perc x l.

(** a reduction without mask and output *)
Lemma reduce_plain (a : sarr A) axis keepdims : wf a ->
  na_reduce true f a axis keepdims None None =
  if match axis with
     | Some _ => negb (forallb (fun ax => smem ax (s_axes a)) (axis_normalized a axis))
     | None => false
     end then Err ValueError
  else
    axes <- mapM (fun ax => index_of ax (s_axes a)) (axis_normalized a axis) ;;
    r <- np_reduce true f (s_nd a) axes keepdims None None ;;
    mk_sarr r (if keepdims then s_axes a else filter (fun ax => negb (smem ax (axis_normalized a axis))) (s_axes a)).
Proof.
  intros W. unfold na_reduce. rewrite (broadcast_one _ (wf_nodup _ W)). cbn [bind]. rewrite (wf_keys _ W).
  destruct (match axis with Some _ => _ | None => _ end); auto.
  destruct (mapM _ _); cbn [bind]; auto.
  unfold ndarray_aligned, axes_eqb. destruct (list_eq_dec _ _ _); [|congruence]. reflexivity.
Qed.

Lemma valid_iff (q : sarr Q) : wf q ->
  (forallb valid (ravel (s_nd q)) = true <-> forall e, inside e (sshape q) -> valid (at_ q e) = true).
Proof.
  intros W. rewrite forallb_forall. unfold ravel. split.
  - intros H e I. apply H. apply in_map_iff. exists (map e (s_axes q)). split; auto. apply ndindex_In. now apply inside_inb.
  - intros H x I. apply in_map_iff in I. destruct I as [idx [<- I]]. apply ndindex_In in I.
    assert (L : length idx = length (s_axes q)).
    { destruct W as [_ W]. rewrite W. clear -I. induction I; simpl; auto. }
    assert (E := map_env_of (s_axes q) idx (proj1 W) L).
    specialize (H (env_of (s_axes q) idx)). unfold at_ in H. rewrite E in H. apply H.
    apply inside_inb; auto. now rewrite E.
Qed.

Lemma nonempty_prod (a : sarr A) : wf a -> (forall ax n, In (ax, n) (sshape a) -> n <> 0) -> prod (nshape (s_nd a)) <> 0.
Proof.
  intros W H. rewrite <- (wf_vals _ W). clear W. induction (sshape a) as [|[k n] s IH]; simpl; [lia|].
  assert (n <> 0) by (apply (H k); simpl; auto). assert (prod (dvals s) <> 0) by (apply IH; intros; eapply H; simpl; eauto).
  unfold dvals in *. nia.
Qed.

Lemma squeezed_keys sh l : dkeys (squeezed sh l) = dkeys sh.
Proof. unfold squeezed, dkeys. rewrite map_map. apply map_ext. intros [k n]. simpl. destruct (smem k l); auto. Qed.

Lemma squeezed_In sh l ax n : In (ax, n) (squeezed sh l) <-> if smem ax l then In ax (dkeys sh) /\ n = 1 else In (ax, n) sh.
Proof.
  unfold squeezed, dkeys. rewrite in_map_iff. split.
  - intros [[k m] [E I]]. simpl in E. destruct (smem k l) eqn:K; inversion E; subst; rewrite K; auto.
    split; auto. apply in_map_iff. now exists (ax, m).
  - destruct (smem ax l) eqn:K.
    + intros [I ->]. apply in_map_iff in I. destruct I as [[k m] [E I]]. simpl in E. subst k. exists (ax, m). simpl. now rewrite K.
    + intros I. exists (ax, n). simpl. now rewrite K.
Qed.

Lemma reduced_shape (a : sarr A) (r : sarr (Q -> B)) S (keepdims : bool) : wf a -> wf r ->
  s_axes r = (if keepdims then s_axes a else filter (fun ax => negb (smem ax S)) (s_axes a)) ->
  (forall ax n, In (ax, n) (sshape r) <-> In ax (s_axes r) /\ n = if smem ax S then 1 else size_of (sshape a) ax) ->
  sshape r = if keepdims then squeezed (sshape a) S else without (sshape a) S.
Proof.
  intros Wa Wr AX SZ.
  assert (KE : dkeys (sshape r) = dkeys (if keepdims then squeezed (sshape a) S else without (sshape a) S)).
  { rewrite (wf_keys _ Wr), AX. destruct keepdims; [rewrite squeezed_keys|rewrite dkeys_without]; now rewrite (wf_keys _ Wa). }
  apply shape_eq; auto.
  - assert (N := wf_nodup _ Wr). rewrite KE in N. destruct keepdims; exact N.
  - intros ax n I. apply SZ in I. destruct I as [I ->]. rewrite AX in I. destruct keepdims.
    + apply squeezed_In. rewrite <- (wf_keys _ Wa) in I. destruct (smem ax S) eqn:K; auto.
      unfold dkeys in I. apply in_map_iff in I. destruct I as [[k m] [E' I']]. simpl in E'. subst.
      rewrite (size_of_In _ _ _ (wf_nodup _ Wa) I'). auto.
    + apply filter_In in I. destruct I as [I K]. apply negb_true_iff in K. rewrite K. rewrite <- (wf_keys _ Wa) in I.
      unfold dkeys in I. apply in_map_iff in I. destruct I as [[k m] [E' I']]. simpl in E'. subst.
      rewrite (size_of_In _ _ _ (wf_nodup _ Wa) I'). apply without_In. split; auto. now apply smem_false.
Qed.

Lemma combine_app2 {X Y} (l l' : list X) (m m' : list Y) : length l = length m ->
  combine (l ++ l') (m ++ m') = combine l m ++ combine l' m'.
Proof. revert m. induction l; destruct m; simpl; intros E; try discriminate; auto. now rewrite IHl by lia. Qed.

(** the core, for arrays *)
Lemma percentile_arrays (a : sarr A) (q : sarr Q) axis keepdims :
  wf a -> wf q -> (forall ax n, In (ax, n) (sshape a) -> n <> 0) ->
  let S := match axis with Some l => l | None => s_axes a end in
  let ok := NoDup S /\ incl S (s_axes a) /\ (forall ax, In ax (s_axes q) -> ~ In ax (s_axes a)) /\
            length (s_axes q) <= 2 /\ forall e, inside e (sshape q) -> valid (at_ q e) = true in
  (ok -> exists r, na_percentile valid perc (OpArr a) (OpArr q) axis None keepdims = Ok r /\ wf r /\
     sshape r = sshape q ++ (if keepdims then squeezed (sshape a) S else without (sshape a) S) /\
     forall e, at_ r e = perc (at_ q e) (map (at_ a) (fibre (sshape a) (filter (fun ax => smem ax S) (s_axes a)) e))) /\
  (~ ok -> na_percentile valid perc (OpArr a) (OpArr q) axis None keepdims = Err ValueError).
Proof.
  intros Wa Wq NE S ok.
  assert (R := reduce_spec true f a axis keepdims None Wa ltac:(discriminate)).
  cbv beta iota zeta in R. rewrite (broadcast_one _ (wf_nodup _ Wa)) in R. rewrite (wf_keys _ Wa) in R. fold S in R.
  destruct R as [R1 R2]. rewrite reduce_plain in R1, R2 by auto.
  assert (AN : axis_normalized a axis = S) by (destruct axis; reflexivity).
  unfold na_percentile. cbn [normalize]. rewrite AN in *.
  destruct (match axis with Some _ => negb (forallb _ S) | None => false end) eqn:EX.
  { split; [|auto]. intros (H1 & H2 & _). exfalso.
    destruct R1 as [r [R1 _]]; [|discriminate]. split; auto. split; auto. split; [discriminate|]. auto. }
  destruct (existsb _ _) eqn:ED.
  { split; [|auto]. intros (_ & _ & H & _). apply existsb_exists in ED. destruct ED as [ax [I1 I2]]. apply smem_In in I2. destruct (H _ I2 I1). }
  assert (DJ : forall ax, In ax (s_axes q) -> ~ In ax (s_axes a)).
  { intros ax I1 I2. assert (existsb (fun ax => smem ax (s_axes q)) (s_axes a) = true); [|congruence].
    apply existsb_exists. exists ax. split; auto. now apply smem_In. }
  destruct (incl_sdec S (s_axes a)) as [IS|IS].
  2: { split; [intros (_ & H & _); contradiction|intros _]. destruct (mapM_index_of_err S (s_axes a) IS) as [e [E ->]]. rewrite E. reflexivity. }
  rewrite (mapM_index_of _ _ IS) in *. cbn [bind] in *. unfold np_percentile. fold f.
  assert (V := valid_iff q Wq). destruct (forallb valid (ravel (s_nd q))) eqn:EV; cbn [negb].
  2: { cbn [bind]. split; [|auto]. intros (_ & _ & _ & _ & H). apply V in H. discriminate. }
  assert (LQ : ndim (s_nd q) = length (s_axes q)) by (unfold ndim; destruct Wq; auto).
  destruct (2 <? ndim (s_nd q)) eqn:E2; [cbn [bind]; split; [|auto]; intros (_ & _ & _ & H & _); apply Nat.ltb_lt in E2; lia|].
  apply Nat.ltb_ge in E2. assert (NP := nonempty_prod a Wa NE). apply Nat.eqb_neq in NP. rewrite NP.
  destruct (nodupb S) eqn:EN.
  2: { assert (ND : ~ NoDup S) by (intros H; apply nodupb_NoDup in H; congruence).
       split; [intros (H & _); contradiction|intros _]. specialize (R2 ltac:(intros (H & _); contradiction)).
       destruct (np_reduce _ _ _ _ _ _ _) as [r|er] eqn:E; cbn [bind] in *.
       - exfalso. unfold np_reduce in E. destruct (negb (nnodupb _)) eqn:N; [discriminate|].
         apply negb_false_iff in N. apply ND. now apply nnodupb_spos in N.
       - inversion R2. reflexivity. }
  apply nodupb_NoDup in EN.
  destruct R1 as [rf (E & Wr & AXr & SZ & EL)].
  { split; auto. split; auto. split; [discriminate|]. auto. }
  destruct (np_reduce _ _ _ _ _ _ _) as [r|er] eqn:En; cbn [bind] in *; [|discriminate].
  cbn [negb]. apply mk_sarr_ok in E. destruct E as [-> _]. cbn [s_axes s_nd] in *.
  assert (SH := reduced_shape a _ S keepdims Wa Wr AXr SZ).
  set (axr := if keepdims then s_axes a else filter (fun ax => negb (smem ax S)) (s_axes a)) in *.
  assert (IN : incl axr (s_axes a)).
  { unfold axr. destruct keepdims; [apply incl_refl|]. intros ax I. now apply filter_In in I. }
  assert (LR : length axr = length (nshape r)) by (destruct Wr; auto).
  assert (LQ' : length (s_axes q) = length (nshape (s_nd q))) by (destruct Wq; auto).
  match goal with |- context [mk_sarr ?x _] => set (n := x) end.
  assert (NDr : NoDup (s_axes q ++ axr)).
  { apply NoDup_app_intro; [apply Wq|apply Wr|]. intros ax I1 I2. apply (DJ ax I1). auto. }
  rewrite mk_sarr_intro; auto.
  2: { subst n. cbn [nshape]. rewrite !app_length. lia. }
  cbn [bind]. split.
  2: { intros H. exfalso. apply H. split; auto. split; auto. split; auto. split; [lia|]. now apply V. }
  intros _. eexists. split; [reflexivity|]. split; [split; auto; subst n; cbn [s_axes s_nd nshape]; rewrite !app_length; lia|]. split.
  - unfold sshape at 1. subst n. cbn [s_axes s_nd nshape]. rewrite combine_app2 by lia. unfold sshape at 1. f_equal. exact SH.
  - intros e. unfold at_ at 1. cbn [s_axes s_nd]. subst n. cbn [nget]. rewrite map_app.
    rewrite skipn_app, firstn_app, map_length, LQ, Nat.sub_diag, skipn_all2, firstn_all2 by (rewrite map_length; lia).
    cbn [skipn firstn app]. rewrite app_nil_r.
    specialize (EL e). unfold at_ at 1 in EL. cbn [s_axes s_nd] in EL. fold (at_ q e). rewrite EL. unfold f.
    rewrite filter_all by auto. reflexivity.
Qed.
Lemma op_at_in {X} (o : operand X) e : op_wf o -> inside e (op_shape o) -> at_ (normalize o) e = op_at o e.
Proof. destruct o as [a|x]; simpl; intros W I; [symmetry; now apply bat_inside|reflexivity]. Qed.

Lemma fibre_in (sh : shape) S e e' : NoDup (dkeys sh) -> In e' (fibre sh S e) ->
  (forall ax n, In (ax, n) sh -> ~ In ax S -> e ax < n) -> inside e' sh.
Proof.
  intros N I H ax n J. destruct (fibre_inside sh S e e' I) as [H1 H2].
  destruct (in_dec string_dec ax S) as [K|K].
  - specialize (H1 ax K). now rewrite (size_of_In _ _ _ N J) in H1.
  - rewrite (H2 ax K). eauto.
Qed.

Theorem percentile_spec (a : operand A) (q : operand Q) axis keepdims :
  (forall x, symmetric (perc x)) ->
  op_wf a -> op_wf q -> (forall ax n, In (ax, n) (op_shape a) -> n <> 0) ->
  let S := match axis with Some l => l | None => dkeys (op_shape a) end in
  (percentile_ok valid a q S -> exists r, na_percentile valid perc a q axis None keepdims = Ok r /\ wf r /\
     sshape r = op_shape q ++ (if keepdims then squeezed (op_shape a) S else without (op_shape a) S) /\
     forall e, inside e (sshape r) -> at_ r e = perc (op_at q e) (map (op_at a) (fibre (op_shape a) S e))) /\
  (~ percentile_ok valid a q S -> na_percentile valid perc a q axis None keepdims = Err ValueError).
Proof.
  intros Sy Wa Wq NE S.
  assert (Wa' := normalize_wf a Wa). assert (Wq' := normalize_wf q Wq).
  assert (P := percentile_arrays (normalize a) (normalize q) axis keepdims Wa' Wq').
  rewrite !(normalize_shape a), !(normalize_shape q) in P. specialize (P NE). cbv zeta in P.
  rewrite <- (wf_keys _ Wa'), <- (wf_keys _ Wq'), (normalize_shape a), (normalize_shape q) in P. fold S in P.
  change (na_percentile valid perc (OpArr (normalize a)) (OpArr (normalize q)) axis None keepdims)
    with (na_percentile valid perc a q axis None keepdims) in P.
  assert (LQ : length (dkeys (op_shape q)) = length (op_shape q)) by (unfold dkeys; apply map_length).
  rewrite LQ in P. destruct P as [P1 P2]. unfold percentile_ok. split.
  - intros (H1 & H2 & H3 & H4 & H5). destruct P1 as [r (E & Wr & SH & EL)].
    { repeat (split; auto). intros e I. rewrite (op_at_in q e Wq I). auto. }
    exists r. repeat (split; auto). intros e I. rewrite EL. rewrite SH in I.
    rewrite (op_at_in q e Wq). 2: { intros ax n J. apply I. apply in_or_app. auto. }
    assert (N : NoDup (dkeys (op_shape a))) by (rewrite <- normalize_shape; now apply wf_nodup).
    rewrite (Sy _ (map (at_ (normalize a)) _) (map (at_ (normalize a)) (fibre (op_shape a) S e))).
    2: { assert (F := fibre_perm (op_shape a) (filter (fun ax => smem ax S) (dkeys (op_shape a))) S (fun e' => [at_ (normalize a) e']) e).
         assert (FM : forall l, flat_map (fun e' => [at_ (normalize a) e']) l = map (at_ (normalize a)) l).
         { induction l; simpl; congruence. }
         rewrite !FM in F. apply F.
         - intros e1 e2 H. f_equal. now apply at_respects.
         - apply NoDup_filter; auto.
         - apply filter_smem_perm; auto. }
    f_equal. apply map_ext_in. intros e' I'. apply op_at_in; auto.
    eapply fibre_in; eauto. intros ax n J K. apply I. apply in_or_app. right.
    destruct keepdims; [|now apply without_In]. apply squeezed_In. apply smem_false in K. now rewrite K.
  - intros H. apply P2. intros (H1 & H2 & H3 & H4 & H5). apply H. repeat (split; auto). intros e I. rewrite <- op_at_in; auto.
Qed.

Lemma percentile_dec (a : operand A) (q : operand Q) axis keepdims r :
  op_wf a -> op_wf q -> (forall ax n, In (ax, n) (op_shape a) -> n <> 0) ->
  na_percentile valid perc a q axis None keepdims = Ok r ->
  percentile_ok valid a q (match axis with Some l => l | None => dkeys (op_shape a) end).
Proof.
  intros Wa Wq NE E.
  assert (Wa' := normalize_wf a Wa). assert (Wq' := normalize_wf q Wq).
  assert (P := percentile_arrays (normalize a) (normalize q) axis keepdims Wa' Wq').
  rewrite !(normalize_shape a), !(normalize_shape q) in P. specialize (P NE). cbv zeta in P.
  change (na_percentile valid perc (OpArr (normalize a)) (OpArr (normalize q)) axis None keepdims)
    with (na_percentile valid perc a q axis None keepdims) in P. destruct P as [_ P].
  set (S := match axis with Some l => l | None => dkeys (op_shape a) end).
  assert (D : forall X : Prop, (~ X -> na_percentile valid perc a q axis None keepdims = Err ValueError) -> ~ ~ X).
  { intros X H1 H2. rewrite (H1 H2) in E. discriminate. }
  apply D in P. clear D E.
  rewrite <- (wf_keys _ Wa'), <- (wf_keys _ Wq'), (normalize_shape a), (normalize_shape q) in P.
  assert (LQ : length (dkeys (op_shape q)) = length (op_shape q)) by (unfold dkeys; apply map_length).
  rewrite LQ in P. fold S in P. unfold percentile_ok.
  assert (V := valid_iff (normalize q) Wq'). rewrite normalize_shape in V.
  split; [|split; [|split; [|split]]].
  - destruct (nodupb S) eqn:N; [now apply nodupb_NoDup|]. exfalso. apply P. intros (H & _). apply nodupb_NoDup in H. congruence.
  - destruct (incl_sdec S (dkeys (op_shape a))); auto. exfalso. apply P. intros (_ & H & _). contradiction.
  - intros ax I1 I2. apply P. intros (_ & _ & H & _). now apply (H ax).
  - destruct (le_dec (length (op_shape q)) 2); auto. exfalso. apply P. intros (_ & _ & _ & H & _). contradiction.
  - intros e I. rewrite <- op_at_in by auto. destruct (forallb valid (ravel (s_nd (normalize q)))) eqn:F; [now apply V|].
    exfalso. apply P. intros (_ & _ & _ & _ & H). apply V in H. discriminate.
Qed.

(** with an output *)
Lemma percentile_with_out (a : operand A) (q : operand Q) axis keepdims (r o : sarr B) :
  na_percentile valid perc a q axis None keepdims = Ok r ->
  na_percentile valid perc a q axis (Some o) keepdims =
  (n <- ndarray_aligned o (s_axes r) ;;
   if idx_eqb (nshape n) (nshape (s_nd r)) then m <- ndarray_aligned r (s_axes o) ;; Ok (mkS m (s_axes o)) else Err ValueError).
Proof.
  unfold na_percentile. destruct (match axis with Some _ => _ | None => false end); [discriminate|].
  destruct (existsb _ _); [discriminate|]. destruct (mapM _ _); cbn [bind]; [|discriminate].
  destruct (np_percentile _ _ _ _ _ _ None) as [n|] eqn:E; cbn [bind]; [|discriminate].
  destruct (mk_sarr n _) as [x|] eqn:EM; cbn [bind]; [|discriminate]. intros H. inversion H. subst x. clear H.
  assert (EM' := EM). apply mk_sarr_ok in EM'. destruct EM' as [-> _]. cbn [s_axes s_nd].
  destruct (ndarray_aligned o _) as [no|er]; cbn [bind]; [|reflexivity].
  unfold np_percentile in *. destruct (negb _); [discriminate|]. destruct (2 <? _); [discriminate|]. destruct (prod _ =? 0); [discriminate|].
  destruct (np_reduce _ _ _ _ _ _ _); cbn [bind] in *; [|discriminate]. cbn [negb] in E. inversion E. subst n. clear E. cbn [nshape].
  destruct (idx_eqb _ _); cbn [negb bind]; [|reflexivity]. rewrite EM. reflexivity.
Qed.

Theorem percentile_out (a : operand A) (q : operand Q) axis keepdims (r o : sarr B) :
  na_percentile valid perc a q axis None keepdims = Ok r -> wf o ->
  (same_shape (sshape o) (sshape r) ->
   exists r', na_percentile valid perc a q axis (Some o) keepdims = Ok r' /\ wf r' /\ sshape r' = sshape o /\
     forall e, at_ r' e = at_ r e) /\
  (~ (forall ax, In ax (s_axes o) <-> In ax (s_axes r)) ->
   na_percentile valid perc a q axis (Some o) keepdims = Err ValueError).
Proof.
  intros E Wo. rewrite (percentile_with_out _ _ _ _ _ _ E).
  assert (Wr : wf r).
  { revert E. unfold na_percentile. destruct (match axis with Some _ => _ | None => false end); [discriminate|].
    destruct (existsb _ _); [discriminate|]. destruct (mapM _ _); cbn [bind]; [|discriminate].
    destruct (np_percentile _ _ _ _ _ _ None) as [n|] eqn:E; cbn [bind]; [|discriminate].
    destruct (mk_sarr n _) as [x|] eqn:EM; cbn [bind]; [|discriminate]. intros H. inversion H. subst x. now apply mk_sarr_ok in EM. }
  split.
  - intros SS. assert (K := same_shape_keys _ _ SS). rewrite (wf_keys _ Wo), (wf_keys _ Wr) in K.
    destruct (align_sub o (s_axes r) Wo (proj1 Wr)) as [n (E1 & S1 & _)]; [intros ax; apply K|].
    destruct (align_sub r (s_axes o) Wr (proj1 Wo)) as [m (E2 & S2 & V2)]; [intros ax; apply K|].
    rewrite E1. cbn [bind]. rewrite S1, E2. cbn [bind].
    assert (AE : forall ax, asize o ax = asize r ax).
    { intros ax. unfold asize. now rewrite (same_shape_dget _ _ ax (wf_nodup _ Wo) (wf_nodup _ Wr) SS). }
    rewrite (map_ext _ _ AE), (map_asize r Wr).
    assert (I : idx_eqb (nshape (s_nd r)) (nshape (s_nd r)) = true).
    { apply idx_eqb_refl. }
    rewrite I. eexists. split; [reflexivity|].
    assert (Sm : nshape m = nshape (s_nd o)).
    { rewrite S2, <- (map_asize o Wo). apply map_ext. intros; symmetry; apply AE. }
    split; [|split].
    + split; [apply Wo|]. cbn [s_axes s_nd]. rewrite Sm. apply Wo.
    + unfold sshape. cbn [s_axes s_nd]. now rewrite Sm.
    + intros e. unfold at_. cbn [s_axes s_nd]. apply V2.
  - intros H. destruct (incl_sdec (s_axes o) (s_axes r)) as [I1|I1].
    2: { rewrite (align_err o _ I1). reflexivity. }
    destruct (align_sub o (s_axes r) Wo (proj1 Wr) I1) as [n (E1 & S1 & _)]. rewrite E1. cbn [bind].
    destruct (idx_eqb _ _); auto. destruct (incl_sdec (s_axes r) (s_axes o)) as [I2|I2].
    + exfalso. apply H. intros ax. split; auto.
    + rewrite (align_err r _ I2). reflexivity.
Qed.

(** the storage order *)
Lemma same_operand_shape {X} (o p : operand X) : same_operand o p -> same_shape (op_shape o) (op_shape p).
Proof. destruct o, p; simpl; intros H; try contradiction; [apply H|]. intros ax n. reflexivity. Qed.

Lemma same_operand_at {X} (o p : operand X) e : op_wf o -> op_wf p -> same_operand o p -> inside e (op_shape o) -> op_at o e = op_at p e.
Proof.
  destruct o as [a|x], p as [b|y]; simpl; intros W W' H I; try contradiction; auto.
  rewrite (bat_inside a e W I). destruct H as [H1 H2]. rewrite (bat_inside b e W'); auto. eapply AlignFacts.same_shape_inside; eauto.
Qed.

Lemma same_operand_sym {X} (o p : operand X) : same_operand o p -> same_operand p o.
Proof.
  destruct o as [a|x], p as [b|y]; simpl; intros H; try contradiction; auto.
  destruct H as [H1 H2]. split; [now apply same_shape_sym|]. intros e I. symmetry. apply H2.
  eapply AlignFacts.same_shape_inside; [apply same_shape_sym; exact H1|auto].
Qed.

Lemma op_nodup {X} (o : operand X) : op_wf o -> NoDup (dkeys (op_shape o)).
Proof. intros W. rewrite <- normalize_shape. apply wf_nodup. now apply normalize_wf. Qed.

Lemma same_shape_length (s t : shape) : NoDup (dkeys s) -> NoDup (dkeys t) -> same_shape s t -> length s = length t.
Proof.
  intros N1 N2 H. apply Permutation_length. apply NoDup_Permutation; auto.
  - now apply NoDup_map_inv in N1.
  - now apply NoDup_map_inv in N2.
  - intros [ax n]. apply H.
Qed.

Lemma percentile_same_half (a a' : operand A) (q q' : operand Q) axis axis' keepdims r :
  (forall x, symmetric (perc x)) ->
  op_wf a -> op_wf q -> op_wf a' -> op_wf q' -> (forall ax n, In (ax, n) (op_shape a) -> n <> 0) ->
  same_operand a a' -> same_operand q q' ->
  Permutation (match axis with Some l => l | None => dkeys (op_shape a) end)
              (match axis' with Some l => l | None => dkeys (op_shape a') end) ->
  na_percentile valid perc a q axis None keepdims = Ok r ->
  exists r', na_percentile valid perc a' q' axis' None keepdims = Ok r' /\ same_array r r'.
Proof.
  intros Sy Wa Wq Wa' Wq' NE Ha Hq P E.
  assert (SA := same_operand_shape _ _ Ha). assert (SQ := same_operand_shape _ _ Hq).
  assert (OK := percentile_dec _ _ _ _ _ Wa Wq NE E).
  assert (NE' : forall ax n, In (ax, n) (op_shape a') -> n <> 0) by (intros ax n I; apply (NE ax), SA, I).
  destruct (percentile_spec a q axis keepdims Sy Wa Wq NE) as [H _].
  destruct (percentile_spec a' q' axis' keepdims Sy Wa' Wq' NE') as [H' _].
  cbv zeta in H, H'.
  set (S := match axis with Some l => l | None => dkeys (op_shape a) end) in *.
  set (S' := match axis' with Some l => l | None => dkeys (op_shape a') end) in *.
  assert (KA := same_shape_keys _ _ SA). assert (KQ := same_shape_keys _ _ SQ).
  assert (OK' : percentile_ok valid a' q' S').
  { destruct OK as (H1 & H2 & H3 & H4 & H5). split; [|split; [|split; [|split]]].
    - eapply Permutation_NoDup; eauto.
    - intros ax I. apply KA, H2. now apply (Permutation_in _ (Permutation_sym P)).
    - intros ax I1 I2. apply (H3 ax); [now apply KQ|now apply KA].
    - rewrite <- (same_shape_length (op_shape q) (op_shape q')); auto using op_nodup.
    - intros e I. rewrite <- (same_operand_at q q' e); auto.
      + apply H5. eapply AlignFacts.same_shape_inside; [apply same_shape_sym; exact SQ|auto].
      + eapply AlignFacts.same_shape_inside; [apply same_shape_sym; exact SQ|auto]. }
  destruct (H OK) as [r0 (E0 & Wr & SH & EL)]. assert (r0 = r) by congruence. subst r0.
  destruct (H' OK') as [r' (E' & Wr' & SH' & EL')]. exists r'. split; auto.
  assert (MS : forall ax, smem ax S = smem ax S').
  { intros ax. destruct (smem ax S) eqn:K; symmetry.
    - apply smem_In. apply smem_In in K. now apply (Permutation_in _ P).
    - apply smem_false. apply smem_false in K. intros I. apply K. now apply (Permutation_in _ (Permutation_sym P)). }
  assert (SS : same_shape (sshape r) (sshape r')).
  { intros ax n. rewrite SH, SH', !in_app_iff, (SQ ax n). destruct keepdims.
    - rewrite !squeezed_In, MS. destruct (smem ax S'); [rewrite (KA ax)|rewrite (SA ax n)]; tauto.
    - rewrite !without_In, (SA ax n), <- !smem_false, MS. tauto. }
  split; auto. intros e I.
  assert (I' : inside e (sshape r')) by (eapply AlignFacts.same_shape_inside; eauto).
  rewrite EL, EL' by auto. clear EL EL'.
  assert (IQ : inside e (op_shape q)). { intros ax n J. apply I. rewrite SH. apply in_or_app. auto. }
  rewrite (same_operand_at q q' e Wq Wq' Hq IQ). apply Sy.
  assert (ND : NoDup S) by (apply OK).
  assert (FM : forall (x : operand A) l, flat_map (fun e' => [op_at x e']) l = map (op_at x) l).
  { intros x. induction l; simpl; congruence. }
  assert (F := fibre_perm (op_shape a) S S' (fun e' => [op_at a e']) e).
  rewrite !FM in F. eapply Permutation_trans; [apply F; auto|].
  - intros e1 e2 HE. f_equal. now apply op_at_respects.
  - rewrite (fibre_ext (op_shape a) (op_shape a') S').
    2: { intros ax _. apply same_shape_size_of; auto using op_nodup. }
    rewrite (map_ext_in (op_at a) (op_at a')); [apply Permutation_refl|].
    intros e' J. apply same_operand_at; auto.
    eapply AlignFacts.same_shape_inside; [apply same_shape_sym; exact SA|].
    eapply fibre_in; [apply op_nodup; auto|exact J|]. intros ax n K1 K2. apply I'. rewrite SH'. apply in_or_app. right.
    destruct keepdims; [|now apply without_In]. apply squeezed_In. apply smem_false in K2. now rewrite K2.
Qed.

Theorem percentile_same (a a' : operand A) (q q' : operand Q) axis axis' keepdims :
  (forall x, symmetric (perc x)) ->
  op_wf a -> op_wf q -> op_wf a' -> op_wf q' -> (forall ax n, In (ax, n) (op_shape a) -> n <> 0) ->
  same_operand a a' -> same_operand q q' ->
  Permutation (match axis with Some l => l | None => dkeys (op_shape a) end)
              (match axis' with Some l => l | None => dkeys (op_shape a') end) ->
  same_result (na_percentile valid perc a q axis None keepdims) (na_percentile valid perc a' q' axis' None keepdims).
Proof.
  intros Sy Wa Wq Wa' Wq' NE Ha Hq P.
  assert (NE' : forall ax n, In (ax, n) (op_shape a') -> n <> 0).
  { intros ax n I. apply (NE ax). now apply (same_operand_shape _ _ Ha). }
  destruct (na_percentile valid perc a q axis None keepdims) as [r|e] eqn:E.
  - destruct (percentile_same_half a a' q q' axis axis' keepdims r) as [r' [E' H]]; auto. rewrite E'. exact H.
  - destruct (na_percentile valid perc a' q' axis' None keepdims) as [r'|e'] eqn:E'.
    + destruct (percentile_same_half a' a q' q axis' axis keepdims r') as [r [E2 _]]; auto using same_operand_sym, Permutation_sym. congruence.
    + simpl. destruct (percentile_spec a q axis keepdims Sy Wa Wq NE) as [H1 H2].
      destruct (percentile_spec a' q' axis' keepdims Sy Wa' Wq' NE') as [H3 H4]. cbv zeta in *.
      assert (e = ValueError). { assert (X : Err e = Err ValueError :> res (sarr B)); [|congruence]. rewrite <- E. apply H2. intros H. destruct (H1 H) as [? [? _]]. congruence. }
      assert (e' = ValueError). { assert (X : Err e' = Err ValueError :> res (sarr B)); [|congruence]. rewrite <- E'. apply H4. intros HH. destruct (H3 HH) as [? [? _]]. congruence. }
      congruence.
Qed.
End Percentile.
