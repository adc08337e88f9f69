(** Facts about elementwise functions of and assignment to function arrays. *)
From Coq Require Import String List Arith ZArith Bool Lia Permutation.
From Verif Require Import Base BaseFacts Numpy NumpyFacts Shapes Scalar Reorder Elementwise Reduce Along Derived Func FuncOps Spec SpecDerived SpecNumeric SpecFunc SpecFuncOps
  ShapesFacts AlignFacts ElementwiseFacts GetitemFacts SetitemFacts ReorderFacts AlongFacts SortingFacts QuantileFacts VectorIndexFacts FuncFacts FuncOpsFacts FuncPairsFacts.
Import ListNotations.
Open Scope nat_scope.
Open Scope list_scope.

Lemma existsb_forallb {A} (p : A -> bool) l : existsb p l = negb (forallb (fun x => negb (p x)) l).
Proof. induction l as [|a l IH]; auto. cbn. rewrite IH. now destruct (p a). Qed.

Lemma na_differ_spec {A} (eqb : A -> A -> bool) (a b : sarr A) : (forall x y, eqb x y = true <-> x = y) -> wf a -> wf b ->
  (na_differ eqb a b = Ok false <-> agree a b) /\
  (na_differ eqb a b = Ok true \/ na_differ eqb a b = Ok false \/ na_differ eqb a b = Err ValueError).
Proof.
  intros Q Wa Wb. set (l := [OpArr a; OpArr b]).
  assert (W : Forall op_wf l) by exact (Forall_cons _ (Wa : op_wf (OpArr a)) (Forall_cons _ (Wb : op_wf (OpArr b)) (Forall_nil _))).
  assert (Nd : Forall (fun s : shape => NoDup (dkeys s)) [sshape a; sshape b]).
  { constructor; [now apply wf_nodup|]. constructor; [now apply wf_nodup|constructor]. }
  unfold na_differ. fold l. set (g := bin (fun x y => negb (eqb x y)) true).
  destruct (broadcast_shapes_total _ Nd) as [[sh E]|E].
  - assert (E' : shape_broadcasted l = Ok sh) by exact E.
    destruct (array_ufunc_ok g l sh W E') as (d & Ed & Wd & Sd & Gd). rewrite Ed. cbn [bind].
    destruct (broadcast_shapes_ok _ _ Nd E) as (Ns & _ & Ps). cbn [map concat] in Ps. rewrite app_nil_r in Ps.
    assert (V := valid_iff (fun x => negb x) d Wd). rewrite existsb_forallb.
    assert (R : forallb (fun x => negb x) (ravel (s_nd d)) = true <-> forall e, inside e sh -> bat a e = bat b e).
    { rewrite V, Sd. split; intros H e I.
      - specialize (H e I). rewrite Gd in H. cbn in H. apply Q. now rewrite negb_involutive in H.
      - rewrite Gd. cbn. rewrite negb_involutive. apply Q. now apply H. }
    split; [|destruct (forallb (fun x => negb x) (ravel (s_nd d))); auto].
    split.
    + intros H. split.
      { intros C. apply broadcast_shapes_conflict in C; auto. congruence. }
      intros e He. apply R; [destruct (forallb (fun x => negb x) (ravel (s_nd d))); [reflexivity|discriminate]|].
      intros ax n Hn. apply Ps in Hn as [K C]. apply He; auto. apply in_app_iff in K. now rewrite (wf_keys a Wa), (wf_keys b Wb) in K.
    + intros [_ H]. rewrite (proj2 R); [reflexivity|]. intros e I. apply H. intros ax n K C. apply I, Ps. split; auto.
      rewrite in_app_iff, (wf_keys a Wa), (wf_keys b Wb). exact K.
  - assert (Ex : array_ufunc g l = Err ValueError).
    { destruct (array_ufunc g l) as [d|e] eqn:Eu.
      - unfold array_ufunc in Eu. change (shape_broadcasted l) with (broadcast_shapes [sshape a; sshape b]) in Eu. rewrite E in Eu. discriminate.
      - apply array_ufunc_err in Eu as [_ ->]; auto. }
    rewrite Ex. cbn [bind]. split; [|auto]. split; [discriminate|]. intros [C _]. exfalso. apply C. now apply broadcast_shapes_conflict.
Qed.

Definition functions {A B} (args : list (fop A B)) : list (farr A B) :=
  flat_map (fun x => match x with FFun f => [f] | FOp _ => [] end) args.

Lemma fop_inputs_functions {A B} (args : list (fop A B)) : flat_map fop_inputs args = map f_inputs (functions args).
Proof. unfold functions. induction args as [|[f|o] args IH]; cbn; [reflexivity|now rewrite IH|exact IH]. Qed.

Lemma all_agree {A} (eqb : A -> A -> bool) (i0 : sarr A) l : (forall x y, eqb x y = true <-> x = y) -> wf i0 -> Forall wf l ->
  let m := mapM (fun i => d <- na_differ eqb i i0 ;; if d then Err ValueError else Ok tt) l in
  ((exists u, m = Ok u) \/ m = Err ValueError) /\ ((exists u, m = Ok u) <-> Forall (fun i => agree i i0) l).
Proof.
  intros Q W0 W. cbn zeta. induction W as [|i l Wi W IH]; cbn [mapM].
  - split; [left; eauto|]. split; eauto.
  - destruct (na_differ_spec eqb i i0 Q Wi W0) as [A1 A2].
    destruct A2 as [E|[E|E]]; rewrite E; cbn [bind].
    + split; [now right|]. split; [intros [u H]; discriminate|]. intros H. inversion H; subst. apply A1 in H2. congruence.
    + assert (Ag := proj1 A1 E). destruct IH as [I1 I2].
      destruct (mapM (fun i => d <- na_differ eqb i i0 ;; if d then Err ValueError else Ok tt) l) as [us|er].
      * cbn [bind]. split; [left; eauto|]. split; [|eauto]. intros _. constructor; auto. apply I2. eauto.
      * cbn [bind]. split.
        { right. destruct I1 as [[u H]|H]; congruence. }
        split; [intros [u H]; discriminate|]. intros H. inversion H; subst. apply I2 in H3 as [u H3]. discriminate.
    + split; [now right|]. split; [intros [u H]; discriminate|]. intros H. inversion H; subst. apply A1 in H2. congruence.
Qed.

Theorem f_ufunc_spec {A B C} (eqb : A -> A -> bool) (g : list B -> C) (args : list (fop A B)) (f0 : farr A B) (rest : list (farr A B)) :
  (forall x y, eqb x y = true <-> x = y) ->
  (forall f, In (FFun f) args -> wf (f_inputs f) /\ wf (f_outputs f)) -> (forall o, In (FOp o) args -> op_wf o) ->
  flat_map (fun x => match x with FFun f => [f] | FOp _ => [] end) args = f0 :: rest ->
  let outs := map (fun x => match x with FFun f => OpArr (f_outputs f) | FOp o => o end) args in
  let ok := (forall f, In f rest -> agree (f_inputs f) (f_inputs f0)) /\ ~ conflict (op_shapes outs) in
  (ok -> exists r, f_ufunc eqb g args = Ok r /\ f_inputs r = f_inputs f0 /\ wf (f_outputs r) /\
     (forall ax n, In (ax, n) (sshape (f_outputs r)) <-> In ax (concat (map dkeys (op_shapes outs))) /\ common_size (sizes_of (op_shapes outs) ax) n) /\
     forall e, at_ (f_outputs r) e = g (map (fun o => op_at o e) outs)) /\
  (~ ok -> f_ufunc eqb g args = Err ValueError).
Proof.
  intros Q Wf Wn E outs. assert (Ei := fop_inputs_functions args). unfold functions in Ei. rewrite E in Ei. cbn [map] in Ei.
  assert (Wo : Forall op_wf outs).
  { apply Forall_forall. intros o Ho. apply in_map_iff in Ho as ([f|p] & <- & H); [now apply Wf|now apply Wn]. }
  assert (Wa : forall f, In f (f0 :: rest) -> wf (f_inputs f)).
  { intros f Hf. rewrite <- E in Hf. apply in_flat_map in Hf as ([h|p] & H & K); [|contradiction]. destruct K as [<- |[]]. now apply Wf. }
  assert (Eo : map fop_outputs args = outs) by (apply map_ext; intros [f|p]; reflexivity).
  unfold f_ufunc. rewrite Ei, Eo.
  destruct (all_agree eqb (f_inputs f0) (map f_inputs rest) Q) as [T1 T2].
  { apply Wa. now left. }
  { apply Forall_forall. intros i Hi. apply in_map_iff in Hi as (f & <- & Hf). apply Wa. now right. }
  cbv zeta in T1, T2.
  assert (Fa : Forall (fun i => agree i (f_inputs f0)) (map f_inputs rest) <-> forall f, In f rest -> agree (f_inputs f) (f_inputs f0)).
  { rewrite Forall_map, Forall_forall. tauto. }
  rewrite Fa in T2. assert (Nd := op_shapes_nodup outs Wo).
  destruct (mapM (fun i => d <- na_differ eqb i (f_inputs f0) ;; if d then Err ValueError else Ok tt) (map f_inputs rest)) as [us|er].
  - cbn [bind]. assert (Ag : forall f, In f rest -> agree (f_inputs f) (f_inputs f0)) by (apply T2; eauto).
    destruct (broadcast_shapes_total _ Nd) as [[sh Es]|Es].
    + destruct (array_ufunc_ok g outs sh Wo Es) as (o & Eu & W & S & V). rewrite Eu. cbn [bind]. split.
      * intros _. exists (mkF (f_inputs f0) o). split; [reflexivity|]. split; [reflexivity|]. split; [exact W|]. split; [|exact V].
        cbn [f_outputs]. rewrite S. exact (proj2 (proj2 (broadcast_shapes_ok _ _ Nd Es))).
      * intros H. exfalso. apply H. split; auto. intros K. apply broadcast_shapes_conflict in K; auto. congruence.
    + assert (Eu : array_ufunc g outs = Err ValueError).
      { destruct (array_ufunc g outs) as [d|e] eqn:Eu.
        - unfold array_ufunc in Eu. change (shape_broadcasted outs) with (broadcast_shapes (op_shapes outs)) in Eu. rewrite Es in Eu. discriminate.
        - apply array_ufunc_err in Eu as [_ ->]; auto. }
      rewrite Eu. cbn [bind]. split; [|reflexivity]. intros [_ H]. exfalso. apply H. now apply broadcast_shapes_conflict.
  - cbn [bind]. split.
    + intros [H _]. apply T2 in H as [u H]. discriminate.
    + intros _. destruct T1 as [[u H]|H]; congruence.
Qed.

(** ** Assignment *)

Lemma selects_unique n i e ax p q : selects n i e ax p -> selects n i e ax q -> p = q.
Proof.
  destruct i as [[|z|z|s|v]|]; cbn; try (intros -> ->; reflexivity); try apply index_is_unique. apply slice_selects_unique.
Qed.

(** a selection assigned to itself *)
Theorem self_assign {A} (a : sarr A) (it : dict item) (s : sarr A) :
  wf a -> NoDup (dkeys it) -> Forall (fun kv => item_wf (snd kv)) it -> Forall (fun kv => item_py (snd kv)) it ->
  incl (dkeys it) (s_axes a) -> getitem a it = Ok s ->
  exists r, setitem a it (OpArr s) = Ok r /\ wf r /\ sshape r = sshape a /\ forall e, inside e (sshape a) -> at_ r e = at_ a e.
Proof.
  intros W N Wi Py I Es. destruct (getitem_full a it s W N Wi Es) as (Ws & F & sa & ES & Ax & Hsa & Hk).
  destruct (proj1 (getitem_success a it W N Wi) (ex_intro _ s Es)) as (sa' & ES' & OK & DJ). rewrite ES in ES'. injection ES' as <-.
  destruct (proj2 (setitem_success a it (OpArr s) sa W N Wi Py Ws ES DJ)) as [r Er].
  { split; [exact I|]. exists s. split; [exact Es|]. intros ax n H. exists n. auto. }
  destruct (setitem_ok a it (OpArr s) W N Wi Py Ws sa ES DJ r I Er) as (Wr & Sr & G).
  exists r. split; [exact Er|]. split; [exact Wr|]. split; [exact Sr|]. intros e' He'.
  destruct (G e' He') as [(e & [A1 A2] & ->)|[_ H]]; [|exact H]. cbn [op_at].
  assert (Ie : inside e (sshape s)).
  { intros ax m Hm. assert (Kx : In ax (s_axes s)) by (rewrite <- (wf_keys s Ws); now apply (in_map fst) in Hm).
    rewrite Ax in Kx. apply in_app_iff in Kx as [Kx|Kx].
    - apply key_dget in Kx as [k Ek]. apply dget_In in Ek. assert (Q := Hsa ax k Ek). assert (k = m) by (apply (in_dget _ _ _ (wf_nodup s Ws)) in Q, Hm; congruence).
      subst k. now apply A1.
    - apply filter_In in Kx as [Kx Kp]. rewrite <- (wf_keys a W) in Kx. apply key_dget in Kx as [n En]. apply dget_In in En.
      destruct (A2 ax n En) as [L Sl]. assert (Q := Hk ax n m En Kp Hm).
      destruct (dget it ax) as [[|z|z|sl|v]|]; cbn in Kp, Q, Sl; try discriminate; try (subst; now rewrite <- Sl).
      apply Q. eauto. }
  rewrite bat_inside by auto. destruct (F e Ie) as (e2 & I2 & -> & S2). apply at_ext. intros ax Hax.
  rewrite <- (wf_keys a W) in Hax. apply key_dget in Hax as [n En]. apply dget_In in En.
  exact (selects_unique n _ e ax _ _ (S2 ax n En) (proj2 (A2 ax n En))).
Qed.

Lemma f_item_plain {A B} (f : farr A B) it : compatible f -> wf (f_inputs f) -> wf (f_outputs f) ->
  (forall ax i, In (ax, i) it -> In ax (s_axes (f_outputs f)) /\ (binned f ax = true -> exists s, i = ItSlice s)) ->
  let inp (kv : string * item) := if binned f (fst kv) then match vertex_item (snd kv) with Ok q => [(fst kv, fst q)] | Err _ => [] end
                                  else if dmem (sshape (f_inputs f)) (fst kv) then [kv] else [] in
  mapM (f_item f) it = Ok (map (fun kv => (inp kv, [kv])) it).
Proof.
  intros C Wi Wo H inp. apply mapM_map. intros [ax i] Hin. destruct (H ax i Hin) as [K Hs].
  assert (Ka : In ax (f_axes f)).
  { apply (points_keys f ax Wi Wo). rewrite <- (wf_keys _ Wo) in K. apply key_dget in K as [n K]. unfold points. rewrite K.
    destruct (dget (sshape (f_inputs f)) ax); eauto. }
  unfold f_item. rewrite (center_gen f C), (vertex_gen f C). cbn [bind]. unfold inp. cbn [fst snd].
  change (binned f ax) with (bin_axis f ax) in *. destruct (bin_axis f ax) eqn:E.
  - assert (Q : smem ax (filter (bin_axis f) (f_axes f)) = true) by (apply smem_In, filter_In; auto). rewrite Q.
    destruct (Hs eq_refl) as [s ->]. reflexivity.
  - assert (Q : smem ax (filter (bin_axis f) (f_axes f)) = false) by (apply smem_false; rewrite filter_In; intros [_ K']; congruence).
    rewrite Q. assert (Q' : smem ax (filter (fun a => negb (bin_axis f a)) (f_axes f)) = true) by (apply smem_In, filter_In; now rewrite E). rewrite Q'.
    cbn [andb]. assert (Q2 : dmem (sshape (f_outputs f)) ax = true).
    { unfold dmem. rewrite <- (wf_keys _ Wo) in K. apply key_dget in K as [n ->]. reflexivity. }
    now rewrite Q2.
Qed.

Theorem f_self_assign {A B} (f : farr A B) (it : dict item) (g : farr A B) :
  wf (f_inputs f) -> wf (f_outputs f) -> compatible f ->
  NoDup (dkeys it) -> Forall (fun kv => item_wf (snd kv)) it -> Forall (fun kv => item_py (snd kv)) it ->
  (forall ax i, In (ax, i) it -> In ax (s_axes (f_outputs f)) /\
     (binned f ax = true -> exists s, i = ItSlice s) /\ (binned f ax = false -> In ax (s_axes (f_inputs f)))) ->
  f_getitem f it = Ok g ->
  exists f', f_setitem f it (FVFun g) = (f', Ok tt) /\ wf (f_inputs f') /\ wf (f_outputs f') /\
    sshape (f_inputs f') = sshape (f_inputs f) /\ sshape (f_outputs f') = sshape (f_outputs f) /\
    (forall e, inside e (sshape (f_inputs f)) -> at_ (f_inputs f') e = at_ (f_inputs f) e) /\
    (forall e, inside e (sshape (f_outputs f)) -> at_ (f_outputs f') e = at_ (f_outputs f) e).
Proof.
  intros Wi Wo C N Wt Py H Eg. unfold f_getitem in Eg.
  assert (Fl : filter (fun kv : string * item => smem (fst kv) (f_axes f)) it = it).
  { apply filter_all. intros [ax i] Hin. apply smem_In. apply (points_keys f ax Wi Wo). destruct (H ax i Hin) as [K _].
    rewrite <- (wf_keys _ Wo) in K. apply key_dget in K as [n K]. unfold points. cbn [fst]. rewrite K. destruct (dget (sshape (f_inputs f)) ax); eauto. }
  rewrite Fl in Eg. rewrite (f_item_plain f it C Wi Wo) in Eg by (intros ax i Hin; destruct (H ax i Hin) as (K1 & K2 & _); auto).
  cbn [bind] in Eg. rewrite !map_map in Eg. cbn [fst snd] in Eg.
  assert (Eo : concat (map (fun kv : string * item => [kv]) it) = it) by (clear; induction it; cbn; congruence).
  match type of Eg with context [getitem (f_outputs f) ?y] => replace y with it in Eg by (symmetry; exact Eo) end.
  match type of Eg with context [getitem (f_inputs f) ?x] => set (iti := x) in * end.
  destruct (getitem (f_inputs f) iti) as [gi|] eqn:Egi; cbn [bind] in Eg; [|discriminate].
  destruct (getitem (f_outputs f) it) as [go|] eqn:Ego; cbn [bind] in Eg; [|discriminate].
  injection Eg as <-. unfold f_setitem. rewrite (vertex_gen f C). cbn [f_inputs f_outputs].
  destruct (self_assign (f_outputs f) it go Wo N Wt Py) as (ro & Ero & Wro & Sro & Gro); auto.
  { intros ax K. apply in_map_iff in K as ((ax', i) & <- & K). now apply (H ax' i). }
  rewrite Ero.
  destruct (existsb (fun ax => smem ax (filter (bin_axis f) (f_axes f))) (dkeys (sshape gi))) eqn:Ex.
  { exists (mkF (f_inputs f) ro). repeat (split; [assumption || reflexivity|]). exact Gro. }
  assert (Nb : forall ax i, In (ax, i) it -> binned f ax = false).
  { intros ax i Hin. destruct (binned f ax) eqn:Eb; auto. exfalso. destruct (H ax i Hin) as (_ & Hs & _). destruct (Hs Eb) as [s ->].
    assert (Kv : In ax (filter (bin_axis f) (f_axes f))).
    { apply filter_In. split; [|exact Eb]. rewrite <- Fl in Hin. apply filter_In in Hin as [_ Hin]. now apply smem_In in Hin. }
    assert (Kg : In ax (dkeys (sshape gi))).
    { assert (Ki : In ax (s_axes (f_inputs f))).
      { unfold binned in Eb. rewrite <- (wf_keys _ Wi). apply key_dget. destruct (dget (sshape (f_outputs f)) ax); [|discriminate].
        destruct (dget (sshape (f_inputs f)) ax); [eauto|discriminate]. }
      assert (Fi : forall kv, In kv iti -> exists i', In (fst kv, i') it /\ (snd kv = i' \/ binned f (fst kv) = true /\ exists s', snd kv = ItSlice s')).
      { intros kv K. unfold iti in K. apply in_concat in K as (l & Hl & K). apply in_map_iff in Hl as ((ax', i') & <- & Hl). cbn [fst snd] in K.
        destruct (binned f ax') eqn:Eb'.
        - destruct (H ax' i' Hl) as (_ & Hs' & _). destruct (Hs' Eb') as [s' ->]. cbn in K. destruct K as [<- |[]]. cbn. eauto 6.
        - destruct (dmem (sshape (f_inputs f)) ax'); [|contradiction]. destruct K as [<- |[]]. cbn. eauto. }
      assert (Ni : NoDup (dkeys iti)).
      { unfold iti. clear - N. induction it as [|[a i] it IH]; [constructor|]. cbn [dkeys map] in N. inversion N; subst. cbn [map concat fst snd].
        assert (L : forall k, In k (dkeys (concat (map (fun kv : string * item =>
                      if binned f (fst kv) then match vertex_item (snd kv) with Ok q => [(fst kv, fst q)] | Err _ => [] end
                      else if dmem (sshape (f_inputs f)) (fst kv) then [kv] else []) it))) -> In k (dkeys it)).
        { intros k K. unfold dkeys in K. apply in_map_iff in K as (kv & <- & K). apply in_concat in K as (l & Hl & K). apply in_map_iff in Hl as (kv' & <- & Hl).
          apply in_map_iff. exists kv'. split; [|exact Hl]. destruct (binned f (fst kv')).
          - destruct (vertex_item (snd kv')); [|contradiction]. destruct K as [<- |[]]. reflexivity.
          - destruct (dmem (sshape (f_inputs f)) (fst kv')); [|contradiction]. destruct K as [<- |[]]. reflexivity. }
        specialize (IH H2).
        destruct (binned f a).
        - destruct (vertex_item i); [|exact IH]. cbn. constructor; [|exact IH]. intros K. apply H1. now apply L.
        - destruct (dmem (sshape (f_inputs f)) a); [|exact IH]. cbn. constructor; [|exact IH]. intros K. apply H1. now apply L. }
      assert (Wti : Forall (fun kv => item_wf (snd kv)) iti).
      { apply Forall_forall. intros kv K. destruct (Fi kv K) as (i' & K1 & [E|(_ & s' & E)]); [|now rewrite E].
        rewrite E. rewrite Forall_forall in Wt. exact (Wt _ K1). }
      destruct (getitem_full _ iti gi Wi Ni Wti Egi) as (Wg & _ & sa & _ & Ag & _). rewrite (wf_keys _ Wg), Ag. apply in_app_iff. right.
      apply filter_In. split; [exact Ki|].
      destruct (dget iti ax) as [i'|] eqn:Ed; [|reflexivity]. apply dget_In in Ed. destruct (Fi _ Ed) as (i2 & K1 & [E|(_ & s' & E)]); cbn [fst snd] in *.
      + assert (i2 = ItSlice s) by (apply (dget_NoDup it ax _ N) in K1; apply (dget_NoDup it ax _ N) in Hin; congruence). now subst.
      + now subst. }
    assert (T : existsb (fun ax => smem ax (filter (bin_axis f) (f_axes f))) (dkeys (sshape gi)) = true).
    { apply existsb_exists. exists ax. split; [exact Kg|now apply smem_In]. }
    congruence. }
  assert (Ei : iti = it).
  { unfold iti. rewrite <- Eo at 2. f_equal. apply map_ext_in. intros [ax i] Hin. cbn [fst snd]. rewrite (Nb ax i Hin).
    destruct (H ax i Hin) as (_ & _ & K). specialize (K (Nb ax i Hin)). rewrite <- (wf_keys _ Wi) in K. apply key_dget in K as [n K].
    unfold dmem. now rewrite K. }
  rewrite Ei in Egi.
  destruct (self_assign (f_inputs f) it gi Wi N Wt Py) as (ri & Eri & Wri & Sri & Gri); auto.
  { intros ax K. apply in_map_iff in K as ((ax', i) & <- & K). destruct (H ax' i K) as (_ & _ & Q). apply Q. now apply (Nb ax' i). }
  rewrite Eri. exists (mkF ri ro). repeat (split; [assumption || reflexivity|]). exact Gro.
Qed.

Theorem f_assign_number {A B} (f : farr A B) (it : dict item) (v : B) (sa : shape) :
  wf (f_outputs f) -> NoDup (dkeys it) -> Forall (fun kv => item_wf (snd kv)) it -> Forall (fun kv => item_py (snd kv)) it ->
  broadcast_shapes (index_shapes (s_axes (f_outputs f)) it) = Ok sa ->
  (forall ax, In ax (dkeys sa) -> In ax (s_axes (f_outputs f)) -> keeps_axis (dget it ax) = false) ->
  ((exists f', f_setitem f it (FVOp (OpNum v)) = (f', Ok tt)) <->
   incl (dkeys it) (s_axes (f_outputs f)) /\ exists s, getitem (f_outputs f) it = Ok s) /\
  forall f', f_setitem f it (FVOp (OpNum v)) = (f', Ok tt) ->
    f_inputs f' = f_inputs f /\ wf (f_outputs f') /\ sshape (f_outputs f') = sshape (f_outputs f) /\
    forall e', inside e' (sshape (f_outputs f)) ->
      ((exists e, addresses (sshape (f_outputs f)) sa it e e') -> at_ (f_outputs f') e' = v) /\
      ((forall e, ~ addresses (sshape (f_outputs f)) sa it e e') -> at_ (f_outputs f') e' = at_ (f_outputs f) e').
Proof.
  intros Wo N Wt Py ES DJ. assert (S := setitem_success (f_outputs f) it (OpNum v) sa Wo N Wt Py I ES DJ). split.
  - cbn [f_setitem]. split.
    + intros [f' E]. destruct (setitem (f_outputs f) it (OpNum v)) as [r|] eqn:Er; [|discriminate].
      destruct (proj1 S (ex_intro _ r eq_refl)) as (K & s & Es & _). eauto.
    + intros [K [s Es]]. destruct (proj2 S) as [r Er]; [split; [exact K|exists s; split; [exact Es|exact I]]|]. rewrite Er. eauto.
  - intros f' E. cbn [f_setitem] in E. destruct (setitem (f_outputs f) it (OpNum v)) as [r|] eqn:Er; [|discriminate]. injection E as <-.
    destruct (proj1 S (ex_intro _ r eq_refl)) as (K & _).
    destruct (setitem_ok (f_outputs f) it (OpNum v) Wo N Wt Py I sa ES DJ r K Er) as (Wr & Sr & G).
    split; [reflexivity|]. split; [exact Wr|]. split; [exact Sr|]. intros e' He'. destruct (G e' He') as [(e & A1 & A2)|[A1 A2]]; split; auto.
    + intros Nx. exfalso. now apply (Nx e).
    + intros [e Ae]. exfalso. now apply (A1 e).
Qed.

Lemma f_assign_array {A B} (f : farr A B) (it : dict item) (a : sarr B) :
  s_axes a <> [] -> f_setitem f it (FVOp (OpArr a)) = (f, Err ValueError).
Proof. unfold f_setitem. intros H. destruct (s_axes a) as [|x l]; [contradiction|reflexivity]. Qed.
