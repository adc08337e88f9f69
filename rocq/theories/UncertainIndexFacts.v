(** Facts about indexing and reducing uncertain arrays. *)
From Coq Require Import String List Arith ZArith Bool Lia Permutation.
From Verif Require Import Base BaseFacts Numpy NumpyFacts Shapes Scalar Elementwise Reduce Vector Func Uncertain Spec SpecUncertain
  ShapesFacts AlignFacts GetitemFacts ReduceFacts SortingFacts AlongFacts LinspaceFacts VectorIndexFacts MatrixFacts ElementwiseFacts OptimizeFacts RankdataFacts PdfFacts FuncFacts UncertainFacts.
Import ListNotations.
Open Scope nat_scope.
Open Scope list_scope.

Lemma finite_choice (P : string -> nat -> nat -> Prop) (l : shape) : NoDup (dkeys l) ->
  (forall ax n, In (ax, n) l -> exists p, P ax n p) -> exists e' : env, forall ax n, In (ax, n) l -> P ax n (e' ax).
Proof.
  induction l as [|[a m] l IH]; intros N H.
  - exists (fun _ => 0). intros ax n [].
  - inversion N as [|x y Na N']; subst.
    destruct (IH N' (fun ax n i => H ax n (or_intror i))) as [e' He'].
    destruct (H a m (or_introl eq_refl)) as [p Hp].
    exists (set_env e' a p). intros ax n [E|i].
    + inversion E; subst. unfold set_env. rewrite String.eqb_refl. exact Hp.
    + assert (ax <> a). { intros ->. apply Na. apply in_map_iff. exists (a, n); auto. }
      rewrite set_env_other by auto. auto.
Qed.

Lemma getitem_filter {A} (a : sarr A) (it : dict item) :
  getitem a (filter (fun kv => smem (fst kv) (s_axes a)) it) = getitem a it.
Proof.
  unfold getitem. rewrite filter_filter.
  replace (filter (fun x => smem (fst x) (s_axes a) && smem (fst x) (s_axes a)) it)
    with (filter (fun kv => smem (fst kv) (s_axes a)) it); auto.
  apply filter_ext. intros x. now rewrite andb_diag.
Qed.

Notation conv := item_in.
Notation conv_dict := items_in.

Lemma conv_dget it w ax : dget (conv_dict it w) ax = option_map (fun i => conv i w) (dget it ax).
Proof. unfold items_in. apply (dget_map_snd (fun i => conv i w)). Qed.

Lemma conv_keys it w : dkeys (conv_dict it w) = dkeys it.
Proof. unfold items_in, dkeys. rewrite map_map. reflexivity. Qed.

Lemma part_wf {A} (u : unc A) w : u_wf u -> op_wf (u_part u w).
Proof. intros (Wn & Wd & _). destruct w; auto. Qed.

Lemma conv_wf it w : Forall (fun kv => uitem_wf (snd kv)) it -> Forall (fun kv => item_wf (snd kv)) (conv_dict it w).
Proof.
  intros F. unfold items_in. apply Forall_map. revert F. apply Forall_impl. intros [k i] H. cbn [fst snd] in *.
  destruct i as [i|u]; auto. cbn [item_in item_wf]. apply normalize_wf. now apply part_wf.
Qed.

Lemma u_items_ok (it : dict uitem) items :
  mapM (fun kv => q <- u_item (snd kv) ;; Ok (fst kv, q)) it = Ok items ->
  map (fun kq => (fst kq, fst (snd kq))) items = conv_dict it None /\
  map (fun kq => (fst kq, snd (snd kq))) items = conv_dict it (Some 0) /\
  (forall kv, In kv it -> snd kv <> Plain ItNone).
Proof.
  revert items. induction it as [|[k i] it IH]; intros items H; cbn [mapM] in H.
  - injection H as <-. repeat split; auto.
  - apply bind_ok in H as (q & Hq & H). apply bind_ok in H as (qs & Hqs & H). injection H as <-.
    destruct (IH qs Hqs) as (E1 & E2 & E3). cbn [map fst snd] in *.
    apply bind_ok in Hq as (p & Hp & Hq). injection Hq as <-. cbn [fst snd].
    rewrite E1, E2. unfold items_in. cbn [map fst snd].
    assert (X : p = (conv i None, conv i (Some 0)) /\ i <> Plain ItNone).
    { destruct i as [[| | | |]|u]; cbn [u_item item_in u_part] in *; try discriminate; injection Hp as <-; split; auto; discriminate. }
    destruct X as [-> X]. repeat split; auto. intros kv [<-|Hi]; auto.
Qed.

Lemma u_items_intro (it : dict uitem) : (forall kv, In kv it -> snd kv <> Plain ItNone) ->
  exists items, mapM (fun kv => q <- u_item (snd kv) ;; Ok (fst kv, q)) it = Ok items.
Proof.
  induction it as [|[k i] it IH]; intros H; cbn [mapM]; [eauto|].
  destruct (IH (fun kv h => H kv (or_intror h))) as [items E].
  assert (X : exists q, u_item i = Ok q).
  { specialize (H (k, i) (or_introl eq_refl)). cbn [snd] in H. destruct i as [[| | | |]|u]; cbn [u_item]; eauto. congruence. }
  destruct X as [q Eq]. cbn [fst snd]. rewrite Eq. cbn [bind]. rewrite E. cbn [bind]. eauto.
Qed.

Lemma conv_dict_some it k : conv_dict it (Some k) = conv_dict it (Some 0).
Proof. unfold items_in. apply map_ext. intros [x [i|u]]; reflexivity. Qed.

Lemma u_getitem_parts {A} (u : unc A) it r : u_getitem u it = Ok r ->
  exists n d, r = mkU (OpArr n) (OpArr d) /\ ~ In axis_distribution (dkeys (sshape n)) /\
    getitem (normalize (u_nominal u)) (conv_dict it None) = Ok n /\
    getitem (normalize (u_distribution u)) (conv_dict it (Some 0)) = Ok d /\
    (forall kv, In kv it -> snd kv <> Plain ItNone).
Proof.
  unfold u_getitem. intros H. apply bind_ok in H as (items & Hi & H).
  destruct (u_items_ok it items Hi) as (E1 & E2 & E3). rewrite E1, E2, !getitem_filter in H.
  apply bind_ok in H as (n & Hn & H). apply bind_ok in H as (d & Hd & H). apply mk_unc_ok in H as [-> H].
  exists n, d. auto 6.
Qed.

Lemma u_getitem_build {A} (u : unc A) it n d :
  (forall kv, In kv it -> snd kv <> Plain ItNone) ->
  getitem (normalize (u_nominal u)) (conv_dict it None) = Ok n ->
  getitem (normalize (u_distribution u)) (conv_dict it (Some 0)) = Ok d ->
  ~ In axis_distribution (dkeys (sshape n)) ->
  u_getitem u it = Ok (mkU (OpArr n) (OpArr d)).
Proof.
  intros H Hn Hd Hx. destruct (u_items_intro it H) as [items Hi]. unfold u_getitem. rewrite Hi. cbn [bind].
  destruct (u_items_ok it items Hi) as (E1 & E2 & E3). rewrite E1, E2, !getitem_filter, Hn. cbn [bind].
  rewrite Hd. cbn [bind]. now apply mk_unc_intro.
Qed.

Lemma op_at_normalize {A} (o : operand A) e : op_wf o -> inside e (op_shape o) -> at_ (normalize o) e = op_at o e.
Proof.
  intros W I. rewrite <- normalize_at. symmetry. apply bat_inside; [now apply normalize_wf|]. now rewrite normalize_shape.
Qed.

Lemma u_at_part {A} (u : unc A) w e : u_at (Uncertain u) w e = op_at (u_part u w) (in_world w e).
Proof. destruct w; reflexivity. Qed.

Lemma u_inside_part {A} (u : unc A) w e : u_inside u w e <-> inside (in_world w e) (op_shape (u_part u w)).
Proof. destruct w; reflexivity. Qed.

Lemma u_selects_conv n i w e ax p :
  selects n (option_map (fun i => conv i w) i) (in_world w e) ax p <-> u_selects n i w e ax p.
Proof.
  destruct i as [[i|u]|]; try reflexivity. cbn [option_map item_in u_selects selects]. now rewrite normalize_at, u_at_part.
Qed.

Theorem u_getitem_spec {A} (u : unc A) (it : dict uitem) r :
  u_wf u -> NoDup (dkeys it) -> Forall (fun kv => uitem_wf (snd kv)) it -> u_getitem u it = Ok r ->
  u_wf r /\
  forall w e, u_inside r w e -> exists w' e', u_inside u w' e' /\ u_at (Uncertain r) w e = u_at (Uncertain u) w' e' /\
    (forall ax n, In (ax, n) (op_shape (u_part u w)) -> ax <> axis_distribution ->
       u_selects n (dget it ax) w e ax (e' ax)) /\
    match w, w' with
    | None, None => True
    | Some k, Some k' => forall n, In (axis_distribution, n) (op_shape (u_distribution u)) ->
        u_selects n (dget it axis_distribution) (Some k) e axis_distribution k'
    | _, _ => False
    end.
Proof.
  intros W N F H. destruct (u_getitem_parts u it r H) as (n & d & -> & Hx & Hn & Hd & _).
  pose proof W as (Wn & Wd & Wx).
  assert (Gn := getitem_full (normalize (u_nominal u)) (conv_dict it None) n (normalize_wf _ Wn)
                  ltac:(now rewrite conv_keys) (conv_wf it None F) Hn).
  assert (Gd := getitem_full (normalize (u_distribution u)) (conv_dict it (Some 0)) d (normalize_wf _ Wd)
                  ltac:(now rewrite conv_keys) (conv_wf it (Some 0) F) Hd).
  destruct Gn as (Wn' & Vn & _). destruct Gd as (Wd' & Vd & _).
  split; [split; auto|].
  intros [k|] e I; cbn [u_inside u_distribution u_nominal op_shape] in I.
  - destruct (Vd _ I) as (e' & I' & V & S). rewrite normalize_shape in I', S.
    exists (Some (e' axis_distribution)), e'.
    assert (X : forall x, set_env e' axis_distribution (e' axis_distribution) x = e' x) by apply set_env_id.
    split. { cbn [u_inside]. intros ax m Hm. rewrite X. now apply I'. }
    split. { cbn [u_at u_distribution]. rewrite (op_at_respects _ _ _ X).
             rewrite <- (op_at_normalize (u_distribution u)), <- V by auto. cbn [op_at]. now apply bat_inside. }
    rewrite <- (conv_dict_some it k) in S.
    split. { intros ax m Hm _. apply u_selects_conv. rewrite <- conv_dget. now apply S. }
    intros m Hm. apply u_selects_conv. rewrite <- conv_dget. now apply S.
  - destruct (Vn _ I) as (e' & I' & V & S). rewrite normalize_shape in I', S.
    exists None, e'. split; auto. split. { cbn [u_at u_nominal]. rewrite <- (op_at_normalize (u_nominal u)), <- V by auto. now apply bat_inside. }
    split; auto. intros ax m Hm _. apply u_selects_conv. rewrite <- conv_dget. now apply S.
Qed.

Theorem u_getitem_success {A} (u : unc A) (it : dict uitem) :
  u_wf u -> NoDup (dkeys it) -> Forall (fun kv => uitem_wf (snd kv)) it ->
  ((exists r, u_getitem u it = Ok r) <->
   (forall ax, ~ In (ax, Plain ItNone) it) /\
   forall w, exists sa, broadcast_shapes (index_shapes (dkeys (op_shape (u_part u w))) (items_in it w)) = Ok sa /\
     (forall ax n, In (ax, n) (op_shape (u_part u w)) -> item_ok n (dget (items_in it w) ax)) /\
     (forall ax, In ax (dkeys sa) -> In ax (dkeys (op_shape (u_part u w))) -> keeps_axis (dget (items_in it w) ax) = false) /\
     (w = None -> ~ In axis_distribution (dkeys sa))).
Proof.
  intros W N F. pose proof W as (Wn & Wd & Wx).
  assert (PW : forall w, wf (normalize (u_part u w))) by (intros w; apply normalize_wf, part_wf; auto).
  assert (AX : forall w, s_axes (normalize (u_part u w)) = dkeys (op_shape (u_part u w))).
  { intros w. rewrite <- normalize_shape. symmetry. apply wf_keys, PW. }
  assert (G : forall w, (exists r, getitem (normalize (u_part u w)) (items_in it w) = Ok r) <->
     exists sa, broadcast_shapes (index_shapes (dkeys (op_shape (u_part u w))) (items_in it w)) = Ok sa /\
     (forall ax n, In (ax, n) (op_shape (u_part u w)) -> item_ok n (dget (items_in it w) ax)) /\
     (forall ax, In ax (dkeys sa) -> In ax (dkeys (op_shape (u_part u w))) -> keeps_axis (dget (items_in it w) ax) = false)).
  { intros w. rewrite <- AX, <- normalize_shape. apply getitem_success; [apply PW|rewrite conv_keys; exact N|apply conv_wf; exact F]. }
  assert (KN : forall n sa, getitem (normalize (u_nominal u)) (items_in it None) = Ok n ->
     broadcast_shapes (index_shapes (dkeys (op_shape (u_nominal u))) (items_in it None)) = Ok sa ->
     (In axis_distribution (dkeys (sshape n)) <-> In axis_distribution (dkeys sa))).
  { intros n sa E Es. destruct (getitem_full (normalize (u_part u None)) (items_in it None) n (PW None) (eq_ind_r (fun l => NoDup l) N (conv_keys it None)) (conv_wf it None F) E) as (Wr & _ & sa' & Es' & K & _).
    rewrite AX in Es', K. cbn [u_part] in *. rewrite Es in Es'. injection Es' as <-.
    rewrite (wf_keys n Wr), K, in_app_iff, filter_In. tauto. }
  split.
  - intros [r H]. destruct (u_getitem_parts u it r H) as (n & d & -> & Hx & Hn & Hd & Hi). split.
    { intros ax H'. exact (Hi _ H' eq_refl). }
    intros w. destruct (proj1 (G w)) as (sa & E1 & E2 & E3).
    { destruct w as [k|]; [rewrite conv_dict_some; eauto|eauto]. }
    exists sa. split; auto. split; auto. split; auto. intros ->. cbn [u_part] in *. now rewrite <- (KN n sa Hn E1).
  - intros [Hi Hw].
    assert (X : forall w, exists r, getitem (normalize (u_part u w)) (items_in it w) = Ok r).
    { intros w. apply G. destruct (Hw w) as (sa & E1 & E2 & E3 & _). eauto. }
    destruct (X None) as [n Hn]. destruct (X (Some 0)) as [d Hd]. cbn [u_part] in Hn, Hd.
    destruct (Hw None) as (sa & E1 & _ & _ & E4). cbn [u_part] in E1.
    eexists. apply u_getitem_build; eauto.
    + intros [k i] Hk E. cbn in E. subst i. exact (Hi k Hk).
    + rewrite (KN n sa Hn E1). auto.
Qed.

Lemma selects_exists n i e ax m : (forall v, i <> Some (ItArr v)) -> item_ok n i ->
  (keeps_axis i = true -> e ax < m /\
     match i with Some (ItSlice s) => forall j, j < m <-> exists p, slice_selects s n j p | _ => m = n end) ->
  exists p, p < n /\ selects n i e ax p.
Proof.
  intros NA OK K. destruct i as [[|z|z|s|v]|]; cbn [selects item_ok keeps_axis] in *.
  - destruct (K eq_refl) as [L ->]. eauto.
  - unfold index_is. unfold in_range in OK. destruct (Z.ltb_spec z 0).
    + exists (Z.to_nat (z + Z.of_nat n)). lia.
    + exists (Z.to_nat z). lia.
  - unfold index_is. unfold in_range in OK. destruct (Z.ltb_spec z 0).
    + exists (Z.to_nat (z + Z.of_nat n)). lia.
    + exists (Z.to_nat z). lia.
  - destruct (K eq_refl) as [L H]. apply H in L as [p Hp]. exists p. split; auto.
    apply (positions_lt s). apply positions_spec in Hp; auto. now apply nth_error_In in Hp.
  - exfalso. now apply (NA v).
  - destruct (K eq_refl) as [L ->]. eauto.
Qed.

Lemma selects_world n i w e ax p : (forall v, i <> Some (ItArr v)) -> ax <> axis_distribution ->
  (selects n i (in_world w e) ax p <-> selects n i e ax p).
Proof.
  intros NA X. destruct i as [[|z|z|s|v]|]; cbn [selects]; try reflexivity; try (now destruct (NA v));
    destruct w; cbn [in_world]; try reflexivity; rewrite set_env_other by auto; reflexivity.
Qed.

(** one position for every world *)
Theorem u_getitem_basic {A} (u : unc A) (it : dict item) :
  u_wf u -> NoDup (dkeys it) -> ~ In axis_distribution (dkeys it) ->
  (forall ax i, In (ax, i) it -> i <> ItNone /\ forall v, i <> ItArr v) ->
  (forall ax n m, In (ax, n) (op_shape (u_nominal u)) -> In (ax, m) (op_shape (u_distribution u)) -> n = m) ->
  (forall w ax n, In (ax, n) (op_shape (u_part u w)) -> item_ok n (dget it ax)) ->
  exists r, u_getitem u (map (fun kv => (fst kv, Plain (snd kv))) it) = Ok r /\ u_wf r /\
    (forall w ax n, In (ax, n) (op_shape (u_part u w)) -> keeps_axis (dget it ax) = true ->
       exists m, In (ax, m) (op_shape (u_part r w)) /\
         match dget it ax with Some (ItSlice s) => forall j, j < m <-> exists p, slice_selects s n j p | _ => m = n end) /\
    (forall w ax m, In (ax, m) (op_shape (u_part r w)) ->
       exists n, In (ax, n) (op_shape (u_part u w)) /\ keeps_axis (dget it ax) = true) /\
    forall e, (forall w ax m, In (ax, m) (op_shape (u_part r w)) -> ax <> axis_distribution -> e ax < m) ->
      exists e',
        (forall w ax n, In (ax, n) (op_shape (u_part u w)) -> ax <> axis_distribution ->
           e' ax < n /\ selects n (dget it ax) e ax (e' ax)) /\
        forall w, u_inside r w e -> u_inside u w e' /\ u_at (Uncertain r) w e = u_at (Uncertain u) w e'.
Proof.
  intros W N ND NA AG OK. pose proof W as (Wn & Wd & Wx).
  set (itu := map (fun kv : string * item => (fst kv, Plain (snd kv))) it).
  assert (C : forall w, conv_dict itu w = it).
  { intros w. unfold items_in, itu. rewrite map_map. cbn [fst snd item_in]. rewrite <- (map_id it) at 2. apply map_ext. now intros []. }
  assert (NA' : forall ax v, dget it ax <> Some (ItArr v)).
  { intros ax v E. apply dget_In in E. now destruct (NA ax _ E) as [_ X]; apply (X v). }
  assert (OKn : forall ax n, In (ax, n) (sshape (normalize (u_nominal u))) -> item_ok n (dget it ax)).
  { intros ax n Hn. rewrite normalize_shape in Hn. exact (OK None ax n Hn). }
  assert (OKd : forall ax n, In (ax, n) (sshape (normalize (u_distribution u))) -> item_ok n (dget it ax)).
  { intros ax n Hn. rewrite normalize_shape in Hn. exact (OK (Some 0) ax n Hn). }
  destruct (basic_getitem (normalize (u_nominal u)) it (normalize_wf _ Wn) N NA' OKn) as (n & En & Wn' & Sn & Kn & Vn).
  destruct (basic_getitem (normalize (u_distribution u)) it (normalize_wf _ Wd) N NA' OKd) as (d & Ed & Wd' & Sd & Kd & Vd).
  rewrite normalize_shape in Sn, Kn, Vn, Sd, Kd, Vd.
  assert (X : ~ In axis_distribution (dkeys (sshape n))).
  { intros H. apply key_size in H as [m Hm]. destruct (Kn _ _ Hm) as (m' & Hm' & _). apply Wx. now apply (in_map fst) in Hm'. }
  assert (B : u_getitem u itu = Ok (mkU (OpArr n) (OpArr d))).
  { apply u_getitem_build; rewrite ?C; auto. intros [k i] Hk. apply in_map_iff in Hk as ([k' i'] & E & Hk).
    cbn [fst snd] in E |- *. injection E as <- <-. intros E. injection E as ->. now destruct (NA _ _ Hk). }
  exists (mkU (OpArr n) (OpArr d)). split; [exact B|]. split; [split; auto|].
  split; [intros [k|] ax m; [apply Sd|apply Sn]|]. split; [intros [k|] ax m; [apply Kd|apply Kn]|].
  intros e I.
  assert (P : forall w ax m, In (ax, m) (op_shape (u_part u w)) -> ax <> axis_distribution ->
                exists p, p < m /\ selects m (dget it ax) e ax p).
  { intros w ax m Hm Hax.
    destruct (keeps_axis (dget it ax)) eqn:K.
    - assert (exists m', In (ax, m') (op_shape (u_part (mkU (OpArr n) (OpArr d)) w)) /\
         match dget it ax with Some (ItSlice s) => forall j, j < m' <-> exists p, slice_selects s m j p | _ => m' = m end) as (m' & Hm' & SZ).
      { destruct w; [apply Sd|apply Sn]; auto. }
      apply (selects_exists m (dget it ax) e ax m'); [apply NA'|exact (OK w ax m Hm)|].
      intros _. split; auto. exact (I w ax m' Hm' Hax).
    - apply (selects_exists m (dget it ax) e ax 0); [apply NA'|exact (OK w ax m Hm)|]. rewrite K. discriminate. }
  destruct (finite_choice (fun ax m p => ax <> axis_distribution -> p < m /\ selects m (dget it ax) e ax p) (op_shape (u_nominal u)))
    as [e1 H1]. { now apply op_shape_NoDup. }
  { intros ax m Hm. destruct (String.eqb_spec ax axis_distribution) as [E|NE]; [exists 0; congruence|].
    destruct (P None ax m Hm NE) as [p Hp]; eauto. }
  destruct (finite_choice (fun ax m p => ax <> axis_distribution -> p < m /\ selects m (dget it ax) e ax p) (op_shape (u_distribution u)))
    as [e2 H2]. { now apply op_shape_NoDup. }
  { intros ax m Hm. destruct (String.eqb_spec ax axis_distribution) as [E|NE]; [exists 0; congruence|].
    destruct (P (Some 0) ax m Hm NE) as [p Hp]; eauto. }
  set (e' := fun ax => if smem ax (dkeys (op_shape (u_nominal u))) then e1 ax else e2 ax).
  assert (S' : forall w ax m, In (ax, m) (op_shape (u_part u w)) -> ax <> axis_distribution ->
                 e' ax < m /\ selects m (dget it ax) e ax (e' ax)).
  { intros w ax m Hm Hax. unfold e'. destruct (smem ax (dkeys (op_shape (u_nominal u)))) eqn:E.
    - apply smem_In in E. apply key_size in E as [m' Hm'].
      assert (m = m') as ->. { destruct w; [symmetry; eapply AG; eauto|].
        assert (NN := op_shape_NoDup _ Wn). apply (dget_NoDup _ _ _ NN) in Hm. apply (dget_NoDup _ _ _ NN) in Hm'. cbn [u_part] in Hm. congruence. }
      now apply H1.
    - destruct w; [now apply H2|]. apply smem_false in E. destruct E. now apply (in_map fst) in Hm. }
  exists e'. split; [exact S'|].
  intros w J. destruct w as [k|].
  - cbn [u_inside u_distribution op_shape] in J. destruct (Vd _ J) as (e2' & I2 & V2 & S2).
    assert (EQ : forall ax m, In (ax, m) (op_shape (u_distribution u)) -> e2' ax = set_env e' axis_distribution k ax).
    { intros ax m Hm. specialize (S2 ax m Hm). destruct (String.eqb_spec ax axis_distribution) as [->|NE].
      - assert (dget it axis_distribution = None) as E by (now apply dget_None). rewrite E in S2. cbn [selects] in S2.
        rewrite S2. unfold set_env. now rewrite !String.eqb_refl.
      - rewrite (set_env_other e') by auto. apply (selects_fun m (dget it ax) e ax); [|now apply (S' (Some k))].
        apply (selects_world m (dget it ax) (Some k) e ax (e2' ax) (NA' ax) NE). exact S2. }
    assert (I3 : inside (set_env e' axis_distribution k) (op_shape (u_distribution u))).
    { intros ax m Hm. rewrite <- (EQ ax m Hm). now apply I2. }
    split; [exact I3|]. cbn [u_at u_distribution op_at]. rewrite bat_inside, V2 by auto.
    rewrite <- (op_at_normalize (u_distribution u)) by auto. apply at_ext. intros ax Hax.
    rewrite <- (wf_keys _ (normalize_wf _ Wd)) in Hax. rewrite normalize_shape in Hax. apply key_size in Hax as [m Hm]. eauto.
  - cbn [u_inside u_nominal op_shape] in J. destruct (Vn _ J) as (e2' & I2 & V2 & S2).
    assert (EQ : forall ax m, In (ax, m) (op_shape (u_nominal u)) -> e2' ax = e' ax).
    { intros ax m Hm. specialize (S2 ax m Hm). apply (selects_fun m (dget it ax) e ax); auto.
      apply (S' None ax m Hm). intros ->. apply Wx. now apply (in_map fst) in Hm. }
    assert (I3 : inside e' (op_shape (u_nominal u))).
    { intros ax m Hm. rewrite <- (EQ ax m Hm). now apply I2. }
    split; [exact I3|]. cbn [u_at u_nominal op_at]. rewrite bat_inside, V2 by auto.
    rewrite <- (op_at_normalize (u_nominal u)) by auto. apply at_ext. intros ax Hax.
    rewrite <- (wf_keys _ (normalize_wf _ Wn)) in Hax. rewrite normalize_shape in Hax. apply key_size in Hax as [m Hm]. eauto.
Qed.

(** ** Broadcasting and reductions *)

Lemma op_fits_broadcast {A} (l : list (operand A)) sh o : Forall op_wf l -> broadcast_shapes (op_shapes l) = Ok sh -> In o l ->
  fits_in (op_shape o) sh.
Proof.
  intros W E Ho ax n Hn. apply (broadcast_fits (op_shapes l) sh (op_shape o)); auto; [now apply op_shapes_nodup|].
  apply (op_shapes_in l o ax Ho). now apply (in_map fst) in Hn.
Qed.

Lemma in_ddel {V} (d : dict V) k ax v : NoDup (dkeys d) -> (In (ax, v) (ddel d k) <-> In (ax, v) d /\ ax <> k).
Proof.
  intros N. assert (N' : NoDup (dkeys (ddel d k))). { rewrite dkeys_ddel by auto. now apply NoDup_filter. }
  split.
  - intros H. apply (dget_NoDup _ _ _ N') in H. rewrite dget_ddel in H by auto.
    destruct (String.eqb_spec ax k); [discriminate|]. split; auto. now apply dget_In.
  - intros [H X]. apply dget_In. rewrite dget_ddel by auto. destruct (String.eqb_spec ax k); [contradiction|]. now apply dget_NoDup.
Qed.

Lemma entry_eq (d : shape) ax n m : NoDup (dkeys d) -> In (ax, n) d -> In (ax, m) d -> n = m.
Proof. intros N H H'. apply (dget_NoDup _ _ _ N) in H, H'. congruence. Qed.

Lemma broadcast_within (sh sd : shape) : NoDup (dkeys sh) -> NoDup (dkeys sd) -> incl sh sd ->
  exists sd', broadcast_shapes [sh; sd] = Ok sd' /\ NoDup (dkeys sd') /\ same_shape sd' sd /\
    exists rest, dkeys sd' = dkeys sh ++ rest /\ forall ax, In ax rest -> ~ In ax (dkeys sh).
Proof.
  intros N1 N2 I. assert (F : Forall (fun s => NoDup (dkeys s)) [sh; sd]) by (repeat constructor; auto).
  destruct (fits_broadcast [sh; sd] sd F N2) as (sd' & E & Ft).
  { intros s [<-|[<-|[]]] ax n Hn; exists n; auto. }
  exists sd'. split; auto. destruct (broadcast_shapes_ok _ _ F E) as (N & K & _). split; auto. split.
  - assert (X : incl sd' sd).
    { intros [ax n] Hn. destruct (broadcast_attained _ _ ax n F E Hn) as (s & [<-|[<-|[]]] & Hs); auto. }
    intros ax n. split; [apply X|]. intros Hn.
    destruct (broadcast_covers _ _ sd ax n F E (or_intror (or_introl eq_refl)) Hn) as [H _].
    apply key_size in H as [m Hm]. rewrite (entry_eq sd ax n m); auto.
  - cbn [map concat] in K. rewrite app_nil_r, ReorderFacts.first_appearance_app, first_appearance_nodup in K by auto.
    rewrite K. eexists. split; [reflexivity|]. intros ax H. apply filter_In in H as [_ H]. intros H'.
    apply smem_In in H'. now rewrite H' in H.
Qed.

Lemma u_shape_ok {A} (u : unc A) sh : u_wf u -> u_shape u = Ok sh ->
  exists sd, u_shape_distribution u = Ok sd /\ NoDup (dkeys sd) /\ NoDup (dkeys sh) /\
    (forall ax n, In (ax, n) sh <-> In (ax, n) sd /\ ax <> axis_distribution) /\
    fits_in (op_shape (u_nominal u)) sd /\ fits_in (op_shape (u_distribution u)) sd /\
    forall ax n, In (ax, n) sd -> In (ax, n) (op_shape (u_nominal u)) \/ In (ax, n) (op_shape (u_distribution u)).
Proof.
  intros (Wn & Wd & Wx) H. unfold u_shape in H. apply bind_ok in H as (sd & E & H). injection H as <-.
  exists sd. split; auto. unfold u_shape_distribution, shape_broadcasted in E.
  assert (F : Forall op_wf [u_nominal u; u_distribution u]) by (repeat (constructor; auto)).
  destruct (broadcast_shapes_ok _ _ (op_shapes_nodup _ F) E) as (N & _ & _). split; auto.
  split. { rewrite dkeys_ddel by auto. now apply NoDup_filter. }
  split. { intros ax n. now apply in_ddel. }
  split; [apply (op_fits_broadcast _ _ _ F E); simpl; auto|]. split; [apply (op_fits_broadcast _ _ _ F E); simpl; auto|].
  intros ax n Hn. destruct (broadcast_attained _ _ ax n (op_shapes_nodup _ F) E Hn) as (s & Hs & Hn').
  unfold op_shapes in Hs. apply in_flat_map in Hs as (o & Ho & Hs).
  assert (s = op_shape o) as ->. { destruct o; simpl in Hs; [|contradiction]. now destruct Hs as [<-|[]]. }
  destruct Ho as [<-|[<-|[]]]; auto.
Qed.

Lemma bat_op {A} (o : operand A) e : bat (normalize o) e = op_at o e.
Proof. apply normalize_at. Qed.

Lemma broadcast_normalized {A} (o : operand A) (sh : shape) : op_wf o -> NoDup (dkeys sh) -> fits_in (op_shape o) sh ->
  exists r, na_broadcast_to (normalize o) sh false = Ok r /\ wf r /\ sshape r = sh /\ forall e, at_ r e = op_at o e.
Proof.
  intros W N F. assert (W' := normalize_wf _ W).
  destruct (na_broadcast_to_intro (normalize o) sh W' N) as [r E].
  - intros ax H. rewrite <- wf_keys, normalize_shape in H by auto. apply key_size in H as [n Hn].
    destruct (F ax n Hn) as (m & Hm & _). now apply (in_map fst) in Hm.
  - intros ax n Hn. apply dget_In in Hn. rewrite normalize_shape in Hn. destruct (F ax n Hn) as (m & Hm & [->| ->]); auto.
  - exists r. split; auto. destruct (na_broadcast_to_ok _ _ _ W' N E) as (_ & _ & Wr & S & V). split; auto. split; auto.
    intros e. now rewrite V, normalize_at.
Qed.

Lemma u_broadcasted_spec {A} (u : unc A) sh : u_wf u -> u_shape u = Ok sh ->
  NoDup (dkeys sh) /\ ~ In axis_distribution (dkeys sh) /\
  exists nb db, u_broadcasted u = Ok (mkU (OpArr nb) (OpArr db)) /\ wf nb /\ wf db /\ sshape nb = sh /\
    (forall e, at_ nb e = op_at (u_nominal u) e) /\ (forall e, at_ db e = op_at (u_distribution u) e) /\
    (exists rest, dkeys (sshape db) = dkeys sh ++ rest /\ forall ax, In ax rest -> ax = axis_distribution) /\
    (forall ax n, In (ax, n) (sshape db) <->
       In (ax, n) sh \/ (ax = axis_distribution /\ In (ax, n) (op_shape (u_distribution u)))).
Proof.
  intros W H. pose proof W as (Wn & Wd & Wx).
  destruct (u_shape_ok u sh W H) as (sd & E & Nd & Ns & P & Fn & Fd & At).
  assert (X : ~ In axis_distribution (dkeys sh)).
  { intros K. apply key_size in K as [n K]. apply P in K as [_ K]. now apply K. }
  split; auto. split; auto.
  destruct (broadcast_within sh sd Ns Nd) as (sd' & E' & N' & SS & rest & K & Kr).
  { intros [ax n] Hn. now apply P. }
  destruct (broadcast_normalized (u_nominal u) sh Wn Ns) as (nb & En & Wnb & Sn & Vn).
  { intros ax n Hn. destruct (Fn ax n Hn) as (m & Hm & D). exists m. split; auto. apply P. split; auto.
    intros ->. apply Wx. now apply (in_map fst) in Hn. }
  destruct (broadcast_normalized (u_distribution u) sd' Wd N') as (db & Ed & Wdb & Sd & Vd).
  { intros ax n Hn. destruct (Fd ax n Hn) as (m & Hm & D). exists m. split; auto. now apply SS. }
  exists nb, db. split.
  { unfold u_broadcasted. rewrite H. cbn [bind]. unfold u_broadcast_to. rewrite E. cbn [bind]. rewrite E'. cbn [bind].
    rewrite En. cbn [bind]. rewrite Ed. cbn [bind]. apply mk_unc_intro. cbn [op_shape]. now rewrite Sn. }
  do 5 (split; auto). rewrite Sd.
  assert (MEM : forall ax n, In (ax, n) sd' <-> In (ax, n) sh \/ (ax = axis_distribution /\ In (ax, n) (op_shape (u_distribution u)))).
  { intros ax n. rewrite (SS ax n), P. split.
    - intros Hn. destruct (String.eqb_spec ax axis_distribution) as [->|NE]; auto. right. split; auto.
      destruct (At _ _ Hn) as [B|B]; auto. destruct Wx. now apply (in_map fst) in B.
    - intros [[B _]|[-> B]]; auto. destruct (Fd _ _ B) as (m & Hm & D). destruct (At _ _ Hm) as [C|C].
      + destruct Wx. now apply (in_map fst) in C.
      + now rewrite (entry_eq _ _ _ _ (op_shape_NoDup _ Wd) B C). }
  split; [|exact MEM]. exists rest. split; auto. intros ax Hax.
  assert (In ax (dkeys sd')) by (rewrite K; apply in_or_app; auto). apply key_size in H0 as [n Hn].
  apply MEM in Hn as [Hn|[-> _]]; auto. destruct (Kr ax Hax). now apply (in_map fst) in Hn.
Qed.

Lemma map_fibre_world {B} (sh : shape) (S : list string) k (g : env -> B) e :
  respects g -> ~ In axis_distribution S ->
  map g (fibre sh S (set_env e axis_distribution k)) = map (fun e' => g (set_env e' axis_distribution k)) (fibre sh S e).
Proof.
  intros G. revert e. 
  assert (EXT : forall S (e1 e2 : env) (g : env -> B), respects g -> (forall x, e1 x = e2 x) -> map g (fibre sh S e1) = map g (fibre sh S e2)).
  { clear. induction S as [|ax S IH]; intros e1 e2 g G E; cbn [fibre map]; [now rewrite (G e1 e2 E)|].
    rewrite !flat_map_concat_map, !concat_map, !map_map. f_equal. apply map_ext. intros i. apply IH; auto.
    intros x. unfold set_env. destruct (String.eqb x ax); auto. }
  induction S as [|ax S IH]; intros e H; [reflexivity|]. cbn [fibre].
  rewrite !flat_map_concat_map, !concat_map, !map_map. f_equal. apply map_ext. intros i.
  rewrite <- IH by (intros X; apply H; now right). apply EXT; auto.
  intros x. unfold set_env. destruct (String.eqb_spec x ax) as [->|]; auto.
  destruct (String.eqb_spec ax axis_distribution) as [->|]; auto. destruct H. now left.
Qed.

Lemma filter_axes_app (S L R : list string) : (forall ax, In ax R -> ~ In ax S) ->
  filter (fun ax => smem ax S) (L ++ R) = filter (fun ax => smem ax S) L.
Proof.
  intros H. rewrite filter_app. replace (filter (fun ax => smem ax S) R) with (@nil string); [apply app_nil_r|].
  symmetry. clear L. induction R as [|r R IH]; auto. cbn [filter].
  rewrite (proj2 (smem_false r S)) by (apply H; now left). apply IH. intros; apply H; now right.
Qed.

Lemma filter_axes_set (S T L : list string) : (forall ax, In ax L -> (In ax S <-> In ax T)) ->
  filter (fun ax => smem ax S) L = filter (fun ax => smem ax T) L.
Proof.
  intros H. apply filter_ext_in. intros ax Hax. specialize (H ax Hax).
  destruct (smem ax S) eqn:E1, (smem ax T) eqn:E2; auto.
  - apply smem_In in E1. apply smem_false in E2. tauto.
  - apply smem_In in E2. apply smem_false in E1. tauto.
Qed.

Lemma total_size_ext (s t : shape) l : (forall ax, In ax l -> dget s ax = dget t ax) -> total_size s l = total_size t l.
Proof.
  induction l as [|a l IH]; intros H; auto. unfold total_size in *. cbn [fold_right]. rewrite (H a) by now left.
  rewrite IH by (intros; apply H; now right). reflexivity.
Qed.

Theorem u_reduce_spec {A B} (identity : bool) (f : list A -> B) (u : unc A) (axis : option (list string)) (keepdims : bool) sh :
  u_wf u -> u_shape u = Ok sh ->
  let S := match axis with Some l => l | None => dkeys sh end in
  NoDup S -> incl S (dkeys sh) -> identity = true \/ total_size sh S <> 0 ->
  exists r, u_reduce identity f u axis keepdims None = Ok r /\ u_wf r /\
    (forall ax n, In (ax, n) (op_shape (u_nominal r)) <->
       In ax (dkeys sh) /\ (keepdims = true \/ ~ In ax S) /\ n = if smem ax S then 1 else size_of sh ax) /\
    (forall ax n, In (ax, n) (op_shape (u_distribution r)) <->
       In (ax, n) (op_shape (u_nominal r)) \/ (ax = axis_distribution /\ In (ax, n) (op_shape (u_distribution u)))) /\
    forall w e, u_inside r w e ->
      u_at (Uncertain r) w e = f (map (u_at (Uncertain u) w) (fibre sh (filter (fun ax => smem ax S) (dkeys sh)) e)).
Proof.
  intros W H S NS IS OK. pose proof W as (Wn & Wd & Wx).
  destruct (u_broadcasted_spec u sh W H) as (Ns & X & nb & db & Eb & Wnb & Wdb & Sn & Vn & Vd & (rest & K & Kr) & MEM).
  set (u' := mkU (OpArr nb) (OpArr db)) in *.
  assert (Nd : NoDup (dkeys (sshape db))) by (now apply (op_shape_NoDup (OpArr db))).
  (* the shape of the broadcasted array *)
  destruct (broadcast_within sh (sshape db) Ns Nd) as (sd' & E' & N' & SS & _). { intros [ax n] Hn. apply MEM. auto. }
  assert (Hu : u_shape u' = Ok (ddel sd' axis_distribution)).
  { unfold u_shape, u_shape_distribution, shape_broadcasted, op_shapes. cbn [flat_map app u' u_nominal u_distribution].
    rewrite Sn, E'. reflexivity. }
  assert (MEM' : forall ax n, In (ax, n) (ddel sd' axis_distribution) <-> In (ax, n) sh).
  { intros ax n. rewrite in_ddel by auto. rewrite (SS ax n), MEM. split; [tauto|]. intros Hn. split; auto.
    intros ->. apply X. now apply (in_map fst) in Hn. }
  assert (ND' : NoDup (dkeys (ddel sd' axis_distribution))). { rewrite dkeys_ddel by auto. now apply NoDup_filter. }
  set (T := match axis with Some l => l | None => dkeys (ddel sd' axis_distribution) end).
  assert (ST : forall ax, In ax S <-> In ax T).
  { intros ax. unfold S, T. destruct axis; [reflexivity|].
    split; intros B0; apply key_size in B0 as [n Hn]; apply MEM' in Hn || apply <- MEM' in Hn; now apply (in_map fst) in Hn. }
  assert (NT : NoDup T) by (unfold T; destruct axis; auto).
  assert (PT : Permutation S T) by (apply NoDup_Permutation; auto).
  assert (IT : incl T (dkeys sh)) by (intros ax Hax; apply IS; now apply ST).
  assert (OKT : identity = true \/ total_size sh T <> 0).
  { destruct OK as [OK|OK]; auto. right. now rewrite <- (total_size_perm sh S T PT). }
  assert (FN : broadcast_shapes [sshape nb] = Ok sh) by (rewrite Sn; now apply broadcast_one).
  assert (FD : broadcast_shapes [sshape db] = Ok (sshape db)) by (now apply broadcast_one).
  assert (GT : forall ax, In ax T -> dget (sshape db) ax = dget sh ax).
  { intros ax Hax. apply IT in Hax. apply key_size in Hax as [n Hn].
    rewrite (dget_NoDup _ _ _ Ns Hn). apply dget_NoDup; auto. apply MEM. auto. }
  (* the two reductions *)
  assert (Rn := reduce_spec identity f nb (Some T) keepdims None Wnb ltac:(discriminate)). cbv zeta in Rn. cbn beta iota in Rn.
  rewrite FN in Rn. destruct Rn as [Rn _]. destruct Rn as (n & En & Wn' & An & Zn & Vn').
  { split; auto. split; auto. split; [discriminate|]. tauto. }
  assert (Rd := reduce_spec identity f db (Some T) keepdims None Wdb ltac:(discriminate)). cbv zeta in Rd. cbn beta iota in Rd.
  rewrite FD in Rd. destruct Rd as [Rd _]. destruct Rd as (d & Ed & Wd' & Ad & Zd & Vd').
  { split; auto. split; [rewrite K; now apply incl_appl|]. split; [discriminate|].
    rewrite (total_size_ext (sshape db) sh) by exact GT. tauto. }
  assert (SN : forall ax m, In (ax, m) (sshape n) <->
       In ax (dkeys sh) /\ (keepdims = true \/ ~ In ax S) /\ m = if smem ax S then 1 else size_of sh ax).
  { intros ax m. rewrite Zn, An, Sn. replace (smem ax S) with (smem ax T).
    2: { destruct (smem ax S) eqn:E1, (smem ax T) eqn:E2; auto.
         - apply smem_In in E1. apply smem_false in E2. apply ST in E1. contradiction.
         - apply smem_In in E2. apply smem_false in E1. apply ST in E2. contradiction. }
    rewrite (ST ax). destruct keepdims; [intuition|]. rewrite filter_In, negb_true_iff, smem_false. intuition discriminate. }
  assert (XN : ~ In axis_distribution (dkeys (sshape n))).
  { intros B0. apply key_size in B0 as [m Hm]. apply SN in Hm as [Hm _]. contradiction. }
  exists (mkU (OpArr n) (OpArr d)). split.
  { unfold u_reduce. rewrite Eb. cbn [bind]. rewrite Hu. cbn [bind]. fold T. cbn [u' u_nominal u_distribution normalize option_map].
    rewrite En. cbn [bind]. rewrite Ed. cbn [bind]. now apply mk_unc_intro. }
  split; [split; auto|]. split; [exact SN|]. cbn [u_distribution u_nominal op_shape].
  assert (XT : ~ In axis_distribution T) by (intros B0; apply X; now apply IT).
  split.
  { intros ax m. rewrite SN, Zd, Ad.
    assert (Q : In ax (if keepdims then dkeys (sshape db) else filter (fun x => negb (smem x T)) (dkeys (sshape db))) <->
                In ax (dkeys (sshape db)) /\ (keepdims = true \/ ~ In ax T)).
    { destruct keepdims; [intuition|]. rewrite filter_In, negb_true_iff, smem_false. intuition discriminate. }
    rewrite Q. clear Q. replace (smem ax S) with (smem ax T).
    2: { destruct (smem ax S) eqn:E1, (smem ax T) eqn:E2; auto.
         - apply smem_In in E1. apply smem_false in E2. apply ST in E1. contradiction.
         - apply smem_In in E2. apply smem_false in E1. apply ST in E2. contradiction. }
    rewrite (ST ax). split.
    - intros ((Hax & Hk) & ->). apply key_size in Hax as [q Hq]. rewrite (size_of_In _ _ _ Nd Hq).
      apply MEM in Hq as [Hq|[-> Hq]].
      + left. rewrite (size_of_In _ _ _ Ns Hq). split; [now apply (in_map fst) in Hq|]. auto.
      + right. split; auto. rewrite (proj2 (smem_false _ _) XT). exact Hq.
    - intros [(Hax & Hk & ->)|(-> & Hq)].
      + apply key_size in Hax as [q Hq]. rewrite (size_of_In _ _ _ Ns Hq).
        assert (Hq' : In (ax, q) (sshape db)) by (apply MEM; auto). rewrite (size_of_In _ _ _ Nd Hq').
        split; auto. split; auto. now apply (in_map fst) in Hq'.
      + assert (Hq' : In (axis_distribution, m) (sshape db)) by (apply MEM; auto).
        rewrite (proj2 (smem_false _ _) XT), (size_of_In _ _ _ Nd Hq').
        split; auto. split; auto. now apply (in_map fst) in Hq'. }
  assert (FS : filter (fun ax => smem ax T) (dkeys sh) = filter (fun ax => smem ax S) (dkeys sh)).
  { apply filter_axes_set. intros ax _. symmetry. apply ST. }
  assert (FS' : filter (fun ax => smem ax T) (dkeys (sshape db)) = filter (fun ax => smem ax S) (dkeys sh)).
  { rewrite K, filter_axes_app, FS; auto. intros ax Hax. rewrite (Kr ax Hax). exact XT. }
  assert (TR : forall l : list env, filter (fun _ => true) l = l).
  { intros l. induction l; cbn; congruence. }
  intros [k|] e I; cbn [u_inside u_distribution u_nominal op_shape] in I; cbn [u_at u_distribution u_nominal op_at].
  - rewrite bat_inside, Vd', TR, FS' by auto. f_equal.
    rewrite (fibre_ext (sshape db) sh).
    2: { intros ax Hax. apply filter_In in Hax as [_ Hax]. apply smem_In in Hax. apply ST, GT in Hax. unfold size_of. now rewrite Hax. }
    rewrite (map_ext (at_ db) (op_at (u_distribution u)) Vd).
    apply map_fibre_world; [apply op_at_respects|].
    intros B0. apply filter_In in B0 as [_ B0]. apply smem_In in B0. apply ST in B0. contradiction.
  - rewrite bat_inside, Vn', TR, FS by auto. f_equal. rewrite Sn. now rewrite (map_ext (at_ nb) (op_at (u_nominal u)) Vn).
Qed.
