(** Facts about sorting vectors. *)
From Coq Require Import String List Arith ZArith Bool Lia.
From Verif Require Import Base Numpy Shapes Scalar Reorder Elementwise Reduce Along Sorting Vector VectorSort Spec SpecVector SpecMatrix SpecVectorReduce
  BaseFacts NumpyFacts ShapesFacts AlignFacts ReorderFacts GetitemFacts ElementwiseFacts ReduceFacts SortingFacts VectorFacts VectorIndexFacts
  MatrixFacts FuncOpsFacts VectorReduceFacts VectorAxesFacts VectorAlongFacts QuantileFacts.
Import ListNotations.
Open Scope nat_scope.
Open Scope list_scope.

(** ** The index arrays of one array *)

Lemma argsort_wf {A} (argsort1 : list A -> list nat) (a : sarr A) l d ax v :
  wf a -> incl l (s_axes a) -> NoDup l -> na_argsort argsort1 a (Some l) = Ok d -> dget d ax = Some v -> wf v.
Proof.
  intros W I N H G. unfold na_argsort in H. destruct (negb _); [discriminate|].
  apply bind_ok in H. destruct H as (name & _ & H). apply bind_ok in H. destruct H as (c & _ & H).
  apply bind_ok in H. destruct H as (p & _ & H). apply bind_ok in H. destruct H as (ind & Hi & H).
  apply bind_ok in H. destruct H as (u & Hu & H). injection H as <-. apply mk_sarr_ok in Hi. destruct Hi as (_ & Wi).
  rewrite (subshape_keys a l W I) in Hu.
  assert (Nk : NoDup (dkeys (map (fun ax => (ax, asize a ax)) l))) by (unfold dkeys; rewrite map_map, map_id; exact N).
  destruct (unravel_index_spec ind _ u Wi Nk Hu) as (Ku & Vu & _).
  rewrite add_ranges_eq in G; [|now apply wf_nodup|intros; congruence].
  rewrite dget_app in G. destruct (dget u ax) as [w|] eqn:E; [injection G as <-; exact (proj1 (Vu ax w E))|].
  apply dget_In, in_map_iff in G. destruct G as ([k n] & [= _ <-] & _). apply arange_wf.
Qed.

Lemma index_shapes_In axes it s : NoDup (dkeys it) -> (In s (index_shapes axes it) <-> exists ax v, In ax axes /\ dget it ax = Some (ItArr v) /\ s = sshape v).
Proof.
  intros N. unfold index_shapes. rewrite in_flat_map. split.
  - intros ([ax i] & Hi & Hs). cbn [fst snd] in Hs. destruct i as [| | | |v]; try contradiction. destruct (smem ax axes) eqn:E; [|destruct Hs].
    destruct Hs as [<- |[]]. exists ax, v. split; [now apply smem_In|]. split; [now apply dget_NoDup|reflexivity].
  - intros (ax & v & Ha & Hv & ->). exists (ax, ItArr v). split; [now apply dget_In|]. cbn [fst snd]. rewrite (proj2 (smem_In _ _) Ha). now left.
Qed.

Lemma index_shapes_NoDup axes it : NoDup (dkeys it) -> Forall (fun kv => item_wf (snd kv)) it -> Forall (fun s => NoDup (dkeys s)) (index_shapes axes it).
Proof.
  intros N F. apply Forall_forall. intros s Hs. apply index_shapes_In in Hs; [|exact N]. destruct Hs as (ax & v & _ & Hv & ->).
  apply wf_nodup. rewrite Forall_forall in F. exact (F _ (dget_In _ _ _ Hv)).
Qed.

Lemma index_is_det n z p q : index_is n z p -> index_is n z q -> p = q.
Proof. unfold index_is. intros. lia. Qed.

(** indexing an array in place of the array it was broadcast to *)
Lemma getitem_narrow {A} (a b : sarr A) (it itb : dict item) rb :
  wf a -> wf b -> (forall e, bat b e = bat a e) -> (forall ax n, In (ax, n) (sshape a) -> In (ax, n) (sshape b)) ->
  NoDup (dkeys it) -> NoDup (dkeys itb) -> Forall (fun kv => item_wf (snd kv)) it -> Forall (fun kv => item_wf (snd kv)) itb ->
  (forall ax, In ax (s_axes b) -> exists v, dget itb ax = Some (ItArr v)) ->
  (forall ax, In ax (s_axes a) -> dget it ax = dget itb ax) ->
  getitem b itb = Ok rb ->
  exists r, getitem a it = Ok r /\ wf r /\ forall e, inside e (sshape rb) -> bat r e = at_ rb e.
Proof.
  intros Wa Wb V SS N Nb F Fb Arr Ag G.
  assert (Sub : forall ax, In ax (s_axes a) -> In ax (s_axes b)).
  { intros ax H. rewrite <- (wf_keys a Wa) in H. apply in_map_iff in H. destruct H as ([k n] & <- & H). rewrite <- (wf_keys b Wb).
    exact (in_map fst _ _ (SS k n H)). }
  destruct (getitem_full b itb rb Wb Nb Fb G) as (Wrb & Vb & sb & Esb & Axb & Sb & _).
  destruct (proj1 (getitem_success b itb Wb Nb Fb) (ex_intro _ rb G)) as (sb' & Esb' & Okb & _).
  assert (sb' = sb) by congruence. subst sb'.
  assert (NDa := index_shapes_NoDup (s_axes a) it N F). assert (NDb := index_shapes_NoDup (s_axes b) itb Nb Fb).
  assert (Ns : NoDup (dkeys sb)) by exact (broadcast_NoDup _ _ NDb Esb).
  assert (Fit : forall s, In s (index_shapes (s_axes a) it) -> fits_in s sb).
  { intros s Hs. apply (OptimizeFacts.broadcast_fits _ _ _ NDb Esb). apply index_shapes_In in Hs; [|exact N].
    destruct Hs as (ax & v & Ha & Hv & ->). apply index_shapes_In; [exact Nb|]. exists ax, v. rewrite Ag in Hv by exact Ha. auto. }
  destruct (PdfFacts.fits_broadcast _ sb NDa Ns Fit) as (sa & Esa & Fsa).
  destruct (proj2 (getitem_success a it Wa N F)) as (r & Er).
  { exists sa. split; [exact Esa|]. split.
    - intros ax n H. assert (Ha : In ax (s_axes a)) by (rewrite <- (wf_keys a Wa); exact (in_map fst _ _ H)). rewrite (Ag ax Ha). exact (Okb ax n (SS ax n H)).
    - intros ax _ Ha. rewrite (Ag ax Ha). destruct (Arr ax (Sub ax Ha)) as (v & ->). reflexivity. }
  exists r. split; [exact Er|]. destruct (getitem_full a it r Wa N F Er) as (Wr & Va & sa' & Esa' & Axa & Sa & _).
  assert (sa' = sa) by congruence. subst sa'. split; [exact Wr|]. intros e He.
  assert (Kr : forall ax n, In (ax, n) (sshape r) -> In (ax, n) sa).
  { intros ax n H. assert (Hk : In ax (s_axes r)) by (rewrite <- (wf_keys r Wr); exact (in_map fst _ _ H)).
    rewrite Axa in Hk. apply in_app_iff in Hk. destruct Hk as [Hk|Hk].
    - apply in_map_iff in Hk. destruct Hk as ([k m] & <- & Hm). cbn [fst] in *. assert (Hm' := Sa k m Hm).
      assert (X := dget_NoDup _ _ _ (wf_nodup r Wr) Hm'). rewrite (dget_NoDup _ _ _ (wf_nodup r Wr) H) in X. congruence.
    - apply filter_In in Hk. destruct Hk as (Ha & Hk). rewrite (Ag ax Ha) in Hk. destruct (Arr ax (Sub ax Ha)) as (v & E). rewrite E in Hk. discriminate. }
  assert (Ir : inside (bclamp (sshape r) e) (sshape r)).
  { intros ax n H. unfold bclamp. rewrite (dget_NoDup _ _ _ (wf_nodup r Wr) H).
    destruct (Fsa ax n (Kr ax n H)) as (m & Hm & X). assert (e ax < m) by exact (He ax m (Sb ax m Hm)).
    destruct n as [|[|n]]; [destruct X; lia|lia|destruct X; lia]. }
  unfold bat at 1. destruct (Va _ Ir) as (p & Ip & -> & Sp). destruct (Vb e He) as (q & Iq & -> & Sq).
  rewrite <- (bat_inside a p Wa Ip), <- (bat_inside b q Wb Iq), V. apply HistFacts.bat_agree. intros ax Hax.
  assert (Hs : In (ax, asize a ax) (sshape a)) by (now apply in_sshape).
  specialize (Sp ax _ Hs). specialize (Sq ax _ (SS _ _ Hs)). rewrite (Ag ax Hax) in Sp. destruct (Arr ax (Sub ax Hax)) as (v & E). rewrite E in Sp, Sq. cbn in Sp, Sq.
  assert (Wv : wf v) by (rewrite Forall_forall in Fb; exact (Fb _ (dget_In _ _ _ E))).
  assert (Hsv : In (sshape v) (index_shapes (s_axes a) it)) by (apply index_shapes_In; [exact N|exists ax, v; rewrite (Ag ax Hax); auto]).
  assert (EV : bat v (bclamp (sshape r) e) = bat v e).
  { apply (op_at_clamp (OpArr v) (sshape r) e Wv (wf_nodup r Wr)). cbn [op_shape]. intros k n Hn.
    destruct (OptimizeFacts.broadcast_fits _ _ _ NDa Esa Hsv k n Hn) as (m & Hm & [-> | ->]); [now left|right; now apply Sa]. }
  rewrite EV in Sp. exact (index_is_det _ _ _ _ Sp Sq).
Qed.

(** ** All components *)

Section Sort.
Context {A : Type} (sort1 : list A -> list A) (argsort1 : list A -> list nat) (l : list string).
Hypothesis sort_len : forall x, length (sort1 x) = length x.
Hypothesis arg_len : forall x, length (argsort1 x) = length x.
Hypothesis arg_range : forall x i, In i (argsort1 x) -> i < length x.
Hypothesis l_some : l <> [].
Hypothesis l_nodup : NoDup l.

(** the axes that are not sorted *)
Definition free (sh : shape) : Prop := forall ax n, In (ax, n) sh -> ~ In ax l -> n <> 0 /\ ax <> flat_name l.

(** the shape of a component of shape [shx] after broadcasting the sorted axes *)
Definition widened (sh shx T : shape) : Prop :=
  forall ax n, In (ax, n) T <-> (In ax l /\ In (ax, n) sh) \/ (~ In ax l /\ In (ax, n) shx).

Definition entry (d : dict (sarr Z)) (ax : string) : item := match dget d ax with Some v => ItArr v | None => ItNone end.

(** one scalar: it is broadcast to [b], which is sorted *)
Definition sorted_leaf (T : shape) (o : operand A) (so : option (operand A)) (reads : string -> option item -> Prop) : Prop :=
  exists b sb d, wf b /\ (forall e, bat b e = op_at o e) /\ same_shape (sshape b) T /\
    so = Some (OpArr sb) /\ na_sort sort1 b (Some l) = Ok sb /\ na_argsort argsort1 b (Some l) = Ok d /\
    forall ax, reads ax (Some (entry d ax)).

Definition uniform_goal (fuel : nat) (v : vec A) (sh : shape) : Prop :=
  exists s it, sort_rec fuel sort1 v (Some l) = Ok s /\ argsort_rec fuel argsort1 v (Some l) = Ok it /\
    same_kind v s /\ (forall ax, In ax (dkeys it) <-> In ax (dkeys sh)) /\ items_suit v it /\
    forall p o, leaf_at v p = Some o -> sorted_leaf sh o (leaf_at s p) (fun ax i => forall t, dget it ax = Some t -> reaches t p = i).

Lemma free_same sh T : same_shape T sh -> free sh -> free T.
Proof. intros S H ax n Hn. apply (H ax n). now apply S. Qed.

Lemma sortable_intro (b : sarr A) sh : wf b -> same_shape (sshape b) sh -> incl l (dkeys sh) -> free sh -> sortable b l.
Proof.
  intros W S I Fr. split; [exact l_some|]. split; [exact l_nodup|]. split; [|exact (free_same _ _ S Fr)].
  intros ax Hax. apply I, in_map_iff in Hax. destruct Hax as ([k n] & <- & H). rewrite <- (wf_keys b W). apply (in_map fst (sshape b) (k, n)). now apply S.
Qed.

Lemma argsort_ok (b : sarr A) : wf b -> sortable b l -> exists d, na_argsort argsort1 b (Some l) = Ok d /\ forall ax, In ax (dkeys d) <-> In ax (s_axes b).
Proof.
  intros W So. destruct (proj1 (argsort_spec argsort1 b l W arg_len arg_range) So) as (d & r & E & K & _). exists d. split; [exact E|].
  destruct So as (_ & _ & I & _). intros ax. rewrite K, in_app_iff, filter_In. split; [intros [H|H]; [now apply I|tauto]|].
  intros H. destruct (smem ax l) eqn:Q; [left; now apply smem_In|right; auto].
Qed.

Lemma dget_map_leaf (d : dict (sarr Z)) ax : dget (map (fun kv => (fst kv, Leaf (ItArr (snd kv)))) d) ax = option_map (fun v => Leaf (ItArr v)) (dget d ax).
Proof. induction d as [|[k v] d IH]; [reflexivity|]. cbn. destruct (String.eqb ax k); [reflexivity|exact IH]. Qed.

Lemma leaf_goal fuel (o : operand A) sh : op_wf o -> op_shape o = sh -> incl l (dkeys sh) -> free sh -> uniform_goal fuel (Leaf o) sh.
Proof.
  intros W Eo I Fr. assert (Wn := ElementwiseFacts.normalize_wf o W).
  assert (Sn : sshape (normalize o) = sh) by (rewrite ElementwiseFacts.normalize_shape; exact Eo).
  assert (Ss : same_shape (sshape (normalize o)) sh) by (rewrite Sn; intros ax n; tauto).
  assert (So := sortable_intro _ sh Wn Ss I Fr).
  destruct (proj1 (sort_spec sort1 _ l Wn sort_len) So) as (sb & Es & _). destruct (argsort_ok _ Wn So) as (d & Ed & Kd).
  exists (Leaf (OpArr sb)), (map (fun kv => (fst kv, Leaf (ItArr (snd kv)))) d).
  split; [destruct fuel; cbn [sort_rec]; rewrite Es; reflexivity|]. split; [destruct fuel; cbn [argsort_rec]; rewrite Ed; reflexivity|].
  split; [split; [intros [|]; reflexivity|intros [|]; cbn; split; congruence]|]. split.
  { intros ax. unfold dkeys at 1. rewrite map_map. cbn [fst]. change (map (fun x : string * sarr Z => fst x) d) with (dkeys d).
    rewrite Kd, <- (wf_keys _ Wn), Sn. tauto. }
  split.
  { intros kv Hkv. apply in_map_iff in Hkv. destruct Hkv as ([k v] & <- & _). cbn [snd]. split; [intros p; destruct p; discriminate|].
    intros [|]; discriminate. }
  intros [|c p] o'; cbn [leaf_at]; [|discriminate]. intros [= <-]. exists (normalize o), sb, d. split; [exact Wn|].
  split; [intros e; apply ElementwiseFacts.normalize_at|]. split; [exact Ss|]. split; [reflexivity|]. split; [exact Es|]. split; [exact Ed|].
  intros ax t. rewrite dget_map_leaf. unfold entry. destruct (dget d ax); [|discriminate]. intros [= <-]. reflexivity.
Qed.

Lemma touches_iff shx : touches shx l = true <-> exists ax, In ax l /\ In ax (dkeys shx).
Proof.
  unfold touches. rewrite existsb_exists. split; intros (ax & H1 & H2); exists ax; split; auto; now apply smem_In.
Qed.

(** broadcasting a component *)
Lemma with_base_ok (x : vec A) shx sh : vec_wf x -> filled x -> vec_shape x = Ok shx -> NoDup (dkeys sh) -> fits_in shx sh ->
  exists b T, with_base x shx (shape_base sh l) = Ok b /\ vec_wf b /\ filled b /\ depth b = depth x /\ NoDup (dkeys T) /\
    Forall (fun o => op_shape o = T) (leaves b) /\ broadcasted T x b /\ widened sh shx T.
Proof.
  intros W Fl Sx N Fi. destruct (base_spec sh l N) as (Nb & Hb). change (base_of sh l) with (shape_base sh l) in *.
  assert (Nx := vec_shape_NoDup x shx W Sx).
  assert (ND : Forall (fun s => NoDup (dkeys s)) [shx; shape_base sh l]) by (repeat constructor; assumption).
  assert (Fb : fits_in (shape_base sh l) sh) by (intros ax n H; apply Hb in H; exists n; split; [apply H|now right]).
  destruct (PdfFacts.fits_broadcast [shx; shape_base sh l] sh ND N) as (T & ET & FT); [intros s [<- |[<- |[]]]; assumption|].
  destruct (broadcast_joint _ _ ND ET) as (NT & Jf & Ja).
  assert (Fx : fits_in shx T) by (apply Jf; now left). assert (Fbt : fits_in (shape_base sh l) T) by (apply Jf; right; now left).
  destruct (vec_broadcast_total T x W NT) as (b & Eb).
  { intros o Ho ax n Hn. destruct (leaf_fits_shape x shx o W Sx Ho ax n Hn) as (m & Hm & Q). destruct (Fx ax m Hm) as (k & Hk & Q').
    split; [exact (in_map fst _ _ Hk)|]. destruct Q as [-> | ->]; [now left|]. destruct Q' as [-> | ->]; [now left|now right]. }
  destruct (vec_broadcast_wf T x b W NT Eb) as (Wb & Db & Ub & _). assert (Br := vec_broadcast_spec T x b W NT Eb).
  exists b, T. split; [unfold with_base; rewrite ET; exact Eb|]. split; [exact Wb|]. split; [exact (filled_kind x b (proj1 Br) Fl)|].
  split; [exact Db|]. split; [exact NT|]. split; [exact Ub|]. split; [exact Br|].
  assert (UT : forall ax n m, In (ax, n) T -> In (ax, m) T -> n = m).
  { intros ax n m H1 H2. assert (X := dget_NoDup _ _ _ NT H1). rewrite (dget_NoDup _ _ _ NT H2) in X. congruence. }
  assert (Us : forall ax n m, In (ax, n) sh -> In (ax, m) sh -> n = m).
  { intros ax n m H1 H2. assert (X := dget_NoDup _ _ _ N H1). rewrite (dget_NoDup _ _ _ N H2) in X. congruence. }
  assert (Full : forall ax n, In ax l -> In (ax, n) sh -> In (ax, n) T).
  { intros ax n H1 H2. destruct (Fbt ax n) as (m & Hm & Q); [now apply Hb|]. destruct (FT ax m Hm) as (k & Hk & Q'). assert (k = n) by (eapply Us; eauto). subst k.
    destruct Q as [-> | ->]; [destruct Q' as [-> | ->]; exact Hm|exact Hm]. }
  intros ax n. split.
  - intros H. destruct (Ja ax n H) as (s & [<- |[<- |[]]] & Hs); [|left; now apply Hb].
    destruct (in_dec string_dec ax l) as [Hl|Hl]; [left|now right]. split; [exact Hl|].
    destruct (Fi ax n Hs) as (m & Hm & Q). assert (Hm' := Full ax m Hl Hm). assert (n = m) by (eapply UT; eauto). subst; exact Hm.
  - intros [(H1 & H2)|(H1 & H2)]; [now apply Full|]. destruct (Fx ax n H2) as (m & Hm & Q).
    destruct (Ja ax m Hm) as (s & [<- |[<- |[]]] & Hs); [|apply Hb in Hs; tauto].
    assert (n = m); [|subst; exact Hm]. assert (X := dget_NoDup _ _ _ Nx Hs). rewrite (dget_NoDup _ _ _ Nx H2) in X. congruence.
Qed.

Lemma node_kind {L M} ty (cs : list (string * tree L)) (rs : list (string * tree M)) : map fst rs = map fst cs ->
  (forall c x y, dget cs c = Some x -> dget rs c = Some y -> same_kind x y) -> same_kind (Node ty cs) (Node ty rs).
Proof.
  intros N G. assert (Q : forall c, match dget cs c, dget rs c with Some x, Some y => same_kind x y | None, None => True | _, _ => False end).
  { intros c. destruct (dget cs c) as [x|] eqn:Dx, (dget rs c) as [y|] eqn:Dy; [now apply (G c)| | |exact Logic.I].
    - apply dget_None in Dy. apply Dy. unfold dkeys. rewrite N. exact (in_map fst _ _ (dget_In _ _ _ Dx)).
    - apply dget_None in Dx. apply Dx. unfold dkeys. rewrite <- N. exact (in_map fst _ _ (dget_In _ _ _ Dy)). }
  split.
  - intros [|c p]; cbn [kind]; [now rewrite N|]. specialize (Q c). destruct (dget cs c), (dget rs c); try contradiction; [apply Q|reflexivity].
  - intros [|c p]; cbn [leaf_at]; [tauto|]. specialize (Q c). destruct (dget cs c), (dget rs c); try contradiction; [apply Q|tauto].
Qed.

Lemma same_kind_trans' {L M P} (t : tree L) (u : tree M) (w : tree P) : same_kind t u -> same_kind u w -> same_kind t w.
Proof.
  intros (K1 & L1) (K2 & L2). split; [intros p; rewrite K1; apply K2|intros p; rewrite L1; apply L2].
Qed.

Lemma broadcasted_kind T (x b : vec A) : broadcasted T x b -> same_kind x b.
Proof.
  intros (K & Lf). split; [intros p; symmetry; apply K|]. intros p. specialize (Lf p). destruct (leaf_at x p); [destruct Lf as (r & -> & _); split; discriminate|rewrite Lf; tauto].
Qed.

Lemma gather_get ty axes (rs : dict (dict (tree item))) ax : dget (gather ty axes rs) ax =
  if smem ax axes then Some (Node ty (map (fun kv => (fst kv, match dget (snd kv) ax with Some t => t | None => Leaf ItNone end)) rs)) else None.
Proof.
  unfold gather. induction axes as [|k axes IH]; [reflexivity|]. cbn [map dget]. unfold smem in *. cbn [existsb].
  destruct (String.eqb ax k) eqn:E; [apply String.eqb_eq in E; subst; reflexivity|]. exact IH.
Qed.

Lemma dget_map_snd {V V'} (f : V -> V') (d : dict V) k : dget (map (fun kv => (fst kv, f (snd kv))) d) k = option_map f (dget d k).
Proof. induction d as [|[k' v] d IH]; [reflexivity|]. cbn. destruct (String.eqb k k'); [reflexivity|exact IH]. Qed.

Lemma node_goal fuel : (forall v sh, depth v <= fuel -> vec_wf v -> filled v -> NoDup (dkeys sh) -> Forall (fun o => op_shape o = sh) (leaves v) ->
    incl l (dkeys sh) -> free sh -> uniform_goal fuel v sh) ->
  forall ty cs sh, depth (Node ty cs) <= S fuel -> vec_wf (Node ty cs) -> filled (Node ty cs) -> vec_shape (Node ty cs) = Ok sh -> incl l (dkeys sh) -> free sh ->
  exists s it, sort_rec (S fuel) sort1 (Node ty cs) (Some l) = Ok s /\ argsort_rec (S fuel) argsort1 (Node ty cs) (Some l) = Ok it /\
    same_kind (Node ty cs) s /\ dkeys it = dkeys sh /\ items_suit (Node ty cs) it /\
    forall c x shx p o, dget cs c = Some x -> vec_shape x = Ok shx -> leaf_at x p = Some o ->
      (touches shx l = false -> leaf_at s (c :: p) = Some o /\ forall ax t, dget it ax = Some t -> reaches t (c :: p) = Some ItNone) /\
      (touches shx l = true -> exists T, widened sh shx T /\
         sorted_leaf T o (leaf_at s (c :: p)) (fun ax i => forall t, dget it ax = Some t -> reaches t (c :: p) = i)).
Proof.
  intros IH ty cs sh D W Fl Sv I Fr. assert (N := vec_shape_NoDup _ sh W Sv).
  inversion W as [|? ? Nc Wc]; subst.
  assert (Sub : forallb (fun ax => smem ax (dkeys sh)) l = true) by (apply forallb_forall; intros ax Hax; now apply smem_In, I).
  assert (Child : forall c x, In (c, x) cs -> exists shx, vec_shape x = Ok shx /\ fits_in shx sh /\ (touches shx l = true ->
            exists b T, with_base x shx (shape_base sh l) = Ok b /\ broadcasted T x b /\ widened sh shx T /\ uniform_goal fuel b T)).
  { intros c x Hc. destruct (child_shape ty cs c x sh W Sv Hc) as (shx & Sx & Fx). exists shx. split; [exact Sx|]. split; [exact Fx|]. intros Ht.
    destruct (with_base_ok x shx sh (Wc c x Hc) (filled_child ty cs c x Nc Fl Hc) Sx N Fx) as (b & T & Eb & Wb & Fb & Db & NT & Ub & Br & Wd).
    exists b, T. split; [exact Eb|]. split; [exact Br|]. split; [exact Wd|]. apply IH; auto.
    - rewrite Db. assert (Q := depth_In ty cs c x Hc). lia.
    - intros ax Hax. assert (Hk := I ax Hax). apply in_map_iff in Hk. destruct Hk as ([k n] & <- & Hn). apply (in_map fst T (k, n)). apply Wd. left. auto.
    - intros ax n Hn Hl. apply Wd in Hn. destruct Hn as [(H & _)|(_ & Hn)]; [contradiction|]. destruct (Fx ax n Hn) as (m & Hm & Q).
      destruct (Fr ax m Hm Hl) as (F1 & F2). split; [|exact F2]. destruct Q; lia. }
  set (fs := fun (_ : string) (x : vec A) => shx <- vec_shape x ;; if touches shx l
               then b <- with_base x shx (shape_base sh l) ;; sort_rec fuel sort1 b (Some l) else Ok x).
  set (fa := fun (_ : string) (x : vec A) => shx <- vec_shape x ;; if touches shx l
               then b <- with_base x shx (shape_base sh l) ;; argsort_rec fuel argsort1 b (Some l) else Ok []).
  assert (Es : exists rs, on_components fs cs = Ok rs).
  { apply on_components_intro. intros c x Hc. destruct (Child c x Hc) as (shx & Sx & _ & Ht). unfold fs. rewrite Sx. cbn [bind].
    destruct (touches shx l); [|eauto]. destruct (Ht eq_refl) as (b & T & -> & _ & _ & (s & it & E & _)). cbn [bind]. eauto. }
  assert (Ea : exists ra, on_components fa cs = Ok ra).
  { apply on_components_intro. intros c x Hc. destruct (Child c x Hc) as (shx & Sx & _ & Ht). unfold fa. rewrite Sx. cbn [bind].
    destruct (touches shx l); [|eauto]. destruct (Ht eq_refl) as (b & T & -> & _ & _ & (s & it & _ & E & _)). cbn [bind]. eauto. }
  destruct Es as (rs & Es), Ea as (ra & Ea).
  destruct (on_components_get _ _ _ Es) as (Ns & Gs). destruct (on_components_get _ _ _ Ea) as (Na & Ga).
  exists (Node ty rs), (gather ty (dkeys sh) ra).
  split. { cbn [sort_rec]. rewrite Sv. cbn [bind]. destruct l as [|l0 l']; [congruence|]. rewrite Sub. cbn [negb].
    unfold fs in Es. rewrite Es. reflexivity. }
  split. { cbn [argsort_rec]. rewrite Sv. cbn [bind]. destruct l as [|l0 l']; [congruence|]. rewrite Sub. cbn [negb].
    unfold fa in Ea. rewrite Ea. reflexivity. }
  (* one component *)
  assert (One : forall c x, dget cs c = Some x -> exists shx y ic, vec_shape x = Ok shx /\ dget rs c = Some y /\ dget ra c = Some ic /\
            ((touches shx l = false /\ y = x /\ ic = []) \/
             (touches shx l = true /\ exists b T, broadcasted T x b /\ widened sh shx T /\
                same_kind b y /\ (forall ax, In ax (dkeys ic) <-> In ax (dkeys T)) /\ items_suit b ic /\
                forall p o, leaf_at b p = Some o -> sorted_leaf T o (leaf_at y p) (fun ax i => forall t, dget ic ax = Some t -> reaches t p = i)))).
  { intros c x Dx. specialize (Gs c). specialize (Ga c). rewrite Dx in Gs, Ga. destruct (dget rs c) as [y|]; [|contradiction]. destruct (dget ra c) as [ic|]; [|contradiction].
    destruct (Child c x (dget_In _ _ _ Dx)) as (shx & Sx & _ & Ht). exists shx, y, ic. unfold fs in Gs. unfold fa in Ga. rewrite Sx in Gs, Ga. cbn [bind] in Gs, Ga.
    split; [exact Sx|]. split; [reflexivity|]. split; [reflexivity|]. destruct (touches shx l); [right|left; split; [reflexivity|split; congruence]].
    split; [reflexivity|]. destruct (Ht eq_refl) as (b & T & Eb & Br & Wd & (s & it & E1 & E2 & Q)). rewrite Eb in Gs, Ga. cbn [bind] in Gs, Ga.
    assert (s = y) by congruence. assert (it = ic) by congruence. subst. exists b, T. split; [exact Br|]. split; [exact Wd|exact Q]. }
  split.
  { apply node_kind; [exact Ns|]. intros c x y Dx Dy. destruct (One c x Dx) as (shx & y' & ic & _ & Dy' & _ & Q). assert (y' = y) by congruence. subst y'.
    destruct Q as [(_ & -> & _)|(_ & b & T & Br & _ & Kb & _)]; [split; [reflexivity|tauto]|]. eapply same_kind_trans'; [exact (broadcasted_kind T x b Br)|exact Kb]. }
  split; [unfold gather, dkeys; rewrite map_map; apply map_id|].
  assert (Get : forall ax t, dget (gather ty (dkeys sh) ra) ax = Some t -> t = Node ty (map (fun kv => (fst kv, match dget (snd kv) ax with Some t => t | None => Leaf ItNone end)) ra)).
  { intros ax t H. rewrite gather_get in H. destruct (smem ax (dkeys sh)); congruence. }
  assert (Ent : forall ax c ic, dget ra c = Some ic -> dget (map (fun kv => (fst kv, match dget (snd kv) ax with Some t => t | None => Leaf ItNone end)) ra) c
             = Some (match dget ic ax with Some t => t | None => Leaf ItNone end)).
  { intros ax c ic H. rewrite (dget_map_snd (fun i => match dget i ax with Some t => t | None => Leaf ItNone end)), H. reflexivity. }
  split.
  { intros [ax t] Hkv. cbn [snd]. unfold gather in Hkv. apply in_map_iff in Hkv. destruct Hkv as (ax' & [= -> <-] & Hax). split.
    - intros p. destruct p as [|c p]; cbn [kind].
      + intros tya na tyb nb [= <- <-] [= <- <-]. split; [reflexivity|]. intros c. rewrite map_map. cbn [fst]. change (map (fun x : string * dict (tree item) => fst x) ra) with (map fst ra). rewrite Na. tauto.
      + destruct (dget cs c) as [x|] eqn:Dx; [|discriminate]. destruct (One c x Dx) as (shx & y & ic & _ & _ & Di & Q). rewrite (Ent ax c ic Di).
        destruct (dget ic ax) as [t|] eqn:Et; [|intros ? ? ? ? _; destruct p; discriminate].
        destruct Q as [(_ & _ & ->)|(_ & b & T & Br & _ & _ & _ & Su & _)]; [discriminate|].
        intros tya na tyb nb H1 H2. apply (proj1 (Su (ax, t) (dget_In _ _ _ Et)) p tya na tyb nb); [|exact H2]. rewrite (proj1 Br). exact H1.
    - intros [|c p]; cbn [leaf_at reaches]; [congruence|]. destruct (dget cs c) as [x|] eqn:Dx; [|congruence]. intros Lx.
      destruct (One c x Dx) as (shx & y & ic & _ & _ & Di & Q). rewrite (Ent ax c ic Di).
      destruct (dget ic ax) as [t|] eqn:Et; [|destruct p; discriminate].
      destruct Q as [(_ & _ & ->)|(_ & b & T & Br & _ & _ & _ & Su & _)]; [discriminate|].
      apply (proj2 (Su (ax, t) (dget_In _ _ _ Et)) p). intros Z. apply Lx. now apply (broadcasted_kind T x b Br). }
  intros c x shx p o Dx Sx Lx. destruct (One c x Dx) as (shx' & y & ic & Sx' & Dy & Di & Q). assert (shx' = shx) by congruence. subst shx'. cbn [leaf_at]. rewrite Dy.
  destruct Q as [(Q & -> & ->)|(Q & b & T & Br & Wd & _ & Kc & _ & Lf)]; rewrite Q; (split; [intros H; try discriminate|intros H; try discriminate]).
  - split; [exact Lx|]. intros ax t Ht. rewrite (Get ax t Ht). cbn [reaches]. rewrite (Ent ax c [] Di). cbn [dget]. destruct p; reflexivity.
  - exists T. split; [exact Wd|]. destruct Br as (_ & Br). specialize (Br p). rewrite Lx in Br. destruct Br as (r & Lr & _ & _ & Vr & _).
    destruct (Lf p r Lr) as (b0 & sb & d & W0 & V0 & S0 & L0 & E1 & E2 & R). exists b0, sb, d. split; [exact W0|]. split; [intros e; rewrite V0; apply Vr|].
    split; [exact S0|]. split; [exact L0|]. split; [exact E1|]. split; [exact E2|].
    intros ax t Ht. rewrite (Get ax t Ht). cbn [reaches]. rewrite (Ent ax c ic Di). destruct (dget ic ax) as [t'|] eqn:Et; [exact (R ax t' Et)|].
    assert (Nd : dget d ax = None).
    { apply dget_None in Et. rewrite Kc in Et. apply dget_None. intros Hd. apply Et.
      assert (So : sortable b0 l).
      { split; [exact l_some|]. split; [exact l_nodup|]. split.
        - intros k Hk. rewrite <- (wf_keys b0 W0). assert (Hk' := I k Hk). apply in_map_iff in Hk'. destruct Hk' as ([k' n] & <- & Hn). apply (in_map fst (sshape b0) (k', n)), S0, Wd. left. auto.
        - intros k n Hn Hl. apply S0, Wd in Hn. destruct Hn as [(Hn & _)|(_ & Hn)]; [contradiction|].
          destruct (Child c x (dget_In _ _ _ Dx)) as (shx' & Sx2 & Fx & _). assert (shx' = shx) by congruence. subst shx'.
          destruct (Fx k n Hn) as (m & Hm & X). destruct (Fr k m Hm Hl) as (F1 & F2). split; [|exact F2]. destruct X; lia. }
      destruct (argsort_ok b0 W0 So) as (d' & E' & K'). assert (d' = d) by congruence. subst d'. apply K' in Hd. rewrite <- (wf_keys b0 W0) in Hd.
      exact (same_keys _ _ ax S0 Hd). }
    unfold entry. rewrite Nd. destruct p; reflexivity.
Qed.

Lemma uniform_both fuel : forall v sh, depth v <= fuel -> vec_wf v -> filled v -> NoDup (dkeys sh) -> Forall (fun o => op_shape o = sh) (leaves v) ->
  incl l (dkeys sh) -> free sh -> uniform_goal fuel v sh.
Proof.
  induction fuel as [|fuel IH]; intros v sh D W Fl N U I Fr; (destruct v as [o|ty cs]).
  1, 3: inversion W; subst; inversion U; subst; now apply leaf_goal.
  - cbn in D. lia.
  - assert (Sv := uniform_shape _ sh N Fl (tree_ok_any _ _ W) U).
    destruct (node_goal fuel IH ty cs sh D W Fl Sv I Fr) as (s & it & E1 & E2 & Ks & Ki & Su & Lf).
    exists s, it. split; [exact E1|]. split; [exact E2|]. split; [exact Ks|]. split; [intros ax; rewrite Ki; tauto|]. split; [exact Su|].
    intros [|c p] o; cbn [leaf_at]; [discriminate|]. destruct (dget cs c) as [x|] eqn:Dx; [|discriminate]. intros Lx.
    inversion W as [|? ? Nc Wc]; subst. assert (Hc := dget_In _ _ _ Dx).
    assert (Sx : vec_shape x = Ok sh).
    { apply uniform_shape; [exact N|exact (filled_child ty cs c x Nc Fl Hc)|exact (tree_ok_any _ _ (Wc c x Hc))|].
      rewrite Forall_forall in U |- *. intros o' Ho'. apply U. cbn [leaves]. apply in_flat_map. exists (c, x). auto. }
    assert (Tt : touches sh l = true).
    { apply touches_iff. destruct l as [|k l']; [congruence|]. exists k. split; [now left|]. apply I. now left. }
    destruct (proj2 (Lf c x sh p o Dx Sx Lx) Tt) as (T & Wd & Q).
    destruct Q as (b & sb & d & Wb & Vb & Sb & Q). exists b, sb, d. split; [exact Wb|]. split; [exact Vb|]. split; [|exact Q].
    intros ax n. rewrite (Sb ax n), (Wd ax n). destruct (in_dec string_dec ax l); tauto.
Qed.

Lemma node_both ty cs sh : vec_wf (Node ty cs) -> filled (Node ty cs) -> vec_shape (Node ty cs) = Ok sh -> incl l (dkeys sh) -> free sh ->
  exists s it, vec_sort sort1 (Node ty cs) (Some l) = Ok s /\ vec_argsort argsort1 (Node ty cs) (Some l) = Ok it /\
    same_kind (Node ty cs) s /\ dkeys it = dkeys sh /\ items_suit (Node ty cs) it /\
    forall c x shx p o, dget cs c = Some x -> vec_shape x = Ok shx -> leaf_at x p = Some o ->
      (touches shx l = false -> leaf_at s (c :: p) = Some o /\ forall ax t, dget it ax = Some t -> reaches t (c :: p) = Some ItNone) /\
      (touches shx l = true -> exists T, widened sh shx T /\
         sorted_leaf T o (leaf_at s (c :: p)) (fun ax i => forall t, dget it ax = Some t -> reaches t (c :: p) = i)).
Proof.
  intros W Fl Sv I Fr. unfold vec_sort, vec_argsort. cbn [depth].
  exact (node_goal _ (uniform_both _) ty cs sh (le_n _) W Fl Sv I Fr).
Qed.

Lemma widened_sortable sh shx T (b : sarr A) : wf b -> same_shape (sshape b) T -> widened sh shx T -> fits_in shx sh -> incl l (dkeys sh) -> free sh -> sortable b l.
Proof.
  intros W0 S0 Wd Fx I Fr. split; [exact l_some|]. split; [exact l_nodup|]. split.
  - intros k Hk. rewrite <- (wf_keys b W0). assert (Hk' := I k Hk). apply in_map_iff in Hk'. destruct Hk' as ([k' n] & <- & Hn). apply (in_map fst (sshape b) (k', n)), S0, Wd. left. auto.
  - intros k n Hn Hl. apply S0, Wd in Hn. destruct Hn as [(Hn & _)|(_ & Hn)]; [contradiction|].
    destruct (Fx k n Hn) as (m & Hm & X). destruct (Fr k m Hm Hl) as (F1 & F2). split; [|exact F2]. destruct X; lia.
Qed.

End Sort.

(** the component [x] has one of the axes *)
Lemma touches_leaf {A} (x : vec A) shx l : vec_wf x -> vec_shape x = Ok shx ->
  (touches shx l = true <-> exists q o ax, leaf_at x q = Some o /\ In ax l /\ In ax (dkeys (op_shape o))).
Proof.
  intros W Sx. rewrite touches_iff. destruct (vec_shape_joint x shx W Sx) as (N & F & J). split.
  - intros (ax & Hl & H). apply in_map_iff in H. destruct H as ([k n] & <- & Hn). destruct (J k n Hn) as (s & Hs & Hk). apply in_map_iff in Hs. destruct Hs as (o & <- & Ho).
    destruct (In_leaf x o (tree_ok_any _ _ W) Ho) as (q & Lq). exists q, o, k. split; [exact Lq|]. split; [exact Hl|exact (in_map fst _ _ Hk)].
  - intros (q & o & ax & Lq & Hl & Ho). exists ax. split; [exact Hl|]. apply in_map_iff in Ho. destruct Ho as ([k n] & <- & Hn).
    destruct (F (op_shape o) (in_map op_shape _ _ (leaf_In x q o Lq)) k n Hn) as (m & Hm & _). exact (in_map fst _ _ Hm).
Qed.

Lemma total_size_ext (s t : shape) m : (forall ax, In ax m -> dget s ax = dget t ax) -> total_size s m = total_size t m.
Proof. induction m as [|x m IH]; intros H; [reflexivity|]. cbn [total_size fold_right]. unfold total_size in IH. rewrite (H x (or_introl eq_refl)), IH; [reflexivity|]. intros; apply H; now right. Qed.

Theorem vec_sort_spec {A} (sort1 : list A -> list A) ty cs l sh :
  (forall x, length (sort1 x) = length x) -> vec_wf (Node ty cs) -> filled (Node ty cs) -> vec_shape (Node ty cs) = Ok sh ->
  l <> [] -> NoDup l -> incl l (dkeys sh) -> (forall ax n, In (ax, n) sh -> ~ In ax l -> n <> 0 /\ ax <> flat_name l) ->
  exists s, vec_sort sort1 (Node ty cs) (Some l) = Ok s /\ same_kind (Node ty cs) s /\
    forall c x shx p o, dget cs c = Some x -> vec_shape x = Ok shx -> leaf_at x p = Some o ->
      ((forall ax, In ax l -> ~ In ax (dkeys shx)) -> leaf_at s (c :: p) = Some o) /\
      (forall ax, In ax l -> In ax (dkeys shx) -> exists a, leaf_at s (c :: p) = Some (OpArr a) /\ wf a /\
         (forall ax n, In (ax, n) (sshape a) <-> (~ In ax l /\ In (ax, n) shx) \/ (ax = flat_name l /\ n = total_size sh l)) /\
         forall e, inside_but e shx l -> line a (flat_name l) e = sort1 (map (op_at o) (fibre sh l e))).
Proof.
  intros Hl W Fl Sv NE Nl I Fr.
  destruct (node_both sort1 (fun x => seq 0 (length x)) l Hl (fun x => seq_length _ _) (fun x i H => proj2 (proj1 (in_seq _ _ _) H)) NE Nl ty cs sh W Fl Sv I Fr)
    as (s & it & Es & _ & Ks & _ & _ & Lf).
  exists s. split; [exact Es|]. split; [exact Ks|]. intros c x shx p o Dx Sx Lx. destruct (Lf c x shx p o Dx Sx Lx) as (L1 & L2). split.
  - intros H. apply L1. apply not_true_iff_false. rewrite touches_iff. intros (ax & Ha & Hb). exact (H ax Ha Hb).
  - intros ax0 Ha Hb. destruct (L2 (proj2 (touches_iff l shx) (ex_intro _ ax0 (conj Ha Hb)))) as (T & Wd & b & sb & d & Wb & Vb & Sb & Ls & E1 & _).
    inversion W as [|? ? Nc Wc]; subst. assert (Hc := dget_In _ _ _ Dx).
    destruct (child_shape ty cs c x sh W Sv Hc) as (shx' & Sx' & Fx). assert (shx' = shx) by congruence. subst shx'.
    assert (So := widened_sortable l NE Nl sh shx T b Wb Sb Wd Fx I Fr).
    destruct (proj1 (sort_spec sort1 b l Wb Hl) So) as (sb' & E1' & Wsb & Asb & Ssb & Lsb). assert (sb' = sb) by congruence. subst sb'.
    assert (N := vec_shape_NoDup _ sh W Sv).
    assert (Dg : forall ax, In ax l -> dget (sshape b) ax = dget sh ax).
    { intros ax Hax. assert (Hk := I ax Hax). apply dget_Some_key in Hk. destruct Hk as (n & Hn). rewrite Hn. apply dget_NoDup; [now apply wf_nodup|].
      apply Sb, Wd. left. split; [exact Hax|now apply dget_In]. }
    exists sb. split; [exact Ls|]. split; [exact Wsb|]. split.
    + intros ax n. rewrite (Ssb ax n), (Sb ax n), (Wd ax n), (total_size_ext _ _ l Dg). tauto.
    + intros e He.
      assert (Hb' : inside_but e (sshape b) l) by (intros ax n Hn Hnl; apply Sb, Wd in Hn; destruct Hn as [(X & _)|(_ & Hn)]; [contradiction|exact (He ax n Hn Hnl)]).
      rewrite (Lsb e Hb'). f_equal. rewrite (fibre_ext (sshape b) sh l e) by (intros ax Hax; unfold size_of; now rewrite Dg).
      apply map_ext_in. intros e' He'. rewrite <- Vb. symmetry. apply bat_inside; [exact Wb|].
      rewrite <- (fibre_ext (sshape b) sh l e) in He' by (intros ax Hax; unfold size_of; now rewrite Dg).
      exact (fibre_in (sshape b) l e e' (wf_nodup b Wb) He' Hb').
Qed.

Lemma items_at_get {L} (it : dict (tree L)) p d : NoDup (dkeys it) -> items_at it p d -> dkeys d = dkeys it /\
  forall ax t, dget it ax = Some t -> exists i, reaches t p = Some i /\ dget d ax = Some i.
Proof.
  intros _ H. induction H as [|[k t] [k' i] it d [E R] _ IH]; [split; [reflexivity|discriminate]|]. cbn [fst snd] in *. subst k'. destruct IH as (IH1 & IH2).
  split; [cbn; now f_equal|]. intros ax t'. cbn [dget]. destruct (String.eqb ax k); [intros [= <-]; exists i; auto|apply IH2].
Qed.

Theorem vec_argsort_spec {A} (sort1 : list A -> list A) (argsort1 : list A -> list nat) ty cs l sh :
  (forall x, length (argsort1 x) = length x) -> (forall x i, In i (argsort1 x) -> i < length x) ->
  (forall x, map Some (sort1 x) = map (nth_error x) (argsort1 x)) ->
  vec_wf (Node ty cs) -> filled (Node ty cs) -> vec_shape (Node ty cs) = Ok sh ->
  l <> [] -> NoDup l -> incl l (dkeys sh) -> (forall ax n, In (ax, n) sh -> ~ In ax l -> n <> 0 /\ ax <> flat_name l) ->
  (forall c x shx p o ax n, dget cs c = Some x -> vec_shape x = Ok shx -> leaf_at x p = Some o -> In (ax, n) (op_shape o) ->
     if in_dec string_dec ax l then In (ax, n) sh else In (ax, n) shx) ->
  exists s it r, vec_sort sort1 (Node ty cs) (Some l) = Ok s /\ vec_argsort argsort1 (Node ty cs) (Some l) = Ok it /\
    dkeys it = dkeys sh /\ vec_getitem (Node ty cs) it = Ok r /\ same_kind s r /\
    forall p so, leaf_at s p = Some so -> exists ro, leaf_at r p = Some ro /\ op_wf ro /\
      forall e, inside e (op_shape so) -> op_at ro e = op_at so e.
Proof.
  intros A1 A2 A3 W Fl Sv NE Nl I Fr Full.
  assert (Hl : forall x, length (sort1 x) = length x).
  { intros x. rewrite <- (A1 x), <- (map_length Some (sort1 x)), A3. apply map_length. }
  destruct (node_both sort1 argsort1 l Hl A1 A2 NE Nl ty cs sh W Fl Sv I Fr) as (s & it & Es & Ei & Ks & Ki & Su & Lf).
  assert (N := vec_shape_NoDup _ sh W Sv). assert (Nit : NoDup (dkeys it)) by (rewrite Ki; exact N).
  inversion W as [|? ? Nc Wc]; subst.
  (* one scalar *)
  assert (One : forall c x p o d, dget cs c = Some x -> leaf_at x p = Some o -> items_at it (c :: p) d -> exists so, leaf_at s (c :: p) = Some so /\
            match o with
            | OpArr a => exists b, getitem a d = Ok b /\ wf b /\ forall e, inside e (op_shape so) -> bat b e = op_at so e
            | OpNum z => forall e, inside e (op_shape so) -> z = op_at so e
            end).
  { intros c x p o d Dx Lx Hd. assert (Hc := dget_In _ _ _ Dx).
    destruct (child_shape ty cs c x sh W Sv Hc) as (shx & Sx & Fx). destruct (Lf c x shx p o Dx Sx Lx) as (L1 & L2).
    assert (Wo : op_wf o) by exact (tree_ok_leaf_at _ _ _ _ (Wc c x Hc) Lx).
    destruct (items_at_get it (c :: p) d Nit Hd) as (Kd & Gd). assert (Nd : NoDup (dkeys d)) by (rewrite Kd; exact Nit).
    destruct (touches shx l) eqn:Tt.
    - destruct (L2 eq_refl) as (T & Wd & b & sb & di & Wb & Vb & Sb & Ls & E1 & E2 & Rd). exists (OpArr sb). split; [exact Ls|].
      assert (So := widened_sortable l NE Nl sh shx T b Wb Sb Wd Fx I Fr).
      destruct (sort_argsort_agree sort1 argsort1 b l Wb A1 A2 A3 So) as (sb' & di' & rb & F1 & F2 & F3 & Wrb & _ & SA).
      assert (sb' = sb) by congruence. assert (di' = di) by congruence. subst sb' di'.
      destruct (proj1 (sort_spec sort1 b l Wb Hl) So) as (sb' & E1' & Wsb & _). assert (sb' = sb) by congruence. subst sb'.
      destruct (proj1 (argsort_spec argsort1 b l Wb A1 A2) So) as (di' & _ & E2' & Kdi & _). assert (di' = di) by congruence. subst di'.
      assert (Kin : forall ax, In ax (s_axes b) -> exists v, dget di ax = Some v).
      { intros ax Hax. apply dget_Some_key. rewrite Kdi, in_app_iff, filter_In. destruct (smem ax l) eqn:Q; [left; now apply smem_In|right; auto]. }
      assert (Hw : forall ax v, dget di ax = Some v -> wf v).
      { intros ax v H. apply (argsort_wf argsort1 b l di ax v Wb); auto. apply So. }
      assert (Nk : NoDup (dkeys di)).
      { rewrite Kdi. apply BaseFacts.NoDup_app_intro; [exact Nl|apply NoDup_filter, Wb|]. intros ax H1 H2. apply filter_In in H2. destruct H2 as (_ & H2).
        rewrite (proj2 (smem_In _ _) H1) in H2. discriminate. }
      assert (Dit : forall ax, In ax (s_axes b) -> exists v, dget di ax = Some v /\ dget d ax = Some (ItArr v)).
      { intros ax Hax. destruct (Kin ax Hax) as (v & Hv). exists v. split; [exact Hv|].
        assert (Hs : In ax (dkeys it)).
        { rewrite Ki. rewrite <- (wf_keys b Wb) in Hax. apply in_map_iff in Hax. destruct Hax as ([k n] & <- & Hn). cbn [fst]. apply Sb, Wd in Hn.
          destruct Hn as [(Hn & _)|(_ & Hn)]; [now apply I|]. destruct (Fx k n Hn) as (m & Hm & _). exact (in_map fst _ _ Hm). }
        apply dget_Some_key in Hs. destruct Hs as (t & Ht). destruct (Gd ax t Ht) as (i & Ri & Di). rewrite (Rd ax t Ht) in Ri. unfold entry in Ri. rewrite Hv in Ri. congruence. }
      assert (Vrb : forall e, inside e (sshape sb) -> at_ rb e = bat sb e).
      { intros e He. rewrite (bat_inside sb e Wsb He). apply (proj2 SA). intros ax n Hn. apply He. now apply (proj1 SA). }
      destruct o as [a|z].
      + destruct (getitem_narrow a b d (as_item di) rb) as (r & Er & Wr & Vr); auto.
        * intros ax n Hn. apply Sb, Wd. assert (Q := Full c x shx p (OpArr a) ax n Dx Sx Lx Hn). destruct (in_dec string_dec ax l); [left|right]; auto.
        * unfold as_item, dkeys. rewrite map_map. exact Nk.
        * apply Forall_forall. intros [ax i] Hi. cbn [snd]. assert (Hk : In ax (dkeys it)) by (rewrite <- Kd; exact (in_map fst _ _ Hi)).
          apply dget_Some_key in Hk. destruct Hk as (t & Ht). destruct (Gd ax t Ht) as (i' & Ri & Di). rewrite (Rd ax t Ht) in Ri.
          assert (i' = i) by (rewrite (dget_NoDup d ax i Nd Hi) in Di; congruence). subst i'. injection Ri as <-. unfold entry. destruct (dget di ax) as [v|] eqn:Ev; [exact (Hw ax v Ev)|exact Logic.I].
        * apply Forall_forall. intros [ax i] Hi. unfold as_item in Hi. apply in_map_iff in Hi. destruct Hi as ([k v] & [= <- <-] & Hi). cbn [snd]. exact (Hw k v (dget_NoDup _ _ _ Nk Hi)).
        * intros ax Hax. destruct (Kin ax Hax) as (v & Hv). exists v. unfold as_item. rewrite (dget_map_snd (fun v => ItArr v)), Hv. reflexivity.
        * intros ax Hax. unfold as_item. rewrite (dget_map_snd (fun v => ItArr v)).
          destruct (Dit ax) as (v & -> & ->); [|reflexivity]. rewrite <- (wf_keys a Wo) in Hax. apply in_map_iff in Hax. destruct Hax as ([k n] & <- & Hn). rewrite <- (wf_keys b Wb).
          apply (in_map fst (sshape b) (k, n)), Sb, Wd. assert (Q := Full c x shx p (OpArr a) k n Dx Sx Lx Hn). destruct (in_dec string_dec k l); [left|right]; auto.
        * exists r. split; [exact Er|]. split; [exact Wr|]. cbn [op_shape op_at]. intros e He. rewrite (Vr e); [now apply Vrb|].
          intros ax n Hn. apply He. now apply (proj1 SA).
      + cbn [op_shape op_at]. intros e He. rewrite <- (Vrb e He).
        assert (Hin : inside e (sshape rb)) by (intros ax n Hn; apply He; now apply (proj1 SA)).
        destruct (getitem_full b (as_item di) rb Wb) as (_ & Q & _); auto.
        * unfold as_item, dkeys. rewrite map_map. exact Nk.
        * apply Forall_forall. intros [ax i] Hi. unfold as_item in Hi. apply in_map_iff in Hi. destruct Hi as ([k v] & [= <- <-] & Hi). cbn [snd]. exact (Hw k v (dget_NoDup _ _ _ Nk Hi)).
        * destruct (Q e Hin) as (e' & I' & -> & _). rewrite <- (bat_inside b e' Wb I'), Vb. reflexivity.
    - destruct (L1 eq_refl) as (Ls & Rn). exists o. split; [exact Ls|]. destruct o as [a|z]; [|reflexivity]. cbn [op_wf op_shape op_at] in *.
      assert (Dn : forall ax, dget d ax = None \/ dget d ax = Some ItNone).
      { intros ax. destruct (dget it ax) as [t|] eqn:Ht.
        - destruct (Gd ax t Ht) as (i & Ri & Di). rewrite (Rn ax t Ht) in Ri. right. congruence.
        - left. apply dget_None. rewrite Kd. now apply dget_None. }
      assert (Fd : Forall (fun kv => item_wf (snd kv)) d).
      { apply Forall_forall. intros [ax i] Hi. destruct (Dn ax) as [Q|Q]; rewrite (dget_NoDup d ax i Nd Hi) in Q; [discriminate|]. injection Q as ->. exact Logic.I. }
      assert (Ei' : index_shapes (s_axes a) d = []).
      { destruct (index_shapes (s_axes a) d) as [|s0 q] eqn:E; [reflexivity|]. assert (Hs : In s0 (index_shapes (s_axes a) d)) by (rewrite E; now left).
        apply index_shapes_In in Hs; [|exact Nd]. destruct Hs as (ax & v & _ & Hv & _). destruct (Dn ax) as [Q|Q]; rewrite Q in Hv; discriminate. }
      destruct (proj2 (getitem_success a d Wo Nd Fd)) as (b & Eb).
      { exists []. rewrite Ei'. split; [reflexivity|]. split; [intros ax n _; destruct (Dn ax) as [-> | ->]; exact Logic.I|intros ax []]. }
      exists b. split; [exact Eb|]. destruct (getitem_full a d b Wo Nd Fd Eb) as (Wb & Vb & sa & Esa & Axb & _ & Szb). rewrite Ei' in Esa. injection Esa as <-.
      split; [exact Wb|]. intros e He.
      assert (Hin : inside e (sshape b)).
      { intros ax m Hm. assert (Hk : In ax (s_axes b)) by (rewrite <- (wf_keys b Wb); exact (in_map fst _ _ Hm)). rewrite Axb in Hk. cbn [dkeys map app] in Hk.
        apply filter_In in Hk. destruct Hk as (Hk & Kp). assert (Hs : In (ax, asize a ax) (sshape a)) by (now apply in_sshape).
        assert (X := Szb ax _ m Hs Kp Hm). destruct (Dn ax) as [Q|Q]; rewrite Q in X; subst m; exact (He ax _ Hs). }
      rewrite (bat_inside b e Wb Hin), (bat_inside a e Wo He). destruct (Vb e Hin) as (e' & I' & -> & Sel). apply AlongFacts.at_ext. intros ax Hax.
      assert (Hs : In (ax, asize a ax) (sshape a)) by (now apply in_sshape). specialize (Sel ax _ Hs). destruct (Dn ax) as [Q|Q]; rewrite Q in Sel; exact Sel. }
  destruct (vec_getitem_success (Node ty cs) it W Su) as (r & Er).
  { intros [|c p] a d; cbn [leaf_at]; [discriminate|]. destruct (dget cs c) as [x|] eqn:Dx; [|discriminate]. intros Lx Hd.
    destruct (One c x p (OpArr a) d Dx Lx Hd) as (so & _ & b & Eb & _). eauto. }
  exists s, it, r. split; [exact Es|]. split; [exact Ei|]. split; [exact Ki|]. split; [exact Er|].
  destruct (vec_getitem_spec (Node ty cs) it r Su Er) as (Kr & Ix). split.
  { apply (same_kind_trans' s (Node ty cs) r); [destruct Ks as (K1 & K2); split; [intros p; symmetry; apply K1|intros p; symmetry; apply K2]|].
    split; [intros p; symmetry; apply Kr|]. intros p. specialize (Ix p). destruct (leaf_at (Node ty cs) p) as [[a|z]|].
    - destruct Ix as (d & b & _ & _ & ->). split; discriminate.
    - rewrite Ix. split; discriminate.
    - rewrite Ix. tauto. }
  intros p so Lso. destruct (leaf_at (Node ty cs) p) as [o|] eqn:Lo; [|apply (proj2 Ks) in Lo; congruence].
  destruct p as [|c p]; [discriminate|]. assert (Lo' := Lo). cbn [leaf_at] in Lo. destruct (dget cs c) as [x|] eqn:Dx; [|discriminate].
  specialize (Ix (c :: p)). rewrite Lo' in Ix. destruct o as [a|z].
  - destruct Ix as (d & b & Hd & Eb & Lb). destruct (One c x p (OpArr a) d Dx Lo Hd) as (so' & Ls' & b' & Eb' & Wb' & Vb').
    assert (so' = so) by congruence. assert (b' = b) by congruence. subst. exists (OpArr b). split; [exact Lb|]. split; [exact Wb'|exact Vb'].
  - exists (OpNum z). split; [exact Ix|]. split; [exact Logic.I|].
    assert (Hd : exists d, items_at it (c :: p) d).
    { unfold items_at. assert (Sx : forall kv, In kv it -> exists i, reaches (snd kv) (c :: p) = Some i).
      { intros kv Hkv. assert (Q := proj2 (Su kv Hkv) (c :: p)). rewrite Lo' in Q. destruct (reaches (snd kv) (c :: p)) as [i|]; [eauto|exfalso; apply Q; [discriminate|reflexivity]]. }
      clear - Sx. induction it as [|kv it IH]; [exists []; constructor|]. destruct IH as (d & Hd); [intros; apply Sx; now right|].
      destruct (Sx kv (or_introl eq_refl)) as (i & Hi). exists ((fst kv, i) :: d). constructor; auto. }
    destruct Hd as (d & Hd). destruct (One c x p (OpNum z) d Dx Lo Hd) as (so' & Ls' & V). assert (so' = so) by congruence. subst. exact V.
Qed.

Lemma vec_sort_refused {A} (sort1 : list A -> list A) (argsort1 : list A -> list nat) ty cs l sh : vec_shape (Node ty cs) = Ok sh ->
  l = [] \/ ~ incl l (dkeys sh) -> vec_sort sort1 (Node ty cs) (Some l) = Err ValueError /\ vec_argsort argsort1 (Node ty cs) (Some l) = Err ValueError.
Proof.
  intros Sv H. unfold vec_sort, vec_argsort. cbn [depth sort_rec argsort_rec]. rewrite Sv. cbn [bind].
  destruct l as [|x l']; [auto|]. destruct H as [H|H]; [discriminate|].
  assert (E : forallb (fun ax => smem ax (dkeys sh)) (x :: l') = false); [|rewrite E; cbn [negb]; auto].
  apply not_true_iff_false. intros T. apply H. intros ax Hax. rewrite forallb_forall in T. now apply smem_In, T.
Qed.

Lemma vec_sort_none {A} (sort1 : list A -> list A) (argsort1 : list A -> list nat) ty cs sh : vec_shape (Node ty cs) = Ok sh ->
  (sh = [] -> vec_sort sort1 (Node ty cs) None = Ok (Node ty cs) /\ vec_argsort argsort1 (Node ty cs) None = Ok []) /\
  (sh <> [] -> vec_sort sort1 (Node ty cs) None = vec_sort sort1 (Node ty cs) (Some (dkeys sh)) /\
     vec_argsort argsort1 (Node ty cs) None = vec_argsort argsort1 (Node ty cs) (Some (dkeys sh))).
Proof.
  intros Sv. unfold vec_sort, vec_argsort. cbn [depth sort_rec argsort_rec]. rewrite Sv. cbn [bind]. split.
  - intros ->. cbn. auto.
  - intros H. destruct sh as [|[k n] sh]; [congruence|]. cbn [dkeys map fst]. auto.
Qed.

(** ** [unravel_index] *)

Lemma dget_flat_map {V V'} (f : V -> option V') (d : dict V) c v : NoDup (dkeys d) -> dget d c = Some v ->
  dget (flat_map (fun kv => match f (snd kv) with Some a => [(fst kv, a)] | None => [] end) d) c = f v.
Proof.
  induction d as [|[k w] d IH]; intros N; cbn [dget flat_map fst snd]; [discriminate|]. inversion N as [|? ? N1 N2]; subst.
  destruct (String.eqb_spec c k) as [-> |Hk].
  - intros [= ->]. rewrite dget_app. destruct (f v) as [a|]; cbn [dget]; [now rewrite String.eqb_refl|].
    apply dget_None. intros H. apply N1. apply in_map_iff in H. destruct H as ([k' a] & <- & H). apply in_flat_map in H. destruct H as ([k2 w2] & H1 & H2). cbn [fst snd] in H2 |- *.
    destruct (f w2); [|destruct H2]. destruct H2 as [[= <- <-]|[]]. exact (in_map fst _ _ H1).
  - intros H. rewrite dget_app. rewrite <- (IH N2 H). destruct (f w) as [a|]; cbn [dget]; [|reflexivity]. destruct (String.eqb_spec c k); [contradiction|reflexivity].
Qed.

Lemma flat_map_ext' {X Y} (f g : X -> list Y) x : (forall a, f a = g a) -> flat_map f x = flat_map g x.
Proof. intros H. induction x as [|a x IH]; [reflexivity|]. cbn. now rewrite H, IH. Qed.

Theorem vec_unravel_spec ty (cs : dict (operand Z)) (s sh : shape) :
  NoDup (dkeys cs) -> NoDup (dkeys sh) -> vec_shape (Node ty (as_leaves cs)) = Ok s -> incl (dkeys sh) (dkeys s) ->
  (forall c o, dget cs c = Some o -> exists a, o = OpArr a /\ wf a /\ (sh = [] -> s_axes a = []) /\
     forall e, inside e (sshape a) -> (0 <= at_ a e < Z.of_nat (total_size sh (dkeys sh)))%Z) ->
  exists d, vec_unravel_index ty cs sh = Ok d /\ dkeys d = dkeys s /\
    forall c a, dget cs c = Some (OpArr a) ->
      (forall ax t, In ax (dkeys sh) -> dget d ax = Some t -> exists v, leaf_at t [c] = Some (OpArr v) /\ wf v /\ sshape v = sshape a) /\
      forall e, inside e (sshape a) -> exists idx : list nat,
        Forall2 (fun kv i => i < snd kv /\ exists t v, dget d (fst kv) = Some t /\ leaf_at t [c] = Some (OpArr v) /\ at_ v e = Z.of_nat i) sh idx /\
        Z.of_nat (row_major (dvals sh) idx) = at_ a e.
Proof.
  intros Nc N Sv I Hc. unfold vec_unravel_index. rewrite Sv. cbn [bind].
  assert (One : forall c o, dget cs c = Some o -> exists a u, o = OpArr a /\ wf a /\ na_unravel_index a sh = Ok u /\ unravel_component (dkeys s) o sh = Ok u).
  { intros c o H. destruct (Hc c o H) as (a & -> & Wa & Q). destruct (proj2 (unravel_index_success a sh Wa N) Q) as (u & E).
    exists a, u. split; [reflexivity|]. split; [exact Wa|]. split; [exact E|]. cbn [unravel_component]. rewrite E. cbn [bind].
    destruct (unravel_index_spec a sh u Wa N E) as (K & _). rewrite K.
    rewrite (proj2 (forallb_forall _ _)); [reflexivity|]. intros ax Hax. now apply smem_In, I. }
  assert (Tr : exists rs, traverse (fun kv => d <- unravel_component (dkeys s) (snd kv) sh ;; Ok (fst kv, d)) cs = Ok rs /\
             map fst rs = map fst cs /\ forall c o, dget cs c = Some o -> exists u, dget rs c = Some u /\ unravel_component (dkeys s) o sh = Ok u).
  { clear - One Nc. rewrite traverse_mapM. induction cs as [|[c o] cs IH]; [exists []; repeat split; discriminate|].
    inversion Nc as [|? ? N1 N2]; subst. destruct IH as (rs & E & K & G); [exact N2| |].
    { intros c' o' H. apply (One c' o'). cbn [dget]. destruct (String.eqb_spec c' c) as [-> |]; [|exact H]. exfalso. apply N1. exact (in_map fst _ _ (dget_In _ _ _ H)). }
    destruct (One c o) as (a & u & _ & _ & _ & Eu); [cbn [dget]; now rewrite String.eqb_refl|]. exists ((c, u) :: rs).
    cbn [mapM fst snd]. rewrite Eu. cbn [bind]. rewrite E. cbn [bind]. split; [reflexivity|]. split; [cbn; now f_equal|].
    intros c' o'. cbn [dget]. destruct (String.eqb c' c); [intros [= <-]; eauto|apply G]. }
  destruct Tr as (rs & Er & Kr & Gr). rewrite Er. cbn [bind]. eexists. split; [reflexivity|].
  split; [unfold dkeys; rewrite map_map; apply map_id|].
  set (d := map _ (dkeys s)).
  assert (Nr : NoDup (dkeys rs)) by (unfold dkeys; rewrite Kr; exact Nc).
  assert (Get : forall ax t, dget d ax = Some t -> forall c u, dget rs c = Some u -> leaf_at t [c] = option_map (fun a => OpArr a) (dget u ax)).
  { intros ax t H c u Hu. apply dget_In in H. unfold d in H. apply in_map_iff in H. destruct H as (ax' & [= -> <-] & _). cbn [leaf_at].
    rewrite (flat_map_ext' _ (fun kv => match option_map (fun a => Leaf (OpArr a)) (dget (snd kv) ax) with Some a => [(fst kv, a)] | None => [] end)) by (intros [k w]; cbn; destruct (dget w ax); reflexivity).
    rewrite (dget_flat_map (fun w => option_map (fun a => Leaf (OpArr a)) (dget w ax)) rs c u Nr Hu). destruct (dget u ax); reflexivity. }
  assert (Has : forall ax, In ax (dkeys s) -> exists t, dget d ax = Some t).
  { intros ax H. apply dget_Some_key. unfold d, dkeys. rewrite map_map. cbn [fst]. rewrite map_id. exact H. }
  intros c a Dc. destruct (One c _ Dc) as (a' & u & [= <-] & Wa & Eu & Ec). destruct (Gr c _ Dc) as (u' & Du & Ec'). assert (u' = u) by congruence. subst u'.
  destruct (unravel_index_spec a sh u Wa N Eu) as (Ku & Vu & El). split.
  - intros ax t Hax Ht. assert (Hk : In ax (dkeys u)) by (rewrite Ku; exact Hax). apply dget_Some_key in Hk. destruct Hk as (v & Hv).
    exists v. rewrite (Get ax t Ht c u Du), Hv. split; [reflexivity|]. exact (Vu ax v Hv).
  - intros e He. destruct (El e He) as (idx & F & R). exists idx. split; [|exact R].
    assert (Q : forall kv, In kv sh -> In (fst kv) (dkeys s)) by (intros kv Hkv; apply I; exact (in_map fst _ _ Hkv)).
    clear - F Get Has Du Q. induction F as [|kv i sh' idx H _ IH]; constructor.
    + destruct H as (Hi & v & Hv & Ev). split; [exact Hi|]. destruct (Has (fst kv)) as (t & Ht); [apply Q; now left|]. exists t, v.
      split; [exact Ht|]. split; [rewrite (Get _ t Ht c u Du), Hv; reflexivity|exact Ev].
    + apply IH. intros; apply Q; now right.
Qed.

(** an axis that the indices do not have *)
Theorem vec_unravel_missing ty (cs : dict (operand Z)) (s sh : shape) ax :
  NoDup (dkeys sh) -> vec_shape (Node ty (as_leaves cs)) = Ok s -> In ax (dkeys sh) -> ~ In ax (dkeys s) -> cs <> [] ->
  (forall c o, In (c, o) cs -> exists a, o = OpArr a /\ wf a /\ (sh = [] -> s_axes a = []) /\
     forall e, inside e (sshape a) -> (0 <= at_ a e < Z.of_nat (total_size sh (dkeys sh)))%Z) ->
  vec_unravel_index ty cs sh = Err KeyError.
Proof.
  intros N Sv Hax Hs Ne Hc. unfold vec_unravel_index. rewrite Sv. cbn [bind].
  destruct cs as [|[c o] cs]; [congruence|]. destruct (Hc c o (or_introl eq_refl)) as (a & -> & Wa & Q).
  destruct (proj2 (unravel_index_success a sh Wa N) Q) as (u & E). cbn [traverse fst snd unravel_component]. rewrite E. cbn [bind].
  destruct (unravel_index_spec a sh u Wa N E) as (K & _). rewrite K.
  assert (X : forallb (fun ax => smem ax (dkeys s)) (dkeys sh) = false); [|rewrite X; reflexivity].
  apply not_true_iff_false. intros T. apply Hs. rewrite forallb_forall in T. now apply smem_In, T.
Qed.
