(** Facts about [np.nonzero]. *)
From Coq Require Import String List Arith ZArith Bool Lia Sorted.
From Verif Require Import Base BaseFacts Numpy NumpyFacts Shapes Scalar Elementwise Vector History Spec SpecVector SpecVectorReduce
  SpecNonzero Nonzero ShapesFacts AlignFacts GetitemFacts SetitemFacts AlongFacts SortingFacts LinspaceFacts VectorFacts
  CartesianFacts VectorIndexFacts PdfFacts VectorReduceFacts HistoryFacts.
Import ListNotations.
Open Scope nat_scope.
Open Scope list_scope.

Definition flat (axes : list string) : string := String.concat "*" axes.

Lemma found_true {A} (truth : A -> bool) (a : sarr A) l : found truth a l <-> true_positions (smap truth a) l.
Proof. unfold found, true_positions. reflexivity. Qed.

Lemma found_list {A} (truth : A -> bool) (a : sarr A) l : wf a -> found truth a l ->
  l = filter (fun i => truth (nget (s_nd a) i)) (ndindex (nshape (s_nd a))).
Proof.
  intros W P. apply (true_positions_unique _ _ _ (proj1 (found_true truth a l) P)).
  exact (mask_positions (smap truth a) (smap_wf truth a W)).
Qed.

Lemma found_exist {A} (truth : A -> bool) (a : sarr A) : wf a -> exists l, found truth a l.
Proof. intros W. eexists. apply found_true. apply mask_positions. now apply smap_wf. Qed.

(** what the arrays are *)
Definition column (axes : list string) (l : list (list nat)) (r : nat) : sarr Z :=
  mkS (mkNd [length l] (fun i => Z.of_nat (nth r (nth (nth 0 i 0) l []) 0))) [flat axes].

Lemma mapM_columns name axes (xs : list (nd Z)) : Forall (fun x => ndim x = 1) xs ->
  mapM (fun kx : string * nd Z => b <- mk_sarr (snd kx) [name] ;; Ok (fst kx, b)) (combine axes xs) =
  Ok (combine axes (map (fun x => mkS x [name]) xs)).
Proof.
  revert axes. induction xs as [|x xs IH]; intros axes F; [destruct axes; reflexivity|].
  destruct axes as [|ax axes]; [reflexivity|]. inversion F as [|? ? E F']; subst. cbn [combine mapM map fst snd].
  unfold mk_sarr at 1. rewrite E. cbn [length Nat.eqb negb nodupb]. cbn. now rewrite IH.
Qed.

Lemma na_nonzero_eq {A} (truth : A -> bool) (a : sarr A) l : wf a -> s_axes a <> [] -> found truth a l ->
  na_nonzero truth a = Ok (combine (s_axes a) (map (column (s_axes a) l) (seq 0 (length (s_axes a))))).
Proof.
  intros W Ne P. unfold na_nonzero, np_nonzero, ndim. rewrite <- (found_list truth a l W P).
  destruct W as [N L].
  assert (Q : sshape a <> []).
  { unfold sshape. destruct (s_axes a), (nshape (s_nd a)); try discriminate; congruence. }
  destruct (sshape a); [congruence|].
  replace (flatten_axes (s_axes a)) with (Ok (flat (s_axes a))) by (destruct (s_axes a); [congruence|reflexivity]).
  cbn [bind]. rewrite <- L. rewrite mapM_columns.
  - now rewrite map_map.
  - apply Forall_forall. intros x H. apply in_map_iff in H. destruct H as (r & <- & _). reflexivity.
Qed.

Lemma column_wf axes l r : wf (column axes l r).
Proof. split; [repeat constructor; intros []|reflexivity]. Qed.

Lemma column_shape axes l r : sshape (column axes l r) = [(flat axes, length l)].
Proof. reflexivity. Qed.

Lemma combine_nth_both {X Y} (l : list X) (m : list Y) i x y :
  nth_error l i = Some x -> nth_error m i = Some y -> In (x, y) (combine l m).
Proof.
  revert m i. induction l as [|x' l IH]; intros [|y' m] [|i] H G; try discriminate; simpl in *.
  - injection H as ->. injection G as ->. now left.
  - right. eapply IH; eauto.
Qed.

(** the entry of an axis is its column *)
Lemma columns_dget axes l ax : NoDup axes -> In ax axes ->
  exists r, nth_error axes r = Some ax /\
    dget (combine axes (map (column axes l) (seq 0 (length axes)))) ax = Some (column axes l r).
Proof.
  intros N H. apply In_nth_error in H. destruct H as (r & E). exists r. split; [exact E|].
  apply dget_NoDup.
  - rewrite dkeys_combine; [exact N|]. now rewrite map_length, seq_length.
  - assert (Lr : r < length axes) by (apply nth_error_Some; congruence).
    apply (combine_nth_both _ _ r); [exact E|].
    apply map_nth_error. rewrite nth_error_nth' with (d := 0) by now rewrite seq_length. now rewrite seq_nth.
Qed.

Lemma column_at axes l r ax e (e' : env) : nth_error axes r = Some ax -> nth_error l (e (flat axes)) = Some (map e' axes) ->
  at_ (column axes l r) e = Z.of_nat (e' ax).
Proof.
  intros E H. unfold at_, column. cbn. f_equal. rewrite (nth_error_nth l _ [] H).
  apply nth_error_nth. now apply map_nth_error.
Qed.

(** ** The positions *)

Lemma na_nonzero_spec {A} (truth : A -> bool) (a : sarr A) l : wf a -> s_axes a <> [] -> found truth a l ->
  exists d, na_nonzero truth a = Ok d /\ dkeys d = s_axes a /\
  forall ax b, dget d ax = Some b ->
    wf b /\ sshape b = [(String.concat "*" (s_axes a), length l)] /\
    forall e, inside e (sshape b) ->
      exists e', inside e' (sshape a) /\ truth (at_ a e') = true /\
        nth_error l (e (String.concat "*" (s_axes a))) = Some (map e' (s_axes a)) /\
        at_ b e = Z.of_nat (e' ax).
Proof.
  intros W Ne P. rewrite (na_nonzero_eq truth a l W Ne P). eexists. split; [reflexivity|].
  assert (K : dkeys (combine (s_axes a) (map (column (s_axes a) l) (seq 0 (length (s_axes a))))) = s_axes a).
  { apply dkeys_combine. now rewrite map_length, seq_length. }
  split; [exact K|]. intros ax b D.
  assert (Hax : In ax (s_axes a)).
  { rewrite <- K. apply dget_Some_key. eauto. }
  destruct (columns_dget (s_axes a) l ax (proj1 W) Hax) as (r & E & D'). rewrite D in D'. injection D' as ->.
  split; [apply column_wf|]. split; [reflexivity|]. intros e I.
  assert (Lt : e (flat (s_axes a)) < length l) by (apply I; rewrite column_shape; now left).
  destruct (nth_error l (e (flat (s_axes a)))) as [idx|] eqn:G; [|apply nth_error_None in G; lia].
  assert (Hi := nth_error_In _ _ G). apply (proj2 P) in Hi. destruct Hi as (e' & I' & T & ->).
  exists e'. split; [exact I'|]. split; [exact T|]. split; [exact G|]. now apply column_at.
Qed.

Lemma na_nonzero_0d {A} (truth : A -> bool) (a : sarr A) : wf a -> s_axes a = [] -> na_nonzero truth a = Ok [].
Proof. intros W E. unfold na_nonzero, sshape. now rewrite E. Qed.

(** ** Indexing by the positions *)

Lemma one_shape (r : shape) F n : NoDup (dkeys r) -> same_shape r [(F, n)] -> r = [(F, n)].
Proof.
  intros N S. destruct r as [|[ax k] r]; [destruct (proj2 (S F n)); now left|].
  assert (H := proj1 (S ax k) (or_introl eq_refl)). destruct H as [H|[]]. injection H as <- <-. f_equal.
  destruct r as [|[ax' k'] r]; [reflexivity|]. exfalso.
  assert (H := proj1 (S ax' k') (or_intror (or_introl eq_refl))). destruct H as [H|[]]. injection H as <- <-.
  inversion N as [|? ? Q _]; subst. apply Q. now left.
Qed.

Lemma broadcast_one l F n : l <> [] -> Forall (fun s : shape => s = [(F, n)]) l -> broadcast_shapes l = Ok [(F, n)].
Proof.
  intros Ne Fo. rewrite Forall_forall in Fo.
  assert (N : Forall (fun s : shape => NoDup (dkeys s)) l).
  { apply Forall_forall. intros s H. rewrite (Fo s H). repeat constructor. intros []. }
  assert (J : joint l [(F, n)]).
  { split; [repeat constructor; intros []|]. split.
    - intros s H. rewrite (Fo s H). intros ax k K. exists k. auto.
    - intros ax k K. destruct l as [|s l]; [congruence|]. exists s. split; [now left|]. rewrite (Fo s); [exact K|now left]. }
  destruct (joint_broadcast l _ N J) as (r & E & S). rewrite E. f_equal. apply one_shape; [|exact S].
  exact (proj1 (broadcast_shapes_ok l r N E)).
Qed.

Lemma dget_as_index d ax : dget (as_index d) ax = match dget d ax with Some b => Some (ItArr b) | None => None end.
Proof.
  induction d as [|[k b] d IH]; [reflexivity|]. cbn. destruct (String.eqb ax k); [reflexivity|exact IH].
Qed.

Lemma dkeys_as_index d : dkeys (as_index d) = dkeys d.
Proof. unfold as_index, dkeys. rewrite map_map. reflexivity. Qed.

Lemma shape_fun {A} (a : sarr A) ax n k : wf a -> In (ax, n) (sshape a) -> In (ax, k) (sshape a) -> n = k.
Proof.
  intros W H G. assert (N := wf_nodup a W). apply (dget_NoDup _ _ _ N) in H. apply (dget_NoDup _ _ _ N) in G. congruence.
Qed.

Lemma shape_has {A} (a : sarr A) ax : wf a -> In ax (s_axes a) -> exists n, In (ax, n) (sshape a).
Proof.
  intros W H. rewrite <- (wf_keys a W) in H. apply dget_Some_key in H. destruct H as (n & H). exists n. now apply dget_In.
Qed.

Lemma shape_axis {A} (a : sarr A) ax n : wf a -> In (ax, n) (sshape a) -> In ax (s_axes a).
Proof. intros W H. rewrite <- (wf_keys a W). apply (in_map fst) in H. exact H. Qed.

Lemma getitem_nonzero {A} (a r : sarr A) (m : sarr bool) : wf a -> wf m -> s_axes m <> [] -> getitem_mask a m = Ok r ->
  exists d r', na_nonzero (fun b => b) m = Ok d /\ getitem a (as_index d) = Ok r' /\ same_array r r'.
Proof.
  intros W Wm Ne H. destruct (found_exist (fun b => b) m Wm) as (l & P).
  assert (T : true_positions m l) by exact P.
  destruct (na_nonzero_spec (fun b => b) m l Wm Ne P) as (d & Ed & Kd & Vd).
  destruct (getitem_mask_full a m l r W Wm T H) as (Wr & Ar & Sr & Fr & Vr & _).
  destruct (proj1 (getitem_mask_success a m W Wm) (ex_intro _ r H)) as (Sub & Cl).
  assert (MF : mask_axis (s_axes m) = String.concat "*" (s_axes m)) by (destruct (s_axes m); [congruence|reflexivity]).
  rewrite MF in *. set (F := String.concat "*" (s_axes m)) in *.
  assert (ND : NoDup (dkeys (as_index d))) by (rewrite dkeys_as_index, Kd; apply Wm).
  assert (Dm : forall ax, In ax (s_axes m) -> exists b, dget d ax = Some b).
  { intros ax Hax. rewrite <- Kd in Hax. now apply dget_Some_key. }
  assert (Dn : forall ax, ~ In ax (s_axes m) -> dget d ax = None).
  { intros ax Hax. apply dget_None. now rewrite Kd. }
  assert (Fi : Forall (fun kv => item_wf (snd kv)) (as_index d)).
  { apply Forall_forall. intros [ax i] Hi. apply (dget_NoDup _ _ _ ND) in Hi. rewrite dget_as_index in Hi.
    destruct (dget d ax) as [b|] eqn:D; [|discriminate]. injection Hi as <-. exact (proj1 (Vd ax b D)). }
  assert (Sub' : forall ax, In ax (s_axes m) -> In ax (s_axes a)).
  { intros ax Hax. destruct (shape_has m ax Wm Hax) as (n & Hn). exact (shape_axis a ax n W (Sub ax n Hn)). }
  assert (BS : broadcast_shapes (index_shapes (s_axes a) (as_index d)) = Ok [(F, length l)]).
  { apply broadcast_one.
    - destruct (s_axes m) as [|x ms] eqn:Em; [congruence|]. destruct d as [|[k b] d]; [discriminate|]. injection Kd as -> _.
      cbn. rewrite (proj2 (smem_In x (s_axes a))) by (apply Sub'; now left). discriminate.
    - apply Forall_forall. intros s Hs. unfold index_shapes in Hs. apply in_flat_map in Hs.
      destruct Hs as ([ax i] & Hi & Hs). apply (dget_NoDup _ _ _ ND) in Hi. rewrite dget_as_index in Hi.
      destruct (dget d ax) as [b|] eqn:D; [|discriminate]. injection Hi as <-. cbn in Hs.
      destruct (smem ax (s_axes a)); [|contradiction]. destruct Hs as [<- |[]]. exact (proj1 (proj2 (Vd ax b D))). }
  assert (Keep : forall ax, keeps_axis (dget (as_index d) ax) = negb (smem ax (s_axes m))).
  { intros ax. rewrite dget_as_index. destruct (smem ax (s_axes m)) eqn:S.
    - apply smem_In in S. destruct (Dm ax S) as (b & ->). reflexivity.
    - rewrite Dn; [reflexivity|]. intros Q. apply smem_In in Q. congruence. }
  assert (Hex : exists r', getitem a (as_index d) = Ok r').
  { apply (getitem_success a (as_index d) W ND Fi). exists [(F, length l)]. split; [exact BS|]. split.
    - intros ax n Hn. rewrite dget_as_index. destruct (dget d ax) as [b|] eqn:D; [|exact I]. cbn. intros e Ie.
      destruct (Vd ax b D) as (_ & _ & V). destruct (V e Ie) as (e' & I' & _ & _ & ->).
      assert (Hm : In ax (s_axes m)) by (rewrite <- Kd; apply dget_Some_key; eauto).
      destruct (shape_has m ax Wm Hm) as (k & Hk). assert (k = n) by exact (shape_fun a ax k n W (Sub _ _ Hk) Hn). subst k.
      assert (e' ax < n) by exact (I' ax n Hk). unfold in_range. lia.
    - intros ax Q Hin. destruct Q as [Q|[]]. cbn [fst] in Q. rewrite Keep. rewrite (proj2 (smem_In ax (s_axes m))); [reflexivity|].
      rewrite <- Q in *. auto. }
  destruct Hex as (r' & G). exists d, r'. split; [exact Ed|]. split; [exact G|].
  destruct (getitem_full a (as_index d) r' W ND Fi G) as (Wr' & Vr' & sa & BS' & Ar' & Sa & Sk).
  rewrite BS in BS'. injection BS' as <-. cbn [dkeys map fst app] in Ar'.
  assert (SS : same_shape (sshape r) (sshape r')).
  { intros ax n. split; intros Hn.
    - assert (Hax := shape_axis r ax n Wr Hn). rewrite Ar in Hax. apply in_app_iff in Hax. destruct Hax as [Hax|[<- |[]]].
      + apply filter_In in Hax. destruct Hax as (Ha & Hm). destruct (shape_has a ax W Ha) as (k & Hk).
        assert (Nm : ~ In ax (s_axes m)).
        { intros Q. apply smem_In in Q. rewrite Q in Hm. discriminate. }
        rewrite (shape_fun r ax n k Wr Hn (Sr ax k Hk Nm)).
        assert (Har' : In ax (s_axes r')).
        { rewrite Ar'. right. apply filter_In. now rewrite Keep. }
        destruct (shape_has r' ax Wr' Har') as (j & Hj).
        assert (Q := Sk ax k j Hk ltac:(now rewrite Keep) Hj). rewrite dget_as_index, (Dn ax Nm) in Q. now subst j.
      + rewrite (shape_fun r F n (length l) Wr Hn Fr). apply Sa. now left.
    - assert (Hax := shape_axis r' ax n Wr' Hn). rewrite Ar' in Hax. destruct Hax as [<- |Hax].
      + rewrite (shape_fun r' F n (length l) Wr' Hn (Sa _ _ (or_introl eq_refl))). exact Fr.
      + apply filter_In in Hax. destruct Hax as (Ha & Hm). destruct (shape_has a ax W Ha) as (k & Hk).
        assert (Nm : ~ In ax (s_axes m)).
        { intros Q. apply smem_In in Q. rewrite Keep, Q in Hm. discriminate. }
        assert (Q := Sk ax k n Hk Hm Hn). rewrite dget_as_index, (Dn ax Nm) in Q. subst k. now apply Sr. }
  split; [exact SS|]. intros e Ie.
  destruct (Vr e Ie) as (e1 & I1 & _ & N1 & O1 & ->).
  destruct (Vr' e) as (e2 & I2 & -> & S2); [intros ax n Hn; apply Ie; now apply SS|].
  apply AlongFacts.at_ext. intros ax Hax. destruct (shape_has a ax W Hax) as (n & Hn). assert (S2' := S2 ax n Hn).
  rewrite dget_as_index in S2'. destruct (in_dec string_dec ax (s_axes m)) as [Hm|Hm].
  - destruct (Dm ax Hm) as (b & D). rewrite D in S2'. cbn in S2'.
    destruct (Vd ax b D) as (Wb & Sb & V).
    assert (Ib : inside e (sshape b)).
    { rewrite Sb. intros ax' n' [Q|[]]. injection Q as <- <-. apply Ie. exact Fr. }
    destruct (V e Ib) as (e3 & _ & _ & N3 & E3). rewrite (bat_inside b e) in S2' by auto. rewrite E3 in S2'.
    fold F in N3. rewrite N1 in N3. injection N3 as N3.
    assert (Q13 : e1 ax = e3 ax).
    { clear -N3 Hm. induction (s_axes m) as [|x xs IH]; [contradiction|]. cbn in N3. injection N3 as Q1 Q2.
      destruct Hm as [-> |Hm]; auto. }
    destruct S2' as (_ & S2'). destruct (Z.of_nat (e3 ax) <? 0)%Z eqn:Q; [apply Z.ltb_lt in Q; lia|]. lia.
  - rewrite (Dn ax Hm) in S2'. cbn in S2'. rewrite S2'. now apply O1.
Qed.

(** ** Vectors *)

Definition nz (x : Z) : bool := negb (x =? 0)%Z.

(** what the accumulated components are *)
Definition land_of (l : list (operand Z)) (o : operand Z) : Prop :=
  op_wf o /\ same_outcome (broadcast_shapes (map op_shape l)) (Ok (op_shape o)) /\
  ((exists y, o = OpNum y) <-> forall x, In x l -> exists y, x = OpNum y) /\
  forall e, within e (op_shape o) -> op_at o e = if forallb (fun x => nz (op_at x e)) l then 1%Z else 0%Z.

Lemma bits_within o e : op_wf o -> bits o -> within e (op_shape o) -> op_at o e = 0%Z \/ op_at o e = 1%Z.
Proof.
  intros W B I. assert (N := op_shape_NoDup o W).
  rewrite <- (op_at_clamp o (op_shape o) e W N) by (intros; now right). apply B. now apply VectorIndexFacts.clamp_inside.
Qed.

Lemma op_shapes_nodups (l : list (operand Z)) : Forall op_wf l -> Forall (fun s : shape => NoDup (dkeys s)) (map op_shape l).
Proof.
  intros W. apply Forall_forall. intros s H. apply in_map_iff in H. destruct H as (y & <- & Hy).
  rewrite Forall_forall in W. apply op_shape_NoDup. auto.
Qed.

Lemma land_step l o x r : Forall op_wf l -> op_wf x -> bits x -> land_of l o -> op_ufunc bit_and [o; x] = Ok r ->
  land_of (l ++ [x]) r.
Proof.
  intros Wl Wx Bx (Wo & So & No & Vo) U. assert (W2 : Forall op_wf [o; x]) by (repeat constructor; auto).
  assert (E := op_ufunc_spec bit_and [o; x] r W2 U).
  assert (E' := E). destruct E' as (Wr & _ & _ & Nr). split; [exact Wr|].
  assert (S2 := elementwise_shape _ _ _ W2 E). simpl in S2.
  assert (Nl := op_shapes_nodups l Wl). assert (N2 := op_shapes_nodups [o; x] W2). simpl in N2.
  assert (So' := So). destruct (broadcast_shapes (map op_shape l)) as [sl|] eqn:Sl; [|contradiction]. simpl in So.
  split; [|split].
  - rewrite map_app. simpl.
    assert (G := broadcast_shapes_groups [map op_shape l; [op_shape x]] [sl; op_shape x]).
    simpl in G. eapply same_outcome_trans; [apply G|].
    + constructor; [exact Nl|]. constructor; [|constructor]. constructor; [now apply op_shape_NoDup|constructor].
    + constructor; [exact Sl|]. constructor; [reflexivity|constructor].
    + eapply same_outcome_trans; [|exact S2].
      assert (Nsl : NoDup (dkeys sl)) by exact (proj1 (broadcast_shapes_ok _ sl Nl Sl)).
      assert (Q := broadcast_shapes_same [sl; op_shape x] [op_shape o; op_shape x]).
      unfold same_outcome. apply Q; [|repeat constructor; auto; now apply op_shape_NoDup|exact N2].
      constructor; [exact So|]. constructor; [|constructor]. intros ? ?; tauto.
  - rewrite Nr. split.
    + intros H y Hy. apply in_app_iff in Hy. destruct Hy as [Hy|[<- |[]]]; [|apply H; now (right; left)].
      apply No; [|exact Hy]. apply H. now left.
    + intros H y [<- |[<- |[]]].
      * apply No. intros y Hy. apply H. apply in_app_iff. now left.
      * apply H. apply in_app_iff. right. now left.
  - intros e I. rewrite (elementwise_within _ _ _ e W2 E I). cbn [map bit_and]. rewrite forallb_app. cbn [forallb].
    rewrite Vo by (eapply (within_covered e (op_shape o)); [exact N2|exact S2|now left|exact I]).
    assert (Ix : within e (op_shape x)) by (eapply (within_covered e (op_shape x)); [exact N2|exact S2|right; now left|exact I]).
    destruct (bits_within x e Wx Bx Ix) as [-> | ->]; destruct (forallb _ l); reflexivity.
Qed.

Lemma land_fold (cs : dict (operand Z)) : forall l o r,
  Forall op_wf (map snd cs) -> Forall bits (map snd cs) -> Forall op_wf l -> land_of l o ->
  foldM (fun acc kv => op_ufunc bit_and [acc; snd kv]) cs o = Ok r -> land_of (l ++ map snd cs) r.
Proof.
  induction cs as [|[c x] cs IH]; intros l o r W B Wl L H.
  - cbn in H. injection H as <-. now rewrite app_nil_r.
  - cbn [foldM snd map] in *. inversion W as [|? ? Wx W']; subst. inversion B as [|? ? Bx B']; subst.
    apply bind_ok in H. destruct H as (o' & U & H). assert (L' := land_step l o x o' Wl Wx Bx L U).
    replace (l ++ x :: map snd cs) with ((l ++ [x]) ++ map snd cs) by now rewrite <- app_assoc.
    apply (IH _ o'); auto. apply Forall_app. auto.
Qed.

Lemma op_fits_broadcast (os : list (operand Z)) T : Forall op_wf os -> NoDup (dkeys T) ->
  (forall o, In o os -> fits_in (op_shape o) T) -> exists sh, broadcast_shapes (op_shapes os) = Ok sh /\ fits_in sh T.
Proof.
  intros W N Fs. apply PdfFacts.fits_broadcast; [now apply op_shapes_nodup|exact N|].
  intros s H. unfold op_shapes in H. apply in_flat_map in H. destruct H as ([a|x] & Ha & H); [|contradiction].
  destruct H as [<- |[]]. exact (Fs _ Ha).
Qed.

Lemma land_total T (cs : dict (operand Z)) : forall o,
  Forall op_wf (map snd cs) -> op_wf o -> NoDup (dkeys T) -> fits_in (op_shape o) T ->
  (forall x, In x (map snd cs) -> fits_in (op_shape x) T) ->
  exists r, foldM (fun acc kv => op_ufunc bit_and [acc; snd kv]) cs o = Ok r.
Proof.
  induction cs as [|[c x] cs IH]; intros o W Wo N Fo Fs; [cbn; eauto|]. cbn [foldM snd map] in *.
  inversion W as [|? ? Wx W']; subst. assert (W2 : Forall op_wf [o; x]) by (repeat constructor; auto).
  destruct (op_fits_broadcast [o; x] T W2 N) as (sh & S & Fsh).
  { intros y [<- |[<- |[]]]; [exact Fo|]. apply Fs. now left. }
  destruct (op_ufunc_intro bit_and [o; x] sh W2 S) as (r & U). rewrite U. cbn [bind].
  destruct (op_ufunc_spec bit_and [o; x] r W2 U) as (Wr & Sr & _).
  rewrite S in Sr. injection Sr as ->. apply IH; auto. intros y Hy. apply Fs. now right.
Qed.

Lemma land_err (cs : dict (operand Z)) : forall o e,
  Forall op_wf (map snd cs) -> op_wf o ->
  foldM (fun acc kv => op_ufunc bit_and [acc; snd kv]) cs o = Err e -> e = ValueError.
Proof.
  induction cs as [|[c x] cs IH]; intros o e W Wo H; [discriminate|]. cbn [foldM snd map] in *.
  inversion W as [|? ? Wx W']; subst. assert (W2 : Forall op_wf [o; x]) by (repeat constructor; auto).
  destruct (op_ufunc bit_and [o; x]) as [r|e'] eqn:U; cbn [bind] in H.
  - apply (IH r e W'); [|exact H]. exact (proj1 (op_ufunc_spec bit_and [o; x] r W2 U)).
  - injection H as <-. exact (proj1 (op_ufunc_err bit_and [o; x] e' W2 U)).
Qed.

Lemma vec_nonzero_spec (cs : dict (operand Z)) (T : shape) :
  Forall op_wf (map snd cs) -> Forall bits (map snd cs) -> joint (map op_shape (map snd cs)) T ->
  (exists o, In (OpArr o) (map snd cs)) ->
  exists m, wf m /\ same_shape (sshape m) T /\
    (forall e, inside e (sshape m) -> (at_ m e = true <-> forall x, In x (map snd cs) -> op_at x e <> 0%Z)) /\
    vec_nonzero cs = na_nonzero (fun b => b) m.
Proof.
  intros W B J (a0 & Ha0).
  destruct (land_total T cs (OpNum 1%Z) W I (proj1 J)) as (o & Fo).
  { intros ax n []. }
  { intros x Hx. apply (proj1 (proj2 J)). now apply in_map. }
  assert (L : land_of ([] ++ map snd cs) o).
  { apply (land_fold cs [] (OpNum 1%Z)); auto.
    split; [exact I|]. split; [intros ? ?; tauto|]. split; [|reflexivity]. split; [intros _ x []|]. eauto. }
  cbn [app] in L. destruct L as (Wo & So & No & Vo).
  destruct o as [acc|x].
  2: { exfalso. destruct (proj1 No (ex_intro _ x eq_refl) _ Ha0) as (y & Q). discriminate. }
  exists (smap nz acc). split; [now apply smap_wf|]. split; [|split].
  - change (sshape (smap nz acc)) with (sshape acc).
    destruct (broadcast_shapes (map op_shape (map snd cs))) as [sh|] eqn:Sh; [|contradiction]. cbn in So.
    destruct (joint_broadcast _ T (op_shapes_nodups _ W) J) as (sh' & Sh' & Q). rewrite Sh in Sh'. injection Sh' as <-.
    intros ax n. now rewrite <- (So ax n), (Q ax n).
  - intros e Ie. change (sshape (smap nz acc)) with (sshape acc) in Ie.
    change (at_ (smap nz acc) e) with (nz (at_ acc e)).
    assert (Q := Vo e). cbn [op_at op_shape] in Q. rewrite (bat_in acc e Ie) in Q.
    rewrite Q by (intros ax n Hn; right; now apply Ie).
    destruct (forallb (fun x => nz (op_at x e)) (map snd cs)) eqn:Fb.
    + split; [|reflexivity]. intros _ x Hx Z0. rewrite forallb_forall in Fb. specialize (Fb x Hx). unfold nz in Fb.
      rewrite Z0 in Fb. discriminate.
    + split; [discriminate|]. intros Hx. exfalso. assert (Q' : forallb (fun x => nz (op_at x e)) (map snd cs) = true).
      { apply forallb_forall. intros x H. unfold nz. apply negb_true_iff, Z.eqb_neq. auto. }
      congruence.
  - unfold vec_nonzero. rewrite Fo. reflexivity.
Qed.

Lemma vec_nonzero_conflict (cs : dict (operand Z)) :
  Forall op_wf (map snd cs) -> Forall bits (map snd cs) -> ~ (exists T, joint (map op_shape (map snd cs)) T) ->
  vec_nonzero cs = Err ValueError.
Proof.
  intros W B J. unfold vec_nonzero.
  destruct (foldM (fun acc kv => op_ufunc bit_and [acc; snd kv]) cs (OpNum 1%Z)) as [o|e] eqn:Fo; cbn [bind].
  - exfalso. assert (L : land_of ([] ++ map snd cs) o).
    { apply (land_fold cs [] (OpNum 1%Z)); auto.
      split; [exact I|]. split; [intros ? ?; tauto|]. split; [|reflexivity]. split; [intros _ x []|]. eauto. }
    cbn [app] in L. destruct L as (_ & So & _).
    destruct (broadcast_shapes (map op_shape (map snd cs))) as [sh|] eqn:Sh; [|contradiction].
    apply J. exists sh. apply broadcast_joint; [now apply op_shapes_nodups|exact Sh].
  - now rewrite (land_err cs (OpNum 1%Z) e W I Fo).
Qed.

Lemma vec_nonzero_numbers (cs : dict (operand Z)) : (forall x, In x (map snd cs) -> exists z, x = OpNum z) ->
  vec_nonzero cs = Err ValueError.
Proof.
  unfold vec_nonzero. generalize 1%Z as z. induction cs as [|[c x] cs IH]; intros z H; [reflexivity|].
  cbn [foldM snd map] in *. destruct (H x (or_introl eq_refl)) as (y & ->).
  unfold op_ufunc at 1. cbn [forallb is_num andb bind]. apply IH. intros x Hx. apply H. now right.
Qed.
