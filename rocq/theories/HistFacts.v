(** Facts about histograms. *)
From Coq Require Import String List Arith ZArith Bool Lia QArith Qcanon.
From Verif Require Import Base BaseFacts Numpy NumpyFacts Shapes Scalar Elementwise Reduce Derived Interp Hist Spec SpecNumeric SpecHist
  ShapesFacts AlignFacts GetitemFacts SetitemFacts ReorderFacts ReduceFacts SortingFacts AlongFacts VectorFacts VectorIndexFacts
  OptimizeFacts RankFacts RankdataFacts LinspaceFacts InterpFacts PdfFacts FuncFacts MatrixFacts UncertainIndexFacts.
Import ListNotations.
Open Scope nat_scope.
Open Scope list_scope.

(** ** Indexing with integers along some axes *)

Definition over (i : dict nat) (e : env) : env := fun ax => match dget i ax with Some p => p | None => e ax end.

Lemma dget_int_items i ax : dget (int_items i) ax = option_map (fun p => ItInt (Z.of_nat p)) (dget i ax).
Proof. unfold int_items. now rewrite <- (dget_map_snd (fun p => ItInt (Z.of_nat p))). Qed.

Lemma dkeys_int_items i : dkeys (int_items i) = dkeys i.
Proof. unfold int_items, dkeys. rewrite map_map. now apply map_ext. Qed.

Lemma int_items_wf i : Forall (fun kv => item_wf (snd kv)) (int_items i).
Proof. unfold int_items. apply Forall_forall. intros kv H. apply in_map_iff in H as [x [<- _]]. exact Logic.I. Qed.

Lemma int_items_py i : Forall (fun kv => item_py (snd kv)) (int_items i).
Proof. unfold int_items. apply Forall_forall. intros kv H. apply in_map_iff in H as [x [<- _]]. exact Logic.I. Qed.

Lemma int_items_shapes i axes : index_shapes axes (int_items i) = [].
Proof. unfold index_shapes, int_items. induction i; simpl; auto. Qed.

Lemma index_is_nat n p q : p < n -> (index_is n (Z.of_nat p) q <-> q = p).
Proof. intros H. unfold index_is. destruct (Z.ltb_spec (Z.of_nat p) 0); lia. Qed.

Lemma int_selects n i e ax p : (forall q, dget i ax = Some q -> q < n) ->
  (selects n (dget (int_items i) ax) e ax p <-> p = over i e ax).
Proof.
  intros H. rewrite dget_int_items. unfold over, selects. destruct (dget i ax) as [q|]; simpl; [|tauto].
  apply index_is_nat. auto.
Qed.

Lemma int_keeps i ax : keeps_axis (dget (int_items i) ax) = negb (smem ax (dkeys i)).
Proof.
  rewrite dget_int_items. destruct (dget i ax) as [q|] eqn:E; simpl.
  - apply dget_In in E. apply (in_map fst) in E. apply smem_In in E. simpl in E. unfold dkeys. now rewrite E.
  - apply dget_None in E. apply smem_false in E. now rewrite E.
Qed.

Lemma int_getitem {A} (a : sarr A) (i : dict nat) : wf a -> NoDup (dkeys i) ->
  (forall ax n p, In (ax, n) (sshape a) -> dget i ax = Some p -> p < n) ->
  exists r, getitem a (int_items i) = Ok r /\ wf r /\
    s_axes r = filter (fun ax => negb (smem ax (dkeys i))) (s_axes a) /\
    (forall ax n, In (ax, n) (sshape r) <-> In (ax, n) (sshape a) /\ ~ In ax (dkeys i)) /\
    forall e, inside e (sshape r) -> at_ r e = at_ a (over i e).
Proof.
  intros W N R.
  assert (Ni : NoDup (dkeys (int_items i))) by (now rewrite dkeys_int_items).
  destruct (basic_getitem a (int_items i) W Ni) as (r & Gr & Wr & K1 & K2 & V).
  { intros ax v. rewrite dget_int_items. destruct (dget i ax); simpl; discriminate. }
  { intros ax n H. rewrite dget_int_items. destruct (dget i ax) as [p|] eqn:E; simpl; auto.
    specialize (R ax n p H E). unfold in_range. lia. }
  exists r. split; [auto|]. split; [auto|].
  destruct (getitem_full a (int_items i) r W Ni (int_items_wf i) Gr) as (_ & _ & sa & ES & Ax & _).
  rewrite int_items_shapes in ES. injection ES as <-. simpl in Ax.
  assert (SH : forall ax n, In (ax, n) (sshape r) <-> In (ax, n) (sshape a) /\ ~ In ax (dkeys i)).
  { intros ax n. split.
    - intros H. destruct (K2 _ _ H) as (m & Hm & Kp). destruct (K1 _ _ Hm Kp) as (k & Hk & E).
      rewrite int_keeps in Kp. apply negb_true_iff, smem_false in Kp.
      rewrite dget_int_items in E. assert (dget i ax = None) as Z0 by (now apply dget_None). rewrite Z0 in E. simpl in E. subst k.
      assert (n = m) by (apply (entry_eq (sshape r) ax); auto; now apply wf_nodup). subst. auto.
    - intros [H Hn]. destruct (K1 ax n H) as (k & Hk & E).
      { rewrite int_keeps. apply negb_true_iff, smem_false. auto. }
      rewrite dget_int_items in E. assert (dget i ax = None) as Z0 by (now apply dget_None). rewrite Z0 in E. simpl in E. now subst. }
  split; [|split; [auto|]].
  - rewrite Ax. apply filter_ext. intros ax. apply int_keeps.
  - intros e He. destruct (V e He) as (e' & Ie' & -> & Sel). apply at_ext. intros ax Hax.
    rewrite <- wf_keys in Hax by auto. apply key_size in Hax as [n H].
    specialize (Sel _ _ H). apply (int_selects n i e ax) in Sel; auto. intros q Hq. eapply R; eauto.
Qed.

(** ** The bin of a sample *)

Lemma monotonic_nth l : monotonic l = true <->
  forall i j, i <= j -> j < length l -> (nth i l (qz 0) <= nth j l (qz 0))%Qc.
Proof.
  induction l as [|x l IH]; [simpl; split; auto; intros; lia|].
  destruct l as [|y l].
  - split; auto. intros _ i j Hij Hj. simpl in Hj. assert (i = 0) by lia. assert (j = 0) by lia. subst. apply Qcle_refl.
  - change (monotonic (x :: y :: l)) with (qc_leb x y && monotonic (y :: l)). rewrite andb_true_iff, IH. split.
    + intros [H1 H2] i j Hij Hj. apply qc_leb_le in H1. destruct j as [|j]; [assert (i = 0) by lia; subst; apply Qcle_refl|].
      destruct i as [|i].
      * change (x <= nth j (y :: l) (qz 0))%Qc. apply Qcle_trans with y; auto.
        change y with (nth 0 (y :: l) (qz 0)) at 1. apply H2; [lia|simpl in *; lia].
      * apply (H2 i j); [lia|simpl in *; lia].
    + intros H. split.
      * apply qc_leb_le. apply (H 0 1); simpl; lia.
      * intros i j Hij Hj. apply (H (S i) (S j)); simpl in *; lia.
Qed.

(** the number of edges up to [x] *)
Lemma count_leb l x : monotonic l = true -> let c := length (filter (fun y => qc_leb y x) l) in
  c <= length l /\ (forall i, i < c -> (nth i l (qz 0) <= x)%Qc) /\ (forall i, c <= i -> i < length l -> (x < nth i l (qz 0))%Qc).
Proof.
  induction l as [|y l IH]; intros M; cbn zeta.
  - simpl. split; [lia|]. split; intros; lia.
  - assert (M' : monotonic l = true) by (simpl in M; destruct l; auto; apply andb_true_iff in M; tauto).
    specialize (IH M'). cbn zeta in IH. destruct IH as (L & B & C). simpl.
    destruct (qc_leb y x) eqn:E; simpl.
    + apply qc_leb_le in E. split; [lia|]. split.
      * intros [|i] Hi; auto. apply B. lia.
      * intros [|i] Hi Hl; [lia|]. apply C; lia.
    + assert (Lt : (x < y)%Qc). { apply Qcnot_le_lt. intros F. apply qc_leb_le in F. congruence. }
      assert (Z0 : length (filter (fun y0 => qc_leb y0 x) l) = 0).
      { destruct (length (filter (fun y0 => qc_leb y0 x) l)) as [|c] eqn:Ec; auto. exfalso.
        specialize (B 0 ltac:(lia)). rewrite monotonic_nth in M. specialize (M 0 1 ltac:(lia)). simpl in M.
        assert (1 < S (length l)) by lia. specialize (M H). apply (Qclt_not_le _ _ Lt). eapply Qcle_trans; eauto. }
      rewrite Z0. split; [lia|]. split; [intros; lia|]. intros [|i] _ Hi; auto. apply C; lia.
Qed.

Lemma qc_eqb_eq x y : qc_eqb x y = true <-> x = y.
Proof.
  unfold qc_eqb. rewrite andb_true_iff, !qc_leb_le. split.
  - intros [? ?]. now apply Qcle_antisym.
  - intros ->. split; apply Qcle_refl.
Qed.

Lemma last_nth (l : list Qc) d : last l d = nth (length l - 1) l d.
Proof.
  induction l as [|x l IH]; auto. destruct l as [|y l]; auto.
  change (last (y :: l) d = nth (length (y :: l)) (x :: y :: l) d). rewrite IH. simpl. now rewrite Nat.sub_0_r.
Qed.

Lemma less_lt x y : less x y = true <-> (x < y)%Qc.
Proof.
  unfold less. destruct (Qclt_le_dec x y); split; auto; try discriminate.
  intros H. exfalso. eapply Qclt_not_le; eauto.
Qed.

Lemma in_cell_iff edge n k x : in_cell edge n k x = true <->
  ((edge k <= x)%Qc /\ (x < edge (S k))%Qc) \/ (S (S k) = n /\ x = edge (S k)).
Proof.
  unfold in_cell. rewrite orb_true_iff, !andb_true_iff, negb_true_iff, Nat.eqb_eq, less_lt.
  assert (less x (edge k) = false <-> (edge k <= x)%Qc).
  { rewrite <- not_true_iff_false, less_lt. split; [apply Qcnot_lt_le|apply Qcle_not_lt]. }
  destruct (Qc_eq_dec x (edge (S k))); intuition discriminate.
Qed.

Lemma in_cell_ext edge edge' n k x : edge k = edge' k -> edge (S k) = edge' (S k) -> in_cell edge n k x = in_cell edge' n k x.
Proof. unfold in_cell. now intros -> ->. Qed.

Lemma np_bin_cell l k x : monotonic l = true -> S k < length l ->
  (np_bin l x =? S k) = in_cell (fun i => nth i l (qz 0)) (length l) k x.
Proof.
  intros M Hk. destruct (count_leb l x M) as (L & B & C).
  unfold np_bin. set (c := length (filter (fun y => qc_leb y x) l)) in *. rewrite last_nth.
  apply eq_true_iff_eq. rewrite Nat.eqb_eq, in_cell_iff.
  rewrite monotonic_nth in M.
  destruct (qc_eqb x (nth (length l - 1) l (qz 0))) eqn:E.
  - apply qc_eqb_eq in E.
    assert (c = length l).
    { destruct (Nat.lt_ge_cases c (length l)) as [H|H]; [|lia]. exfalso.
      specialize (C (length l - 1) ltac:(lia) ltac:(lia)). rewrite <- E in C. exact (Qclt_not_eq _ _ C eq_refl). }
    split.
    + intros H'. right. split; [lia|]. rewrite E. f_equal. lia.
    + intros [[H1 H2]|[H1 H2]]; [|lia]. exfalso. specialize (M (S k) (length l - 1) ltac:(lia) ltac:(lia)).
      rewrite <- E in M. exact (Qclt_not_le _ _ H2 M).
  - assert (NE : x <> nth (length l - 1) l (qz 0)) by (intros F; apply qc_eqb_eq in F; congruence).
    split.
    + intros ->. left. split; [apply B; lia|apply C; lia].
    + intros [[H1 H2]|[H1 H2]].
      * destruct (Nat.lt_trichotomy c (S k)) as [H|[H|H]]; auto; exfalso.
        -- specialize (C k ltac:(lia) ltac:(lia)). exact (Qclt_not_le _ _ C H1).
        -- specialize (B (S k) H). exact (Qclt_not_le _ _ H2 B).
      * exfalso. apply NE. rewrite H2. f_equal. lia.
Qed.

(** a sample between the first and the last edge is in exactly one cell *)
Lemma one_cell (edge : nat -> Qc) n x : 2 <= n -> (forall i j, i <= j -> j < n -> (edge i <= edge j)%Qc) ->
  (edge 0%nat <= x)%Qc -> (x <= edge (n - 1)%nat)%Qc ->
  exists k, k < n - 1 /\ in_cell edge n k x = true /\ forall j, j < n - 1 -> in_cell edge n j x = true -> j = k.
Proof.
  intros Hn M Lo Hi.
  set (l := map edge (seq 0 n)).
  assert (Ll : length l = n) by (unfold l; now rewrite map_length, seq_length).
  assert (Nl : forall i, i < n -> nth i l (qz 0) = edge i).
  { intros i H. unfold l. rewrite (nth_indep _ (qz 0) (edge 0)) by (fold l; lia). rewrite map_nth, seq_nth; auto. }
  assert (Ml : monotonic l = true). { apply monotonic_nth. rewrite Ll. intros i j Hij Hj. rewrite !Nl by lia. auto. }
  assert (IC : forall k, k < n - 1 -> in_cell edge n k x = (np_bin l x =? S k)).
  { intros k Hk. rewrite np_bin_cell by (auto; lia). rewrite Ll. apply in_cell_ext; rewrite Nl; auto; lia. }
  assert (R : 1 <= np_bin l x <= n - 1).
  { destruct (count_leb l x Ml) as (L & B & C). unfold np_bin. set (c := length (filter (fun y => qc_leb y x) l)) in *.
    rewrite last_nth, Ll, Nl by lia. rewrite Ll in *.
    assert (1 <= c). { destruct c as [|c]; [|lia]. exfalso. specialize (C 0 ltac:(lia) ltac:(lia)). rewrite Nl in C by lia.
      exact (Qclt_not_le _ _ C Lo). }
    destruct (qc_eqb x (edge (n - 1))) eqn:E.
    - apply qc_eqb_eq in E. assert (c = n); [|lia]. destruct (Nat.lt_ge_cases c n) as [H'|H']; [|lia]. exfalso.
      specialize (C (n - 1) ltac:(lia) ltac:(lia)). rewrite Nl, <- E in C by lia. exact (Qclt_not_eq _ _ C eq_refl).
    - split; auto. destruct (Nat.lt_ge_cases c n) as [H'|H']; [lia|]. exfalso.
      specialize (B (n - 1) ltac:(lia)). rewrite Nl in B by lia.
      assert (x = edge (n - 1)) by now apply Qcle_antisym. apply qc_eqb_eq in H0. congruence. }
  exists (np_bin l x - 1). split; [lia|]. split.
  - rewrite IC by lia. apply Nat.eqb_eq. lia.
  - intros j Hj. rewrite IC by auto. intros H. apply Nat.eqb_eq in H. lia.
Qed.

(** ** Filtering positions and filtering elements *)

Lemma filter_positions {T X} (F : list T) (P : nat -> bool) (P' : T -> bool) (w : nat -> X) (w' : T -> X) :
  (forall j x, nth_error F j = Some x -> P j = P' x /\ w j = w' x) ->
  map w (filter P (seq 0 (length F))) = map w' (filter P' F).
Proof.
  revert P w. induction F as [|x F IH]; intros P w H; simpl; auto.
  destruct (H 0 x eq_refl) as [E1 E2]. rewrite <- seq_shift, filter_map_swap.
  assert (T1 := IH (fun j => P (S j)) (fun j => w (S j)) (fun j y Hy => H (S j) y Hy)).
  rewrite E1. destruct (P' x); simpl; rewrite map_map, T1; congruence.
Qed.

(** ** The samples that belong to one position of the other axes *)

Definition agrees (i : dict nat) (e : env) : Prop := forall ax p, dget i ax = Some p -> e ax = p.

Lemma over_agrees i e ax : agrees i e -> over i e ax = e ax.
Proof. intros H. unfold over. destruct (dget i ax) eqn:E; auto. symmetry. auto. Qed.

Lemma at_over {A} (a : sarr A) i e : agrees i e -> at_ a (over i e) = at_ a e.
Proof. intros H. apply at_ext. intros. now apply over_agrees. Qed.

Section Part.
Variable (sh : shape) (axis : list string).
Hypothesis (Nsh : NoDup (dkeys sh)) (Nax : NoDup axis).

Definition position (i : dict nat) : Prop :=
  dkeys i = dkeys (orthogonal sh axis) /\ forall ax n p, In (ax, n) sh -> dget i ax = Some p -> p < n.

Lemma position_nodup i : position i -> NoDup (dkeys i).
Proof. intros [-> _]. unfold orthogonal. apply (nodup_filter_keys (fun k => negb (smem k axis))). auto. Qed.

Lemma in_orthogonal ax n : In (ax, n) (orthogonal sh axis) <-> In (ax, n) sh /\ ~ In ax axis.
Proof. unfold orthogonal. rewrite filter_In. simpl. now rewrite negb_true_iff, smem_false. Qed.

Lemma orthogonal_key ax : In ax (dkeys (orthogonal sh axis)) <-> In ax (dkeys sh) /\ ~ In ax axis.
Proof.
  split.
  - intros H. apply key_size in H as [n H]. apply in_orthogonal in H as [H H']. split; auto. now apply (in_map fst) in H.
  - intros [H H']. apply key_size in H as [n H]. assert (In (ax, n) (orthogonal sh axis)) as T by now apply in_orthogonal.
    now apply (in_map fst) in T.
Qed.

Lemma flat_part_spec (a : sarr Qc) i e : wf a -> sshape a = sh -> position i -> agrees i e ->
  flat_part a i axis = Ok (map (at_ a) (fibre sh axis e)).
Proof.
  intros W E P G. unfold flat_part.
  destruct (int_getitem a i W (position_nodup i P)) as (r & Gr & Wr & Ax & Sr & Vr).
  { rewrite E. apply P. }
  rewrite Gr. cbn [bind].
  assert (I : incl (s_axes r) axis).
  { intros ax H. rewrite Ax in H. apply filter_In in H as [H H']. apply negb_true_iff, smem_false in H'.
    destruct P as [P _]. rewrite P in H'. rewrite <- wf_keys, E in H by auto.
    destruct (in_dec string_dec ax axis); auto. exfalso. apply H'. now apply orthogonal_key. }
  destruct (align_sub r axis Wr Nax I) as (n & -> & Sn & Vn). cbn [bind]. f_equal.
  unfold ravel. rewrite Sn.
  assert (Sz : map (asize r) axis = map (size_of sh) axis).
  { apply map_ext_in. intros ax Hax. unfold asize, size_of. destruct (dget sh ax) as [k|] eqn:Ek.
    - assert (In (ax, k) (sshape r)) as H.
      { apply Sr. rewrite E. split; [now apply dget_In|]. destruct P as [-> _]. rewrite orthogonal_key. tauto. }
      now rewrite (dget_NoDup _ _ _ (wf_nodup r Wr) H).
    - destruct (dget (sshape r) ax) as [k|] eqn:Ek'; auto. apply dget_In, Sr in Ek' as [Ek' _]. rewrite E in Ek'.
      rewrite (dget_NoDup _ _ _ Nsh Ek') in Ek. discriminate. }
  rewrite Sz. rewrite <- (map_fibre sh axis e (fun e' => nget n (map e' axis)) (nget n) Nax).
  - apply map_ext_in. intros e' He'. destruct (fibre_inside sh axis e e' He') as [F1 F2].
    rewrite Vn. change (at_ r e' = at_ a e').
    assert (A' : agrees i e').
    { intros ax p Hp. assert (~ In ax axis) as NI.
      { apply dget_In in Hp. apply (in_map fst) in Hp. simpl in Hp. change (In ax (dkeys i)) in Hp.
        destruct P as [P _]. rewrite P in Hp. apply orthogonal_key in Hp. tauto. }
      rewrite F2 by auto. auto. }
    rewrite Vr; [now apply at_over|].
    intros ax k Hk. assert (In ax axis) as Hax.
    { apply I. rewrite <- wf_keys by auto. now apply (in_map fst) in Hk. }
    specialize (F1 ax Hax). apply Sr in Hk as [Hk _]. rewrite E in Hk. now rewrite (size_of_In sh ax k) in F1.
  - intros e' red L Ee. f_equal. rewrite <- (map_env_of axis red Nax L). apply map_ext_in. intros x Hx.
    rewrite Ee. apply smem_In in Hx. now rewrite Hx.
Qed.
End Part.

(** ** The loop *)

Lemma mapM_exists {X T Y} (g : X -> T) (f : T -> res Y) (P : X -> Y -> Prop) l :
  (forall x, In x l -> exists y, f (g x) = Ok y /\ P x y) -> exists ys, mapM f (map g l) = Ok ys /\ Forall2 P l ys.
Proof.
  induction l as [|x l IH]; intros H; [exists []; split; auto|].
  destruct IH as (ys & E & F); [intros; apply H; simpl; auto|]. destruct (H x) as (y & Ey & Py); [simpl; auto|].
  exists (y :: ys). simpl. rewrite Ey. cbn [bind]. rewrite E. auto.
Qed.

Lemma mapM_maps {X T Y} (g : X -> T) (f : T -> res Y) (h : X -> Y) l :
  (forall x, In x l -> f (g x) = Ok (h x)) -> mapM f (map g l) = Ok (map h l).
Proof.
  intros H. induction l as [|x l IH]; auto. simpl. rewrite H by (simpl; auto). cbn [bind].
  rewrite IH; auto. intros; apply H; simpl; auto.
Qed.

Lemma Forall2_maps {X T Y} (R : X -> T -> Prop) (f : T -> res Y) (h : X -> Y) l ts : Forall2 R l ts ->
  (forall x t, In x l -> R x t -> f t = Ok (h x)) -> mapM f ts = Ok (map h l).
Proof.
  induction 1 as [|x t l ts Hx F IH]; intros H; auto. simpl. rewrite (H x t) by (simpl; auto). cbn [bind].
  rewrite IH; auto. intros; apply H; simpl; auto.
Qed.

Lemma Forall2_mapM {X T Y} (R : X -> T -> Prop) (f : T -> res Y) (P : X -> Y -> Prop) l ts : Forall2 R l ts ->
  (forall x t, In x l -> R x t -> exists y, f t = Ok y /\ P x y) -> exists ys, mapM f ts = Ok ys /\ Forall2 P l ys.
Proof.
  induction 1 as [|x t l ts Hx F IH]; intros H; [exists []; split; auto|].
  destruct IH as (ys & E & G); [intros; apply H; simpl; auto|]. destruct (H x t) as (y & Ey & Py); [simpl; auto|auto|].
  exists (y :: ys). simpl. rewrite Ey. cbn [bind]. rewrite E. auto.
Qed.

Section Core.
Variable (sh : shape) (axis : list string) (ds : list dimension) (w : option (sarr Qc)).
Hypothesis (Nsh : NoDup (dkeys sh)) (Nax : NoDup axis).
Let orth := orthogonal sh axis.
Hypothesis (Ds : forall d, In d ds -> edges_ok orth d /\ wf (d_sample d) /\ sshape (d_sample d) = sh).
Hypothesis (Nd : NoDup (map d_axis ds)).
Hypothesis (Ws : forall x, w = Some x -> wf x /\ sshape x = sh).
Hypothesis (D0 : ds <> []).

Lemma orth_nodup : NoDup (dkeys orth).
Proof. unfold orth, orthogonal. apply (nodup_filter_keys (fun k => negb (smem k axis))). auto. Qed.

Definition spread (d : dimension) (bb : sarr Qc) : Prop :=
  wf bb /\ (forall ax n, In (ax, n) (sshape bb) <-> In (ax, n) orth \/ (ax = d_axis d /\ n = d_count d)) /\
  forall e, at_ bb e = bat (d_edges d) e.

Lemma spread_ok d : In d ds ->
  exists bb, (t <- broadcast_shapes [orth; sshape (d_edges d)] ;; na_broadcast_to (d_edges d) t false) = Ok bb /\ spread d bb.
Proof.
  intros Hd. destruct (Ds d Hd) as ((We & Ha & Hn & Hc & Ft & _) & _).
  assert (In (d_axis d, d_count d) (sshape (d_edges d))) as Hdc.
  { rewrite <- wf_keys in Ha by auto. apply key_size in Ha as [n Ha]. unfold d_count.
    rewrite (size_of_In _ _ n); auto. now apply wf_nodup. }
  destruct (bs_attained [orth; sshape (d_edges d)] (orth ++ [(d_axis d, d_count d)])) as (t & Et & Nt & St).
  { unfold dkeys. rewrite map_app. apply NoDup_app_intro; [apply orth_nodup|simpl; repeat constructor; intros []|].
    intros x Hx [<- |[]]. contradiction. }
  { split.
    - intros s [<- |[<- |[]]]; (split; [apply orth_nodup || now apply wf_nodup|]); intros ax n H.
      + split; [|right; apply in_app_iff; auto]. apply (in_map fst) in H. unfold dkeys. rewrite map_app, in_app_iff. auto.
      + destruct (string_dec ax (d_axis d)) as [->|D].
        * assert (n = d_count d) as -> by (apply (entry_eq (sshape (d_edges d)) (d_axis d)); auto; now apply wf_nodup).
          split; [|right; apply in_app_iff; simpl; auto]. unfold dkeys. rewrite map_app, in_app_iff. simpl. auto.
        * destruct (Ft ax n H D) as (m & Hm & C). split.
          -- unfold dkeys. rewrite map_app, in_app_iff. left. now apply (in_map fst) in Hm.
          -- destruct C as [-> | ->]; auto. right. apply in_app_iff. auto.
    - intros ax n H. apply in_app_iff in H as [H|[H|[]]].
      + exists orth. simpl. auto.
      + injection H as <- <-. exists (sshape (d_edges d)). simpl. auto. }
  rewrite Et. cbn [bind].
  destruct (na_broadcast_to_intro (d_edges d) t We Nt) as (bb & Eb).
  { intros ax H. rewrite <- wf_keys in H by auto. apply key_size in H as [n H].
    destruct (string_dec ax (d_axis d)) as [->|D].
    - apply (in_map fst t (d_axis d, d_count d)). apply St, in_app_iff. simpl. auto.
    - destruct (Ft ax n H D) as (m & Hm & _). apply (in_map fst t (ax, m)). apply St, in_app_iff. auto. }
  { intros ax n H. apply dget_In in H. destruct (string_dec ax (d_axis d)) as [->|D].
    - right. apply St, in_app_iff. right. left. f_equal. apply (entry_eq (sshape (d_edges d)) (d_axis d)); auto. now apply wf_nodup.
    - destruct (Ft ax n H D) as (m & Hm & [-> | ->]); auto. right. apply St, in_app_iff. auto. }
  exists bb. split; auto. destruct (na_broadcast_to_ok _ _ _ We Nt Eb) as (_ & _ & Wb & Sb & Vb).
  split; [auto|]. split; [|auto]. intros ax n. rewrite Sb, (St ax n), in_app_iff. simpl. split.
  - intros [H|[H|[]]]; auto. injection H as <- <-. auto.
  - intros [H|[-> ->]]; auto.
Qed.

Lemma spread_bins : exists bs,
  mapM (fun b => t <- broadcast_shapes [orth; sshape b] ;; na_broadcast_to b t false) (map d_edges ds) = Ok bs /\
  Forall2 spread ds bs.
Proof. apply mapM_exists. apply spread_ok. Qed.

Lemma position_inside i e : position sh axis i -> agrees i e -> inside e orth.
Proof.
  intros [K R] G ax n H. assert (In ax (dkeys i)) as Hk by (rewrite K; now apply (in_map fst) in H).
  apply dget_Some_key in Hk as [p Hp]. rewrite (G _ _ Hp). apply (R ax n p); auto. now apply in_orthogonal in H.
Qed.

(** the edges at one position of the other axes *)
Definition edge_list (d : dimension) (e : env) : list Qc := map (d_edge d e) (seq 0 (d_count d)).

Definition part_of (e : env) (d : dimension) (b : sarr Qc) : Prop :=
  wf b /\ s_axes b = [d_axis d] /\ nshape (s_nd b) = [d_count d] /\ ravel (s_nd b) = edge_list d e.

Lemma part_ok i e d bb : position sh axis i -> agrees i e -> In d ds -> spread d bb ->
  exists b, getitem bb (int_items i) = Ok b /\ part_of e d b.
Proof.
  intros P G Hd (Wb & Sb & Vb). destruct (Ds d Hd) as ((_ & _ & Hn & _) & _).
  assert (K : dkeys i = dkeys orth) by apply P.
  destruct (int_getitem bb i Wb (position_nodup sh axis Nsh i P)) as (r & Gr & Wr & Ax & Sr & Vr).
  { intros ax n p H Hp. apply Sb in H as [H|[-> ->]].
    - apply (proj2 P ax n p); auto. now apply in_orthogonal in H.
    - exfalso. apply Hn. rewrite <- K. apply dget_Some_key. eauto. }
  exists r. split; auto. split; auto.
  assert (S1 : forall ax n, In (ax, n) (sshape r) <-> ax = d_axis d /\ n = d_count d).
  { intros ax n. rewrite (Sr ax n), (Sb ax n), K. split.
    - intros [[H|H] H']; auto. exfalso. apply H'. now apply (in_map fst) in H.
    - intros [-> ->]. auto. }
  assert (A1 : s_axes r = [d_axis d]).
  { destruct Wr as [NDr Lr]. assert (In (d_axis d) (s_axes r)) as H1.
    { rewrite <- wf_keys by (split; auto). apply (in_map fst (sshape r) (d_axis d, d_count d)). now apply S1. }
    assert (forall x, In x (s_axes r) -> x = d_axis d) as H2.
    { intros x Hx. rewrite <- wf_keys in Hx by (split; auto). apply key_size in Hx as [n Hx]. now apply S1 in Hx. }
    destruct (s_axes r) as [|x [|y l]].
    - destruct H1.
    - f_equal. apply H2. simpl. auto.
    - exfalso. inversion NDr as [|? ? Hx _]; subst. apply Hx. left.
      rewrite (H2 x), (H2 y); simpl; auto. }
  assert (N1 : nshape (s_nd r) = [d_count d]).
  { destruct Wr as [NDr Lr]. rewrite A1 in Lr. destruct (nshape (s_nd r)) as [|n [|m l]] eqn:En; simpl in Lr; try lia.
    f_equal. assert (In (d_axis d, n) (sshape r)) as H by (unfold sshape; rewrite A1, En; simpl; auto).
    now apply S1 in H. }
  split; auto. split; auto.
  unfold ravel, edge_list. rewrite N1. simpl. rewrite flat_map_concat_map. 
  rewrite <- flat_map_concat_map.
  assert (E1 : forall l, flat_map (fun i0 : nat => [[i0]]) l = map (fun k => [k]) l) by (induction l; simpl; congruence).
  rewrite E1, map_map. apply map_ext_in. intros k Hk. apply in_seq in Hk.
  transitivity (at_ r (set_env e (d_axis d) k)).
  - unfold at_. rewrite A1. simpl. now rewrite set_N.
  - rewrite Vr.
    + rewrite Vb. unfold d_edge, bat. apply at_ext. intros ax _. unfold bclamp. destruct (dget (sshape (d_edges d)) ax) as [[|[|m]]|]; auto;
      unfold over, set_env; (destruct (dget i ax) as [p|] eqn:Ep; auto);
      (destruct (String.eqb_spec ax (d_axis d)) as [->|D]; [exfalso; apply Hn; rewrite <- K; apply dget_Some_key; eauto|symmetry; now apply G]).
    + intros ax n H. apply S1 in H as [-> ->]. rewrite set_N. lia.
Qed.

Definition value (e : env) : Qc := qsum (map (weight_at w) (filter (in_cells ds e) (fibre sh axis e))).

Lemma fibre_all e e' : inside e orth -> In e' (fibre sh axis e) -> inside e' sh.
Proof.
  intros I H. destruct (fibre_inside sh axis e e' H) as [F1 F2]. intros ax n Hn.
  destruct (in_dec string_dec ax axis) as [Ha|Ha].
  - specialize (F1 ax Ha). now rewrite (size_of_In sh ax n) in F1.
  - rewrite F2 by auto. apply I. now apply in_orthogonal.
Qed.

Lemma forallb_map {X Y} (f : X -> Y) (P : Y -> bool) l : forallb P (map f l) = forallb (fun x => P (f x)) l.
Proof. induction l; simpl; congruence. Qed.

Lemma forallb_ext_in {X} (P Q : X -> bool) l : (forall x, In x l -> P x = Q x) -> forallb P l = forallb Q l.
Proof. induction l as [|x l IH]; simpl; auto. intros H. rewrite H, IH; auto. Qed.

Lemma edge_list_length d e : length (edge_list d e) = d_count d.
Proof. unfold edge_list. now rewrite map_length, seq_length. Qed.

Lemma edge_list_nth d e k : k < d_count d -> nth k (edge_list d e) (qz 0) = d_edge d e k.
Proof.
  intros H. unfold edge_list. rewrite (nth_indep _ (qz 0) (d_edge d e 0)) by (now rewrite map_length, seq_length).
  now rewrite map_nth, seq_nth.
Qed.

Lemma edge_list_monotonic d e : In d ds -> inside e orth -> monotonic (edge_list d e) = true.
Proof.
  intros Hd I. apply monotonic_nth. rewrite edge_list_length. intros i j Hij Hj. rewrite !edge_list_nth by lia.
  destruct (Ds d Hd) as ((_ & _ & _ & _ & _ & M) & _). auto.
Qed.

Lemma np_step_ok i e bbs : position sh axis i -> agrees i e -> Forall2 spread ds bbs ->
  exists bs l wl h,
    mapM (fun b => getitem b (int_items i)) bbs = Ok bs /\
    mapM (fun s => flat_part s i axis) (map d_sample ds) = Ok l /\
    weights_part w i axis = Ok wl /\
    np_histogramdd l (map s_nd bs) wl = Ok h /\
    flat_map s_axes bs = map d_axis ds /\ nshape h = map (fun d => d_count d - 1) ds /\
    ((forall d, In d ds -> e (d_axis d) < d_count d - 1) -> nget h (map e (map d_axis ds)) = value e).
Proof.
  intros P G F. assert (Io := position_inside i e P G).
  destruct (Forall2_mapM spread (fun b => getitem b (int_items i)) (part_of e) ds bbs F) as (bs & Eb & Fb).
  { intros d bb Hd Hs. now apply (part_ok i e d bb). }
  set (Fi := fibre sh axis e).
  set (l := map (fun d => map (at_ (d_sample d)) Fi) ds).
  set (wl := option_map (fun x => map (at_ x) Fi) w).
  assert (El : mapM (fun s => flat_part s i axis) (map d_sample ds) = Ok l).
  { apply mapM_maps. intros d Hd. destruct (Ds d Hd) as (_ & W & S). now apply flat_part_spec. }
  assert (Ew : weights_part w i axis = Ok wl).
  { unfold weights_part, wl. destruct w as [x|]; auto. destruct (Ws x eq_refl) as [W S].
    rewrite (flat_part_spec sh axis Nsh Nax x i e W S P G). reflexivity. }
  assert (Ee : mapM np_edges (map s_nd bs) = Ok (map (fun d => edge_list d e) ds)).
  { apply (Forall2_maps (fun d n => exists b, n = s_nd b /\ part_of e d b)).
    - clear - Fb. induction Fb; simpl; constructor; eauto.
    - intros d n Hd (b & -> & W & A1 & N1 & R1). unfold np_edges. rewrite N1, R1.
      now rewrite (edge_list_monotonic d e Hd Io). }
  assert (Lb : length (map s_nd bs) = length l).
  { unfold l. rewrite !map_length. symmetry. clear - Fb. induction Fb; simpl; congruence. }
  assert (Ne : existsb (fun l => length l =? 0) (map (fun d => edge_list d e) ds) = false).
  { apply not_true_iff_false. rewrite existsb_exists. intros (x & Hx & E). apply in_map_iff in Hx as (d & <- & Hd).
    rewrite edge_list_length in E. apply Nat.eqb_eq in E. now destruct (Ds d Hd) as ((_ & _ & _ & C & _) & _). }
  eexists bs, l, wl, _. split; [exact Eb|]. split; [exact El|]. split; [exact Ew|].
  unfold np_histogramdd. rewrite Lb, Nat.eqb_refl. cbn [negb]. rewrite Ee. cbn [bind]. rewrite Ne.
  split; [reflexivity|]. cbn [nshape nget].
  split; [|split].
  - clear - Fb. induction Fb as [|d b ds' bs' (W & A1 & _) Fb IH]; simpl; auto. rewrite A1, IH. reflexivity.
  - rewrite map_map. apply map_ext. intros d. now rewrite edge_list_length.
  - intros Hk. unfold value, qsum. change (qint 0) with (qz 0). f_equal.
    assert (Lh : length (hd [] l) = length Fi).
    { unfold l. destruct ds as [|d ds']; [now elim D0|]. simpl. now rewrite map_length. }
    rewrite Lh. apply filter_positions. intros j e' Hj.
    assert (In e' Fi) as He' by (eapply nth_error_In; eauto).
    assert (Ie' := fibre_all e e' Io He').
    split.
    + rewrite map_map. unfold l. rewrite combine_map_map, combine_map_map, forallb_map. unfold in_cells.
      apply forallb_ext_in. intros d Hd. cbn [fst snd].
      destruct (Ds d Hd) as (_ & W & S).
      rewrite (nth_error_nth (map (at_ (d_sample d)) Fi) j (qz 0) (map_nth_error _ _ _ Hj)).
      rewrite np_bin_cell; [|now apply edge_list_monotonic|rewrite edge_list_length; specialize (Hk d Hd); lia].
      rewrite edge_list_length, bat_inside by (auto; now rewrite S).
      specialize (Hk d Hd). apply in_cell_ext; apply edge_list_nth; lia.
    + unfold wl, weight_at. destruct w as [x|]; simpl; auto. destruct (Ws x eq_refl) as [W S].
      rewrite (nth_error_nth (map (at_ x) Fi) j (qz 0) (map_nth_error (at_ x) _ _ Hj)). symmetry. apply bat_inside; auto. now rewrite S.
Qed.

Definition cells : shape := cells_shape orth ds.

Lemma in_cells_shape ax n : In (ax, n) cells <-> In (ax, n) orth \/ exists d, In d ds /\ ax = d_axis d /\ n = d_count d - 1.
Proof.
  unfold cells, cells_shape. rewrite in_app_iff, in_map_iff. split.
  - intros [H|(d & E & Hd)]; auto. injection E as <- <-. right. eauto.
  - intros [H|(d & Hd & -> & ->)]; auto. right. eauto.
Qed.

Lemma agrees_over i : agrees i (over i (fun _ => 0)).
Proof. intros ax p H. unfold over. now rewrite H. Qed.

Lemma hist_step_ok bbs i hist : Forall2 spread ds bbs -> position sh axis i -> wf hist -> same_shape (sshape hist) cells ->
  exists r, hist_step (map d_sample ds) bbs w axis hist i = Ok r /\ wf r /\ sshape r = sshape hist /\
    forall e, inside e (sshape hist) -> at_ r e = value e \/ (~ agrees i e /\ at_ r e = at_ hist e).
Proof.
  intros F P Wh Sh. assert (K : dkeys i = dkeys orth) by apply P.
  destruct (np_step_ok i (over i (fun _ => 0)) bbs P (agrees_over i) F) as (bs & l & wl & h & Eb & El & Ew & Eh & Ax & Nh & _).
  unfold hist_step. rewrite Eb, El, Ew. cbn [bind]. rewrite Eh. cbn [bind]. rewrite Ax.
  set (v := mkS h (map d_axis ds)).
  assert (Wv : wf v). { split; simpl; auto. rewrite Nh, !map_length. auto. }
  assert (Ev : mk_sarr h (map d_axis ds) = Ok v).
  { unfold mk_sarr, ndim. rewrite Nh, !map_length, Nat.eqb_refl. simpl. now rewrite (proj2 (nodupb_NoDup _) Nd). }
  rewrite Ev. cbn [bind].
  assert (Sv : forall ax n, In (ax, n) (sshape v) <-> exists d, In d ds /\ ax = d_axis d /\ n = d_count d - 1).
  { intros ax n. unfold sshape, v. simpl. rewrite Nh, combine_map_map, in_map_iff. split.
    - intros (d & E & Hd). injection E as <- <-. eauto.
    - intros (d & Hd & -> & ->). eauto. }
  assert (Hax : forall d, In d ds -> ~ In (d_axis d) (dkeys i)).
  { intros d Hd. rewrite K. apply (proj1 (Ds d Hd)). }
  assert (R : forall ax n p, In (ax, n) (sshape hist) -> dget i ax = Some p -> p < n).
  { intros ax n p H Hp. apply Sh, in_cells_shape in H as [H|(d & Hd & -> & ->)].
    - apply (proj2 P ax n p); auto. now apply in_orthogonal in H.
    - exfalso. apply (Hax d Hd). apply dget_Some_key. eauto. }
  assert (Ni := position_nodup sh axis Nsh i P).
  assert (Nit : NoDup (dkeys (int_items i))) by now rewrite dkeys_int_items.
  assert (ES : broadcast_shapes (index_shapes (s_axes hist) (int_items i)) = Ok []) by now rewrite int_items_shapes.
  assert (DJ : forall ax, In ax (dkeys (@nil (string * nat))) -> In ax (s_axes hist) -> keeps_axis (dget (int_items i) ax) = false).
  { intros ax []. }
  destruct (int_getitem hist i Wh Ni R) as (s & Gs & Wsl & Axs & Ss & _).
  assert (Inc : incl (dkeys (int_items i)) (s_axes hist)).
  { rewrite dkeys_int_items, K. intros ax H. apply key_size in H as [n H]. rewrite <- wf_keys by auto.
    apply (in_map fst (sshape hist) (ax, n)). apply Sh, in_cells_shape. auto. }
  destruct (proj2 (setitem_success hist (int_items i) (OpArr v) [] Wh Nit (int_items_wf i) (int_items_py i) Wv ES DJ)) as (r & Er).
  { split; auto. exists s. split; auto. intros ax n H. exists n. split; auto. apply Sv in H as (d & Hd & -> & ->).
    apply Ss. split; auto. apply Sh, in_cells_shape. eauto. }
  exists r. split; auto.
  destruct (setitem_ok hist (int_items i) (OpArr v) Wh Nit (int_items_wf i) (int_items_py i) Wv [] ES DJ r Inc Er) as (Wr & Sr & Vr).
  split; auto. split; auto. intros e' He'.
  assert (Sel : forall e, addresses (sshape hist) [] (int_items i) e e' -> forall ax n, In (ax, n) (sshape hist) -> e' ax = over i e ax).
  { intros e [_ H] ax n Hn. destruct (H ax n Hn) as [_ X]. apply int_selects in X; auto. intros q Hq. eapply R; eauto. }
  destruct (Vr e' He') as [(e & Ad & Ve)|[NA Ve]].
  - left. assert (G : agrees i e').
    { intros ax p Hp. assert (In ax (dkeys i)) as Hk by (apply dget_Some_key; eauto). rewrite K in Hk.
      apply key_size in Hk as [n Hk]. rewrite (Sel e Ad ax n).
      - unfold over. now rewrite Hp.
      - apply Sh, in_cells_shape. auto. }
    assert (Ee : forall d, In d ds -> e' (d_axis d) = e (d_axis d)).
    { intros d Hd. rewrite (Sel e Ad (d_axis d) (d_count d - 1)).
      - unfold over. specialize (Hax d Hd). apply dget_None in Hax. now rewrite Hax.
      - apply Sh, in_cells_shape. eauto. }
    assert (Lt : forall d, In d ds -> e' (d_axis d) < d_count d - 1).
    { intros d Hd. apply He'. apply Sh, in_cells_shape. eauto. }
    destruct (np_step_ok i e' bbs P G F) as (bs' & l' & wl' & h' & Eb' & El' & Ew' & Eh' & _ & _ & V).
    rewrite Eb in Eb'. injection Eb' as <-. rewrite El in El'. injection El' as <-. rewrite Ew in Ew'. injection Ew' as <-.
    rewrite Eh in Eh'. injection Eh' as <-.
    rewrite Ve, <- V by auto. simpl op_at. rewrite bat_inside; auto.
    + unfold at_. simpl. f_equal. rewrite !map_map. apply map_ext_in. intros d Hd. symmetry. auto.
    + intros ax n H. apply Sv in H as (d & Hd & -> & ->). rewrite <- Ee; auto.
  - right. split; auto. intros G. apply (NA e'). split; [intros ax n []|]. intros ax n Hn. split; [now apply He'|].
    apply int_selects; [intros q Hq; eapply R; eauto|]. now rewrite over_agrees.
Qed.

Lemma hist_loop_ok bbs l : Forall2 spread ds bbs -> (forall i, In i l -> position sh axis i) ->
  forall hist, wf hist -> same_shape (sshape hist) cells ->
  exists r, foldM (hist_step (map d_sample ds) bbs w axis) l hist = Ok r /\ wf r /\ sshape r = sshape hist /\
    forall e, inside e (sshape hist) -> at_ hist e = value e \/ (exists i, In i l /\ agrees i e) -> at_ r e = value e.
Proof.
  intros F. induction l as [|i l IH]; intros P hist Wh Sh.
  - exists hist. simpl. do 3 (split; auto). intros e _ [H|(i & [] & _)]; auto.
  - destruct (hist_step_ok bbs i hist F (P i (or_introl eq_refl)) Wh Sh) as (r & Er & Wr & Sr & Vr).
    simpl. rewrite Er. cbn [bind].
    destruct (IH (fun j Hj => P j (or_intror Hj)) r Wr) as (r' & Er' & Wr' & Sr' & Vr'); [now rewrite Sr|].
    exists r'. split; auto. split; auto. split; [congruence|].
    intros e He H. rewrite <- Sr in He. apply Vr'; auto. rewrite Sr in He.
    destruct (Vr e He) as [V|[NG V]]; auto. destruct H as [H|(j & [<- |Hj] & G)].
    + left. congruence.
    + contradiction.
    + right. eauto.
Qed.

Lemma ndindex_position i : In i (na_ndindex orth []) -> position sh axis i.
Proof.
  intros H. destruct (na_ndindex_spec orth [] orth_nodup) as (S & _). apply S in H as [K R].
  rewrite filter_all in K by auto. split; auto. intros ax n p Hn Hp. apply dget_In in Hp.
  destruct (R ax p Hp) as (m & Hm & L). apply in_orthogonal in Hm as [Hm _]. now rewrite (entry_eq sh ax n m).
Qed.

Lemma ndindex_covers e : inside e orth -> exists i, In i (na_ndindex orth []) /\ agrees i e.
Proof.
  intros I. exists (map (fun kv => (fst kv, e (fst kv))) orth).
  destruct (na_ndindex_spec orth [] orth_nodup) as (S & _). split.
  - apply S. rewrite filter_all by auto. split.
    + unfold dkeys. rewrite map_map. apply map_ext. auto.
    + intros ax p H. apply in_map_iff in H as ([ax' n] & E & H). simpl in E. injection E as <- <-. eauto.
  - intros ax p H. apply dget_In, in_map_iff in H as ([ax' n] & E & H). simpl in E. injection E as <- <-. auto.
Qed.

Theorem hist_core_ok junk : exists h,
  hist_core junk (map d_sample ds) w sh axis (map d_edges ds) = Ok h /\ is_histogram h sh axis ds w.
Proof.
  unfold hist_core. fold orth. destruct spread_bins as (bbs & -> & F). cbn [bind].
  assert (Dc : forall d, In d ds -> In (d_axis d, d_count d) (sshape (d_edges d))).
  { intros d Hd. destruct (Ds d Hd) as ((We & Ha & _) & _). rewrite <- wf_keys in Ha by auto. apply key_size in Ha as [n Ha].
    unfold d_count. rewrite (size_of_In _ _ n); auto. now apply wf_nodup. }
  assert (Nb : Forall (fun s => NoDup (dkeys s)) (map sshape (map d_edges ds))).
  { apply Forall_forall. intros s H. rewrite map_map in H. apply in_map_iff in H as (d & <- & Hd). apply wf_nodup. apply (Ds d Hd). }
  assert (Nall : NoDup (dkeys (orth ++ map (fun d => (d_axis d, d_count d)) ds))).
  { unfold dkeys. rewrite map_app, map_map. simpl. apply NoDup_app_intro; [apply orth_nodup|auto|].
    intros x Hx H. apply in_map_iff in H as (d & <- & Hd). destruct (Ds d Hd) as ((_ & _ & Hn & _) & _). contradiction. }
  destruct (fits_broadcast _ _ Nb Nall) as (sb & Eb & _).
  { intros s H. rewrite map_map in H. apply in_map_iff in H as (d & <- & Hd). intros ax n Hn.
    destruct (Ds d Hd) as ((We & _ & _ & _ & Ft & _) & _). destruct (string_dec ax (d_axis d)) as [->|D].
    - exists (d_count d). split; [|right; apply (entry_eq (sshape (d_edges d)) (d_axis d)); auto; now apply wf_nodup].
      apply in_app_iff. right. apply in_map_iff. eauto.
    - destruct (Ft ax n Hn D) as (m & Hm & C). exists m. split; auto. apply in_app_iff. auto. }
  rewrite Eb. cbn [bind].
  destruct (broadcast_shapes_ok _ _ Nb Eb) as (Nsb & _).
  set (new := filter (fun kv => negb (smem (fst kv) (dkeys orth))) sb).
  assert (New : forall ax n, In (ax, n) new <-> exists d, In d ds /\ ax = d_axis d /\ n = d_count d).
  { assert (Fwd : forall ax n, In (ax, n) new -> exists d, In d ds /\ ax = d_axis d /\ n = d_count d).
    { intros ax n H. apply filter_In in H as [H H']. simpl in H'. apply negb_true_iff, smem_false in H'.
      destruct (VectorIndexFacts.broadcast_attained _ _ ax n Nb Eb H) as (s & Hs & Hn). rewrite map_map in Hs.
      apply in_map_iff in Hs as (d & <- & Hd). exists d. split; auto.
      destruct (Ds d Hd) as ((We & _ & _ & _ & Ft & _) & _). destruct (string_dec ax (d_axis d)) as [->|D].
      - split; auto. apply (entry_eq (sshape (d_edges d)) (d_axis d)); auto. now apply wf_nodup.
      - exfalso. destruct (Ft ax n Hn D) as (m & Hm & _). apply H'. now apply (in_map fst) in Hm. }
    intros ax n. split; [apply Fwd|]. intros (d & Hd & -> & ->).
    destruct (broadcast_covers _ _ (sshape (d_edges d)) (d_axis d) (d_count d) Nb Eb) as [K _]; [|now apply Dc|].
    { rewrite map_map. apply in_map_iff. eauto. }
    apply key_size in K as [m Hm].
    assert (In (d_axis d, m) new) as Hnew.
    { apply filter_In. split; auto. simpl. apply negb_true_iff, smem_false. apply (proj1 (Ds d Hd)). }
    destruct (Fwd _ _ Hnew) as (d' & Hd' & Ea & ->).
    assert (d = d') as <-; [|auto].
    clear - Nd Hd Hd' Ea. induction ds as [|x l IH]; simpl in *; [contradiction|]. inversion Nd as [|? ? N1 N2]; subst.
    destruct Hd as [->|Hd], Hd' as [->|Hd']; auto.
    - exfalso. apply N1. rewrite Ea. now apply in_map.
    - exfalso. apply N1. rewrite <- Ea. now apply in_map. }
  assert (Ez : existsb (fun kv => snd kv =? 0) new = false).
  { apply not_true_iff_false. rewrite existsb_exists. intros ([ax n] & H & E). simpl in E. apply Nat.eqb_eq in E. subst.
    apply New in H as (d & Hd & _ & E). destruct (Ds d Hd) as ((_ & _ & _ & C & _) & _). congruence. }
  rewrite Ez.
  assert (Nnew : NoDup (dkeys new)).
  { unfold new. apply (nodup_filter_keys (fun k => negb (smem k (dkeys orth)))). auto. }
  assert (Ncells : NoDup (dkeys cells)).
  { unfold cells, cells_shape, dkeys in *. rewrite map_app, map_map in *. exact Nall. }
  destruct (bs_attained [orth; map (fun kv => (fst kv, snd kv - 1)) new] cells Ncells) as (t & Et & Nt & St).
  { split.
    - intros s [<- |[<- |[]]].
      + split; [apply orth_nodup|]. intros ax n H. assert (In (ax, n) cells) by (apply in_cells_shape; auto).
        split; auto. now apply (in_map fst) in H0.
      + split; [unfold dkeys; rewrite map_map; exact Nnew|]. intros ax n H. apply in_map_iff in H as ([ax' m] & E & H).
        simpl in E. injection E as <- <-. apply New in H as (d & Hd & -> & ->).
        assert (In (d_axis d, d_count d - 1) cells) by (apply in_cells_shape; eauto). split; auto. now apply (in_map fst) in H.
    - intros ax n H. apply in_cells_shape in H as [H|(d & Hd & -> & ->)].
      + exists orth. simpl. auto.
      + eexists. split; [right; left; reflexivity|]. apply in_map_iff. exists (d_axis d, d_count d). split; auto. apply New. eauto. }
  rewrite Et. cbn [bind].
  set (h0 := mkS (mkNd (dvals t) (fun _ => junk)) (dkeys t)).
  assert (W0 : wf h0) by (split; simpl; auto; unfold dkeys, dvals; now rewrite !map_length).
  assert (S0 : sshape h0 = t) by (unfold sshape, h0; simpl; apply combine_dkeys_dvals).
  assert (S1 : same_shape (sshape h0) cells) by now rewrite S0.
  destruct (hist_loop_ok bbs (na_ndindex orth []) F ndindex_position h0 W0 S1) as (h & Eh & Wh & Sh & V).
  exists h. split; auto. split; auto. rewrite Sh. split; auto. intros e He. apply V; auto. right.
  apply ndindex_covers. intros ax n Hn. apply He. apply S1, in_cells_shape. auto.
Qed.
End Core.

(** ** Sums over the cells *)

Lemma qsum_app l l' : qsum (l ++ l') = (qsum l + qsum l')%Qc.
Proof. unfold qsum. induction l; simpl; [|rewrite IHl]; change (qint 0) with 0%Qc; ring. Qed.

Lemma qsum_flat_map {X} (f : X -> list Qc) l : qsum (flat_map f l) = qsum (map (fun x => qsum (f x)) l).
Proof. induction l; simpl; auto. rewrite qsum_app, IHl. reflexivity. Qed.

Lemma qsum_plus {X} (f g : X -> Qc) l : qsum (map (fun x => (f x + g x)%Qc) l) = (qsum (map f l) + qsum (map g l))%Qc.
Proof. induction l; simpl; [|rewrite IHl]; change (qint 0) with 0%Qc; ring. Qed.

Lemma qsum_zero {X} (f : X -> Qc) l : (forall x, In x l -> f x = 0%Qc) -> qsum (map f l) = 0%Qc.
Proof. induction l; simpl; auto. intros H. rewrite H, IHl; auto. Qed.

Lemma qsum_single (P : nat -> bool) c k l : NoDup l -> In k l -> P k = true -> (forall j, In j l -> P j = true -> j = k) ->
  qsum (map (fun j => if P j then c else 0%Qc) l) = c.
Proof.
  induction l as [|x l IH]; intros N Hk Pk U; [destruct Hk|]. inversion N; subst. simpl. destruct Hk as [->|Hk].
  - rewrite Pk, qsum_zero; [ring|]. intros j Hj. destruct (P j) eqn:E; auto. exfalso.
    assert (j = k) by (apply U; simpl; auto). subst. contradiction.
  - destruct (P x) eqn:E.
    + exfalso. assert (x = k) by (apply U; simpl; auto). subst. contradiction.
    + rewrite IH; auto; [ring|]. intros j Hj. apply U. simpl. auto.
Qed.

Lemma sum_cells {X} (m : nat) (P : nat -> X -> bool) (R : X -> bool) (wt : X -> Qc) F :
  (forall x, In x F -> exists k, k < m /\ P k x = true /\ forall j, j < m -> P j x = true -> j = k) ->
  qsum (map (fun k => qsum (map wt (filter (fun x => P k x && R x) F))) (seq 0 m)) = qsum (map wt (filter R F)).
Proof.
  induction F as [|x F IH]; intros H.
  - simpl. apply qsum_zero. auto.
  - rewrite (map_ext _ (fun k => ((if P k x && R x then wt x else 0) + qsum (map wt (filter (fun x => P k x && R x) F)))%Qc)).
    + rewrite qsum_plus, IH by (intros; apply H; simpl; auto). simpl filter. destruct (H x (or_introl eq_refl)) as (k & Hk & Pk & U).
      destruct (R x).
      * rewrite (map_ext _ (fun k => if P k x then wt x else 0%Qc)) by (intros; now rewrite andb_true_r).
        rewrite (qsum_single (fun k => P k x) (wt x) k); auto.
        -- apply seq_NoDup.
        -- apply in_seq. lia.
        -- intros j Hj. apply U. apply in_seq in Hj. lia.
      * rewrite qsum_zero; [ring|]. intros j _. now rewrite andb_false_r.
    + intros k. simpl filter. destruct (P k x && R x); simpl; [reflexivity|]. ring.
Qed.

Lemma fibre_agree sh axis (K : list string) e1 e2 : (forall ax, In ax K -> ~ In ax axis -> e1 ax = e2 ax) ->
  Forall2 (fun x y : env => forall ax, In ax K -> x ax = y ax) (fibre sh axis e1) (fibre sh axis e2).
Proof.
  revert e1 e2. induction axis as [|a axis IH]; intros e1 e2 H; simpl.
  - constructor; auto.
  - induction (seq 0 (size_of sh a)) as [|i l IHl]; simpl; auto. apply Forall2_app; auto.
    apply IH. intros ax Hk Ha. unfold set_env. destruct (String.eqb_spec ax a); auto. apply H; auto. intros [->|]; auto.
Qed.

Lemma filter_Forall2 {X} (R : X -> X -> Prop) (P Q : X -> bool) (f g : X -> Qc) l l' : Forall2 R l l' ->
  (forall x y, R x y -> P x = Q y /\ f x = g y) -> map f (filter P l) = map g (filter Q l').
Proof.
  induction 1 as [|x y l l' Hxy F IH]; intros H; simpl; auto. destruct (H x y Hxy) as [-> E].
  destruct (Q y); simpl; rewrite IH by auto; congruence.
Qed.

Lemma bat_agree {A} (a : sarr A) e e' : (forall ax, In ax (s_axes a) -> e ax = e' ax) -> bat a e = bat a e'.
Proof. intros H. unfold bat. apply at_ext. intros ax Hax. unfold bclamp. rewrite H; auto. Qed.

Theorem total_count h sh axis ds w e :
  is_histogram h sh axis ds w -> NoDup (map d_axis ds) ->
  (forall d, In d ds -> edges_ok (apart sh axis) d /\ incl (s_axes (d_sample d)) (dkeys sh) /\ 2 <= d_count d) ->
  (forall x, w = Some x -> incl (s_axes x) (dkeys sh)) ->
  inside e (apart sh axis) ->
  (forall d e', In d ds -> In e' (fibre sh axis e) ->
     (d_edge d e 0 <= bat (d_sample d) e' <= d_edge d e (d_count d - 1)%nat)%Qc) ->
  qsum (map (at_ h) (fibre (sshape h) (map d_axis ds) e)) = qsum (map (weight_at w) (fibre sh axis e)).
Proof.
  intros (Wh & Sh & V) Nd Ds Ws Ie R.
  set (cond := fun (l : list dimension) (e'' e' : env) =>
    forallb (fun d => in_cell (d_edge d e) (d_count d) (e'' (d_axis d)) (bat (d_sample d) e')) l).
  assert (A1 : forall e'', In e'' (fibre (sshape h) (map d_axis ds) e) ->
    at_ h e'' = qsum (map (weight_at w) (filter (cond ds e'') (fibre sh axis e)))).
  { intros e'' He''. destruct (fibre_inside _ _ _ _ He'') as [F1 F2].
    assert (Or : forall ax, In ax (dkeys (apart sh axis)) -> e'' ax = e ax).
    { intros ax Hax. apply F2. intros H. apply in_map_iff in H as (d & <- & Hd).
      destruct (Ds d Hd) as ((_ & _ & Hn & _) & _). contradiction. }
    rewrite V.
    - f_equal. apply (filter_Forall2 _ _ _ _ _ _ _ (fibre_agree sh axis (dkeys sh) e'' e
        (fun ax Hk Hn => Or ax (proj2 (orthogonal_key sh axis ax) (conj Hk Hn))))).
      intros x y Hxy. split.
      + unfold in_cells, cond. apply forallb_ext_in. intros d Hd. destruct (Ds d Hd) as (Ok & Inc & _).
        rewrite (bat_agree (d_sample d) x y) by (intros; apply Hxy; auto).
        destruct Ok as (We & _ & _ & _ & Ft & _).
        assert (forall i, d_edge d e'' i = d_edge d e i) as Ed.
        { intros i. unfold d_edge. apply bat_agree. intros ax Hax. unfold set_env. destruct (String.eqb_spec ax (d_axis d)); auto.
          apply Or. rewrite <- wf_keys in Hax by auto. apply key_size in Hax as [n0 Hax].
          destruct (Ft ax n0 Hax n) as (m & Hm & _). now apply (in_map fst) in Hm. }
        apply in_cell_ext; auto.
      + unfold weight_at. destruct w as [x0|]; auto. apply bat_agree. intros ax Hax. apply Hxy. apply (Ws x0 eq_refl); auto.
    - intros ax n Hn. apply Sh in Hn. unfold cells_shape in Hn. apply in_app_iff in Hn as [Hn|Hn].
      + rewrite Or by (now apply (in_map fst) in Hn). auto.
      + assert (In ax (map d_axis ds)) as Hax.
        { apply in_map_iff in Hn as (d & E & Hd). injection E as <- <-. now apply in_map. }
        specialize (F1 ax Hax). rewrite (size_of_In (sshape h) ax n) in F1; auto; [now apply wf_nodup|].
        apply Sh. apply in_app_iff. auto. }
  rewrite (map_ext_in _ _ _ A1).
  assert (Gen : forall l, incl l ds -> NoDup (map d_axis l) -> forall Rs e0,
    qsum (map (fun e'' => qsum (map (weight_at w) (filter (fun e' => cond l e'' e' && Rs e') (fibre sh axis e))))
              (fibre (sshape h) (map d_axis l) e0)) = qsum (map (weight_at w) (filter Rs (fibre sh axis e)))).
  { induction l as [|d l IH]; intros I N Rs e0.
    - cbn [map fibre]. unfold qsum at 1. simpl. rewrite (filter_ext _ Rs) by auto. change (qint 0) with 0%Qc. ring.
    - inversion N as [|? ? N1 N2]; subst. simpl map. simpl fibre.
      rewrite ReduceFacts.map_flat_map, qsum_flat_map.
      assert (Hd : In d ds) by (apply I; simpl; auto). destruct (Ds d Hd) as ((_ & _ & _ & _ & _ & M) & _ & L2).
      assert (size_of (sshape h) (d_axis d) = d_count d - 1) as ->.
      { apply size_of_In; [now apply wf_nodup|]. apply Sh, in_app_iff. right. apply in_map_iff. eauto. }
      rewrite (map_ext_in _ (fun k => qsum (map (weight_at w)
        (filter (fun e' => in_cell (d_edge d e) (d_count d) k (bat (d_sample d) e') && Rs e') (fibre sh axis e))))).
      + apply (sum_cells (d_count d - 1) (fun k e' => in_cell (d_edge d e) (d_count d) k (bat (d_sample d) e'))).
        intros e' He'. apply one_cell; auto; apply (R d e' Hd He').
      + intros k _. rewrite <- (IH (fun x Hx => I x (or_intror Hx)) N2 _ (set_env e0 (d_axis d) k)).
        f_equal. apply map_ext_in. intros e'' He''. destruct (fibre_inside _ _ _ _ He'') as [_ F2].
        f_equal. f_equal. apply filter_ext. intros e'. unfold cond at 1. simpl. rewrite F2 by auto. rewrite set_N.
        fold (cond l e'' e').
        destruct (in_cell (d_edge d e) (d_count d) k (bat (d_sample d) e')), (cond l e'' e'), (Rs e'); reflexivity. }
  transitivity (qsum (map (weight_at w) (filter (fun _ => true) (fibre sh axis e)))); [|now rewrite filter_all].
  rewrite <- (Gen ds (incl_refl ds) Nd (fun _ => true) e).
  f_equal. apply map_ext. intros e''. f_equal. f_equal. apply filter_ext. intros. now rewrite andb_true_r.
Qed.
