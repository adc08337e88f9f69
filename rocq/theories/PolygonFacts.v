(** Proofs about points in polygons. *)
From Coq Require Import String List Arith ZArith Bool Lia.
From Verif Require Import Base BaseFacts Numpy NumpyFacts Shapes ShapesFacts Scalar Elementwise Polygon
  Spec SpecNumeric SpecInterp AlignFacts ElementwiseFacts ReorderFacts SortingFacts AlongFacts HistFacts RegridFacts InterpAxisFacts DespikeFacts.
Import ListNotations.
Open Scope nat_scope.
Open Scope list_scope.

Lemma filter_without (sh : shape) ax : filter (fun kv => negb (String.eqb (fst kv) ax)) sh = without sh [ax].
Proof. apply filter_ext. intros [k n]. simpl. destruct (String.eqb k ax); reflexivity. Qed.

Lemma reshape_flat {A} (a : nd A) idx : inb idx (nshape a) ->
  nget (reshape [prod (nshape a)] a) [ravel_idx (nshape a) idx] = nget a idx.
Proof. intros H. simpl. rewrite Nat.mul_1_r, Nat.add_0_r. now rewrite unravel_ravel. Qed.

Lemma reshape_row {A} (a : nd A) s n idx k : nshape a = s ++ [n] -> inb idx s -> k < n ->
  nget (reshape [prod s; n] a) [ravel_idx s idx; k] = nget a (idx ++ [k]).
Proof.
  intros E H K. simpl. rewrite E, !Nat.mul_1_r, Nat.add_0_r.
  replace (ravel_idx s idx * n + k) with (ravel_idx (s ++ [n]) (idx ++ [k])).
  - rewrite unravel_ravel; auto. apply inb_app; auto. now repeat constructor.
  - rewrite ravel_idx_app by (symmetry; now apply inb_length). simpl. lia.
Qed.

Lemma unravel_one n k : k < n -> unravel [n] k = [k].
Proof. intros H. cbn [unravel]. change (prod []) with 1. rewrite Nat.div_1_r, Nat.mod_small; auto. Qed.

Lemma broadcast_to_err {A} (a : sarr A) sh e : wf a -> NoDup (dkeys sh) -> na_broadcast_to a sh false = Err e -> e = ValueError.
Proof.
  intros W N. unfold na_broadcast_to. cbn [bind].
  destruct (incl_sdec (s_axes a) (dkeys sh)) as [I|I].
  - destruct (align_sub a (dkeys sh) W N I) as (n & -> & _). cbn [bind]. unfold broadcast_to.
    destruct (bto_rev _ _); cbn [bind]; [|congruence]. apply mk_sarr_err.
  - rewrite align_err by auto. cbn [bind]. congruence.
Qed.

Section Polygon.
Context {A B : Type} (contains : A -> A -> list A -> list A -> B).

Lemma np_point_ok (x y vx vy : nd A) s n : nshape x = s -> nshape y = s -> nshape vx = s ++ [n] -> nshape vy = s ++ [n] ->
  n <> 0 ->
  exists r, np_point_in_polygon contains x y vx vy = Ok r /\ nshape r = s /\
    forall idx, inb idx s -> nget r idx = contains (nget x idx) (nget y idx)
      (map (fun k => nget vx (idx ++ [k])) (seq 0 n)) (map (fun k => nget vy (idx ++ [k])) (seq 0 n)).
Proof.
  intros X Y V U N. unfold np_point_in_polygon. rewrite V, rev_app_distr. cbn [rev app].
  destruct n as [|n]; [congruence|]. eexists. split; [reflexivity|]. split; [exact X|].
  intros idx H. rewrite X. assert (R := ravel_idx_lt _ _ H).
  unfold reshape at 1. cbn [nget nshape]. rewrite unravel_one by auto.
  f_equal.
  - rewrite <- X in *. now apply reshape_flat.
  - rewrite <- Y in *. now apply reshape_flat.
  - apply map_ext_in. intros k Hk. apply in_seq in Hk. apply reshape_row; auto; lia.
  - apply map_ext_in. intros k Hk. apply in_seq in Hk. apply reshape_row; auto; lia.
Qed.

Lemma at_env {X} (a : sarr X) sh e : wf a -> sshape a = sh -> at_ a e = nget (s_nd a) (map e (dkeys sh)).
Proof. intros W <-. unfold at_. now rewrite wf_keys. Qed.

Theorem polygon_ok (x y vx vy : operand A) axis T n : op_wf x -> op_wf y -> op_wf vx -> op_wf vy ->
  broadcast_shapes [op_shape x; op_shape y; op_shape vx; op_shape vy] = Ok T -> In (axis, n) T -> n <> 0 ->
  ~ In axis (dkeys (op_shape x)) -> ~ In axis (dkeys (op_shape y)) ->
  exists r, na_point_in_polygon contains x y vx vy axis = Ok r /\ wf r /\ sshape r = without T [axis] /\
    forall e, inside e (sshape r) ->
      at_ r e = contains (op_at x e) (op_at y e) (samples vx axis n e) (samples vy axis n e).
Proof.
  intros Wx Wy Wv Wu E Hn N0 Nx Ny. unfold na_point_in_polygon. rewrite !normalize_shape, E. cbn [bind].
  rewrite <- (normalize_shape x), <- (normalize_shape y), <- (normalize_shape vx), <- (normalize_shape vy) in E. rewrite <- normalize_shape in Nx, Ny. apply normalize_wf in Wx, Wy, Wv, Wu.
  unfold samples. 
  assert (Q : forall o : operand A, forall e, op_at o e = bat (normalize o) e) by (intros; now rewrite normalize_at).
  assert (Qx := Q x). assert (Qy := Q y). assert (Qv := Q vx). assert (Qu := Q vy). clear Q.
  set (X := normalize x) in *. set (Y := normalize y) in *. set (V := normalize vx) in *. set (U := normalize vy) in *.
  clearbody X Y V U.
  assert (F : Forall (fun s : shape => NoDup (dkeys s)) [sshape X; sshape Y; sshape V; sshape U])
    by (repeat (apply Forall_cons; [now apply wf_nodup|]); apply Forall_nil).
  destruct (broadcast_shapes_ok _ _ F E) as (NT & _ & _).
  assert (FT := broadcast_fits _ _ F E).
  rewrite filter_without.
  set (sh := without T [axis]) in *.
  assert (Nsh : NoDup (dkeys sh)) by (unfold sh; rewrite dkeys_without; now apply NoDup_filter).
  assert (Hsh : ~ In axis (dkeys sh)).
  { unfold sh. rewrite dkeys_without, filter_In. simpl. rewrite String.eqb_refl. intros [_ C]. discriminate. }
  rewrite (dget_NoDup T axis n) by auto. rewrite (dset_absent sh axis n) by auto.
  assert (NV : NoDup (dkeys (sh ++ [(axis, n)]))).
  { rewrite dkeys_app. simpl. apply (Permutation.Permutation_NoDup (l := axis :: dkeys sh)); [apply Permutation.Permutation_cons_append|].
    now constructor. }
  assert (P : forall a : sarr A, In (sshape a) [sshape X; sshape Y; sshape V; sshape U] -> ~ In axis (dkeys (sshape a)) ->
    fits_in (sshape a) sh).
  { intros a Ha Na ax m Hm. destruct (FT _ Ha ax m Hm) as (m' & Hm' & D). exists m'. split; auto.
    apply without_In. split; auto. intros [<- |[]]. apply Na. now apply (in_map fst) in Hm. }
  assert (P' : forall a : sarr A, In (sshape a) [sshape X; sshape Y; sshape V; sshape U] -> fits_in (sshape a) (sh ++ [(axis, n)])).
  { intros a Ha ax m Hm. destruct (FT _ Ha ax m Hm) as (m' & Hm' & D). exists m'. split; auto.
    apply in_or_app. destruct (string_dec ax axis) as [-> |D'].
    - right. left. f_equal. apply (dget_NoDup T axis m') in Hm'; auto. apply (dget_NoDup T axis n) in Hn; auto. congruence.
    - left. apply without_In. split; auto. intros [<- |[]]. congruence. }
  destruct (fits_spread_any X sh Wx Nsh (P X ltac:(simpl; auto) Nx)) as (x0 & -> & Wx' & Sx & Vx). cbn [bind].
  destruct (fits_spread_any Y sh Wy Nsh (P Y ltac:(simpl; auto) Ny)) as (y0 & -> & Wy' & Sy & Vy). cbn [bind].
  destruct (fits_spread_any V _ Wv NV (P' V ltac:(simpl; auto))) as (v0 & -> & Wv' & Sv & Vv). cbn [bind].
  destruct (fits_spread_any U _ Wu NV (P' U ltac:(simpl; auto))) as (u0 & -> & Wu' & Su & Vu). cbn [bind].
  assert (Lx : nshape (s_nd x0) = dvals sh) by (rewrite <- wf_vals, Sx; auto).
  assert (Ly : nshape (s_nd y0) = dvals sh) by (rewrite <- wf_vals, Sy; auto).
  assert (Lv : nshape (s_nd v0) = dvals sh ++ [n]) by (rewrite <- wf_vals, Sv, dvals_app; auto).
  assert (Lu : nshape (s_nd u0) = dvals sh ++ [n]) by (rewrite <- wf_vals, Su, dvals_app; auto).
  destruct (np_point_ok _ _ _ _ _ n Lx Ly Lv Lu N0) as (r & -> & Sr & Vr). cbn [bind].
  rewrite mk_sarr_intro; [|auto|rewrite Sr; unfold dkeys, dvals; now rewrite !map_length].
  exists (mkS r (dkeys sh)). split; [reflexivity|].
  assert (W : wf (mkS r (dkeys sh))).
  { split; auto. simpl. rewrite Sr. unfold dkeys, dvals. now rewrite !map_length. }
  assert (SS : sshape (mkS r (dkeys sh)) = sh).
  { unfold sshape. simpl. rewrite Sr. apply combine_dkeys_dvals. }
  split; auto. split; auto. intros e He. rewrite SS in He.
  assert (Hi : inb (map e (dkeys sh)) (dvals sh)).
  { apply (inside_inb _ e) in W. simpl in W. rewrite SS, Sr in W. now apply W. }
  unfold at_ at 1. cbn [s_nd s_axes]. rewrite Vr by auto. rewrite <- !(at_env _ sh) by auto.
  assert (R : forall (a b : sarr A), wf b -> sshape b = sh ++ [(axis, n)] -> (forall e, at_ b e = bat a e) ->
    map (fun k => nget (s_nd b) (map e (dkeys sh) ++ [k])) (seq 0 n) = map (fun k => bat a (set_env e axis k)) (seq 0 n)).
  { intros a b Wb Sb Vb. apply map_ext. intros k. rewrite <- Vb, (at_env b _ _ Wb Sb). f_equal.
    rewrite dkeys_app, map_app. simpl. unfold set_env at 2. rewrite String.eqb_refl. f_equal.
    apply map_ext_in. intros ax Hax. unfold set_env. destruct (String.eqb_spec ax axis); congruence. }
  rewrite (R V v0), (R U u0), Vx, Vy, Qx, Qy; auto.
  f_equal; apply map_ext; intros k; auto.
Qed.

Theorem polygon_missing (x y vx vy : operand A) axis T : 
  broadcast_shapes [op_shape x; op_shape y; op_shape vx; op_shape vy] = Ok T -> ~ In axis (dkeys T) ->
  na_point_in_polygon contains x y vx vy axis = Err KeyError.
Proof.
  intros E H. unfold na_point_in_polygon. rewrite !normalize_shape, E. cbn [bind].
  destruct (dget T axis) eqn:D; auto. exfalso. apply H. apply dget_Some_key. eauto.
Qed.

Theorem polygon_vertex_axis (x y vx vy : operand A) axis : op_wf x -> op_wf y -> op_wf vx -> op_wf vy ->
  In axis (dkeys (op_shape x)) \/ In axis (dkeys (op_shape y)) ->
  na_point_in_polygon contains x y vx vy axis = Err ValueError.
Proof.
  intros Wx Wy Wv Wu H. unfold na_point_in_polygon. apply normalize_wf in Wx, Wy, Wv, Wu.
  rewrite <- (normalize_shape x), <- (normalize_shape y) in H.
  set (X := normalize x) in *. set (Y := normalize y) in *. set (V := normalize vx) in *. set (U := normalize vy) in *.
  clearbody X Y V U. clear x y vx vy.
  assert (F : Forall (fun s : shape => NoDup (dkeys s)) [sshape X; sshape Y; sshape V; sshape U])
    by (repeat (apply Forall_cons; [now apply wf_nodup|]); apply Forall_nil).
  destruct (broadcast_shapes_total _ F) as [[T E]|E]; rewrite E; cbn [bind]; auto.
  destruct (broadcast_shapes_ok _ _ F E) as (NT & _ & _).
  assert (FT := broadcast_fits _ _ F E).
  rewrite filter_without.
  set (sh := without T [axis]) in *.
  assert (Nsh : NoDup (dkeys sh)) by (unfold sh; rewrite dkeys_without; now apply NoDup_filter).
  assert (Hsh : ~ In axis (dkeys sh)).
  { unfold sh. rewrite dkeys_without, filter_In. simpl. rewrite String.eqb_refl. intros [_ C]. discriminate. }
  assert (K : In axis (dkeys T)).
  { assert (G : forall a : sarr A, In (sshape a) [sshape X; sshape Y; sshape V; sshape U] -> In axis (dkeys (sshape a)) -> In axis (dkeys T)).
    { intros a Ha Hk. apply RankdataFacts.key_size in Hk as [m Hm]. destruct (FT _ Ha _ _ Hm) as (m' & Hm' & _).
      now apply (in_map fst) in Hm'. }
    destruct H as [H|H]; [apply (G X)|apply (G Y)]; simpl; auto. }
  apply RankdataFacts.key_size in K as [n Hn]. rewrite (dget_NoDup T axis n) by auto.
  assert (G : forall a : sarr A, wf a -> In axis (dkeys (sshape a)) -> na_broadcast_to a sh false = Err ValueError).
  { intros a W Ha. apply (broadcast_to_fits a sh W Nsh). intros C. apply RankdataFacts.key_size in Ha as [m Hm].
    destruct (C _ _ Hm) as (m' & Hm' & _). apply Hsh. now apply (in_map fst) in Hm'. }
  destruct H as [H|H].
  - now rewrite (G X).
  - destruct (na_broadcast_to X sh false) as [b|e'] eqn:EX; cbn [bind].
    + now rewrite (G Y).
    + f_equal. now apply (broadcast_to_err X sh).
Qed.

Theorem polygon_no_vertices (x y vx vy : operand A) axis T : op_wf x -> op_wf y -> op_wf vx -> op_wf vy ->
  broadcast_shapes [op_shape x; op_shape y; op_shape vx; op_shape vy] = Ok T -> In (axis, 0) T ->
  na_point_in_polygon contains x y vx vy axis = Err ValueError.
Proof.
  intros Wx Wy Wv Wu E Hn. unfold na_point_in_polygon. apply normalize_wf in Wx, Wy, Wv, Wu.
  rewrite <- (normalize_shape x), <- (normalize_shape y), <- (normalize_shape vx), <- (normalize_shape vy) in E.
  set (X := normalize x) in *. set (Y := normalize y) in *. set (V := normalize vx) in *. set (U := normalize vy) in *.
  clearbody X Y V U. clear x y vx vy. rewrite E. cbn [bind].
  assert (F : Forall (fun s : shape => NoDup (dkeys s)) [sshape X; sshape Y; sshape V; sshape U])
    by (repeat (apply Forall_cons; [now apply wf_nodup|]); apply Forall_nil).
  destruct (broadcast_shapes_ok _ _ F E) as (NT & _ & _).
  rewrite filter_without.
  set (sh := without T [axis]) in *.
  assert (Nsh : NoDup (dkeys sh)) by (unfold sh; rewrite dkeys_without; now apply NoDup_filter).
  assert (Hsh : ~ In axis (dkeys sh)).
  { unfold sh. rewrite dkeys_without, filter_In. simpl. rewrite String.eqb_refl. intros [_ C]. discriminate. }
  rewrite (dget_NoDup T axis 0) by auto. rewrite (dset_absent sh axis 0) by auto.
  assert (NV : NoDup (dkeys (sh ++ [(axis, 0)]))).
  { rewrite dkeys_app. simpl.
    apply (Permutation.Permutation_NoDup (l := axis :: dkeys sh)); [apply Permutation.Permutation_cons_append|].
    now constructor. }
  destruct (na_broadcast_to X sh false) as [x|] eqn:EX; cbn [bind]; [|f_equal; now apply (broadcast_to_err X sh)].
  destruct (na_broadcast_to Y sh false) as [y|] eqn:EY; cbn [bind]; [|f_equal; now apply (broadcast_to_err Y sh)].
  destruct (na_broadcast_to V (sh ++ [(axis, 0)]) false) as [v|] eqn:EV; cbn [bind]; [|f_equal; now apply (broadcast_to_err V (sh ++ [(axis, 0)]))].
  destruct (na_broadcast_to U (sh ++ [(axis, 0)]) false) as [u|] eqn:EU; cbn [bind]; [|f_equal; now apply (broadcast_to_err U (sh ++ [(axis, 0)]))].
  apply na_broadcast_to_ok in EV as (_ & _ & W & S & _); auto.
  unfold np_point_in_polygon. rewrite <- (wf_vals v W), S, dvals_app, rev_app_distr. reflexivity.
Qed.
Theorem polygon_order (x y vx vy x' y' vx' vy' : operand A) axis T n :
  op_wf x -> op_wf y -> op_wf vx -> op_wf vy -> op_wf x' -> op_wf y' -> op_wf vx' -> op_wf vy' ->
  same_operand x x' -> same_operand y y' -> same_operand vx vx' -> same_operand vy vy' ->
  broadcast_shapes [op_shape x; op_shape y; op_shape vx; op_shape vy] = Ok T -> In (axis, n) T -> n <> 0 ->
  ~ In axis (dkeys (op_shape x)) -> ~ In axis (dkeys (op_shape y)) ->
  exists r r', na_point_in_polygon contains x y vx vy axis = Ok r /\
    na_point_in_polygon contains x' y' vx' vy' axis = Ok r' /\ same_array r r'.
Proof.
  intros Wx Wy Wv Wu Wx' Wy' Wv' Wu' Hx Hy Hv Hu E Hn N0 Nx Ny.
  assert (N : forall o : operand A, op_wf o -> NoDup (dkeys (op_shape o))).
  { intros o W. rewrite <- normalize_shape. apply wf_nodup, normalize_wf, W. }
  assert (F : Forall (fun s : shape => NoDup (dkeys s)) [op_shape x; op_shape y; op_shape vx; op_shape vy])
    by (repeat (apply Forall_cons; [now apply N|]); apply Forall_nil).
  assert (F' : Forall (fun s : shape => NoDup (dkeys s)) [op_shape x'; op_shape y'; op_shape vx'; op_shape vy'])
    by (repeat (apply Forall_cons; [now apply N|]); apply Forall_nil).
  assert (SS : Forall2 same_shape [op_shape x; op_shape y; op_shape vx; op_shape vy] [op_shape x'; op_shape y'; op_shape vx'; op_shape vy'])
    by (repeat (apply Forall2_cons; [now apply QuantileFacts.same_operand_shape|]); apply Forall2_nil).
  assert (BS := broadcast_shapes_same _ _ SS F F'). rewrite E in BS.
  destruct (broadcast_shapes [op_shape x'; _; _; _]) as [T'|] eqn:E'; [|contradiction].
  destruct (broadcast_shapes_ok _ _ F E) as (NT & _ & _). assert (Ft := broadcast_fits _ _ F E).
  destruct (polygon_ok x y vx vy axis T n) as (r & Er & Wr & Sr & V); auto.
  assert (KX : forall o p : operand A, same_operand o p -> ~ In axis (dkeys (op_shape o)) -> ~ In axis (dkeys (op_shape p))).
  { intros o p H C K. apply C. apply (same_shape_keys _ _ (QuantileFacts.same_operand_shape _ _ H)). auto. }
  destruct (polygon_ok x' y' vx' vy' axis T' n) as (r' & Er' & Wr' & Sr' & V'); eauto; [now apply BS|].
  exists r, r'. split; auto. split; auto.
  assert (SR : same_shape (sshape r) (sshape r')).
  { intros ax m. rewrite Sr, Sr', !without_In, (BS ax m). tauto. }
  split; auto. intros e He. rewrite V, V' by (auto; now apply (same_shape_inside (sshape r))).
  rewrite Sr in He.
  assert (I : forall k, k < n -> inside (set_env e axis k) T).
  { intros k Hk ax m Hm. unfold set_env. destruct (String.eqb_spec ax axis) as [-> |D].
    - apply (dget_NoDup T) in Hm; auto. apply (dget_NoDup T) in Hn; auto. assert (m = n) by congruence. lia.
    - apply He, without_In. split; auto. intros [<- |[]]; congruence. }
  assert (Z : forall o p : operand A, In (op_shape o) [op_shape x; op_shape y; op_shape vx; op_shape vy] -> op_wf o -> op_wf p ->
    same_operand o p -> ~ In axis (dkeys (op_shape o)) -> op_at o e = op_at p e).
  { intros o p Ho Wo Wp H K. apply (same_fits o p (without T [axis])); auto.
    intros ax m Hm. destruct (Ft _ Ho ax m Hm) as (m' & Hm' & D). exists m'. split; auto.
    apply without_In. split; auto. intros [<- |[]]. apply K. now apply (in_map fst) in Hm. }
  rewrite (Z x x'), (Z y y') by (simpl; auto).
  f_equal; apply map_ext_in; intros k Hk; apply in_seq in Hk; (apply (same_fits _ _ T); [..|apply I; lia]); auto; apply Ft; simpl; auto.
Qed.
End Polygon.
