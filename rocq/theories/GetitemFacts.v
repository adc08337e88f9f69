(** Facts about indexing: what [getitem] selects. *)
From Coq Require Import String List Arith ZArith Bool Lia Permutation.
From Verif Require Import Base BaseFacts Numpy NumpyFacts Shapes Scalar Spec ShapesFacts AlignFacts.
Import ListNotations.
Open Scope nat_scope.
Open Scope list_scope.

(** *** moving named axes to the front *)

Definition others (axes ks : list string) : list string :=
  filter (fun ax => negb (smem ax ks)) axes.

Lemma filter_map_comm {A B} (f : B -> bool) (g : A -> B) l :
  filter f (map g l) = map g (filter (fun x => f (g x)) l).
Proof. induction l; simpl; auto. destruct (f (g a)); simpl; congruence. Qed.

Lemma others_positions axes ks :
  NoDup axes -> incl ks axes ->
  map (fun p => nth p axes ""%string)
      (filter (fun i => negb (nmem i (map (fun ax => spos ax axes) ks))) (seq 0 (length axes)))
  = others axes ks.
Proof.
  intros ND I. unfold others.
  assert (E : filter (fun ax => negb (smem ax ks)) axes =
          filter (fun ax => negb (smem ax ks)) (map (fun p => nth p axes ""%string) (seq 0 (length axes))))
    by (now rewrite map_nth_seq).
  rewrite E, filter_map_comm. f_equal.
  apply filter_ext_in. intros i Hi. apply in_seq in Hi. f_equal.
  destruct (smem (nth i axes ""%string) ks) eqn:E2.
  - apply smem_In in E2. apply nmem_In. apply in_map_iff. exists (nth i axes ""%string).
    split; auto. apply spos_nth; auto. lia.
  - apply smem_false in E2. apply nmem_false. intros H. apply in_map_iff in H as [ax [E1 H]].
    apply E2. rewrite <- E1. rewrite nth_spos; auto.
Qed.

Lemma map_nth_spos axes ks :
  incl ks axes -> map (fun p => nth p axes ""%string) (map (fun ax => spos ax axes) ks) = ks.
Proof.
  intros I. rewrite map_map. rewrite <- (map_id ks) at 2. apply map_ext_in.
  intros ax Hax. apply nth_spos. auto.
Qed.

Lemma move_front {A} (a : sarr A) ks :
  wf a -> NoDup ks -> incl ks (s_axes a) ->
  let organized := moveaxis (map (fun ax => spos ax (s_axes a)) ks) (seq 0 (length ks)) (s_nd a) in
  nshape organized = map (asize a) (ks ++ others (s_axes a) ks) /\
  forall e : env, nget organized (map e (ks ++ others (s_axes a) ks)) = nget (s_nd a) (map e (s_axes a)).
Proof.
  intros W NDk I organized. assert (W' := W). destruct W' as [ND L].
  set (src := map (fun ax => spos ax (s_axes a)) ks) in *.
  assert (Lk : length ks = length src) by (unfold src; now rewrite map_length).
  unfold organized, moveaxis. rewrite Lk, moveaxis_order_front.
  set (order := src ++ _).
  assert (NDs : NoDup src) by (apply NoDup_map_spos; auto).
  assert (Bs : Forall (fun i => i < ndim (s_nd a)) src).
  { apply Forall_forall. intros x Hx. apply in_map_iff in Hx as [ax [<- Hax]].
    unfold ndim. rewrite <- L. apply spos_lt. auto. }
  assert (P : Permutation order (seq 0 (ndim (s_nd a)))) by (apply filter_seq_perm; auto).
  assert (NM : map (fun p => nth p (s_axes a) ""%string) order = ks ++ others (s_axes a) ks).
  { unfold order. rewrite map_app. unfold src at 1. rewrite map_nth_spos by auto. f_equal.
    unfold ndim. rewrite <- L. unfold src. apply others_positions; auto. }
  split.
  - rewrite transpose_shape, <- NM, map_map. apply map_ext_in. intros p Hp.
    unfold asize. rewrite dget_sshape_nth; auto.
    assert (In p (seq 0 (ndim (s_nd a)))) by (eapply Permutation_in; eauto).
    apply in_seq in H. unfold ndim in H. lia.
  - intros e. rewrite <- NM. apply transpose_named; auto.
Qed.

Lemma others_In axes ks ax : In ax (others axes ks) <-> In ax axes /\ ~ In ax ks.
Proof.
  unfold others. rewrite filter_In, negb_true_iff, smem_false. tauto.
Qed.

Lemma front_perm axes ks : NoDup axes -> NoDup ks -> incl ks axes ->
  Permutation (ks ++ others axes ks) axes.
Proof.
  intros H1 H2 I. apply NoDup_Permutation; auto.
  - apply NoDup_app_intro; auto.
    + apply NoDup_filter. auto.
    + intros x Hx Hin. apply others_In in Hin. tauto.
  - intros x. rewrite in_app_iff, others_In. split.
    + intros [?|[? _]]; auto.
    + intros H. destruct (in_dec string_dec x ks); auto.
Qed.

(** *** the specification of a selection *)

Lemma zvalid_in_range n z : zvalid n z = true <-> in_range n z.
Proof.
  unfold zvalid, in_range. rewrite andb_true_iff, Z.leb_le, Z.ltb_lt. tauto.
Qed.

(** positions of a slice ([] when it raises) *)
Definition positions (s : pyslice) (n : nat) : list nat :=
  match slice_positions s n with Ok l => l | Err _ => [] end.

Definition item_slice (i : option item) : pyslice :=
  match i with Some (ItSlice s) => s | _ => slice_all end.

(** the position read along an axis of size [n] indexed by [i], when the result
    is read at [e] *)
Definition item_pos (n : nat) (i : option item) (e : env) (ax : string) : nat :=
  match i with
  | Some (ItInt z) | Some (ItNpInt z) => znorm n z
  | Some (ItArr v) => znorm n (bat v e)
  | o => nth (e ax) (positions (item_slice o) n) 0
  end.

Definition is_basic (i : option item) : bool :=
  match i with Some j => negb (get_advanced j) | None => true end.

(** the axes of the index arrays *)
Definition adv_operands (it : dict item) : list (operand Z) :=
  flat_map (fun kv => item_operand (snd kv)) (filter (fun kv => get_advanced (snd kv)) it).

Lemma slice_positions_ok s n :
  (sl_step s <> Some 0%Z /\ slice_positions s n = Ok (positions s n)) \/
  (sl_step s = Some 0%Z /\ slice_positions s n = Err ValueError).
Proof.
  unfold positions, slice_positions. destruct s as [a b [k|]]; simpl.
  - destruct (Z.eqb_spec k 0); subst; auto. left. split; auto. congruence.
  - left. split; auto. discriminate.
Qed.

Lemma positions_slice_all n : positions slice_all n = seq 0 n.
Proof.
  unfold positions, slice_positions. simpl.
  rewrite <- (map_id (seq 0 n)) at 1.
  replace (Z.to_nat (if (0 <? Z.of_nat n)%Z then ((Z.of_nat n - 0 - 1) / 1 + 1)%Z else 0%Z)) with n.
  - rewrite map_id. rewrite <- (map_id (seq 0 n)) at 2. apply map_ext. intros i. lia.
  - destruct (Z.ltb_spec 0 (Z.of_nat n)).
    + rewrite Z.div_1_r. lia.
    + lia.
Qed.

Lemma zclamp_range lo hi x : (lo <= hi)%Z -> (lo <= zclamp lo hi x <= hi)%Z.
Proof. unfold zclamp. destruct (Z.ltb_spec x lo), (Z.ltb_spec hi x); lia. Qed.

Lemma slice_bound_range n lo hi d x : (lo <= hi)%Z -> (lo <= d <= hi)%Z ->
  (lo <= slice_bound n lo hi d x <= hi)%Z.
Proof. unfold slice_bound. destruct x; auto. intros. now apply zclamp_range. Qed.

Lemma positions_lt s n j : In j (positions s n) -> j < n.
Proof.
  unfold positions, slice_positions.
  set (step := match sl_step s with None => 1%Z | Some k => k end).
  destruct (Z.eqb_spec step 0); [intros []|].
  intros H. apply in_map_iff in H as [i [<- Hi]]. apply in_seq in Hi. destruct Hi as [_ Hi]. simpl in Hi.
  destruct (Z.ltb_spec 0 step).
  - set (start := slice_bound _ _ _ _ (sl_start s)) in *.
    set (stop := slice_bound _ _ _ _ (sl_stop s)) in *.
    assert (0 <= start <= Z.of_nat n)%Z by (apply slice_bound_range; lia).
    assert (0 <= stop <= Z.of_nat n)%Z by (apply slice_bound_range; lia).
    destruct (Z.ltb_spec start stop); [|simpl in Hi; lia].
    assert (Hq : (Z.of_nat i <= (stop - start - 1) / step)%Z) by lia.
    assert (step * ((stop - start - 1) / step) <= stop - start - 1)%Z by (apply Z.mul_div_le; lia).
    assert (Z.of_nat i * step <= ((stop - start - 1) / step) * step)%Z by (apply Z.mul_le_mono_nonneg_r; lia).
    assert (0 <= Z.of_nat i * step)%Z by (apply Z.mul_nonneg_nonneg; lia).
    lia.
  - set (start := slice_bound _ _ _ _ (sl_start s)) in *.
    set (stop := slice_bound _ _ _ _ (sl_stop s)) in *.
    destruct (Z.eq_dec (Z.of_nat n) 0) as [E0|E0].
    + assert (-1 <= start <= -1)%Z.
      { unfold start. replace (Z.of_nat n - 1)%Z with (-1)%Z by lia. apply slice_bound_range; lia. }
      assert (-1 <= stop <= -1)%Z.
      { unfold stop. replace (Z.of_nat n - 1)%Z with (-1)%Z by lia. apply slice_bound_range; lia. }
      destruct (Z.ltb_spec stop start); [lia|simpl in Hi; lia].
    + assert (-1 <= start <= Z.of_nat n - 1)%Z by (apply slice_bound_range; lia).
      assert (-1 <= stop <= Z.of_nat n - 1)%Z by (apply slice_bound_range; lia).
      destruct (Z.ltb_spec stop start); [|simpl in Hi; lia].
      assert (Hq : (Z.of_nat i <= (start - stop - 1) / (- step))%Z) by lia.
      assert ((- step) * ((start - stop - 1) / (- step)) <= start - stop - 1)%Z by (apply Z.mul_div_le; lia).
      assert (Z.of_nat i * (- step) <= ((start - stop - 1) / (- step)) * (- step))%Z
        by (apply Z.mul_le_mono_nonneg_r; lia).
      assert (0 <= Z.of_nat i * (- step))%Z by (apply Z.mul_nonneg_nonneg; lia).
      lia.
Qed.

Lemma znorm_lt n z : in_range n z -> znorm n z < n.
Proof. unfold in_range, znorm. destruct (Z.ltb_spec z 0); lia. Qed.

(** *** resolving the index tuple *)

Lemma resolve_app ix1 ix2 d1 d2 : length ix1 = length d1 ->
  resolve (ix1 ++ ix2) (d1 ++ d2) =
  (r1 <- resolve ix1 d1 ;; r2 <- resolve ix2 d2 ;; Ok (r1 ++ r2)).
Proof.
  revert d1; induction ix1; destruct d1; simpl; intros H; try discriminate.
  - destruct (resolve ix2 d2); auto.
  - destruct (resolve1 a n); simpl; auto. rewrite IHix1 by auto.
    destruct (resolve ix1 d1); simpl; auto. destruct (resolve ix2 d2); auto.
Qed.

Lemma resolve_slices_ok (B : list string) (f : string -> pyslice) (g : string -> nat) :
  (forall ax, In ax B -> sl_step (f ax) <> Some 0%Z) ->
  resolve (map (fun ax => IxSlice (f ax)) B) (map g B) =
  Ok (map (fun ax => RPos (positions (f ax) (g ax))) B).
Proof.
  induction B; simpl; intros H; auto.
  destruct (slice_positions_ok (f a) (g a)) as [[_ ->]|[E _]].
  - simpl. rewrite IHB; auto.
  - exfalso. apply (H a); auto.
Qed.

Lemma resolve_slices_err (B : list string) (f : string -> pyslice) (g : string -> nat) ax :
  In ax B -> sl_step (f ax) = Some 0%Z ->
  resolve (map (fun ax => IxSlice (f ax)) B) (map g B) = Err ValueError.
Proof.
  induction B; simpl; intros H E; [destruct H|].
  destruct (slice_positions_ok (f a) (g a)) as [[E1 ->]|[_ ->]]; auto.
  simpl. destruct H as [->|H]; [contradiction|]. rewrite IHB; auto.
Qed.

Lemma src_idx_slices (B : list string) (f : string -> list nat) (e : env) b :
  src_idx (map (fun ax => RPos (f ax)) B) b (map e B) =
  map (fun ax => nth (e ax) (f ax) 0) B.
Proof. induction B; simpl; congruence. Qed.

Definition rix_val (r : rix) (b : list nat) : nat :=
  match r with RInt n z => znorm n z | RArr n v => znorm n (bget v b) | RPos _ => 0 end.
Definition rix_adv (r : rix) : Prop := match r with RPos _ => False | _ => True end.

Lemma src_idx_adv rs1 rs2 b sl : Forall rix_adv rs1 ->
  src_idx (rs1 ++ rs2) b sl = map (fun r => rix_val r b) rs1 ++ src_idx rs2 b sl.
Proof.
  induction 1 as [|r rs Hr H IH]; simpl; auto.
  destruct r; simpl in *; try contradiction; now rewrite IH.
Qed.

Lemma slice_dims_app r1 r2 : slice_dims (r1 ++ r2) = slice_dims r1 ++ slice_dims r2.
Proof. unfold slice_dims. now rewrite flat_map_app. Qed.

Lemma slice_dims_adv rs : Forall rix_adv rs -> slice_dims rs = [].
Proof. induction 1 as [|r rs Hr H IH]; simpl; auto. destruct r; simpl in *; tauto. Qed.

Lemma slice_dims_slices (B : list string) (f : string -> list nat) :
  slice_dims (map (fun ax => RPos (f ax)) B) = map (fun ax => length (f ax)) B.
Proof. induction B; simpl; congruence. Qed.

Lemma lead_slices_slices (B : list string) (f : string -> pyslice) :
  lead_slices (map (fun ax => IxSlice (f ax)) B) = length B.
Proof. induction B; simpl; congruence. Qed.

Lemma existsb_slices (B : list string) (f : string -> pyslice) :
  existsb is_adv (map (fun ax => IxSlice (f ax)) B) = false.
Proof. induction B; simpl; auto. Qed.

Lemma drop_adv_app ix1 ix2 : Forall (fun x => is_adv x = true) ix1 ->
  drop_adv (ix1 ++ ix2) = drop_adv ix2.
Proof. induction 1; simpl; auto. now rewrite H. Qed.

Lemma drop_adv_slices (B : list string) (f : string -> pyslice) :
  drop_adv (map (fun ax => IxSlice (f ax)) B) = map (fun ax => IxSlice (f ax)) B.
Proof. destruct B; simpl; auto. Qed.

(** advanced indices first, slices last *)
Lemma np_index_front {A} (ixA : list ixel) (B : list string) (f : string -> pyslice) (o : nd A) dA (g : string -> nat) b rsA :
  Forall (fun x => is_adv x = true) ixA -> length ixA = length dA ->
  nshape o = dA ++ map g B ->
  resolve ixA dA = Ok rsA -> Forall rix_adv rsA ->
  bshapes (map nshape (flat_map adv_nd ixA)) = Some b ->
  (forall ax, In ax B -> sl_step (f ax) <> Some 0%Z) ->
  exists r, np_index (ixA ++ map (fun ax => IxSlice (f ax)) B) o = Ok r /\
    nshape r = b ++ map (fun ax => length (positions (f ax) (g ax))) B /\
    forall (bi : list nat) (e : env), length bi = length b ->
      nget r (bi ++ map e B) =
      nget o (map (fun x => rix_val x bi) rsA ++
              map (fun ax => nth (e ax) (positions (f ax) (g ax)) 0) B).
Proof.
  intros HA HL HS HR HRA HB Hst. unfold np_index. rewrite HS.
  rewrite resolve_app by auto. rewrite HR. cbn [bind].
  rewrite resolve_slices_ok by auto. cbn [bind].
  assert (EB : flat_map adv_nd (ixA ++ map (fun ax => IxSlice (f ax)) B) = flat_map adv_nd ixA).
  { rewrite flat_map_app. replace (flat_map adv_nd (map _ B)) with (@nil (nd Z)).
    - apply app_nil_r.
    - clear. induction B; simpl; auto. }
  rewrite EB, HB.
  assert (CT : adv_contiguous (ixA ++ map (fun ax => IxSlice (f ax)) B) = true).
  { unfold adv_contiguous. apply negb_true_iff.
    destruct ixA as [|x ixA].
    - simpl. rewrite lead_slices_slices.
      rewrite skipn_all2 by (rewrite map_length; lia). reflexivity.
    - assert (E0 : lead_slices ((x :: ixA) ++ map (fun ax => IxSlice (f ax)) B) = 0).
      { inversion HA; subst. destruct x; simpl in *; auto; discriminate. }
      rewrite E0. cbn [skipn]. rewrite drop_adv_app by auto. rewrite drop_adv_slices.
      apply existsb_slices. }
  rewrite CT. rewrite slice_dims_app, slice_dims_adv, slice_dims_slices by auto. cbn [app].
  set (p := lead_slices _).
  assert (Hp : p = 0 \/ (b = [] /\ p = length B)).
  { unfold p. destruct ixA as [|x ixA].
    - right. simpl in *. split; [congruence|]. apply lead_slices_slices.
    - left. inversion HA; subst. destruct x; simpl in *; auto; discriminate. }
  eexists. split; [reflexivity|]. split.
  - simpl. destruct Hp as [->|[-> ->]].
    + reflexivity.
    + rewrite firstn_all2, skipn_all2 by (rewrite map_length; lia). simpl. now rewrite app_nil_r.
  - intros bi e Lb. cbn [nget]. f_equal.
    rewrite src_idx_adv by auto. f_equal.
    + destruct Hp as [->|[-> ->]].
      * simpl. apply map_ext_in. intros x _. now rewrite firstn_app_exact.
      * destruct bi; [|discriminate]. reflexivity.
    + rewrite <- src_idx_slices with (b := firstn (length b) (skipn p (bi ++ map e B))).
      f_equal. destruct Hp as [->|[-> ->]].
      * simpl. now apply skipn_app_exact.
      * destruct bi; [|discriminate]. simpl. rewrite Nat.add_0_r. apply firstn_skipn.
Qed.

Definition opnd (i : item) : operand Z :=
  match i with ItInt z | ItNpInt z => OpNum z | ItArr v => OpArr v | _ => OpNum 0%Z end.

Lemma adv_operands_map (adv : dict item) :
  Forall (fun kv => get_advanced (snd kv) = true) adv ->
  flat_map (fun kv => item_operand (snd kv)) adv = map (fun kv => opnd (snd kv)) adv.
Proof.
  induction 1 as [|[k i] adv H Hf IH]; simpl; auto. rewrite IH.
  destruct i; simpl in *; try discriminate; auto.
Qed.

(** the advanced part of the index tuple *)
Lemma adv_tuple (adv : dict item) K ns :
  Forall (fun kv => get_advanced (snd kv) = true) adv ->
  mapM (op_aligned K) (map (fun kv => opnd (snd kv)) adv) = Ok ns ->
  exists ixA, mapM (fun kv => item_ix K (snd kv)) adv = Ok ixA /\
    flat_map adv_nd ixA = ns /\
    Forall (fun x => is_adv x = true) ixA /\
    Forall2 (fun kv x => match opnd (snd kv) with
                         | OpNum z => x = IxInt z
                         | OpArr v => exists n, x = IxArr n /\ ndarray_aligned v K = Ok n
                         end) adv ixA.
Proof.
  intros H; revert ns; induction H as [|[k i] adv H Hf IH]; simpl; intros ns E.
  - injection E as <-. exists []. repeat split; auto.
  - destruct (op_aligned K (opnd i)) as [n|] eqn:En; [|discriminate]. cbn [bind] in E.
    destruct (mapM _ (map _ adv)) as [ns'|] eqn:Es; [|discriminate]. cbn [bind] in E.
    injection E as <-. destruct (IH _ eq_refl) as [ixA (E1 & E2 & E3 & E4)].
    destruct i as [|z|z|s|v]; simpl in *; try discriminate.
    + rewrite E1. injection En as <-. exists (IxInt z :: ixA). simpl. rewrite E2.
      split; [auto|split; [auto|split; constructor; simpl; auto]].
    + rewrite E1. injection En as <-. exists (IxInt z :: ixA). simpl. rewrite E2.
      split; [auto|split; [auto|split; constructor; simpl; auto]].
    + rewrite En. cbn [bind]. rewrite E1. exists (IxArr n :: ixA). simpl. rewrite E2.
      split; [auto|split; [auto|split; constructor; simpl; eauto]].
Qed.

Lemma adv_tuple_err (adv : dict item) K e :
  mapM (fun kv => item_ix K (snd kv)) adv = Err e ->
  exists kv v, In kv adv /\ snd kv = ItArr v /\ ~ incl (s_axes v) K.
Proof.
  induction adv as [|[k i] adv IH]; simpl; intros E; [discriminate|].
  destruct (item_ix K i) eqn:Ei; simpl in E.
  - destruct (mapM _ adv) eqn:Em; simpl in E; [discriminate|].
    injection E as ->. destruct (IH eq_refl) as (kv & v & H1 & H2). exists kv, v. auto.
  - destruct i; simpl in Ei; try discriminate.
    exists (k, ItArr v), v. split; auto. split; auto. intros I.
    unfold ndarray_aligned in Ei. destruct (axes_eqb _ _); [discriminate|].
    rewrite mapM_index_of in Ei by auto. discriminate.
Qed.

Lemma aligned_valid (v : sarr Z) K n m :
  wf v -> NoDup K -> ndarray_aligned v K = Ok n ->
  (forallb (zvalid m) (ravel n) = true <-> forall e, inside e (sshape v) -> in_range m (at_ v e)).
Proof.
  intros W ND E. destruct (align_ok v K n W ND E) as (I & S & G).
  rewrite forallb_forall. split.
  - intros H e He. apply zvalid_in_range. apply H. apply ravel_In.
    set (e' := fun ax => if smem ax (s_axes v) then e ax else 0).
    exists (map e' K). split.
    + rewrite S. unfold inb. rewrite Forall2_map_l, Forall2_map_r. apply Forall2_same.
      intros ax Hax. unfold e'. destruct (smem ax (s_axes v)) eqn:Es.
      * apply smem_In in Es. apply (proj1 (inside_asize v e W)); auto.
      * apply smem_false in Es. rewrite asize_absent; auto.
    + rewrite G. unfold at_. f_equal. apply map_ext_in. intros ax Hax. unfold e'.
      now rewrite (proj2 (smem_In ax (s_axes v)) Hax).
  - intros H z Hz. apply ravel_In in Hz as [idx [Hidx <-]]. apply zvalid_in_range.
    assert (L := inb_length _ _ Hidx). rewrite S, map_length in L.
    rewrite <- (map_env_of K idx) by auto. rewrite G. apply H.
    apply inside_asize; auto. intros ax Hax.
    rewrite S in Hidx. assert (Hk : In ax K) by auto.
    assert (B := inb_nth _ _ 0 0 (spos ax K) Hidx). rewrite map_length in B.
    specialize (B (proj1 (spos_lt _ _) Hk)). rewrite map_nth_in with (d := ""%string) in B by (now apply spos_lt).
    rewrite nth_spos in B by auto. exact B.
Qed.

(** resolving the advanced part *)
Lemma resolve_adv (adv : dict item) ixA K (g : string -> nat) :
  NoDup K -> Forall (fun kv => item_wf (snd kv)) adv ->
  Forall (fun kv => get_advanced (snd kv) = true) adv ->
  Forall2 (fun kv x => match opnd (snd kv) with
                       | OpNum z => x = IxInt z
                       | OpArr v => exists n, x = IxArr n /\ ndarray_aligned v K = Ok n
                       end) adv ixA ->
  (Forall (fun kv => item_ok (g (fst kv)) (Some (snd kv))) adv /\
   exists rsA, resolve ixA (map g (dkeys adv)) = Ok rsA /\ Forall rix_adv rsA /\
     forall (e : env),
       map (fun x => rix_val x (map e K)) rsA =
       map (fun kv => item_pos (g (fst kv)) (Some (snd kv)) e (fst kv)) adv) \/
  (~ Forall (fun kv => item_ok (g (fst kv)) (Some (snd kv))) adv /\
   resolve ixA (map g (dkeys adv)) = Err IndexError).
Proof.
  intros ND W H F. induction F as [|[k i] x adv ixA Hx F IH]; simpl.
  - left. split; auto. exists []. auto.
  - inversion W; inversion H; subst. destruct (IH H3 H7) as [[H8 IH'] | [H8 IH']].
    + destruct IH' as [rsA (E1 & E2 & E3)].
      destruct i as [|z|z|s|v]; simpl in *; try discriminate.
      * subst x. simpl. destruct (zvalid (g k) z) eqn:Ez.
        -- left. split. { constructor; auto. now apply zvalid_in_range. }
           simpl. rewrite E1. simpl. eexists. split; [reflexivity|]. split.
           ++ constructor; simpl; auto.
           ++ intros e. simpl. f_equal. auto.
        -- right. split; auto. intros HF. apply Forall_inv in HF. simpl in HF.
           apply zvalid_in_range in HF. congruence.
      * subst x. simpl. destruct (zvalid (g k) z) eqn:Ez.
        -- left. split. { constructor; auto. now apply zvalid_in_range. }
           simpl. rewrite E1. simpl. eexists. split; [reflexivity|]. split.
           ++ constructor; simpl; auto.
           ++ intros e. simpl. f_equal. auto.
        -- right. split; auto. intros HF. apply Forall_inv in HF. simpl in HF.
           apply zvalid_in_range in HF. congruence.
      * destruct Hx as [n [-> En]]. simpl.
        assert (V := aligned_valid v K n (g k) H2 ND En).
        destruct (forallb (zvalid (g k)) (ravel n)).
        -- left. split. { constructor; auto. simpl. now apply V. }
           simpl. rewrite E1. simpl. eexists. split; [reflexivity|]. split.
           ++ constructor; simpl; auto.
           ++ intros e. simpl. f_equal; auto. f_equal. now apply bget_aligned.
        -- right. split; auto. intros HF. apply Forall_inv in HF. simpl in HF.
           apply V in HF. discriminate.
    + right. split. { intros HF. apply H8. now inversion HF. }
      destruct (resolve1 x (g k)) as [r|er] eqn:Er; simpl.
      * now rewrite IH'.
      * destruct i as [|z|z|s|v]; simpl in *; try discriminate.
        -- subst x. simpl in Er. destruct (zvalid _ _); congruence.
        -- subst x. simpl in Er. destruct (zvalid _ _); congruence.
        -- destruct Hx as [n [-> En]]. simpl in Er. destruct (forallb _ _); congruence.
Qed.

Lemma match_ne {X} (l : dict item) (u v : X) :
  l <> [] -> match l with [] => u | _ :: _ => v end = v.
Proof. destruct l; congruence. Qed.

(** *** the main characterisation *)

Section Getitem.
Context {A : Type}.
Variable a : sarr A.
Variable it : dict item.
Hypothesis W : wf a.
Hypothesis NDi : NoDup (dkeys it).
Hypothesis Wi : Forall (fun kv => item_wf (snd kv)) it.

Let axes := s_axes a.
Let it' := filter (fun kv => smem (fst kv) axes) it.
Let adv := filter (fun kv => get_advanced (snd kv)) it'.
Let basic := others axes (dkeys adv).

Lemma NoDup_dkeys_filter (f : string * item -> bool) (d : dict item) :
  NoDup (dkeys d) -> NoDup (dkeys (filter f d)).
Proof.
  unfold dkeys. induction d as [|kv d IH]; simpl; intros H; auto. inversion H; subst.
  destruct (f kv); simpl; auto. constructor; auto.
  intros Hin. apply H2. apply in_map_iff in Hin as [kv' [E Hin]]. apply filter_In in Hin.
  apply in_map_iff. exists kv'. tauto.
Qed.

Lemma dget_filter_keys ax : In ax axes -> dget it' ax = dget it ax.
Proof.
  intros Hax. unfold it'. clear - Hax. induction it as [|[k i] d IH]; simpl; auto.
  destruct (smem k axes) eqn:E; simpl.
  - destruct (String.eqb ax k); auto.
  - rewrite IH. destruct (String.eqb_spec ax k); auto. subst.
    apply smem_false in E. contradiction.
Qed.

Lemma nd_it' : NoDup (dkeys it').
Proof. now apply NoDup_dkeys_filter. Qed.

Lemma nd_adv : NoDup (dkeys adv).
Proof. apply NoDup_dkeys_filter, nd_it'. Qed.

Lemma adv_In ax i : In (ax, i) adv <-> In ax axes /\ dget it ax = Some i /\ get_advanced i = true.
Proof.
  unfold adv. rewrite filter_In. simpl. split.
  - intros [H1 H2]. assert (Hk : In ax axes).
    { unfold it' in H1. apply filter_In in H1 as [_ H1]. now apply smem_In. }
    split; auto. split; auto. rewrite <- dget_filter_keys by auto.
    apply dget_NoDup; auto. apply nd_it'.
  - intros (H1 & H2 & H3). split; auto. apply dget_In. now rewrite dget_filter_keys.
Qed.

Lemma adv_incl : incl (dkeys adv) axes.
Proof.
  intros ax H. apply in_map_iff in H as [[k i] [E H]]. simpl in E. subst.
  now apply adv_In in H.
Qed.

Lemma adv_key ax : In ax axes -> (In ax (dkeys adv) <-> is_basic (dget it ax) = false).
Proof.
  intros Hax. split.
  - intros H. apply in_map_iff in H as [[k i] [E H]]. simpl in E. subst.
    apply adv_In in H as (_ & -> & H). simpl. now rewrite H.
  - intros H. unfold is_basic in H. destruct (dget it ax) as [i|] eqn:E; [|discriminate].
    apply negb_false_iff in H. apply in_map_iff. exists (ax, i). split; auto. now apply adv_In.
Qed.

Lemma basic_eq : basic = filter (fun ax => is_basic (dget it ax)) axes.
Proof.
  unfold basic, others. apply filter_ext_in. intros ax Hax.
  destruct (is_basic (dget it ax)) eqn:E.
  - apply negb_true_iff, smem_false. intros H. apply adv_key in H; auto. congruence.
  - apply negb_false_iff, smem_In. now apply adv_key.
Qed.

Lemma wf_adv_ops : Forall op_wf (map (fun kv => opnd (snd kv)) adv).
Proof.
  apply Forall_forall. intros o Ho. apply in_map_iff in Ho as [[k i] [<- H]].
  assert (Hi : In (k, i) it).
  { unfold adv, it' in H. apply filter_In in H as [H _]. now apply filter_In in H as [H _]. }
  rewrite Forall_forall in Wi. specialize (Wi _ Hi). destruct i; simpl in *; auto.
Qed.

Lemma adv_all : Forall (fun kv => get_advanced (snd kv) = true) adv.
Proof. apply Forall_forall. intros kv H. apply filter_In in H. tauto. Qed.

Lemma adv_wf : Forall (fun kv => item_wf (snd kv)) adv.
Proof.
  apply Forall_forall. intros kv H. unfold adv, it' in H. apply filter_In in H as [H _].
  apply filter_In in H as [H _]. rewrite Forall_forall in Wi. auto.
Qed.

(** the index tuple: advanced items first, slices last *)
Lemma index_tuple_eq K :
  index_tuple K it' (dkeys adv ++ basic) =
  (ixA <- mapM (fun kv => item_ix K (snd kv)) adv ;;
   Ok (ixA ++ map (fun ax => IxSlice (item_slice (dget it ax))) basic)).
Proof.
  assert (E0 : forall (d : dict item) l, NoDup (dkeys it') -> (forall kv, In kv d -> In kv it') ->
    mapM (fun ax => match dget it' ax with Some i => item_ix K i | None => Ok (IxSlice slice_all) end)
         (dkeys d ++ l) =
    (x <- mapM (fun kv => item_ix K (snd kv)) d ;;
     y <- mapM (fun ax => match dget it' ax with Some i => item_ix K i | None => Ok (IxSlice slice_all) end) l ;;
     Ok (x ++ y))).
  { induction d as [|[k i] d IH]; simpl; intros l ND H.
    - destruct (mapM _ l); auto.
    - rewrite (dget_NoDup it' k i) by (auto; apply H; auto). rewrite IH; auto.
      destruct (item_ix K i); simpl; auto. destruct (mapM _ d); simpl; auto.
      destruct (mapM _ l); simpl; auto. }
  unfold index_tuple. rewrite E0.
  - destruct (mapM _ adv); simpl; auto.
    rewrite mapM_map with (g := fun ax => IxSlice (item_slice (dget it ax))).
    + reflexivity.
    + intros ax Hax. rewrite basic_eq in Hax. apply filter_In in Hax as [Hax Hb].
      rewrite dget_filter_keys by auto. destruct (dget it ax) as [i|]; auto.
      destruct i; simpl in *; try discriminate; auto.
  - apply nd_it'.
  - intros kv H. apply filter_In in H. tauto.
Qed.

Lemma basic_steps :
  (forall ax, In ax axes -> item_ok (asize a ax) (dget it ax)) ->
  forall ax, In ax basic -> sl_step (item_slice (dget it ax)) <> Some 0%Z.
Proof.
  intros H ax Hax. apply others_In in Hax as [Hax _]. specialize (H ax Hax).
  destruct (dget it ax) as [i|]; simpl in *; try discriminate.
  destruct i; simpl in *; try discriminate; auto.
Qed.

Let target (sa : shape) : shape :=
  sa ++ map (fun ax => (ax, length (positions (item_slice (dget it ax)) (asize a ax)))) basic.

Theorem getitem_ok r :
  it' <> [] -> getitem a it = Ok r ->
  exists sa, shape_broadcasted (map (fun kv => opnd (snd kv)) adv) = Ok sa /\
    (forall ax, In ax axes -> item_ok (asize a ax) (dget it ax)) /\
    wf r /\ sshape r = target sa /\
    forall e, at_ r e = at_ a (fun ax => item_pos (asize a ax) (dget it ax) e ax).
Proof.
  intros NE H. unfold getitem in H. cbv zeta in H. fold axes in H. fold it' in H.
  rewrite (match_ne it') in H by auto. fold adv in H. rewrite (adv_operands_map adv adv_all) in H.
  destruct (shape_broadcasted (map (fun kv => opnd (snd kv)) adv)) as [sa|] eqn:ES; [|discriminate].
  cbn [bind] in H. exists sa. split; auto.
  rewrite mapM_index_of in H by apply adv_incl. cbn [bind] in H.
  change (filter (fun ax => negb (smem ax (dkeys adv))) axes) with basic in H.
  destruct (ops_aligned _ sa wf_adv_ops ES) as [NDsa [ns (E1 & E2 & E3 & E4)]].
  destruct (adv_tuple adv (dkeys sa) ns adv_all E1) as [ixA (F1 & F2 & F3 & F4)].
  rewrite index_tuple_eq, F1 in H. cbn [bind] in H.
  destruct (move_front a (dkeys adv) W nd_adv adv_incl) as [S G].
  replace (length (dkeys adv)) with (length adv) in S, G by (unfold dkeys; now rewrite map_length).
  set (organized := moveaxis _ _ _) in *. fold axes in S, G. fold basic in S, G. fold organized in S, G.
  rewrite map_app in S.
  assert (LA : length ixA = length (map (asize a) (dkeys adv))).
  { rewrite map_length. unfold dkeys. rewrite map_length. symmetry. eapply Forall2_length'; eauto. }
  destruct (np_index _ organized) as [x|] eqn:EN; [|discriminate]. cbn [bind] in H.
  assert (RB : exists rsB, resolve (map (fun ax => IxSlice (item_slice (dget it ax))) basic)
                                   (map (asize a) basic) = Ok rsB).
  { unfold np_index in EN. rewrite S, resolve_app in EN by auto.
    destruct (resolve ixA _); [|discriminate]. cbn [bind] in EN.
    destruct (resolve (map _ basic) _); [eauto|discriminate]. }
  assert (ST : forall ax, In ax basic -> sl_step (item_slice (dget it ax)) <> Some 0%Z).
  { intros ax Hax E. destruct RB as [rsB RB].
    rewrite (resolve_slices_err basic _ _ ax Hax E) in RB. discriminate. }
  destruct (resolve_adv adv ixA (dkeys sa) (asize a) NDsa adv_wf adv_all F4)
    as [[OK [rsA (R1 & R2 & R3)]]|[_ R]].
  2:{ exfalso. unfold np_index in EN. rewrite S, resolve_app in EN by auto.
      rewrite R in EN. discriminate. }
  destruct (np_index_front ixA basic (fun ax => item_slice (dget it ax)) organized
              (map (asize a) (dkeys adv)) (asize a) (dvals sa) rsA) as [y (N1 & N2 & N3)]; auto.
  { rewrite F2. auto. }
  rewrite N1 in EN. injection EN as ->.
  apply mk_sarr_ok in H as [-> Wr].
  split; [|split; [auto|split]].
  - intros ax Hax. destruct (dget it ax) as [i|] eqn:Ei; simpl; auto.
    destruct (get_advanced i) eqn:Ga.
    + assert (Hin : In (ax, i) adv) by (apply adv_In; auto).
      rewrite Forall_forall in OK. apply (OK _ Hin).
    + destruct i; simpl in *; try discriminate; auto.
      assert (Hb : In ax basic).
      { rewrite basic_eq. apply filter_In. rewrite Ei. auto. }
      specialize (ST ax Hb). rewrite Ei in ST. auto.
  - unfold sshape. simpl. rewrite N2. unfold target.
    assert (CA : forall (k1 : list string) (v1 : list nat) k2 v2, length k1 = length v1 ->
              combine (k1 ++ k2) (v1 ++ v2) = combine k1 v1 ++ combine k2 v2).
    { induction k1; destruct v1; simpl; intros; try discriminate; auto. f_equal; auto. }
    rewrite CA by (unfold dkeys, dvals; now rewrite !map_length).
    rewrite combine_dkeys_dvals. f_equal.
    clear. induction basic; simpl; congruence.
  - intros e. unfold at_ at 1. simpl. rewrite map_app.
    rewrite N3 by (unfold dkeys, dvals; now rewrite !map_length).
    rewrite R3. unfold at_. fold axes.
    rewrite <- (G (fun ax => item_pos (asize a ax) (dget it ax) e ax)). rewrite map_app. f_equal. f_equal.
    + unfold dkeys. rewrite map_map. apply map_ext_in. intros [k i] Hin. simpl.
      apply adv_In in Hin as (_ & -> & _). auto.
    + apply map_ext_in. intros ax Hax. rewrite basic_eq in Hax. apply filter_In in Hax as [_ Hb].
      destruct (dget it ax) as [i|]; simpl; auto. destruct i; simpl in *; try discriminate; auto.
Qed.

Theorem getitem_intro sa :
  it' <> [] ->
  shape_broadcasted (map (fun kv => opnd (snd kv)) adv) = Ok sa ->
  (forall ax, In ax axes -> item_ok (asize a ax) (dget it ax)) ->
  (forall ax, In ax (dkeys sa) -> ~ In ax basic) ->
  exists r, getitem a it = Ok r.
Proof.
  intros NE ES OKi DJ. unfold getitem. cbv zeta. fold axes. fold it'.
  rewrite (match_ne it') by auto. fold adv. rewrite (adv_operands_map adv adv_all). rewrite ES. cbn [bind].
  rewrite mapM_index_of by apply adv_incl. cbn [bind].
  change (filter (fun ax => negb (smem ax (dkeys adv))) axes) with basic.
  destruct (ops_aligned _ sa wf_adv_ops ES) as [NDsa [ns (E1 & E2 & E3 & E4)]].
  destruct (adv_tuple adv (dkeys sa) ns adv_all E1) as [ixA (F1 & F2 & F3 & F4)].
  rewrite index_tuple_eq, F1. cbn [bind].
  destruct (move_front a (dkeys adv) W nd_adv adv_incl) as [S G].
  replace (length (dkeys adv)) with (length adv) in S, G by (unfold dkeys; now rewrite map_length).
  set (organized := moveaxis _ _ _) in *. fold axes in S, G. fold basic in S, G. fold organized in S, G.
  rewrite map_app in S.
  assert (LA : length ixA = length (map (asize a) (dkeys adv))).
  { rewrite map_length. unfold dkeys. rewrite map_length. symmetry. eapply Forall2_length'; eauto. }
  destruct (resolve_adv adv ixA (dkeys sa) (asize a) NDsa adv_wf adv_all F4)
    as [[OK [rsA (R1 & R2 & R3)]]|[NOK _]].
  2:{ exfalso. apply NOK. apply Forall_forall. intros [k i] Hin. simpl.
      apply adv_In in Hin as (Hk & Hi & _). specialize (OKi k Hk). rewrite Hi in OKi. auto. }
  destruct (np_index_front ixA basic (fun ax => item_slice (dget it ax)) organized
              (map (asize a) (dkeys adv)) (asize a) (dvals sa) rsA) as [y (N1 & N2 & N3)]; auto.
  { rewrite F2. auto. }
  { apply basic_steps. auto. }
  rewrite N1. cbn [bind]. rewrite mk_sarr_intro; eauto.
  - apply NoDup_app_intro; auto. apply NoDup_filter. apply W.
  - rewrite N2, !app_length, map_length. unfold dkeys, dvals. now rewrite !map_length.
Qed.

(** an integer out of range raises IndexError *)
Theorem getitem_out_of_range sa ax :
  shape_broadcasted (map (fun kv => opnd (snd kv)) adv) = Ok sa ->
  In ax axes -> is_basic (dget it ax) = false -> ~ item_ok (asize a ax) (dget it ax) ->
  getitem a it = Err IndexError.
Proof.
  intros ES Hax Hb NOK. unfold getitem. cbv zeta. fold axes. fold it'.
  assert (NE : it' <> []).
  { intros E. apply adv_key in Hb; auto. unfold adv in Hb. rewrite E in Hb. destruct Hb. }
  rewrite (match_ne it') by auto. fold adv. rewrite (adv_operands_map adv adv_all). rewrite ES. cbn [bind].
  rewrite mapM_index_of by apply adv_incl. cbn [bind].
  change (filter (fun ax => negb (smem ax (dkeys adv))) axes) with basic.
  destruct (ops_aligned _ sa wf_adv_ops ES) as [NDsa [ns (E1 & E2 & E3 & E4)]].
  destruct (adv_tuple adv (dkeys sa) ns adv_all E1) as [ixA (F1 & F2 & F3 & F4)].
  rewrite index_tuple_eq, F1. cbn [bind].
  destruct (move_front a (dkeys adv) W nd_adv adv_incl) as [S G].
  replace (length (dkeys adv)) with (length adv) in S, G by (unfold dkeys; now rewrite map_length).
  set (organized := moveaxis _ _ _) in *. fold axes in S, G. fold basic in S, G. fold organized in S, G.
  rewrite map_app in S.
  assert (LA : length ixA = length (map (asize a) (dkeys adv))).
  { rewrite map_length. unfold dkeys. rewrite map_length. symmetry. eapply Forall2_length'; eauto. }
  destruct (resolve_adv adv ixA (dkeys sa) (asize a) NDsa adv_wf adv_all F4)
    as [[OK _]|[_ R]].
  - exfalso. apply NOK. unfold is_basic in Hb. destruct (dget it ax) as [i|] eqn:Ei; [|discriminate].
    apply negb_false_iff in Hb. assert (Hin : In (ax, i) adv) by (apply adv_In; auto).
    rewrite Forall_forall in OK. apply (OK _ Hin).
  - unfold np_index. rewrite S, resolve_app by auto. rewrite R. reflexivity.
Qed.

Theorem getitem_empty : it' = [] -> getitem a it = Ok a.
Proof. intros E. unfold getitem. fold axes. fold it'. now rewrite E. Qed.

(** any buffer organised like [a] with the advanced axes first is read at the
    selected positions *)
Lemma view_of {T} (o : nd T) sa :
  nshape o = map (asize a) (dkeys adv ++ basic) ->
  shape_broadcasted (map (fun kv => opnd (snd kv)) adv) = Ok sa ->
  exists ix, index_tuple (dkeys sa) it' (dkeys adv ++ basic) = Ok ix /\
    ((exists x, np_index ix o = Ok x) <-> (forall ax, In ax axes -> item_ok (asize a ax) (dget it ax))) /\
    (forall x, np_index ix o = Ok x ->
       nshape x = dvals sa ++ map (fun ax => length (positions (item_slice (dget it ax)) (asize a ax))) basic /\
       forall e : env, nget x (map e (dkeys sa ++ basic)) =
         nget o (map (fun ax => item_pos (asize a ax) (dget it ax) e ax) (dkeys adv ++ basic))).
Proof.
  intros S ES. rewrite map_app in S.
  destruct (ops_aligned _ sa wf_adv_ops ES) as [NDsa [ns (E1 & E2 & E3 & E4)]].
  destruct (adv_tuple adv (dkeys sa) ns adv_all E1) as [ixA (F1 & F2 & F3 & F4)].
  rewrite index_tuple_eq, F1. cbn [bind]. eexists. split; [reflexivity|].
  assert (LA : length ixA = length (map (asize a) (dkeys adv))).
  { rewrite map_length. unfold dkeys. rewrite map_length. symmetry. eapply Forall2_length'; eauto. }
  assert (ST : (exists x, np_index (ixA ++ map (fun ax => IxSlice (item_slice (dget it ax))) basic) o = Ok x) ->
               forall ax, In ax basic -> sl_step (item_slice (dget it ax)) <> Some 0%Z).
  { intros [x EN] ax Hax E. unfold np_index in EN. rewrite S, resolve_app in EN by auto.
    destruct (resolve ixA _); [|discriminate]. cbn [bind] in EN.
    rewrite (resolve_slices_err basic _ _ ax Hax E) in EN. discriminate. }
  assert (SB : forall ax, In ax axes -> match dget it ax with Some (ItSlice _) => True | _ => False end -> In ax basic).
  { intros ax H1 H2. rewrite basic_eq. apply filter_In. split; auto.
    destruct (dget it ax) as [[]|]; simpl in *; auto; contradiction. }
  destruct (resolve_adv adv ixA (dkeys sa) (asize a) NDsa adv_wf adv_all F4)
    as [[OK [rsA (R1 & R2 & R3)]]|[NOK R]].
  2:{ assert (ERR : np_index (ixA ++ map (fun ax => IxSlice (item_slice (dget it ax))) basic) o = Err IndexError).
      { unfold np_index. rewrite S, resolve_app by auto. rewrite R. reflexivity. }
      rewrite ERR. split; [split|].
      - intros [x Hx]. discriminate.
      - intros Hall. exfalso. apply NOK. apply Forall_forall. intros [k i] Hin. simpl.
        apply adv_In in Hin as (Hk & Hi & _). specialize (Hall k Hk). rewrite Hi in Hall. auto.
      - discriminate. }
  assert (FRONT : (forall ax, In ax basic -> sl_step (item_slice (dget it ax)) <> Some 0%Z) -> _) by
    (intros St; exact (np_index_front ixA basic (fun ax => item_slice (dget it ax)) o
              (map (asize a) (dkeys adv)) (asize a) (dvals sa) rsA F3 LA S R1 R2 (eq_ind_r (fun z => bshapes (map nshape z) = _) E3 F2) St)).
  split; [split|].
  - intros Hx. specialize (ST Hx). intros ax Hax.
    destruct (dget it ax) as [i|] eqn:Ei; [|exact I].
    destruct (get_advanced i) eqn:Ga.
    + assert (Hin : In (ax, i) adv) by (apply adv_In; auto).
      rewrite Forall_forall in OK. apply (OK _ Hin).
    + destruct i; simpl in *; try discriminate; auto.
      specialize (SB ax Hax). rewrite Ei in SB. specialize (ST ax (SB I)). rewrite Ei in ST. auto.
  - intros Hall. destruct (FRONT (basic_steps Hall)) as [y (N1 & _)]. eauto.
  - intros x Hx. destruct (FRONT (ST (ex_intro _ x Hx))) as [y (N1 & N2 & N3)].
    rewrite N1 in Hx. injection Hx as ->. split; auto.
    intros e. rewrite map_app. rewrite N3 by (unfold dkeys, dvals; now rewrite !map_length).
    rewrite R3. rewrite map_app. f_equal. f_equal.
    + unfold dkeys. rewrite map_map. apply map_ext_in. intros [k i] Hin. simpl.
      apply adv_In in Hin as (_ & -> & _). auto.
    + apply map_ext_in. intros ax Hax. rewrite basic_eq in Hax. apply filter_In in Hax as [_ Hb].
      destruct (dget it ax) as [i|]; simpl; auto. destruct i; simpl in *; try discriminate; auto.
Qed.

End Getitem.

(** *** from positions to the specification *)

Lemma slice_bound_first s n : slice_step s <> 0%Z ->
  slice_bound (Z.of_nat n) (if (0 <? slice_step s)%Z then 0 else -1)
              (if (0 <? slice_step s)%Z then Z.of_nat n else Z.of_nat n - 1)
              (if (0 <? slice_step s)%Z then (if (0 <? slice_step s)%Z then 0 else -1)
               else (if (0 <? slice_step s)%Z then Z.of_nat n else Z.of_nat n - 1))
              (sl_start s)
  = slice_first s (Z.of_nat n).
Proof.
  intros H. unfold slice_bound, slice_first, zclamp. destruct (sl_start s) as [v|].
  - destruct (0 <? slice_step s)%Z, (Z.ltb_spec v 0);
      repeat match goal with |- context [(?x <? ?y)%Z] => destruct (Z.ltb_spec x y) end; lia.
  - destruct (0 <? slice_step s)%Z; auto.
Qed.

Lemma slice_bound_end s n : slice_step s <> 0%Z ->
  slice_bound (Z.of_nat n) (if (0 <? slice_step s)%Z then 0 else -1)
              (if (0 <? slice_step s)%Z then Z.of_nat n else Z.of_nat n - 1)
              (if (0 <? slice_step s)%Z then (if (0 <? slice_step s)%Z then Z.of_nat n else Z.of_nat n - 1)
               else (if (0 <? slice_step s)%Z then 0 else -1))
              (sl_stop s)
  = slice_end s (Z.of_nat n).
Proof.
  intros H. unfold slice_bound, slice_end, zclamp. destruct (sl_stop s) as [v|].
  - destruct (0 <? slice_step s)%Z, (Z.ltb_spec v 0);
      repeat match goal with |- context [(?x <? ?y)%Z] => destruct (Z.ltb_spec x y) end; lia.
  - destruct (0 <? slice_step s)%Z; auto.
Qed.

Lemma slice_first_nonneg s n : (0 < slice_step s)%Z -> (0 <= slice_first s (Z.of_nat n))%Z.
Proof.
  intros H. unfold slice_first. destruct (Z.ltb_spec 0 (slice_step s)); [|lia].
  destruct (sl_start s); [destruct (Z.ltb_spec z 0)|]; lia.
Qed.

Lemma slice_end_min s n : (slice_step s < 0)%Z -> (-1 <= slice_end s (Z.of_nat n))%Z.
Proof.
  intros H. unfold slice_end. destruct (Z.ltb_spec 0 (slice_step s)); [lia|].
  destruct (sl_stop s); [destruct (Z.ltb_spec z 0)|]; lia.
Qed.

Lemma positions_spec s n i p : sl_step s <> Some 0%Z ->
  (nth_error (positions s n) i = Some p <-> slice_selects s n i p).
Proof.
  intros H. assert (H' : slice_step s <> 0%Z).
  { unfold slice_step. destruct (sl_step s); [|lia]. congruence. }
  unfold positions, slice_positions. fold (slice_step s).
  destruct (Z.eqb_spec (slice_step s) 0); [contradiction|].
  rewrite slice_bound_first, slice_bound_end by auto.
  set (F := slice_first s (Z.of_nat n)). set (E := slice_end s (Z.of_nat n)).
  set (len := if (0 <? slice_step s)%Z then _ else _).
  assert (LEN : i < Z.to_nat len <->
    (if (0 <? slice_step s)%Z then (F + Z.of_nat i * slice_step s < E)%Z else (E < F + Z.of_nat i * slice_step s)%Z)).
  { unfold len. destruct (Z.ltb_spec 0 (slice_step s)) as [P|P].
    - destruct (Z.ltb_spec F E) as [Q|Q].
      + assert (Hd := Z.div_mod (E - F - 1) (slice_step s)).
        assert (Hm := Z.mod_pos_bound (E - F - 1) (slice_step s) P).
        assert (Hq : (0 <= (E - F - 1) / slice_step s)%Z) by (apply Z.div_pos; lia).
        split; intros Hi.
        * assert (Z.of_nat i <= (E - F - 1) / slice_step s)%Z by lia.
          assert (Z.of_nat i * slice_step s <= (E - F - 1) / slice_step s * slice_step s)%Z
            by (apply Z.mul_le_mono_nonneg_r; lia). lia.
        * assert (Z.of_nat i <= (E - F - 1) / slice_step s)%Z; [|lia].
          apply Z.div_le_lower_bound; lia.
      + split; intros Hi; [simpl in Hi; lia|].
        assert (0 <= Z.of_nat i * slice_step s)%Z by (apply Z.mul_nonneg_nonneg; lia). lia.
    - destruct (Z.ltb_spec E F) as [Q|Q].
      + assert (Hd := Z.div_mod (F - E - 1) (- slice_step s)).
        assert (Hm := Z.mod_pos_bound (F - E - 1) (- slice_step s)).
        assert (Hq : (0 <= (F - E - 1) / - slice_step s)%Z) by (apply Z.div_pos; lia).
        split; intros Hi.
        * assert (Z.of_nat i <= (F - E - 1) / - slice_step s)%Z by lia.
          assert (Z.of_nat i * - slice_step s <= (F - E - 1) / - slice_step s * - slice_step s)%Z
            by (apply Z.mul_le_mono_nonneg_r; lia). lia.
        * assert (Z.of_nat i <= (F - E - 1) / - slice_step s)%Z; [|lia].
          apply Z.div_le_lower_bound; lia.
      + split; intros Hi; [simpl in Hi; lia|].
        assert (0 <= Z.of_nat i * - slice_step s)%Z by (apply Z.mul_nonneg_nonneg; lia). lia. }
  assert (POS : i < Z.to_nat len -> (0 <= F + Z.of_nat i * slice_step s)%Z).
  { intros Hi. apply LEN in Hi. destruct (Z.ltb_spec 0 (slice_step s)) as [P|P].
    - assert (0 <= F)%Z by (apply slice_first_nonneg; auto).
      assert (0 <= Z.of_nat i * slice_step s)%Z by (apply Z.mul_nonneg_nonneg; lia). lia.
    - assert (-1 <= E)%Z by (apply slice_end_min; lia). lia. }
  rewrite nth_error_map. unfold slice_selects. fold F E.
  destruct (Nat.lt_ge_cases i (Z.to_nat len)) as [Hi|Hi].
  - rewrite (nth_error_nth' (seq 0 (Z.to_nat len)) 0) by (rewrite seq_length; auto).
    rewrite seq_nth by auto. simpl. specialize (POS Hi). apply LEN in Hi. split.
    + intros Hp. injection Hp as <-. rewrite Z2Nat.id by lia. auto.
    + intros [Hp _]. f_equal. lia.
  - rewrite (proj2 (nth_error_None _ _)) by (rewrite seq_length; auto). simpl.
    split; [discriminate|]. intros [Hp Hc]. rewrite Hp in Hc. apply LEN in Hc. lia.
Qed.

Lemma positions_len s n : sl_step s <> Some 0%Z ->
  forall i, i < length (positions s n) <-> exists p, slice_selects s n i p.
Proof.
  intros H i. rewrite <- nth_error_Some. split.
  - intros Hi. destruct (nth_error (positions s n) i) as [p|] eqn:E; [|congruence].
    exists p. now apply positions_spec.
  - intros [p Hp]. apply positions_spec in Hp; auto. congruence.
Qed.

Lemma znorm_index_is n z : in_range n z -> index_is n z (znorm n z).
Proof.
  unfold in_range, index_is, znorm. intros H. destruct (Z.ltb_spec z 0); split; lia.
Qed.

Lemma index_shapes_ops axes it :
  index_shapes axes it =
  op_shapes (map (fun kv : string * item => opnd (snd kv))
    (filter (fun kv => get_advanced (snd kv)) (filter (fun kv => smem (fst kv) axes) it))).
Proof.
  induction it as [|[k i] it IH]; simpl; auto. rewrite IH.
  destruct (smem k axes); destruct i; simpl; auto.
Qed.

Lemma keeps_basic i : keeps_axis i = is_basic i.
Proof. destruct i as [[]|]; reflexivity. Qed.

Lemma item_pos_selects n i e ax :
  item_ok n i ->
  (keeps_axis i = true -> e ax < length (positions (item_slice i) n)) ->
  (forall v, i = Some (ItArr v) -> inside (bclamp (sshape v) e) (sshape v)) ->
  selects n i e ax (item_pos n i e ax) /\ item_pos n i e ax < n.
Proof.
  intros OK L V.
  assert (SL : forall s, sl_step s <> Some 0%Z -> e ax < length (positions s n) ->
           slice_selects s n (e ax) (nth (e ax) (positions s n) 0) /\ nth (e ax) (positions s n) 0 < n).
  { intros s Hs Hl. split.
    - apply positions_spec; auto. now apply nth_error_nth'.
    - apply positions_lt with (s := s). now apply nth_In. }
  assert (ALL : e ax < length (positions slice_all n) ->
            nth (e ax) (positions slice_all n) 0 = e ax /\ e ax < n).
  { rewrite positions_slice_all, seq_length. intros Hl. now rewrite seq_nth. }
  destruct i as [[|z|z|s|v]|]; simpl in *.
  - destruct (ALL (L eq_refl)) as [-> ?]. auto.
  - split; [now apply znorm_index_is|now apply znorm_lt].
  - split; [now apply znorm_index_is|now apply znorm_lt].
  - apply SL; auto.
  - assert (in_range n (bat v e)) by (apply OK, V; auto).
    split; [now apply znorm_index_is|now apply znorm_lt].
  - destruct (ALL (L eq_refl)) as [-> ?]. auto.
Qed.

Lemma getitem_full {A} (a : sarr A) (it : dict item) r :
  wf a -> NoDup (dkeys it) -> Forall (fun kv => item_wf (snd kv)) it ->
  getitem a it = Ok r ->
  wf r /\
  (forall e, inside e (sshape r) ->
     exists e', inside e' (sshape a) /\ at_ r e = at_ a e' /\
       forall ax n, In (ax, n) (sshape a) -> selects n (dget it ax) e ax (e' ax)) /\
  exists sa, broadcast_shapes (index_shapes (s_axes a) it) = Ok sa /\
    s_axes r = dkeys sa ++ filter (fun ax => keeps_axis (dget it ax)) (s_axes a) /\
    (forall ax n, In (ax, n) sa -> In (ax, n) (sshape r)) /\
    (forall ax n m, In (ax, n) (sshape a) -> keeps_axis (dget it ax) = true ->
       In (ax, m) (sshape r) ->
       match dget it ax with
       | Some (ItSlice s) => forall i, i < m <-> exists p, slice_selects s n i p
       | _ => m = n
       end).
Proof.
  intros W ND Wi H.
  set (it' := filter (fun kv => smem (fst kv) (s_axes a)) it).
  destruct (list_eq_dec string_dec (dkeys it') []) as [E|E].
  - assert (E' : it' = []) by (destruct it'; [auto|discriminate]).
    rewrite getitem_empty in H by auto. injection H as <-.
    assert (AB : forall ax, In ax (s_axes a) -> dget it ax = None).
    { intros ax Hax. apply dget_None. intros Hk. apply in_map_iff in Hk as [[k i] [Ek Hk]].
      simpl in Ek. subst. assert (In (ax, i) it').
      { apply filter_In. split; auto. simpl. now apply smem_In. }
      rewrite E' in H. destruct H. }
    assert (KA : forall ax n, In (ax, n) (sshape a) -> In ax (s_axes a)).
    { intros ax n Hin. rewrite <- wf_keys by auto. apply (in_map fst) in Hin. auto. }
    split; [auto|split].
    + intros e He. exists e. split; auto. split; auto. intros ax n Hin.
      rewrite AB by eauto. reflexivity.
    + exists []. rewrite index_shapes_ops. fold it'. rewrite E'. simpl. split; auto. split; [|split].
      * symmetry. apply filter_all. intros ax Hax. now rewrite AB.
      * intros ? ? [].
      * intros ax n m H1 _ H2. rewrite AB by eauto.
        apply (dget_NoDup _ _ _ (wf_nodup a W)) in H1.
        apply (dget_NoDup _ _ _ (wf_nodup a W)) in H2. congruence.
  - assert (NE : it' <> []) by (intros E'; apply E; now rewrite E').
    destruct (getitem_ok a it W ND Wi r NE H) as [sa (ES & OK & Wr & Sr & G)].
    fold it' in ES. fold it' in Sr.
    set (adv := filter (fun kv => get_advanced (snd kv)) it') in *.
    set (basic := others (s_axes a) (dkeys adv)) in *.
    assert (BE : basic = filter (fun ax => keeps_axis (dget it ax)) (s_axes a)).
    { unfold basic, adv, it'. rewrite (basic_eq a it ND). apply filter_ext. intros ax.
      now rewrite keeps_basic. }
    assert (Wops := wf_adv_ops a it Wi). fold it' in Wops. fold adv in Wops.
    assert (SZ : forall ax, In ax basic -> In (ax, length (positions (item_slice (dget it ax)) (asize a ax))) (sshape r)).
    { intros ax Hax. rewrite Sr. apply in_or_app. right. apply in_map_iff. exists ax. auto. }
    assert (AS : forall ax n, In (ax, n) (sshape a) -> In ax (s_axes a) /\ asize a ax = n).
    { intros ax n Hin. split.
      - rewrite <- wf_keys by auto. apply (in_map fst) in Hin. auto.
      - unfold asize. rewrite (dget_NoDup _ _ _ (wf_nodup a W) Hin). auto. }
    split; [auto|split].
    + intros e He. exists (fun ax => item_pos (asize a ax) (dget it ax) e ax).
      assert (SP : forall ax, In ax (s_axes a) ->
                selects (asize a ax) (dget it ax) e ax (item_pos (asize a ax) (dget it ax) e ax) /\
                item_pos (asize a ax) (dget it ax) e ax < asize a ax).
      { intros ax Hax. apply item_pos_selects; auto.
        - intros K. apply He. apply SZ. rewrite BE. apply filter_In. auto.
        - intros v Hv. assert (Hin : In (ax, ItArr v) adv) by (unfold adv, it'; apply adv_In; auto).
          assert (Hop : In (OpArr v) (map (fun kv => opnd (snd kv)) adv)).
          { apply in_map_iff. exists (ax, ItArr v). auto. }
          assert (Wv : wf v) by (rewrite Forall_forall in Wops; apply (Wops _ Hop)).
          apply bclamp_inside with (sh := sa); auto.
          + intros x n Hx. apply He. rewrite Sr. apply in_or_app; auto.
          + intros x n Hx.
            destruct (broadcast_shapes_ok _ _ (op_shapes_nodup _ Wops) ES) as (NDs & K & S).
            assert (Hk : In x (dkeys sa)).
            { apply (shape_broadcasted_incl _ sa v Wops ES Hop). rewrite <- wf_keys by auto.
              apply dget_Some_key. eauto. }
            apply in_map_iff in Hk as [[x' k] [Ex Hk]]. simpl in Ex. subst x'.
            assert (C := Hk). apply S in C as [_ [C _]].
            destruct (C n) as [C1|C1]; auto; [|subst; auto].
            apply sizes_of_In. exists (sshape v). split; auto. now apply in_op_shapes. }
      split; [|split].
      * apply inside_asize; auto. intros ax Hax. now apply SP.
      * apply G.
      * intros ax n Hin. destruct (AS _ _ Hin) as [Hax <-]. now apply SP.
    + exists sa. rewrite index_shapes_ops. split; [exact ES|split; [|split]].
      * rewrite <- (wf_keys r Wr), Sr. unfold dkeys at 1. rewrite map_app.
        change (map fst sa) with (dkeys sa). f_equal. rewrite map_map. simpl. now rewrite map_id.
      * intros ax n Hin. rewrite Sr. apply in_or_app; auto.
      * intros ax n m H1 H2 H3. destruct (AS _ _ H1) as [Hax <-].
        assert (Hb : In ax basic) by (rewrite BE; apply filter_In; auto).
        assert (m = length (positions (item_slice (dget it ax)) (asize a ax))).
        { specialize (SZ ax Hb). apply (dget_NoDup _ _ _ (wf_nodup r Wr)) in SZ.
          apply (dget_NoDup _ _ _ (wf_nodup r Wr)) in H3. congruence. }
        specialize (OK ax Hax).
        destruct (dget it ax) as [[|z|z|s|v]|]; simpl in *; try discriminate;
          try (now rewrite H0, positions_slice_all, seq_length).
        subst m. now apply positions_len.
Qed.

Lemma getitem_success {A} (a : sarr A) (it : dict item) :
  wf a -> NoDup (dkeys it) -> Forall (fun kv => item_wf (snd kv)) it ->
  ((exists r, getitem a it = Ok r) <->
   exists sa, broadcast_shapes (index_shapes (s_axes a) it) = Ok sa /\
     (forall ax n, In (ax, n) (sshape a) -> item_ok n (dget it ax)) /\
     (forall ax, In ax (dkeys sa) -> In ax (s_axes a) -> keeps_axis (dget it ax) = false)).
Proof.
  intros W ND Wi.
  set (it' := filter (fun kv => smem (fst kv) (s_axes a)) it).
  assert (AS : forall ax n, In (ax, n) (sshape a) -> In ax (s_axes a) /\ asize a ax = n).
  { intros ax n Hin. split.
    - rewrite <- wf_keys by auto. apply (in_map fst) in Hin. auto.
    - unfold asize. rewrite (dget_NoDup _ _ _ (wf_nodup a W) Hin). auto. }
  assert (SA : forall ax, In ax (s_axes a) -> In (ax, asize a ax) (sshape a)).
  { intros ax Hax. rewrite <- wf_keys in Hax by auto. apply dget_Some_key in Hax as [n Hn].
    unfold asize. rewrite Hn. now apply dget_In. }
  destruct (list_eq_dec string_dec (dkeys it') []) as [E|E].
  - assert (E' : it' = []) by (destruct it'; [auto|discriminate]).
    split; [|intros _; exists a; now apply getitem_empty].
    intros _. exists []. rewrite index_shapes_ops. fold it'. rewrite E'. simpl. split; auto.
    split; [|intros ? []]. intros ax n Hin. destruct (AS _ _ Hin) as [Hax _].
    replace (dget it ax) with (@None item); simpl; auto. symmetry.
    apply dget_None. intros Hk. apply in_map_iff in Hk as [[k i] [Ek Hk]].
    simpl in Ek. subst. assert (In (ax, i) it').
    { apply filter_In. split; auto. simpl. now apply smem_In. }
    rewrite E' in H. destruct H.
  - assert (NE : it' <> []) by (intros E'; apply E; now rewrite E').
    assert (BE := basic_eq a it ND). fold it' in BE.
    split.
    + intros [r H]. destruct (getitem_ok a it W ND Wi r NE H) as [sa (ES & OK & Wr & Sr & G)].
      exists sa. rewrite index_shapes_ops. split; [exact ES|split].
      * intros ax n Hin. destruct (AS _ _ Hin) as [Hax <-]. auto.
      * intros ax H1 H2. destruct (keeps_axis (dget it ax)) eqn:Ek; auto. exfalso.
        assert (NDr := wf_nodup r Wr). rewrite Sr in NDr. unfold dkeys at 1 in NDr. rewrite map_app in NDr.
        rewrite map_map in NDr. simpl in NDr. rewrite map_id in NDr.
        fold it' in NDr. rewrite BE in NDr.
        assert (Hb : In ax (filter (fun ax => is_basic (dget it ax)) (s_axes a))).
        { apply filter_In. split; auto. now rewrite <- keeps_basic. }
        clear - NDr H1 Hb. unfold dkeys in H1. induction (map fst sa) as [|x l IH]; [destruct H1|].
        simpl in NDr. inversion NDr; subst. destruct H1 as [->|H1]; auto.
        apply H2. apply in_or_app; auto.
    + intros [sa (ES & OK & DJ)]. rewrite index_shapes_ops in ES.
      apply (getitem_intro a it W ND Wi sa NE ES).
      * intros ax Hax. apply (OK ax (asize a ax)). auto.
      * intros ax H1 H2. fold it' in H2. rewrite BE in H2. apply filter_In in H2 as [H2 H3].
        rewrite <- keeps_basic in H3. specialize (DJ ax H1 H2). congruence.
Qed.

Lemma getitem_range_error {A} (a : sarr A) (it : dict item) (sa : shape) (ax : string) (n : nat) :
  wf a -> NoDup (dkeys it) -> Forall (fun kv => item_wf (snd kv)) it ->
  broadcast_shapes (index_shapes (s_axes a) it) = Ok sa ->
  In (ax, n) (sshape a) ->
  keeps_axis (dget it ax) = false -> ~ item_ok n (dget it ax) ->
  (forall ax' s, In ax' (s_axes a) -> dget it ax' = Some (ItSlice s) -> sl_step s <> Some 0%Z) ->
  getitem a it = Err IndexError.
Proof.
  intros W ND Wi ES Hin K NOK _. rewrite index_shapes_ops in ES.
  assert (Hn := dget_NoDup _ _ _ (wf_nodup a W) Hin).
  apply (getitem_out_of_range a it W ND Wi sa ax); auto.
  - rewrite <- wf_keys by auto. apply dget_Some_key; eauto.
  - now rewrite <- keeps_basic.
  - unfold asize. now rewrite Hn.
Qed.

Lemma getitem_absent {A} (a : sarr A) (it1 it2 : dict item) k i :
  ~ In k (s_axes a) -> getitem a (it1 ++ (k, i) :: it2) = getitem a (it1 ++ it2).
Proof.
  intros H. unfold getitem. rewrite !filter_app. simpl.
  now rewrite (proj2 (smem_false k (s_axes a)) H).
Qed.

Lemma getitem_irrelevant {A} (a : sarr A) (it : dict item) :
  (forall k, In k (dkeys it) -> ~ In k (s_axes a)) -> getitem a it = Ok a.
Proof.
  intros H. apply getitem_empty. apply filter_none. intros [k i] Hin. simpl.
  apply smem_false, H. now apply (in_map fst) in Hin.
Qed.

