(** Facts about [cell_centers]. *)
From Coq Require Import String List Arith ZArith QArith Bool Lia Permutation Ring Ring_theory.
From Verif Require Import Base BaseFacts Numpy NumpyFacts Shapes Scalar Reorder Elementwise Reduce Along Sorting Derived Spec SpecDerived
     ShapesFacts AlignFacts GetitemFacts SetitemFacts ReorderFacts ElementwiseFacts ReduceFacts AlongFacts SortingFacts DerivedFacts.
Import ListNotations.
Open Scope nat_scope.
Open Scope list_scope.

Definition vext {A} (v : env -> A) : Prop := forall e e', (forall x, e x = e' x) -> v e = v e'.

Lemma at_vext {A} (a : sarr A) : vext (at_ a).
Proof. intros e e' H. now apply at_ext. Qed.

Lemma shrunk_keys sh l : dkeys (shrunk sh l) = dkeys sh.
Proof. unfold dkeys, shrunk. rewrite map_map. reflexivity. Qed.

Lemma in_shrunk sh l ax m : In (ax, m) (shrunk sh l) <-> exists k, In (ax, k) sh /\ m = if smem ax l then k - 1 else k.
Proof.
  unfold shrunk. rewrite in_map_iff. split.
  - intros [[k v] [E H]]. cbn [fst snd] in E. injection E as <- <-. eauto.
  - intros [k [H ->]]. exists (ax, k). auto.
Qed.

Lemma shrunk_cons sh ax n l : NoDup (dkeys sh) -> In (ax, n) sh -> ~ In ax l ->
  shrunk (resized sh ax (n - 1)) l = shrunk sh (ax :: l).
Proof.
  intros N Hn Hl. unfold shrunk, resized. rewrite map_map. apply map_ext_in. intros [x m] H. cbn [fst snd]. f_equal.
  unfold smem. cbn [existsb]. destruct (String.eqb x ax) eqn:E; cbn [orb]; auto.
  apply String.eqb_eq in E. subst x. fold (smem ax l). rewrite (proj2 (smem_false _ _) Hl).
  apply (dget_NoDup _ _ _ N) in H, Hn. congruence.
Qed.

Lemma ufunc2_covered {A B} (f : A -> A -> B) d (a : sarr A) (o : operand A) : wf a -> op_wf o -> covered (op_shape o) (sshape a) ->
  exists r, array_ufunc (bin f d) [OpArr a; o] = Ok r /\ wf r /\ sshape r = sshape a /\
    forall e, inside e (sshape a) -> at_ r e = f (at_ a e) (op_at o e).
Proof.
  intros W Wo C.
  assert (SB : shape_broadcasted [OpArr a; o] = Ok (sshape a)).
  { unfold shape_broadcasted. destruct o as [b|x]; cbn [op_shapes flat_map app].
    - apply bs_covered; [now apply wf_nodup|]. intros s [<-|[]]. split; [now apply wf_nodup|]. exact C.
    - apply bs_covered; [now apply wf_nodup|]. intros s []. }
  destruct (array_ufunc_ok (bin f d) [OpArr a; o] _ (wf2 (OpArr a) o W Wo) SB) as (r & Er & Wr & Sr & Gr).
  exists r. repeat (split; auto). intros e He. rewrite Gr. cbn [map bin op_at]. now rewrite bat_inside.
Qed.

Lemma ufunc2_number {A B} (f : A -> A -> B) d (x : A) (o : sarr A) : wf o ->
  exists r, array_ufunc (bin f d) [OpNum x; OpArr o] = Ok r /\ wf r /\ sshape r = sshape o /\
    forall e, at_ r e = f x (bat o e).
Proof.
  intros W.
  assert (SB : shape_broadcasted [OpNum x; OpArr o] = Ok (sshape o)).
  { unfold shape_broadcasted. cbn [op_shapes flat_map app]. apply bs_covered; [now apply wf_nodup|]. intros s []. }
  destruct (array_ufunc_ok (bin f d) [OpNum x; OpArr o] _ (wf2 (OpNum x) (OpArr o) I W) SB) as (r & Er & Wr & Sr & Gr).
  exists r. auto.
Qed.

Lemma covered_refl sh : covered sh sh.
Proof. intros ax n H. split; auto. now apply (in_map fst) in H. Qed.

Section Ring.
Context {A : Type} (add mul sub : A -> A -> A) (opp : A -> A) (zero one : A)
        (R : ring_theory zero one add mul sub opp (@eq A)).
Add Ring Aring : R.

Notation "x + y" := (add x y). Notation "x * y" := (mul x y). Notation "x - y" := (sub x y).

Lemma lerp_spec (w : operand A) (a0 a1 : sarr A) : wf a0 -> wf a1 -> op_wf w -> sshape a1 = sshape a0 ->
  covered (op_shape w) (sshape a0) ->
  exists r, lerp add mul sub zero one w a0 a1 = Ok r /\ wf r /\ sshape r = sshape a0 /\
    forall e, inside e (sshape a0) -> at_ r e = at_ a0 e * (one - op_at w e) + at_ a1 e * op_at w e.
Proof.
  intros W0 W1 Ww SH C. unfold lerp.
  assert (HW : exists w', (match w with
       | OpNum x => Ok (OpNum (one - x))
       | OpArr _ => r <- array_ufunc (bin sub zero) [OpNum one; w] ;; Ok (OpArr r)
       end) = Ok w' /\ op_wf w' /\ op_shape w' = op_shape w /\ forall e, inside e (sshape a0) -> op_at w' e = one - op_at w e).
  { destruct w as [b|x].
    - destruct (ufunc2_number sub zero one b Ww) as (r & -> & Wr & Sr & Gr). exists (OpArr r). split; auto. split; auto. split; auto.
      intros e He. cbn [op_at]. unfold bat at 1. rewrite Sr, Gr. f_equal. unfold bat. apply at_ext. intros x Hx.
      unfold bclamp. destruct (dget (sshape b) x) as [[|[|n]]|]; auto.
    - exists (OpNum (one - x)). repeat split. }
  destruct HW as (w' & -> & Ww' & Sw' & Gw'). cbn [bind].
  destruct (ufunc2_covered mul zero a0 w' W0 Ww') as (p0 & -> & Wp0 & Sp0 & Gp0); [now rewrite Sw'|]. cbn [bind].
  destruct (ufunc2_covered mul zero a1 w W1 Ww) as (p1 & -> & Wp1 & Sp1 & Gp1); [now rewrite SH|]. cbn [bind].
  destruct (ufunc2_covered add zero p0 (OpArr p1) Wp0 Wp1) as (r & Er & Wr & Sr & Gr).
  { cbn [op_shape]. rewrite Sp1, SH, Sp0. apply covered_refl. }
  exists r. split; auto. split; auto. split; [congruence|]. intros e He. rewrite Gr by (now rewrite Sp0).
  cbn [op_at]. rewrite Gp0, Gw' by auto. rewrite bat_inside, Gp1; auto; [now rewrite SH|]. now rewrite Sp1, SH.
Qed.

(** the interpolated value at the fractions [i], for the cell of [e] *)
Fixpoint blend (i : dict A) (v : env -> A) (e : env) : A :=
  match i with
  | [] => v e
  | (ax, w) :: i' => blend i' v e * (one - w) + blend i' v (set_env e ax (S (e ax))) * w
  end.

Definition evald (i : dict (operand A)) (e : env) : dict A := map (fun kv => (fst kv, op_at (snd kv) e)) i.

Lemma evald_keys i e : dkeys (evald i e) = dkeys i.
Proof. unfold dkeys, evald. rewrite map_map. reflexivity. Qed.

Lemma dget_evald i e ax : dget (evald i e) ax = option_map (fun w => op_at w e) (dget i ax).
Proof.
  induction i as [|[k w] i IH]; auto. cbn [evald map fst snd dget]. destruct (String.eqb ax k); auto.
Qed.

Lemma blend_ext (i : dict A) v v' : vext v -> vext v' -> NoDup (dkeys i) -> forall e e',
  (forall d : env, (forall x, d x <= 1 /\ (~ In x (dkeys i) -> d x = 0)) ->
     v (fun x => (e x + d x)%nat) = v' (fun x => (e' x + d x)%nat)) ->
  blend i v e = blend i v' e'.
Proof.
  intros V V'. induction i as [|[ax w] i IH]; intros ND e e' H; cbn [blend].
  - specialize (H (fun _ => 0%nat)). cbn beta in H.
    rewrite (V e (fun x => (e x + 0)%nat)), (V' e' (fun x => (e' x + 0)%nat)); try (intros; lia). apply H. intros x. split; auto.
  - unfold dkeys in ND. cbn [map fst] in ND. inversion ND as [|? ? N1 N2]. subst. f_equal; f_equal.
    + apply IH; auto. intros d Hd. apply H. intros x. destruct (Hd x) as [H1 H2]. split; auto. intros Hx. apply H2. intros Q. apply Hx. now right.
    + apply IH; auto. intros d Hd.
      rewrite (V _ (fun x => (e x + set_env d ax 1 x)%nat)), (V' _ (fun x => (e' x + set_env d ax 1 x)%nat)).
      * apply H. intros x. unfold set_env. destruct (String.eqb x ax) eqn:E.
        -- apply String.eqb_eq in E. subst x. split; auto. intros Hx. exfalso. apply Hx. now left.
        -- destruct (Hd x) as [H1 H2]. split; auto. intros Hx. apply H2. intros Q. apply Hx. now right.
      * intros x. unfold set_env. destruct (String.eqb x ax) eqn:E; auto. apply String.eqb_eq in E. subst x.
        destruct (Hd ax) as [_ H2]. rewrite H2; [lia|auto].
      * intros x. unfold set_env. destruct (String.eqb x ax) eqn:E; auto. apply String.eqb_eq in E. subst x.
        destruct (Hd ax) as [_ H2]. rewrite H2; [lia|auto].
Qed.

Theorem nlerp_spec (i : dict (operand A)) : forall (a : sarr A), wf a -> NoDup (dkeys i) -> incl (dkeys i) (s_axes a) ->
  (forall k w, In (k, w) i -> op_wf w /\ covered (op_shape w) (shrunk (sshape a) (dkeys i))) ->
  exists r, nlerp add mul sub zero one i a = Ok r /\ wf r /\ sshape r = shrunk (sshape a) (dkeys i) /\
    forall e, inside e (sshape r) -> at_ r e = blend (evald i e) (at_ a) e.
Proof.
  induction i as [|[ax w] i IH]; intros a W ND IC HW.
  - exists a. split; auto. split; auto. split.
    + unfold shrunk. cbn. symmetry. erewrite map_ext; [apply map_id|]. intros [x n]; reflexivity.
    + reflexivity.
  - unfold dkeys in ND, IC. cbn [map fst] in ND, IC. inversion ND as [|? ? N1 N2]. subst. fold (dkeys i) in *.
    assert (Hax : In ax (s_axes a)) by (apply IC; now left).
    assert (Hn : exists n, In (ax, n) (sshape a)).
    { rewrite <- (wf_keys a W) in Hax. apply dget_Some_key in Hax as [n Hn]. exists n. now apply dget_In. }
    destruct Hn as [n Hn]. assert (Na := wf_nodup a W). assert (SZ := size_of_In _ _ _ Na Hn).
    cbn [nlerp].
    destruct (getitem_slice a ax (mkSlice None (Some (-1)%Z) None) 0 (n - 1) W Hax eq_refl) as (a0 & -> & W0 & S0 & G0).
    { rewrite SZ. apply slice_but_last. }
    cbn [bind].
    destruct (getitem_slice a ax (mkSlice (Some 1%Z) None None) (Nat.min 1 n) (n - 1) W Hax eq_refl) as (a1 & -> & W1 & S1 & G1).
    { rewrite SZ. apply slice_but_first. }
    cbn [bind].
    assert (SH : shrunk (resized (sshape a) ax (n - 1)) (dkeys i) = shrunk (sshape a) (ax :: dkeys i)) by (now apply shrunk_cons).
    assert (AX : forall b : sarr A, wf b -> sshape b = resized (sshape a) ax (n - 1) -> s_axes b = s_axes a).
    { intros b Wb Sb. now rewrite <- (wf_keys b Wb), Sb, resized_keys, wf_keys. }
    assert (IC' : incl (dkeys i) (s_axes a)) by (intros x Hx; apply IC; now right).
    destruct (IH a0 W0 N2) as (r0 & -> & Wr0 & Sr0 & Gr0).
    { now rewrite (AX a0). }
    { intros k u Hk. rewrite S0, SH. apply (HW k u). now right. }
    cbn [bind].
    destruct (IH a1 W1 N2) as (r1 & -> & Wr1 & Sr1 & Gr1).
    { now rewrite (AX a1). }
    { intros k u Hk. rewrite S1, SH. apply (HW k u). now right. }
    cbn [bind]. rewrite S0, SH in Sr0. rewrite S1, SH in Sr1.
    destruct (HW ax w (or_introl eq_refl)) as [Ww Cw].
    destruct (lerp_spec w r0 r1 Wr0 Wr1 Ww) as (r & Er & Wr & Sr & Gr); [congruence|now rewrite Sr0|].
    exists r. split; auto. split; auto. split; [now rewrite Sr, Sr0|]. intros e He. rewrite Sr in He.
    rewrite (Gr e He), (Gr0 e He), (Gr1 e) by (rewrite Sr1, <- Sr0; auto). cbn [evald map fst snd blend]. fold (evald i e). rewrite Sr0 in He.
    assert (BND : forall d : env, (forall x, d x <= 1 /\ (~ In x (dkeys i) -> d x = 0)) ->
              inside (fun x => (e x + d x)%nat) (resized (sshape a) ax (n - 1))).
    { intros d Hd x m Hm. apply in_resized in Hm as (k & Hk & ->). destruct (Hd x) as [H1 H2].
      assert (L := He x (if smem x (ax :: dkeys i) then k - 1 else k)%nat).
      assert (In (x, (if smem x (ax :: dkeys i) then k - 1 else k)%nat) (shrunk (sshape a) (ax :: dkeys i))) by (apply in_shrunk; eauto).
      specialize (L H). unfold smem in L. cbn [existsb] in L. destruct (String.eqb x ax) eqn:E.
      - apply String.eqb_eq in E. subst x. cbn [orb] in L. rewrite H2 by auto.
        apply (dget_NoDup _ _ _ Na) in Hk, Hn. assert (k = n) by congruence. subst. lia.
      - cbn [orb] in L. fold (smem x (dkeys i)) in L. destruct (smem x (dkeys i)) eqn:E2; [lia|].
        apply smem_false in E2. rewrite H2 by auto. lia. }
    assert (HN : e ax < n - 1).
    { apply (He ax). apply in_shrunk. exists n. split; auto. unfold smem. cbn [existsb]. now rewrite String.eqb_refl. }
    f_equal; f_equal.
    + apply blend_ext; auto using at_vext; [now rewrite evald_keys|]. rewrite evald_keys. intros d Hd. rewrite G0 by (rewrite S0; auto). apply at_ext. intros x Hx.
      unfold set_env. destruct (String.eqb x ax) eqn:E; auto. apply String.eqb_eq in E. subst. lia.
    + apply blend_ext; auto using at_vext; [now rewrite evald_keys|]. rewrite evald_keys. intros d Hd. rewrite G1 by (rewrite S1; auto). apply at_ext. intros x Hx.
      unfold set_env. destruct (String.eqb x ax) eqn:E; auto. apply String.eqb_eq in E. subst. lia.
Qed.

(** *** as a sum over the vertices *)

Lemma sum_app l m : sum add zero (l ++ m) = sum add zero l + sum add zero m.
Proof. unfold sum. induction l as [|x l IH]; cbn [app fold_right]; [ring|]. rewrite IH. ring. Qed.

Lemma sum_scale l x : sum add zero l * x = sum add zero (map (fun y => y * x) l).
Proof. unfold sum. induction l as [|y l IH]; cbn [map fold_right]; [ring|]. rewrite <- IH. ring. Qed.

Lemma sum_perm l m : Permutation l m -> sum add zero l = sum add zero m.
Proof. unfold sum. induction 1; cbn; try congruence. ring. Qed.

Lemma corners_other ks : forall e c ax, In c (corners ks e) -> ~ In ax ks -> c ax = e ax.
Proof.
  induction ks as [|k ks IH]; intros e c ax Hc Hax; cbn [corners] in Hc.
  - destruct Hc as [<-|[]]. reflexivity.
  - apply in_app_iff in Hc as [Hc|Hc].
    + apply (IH e); auto. intros H; apply Hax; now right.
    + rewrite (IH _ c ax Hc) by (intros H; apply Hax; now right). unfold set_env. destruct (String.eqb ax k) eqn:E; auto.
      apply String.eqb_eq in E. subst. exfalso. apply Hax. now left.
Qed.

Lemma blend_sum (i : dict A) e0 v : NoDup (dkeys i) -> forall e, (forall ax, In ax (dkeys i) -> e ax = e0 ax) ->
  blend i v e = sum add zero (map (fun c => v c * weight mul sub one i e0 c) (corners (dkeys i) e)).
Proof.
  induction i as [|[ax w] i IH]; intros ND e He.
  - cbn. ring.
  - unfold dkeys in ND. cbn [map fst] in ND. inversion ND as [|? ? N1 N2]. subst. fold (dkeys i) in *.
    change (dkeys ((ax, w) :: i)) with (ax :: dkeys i) in *. cbn [blend corners].
    rewrite map_app, sum_app. rewrite !IH; auto.
    + rewrite !sum_scale, !map_map. f_equal; f_equal; apply map_ext_in; intros c Hc; unfold weight; cbn [fold_right fst snd];
        rewrite (corners_other _ _ c ax Hc N1).
      * rewrite (He ax (or_introl eq_refl)), Nat.eqb_refl. ring.
      * unfold set_env. rewrite String.eqb_refl, (He ax (or_introl eq_refl)).
        replace (S (e0 ax) =? e0 ax) with false by (symmetry; apply Nat.eqb_neq; lia). ring.
    + intros x Hx. unfold set_env. destruct (String.eqb x ax) eqn:E; [|apply He; now right].
      apply String.eqb_eq in E. subst. contradiction.
    + intros x Hx. apply He. now right.
Qed.

(** *** affine data *)

Lemma affine_mix c s axes x y w :
  affine add mul zero c s axes x * (one - w) + affine add mul zero c s axes y * w =
  affine add mul zero c s axes (fun ax => x ax * (one - w) + y ax * w).
Proof.
  unfold affine. assert (H : forall l, sum add zero (map (fun ax => s ax * x ax) l) * (one - w) + sum add zero (map (fun ax => s ax * y ax) l) * w =
     sum add zero (map (fun ax => s ax * (x ax * (one - w) + y ax * w)) l)).
  { unfold sum. induction l as [|a l IH]; cbn [map fold_right]; [ring|]. rewrite <- IH. ring. }
  rewrite <- H. ring.
Qed.

Lemma blend_affine (i : dict A) c s axes : NoDup (dkeys i) -> forall e,
  blend i (fun e => affine add mul zero c s axes (fun ax => of_nat add zero one (e ax))) e =
  affine add mul zero c s axes (fun ax => of_nat add zero one (e ax) + match dget i ax with Some w => w | None => zero end).
Proof.
  induction i as [|[ax w] i IH]; intros ND e.
  - cbn [blend dget]. unfold affine. f_equal. f_equal. apply map_ext. intros x. f_equal. ring.
  - unfold dkeys in ND. cbn [map fst] in ND. inversion ND as [|? ? N1 N2]. subst. fold (dkeys i) in *.
    cbn [blend]. rewrite !IH by auto. rewrite affine_mix. unfold affine. f_equal. f_equal. apply map_ext. intros x. f_equal.
    cbn [dget]. unfold set_env. destruct (String.eqb x ax) eqn:E; [|ring].
    apply String.eqb_eq in E. subst x. rewrite (proj2 (dget_None _ _) N1). cbn [of_nat]. ring.
Qed.

(** *** the dictionary of fractions *)

Lemma fold_dset {V} (f : string -> V) l :
  let d := fold_left (fun d ax => dset d ax (f ax)) l [] in
  dkeys d = first_appearance l /\ forall k, dget d k = if smem k l then Some (f k) else None.
Proof.
  induction l as [|x l IH] using rev_ind; [split; auto|].
  cbn zeta in *. rewrite fold_left_app. cbn [fold_left]. destruct IH as [K G]. split.
  - rewrite dkeys_dset, K, first_appearance_snoc.
    replace (smem x (first_appearance l)) with (smem x l); [reflexivity|].
    destruct (smem x l) eqn:E; symmetry.
    + apply smem_In. apply first_appearance_In. now apply smem_In.
    + apply smem_false. intros H. apply (proj1 (first_appearance_In _ _)) in H. apply smem_false in E. auto.
  - intros k. rewrite dget_dset, G. unfold smem. rewrite existsb_app. cbn [existsb]. rewrite orb_false_r.
    destruct (String.eqb k x) eqn:E.
    + apply String.eqb_eq in E. subst. now rewrite orb_true_r.
    + now rewrite orb_false_r.
Qed.

Theorem cell_centers_general (half : A) (a : sarr A) axis random : wf a ->
  (forall f ax, random = Some f -> In ax (center_axes a axis) ->
     wf (f ax) /\ covered (sshape (f ax)) (shrunk (sshape a) (center_axes a axis))) ->
  let fr := fun ax => match random with Some f => OpArr (f ax) | None => OpNum half end in
  exists r i, na_cell_centers add mul sub zero one half a axis random = Ok r /\ wf r /\
    sshape r = shrunk (sshape a) (center_axes a axis) /\
    NoDup (dkeys i) /\ dkeys i = center_axes a axis /\ (forall k w, In (k, w) i -> w = fr k) /\
    (forall k, dget i k = if smem k (center_axes a axis) then Some (fr k) else None) /\
    forall e, inside e (sshape r) -> at_ r e = blend (evald i e) (at_ a) e.
Proof.
  intros W HR fr. unfold na_cell_centers. rewrite (wf_keys a W). fold fr.
  set (l := filter (fun ax => smem ax (s_axes a)) (match axis with Some l => l | None => s_axes a end)).
  destruct (fold_dset fr l) as [K G]. set (i := fold_left (fun d ax => dset d ax (fr ax)) l []) in *.
  assert (KC : dkeys i = center_axes a axis) by (rewrite K; reflexivity).
  assert (ND : NoDup (dkeys i)) by (rewrite K; apply first_appearance_NoDup).
  assert (Hin : forall k, In k (dkeys i) -> In k l) by (intros k Hk; rewrite K in Hk; now apply (proj1 (first_appearance_In _ _)) in Hk).
  assert (HI : forall k w, In (k, w) i -> w = fr k).
  { intros k w H. assert (Hk : In k (dkeys i)) by (now apply (in_map fst) in H).
    apply (dget_NoDup _ _ _ ND) in H. rewrite G in H. destruct (smem k l) eqn:E; [congruence|discriminate]. }
  destruct (nlerp_spec i a W ND) as (r & Er & Wr & Sr & Gr).
  - intros k Hk. apply Hin in Hk. unfold l in Hk. apply filter_In in Hk as [_ Hk]. now apply smem_In in Hk.
  - intros k w Hk. assert (Hk' : In k (center_axes a axis)) by (rewrite <- KC; now apply (in_map fst) in Hk).
    rewrite (HI k w Hk), KC. unfold fr. destruct random as [f|].
    + apply HR; auto.
    + split; [exact I|]. intros ax n [].
  - exists r, i. split; auto. split; auto. split; [now rewrite <- KC|]. split; auto. split; auto. split; auto. split; auto.
    intros k. rewrite G. replace (smem k (center_axes a axis)) with (smem k l); auto.
    rewrite <- KC. destruct (smem k l) eqn:E; symmetry; [apply smem_In; rewrite K; apply first_appearance_In; now apply smem_In|].
    apply smem_false. intros H. apply Hin in H. apply smem_false in E. auto.
Qed.

Lemma weight_half half (i : dict A) e c : half + half = one -> (forall k w, In (k, w) i -> w = half) ->
  weight mul sub one i e c = power mul one half (length i).
Proof.
  intros HH H. unfold weight. induction i as [|[k w] i IH]; auto. cbn [fold_right length power fst snd].
  rewrite (H k w (or_introl eq_refl)). rewrite IH by (intros; apply (H k0); now right). f_equal.
  destruct (c k =? e k); auto. rewrite <- HH. ring.
Qed.

Theorem cell_centers_spec (half : A) (a : sarr A) axis : wf a -> half + half = one ->
  exists r, na_cell_centers add mul sub zero one half a axis None = Ok r /\ wf r /\
    sshape r = shrunk (sshape a) (center_axes a axis) /\
    forall e, inside e (sshape r) ->
      at_ r e = power mul one half (length (center_axes a axis)) * sum add zero (map (at_ a) (corners (center_axes a axis) e)).
Proof.
  intros W HH. destruct (cell_centers_general half a axis None W ltac:(discriminate)) as (r & i & Er & Wr & Sr & ND & K & HI & G & El).
  exists r. split; auto. split; auto. split; auto. intros e He. rewrite (El e He), (blend_sum _ e) by (rewrite ?evald_keys; auto). rewrite evald_keys, K.
  replace (length (center_axes a axis)) with (length (evald i e)) by (rewrite <- K; unfold dkeys, evald; now rewrite !map_length).
  rewrite (map_ext _ (fun c => at_ a c * power mul one half (length (evald i e)))).
  2: { intros c. rewrite (weight_half half); auto. intros k w Hk. apply in_map_iff in Hk as [[k' w'] [E Hk]]. cbn [fst snd] in E.
       injection E as <- <-. now rewrite (HI _ _ Hk). }
  rewrite <- (map_map (at_ a) (fun y => y * power mul one half (length (evald i e)))), <- sum_scale. ring.
Qed.

Theorem cell_centers_random_spec (half : A) (a : sarr A) axis (f : string -> sarr A) : wf a ->
  (forall ax, In ax (center_axes a axis) -> wf (f ax) /\ covered (sshape (f ax)) (shrunk (sshape a) (center_axes a axis))) ->
  exists r, na_cell_centers add mul sub zero one half a axis (Some f) = Ok r /\ wf r /\
    sshape r = shrunk (sshape a) (center_axes a axis) /\
    forall e, inside e (sshape r) ->
      at_ r e = sum add zero (map (fun c => at_ a c * weight mul sub one (map (fun ax => (ax, bat (f ax) e)) (center_axes a axis)) e c)
                                  (corners (center_axes a axis) e)).
Proof.
  intros W HF. destruct (cell_centers_general half a axis (Some f) W) as (r & i & Er & Wr & Sr & ND & K & HI & G & El).
  { intros g ax E. injection E as <-. apply HF. }
  exists r. split; auto. split; auto. split; auto. intros e He. rewrite (El e He), (blend_sum _ e) by (rewrite ?evald_keys; auto). rewrite evald_keys, K.
  replace (map (fun ax => (ax, bat (f ax) e)) (center_axes a axis)) with (evald i e); auto.
  rewrite <- K. unfold dkeys, evald. rewrite map_map. apply map_ext_in. intros [k w] Hk. cbn [fst snd]. f_equal. now rewrite (HI _ _ Hk).
Qed.

Theorem cell_centers_affine (half : A) (a : sarr A) axis random c s : wf a ->
  (forall f ax, random = Some f -> In ax (center_axes a axis) ->
     wf (f ax) /\ covered (sshape (f ax)) (shrunk (sshape a) (center_axes a axis))) ->
  (forall e, inside e (sshape a) -> at_ a e = affine add mul zero c s (s_axes a) (fun ax => of_nat add zero one (e ax))) ->
  exists r, na_cell_centers add mul sub zero one half a axis random = Ok r /\
    forall e, inside e (sshape r) ->
      at_ r e = affine add mul zero c s (s_axes a) (fun ax => of_nat add zero one (e ax) +
        (if smem ax (center_axes a axis)
         then match random with Some f => bat (f ax) e | None => half end else zero)).
Proof.
  intros W HR HA. destruct (cell_centers_general half a axis random W HR) as (r & i & Er & Wr & Sr & ND & K & HI & G & El).
  exists r. split; auto. intros e He. rewrite (El e He).
  rewrite (blend_ext (evald i e) (at_ a) (fun e => affine add mul zero c s (s_axes a) (fun ax => of_nat add zero one (e ax)))) with (e' := e); auto using at_vext.
  - rewrite blend_affine by (now rewrite evald_keys). unfold affine. f_equal. f_equal. apply map_ext. intros ax. f_equal. f_equal. rewrite dget_evald, G.
    destruct (smem ax (center_axes a axis)); auto. now destruct random.
  - intros e1 e2 H. unfold affine. f_equal. f_equal. apply map_ext. intros ax. now rewrite H.
  - now rewrite evald_keys.
  - rewrite evald_keys. intros d Hd. apply HA. intros x m Hm. destruct (Hd x) as [H1 H2]. rewrite K in H2.
    assert (L := He x (if smem x (center_axes a axis) then m - 1 else m)%nat). rewrite Sr in L.
    assert (In (x, (if smem x (center_axes a axis) then m - 1 else m)%nat) (shrunk (sshape a) (center_axes a axis))) by (apply in_shrunk; eauto).
    specialize (L H). destruct (smem x (center_axes a axis)) eqn:E; [lia|]. apply smem_false in E. rewrite H2; auto. lia.
Qed.

(** *** order of the axes *)

Lemma corners_ext ks v : vext v -> forall e e' : env, (forall x, e x = e' x) -> map v (corners ks e) = map v (corners ks e') :> list A.
Proof.
  intros V. induction ks as [|k ks IH]; intros e e' H; cbn [corners].
  - cbn. f_equal. auto.
  - rewrite !map_app. f_equal; apply IH; auto. intros x. unfold set_env. rewrite !H. reflexivity.
Qed.

Lemma corners_perm ks ks' : Permutation ks ks' -> NoDup ks -> forall (v : env -> A), vext v -> forall e,
  Permutation (map v (corners ks e)) (map v (corners ks' e)).
Proof.
  induction 1 as [|x l m P IH|x y l|l m n P1 IH1 P2 IH2]; intros ND v V e; auto.
  - inversion ND. subst. cbn [corners]. rewrite !map_app. apply Permutation_app; auto.
  - cbn [corners]. rewrite !map_app, <- !app_assoc. apply Permutation_app_head. rewrite !app_assoc.
    assert (x <> y) by (intros ->; inversion ND as [|? ? H]; apply H; now left).
    rewrite (corners_ext l v V (set_env (set_env e y (S (e y))) x (S (set_env e y (S (e y)) x)))
               (set_env (set_env e x (S (e x))) y (S (set_env e x (S (e x)) y)))).
    + apply Permutation_app_tail. apply Permutation_app_comm.
    + intros z. unfold set_env. destruct (String.eqb z x) eqn:E1, (String.eqb z y) eqn:E2; auto.
      * apply String.eqb_eq in E1, E2. congruence.
      * apply String.eqb_eq in E1. subst z. destruct (String.eqb x y) eqn:E3; auto. apply String.eqb_eq in E3. congruence.
      * apply String.eqb_eq in E2. subst z. destruct (String.eqb y x) eqn:E3; auto. apply String.eqb_eq in E3. congruence.
  - transitivity (map v (corners m e)); auto. apply IH2; auto. now apply (Permutation_NoDup P1).
Qed.

Theorem cell_centers_order (half : A) (a : sarr A) l l' : wf a -> half + half = one ->
  (forall ax, In ax (s_axes a) -> (In ax l <-> In ax l')) ->
  exists r r', na_cell_centers add mul sub zero one half a (Some l) None = Ok r /\
    na_cell_centers add mul sub zero one half a (Some l') None = Ok r' /\
    s_axes r = s_axes r' /\ same_array r r'.
Proof.
  intros W HH HL. destruct (cell_centers_spec half a (Some l) W HH) as (r & Er & Wr & Sr & Gr).
  destruct (cell_centers_spec half a (Some l') W HH) as (r' & Er' & Wr' & Sr' & Gr').
  assert (IN : forall x, In x (center_axes a (Some l)) <-> In x (center_axes a (Some l'))).
  { intros x. unfold center_axes. rewrite !first_appearance_In, !filter_In, !smem_In. split; intros [H1 H2]; split; auto; now apply HL. }
  assert (P : Permutation (center_axes a (Some l)) (center_axes a (Some l'))).
  { apply NoDup_Permutation; auto; apply first_appearance_NoDup. }
  assert (SS : shrunk (sshape a) (center_axes a (Some l)) = shrunk (sshape a) (center_axes a (Some l'))).
  { unfold shrunk. apply map_ext. intros [x n]. cbn [fst snd]. f_equal.
    destruct (smem x (center_axes a (Some l))) eqn:E.
    - apply smem_In, IN, smem_In in E. now rewrite E.
    - assert (E' : smem x (center_axes a (Some l')) = false) by (apply smem_false; rewrite <- IN; now apply smem_false). now rewrite E'. }
  exists r, r'. split; auto. split; auto. split.
  - rewrite <- (wf_keys r Wr), <- (wf_keys r' Wr'). congruence.
  - split; [rewrite Sr, Sr', SS; intros ? ?; tauto|]. intros e He. rewrite (Gr e He).
    rewrite Gr' by (rewrite Sr', <- SS, <- Sr; auto). rewrite (Permutation_length P). f_equal. apply sum_perm.
    apply corners_perm; auto using at_vext. apply first_appearance_NoDup.
Qed.
End Ring.
