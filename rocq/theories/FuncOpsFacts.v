(** Facts about operations on function arrays. *)
From Coq Require Import String List Arith ZArith QArith Bool Lia Permutation Ring Ring_theory.
From Verif Require Import Base BaseFacts Numpy NumpyFacts Shapes Scalar Reorder Elementwise Reduce Along Sorting Derived Func FuncOps
     Spec SpecDerived SpecNumeric SpecFunc SpecFuncOps
     ShapesFacts AlignFacts GetitemFacts SetitemFacts ReorderFacts ElementwiseFacts ReduceFacts AlongFacts SortingFacts DerivedFacts
     CenterFacts VectorIndexFacts OptimizeFacts RankFacts RankdataFacts PdfFacts FuncFacts RegridFacts SpecQuantile QuantileFacts.
Import ListNotations.
Open Scope nat_scope.
Open Scope list_scope.

Lemma in_dget (sh : shape) ax n : NoDup (dkeys sh) -> In (ax, n) sh <-> dget sh ax = Some n.
Proof. intros N. split; [now apply dget_NoDup|apply dget_In]. Qed.

Lemma key_dget (sh : shape) ax : In ax (dkeys sh) <-> exists n, dget sh ax = Some n.
Proof.
  split.
  - intros H. destruct (dget sh ax) as [n|] eqn:E; [now exists n|]. apply dget_None in E. contradiction.
  - intros [n E]. apply dget_In in E. now apply (in_map fst) in E.
Qed.

Lemma fibre_one sh ax e : fibre sh [ax] e = map (set_env e ax) (seq 0 (size_of sh ax)).
Proof. cbn [fibre]. induction (seq 0 (size_of sh ax)) as [|i l IH]; [reflexivity|]. cbn [flat_map map app]. now f_equal. Qed.

Lemma dget_filter_key (d : shape) (P : string -> bool) ax : dget (filter (fun kv => P (fst kv)) d) ax = if P ax then dget d ax else None.
Proof.
  induction d as [|[k v] d IH]; cbn [filter fst]; [now destruct (P ax)|].
  destruct (P k) eqn:E; cbn [dget]; destruct (String.eqb_spec ax k) as [-> |_]; rewrite ?E in *; auto.
Qed.

Section Axes.
Context {A B : Type} (f : farr A B).
Hypothesis Wi : wf (f_inputs f).
Hypothesis Wo : wf (f_outputs f).
Hypothesis C : compatible f.

Lemma center_gen : axes_center f = Ok (filter (fun ax => negb (bin_axis f ax)) (f_axes f)).
Proof.
  unfold axes_center.
  rewrite (mapM_map _ (fun ax => if bin_axis f ax then [] else [ax])).
  - cbn [bind]. f_equal. induction (f_axes f) as [|x l IH]; simpl; auto. rewrite IH. now destruct (bin_axis f x).
  - intros ax Hax. unfold axis_center, bin_axis.
    destruct (dget (sshape (f_inputs f)) ax) as [n|] eqn:E1; destruct (dget (sshape (f_outputs f)) ax) as [m|] eqn:E2; auto.
    assert (K := C ax m n (dget_In _ _ _ E2) (dget_In _ _ _ E1)).
    destruct (Nat.eqb_spec n m), (Nat.eqb_spec n (m + 1)), (Nat.eqb_spec n (S m)); try lia; auto.
    destruct (Nat.eqb_spec m 1), (Nat.eqb_spec n 1); cbn [orb]; auto; lia.
Qed.

Lemma vertex_gen : axes_vertex f = Ok (filter (bin_axis f) (f_axes f)).
Proof.
  unfold axes_vertex. rewrite center_gen. cbn [bind]. f_equal. apply filter_ext_in. intros ax Hax.
  destruct (bin_axis f ax) eqn:E.
  - apply negb_true_iff, smem_false. intros H. apply filter_In in H as [_ H]. rewrite E in H. discriminate.
  - apply negb_false_iff, smem_In, filter_In. rewrite E. auto.
Qed.
End Axes.

Lemma points_keys {A B} (f : farr A B) ax : wf (f_inputs f) -> wf (f_outputs f) -> In ax (f_axes f) <-> exists n, points f ax = Some n.
Proof.
  intros Wi Wo. rewrite (f_axes_in f Wi Wo), !key_dget. unfold points.
  destruct (dget (sshape (f_inputs f)) ax) as [n|], (dget (sshape (f_outputs f)) ax) as [m|]; split; eauto;
    try (intros [k H]; discriminate); intros [[k H]|[k H]]; discriminate.
Qed.

Theorem f_shape_gen {A B} (f : farr A B) : wf (f_inputs f) -> wf (f_outputs f) -> compatible f ->
  exists sh, f_shape f = Ok sh /\ NoDup (dkeys sh) /\ forall ax, dget sh ax = points f ax.
Proof.
  intros Wi Wo M. unfold f_shape. rewrite (center_gen f M), (vertex_gen f M). cbn [bind].
  set (si := sshape (f_inputs f)). set (so := sshape (f_outputs f)).
  set (c := filter (fun ax => negb (bin_axis f ax)) (f_axes f)). set (v := filter (bin_axis f) (f_axes f)).
  assert (Nsi : NoDup (dkeys si)) by now apply wf_nodup. assert (Nso : NoDup (dkeys so)) by now apply wf_nodup.
  set (l := [filter (fun kv => smem (fst kv) c) so; filter (fun kv => smem (fst kv) v) so; filter (fun kv => smem (fst kv) c) si]).
  assert (Nl : Forall (fun s : shape => NoDup (dkeys s)) l).
  { unfold l. constructor; [now apply (filter_nodup (fun k => smem k c))|].
    constructor; [now apply (filter_nodup (fun k => smem k v))|].
    constructor; [now apply (filter_nodup (fun k => smem k c))|constructor]. }
  assert (S : forall ax, sizes_of l ax = match dget so ax, dget si ax with
            | Some m, Some n => if n =? Datatypes.S m then [m] else [m; n]
            | Some m, None => [m] | None, Some n => [n] | None, None => [] end).
  { intros ax. unfold l, sizes_of. cbn [flat_map].
    rewrite (dget_filter_key so (fun k => smem k c)), (dget_filter_key so (fun k => smem k v)), (dget_filter_key si (fun k => smem k c)).
    assert (K : In ax (f_axes f) -> smem ax c = negb (bin_axis f ax) /\ smem ax v = bin_axis f ax).
    { intros Ha. unfold c, v. destruct (bin_axis f ax) eqn:E; cbn [negb].
      - split; [apply smem_false; rewrite filter_In, E; cbn; intuition discriminate|apply smem_In, filter_In; auto].
      - split; [apply smem_In, filter_In; rewrite E; auto|apply smem_false; rewrite filter_In, E; intuition discriminate]. }
    unfold bin_axis in K. fold si so in K.
    assert (KK : forall k, dget so ax = Some k \/ dget si ax = Some k -> In ax (f_axes f)).
    { intros k [H|H]; apply (f_axes_in f Wi Wo); [right|left]; apply key_dget; now exists k. }
    destruct (dget so ax) as [m|] eqn:Eo, (dget si ax) as [n|] eqn:Ei.
    - destruct (K (KK m (or_introl eq_refl))) as [-> ->]. destruct (n =? Datatypes.S m); reflexivity.
    - destruct (K (KK m (or_introl eq_refl))) as [-> ->]. reflexivity.
    - destruct (K (KK n (or_intror eq_refl))) as [-> ->]. reflexivity.
    - destruct (smem ax c), (smem ax v); reflexivity. }
  destruct (broadcast_shapes_total l Nl) as [[sh E]|E].
  2:{ exfalso. apply (broadcast_shapes_conflict l Nl) in E as (ax & a & b & Ha & Hb & Nab & Na & Nb).
      rewrite S in Ha, Hb. destruct (dget so ax) as [m|] eqn:Eo, (dget si ax) as [n|] eqn:Ei; cbn [In] in Ha, Hb; try (intuition lia).
      destruct (Nat.eqb_spec n (Datatypes.S m)); cbn [In] in Ha, Hb; try (intuition lia).
      assert (Q := M ax m n (dget_In _ _ _ Eo) (dget_In _ _ _ Ei)). intuition lia. }
  fold l. exists sh. split; [exact E|]. destruct (broadcast_shapes_ok l sh Nl E) as (N & K & P). split; [exact N|].
  intros ax.
  assert (Q : forall k, dget sh ax = Some k <-> sizes_of l ax <> [] /\ common_size (sizes_of l ax) k).
  { intros k. rewrite <- (in_dget sh ax k N), P. split; intros [H1 H2]; split; auto.
    - apply in_concat in H1 as (ks & H1 & H1'). apply in_map_iff in H1 as (s & <- & H1). apply key_dget in H1' as [m Em].
      intros Z. assert (In m (sizes_of l ax)) by (apply sizes_of_In; eauto). rewrite Z in H. destruct H.
    - destruct (sizes_of l ax) as [|m ms] eqn:Z; [congruence|]. assert (In m (sizes_of l ax)) by (rewrite Z; now left).
      apply sizes_of_In in H as (s & Hs & Em). apply in_concat. exists (dkeys s). split; [now apply in_map|]. apply key_dget. now exists m. }
  rewrite S in Q. unfold points. fold si so.
  destruct (dget so ax) as [m|] eqn:Eo, (dget si ax) as [n|] eqn:Ei.
  - assert (C := M ax m n (dget_In _ _ _ Eo) (dget_In _ _ _ Ei)).
    destruct (Nat.eqb_spec n (Datatypes.S m)).
    + apply Q. split; [discriminate|]. split; [intros q [<- |[]]; auto|intros Z; apply Z; now left].
    + apply Q. split; [discriminate|]. destruct (Nat.eqb_spec m 1).
      * split; [intros q [<- |[<- |[]]]; auto|intros Z; apply Z; right; now left].
      * split; [intros q [<- |[<- |[]]]; auto; lia|intros Z; apply Z; now left].
  - apply Q. split; [discriminate|]. split; [intros q [<- |[]]; auto|intros Z; apply Z; now left].
  - apply Q. split; [discriminate|]. split; [intros q [<- |[]]; auto|intros Z; apply Z; now left].
  - destruct (dget sh ax) as [k|]; auto. destruct (proj1 (Q k) eq_refl) as [Z _]. now destruct Z.
Qed.

Section Integral.
Context {A : Type} (add mul sub : A -> A -> A) (opp : A -> A) (zero one half : A).
Hypothesis R : ring_theory zero one add mul sub opp (@eq A).
Hypothesis H2 : add half half = one.
Add Ring integral_ring : R.
Notation "x + y" := (add x y). Notation "x * y" := (mul x y). Notation "x - y" := (sub x y).

Context (mean : list A -> A) (f : farr A A) (x : string) (n : nat).
Hypothesis Wi : wf (f_inputs f).
Hypothesis Wo : wf (f_outputs f).
Let si := sshape (f_inputs f).
Let so := sshape (f_outputs f).
Hypothesis Hx : dget si x = Some n.
Hypothesis Hm : forall m, dget so x = Some m -> n = m \/ n = S m.

Lemma center_one : center_axes (f_outputs f) (Some [x]) = if smem x (s_axes (f_outputs f)) then [x] else [].
Proof. unfold center_axes. cbn [filter]. now destruct (smem x (s_axes (f_outputs f))). Qed.

Lemma dget_shrunk sh l ax : dget (shrunk sh l) ax = option_map (fun k => if smem ax l then (k - 1)%nat else k) (dget sh ax).
Proof.
  induction sh as [|[k v] sh IH]; [reflexivity|]. cbn [shrunk map fst snd dget]. fold (shrunk sh l).
  destruct (String.eqb_spec ax k) as [-> |_]; auto.
Qed.

(** the outputs between the knots *)
Lemma heights : exists o,
  (match filter (fun ax => negb (smem ax (filter (bin_axis f) (f_axes f)))) [x] with
   | [] => Ok (f_outputs f)
   | _ => na_cell_centers add mul sub zero one half (f_outputs f)
            (Some (filter (fun ax => negb (smem ax (filter (bin_axis f) (f_axes f)))) [x])) None
   end) = Ok o /\ wf o /\
  (forall ax, dget (sshape o) ax = if String.eqb ax x then option_map (fun _ => (n - 1)%nat) (dget so x) else dget so ax) /\
  s_axes o = s_axes (f_outputs f) /\
  forall e, (e x < n - 1)%nat -> (forall ax k, ax <> x -> dget so ax = Some k -> k = 1 \/ e ax < k)%nat ->
    bat o e = height add mul half f x e (e x).
Proof.
  assert (Kf : In x (f_axes f)) by (apply (proj2 (f_axes_in f Wi Wo x)); left; apply (proj2 (key_dget si x)); now exists n).
  cbn [filter].
  destruct (bin_axis f x) eqn:Eb.
  - assert (E : smem x (filter (bin_axis f) (f_axes f)) = true) by (apply smem_In, filter_In; auto). rewrite E. cbn [negb].
    exists (f_outputs f). split; [reflexivity|]. split; [exact Wo|].
    unfold bin_axis in Eb. fold si so in Eb. destruct (dget so x) as [m|] eqn:E2; [|discriminate]. rewrite Hx in Eb.
    apply Nat.eqb_eq in Eb. split; [|split; [reflexivity|]].
    + intros ax. destruct (String.eqb_spec ax x) as [-> |_]; [|reflexivity]. fold so. rewrite E2. cbn [option_map]. f_equal. lia.
    + intros e _ _. unfold height. fold si so. rewrite E2, Hx. rewrite (proj2 (Nat.eqb_eq n (S m)) Eb).
      apply bat_ext; auto. intros ax _. unfold set_env. destruct (String.eqb_spec ax x) as [-> |_]; auto.
  - assert (E : smem x (filter (bin_axis f) (f_axes f)) = false).
    { apply smem_false. rewrite filter_In. intros [_ H]. congruence. }
    rewrite E. cbn [negb].
    assert (Hn : forall m, dget so x = Some m -> n = m).
    { intros m Em. destruct (Hm m Em) as [-> | Q]; auto. unfold bin_axis in Eb. fold si so in Eb.
      rewrite Em, Hx, Q, Nat.eqb_refl in Eb. discriminate. }
    destruct (cell_centers_spec add mul sub opp zero one R half (f_outputs f) (Some [x]) Wo H2) as (o & Eo & Wo' & So & Go).
    exists o. split; [exact Eo|]. split; [exact Wo'|]. rewrite center_one in So, Go.
    assert (Ka : dkeys (sshape o) = dkeys so) by (rewrite So; apply shrunk_keys).
    split; [|split].
    + intros ax. rewrite So, dget_shrunk. fold so. destruct (smem x (s_axes (f_outputs f))) eqn:Es.
      * unfold smem at 1. cbn [existsb]. rewrite orb_false_r. destruct (String.eqb_spec ax x) as [-> |_].
        -- destruct (dget so x) as [m|] eqn:Em; [|reflexivity]. cbn [option_map]. now rewrite (Hn m eq_refl).
        -- now destruct (dget so ax).
      * unfold smem at 1. cbn [existsb]. destruct (String.eqb_spec ax x) as [-> |_].
        -- apply smem_false in Es. rewrite <- (wf_keys _ Wo) in Es. apply dget_None in Es. fold so in Es. now rewrite Es.
        -- now destruct (dget so ax).
    + now rewrite <- (wf_keys o Wo'), <- (wf_keys _ Wo).
    + intros e L V. unfold bat. rewrite Go.
      2:{ apply clamp_inside; [now apply wf_nodup|]. intros ax k Hk. rewrite So in Hk. apply in_shrunk in Hk as (k' & Hk & ->).
          fold so in Hk. apply (in_dget so ax k' (wf_nodup _ Wo)) in Hk.
          destruct (String.string_dec ax x) as [-> |Nx].
          - right. assert (Es : smem x (s_axes (f_outputs f)) = true).
            { apply smem_In. rewrite <- (wf_keys _ Wo). apply key_dget. now exists k'. }
            rewrite Es. unfold smem. cbn [existsb]. rewrite String.eqb_refl. cbn [orb].
            rewrite <- (Hn k' Hk). exact L.
          - assert (Ez : smem ax (if smem x (s_axes (f_outputs f)) then [x] else []) = false).
            { apply smem_false. destruct (smem x (s_axes (f_outputs f))); simpl; intuition congruence. }
            rewrite Ez. exact (V ax k' Nx Hk). }
      unfold height. fold si so. rewrite Hx.
      destruct (dget so x) as [m|] eqn:Em.
      * assert (Es : smem x (s_axes (f_outputs f)) = true).
        { apply smem_In. rewrite <- (wf_keys _ Wo). apply key_dget. now exists m. }
        rewrite Es. cbn [corners app length power map]. unfold SpecDerived.sum. cbn [fold_right].
        assert (En := Hn m eq_refl). subst m. destruct (Nat.eqb_spec n (S n)) as [|_]; [lia|].
        assert (P : forall i, (i < n)%nat -> at_ (f_outputs f) (set_env (bclamp (sshape o) e) x i) = bat (f_outputs f) (set_env e x i)).
        { intros i Li. unfold bat. apply at_ext. intros ax Hax. unfold set_env, bclamp. fold so.
          destruct (String.eqb_spec ax x) as [-> |Nx].
          - rewrite Em. destruct n as [|[|k]]; auto. lia.
          - rewrite So, dget_shrunk, Es. fold so. unfold smem. cbn [existsb].
            destruct (String.eqb_spec ax x) as [|_]; [contradiction|]. cbn [orb]. destruct (dget so ax); auto. }
        assert (Ex : bclamp (sshape o) e x = e x).
        { unfold bclamp. rewrite So, dget_shrunk, Es. fold so. rewrite Em. cbn [option_map]. unfold smem. cbn [existsb].
          rewrite String.eqb_refl. cbn [orb]. destruct n as [|[|[|k]]]; cbn; auto; lia. }
        rewrite Ex, <- (P (e x)) by lia. rewrite <- (P (S (e x))) by lia.
        rewrite (at_ext _ (set_env (bclamp (sshape o) e) x (e x)) (bclamp (sshape o) e)).
        -- ring.
        -- intros ax _. unfold set_env. destruct (String.eqb_spec ax x) as [-> |_]; auto.
      * assert (Es : smem x (s_axes (f_outputs f)) = false).
        { apply smem_false. rewrite <- (wf_keys _ Wo). apply dget_None. exact Em. }
        rewrite Es. cbn [corners length power map]. unfold SpecDerived.sum. cbn [fold_right].
        unfold bat. rewrite (at_ext _ (bclamp (sshape o) e) (bclamp (sshape (f_outputs f)) (set_env e x (e x)))); [ring|].
        intros ax Hax. unfold bclamp, set_env. fold so. rewrite So, dget_shrunk, Es. fold so. cbn [smem existsb].
        destruct (String.eqb_spec ax x) as [-> |_]; [rewrite Em; reflexivity|]. destruct (dget so ax); auto.
Qed.

(** the distances of the knots *)
Lemma distances : exists d, volume_cell sub (f_inputs f) [x] = Ok d /\ wf d /\ s_axes d = s_axes (f_inputs f) /\
  (forall ax, dget (sshape d) ax = if String.eqb ax x then Some (n - 1)%nat else dget si ax) /\
  forall e, (e x < n - 1)%nat -> bat d e = knot f x e (S (e x)) - knot f x e (e x).
Proof.
  destruct (diff_spec sub 1 (f_inputs f) x None None Wi) as [D _]; try (intros; discriminate).
  assert (Kx : In x (s_axes (f_inputs f))) by (rewrite <- (wf_keys _ Wi); apply (proj2 (key_dget si x)); now exists n).
  destruct D as (d & Ed & Wd & Ad & Sd & Ld); [split; [exact Kx|intros o [Q|Q]; discriminate]|].
  assert (Sx : size_of si x = n) by (unfold size_of; now rewrite Hx).
  assert (L1 : forall e, line d x e = map (fun j => at_ (f_inputs f) (set_env e x (S j)) - at_ (f_inputs f) (set_env e x j)) (seq 0 (n - 1))).
  { intros e. rewrite Ld. cbn [app]. rewrite app_nil_r. change (delta sub (line (f_inputs f) x e) = map (fun j => at_ (f_inputs f) (set_env e x (S j)) - at_ (f_inputs f) (set_env e x j)) (seq 0 (n - 1))). unfold line. fold si. rewrite Sx. now rewrite delta_map. }
  assert (Dx : dget (sshape d) x = Some (n - 1)%nat).
  { assert (K : In x (dkeys (sshape d))) by (rewrite (wf_keys d Wd), Ad; exact Kx).
    apply key_dget in K as [k Ek]. rewrite Ek. f_equal. assert (Q := L1 (fun _ => 0%nat)). apply (f_equal (@length A)) in Q.
    unfold line in Q. rewrite !map_length, !seq_length in Q. unfold size_of in Q. now rewrite Ek in Q. }
  assert (Dax : forall ax, dget (sshape d) ax = if String.eqb ax x then Some (n - 1)%nat else dget si ax).
  { intros ax. destruct (String.eqb_spec ax x) as [-> |Nx]; [exact Dx|].
    destruct (dget si ax) as [k|] eqn:E.
    - assert (K : In ax (s_axes (f_inputs f))) by (rewrite <- (wf_keys _ Wi); apply (proj2 (key_dget si ax)); now exists k).
      assert (Q := Sd ax K Nx). fold si in Q. unfold size_of in Q. rewrite E in Q.
      rewrite <- Ad, <- (wf_keys d Wd) in K. apply key_dget in K as [k' Ek]. rewrite Ek in *. now subst.
    - apply dget_None. rewrite (wf_keys d Wd), Ad, <- (wf_keys _ Wi). now apply dget_None. }
  exists d. split; [exact Ed|]. split; [exact Wd|]. split; [exact Ad|]. split; [exact Dax|].
  intros e L. unfold bat at 1. set (c := bclamp (sshape d) e).
  assert (Cx : c x = e x).
  { unfold c, bclamp. rewrite Dx. destruct n as [|[|[|k]]]; cbn; auto; lia. }
  assert (Lc : (c x < size_of (sshape d) x)%nat) by (unfold size_of; rewrite Dx; lia).
  assert (Q := line_at d x c Lc). rewrite L1 in Q.
  rewrite (map_nth_error _ _ _ (d := c x)) in Q.
  2:{ rewrite seq_nth_error. destruct (Nat.ltb_spec (c x) (n - 1)); [reflexivity|lia]. }
  injection Q as <-. rewrite Cx. unfold knot, bat. f_equal.
  - apply at_ext. intros ax Hax. unfold set_env, bclamp. fold si. destruct (String.eqb_spec ax x) as [-> |Nx].
    + rewrite Hx. destruct n as [|[|k]]; auto. lia.
    + unfold c, bclamp. rewrite Dax. destruct (String.eqb_spec ax x); [contradiction|reflexivity].
  - apply at_ext. intros ax Hax. unfold set_env, bclamp. fold si. destruct (String.eqb_spec ax x) as [-> |Nx].
    + rewrite Hx. destruct n as [|[|k]]; auto. lia.
    + unfold c, bclamp. rewrite Dax. destruct (String.eqb_spec ax x); [contradiction|reflexivity].
Qed.

Hypothesis Hc : forall ax a b, ax <> x -> dget so ax = Some a -> dget si ax = Some b -> a = b \/ a = 1%nat \/ b = 1%nat.

Lemma sizes2 (s t : shape) ax : sizes_of [s; t] ax =
  (match dget s ax with Some a => [a] | None => [] end ++ match dget t ax with Some a => [a] | None => [] end).
Proof. unfold sizes_of. cbn [flat_map]. now rewrite app_nil_r. Qed.

Lemma key_op (s : shape) ax : In ax (dkeys s) <-> match dget s ax with Some _ => True | None => False end.
Proof. rewrite key_dget. destruct (dget s ax) as [k|]; split; auto; [intros _; now exists k|intros [k H]; discriminate|intros []]. Qed.

Theorem integrate_gen : exists r, f_integrate add mul sub zero one half mean f [x] = Ok r /\
  wf (f_inputs r) /\ wf (f_outputs r) /\
  sshape (f_inputs r) = without si [x] /\
  (forall ax k, In (ax, k) (sshape (f_outputs r)) <->
     ax <> x /\ (In ax (dkeys so) \/ In ax (dkeys si)) /\ common_size (sizes_of [so; si] ax) k) /\
  (forall e, at_ (f_inputs r) e = mean (line (f_inputs f) x e)) /\
  forall e, inside e (sshape (f_outputs r)) -> at_ (f_outputs r) e = integral add mul sub zero half f x e.
Proof.
  assert (C : compatible f).
  { intros ax a b Ha Hb. apply (in_dget _ _ _ (wf_nodup _ Wo)) in Ha. apply (in_dget _ _ _ (wf_nodup _ Wi)) in Hb.
    destruct (String.string_dec ax x) as [-> |Nx].
    - fold si in Hb. rewrite Hx in Hb. injection Hb as <-. destruct (Hm a Ha); auto.
    - destruct (Hc ax a b Nx Ha Hb) as [-> |[-> | ->]]; auto. }
  assert (Kf : In x (f_axes f)) by (apply (proj2 (f_axes_in f Wi Wo x)); left; apply (proj2 (key_dget si x)); now exists n).
  unfold f_integrate. cbn [forallb]. rewrite (proj2 (smem_In _ _) Kf). cbn [andb negb].
  rewrite (vertex_gen f C). cbn [bind].
  destruct heights as (o & Eo & Woo & Do & Ao & Go).
  rewrite Eo. cbn [bind].
  clear Eo. destruct distances as (d & Ed & Wd & Ad & Dd & Gd). rewrite Ed. cbn [bind].
  assert (F : Forall op_wf [OpArr o; OpArr d]) by (exact (Forall_cons (OpArr o) Woo (Forall_cons (OpArr d) Wd (Forall_nil _)))).
  assert (NS : Forall (fun s : shape => NoDup (dkeys s)) [sshape o; sshape d]) by (exact (Forall_cons (sshape o) (wf_nodup o Woo) (Forall_cons (sshape d) (wf_nodup d Wd) (Forall_nil _)))).
  assert (SB : exists sh, shape_broadcasted [OpArr o; OpArr d] = Ok sh).
  { unfold shape_broadcasted. cbn [op_shapes flat_map app].
    destruct (broadcast_shapes_total _ NS) as [E|E]; [exact E|].
    apply broadcast_shapes_conflict in E; auto. destruct E as (ax & a & b & Ha & Hb & Nab & Na & Nb). exfalso.
    rewrite sizes2, Do, Dd in Ha, Hb. destruct (String.eqb_spec ax x) as [-> |Nx].
    - destruct (dget so x); cbn [option_map app] in Ha, Hb; destruct Ha as [Ha|Ha], Hb as [Hb|Hb]; cbn [In] in *; intuition lia.
    - destruct (dget so ax) as [u|] eqn:Eu, (dget si ax) as [v|] eqn:Ev; cbn [app In] in Ha, Hb; try (intuition lia).
      destruct (Hc ax u v Nx Eu Ev) as [Q|[Q|Q]]; intuition lia. }
  destruct SB as [sh SB]. destruct (array_ufunc_ok (bin mul zero) _ sh F SB) as (p & Ep & Wp & Sp & Gp).
  rewrite Ep. cbn [bind]. unfold shape_broadcasted in SB. cbn [op_shapes flat_map app] in SB.
  destruct (broadcast_shapes_ok _ _ NS SB) as (Nsh & Ksh & Psh). cbn [map concat] in Ksh, Psh. rewrite app_nil_r in Ksh, Psh.
  assert (Kd : forall ax, In ax (dkeys (sshape d)) <-> In ax (dkeys si)).
  { intros ax. unfold si. rewrite (wf_keys d Wd), Ad, <- (wf_keys _ Wi). tauto. }
  assert (Ko : forall ax, In ax (dkeys (sshape o)) <-> In ax (dkeys so)).
  { intros ax. unfold so. rewrite (wf_keys o Woo), Ao, <- (wf_keys _ Wo). tauto. }
  assert (Shx : dget sh x = Some (n - 1)%nat).
  { apply (in_dget _ _ _ Nsh). apply Psh. split.
    - apply in_app_iff. right. apply Kd. apply (proj2 (key_dget si x)). now exists n.
    - rewrite sizes2, Do, Dd, String.eqb_refl. destruct (dget so x); cbn [option_map app]; (split; [intros q [<- |[<- |[]]]; auto || (intros q [<- |[]]; auto)|intros Q; apply Q; now left]) || idtac.
      split; [intros q [<- |[]]; auto|intros Q; apply Q; now left]. }
  assert (R1 := reduce_spec true (fun l => fold_right add zero l) p (Some [x]) false None Wp).
  cbv beta iota zeta in R1. rewrite Sp in R1.
  assert (One : broadcast_shapes [sh] = Ok sh).
  { apply bs_covered; [exact Nsh|]. intros s []. }
  rewrite One in R1. destruct R1 as [R1 _]; [intros; discriminate|].
  destruct R1 as (ro & Ero & Wro & Aro & Sro & Gro).
  { split; [repeat constructor; intros []|]. split; [|split; [intros; discriminate|now left]].
    intros ax [<- |[]]. apply (proj2 (key_dget sh x)). now exists (n - 1)%nat. }
  rewrite Ero. cbn [bind].
  assert (R2 := reduce_spec true mean (f_inputs f) (Some [x]) false None Wi).
  cbv beta iota zeta in R2. fold si in R2.
  assert (One' : broadcast_shapes [si] = Ok si).
  { apply bs_covered; [now apply wf_nodup|]. intros s []. }
  rewrite One' in R2. destruct R2 as [R2 _]; [intros; discriminate|].
  destruct R2 as (ri & Eri & Wri & Ari & Sri & Gri).
  { split; [repeat constructor; intros []|]. split; [|split; [intros; discriminate|now left]].
    intros ax [<- |[]]. apply (proj2 (key_dget si x)). now exists n. }
  rewrite Eri. cbn [bind]. exists (mkF ri ro). cbn [f_inputs f_outputs].
  assert (FX : forall (s : shape) k, dget s x = Some k -> filter (fun ax => smem ax [x]) (dkeys s) = [x] \/ ~ NoDup (dkeys s)).
  { intros s k E. destruct (ListDec.NoDup_dec String.string_dec (dkeys s)) as [N|N]; [left|now right].
    assert (K : In x (dkeys s)) by (apply key_dget; now exists k). clear E.
    induction (dkeys s) as [|y l IH]; [destruct K|]. inversion N as [|? ? Ny N']; subst. cbn [filter].
    unfold smem at 1. cbn [existsb]. rewrite orb_false_r. destruct (String.eqb_spec y x) as [-> |Nx].
    - f_equal. apply filter_none. intros z Hz. apply smem_false. intros [<- |[]]. contradiction.
    - apply IH; auto. destruct K; [contradiction|auto]. }
  split; [reflexivity|]. split; [exact Wri|]. split; [exact Wro|]. split; [|split; [|split]].
  - apply shape_eq.
    + rewrite (wf_keys ri Wri), Ari, dkeys_without. reflexivity.
    + rewrite dkeys_without. apply NoDup_filter, wf_nodup, Wi.
    + intros ax k H. apply Sri in H as [H ->]. rewrite Ari in H. apply filter_In in H as [H Q]. apply negb_true_iff in Q. rewrite Q.
      apply without_In. split; [|now apply smem_false].
      apply key_dget in H as [k E]. unfold size_of. rewrite E. now apply dget_In.
  - intros ax k. rewrite Sro, Aro, filter_In, negb_true_iff, smem_false. split.
    + intros [[K Nx] ->]. assert (Nx' : ax <> x) by (intros ->; apply Nx; now left).
      assert (Q : smem ax [x] = false) by (now apply smem_false). rewrite Q.
      split; [exact Nx'|]. apply key_dget in K as [k E]. assert (E' := E). unfold size_of. rewrite E.
      apply (in_dget _ _ _ Nsh), Psh in E' as [K C']. split; [apply in_app_iff in K; rewrite Ko, Kd in K; exact K|].
      rewrite sizes2, Do, Dd in C'. destruct (String.eqb_spec ax x); [contradiction|]. now rewrite sizes2.
    + intros (Nx & K & C').
      assert (In (ax, k) sh).
      { apply Psh. split; [apply in_app_iff; now rewrite Ko, Kd|].
        rewrite sizes2, Do, Dd. destruct (String.eqb_spec ax x); [contradiction|]. now rewrite sizes2 in C'. }
      assert (Q : ~ In ax [x]) by (intros [-> |[]]; now apply Nx).
      split; [split; [now apply (in_map fst) in H|exact Q]|]. rewrite (proj2 (smem_false _ _) Q).
      apply (in_dget _ _ _ Nsh) in H. unfold size_of. now rewrite H.
  - intros e. rewrite Gri. fold si. destruct (FX si n Hx) as [Q|Q]; [|exfalso; apply Q; now apply wf_nodup]. rewrite Q.
    f_equal. rewrite filter_all by (intros; reflexivity). rewrite fibre_one, map_map. reflexivity.
  - intros e He. rewrite Gro. destruct (FX sh _ Shx) as [Q|Q]; [|exfalso; now apply Q]. rewrite Q.
    rewrite filter_all by (intros; reflexivity). rewrite fibre_one, map_map. unfold integral, SpecDerived.sum, knots.
    assert (Z1 : size_of sh x = (n - 1)%nat) by (unfold size_of; now rewrite Shx).
    assert (Z2 : size_of (sshape (f_inputs f)) x = n) by (unfold size_of; fold si; now rewrite Hx).
    rewrite Z1, Z2. f_equal. apply map_ext_in. intros i Hi. apply in_seq in Hi. rewrite Gp. cbn [map bin op_at].
    assert (Ex : set_env e x i x = i) by (unfold set_env; now rewrite String.eqb_refl).
    assert (Eo' : forall ax, ax <> x -> set_env e x i ax = e ax).
    { intros ax Nx. unfold set_env. destruct (String.eqb_spec ax x); [contradiction|reflexivity]. }
    rewrite Go, Gd.
    + rewrite !Ex. f_equal.
      * unfold height. rewrite !(bat_ext (f_outputs f) _ _ Wo (fun ax _ => set_env_twice e x i _ ax)). reflexivity.
      * unfold knot. now rewrite !(bat_ext (f_inputs f) _ _ Wi (fun ax _ => set_env_twice e x i _ ax)).
    + rewrite Ex. lia.
    + rewrite Ex. lia.
    + intros ax k Nx Ek. rewrite (Eo' ax Nx).
      assert (Hk : In (ax, k) (sshape o)).
      { apply (in_dget _ _ _ (wf_nodup _ Woo)). rewrite Do. destruct (String.eqb_spec ax x); [contradiction|exact Ek]. }
      destruct (broadcast_covers _ _ (sshape o) ax k NS SB (or_introl eq_refl) Hk) as [_ [-> |Hs]]; [now left|right].
      apply He. apply Sro. rewrite Aro. split.
      * apply filter_In. split; [now apply (in_map fst) in Hs|]. apply negb_true_iff, smem_false. intros [-> |[]]. now apply Nx.
      * assert (Q' : smem ax [x] = false) by (apply smem_false; intros [-> |[]]; now apply Nx). rewrite Q'.
        unfold size_of. now rewrite (dget_NoDup _ _ _ Nsh Hs).
Qed.

Lemma telescope (k : nat -> A) (c : A) m : forall i,
  SpecDerived.sum add zero (map (fun i => c * (k (S i) - k i)) (seq i m)) = c * (k (i + m)%nat - k i).
Proof.
  induction m as [|m IH]; intros i.
  - cbn [seq map]. unfold SpecDerived.sum. cbn [fold_right]. rewrite Nat.add_0_r. ring.
  - cbn [seq map]. unfold SpecDerived.sum in *. cbn [fold_right]. rewrite IH. rewrite Nat.add_succ_comm. ring.
Qed.

Lemma integral_constant e c : (forall j, (j < n)%nat -> bat (f_outputs f) (set_env e x j) = c) ->
  integral add mul sub zero half f x e = c * (knot f x e (n - 1) - knot f x e 0).
Proof.
  clear Hm Hc. intros V. unfold integral, knots. assert (Z2 : size_of (sshape (f_inputs f)) x = n) by (unfold size_of; fold si; now rewrite Hx).
  rewrite Z2. etransitivity; [|exact (telescope (knot f x e) c (n - 1) 0)].
  f_equal. apply map_ext_in. intros i Hi. apply in_seq in Hi. f_equal.
  unfold height. fold si so. rewrite Hx. destruct (dget so x) as [m|] eqn:E; [|apply V; lia].
  destruct (n =? S m)%nat; [apply V; lia|]. rewrite !V by lia. 
  transitivity ((half + half) * c); [ring|rewrite H2; ring].
Qed.

Lemma telescope_square (k : nat -> A) (a b : A) m : forall i,
  SpecDerived.sum add zero (map (fun i => half * ((a * k i + b) + (a * k (S i) + b)) * (k (S i) - k i)) (seq i m)) =
  half * a * (k (i + m)%nat * k (i + m)%nat - k i * k i) + b * (k (i + m)%nat - k i).
Proof.
  assert (T : forall u v, half * ((a * u + b) + (a * v + b)) * (v - u) = half * a * (v * v - u * u) + b * (v - u)).
  { intros u v. transitivity (half * a * (v * v - u * u) + (half + half) * b * (v - u)); [ring|]. rewrite H2. ring. }
  induction m as [|m IH]; intros i.
  - cbn [seq map]. unfold SpecDerived.sum. cbn [fold_right]. rewrite Nat.add_0_r. ring.
  - cbn [seq map]. unfold SpecDerived.sum in *. cbn [fold_right]. rewrite IH, T. rewrite Nat.add_succ_comm. ring.
Qed.

Lemma integral_linear e a b : dget so x = Some n ->
  (forall j, (j < n)%nat -> bat (f_outputs f) (set_env e x j) = a * knot f x e j + b) ->
  integral add mul sub zero half f x e =
  half * a * (knot f x e (n - 1) * knot f x e (n - 1) - knot f x e 0 * knot f x e 0) + b * (knot f x e (n - 1) - knot f x e 0).
Proof.
  intros Es V. unfold integral, knots. assert (Z2 : size_of (sshape (f_inputs f)) x = n) by (unfold size_of; fold si; now rewrite Hx).
  rewrite Z2. etransitivity; [|exact (telescope_square (knot f x e) a b (n - 1) 0)].
  f_equal. apply map_ext_in. intros i Hi. apply in_seq in Hi. f_equal.
  unfold height. fold si so. rewrite Hx, Es. destruct (Nat.eqb_spec n (S n)); [lia|]. rewrite !V by lia. reflexivity.
Qed.
End Integral.

Theorem integrate_spec {A} (add mul sub : A -> A -> A) (opp : A -> A) (zero one half : A) (mean : list A -> A)
  (f : farr A A) (x : string) (n : nat) :
  ring_theory zero one add mul sub opp (@eq A) -> add half half = one ->
  wf (f_inputs f) -> wf (f_outputs f) -> In (x, n) (sshape (f_inputs f)) ->
  (forall m, In (x, m) (sshape (f_outputs f)) -> n = m \/ n = S m) ->
  (forall ax a b, ax <> x -> In (ax, a) (sshape (f_outputs f)) -> In (ax, b) (sshape (f_inputs f)) ->
     a = b \/ a = 1 \/ b = 1) ->
  exists r, f_integrate add mul sub zero one half mean f [x] = Ok r /\
    wf (f_inputs r) /\ wf (f_outputs r) /\
    sshape (f_inputs r) = without (sshape (f_inputs f)) [x] /\
    (forall ax k, In (ax, k) (sshape (f_outputs r)) <->
       ax <> x /\ (In ax (dkeys (sshape (f_outputs f))) \/ In ax (dkeys (sshape (f_inputs f)))) /\
       common_size (sizes_of [sshape (f_outputs f); sshape (f_inputs f)] ax) k) /\
    (forall e, at_ (f_inputs r) e = mean (line (f_inputs f) x e)) /\
    forall e, inside e (sshape (f_outputs r)) -> at_ (f_outputs r) e = integral add mul sub zero half f x e.
Proof.
  intros R H2 Wi Wo Hx Hm Hc. apply (in_dget _ _ _ (wf_nodup _ Wi)) in Hx.
  apply (integrate_gen add mul sub opp zero one half R H2 mean f x n Wi Wo Hx).
  - intros m E. apply Hm. now apply dget_In.
  - intros ax a b Nx Ea Eb. apply (Hc ax a b Nx); now apply dget_In.
Qed.

Theorem integral_constant_spec {A} (add mul sub : A -> A -> A) (opp : A -> A) (zero one half : A)
  (f : farr A A) (x : string) (n : nat) (e : env) (c : A) :
  ring_theory zero one add mul sub opp (@eq A) -> add half half = one ->
  wf (f_inputs f) -> In (x, n) (sshape (f_inputs f)) ->
  (forall j, j < n -> bat (f_outputs f) (set_env e x j) = c) ->
  integral add mul sub zero half f x e = mul c (sub (knot f x e (n - 1)) (knot f x e 0)).
Proof.
  intros R H2 Wi Hx. apply (in_dget _ _ _ (wf_nodup _ Wi)) in Hx. eapply (integral_constant add mul sub opp zero one half R H2); eauto.
Qed.

Theorem integral_linear_spec {A} (add mul sub : A -> A -> A) (opp : A -> A) (zero one half : A)
  (f : farr A A) (x : string) (n : nat) (e : env) (a b : A) :
  ring_theory zero one add mul sub opp (@eq A) -> add half half = one ->
  wf (f_inputs f) -> wf (f_outputs f) -> In (x, n) (sshape (f_inputs f)) -> In (x, n) (sshape (f_outputs f)) ->
  (forall j, j < n -> bat (f_outputs f) (set_env e x j) = add (mul a (knot f x e j)) b) ->
  let first := knot f x e 0 in
  let last := knot f x e (n - 1) in
  integral add mul sub zero half f x e = add (mul (mul half a) (sub (mul last last) (mul first first))) (mul b (sub last first)).
Proof.
  intros R H2 Wi Wo Hx Ho. apply (in_dget _ _ _ (wf_nodup _ Wi)) in Hx. apply (in_dget _ _ _ (wf_nodup _ Wo)) in Ho.
  eapply (integral_linear add mul sub opp zero one half R H2); eauto.
Qed.

(** ** Reductions *)

Lemma reduce_without {A B} (identity : bool) (red : list A -> B) (a : sarr A) (l : list string) (keepdims : bool) :
  wf a -> NoDup l -> incl l (s_axes a) -> (identity = true \/ total_size (sshape a) l <> 0) ->
  exists r, na_reduce identity red a (Some l) keepdims None None = Ok r /\ wf r /\
    sshape r = (if keepdims then squeezed (sshape a) l else without (sshape a) l) /\
    forall e, at_ r e = red (map (at_ a) (fibre (sshape a) (filter (fun ax => smem ax l) (s_axes a)) e)).
Proof.
  intros W N I Z. assert (R := reduce_spec identity red a (Some l) keepdims None W).
  cbv beta iota zeta in R. rewrite (broadcast_one _ (wf_nodup _ W)) in R. destruct R as [R _]; [intros; discriminate|].
  destruct R as (r & E & Wr & Ar & Sr & Gr).
  { split; [exact N|]. split; [now rewrite (wf_keys _ W)|]. split; [intros; discriminate|]. destruct Z; auto. }
  exists r. split; [exact E|]. split; [exact Wr|]. split.
  - assert (Kr := wf_keys r Wr). rewrite Ar in Kr.
    assert (Sz : forall ax, In ax (dkeys (sshape a)) -> In (ax, size_of (sshape a) ax) (sshape a)).
    { intros ax K. apply key_dget in K as [k E']. unfold size_of. rewrite E'. now apply dget_In. }
    destruct keepdims.
    + apply shape_eq.
      * rewrite Kr, squeezed_keys. reflexivity.
      * rewrite squeezed_keys. now apply wf_nodup.
      * intros ax k H. apply Sr in H as [H ->]. rewrite Ar in H. apply squeezed_In.
        destruct (smem ax l); [auto|now apply Sz].
    + apply shape_eq.
      * rewrite Kr, dkeys_without. reflexivity.
      * rewrite dkeys_without. apply NoDup_filter. now apply wf_nodup.
      * intros ax k H. apply Sr in H as [H ->]. rewrite Ar in H. apply filter_In in H as [H Q].
        apply negb_true_iff in Q. rewrite Q. apply without_In. split; [now apply Sz|now apply smem_false].
  - intros e. rewrite Gr, filter_all by (intros; reflexivity). now rewrite (wf_keys _ W).
Qed.

Lemma filter_perm (l m : list string) : NoDup l -> NoDup m -> Permutation (filter (fun ax => smem ax l) m) (filter (fun ax => smem ax m) l).
Proof.
  intros Nl Nm. apply NoDup_Permutation; [now apply NoDup_filter|now apply NoDup_filter|].
  intros ax. rewrite !filter_In, !smem_In. tauto.
Qed.

Lemma map_ext_fibre {A} (u v : env -> A) sh l e : (forall e', (forall ax, ~ In ax l -> e' ax = e ax) ->
    (forall ax, In ax l -> e' ax < size_of sh ax) -> u e' = v e') -> map u (fibre sh l e) = map v (fibre sh l e).
Proof.
  revert u v e. induction l as [|x l IH]; intros u v e H; cbn [fibre].
  - cbn [map]. f_equal. apply H; auto. intros ax [].
  - assert (K : forall i, In i (seq 0 (size_of sh x)) -> map u (fibre sh l (set_env e x i)) = map v (fibre sh l (set_env e x i))).
    { intros i Hi. apply in_seq in Hi. apply IH. intros e' H1 H2. destruct (in_dec String.string_dec x l) as [Kx|Kx].
      - apply H.
        + intros ax Na. rewrite H1 by (intros Q; apply Na; now right). unfold set_env. destruct (String.eqb_spec ax x) as [-> |]; auto.
          destruct Na. now left.
        + intros ax [<- |Ha]; auto.
      - apply H.
        + intros ax Na. rewrite H1 by (intros Q; apply Na; now right). unfold set_env. destruct (String.eqb_spec ax x) as [-> |]; auto.
          destruct Na. now left.
        + intros ax [<- |Ha]; auto. rewrite H1 by auto. unfold set_env. rewrite String.eqb_refl. lia. }
    induction (seq 0 (size_of sh x)) as [|i s IHs]; [reflexivity|]. cbn [flat_map]. rewrite !map_app.
    rewrite K by now left. f_equal. apply IHs. intros j Hj. apply K. now right.
Qed.

Lemma fibre_perm_map {B} (g : env -> B) sh l m e : vext g -> NoDup l -> Permutation l m ->
  Permutation (map g (fibre sh l e)) (map g (fibre sh m e)).
Proof.
  intros V N P. assert (Q : forall s, map g s = flat_map (fun e => [g e]) s).
  { induction s as [|y s IH]; [reflexivity|]. cbn [map flat_map app]. now rewrite IH. }
  rewrite !Q. apply fibre_perm; auto. intros u v H. f_equal. now apply V.
Qed.

Theorem f_reduce_spec {A B C} (add mul sub : A -> A -> A) (opp : A -> A) (zero one half : A) (mean : list A -> A)
  (identity : bool) (red : list B -> C) (f : farr A B) (l : list string) (sh : shape) :
  ring_theory zero one add mul sub opp (@eq A) -> add half half = one ->
  wf (f_inputs f) -> wf (f_outputs f) -> compatible f -> f_shape f = Ok sh -> NoDup l -> incl l (dkeys sh) ->
  symmetric red -> symmetric mean -> (identity = true \/ total_size sh l <> 0) ->
  (forall ax, In ax l -> dget (sshape (f_outputs f)) ax = dget sh ax) ->
  exists r, f_reduce add mul sub zero one half mean identity red f (Some l) false = Ok r /\
    wf (f_inputs r) /\ wf (f_outputs r) /\
    sshape (f_inputs r) = without (sshape (f_inputs f)) l /\ sshape (f_outputs r) = without (sshape (f_outputs f)) l /\
    (forall e, at_ (f_outputs r) e = red (map (at_ (f_outputs f)) (fibre sh l e))) /\
    (forall e, inside e (sshape (f_inputs r)) -> at_ (f_inputs r) e =
       mean (map (middle add mul zero one half f l)
                 (fibre (shrunk (sshape (f_inputs f)) (vertices f l)) (filter (fun ax => smem ax (s_axes (f_inputs f))) l) e))).
Proof.
  intros R H2 Wi Wo C0 Es N I Sr Sm Z Ho. unfold f_reduce. rewrite Es. cbn [bind].
  destruct (f_shape_gen f Wi Wo C0) as (sh' & Es' & Nsh & Ps). assert (sh' = sh) by congruence. subst sh'. clear Es'.
  assert (Ka : forall ax, In ax (dkeys sh) <-> In ax (f_axes f)).
  { intros ax. rewrite (points_keys f ax Wi Wo), key_dget, Ps. tauto. }
  assert (Fb : forallb (fun ax => smem ax (dkeys sh)) l = true).
  { apply forallb_forall. intros ax Hax. now apply smem_In, I. }
  rewrite Fb. cbn [negb]. rewrite (center_gen f C0). cbn [bind].
  assert (Ev : filter (fun ax => negb (smem ax (filter (fun ax0 => negb (bin_axis f ax0)) (f_axes f)))) l = vertices f l).
  { apply filter_ext_in. intros ax Hax. change (binned f ax) with (bin_axis f ax). assert (K := proj1 (Ka ax) (I ax Hax)).
    destruct (bin_axis f ax) eqn:E.
    - apply negb_true_iff, smem_false. rewrite filter_In, E. cbn. intuition discriminate.
    - apply negb_false_iff, smem_In, filter_In. now rewrite E. }
  rewrite Ev.
  assert (Vi : incl (vertices f l) (s_axes (f_inputs f))).
  { intros ax H. apply filter_In in H as [_ H]. unfold binned in H. rewrite <- (wf_keys _ Wi). apply key_dget.
    destruct (dget (sshape (f_outputs f)) ax); [|discriminate]. destruct (dget (sshape (f_inputs f)) ax); [eauto|discriminate]. }
  assert (Ec : center_axes (f_inputs f) (Some (vertices f l)) = vertices f l).
  { unfold center_axes. rewrite filter_all by (intros ax H; now apply smem_In, Vi). apply nodup_first_appearance, NoDup_filter, N. }
  destruct (cell_centers_spec add mul sub opp zero one R half (f_inputs f) (Some (vertices f l)) Wi H2) as (c & Ecc & Wc & Sc & Gc).
  rewrite Ec in Sc, Gc. rewrite Ecc. cbn [bind].
  assert (Ac : s_axes c = s_axes (f_inputs f)).
  { rewrite <- (wf_keys c Wc), <- (wf_keys _ Wi), Sc. apply shrunk_keys. }
  destruct (reduce_without true mean c (filter (fun ax => smem ax l) (dkeys (sshape c))) false Wc) as (ri & Eri & Wri & Sri & Gri).
  { apply NoDup_filter. now apply wf_nodup. }
  { rewrite (wf_keys _ Wc). apply incl_filter. }
  { now left. }
  rewrite Eri. cbn [bind].
  assert (Ko : incl l (s_axes (f_outputs f))).
  { intros ax Hax. rewrite <- (wf_keys _ Wo). apply key_dget. rewrite (Ho ax Hax). apply key_dget. now apply I. }
  assert (Pf : Permutation (filter (fun ax => smem ax l) (dkeys (sshape (f_outputs f)))) l).
  { rewrite (wf_keys _ Wo). eapply Permutation_trans; [apply filter_perm; auto; apply Wo|]. rewrite filter_all; [reflexivity|]. intros ax H. now apply smem_In, Ko. }
  destruct (reduce_without identity red (f_outputs f) (filter (fun ax => smem ax l) (dkeys (sshape (f_outputs f)))) false Wo) as (ro & Ero & Wro & Sro & Gro).
  { apply NoDup_filter. now apply wf_nodup. }
  { rewrite (wf_keys _ Wo). apply incl_filter. }
  { destruct Z as [Z|Z]; [now left|right]. rewrite (total_size_perm _ _ _ Pf). 
    assert (Q : forall m, incl m l -> total_size (sshape (f_outputs f)) m = total_size sh m).
    { induction m as [|ax m IH]; intros Hm; [reflexivity|]. unfold total_size in *. cbn [fold_right].
      rewrite (Ho ax) by (apply Hm; now left). rewrite IH; auto. intros y Hy. apply Hm. now right. }
    rewrite Q; auto. apply incl_refl. }
  rewrite Ero. cbn [bind]. exists (mkF ri ro). cbn [f_inputs f_outputs].
  assert (Same : forall (s : shape) k, In k (dkeys s) -> smem k (filter (fun ax => smem ax l) (dkeys s)) = smem k l).
  { intros s k K. destruct (smem k l) eqn:E.
    - apply smem_In, filter_In. auto.
    - apply smem_false. rewrite filter_In. intros [_ Q]. congruence. }
  assert (Wt : forall s : shape, without s (filter (fun ax => smem ax l) (dkeys s)) = without s l).
  { intros s. unfold without. apply filter_ext_in. intros [k v] H. cbn [fst]. f_equal. apply Same. now apply (in_map fst) in H. }
  split; [reflexivity|]. split; [exact Wri|]. split; [exact Wro|]. split; [|split; [|split]].
  - rewrite Sri, Wt, Sc. apply shape_eq.
    + rewrite !dkeys_without, shrunk_keys. reflexivity.
    + rewrite dkeys_without. apply NoDup_filter. now apply wf_nodup.
    + intros ax k H. apply without_In in H as [H Q]. apply in_shrunk in H as (k' & H & ->). apply without_In. split; auto.
      assert (E : smem ax (vertices f l) = false) by (apply smem_false; intros V; apply filter_In in V; now apply Q).
      now rewrite E.
  - rewrite Sro. apply Wt.
  - intros e. rewrite Gro. apply Sr. 
    assert (P2 : Permutation (filter (fun ax => smem ax (filter (fun ax0 => smem ax0 l) (dkeys (sshape (f_outputs f))))) (s_axes (f_outputs f))) l).
    { rewrite <- (wf_keys _ Wo). rewrite (filter_ext_in _ (fun ax => smem ax l)); [exact Pf|]. intros ax H. now apply Same. }
    rewrite (fibre_size_ext sh (sshape (f_outputs f)) l).
    + apply fibre_perm_map; [apply at_vext|apply NoDup_filter, Wo|exact P2].
    + intros ax Hax. unfold size_of. now rewrite (Ho ax Hax).
  - intros e He. rewrite Gri. apply Sm. rewrite <- Sc.
    assert (P2 : Permutation (filter (fun ax => smem ax (filter (fun ax0 => smem ax0 l) (dkeys (sshape c)))) (s_axes c))
                             (filter (fun ax => smem ax (s_axes (f_inputs f))) l)).
    { rewrite <- (wf_keys _ Wc). rewrite (filter_ext_in _ (fun ax => smem ax l)) by (intros ax H; now apply Same).
      rewrite (wf_keys _ Wc), Ac. apply filter_perm; auto. apply Wi. }
    eapply Permutation_trans; [apply fibre_perm_map; [apply at_vext|apply NoDup_filter, Wc|exact P2]|].
    rewrite (map_ext_fibre (at_ c) (middle add mul zero one half f l)); [reflexivity|].
    intros e' H1 H3. unfold middle. apply Gc. intros ax k Hk.
    destruct (smem ax l) eqn:El.
    + assert (K : In ax (filter (fun ax => smem ax (s_axes (f_inputs f))) l)).
      { apply filter_In. split; [now apply smem_In|]. apply smem_In. rewrite <- Ac, <- (wf_keys _ Wc). now apply (in_map fst) in Hk. }
      assert (Q := H3 ax K). now rewrite (size_of_In _ ax k (wf_nodup _ Wc) Hk) in Q.
    + rewrite H1.
      * apply He. rewrite Sri, Wt. apply without_In. split; auto. now apply smem_false.
      * rewrite filter_In. intros [Q _]. apply smem_In in Q. congruence.
Qed.

(** with [keepdims=True] *)
Theorem f_reduce_kept {A B C} (add mul sub : A -> A -> A) (zero one half : A) (mean : list A -> A)
  (identity : bool) (red : list B -> C) (f : farr A B) (l : list string) (sh : shape) :
  wf (f_inputs f) -> wf (f_outputs f) -> compatible f -> f_shape f = Ok sh -> NoDup l -> incl l (dkeys sh) ->
  symmetric red -> (identity = true \/ total_size sh l <> 0) ->
  (forall ax, In ax l -> dget (sshape (f_outputs f)) ax = dget sh ax) ->
  exists o, f_reduce add mul sub zero one half mean identity red f (Some l) true = Ok (mkF (f_inputs f) o) /\
    wf o /\ sshape o = squeezed (sshape (f_outputs f)) l /\
    forall e, at_ o e = red (map (at_ (f_outputs f)) (fibre sh l e)).
Proof.
  intros Wi Wo C0 Es N I Sr Z Ho. unfold f_reduce. rewrite Es. cbn [bind].
  assert (Fb : forallb (fun ax => smem ax (dkeys sh)) l = true).
  { apply forallb_forall. intros ax Hax. now apply smem_In, I. }
  rewrite Fb. cbn [negb bind].
  assert (Ko : incl l (s_axes (f_outputs f))).
  { intros ax Hax. rewrite <- (wf_keys _ Wo). apply key_dget. rewrite (Ho ax Hax). apply key_dget. now apply I. }
  assert (Pf : Permutation (filter (fun ax => smem ax l) (dkeys (sshape (f_outputs f)))) l).
  { rewrite (wf_keys _ Wo). eapply Permutation_trans; [apply filter_perm; auto; apply Wo|]. rewrite filter_all; [reflexivity|]. intros ax H. now apply smem_In, Ko. }
  destruct (reduce_without identity red (f_outputs f) (filter (fun ax => smem ax l) (dkeys (sshape (f_outputs f)))) true Wo) as (ro & Ero & Wro & Sro & Gro).
  { apply NoDup_filter. now apply wf_nodup. }
  { rewrite (wf_keys _ Wo). apply incl_filter. }
  { destruct Z as [Z|Z]; [now left|right]. rewrite (total_size_perm _ _ _ Pf).
    assert (Q : forall m, incl m l -> total_size (sshape (f_outputs f)) m = total_size sh m).
    { induction m as [|ax m IH]; intros Hm; [reflexivity|]. unfold total_size in *. cbn [fold_right].
      rewrite (Ho ax) by (apply Hm; now left). rewrite IH; auto. intros y Hy. apply Hm. now right. }
    rewrite Q; auto. apply incl_refl. }
  rewrite Ero. cbn [bind]. exists ro. split; [reflexivity|]. split; [exact Wro|].
  assert (Same : forall k, In k (dkeys (sshape (f_outputs f))) ->
            smem k (filter (fun ax => smem ax l) (dkeys (sshape (f_outputs f)))) = smem k l).
  { intros k K. destruct (smem k l) eqn:E.
    - apply smem_In, filter_In. auto.
    - apply smem_false. rewrite filter_In. intros [_ Q]. congruence. }
  split.
  - rewrite Sro. unfold squeezed. apply map_ext_in. intros [k v] H. cbn [fst snd]. rewrite Same; auto. now apply (in_map fst) in H.
  - intros e. rewrite Gro. apply Sr.
    assert (P2 : Permutation (filter (fun ax => smem ax (filter (fun ax0 => smem ax0 l) (dkeys (sshape (f_outputs f))))) (s_axes (f_outputs f))) l).
    { rewrite <- (wf_keys _ Wo). rewrite (filter_ext_in _ (fun ax => smem ax l)); [exact Pf|]. intros ax H. now apply Same. }
    rewrite (fibre_size_ext sh (sshape (f_outputs f)) l).
    + apply fibre_perm_map; [apply at_vext|apply NoDup_filter, Wo|exact P2].
    + intros ax Hax. unfold size_of. now rewrite (Ho ax Hax).
Qed.

(** ** One axis of a function *)

Lemma broadcast_axis {A} (a : sarr A) (x : string) (n : nat) : wf a ->
  (forall k, dget (sshape a) x = Some k -> k = 1 \/ k = n) ->
  exists b, na_broadcast_to a [(x, n)] true = Ok b /\ wf b /\
    (forall ax, dget (sshape b) ax = if String.eqb ax x then Some n else dget (sshape a) ax) /\
    forall e, at_ b e = bat a e.
Proof.
  intros W H.
  assert (N : Forall (fun s : shape => NoDup (dkeys s)) [sshape a; [(x, n)]]).
  { constructor; [now apply wf_nodup|]. constructor; [|constructor]. cbn. repeat constructor. intros []. }
  assert (S : forall ax, sizes_of [sshape a; [(x, n)]] ax =
                (match dget (sshape a) ax with Some k => [k] | None => [] end ++ if String.eqb ax x then [n] else [])).
  { intros ax. rewrite sizes2. f_equal. cbn [dget]. now destruct (String.eqb ax x). }
  destruct (broadcast_shapes_total _ N) as [[sh E]|E].
  2:{ exfalso. apply (broadcast_shapes_conflict _ N) in E as (ax & u & v & Hu & Hv & Nuv & Nu & Nv).
      rewrite S in Hu, Hv. destruct (String.eqb_spec ax x) as [-> |_].
      - destruct (dget (sshape a) x) as [k|]; cbn [app In] in Hu, Hv; [destruct (H k eq_refl)|]; intuition lia.
      - destruct (dget (sshape a) ax) as [k|]; cbn [app In] in Hu, Hv; intuition lia. }
  assert (M : na_broadcast_to a [(x, n)] true = na_broadcast_to a sh false)
    by exact (f_equal (fun q => bind q (fun sh => n <- ndarray_aligned a (dkeys sh) ;; r <- broadcast_to n (dvals sh) ;; mk_sarr r (dkeys sh))) E).
  rewrite M. destruct (broadcast_shapes_ok _ _ N E) as (Ns & Ks & Ps).
  assert (D : forall ax, dget sh ax = if String.eqb ax x then Some n else dget (sshape a) ax).
  { intros ax. assert (Q : forall k, dget sh ax = Some k <-> In ax (concat (map dkeys [sshape a; [(x, n)]])) /\ common_size (sizes_of [sshape a; [(x, n)]] ax) k)
      by (intros k; rewrite <- (in_dget sh ax k Ns); apply Ps).
    cbn [map concat] in Q. rewrite S in Q. cbn [dkeys map fst app] in Q. destruct (String.eqb_spec ax x) as [Ex|Nx].
    - subst ax. apply Q. split; [apply in_app_iff; right; now left|].
      destruct (dget (sshape a) x) as [k|]; cbn [app].
      + destruct (H k eq_refl) as [-> | ->]; (split; [intros q [<- |[<- |[]]]; auto|intros Z; apply Z; right; now left]).
      + split; [intros q [<- |[]]; auto|intros Z; apply Z; now left].
    - destruct (dget (sshape a) ax) as [k|] eqn:Ek; cbn [app] in Q.
      + apply Q. split; [apply in_app_iff; left; apply key_dget; now exists k|].
        split; [intros q [<- |[]]; auto|intros Z; apply Z; now left].
      + destruct (dget sh ax) as [k|]; auto. destruct (proj1 (Q k) eq_refl) as [Z _]. exfalso.
        apply in_app_iff in Z as [Z|[Z|[]]]; [|congruence]. apply key_dget in Z as [k' Ek']. congruence. }
  destruct (fits_spread_any a sh W Ns) as (b & Eb & Wb & Sb & Gb).
  { intros ax k Hk. apply (in_dget _ _ _ (wf_nodup _ W)) in Hk. destruct (String.eqb_spec ax x) as [-> |Nx].
    - exists n. split; [apply dget_In; now rewrite D, String.eqb_refl|]. now apply H.
    - exists k. split; [apply dget_In; rewrite D; destruct (String.eqb_spec ax x); [contradiction|exact Hk]|now right]. }
  exists b. split; [exact Eb|]. split; [exact Wb|]. split; [|exact Gb].
  intros ax. now rewrite Sb.
Qed.

Lemma points_outputs {A B} (f : farr A B) ax n k : compatible f -> points f ax = Some n -> dget (sshape (f_outputs f)) ax = Some k -> k = 1 \/ k = n.
Proof.
  unfold points. intros C P E. rewrite E in P. destruct (dget (sshape (f_inputs f)) ax) as [m|]; [|right; congruence].
  destruct (Nat.eqb_spec m (S k)); [right; congruence|]. destruct (Nat.eqb_spec k 1); [now left|right; congruence].
Qed.

Lemma points_inputs {A B} (f : farr A B) ax n k : compatible f -> binned f ax = false -> points f ax = Some n ->
  dget (sshape (f_inputs f)) ax = Some k -> k = 1 \/ k = n.
Proof.
  unfold points, binned. intros C V P E. rewrite E in P, V. destruct (dget (sshape (f_outputs f)) ax) as [m|] eqn:Em; [|right; congruence].
  rewrite V in P. apply Nat.eqb_neq in V. destruct (C ax m k (dget_In _ _ _ Em) (dget_In _ _ _ E)) as [-> |[Q|[-> | ->]]]; auto.
  - right. injection P as <-. destruct (Nat.eqb_spec m 1); auto.
  - contradiction.
  - right. now injection P as <-.
Qed.

Theorem f_cumulative_spec {A B C} (scan : list B -> C) (f : farr A B) (x : string) (sh : shape) (n : nat) :
  wf (f_inputs f) -> wf (f_outputs f) -> compatible f -> f_shape f = Ok sh -> In (x, n) sh ->
  exists o, f_cumulative scan f (Some [x]) = Ok (mkF (f_inputs f) o) /\ wf o /\
    (forall ax k, In (ax, k) (sshape o) <-> if String.eqb ax x then k = n else In (ax, k) (sshape (f_outputs f))) /\
    forall e, inside e (sshape o) ->
      at_ o e = scan (map (fun j => bat (f_outputs f) (set_env e x j)) (seq 0 (S (e x)))).
Proof.
  intros Wi Wo C0 Es Hx. destruct (f_shape_gen f Wi Wo C0) as (sh' & Es' & Nsh & Ps). assert (sh' = sh) by congruence. subst sh'. clear Es'.
  unfold f_cumulative. rewrite Es. cbn [bind]. assert (Dx := proj1 (in_dget sh x n Nsh) Hx). rewrite Dx.
  destruct (broadcast_axis (f_outputs f) x n Wo) as (b & Eb & Wb & Db & Gb).
  { intros k Ek. apply (points_outputs f x n k C0); auto. now rewrite <- Ps. }
  rewrite Eb. cbn [bind].
  assert (Kx : In x (s_axes b)) by (rewrite <- (wf_keys b Wb); apply key_dget; exists n; now rewrite Db, String.eqb_refl).
  destruct (cumulative_spec scan false b (Some [x]) Wb) as [Cs _]. destruct (Cs x eq_refl Kx) as (o & Eo & W & So & Go).
  rewrite Eo. cbn [bind]. exists o. split; [reflexivity|]. split; [exact W|].
  assert (Sz : size_of (sshape b) x = n) by (unfold size_of; now rewrite Db, String.eqb_refl).
  assert (So' : sshape o = sshape b).
  { rewrite So, Sz, Nat.add_0_r. apply resized_same; [now rewrite Db, String.eqb_refl|now apply wf_nodup]. }
  split.
  - intros ax k. rewrite So', (in_dget _ _ _ (wf_nodup _ Wb)), Db. destruct (String.eqb ax x); [split; congruence|].
    symmetry. apply in_dget. now apply wf_nodup.
  - intros e He. rewrite Go. f_equal. unfold line. rewrite Sz, firstn_map. 
    assert (L : e x < n).
    { apply He. rewrite So'. apply dget_In. now rewrite Db, String.eqb_refl. }
    assert (Fs : firstn (e x + 1) (seq 0 n) = seq 0 (S (e x))).
    { replace n with (S (e x) + (n - S (e x))) by lia. rewrite seq_app. replace (e x + 1) with (S (e x)) by lia.
      rewrite <- (seq_length (S (e x)) 0) at 1. now rewrite firstn_app, Nat.sub_diag, firstn_O, app_nil_r, firstn_all. }
    rewrite Fs. apply map_ext. intros j. apply Gb.
Qed.

Lemma f_cumulative_axis {A B C} (scan : list B -> C) (f : farr A B) (sh : shape) (l : list string) :
  f_shape f = Ok sh ->
  (length l <> 1 -> f_cumulative scan f (Some l) = Err ValueError) /\
  (forall x, l = [x] -> ~ In x (dkeys sh) -> f_cumulative scan f (Some l) = Err KeyError) /\
  f_cumulative scan f None = f_cumulative scan f (Some (dkeys sh)).
Proof.
  intros E. unfold f_cumulative. rewrite E. cbn [bind]. split; [|split].
  - intros L. destruct l as [|x [|y l]]; try reflexivity. simpl in L. lia.
  - intros x -> H. apply dget_None in H. now rewrite H.
  - reflexivity.
Qed.
