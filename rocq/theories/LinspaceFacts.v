(** Facts about [na.step] and [na.linspace] (Interp.v). *)
From Coq Require Import String List Arith ZArith QArith Qround Qcanon Bool Lia Permutation.
From Verif Require Import Base BaseFacts Numpy NumpyFacts Shapes Scalar Reorder Elementwise Sorting Derived Interp Spec SpecDerived SpecNumeric.
From Verif Require Import ShapesFacts AlignFacts GetitemFacts ReorderFacts AlongFacts SortingFacts DerivedFacts CenterFacts.
Import ListNotations.
Open Scope nat_scope.
Open Scope list_scope.

(** ** Operands that together have a given shape *)

Definition attained (l : list shape) (sh : shape) : Prop :=
  (forall s, In s l -> NoDup (dkeys s) /\ covered s sh) /\
  (forall ax n, In (ax, n) sh -> exists s, In s l /\ In (ax, n) s).

Lemma bs_attained l sh : NoDup (dkeys sh) -> attained l sh ->
  exists r, broadcast_shapes l = Ok r /\ NoDup (dkeys r) /\ same_shape r sh.
Proof.
  intros N [H1 H2].
  assert (F : Forall (fun s : shape => NoDup (dkeys s)) l) by (apply Forall_forall; intros s Hs; now apply H1).
  assert (SZ : forall ax n m, In (ax, n) sh -> In m (sizes_of l ax) -> m = 1 \/ m = n).
  { intros ax n m Hn Hm. unfold sizes_of in Hm. apply in_flat_map in Hm as [s [Hs Hm]].
    destruct (dget s ax) as [k|] eqn:E; [|destruct Hm]. destruct Hm as [->|[]]. apply dget_In in E.
    destruct (proj2 (H1 s Hs) _ _ E) as [_ [->|H3]]; auto. right.
    apply (dget_NoDup _ _ _ N) in H3. apply (dget_NoDup _ _ _ N) in Hn. congruence. }
  assert (AT : forall ax n, In (ax, n) sh -> In n (sizes_of l ax)).
  { intros ax n Hn. destruct (H2 ax n Hn) as [s [Hs Hin]]. unfold sizes_of. apply in_flat_map. exists s. split; auto.
    rewrite (dget_NoDup _ _ _ (proj1 (H1 s Hs)) Hin). simpl. auto. }
  assert (KS : forall ax n, In n (sizes_of l ax) -> exists m, In (ax, m) sh).
  { intros ax n Hm. unfold sizes_of in Hm. apply in_flat_map in Hm as [s [Hs Hm]].
    destruct (dget s ax) as [k|] eqn:E; [|destruct Hm]. apply dget_In in E.
    destruct (proj2 (H1 s Hs) _ _ E) as [H3 _]. apply in_map_iff in H3 as [[x m] [Ex H3]]. simpl in Ex. subst. eauto. }
  destruct (broadcast_shapes_total l F) as [[r E]|E].
  - exists r. destruct (broadcast_shapes_ok l r F E) as (ND & K & S). split; auto. split; auto.
    intros ax n. rewrite S. split.
    + intros [Hk [C1 C2]]. apply in_concat in Hk as [ks [Hks Hk]]. apply in_map_iff in Hks as [s [<- Hs]].
      apply in_map_iff in Hk as [[x k] [Ex Hk]]. simpl in Ex. subst x.
      assert (In k (sizes_of l ax)).
      { unfold sizes_of. apply in_flat_map. exists s. split; auto. rewrite (dget_NoDup _ _ _ (proj1 (H1 s Hs)) Hk). simpl. auto. }
      destruct (KS _ _ H) as [m Hm]. assert (Hm' := AT _ _ Hm). destruct (C1 _ Hm') as [->| ->]; auto.
      rewrite C2; auto. intros q Hq. destruct (SZ _ _ _ Hm Hq); auto.
    + intros Hn. split.
      * destruct (H2 ax n Hn) as [s [Hs Hin]]. apply in_concat. exists (dkeys s). split; [now apply in_map|].
        now apply (in_map fst) in Hin.
      * split; eauto.
  - exfalso. apply broadcast_shapes_conflict in E as (ax & n & m & Hn & Hm & H3 & H4 & H5); auto.
    destruct (KS _ _ Hn) as [k Hk]. destruct (SZ _ _ _ Hk Hn), (SZ _ _ _ Hk Hm); congruence.
Qed.

Definition ops_attain {A} (l : list (operand A)) (sh : shape) : Prop :=
  NoDup (dkeys sh) /\ Forall op_wf l /\ (forall o, In o l -> covered (op_shape o) sh) /\
  (forall ax n, In (ax, n) sh -> exists o, In o l /\ In (ax, n) (op_shape o)).

Lemma ops_attain_ok {A} (l : list (operand A)) sh : ops_attain l sh ->
  exists r, shape_broadcasted l = Ok r /\ NoDup (dkeys r) /\ same_shape r sh.
Proof.
  intros (N & W & C & T). apply bs_attained; auto. split.
  - intros s Hs. unfold op_shapes in Hs. apply in_flat_map in Hs as [o [Ho Hs]].
    destruct o as [a|x]; [|destruct Hs]. destruct Hs as [<-|[]]. split; [|apply (C _ Ho)].
    rewrite Forall_forall in W. apply wf_nodup. apply (W _ Ho).
  - intros ax n Hn. destruct (T _ _ Hn) as [o [Ho Hin]]. destruct o as [a|x]; [|destruct Hin].
    exists (sshape a). split; auto. now apply in_op_shapes.
Qed.

Lemma ufunc_attained {A B} (f : list A -> B) l sh : ops_attain l sh ->
  exists r, array_ufunc f l = Ok r /\ wf r /\ same_shape (sshape r) sh /\
    forall e, at_ r e = f (map (fun o => op_at o e) l).
Proof.
  intros H. destruct (ops_attain_ok l sh H) as [r (E & N & S)]. destruct H as (_ & W & _).
  destruct (array_ufunc_ok f l r W E) as [x (H1 & H2 & H3 & H4)]. exists x. rewrite H3. auto.
Qed.

Lemma same_shape_covered s t : same_shape s t -> covered s t.
Proof. intros H ax n Hn. apply H in Hn. split; auto. now apply (in_map fst) in Hn. Qed.

Lemma same_shape_inside s t e : same_shape s t -> inside e t -> inside e s.
Proof. intros H He ax n Hn. apply He, H, Hn. Qed.

Lemma op_same_at {A} (a : sarr A) sh e : wf a -> same_shape (sshape a) sh -> inside e sh -> bat a e = at_ a e.
Proof. intros W S H. apply bat_inside; auto. eapply same_shape_inside; eauto. Qed.

Lemma op_bin_attained f (x y : operand Qc) sh : ops_attain [x; y] sh ->
  exists r, op_bin f x y = Ok r /\ op_wf r /\ same_shape (op_shape r) sh /\
    forall e, inside e sh -> op_at r e = f (op_at x e) (op_at y e).
Proof.
  intros H. destruct (ufunc_attained (bin f (qz 0)) _ _ H) as [r (E & W & S & G)].
  destruct H as (N & _ & _ & T).
  unfold op_bin. destruct x as [a|a], y as [b|b].
  4:{ eexists. split; [reflexivity|]. split; [exact I|]. split; [|auto].
      intros ax n. split; [intros []|]. intros Hn. destruct (T _ _ Hn) as [o [[<-|[<-|[]]] []]]. }
  all: rewrite E; cbn [bind]; eexists; split; [reflexivity|]; split; [exact W|]; split; [exact S|];
    intros e He; cbn [op_at]; rewrite (op_same_at r sh e W S He), G; reflexivity.
Qed.

Lemma attain_left {A} (x y : operand A) sh : NoDup (dkeys sh) -> op_wf x -> op_wf y -> same_shape (op_shape x) sh ->
  covered (op_shape y) sh -> ops_attain [x; y] sh.
Proof.
  intros N Wx Wy S C. split; auto. split; [constructor; auto|]. split.
  - intros o [<-|[<-|[]]]; auto. now apply same_shape_covered.
  - intros ax n Hn. exists x. simpl. split; auto. now apply S.
Qed.

Lemma attain_right {A} (x y : operand A) sh : NoDup (dkeys sh) -> op_wf x -> op_wf y -> same_shape (op_shape y) sh ->
  covered (op_shape x) sh -> ops_attain [x; y] sh.
Proof.
  intros N Wx Wy S C. split; auto. split; [constructor; auto|]. split.
  - intros o [<-|[<-|[]]]; auto. now apply same_shape_covered.
  - intros ax n Hn. exists y. simpl. split; auto. now apply S.
Qed.

Lemma covered_nil sh : covered [] sh.
Proof. intros ax n []. Qed.

(** two operands that broadcast *)
Lemma broadcast_attain {A} (x y : operand A) sh : op_wf x -> op_wf y ->
  broadcast_shapes [op_shape x; op_shape y] = Ok sh -> ops_attain [x; y] sh.
Proof.
  intros Wx Wy E.
  assert (Nx : forall o : operand A, op_wf o -> NoDup (dkeys (op_shape o))).
  { intros [a|a] W; [now apply wf_nodup|constructor]. }
  assert (F : Forall (fun s : shape => NoDup (dkeys s)) [op_shape x; op_shape y]) by (repeat constructor; auto).
  destruct (broadcast_shapes_ok _ _ F E) as (ND & K & S). split; auto. split; [constructor; auto|].
  assert (SZ : forall o ax n, In o [x; y] -> In (ax, n) (op_shape o) ->
    In n (sizes_of [op_shape x; op_shape y] ax) /\ In ax (concat (map dkeys [op_shape x; op_shape y]))).
  { intros o ax n Ho Hn. assert (Hs : In (op_shape o) [op_shape x; op_shape y]) by (destruct Ho as [<-|[<-|[]]]; simpl; auto).
    split.
    - unfold sizes_of. apply in_flat_map. exists (op_shape o). split; auto.
      rewrite (dget_NoDup _ _ n); simpl; auto. apply Nx. destruct Ho as [<-|[<-|[]]]; auto.
    - apply in_concat. exists (dkeys (op_shape o)). split; [now apply in_map|]. now apply (in_map fst) in Hn. }
  split.
  - intros o Ho ax n Hn. destruct (SZ o ax n Ho Hn) as [H1 H2].
    assert (Hk : In ax (dkeys sh)) by (rewrite K; now apply (proj2 (first_appearance_In _ _))).
    split; auto. apply in_map_iff in Hk as [[ax' k] [Ek Hk]]. simpl in Ek. subst ax'.
    assert (Hk' := Hk). apply S in Hk as [_ [C _]]. destruct (C _ H1) as [->| ->]; auto.
  - intros ax n Hn. assert (Hn' := Hn). apply S in Hn as [Hk [C1 C2]].
    destruct (dget (op_shape x) ax) as [p|] eqn:Ep, (dget (op_shape y) ax) as [q|] eqn:Eq.
    + assert (Ip := dget_In _ _ _ Ep). assert (Iq := dget_In _ _ _ Eq).
      destruct (C1 p) as [->| ->]; [apply (SZ x); simpl; auto| |exists x; simpl; auto].
      destruct (C1 q) as [->| ->]; [apply (SZ y); simpl; auto| |exists y; simpl; auto].
      exists x. simpl. split; auto. rewrite C2; auto. intros m Hm. unfold sizes_of in Hm. cbn [flat_map app] in Hm.
      rewrite Ep, Eq in Hm. simpl in Hm. intuition.
    + assert (Ip := dget_In _ _ _ Ep). exists x. simpl. split; auto.
      destruct (C1 p) as [->| ->]; [apply (SZ x); simpl; auto| |auto].
      rewrite C2; auto. intros m Hm. unfold sizes_of in Hm. cbn [flat_map app] in Hm. rewrite Ep, Eq in Hm. simpl in Hm. intuition.
    + assert (Iq := dget_In _ _ _ Eq). exists y. simpl. split; auto.
      destruct (C1 q) as [->| ->]; [apply (SZ y); simpl; auto| |auto].
      rewrite C2; auto. intros m Hm. unfold sizes_of in Hm. cbn [flat_map app] in Hm. rewrite Ep, Eq in Hm. simpl in Hm. intuition.
    + exfalso. simpl in Hk. rewrite app_nil_r in Hk. apply in_app_iff in Hk as [Hk|Hk];
        apply dget_Some_key in Hk as [m Hm]; congruence.
Qed.

(** ** Numbers *)

Lemma qz_add a b : qz (a + b) = (qz a + qz b)%Qc.
Proof.
  apply Qc_is_canon. change (Qred (inject_Z (a + b)) == Qred (Qred (inject_Z a) + Qred (inject_Z b))).
  rewrite !Qred_correct, inject_Z_plus. reflexivity.
Qed.

Lemma qz_inj a b : qz a = qz b -> a = b.
Proof.
  intros H. apply (f_equal this) in H. change (Qred (inject_Z a) = Qred (inject_Z b)) in H.
  assert (H' : inject_Z a == inject_Z b) by (rewrite <- Qred_correct, H; apply Qred_correct).
  unfold Qeq, inject_Z in H'. simpl in H'. lia.
Qed.

Lemma qz_nonzero z : z <> 0%Z -> qz z <> qz 0.
Proof. intros H E. now apply qz_inj in E. Qed.

(** ** step *)

Section Linspace.
Variables (start stop : operand Qc) (sh : shape).
Hypotheses (Ws : op_wf start) (Wt : op_wf stop) (SH : broadcast_shapes [op_shape start; op_shape stop] = Ok sh).

Definition divisions (num : Z) (endpoint centers : bool) : Z :=
  (num - (if endpoint then 1 else 0) + (if centers then 1 else 0))%Z.

Lemma attain_both : ops_attain [start; stop] sh.
Proof. now apply broadcast_attain. Qed.

Lemma attain_swap {A} (x y : operand A) s : ops_attain [x; y] s -> ops_attain [y; x] s.
Proof.
  intros (N & W & C & T). split; auto. inversion W as [|? ? W1 W2]; subst. inversion W2; subst.
  split; [constructor; auto|]. split.
  - intros o Ho. apply C. simpl in *. tauto.
  - intros ax n Hn. destruct (T _ _ Hn) as [o [Ho Hi]]. exists o. split; auto. simpl in *. tauto.
Qed.

Theorem step_spec num endpoint centers : divisions num endpoint centers <> 0%Z ->
  exists h, na_step start stop num endpoint centers = Ok h /\ op_wf h /\ same_shape (op_shape h) sh /\
    forall e, inside e sh -> op_at h e = ((op_at stop e - op_at start e) / qz (divisions num endpoint centers))%Qc.
Proof.
  intros H. assert (N : NoDup (dkeys sh)) by apply attain_both.
  destruct (op_bin_attained Qcminus stop start sh (attain_swap _ _ _ attain_both)) as [d (E1 & W1 & S1 & G1)].
  destruct (op_bin_attained Qcdiv d (OpNum (qz (divisions num endpoint centers))) sh) as [h (E2 & W2 & S2 & G2)].
  { apply attain_left; auto. exact I. apply covered_nil. }
  exists h. unfold na_step. rewrite E1. cbn [bind].
  replace (if centers then ((if endpoint then num - 1 else num) + 1)%Z else (if endpoint then num - 1 else num)%Z)
    with (divisions num endpoint centers) by (unfold divisions; destruct endpoint, centers; lia).
  rewrite (proj2 (Z.eqb_neq _ _) H). split; auto. split; auto. split; auto.
  intros e He. now rewrite G2, G1.
Qed.

End Linspace.

(** ** np.linspace *)

Lemma op_at_normalize {A} (o : operand A) e : op_at (OpArr (normalize o)) e = op_at o e.
Proof. destruct o; auto. Qed.

Lemma normalize_wf {A} (o : operand A) : op_wf o -> wf (normalize o).
Proof. destruct o; auto. intros _. split; [constructor|reflexivity]. Qed.

Lemma normalize_shape {A} (o : operand A) : sshape (normalize o) = op_shape o.
Proof. destruct o; auto. Qed.

Lemma last_app_single {A} (l : list A) x d : last (l ++ [x]) d = x.
Proof. induction l as [|y l IH]; auto. simpl. destruct (l ++ [x]) eqn:E; auto. destruct l; discriminate. Qed.

Lemma combine_snoc {A B} (l : list A) (l' : list B) x y : length l = length l' ->
  combine (l ++ [x]) (l' ++ [y]) = combine l l' ++ [(x, y)].
Proof. revert l'. induction l as [|a l IH]; intros [|b l'] H; try discriminate; auto. simpl. now rewrite IH by auto. Qed.

Theorem sequence_spec (start stop : operand Qc) axis (num : nat) endpoint sh :
  ops_attain [start; stop] sh -> ~ In axis (dkeys sh) ->
  exists r, sequence_linspace start stop axis (Z.of_nat num) endpoint = Ok r /\ wf r /\
    same_shape (sshape r) (sh ++ [(axis, num)]) /\
    forall e, at_ r e = lin1 (op_at start e) (op_at stop e) num endpoint (e axis).
Proof.
  intros H NI. assert (H' : ops_attain [OpArr (normalize start); OpArr (normalize stop)] sh).
  { destruct H as (N & W & C & T). inversion W as [|? ? W1 W2]; subst. inversion W2; subst.
    split; auto. split; [constructor; [|constructor]; auto; now apply normalize_wf|]. split.
    - intros o [<-|[<-|[]]]; cbn [op_shape]; rewrite normalize_shape; apply C; simpl; auto.
    - intros ax n Hn. destruct (T _ _ Hn) as [o [[<-|[<-|[]]] Hi]];
        [exists (OpArr (normalize start))|exists (OpArr (normalize stop))]; cbn [op_shape]; rewrite normalize_shape; simpl; auto. }
  destruct (ops_attain_ok _ _ H') as [sh' (E & N & S)].
  destruct H' as (_ & W' & _).
  destruct (ops_aligned _ sh' W' E) as [ND [ns (E1 & E2 & E3 & E4)]].
  unfold sequence_linspace. rewrite E. cbn [bind].
  cbn [mapM op_aligned] in E1.
  destruct (ndarray_aligned (normalize start) (dkeys sh')) as [s'|]; [|discriminate].
  destruct (ndarray_aligned (normalize stop) (dkeys sh')) as [t'|]; [|discriminate].
  cbn [bind] in E1. injection E1 as <-. cbn [bind map] in *.
  unfold np_linspace. replace (Z.of_nat num <? 0)%Z with false by (symmetry; apply Z.ltb_ge; lia).
  rewrite E3. cbn [bind]. rewrite Nat2Z.id.
  assert (Hk : ~ In axis (dkeys sh')).
  { intros Hk. apply NI. apply (same_shape_keys _ _ S). auto. }
  rewrite mk_sarr_intro.
  - eexists. split; [reflexivity|]. split; [|split].
    + split; cbn [s_axes s_nd nshape].
      * apply NoDup_app_intro; auto; [repeat constructor; auto|]. intros x Hx [<-|[]]; auto.
      * unfold dkeys, dvals. rewrite !app_length, !map_length. reflexivity.
    + unfold sshape. cbn [s_axes s_nd nshape]. rewrite combine_snoc by (unfold dkeys, dvals; now rewrite !map_length).
      rewrite combine_dkeys_dvals. intros ax n. rewrite !in_app_iff. rewrite (S ax n). tauto.
    + intros e. unfold at_. cbn [s_axes s_nd nget]. rewrite map_app. cbn [map].
      rewrite removelast_last, last_app_single.
      specialize (E4 e). injection E4 as E5 E6. rewrite E5, E6.
      change (bat (normalize start) e) with (op_at (OpArr (normalize start)) e).
      change (bat (normalize stop) e) with (op_at (OpArr (normalize stop)) e). now rewrite !op_at_normalize.
  - apply NoDup_app_intro; auto; [repeat constructor; auto|]. intros x Hx [<-|[]]; auto.
  - cbn [nshape]. unfold dkeys, dvals. rewrite !app_length, !map_length. reflexivity.
Qed.

(** ** linspace *)

(** the spacing of the samples between [s] and [t] *)
Definition spacing (s t : Qc) (num : Z) (endpoint centers : bool) : Qc :=
  ((t - s) / qz (divisions num endpoint centers))%Qc.

Lemma qz_sub a b : qz (a - b) = (qz a - qz b)%Qc.
Proof. replace a with ((a - b) + b)%Z at 2 by lia. rewrite qz_add. ring. Qed.

Lemma lin1_edges s t num endpoint i : i < num -> (endpoint = true -> num <> 1) ->
  lin1 s t num endpoint i = (s + qz (Z.of_nat i) * spacing s t (Z.of_nat num) endpoint false)%Qc.
Proof.
  intros Hi H1. unfold lin1, spacing, divisions.
  assert (D : forall k : nat, k <> 0 -> qz (Z.of_nat k) <> Q2Qc 0) by (intros k Hk; apply (qz_nonzero (Z.of_nat k)); lia).
  destruct endpoint; cbn [andb].
  - specialize (H1 eq_refl). replace (Z.of_nat num - 1 + 0)%Z with (Z.of_nat (num - 1)) by lia.
    destruct (1 <? num) eqn:E1; [|apply Nat.ltb_ge in E1; lia]. cbn [andb].
    assert (D1 := D (num - 1) ltac:(lia)).
    destruct (Nat.eqb_spec i (num - 1)) as [->|E2].
    + field. auto.
    + replace (num - 1 =? 0) with false by (symmetry; apply Nat.eqb_neq; lia). field. auto.
  - replace (Z.of_nat num - 0 + 0)%Z with (Z.of_nat num) by lia. assert (D1 := D num ltac:(lia)).
    replace (num =? 0) with false by (symmetry; apply Nat.eqb_neq; lia). field. auto.
Qed.

Lemma lin1_single s t : lin1 s t 1 true 0 = s.
Proof. unfold lin1. cbn [andb Nat.ltb Nat.leb Nat.sub Nat.eqb Z.of_nat]. change (qz 0) with (Q2Qc 0). ring. Qed.

Lemma lin1_centers s t num endpoint i : i < num ->
  let h := spacing s t (Z.of_nat num) endpoint true in
  lin1 (s + h / qz 2)%Qc (t - h / qz 2)%Qc num endpoint i = (s + h / qz 2 + qz (Z.of_nat i) * h)%Qc.
Proof.
  intros Hi h. assert (T : qz 2 <> Q2Qc 0) by now apply (qz_nonzero 2).
  change (qz 2) with (qz (1 + 1)) in *. rewrite (qz_add 1 1) in *. change (qz 1) with (Q2Qc 1) in *.
  destruct (Nat.eq_dec num 1) as [->|N1].
  - assert (i = 0) by lia. subst i. change (qz (Z.of_nat 0)) with (Q2Qc 0). destruct endpoint.
    + rewrite lin1_single. ring.
    + unfold lin1. cbn. change (qz 0) with (Q2Qc 0). ring.
  - rewrite lin1_edges by auto. unfold h, spacing, divisions. destruct endpoint.
    + replace (Z.of_nat num - 1 + 0)%Z with (Z.of_nat num - 1)%Z by lia.
      replace (Z.of_nat num - 1 + 1)%Z with (Z.of_nat num) by lia.
      assert (D1 : qz (Z.of_nat num - 1) <> Q2Qc 0) by (apply (qz_nonzero (Z.of_nat num - 1)); lia).
      assert (D2 : qz (Z.of_nat num) <> Q2Qc 0) by (apply (qz_nonzero (Z.of_nat num)); lia).
      rewrite qz_sub in *. change (qz 1) with (Q2Qc 1) in *. field. auto.
    + replace (Z.of_nat num - 0 + 0)%Z with (Z.of_nat num) by lia.
      replace (Z.of_nat num - 0 + 1)%Z with (Z.of_nat num + 1)%Z by lia.
      assert (D1 : qz (Z.of_nat num + 1) <> Q2Qc 0) by (apply (qz_nonzero (Z.of_nat num + 1)); lia).
      assert (D2 : qz (Z.of_nat num) <> Q2Qc 0) by (apply (qz_nonzero (Z.of_nat num)); lia).
      rewrite qz_add in *. change (qz 1) with (Q2Qc 1) in *. field. auto.
Qed.

Lemma piece_spacing s t num endpoint centers : piece s t num endpoint centers = spacing s t (Z.of_nat num) endpoint centers.
Proof. reflexivity. Qed.

Section Main.
Variables (start stop : operand Qc) (sh : shape) (axis : string).
Hypotheses (Ws : op_wf start) (Wt : op_wf stop) (SH : broadcast_shapes [op_shape start; op_shape stop] = Ok sh)
  (NI : ~ In axis (dkeys sh)).

Lemma in_snoc_shape (r : sarr Qc) num e : same_shape (sshape r) (sh ++ [(axis, num)]) -> inside e (sshape r) ->
  inside e sh /\ e axis < num.
Proof.
  intros S He. split.
  - intros ax n Hn. apply He, S, in_or_app. auto.
  - apply He, S, in_or_app. right. simpl. auto.
Qed.

Theorem linspace_edges (num : nat) endpoint :
  exists r, na_linspace start stop axis (Z.of_nat num) endpoint false = Ok r /\ wf r /\
    same_shape (sshape r) (sh ++ [(axis, num)]) /\
    forall e, inside e (sshape r) ->
      (pieces num endpoint false = 0%Z -> at_ r e = op_at start e) /\
      (pieces num endpoint false <> 0%Z ->
       at_ r e = (op_at start e + qnat (e axis) * piece (op_at start e) (op_at stop e) num endpoint false)%Qc).
Proof.
  destruct (sequence_spec start stop axis num endpoint sh (attain_both _ _ _ Ws Wt SH) NI) as [r (E & W & S & G)].
  exists r. split; auto. split; auto. split; auto. intros e He. destruct (in_snoc_shape r num e S He) as [H1 H2].
  rewrite G. unfold pieces. split; intros HP.
  - assert (num = 1 /\ endpoint = true) as [-> ->] by (destruct endpoint; split; auto; lia).
    replace (e axis) with 0 by lia. apply lin1_single.
  - rewrite lin1_edges; auto. intros -> ->. apply HP. reflexivity.
Qed.

Theorem linspace_centers (num : nat) endpoint : pieces num endpoint true <> 0%Z ->
  exists r, na_linspace start stop axis (Z.of_nat num) endpoint true = Ok r /\ wf r /\
    same_shape (sshape r) (sh ++ [(axis, num)]) /\
    forall e, inside e (sshape r) ->
      at_ r e = (op_at start e + (qnat (e axis) + half) * piece (op_at start e) (op_at stop e) num endpoint true)%Qc.
Proof.
  intros HP. assert (N : NoDup (dkeys sh)) by apply (attain_both _ _ _ Ws Wt SH).
  destruct (attain_both _ _ _ Ws Wt SH) as (_ & _ & C & _).
  destruct (step_spec start stop sh Ws Wt SH (Z.of_nat num) endpoint true HP) as [h (E1 & W1 & S1 & G1)].
  destruct (op_bin_attained Qcdiv h (OpNum (qz 2)) sh) as [h2 (E2 & W2 & S2 & G2)].
  { apply attain_left; auto. exact I. apply covered_nil. }
  destruct (op_bin_attained Qcplus start h2 sh) as [st (E3 & W3 & S3 & G3)].
  { apply attain_right; auto. apply C. simpl; auto. }
  destruct (op_bin_attained Qcminus stop h2 sh) as [sp (E4 & W4 & S4 & G4)].
  { apply attain_right; auto. apply C. simpl; auto. }
  destruct (sequence_spec st sp axis num endpoint sh) as [r (E & W & S & G)]; auto.
  { apply attain_left; auto. now apply same_shape_covered. }
  exists r. unfold na_linspace. rewrite E1. cbn [bind]. rewrite E2. cbn [bind]. rewrite E3. cbn [bind]. rewrite E4. cbn [bind].
  split; auto. split; auto. split; auto. intros e He. destruct (in_snoc_shape r num e S He) as [H1 H2].
  rewrite G, G3, G4, G2, G1 by auto.
  change ((op_at stop e - op_at start e) / qz (divisions (Z.of_nat num) endpoint true))%Qc
    with (spacing (op_at start e) (op_at stop e) (Z.of_nat num) endpoint true).
  rewrite lin1_centers by auto. rewrite <- piece_spacing.
  change (qz (Z.of_nat (e axis))) with (qnat (e axis)). unfold half. change (qint 2) with (qz 2).
  assert (T : qz 2 <> Q2Qc 0) by now apply (qz_nonzero 2). field. auto.
Qed.

Lemma same_shape_trans s t u : same_shape s t -> same_shape t u -> same_shape s u.
Proof. intros H1 H2 ax n. rewrite (H1 ax n). apply H2. Qed.

Theorem linspace_step (num : nat) endpoint centers r : 2 <= num ->
  na_linspace start stop axis (Z.of_nat num) endpoint centers = Ok r ->
  exists h, na_step start stop (Z.of_nat num) endpoint centers = Ok h /\
    forall e, inside e (sshape r) -> S (e axis) < num ->
      (at_ r (set_env e axis (S (e axis))) - at_ r e)%Qc = op_at h e.
Proof.
  intros Hn Hr. assert (HP : pieces num endpoint centers <> 0%Z) by (unfold pieces; destruct endpoint, centers; lia).
  destruct (step_spec start stop sh Ws Wt SH (Z.of_nat num) endpoint centers HP) as [h (E1 & W1 & S1 & G1)].
  exists h. split; auto. intros e He Hlt.
  assert (K : forall e', inside e' (sshape r) -> exists c, at_ r e' =
    (op_at start e' + (qnat (e' axis) + c) * piece (op_at start e') (op_at stop e') num endpoint centers)%Qc /\ c = if centers then half else Q2Qc 0).
  { destruct centers.
    - destruct (linspace_centers num endpoint HP) as [r' (E & W & S & G)]. assert (r' = r) by congruence. subst r'.
      intros e' He'. exists half. split; auto.
    - destruct (linspace_edges num endpoint) as [r' (E & W & S & G)]. assert (r' = r) by congruence. subst r'.
      intros e' He'. exists (Q2Qc 0). split; auto. rewrite (proj2 (G e' He') HP). f_equal. f_equal. ring. }
  assert (SS : wf r /\ same_shape (sshape r) (sh ++ [(axis, num)])).
  { destruct centers; [destruct (linspace_centers num endpoint HP) as [r' (E & W & S & G)]
                      |destruct (linspace_edges num endpoint) as [r' (E & W & S & G)]]; assert (r' = r) by congruence; subst r'; auto. }
  destruct SS as [W S].
  destruct (in_snoc_shape r num e S He) as [H1 H2].
  assert (He' : inside (set_env e axis (Datatypes.S (e axis))) (sshape r)).
  { intros ax n Hi. unfold set_env. destruct (String.eqb_spec ax axis) as [->|Hx]; [|now apply He].
    apply S in Hi. apply in_app_iff in Hi as [Hi|[Hi|[]]]; [|injection Hi as <-; auto].
    exfalso. apply NI. now apply (in_map fst) in Hi. }
  destruct (K _ He) as [c [-> Hc]], (K _ He') as [c' [-> Hc']]. rewrite <- Hc in Hc'. subst c'.
  assert (X : forall o : operand Qc, op_wf o -> covered (op_shape o) sh ->
    op_at o (set_env e axis (Datatypes.S (e axis))) = op_at o e).
  { intros [a|x] Wa Ca; auto. cbn [op_at]. apply bat_ext; auto. intros ax Hax. unfold set_env.
    destruct (String.eqb_spec ax axis) as [->|Hx]; auto. exfalso. apply NI.
    rewrite <- wf_keys in Hax by auto. apply in_map_iff in Hax as [[x n] [Ex Hi]]. simpl in Ex. subst x.
    apply (Ca _ _ Hi). }
  destruct (attain_both _ _ _ Ws Wt SH) as (_ & _ & C & _).
  rewrite !X by (auto; apply C; simpl; auto).
  replace (set_env e axis (Datatypes.S (e axis)) axis) with (Datatypes.S (e axis)) by (unfold set_env; now rewrite String.eqb_refl).
  rewrite (G1 e H1). change ((op_at stop e - op_at start e) / qz (divisions (Z.of_nat num) endpoint centers))%Qc
    with (piece (op_at start e) (op_at stop e) num endpoint centers).
  unfold qnat, qint. rewrite Nat2Z.inj_succ. change (Z.succ (Z.of_nat (e axis))) with (Z.of_nat (e axis) + 1)%Z.
  change (Q2Qc (inject_Z (Z.of_nat (e axis) + 1))) with (qz (Z.of_nat (e axis) + 1)). rewrite qz_add.
  change (qz 1) with (Q2Qc 1). change (Q2Qc (inject_Z (Z.of_nat (e axis)))) with (qz (Z.of_nat (e axis))). ring.
Qed.

Theorem linspace_ends (num : nat) endpoint r : 2 <= num ->
  na_linspace start stop axis (Z.of_nat num) endpoint false = Ok r ->
  forall e, inside e (sshape r) ->
    (e axis = 0 -> at_ r e = op_at start e) /\
    (endpoint = true -> e axis = num - 1 -> at_ r e = op_at stop e).
Proof.
  intros Hn Hr e He. assert (HP : pieces num endpoint false <> 0%Z) by (unfold pieces; destruct endpoint; lia).
  destruct (linspace_edges num endpoint) as [r' (E & W & S & G)]. assert (r' = r) by congruence. subst r'.
  destruct (G e He) as [_ G']. specialize (G' HP). split.
  - intros H0. rewrite G', H0. change (qnat 0) with (Q2Qc 0). ring.
  - intros -> H1. rewrite G', H1. unfold piece, pieces in *. unfold qnat.
    replace (Z.of_nat num - 1 + 0)%Z with (Z.of_nat (num - 1)) in * by lia.
    assert (D : qint (Z.of_nat (num - 1)) <> Q2Qc 0) by (apply qz_nonzero; auto). field. auto.
Qed.

Lemma qz_lt a b : (a < b)%Z -> (qz a < qz b)%Qc.
Proof.
  intros H. change (Qred (inject_Z a) < Qred (inject_Z b))%Q. rewrite !Qred_correct. unfold Qlt, inject_Z. simpl. lia.
Qed.

Lemma ratio_inside (a b : Z) (s t : Qc) : (0 < a < b)%Z -> (s < t)%Qc ->
  (s < s + qz a / qz b * (t - s) < t)%Qc.
Proof.
  intros H L. assert (Hb : (Q2Qc 0 < qz b)%Qc) by (apply (qz_lt 0); lia).
  assert (Db : qz b <> Q2Qc 0) by (apply (qz_nonzero b); lia).
  assert (R0 : (Q2Qc 0 < qz a / qz b)%Qc).
  { apply Qcnot_le_lt. intros C. apply (Qcmult_le_compat_r _ _ (qz b)) in C; [|now apply Qclt_le_weak].
    replace (qz a / qz b * qz b)%Qc with (qz a) in C by (field; auto).
    replace (Q2Qc 0 * qz b)%Qc with (Q2Qc 0) in C by ring.
    apply Qcle_not_lt in C. apply C. apply (qz_lt 0). lia. }
  assert (R1 : (qz a / qz b < Q2Qc 1)%Qc).
  { apply Qcnot_le_lt. intros C. apply (Qcmult_le_compat_r _ _ (qz b)) in C; [|now apply Qclt_le_weak].
    replace (qz a / qz b * qz b)%Qc with (qz a) in C by (field; auto).
    replace (Q2Qc 1 * qz b)%Qc with (qz b) in C by ring.
    apply Qcle_not_lt in C. apply C. apply qz_lt. lia. }
  assert (D : (Q2Qc 0 < t - s)%Qc) by now apply (proj1 (Qclt_minus_iff s t)).
  split.
  - apply Qclt_minus_iff. replace (s + qz a / qz b * (t - s) + - s)%Qc with (qz a / qz b * (t - s))%Qc by ring.
    apply (Qcmult_lt_compat_r _ _ (t - s)) in R0; [|exact D]. now replace (Q2Qc 0 * (t - s))%Qc with (Q2Qc 0) in R0 by ring.
  - apply Qclt_minus_iff. replace (t + - (s + qz a / qz b * (t - s)))%Qc with ((t - s) + - (qz a / qz b * (t - s)))%Qc by ring.
    apply (proj1 (Qclt_minus_iff _ _)).
    apply (Qcmult_lt_compat_r _ _ (t - s)) in R1; [|exact D]. now replace (Q2Qc 1 * (t - s))%Qc with (t - s)%Qc in R1 by ring.
Qed.

Theorem linspace_inside (num : nat) endpoint r : 
  na_linspace start stop axis (Z.of_nat num) endpoint true = Ok r ->
  forall e, inside e (sshape r) ->
    ((op_at start e < op_at stop e)%Qc -> (op_at start e < at_ r e < op_at stop e)%Qc) /\
    ((op_at stop e < op_at start e)%Qc -> (op_at stop e < at_ r e < op_at start e)%Qc).
Proof.
  intros Hr e He.
  assert (HP : pieces num endpoint true <> 0%Z).
  { intros HP. unfold na_linspace, na_step in Hr.
    replace (if endpoint then Z.of_nat num - 1 else Z.of_nat num)%Z with (pieces num endpoint true - 1)%Z in Hr
      by (unfold pieces; destruct endpoint; lia).
    rewrite HP in Hr. destruct (op_bin Qcminus stop start); discriminate Hr. }
  destruct (linspace_centers num endpoint HP) as [r' (E & W & S & G)]. assert (r' = r) by congruence. subst r'.
  destruct (in_snoc_shape r num e S He) as [H1 H2].
  assert (D2 : qz (pieces num endpoint true) <> Q2Qc 0) by (now apply (qz_nonzero _)).
  assert (T : qz 2 <> Q2Qc 0) by now apply (qz_nonzero 2).
  assert (K : (at_ r e = op_at start e + qz (2 * Z.of_nat (e axis) + 1) / qz (2 * pieces num endpoint true) * (op_at stop e - op_at start e))%Qc).
  { rewrite (G e He). unfold piece, half, qnat. change qint with qz.
    replace (2 * Z.of_nat (e axis) + 1)%Z with (Z.of_nat (e axis) + Z.of_nat (e axis) + 1)%Z by lia.
    replace (2 * pieces num endpoint true)%Z with (pieces num endpoint true + pieces num endpoint true)%Z by lia.
    change (qz 2) with (qz (1 + 1)) in *. rewrite !qz_add in *. change (qz 1) with (Q2Qc 1) in *.
    field. repeat split; auto.
    intros C. apply T. apply (f_equal (fun z => z / qz (pieces num endpoint true))%Qc) in C.
    transitivity ((qz (pieces num endpoint true) + qz (pieces num endpoint true)) / qz (pieces num endpoint true))%Qc; [field; auto|].
    rewrite C. field. auto. }
  assert (B : (0 < 2 * Z.of_nat (e axis) + 1 < 2 * pieces num endpoint true)%Z) by (unfold pieces; destruct endpoint; lia).
  split; intros L.
  - rewrite K. now apply ratio_inside.
  - replace (at_ r e) with (op_at stop e + qz (2 * pieces num endpoint true - (2 * Z.of_nat (e axis) + 1)) / qz (2 * pieces num endpoint true) * (op_at start e - op_at stop e))%Qc.
    + apply ratio_inside; auto. lia.
    + rewrite K, qz_sub. assert (qz (2 * pieces num endpoint true) <> Q2Qc 0) by (apply (qz_nonzero _); lia). field. auto.
Qed.

End Main.

Lemma linspace_negative start stop axis num endpoint sh : op_wf start -> op_wf stop ->
  broadcast_shapes [op_shape start; op_shape stop] = Ok sh -> (num < 0)%Z ->
  na_linspace start stop axis num endpoint false = Err ValueError.
Proof.
  intros Ws Wt SH Hn. unfold na_linspace, sequence_linspace.
  assert (W' : Forall op_wf [OpArr (normalize start); OpArr (normalize stop)]) by (repeat constructor; now apply normalize_wf).
  assert (E : shape_broadcasted [OpArr (normalize start); OpArr (normalize stop)] = Ok sh).
  { unfold shape_broadcasted. cbn [op_shapes flat_map app]. now rewrite !normalize_shape. }
  rewrite E. cbn [bind].
  destruct (ops_aligned _ sh W' E) as [ND [ns (E1 & E2 & E3 & E4)]]. cbn [mapM op_aligned] in E1.
  destruct (ndarray_aligned (normalize start) (dkeys sh)) as [s'|]; [|discriminate].
  destruct (ndarray_aligned (normalize stop) (dkeys sh)) as [t'|]; [|discriminate].
  cbn [bind]. unfold np_linspace. now rewrite (proj2 (Z.ltb_lt _ _) Hn).
Qed.

Lemma linspace_repeated start stop axis (num : nat) endpoint sh : op_wf start -> op_wf stop ->
  broadcast_shapes [op_shape start; op_shape stop] = Ok sh -> In axis (dkeys sh) ->
  na_linspace start stop axis (Z.of_nat num) endpoint false = Err ValueError.
Proof.
  intros Ws Wt SH Hin. unfold na_linspace, sequence_linspace.
  assert (W' : Forall op_wf [OpArr (normalize start); OpArr (normalize stop)]) by (repeat constructor; now apply normalize_wf).
  assert (E : shape_broadcasted [OpArr (normalize start); OpArr (normalize stop)] = Ok sh).
  { unfold shape_broadcasted. cbn [op_shapes flat_map app]. now rewrite !normalize_shape. }
  rewrite E. cbn [bind].
  destruct (ops_aligned _ sh W' E) as [ND [ns (E1 & E2 & E3 & E4)]]. cbn [mapM op_aligned] in E1.
  destruct (ndarray_aligned (normalize start) (dkeys sh)) as [s'|]; [|discriminate].
  destruct (ndarray_aligned (normalize stop) (dkeys sh)) as [t'|]; [|discriminate].
  cbn [bind] in *. injection E1 as <-. unfold np_linspace.
  replace (Z.of_nat num <? 0)%Z with false by (symmetry; apply Z.ltb_ge; lia). cbn [map] in E3. rewrite E3. cbn [bind].
  match goal with |- ?m = _ => destruct m as [r|er] eqn:M end.
  - exfalso. unfold mk_sarr in M.
    destruct (nodupb (dkeys sh ++ [axis])) eqn:NB.
    + apply nodupb_NoDup in NB. apply NoDup_remove_2 in NB. rewrite app_nil_r in NB. auto.
    + cbn [negb] in M. destruct (negb _) in M; discriminate M.
  - now apply mk_sarr_err in M as ->.
Qed.
