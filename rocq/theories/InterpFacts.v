(** Facts about [interp_linear] (Interp.v). *)
From Coq Require Import String List Arith ZArith QArith Qround Qcanon Bool Lia Permutation.
From Verif Require Import Base BaseFacts Numpy NumpyFacts Shapes Scalar Reorder Elementwise Sorting Derived Interp Spec SpecDerived SpecNumeric.
From Verif Require Import ShapesFacts AlignFacts GetitemFacts SetitemFacts ReorderFacts ReduceFacts AlongFacts SortingFacts DerivedFacts CenterFacts LinspaceFacts.
Import ListNotations.
Open Scope nat_scope.
Open Scope list_scope.

(** ** Order on numbers *)

Lemma qc_leb_le x y : qc_leb x y = true <-> (x <= y)%Qc.
Proof. unfold qc_leb. apply Qle_bool_iff. Qed.

Lemma qc_ltb_lt x y : qc_ltb x y = true <-> (x < y)%Qc.
Proof.
  unfold qc_ltb. destruct (qc_leb y x) eqn:E; cbn [negb].
  - apply qc_leb_le in E. apply Qcle_not_lt in E. split; [discriminate|tauto].
  - split; auto. intros _. apply Qcnot_le_lt. intros H. apply qc_leb_le in H. congruence.
Qed.

Lemma qz_this z : this (qz z) == inject_Z z.
Proof. change (Qred (inject_Z z) == inject_Z z). apply Qred_correct. Qed.

Lemma qz_le_floor z (x : Qc) : (qz z <= x)%Qc <-> (z <= Qfloor (this x))%Z.
Proof.
  unfold Qcle. rewrite qz_this. split; intros H.
  - rewrite <- (Qfloor_Z z). now apply Qfloor_resp_le.
  - apply Qle_trans with (inject_Z (Qfloor (this x))); [|apply Qfloor_le]. now rewrite <- Zle_Qle.
Qed.

Lemma lt_qz_floor z (x : Qc) : (x < qz z)%Qc <-> (Qfloor (this x) < z)%Z.
Proof.
  destruct (Z_lt_ge_dec (Qfloor (this x)) z) as [H|H]; split; auto.
  - intros _. apply Qcnot_le_lt. rewrite qz_le_floor. lia.
  - intros L. apply Qclt_not_le in L. rewrite qz_le_floor in L. lia.
  - intros L. lia.
Qed.

(** ** The lower index *)

Definition low (n : nat) (x : Qc) : Z :=
  if qc_ltb x (qz 0) then 0%Z else if qc_leb (qz (Z.of_nat n - 1)) x then (Z.of_nat n - 2)%Z else Qfloor (this x).

Lemma low_range n x : 2 <= n -> (0 <= low n x /\ low n x + 1 < Z.of_nat n)%Z.
Proof.
  intros Hn. unfold low. destruct (qc_ltb x (qz 0)) eqn:E1; [lia|]. destruct (qc_leb _ x) eqn:E2; [lia|].
  assert (~ (x < qz 0)%Qc) by (intros H; apply qc_ltb_lt in H; congruence). rewrite lt_qz_floor in H.
  assert (~ (qz (Z.of_nat n - 1) <= x)%Qc) by (intros H'; apply qc_leb_le in H'; congruence). rewrite qz_le_floor in H0. lia.
Qed.

Lemma low_segment n x k : segment n x k -> low n x = Z.of_nat k.
Proof.
  intros (H1 & H2 & H3). unfold qnat in *. change qint with qz in *. unfold low.
  rewrite qz_le_floor in H2. rewrite lt_qz_floor in H3.
  destruct (qc_ltb x (qz 0)) eqn:E1; [apply qc_ltb_lt in E1; rewrite lt_qz_floor in E1; lia|].
  assert (L0 : ~ (x < qz 0)%Qc) by (intros H; apply qc_ltb_lt in H; congruence). rewrite lt_qz_floor in L0.
  destruct (qc_leb _ x) eqn:E2.
  - apply qc_leb_le in E2. rewrite qz_le_floor in E2. lia.
  - assert (L1 : ~ (qz (Z.of_nat n - 1) <= x)%Qc) by (intros H'; apply qc_leb_le in H'; congruence). rewrite qz_le_floor in L1. lia.
Qed.

Lemma segment_low n x : 2 <= n -> segment n x (Z.to_nat (low n x)).
Proof.
  intros Hn. assert (R := low_range n x Hn). unfold segment, qnat. change qint with qz.
  split; [lia|]. rewrite qz_le_floor, lt_qz_floor. rewrite Nat2Z.inj_add, Z2Nat.id by lia. unfold low in *.
  destruct (qc_ltb x (qz 0)) eqn:E1; [apply qc_ltb_lt in E1; rewrite lt_qz_floor in E1; split; [auto|left; lia]|].
  assert (L0 : ~ (x < qz 0)%Qc) by (intros H; apply qc_ltb_lt in H; congruence). rewrite lt_qz_floor in L0.
  destruct (qc_leb _ x) eqn:E2.
  - apply qc_leb_le in E2. rewrite qz_le_floor in E2. split; [left|right]; lia.
  - split; left; lia.
Qed.

Theorem segment_unique n x : 2 <= n -> exists k, segment n x k /\ forall k', segment n x k' -> k' = k.
Proof.
  intros Hn. exists (Z.to_nat (low n x)). split; [now apply segment_low|]. intros k' H. apply low_segment in H. lia.
Qed.

(** ** Masked constant assignment *)

Lemma setitem_mask_const {A} (a : sarr A) (m : sarr bool) x : wf a -> wf m -> sshape m = sshape a ->
  exists r, setitem_mask a m (OpNum x) = Ok r /\ wf r /\ sshape r = sshape a /\
    forall e, inside e (sshape a) -> at_ r e = if at_ m e then x else at_ a e.
Proof.
  intros W Wm S. assert (AX : s_axes m = s_axes a) by (rewrite <- !wf_keys by auto; now rewrite S).
  assert (NI : In (mask_axis (s_axes m)) (s_axes a) -> In (mask_axis (s_axes m)) (s_axes m)) by (now rewrite AX).
  assert (OKg : exists s, getitem_mask a m = Ok s).
  { apply (proj2 (getitem_mask_success a m W Wm)). split; auto. intros ax n. now rewrite S. }
  destruct OKg as [s Hs].
  destruct (proj2 (setitem_mask_success a m (OpNum x) W Wm I NI)) as [r Hr]; [exists s; split; [auto|exact I]|].
  exists r. split; auto.
  destruct (setitem_mask_full a m (OpNum x) _ r W Wm I (mask_positions m Wm) NI Hr) as (Wr & Sr & G).
  split; auto. split; auto. intros e He. destruct (G e He) as [G1 G2]. destruct (at_ m e) eqn:E; auto.
  destruct (G2 eq_refl) as [k [_ G3]]. exact G3.
Qed.

Lemma ufunc1 {A B} (f : A -> B) d (a : sarr A) : wf a ->
  exists r, array_ufunc (un f d) [OpArr a] = Ok r /\ wf r /\ sshape r = sshape a /\
    forall e, inside e (sshape a) -> at_ r e = f (at_ a e).
Proof.
  intros W. destruct (array_ufunc_ok (un f d) [OpArr a] (sshape a)) as [r (E & Wr & S & G)].
  - repeat constructor; apply W.
  - unfold shape_broadcasted. cbn [op_shapes flat_map app]. apply bs_covered; [now apply wf_nodup|]. intros s [].
  - exists r. split; auto. split; auto. split; auto. intros e He. rewrite G. cbn [map un op_at]. now rewrite bat_inside.
Qed.

Lemma floor_quot (x : Qc) : ~ (x < qz 0)%Qc -> Z.quot (Qnum (this x)) (Zpos (Qden (this x))) = Qfloor (this x).
Proof.
  rewrite lt_qz_floor. intros H. destruct (this x) as [p q]. cbn [Qnum Qden Qfloor] in *.
  apply Z.quot_div_nonneg; [|lia]. destruct (Z_lt_ge_dec p 0) as [L|L]; [|lia].
  exfalso. apply H. apply Z.div_lt_upper_bound; lia.
Qed.

Lemma covered_clamp s t e : NoDup (dkeys s) -> NoDup (dkeys t) -> covered s t -> inside e t -> inside (bclamp s e) s.
Proof.
  intros N Nt C He ax n Hn. unfold bclamp. rewrite (dget_NoDup _ _ _ N Hn).
  destruct n as [|[|n]]; [|lia|]; (destruct (C _ _ Hn) as [_ [E|E]]; [discriminate|]); apply (He _ _ E).
Qed.

Definition op_ok (n : nat) (o : operand Z) : Prop :=
  match o with
  | OpNum z => (0 <= z < Z.of_nat n)%Z
  | OpArr v => forall e, inside e (sshape v) -> (0 <= at_ v e < Z.of_nat n)%Z
  end.

Lemma op_ok_at n o B e : NoDup (dkeys B) -> op_wf o -> op_ok n o -> covered (op_shape o) B -> inside e B ->
  (0 <= op_at o e < Z.of_nat n)%Z.
Proof.
  intros NB W H C He. destruct o as [v|z]; auto. cbn [op_at]. unfold bat. apply H.
  eapply covered_clamp; eauto. now apply wf_nodup.
Qed.

Lemma sarr_nil {A} (x : sarr A) : wf x -> s_axes x = [] -> forall e, at_ x e = nget (s_nd x) [].
Proof. intros W E e. unfold at_. now rewrite E. Qed.

Lemma lower_spec (x : sarr Qc) n : wf x -> 2 <= n ->
  exists o, lower x n = Ok o /\ op_wf o /\ op_shape o = sshape x /\
    (forall e, inside (bclamp (sshape x) e) (sshape x) -> op_at o e = low n (bat x e)) /\
    match o with OpNum z => (0 <= z /\ z + 1 < Z.of_nat n)%Z
               | OpArr v => forall e, inside e (sshape v) -> (0 <= at_ v e /\ at_ v e + 1 < Z.of_nat n)%Z end.
Proof.
  intros W Hn. unfold lower. destruct (length (s_axes x) =? 0) eqn:E0.
  - apply Nat.eqb_eq, length_zero_iff_nil in E0. eexists. split; [reflexivity|]. split; [exact I|].
    assert (K : forall v, (if qc_ltb v (qz 0) then 0 else if qc_leb (qz (Z.of_nat n - 1)) v then Z.of_nat n - 2
               else Z.quot (Qnum (this v)) (Zpos (Qden (this v))))%Z = low n v).
    { intros v. unfold low. destruct (qc_ltb v (qz 0)) eqn:E1; auto. destruct (qc_leb _ v) eqn:E2; auto.
      apply floor_quot. intros H. apply qc_ltb_lt in H. congruence. }
    split; [|split].
    + cbn [op_shape]. unfold sshape. now rewrite E0.
    + intros e _. cbn [op_at]. rewrite K. unfold bat. now rewrite sarr_nil.
    + rewrite K. now apply low_range.
  - destruct (ufunc2_covered qc_ltb false x (OpNum (qz 0)) W I) as [b (E1 & Wb & Sb & Gb)]; [apply covered_nil|].
    destruct (ufunc2_number qc_leb false (qz (Z.of_nat n - 1)) x W) as [c (E2 & Wc & Sc & Gc)].
    destruct (ufunc1 (fun v => Qfloor (this v)) 0%Z x W) as [f (E3 & Wf & Sf & Gf)].
    destruct (setitem_mask_const f b 0%Z Wf Wb) as [f1 (E4 & Wf1 & Sf1 & Gf1)]; [congruence|].
    destruct (setitem_mask_const f1 c (Z.of_nat n - 2)%Z Wf1 Wc) as [f2 (E5 & Wf2 & Sf2 & Gf2)]; [congruence|].
    rewrite E1, E2, E3. cbn [bind]. rewrite E4. cbn [bind]. rewrite E5. cbn [bind].
    exists (OpArr f2). split; auto. split; [exact Wf2|].
    assert (SS : sshape f2 = sshape x) by congruence.
    assert (V : forall e, inside e (sshape x) -> at_ f2 e = low n (at_ x e)).
    { intros e He. rewrite Gf2, Gf1, Gf, Gb, Gc by (rewrite ?Sf1, ?Sf; auto). rewrite bat_inside by auto.
      cbn [op_at]. unfold low. destruct (qc_leb (qz (Z.of_nat n - 1)) (at_ x e)) eqn:L1, (qc_ltb (at_ x e) (qz 0)) eqn:L2; auto.
      exfalso. apply qc_leb_le in L1. apply qc_ltb_lt in L2. rewrite qz_le_floor in L1. rewrite lt_qz_floor in L2. lia. }
    split; auto. split.
    + intros e He. cbn [op_at]. unfold bat. rewrite SS. now apply V.
    + intros e He. rewrite SS in He. rewrite V by auto. now apply low_range.
Qed.

Lemma op_succ_spec o : op_wf o -> exists p, op_succ o = Ok p /\ op_wf p /\ op_shape p = op_shape o /\
  (forall e, inside (bclamp (op_shape o) e) (op_shape o) -> op_at p e = (op_at o e + 1)%Z) /\
  match p with OpNum z => forall z', o = OpNum z' -> z = (z' + 1)%Z
             | OpArr v => forall v', o = OpArr v' -> forall e, inside e (sshape v) -> at_ v e = (at_ v' e + 1)%Z end /\
  match o, p with OpNum _, OpNum _ => True | OpArr _, OpArr _ => True | _, _ => False end.
Proof.
  intros W. destruct o as [v|z]; cbn [op_succ].
  - destruct (ufunc1 (fun z => z + 1)%Z 0%Z v W) as [r (E & Wr & S & G)]. rewrite E. cbn [bind]. exists (OpArr r).
    split; auto. split; auto. split; [cbn; auto|]. split; [|split; auto].
    + intros e He. cbn [op_at op_shape] in *. unfold bat. rewrite S. now apply G.
    + intros v' Ev e He. injection Ev as <-. apply G. now rewrite <- S.
  - exists (OpNum (z + 1)%Z). repeat split; auto. intros z' Ez. congruence.
Qed.

Lemma op_qc_spec o : op_wf o -> op_wf (op_qc o) /\ op_shape (op_qc o) = op_shape o /\ forall e, op_at (op_qc o) e = qz (op_at o e).
Proof.
  intros W. destruct o as [v|z]; cbn [op_qc op_wf op_shape op_at]; auto.
Qed.

(** ** Indexing every axis *)

Definition index_inv (a : sarr Qc) (rest : list string) (base : dict item) (ix : string -> operand Z) (B : shape) : Prop :=
  NoDup (dkeys base) /\
  (forall ax, In ax (dkeys base) <-> In ax (s_axes a) /\ ~ In ax rest) /\
  (forall ax, In ax (s_axes a) -> ~ In ax rest ->
     dget base ax = Some (item_of (ix ax)) /\ op_wf (ix ax) /\ op_ok (size_of (sshape a) ax) (ix ax) /\
     covered (op_shape (ix ax)) B).

Lemma op_ok_item n o : op_ok n o -> item_ok n (Some (item_of o)).
Proof.
  destruct o as [v|z]; cbn [item_of item_ok op_ok]; unfold in_range.
  - intros H e He. specialize (H e He). lia.
  - lia.
Qed.

Lemma getitem_all (a : sarr Qc) base ix B : wf a -> NoDup (dkeys B) -> index_inv a [] base ix B ->
  (forall k n, In (k, n) B -> exists ax, In ax (s_axes a) /\ In (k, n) (op_shape (ix ax))) ->
  exists r, getitem a base = Ok r /\ wf r /\ same_shape (sshape r) B /\
    forall e, inside e B -> at_ r e = at_ a (fun ax => Z.to_nat (op_at (ix ax) e)).
Proof.
  intros W NB (N & K & H) T.
  assert (KK : forall ax i, In (ax, i) base -> In ax (s_axes a) /\ i = item_of (ix ax)).
  { intros ax i Hi. assert (Hk := in_map fst _ _ Hi). cbn [fst] in Hk. apply (proj1 (K ax)) in Hk as [Hk _]. split; auto.
    destruct (H ax Hk) as [E _]; [intros []|]. rewrite (dget_NoDup _ _ _ N Hi) in E. congruence. }
  assert (Wi : Forall (fun kv => item_wf (snd kv)) base).
  { apply Forall_forall. intros [ax i] Hi. destruct (KK _ _ Hi) as [Hk ->]. destruct (H ax Hk) as (_ & Wx & _); [intros []|].
    cbn [snd]. destruct (ix ax); cbn [item_of item_wf]; auto. }
  assert (AT : attained (index_shapes (s_axes a) base) B).
  { split.
    - intros s Hs. unfold index_shapes in Hs. apply in_flat_map in Hs as [[ax i] [Hi Hs]]. cbn [fst snd] in Hs.
      destruct (KK _ _ Hi) as [Hk ->]. destruct (H ax Hk) as (_ & Wx & _ & Cx); [intros []|].
      destruct (ix ax) as [v|z]; cbn [item_of] in Hs; [|destruct Hs].
      destruct (smem ax (s_axes a)); [|destruct Hs]. destruct Hs as [<-|[]]. split; auto. now apply wf_nodup.
    - intros k n Hn. destruct (T k n Hn) as [ax [Hax Hin]]. destruct (H ax Hax) as (E & Wx & _ & Cx); [intros []|].
      destruct (ix ax) as [v|z]; [|destruct Hin]. exists (sshape v). split; auto.
      unfold index_shapes. apply in_flat_map. exists (ax, ItArr v). split; [now apply dget_In|]. cbn [fst snd].
      rewrite (proj2 (smem_In ax (s_axes a)) Hax). simpl. auto. }
  destruct (bs_attained _ _ NB AT) as [sa (E & Na & S)].
  assert (DG : forall ax, In ax (s_axes a) -> dget base ax = Some (item_of (ix ax))) by (intros ax Hax; apply H; auto; intros []).
  assert (Hk : forall ax n, In (ax, n) (sshape a) -> In ax (s_axes a) /\ size_of (sshape a) ax = n).
  { intros ax n Hn. split; [|apply size_of_In; auto; now apply wf_nodup].
    rewrite <- wf_keys by auto. now apply (in_map fst) in Hn. }
  assert (OKr : exists r, getitem a base = Ok r).
  { apply (proj2 (getitem_success a base W N Wi)). exists sa. split; auto. split.
    - intros ax n Hn. destruct (Hk _ _ Hn) as [Hax <-]. rewrite (DG ax Hax). apply op_ok_item. apply H; auto; intros [].
    - intros ax _ Hax. rewrite (DG ax Hax). now destruct (ix ax). }
  destruct OKr as [r Hr]. exists r. split; auto.
  destruct (getitem_full a base r W N Wi Hr) as (Wr & G & sa' & E' & AX & S1 & _).
  assert (sa' = sa) by congruence. subst sa'.
  replace (filter (fun ax => keeps_axis (dget base ax)) (s_axes a)) with (@nil string) in AX.
  2:{ symmetry. assert (F : forall l, incl l (s_axes a) -> filter (fun ax => keeps_axis (dget base ax)) l = []).
      { induction l as [|ax l IH]; intros I; auto. cbn [filter]. rewrite (DG ax) by (apply I; simpl; auto).
        rewrite IH by (intros y Hy; apply I; simpl; auto). now destruct (ix ax). }
      apply F. intros y; auto. }
  rewrite app_nil_r in AX.
  assert (SS : same_shape (sshape r) sa).
  { intros ax n. split; [|apply S1]. intros Hn. assert (Hx := in_map fst _ _ Hn). cbn [fst] in Hx.
    change (map fst (sshape r)) with (dkeys (sshape r)) in Hx. rewrite wf_keys, AX in Hx by auto.
    apply in_map_iff in Hx as [[ax' m] [Ex Hx]]. cbn [fst] in Ex. subst ax'.
    assert (Hm := S1 _ _ Hx). assert (n = m); [|congruence].
    rewrite <- (size_of_In _ _ _ (wf_nodup r Wr) Hn). now rewrite <- (size_of_In _ _ _ (wf_nodup r Wr) Hm). }
  split; auto. assert (SB := same_shape_trans _ _ _ SS S). split; auto.
  intros e He. destruct (G e (same_shape_inside _ _ _ SB He)) as [e' (H1 & H2 & H3)]. rewrite H2.
  apply at_ext. intros ax Hax. assert (Hn : exists n, In (ax, n) (sshape a)).
  { rewrite <- wf_keys in Hax by auto. apply in_map_iff in Hax as [[x n] [Ex Hn]]. simpl in Ex. subst. eauto. }
  destruct Hn as [n Hn]. specialize (H3 _ _ Hn). rewrite (DG ax Hax) in H3.
  destruct (H ax Hax) as (_ & Wx & Ox & Cx); [intros []|]. destruct (Hk _ _ Hn) as [_ SZ]. rewrite SZ in Ox.
  assert (R := op_ok_at n _ B e NB Wx Ox Cx He).
  destruct (ix ax) as [v|z]; cbn [item_of selects op_at] in *; destruct H3 as [H3 H4];
    destruct (Z.ltb_spec (bat v e) 0) || destruct (Z.ltb_spec z 0); lia.
Qed.

(** ** The recursion *)

Notation blendq := (blend Qcplus Qcmult Qcminus (Q2Qc 1)).

Lemma blend_env (i : dict Qc) v : vext v -> vext (blendq i v).
Proof.
  intros V. induction i as [|[ax w] i IH]; auto. intros e e' H. cbn [blend].
  rewrite (IH e e' H). rewrite (IH (set_env e ax (S (e ax))) (set_env e' ax (S (e' ax)))); auto.
  intros x. unfold set_env. destruct (String.eqb x ax); auto.
Qed.

(** the fractions, the corner of the cell *)
Definition fracs (a : sarr Qc) (it : dict (sarr Qc)) (e : env) : dict Qc :=
  map (fun kv => (fst kv, bat (snd kv) e - qz (low (size_of (sshape a) (fst kv)) (bat (snd kv) e)))%Qc) it.

Definition corner (a : sarr Qc) (it : dict (sarr Qc)) (ix : string -> operand Z) (e : env) : env :=
  fun ax => match dget it ax with
            | Some x => Z.to_nat (low (size_of (sshape a) ax) (bat x e))
            | None => Z.to_nat (op_at (ix ax) e)
            end.

Definition fr_inv (a : sarr Qc) (it : dict (sarr Qc)) (B : shape) : Prop :=
  NoDup (dkeys it) /\ incl (dkeys it) (s_axes a) /\
  forall ax x, In (ax, x) it -> wf x /\ covered (sshape x) B /\ 2 <= size_of (sshape a) ax.

Definition all_attained (a : sarr Qc) (it : dict (sarr Qc)) (ix : string -> operand Z) (B : shape) : Prop :=
  forall k n, In (k, n) B ->
    (exists ax, In ax (s_axes a) /\ ~ In ax (dkeys it) /\ In (k, n) (op_shape (ix ax))) \/
    (exists ax x, In (ax, x) it /\ In (k, n) (sshape x)).

Lemma index_inv_step a axis it' base ix B o : NoDup (axis :: it') -> In axis (s_axes a) ->
  index_inv a (axis :: it') base ix B -> op_wf o -> op_ok (size_of (sshape a) axis) o -> covered (op_shape o) B ->
  index_inv a it' (dset base axis (item_of o)) (fun ax => if String.eqb ax axis then o else ix ax) B.
Proof.
  intros ND Hax (N & K & H) W O C. inversion ND as [|? ? NI ND']; subst. split; [|split].
  - now apply NoDup_dset.
  - intros ax. rewrite dkeys_dset_In, (K ax). simpl. split.
    + intros [->|[H1 H2]]; auto.
    + intros [H1 H2]. destruct (string_dec axis ax) as [->|E]; auto. right. tauto.
  - intros ax H1 H2. rewrite dget_dset. destruct (String.eqb_spec ax axis) as [->|E]; auto.
    apply H; auto. simpl. intros [->|H3]; auto.
Qed.

Lemma interp_rec_spec (a : sarr Qc) (it : dict (sarr Qc)) : wf a -> forall base ix B, it <> [] ->
  NoDup (dkeys B) -> fr_inv a it B -> index_inv a (dkeys it) base ix B -> all_attained a it ix B ->
  exists r, interp_rec a it base = Ok r /\ wf r /\ same_shape (sshape r) B /\
    forall e, inside e B -> at_ r e = blendq (fracs a it e) (at_ a) (corner a it ix e).
Proof.
  intros W. induction it as [|[axis x] it IH]; intros base ix B NE NB (ND & IN & FX) IX AT; [congruence|].
  cbn [dkeys map fst] in ND, IN. inversion ND as [|? ? NI ND']; subst.
  destruct (FX axis x (or_introl eq_refl)) as (Wx & Cx & Hn).
  assert (Hax : In axis (s_axes a)) by (apply IN; simpl; auto).
  assert (SZ : exists n, In (axis, n) (sshape a) /\ size_of (sshape a) axis = n).
  { rewrite <- wf_keys in Hax by auto. apply in_map_iff in Hax as [[y n] [Ey Hy]]. simpl in Ey. subst y. exists n. split; auto.
    apply size_of_In; auto. now apply wf_nodup. }
  destruct SZ as [n [Hin SZ]]. rewrite SZ in Hn.
  cbn [interp_rec]. rewrite (dget_NoDup _ _ _ (wf_nodup a W) Hin). cbn [bind].
  destruct (lower_spec x n Wx Hn) as [x0 (E0 & W0 & S0 & G0 & R0)]. rewrite E0. cbn [bind].
  destruct (op_succ_spec x0 W0) as [x1 (E1 & W1 & S1 & G1 & V1 & R1)]. rewrite E1. cbn [bind]. cbv zeta.
  assert (C0 : covered (op_shape x0) B) by (now rewrite S0).
  assert (C1 : covered (op_shape x1) B) by (now rewrite S1).
  assert (O0 : op_ok (size_of (sshape a) axis) x0).
  { rewrite SZ. destruct x0 as [v|z]; cbn [op_ok]; [intros e He; specialize (R0 e He)|]; lia. }
  assert (O1 : op_ok (size_of (sshape a) axis) x1).
  { rewrite SZ. destruct x0 as [v|z], x1 as [v1|z1]; try destruct R1; cbn [op_ok].
    - intros e He. rewrite (V1 v eq_refl e He). specialize (R0 e). cbn [op_shape] in S1. rewrite <- S1 in R0. specialize (R0 He). lia.
    - rewrite (V1 z eq_refl). lia. }
  assert (I0 := index_inv_step a axis (dkeys it) base ix B x0 ND Hax IX W0 O0 C0).
  assert (I1 := index_inv_step a axis (dkeys it) base ix B x1 ND Hax IX W1 O1 C1).
  set (ix0 := fun ax => if String.eqb ax axis then x0 else ix ax) in *.
  set (ix1 := fun ax => if String.eqb ax axis then x1 else ix ax) in *.
  assert (ATx : forall xi, op_shape xi = sshape x -> all_attained a it (fun ax => if String.eqb ax axis then xi else ix ax) B).
  { intros xi Hxi k m Hk. destruct (AT k m Hk) as [[ax (H1 & H2 & H3)]|[ax [y [H1 H2]]]].
    - left. exists ax. split; auto. cbn [dkeys map fst] in H2. split; [intros H4; apply H2; simpl; auto|].
      destruct (String.eqb_spec ax axis) as [->|]; auto. exfalso. apply H2. simpl. auto.
    - destruct H1 as [H1|H1]; [|right; eauto]. injection H1 as <- <-. left. exists axis. split; auto. split; auto.
      now rewrite String.eqb_refl, Hxi. }
  assert (A0 := ATx x0 S0). assert (A1 := ATx x1 (eq_trans S1 S0)). fold ix0 in A0. fold ix1 in A1.
  assert (FI : fr_inv a it B).
  { split; auto. split; [intros y Hy; apply IN; simpl; auto|]. intros ax y Hy. apply FX. simpl. auto. }
  assert (LEAF : forall base' ix', index_inv a (dkeys it) base' ix' B -> all_attained a it ix' B ->
    exists y, match it with [] => getitem a base' | _ => interp_rec a it base' end = Ok y /\ wf y /\ same_shape (sshape y) B /\
      forall e, inside e B -> at_ y e = blendq (fracs a it e) (at_ a) (corner a it ix' e)).
  { intros base' ix' IX' AT'. destruct it as [|kv it]; [|apply IH; auto; discriminate].
    destruct (getitem_all a base' ix' B W NB IX') as [y (E & Wy & Sy & Gy)].
    - intros k m Hk. destruct (AT' k m Hk) as [[ax (H1 & _ & H3)]|[ax [y [[] _]]]]. eauto.
    - exists y. split; auto. }
  destruct (LEAF _ _ I0 A0) as [y0 (Ey0 & Wy0 & Sy0 & Gy0)]. rewrite Ey0. cbn [bind].
  destruct (LEAF _ _ I1 A1) as [y1 (Ey1 & Wy1 & Sy1 & Gy1)]. rewrite Ey1. cbn [bind].
  destruct (op_qc_spec x0 W0) as (Wq & Sq & Gq).
  destruct (ufunc2_covered Qcminus (qz 0) x (op_qc x0) Wx Wq) as [w (Ew & Ww & Sw & Gw)].
  { rewrite Sq, S0. apply covered_refl. }
  rewrite Ew. cbn [bind].
  destruct (ufunc_attained (bin Qcminus (qz 0)) [OpArr y1; OpArr y0] B) as [d (Ed & Wd & Sd & Gd)].
  { apply attain_left; auto. cbn [op_shape]. now apply same_shape_covered. }
  rewrite Ed. cbn [bind].
  destruct (ufunc_attained (bin Qcmult (qz 0)) [OpArr w; OpArr d] B) as [p (Ep & Wp & Sp & Gp)].
  { apply attain_right; auto. cbn [op_shape]. now rewrite Sw. }
  rewrite Ep. cbn [bind].
  destruct (ufunc_attained (bin Qcplus (qz 0)) [OpArr y0; OpArr p] B) as [r (Er & Wr & Sr & Gr)].
  { apply attain_left; auto. cbn [op_shape]. now apply same_shape_covered. }
  exists r. split; auto. split; auto. split; auto. intros e He.
  assert (CLx : inside (bclamp (sshape x) e) (sshape x)) by (eapply covered_clamp; eauto; now apply wf_nodup).
  rewrite Gr. cbn [map bin op_at].
  rewrite (op_same_at y0 B e Wy0 Sy0 He), (op_same_at p B e Wp Sp He), Gp. cbn [map bin op_at].
  rewrite (op_same_at d B e Wd Sd He), Gd. cbn [map bin op_at].
  rewrite (op_same_at y0 B e Wy0 Sy0 He), (op_same_at y1 B e Wy1 Sy1 He), (Gy0 e He), (Gy1 e He).
  assert (Bw : bat w e = (bat x e - qz (low n (bat x e)))%Qc).
  { unfold bat at 1. rewrite Sw, Gw by auto. rewrite Gq. unfold bat at 1. f_equal.
    - f_equal. rewrite <- (G0 e CLx).
      destruct x0 as [v|z]; auto. cbn [op_at op_shape] in *. unfold bat.
      apply at_ext. intros y Hy. unfold bclamp. rewrite S0. now destruct (dget (sshape x) y) as [[|[|m]]|]. }
  rewrite Bw. cbn [fracs map fst snd blend]. fold (fracs a it e). rewrite SZ.
  assert (V := at_vext a).
  rewrite (blend_env (fracs a it e) (at_ a) V (corner a it ix0 e) (corner a ((axis, x) :: it) ix e)).
  2:{ intros y. unfold corner, ix0. cbn [dget]. destruct (String.eqb_spec y axis) as [->|E]; auto.
      rewrite (proj2 (dget_None it axis)) by auto. rewrite (G0 e CLx). now rewrite SZ. }
  rewrite (blend_env (fracs a it e) (at_ a) V (corner a it ix1 e)
    (set_env (corner a ((axis, x) :: it) ix e) axis (S (corner a ((axis, x) :: it) ix e axis)))).
  2:{ intros y. unfold set_env, corner, ix1. cbn [dget]. rewrite String.eqb_refl. destruct (String.eqb_spec y axis) as [->|E]; auto.
      rewrite (proj2 (dget_None it axis)) by auto. rewrite G1 by (now rewrite S0). rewrite (G0 e CLx), SZ.
      assert (R := low_range n (bat x e) Hn). lia. }
  ring.
Qed.

(** ** interp_linear *)

Definition others_shape (a : sarr Qc) (it : dict (sarr Qc)) : shape := without (sshape a) (dkeys it).

Lemma zero_item_keys (it : dict (sarr Qc)) : dkeys (map (fun kv => (fst kv, ItInt 0)) it) = dkeys it.
Proof. unfold dkeys. rewrite map_map. reflexivity. Qed.

Lemma dget_zero_item (it : dict (sarr Qc)) ax :
  dget (map (fun kv => (fst kv, ItInt 0)) it) ax = if smem ax (dkeys it) then Some (ItInt 0) else None.
Proof.
  induction it as [|[k x] it IH]; auto. cbn [map fst dget dkeys smem existsb]. destruct (String.eqb ax k); auto.
Qed.

Lemma zero_index (a : sarr Qc) (it : dict (sarr Qc)) : wf a -> NoDup (dkeys it) ->
  (forall ax, In ax (dkeys it) -> In ax (s_axes a) -> 1 <= size_of (sshape a) ax) ->
  exists b, getitem a (map (fun kv => (fst kv, ItInt 0)) it) = Ok b /\ wf b /\ same_shape (sshape b) (others_shape a it).
Proof.
  intros W ND P. set (z := map (fun kv => (fst kv, ItInt 0)) it).
  assert (Nz : NoDup (dkeys z)) by (unfold z; now rewrite zero_item_keys).
  assert (Wz : Forall (fun kv => item_wf (snd kv)) z).
  { apply Forall_forall. intros [k i] Hi. apply in_map_iff in Hi as [y [E _]]. injection E as <- <-. exact I. }
  assert (IS : index_shapes (s_axes a) z = []).
  { unfold index_shapes, z. induction it as [|kv it IH]; auto. cbn [map flat_map snd app]. apply IH; auto.
    - inversion ND; auto.
    - intros ax H1. apply P. simpl. auto.
    - unfold dkeys. inversion ND. rewrite map_map. auto.
    - apply Forall_forall. intros [k i] Hi. apply in_map_iff in Hi as [y [E _]]. injection E as <- <-. exact I. }
  assert (Hk : forall ax n, In (ax, n) (sshape a) -> In ax (s_axes a) /\ size_of (sshape a) ax = n).
  { intros ax n Hn. split; [|apply size_of_In; auto; now apply wf_nodup].
    rewrite <- wf_keys by auto. now apply (in_map fst) in Hn. }
  assert (OKr : exists r, getitem a z = Ok r).
  { apply (proj2 (getitem_success a z W Nz Wz)). exists []. rewrite IS. split; auto. split; [|intros ax []].
    intros ax n Hn. unfold z. rewrite dget_zero_item. destruct (smem ax (dkeys it)) eqn:E; [|exact I].
    apply smem_In in E. destruct (Hk _ _ Hn) as [Hax SZ]. specialize (P ax E Hax). cbn [item_ok]. unfold in_range. lia. }
  destruct OKr as [b Hb]. exists b. split; auto.
  destruct (getitem_full a z b W Nz Wz Hb) as (Wb & _ & sa & E & AX & _ & S2). split; auto.
  rewrite IS in E. injection E as <-. cbn [dkeys map app] in AX.
  assert (KA : forall ax, In ax (s_axes b) <-> In ax (s_axes a) /\ ~ In ax (dkeys it)).
  { intros ax. rewrite AX, filter_In. unfold z. rewrite dget_zero_item. destruct (smem ax (dkeys it)) eqn:E.
    - apply smem_In in E. cbn. intuition discriminate.
    - assert (~ In ax (dkeys it)) by (intros H; apply smem_In in H; congruence). cbn. tauto. }
  assert (KP : forall ax, ~ In ax (dkeys it) -> dget z ax = None).
  { intros ax H. unfold z. rewrite dget_zero_item. destruct (smem ax (dkeys it)) eqn:E; auto. apply smem_In in E. tauto. }
  intros ax n. unfold others_shape, without. rewrite filter_In. cbn [fst]. rewrite negb_true_iff.
  assert (SM : smem ax (dkeys it) = false <-> ~ In ax (dkeys it)).
  { rewrite <- smem_In. destruct (smem ax (dkeys it)); intuition congruence. }
  rewrite SM. split.
  - intros Hn. assert (Hx := in_map fst _ _ Hn). cbn [fst] in Hx. change (map fst (sshape b)) with (dkeys (sshape b)) in Hx.
    rewrite wf_keys in Hx by auto. apply KA in Hx as [H1 H2]. split; auto.
    rewrite <- wf_keys in H1 by auto. apply in_map_iff in H1 as [[y m] [Ey H1]]. cbn [fst] in Ey. subst y.
    specialize (S2 ax m n H1). rewrite KP in S2 by auto. now rewrite (S2 eq_refl Hn).
  - intros [Hn H2]. destruct (Hk _ _ Hn) as [Hax _]. assert (Hx : In ax (s_axes b)) by (now apply KA).
    rewrite <- wf_keys in Hx by auto. apply in_map_iff in Hx as [[y m] [Ey H1]]. cbn [fst] in Ey. subst y.
    specialize (S2 ax n m Hn). rewrite KP in S2 by auto. now rewrite <- (S2 eq_refl H1).
Qed.

Lemma arange_wf ax n : wf (arange ax n).
Proof. split; [repeat constructor; intros []|reflexivity]. Qed.

Lemma arange_shape ax n : sshape (arange ax n) = [(ax, n)].
Proof. reflexivity. Qed.

Lemma arange_at ax n e : at_ (arange ax n) e = Z.of_nat (e ax).
Proof. reflexivity. Qed.

Lemma dget_ranges (sh : shape) ax :
  dget (map (fun kv => (fst kv, ItArr (arange (fst kv) (snd kv)))) sh) ax =
  match dget sh ax with Some n => Some (ItArr (arange ax n)) | None => None end.
Proof.
  induction sh as [|[k n] sh IH]; auto. cbn [map fst snd dget].
  destruct (String.eqb_spec ax k) as [E|E]; [subst; auto|auto].
Qed.

Lemma NoDup_others a it : wf a -> NoDup (dkeys (others_shape a it)).
Proof.
  intros W. assert (N := wf_nodup a W). unfold others_shape, without. revert N. generalize (sshape a) as sh.
  induction sh as [|[k n] sh IH]; intros N; [constructor|]. inversion N as [|? ? N1 N2]; subst. cbn [filter fst].
  destruct (negb (smem k (dkeys it))); auto. cbn [dkeys map fst]. constructor; auto.
  intros H. apply N1. apply in_map_iff in H as [kv [E H]]. apply filter_In in H as [H _]. rewrite <- E. now apply (in_map fst).
Qed.

Lemma broadcast_attained l B : Forall (fun s : shape => NoDup (dkeys s)) l -> broadcast_shapes l = Ok B ->
  NoDup (dkeys B) /\ attained l B.
Proof.
  intros F E. destruct (broadcast_shapes_ok _ _ F E) as (ND & K & S). split; auto. rewrite Forall_forall in F.
  assert (SZ : forall s ax n, In s l -> In (ax, n) s -> In n (sizes_of l ax) /\ In ax (concat (map dkeys l))).
  { intros s ax n Hs Hn. split.
    - unfold sizes_of. apply in_flat_map. exists s. split; auto. rewrite (dget_NoDup _ _ n); simpl; auto.
    - apply in_concat. exists (dkeys s). split; [now apply in_map|]. now apply (in_map fst) in Hn. }
  split.
  - intros s Hs. split; auto. intros ax n Hn. destruct (SZ s ax n Hs Hn) as [H1 H2].
    assert (Hk : In ax (dkeys B)) by (rewrite K; now apply (proj2 (first_appearance_In _ _))).
    split; auto. apply in_map_iff in Hk as [[ax' k] [Ek Hk]]. simpl in Ek. subst ax'.
    assert (Hk' := Hk). apply S in Hk as [_ [C _]]. destruct (C _ H1) as [-> | ->]; auto.
  - intros ax n Hn. assert (Hn' := Hn). apply S in Hn as [Hk [C1 C2]].
    assert (D : (exists m, In m (sizes_of l ax) /\ m <> 1) \/ forall m, In m (sizes_of l ax) -> m = 1).
    { generalize (sizes_of l ax). induction l0 as [|m l0 IH]; [right; intros m []|].
      destruct (Nat.eq_dec m 1) as [->|Hm]; [|left; exists m; simpl; auto].
      destruct IH as [[m' [H1 H2]]|H]; [left; exists m'; simpl; auto|right; simpl; intros m' [<-|H']; auto]. }
    destruct D as [[m [H1 H2]]|D].
    + destruct (C1 _ H1) as [-> | ->]; [congruence|]. unfold sizes_of in H1. apply in_flat_map in H1 as [s [Hs H1]].
      exists s. split; auto. destruct (dget s ax) as [q|] eqn:Eq; [|destruct H1]. destruct H1 as [->|[]]. now apply dget_In.
    + specialize (C2 D). subst n. apply in_concat in Hk as [ks [Hks Hk]]. apply in_map_iff in Hks as [s [<- Hs]].
      apply in_map_iff in Hk as [[x k] [Ex Hk]]. simpl in Ex. subst x. exists s. split; auto.
      destruct (SZ s ax k Hs Hk) as [H1 _]. rewrite (D k H1) in Hk. auto.
Qed.

Theorem interp_general (a : sarr Qc) (it : dict (sarr Qc)) B : interp_args a it B ->
  exists r, interp_linear a it = Ok r /\ wf r /\ same_shape (sshape r) B /\
    forall e, inside e B ->
      at_ r e = blendq (fracs a it e) (at_ a)
        (fun ax => match dget it ax with Some x => Z.to_nat (low (size_of (sshape a) ax) (bat x e)) | None => bclamp (sshape a) e ax end).
Proof.
  intros (W & ND & NE & FX & E). fold (others_shape a it) in E.
  assert (FX' : forall ax x, In (ax, x) it -> wf x /\ In ax (s_axes a) /\ 2 <= size_of (sshape a) ax).
  { intros ax x Hx. destruct (FX _ _ Hx) as [Wx [n [Hn H2]]]. split; auto. split.
    - rewrite <- wf_keys by auto. now apply (in_map fst) in Hn.
    - now rewrite (size_of_In _ _ _ (wf_nodup a W) Hn). }
  assert (KX : forall ax, In ax (dkeys it) -> exists x, In (ax, x) it).
  { intros ax Hx. apply in_map_iff in Hx as [[k x] [Ek Hx]]. cbn [fst] in Ek. subst. eauto. }
  destruct (zero_index a it W ND) as [b (Eb & Wb & Sb)].
  { intros ax Hx _. destruct (KX ax Hx) as [x Hx']. destruct (FX' _ _ Hx') as (_ & _ & H). lia. }
  unfold interp_linear. destruct it as [|kv it0] eqn:EI; [congruence|]. rewrite <- EI in *. clear EI kv it0.
  rewrite Eb. cbn [bind].
  assert (F : Forall (fun s : shape => NoDup (dkeys s)) (others_shape a it :: map (fun kv => sshape (snd kv)) it)).
  { constructor; [now apply NoDup_others|]. apply Forall_forall. intros s Hs. apply in_map_iff in Hs as [[k x] [<- Hx]].
    apply wf_nodup. apply (FX' _ _ Hx). }
  destruct (broadcast_attained _ _ F E) as [NB [AC AT]].
  set (ix := fun ax => OpArr (arange ax (size_of (sshape a) ax))).
  assert (BK : forall ax, In ax (dkeys (sshape b)) <-> In ax (s_axes a) /\ ~ In ax (dkeys it)).
  { intros ax. split.
    - intros H. apply in_map_iff in H as [[k n] [Ek H]]. cbn [fst] in Ek. subst k. apply Sb in H. unfold others_shape, without in H.
      apply filter_In in H as [H1 H2]. cbn [fst] in H2. split.
      + rewrite <- wf_keys by auto. now apply (in_map fst) in H1.
      + intros H3. apply smem_In in H3. rewrite H3 in H2. discriminate.
    - intros [H1 H2]. rewrite <- wf_keys in H1 by auto. apply in_map_iff in H1 as [[k n] [Ek H1]]. cbn [fst] in Ek. subst k.
      apply (in_map fst) with (x := (ax, n)). apply Sb. apply filter_In. split; auto. cbn [fst].
      destruct (smem ax (dkeys it)) eqn:Es; auto. apply smem_In in Es. tauto. }
  assert (SZB : forall ax n, In (ax, n) (sshape b) -> size_of (sshape a) ax = n).
  { intros ax n Hn. apply Sb in Hn. apply filter_In in Hn as [Hn _]. apply size_of_In; auto. now apply wf_nodup. }
  destruct (interp_rec_spec a it W (map (fun kv => (fst kv, ItArr (arange (fst kv) (snd kv)))) (sshape b)) ix B NE NB)
    as [r (Er & Wr & Sr & Gr)].
  - split; auto. split.
    + intros ax Hx. destruct (KX ax Hx) as [x Hx']. apply (FX' _ _ Hx').
    + intros ax x Hx. destruct (FX' _ _ Hx) as (H1 & H2 & H3). split; auto. split; auto.
      apply AC. right. apply in_map_iff. exists (ax, x). auto.
  - assert (KB : dkeys (map (fun kv : string * nat => (fst kv, ItArr (arange (fst kv) (snd kv)))) (sshape b)) = dkeys (sshape b))
      by (unfold dkeys; now rewrite map_map).
    split; [|split].
    + rewrite KB. now apply wf_nodup.
    + intros ax. rewrite KB. apply BK.
    + intros ax H1 H2. assert (Hb : In ax (dkeys (sshape b))) by (apply BK; auto).
      apply in_map_iff in Hb as [[k n] [Ek Hb]]. cbn [fst] in Ek. subst k. assert (SZ := SZB _ _ Hb).
      unfold ix. rewrite dget_ranges, (dget_NoDup _ _ _ (wf_nodup b Wb) Hb), SZ. split; [reflexivity|]. split; [apply arange_wf|].
      split.
      * cbn [op_ok]. intros e He. rewrite arange_at. rewrite arange_shape in He. specialize (He ax n (or_introl eq_refl)). lia.
      * cbn [op_shape]. rewrite arange_shape. intros ax' m [Em|[]]. injection Em as <- <-.
        apply (AC (others_shape a it)); [simpl; auto|]. apply Sb. auto.
  - intros k n Hk. destruct (AT k n Hk) as [s [[<-|Hs] Hin]].
    + left. exists k. assert (Hb : In k (dkeys (sshape b))).
      { apply (in_map fst) with (x := (k, n)). apply Sb. auto. }
      apply BK in Hb as [H1 H2]. split; auto. split; auto. unfold ix. cbn [op_shape]. rewrite arange_shape. left.
      unfold others_shape, without in Hin. apply filter_In in Hin as [Hin _]. f_equal. apply size_of_In; auto. now apply wf_nodup.
    + right. apply in_map_iff in Hs as [[ax x] [<- Hx]]. eauto.
  - exists r. split; auto. split; auto. split; auto. intros e He. rewrite (Gr e He).
    rewrite (blend_ext _ _ _ _ (fracs a it e) (at_ a) (at_ a) (at_vext a) (at_vext a)) with
      (e' := fun ax => match dget it ax with Some x => Z.to_nat (low (size_of (sshape a) ax) (bat x e)) | None => bclamp (sshape a) e ax end); auto.
    + replace (dkeys (fracs a it e)) with (dkeys it); auto. unfold dkeys, fracs. now rewrite map_map.
    + intros d Hd. apply at_ext. intros ax Hax. unfold corner. destruct (dget it ax) as [x|] eqn:Ex; auto.
      unfold ix. cbn [op_at]. unfold bat. rewrite arange_at. unfold bclamp. rewrite arange_shape. cbn [dget]. rewrite String.eqb_refl.
      assert (Hb : In ax (dkeys (sshape a))) by (now rewrite wf_keys).
      apply in_map_iff in Hb as [[k n] [Ek Hb]]. cbn [fst] in Ek. subst k.
      rewrite (size_of_In _ _ _ (wf_nodup a W) Hb), (dget_NoDup _ _ _ (wf_nodup a W) Hb).
      destruct n as [|[|n]]; now rewrite Nat2Z.id.
Qed.

(** ** The consequences *)

Lemma In_dget_it (it : dict (sarr Qc)) ax : NoDup (dkeys it) -> In ax (dkeys it) -> exists x, In (ax, x) it /\ dget it ax = Some x.
Proof.
  intros N H. apply in_map_iff in H as [[k x] [Ek H]]. cbn [fst] in Ek. subst k. exists x. split; auto. now apply dget_NoDup.
Qed.

Lemma fracs_keys a it e : dkeys (fracs a it e) = dkeys it.
Proof. unfold dkeys, fracs. now rewrite map_map. Qed.

(** for given segments *)
Lemma interp_cell (a : sarr Qc) (it : dict (sarr Qc)) B : interp_args a it B ->
  exists r, interp_linear a it = Ok r /\ wf r /\ same_shape (sshape r) B /\
    forall e k, inside e B ->
      (forall ax x, In (ax, x) it -> segment (size_of (sshape a) ax) (bat x e) (k ax)) ->
      at_ r e = blendq (map (fun kv => (fst kv, bat (snd kv) e - qnat (k (fst kv)))%Qc) it) (at_ a)
        (cell (sshape a) (dkeys it) k e).
Proof.
  intros H. destruct (interp_general a it B H) as [r (E & W & S & G)]. exists r. split; auto. split; auto. split; auto.
  intros e k He Hk. rewrite (G e He). destruct H as (_ & ND & _).
  replace (fracs a it e) with (map (fun kv => (fst kv, bat (snd kv) e - qnat (k (fst kv)))%Qc) it).
  - apply blend_env; [apply at_vext|]. intros ax. unfold cell. destruct (smem ax (dkeys it)) eqn:Es.
    + apply smem_In in Es. destruct (In_dget_it it ax ND Es) as [x [Hx ->]].
      rewrite (low_segment _ _ _ (Hk _ _ Hx)). lia.
    + rewrite (proj2 (dget_None it ax)); auto. intros Hx. apply smem_In in Hx. congruence.
  - unfold fracs. apply map_ext_in. intros [ax x] Hx. cbn [fst snd]. now rewrite (low_segment _ _ _ (Hk _ _ Hx)).
Qed.

Theorem interp_spec (a : sarr Qc) (it : dict (sarr Qc)) B : interp_args a it B ->
  exists r, interp_linear a it = Ok r /\ wf r /\ same_shape (sshape r) B /\
    forall e k, inside e B ->
      (forall ax x, In (ax, x) it -> segment (size_of (sshape a) ax) (bat x e) (k ax)) ->
      at_ r e = sum Qcplus (Q2Qc 0) (map (fun c => (at_ a c *
          weight Qcmult Qcminus (Q2Qc 1) (map (fun kv => (fst kv, bat (snd kv) e - qnat (k (fst kv)))%Qc) it)
            (cell (sshape a) (dkeys it) k e) c)%Qc)
        (corners (dkeys it) (cell (sshape a) (dkeys it) k e))).
Proof.
  intros H. destruct (interp_cell a it B H) as [r (E & W & S & G)]. exists r. split; auto. split; auto. split; auto.
  intros e k He Hk. rewrite (G e k He Hk). destruct H as (_ & ND & _).
  assert (K : dkeys (map (fun kv : string * sarr Qc => (fst kv, bat (snd kv) e - qnat (k (fst kv)))%Qc) it) = dkeys it)
    by (unfold dkeys; now rewrite map_map).
  rewrite (blend_sum Qcplus Qcmult Qcminus Qcopp (Q2Qc 0) (Q2Qc 1) Qcrt _ (cell (sshape a) (dkeys it) k e)); rewrite ?K; auto.
Qed.

(** one axis *)
Theorem interp_one (a x : sarr Qc) ax B : interp_args a [(ax, x)] B ->
  exists r, interp_linear a [(ax, x)] = Ok r /\ wf r /\ same_shape (sshape r) B /\
    forall e k, inside e B -> segment (size_of (sshape a) ax) (bat x e) k ->
      at_ r e = (bat a (set_env e ax k) + (bat x e - qnat k) * (bat a (set_env e ax (k + 1)) - bat a (set_env e ax k)))%Qc.
Proof.
  intros H. assert (H' := H). destruct (interp_cell a [(ax, x)] B H) as [r (E & W & S & G)]. exists r. split; auto. split; auto. split; auto.
  intros e k He Hk. rewrite (G e (fun _ => k) He) by (intros ax' x' [Ex|[]]; injection Ex as <- <-; auto).
  cbn [map fst snd blend]. destruct H' as (Wa & _ & _ & FX & _).
  destruct (FX ax x (or_introl eq_refl)) as (_ & n & Hn & H2).
  assert (DG := dget_NoDup _ _ _ (wf_nodup a Wa) Hn).
  assert (V : forall j, bat a (set_env e ax j) = at_ a (fun y => if String.eqb y ax then j else bclamp (sshape a) e y)).
  { intros j. unfold bat. apply at_ext. intros y Hy. unfold bclamp at 1. unfold set_env. destruct (String.eqb_spec y ax) as [->|Ey].
    - rewrite DG. destruct n as [|[|n]]; lia || reflexivity.
    - reflexivity. }
  rewrite !V.
  rewrite (at_vext a (cell (sshape a) (dkeys [(ax, x)]) (fun _ => k) e) (fun y => if String.eqb y ax then k else bclamp (sshape a) e y)).
  2:{ intros y. unfold cell. cbn [dkeys map fst smem existsb]. now destruct (String.eqb_spec y ax); rewrite ?orb_false_r. }
  rewrite (at_vext a (set_env (cell (sshape a) (dkeys [(ax, x)]) (fun _ => k) e) ax
      (Datatypes.S (cell (sshape a) (dkeys [(ax, x)]) (fun _ => k) e ax))) (fun y => if String.eqb y ax then k + 1 else bclamp (sshape a) e y)).
  2:{ intros y. unfold set_env, cell. cbn [dkeys map fst smem existsb]. rewrite String.eqb_refl. cbn [orb].
      destruct (String.eqb_spec y ax); auto. lia. }
  ring.
Qed.

(** integer positions *)
Lemma blend_vertex (i : dict Qc) (v : env -> Qc) (p : string -> nat) : vext v -> NoDup (dkeys i) -> forall e,
  (forall ax w, In (ax, w) i -> (w = Q2Qc 0 /\ p ax = e ax) \/ (w = Q2Qc 1 /\ p ax = S (e ax))) ->
  blendq i v e = v (fun ax => if smem ax (dkeys i) then p ax else e ax).
Proof.
  intros V. induction i as [|[ax w] i IH]; intros ND e H; cbn [blend].
  - apply V. auto.
  - inversion ND as [|? ? NI ND']; subst. destruct (H ax w (or_introl eq_refl)) as [[-> Hp]|[-> Hp]].
    + rewrite IH; auto; [|intros; apply H; simpl; auto].
      transitivity (v (fun y => if smem y (dkeys i) then p y else e y)); [ring|].
      apply V. intros y. cbn [dkeys map fst smem existsb]. destruct (String.eqb_spec y ax) as [->|E]; auto.
      cbn [orb]. destruct (smem ax (dkeys i)); auto.
    + rewrite (IH ND' (set_env e ax (S (e ax)))).
      * transitivity (v (fun y => if smem y (dkeys i) then p y else set_env e ax (S (e ax)) y)); [ring|].
        apply V. intros y. cbn [dkeys map fst smem existsb]. unfold set_env. destruct (String.eqb_spec y ax) as [->|E]; auto.
        cbn [orb]. destruct (smem ax (dkeys i)); auto.
      * intros y u Hy. assert (y <> ax) by (intros ->; apply NI; now apply (in_map fst) in Hy).
        unfold set_env. destruct (String.eqb_spec y ax); [congruence|]. apply H. simpl. auto.
Qed.

Lemma qz_floor z : Qfloor (this (qz z)) = z.
Proof.
  transitivity (Qfloor (inject_Z z)); [|apply Qfloor_Z]. apply Qfloor_comp. apply qz_this.
Qed.

Theorem interp_vertex (a : sarr Qc) (it : dict (sarr Qc)) B : interp_args a it B ->
  exists r, interp_linear a it = Ok r /\
    forall e p, inside e B ->
      (forall ax x, In (ax, x) it -> p ax < size_of (sshape a) ax /\ bat x e = qnat (p ax)) ->
      at_ r e = at_ a (cell (sshape a) (dkeys it) p e).
Proof.
  intros H. assert (H' := H). destruct H' as (Wa & ND & _ & FX & _).
  destruct (interp_general a it B H) as [r (E & W & S & G)]. exists r. split; auto.
  intros e p He Hp. rewrite (G e He).
  rewrite (blend_vertex _ _ p (at_vext a)).
  - rewrite fracs_keys. apply at_vext. intros ax. unfold cell. destruct (smem ax (dkeys it)) eqn:Es; auto.
    rewrite (proj2 (dget_None it ax)); auto. intros Hx. apply smem_In in Hx. congruence.
  - now rewrite fracs_keys.
  - intros ax w Hw. apply in_map_iff in Hw as [[k x] [Ew Hx]]. cbn [fst snd] in Ew. injection Ew as -> <-.
    destruct (Hp _ _ Hx) as [H1 ->]. rewrite (dget_NoDup _ _ _ ND Hx).
    destruct (Hp _ _ Hx) as [_ ->]. destruct (FX _ _ Hx) as (_ & n & Hn & H2).
    rewrite (size_of_In _ _ _ (wf_nodup a Wa) Hn) in *.
    unfold qnat. change qint with qz.
    assert (L : low n (qz (Z.of_nat (p ax))) = if p ax =? n - 1 then (Z.of_nat n - 2)%Z else Z.of_nat (p ax)).
    { unfold low. destruct (qc_ltb (qz (Z.of_nat (p ax))) (qz 0)) eqn:E1.
      { apply qc_ltb_lt in E1. rewrite lt_qz_floor, qz_floor in E1. lia. }
      rewrite qz_floor. destruct (qc_leb (qz (Z.of_nat n - 1)) (qz (Z.of_nat (p ax)))) eqn:E2.
      - apply qc_leb_le in E2. rewrite qz_le_floor, qz_floor in E2. destruct (Nat.eqb_spec (p ax) (n - 1)); lia.
      - destruct (Nat.eqb_spec (p ax) (n - 1)) as [Ep|]; auto. exfalso.
        assert (C : (qz (Z.of_nat n - 1) <= qz (Z.of_nat (p ax)))%Qc) by (rewrite qz_le_floor, qz_floor; lia).
        apply qc_leb_le in C. congruence. }
    rewrite L. destruct (Nat.eqb_spec (p ax) (n - 1)) as [Ep|Ep].
    + right. split; [|lia]. rewrite <- qz_sub. replace (Z.of_nat (p ax) - (Z.of_nat n - 2))%Z with 1%Z by lia. reflexivity.
    + left. split; [|lia]. rewrite <- qz_sub. replace (Z.of_nat (p ax) - Z.of_nat (p ax))%Z with 0%Z by lia. reflexivity.
Qed.

(** affine data *)
Lemma of_nat_qz n : of_nat Qcplus (Q2Qc 0) (Q2Qc 1) n = qz (Z.of_nat n).
Proof.
  induction n as [|n IH]; auto. cbn [of_nat]. rewrite IH, Nat2Z.inj_succ.
  change (Z.succ (Z.of_nat n)) with (Z.of_nat n + 1)%Z. rewrite qz_add. reflexivity.
Qed.

Theorem interp_affine (a : sarr Qc) (it : dict (sarr Qc)) B c s : interp_args a it B ->
  (forall e, inside e (sshape a) -> at_ a e = affine Qcplus Qcmult (Q2Qc 0) c s (s_axes a) (fun ax => qnat (e ax))) ->
  exists r, interp_linear a it = Ok r /\
    forall e, inside e B ->
      at_ r e = affine Qcplus Qcmult (Q2Qc 0) c s (s_axes a)
        (fun ax => match dget it ax with Some x => bat x e | None => qnat (bclamp (sshape a) e ax) end).
Proof.
  intros H HA. assert (H' := H). destruct H' as (Wa & ND & _ & FX & EB).
  destruct (interp_general a it B H) as [r (E & W & S & G)]. exists r. split; auto.
  intros e He. rewrite (G e He).
  rewrite (blend_ext _ _ _ _ (fracs a it e) (at_ a)
    (fun e => affine Qcplus Qcmult (Q2Qc 0) c s (s_axes a) (fun ax => of_nat Qcplus (Q2Qc 0) (Q2Qc 1) (e ax)))
    (at_vext a)) with
      (e' := fun ax => match dget it ax with Some x => Z.to_nat (low (size_of (sshape a) ax) (bat x e)) | None => bclamp (sshape a) e ax end).
  - rewrite (blend_affine Qcplus Qcmult Qcminus Qcopp (Q2Qc 0) (Q2Qc 1) Qcrt) by (now rewrite fracs_keys).
    unfold affine. f_equal. f_equal. apply map_ext_in. intros ax Hax. f_equal. rewrite of_nat_qz.
    assert (DF : dget (fracs a it e) ax = option_map (fun x => bat x e - qz (low (size_of (sshape a) ax) (bat x e)))%Qc (dget it ax)).
    { unfold fracs. clear. induction it as [|[k x] it IH]; auto. cbn [map fst snd dget].
      destruct (String.eqb_spec ax k) as [->|]; auto. }
    rewrite DF. destruct (dget it ax) as [x|] eqn:Ex; cbn [option_map].
    + apply dget_In in Ex. destruct (FX _ _ Ex) as (_ & n & Hn & H2).
      rewrite (size_of_In _ _ _ (wf_nodup a Wa) Hn).
      assert (R := low_range n (bat x e) H2). rewrite Z2Nat.id by lia. ring.
    + unfold qnat. change qint with qz. ring.
  - intros e1 e2 He12. unfold affine. f_equal. f_equal. apply map_ext. intros ax. now rewrite He12.
  - now rewrite fracs_keys.
  - rewrite fracs_keys. intros d Hd.
    rewrite HA.
    + unfold affine. f_equal. f_equal. apply map_ext. intros ax. now rewrite of_nat_qz.
    + intros ax n Hn. destruct (Hd ax) as [D1 D2]. destruct (dget it ax) as [x|] eqn:Ex.
      * apply dget_In in Ex. destruct (FX _ _ Ex) as (_ & m & Hm & H2).
        assert (m = n) by (rewrite <- (size_of_In _ _ _ (wf_nodup a Wa) Hm); now apply size_of_In; [apply wf_nodup|]). subst m.
        rewrite (size_of_In _ _ _ (wf_nodup a Wa) Hn). assert (R := low_range n (bat x e) H2). lia.
      * assert (NI : ~ In ax (dkeys it)) by (now apply dget_None). rewrite (D2 NI), Nat.add_0_r.
        assert (F : Forall (fun s : shape => NoDup (dkeys s)) (others_shape a it :: map (fun kv => sshape (snd kv)) it)).
        { constructor; [now apply NoDup_others|]. apply Forall_forall. intros s0 Hs. apply in_map_iff in Hs as [[k x] [<- Hx]].
          apply wf_nodup. apply (FX _ _ Hx). }
        destruct (broadcast_attained _ _ F EB) as [NB [AC _]].
        destruct (AC (others_shape a it)) as [No C]; [simpl; auto|].
        assert (Ho : In (ax, n) (others_shape a it)).
        { apply filter_In. split; auto. cbn [fst]. destruct (smem ax (dkeys it)) eqn:Es; auto. apply smem_In in Es. tauto. }
        assert (K := covered_clamp _ _ e No NB C He ax n Ho). unfold bclamp in *.
        rewrite (dget_NoDup _ _ _ No Ho) in K. now rewrite (dget_NoDup _ _ _ (wf_nodup a Wa) Hn).
Qed.

(** the order of the axes *)
Lemma blend_perm (i i' : dict Qc) v : Permutation i i' -> vext v -> NoDup (dkeys i) -> forall e, blendq i v e = blendq i' v e.
Proof.
  intros P V. induction P as [|[ax w] i i' P IH|[ax w] [ax' w'] i|i i' i'' P1 IH1 P2 IH2]; intros ND e; auto; cbn [blend].
  - inversion ND; subst. now rewrite !IH.
  - inversion ND as [|? ? NI _]; subst. assert (ax <> ax') by (intros ->; apply NI; simpl; auto).
    rewrite (blend_env i v V (set_env (set_env e ax (S (e ax))) ax' (S (set_env e ax (S (e ax)) ax')))
      (set_env (set_env e ax' (S (e ax'))) ax (S (set_env e ax' (S (e ax')) ax)))).
    2:{ intros x. unfold set_env. destruct (String.eqb_spec x ax), (String.eqb_spec x ax'); subst; try congruence;
        destruct (String.eqb_spec ax ax'), (String.eqb_spec ax' ax); congruence. }
    ring.
  - rewrite IH1 by auto. apply IH2. unfold dkeys in *. now rewrite <- (Permutation_map fst P1).
Qed.

Lemma dget_perm (it it' : dict (sarr Qc)) ax : NoDup (dkeys it) -> Permutation it it' -> dget it ax = dget it' ax.
Proof.
  intros N P. assert (N' : NoDup (dkeys it')) by (unfold dkeys in *; now rewrite <- (Permutation_map fst P)).
  destruct (dget it ax) as [x|] eqn:E.
  - apply dget_In in E. apply (Permutation_in _ P) in E. symmetry. now apply dget_NoDup.
  - symmetry. apply dget_None. apply dget_None in E. intros H. apply E. unfold dkeys in *.
    now apply (Permutation_in _ (Permutation_sym (Permutation_map fst P))).
Qed.

Theorem interp_order (a : sarr Qc) (it it' : dict (sarr Qc)) B : interp_args a it B -> Permutation it it' ->
  exists r r', interp_linear a it = Ok r /\ interp_linear a it' = Ok r' /\ same_array r r'.
Proof.
  intros H P. assert (H' := H). destruct H' as (Wa & ND & NE & FX & EB).
  assert (ND' : NoDup (dkeys it')) by (unfold dkeys in *; now rewrite <- (Permutation_map fst P)).
  assert (F : Forall (fun s : shape => NoDup (dkeys s)) (without (sshape a) (dkeys it) :: map (fun kv => sshape (snd kv)) it)).
  { constructor; [now apply (NoDup_others a it)|]. apply Forall_forall. intros s0 Hs. apply in_map_iff in Hs as [[k x] [<- Hx]].
    apply wf_nodup. apply (FX _ _ Hx). }
  assert (WO : without (sshape a) (dkeys it) = without (sshape a) (dkeys it')).
  { unfold without. apply filter_ext. intros [k n]. cbn [fst]. f_equal.
    assert (X : In k (dkeys it) <-> In k (dkeys it')).
    { unfold dkeys. split; apply Permutation_in; [|apply Permutation_sym]; now apply Permutation_map. }
    rewrite <- !smem_In in X. destruct (smem k (dkeys it)), (smem k (dkeys it')); intuition congruence. }
  assert (PP : Permutation (without (sshape a) (dkeys it) :: map (fun kv => sshape (snd kv)) it)
                           (without (sshape a) (dkeys it') :: map (fun kv => sshape (snd kv)) it')).
  { rewrite WO. constructor. now apply Permutation_map. }
  assert (BP := broadcast_shapes_perm _ _ F PP). rewrite EB in BP.
  destruct (broadcast_shapes (without (sshape a) (dkeys it') :: map (fun kv => sshape (snd kv)) it')) as [B'|] eqn:EB'; [|destruct BP].
  assert (H' : interp_args a it' B').
  { split; auto. split; auto. split; [intros ->; apply Permutation_sym, Permutation_nil in P; auto|]. split; auto.
    intros ax x Hx. apply FX. now apply (Permutation_in _ (Permutation_sym P)). }
  destruct (interp_general a it B H) as [r (E & W & S & G)].
  destruct (interp_general a it' B' H') as [r' (E' & W' & S' & G')].
  exists r, r'. split; auto. split; auto. split.
  - intros ax n. rewrite (S ax n), (S' ax n). apply BP.
  - intros e He. assert (HB : inside e B) by (intros ax n Hn; apply He, S, Hn).
    assert (HB' : inside e B') by (intros ax n Hn; apply HB, BP, Hn).
    rewrite (G e HB), (G' e HB').
    rewrite (blend_perm (fracs a it e) (fracs a it' e)); [|now apply Permutation_map|apply at_vext|now rewrite fracs_keys].
    apply blend_env; [apply at_vext|]. intros ax. now rewrite (dget_perm it it').
Qed.

(** refusals *)
Lemma interp_absent (a : sarr Qc) ax x : wf a -> ~ In ax (s_axes a) -> interp_linear a [(ax, x)] = Err KeyError.
Proof.
  intros W NI. unfold interp_linear. cbn [map fst].
  assert (E : getitem a [(ax, ItInt 0)] = Ok a).
  { apply getitem_empty. cbn [filter fst]. destruct (smem ax (s_axes a)) eqn:Es; auto. apply smem_In in Es. tauto. }
  rewrite E. cbn [bind interp_rec].
  rewrite (proj2 (dget_None (sshape a) ax)) by (rewrite wf_keys; auto). reflexivity.
Qed.
