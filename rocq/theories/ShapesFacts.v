(** Facts about [broadcast_shapes]. *)
From Coq Require Import String List Arith ZArith Bool Lia Permutation.
From Verif Require Import Base BaseFacts Numpy NumpyFacts Shapes Scalar Spec.
Import ListNotations.
Open Scope nat_scope.
Open Scope list_scope.

Lemma foldM_app {A B} (f : A -> B -> res A) l1 l2 a :
  foldM f (l1 ++ l2) a = bind (foldM f l1 a) (foldM f l2).
Proof.
  revert a; induction l1; simpl; intros; auto.
  destruct (f a0 a); simpl; auto.
Qed.

Lemma common_size_bjoin l n : common_size l n <-> bjoin l n.
Proof. unfold common_size, bjoin. now rewrite !Forall_forall. Qed.

(** *** the shortcut is harmless *)

Lemma bs_axis_same r kv : dget r (fst kv) = Some (snd kv) -> bs_axis r kv = Ok r.
Proof. destruct kv; simpl. intros ->. now rewrite Nat.eqb_refl. Qed.

Lemma bs_shape_fold s r : NoDup (dkeys s) -> bs_shape r s = foldM bs_axis s r.
Proof.
  intros ND. unfold bs_shape. destruct (dict_eqb s r) eqn:E; auto.
  unfold dict_eqb in E. apply andb_true_iff in E as [_ E]. rewrite forallb_forall in E.
  assert (G : forall l, (forall x, In x l -> In x s) -> foldM bs_axis l r = Ok r).
  { induction l; simpl; intros H; auto.
    rewrite bs_axis_same; simpl.
    - apply IHl. intros; apply H; auto.
    - specialize (E a (H _ (or_introl eq_refl))).
      destruct (dget r (fst a)); [|discriminate]. apply Nat.eqb_eq in E. congruence. }
  symmetry. apply G. auto.
Qed.

Lemma dset_new {V} (d : dict V) k v : ~ In k (dkeys d) -> dset d k v = d ++ [(k, v)].
Proof.
  induction d as [|[k' v'] d IH]; simpl; intros H; auto.
  destruct (String.eqb_spec k k'); [subst; tauto|]. f_equal. apply IH. tauto.
Qed.

Lemma bs_first s acc : NoDup (dkeys (acc ++ s)) -> foldM bs_axis s acc = Ok (acc ++ s).
Proof.
  revert acc; induction s as [|[ax n] s IH]; intros acc ND.
  - simpl. now rewrite app_nil_r.
  - cbn [foldM]. unfold bs_axis at 1.
    assert (Hn : ~ In ax (dkeys acc)).
    { unfold dkeys in *. rewrite map_app in ND. simpl in ND.
      apply NoDup_remove_2 in ND. intros H. apply ND. apply in_or_app; auto. }
    rewrite (proj2 (dget_None acc ax) Hn). simpl. rewrite dset_new by auto.
    rewrite IH; rewrite <- app_assoc; auto.
Qed.

Lemma broadcast_shapes_entries l :
  Forall (fun s => NoDup (dkeys s)) l ->
  broadcast_shapes l = foldM bs_axis (concat l) [].
Proof.
  intros H. destruct l as [|s l]; auto. inversion H; subst. simpl.
  rewrite foldM_app. rewrite (bs_first s []) by auto. simpl.
  clear H H2. revert s. induction l as [|t l IH]; simpl; intros s; auto.
  inversion H3; subst. rewrite foldM_app, bs_shape_fold by auto.
  destruct (foldM bs_axis t s); simpl; auto.
Qed.

(** *** the invariant of the loop *)

Definition esizes (es : list (string * nat)) (ax : string) : list nat :=
  map snd (filter (fun kv => String.eqb ax (fst kv)) es).

Definition bs_inv (es : list (string * nat)) (r : shape) : Prop :=
  NoDup (dkeys r) /\
  dkeys r = first_appearance (map fst es) /\
  forall ax n, dget r ax = Some n -> bjoin (esizes es ax) n.

Lemma first_appearance_snoc l x :
  first_appearance (l ++ [x]) =
  if smem x l then first_appearance l else first_appearance l ++ [x].
Proof.
  unfold first_appearance. rewrite rev_app_distr. simpl.
  destruct (in_dec string_dec x (rev l)) as [i|i].
  - rewrite (proj2 (smem_In x l)); auto. now apply in_rev.
  - rewrite (proj2 (smem_false x l)); [reflexivity|]. intros H. apply i. now apply in_rev in H.
Qed.

Lemma first_appearance_In l x : In x (first_appearance l) <-> In x l.
Proof.
  unfold first_appearance. rewrite <- in_rev, nodup_In, <- in_rev. tauto.
Qed.

Lemma first_appearance_NoDup l : NoDup (first_appearance l).
Proof. unfold first_appearance. apply NoDup_rev, NoDup_nodup. Qed.

Lemma esizes_snoc es ax k ax' :
  esizes (es ++ [(ax, k)]) ax' = esizes es ax' ++ (if String.eqb ax' ax then [k] else []).
Proof.
  unfold esizes. rewrite filter_app, map_app. simpl. destruct (String.eqb ax' ax); auto.
Qed.

Lemma bjoin_perm l l' k : Permutation l l' -> bjoin l k -> bjoin l' k.
Proof.
  intros P [H1 H2]. split.
  - eapply Permutation_Forall; eauto.
  - intros H. apply H2. eapply Permutation_Forall; [symmetry|]; eauto.
Qed.

Lemma bjoin_snoc l m j k : bjoin l j -> bsize m j = Some k -> bjoin (l ++ [m]) k.
Proof.
  intros H1 H2. apply bjoin_perm with (l := m :: l).
  - apply Permutation_cons_append.
  - apply bjoin_cons. eauto.
Qed.

Lemma esizes_nil es ax : ~ In ax (map fst es) -> esizes es ax = [].
Proof.
  intros H. unfold esizes. rewrite filter_none; auto. intros [k v] Hin. simpl.
  apply String.eqb_neq. intros <-. apply H. apply (in_map fst) in Hin. auto.
Qed.

Lemma bs_axis_inv es r kv r' :
  bs_inv es r -> bs_axis r kv = Ok r' -> bs_inv (es ++ [kv]) r'.
Proof.
  destruct kv as [ax k]. intros (ND & K & S) E. unfold bs_axis in E.
  assert (KM : forall x, smem x (map fst es) = smem x (dkeys r)).
  { intros x. destruct (smem x (dkeys r)) eqn:Ex.
    - apply smem_In. apply smem_In in Ex. rewrite K in Ex. exact (proj1 (first_appearance_In _ _) Ex).
    - apply smem_false. apply smem_false in Ex. intros H. apply Ex. rewrite K.
      exact (proj2 (first_appearance_In _ _) H). }
  assert (KK : forall d : shape, dkeys d = dkeys r -> dget r ax <> None ->
                dkeys d = first_appearance (map fst (es ++ [(ax, k)]))).
  { intros d Hd Hn. rewrite map_app. simpl. rewrite first_appearance_snoc, KM.
    rewrite (proj2 (smem_In ax (dkeys r))); [congruence|].
    destruct (dget r ax) eqn:E1; [|congruence]. apply dget_Some_key; eauto. }
  destruct (dget r ax) as [n|] eqn:G.
  - assert (J := S _ _ G).
    assert (R : forall n', bsize k n = Some n' -> n' = n ->
                forall ax' m, dget r ax' = Some m -> bjoin (esizes (es ++ [(ax, k)]) ax') m).
    { intros n' B <- ax' m Hm. rewrite esizes_snoc.
      destruct (String.eqb_spec ax' ax).
      - subst. rewrite G in Hm. injection Hm as <-. eapply bjoin_snoc; eauto.
      - rewrite app_nil_r. auto. }
    destruct (Nat.eqb_spec n k); [|destruct (Nat.eqb_spec k 1); [|destruct (Nat.eqb_spec n 1)]];
      try discriminate; injection E as <-.
    + split; [auto|split]; [apply KK; congruence|].
      eapply R; [|reflexivity]. apply bsize_spec. subst. split; auto. now destruct (k =? 1).
    + split; [auto|split]; [apply KK; congruence|].
      eapply R; [|reflexivity]. apply bsize_spec. subst. split; auto.
    + split; [|split].
      * now apply NoDup_dset.
      * apply KK; [|congruence]. rewrite dkeys_dset.
        rewrite (proj2 (smem_In ax (dkeys r))); auto. apply dget_Some_key; eauto.
      * intros ax' m Hm. rewrite dget_dset in Hm. rewrite esizes_snoc.
        destruct (String.eqb_spec ax' ax).
        -- injection Hm as <-. subst. eapply bjoin_snoc; eauto.
           apply bsize_spec. split; auto. destruct (Nat.eqb_spec k 1); auto.
        -- rewrite app_nil_r. auto.
  - injection E as <-. assert (Hn := G). apply dget_None in Hn.
    split; [|split].
    + now apply NoDup_dset.
    + rewrite dkeys_dset, map_app. simpl. rewrite first_appearance_snoc, KM.
      rewrite (proj2 (smem_false ax (dkeys r))) by auto. congruence.
    + intros ax' m Hm. rewrite dget_dset in Hm. rewrite esizes_snoc.
      destruct (String.eqb_spec ax' ax).
      * injection Hm as <-. subst. rewrite esizes_nil.
        -- simpl. apply bjoin_cons. exists 1. split; [now apply bjoin_nil|].
           apply bsize_spec. split; auto. destruct (Nat.eqb_spec k 1); auto.
        -- intros H. apply Hn. rewrite K. exact (proj2 (first_appearance_In _ _) H).
      * rewrite app_nil_r. auto.
Qed.

Lemma bs_fold_inv es0 es r r' :
  bs_inv es0 r -> foldM bs_axis es r = Ok r' -> bs_inv (es0 ++ es) r'.
Proof.
  revert es0 r; induction es as [|kv es IH]; simpl; intros es0 r H E.
  - injection E as <-. now rewrite app_nil_r.
  - destruct (bs_axis r kv) eqn:B; simpl in E; [|discriminate].
    replace (es0 ++ kv :: es) with ((es0 ++ [kv]) ++ es) by (rewrite <- app_assoc; auto).
    eapply IH; eauto. eapply bs_axis_inv; eauto.
Qed.

Lemma bs_fold_err es0 es r e :
  bs_inv es0 r -> foldM bs_axis es r = Err e ->
  e = ValueError /\
  exists ax n m, In n (esizes (es0 ++ es) ax) /\ In m (esizes (es0 ++ es) ax) /\
                 n <> m /\ n <> 1 /\ m <> 1.
Proof.
  revert es0 r; induction es as [|kv es IH]; simpl; intros es0 r H E; [discriminate|].
  replace (es0 ++ kv :: es) with ((es0 ++ [kv]) ++ es) by (rewrite <- app_assoc; auto).
  destruct (bs_axis r kv) eqn:B; simpl in E.
  - eapply IH; eauto. eapply bs_axis_inv; eauto.
  - injection E as ->. destruct kv as [ax k]. unfold bs_axis in B.
    destruct (dget r ax) as [n|] eqn:G; [|discriminate].
    destruct (Nat.eqb_spec n k); [discriminate|].
    destruct (Nat.eqb_spec k 1); [discriminate|].
    destruct (Nat.eqb_spec n 1); [discriminate|].
    injection B as <-. split; auto. exists ax, n, k.
    destruct H as (_ & _ & S). destruct (bjoin_in _ _ (S _ _ G)); [contradiction|].
    assert (I : forall x es1 es2 a, In x (esizes es1 a) -> In x (esizes (es1 ++ es2) a)).
    { intros. unfold esizes in *. rewrite filter_app, map_app. apply in_or_app; auto. }
    split; [|split; [|auto]].
    + apply I, I. auto.
    + apply I. rewrite esizes_snoc, String.eqb_refl. apply in_or_app; right; simpl; auto.
Qed.

Lemma bs_inv_nil : bs_inv [] [].
Proof.
  split; [constructor|split; auto]. simpl. discriminate.
Qed.

Lemma esizes_sizes_of l ax : Forall (fun s => NoDup (dkeys s)) l ->
  esizes (concat l) ax = sizes_of l ax.
Proof.
  induction l as [|s l IH]; simpl; intros H; auto. inversion H; subst.
  unfold esizes in *. rewrite filter_app, map_app, IH by auto. unfold sizes_of. simpl. f_equal.
  clear - H2. induction s as [|[k v] s IH]; simpl; auto. inversion H2; subst.
  destruct (String.eqb_spec ax k); simpl; auto. subst. f_equal.
  rewrite filter_none; auto. intros [k' v'] Hin. simpl. apply String.eqb_neq. intros <-.
  apply H1. apply (in_map fst) in Hin. auto.
Qed.

Lemma map_fst_concat (l : list shape) : map fst (concat l) = concat (map dkeys l).
Proof. rewrite concat_map. reflexivity. Qed.

Lemma broadcast_shapes_ok l r :
  Forall (fun s => NoDup (dkeys s)) l -> broadcast_shapes l = Ok r ->
  NoDup (dkeys r) /\
  dkeys r = first_appearance (concat (map dkeys l)) /\
  forall ax n, In (ax, n) r <-> (In ax (concat (map dkeys l)) /\ common_size (sizes_of l ax) n).
Proof.
  intros H E. rewrite broadcast_shapes_entries in E by auto.
  destruct (bs_fold_inv [] _ _ _ bs_inv_nil E) as (ND & K & S). simpl in *.
  rewrite map_fst_concat in K. split; [auto|split; [auto|]].
  intros ax n. split.
  - intros Hin. split.
    + apply (proj1 (first_appearance_In _ _)). rewrite <- K. apply (in_map fst) in Hin. auto.
    + apply common_size_bjoin. rewrite <- esizes_sizes_of by auto. apply S.
      now apply dget_NoDup.
  - intros [H1 H2]. apply dget_In. apply (proj2 (first_appearance_In _ _)) in H1. rewrite <- K in H1.
    apply dget_Some_key in H1 as [m Hm]. rewrite Hm. f_equal.
    apply common_size_bjoin in H2. rewrite <- esizes_sizes_of in H2 by auto.
    eapply bjoin_unique; eauto.
Qed.

Lemma broadcast_shapes_conflict l :
  Forall (fun s => NoDup (dkeys s)) l ->
  (conflict l <-> broadcast_shapes l = Err ValueError).
Proof.
  intros H. split.
  - intros (ax & n & m & H1 & H2 & H3 & H4 & H5).
    destruct (broadcast_shapes l) as [r|e] eqn:E.
    + exfalso. destruct (broadcast_shapes_ok l r H E) as (ND & K & S).
      assert (In ax (concat (map dkeys l))).
      { unfold sizes_of in H1. apply in_flat_map in H1 as [s [Hs Hn]].
        apply in_concat. exists (dkeys s). split; [now apply in_map|].
        destruct (dget s ax) eqn:G; [|destruct Hn]. apply dget_Some_key; eauto. }
      assert (Hr : exists k, In (ax, k) r).
      { apply (proj2 (first_appearance_In _ _)) in H0. rewrite <- K in H0.
        apply in_map_iff in H0 as [[a k] [Ea Hin]]. simpl in Ea. subst. eauto. }
      destruct Hr as [k Hk]. apply S in Hk as [_ [C1 C2]].
      destruct (C1 _ H1), (C1 _ H2); congruence.
    + rewrite broadcast_shapes_entries in E by auto.
      apply (bs_fold_err [] _ _ _ bs_inv_nil) in E as [-> _]. auto.
  - intros E. rewrite broadcast_shapes_entries in E by auto.
    apply (bs_fold_err [] _ _ _ bs_inv_nil) in E as [_ (ax & n & m & H1 & H2 & H3)].
    simpl in *. rewrite esizes_sizes_of in * by auto. exists ax, n, m; auto.
Qed.

Lemma broadcast_shapes_total l :
  Forall (fun s => NoDup (dkeys s)) l ->
  (exists r, broadcast_shapes l = Ok r) \/ broadcast_shapes l = Err ValueError.
Proof.
  intros H. destruct (broadcast_shapes l) eqn:E; eauto.
  right. rewrite broadcast_shapes_entries in E by auto.
  apply (bs_fold_err [] _ _ _ bs_inv_nil) in E as [-> _]. auto.
Qed.

(** *** order and grouping of the arguments *)

Lemma sizes_of_In l ax n : In n (sizes_of l ax) <-> exists s, In s l /\ dget s ax = Some n.
Proof.
  unfold sizes_of. rewrite in_flat_map. split; intros [s [H1 H2]]; exists s; split; auto.
  - destruct (dget s ax); simpl in H2; [|destruct H2]. destruct H2 as [->|[]]; auto.
  - rewrite H2. simpl; auto.
Qed.

Definition same_outcome (r s : res shape) : Prop :=
  match r, s with
  | Ok a, Ok b => same_shape a b
  | Err e, Err e' => e = e'
  | _, _ => False
  end.

Lemma broadcast_shapes_equiv l l' :
  Forall (fun s => NoDup (dkeys s)) l -> Forall (fun s => NoDup (dkeys s)) l' ->
  (forall ax, In ax (concat (map dkeys l)) <-> In ax (concat (map dkeys l'))) ->
  (conflict l <-> conflict l') ->
  (~ conflict l -> forall ax n, common_size (sizes_of l ax) n <-> common_size (sizes_of l' ax) n) ->
  same_outcome (broadcast_shapes l) (broadcast_shapes l').
Proof.
  intros N N' K C S. assert (CF := C).
  rewrite !broadcast_shapes_conflict in CF by auto.
  destruct (broadcast_shapes_total l N) as [[r E]|E], (broadcast_shapes_total l' N') as [[r' E']|E'];
    rewrite E, E' in *; simpl; auto.
  - destruct (broadcast_shapes_ok l r N E) as (_ & _ & S1).
    destruct (broadcast_shapes_ok l' r' N' E') as (_ & _ & S1').
    intros ax n. rewrite S1, S1', K, S; [tauto|].
    intros H. apply broadcast_shapes_conflict in H; auto. congruence.
  - destruct CF as [_ CF]. discriminate CF; auto.
  - destruct CF as [CF _]. discriminate CF; auto.
Qed.

Lemma broadcast_shapes_perm l l' :
  Forall (fun s => NoDup (dkeys s)) l -> Permutation l l' ->
  same_outcome (broadcast_shapes l) (broadcast_shapes l').
Proof.
  intros N P.
  assert (PI : forall s, In s l <-> In s l').
  { intros s. split; intros H; [|symmetry in P]; eapply Permutation_in; eauto. }
  assert (Z : forall ax n, In n (sizes_of l ax) <-> In n (sizes_of l' ax)).
  { intros. rewrite !sizes_of_In. split; intros [s [H1 H2]]; exists s; split; auto; now apply PI. }
  apply broadcast_shapes_equiv; auto.
  - eapply Permutation_Forall; eauto.
  - intros ax. rewrite !in_concat. split; intros [ks [H1 H2]]; exists ks; split; auto;
      apply in_map_iff in H1 as [s [<- Hs]]; apply in_map; now apply PI.
  - unfold conflict. split; intros (ax & n & m & H1 & H2 & H3); exists ax, n, m;
      split; [apply Z|split; [apply Z|]| apply Z|split; [apply Z|]]; auto.
  - intros _ ax n. unfold common_size. split; intros [H1 H2]; split.
    + intros m Hm. apply H1. now apply Z.
    + intros H. apply H2. intros m Hm. apply H. now apply Z.
    + intros m Hm. apply H1. now apply Z.
    + intros H. apply H2. intros m Hm. apply H. now apply Z.
Qed.

Lemma broadcast_shapes_groups ls rs :
  Forall (Forall (fun s => NoDup (dkeys s))) ls ->
  Forall2 (fun l r => broadcast_shapes l = Ok r) ls rs ->
  same_outcome (broadcast_shapes (concat ls)) (broadcast_shapes rs).
Proof.
  intros N F.
  assert (NC : Forall (fun s => NoDup (dkeys s)) (concat ls)).
  { apply Forall_concat. auto. }
  assert (NR : Forall (fun s => NoDup (dkeys s)) rs).
  { clear NC. induction F; constructor; inversion N; subst; auto.
    eapply broadcast_shapes_ok; eauto. }
  assert (G : forall l, In l ls -> exists r, In r rs /\ broadcast_shapes l = Ok r /\ Forall (fun s => NoDup (dkeys s)) l).
  { clear NC NR. induction F; intros l0 []; inversion N; subst.
    - exists y; simpl; auto.
    - destruct (IHF H4 l0 H0) as [r [? ?]]. exists r; simpl; auto. }
  assert (G' : forall r, In r rs -> exists l, In l ls /\ broadcast_shapes l = Ok r /\ Forall (fun s => NoDup (dkeys s)) l).
  { clear NC NR G. induction F; intros l0 []; inversion N; subst.
    - exists x; simpl; auto.
    - destruct (IHF H4 l0 H0) as [r [? ?]]. exists r; simpl; auto. }
  (* a size different from 1 in the groups is a size of the broadcast groups, and conversely *)
  assert (Z1 : forall ax n, n <> 1 -> In n (sizes_of (concat ls) ax) -> In n (sizes_of rs ax)).
  { intros ax n Hn H. apply sizes_of_In in H as [s [H1 H2]]. apply in_concat in H1 as [l [Hl Hs]].
    destruct (G l Hl) as [r (Hr & E & Nl)].
    destruct (broadcast_shapes_ok l r Nl E) as (NDr & K & S).
    apply sizes_of_In. exists r. split; auto. apply dget_NoDup; auto. apply S. split.
    - apply in_concat. exists (dkeys s). split; [now apply in_map|]. apply dget_Some_key; eauto.
    - assert (Hk : In ax (dkeys r)).
      { rewrite K. apply (proj2 (first_appearance_In _ _)). apply in_concat.
        exists (dkeys s). split; [now apply in_map|]. apply dget_Some_key; eauto. }
      apply dget_Some_key in Hk as [k Hk]. apply dget_In in Hk. apply S in Hk as [_ C].
      assert (C0 : n = 1 \/ n = k) by (apply C, sizes_of_In; eauto).
      destruct C0 as [C0|C0]; [contradiction|]. subst k. auto. }
  assert (Z2 : forall ax n, n <> 1 -> In n (sizes_of rs ax) -> In n (sizes_of (concat ls) ax)).
  { intros ax n Hn H. apply sizes_of_In in H as [r [H1 H2]].
    destruct (G' r H1) as [l (Hl & E & Nl)].
    destruct (broadcast_shapes_ok l r Nl E) as (NDr & K & S).
    apply dget_In in H2. apply S in H2. destruct H2 as [H3 C]. apply common_size_bjoin in C.
    destruct (bjoin_in _ _ C) as [?|Hi]; [contradiction|].
    apply sizes_of_In in Hi as [s [Hs Hd]]. apply sizes_of_In. exists s. split; auto.
    apply in_concat. eauto. }
  assert (KK : forall ax, In ax (concat (map dkeys (concat ls))) <-> In ax (concat (map dkeys rs))).
  { intros ax. rewrite !in_concat. split.
    - intros [ks [H1 H2]]. apply in_map_iff in H1 as [s [<- Hs]].
      apply in_concat in Hs as [l [Hl Hs]]. destruct (G l Hl) as [r (Hr & E & Nl)].
      destruct (broadcast_shapes_ok l r Nl E) as (NDr & K & S).
      exists (dkeys r). split; [now apply in_map|]. rewrite K.
      apply (proj2 (first_appearance_In _ _)). apply in_concat. exists (dkeys s). split; auto. now apply in_map.
    - intros [ks [H1 H2]]. apply in_map_iff in H1 as [r [<- Hr]].
      destruct (G' r Hr) as [l (Hl & E & Nl)].
      destruct (broadcast_shapes_ok l r Nl E) as (NDr & K & S). rewrite K in H2.
      apply (proj1 (first_appearance_In _ _)) in H2. apply in_concat in H2 as [ks [H2 H3]].
      apply in_map_iff in H2 as [s [<- Hs]]. exists (dkeys s). split; auto.
      apply in_map. apply in_concat. eauto. }
  apply broadcast_shapes_equiv; auto.
  - unfold conflict. split; intros (ax & n & m & H1 & H2 & H3 & H4 & H5); exists ax, n, m; auto 10.
  - intros _ ax n. unfold common_size. split; intros [H1 H2]; split.
    + intros m Hm. destruct (Nat.eq_dec m 1); auto.
    + intros H. apply H2. intros m Hm. destruct (Nat.eq_dec m 1); auto.
    + intros m Hm. destruct (Nat.eq_dec m 1); auto.
    + intros H. apply H2. intros m Hm. destruct (Nat.eq_dec m 1); auto.
Qed.

Lemma broadcast_shapes_group_err ls l :
  Forall (Forall (fun s => NoDup (dkeys s))) ls -> In l ls ->
  broadcast_shapes l = Err ValueError -> broadcast_shapes (concat ls) = Err ValueError.
Proof.
  intros N Hl E. assert (Nl : Forall (fun s => NoDup (dkeys s)) l).
  { rewrite Forall_forall in N. auto. }
  apply broadcast_shapes_conflict in E; auto.
  apply broadcast_shapes_conflict. { now apply Forall_concat. }
  destruct E as (ax & n & m & H1 & H2 & H3). exists ax, n, m.
  apply sizes_of_In in H1 as [s [H1 H4]]. apply sizes_of_In in H2 as [t [H2 H5]].
  split; [|split; [|auto]]; apply sizes_of_In; [exists s|exists t]; split; auto; apply in_concat; eauto.
Qed.
