(** Facts about transposition, renaming, combination and unravelling of axes. *)
From Coq Require Import String List Arith ZArith Bool Lia Permutation Sorted.
From Verif Require Import Base BaseFacts Numpy NumpyFacts Shapes Scalar Reorder Spec
  ShapesFacts AlignFacts GetitemFacts SetitemFacts.
Import ListNotations.
Open Scope nat_scope.
Open Scope list_scope.

Lemma nnodupb_NoDup l : nnodupb l = true <-> NoDup l.
Proof.
  induction l as [|x l IH]; simpl.
  - split; [constructor|auto].
  - rewrite andb_true_iff, negb_true_iff, nmem_false, IH. split.
    + intros [H1 H2]. now constructor.
    + intros H. inversion H; auto.
Qed.

Lemma combine_map {A B} (f : A -> B) l : combine l (map f l) = map (fun x => (x, f x)) l.
Proof. induction l; simpl; congruence. Qed.

Lemma sshape_map {A} (a : sarr A) : wf a -> sshape a = map (fun x => (x, asize a x)) (s_axes a).
Proof. intros W. rewrite <- combine_map, map_asize by auto. reflexivity. Qed.

Lemma in_sshape {A} (a : sarr A) ax n :
  wf a -> (In (ax, n) (sshape a) <-> In ax (s_axes a) /\ asize a ax = n).
Proof.
  intros W. rewrite sshape_map by auto. rewrite in_map_iff. split.
  - intros [x [E H]]. injection E as <- <-. auto.
  - intros [H <-]. eauto.
Qed.

(** ** [add_axes] *)

Lemma dkeys_fold_dset (axes : list string) (d : shape) (n : nat) :
  NoDup (dkeys d) ->
  dkeys (fold_left (fun d ax => dset d ax n) axes d) = first_appearance (dkeys d ++ axes) /\
  forall ax, dget (fold_left (fun d ax => dset d ax n) axes d) ax =
             if smem ax axes then Some n else dget d ax.
Proof.
  revert d. induction axes as [|x axes IH]; intros d ND; simpl.
  - rewrite app_nil_r. split; [|auto].
    clear - ND. unfold first_appearance. rewrite nodup_fixed_point.
    + now rewrite rev_involutive.
    + now apply NoDup_rev.
  - destruct (IH (dset d x n) (NoDup_dset _ _ _ ND)) as [E1 E2]. split.
    + rewrite E1, dkeys_dset. destruct (smem x (dkeys d)) eqn:M.
      * apply smem_In in M.
        replace (dkeys d ++ x :: axes) with ((dkeys d ++ [x]) ++ axes) by now rewrite <- app_assoc.
        clear - M. unfold first_appearance. f_equal.
        assert (H : forall r, nodup string_dec (r ++ rev (dkeys d)) = nodup string_dec (r ++ rev (dkeys d ++ [x]))).
        { intros r. rewrite rev_app_distr; simpl. induction r as [|y r IHr]; simpl.
          - destruct (in_dec string_dec x (rev (dkeys d))) as [_|N]; auto.
            destruct N. now apply in_rev in M.
          - assert (HI : In y (r ++ rev (dkeys d)) <-> In y (r ++ x :: rev (dkeys d))).
            { rewrite !in_app_iff; simpl. rewrite <- in_rev. intuition (subst; auto). }
            destruct (in_dec string_dec y (r ++ rev (dkeys d))), (in_dec string_dec y (r ++ x :: rev (dkeys d)));
              try tauto. now rewrite IHr. }
        rewrite (rev_app_distr (dkeys d)), (rev_app_distr (dkeys d ++ [x])). apply H.
      * now rewrite <- app_assoc.
    + intros ax. rewrite E2, dget_dset. simpl.
      destruct (String.eqb_spec ax x); simpl; destruct (smem ax axes); auto.
Qed.

Lemma dunion_spec {V} (d1 d2 : dict V) :
  NoDup (dkeys d1) -> NoDup (dkeys d2) ->
  (forall ax, In ax (dkeys (dunion d1 d2)) <-> In ax (dkeys d1) \/ In ax (dkeys d2)) /\
  dkeys (dunion d1 d2) = dkeys d1 ++ filter (fun ax => negb (smem ax (dkeys d1))) (dkeys d2) /\
  (forall ax, dget (dunion d1 d2) ax = match dget d2 ax with Some v => Some v | None => dget d1 ax end).
Proof.
  intros N1 N2.
  assert (H : dkeys (dunion d1 d2) = dkeys d1 ++ filter (fun ax => negb (smem ax (dkeys d1))) (dkeys d2) /\
    (forall ax, dget (dunion d1 d2) ax = match dget d2 ax with Some v => Some v | None => dget d1 ax end)).
  { unfold dunion. revert d1 N1. induction d2 as [|[k v] d2 IH]; intros d1 N1; simpl.
    - rewrite app_nil_r. auto.
    - simpl in N2. inversion N2 as [|? ? K N2']; subst.
      destruct (IH N2' (dset d1 k v) (NoDup_dset _ _ _ N1)) as [E1 E2]. split.
      + rewrite E1, dkeys_dset. destruct (smem k (dkeys d1)) eqn:M; simpl.
        * reflexivity.
        * rewrite <- app_assoc. simpl. f_equal. f_equal. apply filter_ext_in. intros x Hx.
          f_equal. destruct (smem x (dkeys d1)) eqn:Mx.
          -- apply smem_In. apply smem_In in Mx. apply in_or_app; auto.
          -- apply smem_false. apply smem_false in Mx. intros Hi.
             apply in_app_or in Hi as [Hi|[<-|[]]]; auto.
      + intros ax. rewrite E2, dget_dset. simpl.
        destruct (String.eqb_spec ax k); subst; auto.
        destruct (dget d2 k) eqn:G; auto.
        exfalso. apply K. apply dget_Some_key. eauto. }
  destruct H as [H1 H2]. split; [|split; auto].
  intros ax. rewrite H1, in_app_iff, filter_In, negb_true_iff, smem_false. 
  destruct (in_dec string_dec ax (dkeys d1)); tauto.
Qed.

Lemma nodup_first_appearance l : NoDup l -> first_appearance l = l.
Proof.
  intros ND. unfold first_appearance. rewrite nodup_fixed_point by now apply NoDup_rev.
  apply rev_involutive.
Qed.

Lemma first_appearance_app l m :
  first_appearance (l ++ m) = first_appearance l ++ filter (fun x => negb (smem x l)) (first_appearance m).
Proof.
  revert l. induction m as [|x m IH] using rev_ind; intros l.
  - change (first_appearance []) with (@nil string). cbn [filter]. now rewrite !app_nil_r.
  - rewrite app_assoc, !first_appearance_snoc, IH.
    destruct (smem x (l ++ m)) eqn:E.
    + destruct (smem x m) eqn:Em; auto.
      rewrite filter_app. simpl.
      apply smem_In in E. apply in_app_or in E as [E|E].
      * apply smem_In in E. rewrite E; simpl. now rewrite app_nil_r.
      * apply smem_In in E. congruence.
    + apply smem_false in E.
      destruct (smem x m) eqn:Em.
      { apply smem_In in Em. destruct E. apply in_or_app; auto. }
      rewrite filter_app. simpl.
      destruct (smem x l) eqn:El.
      { apply smem_In in El. destruct E. apply in_or_app; auto. }
      simpl. now rewrite app_assoc.
Qed.

Lemma add_axes_full {A} (a : sarr A) (axes : list string) :
  wf a ->
  exists r, add_axes a axes = Ok r /\ wf r /\
    s_axes r = first_appearance (axes ++ s_axes a) /\
    (forall ax, dget (sshape r) ax =
       match dget (sshape a) ax with Some n => Some n | None => if smem ax axes then Some 1 else None end) /\
    forall e, at_ r e = at_ a e.
Proof.
  intros W.
  unfold add_axes.
  destruct (dkeys_fold_dset axes [] 1 (NoDup_nil _)) as [K1 G1]. simpl in K1.
  set (d1 := fold_left (fun d ax => dset d ax 1) axes []) in *.
  assert (N1 : NoDup (dkeys d1)) by (rewrite K1; apply first_appearance_NoDup).
  destruct (dunion_spec d1 (sshape a) N1 (wf_nodup a W)) as [HIn [HK HG]].
  set (sh := dunion d1 (sshape a)) in *.
  assert (EK : dkeys sh = first_appearance (axes ++ s_axes a)).
  { rewrite HK, first_appearance_app, K1. f_equal.
    rewrite (nodup_first_appearance (s_axes a)) by apply W.
    rewrite wf_keys by auto. apply filter_ext. intros x. f_equal.
    destruct (smem x axes) eqn:E.
    - apply smem_In in E. apply smem_In. now apply first_appearance_In.
    - apply smem_false in E. apply smem_false. now rewrite first_appearance_In. }
  assert (NK : NoDup (dkeys sh)) by (rewrite EK; apply first_appearance_NoDup).
  destruct (align_sub a (dkeys sh) W NK) as [n [En [Sn Gn]]].
  { intros ax Hax. apply HIn. right. now rewrite wf_keys. }
  rewrite En. cbn [bind].
  rewrite mk_sarr_intro; auto.
  2:{ rewrite Sn. now rewrite map_length. }
  eexists; split; [reflexivity|].
  assert (Wr : wf (mkS n (dkeys sh))).
  { split; simpl; auto. rewrite Sn. now rewrite map_length. }
  split; auto. split; [exact EK|]. split.
  - intros ax. destruct (in_dec string_dec ax (dkeys sh)) as [Hin|Hout].
    + unfold sshape at 1. cbn [s_axes s_nd]. rewrite Sn.
      rewrite dget_combine by now rewrite map_length.
      rewrite nth_error_map, nth_error_spos by auto. simpl. unfold asize.
      destruct (dget (sshape a) ax) eqn:Ga; auto.
      destruct (smem ax axes) eqn:M; auto.
      exfalso. apply HIn in Hin as [Hin|Hin].
      * rewrite K1, first_appearance_In in Hin. apply smem_In in Hin. congruence.
      * apply dget_None in Ga. auto.
    + assert (G0 : dget (sshape (mkS n (dkeys sh))) ax = None).
      { apply dget_None. now rewrite wf_keys. }
      rewrite G0. rewrite HIn in Hout.
      destruct (dget (sshape a) ax) eqn:Ga.
      { destruct Hout. right. apply dget_Some_key. eauto. }
      destruct (smem ax axes) eqn:M; auto.
      destruct Hout. left. rewrite K1. apply first_appearance_In. now apply smem_In.
  - intros e. unfold at_. cbn [s_nd s_axes]. apply Gn.
Qed.

(** ** [transpose] *)

Lemma np_transpose_named {A} (a : sarr A) (axes : list string) :
  wf a -> incl axes (s_axes a) ->
  (forall n, np_transpose (map (fun ax => spos ax (s_axes a)) axes) (s_nd a) = Ok n ->
     NoDup axes /\ incl (s_axes a) axes /\ nshape n = map (asize a) axes /\
     forall e : env, nget n (map e axes) = nget (s_nd a) (map e (s_axes a))) /\
  (NoDup axes -> incl (s_axes a) axes ->
   exists n, np_transpose (map (fun ax => spos ax (s_axes a)) axes) (s_nd a) = Ok n).
Proof.
  intros W I. unfold np_transpose. unfold ndim.
  assert (B : forallb (fun p => p <? length (nshape (s_nd a))) (map (fun ax => spos ax (s_axes a)) axes) = true).
  { apply forallb_forall. intros p Hp. apply in_map_iff in Hp as [ax [<- Hax]].
    apply Nat.ltb_lt. rewrite <- (proj2 W). apply spos_lt. auto. }
  rewrite B, map_length, andb_true_r.
  assert (ND : nnodupb (map (fun ax => spos ax (s_axes a)) axes) = true <-> NoDup axes).
  { rewrite nnodupb_NoDup. split.
    - apply NoDup_map_inv.
    - intros H. now apply NoDup_map_spos. }
  split.
  - intros n. destruct (length axes =? length (nshape (s_nd a))) eqn:L; [|discriminate].
    destruct (nnodupb _) eqn:N; [|discriminate]. cbn [andb].
    apply Nat.eqb_eq in L. clear N. pose proof (proj1 ND eq_refl) as N.
    intros H. injection H as <-.
    assert (P : Permutation axes (s_axes a)).
    { apply NoDup_Permutation_bis; auto. rewrite (proj2 W). lia. }
    assert (PP : Permutation (map (fun ax => spos ax (s_axes a)) axes) (seq 0 (ndim (s_nd a)))).
    { rewrite (Permutation_map (fun ax => spos ax (s_axes a)) P).
      unfold ndim. rewrite <- (proj2 W).
      assert (Q : map (fun ax => spos ax (s_axes a)) (s_axes a) = seq 0 (length (s_axes a))).
      { transitivity (map (fun i => spos (nth i (s_axes a) ""%string) (s_axes a)) (seq 0 (length (s_axes a)))).
        { rewrite <- (map_map (fun i => nth i (s_axes a) ""%string) (fun ax => spos ax (s_axes a))).
          now rewrite map_nth_seq. }
        erewrite map_ext_in; [apply map_id|].
        intros i Hi. apply in_seq in Hi. cbn beta. apply spos_nth; [apply W|lia]. }
      now rewrite Q. }
    split; auto. split; [|split].
    + intros ax Hax. eapply Permutation_in; [symmetry; exact P|auto].
    + rewrite transpose_shape, map_map. apply map_ext_in. intros ax Hax. apply I in Hax.
      rewrite <- (map_asize a W).
      rewrite (map_nth_in _ _ _ ""%string) by now apply spos_lt. now rewrite nth_spos.
    + intros e. rewrite <- (transpose_named _ (s_nd a) (s_axes a) e ""%string PP (proj2 W)).
      now rewrite map_nth_spos.
  - intros N I2. rewrite (proj2 ND N).
    assert (P : Permutation axes (s_axes a)).
    { apply NoDup_Permutation; auto; [apply W|]. intros x; split; auto. }
    rewrite (Permutation_length P), (proj2 W), Nat.eqb_refl. eexists; reflexivity.
Qed.

Lemma transpose_some {A} (a : sarr A) axes r :
  wf a -> na_transpose a (Some axes) = Ok r ->
  wf r /\ s_axes r = axes /\
  (forall ax n, In (ax, n) (sshape r) <-> In (ax, n) (sshape a) \/ (~ In ax (s_axes a) /\ In ax axes /\ n = 1)) /\
  forall e, at_ r e = at_ a e.
Proof.
  intros W. unfold na_transpose.
  destruct (add_axes_full a axes W) as [a' [E [W' [K' [G' R']]]]]. rewrite E. cbn [bind].
  rewrite mapM_index_of.
  2:{ rewrite K'. intros x Hx. apply first_appearance_In. apply in_or_app; auto. }
  cbn [bind]. intros H. apply bind_ok in H as [n [Hn H]].
  apply mk_sarr_ok in H as [-> Wr]. split; auto. split; auto.
  destruct (np_transpose_named a' axes W') as [T _].
  { rewrite K'. intros x Hx. apply first_appearance_In. apply in_or_app; auto. }
  destruct (T n Hn) as [NDa [I [Sn Gn]]].
  split.
  - intros ax m.
    assert (Q : In (ax, m) (sshape (mkS n axes)) <-> In (ax, m) (sshape a')).
    { split; intros HI.
      - apply dget_NoDup in HI; [|now apply wf_nodup].
        apply dget_In. unfold sshape in HI. cbn [s_axes s_nd] in HI. rewrite Sn in HI.
        rewrite dget_combine in HI by now rewrite map_length.
        destruct (in_dec string_dec ax axes) as [Hin|Ho].
        + rewrite nth_error_map, nth_error_spos in HI by auto. simpl in HI. injection HI as <-.
          unfold asize. destruct (dget (sshape a') ax) eqn:Ga; auto.
          exfalso. apply dget_None in Ga. apply Ga. rewrite wf_keys, K' by auto.
          apply first_appearance_In. apply in_or_app; auto.
        + exfalso. rewrite nth_error_map in HI.
          destruct (nth_error axes (spos ax axes)) eqn:Q; [|discriminate].
          apply Ho. apply spos_lt. apply nth_error_Some. congruence.
      - apply dget_NoDup in HI; [|now apply wf_nodup].
        apply dget_In. unfold sshape. cbn [s_axes s_nd]. rewrite Sn.
        rewrite dget_combine by now rewrite map_length.
        assert (Hin : In ax axes).
        { apply I. rewrite <- wf_keys by auto. apply dget_Some_key. eauto. }
        rewrite nth_error_map, nth_error_spos by auto. simpl. unfold asize. now rewrite HI. }
    rewrite Q. clear Q.
    assert (Q : In (ax, m) (sshape a') <-> dget (sshape a') ax = Some m).
    { split; [apply dget_NoDup; now apply wf_nodup|apply dget_In]. }
    rewrite Q, G'. split.
    + destruct (dget (sshape a) ax) eqn:Ga.
      * intros H; injection H as <-. left. now apply dget_In.
      * destruct (smem ax axes) eqn:M; [|discriminate]. intros H; injection H as <-.
        right. apply dget_None in Ga. rewrite wf_keys in Ga by auto.
        apply smem_In in M. auto.
    + intros [H|[H1 [H2 ->]]].
      * apply dget_NoDup in H; [|now apply wf_nodup]. now rewrite H.
      * assert (Ga : dget (sshape a) ax = None) by (apply dget_None; now rewrite wf_keys).
        rewrite Ga. apply smem_In in H2. now rewrite H2.
  - intros e. unfold at_ at 1. cbn [s_nd s_axes]. rewrite Gn. apply R'.
Qed.

Lemma transpose_some_success {A} (a : sarr A) axes :
  wf a -> ((exists r, na_transpose a (Some axes) = Ok r) <-> NoDup axes /\ incl (s_axes a) axes).
Proof.
  intros W. split.
  - intros [r H]. destruct (transpose_some a axes r W H) as [Wr [E [G _]]].
    rewrite <- E. split; [apply Wr|]. intros ax Hax.
    rewrite <- (wf_keys a W) in Hax. apply dget_Some_key in Hax as [n Hn]. apply dget_In in Hn.
    rewrite <- wf_keys by auto. apply dget_Some_key. exists n. apply dget_NoDup; [now apply wf_nodup|].
    apply G. auto.
  - intros [N I]. unfold na_transpose.
    destruct (add_axes_full a axes W) as [a' [E [W' [K' [G' R']]]]]. rewrite E. cbn [bind].
    assert (Q : incl axes (s_axes a')).
    { rewrite K'. intros x Hx. apply first_appearance_In. apply in_or_app; auto. }
    rewrite mapM_index_of by auto. cbn [bind].
    destruct (np_transpose_named a' axes W' Q) as [T1 T2].
    destruct T2 as [n Hn]; auto.
    { rewrite K'. intros x Hx. apply (proj1 (first_appearance_In _ _)) in Hx.
      apply in_app_or in Hx as [?|?]; auto. }
    rewrite Hn. cbn [bind]. eexists. apply mk_sarr_intro; auto.
    destruct (T1 n Hn) as [_ [_ [Sn _]]]. now rewrite Sn, map_length.
Qed.

Lemma transpose_none {A} (a : sarr A) :
  wf a -> exists r, na_transpose a None = Ok r /\ wf r /\ s_axes r = rev (s_axes a) /\
    same_shape (sshape r) (sshape a) /\ forall e, at_ r e = at_ a e.
Proof.
  intros W. unfold na_transpose. cbn [bind].
  assert (I : incl (rev (s_axes a)) (s_axes a)) by (intros x; now rewrite <- in_rev).
  assert (I2 : incl (s_axes a) (rev (s_axes a))) by (intros x; now rewrite <- in_rev).
  assert (N : NoDup (rev (s_axes a))) by (apply NoDup_rev; apply W).
  rewrite mapM_index_of by auto. cbn [bind].
  destruct (np_transpose_named a (rev (s_axes a)) W I) as [T1 T2].
  destruct T2 as [n Hn]; auto. rewrite Hn. cbn [bind].
  destruct (T1 n Hn) as [_ [_ [Sn Gn]]].
  rewrite mk_sarr_intro; auto. 2:{ now rewrite Sn, map_length. }
  eexists; split; [reflexivity|].
  assert (Wr : wf (mkS n (rev (s_axes a)))). { split; simpl; auto. now rewrite Sn, map_length. }
  split; auto. split; auto. split.
  - intros ax m.
    assert (Q1 : In (ax, m) (sshape a) <-> In ax (s_axes a) /\ asize a ax = m).
    { rewrite <- (wf_keys a W). unfold asize. split.
      - intros H. apply dget_NoDup in H; [|now apply wf_nodup]. rewrite H. split; auto.
        apply dget_Some_key; eauto.
      - intros [H <-]. apply dget_Some_key in H as [v Hv]. rewrite Hv. now apply dget_In. }
    rewrite Q1. unfold sshape. cbn [s_axes s_nd]. rewrite Sn.
    split.
    + intros H. rewrite <- (map_id (rev (s_axes a))) in H at 1.
      assert (Z : forall l : list string, combine (map (fun x => x) l) (map (asize a) l) = map (fun x => (x, asize a x)) l).
      { induction l; simpl; congruence. }
      rewrite Z in H. apply in_map_iff in H as [x [Hx Hi]]. injection Hx as <- <-. auto.
    + intros [H <-]. rewrite <- (map_id (rev (s_axes a))) at 1.
      assert (Z : forall l : list string, combine (map (fun x => x) l) (map (asize a) l) = map (fun x => (x, asize a x)) l).
      { induction l; simpl; congruence. }
      rewrite Z. apply in_map_iff. exists ax. auto.
  - intros e. unfold at_ at 1. cbn [s_nd s_axes]. apply Gn.
Qed.

(** ** [change_axis_index] *)

Lemma align_perm {A} (a : sarr A) axes :
  wf a -> Permutation axes (s_axes a) ->
  exists n, ndarray_aligned a axes = Ok n /\ mk_sarr n axes = Ok (mkS n axes) /\
    wf (mkS n axes) /\ same_shape (sshape (mkS n axes)) (sshape a) /\
    forall e, at_ (mkS n axes) e = at_ a e.
Proof.
  intros W P.
  assert (N : NoDup axes). { eapply Permutation_NoDup; [symmetry; exact P|apply W]. }
  assert (I : incl (s_axes a) axes).
  { intros x. apply Permutation_in. now symmetry. }
  destruct (align_sub a axes W N I) as [n [En [Sn Gn]]].
  exists n. split; auto. split; [apply mk_sarr_intro; auto; now rewrite Sn, map_length|].
  assert (Wr : wf (mkS n axes)). { split; simpl; auto. now rewrite Sn, map_length. }
  split; auto. split.
  - assert (E1 : sshape (mkS n axes) = map (fun x => (x, asize a x)) axes).
    { unfold sshape. cbn [s_axes s_nd]. rewrite Sn.
      clear. induction axes; simpl; congruence. }
    assert (E2 : sshape a = map (fun x => (x, asize a x)) (s_axes a)).
    { now apply sshape_map. }
    intros ax m. rewrite E1, E2, !in_map_iff. split; intros [x [H1 H2]]; exists x; split; auto.
    eapply Permutation_in; eauto.
  - intros e. unfold at_ at 1. cbn [s_nd s_axes]. apply Gn.
Qed.

Lemma change_axis_index_spec {A} (a : sarr A) axis index :
  wf a -> In axis (s_axes a) ->
  exists r, change_axis_index a axis index = Ok r /\ wf r /\
    same_shape (sshape r) (sshape a) /\ (forall e, at_ r e = at_ a e) /\
    let n := length (s_axes a) in
    let i := Z.to_nat (Z.modulo index (Z.of_nat n)) in
    filter (fun x => negb (String.eqb x axis)) (s_axes r) =
      filter (fun x => negb (String.eqb x axis)) (s_axes a) /\
    nth_error (s_axes r) (Nat.min (S i) (n - 1)) = Some axis.
Proof.
  intros W Hin. unfold change_axis_index.
  assert (G : exists v, dget (sshape a) axis = Some v).
  { apply dget_Some_key. now rewrite wf_keys. }
  destruct G as [v Hv]. rewrite Hv.
  rewrite dkeys_ddel by now apply wf_nodup. rewrite wf_keys by auto.
  assert (L : length (sshape a) = length (s_axes a)).
  { rewrite sshape_map by auto. apply map_length. }
  rewrite L. set (n := length (s_axes a)).
  set (keys := filter (fun x => negb (String.eqb x axis)) (s_axes a)).
  set (i := Z.to_nat (index mod Z.of_nat n)).
  assert (Hn : 0 < n). { unfold n. destruct (s_axes a); [destruct Hin|simpl; lia]. }
  assert (Ei : Z.to_nat (index mod Z.of_nat n + 1) = S i).
  { unfold i. pose proof (Z.mod_pos_bound index (Z.of_nat n)). lia. }
  rewrite Ei.
  assert (Pk : Permutation (axis :: keys) (s_axes a)).
  { apply NoDup_Permutation.
    - constructor; [|apply NoDup_filter; apply W]. unfold keys. rewrite filter_In.
      rewrite String.eqb_refl. intros [_ H]; discriminate.
    - apply W.
    - intros x. unfold keys. simpl. rewrite filter_In, negb_true_iff.
      destruct (String.eqb_spec x axis); subst; intuition congruence. }
  assert (P : Permutation (insert_at (S i) axis keys) (s_axes a)).
  { now rewrite Permutation_insert_at. }
  destruct (align_perm a _ W P) as [m [E1 [E2 [Wr [SS R]]]]].
  rewrite E1. cbn [bind]. rewrite E2. eexists; split; [reflexivity|].
  split; auto. split; auto. split; auto. cbn [s_axes].
  assert (Lk : length keys = n - 1).
  { apply Permutation_length in Pk. simpl in Pk. unfold n. lia. }
  split.
  - assert (F : forall j (l : list string), (forall x, In x l -> negb (String.eqb x axis) = true) ->
        filter (fun x => negb (String.eqb x axis)) (insert_at j axis l) = l).
    { induction j as [|j IH]; intros [|y l] Hl; simpl; rewrite ?String.eqb_refl; simpl; auto.
      - rewrite Hl by (left; auto). f_equal. apply filter_all. intros; apply Hl; right; auto.
      - rewrite Hl by (left; auto). f_equal. apply IH. intros; apply Hl; right; auto. }
    rewrite F; auto. intros x Hx. unfold keys in Hx. apply filter_In in Hx. tauto.
  - destruct (Nat.le_gt_cases (S i) (length keys)) as [H|H].
    + rewrite Nat.min_l by lia. now apply nth_error_insert_at_eq.
    + rewrite Nat.min_r by lia. rewrite <- Lk.
      assert (F : forall j (l : list string), length l < j -> nth_error (insert_at j axis l) (length l) = Some axis).
      { induction j as [|j IH]; intros [|y l] Hl; simpl in *; auto; try lia. apply IH. lia. }
      now apply F.
Qed.

Lemma change_axis_index_absent {A} (a : sarr A) axis index :
  wf a -> ~ In axis (s_axes a) -> change_axis_index a axis index = Err KeyError.
Proof.
  intros W H. unfold change_axis_index.
  assert (G : dget (sshape a) axis = None) by (apply dget_None; now rewrite wf_keys).
  now rewrite G.
Qed.

(** ** Row-major positions *)

Lemma row_major_acc sizes idx acc :
  length sizes = length idx ->
  fold_left (fun acc p => acc * fst p + snd p) (combine sizes idx) acc =
  acc * prod sizes + ravel_idx sizes idx.
Proof.
  revert idx acc. induction sizes as [|n sizes IH]; intros [|i idx] acc L; simpl in *; try discriminate.
  - lia.
  - injection L as L. rewrite IH by auto. nia.
Qed.

Lemma row_major_ravel sizes idx : length sizes = length idx -> row_major sizes idx = ravel_idx sizes idx.
Proof. intros L. unfold row_major. rewrite row_major_acc by auto. lia. Qed.

Lemma ravel_idx_app s1 s2 i1 i2 : length s1 = length i1 ->
  ravel_idx (s1 ++ s2) (i1 ++ i2) = ravel_idx s1 i1 * prod s2 + ravel_idx s2 i2.
Proof.
  revert i1. induction s1 as [|n s1 IH]; intros [|i i1] L; simpl in *; try discriminate; auto.
  injection L as L. rewrite IH by auto. rewrite prod_app. nia.
Qed.

Lemma total_size_prod {A} (a : sarr A) axes :
  wf a -> incl axes (s_axes a) -> total_size (sshape a) axes = prod (map (asize a) axes).
Proof.
  intros W I. induction axes as [|ax axes IH]; simpl; auto.
  assert (H : In ax (dkeys (sshape a))) by (rewrite wf_keys; auto; apply I; left; auto).
  apply dget_Some_key in H as [n Hn]. unfold asize at 1. rewrite Hn.
  rewrite IH; auto. intros x Hx; apply I; right; auto.
Qed.

(** ** [combine_axes] *)

Lemma pop_append_fold axes l :
  NoDup axes -> NoDup l ->
  (incl axes l -> foldM pop_append axes l = Ok (others l axes ++ axes)) /\
  (~ incl axes l -> exists e, foldM pop_append axes l = Err e /\ e = ValueError).
Proof.
  revert l. induction axes as [|ax axes IH]; intros l Na Nl.
  - split.
    + intros _. cbn [foldM]. rewrite app_nil_r. f_equal. symmetry. apply filter_all. auto.
    + intros H. destruct H. intros x [].
  - inversion Na as [|? ? Hx Na']; subst. cbn [foldM]. unfold pop_append at 1 3.
    destruct (smem ax l) eqn:M; cbn [bind].
    + apply smem_In in M.
      set (l' := filter (fun x => negb (String.eqb x ax)) l ++ [ax]).
      assert (Nl' : NoDup l').
      { apply NoDup_snoc; [now apply NoDup_filter|]. rewrite filter_In, String.eqb_refl. intros [_ H]; discriminate. }
      assert (IL : forall x, In x l' <-> In x l).
      { intros x. unfold l'. rewrite in_app_iff, filter_In, negb_true_iff. simpl.
        destruct (String.eqb_spec x ax); subst; intuition congruence. }
      destruct (IH l' Na' Nl') as [IH1 IH2]. split.
      * intros I. rewrite IH1.
        2:{ intros x Hx'. apply IL. apply I. right; auto. }
        f_equal. change (ax :: axes) with ([ax] ++ axes) at 2. rewrite app_assoc. f_equal.
        unfold others, l'. rewrite filter_app, filter_filter. f_equal.
        -- apply filter_ext. intros x. simpl. now rewrite negb_orb.
        -- simpl. apply smem_false in Hx. now rewrite Hx.
      * intros I. apply IH2. intros I'. apply I. intros x [<-|Hx']; auto. apply IL. auto.
    + split.
      * intros I. apply smem_false in M. destruct M. apply I. left; auto.
      * intros _. eauto.
Qed.

Lemma fold_sremove axes l : fold_left sremove axes l = others l axes.
Proof.
  revert l. induction axes as [|ax axes IH]; intros l; simpl.
  - symmetry. apply filter_all. auto.
  - rewrite IH. unfold others, sremove. rewrite filter_filter.
    apply filter_ext. intros x. simpl. now rewrite negb_orb.
Qed.

Lemma others_app l1 l2 ks : others (l1 ++ l2) ks = others l1 ks ++ others l2 ks.
Proof. apply filter_app. Qed.

Lemma others_self l : others l l = [].
Proof. apply filter_none. intros x Hx. apply smem_In in Hx. now rewrite Hx. Qed.

Lemma others_idem l ks : others (others l ks) ks = others l ks.
Proof. apply filter_all. intros x Hx. apply others_In in Hx as [_ H]. apply smem_false in H. now rewrite H. Qed.

Lemma others_sub ks l : incl ks l -> forall x, In x (others l ks ++ ks) <-> In x l.
Proof.
  intros I x. rewrite in_app_iff, others_In. specialize (I x).
  destruct (in_dec string_dec x ks); tauto.
Qed.

Lemma spos_app_r x l1 l2 : ~ In x l1 -> spos x (l1 ++ l2) = length l1 + spos x l2.
Proof.
  induction l1 as [|y l1 IH]; simpl; intros H; auto.
  destruct (String.eqb_spec x y); subst; [destruct H; auto|]. rewrite IH; tauto.
Qed.

Lemma map_spos_self l : NoDup l -> map (fun x => spos x l) l = seq 0 (length l).
Proof.
  intros N. apply (list_eq_nth _ _ 0).
  - now rewrite map_length, seq_length.
  - intros i Hi. rewrite map_length in Hi.
    rewrite (map_nth_in _ _ _ ""%string) by auto. rewrite spos_nth by auto.
    now rewrite seq_nth.
Qed.

Lemma others_length l ks : NoDup l -> NoDup ks -> incl ks l -> length (others l ks) = length l - length ks.
Proof.
  intros N1 N2 I. pose proof (Permutation_length (front_perm l ks N1 N2 I)) as H.
  rewrite app_length in H. lia.
Qed.

Lemma move_back {A} (a : sarr A) ks :
  wf a -> NoDup ks -> incl ks (s_axes a) ->
  let axes' := others (s_axes a) ks ++ ks in
  let moved := moveaxis (map (fun ax => spos ax (s_axes a)) ks) (map (fun ax => spos ax axes') ks) (s_nd a) in
  nshape moved = map (asize a) axes' /\
  forall e : env, nget moved (map e axes') = nget (s_nd a) (map e (s_axes a)).
Proof.
  intros W N I axes' moved.
  assert (Lo : length (others (s_axes a) ks) = length (s_axes a) - length ks).
  { apply others_length; auto. apply W. }
  assert (Lk : length ks <= length (s_axes a)). { apply NoDup_incl_length; auto. }
  assert (D : map (fun ax => spos ax axes') ks = seq (length (s_axes a) - length ks) (length ks)).
  { rewrite <- Lo. unfold axes'.
    transitivity (map (fun i => length (others (s_axes a) ks) + i) (map (fun ax => spos ax ks) ks)).
    - rewrite map_map. apply map_ext_in. intros x Hx. apply spos_app_r. rewrite others_In. tauto.
    - rewrite map_spos_self by auto. generalize (length (others (s_axes a) ks)) as k.
      generalize (length ks). clear. intros n k.
      transitivity (map (fun i => k + i) (seq 0 n)); auto.
      clear. replace (seq k n) with (seq (k + 0) n) by (f_equal; lia).
      generalize 0. induction n as [|n IH]; intros m; simpl; auto.
      f_equal. rewrite IH. f_equal. lia. }
  assert (Nd : ndim (s_nd a) = length (s_axes a)) by (symmetry; apply W).
  assert (B : Forall (fun i => i < ndim (s_nd a)) (map (fun ax => spos ax (s_axes a)) ks)).
  { apply Forall_forall. intros p Hp. apply in_map_iff in Hp as [x [<- Hx]].
    rewrite Nd. apply spos_lt. auto. }
  assert (NDp : NoDup (map (fun ax => spos ax (s_axes a)) ks)) by now apply NoDup_map_spos.
  unfold moved, moveaxis. rewrite D, Nd.
  pose proof (moveaxis_order_back (length (s_axes a)) (map (fun ax => spos ax (s_axes a)) ks) NDp) as MB.
  rewrite map_length in MB. rewrite MB by (rewrite <- Nd; auto).
  set (perm := filter _ _ ++ _).
  assert (E : map (fun p => nth p (s_axes a) ""%string) perm = axes').
  { unfold perm. rewrite map_app, others_positions, map_nth_spos by (auto; apply W). reflexivity. }
  assert (P : Permutation perm (seq 0 (ndim (s_nd a)))).
  { unfold perm. rewrite Permutation_app_comm. rewrite Nd. apply filter_seq_perm; auto. now rewrite <- Nd. }
  split.
  - rewrite transpose_shape, <- E, map_map. apply map_ext_in. intros p Hp.
    assert (Hp' : p < length (s_axes a)).
    { rewrite <- Nd. apply (Permutation_in _ P) in Hp. apply in_seq in Hp. lia. }
    rewrite <- (map_asize a W). now rewrite (map_nth_in _ _ _ ""%string).
  - intros e. rewrite <- E. apply transpose_named; auto.
Qed.

Lemma reshape_last {A} (m : nd A) s1 s2 i1 j :
  nshape m = s1 ++ s2 -> inb i1 s1 -> j < prod s2 ->
  nget (reshape (s1 ++ [prod s2]) m) (i1 ++ [j]) = nget m (i1 ++ unravel s2 j).
Proof.
  intros E H1 H2. unfold reshape. cbn [nget]. f_equal. rewrite E.
  rewrite ravel_idx_app by (symmetry; now apply inb_length).
  simpl. rewrite Nat.mul_1_r, Nat.mul_1_r, Nat.add_0_r.
  replace (ravel_idx s1 i1 * prod s2 + j) with (ravel_idx (s1 ++ s2) (i1 ++ unravel s2 j)).
  - apply unravel_ravel. apply inb_app; auto. now apply unravel_inb.
  - rewrite ravel_idx_app by (symmetry; now apply inb_length).
    now rewrite ravel_unravel.
Qed.

Lemma combine_axes_unfold {A} (a : sarr A) l new :
  wf a -> NoDup l -> incl l (s_axes a) ->
  exists moved, nshape moved = map (asize a) (others (s_axes a) l ++ l) /\
    (forall e : env, nget moved (map e (others (s_axes a) l ++ l)) = nget (s_nd a) (map e (s_axes a))) /\
    combine_axes a (Some l) (Some new) =
    if prod (map (asize a) (others (s_axes a) l)) =? 0 then Err ValueError
    else mk_sarr (reshape (map (asize a) (others (s_axes a) l) ++ [prod (map (asize a) l)]) moved)
                 (others (s_axes a) l ++ [new]).
Proof.
  intros W N I. destruct (move_back a l W N I) as [S1 G1].
  eexists; split; [exact S1|]; split; [exact G1|].
  unfold combine_axes. cbn [bind].
  destruct (pop_append_fold l (s_axes a) N (proj1 W)) as [P _]. rewrite P by auto. cbn [bind].
  rewrite mapM_index_of by auto. cbn [bind].
  rewrite mapM_index_of by (intros x Hx; apply in_or_app; auto). cbn [bind].
  rewrite (proj2 (nodupb_NoDup l) N). cbn [negb].
  rewrite fold_sremove, others_app, others_self, others_idem, app_nil_r.
  rewrite S1, map_app, firstn_app_exact, skipn_app_exact by now rewrite map_length.
  reflexivity.
Qed.

Lemma nodup_app_l {T} (l m : list T) : NoDup (l ++ m) -> NoDup l.
Proof.
  induction l; simpl; intros H; constructor; inversion H; subst; auto.
  intros Hi. apply H2. apply in_or_app; auto.
Qed.

Lemma combine_axes_success {A} (a : sarr A) l new :
  wf a ->
  ((exists r, combine_axes a (Some l) (Some new) = Ok r) <->
   NoDup l /\ incl l (s_axes a) /\
   (forall ax n, In (ax, n) (sshape a) -> ~ In ax l -> n <> 0 /\ ax <> new)).
Proof.
  intros W. split.
  - intros [r H].
    assert (N : NoDup l).
    { destruct (nodupb l) eqn:E; [now apply nodupb_NoDup|].
      unfold combine_axes in H. cbn [bind] in H.
      apply bind_ok in H as [x1 [_ H]]. apply bind_ok in H as [x2 [_ H]]. apply bind_ok in H as [x3 [_ H]].
      rewrite E in H. discriminate. }
    assert (I : incl l (s_axes a)).
    { destruct (incl_sdec l (s_axes a)) as [I|I]; auto.
      destruct (pop_append_fold l (s_axes a) N (proj1 W)) as [_ P].
      destruct (P I) as [e [E _]]. unfold combine_axes in H. cbn [bind] in H.
      rewrite E in H. discriminate. }
    split; auto. split; auto.
    destruct (combine_axes_unfold a l new W N I) as [moved [_ [_ E]]]. rewrite E in H. clear E.
    destruct (prod (map (asize a) (others (s_axes a) l)) =? 0) eqn:Z; [discriminate|].
    apply mk_sarr_ok in H as [-> Wr]. destruct Wr as [Nr _]. cbn [s_axes] in Nr.
    intros ax n Hin Ho. apply in_sshape in Hin as [Hax <-]; auto.
    assert (Hoth : In ax (others (s_axes a) l)) by (apply others_In; auto).
    split.
    + intros Hz. apply Nat.eqb_neq in Z. apply Z.
      apply in_split in Hoth as [l1 [l2 ->]]. rewrite map_app. simpl. rewrite prod_app. simpl.
      rewrite Hz. lia.
    + intros ->. apply NoDup_remove_2 in Nr. rewrite app_nil_r in Nr. auto.
  - intros [N [I H]].
    destruct (combine_axes_unfold a l new W N I) as [moved [_ [_ E]]]. rewrite E.
    assert (H' : forall ax, In ax (others (s_axes a) l) -> asize a ax <> 0 /\ ax <> new).
    { intros ax Hax. apply others_In in Hax as [H1 H2]. apply (H ax (asize a ax)); auto. apply in_sshape; auto. }
    assert (Z : prod (map (asize a) (others (s_axes a) l)) <> 0).
    { clear - H'. induction (others (s_axes a) l) as [|x l' IH]; simpl; auto.
      assert (prod (map (asize a) l') <> 0) by (apply IH; intros; apply H'; right; auto).
      destruct (H' x) as [Hx _]; [left; auto|]. nia. }
    apply Nat.eqb_neq in Z. rewrite Z. eexists. apply mk_sarr_intro.
    + apply NoDup_snoc; [apply NoDup_filter; apply W|]. intros Hn. now destruct (H' new Hn).
    + simpl. now rewrite !app_length, map_length.
Qed.

Lemma combine_axes_spec {A} (a : sarr A) l new r :
  wf a -> combine_axes a (Some l) (Some new) = Ok r ->
  wf r /\ s_axes r = filter (fun ax => negb (smem ax l)) (s_axes a) ++ [new] /\
  (forall ax n, In (ax, n) (sshape r) <->
     (In (ax, n) (sshape a) /\ ~ In ax l) \/ (ax = new /\ n = total_size (sshape a) l)) /\
  (forall e e', inside e (sshape r) -> inside e' (sshape a) ->
     (forall ax, In ax (s_axes a) -> ~ In ax l -> e' ax = e ax) ->
     row_major (map (fun ax => match dget (sshape a) ax with Some n => n | None => 0 end) l) (map e' l) = e new ->
     at_ r e = at_ a e').
Proof.
  intros W H.
  destruct (proj1 (combine_axes_success a l new W) (ex_intro _ r H)) as [N [I HH]].
  destruct (combine_axes_unfold a l new W N I) as [moved [Sm [Gm E]]]. rewrite E in H. clear E.
  destruct (prod (map (asize a) (others (s_axes a) l)) =? 0) eqn:Z; [discriminate|].
  apply mk_sarr_ok in H as [-> Wr]. split; auto. split; auto. split.
  - intros ax n. unfold sshape at 1. cbn [s_axes s_nd reshape nshape].
    assert (Q : combine (others (s_axes a) l ++ [new]) (map (asize a) (others (s_axes a) l) ++ [prod (map (asize a) l)])
      = map (fun x => (x, asize a x)) (others (s_axes a) l) ++ [(new, prod (map (asize a) l))]).
    { generalize (others (s_axes a) l). induction l0; simpl; congruence. }
    rewrite Q, in_app_iff, in_map_iff. clear Q. rewrite total_size_prod by auto. simpl.
    rewrite in_sshape by auto. split.
    + intros [[x [Hx Hi]]|[Hx|[]]].
      * injection Hx as <- <-. apply others_In in Hi. left. tauto.
      * injection Hx as <- <-. auto.
    + intros [[[H1 <-] H2]|[-> ->]]; auto. left. exists ax. split; auto. apply others_In. auto.
  - intros e e' He He' Hk Hn.
    assert (Hk' : map e (others (s_axes a) l) = map e' (others (s_axes a) l)).
    { apply map_ext_in. intros x Hx. apply others_In in Hx as [? ?]. symmetry. auto. }
    assert (Ha : forall ax, In ax (s_axes a) -> e' ax < asize a ax).
    { now apply inside_asize. }
    assert (B2 : inb (map e' l) (map (asize a) l)).
    { unfold inb. apply Forall2_map_l, Forall2_map_r, Forall2_same. auto. }
    assert (El : map (fun ax => match dget (sshape a) ax with Some n => n | None => 0 end) l = map (asize a) l).
    { apply map_ext_in. intros x Hx. unfold asize.
      assert (Hd : In x (dkeys (sshape a))) by (rewrite wf_keys; auto).
      apply dget_Some_key in Hd as [v ->]. auto. }
    rewrite El, row_major_ravel in Hn by now rewrite !map_length.
    unfold at_. cbn [s_axes s_nd]. rewrite map_app. change (map e [new]) with [e new]. rewrite Hk'.
    rewrite (reshape_last moved _ (map (asize a) l)).
    + rewrite <- Hn, unravel_ravel by auto. rewrite <- map_app. apply Gm.
    + now rewrite Sm, map_app.
    + unfold inb. apply Forall2_map_l, Forall2_map_r, Forall2_same. intros x Hx.
      apply others_In in Hx as [? ?]; auto.
    + rewrite <- Hn. now apply ravel_idx_lt.
Qed.

(** every position along the new axis comes from exactly one index *)
Lemma combine_axes_source {A} (a : sarr A) l new r e :
  wf a -> combine_axes a (Some l) (Some new) = Ok r -> inside e (sshape r) ->
  exists e', inside e' (sshape a) /\
     (forall ax, ~ In ax l -> e' ax = e ax) /\
     row_major (map (fun ax => match dget (sshape a) ax with Some n => n | None => 0 end) l) (map e' l) = e new.
Proof.
  intros W H He.
  destruct (proj1 (combine_axes_success a l new W) (ex_intro _ r H)) as [N [I HH]].
  destruct (combine_axes_spec a l new r W H) as [Wr [Er [Sr _]]].
  assert (El : map (fun ax => match dget (sshape a) ax with Some n => n | None => 0 end) l = map (asize a) l).
  { apply map_ext_in. intros x Hx. unfold asize.
    assert (Hd : In x (dkeys (sshape a))) by (rewrite wf_keys; auto).
    apply dget_Some_key in Hd as [v ->]. auto. }
  assert (Hn : e new < prod (map (asize a) l)).
  { rewrite <- total_size_prod by auto. apply He. apply Sr. auto. }
  set (idx := unravel (map (asize a) l) (e new)).
  assert (Bi : inb idx (map (asize a) l)) by now apply unravel_inb.
  assert (Li : length idx = length l).
  { apply inb_length in Bi. now rewrite map_length in Bi. }
  exists (fun ax => if smem ax l then nth (spos ax l) idx 0 else e ax).
  split; [|split].
  - apply inside_asize; auto. intros ax Hax. destruct (smem ax l) eqn:M.
    + apply smem_In in M. pose proof (inb_nth idx _ 0 0 (spos ax l) Bi) as B.
      rewrite map_length in B. rewrite (map_nth_in _ _ _ ""%string), nth_spos in B; auto.
      * apply B. now apply spos_lt.
      * now apply spos_lt.
    + apply He. apply Sr. left. apply smem_false in M. split; auto. apply in_sshape; auto.
  - intros ax Hax. apply smem_false in Hax. now rewrite Hax.
  - rewrite El, row_major_ravel by now rewrite !map_length.
    assert (Em : map (fun ax => if smem ax l then nth (spos ax l) idx 0 else e ax) l = idx).
    { etransitivity; [|exact (map_env_of l idx N Li)]. apply map_ext_in. intros x Hx.
      apply smem_In in Hx. now rewrite Hx. }
    rewrite Em. now apply ravel_unravel.
Qed.

(** ** [moveaxis] *)

Lemma replace_first_count s d axes :
  count_occ string_dec axes s = 1 ->
  replace_first s d axes = Ok (map (fun x => if String.eqb x s then d else x) axes).
Proof.
  induction axes as [|x axes IH]; cbn [count_occ replace_first map]; [discriminate|].
  destruct (string_dec x s) as [->|Hn].
  - intros H. injection H as H. rewrite String.eqb_refl. do 2 f_equal.
    apply count_occ_not_In in H. symmetry.
    erewrite map_ext_in; [apply map_id|]. intros y Hy. cbn beta.
    destruct (String.eqb_spec y s); subst; tauto.
  - intros H. rewrite IH by auto.
    destruct (String.eqb_spec s x); [congruence|]. cbn [bind].
    destruct (String.eqb_spec x s); [congruence|]. auto.
Qed.

Lemma count_occ_replace s d t axes :
  t <> s -> t <> d ->
  count_occ string_dec (map (fun x => if String.eqb x s then d else x) axes) t = count_occ string_dec axes t.
Proof.
  intros H1 H2. induction axes as [|x axes IH]; cbn [count_occ map]; auto.
  rewrite IH. destruct (String.eqb_spec x s).
  - subst. destruct (string_dec d t), (string_dec s t); congruence.
  - reflexivity.
Qed.

Lemma renames_fold pairs axes :
  NoDup (map fst pairs) ->
  ForallOrdPairs (fun p q => snd p <> fst q) pairs ->
  (forall s, In s (map fst pairs) -> count_occ string_dec axes s = 1) ->
  foldM (fun axes p => replace_first (fst p) (snd p) axes) pairs axes = Ok (map (rename pairs) axes).
Proof.
  revert axes. induction pairs as [|[s d] pairs IH]; intros axes N F C; cbn [foldM].
  - f_equal. symmetry. erewrite map_ext; [apply map_id|]. reflexivity.
  - cbn [fst snd map] in *. inversion N as [|? ? N1 N2]; subst. inversion F as [|? ? F1 F2]; subst.
    rewrite replace_first_count by (apply C; left; auto). cbn [bind].
    rewrite IH; auto.
    + f_equal. rewrite map_map. apply map_ext. intros x. unfold rename. cbn [dget].
      destruct (String.eqb_spec x s).
      * subst. destruct (dget pairs d) eqn:G; auto. exfalso.
        apply dget_In in G. rewrite Forall_forall in F1. apply (F1 _ G). reflexivity.
      * reflexivity.
    + intros t Ht. rewrite count_occ_replace; [apply C; right; auto| |].
      * intros ->. auto.
      * intros ->. apply in_map_iff in Ht as [q [Hq Hi]].
        rewrite Forall_forall in F1. apply (F1 _ Hi). auto.
Qed.

Lemma moveaxis_missing {A} (a : sarr A) source destination :
  ~ incl source (s_axes a) -> na_moveaxis a source destination = Err ValueError.
Proof.
  intros H. unfold na_moveaxis.
  destruct (forallb (fun s => smem s (s_axes a)) source) eqn:E; auto.
  destruct H. rewrite forallb_forall in E. intros x Hx. apply smem_In. auto.
Qed.

Lemma moveaxis_spec {A} (a : sarr A) source destination :
  wf a -> NoDup source -> length source = length destination -> incl source (s_axes a) ->
  ForallOrdPairs (fun p q => snd p <> fst q) (combine source destination) ->
  let rho := rename (combine source destination) in
  (NoDup (map rho (s_axes a)) ->
   exists r, na_moveaxis a source destination = Ok r /\ wf r /\
     s_axes r = map rho (s_axes a) /\
     sshape r = map (fun kv => (rho (fst kv), snd kv)) (sshape a) /\
     forall e, at_ r e = at_ a (fun ax => e (rho ax))) /\
  (~ NoDup (map rho (s_axes a)) -> na_moveaxis a source destination = Err ValueError).
Proof.
  intros W N L I F rho. unfold na_moveaxis.
  assert (E : forallb (fun s => smem s (s_axes a)) source = true).
  { apply forallb_forall. intros x Hx. apply smem_In. auto. }
  rewrite E. cbn [negb].
  rewrite renames_fold; auto.
  - cbn [bind]. split.
    + intros NR. rewrite mk_sarr_intro; auto. 2:{ rewrite map_length. apply W. }
      eexists; split; [reflexivity|]. split.
      { split; simpl; auto. rewrite map_length. apply W. }
      split; auto. split.
      * unfold sshape. cbn [s_axes s_nd]. destruct W as [_ WL]. revert WL.
        generalize (nshape (s_nd a)). generalize (s_axes a). clear. intros l.
        induction l as [|x l IH]; intros [|y m] H; simpl in *; try discriminate; auto.
        injection H as H. f_equal. auto.
      * intros e. unfold at_. cbn [s_nd s_axes]. now rewrite map_map.
    + intros NR. unfold mk_sarr. rewrite map_length. unfold ndim. rewrite (proj2 W), Nat.eqb_refl. simpl.
      fold rho. apply nodupb_false in NR. now rewrite NR.
  - rewrite map_fst_combine; auto.
  - intros s Hs. rewrite map_fst_combine in Hs by auto. apply I in Hs.
    apply NoDup_count_occ'; [apply W|auto].
Qed.

(** ** [unravel_index] *)

Lemma dget_fold_build {T} (f : T -> res (sarr Z)) (l : list (string * T)) d r :
  NoDup (map fst l) -> (forall k, In k (dkeys d) -> ~ In k (map fst l)) ->
  foldM (fun d p => a <- f (snd p) ;; Ok (dset d (fst p) a)) l d = Ok r ->
  dkeys r = dkeys d ++ map fst l /\
  (forall k v, dget d k = Some v -> dget r k = Some v) /\
  forall k x, In (k, x) l -> exists v, f x = Ok v /\ dget r k = Some v.
Proof.
  revert d. induction l as [|[k x] l IH]; intros d N D; cbn [foldM].
  - intros H. injection H as <-. cbn [map]. rewrite app_nil_r. repeat split; auto. intros ? ? [].
  - cbn [fst snd map] in *. inversion N as [|? ? N1 N2]; subst.
    destruct (f x) as [v|] eqn:E; [|discriminate]. cbn [bind]. intros H.
    assert (Hk : smem k (dkeys d) = false).
    { apply smem_false. intros Hk. apply (D k Hk). left; auto. }
    apply IH in H; auto.
    + destruct H as [H1 [H2 H3]]. rewrite dkeys_dset, Hk in H1.
      rewrite <- app_assoc in H1. split; auto. split.
      * intros k' v' G. apply H2. rewrite dget_dset.
        destruct (String.eqb_spec k' k); auto. subst. exfalso. apply smem_false in Hk. apply Hk.
        apply dget_Some_key. eauto.
      * intros k' x' [E'|Hi]; auto. injection E' as <- <-. exists v. split; auto.
        apply H2. rewrite dget_dset, String.eqb_refl. auto.
    + intros k' Hk'. rewrite dkeys_dset, Hk in Hk'. apply in_app_or in Hk' as [Hk'|[<-|[]]]; auto.
      intros Hi. apply (D k' Hk'). right; auto.
Qed.

Lemma dget_fold_ok {T} (f : T -> res (sarr Z)) (l : list (string * T)) d :
  (forall p, In p l -> exists v, f (snd p) = Ok v) ->
  exists r, foldM (fun d p => a <- f (snd p) ;; Ok (dset d (fst p) a)) l d = Ok r.
Proof.
  revert d. induction l as [|p l IH]; intros d H; cbn [foldM]; eauto.
  destruct (H p) as [v ->]; [left; auto|]. cbn [bind]. apply IH. intros; apply H; right; auto.
Qed.

Definition in_size (n : nat) (z : Z) : Prop := (0 <= z < Z.of_nat n)%Z.

Lemma unravel_index_success (a : sarr Z) (sh : shape) :
  wf a -> NoDup (dkeys sh) ->
  ((exists r, na_unravel_index a sh = Ok r) <->
   (sh = [] -> s_axes a = []) /\
   forall e, inside e (sshape a) -> (0 <= at_ a e < Z.of_nat (total_size sh (dkeys sh)))%Z).
Proof.
  intros W N.
  assert (T : total_size sh (dkeys sh) = prod (dvals sh)).
  { assert (Q : forall l, incl l sh -> total_size sh (dkeys l) = prod (dvals l)).
    { induction l as [|[k v] l IH]; intros I; cbn; auto.
      rewrite (dget_NoDup sh k v) by (auto; apply I; left; auto).
      unfold total_size in IH. unfold dkeys in IH. rewrite IH; auto.
      intros x Hx; apply I; right; auto. }
    apply Q. apply incl_refl. }
  rewrite T.
  assert (F : forallb (fun z => (0 <=? z)%Z && (z <? Z.of_nat (prod (dvals sh)))%Z) (ravel (s_nd a)) = true <->
    forall e, inside e (sshape a) -> (0 <= at_ a e < Z.of_nat (prod (dvals sh)))%Z).
  { rewrite forallb_forall. split.
    - intros H e He. specialize (H (at_ a e)). rewrite andb_true_iff, Z.leb_le, Z.ltb_lt in H.
      apply H. apply ravel_In. exists (map e (s_axes a)). split; auto. now apply inside_inb.
    - intros H x Hx. apply ravel_In in Hx as [idx [Hi <-]].
      rewrite andb_true_iff, Z.leb_le, Z.ltb_lt.
      rewrite <- (map_env_of (s_axes a) idx (proj1 W)).
      + apply (H (env_of (s_axes a) idx)). apply inside_inb; auto. rewrite map_env_of; auto; [apply W|].
        apply inb_length in Hi. rewrite Hi. symmetry. apply W.
      + apply inb_length in Hi. rewrite Hi. symmetry. apply W. }
  assert (S0 : (length (dvals sh) =? 0) && negb (ndim (s_nd a) =? 0) = false <-> (sh = [] -> s_axes a = [])).
  { unfold dvals. rewrite map_length. unfold ndim. rewrite <- (proj2 W).
    destruct sh; simpl; destruct (s_axes a); simpl; intuition congruence. }
  unfold na_unravel_index, np_unravel_index.
  destruct ((length (dvals sh) =? 0) && negb (ndim (s_nd a) =? 0)) eqn:E0.
  { cbn [bind]. split; [intros [? ?]; discriminate|]. intros [H _]. apply S0 in H. discriminate. }
  destruct (forallb _ _) eqn:E1; cbn [bind].
  - split.
    + intros _. split; [now apply S0|now apply F].
    + intros _.
      match goal with |- exists r, foldM _ (combine _ ?l) _ = _ => set (L := l) end.
      apply (dget_fold_ok (fun x => mk_sarr x (s_axes a)) (combine (dkeys sh) L) []).
      intros [k x] Hx. apply in_combine_r in Hx. unfold L in Hx. apply in_map_iff in Hx as [j [<- _]].
      eexists. apply mk_sarr_intro; [apply W|]. simpl. apply W.
  - split; [intros [? ?]; discriminate|]. intros [_ H]. apply F in H. discriminate.
Qed.

Lemma unravel_index_spec (a : sarr Z) (sh : shape) r :
  wf a -> NoDup (dkeys sh) -> na_unravel_index a sh = Ok r ->
  dkeys r = dkeys sh /\
  (forall ax v, dget r ax = Some v -> wf v /\ sshape v = sshape a) /\
  forall e, inside e (sshape a) ->
    exists idx : list nat,
      Forall2 (fun kv i => i < snd kv /\ exists v, dget r (fst kv) = Some v /\ at_ v e = Z.of_nat i) sh idx /\
      Z.of_nat (row_major (dvals sh) idx) = at_ a e.
Proof.
  intros W N H. unfold na_unravel_index in H.
  apply bind_ok in H as [L [HL H]].
  unfold np_unravel_index in HL.
  destruct ((length (dvals sh) =? 0) && negb (ndim (s_nd a) =? 0)) eqn:E0; [discriminate|].
  destruct (forallb _ _) eqn:E1; [|discriminate]. injection HL as <-.
  assert (LV : length (dkeys sh) = length (dvals sh)) by (unfold dkeys, dvals; now rewrite !map_length).
  match type of H with foldM _ (combine _ ?l) _ = _ => set (L := l) in * end.
  assert (LL : length (dkeys sh) = length L).
  { unfold L. rewrite map_length, seq_length. auto. }
  apply (dget_fold_build (fun x => mk_sarr x (s_axes a))) in H.
  2:{ now rewrite map_fst_combine. }
  2:{ intros k []. }
  destruct H as [K [_ G]]. cbn in K. rewrite map_fst_combine in K by auto.
  assert (Gx : forall i, i < length sh -> dget r (nth i (dkeys sh) ""%string) =
     Some (mkS (mkNd (nshape (s_nd a)) (fun idx => Z.of_nat (nth i (unravel (dvals sh) (Z.to_nat (nget (s_nd a) idx))) 0))) (s_axes a))).
  { intros i Hi.
    assert (Hin : In (nth i (dkeys sh) ""%string, nth i L (mkNd [] (fun _ => 0%Z))) (combine (dkeys sh) L)).
    { rewrite <- combine_nth by auto. apply nth_In. rewrite combine_length, <- LL. unfold dkeys. rewrite map_length. lia. }
    apply G in Hin as [v [Hv Hg]]. rewrite Hg. apply mk_sarr_ok in Hv as [-> _].
    unfold L. rewrite (map_nth_in _ _ _ 0), seq_nth by (rewrite ?seq_length; unfold dvals; rewrite map_length; auto).
    reflexivity. }
  split; auto. split.
  - intros ax v Hv.
    assert (Hax : In ax (dkeys sh)) by (rewrite <- K; apply dget_Some_key; eauto).
    assert (Hi : spos ax (dkeys sh) < length sh).
    { apply spos_lt in Hax. unfold dkeys in Hax at 2. now rewrite map_length in Hax. }
    specialize (Gx _ Hi). rewrite nth_spos in Gx by auto. rewrite Hv in Gx. injection Gx as ->.
    split; [split; simpl; apply W|reflexivity].
  - intros e He.
    assert (B : (0 <= at_ a e < Z.of_nat (prod (dvals sh)))%Z).
    { rewrite forallb_forall in E1. specialize (E1 (at_ a e)).
      rewrite andb_true_iff, Z.leb_le, Z.ltb_lt in E1. apply E1.
      apply ravel_In. exists (map e (s_axes a)). split; auto. now apply inside_inb. }
    set (k := Z.to_nat (at_ a e)).
    assert (Hk : k < prod (dvals sh)) by (unfold k; lia).
    exists (unravel (dvals sh) k). pose proof (unravel_inb _ _ Hk) as Bi.
    pose proof (inb_length _ _ Bi) as Li.
    split.
    + apply (Forall2_nth_intro _ _ _ (""%string, 0) 0).
      { rewrite Li. unfold dvals. now rewrite map_length. }
      intros i Hi.
      assert (E2 : nth i (dkeys sh) ""%string = fst (nth i sh (""%string, 0))).
      { unfold dkeys. exact (map_nth fst sh (""%string, 0) i). }
      assert (E3 : nth i (dvals sh) 0 = snd (nth i sh (""%string, 0))).
      { unfold dvals. exact (map_nth snd sh (""%string, 0) i). }
      split.
      * rewrite <- E3. apply inb_nth; auto. unfold dvals. now rewrite map_length.
      * rewrite <- E2. eexists. split; [apply Gx; auto|]. reflexivity.
    + rewrite row_major_ravel by auto. rewrite ravel_unravel by auto. unfold k. lia.
Qed.

(** ** [array_equal], [array_equiv] *)

Lemma array_equal_same_axes {A} (eqb : A -> A -> bool) (a b : sarr A) :
  (forall x y, eqb x y = true <-> x = y) ->
  wf a -> wf b -> s_axes a = s_axes b ->
  (na_array_equal eqb a b = true <-> same_array a b).
Proof.
  intros Q Wa Wb EA. unfold na_array_equal, np_array_equal.
  destruct (list_eq_dec _ _ _) as [ES|ES].
  - assert (SS : sshape a = sshape b) by (unfold sshape; congruence).
    assert (P : forallb (fun p => eqb (fst p) (snd p)) (combine (ravel (s_nd a)) (ravel (s_nd b))) = true <->
      forall idx, inb idx (nshape (s_nd a)) -> nget (s_nd a) idx = nget (s_nd b) idx).
    { unfold ravel. rewrite <- ES.
      assert (Z : forall l : list (list nat), combine (map (nget (s_nd a)) l) (map (nget (s_nd b)) l)
                 = map (fun i => (nget (s_nd a) i, nget (s_nd b) i)) l).
      { induction l; simpl; congruence. }
      rewrite Z, forallb_forall. split.
      - intros H idx Hi. apply Q. apply (H (nget (s_nd a) idx, nget (s_nd b) idx)).
        apply in_map_iff. exists idx. split; auto. now apply ndindex_In.
      - intros H [x y] Hx. apply in_map_iff in Hx as [idx [E Hi]]. injection E as <- <-.
        apply Q. apply H. now apply ndindex_In. }
    rewrite P. split.
    + intros H. split; [rewrite SS; intros ? ?; tauto|]. intros e He. unfold at_. rewrite <- EA.
      apply H. now apply inside_inb.
    + intros [_ H] idx Hi.
      assert (Li : length idx = length (s_axes a)).
      { apply inb_length in Hi. rewrite Hi. symmetry. apply Wa. }
      specialize (H (env_of (s_axes a) idx)). unfold at_ in H.
      rewrite <- EA, map_env_of in H by (auto; apply Wa). apply H.
      apply inside_inb; auto. rewrite map_env_of; auto. apply Wa.
  - split; [discriminate|]. intros [H _]. destruct ES.
    rewrite <- (map_asize a Wa), <- (map_asize b Wb), <- EA.
    apply map_ext. intros x. unfold asize.
    now rewrite (same_shape_dget (sshape a) (sshape b)) by (auto; now apply wf_nodup).
Qed.

Lemma array_equiv_spec {A} (eqb : A -> A -> bool) (a b : sarr A) :
  (forall x y, eqb x y = true <-> x = y) -> wf a -> wf b ->
  match broadcast_shapes [sshape a; sshape b] with
  | Err _ => na_array_equiv eqb a b = Err ValueError
  | Ok sh => exists v, na_array_equiv eqb a b = Ok v /\
      (v = true <-> forall e, inside e sh -> bat a e = bat b e)
  end.
Proof.
  intros Q Wa Wb. unfold na_array_equiv.
  assert (WW : Forall op_wf [OpArr a; OpArr b]) by (repeat constructor; simpl; try apply Wa; try apply Wb).
  change (broadcast_shapes [sshape a; sshape b]) with (shape_broadcasted [OpArr a; OpArr b]).
  destruct (shape_broadcasted [OpArr a; OpArr b]) as [sh|e] eqn:E; cbn [bind].
  - destruct (ops_aligned _ _ WW E) as [N [ns [M [_ [B G]]]]].
    cbn [mapM op_aligned] in M.
    apply bind_ok in M as [n1 [M1 M]]. apply bind_ok in M as [x [M2 M]]. injection M as <-.
    apply bind_ok in M2 as [n2 [M2 M]]. injection M as <-.
    rewrite M1, M2. cbn [bind]. cbn [map] in B. rewrite B. eexists; split; [reflexivity|].
    rewrite forallb_forall. split.
    + intros H e He.
      rewrite <- (bget_aligned a _ _ e Wa N M1), <- (bget_aligned b _ _ e Wb N M2).
      apply Q. apply H. apply ndindex_In. unfold inb.
      unfold dkeys, dvals. apply Forall2_map_l, Forall2_map_l, Forall2_map_r, Forall2_same.
      intros [k v] Hk. apply He in Hk. auto.
    + intros H idx Hi. apply ndindex_In in Hi.
      assert (Li : length idx = length (dkeys sh)).
      { apply inb_length in Hi. rewrite Hi. unfold dkeys, dvals. now rewrite !map_length. }
      apply Q. rewrite <- (map_env_of (dkeys sh) idx N Li).
      rewrite (bget_aligned a _ _ _ Wa N M1), (bget_aligned b _ _ _ Wb N M2). apply H.
      intros ax n Hin.
      assert (Hd : dget sh ax = Some n) by now apply dget_NoDup.
      assert (Hax : In ax (dkeys sh)) by (apply dget_Some_key; eauto).
      unfold env_of. rewrite <- (combine_dkeys_dvals sh) in Hd.
      rewrite dget_combine in Hd by (unfold dkeys, dvals; now rewrite !map_length).
      apply (nth_error_nth _ _ 0) in Hd. rewrite <- Hd. apply inb_nth; auto.
      apply spos_lt in Hax. unfold dkeys, dvals in *. rewrite map_length in *. auto.
  - destruct (broadcast_shapes_total (op_shapes [OpArr a; OpArr b])) as [[r Hr]|Hr].
    + now apply op_shapes_nodup.
    + unfold shape_broadcasted in E. congruence.
    + unfold shape_broadcasted in E. congruence.
Qed.

(** ** [ndindex] *)

Lemma fold_ddel (l : list string) (s : shape) : NoDup (dkeys s) ->
  fold_left ddel l s = filter (fun kv => negb (smem (fst kv) l)) s.
Proof.
  revert s. induction l as [|x l IH]; intros s N; simpl.
  - symmetry. apply filter_all. auto.
  - rewrite IH.
    + rewrite ddel_filter by auto. rewrite filter_filter. apply filter_ext. intros [k v]. simpl.
      now rewrite negb_orb.
    + rewrite dkeys_ddel by auto. now apply NoDup_filter.
Qed.

Lemma dkeys_filter_fst (f : string -> bool) (s : shape) :
  dkeys (filter (fun kv => f (fst kv)) s) = filter f (dkeys s).
Proof. induction s as [|[k v] s IH]; simpl; auto. destruct (f k); simpl; congruence. Qed.

Lemma total_size_vals (s t : shape) : NoDup (dkeys s) -> incl t s -> total_size s (dkeys t) = prod (dvals t).
Proof.
  intros N. induction t as [|[k v] l IH]; intros I; cbn; auto.
  rewrite (dget_NoDup s k v) by (auto; apply I; left; auto).
  unfold total_size in IH. unfold dkeys in IH. rewrite IH; auto.
  intros x Hx; apply I; right; auto.
Qed.

Lemma na_ndindex_spec (s : shape) (ign : list string) :
  NoDup (dkeys s) ->
  let ks := filter (fun ax => negb (smem ax ign)) (dkeys s) in
  let l := na_ndindex s ign in
  (forall d, In d l <-> dkeys d = ks /\ forall ax i, In (ax, i) d -> exists n, In (ax, n) s /\ i < n) /\
  StronglySorted (fun d1 d2 => lex_lt (dvals d1) (dvals d2)) l /\
  length l = total_size s ks.
Proof.
  intros N ks l. unfold l, na_ndindex. rewrite fold_ddel by auto.
  set (t := filter (fun kv => negb (smem (fst kv) ign)) s).
  assert (Kt : dkeys t = ks) by apply (dkeys_filter_fst (fun k => negb (smem k ign))).
  assert (Nt : NoDup (dkeys t)) by (rewrite Kt; now apply NoDup_filter).
  assert (It : incl t s) by (intros x Hx; apply filter_In in Hx; tauto).
  assert (Lt : length (dvals t) = length (dkeys t)) by (unfold dkeys, dvals; now rewrite !map_length).
  split; [|split].
  - intros d. rewrite in_map_iff. split.
    + intros [idx [<- Hi]]. apply ndindex_In in Hi.
      pose proof (inb_length _ _ Hi) as Li. split.
      * rewrite dkeys_combine; auto. lia.
      * intros ax i Hin.
        assert (Hg : dget (combine (dkeys t) idx) ax = Some i).
        { apply dget_NoDup; auto. rewrite dkeys_combine; auto. lia. }
        rewrite dget_combine in Hg by lia.
        assert (Hs : spos ax (dkeys t) < length idx) by (apply nth_error_Some; congruence).
        apply (nth_error_nth _ _ 0) in Hg.
        exists (nth (spos ax (dkeys t)) (dvals t) 0). split.
        -- apply It. assert (Hax : In ax (dkeys t)) by (apply spos_lt; lia).
           apply dget_In. rewrite <- (combine_dkeys_dvals t) at 1. rewrite dget_combine by lia.
           apply nth_error_nth'. lia.
        -- rewrite <- Hg. apply inb_nth; auto. lia.
    + intros [Hk Hb]. exists (dvals d). split.
      * rewrite Kt, <- Hk. apply combine_dkeys_dvals.
      * apply ndindex_In. unfold inb.
        apply (Forall2_nth_intro _ _ _ 0 0).
        { rewrite Lt, Kt, <- Hk. unfold dkeys, dvals. now rewrite !map_length. }
        intros i Hi.
        assert (Li : i < length d) by (unfold dvals in Hi; now rewrite map_length in Hi).
        destruct (nth i d (""%string, 0)) as [ax v] eqn:E.
        assert (Ev : nth i (dvals d) 0 = v).
        { unfold dvals. etransitivity; [exact (map_nth snd d (""%string, 0) i)|]. now rewrite E. }
        assert (Ek : nth i (dkeys d) ""%string = ax).
        { unfold dkeys. etransitivity; [exact (map_nth fst d (""%string, 0) i)|]. now rewrite E. }
        destruct (Hb ax v) as [n [Hn Hlt]]. { rewrite <- E. now apply nth_In. }
        rewrite Ev.
        assert (Hl : i < length (dvals t)).
        { rewrite Lt, Kt, <- Hk. unfold dkeys. now rewrite map_length. }
        assert (En : nth i (dvals t) 0 = n).
        { assert (In (ax, nth i (dvals t) 0) s).
          { apply It. rewrite <- Ek, Hk, <- Kt. rewrite <- combine_nth by lia.
            rewrite combine_dkeys_dvals. apply nth_In. unfold dvals in Hl. now rewrite map_length in Hl. }
          apply dget_NoDup in Hn; auto. apply dget_NoDup in H; auto. congruence. }
        now rewrite En.
  - pose proof (ndindex_sorted (dvals t)) as SS.
    assert (Q : forall m, (forall x, In x m -> length x = length (dkeys t)) -> StronglySorted lex_lt m ->
      StronglySorted (fun d1 d2 => lex_lt (dvals d1) (dvals d2)) (map (fun idx => combine (dkeys t) idx) m)).
    { induction m as [|x m IH]; intros HL H; simpl; constructor; inversion H; subst.
      - apply IH; auto. intros; apply HL; right; auto.
      - apply Forall_forall. intros d Hd. apply in_map_iff in Hd as [y [<- Hy]].
        rewrite !dvals_combine.
        + rewrite Forall_forall in H3. auto.
        + symmetry. apply HL. right; auto.
        + symmetry. apply HL. left; auto. }
    apply Q; auto. intros x Hx. apply ndindex_In in Hx. apply inb_length in Hx. lia.
  - rewrite map_length, ndindex_length. rewrite <- Kt. symmetry. now apply total_size_vals.
Qed.
