(** Facts about alignment ([ndarray_aligned]), elementwise operations and
    broadcasting of named arrays. *)
From Coq Require Import String List Arith ZArith Bool Lia Permutation.
From Verif Require Import Base BaseFacts Numpy NumpyFacts Shapes Scalar Spec ShapesFacts.
Import ListNotations.
Open Scope nat_scope.
Open Scope list_scope.

Lemma axes_eqb_true l1 l2 : axes_eqb l1 l2 = true <-> l1 = l2.
Proof. unfold axes_eqb. destruct (list_eq_dec string_dec l1 l2); split; congruence. Qed.

Lemma wf_keys {A} (a : sarr A) : wf a -> dkeys (sshape a) = s_axes a.
Proof. intros [_ H]. unfold sshape. now apply dkeys_combine. Qed.

Lemma wf_vals {A} (a : sarr A) : wf a -> dvals (sshape a) = nshape (s_nd a).
Proof. intros [_ H]. unfold sshape. now apply dvals_combine. Qed.

Lemma wf_nodup {A} (a : sarr A) : wf a -> NoDup (dkeys (sshape a)).
Proof. intros H. rewrite wf_keys by auto. apply H. Qed.

Lemma mk_sarr_ok {A} (n : nd A) axes a :
  mk_sarr n axes = Ok a -> a = mkS n axes /\ wf a.
Proof.
  unfold mk_sarr. destruct (Nat.eqb_spec (ndim n) (length axes)); simpl; [|discriminate].
  destruct (nodupb axes) eqn:E; simpl; [|discriminate].
  intros H; injection H as <-. split; auto. apply nodupb_NoDup in E. split; auto.
Qed.

Lemma mk_sarr_intro {A} (n : nd A) axes :
  NoDup axes -> length axes = length (nshape n) -> mk_sarr n axes = Ok (mkS n axes).
Proof.
  intros H1 H2. unfold mk_sarr, ndim. rewrite H2, Nat.eqb_refl. simpl.
  now rewrite (proj2 (nodupb_NoDup axes) H1).
Qed.

Lemma mk_sarr_err {A} (n : nd A) axes e : mk_sarr n axes = Err e -> e = ValueError.
Proof.
  unfold mk_sarr. destruct (negb _); [congruence|]. destruct (negb _); congruence.
Qed.

Definition asize {A} (a : sarr A) (ax : string) : nat :=
  match dget (sshape a) ax with Some n => n | None => 1 end.

Lemma dget_sshape_nth {A} (a : sarr A) i d :
  wf a -> i < length (s_axes a) ->
  dget (sshape a) (nth i (s_axes a) d) = Some (nth i (nshape (s_nd a)) 0).
Proof.
  intros [ND L] Hi. unfold sshape. rewrite dget_combine by auto.
  rewrite spos_nth by auto. apply nth_error_nth'. lia.
Qed.

Lemma map_asize {A} (a : sarr A) : wf a -> map (asize a) (s_axes a) = nshape (s_nd a).
Proof.
  intros W. apply list_eq_nth with (d := 0).
  - rewrite map_length. apply W.
  - intros i Hi. rewrite map_length in Hi. rewrite map_nth_in with (d := ""%string) by auto.
    unfold asize. rewrite dget_sshape_nth; auto.
Qed.

Lemma asize_absent {A} (a : sarr A) ax : wf a -> ~ In ax (s_axes a) -> asize a ax = 1.
Proof.
  intros W H. unfold asize. rewrite (proj2 (dget_None _ _)); auto. now rewrite wf_keys.
Qed.

Lemma incl_sdec (l m : list string) : {incl l m} + {~ incl l m}.
Proof.
  induction l as [|x l IH].
  - left. intros y [].
  - destruct (in_dec string_dec x m), IH.
    + left. intros y [<-|Hy]; auto.
    + right. intros H. apply n. intros y Hy. apply H; simpl; auto.
    + right. intros H. apply n, H. simpl; auto.
    + right. intros H. apply n, H. simpl; auto.
Qed.

Lemma mapM_index_of (l axes : list string) :
  incl l axes -> mapM (fun ax => index_of ax axes) l = Ok (map (fun ax => spos ax axes) l).
Proof.
  intros H. apply mapM_map. intros x Hx. unfold index_of. now rewrite sindex_In by auto.
Qed.

Lemma mapM_index_of_err (l axes : list string) :
  ~ incl l axes -> exists e, mapM (fun ax => index_of ax axes) l = Err e /\ e = ValueError.
Proof.
  intros H. exists ValueError. split; auto. induction l as [|x l IH].
  - exfalso. apply H. intros y [].
  - simpl. unfold index_of at 1. destruct (sindex x axes) eqn:E; simpl; auto.
    rewrite IH; auto. intros Hl. apply H. intros y [<-|Hy]; auto.
    apply sindex_Some in E as [E _]. now apply nth_error_In in E.
Qed.

Lemma NoDup_map_spos (l axes : list string) :
  NoDup l -> incl l axes -> NoDup (map (fun ax => spos ax axes) l).
Proof.
  induction l; simpl; intros ND H; constructor; inversion ND; subst.
  - intros Hin. apply in_map_iff in Hin as [y [E Hy]].
    apply H2. replace a with y; auto. apply (spos_inj y a axes); auto; apply H; simpl; auto.
  - apply IHl; auto. intros y Hy. apply H; simpl; auto.
Qed.

Lemma align_sub {A} (a : sarr A) axes :
  wf a -> NoDup axes -> incl (s_axes a) axes ->
  exists n, ndarray_aligned a axes = Ok n /\
            nshape n = map (asize a) axes /\
            forall e : env, nget n (map e axes) = nget (s_nd a) (map e (s_axes a)).
Proof.
  intros W ND I. unfold ndarray_aligned.
  destruct (axes_eqb axes (s_axes a)) eqn:E.
  { apply axes_eqb_true in E. subst. exists (s_nd a).
    split; [auto|split]; auto. symmetry. now apply map_asize. }
  rewrite mapM_index_of by auto. cbn [bind].
  destruct W as [NDa La].
  set (m := length (s_axes a)). set (n := length axes).
  assert (Lmn : m <= n) by (apply NoDup_incl_length; auto).
  set (dst := map (fun ax => spos ax axes) (s_axes a)).
  set (value := newaxes (n - ndim (s_nd a)) (s_nd a)).
  assert (Nd : ndim value = n).
  { unfold value, newaxes, ndim. simpl. rewrite app_length, repeat_length.
    unfold ndim. rewrite <- La. fold m. lia. }
  assert (Ld : length dst = m) by (unfold dst; rewrite map_length; auto).
  destruct (moveaxis_order_spec n (seq 0 m) dst) as [P Q].
  { rewrite seq_length. auto. }
  { apply seq_NoDup. }
  { apply NoDup_map_spos; auto. }
  { apply Forall_forall. intros x Hx. apply in_seq in Hx. lia. }
  { apply Forall_forall. intros x Hx. apply in_map_iff in Hx as [y [<- Hy]].
    apply spos_lt. auto. }
  set (order := moveaxis_order n (seq 0 m) dst) in *.
  assert (NDo : NoDup order).
  { eapply Permutation_NoDup; [symmetry; exact P|apply seq_NoDup]. }
  assert (Lo : length order = n) by (rewrite (Permutation_length P); apply seq_length).
  assert (Q' : forall k, k < m -> nth_error order (spos (nth k (s_axes a) ""%string) axes) = Some k).
  { intros k Hk. specialize (Q k). rewrite seq_length, seq_nth in Q by auto. simpl in Q.
    rewrite <- Q by auto. unfold dst.
    rewrite map_nth_in with (d := ""%string) by auto. auto. }
  exists (transpose order value). unfold moveaxis. rewrite Nd.
  split; [reflexivity|split].
  - apply list_eq_nth with (d := 0).
    { simpl. rewrite !map_length. auto. }
    intros j Hj. simpl in Hj. rewrite map_length, Lo in Hj.
    cbn [transpose nshape]. rewrite map_nth_in with (d := 0) by lia.
    rewrite map_nth_in with (d := ""%string) by auto.
    assert (Ho : In (nth j order 0) (seq 0 n)).
    { eapply Permutation_in; [exact P|]. apply nth_In. lia. }
    apply in_seq in Ho. unfold value, newaxes. cbn [nshape].
    destruct (in_dec string_dec (nth j axes ""%string) (s_axes a)) as [Hin|Hin].
    + apply (In_nth _ _ ""%string) in Hin as [k [Hk Ek]]. fold m in Hk.
      specialize (Q' k Hk). rewrite Ek in Q'.
      rewrite spos_nth in Q' by auto. apply nth_error_nth with (d := 0) in Q'. rewrite Q'.
      rewrite app_nth1 by (rewrite <- La; auto).
      unfold asize. rewrite <- Ek. rewrite dget_sshape_nth; auto. split; auto.
    + rewrite asize_absent; auto; [|split; auto].
      destruct (Nat.lt_ge_cases (nth j order 0) m) as [Hlt|Hge].
      * exfalso. specialize (Q' _ Hlt).
        assert (j = spos (nth (nth j order 0) (s_axes a) ""%string) axes).
        { apply (proj1 (NoDup_nth_error order) NDo); [lia|].
          rewrite Q'. apply nth_error_nth'. lia. }
        apply Hin. rewrite H at 1. rewrite nth_spos.
        -- apply nth_In. auto.
        -- apply I. apply nth_In. auto.
      * rewrite app_nth2 by (rewrite <- La; auto).
        rewrite nth_indep with (d' := 1).
        -- apply nth_repeat.
        -- rewrite repeat_length. unfold ndim. rewrite <- La. fold m. lia.
  - intros e. cbn [transpose nget]. unfold value, newaxes. cbn [nget]. f_equal.
    change (ndim (mkNd (nshape (s_nd a) ++ repeat 1 (n - ndim (s_nd a)))
                       (fun idx => nget (s_nd a) (firstn (ndim (s_nd a)) idx)))) with (ndim value).
    rewrite Nd. replace (ndim (s_nd a)) with m by (unfold ndim, m; auto).
    rewrite firstn_map. replace (firstn m (seq 0 n)) with (seq 0 m).
    2:{ replace n with (m + (n - m)) by lia. rewrite seq_app, firstn_app_exact; auto.
        now rewrite seq_length. }
    apply list_eq_nth with (d := 0).
    { rewrite !map_length, seq_length. auto. }
    intros k Hk. rewrite map_length, seq_length in Hk.
    rewrite map_nth_in with (d := 0) by (rewrite seq_length; auto).
    rewrite seq_nth by auto. simpl.
    specialize (Q' k Hk).
    rewrite (npos_nth_error order _ k NDo Q').
    assert (In (nth k (s_axes a) ""%string) axes) by (apply I, nth_In; auto).
    rewrite map_nth_in with (d := ""%string) by (now apply spos_lt).
    rewrite nth_spos by auto. rewrite map_nth_in with (d := ""%string) by auto. auto.
Qed.

Lemma align_err {A} (a : sarr A) axes :
  ~ incl (s_axes a) axes -> ndarray_aligned a axes = Err ValueError.
Proof.
  intros H. unfold ndarray_aligned.
  destruct (axes_eqb axes (s_axes a)) eqn:E.
  { apply axes_eqb_true in E. subst. exfalso. apply H. apply incl_refl. }
  destruct (mapM_index_of_err _ _ H) as [e [-> ->]]. reflexivity.
Qed.

Lemma align_ok {A} (a : sarr A) axes n :
  wf a -> NoDup axes -> ndarray_aligned a axes = Ok n ->
  incl (s_axes a) axes /\ nshape n = map (asize a) axes /\
  forall e : env, nget n (map e axes) = nget (s_nd a) (map e (s_axes a)).
Proof.
  intros W ND H.
  destruct (incl_sdec (s_axes a) axes) as [I|I].
  - destruct (align_sub a axes W ND I) as [n' [E ?]]. rewrite E in H. injection H as <-. auto.
  - rewrite align_err in H by auto. discriminate.
Qed.

(** every positional index is a labelled one *)
Definition env_of (axes : list string) (idx : list nat) : env := fun ax => nth (spos ax axes) idx 0.

Lemma map_env_of axes idx : NoDup axes -> length idx = length axes ->
  map (env_of axes idx) axes = idx.
Proof.
  intros ND L. apply list_eq_nth with (d := 0).
  - now rewrite map_length.
  - intros i Hi. rewrite map_length in Hi.
    rewrite map_nth_in with (d := ""%string) by auto. unfold env_of. now rewrite spos_nth.
Qed.

Lemma inside_inb {A} (a : sarr A) e : wf a ->
  (inside e (sshape a) <-> inb (map e (s_axes a)) (nshape (s_nd a))).
Proof.
  intros W. assert (W' := W). destruct W' as [ND L]. unfold inside, inb, sshape. split.
  - intros H. apply Forall2_nth_intro with (d1 := 0) (d2 := 0).
    + now rewrite map_length.
    + intros i Hi. rewrite map_length in Hi.
      rewrite map_nth_in with (d := ""%string) by auto. apply H.
      rewrite <- combine_nth by auto. apply nth_In. rewrite combine_length. lia.
  - intros H ax n Hin. apply (In_nth _ _ (""%string, 0)) in Hin as [i [Hi Ei]].
    rewrite combine_length in Hi. rewrite combine_nth in Ei by auto. injection Ei as E1 E2.
    assert (G := Forall2_nth lt _ _ 0 0 i H). rewrite map_length in G.
    rewrite map_nth_in with (d := ""%string) in G by lia. subst. apply G. lia.
Qed.

Lemma inside_asize {A} (a : sarr A) e : wf a ->
  (inside e (sshape a) <-> forall ax, In ax (s_axes a) -> e ax < asize a ax).
Proof.
  intros W. unfold inside. split.
  - intros H ax Hin. unfold asize.
    rewrite <- wf_keys in Hin by auto. apply dget_Some_key in Hin as [n Hn]. rewrite Hn.
    apply H. now apply dget_In.
  - intros H ax n Hin. assert (Hk := in_map fst _ _ Hin). simpl in Hk.
    change (In ax (dkeys (sshape a))) in Hk. rewrite wf_keys in Hk by auto.
    specialize (H ax Hk). unfold asize in H.
    rewrite (dget_NoDup _ _ _ (wf_nodup a W) Hin) in H. auto.
Qed.

Lemma bclamp_asize {A} (a : sarr A) e ax : In ax (dkeys (sshape a)) ->
  bclamp (sshape a) e ax = if asize a ax =? 1 then 0 else e ax.
Proof.
  intros H. unfold bclamp, asize. apply dget_Some_key in H as [n Hn]. rewrite Hn.
  destruct n as [|[|n]]; auto.
Qed.

Lemma bget_aligned {A} (a : sarr A) axes n e :
  wf a -> NoDup axes -> ndarray_aligned a axes = Ok n ->
  bget n (map e axes) = bat a e.
Proof.
  intros W ND H. destruct (align_ok a axes n W ND H) as (I & S & G).
  unfold bget. rewrite bidx_same_length by (rewrite S, !map_length; auto).
  rewrite S. rewrite <- (map_id axes) at 2. unfold bat, at_.
  replace (map _ (combine _ _)) with (map (fun ax => if asize a ax =? 1 then 0 else e ax) axes).
  - rewrite (G (fun ax => if asize a ax =? 1 then 0 else e ax)).
    f_equal. apply map_ext_in. intros ax Hax. symmetry. apply bclamp_asize.
    now rewrite wf_keys.
  - rewrite map_id. clear. induction axes; simpl; auto. f_equal; auto.
Qed.

Lemma op_aligned_ok {A} (o : operand A) axes n e :
  op_wf o -> NoDup axes -> op_aligned axes o = Ok n -> bget n (map e axes) = op_at o e.
Proof.
  destruct o; simpl; intros W ND H.
  - now apply bget_aligned.
  - injection H as <-. reflexivity.
Qed.

(** *** elementwise operations *)

Lemma op_shapes_nodup {A} (l : list (operand A)) :
  Forall op_wf l -> Forall (fun s => NoDup (dkeys s)) (op_shapes l).
Proof.
  intros H. apply Forall_forall. intros s Hs. unfold op_shapes in Hs.
  apply in_flat_map in Hs as [o [Ho Hs]]. rewrite Forall_forall in H. specialize (H _ Ho).
  destruct o; simpl in *; [|destruct Hs]. destruct Hs as [<-|[]]. now apply wf_nodup.
Qed.

Lemma in_op_shapes {A} (l : list (operand A)) a : In (OpArr a) l -> In (sshape a) (op_shapes l).
Proof. intros H. apply in_flat_map. exists (OpArr a). simpl; auto. Qed.

Lemma shape_broadcasted_incl {A} (l : list (operand A)) sh a :
  Forall op_wf l -> shape_broadcasted l = Ok sh -> In (OpArr a) l ->
  incl (s_axes a) (dkeys sh).
Proof.
  intros W E Hin ax Hax.
  destruct (broadcast_shapes_ok _ _ (op_shapes_nodup l W) E) as (_ & K & _).
  rewrite K. apply (proj2 (first_appearance_In _ _)). apply in_concat.
  exists (dkeys (sshape a)). split.
  - apply in_map. now apply in_op_shapes.
  - rewrite wf_keys; auto. rewrite Forall_forall in W. apply (W _ Hin).
Qed.

Lemma sizes_of_ops {A} (l : list (operand A)) ax sh :
  Forall op_wf l ->
  bjoin (sizes_of (op_shapes l) ax) sh ->
  bjoin (map (fun o => match o with OpArr a => asize a ax | OpNum _ => 1 end) l) sh.
Proof.
  unfold bjoin. rewrite !Forall_forall. intros W [H1 H2].
  assert (I : forall a n, In (OpArr a) l -> dget (sshape a) ax = Some n -> In n (sizes_of (op_shapes l) ax)).
  { intros a n Ha Hn. unfold sizes_of. apply in_flat_map. exists (sshape a). split.
    - now apply in_op_shapes.
    - rewrite Hn. simpl; auto. }
  split.
  - intros m Hm. apply in_map_iff in Hm as [o [<- Ho]]. destruct o; auto.
    unfold asize. destruct (dget (sshape a) ax) eqn:E; auto. eapply H1, I; eauto.
  - intros H. apply H2. intros m Hm. unfold sizes_of in Hm. apply in_flat_map in Hm as [s [Hs Hm]].
    unfold op_shapes in Hs. apply in_flat_map in Hs as [o [Ho Hs]].
    destruct o; simpl in Hs; [|destruct Hs]. destruct Hs as [<-|[]].
    destruct (dget (sshape a) ax) eqn:E; [|destruct Hm]. destruct Hm as [<-|[]].
    apply H. apply in_map_iff. exists (OpArr a). split; auto. unfold asize. now rewrite E.
Qed.

Lemma bshapes_len l t x : bshapes l = Some t -> In x l -> length x <= length t.
Proof.
  revert t; induction l as [|y l IH]; simpl; intros t E H; [destruct H|].
  destruct (bshapes l) as [u|] eqn:Eu; [|discriminate].
  assert (G : forall s t r, bshape_rev s t = Some r -> length s <= length r /\ length t <= length r).
  { induction s as [|m s IHs]; destruct t0 as [|n t0]; simpl; intros r Hr.
    - injection Hr as <-. simpl; auto.
    - injection Hr as <-. simpl; lia.
    - injection Hr as <-. simpl; lia.
    - destruct (bsize m n); [|discriminate]. destruct (bshape_rev s t0) eqn:E2; [|discriminate].
      injection Hr as <-. apply IHs in E2. simpl. lia. }
  unfold bshape2 in E. destruct (bshape_rev (rev y) (rev u)) eqn:Er; [|discriminate].
  injection E as <-. apply G in Er. rewrite !rev_length in *.
  destruct H as [<-|H]; [lia|]. specialize (IH _ eq_refl H). lia.
Qed.

Lemma mapM_op_aligned {A} (l : list (operand A)) (sh : shape) :
  Forall op_wf l -> NoDup (dkeys sh) ->
  (forall a, In (OpArr a) l -> incl (s_axes a) (dkeys sh)) ->
  exists ns, mapM (op_aligned (dkeys sh)) l = Ok ns /\
    map nshape ns = map (fun o => match o with OpArr a => map (asize a) (dkeys sh) | OpNum _ => [] end) l /\
    forall e, map (fun n => bget n (map e (dkeys sh))) ns = map (fun o => op_at o e) l.
Proof.
  intros W ND I. induction l as [|o l IH]; simpl.
  - exists []. auto.
  - inversion W; subst. destruct IH as [ns (E1 & E2 & E3)]; auto.
    { intros; apply I; simpl; auto. }
    assert (Ho : exists n, op_aligned (dkeys sh) o = Ok n /\
                 nshape n = match o with OpArr a => map (asize a) (dkeys sh) | OpNum _ => [] end).
    { destruct o as [a|x]; simpl.
      - destruct (align_sub a (dkeys sh)) as [n (En & Es & _)]; auto; [apply I; simpl; auto|]. eauto.
      - eexists; split; reflexivity. }
    destruct Ho as [n [En Es]]. rewrite En, E1. exists (n :: ns). simpl. split; [auto|split].
    + congruence.
    + intros e. rewrite E3. f_equal. now apply op_aligned_ok.
Qed.

Lemma ops_aligned {A} (l : list (operand A)) sh :
  Forall op_wf l -> shape_broadcasted l = Ok sh ->
  NoDup (dkeys sh) /\
  exists ns, mapM (op_aligned (dkeys sh)) l = Ok ns /\
    map nshape ns = map (fun o => match o with OpArr a => map (asize a) (dkeys sh) | OpNum _ => [] end) l /\
    bshapes (map nshape ns) = Some (dvals sh) /\
    forall e, map (fun n => bget n (map e (dkeys sh))) ns = map (fun o => op_at o e) l.
Proof.
  intros W E. assert (N := op_shapes_nodup l W).
  destruct (broadcast_shapes_ok _ _ N E) as (ND & K & S). split; auto.
  destruct (mapM_op_aligned l sh W ND) as [ns (E1 & E2 & E3)].
  { intros a Ha. eapply shape_broadcasted_incl; eauto. }
  exists ns. split; [auto|split; [auto|split; [|auto]]]. rewrite E2.
  set (shapes := map _ l).
  destruct (bshapes_intro (length (dkeys sh)) shapes (dvals sh)) as [t [Et Ht]].
  - apply Forall_forall. intros x Hx. apply in_map_iff in Hx as [o [<- Ho]].
    destruct o; auto. rewrite map_length. auto.
  - unfold dvals, dkeys. now rewrite !map_length.
  - intros i Hi. unfold shapes. rewrite map_map.
    assert (Hin : In (nth i (dkeys sh) ""%string, nth i (dvals sh) 1) sh).
    { rewrite <- (combine_dkeys_dvals sh) at 3. rewrite <- combine_nth.
      - apply nth_In. rewrite combine_dkeys_dvals. unfold dkeys in Hi. now rewrite map_length in Hi.
      - unfold dvals, dkeys. now rewrite !map_length. }
    apply S in Hin as [_ C]. apply common_size_bjoin in C. apply sizes_of_ops in C; auto.
    erewrite map_ext_in; [exact C|]. intros o Ho. cbv beta. destruct o.
    + rewrite map_nth_in with (d := ""%string) by auto. auto.
    + destruct i; auto.
  - assert (t = dvals sh); [|congruence].
    destruct Ht as [Ht|[Ht1 Ht2]]; auto. subst t.
    destruct sh as [|[ax n] sh]; auto. exfalso.
    assert (exists a, In (OpArr a) l) as [a Ha].
    { destruct (op_shapes l) as [|s ss] eqn:Eo.
      - simpl in K. discriminate.
      - assert (In s (op_shapes l)) by (rewrite Eo; simpl; auto).
        unfold op_shapes in H. apply in_flat_map in H as [o [Ho Hs]].
        destruct o; simpl in Hs; [|destruct Hs]. eauto. }
    assert (L := bshapes_len _ _ (map (asize a) (dkeys ((ax, n) :: sh))) Et).
    simpl in L. apply Nat.nle_succ_0 in L; auto.
    unfold shapes. apply in_map_iff. exists (OpArr a). auto.
Qed.

Lemma array_ufunc_ok {A B} (f : list A -> B) l sh :
  Forall op_wf l -> shape_broadcasted l = Ok sh ->
  exists r, array_ufunc f l = Ok r /\ wf r /\ sshape r = sh /\
            forall e, at_ r e = f (map (fun o => op_at o e) l).
Proof.
  intros W E. destruct (ops_aligned l sh W E) as [ND [ns (E1 & E2 & Et & E3)]].
  unfold array_ufunc. rewrite E. cbn [bind]. rewrite E1. cbn [bind]. unfold ufunc.
  rewrite Et. cbn [bind].
  rewrite mk_sarr_intro; auto.
  2:{ simpl. unfold dvals, dkeys. now rewrite !map_length. }
  eexists. split; [reflexivity|]. split; [|split].
  + split; auto. simpl. unfold dvals, dkeys. now rewrite !map_length.
  + unfold sshape. simpl. apply combine_dkeys_dvals.
  + intros e. unfold at_. simpl. now rewrite E3.
Qed.

Lemma array_ufunc_err {A B} (f : list A -> B) l e :
  Forall op_wf l -> array_ufunc f l = Err e -> shape_broadcasted l = Err e /\ e = ValueError.
Proof.
  intros W H. destruct (shape_broadcasted l) as [sh|e'] eqn:E.
  - destruct (array_ufunc_ok f l sh W E) as [r [Hr _]]. congruence.
  - unfold array_ufunc in H. rewrite E in H. simpl in H. injection H as ->. split; auto.
    unfold shape_broadcasted in E.
    destruct (broadcast_shapes_total _ (op_shapes_nodup l W)) as [[r Er]|Er]; congruence.
Qed.

(** *** storage order *)

Lemma same_shape_dget s t ax : NoDup (dkeys s) -> NoDup (dkeys t) -> same_shape s t ->
  dget s ax = dget t ax.
Proof.
  intros H1 H2 H. destruct (dget s ax) as [n|] eqn:E.
  - symmetry. apply dget_NoDup; auto. apply H. now apply dget_In.
  - destruct (dget t ax) as [n|] eqn:E2; auto. apply dget_In in E2. apply H in E2.
    apply (dget_NoDup _ _ _ H1) in E2. congruence.
Qed.

Lemma same_shape_inside s t e : same_shape s t -> inside e s -> inside e t.
Proof. intros H I ax n Hin. apply I. now apply H. Qed.

Lemma same_shape_sym s t : same_shape s t -> same_shape t s.
Proof. intros H ax n. symmetry. apply H. Qed.

Lemma bclamp_inside {A} (a : sarr A) sh e :
  wf a -> inside e sh ->
  (forall ax n, dget (sshape a) ax = Some n -> n = 1 \/ In (ax, n) sh) ->
  inside (bclamp (sshape a) e) (sshape a).
Proof.
  intros W I H ax n Hin. apply (dget_NoDup _ _ _ (wf_nodup a W)) in Hin.
  unfold bclamp. rewrite Hin. destruct (H _ _ Hin) as [->|Hs]; [lia|].
  specialize (I _ _ Hs). destruct n as [|[|n]]; lia.
Qed.

Lemma sizes_of_same l l' ax :
  Forall2 (fun s t => same_shape s t) l l' ->
  Forall (fun s => NoDup (dkeys s)) l -> Forall (fun s => NoDup (dkeys s)) l' ->
  sizes_of l ax = sizes_of l' ax.
Proof.
  induction 1; simpl; intros H1 H2; auto. inversion H1; inversion H2; subst.
  rewrite (same_shape_dget x y ax); auto. f_equal. auto.
Qed.

Lemma same_shape_keys s t : same_shape s t -> forall ax, In ax (dkeys s) <-> In ax (dkeys t).
Proof.
  intros H ax. unfold dkeys. rewrite !in_map_iff. split; intros [[k v] [E Hin]]; exists (k, v);
    split; auto; now apply H.
Qed.

Lemma broadcast_shapes_same l l' :
  Forall2 (fun s t => same_shape s t) l l' ->
  Forall (fun s => NoDup (dkeys s)) l -> Forall (fun s => NoDup (dkeys s)) l' ->
  match broadcast_shapes l, broadcast_shapes l' with
  | Ok r, Ok r' => same_shape r r'
  | Err e, Err e' => e = e'
  | _, _ => False
  end.
Proof.
  intros F N N'.
  assert (SZ : forall ax, sizes_of l ax = sizes_of l' ax) by (intros; now apply sizes_of_same).
  assert (CF : conflict l <-> conflict l').
  { unfold conflict. split; intros (ax & n & m & H); exists ax, n, m; [rewrite <- SZ|rewrite SZ]; auto. }
  rewrite !broadcast_shapes_conflict in CF by auto.
  destruct (broadcast_shapes_total l N) as [[r E]|E], (broadcast_shapes_total l' N') as [[r' E']|E'];
    rewrite E, E' in *; auto.
  - destruct (broadcast_shapes_ok l r N E) as (_ & _ & S).
    destruct (broadcast_shapes_ok l' r' N' E') as (_ & _ & S').
    intros ax n. rewrite S, S', SZ.
    assert (K : In ax (concat (map dkeys l)) <-> In ax (concat (map dkeys l'))); [|tauto].
    clear - F. induction F; simpl; [tauto|]. rewrite !in_app_iff, IHF.
    rewrite (same_shape_keys _ _ H ax). tauto.
  - destruct CF as [_ C]. discriminate C; auto.
  - destruct CF as [C _]. discriminate C; auto.
Qed.

Lemma bat_same {A} (a b : sarr A) e :
  wf a -> wf b -> same_array a b -> inside (bclamp (sshape a) e) (sshape a) -> bat a e = bat b e.
Proof.
  intros Wa Wb [S H] I. unfold bat. rewrite H by auto. unfold at_. f_equal.
  apply map_ext. intros ax. unfold bclamp.
  rewrite (same_shape_dget (sshape a) (sshape b)); auto; now apply wf_nodup.
Qed.

Lemma array_ufunc_same {A B} (f : list A -> B) l l' :
  Forall op_wf l -> Forall op_wf l' -> Forall2 same_operand l l' ->
  same_result (array_ufunc f l) (array_ufunc f l').
Proof.
  intros W W' F.
  assert (FS : Forall2 same_shape (op_shapes l) (op_shapes l')).
  { clear - F. induction F as [|o p l l' H F IH]; simpl; [constructor|].
    destruct o, p; simpl in H; try contradiction; simpl; auto.
    constructor; auto. apply H. }
  assert (BS := broadcast_shapes_same _ _ FS (op_shapes_nodup _ W) (op_shapes_nodup _ W')).
  fold (shape_broadcasted l) (shape_broadcasted l') in BS.
  destruct (shape_broadcasted l) as [sh|e] eqn:E, (shape_broadcasted l') as [sh'|e'] eqn:E';
    try contradiction.
  - destruct (array_ufunc_ok f l sh W E) as [r (Hr & Wr & Sr & Gr)].
    destruct (array_ufunc_ok f l' sh' W' E') as [r' (Hr' & Wr' & Sr' & Gr')].
    rewrite Hr, Hr'. simpl. split; [rewrite Sr, Sr'; auto|].
    intros e He. rewrite Gr, Gr'. f_equal. rewrite Sr in He.
    assert (D : forall a, In (OpArr a) l -> forall ax n, dget (sshape a) ax = Some n -> n = 1 \/ In (ax, n) sh).
    { intros a Ha ax n Hn.
      destruct (broadcast_shapes_ok _ _ (op_shapes_nodup _ W) E) as (ND & K & S).
      assert (Hs : In (sshape a) (op_shapes l)) by now apply in_op_shapes.
      assert (Hk : In ax (dkeys sh)).
      { rewrite K. apply (proj2 (first_appearance_In _ _)). apply in_concat.
        exists (dkeys (sshape a)). split; [now apply in_map|]. apply dget_Some_key; eauto. }
      apply in_map_iff in Hk as [[ax' k] [Ek Hk]]. simpl in Ek. subst ax'.
      assert (C := Hk). apply S in C as [_ [C _]].
      destruct (C n) as [C1|C1]; auto.
      - unfold sizes_of. apply in_flat_map. exists (sshape a). split; auto. rewrite Hn. simpl; auto.
      - subst. auto. }
    clear - F W W' D He. revert D. induction F as [|o p l l' H F IH]; simpl; intros D; auto.
    inversion W; inversion W'; subst. f_equal.
    + destruct o, p; simpl in *; try contradiction; auto.
      apply bat_same; auto. apply bclamp_inside with (sh := sh); auto. apply D. auto.
    + apply IH; auto; intros a Ha; apply D; auto.
  - subst e'. unfold array_ufunc. rewrite E, E'. simpl. auto.
Qed.

(** *** broadcasting to a shape *)

Lemma na_broadcast_to_ok {A} (a : sarr A) sh r :
  wf a -> NoDup (dkeys sh) -> na_broadcast_to a sh false = Ok r ->
  incl (s_axes a) (dkeys sh) /\
  (forall ax n, dget (sshape a) ax = Some n -> n = 1 \/ In (ax, n) sh) /\
  wf r /\ sshape r = sh /\ forall e, at_ r e = bat a e.
Proof.
  intros W ND H. unfold na_broadcast_to in H. cbn [bind] in H.
  destruct (ndarray_aligned a (dkeys sh)) as [n|] eqn:E; [|discriminate]. cbn [bind] in H.
  destruct (align_ok a _ _ W ND E) as (I & S & G).
  unfold broadcast_to in H. destruct (bto_rev _ _) eqn:B; [|discriminate]. cbn [bind] in H.
  assert (L : length (nshape n) = length (dvals sh)).
  { rewrite S, map_length. unfold dvals, dkeys. now rewrite !map_length. }
  apply bto_Forall2 in B; auto.
  apply mk_sarr_ok in H as [-> Wr]. split; [auto|split; [|split; [auto|split]]].
  - intros ax k Hk.
    assert (Hin : In ax (dkeys sh)).
    { apply I. rewrite <- wf_keys by auto. apply dget_Some_key; eauto. }
    assert (G2 := Forall2_nth _ _ _ 0 0 (spos ax (dkeys sh)) B).
    rewrite S, map_length in G2. specialize (G2 (proj1 (spos_lt _ _) Hin)). cbv beta in G2.
    rewrite map_nth_in with (d := ""%string) in G2 by (now apply spos_lt).
    rewrite nth_spos in G2 by auto. unfold asize in G2. rewrite Hk in G2.
    destruct G2 as [->|G2]; auto. right.
    rewrite <- (combine_dkeys_dvals sh) at 3.
    apply dget_In. rewrite dget_combine by (unfold dvals, dkeys; now rewrite !map_length).
    apply nth_error_nth'. rewrite <- L, S, map_length. now apply spos_lt.
  - unfold sshape. simpl. apply combine_dkeys_dvals.
  - intros e. unfold at_ at 1. simpl. now apply bget_aligned.
Qed.

Lemma na_broadcast_to_intro {A} (a : sarr A) sh :
  wf a -> NoDup (dkeys sh) -> incl (s_axes a) (dkeys sh) ->
  (forall ax n, dget (sshape a) ax = Some n -> n = 1 \/ In (ax, n) sh) ->
  exists r, na_broadcast_to a sh false = Ok r.
Proof.
  intros W ND I D. unfold na_broadcast_to. cbn [bind].
  destruct (align_sub a (dkeys sh) W ND I) as [n (E & S & G)]. rewrite E. cbn [bind].
  assert (L : length (nshape n) = length (dvals sh)).
  { rewrite S, map_length. unfold dvals, dkeys. now rewrite !map_length. }
  unfold broadcast_to. rewrite (proj2 (bto_Forall2 (nshape n) (dvals sh) L)).
  - cbn [bind]. rewrite mk_sarr_intro; eauto. simpl. unfold dvals, dkeys. now rewrite !map_length.
  - rewrite S. apply Forall2_nth_intro with (d1 := 0) (d2 := 0); [congruence|].
    intros i Hi. rewrite map_length in Hi. rewrite map_nth_in with (d := ""%string) by auto.
    unfold asize. destruct (dget (sshape a) (nth i (dkeys sh) ""%string)) as [k|] eqn:Ek; auto.
    destruct (D _ _ Ek) as [->|Hin]; auto. left.
    apply (dget_NoDup _ _ _ ND) in Hin. rewrite <- (combine_dkeys_dvals sh) in Hin at 1.
    rewrite dget_combine in Hin by (unfold dvals, dkeys; now rewrite !map_length).
    rewrite spos_nth in Hin by auto. symmetry. now apply nth_error_nth.
Qed.
