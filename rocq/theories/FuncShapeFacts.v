(** Facts about other shapes, percentiles and copies of function arrays. *)
From Coq Require Import String List Arith ZArith Bool Lia Permutation.
From Verif Require Import Base BaseFacts Numpy NumpyFacts Shapes Scalar Reorder Elementwise Reduce Along Derived Quantile Func FuncOps
  Spec SpecDerived SpecNumeric SpecFunc SpecQuantile SpecFuncOps
  ShapesFacts AlignFacts ElementwiseFacts ReorderFacts ReduceFacts AlongFacts SortingFacts QuantileFacts CenterFacts FuncFacts FuncOpsFacts FuncPairsFacts FuncUfuncFacts.
Import ListNotations.
Open Scope nat_scope.
Open Scope list_scope.

Lemma ravel_reshape {A} (s : list nat) (a : nd A) : prod s = size a -> ravel (reshape s a) = ravel a.
Proof.
  intros E. unfold ravel, reshape. cbn [nshape nget]. apply nth_error_ext. intros i. rewrite !nth_error_map.
  destruct (Nat.ltb_spec i (prod s)) as [H|H].
  - assert (H' : i < prod (nshape a)) by (unfold size in E; lia).
    rewrite !(nth_error_nth' _ []) by (now rewrite ndindex_length). rewrite !nth_ndindex' by auto. cbn [option_map].
    now rewrite ravel_unravel.
  - assert (H' : prod (nshape a) <= i) by (unfold size in E; lia).
    rewrite !(proj2 (nth_error_None _ _)) by (now rewrite ndindex_length). reflexivity.
Qed.

Lemma total_dvals (sh : shape) : NoDup (dkeys sh) -> total_size sh (dkeys sh) = prod (dvals sh).
Proof.
  intros N. rewrite <- map_size_of_keys by auto.
  assert (H : forall l, incl l (dkeys sh) -> total_size sh l = prod (map (size_of sh) l)).
  { induction l as [|ax l IH]; intros I; [reflexivity|].
    assert (K : In ax (dkeys sh)) by (apply I; now left). apply key_dget in K as [n Hn].
    specialize (IH ltac:(intros y Hy; apply I; now right)).
    cbn [total_size fold_right map prod]. fold (total_size sh l). rewrite IH. unfold size_of at 2. now rewrite Hn. }
  apply H, incl_refl.
Qed.

Theorem reshape_spec {A} (a : sarr A) (sh : shape) : wf a -> NoDup (dkeys sh) ->
  (total_size sh (dkeys sh) = total_size (sshape a) (s_axes a) ->
   exists r, na_reshape a sh = Ok r /\ wf r /\ sshape r = sh /\
     forall e, map (at_ r) (fibre sh (dkeys sh) e) = map (at_ a) (fibre (sshape a) (s_axes a) e)) /\
  (total_size sh (dkeys sh) <> total_size (sshape a) (s_axes a) -> na_reshape a sh = Err ValueError).
Proof.
  intros W N. rewrite total_dvals by auto. rewrite <- (wf_keys a W), total_dvals by (now apply wf_nodup). rewrite wf_vals by auto.
  unfold na_reshape, np_reshape. fold (size (s_nd a)). split.
  - intros E. rewrite (proj2 (Nat.eqb_eq _ _) E). cbn [bind].
    assert (L : length (dkeys sh) = length (nshape (reshape (dvals sh) (s_nd a)))) by (cbn [nshape reshape]; unfold dkeys, dvals; now rewrite !map_length).
    rewrite mk_sarr_intro by auto. set (r := mkS (reshape (dvals sh) (s_nd a)) (dkeys sh)). exists r.
    assert (Wr : wf r) by (split; auto). assert (Sr : sshape r = sh) by exact (combine_fst_snd sh).
    split; [reflexivity|]. split; [exact Wr|]. split; [exact Sr|].
    intros e. rewrite (wf_keys a W), <- (ravel_fibre a e W). rewrite <- Sr. rewrite (wf_keys r Wr), <- (ravel_fibre r e Wr). now apply ravel_reshape.
  - intros E. now rewrite (proj2 (Nat.eqb_neq _ _) E).
Qed.

Theorem f_broadcasted_spec {A B} (f : farr A B) (sh : shape) :
  wf (f_inputs f) -> wf (f_outputs f) -> compatible f -> f_shape f = Ok sh ->
  exists r, f_broadcasted f = Ok r /\ wf (f_inputs r) /\ wf (f_outputs r) /\ sshape (f_outputs r) = sh /\
    sshape (f_inputs r) = map (fun kv => (fst kv, if binned f (fst kv) then S (snd kv) else snd kv)) sh /\
    (forall e, at_ (f_inputs r) e = bat (f_inputs f) e) /\ forall e, at_ (f_outputs r) e = bat (f_outputs f) e.
Proof.
  intros Wi Wo C Es. destruct (f_shape_gen f Wi Wo C) as (sh' & Es' & Nsh & Ps). assert (sh' = sh) by congruence. subst sh'. clear Es'.
  unfold f_broadcasted. rewrite Es. cbn [bind]. unfold f_broadcast_to.
  rewrite (vertex_gen f C). cbn [bind].
  set (si := map _ sh).
  assert (Ei : si = map (fun kv => (fst kv, if binned f (fst kv) then S (snd kv) else snd kv)) sh).
  { apply map_ext_in. intros [ax n] Hin. cbn [fst snd]. f_equal.
    assert (Hax : In ax (f_axes f)).
    { apply points_keys; auto. exists n. rewrite <- Ps. now apply dget_NoDup. }
    assert (E : smem ax (filter (bin_axis f) (f_axes f)) = binned f ax).
    { change (bin_axis f) with (binned f). destruct (binned f ax) eqn:B0.
      - apply smem_In, filter_In. auto.
      - apply smem_false. rewrite filter_In. intros [_ ?]. congruence. }
    rewrite E. destruct (binned f ax); lia. }
  assert (Ni : NoDup (dkeys si)).
  { rewrite Ei. unfold dkeys. rewrite map_map. exact Nsh. }
  assert (Ki : dkeys si = dkeys sh) by (rewrite Ei; unfold dkeys; now rewrite map_map).
  assert (Io : incl (s_axes (f_outputs f)) (dkeys sh)).
  { intros ax Hax. apply key_dget. rewrite Ps. apply points_keys; auto. rewrite <- (wf_keys _ Wo) in Hax. unfold f_axes. apply f_axes_in; auto. }
  assert (Ii : incl (s_axes (f_inputs f)) (dkeys sh)).
  { intros ax Hax. apply key_dget. rewrite Ps. apply points_keys; auto. rewrite <- (wf_keys _ Wi) in Hax. apply f_axes_in; auto. }
  destruct (na_broadcast_to_intro (f_inputs f) si Wi Ni) as [bi Ebi].
  { now rewrite Ki. }
  { intros ax k Hk.
    assert (Hax : In ax (dkeys sh)) by (apply Ii; rewrite <- (wf_keys _ Wi); apply key_dget; eauto).
    apply key_dget in Hax as [n Hn]. rewrite Ei.
    assert (Hp := Hn). rewrite Ps in Hp.
    destruct (binned f ax) eqn:B0.
    - right. apply in_map_iff. exists (ax, n). cbn [fst snd]. rewrite B0. split; [|now apply dget_In]. f_equal.
      unfold binned in B0. unfold points in Hp. rewrite Hk in B0, Hp. destruct (dget (sshape (f_outputs f)) ax) as [m|]; [|discriminate].
      rewrite B0 in Hp. apply Nat.eqb_eq in B0. congruence.
    - destruct (points_inputs f ax n k C B0 Hp Hk) as [->|E]; auto. subst. right.
      apply in_map_iff. exists (ax, n). cbn [fst snd]. rewrite B0. split; auto. now apply dget_In. }
  destruct (na_broadcast_to_intro (f_outputs f) sh Wo Nsh Io) as [bo Ebo].
  { intros ax k Hk.
    assert (Hax : In ax (dkeys sh)) by (apply Io; rewrite <- (wf_keys _ Wo); apply key_dget; eauto).
    apply key_dget in Hax as [n Hn]. assert (Hp := Hn). rewrite Ps in Hp.
    destruct (points_outputs f ax n k C Hp Hk) as [->|E]; auto. subst. right. now apply dget_In. }
  rewrite Ebi. cbn [bind]. rewrite Ebo. cbn [bind]. exists (mkF bi bo).
  apply na_broadcast_to_ok in Ebi as (_ & _ & W1 & S1 & G1); auto. apply na_broadcast_to_ok in Ebo as (_ & _ & W2 & S2 & G2); auto.
  cbn [f_inputs f_outputs]. rewrite S1. auto 10.
Qed.

Lemma nodup_apart {T} (l m : list T) : NoDup l -> NoDup m -> (forall x, In x l -> In x m -> False) -> NoDup (l ++ m).
Proof.
  intros Nl Nm D. induction Nl as [|x l H Nl IH]; [exact Nm|]. cbn. constructor.
  - rewrite in_app_iff. intros [K|K]; [contradiction|]. exact (D x (or_introl eq_refl) K).
  - apply IH. intros y H1 H2. exact (D y (or_intror H1) H2).
Qed.

Lemma broadcasted_shape {A B} (f r : farr A B) (sh : shape) :
  NoDup (dkeys sh) -> wf (f_inputs r) -> wf (f_outputs r) -> sshape (f_outputs r) = sh ->
  sshape (f_inputs r) = map (fun kv => (fst kv, if binned f (fst kv) then S (snd kv) else snd kv)) sh ->
  compatible r /\ exists sh', f_shape r = Ok sh' /\ dkeys sh' = centers_first f (dkeys sh) /\ forall ax, dget sh' ax = dget sh ax.
Proof.
  intros N Wi Wo So Si.
  assert (Di : forall ax, dget (sshape (f_inputs r)) ax = option_map (fun n => if binned f ax then S n else n) (dget sh ax)).
  { intros ax. rewrite Si. clear. induction sh as [|[k n] sh IH]; [reflexivity|]. cbn. destruct (String.eqb ax k) eqn:E; [|exact IH].
    apply String.eqb_eq in E. now subst. }
  assert (Br : forall ax, In ax (dkeys sh) -> binned r ax = binned f ax).
  { intros ax H. apply key_dget in H as [n Hn]. unfold binned at 1. rewrite Di, So, Hn. cbn [option_map].
    destruct (binned f ax); [apply Nat.eqb_refl|]. apply Nat.eqb_neq. lia. }
  assert (C : compatible r).
  { intros ax n m Hn Hm. rewrite in_dget in Hn, Hm by (now apply wf_nodup). rewrite Di in Hm. rewrite So in Hn. rewrite Hn in Hm. cbn in Hm.
    injection Hm as <-. destruct (binned f ax); auto. }
  split; [exact C|]. destruct (f_shape_gen r Wi Wo C) as (sh' & E & N' & P). exists sh'. split; [exact E|].
  assert (Ki : dkeys (sshape (f_inputs r)) = dkeys sh) by (rewrite Si; unfold dkeys; now rewrite map_map).
  assert (Fa : forall ax, In ax (f_axes r) <-> In ax (dkeys sh)).
  { intros ax. rewrite f_axes_in, Ki, So by auto. tauto. }
  split.
  - unfold f_shape in E. rewrite (center_gen r C), (vertex_gen r C) in E. cbn [bind] in E.
    apply broadcast_shapes_ok in E as (_ & K & _).
    2:{ repeat (apply Forall_cons); [..|constructor]; apply filter_nodup with (P := fun k => smem k _); now apply wf_nodup. }
    rewrite K. cbn [map concat]. rewrite app_nil_r.
    assert (Kf : forall (d : shape) (p : string -> bool), dkeys (filter (fun kv => p (fst kv)) d) = filter p (dkeys d)).
    { intros d p. unfold dkeys. induction d as [|[k n] d IH]; [reflexivity|]. cbn. destruct (p k); cbn; now rewrite IH. }
    rewrite !(Kf _ (fun k => smem k _)). rewrite Ki, So.
    assert (F1 : forall (q : string -> bool), filter (fun k => smem k (filter q (f_axes r))) (dkeys sh) = filter q (dkeys sh)).
    { intros q. apply filter_ext_in. intros ax H. destruct (q ax) eqn:Q.
      - apply smem_In, filter_In. split; auto. now apply Fa.
      - apply smem_false. rewrite filter_In. intros [_ ?]. congruence. }
    rewrite !F1. change (bin_axis r) with (binned r).
    assert (F2 : filter (binned r) (dkeys sh) = filter (binned f) (dkeys sh)) by (apply filter_ext_in; exact Br).
    assert (F3 : filter (fun ax => negb (binned r ax)) (dkeys sh) = filter (fun ax => negb (binned f ax)) (dkeys sh)).
    { apply filter_ext_in. intros ax H. now rewrite Br. }
    change (bin_axis r) with (binned r). rewrite F2, F3. rewrite app_assoc, first_appearance_app.
    + apply first_appearance_nodup. unfold centers_first. apply nodup_apart; try (now apply NoDup_filter).
      intros ax H1 H2. apply filter_In in H1 as [_ H1], H2 as [_ H2]. rewrite H2 in H1. discriminate.
    + intros ax H. apply in_or_app. now left.
  - intros ax. rewrite P. unfold points. rewrite So, Di. destruct (dget sh ax) as [n|] eqn:En; [|reflexivity]. cbn [option_map].
    destruct (binned f ax); [now rewrite Nat.eqb_refl|]. destruct (Nat.eqb_spec n (S n)); [lia|]. destruct (Nat.eqb_spec n 1); auto.
Qed.

Theorem f_transpose_spec {A B} (f : farr A B) (sh : shape) (axes : list string) :
  wf (f_inputs f) -> wf (f_outputs f) -> compatible f -> f_shape f = Ok sh ->
  (NoDup axes -> incl (dkeys sh) axes ->
   exists r, f_transpose f (Some axes) = Ok r /\ wf (f_inputs r) /\ wf (f_outputs r) /\
     s_axes (f_inputs r) = axes /\ s_axes (f_outputs r) = axes /\
     (forall ax n, In (ax, n) (sshape (f_outputs r)) <-> In (ax, n) sh \/ (~ In ax (dkeys sh) /\ In ax axes /\ n = 1)) /\
     (forall ax n, In (ax, n) (sshape (f_inputs r)) <->
        (exists m, In (ax, m) sh /\ n = if binned f ax then S m else m) \/ (~ In ax (dkeys sh) /\ In ax axes /\ n = 1)) /\
     (forall e, at_ (f_inputs r) e = bat (f_inputs f) e) /\ forall e, at_ (f_outputs r) e = bat (f_outputs f) e) /\
  (~ (NoDup axes /\ incl (dkeys sh) axes) -> f_transpose f (Some axes) = Err ValueError) /\
  f_transpose f None = f_transpose f (Some (rev (centers_first f (dkeys sh)))).
Proof.
  intros Wi Wo C Es. destruct (f_broadcasted_spec f sh Wi Wo C Es) as (b & Eb & Wbi & Wbo & Sbo & Sbi & Gi & Go).
  assert (N : NoDup (dkeys sh)) by (rewrite <- Sbo; now apply wf_nodup).
  destruct (broadcasted_shape f b sh N Wbi Wbo Sbo Sbi) as (Cb & sh' & Esh' & Ksh' & _).
  assert (Ai : s_axes (f_inputs b) = dkeys sh) by (rewrite <- (wf_keys _ Wbi), Sbi; unfold dkeys; now rewrite map_map).
  assert (Ao : s_axes (f_outputs b) = dkeys sh) by (now rewrite <- (wf_keys _ Wbo), Sbo).
  unfold f_transpose. rewrite Eb. cbn [bind]. rewrite Esh'. cbn [bind]. rewrite Ksh'. split; [|split; [|reflexivity]].
  - intros Na Ia.
    destruct (proj2 (transpose_some_success (f_inputs b) axes Wbi)) as [ri Eri]; [now rewrite Ai|].
    destruct (proj2 (transpose_some_success (f_outputs b) axes Wbo)) as [ro Ero]; [now rewrite Ao|].
    rewrite Eri. cbn [bind]. rewrite Ero. cbn [bind]. exists (mkF ri ro). split; [reflexivity|].
    apply transpose_some in Eri as (W1 & A1 & S1 & G1); auto. apply transpose_some in Ero as (W2 & A2 & S2 & G2); auto.
    cbn [f_inputs f_outputs]. rewrite Ai in S1. rewrite Ao, Sbo in S2. do 5 (split; auto). split; [|split].
    + intros ax n. rewrite S1, Sbi, in_map_iff. split.
      * intros [([k m] & E & H)|H]; [|auto]. cbn [fst snd] in E. injection E as <- <-. left. eauto.
      * intros [(m & H & ->)|H]; [|auto]. left. exists (ax, m). auto.
    + intros e. now rewrite G1.
    + intros e. now rewrite G2.
  - intros H. destruct (na_transpose (f_inputs b) (Some axes)) as [ri|x] eqn:E; cbn [bind].
    + exfalso. apply H. rewrite <- Ai. apply (transpose_some_success _ _ Wbi). eauto.
    + f_equal. now apply transpose_err in E.
Qed.

Theorem f_reshape_spec {A B} (f : farr A B) (sh new : shape) :
  wf (f_inputs f) -> wf (f_outputs f) -> compatible f -> f_shape f = Ok sh -> NoDup (dkeys new) ->
  ((exists ax, binned f ax = true) -> f_reshape f new = Err ValueError) /\
  ((forall ax, binned f ax = false) -> total_size new (dkeys new) <> total_size sh (dkeys sh) -> f_reshape f new = Err ValueError) /\
  ((forall ax, binned f ax = false) -> total_size new (dkeys new) = total_size sh (dkeys sh) ->
   exists r, f_reshape f new = Ok r /\ wf (f_inputs r) /\ wf (f_outputs r) /\
     sshape (f_inputs r) = new /\ sshape (f_outputs r) = new /\
     forall e, map (fun p => (at_ (f_inputs r) p, at_ (f_outputs r) p)) (fibre new (dkeys new) e) =
               map (fun p => (bat (f_inputs f) p, bat (f_outputs f) p)) (fibre sh (dkeys sh) e)).
Proof.
  intros Wi Wo C Es Nn. unfold f_reshape. rewrite (vertex_gen f C). cbn [bind]. split; [|].
  - intros (ax & B0). assert (In ax (filter (bin_axis f) (f_axes f))).
    { apply filter_In. split; [|exact B0]. apply f_axes_in; auto. right. unfold binned in B0.
      destruct (dget (sshape (f_outputs f)) ax) eqn:E; [|discriminate]. apply key_dget. eauto. }
    destruct (filter (bin_axis f) (f_axes f)); [contradiction|reflexivity].
  - destruct (f_broadcasted_spec f sh Wi Wo C Es) as (b & Eb & Wbi & Wbo & Sbo & Sbi & Gi & Go).
    assert (V : (forall ax, binned f ax = false) -> filter (bin_axis f) (f_axes f) = [] /\ sshape (f_inputs b) = sh).
    { intros H. split.
      - destruct (filter (bin_axis f) (f_axes f)) as [|ax l] eqn:E; [reflexivity|]. exfalso.
        assert (K : In ax (filter (bin_axis f) (f_axes f))) by (rewrite E; now left). apply filter_In in K as [_ K].
        change (binned f ax = true) in K. rewrite H in K. discriminate.
      - rewrite Sbi. transitivity (map (fun kv : string * nat => kv) sh); [|apply map_id]. apply map_ext. intros [k n]. cbn. now rewrite H. }
    assert (Ao : s_axes (f_outputs b) = dkeys sh) by (now rewrite <- (wf_keys _ Wbo), Sbo).
    split; intros H T; destruct (V H) as [V1 V2]; rewrite V1, Eb; cbn [bind];
      assert (Ai : s_axes (f_inputs b) = dkeys sh) by (now rewrite <- (wf_keys _ Wbi), V2).
    + rewrite (proj2 (reshape_spec (f_inputs b) new Wbi Nn)); [reflexivity|]. now rewrite V2, Ai.
    + destruct (proj1 (reshape_spec (f_inputs b) new Wbi Nn)) as (ri & Eri & W1 & S1 & G1); [now rewrite V2, Ai|].
      destruct (proj1 (reshape_spec (f_outputs b) new Wbo Nn)) as (ro & Ero & W2 & S2 & G2); [now rewrite Sbo, Ao|].
      rewrite Eri. cbn [bind]. rewrite Ero. cbn [bind]. exists (mkF ri ro). cbn [f_inputs f_outputs]. do 5 (split; auto).
      intros e. specialize (G1 e). specialize (G2 e). rewrite V2, Ai in G1. rewrite Sbo, Ao in G2.
      rewrite (map_ext _ _ Gi) in G1. rewrite (map_ext _ _ Go) in G2.
      assert (P : forall X Y Z (g : X -> Y) (h : X -> Z) l, map (fun p => (g p, h p)) l = combine (map g l) (map h l)).
      { clear. intros X Y Z g h l. induction l; cbn; congruence. }
      now rewrite !P, G1, G2.
Qed.

Theorem f_repeat_spec {A B} (f : farr A B) (sh : shape) (repeats : operand nat) (x : string) :
  wf (f_inputs f) -> wf (f_outputs f) -> compatible f -> f_shape f = Ok sh -> op_wf repeats ->
  let n := size_of sh x in
  let ok := In x (dkeys sh) /\ binned f x = false /\
    (op_shape repeats = [] \/ exists ax m, op_shape repeats = [(ax, m)] /\ (m = 1 \/ m = n)) in
  (ok -> exists r, f_repeat f repeats x = Ok r /\ wf (f_inputs r) /\ wf (f_outputs r) /\
     s_axes (f_inputs r) = dkeys sh /\ s_axes (f_outputs r) = dkeys sh /\
     (forall y, In y (dkeys sh) -> y <> x -> size_of (sshape (f_outputs r)) y = size_of sh y /\
        size_of (sshape (f_inputs r)) y = if binned f y then S (size_of sh y) else size_of sh y) /\
     (forall e, line (f_inputs r) x e = expand (map (fun j => op_at repeats (fun _ => j)) (seq 0 n))
                                               (map (fun j => bat (f_inputs f) (set_env e x j)) (seq 0 n))) /\
     forall e, line (f_outputs r) x e = expand (map (fun j => op_at repeats (fun _ => j)) (seq 0 n))
                                               (map (fun j => bat (f_outputs f) (set_env e x j)) (seq 0 n))) /\
  (~ ok -> f_repeat f repeats x = Err ValueError).
Proof.
  intros Wi Wo C Es Wr n ok. destruct (vertex_binned f x Wi Wo C) as (v & Ev & Hv). unfold f_repeat. rewrite Ev. cbn [bind]. rewrite Hv.
  destruct (f_broadcasted_spec f sh Wi Wo C Es) as (b & Eb & Wbi & Wbo & Sbo & Sbi & Gi & Go).
  assert (Ai : s_axes (f_inputs b) = dkeys sh) by (rewrite <- (wf_keys _ Wbi), Sbi; unfold dkeys; now rewrite map_map).
  assert (Ao : s_axes (f_outputs b) = dkeys sh) by (now rewrite <- (wf_keys _ Wbo), Sbo).
  assert (N : NoDup (dkeys sh)) by (rewrite <- Ao; apply Wbo).
  assert (Di : forall ax, In ax (dkeys sh) -> size_of (sshape (f_inputs b)) ax = if binned f ax then S (size_of sh ax) else size_of sh ax).
  { intros ax H. apply key_dget in H as [m Hm]. unfold size_of. rewrite Hm.
    assert (E : dget (sshape (f_inputs b)) ax = Some (if binned f ax then S m else m)).
    { apply dget_NoDup; [now apply wf_nodup|]. rewrite Sbi. apply in_map_iff. exists (ax, m). split; auto. now apply dget_In. }
    now rewrite E. }
  destruct (repeat_spec (f_inputs b) repeats x Wbi Wr) as [Ri Ri']. destruct (repeat_spec (f_outputs b) repeats x Wbo Wr) as [Ro Ro'].
  rewrite Ai in Ri, Ri'. rewrite Ao, Sbo in Ro, Ro'. fold n in Ro, Ro'.
  destruct (binned f x) eqn:B0.
  - split; [intros (_ & ? & _); discriminate|reflexivity].
  - rewrite Eb. cbn [bind]. split.
    + intros (H1 & _ & H2). specialize (Di x H1) as Dx. rewrite B0 in Dx. fold n in Dx. rewrite Dx in Ri.
      destruct Ri as (ri & Eri & W1 & A1 & S1 & L1); [auto|]. destruct Ro as (ro & Ero & W2 & A2 & S2 & L2); [auto|].
      rewrite Eri. cbn [bind]. rewrite Ero. cbn [bind]. exists (mkF ri ro). cbn [f_inputs f_outputs]. split; [reflexivity|]. do 4 (split; auto). split; [|split].
      * intros y Hy Ny. rewrite S1, S2, Di by auto. auto.
      * intros e. rewrite L1. f_equal. unfold line. rewrite Dx. apply map_ext. intros j. apply Gi.
      * intros e. rewrite L2. f_equal. unfold line. rewrite Sbo. apply map_ext. intros j. apply Go.
    + intros H. destruct (in_dec string_dec x (dkeys sh)) as [Hx|Hx].
      * specialize (Di x Hx) as Dx. rewrite B0 in Dx. fold n in Dx. rewrite Dx in Ri'. rewrite Ri'; [reflexivity|]. intros [_ H2]. apply H. repeat (split; auto).
      * rewrite Ri'; [reflexivity|]. tauto.
Qed.

(** ** Percentiles *)

Lemma filter_same (l m : list string) : forall k, In k m -> smem k (filter (fun ax => smem ax l) m) = smem k l.
Proof.
  intros k K. destruct (smem k l) eqn:E.
  - apply smem_In, filter_In. auto.
  - apply smem_false. rewrite filter_In. intros [_ Q]. congruence.
Qed.

Lemma without_filter (s : shape) l : without s (filter (fun ax => smem ax l) (dkeys s)) = without s l.
Proof.
  unfold without. apply filter_ext_in. intros [k v] H. cbn [fst snd]. rewrite filter_same; auto. now apply (in_map fst) in H.
Qed.

Lemma squeezed_filter (s : shape) l : squeezed s (filter (fun ax => smem ax l) (dkeys s)) = squeezed s l.
Proof.
  unfold squeezed. apply map_ext_in. intros [k v] H. cbn [fst snd]. rewrite filter_same; auto. now apply (in_map fst) in H.
Qed.

Theorem f_percentile_spec {A B C Q} (mean : list A -> A) (valid : Q -> bool) (perc : Q -> list B -> C)
  (f : farr A B) (q : operand Q) (axis : option (list string)) (keepdims : bool) (sh : shape) :
  wf (f_inputs f) -> wf (f_outputs f) -> compatible f -> f_shape f = Ok sh -> op_wf q ->
  (forall x, symmetric (perc x)) -> symmetric mean -> (forall ax n, In (ax, n) (sshape (f_outputs f)) -> n <> 0) ->
  let l := match axis with Some l => l | None => dkeys sh end in
  let li := filter (fun ax => smem ax (s_axes (f_inputs f))) l in
  let lo := filter (fun ax => smem ax (s_axes (f_outputs f))) l in
  NoDup l ->
  (incl l (dkeys sh) -> percentile_ok valid (OpArr (f_outputs f)) q lo ->
   exists r, f_percentile mean valid perc f q axis keepdims = Ok r /\ wf (f_inputs r) /\ wf (f_outputs r) /\
     (keepdims = true -> f_inputs r = f_inputs f) /\
     (keepdims = false -> sshape (f_inputs r) = without (sshape (f_inputs f)) l /\
        forall e, at_ (f_inputs r) e = mean (map (at_ (f_inputs f)) (fibre (sshape (f_inputs f)) li e))) /\
     sshape (f_outputs r) = op_shape q ++ (if keepdims then squeezed (sshape (f_outputs f)) l else without (sshape (f_outputs f)) l) /\
     forall e, inside e (sshape (f_outputs r)) ->
       at_ (f_outputs r) e = perc (op_at q e) (map (bat (f_outputs f)) (fibre (sshape (f_outputs f)) lo e))) /\
  (~ (incl l (dkeys sh) /\ percentile_ok valid (OpArr (f_outputs f)) q lo) ->
   f_percentile mean valid perc f q axis keepdims = Err ValueError).
Proof.
  intros Wi Wo C0 Es Wq Sp Sm NE l li lo N. unfold f_percentile. rewrite Es. cbn [bind]. fold l.
  set (cond := match axis with Some l => negb (forallb (fun ax => smem ax (dkeys sh)) l) | None => false end).
  assert (Hc : incl l (dkeys sh) <-> cond = false).
  { unfold cond, l. destruct axis as [m|]; [|split; auto using incl_refl].
    rewrite negb_false_iff, forallb_forall. split.
    - intros H x Hx. now apply smem_In, H.
    - intros H x Hx. now apply smem_In, H. }
  set (mi := filter (fun ax => smem ax l) (dkeys (sshape (f_inputs f)))).
  set (mo := filter (fun ax => smem ax l) (dkeys (sshape (f_outputs f)))).
  assert (Pi : Permutation mi li) by (unfold mi, li; rewrite (wf_keys _ Wi); apply filter_perm; auto; apply Wi).
  assert (Po : Permutation mo lo) by (unfold mo, lo; rewrite (wf_keys _ Wo); apply filter_perm; auto; apply Wo).
  assert (Nmo : NoDup mo) by (apply NoDup_filter; now apply wf_nodup).
  assert (Nmi : NoDup mi) by (apply NoDup_filter; now apply wf_nodup).
  assert (Ok_iff : percentile_ok valid (OpArr (f_outputs f)) q mo <-> percentile_ok valid (OpArr (f_outputs f)) q lo).
  { unfold percentile_ok. split; intros (H1 & H2 & H3); (split; [|split; [|exact H3]]).
    - now apply (Permutation_NoDup Po).
    - intros x Hx. apply H2. now apply (Permutation_in _ (Permutation_sym Po)).
    - exact Nmo.
    - intros x Hx. apply H2. now apply (Permutation_in _ Po). }
  destruct (percentile_spec valid perc (OpArr (f_outputs f)) q (Some mo) keepdims Sp Wo Wq NE) as [P1 P2].
  assert (R : exists i, (if keepdims then Ok (f_inputs f) else na_reduce true mean (f_inputs f) (Some mi) false None None) = Ok i /\ wf i /\
     (keepdims = true -> i = f_inputs f) /\
     (keepdims = false -> sshape i = without (sshape (f_inputs f)) l /\
        forall e, at_ i e = mean (map (at_ (f_inputs f)) (fibre (sshape (f_inputs f)) li e)))).
  { destruct keepdims; [exists (f_inputs f); repeat (split; auto); discriminate|].
    destruct (reduce_without true mean (f_inputs f) mi false Wi Nmi) as (i & Ei & W1 & S1 & G1).
    { unfold mi. rewrite (wf_keys _ Wi). apply incl_filter. } { now left. }
    exists i. split; [exact Ei|]. split; [exact W1|]. split; [discriminate|]. intros _. split.
    - rewrite S1. unfold mi. apply without_filter.
    - intros e. rewrite G1. apply Sm. apply fibre_perm_map; [apply at_vext|apply NoDup_filter, Wi|].
      rewrite (filter_ext_in _ (fun ax => smem ax l)); [rewrite <- (wf_keys _ Wi); exact Pi|].
      intros ax H. unfold mi. apply filter_same. now rewrite (wf_keys _ Wi). }
  destruct R as (i & Ei & W1 & K1 & D1). split.
  - intros Hi Hok. rewrite (proj1 Hc Hi). rewrite Ei. cbn [bind].
    destruct P1 as (o & Eo & W2 & S2 & G2); [now apply Ok_iff|]. rewrite Eo. cbn [bind]. exists (mkF i o). cbn [f_inputs f_outputs].
    split; [reflexivity|]. do 4 (split; [assumption|]). split.
    + rewrite S2. cbn [op_shape]. unfold mo. now rewrite without_filter, squeezed_filter.
    + intros e He. rewrite G2 by exact He. apply Sp. apply fibre_perm_map; [intros e1 e2 H; apply bat_ext; auto|exact Nmo|exact Po].
  - intros H. destruct cond eqn:Ec; [reflexivity|]. rewrite Ei. cbn [bind]. rewrite P2; [reflexivity|].
    intros K. apply H. split; [now apply Hc|now apply Ok_iff].
Qed.

(** ** Copying *)

Theorem f_copyto_plain {A B} (eqb : A -> A -> bool) (dst src : farr A B) (b : bool) :
  wf (f_inputs dst) -> wf (f_outputs dst) -> wf (f_inputs src) -> wf (f_outputs src) ->
  (fits_in (sshape (f_inputs src)) (sshape (f_inputs dst)) -> exists i, wf i /\ sshape i = sshape (f_inputs dst) /\
     (forall e, at_ i e = if b then bat (f_inputs src) e else at_ (f_inputs dst) e) /\
     (fits_in (sshape (f_outputs src)) (sshape (f_outputs dst)) -> exists o, wf o /\ sshape o = sshape (f_outputs dst) /\
        (forall e, at_ o e = if b then bat (f_outputs src) e else at_ (f_outputs dst) e) /\
        f_copyto eqb dst src (FMBool b) = (mkF i o, Ok tt)) /\
     (~ fits_in (sshape (f_outputs src)) (sshape (f_outputs dst)) ->
        f_copyto eqb dst src (FMBool b) = (mkF i (f_outputs dst), Err ValueError))) /\
  (~ fits_in (sshape (f_inputs src)) (sshape (f_inputs dst)) -> f_copyto eqb dst src (FMBool b) = (dst, Err ValueError)).
Proof.
  intros Wdi Wdo Wsi Wso. unfold f_copyto.
  destruct (copyto_spec (f_inputs dst) (OpArr (f_inputs src)) (OpNum b) Wdi Wsi I) as [P1 P2].
  destruct (copyto_spec (f_outputs dst) (OpArr (f_outputs src)) (OpNum b) Wdo Wso I) as [Q1 Q2].
  cbn [op_fits op_at] in *. split.
  - intros H. destruct P1 as (i & Ei & W & Sh & G); [auto|]. rewrite Ei. exists i. do 3 (split; [assumption|]). split.
    + intros K. destruct Q1 as (o & Eo & W' & Sh' & G'); [auto|]. rewrite Eo. exists o. auto.
    + intros K. rewrite Q2; [reflexivity|]. tauto.
  - intros H. rewrite P2; [reflexivity|]. tauto.
Qed.

Theorem f_copyto_masked {A B} (eqb : A -> A -> bool) (dst src : farr A B) (g : farr A bool) :
  (forall x y, eqb x y = true <-> x = y) ->
  wf (f_inputs dst) -> wf (f_outputs dst) -> wf (f_inputs src) -> wf (f_outputs src) -> wf (f_inputs g) -> wf (f_outputs g) ->
  (~ agree (f_inputs g) (f_inputs src) -> f_copyto eqb dst src (FMFun g) = (dst, Err ValueError)) /\
  (agree (f_inputs g) (f_inputs src) ->
   incl (s_axes (f_inputs src)) (s_axes (f_inputs dst)) -> incl (s_axes (f_inputs g)) (s_axes (f_inputs dst)) ->
   fits_in (sshape (f_outputs src)) (sshape (f_outputs dst)) -> fits_in (sshape (f_outputs g)) (sshape (f_outputs dst)) ->
   exists o, f_copyto eqb dst src (FMFun g) = (mkF (mkS (s_nd (f_inputs src)) (s_axes (f_inputs dst))) o, Ok tt) /\
     wf o /\ sshape o = sshape (f_outputs dst) /\
     forall e, at_ o e = if bat (f_outputs g) e then bat (f_outputs src) e else at_ (f_outputs dst) e).
Proof.
  intros Q Wdi Wdo Wsi Wso Wgi Wgo. destruct (na_differ_spec eqb (f_inputs g) (f_inputs src) Q Wgi Wsi) as [D1 D2]. unfold f_copyto. split.
  - intros H. destruct D2 as [E|[E|E]]; rewrite E; auto. exfalso. apply H. now apply D1.
  - intros H Is Ig Fs Fg. rewrite (proj2 D1 H). cbv zeta.
    set (mask := mkS (mkNd _ _) _). assert (Wm : wf mask) by (split; apply Wgi).
    unfold na_copyto at 1. cbn [op_aligned].
    destruct (align_sub (f_inputs src) (s_axes (f_inputs dst)) Wsi (proj1 Wdi) Is) as [n1 (E1 & _)]. rewrite E1. cbn [bind].
    destruct (align_sub mask (s_axes (f_inputs dst)) Wm (proj1 Wdi) Ig) as [n2 (E2 & _)]. rewrite E2. cbn [bind].
    destruct (copyto_spec (f_outputs dst) (OpArr (f_outputs src)) (OpArr (f_outputs g)) Wdo Wso Wgo) as [P _].
    destruct P as (o & Eo & W & Sh & G); [split; assumption|]. rewrite Eo. exists o. auto.
Qed.
