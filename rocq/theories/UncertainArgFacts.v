(** Facts about the positions of the extremes of uncertain scalars. *)
From Coq Require Import String List Arith ZArith Bool Lia.
From Verif Require Import Base BaseFacts Numpy NumpyFacts Shapes Scalar Reorder Elementwise Reduce Along Sorting Uncertain UncertainArg
  Spec SpecUncertain SpecUncertainAlong SpecUncertainJoin SpecUncertainSort SpecUncertainArg
  ShapesFacts AlignFacts GetitemFacts ReorderFacts ElementwiseFacts ReduceFacts AlongFacts SortingFacts RankdataFacts LinspaceFacts
  UncertainFacts UncertainIndexFacts UncertainAlongFacts UncertainJoinFacts UncertainFourierFacts UncertainSortFacts.
Import ListNotations.
Open Scope nat_scope.
Open Scope list_scope.

(** the axes of the entries of the index *)
Lemma arg_reduce_axes {A} (pick : list A -> nat) (a : sarr A) l d ax v : wf a -> sortable a l ->
  na_arg_reduce pick a (Some l) = Ok d -> dget d ax = Some v -> wf v /\ incl (s_axes v) (s_axes a).
Proof.
  intros W (NE & N & I & HK) H G. unfold na_arg_reduce in H. destruct (negb _); [discriminate|].
  apply bind_ok in H as [nm [H1 H]]. apply bind_ok in H as [c [H2 H]]. apply bind_ok in H as [p [H3 H]]. apply bind_ok in H as [n [H4 H]].
  apply bind_ok in H as [ind [H5 H]]. apply bind_ok in H as [d0 [H6 H]]. injection H as <-.
  assert (FN : nm = flat_name l) by (destruct l; [contradiction|unfold flatten_axes in H1; unfold flat_name; cbv beta iota in H1; congruence]). subst nm.
  destruct (combine_axes_spec a l _ c W H2) as (Wc & Ac & _ & _).
  assert (Wi : wf ind /\ s_axes ind = filter (fun x => negb (String.eqb x (flat_name l))) (s_axes c)).
  { unfold mk_sarr in H5. destruct (ndim n =? _) eqn:E in H5; [|discriminate]. cbn [negb] in H5. destruct (negb _); [discriminate|].
    injection H5 as <-. split; [|reflexivity].
    split; [apply NoDup_filter; apply Wc|]. apply Nat.eqb_eq in E. cbn [s_axes s_nd]. symmetry. exact E. }
  destruct Wi as [Wi Ai].
  assert (KS : dkeys (subshape (sshape a) l) = l).
  { rewrite subshape_keys by auto. unfold dkeys. rewrite map_map. apply map_id. }
  destruct (unravel_index_spec ind (subshape (sshape a) l) d0 Wi ltac:(now rewrite KS) H6) as (K0 & V0 & _).
  rewrite add_ranges_eq in G; [|now apply wf_nodup|intros; congruence].
  apply dget_In in G. apply in_app_iff in G as [G|G].
  - assert (N0 : NoDup (dkeys d0)) by (now rewrite K0, KS). destruct (V0 ax v (dget_NoDup _ _ _ N0 G)) as [Wv Sv]. split; auto.
    intros x Hx. rewrite <- (wf_keys v Wv), Sv, (wf_keys ind Wi), Ai, Ac in Hx. apply filter_In in Hx as [Hx Hf].
    apply in_app_iff in Hx as [Hx|[<-|[]]]; [now apply filter_In in Hx|]. rewrite String.eqb_refl in Hf. discriminate.
  - apply in_map_iff in G as [[y m] [G1 G2]]. injection G1 as <- <-. apply filter_In in G2 as [G2 _]. cbn [fst snd].
    split; [split; [repeat constructor; intros []|reflexivity]|]. intros x [<-|[]]. rewrite <- (wf_keys a W). now apply (in_map fst) in G2.
Qed.

Lemma add_samples_axis (v : sarr Z) : wf v -> exists r, add_axes v [axis_distribution] = Ok r /\ wf r /\ forall e, bat r e = bat v e.
Proof.
  intros W. destruct (add_axes_full v [axis_distribution] W) as (r & Er & Wr & Ar & Gr & Vr). exists r. split; auto. split; auto.
  intros e. unfold bat. rewrite Vr. unfold at_. f_equal. apply map_ext_in. intros x Hx. unfold bclamp. rewrite Gr.
  rewrite <- (wf_keys v W) in Hx. apply key_size in Hx as [n Hn]. now rewrite (dget_NoDup _ _ _ (wf_nodup v W) Hn).
Qed.

Lemma positive_total (sh : shape) l : NoDup (dkeys sh) -> incl l (dkeys sh) ->
  total_size sh l <> 0 <-> forall ax, In ax l -> ~ In (ax, 0) sh.
Proof.
  intros N. unfold total_size. induction l as [|x l IH]; intros I; cbn [fold_right]; [split; [intros _ ax []|lia]|].
  assert (Hx : In x (dkeys sh)) by (apply I; now left). apply key_size in Hx as [n Hn]. rewrite (dget_NoDup _ _ _ N Hn).
  specialize (IH (fun y Hy => I y (or_intror Hy))). split.
  - intros H ax [<-|Hax].
    + intros K. assert (E := dget_NoDup _ _ _ N K). rewrite (dget_NoDup _ _ _ N Hn) in E. injection E as ->. lia.
    + apply IH; auto. intros E. rewrite E in H. lia.
  - intros H. assert (n <> 0) by (intros ->; apply (H x); [now left|auto]).
    assert (Q := proj2 IH (fun ax Hax => H ax (or_intror Hax))). nia.
Qed.

Lemma dget_map {V W} (f : string -> V -> W) (d : dict V) ax : dget (map (fun kv => (fst kv, f (fst kv) (snd kv))) d) ax = option_map (f ax) (dget d ax).
Proof. induction d as [|[k v] d IH]; [reflexivity|]. cbn [map dget fst snd]. destruct (String.eqb_spec ax k) as [->|]; auto. Qed.

Lemma sortable_dec {A} (a : sarr A) l : sortable a l \/ ~ sortable a l.
Proof.
  unfold sortable. destruct l as [|x l]; [right; tauto|].
  destruct (ListDec.NoDup_dec string_dec (x :: l)); [|right; tauto].
  destruct (forallb (fun ax => smem ax (s_axes a)) (x :: l)) eqn:E.
  2: { right. intros (_ & _ & Hi & _). apply forallb_smem in Hi. congruence. }
  apply forallb_smem in E.
  destruct (forallb (fun kv => smem (fst kv) (x :: l) || (negb (snd kv =? 0) && negb (String.eqb (fst kv) (flat_name (x :: l))))) (sshape a)) eqn:F.
  - left. split; [discriminate|]. split; auto. split; auto. intros ax m Hm Hl. rewrite forallb_forall in F. apply F in Hm.
    cbn [fst snd] in Hm. apply smem_false in Hl. rewrite Hl in Hm. cbn [orb] in Hm. apply andb_true_iff in Hm as [H1 H2].
    apply negb_true_iff in H1, H2. apply Nat.eqb_neq in H1. apply String.eqb_neq in H2. auto.
  - right. intros (_ & _ & _ & HH). assert (F' : forallb (fun kv => smem (fst kv) (x :: l) || (negb (snd kv =? 0) && negb (String.eqb (fst kv) (flat_name (x :: l))))) (sshape a) = true); [|congruence].
    apply forallb_forall. intros [ax m] Hm. cbn [fst snd]. destruct (smem ax (x :: l)) eqn:G; auto. apply smem_false in G.
    destruct (HH ax m Hm G) as [H1 H2]. apply Nat.eqb_neq in H1. apply String.eqb_neq in H2. now rewrite H1, H2.
Qed.

(** the index [rd] leads to the first least elements along [l] *)
Definition points {A} (le : A -> A -> Prop) (a : sarr A) (l : list string) (rd : dict (sarr Z)) : Prop :=
  dkeys rd = l ++ filter (fun ax => negb (smem ax l)) (s_axes a) /\
  (forall ax v, dget rd ax = Some v -> wf v /\ incl (s_axes v) (s_axes a)) /\
  forall e, inside e (filter (fun kv => negb (smem (fst kv) l)) (sshape a)) ->
    exists p, inside p (sshape a) /\ (forall ax, In ax (s_axes a) -> ~ In ax l -> p ax = e ax) /\
      (forall ax, In ax (s_axes a) -> exists v, dget rd ax = Some v /\ bat v e = Z.of_nat (p ax)) /\
      forall q, inside q (sshape a) -> (forall ax, In ax (s_axes a) -> ~ In ax l -> q ax = e ax) ->
        le (at_ a p) (at_ a q) /\
        (row_major (map (size_of (sshape a)) l) (map q l) < row_major (map (size_of (sshape a)) l) (map p l) -> ~ le (at_ a q) (at_ a p)).

Lemma points_axis {A} (le : A -> A -> Prop) pick (a : sarr A) l : first_least le pick -> wf a -> sortable a l -> total_size (sshape a) l <> 0 ->
  exists rd, na_arg_reduce pick a (Some l) = Ok rd /\ points le a l rd.
Proof.
  intros F W S T. destruct (argmin_spec le pick a l W F S T) as (rd & r & Ed & _ & _ & Kd & Hd & Pd).
  exists rd. split; auto. split; auto. split; [intros ax v; now apply (arg_reduce_axes pick a l)|].
  intros e He. rewrite <- Hd in He. destruct (Pd e He) as (p & P1 & P2 & P3 & _ & P5). exists p. split; auto. split; auto. split; auto.
  intros ax Hax. destruct (P3 ax Hax) as (v & V1 & _ & V2). eauto.
Qed.

(** from the position in a line to the least element *)
Lemma first_of_pick {A} (le : A -> A -> Prop) pick (a : sarr A) l e p : first_least le pick -> wf a -> NoDup l -> incl l (s_axes a) ->
  inside p (sshape a) -> (forall ax, In ax (s_axes a) -> ~ In ax l -> p ax = e ax) ->
  row_major (map (size_of (sshape a)) l) (map p l) = pick (map (at_ a) (fibre (sshape a) l e)) ->
  forall q, inside q (sshape a) -> (forall ax, In ax (s_axes a) -> ~ In ax l -> q ax = e ax) ->
    le (at_ a p) (at_ a q) /\
    (row_major (map (size_of (sshape a)) l) (map q l) < row_major (map (size_of (sshape a)) l) (map p l) -> ~ le (at_ a q) (at_ a p)).
Proof.
  intros F W N I P1 P2 P3 q Q1 Q2. set (L := map (at_ a) (fibre (sshape a) l e)) in *.
  assert (IN : forall q, inside q (sshape a) -> forall ax, In ax l -> q ax < size_of (sshape a) ax).
  { intros q0 Hq ax Hax. unfold size_of. assert (Ha : In ax (dkeys (sshape a))) by (rewrite wf_keys; auto).
    apply dget_Some_key in Ha as [n Hn]. rewrite Hn. apply (Hq ax). now apply dget_In. }
  assert (Np : nth_error L (pick L) = Some (at_ a p)) by (rewrite <- P3; apply fibre_nth; auto).
  assert (Nq : nth_error L (row_major (map (size_of (sshape a)) l) (map q l)) = Some (at_ a q)) by (apply fibre_nth; auto).
  assert (NE : L <> []) by (intros E; rewrite E in Np; destruct (pick []); discriminate).
  destruct (F L NE) as (x & X1 & X2 & X3). assert (x = at_ a p) by congruence. subst x. split.
  - apply X2. now apply nth_error_In in Nq.
  - intros R. rewrite P3 in R. exact (X3 _ _ R Nq).
Qed.

Lemma points_none {A} (le : A -> A -> Prop) pick (a : sarr A) : first_least le pick -> wf a -> s_axes a <> [] -> size (s_nd a) <> 0 ->
  exists rd, na_arg_reduce pick a None = Ok rd /\ points le a (s_axes a) rd.
Proof.
  intros F W NE NZ. destruct (proj1 (arg_reduce_none pick a W (first_least_range le pick F)) NE NZ) as (d & r & Ed & Kd & _ & _ & _ & El).
  exists d. split; auto. split; [|split].
  - rewrite Kd, filter_none, app_nil_r; auto. intros x Hx. apply negb_false_iff. now apply smem_In.
  - intros ax v Hv. unfold na_arg_reduce in Ed. destruct (_ =? 0); [discriminate|]. destruct (_ =? 0); [discriminate|].
    assert (Wi : wf (mkS (scalar (Z.of_nat (pick (ravel (s_nd a))))) [])) by (split; [constructor|reflexivity]).
    destruct (unravel_index_spec _ _ d Wi (wf_nodup a W) Ed) as (_ & Sd & _). destruct (Sd ax v Hv) as [Wv Sv]. split; auto.
    rewrite <- (wf_keys v Wv), Sv. intros x [].
  - intros e _. destruct (El e) as (p & P1 & P2 & _ & P4 & _). exists p. split; auto. split; [intros; contradiction|]. split.
    + intros ax Hax. destruct (P4 ax Hax) as (v & V1 & V2 & V3). exists v. split; auto. rewrite <- V3. unfold bat, at_. f_equal. apply map_ext. intros x.
      unfold bclamp. now rewrite V2.
    + apply (first_of_pick le pick a (s_axes a) e p); auto; [apply W|apply incl_refl|intros; contradiction].
Qed.

(** the two parts of the index together *)
Lemma points_together {A} (le : A -> A -> Prop) (u : unc A) sh nb db rn rd l : u_wf u -> u_shape u = Ok sh ->
  u_broadcasted u = Ok (mkU (OpArr nb) (OpArr db)) -> NoDup l -> incl l (dkeys sh) -> points le nb l rn -> points le db l rd ->
  exists d, mapM (fun kv => d <- add_axes (snd kv) [axis_distribution] ;;
      v <- mk_unc (match dget rn (fst kv) with Some n => OpArr n | None => OpNum 0%Z end) (OpArr d) ;; Ok (fst kv, v)) rd = Ok d /\
NoDup (dkeys d) /\
     (forall ax, In ax (dkeys d) <-> In ax (dkeys (sh ++ samples u))) /\ (forall ax v, dget d ax = Some v -> u_wf v) /\
     (forall k e, In axis_distribution (dkeys (samples u)) -> exists_world u (Some k) -> inside_but e sh l ->
        exists v, dget d axis_distribution = Some v /\ u_at (Uncertain v) (Some k) e = Z.of_nat k /\ u_at (Uncertain v) None e = 0%Z) /\
     forall w e, exists_world u w -> inside_but e sh l ->
       exists p, inside p sh /\ (forall ax, In ax (dkeys sh) -> ~ In ax l -> p ax = e ax) /\ leads_to d sh w e p /\
         forall q, inside q sh -> (forall ax, In ax (dkeys sh) -> ~ In ax l -> q ax = e ax) ->
           le (u_at (Uncertain u) w p) (u_at (Uncertain u) w q) /\
           (row_major (map (size_of sh) l) (map q l) < row_major (map (size_of sh) l) (map p l) ->
            ~ le (u_at (Uncertain u) w q) (u_at (Uncertain u) w p)).
Proof.
  intros W H Eb A2 A3 (Kn & Axn & Pn) (Kd & Axd & Pd).
  destruct (broadcast_parts u sh W H) as (Ns & X & nb' & db' & Eb' & Wnb & Wdb & Sn & An & Vn & Vd & MEM & DG & SZ).
  rewrite Eb in Eb'. injection Eb' as <- <-.
  assert (Nx : ~ In axis_distribution l) by (intros K; now apply X, A3).
  set (g := fun ax v => mkU (match dget rn ax with Some n => OpArr n | None => OpNum 0%Z end)
    (OpArr (match add_axes v [axis_distribution] with Ok r => r | Err _ => v end))).
  assert (NDd : NoDup (dkeys rd)).
  { rewrite Kd. apply NoDup_app_intro; auto; [apply NoDup_filter; apply Wdb|].
    intros x Hx Hf. apply filter_In in Hf as [_ Hf]. apply smem_In in Hx. rewrite Hx in Hf. discriminate. }
  assert (MX : forall ax, ~ In axis_distribution (dkeys (op_shape (match dget rn ax with Some n => OpArr n | None => OpNum 0%Z end)))).
  { intros ax. destruct (dget rn ax) as [v|] eqn:E; [|intros []]. destruct (Axn _ _ E) as [Wv Iv]. cbn [op_shape].
    rewrite (wf_keys v Wv). intros K. apply Iv in K. rewrite An in K. contradiction. }
  assert (EM : mapM (fun kv => d <- add_axes (snd kv) [axis_distribution] ;;
    v <- mk_unc (match dget rn (fst kv) with Some n => OpArr n | None => OpNum 0%Z end) (OpArr d) ;; Ok (fst kv, v)) rd = Ok (map (fun kv => (fst kv, g (fst kv) (snd kv))) rd)).
  { apply mapM_map. intros [ax v] Hv. cbn [fst snd].
    destruct (Axd _ _ (dget_NoDup _ _ _ NDd Hv)) as [Wv _]. destruct (add_samples_axis v Wv) as (r & Er & Wr & _). unfold g. rewrite Er. cbn [bind].
    rewrite (mk_unc_intro _ _ (MX ax)). reflexivity. }
  assert (KD : forall x, In x (s_axes db) <-> In x (dkeys (sh ++ samples u))).
  { intros x. rewrite <- (wf_keys db Wdb). split; intros K; apply key_size in K as [n K]; apply MEM in K; now apply (in_map fst) in K. }
  assert (GE : forall ax v, dget rd ax = Some v -> wf v /\ u_wf (g ax v) /\
     (forall k e, u_at (Uncertain (g ax v)) (Some k) e = bat v (set_env e axis_distribution k)) /\
     (forall e, u_at (Uncertain (g ax v)) None e = op_at (match dget rn ax with Some n => OpArr n | None => OpNum 0%Z end) e)).
  { intros ax v Hv. destruct (Axd _ _ Hv) as [Wv _]. destruct (add_samples_axis v Wv) as (r & Er & Wr & Vr). unfold g. rewrite Er.
    split; auto. split.
    - split; [|split; [exact Wr|apply MX]]. cbn [u_nominal]. destruct (dget rn ax) as [n|] eqn:E; [|exact I]. now destruct (Axn _ _ E).
    - split; [intros k e; cbn [u_at u_distribution op_at]; apply Vr|reflexivity]. }
  assert (IN : forall e, inside_but e sh l -> inside e (filter (fun kv => negb (smem (fst kv) l)) (sshape nb))).
  { intros e He ax n Hn. apply filter_In in Hn as [Hn Hf]. rewrite Sn in Hn. cbn [fst] in Hf.
    apply negb_true_iff, smem_false in Hf. now apply (He ax). }
  assert (ID : forall k e, exists_world u (Some k) -> inside_but e sh l -> inside (set_env e axis_distribution k) (filter (fun kv => negb (smem (fst kv) l)) (sshape db))).
  { intros k e Hw He ax n Hn. apply filter_In in Hn as [Hn Hf]. cbn [fst] in Hf.
    apply negb_true_iff, smem_false in Hf. apply MEM, in_app_iff in Hn as [Hn|Hn].
    - rewrite set_env_other; [now apply (He ax)|]. intros ->. apply X. now apply (in_map fst) in Hn.
    - apply (samples_in u) in Hn as [-> Hn]; auto. unfold set_env. rewrite String.eqb_refl. exact (Hw n Hn). }
  eexists. split; [exact EM|]. split.
  { unfold dkeys. rewrite map_map. cbn [fst]. exact NDd. }
  split.
  { intros ax. unfold dkeys at 1. rewrite map_map. cbn [fst]. change (map (fun x : string * sarr Z => fst x) rd) with (dkeys rd).
    rewrite Kd, in_app_iff, filter_In, negb_true_iff, KD. split; [intros [K|[K _]]; auto|].
    - unfold dkeys. rewrite map_app, in_app_iff. left. now apply A3.
    - intros K. destruct (in_dec string_dec ax l); [auto|right]. split; auto. now apply smem_false. }
  split.
  { intros ax v Hv. rewrite dget_map in Hv. destruct (dget rd ax) as [v0|] eqn:E; [|discriminate]. cbn [option_map] in Hv. injection Hv as <-. now apply GE. }
  split.
  { intros k e Hs Hw He. destruct (Pd _ (ID k e Hw He)) as (p & P1 & P2 & P3 & _).
    assert (Hx : In axis_distribution (s_axes db)).
    { apply KD. unfold dkeys. rewrite map_app, in_app_iff. now right. }
    destruct (P3 _ Hx) as (v & V1 & V3). exists (g axis_distribution v). rewrite dget_map, V1. split; [reflexivity|].
    destruct (GE _ _ V1) as (_ & _ & G1 & G2). rewrite G1, G2, V3, P2 by auto. split; [unfold set_env; now rewrite String.eqb_refl|].
    destruct (dget rn axis_distribution) as [n|] eqn:E; [|reflexivity]. exfalso. apply dget_In, (in_map fst) in E. cbn [fst] in E.
    change (In axis_distribution (dkeys rn)) in E. rewrite Kn, in_app_iff, filter_In, An in E. tauto. }
  intros w e Hw He. destruct w as [k|].
  + destruct (Pd _ (ID k e Hw He)) as (p & P1 & P2 & P3 & P5). exists p.
    assert (KI : forall ax, In ax (dkeys sh) -> In ax (s_axes db) /\ ax <> axis_distribution).
    { intros ax Hax. now destruct (SZ ax Hax) as (? & ? & _). }
    assert (Ps : forall q, (forall ax, In ax (s_axes db) -> ~ In ax l -> q ax = set_env e axis_distribution k ax) -> at_ db q = u_at (Uncertain u) (Some k) q).
    { intros q Hq. cbn [u_at]. rewrite <- Vd. unfold at_. f_equal. apply map_ext_in. intros ax Hax. unfold set_env.
      destruct (String.eqb_spec ax axis_distribution) as [->|]; auto. rewrite Hq by auto. unfold set_env. now rewrite String.eqb_refl. }
    split. { intros ax n Hn. apply (P1 ax). apply MEM, in_app_iff. now left. }
    split. { intros ax Hax Hl. destruct (KI ax Hax) as [K1 K2]. rewrite P2 by auto. now apply set_env_other. }
    split. { intros ax Hax. destruct (KI ax Hax) as [K1 _]. destruct (P3 ax K1) as (v & V1 & V3). exists (g ax v). rewrite dget_map, V1. split; [reflexivity|].
      destruct (GE _ _ V1) as (_ & _ & G1 & _). now rewrite G1. }
    intros q Q1 Q2. set (q' := set_env q axis_distribution k).
    assert (Q2' : forall ax, In ax (s_axes db) -> ~ In ax l -> q' ax = set_env e axis_distribution k ax).
    { intros ax Hax Hl. unfold q', set_env. destruct (String.eqb_spec ax axis_distribution) as [|Hx]; auto. apply Q2; auto.
      rewrite <- (wf_keys db Wdb) in Hax. apply key_size in Hax as [n Hax]. apply MEM, in_app_iff in Hax as [Hax|Hax]; [now apply (in_map fst) in Hax|].
      apply (samples_in u) in Hax as [? _]; [contradiction|auto]. }
    destruct (P5 q') as [P6 P7]; auto.
    { intros ax n Hn. apply MEM, in_app_iff in Hn as [Hn|Hn].
      - unfold q'. rewrite set_env_other; [now apply (Q1 ax)|]. intros ->. apply X. now apply (in_map fst) in Hn.
      - apply (samples_in u) in Hn as [-> Hn]; auto. unfold q', set_env. rewrite String.eqb_refl. exact (Hw n Hn). }
    rewrite (Ps p P2), (Ps q' Q2') in P6, P7.
    assert (Eq : u_at (Uncertain u) (Some k) q' = u_at (Uncertain u) (Some k) q).
    { cbn [u_at]. apply ReduceFacts.op_at_respects. intros y. unfold q', set_env. now destruct (String.eqb y axis_distribution). }
    rewrite Eq in P6, P7. split; auto. intros R. apply P7.
    replace (map (size_of (sshape db)) l) with (map (size_of sh) l) by (apply map_ext_in; intros x Hx; now destruct (SZ x (A3 x Hx)) as (_ & _ & ->)).
    replace (map q' l) with (map q l); [exact R|]. apply map_ext_in. intros x Hx. unfold q'. rewrite set_env_other; auto. intros ->. contradiction.
  + destruct (Pn _ (IN e He)) as (p & P1 & P2 & P3 & P5). rewrite Sn, An in *. exists p. split; auto. split; auto. split.
    { intros ax Hax. destruct (P3 ax Hax) as (v & V1 & V3).
      assert (Hd : In ax (dkeys rd)).
      { rewrite Kd, in_app_iff, filter_In, negb_true_iff. destruct (in_dec string_dec ax l); [now left|right]. split; [|now apply smem_false].
        now destruct (SZ ax Hax) as (_ & ? & _). }
      apply dget_Some_key in Hd as [v2 Hd]. exists (g ax v2). rewrite dget_map, Hd. split; [reflexivity|].
      destruct (GE _ _ Hd) as (_ & _ & _ & G2). now rewrite G2, V1. }
    intros q Q1 Q2. destruct (P5 q Q1 Q2) as [P6 P7]. rewrite !Vn in P6, P7. split; auto.
Qed.

(** the positions in every world *)
Theorem u_argmin_spec {A} (le : A -> A -> Prop) pick (u : unc A) sh l : first_least le pick -> u_wf u -> u_shape u = Ok sh ->
  (~ pickable u sh l -> u_arg_reduce pick u (Some l) = Err ValueError) /\
  (pickable u sh l -> exists d, u_arg_reduce pick u (Some l) = Ok d /\ NoDup (dkeys d) /\
     (forall ax, In ax (dkeys d) <-> In ax (dkeys (sh ++ samples u))) /\ (forall ax v, dget d ax = Some v -> u_wf v) /\
     (forall k e, In axis_distribution (dkeys (samples u)) -> exists_world u (Some k) -> inside_but e sh l ->
        exists v, dget d axis_distribution = Some v /\ u_at (Uncertain v) (Some k) e = Z.of_nat k /\ u_at (Uncertain v) None e = 0%Z) /\
     forall w e, exists_world u w -> inside_but e sh l ->
       exists p, inside p sh /\ (forall ax, In ax (dkeys sh) -> ~ In ax l -> p ax = e ax) /\ leads_to d sh w e p /\
         forall q, inside q sh -> (forall ax, In ax (dkeys sh) -> ~ In ax l -> q ax = e ax) ->
           le (u_at (Uncertain u) w p) (u_at (Uncertain u) w q) /\
           (row_major (map (size_of sh) l) (map q l) < row_major (map (size_of sh) l) (map p l) ->
            ~ le (u_at (Uncertain u) w q) (u_at (Uncertain u) w p))).
Proof.
  intros F W H. destruct (broadcast_parts u sh W H) as (Ns & X & nb & db & Eb & Wnb & Wdb & Sn & An & Vn & Vd & MEM & DG & SZ).
  assert (Hp := first_least_range le pick F).
  assert (Nd := wf_nodup db Wdb).
  assert (SN : sortable nb l <-> arrangeable sh l).
  { unfold sortable, arrangeable. rewrite An, Sn. reflexivity. }
  assert (TD : incl l (dkeys sh) -> total_size (sshape db) l = total_size sh l).
  { intros I. unfold total_size. clear - I MEM Ns Nd. induction l as [|x l IH]; auto. cbn [fold_right]. rewrite IH by (intros y Hy; apply I; now right).
    assert (Hx := I x (or_introl eq_refl)). apply key_size in Hx as [n Hn]. assert (Hd : In (x, n) (sshape db)) by (apply MEM, in_app_iff; now left).
    now rewrite (dget_NoDup _ _ _ Ns Hn), (dget_NoDup _ _ _ Nd Hd). }
  assert (SD : arrangeable sh l -> (sortable db l <-> ~ In (axis_distribution, 0) (op_shape (u_distribution u)))).
  { intros (A1 & A2 & A3 & A4). assert (Nx : ~ In axis_distribution l) by (intros K; now apply X, A3). split.
    - intros (_ & _ & _ & B) K. assert (K' := proj2 (samples_in u axis_distribution 0 W) (conj eq_refl K)).
      destruct (B axis_distribution 0) as [B1 _]; auto. apply MEM, in_app_iff. now right.
    - intros K. split; auto. split; auto. split; [intros x Hx; now destruct (SZ x (A3 x Hx)) as (_ & ? & _)|].
      intros ax n Hn Hl. apply MEM, in_app_iff in Hn as [Hn|Hn]; [now apply A4|]. assert (Hn' := proj1 (samples_in u ax n W) Hn).
      destruct Hn' as [-> Hn']. split; [intros ->; contradiction|]. intros E. now apply (flat_not_samples l A1 Nx). }
  assert (UE : u_arg_reduce pick u (Some l) = (rn <- na_arg_reduce pick nb (Some l) ;; rd <- na_arg_reduce pick db (Some l) ;;
    mapM (fun kv => d <- add_axes (snd kv) [axis_distribution] ;;
      v <- mk_unc (match dget rn (fst kv) with Some n => OpArr n | None => OpNum 0%Z end) (OpArr d) ;; Ok (fst kv, v)) rd)).
  { unfold u_arg_reduce. rewrite Eb. reflexivity. }
  split.
  - intros NP. rewrite UE. destruct (sortable_dec nb l) as [S1|S1].
    2:{ rewrite (proj2 (arg_reduce_spec pick nb l Wnb Hp)) by tauto. reflexivity. }
    destruct (Nat.eq_dec (total_size sh l) 0) as [T|T].
    { rewrite (proj2 (arg_reduce_spec pick nb l Wnb Hp)) by (rewrite Sn; tauto). reflexivity. }
    destruct (proj1 (arg_reduce_spec pick nb l Wnb Hp) S1 ltac:(now rewrite Sn)) as (rn & _ & -> & _). cbn [bind].
    apply SN in S1. rewrite (proj2 (arg_reduce_spec pick db l Wdb Hp)); [reflexivity|]. intros [S2 _]. apply NP. split; auto.
    split; [|now apply SD]. apply positive_total; auto. apply S1.
  - intros (Ar & PT & Z0). assert (Ar' := Ar). destruct Ar' as (A1 & A2 & A3 & A4). assert (Nx : ~ In axis_distribution l) by (intros K; now apply X, A3).
    assert (T : total_size sh l <> 0) by (now apply positive_total).
    assert (Sd := proj2 (SD Ar) Z0). assert (Sn' := proj2 SN Ar).
    destruct (points_axis le pick nb l F Wnb Sn' ltac:(now rewrite Sn)) as (rn & En & Pn).
    destruct (points_axis le pick db l F Wdb Sd ltac:(now rewrite TD)) as (rd & Ed & Pd).
    destruct (points_together le u sh nb db rn rd l W H Eb A2 A3 Pn Pd) as (d & Em & R).
    exists d. split; [|exact R]. rewrite UE, En. cbn [bind]. rewrite Ed. exact Em.
Qed.

(** ** Without axes *)

(** the entry for a single axis *)
Lemma arg_reduce_single {A} (pick : list A -> nat) (a : sarr A) x : wf a -> sortable a [x] -> size_of (sshape a) x <> 0 ->
  (forall y, y <> [] -> pick y < length y) ->
  exists d v, na_arg_reduce pick a (Some [x]) = Ok d /\ dget d x = Some v /\
    ddel d x = map (fun kv => (fst kv, arange (fst kv) (snd kv))) (filter (fun kv => negb (String.eqb (fst kv) x)) (sshape a)) /\ wf v /\
    (forall ax n, In (ax, n) (sshape v) <-> In (ax, n) (sshape a) /\ ax <> x) /\
    forall e, inside e (sshape v) -> at_ v e = Z.of_nat (pick (line a x e)).
Proof.
  intros W S NZ Hp. pose proof S as (NE & N & I & HK).
  assert (Hx : In x (s_axes a)) by (apply I; now left).
  set (K := fun c => p <- index_of x (s_axes c) ;;
      n <- np_arg_reduce pick (s_nd c) p ;;
      indices <- mk_sarr n (filter (fun ax => negb (String.eqb ax x)) (s_axes c)) ;;
      d <- na_unravel_index indices (subshape (sshape a) [x]) ;;
      Ok (add_ranges (sshape a) [x] d)).
  destruct (combined a [x] K W) as [C1 _]. destruct (C1 S) as (c & Ec & E).
  change (flat_name [x]) with x in *.
  assert (E' : na_arg_reduce pick a (Some [x]) = K c) by (rewrite <- E; reflexivity). clear E C1.
  destruct (combine_axes_spec a [x] x c W Ec) as (Wc & Ac & Sc & _).
  assert (Hc : In x (s_axes c)) by (rewrite Ac; apply in_app_iff; right; now left).
  assert (Zc : size_of (sshape c) x = size_of (sshape a) x).
  { rewrite (size_of_In (sshape c) x (total_size (sshape a) [x]) (wf_nodup c Wc)) by (apply Sc; auto).
    assert (Hd : In x (dkeys (sshape a))) by (now rewrite wf_keys). apply key_size in Hd as [n Hn].
    rewrite (size_of_In _ _ _ (wf_nodup a W) Hn). unfold total_size. cbn [fold_right]. rewrite (dget_NoDup _ _ _ (wf_nodup a W) Hn). lia. }
  destruct (arg_reduce_named pick c x Wc Hc ltac:(now rewrite Zc)) as (n & En & Wi & Si & Gi).
  set (ind := mkS n (filter (fun y => negb (String.eqb y x)) (s_axes c))) in *.
  assert (IN : forall ax m, In (ax, m) (sshape ind) <-> In (ax, m) (sshape a) /\ ax <> x).
  { intros ax m. rewrite Si, filter_In, Sc. cbn [fst]. rewrite negb_true_iff, String.eqb_neq. cbn [In]. intuition congruence. }
  assert (GL : forall e, inside e (sshape ind) -> at_ ind e = Z.of_nat (pick (line a x e))).
  { intros e He. rewrite Gi. rewrite (combine_axes_line a [x] x c e W Ec).
    - f_equal. f_equal. unfold line. cbn [fibre]. rewrite flat_map_concat_map, concat_map, map_map. cbn [map].
      generalize (seq 0 (size_of (sshape a) x)). intros t. induction t as [|i t IH]; [reflexivity|]. cbn [map concat app]. f_equal. exact IH.
    - intros ax m Hm Hl. apply (He ax). apply IN. split; auto. intros ->. apply Hl. now left. }
  assert (KS : subshape (sshape a) [x] = [(x, asize a x)]) by (now rewrite subshape_keys).
  assert (AZ : asize a x = size_of (sshape a) x).
  { assert (Hd : In x (dkeys (sshape a))) by (now rewrite wf_keys). apply key_size in Hd as [m Hm].
    rewrite (size_of_In _ _ _ (wf_nodup a W) Hm). apply in_sshape in Hm as [_ Hm]; auto. }
  assert (Nk : NoDup (dkeys [(x, asize a x)])) by (repeat constructor; intros []).
  destruct (proj2 (unravel_index_success ind [(x, asize a x)] Wi Nk)) as [d Hd].
  { split; [discriminate|]. intros e He. rewrite (GL e He). unfold total_size. cbn [dkeys map fst fold_right dget]. rewrite String.eqb_refl, AZ.
    assert (LL : length (line a x e) = size_of (sshape a) x) by (unfold line; now rewrite map_length, seq_length).
    assert (Q : pick (line a x e) < length (line a x e)) by (apply Hp; intros E; rewrite E in LL; cbn in LL; lia). lia. }
  destruct (unravel_index_spec ind _ d Wi Nk Hd) as (Kd & Sd & Vd). cbn [dkeys map fst] in Kd.
  destruct d as [|[x' v] [|? ?]]; try discriminate. injection Kd as ->.
  assert (Gv : dget [(x, v)] x = Some v) by (cbn [dget]; now rewrite String.eqb_refl).
  destruct (Sd x v Gv) as [Wv Sv].
  assert (ER : K c = Ok (add_ranges (sshape a) [x] [(x, v)])).
  { unfold K, index_of. rewrite (sindex_In _ _ Hc). cbn [bind]. rewrite En. cbn [bind]. rewrite mk_sarr_intro by (apply Wi). cbn [bind].
    fold ind. rewrite KS, Hd. reflexivity. }
  rewrite add_ranges_eq in ER; [|now apply wf_nodup|intros ax _ H [H'|[]]; apply H; now left].
  exists ([(x, v)] ++ map (fun kv => (fst kv, arange (fst kv) (snd kv))) (filter (fun kv => negb (smem (fst kv) [x])) (sshape a))), v.
  split; [now rewrite E'|]. split; [cbn [app dget]; now rewrite String.eqb_refl|]. split.
  { cbn [app ddel]. rewrite String.eqb_refl. f_equal. apply filter_ext. intros [y m]. cbn [fst smem existsb]. now rewrite orb_false_r. }
  split; auto. split. { intros ax m. rewrite Sv. apply IN. }
  intros e He. rewrite Sv in He. destruct (Vd e He) as (idx & V1 & V2). inversion V1 as [|? i ? t V3 V4]; subst. inversion V4; subst.
  destruct V3 as [_ (v' & G' & V5)]. cbn [fst] in G'. rewrite Gv in G'. injection G' as <-. rewrite V5, <- (GL e He), <- V2. f_equal.
Qed.

Lemma shape_from_keys (s t : shape) : NoDup (dkeys s) -> dkeys s = dkeys t -> (forall ax n, In (ax, n) t -> In (ax, n) s) -> s = t.
Proof.
  revert t. induction s as [|[k n] s IH]; intros [|[k' n'] t] N E H; cbn [dkeys map fst] in E; try discriminate; auto.
  injection E as -> E. inversion N as [|? ? N1 N2]; subst. f_equal.
  - destruct (H k' n' (or_introl eq_refl)) as [Q|Q]; [congruence|]. destruct N1. now apply (in_map fst) in Q.
  - apply IH; auto. intros ax m Hm. destruct (H ax m (or_intror Hm)) as [Q|Q]; auto. injection Q as -> ->. destruct N1.
    change (map fst s) with (dkeys s). unfold dkeys. rewrite E. now apply (in_map fst) in Hm.
Qed.

Lemma broadcast_shape_again {A} (u : unc A) sh nb db : u_wf u -> u_shape u = Ok sh -> u_broadcasted u = Ok (mkU (OpArr nb) (OpArr db)) ->
  u_shape (mkU (OpArr nb) (OpArr db)) = Ok sh.
Proof.
  intros W H Eb. destruct (broadcast_parts u sh W H) as (Ns & X & nb' & db' & Eb' & Wnb & Wdb & Sn & An & Vn & Vd & MEM & DG & _).
  rewrite Eb in Eb'. injection Eb' as <- <-.
  destruct (broadcast_within sh (sshape db) Ns (wf_nodup db Wdb)) as (sd & E & Nsd & SS & rest & K & Kr).
  { intros [ax n] Hn. apply MEM, in_app_iff. now left. }
  unfold u_shape, u_shape_distribution, shape_broadcasted, op_shapes. cbn [flat_map app u_nominal u_distribution]. rewrite Sn.
  match goal with |- context [broadcast_shapes ?l] => replace (broadcast_shapes l) with (Ok sd) by (symmetry; exact E) end. cbn [bind].
  f_equal. apply shape_from_keys.
  - rewrite dkeys_ddel by auto. now apply NoDup_filter.
  - rewrite dkeys_ddel, K, filter_app by auto. rewrite (filter_all _ (dkeys sh)), (filter_none _ rest), app_nil_r; auto.
    + intros y Hy. rewrite negb_false_iff. apply String.eqb_eq. assert (Q : In y (dkeys sd)) by (rewrite K; apply in_app_iff; now right).
      apply key_size in Q as [n Q]. apply SS, MEM, in_app_iff in Q as [Q|Q]; [destruct (Kr y Hy); now apply (in_map fst) in Q|].
      now apply (samples_in u) in Q as [-> _].
    + intros y Hy. rewrite negb_true_iff. apply String.eqb_neq. intros ->. contradiction.
  - intros ax n Hn. apply in_ddel; auto. split; [apply SS, MEM, in_app_iff; now left|]. intros ->. apply X. now apply (in_map fst) in Hn.
Qed.

(** the samples: combining the axes first *)
Lemma points_combined {A} (le : A -> A -> Prop) pick (db : sarr A) (sh : shape) : first_least le pick -> wf db ->
  sortable db (dkeys sh) -> total_size (sshape db) (dkeys sh) <> 0 -> incl sh (sshape db) ->
  exists rd, (c <- combine_axes db (Some (dkeys sh)) (Some (flat_name (dkeys sh))) ;;
     r <- na_arg_reduce pick c (Some [flat_name (dkeys sh)]) ;;
     match dget r (flat_name (dkeys sh)) with
     | Some v => d <- na_unravel_index v sh ;; Ok (dunion d (ddel r (flat_name (dkeys sh))))
     | None => Err KeyError
     end) = Ok rd /\ points le db (dkeys sh) rd.
Proof.
  intros F W S T IS. set (l := dkeys sh) in *. set (x := flat_name l) in *. pose proof S as (NE & N & I & HK).
  assert (Hp := first_least_range le pick F).
  destruct (proj1 (combined db l (fun c => Ok c) W) S) as (c & Ec & _). fold x in Ec. rewrite Ec. cbn [bind].
  destruct (combine_axes_spec db l x c W Ec) as (Wc & Ac & Sc & _).
  assert (Hc : In x (s_axes c)) by (rewrite Ac; apply in_app_iff; right; now left).
  assert (Zc : size_of (sshape c) x = total_size (sshape db) l).
  { apply size_of_In; [now apply wf_nodup|]. apply Sc. auto. }
  assert (SX : sortable c [x]).
  { split; [discriminate|]. split; [repeat constructor; intros []|]. split; [intros y [<-|[]]; auto|].
    intros ax n Hn Hx. change (flat_name [x]) with x. apply Sc in Hn as [[Hn Hl]|[-> _]]; [now apply HK|]. destruct Hx. now left. }
  destruct (arg_reduce_single pick c x Wc SX ltac:(now rewrite Zc) Hp) as (r & v & Er & Gv & Dv & Wv & Sv & Vv).
  rewrite Er. cbn [bind]. rewrite Gv.
  assert (IV : forall ax n, In (ax, n) (sshape v) <-> In (ax, n) (sshape db) /\ ~ In ax l).
  { intros ax n. rewrite Sv, Sc. split.
    - intros [[K|[K _]] Q]; [auto|contradiction].
    - intros [K Q]. split; auto. destruct (HK ax n K Q) as [_ K']. exact K'. }
  assert (GL : forall e, inside e (sshape v) -> at_ v e = Z.of_nat (pick (map (at_ db) (fibre (sshape db) l e)))).
  { intros e He. rewrite (Vv e He). f_equal. f_equal. apply combine_axes_line; auto. intros ax n Hn Hl. apply (He ax), IV. auto. }
  assert (SB : subshape (sshape db) l = sh).
  { rewrite subshape_keys by auto. symmetry. apply shape_from_keys; auto.
    - unfold dkeys at 2. rewrite map_map. cbn [fst]. now rewrite map_id.
    - intros ax n Hn. apply in_map_iff in Hn as [y [Hy Hl]]. injection Hy as <- <-. unfold l in Hl. apply key_size in Hl as [m Hm].
      assert (Q := IS _ Hm). apply in_sshape in Q as [_ Q]; auto. now rewrite Q. }
  assert (LL : forall e, length (map (at_ db) (fibre (sshape db) l e)) = total_size (sshape db) l).
  { intros e. rewrite map_length, fibre_length, total_size_prod by auto. reflexivity. }
  destruct (proj2 (unravel_index_success v sh Wv N)) as [d Hd].
  { split; [intros E; destruct NE; unfold l; now rewrite E|]. intros e He. rewrite (GL e He). rewrite <- SB, total_size_sub by auto.
    assert (Q : pick (map (at_ db) (fibre (sshape db) l e)) < total_size (sshape db) l).
    { rewrite <- (LL e). apply Hp. intros E. apply (f_equal (@length A)) in E. rewrite LL in E. cbn in E. congruence. }
    lia. }
  rewrite Hd. cbn [bind].
  destruct (unravel_index_spec v sh d Wv N Hd) as (Kd0 & Sd0 & _).
  assert (Hd' := Hd). rewrite <- SB in Hd'.
  destruct (index_dict db l v d W N I NE Wv Hd') as (Kd & rr & _ & _ & _ & El).
  { intros ax n H1 H2. apply IV. auto. }
  assert (FE : filter (fun kv => negb (String.eqb (fst kv) x)) (sshape c) = filter (fun kv => negb (smem (fst kv) l)) (sshape db)).
  { symmetry. apply shape_from_keys.
    - rewrite (dkeys_filter_fst (fun ax => negb (smem ax l))). apply NoDup_filter. now apply wf_nodup.
    - rewrite (dkeys_filter_fst (fun ax => negb (smem ax l))), (dkeys_filter_fst (fun ax => negb (String.eqb ax x))), !wf_keys, Ac, filter_app by auto.
      cbn [filter]. rewrite String.eqb_refl. cbn [negb]. rewrite app_nil_r. symmetry. apply filter_all.
      intros y Hy. apply filter_In in Hy as [H1 H2]. apply negb_true_iff, smem_false in H2. rewrite <- (wf_keys db W) in H1.
      apply key_size in H1 as [n H1]. destruct (HK y n H1 H2) as [_ H3]. apply negb_true_iff. now apply String.eqb_neq.
    - intros ax n Hn. apply filter_In in Hn as [Hn Hf]. cbn [fst] in Hf. apply negb_true_iff, String.eqb_neq in Hf.
      apply Sc in Hn as [[H1 H2]|[H1 _]]; [|contradiction]. apply filter_In. split; auto. cbn [fst]. apply negb_true_iff. now apply smem_false. }
  assert (EU : dunion d (ddel r x) = add_ranges (sshape db) l d).
  { rewrite add_ranges_eq; [|now apply wf_nodup|intros; congruence]. rewrite Dv, FE. unfold dunion. apply CartesianFacts.dunion_NoDup.
    rewrite map_app, map_map. cbn [fst]. change (map fst d) with (dkeys d). rewrite Kd.
    change (map (fun kv : string * nat => fst kv)) with (@dkeys nat).
    rewrite (dkeys_filter_fst (fun ax => negb (smem ax l))), wf_keys by auto.
    apply NoDup_app_intro; auto; [apply NoDup_filter; apply W|].
    intros y Hy Hf. apply filter_In in Hf as [_ Hf]. apply smem_In in Hy. rewrite Hy in Hf. discriminate. }
  rewrite EU. eexists. split; [reflexivity|]. split; [|split].
  - rewrite add_ranges_eq; [|now apply wf_nodup|intros; congruence]. unfold dkeys at 1. rewrite map_app, map_map. cbn [fst]. f_equal; auto.
    rewrite <- (wf_keys db W). apply (dkeys_filter_fst (fun ax => negb (smem ax l))).
  - intros ax w G. rewrite add_ranges_eq in G; [|now apply wf_nodup|intros; congruence]. apply dget_In in G. apply in_app_iff in G as [G|G].
    + assert (N0 : NoDup (dkeys d)) by (now rewrite Kd). destruct (Sd0 ax w (dget_NoDup _ _ _ N0 G)) as [Ww Sw]. split; auto.
      intros y Hy. rewrite <- (wf_keys w Ww), Sw in Hy. apply key_size in Hy as [n Hy]. apply IV in Hy as [Hy _].
      rewrite <- (wf_keys db W). now apply (in_map fst) in Hy.
    + apply in_map_iff in G as [[y m] [G1 G2]]. injection G1 as <- <-. apply filter_In in G2 as [G2 _]. cbn [fst snd].
      split; [split; [repeat constructor; intros []|reflexivity]|]. intros z [<-|[]]. rewrite <- (wf_keys db W). now apply (in_map fst) in G2.
  - intros e He. assert (He' : inside e (sshape v)).
    { intros ax n Hn. apply IV in Hn as [H1 H2]. apply (He ax). apply filter_In. split; auto. cbn [fst]. apply negb_true_iff. now apply smem_false. }
    destruct (El e He') as (p & P1 & P2 & P3 & _ & P5). rewrite (GL e He') in P3. apply Nat2Z.inj in P3.
    exists p. split; auto. split; auto. split; [intros ax Hax; destruct (P5 ax Hax) as (w & W1 & _ & W2); eauto|].
    apply (first_of_pick le pick db l e p); auto.
Qed.

Lemma pair_dec (a b : string * nat) : {a = b} + {a <> b}.
Proof. decide equality; [apply Nat.eq_dec|apply string_dec]. Qed.

Theorem u_argmin_none {A} (le : A -> A -> Prop) pick (u : unc A) sh : first_least le pick -> u_wf u -> u_shape u = Ok sh ->
  let l := dkeys sh in
  (~ pickable u sh l -> u_arg_reduce pick u None = Err ValueError) /\
  (pickable u sh l -> exists d, u_arg_reduce pick u None = Ok d /\ NoDup (dkeys d) /\
     (forall ax, In ax (dkeys d) <-> In ax (dkeys (sh ++ samples u))) /\ (forall ax v, dget d ax = Some v -> u_wf v) /\
     (forall k e, In axis_distribution (dkeys (samples u)) -> exists_world u (Some k) -> inside_but e sh l ->
        exists v, dget d axis_distribution = Some v /\ u_at (Uncertain v) (Some k) e = Z.of_nat k /\ u_at (Uncertain v) None e = 0%Z) /\
     forall w e, exists_world u w -> inside_but e sh l ->
       exists p, inside p sh /\ (forall ax, In ax (dkeys sh) -> ~ In ax l -> p ax = e ax) /\ leads_to d sh w e p /\
         forall q, inside q sh -> (forall ax, In ax (dkeys sh) -> ~ In ax l -> q ax = e ax) ->
           le (u_at (Uncertain u) w p) (u_at (Uncertain u) w q) /\
           (row_major (map (size_of sh) l) (map q l) < row_major (map (size_of sh) l) (map p l) ->
            ~ le (u_at (Uncertain u) w q) (u_at (Uncertain u) w p))).
Proof.
  intros F W H l. destruct (broadcast_parts u sh W H) as (Ns & X & nb & db & Eb & Wnb & Wdb & Sn & An & Vn & Vd & MEM & DG & SZ).
  assert (Hp := first_least_range le pick F). assert (Nd := wf_nodup db Wdb).
  assert (Nx : ~ In axis_distribution l) by exact X.
  assert (AR : sh <> [] -> arrangeable sh l).
  { intros NE. split; [intros E; apply NE; now apply map_eq_nil in E|]. split; auto. split; [apply incl_refl|].
    intros ax n Hn Hl. destruct Hl. now apply (in_map fst) in Hn. }
  assert (TZ : size (s_nd nb) = total_size sh l).
  { unfold l. rewrite <- An, <- Sn, total_size_prod, map_asize by (auto using incl_refl). reflexivity. }
  assert (TD : total_size (sshape db) l = total_size sh l).
  { unfold total_size. assert (I : incl l (dkeys sh)) by apply incl_refl. revert I. generalize l. clear - MEM Ns Nd. intros t. induction t as [|x t IH]; intros I; auto. cbn [fold_right].
    rewrite IH by (intros y Hy; apply I; now right).
    assert (Hx := I x (or_introl eq_refl)). apply key_size in Hx as [n Hn]. assert (Hd : In (x, n) (sshape db)) by (apply MEM, in_app_iff; now left).
    now rewrite (dget_NoDup _ _ _ Ns Hn), (dget_NoDup _ _ _ Nd Hd). }
  assert (SD : sh <> [] -> sortable db l <-> ~ In (axis_distribution, 0) (op_shape (u_distribution u))).
  { intros NE. destruct (AR NE) as (A1 & A2 & A3 & A4). split.
    - intros (_ & _ & _ & B) K. assert (K' := proj2 (samples_in u axis_distribution 0 W) (conj eq_refl K)).
      destruct (B axis_distribution 0) as [B1 _]; auto. apply MEM, in_app_iff. now right.
    - intros K. split; auto. split; auto. split; [intros x Hx; now destruct (SZ x (A3 x Hx)) as (_ & ? & _)|].
      intros ax n Hn Hl. apply MEM, in_app_iff in Hn as [Hn|Hn]; [now apply A4|]. assert (Hn' := proj1 (samples_in u ax n W) Hn).
      destruct Hn' as [-> Hn']. split; [intros ->; contradiction|]. intros E. now apply (flat_not_samples l A1 Nx). }
  set (x := flat_name l).
  set (BR := c <- combine_axes db (Some l) (Some x) ;; r <- na_arg_reduce pick c (Some [x]) ;;
     match dget r x with Some v => d <- na_unravel_index v sh ;; Ok (dunion d (ddel r x)) | None => Err KeyError end).
  assert (UE : sh <> [] -> u_arg_reduce pick u None = (rn <- na_arg_reduce pick nb None ;; rd <- BR ;;
    mapM (fun kv => d <- add_axes (snd kv) [axis_distribution] ;;
      v <- mk_unc (match dget rn (fst kv) with Some n => OpArr n | None => OpNum 0%Z end) (OpArr d) ;; Ok (fst kv, v)) rd)).
  { intros NE. unfold u_arg_reduce. rewrite Eb. cbn [bind u_nominal u_distribution normalize]. rewrite (broadcast_shape_again u sh nb db W H Eb). cbn [bind].
    assert (FA : flatten_axes (dkeys sh) = Ok x) by (unfold x, l, flat_name; destruct sh; [contradiction|reflexivity]). rewrite FA. reflexivity. }
  assert (NB : na_arg_reduce pick nb None = Err ValueError -> u_arg_reduce pick u None = Err ValueError).
  { intros E. unfold u_arg_reduce. rewrite Eb. cbn [bind u_nominal normalize]. now rewrite E. }
  split.
  - intros NP. assert (D : sh = [] \/ sh <> []) by (destruct sh; [now left|right; discriminate]). destruct D as [D|NE].
    { apply NB. apply (arg_reduce_none pick nb Wnb Hp). left. rewrite An, D. reflexivity. }
    destruct (Nat.eq_dec (total_size sh l) 0) as [T|T].
    { apply NB. apply (arg_reduce_none pick nb Wnb Hp). right. now rewrite TZ. }
    rewrite (UE NE). destruct (points_none le pick nb F Wnb) as (rn & -> & _).
    { rewrite An. intros E. apply NE. now apply map_eq_nil in E. } { now rewrite TZ. }
    cbn [bind]. destruct (in_dec pair_dec (axis_distribution, 0) (op_shape (u_distribution u))) as [Z0|Z0].
    2:{ destruct NP. split; [now apply AR|]. split; auto. apply positive_total; auto. apply incl_refl. }
    assert (NS : ~ sortable db l) by (intros K; apply SD in K; auto).
    assert (C := proj2 (combined db l (fun c => r <- na_arg_reduce pick c (Some [x]) ;;
      match dget r x with Some v => d <- na_unravel_index v sh ;; Ok (dunion d (ddel r x)) | None => Err KeyError end) Wdb) NS). cbv zeta in C.
    rewrite (proj2 (forallb_smem l (s_axes db))) in C by (intros y Hy; now destruct (SZ y Hy) as (_ & ? & _)). cbn [negb] in C.
    assert (FA : flatten_axes l = Ok x) by (unfold x, l, flat_name; destruct sh; [contradiction|reflexivity]). rewrite FA in C. cbn [bind] in C.
    unfold BR. rewrite C. reflexivity.
  - intros (Ar & PT & Z0). assert (NE : sh <> []) by (intros E; destruct Ar as [A1 _]; apply A1; unfold l; now rewrite E).
    assert (T : total_size sh l <> 0) by (apply positive_total; auto; apply incl_refl).
    destruct (points_none le pick nb F Wnb) as (rn & En & Pn).
    { rewrite An. intros E. apply NE. now apply map_eq_nil in E. } { now rewrite TZ. }
    destruct (points_combined le pick db sh F Wdb (proj2 (SD NE) Z0) ltac:(now fold l; rewrite TD)) as (rd & Ed & Pd).
    { intros [ax n] Hn. apply MEM, in_app_iff. now left. }
    rewrite An in Pn.
    destruct (points_together le u sh nb db rn rd l W H Eb Ns (incl_refl _) Pn Pd) as (d & Em & R).
    exists d. split; [|exact R]. rewrite (UE NE), En. cbn [bind]. replace BR with (Ok rd) by (symmetry; exact Ed). exact Em.
Qed.
