(** Facts about sorting uncertain scalars. *)
From Coq Require Import String List Arith ZArith Bool Lia Permutation Sorted Ascii.
From Verif Require Import Base BaseFacts Numpy NumpyFacts Shapes Scalar Reorder Elementwise Reduce Along Sorting Uncertain UncertainSort
  Spec SpecUncertain SpecUncertainAlong SpecUncertainJoin SpecUncertainSort
  ShapesFacts AlignFacts GetitemFacts ReorderFacts ElementwiseFacts ReduceFacts AlongFacts SortingFacts RankdataFacts LinspaceFacts
  UncertainFacts UncertainIndexFacts UncertainAlongFacts UncertainJoinFacts UncertainFourierFacts.
Import ListNotations.
Open Scope nat_scope.
Open Scope list_scope.

(** ** The positions in a sorted index *)

(** What the index dictionary contains, for any function that gives positions in the line. *)
Lemma argsort_positions {A} (argsort1 : list A -> list nat) (a : sarr A) (l : list string) :
  wf a -> (forall x, length (argsort1 x) = length x) -> (forall x i, In i (argsort1 x) -> i < length x) -> sortable a l ->
  exists d r, na_argsort argsort1 a (Some l) = Ok d /\
     dkeys d = l ++ filter (fun ax => negb (smem ax l)) (s_axes a) /\
     (forall ax v, dget d ax = Some v -> wf v) /\
     getitem a (as_item d) = Ok r /\ wf r /\
     (forall ax n, In (ax, n) (sshape r) <->
        (In (ax, n) (sshape a) /\ ~ In ax l) \/ (ax = flat_name l /\ n = total_size (sshape a) l)) /\
     forall e i, inside_but e (sshape a) l -> i < total_size (sshape a) l ->
       exists e', inside e' (sshape a) /\ (forall ax, In ax (s_axes a) -> ~ In ax l -> e' ax = e ax) /\
         row_major (map (size_of (sshape a)) l) (map e' l) = nth i (argsort1 (map (at_ a) (fibre (sshape a) l e))) 0 /\
         forall ax, In ax (s_axes a) -> exists v, dget d ax = Some v /\ bat v (set_env e (flat_name l) i) = Z.of_nat (e' ax).
Proof.
  intros W Hl Hr H.
  set (K := fun c => p <- index_of (flat_name l) (s_axes c) ;;
      indices <- mk_sarr (np_along (fun n => n) (fun l i => Z.of_nat (nth i (argsort1 l) 0)) (s_nd c) p) (s_axes c) ;;
      d <- na_unravel_index indices (subshape (sshape a) l) ;;
      Ok (add_ranges (sshape a) (dkeys d) d)).
  destruct (combined a l K W) as [C1 C2].
  assert (E : na_argsort argsort1 a (Some l) =
    (if negb (forallb (fun ax => smem ax (s_axes a)) l) then Err ValueError
     else name <- flatten_axes l ;; c <- combine_axes a (Some l) (Some name) ;; K c)).
  { unfold na_argsort. destruct (negb _); auto. destruct l; reflexivity. }
  rewrite E. destruct (C1 H) as (c & Ec & ->). clear E C1 C2. unfold K.
  destruct H as (NE & N & I & HK).
  destruct (combine_axes_spec a l _ c W Ec) as (Wc & Ac & Sc & _).
  assert (Hin : In (flat_name l) (s_axes c)) by (rewrite Ac; apply in_app_iff; right; left; auto).
  unfold index_of. rewrite (sindex_In _ _ Hin). cbn [bind].
  destruct (along_named (fun n => n) (fun l i => Z.of_nat (nth i (argsort1 l) 0)) c _ Wc Hin) as (Wi & Si & Gi).
  rewrite mk_sarr_intro by (apply Wi). cbn [bind].
  set (ind := mkS _ (s_axes c)) in *.
  assert (Zc : size_of (sshape c) (flat_name l) = total_size (sshape a) l).
  { apply size_of_In; [now apply wf_nodup|]. apply Sc. auto. }
  assert (Si' : sshape ind = sshape c).
  { rewrite Si. apply resized_id. now apply wf_nodup. }
  assert (LL : forall e, length (map (at_ a) (fibre (sshape a) l e)) = total_size (sshape a) l).
  { intros e. rewrite map_length, fibre_length, total_size_prod by auto. reflexivity. }
  assert (IB : forall e, inside e (sshape c) -> inside_but e (sshape a) l).
  { intros e He ax n Hn Hl'. apply (He ax). apply Sc. auto. }
  assert (KS : dkeys (subshape (sshape a) l) = l).
  { rewrite subshape_keys by auto. unfold dkeys. rewrite map_map. apply map_id. }
  destruct (proj2 (unravel_index_success ind (subshape (sshape a) l) Wi ltac:(now rewrite KS))) as [d Hd].
  { split.
    - intros E. rewrite E in KS. cbn in KS. subst l. contradiction.
    - intros e He. rewrite Si' in He. rewrite Gi.
      rewrite (combine_axes_line a l _ c e W Ec (IB e He)).
      assert (T := total_size_sub a l W I).
      rewrite T. set (L := map (at_ a) (fibre (sshape a) l e)).
      assert (EI : e (flat_name l) < length (argsort1 L)).
      { rewrite Hl. unfold L. rewrite LL. apply (He (flat_name l)). apply Sc. auto. }
      assert (Q := Hr L _ (nth_In _ 0 EI)). unfold L in Q at 2. rewrite LL in Q. lia. }
  rewrite Hd. cbn [bind].
  assert (HK' : forall ax n, In (ax, n) (sshape a) -> ~ In ax l -> In (ax, n) (sshape ind)).
  { intros ax n H1 H2. rewrite Si'. apply Sc. auto. }
  destruct (index_dict a l ind d W N I NE Wi Hd HK') as (Kd & r & Hg & Wr & Sr & El).
  rewrite Kd. exists (add_ranges (sshape a) l d), r. split; auto. split.
  { rewrite add_ranges_eq; [|now apply wf_nodup|intros; congruence].
    unfold dkeys. rewrite map_app, map_map. cbn [fst]. f_equal; auto.
    rewrite <- (wf_keys a W). apply (dkeys_filter_fst (fun ax => negb (smem ax l))). }
  split.
  { intros ax v Hv. rewrite add_ranges_eq, dget_app in Hv by (try (now apply wf_nodup); intros; congruence).
    assert (NS : NoDup (dkeys (subshape (sshape a) l))) by (now rewrite KS).
    destruct (unravel_index_spec ind _ d Wi NS Hd) as (_ & Sd & _).
    destruct (dget d ax) as [v'|] eqn:Ev.
    - injection Hv as <-. apply (Sd ax v' Ev).
    - rewrite (dget_map_dict (fun k n => arange k n)) in Hv. destruct (dget _ ax) in Hv; [|discriminate]. injection Hv as <-. apply arange_wf. }
  split; auto. split; auto.
  split. { intros ax n. rewrite Sr, Si'. apply Sc. }
  intros e i He Hi. set (L := map (at_ a) (fibre (sshape a) l e)).
  assert (Hin' : inside (set_env e (flat_name l) i) (sshape ind)).
  { rewrite Si'. intros ax n Hn. apply Sc in Hn as [[Hn Hl']|[-> ->]].
    - unfold set_env. destruct (String.eqb_spec ax (flat_name l)) as [->|]; [|auto].
      destruct (HK _ _ Hn Hl'). congruence.
    - unfold set_env. now rewrite String.eqb_refl. }
  destruct (El _ Hin') as (e' & I1 & I2 & I3 & _ & I5). exists e'. split; [exact I1|]. split; [|split].
  - intros ax Hax Hnl. rewrite I2 by auto. unfold set_env. destruct (String.eqb_spec ax (flat_name l)) as [->|]; auto.
    assert (In (flat_name l, asize a (flat_name l)) (sshape a)) as Hf by (apply in_sshape; auto).
    destruct (HK _ _ Hf Hnl). congruence.
  - assert (LE : line c (flat_name l) (set_env e (flat_name l) i) = L).
    { rewrite line_set. apply combine_axes_line; auto. }
    rewrite Gi, LE in I3. unfold set_env in I3. rewrite String.eqb_refl in I3. now apply Nat2Z.inj in I3.
  - intros ax Hax. destruct (I5 ax Hax) as (v & V1 & _ & V2). eauto.
Qed.

(** ** Indexing another array with the same index *)

Lemma getitem_beside {A B} (a : sarr A) (b : sarr B) (d : dict (sarr Z)) r :
  wf a -> wf b -> NoDup (dkeys d) -> (forall ax v, dget d ax = Some v -> wf v) -> d <> [] ->
  (forall ax, In ax (dkeys d) <-> In ax (s_axes a)) -> (forall ax, In ax (s_axes a) -> In ax (s_axes b) /\ asize b ax = asize a ax) ->
  getitem a (as_item d) = Ok r -> (forall ax, In ax (s_axes b) -> ~ In ax (s_axes a) -> ~ In ax (dkeys (sshape r))) ->
  exists q, getitem b (as_item d) = Ok q /\ wf q /\
    (forall ax n, In (ax, n) (sshape q) <-> In (ax, n) (sshape r) \/ (In (ax, n) (sshape b) /\ ~ In ax (s_axes a))) /\
    forall e e', inside e (sshape q) -> (forall ax, In ax (s_axes a) -> exists v, dget d ax = Some v /\ bat v e = Z.of_nat (e' ax)) ->
      (forall ax, In ax (s_axes b) -> ~ In ax (s_axes a) -> e' ax = e ax) -> at_ q e = at_ b e'.
Proof.
  intros Wa Wb N Wv NE K S G X. set (it := as_item d) in *.
  assert (KI : dkeys it = dkeys d). { unfold it, as_item, dkeys. rewrite map_map. reflexivity. }
  assert (DI : forall ax, dget it ax = option_map ItArr (dget d ax)). { intros ax. unfold it, as_item. apply (dget_map_dict (fun _ v => ItArr v)). }
  assert (NI : NoDup (dkeys it)) by (now rewrite KI).
  assert (IW : Forall (fun kv => item_wf (snd kv)) it).
  { apply Forall_forall. intros kv Hkv. unfold it, as_item in Hkv. apply in_map_iff in Hkv as ([k v] & <- & Hkv). cbn. apply (Wv k). now apply dget_NoDup. }
  assert (Fa : filter (fun kv : string * item => smem (fst kv) (s_axes a)) it = it).
  { apply filter_all. intros kv Hkv. apply smem_In, K. rewrite <- KI. now apply (in_map fst) in Hkv. }
  assert (Fb : filter (fun kv : string * item => smem (fst kv) (s_axes b)) it = it).
  { apply filter_all. intros kv Hkv. apply smem_In. apply S, K. rewrite <- KI. now apply (in_map fst) in Hkv. }
  assert (Fg : filter (fun kv : string * item => get_advanced (snd kv)) it = it).
  { apply filter_all. intros kv Hkv. unfold it, as_item in Hkv. apply in_map_iff in Hkv as ([k v] & <- & Hkv). reflexivity. }
  assert (NI0 : it <> []) by (unfold it, as_item; destruct d; [contradiction|discriminate]).
  assert (GO := getitem_ok a it Wa NI IW r). rewrite Fa, Fg in GO. destruct (GO NI0 G) as (sa & SB & OK & Wr & Sr & _). clear GO.
  assert (Oa : others (s_axes a) (dkeys it) = []).
  { unfold others. apply filter_none. intros x Hx. rewrite negb_false_iff. apply smem_In. rewrite KI. now apply K. }
  rewrite Oa in Sr. cbn [map] in Sr. rewrite app_nil_r in Sr. subst sa.
  assert (Ob : forall ax, In ax (others (s_axes b) (dkeys it)) <-> In ax (s_axes b) /\ ~ In ax (s_axes a)).
  { intros ax. unfold others. rewrite filter_In, negb_true_iff, KI. rewrite <- K. split; intros [H1 H2]; split; auto; [now apply smem_false|now apply smem_false]. }
  assert (GI := getitem_intro b it Wb NI IW (sshape r)). rewrite Fb, Fg in GI. destruct (GI NI0 SB) as [q Hq].
  { intros ax Hax. destruct (in_dec string_dec ax (s_axes a)) as [Ha|Ha].
    - destruct (S ax Ha) as [_ ->]. now apply OK.
    - rewrite DI. destruct (dget d ax) as [v|] eqn:E; [|exact I]. destruct Ha. apply K. apply dget_Some_key. eauto. }
  { intros ax H1 H2. apply Ob in H2 as [H2 H3]. now apply (X ax). }
  exists q. split; auto.
  assert (GO := getitem_ok b it Wb NI IW q). rewrite Fb, Fg in GO. destruct (GO NI0 Hq) as (sa & SB' & OKb & Wq & Sq & El).
  assert (sa = sshape r) by congruence. subst sa. cbn beta in Sq.
  assert (None_ : forall ax, In ax (s_axes b) -> ~ In ax (s_axes a) -> dget it ax = None).
  { intros ax _ Ha. rewrite DI. destruct (dget d ax) as [v|] eqn:E; auto. destruct Ha. apply K. apply dget_Some_key. eauto. }
  assert (PA : forall n, GetitemFacts.positions slice_all n = seq 0 n) by (apply positions_slice_all).
  split; auto. split.
  { intros ax n. rewrite Sq, in_app_iff, in_map_iff. split.
    - intros [H|(x & E & H)]; auto. injection E as <- <-. apply Ob in H as [H1 H2]. right. split; auto.
      rewrite (None_ x H1 H2). cbn [item_slice]. rewrite PA, seq_length. now apply in_sshape.
    - intros [H|[H1 H2]]; auto. right. exists ax. assert (Hb : In ax (s_axes b)) by (rewrite <- (wf_keys b Wb); now apply (in_map fst) in H1).
      split; [|now apply Ob]. rewrite (None_ ax Hb H2). cbn [item_slice]. rewrite PA, seq_length. f_equal.
      unfold asize. now rewrite (dget_NoDup _ _ _ (wf_nodup b Wb) H1). }
  intros e e' He V U. rewrite El. apply at_ext. intros ax Hax. destruct (in_dec string_dec ax (s_axes a)) as [Ha|Ha].
  - destruct (V ax Ha) as (v & Ev & Zv). rewrite DI, Ev. cbn [option_map item_pos]. rewrite Zv. unfold znorm.
    destruct (Z.ltb_spec (Z.of_nat (e' ax)) 0); [lia|]. apply Nat2Z.id.
  - rewrite (None_ ax Hax Ha), (U ax Hax Ha). cbn [item_pos item_slice]. rewrite PA. apply seq_nth. apply (He ax). rewrite Sq. apply in_app_iff. right.
    apply in_map_iff. exists ax. split; [|now apply Ob]. rewrite (None_ ax Hax Ha). cbn [item_slice]. now rewrite PA, seq_length.
Qed.

(** ** The mean of the samples *)

Lemma dist_axis {A} (u : unc A) num : u_wf u -> In (axis_distribution, num) (op_shape (u_distribution u)) -> samples u = [(axis_distribution, num)].
Proof. intros (_ & Wd & _) H. unfold samples. now rewrite (dget_NoDup _ _ _ (op_shape_nodup _ Wd) H). Qed.

Lemma sample_means {A B} (mean : list A -> B) (u : unc A) sh nb db num : u_wf u -> u_shape u = Ok sh ->
  In (axis_distribution, num) (op_shape (u_distribution u)) -> u_broadcasted u = Ok (mkU (OpArr nb) (OpArr db)) ->
  exists m, na_reduce true mean db (Some [axis_distribution]) false None None = Ok m /\ wf m /\
    (forall ax n, In (ax, n) (sshape m) <-> In (ax, n) sh) /\ forall e, at_ m e = sample_mean mean u num e.
Proof.
  intros W H D Eb. destruct (broadcast_parts u sh W H) as (Ns & X & nb' & db' & Eb' & Wnb & Wdb & Sn & An & Vn & Vd & MEM & DG & _).
  rewrite Eb in Eb'. injection Eb' as <- <-. rewrite (dist_axis u num W D) in *.
  assert (Nd := wf_nodup db Wdb).
  assert (HD : In (axis_distribution, num) (sshape db)) by (apply MEM, in_app_iff; right; now left).
  assert (KD : In axis_distribution (dkeys (sshape db))) by (now apply (in_map fst) in HD).
  assert (R := reduce_spec true mean db (Some [axis_distribution]) false None Wdb ltac:(discriminate)). cbv zeta in R.
  replace (broadcast_shapes [sshape db]) with (Ok (sshape db)) in R.
  2:{ symmetry. apply (DerivedFacts.bs_covered (sshape db) []); auto. intros s []. }
  destruct R as [R _]. destruct R as (m & Em & Wm & Am & Sm & Vm).
  { split; [repeat constructor; auto|]. split; [intros x [<- |[]]; auto|]. split; [discriminate|auto]. }
  exists m. split; [exact Em|]. split; [exact Wm|]. split.
  - intros ax n. rewrite Sm, Am, filter_In, negb_true_iff. cbn [smem existsb]. rewrite orb_false_r. split.
    + intros [[H1 H2] ->]. rewrite H2. apply key_size in H1 as [n Hn]. rewrite (size_of_In _ ax n Nd Hn). apply MEM, in_app_iff in Hn as [Hn|[Hn|[]]]; auto.
      injection Hn as <- <-. rewrite String.eqb_refl in H2. discriminate.
    + intros Hn. assert (ax <> axis_distribution) as Hx. { intros ->. apply X. now apply (in_map fst) in Hn. }
      apply String.eqb_neq in Hx. rewrite Hx. assert (Hd : In (ax, n) (sshape db)) by (apply MEM, in_app_iff; auto).
      split; [split; auto; now apply (in_map fst) in Hd|]. symmetry. now apply size_of_In.
  - intros e. rewrite Vm. unfold sample_mean. f_equal. rewrite filter_all by auto.
    assert (FK : filter (fun ax => smem ax [axis_distribution]) (dkeys (sshape db)) = [axis_distribution]).
    { clear - Nd KD. induction (dkeys (sshape db)) as [|x l IH]; [destruct KD|]. inversion Nd; subst. cbn [filter smem existsb]. rewrite orb_false_r.
      destruct (String.eqb_spec x axis_distribution) as [->|NE].
      - f_equal. apply filter_none. intros y Hy. cbn [smem existsb]. rewrite orb_false_r. apply String.eqb_neq. intros ->. contradiction.
      - destruct KD; [congruence|]. now apply IH. }
    rewrite FK. cbn [fibre]. rewrite (size_of_In _ _ _ Nd HD). rewrite flat_map_concat_map.
    generalize (seq 0 num). intros q. induction q as [|k q IH]; auto. cbn [map concat app]. rewrite Vd. f_equal. exact IH.
Qed.

Lemma no_samples {A B} (mean : list A -> B) argsort1 (u : unc A) sh axis : u_wf u -> u_shape u = Ok sh ->
  ~ In axis_distribution (dkeys (op_shape (u_distribution u))) -> u_argsort mean argsort1 u axis = Err ValueError.
Proof.
  intros W H D. destruct (broadcast_parts u sh W H) as (Ns & X & nb & db & Eb & Wnb & Wdb & Sn & An & Vn & Vd & MEM & DG & _).
  unfold u_argsort. rewrite Eb. cbn [bind u_distribution normalize].
  assert (R := reduce_spec true mean db (Some [axis_distribution]) false None Wdb ltac:(discriminate)). cbv zeta in R.
  replace (broadcast_shapes [sshape db]) with (Ok (sshape db)) in R.
  2:{ symmetry. apply (DerivedFacts.bs_covered (sshape db) []); [now apply wf_nodup|intros s []]. }
  destruct R as [_ R]. rewrite R; [reflexivity|]. intros (_ & I & _). specialize (I axis_distribution (or_introl eq_refl)).
  apply key_size in I as [n Hn]. apply MEM, in_app_iff in Hn as [Hn|Hn]; [apply X; now apply (in_map fst) in Hn|].
  apply (samples_in u _ _ W) in Hn as [_ Hn]. apply D. now apply (in_map fst) in Hn.
Qed.

(** ** A broadcast array *)

Lemma broadcast_again {A} (u : unc A) sh nb db : u_wf u -> u_shape u = Ok sh -> u_broadcasted u = Ok (mkU (OpArr nb) (OpArr db)) ->
  let b := mkU (OpArr nb) (OpArr db) in
  u_wf b /\ (forall w e, u_at (Uncertain b) w e = u_at (Uncertain u) w e) /\ samples b = samples u /\
  exists sh', u_shape b = Ok sh' /\ forall ax n, In (ax, n) sh' <-> In (ax, n) sh.
Proof.
  intros W H Eb b. destruct (broadcast_parts u sh W H) as (Ns & X & nb' & db' & Eb' & Wnb & Wdb & Sn & An & Vn & Vd & MEM & DG & _).
  rewrite Eb in Eb'. injection Eb' as <- <-. pose proof W as (Wn & Wd & Wx).
  assert (Wb : u_wf b). { split; [exact Wnb|]. split; [exact Wdb|]. cbn [b u_nominal op_shape]. now rewrite Sn. }
  split; [exact Wb|]. split.
  { intros w e. destruct w as [k|]; cbn [u_at b u_nominal u_distribution op_at].
    - apply clamped; auto. intros ax n Hn. destruct (parts_fit u sh (Some 0) W H ax n Hn) as (m & Hm & C). exists m. split; auto. now apply MEM.
    - apply clamped; auto. intros ax n Hn. destruct (parts_fit u sh None W H ax n Hn) as (m & Hm & C). exists m. split; auto. now rewrite Sn. }
  assert (Ss : samples b = samples u).
  { unfold samples at 1. cbn [b u_distribution op_shape]. rewrite DG, dget_app. rewrite (proj2 (dget_None _ _) X).
    unfold samples. destruct (dget (op_shape (u_distribution u)) axis_distribution); [|reflexivity]. cbn [dget]. now rewrite String.eqb_refl. }
  split; [exact Ss|].
  assert (At : attained [sshape nb; sshape db] (sshape db)).
  { split.
    - intros s [<- |[<- |[]]]; (split; [now apply wf_nodup|]).
      + intros ax n Hn. rewrite Sn in Hn. assert (Hd : In (ax, n) (sshape db)) by (apply MEM, in_app_iff; auto). split; [now apply (in_map fst) in Hd|auto].
      + intros ax n Hn. split; [now apply (in_map fst) in Hn|auto].
    - intros ax n Hn. exists (sshape db). split; auto. right. now left. }
  destruct (bs_attained _ _ (wf_nodup db Wdb) At) as (sd & E & Nsd & SS).
  exists (ddel sd axis_distribution). split.
  { unfold u_shape, u_shape_distribution, shape_broadcasted. cbn [b u_nominal u_distribution]. unfold op_shapes. cbn [flat_map app]. now rewrite E. }
  intros ax n. rewrite in_ddel by auto. rewrite (SS ax n), MEM, in_app_iff, (samples_in u ax n W). split.
  - intros [[Hn|[-> _]] Hx]; auto. contradiction.
  - intros Hn. split; auto. intros ->. apply X. now apply (in_map fst) in Hn.
Qed.

(** ** The name of combined axes *)

Fixpoint has_star (s : string) : bool :=
  match s with EmptyString => false | String c s' => Ascii.eqb c "*" || has_star s' end.

Lemma star_append s t : has_star (append s t) = has_star s || has_star t.
Proof. induction s as [|c s IH]; cbn [append has_star]; auto. now rewrite IH, orb_assoc. Qed.

Lemma flat_not_samples l : l <> [] -> ~ In axis_distribution l -> flat_name l <> axis_distribution.
Proof.
  intros NE H E. destruct l as [|x [|y l]]; [contradiction|cbn in E; subst; apply H; now left|].
  assert (S : has_star (flat_name (x :: y :: l)) = true).
  { unfold flat_name. change (String.concat "*" (x :: y :: l)) with (append x (append "*" (String.concat "*" (y :: l)))).
    rewrite !star_append. cbn [has_star]. now rewrite orb_true_r. }
  rewrite E in S. discriminate.
Qed.

(** ** The index that sorts the means *)

Lemma total_size_dget (s t : shape) l : (forall x, dget s x = dget t x) -> total_size s l = total_size t l.
Proof. intros H. unfold total_size. induction l as [|x l IH]; auto. cbn [fold_right]. now rewrite IH, H. Qed.

Lemma argsort_core {A B} (mean : list A -> B) argsort1 (u : unc A) sh num l : u_wf u -> u_shape u = Ok sh ->
  In (axis_distribution, num) (op_shape (u_distribution u)) ->
  (forall x, length (argsort1 x) = length x) -> (forall x i, In i (argsort1 x) -> i < length x) ->
  (~ arrangeable sh l -> u_argsort mean argsort1 u (Some l) = Err ValueError) /\
  (arrangeable sh l -> exists d (m r : sarr B), u_argsort mean argsort1 u (Some l) = Ok d /\ wf m /\ (forall ax n, In (ax, n) (sshape m) <-> In (ax, n) sh) /\
     NoDup (dkeys d) /\ (forall ax, In ax (dkeys d) <-> In ax (dkeys sh)) /\ (forall ax v, dget d ax = Some v -> wf v) /\
     getitem m (as_item d) = Ok r /\ wf r /\
     (forall ax n, In (ax, n) (sshape r) <-> (In (ax, n) sh /\ ~ In ax l) \/ (ax = flat_name l /\ n = total_size sh l)) /\
     forall e i, inside_but e sh l -> i < total_size sh l ->
       exists e', inside e' sh /\ (forall ax, In ax (dkeys sh) -> ~ In ax l -> e' ax = e ax) /\
         row_major (map (size_of sh) l) (map e' l) = nth i (argsort1 (map (sample_mean mean u num) (fibre sh l e))) 0 /\
         forall ax, In ax (dkeys sh) -> exists v, dget d ax = Some v /\ bat v (set_env e (flat_name l) i) = Z.of_nat (e' ax)).
Proof.
  intros W H D Hl Hr. destruct (broadcast_parts u sh W H) as (Ns & X & nb & db & Eb & _).
  destruct (sample_means mean u sh nb db num W H D Eb) as (m & Em & Wm & Sm & Vm).
  assert (DG : forall x, dget (sshape m) x = dget sh x) by (apply same_dget; auto; now apply wf_nodup).
  assert (KM : forall x, In x (s_axes m) <-> In x (dkeys sh)).
  { intros x. rewrite <- (wf_keys m Wm). split; intros K; apply key_size in K as [n K]; apply Sm in K; now apply (in_map fst) in K. }
  assert (SO : sortable m l <-> arrangeable sh l).
  { unfold sortable, arrangeable. split; intros (A1 & A2 & A3 & A4); (split; [auto|]); (split; [auto|]); split.
    - intros x Hx. now apply KM, A3.
    - intros ax n Hn. apply A4. now apply Sm.
    - intros x Hx. now apply KM, A3.
    - intros ax n Hn. apply A4. now apply Sm. }
  assert (SZ : forall x, size_of (sshape m) x = size_of sh x) by (intros x; unfold size_of; now rewrite DG).
  assert (FB : forall e, fibre (sshape m) l e = fibre sh l e) by (intros e; apply fibre_ext; auto).
  assert (TS : total_size (sshape m) l = total_size sh l) by (now apply total_size_dget).
  assert (UE : u_argsort mean argsort1 u (Some l) = na_argsort argsort1 m (Some l)).
  { unfold u_argsort. rewrite Eb. cbn [bind u_distribution normalize]. now rewrite Em. }
  split.
  - intros NA. rewrite UE. apply (argsort_spec argsort1 m l Wm Hl Hr). now rewrite SO.
  - intros Ar. destruct (argsort_positions argsort1 m l Wm Hl Hr (proj2 SO Ar)) as (d & r & Ed & Kd & Vd & Gr & Wr & Sr & Pos).
    exists d, m, r. split; [now rewrite UE|]. split; [exact Wm|]. split; [exact Sm|]. destruct Ar as (NE & Nl & Il & Hk). split.
    { rewrite Kd. apply NoDup_app_intro; auto; [apply NoDup_filter; apply Wm|].
      intros x Hx Hf. apply filter_In in Hf as [_ Hf]. apply smem_In in Hx. rewrite Hx in Hf. discriminate. }
    split.
    { intros ax. rewrite Kd, in_app_iff, filter_In, KM, negb_true_iff. split; [intros [K|[K _]]; auto|].
      intros K. destruct (in_dec string_dec ax l); [auto|right]. split; auto. now apply smem_false. }
    split; [exact Vd|]. split; [exact Gr|]. split; [exact Wr|]. split.
    { intros ax n. rewrite Sr, Sm, TS. reflexivity. }
    intros e i He Hi. destruct (Pos e i) as (e' & I1 & I2 & I3 & I4).
    { intros ax n Hn. apply He. now apply Sm. } { now rewrite TS. }
    exists e'. split. { intros ax n Hn. apply I1. now apply Sm. } split. { intros ax Hax. apply I2. now apply KM. } split.
    { rewrite (map_ext _ _ SZ) in I3. rewrite FB in I3. rewrite I3. f_equal. f_equal. now apply map_ext. }
    intros ax Hax. apply I4. now apply KM.
Qed.

(** ** Sorting *)

Lemma fibre_world (sh : shape) {B} (g : env -> B) d k l : respects g -> ~ In d l -> forall e e2, (forall y, e2 y = set_env e d k y) ->
  map (fun e1 => g (set_env e1 d k)) (fibre sh l e) = map g (fibre sh l e2).
Proof.
  intros R. induction l as [|x l IH]; intros H e e2 E; cbn [fibre].
  - cbn [map]. f_equal. apply R. intros y. now rewrite E.
  - rewrite !flat_map_concat_map, !concat_map, !map_map. f_equal. apply map_ext. intros i. apply IH; [intros K; apply H; now right|].
    intros y. unfold set_env in *. destruct (String.eqb_spec y x) as [->|NE].
    + destruct (String.eqb_spec x d) as [->|]; auto. destruct H. now left.
    + rewrite E. destruct (String.eqb_spec y d); auto.
Qed.

Lemma sort_core {A B} (mean : list A -> B) argsort1 (u : unc A) sh num l : u_wf u -> u_shape u = Ok sh ->
  In (axis_distribution, num) (op_shape (u_distribution u)) ->
  (forall x, length (argsort1 x) = length x) -> (forall x i, In i (argsort1 x) -> i < length x) ->
  (~ arrangeable sh l -> u_sort mean argsort1 u (Some l) = Err ValueError) /\
  (arrangeable sh l -> exists n d, let r := mkU (OpArr n) (OpArr d) in u_sort mean argsort1 u (Some l) = Ok r /\ u_wf r /\
     (forall w ax k, In (ax, k) (op_shape (u_part r w)) <->
        (In (ax, k) (full_shape w (Uncertain u, sh)) /\ ~ In ax l) \/ (ax = flat_name l /\ k = total_size sh l)) /\
     forall e w, inside_but e sh l -> world num w ->
       map Some (u_run (Uncertain r) w (flat_name l) (total_size sh l) e) =
       map (nth_error (map (u_at (Uncertain u) w) (fibre sh l e))) (argsort1 (map (sample_mean mean u num) (fibre sh l e)))).
Proof.
  intros W H D Hl Hr. destruct (broadcast_parts u sh W H) as (Ns & X & nb & db & Eb & Wnb & Wdb & Sn & An & Vn & Vd & MEM & DG & SZ).
  destruct (broadcast_again u sh nb db W H Eb) as (Wb & Ub & Sb & sh' & H' & SS). set (b := mkU (OpArr nb) (OpArr db)) in *.
  assert (SD := dist_axis u num W D). rewrite SD in *.
  assert (D' : In (axis_distribution, num) (op_shape (u_distribution b))).
  { apply (samples_in b axis_distribution num Wb). rewrite Sb. now left. }
  destruct (broadcast_parts b sh' Wb H') as (Ns' & X' & _).
  assert (DS : forall x, dget sh' x = dget sh x) by (apply same_dget; auto).
  assert (KS : forall x, In x (dkeys sh') <-> In x (dkeys sh)).
  { intros x. split; intros K; apply key_size in K as [n K]; apply SS in K; now apply (in_map fst) in K. }
  assert (SZ' : forall x, size_of sh' x = size_of sh x) by (intros x; unfold size_of; now rewrite DS).
  assert (FB : forall e, fibre sh' l e = fibre sh l e) by (intros e; apply fibre_ext; auto).
  assert (TS : total_size sh' l = total_size sh l) by (now apply total_size_dget).
  assert (SM : forall e, sample_mean mean b num e = sample_mean mean u num e).
  { intros e. unfold sample_mean. f_equal. apply map_ext. intros k. apply Ub. }
  assert (AR : arrangeable sh' l <-> arrangeable sh l).
  { unfold arrangeable. split; intros (A1 & A2 & A3 & A4); (split; [auto|]); (split; [auto|]); split.
    - intros x Hx. now apply KS, A3.
    - intros ax n Hn. apply A4. now apply SS.
    - intros x Hx. now apply KS, A3.
    - intros ax n Hn. apply A4. now apply SS. }
  destruct (argsort_core mean argsort1 b sh' num l Wb H' D' Hl Hr) as [E1 E2].
  assert (UE : u_sort mean argsort1 u (Some l) = (indices <- u_argsort mean argsort1 b (Some l) ;;
    n <- getitem nb (as_item indices) ;; d <- getitem db (as_item indices) ;; mk_unc (OpArr n) (OpArr d))).
  { unfold u_sort. rewrite Eb. reflexivity. }
  split. { intros NA. rewrite UE, E1; [reflexivity|now rewrite AR]. }
  intros Ar. destruct (E2 (proj2 AR Ar)) as (D0 & m & r & Ed & Wm & Sm & Nd & Kd & Vv & Gr & Wr & Sr & Pos). clear E1 E2.
  pose proof Ar as (NE & Nl & Il & Hk).
  assert (KM : forall x, In x (s_axes m) <-> In x (dkeys sh)).
  { intros x. rewrite <- (wf_keys m Wm), <- KS. split; intros K; apply key_size in K as [n K]; apply Sm in K; now apply (in_map fst) in K. }
  assert (Nm := wf_nodup m Wm).
  assert (SM' : forall x, asize m x = size_of sh x).
  { intros x. unfold asize, size_of. rewrite <- DS, (same_dget (sshape m) sh') by auto. reflexivity. }
  assert (Nx : ~ In axis_distribution l) by (intros K; apply X; now apply Il).
  assert (FN := flat_not_samples l NE Nx).
  assert (D0n : D0 <> []). { intros ->. destruct l as [|x l']; [contradiction|]. assert (K : In x (dkeys sh')) by (apply KS, Il; now left). now apply Kd in K. }
  assert (Sr' : forall ax n, In (ax, n) (sshape r) <-> (In (ax, n) sh /\ ~ In ax l) \/ (ax = flat_name l /\ n = total_size sh l)).
  { intros ax n. now rewrite Sr, SS, TS. }
  assert (XR : ~ In axis_distribution (dkeys (sshape r))).
  { intros K. apply key_size in K as [n K]. apply Sr' in K as [[K _]|[K _]]; [apply X; now apply (in_map fst) in K|now apply FN]. }
  assert (Kd' : forall ax, In ax (dkeys D0) <-> In ax (s_axes m)) by (intros ax; now rewrite Kd, KS, KM).
  assert (Kdb : forall ax, In ax (s_axes db) <-> In ax (dkeys sh) \/ ax = axis_distribution).
  { intros ax. rewrite <- (wf_keys db Wdb). split.
    - intros K. apply key_size in K as [n K]. apply MEM, in_app_iff in K as [K|[K|[]]]; [left; now apply (in_map fst) in K|right; congruence].
    - intros [K| ->].
      + apply key_size in K as [n K]. assert (Q : In (ax, n) (sshape db)) by (apply MEM, in_app_iff; auto). now apply (in_map fst) in Q.
      + assert (Q : In (axis_distribution, num) (sshape db)) by (apply MEM, in_app_iff; right; now left). now apply (in_map fst) in Q. }
  destruct (getitem_beside m nb D0 r Wm Wnb Nd Vv D0n Kd') as (qn & Gn & Wqn & Sqn & Vqn).
  { intros ax Hax. rewrite An. split; [now apply KM|]. rewrite SM'. unfold asize, size_of. now rewrite Sn. }
  { exact Gr. }
  { intros ax H1 H2. rewrite An in H1. destruct H2. now apply KM. }
  destruct (getitem_beside m db D0 r Wm Wdb Nd Vv D0n Kd') as (qd & Gd & Wqd & Sqd & Vqd).
  { intros ax Hax. apply KM in Hax. split; [apply Kdb; auto|]. rewrite SM'. destruct (SZ ax Hax) as (_ & _ & Z). exact Z. }
  { exact Gr. }
  { intros ax H1 H2. apply Kdb in H1 as [H1|H1]; [destruct H2; now apply KM|]. now rewrite H1. }
  assert (Sqn' : forall ax n, In (ax, n) (sshape qn) <-> (In (ax, n) sh /\ ~ In ax l) \/ (ax = flat_name l /\ n = total_size sh l)).
  { intros ax n. rewrite Sqn, Sr'. split; auto. intros [K|[K1 K2]]; auto. destruct K2. apply KM. rewrite Sn in K1. now apply (in_map fst) in K1. }
  assert (Sqd' : forall ax n, In (ax, n) (sshape qd) <-> (In (ax, n) (sh ++ [(axis_distribution, num)]) /\ ~ In ax l) \/ (ax = flat_name l /\ n = total_size sh l)).
  { intros ax n. rewrite Sqd, Sr', MEM. rewrite in_app_iff. split.
    - intros [[[K1 K2]|K]|[[K1|K1] K2]]; auto.
      + destruct K2. apply KM. now apply (in_map fst) in K1.
      + left. split; auto. destruct K1 as [K1|[]]. injection K1 as <- <-. exact Nx.
    - intros [[[K1|K1] K2]|K]; auto. right. split; auto. destruct K1 as [K1|[]]. injection K1 as <- <-. intros K. apply X. now apply KM. }
  exists qn, qd. cbv zeta. split.
  { rewrite UE, Ed. cbn [bind]. rewrite Gn. cbn [bind]. rewrite Gd. cbn [bind]. apply mk_unc_intro. cbn [op_shape].
    intros K. apply key_size in K as [n K]. apply Sqn' in K as [[K _]|[K _]]; [apply X; now apply (in_map fst) in K|now apply FN]. }
  split.
  { split; [exact Wqn|]. split; [exact Wqd|]. cbn [u_nominal op_shape].
    intros K. apply key_size in K as [n K]. apply Sqn' in K as [[K _]|[K _]]; [apply X; now apply (in_map fst) in K|now apply FN]. }
  split.
  { intros w ax k. destruct w as [w|]; cbn [u_part op_shape u_nominal u_distribution full_shape fst snd]; [|apply Sqn']. rewrite Sqd'.
    replace (samples (mkU (nominal_of (Uncertain u)) (distribution_of (Uncertain u)))) with [(axis_distribution, num)] by (symmetry; exact SD). reflexivity. }
  intros e w He Hw. set (Ms := map (sample_mean mean u num) (fibre sh l e)).
  assert (LM : length Ms = total_size sh l).
  { unfold Ms. rewrite map_length, fibre_length, <- Sn, total_size_prod; auto. rewrite An. exact Il. }
  unfold u_run. apply nth_error_ext. intros i. rewrite !nth_error_map, seq_nth_error. cbn [plus].
  destruct (Nat.ltb_spec i (total_size sh l)) as [Hi|Hi]; cbn [option_map].
  2:{ symmetry. rewrite (proj2 (nth_error_None _ _)); auto. now rewrite Hl, LM. }
  rewrite (nth_error_nth' _ 0) by (now rewrite Hl, LM). cbn [option_map]. f_equal.
  assert (MW : map (sample_mean mean u num) (fibre sh l (in_world w e)) = Ms).
  { destruct w as [k|]; [|reflexivity]. cbn [in_world].
    assert (RS : respects (sample_mean mean u num)).
    { intros e1 e2 E12. unfold sample_mean. f_equal. apply map_ext. intros j. cbn [u_at]. apply ReduceFacts.op_at_respects. intros y. unfold set_env. now rewrite E12. }
    rewrite <- (fibre_world sh (sample_mean mean u num) axis_distribution k l RS Nx e _ ltac:(reflexivity)). apply map_ext. intros e1.
    unfold sample_mean. f_equal. apply map_ext. intros j. cbn [u_at]. apply ReduceFacts.op_at_respects. intros y. unfold set_env.
    now destruct (String.eqb y axis_distribution). }
  destruct (Pos (in_world w e) i) as (e' & I1 & I2 & I3 & I4).
  { intros ax n Hn. apply SS in Hn. intros Hnl. replace (in_world w e ax) with (e ax); [now apply (He ax)|].
    destruct w as [k|]; [|reflexivity]. cbn [in_world]. rewrite set_env_other; auto. intros ->. apply X. now apply (in_map fst) in Hn. }
  { now rewrite TS. }
  rewrite FB, (map_ext _ _ SM), (map_ext _ _ SZ'), MW in I3. rewrite <- I3.
  assert (Le : forall ax, In ax l -> e' ax < size_of sh ax).
  { intros ax Hax. assert (K := Il ax Hax). apply key_size in K as [n K]. rewrite (size_of_In sh ax n Ns K). apply (I1 ax). now apply SS. }
  destruct w as [k|]; cbn [world] in Hw; cbn [u_at u_nominal u_distribution op_at].
  - rewrite bat_inside; [|exact Wqd|].
    2:{ intros ax n Hn. apply Sqd' in Hn as [[Hn Hnl]|[-> ->]].
        - apply in_app_iff in Hn as [Hn|[Hn|[]]].
          + unfold set_env. destruct (String.eqb_spec ax axis_distribution) as [Ex|_]; [destruct X; rewrite <- Ex; now apply (in_map fst) in Hn|].
            destruct (String.eqb_spec ax (flat_name l)) as [Ex|_]; [destruct (Hk ax n Hn Hnl); contradiction|]. now apply (He ax).
          + injection Hn as <- <-. unfold set_env. now rewrite String.eqb_refl.
        - unfold set_env. destruct (String.eqb_spec (flat_name l) axis_distribution); [contradiction|]. now rewrite String.eqb_refl. }
    rewrite (Vqd _ (set_env e' axis_distribution k)).
    + rewrite Vd. change (u_at (Uncertain u) (Some k)) with (fun e1 => op_at (u_distribution u) (set_env e1 axis_distribution k)).
      rewrite (fibre_world sh (op_at (u_distribution u)) axis_distribution k l (ReduceFacts.op_at_respects _) Nx e (set_env e axis_distribution k) ltac:(reflexivity)).
      rewrite <- (map_ext _ _ Vd), <- Vd.
      assert (ZB : forall x, In x l -> size_of (sshape db) x = size_of sh x).
      { intros x Hx. now destruct (SZ x (Il x Hx)) as (_ & _ & ->). }
      rewrite <- (fibre_ext (sshape db) sh l _ ZB).
      replace (map (size_of sh) l) with (map (size_of (sshape db)) l) by (apply map_ext_in; auto).
      replace (map e' l) with (map (set_env e' axis_distribution k) l)
        by (apply map_ext_in; intros x Hx; unfold set_env; destruct (String.eqb_spec x axis_distribution); [congruence|reflexivity]).
      symmetry. apply (fibre_nth db l); auto.
      * intros ax Hax. rewrite ZB by auto. unfold set_env. destruct (String.eqb_spec ax axis_distribution); [congruence|auto].
      * intros ax Hax Hnl. unfold set_env. destruct (String.eqb_spec ax axis_distribution) as [|Hx]; auto. apply Kdb in Hax as [Hax|Hax]; [|contradiction].
        rewrite I2; [|now apply KS|exact Hnl]. cbn [in_world]. rewrite set_env_other; auto.
    + intros ax n Hn. apply Sqd' in Hn as [[Hn Hnl]|[-> ->]].
      * apply in_app_iff in Hn as [Hn|[Hn|[]]].
        -- unfold set_env. destruct (String.eqb_spec ax axis_distribution) as [Ex|_]; [destruct X; rewrite <- Ex; now apply (in_map fst) in Hn|].
           destruct (String.eqb_spec ax (flat_name l)) as [Ex|_]; [destruct (Hk ax n Hn Hnl); contradiction|]. now apply (He ax).
        -- injection Hn as <- <-. unfold set_env. now rewrite String.eqb_refl.
      * unfold set_env. destruct (String.eqb_spec (flat_name l) axis_distribution); [contradiction|]. now rewrite String.eqb_refl.
    + intros ax Hax. apply KM in Hax. assert (Hax' := proj2 (KS ax) Hax). destruct (I4 ax Hax') as (v & V1 & V2). exists v. split; auto.
      rewrite set_env_other by (intros ->; contradiction). rewrite <- V2. apply (ReduceFacts.op_at_respects (OpArr v)). intros y. cbn [in_world]. unfold set_env.
      destruct (String.eqb_spec y axis_distribution) as [->|]; auto. destruct (String.eqb_spec axis_distribution (flat_name l)); [congruence|reflexivity].
    + intros ax Hax Hm. apply Kdb in Hax as [Hax|Hax]; [destruct Hm; now apply KM|]. rewrite Hax. unfold set_env. now rewrite String.eqb_refl.
  - rewrite bat_inside; [|exact Wqn|].
    2:{ intros ax n Hn. apply Sqn' in Hn as [[Hn Hnl]|[-> ->]].
        - unfold set_env. destruct (String.eqb_spec ax (flat_name l)) as [Ex|_]; [destruct (Hk ax n Hn Hnl); contradiction|]. now apply (He ax).
        - unfold set_env. now rewrite String.eqb_refl. }
    rewrite (Vqn _ e').
    + rewrite Vn. change (u_at (Uncertain u) None) with (op_at (u_nominal u)). rewrite <- (map_ext _ _ Vn), <- Vn. rewrite <- Sn. symmetry. apply (fibre_nth nb l); auto.
      * intros ax Hax. rewrite Sn. auto.
      * intros ax Hax Hnl. apply I2; auto. apply KS. now rewrite <- An.
    + intros ax n Hn. apply Sqn' in Hn as [[Hn Hnl]|[-> ->]].
      * unfold set_env. destruct (String.eqb_spec ax (flat_name l)) as [Ex|_]; [destruct (Hk ax n Hn Hnl); contradiction|]. now apply (He ax).
      * unfold set_env. now rewrite String.eqb_refl.
    + intros ax Hax. apply I4. now apply KS, KM.
    + intros ax Hax Hm. destruct Hm. apply KM. now rewrite <- An.
Qed.

(** ** The properties *)

Lemma argsorts_order {A} (le : A -> A -> Prop) argsort1 l : argsorts le argsort1 -> order_of le l (argsort1 l).
Proof. intros H. apply H. Qed.

Lemma argsorts_range {A} (le : A -> A -> Prop) argsort1 : argsorts le argsort1 -> forall l i, In i (argsort1 l) -> i < length l.
Proof.
  intros H l i Hi. destruct (H l) as [P _]. apply Permutation_sym in P. apply (Permutation_in _ P) in Hi. apply in_seq in Hi. lia.
Qed.

Theorem u_argsort_spec {A B} (le : B -> B -> Prop) (mean : list A -> B) argsort1 (u : unc A) sh num l :
  argsorts le argsort1 -> u_wf u -> u_shape u = Ok sh -> In (axis_distribution, num) (op_shape (u_distribution u)) ->
  (~ arrangeable sh l -> u_argsort mean argsort1 u (Some l) = Err ValueError) /\
  (arrangeable sh l -> exists d, u_argsort mean argsort1 u (Some l) = Ok d /\
     NoDup (dkeys d) /\ (forall ax, In ax (dkeys d) <-> In ax (dkeys sh)) /\
     forall e, inside_but e sh l -> exists p, order_of le (map (sample_mean mean u num) (fibre sh l e)) p /\
       forall i, i < total_size sh l -> exists e', inside e' sh /\ (forall ax, In ax (dkeys sh) -> ~ In ax l -> e' ax = e ax) /\
         nth_error p i = Some (row_major (map (size_of sh) l) (map e' l)) /\
         forall ax, In ax (dkeys sh) -> exists v, dget d ax = Some v /\ op_at (OpArr v) (set_env e (flat_name l) i) = Z.of_nat (e' ax)).
Proof.
  intros HA W H D. destruct (broadcast_parts u sh W H) as (Ns & X & nb & db & Eb & Wnb & _ & Sn & An & _).
  assert (Hl := argsorts_length le argsort1 HA). assert (Hr := argsorts_range le argsort1 HA).
  destruct (argsort_core mean argsort1 u sh num l W H D Hl Hr) as [E1 E2]. split; [exact E1|].
  intros Ar. destruct (E2 Ar) as (d & m & r & Ed & _ & _ & Nd & Kd & _ & _ & _ & _ & Pos). exists d. split; [exact Ed|]. split; [exact Nd|]. split; [exact Kd|].
  intros e He. exists (argsort1 (map (sample_mean mean u num) (fibre sh l e))). split; [now apply argsorts_order|].
  intros i Hi. destruct (Pos e i He Hi) as (e' & I1 & I2 & I3 & I4). exists e'. split; [exact I1|]. split; [exact I2|]. split; [|exact I4].
  rewrite I3. apply nth_error_nth'. rewrite Hl, map_length, fibre_length. destruct Ar as (_ & _ & Il & _).
  rewrite <- Sn. change (map (size_of (sshape nb)) l) with (map (asize nb) l). rewrite <- total_size_prod; auto; [now rewrite Sn|now rewrite An].
Qed.

Theorem u_sort_spec {A B} (le : B -> B -> Prop) (mean : list A -> B) argsort1 (u : unc A) sh num l :
  argsorts le argsort1 -> u_wf u -> u_shape u = Ok sh -> In (axis_distribution, num) (op_shape (u_distribution u)) ->
  (~ arrangeable sh l -> u_sort mean argsort1 u (Some l) = Err ValueError) /\
  (arrangeable sh l -> exists n d, let r := mkU (OpArr n) (OpArr d) in u_sort mean argsort1 u (Some l) = Ok r /\ u_wf r /\
     (forall w ax k, In (ax, k) (op_shape (u_part r w)) <->
        (In (ax, k) (full_shape w (Uncertain u, sh)) /\ ~ In ax l) \/ (ax = flat_name l /\ k = total_size sh l)) /\
     forall e, inside_but e sh l -> exists p, order_of le (map (sample_mean mean u num) (fibre sh l e)) p /\
       forall w, world num w -> map Some (u_run (Uncertain r) w (flat_name l) (total_size sh l) e) =
                                map (nth_error (map (u_at (Uncertain u) w) (fibre sh l e))) p).
Proof.
  intros HA W H D.
  destruct (sort_core mean argsort1 u sh num l W H D (argsorts_length le argsort1 HA) (argsorts_range le argsort1 HA)) as [E1 E2]. split; [exact E1|].
  intros Ar. destruct (E2 Ar) as (n & d & Es & Wr & Sr & V). exists n, d. cbv zeta. split; [exact Es|]. split; [exact Wr|]. split; [exact Sr|].
  intros e He. exists (argsort1 (map (sample_mean mean u num) (fibre sh l e))). split; [now apply argsorts_order|]. intros w Hw. now apply V.
Qed.

Theorem u_sort_certain {A B} (mean : list A -> B) argsort1 (u : unc A) sh axis :
  u_wf u -> u_shape u = Ok sh -> ~ In axis_distribution (dkeys (op_shape (u_distribution u))) ->
  u_argsort mean argsort1 u axis = Err ValueError /\ u_sort mean argsort1 u axis = Err ValueError.
Proof.
  intros W H D. split; [exact (no_samples mean argsort1 u sh axis W H D)|].
  destruct (broadcast_parts u sh W H) as (Ns & X & nb & db & Eb & Wnb & Wdb & Sn & An & Vn & Vd & MEM & DG & _).
  destruct (broadcast_again u sh nb db W H Eb) as (Wb & Ub & Sb & sh' & H' & SS).
  unfold u_sort. rewrite Eb. cbn [bind]. rewrite (no_samples mean argsort1 _ sh' axis Wb H'); [reflexivity|].
  cbn [u_distribution op_shape]. intros K. apply key_size in K as [n K]. apply MEM, in_app_iff in K as [K|K]; [apply X; now apply (in_map fst) in K|].
  apply (samples_in u _ _ W) in K as [_ K]. apply D. now apply (in_map fst) in K.
Qed.
