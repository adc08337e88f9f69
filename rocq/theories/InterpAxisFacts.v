(** Proofs about the model of [na.interp]. *)
From Coq Require Import String List Arith ZArith Bool Lia.
From Verif Require Import Base BaseFacts Numpy NumpyFacts Shapes ShapesFacts Scalar Elementwise Derived Hist InterpAxis
  Spec SpecNumeric SpecInterp AlignFacts GetitemFacts SetitemFacts ElementwiseFacts ReduceFacts SortingFacts AlongFacts
  RankdataFacts RegridFacts ReorderFacts PdfFacts UncertainIndexFacts HistFacts.
From Verif Require VectorIndexFacts.
Import ListNotations.
Open Scope nat_scope.
Open Scope list_scope.

(** assignment to a single position of some axes *)
Lemma int_setitem {A} (a v : sarr A) (i : dict nat) : wf a -> wf v -> NoDup (dkeys i) -> incl (dkeys i) (s_axes a) ->
  (forall ax n p, In (ax, n) (sshape a) -> dget i ax = Some p -> p < n) ->
  (forall ax n, In (ax, n) (sshape v) <-> In (ax, n) (sshape a) /\ ~ In ax (dkeys i)) ->
  exists r, setitem a (int_items i) (OpArr v) = Ok r /\ wf r /\ sshape r = sshape a /\
    forall e, inside e (sshape a) -> (agrees i e /\ at_ r e = at_ v e) \/ (~ agrees i e /\ at_ r e = at_ a e).
Proof.
  intros Wa Wv Ni Inc R Sv.
  assert (Nit : NoDup (dkeys (int_items i))) by now rewrite dkeys_int_items.
  assert (ES : broadcast_shapes (index_shapes (s_axes a) (int_items i)) = Ok []) by now rewrite int_items_shapes.
  assert (DJ : forall ax, In ax (dkeys (@nil (string * nat))) -> In ax (s_axes a) -> keeps_axis (dget (int_items i) ax) = false).
  { intros ax []. }
  destruct (int_getitem a i Wa Ni R) as (s & Gs & Wsl & Axs & Ss & _).
  assert (Inc' : incl (dkeys (int_items i)) (s_axes a)) by now rewrite dkeys_int_items.
  destruct (proj2 (setitem_success a (int_items i) (OpArr v) [] Wa Nit (int_items_wf i) (int_items_py i) Wv ES DJ)) as (r & Er).
  { split; auto. exists s. split; auto. intros ax n H. exists n. split; auto. apply Ss, Sv. exact H. }
  exists r. split; auto.
  destruct (setitem_ok a (int_items i) (OpArr v) Wa Nit (int_items_wf i) (int_items_py i) Wv [] ES DJ r Inc' Er) as (Wr & Sr & Vr).
  split; auto. split; auto. intros e' He'.
  assert (Sel : forall e, addresses (sshape a) [] (int_items i) e e' -> forall ax n, In (ax, n) (sshape a) -> e' ax = over i e ax).
  { intros e [_ H] ax n Hn. destruct (H ax n Hn) as [_ X]. apply int_selects in X; auto. intros q Hq. eapply R; eauto. }
  destruct (Vr e' He') as [(e & Ad & Ve)|[NA Ve]].
  - assert (G : agrees i e').
    { intros ax p Hp. assert (In ax (dkeys i)) as Hk by (apply dget_Some_key; eauto). apply Inc in Hk.
      rewrite <- wf_keys in Hk by auto. apply key_size in Hk as [n Hk]. rewrite (Sel e Ad ax n Hk). unfold over. now rewrite Hp. }
    left. split; auto. rewrite Ve. simpl op_at.
    assert (Ee : forall ax n, In (ax, n) (sshape v) -> e' ax = e ax).
    { intros ax n H. apply Sv in H as [H Hk]. rewrite (Sel e Ad ax n H). unfold over. apply dget_None in Hk. now rewrite Hk. }
    rewrite bat_inside; auto.
    + apply at_ext. intros ax Hax. rewrite <- wf_keys in Hax by auto. apply key_size in Hax as [n Hax]. symmetry. eauto.
    + intros ax n H. rewrite <- (Ee ax n H). apply He'. now apply Sv.
  - right. split; [|auto]. intros G. apply (NA e'). split; [intros ax n []|]. intros ax n Hn. split; [now apply He'|].
    apply int_selects; [intros q Hq; eapply R; eauto|]. now rewrite over_agrees.
Qed.

(** the positions of a shape *)
Definition pos (S : shape) (i : dict nat) : Prop :=
  dkeys i = dkeys S /\ forall ax n p, In (ax, n) S -> dget i ax = Some p -> p < n.

Lemma ndindex_pos S i : NoDup (dkeys S) -> In i (na_ndindex S []) -> pos S i.
Proof.
  intros N H. destruct (na_ndindex_spec S [] N) as (P & _). apply P in H as [K R].
  rewrite filter_all in K by auto. split; auto. intros ax n p Hn Hp. apply dget_In in Hp.
  destruct (R ax p Hp) as (m & Hm & L). now rewrite (entry_eq S ax n m).
Qed.

Lemma ndindex_cover S e : NoDup (dkeys S) -> inside e S -> exists i, In i (na_ndindex S []) /\ agrees i e.
Proof.
  intros N I. exists (map (fun kv => (fst kv, e (fst kv))) S).
  destruct (na_ndindex_spec S [] N) as (P & _). split.
  - apply P. rewrite filter_all by auto. split.
    + unfold dkeys. rewrite map_map. apply map_ext. auto.
    + intros ax p H. apply in_map_iff in H as ([ax' n] & E & H). simpl in E. injection E as <- <-. eauto.
  - intros ax p H. apply dget_In, in_map_iff in H as ([ax' n] & E & H). simpl in E. injection E as <- <-. auto.
Qed.

Lemma two_nodup (s t : shape) : NoDup (dkeys s) -> NoDup (dkeys t) -> Forall (fun s => NoDup (dkeys s)) [s; t].
Proof. intros H1 H2. exact (Forall_cons _ H1 (Forall_cons _ H2 (Forall_nil _))). Qed.

Lemma spread_over_ok {A} (a : sarr A) (S t : shape) : wf a -> NoDup (dkeys S) -> broadcast_shapes [sshape a; S] = Ok t ->
  exists b, spread_over a S = Ok b /\ wf b /\ sshape b = t /\ forall e, at_ b e = bat a e.
Proof.
  intros W N E. assert (F := two_nodup _ _ (wf_nodup a W) N). destruct (broadcast_shapes_ok _ _ F E) as (Nt & _).
  unfold spread_over. rewrite E. cbn [bind]. apply fits_spread_any; auto. intros ax n H.
  destruct (VectorIndexFacts.broadcast_covers _ _ (sshape a) ax n F E (or_introl eq_refl) H) as [K C].
  destruct C as [-> |C]; [|eauto]. apply key_size in K as [m Hm]. eauto.
Qed.

Section Loop.
Context {A B C : Type} (zero : A -> bool) (itp : list A -> list B -> option C -> option C -> option A -> A -> C) (cast : C -> B).
Variable (S : shape) (axis : string).
Hypothesis (NS : NoDup (dkeys S)) (Hax : ~ In axis (dkeys S)).

(** an array of lines along the axis, spread over the other axes *)
Definition lines {X} (a b : sarr X) (n : nat) : Prop :=
  wf b /\ (forall ax m, In (ax, m) (sshape b) <-> In (ax, m) S \/ (ax = axis /\ m = n)) /\ forall e, at_ b e = bat a e.

Lemma lines_ok {X} (a : sarr X) n : wf a -> In (axis, n) (sshape a) -> fits_in (without (sshape a) [axis]) S ->
  exists b, spread_over a S = Ok b /\ lines a b n.
Proof.
  intros W Hn Ft. assert (Na := wf_nodup a W).
  assert (NB : NoDup (dkeys (S ++ [(axis, n)]))).
  { unfold dkeys. rewrite map_app. apply NoDup_app_intro; auto; [simpl; repeat constructor; intros []|]. intros x Hx [<- |[]]. contradiction. }
  assert (F := two_nodup _ _ Na NS).
  assert (Ft' : forall ax m, In (ax, m) (sshape a) -> (ax = axis /\ m = n) \/ (ax <> axis /\ exists k, In (ax, k) S /\ (m = 1 \/ m = k))).
  { intros ax m H. destruct (string_dec ax axis) as [Ex|D].
    - subst. left. split; auto. now apply (entry_eq (sshape a) axis).
    - right. split; auto. apply Ft. apply without_In. split; auto. simpl. intros [E|[]]. auto. }
  destruct (fits_broadcast [sshape a; S] (S ++ [(axis, n)]) F NB) as (t & E & _).
  { intros s [<- |[<- |[]]] ax m H.
    - destruct (Ft' ax m H) as [[-> ->]|(_ & k & Hk & Ck)]; [exists n|exists k]; (split; [apply in_app_iff; simpl; auto|auto]).
    - exists m. split; auto. apply in_app_iff. auto. }
  destruct (spread_over_ok a S t W NS E) as (b & Eb & Wb & Sb & Vb). exists b. split; auto. split; auto. split; auto.
  destruct (broadcast_shapes_ok _ _ F E) as (Nt & _). rewrite Sb.
  assert (InS : forall ax m, In (ax, m) S -> In (ax, m) t).
  { intros ax m H. destruct (VectorIndexFacts.broadcast_covers _ _ S ax m F E (or_intror (or_introl eq_refl)) H) as [K [-> |D]]; auto.
    apply key_size in K as [k Hk]. destruct (VectorIndexFacts.broadcast_attained _ _ ax k F E Hk) as (s & [<- |[<- |[]]] & Hs).
    - destruct (Ft' ax k Hs) as [[-> ->]|(_ & q & Hq & Cq)]; [exfalso; apply Hax; now apply (in_map fst) in H|].
      rewrite (entry_eq S ax q 1 NS Hq H) in Cq. destruct Cq as [-> | ->]; auto.
    - now rewrite (entry_eq S ax 1 k NS H Hs). }
  intros ax m. split.
  - intros H. destruct (VectorIndexFacts.broadcast_attained _ _ ax m F E H) as (s & [<- |[<- |[]]] & Hs); auto.
    destruct (Ft' ax m Hs) as [X1|(_ & q & Hq & Cq)]; auto. left. now rewrite (entry_eq t ax m q Nt H (InS _ _ Hq)).
  - intros [H|[-> ->]]; auto.
    destruct (VectorIndexFacts.broadcast_covers _ _ (sshape a) axis n F E (or_introl eq_refl) Hn) as [K [-> |D]]; auto.
    apply key_size in K as [k Hk]. destruct (VectorIndexFacts.broadcast_attained _ _ axis k F E Hk) as (s & [<- |[<- |[]]] & Hs).
    + now rewrite (entry_eq (sshape a) axis 1 k Na Hn Hs).
    + exfalso. apply Hax. now apply (in_map fst) in Hs.
Qed.

(** one line *)
Definition line_of {X} (a : sarr X) (n : nat) (e : env) (b : sarr X) : Prop :=
  wf b /\ s_axes b = [axis] /\ sshape b = [(axis, n)] /\
  ravel (s_nd b) = map (fun k => bat a (set_env e axis k)) (seq 0 n).

Lemma agrees_set i e k : pos S i -> agrees i e -> forall ax, over i (set_env e axis k) ax = set_env e axis k ax.
Proof.
  intros [K _] G ax. unfold over, set_env. destruct (dget i ax) as [p|] eqn:Ep; auto.
  destruct (String.eqb_spec ax axis) as [Ex|D].
  - subst. exfalso. apply Hax. rewrite <- K. apply dget_Some_key. eauto.
  - symmetry. now apply G.
Qed.

Lemma line_ok {X} (a b : sarr X) n i : lines a b n -> pos S i ->
  exists r, getitem b (int_items i) = Ok r /\ forall e, agrees i e -> line_of a n e r.
Proof.
  intros (Wb & Sb & Vb) P. assert (K : dkeys i = dkeys S) by apply P.
  destruct (int_getitem b i Wb) as (r & Gr & Wr & Ax & Sr & Vr).
  { now rewrite K. }
  { intros ax m p H Hp. apply Sb in H as [H|[-> ->]].
    - apply (proj2 P ax m p); auto.
    - exfalso. apply Hax. rewrite <- K. apply dget_Some_key. eauto. }
  exists r. split; auto. intros e G. split; auto.
  assert (S1 : forall ax m, In (ax, m) (sshape r) <-> ax = axis /\ m = n).
  { intros ax m. rewrite (Sr ax m), (Sb ax m), K. split.
    - intros [[H|H] H']; auto. exfalso. apply H'. now apply (in_map fst) in H.
    - intros [-> ->]. auto. }
  assert (E1 : sshape r = [(axis, n)]).
  { assert (Nr := wf_nodup r Wr). destruct (sshape r) as [|[x m] [|[y q] l]].
    - exfalso. apply (proj2 (S1 axis n)). auto.
    - assert (X1 := proj1 (S1 x m) (or_introl eq_refl)). destruct X1 as [-> ->]. auto.
    - exfalso. assert (X1 := proj1 (S1 x m) (or_introl eq_refl)). assert (Y := proj1 (S1 y q) (or_intror (or_introl eq_refl))).
      destruct X1 as [-> _], Y as [-> _]. inversion Nr; subst. apply H1. simpl. auto. }
  assert (A1 : s_axes r = [axis]) by (rewrite <- wf_keys by auto; now rewrite E1).
  split; auto. split; auto.
  assert (N1 : nshape (s_nd r) = [n]).
  { destruct Wr as [NDr Lr]. unfold sshape in E1. rewrite A1 in E1, Lr.
    destruct (nshape (s_nd r)) as [|q [|q' l]] eqn:En; simpl in *; try discriminate. injection E1 as ->. auto. }
  unfold ravel. rewrite N1. simpl.
  assert (E2 : forall l, flat_map (fun i0 : nat => [[i0]]) l = map (fun k => [k]) l) by (induction l; simpl; congruence).
  rewrite E2, map_map. apply map_ext_in. intros k Hk. apply in_seq in Hk.
  transitivity (at_ r (set_env e axis k)).
  - unfold at_. rewrite A1. simpl. unfold set_env. now rewrite String.eqb_refl.
  - rewrite Vr.
    + rewrite Vb. unfold bat. apply at_ext. intros ax _. unfold bclamp. now rewrite !(agrees_set i e k P G).
    + intros ax m H. apply S1 in H as [-> ->]. unfold set_env. rewrite String.eqb_refl. lia.
Qed.

Lemma line_aligned {X} (r : sarr X) (n : nat) : wf r -> s_axes r = [axis] -> ndarray_aligned r [axis] = Ok (s_nd r).
Proof. intros W E. unfold ndarray_aligned. rewrite E. now rewrite (proj2 (axes_eqb_true [axis] [axis]) eq_refl). Qed.

(** the values of an optional array *)
Definition cover_opt {X} (a b : option (sarr X)) : Prop :=
  match a, b with
  | None, None => True
  | Some a, Some b => wf b /\ sshape b = S /\ forall e, at_ b e = bat a e
  | _, _ => False
  end.

Lemma cover_ok {X} (a : option (sarr X)) : (forall x, a = Some x -> wf x /\ fits_in (sshape x) S) ->
  exists b, opt_spread a S = Ok b /\ cover_opt a b.
Proof.
  intros H. destruct a as [a|]; [|exists None; split; simpl; auto]. destruct (H a eq_refl) as [W F].
  destruct (fits_spread_any a S W NS F) as (b & E & Wb & Sb & Vb). exists (Some b). simpl. rewrite E. simpl. auto.
Qed.

Lemma cover_part {X} (a b : option (sarr X)) i : cover_opt a b -> pos S i ->
  exists r, opt_part b i = Ok r /\ forall e, agrees i e -> r = match a with Some a => Some (bat a e) | None => None end.
Proof.
  intros H P. assert (K : dkeys i = dkeys S) by apply P. destruct a as [a|], b as [b|]; simpl in H; try contradiction; [|exists None; auto].
  destruct H as (Wb & Sb & Vb). destruct (int_getitem b i Wb) as (r & Gr & Wr & Ax & Sr & Vr).
  { now rewrite K. }
  { intros ax m p Hm Hp. rewrite Sb in Hm. now apply (proj2 P ax m p). }
  simpl. rewrite Gr. cbn [bind]. exists (Some (nget (s_nd r) [])). split; auto. intros e G.
  assert (A0 : s_axes r = []).
  { rewrite <- wf_keys by auto. destruct (sshape r) as [|[x m] l] eqn:E; auto. exfalso.
    destruct (proj1 (Sr x m) (or_introl eq_refl)) as [H1 H2]. rewrite Sb in H1. apply H2. rewrite K. now apply (in_map fst) in H1. }
  assert (I : inside e (sshape r)).
  { intros x m Hm. exfalso. assert (X0 := Hm). apply (in_map fst) in X0. fold (dkeys (sshape r)) in X0. rewrite wf_keys, A0 in X0 by auto. contradiction. }
  f_equal. rewrite <- Vb. rewrite <- (at_over b i e G), <- Vr by auto. unfold at_. now rewrite A0.
Qed.

Variable (x xp : sarr A) (fp : sarr B) (left right : option (sarr C)) (period : option (sarr A)) (n m : nat).
Variable (xb xpb : sarr A) (fpb : sarr B) (lb rb : option (sarr C)) (pb : option (sarr A)).
Hypothesis (Wx : wf xb) (Vx : forall e, at_ xb e = bat x e).
Hypothesis (Sx : incl S (sshape xb)).
Hypothesis (Lxp : lines xp xpb n) (Lfp : lines fp fpb m).
Hypothesis (Cl : cover_opt left lb) (Cr : cover_opt right rb) (Cp : cover_opt period pb).

Definition opt_bat {X} (a : option (sarr X)) (e : env) : option X := match a with Some a => Some (bat a e) | None => None end.

Definition interpolated (e : env) : B :=
  cast (itp (map (fun k => bat xp (set_env e axis k)) (seq 0 n)) (map (fun k => bat fp (set_env e axis k)) (seq 0 m))
            (opt_bat left e) (opt_bat right e) (opt_bat period e) (bat x e)).

Lemma x_range i : pos S i -> forall ax k p, In (ax, k) (sshape xb) -> dget i ax = Some p -> p < k.
Proof.
  intros [K R] ax k p H Hp. assert (In ax (dkeys S)) as Hk by (rewrite <- K; apply dget_Some_key; eauto).
  apply key_size in Hk as [q Hq]. rewrite (entry_eq (sshape xb) ax k q (wf_nodup _ Wx) H (Sx _ Hq)). eauto.
Qed.

Lemma interp_step_ok result i : n = m -> n <> 0 -> (forall e p, inside e S -> opt_bat period e = Some p -> zero p = false) ->
  wf result -> sshape result = sshape xb -> pos S i ->
  exists r, interp_step zero itp cast xb xpb fpb lb rb pb result i = Ok r /\ wf r /\ sshape r = sshape result /\
    forall e, inside e (sshape result) -> at_ r e = interpolated e \/ (~ agrees i e /\ at_ r e = at_ result e).
Proof.
  intros Enm Hn Hz Wr Sr P. assert (K : dkeys i = dkeys S) by apply P. assert (Ni : NoDup (dkeys i)) by now rewrite K.
  destruct (int_getitem xb i Wx Ni (x_range i P)) as (xi & Gx & Wxi & Axi & Sxi & Vxi).
  destruct (line_ok xp xpb n i Lxp P) as (xpi & Gxp & Pxp). destruct (line_ok fp fpb m i Lfp P) as (fpi & Gfp & Pfp).
  destruct (cover_part left lb i Cl P) as (l & El & Vl). destruct (cover_part right rb i Cr P) as (r & Er & Vr).
  destruct (cover_part period pb i Cp P) as (p & Ep & Vp).
  unfold interp_step. rewrite Gx, Gxp, Gfp, El, Er, Ep. cbn [bind].
  set (e0 := over i (fun _ => 0)). assert (G0 : agrees i e0) by apply agrees_over.
  destruct (Pxp e0 G0) as (Wxp & Axp & Sxp & Rxp). destruct (Pfp e0 G0) as (Wfp & Afp & Sfp & Rfp).
  assert (Eb : broadcast_shapes [sshape xpi; sshape fpi] = Ok [(axis, n)]).
  { rewrite Sxp, Sfp. apply (bs_dominated [(axis, n)] [[(axis, m)]]).
    - simpl. constructor; [intros []|constructor].
    - intros s [<- |[]]. split; [simpl; constructor; [intros []|constructor]|]. rewrite Enm. apply incl_refl. }
  rewrite Eb. cbn [bind]. change (dkeys [(axis, n)]) with [axis].
  rewrite (line_aligned xpi n Wxp Axp), (line_aligned fpi m Wfp Afp). cbn [bind].
  assert (Nn : forall X (q : sarr X) k, wf q -> s_axes q = [axis] -> sshape q = [(axis, k)] -> nshape (s_nd q) = [k]).
  { intros X q k [ND L] E1 E2. unfold sshape in E2. rewrite E1 in L, E2. destruct (nshape (s_nd q)) as [|c [|d t]]; simpl in *; try discriminate. injection E2 as ->. auto. }
  unfold np_interp. rewrite (Nn _ xpi n), (Nn _ fpi m) by auto.
  assert (I0 : inside e0 S).
  { intros ax k Hk. assert (In ax (dkeys i)) as Hi by (rewrite K; now apply (in_map fst) in Hk). apply dget_Some_key in Hi as [q Hq].
    rewrite (G0 _ _ Hq). apply (proj2 P ax k q); auto. }
  assert (Zp : match p with Some p => zero p | None => false end = false).
  { specialize (Vp e0 G0). destruct p as [p|]; auto. apply (Hz e0 p I0). symmetry. exact Vp. }
  rewrite Zp. destruct (n =? 0) eqn:En0; [apply Nat.eqb_eq in En0; contradiction|].
  rewrite Enm, Nat.eqb_refl. cbn [negb bind].
  set (v := mkNd (nshape (s_nd xi)) (fun idx => cast (itp (ravel (s_nd xpi)) (ravel (s_nd fpi)) l r p (nget (s_nd xi) idx)))).
  cbn [nshape nget]. fold v.
  assert (Ev : mk_sarr v (s_axes xi) = Ok (mkS v (s_axes xi))).
  { apply mk_sarr_intro; [apply Wxi|]. apply (proj2 Wxi). }
  rewrite Ev. cbn [bind].
  assert (Wv : wf (mkS v (s_axes xi))) by (split; apply Wxi).
  destruct (int_setitem result (mkS v (s_axes xi)) i Wr Wv Ni) as (r' & Er' & Wr' & Sr' & Vr').
  { intros ax H. rewrite <- wf_keys, Sr by auto. rewrite K in H. apply key_size in H as [q Hq]. apply (in_map fst (sshape xb) (ax, q)). auto. }
  { rewrite Sr. apply x_range. exact P. }
  { rewrite Sr. exact Sxi. }
  exists r'. split; auto. split; auto. split; auto. intros e He. destruct (Vr' e He) as [[G V1]|V2]; auto. left. rewrite V1.
  unfold interpolated, opt_bat. rewrite <- (Vl e G), <- (Vr e G), <- (Vp e G).
  destruct (Pxp e G) as (_ & _ & _ & R1). destruct (Pfp e G) as (_ & _ & _ & R2).
  unfold at_. cbn [s_nd s_axes]. unfold v. cbn [nget]. rewrite R1, R2. f_equal. f_equal.
  change (nget (s_nd xi) (map e (s_axes xi))) with (at_ xi e). rewrite Vxi.
  - rewrite (at_over xb i e G). apply Vx.
  - intros ax k H. apply Sxi in H as [H _]. apply He. now rewrite Sr.
Qed.

Lemma interp_step_err result i : n <> m -> pos S i ->
  interp_step zero itp cast xb xpb fpb lb rb pb result i = Err ValueError.
Proof.
  intros D P. assert (K : dkeys i = dkeys S) by apply P. assert (Ni : NoDup (dkeys i)) by now rewrite K.
  destruct (int_getitem xb i Wx Ni (x_range i P)) as (xi & Gx & _).
  destruct (line_ok xp xpb n i Lxp P) as (xpi & Gxp & Pxp). destruct (line_ok fp fpb m i Lfp P) as (fpi & Gfp & Pfp).
  destruct (cover_part left lb i Cl P) as (l & El & _). destruct (cover_part right rb i Cr P) as (r & Er & _).
  destruct (cover_part period pb i Cp P) as (p & Ep & _).
  unfold interp_step. rewrite Gx, Gxp, Gfp, El, Er, Ep. cbn [bind].
  destruct (Pxp _ (agrees_over i)) as (Wxp & Axp & Sxp & _). destruct (Pfp _ (agrees_over i)) as (Wfp & Afp & Sfp & _).
  assert (N1 := wf_nodup _ Wxp). assert (N2 := wf_nodup _ Wfp).
  destruct (broadcast_shapes_total _ (two_nodup _ _ N1 N2)) as [(sh & Eb)|Eb]; [|now rewrite Eb].
  destruct (broadcast_shapes_ok _ _ (two_nodup _ _ N1 N2) Eb) as (_ & Ksh & _).
  rewrite Eb. cbn [bind]. assert (Kx : dkeys sh = [axis]).
  { rewrite Ksh. simpl. rewrite Sxp, Sfp. unfold first_appearance. simpl. destruct (string_dec axis axis) as [_|F]; [|contradiction]. reflexivity. }
  rewrite Kx, (line_aligned xpi n Wxp Axp), (line_aligned fpi m Wfp Afp). cbn [bind].
  assert (Nn : forall X (q : sarr X) k, wf q -> s_axes q = [axis] -> sshape q = [(axis, k)] -> nshape (s_nd q) = [k]).
  { intros X q k [ND L] E1 E2. unfold sshape in E2. rewrite E1 in L, E2. destruct (nshape (s_nd q)) as [|c [|d t]]; simpl in *; try discriminate. injection E2 as ->. auto. }
  unfold np_interp. rewrite (Nn _ xpi n), (Nn _ fpi m) by auto. apply Nat.eqb_neq in D. rewrite D. cbn [negb].
  destruct (match p with Some p => zero p | None => false end); auto. destruct (n =? 0); auto.
Qed.

Lemma interp_loop_ok l : n = m -> n <> 0 -> (forall e p, inside e S -> opt_bat period e = Some p -> zero p = false) ->
  (forall i, In i l -> pos S i) -> forall result, wf result -> sshape result = sshape xb ->
  exists r, foldM (interp_step zero itp cast xb xpb fpb lb rb pb) l result = Ok r /\ wf r /\ sshape r = sshape result /\
    forall e, inside e (sshape result) -> at_ result e = interpolated e \/ (exists i, In i l /\ agrees i e) -> at_ r e = interpolated e.
Proof.
  intros Enm Hn Hz. induction l as [|i l IH]; intros P result Wr Sr.
  - exists result. simpl. do 3 (split; auto). intros e _ [H|(i & [] & _)]; auto.
  - destruct (interp_step_ok result i Enm Hn Hz Wr Sr (P i (or_introl eq_refl))) as (r & Er & Wr1 & Sr1 & Vr1).
    simpl. rewrite Er. cbn [bind].
    destruct (IH (fun j Hj => P j (or_intror Hj)) r Wr1) as (r' & Er' & Wr' & Sr' & Vr'); [congruence|].
    exists r'. split; auto. split; auto. split; [congruence|]. intros e He H.
    assert (He' := He). rewrite <- Sr1 in He'. apply Vr'; auto.
    destruct (Vr1 e He) as [V|[NG V]]; auto. destruct H as [H|(j & [<- |Hj] & G)].
    + left. congruence.
    + contradiction.
    + right. eauto.
Qed.
End Loop.

Lemma first_of {X} (a : sarr X) ax n : wf a -> In (ax, n) (sshape a) -> n <> 0 ->
  exists r, getitem a [(ax, ItInt 0%Z)] = Ok r /\ sshape r = without (sshape a) [ax].
Proof.
  intros W H Hn. destruct (int_getitem a [(ax, 0)] W) as (r & G & Wr & Ar & Sr & _).
  { simpl. constructor; [intros []|constructor]. }
  { intros ax' m p Hm Hp. simpl in Hp. destruct (String.eqb_spec ax' ax) as [E|D]; [|discriminate]. injection Hp as <-. subst.
    rewrite (entry_eq (sshape a) ax m n (wf_nodup a W)); auto. lia. }
  exists r. split; [exact G|]. apply shape_eq.
  - rewrite dkeys_without, wf_keys, wf_keys, Ar by auto. reflexivity.
  - rewrite dkeys_without. apply NoDup_filter. now apply wf_nodup.
  - intros ax' m Hm. apply Sr in Hm as [H1 H2]. apply without_In. auto.
Qed.

Definition fits_all (l : list shape) (S : shape) := forall s, In s l -> fits_in s S.

Lemma broadcast_fits l S : Forall (fun s => NoDup (dkeys s)) l -> broadcast_shapes l = Ok S -> fits_all l S.
Proof.
  intros F E s Hs ax n H. destruct (VectorIndexFacts.broadcast_covers l S s ax n F E Hs H) as [K [-> |C]]; [|eauto].
  apply key_size in K as [m Hm]. eauto.
Qed.

Lemma without_nodup (sh : shape) l : NoDup (dkeys sh) -> NoDup (dkeys (without sh l)).
Proof. intros N. rewrite dkeys_without. now apply NoDup_filter. Qed.

Section Top.
Context {A B C : Type} (zero : A -> bool) (itp : list A -> list B -> option C -> option C -> option A -> A -> C) (cast : C -> B) (junk : B).
Variables (x xp : operand A) (fp : operand B) (left right : option (operand C)) (period : option (operand A)).
Variables (ax : string) (n m : nat) (S T : shape).
Hypothesis (Wx : op_wf x) (Wxp : op_wf xp) (Wfp : op_wf fp).
Hypothesis (Wl : opt_operand_wf left) (Wr : opt_operand_wf right) (Wp : opt_operand_wf period).
Hypothesis (Hxp : In (ax, n) (op_shape xp)) (Hfp : In (ax, m) (op_shape fp)) (Hn : n <> 0) (Hm : m <> 0).
Hypothesis (ES : broadcast_shapes ([without (op_shape xp) [ax]; without (op_shape fp) [ax]] ++ opt_operand_shape left
                   ++ opt_operand_shape right ++ opt_operand_shape period) = Ok S).
Hypothesis (HS : ~ In ax (dkeys S)).
Hypothesis (ET : broadcast_shapes [op_shape x; S] = Ok T).

Lemma opt_nodup {X} (o : option (operand X)) : opt_operand_wf o -> Forall (fun s => NoDup (dkeys s)) (opt_operand_shape o).
Proof.
  intros W. destruct o as [o|]; simpl; [|constructor]. constructor; [|constructor]. rewrite <- normalize_shape.
  apply wf_nodup, normalize_wf. now apply W.
Qed.

Lemma op_nodup {X} (o : operand X) : op_wf o -> NoDup (dkeys (op_shape o)).
Proof. intros W. rewrite <- normalize_shape. now apply wf_nodup, normalize_wf. Qed.

Lemma args_nodup : Forall (fun s => NoDup (dkeys s)) ([without (op_shape xp) [ax]; without (op_shape fp) [ax]] ++ opt_operand_shape left
                   ++ opt_operand_shape right ++ opt_operand_shape period).
Proof.
  apply Forall_app. split; [apply two_nodup; apply without_nodup; now apply op_nodup|].
  apply Forall_app. split; [now apply opt_nodup|]. apply Forall_app. split; now apply opt_nodup.
Qed.

Lemma S_nodup : NoDup (dkeys S).
Proof. apply (broadcast_shapes_ok _ _ args_nodup ES). Qed.

Lemma opt_shape_eq {X} (o : option (operand X)) : map sshape (opt_list (option_map normalize o)) = opt_operand_shape o.
Proof. destruct o as [o|]; simpl; auto. now rewrite normalize_shape. Qed.

Lemma opt_fits {X} (o : option (operand X)) : opt_operand_wf o ->
  (forall s, In s (opt_operand_shape o) -> fits_in s S) ->
  forall y, option_map normalize o = Some y -> wf y /\ fits_in (sshape y) S.
Proof.
  intros W F y E. destruct o as [o|]; [|discriminate]. injection E as <-. split; [apply normalize_wf; auto|].
  rewrite normalize_shape. apply F. simpl. auto.
Qed.

(** everything before the loop *)
Lemma interp_setup : exists xb xpb fpb lb rb pb,
  na_interp zero itp cast junk x xp fp (Some ax) left right period
  = foldM (interp_step zero itp cast xb xpb fpb lb rb pb) (na_ndindex S [])
      (mkS (mkNd (nshape (s_nd xb)) (fun _ => junk)) (s_axes xb)) /\
  wf xb /\ sshape xb = T /\ (forall e, at_ xb e = op_at x e) /\
  lines S ax (normalize xp) xpb n /\ lines S ax (normalize fp) fpb m /\
  cover_opt S (option_map normalize left) lb /\ cover_opt S (option_map normalize right) rb /\
  cover_opt S (option_map normalize period) pb.
Proof.
  assert (NS := S_nodup). assert (Ft := broadcast_fits _ _ args_nodup ES).
  assert (W1 := normalize_wf _ Wx). assert (W2 := normalize_wf _ Wxp). assert (W3 := normalize_wf _ Wfp).
  assert (H2 : In (ax, n) (sshape (normalize xp))) by now rewrite normalize_shape.
  assert (H3 : In (ax, m) (sshape (normalize fp))) by now rewrite normalize_shape.
  destruct (first_of (normalize xp) ax n W2 H2 Hn) as (xp0 & E2 & Sh2).
  destruct (first_of (normalize fp) ax m W3 H3 Hm) as (fp0 & E3 & Sh3).
  rewrite normalize_shape in Sh2. rewrite normalize_shape in Sh3.
  destruct (spread_over_ok (normalize x) S T W1 NS) as (xb & Ex & Wb & Sb & Vb); [now rewrite normalize_shape|].
  destruct (lines_ok S ax NS HS (normalize xp) n W2 H2) as (xpb & Exp & Lxp).
  { rewrite normalize_shape. apply Ft. simpl. auto. }
  destruct (lines_ok S ax NS HS (normalize fp) m W3 H3) as (fpb & Efp & Lfp).
  { rewrite normalize_shape. apply Ft. simpl. auto. }
  destruct (cover_ok S NS (option_map normalize left)) as (lb & El & Cl).
  { apply opt_fits; auto. intros s Hs. apply Ft. simpl. rewrite !in_app_iff. auto. }
  destruct (cover_ok S NS (option_map normalize right)) as (rb & Er & Cr).
  { apply opt_fits; auto. intros s Hs. apply Ft. simpl. rewrite !in_app_iff. auto. }
  destruct (cover_ok S NS (option_map normalize period)) as (pb & Ep & Cp).
  { apply opt_fits; auto. intros s Hs. apply Ft. simpl. rewrite !in_app_iff. auto. }
  exists xb, xpb, fpb, lb, rb, pb. split.
  - unfold na_interp. cbn [bind]. rewrite E2, E3. cbn [bind]. rewrite Sh2, Sh3, !opt_shape_eq, ES. cbn [bind].
    rewrite Ex, Exp, Efp, El, Er, Ep. reflexivity.
  - split; auto. split; auto. split; auto. intros e. now rewrite Vb, normalize_at.
Qed.

Lemma opt_bat_at {X} (o : option (operand X)) e : opt_bat (option_map normalize o) e = opt_at o e.
Proof. destruct o as [o|]; simpl; auto. now rewrite normalize_at. Qed.

Lemma S_in_T : (forall k a s, In (k, a) (op_shape x) -> In (k, s) S -> a = 1 \/ a = s) -> incl S T.
Proof.
  intros Hx. assert (NS := S_nodup). assert (F := two_nodup _ _ (op_nodup x Wx) NS).
  intros [k s] Hs. destruct (VectorIndexFacts.broadcast_covers _ _ S k s F ET (or_intror (or_introl eq_refl)) Hs) as [K [-> |D]]; auto.
  apply key_size in K as [q Hq]. destruct (VectorIndexFacts.broadcast_attained _ _ k q F ET Hq) as (t & [<- |[<- |[]]] & Ht).
  - destruct (Hx k q 1 Ht Hs) as [-> | ->]; auto.
  - now rewrite (entry_eq S k 1 q NS Hs Ht).
Qed.

Theorem interp_ok : n = m -> (forall k a s, In (k, a) (op_shape x) -> In (k, s) S -> a = 1 \/ a = s) ->
  (forall e p, inside e S -> opt_at period e = Some p -> zero p = false) ->
  exists r, na_interp zero itp cast junk x xp fp (Some ax) left right period = Ok r /\ wf r /\ sshape r = T /\
    forall e, inside e T -> at_ r e = cast (itp (samples xp ax n e) (samples fp ax n e)
                                             (opt_at left e) (opt_at right e) (opt_at period e) (op_at x e)).
Proof.
  intros Enm Hx Hz. assert (NS := S_nodup).
  destruct interp_setup as (xb & xpb & fpb & lb & rb & pb & -> & Wb & Sb & Vb & Lxp & Lfp & Cl & Cr & Cp).
  assert (F := two_nodup _ _ (op_nodup x Wx) NS).
  assert (I : incl S (sshape xb)) by (rewrite Sb; now apply S_in_T).
  assert (Vb' : forall e, at_ xb e = bat (normalize x) e) by (intros e; now rewrite Vb, normalize_at).
  set (r0 := mkS (mkNd (nshape (s_nd xb)) (fun _ => junk)) (s_axes xb)).
  assert (W0 : wf r0) by (split; apply Wb).
  destruct (interp_loop_ok zero itp cast S ax NS HS (normalize x) (normalize xp) (normalize fp) (option_map normalize left)
              (option_map normalize right) (option_map normalize period) n m xb xpb fpb lb rb pb Wb Vb' I Lxp Lfp Cl Cr Cp
              (na_ndindex S []) Enm Hn) with (result := r0) as (r & Er & Wr1 & Sr & Vr); auto.
  { intros e p He Hp. rewrite opt_bat_at in Hp. eauto. }
  { intros i Hi. now apply ndindex_pos. }
  exists r. split; auto. split; auto. assert (S0 : sshape r0 = T) by exact Sb. split; [congruence|].
  intros e He. rewrite (Vr e).
  - unfold interpolated, samples. rewrite !opt_bat_at, normalize_at. rewrite <- Enm. f_equal.
    f_equal; apply map_ext; intros k; apply normalize_at.
  - now rewrite S0.
  - right. apply ndindex_cover; auto. intros k s Hs. apply He. rewrite <- Sb. auto.
Qed.
Theorem interp_lengths : n <> m -> (forall k a s, In (k, a) (op_shape x) -> In (k, s) S -> a = 1 \/ a = s) ->
  (forall k s, In (k, s) S -> s <> 0) ->
  na_interp zero itp cast junk x xp fp (Some ax) left right period = Err ValueError.
Proof.
  intros D Hx Hs. assert (NS := S_nodup).
  destruct interp_setup as (xb & xpb & fpb & lb & rb & pb & -> & Wb & Sb & Vb & Lxp & Lfp & Cl & Cr & Cp).
  assert (F := two_nodup _ _ (op_nodup x Wx) NS).
  assert (I : incl S (sshape xb)) by (rewrite Sb; now apply S_in_T).
  assert (Vb' : forall e, at_ xb e = bat (normalize x) e) by (intros e; now rewrite Vb, normalize_at).
  destruct (ndindex_cover S (fun _ => 0) NS) as (i0 & Hi0 & _). { intros k s H. specialize (Hs k s H). lia. }
  destruct (na_ndindex S []) as [|i l] eqn:El; [contradiction|]. simpl.
  assert (P : pos S i) by (apply ndindex_pos; auto; rewrite El; simpl; auto).
  rewrite (interp_step_err zero itp cast S ax NS HS (normalize xp) (normalize fp) (option_map normalize left)
              (option_map normalize right) (option_map normalize period) n m xb xpb fpb lb rb pb); auto.
Qed.
End Top.

Lemma interp_axis {A B C} (zero : A -> bool) (itp : list A -> list B -> option C -> option C -> option A -> A -> C)
      (cast : C -> B) (junk : B) (x : operand A) (xp : sarr A) (fp : operand B) (left right : option (operand C))
      (period : option (operand A)) :
  (forall ax, s_axes xp = [ax] ->
     na_interp zero itp cast junk x (OpArr xp) fp None left right period
     = na_interp zero itp cast junk x (OpArr xp) fp (Some ax) left right period) /\
  (length (s_axes xp) <> 1 -> na_interp zero itp cast junk x (OpArr xp) fp None left right period = Err ValueError).
Proof.
  split.
  - intros ax E. unfold na_interp. cbn [normalize]. rewrite E. reflexivity.
  - intros L. unfold na_interp. cbn [normalize]. destruct (s_axes xp) as [|a [|b l]]; simpl in L; try reflexivity. lia.
Qed.
