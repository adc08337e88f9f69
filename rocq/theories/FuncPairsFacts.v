(** Facts about renaming, taking along an axis and concatenation of function
    arrays. *)
From Coq Require Import String List Arith ZArith Bool Lia Permutation.
From Verif Require Import Base BaseFacts Numpy NumpyFacts Shapes Scalar Reorder Elementwise Reduce Along Derived Func FuncOps Spec SpecDerived SpecNumeric SpecFunc SpecFuncOps
  ShapesFacts AlignFacts ElementwiseFacts ReorderFacts AlongFacts SortingFacts VectorIndexFacts FuncFacts FuncOpsFacts.
Import ListNotations.
Open Scope nat_scope.
Open Scope list_scope.

(** ** Renaming *)

Lemma fop_filter {A} (R : A -> A -> Prop) (p : A -> bool) l : ForallOrdPairs R l -> ForallOrdPairs R (filter p l).
Proof.
  induction 1 as [|a l F _ IH]; [constructor|]. cbn. destruct (p a); auto. constructor; auto.
  apply Forall_forall. intros y Hy. apply filter_In in Hy as [Hy _]. rewrite Forall_forall in F. auto.
Qed.

Lemma combine_fst_snd {A B} (l : list (A * B)) : combine (map fst l) (map snd l) = l.
Proof. induction l as [|[a b] l IH]; cbn; congruence. Qed.

Lemma map_fst_combine {A B} (l : list A) (l' : list B) : length l = length l' -> map fst (combine l l') = l.
Proof. revert l'. induction l as [|a l IH]; intros [|b l'] H; cbn in *; try discriminate; auto. f_equal. apply IH. lia. Qed.

Lemma nodup_map_filter {A B} (g : A -> B) p l : NoDup (map g l) -> NoDup (map g (filter p l)).
Proof.
  induction l as [|a l IH]; cbn; intros H; auto. inversion H; subst. destruct (p a); cbn; auto. constructor; auto.
  intros K. apply in_map_iff in K as (y & E & K). apply filter_In in K as [K _]. apply H2. rewrite <- E. now apply in_map.
Qed.

Lemma dget_filter_pairs (l : list (string * string)) (p : string -> bool) ax : p ax = true ->
  dget (filter (fun q => p (fst q)) l) ax = dget l ax.
Proof.
  intros P. induction l as [|[k v] l IH]; cbn; auto. destruct (String.eqb_spec ax k) as [<- |N].
  - rewrite P. cbn. now rewrite String.eqb_refl.
  - destruct (p k); cbn; auto. destruct (String.eqb_spec ax k); [contradiction|auto].
Qed.

Lemma moveaxis_part {A} (a : sarr A) source destination : wf a ->
  NoDup source -> length source = length destination ->
  ForallOrdPairs (fun p q => snd p <> fst q) (combine source destination) ->
  let rho := rename (combine source destination) in
  NoDup (map rho (s_axes a)) ->
  let ps := filter (fun p : string * string => smem (fst p) (dkeys (sshape a))) (combine source destination) in
  exists r, na_moveaxis a (map fst ps) (map snd ps) = Ok r /\ wf r /\
     sshape r = map (fun kv => (rho (fst kv), snd kv)) (sshape a) /\
     forall e, at_ r e = at_ a (fun ax => e (rho ax)).
Proof.
  intros W N L F rho Nr ps.
  assert (Rh : forall ax, In ax (s_axes a) -> rename (combine (map fst ps) (map snd ps)) ax = rho ax).
  { intros ax H. rewrite combine_fst_snd. unfold rename, rho, ps, rename.
    rewrite (dget_filter_pairs _ (fun s => smem s (dkeys (sshape a)))); [reflexivity|]. apply smem_In. now rewrite (wf_keys a W). }
  destruct (moveaxis_spec a (map fst ps) (map snd ps) W) as [M _].
  - apply nodup_map_filter. now rewrite map_fst_combine.
  - now rewrite !map_length.
  - intros ax H. apply in_map_iff in H as (p & <- & H). apply filter_In in H as [_ H]. apply smem_In in H. now rewrite (wf_keys a W) in H.
  - rewrite combine_fst_snd. now apply fop_filter.
  - assert (E : map (rename (combine (map fst ps) (map snd ps))) (s_axes a) = map rho (s_axes a)) by (apply map_ext_in; auto).
    rewrite E in M. destruct (M Nr) as (r & Er & Wr & Ar & Sr & Gr). exists r. split; [exact Er|]. split; [exact Wr|]. split.
    + rewrite Sr. apply map_ext_in. intros [k v] H. cbn. rewrite Rh; auto. rewrite <- (wf_keys a W). now apply (in_map fst) in H.
    + intros e. rewrite Gr. apply at_ext; auto. intros ax H. now rewrite Rh.
Qed.

Lemma dget_renamed (sh : shape) (rho : string -> string) (l : list string) ax : incl (dkeys sh) l ->
  NoDup (map rho l) -> In ax l ->
  dget (map (fun kv => (rho (fst kv), snd kv)) sh) (rho ax) = dget sh ax.
Proof.
  intros I N H. assert (J : forall a b, In a l -> In b l -> rho a = rho b -> a = b).
  { clear I ax H. intros a b Ha Hb E. induction l as [|c l IH]; [contradiction|]. cbn in N. inversion N; subst.
    destruct Ha as [-> |Ha], Hb as [-> |Hb]; auto.
    - exfalso. apply H1. rewrite E. now apply in_map.
    - exfalso. apply H1. rewrite <- E. now apply in_map. }
  induction sh as [|[k v] sh IH]; cbn; auto.
  assert (Hk : In k l) by (apply I; now left).
  destruct (String.eqb_spec ax k) as [<- |Nk]; [now rewrite String.eqb_refl|].
  destruct (String.eqb_spec (rho ax) (rho k)) as [E|_]; [exfalso; apply Nk; now apply J|].
  apply IH. intros y Hy. apply I. now right.
Qed.

Theorem f_moveaxis_spec {A B} (f : farr A B) (source destination : list string) (sh : shape) :
  wf (f_inputs f) -> wf (f_outputs f) -> compatible f -> f_shape f = Ok sh ->
  NoDup source -> length source = length destination -> incl source (dkeys sh) ->
  ForallOrdPairs (fun p q => snd p <> fst q) (combine source destination) ->
  let rho := rename (combine source destination) in
  NoDup (map rho (dkeys sh)) ->
  (exists s, In s source /\ In s (dkeys (sshape (f_inputs f)))) ->
  (exists s, In s source /\ In s (dkeys (sshape (f_outputs f)))) ->
  exists r sh', f_moveaxis f source destination = Ok r /\ wf (f_inputs r) /\ wf (f_outputs r) /\
    sshape (f_inputs r) = map (fun kv => (rho (fst kv), snd kv)) (sshape (f_inputs f)) /\
    sshape (f_outputs r) = map (fun kv => (rho (fst kv), snd kv)) (sshape (f_outputs f)) /\
    (forall e, at_ (f_inputs r) e = at_ (f_inputs f) (fun ax => e (rho ax))) /\
    (forall e, at_ (f_outputs r) e = at_ (f_outputs f) (fun ax => e (rho ax))) /\
    f_shape r = Ok sh' /\ NoDup (dkeys sh') /\
    forall ax n, In (ax, n) sh' <-> exists ax0, ax = rho ax0 /\ In (ax0, n) sh.
Proof.
  intros Wi Wo C0 Es N L I F rho Nr Hi Ho.
  destruct (f_shape_gen f Wi Wo C0) as (sh1 & Es1 & Nsh & Ps). assert (sh1 = sh) by congruence. subst sh1. clear Es1.
  assert (Ki : incl (dkeys (sshape (f_inputs f))) (dkeys sh)).
  { intros ax H. apply key_dget in H as [n H]. apply key_dget. rewrite Ps. unfold points. rewrite H.
    destruct (dget (sshape (f_outputs f)) ax); eauto. }
  assert (Ko : incl (dkeys (sshape (f_outputs f))) (dkeys sh)).
  { intros ax H. apply key_dget in H as [n H]. apply key_dget. rewrite Ps. unfold points. rewrite H.
    destruct (dget (sshape (f_inputs f)) ax); eauto. }
  assert (Sub : forall l, NoDup l -> incl l (dkeys sh) -> NoDup (map rho l)).
  { intros l Nl Il. assert (J : forall a b, In a (dkeys sh) -> In b (dkeys sh) -> rho a = rho b -> a = b).
    { revert Nr. generalize (dkeys sh) as m. induction m as [|c m IH]; intros Nm a b Ha Hb E; [contradiction|]. cbn in Nm. inversion Nm; subst.
      destruct Ha as [-> |Ha], Hb as [-> |Hb]; auto.
      - exfalso. apply H1. rewrite E. now apply in_map.
      - exfalso. apply H1. rewrite <- E. now apply in_map. }
    induction l as [|a l IH]; cbn; [constructor|]. inversion Nl; subst. constructor; [|apply IH; auto; intros y Hy; apply Il; now right].
    intros K. apply in_map_iff in K as (b & E & K). apply H1. rewrite (J a b); auto; apply Il; [now left|now right]. }
  destruct (moveaxis_part (f_inputs f) source destination Wi N L F) as (ri & Ei & Wri & Si & Gi).
  { rewrite <- (wf_keys _ Wi). apply Sub; auto. now apply wf_nodup. }
  destruct (moveaxis_part (f_outputs f) source destination Wo N L F) as (ro & Eo & Wro & So & Go).
  { rewrite <- (wf_keys _ Wo). apply Sub; auto. now apply wf_nodup. }
  fold rho in Si, Gi, So, Go.
  assert (Ne : forall (s : shape), (exists x, In x source /\ In x (dkeys s)) ->
           filter (fun p : string * string => smem (fst p) (dkeys s)) (combine source destination) <> []).
  { intros s (x & Hx & Hs) Z. rewrite <- (map_fst_combine source destination L) in Hx. apply in_map_iff in Hx as ((x', y) & <- & Hx).
    assert (K : In (x', y) (filter (fun p : string * string => smem (fst p) (dkeys s)) (combine source destination))).
    { apply filter_In. split; [exact Hx|]. now apply smem_In. }
    now rewrite Z in K. }
  assert (Er : f_moveaxis f source destination = Ok (mkF ri ro)).
  { unfold f_moveaxis. rewrite Es. cbn [bind].
    assert (Fb : forallb (fun s => smem s (dkeys sh)) source = true) by (apply forallb_forall; intros x Hx; now apply smem_In, I).
    rewrite Fb. cbn [negb]. apply Ne in Hi. apply Ne in Ho.
    destruct (filter (fun p : string * string => smem (fst p) (dkeys (sshape (f_inputs f)))) (combine source destination)) as [|p0 ps]; [contradiction|].
    destruct (filter (fun p : string * string => smem (fst p) (dkeys (sshape (f_outputs f)))) (combine source destination)) as [|q0 qs]; [contradiction|].
    rewrite Ei. cbn [bind]. rewrite Eo. reflexivity. }
  set (r := mkF ri ro) in *.
  assert (Di : forall ax, In ax (dkeys sh) -> dget (sshape (f_inputs r)) (rho ax) = dget (sshape (f_inputs f)) ax).
  { intros ax H. change (f_inputs r) with ri. rewrite Si. now apply (dget_renamed _ rho (dkeys sh)). }
  assert (Do : forall ax, In ax (dkeys sh) -> dget (sshape (f_outputs r)) (rho ax) = dget (sshape (f_outputs f)) ax).
  { intros ax H. change (f_outputs r) with ro. rewrite So. now apply (dget_renamed _ rho (dkeys sh)). }
  assert (Im : forall (s : shape) ax n, In (ax, n) (map (fun kv => (rho (fst kv), snd kv)) s) -> exists ax0, In (ax0, n) s /\ ax = rho ax0).
  { intros s ax n H. apply in_map_iff in H as ((k, v) & E & H). injection E as <- <-. eauto. }
  assert (Cr : compatible r).
  { intros ax n m Hn Hm. change (f_outputs r) with ro in Hn. change (f_inputs r) with ri in Hm. rewrite So in Hn. rewrite Si in Hm.
    apply Im in Hn as (a & Ha & ->). assert (Ka := Ko a (in_map fst _ _ Ha)).
    assert (Hm' : dget (sshape (f_inputs f)) a = Some m).
    { rewrite <- (Di a Ka). apply in_dget; [apply wf_nodup; exact Wri|]. change (f_inputs r) with ri. now rewrite Si. }
    apply (C0 a n m Ha). now apply dget_In. }
  destruct (f_shape_gen r Wri Wro Cr) as (sh' & Es' & Nsh' & Ps').
  exists r, sh'. split; [exact Er|]. split; [exact Wri|]. split; [exact Wro|]. split; [exact Si|]. split; [exact So|]. split; [exact Gi|].
  split; [exact Go|]. split; [exact Es'|]. split; [exact Nsh'|].
  assert (Pr : forall ax, In ax (dkeys sh) -> points r (rho ax) = points f ax) by (intros ax H; unfold points; now rewrite Di, Do).
  intros ax n. rewrite (in_dget _ _ _ Nsh'), Ps'. split.
  - intros P. assert (K : exists ax0, ax = rho ax0 /\ In ax0 (dkeys sh)).
    { unfold points in P. destruct (dget (sshape (f_outputs r)) ax) as [m|] eqn:E.
      - apply dget_In in E. change (f_outputs r) with ro in E. rewrite So in E. apply Im in E as (a & Ha & ->). exists a. split; auto. apply Ko. now apply (in_map fst) in Ha.
      - destruct (dget (sshape (f_inputs r)) ax) as [m|] eqn:E'; [|discriminate].
        apply dget_In in E'. change (f_inputs r) with ri in E'. rewrite Si in E'. apply Im in E' as (a & Ha & ->). exists a. split; auto. apply Ki. now apply (in_map fst) in Ha. }
    destruct K as (a & -> & Ka). exists a. split; auto. apply (in_dget _ _ _ Nsh). now rewrite Ps, <- Pr.
  - intros (a & -> & Ha). rewrite Pr by now apply (in_map fst) in Ha. rewrite <- Ps. now apply in_dget.
Qed.

(** ** Taking elements along an axis *)

Lemma vertex_binned {A B} (f : farr A B) x : wf (f_inputs f) -> wf (f_outputs f) -> compatible f ->
  exists v, axes_vertex f = Ok v /\ smem x v = binned f x.
Proof.
  intros Wi Wo C. exists (filter (bin_axis f) (f_axes f)). split; [exact (vertex_gen f C)|].
  change (binned f x) with (bin_axis f x). destruct (bin_axis f x) eqn:E.
  - apply smem_In, filter_In. split; auto. apply (points_keys f x Wi Wo). unfold points. unfold bin_axis in E.
    destruct (dget (sshape (f_outputs f)) x); [|discriminate]. destruct (dget (sshape (f_inputs f)) x); [eauto|discriminate].
  - apply smem_false. intros H. apply filter_In in H as [_ H]. congruence.
Qed.

Lemma bat_broadcast {A} (a b : sarr A) (x : string) (n : nat) : wf a -> wf b ->
  (forall k, dget (sshape a) x = Some k -> k = 1 \/ k = n) ->
  (forall ax, dget (sshape b) ax = if String.eqb ax x then Some n else dget (sshape a) ax) ->
  (forall e, at_ b e = bat a e) -> forall e, bat b e = bat a e.
Proof.
  intros W Wb H D G e. unfold bat at 1. rewrite G. apply (op_at_clamp (OpArr a)); [exact W|now apply wf_nodup|].
  intros ax k Hk. cbn in Hk. apply (in_dget _ _ _ (wf_nodup _ W)) in Hk. destruct (String.eqb_spec ax x) as [-> |N].
  - destruct (H k Hk) as [-> | ->]; [now left|right]. apply dget_In. now rewrite D, String.eqb_refl.
  - right. apply dget_In. rewrite D. destruct (String.eqb_spec ax x); [contradiction|exact Hk].
Qed.

Lemma dget_others (s : shape) x ax : dget (without s [x]) ax = if String.eqb ax x then None else dget s ax.
Proof.
  unfold without. rewrite (dget_filter_key s (fun k => negb (smem k [x]))). cbn [smem existsb].
  rewrite orb_false_r. now destruct (String.eqb ax x).
Qed.

Lemma filter_others (s : shape) x : filter (fun kv => negb (String.eqb (fst kv) x)) s = without s [x].
Proof.
  unfold without. apply filter_ext. intros [k v]. cbn [smem existsb fst]. now rewrite orb_false_r.
Qed.

Lemma conflict_ext l l' : (forall ax, sizes_of l ax = sizes_of l' ax) -> conflict l -> conflict l'.
Proof. intros H (ax & n & m & A & B & R). exists ax, n, m. rewrite <- H. auto. Qed.

Lemma take_part {A} (a : sarr A) (indices : operand Z) (x : string) (n : nat) : wf a -> op_wf indices ->
  (forall k, dget (sshape a) x = Some k -> k = 1 \/ k = n) ->
  let i := normalize indices in
  ~ conflict [without (sshape a) [x]; without (sshape i) [x]] ->
  (forall e, inside e (sshape i) -> in_range n (at_ i e)) ->
  exists b r, na_broadcast_to a [(x, n)] true = Ok b /\ na_take_along_axis (OpArr b) indices x = Ok r /\ wf r /\
    (forall ax k, In (ax, k) (sshape r) <->
       if String.eqb ax x then k = size_of (sshape i) x
       else (In ax (dkeys (sshape a)) \/ In ax (dkeys (sshape i))) /\ common_size (sizes_of [sshape a; sshape i] ax) k) /\
    forall e, inside e (sshape r) -> exists p, index_is n (bat i e) p /\ at_ r e = bat a (set_env e x p).
Proof.
  intros W Wn H i NC Rg. destruct (broadcast_axis a x n W H) as (b & Eb & Wb & Db & Gb).
  assert (Wi : wf i) by (unfold i; destruct indices; [exact Wn|repeat constructor]).
  destruct (take_along_axis_spec (OpArr b) indices x Wb Wn) as [_ T]. cbn [normalize] in T. fold i in T.
  assert (Kx : In x (s_axes b)) by (rewrite <- (wf_keys b Wb); apply key_dget; exists n; now rewrite Db, String.eqb_refl).
  specialize (T Kx). cbv zeta beta in T. rewrite !filter_others in T.
  assert (Sz : size_of (sshape b) x = n) by (unfold size_of; now rewrite Db, String.eqb_refl). rewrite Sz in T.
  assert (Nd : forall s : shape, NoDup (dkeys s) -> NoDup (dkeys (without s [x]))) by (intros s Hs; now apply nodup_map_filter).
  assert (N2 : Forall (fun s : shape => NoDup (dkeys s)) [without (sshape b) [x]; without (sshape i) [x]]).
  { constructor; [now apply Nd, wf_nodup|]. constructor; [now apply Nd, wf_nodup|constructor]. }
  match type of T with match ?q with Ok _ => _ | Err _ => _ end => destruct q as [sh|er] eqn:E end.
  2:{ exfalso. apply NC. assert (Cf : conflict [without (sshape b) [x]; without (sshape i) [x]]).
      { apply broadcast_shapes_conflict; auto. destruct (broadcast_shapes_total _ N2) as [[q Q]|Q]; [|exact Q]. exfalso. change (broadcast_shapes [without (sshape b) [x]; without (sshape i) [x]] = Err er) in E. congruence. }
      revert Cf. apply conflict_ext. intros ax. rewrite !sizes2, !dget_others, Db. now destruct (String.eqb ax x). }
  destruct T as [T _]. destruct (T Rg) as (r & Er & Wr & Sr & Vr). exists b, r. split; [exact Eb|]. split; [exact Er|]. split; [exact Wr|].
  destruct (broadcast_shapes_ok _ _ N2 E) as (_ & Ks & Ps). split.
  - intros ax k. assert (Nr := wf_nodup _ Wr). rewrite Sr in Nr. inversion Nr; subst. rewrite Sr. cbn [In].
    destruct (String.eqb_spec ax x) as [Ex|Nx].
    + subst ax. split; [|intros ->; now left]. intros [Q|Q]; [now injection Q|]. exfalso. apply H2. now apply (in_map fst) in Q.
    + rewrite Ps. cbn [map concat]. rewrite app_nil_r, in_app_iff, !sizes2, !key_dget, !dget_others, Db.
      destruct (String.eqb_spec ax x); [contradiction|]. split.
      * intros [Q|Q]; [injection Q as Q _; congruence|exact Q].
      * intros Q. now right.
  - intros e He. destruct (Vr e He) as (p & P1 & P2). exists p. split; auto. rewrite P2. now apply (bat_broadcast a b x n).
Qed.

Theorem f_take_along_spec {A B} (f : farr A B) (indices : operand Z) (x : string) (sh : shape) (n : nat) :
  wf (f_inputs f) -> wf (f_outputs f) -> compatible f -> f_shape f = Ok sh -> op_wf indices -> In (x, n) sh ->
  let i := normalize indices in
  (binned f x = true -> f_take_along_axis f indices x = Err ValueError) /\
  (binned f x = false ->
   ~ conflict [without (sshape (f_inputs f)) [x]; without (sshape i) [x]] ->
   ~ conflict [without (sshape (f_outputs f)) [x]; without (sshape i) [x]] ->
   (forall e, inside e (sshape i) -> in_range n (at_ i e)) ->
   exists r, f_take_along_axis f indices x = Ok r /\ wf (f_inputs r) /\ wf (f_outputs r) /\
     (forall ax k, In (ax, k) (sshape (f_inputs r)) <->
        if String.eqb ax x then k = size_of (sshape i) x
        else (In ax (dkeys (sshape (f_inputs f))) \/ In ax (dkeys (sshape i))) /\ common_size (sizes_of [sshape (f_inputs f); sshape i] ax) k) /\
     (forall ax k, In (ax, k) (sshape (f_outputs r)) <->
        if String.eqb ax x then k = size_of (sshape i) x
        else (In ax (dkeys (sshape (f_outputs f))) \/ In ax (dkeys (sshape i))) /\ common_size (sizes_of [sshape (f_outputs f); sshape i] ax) k) /\
     forall e, inside e (sshape (f_inputs r)) -> inside e (sshape (f_outputs r)) ->
       exists p, index_is n (bat i e) p /\
         at_ (f_inputs r) e = bat (f_inputs f) (set_env e x p) /\ at_ (f_outputs r) e = bat (f_outputs f) (set_env e x p)).
Proof.
  intros Wi Wo C0 Es Wn Hx i. destruct (f_shape_gen f Wi Wo C0) as (sh' & Es' & Nsh & Ps). assert (sh' = sh) by congruence. subst sh'. clear Es'.
  assert (Dx := proj1 (in_dget sh x n Nsh) Hx). destruct (vertex_binned f x Wi Wo C0) as (v & Ev & Hv).
  unfold f_take_along_axis. rewrite Es. cbn [bind]. rewrite Dx, Ev. cbn [bind]. rewrite Hv. split; intros Bn; rewrite Bn; [reflexivity|].
  intros Ci Co Rg. rewrite Ps in Dx.
  destruct (take_part (f_inputs f) indices x n Wi Wn) as (bi & ri & E1 & E2 & Wri & Sri & Gri); auto.
  { intros k Ek. now apply (points_inputs f x n k). }
  destruct (take_part (f_outputs f) indices x n Wo Wn) as (bo & ro & E3 & E4 & Wro & Sro & Gro); auto.
  { intros k Ek. now apply (points_outputs f x n k). }
  rewrite E1. cbn [bind]. rewrite E3. cbn [bind]. rewrite E2. cbn [bind]. rewrite E4. cbn [bind].
  exists (mkF ri ro). split; [reflexivity|]. split; [exact Wri|]. split; [exact Wro|]. split; [exact Sri|]. split; [exact Sro|].
  intros e He Ho. destruct (Gri e He) as (p & P1 & P2). destruct (Gro e Ho) as (q & Q1 & Q2).
  rewrite (index_is_unique _ _ _ _ Q1 P1) in Q2. exists p. auto.
Qed.

(** ** Concatenation *)

Lemma mapM_forall2 {A B} (h : A -> res B) (R : A -> B -> Prop) (l : list A) :
  (forall a, In a l -> exists b, h a = Ok b /\ R a b) -> exists l', mapM h l = Ok l' /\ Forall2 R l l'.
Proof.
  induction l as [|a l IH]; intros H; [exists []; auto|].
  destruct (H a (or_introl eq_refl)) as (b & E & Rb). destruct IH as (l' & E' & F); [intros y Hy; apply H; now right|].
  exists (b :: l'). cbn. rewrite E. cbn. rewrite E'. auto.
Qed.

Lemma existsb_forall2_false {A B} (R : A -> B -> Prop) (p : B -> bool) l l' : Forall2 R l l' ->
  (forall a b, In a l -> R a b -> p b = false) -> existsb p l' = false.
Proof.
  induction 1 as [|a b l l' Ra F IH]; intros H; auto. cbn. rewrite (H a b (or_introl eq_refl) Ra). apply IH.
  intros a' b' Ha. apply H. now right.
Qed.

Lemma forall2_nth {A B} (R : A -> B -> Prop) l l' k a : Forall2 R l l' -> nth_error l k = Some a -> exists b, nth_error l' k = Some b /\ R a b.
Proof.
  intros F. revert k. induction F as [|x y l l' Rx F IH]; intros [|k] H; cbn in *; try discriminate.
  - injection H as <-. eauto.
  - auto.
Qed.

Lemma forall2_map {A B C} (R : A -> B -> Prop) (g : A -> C) (h : B -> C) l l' : Forall2 R l l' ->
  (forall a b, In a l -> R a b -> g a = h b) -> map g l = map h l'.
Proof.
  induction 1 as [|a b l l' Ra F IH]; intros H; auto. cbn. f_equal; [apply H; auto; now left|]. apply IH. intros a' b' Ha. apply H. now right.
Qed.

Definition sizeat {A B} (x : string) (f : farr A B) : nat := match points f x with Some n => n | None => 0 end.

Definition spread_along {A B} (x : string) (f g : farr A B) : Prop :=
  wf (f_inputs g) /\ wf (f_outputs g) /\
  (forall ax, dget (sshape (f_inputs g)) ax = if String.eqb ax x then Some (sizeat x f) else dget (sshape (f_inputs f)) ax) /\
  (forall ax, dget (sshape (f_outputs g)) ax = if String.eqb ax x then Some (sizeat x f) else dget (sshape (f_outputs f)) ax) /\
  (forall e, bat (f_inputs g) e = bat (f_inputs f) e) /\ (forall e, bat (f_outputs g) e = bat (f_outputs f) e).

Lemma f_spread {A B} (x : string) (f : farr A B) (sh : shape) n : wf (f_inputs f) -> wf (f_outputs f) -> compatible f ->
  f_shape f = Ok sh -> dget sh x = Some n -> binned f x = false ->
  exists g, f_broadcast_to f [(x, n)] true = Ok g /\ spread_along x f g.
Proof.
  intros Wi Wo C0 Es Dx Bn. destruct (f_shape_gen f Wi Wo C0) as (sh' & Es' & Nsh & Ps). assert (sh' = sh) by congruence. subst sh'. clear Es'.
  rewrite Ps in Dx. destruct (vertex_binned f x Wi Wo C0) as (v & Ev & Hv). unfold f_broadcast_to. rewrite Ev. cbn [bind map fst snd].
  rewrite Hv, Bn.
  assert (Hi : forall k, dget (sshape (f_inputs f)) x = Some k -> k = 1 \/ k = n) by (intros k Ek; now apply (points_inputs f x n k)).
  assert (Ho : forall k, dget (sshape (f_outputs f)) x = Some k -> k = 1 \/ k = n) by (intros k Ek; now apply (points_outputs f x n k)).
  destruct (broadcast_axis (f_inputs f) x n Wi Hi) as (bi & E1 & W1 & D1 & G1).
  destruct (broadcast_axis (f_outputs f) x n Wo Ho) as (bo & E2 & W2 & D2 & G2).
  rewrite E1. cbn [bind]. rewrite E2. cbn [bind]. exists (mkF bi bo). split; [reflexivity|].
  assert (Sx : sizeat x f = n) by (unfold sizeat; now rewrite Dx).
  unfold spread_along. rewrite Sx. split; [exact W1|]. split; [exact W2|]. split; [exact D1|]. split; [exact D2|]. split.
  - now apply (bat_broadcast _ _ x n).
  - now apply (bat_broadcast _ _ x n).
Qed.

Lemma concatenate_part {A} (l : list (sarr A)) (x : string) : l <> [] -> Forall wf l -> (forall a, In a l -> In x (s_axes a)) ->
  ~ conflict (map (fun a => without (sshape a) [x]) l) ->
  exists r, na_concatenate (map OpArr l) x None = Ok r /\ wf r /\
    size_of (sshape r) x = list_sum (map (fun a => size_of (sshape a) x) l) /\
    (forall ax k, ax <> x -> (In (ax, k) (sshape r) <-> (exists a, In a l /\ In ax (s_axes a)) /\ common_size (sizes_of (map sshape l) ax) k)) /\
    forall k a e, nth_error l k = Some a -> e x < size_of (sshape a) x ->
      at_ r (set_env e x (list_sum (firstn k (map (fun a => size_of (sshape a) x) l)) + e x)) = bat a e.
Proof.
  intros Ne W Hx NC.
  assert (Wl : Forall op_wf (map OpArr l)) by (apply Forall_forall; intros o Ho; apply in_map_iff in Ho as (a & <- & Ha); rewrite Forall_forall in W; now apply W).
  assert (Nl : map normalize (map OpArr l) = l) by (rewrite map_map; apply map_id).
  destruct (concatenate_spec (map OpArr l) x Wl) as [H _]. rewrite Nl in H. cbv zeta in H.
  assert (Sz : forall ax, ax <> x -> sizes_of (map (fun a : sarr A => resized (sshape a) x 1) l) ax = sizes_of (map sshape l) ax).
  { intros ax N. unfold sizes_of. rewrite !flat_map_concat_map, !map_map. f_equal. apply map_ext. intros a. rewrite dget_resized.
    destruct (String.eqb_spec ax x); [contradiction|now destruct (dget (sshape a) ax)]. }
  assert (S1 : forall k, In k (sizes_of (map (fun a : sarr A => resized (sshape a) x 1) l) x) -> k = 1).
  { intros k Hk. unfold sizes_of in Hk. rewrite flat_map_concat_map, map_map, <- flat_map_concat_map in Hk. apply in_flat_map in Hk as (a & _ & Hk).
    rewrite dget_resized, String.eqb_refl in Hk. destruct (dget (sshape a) x); [|contradiction]. destruct Hk as [<- |[]]; auto. }
  destruct H as (r & sh & Bs & Er & Wr & Sr & Gr).
  { split; [exact Ne|]. split; [exact Hx|]. intros (ax & u & v & Hu & Hv & Nuv & Nu & Nv).
    destruct (String.eqb_spec ax x) as [-> |N]; [now apply S1 in Hu|]. rewrite (Sz ax N) in Hu, Hv. apply NC. exists ax, u, v.
    assert (Q : sizes_of (map (fun a : sarr A => without (sshape a) [x]) l) ax = sizes_of (map sshape l) ax).
    { unfold sizes_of. rewrite !flat_map_concat_map, !map_map. f_equal. apply map_ext. intros a. rewrite dget_others.
      destruct (String.eqb_spec ax x); [contradiction|reflexivity]. }
    rewrite Q. auto. }
  destruct (concatenate_inv (map OpArr l) x r Wl Er) as (_ & _ & Ax & Sx & Ge). rewrite Nl in Sx, Ge. cbv zeta in Sx, Ge.
  exists r. split; [exact Er|]. split; [exact Wr|]. split; [exact Sx|]. split; [|exact Ge].
  assert (Nd : Forall (fun s : shape => NoDup (dkeys s)) (map (fun a : sarr A => resized (sshape a) x 1) l)).
  { apply Forall_forall. intros s Hs. apply in_map_iff in Hs as (a & <- & Ha). rewrite dkeys_resized. rewrite Forall_forall in W. now apply wf_nodup, W. }
  destruct (broadcast_shapes_ok _ _ Nd Bs) as (Ns & _ & Ps). intros ax k N.
  assert (In (ax, k) (sshape r) <-> In (ax, k) sh).
  { assert (Nr := wf_nodup _ Wr). rewrite (in_dget _ _ _ Nr), (in_dget _ _ _ Ns), Sr, dget_resized. destruct (String.eqb_spec ax x); [contradiction|]. destruct (dget sh ax); tauto. }
  rewrite H, Ps, (Sz ax N). assert (K : In ax (concat (map dkeys (map (fun a : sarr A => resized (sshape a) x 1) l))) <-> exists a, In a l /\ In ax (s_axes a)).
  { rewrite map_map, <- flat_map_concat_map, in_flat_map. rewrite Forall_forall in W. split; intros (a & Ha & K); exists a; (split; [exact Ha|]).
    - rewrite dkeys_resized, (wf_keys a (W a Ha)) in K. exact K.
    - now rewrite dkeys_resized, (wf_keys a (W a Ha)). }
  now rewrite K.
Qed.

Theorem f_concatenate_spec {A B} (fs : list (farr A B)) (x : string) : fs <> [] ->
  (forall f, In f fs -> wf (f_inputs f) /\ wf (f_outputs f) /\ compatible f) ->
  ((exists f, In f fs /\ points f x = None) \/ (exists f, In f fs /\ binned f x = true) ->
   f_concatenate fs x = Err ValueError) /\
  ((forall f, In f fs -> points f x <> None) -> (forall f, In f fs -> binned f x = false) ->
   ~ conflict (map (fun f => without (sshape (f_inputs f)) [x]) fs) ->
   ~ conflict (map (fun f => without (sshape (f_outputs f)) [x]) fs) ->
   let size (f : farr A B) := match points f x with Some n => n | None => 0 end in
   exists r, f_concatenate fs x = Ok r /\ wf (f_inputs r) /\ wf (f_outputs r) /\
     size_of (sshape (f_inputs r)) x = list_sum (map size fs) /\ size_of (sshape (f_outputs r)) x = list_sum (map size fs) /\
     (forall ax n, ax <> x -> (In (ax, n) (sshape (f_inputs r)) <->
        (exists f, In f fs /\ In ax (s_axes (f_inputs f))) /\ common_size (sizes_of (map (fun f => sshape (f_inputs f)) fs) ax) n)) /\
     (forall ax n, ax <> x -> (In (ax, n) (sshape (f_outputs r)) <->
        (exists f, In f fs /\ In ax (s_axes (f_outputs f))) /\ common_size (sizes_of (map (fun f => sshape (f_outputs f)) fs) ax) n)) /\
     forall k f e, nth_error fs k = Some f -> e x < size f ->
       let e' := set_env e x (list_sum (firstn k (map size fs)) + e x) in
       at_ (f_inputs r) e' = bat (f_inputs f) e /\ at_ (f_outputs r) e' = bat (f_outputs f) e).
Proof.
  intros Ne G.
  assert (Sh : forall f, In f fs -> exists sh, f_shape f = Ok sh /\ NoDup (dkeys sh) /\ forall ax, dget sh ax = points f ax).
  { intros f Hf. destruct (G f Hf) as (Wi & Wo & C). exact (f_shape_gen f Wi Wo C). }
  destruct (mapM_forall2 f_shape (fun f sh => f_shape f = Ok sh /\ forall ax, dget sh ax = points f ax) fs) as (shs & Eshs & Fsh).
  { intros f Hf. destruct (Sh f Hf) as (sh & E & _ & P). exists sh. auto. }
  destruct (mapM_forall2 axes_vertex (fun f v => smem x v = binned f x) fs) as (vs & Evs & Fvs).
  { intros f Hf. destruct (G f Hf) as (Wi & Wo & C). exact (vertex_binned f x Wi Wo C). }
  assert (Ex : (exists f, In f fs /\ points f x = None) -> existsb (fun sh => negb (smem x (dkeys sh))) shs = true).
  { intros (f & Hf & P). apply In_nth_error in Hf as [k Hk]. destruct (forall2_nth _ _ _ _ _ Fsh Hk) as (sh & Hs & _ & Ps).
    apply existsb_exists. exists sh. split; [now apply nth_error_In in Hs|]. apply negb_true_iff, smem_false. intros K. apply key_dget in K as [n K].
    rewrite Ps in K. congruence. }
  assert (Bx : (exists f, In f fs /\ binned f x = true) -> existsb (fun v => smem x v) vs = true).
  { intros (f & Hf & P). apply In_nth_error in Hf as [k Hk]. destruct (forall2_nth _ _ _ _ _ Fvs Hk) as (v & Hs & Hv).
    apply existsb_exists. exists v. split; [now apply nth_error_In in Hs|congruence]. }
  split.
  - intros H. unfold f_concatenate. rewrite Eshs. cbn [bind]. destruct H as [H|H].
    + now rewrite (Ex H).
    + destruct (existsb (fun sh => negb (smem x (dkeys sh))) shs); [reflexivity|]. rewrite Evs. cbn [bind]. now rewrite (Bx H).
  - intros Hp Hb Ci Co size.
    assert (E1 : existsb (fun sh => negb (smem x (dkeys sh))) shs = false).
    { apply (existsb_forall2_false _ _ _ _ Fsh). intros f sh Hf [_ Ps]. apply negb_false_iff, smem_In, key_dget. rewrite Ps.
      specialize (Hp f Hf). destruct (points f x) as [n|]; [eauto|contradiction]. }
    assert (E2 : existsb (fun v => smem x v) vs = false).
    { apply (existsb_forall2_false _ _ _ _ Fvs). intros f v Hf Hv. now rewrite Hv, Hb. }
    unfold f_concatenate. rewrite Eshs. cbn [bind]. rewrite E1, Evs. cbn [bind]. rewrite E2.
    destruct (mapM_forall2 (fun f => sh <- f_shape f ;;
                               match dget sh x with
                               | Some n => f_broadcast_to f [(x, n)] true
                               | None => Err KeyError
                               end) (spread_along x) fs) as (gs & Egs & Fgs).
    { intros f Hf. destruct (Sh f Hf) as (sh & E & N & P). rewrite E. cbn [bind]. destruct (G f Hf) as (Wi & Wo & C).
      specialize (Hp f Hf). rewrite <- P in Hp. destruct (dget sh x) as [n|] eqn:Dx; [|contradiction]. exact (f_spread x f sh n Wi Wo C E Dx (Hb f Hf)). }
    rewrite Egs. cbn [bind].
    assert (Ng : gs <> []) by (destruct Fgs; [contradiction|discriminate]).
    assert (Rg : forall g, In g gs -> exists f, In f fs /\ spread_along x f g).
    { clear - Fgs. induction Fgs as [|f g fs gs R F IH]; intros g' H; [contradiction|]. destruct H as [<- |H].
      - exists f. split; [now left|exact R].
      - destruct (IH g' H) as (f' & Hf & R'). exists f'. split; [now right|exact R']. }
    assert (CI : ~ conflict (map (fun a => without (sshape a) [x]) (map f_inputs gs))).
    { rewrite map_map. intros K. apply Ci. revert K. apply conflict_ext. intros ax. unfold sizes_of. rewrite !flat_map_concat_map, !map_map. f_equal.
      symmetry. apply (forall2_map _ _ _ _ _ Fgs). intros f g _ (_ & _ & D & _). rewrite !dget_others, D. now destruct (String.eqb ax x). }
    assert (CO : ~ conflict (map (fun a => without (sshape a) [x]) (map f_outputs gs))).
    { rewrite map_map. intros K. apply Co. revert K. apply conflict_ext. intros ax. unfold sizes_of. rewrite !flat_map_concat_map, !map_map. f_equal.
      symmetry. apply (forall2_map _ _ _ _ _ Fgs). intros f g _ (_ & _ & _ & D & _). rewrite !dget_others, D. now destruct (String.eqb ax x). }
    destruct (concatenate_part (map f_inputs gs) x) as (ri & Eri & Wri & Sri & Oi & Gri); auto.
    { destruct gs; [contradiction|discriminate]. }
    { apply Forall_forall. intros a Ha. apply in_map_iff in Ha as (g & <- & Hg). destruct (Rg g Hg) as (f & _ & W & _). exact W. }
    { intros a Ha. apply in_map_iff in Ha as (g & <- & Hg). destruct (Rg g Hg) as (f & _ & W & _ & D & _).
      rewrite <- (wf_keys _ W). apply key_dget. exists (sizeat x f). now rewrite D, String.eqb_refl. }
    destruct (concatenate_part (map f_outputs gs) x) as (ro & Ero & Wro & Sro & Oo & Gro); auto.
    { destruct gs; [contradiction|discriminate]. }
    { apply Forall_forall. intros a Ha. apply in_map_iff in Ha as (g & <- & Hg). destruct (Rg g Hg) as (f & _ & _ & W & _). exact W. }
    { intros a Ha. apply in_map_iff in Ha as (g & <- & Hg). destruct (Rg g Hg) as (f & _ & _ & W & _ & D & _).
      rewrite <- (wf_keys _ W). apply key_dget. exists (sizeat x f). now rewrite D, String.eqb_refl. }
    rewrite map_map in Eri, Ero. rewrite Eri. cbn [bind]. rewrite Ero. cbn [bind]. exists (mkF ri ro).
    assert (Zi : map (fun a => size_of (sshape a) x) (map f_inputs gs) = map size fs).
    { rewrite map_map. symmetry. apply (forall2_map _ _ _ _ _ Fgs). intros f g _ (_ & _ & D & _). unfold size_of. now rewrite D, String.eqb_refl. }
    assert (Zo : map (fun a => size_of (sshape a) x) (map f_outputs gs) = map size fs).
    { rewrite map_map. symmetry. apply (forall2_map _ _ _ _ _ Fgs). intros f g _ (_ & _ & _ & D & _). unfold size_of. now rewrite D, String.eqb_refl. }
    split; [reflexivity|]. split; [exact Wri|]. split; [exact Wro|]. split; [now rewrite <- Zi|]. split; [now rewrite <- Zo|]. split; [|split].
    { intros ax n Nax. cbn [f_inputs]. rewrite (Oi ax n Nax). clear Oi.
      assert (Q : sizes_of (map sshape (map f_inputs gs)) ax = sizes_of (map (fun f => sshape (f_inputs f)) fs) ax).
      { unfold sizes_of. rewrite !flat_map_concat_map, !map_map. f_equal. symmetry. apply (forall2_map _ _ _ _ _ Fgs). intros f g _ (_ & _ & D & _). rewrite D.
        destruct (String.eqb_spec ax x); [contradiction|reflexivity]. }
      rewrite Q. assert (K : (exists a, In a (map f_inputs gs) /\ In ax (s_axes a)) <-> exists f, In f fs /\ In ax (s_axes (f_inputs f))); [|now rewrite K].
      split.
      - intros (a & Ha & K). apply in_map_iff in Ha as (g & <- & Hg). destruct (Rg g Hg) as (f & Hf & W & _ & D & _). exists f. split; [exact Hf|].
        rewrite <- (wf_keys _ W) in K. rewrite <- (wf_keys _ (proj1 (G f Hf))). apply key_dget in K as [n' K]. apply key_dget. exists n'.
        rewrite D in K. destruct (String.eqb_spec ax x); [contradiction|exact K].
      - intros (f & Hf & K). assert (Hf' := Hf). apply In_nth_error in Hf as [k Hk]. destruct (forall2_nth _ _ _ _ _ Fgs Hk) as (g & Hg & W & _ & D & _).
        exists (f_inputs g). split; [apply in_map; now apply nth_error_In in Hg|]. rewrite <- (wf_keys _ W). rewrite <- (wf_keys _ (proj1 (G f Hf'))) in K.
        apply key_dget in K as [n' K]. apply key_dget. exists n'. rewrite D. destruct (String.eqb_spec ax x); [contradiction|exact K]. }
    { intros ax n Nax. cbn [f_outputs]. rewrite (Oo ax n Nax). clear Oo.
      assert (Q : sizes_of (map sshape (map f_outputs gs)) ax = sizes_of (map (fun f => sshape (f_outputs f)) fs) ax).
      { unfold sizes_of. rewrite !flat_map_concat_map, !map_map. f_equal. symmetry. apply (forall2_map _ _ _ _ _ Fgs). intros f g _ (_ & _ & _ & D & _). rewrite D.
        destruct (String.eqb_spec ax x); [contradiction|reflexivity]. }
      rewrite Q. assert (K : (exists a, In a (map f_outputs gs) /\ In ax (s_axes a)) <-> exists f, In f fs /\ In ax (s_axes (f_outputs f))); [|now rewrite K].
      split.
      - intros (a & Ha & K). apply in_map_iff in Ha as (g & <- & Hg). destruct (Rg g Hg) as (f & Hf & _ & W & _ & D & _). exists f. split; [exact Hf|].
        rewrite <- (wf_keys _ W) in K. rewrite <- (wf_keys _ (proj1 (proj2 (G f Hf)))). apply key_dget in K as [n' K]. apply key_dget. exists n'.
        rewrite D in K. destruct (String.eqb_spec ax x); [contradiction|exact K].
      - intros (f & Hf & K). assert (Hf' := Hf). apply In_nth_error in Hf as [k Hk]. destruct (forall2_nth _ _ _ _ _ Fgs Hk) as (g & Hg & _ & W & _ & D & _).
        exists (f_outputs g). split; [apply in_map; now apply nth_error_In in Hg|]. rewrite <- (wf_keys _ W). rewrite <- (wf_keys _ (proj1 (proj2 (G f Hf')))) in K.
        apply key_dget in K as [n' K]. apply key_dget. exists n'. rewrite D. destruct (String.eqb_spec ax x); [contradiction|exact K]. }
    intros k f e Hk Lt. destruct (forall2_nth _ _ _ _ _ Fgs Hk) as (g & Hg & _ & _ & Di & Do & Bi & Bo). split.
    + cbn [f_inputs]. rewrite <- Zi, <- Bi. apply Gri; [now apply map_nth_error|]. unfold size_of. now rewrite Di, String.eqb_refl.
    + cbn [f_outputs]. rewrite <- Zo, <- Bo. apply Gro; [now apply map_nth_error|]. unfold size_of. now rewrite Do, String.eqb_refl.
Qed.
