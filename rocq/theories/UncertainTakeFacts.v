(** Facts about taking elements of uncertain scalars along an axis. *)
From Coq Require Import String List Arith ZArith Bool Lia.
From Verif Require Import Base BaseFacts Numpy NumpyFacts Shapes Scalar Elementwise Reorder Along Sorting Uncertain UncertainChoice UncertainAlong UncertainJoin UncertainTake
  Spec SpecFilter SpecVectorReduce SpecUncertain SpecUncertainChoice SpecUncertainAlong SpecUncertainEqual SpecUncertainJoin SpecUncertainTake
  ShapesFacts AlignFacts ElementwiseFacts ReduceFacts SortingFacts AlongFacts RankdataFacts VectorIndexFacts OptimizeFacts MatrixFacts PdfFacts FuncFacts VectorReduceFacts
  UncertainFacts UncertainIndexFacts UncertainFilterFacts UncertainChoiceFacts UncertainReorderFacts UncertainAlongFacts UncertainEqualFacts UncertainJoinFacts.
From Verif Require UncertainFourierFacts.
Import ListNotations.
Open Scope nat_scope.
Open Scope list_scope.

Lemma beside_dget axis (s : shape) ax : dget (beside axis s) ax = if String.eqb ax axis then None else dget s ax.
Proof.
  unfold beside. induction s as [|[k v] s IH]; cbn [filter dget fst snd]; [now destruct (String.eqb ax axis)|].
  destruct (String.eqb_spec k axis) as [Ek|Nk]; cbn [negb dget fst snd].
  - rewrite IH, Ek. now destruct (String.eqb ax axis).
  - rewrite IH. destruct (String.eqb_spec ax k) as [Ea|]; [|reflexivity]. destruct (String.eqb_spec ax axis); [congruence|reflexivity].
Qed.

Lemma beside_nodup axis s : NoDup (dkeys s) -> NoDup (dkeys (beside axis s)).
Proof.
  unfold beside, dkeys. induction s as [|[k v] s IH]; cbn [filter map fst]; intros N; [constructor|]. inversion N as [|? ? H N']; subst.
  destruct (negb (String.eqb k axis)); [|now apply IH]. cbn [map fst]. constructor; [|now apply IH]. intros Q. apply H.
  apply in_map_iff in Q as (q & E & Q). apply filter_In in Q as [Q _]. apply in_map_iff. eauto.
Qed.

Lemma alike_beside axis s t : NoDup (dkeys s) -> NoDup (dkeys t) -> (forall ax, ax <> axis -> dget s ax = dget t ax) -> alike_shape (beside axis s) (beside axis t).
Proof.
  intros Ns Nt D. split; [now apply beside_nodup|]. split; [now apply beside_nodup|]. intros ax. rewrite !beside_dget. destruct (String.eqb_spec ax axis); auto.
Qed.

Lemma widened_shape axis num (sd : shape) : NoDup (dkeys sd) -> In (axis, num) sd ->
  exists sd', broadcast_shapes [[(axis, num)]; sd] = Ok sd' /\ NoDup (dkeys sd') /\ forall ax, dget sd' ax = dget sd ax.
Proof.
  intros N H. assert (Nl : Forall (fun s => NoDup (dkeys s)) [[(axis, num)]; sd]) by (constructor; [repeat constructor; intros []|auto]).
  assert (Same : forall ax n s, In s [[(axis, num)]; sd] -> In (ax, n) s -> In (ax, n) sd).
  { intros ax n s [<- |[<- |[]]] Hs; [|exact Hs]. destruct Hs as [Hs|[]]. now injection Hs as <- <-. }
  destruct (PdfFacts.fits_broadcast [[(axis, num)]; sd] sd Nl N) as (sd' & E & _); [intros s Hs ax n Hn; exists n; split; [now apply (Same ax n s)|auto]|].
  exists sd'. split; [exact E|]. destruct (broadcast_joint _ _ Nl E) as (N' & Fi & At). split; [exact N'|]. apply same_dget; auto. intros x m. split.
  - intros Hx. destruct (At _ _ Hx) as (s & Hs & Hm). now apply (Same x m s).
  - intros Hx. destruct (Fi sd ltac:(right; now left) x m Hx) as (q & Hq & _). destruct (At _ _ Hq) as (s & Hs & Hm). apply (Same x q s Hs) in Hm.
    apply (dget_NoDup _ _ _ N) in Hx, Hm. assert (q = m) as -> by congruence. exact Hq.
Qed.

Lemma ddel_absent (s : shape) k : ~ In k (dkeys s) -> ddel s k = s.
Proof.
  induction s as [|[k' v] s IH]; cbn [ddel dkeys map fst]; intros H; [reflexivity|].
  destruct (String.eqb_spec k k') as [E|_]; [destruct H; left; auto|]. f_equal. apply IH. intros Q. apply H. now right.
Qed.

Lemma certain_whole {A} (o : operand A) : op_wf o -> ~ In axis_distribution (dkeys (op_shape o)) -> u_shape (mkU o o) = Ok (op_shape o).
Proof.
  intros W X. unfold u_shape, u_shape_distribution, shape_broadcasted. cbn [u_nominal u_distribution].
  assert (E : broadcast_shapes (op_shapes [o; o]) = Ok (op_shape o)).
  { destruct o as [a|x]; [|reflexivity]. apply bs_dominated; [now apply wf_nodup|]. intros s [<- |[]]. split; [now apply wf_nodup|apply incl_refl]. }
  rewrite E. cbn [bind]. f_equal. now apply ddel_absent.
Qed.

(** one part *)
Lemma part_taken {A} (b : sarr A) (o : operand A) (S : shape) (i : operand Z) axis num : wf b -> op_wf i -> NoDup (dkeys S) ->
  (forall e, bat b e = op_at o e) -> dget (sshape b) axis = Some num -> (forall ax, ax <> axis -> dget (sshape b) ax = dget S ax) ->
  let l := [beside axis S; beside axis (op_shape i)] in
  let range := forall e, inside e (op_shape i) -> in_range num (op_at i e) in
  (~ conflict l -> range -> exists r T, na_take_along_axis (OpArr b) i axis = Ok r /\ wf r /\ joint l T /\
     sshape r = (axis, size_of (op_shape i) axis) :: T /\
     forall e, inside e (sshape r) -> exists p, index_is num (op_at i e) p /\ at_ r e = op_at o (set_env e axis p)) /\
  (conflict l -> na_take_along_axis (OpArr b) i axis = Err ValueError) /\
  (~ conflict l -> ~ range -> na_take_along_axis (OpArr b) i axis = Err IndexError).
Proof.
  intros Wb Wi NS V Dx D l range. destruct (take_along_axis_spec (OpArr b) i axis Wb Wi) as [_ H]. cbn zeta in H. cbn [normalize] in H.
  assert (Nb := wf_nodup b Wb). assert (Ni := op_shape_nodup i Wi).
  assert (Kx : In axis (s_axes b)) by (rewrite <- (wf_keys b Wb); apply dget_In in Dx; now apply (in_map fst) in Dx). specialize (H Kx).
  rewrite ElementwiseFacts.normalize_shape in H. fold (beside axis (sshape b)) in H. fold (beside axis (op_shape i)) in H.
  replace (size_of (sshape b) axis) with num in H by (unfold size_of; now rewrite Dx).
  assert (AL : Forall2 alike_shape [beside axis (sshape b); beside axis (op_shape i)] l).
  { constructor; [apply alike_beside; auto|]. constructor; [apply alike_beside; auto|constructor]. }
  assert (Nl : Forall (fun s => NoDup (dkeys s)) [beside axis (sshape b); beside axis (op_shape i)]) by (repeat constructor; now apply beside_nodup).
  assert (R : range <-> forall e, inside e (op_shape i) -> in_range num (at_ (normalize i) e)).
  { split; intros Q e He; specialize (Q e He).
    - rewrite <- (bat_inside (normalize i)), ElementwiseFacts.normalize_at; auto; [now apply ElementwiseFacts.normalize_wf|now rewrite ElementwiseFacts.normalize_shape].
    - rewrite <- ElementwiseFacts.normalize_at, bat_inside; auto; [now apply ElementwiseFacts.normalize_wf|now rewrite ElementwiseFacts.normalize_shape]. }
  destruct (broadcast_shapes_total _ Nl) as [[T E]|E];
    match type of H with context [broadcast_shapes ?m] => change (broadcast_shapes m) with (broadcast_shapes [beside axis (sshape b); beside axis (op_shape i)]) in H end; rewrite E in H.
  - assert (NC : ~ conflict l). { intros C. apply (alike_conflict _ _ (alike_all_sym _ _ AL)) in C. apply broadcast_shapes_conflict in C; auto. congruence. }
    destruct H as [Good Bad]. split; [|split; [intros C; contradiction|intros _ Q; apply Bad; intros Z; apply Q; now apply R]].
    intros _ Q. destruct (Good (proj1 R Q)) as (r & Er & Wr & Sr & Vr). exists r, T. split; [exact Er|]. split; [exact Wr|].
    split; [apply (alike_joint _ _ _ AL); now apply broadcast_joint|]. split; [exact Sr|].
    intros e He. destruct (Vr e He) as (p & Hp & Ep). exists p. rewrite ElementwiseFacts.normalize_at in Hp. split; [exact Hp|]. rewrite Ep. apply V.
  - assert (C : conflict l) by (apply (alike_conflict _ _ AL); now apply broadcast_shapes_conflict).
    split; [intros NC; contradiction|]. split; [intros _; exact H|intros NC; contradiction].
Qed.

Theorem u_take_spec {A} (x : uop A) (i : uop Z) (sh : shape) (axis : string) :
  uop_wf x -> sample_free x -> has_shape x sh -> uop_wf i -> sample_free i ->
  (~ In axis (dkeys sh) -> u_take_along_axis x i axis = Err ValueError) /\
  forall num, In (axis, num) sh ->
  ((forall w, ~ conflict (sides x sh i axis w) /\ positions num i w) ->
   exists n d, let r := mkU (OpArr n) (OpArr d) in u_take_along_axis x i axis = Ok r /\ u_wf r /\
     forall w, (exists T, joint (sides x sh i axis w) T /\ op_shape (u_part r w) = (axis, size_of (op_shape (part_of i w)) axis) :: T) /\
       forall e, u_inside r w e -> exists p, index_is num (u_at i w e) p /\ u_at (Uncertain r) w e = u_at x w (set_env e axis p)) /\
  (forall er, refused x sh num i axis None er -> u_take_along_axis x i axis = Err er) /\
  (forall er, ~ conflict (sides x sh i axis None) -> positions num i None -> refused x sh num i axis (Some 0) er ->
     u_take_along_axis x i axis = Err er).
Proof.
  intros Wx Fx Hs Wi Fi. destruct (as_unc_ok x Wx Fx) as (u & Eu & Wu & Nu & Du). destruct (as_unc_ok i Wi Fi) as (v & Ev & Wv & Nv & Dv).
  assert (H : u_shape u = Ok sh).
  { destruct x as [u'|o]; cbn [as_unc] in Eu; [injection Eu as <-; exact Hs|]. cbn [nominal_of distribution_of] in Nu, Du. destruct u as [a b]. cbn [u_nominal u_distribution] in Nu, Du. subst a b.
    cbn [has_shape] in Hs. subst sh. now apply certain_whole. }
  destruct (broadcast_parts u sh Wu H) as (Ns & Xs & _). pose proof Wu as (Wn & Wd & Wux).
  unfold u_take_along_axis. rewrite Eu. cbn [bind]. rewrite Ev. cbn [bind]. rewrite H. cbn [bind]. split.
  { intros K. apply dget_None in K. now rewrite K. }
  intros num Hx. assert (Nx : axis <> axis_distribution) by (intros ->; apply Xs; now apply (in_map fst) in Hx).
  assert (Dx := dget_NoDup _ _ _ Ns Hx). rewrite Dx.
  destruct (u_shape_ok u sh Wu H) as (sd & E & Nd & _ & P & Fn & Fd & At). rewrite E. cbn [bind].
  assert (Hxd : In (axis, num) sd) by (apply P in Hx; apply Hx).
  destruct (widened_shape axis num sd Nd Hxd) as (sd' & E' & Nd' & D'). rewrite E'. cbn [bind].
  destruct (append_ok (u_nominal u) [(axis, num)] Wn) as (bn & En & Wbn & Dn & Vn).
  { repeat constructor. intros []. }
  { intros y k m Hk Hm. cbn in Hm. destruct (String.eqb_spec y axis) as [-> |]; [|discriminate]. injection Hm as <-.
    destruct (u_shape_size u sh axis num None Wu H Dx) as [_ Q]. now apply Q. }
  destruct (append_ok (u_distribution u) sd' Wd Nd') as (bd & Ed & Wbd & Dd & Vd).
  { intros y k m Hk Hm. rewrite D' in Hm. apply dget_In in Hk, Hm. destruct (Fd y k Hk) as (q & Hq & Q). apply (dget_NoDup _ _ _ Nd) in Hq, Hm. assert (q = m) as -> by congruence. exact Q. }
  rewrite En. cbn [bind]. rewrite Ed. cbn [bind].
  assert (DB : forall ax, dget (sshape bd) ax = dget sd ax).
  { intros ax. rewrite Dd, D'. destruct (dget sd ax) eqn:G; [reflexivity|]. apply dget_None. apply dget_None in G. intros K. apply G.
    apply key_size in K as [q K]. destruct (Fd ax q K) as (q' & Hq & _). now apply (in_map fst) in Hq. }
  assert (FS : forall k ax, dget (full_shape (Some k) (x, sh)) ax = dget sd ax).
  { intros k. assert (Same : full_shape (Some k) (x, sh) = full_shape (Some k) (Uncertain u, sh)).
    { cbn [full_shape fst snd]. unfold samples. cbn [u_distribution nominal_of distribution_of]. now rewrite Du. }
    rewrite Same. destruct (UncertainFourierFacts.world_shape_nodup u sh (Some k) Wu H) as (NF & _). apply same_dget; auto. intros y m. cbn [full_shape fst snd].
    change (samples {| u_nominal := nominal_of (Uncertain u); u_distribution := distribution_of (Uncertain u) |}) with (samples u).
    rewrite in_app_iff, P, (samples_in u y m Wu). split.
    - intros [[Q _]|[-> Q]]; [exact Q|]. destruct (Fd _ _ Q) as (q & Hq & _). destruct (At _ _ Hq) as [Z|Z]; [now apply (in_map fst) in Z; contradiction|].
      apply (dget_NoDup _ _ _ (op_shape_nodup _ Wd)) in Z, Q. assert (q = m) as -> by congruence. exact Hq.
    - intros Q. destruct (string_dec y axis_distribution) as [-> |Ny]; [right|left; auto]. split; auto. destruct (At _ _ Q) as [Z|Z]; [now apply (in_map fst) in Z; contradiction|exact Z]. }
  rewrite mk_unc_intro.
  2:{ cbn [op_shape]. apply dget_None. rewrite Dn. cbn [dget fst snd]. destruct (String.eqb_spec axis_distribution axis) as [Q|_]; [now destruct Nx|]. now apply dget_None. }
  cbn [bind u_nominal u_distribution]. rewrite Nv, Dv, Nu in *. rewrite Du in *.
  assert (Wni : op_wf (nominal_of i)) by exact (part_wf i None Wi). assert (Wdi : op_wf (distribution_of i)) by exact (part_wf i (Some 0) Wi).
  destruct (part_taken bn (nominal_of x) (op_shape (nominal_of x)) (nominal_of i) axis num Wbn Wni (op_shape_nodup _ Wn) Vn) as (Gn & Cn & Rn).
  { rewrite Dn. cbn [dget fst snd]. now rewrite String.eqb_refl. }
  { intros ax Na. rewrite Dn. cbn [dget fst snd]. destruct (String.eqb_spec ax axis); [contradiction|reflexivity]. }
  destruct (part_taken bd (distribution_of x) (full_shape (Some 0) (x, sh)) (distribution_of i) axis num Wbd Wdi) as (Gd & Cd & Rd).
  { apply (full_nodup (x, sh) (Some 0)). split; [exact Wx|]. split; [exact Fx|exact Hs]. }
  { exact Vd. }
  { rewrite DB. now apply dget_NoDup. }
  { intros ax Na. now rewrite DB, FS. }
  change [beside axis (op_shape (nominal_of x)); beside axis (op_shape (nominal_of i))] with (sides x sh i axis None) in Gn, Cn, Rn.
  change [beside axis (full_shape (Some 0) (x, sh)); beside axis (op_shape (distribution_of i))] with (sides x sh i axis (Some 0)) in Gd, Cd, Rd.
  change (forall e, inside e (op_shape (nominal_of i)) -> in_range num (op_at (nominal_of i) e)) with (positions num i None) in Gn, Rn.
  change (forall e, inside e (op_shape (distribution_of i)) -> in_range num (op_at (distribution_of i) e)) with (positions num i (Some 0)) in Gd, Rd.
  split; [|split].
  - intros Good. destruct (Good None) as [C0 P0]. destruct (Good (Some 0)) as [C1 P1].
    destruct (Gn C0 P0) as (rn & Tn & Ern & Wrn & Jn & Sn & Vrn). destruct (Gd C1 P1) as (rd & Td & Erd & Wrd & Jd & Sd & Vrd).
    rewrite Ern. cbn [bind]. rewrite Erd. cbn [bind].
    assert (Xn : ~ In axis_distribution (dkeys (op_shape (OpArr rn)))).
    { cbn [op_shape]. rewrite Sn. intros [Q|Q]; [now apply Nx|]. apply key_size in Q as [q Q]. destruct Jn as (_ & _ & AtT). destruct (AtT _ _ Q) as (s & Hq & Hm).
      apply (in_map fst) in Hm. cbn [fst] in Hm. destruct Hq as [<- |[<- |[]]]; fold (dkeys (beside axis (op_shape (nominal_of x)))) in *;
        unfold beside in Hm; change (map fst ?l) with (dkeys l) in Hm; apply in_map_iff in Hm as ([z m] & Ez & Hm); cbn [fst] in Ez; subst z; apply filter_In in Hm as [Hm _].
      - apply Wux. now apply (in_map fst) in Hm.
      - apply (in_map fst) in Hm. pose proof Wv as (_ & _ & Z). rewrite Nv in Z. now apply Z. }
    exists rn, rd. cbn zeta. split; [now apply mk_unc_intro|]. assert (Wr : u_wf (mkU (OpArr rn) (OpArr rd))) by (split; [exact Wrn|split; [exact Wrd|exact Xn]]).
    split; [exact Wr|]. intros [k|]; cbn [u_part op_shape u_nominal u_distribution u_inside].
    + split; [exists Td; split; [exact Jd|exact Sd]|]. intros e He. rewrite (u_at_part_of i) by auto. cbn [u_at u_distribution op_at]. rewrite bat_inside by auto.
      destruct (Vrd _ He) as (p & Hp & Ep). exists p. split; [exact Hp|]. rewrite (u_at_part_of x) by auto. cbn [in_world part_of] in *. rewrite Ep. apply ReduceFacts.op_at_respects.
      intros y. unfold set_env. destruct (String.eqb_spec y axis) as [-> |]; [|reflexivity]. destruct (String.eqb_spec axis axis_distribution); [contradiction|reflexivity].
    + split; [exists Tn; split; [exact Jn|exact Sn]|]. intros e He. rewrite (u_at_part_of i) by auto. cbn [u_at u_nominal op_at]. rewrite bat_inside by auto.
      destruct (Vrn _ He) as (p & Hp & Ep). exists p. split; [exact Hp|]. rewrite (u_at_part_of x) by auto. exact Ep.
  - intros er [(-> & C)|(-> & C & Q)]; [rewrite (Cn C)|rewrite (Rn C Q)]; reflexivity.
  - intros er C0 P0 R. destruct (Gn C0 P0) as (rn & Tn & Ern & _). rewrite Ern. cbn [bind].
    destruct R as [(-> & C)|(-> & C & Q)]; [rewrite (Cd C)|rewrite (Rd C Q)]; reflexivity.
Qed.
