(** Facts about operations of uncertain arrays along an axis. *)
From Coq Require Import String List Arith ZArith Bool Lia.
From Verif Require Import Base BaseFacts Numpy NumpyFacts Shapes Scalar Elementwise Reorder Along Sorting Uncertain UncertainChoice UncertainAlong
  Spec SpecFilter SpecUncertain SpecUncertainChoice SpecUncertainAlong
  ShapesFacts AlignFacts ElementwiseFacts ReduceFacts SortingFacts AlongFacts RankdataFacts DerivedFacts VectorIndexFacts OptimizeFacts MatrixFacts PdfFacts FuncFacts
  UncertainFacts UncertainIndexFacts UncertainFilterFacts UncertainChoiceFacts UncertainReorderFacts.
Import ListNotations.
Open Scope nat_scope.
Open Scope list_scope.

(** [b] is [o] with the axis [ax] of size [num] *)
Definition spread {A} (o : operand A) (ax : string) (num : nat) (b : sarr A) : Prop :=
  wf b /\ (forall x, dget (sshape b) x = if String.eqb x ax then Some num else dget (op_shape o) x) /\ forall e, at_ b e = op_at o e.

Lemma spread_append {A} (o : operand A) ax num : op_wf o -> (forall k, dget (op_shape o) ax = Some k -> k = 1 \/ k = num) ->
  exists b, na_broadcast_to (normalize o) [(ax, num)] true = Ok b /\ spread o ax num b.
Proof.
  intros W H. destruct (append_ok o [(ax, num)] W) as (b & E & Wb & Db & Vb).
  - repeat constructor. intros [].
  - intros x k m Hk Hm. cbn in Hm. destruct (String.eqb_spec x ax) as [-> |]; [|discriminate]. injection Hm as <-. auto.
  - exists b. split; [exact E|]. split; [exact Wb|]. split.
    + intros x. rewrite Db. cbn [dget]. now destruct (String.eqb x ax).
    + unfold na_broadcast_to in E. apply bind_ok in E as (sh & Es & E). rewrite normalize_shape in Es.
      assert (Ns : Forall (fun s : shape => NoDup (dkeys s)) [op_shape o; [(ax, num)]]).
      { constructor; [now apply op_shape_nodup|]. constructor; [repeat constructor; intros []|constructor]. }
      destruct (broadcast_shapes_ok _ _ Ns Es) as (N & _).
      destruct (broadcast_normalized o sh W N) as (b' & E' & Wb' & Sb' & Vb').
      { intros x k Hk. apply (broadcast_fits _ _ _ Ns Es (or_introl eq_refl) x k Hk). }
      unfold na_broadcast_to in E'. cbn [bind] in E'. assert (b' = b) by congruence. subst b'. exact Vb'.
Qed.

Lemma dget_dset_eq {V} (d : dict V) k v x : dget (dset d k v) x = if String.eqb x k then Some v else dget d x.
Proof.
  induction d as [|[k' v'] d IH]; cbn [dset dget].
  - reflexivity.
  - destruct (String.eqb_spec k k') as [<- |N]; cbn [dget].
    + destruct (String.eqb x k); reflexivity.
    + rewrite IH. destruct (String.eqb_spec x k') as [-> |]; auto. destruct (String.eqb_spec k' k); auto. congruence.
Qed.

Lemma spread_set {A} (o : operand A) ax num : op_wf o -> (forall k, dget (op_shape o) ax = Some k -> k = 1 \/ k = num) ->
  exists b, na_broadcast_to (normalize o) (dset (op_shape o) ax num) false = Ok b /\ spread o ax num b.
Proof.
  intros W H. assert (N := op_shape_nodup o W). assert (N' : NoDup (dkeys (dset (op_shape o) ax num))) by now apply NoDup_dset.
  destruct (broadcast_normalized o (dset (op_shape o) ax num) W N') as (b & E & Wb & Sb & Vb).
  - intros x k Hk. apply (dget_NoDup _ _ _ N) in Hk. assert (G := dget_dset_eq (op_shape o) ax num x).
    destruct (String.eqb_spec x ax) as [-> |Nx].
    + exists num. split; [now apply dget_In|auto].
    + exists k. split; [apply dget_In; congruence|auto].
  - exists b. split; [exact E|]. split; [exact Wb|]. split; [|exact Vb]. intros x. rewrite Sb. apply dget_dset_eq.
Qed.

Lemma world_swap w (e : env) ax j : ax <> axis_distribution -> forall x, set_env (in_world w e) ax j x = in_world w (set_env e ax j) x.
Proof.
  intros N x. destruct w as [k|]; [|reflexivity]. cbn [in_world]. unfold set_env.
  destruct (String.eqb_spec x ax) as [-> |]; auto. destruct (String.eqb_spec ax axis_distribution); [contradiction|reflexivity].
Qed.

Lemma run_values {A} (u : unc A) w ax num e (b : sarr A) : ax <> axis_distribution -> size_of (sshape b) ax = num ->
  (forall e, at_ b e = op_at (u_part u w) e) -> line b ax (in_world w e) = u_run (Uncertain u) w ax num e.
Proof.
  intros N Sz V. unfold line, u_run. rewrite Sz. apply map_ext. intros j. rewrite V, u_at_part. apply ReduceFacts.op_at_respects. now apply world_swap.
Qed.

Lemma spread_run {A} (u : unc A) w ax num e b : ax <> axis_distribution -> spread (u_part u w) ax num b ->
  line b ax (in_world w e) = u_run (Uncertain u) w ax num e.
Proof.
  intros N (Wb & Db & Vb). apply run_values; auto. unfold size_of. now rewrite Db, String.eqb_refl.
Qed.

(** the sizes of the parts along an axis of the array *)
Lemma u_shape_size {A} (u : unc A) sh ax num w : u_wf u -> u_shape u = Ok sh -> dget sh ax = Some num ->
  ax <> axis_distribution /\ forall k, dget (op_shape (u_part u w)) ax = Some k -> k = 1 \/ k = num.
Proof.
  intros W H D. destruct (u_shape_ok u sh W H) as (sd & E & Nd & Ns & P & Fn & Fd & At).
  destruct (proj1 (P ax num) (dget_In _ _ _ D)) as [D' X]. split; auto. intros k Hk. apply dget_In in Hk.
  destruct w as [i|]; [destruct (Fd _ _ Hk) as (m & Hm & C)|destruct (Fn _ _ Hk) as (m & Hm & C)];
    rewrite (entry_eq sd ax num m) by auto; tauto.
Qed.

Lemma resized_dget (s : shape) ax n x : dget (resized s ax n) x =
  if String.eqb x ax then (match dget s x with Some _ => Some n | None => None end) else dget s x.
Proof.
  induction s as [|[k v] s IH]; cbn [resized map dget fst snd]; [now destruct (String.eqb x ax)|]. fold (resized s ax n).
  destruct (String.eqb_spec x k) as [-> |N]; [now destruct (String.eqb k ax)|]. apply IH.
Qed.

Lemma spread_key {A} (o : operand A) ax num b : spread o ax num b -> In ax (s_axes b) /\ size_of (sshape b) ax = num.
Proof.
  intros (Wb & Db & _). assert (D := Db ax). rewrite String.eqb_refl in D. split.
  - rewrite <- (wf_keys b Wb). apply dget_In in D. now apply (in_map fst) in D.
  - unfold size_of. now rewrite D.
Qed.

Theorem u_cumulative_spec {A B} (scan : list A -> B) (initial : bool) (u : unc A) (axis : option (list string)) (sh : shape) :
  u_wf u -> u_shape u = Ok sh ->
  let S := match axis with Some l => l | None => dkeys sh end in
  (forall ax num, S = [ax] -> In (ax, num) sh ->
     exists n d, let r := mkU (OpArr n) (OpArr d) in
       u_cumulative scan initial u axis = Ok r /\ u_wf r /\
       (forall w x, dget (op_shape (u_part r w)) x =
          if String.eqb x ax then Some (num + if initial then 1 else 0) else dget (op_shape (u_part u w)) x) /\
       forall w e, u_inside r w e ->
         u_at (Uncertain r) w e = scan (firstn (e ax + if initial then 0 else 1) (u_run (Uncertain u) w ax num e))) /\
  (forall ax, S = [ax] -> ~ In ax (dkeys sh) -> u_cumulative scan initial u axis = Err KeyError) /\
  (length S <> 1 -> u_cumulative scan initial u axis = Err ValueError).
Proof.
  intros W H S. pose proof W as (Wn & Wd & Wx). destruct (u_broadcasted_spec u sh W H) as (Ns & Xs & _).
  unfold u_cumulative. rewrite H. cbn [bind]. fold S. split; [|split].
  - intros ax num E Hin. rewrite E. assert (D := dget_NoDup _ _ _ Ns Hin). rewrite D.
    destruct (u_shape_size u sh ax num None W H D) as [Nx Kn]. destruct (u_shape_size u sh ax num (Some 0) W H D) as [_ Kd].
    destruct (spread_append (u_nominal u) ax num Wn Kn) as (n & En & Pn).
    destruct (spread_append (u_distribution u) ax num Wd Kd) as (d & Ed & Pd).
    rewrite En. cbn [bind]. rewrite Ed. cbn [bind].
    destruct (spread_key _ _ _ _ Pn) as [In_ Zn]. destruct (spread_key _ _ _ _ Pd) as [Id Zd].
    destruct (proj1 (cumulative_spec scan initial n (Some [ax]) (proj1 Pn)) ax eq_refl In_) as (rn & Ern & Wrn & Srn & Vrn).
    destruct (proj1 (cumulative_spec scan initial d (Some [ax]) (proj1 Pd)) ax eq_refl Id) as (rd & Erd & Wrd & Srd & Vrd).
    rewrite Ern. cbn [bind]. rewrite Erd. cbn [bind]. rewrite Zn in Srn. rewrite Zd in Srd.
    assert (Dn : forall x, dget (sshape rn) x = if String.eqb x ax then Some (num + if initial then 1 else 0) else dget (op_shape (u_nominal u)) x).
    { intros x. rewrite Srn, resized_dget. destruct Pn as (_ & Db & _). rewrite Db. now destruct (String.eqb x ax). }
    assert (Dd : forall x, dget (sshape rd) x = if String.eqb x ax then Some (num + if initial then 1 else 0) else dget (op_shape (u_distribution u)) x).
    { intros x. rewrite Srd, resized_dget. destruct Pd as (_ & Db & _). rewrite Db. now destruct (String.eqb x ax). }
    assert (Xn : ~ In axis_distribution (dkeys (op_shape (OpArr rn)))).
    { cbn [op_shape]. apply dget_None. rewrite Dn. destruct (String.eqb_spec axis_distribution ax) as [C|_]; [now destruct Nx|]. now apply dget_None. }
    exists rn, rd. cbn zeta. split; [now apply mk_unc_intro|]. split; [split; [exact Wrn|split; [exact Wrd|exact Xn]]|].
    split; [intros [k|]; assumption|].
    intros w e He. assert (Bb : forall (r : sarr B) (b : sarr A), wf r -> inside (in_world w e) (sshape r) -> spread (u_part u w) ax num b ->
        (forall e, at_ r e = scan (firstn (e ax + if initial then 0 else 1) (line b ax e))) ->
        bat r (in_world w e) = scan (firstn (e ax + if initial then 0 else 1) (u_run (Uncertain u) w ax num e))).
    { intros r b Wr Hr Pb V. rewrite bat_inside by auto. rewrite V. rewrite (spread_run u w ax num e b Nx Pb). do 3 f_equal.
      destruct w as [k|]; cbn [in_world]; auto. unfold set_env. destruct (String.eqb_spec ax axis_distribution); [contradiction|reflexivity]. }
    destruct w as [k|]; cbn [u_at u_nominal u_distribution op_at].
    + exact (Bb rd d Wrd He Pd Vrd).
    + exact (Bb rn n Wrn He Pn Vrn).
  - intros ax E Hn. rewrite E. apply dget_None in Hn. now rewrite Hn.
  - intros L. destruct S as [|a [|b l]]; auto. now destruct L.
Qed.

Theorem u_partition_spec {A} (part1 : list A -> list A) (kth : list Z) (u : unc A) (axis : string) (sh : shape) :
  u_wf u -> u_shape u = Ok sh -> (forall x, length (part1 x) = length x) ->
  let ok num := In (axis, num) sh /\ Forall (in_range num) kth in
  (forall num, ok num -> exists n d, let r := mkU (OpArr n) (OpArr d) in
     u_partition part1 kth u axis = Ok r /\ u_wf r /\
     (forall w x, dget (op_shape (u_part r w)) x = if String.eqb x axis then Some num else dget (op_shape (u_part u w)) x) /\
     forall w e, u_line r w axis e = part1 (u_run (Uncertain u) w axis num e)) /\
  (~ (exists num, ok num) -> u_partition part1 kth u axis = Err ValueError).
Proof.
  intros W H Len ok. pose proof W as (Wn & Wd & Wx). destruct (u_broadcasted_spec u sh W H) as (Ns & Xs & _).
  destruct (u_shape_ok u sh W H) as (sd & E & Nd & _ & P & Fn & Fd & At).
  assert (Fk : Forall (fun s => NoDup (dkeys s)) [op_shape (u_nominal u); op_shape (u_distribution u)]).
  { repeat constructor; now apply op_shape_nodup. }
  assert (Es : exists s, broadcast_shapes [op_shape (u_nominal u); op_shape (u_distribution u)] = Ok s /\ NoDup (dkeys s) /\
             forall ax num, In (ax, num) sh -> dget s ax = Some num).
  { destruct (fits_broadcast [op_shape (u_nominal u); op_shape (u_distribution u)] sd Fk Nd) as (s & Es & Ft).
    { intros s [<-|[<-|[]]]; auto. }
    exists s. split; auto. destruct (broadcast_shapes_ok _ _ Fk Es) as (Nss & _). split; auto. intros ax num Hin.
    apply P in Hin as [Hin Nx]. apply dget_NoDup; auto.
    assert (Q : exists m, In (ax, m) s).
    { destruct (At _ _ Hin) as [C|C]; [destruct (broadcast_fits _ _ _ Fk Es (or_introl eq_refl) ax num C) as (m & Hm & _)
        |destruct (broadcast_fits _ _ _ Fk Es (or_intror (or_introl eq_refl)) ax num C) as (m & Hm & _)]; eauto. }
    destruct Q as [m Hm]. destruct (Ft ax m Hm) as (q & Hq & D). assert (q = num) by (apply (entry_eq sd ax); auto). subst q.
    destruct D as [D|D]; [|congruence]. subst m.
    destruct (At _ _ Hin) as [C|C]; [destruct (broadcast_fits _ _ _ Fk Es (or_introl eq_refl) ax num C) as (m & Hm' & C')
        |destruct (broadcast_fits _ _ _ Fk Es (or_intror (or_introl eq_refl)) ax num C) as (m & Hm' & C')];
      assert (m = 1) by (apply (entry_eq s ax); auto); subst m; destruct C' as [C' |C']; subst num; auto. }
  destruct Es as (s & Es & Nss & Gs).
  unfold u_partition. rewrite !normalize_shape, Es. cbn [bind]. rewrite H. cbn [bind].
  assert (Main : forall num, In (axis, num) sh -> exists n d, spread (u_nominal u) axis num n /\ spread (u_distribution u) axis num d /\
     (match dget sh axis, dget s axis with
      | Some _, Some num =>
          n <- na_broadcast_to (normalize (u_nominal u)) (dset (op_shape (u_nominal u)) axis num) false ;;
          d <- na_broadcast_to (normalize (u_distribution u)) (dset (op_shape (u_distribution u)) axis num) false ;;
          rn <- na_partition part1 kth n axis ;;
          rd <- na_partition part1 kth d axis ;;
          mk_unc (OpArr rn) (OpArr rd)
      | _, _ => Err ValueError
      end) = (rn <- na_partition part1 kth n axis ;; rd <- na_partition part1 kth d axis ;; mk_unc (OpArr rn) (OpArr rd))).
  { intros num Hin. assert (D := dget_NoDup _ _ _ Ns Hin). rewrite D, (Gs _ _ Hin).
    destruct (u_shape_size u sh axis num None W H D) as [Nx Kn]. destruct (u_shape_size u sh axis num (Some 0) W H D) as [_ Kd].
    destruct (spread_set (u_nominal u) axis num Wn Kn) as (n & En & Pn).
    destruct (spread_set (u_distribution u) axis num Wd Kd) as (d & Ed & Pd).
    exists n, d. split; auto. split; auto. rewrite En. cbn [bind]. rewrite Ed. reflexivity. }
  split.
  - intros num [Hin Hk]. destruct (Main num Hin) as (n & d & Pn & Pd & ->). assert (D := dget_NoDup _ _ _ Ns Hin).
    destruct (u_shape_size u sh axis num None W H D) as [Nx _].
    destruct (spread_key _ _ _ _ Pn) as [In_ Zn]. destruct (spread_key _ _ _ _ Pd) as [Id Zd].
    destruct (proj1 (partition_spec part1 kth n axis (proj1 Pn) Len)) as (rn & Ern & Wrn & Srn & Vrn); [now rewrite Zn|].
    destruct (proj1 (partition_spec part1 kth d axis (proj1 Pd) Len)) as (rd & Erd & Wrd & Srd & Vrd); [now rewrite Zd|].
    rewrite Ern. cbn [bind]. rewrite Erd. cbn [bind].
    assert (Dn : forall x, dget (sshape rn) x = if String.eqb x axis then Some num else dget (op_shape (u_nominal u)) x).
    { intros x. rewrite Srn. apply Pn. }
    assert (Dd : forall x, dget (sshape rd) x = if String.eqb x axis then Some num else dget (op_shape (u_distribution u)) x).
    { intros x. rewrite Srd. apply Pd. }
    assert (Xn : ~ In axis_distribution (dkeys (op_shape (OpArr rn)))).
    { cbn [op_shape]. apply dget_None. rewrite Dn. destruct (String.eqb_spec axis_distribution axis) as [C|_]; [now destruct Nx|]. now apply dget_None. }
    exists rn, rd. cbn zeta. split; [now apply mk_unc_intro|]. split; [split; [exact Wrn|split; [exact Wrd|exact Xn]]|].
    split; [intros [k|]; assumption|].
    intros w e. unfold u_line. destruct w as [k|]; cbn [u_part u_nominal u_distribution normalize].
    + rewrite Vrd. f_equal. exact (spread_run u (Some k) axis num e d Nx Pd).
    + rewrite Vrn. f_equal. exact (spread_run u None axis num e n Nx Pn).
  - intros Nok. destruct (dget sh axis) as [num|] eqn:D; [|reflexivity].
    assert (Hin := dget_In _ _ _ D). destruct (Main num Hin) as (n & d & Pn & Pd & Em). rewrite Em.
    rewrite (proj2 (partition_spec part1 kth n axis (proj1 Pn) Len)); [reflexivity|].
    intros [_ Q]. apply Nok. exists num. split; auto. now rewrite (proj2 (spread_key _ _ _ _ Pn)) in Q.
Qed.

(** ** Operations on the broadcast parts *)

Lemma dget_from_sizes {A B} (a : sarr A) (r : sarr B) (axis : string) : wf a -> wf r -> s_axes r = s_axes a ->
  (forall x, In x (s_axes a) -> x <> axis -> size_of (sshape r) x = size_of (sshape a) x) ->
  forall x, x <> axis -> dget (sshape r) x = dget (sshape a) x.
Proof.
  intros Wa Wr E Sz x Nx. destruct (in_dec string_dec x (s_axes a)) as [H|H].
  - assert (Z := Sz x H Nx). unfold size_of in Z. assert (H' := H). rewrite <- E, <- (wf_keys r Wr) in H'. rewrite <- (wf_keys a Wa) in H.
    apply key_size in H as [n H], H' as [m H']. apply dget_NoDup in H, H'; try now apply wf_nodup. rewrite H, H' in *. congruence.
  - assert (H' := H). rewrite <- E, <- (wf_keys r Wr) in H'. rewrite <- (wf_keys a Wa) in H. apply dget_None in H, H'. congruence.
Qed.

Lemma samples_in {A} (u : unc A) x m : u_wf u ->
  (In (x, m) (samples u) <-> x = axis_distribution /\ In (x, m) (op_shape (u_distribution u))).
Proof.
  intros (_ & Wd & _). unfold samples. assert (N := op_shape_nodup _ Wd).
  destruct (dget (op_shape (u_distribution u)) axis_distribution) as [k|] eqn:D.
  - cbn. split.
    + intros [E|[]]. injection E as <- <-. split; auto. now apply dget_In.
    + intros [-> H]. left. f_equal. apply dget_NoDup in H; auto. congruence.
  - split; [intros []|]. intros [-> H]. apply dget_None in D. destruct D. now apply (in_map fst) in H.
Qed.

Lemma samples_nodup {A} (u : unc A) (sh : shape) : NoDup (dkeys sh) -> ~ In axis_distribution (dkeys sh) -> NoDup (dkeys (sh ++ samples u)).
Proof.
  intros N X. unfold dkeys. rewrite map_app. apply PolyNameFacts.nodup_append; auto.
  - unfold samples. destruct (dget _ _); repeat constructor. intros [].
  - intros x Hx. unfold samples. destruct (dget _ _); cbn; [|auto]. intros [<- |[]]. now apply X.
Qed.

Lemma same_dget (s t : shape) : NoDup (dkeys s) -> NoDup (dkeys t) -> (forall x m, In (x, m) s <-> In (x, m) t) -> forall x, dget s x = dget t x.
Proof.
  intros Ns Nt H x. destruct (dget s x) as [m|] eqn:E.
  - apply dget_In, H in E. symmetry. now apply dget_NoDup.
  - destruct (dget t x) as [m|] eqn:E'; auto. apply dget_In, H in E'. apply dget_NoDup in E'; auto. congruence.
Qed.

Lemma broadcast_parts {A} (u : unc A) sh : u_wf u -> u_shape u = Ok sh ->
  NoDup (dkeys sh) /\ ~ In axis_distribution (dkeys sh) /\
  exists nb db, u_broadcasted u = Ok (mkU (OpArr nb) (OpArr db)) /\ wf nb /\ wf db /\ sshape nb = sh /\ s_axes nb = dkeys sh /\
    (forall e, at_ nb e = op_at (u_nominal u) e) /\ (forall e, at_ db e = op_at (u_distribution u) e) /\
    (forall x m, In (x, m) (sshape db) <-> In (x, m) (sh ++ samples u)) /\
    (forall x, dget (sshape db) x = dget (sh ++ samples u) x) /\
    forall axis, In axis (dkeys sh) -> axis <> axis_distribution /\ In axis (s_axes db) /\ size_of (sshape db) axis = size_of sh axis.
Proof.
  intros W H. destruct (u_broadcasted_spec u sh W H) as (Ns & X & nb & db & Eb & Wnb & Wdb & Sn & Vn & Vd & (rest & K & Kr) & MEM).
  split; auto. split; auto. exists nb, db. do 4 (split; [assumption|]). split; [now rewrite <- (wf_keys nb), Sn|]. do 2 (split; [assumption|]).
  assert (M : forall x m, In (x, m) (sshape db) <-> In (x, m) (sh ++ samples u)).
  { intros x m. rewrite MEM, in_app_iff, (samples_in u x m W). reflexivity. }
  split; [exact M|]. split. { apply same_dget; auto; [now apply wf_nodup|now apply samples_nodup]. }
  intros axis Hx. split; [intros ->; contradiction|]. apply key_size in Hx as [n Hn]. assert (Hd : In (axis, n) (sshape db)) by (apply MEM; auto).
  split; [rewrite <- (wf_keys db Wdb); now apply (in_map fst) in Hd|]. unfold size_of.
  rewrite (dget_NoDup _ _ _ Ns Hn), (dget_NoDup _ _ _ (wf_nodup _ Wdb) Hd). reflexivity.
Qed.

Theorem u_repeat_spec {A} (u : unc A) (repeats : operand nat) (axis : string) (sh : shape) :
  u_wf u -> u_shape u = Ok sh -> op_wf repeats ->
  let num := size_of sh axis in
  let ok := In axis (dkeys sh) /\
    (op_shape repeats = [] \/ exists ax m, op_shape repeats = [(ax, m)] /\ (m = 1 \/ m = num)) in
  (ok -> exists n d, let r := mkU (OpArr n) (OpArr d) in
     u_repeat u repeats axis = Ok r /\ u_wf r /\
     (forall x, x <> axis -> dget (sshape n) x = dget sh x /\ dget (sshape d) x = dget (sh ++ samples u) x) /\
     forall w e, u_line r w axis e =
       expand (map (fun j => op_at repeats (fun _ => j)) (seq 0 num)) (u_run (Uncertain u) w axis num e)) /\
  (~ ok -> u_repeat u repeats axis = Err ValueError).
Proof.
  intros W H Wr num ok. destruct (broadcast_parts u sh W H) as (Ns & Xs & nb & db & Eb & Wnb & Wdb & Sn & An & Vn & Vd & MEM & Dd & Hx).
  unfold u_repeat. rewrite Eb. cbn [bind u_nominal u_distribution normalize].
  destruct (repeat_spec nb repeats axis Wnb Wr) as [Gn Bn]. rewrite Sn, An in Gn, Bn.
  split; intros Hok.
  - destruct (Gn Hok) as (n & En & Wrn & Arn & Szn & Ln). destruct Hok as [Hin Hr]. destruct (Hx axis Hin) as (Nx & Hd & Zd).
    destruct (proj1 (repeat_spec db repeats axis Wdb Wr)) as (d & Ed & Wrd & Ard & Szd & Ld); [now rewrite Zd|].
    rewrite En. cbn [bind]. rewrite Ed. cbn [bind].
    assert (Xn : ~ In axis_distribution (dkeys (op_shape (OpArr n)))) by (cbn [op_shape]; now rewrite (wf_keys n Wrn), Arn).
    exists n, d. cbn zeta. split; [now apply mk_unc_intro|]. split; [split; [exact Wrn|split; [exact Wrd|exact Xn]]|]. split.
    + intros x Nxx. split.
      * rewrite <- Sn. apply (dget_from_sizes nb n axis); auto; [now rewrite An|]. rewrite An, Sn. exact Szn.
      * rewrite <- Dd. apply (dget_from_sizes db d axis); auto.
    + intros w e. unfold u_line. destruct w as [k|]; cbn [u_part u_nominal u_distribution normalize].
      * rewrite Ld, Zd. f_equal. exact (run_values u (Some k) axis num e db Nx Zd Vd).
      * rewrite Ln. f_equal. apply (run_values u None axis num e nb Nx); [now rewrite Sn|exact Vn].
  - now rewrite (Bn Hok).
Qed.

Lemma resized_fits {A} (o : operand A) (s t : shape) ax : (forall x m, In (x, m) s <-> In (x, m) t) ->
  op_fits o (resized s ax 1) -> op_fits o (resized t ax 1).
Proof.
  intros H F. apply op_fits_shape. apply op_fits_shape in F. intros x m Hm. destruct (F x m Hm) as (q & Hq & D). exists q. split; auto.
  unfold resized in *. apply in_map_iff in Hq as ((k, v) & E & Hq). apply in_map_iff. exists (k, v). split; auto. now apply H.
Qed.

Theorem u_diff_spec {A} (sub : A -> A -> A) (n : nat) (a : uop A) (axis : string) (prepend append : option (uop A)) (sh : shape) :
  let u := mkU (nominal_of a) (distribution_of a) in
  uop_wf a -> sample_free a -> u_shape u = Ok sh ->
  match prepend with Some b => uop_wf b /\ sample_free b | None => True end ->
  match append with Some b => uop_wf b /\ sample_free b | None => True end ->
  let num := size_of sh axis in
  let extra (x : option (uop A)) w e := match x with Some b => [u_at b w e] | None => [] end in
  let ok := In axis (dkeys sh) /\
    (forall b, prepend = Some b \/ append = Some b ->
       op_fits (nominal_of b) (resized sh axis 1) /\ op_fits (distribution_of b) (resized (sh ++ samples u) axis 1)) in
  (ok -> exists n' d', let r := mkU (OpArr n') (OpArr d') in
     u_diff sub n a axis prepend append = Ok r /\ u_wf r /\
     (forall x, x <> axis -> dget (sshape n') x = dget sh x /\ dget (sshape d') x = dget (sh ++ samples u) x) /\
     forall w e, u_line r w axis e =
       match n with
       | 0 => u_run a w axis num e
       | _ => Nat.iter n (delta sub) (extra prepend w e ++ u_run a w axis num e ++ extra append w e)
       end) /\
  (~ ok -> u_diff sub n a axis prepend append = Err ValueError).
Proof.
  intros u Wa Fa H Bp Ba num extra ok.
  destruct (as_unc_ok a Wa Fa) as (u' & Eu & W & Nu & Du).
  assert (u' = u) by (unfold u; rewrite <- Nu, <- Du; now destruct u'). subst u'.
  destruct (as_bound_ok prepend Bp) as (p & Ep & Np & Dp). destruct (as_bound_ok append Ba) as (q & Eq & Nq & Dq).
  destruct (broadcast_parts u sh W H) as (Ns & Xs & nb & db & Eb & Wnb & Wdb & Sn & An & Vn & Vd & MEM & Dd & Hx).
  unfold u_diff. rewrite Eu. cbn [bind]. rewrite Ep. cbn [bind]. rewrite Eq. cbn [bind]. rewrite Eb. cbn [bind u_nominal u_distribution normalize].
  rewrite Np, Nq, Dp, Dq.
  assert (Q : forall (part : uop A -> operand A) (x : option (uop A)), (forall y, uop_wf y -> op_wf (part y)) -> bound_ok x ->
            forall o, option_map part x = Some o -> op_wf o).
  { intros part [x|] P B o E; cbn in E; [|discriminate]. injection E as <-. apply P. apply B. }
  destruct (diff_spec sub n nb axis (option_map nominal_of prepend) (option_map nominal_of append) Wnb
              (Q nominal_of prepend (@nominal_wf A) Bp) (Q nominal_of append (@nominal_wf A) Ba)) as [GN BN].
  destruct (diff_spec sub n db axis (option_map distribution_of prepend) (option_map distribution_of append) Wdb
              (Q distribution_of prepend (@distribution_wf A) Bp) (Q distribution_of append (@distribution_wf A) Ba)) as [GD BD].
  cbn zeta in GN, BN, GD, BD. rewrite Sn, An in GN, BN.
  assert (Ex : forall (part : uop A -> operand A) o, option_map part prepend = Some o \/ option_map part append = Some o ->
             exists b, (prepend = Some b \/ append = Some b) /\ o = part b).
  { intros part o [E|E]; [destruct prepend as [b|]|destruct append as [b|]]; try discriminate; injection E as <-; eauto. }
  assert (Run : forall w e, u_run a w axis num e = u_run (Uncertain u) w axis num e).
  { intros w e. unfold u_run. apply map_ext. intros j. destruct w as [k|].
    - now rewrite (u_at_distribution a) by auto.
    - now rewrite u_at_nominal. }
  split.
  - intros [Hin Hf]. destruct (Hx axis Hin) as (Nx & Hd & Zd).
    destruct GN as (n' & En & Wrn & Arn & Szn & Ln).
    { split; [exact Hin|]. intros o E. apply Ex in E as (b & E & ->). now apply Hf. }
    destruct GD as (d' & Ed & Wrd & Ard & Szd & Ld).
    { split; [exact Hd|]. intros o E. apply Ex in E as (b & E & ->). apply (resized_fits _ (sh ++ samples u)); [intros; symmetry; apply MEM|]. now apply Hf. }
    rewrite En. cbn [bind]. rewrite Ed. cbn [bind].
    assert (Xn : ~ In axis_distribution (dkeys (op_shape (OpArr n')))) by (cbn [op_shape]; now rewrite (wf_keys n' Wrn), Arn).
    exists n', d'. cbn zeta. split; [now apply mk_unc_intro|]. split; [split; [exact Wrn|split; [exact Wrd|exact Xn]]|]. split.
    + intros x Nxx. split.
      * rewrite <- Sn. apply (dget_from_sizes nb n' axis); auto; [now rewrite An|]. rewrite An, Sn. exact Szn.
      * rewrite <- Dd. apply (dget_from_sizes db d' axis); auto.
    + intros w e. unfold u_line. rewrite (Run w e).
      assert (XE : forall x w, bound_ok x -> match option_map (fun b => match w with Some _ => distribution_of b | None => nominal_of b end) x with
                          | Some b => [op_at b (in_world w e)] | None => [] end = extra x w e).
      { intros [b|] w0 B; cbn; auto. f_equal. destruct w0 as [k|]; cbn [in_world]; [symmetry; apply u_at_distribution; apply B|now rewrite u_at_nominal]. }
      destruct w as [k|]; cbn [u_part u_nominal u_distribution normalize].
      * rewrite Ld. rewrite (run_values u (Some k) axis num e db Nx Zd Vd). destruct n as [|n]; auto. f_equal.
        rewrite <- (XE prepend (Some k) Bp), <- (XE append (Some k) Ba). cbn [in_world].
        destruct prepend, append; reflexivity.
      * rewrite Ln. rewrite (run_values u None axis num e nb Nx) by (rewrite ?Sn; auto). destruct n as [|n]; auto. f_equal.
        rewrite <- (XE prepend None Bp), <- (XE append None Ba). cbn [in_world].
        destruct prepend, append; reflexivity.
  - intros Nok.
    destruct (na_diff sub n nb axis (option_map nominal_of prepend) (option_map nominal_of append)) as [rn|er] eqn:En; cbn [bind].
    + rewrite BD; [reflexivity|]. intros [Hd Hf].
      assert (Z : ~ (In axis (dkeys sh) /\ (forall o, option_map nominal_of prepend = Some o \/ option_map nominal_of append = Some o -> op_fits o (resized sh axis 1)))).
      { intros [Z1 Z2]. apply Nok. split; auto. intros b E. split.
        - apply Z2. destruct E as [-> | ->]; auto.
        - apply (resized_fits _ (sshape db)); [exact MEM|]. apply Hf. destruct E as [-> | ->]; auto. }
      apply BN in Z. discriminate.
    + assert (Z : ~ (In axis (dkeys sh) /\ (forall o, option_map nominal_of prepend = Some o \/ option_map nominal_of append = Some o -> op_fits o (resized sh axis 1)))).
      { intros Z. destruct (GN Z) as (r & E & _). discriminate. }
      apply BN in Z. now injection Z as ->.
Qed.

Lemma certain_shape {A} (o : operand A) : op_wf o -> exists sh, u_shape (mkU o o) = Ok sh.
Proof.
  intros W. assert (F : Forall op_wf [o; o]) by auto. assert (N := op_shapes_nodup _ F).
  unfold u_shape, u_shape_distribution, shape_broadcasted. cbn [u_nominal u_distribution].
  destruct (PdfFacts.fits_broadcast (op_shapes [o; o]) (op_shape o) N (op_shape_nodup _ W)) as (sd & E & _).
  - intros s Hs x m Hm. destruct o as [a|v]; cbn in *; [destruct Hs as [<- |[<- |[]]]; eauto|contradiction].
  - rewrite E. cbn [bind]. eauto.
Qed.

Theorem u_diff_certain {A} (sub : A -> A -> A) (n : nat) (a : operand A) (axis : string) (b : unc A) (append : option (uop A)) :
  op_wf a -> ~ In axis_distribution (dkeys (op_shape a)) -> u_wf b -> In axis_distribution (dkeys (op_shape (u_distribution b))) ->
  match append with Some b => uop_wf b /\ sample_free b | None => True end ->
  u_diff sub n (Certain a) axis (Some (Uncertain b)) append = Err ValueError.
Proof.
  intros Wa Xa Wb Hb Ba. destruct (certain_shape a Wa) as (sh & E).
  assert (Fa : sample_free (Certain a)) by exact Xa.
  assert (Wa' : uop_wf (Certain a)) by exact Wa.
  assert (Wu : u_wf (mkU a a)) by (split; [exact Wa|split; [exact Wa|exact Xa]]).
  destruct (broadcast_parts _ _ Wu E) as (_ & Xs & _).
  assert (Bb : uop_wf (Uncertain b) /\ sample_free (Uncertain b)) by (split; [exact Wb|exact Logic.I]).
  apply (proj2 (u_diff_spec sub n (Certain a) axis (Some (Uncertain b)) append sh Wa' Fa E Bb Ba)).
  intros [_ F]. destruct (F _ (or_introl eq_refl)) as [_ Fd]. apply op_fits_shape in Fd. apply key_size in Hb as [k Hk].
  destruct (Fd _ _ Hk) as (q & Hq & _). apply (in_map fst) in Hq. cbn in Hq. unfold resized in Hq. rewrite map_map in Hq.
  apply in_map_iff in Hq as ((x, m) & Ex & Hq). assert (x = axis_distribution) by (destruct (String.eqb x axis); exact Ex). subst x.
  apply in_app_iff in Hq as [Hq|Hq].
  - apply Xs. now apply (in_map fst) in Hq.
  - apply samples_in in Hq as [_ Hq]; auto. apply Xa. now apply (in_map fst) in Hq.
Qed.
