(** Facts about convolutions of uncertain scalars (Filter.v). *)
From Coq Require Import String List Arith ZArith Bool Lia.
From Verif Require Import Base BaseFacts Numpy NumpyFacts Shapes Scalar Reorder Elementwise Along Uncertain Hist Filter Spec SpecNumeric SpecUncertain SpecFilter.
From Verif Require Import ShapesFacts AlignFacts ElementwiseFacts RegridFacts InterpAxisFacts FilterFacts.
From Verif Require ReduceFacts SortingFacts UncertainFacts UncertainIndexFacts VectorIndexFacts AlongFacts.
Import ListNotations.
Open Scope nat_scope.
Open Scope list_scope.

(** ** The shape along some axes *)

Lemma fold_dset_get (l : list (string * nat)) d ax :
  dget (fold_left (fun d kv => dset d (fst kv) (snd kv)) l d) ax =
  match dget (rev l) ax with Some n => Some n | None => dget d ax end.
Proof.
  revert d. induction l as [|[k v] l IH] using rev_ind; intros d; [reflexivity|].
  rewrite fold_left_app, rev_app_distr. cbn [fold_left rev app fst snd dget].
  rewrite dget_dset, IH. destruct (String.eqb_spec ax k) as [->|N].
  - now rewrite ?String.eqb_refl.
  - destruct (String.eqb_spec k ax); [congruence|]. reflexivity.
Qed.

Lemma fold_dset_nodup (l : list (string * nat)) d : NoDup (dkeys d) ->
  NoDup (dkeys (fold_left (fun d kv => dset d (fst kv) (snd kv)) l d)).
Proof. revert d. induction l as [|kv l IH]; intros d N; [exact N|]. cbn [fold_left]. apply IH. now apply NoDup_dset. Qed.

Definition size_at (sh : shape) (ax : string) : nat := match dget sh ax with Some n => n | None => 0 end.

Lemma sub_mapM (sh : shape) l : incl l (dkeys sh) ->
  mapM (fun ax => match dget sh ax with Some n => Ok (ax, n) | None => Err KeyError end) l = Ok (map (fun ax => (ax, size_at sh ax)) l).
Proof.
  induction l as [|ax l IH]; intros I; [reflexivity|]. cbn [mapM map].
  destruct (dget sh ax) as [n|] eqn:D.
  2:{ exfalso. assert (K : In ax (dkeys sh)) by (apply I; now left). apply dget_Some_key in K as [n Hn]. congruence. }
  cbn [bind]. rewrite IH by (intros x Hx; apply I; now right). cbn [bind]. unfold size_at at 2. now rewrite D.
Qed.

Lemma dget_rev_pairs (f : string -> nat) l ax : dget (rev (map (fun ax => (ax, f ax)) l)) ax = if smem ax l then Some (f ax) else None.
Proof.
  rewrite <- map_rev. assert (M : smem ax l = smem ax (rev l)).
  { destruct (smem ax l) eqn:E; symmetry.
    - apply smem_In. apply smem_In in E. now apply in_rev in E.
    - destruct (smem ax (rev l)) eqn:E'; auto. apply smem_In, in_rev, smem_In in E'. congruence. }
  rewrite M. clear M. induction (rev l) as [|x m IH]; [reflexivity|]. cbn [map dget]. unfold smem in *. cbn [existsb].
  destruct (String.eqb_spec ax x) as [->|N].
  - now rewrite ?String.eqb_refl.
  - destruct (String.eqb_spec x ax); [congruence|]. exact IH.
Qed.

Lemma sub_shape_ok (sh : shape) l : incl l (dkeys sh) ->
  exists p, sub_shape sh l = Ok p /\ NoDup (dkeys p) /\ forall ax, dget p ax = if smem ax l then dget sh ax else None.
Proof.
  intros I. unfold sub_shape. rewrite (sub_mapM sh l I). cbn [bind]. eexists. split; [reflexivity|]. split.
  - apply fold_dset_nodup. constructor.
  - intros ax. rewrite fold_dset_get, dget_rev_pairs. destruct (smem ax l) eqn:E; [|reflexivity].
    apply smem_In, I, dget_Some_key in E as [n Hn]. unfold size_at. now rewrite Hn.
Qed.

Lemma sub_shape_missing (sh : shape) l : ~ incl l (dkeys sh) -> sub_shape sh l = Err KeyError.
Proof.
  intros I. unfold sub_shape.
  assert (M : mapM (fun ax => match dget sh ax with Some n => Ok (ax, n) | None => Err KeyError end) l = Err KeyError).
  { induction l as [|ax l IH]; [exfalso; apply I; intros x []|]. cbn [mapM].
    destruct (dget sh ax) as [n|] eqn:D; cbn [bind]; [|reflexivity]. rewrite IH; [reflexivity|].
    intros J. apply I. intros x [<- |Hx]; [|now apply J]. apply dget_Some_key. now exists n. }
  now rewrite M.
Qed.

(** ** One part spread along some axes *)

Definition agrees (s p : shape) : Prop := forall ax n m, dget s ax = Some n -> dget p ax = Some m -> n = 1 \/ n = m.

Lemma append_ok {A} (o : operand A) (p : shape) : op_wf o -> NoDup (dkeys p) -> agrees (op_shape o) p ->
  exists b, na_broadcast_to (normalize o) p true = Ok b /\ wf b /\
    (forall ax, dget (sshape b) ax = match dget p ax with Some m => Some m | None => dget (op_shape o) ax end) /\
    forall e, bat b e = op_at o e.
Proof.
  intros W Np H. assert (Wn := normalize_wf o W). assert (Sn := normalize_shape o).
  assert (N : Forall (fun s : shape => NoDup (dkeys s)) [op_shape o; p]).
  { constructor; [now apply op_nodup|]. constructor; auto. }
  assert (S : forall ax, sizes_of [op_shape o; p] ax =
                (match dget (op_shape o) ax with Some k => [k] | None => [] end ++ match dget p ax with Some k => [k] | None => [] end)).
  { intros ax. unfold sizes_of. cbn [flat_map]. now rewrite app_nil_r. }
  destruct (broadcast_shapes_total _ N) as [[sh E]|E].
  2:{ exfalso. apply (broadcast_shapes_conflict _ N) in E as (ax & u & v & Hu & Hv & Nuv & Nu & Nv).
      rewrite S in Hu, Hv. destruct (dget (op_shape o) ax) as [k|] eqn:Ek, (dget p ax) as [m|] eqn:Em; cbn [app In] in Hu, Hv;
        [destruct (H ax k m Ek Em)| | |]; intuition lia. }
  assert (M : na_broadcast_to (normalize o) p true = na_broadcast_to (normalize o) sh false).
  { rewrite <- Sn in E. exact (f_equal (fun q => bind q (fun sh => n <- ndarray_aligned (normalize o) (dkeys sh) ;; r <- broadcast_to n (dvals sh) ;; mk_sarr r (dkeys sh))) E). }
  rewrite M. destruct (broadcast_shapes_ok _ _ N E) as (Ns & Ks & Ps).
  assert (D : forall ax, dget sh ax = match dget p ax with Some m => Some m | None => dget (op_shape o) ax end).
  { intros ax. assert (Q : forall k, dget sh ax = Some k <-> In ax (concat (map dkeys [op_shape o; p])) /\ common_size (sizes_of [op_shape o; p] ax) k).
    { intros k. rewrite <- Ps. split; [apply dget_In|now apply dget_NoDup]. }
    cbn [map concat] in Q. rewrite S in Q. rewrite app_nil_r in Q.
    destruct (dget p ax) as [m|] eqn:Em.
    - apply Q. split; [apply in_app_iff; right; apply dget_Some_key; now exists m|].
      destruct (dget (op_shape o) ax) as [k|] eqn:Ek; cbn [app].
      + destruct (H ax k m Ek Em) as [-> | ->]; (split; [intros q [<- |[<- |[]]]; auto|intros Z; apply Z; right; now left]).
      + split; [intros q [<- |[]]; auto|intros Z; apply Z; now left].
    - destruct (dget (op_shape o) ax) as [k|] eqn:Ek; cbn [app] in Q.
      + apply Q. split; [apply in_app_iff; left; apply dget_Some_key; now exists k|].
        split; [intros q [<- |[]]; auto|intros Z; apply Z; now left].
      + destruct (dget sh ax) as [k|] eqn:Eq; auto. destruct (proj1 (Q k) eq_refl) as [Z _]. exfalso.
        apply in_app_iff in Z as [Z|Z]; apply dget_Some_key in Z as [q Hq]; congruence. }
  destruct (UncertainIndexFacts.broadcast_normalized o sh W Ns) as (b & Eb & Wb & Sb & Gb).
  { apply (broadcast_fits _ _ N E). simpl. auto. }
  exists b. split; [exact Eb|]. split; [exact Wb|]. split; [intros ax; now rewrite Sb|].
  intros e. unfold bat at 1. rewrite Gb, Sb. destruct o as [a|x]; [|reflexivity]. cbn [op_at op_shape] in *. apply AlongFacts.at_ext; auto.
  intros ax Hax. unfold bclamp. rewrite D. rewrite <- (wf_keys a W) in Hax. apply dget_Some_key in Hax as [n Hn]. rewrite Hn.
  destruct (dget p ax) as [m|] eqn:Em; [|destruct n as [|[|n]]; reflexivity].
  destruct (H ax n m Hn Em) as [-> | ->]; [reflexivity|]. destruct m as [|[|m]]; reflexivity.
Qed.

(** ** One world *)

Lemma dget_same {V} (d : dict V) ax : NoDup (dkeys d) -> forall n, In (ax, n) d <-> dget d ax = Some n.
Proof. intros N n. split; [now apply dget_NoDup|apply dget_In]. Qed.

Lemma dget_without (sh : shape) l ax : NoDup (dkeys sh) -> dget (without sh l) ax = if smem ax l then None else dget sh ax.
Proof.
  intros N. destruct (dget (without sh l) ax) as [n|] eqn:D.
  - apply dget_In, without_In in D as [D M]. rewrite (proj2 (smem_false ax l) M). symmetry. now apply dget_NoDup.
  - destruct (smem ax l) eqn:E; auto. destruct (dget sh ax) as [n|] eqn:D'; auto. exfalso.
    assert (H : In (ax, n) (without sh l)) by (apply without_In; split; [now apply dget_In|now apply smem_false]).
    apply (dget_NoDup _ _ _ (without_nodup _ l N)) in H. congruence.
Qed.

Lemma sizes3 (a b c : shape) ax : sizes_of [a; b; c] ax =
  (match dget a ax with Some k => [k] | None => [] end ++ match dget b ax with Some k => [k] | None => [] end
   ++ match dget c ax with Some k => [k] | None => [] end).
Proof. unfold sizes_of. cbn [flat_map]. now rewrite app_nil_r. Qed.

Lemma key_sizes (a b c : shape) ax : In ax (concat (map dkeys [a; b; c])) <-> sizes_of [a; b; c] ax <> [].
Proof.
  rewrite sizes3. cbn [map concat]. rewrite app_nil_r, !in_app_iff. split.
  - intros [H|[H|H]]; apply dget_Some_key in H as [n ->].
    + discriminate.
    + destruct (dget a ax); discriminate.
    + destruct (dget a ax), (dget b ax); discriminate.
  - destruct (dget a ax) eqn:Ea; [left; apply dget_Some_key; eauto|].
    destruct (dget b ax) eqn:Eb; [right; left; apply dget_Some_key; eauto|].
    destruct (dget c ax) eqn:Ec; [right; right; apply dget_Some_key; eauto|]. intros H. now destruct H.
Qed.

Section World.
  Context {A K B : Type} (conv : convolution A K B) (oa : operand A) (ok : operand K) (ow : operand bool).
  Context (Wa : op_wf oa) (Wk : op_wf ok) (Ww : op_wf ow).
  Context (sh shk pa pk : shape) (l : list string) (axis : axis_arg) (AX : forall o : operand K, names_of axis o = l).
  Context (Ia : incl l (dkeys sh)) (Ik : incl l (dkeys shk)) (Na : NoDup (dkeys pa)) (Nk : NoDup (dkeys pk)).
  Context (Da : forall ax, dget pa ax = if smem ax l then dget sh ax else None).
  Context (Dk : forall ax, dget pk ax = if smem ax l then dget shk ax else None).
  Context (Ga : agrees (op_shape oa) pa) (Gk : agrees (op_shape ok) pk) (Gw : agrees (op_shape ow) pa).

  (** the call of [na.convolve] for one part *)
  Definition world : res (sarr B) :=
    a <- na_broadcast_to (normalize oa) pa true ;;
    k <- na_broadcast_to (normalize ok) pk true ;;
    w <- na_broadcast_to (normalize ow) pa true ;;
    na_convolve conv (OpArr a) (OpArr k) axis (OpArr w).

  Let parts : list shape := [op_shape oa; without (op_shape ok) l; op_shape ow].

  Lemma parts_nodup : Forall (fun s : shape => NoDup (dkeys s)) parts.
  Proof.
    apply Forall_cons; [now apply op_nodup|]. apply Forall_cons; [apply without_nodup; now apply op_nodup|].
    apply Forall_cons; [now apply op_nodup|auto].
  Qed.

  Theorem world_spec :
    (exists r, world = Ok r /\ wf r /\
       (forall ax n, In (ax, n) (sshape r) <->
          if smem ax l then dget sh ax = Some n
          else sizes_of parts ax <> [] /\ common_size (sizes_of parts ax) n) /\
       (forall e, at_ r e = convolved conv sh (op_at oa) (op_at ow) shk (op_at ok) l e) /\
       forall ax u v, In u (sizes_of parts ax) -> In v (sizes_of parts ax) -> ~ In ax l -> u = v \/ u = 1 \/ v = 1)
    \/ (world = Err ValueError /\ exists ax u v, ~ In ax l /\ In u (sizes_of parts ax) /\ In v (sizes_of parts ax) /\ u <> v /\ u <> 1 /\ v <> 1).
  Proof.
    destruct (append_ok oa pa Wa Na Ga) as (ba & Ea & Wba & Dba & Gba).
    destruct (append_ok ok pk Wk Nk Gk) as (bk & Ek & Wbk & Dbk & Gbk).
    destruct (append_ok ow pa Ww Na Gw) as (bw & Ew & Wbw & Dbw & Gbw).
    unfold world. rewrite Ea. cbn [bind]. rewrite Ek. cbn [bind]. rewrite Ew. cbn [bind].
    assert (KA : incl l (dkeys (sshape ba))).
    { intros ax Hax. assert (M := proj2 (smem_In ax l) Hax). apply Ia, dget_Some_key in Hax as [n Hn].
      apply dget_Some_key. exists n. now rewrite Dba, Da, M, Hn. }
    assert (KK : incl l (dkeys (sshape bk))).
    { intros ax Hax. assert (M := proj2 (smem_In ax l) Hax). apply Ik, dget_Some_key in Hax as [n Hn].
      apply dget_Some_key. exists n. now rewrite Dbk, Dk, M, Hn. }
    assert (F := convolve_nodups (OpArr ba) (OpArr bk) axis (OpArr bw) Wba Wbk Wbw). rewrite AX in F. cbn [op_shape] in F.
    assert (SZ : forall ax, sizes_of [sshape ba; without (sshape bk) l; sshape bw] ax =
       if smem ax l then match dget sh ax with Some m => [m; m] | None => [] end else sizes_of parts ax).
    { intros ax. unfold parts. rewrite !sizes3. rewrite (dget_without (sshape bk)) by (now apply wf_nodup). rewrite (dget_without (op_shape ok)) by (now apply op_nodup). rewrite Dba, Dbw, Da, Dbk, Dk.
      destruct (smem ax l) eqn:M; [|reflexivity]. apply smem_In, Ia, dget_Some_key in M as [m ->]. reflexivity. }
    assert (SL : forall ax, In ax l -> exists m, dget sh ax = Some m /\ sizes_of [sshape ba; without (sshape bk) l; sshape bw] ax = [m; m]).
    { intros ax Hax. rewrite SZ, (proj2 (smem_In ax l) Hax). apply Ia, dget_Some_key in Hax as [m ->]. eauto. }
    assert (SO : forall ax, ~ In ax l -> sizes_of [sshape ba; without (sshape bk) l; sshape bw] ax = sizes_of parts ax).
    { intros ax Hax. rewrite SZ. now rewrite (proj2 (smem_false ax l) Hax). }
    destruct (broadcast_shapes_total _ F) as [[t E]|E].
    - left. destruct (broadcast_shapes_ok _ _ F E) as (Nt & _ & Pt).
      assert (E' := E). rewrite <- (AX (OpArr bk)) in E'.
      destruct (convolve_ok conv (OpArr ba) (OpArr bk) axis (OpArr bw) Wba Wbk Wbw t) as (r & Er & Wr & Sr & Gr);
        [rewrite AX; exact KA|rewrite AX; exact KK|exact E'|].
      exists r. split; [exact Er|]. split; [exact Wr|]. 
      assert (ST : forall ax n, In (ax, n) t <-> if smem ax l then dget sh ax = Some n else sizes_of parts ax <> [] /\ common_size (sizes_of parts ax) n).
      { intros ax n. rewrite Pt, key_sizes. destruct (smem ax l) eqn:M.
        - apply smem_In in M. destruct (SL ax M) as (m & -> & ->). split.
          + intros [_ [C1 C2]]. destruct (Nat.eq_dec m 1) as [-> |NE].
            * f_equal. symmetry. apply C2. intros q [<- |[<- |[]]]; auto.
            * destruct (C1 m) as [-> |Q]; [now left|congruence|congruence].
          + intros [= ->]. split; [discriminate|]. split; [intros q [<- |[<- |[]]]; auto|intros Z; apply Z; now left].
        - apply smem_false in M. now rewrite (SO ax M). }
      split; [intros ax n; now rewrite Sr|]. split.
      + intros e. rewrite Gr, AX. unfold convolved. cbn [op_shape].
        assert (Z : forall ax, In ax l -> size_of t ax = size_of sh ax).
        { intros ax Hax. destruct (SL ax Hax) as (m & Dm & _). unfold size_of at 2. rewrite Dm. apply size_of_key; auto.
          apply ST. now rewrite (proj2 (smem_In ax l) Hax). }
        assert (Zk : forall ax, In ax l -> size_of (sshape bk) ax = size_of shk ax).
        { intros ax Hax. unfold size_of. rewrite Dbk, Dk, (proj2 (smem_In ax l) Hax).
          apply Ik, dget_Some_key in Hax as [m ->]. reflexivity. }
        rewrite (ReduceFacts.fibre_ext t sh l e Z), (ReduceFacts.fibre_ext (sshape bk) shk l e Zk).
        rewrite (map_ext_in _ _ l Z), (map_ext_in _ _ l Zk). cbn [op_at].
        rewrite (map_ext (bat ba) (op_at oa) Gba), (map_ext (bat bw) (op_at ow) Gbw), (map_ext (bat bk) (op_at ok) Gbk). reflexivity.
      + intros ax u v Hu Hv Hax. destruct (Nat.eq_dec u v); auto. destruct (Nat.eq_dec u 1); auto. destruct (Nat.eq_dec v 1); auto.
        exfalso. assert (X : broadcast_shapes [sshape ba; without (sshape bk) l; sshape bw] = Err ValueError).
        { apply (broadcast_shapes_conflict _ F). exists ax, u, v. rewrite (SO ax Hax). auto 10. }
        congruence.
    - right. assert (E' := E). rewrite <- (AX (OpArr bk)) in E'. split.
      + apply (convolve_conflict conv (OpArr ba) (OpArr bk) axis (OpArr bw)); auto; rewrite AX; auto.
      + apply (broadcast_shapes_conflict _ F) in E as (ax & u & v & Hu & Hv & N1 & N2 & N3).
        exists ax, u, v. destruct (in_dec string_dec ax l) as [M|M].
        * exfalso. destruct (SL ax M) as (m & _ & Q). rewrite Q in Hu, Hv. cbn in Hu, Hv. intuition congruence.
        * rewrite (SO ax M) in Hu, Hv. auto 10.
  Qed.
End World.

(** ** Both worlds *)

Lemma unc_of_normalize {A} (x : uop A) : u_wf (unc_of x) -> u_normalize x = Ok (unc_of x).
Proof. destruct x as [u|o]; cbn; auto. intros (_ & _ & H). now apply UncertainFacts.mk_unc_intro. Qed.

Lemma u_at_unc_of {A} (x : uop A) w e : u_wf (unc_of x) -> u_at x w e = op_at (u_part (unc_of x) w) (in_world w e).
Proof.
  destruct x as [u|o]; destruct w as [k|]; cbn; auto. intros (W & _ & H). symmetry. now apply UncertainFacts.op_at_unseen.
Qed.

Lemma op_at_respects {A} (o : operand A) : op_wf o -> ReduceFacts.respects (op_at o).
Proof. intros W e1 e2 H. destruct o as [a|x]; auto. cbn. apply AlongFacts.bat_ext; auto. Qed.

Lemma part_fits {A} (u : unc A) su w ax n : u_wf u -> u_shape u = Ok su -> In (ax, n) (op_shape (u_part u w)) -> ax <> axis_distribution ->
  exists m, In (ax, m) su /\ (n = 1 \/ n = m).
Proof.
  intros W E H D. destruct (UncertainIndexFacts.u_shape_ok u su W E) as (sd & _ & _ & _ & Q & F1 & F2 & _).
  destruct w as [k|]; cbn in H; [destruct (F2 _ _ H) as (m & Hm & C)|destruct (F1 _ _ H) as (m & Hm & C)]; exists m; (split; [apply Q; auto|auto]).
Qed.

Section Both.
  Context {A K B : Type} (conv : convolution A K B) (xa : uop A) (xk : uop K) (xw : uop bool) (axis : axis_arg).
  Context (Wa : u_wf (unc_of xa)) (Wk : u_wf (unc_of xk)) (Ww : u_wf (unc_of xw)) (SN : short_name axis).
  Context (sa sk sw sh : shape) (Ea : u_shape (unc_of xa) = Ok sa) (Ek : u_shape (unc_of xk) = Ok sk) (Ew : u_shape (unc_of xw) = Ok sw).
  Context (Es : broadcast_shapes [sa; sw] = Ok sh).
  Let l := u_names axis sk.
  Let axis' := match axis with AxNone => AxNames (dkeys sk) | _ => axis end.

  Lemma both_elements : elements axis' [] = l.
  Proof.
    unfold axis', l. destruct axis as [|s|m]; cbn; auto. cbn in SN. destruct s as [|c [|c' s]]; cbn in *; try discriminate. reflexivity.
  Qed.

  Lemma both_names : forall o : operand K, names_of axis' o = l.
  Proof. intros o. unfold axis', l. destruct axis as [|s|m]; reflexivity. Qed.

  Lemma shapes_nodup : NoDup (dkeys sk) /\ Forall (fun s : shape => NoDup (dkeys s)) [sa; sw] /\ NoDup (dkeys sh) /\
    ~ In axis_distribution (dkeys sk) /\ ~ In axis_distribution (dkeys sh).
  Proof.
    destruct (UncertainIndexFacts.u_shape_ok _ sa Wa Ea) as (da & _ & _ & Na & Qa & _).
    destruct (UncertainIndexFacts.u_shape_ok _ sk Wk Ek) as (dk & _ & _ & Nk & Qk & _).
    destruct (UncertainIndexFacts.u_shape_ok _ sw Ww Ew) as (dw & _ & _ & Nw & Qw & _).
    assert (F : Forall (fun s : shape => NoDup (dkeys s)) [sa; sw]) by (constructor; auto).
    split; auto. split; auto. destruct (broadcast_shapes_ok _ _ F Es) as (Ns & _). split; auto.
    assert (X : forall s d : shape, (forall ax n, In (ax, n) s <-> In (ax, n) d /\ ax <> axis_distribution) -> ~ In axis_distribution (dkeys s)).
    { intros s d Q H. apply in_map_iff in H as [[ax n] [Eq H]]. cbn in Eq. subst ax. now apply Q in H. }
    split; [exact (X _ _ Qk)|]. intros H. apply in_map_iff in H as [[ax n] [Eq H]]. cbn in Eq. subst ax.
    destruct (VectorIndexFacts.broadcast_attained _ _ _ _ F Es H) as (s & [<- |[<- |[]]] & H'); [apply Qa in H'|apply Qw in H']; tauto.
  Qed.

  Lemma both_unfold pa pk : sub_shape sk l = Ok pk -> sub_shape sh l = Ok pa ->
    u_convolve conv xa xk axis xw =
    n <- world conv (u_nominal (unc_of xa)) (u_nominal (unc_of xk)) (u_nominal (unc_of xw)) pa pk axis' ;;
    d <- world conv (u_distribution (unc_of xa)) (u_distribution (unc_of xk)) (u_distribution (unc_of xw)) pa pk axis' ;;
    mk_unc (OpArr n) (OpArr d).
  Proof.
    intros Pk Pa. unfold u_convolve, world. rewrite !unc_of_normalize by auto. cbn [bind]. rewrite Ek. cbn [bind]. cbv zeta.
    fold axis'. rewrite both_elements, Pk. cbn [bind]. rewrite Ea, Ew. cbn [bind]. rewrite Es. cbn [bind]. rewrite Pa. cbn [bind].
    repeat (match goal with |- context [na_broadcast_to ?x ?y ?z] => destruct (na_broadcast_to x y z) end; cbn [bind]; auto).
    all: try (destruct (na_convolve _ _ _ _ _); reflexivity).
  Qed.

  Lemma spread_agrees w p : (forall ax, dget p ax = if smem ax l then dget sh ax else None) ->
    agrees (op_shape (u_part (unc_of xa) w)) p /\ agrees (op_shape (u_part (unc_of xw) w)) p.
  Proof.
    intros D. destruct shapes_nodup as (_ & F & Ns & _ & ND).
    assert (X : forall (T : Type) (u : unc T) su, u_wf u -> u_shape u = Ok su -> In su [sa; sw] -> agrees (op_shape (u_part u w)) p).
    { intros T u su W E I ax n m Hn Hm. rewrite D in Hm. destruct (smem ax l); [|discriminate].
      assert (NA : ax <> axis_distribution) by (intros ->; apply ND; apply dget_Some_key; eauto).
      apply dget_In in Hn. destruct (part_fits u su w ax n W E Hn NA) as (q & Hq & [-> | ->]); auto.
      destruct (VectorIndexFacts.broadcast_covers _ sh su ax q F Es I Hq) as [_ [-> |Hs]]; auto.
      right. apply (dget_NoDup _ _ _ Ns) in Hs. congruence. }
    split; [apply (X A _ sa Wa Ea); simpl; auto|apply (X bool _ sw Ww Ew); simpl; auto].
  Qed.

  Lemma kernel_agrees w p : (forall ax, dget p ax = if smem ax l then dget sk ax else None) ->
    agrees (op_shape (u_part (unc_of xk) w)) p.
  Proof.
    intros D. destruct shapes_nodup as (Nk & _ & _ & ND & _). intros ax n m Hn Hm. rewrite D in Hm. destruct (smem ax l); [|discriminate].
    assert (NA : ax <> axis_distribution) by (intros ->; apply ND; apply dget_Some_key; eauto).
    apply dget_In in Hn. destruct (part_fits _ sk w ax n Wk Ek Hn NA) as (q & Hq & [-> | ->]); auto.
    right. apply (dget_NoDup _ _ _ Nk) in Hq. congruence.
  Qed.

  Theorem u_convolve_missing : ~ incl l (dkeys sk) \/ ~ incl l (dkeys sh) -> u_convolve conv xa xk axis xw = Err KeyError.
  Proof.
    intros H. unfold u_convolve. rewrite !unc_of_normalize by auto. cbn [bind]. rewrite Ek. cbn [bind]. cbv zeta.
    fold axis'. rewrite both_elements.
    destruct (sub_shape sk l) as [pk|x] eqn:P.
    - cbn [bind]. rewrite Ea, Ew. cbn [bind]. rewrite Es. cbn [bind]. destruct H as [H|H].
      + rewrite (sub_shape_missing _ _ H) in P. discriminate.
      + now rewrite (sub_shape_missing _ _ H).
    - cbn [bind]. destruct (forallb (fun ax => smem ax (dkeys sk)) l) eqn:I.
      + exfalso. rewrite forallb_forall in I. destruct (sub_shape_ok sk l) as (p & Q & _); [|congruence].
        intros y Hy. apply smem_In. now apply I.
      + rewrite sub_shape_missing in P; [now injection P as <-|]. intros J. rewrite (subset_true _ _ J) in I. discriminate.
  Qed.

  Context (Ik : incl l (dkeys sk)) (Is : incl l (dkeys sh)).

  Lemma dist_out : ~ In axis_distribution l.
  Proof. intros H. destruct shapes_nodup as (_ & _ & _ & N & _). apply N. now apply Ik. Qed.

  Lemma meeting_nodup w : Forall (fun s : shape => NoDup (dkeys s)) (meeting (unc_of xa) (unc_of xk) (unc_of xw) l w).
  Proof. apply parts_nodup; now apply UncertainIndexFacts.part_wf. Qed.

  (** outcome of one world *)
  Lemma world_outcome w pa pk : sub_shape sk l = Ok pk -> sub_shape sh l = Ok pa ->
    let q := world conv (u_part (unc_of xa) w) (u_part (unc_of xk) w) (u_part (unc_of xw) w) pa pk axis' in
    (forall x, broadcast_shapes (meeting (unc_of xa) (unc_of xk) (unc_of xw) l w) = Err x -> q = Err ValueError) /\
    (forall t, broadcast_shapes (meeting (unc_of xa) (unc_of xk) (unc_of xw) l w) = Ok t ->
       exists r, q = Ok r /\ wf r /\
         (forall ax n, In (ax, n) (sshape r) <-> if smem ax l then In (ax, n) sh else In (ax, n) t) /\
         forall e, at_ r e = convolved conv sh (op_at (u_part (unc_of xa) w)) (op_at (u_part (unc_of xw) w)) sk (op_at (u_part (unc_of xk) w)) l e).
  Proof.
    intros Pk Pa q. destruct shapes_nodup as (Nk & F & Ns & NDk & NDs).
    destruct (sub_shape_ok sk l Ik) as (pk' & Pk' & Npk & Dk). rewrite Pk in Pk'. injection Pk' as <-.
    destruct (sub_shape_ok sh l Is) as (pa' & Pa' & Npa & Da). rewrite Pa in Pa'. injection Pa' as <-.
    destruct (spread_agrees w pa Da) as [Ga Gw]. assert (Gk := kernel_agrees w pk Dk).
    assert (P1 := UncertainIndexFacts.part_wf _ w Wa). assert (P2 := UncertainIndexFacts.part_wf _ w Wk). assert (P3 := UncertainIndexFacts.part_wf _ w Ww).
    assert (FM := meeting_nodup w). fold q.
    assert (NOL : forall ax u v, In ax l -> In u (sizes_of (meeting (unc_of xa) (unc_of xk) (unc_of xw) l w) ax) ->
       In v (sizes_of (meeting (unc_of xa) (unc_of xk) (unc_of xw) l w) ax) -> u <> v -> u <> 1 -> v <> 1 -> False).
    { intros ax u v Hax Hu Hv N1 N2 N3. unfold meeting in Hu, Hv. rewrite sizes3, dget_without in Hu, Hv by now apply op_nodup.
      assert (M := proj2 (smem_In ax l) Hax). rewrite M in Hu, Hv. cbn [app] in Hu, Hv. rewrite in_app_iff in Hu, Hv.
      assert (Hs := Is ax Hax). apply dget_Some_key in Hs as [m Hm]. specialize (Da ax). rewrite M, Hm in Da.
      assert (X : forall (s : shape) u, agrees s pa -> In u (match dget s ax with Some k => [k] | None => [] end) -> u = 1 \/ u = m).
      { intros s z G Hz. destruct (dget s ax) as [k|] eqn:D; [|destruct Hz]. destruct Hz as [<- |[]]. exact (G ax k m D Da). }
      destruct Hu as [Hu|Hu]; [apply (X _ _ Ga) in Hu|apply (X _ _ Gw) in Hu];
        (destruct Hv as [Hv|Hv]; [apply (X _ _ Ga) in Hv|apply (X _ _ Gw) in Hv]); intuition congruence. }
    destruct (world_spec conv _ _ _ P1 P2 P3 sh sk pa pk l axis' both_names Is Ik Npa Npk Da Dk Ga Gk Gw) as [(r & Er & Wr & Sr & Gr & NC)|(Er & ax & u & v & Nax & Hu & Hv & N1 & N2 & N3)].
    - split.
      + intros x E. exfalso. assert (E' : broadcast_shapes (meeting (unc_of xa) (unc_of xk) (unc_of xw) l w) = Err ValueError).
        { destruct (broadcast_shapes_total _ FM) as [[t Et]|Et]; congruence. }
        apply (broadcast_shapes_conflict _ FM) in E' as (ax & u & v & Hu & Hv & N1 & N2 & N3).
        destruct (in_dec string_dec ax l) as [M|M]; [exact (NOL ax u v M Hu Hv N1 N2 N3)|].
        destruct (NC ax u v Hu Hv M) as [Q|[Q|Q]]; contradiction.
      + intros t Et. exists r. split; [exact Er|]. split; [exact Wr|]. split; [|exact Gr].
        intros ax n. rewrite Sr. destruct (smem ax l) eqn:M; [symmetry; now apply dget_same|].
        destruct (broadcast_shapes_ok _ _ FM Et) as (_ & _ & Pt). rewrite Pt. unfold meeting. now rewrite key_sizes.
    - assert (E' : broadcast_shapes (meeting (unc_of xa) (unc_of xk) (unc_of xw) l w) = Err ValueError).
      { apply (broadcast_shapes_conflict _ FM). exists ax, u, v. auto 10. }
      split; [intros _ _; exact Er|]. intros t Et. congruence.
  Qed.

  Theorem u_convolve_conflict w x : broadcast_shapes (meeting (unc_of xa) (unc_of xk) (unc_of xw) l w) = Err x ->
    u_convolve conv xa xk axis xw = Err ValueError.
  Proof.
    intros E. destruct (sub_shape_ok sk l Ik) as (pk & Pk & _). destruct (sub_shape_ok sh l Is) as (pa & Pa & _).
    rewrite (both_unfold pa pk Pk Pa).
    destruct (world_outcome None pa pk Pk Pa) as [C1 O1]. destruct (world_outcome (Some 0) pa pk Pk Pa) as [C2 O2]. cbn [u_part] in *.
    destruct (broadcast_shapes (meeting (unc_of xa) (unc_of xk) (unc_of xw) l None)) as [t|y] eqn:E1.
    - destruct (O1 t eq_refl) as (r & -> & _). cbn [bind].
      destruct w as [k|]; [|congruence]. change (meeting (unc_of xa) (unc_of xk) (unc_of xw) l (Some k)) with (meeting (unc_of xa) (unc_of xk) (unc_of xw) l (Some 0)) in E.
      now rewrite (C2 x E).
    - now rewrite (C1 y eq_refl).
  Qed.

  Theorem u_convolve_ok t : (forall w, broadcast_shapes (meeting (unc_of xa) (unc_of xk) (unc_of xw) l w) = Ok (t w)) ->
    exists r, u_convolve conv xa xk axis xw = Ok r /\ u_wf r /\
      (forall w ax n, In (ax, n) (op_shape (u_part r w)) <-> if smem ax l then In (ax, n) sh else In (ax, n) (t w)) /\
      forall w e, u_inside r w e ->
        u_at (Uncertain r) w e = convolved conv sh (u_at xa w) (u_at xw w) sk (u_at xk w) l e.
  Proof.
    intros T. destruct (sub_shape_ok sk l Ik) as (pk & Pk & _). destruct (sub_shape_ok sh l Is) as (pa & Pa & _).
    rewrite (both_unfold pa pk Pk Pa).
    destruct (world_outcome None pa pk Pk Pa) as [_ O1]. destruct (world_outcome (Some 0) pa pk Pk Pa) as [_ O2]. cbn [u_part] in *.
    destruct (O1 _ (T None)) as (n & -> & Wn & Sn & Gn). destruct (O2 _ (T (Some 0))) as (d & -> & Wd & Sd & Gd). cbn [bind].
    assert (ND : ~ In axis_distribution (dkeys (sshape n))).
    { intros H. apply in_map_iff in H as [[ax m] [Eq H]]. cbn in Eq. subst ax. apply Sn in H.
      assert (M : smem axis_distribution l = false) by (apply smem_false; exact dist_out). rewrite M in H.
      destruct (VectorIndexFacts.broadcast_attained _ _ _ _ (meeting_nodup None) (T None) H) as (s & Hs & Hin).
      apply (in_map fst) in Hin. cbn [fst] in Hin. unfold meeting in Hs. cbn [u_part] in Hs. destruct Hs as [<- |[<- |[<- |[]]]].
      - destruct Wa as (_ & _ & X). contradiction.
      - destruct Wk as (_ & _ & X). apply X. fold (dkeys (without (op_shape (u_nominal (unc_of xk))) l)) in Hin. rewrite dkeys_without in Hin. now apply filter_In in Hin.
      - destruct Ww as (_ & _ & X). contradiction. }
    rewrite UncertainFacts.mk_unc_intro by exact ND.
    eexists. split; [reflexivity|]. split; [split; [exact Wn|split; [exact Wd|exact ND]]|]. split.
    - intros [k|] ax m; cbn [u_part u_nominal u_distribution op_shape].
      + rewrite Sd. assert (Q : t (Some 0) = t (Some k)).
        { assert (X := T (Some 0)). assert (Y := T (Some k)). change (meeting (unc_of xa) (unc_of xk) (unc_of xw) l (Some k)) with (meeting (unc_of xa) (unc_of xk) (unc_of xw) l (Some 0)) in Y. congruence. }
        now rewrite Q.
      + apply Sn.
    - intros w e He.
      assert (V : u_at (Uncertain (mkU (OpArr n) (OpArr d))) w e =
        convolved conv sh (op_at (u_part (unc_of xa) w)) (op_at (u_part (unc_of xw) w)) sk (op_at (u_part (unc_of xk) w)) l (in_world w e)).
      { destruct w as [k|]; cbn in He |- *; rewrite SortingFacts.bat_inside by auto; [apply Gd|apply Gn]. }
      rewrite V. unfold convolved.
      assert (X : forall (C : Type) (x : uop C) (s : shape), u_wf (unc_of x) ->
        map (op_at (u_part (unc_of x) w)) (fibre s l (in_world w e)) = map (u_at x w) (fibre s l e)).
      { intros C x s Wx. destruct w as [k|]; cbn [in_world u_part].
        - rewrite UncertainIndexFacts.map_fibre_world; [|apply op_at_respects; apply Wx|exact dist_out].
          apply map_ext. intros e'. symmetry. now apply (u_at_unc_of x (Some k) e').
        - apply map_ext. intros e'. symmetry. now apply (u_at_unc_of x None e'). }
      rewrite !X by auto. f_equal. apply map_ext_in. intros ax Hax. destruct w as [k|]; cbn [in_world]; auto.
      unfold set_env. destruct (String.eqb_spec ax axis_distribution) as [->|]; auto. exfalso. now apply dist_out.
  Qed.
End Both.

(** an axis given as a string is read character by character *)
Theorem u_convolve_string {A K B} (conv : convolution A K B) xa xk xw s sk :
  u_wf (unc_of xa) -> u_wf (unc_of xk) -> u_wf (unc_of xw) -> u_shape (unc_of xk) = Ok sk ->
  ~ incl (characters s) (dkeys sk) -> u_convolve conv xa xk (AxName s) xw = Err KeyError.
Proof.
  intros Wa Wk Ww Ek H. unfold u_convolve. rewrite !unc_of_normalize by auto. cbn [bind]. rewrite Ek. cbn [bind elements].
  now rewrite (sub_shape_missing _ _ H).
Qed.
