(** Facts about percentiles. *)
From Coq Require Import String List Arith ZArith Bool Lia QArith Qcanon Field.
From Verif Require Import Base BaseFacts Numpy NumpyFacts Shapes Scalar Reorder Elementwise Reduce Along Sorting Vector Rank Pdf.
From Verif Require Import Spec SpecPdf ShapesFacts AlignFacts GetitemFacts ReorderFacts ElementwiseFacts ReduceFacts
  AlongFacts SortingFacts DerivedFacts VectorIndexFacts MatrixFacts OptimizeFacts RankFacts RankdataFacts.
Import ListNotations.
Open Scope nat_scope.
Open Scope list_scope.

(** ** Shapes that fit into a common shape *)

Lemma fits_broadcast l B : Forall (fun s => NoDup (dkeys s)) l -> NoDup (dkeys B) -> (forall s, In s l -> fits_in s B) ->
  exists sh, broadcast_shapes l = Ok sh /\ fits_in sh B.
Proof.
  intros Nd N Fs. destruct (broadcast_shapes_total _ Nd) as [(sh & E)|E].
  - exists sh. split; auto. intros ax n H. destruct (broadcast_attained _ _ ax n Nd E H) as (s & Hs & Hn). exact (Fs s Hs ax n Hn).
  - exfalso. apply broadcast_shapes_conflict in E; [|exact Nd]. destruct E as (ax & n & m & Hn & Hm & D & D1 & D2).
    apply sizes_of_In in Hn, Hm. destruct Hn as (s & Hs & Hn), Hm as (t & Ht & Hm).
    destruct (Fs s Hs ax n (dget_In _ _ _ Hn)) as (k & Hk & [-> | ->]); [congruence|].
    destruct (Fs t Ht ax m (dget_In _ _ _ Hm)) as (k' & Hk' & [-> | ->]); [congruence|]. apply D.
    assert (X := dget_NoDup B ax k N Hk). rewrite (dget_NoDup B ax k' N Hk') in X. congruence.
Qed.

(** ** Indexing every axis by an array *)

Lemma getitem_reads {A} (a : sarr A) (d : dict (sarr Z)) B (p : string -> env -> nat) :
  wf a -> NoDup (dkeys d) -> (forall k v, In (k, v) d -> wf v) -> NoDup (dkeys B) ->
  (forall ax n, In (ax, n) (sshape a) -> exists v, dget d ax = Some v /\ fits_in (sshape v) B /\
     (forall e, inside e (sshape v) -> (0 <= at_ v e < Z.of_nat n)%Z) /\
     (forall e, inside e B -> bat v e = Z.of_nat (p ax e))) ->
  exists r, getitem a (as_item d) = Ok r /\ reads B (OpArr r) (fun e => at_ a (fun ax => p ax e)).
Proof.
  intros W ND Wd NB H.
  assert (ND' : NoDup (dkeys (as_item d))) by now rewrite dkeys_as_item.
  assert (IW : Forall (fun kv : string * item => item_wf (snd kv)) (as_item d)).
  { apply Forall_forall. intros [k i] Hk. apply in_as_item in Hk as (v & Hv & ->). cbn. now apply (Wd k). }
  assert (Kt : forall ax, In ax (s_axes a) -> keeps_axis (dget (as_item d) ax) = false).
  { intros ax Hax. rewrite <- wf_keys in Hax by auto. apply key_size in Hax as [n Hn].
    destruct (H ax n Hn) as (v & Hv & _). now rewrite dget_as_item, Hv. }
  assert (IS : forall s, In s (index_shapes (s_axes a) (as_item d)) ->
     exists ax n v, In (ax, n) (sshape a) /\ dget d ax = Some v /\ s = sshape v).
  { intros s Hs. unfold index_shapes in Hs. apply in_flat_map in Hs as ([k i] & Hk & Hs). cbn [fst snd] in Hs.
    apply in_as_item in Hk as (v & Hv & ->). destruct (smem k (s_axes a)) eqn:E; [|destruct Hs]. destruct Hs as [<- |[]].
    apply smem_In in E. rewrite <- wf_keys in E by auto. apply key_size in E as [n Hn].
    exists k, n, v. split; auto. split; auto. now apply dget_NoDup. }
  assert (NS : Forall (fun s : shape => NoDup (dkeys s)) (index_shapes (s_axes a) (as_item d))).
  { apply Forall_forall. intros s Hs. destruct (IS s Hs) as (ax & n & v & Hn & Hv & ->). apply wf_nodup.
    apply (Wd ax). now apply dget_In. }
  destruct (fits_broadcast (index_shapes (s_axes a) (as_item d)) B NS NB) as (sa & Esa & Fsa).
  { intros s Hs. destruct (IS s Hs) as (ax & n & v & Hn & Hv & ->). destruct (H ax n Hn) as (v' & Hv' & F & _).
    rewrite Hv in Hv'. injection Hv' as <-. exact F. }
  destruct (proj2 (getitem_success a (as_item d) W ND' IW)) as [r Er].
  { exists sa. split; auto. split.
    - intros ax n Hn. destruct (H ax n Hn) as (v & Hv & _ & R & _). rewrite dget_as_item, Hv. cbn. intros e I.
      specialize (R e I). unfold in_range. lia.
    - intros ax _. auto. }
  exists r. split; auto.
  destruct (getitem_full a (as_item d) r W ND' IW Er) as (Wr & V & sa' & Esa' & Axr & Ssa & _).
  assert (sa' = sa) by congruence. subst sa'.
  assert (Fl : filter (fun ax => keeps_axis (dget (as_item d) ax)) (s_axes a) = []).
  { clear - Kt. induction (s_axes a) as [|x l IH]; auto. cbn. rewrite Kt by now left. apply IH. intros ax Hx. apply Kt. now right. }
  rewrite Fl, app_nil_r in Axr.
  assert (NSa : NoDup (dkeys sa)) by (rewrite <- Axr; apply Wr).
  assert (Sr : forall ax n, In (ax, n) (sshape r) -> In (ax, n) sa).
  { intros ax n Hn. assert (K : In ax (dkeys sa)). { rewrite <- Axr, <- wf_keys by auto. unfold dkeys. now apply (in_map fst) in Hn. }
    apply key_size in K as [m Hm]. assert (n = m); [|congruence].
    apply Ssa in Hm. apply (dget_NoDup (sshape r)) in Hn, Hm; try now apply wf_nodup. congruence. }
  assert (Fr : fits_in (sshape r) B) by (intros ax n Hn; apply Fsa; auto).
  split; [exact Wr|]. split; [exact Fr|].
  intros e I. cbn [op_at]. unfold bat.
  assert (Ic : inside (bclamp (sshape r) e) (sshape r)).
  { apply clamp_inside; [now apply wf_nodup|]. eapply fits_within; eauto. }
  destruct (V _ Ic) as (e' & I' & -> & Sel). apply at_ext. intros ax Hax.
  rewrite <- wf_keys in Hax by auto. apply key_size in Hax as [n Hn].
  destruct (H ax n Hn) as (v & Hv & Fv & _ & Pv). specialize (Sel ax n Hn). rewrite dget_as_item, Hv in Sel. cbn in Sel.
  assert (Wv : wf v) by (apply (Wd ax); now apply dget_In).
  assert (BV : bat v (bclamp (sshape r) e) = bat v e).
  { apply (op_at_clamp (OpArr v) (sshape r) e Wv (wf_nodup _ Wr)). cbn [op_shape]. intros b m Hm.
    assert (Hs : In (sshape v) (index_shapes (s_axes a) (as_item d))).
    { unfold index_shapes. apply in_flat_map. exists (ax, ItArr v). split.
      - apply in_as_item. exists v. split; auto. now apply dget_In.
      - cbn. rewrite (proj2 (smem_In ax (s_axes a))); [now left|]. rewrite <- wf_keys by auto. now apply (in_map fst) in Hn. }
    destruct (broadcast_covers _ _ _ b m NS Esa Hs Hm) as [_ [-> | X]]; auto. }
  rewrite BV, Pv in Sel by auto. destruct Sel as [L Q].
  destruct (Z.of_nat (p ax e) <? 0)%Z eqn:E; [apply Z.ltb_lt in E; lia|]. lia.
Qed.

Section Line.
Variable N : string.
Variable O : shape.
Hypothesis NO : ~ In N (dkeys O).
Hypothesis ND : NoDup (dkeys O).
Hypothesis ONZ : forall ax k, In (ax, k) O -> k <> 0.

Notation shaped := (shaped N O).

(** ** The position picked along the axis *)

Lemma pick_entry {A} (pick : list A -> nat) (a : sarr A) n : shaped a n -> n <> 0 ->
  (forall x, x <> [] -> pick x < length x) ->
  exists d x, na_arg_reduce pick a (Some [N]) = Ok d /\ dget d N = Some x /\ wf x /\ same_shape (sshape x) O /\
    NoDup (dkeys d) /\ (forall k v, In (k, v) d -> wf v) /\
    (forall ax k, In (ax, k) O -> dget d ax = Some (arange ax k)) /\
    forall e, inside e O -> at_ x e = Z.of_nat (pick (line a N e)).
Proof.
  intros H NZ Hp. assert (W := proj1 H). assert (Hin := shaped_in N O a n H).
  unfold na_arg_reduce. cbn [forallb]. rewrite (proj2 (smem_In N (s_axes a)) Hin). cbn [andb negb flatten_axes String.concat bind].
  destruct (proj2 (combine_axes_success a [N] N W)) as [c Ec].
  { split; [repeat constructor; auto|]. split; [intros y [<-|[]]; auto|].
    intros ax k Hk Hn. apply (proj2 H) in Hk as [[-> _]|Hk]; [destruct Hn; now left|].
    split; [now apply (ONZ ax)|now apply (not_N N O NO ax k)]. }
  rewrite Ec. cbn [bind].
  destruct (combine_axes_spec a [N] N c W Ec) as (Wc & Ac & Sc & _).
  assert (TS : total_size (sshape a) [N] = n).
  { rewrite total_size_prod by (auto; intros y [<-|[]]; auto). cbn [map prod].
    change (asize a N) with (size_of (sshape a) N). rewrite (shaped_size N O a n H). lia. }
  assert (Hc : shaped c n).
  { split; auto. intros ax k. rewrite Sc, TS. rewrite (proj2 H ax k). split.
    - intros [[[[-> _]|K] Q]|K]; auto. destruct Q; now left.
    - intros [K|K]; auto. left. split; auto. intros [E|[]]. now apply (not_N N O NO ax k). }
  assert (Lc : forall e, inside e O -> line c N e = line a N e).
  { intros e I. rewrite (combine_axes_line a [N] N c e W Ec).
    - rewrite fibre_one, map_map, (shaped_size N O a n H), (shaped_line N O a n e H). reflexivity.
    - intros ax k Hk Hn. apply (proj2 H) in Hk as [[-> _]|Hk]; [destruct Hn; now left|auto]. }
  unfold index_of. rewrite (sindex_In _ _ (shaped_in N O c n Hc)). cbn [bind].
  destruct (arg_reduce_named pick c N Wc (shaped_in N O c n Hc)) as (ia & Eia & Wi & Si & Gi).
  { now rewrite (shaped_size N O c n Hc). }
  rewrite Eia. cbn [bind]. rewrite mk_sarr_intro by (apply Wi). cbn [bind]. set (ind := mkS ia _) in *.
  assert (Hi : same_shape (sshape ind) O).
  { intros ax k. rewrite Si, filter_In. cbn [fst]. rewrite (proj2 Hc ax k). rewrite negb_true_iff, String.eqb_neq. split.
    - intros [[[-> _]|K] Q]; auto. congruence.
    - intros K. split; auto. now apply (not_N N O NO ax k). }
  assert (Ii : forall e, inside e (sshape ind) <-> inside e O).
  { intros e. split; intros I ax k Hk; apply I; now apply Hi. }
  assert (SUB : subshape (sshape a) [N] = [(N, n)]).
  { rewrite subshape_keys by (auto; intros y [<-|[]]; auto). cbn [map].
    change (asize a N) with (size_of (sshape a) N). now rewrite (shaped_size N O a n H). }
  rewrite SUB.
  assert (NDs : NoDup (dkeys [(N, n)])) by (repeat constructor; auto).
  assert (RANGE : forall e, pick (line a N e) < n).
  { intros e. assert (LL : length (line a N e) = n) by (rewrite line_length; now apply (shaped_size N O)).
    rewrite <- LL. apply Hp. intros E. rewrite E in LL. cbn in LL. congruence. }
  destruct (proj2 (unravel_index_success ind [(N, n)] Wi NDs)) as [d Hd].
  { split; [discriminate|]. intros e He. apply Ii in He. rewrite Gi, (Lc e He). specialize (RANGE e).
    unfold total_size. cbn [fold_right dkeys map fst dget]. rewrite String.eqb_refl. lia. }
  rewrite Hd. cbn [bind]. destruct (unravel_index_spec ind [(N, n)] d Wi NDs Hd) as (Kd & Sd & Vd).
  assert (exists x, dget d N = Some x) as [x Hx] by (apply dget_Some_key; rewrite Kd; now left).
  exists (add_ranges (sshape a) [N] d), x. split; auto.
  cbn [dkeys map fst] in Kd. rewrite add_ranges_eq; [|now apply wf_nodup|intros ax _ Q; rewrite Kd; auto].
  split; [now rewrite dget_app, Hx|].
  destruct (Sd N x Hx) as [Wx Sx]. split; auto.
  split; [now rewrite Sx|].
  assert (Kr : dkeys (map (fun kv : string * nat => (fst kv, arange (fst kv) (snd kv)))
      (filter (fun kv => negb (smem (fst kv) [N])) (sshape a))) = filter (fun ax => negb (smem ax [N])) (s_axes a)).
  { unfold dkeys. rewrite map_map. cbn [fst]. rewrite <- (wf_keys a W). apply (dkeys_filter_fst (fun ax => negb (smem ax [N]))). }
  split.
  { unfold dkeys. rewrite map_app. fold (dkeys d). fold (dkeys (map (fun kv : string * nat => (fst kv, arange (fst kv) (snd kv)))
      (filter (fun kv => negb (smem (fst kv) [N])) (sshape a)))). rewrite Kd, Kr. cbn [app]. constructor.
    - intros Q. apply filter_In in Q as [_ Q]. cbn in Q. rewrite String.eqb_refl in Q. discriminate.
    - apply NoDup_filter. apply W. }
  split.
  { intros k v Hv. apply in_app_iff in Hv as [Hv|Hv].
    - assert (dget d k = Some v) by (apply dget_NoDup; [rewrite Kd; repeat constructor; auto|auto]). now apply (Sd k).
    - apply in_map_iff in Hv as ([ax m] & E & _). injection E as <- <-. apply arange_wf. }
  split.
  { intros ax k Hk. rewrite dget_app.
    assert (ax <> N) by now apply (not_N N O NO ax k).
    replace (dget d ax) with (@None (sarr Z)).
    2:{ symmetry. destruct (dget d ax) eqn:E; auto. apply dget_In in E. apply (in_map fst) in E. fold (dkeys d) in E. rewrite Kd in E.
        destruct E as [E|[]]. cbn in E. congruence. }
    apply dget_NoDup.
    - rewrite Kr. apply NoDup_filter, W.
    - apply in_map_iff. exists (ax, k). split; auto. apply filter_In. split; [now apply (proj2 H); right|].
      cbn. destruct (String.eqb_spec ax N); [congruence|reflexivity]. }
  intros e I. destruct (Vd e) as (idx & F & R); [now apply Ii|].
  inversion F as [|? i ? idx' [F1 (v & F2 & F3)] F4]; subst. inversion F4; subst. cbn [fst snd] in *.
  rewrite Hx in F2. injection F2 as <-. cbn [dvals map snd] in R. rewrite row_major_one in R.
  rewrite F3, R, Gi, (Lc e I). reflexivity.
Qed.

Lemma shaped_initial {A B} (scan : list A -> B) (x : sarr A) m : shaped x m ->
  exists r, na_cumulative scan true x (Some [N]) None = Ok r /\ shaped r (S m) /\
    forall e, at_ r e = scan (firstn (e N) (line x N e)).
Proof.
  intros H. assert (W := proj1 H).
  destruct (cumulative_spec scan true x (Some [N]) W) as [C _]. cbn iota in C.
  destruct (C N eq_refl (shaped_in N O x m H)) as (r & E & Wr & Sr & V).
  assert (R := shaped_resized N O NO x r m _ H Wr Sr). rewrite (shaped_size N O x m H), Nat.add_1_r in R.
  exists r. split; auto. split; auto. intros e. now rewrite V, Nat.add_0_r.
Qed.

Lemma shaped_last {A} (x : sarr A) m : shaped x (S m) ->
  exists r, getitem x [(N, ItInt (-1)%Z)] = Ok r /\ wf r /\ same_shape (sshape r) O /\
    forall e, inside e O -> at_ r e = at_ x (set_env e N m).
Proof.
  intros H. assert (W := proj1 H). set (it := [(N, ItInt (-1)%Z)]).
  assert (NDi : NoDup (dkeys it)) by (repeat constructor; simpl; tauto).
  assert (IW : Forall (fun kv : string * item => item_wf (snd kv)) it) by (repeat constructor).
  assert (G : forall ax, dget it ax = if String.eqb ax N then Some (ItInt (-1)%Z) else None).
  { intros ax. cbn. destruct (String.eqb ax N); reflexivity. }
  destruct (proj2 (getitem_success x it W NDi IW)) as [r Er].
  { exists []. split; [reflexivity|]. split; [|intros ax []]. intros ax n Hn. rewrite G.
    destruct (String.eqb_spec ax N) as [->|]; [|exact Logic.I]. cbn.
    apply (proj2 H) in Hn as [[_ ->]|Hn]; [unfold in_range; lia|]. destruct (not_N N O NO N n Hn eq_refl). }
  exists r. split; auto. destruct (getitem_full x it r W NDi IW Er) as (Wr & V & sa & Esa & Ax & _ & Sz).
  injection Esa as <-. cbn [dkeys map app] in Ax.
  assert (Sr : same_shape (sshape r) O).
  { intros ax k. split.
    - intros Hk. assert (Ha : In ax (s_axes r)) by (rewrite <- wf_keys by auto; now apply (in_map fst) in Hk).
      rewrite Ax in Ha. apply filter_In in Ha as [Ha Kp]. rewrite <- wf_keys in Ha by auto. apply key_size in Ha as [n Hn].
      assert (E := Sz ax n k Hn Kp Hk). rewrite G in E, Kp.
      destruct (String.eqb_spec ax N) as [->|]; [discriminate|]. subst n.
      apply (proj2 H) in Hn as [[-> _]|Hn]; auto. congruence.
    - intros Hk. assert (Hn : In (ax, k) (sshape x)) by (apply (proj2 H); auto).
      assert (D : ax <> N) by now apply (not_N N O NO ax k).
      assert (Kp : keeps_axis (dget it ax) = true) by (rewrite G; destruct (String.eqb_spec ax N); [congruence|reflexivity]).
      assert (Ha : In ax (s_axes r)).
      { rewrite Ax. apply filter_In. split; auto. rewrite <- wf_keys by auto. now apply (in_map fst) in Hn. }
      rewrite <- wf_keys in Ha by auto. apply key_size in Ha as [j Hj].
      assert (E := Sz ax k j Hn Kp Hj). rewrite G in E. destruct (String.eqb_spec ax N); [congruence|]. now subst j. }
  split; auto. split; auto. intros e I. destruct (V e) as (e' & I' & -> & Sel).
  { intros ax k Hk. apply I. now apply Sr. }
  apply at_ext. intros ax Hax. rewrite <- wf_keys in Hax by auto. apply key_size in Hax as [n Hn].
  specialize (Sel ax n Hn). rewrite G in Sel. unfold set_env. destruct (String.eqb_spec ax N) as [->|].
  - cbn in Sel. destruct Sel as [L Q]. change (-1 <? 0)%Z with true in Q. cbv iota in Q.
    apply (proj2 H) in Hn as [[_ ->]|Hn]; [lia|]. destruct (not_N N O NO N n Hn eq_refl).
  - exact Sel.
Qed.
End Line.

(** ** The first true element *)

Lemma first_true_seq (P : nat -> bool) n : forall k, (exists j, k <= j < k + n /\ P j = true) ->
  exists i, first_true (map P (seq k n)) = Some i /\ i < n /\ P (k + i) = true /\ forall j, k <= j < k + i -> P j = false.
Proof.
  induction n as [|n IH]; intros k (j & Hj & Pj); [lia|]. cbn [seq map first_true].
  destruct (P k) eqn:E.
  - exists 0. rewrite Nat.add_0_r. repeat split; auto; lia.
  - destruct (IH (S k)) as (i & Ei & Li & Pi & Bi).
    { exists j. split; auto. destruct (Nat.eq_dec j k) as [-> |]; [congruence|lia]. }
    exists (S i). rewrite Ei. split; auto. split; [lia|]. split; [now replace (k + S i) with (S k + i) by lia|].
    intros m Hm. destruct (Nat.eq_dec m k) as [-> |]; auto. apply Bi. lia.
Qed.

Lemma argmax_seq (P : nat -> bool) n j : j < n -> P j = true ->
  exists i, argmax_bool (map P (seq 0 n)) = i /\ i < n /\ P i = true /\ forall j, j < i -> P j = false.
Proof.
  intros Hj Pj. destruct (first_true_seq P n 0) as (i & Ei & Li & Pi & Bi); [exists j; split; auto; lia|].
  exists i. unfold argmax_bool. rewrite Ei. repeat split; auto. intros m Hm. apply Bi. lia.
Qed.

Lemma argmax_range l : l <> [] -> argmax_bool l < length l.
Proof.
  intros NE. unfold argmax_bool. destruct (first_true l) as [i|] eqn:E.
  - clear NE. revert i E. induction l as [|b l IH]; intros i E; [discriminate|]. cbn in E |- *. destruct b; [injection E as <-; lia|].
    destruct (first_true l) as [j|]; [|discriminate]. injection E as <-. specialize (IH j eq_refl). lia.
  - destruct l; [congruence|]. cbn. lia.
Qed.

(** ** Numbers *)

Lemma qc_ltb_lt x y : qc_ltb x y = true <-> (x < y)%Qc.
Proof. unfold qc_ltb. rewrite Qclt_alt. destruct (x ?= y)%Qc; split; congruence. Qed.

Lemma qc_ltb_ge x y : qc_ltb x y = false <-> (y <= x)%Qc.
Proof.
  destruct (qc_ltb x y) eqn:E.
  - apply qc_ltb_lt in E. split; [discriminate|]. intros L. exfalso. now apply (Qclt_not_le x y).
  - split; auto. intros _. destruct (Qclt_le_dec x y) as [L|L]; auto. apply qc_ltb_lt in L. congruence.
Qed.

Lemma share_bounds (u d : Qc) : (0 <= u)%Qc -> (u < d)%Qc -> (0 <= u / d)%Qc /\ (u / d < 1)%Qc /\ (u / d * d)%Qc = u.
Proof.
  intros U D. assert (P : (0 < d)%Qc) by now apply (Qcle_lt_trans 0 u d).
  assert (NZ : d <> 0%Qc) by (intros ->; now apply (Qclt_not_eq 0 0)).
  assert (E : (u / d * d)%Qc = u) by (field; auto). split; [|split; auto].
  - destruct (Qclt_le_dec (u / d) 0) as [L|L]; auto. exfalso.
    assert (X := Qcmult_lt_compat_r _ _ d P L). rewrite E, Qcmult_0_l in X. now apply (Qclt_not_le u 0).
  - destruct (Qclt_le_dec (u / d) 1) as [L|L]; auto. exfalso.
    assert (X := Qcmult_le_compat_r _ _ d L (Qclt_le_weak _ _ P)). rewrite E, Qcmult_1_l in X. now apply (Qclt_not_le u d).
Qed.

Lemma sum_next (l : list Qc) k a : nth_error l k = Some a -> sum (firstn (S k) l) = (sum (firstn k l) + a)%Qc.
Proof.
  unfold sum. revert k. induction l as [|x l IH]; intros [|k] H; try discriminate.
  - injection H as ->. cbn. ring.
  - cbn [nth_error] in H. change (firstn (S (S k)) (x :: l)) with (x :: firstn (S k) l).
    change (firstn (S k) (x :: l)) with (x :: firstn k l). cbn [fold_right]. rewrite (IH k H). ring.
Qed.

(** the value of a line where the cumulative sum passes [v] *)
Lemma passing (l : list Qc) (v : Qc) : (0 <= v)%Qc -> (v < sum l)%Qc ->
  exists k a, nth_error l k = Some a /\
    argmax_bool (map (fun i => qc_ltb v (sum (firstn i l))) (seq 0 (S (length l)))) = S k /\
    (sum (firstn k l) <= v)%Qc /\ sum (firstn (S k) l) = (sum (firstn k l) + a)%Qc /\ (v < sum (firstn k l) + a)%Qc.
Proof.
  intros V S. destruct (argmax_seq (fun i => qc_ltb v (sum (firstn i l))) (Datatypes.S (length l)) (length l)) as (i & Ei & Li & Pi & Bi).
  - lia.
  - apply qc_ltb_lt. now rewrite firstn_all.
  - destruct i as [|k].
    + exfalso. apply qc_ltb_lt in Pi. cbn in Pi. now apply (Qclt_not_le v 0).
    + destruct (nth_error l k) as [a|] eqn:E; [|apply nth_error_None in E; lia].
      exists k, a. split; auto. split; auto. split; [apply qc_ltb_ge, Bi; lia|]. split; [now apply sum_next|].
      rewrite <- (sum_next l k a E). now apply qc_ltb_lt.
Qed.

(** ** Shapes again *)

Definition cov (s : shape) (ax : string) (k : nat) : Prop := In ax (dkeys s) /\ (k = 1 \/ In (ax, k) s).

Lemma cov_trans (s t : shape) ax k : cov s ax k -> (forall ax k, In (ax, k) s -> cov t ax k) -> cov t ax k.
Proof.
  intros [K [-> |I]] H; [|now apply H]. apply key_size in K as [j Hj]. split; auto. now apply (H ax j).
Qed.

Lemma cov_in (s : shape) ax k : In (ax, k) s -> cov s ax k.
Proof. intros H. split; auto. now apply (in_map fst) in H. Qed.

Lemma fits_exact (s B : shape) : NoDup (dkeys s) -> NoDup (dkeys B) -> fits_in s B ->
  (forall ax k, In (ax, k) B -> cov s ax k) -> same_shape s B.
Proof.
  intros Ns NB F C ax k. split; intros H.
  - destruct (F ax k H) as (m & Hm & [-> | ->]); auto. destruct (C ax m Hm) as [_ [-> |X]]; auto.
    assert (m = 1); [|congruence]. apply (dget_NoDup s) in H, X; auto. congruence.
  - destruct (C ax k H) as [K [-> |X]]; auto. apply key_size in K as [j Hj].
    destruct (F ax j Hj) as (m & Hm & [-> | ->]); auto.
    apply (dget_NoDup B) in H, Hm; auto. congruence.
Qed.

Lemma qc2_reads {B} (h : Qc -> Qc -> B) sh o1 o2 f g : NoDup (dkeys sh) -> is_num o1 && is_num o2 = false ->
  reads sh o1 f -> reads sh o2 g ->
  exists r, qc2 h o1 o2 = Ok r /\ reads sh (OpArr r) (fun e => h (f e) (g e)) /\
    (forall ax k, In (ax, k) (op_shape o1) \/ In (ax, k) (op_shape o2) -> cov (sshape r) ax k).
Proof.
  intros N X (W1 & S1 & V1) (W2 & S2 & V2). unfold qc2.
  destruct (array_ufunc_reads (fun l => h (nth 0 l 0%Qc) (nth 1 l 0%Qc)) sh [o1; o2]) as (r & E & R); auto.
  { destruct o1, o2; try discriminate; reflexivity. }
  exists r. split; [exact E|]. split.
  - eapply reads_ext; [exact R|]. intros e I. cbn [map nth]. now rewrite V1, V2.
  - destruct (array_ufunc_inv _ [o1; o2] r (Forall_cons _ W1 (Forall_cons _ W2 (Forall_nil _))) E) as (Wr & Sr & _).
    intros ax k H.
    assert (Nl : Forall (fun s => NoDup (dkeys s)) (op_shapes [o1; o2])).
    { apply Forall_forall. intros s Hs. unfold op_shapes in Hs. apply in_flat_map in Hs as (o & Ho & Hs).
      destruct o as [b|y]; [|destruct Hs]. destruct Hs as [<- |[]]. apply wf_nodup.
      destruct Ho as [-> |[-> |[]]]; auto. }
    assert (exists s, In s (op_shapes [o1; o2]) /\ In (ax, k) s) as (s & Hs & Hk).
    { destruct H as [H|H].
      - destruct o1 as [b|]; [|destruct H]. exists (sshape b). split; auto. now left.
      - destruct o2 as [b|]; [|destruct H]. exists (sshape b). split; auto. unfold op_shapes. apply in_flat_map.
        exists (OpArr b). split; [right; now left|now left]. }
    apply (broadcast_covers _ _ s ax k Nl Sr Hs Hk).
Qed.

Lemma map1_reads {A B} (h : A -> B) d sh x f : NoDup (dkeys sh) -> reads sh (OpArr x) f ->
  exists r, map1 h d x = Ok r /\ reads sh (OpArr r) (fun e => h (f e)) /\ wf r /\ sshape r = sshape x /\
    forall e, at_ r e = h (bat x e).
Proof.
  intros N (W & S & V). unfold map1.
  destruct (array_ufunc_reads (fun l => match l with [x] => h x | _ => d end) sh [OpArr x]) as (r & E & R); auto.
  exists r. split; [exact E|]. split; [eapply reads_ext; [exact R|]; intros e I; cbn [map]; now rewrite V|].
  destruct (array_ufunc_inv _ [OpArr x] r (Forall_cons _ W (Forall_nil _)) E) as (Wr & Sr & Vr).
  split; auto. split; auto. unfold op_shapes in Sr. cbn [flat_map app] in Sr. rewrite broadcast_one in Sr by now apply wf_nodup.
  congruence.
Qed.

Lemma map2_reads {A B} (h : A -> A -> B) d sh x y f g : NoDup (dkeys sh) -> reads sh (OpArr x) f -> reads sh (OpArr y) g ->
  exists r, map2 h d x y = Ok r /\ reads sh (OpArr r) (fun e => h (f e) (g e)).
Proof.
  intros N (W & S & V) (W' & S' & V'). unfold map2.
  destruct (array_ufunc_reads (fun l => match l with [x; y] => h x y | _ => d end) sh [OpArr x; OpArr y]) as (r & E & R); auto.
  exists r. split; [exact E|]. eapply reads_ext; [exact R|]. intros e I. cbn [map]. now rewrite V, V'.
Qed.

(** ** The fractional index *)

Lemma in_others sh ax b k : In (b, k) (others_of sh ax) <-> In (b, k) sh /\ b <> ax.
Proof. unfold others_of. rewrite filter_In. cbn [fst]. rewrite negb_true_iff, String.eqb_neq. tauto. Qed.

Lemma whole_next (k : nat) : (of_int (Z.of_nat (S k) - (Z.of_nat (S k) - 1)))%Qc = 1%Qc.
Proof. replace (Z.of_nat (S k) - (Z.of_nat (S k) - 1))%Z with 1%Z by lia. reflexivity. Qed.

Theorem argpercentile_spec (a : sarr Qc) (q : operand Qc) (axis : option (list string)) (ax : string) (sh : shape) :
  wf a -> op_wf q -> In ax (s_axes a) -> match axis with Some l => l | None => s_axes a end = [ax] ->
  ~ In ax (dkeys (op_shape q)) ->
  (forall b m k, In (b, m) (op_shape q) -> In (b, k) (sshape a) -> m = 1 \/ m = k) ->
  broadcast_shapes [others_of (sshape a) ax; op_shape q] = Ok sh -> (forall b k, In (b, k) sh -> k <> 0) ->
  (forall e, inside e sh -> (0 < sum (line a ax e))%Qc /\ (0 <= op_at q e)%Qc /\ (op_at q e < number 100)%Qc) ->
  exists x, argpercentile a q axis = Ok (ax, x) /\ wf x /\ same_shape (sshape x) sh /\
    forall e, inside e sh -> cumulative_at (line a ax e) (at_ x e) (op_at q e * sum (line a ax e) / number 100)%Qc.
Proof.
  intros W Wq Hax HS NQ FQ BS SNZ VAL.
  set (Oa := others_of (sshape a) ax) in *. set (n := size_of (sshape a) ax).
  assert (KA : NoDup (dkeys (sshape a))) by now apply wf_nodup.
  assert (NOa : NoDup (dkeys Oa)).
  { unfold Oa, others_of. now apply (nodup_filter_keys (fun k => negb (String.eqb k ax))). }
  assert (NNa : ~ In ax (dkeys Oa)).
  { intros H. apply key_size in H as [k H]. apply in_others in H. tauto. }
  assert (Nl : Forall (fun s : shape => NoDup (dkeys s)) [Oa; op_shape q]).
  { constructor; [auto|constructor; [now apply op_shape_NoDup|constructor]]. }
  destruct (broadcast_shapes_ok _ _ Nl BS) as (NB & Kb & Pb).
  assert (FO : fits_in Oa sh) by (apply (broadcast_fits _ _ _ Nl BS); simpl; auto).
  assert (Fq : fits_in (op_shape q) sh) by (apply (broadcast_fits _ _ _ Nl BS); simpl; auto).
  assert (NNb : ~ In ax (dkeys sh)).
  { intros H. apply key_size in H as [k H]. destruct (broadcast_attained _ _ _ _ Nl BS H) as (s & [<- |[<- |[]]] & Hk);
      apply (in_map fst) in Hk; cbn in Hk; contradiction. }
  (* the axes of [a] have the same size in the common shape *)
  assert (SO : forall b k, In (b, k) Oa -> In (b, k) sh).
  { intros b k Hk. destruct (FO b k Hk) as (m & Hm & [-> | ->]); auto.
    destruct (broadcast_attained _ _ _ _ Nl BS Hm) as (s & [<- |[<- |[]]] & Hs).
    - apply (dget_NoDup Oa) in Hs, Hk; auto. congruence.
    - apply in_others in Hk as [Hk _]. destruct (FQ b m 1 Hs Hk) as [-> | ->]; auto. }
  assert (Ha : shaped ax Oa a n).
  { split; auto. intros b k. unfold Oa. rewrite (in_others (sshape a) ax b k). split.
    - intros H. destruct (string_dec b ax) as [-> |D]; auto. left. split; auto. symmetry. now apply size_of_In.
    - intros [[-> ->]|[H _]]; auto. rewrite <- wf_keys in Hax by auto. apply key_size in Hax as [k Hk].
      unfold n. rewrite (size_of_In _ _ k); auto. }
  assert (LL : forall e, length (line a ax e) = n) by (intros e; rewrite line_length; reflexivity).
  unfold argpercentile.
  destruct (Nat.eqb_spec (length (sshape a)) 0) as [Z|_].
  { apply length_zero_iff_nil in Z. rewrite <- wf_keys, Z in Hax by auto. destruct Hax. }
  replace (axis_normalized a axis) with [ax] by (rewrite <- HS; destruct axis; reflexivity).
  destruct (shaped_initial ax Oa NNa (fold_right Qcplus 0%Qc) a n Ha) as (cs & Ecs & Hcs & Vcs). rewrite Ecs. cbn [bind].
  assert (Wcs := proj1 Hcs).
  destruct (shaped_last ax Oa NNa cs n Hcs) as (tot & Et & Wt & St & Vt). rewrite Et. cbn [bind].
  assert (Rt : reads sh (OpArr tot) (fun e => sum (line a ax e))).
  { split; [exact Wt|]. assert (Ft : fits_in (sshape tot) sh) by (intros b k Hk; apply FO; now apply St).
    split; [exact Ft|]. intros e I. cbn [op_at].
    assert (Io : inside e (sshape tot)) by (intros b k Hk; apply I, SO; now apply St).
    rewrite bat_inside by auto. rewrite Vt by (intros b k Hk; apply I; now apply SO).
    rewrite Vcs, set_N, line_set. unfold sum. f_equal. apply firstn_all2. now rewrite LL. }
  destruct (qc2_reads Qcmult sh q (OpArr tot) (op_at q) _ NB (andb_false_r _) (reads_self sh q Wq Fq) Rt) as (y' & Ey' & Ry' & Cy').
  rewrite Ey'. cbn [bind].
  destruct (qc2_reads Qcdiv sh (OpArr y') (OpNum (of_int 100)) _ _ NB eq_refl Ry' (reads_num sh (of_int 100))) as (y & Ey & Ry & Cy).
  rewrite Ey. cbn [bind].
  set (Y := fun e => (op_at q e * sum (line a ax e) / number 100)%Qc).
  assert (RY : reads sh (OpArr y) Y) by exact Ry. clear Ry.
  set (B := (ax, S n) :: sh).
  assert (NBB : NoDup (dkeys B)) by (cbn; constructor; auto).
  assert (IB : forall e, inside e B <-> e ax < S n /\ inside e sh).
  { intros e. split.
    - intros I. split; [apply I; now left|]. intros b k Hk. apply I. now right.
    - intros [I1 I2] b k [E|Hk]; [injection E as <- <-; auto|auto]. }
  assert (Rcs : reads B (OpArr cs) (at_ cs)).
  { split; [exact Wcs|]. split.
    - intros b k Hk. apply (proj2 Hcs) in Hk as [[-> ->]|Hk]; [exists (S n); split; auto; now left|].
      exists k. split; auto. right. now apply SO.
    - intros e I. apply IB in I as [I1 I2]. cbn [op_at]. apply bat_inside; auto.
      apply (shaped_inside ax Oa cs _ e Hcs). split; auto. intros b k Hk. apply I2. now apply SO. }
  assert (RyB : reads B (OpArr y) Y).
  { destruct RY as (W1 & F1 & V1). split; auto. split.
    - intros b k Hk. destruct (F1 b k Hk) as (m & Hm & D). exists m. split; auto. now right.
    - intros e I. apply V1. now apply IB. }
  destruct (qc2_reads (fun c y => qc_ltb y c) B (OpArr cs) (OpArr y) _ _ NBB eq_refl Rcs RyB) as (ab & Eab & Rab & Cab).
  rewrite Eab. cbn [bind].
  assert (Wab : wf ab) by apply Rab.
  assert (Cov : forall b k, In (b, k) sh -> cov (sshape y) b k).
  { intros b k Hk. destruct (broadcast_attained _ _ _ _ Nl BS Hk) as (s & [<- |[<- |[]]] & Hs).
    - apply (cov_trans (sshape y')); [|intros; apply Cy; now left]. apply Cy'. right. cbn [op_shape]. now apply St.
    - apply (cov_trans (sshape y')); [|intros; apply Cy; now left]. apply Cy'. now left. }
  assert (Sab : same_shape (sshape ab) B).
  { apply fits_exact; auto; [now apply wf_nodup|apply Rab|]. intros b k [E|Hk].
    - injection E as <- <-. apply Cab. left. cbn [op_shape]. apply (proj2 Hcs). now left.
    - apply (cov_trans (sshape y)); [now apply Cov|intros; apply Cab; now right]. }
  assert (Hab : shaped ax sh ab (S n)).
  { split; auto. intros b k. rewrite (Sab b k). unfold B. cbn [In]. split.
    - intros [E|Hk]; auto. injection E as <- <-. auto.
    - intros [[-> ->]|Hk]; auto. }
  assert (Lab : forall e, inside e sh -> line ab ax e = map (fun i => qc_ltb (Y e) (sum (firstn i (line a ax e)))) (seq 0 (S (length (line a ax e))))).
  { intros e I. rewrite (shaped_line ax sh ab (S n) e Hab), LL. apply map_ext_in. intros i Hi. apply in_seq in Hi.
    assert (J : inside (set_env e ax i) B).
    { apply IB. rewrite set_N. split; [lia|]. apply inside_set; auto. }
    destruct Rab as (_ & _ & Vab). specialize (Vab _ J). cbn [op_at] in Vab. rewrite bat_inside in Vab; auto.
    2:{ apply (shaped_inside ax sh ab _ _ Hab). apply IB in J. auto. }
    rewrite Vab. unfold Y. rewrite line_set. rewrite Vcs, set_N, line_set. f_equal.
    f_equal. f_equal. destruct q as [qa|qv]; auto. cbn [op_at]. unfold bat. apply at_ext. intros b Hb. unfold bclamp.
    cbn [op_shape] in NQ. rewrite wf_keys in NQ by auto.
    rewrite set_env_other; [reflexivity|]. intros ->. contradiction. }
  destruct (pick_entry ax sh NNb SNZ argmax_bool ab (S n) Hab) as (d & x1 & Ed & Dx & Wx1 & Sx1 & NDd & Wd & Dd & Vx1); auto.
  { apply argmax_range. }
  rewrite Ed. cbn [bind]. unfold lookup. rewrite Dx. cbn [bind].
  (* the position *)
  set (K := fun e => argmax_bool (line ab ax e) - 1).
  assert (PK : forall e, inside e sh -> exists v, nth_error (line a ax e) (K e) = Some v /\
     at_ x1 e = Z.of_nat (S (K e)) /\ S (K e) < S n /\ (sum (firstn (K e) (line a ax e)) <= Y e)%Qc /\
     sum (firstn (S (K e)) (line a ax e)) = (sum (firstn (K e) (line a ax e)) + v)%Qc /\
     (Y e < sum (firstn (K e) (line a ax e)) + v)%Qc).
  { intros e I. destruct (VAL e I) as (V1 & V2 & V3).
    destruct (share_bounds (op_at q e) (number 100) V2 V3) as (T1 & T2 & _).
    assert (EY : Y e = (op_at q e / number 100 * sum (line a ax e))%Qc) by (unfold Y, Qcdiv; ring).
    destruct (passing (line a ax e) (Y e)) as (k & v & P1 & P2 & P3 & P4 & P5).
    - rewrite EY. rewrite <- (Qcmult_0_l (sum (line a ax e))). apply Qcmult_le_compat_r; auto. now apply Qclt_le_weak.
    - rewrite EY. rewrite <- (Qcmult_1_l (sum (line a ax e))) at 2. now apply Qcmult_lt_compat_r.
    - assert (EK : K e = k) by (unfold K; rewrite Lab, P2 by auto; lia).
      exists v. rewrite EK. rewrite Vx1, Lab, P2 by auto. repeat split; auto.
      assert (PL : k < length (line a ax e)) by (apply nth_error_Some; congruence). rewrite LL in PL. lia. }
  assert (Ix1 : forall e, inside e sh <-> inside e (sshape x1)).
  { intros e. split; intros I b k Hk; apply I; now apply Sx1. }
  assert (Fx1 : fits_in (sshape x1) sh) by (intros b k Hk; exists k; split; auto; now apply Sx1).
  assert (Rx1 : reads sh (OpArr x1) (fun e => Z.of_nat (S (K e)))).
  { split; [exact Wx1|]. split; [exact Fx1|]. intros e I. cbn [op_at]. rewrite bat_inside by (auto; now apply Ix1).
    destruct (PK e I) as (v & _ & E & _). exact E. }
  destruct (map1_reads (fun z => z - 1)%Z 0%Z sh x1 _ NB Rx1) as (x0 & Ex0 & Rx0 & Wx0 & Sx0 & Vx0). rewrite Ex0. cbn [bind].
  assert (Gcs : forall (dd : dict (sarr Z)) (xx : sarr Z) (P : env -> nat), NoDup (dkeys dd) -> (forall k v, In (k, v) dd -> wf v) ->
     dget dd ax = Some xx -> (forall b k, In (b, k) sh -> dget dd b = Some (arange b k)) -> sshape xx = sshape x1 -> wf xx ->
     (forall e, inside e sh -> at_ xx e = Z.of_nat (P e) /\ P e < S n) ->
     exists r, getitem cs (as_item dd) = Ok r /\ reads sh (OpArr r) (fun e => sum (firstn (P e) (line a ax e)))).
  { intros dd xx P N1 N2 N3 N4 N5 N6 N7.
    destruct (getitem_reads cs dd sh (fun b e => set_env e ax (P e) b) Wcs N1 N2 NB) as (r & Er & Rr).
    - intros b k Hk. apply (proj2 Hcs) in Hk as [[-> ->]|Hk].
      + exists xx. split; auto. split; [now rewrite N5|]. split.
        * intros e I. rewrite N5 in I. apply Ix1 in I. destruct (N7 e I) as [-> L]. lia.
        * intros e I. rewrite set_N. rewrite bat_inside; auto; [now apply N7|]. rewrite N5. now apply Ix1.
      + exists (arange b k). split; [apply N4; now apply SO|]. assert (b <> ax) by now apply (not_N ax Oa NNa b k).
        split; [|split].
        * intros b' k' Hk'. cbn in Hk'. destruct Hk' as [E|[]]. injection E as <- <-. exists k. split; auto.
        * intros e I. unfold at_. cbn. specialize (I b k). cbn in I. assert (e b < k) by (apply I; now left). lia.
        * intros e I. rewrite set_env_other by auto. rewrite bat_inside; [reflexivity|apply arange_wf|].
          intros b' k' Hk'. cbn in Hk'. destruct Hk' as [E|[]]. injection E as <- <-. apply I. now apply SO.
    - exists r. split; auto. eapply reads_ext; [exact Rr|]. intros e I. cbv beta.
      change (fun b => set_env e ax (P e) b) with (set_env e ax (P e)).
      now rewrite Vcs, set_N, line_set. }
  destruct (Gcs (dset d ax x0) x0 K) as (y0 & Ey0 & Ry0); auto.
  { rewrite dkeys_dset_in; auto. apply dget_Some_key. eauto. }
  { intros k v Hv. assert (G : dget (dset d ax x0) k = Some v).
    { apply dget_NoDup; auto. rewrite dkeys_dset_in; auto. apply dget_Some_key. eauto. }
    rewrite dget_dset in G. destruct (String.eqb k ax); [now injection G as <-|]. apply (Wd k). now apply dget_In. }
  { now rewrite dget_dset, String.eqb_refl. }
  { intros b k Hk. rewrite dget_dset. destruct (String.eqb_spec b ax) as [-> |]; auto.
    apply (in_map fst) in Hk. contradiction. }
  { intros e I. destruct (PK e I) as (v & _ & E & L & _). rewrite Vx0, bat_inside, E by (auto; now apply Ix1). split; lia. }
  rewrite Ey0. cbn [bind].
  destruct (Gcs d x1 (fun e => S (K e))) as (y1 & Ey1 & Ry1); auto.
  { intros e I. destruct (PK e I) as (v & _ & E & L & _). auto. }
  rewrite Ey1. cbn [bind].
  destruct (qc2_reads Qcminus sh (OpArr y) (OpArr y0) _ _ NB eq_refl RY Ry0) as (u & Eu & Ru & _). rewrite Eu. cbn [bind].
  destruct (qc2_reads Qcminus sh (OpArr y1) (OpArr y0) _ _ NB eq_refl Ry1 Ry0) as (s & Es & Rs & _). rewrite Es. cbn [bind].
  destruct (qc2_reads Qcdiv sh (OpArr u) (OpArr s) _ _ NB eq_refl Ru Rs) as (t & Et' & Rt' & _). rewrite Et'. cbn [bind].
  destruct (map2_reads Z.sub 0%Z sh x1 x0 _ _ NB Rx1 Rx0) as (w & Ew & Rw). rewrite Ew. cbn [bind].
  destruct (map1_reads of_int 0%Qc sh w _ NB Rw) as (w' & Ew' & Rw' & _). rewrite Ew'. cbn [bind].
  destruct (qc2_reads Qcmult sh (OpArr t) (OpArr w') _ _ NB eq_refl Rt' Rw') as (pt & Ept & Rpt & _). rewrite Ept. cbn [bind].
  destruct (map1_reads of_int 0%Qc sh x0 _ NB Rx0) as (s0 & Es0 & Rs0 & Ws0 & Ss0 & _). rewrite Es0. cbn [bind].
  destruct (qc2_reads Qcplus sh (OpArr pt) (OpArr s0) _ _ NB eq_refl Rpt Rs0) as (x & Ex & Rx & Cx). rewrite Ex. cbn [bind].
  exists x. assert (Wx : wf x) by apply Rx.
  assert (Sx : same_shape (sshape x) sh).
  { apply fits_exact; auto; [now apply wf_nodup|apply Rx|]. intros b k Hk. apply Cx. right. cbn [op_shape].
    rewrite Ss0, Sx0. now apply Sx1. }
  split; auto. split; auto. split; auto.
  intros e I. destruct Rx as (_ & _ & Vx). specialize (Vx e I). cbn [op_at] in Vx.
  rewrite bat_inside in Vx; auto; [|intros b k Hk; apply I; now apply Sx].
  rewrite Vx. destruct (PK e I) as (v & P1 & P2 & P3 & P4 & P5 & P6).
  set (k := K e) in *. set (L := line a ax e) in *.
  destruct (share_bounds (Y e - sum (firstn k L)) v) as (T1 & T2 & T3).
  { rewrite <- (Qcplus_opp_r (sum (firstn k L))). apply Qcplus_le_compat; auto. apply Qcle_refl. }
  { apply Qclt_minus_iff in P6. apply Qclt_minus_iff.
    replace (v + - (Y e - sum (firstn k L)))%Qc with (sum (firstn k L) + v + - Y e)%Qc by ring. exact P6. }
  exists k, v, ((Y e - sum (firstn k L)) / v)%Qc. split; auto. split; auto. split; auto. split.
  - rewrite P5. rewrite whole_next.
    replace (sum (firstn k L) + v - sum (firstn k L))%Qc with v by ring.
    replace (of_int (Z.of_nat (S k) - 1)) with (number (Z.of_nat k)); [ring|].
    unfold of_int, number, inject_Z. do 2 f_equal. lia.
  - rewrite T3. change (op_at q e * sum L / number 100)%Qc with (Y e). ring.
Qed.

Lemma argpercentile_scalar a q axis : sshape a = [] -> argpercentile a q axis = Err ValueError.
Proof. intros H. unfold argpercentile. now rewrite H. Qed.

Lemma argpercentile_axes a q axis :
  length (match axis with Some l => l | None => s_axes a end) <> 1 -> argpercentile a q axis = Err ValueError.
Proof.
  intros H. unfold argpercentile. destruct (Nat.eqb _ _); auto.
  assert (E : length (axis_normalized a axis) <> 1) by (destruct axis; exact H).
  destruct (axis_normalized a axis) as [|x [|y l]]; auto. now destruct E.
Qed.
