(** Facts about [debroadcast], [mean_trimmed] and [cell_centers]. *)
From Coq Require Import String List Arith ZArith QArith Qround Bool Lia Permutation Sorted.
From Verif Require Import Base BaseFacts Numpy NumpyFacts Shapes Scalar Reorder Elementwise Reduce Along Sorting Derived Spec SpecDerived
     ShapesFacts AlignFacts GetitemFacts SetitemFacts ReorderFacts ElementwiseFacts ReduceFacts AlongFacts SortingFacts.
Import ListNotations.
Open Scope nat_scope.
Open Scope list_scope.

(** ** Slices *)

Lemma positions_first_end s N lo hi :
  sl_step s = None -> slice_first s (Z.of_nat N) = Z.of_nat lo -> slice_end s (Z.of_nat N) = Z.of_nat hi ->
  lo <= N -> hi <= N -> positions s N = seq lo (hi - lo).
Proof.
  intros S0 SF SE H1 H2. apply nth_error_ext. intros i. rewrite seq_nth_error.
  assert (S1 : sl_step s <> Some 0%Z) by (rewrite S0; discriminate).
  assert (ST : slice_step s = 1%Z) by (unfold slice_step; now rewrite S0).
  assert (SS : forall p, slice_selects s N i p <-> p = lo + i /\ i < hi - lo).
  { intros p. unfold slice_selects. rewrite SF, SE, ST. cbn [Z.ltb Z.compare]. lia. }
  destruct (Nat.ltb_spec i (hi - lo)).
  - apply positions_spec; auto. apply SS. lia.
  - destruct (nth_error (positions s N) i) as [p|] eqn:E; auto. apply (positions_spec s N i p S1) in E. apply SS in E. lia.
Qed.

Lemma getitem_slice {A} (a : sarr A) ax sl lo n : wf a -> In ax (s_axes a) -> sl_step sl = None ->
  positions sl (size_of (sshape a) ax) = seq lo n ->
  exists r, getitem a [(ax, ItSlice sl)] = Ok r /\
    wf r /\ sshape r = resized (sshape a) ax n /\
    forall e, inside e (sshape r) -> at_ r e = at_ a (set_env e ax (lo + e ax)).
Proof.
  intros W Hin S0 HP.
  set (it := [(ax, ItSlice sl)]).
  assert (ND : NoDup (dkeys it)) by (repeat constructor; simpl; tauto).
  assert (IW : Forall (fun kv : string * item => item_wf (snd kv)) it) by (repeat constructor).
  assert (IT : filter (fun kv : string * item => smem (fst kv) (s_axes a)) it = it).
  { unfold it. cbn [filter fst]. apply smem_In in Hin. now rewrite Hin. }
  assert (ITE : filter (fun kv : string * item => smem (fst kv) (s_axes a)) it <> []) by (rewrite IT; discriminate).
  assert (SA : shape_broadcasted (map (fun kv : string * item => opnd (snd kv))
    (filter (fun kv => get_advanced (snd kv)) (filter (fun kv => smem (fst kv) (s_axes a)) it))) = Ok []).
  { rewrite IT. reflexivity. }
  assert (OK : forall ax', In ax' (s_axes a) -> item_ok (asize a ax') (dget it ax')).
  { intros ax' _. unfold it. cbn [dget]. destruct (String.eqb ax' ax); cbn; [rewrite S0; discriminate|exact I]. }
  destruct (getitem_intro a it W ND IW [] ITE SA OK) as [r Hr]; [intros ? []|].
  destruct (getitem_ok a it W ND IW r ITE Hr) as (sa & SA' & _ & Wr & Sr & El).
  assert (sa = []) by congruence. subst sa.
  exists r. split; auto. split; auto.
  assert (SH : sshape r = resized (sshape a) ax n).
  { rewrite Sr. cbn [app]. rewrite IT. unfold it. cbn [filter get_advanced snd dkeys map].
    unfold others. rewrite filter_all.
    2: { intros; reflexivity. }
    rewrite (sshape_map a W). unfold resized. rewrite !map_map. apply map_ext_in. intros ax' Hx. cbn [fst snd dget].
    f_equal. destruct (String.eqb ax' ax) eqn:E.
    - apply String.eqb_eq in E. subst ax'. cbn [item_slice]. change (asize a ax) with (size_of (sshape a) ax). rewrite HP, seq_length; auto.
    - cbn [item_slice]. now rewrite positions_slice_all, seq_length. }
  split; auto. intros e He. rewrite El. unfold at_. f_equal. apply map_ext_in. intros ax' Hx.
  assert (LT : forall m, In (ax', m) (sshape r) -> e ax' < m) by (intros m Hm; apply (He ax'); auto).
  assert (IR : In (ax', if String.eqb ax' ax then n else asize a ax') (sshape r)).
  { rewrite SH. unfold resized. apply in_map_iff. exists (ax', asize a ax'). split; auto. apply in_sshape; auto. }
  apply LT in IR.
  unfold it. cbn [dget]. unfold set_env. destruct (String.eqb ax' ax) eqn:E.
  - apply String.eqb_eq in E. subst ax'. cbn [item_pos item_slice]. change (asize a ax) with (size_of (sshape a) ax). rewrite HP.
    rewrite seq_nth; auto.
  - cbn [item_pos item_slice]. rewrite positions_slice_all, seq_nth; auto.
Qed.

(** the slices that occur *)
Lemma slice_first_one N : positions (mkSlice (Some 0%Z) (Some 1%Z) None) N = seq 0 (Nat.min 1 N).
Proof.
  rewrite <- (Nat.sub_0_r (Nat.min 1 N)). apply positions_first_end; auto; try lia.
  - unfold slice_first, slice_step. cbn [sl_start sl_step]. destruct (0 <? 1)%Z eqn:E1; [|discriminate].
    destruct (Z.ltb_spec 0 0); lia.
  - unfold slice_end, slice_step. cbn [sl_stop sl_step]. destruct (0 <? 1)%Z eqn:E1; [|discriminate].
    destruct (Z.ltb_spec 1 0); lia.
Qed.

Lemma slice_but_last N : positions (mkSlice None (Some (-1)%Z) None) N = seq 0 (N - 1).
Proof.
  rewrite <- (Nat.sub_0_r (N - 1)). apply positions_first_end; auto; try lia.
  unfold slice_end, slice_step. cbn [sl_stop sl_step]. destruct (0 <? 1)%Z eqn:E1; [|discriminate].
  destruct (Z.ltb_spec (-1) 0); lia.
Qed.

Lemma slice_but_first N : positions (mkSlice (Some 1%Z) None None) N = seq (Nat.min 1 N) (N - 1).
Proof.
  replace (N - 1) with (N - Nat.min 1 N) by lia. apply positions_first_end; auto; try lia.
  unfold slice_first, slice_step. cbn [sl_start sl_step]. destruct (0 <? 1)%Z eqn:E1; [|discriminate].
  destruct (Z.ltb_spec 1 0); lia.
Qed.

(** ** Broadcasting against a dominating shape *)

Lemma bs_covered (S : shape) (l : list shape) :
  NoDup (dkeys S) ->
  (forall s, In s l -> NoDup (dkeys s) /\ forall ax n, In (ax, n) s -> In ax (dkeys S) /\ (n = 1 \/ In (ax, n) S)) ->
  broadcast_shapes (S :: l) = Ok S.
Proof.
  intros N H.
  assert (NS : Forall (fun s : shape => NoDup (dkeys s)) (S :: l)).
  { constructor; auto. apply Forall_forall. intros s Hs. now apply H. }
  assert (INC : incl (concat (map dkeys l)) (dkeys S)).
  { intros ax Hax. apply in_concat in Hax as [ks [Hk Hax]]. apply in_map_iff in Hk as [s [<- Hs]].
    unfold dkeys in Hax. apply in_map_iff in Hax as [[k v] [<- Hkv]]. destruct (H s Hs) as [_ H1]. now apply H1 in Hkv. }
  assert (SZ : forall ax n, In (ax, n) S -> common_size (sizes_of (S :: l) ax) n).
  { intros ax n Hn. split.
    - intros m Hm. unfold sizes_of in Hm. apply in_flat_map in Hm as [s [Hs Hm]].
      destruct (dget s ax) as [q|] eqn:Eq; [|destruct Hm]. destruct Hm as [<-|[]]. apply dget_In in Eq.
      assert (HQ : q = 1 \/ In (ax, q) S). { destruct Hs as [<-|Hs]; auto. destruct (H s Hs) as [_ H2]. now apply H2 in Eq. }
      destruct HQ as [HQ|HQ]; auto. right.
      apply (dget_NoDup S ax _ N) in HQ. apply (dget_NoDup S ax _ N) in Hn. congruence.
    - intros Hm. apply Hm. unfold sizes_of. simpl. rewrite (dget_NoDup S ax n N Hn). left; auto. }
  destruct (broadcast_shapes (S :: l)) as [r|er] eqn:E.
  - destruct (broadcast_shapes_ok _ _ NS E) as (Nr & Kr & Zr). f_equal.
    assert (K : dkeys r = dkeys S).
    { rewrite Kr. cbn [map concat]. rewrite first_appearance_app by auto. now apply first_appearance_nodup. }
    rewrite <- (combine_dkeys_dvals r), <- (combine_dkeys_dvals S), K. f_equal.
    apply nth_error_ext. intros i. unfold dvals. rewrite !nth_error_map.
    assert (KI : nth_error (dkeys r) i = nth_error (dkeys S) i) by (now rewrite K). unfold dkeys in KI. rewrite !nth_error_map in KI.
    destruct (nth_error r i) as [[ax n]|] eqn:E1, (nth_error S i) as [[ax' m]|] eqn:E2; cbn in *; try discriminate; auto.
    injection KI as ->. f_equal. apply nth_error_In in E1, E2. assert (C2 := SZ _ _ E2). assert (R1 := E1). apply Zr in E1 as [Hax _].
    assert (R2 : In (ax', m) r) by (apply Zr; auto).
    apply (dget_NoDup r _ _ Nr) in R1, R2. congruence.
  - exfalso. assert (er = ValueError) by (destruct (broadcast_shapes_total _ NS) as [[? HH]|HH]; congruence). subst.
    apply (broadcast_shapes_conflict _ NS) in E. destruct E as (ax & n & m & H1 & H2 & H3 & H4 & H5).
    assert (Hax : In ax (dkeys S)).
    { unfold sizes_of in H1. apply in_flat_map in H1 as [s [Hs Hm]]. destruct (dget s ax) as [q|] eqn:Eq; [|destruct Hm].
      apply dget_In in Eq. destruct Hs as [<-|Hs]; [now apply (in_map fst) in Eq|]. destruct (H s Hs) as [_ H6]. now apply H6 in Eq. }
    apply dget_Some_key in Hax as [q Hq]. apply dget_In in Hq. destruct (SZ _ _ Hq) as [C _].
    destruct (C n H1), (C m H2); congruence.
Qed.

Lemma resized_keys sh ax n : dkeys (resized sh ax n) = dkeys sh.
Proof. unfold dkeys, resized. rewrite map_map. reflexivity. Qed.

Lemma in_resized sh ax n ax' m : In (ax', m) (resized sh ax n) <->
  exists k, In (ax', k) sh /\ m = if String.eqb ax' ax then n else k.
Proof.
  unfold resized. rewrite in_map_iff. split.
  - intros [[k v] [E H]]. cbn [fst snd] in E. injection E as <- <-. eauto.
  - intros [k [H ->]]. exists (ax', k). auto.
Qed.

Lemma wf2 {A} (o p : operand A) : op_wf o -> op_wf p -> Forall op_wf [o; p].
Proof. intros H1 H2. constructor; [auto|constructor; [auto|constructor]]. Qed.

(** ** debroadcast *)

Lemma bat_dominated {A} (a b : sarr A) sh ax e :
  wf b -> sshape b = resized sh ax 1 -> NoDup (dkeys sh) -> inside e sh -> In ax (dkeys sh) ->
  bat b e = at_ b (set_env e ax 0).
Proof.
  intros W Sb N He Hin. unfold bat. apply at_ext. intros x Hx. unfold bclamp, set_env.
  rewrite <- (wf_keys b W), Sb, resized_keys in Hx.
  apply dget_Some_key in Hx as [k Hk]. assert (Hb : dget (sshape b) x = Some (if String.eqb x ax then 1 else k)).
  { apply dget_NoDup; [now apply wf_nodup|]. rewrite Sb. apply in_resized. exists k. split; auto. now apply dget_In. }
  rewrite Hb. destruct (String.eqb x ax) eqn:E; auto.
  assert (L := He x k (dget_In _ _ _ Hk)). destruct k as [|[|k]]; auto. lia.
Qed.

Lemma set_zero_twice {A} (a : sarr A) e ax :
  at_ a (set_env (set_env e ax 0) ax (0 + set_env e ax 0 ax)) = at_ a (set_env e ax 0).
Proof. apply at_ext. intros x _. unfold set_env. rewrite String.eqb_refl. destruct (String.eqb x ax); auto. Qed.

Lemma constant_along_spec {A} (eqb : A -> A -> bool) (a : sarr A) ax n : wf a -> In (ax, n) (sshape a) ->
  exists c, constant_along eqb a ax n = Ok c /\
    (c = true <-> n <> 0 /\ forall e, inside e (sshape a) -> eqb (at_ a e) (at_ a (set_env e ax 0)) = true).
Proof.
  intros W Hn. assert (Hin : In ax (s_axes a)) by (apply (in_map fst) in Hn; rewrite <- (wf_keys a W); exact Hn).
  assert (Na := wf_nodup a W). assert (SZ := size_of_In _ _ _ Na Hn).
  unfold constant_along.
  destruct (getitem_slice a ax (mkSlice (Some 0%Z) (Some 1%Z) None) 0 (Nat.min 1 n) W Hin eq_refl) as (o & Eo & Wo & So & Go).
  { rewrite SZ. apply slice_first_one. }
  rewrite Eo. cbn [bind]. destruct (Nat.eqb_spec n 0) as [->|NZ].
  { exists false. split; auto. split; [discriminate|]. intros [H _]. contradiction. }
  replace (Nat.min 1 n) with 1 in So by lia.
  assert (SB : shape_broadcasted [OpArr a; OpArr o] = Ok (sshape a)).
  { unfold shape_broadcasted. cbn [op_shapes flat_map app]. apply bs_covered; auto. intros s [<-|[]]. split; [now apply wf_nodup|].
    intros ax' m Hm. rewrite So in Hm. apply in_resized in Hm as [k [Hk ->]]. split; [now apply (in_map fst) in Hk|].
    destruct (String.eqb ax' ax); auto. }
  destruct (array_ufunc_ok (bin eqb false) [OpArr a; OpArr o] _ (wf2 (OpArr a) (OpArr o) W Wo) SB) as (q & -> & Wq & Sq & Gq).
  cbn [bind].
  assert (R := reduce_spec true (forallb (fun b : bool => b)) q None false None Wq ltac:(discriminate)). cbn zeta in R.
  rewrite bs_dominated in R; [|now apply wf_nodup|intros s []]. rewrite (wf_keys q Wq) in R.
  destruct R as [R _]. destruct R as (al & Ea & Wal & Aal & _ & Gal).
  { split; [apply Wq|]. split; [apply incl_refl|]. split; [discriminate|auto]. }
  rewrite Ea. cbn [bind]. eexists. split; [reflexivity|].
  rewrite filter_self in Aal.
  assert (EN : nget (s_nd al) [] = at_ al (fun _ => 0)) by (unfold at_; now rewrite Aal). rewrite EN, Gal.
  rewrite (filter_all _ (s_axes q)) by (intros x Hx; now apply smem_In).
  rewrite (filter_all _ (fibre _ _ _)) by auto. rewrite forallb_forall. split.
  - intros H. split; auto. intros e He.
    assert (Q : nth_error (map (at_ q) (fibre (sshape q) (s_axes q) (fun _ => 0)))
                  (row_major (map (size_of (sshape q)) (s_axes q)) (map e (s_axes q))) = Some (at_ q e)).
    { apply fibre_nth; [apply Wq| |intros; contradiction]. intros x Hx. rewrite Sq.
      assert (Hk : In x (dkeys (sshape a))) by (rewrite <- Sq, (wf_keys q); auto). apply dget_Some_key in Hk as [k Hk].
      unfold size_of. rewrite Hk. apply (He x). now apply dget_In. }
    apply nth_error_In in Q. apply H in Q. rewrite Gq in Q. cbn [map bin op_at] in Q.
    rewrite (bat_inside a e W He) in Q. rewrite (bat_dominated a o (sshape a) ax e Wo So Na He) in Q by (now rewrite wf_keys).
    rewrite Go in Q.
    + now rewrite set_zero_twice in Q.
    + rewrite So. intros x m Hm. apply in_resized in Hm as [k [Hk ->]]. unfold set_env. destruct (String.eqb x ax); [auto|apply (He x); auto].
  - intros [_ H] b Hb. apply in_map_iff in Hb as [e [<- He]]. apply fibre_inside in He as [He _].
    assert (IE : inside e (sshape a)).
    { intros x m Hm. assert (Hx : In x (s_axes q)) by (rewrite <- (wf_keys q Wq), Sq; now apply (in_map fst) in Hm).
      apply He in Hx. rewrite Sq, (size_of_In _ _ _ Na Hm) in Hx. exact Hx. }
    rewrite Gq. cbn [map bin op_at]. rewrite (bat_inside a e W IE).
    rewrite (bat_dominated a o (sshape a) ax e Wo So Na IE) by (now rewrite wf_keys).
    rewrite Go.
    + rewrite set_zero_twice. now apply H.
    + rewrite So. intros x m Hm. apply in_resized in Hm as [k [Hk ->]]. unfold set_env. destruct (String.eqb x ax); [auto|apply (IE x); auto].
Qed.

Lemma dset_In {V} (d : dict V) k v k' v' : In (k', v') (dset d k v) -> (k' = k /\ v' = v) \/ In (k', v') d.
Proof.
  induction d as [|[x w] d IH]; cbn [dset].
  - intros [H|[]]. injection H as <- <-. auto.
  - destruct (String.eqb k x) eqn:E.
    + apply String.eqb_eq in E. subst. intros [H|H]; [injection H as <- <-; auto|right; right; auto].
    + intros [H|H]; [right; left; auto|]. destruct (IH H); auto. right. right. auto.
Qed.

Lemma dkeys_dset_In {V} (d : dict V) k v x : In x (dkeys (dset d k v)) <-> x = k \/ In x (dkeys d).
Proof.
  rewrite dkeys_dset. destruct (smem k (dkeys d)) eqn:E.
  - apply smem_In in E. split; auto. intros [->|H]; auto.
  - rewrite in_app_iff. cbn [In]. split; [intros [H|[H|[]]]; auto|intros [H|H]; auto].
Qed.

Lemma debroadcast_index_spec {A} (eqb : A -> A -> bool) (a : sarr A) axes : wf a -> forall index,
  NoDup (dkeys index) -> (forall k i, In (k, i) index -> i = ItInt 0 /\ In k (s_axes a)) ->
  exists d, debroadcast_index eqb a axes index = Ok d /\ NoDup (dkeys d) /\
    (forall k i, In (k, i) d -> i = ItInt 0 /\ In k (s_axes a)) /\
    forall ax, In ax (dkeys d) <-> In ax (dkeys index) \/
      (In ax axes /\ exists n, In (ax, n) (sshape a) /\ n <> 0 /\ constant eqb a ax).
Proof.
  intros W. induction axes as [|ax axes IH]; intros index N HI.
  - exists index. split; auto. split; auto. split; auto. intros ax. cbn [In]. tauto.
  - cbn [debroadcast_index]. destruct (dget (sshape a) ax) as [n|] eqn:E.
    + apply dget_In in E. destruct (constant_along_spec eqb a ax n W E) as (c & -> & Hc). cbn [bind].
      assert (Hax : In ax (s_axes a)) by (rewrite <- (wf_keys a W); now apply (in_map fst) in E).
      assert (UN : forall m, In (ax, m) (sshape a) -> m = n).
      { intros m Hm. apply (dget_NoDup _ _ _ (wf_nodup a W)) in Hm. apply (dget_NoDup _ _ _ (wf_nodup a W)) in E. congruence. }
      destruct (IH (if c : bool then dset index ax (ItInt 0) else index)) as (d & Ed & Nd & Id & Kd).
      * destruct c; auto. now apply NoDup_dset.
      * destruct c; auto. intros k i Hk. apply dset_In in Hk as [[-> ->]|Hk]; auto.
      * exists d. split; auto. split; auto. split; auto. intros x. rewrite Kd. clear Kd. destruct c.
        -- rewrite dkeys_dset_In. destruct Hc as [Hc _]. specialize (Hc eq_refl). cbn [In]. split.
           ++ intros [[->|H]|[H1 H2]]; auto. right. split; auto. exists n. split; auto.
           ++ intros [H|[[->|H1] H2]]; auto.
        -- cbn [In]. split.
           ++ intros [H|[H1 H2]]; auto.
           ++ intros [H|[[->|H1] H2]]; auto. destruct H2 as (m & Hm & H3). apply UN in Hm. subst m.
              apply Hc in H3. discriminate.
    + destruct (IH index N HI) as (d & Ed & Nd & Id & Kd). exists d. split; auto. split; auto. split; auto.
      intros x. rewrite Kd. cbn [In]. split.
      * intros [H|[H1 H2]]; auto.
      * intros [H|[[->|H1] H2]]; auto. destruct H2 as (m & Hm & _). apply (dget_NoDup _ _ _ (wf_nodup a W)) in Hm. congruence.
Qed.

Theorem debroadcast_spec {A} (eqb : A -> A -> bool) (a : sarr A) (axes : option (list string)) : wf a ->
  exists r removed, na_debroadcast eqb a axes = Ok r /\ wf r /\
    sshape r = filter (fun kv => negb (smem (fst kv) removed)) (sshape a) /\
    (forall ax, In ax removed <->
       In ax (match axes with Some l => l | None => s_axes a end) /\
       exists n, In (ax, n) (sshape a) /\ n <> 0 /\ constant eqb a ax) /\
    forall e, inside e (sshape r) -> at_ r e = at_ a (fun ax => if smem ax removed then 0 else e ax).
Proof.
  intros W. unfold na_debroadcast. rewrite (wf_keys a W).
  set (l := match axes with Some l => l | None => s_axes a end).
  destruct (debroadcast_index_spec eqb a l W [] (NoDup_nil _) ltac:(intros k i [])) as (d & -> & Nd & Id & Kd). cbn [bind].
  assert (KD : forall ax, In ax (dkeys d) <-> In ax l /\ exists n, In (ax, n) (sshape a) /\ n <> 0 /\ constant eqb a ax).
  { intros ax. rewrite Kd. cbn. tauto. }
  clear Kd. destruct d as [|kv0 d0] eqn:ED.
  { exists a, []. split; [now apply getitem_irrelevant|]. split; auto. split; [|split; [exact KD|reflexivity]].
    symmetry. apply filter_all. reflexivity. }
  assert (NE0 : d <> []) by (rewrite ED; discriminate).
  rewrite <- ED in *. clear ED.
  assert (HZ : forall ax, In ax (dkeys d) -> dget d ax = Some (ItInt 0)).
  { intros ax Hax. apply dget_Some_key in Hax as [i Hi]. assert (H := dget_In _ _ _ Hi). apply Id in H as [-> _]. exact Hi. }
  assert (IN : forall ax, In ax (dkeys d) -> In ax (s_axes a)).
  { intros ax Hax. apply dget_Some_key in Hax as [i Hi]. apply dget_In in Hi. now apply Id in Hi. }
  assert (IW : Forall (fun kv : string * item => item_wf (snd kv)) d).
  { apply Forall_forall. intros [k i] Hk. apply Id in Hk as [-> _]. exact I. }
  assert (F1 : filter (fun kv : string * item => smem (fst kv) (s_axes a)) d = d).
  { apply filter_all. intros [k i] Hk. apply smem_In. apply IN. now apply (in_map fst) in Hk. }
  assert (F2 : filter (fun kv : string * item => get_advanced (snd kv)) d = d).
  { apply filter_all. intros [k i] Hk. apply Id in Hk as [-> _]. reflexivity. }
  assert (SB : shape_broadcasted (map (fun kv : string * item => opnd (snd kv)) d) = Ok []).
  { unfold shape_broadcasted. replace (op_shapes (map (fun kv : string * item => opnd (snd kv)) d)) with (@nil shape); [reflexivity|].
    clear - Id. induction d as [|[k i] d IH]; auto. cbn [map op_shapes flat_map snd].
    destruct (Id k i (or_introl eq_refl)) as [-> _]. cbn [opnd app]. apply IH. intros; apply Id; right; auto. }
  assert (OK : forall ax, In ax (s_axes a) -> item_ok (asize a ax) (dget d ax)).
  { intros ax Hax. destruct (in_dec string_dec ax (dkeys d)) as [H|H].
    - rewrite (HZ ax H). cbn [item_ok]. apply KD in H as [_ (n & Hn & Hz & _)]. apply in_sshape in Hn as [_ <-]; auto.
      unfold in_range. lia.
    - rewrite (proj2 (dget_None _ _) H). exact I. }
  assert (NE : filter (fun kv : string * item => smem (fst kv) (s_axes a)) d <> []) by (rewrite F1; intros E; rewrite E in *; apply NE0; auto).
  assert (GI := getitem_intro a d W Nd IW [] NE). rewrite F1, F2 in GI. destruct (GI SB OK) as [r Hr]; [intros ? []|].
  assert (GO := getitem_ok a d W Nd IW r NE Hr). rewrite F1, F2 in GO. destruct GO as (sa & SB' & _ & Wr & Sr & El).
  assert (sa = []) by congruence. subst sa. exists r, (dkeys d). split; auto. split; auto. split; [|split; [exact KD|]].
  - rewrite Sr. cbn [app]. rewrite (sshape_map a W). unfold others. clear - HZ. induction (s_axes a) as [|x m IH]; auto.
    cbn [filter map fst]. destruct (smem x (dkeys d)) eqn:E; cbn [negb map]; auto. rewrite IH. f_equal. f_equal.
    apply smem_false in E. rewrite (proj2 (dget_None _ _) E). cbn [item_slice]. now rewrite positions_slice_all, seq_length.
  - intros e He. rewrite El. unfold at_. f_equal. apply map_ext_in. intros ax Hax. destruct (smem ax (dkeys d)) eqn:E.
    + apply smem_In in E. rewrite (HZ ax E). cbn [item_pos]. assert (H := OK ax Hax). rewrite (HZ ax E) in H. cbn [item_ok] in H.
      unfold in_range in H. unfold znorm. cbn. reflexivity.
    + apply smem_false in E. rewrite (proj2 (dget_None _ _) E). cbn [item_pos item_slice]. rewrite positions_slice_all, seq_nth; auto.
      apply (He ax). rewrite Sr. cbn [app]. apply in_map_iff. exists ax. split.
      * rewrite (proj2 (dget_None _ _) E). cbn [item_slice]. now rewrite positions_slice_all, seq_length.
      * unfold others. apply filter_In. split; auto. now rewrite (proj2 (smem_false _ _) E).
Qed.

(** setting several constant axes to zero changes nothing *)
Lemma constant_zero {A} (eqb : A -> A -> bool) (a : sarr A) removed :
  (forall x y, eqb x y = true -> x = y) ->
  (forall ax, In ax removed -> constant eqb a ax) ->
  forall e, inside e (sshape a) -> at_ a (fun ax => if smem ax removed then 0 else e ax) = at_ a e.
Proof.
  intros EX. induction removed as [|x l IH]; intros C e He; [reflexivity|].
  rewrite (EX _ _ (C x (or_introl eq_refl) e He)).
  assert (He' : inside (set_env e x 0) (sshape a)).
  { intros ax n Hn. specialize (He ax n Hn). unfold set_env. destruct (String.eqb ax x); auto. lia. }
  rewrite <- (IH (fun ax H => C ax (or_intror H)) _ He'). unfold at_. f_equal. apply map_ext. intros ax.
  unfold set_env. cbn [smem existsb]. unfold smem. cbn [existsb]. destruct (String.eqb ax x); cbn [orb]; auto.
  now destruct (existsb (String.eqb ax) l).
Qed.

Lemma debroadcast_roundtrip {A} (eqb : A -> A -> bool) (a r : sarr A) (axes : option (list string)) :
  wf a -> (forall x y, eqb x y = true -> x = y) -> na_debroadcast eqb a axes = Ok r ->
  exists b, na_broadcast_to r (sshape a) false = Ok b /\ wf b /\ sshape b = sshape a /\
    forall e, inside e (sshape a) -> at_ b e = at_ a e.
Proof.
  intros W EX Hr. destruct (debroadcast_spec eqb a axes W) as (r' & rm & Hr' & Wr & Sr & Rm & El).
  assert (r' = r) by congruence. subst r'. clear Hr'.
  assert (SUB : forall ax n, In (ax, n) (sshape r) -> In (ax, n) (sshape a)).
  { intros ax n H. rewrite Sr in H. now apply filter_In in H. }
  destruct (na_broadcast_to_intro r (sshape a) Wr (wf_nodup a W)) as [b Hb].
  - intros ax Hax. rewrite <- (wf_keys r Wr) in Hax. apply dget_Some_key in Hax as [n Hn]. apply dget_In in Hn.
    apply SUB in Hn. now apply (in_map fst) in Hn.
  - intros ax n H. right. apply SUB. now apply dget_In.
  - destruct (na_broadcast_to_ok r (sshape a) b Wr (wf_nodup a W) Hb) as (_ & _ & Wb & Sb & Eb).
    exists b. split; auto. split; auto. split; auto. intros e He. rewrite Eb.
    assert (Hr' : inside e (sshape r)) by (intros ax n H; apply (He ax); auto).
    rewrite (bat_inside r e Wr Hr'), (El e Hr'). apply (constant_zero eqb); auto.
    intros ax Hax. apply Rm in Hax as [_ (n & _ & _ & C)]. exact C.
Qed.

Lemma debroadcast_smallest {A} (eqb : A -> A -> bool) (a r c b : sarr A) :
  wf a -> wf c -> exact_eq eqb -> na_debroadcast eqb a None = Ok r ->
  na_broadcast_to c (sshape a) false = Ok b -> (forall e, inside e (sshape a) -> at_ b e = at_ a e) ->
  forall ax n, In (ax, n) (sshape r) -> n <> 0 -> In (ax, n) (sshape c).
Proof.
  intros W Wc EX Hr Hb EQ ax n Hin Hn.
  destruct (debroadcast_spec eqb a None W) as (r' & rm & Hr' & Wr & Sr & Rm & El).
  assert (r' = r) by congruence. subst r'. clear Hr'.
  destruct (na_broadcast_to_ok c (sshape a) b Wc (wf_nodup a W) Hb) as (_ & D & Wb & Sb & Eb).
  rewrite Sr in Hin. apply filter_In in Hin as [Hin NR]. cbn [fst] in NR. apply negb_true_iff, smem_false in NR.
  assert (NC : ~ constant eqb a ax).
  { intros C. apply NR. apply Rm. split; [|eauto]. rewrite <- (wf_keys a W). now apply (in_map fst) in Hin. }
  assert (HC : (dget (sshape c) ax = None \/ dget (sshape c) ax = Some 1) -> constant eqb a ax).
  { intros H e He. apply EX.
    assert (He' : inside (set_env e ax 0) (sshape a)).
    { intros x m Hm. specialize (He x m Hm). unfold set_env. destruct (String.eqb x ax); auto. lia. }
    rewrite <- (EQ e He), <- (EQ _ He'), !Eb. unfold bat. apply at_ext. intros x Hx. unfold bclamp, set_env.
    destruct (String.eqb x ax) eqn:E; auto. apply String.eqb_eq in E. subst x. destruct H as [H|H].
    - apply dget_None in H. rewrite (wf_keys c Wc) in H. contradiction.
    - now rewrite H. }
  destruct (dget (sshape c) ax) as [m|] eqn:E; [|exfalso; auto].
  destruct (D ax m E) as [->|H]; [exfalso; auto|].
  assert (m = n).
  { apply (dget_NoDup _ _ _ (wf_nodup a W)) in H. apply (dget_NoDup _ _ _ (wf_nodup a W)) in Hin. congruence. }
  subst. now apply dget_In.
Qed.

Lemma debroadcast_recovers {A} (eqb : A -> A -> bool) (a b : sarr A) (sh : shape) :
  wf a -> NoDup (dkeys sh) -> exact_eq eqb ->
  (forall ax n, In (ax, n) sh -> n <> 0) ->
  (forall ax, In ax (s_axes a) -> ~ constant eqb a ax) ->
  na_broadcast_to a sh false = Ok b ->
  exists r, na_debroadcast eqb b None = Ok r /\ wf r /\ same_array r a.
Proof.
  intros W ND EX NZ NC Hb. destruct (na_broadcast_to_ok a sh b W ND Hb) as (IC & D & Wb & Sb & Eb).
  destruct (debroadcast_spec eqb b None Wb) as (r & rm & Hr & Wr & Sr & Rm & El). exists r. split; auto. split; auto.
  assert (BIG : forall ax n, In (ax, n) (sshape a) -> In (ax, n) sh).
  { intros ax n H. assert (H' := H). apply (dget_NoDup _ _ _ (wf_nodup a W)) in H'. destruct (D ax n H') as [->|]; auto. exfalso.
    assert (Hax : In ax (s_axes a)) by (rewrite <- (wf_keys a W); now apply (in_map fst) in H).
    apply (NC ax Hax). intros e He. apply EX. apply at_ext. intros x Hx. unfold set_env. destruct (String.eqb x ax) eqn:E; auto.
    apply String.eqb_eq in E. subst x. specialize (He ax 1 H). lia. }
  assert (INS : forall e, inside e sh -> inside e (sshape a)) by (intros e He ax n H; apply (He ax); auto).
  assert (EB : forall e, inside e sh -> at_ b e = at_ a e).
  { intros e He. rewrite Eb. apply bat_inside; auto. }
  assert (RM : forall ax, In ax (dkeys sh) -> (In ax rm <-> ~ In ax (s_axes a))).
  { intros ax Hax. rewrite Rm. split.
    - intros [_ (n & Hn & Hz & C)] Ha. apply (NC ax Ha). intros e He.
      set (e' := fun x => if smem x (s_axes a) then e x else 0).
      assert (He' : inside e' (sshape b)).
      { rewrite Sb. intros x m Hm. unfold e'. destruct (smem x (s_axes a)) eqn:E.
        - apply smem_In in E. rewrite <- (wf_keys a W) in E. apply dget_Some_key in E as [k Hk]. apply dget_In in Hk.
          assert (Hk' := BIG _ _ Hk). apply (dget_NoDup _ _ _ ND) in Hk', Hm. assert (k = m) by congruence. subst k. apply (He x); auto.
        - assert (m <> 0) by (eapply NZ; eauto). lia. }
      specialize (C e' He'). assert (He2 : inside (set_env e' ax 0) sh).
      { rewrite Sb in He'. intros x m Hm. specialize (He' x m Hm). unfold set_env. destruct (String.eqb x ax); auto. lia. }
      rewrite (EB e'), (EB _ He2) in C by (rewrite <- Sb; auto).
      rewrite (at_ext a e' e), (at_ext a (set_env e' ax 0) (set_env e ax 0)) in C; auto.
      + intros x Hx. unfold set_env, e'. apply smem_In in Hx. rewrite Hx. auto.
      + intros x Hx. unfold e'. apply smem_In in Hx. now rewrite Hx.
    - intros Ha. split; [now rewrite <- (wf_keys b Wb), Sb|]. apply dget_Some_key in Hax as [n Hn]. apply dget_In in Hn. exists n.
      split; [now rewrite Sb|]. split; [eauto|]. intros e He. apply EX. rewrite !Eb. unfold bat. apply at_ext.
      intros x Hx. unfold bclamp, set_env. destruct (String.eqb x ax) eqn:E; auto. apply String.eqb_eq in E. subst. contradiction. }
  assert (SR : forall ax n, In (ax, n) (sshape r) <-> In (ax, n) (sshape a)).
  { intros ax n. rewrite Sr, Sb, filter_In. cbn [fst]. split.
    - intros [H1 H2]. apply negb_true_iff, smem_false in H2.
      assert (Hk : In ax (dkeys sh)) by now apply (in_map fst) in H1.
      destruct (in_dec string_dec ax (s_axes a)) as [Ha|Ha]; [|exfalso; apply H2; now apply RM].
      rewrite <- (wf_keys a W) in Ha. apply dget_Some_key in Ha as [m Hm]. apply dget_In in Hm.
      assert (Hm' := BIG _ _ Hm). apply (dget_NoDup _ _ _ ND) in Hm', H1. assert (m = n) by congruence. now subst.
    - intros H. split; auto. apply negb_true_iff, smem_false. intros C.
      assert (Ha : In ax (s_axes a)) by (rewrite <- (wf_keys a W); now apply (in_map fst) in H).
      apply RM in C; auto. }
  split; [exact SR|]. intros e He. rewrite (El e He).
  set (z := fun ax => if smem ax rm then 0 else e ax).
  assert (Hz : inside z sh).
  { intros ax n H. unfold z. destruct (smem ax rm) eqn:E; [assert (n <> 0) by (eapply NZ; eauto); lia|].
    apply smem_false in E. apply (He ax). rewrite Sr, Sb. apply filter_In. split; auto. cbn [fst]. now rewrite (proj2 (smem_false _ _) E). }
  rewrite (EB z Hz). apply at_ext. intros ax Hax. unfold z. destruct (smem ax rm) eqn:E; auto. apply smem_In in E.
  apply RM in E; auto. contradiction.
Qed.

(** ** mean_trimmed *)

Lemma trim_floor q n : (0 <= q)%Q -> trim q n = Qfloor (q * inject_Z (Z.of_nat n)).
Proof.
  intros H. unfold trim, Qfloor, Qmult, inject_Z. cbn [Qnum Qden]. rewrite Pos.mul_1_r.
  unfold Qle in H. cbn in H. rewrite Z.quot_div_nonneg; auto; nia.
Qed.

Lemma trim_bound q n : (0 <= q)%Q -> (q < 1 # 2)%Q -> n <> 0 ->
  exists k, trim q n = Z.of_nat k /\ 2 * k < n.
Proof.
  intros H1 H2 Hn. unfold trim. unfold Qle, Qlt in *. cbn in *.
  rewrite Z.quot_div_nonneg by nia.
  set (d := Zpos (Qden q)) in *. assert (0 < d)%Z by lia.
  assert (H3 : (0 <= (Qnum q * Z.of_nat n) / d)%Z) by (apply Z.div_pos; nia).
  assert (H4 := Z.mul_div_le (Qnum q * Z.of_nat n) d H).
  exists (Z.to_nat ((Qnum q * Z.of_nat n) / d)). rewrite Z2Nat.id by auto. split; auto.
  set (x := ((Qnum q * Z.of_nat n) / d)%Z) in *. assert (2 * x < Z.of_nat n)%Z by nia. lia.
Qed.

Lemma sorted_app {A} (le : A -> A -> Prop) l m : StronglySorted le l -> StronglySorted le m ->
  (forall x y, In x l -> In y m -> le x y) -> StronglySorted le (l ++ m).
Proof.
  induction 1 as [|x l H IH F]; intros Hm HX; auto. cbn [app]. constructor.
  - apply IH; auto. intros; apply HX; auto. now right.
  - apply Forall_app. split; auto. apply Forall_forall. intros y Hy. apply HX; auto. now left.
Qed.

(** a list partitioned at the two ends of its middle has the middle of the sorted list there *)
Lemma partitioned_middle {A} (le : A -> A -> Prop) sort1 (L P : list A) n k :
  (forall x y z, le x y -> le y z -> le x z) -> (forall x y, le x y -> le y x -> x = y) -> sorts le sort1 ->
  Permutation L P -> length L = n -> 2 * k < n ->
  (forall j i y z, j = k \/ j = n - k - 1 -> nth_error P i = Some y -> nth_error P j = Some z ->
     (i < j -> le y z) /\ (j < i -> le z y)) ->
  Permutation (firstn (n - 2 * k) (skipn k P)) (firstn (n - 2 * k) (skipn k (sort1 L))).
Proof.
  intros TR AS SO PE LE Hk HP.
  assert (LP : length P = n) by (rewrite <- LE; symmetry; now apply Permutation_length).
  set (a := firstn k P). set (b := firstn (n - 2 * k) (skipn k P)). set (c := skipn (n - 2 * k) (skipn k P)).
  assert (EP : P = a ++ b ++ c) by (unfold a, b, c; now rewrite !firstn_skipn).
  assert (La : length a = k) by (unfold a; rewrite firstn_length; lia).
  assert (Lb : length b = n - 2 * k) by (unfold b; rewrite firstn_length, skipn_length; lia).
  assert (Lc : length c = k) by (unfold c; rewrite !skipn_length; lia).
  assert (POS : forall l m i (y : A), nth_error m i = Some y -> nth_error (l ++ m) (length l + i) = Some y).
  { intros l m i y H. rewrite nth_error_app2 by lia. now replace (length l + i - length l) with i by lia. }
  assert (Ia : forall x, In x a -> exists i, i < k /\ nth_error P i = Some x).
  { intros x H. apply In_nth_error in H as [i Hi]. exists i. assert (i < length a) by (apply nth_error_Some; congruence).
    split; [lia|]. rewrite EP, nth_error_app1 by lia. exact Hi. }
  assert (Ib : forall x, In x b -> exists i, k <= i < n - k /\ nth_error P i = Some x).
  { intros x H. apply In_nth_error in H as [i Hi]. exists (k + i). assert (i < length b) by (apply nth_error_Some; congruence).
    split; [lia|]. rewrite EP, <- La. apply POS. rewrite nth_error_app1 by lia. exact Hi. }
  assert (Ic : forall x, In x c -> exists i, n - k <= i /\ nth_error P i = Some x).
  { intros x H. apply In_nth_error in H as [i Hi]. exists (n - k + i). split; [lia|]. rewrite EP, app_assoc.
    replace (n - k) with (length (a ++ b)) by (rewrite app_length; lia). apply POS. exact Hi. }
  destruct (nth_error P k) as [pk|] eqn:Ek; [|apply nth_error_None in Ek; lia].
  destruct (nth_error P (n - k - 1)) as [pm|] eqn:Em; [|apply nth_error_None in Em; lia].
  assert (Xab : forall x y, In x a -> In y b -> le x y).
  { intros x y Hx Hy. apply Ia in Hx as (i & Hi & Ei). apply Ib in Hy as (j & Hj & Ej).
    assert (le x pk) by (apply (HP k i x pk); auto).
    destruct (Nat.eq_dec j k) as [->|N]; [congruence|]. apply (TR x pk y); auto. apply (HP k j y pk); auto. lia. }
  assert (Xbc : forall x y, In x b -> In y c -> le x y).
  { intros x y Hx Hy. apply Ib in Hx as (i & Hi & Ei). apply Ic in Hy as (j & Hj & Ej).
    assert (le pm y) by (apply (HP (n - k - 1) j y pm); auto; lia).
    destruct (Nat.eq_dec i (n - k - 1)) as [->|N]; [congruence|]. apply (TR x pm y); auto. apply (HP (n - k - 1) i x pm); auto. lia. }
  assert (Xac : forall x y, In x a -> In y c -> le x y).
  { intros x y Hx Hy. destruct b as [|z b'] eqn:Eb; [cbn in Lb; lia|]. apply (TR x z y); [apply Xab|apply Xbc]; auto; now left. }
  assert (PI : forall l x, In x (sort1 l) -> In x l).
  { intros l x H. eapply Permutation_in; [|exact H]. symmetry. apply SO. }
  assert (ES : sort1 L = sort1 a ++ sort1 b ++ sort1 c).
  { apply (sorted_unique le); auto.
    - apply SO.
    - apply sorted_app; [apply SO|apply sorted_app; try apply SO|].
      + intros x y Hx Hy. apply Xbc; auto.
      + intros x y Hx Hy. apply in_app_iff in Hy as [Hy|Hy]; auto.
    - transitivity L; [symmetry; apply SO|]. rewrite PE, EP. repeat apply Permutation_app; apply SO. }
  rewrite ES. assert (SL := sorts_length le sort1 SO).
  rewrite skipn_app, SL, La, Nat.sub_diag. cbn [skipn]. rewrite (skipn_all2 (sort1 a)) by (rewrite SL; lia). cbn [app].
  rewrite firstn_app, SL, Lb, Nat.sub_diag. cbn [firstn]. rewrite app_nil_r, firstn_all2 by (rewrite SL; lia). apply SO.
Qed.

Lemma slice_middle N k : 2 * k <= N ->
  positions (mkSlice (Some (Z.of_nat k)) (Some (Z.of_nat N - Z.of_nat k)%Z) None) N = seq k (N - 2 * k).
Proof.
  intros H. rewrite (positions_first_end _ N k (N - k)); try reflexivity; try lia.
  - f_equal. lia.
  - unfold slice_first, slice_step. cbn [sl_start sl_step]. replace (0 <? 1)%Z with true by reflexivity.
    destruct (Z.ltb_spec (Z.of_nat k) 0); lia.
  - unfold slice_end, slice_step. cbn [sl_stop sl_step]. replace (0 <? 1)%Z with true by reflexivity.
    destruct (Z.ltb_spec (Z.of_nat N - Z.of_nat k) 0); lia.
Qed.

Lemma seq_shift_by k m : map (fun i => k + i) (seq 0 m) = seq k m.
Proof.
  revert k. induction m as [|m IH]; intros k; auto. cbn [seq map]. rewrite Nat.add_0_r. f_equal.
  rewrite <- seq_shift, map_map, <- (IH (S k)). apply map_ext. intros; lia.
Qed.

Lemma middle_seq {B} (f : nat -> B) n k m : k + m <= n ->
  firstn m (skipn k (map f (seq 0 n))) = map f (seq k m).
Proof.
  intros H. replace n with (k + (m + (n - k - m))) by lia. rewrite !seq_app, !map_app. cbn [plus].
  rewrite skipn_app, skipn_all2 by (rewrite map_length, seq_length; lia).
  rewrite map_length, seq_length, Nat.sub_diag. cbn [skipn app].
  rewrite firstn_app, map_length, seq_length, Nat.sub_diag, firstn_all2 by (rewrite map_length, seq_length; lia).
  cbn [firstn]. apply app_nil_r.
Qed.

Theorem mean_trimmed_spec {A} (le : A -> A -> Prop) sort1 part1 mean (a : sarr A) (q : Q) (l : list string) (keepdims : bool) :
  wf a -> (forall x y z, le x y -> le y z -> le x z) -> (forall x y, le x y -> le y x -> x = y) -> sorts le sort1 ->
  (forall kth x, Permutation x (part1 kth x) /\
     forall j i y z, In (Z.of_nat j) kth -> nth_error (part1 kth x) i = Some y -> nth_error (part1 kth x) j = Some z ->
       (i < j -> le y z) /\ (j < i -> le z y)) ->
  symmetric mean -> (0 <= q)%Q -> (q < 1 # 2)%Q ->
  let n := total_size (sshape a) l in
  let k := Z.to_nat (Qfloor (q * inject_Z (Z.of_nat n))) in
  sortable a l -> n <> 0 ->
  exists r, na_mean_trimmed part1 mean a q (Some l) keepdims = Ok r /\ wf r /\
    s_axes r = filter (fun ax => negb (smem ax l)) (s_axes a) ++ (if keepdims then [flat_name l] else []) /\
    (forall ax m, In (ax, m) (sshape r) <->
       (In (ax, m) (sshape a) /\ ~ In ax l) \/ (keepdims = true /\ ax = flat_name l /\ m = 1)) /\
    forall e, inside_but e (sshape a) l ->
      at_ r e = mean (firstn (n - 2 * k) (skipn k (sort1 (map (at_ a) (fibre (sshape a) l e))))).
Proof.
  intros W TR AS SO HP SY Q0 Q1 n k SOR NZ.
  destruct (trim_bound q n Q0 Q1 NZ) as (k' & Ek & Hk).
  assert (k' = k) by (unfold k; rewrite <- trim_floor, Ek by auto; lia). subst k'. clearbody k.
  assert (NA : length (s_axes a) =? 0 = false).
  { apply Nat.eqb_neq. destruct SOR as (NE & _ & I & _). intros H. apply length_zero_iff_nil in H. rewrite H in I.
    destruct l as [|x l]; auto. apply (I x). now left. }
  destruct (proj1 (combined a l (fun c => Ok c) W) SOR) as (c & Ec & _).
  destruct (combine_axes_spec a l (flat_name l) c W Ec) as (Wc & Ac & Sc & _).
  set (F := flat_name l) in *.
  assert (Fin : In F (s_axes c)) by (rewrite Ac; apply in_app_iff; right; now left).
  assert (NF : ~ In F (filter (fun ax => negb (smem ax l)) (s_axes a))).
  { destruct Wc as [ND _]. rewrite Ac in ND. apply NoDup_remove_2 in ND. now rewrite app_nil_r in ND. }
  assert (SZ : In (F, n) (sshape c)) by (apply Sc; auto).
  assert (SZ' : dget (sshape c) F = Some n) by (apply dget_NoDup; auto; now apply wf_nodup).
  assert (SO' : size_of (sshape c) F = n) by (unfold size_of; now rewrite SZ').
  unfold na_mean_trimmed. rewrite NA. cbn [axis_normalized].
  replace (flatten_axes l) with (Ok F) by (destruct l; [destruct SOR as [H _]; congruence|reflexivity]). cbn [bind].
  rewrite Ec. cbn [bind]. rewrite SZ'. cbn [bind]. rewrite Ek.
  replace (Z.of_nat n - Z.of_nat k <? Z.of_nat k)%Z with false by (symmetry; apply Z.ltb_ge; lia).
  set (kth := [Z.of_nat k; Z.of_nat n - Z.of_nat k - 1]%Z).
  destruct (proj1 (partition_spec (part1 kth) kth c F Wc (fun x => eq_sym (Permutation_length (proj1 (HP kth x))))))
    as (p & Ep & Wp & Sp & Lp).
  { split; auto. rewrite SO'. unfold kth. repeat constructor; unfold in_range; lia. }
  rewrite Ep. cbn [bind].
  assert (Ap : s_axes p = s_axes c) by (rewrite <- (wf_keys p Wp), <- (wf_keys c Wc); now rewrite Sp).
  set (sl := mkSlice (Some (Z.of_nat k)) (Some (Z.of_nat n - Z.of_nat k)%Z) None).
  destruct (getitem_slice p F sl k (n - 2 * k) Wp) as (s & Es & Ws & Ss & Gs); auto.
  { now rewrite Ap. }
  { rewrite Sp, SO'. apply slice_middle. lia. }
  rewrite Es. cbn [bind].
  assert (As : s_axes s = s_axes c) by (rewrite <- (wf_keys s Ws), <- (wf_keys c Wc), Ss, resized_keys; now rewrite Sp).
  assert (R := reduce_spec true mean s (Some [F]) keepdims None Ws ltac:(discriminate)). cbn zeta in R.
  rewrite bs_dominated in R; [|now apply wf_nodup|intros ? []].
  rewrite (wf_keys s Ws) in R. destruct R as [R _]. destruct R as (r & Er & Wr & Ar & Sr & Gr).
  { split; [repeat constructor; simpl; tauto|]. split; [intros x [<-|[]]; now rewrite As|]. split; [discriminate|auto]. }
  exists r. split; auto. split; auto.
  assert (SELF : smem F [F] = true) by (apply smem_In; now left).
  assert (FL : filter (fun ax => negb (smem ax [F])) (s_axes c) = filter (fun ax => negb (smem ax l)) (s_axes a)).
  { rewrite Ac, filter_app. cbn [filter]. rewrite SELF. cbn [negb].
    rewrite app_nil_r. apply filter_all. intros x Hx. apply negb_true_iff, smem_false. intros [->|[]]. contradiction. }
  assert (SHS : forall ax m, ax <> F -> (In (ax, m) (sshape s) <-> In (ax, m) (sshape a) /\ ~ In ax l)).
  { intros ax m Hax. rewrite Ss, Sp. rewrite in_resized. split.
    - intros (v & H & ->). apply String.eqb_neq in Hax as Hax'. rewrite Hax'. apply Sc in H as [H|[H _]]; [exact H|contradiction].
    - intros H. exists m. apply String.eqb_neq in Hax as Hax'. rewrite Hax'. split; auto. apply Sc; auto. }
  split; [|split].
  - rewrite Ar, As. destruct keepdims; [exact Ac|]. now rewrite FL, app_nil_r.
  - intros ax m. rewrite Sr, Ar, As. destruct (string_dec ax F) as [->|Hax].
    + destruct keepdims.
      * rewrite SELF. split; [intros [_ H]; auto|].
        intros [[H1 H2]|(_ & _ & H)]; auto. exfalso. apply NF. apply filter_In. split; [|apply negb_true_iff, smem_false; auto].
        rewrite <- (wf_keys a W). now apply (in_map fst) in H1.
      * rewrite FL. split; [intros [H _]; contradiction|]. intros [[H1 H2]|(H & _)]; [|discriminate].
        exfalso. apply NF. apply filter_In. split; [|apply negb_true_iff, smem_false; auto].
        rewrite <- (wf_keys a W). now apply (in_map fst) in H1.
    + assert (SM : smem ax [F] = false) by (apply smem_false; intros [H|[]]; congruence). rewrite SM.
      assert (EQ : In ax (if keepdims then s_axes c else filter (fun x => negb (smem x [F])) (s_axes c)) <-> In ax (s_axes s)).
      { rewrite As. destruct keepdims; [tauto|]. rewrite filter_In, SM. cbn [negb]. tauto. }
      rewrite EQ. split.
      * intros [H ->]. left. apply SHS; auto. apply in_sshape; auto.
      * intros [H|(_ & H & _)]; [|contradiction]. apply SHS in H; auto. apply in_sshape in H as [H1 H2]; auto.
  - intros e He. rewrite Gr. rewrite filter_all by auto.
    replace (filter (fun ax => smem ax [F]) (s_axes s)) with [F].
    2: { rewrite As, Ac, filter_app. cbn [filter]. rewrite SELF.
         replace (filter (fun ax => smem ax [F]) (filter (fun ax => negb (smem ax l)) (s_axes a))) with (@nil string); auto.
         symmetry. apply filter_none. intros x Hx. apply smem_false. intros [->|[]]. contradiction. }
    apply SY.
    assert (ZS : size_of (sshape s) F = n - 2 * k).
    { apply size_of_In; [now apply wf_nodup|]. rewrite Ss, Sp. apply in_resized. exists n. rewrite String.eqb_refl. auto. }
    assert (LC := combine_axes_line a l F c e W Ec He).
    assert (ES : map (at_ s) (fibre (sshape s) [F] e) = firstn (n - 2 * k) (skipn k (line p F e))).
    { cbn [fibre]. rewrite ZS. unfold line. rewrite Sp, SO'. rewrite middle_seq by lia.
      assert (FM : forall l0 : list nat, map (at_ s) (flat_map (fun i => [set_env e F i]) l0) = map (fun i => at_ s (set_env e F i)) l0).
      { induction l0 as [|i l0 IH]; auto. cbn [flat_map app map]. now rewrite IH. }
      rewrite FM. rewrite <- (seq_shift_by k). rewrite map_map. apply map_ext_in. intros i Hi. apply in_seq in Hi.
      rewrite Gs.
      - apply at_ext. intros x Hx. unfold set_env. rewrite String.eqb_refl. destruct (String.eqb x F); auto.
      - intros x m Hm. unfold set_env. destruct (String.eqb x F) eqn:E.
        + apply String.eqb_eq in E. subst x. rewrite <- (size_of_In _ _ _ (wf_nodup s Ws) Hm), ZS. lia.
        + apply String.eqb_neq in E. apply SHS in Hm as [Hm1 Hm2]; auto. }
    rewrite ES, Lp, LC. apply (partitioned_middle le); auto.
    + apply HP.
    + rewrite map_length, fibre_length. unfold n. symmetry. rewrite total_size_prod; [reflexivity|auto|apply SOR].
    + intros j i y z Hj. apply HP. unfold kth. destruct Hj as [->| ->]; [now left|]. right. left. lia.
Qed.

Lemma mean_trimmed_refused {A} part1 mean (a : sarr A) (q : Q) (l : list string) (keepdims : bool) :
  wf a -> s_axes a <> [] -> (0 <= q)%Q -> (forall kth x, length (part1 kth x) = length x) ->
  ~ (sortable a l /\ total_size (sshape a) l <> 0) ->
  na_mean_trimmed part1 mean a q (Some l) keepdims = Err ValueError.
Proof.
  intros W NA Q0 HL NS. unfold na_mean_trimmed.
  replace (length (s_axes a) =? 0) with false by (symmetry; apply Nat.eqb_neq; destruct (s_axes a); [congruence|discriminate]).
  cbn [axis_normalized]. destruct l as [|x0 l0]; [reflexivity|]. set (l := x0 :: l0) in *.
  replace (flatten_axes l) with (Ok (flat_name l)) by reflexivity. cbn [bind].
  destruct (combine_axes a (Some l) (Some (flat_name l))) as [c|er] eqn:Ec; cbn [bind].
  2: { now rewrite (combine_axes_err _ _ _ _ Ec). }
  assert (SR : sortable a l).
  { split; [discriminate|]. apply (combine_axes_success a l (flat_name l) W). eauto. }
  destruct (combine_axes_spec a l (flat_name l) c W Ec) as (Wc & Ac & Sc & _).
  assert (Z0 : total_size (sshape a) l = 0) by (destruct (Nat.eq_dec (total_size (sshape a) l) 0); auto; exfalso; auto).
  rewrite Z0 in Sc. assert (SZ : dget (sshape c) (flat_name l) = Some 0).
  { apply dget_NoDup; [now apply wf_nodup|]. apply Sc. auto. }
  rewrite SZ. cbn [bind]. replace (trim q 0) with 0%Z.
  2: { unfold trim. rewrite Z.mul_0_r. reflexivity. }
  cbn [Z.of_nat Z.sub Z.add Z.opp Z.ltb Z.compare Z.pos_sub].
  rewrite (proj2 (partition_spec _ _ c (flat_name l) Wc (HL _))); [reflexivity|].
  intros [_ H]. unfold size_of in H. rewrite SZ in H. inversion H as [|z zs H1 H2]. unfold in_range in H1. lia.
Qed.

Lemma mean_trimmed_none {A} part1 mean (a : sarr A) (q : Q) (keepdims : bool) :
  wf a ->
  (s_axes a = [] -> na_mean_trimmed part1 mean a q None keepdims = Ok a) /\
  (s_axes a <> [] -> na_mean_trimmed part1 mean a q None keepdims = na_mean_trimmed part1 mean a q (Some (s_axes a)) keepdims).
Proof.
  intros W. split.
  - intros H. unfold na_mean_trimmed. now rewrite H.
  - intros H. unfold na_mean_trimmed. cbn [axis_normalized]. now rewrite ?wf_keys by auto.
Qed.

Lemma mean_trimmed_order {A} (le : A -> A -> Prop) sort1 part1 mean (a b : sarr A) (q : Q) (l : list string) (keepdims : bool) :
  wf a -> wf b -> sshape a = sshape b ->
  (forall x y z, le x y -> le y z -> le x z) -> (forall x y, le x y -> le y x -> x = y) -> sorts le sort1 ->
  (forall kth x, Permutation x (part1 kth x) /\
     forall j i y z, In (Z.of_nat j) kth -> nth_error (part1 kth x) i = Some y -> nth_error (part1 kth x) j = Some z ->
       (i < j -> le y z) /\ (j < i -> le z y)) ->
  symmetric mean -> (0 <= q)%Q -> (q < 1 # 2)%Q ->
  sortable a l -> total_size (sshape a) l <> 0 ->
  (forall e, inside_but e (sshape a) l -> Permutation (map (at_ a) (fibre (sshape a) l e)) (map (at_ b) (fibre (sshape b) l e))) ->
  exists r s, na_mean_trimmed part1 mean a q (Some l) keepdims = Ok r /\ na_mean_trimmed part1 mean b q (Some l) keepdims = Ok s /\
    same_array r s.
Proof.
  intros W Wb SH TR AS SO HP SY Q0 Q1 SOR NZ PE.
  assert (AX : s_axes a = s_axes b) by (rewrite <- (wf_keys a W), <- (wf_keys b Wb); now rewrite SH).
  destruct (mean_trimmed_spec le sort1 part1 mean a q l keepdims W TR AS SO HP SY Q0 Q1 SOR NZ) as (r & Er & Wr & Ar & Sr & Gr).
  assert (SORb : sortable b l) by (unfold sortable in *; now rewrite <- AX, <- SH).
  assert (NZb : total_size (sshape b) l <> 0) by now rewrite <- SH.
  destruct (mean_trimmed_spec le sort1 part1 mean b q l keepdims Wb TR AS SO HP SY Q0 Q1 SORb NZb) as (s & Es & Ws & As & Ss & Gs).
  exists r, s. split; auto. split; auto. split.
  - intros ax m. rewrite Sr, Ss, SH. tauto.
  - intros e He. assert (He' : inside_but e (sshape a) l).
    { intros ax m H1 H2. apply (He ax). apply Sr. auto. }
    rewrite (Gr e He'), (Gs e) by (now rewrite <- SH). rewrite <- SH. do 3 f_equal.
    apply (sorted_unique le); try apply SO; auto. rewrite <- (proj1 (SO _)), <- (proj1 (SO _)), SH. rewrite <- SH at 1. auto.
Qed.
