(** Facts about sorting and index dictionaries. *)
From Coq Require Import String List Arith ZArith Bool Lia Permutation Sorted.
From Verif Require Import Base BaseFacts Numpy NumpyFacts Shapes Scalar Reorder Elementwise Reduce Along Sorting Spec
     ShapesFacts AlignFacts GetitemFacts SetitemFacts ReorderFacts ElementwiseFacts ReduceFacts AlongFacts.
Import ListNotations.
Open Scope nat_scope.
Open Scope list_scope.

(** ** Lines of combined axes *)

Lemma ndindex_seq sh : ndindex sh = map (unravel sh) (seq 0 (prod sh)).
Proof.
  apply nth_ext with (d := []) (d' := unravel sh 0).
  - now rewrite ndindex_length, map_length, seq_length.
  - intros k Hk. rewrite ndindex_length in Hk. rewrite nth_ndindex' by auto. rewrite map_nth, seq_nth; auto.
Qed.

Lemma combine_axes_err {A} (a : sarr A) l new e : combine_axes a (Some l) (Some new) = Err e -> e = ValueError.
Proof.
  intros H. unfold combine_axes in H. cbn [bind] in H.
  apply bind_err in H as [H|[x [_ H]]].
  { clear - H. revert H. generalize (s_axes a). induction l as [|y l IH]; intros ax H; simpl in H; [discriminate|].
    unfold pop_append in H at 1. destruct (smem y ax); cbn [bind] in H; [eapply IH; eauto|congruence]. }
  apply bind_err in H as [H|[y [_ H]]]; [now apply mapM_index_of_VE in H|].
  apply bind_err in H as [H|[z [_ H]]]; [now apply mapM_index_of_VE in H|].
  destruct (negb (nodupb l)); [congruence|]. destruct (_ =? 0); [congruence|]. now apply mk_sarr_err in H.
Qed.

Lemma combine_axes_line {A} (a : sarr A) l new c e :
  wf a -> combine_axes a (Some l) (Some new) = Ok c -> inside_but e (sshape a) l ->
  line c new e = map (at_ a) (fibre (sshape a) l e).
Proof.
  intros W H He.
  destruct (proj1 (combine_axes_success a l new W) (ex_intro _ c H)) as [N [I HH]].
  destruct (combine_axes_spec a l new c W H) as (Wc & Ac & Sc & _).
  assert (SZ : size_of (sshape c) new = prod (map (asize a) l)).
  { rewrite <- total_size_prod by auto. apply size_of_In; [now apply wf_nodup|]. apply Sc. auto. }
  destruct (combine_axes_unfold a l new W N I) as [moved [Sm [Gm E]]]. rewrite E in H. clear E.
  destruct (prod (map (asize a) (others (s_axes a) l)) =? 0) eqn:Z; [discriminate|].
  apply mk_sarr_ok in H as [-> _].
  rewrite (map_fibre (sshape a) l e (at_ a) (fun red => nget moved (map e (others (s_axes a) l) ++ red)) N).
  - change (map (size_of (sshape a)) l) with (map (asize a) l). rewrite ndindex_seq, map_map. unfold line. rewrite SZ.
    apply map_ext_in. intros j Hj. apply in_seq in Hj. unfold at_. cbn [s_nd s_axes]. rewrite map_app. cbn [map].
    unfold set_env at 2. rewrite String.eqb_refl.
    rewrite map_set_env_notin.
    2: { intros Hn. apply others_In in Hn as [H1 H2]. assert (H3 : In (new, asize a new) (sshape a)) by (apply in_sshape; auto).
         destruct (HH _ _ H3 H2). congruence. }
    apply reshape_last; [now rewrite Sm, map_app| |lia].
    unfold inb. apply Forall2_map_l, Forall2_map_r, Forall2_same. intros x Hx. apply others_In in Hx as [H1 H2].
    apply He; auto. apply in_sshape; auto.
  - intros e' red Lr Hr. unfold at_. rewrite <- Gm. f_equal. rewrite map_app. f_equal.
    + apply map_ext_in. intros x Hx. apply others_In in Hx as [_ Hx]. rewrite Hr. apply smem_false in Hx. now rewrite Hx.
    + transitivity (map (fun x => nth (spos x l) red 0) l).
      * apply map_ext_in. intros x Hx. rewrite Hr. apply smem_In in Hx. now rewrite Hx.
      * exact (map_env_of l red N Lr).
Qed.

(** ** Functions that replace the lines *)

Lemma lines_named {A} (h : list A -> list A) (a : sarr A) ax :
  wf a -> In ax (s_axes a) -> (forall l, length (h l) = length l) ->
  let r := mkS (np_lines h (s_nd a) (spos ax (s_axes a))) (s_axes a) in
  wf r /\ sshape r = sshape a /\ forall e, line r ax e = h (line a ax e).
Proof.
  intros W Hin Hl r. assert (Sr : sshape r = sshape a) by reflexivity.
  split; [exact W|]. split; auto. intros e. apply nth_error_ext. intros i.
  unfold line at 1. rewrite nth_error_map, seq_nth_error, Sr.
  destruct (Nat.ltb_spec i (size_of (sshape a) ax)) as [Hi|Hi]; cbn [option_map plus].
  - unfold at_, r, np_lines. cbn [s_nd s_axes nget]. rewrite nth_named by auto. rewrite line_named by auto. rewrite line_set.
    unfold set_env at 1. rewrite String.eqb_refl. symmetry. apply nth_error_nth'. now rewrite Hl, line_length.
  - symmetry. apply nth_error_None. now rewrite Hl, line_length.
Qed.

Lemma flatten_some l s : l <> [] -> flatten_axes l = Ok s -> s = String.concat "*" l.
Proof. destruct l; [contradiction|]. simpl. congruence. Qed.

Lemma forallb_smem l m : forallb (fun ax => smem ax m) l = true <-> incl l m.
Proof. rewrite forallb_forall. unfold incl. setoid_rewrite smem_In. reflexivity. Qed.

(** [combine_axes] in the sequence used by sorting *)
Lemma combined {A B} (a : sarr A) l (k : sarr A -> res B) : wf a ->
  let prog := (if negb (forallb (fun ax => smem ax (s_axes a)) l) then Err ValueError
               else name <- flatten_axes l ;; c <- combine_axes a (Some l) (Some name) ;; k c) in
  (sortable a l -> exists c, combine_axes a (Some l) (Some (flat_name l)) = Ok c /\ prog = k c) /\
  (~ sortable a l -> prog = Err ValueError).
Proof.
  intros W prog. unfold prog.
  assert (D : l = [] \/ l <> []) by (destruct l; [auto|right; discriminate]).
  destruct (forallb (fun ax => smem ax (s_axes a)) l) eqn:EF; cbn [negb].
  2: { split; [|reflexivity]. intros (_ & _ & H & _). apply forallb_smem in H. congruence. }
  destruct D as [->|D]; [split; [intros (H & _); contradiction|reflexivity]|].
  replace (flatten_axes l) with (Ok (flat_name l)) by (destruct l; [contradiction|reflexivity]). cbn [bind].
  assert (SS := combine_axes_success a l (flat_name l) W).
  split.
  - intros (H1 & H2 & H3 & H4). destruct (proj2 SS (conj H2 (conj H3 H4))) as [c Hc]. exists c. rewrite Hc. auto.
  - intros H. destruct (combine_axes a (Some l) (Some (flat_name l))) as [c|er] eqn:E.
    + exfalso. apply H. split; auto. apply SS. eauto.
    + apply combine_axes_err in E. now subst.
Qed.

Theorem sort_spec {A} (sort1 : list A -> list A) (a : sarr A) (l : list string) :
  wf a -> (forall x, length (sort1 x) = length x) ->
  (sortable a l -> exists r, na_sort sort1 a (Some l) = Ok r /\ wf r /\
     s_axes r = filter (fun ax => negb (smem ax l)) (s_axes a) ++ [flat_name l] /\
     (forall ax n, In (ax, n) (sshape r) <->
        (In (ax, n) (sshape a) /\ ~ In ax l) \/ (ax = flat_name l /\ n = total_size (sshape a) l)) /\
     forall e, inside_but e (sshape a) l ->
       line r (flat_name l) e = sort1 (map (at_ a) (fibre (sshape a) l e))) /\
  (~ sortable a l -> na_sort sort1 a (Some l) = Err ValueError).
Proof.
  intros W Hl.
  assert (D : l = [] \/ l <> []) by (destruct l; [auto|right; discriminate]).
  destruct D as [->|D]; [split; [intros (H & _); contradiction|reflexivity]|].
  destruct (combined a l (fun c => p <- index_of (flat_name l) (s_axes c) ;; mk_sarr (np_lines sort1 (s_nd c) p) (s_axes c)) W) as [C1 C2].
  assert (E : na_sort sort1 a (Some l) =
    (if negb (forallb (fun ax => smem ax (s_axes a)) l) then Err ValueError
     else name <- flatten_axes l ;; c <- combine_axes a (Some l) (Some name) ;;
          p <- index_of (flat_name l) (s_axes c) ;; mk_sarr (np_lines sort1 (s_nd c) p) (s_axes c))).
  { destruct l; [contradiction|]. reflexivity. }
  rewrite E. split; [|exact C2]. intros H. destruct (C1 H) as (c & Ec & ->). clear E C1 C2.
  destruct (combine_axes_spec a l _ c W Ec) as (Wc & Ac & Sc & _).
  assert (Hin : In (flat_name l) (s_axes c)) by (rewrite Ac; apply in_app_iff; right; left; auto).
  unfold index_of. rewrite (sindex_In _ _ Hin). cbn [bind].
  destruct (lines_named sort1 c _ Wc Hin Hl) as (Wr & Sr & Lr).
  rewrite mk_sarr_intro by (apply Wr). eexists. split; [reflexivity|]. split; [exact Wr|]. split; [exact Ac|]. split.
  - intros ax n. rewrite Sr. apply Sc.
  - intros e He. rewrite Lr. f_equal. now apply combine_axes_line.
Qed.

(** ** Index dictionaries *)

Lemma first_appearance_nodup l : NoDup l -> first_appearance l = l.
Proof.
  intros H. unfold first_appearance. rewrite nodup_fixed_point; [apply rev_involutive|]. now apply NoDup_rev.
Qed.

Lemma first_appearance_app l m : incl m l -> first_appearance (l ++ m) = first_appearance l.
Proof.
  unfold first_appearance. rewrite rev_app_distr. intros H. f_equal.
  assert (HI : incl (rev m) (rev l)) by (intros x Hx; apply in_rev in Hx; apply -> in_rev; auto).
  revert HI. generalize (rev m), (rev l). clear. intros m l HI. induction m as [|x m IH]; auto.
  simpl. destruct (in_dec string_dec x (m ++ l)) as [_|N].
  - apply IH. intros y Hy. apply HI. now right.
  - exfalso. apply N. apply in_app_iff. right. apply HI. now left.
Qed.

Lemma bs_dominated (S : shape) (l : list shape) :
  NoDup (dkeys S) -> (forall s, In s l -> NoDup (dkeys s) /\ incl s S) -> broadcast_shapes (S :: l) = Ok S.
Proof.
  intros N H.
  assert (NS : Forall (fun s : shape => NoDup (dkeys s)) (S :: l)).
  { constructor; auto. apply Forall_forall. intros s Hs. now apply H. }
  assert (INC : incl (concat (map dkeys l)) (dkeys S)).
  { intros ax Hax. apply in_concat in Hax as [ks [Hk Hax]]. apply in_map_iff in Hk as [s [<- Hs]].
    unfold dkeys in *. apply in_map_iff in Hax as [kv [<- Hkv]]. apply in_map. destruct (H s Hs). auto. }
  assert (SZ : forall ax n, In (ax, n) S -> common_size (sizes_of (S :: l) ax) n).
  { intros ax n Hn. split.
    - intros m Hm. right. unfold sizes_of in Hm. apply in_flat_map in Hm as [s [Hs Hm]].
      destruct (dget s ax) as [q|] eqn:Eq; [|destruct Hm]. destruct Hm as [<-|[]]. apply dget_In in Eq.
      assert (In (ax, q) S). { destruct Hs as [<-|Hs]; auto. destruct (H s Hs) as [_ H2]. auto. }
      apply (dget_NoDup S ax _ N) in H0. apply (dget_NoDup S ax _ N) in Hn. congruence.
    - intros Hm. apply Hm. unfold sizes_of. simpl. rewrite (dget_NoDup S ax n N Hn). left; auto. }
  destruct (broadcast_shapes (S :: l)) as [r|er] eqn:E.
  - destruct (broadcast_shapes_ok _ _ NS E) as (Nr & Kr & Zr). f_equal.
    assert (K : dkeys r = dkeys S).
    { rewrite Kr. cbn [map concat]. rewrite first_appearance_app by auto. now apply first_appearance_nodup. }
    rewrite <- (combine_dkeys_dvals r), <- (combine_dkeys_dvals S), K. f_equal.
    apply nth_error_ext. intros i. unfold dvals. rewrite !nth_error_map.
    assert (KI : nth_error (dkeys r) i = nth_error (dkeys S) i) by (now rewrite K). unfold dkeys in KI. rewrite !nth_error_map in KI.
    destruct (nth_error r i) as [[ax n]|] eqn:E1, (nth_error S i) as [[ax' m]|] eqn:E2; cbn in *; try discriminate; auto.
    injection KI as ->. f_equal. apply nth_error_In in E1, E2. assert (C2 := SZ _ _ E2). assert (R1 := E1). apply Zr in E1 as [Hax _].
    assert (R2 : In (ax', m) r) by (apply Zr; auto).
    apply (dget_NoDup r _ _ Nr) in R1, R2. congruence.
  - exfalso. assert (er = ValueError) by (destruct (broadcast_shapes_total _ NS) as [[? HH]|HH]; congruence). subst.
    apply (broadcast_shapes_conflict _ NS) in E. destruct E as (ax & n & m & H1 & H2 & H3 & H4 & H5).
    assert (Hax : In ax (dkeys S)).
    { unfold sizes_of in H1. apply in_flat_map in H1 as [s [Hs Hm]]. destruct (dget s ax) as [q|] eqn:Eq; [|destruct Hm].
      apply dget_In in Eq. apply (in_map fst) in Eq. cbn in Eq. destruct Hs as [<-|Hs]; auto. destruct (H s Hs) as [_ H6].
      apply in_map_iff in Eq as [kv [E6 H7]]. unfold dkeys. rewrite <- E6. apply in_map. auto. }
    apply dget_Some_key in Hax as [q Hq]. apply dget_In in Hq. destruct (SZ _ _ Hq) as [C _].
    destruct (C n H1), (C m H2); congruence.
Qed.

Lemma subshape_keys {A} (a : sarr A) l : wf a -> incl l (s_axes a) ->
  subshape (sshape a) l = map (fun ax => (ax, asize a ax)) l.
Proof.
  intros W I. unfold subshape. induction l as [|x l IH]; auto. cbn [flat_map map].
  rewrite IH by (intros y Hy; apply I; now right).
  assert (H : In x (dkeys (sshape a))) by (rewrite wf_keys by auto; apply I; now left).
  apply dget_Some_key in H as [n Hn]. unfold asize. rewrite Hn. reflexivity.
Qed.

Lemma dset_absent {V} (d : dict V) k v : ~ In k (dkeys d) -> dset d k v = d ++ [(k, v)].
Proof.
  induction d as [|[k' v'] d IH]; auto. intros H. cbn [dset]. cbn [dkeys map fst In] in H.
  destruct (String.eqb_spec k k') as [->|]; [tauto|]. cbn [app]. f_equal. apply IH. tauto.
Qed.

Lemma add_ranges_eq l : forall (sh : shape) (d : dict (sarr Z)), NoDup (dkeys sh) ->
  (forall ax, In ax (dkeys sh) -> ~ In ax l -> ~ In ax (dkeys d)) ->
  add_ranges sh l d = d ++ map (fun kv => (fst kv, arange (fst kv) (snd kv))) (filter (fun kv => negb (smem (fst kv) l)) sh).
Proof.
  induction sh as [|[k n] sh IH]; intros d N H; [now rewrite app_nil_r|].
  inversion N as [|? ? N1 N2]; subst. unfold add_ranges. cbn [fold_left fst snd filter].
  destruct (smem k l) eqn:E; cbn [negb].
  - apply IH; auto. intros ax Hax. apply H. now right.
  - apply smem_false in E. change (fold_left _ sh ?x) with (add_ranges sh l x). rewrite dset_absent.
    2: { apply H; auto. left; auto. }
    rewrite IH; auto.
    + rewrite <- app_assoc. reflexivity.
    + intros ax Hax Hl Hd. unfold dkeys in Hd. rewrite map_app, in_app_iff in Hd. destruct Hd as [Hd|[<-|[]]].
      * apply (H ax); auto. now right.
      * contradiction.
Qed.

Lemma arange_wf ax n : wf (arange ax n).
Proof. split; [repeat constructor; simpl; tauto|reflexivity]. Qed.

Lemma dget_map_dict {V W} (f : string -> V -> W) (d : dict V) k :
  dget (map (fun kv => (fst kv, f (fst kv) (snd kv))) d) k = option_map (f k) (dget d k).
Proof.
  induction d as [|[k' v] d IH]; auto. cbn [map dget fst snd]. destruct (String.eqb_spec k k') as [->|]; auto.
Qed.

Lemma dget_app {V} (d1 d2 : dict V) k : dget (d1 ++ d2) k = match dget d1 k with Some v => Some v | None => dget d2 k end.
Proof. induction d1 as [|[k' v] d1 IH]; auto. cbn [app dget]. destruct (String.eqb k k'); auto. Qed.

Lemma dget_filter_fst {V} (f : string -> bool) (d : dict V) k : f k = true -> dget (filter (fun kv => f (fst kv)) d) k = dget d k.
Proof.
  intros H. induction d as [|[k' v] d IH]; auto. cbn [filter fst]. destruct (f k') eqn:E; cbn [dget].
  - destruct (String.eqb k k'); auto.
  - rewrite IH. destruct (String.eqb_spec k k') as [->|]; auto. congruence.
Qed.

Lemma bat_inside {A} (a : sarr A) e : wf a -> inside e (sshape a) -> bat a e = at_ a e.
Proof.
  intros W H. unfold bat. apply at_ext. intros ax Hax. unfold bclamp.
  destruct (dget (sshape a) ax) as [n|] eqn:E; auto. assert (L := H ax n (dget_In _ _ _ E)).
  destruct n as [|[|n]]; auto. lia.
Qed.

Theorem index_dict {A} (a : sarr A) (l : list string) (ind : sarr Z) (d : dict (sarr Z)) :
  wf a -> NoDup l -> incl l (s_axes a) -> l <> [] -> wf ind ->
  na_unravel_index ind (subshape (sshape a) l) = Ok d ->
  (forall ax n, In (ax, n) (sshape a) -> ~ In ax l -> In (ax, n) (sshape ind)) ->
  let it := as_item (add_ranges (sshape a) l d) in
  dkeys d = l /\
  exists r, getitem a it = Ok r /\ wf r /\ sshape r = sshape ind /\
    forall e, inside e (sshape ind) ->
      exists e', inside e' (sshape a) /\ (forall ax, In ax (s_axes a) -> ~ In ax l -> e' ax = e ax) /\
        Z.of_nat (row_major (map (size_of (sshape a)) l) (map e' l)) = at_ ind e /\
        at_ r e = at_ a e' /\
        (forall ax, In ax (s_axes a) -> exists v, dget (add_ranges (sshape a) l d) ax = Some v /\ wf v /\ bat v e = Z.of_nat (e' ax)).
Proof.
  intros W N I NE Wi U HK it.
  assert (SUB := subshape_keys a l W I). rewrite SUB in U.
  assert (KS : dkeys (map (fun ax => (ax, asize a ax)) l) = l) by (unfold dkeys; rewrite map_map; apply map_id).
  assert (NS : NoDup (dkeys (map (fun ax => (ax, asize a ax)) l))) by (now rewrite KS).
  destruct (unravel_index_spec ind _ d Wi NS U) as (Kd & Sd & Ed). rewrite KS in Kd.
  assert (Na := wf_nodup a W).
  assert (AR := add_ranges_eq l (sshape a) d Na). rewrite Kd in AR. specialize (AR (fun ax _ H => H)).
  set (rng := filter (fun kv : string * nat => negb (smem (fst kv) l)) (sshape a)) in *.
  assert (IT : it = map (fun kv => (fst kv, ItArr (snd kv))) d ++
                    map (fun kv => (fst kv, ItArr (arange (fst kv) (snd kv)))) rng).
  { unfold it, as_item. rewrite AR, map_app, map_map. reflexivity. }
  assert (KR : dkeys rng = filter (fun ax => negb (smem ax l)) (s_axes a)).
  { unfold rng. rewrite <- (wf_keys a W). apply (dkeys_filter_fst (fun ax => negb (smem ax l))). }
  assert (KIT : dkeys it = l ++ dkeys rng).
  { rewrite IT. unfold dkeys at 1. rewrite map_app, !map_map. cbn [fst]. now f_equal. }
  assert (DIT : forall ax, In ax (s_axes a) -> exists v, dget it ax = Some (ItArr v) /\ wf v /\
     ((In ax l /\ dget d ax = Some v) \/ (~ In ax l /\ v = arange ax (asize a ax)))).
  { intros ax Hax. rewrite IT, dget_app, (dget_map_dict (fun _ v => ItArr v)).
    destruct (in_dec string_dec ax l) as [H|H].
    - assert (Hd : In ax (dkeys d)) by (now rewrite Kd). apply dget_Some_key in Hd as [v Hv]. rewrite Hv. cbn [option_map].
      exists v. split; auto. split; [apply (Sd ax v Hv)|auto].
    - assert (Hd : dget d ax = None) by (apply dget_None; now rewrite Kd). rewrite Hd. cbn [option_map].
      rewrite (dget_map_dict (fun k n => ItArr (arange k n))). unfold rng. rewrite (dget_filter_fst (fun k => negb (smem k l))).
      2: { apply smem_false in H. now rewrite H. }
      assert (H1 : In ax (dkeys (sshape a))) by (now rewrite wf_keys). apply dget_Some_key in H1 as [n Hn]. rewrite Hn. cbn [option_map].
      exists (arange ax n). split; auto. split; [apply arange_wf|]. right. split; auto. unfold asize. now rewrite Hn. }
  assert (NIT : NoDup (dkeys it)).
  { rewrite KIT, KR. apply NoDup_app_intro; auto; [apply NoDup_filter; apply W|].
    intros x Hx Hf. apply filter_In in Hf as [_ Hf]. apply smem_In in Hx. rewrite Hx in Hf. discriminate. }
  assert (INA : forall ax, In ax (dkeys it) -> In ax (s_axes a)).
  { intros ax. rewrite KIT, KR, in_app_iff, filter_In. intros [H|[H _]]; auto. }
  assert (ALL : forall kv, In kv it -> exists v, snd kv = ItArr v /\ wf v).
  { intros [k i] Hkv. destruct (DIT k) as (v & Hv & Wv & _).
    - apply INA. apply (in_map fst) in Hkv. exact Hkv.
    - apply (dget_NoDup it k i NIT) in Hkv. cbn [snd]. exists v. split; auto. congruence. }
  assert (IW : Forall (fun kv => item_wf (snd kv)) it).
  { apply Forall_forall. intros kv Hkv. destruct (ALL kv Hkv) as (v & -> & Wv). exact Wv. }
  assert (F1 : filter (fun kv : string * item => smem (fst kv) (s_axes a)) it = it).
  { apply filter_all. intros kv Hkv. apply smem_In. apply INA. now apply (in_map fst) in Hkv. }
  assert (F2 : filter (fun kv : string * item => get_advanced (snd kv)) it = it).
  { apply filter_all. intros kv Hkv. destruct (ALL kv Hkv) as (v & -> & _). reflexivity. }
  assert (SB : shape_broadcasted (map (fun kv : string * item => opnd (snd kv)) it) = Ok (sshape ind)).
  { unfold shape_broadcasted. rewrite IT, map_app, !map_map. cbn [snd opnd].
    destruct d as [|[k0 v0] d'] eqn:ED; [destruct l; [contradiction|discriminate]|]. cbn [map app].
    unfold op_shapes. cbn [flat_map snd]. cbn [app].
    assert (S0 : sshape v0 = sshape ind). { apply (Sd k0 v0). cbn [dget]. now rewrite String.eqb_refl. }
    rewrite S0. apply bs_dominated; [now apply wf_nodup|].
    intros s Hs. apply in_flat_map in Hs as [o [Ho Hs]]. apply in_app_iff in Ho as [Ho|Ho].
    - apply in_map_iff in Ho as [[k v] [<- Hkv]]. cbn [snd] in Hs. destruct Hs as [<-|[]].
      assert (ND' : NoDup (dkeys ((k0, v0) :: d'))) by (rewrite Kd; auto).
      assert (Hv : dget ((k0, v0) :: d') k = Some v) by (apply dget_NoDup; auto; right; auto).
      destruct (Sd k v Hv) as [Wv ->]. split; [now apply wf_nodup|apply incl_refl].
    - apply in_map_iff in Ho as [[k n] [<- Hkv]]. cbn [fst snd] in Hs. destruct Hs as [<-|[]].
      split; [repeat constructor; simpl; tauto|].
      intros kv Hk. destruct Hk as [<-|[]]. unfold rng in Hkv. apply filter_In in Hkv as [H1 H2]. apply HK; auto.
      cbn [fst] in H2. intros H3. apply smem_In in H3. rewrite H3 in H2. discriminate. }
  assert (INR : forall ax, In ax l -> forall v e, dget d ax = Some v -> inside e (sshape ind) ->
     exists i, i < asize a ax /\ at_ v e = Z.of_nat i).
  { intros ax Hax v e Hv He. destruct (Ed e He) as (idx & F & _). clear - F Hax Hv.
    revert idx F. induction l as [|x l IH]; intros idx F; [destruct Hax|]. cbn [map] in F. inversion F as [|? i ? idx' [H1 [v' [H2 H3]]] F']; subst.
    cbn [fst snd] in *. destruct Hax as [->|Hax]; [|eauto]. exists i. split; auto. congruence. }
  assert (OK : forall ax, In ax (s_axes a) -> item_ok (asize a ax) (dget it ax)).
  { intros ax Hax. destruct (DIT ax Hax) as (v & -> & Wv & [[H1 H2]|[H1 ->]]); cbn [item_ok].
    - intros e He. destruct (Sd ax v H2) as [_ Sv]. rewrite Sv in He. destruct (INR ax H1 v e H2 He) as (i & Hi & ->).
      unfold in_range. lia.
    - intros e He. unfold at_, arange. cbn [s_nd s_axes nget map nth]. unfold in_range.
      assert (e ax < asize a ax) by (apply (He ax); left; reflexivity). lia. }
  assert (BAS : others (s_axes a) (dkeys it) = []).
  { unfold others. rewrite KIT, KR. apply filter_none. intros x Hx. rewrite negb_false_iff. apply smem_In, in_app_iff.
    destruct (in_dec string_dec x l); [auto|right]. apply filter_In. split; auto. apply smem_false in n. now rewrite n. }
  split; [exact Kd|].
  assert (ITN : filter (fun kv : string * item => smem (fst kv) (s_axes a)) it <> []).
  { rewrite F1. intros E. rewrite E in KIT. destruct l; [contradiction|discriminate]. }
  assert (GI := getitem_intro a it W NIT IW (sshape ind) ITN). rewrite F1, F2 in GI. specialize (GI SB OK).
  destruct GI as [r Hr]; [rewrite BAS; auto|].
  assert (GO := getitem_ok a it W NIT IW r ITN Hr). rewrite F1, F2 in GO.
  destruct GO as (sa & SB' & _ & Wr & Sr & El). assert (sa = sshape ind) by congruence. subst sa.
  rewrite BAS in Sr. cbn [map] in Sr. rewrite app_nil_r in Sr.
  exists r. split; auto. split; auto. split; auto. intros e He.
  set (e' := fun ax => item_pos (asize a ax) (dget it ax) e ax) in *.
  assert (EL1 : forall ax v i, In ax l -> dget d ax = Some v -> i < asize a ax -> at_ v e = Z.of_nat i -> e' ax = i).
  { intros ax v i Hax Hv Hi Hat. unfold e'. destruct (DIT ax (I ax Hax)) as (v' & -> & Wv & [[_ H2]|[H2 _]]); [|contradiction].
    assert (v' = v) by congruence. subst v'. cbn [item_pos]. destruct (Sd ax v Hv) as [_ Sv].
    rewrite bat_inside by (auto; now rewrite Sv). rewrite Hat. unfold znorm.
    destruct (Z.ltb_spec (Z.of_nat i) 0); [lia|]. apply Nat2Z.id. }
  assert (EL2 : forall ax, In ax (s_axes a) -> ~ In ax l -> e' ax = e ax).
  { intros ax Hax Hn. unfold e'. destruct (DIT ax Hax) as (v' & -> & Wv & [[H1 _]|[_ ->]]); [contradiction|]. cbn [item_pos].
    assert (L : e ax < asize a ax). { apply (He ax). apply HK; auto. apply in_sshape; auto. }
    rewrite bat_inside; [|apply arange_wf|].
    - unfold at_, arange. cbn [s_nd s_axes nget map nth]. unfold znorm.
      destruct (Z.ltb_spec (Z.of_nat (e ax)) 0); [lia|]. apply Nat2Z.id.
    - intros k n Hk. destruct Hk as [Hk|[]]. injection Hk as <- <-. auto. }
  exists e'. split; [|split; [exact EL2|split; [|split; [apply El|]]]].
  - intros ax n Hn. apply in_sshape in Hn as [Hax <-]; auto.
    destruct (in_dec string_dec ax l) as [Hl|Hl].
    + destruct (DIT ax Hax) as (v & _ & _ & [[_ H2]|[H2 _]]); [|contradiction].
      destruct (INR ax Hl v e H2 He) as (i & Hi & Hat). rewrite (EL1 ax v i); auto.
    + rewrite EL2 by auto. apply (He ax). apply HK; auto. apply in_sshape; auto.
  - destruct (Ed e He) as (idx & F & RM). rewrite <- RM. f_equal. unfold dvals. rewrite map_map. cbn [snd]. f_equal.
    clear - F EL1. assert (G : forall m, incl m l -> forall idx,
      Forall2 (fun (kv : string * nat) i => i < snd kv /\ (exists v, dget d (fst kv) = Some v /\ at_ v e = Z.of_nat i))
        (map (fun ax => (ax, asize a ax)) m) idx -> map e' m = idx).
    { induction m as [|x m IH]; intros Hm idx0 F0; inversion F0 as [|? i ? idx' [H1 [v [H2 H3]]] F']; subst; auto.
      cbn [map fst snd] in *. f_equal; [eapply EL1; eauto; apply Hm; now left|]. apply IH; auto. intros y Hy. apply Hm. now right. }
    apply G; [apply incl_refl|exact F].
  - intros ax Hax. destruct (DIT ax Hax) as (v & Hv & Wv & HC). exists v.
    assert (Hd : dget (add_ranges (sshape a) l d) ax = Some v).
    { unfold it, as_item in Hv. rewrite (dget_map_dict (fun _ v => ItArr v)) in Hv.
      destruct (dget (add_ranges (sshape a) l d) ax); [|discriminate]. cbn [option_map] in Hv. congruence. }
    split; auto. split; auto. destruct HC as [[Hl Hdv]|[Hl ->]].
    + destruct (INR ax Hl v e Hdv He) as (i & Hi & Hat). rewrite (EL1 ax v i Hl Hdv Hi Hat).
      rewrite bat_inside; auto. destruct (Sd ax v Hdv) as [_ ->]. auto.
    + rewrite EL2 by auto. rewrite bat_inside; [reflexivity|apply arange_wf|].
      intros k n Hk. destruct Hk as [Hk|[]]. injection Hk as <- <-. apply (He ax). apply HK; auto. apply in_sshape; auto.
Qed.

(** The element of a fibre at a row-major position. *)
Lemma fibre_nth {A} (a : sarr A) l e e' :
  NoDup l -> (forall ax, In ax l -> e' ax < size_of (sshape a) ax) ->
  (forall ax, In ax (s_axes a) -> ~ In ax l -> e' ax = e ax) ->
  nth_error (map (at_ a) (fibre (sshape a) l e)) (row_major (map (size_of (sshape a)) l) (map e' l)) = Some (at_ a e').
Proof.
  intros N H1 H2.
  rewrite (map_fibre (sshape a) l e (at_ a) (fun red => at_ a (fun x => if smem x l then nth (spos x l) red 0 else e x)) N).
  2: { intros e1 red _ E. apply at_ext. intros ax _. apply E. }
  rewrite row_major_ravel by (now rewrite !map_length).
  assert (IB : inb (map e' l) (map (size_of (sshape a)) l)).
  { unfold inb. apply Forall2_map_l, Forall2_map_r, Forall2_same. auto. }
  rewrite nth_error_map. rewrite (nth_error_nth' _ []) by (rewrite ndindex_length; now apply ravel_idx_lt).
  rewrite nth_ndindex by auto. cbn [option_map]. f_equal. apply at_ext. intros ax Hax.
  destruct (smem ax l) eqn:E.
  - apply smem_In in E. change (nth (spos ax l) (map e' l) 0) with (env_of l (map e' l) ax).
    destruct (In_nth_error l ax E) as [k Hk]. 
    assert (M := map_env_of l (map e' l) N (map_length _ _)).
    assert (M' := f_equal (fun x => nth_error x k) M). cbn beta in M'. rewrite !nth_error_map, Hk in M'. cbn [option_map] in M'. congruence.
  - apply smem_false in E. symmetry. auto.
Qed.

Lemma fibre_length sh l e : length (fibre sh l e) = prod (map (size_of sh) l).
Proof.
  revert e. induction l as [|x l IH]; intros e; auto. cbn [fibre map prod].
  replace (size_of sh x * prod (map (size_of sh) l)) with (length (seq 0 (size_of sh x)) * prod (map (size_of sh) l))
    by (now rewrite seq_length).
  generalize (seq 0 (size_of sh x)). intros q. induction q as [|i q IHq]; auto. cbn [flat_map length Nat.mul].
  now rewrite app_length, IH, IHq.
Qed.

Lemma resized_id sh ax : NoDup (dkeys sh) -> resized sh ax (size_of sh ax) = sh.
Proof.
  intros N. unfold resized. rewrite <- map_id. apply map_ext_in. intros [k n] H. cbn [fst snd].
  destruct (String.eqb_spec k ax) as [->|]; auto. f_equal. now apply size_of_In.
Qed.

Lemma total_size_sub {A} (a : sarr A) l : wf a -> incl l (s_axes a) ->
  total_size (subshape (sshape a) l) (dkeys (subshape (sshape a) l)) = total_size (sshape a) l.
Proof.
  intros W I.
  assert (KS : dkeys (subshape (sshape a) l) = l).
  { rewrite subshape_keys by auto. unfold dkeys. rewrite map_map. apply map_id. }
  rewrite KS. clear KS.
  assert (G : forall m, incl m l -> total_size (subshape (sshape a) l) m = total_size (sshape a) m); [|apply G, incl_refl].
  induction m as [|x m IH]; auto. intros Hm. cbn [total_size fold_right].
  assert (dget (subshape (sshape a) l) x = dget (sshape a) x) as ->.
  { rewrite subshape_keys by auto. assert (Hx : In x l) by (apply Hm; now left).
    assert (Ha : In x (dkeys (sshape a))) by (rewrite wf_keys; auto). apply dget_Some_key in Ha as [n Hn]. rewrite Hn.
    assert (NN : asize a x = n) by (unfold asize; now rewrite Hn). clear - Hx NN.
    induction l as [|y l IH]; [destruct Hx|]. cbn [map dget]. destruct (String.eqb_spec x y) as [->|]; [now rewrite NN|].
    apply IH. destruct Hx; congruence. }
  unfold total_size in IH. rewrite IH by (intros y Hy; apply Hm; now right). reflexivity.
Qed.

(** What [a[argsort]] contains, for any function that gives positions in the line. *)
Theorem argsort_spec {A} (argsort1 : list A -> list nat) (a : sarr A) (l : list string) :
  wf a -> (forall x, length (argsort1 x) = length x) -> (forall x i, In i (argsort1 x) -> i < length x) ->
  (sortable a l -> exists d r, na_argsort argsort1 a (Some l) = Ok d /\
     dkeys d = l ++ filter (fun ax => negb (smem ax l)) (s_axes a) /\
     getitem a (as_item d) = Ok r /\ wf r /\
     s_axes r = filter (fun ax => negb (smem ax l)) (s_axes a) ++ [flat_name l] /\
     (forall ax n, In (ax, n) (sshape r) <->
        (In (ax, n) (sshape a) /\ ~ In ax l) \/ (ax = flat_name l /\ n = total_size (sshape a) l)) /\
     forall e, inside_but e (sshape a) l ->
       let L := map (at_ a) (fibre (sshape a) l e) in
       map Some (line r (flat_name l) e) = map (nth_error L) (argsort1 L)) /\
  (~ sortable a l -> na_argsort argsort1 a (Some l) = Err ValueError).
Proof.
  intros W Hl Hr.
  set (K := fun c => p <- index_of (flat_name l) (s_axes c) ;;
      indices <- mk_sarr (np_along (fun n => n) (fun l i => Z.of_nat (nth i (argsort1 l) 0)) (s_nd c) p) (s_axes c) ;;
      d <- na_unravel_index indices (subshape (sshape a) l) ;;
      Ok (add_ranges (sshape a) (dkeys d) d)).
  destruct (combined a l K W) as [C1 C2].
  assert (E : na_argsort argsort1 a (Some l) =
    (if negb (forallb (fun ax => smem ax (s_axes a)) l) then Err ValueError
     else name <- flatten_axes l ;; c <- combine_axes a (Some l) (Some name) ;; K c)).
  { unfold na_argsort. destruct (negb _); auto. destruct l; reflexivity. }
  rewrite E. split; [|exact C2]. intros H. destruct (C1 H) as (c & Ec & ->). clear E C1 C2. unfold K.
  destruct H as (NE & N & I & HK).
  destruct (combine_axes_spec a l _ c W Ec) as (Wc & Ac & Sc & _).
  assert (Hin : In (flat_name l) (s_axes c)) by (rewrite Ac; apply in_app_iff; right; left; auto).
  unfold index_of. rewrite (sindex_In _ _ Hin). cbn [bind].
  destruct (along_named (fun n => n) (fun l i => Z.of_nat (nth i (argsort1 l) 0)) c _ Wc Hin) as (Wi & Si & Gi).
  rewrite mk_sarr_intro by (apply Wi). cbn [bind].
  set (ind := mkS _ (s_axes c)) in *.
  assert (Zc : size_of (sshape c) (flat_name l) = total_size (sshape a) l).
  { apply size_of_In; [now apply wf_nodup|]. apply Sc. auto. }
  assert (Si' : sshape ind = sshape c).
  { rewrite Si. apply resized_id. now apply wf_nodup. }
  assert (LL : forall e, length (map (at_ a) (fibre (sshape a) l e)) = total_size (sshape a) l).
  { intros e. rewrite map_length, fibre_length, total_size_prod by auto. reflexivity. }
  assert (IB : forall e, inside e (sshape c) -> inside_but e (sshape a) l).
  { intros e He ax n Hn Hl'. apply (He ax). apply Sc. auto. }
  assert (KS : dkeys (subshape (sshape a) l) = l).
  { rewrite subshape_keys by auto. unfold dkeys. rewrite map_map. apply map_id. }
  destruct (proj2 (unravel_index_success ind (subshape (sshape a) l) Wi ltac:(now rewrite KS))) as [d Hd].
  { split.
    - intros E. rewrite E in KS. cbn in KS. subst l. contradiction.
    - intros e He. rewrite Si' in He. rewrite Gi.
      rewrite (combine_axes_line a l _ c e W Ec (IB e He)).
      assert (T := total_size_sub a l W I).
      rewrite T. set (L := map (at_ a) (fibre (sshape a) l e)).
      assert (EI : e (flat_name l) < length (argsort1 L)).
      { rewrite Hl. unfold L. rewrite LL. apply (He (flat_name l)). apply Sc. auto. }
      assert (Q := Hr L _ (nth_In _ 0 EI)). unfold L in Q at 2. rewrite LL in Q. lia. }
  rewrite Hd. cbn [bind].
  assert (HK' : forall ax n, In (ax, n) (sshape a) -> ~ In ax l -> In (ax, n) (sshape ind)).
  { intros ax n H1 H2. rewrite Si'. apply Sc. auto. }
  destruct (index_dict a l ind d W N I NE Wi Hd HK') as (Kd & r & Hg & Wr & Sr & El).
  rewrite Kd. exists (add_ranges (sshape a) l d), r. split; auto. split.
  { rewrite add_ranges_eq; [|now apply wf_nodup|intros; congruence].
    unfold dkeys. rewrite map_app, map_map. cbn [fst]. f_equal; auto.
    rewrite <- (wf_keys a W). apply (dkeys_filter_fst (fun ax => negb (smem ax l))). }
  split; auto. split; auto. split.
  { rewrite <- (wf_keys r Wr), Sr, Si', (wf_keys c Wc). exact Ac. }
  split. { intros ax n. rewrite Sr, Si'. apply Sc. }
  intros e He. set (L := map (at_ a) (fibre (sshape a) l e)). apply nth_error_ext. intros i. rewrite !nth_error_map. unfold line.
  rewrite nth_error_map, seq_nth_error. rewrite Sr, Si', Zc. cbn [plus].
  destruct (Nat.ltb_spec i (total_size (sshape a) l)) as [Hi|Hi]; cbn [option_map].
  - assert (Hin' : inside (set_env e (flat_name l) i) (sshape ind)).
    { rewrite Si'. intros ax n Hn. apply Sc in Hn as [[Hn Hl']|[-> ->]].
      - unfold set_env. destruct (String.eqb_spec ax (flat_name l)) as [->|]; [|auto].
        destruct (HK _ _ Hn Hl'). congruence.
      - unfold set_env. now rewrite String.eqb_refl. }
    destruct (El _ Hin') as (e' & I1 & I2 & I3 & -> & _).
    assert (LE : line c (flat_name l) (set_env e (flat_name l) i) = L).
    { rewrite line_set. apply combine_axes_line; auto. }
    rewrite Gi, LE in I3. unfold set_env in I3. rewrite String.eqb_refl in I3. apply Nat2Z.inj in I3.
    rewrite (nth_error_nth' _ 0) by (rewrite Hl; unfold L; now rewrite LL). cbn [option_map]. f_equal. rewrite <- I3.
    symmetry. apply fibre_nth; auto.
    + intros ax Hax. assert (Ha : In ax (dkeys (sshape a))) by (rewrite wf_keys; auto). apply dget_Some_key in Ha as [n Hn].
      unfold size_of. rewrite Hn. apply (I1 ax). now apply dget_In.
    + intros ax Hax Hnl. rewrite I2 by auto. unfold set_env. destruct (String.eqb_spec ax (flat_name l)) as [->|]; auto.
      assert (In (flat_name l, asize a (flat_name l)) (sshape a)) as Hf by (apply in_sshape; auto).
      destruct (HK _ _ Hf Hnl). congruence.
  - symmetry. rewrite (proj2 (nth_error_None _ _)); auto. rewrite Hl. unfold L. now rewrite LL.
Qed.

(** ** Positions of extreme elements *)

Lemma del_nth_named {B} (f : string -> B) axes ax : NoDup axes -> In ax axes ->
  del_nth (spos ax axes) (map f axes) = map f (filter (fun x => negb (String.eqb x ax)) axes).
Proof.
  induction axes as [|y axes IH]; intros N H; [destruct H|]. inversion N; subst. cbn [spos map filter].
  destruct (String.eqb_spec ax y) as [->|NE].
  - cbn [del_nth]. rewrite String.eqb_refl. cbn [negb]. f_equal. symmetry. apply filter_all. intros x Hx.
    destruct (String.eqb_spec x y) as [->|]; auto.
  - destruct H as [->|H]; [congruence|]. cbn [del_nth].
    destruct (String.eqb_spec y ax) as [->|]; [congruence|]. cbn [negb map]. f_equal. now apply IH.
Qed.

Lemma ins_nth_named axes ax (e : env) i : NoDup axes -> In ax axes ->
  ins_nth (spos ax axes) i (map e (filter (fun x => negb (String.eqb x ax)) axes)) = map (set_env e ax i) axes.
Proof.
  induction axes as [|y axes IH]; intros N H; [destruct H|]. inversion N; subst. cbn [spos filter].
  destruct (String.eqb_spec ax y) as [->|NE].
  - rewrite String.eqb_refl. cbn [negb ins_nth map]. rewrite filter_all.
    + unfold set_env at 1. rewrite String.eqb_refl. f_equal. symmetry. now apply map_set_env_notin.
    + intros x Hx. destruct (String.eqb_spec x y) as [->|]; auto.
  - destruct H as [->|H]; [congruence|]. cbn [ins_nth].
    destruct (String.eqb_spec y ax) as [->|]; [congruence|]. cbn [negb map ins_nth]. f_equal.
    + unfold set_env. destruct (String.eqb_spec y ax); congruence.
    + now apply IH.
Qed.

Lemma arg_reduce_named {A} (pick : list A -> nat) (a : sarr A) ax : wf a -> In ax (s_axes a) -> size_of (sshape a) ax <> 0 ->
  let axes := filter (fun x => negb (String.eqb x ax)) (s_axes a) in
  exists n, np_arg_reduce pick (s_nd a) (spos ax (s_axes a)) = Ok n /\
    wf (mkS n axes) /\ sshape (mkS n axes) = filter (fun kv => negb (String.eqb (fst kv) ax)) (sshape a) /\
    forall e, at_ (mkS n axes) e = Z.of_nat (pick (line a ax e)).
Proof.
  intros W H NZ axes. unfold np_arg_reduce. rewrite nth_shape by auto.
  destruct (Nat.eqb_spec (size_of (sshape a) ax) 0); [contradiction|]. eexists. split; [reflexivity|].
  assert (SH : del_nth (spos ax (s_axes a)) (nshape (s_nd a)) = map (asize a) axes).
  { rewrite <- map_asize by auto. apply del_nth_named; auto. apply W. }
  assert (Wr : wf (mkS (mkNd (del_nth (spos ax (s_axes a)) (nshape (s_nd a)))
     (fun idx => Z.of_nat (pick (np_line (s_nd a) (spos ax (s_axes a)) (ins_nth (spos ax (s_axes a)) 0 idx))))) axes)).
  { split; cbn [s_nd s_axes nshape].
    - apply NoDup_filter, W.
    - rewrite SH. now rewrite map_length. }
  split; auto. split.
  - unfold sshape at 1. cbn [s_nd s_axes nshape]. rewrite SH, sshape_map by auto. unfold axes. clear.
    induction (s_axes a) as [|x l IH]; auto. cbn [filter map fst]. destruct (negb (String.eqb x ax)); cbn [map combine]; now rewrite IH.
  - intros e. unfold at_. cbn [s_nd s_axes nget]. f_equal. f_equal. unfold axes. rewrite ins_nth_named; [|apply W|auto].
    rewrite line_named by auto. apply line_set.
Qed.

(** the arrays and axes for which [arg_reduce] succeeds *)
Theorem arg_reduce_spec {A} (pick : list A -> nat) (a : sarr A) (l : list string) :
  wf a -> (forall x, x <> [] -> pick x < length x) ->
  (sortable a l -> total_size (sshape a) l <> 0 ->
     exists d r, na_arg_reduce pick a (Some l) = Ok d /\
     dkeys d = l ++ filter (fun ax => negb (smem ax l)) (s_axes a) /\
     getitem a (as_item d) = Ok r /\ wf r /\
     sshape r = filter (fun kv => negb (smem (fst kv) l)) (sshape a) /\
     forall e, inside e (sshape r) ->
       let L := map (at_ a) (fibre (sshape a) l e) in
       (exists e', inside e' (sshape a) /\ (forall ax, In ax (s_axes a) -> ~ In ax l -> e' ax = e ax) /\
          row_major (map (size_of (sshape a)) l) (map e' l) = pick L /\ at_ r e = at_ a e' /\
          (forall ax, In ax (s_axes a) -> exists v, dget d ax = Some v /\ wf v /\ bat v e = Z.of_nat (e' ax))) /\
       nth_error L (pick L) = Some (at_ r e)) /\
  (~ (sortable a l /\ total_size (sshape a) l <> 0) -> na_arg_reduce pick a (Some l) = Err ValueError).
Proof.
  intros W Hp.
  set (K := fun c => p <- index_of (flat_name l) (s_axes c) ;;
      n <- np_arg_reduce pick (s_nd c) p ;;
      indices <- mk_sarr n (filter (fun ax => negb (String.eqb ax (flat_name l))) (s_axes c)) ;;
      d <- na_unravel_index indices (subshape (sshape a) l) ;;
      Ok (add_ranges (sshape a) l d)).
  destruct (combined a l K W) as [C1 C2].
  assert (E : na_arg_reduce pick a (Some l) =
    (if negb (forallb (fun ax => smem ax (s_axes a)) l) then Err ValueError
     else name <- flatten_axes l ;; c <- combine_axes a (Some l) (Some name) ;; K c)).
  { unfold na_arg_reduce. destruct (negb _); auto. destruct l; reflexivity. }
  rewrite E.
  assert (PRE : forall c, combine_axes a (Some l) (Some (flat_name l)) = Ok c ->
     wf c /\ s_axes c = filter (fun ax => negb (smem ax l)) (s_axes a) ++ [flat_name l] /\
     In (flat_name l) (s_axes c) /\ size_of (sshape c) (flat_name l) = total_size (sshape a) l).
  { intros c Ec. destruct (combine_axes_spec a l _ c W Ec) as (Wc & Ac & Sc & _). split; auto. split; auto.
    split; [rewrite Ac; apply in_app_iff; right; left; auto|]. apply size_of_In; [now apply wf_nodup|]. apply Sc. auto. }
  split.
  2: { intros H. assert (D : sortable a l \/ ~ sortable a l).
       { clear - W. unfold sortable. destruct l as [|x l]; [right; tauto|].
         destruct (ListDec.NoDup_dec string_dec (x :: l)); [|right; tauto].
         destruct (forallb (fun ax => smem ax (s_axes a)) (x :: l)) eqn:E.
         2: { right. intros (_ & _ & Hi & _). apply forallb_smem in Hi. congruence. }
         apply forallb_smem in E.
         destruct (forallb (fun kv => smem (fst kv) (x :: l) || (negb (snd kv =? 0) && negb (String.eqb (fst kv) (flat_name (x :: l))))) (sshape a)) eqn:F.
         - left. split; [discriminate|]. split; auto. split; auto. intros ax m Hm Hl. rewrite forallb_forall in F. apply F in Hm.
           cbn [fst snd] in Hm. apply smem_false in Hl. rewrite Hl in Hm. cbn [orb] in Hm. apply andb_true_iff in Hm as [H1 H2].
           apply negb_true_iff in H1, H2. apply Nat.eqb_neq in H1. apply String.eqb_neq in H2. auto.
         - right. intros (_ & _ & _ & HH). assert (F' : forallb (fun kv => smem (fst kv) (x :: l) || (negb (snd kv =? 0) && negb (String.eqb (fst kv) (flat_name (x :: l))))) (sshape a) = true); [|congruence].
           apply forallb_forall. intros [ax m] Hm. cbn [fst snd]. destruct (smem ax (x :: l)) eqn:G; auto. apply smem_false in G.
           destruct (HH ax m Hm G) as [H1 H2]. apply Nat.eqb_neq in H1. apply String.eqb_neq in H2. now rewrite H1, H2. }
       destruct D as [D|D]; [|auto]. destruct (C1 D) as (c & Ec & ->). destruct (PRE c Ec) as (Wc & Ac & Hin & Zc).
       unfold K, index_of. rewrite (sindex_In _ _ Hin). cbn [bind]. unfold np_arg_reduce. rewrite nth_shape by auto.
       rewrite Zc. destruct (Nat.eqb_spec (total_size (sshape a) l) 0); [reflexivity|]. tauto. }
  intros H NZ. destruct (C1 H) as (c & Ec & ->). clear E C1 C2. unfold K.
  destruct H as (NE & N & I & HK).
  destruct (PRE c Ec) as (Wc & Ac & Hin & Zc). clear PRE.
  destruct (combine_axes_spec a l _ c W Ec) as (_ & _ & Sc & _).
  unfold index_of. rewrite (sindex_In _ _ Hin). cbn [bind].
  destruct (arg_reduce_named pick c (flat_name l) Wc Hin ltac:(now rewrite Zc)) as (n & -> & Wi & Si & Gi). cbn [bind].
  rewrite mk_sarr_intro by (apply Wi). cbn [bind].
  set (ind := mkS n _) in *.
  assert (IN : forall ax m, In (ax, m) (sshape ind) <-> In (ax, m) (sshape a) /\ ~ In ax l).
  { intros ax m. rewrite Si, filter_In, Sc. cbn [fst]. split.
    - intros [[H1|[-> _]] H2]; auto. rewrite String.eqb_refl in H2. discriminate.
    - intros [H1 H2]. split; auto. destruct (HK _ _ H1 H2) as [_ H3]. apply String.eqb_neq in H3. now rewrite H3. }
  assert (SiA : sshape ind = filter (fun kv => negb (smem (fst kv) l)) (sshape a)).
  { assert (AX : s_axes ind = filter (fun ax => negb (smem ax l)) (s_axes a)).
    { unfold ind. cbn [s_axes]. rewrite Ac, filter_app. cbn [filter]. rewrite String.eqb_refl. cbn [negb]. rewrite app_nil_r.
      apply filter_all. intros x Hx. apply filter_In in Hx as [H1 H2]. apply negb_true_iff, smem_false in H2.
      assert (Hf : In (x, asize a x) (sshape a)) by (apply in_sshape; auto). destruct (HK _ _ Hf H2) as [_ H3].
      apply String.eqb_neq in H3. now rewrite H3. }
    rewrite (sshape_map ind) by auto. rewrite AX. rewrite (sshape_map a W).
    transitivity (map (fun ax => (ax, asize a ax)) (filter (fun ax => negb (smem ax l)) (s_axes a))).
    - apply map_ext_in. intros x Hx. f_equal. apply filter_In in Hx as [H1 H2]. apply negb_true_iff, smem_false in H2.
      assert (H3 : In (x, asize a x) (sshape ind)) by (apply IN; split; auto; apply in_sshape; auto).
      apply in_sshape in H3 as [_ H3]; auto.
    - clear. induction (s_axes a) as [|x m IH]; auto. cbn [filter map fst]. destruct (negb (smem x l)); cbn [map]; now rewrite IH. }
  assert (LL : forall e, length (map (at_ a) (fibre (sshape a) l e)) = total_size (sshape a) l).
  { intros e. rewrite map_length, fibre_length, total_size_prod by auto. reflexivity. }
  assert (IB : forall e, inside e (sshape ind) -> inside_but e (sshape a) l).
  { intros e He ax m Hn Hl'. apply (He ax). apply IN. auto. }
  assert (GL : forall e, inside e (sshape ind) -> at_ ind e = Z.of_nat (pick (map (at_ a) (fibre (sshape a) l e)))).
  { intros e He. rewrite Gi. rewrite (combine_axes_line a l _ c e W Ec (IB e He)). reflexivity. }
  assert (PL : forall e, pick (map (at_ a) (fibre (sshape a) l e)) < total_size (sshape a) l).
  { intros e. rewrite <- (LL e). apply Hp. intros E. apply (f_equal (@length A)) in E. rewrite LL in E. cbn in E. congruence. }
  assert (KS : dkeys (subshape (sshape a) l) = l).
  { rewrite subshape_keys by auto. unfold dkeys. rewrite map_map. apply map_id. }
  destruct (proj2 (unravel_index_success ind (subshape (sshape a) l) Wi ltac:(now rewrite KS))) as [d Hd].
  { split.
    - intros E. rewrite E in KS. cbn in KS. subst l. contradiction.
    - intros e He. rewrite (GL e He), total_size_sub by auto. assert (Q := PL e). lia. }
  rewrite Hd. cbn [bind].
  assert (HK' : forall ax m, In (ax, m) (sshape a) -> ~ In ax l -> In (ax, m) (sshape ind)).
  { intros ax m H1 H2. apply IN. auto. }
  destruct (index_dict a l ind d W N I NE Wi Hd HK') as (Kd & r & Hg & Wr & Sr & El).
  exists (add_ranges (sshape a) l d), r. split; auto. split.
  { rewrite add_ranges_eq; [|now apply wf_nodup|intros; congruence].
    unfold dkeys. rewrite map_app, map_map. cbn [fst]. f_equal; auto.
    rewrite <- (wf_keys a W). apply (dkeys_filter_fst (fun ax => negb (smem ax l))). }
  split; auto. split; auto. split; [congruence|].
  intros e He. rewrite Sr in He. destruct (El e He) as (e' & I1 & I2 & I3 & I4 & I5). rewrite (GL e He) in I3. apply Nat2Z.inj in I3.
  split; [exists e'; auto|]. rewrite I4, <- I3. apply fibre_nth; auto.
  intros ax Hax. assert (Ha : In ax (dkeys (sshape a))) by (rewrite wf_keys; auto). apply dget_Some_key in Ha as [m Hn].
  unfold size_of. rewrite Hn. apply (I1 ax). now apply dget_In.
Qed.

(** ** Sorted permutations *)

Lemma sorts_length {A} (le : A -> A -> Prop) f : sorts le f -> forall l, length (f l) = length l.
Proof. intros H l. symmetry. apply Permutation_length, H. Qed.

Lemma argsorts_length {A} (le : A -> A -> Prop) f : argsorts le f -> forall l : list A, length (f l) = length l.
Proof. intros H l. rewrite <- (Permutation_length (proj1 (H l))). apply seq_length. Qed.

Lemma argsorts_range {A} (le : A -> A -> Prop) f : argsorts le f -> forall (l : list A) i, In i (f l) -> i < length l.
Proof.
  intros H l i Hi. apply (Permutation_in _ (Permutation_sym (proj1 (H l)))) in Hi. apply in_seq in Hi. lia.
Qed.

Lemma map_Some_inj {A} (l m : list A) : map Some l = map Some m -> l = m.
Proof.
  revert m. induction l as [|x l IH]; intros [|y m] H; try discriminate; auto. injection H as <- H. f_equal. auto.
Qed.

Lemma seq_elements {A} (l : list A) : map (nth_error l) (seq 0 (length l)) = map Some l.
Proof.
  apply nth_error_ext. intros i. rewrite !nth_error_map, seq_nth_error. cbn [plus].
  destruct (Nat.ltb_spec i (length l)) as [H|H]; cbn [option_map].
  - destruct (nth_error l i) eqn:E; auto. apply nth_error_None in E. lia.
  - apply nth_error_None in H. now rewrite H.
Qed.

Lemma map_Some_perm {A} (l m : list A) : Permutation (map Some l) (map Some m) -> Permutation l m.
Proof.
  intros H. assert (E : forall q : list A, flat_map (fun o : option A => match o with Some x => [x] | None => [] end) (map Some q) = q).
  { induction q as [|x q IH]; auto. cbn. now rewrite IH. }
  rewrite <- (E l), <- (E m). now apply Permutation_flat_map.
Qed.

(** The elements at the positions given by [arg1] are a sorted permutation. *)
Lemma argsorts_sorted {A} (le : A -> A -> Prop) arg1 (l s : list A) :
  argsorts le arg1 -> map Some s = map (nth_error l) (arg1 l) -> Permutation l s /\ StronglySorted le s.
Proof.
  intros H E. destruct (H l) as [P S]. split.
  - apply map_Some_perm. rewrite E, <- seq_elements. now apply Permutation_map.
  - clear P. revert s E. induction S as [|i is S IH F]; intros [|x s] E; try discriminate; [constructor|].
    cbn [map] in E. injection E as E1 E2. constructor; auto. apply Forall_forall. intros y Hy.
    apply (in_map Some) in Hy. rewrite E2 in Hy. apply in_map_iff in Hy as [j [Ej Hj]].
    rewrite Forall_forall in F. apply (F j Hj); auto.
Qed.

Lemma sorted_unique {A} (le : A -> A -> Prop) (l m : list A) :
  (forall x y, le x y -> le y x -> x = y) -> StronglySorted le l -> StronglySorted le m -> Permutation l m -> l = m.
Proof.
  intros AS S. revert m. induction S as [|x l S IH F]; intros m Sm P; [symmetry; now apply Permutation_nil|].
  destruct Sm as [|y m Sm Fm]; [apply Permutation_sym, Permutation_nil_cons in P; contradiction|].
  rewrite Forall_forall in F, Fm.
  assert (x = y).
  { assert (H1 : In x (y :: m)) by (eapply Permutation_in; [exact P|now left]).
    assert (H2 : In y (x :: l)) by (eapply Permutation_in; [apply Permutation_sym, P|now left]).
    destruct H1 as [->|H1]; auto. destruct H2 as [->|H2]; auto. }
  subst y. f_equal. apply IH; auto. now apply Permutation_cons_inv in P.
Qed.

(** [sort] and the elements addressed by [argsort] are the same array. *)
Theorem sort_argsort_agree {A} (sort1 : list A -> list A) (argsort1 : list A -> list nat) (a : sarr A) (l : list string) :
  wf a -> (forall x, length (argsort1 x) = length x) -> (forall x i, In i (argsort1 x) -> i < length x) ->
  (forall x, map Some (sort1 x) = map (nth_error x) (argsort1 x)) -> sortable a l ->
  exists s d r, na_sort sort1 a (Some l) = Ok s /\ na_argsort argsort1 a (Some l) = Ok d /\
    getitem a (as_item d) = Ok r /\ wf r /\ s_axes r = s_axes s /\ same_array r s.
Proof.
  intros W H1 H2 H3 SO.
  assert (H4 : forall x, length (sort1 x) = length x).
  { intros x. rewrite <- (H1 x). rewrite <- (map_length Some (sort1 x)), H3. apply map_length. }
  destruct (proj1 (sort_spec sort1 a l W H4) SO) as (s & Es & Ws & As & Ss & Ls).
  destruct (proj1 (argsort_spec argsort1 a l W H1 H2) SO) as (d & r & Ed & _ & Er & Wr & Ar & Sr & Lr).
  exists s, d, r. repeat (split; auto). { congruence. }
  - intros H. apply Sr in H. apply Ss, H.
  - intros H. apply Ss in H. apply Sr, H.
  - intros e He.
    assert (IB : inside_but e (sshape a) l) by (intros ax n Hn Hl; apply (He ax), Sr; auto).
    assert (EL : line r (flat_name l) e = line s (flat_name l) e).
    { apply map_Some_inj. rewrite (Lr e IB), <- H3. f_equal. symmetry. apply Ls, IB. }
    assert (LT : e (flat_name l) < size_of (sshape r) (flat_name l)).
    { assert (T : In (flat_name l, total_size (sshape a) l) (sshape r)) by (apply Sr; auto).
      rewrite (size_of_In _ _ _ (wf_nodup r Wr) T). apply (He _ _ T). }
    assert (LT' : e (flat_name l) < size_of (sshape s) (flat_name l)) by (rewrite <- (line_length s (flat_name l) e), <- EL, line_length; auto).
    assert (Q1 := line_at r _ e LT). assert (Q2 := line_at s _ e LT'). rewrite EL in Q1. congruence.
Qed.

Theorem sort_sorted {A} (le : A -> A -> Prop) (sort1 : list A -> list A) (a : sarr A) (l : list string) :
  wf a -> sorts le sort1 -> sortable a l ->
  exists s, na_sort sort1 a (Some l) = Ok s /\ wf s /\
    s_axes s = filter (fun ax => negb (smem ax l)) (s_axes a) ++ [flat_name l] /\
    (forall ax n, In (ax, n) (sshape s) <->
        (In (ax, n) (sshape a) /\ ~ In ax l) \/ (ax = flat_name l /\ n = total_size (sshape a) l)) /\
    forall e, inside_but e (sshape a) l ->
      StronglySorted le (line s (flat_name l) e) /\
      Permutation (map (at_ a) (fibre (sshape a) l e)) (line s (flat_name l) e).
Proof.
  intros W H SO. destruct (proj1 (sort_spec sort1 a l W (sorts_length le sort1 H)) SO) as (s & Es & Ws & As & Ss & Ls).
  exists s. repeat (split; auto).
  - rewrite Ls by auto. apply H.
  - rewrite Ls by auto. apply H.
Qed.

Theorem argsort_sorted {A} (le : A -> A -> Prop) (argsort1 : list A -> list nat) (a : sarr A) (l : list string) :
  wf a -> argsorts le argsort1 -> sortable a l ->
  exists d s, na_argsort argsort1 a (Some l) = Ok d /\
    dkeys d = l ++ filter (fun ax => negb (smem ax l)) (s_axes a) /\
    getitem a (as_item d) = Ok s /\ wf s /\
    s_axes s = filter (fun ax => negb (smem ax l)) (s_axes a) ++ [flat_name l] /\
    (forall ax n, In (ax, n) (sshape s) <->
        (In (ax, n) (sshape a) /\ ~ In ax l) \/ (ax = flat_name l /\ n = total_size (sshape a) l)) /\
    forall e, inside_but e (sshape a) l ->
      StronglySorted le (line s (flat_name l) e) /\
      Permutation (map (at_ a) (fibre (sshape a) l e)) (line s (flat_name l) e).
Proof.
  intros W H SO.
  destruct (proj1 (argsort_spec argsort1 a l W (argsorts_length le argsort1 H) (argsorts_range le argsort1 H)) SO)
    as (d & r & Ed & Kd & Er & Wr & Ar & Sr & Lr).
  exists d, r. repeat (split; auto).
  - eapply argsorts_sorted; eauto.
  - eapply argsorts_sorted; eauto.
Qed.

Theorem sort_argsort_order {A} (le : A -> A -> Prop) sort1 argsort1 (a : sarr A) (l : list string) :
  wf a -> (forall x y, le x y -> le y x -> x = y) -> sorts le sort1 -> argsorts le argsort1 -> sortable a l ->
  exists s d r, na_sort sort1 a (Some l) = Ok s /\ na_argsort argsort1 a (Some l) = Ok d /\
    getitem a (as_item d) = Ok r /\ wf r /\ s_axes r = s_axes s /\ same_array r s.
Proof.
  intros W AS H1 H2 SO. apply sort_argsort_agree; auto.
  - now apply (argsorts_length le).
  - now apply (argsorts_range le).
  - intros x. assert (EX : exists s, map Some s = map (nth_error x) (argsort1 x)).
    { assert (R := argsorts_range le argsort1 H2 x). revert R. generalize (argsort1 x). intros q R.
      induction q as [|i q IH]; [exists []; reflexivity|]. destruct IH as [s Hs]; [intros; apply R; now right|].
      destruct (nth_error x i) eqn:E; [exists (a0 :: s); cbn; now rewrite Hs, E|]. apply nth_error_None in E.
      assert (i < length x) by (apply R; now left). lia. }
    destruct EX as [s Hs]. rewrite <- Hs. f_equal. destruct (argsorts_sorted le argsort1 x s H2 Hs) as [P S].
    destruct (H1 x) as [P1 S1]. apply (sorted_unique le); auto. transitivity x; auto. now apply Permutation_sym.
Qed.

(** ** Without axis *)

Lemma ravel_fibre {A} (a : sarr A) e : wf a -> ravel (s_nd a) = map (at_ a) (fibre (sshape a) (s_axes a) e).
Proof.
  intros W. rewrite (map_fibre (sshape a) (s_axes a) e (at_ a) (nget (s_nd a)) ltac:(apply W)).
  - change (map (size_of (sshape a)) (s_axes a)) with (map (asize a) (s_axes a)). rewrite map_asize by auto. reflexivity.
  - intros e' red Lr E. unfold at_. f_equal. transitivity (map (fun x => nth (spos x (s_axes a)) red 0) (s_axes a)).
    + apply map_ext_in. intros x Hx. rewrite E. apply smem_In in Hx. now rewrite Hx.
    + exact (map_env_of (s_axes a) red ltac:(apply W) Lr).
Qed.

Lemma sortable_all {A} (a : sarr A) : wf a -> s_axes a <> [] -> sortable a (s_axes a).
Proof.
  intros W H. split; auto. split; [apply W|]. split; [apply incl_refl|]. intros ax n Hn Hl.
  apply (in_map fst) in Hn. change (In ax (dkeys (sshape a))) in Hn. rewrite wf_keys in Hn by auto. contradiction.
Qed.

Lemma filter_self l : filter (fun ax => negb (smem ax l)) l = [].
Proof. apply filter_none. intros x Hx. apply smem_In in Hx. now rewrite Hx. Qed.

(** Sorting without axis is sorting all the axes. *)
Theorem sort_none {A} (sort1 : list A -> list A) (a : sarr A) :
  wf a -> (forall x, length (sort1 x) = length x) ->
  (s_axes a = [] -> na_sort sort1 a None = Ok a) /\
  (s_axes a <> [] -> exists r r', na_sort sort1 a None = Ok r /\ na_sort sort1 a (Some (s_axes a)) = Ok r' /\
     wf r /\ s_axes r = s_axes r' /\ same_array r r').
Proof.
  intros W Hl. split; [intros E; unfold na_sort; now rewrite E|]. intros NE.
  destruct (proj1 (sort_spec sort1 a (s_axes a) W Hl) (sortable_all a W NE)) as (r' & E' & W' & A' & S' & L').
  rewrite filter_self in A'. cbn [app] in A'.
  unfold na_sort at 1. assert (L0 : length (s_axes a) =? 0 = false) by (apply Nat.eqb_neq; destruct (s_axes a); [contradiction|discriminate]).
  rewrite L0. replace (flatten_axes (s_axes a)) with (Ok (flat_name (s_axes a))) by (destruct (s_axes a); [contradiction|reflexivity]).
  cbn [bind]. rewrite mk_sarr_intro by first [reflexivity|repeat constructor; simpl; tauto].
  eexists. exists r'. split; [reflexivity|]. split; auto.
  set (nm := flat_name (s_axes a)) in *.
  set (f := mkS (reshape [size (s_nd a)] (s_nd a)) [nm]).
  assert (Wf : wf f) by (split; [repeat constructor; simpl; tauto|reflexivity]).
  assert (Hin : In nm (s_axes f)) by (left; reflexivity).
  assert (LN := lines_named sort1 f nm Wf Hin Hl). unfold f in LN. cbn [s_axes s_nd spos] in LN. rewrite String.eqb_refl in LN. fold f in LN.
  set (r := mkS (np_lines sort1 (reshape [size (s_nd a)] (s_nd a)) 0) [nm]) in *. destruct LN as (Wr & Sr & Lr).
  assert (TS : total_size (sshape a) (s_axes a) = size (s_nd a)).
  { rewrite total_size_prod by (auto using incl_refl). rewrite map_asize by auto. reflexivity. }
  assert (SR : sshape r = [(nm, size (s_nd a))]) by reflexivity.
  split; auto. split; [now rewrite A'|]. 
  assert (SS : same_shape (sshape r) (sshape r')).
  { intros ax n. rewrite S', SR. cbn [In]. rewrite TS. split.
    - intros [H|[]]. injection H as <- <-. auto.
    - intros [[H1 H2]|[-> ->]]; auto. apply (in_map fst) in H1. change (In ax (dkeys (sshape a))) in H1. rewrite wf_keys in H1 by auto. contradiction. }
  split; auto. intros e He.
  assert (EL : line r nm e = line r' nm e).
  { rewrite Lr, L'.
    - f_equal. rewrite <- (ravel_fibre a e W). apply nth_error_ext. intros i. unfold line. rewrite nth_error_map, seq_nth_error.
      change (sshape f) with [(nm, size (s_nd a))]. unfold size_of. cbn [dget]. rewrite String.eqb_refl. cbn [plus].
      destruct (Nat.ltb_spec i (size (s_nd a))) as [Hi|Hi]; cbn [option_map].
      + unfold at_. cbn [s_axes f s_nd map]. unfold set_env. rewrite String.eqb_refl. unfold ravel. rewrite nth_error_map.
        rewrite (nth_error_nth' _ []) by (now rewrite ndindex_length). rewrite nth_ndindex' by auto. cbn [option_map]. f_equal.
        unfold reshape. cbn [nget]. f_equal. f_equal. cbn. lia.
      + symmetry. apply nth_error_None. unfold ravel. now rewrite map_length, ndindex_length.
    - intros ax n Hn Hl'. apply (in_map fst) in Hn. change (In ax (dkeys (sshape a))) in Hn. rewrite wf_keys in Hn by auto. contradiction. }
  assert (LT : e nm < size_of (sshape r) nm).
  { rewrite SR. unfold size_of. cbn [dget]. rewrite String.eqb_refl. apply (He nm). rewrite SR. now left. }
  assert (LT' : e nm < size_of (sshape r') nm) by (rewrite <- (line_length r' nm e), <- EL, line_length; auto).
  assert (Q1 := line_at r _ e LT). assert (Q2 := line_at r' _ e LT'). rewrite EL in Q1. congruence.
Qed.

Theorem argsort_none {A} (argsort1 : list A -> list nat) (a : sarr A) : wf a ->
  (s_axes a = [] -> na_argsort argsort1 a None = Ok [] /\ getitem a (as_item []) = Ok a) /\
  (s_axes a <> [] -> na_argsort argsort1 a None = na_argsort argsort1 a (Some (s_axes a))).
Proof.
  intros W. split.
  - intros E. unfold na_argsort. rewrite E. cbn [length Nat.eqb]. split; auto.
  - intros H. unfold na_argsort. destruct (s_axes a); [contradiction|]. reflexivity.
Qed.

(** ** argmin and argmax *)

Lemma first_least_range {A} (le : A -> A -> Prop) pick : first_least le pick -> forall l : list A, l <> [] -> pick l < length l.
Proof. intros H l NE. destruct (H l NE) as (x & Hx & _). apply nth_error_Some. congruence. Qed.

Lemma least_symmetric {A} (le : A -> A -> Prop) m : (forall x y, le x y -> le y x -> x = y) -> least le m -> symmetric m.
Proof.
  intros AS H l l' P. destruct l as [|x l]; [apply Permutation_nil in P; now subst|].
  assert (NE : l' <> []) by (intros ->; apply Permutation_sym, Permutation_nil_cons in P; auto).
  destruct (H (x :: l) ltac:(discriminate)) as [H1 H2]. destruct (H l' NE) as [H3 H4].
  apply AS; [apply H2; eapply Permutation_in; [apply Permutation_sym, P|auto]|apply H4; eapply Permutation_in; [apply P|auto]].
Qed.

Lemma nonempty_total {A} (a : sarr A) l : wf a -> incl l (s_axes a) -> (forall ax n, In (ax, n) (sshape a) -> n <> 0) ->
  total_size (sshape a) l <> 0.
Proof.
  intros W I H. rewrite total_size_prod by auto. induction l as [|x l IH]; [cbn; lia|]. cbn [map prod].
  assert (asize a x <> 0) by (apply (H x); apply in_sshape; auto; split; auto; apply I; now left).
  assert (prod (map (asize a) l) <> 0) by (apply IH; intros y Hy; apply I; now right). nia.
Qed.

(** what an index dictionary picks out at a labelled index *)
Theorem argmin_spec {A} (le : A -> A -> Prop) (pick : list A -> nat) (a : sarr A) (l : list string) :
  wf a -> first_least le pick -> sortable a l -> total_size (sshape a) l <> 0 ->
  exists d r, na_arg_reduce pick a (Some l) = Ok d /\ getitem a (as_item d) = Ok r /\ wf r /\
    dkeys d = l ++ filter (fun ax => negb (smem ax l)) (s_axes a) /\
    sshape r = filter (fun kv => negb (smem (fst kv) l)) (sshape a) /\
    forall e, inside e (sshape r) ->
      exists p, inside p (sshape a) /\ (forall ax, In ax (s_axes a) -> ~ In ax l -> p ax = e ax) /\
        (forall ax, In ax (s_axes a) -> exists v, dget d ax = Some v /\ wf v /\ bat v e = Z.of_nat (p ax)) /\
        at_ r e = at_ a p /\
        forall q, inside q (sshape a) -> (forall ax, In ax (s_axes a) -> ~ In ax l -> q ax = e ax) ->
          le (at_ a p) (at_ a q) /\
          (row_major (map (size_of (sshape a)) l) (map q l) < row_major (map (size_of (sshape a)) l) (map p l) ->
           ~ le (at_ a q) (at_ a p)).
Proof.
  intros W F SO NZ.
  destruct (proj1 (arg_reduce_spec pick a l W (first_least_range le pick F)) SO NZ) as (d & r & Ed & Kd & Er & Wr & Sr & El).
  exists d, r. repeat (split; auto). intros e He. destruct (El e He) as [(p & P1 & P2 & P3 & P4 & P5) Q].
  exists p. repeat (split; auto); intros.
  - set (L := map (at_ a) (fibre (sshape a) l e)) in *.
    assert (NE : L <> []) by (intros E; rewrite E in Q; destruct (pick []); discriminate).
    destruct (F L NE) as (x & X1 & X2 & X3). assert (x = at_ a p) by congruence. subst x. apply X2.
    eapply nth_error_In. apply fibre_nth; [apply SO| |auto].
    intros ax Hax. unfold size_of. assert (Ha : In ax (dkeys (sshape a))) by (rewrite wf_keys; auto; apply SO; auto).
    apply dget_Some_key in Ha as [n Hn]. rewrite Hn. apply (H ax). now apply dget_In.
  - set (L := map (at_ a) (fibre (sshape a) l e)) in *.
    assert (NE : L <> []) by (intros E; rewrite E in Q; destruct (pick []); discriminate).
    destruct (F L NE) as (x & X1 & X2 & X3). assert (x = at_ a p) by congruence. subst x.
    rewrite P3 in H1. apply (X3 _ _ H1).
    apply fibre_nth; [apply SO| |auto].
    intros ax Hax. unfold size_of. assert (Ha : In ax (dkeys (sshape a))) by (rewrite wf_keys; auto; apply SO; auto).
    apply dget_Some_key in Ha as [n Hn]. rewrite Hn. apply (H ax). now apply dget_In.
Qed.

Lemma reduce_plain {A B} (f : list A -> B) (a : sarr A) axis l : wf a ->
  match axis with Some l => l | None => s_axes a end = l ->
  NoDup l -> incl l (s_axes a) -> total_size (sshape a) l <> 0 -> symmetric f ->
  exists m, na_reduce false f a axis false None None = Ok m /\ wf m /\
    sshape m = filter (fun kv => negb (smem (fst kv) l)) (sshape a) /\
    forall e, at_ m e = f (map (at_ a) (fibre (sshape a) l e)).
Proof.
  intros W Hl N I NZ Sy.
  assert (R := reduce_spec false f a axis false None W ltac:(discriminate)). cbn zeta in R. rewrite Hl in R.
  rewrite bs_dominated in R; [|now apply wf_nodup|intros s []].
  rewrite wf_keys in R by auto. destruct R as [R _]. destruct R as (m & Em & Wm & Am & Sm & Gm).
  { split; auto. split; auto. split; [discriminate|]. auto. }
  exists m. split; auto. split; auto. split.
  - rewrite (sshape_map m Wm), Am, (sshape_map a W).
    transitivity (map (fun ax => (ax, asize a ax)) (filter (fun ax => negb (smem ax l)) (s_axes a))).
    + apply map_ext_in. intros x Hx. f_equal.
      assert (H3 : In (x, asize m x) (sshape m)) by (apply in_sshape; auto; split; auto; congruence).
      apply Sm in H3 as [_ H3]. apply filter_In in Hx as [_ Hx]. apply negb_true_iff in Hx. rewrite Hx in H3. exact H3.
    + clear. induction (s_axes a) as [|x q IH]; auto. cbn [filter map fst]. destruct (negb (smem x l)); cbn [map]; now rewrite IH.
  - intros e. assert (RS := reduce_symmetric false f a axis false None m W ltac:(discriminate) Sy Em). cbn zeta in RS. rewrite Hl in RS.
    rewrite (RS l e (Permutation_refl _)). rewrite filter_all; auto.
Qed.

Theorem argmin_min {A} (le : A -> A -> Prop) pick m (a : sarr A) (l : list string) :
  wf a -> (forall x y, le x y -> le y x -> x = y) -> first_least le pick -> least le m ->
  sortable a l -> total_size (sshape a) l <> 0 ->
  exists d r v, na_arg_reduce pick a (Some l) = Ok d /\ getitem a (as_item d) = Ok r /\
    na_reduce false m a (Some l) false None None = Ok v /\ s_axes r = s_axes v /\ same_array r v.
Proof.
  intros W AS F M SO NZ.
  destruct (proj1 (arg_reduce_spec pick a l W (first_least_range le pick F)) SO NZ) as (d & r & Ed & Kd & Er & Wr & Sr & El).
  destruct (reduce_plain m a (Some l) l W eq_refl) as (v & Ev & Wv & Sv & Gv); auto; try apply SO.
  { eapply least_symmetric; eauto. }
  exists d, r, v. repeat (split; auto).
  - rewrite <- (wf_keys r Wr), <- (wf_keys v Wv). congruence.
  - now rewrite Sr, Sv.
  - now rewrite Sr, Sv.
  - intros e He. destruct (El e He) as [_ Q]. rewrite Gv. set (L := map (at_ a) (fibre (sshape a) l e)) in *.
    assert (NE : L <> []) by (intros E; rewrite E in Q; destruct (pick []); discriminate).
    destruct (F L NE) as (x & X1 & X2 & _). destruct (M L NE) as [M1 M2]. assert (x = at_ r e) by congruence. subst x.
    apply AS; [apply X2; auto|apply M2]. eapply nth_error_In; eauto.
Qed.

Lemma arg_reduce_none {A} (pick : list A -> nat) (a : sarr A) :
  wf a -> (forall x, x <> [] -> pick x < length x) ->
  (s_axes a <> [] -> size (s_nd a) <> 0 ->
     exists d r, na_arg_reduce pick a None = Ok d /\ dkeys d = s_axes a /\
     getitem a (as_item d) = Ok r /\ wf r /\ sshape r = [] /\
     forall e, let L := map (at_ a) (fibre (sshape a) (s_axes a) e) in
       exists p, inside p (sshape a) /\
          row_major (map (size_of (sshape a)) (s_axes a)) (map p (s_axes a)) = pick L /\ at_ r e = at_ a p /\
          (forall ax, In ax (s_axes a) -> exists v, dget d ax = Some v /\ sshape v = [] /\ at_ v e = Z.of_nat (p ax)) /\
          nth_error L (pick L) = Some (at_ r e)) /\
  (s_axes a = [] \/ size (s_nd a) = 0 -> na_arg_reduce pick a None = Err ValueError).
Proof.
  intros W Hp. split.
  2: { intros [E|E]; unfold na_arg_reduce; rewrite E; auto. destruct (_ =? 0); auto. }
  intros NE NZ. unfold na_arg_reduce.
  assert (E1 : length (s_axes a) =? 0 = false) by (apply Nat.eqb_neq; destruct (s_axes a); [contradiction|discriminate]).
  assert (E2 := proj2 (Nat.eqb_neq _ _) NZ). rewrite E1, E2.
  set (ind := mkS (scalar (Z.of_nat (pick (ravel (s_nd a))))) []).
  assert (Wi : wf ind) by (split; [constructor|reflexivity]).
  assert (KS : subshape (sshape a) (s_axes a) = sshape a).
  { rewrite subshape_keys by (auto using incl_refl). symmetry. now apply sshape_map. }
  assert (TS : total_size (sshape a) (dkeys (sshape a)) = size (s_nd a)).
  { rewrite wf_keys by auto. rewrite total_size_prod by (auto using incl_refl). rewrite map_asize by auto. reflexivity. }
  assert (LR : length (ravel (s_nd a)) = size (s_nd a)) by (unfold ravel; rewrite map_length; apply ndindex_length).
  assert (PL : pick (ravel (s_nd a)) < size (s_nd a)).
  { rewrite <- LR. apply Hp. intros E. rewrite E in LR. cbn in LR. congruence. }
  destruct (proj2 (unravel_index_success ind (sshape a) Wi (wf_nodup a W))) as [d Hd].
  { split; [reflexivity|]. intros e _. rewrite TS. unfold at_, ind. cbn [s_nd s_axes nget scalar]. lia. }
  rewrite Hd.
  destruct (unravel_index_spec ind (sshape a) d Wi (wf_nodup a W) Hd) as (_ & Sd & _).
  assert (Hd' := Hd). rewrite <- KS in Hd'.
  destruct (index_dict a (s_axes a) ind d W ltac:(apply W) (incl_refl _) NE Wi Hd') as (Kd & r & Hg & Wr & Sr & El).
  { intros ax n Hn Hl. apply (in_map fst) in Hn. change (In ax (dkeys (sshape a))) in Hn. rewrite wf_keys in Hn by auto. contradiction. }
  assert (AR : add_ranges (sshape a) (s_axes a) d = d).
  { rewrite add_ranges_eq; [|now apply wf_nodup|intros; congruence]. rewrite filter_none; [apply app_nil_r|].
    intros [k n] Hk. cbn [fst]. rewrite negb_false_iff. apply smem_In. apply (in_map fst) in Hk. rewrite <- (wf_keys a W). exact Hk. }
  rewrite AR in *. exists d, r. repeat (split; auto).
  intros e. set (L := map (at_ a) (fibre (sshape a) (s_axes a) e)).
  destruct (El e) as (p & P1 & P2 & P3 & P4 & P5); [intros ax n []|].
  assert (EL : ravel (s_nd a) = L) by (now apply ravel_fibre).
  assert (P3' : row_major (map (size_of (sshape a)) (s_axes a)) (map p (s_axes a)) = pick L).
  { apply Nat2Z.inj. rewrite P3, <- EL. reflexivity. }
  exists p. repeat (split; auto).
  - intros ax Hax. destruct (P5 ax Hax) as (v & V1 & V2 & V3). exists v. destruct (Sd ax v V1) as [_ V4]. split; auto.
    split; auto. rewrite <- V3. symmetry. apply bat_inside; auto. rewrite V4. intros k n [].
  - rewrite P4, <- P3'. apply fibre_nth; [apply W| |intros; contradiction].
    intros ax Hax. unfold size_of. assert (Ha : In ax (dkeys (sshape a))) by (rewrite wf_keys; auto).
    apply dget_Some_key in Ha as [n Hn]. rewrite Hn. apply (P1 ax). now apply dget_In.
Qed.

Theorem argmin_none {A} (le : A -> A -> Prop) pick m (a : sarr A) :
  wf a -> (forall x y, le x y -> le y x -> x = y) -> first_least le pick -> least le m ->
  s_axes a <> [] -> (forall ax n, In (ax, n) (sshape a) -> n <> 0) ->
  exists d r v, na_arg_reduce pick a None = Ok d /\ dkeys d = s_axes a /\ getitem a (as_item d) = Ok r /\
    na_reduce false m a None false None None = Ok v /\ sshape r = [] /\ same_array r v /\
    forall e, exists p, inside p (sshape a) /\ at_ r e = at_ a p /\
      (forall ax, In ax (s_axes a) -> exists v, dget d ax = Some v /\ sshape v = [] /\ at_ v e = Z.of_nat (p ax)) /\
      forall q, inside q (sshape a) -> le (at_ a p) (at_ a q) /\
        (row_major (map (size_of (sshape a)) (s_axes a)) (map q (s_axes a)) <
         row_major (map (size_of (sshape a)) (s_axes a)) (map p (s_axes a)) -> ~ le (at_ a q) (at_ a p)).
Proof.
  intros W AS F M NE NZ.
  assert (NT := nonempty_total a (s_axes a) W (incl_refl _) NZ).
  assert (NS : size (s_nd a) <> 0).
  { rewrite total_size_prod, map_asize in NT by (auto using incl_refl). exact NT. }
  destruct (proj1 (arg_reduce_none pick a W (first_least_range le pick F)) NE NS) as (d & r & Ed & Kd & Er & Wr & Sr & El).
  destruct (reduce_plain m a None (s_axes a) W eq_refl) as (v & Ev & Wv & Sv & Gv); auto using incl_refl; try apply W.
  { eapply least_symmetric; eauto. }
  assert (Sv' : sshape v = []).
  { rewrite Sv. apply filter_none. intros [k n] Hk. cbn [fst]. rewrite negb_false_iff. apply smem_In.
    apply (in_map fst) in Hk. rewrite <- (wf_keys a W). exact Hk. }
  exists d, r, v. repeat (split; auto).
  - now rewrite Sr, Sv'.
  - now rewrite Sr, Sv'.
  - intros e He. destruct (El e) as (p & _ & _ & _ & _ & Q). rewrite Gv. set (L := map (at_ a) (fibre (sshape a) (s_axes a) e)) in *.
    assert (NL : L <> []) by (intros E; rewrite E in Q; destruct (pick []); discriminate).
    destruct (F L NL) as (x & X1 & X2 & _). destruct (M L NL) as [M1 M2]. assert (x = at_ r e) by congruence. subst x.
    apply AS; [apply X2; auto|apply M2]. eapply nth_error_In; eauto.
  - intros e. destruct (El e) as (p & P1 & P2 & P3 & P4 & Q). exists p. repeat (split; auto); intros;
    set (L := map (at_ a) (fibre (sshape a) (s_axes a) e)) in *;
    (assert (NL : L <> []) by (intros E; rewrite E in Q; destruct (pick []); discriminate));
    destruct (F L NL) as (x & X1 & X2 & X3);
    (assert (x = at_ a p) by congruence); subst x;
    (assert (HQ : nth_error L (row_major (map (size_of (sshape a)) (s_axes a)) (map q (s_axes a))) = Some (at_ a q))
      by (apply fibre_nth; [apply W| |intros; contradiction];
          intros ax Hax; unfold size_of;
          (assert (Ha : In ax (dkeys (sshape a))) by (rewrite wf_keys; auto));
          apply dget_Some_key in Ha as [n Hn]; rewrite Hn; apply (H ax); now apply dget_In)).
    + apply X2. eapply nth_error_In; eauto.
    + rewrite P2 in H0. apply (X3 _ _ H0 HQ).
Qed.

(** ** partition *)

Theorem partition_spec {A} (part1 : list A -> list A) (kth : list Z) (a : sarr A) (axis : string) :
  wf a -> (forall x, length (part1 x) = length x) ->
  let ok := In axis (s_axes a) /\ Forall (in_range (size_of (sshape a) axis)) kth in
  (ok -> exists r, na_partition part1 kth a axis = Ok r /\ wf r /\ sshape r = sshape a /\
     forall e, line r axis e = part1 (line a axis e)) /\
  (~ ok -> na_partition part1 kth a axis = Err ValueError).
Proof.
  intros W Hl ok. unfold na_partition.
  destruct (smem axis (s_axes a)) eqn:E; cbn [negb].
  2: { apply smem_false in E. split; [intros [H _]; contradiction|auto]. }
  apply smem_In in E. unfold index_of. rewrite (sindex_In _ _ E). cbn [bind]. rewrite nth_shape by auto.
  destruct (forallb (zvalid (size_of (sshape a) axis)) kth) eqn:F; cbn [negb].
  - split.
    + intros _. destruct (lines_named part1 a axis W E Hl) as (Wr & Sr & Lr).
      rewrite mk_sarr_intro by (apply Wr). eexists. split; [reflexivity|]. auto.
    + intros H. exfalso. apply H. split; auto. apply Forall_forall. intros k Hk. rewrite forallb_forall in F. apply F in Hk.
      now apply zvalid_in_range.
  - split; auto. intros [_ H]. exfalso. assert (T : forallb (zvalid (size_of (sshape a) axis)) kth = true); [|congruence].
    apply forallb_forall. intros k Hk. rewrite Forall_forall in H. now apply zvalid_in_range, H.
Qed.

Theorem partition_partitions {A} (le : A -> A -> Prop) (part1 : list A -> list A) (k : nat) (a : sarr A) (axis : string) :
  wf a -> In axis (s_axes a) -> k < size_of (sshape a) axis ->
  (forall x, Permutation x (part1 x) /\
     forall i y z, nth_error (part1 x) i = Some y -> nth_error (part1 x) k = Some z ->
       (i < k -> le y z) /\ (k < i -> le z y)) ->
  exists r, na_partition part1 [Z.of_nat k] a axis = Ok r /\ wf r /\ sshape r = sshape a /\
    forall e, inside e (sshape a) ->
      Permutation (line a axis e) (line r axis e) /\
      (e axis < k -> le (at_ r e) (at_ r (set_env e axis k))) /\
      (k < e axis -> le (at_ r (set_env e axis k)) (at_ r e)).
Proof.
  intros W Hin Hk HP.
  destruct (proj1 (partition_spec part1 [Z.of_nat k] a axis W (fun x => eq_sym (Permutation_length (proj1 (HP x)))))) as (r & Er & Wr & Sr & Lr).
  { split; auto. constructor; auto. unfold in_range. lia. }
  exists r. repeat (split; auto). 
  - rewrite Lr. apply HP.
  - assert (Q1 : nth_error (line r axis e) (e axis) = Some (at_ r e)).
    { apply line_at. rewrite Sr. assert (Ha : In axis (dkeys (sshape a))) by (rewrite wf_keys; auto).
      apply dget_Some_key in Ha as [n Hn]. unfold size_of. rewrite Hn. apply (H axis). now apply dget_In. }
    assert (Q2 : nth_error (line r axis e) k = Some (at_ r (set_env e axis k))).
    { unfold line. rewrite nth_error_map, seq_nth_error, Sr. apply Nat.ltb_lt in Hk. rewrite Hk. reflexivity. }
    rewrite Lr in Q1, Q2. destruct (proj2 (HP _) _ _ _ Q1 Q2). auto.
  - assert (Q1 : nth_error (line r axis e) (e axis) = Some (at_ r e)).
    { apply line_at. rewrite Sr. assert (Ha : In axis (dkeys (sshape a))) by (rewrite wf_keys; auto).
      apply dget_Some_key in Ha as [n Hn]. unfold size_of. rewrite Hn. apply (H axis). now apply dget_In. }
    assert (Q2 : nth_error (line r axis e) k = Some (at_ r (set_env e axis k))).
    { unfold line. rewrite nth_error_map, seq_nth_error, Sr. apply Nat.ltb_lt in Hk. rewrite Hk. reflexivity. }
    rewrite Lr in Q1, Q2. destruct (proj2 (HP _) _ _ _ Q1 Q2). auto.
Qed.

(** ** Instances for the examples *)

Fixpoint insert {A} (leb : A -> A -> bool) (x : A) (l : list A) : list A :=
  match l with
  | [] => [x]
  | y :: l' => if leb x y then x :: l else y :: insert leb x l'
  end.

Definition isort {A} (leb : A -> A -> bool) (l : list A) : list A := fold_right (insert leb) [] l.

Lemma insert_perm {A} (leb : A -> A -> bool) x l : Permutation (x :: l) (insert leb x l).
Proof.
  induction l as [|y l IH]; auto. cbn. destruct (leb x y); auto.
  transitivity (y :: x :: l); [apply perm_swap|now constructor].
Qed.

Lemma isort_sorts {A} (leb : A -> A -> bool) :
  (forall x y, leb x y = true \/ leb y x = true) -> (forall x y z, leb x y = true -> leb y z = true -> leb x z = true) ->
  sorts (fun x y => leb x y = true) (isort leb).
Proof.
  intros T R l. induction l as [|x l [P S]]; [split; constructor|]. cbn. split.
  - transitivity (x :: isort leb l); [now constructor|apply insert_perm].
  - clear P. unfold isort in S. induction S as [|y m S IH F]; cbn; [repeat constructor|].
    destruct (leb x y) eqn:E.
    + constructor; [constructor; auto|]. constructor; auto. rewrite Forall_forall in *. intros z Hz. eauto.
    + constructor; auto. rewrite Forall_forall in *. intros z Hz.
      apply (Permutation_in _ (Permutation_sym (insert_perm leb x m))) in Hz. destruct Hz as [<-|Hz]; auto.
      destruct (T x y); congruence.
Qed.

Definition sort_nat : list nat -> list nat := isort Nat.leb.

Definition argsort_nat (l : list nat) : list nat := isort (fun i j => nth i l 0 <=? nth j l 0) (seq 0 (length l)).

Lemma sort_nat_sorts : sorts le sort_nat.
Proof.
  intros l. destruct (isort_sorts Nat.leb) with (l := l) as [P S].
  - intros x y. rewrite !Nat.leb_le. lia.
  - intros x y z. rewrite !Nat.leb_le. lia.
  - split; auto. clear P. unfold sort_nat. induction S as [|x m S IH F]; constructor; auto.
    eapply Forall_impl; [|exact F]. intros y H. now apply Nat.leb_le.
Qed.

Lemma argsort_nat_argsorts : argsorts le argsort_nat.
Proof.
  intros l. destruct (isort_sorts (fun i j => nth i l 0 <=? nth j l 0)) with (l := seq 0 (length l)) as [P S].
  - intros x y. rewrite !Nat.leb_le. lia.
  - intros x y z. rewrite !Nat.leb_le. lia.
  - split; auto. clear P. unfold argsort_nat. induction S as [|i m S IH F]; constructor; auto.
    eapply Forall_impl; [|exact F]. intros j H x y Hx Hy. apply Nat.leb_le in H.
    apply (nth_error_nth _ _ 0) in Hx, Hy. congruence.
Qed.

Fixpoint argmin_nat (l : list nat) : nat :=
  match l with
  | [] => 0
  | x :: l' => if forallb (fun y => x <=? y) l' then 0 else S (argmin_nat l')
  end.

Definition min_nat (l : list nat) : nat := match l with [] => 0 | x :: l' => fold_right Nat.min x l' end.

Lemma argmin_nat_first : first_least le argmin_nat.
Proof.
  intros l. induction l as [|x l IH]; [contradiction|]. intros _. cbn [argmin_nat].
  destruct (forallb (fun y => x <=? y) l) eqn:E.
  - exists x. split; auto. rewrite forallb_forall in E. split; [|intros; lia].
    intros y [<-|Hy]; auto. apply Nat.leb_le. auto.
  - destruct l as [|z l]; [discriminate|]. destruct IH as (m & H1 & H2 & H3); [discriminate|].
    exists m. split; auto. assert (Hlt : m < x).
    { destruct (Nat.lt_ge_cases m x) as [|G]; auto. exfalso.
      assert (forallb (fun y => x <=? y) (z :: l) = true); [|congruence]. apply forallb_forall. intros y Hy. apply Nat.leb_le.
      specialize (H2 y Hy). lia. }
    split.
    + intros y [<-|Hy]; [lia|auto].
    + intros [|j] y Hj Hy; cbn in Hy.
      * injection Hy as <-. lia.
      * apply (H3 j); auto. lia.
Qed.

Lemma min_nat_least : least le min_nat.
Proof.
  intros [|x l] NE; [contradiction|]. cbn [min_nat]. clear NE. induction l as [|y l [H1 H2]].
  - cbn. split; auto. intros y [<-|[]]. auto.
  - cbn [fold_right]. split.
    + destruct (Nat.min_spec y (fold_right Nat.min x l)) as [[_ ->]|[_ ->]]; [right; now left|]. destruct H1; [left; auto|right; right; auto].
    + assert (H3 := H2 x (or_introl eq_refl)). intros z [<-|[<-|Hz]]; [lia|lia|]. assert (H4 := H2 z (or_intror Hz)). lia.
Qed.

Lemma sorted_nth {A} (le : A -> A -> Prop) l : StronglySorted le l ->
  forall i j y z, nth_error l i = Some y -> nth_error l j = Some z -> i < j -> le y z.
Proof.
  intros S. induction S as [|x l S IH F]; intros i j y z Hi Hj L; [destruct i; discriminate|].
  destruct j as [|j]; [lia|]. cbn in Hj. destruct i as [|i]; cbn in Hi.
  - injection Hi as ->. rewrite Forall_forall in F. apply F. eapply nth_error_In; eauto.
  - apply (IH i j); auto. lia.
Qed.

Lemma sort_nat_partitions k : forall x, Permutation x (sort_nat x) /\
     forall i y z, nth_error (sort_nat x) i = Some y -> nth_error (sort_nat x) k = Some z ->
       (i < k -> y <= z) /\ (k < i -> z <= y).
Proof.
  intros x. destruct (sort_nat_sorts x) as [P S]. split; auto. intros i y z Hi Hk.
  split; intros L; eapply (sorted_nth le); eauto.
Qed.
