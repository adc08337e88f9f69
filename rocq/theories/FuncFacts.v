(** Facts about function arrays. *)
From Coq Require Import String List Arith ZArith Bool Lia.
From Verif Require Import Base BaseFacts Numpy NumpyFacts Shapes Scalar Func Spec SpecFunc ShapesFacts AlignFacts GetitemFacts ReorderFacts AlongFacts VectorIndexFacts OptimizeFacts RankFacts RankdataFacts PdfFacts.
Import ListNotations.
Open Scope nat_scope.
Open Scope list_scope.

(** ** Dictionaries built piece by piece *)

Definition opt_entry (g : string * item -> option item) (kv : string * item) : dict item :=
  match g kv with Some i => [(fst kv, i)] | None => [] end.

Lemma pieces_keys g it k : In k (dkeys (concat (map (opt_entry g) it))) -> In k (dkeys it).
Proof.
  induction it as [|[k' i] it IH]; simpl; auto. unfold dkeys in *. rewrite map_app, in_app_iff.
  intros [H|H]; auto. unfold opt_entry in H. destruct (g (k', i)); simpl in H; [destruct H as [H|[]]; auto|destruct H].
Qed.

Lemma pieces_nodup g it : NoDup (dkeys it) -> NoDup (dkeys (concat (map (opt_entry g) it))).
Proof.
  induction it as [|[k i] it IH]; simpl; intros N; [constructor|]. inversion N as [|? ? H N']; subst.
  unfold dkeys. rewrite map_app. apply NoDup_app_intro; [|now apply IH|].
  - unfold opt_entry. destruct (g (k, i)); simpl; repeat constructor. intros [].
  - intros x Hx. unfold opt_entry in Hx. destruct (g (k, i)); simpl in Hx; [destruct Hx as [<- |[]]|destruct Hx].
    intros H'. apply H. now apply (pieces_keys g).
Qed.

Lemma pieces_dget g it k : NoDup (dkeys it) ->
  dget (concat (map (opt_entry g) it)) k = match dget it k with Some i => g (k, i) | None => None end.
Proof.
  induction it as [|[k' i] it IH]; simpl; intros N; auto. inversion N as [|? ? H N']; subst.
  unfold opt_entry at 1. destruct (String.eqb_spec k k') as [-> |D].
  - destruct (g (k', i)) eqn:E; cbn [fst app dget]; [now rewrite String.eqb_refl|].
    apply dget_None. intros H'. apply H. now apply (pieces_keys g).
  - destruct (g (k', i)); cbn [fst app dget]; [rewrite (proj2 (String.eqb_neq k k')) by auto|]; now apply IH.
Qed.

Lemma filter_nodup {V} (P : string -> bool) (d : dict V) : NoDup (dkeys d) -> NoDup (dkeys (filter (fun kv => P (fst kv)) d)).
Proof.
  induction d as [|[k v] d IH]; simpl; intros N; [constructor|]. inversion N as [|? ? H N']; subst.
  destruct (P k); cbn; auto. constructor; auto. intros C. apply H. unfold dkeys in C.
  apply in_map_iff in C as (kv & <- & C). apply filter_In in C as [C _]. now apply in_map.
Qed.

(** ** Bin centers and vertices *)

Section Func.
Context {A B : Type} (f : farr A B).
Hypothesis (Wi : wf (f_inputs f)) (Wo : wf (f_outputs f)).
Let si := sshape (f_inputs f).
Let so := sshape (f_outputs f).

Lemma si_get ax n : In (ax, n) si <-> dget si ax = Some n.
Proof. split; [apply dget_NoDup; now apply wf_nodup|apply dget_In]. Qed.

Lemma so_get ax n : In (ax, n) so <-> dget so ax = Some n.
Proof. split; [apply dget_NoDup; now apply wf_nodup|apply dget_In]. Qed.

Lemma f_axes_in ax : In ax (f_axes f) <-> In ax (dkeys si) \/ In ax (dkeys so).
Proof. unfold f_axes. apply (dunion_spec si so); now apply wf_nodup. Qed.

Lemma bins_get ax n : bins f ax n <-> dget so ax = Some n /\ dget si ax = Some (S n).
Proof. unfold bins. now rewrite <- si_get, <- so_get. Qed.

Lemma bins_fun ax n m : bins f ax n -> bins f ax m -> n = m.
Proof. rewrite !bins_get. intros [H _] [H' _]. congruence. Qed.

Lemma bins_axis ax n : bins f ax n -> In ax (f_axes f).
Proof. intros [H _]. apply f_axes_in. right. now apply (in_map fst) in H. Qed.

Definition bin_axis (ax : string) : bool :=
  match dget so ax, dget si ax with Some n, Some m => m =? S n | _, _ => false end.

Lemma bin_axis_spec ax : bin_axis ax = true <-> exists n, bins f ax n.
Proof.
  unfold bin_axis. split.
  - destruct (dget so ax) as [n|] eqn:E1; [|discriminate]. destruct (dget si ax) as [m|] eqn:E2; [|discriminate].
    intros E. apply Nat.eqb_eq in E. exists n. apply bins_get. subst m. auto.
  - intros [n H]. apply bins_get in H as [-> ->]. apply Nat.eqb_refl.
Qed.

Lemma bin_axis_false ax : bin_axis ax = false -> forall n, ~ bins f ax n.
Proof. intros H n Hn. assert (bin_axis ax = true) by (apply bin_axis_spec; eauto). congruence. Qed.

Hypothesis M : matched f.

Lemma center_ok : axes_center f = Ok (filter (fun ax => negb (bin_axis ax)) (f_axes f)).
Proof.
  unfold axes_center. fold si so.
  rewrite (mapM_map _ (fun ax => if bin_axis ax then [] else [ax])).
  - cbn [bind]. f_equal. induction (f_axes f) as [|x l IH]; simpl; auto. rewrite IH. now destruct (bin_axis x).
  - intros ax Hax. unfold axis_center, bin_axis.
    destruct (dget si ax) as [n|] eqn:E1; destruct (dget so ax) as [m|] eqn:E2; auto.
    destruct (M ax m n) as [-> | ->]; [now apply so_get|now apply si_get| |].
    + rewrite Nat.eqb_refl. destruct (Nat.eqb_spec m (S m)); [lia|reflexivity].
    + destruct (Nat.eqb_spec (S m) m); [lia|]. rewrite Nat.add_1_r, Nat.eqb_refl. reflexivity.
Qed.

Lemma vertex_ok : axes_vertex f = Ok (filter bin_axis (f_axes f)).
Proof.
  unfold axes_vertex. rewrite center_ok. cbn [bind]. f_equal. apply filter_ext_in. intros ax Hax.
  destruct (bin_axis ax) eqn:E.
  - apply negb_true_iff, smem_false. intros H. apply filter_In in H as [_ H]. rewrite E in H. discriminate.
  - apply negb_false_iff, smem_In, filter_In. rewrite E. auto.
Qed.

(** the items for the two parts *)
Definition input_item (kv : string * item) : option item :=
  let (ax, i) := kv in
  if bin_axis ax then match vertex_item i with Ok q => Some (fst q) | Err _ => None end
  else if dmem si ax then Some i else None.

Definition output_item (kv : string * item) : option item :=
  let (ax, i) := kv in
  if bin_axis ax then match vertex_item i with Ok q => Some (snd q) | Err _ => None end
  else if dmem so ax then Some i else None.

Lemma f_item_ok ax i : In ax (f_axes f) -> (bin_axis ax = true -> is_ok (vertex_item i) = true) ->
  f_item f (ax, i) = Ok (opt_entry input_item (ax, i), opt_entry output_item (ax, i)).
Proof.
  intros Hax V. unfold f_item. rewrite center_ok, vertex_ok. cbn [bind]. fold si so.
  unfold opt_entry, input_item, output_item. cbn [fst].
  destruct (bin_axis ax) eqn:E.
  - assert (H : smem ax (filter bin_axis (f_axes f)) = true) by (apply smem_In, filter_In; auto). rewrite H.
    specialize (V eq_refl). destruct (vertex_item i); [reflexivity|discriminate].
  - assert (H : smem ax (filter bin_axis (f_axes f)) = false).
    { apply smem_false. rewrite filter_In. intros [_ H]. congruence. }
    assert (H' : smem ax (filter (fun ax => negb (bin_axis ax)) (f_axes f)) = true).
    { apply smem_In, filter_In. rewrite E. auto. }
    rewrite H, H'. cbn [andb]. destruct (dmem si ax), (dmem so ax); reflexivity.
Qed.

Lemma f_parts it : (forall ax i, In (ax, i) it -> bin_axis ax = true -> is_ok (vertex_item i) = true) ->
  let it' := filter (fun kv => smem (fst kv) (f_axes f)) it in
  f_getitem f it = (inputs <- getitem (f_inputs f) (concat (map (opt_entry input_item) it')) ;;
                    outputs <- getitem (f_outputs f) (concat (map (opt_entry output_item) it')) ;;
                    Ok (mkF inputs outputs)).
Proof.
  intros V it'. unfold f_getitem. fold it'.
  rewrite (mapM_map _ (fun kv => (opt_entry input_item kv, opt_entry output_item kv))).
  - cbn [bind]. rewrite !map_map. cbn [fst snd]. reflexivity.
  - intros [ax i] H. apply filter_In in H as [H H']. cbn [fst] in H'. apply smem_In in H'.
    apply f_item_ok; auto. intros E. eapply V; eauto.
Qed.
End Func.

(** ** Slices of bins and of their vertices *)

Lemma slice_pair (n : nat) (s t : pyslice) : from_start n (ItSlice s) ->
  (sl_start t = sl_start s) -> (sl_stop t = option_map (fun k => k + 1)%Z (sl_stop s)) -> slice_step t = 1%Z ->
  (forall j p d, d <= 1 -> slice_selects s n j p -> slice_selects t (S n) (j + d) (p + d)) /\
  (forall j p, slice_selects t (S n) (S j) p -> exists p', slice_selects s n j p').
Proof.
  intros (ST & P1 & P2) E1 E2 E3.
  assert (E4 : slice_step s = 1%Z) by (unfold slice_step; destruct ST as [-> | ->]; reflexivity).
  assert (F1 : forall N, slice_first s N = match sl_start s with None => 0 | Some v => Z.min v N end%Z).
  { intros N. unfold slice_first. rewrite E4. cbn. destruct (sl_start s) as [v|]; auto.
    specialize (P1 v eq_refl). now destruct (Z.ltb_spec v 0); [lia|]. }
  assert (F2 : forall N, slice_first t N = match sl_start s with None => 0 | Some v => Z.min v N end%Z).
  { intros N. unfold slice_first. rewrite E3, E1. cbn. destruct (sl_start s) as [v|]; auto.
    specialize (P1 v eq_refl). now destruct (Z.ltb_spec v 0); [lia|]. }
  assert (G1 : forall N, slice_end s N = match sl_stop s with None => N | Some v => Z.min v N end%Z).
  { intros N. unfold slice_end. rewrite E4. cbn. destruct (sl_stop s) as [v|]; auto.
    specialize (P2 v eq_refl). now destruct (Z.ltb_spec v 0); [lia|]. }
  assert (G2 : forall N, slice_end t N = match sl_stop s with None => N | Some v => Z.min (v + 1) N end%Z).
  { intros N. unfold slice_end. rewrite E3, E2. cbn. destruct (sl_stop s) as [v|]; auto. cbn [option_map].
    specialize (P2 v eq_refl). now destruct (Z.ltb_spec (v + 1) 0); [lia|]. }
  unfold slice_selects. rewrite E3, E4. cbn [Z.ltb Z.compare]. split.
  - intros j p d Hd. rewrite F1, F2, G1, G2. destruct (sl_start s) as [a|], (sl_stop s) as [b|]; lia.
  - intros j p. rewrite F2, G2, F1, G1.
    destruct (sl_start s) as [a|] eqn:Ea, (sl_stop s) as [b|] eqn:Eb;
      try specialize (P1 _ eq_refl); try specialize (P2 _ eq_refl); intros H; exists (p - 1); lia.
Qed.

Lemma vertex_norm (n : nat) (i : item) : from_start n i ->
  exists s t, vertex_item i = Ok (ItSlice t, ItSlice s) /\ sl_step s <> Some 0%Z /\ sl_step t <> Some 0%Z /\
    (forall j p d, d <= 1 -> slice_selects s n j p -> slice_selects t (S n) (j + d) (p + d)) /\
    (forall j p, slice_selects t (S n) (S j) p -> exists p', slice_selects s n j p') /\
    match i with
    | ItInt z | ItNpInt z => forall j p, slice_selects s n j p <-> j = 0 /\ index_is n z p
    | ItSlice s' => s = s'
    | _ => False
    end.
Proof.
  assert (INT : forall z, (0 <= z < Z.of_nat n)%Z -> let s := mkSlice (Some z) (Some (z + 1)%Z) None in
    let t := mkSlice (Some z) (Some (z + 2)%Z) None in
    sl_step s <> Some 0%Z /\ sl_step t <> Some 0%Z /\
    (forall j p d, d <= 1 -> slice_selects s n j p -> slice_selects t (S n) (j + d) (p + d)) /\
    (forall j p, slice_selects t (S n) (S j) p -> exists p', slice_selects s n j p') /\
    forall j p, slice_selects s n j p <-> j = 0 /\ index_is n z p).
  { intros z R s t. split; [discriminate|]. split; [discriminate|].
    destruct (slice_pair n s t) as [H1 H2].
    - split; [now left|]. split; cbn; intros k [= <-]; lia.
    - reflexivity.
    - cbn. f_equal. lia.
    - reflexivity.
    - split; [exact H1|]. split; [exact H2|]. intros j p. unfold slice_selects, slice_first, slice_end, slice_step, index_is.
      cbn [s sl_start sl_stop sl_step]. cbn [Z.ltb Z.compare].
      change (0 <? 1)%Z with true. cbv iota.
      destruct (Z.ltb_spec z 0); [lia|]. destruct (Z.ltb_spec (z + 1) 0); [lia|]. lia. }
  destruct i as [| z | z | s | v]; cbn [from_start]; try contradiction; intros H.
  - eexists. eexists. split; [reflexivity|]. now apply INT.
  - eexists. eexists. split; [reflexivity|]. now apply INT.
  - pose proof H as (ST & P1 & P2). exists s. cbn [vertex_item]. destruct s as [a b c]. cbn [sl_start sl_stop sl_step] in *.
    assert (NZ : c <> Some 0%Z) by (destruct ST as [-> | ->]; discriminate).
    destruct a as [a|], b as [b|].
    + eexists. split; [reflexivity|]. split; [exact NZ|]. split; [discriminate|].
      destruct (slice_pair n (mkSlice (Some a) (Some b) c) (mkSlice (Some a) (Some (b + 1)%Z) None) H) as [H1 H2]; auto.
    + eexists. split; [reflexivity|]. split; [exact NZ|]. split; [discriminate|].
      destruct (slice_pair n (mkSlice (Some a) None c) (mkSlice (Some a) None None) H) as [H1 H2]; auto.
    + eexists. split; [reflexivity|]. split; [exact NZ|]. split; [discriminate|].
      destruct (slice_pair n (mkSlice None (Some b) c) (mkSlice None (Some (b + 1)%Z) None) H) as [H1 H2]; auto.
    + eexists. split; [reflexivity|]. split; [exact NZ|]. split; [exact NZ|].
      destruct (slice_pair n (mkSlice None None c) (mkSlice None None c) H) as [H1 H2]; auto.
      unfold slice_step. cbn [sl_step]. destruct ST as [-> | ->]; reflexivity.
Qed.

Lemma selects_fun n i e ax p p' : selects n i e ax p -> selects n i e ax p' -> p = p'.
Proof.
  destruct i as [[| z | z | s | v]|]; cbn [selects]; unfold index_is, slice_selects; intros H H'; try lia; try congruence.
Qed.

(** ** Indexing *)

Lemma basic_getitem {A} (a : sarr A) (it : dict item) : wf a -> NoDup (dkeys it) ->
  (forall ax v, dget it ax <> Some (ItArr v)) ->
  (forall ax n, In (ax, n) (sshape a) -> item_ok n (dget it ax)) ->
  exists r, getitem a it = Ok r /\ wf r /\
    (forall ax n, In (ax, n) (sshape a) -> keeps_axis (dget it ax) = true -> exists m, In (ax, m) (sshape r) /\
       match dget it ax with Some (ItSlice s) => forall i, i < m <-> exists p, slice_selects s n i p | _ => m = n end) /\
    (forall ax m, In (ax, m) (sshape r) -> exists n, In (ax, n) (sshape a) /\ keeps_axis (dget it ax) = true) /\
    forall e, inside e (sshape r) -> exists e', inside e' (sshape a) /\ at_ r e = at_ a e' /\
      forall ax n, In (ax, n) (sshape a) -> selects n (dget it ax) e ax (e' ax).
Proof.
  intros W N NA OKi.
  assert (NA' : forall kv, In kv it -> match snd kv with ItArr _ => False | _ => True end).
  { intros [k i] H. cbn [snd]. destruct i; auto. apply (NA k v). now apply dget_NoDup. }
  assert (IW : Forall (fun kv => item_wf (snd kv)) it).
  { apply Forall_forall. intros kv H. specialize (NA' kv H). destruct (snd kv); simpl; auto. contradiction. }
  assert (IS : index_shapes (s_axes a) it = []).
  { unfold index_shapes. clear - NA'. induction it as [|kv it IH]; simpl; auto. rewrite IH by (intros; apply NA'; now right).
    specialize (NA' kv (or_introl eq_refl)). destruct (snd kv); auto. contradiction. }
  assert (EX : exists r, getitem a it = Ok r).
  { apply (getitem_success a it W N IW). rewrite IS. exists []. split; [reflexivity|]. split; auto. intros ax []. }
  destruct EX as [r E]. exists r. split; auto.
  destruct (getitem_full a it r W N IW E) as (Wr & V & sa & Esa & AX & _ & SZ).
  rewrite IS in Esa. injection Esa as <-. cbn [dkeys map app] in AX.
  split; auto. split; [|split].
  - intros ax n Hn Hk. assert (Hr : In ax (dkeys (sshape r))).
    { rewrite wf_keys, AX by auto. apply filter_In. split; auto. rewrite <- wf_keys by auto. now apply (in_map fst) in Hn. }
    apply key_size in Hr as [m Hm]. exists m. split; auto. exact (SZ ax n m Hn Hk Hm).
  - intros ax m Hm. apply (in_map fst) in Hm. cbn [fst] in Hm. change (map fst (sshape r)) with (dkeys (sshape r)) in Hm.
    rewrite wf_keys, AX in Hm by auto. apply filter_In in Hm as [H1 H2]. rewrite <- wf_keys in H1 by auto.
    apply key_size in H1 as [n Hn]. eauto.
  - intros e I. destruct (V e I) as (e' & I' & EV & S'). eauto.
Qed.

Theorem f_getitem_spec {A B} (f : farr A B) (it : dict item) :
  wf (f_inputs f) -> wf (f_outputs f) -> matched f -> NoDup (dkeys it) ->
  (forall ax v, ~ In (ax, ItArr v) it) ->
  (forall ax n i, bins f ax n -> dget it ax = Some i -> from_start n i) ->
  (forall ax n, In (ax, n) (sshape (f_inputs f)) \/ In (ax, n) (sshape (f_outputs f)) -> (forall m, ~ bins f ax m) ->
     item_ok n (dget it ax)) ->
  exists r, f_getitem f it = Ok r /\ wf (f_inputs r) /\ wf (f_outputs r) /\
    (forall ax n, bins f ax n -> exists k l, In (ax, k) (sshape (f_outputs r)) /\ In (ax, l) (sshape (f_inputs r)) /\
       (k <> 0 -> l = S k) /\
       match dget it ax with
       | Some (ItSlice s) => forall j, j < k <-> exists p, slice_selects s n j p
       | Some _ => k = 1
       | None => k = n
       end) /\
    forall e, cell f r e -> exists e', inside e' (sshape (f_outputs f)) /\ at_ (f_outputs r) e = at_ (f_outputs f) e' /\
      (forall ax n, In (ax, n) (sshape (f_outputs f)) -> selects n (dget it ax) e ax (e' ax)) /\
      forall side, sides f side -> inside (corner side e) (sshape (f_inputs r)) /\
        at_ (f_inputs r) (corner side e) = at_ (f_inputs f) (corner side e').
Proof.
  intros Wi Wo M N NA FS OKi.
  set (si := sshape (f_inputs f)) in *. set (so := sshape (f_outputs f)) in *.
  set (it' := filter (fun kv => smem (fst kv) (f_axes f)) it).
  assert (N' : NoDup (dkeys it')) by (apply (filter_nodup (fun k => smem k (f_axes f))); auto).
  assert (G' : forall ax, In ax (f_axes f) -> dget it' ax = dget it ax).
  { intros ax Hax. destruct (dget it ax) as [i|] eqn:E.
    - apply dget_NoDup; auto. apply filter_In. split; [now apply dget_In|]. now apply smem_In.
    - apply dget_None. intros H. apply dget_None in E. apply E. unfold dkeys, it' in H. apply in_map_iff in H as (kv & <- & H).
      apply filter_In in H as [H _]. now apply in_map. }
  assert (VI : forall ax i, In (ax, i) it -> bin_axis f ax = true -> is_ok (vertex_item i) = true).
  { intros ax i H Hb. apply (bin_axis_spec f Wi Wo) in Hb as [n Hb].
    destruct (vertex_norm n i) as (s & t & E & _); [apply (FS ax); auto; now apply dget_NoDup|]. now rewrite E. }
  rewrite (f_parts f Wi Wo M it VI). fold it'.
  set (IN := concat (map (opt_entry (input_item f)) it')). set (OUT := concat (map (opt_entry (output_item f)) it')).
  assert (GB : forall ax n, bins f ax n -> match dget it ax with
      | Some i => exists q, vertex_item i = Ok q /\ dget IN ax = Some (fst q) /\ dget OUT ax = Some (snd q)
      | None => dget IN ax = None /\ dget OUT ax = None end).
  { intros ax n Hb. unfold IN, OUT. rewrite !pieces_dget by auto. rewrite G' by (now apply (bins_axis f Wi Wo ax n)).
    destruct (dget it ax) as [i|] eqn:E; [|auto].
    assert (T : bin_axis f ax = true) by (apply bin_axis_spec; eauto). unfold input_item, output_item. rewrite T.
    assert (V := VI ax i (dget_In _ _ _ E) T). destruct (vertex_item i) as [q|]; [|discriminate]. eauto. }
  assert (GI : forall ax n, In (ax, n) si -> bin_axis f ax = false -> dget IN ax = dget it ax).
  { intros ax n Hn Hb. unfold IN. rewrite pieces_dget by auto.
    rewrite G' by (apply f_axes_in; auto; left; now apply (in_map fst) in Hn).
    destruct (dget it ax) as [i|] eqn:E; [|auto]. unfold input_item. rewrite Hb.
    apply (si_get f Wi) in Hn. unfold dmem. now rewrite Hn. }
  assert (GO : forall ax n, In (ax, n) so -> bin_axis f ax = false -> dget OUT ax = dget it ax).
  { intros ax n Hn Hb. unfold OUT. rewrite pieces_dget by auto.
    rewrite G' by (apply f_axes_in; auto; right; now apply (in_map fst) in Hn).
    destruct (dget it ax) as [i|] eqn:E; [|auto]. unfold output_item. rewrite Hb.
    apply (so_get f Wo) in Hn. unfold dmem. now rewrite Hn. }
  assert (NAI : forall (g : farr A B -> string * item -> option item) ax v,
     (forall kv, match snd kv with ItArr _ => True | _ => match g f kv with Some (ItArr _) => False | _ => True end end) ->
     dget (concat (map (opt_entry (g f)) it')) ax <> Some (ItArr v)).
  { intros g ax v Hg. rewrite pieces_dget by auto. destruct (dget it' ax) as [i|] eqn:E; [|discriminate].
    specialize (Hg (ax, i)). cbn [snd] in Hg. intros C. rewrite C in Hg. apply dget_In in E.
    apply filter_In in E as [E _]. destruct i; auto. exact (NA ax v0 E). }
  assert (NI : forall ax v, dget IN ax <> Some (ItArr v)).
  { intros ax v. apply (NAI input_item). intros [k i]. cbn [snd input_item].
    destruct i; auto; destruct (bin_axis f k); cbn; auto; destruct (dmem _ k); cbn; auto. }
  assert (NO : forall ax v, dget OUT ax <> Some (ItArr v)).
  { intros ax v. apply (NAI output_item). intros [k i]. cbn [snd output_item].
    destruct i; auto; destruct (bin_axis f k); cbn; auto; destruct (dmem _ k); cbn; auto. }
  destruct (basic_getitem (f_inputs f) IN Wi (pieces_nodup _ _ N') NI) as (ri & Ei & Wri & KI & AI & VIn).
  { intros ax n Hn. destruct (bin_axis f ax) eqn:Hb.
    - apply (bin_axis_spec f Wi Wo) in Hb as [k Hb]. specialize (GB ax k Hb). destruct (dget it ax) as [i|] eqn:E.
      + destruct GB as (q & Eq & -> & _). destruct (vertex_norm k i (FS ax k i Hb E)) as (s & t & Ev & _ & Nt & _).
        rewrite Ev in Eq. injection Eq as <-. exact Nt.
      + destruct GB as [-> _]. exact Logic.I.
    - rewrite (GI ax n Hn Hb). apply OKi; auto. now apply (bin_axis_false f Wi Wo). }
  destruct (basic_getitem (f_outputs f) OUT Wo (pieces_nodup _ _ N') NO) as (ro & Eo & Wro & KO & AO & VOut).
  { intros ax n Hn. destruct (bin_axis f ax) eqn:Hb.
    - apply (bin_axis_spec f Wi Wo) in Hb as [k Hb]. specialize (GB ax k Hb). destruct (dget it ax) as [i|] eqn:E.
      + destruct GB as (q & Eq & _ & ->). destruct (vertex_norm k i (FS ax k i Hb E)) as (s & t & Ev & Ns & _).
        rewrite Ev in Eq. injection Eq as <-. exact Ns.
      + destruct GB as [_ ->]. exact Logic.I.
    - rewrite (GO ax n Hn Hb). apply OKi; auto. now apply (bin_axis_false f Wi Wo). }
  rewrite Ei, Eo. cbn [bind]. exists (mkF ri ro). split; [reflexivity|]. cbn [f_inputs f_outputs]. split; auto. split; auto.
  (* what happens along an axis of bins *)
  assert (BIN : forall ax n, bins f ax n -> exists k l, In (ax, k) (sshape ro) /\ In (ax, l) (sshape ri) /\
     (forall j d, j < k -> d <= 1 -> j + d < l) /\ (k <> 0 -> l = S k) /\
     match dget it ax with
       | Some (ItSlice s) => forall j, j < k <-> exists p, slice_selects s n j p
       | Some _ => k = 1
       | None => k = n
     end /\
     forall e e' side, side <= 1 -> e ax < k -> forall p p', selects n (dget OUT ax) e ax p -> e' ax = e ax + side ->
       selects (S n) (dget IN ax) e' ax p' -> p' = p + side /\ selects n (dget it ax) e ax p).
  { intros ax n Hb. pose proof Hb as [Ho Hi]. pose proof (GB ax n Hb) as G. destruct (dget it ax) as [i|] eqn:E.
    - destruct G as (q & Eq & G1 & G2). destruct (vertex_norm n i (FS ax n i Hb E)) as (s & t & Ev & Ns & Nt & PR & PB & Ki).
      rewrite Ev in Eq. injection Eq as <-. cbn [fst snd] in G1, G2.
      destruct (KO ax n Ho) as (k & Hk & Sk); [now rewrite G2|]. destruct (KI ax (S n) Hi) as (l & Hl & Sl); [now rewrite G1|].
      rewrite G2 in Sk. rewrite G1 in Sl. exists k, l. split; auto. split; auto.
      assert (IN1 : forall j d, j < k -> d <= 1 -> j + d < l).
      { intros j d Hj Hd. apply Sk in Hj as [p Hp]. apply Sl. eauto. }
      split; [exact IN1|]. split; [|split].
      + intros K0. assert (L1 : k < l) by (replace k with ((k - 1) + 1) by lia; apply IN1; lia).
        destruct (le_lt_dec l (S k)) as [|L2]; [lia|]. apply Sl in L2 as [p Hp]. apply PB in Hp. apply Sk in Hp. lia.
      + destruct i as [| z | z | s' | v]; try contradiction.
        * cbn [from_start] in FS. specialize (FS ax n _ Hb E). cbn in FS.
          assert (H0 : 0 < k). { apply Sk. exists (Z.to_nat z). apply Ki. split; auto. unfold index_is.
            destruct (Z.ltb_spec z 0); lia. }
          destruct (le_lt_dec k 1) as [|L]; [lia|]. apply Sk in L as [p Hp]. apply Ki in Hp. lia.
        * specialize (FS ax n _ Hb E). cbn in FS.
          assert (H0 : 0 < k). { apply Sk. exists (Z.to_nat z). apply Ki. split; auto. unfold index_is.
            destruct (Z.ltb_spec z 0); lia. }
          destruct (le_lt_dec k 1) as [|L]; [lia|]. apply Sk in L as [p Hp]. apply Ki in Hp. lia.
        * subst s'. exact Sk.
      + intros e e' side Hs Hk' p p'. rewrite G1, G2. cbn [selects]. intros Hp He Hp'. rewrite He in Hp'. split.
        * pose proof (PR _ _ side Hs Hp) as H. unfold slice_selects in H, Hp'. lia.
        * destruct i as [| z | z | s' | v]; try contradiction; cbn [selects]; [apply Ki in Hp; tauto|apply Ki in Hp; tauto|].
          now subst s'.
    - destruct G as [G1 G2]. destruct (KO ax n Ho) as (k & Hk & Sk); [now rewrite G2|].
      destruct (KI ax (S n) Hi) as (l & Hl & Sl); [now rewrite G1|]. rewrite G2 in Sk. rewrite G1 in Sl. subst k l.
      exists n, (S n). split; auto. split; auto. split; [lia|]. split; [auto|]. split; [reflexivity|].
      intros e e' side Hs Hk' p p'. rewrite G1, G2. cbn [selects]. lia. }
  split.
  { intros ax n Hb. destruct (BIN ax n Hb) as (k & l & H1 & H2 & _ & H3 & H4 & _). exists k, l. auto. }
  intros e [Ie Ic]. destruct (VOut e Ie) as (e1 & I1 & V1 & S1).
  (* the corner of a cell is in the result *)
  assert (INS : forall side, sides f side -> inside (corner side e) (sshape ri)).
  { intros side Hs ax k Hk. unfold corner. destruct (Hs ax) as [Z|[O [n Hb]]].
    - rewrite Z, Nat.add_0_r. destruct (bin_axis f ax) eqn:Hb.
      + apply (bin_axis_spec f Wi Wo) in Hb as [n Hb]. destruct (BIN ax n Hb) as (k' & l & H1 & H2 & H3 & _).
        apply (dget_NoDup (sshape ri)) in Hk, H2; try now apply wf_nodup. assert (k = l) by congruence. subst l.
        specialize (H3 (e ax) 0 (Ie ax k' H1)). lia.
      + apply Ic; auto. now apply (bin_axis_false f Wi Wo).
    - destruct (BIN ax n Hb) as (k' & l & H1 & H2 & H3 & _).
      apply (dget_NoDup (sshape ri)) in Hk, H2; try now apply wf_nodup. assert (k = l) by congruence. subst l.
      rewrite O. apply H3; auto. }
  assert (Z0 : sides f (fun _ => 0)) by (intros ax; now left).
  destruct (VIn _ (INS _ Z0)) as (e0 & I0 & V0 & S0).
  set (e' := fun ax => if smem ax (s_axes (f_outputs f)) then e1 ax else e0 ax).
  assert (EO : forall ax n, In (ax, n) so -> e' ax = e1 ax).
  { intros ax n Hn. unfold e'. apply (in_map fst) in Hn. cbn [fst] in Hn. change (map fst so) with (dkeys so) in Hn.
    unfold so in Hn. rewrite wf_keys in Hn by auto. apply smem_In in Hn. now rewrite Hn. }
  exists e'. split; [|split; [|split]].
  - intros ax n Hn. rewrite (EO ax n Hn). now apply I1.
  - rewrite V1. apply at_ext. intros ax Hax. rewrite <- wf_keys in Hax by auto. apply key_size in Hax as [n Hn].
    now rewrite (EO ax n Hn).
  - intros ax n Hn. rewrite (EO ax n Hn). specialize (S1 ax n Hn). destruct (bin_axis f ax) eqn:Hb.
    + apply (bin_axis_spec f Wi Wo) in Hb as [m Hb]. pose proof Hb as [Hm Hi].
      assert (m = n) by (apply (so_get f Wo) in Hn, Hm; congruence). subst m.
      destruct (BIN ax n Hb) as (k & l & H1 & H2 & H3 & _ & _ & H4).
      exact (proj2 (H4 e (corner (fun _ => 0) e) 0 (Nat.le_0_l 1) (Ie ax k H1) _ _ S1 eq_refl (S0 ax (S n) Hi))).
    + now rewrite (GO ax n Hn Hb) in S1.
  - intros side Hs. split; [now apply INS|]. destruct (VIn _ (INS side Hs)) as (e2 & I2 & V2 & S2). rewrite V2.
    apply at_ext. intros ax Hax. rewrite <- wf_keys in Hax by auto. apply key_size in Hax as [m Hm].
    specialize (S2 ax m Hm). unfold corner at 1. destruct (bin_axis f ax) eqn:Hb.
    + apply (bin_axis_spec f Wi Wo) in Hb as [n Hb]. pose proof Hb as [Hn Hi].
      assert (m = S n) by (apply (si_get f Wi) in Hm, Hi; congruence). subst m. rewrite (EO ax n Hn).
      destruct (BIN ax n Hb) as (k & l & H1 & H2 & H3 & _ & _ & H4).
      refine (proj1 (H4 e (corner side e) (side ax) _ (Ie ax k H1) _ _ (S1 ax n Hn) eq_refl S2)).
      destruct (Hs ax) as [-> |[-> _]]; lia.
    + assert (Z : side ax = 0).
      { destruct (Hs ax) as [|[_ [n Hn]]]; auto. exfalso. exact (bin_axis_false f Wi Wo ax Hb n Hn). }
      rewrite Z, Nat.add_0_r. assert (NB := bin_axis_false f Wi Wo ax Hb).
      assert (SE : forall d p, sides f d -> selects m (dget IN ax) (corner d e) ax p -> d ax = 0 -> selects m (dget IN ax) e ax p).
      { intros d p _ H Hd. specialize (NI ax). destruct (dget IN ax) as [[| z | z | s | v]|]; cbn [selects] in *; auto;
          try (unfold corner in H; rewrite Hd, Nat.add_0_r in H; exact H). exfalso. now apply (NI v). }
      apply SE in S2; auto. unfold e'. destruct (smem ax (s_axes (f_outputs f))) eqn:Ho.
      * apply smem_In in Ho. rewrite <- wf_keys in Ho by auto. apply key_size in Ho as [n Hn].
        assert (m = n). { destruct (M ax n m Hn Hm) as [|Hmn]; auto. subst m. exfalso. apply (NB n). split; auto. }
        subst m. specialize (S1 ax n Hn). rewrite (GO ax n Hn Hb) in S1. rewrite (GI ax n Hm Hb) in S2.
        exact (selects_fun _ _ _ _ _ _ S2 S1).
      * specialize (S0 ax m Hm). apply SE in S0; auto. exact (selects_fun _ _ _ _ _ _ S2 S0).
Qed.

(** ** The shape *)

Theorem f_shape_spec {A B} (f : farr A B) : wf (f_inputs f) -> wf (f_outputs f) -> matched f ->
  exists sh, f_shape f = Ok sh /\ NoDup (dkeys sh) /\
    forall ax n, In (ax, n) sh <->
      In (ax, n) (sshape (f_outputs f)) \/ (In (ax, n) (sshape (f_inputs f)) /\ forall m, ~ bins f ax m).
Proof.
  intros Wi Wo M. unfold f_shape. rewrite (center_ok f Wi Wo M), (vertex_ok f Wi Wo M). cbn [bind].
  set (si := sshape (f_inputs f)). set (so := sshape (f_outputs f)).
  set (c := filter (fun ax => negb (bin_axis f ax)) (f_axes f)). set (v := filter (bin_axis f) (f_axes f)).
  assert (Nsi : NoDup (dkeys si)) by now apply wf_nodup. assert (Nso : NoDup (dkeys so)) by now apply wf_nodup.
  set (l := [filter (fun kv => smem (fst kv) c) so; filter (fun kv => smem (fst kv) v) so; filter (fun kv => smem (fst kv) c) si]).
  assert (Nl : Forall (fun s : shape => NoDup (dkeys s)) l).
  { unfold l. constructor; [now apply (filter_nodup (fun k => smem k c))|].
    constructor; [now apply (filter_nodup (fun k => smem k v))|].
    constructor; [now apply (filter_nodup (fun k => smem k c))|constructor]. }
  assert (CO : forall ax n, In (ax, n) so -> smem ax c = negb (bin_axis f ax) /\ smem ax v = bin_axis f ax).
  { intros ax n H. assert (Ha : In ax (f_axes f)) by (apply f_axes_in; auto; right; now apply (in_map fst) in H).
    unfold c, v. destruct (bin_axis f ax) eqn:E; cbn [negb].
    - split; [apply smem_false; rewrite filter_In, E; cbn; intuition discriminate|apply smem_In, filter_In; auto].
    - split; [apply smem_In, filter_In; rewrite E; auto|apply smem_false; rewrite filter_In, E; intuition discriminate]. }
  assert (CI : forall ax n, In (ax, n) si -> smem ax c = negb (bin_axis f ax)).
  { intros ax n H. assert (Ha : In ax (f_axes f)) by (apply f_axes_in; auto; left; now apply (in_map fst) in H).
    unfold c. destruct (bin_axis f ax) eqn:E; cbn [negb].
    - apply smem_false. rewrite filter_In, E. cbn. intuition discriminate.
    - apply smem_In, filter_In. rewrite E. auto. }
  assert (IL : forall ax n, (exists s, In s l /\ In (ax, n) s) <-> In (ax, n) so \/ (In (ax, n) si /\ bin_axis f ax = false)).
  { intros ax n. unfold l. split.
    - intros (s & [<- |[<- |[<- |[]]]] & H); apply filter_In in H as [H Hc]; auto. right. split; auto.
      cbn [fst] in Hc. rewrite (CI ax n H) in Hc. now apply negb_true_iff.
    - intros [H|[H Hb]].
      + destruct (CO ax n H) as [H1 H2]. destruct (bin_axis f ax) eqn:Hb.
        * eexists. split; [right; left; reflexivity|]. apply filter_In. auto.
        * eexists. split; [left; reflexivity|]. apply filter_In. auto.
      + eexists. split; [right; right; left; reflexivity|]. apply filter_In. cbn [fst]. rewrite (CI ax n H), Hb. auto. }
  set (S := so ++ filter (fun kv => negb (smem (fst kv) (dkeys so))) si).
  assert (IS : forall ax n, In (ax, n) so \/ (In (ax, n) si /\ bin_axis f ax = false) -> In (ax, n) S).
  { intros ax n [H|[H Hb]]; unfold S; apply in_app_iff; auto.
    destruct (smem ax (dkeys so)) eqn:E; [left|right; apply filter_In; cbn [fst]; now rewrite E].
    apply smem_In, key_size in E as [m Hm]. destruct (M ax m n Hm H) as [-> | ->]; auto.
    exfalso. apply (bin_axis_false f Wi Wo ax Hb m). split; auto. }
  assert (NS : NoDup (dkeys S)).
  { unfold S, dkeys. rewrite map_app. apply NoDup_app_intro; auto.
    - now apply (filter_nodup (fun k => negb (smem k (dkeys so)))).
    - intros x Hx Hx'. apply in_map_iff in Hx' as ([k m] & <- & Hx'). apply filter_In in Hx' as [_ Hx'].
      cbn [fst] in *. apply negb_true_iff, smem_false in Hx'. now apply Hx'. }
  destruct (fits_broadcast l S Nl NS) as (sh & Esh & _).
  { intros s Hs ax n Hn. exists n. split; auto. apply IS, IL. eauto. }
  fold l. rewrite Esh. exists sh. split; auto. destruct (broadcast_shapes_ok _ _ Nl Esh) as (NB & _ & PB).
  split; auto. intros ax n.
  assert (EQ : (In (ax, n) si /\ forall m, ~ bins f ax m) <-> (In (ax, n) si /\ bin_axis f ax = false)).
  { split; intros [H1 H2]; split; auto; [|now apply (bin_axis_false f Wi Wo)].
    destruct (bin_axis f ax) eqn:E; auto. apply (bin_axis_spec f Wi Wo) in E as [m E]. exfalso. exact (H2 m E). }
  rewrite EQ, <- IL. split.
  - intros H. exact (broadcast_attained _ _ _ _ Nl Esh H).
  - intros (s & Hs & H). destruct (broadcast_fits _ _ _ Nl Esh Hs ax n H) as (m & Hm & _).
    destruct (broadcast_attained _ _ _ _ Nl Esh Hm) as (s' & Hs' & Hm').
    assert (H1 : In (ax, n) S) by (apply IS, IL; eauto). assert (H2 : In (ax, m) S) by (apply IS, IL; eauto).
    apply (dget_NoDup S) in H1, H2; auto. assert (n = m) by congruence. now subst.
Qed.
