(** Proofs about [np.argmin] and [np.argmax] of vectors. *)
From Coq Require Import String List Arith ZArith Bool Lia Permutation.
From Verif Require Import Base Numpy Shapes Scalar Reorder Elementwise Reduce Along Sorting Vector VectorSort VectorArg VectorReduce
  Spec SpecVector SpecMatrix SpecVectorReduce SpecVectorArg BaseFacts AlignFacts NumpyFacts ShapesFacts ReorderFacts GetitemFacts ElementwiseFacts ReduceFacts SortingFacts VectorFacts VectorIndexFacts MatrixFacts FuncOpsFacts VectorReduceFacts VectorAxesFacts VectorAlongFacts QuantileFacts VectorSortFacts VectorStackFacts.
Import ListNotations.
Open Scope nat_scope.
Open Scope list_scope.

Section Arg.
Context {A : Type} (arrange : list string -> list string) (pick : list A -> nat).
Hypothesis arr : lists_set arrange.

(** one scalar of the vector *)
Definition leaf_arg (o : operand A) (l : list string) : res (dict (sarr Z)) :=
  match own_axes l (op_shape o) with
  | [] => Ok []
  | s => na_arg_reduce pick (normalize o) (Some s)
  end.

Definition addressed (v : vec A) (l : list string) (it : dict (tree item)) : Prop :=
  NoDup (dkeys it) /\ items_suit v it /\
  (forall ax, In ax (dkeys it) -> exists p o d, leaf_at v p = Some o /\ leaf_arg o l = Ok d /\ In ax (dkeys d)) /\
  forall p o, leaf_at v p = Some o -> exists d, leaf_arg o l = Ok d /\ incl (dkeys d) (dkeys it) /\
    forall ax t, dget it ax = Some t -> reaches t p = Some (entry d ax).

Lemma own_own l shx sh : incl (dkeys sh) (dkeys shx) -> own_axes (own_axes l shx) sh = own_axes l sh.
Proof.
  intros I. unfold own_axes. induction l as [|ax l IH]; [reflexivity|]. cbn [filter]. destruct (smem ax (dkeys shx)) eqn:E; cbn [filter].
  - destruct (smem ax (dkeys sh)); now rewrite IH.
  - rewrite IH. destruct (smem ax (dkeys sh)) eqn:E'; [|reflexivity]. apply smem_In, I, smem_In in E'. congruence.
Qed.

Lemma own_all l sh : incl l (dkeys sh) -> own_axes l sh = l.
Proof.
  intros I. unfold own_axes. induction l as [|ax l IH]; [reflexivity|]. cbn [filter].
  rewrite (proj2 (smem_In _ _) (I ax (or_introl eq_refl))). f_equal. apply IH. intros x H. apply I. now right.
Qed.

Lemma own_incl l sh : incl (own_axes l sh) (dkeys sh).
Proof. intros ax H. apply filter_In in H. now apply smem_In. Qed.

Lemma leaf_keys (v : vec A) sh p o : vec_wf v -> vec_shape v = Ok sh -> leaf_at v p = Some o -> incl (dkeys (op_shape o)) (dkeys sh).
Proof.
  intros W S L ax H. apply in_map_iff in H. destruct H as ([k n] & <- & H).
  destruct (leaf_fits_shape v sh o W S (leaf_In v p o L) k n H) as (m & Hm & _). exact (in_map fst _ _ Hm).
Qed.

Lemma leaf_arg_own (v : vec A) sh p o l : vec_wf v -> vec_shape v = Ok sh -> leaf_at v p = Some o -> leaf_arg o (own_axes l sh) = leaf_arg o l.
Proof. intros W S L. unfold leaf_arg. now rewrite (own_own l sh (op_shape o) (leaf_keys v sh p o W S L)). Qed.

Lemma addressed_none (v : vec A) sh l : vec_wf v -> vec_shape v = Ok sh -> own_axes l sh = [] -> addressed v l [].
Proof.
  intros W S E. split; [constructor|]. split; [intros kv []|]. split; [intros ax []|]. intros p o L. exists []. split; [|split; [intros x []|discriminate]].
  rewrite <- (leaf_arg_own v sh p o l W S L), E. reflexivity.
Qed.

Lemma sortable_or (a : sarr A) l : (sortable a l /\ total_size (sshape a) l <> 0) \/ ~ (sortable a l /\ total_size (sshape a) l <> 0).
Proof.
  destruct (list_eq_dec string_dec l []) as [->|NE]; [right; intros ((H & _) & _); now apply H|].
  destruct (Nat.eq_dec (total_size (sshape a) l) 0) as [Z|NZ]; [right; tauto|].
  destruct (ListDec.NoDup_dec string_dec l) as [N|N]; [|right; intros ((_ & H & _) & _); contradiction].
  destruct (ListDec.incl_dec string_dec l (s_axes a)) as [I|I]; [|right; intros ((_ & _ & H & _) & _); contradiction].
  destruct (forallb (fun kv => smem (fst kv) l || (negb (snd kv =? 0) && negb (String.eqb (fst kv) (flat_name l)))) (sshape a)) eqn:B.
  - left. split; [|exact NZ]. split; [exact NE|]. split; [exact N|]. split; [exact I|]. intros ax n H Hl. rewrite forallb_forall in B. specialize (B _ H). cbn [fst snd] in B.
    apply orb_true_iff in B. destruct B as [B|B]; [apply smem_In in B; contradiction|]. apply andb_true_iff in B. destruct B as (B1 & B2).
    apply negb_true_iff in B1, B2. apply Nat.eqb_neq in B1. apply String.eqb_neq in B2. auto.
  - right. intros ((_ & _ & _ & H) & _). apply not_true_iff_false in B. apply B. apply forallb_forall. intros [ax n] Hn. cbn [fst snd].
    destruct (smem ax l) eqn:M; [reflexivity|]. cbn [orb]. destruct (H ax n Hn) as (H1 & H2); [intros X; apply smem_In in X; congruence|].
    apply Nat.eqb_neq in H1. apply String.eqb_neq in H2. now rewrite H1, H2.
Qed.

Hypothesis range : forall x, x <> [] -> pick x < length x.

Lemma arg_keys (a : sarr A) l d : wf a -> na_arg_reduce pick a (Some l) = Ok d ->
  sortable a l /\ total_size (sshape a) l <> 0 /\ NoDup (dkeys d) /\ forall ax, In ax (dkeys d) <-> In ax (s_axes a).
Proof.
  intros W E. destruct (arg_reduce_spec pick a l W range) as (P & Q).
  assert (So : sortable a l /\ total_size (sshape a) l <> 0) by (destruct (sortable_or a l) as [D|D]; [exact D|rewrite (Q D) in E; discriminate]).
  destruct So as (So & NZ). split; [exact So|]. split; [exact NZ|]. destruct (P So NZ) as (d' & r & E' & K & _). assert (d' = d) by congruence. subst d'.
  destruct So as (_ & Nl & I & _). split.
  - rewrite K. apply BaseFacts.NoDup_app_intro; [exact Nl|apply NoDup_filter, W|]. intros ax H1 H2. apply filter_In in H2. destruct H2 as (_ & H2).
    rewrite (proj2 (smem_In _ _) H1) in H2. discriminate.
  - intros ax. rewrite K, in_app_iff, filter_In. split; [intros [H|H]; [now apply I|tauto]|].
    intros H. destruct (smem ax l) eqn:Q'; [left; now apply smem_In|right; auto].
Qed.

Lemma arg_error (a : sarr A) l e : wf a -> na_arg_reduce pick a (Some l) = Err e -> e = ValueError /\ ~ (sortable a l /\ total_size (sshape a) l <> 0).
Proof.
  intros W E. destruct (arg_reduce_spec pick a l W range) as (P & Q). destruct (sortable_or a l) as [(D1 & D2)|D].
  - destruct (P D1 D2) as (d & r & E' & _). congruence.
  - rewrite (Q D) in E. split; [congruence|exact D].
Qed.

Lemma components_or {X Y : Type} (f : string -> tree X -> res Y) (er : err) (P : string -> tree X -> Prop) cs :
  (forall c x, In (c, x) cs -> (exists r, f c x = Ok r) \/ f c x = Err er /\ P c x) ->
  (exists qs, on_components f cs = Ok qs) \/ on_components f cs = Err er /\ exists c x, In (c, x) cs /\ P c x.
Proof.
  unfold on_components. induction cs as [|[c x] cs IH]; intros H; [left; now exists []|].
  cbn [map traverse fst snd]. destruct (H c x (or_introl eq_refl)) as [(r & E)|(E & Pc)]; rewrite E; cbn [bind].
  - destruct IH as [(qs & Eq)|(Eq & c' & x' & Hc & Pc)]; [intros c' x' H'; apply H; now right| |]; rewrite Eq; cbn [bind]; [left; eauto|].
    right. split; [reflexivity|]. exists c', x'. split; [now right|exact Pc].
  - right. split; [reflexivity|]. exists c, x. split; [now left|exact Pc].
Qed.

Definition arg_goal (v : vec A) (l : list string) : Prop :=
  (exists it, arg_rec arrange pick v l = Ok it /\ addressed v l it) \/
  arg_rec arrange pick v l = Err ValueError /\ exists p o, leaf_at v p = Some o /\ leaf_arg o l = Err ValueError.

Lemma arg_leaf (o : operand A) l : op_wf o -> l <> [] -> incl l (dkeys (op_shape o)) -> arg_goal (Leaf o) l.
Proof.
  intros W NE I. assert (Wn := ElementwiseFacts.normalize_wf o W).
  assert (La : leaf_arg o l = na_arg_reduce pick (normalize o) (Some l)) by (unfold leaf_arg; rewrite (own_all l (op_shape o) I); destruct l; [congruence|reflexivity]).
  destruct (na_arg_reduce pick (normalize o) (Some l)) as [d|e] eqn:E.
  - left. exists (map (fun kv => (fst kv, Leaf (ItArr (snd kv)))) d). split; [cbn [arg_rec]; rewrite E; reflexivity|].
    destruct (arg_keys _ _ d Wn E) as (_ & _ & Nd & Kd).
    assert (Km : dkeys (map (fun kv => (fst kv, Leaf (ItArr (snd kv)))) d) = dkeys d) by (unfold dkeys; rewrite map_map; reflexivity).
    split; [rewrite Km; exact Nd|]. split.
    { intros kv Hkv. apply in_map_iff in Hkv. destruct Hkv as ([k v] & <- & _). cbn [snd]. split; [intros p; destruct p; discriminate|].
      intros [|]; discriminate. }
    split; [intros ax Hax; exists [], o, d; split; [reflexivity|]; split; [exact La|]; rewrite <- Km; exact Hax|].
    intros [|c p] o'; cbn [leaf_at]; [|discriminate]. intros [= <-]. exists d. split; [exact La|]. split; [rewrite Km; apply incl_refl|].
    intros ax t. rewrite dget_map_leaf. unfold entry. destruct (dget d ax); [|discriminate]. intros [= <-]. reflexivity.
  - right. destruct (arg_error _ _ e Wn E) as (-> & _). split; [cbn [arg_rec]; rewrite E; reflexivity|]. exists [], o. split; [reflexivity|exact La].
Qed.

Theorem arg_rec_spec (v : vec A) : vec_wf v -> forall l sh, vec_shape v = Ok sh -> incl l (dkeys sh) -> (l <> [] \/ is_node v) -> arg_goal v l.
Proof.
  induction v as [o|ty cs IH] using tree_rect'; intros W l sh Sv I NE.
  { inversion W; subst. assert (Es : sh = op_shape o) by (destruct o; cbn in Sv; injection Sv as <-; reflexivity). subst sh. destruct NE as [NE|(ty & cs & NE)]; [|discriminate]. now apply arg_leaf. }
  inversion W as [|? ? Nc Wc]; subst. assert (N := vec_shape_NoDup _ sh W Sv).
  assert (Sub : forallb (fun ax => smem ax (dkeys sh)) l = true) by (apply forallb_forall; intros ax Hax; now apply smem_In, I).
  set (f := fun (_ : string) (x : vec A) => shx <- vec_shape x ;; match own_axes l shx with [] => Ok [] | axis_c => arg_rec arrange pick x axis_c end).
  assert (Ch : forall c x, In (c, x) cs -> (exists ic, f c x = Ok ic /\ addressed x l ic) \/
            f c x = Err ValueError /\ exists p o, leaf_at x p = Some o /\ leaf_arg o l = Err ValueError).
  { intros c x Hc. destruct (child_shape ty cs c x sh W Sv Hc) as (shx & Sx & Fx). unfold f. rewrite Sx. cbn [bind].
    assert (Wx := Wc c x Hc). destruct (own_axes l shx) as [|a0 s0] eqn:Es.
    - left. exists []. split; [reflexivity|]. exact (addressed_none x shx l Wx Sx Es).
    - rewrite <- Es. assert (NEs : own_axes l shx <> []) by (rewrite Es; discriminate).
      assert (Lo : forall p o, leaf_at x p = Some o -> leaf_arg o (own_axes l shx) = leaf_arg o l) by (intros p o L; exact (leaf_arg_own x shx p o l Wx Sx L)).
      destruct (IH c x Hc Wx (own_axes l shx) shx Sx (own_incl l shx) (or_introl NEs)) as [(ic & E & Ad)|(E & p & o & L & Eo)].
      + left. exists ic. split; [exact E|]. destruct Ad as (A1 & A2 & A3 & A4). split; [exact A1|]. split; [exact A2|]. split.
        * intros ax Hax. destruct (A3 ax Hax) as (p & o & d & L & Eo & Hd). exists p, o, d. rewrite (Lo p o L) in Eo. auto.
        * intros p o L. destruct (A4 p o L) as (d & Eo & R). exists d. rewrite (Lo p o L) in Eo. auto.
      + right. split; [exact E|]. exists p, o. rewrite (Lo p o L) in Eo. auto. }
  destruct (components_or f ValueError (fun c x => exists p o, leaf_at x p = Some o /\ leaf_arg o l = Err ValueError) cs) as [(ra & Ea)|(Ea & c & x & Hc & p & o & L & Eo)].
  { intros c x Hc. destruct (Ch c x Hc) as [(ic & E & _)|E]; [left; eauto|right; exact E]. }
  2:{ right. split; [cbn [arg_rec]; rewrite Sv; cbn [bind]; rewrite Sub; cbn [negb]; unfold f in Ea; rewrite Ea; reflexivity|].
      exists (c :: p), o. cbn [leaf_at]. rewrite (dget_NoDup cs c x Nc Hc). auto. }
  left. destruct (on_components_get _ _ _ Ea) as (Na & Ga).
  set (axes := arrange (flat_map (fun kv => dkeys (snd kv)) ra)).
  assert (Ax : forall ax, In ax axes <-> exists c ic, In (c, ic) ra /\ In ax (dkeys ic)).
  { intros ax. unfold axes. rewrite (proj2 (arr _) ax), in_flat_map. split; [intros ([c ic] & H); exists c, ic; exact H|intros (c & ic & H); exists (c, ic); exact H]. }
  assert (Nr : NoDup (dkeys ra)) by (unfold dkeys; rewrite Na; exact Nc).
  exists (gather ty axes ra). split; [cbn [arg_rec]; rewrite Sv; cbn [bind]; rewrite Sub; cbn [negb]; unfold f in Ea; rewrite Ea; reflexivity|].
  assert (One : forall c x, dget cs c = Some x -> exists ic, dget ra c = Some ic /\ addressed x l ic).
  { intros c x Dx. specialize (Ga c). rewrite Dx in Ga. destruct (dget ra c) as [ic|]; [|contradiction]. exists ic. split; [reflexivity|].
    destruct (Ch c x (dget_In _ _ _ Dx)) as [(ic' & E & Ad)|(E & _)]; [|congruence]. assert (ic' = ic) by congruence. subst ic'. exact Ad. }
  assert (Kg : dkeys (gather ty axes ra) = axes) by (unfold gather, dkeys; rewrite map_map; apply map_id).
  assert (Get : forall ax t, dget (gather ty axes ra) ax = Some t -> t = Node ty (map (fun kv => (fst kv, match dget (snd kv) ax with Some t => t | None => Leaf ItNone end)) ra)).
  { intros ax t H. rewrite gather_get in H. destruct (smem ax axes); congruence. }
  assert (Ent : forall ax c ic, dget ra c = Some ic -> dget (map (fun kv => (fst kv, match dget (snd kv) ax with Some t => t | None => Leaf ItNone end)) ra) c
             = Some (match dget ic ax with Some t => t | None => Leaf ItNone end)).
  { intros ax c ic H. transitivity (option_map (fun i => match dget i ax with Some t => t | None => Leaf ItNone end) (dget ra c)); [apply (dget_map_snd (fun i => match dget i ax with Some t => t | None => Leaf ItNone end))|rewrite H; reflexivity]. }
  split; [rewrite Kg; apply arr|]. split.
  { intros [ax t] Hkv. cbn [snd]. unfold gather in Hkv. apply in_map_iff in Hkv. destruct Hkv as (ax' & [= -> <-] & Hax). split.
    - intros p. destruct p as [|c p]; cbn [kind].
      + intros tya na tyb nb [= <- <-] [= <- <-]. split; [reflexivity|]. intros c. rewrite map_map. cbn [fst]. change (map (fun x : string * dict (tree item) => fst x) ra) with (map fst ra). rewrite Na. tauto.
      + destruct (dget cs c) as [x|] eqn:Dx; [|discriminate]. destruct (One c x Dx) as (ic & Di & _ & Su & _). rewrite (Ent ax c ic Di).
        destruct (dget ic ax) as [t|] eqn:Et; [|intros ? ? ? ? _; destruct p; discriminate].
        exact (proj1 (Su (ax, t) (dget_In _ _ _ Et)) p).
    - intros [|c p]; cbn [leaf_at reaches]; [congruence|]. destruct (dget cs c) as [x|] eqn:Dx; [|congruence]. intros Lx.
      destruct (One c x Dx) as (ic & Di & _ & Su & _). rewrite (Ent ax c ic Di).
      destruct (dget ic ax) as [t|] eqn:Et; [|destruct p; discriminate].
      exact (proj2 (Su (ax, t) (dget_In _ _ _ Et)) p Lx). }
  split.
  { intros ax Hax. rewrite Kg in Hax. apply Ax in Hax. destruct Hax as (c & ic & Hc & Hax). assert (Dc := dget_NoDup ra c ic Nr Hc).
    specialize (Ga c). rewrite Dc in Ga. destruct (dget cs c) as [x|] eqn:Dx; [|contradiction]. destruct (One c x Dx) as (ic' & Di & _ & _ & A3 & _).
    assert (ic' = ic) by congruence. subst ic'. destruct (A3 ax Hax) as (p & o & d & L & R). exists (c :: p), o, d. cbn [leaf_at]. rewrite Dx. auto. }
  intros [|c p] o; cbn [leaf_at]; [discriminate|]. destruct (dget cs c) as [x|] eqn:Dx; [|discriminate]. intros L.
  destruct (One c x Dx) as (ic & Di & _ & _ & _ & A4). destruct (A4 p o L) as (d & Eo & In_d & Rd). exists d. split; [exact Eo|]. split.
  - intros ax Hax. rewrite Kg. apply Ax. exists c, ic. split; [now apply dget_In|now apply In_d].
  - intros ax t Ht. rewrite (Get ax t Ht). cbn [reaches]. rewrite (Ent ax c ic Di). destruct (dget ic ax) as [t'|] eqn:Et; [exact (Rd ax t' Et)|].
    apply dget_None in Et. unfold entry. destruct (dget d ax) as [w|] eqn:Ed; [|destruct p; reflexivity].
    exfalso. apply Et, In_d. exact (in_map fst _ _ (dget_In _ _ _ Ed)).
Qed.

(** ** Indexing with the dictionary *)

Lemma getitem_none {B} (a : sarr B) (d : dict item) : wf a -> NoDup (dkeys d) -> (forall ax, dget d ax = None \/ dget d ax = Some ItNone) ->
  exists b, getitem a d = Ok b /\ wf b /\ same_array b a.
Proof.
  intros Wo Nd Dn.
  assert (Fd : Forall (fun kv => item_wf (snd kv)) d).
  { apply Forall_forall. intros [ax i] Hi. destruct (Dn ax) as [Q|Q]; rewrite (dget_NoDup d ax i Nd Hi) in Q; [discriminate|]. injection Q as ->. exact Logic.I. }
  assert (Ei' : index_shapes (s_axes a) d = []).
  { destruct (index_shapes (s_axes a) d) as [|s0 q] eqn:E; [reflexivity|]. assert (Hs : In s0 (index_shapes (s_axes a) d)) by (rewrite E; now left).
    apply index_shapes_In in Hs; [|exact Nd]. destruct Hs as (ax & v & _ & Hv & _). destruct (Dn ax) as [Q|Q]; rewrite Q in Hv; discriminate. }
  destruct (proj2 (getitem_success a d Wo Nd Fd)) as (b & Eb).
  { exists []. rewrite Ei'. split; [reflexivity|]. split; [intros ax n _; destruct (Dn ax) as [-> | ->]; exact Logic.I|intros ax []]. }
  exists b. split; [exact Eb|]. destruct (getitem_full a d b Wo Nd Fd Eb) as (Wb & Vb & sa & Esa & Axb & _ & Szb). rewrite Ei' in Esa. injection Esa as <-.
  split; [exact Wb|].
  assert (Kp : forall ax, keeps_axis (dget d ax) = true) by (intros ax; destruct (Dn ax) as [-> | ->]; reflexivity).
  assert (Sa : forall ax m, In (ax, m) (sshape b) -> In (ax, m) (sshape a)).
  { intros ax m Hm. assert (Hk : In ax (s_axes b)) by (rewrite <- (wf_keys b Wb); exact (in_map fst _ _ Hm)). rewrite Axb in Hk. cbn [dkeys map app] in Hk.
    apply filter_In in Hk. destruct Hk as (Hk & _). assert (Hs : In (ax, asize a ax) (sshape a)) by (now apply in_sshape).
    assert (X := Szb ax _ m Hs (Kp ax) Hm). destruct (Dn ax) as [Q|Q]; rewrite Q in X; cbn in X; subst m; exact Hs. }
  assert (Ss : same_shape (sshape b) (sshape a)).
  { intros ax n. split; [apply Sa|]. intros Hn. assert (Hk : In ax (s_axes b)).
    { rewrite Axb. cbn [dkeys map app]. apply filter_In. split; [|apply Kp]. rewrite <- (wf_keys a Wo). exact (in_map fst _ _ Hn). }
    rewrite <- (wf_keys b Wb) in Hk. apply in_map_iff in Hk. destruct Hk as ([k m] & <- & Hm). cbn [fst] in *. assert (Hm' := Sa k m Hm).
    assert (X := dget_NoDup _ _ _ (wf_nodup a Wo) Hm'). rewrite (dget_NoDup _ _ _ (wf_nodup a Wo) Hn) in X. congruence. }
  split; [exact Ss|]. intros e He.
  destruct (Vb e He) as (e' & I' & -> & Sel). apply AlongFacts.at_ext. intros ax Hax.
  assert (Hs : In (ax, asize a ax) (sshape a)) by (now apply in_sshape). specialize (Sel ax _ Hs). destruct (Dn ax) as [Q|Q]; rewrite Q in Sel; exact Sel.
Qed.

Lemma joint_in l l' T : (forall s, In s l <-> In s l') -> joint l T -> joint l' T.
Proof.
  intros H (N & F & E). split; [exact N|]. split; [intros s Hs; apply F; now apply H|]. intros ax n Hn. destruct (E ax n Hn) as (s & Hs & Q). exists s. split; [now apply H|exact Q].
Qed.

Lemma getitem_same {B} (a : sarr B) (it itb : dict item) rb :
  wf a -> NoDup (dkeys it) -> NoDup (dkeys itb) -> Forall (fun kv => item_wf (snd kv)) it -> Forall (fun kv => item_wf (snd kv)) itb ->
  (forall ax, In ax (s_axes a) -> exists v, dget itb ax = Some (ItArr v)) ->
  (forall ax, In ax (s_axes a) -> dget it ax = dget itb ax) ->
  getitem a itb = Ok rb ->
  exists r, getitem a it = Ok r /\ wf r /\ same_array r rb.
Proof.
  intros W N Nb F Fb Arr Ag G. destruct (getitem_narrow a a it itb rb W W) as (r & Er & Wr & Vr); auto.
  exists r. split; [exact Er|]. split; [exact Wr|].
  destruct (getitem_full a itb rb W Nb Fb G) as (Wrb & _ & sb & Esb & Axb & Sb & _). destruct (getitem_full a it r W N F Er) as (_ & _ & sa & Esa & Axa & Sa & _).
  assert (Ja := broadcast_joint _ _ (index_shapes_NoDup (s_axes a) it N F) Esa). assert (Jb := broadcast_joint _ _ (index_shapes_NoDup (s_axes a) itb Nb Fb) Esb).
  assert (Sab : same_shape sa sb).
  { apply (VectorReduceFacts.joint_unique (index_shapes (s_axes a) it)); [exact Ja|]. apply (joint_in (index_shapes (s_axes a) itb)); [|exact Jb]. intros s. rewrite (index_shapes_In _ it s N), (index_shapes_In _ itb s Nb).
    split; intros (ax & v & H1 & H2 & H3); exists ax, v; [rewrite Ag by exact H1|rewrite <- Ag by exact H1]; auto. }
  assert (Full : forall (x : sarr B) i s, wf x -> (forall ax, In ax (s_axes a) -> dget i ax = dget itb ax) -> NoDup (dkeys s) -> s_axes x = dkeys s ++ filter (fun ax => keeps_axis (dget i ax)) (s_axes a) ->
            (forall ax n, In (ax, n) s -> In (ax, n) (sshape x)) -> same_shape (sshape x) s).
  { intros x i s Wx Ai Ns Ax Sx ax n. split; [|apply Sx]. intros H. assert (Hk : In ax (s_axes x)) by (rewrite <- (wf_keys x Wx); exact (in_map fst _ _ H)).
    rewrite Ax in Hk. apply in_app_iff in Hk. destruct Hk as [Hk|Hk].
    - apply in_map_iff in Hk. destruct Hk as ([k m] & <- & Hm). cbn [fst] in *. assert (Hm' := Sx k m Hm).
      assert (X := dget_NoDup _ _ _ (wf_nodup x Wx) Hm'). rewrite (dget_NoDup _ _ _ (wf_nodup x Wx) H) in X. congruence.
    - apply filter_In in Hk. destruct Hk as (Ha & Hk). rewrite (Ai ax Ha) in Hk. destruct (Arr ax Ha) as (v & E). rewrite E in Hk. discriminate. }
  assert (S1 := Full r it sa Wr Ag (proj1 Ja) Axa Sa). assert (S2 := Full rb itb sb Wrb (fun _ _ => eq_refl) (proj1 Jb) Axb Sb).
  assert (Ss : same_shape (sshape r) (sshape rb)) by (intros ax n; rewrite (S1 ax n), (Sab ax n), (S2 ax n); tauto).
  split; [exact Ss|]. intros e He. rewrite <- (bat_inside r e Wr He). apply Vr. intros ax n Hn. apply He. now apply Ss.
Qed.

End Arg.

Lemma nonzero_inside sh : (forall ax n, In (ax, n) sh -> n <> 0) -> inside (fun _ => 0) sh.
Proof. intros H ax n Hn. specialize (H ax n Hn). lia. Qed.

Lemma first_least_refl {A} (le : A -> A -> Prop) pick x : first_least le pick -> le x x.
Proof.
  intros F. destruct (F [x]) as (y & E & L & _); [discriminate|]. assert (y = x); [|subst; apply L; now left].
  apply nth_error_In in E. destruct E as [->|[]]. reflexivity.
Qed.

Lemma shared_In l sh ax : In ax (shared l sh) <-> In ax l /\ In ax (dkeys sh).
Proof. unfold shared. rewrite filter_In, smem_In. tauto. Qed.

Lemma searchable_sortable {A} (v : vec A) l p a : vec_wf v -> NoDup l -> searchable v l -> leaf_at v p = Some (OpArr a) -> shared l (sshape a) <> [] ->
  wf a /\ sortable a (shared l (sshape a)) /\ total_size (sshape a) (shared l (sshape a)) <> 0.
Proof.
  intros W Nl H L NE. assert (Wa : wf a) by exact (tree_ok_leaf_at op_wf v p (OpArr a) W L). destruct (H p a L NE) as (H1 & H2).
  assert (I : incl (shared l (sshape a)) (s_axes a)) by (intros ax Hx; apply shared_In in Hx; rewrite <- (wf_keys a Wa); apply Hx).
  split; [exact Wa|]. split.
  - split; [exact NE|]. split; [apply NoDup_filter, Nl|]. split; [exact I|]. intros ax n Hn Hs. split; [exact (H1 ax n Hn)|].
    assert (Ha : In ax (s_axes a)) by (rewrite <- (wf_keys a Wa); exact (in_map fst _ _ Hn)).
    apply H2; [exact Ha|]. intros X. apply Hs. apply shared_In. split; [exact X|]. exact (in_map fst _ _ Hn).
  - now apply nonempty_total.
Qed.

(** one scalar *)
Lemma leaf_argmin {A} (le : A -> A -> Prop) pick (v : vec A) l it p o d : first_least le pick -> vec_wf v -> NoDup l -> searchable v l ->
  leaf_at v p = Some o -> leaf_arg pick o l = Ok d -> incl (dkeys d) (dkeys it) -> NoDup (dkeys it) ->
  (forall ax t, dget it ax = Some t -> reaches t p = Some (entry d ax)) ->
  forall di, items_at it p di -> exists ro,
    match o with OpArr a => exists b, getitem a di = Ok b /\ ro = OpArr b | OpNum x => ro = OpNum x end /\ op_wf ro /\
    (forall ax n, In (ax, n) (op_shape ro) <-> In (ax, n) (op_shape o) /\ ~ In ax l) /\
    forall e, inside e (op_shape ro) -> exists q, first_at le o l e q /\ op_at ro e = op_at o q /\
      (shared l (op_shape o) <> [] -> forall ax, In ax (dkeys (op_shape o)) -> exists t w, dget it ax = Some t /\ reaches t p = Some (ItArr w) /\ bat w e = Z.of_nat (q ax)).
Proof.
  intros F W Nl Se L Ed Id Nit Rd di Hdi. assert (Wo : op_wf o) by exact (tree_ok_leaf_at op_wf v p o W L).
  destruct (items_at_get it p di Nit Hdi) as (Kd & Gd). assert (Nd : NoDup (dkeys di)) by (rewrite Kd; exact Nit).
  assert (None_case : shared l (op_shape o) = [] -> forall ro : operand A, op_wf ro -> same_shape (op_shape ro) (op_shape o) -> (forall e, inside e (op_shape ro) -> op_at ro e = op_at o e) ->
    (forall ax n, In (ax, n) (op_shape ro) <-> In (ax, n) (op_shape o) /\ ~ In ax l) /\
    forall e, inside e (op_shape ro) -> exists q, first_at le o l e q /\ op_at ro e = op_at o q /\
      (shared l (op_shape o) <> [] -> forall ax, In ax (dkeys (op_shape o)) -> exists t w, dget it ax = Some t /\ reaches t p = Some (ItArr w) /\ bat w e = Z.of_nat (q ax))).
  { intros Es ro Wr Ss V. assert (NI : forall ax, In ax (dkeys (op_shape o)) -> ~ In ax l).
    { intros ax H1 H2. assert (X : In ax (shared l (op_shape o))) by (apply shared_In; auto). rewrite Es in X. destruct X. }
    split.
    - intros ax n. rewrite (Ss ax n). split; [intros H; split; [exact H|apply NI; exact (in_map fst _ _ H)]|tauto].
    - intros e He. assert (He' : inside e (op_shape o)) by (intros ax n Hn; apply He; now apply Ss). exists e. split; [|split; [now apply V|congruence]].
      split; [split; [exact He'|reflexivity]|]. intros q' (I' & Q'). rewrite Es. cbn [map]. split; [|cbn; lia].
      assert (E : op_at o q' = op_at o e); [|rewrite E; exact (first_least_refl le pick _ F)].
      destruct o as [a|x]; [|reflexivity]. cbn [op_at op_shape] in *. rewrite (bat_inside a q' Wo I'), (bat_inside a e Wo He'). apply AlongFacts.at_ext.
      intros ax Hax. rewrite <- (wf_keys a Wo) in Hax. apply Q'; [exact Hax|now apply NI]. }
  unfold leaf_arg in Ed. change (own_axes l (op_shape o)) with (shared l (op_shape o)) in Ed.
  destruct o as [a|x].
  2:{ exists (OpNum x). split; [reflexivity|]. split; [exact Logic.I|]. apply None_case; [|exact Logic.I|intros ax n; tauto|reflexivity].
      unfold shared. cbn [op_shape dkeys map]. clear. induction l as [|y l IH]; [reflexivity|exact IH]. }
  cbn [op_shape op_wf op_at] in *. change (normalize (OpArr a)) with a in Ed.
  destruct (shared l (sshape a)) as [|s0 s'] eqn:Es.
  - injection Ed as <-. destruct (getitem_none a di Wo Nd) as (b & Eb & Wb & Sb).
    { intros ax. destruct (dget it ax) as [t|] eqn:Ht.
      - destruct (Gd ax t Ht) as (i & Ri & Di). rewrite (Rd ax t Ht) in Ri. right. rewrite Di. exact (eq_sym Ri).
      - left. apply dget_None. rewrite Kd. now apply dget_None. }
    exists (OpArr b). split; [exists b; auto|]. split; [exact Wb|]. apply (None_case eq_refl (OpArr b)); [exact Wb|apply Sb|]. cbn [op_shape op_at]. intros e He.
    rewrite (bat_inside b e Wb He), (bat_inside a e Wo); [now apply Sb|]. intros ax n Hn. apply He. now apply Sb.
  - rewrite <- Es in *. assert (NE : shared l (sshape a) <> []) by (rewrite Es; discriminate). clear Es s0 s'.
    assert (Ed' : na_arg_reduce pick a (Some (shared l (sshape a))) = Ok d) by (destruct (shared l (sshape a)); [congruence|exact Ed]). clear Ed.
    destruct (searchable_sortable v l p a W Nl Se L NE) as (_ & So & NZ).
    destruct (argmin_spec le pick a _ Wo F So NZ) as (d' & rb & E' & Gr & Wrb & _ & Sr & V). assert (d' = d) by congruence. subst d'.
    destruct (arg_keys pick (first_least_range le pick F) a _ d Wo Ed') as (_ & _ & Ndd & Kdd).
    assert (I0 : inside (fun _ => 0) (sshape rb)).
    { apply nonzero_inside. intros ax n Hn. rewrite Sr in Hn. apply filter_In in Hn. exact (proj1 (Se p a L NE) ax n (proj1 Hn)). }
    assert (Dw : forall ax, In ax (s_axes a) -> exists w, dget d ax = Some w /\ wf w).
    { intros ax Hax. destruct (V _ I0) as (q & _ & _ & X & _). destruct (X ax Hax) as (w & Ew & Ww & _). eauto. }
    assert (Dd : forall ax w, dget d ax = Some w -> wf w).
    { intros ax w Ew. assert (Hax : In ax (s_axes a)) by (apply Kdd; exact (in_map fst _ _ (dget_In _ _ _ Ew))). destruct (Dw ax Hax) as (w' & Ew' & Ww). congruence. }
    assert (Ki : dkeys (as_item d) = dkeys d) by (unfold as_item, dkeys; rewrite map_map; reflexivity).
    destruct (getitem_same a di (as_item d) rb Wo Nd) as (r & Er & Wr & Sa); auto.
    + now rewrite Ki.
    + apply Forall_forall. intros [ax i] Hi. cbn [snd]. assert (Hk : In ax (dkeys it)) by (rewrite <- Kd; exact (in_map fst _ _ Hi)).
      apply dget_Some_key in Hk. destruct Hk as (t & Ht). destruct (Gd ax t Ht) as (i' & Ri & Di). rewrite (Rd ax t Ht) in Ri.
      assert (i' = i) by (rewrite (dget_NoDup di ax i Nd Hi) in Di; congruence). subst i'. injection Ri as <-. unfold entry. destruct (dget d ax) as [w|] eqn:Ev; [exact (Dd ax w Ev)|exact Logic.I].
    + apply Forall_forall. intros [ax i] Hi. unfold as_item in Hi. apply in_map_iff in Hi. destruct Hi as ([k w] & [= <- <-] & Hi). cbn [snd]. exact (Dd k w (dget_NoDup _ _ _ Ndd Hi)).
    + intros ax Hax. destruct (Dw ax Hax) as (w & Ew & _). exists w. unfold as_item. rewrite (dget_map_snd (fun w => ItArr w)), Ew. reflexivity.
    + intros ax Hax. destruct (Dw ax Hax) as (w & Ew & _). unfold as_item. rewrite (dget_map_snd (fun w => ItArr w)), Ew. cbn [option_map].
      assert (Hk : In ax (dkeys it)) by (apply Id, Kdd; exact Hax). apply dget_Some_key in Hk. destruct Hk as (t & Ht). destruct (Gd ax t Ht) as (i & Ri & Di). rewrite (Rd ax t Ht) in Ri.
      unfold entry in Ri. rewrite Ew in Ri. congruence.
    + exists (OpArr r). split; [exists r; auto|]. split; [exact Wr|]. cbn [op_shape op_at]. split.
      * intros ax n. rewrite (proj1 Sa ax n), Sr, filter_In. cbn [fst]. rewrite negb_true_iff. split; intros (H1 & H2); (split; [exact H1|]).
        -- intros X. apply not_true_iff_false in H2. apply H2, smem_In, shared_In. split; [exact X|]. exact (in_map fst _ _ H1).
        -- apply not_true_iff_false. intros X. apply smem_In, shared_In in X. now apply H2.
      * intros e He. assert (He' : inside e (sshape rb)) by (intros ax n Hn; apply He; now apply (proj1 Sa)).
        destruct (V e He') as (q & Iq & Oq & Dq & Eq & Lq).
        assert (Sh : forall ax, In ax (s_axes a) -> ~ In ax l -> ~ In ax (shared l (sshape a))) by (intros ax _ H X; apply shared_In in X; tauto).
        assert (Sh' : forall ax, In ax (s_axes a) -> ~ In ax (shared l (sshape a)) -> ~ In ax l) by (intros ax H1 H2 X; apply H2, shared_In; rewrite (wf_keys a Wo); auto).
        exists q. split; [|split].
        -- split; [split; [exact Iq|intros ax H1 H2; cbn [op_shape] in H1; rewrite (wf_keys a Wo) in H1; apply Oq; auto]|]. cbn [op_shape op_at]. intros q' (I' & O'). cbn [op_shape] in *.
           rewrite (bat_inside a q Wo Iq), (bat_inside a q' Wo I'). apply Lq; [exact I'|]. intros ax H1 H2. apply O'; [now rewrite (wf_keys a Wo)|auto].
        -- rewrite (bat_inside r e Wr He), (bat_inside a q Wo Iq), (proj2 Sa e He). exact Eq.
        -- intros _ ax Hax. rewrite (wf_keys a Wo) in Hax. destruct (Dq ax Hax) as (w & Ew & _ & Vw).
           assert (Hk : In ax (dkeys it)) by (apply Id, Kdd; exact Hax). apply dget_Some_key in Hk. destruct Hk as (t & Ht).
           exists t, w. split; [exact Ht|]. split; [|exact Vw]. rewrite (Rd ax t Ht). unfold entry. now rewrite Ew.
Qed.

Lemma items_at_exists {L M} (v : tree L) (it : dict (tree M)) p : items_suit v it -> leaf_at v p <> None -> exists d, items_at it p d.
Proof.
  intros Su Lo. unfold items_at. assert (Sx : forall kv, In kv it -> exists i, reaches (snd kv) p = Some i).
  { intros kv Hkv. assert (Q := proj2 (Su kv Hkv) p Lo). destruct (reaches (snd kv) p) as [i|]; [eauto|congruence]. }
  clear - Sx. induction it as [|kv it IH]; [exists []; constructor|]. destruct IH as (d & Hd); [intros; apply Sx; now right|].
  destruct (Sx kv (or_introl eq_refl)) as (i & Hi). exists ((fst kv, i) :: d). constructor; auto.
Qed.

Lemma leaf_arg_ok {A} (le : A -> A -> Prop) pick (v : vec A) l p o : first_least le pick -> vec_wf v -> NoDup l -> searchable v l -> leaf_at v p = Some o ->
  exists d, leaf_arg pick o l = Ok d /\ forall ax, In ax (dkeys d) <-> shared l (op_shape o) <> [] /\ In ax (dkeys (op_shape o)).
Proof.
  intros F W Nl Se L. unfold leaf_arg. change (own_axes l (op_shape o)) with (shared l (op_shape o)).
  destruct (shared l (op_shape o)) as [|s0 s'] eqn:Es; [exists []; split; [reflexivity|]; intros ax; cbn; split; [intros []|intros (H & _); congruence]|].
  destruct o as [a|x].
  2:{ exfalso. assert (X : In s0 (shared l (op_shape (OpNum x)))) by (rewrite Es; now left). apply shared_In in X. destruct X as (_ & []). }
  cbn [op_shape] in *. rewrite <- Es. assert (NE : shared l (sshape a) <> []) by (rewrite Es; discriminate).
  destruct (searchable_sortable v l p a W Nl Se L NE) as (Wa & So & NZ). destruct (argmin_spec le pick a _ Wa F So NZ) as (d & r & E & _).
  exists d. split; [exact E|]. intros ax. destruct (arg_keys pick (first_least_range le pick F) a _ d Wa E) as (_ & _ & _ & K). rewrite K, (wf_keys a Wa). tauto.
Qed.

Theorem vec_argmin_spec {A} (le : A -> A -> Prop) (pick : list A -> nat) arrange ty (cs : list (string * vec A)) l sh :
  let v := Node ty cs in
  first_least le pick -> lists_set arrange -> vec_wf v -> vec_shape v = Ok sh -> NoDup l -> incl l (dkeys sh) -> searchable v l ->
  exists it r, vec_arg_reduce arrange pick v (Some l) = Ok it /\ vec_getitem v it = Ok r /\ same_kind v r /\ NoDup (dkeys it) /\
    (forall ax, In ax (dkeys it) <-> exists p o, leaf_at v p = Some o /\ shared l (op_shape o) <> [] /\ In ax (dkeys (op_shape o))) /\
    forall p o, leaf_at v p = Some o -> exists ro, leaf_at r p = Some ro /\ op_wf ro /\
      (forall ax n, In (ax, n) (op_shape ro) <-> In (ax, n) (op_shape o) /\ ~ In ax l) /\
      (shared l (op_shape o) = [] -> forall ax t, dget it ax = Some t -> reaches t p = Some ItNone) /\
      forall e, inside e (op_shape ro) -> exists q, first_at le o l e q /\ op_at ro e = op_at o q /\
        (shared l (op_shape o) <> [] -> forall ax, In ax (dkeys (op_shape o)) -> exists t w, dget it ax = Some t /\ reaches t p = Some (ItArr w) /\ bat w e = Z.of_nat (q ax)).
Proof.
  intros v F Ar W Sv Nl I Se.
  destruct (arg_rec_spec arrange pick Ar (first_least_range le pick F) v W l sh Sv I) as [(it & E & Nit & Su & Kit & Lf)|(_ & p & o & L & E)].
  { right. now exists ty, cs. }
  2:{ destruct (leaf_arg_ok le pick v l p o F W Nl Se L) as (d & E' & _). congruence. }
  assert (One : forall p o di, leaf_at v p = Some o -> items_at it p di -> exists ro,
    match o with OpArr a => exists b, getitem a di = Ok b /\ ro = OpArr b | OpNum x => ro = OpNum x end /\ op_wf ro /\
    (forall ax n, In (ax, n) (op_shape ro) <-> In (ax, n) (op_shape o) /\ ~ In ax l) /\
    forall e, inside e (op_shape ro) -> exists q, first_at le o l e q /\ op_at ro e = op_at o q /\
      (shared l (op_shape o) <> [] -> forall ax, In ax (dkeys (op_shape o)) -> exists t w, dget it ax = Some t /\ reaches t p = Some (ItArr w) /\ bat w e = Z.of_nat (q ax))).
  { intros p o di L Hd. destruct (Lf p o L) as (d & Eo & In_d & Rd). exact (leaf_argmin le pick v l it p o d F W Nl Se L Eo In_d Nit Rd di Hd). }
  destruct (vec_getitem_success v it W Su) as (r & Er).
  { intros p a d L Hd. destruct (One p (OpArr a) d L Hd) as (ro & (b & Eb & _) & _). eauto. }
  exists it, r. split; [exact E|]. split; [exact Er|]. destruct (vec_getitem_spec v it r Su Er) as (Kr & Ix). split.
  { split; [intros p; symmetry; apply Kr|]. intros p. specialize (Ix p). destruct (leaf_at v p) as [[a|z]|].
    - destruct Ix as (d & b & _ & _ & ->). split; discriminate.
    - rewrite Ix. split; discriminate.
    - rewrite Ix. tauto. }
  split; [exact Nit|]. split.
  { intros ax. split.
    - intros H. destruct (Kit ax H) as (p & o & d & L & Eo & Hd). exists p, o. split; [exact L|].
      destruct (leaf_arg_ok le pick v l p o F W Nl Se L) as (d' & E' & K). assert (d' = d) by congruence. subst d'. now apply K.
    - intros (p & o & L & H). destruct (Lf p o L) as (d & Eo & In_d & _). apply In_d.
      destruct (leaf_arg_ok le pick v l p o F W Nl Se L) as (d' & E' & K). assert (d' = d) by congruence. subst d'. now apply K. }
  intros p o L. destruct (items_at_exists v it p Su) as (di & Hdi); [congruence|].
  destruct (One p o di L Hdi) as (ro & Ro & Wr & Sr & V). exists ro. split.
  { specialize (Ix p). rewrite L in Ix. destruct o as [a|x]; [|now subst ro]. destruct Ro as (b & Eb & ->). destruct Ix as (d' & b' & Hd' & Eb' & ->).
    rewrite (items_at_det it p d' di Hd' Hdi) in Eb'. congruence. }
  split; [exact Wr|]. split; [exact Sr|]. split; [|exact V].
  intros Es ax t Ht. destruct (Lf p o L) as (d & Eo & _ & Rd). rewrite (Rd ax t Ht). unfold leaf_arg in Eo. change (own_axes l (op_shape o)) with (shared l (op_shape o)) in Eo.
  rewrite Es in Eo. injection Eo as <-. reflexivity.
Qed.

(** all the axes *)
Lemma vec_arg_none {A} arrange (pick : list A -> nat) (v : vec A) sh : vec_shape v = Ok sh -> sh <> [] ->
  vec_arg_reduce arrange pick v None = vec_arg_reduce arrange pick v (Some (dkeys sh)).
Proof. intros E H. unfold vec_arg_reduce. rewrite E. cbn [bind]. destruct sh; [congruence|reflexivity]. Qed.

(** refusals *)
Theorem vec_arg_refused {A} arrange (pick : list A -> nat) ty (cs : list (string * vec A)) l sh : let v := Node ty cs in
  lists_set arrange -> (forall x, x <> [] -> pick x < length x) -> vec_wf v -> vec_shape v = Ok sh ->
  (~ incl l (dkeys sh) \/ exists p a, leaf_at v p = Some (OpArr a) /\ shared l (sshape a) <> [] /\
     (~ NoDup (shared l (sshape a)) \/ (exists ax, In (ax, 0) (sshape a)) \/ exists ax, In ax (s_axes a) /\ ~ In ax l /\ ax = flat_name (shared l (sshape a)))) ->
  vec_arg_reduce arrange pick v (Some l) = Err ValueError.
Proof.
  intros v Ar Hp W Sv H. cbn [vec_arg_reduce]. destruct (forallb (fun ax => smem ax (dkeys sh)) l) eqn:B.
  2:{ unfold v in *. cbn [arg_rec]. rewrite Sv. cbn [bind]. rewrite B. reflexivity. }
  assert (I : incl l (dkeys sh)) by (intros ax Hax; rewrite forallb_forall in B; now apply smem_In, B).
  destruct H as [H|(p & a & L & NE & H)]; [contradiction|].
  destruct (arg_rec_spec arrange pick Ar Hp v W l sh Sv I) as [(it & E & _ & _ & _ & Lf)|(E & _)]; [right; now exists ty, cs| |exact E].
  exfalso. destruct (Lf p (OpArr a) L) as (d & Eo & _). unfold leaf_arg in Eo. change (own_axes l (op_shape (OpArr a))) with (shared l (sshape a)) in Eo.
  destruct (shared l (sshape a)) as [|s0 s'] eqn:Es; [congruence|]. rewrite <- Es in *. change (normalize (OpArr a)) with a in Eo.
  assert (Wa : wf a) by exact (tree_ok_leaf_at op_wf v p (OpArr a) W L).
  destruct (arg_keys pick Hp a _ d Wa Eo) as ((S1 & S2 & S3 & S4) & NZ & _). destruct H as [H|[(ax & H)|(ax & H1 & H2 & H3)]]; [contradiction| |].
  - destruct (in_dec string_dec ax (shared l (sshape a))) as [Hs|Hs]; [|exact (proj1 (S4 ax 0 H Hs) eq_refl)].
    apply NZ. assert (Dx := dget_NoDup _ _ _ (wf_nodup a Wa) H). clear - Hs Dx. unfold total_size. revert Hs.
    generalize (shared l (sshape a)). intros m. induction m as [|x m IH]; [intros []|]. intros [->|Z]; cbn [fold_right]; [rewrite Dx; reflexivity|].
    rewrite (IH Z). destruct (dget (sshape a) x); lia.
  - assert (Hn : In (ax, asize a ax) (sshape a)) by (now apply in_sshape). destruct (S4 ax _ Hn) as (_ & X); [intros Y; apply shared_In in Y; tauto|congruence].
Qed.

(** ** The least elements *)

Lemma op_nodup'' {A} (o : operand A) : op_wf o -> NoDup (dkeys (op_shape o)).
Proof. destruct o; [intros W; apply wf_nodup; exact W|constructor]. Qed.

Lemma clamp_inside {A} (o : operand A) T e : op_wf o -> fits_in (op_shape o) T -> inside e T -> inside (bclamp (op_shape o) e) (op_shape o).
Proof.
  intros W F I ax n H. unfold bclamp. rewrite (dget_NoDup _ _ _ (op_nodup'' o W) H). destruct (F ax n H) as (m & Hm & Q). assert (e ax < m) by exact (I ax m Hm).
  destruct n as [|[|n]]; [destruct Q; lia|lia|destruct Q; lia].
Qed.

Lemma clamp_self {A} (o : operand A) e : op_wf o -> op_at o (bclamp (op_shape o) e) = op_at o e.
Proof. intros W. apply op_at_clamp; [exact W|now apply op_nodup''|]. intros ax n H. now right. Qed.

Lemma vec_shape_joint {A} (v : vec A) sh : vec_wf v -> vec_shape v = Ok sh -> joint (map op_shape (leaves v)) sh.
Proof.
  intros W E. assert (Q := vec_shape_leaves v W). rewrite E in Q. assert (N := vec_shape_NoDup v sh W E).
  destruct (broadcast_shapes (map op_shape (leaves v))) as [r|] eqn:Er; [|contradiction]. cbn in Q.
  destruct (broadcast_joint _ _ (leaf_shapes_NoDup v W) Er) as (_ & J1 & J2). split; [exact N|]. split.
  - intros s Hs ax n H. destruct (J1 s Hs ax n H) as (m & Hm & X). exists m. split; [now apply Q|exact X].
  - intros ax n H. apply J2. now apply Q.
Qed.

Theorem vec_argmin_min {A} (le : A -> A -> Prop) (pick : list A -> nat) (m : list A -> A) arrange ty (cs : list (string * vec A)) l sh :
  let v := Node ty cs in
  (forall x y, le x y -> le y x -> x = y) -> first_least le pick -> least le m -> lists_set arrange ->
  vec_wf v -> filled v -> vec_shape v = Ok sh -> NoDup l -> incl l (dkeys sh) -> (forall ax, In ax l -> size_of sh ax <> 0) -> searchable v l ->
  exists it r w, vec_arg_reduce arrange pick v (Some l) = Ok it /\ vec_getitem v it = Ok r /\
    vec_reduce false m v (Some l) false None = Ok w /\ same_kind r w /\
    forall p ro wo, leaf_at r p = Some ro -> leaf_at w p = Some wo ->
      forall e, inside e (reduced false l sh) -> op_at ro e = op_at wo e.
Proof.
  intros v AS F M Ar W Fl Sv Nl I NZ Se.
  destruct (vec_argmin_spec le pick arrange ty cs l sh F Ar W Sv Nl I Se) as (it & r & E1 & E2 & Kr & _ & _ & Lf).
  destruct (vec_reduce_values false m (Some l) false ty cs None sh (least_symmetric le m AS M) W Fl) as (w & E3 & Kw & Lw).
  { intros w' H. discriminate. }
  { unfold leaf_shapes. rewrite app_nil_r. exact (vec_shape_joint _ sh W Sv). }
  { intros l' [= <-]. auto. }
  { right. auto. }
  exists it, r, w. split; [exact E1|]. split; [exact E2|]. split; [exact E3|]. split.
  { split; [intros p; rewrite Kw; symmetry; apply Kr|]. intros p. rewrite <- (proj2 Kr p). specialize (Lw p). destruct (leaf_at (Node ty cs) p); [destruct Lw as (a & -> & _); split; discriminate|rewrite Lw; tauto]. }
  intros p ro wo Lro Lwo e He. destruct (leaf_at (Node ty cs) p) as [o|] eqn:Lo; [|apply (proj2 Kr) in Lo; congruence].
  destruct (Lf p o Lo) as (ro' & Lro' & Wro & Sro & _ & V). assert (ro' = ro) by congruence. subst ro'.
  specialize (Lw p). rewrite Lo in Lw. destruct Lw as (a & La & _ & _ & Va). assert (wo = OpArr a) by congruence. subst wo. cbn [op_at]. 
  rewrite (Va e He). cbn [axes_of]. assert (Fo := leaf_fits_shape v sh o W Sv (leaf_In _ _ _ Lo)).
  assert (N := vec_shape_NoDup v sh W Sv). assert (Wo : op_wf o) by exact (tree_ok_leaf_at op_wf v p o W Lo).
  assert (Eo : forall ax n, In (ax, n) sh -> ~ In ax l -> e ax < n).
  { intros ax n H1 H2. apply He. unfold reduced. apply filter_In. split; [exact H1|]. cbn [fst]. apply negb_true_iff, not_true_iff_false. rewrite smem_In. exact H2. }
  rewrite <- (clamp_self ro e Wro). set (e1 := bclamp (op_shape ro) e) in *.
  assert (I1 : inside e1 (op_shape ro)).
  { intros ax n H. apply Sro in H as H'. destruct H' as (H1 & H2). unfold e1, bclamp. rewrite (dget_NoDup _ _ _ (op_nodup'' ro Wro) H). destruct (Fo ax n H1) as (k & Hk & Q). assert (X := Eo ax k Hk H2).
    destruct n as [|[|n]]; [destruct Q; lia|lia|destruct Q; lia]. }
  assert (E1' : forall ax n, In (ax, n) (op_shape o) -> ~ In ax l -> e1 ax = if n =? 1 then 0 else e ax).
  { intros ax n H1 H2. unfold e1, bclamp. rewrite (dget_NoDup _ ax n (op_nodup'' ro Wro)); [|apply Sro; auto]. destruct n as [|[|n]]; reflexivity. }
  destruct (V e1 I1) as (q & ((Iq & Oq) & Lq) & -> & _). clear V.
  set (L := map (op_at o) (fibre sh l e)). assert (Nin : filter (allowed None p) (fibre sh l e) = fibre sh l e) by (clear; induction (fibre sh l e) as [|y ys IH]; [reflexivity|cbn in *; now rewrite IH]).
  rewrite Nin. fold L.
  assert (Q1 : In (op_at o q) L).
  { destruct (OptimizeFacts.fibre_all sh l (fun ax => match dget (op_shape o) ax with Some _ => q ax | None => 0 end) e) as (e' & He' & X).
    { intros ax Hax. assert (Z := NZ ax Hax). destruct (dget (op_shape o) ax) as [n|] eqn:D; [|lia]. apply dget_In in D. destruct (Fo ax n D) as (k & Hk & Y).
      rewrite (size_of_In _ _ _ N Hk) in *. assert (q ax < n) by exact (Iq ax n D). destruct Y; lia. }
    apply in_map_iff. exists e'. split; [|exact He']. destruct (fibre_inside sh l e e' He') as (_ & Off).
    rewrite <- (clamp_self o e' Wo), <- (clamp_self o q Wo). destruct o as [b|x]; [|reflexivity]. cbn [op_at]. unfold bat. apply AlongFacts.at_ext. intros ax Hax.
    unfold bclamp. cbn [op_shape op_wf] in *. rewrite <- (wf_keys b Wo) in Hax. apply in_map_iff in Hax. destruct Hax as ([k n] & <- & Hn). cbn [fst].
    rewrite (dget_NoDup _ _ _ (wf_nodup b Wo) Hn). destruct (Nat.eq_dec n 1) as [->|N1]; [reflexivity|]. assert (Y : e' k = q k); [|destruct n as [|[|n]]; congruence].
    destruct (in_dec string_dec k l) as [Hl|Hl].
    - rewrite (X k Hl), (dget_NoDup _ _ _ (wf_nodup b Wo) Hn). reflexivity.
    - rewrite (Off k Hl), (Oq k (in_map fst _ _ Hn) Hl), (E1' k n Hn Hl). apply Nat.eqb_neq in N1. now rewrite N1. }
  assert (Q2 : forall y, In y L -> le (op_at o q) y).
  { intros y Hy. apply in_map_iff in Hy. destruct Hy as (e' & <- & He'). assert (Ie' : inside e' sh) by exact (fibre_in sh l e e' N He' Eo). destruct (fibre_inside sh l e e' He') as (_ & Off).
    rewrite <- (clamp_self o e' Wo). apply Lq. split; [exact (clamp_inside o sh e' Wo Fo Ie')|].
    intros ax H1 H2. apply in_map_iff in H1. destruct H1 as ([k n] & <- & Hn). cbn [fst] in *. rewrite (E1' k n Hn H2). unfold bclamp. rewrite (dget_NoDup _ _ _ (op_nodup'' o Wo) Hn), (Off k H2).
    destruct n as [|[|n]]; reflexivity. }
  assert (NE : L <> []) by (intros Z; rewrite Z in Q1; destruct Q1). destruct (M L NE) as (M1 & M2). apply AS; auto.
Qed.

Lemma vec_arg_scalar {A} arrange (pick : list A -> nat) (v : vec A) : vec_shape v = Ok [] -> vec_arg_reduce arrange pick v None = Err ValueError.
Proof. intros E. unfold vec_arg_reduce. rewrite E. reflexivity. Qed.
