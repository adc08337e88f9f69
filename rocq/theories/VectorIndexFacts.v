(** Facts about masking vectors and assigning to them. *)
From Coq Require Import Ascii String List Arith ZArith Bool Lia.
From Verif Require Import Base BaseFacts Numpy NumpyFacts Shapes Scalar Elementwise Vector Spec SpecVector
  ShapesFacts AlignFacts GetitemFacts SetitemFacts AlongFacts SortingFacts LinspaceFacts VectorFacts CartesianFacts.
Import ListNotations.
Open Scope nat_scope.
Open Scope list_scope.

(** ** Broadcasting *)

Lemma broadcast_bat {A} (a r : sarr A) sh e :
  wf a -> NoDup (dkeys sh) -> na_broadcast_to a sh false = Ok r -> bat r e = bat a e.
Proof.
  intros W N H. destruct (na_broadcast_to_ok a sh r W N H) as (I & F & Wr & S & V).
  unfold bat at 1. rewrite V. unfold bat, at_. f_equal. apply map_ext_in. intros ax Hax.
  unfold bclamp. rewrite S. destruct (dget (sshape a) ax) as [n|] eqn:D.
  - destruct (F ax n D) as [-> |K]; [reflexivity|].
    rewrite (dget_NoDup sh ax n N K). destruct n as [|[|n]]; reflexivity.
  - exfalso. apply dget_None in D. apply D. now rewrite wf_keys.
Qed.

Lemma op_broadcast_spec {A} (o r : operand A) sh :
  op_wf o -> NoDup (dkeys sh) -> op_broadcast_to o sh = Ok r ->
  op_wf r /\ op_shape r = sh /\ (forall e, op_at r e = op_at o e) /\
  (forall ax n, In (ax, n) (op_shape o) -> n = 1 \/ In (ax, n) sh) /\ incl (dkeys (op_shape o)) (dkeys sh).
Proof.
  intros W N H. unfold op_broadcast_to in H. apply bind_ok in H. destruct H as (b & H & E). inversion E; subst r.
  assert (Wn := normalize_wf o W).
  destruct (na_broadcast_to_ok (normalize o) sh b Wn N H) as (I & F & Wb & S & V).
  split; [exact Wb|]. split; [exact S|]. split.
  - intros e. simpl. rewrite (broadcast_bat (normalize o) b sh e Wn N H). apply op_at_normalize.
  - split.
    + intros ax n K. apply F. rewrite normalize_shape. apply dget_NoDup; [|exact K].
      rewrite <- normalize_shape. now apply wf_nodup.
    + rewrite <- normalize_shape, wf_keys by exact Wn. exact I.
Qed.

Definition broadcasted {A} (sh : shape) (v b : vec A) : Prop :=
  (forall p, kind b p = kind v p) /\
  forall p, match leaf_at v p with
            | Some o => exists r, leaf_at b p = Some r /\ op_wf r /\ op_shape r = sh /\
                (forall e, op_at r e = op_at o e) /\
                (forall ax n, In (ax, n) (op_shape o) -> n = 1 \/ In (ax, n) sh)
            | None => leaf_at b p = None
            end.

Lemma vec_broadcast_node {A} ty (cs : list (string * vec A)) sh b :
  vec_broadcast_to (Node ty cs) sh = Ok b ->
  exists rs, b = Node ty rs /\
    Forall2 (fun kv kr => fst kr = fst kv /\ vec_broadcast_to (snd kv) sh = Ok (snd kr)) cs rs.
Proof.
  intros H. cbn [vec_broadcast_to] in H. apply bind_ok in H. destruct H as (rs & H & E). inversion E; subst.
  exists rs. split; [reflexivity|].
  exact (on_components_ok (fun _ x => vec_broadcast_to x sh) cs rs H).
Qed.

Lemma vec_broadcast_wf {A} sh (v : vec A) : forall b,
  vec_wf v -> NoDup (dkeys sh) -> vec_broadcast_to v sh = Ok b ->
  vec_wf b /\ depth b = depth v /\ Forall (fun o => op_shape o = sh) (leaves b) /\
  (leaves b = [] <-> leaves v = []).
Proof.
  induction v as [o|ty cs IH] using tree_rect'; intros b W N H.
  - cbn [vec_broadcast_to] in H. apply bind_ok in H. destruct H as (r & H & E). inversion E; subst.
    inversion W; subst. destruct (op_broadcast_spec o r sh H1 N H) as (Wr & S & _).
    split; [now constructor|]. split; [reflexivity|]. simpl. split; [now repeat constructor|].
    split; discriminate.
  - destruct (vec_broadcast_node ty cs sh b H) as (rs & -> & F). inversion W as [|? ? Nc W']; subst. clear W H.
    assert (Names : map fst rs = map fst cs).
    { exact (Forall2_names (fun kv kr => vec_broadcast_to (snd kv) sh = Ok (snd kr)) cs rs F). }
    assert (X : (forall c y, In (c, y) rs -> vec_wf y) /\
                map (fun kv => depth (snd kv)) rs = map (fun kv => depth (snd kv)) cs /\
                Forall (fun o => op_shape o = sh) (flat_map (fun kv => leaves (snd kv)) rs) /\
                (flat_map (fun kv => leaves (snd kv)) rs = [] <-> flat_map (fun kv => leaves (snd kv)) cs = [])).
    { clear Nc Names. induction F as [|[c x] [c' y] cs rs [E Q] F IHF].
      - split; [intros ? ? []|]. split; [reflexivity|]. split; [constructor|]. tauto.
      - cbn [fst snd] in *. subst c'.
        destruct (IH c x (or_introl eq_refl) y (W' c x (or_introl eq_refl)) N Q) as (Wy & Dy & Sy & Ly).
        destruct IHF as (I1 & I2 & I3 & I4).
        { intros c1 x1 H1. apply (IH c1 x1). now right. }
        { intros c1 x1 H1. apply (W' c1 x1). now right. }
        split; [|split; [|split]].
        + intros c1 y1 [K|K]; [inversion K; now subst|exact (I1 c1 y1 K)].
        + cbn [map fst snd]. now rewrite Dy, I2.
        + cbn [flat_map fst snd]. apply Forall_app. auto.
        + cbn [flat_map fst snd]. split; intros K; apply app_eq_nil in K; destruct K as [K1 K2].
          * rewrite (proj1 Ly K1), (proj1 I4 K2). reflexivity.
          * rewrite (proj2 Ly K1), (proj2 I4 K2). reflexivity. }
    destruct X as (X1 & X2 & X3 & X4). split; [|split; [|split]].
    + constructor; [now rewrite Names|exact X1].
    + simpl. now rewrite X2.
    + exact X3.
    + exact X4.
Qed.

Lemma vec_broadcast_spec {A} sh (v : vec A) : forall b,
  vec_wf v -> NoDup (dkeys sh) -> vec_broadcast_to v sh = Ok b -> broadcasted sh v b.
Proof.
  induction v as [o|ty cs IH] using tree_rect'; intros b W N H.
  - cbn [vec_broadcast_to] in H. apply bind_ok in H. destruct H as (r & H & E). inversion E; subst.
    inversion W; subst. destruct (op_broadcast_spec o r sh H1 N H) as (Wr & S & V & F & _).
    split; [intros [|c p]; reflexivity|]. intros [|c p]; simpl; [|reflexivity]. exists r. auto.
  - destruct (vec_broadcast_node ty cs sh b H) as (rs & -> & F). inversion W as [|? ? Nc W']; subst. clear W H.
    assert (Names : map fst rs = map fst cs).
    { exact (Forall2_names (fun kv kr => vec_broadcast_to (snd kv) sh = Ok (snd kr)) cs rs F). }
    assert (G := Forall2_dget (fun _ x y => vec_broadcast_to x sh = Ok y) cs rs F).
    split.
    + intros [|c p]; simpl; [now rewrite Names|]. specialize (G c).
      destruct (dget cs c) as [x|] eqn:D, (dget rs c) as [y|]; try contradiction; [|reflexivity].
      apply dget_In in D. exact (proj1 (IH c x D y (W' c x D) N G) p).
    + intros [|c p]; simpl; [reflexivity|]. specialize (G c).
      destruct (dget cs c) as [x|] eqn:D, (dget rs c) as [y|]; try contradiction; [|reflexivity].
      apply dget_In in D. exact (proj2 (IH c x D y (W' c x D) N G) p).
Qed.

Lemma vec_broadcast_total {A} sh (v : vec A) :
  vec_wf v -> NoDup (dkeys sh) ->
  (forall o, In o (leaves v) -> forall ax n, In (ax, n) (op_shape o) -> In ax (dkeys sh) /\ (n = 1 \/ In (ax, n) sh)) ->
  exists b, vec_broadcast_to v sh = Ok b.
Proof.
  induction v as [o|ty cs IH] using tree_rect'; intros W N H.
  - inversion W; subst. assert (Wn := normalize_wf o H1). cbn [vec_broadcast_to]. unfold op_broadcast_to.
    destruct (na_broadcast_to_intro (normalize o) sh Wn N) as (r & E).
    + intros ax Hax. rewrite <- wf_keys in Hax by exact Wn. rewrite normalize_shape in Hax.
      apply in_map_iff in Hax. destruct Hax as ([ax' n] & <- & K). exact (proj1 (H o (or_introl eq_refl) ax' n K)).
    + intros ax n D. apply dget_In in D. rewrite normalize_shape in D. exact (proj2 (H o (or_introl eq_refl) ax n D)).
    + rewrite E. simpl. eauto.
  - inversion W as [|? ? Nc W']; subst. cbn [vec_broadcast_to].
    destruct (on_components_intro (fun _ x => vec_broadcast_to x sh) cs) as (rs & R).
    + intros c x Hc. apply (IH c x Hc (W' c x Hc) N). intros o Ho. apply H. simpl. apply in_flat_map.
      exists (c, x). auto.
    + unfold on_components in R. rewrite R. simpl. eauto.
Qed.

(** ** Masks *)

Lemma getitem_mask_masked {A} (o : operand A) m l b :
  op_wf o -> wf m -> true_positions m l -> getitem_mask (normalize o) m = Ok b ->
  masked m l o b /\
  (forall ax, In ax (s_axes b) -> ax = mask_axis (s_axes m) \/ In ax (dkeys (op_shape o))).
Proof.
  intros W Wm T H. assert (Wn := normalize_wf o W).
  destruct (getitem_mask_full (normalize o) m l b Wn Wm T H) as (Wb & Ax & Keep & New & Rd & _).
  assert (Wo : dkeys (op_shape o) = s_axes (normalize o)) by (rewrite <- normalize_shape; now apply wf_keys).
  split.
  - split; [exact Wb|]. split; [exact New|]. split.
    + intros ax n K M. right. apply Keep; [now rewrite normalize_shape|exact M].
    + intros e I. destruct (Rd e I) as (e' & I' & Me & Ne & Se & V).
      exists (fun ax => if smem ax (s_axes m) then e' ax else e ax).
      assert (Em : map (fun ax => if smem ax (s_axes m) then e' ax else e ax) (s_axes m) = map e' (s_axes m)).
      { apply map_ext_in. intros ax Hax. apply smem_In in Hax. now rewrite Hax. }
      split; [unfold at_; now rewrite Em|]. split; [now rewrite Em|]. split.
      * intros ax Hax. apply smem_false in Hax. now rewrite Hax.
      * rewrite V, <- op_at_normalize. simpl. rewrite <- (bat_inside (normalize o) e' Wn I').
        apply bat_ext; [exact Wn|]. intros ax Hax. destruct (smem ax (s_axes m)) eqn:Q; [reflexivity|].
        apply Se; [exact Hax|now apply smem_false].
  - intros ax Hax. rewrite Ax in Hax. apply in_app_or in Hax. destruct Hax as [Hax|[<- |[]]]; [|now left].
    apply filter_In in Hax. right. rewrite Wo. tauto.
Qed.

Lemma vec_shape_keys {A} (v : vec A) sh ax : vec_wf v -> vec_shape v = Ok sh ->
  (In ax (dkeys sh) <-> exists o, In o (leaves v) /\ In ax (dkeys (op_shape o))).
Proof.
  intros W H. assert (Q := vec_shape_leaves v W). rewrite H in Q.
  destruct (broadcast_shapes (map op_shape (leaves v))) as [r|] eqn:E; [|contradiction]. simpl in Q.
  rewrite (same_shape_keys sh r Q ax).
  destruct (broadcast_shapes_ok _ r (leaf_shapes_NoDup v W) E) as (_ & K & _). rewrite K, first_appearance_In.
  rewrite in_concat. split.
  - intros (l & Hl & Hax). rewrite map_map in Hl. apply in_map_iff in Hl. destruct Hl as (o & <- & Ho). eauto.
  - intros (o & Ho & Hax). exists (dkeys (op_shape o)). split; [|exact Hax]. rewrite map_map.
    apply in_map_iff. eauto.
Qed.

Definition mask_base (m : sarr bool) (sh : shape) : shape :=
  flat_map (fun ax => match dget sh ax with Some n => [(ax, n)] | None => [] end) (s_axes m).

Lemma mask_base_In m sh ax n : NoDup (dkeys sh) ->
  (In (ax, n) (mask_base m sh) <-> In ax (s_axes m) /\ In (ax, n) sh).
Proof.
  intros N. unfold mask_base. rewrite in_flat_map. split.
  - intros (x & Hx & H). destruct (dget sh x) as [k|] eqn:D; [|contradiction]. destruct H as [H|[]].
    inversion H; subst. split; [exact Hx|now apply dget_In].
  - intros [Hx H]. exists ax. split; [exact Hx|]. rewrite (dget_NoDup sh ax n N H). now left.
Qed.

Lemma mask_base_NoDup m sh : wf m -> NoDup (dkeys (mask_base m sh)).
Proof.
  intros [N _]. unfold mask_base. revert N. generalize (s_axes m). induction 1 as [|ax l H _ IH]; [constructor|].
  simpl. destruct (dget sh ax) as [n|]; [|exact IH]. simpl. constructor; [|exact IH].
  intros K. apply H. apply in_map_iff in K. destruct K as ([x k] & E & K). simpl in E. subst x.
  apply in_flat_map in K. destruct K as (y & Hy & K). destruct (dget sh y); [|contradiction].
  destruct K as [K|[]]. inversion K; now subst.
Qed.

Lemma vec_mask_rec_spec {A} m l fuel : forall (v r : vec A),
  wf m -> true_positions m l -> vec_wf v -> vec_mask_rec fuel v m = Ok r ->
  (forall p, kind r p = kind v p) /\
  forall p, match leaf_at v p with
            | Some o => exists b, leaf_at r p = Some (OpArr b) /\ masked m l o b /\
                forall ax, In ax (s_axes b) -> ax = mask_axis (s_axes m) \/
                   exists o', In o' (leaves v) /\ In ax (dkeys (op_shape o'))
            | None => leaf_at r p = None
            end.
Proof.
  induction fuel as [|fuel IH]; intros v r Wm T W H; destruct v as [o|ty cs]; cbn [vec_mask_rec] in H; try discriminate.
  1,2: apply bind_ok in H; destruct H as (b & H & E); inversion E; subst r; inversion W; subst;
    destruct (getitem_mask_masked o m l b H1 Wm T H) as [M S];
    (split; [intros [|c p]; reflexivity|]); intros [|c p]; simpl; [|reflexivity];
    exists b; (split; [reflexivity|]); (split; [exact M|]);
    intros ax Hax; destruct (S ax Hax) as [S'|S']; [now left|]; right; exists o; auto.
  apply bind_ok in H. destruct H as (sh & Hsh & H). apply bind_ok in H. destruct H as (rs & H & E).
  inversion E; subst r. apply on_components_get in H. destruct H as [Nm H].
  fold (mask_base m sh) in H.
  assert (Nsh := vec_shape_NoDup (Node ty cs) sh W Hsh).
  assert (Wc : forall c x, dget cs c = Some x -> vec_wf x).
  { intros c x D. apply dget_In in D. inversion W; subst. unfold vec_wf. eauto. }
  assert (K : forall c x y, dget cs c = Some x -> dget rs c = Some y ->
     exists shx shb b, vec_shape x = Ok shx /\ broadcast_shapes [shx; mask_base m sh] = Ok shb /\
       NoDup (dkeys shb) /\ vec_wf b /\
       Forall (fun o => op_shape o = shb) (leaves b) /\ broadcasted shb x b /\ vec_mask_rec fuel b m = Ok y).
  { intros c x y Dx Dy. specialize (H c). rewrite Dx, Dy in H. apply bind_ok in H. destruct H as (shx & Hx & H).
    apply bind_ok in H. destruct H as (shb & Hb & H). apply bind_ok in H. destruct H as (b & Bb & H).
    assert (Nb : NoDup (dkeys shb)).
    { eapply broadcast_shapes_ok; [|exact Hb]. constructor; [|constructor; [|constructor]].
      - eapply vec_shape_NoDup; [|exact Hx]. exact (Wc c x Dx).
      - now apply mask_base_NoDup. }
    destruct (vec_broadcast_wf shb x b (Wc c x Dx) Nb Bb) as (Wb & _ & Sb & _).
    exists shx, shb, b. split; [exact Hx|]. split; [exact Hb|]. split; [exact Nb|]. split; [exact Wb|].
    split; [exact Sb|]. split; [|exact H]. apply vec_broadcast_spec; auto. exact (Wc c x Dx). }
  split.
  - intros [|c p]; simpl; [now rewrite Nm|]. specialize (H c).
    destruct (dget cs c) as [x|] eqn:Dx, (dget rs c) as [y|] eqn:Dy; try contradiction; [|reflexivity].
    destruct (K c x y Dx Dy) as (shx & shb & b & _ & _ & _ & Wb & _ & B & R).
    rewrite <- (proj1 B p). exact (proj1 (IH b y Wm T Wb R) p).
  - intros [|c p]; simpl; [reflexivity|]. specialize (H c).
    destruct (dget cs c) as [x|] eqn:Dx, (dget rs c) as [y|] eqn:Dy; try contradiction; [|reflexivity].
    destruct (K c x y Dx Dy) as (shx & shb & b & Hx & Hb & Nb & Wb & Sb & B & R).
    assert (Q := proj2 (IH b y Wm T Wb R) p). assert (Bp := proj2 B p).
    destruct (leaf_at x p) as [o|]; [|now rewrite Bp in Q].
    destruct Bp as (o' & Lo' & Wo' & So' & Vo' & Fo'). rewrite Lo' in Q.
    destruct Q as (z & Lz & (Wz & New & Keep & Rd) & Ax). exists z. split; [exact Lz|]. split.
    + split; [exact Wz|]. split; [exact New|]. split.
      * intros ax n Ho Hm. destruct (Fo' ax n Ho) as [-> |F]; [now left|]. apply Keep; [now rewrite So'|exact Hm].
      * intros e I. destruct (Rd e I) as (e' & M1 & M2 & M3 & M4). exists e'.
        split; [exact M1|]. split; [exact M2|]. split; [exact M3|]. now rewrite M4, Vo'.
    + intros ax Hax. destruct (Ax ax Hax) as [-> |(o1 & Ho1 & Hax1)]; [now left|]. right.
      rewrite Forall_forall in Sb. rewrite (Sb o1 Ho1) in Hax1.
      assert (Nl : Forall (fun s : shape => NoDup (dkeys s)) [shx; mask_base m sh]).
      { constructor; [eapply vec_shape_NoDup; [exact (Wc c x Dx)|exact Hx]|].
        constructor; [now apply mask_base_NoDup|constructor]. }
      destruct (broadcast_shapes_ok _ shb Nl Hb) as (_ & Kb & _). rewrite Kb in Hax1.
      rewrite first_appearance_In in Hax1. simpl in Hax1. rewrite app_nil_r in Hax1. apply in_app_or in Hax1.
      destruct Hax1 as [Hx1|Hx1].
      * apply (vec_shape_keys x shx ax (Wc c x Dx) Hx) in Hx1. destruct Hx1 as (o2 & Ho2 & Hax2).
        exists o2. split; [|exact Hax2]. simpl. apply in_flat_map. exists (c, x). split; [now apply dget_In|exact Ho2].
      * apply in_map_iff in Hx1. destruct Hx1 as ([ax' n] & <- & Hb1). apply mask_base_In in Hb1; [|exact Nsh].
        apply (vec_shape_keys (Node ty cs) sh ax' W Hsh). apply in_map_iff. exists (ax', n). tauto.
Qed.

Lemma vec_getitem_mask_spec {A} (v r : vec A) (m : operand bool) l :
  vec_wf v -> op_wf m -> true_positions (normalize m) l -> vec_getitem_mask v (Leaf m) = Ok r ->
  (forall p, kind r p = kind v p) /\
  forall p, match leaf_at v p with
            | Some o => exists b, leaf_at r p = Some (OpArr b) /\ masked (normalize m) l o b /\
                forall ax, In ax (s_axes b) -> ax = mask_axis (s_axes (normalize m)) \/
                   exists o', In o' (leaves v) /\ In ax (dkeys (op_shape o'))
            | None => leaf_at r p = None
            end.
Proof.
  intros W Wm T H. unfold vec_getitem_mask in H. cbn [mask_of bind] in H.
  eapply vec_mask_rec_spec; eauto. now apply normalize_wf.
Qed.

(** success *)
Lemma common_size_unique l n n' : l <> [] -> common_size l n -> common_size l n' -> n = n'.
Proof.
  intros E [H1 H2] [H1' H2'].
  destruct (Forall_dec (fun m => m = 1) (fun m => Nat.eq_dec m 1) l) as [A|N].
  - rewrite Forall_forall in A. rewrite H2, H2' by exact A. reflexivity.
  - apply Exists_Forall_neg in N; [|intros; lia]. apply Exists_exists in N. destruct N as (m & Hm & Nm).
    destruct (H1 m Hm), (H1' m Hm); congruence.
Qed.

(** a component can be broadcast against the axes of the vector that are in the mask *)
Lemma component_broadcast {A} ty (cs : list (string * vec A)) c x sh m :
  vec_wf (Node ty cs) -> wf m -> vec_shape (Node ty cs) = Ok sh -> In (c, x) cs ->
  exists shx shb, vec_shape x = Ok shx /\ broadcast_shapes [shx; mask_base m sh] = Ok shb /\
    NoDup (dkeys shb) /\
    (forall ax n, In (ax, n) shb -> exists k, In (ax, k) sh /\ (n = 1 \/ n = k)) /\
    (forall ax n, In ax (s_axes m) -> In (ax, n) sh -> In (ax, n) shb) /\
    (forall ax n, In (ax, n) shx -> In ax (dkeys shb) /\ (n = 1 \/ In (ax, n) shb)).
Proof.
  intros W Wm Hsh Hc. assert (Nsh := vec_shape_NoDup _ sh W Hsh).
  inversion W as [|? ? Nc W']; subst. cbn [vec_shape] in Hsh. apply bind_ok in Hsh. destruct Hsh as (shs & T & B).
  rewrite traverse_mapM in T. apply mapM_ok in T.
  assert (Nl : Forall (fun s => NoDup (dkeys s)) shs).
  { clear - T W'. revert W'. induction T as [|[c x] s cs shs E _ IH]; intros W'; constructor.
    - eapply vec_shape_NoDup; [|exact E]. apply (W' c x). now left.
    - apply IH. intros c' x' H'. apply (W' c' x'). now right. }
  assert (X : exists shx, vec_shape x = Ok shx /\ In shx shs).
  { clear - T Hc. induction T as [|kv s cs shs E _ IH]; [contradiction|]. destruct Hc as [-> |Hc].
    - exists s. split; [exact E|now left].
    - destruct (IH Hc) as (s' & ? & ?). exists s'. split; [assumption|now right]. }
  destruct X as (shx & Hx & Ix). exists shx.
  destruct (broadcast_shapes_ok shs sh Nl B) as (_ & Ksh & Vsh).
  rewrite Forall_forall in Nl. assert (Nx := Nl shx Ix).
  assert (Fit : forall ax n, In (ax, n) shx -> exists k, In (ax, k) sh /\ (n = 1 \/ n = k)).
  { intros ax n H. assert (Hk : In ax (dkeys sh)).
    { rewrite Ksh. apply first_appearance_In, in_concat. exists (dkeys shx). split; [now apply in_map|].
      apply in_map_iff. now exists (ax, n). }
    apply in_map_iff in Hk. destruct Hk as ([ax' k] & <- & Hk). exists k. split; [exact Hk|].
    apply Vsh in Hk. destruct Hk as [_ [C1 _]]. apply C1. apply sizes_of_In. exists shx. split; [exact Ix|].
    now apply dget_NoDup. }
  assert (Nb := mask_base_NoDup m sh Wm).
  assert (N2 : Forall (fun s : shape => NoDup (dkeys s)) [shx; mask_base m sh]).
  { constructor; [exact Nx|]. constructor; [exact Nb|constructor]. }
  assert (Sizes : forall ax n, In n (sizes_of [shx; mask_base m sh] ax) <->
                    In (ax, n) shx \/ In (ax, n) (mask_base m sh)).
  { intros ax n. rewrite sizes_of_In. split.
    - intros (s & [<- |[<- |[]]] & D); apply dget_In in D; auto.
    - intros [H|H]; [exists shx|exists (mask_base m sh)]; (split; [simpl; auto|now apply dget_NoDup]). }
  destruct (broadcast_shapes_total _ N2) as [(shb & Eb)|Eb].
  2:{ exfalso. apply broadcast_shapes_conflict in Eb; [|exact N2].
      destruct Eb as (ax & n & k & Hn & Hk & N1 & N3 & N4).
      assert (Z : forall q, In q (sizes_of [shx; mask_base m sh] ax) -> q <> 1 -> In (ax, q) sh).
      { intros q Hq Q1. apply Sizes in Hq. destruct Hq as [Hq|Hq].
        - destruct (Fit ax q Hq) as (k' & Hk' & [-> | ->]); [congruence|exact Hk'].
        - apply mask_base_In in Hq; tauto. }
      assert (Zn := Z n Hn N3). assert (Zk := Z k Hk N4).
      apply (dget_NoDup _ _ _ Nsh) in Zn, Zk. congruence. }
  exists shb. destruct (broadcast_shapes_ok _ shb N2 Eb) as (Nshb & Kb & Vb).
  split; [exact Hx|]. split; [exact Eb|]. split; [exact Nshb|]. split; [|split].
  - intros ax n H. apply Vb in H. destruct H as [H [C1 C2]].
    destruct (Forall_dec (fun q => q = 1) (fun q => Nat.eq_dec q 1) (sizes_of [shx; mask_base m sh] ax)) as [A1|A1].
    + rewrite Forall_forall in A1. rewrite (C2 A1). simpl in H. rewrite app_nil_r in H. apply in_app_or in H.
      destruct H as [H|H]; apply in_map_iff in H; destruct H as ([ax' q] & <- & H).
      * destruct (Fit ax' q H) as (k & Hk & _). eauto.
      * apply mask_base_In in H; [|exact Nsh]. destruct H. eauto.
    + apply Exists_Forall_neg in A1; [|intros; lia]. apply Exists_exists in A1. destruct A1 as (q & Hq & Q1).
      destruct (C1 q Hq) as [|<-]; [congruence|]. apply Sizes in Hq. destruct Hq as [Hq|Hq].
      * exact (Fit ax q Hq).
      * apply mask_base_In in Hq; [|exact Nsh]. destruct Hq. eauto.
  - intros ax n Hm Hs. assert (Hb : In (ax, n) (mask_base m sh)) by (apply mask_base_In; auto).
    apply Vb. split.
    + simpl. rewrite app_nil_r. apply in_or_app. right. apply in_map_iff. now exists (ax, n).
    + split.
      * intros q Hq. apply Sizes in Hq. destruct Hq as [Hq|Hq].
        -- destruct (Fit ax q Hq) as (k & Hk & [-> | ->]); [now left|]. right.
           apply (dget_NoDup _ _ _ Nsh) in Hk, Hs. congruence.
        -- right. apply (dget_NoDup _ _ _ Nb) in Hq, Hb. congruence.
      * intros H. apply H. apply Sizes. now right.
  - intros ax n H. assert (Hk : In ax (dkeys shb)).
    { rewrite Kb. apply first_appearance_In. simpl. rewrite app_nil_r. apply in_or_app. left.
      apply in_map_iff. now exists (ax, n). }
    split; [exact Hk|]. apply in_map_iff in Hk. destruct Hk as ([ax' k] & <- & Hk). simpl in *.
    assert (Hk' := Hk). apply Vb in Hk. destruct Hk as [_ [C1 _]].
    destruct (C1 n) as [-> | ->]; [apply Sizes; now left|now left|now right].
Qed.

Lemma vec_mask_rec_total {A} m fuel : forall (v : vec A) sh,
  depth v <= fuel -> wf m -> vec_wf v -> vec_shape v = Ok sh ->
  (leaves v = [] \/ forall ax n, In (ax, n) (sshape m) -> In (ax, n) sh) ->
  (In (mask_axis (s_axes m)) (dkeys sh) -> In (mask_axis (s_axes m)) (s_axes m)) ->
  exists r, vec_mask_rec fuel v m = Ok r.
Proof.
  induction fuel as [|fuel IH]; intros v sh D Wm W Hsh Cov Clash; destruct v as [o|ty cs]; cbn [vec_mask_rec].
  1,3: inversion W; subst; assert (Wn := normalize_wf o H0);
    assert (Es : op_shape o = sh) by (destruct o; simpl in Hsh; inversion Hsh; reflexivity);
    destruct (proj2 (getitem_mask_success (normalize o) m Wn Wm)) as (r & E);
    [split; [intros ax n H; rewrite normalize_shape, Es; destruct Cov as [Cov|Cov]; [discriminate|auto]|
             intros H; rewrite <- (wf_keys (normalize o) Wn), normalize_shape, Es in H; auto]
    |rewrite E; simpl; eauto].
  - simpl in D. lia.
  - rewrite Hsh. cbn [bind]. fold (mask_base m sh).
    assert (Nsh := vec_shape_NoDup (Node ty cs) sh W Hsh).
    match goal with |- exists r, bind ?X _ = Ok r => enough (Y : exists rs, X = Ok rs) by (destruct Y as (rs & Y); rewrite Y; simpl; eauto) end.
    apply on_components_intro. intros c x Hc.
    destruct (component_broadcast ty cs c x sh m W Wm Hsh Hc) as (shx & shb & Hx & Hb & Nb & Up & Mk & Fx).
    rewrite Hx. cbn [bind].
    match goal with |- context [broadcast_shapes ?l] => replace (broadcast_shapes l) with (Ok shb) by (symmetry; exact Hb) end.
    cbn [bind].
    inversion W as [|? ? Nc W']; subst. assert (Wx : vec_wf x) by exact (W' c x Hc).
    assert (Nx := vec_shape_NoDup x shx Wx Hx).
    destruct (vec_broadcast_total shb x Wx Nb) as (b & Eb).
    { intros o Ho ax n Hn.
      assert (Q := vec_shape_leaves x Wx). rewrite Hx in Q.
      destruct (broadcast_shapes (map op_shape (leaves x))) as [r|] eqn:Er; [|contradiction]. simpl in Q.
      destruct (broadcast_shapes_ok _ r (leaf_shapes_NoDup x Wx) Er) as (_ & Kr & Vr).
      assert (No : NoDup (dkeys (op_shape o))).
      { assert (Z := leaf_shapes_NoDup x Wx). rewrite Forall_forall in Z. apply Z. now apply in_map. }
      assert (Hk : In ax (dkeys r)).
      { rewrite Kr. apply first_appearance_In, in_concat. exists (dkeys (op_shape o)). split.
        - apply in_map. now apply in_map.
        - apply in_map_iff. now exists (ax, n). }
      apply in_map_iff in Hk. destruct Hk as ([ax' k] & E1 & Hk). simpl in E1. subst ax'.
      assert (Hk' := proj2 (Q ax k) Hk). apply Vr in Hk. destruct Hk as [_ [C1 _]].
      destruct (Fx ax k Hk') as [F1 F2]. split; [exact F1|].
      destruct (C1 n) as [-> | ->]; [|now left|exact F2].
      apply sizes_of_In. exists (op_shape o). split; [now apply in_map|now apply dget_NoDup]. }
    rewrite Eb. cbn [bind].
    destruct (vec_broadcast_wf shb x b Wx Nb Eb) as (Wb & Db & Sb & Lb).
    assert (Hshb : exists shb', vec_shape b = Ok shb' /\
                     (leaves b <> [] -> same_shape shb' shb) /\ (leaves b = [] -> forall ax n, ~ In (ax, n) shb')).
    { assert (Q := vec_shape_leaves b Wb).
      assert (Eall : broadcast_shapes (map op_shape (leaves b)) = Ok (match leaves b with [] => [] | _ => shb end)).
      { clear - Sb Nb. destruct (leaves b) as [|o l]; [reflexivity|]. simpl. inversion Sb; subst.
        apply DerivedFacts.bs_covered; [exact Nb|]. intros s Hs. apply in_map_iff in Hs. destruct Hs as (o' & <- & Ho').
        rewrite Forall_forall in H2. rewrite (H2 o' Ho'). split; [exact Nb|]. intros ax n H. split; [|now right].
        apply in_map_iff. now exists (ax, n). }
      rewrite Eall in Q. destruct (vec_shape b) as [shb'|]; [|contradiction]. exists shb'. split; [reflexivity|].
      simpl in Q. destruct (leaves b); split; intros K; try congruence; [|exact Q].
      intros ax n H. now apply Q in H. }
    destruct Hshb as (shb' & Eb' & S1 & S2).
    apply (IH b shb').
    + rewrite Db. assert (Z := depth_In ty cs c x Hc). lia.
    + exact Wm.
    + exact Wb.
    + exact Eb'.
    + destruct (leaves b) as [|o l] eqn:Lv; [now left|]. right. intros ax n H. apply (S1 ltac:(discriminate)).
      destruct Cov as [Cov|Cov].
      * exfalso. simpl in Cov.
        assert (leaves x = []).
        { destruct (leaves x) eqn:Q; [reflexivity|]. exfalso.
          assert (In o0 (flat_map (fun kv => leaves (snd kv)) cs)) by (apply in_flat_map; exists (c, x); split; [exact Hc|simpl; rewrite Q; now left]).
          rewrite Cov in H0. contradiction. }
        apply Lb in H0. discriminate.
      * apply Mk; [|now apply Cov]. rewrite <- (wf_keys m Wm). apply in_map_iff. now exists (ax, n).
    + intros H. apply Clash. apply in_map_iff in H. destruct H as ([ax n] & E & H). simpl in E.
      destruct (leaves b) as [|o l] eqn:Lv; [exfalso; now apply S2 in H|].
      apply (S1 ltac:(discriminate)) in H. destruct (Up ax n H) as (k & Hk & _). subst ax.
      apply in_map_iff. now exists (mask_axis (s_axes m), k).
Qed.

Lemma vec_getitem_mask_success {A} (v : vec A) (m : operand bool) sh :
  vec_wf v -> op_wf m -> vec_shape v = Ok sh ->
  (forall ax n, In (ax, n) (op_shape m) -> In (ax, n) sh) ->
  (In (mask_axis (s_axes (normalize m))) (dkeys sh) -> In (mask_axis (s_axes (normalize m))) (s_axes (normalize m))) ->
  exists r, vec_getitem_mask v (Leaf m) = Ok r.
Proof.
  intros W Wm Hsh Cov Clash. unfold vec_getitem_mask. cbn [mask_of bind].
  eapply vec_mask_rec_total; eauto; [now apply normalize_wf|]. right. intros ax n H. apply Cov.
  now rewrite <- normalize_shape.
Qed.

(** ** Assignment *)

Lemma Forall2_imp {X Y} (P Q : X -> Y -> Prop) l l' :
  (forall x y, P x y -> Q x y) -> Forall2 P l l' -> Forall2 Q l l'.
Proof. intros H F. induction F; constructor; auto. Qed.

Lemma set_components_ok {A} (f : string -> vec A -> outcome (vec A)) cs r :
  set_components f cs = (r, None) ->
  Forall2 (fun kv kr => fst kr = fst kv /\ f (fst kv) (snd kv) = (snd kr, None)) cs r.
Proof.
  revert r. induction cs as [|[c x] cs IH]; intros r H; simpl in H; [inversion H; constructor|].
  destruct (f c x) as [x' [e|]] eqn:E; [discriminate|].
  destruct (set_components f cs) as [r' e']. inversion H; subst. constructor; [split; [reflexivity|exact E]|]. auto.
Qed.

Lemma vec_setitem_rec_spec {A} fuel : forall (v : vec A) it value r,
  vec_setitem_rec fuel v it value = (r, None) ->
  (forall p, kind r p = kind v p) /\ assigned v r it value.
Proof.
  induction fuel as [|fuel IH]; intros v it value r H; cbn [vec_setitem_rec] in H; destruct v as [[a|x]|ty cs]; try discriminate.
  1,3: destruct (first_node (map snd it)) eqn:F; [discriminate|]; destruct value as [x|]; [|discriminate];
    destruct (setitem a (leaf_items it) x) as [b|] eqn:S; [|discriminate]; inversion H; subst r;
    apply first_node_None in F; destruct F as (xs & F);
    (split; [intros [|c p]; reflexivity|]); intros [|c p]; simpl; [|reflexivity];
    exists (leaf_items it), x, b; (split; [exact (proj2 (leaf_items_at it xs F))|auto]).
  - destruct (negb (forallb (accepts ty) (map snd it) && accepts ty value)); discriminate.
  - destruct (negb (forallb (accepts ty) (map snd it) && accepts ty value)); [discriminate|].
    match type of H with (let '(r, e) := ?S in _) = _ => destruct S as [rs e] eqn:Q end.
    inversion H; subst r e. apply set_components_ok in Q.
    assert (Names : map fst rs = map fst cs).
    { clear - Q. induction Q as [|kv kr cs rs [E _] _ IH]; simpl; [reflexivity|]. now rewrite E, IH. }
    assert (G : forall c, match dget cs c, dget rs c with
               | Some x, Some y => exists it_c value_c,
                   Forall2 (fun kv ki => fst ki = fst kv /\ component c (snd kv) = Ok (snd ki)) it it_c /\
                   component c value = Ok value_c /\ vec_setitem_rec fuel x it_c value_c = (y, None)
               | None, None => True
               | _, _ => False
               end).
    { apply Forall2_dget. refine (Forall2_imp _ _ _ _ _ Q). intros [c x] [c' y] [E K]. cbn [fst snd] in *.
      split; [exact E|]. destruct (component_items c it) as [it_c|] eqn:E1; [|discriminate].
      destruct (component c value) as [value_c|] eqn:E2; [|discriminate].
      exists it_c, value_c. split; [now apply component_items_ok|auto]. }
    split.
    + intros [|c p]; simpl; [now rewrite Names|]. specialize (G c).
      destruct (dget cs c) as [x|], (dget rs c) as [y|]; try contradiction; [|reflexivity].
      destruct G as (it_c & value_c & _ & _ & G). exact (proj1 (IH x it_c value_c y G) p).
    + intros [|c p]; simpl; [reflexivity|]. specialize (G c).
      destruct (dget cs c) as [x|], (dget rs c) as [y|]; try contradiction; [|reflexivity].
      destruct G as (it_c & value_c & E1 & E2 & G). assert (K := proj2 (IH x it_c value_c y G) p).
      destruct (leaf_at x p) as [[a|z]|]; auto. destruct K as (d & z & b & K1 & K2 & K3 & K4).
      exists d, z, b. split; [eapply items_at_component; eauto|]. split; [|auto].
      rewrite <- K2. exact (component_reaches c value value_c p E2).
Qed.

Lemma vec_setitem_spec {A} (v : vec A) it value r :
  vec_setitem v it value = (r, None) ->
  (forall p, kind r p = kind v p) /\ assigned v r it value.
Proof. apply vec_setitem_rec_spec. Qed.

(** ** A vector of masks *)

(** an environment that can be used with a shape broadcast to a larger one *)
Definition within (e : env) (sh : shape) : Prop := forall ax n, In (ax, n) sh -> n = 1 \/ e ax < n.

Lemma clamp_inside e sh : NoDup (dkeys sh) -> within e sh -> inside (bclamp sh e) sh.
Proof.
  intros N W ax n H. unfold bclamp. rewrite (dget_NoDup sh ax n N H).
  destruct (W ax n H) as [-> |L]; [lia|]. destruct n as [|[|n]]; lia.
Qed.

Lemma op_shape_NoDup {A} (o : operand A) : op_wf o -> NoDup (dkeys (op_shape o)).
Proof. destruct o; simpl; intros W; [now apply wf_nodup|constructor]. Qed.

(** reading an operand at clamped positions *)
Lemma op_at_clamp {A} (o : operand A) sh e :
  op_wf o -> NoDup (dkeys sh) ->
  (forall ax n, In (ax, n) (op_shape o) -> n = 1 \/ In (ax, n) sh) ->
  op_at o (bclamp sh e) = op_at o e.
Proof.
  intros W N F. destruct o as [a|x]; [|reflexivity]. simpl in *. unfold bat, at_. f_equal. apply map_ext_in.
  intros ax Hax. unfold bclamp at 1 3. rewrite <- (wf_keys a W) in Hax.
  apply in_map_iff in Hax. destruct Hax as ([ax' n] & E & H). simpl in E. subst ax'.
  rewrite (dget_NoDup _ ax n (wf_nodup a W) H). destruct (F ax n H) as [-> |K]; [reflexivity|].
  unfold bclamp. rewrite (dget_NoDup sh ax n N K). destruct n as [|[|n]]; reflexivity.
Qed.

Lemma elementwise_within {A B} (f : list A -> B) os o e :
  Forall op_wf os -> elementwise f os o -> within e (op_shape o) ->
  op_at o e = f (map (fun x => op_at x e) os).
Proof.
  intros W (Wo & S & V & _) I. assert (N := op_shape_NoDup o Wo).
  rewrite <- (op_at_clamp o (op_shape o) e Wo N) by (intros; now right).
  rewrite V by now apply clamp_inside. f_equal. apply map_ext_in. intros x Hx.
  apply op_at_clamp; [rewrite Forall_forall in W; auto|exact N|].
  intros ax n H. destruct x as [a|y]; [|contradiction]. simpl in H.
  assert (Hs : In (sshape a) (op_shapes os)).
  { unfold op_shapes. apply in_flat_map. exists (OpArr a). split; [exact Hx|now left]. }
  assert (Ns : Forall (fun s => NoDup (dkeys s)) (op_shapes os)).
  { apply Forall_forall. intros s H'. unfold op_shapes in H'. apply in_flat_map in H'.
    destruct H' as ([b|y] & Hb & H'); [|contradiction]. destruct H' as [<- |[]].
    rewrite Forall_forall in W. apply wf_nodup. exact (W _ Hb). }
  destruct (broadcast_shapes_ok _ _ Ns S) as (_ & K & P).
  assert (Hk : In ax (dkeys (op_shape o))).
  { rewrite K. apply first_appearance_In, in_concat. exists (dkeys (sshape a)). split; [now apply in_map|].
    apply in_map_iff. now exists (ax, n). }
  apply in_map_iff in Hk. destruct Hk as ([ax' k] & E & Hk). simpl in E. subst ax'.
  assert (Hk' := Hk). apply P in Hk. destruct Hk as [_ [C _]].
  destruct (C n) as [-> | ->]; [|now left|now right].
  apply sizes_of_In. exists (sshape a). split; [exact Hs|]. apply dget_NoDup; [|exact H].
  rewrite Forall_forall in W. apply wf_nodup. exact (W _ Hx).
Qed.

Lemma elementwise_shape {A B} (f : list A -> B) os o :
  Forall op_wf os -> elementwise f os o -> same_outcome (broadcast_shapes (map op_shape os)) (Ok (op_shape o)).
Proof.
  intros W (Wo & S & V & _). rewrite <- S. apply broadcast_shapes_equiv.
  - apply Forall_forall. intros s H. apply in_map_iff in H. destruct H as (x & <- & Hx).
    rewrite Forall_forall in W. apply op_shape_NoDup. auto.
  - apply Forall_forall. intros s H. unfold op_shapes in H. apply in_flat_map in H.
    destruct H as ([b|y] & Hb & H); [|contradiction]. destruct H as [<- |[]].
    rewrite Forall_forall in W. apply wf_nodup. exact (W _ Hb).
  - intros ax. clear. induction os as [|[a|x] os IH]; simpl; [tauto| |exact IH].
    rewrite !in_app_iff, IH. tauto.
  - assert (Z : forall ax, sizes_of (map op_shape os) ax = sizes_of (op_shapes os) ax).
    { intros ax. clear. induction os as [|[a|x] os IH]; [reflexivity| |].
      - unfold sizes_of in *. simpl. now rewrite IH.
      - unfold sizes_of in *. simpl. exact IH. }
    unfold conflict. split; intros (ax & n & k & H); exists ax, n, k; [rewrite <- Z|rewrite Z]; exact H.
  - intros _ ax n.
    assert (Z : forall ax, sizes_of (map op_shape os) ax = sizes_of (op_shapes os) ax).
    { clear. intros ax. induction os as [|[a|x] os IH]; [reflexivity| |].
      - unfold sizes_of in *. simpl. now rewrite IH.
      - unfold sizes_of in *. simpl. exact IH. }
    rewrite Z. tauto.
Qed.

Lemma within_covered e sh l r :
  Forall (fun s => NoDup (dkeys s)) l -> same_outcome (broadcast_shapes l) (Ok r) -> In sh l -> within e r -> within e sh.
Proof.
  intros N S H W ax n K. destruct (broadcast_shapes l) as [r'|] eqn:E; [|contradiction]. simpl in S.
  destruct (broadcast_shapes_ok l r' N E) as (_ & Kr & P).
  assert (Hk : In ax (dkeys r')).
  { rewrite Kr. apply first_appearance_In, in_concat. exists (dkeys sh). split; [now apply in_map|].
    apply in_map_iff. now exists (ax, n). }
  apply in_map_iff in Hk. destruct Hk as ([ax' k] & E1 & Hk). simpl in E1. subst ax'.
  assert (Hk' := proj1 (S ax k) Hk). apply P in Hk. destruct Hk as [_ [C _]].
  destruct (C n) as [-> | ->].
  - apply sizes_of_In. exists sh. split; [exact H|]. rewrite Forall_forall in N. apply dget_NoDup; auto.
  - now left.
  - exact (W ax k Hk').
Qed.

Definition conj_of (l : list (operand bool)) (o : operand bool) : Prop :=
  op_wf o /\ same_outcome (broadcast_shapes (map op_shape l)) (Ok (op_shape o)) /\
  forall e, within e (op_shape o) -> op_at o e = forallb (fun x => op_at x e) l.

Lemma conj_step l o x r :
  Forall op_wf l -> op_wf x -> conj_of l o -> elementwise (forallb (fun b => b)) [o; x] r -> conj_of (l ++ [x]) r.
Proof.
  intros Wl Wx (Wo & So & Vo) E. assert (W2 : Forall op_wf [o; x]) by (repeat constructor; auto).
  assert (E' := E). destruct E' as (Wr & _). split; [exact Wr|].
  assert (S2 := elementwise_shape _ _ _ W2 E). simpl in S2.
  assert (Nl : Forall (fun s : shape => NoDup (dkeys s)) (map op_shape l)).
  { apply Forall_forall. intros s H. apply in_map_iff in H. destruct H as (y & <- & Hy).
    rewrite Forall_forall in Wl. apply op_shape_NoDup. auto. }
  assert (N2 : Forall (fun s : shape => NoDup (dkeys s)) [op_shape o; op_shape x]).
  { repeat constructor; now apply op_shape_NoDup. }
  assert (So' := So). destruct (broadcast_shapes (map op_shape l)) as [sl|] eqn:Sl; [|contradiction]. simpl in So.
  split.
  - rewrite map_app. simpl.
    assert (G := broadcast_shapes_groups [map op_shape l; [op_shape x]] [sl; op_shape x]).
    simpl in G. eapply same_outcome_trans; [apply G|].
    + constructor; [exact Nl|]. constructor; [|constructor]. constructor; [now apply op_shape_NoDup|constructor].
    + constructor; [exact Sl|]. constructor; [reflexivity|constructor].
    + eapply same_outcome_trans; [|exact S2].
      assert (Nsl : NoDup (dkeys sl)) by exact (proj1 (broadcast_shapes_ok _ sl Nl Sl)).
      assert (Q := broadcast_shapes_same [sl; op_shape x] [op_shape o; op_shape x]).
      unfold same_outcome. apply Q; [|repeat constructor; auto; now apply op_shape_NoDup|exact N2].
      constructor; [exact So|]. constructor; [|constructor]. intros ? ?; tauto.
  - intros e I. rewrite (elementwise_within _ _ _ e W2 E I). simpl. rewrite forallb_app. simpl.
    rewrite Vo; [reflexivity|]. eapply (within_covered e (op_shape o)); [exact N2|exact S2|now left|exact I].
Qed.

Lemma fold_conj_err (cs : list (string * vec bool)) e :
  fold_left (fun acc kv => a <- acc ;; vec_ufunc (forallb (fun b => b)) [a; snd kv]) cs (Err e) = Err e.
Proof. induction cs; auto. Qed.

Lemma fold_conj (cs : list (string * vec bool)) : forall ls l o r,
  map snd cs = map Leaf ls -> Forall op_wf ls -> Forall op_wf l -> conj_of l o ->
  fold_left (fun acc kv => a <- acc ;; vec_ufunc (forallb (fun b => b)) [a; snd kv]) cs (Ok (Leaf o)) = Ok r ->
  exists o', r = Leaf o' /\ conj_of (l ++ ls) o'.
Proof.
  induction cs as [|[c x] cs IH]; intros ls l o r E W Wl C H.
  - destruct ls; [|discriminate]. simpl in H. inversion H. rewrite app_nil_r. eauto.
  - destruct ls as [|y ls]; [discriminate|]. simpl in E. injection E as -> E. inversion W as [|? ? Wy Wls]; subst.
    cbn [fold_left bind snd] in H.
    destruct (vec_ufunc (forallb (fun b => b)) [Leaf o; Leaf y]) as [z|] eqn:U; [|rewrite fold_conj_err in H; discriminate].
    unfold vec_ufunc in U. simpl in U. apply bind_ok in U. destruct U as (w & U & Q). inversion Q; subst z.
    assert (Wo : op_wf o) by apply C.
    assert (El := op_ufunc_spec (forallb (fun b => b)) [o; y] w ltac:(repeat constructor; auto) U).
    destruct (IH ls (l ++ [y]) w r E Wls) as (o' & -> & C').
    + apply Forall_app. auto.
    + eapply conj_step; eauto.
    + exact H.
    + exists o'. split; [reflexivity|]. now rewrite <- app_assoc in C'.
Qed.

Lemma mask_of_spec {A} (v : vec A) ty cs ls m :
  map snd cs = map Leaf ls -> Forall op_wf ls -> mask_of v (Node ty cs) = Ok m ->
  accepts ty v = true /\ wf m /\
  same_outcome (broadcast_shapes (map op_shape ls)) (Ok (sshape m)) /\
  forall e, inside e (sshape m) -> at_ m e = forallb (fun x => op_at x e) ls.
Proof.
  intros E W H. unfold mask_of in H. destruct (accepts ty v); [|discriminate]. cbn [negb] in H. split; [reflexivity|].
  apply bind_ok in H. destruct H as (r & F & H).
  destruct (fold_conj cs ls [] (OpNum true) r E W ltac:(constructor)) as (o & -> & Wo & S & V).
  - split; [exact I|]. split; [intros ? ?; tauto|]. reflexivity.
  - exact F.
  - inversion H; subst m. assert (Wn := normalize_wf o Wo). split; [exact Wn|].
    rewrite normalize_shape. split; [exact S|]. intros e I.
    rewrite <- (bat_in (normalize o) e) by now rewrite normalize_shape.
    change (bat (normalize o) e) with (op_at (OpArr (normalize o)) e). rewrite op_at_normalize.
    apply V. intros ax n K. right. now apply I.
Qed.

Lemma vec_getitem_masks_spec {A} (v r : vec A) ty cs ls :
  vec_wf v -> map snd cs = map Leaf ls -> Forall op_wf ls -> vec_getitem_mask v (Node ty cs) = Ok r ->
  accepts ty v = true /\
  exists m, wf m /\
  same_outcome (broadcast_shapes (map op_shape ls)) (Ok (sshape m)) /\
  (forall e, inside e (sshape m) -> at_ m e = forallb (fun x => op_at x e) ls) /\
  vec_getitem_mask v (Leaf (OpArr m)) = Ok r.
Proof.
  intros W E Wl H. unfold vec_getitem_mask in H. apply bind_ok in H. destruct H as (m & M & H).
  destruct (mask_of_spec v ty cs ls m E Wl M) as (Ac & Wm & S & V). split; [exact Ac|].
  exists m. repeat split; auto; try exact (proj1 Wm); try exact (proj2 Wm).
Qed.

(** ** Assignment succeeds *)

Lemma set_components_intro {A} (f : string -> vec A -> outcome (vec A)) cs :
  (forall c x, In (c, x) cs -> exists y, f c x = (y, None)) -> exists r, set_components f cs = (r, None).
Proof.
  induction cs as [|[c x] cs IH]; intros H; simpl; [eauto|].
  destruct (H c x (or_introl eq_refl)) as (y & E). rewrite E.
  destruct IH as (r & R). { intros c' x' H'. apply H. now right. }
  rewrite R. eauto.
Qed.

Lemma suits_accepts {L M} ty (cs : list (string * tree L)) (t : tree M) :
  suits (Node ty cs) t -> accepts ty t = true.
Proof.
  intros [Al _]. destruct t as [|ty' cs']; [reflexivity|]. simpl. apply String.eqb_eq.
  destruct (Al [] _ _ _ _ eq_refl eq_refl). congruence.
Qed.

Lemma suits_component {L M} ty (cs : list (string * tree L)) c x (t t' : tree M) :
  dget cs c = Some x -> suits (Node ty cs) t -> component c t = Ok t' -> suits x t'.
Proof.
  intros D [Al R] E. split.
  - intros p ty1 n1 ty2 n2 K1 K2. apply (Al (c :: p)).
    + simpl. now rewrite D.
    + now rewrite (component_kind c t t' p E).
  - intros p Hp. rewrite <- (component_reaches c t t' p E). apply R. simpl. now rewrite D.
Qed.

Lemma suits_exists {L M} ty (cs : list (string * tree L)) c x (t : tree M) :
  In (c, x) cs -> suits (Node ty cs) t -> exists t', component c t = Ok t'.
Proof.
  intros H [Al _]. destruct t as [l|ty' cs']; simpl; [eauto|].
  destruct (Al [] _ _ _ _ eq_refl eq_refl) as [_ N].
  destruct (dget cs' c) as [y|] eqn:D; [eauto|]. exfalso. apply dget_None in D. apply D. apply N.
  apply in_map_iff. now exists (c, x).
Qed.

Lemma vec_setitem_rec_total {A} fuel : forall (v : vec A) it value,
  depth v <= fuel -> vec_wf v -> items_suit v it -> suits v value ->
  (forall p x, leaf_at v p <> Some (OpNum x)) ->
  (forall p a d x, leaf_at v p = Some (OpArr a) -> items_at it p d -> reaches value p = Some x ->
     exists b, setitem a d x = Ok b) ->
  exists r, vec_setitem_rec fuel v it value = (r, None).
Proof.
  induction fuel as [|fuel IH]; intros v it value D W S Sv Nn G; cbn [vec_setitem_rec];
    destruct v as [[a|x]|ty cs]; try (exfalso; now apply (Nn [] x)).
  1,3: destruct (items_suit_leaf _ _ S) as (xs & X);
    rewrite (proj2 (first_node_None _) (ex_intro _ xs X));
    destruct value as [x|ty cs]; [|exfalso; apply (proj2 Sv [] ltac:(discriminate)); reflexivity];
    destruct (G [] a (leaf_items it) x eq_refl (proj2 (leaf_items_at it xs X)) eq_refl) as (b & E); rewrite E; eauto.
  - simpl in D. lia.
  - rewrite (items_suit_accepts ty cs it S), (suits_accepts ty cs value Sv). cbn [andb negb].
    inversion W as [|? ? N W']; subst.
    match goal with |- exists w, (let '(r, e) := ?X in _) = _ => enough (Y : exists rs, X = (rs, None)) by (destruct Y as (rs & Y); rewrite Y; eauto) end.
    apply set_components_intro. intros c x Hc.
    destruct (component_items_intro c it (component_exists ty cs c x it Hc S)) as (it_c & E).
    rewrite E. apply component_items_ok in E.
    destruct (suits_exists ty cs c x value Hc Sv) as (value_c & Ev). rewrite Ev.
    assert (Dc : dget cs c = Some x) by (apply dget_NoDup; auto).
    apply IH.
    + assert (K := depth_In ty cs c x Hc). lia.
    + exact (W' c x Hc).
    + eapply items_suit_component; eauto.
    + eapply suits_component; eauto.
    + intros p y Hp. apply (Nn (c :: p) y). simpl. now rewrite Dc.
    + intros p a d y Hp Hd Hy. apply (G (c :: p) a d y).
      * simpl. now rewrite Dc.
      * eapply items_at_component; eauto.
      * rewrite <- Hy. exact (component_reaches c value value_c p Ev).
Qed.

Lemma vec_setitem_success {A} (v : vec A) it value :
  vec_wf v -> items_suit v it -> suits v value ->
  (forall p x, leaf_at v p <> Some (OpNum x)) ->
  (forall p a d x, leaf_at v p = Some (OpArr a) -> items_at it p d -> reaches value p = Some x ->
     exists b, setitem a d x = Ok b) ->
  exists r, vec_setitem v it value = (r, None).
Proof. intros. apply vec_setitem_rec_total; auto. Qed.

(** ** Indexing and broadcasting *)

Lemma index_is_unique n z p q : index_is n z p -> index_is n z q -> p = q.
Proof. intros [_ H] [_ H']. apply Nat2Z.inj. congruence. Qed.

Lemma slice_selects_unique s n i p q : slice_selects s n i p -> slice_selects s n i q -> p = q.
Proof. intros [H _] [H' _]. apply Nat2Z.inj. congruence. Qed.

Lemma size_by_positions m m' (P : nat -> Prop) :
  (forall i, i < m <-> P i) -> (forall i, i < m' <-> P i) -> m = m'.
Proof.
  intros H H'. destruct (lt_eq_lt_dec m m') as [[L|E]|L]; [|exact E|].
  - assert (Q := proj2 (H m) (proj1 (H' m) L)). lia.
  - assert (Q := proj2 (H' m') (proj1 (H m') L)). lia.
Qed.

Lemma index_shapes_In axes it s :
  In s (index_shapes axes it) <-> exists ax v, In (ax, ItArr v) it /\ In ax axes /\ s = sshape v.
Proof.
  unfold index_shapes. rewrite in_flat_map. split.
  - intros ([ax i] & H & K). simpl in K. destruct i as [| | | |v]; try contradiction.
    destruct (smem ax axes) eqn:Q; [|contradiction]. destruct K as [<- |[]]. apply smem_In in Q. eauto.
  - intros (ax & v & H & Q & ->). exists (ax, ItArr v). split; [exact H|]. simpl. apply smem_In in Q. rewrite Q. now left.
Qed.

Lemma index_shapes_NoDup axes it :
  Forall (fun kv => item_wf (snd kv)) it -> Forall (fun s => NoDup (dkeys s)) (index_shapes axes it).
Proof.
  intros W. apply Forall_forall. intros s H. apply index_shapes_In in H. destruct H as (ax & v & H & _ & ->).
  rewrite Forall_forall in W. apply wf_nodup. exact (W _ H).
Qed.

Lemma broadcast_covers l r s ax n :
  Forall (fun s => NoDup (dkeys s)) l -> broadcast_shapes l = Ok r -> In s l -> In (ax, n) s ->
  In ax (dkeys r) /\ (n = 1 \/ In (ax, n) r).
Proof.
  intros N E H K. destruct (broadcast_shapes_ok l r N E) as (_ & Kr & P).
  assert (Hk : In ax (dkeys r)).
  { rewrite Kr. apply first_appearance_In, in_concat. exists (dkeys s). split; [now apply in_map|].
    apply in_map_iff. now exists (ax, n). }
  split; [exact Hk|]. apply in_map_iff in Hk. destruct Hk as ([ax' k] & E1 & Hk). simpl in E1. subst ax'.
  assert (Hk' := Hk). apply P in Hk. destruct Hk as [_ [C _]].
  destruct (C n) as [-> | ->]; [|now left|now right].
  apply sizes_of_In. exists s. split; [exact H|]. rewrite Forall_forall in N. apply dget_NoDup; auto.
Qed.

(** a size of the broadcast is a size of one of the shapes *)
Lemma broadcast_attained l r ax n :
  Forall (fun s => NoDup (dkeys s)) l -> broadcast_shapes l = Ok r -> In (ax, n) r ->
  exists s, In s l /\ In (ax, n) s.
Proof.
  intros N E H. destruct (broadcast_shapes_ok l r N E) as (_ & Kr & P).
  apply P in H. destruct H as [Hax [C1 C2]].
  destruct (Forall_dec (fun q => q = 1) (fun q => Nat.eq_dec q 1) (sizes_of l ax)) as [A1|A1].
  - rewrite Forall_forall in A1. rewrite (C2 A1).
    apply in_concat in Hax. destruct Hax as (ks & Hks & Hax). apply in_map_iff in Hks.
    destruct Hks as (s & <- & Hs). exists s. split; [exact Hs|].
    apply in_map_iff in Hax. destruct Hax as ([ax' q] & <- & Hq). simpl.
    replace 1 with q; [exact Hq|]. apply A1. apply sizes_of_In. exists s. split; [exact Hs|].
    rewrite Forall_forall in N. apply dget_NoDup; auto.
  - apply Exists_Forall_neg in A1; [|intros; lia]. apply Exists_exists in A1. destruct A1 as (q & Hq & Q1).
    destruct (C1 q Hq) as [|<-]; [congruence|]. apply sizes_of_In in Hq. destruct Hq as (s & Hs & D).
    exists s. split; [exact Hs|]. now apply dget_In.
Qed.

Lemma sub_broadcast l l' r :
  Forall (fun s => NoDup (dkeys s)) l' -> (forall s, In s l -> In s l') -> broadcast_shapes l' = Ok r ->
  exists r', broadcast_shapes l = Ok r' /\
    forall ax n, In (ax, n) r' -> In ax (dkeys r) /\ (n = 1 \/ In (ax, n) r).
Proof.
  intros N I E. assert (Nl : Forall (fun s => NoDup (dkeys s)) l).
  { rewrite Forall_forall in *. auto. }
  destruct (broadcast_shapes_total l Nl) as [(r' & E')|E'].
  - exists r'. split; [exact E'|]. intros ax n H.
    destruct (broadcast_attained l r' ax n Nl E' H) as (s & Hs & K).
    exact (broadcast_covers l' r s ax n N E (I s Hs) K).
  - exfalso. apply broadcast_shapes_conflict in E'; [|exact Nl].
    assert (C : conflict l').
    { destruct E' as (ax & n & k & H1 & H2 & H3). exists ax, n, k.
      split; [|split; [|exact H3]]; apply sizes_of_In.
      - apply sizes_of_In in H1. destruct H1 as (s & ? & ?). exists s. auto.
      - apply sizes_of_In in H2. destruct H2 as (s & ? & ?). exists s. auto. }
    apply broadcast_shapes_conflict in C; [|exact N]. congruence.
Qed.

Section BroadcastIndex.
Context {A : Type} (a b : sarr A) (sh : shape) (it : dict item).
Hypothesis (Wa : wf a) (Wb : wf b) (Nsh : NoDup (dkeys sh)) (Nit : NoDup (dkeys it))
  (Wit : Forall (fun kv => item_wf (snd kv)) it)
  (Sb : sshape b = sh) (Vb : forall e, bat b e = bat a e)
  (Ia : incl (s_axes a) (dkeys sh))
  (Fa : forall ax n, In (ax, n) (sshape a) -> n = 1 \/ In (ax, n) sh)
  (Full : forall ax n, In (ax, n) (sshape a) -> In ax (dkeys it) -> In (ax, n) sh).

Lemma sub_index s : In s (index_shapes (s_axes a) it) -> In s (index_shapes (s_axes b) it).
Proof.
  intros H. apply index_shapes_In in H. destruct H as (ax & v & H & K & ->). apply index_shapes_In.
  exists ax, v. split; [exact H|]. split; [|reflexivity]. rewrite <- (wf_keys b Wb), Sb. now apply Ia.
Qed.

Lemma broadcast_getitem_success rb : getitem b it = Ok rb -> exists r, getitem a it = Ok r.
Proof.
  intros H. apply (getitem_success a it Wa Nit Wit).
  destruct (proj1 (getitem_success b it Wb Nit Wit) (ex_intro _ rb H)) as (sb & Eb & Ok_b & Cl).
  destruct (sub_broadcast (index_shapes (s_axes a) it) _ sb (index_shapes_NoDup _ _ Wit) sub_index Eb) as (sa & Ea & Cov).
  exists sa. split; [exact Ea|]. split.
  - intros ax n K. destruct (dget it ax) as [i|] eqn:D; [|exact I].
    rewrite <- D. apply Ok_b. rewrite Sb. apply Full; [exact K|]. apply dget_In in D.
    apply in_map_iff. now exists (ax, i).
  - intros ax Hs Hax. apply Cl.
    + apply in_map_iff in Hs. destruct Hs as ([ax' n] & <- & Hs). exact (proj1 (Cov ax' n Hs)).
    + rewrite <- (wf_keys b Wb), Sb. now apply Ia.
Qed.

Lemma broadcast_getitem r rb : getitem a it = Ok r -> getitem b it = Ok rb ->
  forall e, inside e (sshape rb) -> bat r e = at_ rb e.
Proof.
  intros Ha Hb e I.
  destruct (getitem_full a it r Wa Nit Wit Ha) as (Wr & Rd & sa & Ea & Axa & Sa & Ka).
  destruct (getitem_full b it rb Wb Nit Wit Hb) as (Wrb & Rdb & sb & Eb & Axb & Sbb & Kb).
  destruct (sub_broadcast (index_shapes (s_axes a) it) _ sb (index_shapes_NoDup _ _ Wit) sub_index Eb) as (sa' & Ea' & Cov).
  rewrite Ea in Ea'. inversion Ea'; subst sa'. clear Ea'.
  assert (Nr := wf_nodup r Wr). assert (Nrb := wf_nodup rb Wrb).
  (* kept axes *)
  assert (Kept : forall ax n m, In (ax, n) (sshape a) -> keeps_axis (dget it ax) = true -> In (ax, m) (sshape r) ->
            m = 1 \/ In (ax, m) (sshape rb)).
  { intros ax n m H K Hm.
    assert (Hb' : exists k, In (ax, k) sh).
    { assert (In ax (s_axes a)) by (rewrite <- (wf_keys a Wa); apply in_map_iff; now exists (ax, n)).
      apply Ia in H0. apply in_map_iff in H0. destruct H0 as ([ax' k] & <- & Hk). eauto. }
    destruct Hb' as (k & Hk).
    assert (Hrb : In ax (s_axes rb)).
    { rewrite Axb. apply in_or_app. right. apply filter_In. split; [|exact K].
      rewrite <- (wf_keys b Wb), Sb. apply in_map_iff. now exists (ax, k). }
    rewrite <- (wf_keys rb Wrb) in Hrb. apply in_map_iff in Hrb. destruct Hrb as ([ax' q] & E1 & Hq). simpl in E1. subst ax'.
    assert (Hk2 : In (ax, k) (sshape b)) by now rewrite Sb.
    assert (X := Ka ax n m H K Hm). assert (Y := Kb ax k q Hk2 K Hq).
    destruct (dget it ax) as [[| | |s|]|] eqn:D; try discriminate.
    - assert (H0 : In (ax, n) sh) by (apply Full; [exact H|]; apply dget_In in D; apply in_map_iff; eexists; split; [|exact D]; reflexivity).
      apply (dget_NoDup _ _ _ Nsh) in H0, Hk. right. replace m with q by congruence. exact Hq.
    - assert (H0 : In (ax, n) sh) by (apply Full; [exact H|]; apply dget_In in D; apply in_map_iff; eexists; split; [|exact D]; reflexivity).
      apply (dget_NoDup _ _ _ Nsh) in H0, Hk. assert (n = k) by congruence. subst k.
      right. replace m with q; [exact Hq|]. exact (size_by_positions q m _ Y X).
    - destruct (Fa ax n H) as [-> |K1]; [left; congruence|].
      apply (dget_NoDup _ _ _ Nsh) in K1, Hk. right. replace m with q by congruence. exact Hq. }
  assert (W1 : forall ax m, In (ax, m) (sshape r) -> m = 1 \/ In (ax, m) (sshape rb)).
  { intros ax m H. assert (Hax : In ax (s_axes r)) by (rewrite <- (wf_keys r Wr); apply in_map_iff; now exists (ax, m)).
    rewrite Axa in Hax. apply in_app_or in Hax. destruct Hax as [Hax|Hax].
    - apply in_map_iff in Hax. destruct Hax as ([ax' q] & E1 & Hq). simpl in E1. subst ax'.
      assert (m = q).
      { assert (Z := Sa ax q Hq). apply (dget_NoDup _ _ _ Nr) in Z, H. congruence. }
      subst q. destruct (Cov ax m Hq) as [_ [-> |K]]; [now left|right]. now apply Sbb.
    - apply filter_In in Hax. destruct Hax as [Hax K]. rewrite <- (wf_keys a Wa) in Hax.
      apply in_map_iff in Hax. destruct Hax as ([ax' n] & E1 & Hn). simpl in E1. subst ax'.
      exact (Kept ax n m Hn K H). }
  assert (Wi : within e (sshape r)).
  { intros ax m H. destruct (W1 ax m H) as [-> |K]; [now left|right]. exact (I ax m K). }
  set (ec := bclamp (sshape r) e).
  assert (Ic : inside ec (sshape r)) by now apply clamp_inside.
  assert (Br : bat r e = at_ r ec).
  { reflexivity. }
  rewrite Br. destruct (Rd ec Ic) as (e1 & I1 & -> & Sel1). destruct (Rdb e I) as (e2 & I2 & -> & Sel2).
  rewrite <- (bat_in b e2 I2), Vb. unfold bat. unfold at_. f_equal. apply map_ext_in. intros ax Hax.
  rewrite <- (wf_keys a Wa) in Hax. apply in_map_iff in Hax. destruct Hax as ([ax' n] & E1 & Hn). simpl in E1. subst ax'.
  assert (P1 := Sel1 ax n Hn). assert (L1 := I1 ax n Hn).
  unfold bclamp. rewrite (dget_NoDup _ ax n (wf_nodup a Wa) Hn).
  assert (Q : dget it ax <> None -> In (ax, n) (sshape b)).
  { intros D. rewrite Sb. apply Full; [exact Hn|]. destruct (dget it ax) as [i|] eqn:E; [|congruence].
    apply dget_In in E. apply in_map_iff. now exists (ax, i). }
  destruct (dget it ax) as [i|] eqn:D.
  - assert (Hb' := Q ltac:(discriminate)). assert (P2 := Sel2 ax n Hb'). rewrite D in P2. assert (L2 := I2 ax n Hb').
    enough (e1 ax = e2 ax). { rewrite H. destruct n as [|[|n]]; [lia|lia|reflexivity]. }
    assert (Ek : keeps_axis (Some i) = true -> ec ax = e ax).
    { intros K. unfold ec, bclamp.
      assert (Hr : In ax (s_axes r)).
      { rewrite Axa. apply in_or_app. right. apply filter_In. rewrite D. split; [|exact K].
        rewrite <- (wf_keys a Wa). apply in_map_iff. now exists (ax, n). }
      rewrite <- (wf_keys r Wr) in Hr. apply in_map_iff in Hr. destruct Hr as ([ax' m] & E1 & Hm). simpl in E1. subst ax'.
      rewrite (dget_NoDup _ ax m Nr Hm).
      assert (Hq : exists q, In (ax, q) (sshape rb)).
      { assert (Hrb : In ax (s_axes rb)).
        { rewrite Axb. apply in_or_app. right. apply filter_In. rewrite D. split; [|exact K].
          rewrite <- (wf_keys b Wb). apply in_map_iff. now exists (ax, n). }
        rewrite <- (wf_keys rb Wrb) in Hrb. apply in_map_iff in Hrb. destruct Hrb as ([ax' q] & E1 & Hq). simpl in E1. subst ax'. eauto. }
      destruct Hq as (q & Hq).
      assert (m = q).
      { rewrite <- D in K. assert (X := Ka ax n m Hn K Hm). assert (Y := Kb ax n q Hb' K Hq). rewrite D in X, Y.
        destruct i; try congruence. exact (size_by_positions m q _ X Y). }
      subst q. assert (Lq := I ax m Hq). destruct m as [|[|m]]; [reflexivity|lia|reflexivity]. }
    destruct i as [|z|z|s|v]; simpl in P1, P2.
    + rewrite Ek in P1 by reflexivity. congruence.
    + exact (index_is_unique _ _ _ _ P1 P2).
    + exact (index_is_unique _ _ _ _ P1 P2).
    + rewrite Ek in P1 by reflexivity. exact (slice_selects_unique _ _ _ _ _ P1 P2).
    + assert (bat v ec = bat v e).
      { apply (op_at_clamp (OpArr v) (sshape r) e).
        - rewrite Forall_forall in Wit. apply dget_In in D. exact (Wit _ D).
        - exact Nr.
        - intros ax2 k Hk. simpl in Hk.
          assert (Hs : In (sshape v) (index_shapes (s_axes a) it)).
          { apply index_shapes_In. exists ax, v. split; [now apply dget_In|]. split; [|reflexivity].
            rewrite <- (wf_keys a Wa). apply in_map_iff. now exists (ax, n). }
          destruct (broadcast_covers _ sa _ ax2 k (index_shapes_NoDup _ _ Wit) Ea Hs Hk) as [_ [-> |K]]; [now left|right].
          now apply Sa. }
      rewrite H in P1. exact (index_is_unique _ _ _ _ P1 P2).
  - simpl in P1. rewrite P1. unfold ec, bclamp.
    assert (Hr : In ax (s_axes r)).
    { rewrite Axa. apply in_or_app. right. apply filter_In. rewrite D. split; [|reflexivity].
      rewrite <- (wf_keys a Wa). apply in_map_iff. now exists (ax, n). }
    rewrite <- (wf_keys r Wr) in Hr. apply in_map_iff in Hr. destruct Hr as ([ax' m] & E1 & Hm). simpl in E1. subst ax'.
    rewrite (dget_NoDup _ ax m Nr Hm).
    assert (X := Ka ax n m Hn ltac:(now rewrite D) Hm). rewrite D in X. subst m.
    destruct (Fa ax n Hn) as [-> |K]; [reflexivity|].
    assert (P2 := Sel2 ax n ltac:(now rewrite Sb)). rewrite D in P2. simpl in P2. rewrite P2.
    destruct n as [|[|n]]; reflexivity.
Qed.
End BroadcastIndex.

Lemma vec_broadcast_arrays {A} sh (v : vec A) : forall b p o,
  vec_broadcast_to v sh = Ok b -> leaf_at b p = Some o -> exists b', o = OpArr b'.
Proof.
  induction v as [o|ty cs IH] using tree_rect'; intros b p o' H L.
  - cbn [vec_broadcast_to] in H. apply bind_ok in H. destruct H as (r & H & E). inversion E; subst.
    unfold op_broadcast_to in H. apply bind_ok in H. destruct H as (b' & _ & H). inversion H; subst.
    destruct p; [|discriminate]. inversion L. eauto.
  - destruct (vec_broadcast_node ty cs sh b H) as (rs & -> & F).
    assert (G := Forall2_dget (fun _ x y => vec_broadcast_to x sh = Ok y) cs rs F).
    destruct p as [|c p]; [discriminate|]. simpl in L. specialize (G c).
    destruct (dget cs c) as [x|] eqn:D, (dget rs c) as [y|]; try contradiction; [|discriminate].
    apply dget_In in D. exact (IH c x D y p o' G L).
Qed.

Lemma plain_suits {L M} (v : tree L) (d : dict M) : items_suit v (plain d).
Proof.
  intros kv H. apply in_map_iff in H. destruct H as (x & <- & _). split.
  - intros p ty n ty' n' _ K. destruct p; discriminate.
  - intros p _. destruct p; discriminate.
Qed.

Lemma plain_at {L} (d d' : dict L) p : items_at (plain d) p d' <-> d' = d.
Proof.
  unfold items_at, plain. split.
  - intros H. apply (proj1 (Forall2_map_l _ _ _ _)) in H. induction H as [|[k x] [k' x'] d d' [E1 E2] _ IH]; [reflexivity|].
    simpl in *. destruct p; injection E2 as ->; subst; f_equal; exact IH.
  - intros ->. apply Forall2_map_l. apply Forall2_same. intros x _. destruct p; auto.
Qed.

Lemma vec_getitem_broadcast {A} (v b rb : vec A) sh (d : dict item) :
  vec_wf v -> vec_shape v = Ok sh -> vec_broadcast_to v sh = Ok b ->
  NoDup (dkeys d) -> Forall (fun kv => item_wf (snd kv)) d ->
  (forall o ax n, In o (leaves v) -> In (ax, n) (op_shape o) -> In ax (dkeys d) -> In (ax, n) sh) ->
  vec_getitem b (plain d) = Ok rb ->
  exists r, vec_getitem v (plain d) = Ok r /\ (forall p, kind r p = kind rb p) /\
    forall p ob, leaf_at rb p = Some ob ->
      exists o, leaf_at r p = Some o /\ forall e, inside e (op_shape ob) -> op_at o e = op_at ob e.
Proof.
  intros W Hsh B Nd Wd Full H. assert (Nsh := vec_shape_NoDup v sh W Hsh).
  destruct (vec_broadcast_spec sh v b W Nsh B) as [Bk Bl].
  destruct (vec_getitem_spec b (plain d) rb (plain_suits _ _) H) as [Rk Rl].
  assert (Leaf1 : forall p o, leaf_at v p = Some o -> exists b' b2,
      leaf_at b p = Some (OpArr b') /\ wf b' /\ sshape b' = sh /\ (forall e, bat b' e = op_at o e) /\
      (forall ax n, In (ax, n) (op_shape o) -> n = 1 \/ In (ax, n) sh) /\
      getitem b' d = Ok b2 /\ leaf_at rb p = Some (OpArr b2)).
  { intros p o L. assert (Q := Bl p). rewrite L in Q. destruct Q as (r & Lr & Wr & Sr & Vr & Fr).
    destruct (vec_broadcast_arrays sh v b p r B Lr) as (b' & ->). assert (Q := Rl p). rewrite Lr in Q.
    destruct Q as (d' & b2 & I & G & L2). apply plain_at in I. subst d'. exists b', b2. simpl in *. auto 12. }
  assert (Leaf2 : forall p a b', leaf_at v p = Some (OpArr a) -> leaf_at b p = Some (OpArr b') -> 
      wf a /\ incl (s_axes a) (dkeys sh) /\
      (forall ax n, In (ax, n) (sshape a) -> In ax (dkeys d) -> In (ax, n) sh)).
  { intros p a b' L _. assert (Wa : wf a) by exact (tree_ok_leaf_at op_wf v p (OpArr a) W L). split; [exact Wa|].
    assert (Lv : In (OpArr a) (leaves v)) by exact (in_combine_r _ _ _ _ (leaf_at_In v p (OpArr a) L)). split.
    - intros ax Hax. apply (vec_shape_keys v sh ax W Hsh). exists (OpArr a). split; [exact Lv|]. simpl.
      now rewrite wf_keys.
    - intros ax n. exact (Full (OpArr a) ax n Lv). }
  destruct (vec_getitem_success v (plain d) W (plain_suits _ _)) as (r & R).
  { intros p a d' L I. apply plain_at in I. subst d'.
    destruct (Leaf1 p (OpArr a) L) as (b' & b2 & Lb & Wb & Sb & Vb & Fb & G & _).
    destruct (Leaf2 p a b' L Lb) as (Wa & Ia & Fu).
    eapply (broadcast_getitem_success a b' sh d); eauto. }
  exists r. split; [exact R|].
  destruct (vec_getitem_spec v (plain d) r (plain_suits _ _) R) as [Vk Vl].
  split; [intros p; now rewrite Vk, Rk, Bk|].
  intros p ob L. assert (Q := Rl p).
  destruct (leaf_at v p) as [o|] eqn:Lv.
  - destruct (Leaf1 p o Lv) as (b' & b2 & Lb & Wb & Sb & Vb & Fb & G & L2).
    assert (ob = OpArr b2) by congruence. subst ob. clear L.
    assert (Z := Vl p). rewrite Lv in Z. destruct o as [a|x].
    + destruct Z as (d' & c & I & Gc & Lc). apply plain_at in I. subst d'.
      destruct (Leaf2 p a b' Lv Lb) as (Wa & Ia & Fu).
      exists (OpArr c). split; [exact Lc|]. simpl. intros e Ie.
      rewrite (bat_in b2 e Ie).
      eapply (broadcast_getitem a b' sh d); eauto.
    + exists (OpNum x). split; [exact Z|]. simpl. intros e Ie. rewrite (bat_in b2 e Ie).
      destruct (getitem_full b' d b2 Wb Nd Wd G) as (_ & Rd & _). destruct (Rd e Ie) as (e' & I' & -> & _).
      rewrite <- (bat_in b' e' I'), Vb. reflexivity.
  - assert (Z := Bl p). rewrite Lv in Z. rewrite Z in Q. congruence.
Qed.

Lemma vec_ufunc_missing {A B} (f : list A -> B) inputs ty cs cs' c :
  first_node inputs = Some (ty, cs) -> In (Node ty cs') inputs -> In c (map fst cs) -> ~ In c (map fst cs') ->
  exists e, vec_ufunc f inputs = Err e.
Proof.
  intros F H Hc Hn. destruct (vec_ufunc f inputs) as [r|e] eqn:E; [exfalso|eauto].
  unfold vec_ufunc in E. destruct (list_max (map depth inputs)) as [|fuel]; cbn [vec_ufunc_rec] in E; rewrite F in E; [discriminate|].
  destruct (forallb (accepts ty) inputs); [|discriminate]. apply bind_ok in E. destruct E as (rs & E & _).
  apply on_components_ok in E. apply in_map_iff in Hc. destruct Hc as ([c' x] & E1 & Hx). simpl in E1. subst c'.
  clear F. induction E as [|[c1 x1] [c2 y] cs rs [K Q] _ IH]; [contradiction|]. destruct Hx as [Hx|Hx]; [|auto].
  injection Hx as -> ->. cbn [fst snd] in Q. apply bind_ok in Q. destruct Q as (ins & M & _). apply mapM_ok in M.
  clear IH. induction M as [|t z inputs ins C M IH]; [contradiction|]. destruct H as [-> |H]; [|auto].
  simpl in C. destruct (dget cs' c) as [w|] eqn:D; [|discriminate]. apply Hn. apply dget_In in D.
  apply in_map_iff. now exists (c, w).
Qed.

Lemma vec_masks {A} (v r : vec A) ty (cs : list (string * vec bool)) ls :
  vec_wf v -> map snd cs = map Leaf ls -> Forall op_wf ls -> vec_getitem_mask v (Node ty cs) = Ok r ->
  accepts ty v = true /\
  exists m, wf m /\
    (exists s, broadcast_shapes (map op_shape ls) = Ok s /\ same_shape s (sshape m)) /\
    (forall e, inside e (sshape m) -> at_ m e = forallb (fun x => op_at x e) ls) /\
    vec_getitem_mask v (Leaf (OpArr m)) = Ok r.
Proof.
  intros W E Wl H. destruct (vec_getitem_masks_spec v r ty cs ls W E Wl H) as (Ac & m & Wm & S & V & G).
  split; [exact Ac|]. exists m. split; [exact Wm|]. split; [|auto].
  destruct (broadcast_shapes (map op_shape ls)) as [s|]; [|contradiction]. exists s. auto.
Qed.
