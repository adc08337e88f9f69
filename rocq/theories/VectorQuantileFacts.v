(** Proofs about percentiles of vectors. *)
From Coq Require Import Ascii String List Arith ZArith Bool Lia Permutation.
From Verif Require Import Base Numpy Shapes Scalar Elementwise Reduce Vector VectorReduce Quantile VectorQuantile Spec SpecVector SpecVectorReduce
  SpecMatrix SpecQuantile SpecVectorQuantile BaseFacts ShapesFacts AlignFacts ElementwiseFacts ReduceFacts SortingFacts LinspaceFacts VectorFacts VectorIndexFacts
  VectorReduceFacts.
From Verif Require OptimizeFacts DerivedFacts PdfFacts DotFacts MatrixFacts TransformFacts QuantileFacts SpecNumeric PolyNameFacts.
Import ListNotations.
Open Scope nat_scope.
Open Scope list_scope.

Section Percentiles.
Context {A Q B : Type} (valid : Q -> bool) (perc : Q -> list A -> B) (axis : option (list string)) (keepdims : bool).
Hypothesis Sy : forall x, symmetric (perc x).

Lemma no_mask (v : vec A) : mask_for v None.
Proof. intros w [=]. Qed.

Lemma shape_plain (v : vec A) T : vec_wf v -> vec_shape v = Ok T -> shape_with v None = Ok T.
Proof.
  intros W E. unfold shape_with. rewrite E. cbn [bind].
  apply DerivedFacts.bs_covered; [exact (vec_shape_NoDup v T W E)|intros t []].
Qed.

Lemma shape_back (v : vec A) T : vec_wf v -> filled v -> shape_with v None = Ok T -> vec_shape v = Ok T.
Proof.
  intros W _ E. unfold shape_with in E. apply bind_ok in E. destruct E as (sh & Es & E). rewrite Es.
  assert (X := DerivedFacts.bs_covered sh [] (vec_shape_NoDup v sh W Es) ltac:(intros t [])). congruence.
Qed.

Lemma drop_empty (s b : shape) : broadcast_shapes [s; []; b] = broadcast_shapes [s; b].
Proof. unfold broadcast_shapes. cbn [foldM]. unfold bs_shape at 1. destruct (dict_eqb [] s); reflexivity. Qed.

Lemma reduced_is (s : shape) S : (if keepdims then squeezed s S else SpecNumeric.without s S) = reduced keepdims S s.
Proof. unfold reduced. destruct keepdims; reflexivity. Qed.

(** a value *)
Definition value (o : operand A) (x : operand Q) (sh : shape) (S : list string) (e : env) : B :=
  total (perc (op_at x e)) o (fun _ => true) sh S e.

Definition percents (v : vec A) (q : vec Q) (T : shape) (r : vec B) : Prop :=
  (forall p, kind r p = kind v p) /\
  forall p, match leaf_at v p with
            | None => leaf_at r p = None
            | Some o => exists x a, reaches q p = Some x /\ leaf_at r p = Some (OpArr a) /\ wf a /\
                (forall ax n, In (ax, n) (op_shape x) -> In (ax, n) (sshape a)) /\
                fits_in (sshape a) (op_shape x ++ reduced keepdims (axes_of axis T) T) /\
                forall e, inside e (op_shape x ++ reduced keepdims (axes_of axis T) T) ->
                  op_at (OpArr a) e = value o x T (axes_of axis T) e
            end.

Lemma filter_all {X} (l : list X) : filter (fun _ => true) l = l.
Proof. induction l; cbn; congruence. Qed.

Lemma leaf_percentile (o : operand A) (x : operand Q) (s : shape) : op_wf o -> op_wf x -> op_shape o = s ->
  (forall ax n, In (ax, n) s -> n <> 0) -> percentile_ok valid o x (axes_of axis s) ->
  exists r, na_percentile valid perc o x axis None keepdims = Ok r /\ wf r /\
    sshape r = op_shape x ++ reduced keepdims (axes_of axis s) s /\
    forall e, inside e (sshape r) -> op_at (OpArr r) e = value o x s (axes_of axis s) e.
Proof.
  intros W Wx Sh NE P. subst s.
  destruct (QuantileFacts.percentile_spec valid perc o x axis keepdims Sy W Wx NE) as (H & _).
  destruct (H P) as (r & E & Wr & Sr & Vr). rewrite reduced_is in Sr. exists r. split; [exact E|]. split; [exact Wr|]. split; [exact Sr|].
  intros e I. cbn [op_at]. rewrite bat_inside by assumption. rewrite (Vr e I). unfold value, total. now rewrite filter_all.
Qed.

Lemma q_component (q : vec Q) ty (cs : list (string * vec A)) c x T : vec_wf (Node ty cs) -> filled (Node ty cs) ->
  percentiles_for valid (Node ty cs) q T -> In (c, x) cs ->
  exists qc, component c q = Ok qc /\ vec_wf qc /\ forall p, reaches qc p = reaches q (c :: p).
Proof.
  intros W F (Wq & R) Hc. assert (Nc : NoDup (map fst cs)) by (inversion W; auto).
  destruct q as [x0|ty' qs].
  - exists (Leaf x0). split; [reflexivity|]. split; [exact Wq|]. intros [|c' p]; reflexivity.
  - assert (Wx : vec_wf x) by (inversion W as [|? ? _ W']; subst; exact (W' c x Hc)).
    destruct (filled_leaf x (tree_ok_any _ x Wx) (filled_child ty cs c x Nc F Hc)) as (p & o & L).
    assert (Rp := R (c :: p) o). cbn [leaf_at] in Rp. rewrite (dget_NoDup cs c x Nc Hc) in Rp.
    destruct (Rp L) as (y & E & _). cbn [reaches] in E. destruct (dget qs c) as [qc|] eqn:D; [|discriminate].
    exists qc. cbn [component]. rewrite D. split; [reflexivity|]. split.
    + inversion Wq as [|? ? _ Wq']; subst. exact (Wq' c qc (dget_In _ _ _ D)).
    + intros p'. cbn [reaches]. now rewrite D.
Qed.

Lemma vec_percentile_ok fuel : forall v q T, depth v <= fuel -> vec_wf v -> filled v -> percentiles_for valid v q T ->
  vec_shape v = Ok T -> (forall o, v = Leaf o -> op_shape o = T) ->
  (forall ax n, In (ax, n) T -> n <> 0) -> reducible true axis T false ->
  exists r, vec_percentile_rec fuel valid perc v q axis keepdims = Ok r /\ percents v q T r.
Proof.
  assert (Leafcase : forall fuel o q T, vec_wf (Leaf o) -> percentiles_for valid (Leaf o) q T -> op_shape o = T ->
    (forall ax n, In (ax, n) T -> n <> 0) -> reducible true axis T false ->
    exists r, vec_percentile_rec fuel valid perc (Leaf o) q axis keepdims = Ok r /\ percents (Leaf o) q T r).
  { clear fuel. intros fuel o q T W (Wq & R) So NE Rd. assert (Wo : op_wf o) by (inversion W; auto).
    destruct (R [] o eq_refl) as (x & Rx & Dx & Lx & Vx).
    destruct q as [x0|]; [|discriminate]. injection Rx as ->. assert (Wx : op_wf x) by (inversion Wq; auto).
    destruct (leaf_percentile o x T Wo Wx So NE) as (r & Er & Wr & Sr & Vr).
    { destruct Rd as (N1 & N2 & _). split; [exact N1|]. split; [rewrite So; exact N2|]. split; [rewrite So; exact Dx|]. auto. }
    exists (Leaf (OpArr r)). split.
    - destruct fuel; cbn [vec_percentile_rec]; rewrite Er; reflexivity.
    - split; [intros [|c p]; reflexivity|]. intros [|c p]; cbn [leaf_at]; [|reflexivity].
      exists x, r. split; [reflexivity|]. split; [reflexivity|]. split; [exact Wr|].
      split; [intros ax n H; rewrite Sr; apply in_or_app; now left|].
      split; [rewrite Sr; intros ax n H; exists n; auto|]. intros e He. apply Vr. now rewrite Sr. }
  induction fuel as [|fuel IH]; intros v q T D W Hf Pf E Hl NE Rd; destruct v as [o|ty cs].
  1,3: apply Leafcase; auto.
  - cbn in D. lia.
  - cbn [vec_percentile_rec]. rewrite E. cbn [bind].
    assert (M := no_mask (Node ty cs)). assert (Es := shape_plain _ _ W E).
    assert (NT := vec_shape_NoDup _ _ W E).
    assert (Guard : match axis with
             | Some _ => negb (forallb (fun ax => smem ax (dkeys T)) (axes_of axis T))
             | None => false
             end = false).
    { destruct Rd as (_ & I & _). destruct axis as [l|]; [|reflexivity]. apply negb_false_iff, forallb_forall. intros ax H. apply smem_In. now apply I. }
    change (match axis with Some l => l | None => dkeys T end) with (axes_of axis T). rewrite Guard. fold (base_of T (axes_of axis T)).
    match goal with |- context [on_components ?g cs] => set (step := g) end.
    assert (St : forall c x, In (c, x) cs -> exists r, step c x = Ok r /\
      (forall p, kind r p = kind x p) /\
      forall p, match leaf_at x p with
            | None => leaf_at r p = None
            | Some o => exists y a, reaches q (c :: p) = Some y /\ leaf_at r p = Some (OpArr a) /\ wf a /\
                (forall ax n, In (ax, n) (op_shape y) -> In (ax, n) (sshape a)) /\
                fits_in (sshape a) (op_shape y ++ reduced keepdims (axes_of axis T) T) /\
                forall e, inside e (op_shape y ++ reduced keepdims (axes_of axis T) T) -> op_at (OpArr a) e = value o y T (axes_of axis T) e
            end).
    { intros c x Hc. assert (Nc : NoDup (map fst cs)) by (inversion W; auto).
      destruct (component_step axis None ty cs c x T W Hf M Es Hc) as (wc & shx & shw & shc & wb & b & E1 & E2 & E3 & E4 & E5 & E6 & Nc' & Fc & Cov & Wb & Fb & Db & Bc & Ub & Mb & Eb & Hw & Uw & Al).
      cbn in E1. injection E1 as <-. cbn in E3. injection E3 as <-. cbn in E5. injection E5 as <-. rewrite drop_empty in E4.
      destruct (axes_step true axis T shc None None NT Nc' Fc Hw Cov Rd) as (P & Sz & Rd').
      destruct (q_component q ty cs c x T W Hf Pf Hc) as (qc & Eq & Wqc & Rq).
      assert (Sub : forall ax, In ax (dkeys shc) -> In ax (dkeys T)).
      { intros ax H. apply in_map_iff in H. destruct H as ([k n] & X & H). cbn [fst] in X. subst k.
        destruct (Fc ax n H) as (m & Hm & _). now apply (in_map fst) in Hm. }
      assert (Pf' : percentiles_for valid b qc shc).
      { split; [exact Wqc|]. intros p ob Lb. destruct Bc as (_ & Bc). specialize (Bc p).
        destruct (leaf_at x p) as [o|] eqn:Lx; [|congruence].
        assert (R := proj2 Pf (c :: p) o). cbn [leaf_at] in R. rewrite (dget_NoDup cs c x Nc Hc) in R.
        destruct (R Lx) as (y & Ry & Dy & Ly & Vy). exists y. rewrite Rq. split; [exact Ry|]. split; [|auto].
        intros ax H K. exact (Dy ax H (Sub ax K)). }
      destruct (IH b qc shc) as (r & Er & Kr & Vr); try assumption.
      { rewrite Db. assert (Z := depth_In ty cs c x Hc). lia. }
      { now apply shape_back. }
      { intros o ->. inversion Ub; auto. }
      { intros ax n H Z. destruct (Fc ax n H) as (m & Hm & [X|X]); [lia|]. apply (NE ax m Hm). congruence. }
      exists r. split.
      { unfold step. rewrite E2. cbn [bind]. match goal with |- context [broadcast_shapes ?l] => replace (broadcast_shapes l) with (Ok shc) by (symmetry; exact E4) end. cbn [bind]. rewrite E6. cbn [bind]. rewrite Eq. cbn [bind]. exact Er. }
      split; [intros p; rewrite Kr; apply (proj1 Bc)|]. intros p. specialize (Vr p). destruct Bc as (_ & Bc). specialize (Bc p).
      destruct (leaf_at x p) as [o|] eqn:Lx; [|rewrite Bc in Vr; exact Vr]. destruct Bc as (ob & Lb & Wob & Sob & Vob & Fob). rewrite Lb in Vr.
      destruct Vr as (y & a & Ry & La & Wa & Ya & Fa & Va). exists y, a. rewrite <- Rq. split; [exact Ry|]. split; [exact La|]. split; [exact Wa|].
      split; [exact Ya|].
      assert (Wy : op_wf y).
      { apply reaches_prefix in Ry. destruct Ry as (q1 & q2 & _ & Lq). exact (tree_ok_leaf_at _ qc q1 y Wqc Lq). }
      assert (Dy : forall ax, In ax (dkeys (op_shape y)) -> ~ In ax (dkeys shc)).
      { destruct (proj2 Pf' p ob Lb) as (y' & Ry' & Dy & _). rewrite Ry in Ry'. injection Ry' as <-. exact Dy. }
      assert (Fr : fits_in (reduced keepdims (axes_of axis shc) shc) (reduced keepdims (axes_of axis T) T)).
      { intros ax n H. apply reduced_In in H. destruct H as [[H1 H2]|(K & H1 & -> & H2)].
        - destruct (Fc ax n H2) as (m & Hm & X). exists m. split; [|exact X]. apply reduced_In. left. split; [|exact Hm].
          intros Z. apply H1. exact (Permutation_in ax P Z).
        - exists 1. split; [|now left]. apply reduced_In. right. split; [exact K|]. split; [exact (Permutation_in ax (Permutation_sym P) H1)|]. split; [reflexivity|].
          destruct Rd as (_ & I & _). apply I. exact (Permutation_in ax (Permutation_sym P) H1). }
      assert (Fr2 : fits_in (op_shape y ++ reduced keepdims (axes_of axis shc) shc) (op_shape y ++ reduced keepdims (axes_of axis T) T)).
      { intros ax n H. apply in_app_or in H. destruct H as [H|H]; [exists n; split; [apply in_or_app; now left|now right]|].
        destruct (Fr ax n H) as (m & Hm & X). exists m. split; [apply in_or_app; now right|exact X]. }
      split; [exact (DotFacts.fits_trans _ _ _ Fa Fr2)|]. intros e He.
      set (R0 := reduced keepdims (axes_of axis shc) shc) in *. set (R := op_shape y ++ R0) in *.
      assert (NR0 : NoDup (dkeys R0)) by now apply reduced_NoDup.
      assert (K0 : forall ax, In ax (dkeys R0) -> In ax (dkeys shc)).
      { intros ax H. apply in_map_iff in H. destruct H as ([k n] & X & H). cbn [fst] in X. subst k. apply reduced_In in H.
        destruct H as [[_ H]|(_ & _ & _ & H)]; [now apply (in_map fst) in H|exact H]. }
      assert (NR : NoDup (dkeys R)).
      { unfold R, dkeys. rewrite map_app. apply PolyNameFacts.nodup_append; [now apply op_shape_NoDup|exact NR0|]. intros ax H1 H2. exact (Dy ax H1 (K0 ax H2)). }
      assert (He' : inside (bclamp R e) R) by (apply clamp_inside; [exact NR|exact (MatrixFacts.fits_within _ _ _ Fr2 He)]).
      transitivity (op_at (OpArr a) (bclamp R e)).
      { symmetry. apply op_at_clamp; [exact Wa|exact NR|]. intros ax n Hn. destruct (Fa ax n Hn) as (m & Hm & [-> | ->]); auto. }
      rewrite (Va _ He'). symmetry. unfold value.
      assert (Ey : op_at y (bclamp R e) = op_at y e).
      { apply op_at_clamp; [exact Wy|exact NR|]. intros ax n Hn. right. apply in_or_app. now left. }
      rewrite Ey.
      assert (Near : forall (e1 e2 : env) ax n, (forall ax, In ax (axes_of axis shc) -> e1 ax = e2 ax) ->
        (forall ax, ~ In ax (axes_of axis shc) -> e1 ax = e ax /\ e2 ax = bclamp R e ax) -> In (ax, n) shc -> n = 1 \/ e1 ax = e2 ax).
      { intros e1 e2 ax n H1 H2 Hn. destruct (in_dec string_dec ax (axes_of axis shc)) as [Z|Z]; [right; now apply H1|]. destruct (H2 ax Z) as [-> ->].
        assert (HR : In (ax, n) R) by (apply in_or_app; right; apply reduced_In; auto). unfold bclamp. rewrite (dget_NoDup _ _ _ NR HR). destruct n as [|[|n]]; auto. }
      apply total_same; [apply Sy|apply Rd|exact P|intros ? ? ?; reflexivity|exact Sz|]. intros e1 e2 H1 _ H2. split; [|reflexivity].
      rewrite Vob. apply op_at_near.
      - inversion W as [|? ? Ncs W']; subst. exact (tree_ok_leaf_at _ x p o (W' c x Hc) Lx).
      - intros ax n Hn. destruct (Fob ax n Hn) as [-> |Hn']; [now left|]. exact (Near e1 e2 ax n H1 H2 Hn'). }
    destruct (on_components_intro step cs) as (rs & Ers).
    { intros c x Hc. destruct (St c x Hc) as (r & Er & _). eauto. }
    rewrite Ers. cbn [bind]. exists (Node ty rs). split; [reflexivity|]. apply on_components_ok in Ers.
    assert (Names := Forall2_names (fun kv kr => step (fst kv) (snd kv) = Ok (snd kr)) cs rs Ers).
    assert (Get := Forall2_dget (fun c x y => step c x = Ok y) cs rs Ers).
    split; intros [|c p]; cbn [kind leaf_at].
    + now rewrite Names.
    + specialize (Get c). destruct (dget cs c) as [x|] eqn:Dc, (dget rs c) as [y|]; try contradiction; [|reflexivity].
      destruct (St c x (dget_In _ _ _ Dc)) as (r & Er & Kr & _). rewrite Er in Get. injection Get as <-. apply Kr.
    + reflexivity.
    + specialize (Get c). destruct (dget cs c) as [x|] eqn:Dc, (dget rs c) as [y|]; try contradiction; [|reflexivity].
      destruct (St c x (dget_In _ _ _ Dc)) as (r & Er & _ & Vr). rewrite Er in Get. injection Get as <-. apply Vr.
Qed.
End Percentiles.

(** ** The statements *)

Lemma leaf_shapes_plain {A} (v : vec A) : leaf_shapes v None = map op_shape (leaves v).
Proof. unfold leaf_shapes. apply app_nil_r. Qed.

Lemma vec_shape_cases {A} (v : vec A) : vec_wf v -> filled v ->
  (exists T, vec_shape v = Ok T) \/ (vec_shape v = Err ValueError /\ forall T, ~ joint (map op_shape (leaves v)) T).
Proof.
  intros W F. destruct (shape_with_total v None W (no_mask v)) as [(T & E)|(E & N)].
  - left. exists T. now apply shape_back.
  - right. rewrite leaf_shapes_plain in N. split; [|exact N]. unfold shape_with in E.
    destruct (vec_shape v) as [s|e] eqn:Es; cbn [bind] in E; [|congruence].
    exfalso. exact (N s (vec_shape_joint v s W Es)).
Qed.

Theorem vec_percentile_values {A Q B} (valid : Q -> bool) (perc : Q -> list A -> B) axis keepdims ty cs (q : vec Q) T :
  (forall x, symmetric (perc x)) ->
  let v := Node ty cs in vec_wf v -> filled v -> joint (map op_shape (leaves v)) T -> percentiles_for valid v q T ->
  (forall ax n, In (ax, n) T -> n <> 0) -> (forall l, axis = Some l -> NoDup l /\ incl l (dkeys T)) ->
  exists r, vec_percentile valid perc v q axis keepdims = Ok r /\ (forall p, kind r p = kind v p) /\
    forall p, match leaf_at v p with
              | None => leaf_at r p = None
              | Some o => exists x a, reaches q p = Some x /\ leaf_at r p = Some (OpArr a) /\ wf a /\
                  (forall ax n, In (ax, n) (op_shape x) -> In (ax, n) (sshape a)) /\
                  fits_in (sshape a) (op_shape x ++ reduced keepdims (axes_of axis T) T) /\
                  forall e, inside e (op_shape x ++ reduced keepdims (axes_of axis T) T) ->
                    bat a e = perc (op_at x e) (map (op_at o) (fibre T (axes_of axis T) e))
              end.
Proof.
  intros Sy v W Hf J Pf NE Ax.
  destruct (vec_shape_cases v W Hf) as [(T' & E)|(_ & No)]; [|now destruct (No T)].
  assert (J' := vec_shape_joint v T' W E). assert (Q0 := joint_unique _ _ _ J' J). assert (N := proj1 J). assert (N' := proj1 J').
  assert (P : Permutation (axes_of axis T') (axes_of axis T)).
  { destruct axis as [l|]; [apply Permutation_refl|]. cbn [axes_of]. apply NoDup_Permutation; [exact N'|exact N|]. intros ax.
    split; apply same_keys; [exact Q0|intros k n; symmetry; apply Q0]. }
  assert (Na : NoDup (axes_of axis T)) by (destruct axis as [l|]; [apply (Ax l eq_refl)|exact N]).
  assert (Ia : incl (axes_of axis T) (dkeys T)) by (destruct axis as [l|]; [apply (Ax l eq_refl)|apply incl_refl]).
  assert (Q' : same_shape T T') by (intros k n; symmetry; apply Q0).
  assert (Rd : reducible true axis T' false).
  { split; [exact (Permutation_NoDup (Permutation_sym P) Na)|]. split; [|now left].
    intros ax H. apply (same_keys T T' ax Q'). apply Ia. exact (Permutation_in ax P H). }
  assert (Pf' : percentiles_for valid v q T').
  { split; [apply Pf|]. intros p o L. destruct (proj2 Pf p o L) as (x & R & D & X). exists x. split; [exact R|]. split; [|exact X].
    intros ax H K. exact (D ax H (same_keys T' T ax Q0 K)). }
  destruct (vec_percentile_ok valid perc axis keepdims Sy (depth v) v q T' (le_n _) W Hf Pf' E ltac:(intros o [=])
             ltac:(intros ax n H; apply (NE ax n); now apply Q0) Rd) as (r & Er & Kr & Vr).
  exists r. split; [exact Er|]. split; [exact Kr|]. intros p. specialize (Vr p). destruct (leaf_at v p) as [o|] eqn:L; [|exact Vr].
  destruct Vr as (x & a & Rx & La & Wa & Xa & Fa & Va). exists x, a. split; [exact Rx|]. split; [exact La|]. split; [exact Wa|].
  split; [exact Xa|].
  assert (RR : same_shape (reduced keepdims (axes_of axis T') T') (reduced keepdims (axes_of axis T) T)).
  { intros ax n. rewrite !reduced_In. assert (Pi : In ax (axes_of axis T') <-> In ax (axes_of axis T)).
    { split; apply Permutation_in; [exact P|now apply Permutation_sym]. }
    assert (Ki : In ax (dkeys T') <-> In ax (dkeys T)) by (split; now apply same_keys). rewrite Pi, Ki, (Q0 ax n). reflexivity. }
  split.
  - intros ax n Hn. destruct (Fa ax n Hn) as (m & Hm & X). exists m. split; [|exact X]. apply in_app_or in Hm. apply in_or_app.
    destruct Hm as [Hm|Hm]; [now left|right; now apply RR].
  - intros e He. change (bat a e) with (op_at (OpArr a) e). rewrite (Va e).
    + unfold value. rewrite (total_same _ o o (fun _ => true) (fun _ => true) T' T (axes_of axis T') (axes_of axis T) e e).
      * unfold total. now rewrite filter_all.
      * apply Sy.
      * exact (Permutation_NoDup (Permutation_sym P) Na).
      * exact P.
      * intros ? ? ?; reflexivity.
      * intros ax _. exact (same_size T' T ax N' N Q0).
      * intros e1 e2 H1 _ H2. split; [|reflexivity]. apply op_at_respects. intros ax.
        destruct (in_dec string_dec ax (axes_of axis T)) as [Z|Z]; [now apply H1|]. destruct (H2 ax Z). congruence.
    + intros ax n Hn. apply He. apply in_app_or in Hn. apply in_or_app. destruct Hn as [Hn|Hn]; [now left|right; now apply RR].
Qed.

Theorem vec_percentile_absent {A Q B} (valid : Q -> bool) (perc : Q -> list A -> B) l keepdims ty cs (q : vec Q) T ax :
  let v := Node ty cs in vec_wf v -> filled v -> joint (map op_shape (leaves v)) T -> In ax l -> ~ In ax (dkeys T) ->
  vec_percentile valid perc v q (Some l) keepdims = Err ValueError.
Proof.
  intros v W F J Hl Ha. destruct (vec_shape_cases v W F) as [(T' & E)|(_ & No)]; [|now destruct (No T)].
  assert (Q0 := joint_unique _ _ _ (vec_shape_joint v T' W E) J).
  unfold vec_percentile. cbn [depth v vec_percentile_rec]. fold v. rewrite E. cbn [bind].
  replace (negb (forallb (fun ax => smem ax (dkeys T')) l)) with true; [reflexivity|]. symmetry. apply negb_true_iff.
  destruct (forallb (fun ax => smem ax (dkeys T')) l) eqn:X; [|reflexivity]. rewrite forallb_forall in X. specialize (X ax Hl). apply smem_In in X.
  destruct Ha. exact (same_keys T' T ax Q0 X).
Qed.

Theorem vec_percentile_conflict {A Q B} (valid : Q -> bool) (perc : Q -> list A -> B) axis keepdims ty cs (q : vec Q) :
  let v := Node ty cs in vec_wf v -> filled v -> (forall T, ~ joint (map op_shape (leaves v)) T) ->
  vec_percentile valid perc v q axis keepdims = Err ValueError.
Proof.
  intros v W F No. destruct (vec_shape_cases v W F) as [(T' & E)|(E & _)].
  - destruct (No T'). now apply vec_shape_joint.
  - unfold vec_percentile. cbn [depth v vec_percentile_rec]. fold v. now rewrite E.
Qed.

(** ** One scalar [q] for all the components *)

Lemma on_components_fail {L M} (g : string -> tree L -> res M) cs e : on_components g cs = Err e ->
  exists c x, In (c, x) cs /\ g c x = Err e.
Proof.
  unfold on_components. induction cs as [|[c x] cs IH]; intros H; [discriminate|]. cbn in H.
  destruct (g c x) as [y|e'] eqn:G; cbn in H.
  - destruct (traverse (fun kv => r <- g (fst kv) (snd kv) ;; Ok (fst kv, r)) cs) as [ys|e'] eqn:T; cbn in H; [discriminate|].
    destruct (IH H) as (c' & x' & Hc & G'). exists c', x'. split; [now right|exact G'].
  - injection H as <-. exists c, x. split; [now left|exact G].
Qed.

Section Shared.
Context {A Q B : Type} (valid : Q -> bool) (perc : Q -> list A -> B) (axis : option (list string)) (keepdims : bool) (x : operand Q).
Hypothesis Sy : forall y, symmetric (perc y).
Hypothesis Wx : op_wf x.

Lemma shared_leaf (o : operand A) r : op_wf o -> na_percentile valid perc o x axis None keepdims = Ok r ->
  forall ax, In ax (dkeys (op_shape x)) -> ~ In ax (dkeys (op_shape o)).
Proof.
  intros Wo H ax H1 H2. unfold na_percentile in H.
  match type of H with (if ?b then _ else _) = _ => destruct b; [discriminate|] end.
  assert (E : existsb (fun ax => smem ax (s_axes (normalize x))) (s_axes (normalize o)) = true).
  { apply existsb_exists. exists ax. rewrite <- (wf_keys _ (normalize_wf o Wo)), normalize_shape. split; [exact H2|].
    apply smem_In. rewrite <- (wf_keys _ (normalize_wf x Wx)), normalize_shape. exact H1. }
  rewrite E in H. discriminate.
Qed.

Lemma shared_ok fuel : forall (v : vec A) r, vec_wf v -> filled v ->
  vec_percentile_rec fuel valid perc v (Leaf x) axis keepdims = Ok r ->
  forall o ax, In o (leaves v) -> In ax (dkeys (op_shape x)) -> ~ In ax (dkeys (op_shape o)).
Proof.
  induction fuel as [|fuel IH]; intros v r W F H; destruct v as [o0|ty cs].
  1,3: cbn [vec_percentile_rec] in H; apply bind_ok in H; destruct H as (a & E & _); intros o ax [<- |[]] H1;
       (eapply shared_leaf; [inversion W; auto|exact E|exact H1]).
  - discriminate.
  - cbn [vec_percentile_rec] in H. apply bind_ok in H. destruct H as (T & E & H).
    match type of H with (if ?b then _ else _) = _ => destruct b; [discriminate|] end.
    apply bind_ok in H. destruct H as (rs & Er & _). apply on_components_ok in Er.
    intros o ax Ho H1 H2. assert (Nc : NoDup (map fst cs)) by (inversion W; auto).
    cbn [leaves] in Ho. apply in_flat_map in Ho. destruct Ho as ([c y] & Hc & Ho). cbn [snd] in Ho.
    assert (Wy : vec_wf y) by (inversion W as [|? ? _ W']; subst; exact (W' c y Hc)).
    assert (St : exists z, (shx <- vec_shape y ;;
        shc <- broadcast_shapes [shx; dict_of (flat_map (fun ax => match dget T ax with Some n => [(ax, n)] | None => [] end) (match axis with None => dkeys T | Some l => l end))] ;;
        b <- vec_broadcast_to y shc ;; qc <- component c (Leaf x) ;; vec_percentile_rec fuel valid perc b qc axis keepdims) = Ok z).
    { clear -Er Hc. induction Er as [|[k u] [k' z] cs rs H ? IHr]; [contradiction|]. destruct Hc as [Hc|Hc]; [|now apply IHr].
      injection Hc as -> ->. exists z. apply H. }
    destruct St as (z & St). apply bind_ok in St. destruct St as (shx & Ex & St). apply bind_ok in St. destruct St as (shc & Ec & St).
    apply bind_ok in St. destruct St as (b & Eb & St). cbn [component bind] in St.
    destruct (component_step axis None ty cs c y T W F (no_mask _) (shape_plain _ _ W E) Hc) as (wc & shx' & shw & shc' & wb & b' & E1 & E2 & E3 & E4 & E5 & E6 & Nc' & Fc & Cov & Wb & Fb & Db & Bc & Ub & _).
    cbn in E1. injection E1 as <-. cbn in E3. injection E3 as <-. rewrite drop_empty in E4.
    rewrite Ex in E2. injection E2 as <-. assert (X : Ok shc = Ok shc') by exact (eq_trans (eq_sym Ec) E4). injection X as <-. clear E4. rewrite Eb in E6. injection E6 as <-.
    assert (Nx := vec_shape_NoDup y shx Wy Ex).
    destruct (filled_leaf b (tree_ok_any _ b Wb) Fb) as (p & ob & Lb). assert (Hob := MatrixFacts.leaf_In _ _ _ Lb).
    apply (IH b z Wb Fb St ob ax Hob H1). rewrite Forall_forall in Ub. rewrite (Ub ob Hob).
    assert (Fo := leaf_fits_shape y shx o Wy Ex Ho).
    assert (Nl : Forall (fun s => NoDup (dkeys s)) [shx; base_of T (axes_of axis T)]).
    { repeat constructor; [exact Nx|]. exact (proj1 (base_spec T (axes_of axis T) (vec_shape_NoDup _ _ W E))). }
    assert (Fs := OptimizeFacts.broadcast_fits _ _ shx Nl Ec ltac:(cbn; auto)).
    apply in_map_iff in H2. destruct H2 as ([k n] & X & H2). cbn [fst] in X. subst k.
    destruct (DotFacts.fits_trans _ _ _ Fo Fs ax n H2) as (m & Hm & _). now apply (in_map fst) in Hm.
Qed.

Lemma shared_err fuel : forall (v : vec A) T e, depth v <= fuel -> vec_wf v -> filled v -> vec_shape v = Ok T ->
  (forall o, v = Leaf o -> op_shape o = T) -> (forall ax n, In (ax, n) T -> n <> 0) ->
  vec_percentile_rec fuel valid perc v (Leaf x) axis keepdims = Err e -> e = ValueError.
Proof.
  assert (Leafcase : forall fuel (o : operand A) T e, op_wf o -> op_shape o = T -> (forall ax n, In (ax, n) T -> n <> 0) ->
    vec_percentile_rec fuel valid perc (Leaf o) (Leaf x) axis keepdims = Err e -> e = ValueError).
  { clear fuel. intros fuel o T e W So NE H.
    destruct (na_percentile valid perc o x axis None keepdims) as [r|e'] eqn:E.
    - destruct fuel; cbn [vec_percentile_rec] in H; rewrite E in H; discriminate.
    - subst T. destruct (QuantileFacts.percentile_spec valid perc o x axis keepdims Sy W Wx NE) as (P1 & P2).
      assert (E' : na_percentile valid perc o x axis None keepdims = Err ValueError).
      { apply P2. intros K. destruct (P1 K) as (r & Er & _). congruence. }
      destruct fuel; cbn [vec_percentile_rec] in H; rewrite E' in H; cbn in H; congruence. }
  induction fuel as [|fuel IH]; intros v T e D W F E Hl NE H; destruct v as [o|ty cs].
  1,3: apply (Leafcase _ o T e) in H; auto; inversion W; auto.
  - cbn in D. lia.
  - cbn [vec_percentile_rec] in H. rewrite E in H. cbn [bind] in H.
    match type of H with (if ?b then _ else _) = _ => destruct b; [congruence|] end.
    match type of H with context [on_components ?g cs] => set (step := g) in H end.
    assert (St : forall c y e', In (c, y) cs -> step c y = Err e' -> e' = ValueError).
    { intros c y e' Hc Se.
      destruct (component_step axis None ty cs c y T W F (no_mask _) (shape_plain _ _ W E) Hc) as (wc & shx & shw & shc & wb & b & E1 & E2 & E3 & E4 & E5 & E6 & Nc' & Fc & Cov & Wb & Fb & Db & Bc & Ub & Mb & Eb & _).
      cbn in E1. injection E1 as <-. cbn in E3. injection E3 as <-. cbn in E5. injection E5 as <-. rewrite drop_empty in E4.
      unfold step in Se. rewrite E2 in Se. cbn [bind] in Se. match type of Se with context [broadcast_shapes ?l] => replace (broadcast_shapes l) with (Ok shc) in Se by (symmetry; exact E4) end.
      cbn [bind] in Se. rewrite E6 in Se. cbn [bind component] in Se.
      apply (IH b shc e') in Se; auto.
      - rewrite Db. assert (Z := depth_In ty cs c y Hc). lia.
      - now apply shape_back.
      - intros o ->. inversion Ub; auto.
      - intros ax n Hn Z. destruct (Fc ax n Hn) as (m & Hm & [X|X]); [lia|]. apply (NE ax m Hm). congruence. }
    destruct (on_components step cs) as [rs|e'] eqn:Oc; [discriminate|]. cbn [bind] in H. injection H as <-.
    apply on_components_fail in Oc. destruct Oc as (c & y & Hc & Se). exact (St c y e' Hc Se).
Qed.
End Shared.

Theorem vec_percentile_shared {A Q B} (valid : Q -> bool) (perc : Q -> list A -> B) axis keepdims ty cs (x : operand Q) T ax :
  (forall y, symmetric (perc y)) ->
  let v := Node ty cs in vec_wf v -> filled v -> op_wf x -> joint (map op_shape (leaves v)) T ->
  (forall ax n, In (ax, n) T -> n <> 0) -> In ax (dkeys (op_shape x)) -> In ax (dkeys T) ->
  vec_percentile valid perc v (Leaf x) axis keepdims = Err ValueError.
Proof.
  intros Sy v W F Wx J NE H1 H2. destruct (vec_percentile valid perc v (Leaf x) axis keepdims) as [r|e] eqn:E; unfold vec_percentile in E.
  - exfalso. apply in_map_iff in H2. destruct H2 as ([k n] & X & H2). cbn [fst] in X. subst k.
    destruct (proj2 (proj2 J) ax n H2) as (s & Hs & Hn). apply in_map_iff in Hs. destruct Hs as (o & <- & Ho).
    apply (shared_ok valid perc axis keepdims x Wx (depth v) v r W F E o ax Ho H1). now apply (in_map fst) in Hn.
  - f_equal. destruct (vec_shape_cases v W F) as [(T' & E')|(_ & No)]; [|now destruct (No T)].
    assert (Q0 := joint_unique _ _ _ (vec_shape_joint v T' W E') J).
    refine (shared_err valid perc axis keepdims x Sy Wx (depth v) v T' e (le_n _) W F E' _ _ E); [intros o [=]|].
    intros ax' n H. apply (NE ax' n). now apply Q0.
Qed.

(** ** A vector [q] for a scalar *)

Lemma scalar_axes {A} (o : operand A) : op_wf o -> s_axes (normalize o) = dkeys (op_shape o).
Proof. intros W. destruct o as [a|x]; [|reflexivity]. symmetry. exact (wf_keys a W). Qed.

Theorem vec_percentile_of_scalar {A Q B} (valid : Q -> bool) (perc : Q -> list A -> B) (o : operand A) ty (qs : list (string * vec Q)) axis keepdims :
  op_wf o -> (forall l, axis = Some l -> incl l (dkeys (op_shape o))) ->
  vec_percentile valid perc (Leaf o) (Node ty qs) axis keepdims = Err AttributeError.
Proof.
  intros W H. unfold vec_percentile. cbn [depth vec_percentile_rec]. rewrite (scalar_axes o W). destruct axis as [l|]; [|reflexivity].
  replace (forallb (fun ax => smem ax (dkeys (op_shape o))) l) with true; [reflexivity|]. symmetry. apply forallb_forall. intros ax Hax.
  apply smem_In. exact (H l eq_refl ax Hax).
Qed.

Theorem vec_percentile_of_scalar_absent {A Q B} (valid : Q -> bool) (perc : Q -> list A -> B) (o : operand A) ty (qs : list (string * vec Q)) l ax keepdims :
  op_wf o -> In ax l -> ~ In ax (dkeys (op_shape o)) ->
  vec_percentile valid perc (Leaf o) (Node ty qs) (Some l) keepdims = Err ValueError.
Proof.
  intros W Hl Ha. unfold vec_percentile. cbn [depth vec_percentile_rec]. rewrite (scalar_axes o W).
  destruct (forallb (fun ax => smem ax (dkeys (op_shape o))) l) eqn:X; [|reflexivity]. rewrite forallb_forall in X. specialize (X ax Hl).
  apply smem_In in X. contradiction.
Qed.
