(** Proofs about Fourier transforms of vectors. *)
From Coq Require Import Ascii String List Arith ZArith Bool Lia Permutation.
From Verif Require Import Base Numpy Shapes Scalar Along Elementwise Reduce Vector VectorReduce Fourier VectorFourier Spec SpecVector SpecVectorReduce
  SpecMatrix SpecFourier BaseFacts ShapesFacts AlignFacts ElementwiseFacts ReduceFacts SortingFacts LinspaceFacts VectorFacts VectorIndexFacts
  VectorReduceFacts VectorQuantileFacts FourierFacts.
From Verif Require OptimizeFacts DerivedFacts PdfFacts DotFacts MatrixFacts TransformFacts AlongFacts.
Import ListNotations.
Open Scope nat_scope.
Open Scope list_scope.

(** ** The scheme *)

Section Scheme.
Context {A : Type} (S : list string) (leaf : sarr A -> res (sarr A)).

(** [a] is [o] broadcast along the axes [S] *)
Definition spread (o : operand A) (T : shape) (a : sarr A) : Prop :=
  wf a /\ fits_in (sshape a) T /\ (forall ax n, In ax S -> In (ax, n) T -> In (ax, n) (sshape a)) /\
  (forall ax, In ax (dkeys (op_shape o)) -> In ax (dkeys (sshape a))) /\
  (forall ax n, In (ax, n) (op_shape o) -> n = 1 \/ In (ax, n) (sshape a)) /\
  forall e, bat a e = op_at o e.

Definition transformed (v : vec A) (T : shape) (r : vec A) : Prop :=
  (forall p, kind r p = kind v p) /\
  forall p, match leaf_at v p with
            | None => leaf_at r p = None
            | Some o => exists a b, spread o T a /\ leaf a = Ok b /\ leaf_at r p = Some (OpArr b)
            end.

Lemma traverse_cases {L M} (g : string -> tree L -> res M) cs :
  (exists r, on_components g cs = Ok r) \/ (exists c x e, In (c, x) cs /\ g c x = Err e /\ on_components g cs = Err e).
Proof.
  destruct (on_components g cs) as [r|e] eqn:E; [left; eauto|right]. destruct (on_components_fail g cs e E) as (c & x & H & G). exists c, x, e. auto.
Qed.

Lemma along_cases fuel : forall (v : vec A) T, depth v <= fuel -> vec_wf v -> filled v -> vec_shape v = Ok T ->
  (forall o, v = Leaf o -> op_shape o = T /\ exists a, o = OpArr a) -> incl S (dkeys T) ->
  (exists r, along_rec fuel S leaf v = Ok r /\ transformed v T r) \/
  (exists p o a e, leaf_at v p = Some o /\ spread o T a /\ leaf a = Err e /\ along_rec fuel S leaf v = Err e).
Proof.
  assert (Leafcase : forall fuel o T, vec_wf (Leaf o) -> op_shape o = T /\ (exists a, o = OpArr a) ->
    (exists r, along_rec fuel S leaf (Leaf o) = Ok r /\ transformed (Leaf o) T r) \/
    (exists p o' a e, leaf_at (Leaf o) p = Some o' /\ spread o' T a /\ leaf a = Err e /\ along_rec fuel S leaf (Leaf o) = Err e)).
  { clear fuel. intros fuel o T W (So & a & ->). assert (Wa : wf a) by (inversion W; auto). cbn [op_shape] in So. subst T.
    assert (Sp : spread (OpArr a) (sshape a) a).
    { split; [exact Wa|]. split; [intros ax n H; exists n; auto|]. repeat split; auto. }
    destruct (leaf a) as [b|e] eqn:E.
    - left. exists (Leaf (OpArr b)). split; [destruct fuel; cbn [along_rec]; rewrite E; reflexivity|].
      split; [intros [|c p]; reflexivity|]. intros [|c p]; cbn [leaf_at]; [|reflexivity]. exists a, b. auto.
    - right. exists [], (OpArr a), a, e. split; [reflexivity|]. split; [exact Sp|]. split; [exact E|].
      destruct fuel; cbn [along_rec]; rewrite E; reflexivity. }
  induction fuel as [|fuel IH]; intros v T D W Hf E Hl I; destruct v as [o|ty cs].
  1,3: apply Leafcase; auto.
  - cbn in D. lia.
  - cbn [along_rec]. rewrite E. cbn [bind].
    assert (Es := shape_plain _ _ W E). assert (NT := vec_shape_NoDup _ _ W E).
    replace (negb (forallb (fun ax => smem ax (dkeys T)) S)) with false
      by (symmetry; apply negb_false_iff, forallb_forall; intros ax H; apply smem_In; now apply I).
    fold (base_of T S).
    match goal with |- context [on_components ?g cs] => set (step := g) end.
    assert (Nc : NoDup (map fst cs)) by (inversion W; auto).
    assert (St : forall c x, In (c, x) cs ->
      (exists r, step c x = Ok r /\ transformed x T r) \/
      (exists p o a e, leaf_at x p = Some o /\ spread o T a /\ leaf a = Err e /\ step c x = Err e)).
    { intros c x Hc.
      destruct (component_step (Some S) None ty cs c x T W Hf (no_mask _) Es Hc) as (wc & shx & shw & shc & wb & b & E1 & E2 & E3 & E4 & E5 & E6 & Nc' & Fc & Cov & Wb & Fb & Db & Bc & Ub & Mb & Eb & Hw & Uw & Al).
      cbn in E1. injection E1 as <-. cbn in E3. injection E3 as <-. cbn in E5. injection E5 as <-. rewrite drop_empty in E4. cbn [axes_of] in E4, Cov.
      assert (Wx : vec_wf x) by (inversion W as [|? ? _ W']; subst; exact (W' c x Hc)).
      destruct (base_spec T S NT) as (Nb & _).
      assert (Nl : Forall (fun s => NoDup (dkeys s)) [shx; base_of T S]) by (repeat constructor; [exact (vec_shape_NoDup _ _ Wx E2)|exact Nb]).
      assert (Ic : incl S (dkeys shc)).
      { intros ax H. assert (K := I ax H). apply in_map_iff in K. destruct K as ([k n] & X & K). cbn [fst] in X. subst k.
        assert (Z := Cov ax n H K). now apply (in_map fst) in Z. }
      assert (Leaves : forall p o, leaf_at x p = Some o -> forall ob, leaf_at b p = Some ob -> forall a, spread ob shc a -> spread o T a).
      { intros p o L ob Lb a (Wa & Fa & Ca & Ka & Sa & Va). destruct Bc as (_ & Bc). specialize (Bc p). rewrite L in Bc.
        destruct Bc as (ob' & Lb' & Wob & Sob & Vob & Fob). rewrite Lb in Lb'. injection Lb' as <-.
        split; [exact Wa|]. split; [exact (DotFacts.fits_trans _ _ _ Fa Fc)|]. split; [intros ax n H1 H2; apply Ca; auto|]. split; [|split].
        - intros ax H. apply Ka. rewrite Sob. apply in_map_iff in H. destruct H as ([k n] & X & H). cbn [fst] in X. subst k.
          assert (Q := leaf_fits_shape x shx o Wx E2 (MatrixFacts.leaf_In x p o L)).
          assert (Q' := OptimizeFacts.broadcast_fits _ _ shx Nl E4 ltac:(cbn; auto)).
          destruct (DotFacts.fits_trans _ _ _ Q Q' ax n H) as (m & Hm & _). now apply (in_map fst) in Hm.
        - intros ax n H. destruct (Fob ax n H) as [-> |H']; [now left|]. rewrite <- Sob in H'. now apply Sa.
        - intros e. rewrite Va. apply Vob. }
      assert (Conv : step c x = along_rec fuel S leaf b).
      { unfold step. rewrite E2. cbn [bind]. match goal with |- context [broadcast_shapes ?l] => replace (broadcast_shapes l) with (Ok shc) by (symmetry; exact E4) end. cbn [bind]. rewrite E6. reflexivity. }
      destruct (IH b shc) as [(r & Er & Kr & Vr)|(p & ob & a & e & Lb & Sp & Ea & Er)]; try assumption.
      { rewrite Db. assert (Z := depth_In ty cs c x Hc). lia. }
      { now apply shape_back. }
      { intros o ->. split; [inversion Ub; auto|]. destruct x as [ox|]; cbn in E6.
        - unfold op_broadcast_to in E6. destruct (na_broadcast_to (normalize ox) shc false) as [a|]; cbn in E6; [|discriminate]. injection E6 as <-. eauto.
        - apply bind_ok in E6. destruct E6 as (? & _ & [=]). }
      - left. exists r. split; [now rewrite Conv|]. split; [intros p; rewrite Kr; apply (proj1 Bc)|]. intros p. specialize (Vr p).
        assert (Bp := proj2 Bc p). destruct (leaf_at x p) as [o|] eqn:L; [|rewrite Bp in Vr; exact Vr].
        destruct Bp as (ob & Lb & _). rewrite Lb in Vr. destruct Vr as (a & b0 & Sp & Ea & La). exists a, b0. split; [exact (Leaves p o L ob Lb a Sp)|]. auto.
      - right. assert (Bp := proj2 Bc p). destruct (leaf_at x p) as [o|] eqn:L; [|congruence].
        exists p, o, a, e. split; [exact L|]. split; [exact (Leaves p o L ob Lb a Sp)|]. split; [exact Ea|]. now rewrite Conv. }
    destruct (traverse_cases step cs) as [(rs & Ers)|(c & x & e & Hc & Ee & Ers)]; rewrite Ers; cbn [bind].
    + left. exists (Node ty rs). split; [reflexivity|]. apply on_components_ok in Ers.
      assert (Names := Forall2_names (fun kv kr => step (fst kv) (snd kv) = Ok (snd kr)) cs rs Ers).
      assert (Get := Forall2_dget (fun c x y => step c x = Ok y) cs rs Ers).
      assert (Sub : forall c x r, dget cs c = Some x -> step c x = Ok r -> transformed x T r).
      { intros c x r Dc Er. destruct (St c x (dget_In _ _ _ Dc)) as [(r' & Er' & H)|(p & o & a & e & _ & _ & _ & X)]; congruence. }
      split; intros [|c p]; cbn [kind leaf_at].
      * now rewrite Names.
      * specialize (Get c). destruct (dget cs c) as [x|] eqn:Dc, (dget rs c) as [y|]; try contradiction; [|reflexivity].
        apply (Sub c x y Dc Get).
      * reflexivity.
      * specialize (Get c). destruct (dget cs c) as [x|] eqn:Dc, (dget rs c) as [y|]; try contradiction; [|reflexivity].
        apply (Sub c x y Dc Get).
    + right. destruct (St c x Hc) as [(r & Er & _)|(p & o & a & e' & L & Sp & Ea & Es')]; [congruence|].
      assert (e' = e) as -> by congruence. exists (c :: p), o, a, e. cbn [leaf_at]. rewrite (dget_NoDup cs c x Nc Hc). auto.
Qed.

Lemma spread_same o T T' a : same_shape T T' -> spread o T a -> spread o T' a.
Proof.
  intros Q (Wa & Fa & Ca & R). split; [exact Wa|]. split; [|split; [|exact R]].
  - intros ax n H. destruct (Fa ax n H) as (m & Hm & X). exists m. split; [now apply Q|exact X].
  - intros ax n H1 H2. apply Ca; [exact H1|now apply Q].
Qed.

Theorem along_vector ty cs T : let v := Node ty cs in vec_wf v -> filled v -> joint (map op_shape (leaves v)) T -> incl S (dkeys T) ->
  (exists r, along_rec (depth v) S leaf v = Ok r /\ transformed v T r) \/
  (exists p o a e, leaf_at v p = Some o /\ spread o T a /\ leaf a = Err e /\ along_rec (depth v) S leaf v = Err e).
Proof.
  intros v W F J I. destruct (vec_shape_cases v W F) as [(T' & E)|(_ & No)]; [|now destruct (No T)].
  assert (Q := joint_unique _ _ _ (vec_shape_joint v T' W E) J).
  destruct (along_cases (depth v) v T' (le_n _) W F E ltac:(intros o [=])) as [(r & Er & Kr & Vr)|(p & o & a & e & L & Sp & Ea & Er)].
  - intros ax H. apply (same_keys T T'); [intros k n; symmetry; apply Q|now apply I].
  - left. exists r. split; [exact Er|]. split; [exact Kr|]. intros p. specialize (Vr p). destruct (leaf_at v p) as [o|]; [|exact Vr].
    destruct Vr as (a & b & Sp & R). exists a, b. split; [exact (spread_same o T' T a Q Sp)|exact R].
  - right. exists p, o, a, e. split; [exact L|]. split; [exact (spread_same o T' T a Q Sp)|]. auto.
Qed.

Theorem along_absent ty cs T : let v := Node ty cs in vec_wf v -> filled v -> joint (map op_shape (leaves v)) T -> ~ incl S (dkeys T) ->
  along_rec (depth v) S leaf v = Err ValueError.
Proof.
  intros v W F J I. destruct (vec_shape_cases v W F) as [(T' & E)|(_ & No)]; [|now destruct (No T)].
  assert (Q := joint_unique _ _ _ (vec_shape_joint v T' W E) J).
  cbn [depth v along_rec]. fold v. rewrite E. cbn [bind].
  destruct (forallb (fun ax => smem ax (dkeys T')) S) eqn:X; [|reflexivity]. destruct I. intros ax H. rewrite forallb_forall in X. specialize (X ax H).
  apply smem_In in X. exact (same_keys T' T ax Q X).
Qed.

Theorem along_conflict ty cs : let v := Node ty cs in vec_wf v -> filled v -> (forall T, ~ joint (map op_shape (leaves v)) T) ->
  along_rec (depth v) S leaf v = Err ValueError.
Proof.
  intros v W F No. destruct (vec_shape_cases v W F) as [(T' & E)|(E & _)].
  - destruct (No T'). now apply vec_shape_joint.
  - cbn [depth v along_rec]. fold v. now rewrite E.
Qed.
End Scheme.

(** ** The values *)

Lemma resized_fits s t x n : fits_in s t -> fits_in (resized s x n) (resized t x n).
Proof.
  intros H ax k Hk. apply DerivedFacts.in_resized in Hk. destruct Hk as (j & Hj & ->). destruct (H ax j Hj) as (m & Hm & X).
  exists (if String.eqb ax x then n else m). split; [apply DerivedFacts.in_resized; eauto|]. destruct (String.eqb ax x); auto.
Qed.

Lemma spectra_fits {A} (l : list (stage A)) : forall s t, fits_in s t -> fits_in (spectra_shape l s) (spectra_shape l t).
Proof. induction l as [|[t0 [x n]] l IH]; intros s t H; cbn [spectra_shape]; [exact H|]. apply IH. now apply resized_fits. Qed.

Lemma size_resized s x n ax : In x (dkeys s) -> size_of (resized s x n) ax = if String.eqb ax x then n else size_of s ax.
Proof.
  intros H. unfold size_of, resized. induction s as [|[k v] s IH]; [destruct H|]. cbn [map dget fst snd].
  destruct (String.eqb_spec ax k) as [-> |D].
  - destruct (String.eqb k x); reflexivity.
  - destruct H as [H|H]; [|exact (IH H)]. cbn [fst] in H. subst k. clear IH. destruct (String.eqb_spec ax x); [contradiction|].
    assert (Z : dget (map (fun kv => (fst kv, if String.eqb (fst kv) x then n else snd kv)) s) ax = dget s ax); [|now rewrite Z].
    induction s as [|[k w] s IH]; [reflexivity|]. cbn [map dget fst snd]. destruct (String.eqb_spec ax k) as [-> |]; [|exact IH].
    destruct (String.eqb_spec k x); congruence.
Qed.

Definition stage_axes {A} (l : list (stage A)) : list string := map (fun st => fst (snd st)) l.

(** axes that are not transformed keep their sizes, the sizes of the others do not depend on the array *)
Lemma spectra_in {A} (l : list (stage A)) : forall s ax n, In (ax, n) (spectra_shape l s) -> ~ In ax (stage_axes l) -> In (ax, n) s.
Proof.
  induction l as [|[t0 [x k]] l IH]; intros s ax n H D; cbn [spectra_shape] in H; [exact H|]. cbn in D.
  apply IH in H; [|tauto]. apply DerivedFacts.in_resized in H. destruct H as (j & Hj & ->).
  destruct (String.eqb_spec ax x); [subst; destruct D; now left|exact Hj].
Qed.

Lemma spectra_out {A} (l : list (stage A)) : forall s t ax n, In ax (stage_axes l) -> In ax (dkeys t) ->
  In (ax, n) (spectra_shape l s) -> In (ax, n) (spectra_shape l t).
Proof.
  assert (K : forall (l : list (stage A)) s t ax n, (forall m, In (ax, m) s -> In (ax, m) t) -> In (ax, n) (spectra_shape l s) -> In (ax, n) (spectra_shape l t)).
  { clear. induction l as [|[t0 [x k]] l IH]; intros s t ax n H Hn; cbn [spectra_shape] in *; [now apply H|].
    apply (IH (resized s x (t_out t0 k))); [|exact Hn]. intros m Hm. apply DerivedFacts.in_resized in Hm. destruct Hm as (j & Hj & ->).
    apply DerivedFacts.in_resized. exists j. auto. }
  induction l as [|[t0 [x k]] l IH]; intros s t ax n Hl Ht Hn; cbn [spectra_shape stage_axes map fst snd] in *; [destruct Hl|].
  destruct (in_dec string_dec ax (stage_axes l)) as [H|H].
  - apply (IH (resized s x (t_out t0 k))); [exact H|now rewrite DerivedFacts.resized_keys|exact Hn].
  - destruct Hl as [-> |Hl]; [|destruct (H Hl)]. apply (K l (resized s ax (t_out t0 k))); [|exact Hn].
    intros m Hm. apply DerivedFacts.in_resized in Hm. destruct Hm as (j & Hj & ->). rewrite String.eqb_refl.
    apply in_map_iff in Ht. destruct Ht as ([z q] & X & Hq). cbn [fst] in X. subst z. apply DerivedFacts.in_resized. exists q. now rewrite String.eqb_refl.
Qed.

Lemma spectra_rel {A} (zero : A) (near : env -> env -> Prop) (l : list (stage A)) : forall s t (v w : env -> A),
  (forall x, In x (stage_axes l) -> In x (dkeys s) /\ In x (dkeys t) /\ size_of s x = size_of t x) ->
  (forall e e' x i, In x (stage_axes l) -> near e e' -> near (set_env e x i) (set_env e' x i)) ->
  (forall e e' x, In x (stage_axes l) -> near e e' -> e x = e' x) -> NoDup (dkeys s) ->
  (forall e e', inside e s -> near e e' -> v e = w e') ->
  forall e e', inside e (spectra_shape l s) -> near e e' -> spectra zero l s v e = spectra zero l t w e'.
Proof.
  induction l as [|[t0 [x k]] l IH]; intros s t v w Sz Cl Eq N H e e' I R; cbn [spectra_shape spectra stage_axes map fst snd] in *; [now apply H|].
  apply IH; [| | | | |exact I|exact R].
  - intros y Hy. destruct (Sz y (or_intror Hy)) as (Y1 & Y2 & Y3). rewrite !DerivedFacts.resized_keys. split; [exact Y1|]. split; [exact Y2|].
    destruct (Sz x (or_introl eq_refl)) as (X1 & X2 & _). rewrite !size_resized by assumption. now rewrite Y3.
  - intros f f' y i Hy. apply Cl. now right.
  - intros f f' y Hy. apply Eq. now right.
  - rewrite DerivedFacts.resized_keys. exact N.
  - intros f f' If Rf. unfold spectrum. rewrite (Eq f f' x (or_introl eq_refl) Rf). destruct (Sz x (or_introl eq_refl)) as (X1 & X2 & X3). rewrite <- X3.
    f_equal. f_equal. apply map_ext_in. intros i Hi. apply in_seq in Hi. apply H; [|apply Cl; [now left|exact Rf]].
    intros ax n Hn. unfold set_env. destruct (String.eqb_spec ax x) as [-> |D].
    + unfold size_of in Hi. rewrite (dget_NoDup _ _ _ N Hn) in Hi. lia.
    + apply If. apply DerivedFacts.in_resized. exists n. split; [exact Hn|]. destruct (String.eqb_spec ax x); [contradiction|reflexivity].
Qed.

Lemma nodup_image {X Y} (f : X -> Y) (l : list X) : NoDup l -> (forall x y, In x l -> In y l -> f x = f y -> x = y) -> NoDup (map f l).
Proof.
  induction 1 as [|x l H N IH]; intros J; cbn [map]; constructor.
  - intros K. apply in_map_iff in K. destruct K as (y & E & Hy). apply H. rewrite (J x y); auto using in_eq, in_cons.
  - apply IH. intros; apply J; auto using in_cons.
Qed.

Lemma inject_names (axes : dict string) (l m : list string) : NoDup (map (renamed axes) m) -> NoDup l -> incl l m -> NoDup (map (renamed axes) l).
Proof. intros N Nl I. apply nodup_image; [exact Nl|]. intros x y Hx Hy E. exact (nodup_map_inj _ _ _ _ N (I x Hx) (I y Hy) E). Qed.

Definition named (axes : dict string) (sh : shape) : shape := map (fun kv => (renamed axes (fst kv), snd kv)) sh.

Lemma in_named axes sh z n : In (z, n) (named axes sh) <-> exists ax, renamed axes ax = z /\ In (ax, n) sh.
Proof.
  unfold named. rewrite in_map_iff. split.
  - intros ([k m] & E & H). cbn [fst snd] in E. injection E as <- <-. eauto.
  - intros (ax & <- & H). exists (ax, n). auto.
Qed.

Lemma renamed_out axes ax : ~ In ax (dkeys axes) -> renamed axes ax = ax.
Proof. intros H. unfold renamed. now rewrite (proj2 (dget_None axes ax) H). Qed.

(** a scalar of the result *)
Lemma spread_value {A} (zero : A) (axes : dict string) (st : list (stage A)) (o : operand A) T (a b : sarr A) :
  NoDup (dkeys T) -> op_wf o -> incl (dkeys axes) (dkeys T) -> NoDup (map (renamed axes) (dkeys T)) ->
  (forall x, In x (stage_axes st) <-> In x (dkeys axes)) ->
  spread (dkeys axes) o T a -> wf b -> sshape b = named axes (spectra_shape st (sshape a)) ->
  (forall e, at_ b e = spectra zero st (sshape a) (at_ a) (fun ax => e (renamed axes ax))) ->
  fits_in (sshape b) (named axes (spectra_shape st T)) /\
  (forall x n, In x (dkeys axes) -> In (x, n) (spectra_shape st T) -> In (renamed axes x, n) (sshape b)) /\
  forall e, inside e (named axes (spectra_shape st T)) -> bat b e = spectra zero st T (op_at o) (fun ax => e (renamed axes ax)).
Proof.
  intros NT Wo I Nr Ax (Wa & Fa & Ca & Ka & Sa & Va) Wb Sb Vb.
  assert (Na := wf_nodup a Wa).
  assert (Sub : incl (dkeys (sshape a)) (dkeys T)).
  { intros ax H. apply in_map_iff in H. destruct H as ([k n] & X & H). cbn [fst] in X. subst k. destruct (Fa ax n H) as (m & Hm & _). now apply (in_map fst) in Hm. }
  assert (Cov : forall x, In x (dkeys axes) -> In x (dkeys (sshape a))).
  { intros x H. assert (K := I x H). apply in_map_iff in K. destruct K as ([k n] & X & K). cbn [fst] in X. subst k.
    assert (Z := Ca x n H K). now apply (in_map fst) in Z. }
  assert (Size : forall x, In x (dkeys axes) -> size_of (sshape a) x = size_of T x).
  { intros x H. assert (K := I x H). apply in_map_iff in K. destruct K as ([k n] & X & K). cbn [fst] in X. subst k.
    assert (Z := Ca x n H K). unfold size_of. now rewrite (dget_NoDup _ _ _ Na Z), (dget_NoDup _ _ _ NT K). }
  assert (Fb : fits_in (sshape b) (named axes (spectra_shape st T))).
  { rewrite Sb. intros z n H. apply in_named in H. destruct H as (ax & <- & H).
    destruct (spectra_fits st (sshape a) T Fa ax n H) as (m & Hm & X). exists m. split; [apply in_named; eauto|exact X]. }
  split; [exact Fb|]. split.
  { intros x n H Hn. rewrite Sb. apply in_named. exists x. split; [reflexivity|]. apply (spectra_out st T); auto. now apply Ax. }
  intros e He. unfold bat. rewrite Vb. set (e1 := bclamp (sshape b) e).
  assert (Nb := wf_nodup b Wb).
  assert (I1 : inside e1 (sshape b)) by (apply clamp_inside; [exact Nb|exact (MatrixFacts.fits_within _ _ _ Fb He)]).
  apply (spectra_rel zero (fun e e' => forall ax, In ax (dkeys axes) \/ ~ In (ax, 1) (sshape a) -> e ax = e' ax)).
  - intros x Hx. apply Ax in Hx. split; [now apply Cov|]. split; [now apply I|now apply Size].
  - intros f f' x i Hx H ax Hax. unfold set_env. destruct (String.eqb ax x); [reflexivity|now apply H].
  - intros f f' x Hx H. apply H. left. now apply Ax.
  - exact Na.
  - intros f f' If R. rewrite <- (bat_inside a f Wa If), Va. apply op_at_near; [exact Wo|]. intros ax n Hn.
    destruct (Nat.eq_dec n 1) as [-> |D]; [now left|right]. apply R. destruct (Sa ax n Hn) as [E|Hn']; [contradiction|].
    right. intros K. apply (dget_NoDup _ _ _ Na) in K, Hn'. congruence.
  - intros ax n Hn. apply I1. rewrite Sb. apply in_named. eauto.
  - intros ax H. cbn beta. unfold e1, bclamp. destruct (dget (sshape b) (renamed axes ax)) as [[|[|n]]|] eqn:D; try reflexivity.
    apply dget_In in D. assert (D' := D). rewrite Sb in D'. apply in_named in D'. destruct D' as (ax0 & E0 & H0).
    assert (K0 : In ax0 (dkeys (sshape a))).
    { apply (in_map fst) in H0. cbn [fst] in H0. fold (dkeys (spectra_shape st (sshape a))) in H0. rewrite dkeys_spectra in H0. exact H0. }
    destruct (in_dec string_dec ax0 (dkeys axes)) as [Z|Z].
    + assert (X : In (renamed axes ax, 1) (named axes (spectra_shape st T))).
      { apply in_named. exists ax0. split; [exact E0|]. apply (spectra_out st (sshape a)); [now apply Ax|now apply I|exact H0]. }
      apply He in X. lia.
    + exfalso. assert (H1 := spectra_in st _ _ _ H0 ltac:(intros Q; apply Z; now apply Ax)).
      assert (E : ax = ax0).
      { destruct (in_dec string_dec ax (dkeys (sshape a))) as [Y|Y].
        - apply (nodup_map_inj _ _ _ _ Nr); [now apply Sub|now apply Sub|now symmetry].
        - rewrite (renamed_out axes ax) in E0 by (intros Q; apply Y; now apply Cov). rewrite (renamed_out axes ax0 Z) in E0. now symmetry. }
      subst ax0. destruct H as [H|H]; [exact (Z H)|exact (H H1)].
Qed.

(** ** One axis *)

Lemma renamed_one x y ax : renamed [(x, y)] ax = if String.eqb ax x then y else ax.
Proof. unfold renamed. cbn [dget]. now destruct (String.eqb ax x). Qed.

Lemma named_one {A} (t : transform A) x y k (sh : shape) :
  named [(x, y)] (spectra_shape [(t, (x, k))] sh) = map (fun kv => if String.eqb (fst kv) x then (y, t_out t k) else kv) sh.
Proof.
  cbn [spectra_shape]. unfold named, resized. rewrite map_map. apply map_ext. intros [ax n]. cbn [fst snd]. rewrite renamed_one. now destruct (String.eqb ax x).
Qed.

Lemma nodup_one x y (l : list string) : NoDup l -> y = x \/ ~ In y l -> NoDup (map (renamed [(x, y)]) l).
Proof.
  intros N H. apply nodup_image; [exact N|]. intros u w Hu Hw. rewrite !renamed_one.
  destruct (String.eqb_spec u x) as [-> |], (String.eqb_spec w x) as [-> |]; auto; intros E; subst; destruct H as [H|H]; try contradiction; congruence.
Qed.

Lemma size_in (T : shape) x m : NoDup (dkeys T) -> In (x, m) T -> size_of T x = m.
Proof. intros N H. unfold size_of. now rewrite (dget_NoDup _ _ _ N H). Qed.

Theorem vec_fft_values {A} (zero : A) (t : transform A) ty (cs : list (string * vec A)) T x y m (n : option nat) :
  let v := Node ty cs in vec_wf v -> filled v -> joint (map op_shape (leaves v)) T -> In (x, m) T ->
  let k := match n with Some n => n | None => t_default t m end in
  k <> 0 -> (y = x \/ ~ In y (dkeys T)) ->
  exists r, vec_fft zero t v (x, y) n = Ok r /\ (forall p, kind r p = kind v p) /\
    forall p, match leaf_at v p with
              | None => leaf_at r p = None
              | Some o => exists b, leaf_at r p = Some (OpArr b) /\ wf b /\ In (y, t_out t k) (sshape b) /\
                  fits_in (sshape b) (map (fun kv => if String.eqb (fst kv) x then (y, t_out t k) else kv) T) /\
                  forall e, inside e (map (fun kv => if String.eqb (fst kv) x then (y, t_out t k) else kv) T) ->
                    bat b e = t_value t k (padded zero (t_in t k) (map (fun i => op_at o (set_env e x i)) (seq 0 m))) (e y)
              end.
Proof.
  intros v W F J Hx k K Hy. assert (NT := proj1 J). assert (Kx : In x (dkeys T)) by (now apply (in_map fst) in Hx).
  assert (Ok1 : forall o a, spread [x] o T a -> exists b, na_fft zero t a (x, y) n = Ok b /\ wf b /\
    sshape b = map (fun kv => if String.eqb (fst kv) x then (y, t_out t k) else kv) (sshape a) /\
    forall e, at_ b e = t_value t k (padded zero (t_in t k) (line a x e)) (e y)).
  { intros o a (Wa & Fa & Ca & _). apply (fft_ok zero t a x y m n Wa).
    - apply Ca; [now left|exact Hx].
    - exact K.
    - destruct Hy as [Hy|Hy]; [now left|right]. rewrite <- (wf_keys a Wa). intros Q. apply Hy.
      apply in_map_iff in Q. destruct Q as ([z q] & X & Q). cbn [fst] in X. subst z. destruct (Fa y q Q) as (q' & H & _). now apply (in_map fst) in H. }
  destruct (along_vector [x] (fun a => na_fft zero t a (x, y) n) ty cs T W F J) as [(r & Er & Kr & Vr)|(p & o & a & e & L & Sp & Ea & _)].
  { intros z [<- |[]]. exact Kx. }
  2:{ destruct (Ok1 o a Sp) as (b & Eb & _). congruence. }
  exists r. split; [exact Er|]. split; [exact Kr|]. intros p. specialize (Vr p). fold v in Vr. destruct (leaf_at v p) as [o|] eqn:L; [|exact Vr].
  destruct Vr as (a & b & Sp & Eb & Lb). destruct (Ok1 o a Sp) as (b' & Eb' & Wb & Sb & Vb). rewrite Eb in Eb'. injection Eb' as <-.
  assert (Wo : op_wf o) by exact (tree_ok_leaf_at _ v p o W L).
  destruct (spread_value zero [(x, y)] [(t, (x, k))] o T a b NT Wo) as (Fb & Cb & Q).
  { intros z [<- |[]]. exact Kx. }
  { now apply nodup_one. }
  { intros z. cbn. tauto. }
  { exact Sp. }
  { exact Wb. }
  { now rewrite named_one. }
  { intros e. rewrite Vb. cbn [spectra]. unfold spectrum, line. rewrite renamed_one, String.eqb_refl. f_equal. f_equal. apply map_ext. intros i.
    apply AlongFacts.at_ext. intros ax _. unfold set_env. destruct (String.eqb_spec ax x) as [|D]; [reflexivity|]. rewrite renamed_one.
    destruct (String.eqb_spec ax x); [contradiction|reflexivity]. }
  rewrite named_one in Fb, Q. exists b. split; [exact Lb|]. split; [exact Wb|]. split.
  { assert (Z := Cb x (t_out t k) (or_introl eq_refl)). rewrite renamed_one, String.eqb_refl in Z. apply Z. cbn [spectra_shape].
    apply DerivedFacts.in_resized. exists m. now rewrite String.eqb_refl. }
  split; [exact Fb|]. intros e He. rewrite (Q e He). cbn [spectra]. unfold spectrum. rewrite renamed_one, String.eqb_refl, (size_in T x m NT Hx).
  f_equal. f_equal. apply map_ext. intros i. apply op_at_respects. intros ax. unfold set_env. destruct (String.eqb_spec ax x) as [|D]; [reflexivity|]. rewrite renamed_one.
  destruct (String.eqb_spec ax x); [contradiction|reflexivity].
Qed.

Lemma some_leaf {A} (v : vec A) : vec_wf v -> filled v -> exists p o, leaf_at v p = Some o.
Proof. intros W F. exact (filled_leaf v (tree_ok_any _ v W) F). Qed.

Theorem vec_fft_refused {A} (zero : A) (t : transform A) ty (cs : list (string * vec A)) T x y (n : option nat) :
  let v := Node ty cs in vec_wf v -> filled v -> joint (map op_shape (leaves v)) T ->
  ~ In x (dkeys T) \/
  (exists m, In (x, m) T /\ match n with Some n => n | None => t_default t m end = 0) \/
  (y <> x /\ In y (dkeys T)) ->
  vec_fft zero t v (x, y) n = Err ValueError.
Proof.
  intros v W F J H. unfold vec_fft. cbn [fst]. destruct (in_dec string_dec x (dkeys T)) as [Kx|Kx].
  2:{ apply (along_absent [x] _ ty cs T W F J). intros Q. apply Kx, Q. now left. }
  assert (NT := proj1 J).
  assert (Hm : exists m, In (x, m) T) by (apply in_map_iff in Kx; destruct Kx as ([z q] & X & Q); cbn [fst] in X; subst z; eauto). destruct Hm as (m & Hm).
  destruct (along_vector [x] (fun a => na_fft zero t a (x, y) n) ty cs T W F J) as [(r & Er & Kr & Vr)|(p & o & a & e & L & Sp & Ea & Er)].
  { intros z [<- |[]]. exact Kx. }
  - exfalso.
    assert (Any : exists p o a b, leaf_at v p = Some o /\ spread [x] o T a /\ na_fft zero t a (x, y) n = Ok b /\
             ((exists m, In (x, m) (sshape a) /\ match n with Some n => n | None => t_default t m end = 0) \/ (y <> x /\ In y (s_axes a)))).
    { destruct H as [H|[(m' & Hm' & Z)|(D & Hy)]]; [contradiction| |].
      - destruct (some_leaf v W F) as (p & o & L). specialize (Vr p). fold v in Vr. rewrite L in Vr. destruct Vr as (a & b & Sp & Eb & _).
        exists p, o, a, b. split; [exact L|]. split; [exact Sp|]. split; [exact Eb|]. left. exists m'. split; [|exact Z]. apply Sp; [now left|exact Hm'].
      - apply in_map_iff in Hy. destruct Hy as ([z q] & X & Hy). cbn [fst] in X. subst z. destruct J as (_ & _ & J). destruct (J y q Hy) as (s & Hs & Ys).
        apply in_map_iff in Hs. destruct Hs as (o & <- & Ho). destruct (MatrixFacts.In_leaf v o (tree_ok_any _ v W) Ho) as (p & L).
        specialize (Vr p). fold v in Vr. rewrite L in Vr. destruct Vr as (a & b & Sp & Eb & _).
        exists p, o, a, b. split; [exact L|]. split; [exact Sp|]. split; [exact Eb|]. right. split; [exact D|].
        destruct Sp as (Wa & _ & _ & Ka & _). rewrite <- (wf_keys a Wa). apply Ka. now apply (in_map fst) in Ys. }
    destruct Any as (p & o & a & b & _ & Sp & Eb & C).
    rewrite (fft_refused zero t a x y n (proj1 Sp)) in Eb; [discriminate|]. now right.
  - fold v in Er. rewrite Er. f_equal. destruct Sp as (Wa & Fa & Ca & _). assert (Hxa := Ca x m (or_introl eq_refl) Hm).
    destruct (Nat.eq_dec (match n with Some n => n | None => t_default t m end) 0) as [Z|Z].
    { rewrite (fft_refused zero t a x y n Wa) in Ea; [now injection Ea|]. right. left. eauto. }
    destruct (string_dec y x) as [D|D].
    { destruct (fft_ok zero t a x y m n Wa Hxa Z (or_introl D)) as (b & Eb & _). congruence. }
    destruct (in_dec string_dec y (s_axes a)) as [Y|Y].
    { rewrite (fft_refused zero t a x y n Wa) in Ea; [now injection Ea|]. right. right. auto. }
    destruct (fft_ok zero t a x y m n Wa Hxa Z (or_intror Y)) as (b & Eb & _). congruence.
Qed.

(** ** Several axes *)

Theorem vec_fftn_values {A} (zero : A) (w : ntransform A) ty (cs : list (string * vec A)) T (axes : dict string) (s : option (dict nat))
    (k : string -> nat) (st : list (stage A)) :
  let v := Node ty cs in vec_wf v -> filled v -> joint (map op_shape (leaves v)) T ->
  NoDup (dkeys axes) -> incl (dkeys axes) (dkeys T) -> NoDup (map (renamed axes) (dkeys T)) ->
  (forall ax, In ax (dkeys axes) -> k ax <> 0 /\
     match s with Some s => dget s ax = Some (k ax) | None => In (ax, k ax) T end) ->
  (forall d ax, s = Some d -> In ax (dkeys d) -> In ax (dkeys axes)) ->
  stages w (map (fun ax => (ax, k ax)) (dkeys axes)) st ->
  exists r, vec_fftn zero w v axes s = Ok r /\ (forall p, kind r p = kind v p) /\
    forall p, match leaf_at v p with
              | None => leaf_at r p = None
              | Some o => exists b, leaf_at r p = Some (OpArr b) /\ wf b /\
                  (forall x n, In x (dkeys axes) -> In (x, n) (spectra_shape st T) -> In (renamed axes x, n) (sshape b)) /\
                  fits_in (sshape b) (map (fun kv => (renamed axes (fst kv), snd kv)) (spectra_shape st T)) /\
                  forall e, inside e (map (fun kv => (renamed axes (fst kv), snd kv)) (spectra_shape st T)) ->
                    bat b e = spectra zero st T (op_at o) (fun ax => e (renamed axes ax))
              end.
Proof.
  intros v W F J Nx I Nr Hk Hs Hst. assert (NT := proj1 J).
  assert (Ok1 : forall o a, spread (dkeys axes) o T a -> exists b, na_fftn zero w a axes s = Ok b /\ wf b /\
    sshape b = named axes (spectra_shape st (sshape a)) /\
    forall e, at_ b e = spectra zero st (sshape a) (at_ a) (fun ax => e (renamed axes ax))).
  { intros o a (Wa & Fa & Ca & _).
    assert (Sub : incl (s_axes a) (dkeys T)).
    { intros ax H. rewrite <- (wf_keys a Wa) in H. apply in_map_iff in H. destruct H as ([z q] & X & H). cbn [fst] in X. subst z.
      destruct (Fa ax q H) as (q' & H' & _). now apply (in_map fst) in H'. }
    apply (fftn_ok zero w a axes s k st Wa Nx).
    - intros ax H. assert (K := I ax H). apply in_map_iff in K. destruct K as ([z q] & X & K). cbn [fst] in X. subst z.
      assert (Z := Ca ax q H K). rewrite <- (wf_keys a Wa). now apply (in_map fst) in Z.
    - apply (inject_names axes _ (dkeys T) Nr); [exact (proj1 Wa)|exact Sub].
    - intros ax H. destruct (Hk ax H) as (K & Q). split; [exact K|]. destruct s; [exact Q|]. now apply Ca.
    - exact Hs.
    - exact Hst. }
  assert (Axs : forall x, In x (stage_axes st) <-> In x (dkeys axes)).
  { intros x. assert (Q : In x (map fst (map (fun ax => (ax, k ax)) (dkeys axes))) <-> In x (stage_axes st)).
    { unfold stage_axes. generalize dependent (map (fun ax => (ax, k ax)) (dkeys axes)). intros l Hst.
      inversion Hst; subst; cbn [map fst snd]; rewrite ?map_app; cbn [map fst snd]; rewrite ?map_map; cbn [snd]; rewrite ?in_app_iff; cbn [In].
      - rewrite !in_map_iff. setoid_rewrite <- in_rev. reflexivity.
      - rewrite !in_map_iff. setoid_rewrite <- in_rev. tauto.
      - rewrite !in_map_iff. tauto. }
    rewrite <- Q, map_map. cbn [fst]. now rewrite map_id. }
  destruct (along_vector (dkeys axes) (fun a => na_fftn zero w a axes s) ty cs T W F J I) as [(r & Er & Kr & Vr)|(p & o & a & e & L & Sp & Ea & _)].
  2:{ destruct (Ok1 o a Sp) as (b & Eb & _). congruence. }
  exists r. split; [exact Er|]. split; [exact Kr|]. intros p. specialize (Vr p). fold v in Vr. destruct (leaf_at v p) as [o|] eqn:L; [|exact Vr].
  destruct Vr as (a & b & Sp & Eb & Lb). destruct (Ok1 o a Sp) as (b' & Eb' & Wb & Sb & Vb). rewrite Eb in Eb'. injection Eb' as <-.
  assert (Wo : op_wf o) by exact (tree_ok_leaf_at _ v p o W L).
  destruct (spread_value zero axes st o T a b NT Wo I Nr Axs Sp Wb Sb Vb) as (Fb & Cb & Q).
  exists b. auto.
Qed.

Theorem vec_fftn_refused {A} (zero : A) (w : ntransform A) ty (cs : list (string * vec A)) T (axes : dict string) (s : option (dict nat)) :
  let v := Node ty cs in vec_wf v -> filled v -> joint (map op_shape (leaves v)) T ->
  ~ incl (dkeys axes) (dkeys T) \/ (exists d, s = Some d /\ exists ax, ~ (In ax (dkeys d) <-> In ax (dkeys axes))) ->
  vec_fftn zero w v axes s = Err ValueError.
Proof.
  intros v W F J H. unfold vec_fftn.
  destruct (forallb (fun ax => smem ax (dkeys T)) (dkeys axes)) eqn:X.
  2:{ apply (along_absent (dkeys axes) _ ty cs T W F J). intros Q. apply Bool.not_true_iff_false in X. apply X, forallb_forall. intros ax Hax. apply smem_In. now apply Q. }
  assert (I : incl (dkeys axes) (dkeys T)) by (intros ax Hax; rewrite forallb_forall in X; apply smem_In; now apply X).
  destruct H as [H|H]; [contradiction|].
  assert (Bad : forall o a, spread (dkeys axes) o T a -> na_fftn zero w a axes s = Err ValueError).
  { intros o a (Wa & _). apply fftn_refused; [exact Wa|now right]. }
  destruct (along_vector (dkeys axes) (fun a => na_fftn zero w a axes s) ty cs T W F J I) as [(r & Er & Kr & Vr)|(p & o & a & e & L & Sp & Ea & Er)].
  - destruct (some_leaf v W F) as (p & o & L). specialize (Vr p). fold v in Vr. rewrite L in Vr. destruct Vr as (a & b & Sp & Eb & _).
    rewrite (Bad o a Sp) in Eb. discriminate.
  - fold v in Er. rewrite Er. rewrite (Bad o a Sp) in Ea. now injection Ea as <-.
Qed.
