(** Facts about polynomial fits: sums over points, the inverse, the coefficients. *)
From Coq Require Import Ascii String List Arith ZArith Bool Lia Permutation Field Field_theory Ring_theory.
From Verif Require Import Base BaseFacts Numpy NumpyFacts Shapes Scalar Elementwise Reduce Vector Matrix Poly
  Spec SpecNumeric SpecVector SpecMatrix SpecPoly ShapesFacts AlignFacts ElementwiseFacts ReduceFacts VectorFacts
  CartesianFacts LinspaceFacts MatrixFacts PolyFacts.
From Verif Require RegridFacts SortingFacts VectorIndexFacts ReorderFacts DotFacts QuantileFacts.
Import ListNotations.
Open Scope nat_scope.
Open Scope list_scope.

Section Sums.
Context {F : Type} (K : arith F) (FK : is_field K).

Let Fth : field_theory (zero K) (one K) (plus K) (times K) (minus K) (neg K) (over K) (over K (one K)) eq := proj1 FK.
Add Field Kg : Fth.

Lemma sum_points_ext l f g : (forall p, In p l -> f p = g p) -> sum_points K l f = sum_points K l g.
Proof.
  induction l as [|p l IH]; intros H; [reflexivity|]. simpl. rewrite (H p) by now left. f_equal. apply IH. intros q Hq. apply H. now right.
Qed.

Lemma sum_points_plus l f g : sum_points K l (fun p => plus K (f p) (g p)) = plus K (sum_points K l f) (sum_points K l g).
Proof. induction l as [|p l IH]; simpl; [ring|]. rewrite IH. ring. Qed.

Lemma sum_points_minus l f g : sum_points K l (fun p => minus K (f p) (g p)) = minus K (sum_points K l f) (sum_points K l g).
Proof. induction l as [|p l IH]; simpl; [ring|]. rewrite IH. ring. Qed.

Lemma sum_points_times l f c : sum_points K l (fun p => times K (f p) c) = times K (sum_points K l f) c.
Proof. induction l as [|p l IH]; simpl; [ring|]. rewrite IH. ring. Qed.

Lemma sum_points_zero l : sum_points K l (fun _ => zero K) = zero K.
Proof. induction l as [|p l IH]; simpl; [ring|]. rewrite IH. ring. Qed.

Lemma sum_points_over l ns f : sum_points K l (fun p => sum_over K ns (fun n => f p n)) =
  sum_over K ns (fun n => sum_points K l (fun p => f p n)).
Proof.
  induction ns as [|n ns IH]; simpl; [apply sum_points_zero|]. now rewrite sum_points_plus, IH.
Qed.

Lemma fold_sum_points l (f : env -> F) : fold_right (plus K) (zero K) (map f l) = sum_points K l f.
Proof. induction l as [|p l IH]; simpl; [reflexivity|]. now rewrite IH. Qed.

Lemma sum_symmetric : symmetric (fold_right (plus K) (zero K)).
Proof. apply fold_symmetric; intros; ring. Qed.

(** the sum over the axes [A] of an array of the shape [T] *)
Lemma poly_sum_ok T A axis w o f : NoDup (dkeys T) -> full T o f -> op_wf w -> fits_in (op_shape w) T ->
  NoDup A -> incl A (dkeys T) ->
  match axis with Some l => l = A | None => incl (dkeys T) A end ->
  exists r, poly_sum K o axis w = Ok r /\
    full (without T A) r (fun e => sum_points K (points T A w e) f).
Proof.
  intros N (a & -> & Wa & Sa & Va) Ww Fw NA IA HA. unfold poly_sum. cbn [normalize].
  assert (Ww' : forall o, Some w = Some o -> op_wf o) by (intros o E; now injection E as <-).
  assert (R := reduce_spec true (fold_right (plus K) (zero K)) a axis false (Some w) Wa Ww'). cbv zeta in R.
  assert (EB : broadcast_shapes (sshape a :: match Some w with Some o => op_shapes [o] | None => [] end) = Ok T).
  { assert (Q := shape_broadcasted_eq [OpArr (@mkS bool (mkNd (nshape (s_nd a)) (fun _ => true)) (s_axes a)); w]).
    unfold shape_broadcasted in Q. cbn [map op_shape op_shapes flat_map app] in Q.
    change (sshape {| s_nd := {| nshape := nshape (s_nd a); nget := fun _ => true |}; s_axes := s_axes a |}) with (sshape a) in Q.
    change (flat_map _ [w]) with (op_shapes [w]) in Q. cbn [op_shapes flat_map] in *. rewrite Q.
    - rewrite Sa. apply broadcast_absorb; auto. now apply op_shape_nodup.
    - constructor; [exact Wa|]. auto. }
  cbv beta iota in R. rewrite EB in R. destruct R as [R _].
  set (S0 := match axis with Some l => l | None => s_axes a end) in R.
  assert (Ea : s_axes a = dkeys T) by (rewrite <- (wf_keys a Wa), Sa; reflexivity).
  assert (PS : Permutation S0 A).
  { subst S0. destruct axis as [l|]; [subst l; apply Permutation_refl|]. rewrite Ea. apply NoDup_Permutation; auto.
    intros ax. split; auto. }
  assert (MS : forall ax, smem ax S0 = smem ax A).
  { intros ax. apply Bool.eq_true_iff_eq. rewrite !smem_In. split; intros H; [|apply Permutation_sym in PS]; eapply Permutation_in; eauto. }
  destruct R as (r & Er & Wr & Ar & Sr & _).
  { split; [eapply Permutation_NoDup; [apply Permutation_sym, PS|exact NA]|].
    split; [intros ax Hx; apply IA; eapply Permutation_in; eauto|].
    split; [|now left]. intros o E. injection E as <-. split; [reflexivity|]. intros ax. unfold size_of at 1 2.
    destruct (dget (op_shape w) ax) as [n|] eqn:En; [|now left]. rewrite Sa.
    destruct (Fw ax n (dget_In _ _ _ En)) as (m & Hm & [-> | ->]); [now left|right]. symmetry. now apply size_of_In. }
  rewrite Er. cbn [bind]. exists (OpArr r). split; [reflexivity|]. exists r. split; [reflexivity|]. split; [exact Wr|].
  assert (Kr : dkeys (sshape r) = dkeys (without T A)).
  { rewrite (wf_keys r Wr), Ar, RegridFacts.dkeys_without. apply filter_ext. intros ax. now rewrite MS. }
  split.
  { apply RegridFacts.shape_eq; [exact Kr|rewrite RegridFacts.dkeys_without; now apply NoDup_filter|].
    intros ax n H. apply Sr in H. destruct H as [H ->]. rewrite <- (wf_keys r Wr), Kr, RegridFacts.dkeys_without in H.
    apply filter_In in H. destruct H as [H1 H2]. rewrite Bool.negb_true_iff in H2. rewrite MS, H2. apply RegridFacts.without_In.
    rewrite Sa. apply in_map_iff in H1. destruct H1 as ([ax' m] & <- & Hm). cbn [fst] in *.
    rewrite (size_of_In T ax' m N Hm). split; [exact Hm|now apply smem_false]. }
  intros e I. rewrite (reduce_symmetric true _ a axis false (Some w) r Wa Ww' sum_symmetric Er A e PS).
  rewrite fold_sum_points, Sa. apply sum_points_ext. intros p Hp. apply Va. apply filter_In in Hp. destruct Hp as [Hp _].
  apply (QuantileFacts.fibre_in T A e p N Hp). intros ax n Hn HA'. apply (I ax n). now apply RegridFacts.without_In.
Qed.
End Sums.

(** ** The inverse *)

Section Inverse.
Context {F : Type} (K : arith F) (FK : is_field K).

Lemma expand_ext (sub sub' : list string -> F) f g before after :
  (forall l, incl l (before ++ after) -> sub l = sub' l) -> (forall c, In c after -> f c = g c) ->
  expand K sub f before after = expand K sub' g before after.
Proof.
  revert before. induction after as [|c after IH]; intros before Hs Hf; [reflexivity|]. cbn [expand].
  rewrite Hf by now left. rewrite Hs.
  - f_equal. apply IH; [|intros k Hk; apply Hf; now right]. intros l Hl. apply Hs. now rewrite <- app_assoc in Hl.
  - intros z Hz. apply in_app_or in Hz. apply in_or_app. destruct Hz; [now left|right; now right].
Qed.

Lemma determinant_ext rs : forall cs M M', (forall r c, In r rs -> In c cs -> M r c = M' r c) ->
  determinant K rs cs M = determinant K rs cs M'.
Proof.
  induction rs as [|r rs IH]; intros cs M M' H; [reflexivity|]. cbn [determinant]. apply expand_ext.
  - intros l Hl. apply IH. intros r' c Hr Hc. apply H; [now right|now apply Hl].
  - intros c Hc. apply H; [now left|exact Hc].
Qed.

(** a square table of operands, named by [ns] in both directions *)
Definition grid (B : shape) (ns : list string) (rows : dict (dict (operand F))) (G : string -> string -> env -> F) : Prop :=
  map fst rows = ns /\
  forall r row, dget rows r = Some row -> map fst row = ns /\ forall c o, dget row c = Some o -> reads B o (G r c).

Lemma grid_entry B ns rows G r c : grid B ns rows G -> In r ns -> In c ns ->
  exists row o, dget rows r = Some row /\ dget row c = Some o /\ reads B o (G r c).
Proof.
  intros [Kr H] Hr Hc. rewrite <- Kr in Hr. change (In r (dkeys rows)) in Hr. apply dget_Some_key in Hr. destruct Hr as (row & Er).
  destruct (H r row Er) as [Kc Ho]. rewrite <- Kc in Hc. change (In c (dkeys row)) in Hc. apply dget_Some_key in Hc.
  destruct Hc as (o & Eo). exists row, o. auto.
Qed.

Lemma grid_look B ns rows G r c e : grid B ns rows G -> In r ns -> In c ns -> inside e B -> look K rows r c e = G r c e.
Proof.
  intros H Hr Hc I. destruct (grid_entry B ns rows G r c H Hr Hc) as (row & o & E1 & E2 & R). unfold look. rewrite E1, E2.
  now apply (reads_at B).
Qed.

Lemma grid_of_look B ns nd : map fst nd = ns -> NoDup ns ->
  (forall i nr, In (i, nr) nd -> map fst nr = ns /\ forall c o, In (c, o) nr -> op_wf o /\ fits_in (op_shape o) B) ->
  grid B ns nd (look K nd).
Proof.
  intros Kn N H. split; [exact Kn|]. intros r row Er. destruct (H r row (dget_In _ _ _ Er)) as [Kr Ho]. split; [exact Kr|].
  intros c o Eo. destruct (Ho c o (dget_In _ _ _ Eo)) as [W S]. split; [exact W|]. split; [exact S|]. intros e I. unfold look. now rewrite Er, Eo.
Qed.

Lemma one_row {V} (rows : dict V) r ns : map fst rows = r :: ns -> exists v rows', rows = (r, v) :: rows' /\ map fst rows' = ns.
Proof. destruct rows as [|[k v] rows]; [discriminate|]. cbn. intros H. injection H as -> <-. eauto. Qed.

Lemma no_row {V} (rows : dict V) : map fst rows = [] -> rows = [].
Proof. destruct rows; [reflexivity|discriminate]. Qed.

Lemma grid_rows B ns rows G : grid B ns rows G -> NoDup ns ->
  forall r row, In (r, row) rows -> map fst row = ns /\ forall o, In o (map snd row) -> op_wf o /\ fits_in (op_shape o) B.
Proof.
  intros [Kr H] N r row Hr. assert (E : dget rows r = Some row) by (apply dget_NoDup; [unfold dkeys; now rewrite Kr|exact Hr]).
  destruct (H r row E) as [Kc Ho]. split; [exact Kc|]. intros o Hi. apply in_map_iff in Hi. destruct Hi as ([c o'] & <- & Hc).
  apply (reads_good B _ (G r c)). apply Ho. apply dget_NoDup; [unfold dkeys; now rewrite Kc|exact Hc].
Qed.

Lemma inverse_small B ns rows G : NoDup (dkeys B) -> NoDup ns -> ns <> [] -> length ns < 4 -> grid B ns rows G ->
  exists nd, inverse_nd K rows = Ok nd /\ inverse_of K B ns ns rows nd.
Proof.
  intros NB N Ne L Gr. assert (H := grid_rows B ns rows G Gr N). destruct Gr as [Kr _].
  destruct ns as [|r1 [|r2 [|r3 [|r4 ns]]]]; [congruence| | | |simpl in L; lia].
  - destruct (one_row rows r1 [] Kr) as (v1 & rows' & -> & K'). apply no_row in K'. subst rows'.
    destruct (H r1 v1 (or_introl eq_refl)) as [K1 H1].
    destruct (one_row v1 r1 [] K1) as (a & v' & -> & K'). apply no_row in K'. subst v'.
    destruct (H1 a (or_introl eq_refl)) as [Wa Sa]. now apply inverse1.
  - destruct (one_row rows r1 _ Kr) as (v1 & rows1 & -> & K1). destruct (one_row rows1 r2 _ K1) as (v2 & rows2 & -> & K2).
    apply no_row in K2. subst rows2.
    destruct (H r1 v1 ltac:(simpl; tauto)) as [Kv1 H1]. destruct (H r2 v2 ltac:(simpl; tauto)) as [Kv2 H2].
    destruct (one_row v1 r1 _ Kv1) as (a & w1 & -> & L1). destruct (one_row w1 r2 _ L1) as (b & w2 & -> & L2). apply no_row in L2. subst w2.
    destruct (one_row v2 r1 _ Kv2) as (c & w3 & -> & L3). destruct (one_row w3 r2 _ L3) as (d & w4 & -> & L4). apply no_row in L4. subst w4.
    apply inverse2; auto. apply Forall_forall. intros o Ho. simpl in Ho.
    destruct Ho as [<- |[<- |[<- |[<- |[]]]]]; first [apply H1; simpl; tauto | apply H2; simpl; tauto].
  - destruct (one_row rows r1 _ Kr) as (v1 & rows1 & -> & K1). destruct (one_row rows1 r2 _ K1) as (v2 & rows2 & -> & K2).
    destruct (one_row rows2 r3 _ K2) as (v3 & rows3 & -> & K3). apply no_row in K3. subst rows3.
    destruct (H r1 v1 ltac:(simpl; tauto)) as [Kv1 H1]. destruct (H r2 v2 ltac:(simpl; tauto)) as [Kv2 H2].
    destruct (H r3 v3 ltac:(simpl; tauto)) as [Kv3 H3].
    destruct (one_row v1 r1 _ Kv1) as (a & w1 & -> & L1). destruct (one_row w1 r2 _ L1) as (b & w2 & -> & L2).
    destruct (one_row w2 r3 _ L2) as (c & w3 & -> & L3). apply no_row in L3. subst w3.
    destruct (one_row v2 r1 _ Kv2) as (d & w1' & -> & L1'). destruct (one_row w1' r2 _ L1') as (e & w2' & -> & L2').
    destruct (one_row w2' r3 _ L2') as (f & w3' & -> & L3'). apply no_row in L3'. subst w3'.
    destruct (one_row v3 r1 _ Kv3) as (g & u1 & -> & M1). destruct (one_row u1 r2 _ M1) as (h & u2 & -> & M2).
    destruct (one_row u2 r3 _ M2) as (i & u3 & -> & M3). apply no_row in M3. subst u3.
    apply inverse3; auto. apply Forall_forall. intros o Ho. simpl in Ho.
    decompose [or] Ho; subst; try contradiction; first [apply H1; simpl; tauto | apply H2; simpl; tauto | apply H3; simpl; tauto].
Qed.

Lemma grid_square B ns rows G : grid B ns rows G -> NoDup ns -> ns <> [] -> square rows = true.
Proof.
  intros Gr N Ne. assert (H := grid_rows B ns rows G Gr N). destruct Gr as [Kr _].
  assert (L : length rows = length ns) by (rewrite <- Kr; now rewrite map_length).
  unfold square. apply andb_true_iff. split.
  - unfold consistent. destruct rows as [|[r p] rows]; [simpl in Kr; congruence|]. destruct (H r p (or_introl eq_refl)) as [Kp _].
    apply forallb_forall. intros [r' p'] Hp. cbn [snd]. destruct (H r' p' (or_intror Hp)) as [Kp' _].
    apply keys_eq_true. rewrite Kp, Kp'. tauto.
  - apply forallb_forall. intros [r p] Hp. cbn [snd]. apply Nat.eqb_eq. destruct (H r p Hp) as [Kp _].
    rewrite L, <- Kp. now rewrite map_length.
Qed.

Lemma skipn_flat {A B} (f : A -> list B) n (l : list A) i : (forall x, In x l -> length (f x) = n) ->
  skipn (i * n) (flat_map f l) = flat_map f (skipn i l).
Proof.
  revert l. induction i as [|i IH]; intros l H; [reflexivity|]. destruct l as [|x l]; [now rewrite skipn_nil|].
  cbn [flat_map skipn Nat.mul]. rewrite skipn_app, (skipn_all2 (f x)) by (rewrite H; [lia|now left]).
  rewrite H by now left. replace (n + i * n - n) with (i * n) by lia. apply IH. intros y Hy. apply H. now right.
Qed.

Lemma chunks_flat (f : string -> list F) ns : (forall x, In x ns -> length (f x) = length ns) ->
  chunks (length ns) (flat_map f ns) = map f ns.
Proof.
  intros H. unfold chunks. transitivity (map (fun i => f (nth i ns ""%string)) (seq 0 (length ns))).
  - apply map_ext_in. intros i Hi. apply in_seq in Hi. rewrite skipn_flat by exact H.
    assert (E : skipn i ns = nth i ns ""%string :: skipn (S i) ns).
    { clear - Hi. assert (L : i < length ns) by lia. clear Hi. revert i L. induction ns as [|x ns IH]; intros [|i] L; simpl in *; try lia; auto.
      apply IH. lia. }
    rewrite E. cbn [flat_map]. assert (Lf : length (f (nth i ns ""%string)) = length ns) by (apply H, nth_In; lia).
    rewrite firstn_app, Lf, Nat.sub_diag, firstn_O, app_nil_r. rewrite <- Lf. apply firstn_all.
  - rewrite <- (map_map (fun i => nth i ns ""%string) f). f_equal. clear.
    apply nth_ext with (d := ""%string) (d' := ""%string); [now rewrite map_length, seq_length|].
    intros i Hi. rewrite map_length, seq_length in Hi. rewrite (nth_indep _ _ (nth 0 ns ""%string)) by (now rewrite map_length, seq_length).
    rewrite (map_nth (fun i => nth i ns ""%string)). now rewrite seq_nth.
Qed.

Variable np_inv : list (list F) -> list (list F).

Lemma entries_values B ns rows G e : grid B ns rows G -> NoDup ns -> inside e B ->
  map (fun o => op_at o e) (flat_map (fun kv : string * dict (operand F) => map snd (snd kv)) rows) =
  flat_map (fun r => map (fun c => G r c e) ns) ns.
Proof.
  intros Gr N I. assert (Q : forall l, incl l rows ->
    map (fun o => op_at o e) (flat_map (fun kv : string * dict (operand F) => map snd (snd kv)) l) =
    flat_map (fun r => map (fun c => G r c e) ns) (map fst l)).
  { induction l as [|[r row] l IH]; intros Il; [reflexivity|]. cbn [flat_map map fst snd]. rewrite map_app, IH by (intros z Hz; apply Il; now right).
    f_equal. destruct Gr as [Kr H].
    assert (E : dget rows r = Some row) by (apply dget_NoDup; [unfold dkeys; now rewrite Kr|apply Il; now left]).
    destruct (H r row E) as [Kc Ho]. rewrite <- Kc, !map_map. apply map_ext_in. intros [c o] Hc. cbn [fst snd].
    apply (reads_at B); [|exact I]. apply Ho. apply dget_NoDup; [unfold dkeys; now rewrite Kc|exact Hc]. }
  rewrite Q by apply incl_refl. destruct Gr as [-> _]. reflexivity.
Qed.

Lemma combine_seq_nth (ns : list string) x d : In x (combine (seq 0 (length ns)) ns) -> nth (fst x) ns d = snd x /\ fst x < length ns.
Proof.
  assert (Q : forall m, In x (combine (seq m (length ns)) ns) -> m <= fst x /\ nth (fst x - m) ns d = snd x /\ fst x < m + length ns).
  { induction ns as [|n ns IH]; intros m H; [destruct H|]. cbn [length seq combine] in H. destruct H as [<- |H].
    - cbn [fst snd]. rewrite Nat.sub_diag. cbn. lia || (repeat split; lia).
    - destruct (IH (S m) H) as (A1 & A2 & A3). cbn [length]. repeat split; [lia| |lia].
      replace (fst x - m) with (S (fst x - S m)) by lia. exact A2. }
  intros H. destruct (Q 0 H) as (_ & E & L). now rewrite Nat.sub_0_r in E.
Qed.

Lemma inverse_large B ns rows G : NoDup (dkeys B) -> NoDup ns -> 4 <= length ns -> grid B ns rows G ->
  exists nd, inverse_flat K np_inv rows = Ok nd /\ grid B ns nd (look K nd) /\
    forall e, inside e B -> forall N', np_inv (map (fun i => map (fun j => G i j e) ns) ns) = map (fun i => map (N' i) ns) ns ->
      forall i j, In i ns -> In j ns -> look K nd i j e = N' j i.
Proof.
  intros NB N L Gr. assert (Ne : ns <> []) by (intros ->; simpl in L; lia).
  unfold inverse_flat. rewrite (grid_square B ns rows G Gr N Ne). cbn [negb].
  assert (Gd := grid_rows B ns rows G Gr N). assert (Kr := proj1 Gr).
  assert (Lr : length rows = length ns) by (rewrite <- Kr; now rewrite map_length).
  rewrite Lr. destruct (Nat.ltb_spec (length ns) 4) as [X|_]; [lia|].
  assert (Kc : match rows with [] => [] | (_, row) :: _ => map fst row end = ns).
  { destruct rows as [|[r p] rows']; [simpl in Kr; congruence|]. apply (Gd r p (or_introl eq_refl)). }
  rewrite Kc, Kr. set (entries := flat_map (fun kv : string * dict (operand F) => map snd (snd kv)) rows).
  assert (We : Forall op_wf entries /\ Forall (fun o => fits_in (op_shape o) B) entries).
  { split; apply Forall_forall; intros o Ho; apply in_flat_map in Ho; destruct Ho as ([r row] & Hr & Ho); cbn [snd] in Ho;
      now apply (proj2 (Gd r row Hr)). }
  destruct We as [We Fe].
  set (val := fun (i j : nat) (e : env) => nth i (nth j (np_inv (map (fun i => map (fun j => G i j e) ns) ns)) []) (zero K)).
  assert (Ent : forall i j, exists o, op_ufunc (fun l => nth i (nth j (np_inv (chunks (length ns) l)) []) (zero K)) entries = Ok o /\ reads B o (val i j)).
  { intros i j. destruct (ufunc_reads (fun l => nth i (nth j (np_inv (chunks (length ns) l)) []) (zero K)) B entries NB We Fe) as (o & E & R).
    exists o. split; [exact E|]. eapply reads_ext; [exact R|]. intros e I. cbv beta. unfold entries.
    rewrite (entries_values B ns rows G e Gr N I), chunks_flat; [reflexivity|]. intros r Hr. now rewrite map_length. }
  assert (Ks : map snd (combine (seq 0 (length ns)) ns) = ns) by (apply map_snd_combine; now rewrite seq_length).
  destruct (mapM_dict (V := dict (operand F)) snd (fun ic : nat * string =>
      row <- mapM (fun jr : nat * string =>
               x <- op_ufunc (fun l => nth (fst ic) (nth (fst jr) (np_inv (chunks (length ns) l)) []) (zero K)) entries ;; Ok (snd jr, x))
             (combine (seq 0 (length ns)) ns) ;; Ok (snd ic, row))
    (fun ic row => map fst row = ns /\ forall jr, In jr (combine (seq 0 (length ns)) ns) ->
        exists o, dget row (snd jr) = Some o /\ reads B o (val (fst ic) (fst jr))) (combine (seq 0 (length ns)) ns)) as (nd & En & Kn & Pn).
  - now rewrite Ks.
  - intros ic Hi. destruct (mapM_dict snd (fun jr : nat * string =>
               x <- op_ufunc (fun l => nth (fst ic) (nth (fst jr) (np_inv (chunks (length ns) l)) []) (zero K)) entries ;; Ok (snd jr, x))
               (fun jr o => reads B o (val (fst ic) (fst jr))) (combine (seq 0 (length ns)) ns)) as (row & Er & Kr' & Pr).
    + now rewrite Ks.
    + intros jr Hj. destruct (Ent (fst ic) (fst jr)) as (o & Eo & Ro). exists o. rewrite Eo. auto.
    + exists row. rewrite Er. split; [reflexivity|]. split; [now rewrite Kr', Ks|exact Pr].
  - exists nd. split; [exact En|].
    assert (Pos : forall n, In n ns -> exists i, In (i, n) (combine (seq 0 (length ns)) ns)).
    { intros n Hn. rewrite <- Ks in Hn. apply in_map_iff in Hn. destruct Hn as ([i n'] & <- & Hi). eauto. }
    assert (Look : forall c r e i j, In (i, c) (combine (seq 0 (length ns)) ns) -> In (j, r) (combine (seq 0 (length ns)) ns) ->
              inside e B -> look K nd c r e = val i j e).
    { intros c r e i j Hi Hj I. destruct (Pn (i, c) Hi) as (row & D & _ & Q). destruct (Q (j, r) Hj) as (o & Do & Ro). cbn [fst snd] in *.
      assert (D' : @dget (dict (operand F)) nd c = Some row) by exact D. unfold look. rewrite D', Do. now apply (reads_at B). }
    split.
    + split; [now rewrite Kn|]. intros r row Er. assert (Hr : In r ns) by (rewrite <- Ks, <- Kn; change (In r (dkeys nd)); apply dget_Some_key; eauto).
      destruct (Pos r Hr) as (i & Hi). destruct (Pn (i, r) Hi) as (row' & D & Kr' & Q). cbn [fst snd] in *.
      assert (row' = row) by congruence. subst row'. split; [exact Kr'|]. intros c o Eo.
      assert (Hc : In c ns) by (rewrite <- Kr'; change (In c (dkeys row)); apply dget_Some_key; eauto).
      destruct (Pos c Hc) as (j & Hj). destruct (Q (j, c) Hj) as (o' & Do & Ro). cbn [fst snd] in *. assert (o' = o) by congruence. subst o'.
      eapply reads_ext; [exact Ro|]. intros e I. symmetry. now apply Look.
    + intros e I N' EN i j Hi Hj. destruct (Pos i Hi) as (p & Hp), (Pos j Hj) as (q & Hq). rewrite (Look i j e p q Hp Hq I). unfold val. rewrite EN.
      destruct (combine_seq_nth ns (p, i) ""%string Hp) as [E1 L1], (combine_seq_nth ns (q, j) ""%string Hq) as [E2 L2]. cbn [fst snd] in *.
      rewrite (nth_indep _ _ ((fun i => map (N' i) ns) ""%string)) by (now rewrite map_length).
      rewrite (map_nth (fun i => map (N' i) ns)), E2.
      rewrite (nth_indep _ _ (N' j ""%string)) by (now rewrite map_length). now rewrite (map_nth (N' j)), E1.
Qed.

(** the inverse of a symmetric table *)
Lemma inverse_symmetric B ns rows G : NoDup (dkeys B) -> NoDup ns -> ns <> [] -> grid B ns rows G ->
  (forall i j e, In i ns -> In j ns -> inside e B -> G i j e = G j i e) ->
  exists nd, inverse_flat K np_inv rows = Ok nd /\ grid B ns nd (look K nd) /\
    forall e, inside e B -> invertible K np_inv ns (fun i j => G i j e) ->
      (forall i j, In i ns -> In j ns -> sum_over K ns (fun k => times K (look K nd i k e) (G k j e)) = delta K i j) /\
      (forall i j, In i ns -> In j ns -> sum_over K ns (fun k => times K (G i k e) (look K nd k j e)) = delta K i j).
Proof.
  intros NB N Ne Gr Sy. unfold invertible. destruct (Nat.ltb_spec (length ns) 4) as [L|L].
  - destruct (inverse_small B ns rows G NB N Ne L Gr) as (nd & En & Kn & Hn & Vn). exists nd.
    split. { unfold inverse_flat. rewrite (grid_square B ns rows G Gr N Ne). cbn [negb].
      replace (length rows) with (length ns) by (destruct Gr as [<- _]; now rewrite map_length).
      destruct (Nat.ltb_spec (length ns) 4); [exact En|lia]. }
    split; [now apply grid_of_look|]. intros e I D.
    assert (Lk : forall r c, In r ns -> In c ns -> look K rows r c e = G r c e) by (intros; eapply grid_look; eauto).
    destruct (Vn e I) as [V1 V2].
    { rewrite (determinant_ext ns ns _ (fun i j => G i j e)); [exact D|]. intros; now apply Lk. }
    split; intros i j Hi Hj; [rewrite <- (V1 i j Hi Hj)|rewrite <- (V2 i j Hi Hj)]; apply sum_over_ext; intros k Hk; now rewrite Lk.
  - destruct (inverse_large B ns rows G NB N L Gr) as (nd & En & Gn & Vn). exists nd. split; [exact En|]. split; [exact Gn|].
    intros e I (N' & EN & V1 & V2). assert (Lk := Vn e I N' EN). assert (Cm : forall a b, times K a b = times K b a) by (destruct FK as [Fl _]; apply Fl).
    assert (Dl : forall i j : string, delta K i j = delta K j i).
    { intros i j. unfold delta. now rewrite String.eqb_sym. }
    split; intros i j Hi Hj; rewrite (Dl i j).
    + rewrite <- (V2 j i Hj Hi). apply sum_over_ext. intros k Hk. rewrite Lk by assumption. rewrite (Sy k j) by assumption. apply Cm.
    + rewrite <- (V1 j i Hj Hi). apply sum_over_ext. intros k Hk. rewrite Lk by assumption. rewrite (Sy i k) by assumption. apply Cm.
Qed.
End Inverse.

(** ** The coefficients *)

Section Fit.
Context {F : Type} (K : arith F) (FK : is_field K) (np_inv : list (list F) -> list (list F)).

Let Fth : field_theory (zero K) (one K) (plus K) (times K) (minus K) (neg K) (over K) (over K (one K)) eq := proj1 FK.
Add Field Kh : Fth.

Variables (inputs x : vec F) (center : option (vec F)) (S : shape) (X : env -> string -> F).
Hypothesis Cx : centered K inputs center = Ok x.
Hypothesis Vx : input_ok x.
Hypothesis Sx : broadcast_shapes (map op_shape (leaves x)) = Ok S.
Hypothesis Rx : forall e, inside e S -> input_reads x e (X e).

Variables (ns : list string) (fs : string -> list string).
Hypothesis Nn : NoDup ns.
Hypothesis Fn : forall n, In n ns -> factors n (fs n) /\ incl (fs n) (input_names x).
Hypothesis Hn : exists n, In n ns /\ n <> ""%string.

Variables (outputs : operand F) (axis : option (list string)) (w : operand bool) (T : shape) (A : list string).
Hypothesis Wo : op_wf outputs.
Hypothesis Ww : op_wf w.
Hypothesis ET : broadcast_shapes [S; op_shape outputs] = Ok T.
Hypothesis ST : incl S T.
Hypothesis Fw : fits_in (op_shape w) S.
Hypothesis NA : NoDup A.
Hypothesis IA : incl A (dkeys S).
Hypothesis HA : match axis with Some l => l = A | None => incl (dkeys T) A end.

Let P n e := product_of K (X e) (fs n).
Let NS := S_nodup K inputs x center S X Cx Vx Sx Rx.

Lemma T_nodup : NoDup (dkeys T).
Proof.
  assert (N : Forall (fun s => NoDup (dkeys s)) [S; op_shape outputs]) by (constructor; [exact NS|constructor; [now apply op_shape_nodup|constructor]]).
  exact (proj1 (broadcast_shapes_ok _ _ N ET)).
Qed.

Lemma key_incl (s t : shape) : incl s t -> incl (dkeys s) (dkeys t).
Proof. intros H ax Hx. apply in_map_iff in Hx. destruct Hx as ([a n] & <- & Hk). exact (in_map fst _ _ (H _ Hk)). Qed.

Lemma inside_incl (s t : shape) e : incl s t -> inside e t -> inside e s.
Proof. intros H I ax n Hk. apply (I ax n). auto. Qed.

Lemma without_incl : incl (without S A) (without T A).
Proof. intros [ax n] H. apply RegridFacts.without_In in H. apply RegridFacts.without_In. destruct H. auto. Qed.

Lemma points_T e : points T A w e = points S A w e.
Proof.
  unfold points. f_equal. apply fibre_ext. intros ax Hax. apply IA in Hax. apply in_map_iff in Hax. destruct Hax as ([a n] & <- & Hk).
  cbn [fst]. rewrite (size_of_In S a n NS Hk). now apply size_of_In; [exact T_nodup|apply ST].
Qed.

Lemma full_incl s t (o : operand F) f : incl s t -> full s o f -> reads t o f.
Proof.
  intros H Fo. destruct (full_reads _ _ _ Fo) as (W & Fi & V). split; [exact W|]. split.
  - destruct (full_wf _ _ _ Fo) as [_ ->]. intros ax n Hk. exists n. auto.
  - intros e I. apply V. eapply inside_incl; eauto.
Qed.

Lemma broadcasted_design d : map fst d = ns -> (forall n o, dget d n = Some o -> term_of K S X fs n o) ->
  exists d', d_broadcasted d = Ok d' /\ tabled S ns d' P.
Proof.
  intros Kd Td. destruct (d_broadcasted_ok d ns S Nn Kd) as (d' & Ed & Kd' & Fd).
  - intros n o Ho. apply (Td n o Ho).
  - now apply (design_shape K inputs x center S X Cx Vx Sx Rx ns d fs).
  - exists d'. split; [exact Ed|]. split; [exact Kd'|]. intros n o' Ho. destruct (Fd n o' Ho) as (o & Eo & Fo).
    eapply full_ext; [exact Fo|]. intros e I. apply (Td n o Eo). exact I.
Qed.

Lemma tabled_get {V} s l (d : dict (operand V)) f kv : NoDup l -> tabled s l d f -> In kv d -> full s (snd kv) (f (fst kv)).
Proof. intros N [Kd H] Hk. apply H. apply In_dget; [now rewrite Kd|exact Hk]. Qed.

Definition gram (i j : string) (e : env) : F := sum_points K (points S A w e) (fun p => times K (P i p) (P j p)).
Definition rhs (i : string) (e : env) : F := sum_points K (points S A w e) (fun p => times K (P i p) (op_at outputs p)).

Lemma axis_S : match axis with Some l => l = A | None => incl (dkeys S) A end.
Proof. destruct axis; [exact HA|]. intros ax H. apply HA. now apply (key_incl S T ST). Qed.

Lemma gram_ok d : map fst d = ns -> (forall n o, dget d n = Some o -> term_of K S X fs n o) ->
  exists m, outer_vector K d d axis w = Ok m /\ grid (without T A) ns m gram.
Proof.
  intros Kd Td. unfold outer_vector. destruct (broadcasted_design d Kd Td) as (d' & Ed & Td'). rewrite Ed. cbn [bind].
  destruct (mapM_dict (V := dict (operand F)) fst (fun kv =>
      row <- mapM (fun kw => p <- op2 K (times K) (snd kv) (snd kw) ;; s <- poly_sum K p axis w ;; Ok (fst kw, s)) d' ;; Ok (fst kv, row))
      (fun kv row => map fst row = ns /\ forall c o, dget row c = Some o -> reads (without T A) o (gram (fst kv) c)) d') as (m & Em & Km & Pm).
  - destruct Td' as [-> _]. exact Nn.
  - intros kv Hk. destruct (mapM_dict fst (fun kw => p <- op2 K (times K) (snd kv) (snd kw) ;; s <- poly_sum K p axis w ;; Ok (fst kw, s))
      (fun kw o => reads (without T A) o (gram (fst kv) (fst kw))) d') as (row & Er & Kr & Pr).
    + destruct Td' as [-> _]. exact Nn.
    + intros kw Hw.
      destruct (mul_full K S (snd kv) (snd kw) (P (fst kv)) (P (fst kw)) NS (tabled_get S ns d' P kv Nn Td' Hk)
                  (tabled_get S ns d' P kw Nn Td' Hw)) as (p & Ep & Fp). rewrite Ep. cbn [bind].
      destruct (poly_sum_ok K FK S A axis w p _ NS Fp Ww Fw NA IA axis_S) as (s & Es & Fs). rewrite Es. cbn [bind].
      exists s. split; [reflexivity|]. exact (full_incl _ _ _ _ without_incl Fs).
    + exists row. rewrite Er. split; [reflexivity|]. assert (Kr' : map fst row = ns) by (rewrite Kr; apply Td'). split; [exact Kr'|].
      intros c o Ho. assert (Hc : In c (map fst d')) by (rewrite <- Kr; change (In c (dkeys row)); apply dget_Some_key; eauto).
      apply in_map_iff in Hc. destruct Hc as (kw & <- & Hw). destruct (Pr kw Hw) as (o' & Ho' & Ro). congruence.
  - exists m. split; [exact Em|]. split; [rewrite Km; apply Td'|]. intros r row Hr.
    assert (Hc : In r (map fst d')) by (rewrite <- Km; change (In r (dkeys m)); apply dget_Some_key; eauto).
    apply in_map_iff in Hc. destruct Hc as (kv & <- & Hk). destruct (Pm kv Hk) as (row' & Hr' & Q).
    assert (row' = row) by congruence. now subst row'.
Qed.

Lemma rhs_ok d : map fst d = ns -> (forall n o, dget d n = Some o -> term_of K S X fs n o) ->
  exists m, outer_scalar K d outputs axis w = Ok m /\ tabled (without T A) ns m rhs.
Proof.
  intros Kd Td. unfold outer_scalar. destruct (broadcasted_design d Kd Td) as (d' & Ed & Td'). rewrite Ed. cbn [bind].
  destruct (mapM_dict fst (fun kv => p <- op2 K (times K) (snd kv) outputs ;; s <- poly_sum K p axis w ;; Ok (fst kv, s))
      (fun kv o => full (without T A) o (rhs (fst kv))) d') as (m & Em & Km & Pm).
  - destruct Td' as [-> _]. exact Nn.
  - intros kv Hk. assert (Fk := tabled_get S ns d' P kv Nn Td' Hk).
    destruct (op2_full K (times K) S T (snd kv) (P (fst kv)) outputs Fk Wo ET) as (p & Ep & Fp). rewrite Ep. cbn [bind].
    destruct (poly_sum_ok K FK T A axis w p _ T_nodup Fp Ww) as (s & Es & Fs); [|exact NA| |exact HA|].
    + intros ax n Hx. destruct (Fw ax n Hx) as (k & Hk' & Q). exists k. split; [now apply ST|exact Q].
    + intros ax Hx. apply (key_incl S T ST). now apply IA.
    + rewrite Es. cbn [bind]. exists s. split; [reflexivity|]. eapply full_ext; [exact Fs|]. intros e I. unfold rhs. rewrite points_T.
      apply sum_points_ext. intros p' Hp. f_equal. apply (reads_at S); [now apply full_reads|].
      unfold points in Hp. apply filter_In in Hp. destruct Hp as [Hp _]. apply (QuantileFacts.fibre_in S A e p' NS Hp).
      intros ax n Hx Hx'. apply (I ax n). apply RegridFacts.without_In. auto.
  - exists m. split; [exact Em|]. split; [rewrite Km; apply Td'|]. intros n o Ho.
    assert (Hc : In n (map fst d')) by (rewrite <- Km; change (In n (dkeys m)); apply dget_Some_key; eauto).
    apply in_map_iff in Hc. destruct Hc as (kv & <- & Hk). destruct (Pm kv Hk) as (o' & Ho' & Q). congruence.
Qed.

Lemma gram_symmetric i j e : gram i j e = gram j i e.
Proof. unfold gram. apply sum_points_ext. intros p _. ring. Qed.

Lemma without_T_nodup : NoDup (dkeys (without T A)).
Proof. rewrite RegridFacts.dkeys_without. apply NoDup_filter, T_nodup. Qed.

Theorem coefficients_ok : exists cf, coefficients K np_inv (Some ns) center inputs outputs axis w = Ok cf /\ map fst cf = ns /\
  (forall n o, In (n, o) cf -> op_wf o /\ fits_in (op_shape o) (without T A)) /\
  forall e, inside e (without T A) -> invertible K np_inv ns (fun i j => gram i j e) ->
  exists N, (forall i j, In i ns -> In j ns -> sum_over K ns (fun k => times K (N i k) (gram k j e)) = delta K i j) /\
    (forall i j, In i ns -> In j ns -> sum_over K ns (fun k => times K (gram i k e) (N k j)) = delta K i j) /\
    forall n o, In (n, o) cf -> op_at o e = sum_over K ns (fun k => times K (N n k) (rhs k e)).
Proof.
  unfold coefficients. destruct (design_ok K FK inputs x center S X Cx Vx Sx Rx ns fs Nn Fn) as (d & Ed & Kd & Td). rewrite Ed. cbn [bind].
  destruct (gram_ok d Kd Td) as (m & Em & Gm). rewrite Em. cbn [bind].
  destruct (rhs_ok d Kd Td) as (b & Eb & Tb). rewrite Eb. cbn [bind].
  assert (Ne : ns <> []) by (destruct Hn as (n & H & _); intros ->; destruct H).
  destruct (inverse_symmetric K FK np_inv (without T A) ns m gram without_T_nodup Nn Ne Gm) as (nd & En & Gn & Vn);
    [intros; apply gram_symmetric|]. rewrite En. cbn [bind].
  destruct (mapM_dict fst (fun kv : string * dict (operand F) => x0 <- dot K (snd kv) b ;; Ok (fst kv, x0))
     (fun kv o => reads (without T A) o (fun e => sum_over K ns (fun k => times K (look K nd (fst kv) k e) (rhs k e)))) nd) as (cf & Ec & Kc & Pc).
  - destruct Gn as [-> _]. exact Nn.
  - intros kv Hk. assert (D : dget nd (fst kv) = Some (snd kv)) by (apply In_dget; [destruct Gn as [-> _]; exact Nn|exact Hk]).
    destruct (proj2 Gn _ _ D) as [Kr Hr].
    destruct (dot_reads K FK (without T A) (snd kv) b (fun k => look K nd (fst kv) k) rhs without_T_nodup) as (o & Eo & Ro).
    + now rewrite Kr.
    + intros k. rewrite Kr. destruct Tb as [-> _]. tauto.
    + intros k o Ho. apply Hr. apply dget_NoDup; [unfold dkeys; now rewrite Kr|exact Ho].
    + intros k o Ho. apply full_reads. now apply Tb.
    + exists o. rewrite Eo. split; [reflexivity|]. now rewrite Kr in Ro.
  - assert (Kc' : map fst cf = ns) by (rewrite Kc; apply Gn).
    assert (Q : forall n o, In (n, o) cf -> reads (without T A) o (fun e => sum_over K ns (fun k => times K (look K nd n k e) (rhs k e)))).
    { intros n o Ho. assert (Hc : In n (map fst nd)) by (rewrite <- Kc; exact (in_map fst _ _ Ho)). apply in_map_iff in Hc.
      destruct Hc as (kv & <- & Hk). destruct (Pc kv Hk) as (o' & Ho' & R).
      assert (Ho2 : dget cf (fst kv) = Some o) by (apply dget_NoDup; [unfold dkeys; now rewrite Kc'|exact Ho]). congruence. }
    exists cf. split; [exact Ec|]. split; [exact Kc'|]. split; [intros n o Ho; eapply reads_good; eauto|].
    intros e I Inv. destruct (Vn e I Inv) as [V1 V2]. exists (fun i j => look K nd i j e). split; [exact V1|]. split; [exact V2|].
    intros n o Ho. exact (reads_at _ _ _ e (Q n o Ho) I).
Qed.
End Fit.

(** ** Least squares *)

Section Least.
Context {F : Type} (K : arith F) (FK : is_field K).

Let Fth : field_theory (zero K) (one K) (plus K) (times K) (minus K) (neg K) (over K) (over K (one K)) eq := proj1 FK.
Add Field Ki : Fth.

Lemma sum_delta ns i f : NoDup ns -> In i ns -> sum_over K ns (fun k => times K (delta K i k) (f k)) = f i.
Proof.
  intros N H. induction ns as [|n ns IH]; [destruct H|]. inversion N; subst. cbn [sum_over fold_right].
  fold (sum_over K ns (fun k => times K (delta K i k) (f k))). destruct H as [-> |H].
  - unfold delta at 1. rewrite String.eqb_refl. rewrite (sum_over_ext K ns _ (fun _ => zero K)).
    + rewrite (sum_over_zero K FK). ring.
    + intros k Hk. unfold delta. destruct (String.eqb_spec i k) as [-> |_]; [contradiction|ring].
  - rewrite IH by assumption. unfold delta. destruct (String.eqb_spec i n) as [-> |_]; [contradiction|ring].
Qed.

Variables (X : env -> string -> F) (fs : string -> list string) (ns : list string) (l : list env) (o : env -> F).
Variables (N : string -> string -> F) (C : string -> F).
Hypothesis Nn : NoDup ns.
Let G := gram_at K X fs l.
Let b n := sum_points K l (fun p => times K (term_at K X fs n p) (o p)).
Hypothesis NG : forall i j, In i ns -> In j ns -> sum_over K ns (fun k => times K (N i k) (G k j)) = delta K i j.
Hypothesis GN : forall i j, In i ns -> In j ns -> sum_over K ns (fun k => times K (G i k) (N k j)) = delta K i j.
Hypothesis HC : forall n, In n ns -> C n = sum_over K ns (fun k => times K (N n k) (b k)).

Lemma against_poly D n : sum_points K l (fun p => times K (term_at K X fs n p) (poly_at K X fs ns D p)) =
  sum_over K ns (fun m => times K (G n m) (D m)).
Proof.
  transitivity (sum_points K l (fun p => sum_over K ns (fun m => times K (times K (term_at K X fs n p) (term_at K X fs m p)) (D m)))).
  - apply sum_points_ext. intros p _. unfold poly_at. rewrite <- (sum_over_times_l K FK). apply sum_over_ext. intros m _. ring.
  - rewrite (sum_points_over K FK). apply sum_over_ext. intros m _. now rewrite (sum_points_times K FK).
Qed.

Lemma matrix_assoc (M M' : string -> string -> F) (V : string -> F) i :
  sum_over K ns (fun j => times K (M i j) (sum_over K ns (fun k => times K (M' j k) (V k)))) =
  sum_over K ns (fun k => times K (sum_over K ns (fun j => times K (M i j) (M' j k))) (V k)).
Proof.
  transitivity (sum_over K ns (fun j => sum_over K ns (fun k => times K (times K (M i j) (M' j k)) (V k)))).
  - apply sum_over_ext. intros j _. rewrite <- (sum_over_times_l K FK). apply sum_over_ext. intros k _. ring.
  - rewrite (sum_over_swap K FK). apply sum_over_ext. intros k _. now rewrite (sum_over_times_r K FK).
Qed.

Lemma normal_equations n : In n ns ->
  sum_points K l (fun p => times K (term_at K X fs n p) (minus K (poly_at K X fs ns C p) (o p))) = zero K.
Proof.
  intros Hn. transitivity (minus K (sum_points K l (fun p => times K (term_at K X fs n p) (poly_at K X fs ns C p))) (b n)).
  - unfold b. rewrite <- (sum_points_minus K FK). apply sum_points_ext. intros p _. ring.
  - rewrite against_poly. rewrite (sum_over_ext K ns _ (fun m => times K (G n m) (sum_over K ns (fun k => times K (N m k) (b k)))))
      by (intros m Hm; now rewrite HC).
    rewrite (matrix_assoc G N). rewrite (sum_over_ext K ns _ (fun k => times K (delta K n k) (b k))) by (intros k Hk; now rewrite GN).
    rewrite sum_delta by assumption. ring.
Qed.

Lemma recovery D : (forall p, In p l -> o p = poly_at K X fs ns D p) -> forall n, In n ns -> C n = D n.
Proof.
  intros H n Hn. rewrite HC by exact Hn.
  rewrite (sum_over_ext K ns _ (fun k => times K (N n k) (sum_over K ns (fun m => times K (G k m) (D m))))).
  - rewrite (matrix_assoc N G). rewrite (sum_over_ext K ns _ (fun k => times K (delta K n k) (D k))) by (intros k Hk; now rewrite NG).
    now apply sum_delta.
  - intros k _. f_equal. rewrite <- against_poly. unfold b. apply sum_points_ext. intros p Hp. now rewrite H.
Qed.

Lemma poly_minus D p : poly_at K X fs ns (fun n => minus K (D n) (C n)) p = minus K (poly_at K X fs ns D p) (poly_at K X fs ns C p).
Proof.
  unfold poly_at. generalize ns. intros l0. induction l0 as [|n l0 IH]; cbn [sum_over fold_right]; [ring|].
  unfold sum_over in IH. rewrite IH. ring.
Qed.

(** the residual is orthogonal to every polynomial of the family *)
Lemma residual_orthogonal D :
  sum_points K l (fun p => times K (poly_at K X fs ns D p) (minus K (poly_at K X fs ns C p) (o p))) = zero K.
Proof.
  transitivity (sum_points K l (fun p => sum_over K ns (fun n => times K (times K (term_at K X fs n p) (minus K (poly_at K X fs ns C p) (o p))) (D n)))).
  - apply sum_points_ext. intros p _. unfold poly_at at 1. rewrite <- (sum_over_times_r K FK). apply sum_over_ext. intros n _. ring.
  - rewrite (sum_points_over K FK). rewrite (sum_over_ext K ns _ (fun _ => zero K)); [apply (sum_over_zero K FK)|].
    intros n Hn. rewrite (sum_points_times K FK), normal_equations by exact Hn. ring.
Qed.

Definition residual (D : string -> F) : F :=
  sum_points K l (fun p => times K (minus K (poly_at K X fs ns D p) (o p)) (minus K (poly_at K X fs ns D p) (o p))).

Lemma residual_split D : residual D = plus K (residual C)
  (sum_points K l (fun p => times K (minus K (poly_at K X fs ns D p) (poly_at K X fs ns C p)) (minus K (poly_at K X fs ns D p) (poly_at K X fs ns C p)))).
Proof.
  unfold residual. assert (R := residual_orthogonal (fun n => minus K (D n) (C n))).
  transitivity (plus K (plus K (sum_points K l (fun p => times K (minus K (poly_at K X fs ns C p) (o p)) (minus K (poly_at K X fs ns C p) (o p))))
    (sum_points K l (fun p => times K (minus K (poly_at K X fs ns D p) (poly_at K X fs ns C p)) (minus K (poly_at K X fs ns D p) (poly_at K X fs ns C p)))))
    (times K (plus K (one K) (one K)) (sum_points K l (fun p => times K (poly_at K X fs ns (fun n => minus K (D n) (C n)) p) (minus K (poly_at K X fs ns C p) (o p)))))).
  - assert (Cm : forall a c, times K a c = times K c a) by (intros; ring). rewrite (Cm (plus K (one K) (one K))), <- (sum_points_times K FK), <- !(sum_points_plus K FK).
    apply sum_points_ext. intros p _. rewrite poly_minus. ring.
  - rewrite R. ring.
Qed.
End Least.
