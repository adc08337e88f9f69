(** Facts about the functions of vectors along one axis, and about renaming. *)
From Coq Require Import String List Arith ZArith Bool Lia.
From Verif Require Import Base Numpy Shapes Scalar Reorder Elementwise Reduce Along Vector VectorAxes Spec SpecDerived SpecNumeric SpecFunc SpecFuncOps SpecVector SpecMatrix SpecVectorReduce SpecVectorAxes
  BaseFacts NumpyFacts ShapesFacts AlignFacts ElementwiseFacts ReorderFacts AlongFacts VectorFacts VectorIndexFacts MatrixFacts VectorReduceFacts FuncOpsFacts FuncPairsFacts VectorAxesFacts FuncShapeFacts QuantileFacts UncertainFilterFacts PolyNameFacts FourierFacts.
Import ListNotations.
Open Scope nat_scope.
Open Scope list_scope.

(** ** Reshaping *)

Lemma vec_reshape_spec {A} (v : vec A) (new sh : shape) : vec_wf v -> filled v -> vec_shape v = Ok sh -> NoDup (dkeys new) ->
  (total_size new (dkeys new) = total_size sh (dkeys sh) ->
   exists r, vec_reshape v new = Ok r /\ each v r (fun _ o a =>
     sshape a = new /\ forall e, map (at_ a) (fibre new (dkeys new) e) = map (op_at o) (fibre sh (dkeys sh) e))) /\
  (total_size new (dkeys new) <> total_size sh (dkeys sh) -> vec_reshape v new = Err ValueError).
Proof.
  intros W Fl Sv Nn. split.
  - intros H. apply broadcast_map with (sh := sh); auto. intros o a Wo Wa Sa Va.
    assert (K : s_axes a = dkeys sh) by (rewrite <- (wf_keys a Wa); congruence).
    destruct (FuncShapeFacts.reshape_spec a new Wa Nn) as (G & _). rewrite K, Sa in G. destruct (G H) as (r & E & Wr & Sr & Mr).
    exists r. split; [exact E|]. split; [exact Wr|]. split; [exact Sr|]. intros e. rewrite Mr. apply map_ext_in. intros e' He'.
    rewrite <- Va. symmetry. apply bat_in. rewrite Sa. apply (QuantileFacts.fibre_in sh (dkeys sh) e e'); auto.
    + rewrite <- Sa. now apply wf_nodup.
    + intros ax n Hn Q. destruct Q. now apply (in_map fst) in Hn.
  - intros H. apply broadcast_rec_error with (sh := sh); auto. intros a Wa Sa.
    assert (K : s_axes a = dkeys sh) by (rewrite <- (wf_keys a Wa); congruence).
    destruct (FuncShapeFacts.reshape_spec a new Wa Nn) as (_ & G). rewrite K, Sa in G. exact (G H).
Qed.

(** ** Giving all components the axis *)

Section Append.
Context {A : Type} (axis : string) (n : nat).

Definition appended (v b : vec A) : Prop :=
  (forall p, kind b p = kind v p) /\
  forall p, match leaf_at v p with
            | Some o => exists a, leaf_at b p = Some (OpArr a) /\ wf a /\
                (forall ax, dget (sshape a) ax = with_axis (op_shape o) axis n ax) /\ forall e, bat a e = op_at o e
            | None => leaf_at b p = None
            end.

Lemma vec_append_ok (v : vec A) : vec_wf v ->
  (forall o k, In o (leaves v) -> dget (op_shape o) axis = Some k -> k = 1 \/ k = n) ->
  exists b, vec_append v [(axis, n)] = Ok b /\ vec_wf b /\ depth b = depth v /\ appended v b /\
    match v, b with
    | Node ty cs, Node ty' cs' => ty' = ty /\ map fst cs' = map fst cs /\
        forall c, match dget cs c, dget cs' c with Some x, Some y => appended x y | None, None => True | _, _ => False end
    | Leaf _, Leaf _ => True
    | _, _ => False
    end.
Proof.
  induction v as [o|ty cs IH] using tree_rect'; intros W H; inversion W as [? Wo|? ? Nc Wc]; subst; cbn [vec_append].
  - destruct (UncertainFilterFacts.append_ok o [(axis, n)] Wo) as (b & E & Wb & Db & Vb).
    + repeat constructor. intros [].
    + intros ax k m Hk Hm. cbn in Hm. destruct (String.eqb_spec ax axis) as [-> |]; [|discriminate]. injection Hm as <-.
      apply (H o k); [now left|exact Hk].
    + rewrite E. cbn [bind]. eexists. split; [reflexivity|]. split; [now constructor|]. split; [reflexivity|]. split; [|exact Logic.I].
      split; [intros [|]; reflexivity|]. intros [|c p]; cbn [leaf_at]; [|reflexivity]. exists b. split; [reflexivity|]. split; [exact Wb|]. split; [|exact Vb].
      intros ax. rewrite Db. unfold with_axis. cbn [dget]. destruct (String.eqb ax axis); reflexivity.
  - assert (C : forall c x, In (c, x) cs -> exists b, vec_append x [(axis, n)] = Ok b /\ vec_wf b /\ depth b = depth x /\ appended x b).
    { intros c x Hc. destruct (IH c x Hc (Wc c x Hc)) as (b & E & Wb & Db & Ab & _); [|eauto 10].
      intros o k Ho. apply H. cbn [leaves]. apply in_flat_map. exists (c, x). auto. }
    assert (X : exists rs, traverse (fun kv => x <- vec_append (snd kv) [(axis, n)] ;; Ok (fst kv, x)) cs = Ok rs /\
      Forall2 (fun kv kr => fst kr = fst kv /\ (vec_wf (snd kr) /\ depth (snd kr) = depth (snd kv) /\ appended (snd kv) (snd kr))) cs rs).
    { clear - C. induction cs as [|[c x] cs IHc]; [exists []; split; [reflexivity|constructor]|].
      destruct (C c x (or_introl eq_refl)) as (b & E & Wb & Db & Ab). destruct IHc as (rs & Er & F); [intros c' x' Hc; apply (C c' x'); now right|].
      exists ((c, b) :: rs). cbn [traverse fst snd]. rewrite E. cbn [bind]. rewrite Er. split; [reflexivity|]. constructor; [cbn; auto|exact F]. }
    destruct X as (rs & Er & F). rewrite Er. cbn [bind]. exists (Node ty rs). split; [reflexivity|].
    assert (Names : map fst rs = map fst cs) by exact (Forall2_names (fun kv kr => vec_wf (snd kr) /\ depth (snd kr) = depth (snd kv) /\ appended (snd kv) (snd kr)) cs rs F).
    assert (G := Forall2_dget (fun _ x y => vec_wf y /\ depth y = depth x /\ appended x y) cs rs F).
    split; [|split; [|split; [|split; [reflexivity|split; [exact Names|]]]]].
    + constructor; [now rewrite Names|]. intros c y Hy. specialize (G c). rewrite (dget_NoDup rs c y) in G; [|unfold dkeys; now rewrite Names|exact Hy].
      destruct (dget cs c); [apply G|contradiction].
    + cbn [depth]. f_equal. f_equal. clear - F. induction F as [|? ? ? ? (_ & _ & D & _) _ IHF]; [reflexivity|]. cbn [map]. now rewrite D, IHF.
    + split; intros [|c p]; cbn [kind leaf_at]; try (now rewrite Names); auto; specialize (G c);
        destruct (dget cs c), (dget rs c); try contradiction; auto; apply G.
    + intros c. specialize (G c). destruct (dget cs c), (dget rs c); try contradiction; auto. apply G.
Qed.
End Append.

Lemma In_dget_iff (s : shape) ax m : NoDup (dkeys s) -> (In (ax, m) s <-> dget s ax = Some m).
Proof. intros N. split; [now apply dget_NoDup|apply dget_In]. Qed.

Lemma op_nodup' {A} (o : operand A) : op_wf o -> NoDup (dkeys (op_shape o)).
Proof. destruct o; cbn; [apply wf_nodup|constructor]. Qed.

Section AlongRec.
Context {A B C : Type} (missing : err) (f : sarr A -> operand C -> res (sarr B)) (axis : string) (n : nat).

(** the precise result for every component *)
Lemma along_rec_ok fuel : forall (v : vec A) (w : vec C) (sh : shape) (R : list string -> sarr B -> Prop),
  depth v <= fuel -> vec_wf v -> filled v -> vec_shape v = Ok sh -> dget sh axis = Some n -> suits v w ->
  (forall p o i a, leaf_at v p = Some o -> reaches w p = Some i -> wf a -> (forall ax, dget (sshape a) ax = with_axis (op_shape o) axis n ax) ->
     (forall e, bat a e = op_at o e) -> exists r, f a i = Ok r /\ wf r /\ R p r) ->
  exists r, along_rec fuel missing f axis v w = Ok r /\ each v r (fun p _ => R p).
Proof.
  induction fuel as [|fuel IH]; intros v w sh R D W Fl Sv Hn Su H; (destruct v as [o|ty cs]).
  1, 3: destruct w as [i|ty' cs']; [|destruct Su as (_ & Su); exfalso; exact (Su [] ltac:(discriminate) eq_refl)];
    inversion W as [? Wo|]; subst; destruct (H [] o i (normalize o) eq_refl eq_refl) as (r & E & Wr & Hr);
    [now apply normalize_wf| |intros e; apply normalize_at|
     cbn [along_rec]; rewrite E; cbn [bind]; eexists; split; [reflexivity|]; split;
      [split; [intros [|]; reflexivity|intros [|]; cbn; split; congruence]|];
      intros [|c p] o' L; [|discriminate]; exists r; auto];
    intros ax; rewrite normalize_shape; unfold with_axis; destruct (String.eqb_spec ax axis) as [-> |]; [|reflexivity];
    rewrite <- Hn; destruct o; cbn [vec_shape op_shape] in *; injection Sv as <-; reflexivity.
  - cbn in D. lia.
  - assert (N : NoDup (dkeys sh)) by exact (vec_shape_NoDup _ _ W Sv).
    assert (FL : forall o, In o (leaves (Node ty cs)) -> fits_in (op_shape o) sh) by (intros o Ho; exact (leaf_fits_shape _ _ o W Sv Ho)).
    destruct (vec_append_ok axis n (Node ty cs) W) as (b & Eb & Wb & Db & Ab & Sb).
    { intros o k Ho Hk. destruct (FL o Ho axis k (dget_In _ _ _ Hk)) as (m & Hm & X).
      assert (m = n) by (apply In_dget_iff in Hm; [congruence|exact N]). subst m. exact X. }
    destruct b as [|ty' rs]; [contradiction|]. destruct Sb as (-> & Names & G). destruct Ab as (Kb & Lb).
    assert (Flb : filled (Node ty rs)) by exact (filled_kind _ _ Kb Fl).
    inversion W as [|? ? Nc Wc]; subst. inversion Wb as [|? ? Nc' Wc']; subst.
    assert (Child : forall c x y, dget cs c = Some x -> dget rs c = Some y -> exists i r, component c w = Ok i /\
              along_rec fuel missing f axis y i = Ok r /\ each y r (fun p _ => R (c :: p))).
    { intros c x y Dx Dy. assert (Hx := dget_In _ _ _ Dx). assert (Hy := dget_In _ _ _ Dy).
      destruct (suits_exists ty cs c x w Hx Su) as (i & Ei).
      assert (Sui : suits x i) by exact (suits_component ty cs c x w i Dx Su Ei).
      specialize (G c). rewrite Dx, Dy in G. destruct G as (Ky & Ly).
      assert (Fy : filled y) by exact (filled_child ty rs c y Nc' Flb Hy).
      assert (Wy : vec_wf y) by exact (Wc' c y Hy).
      assert (Leaf_y : forall o', In o' (leaves y) -> op_wf o' /\ fits_in (op_shape o') sh /\ dget (op_shape o') axis = Some n).
      { intros o' Ho'. destruct (In_leaf y o') as (p & Lp); [eapply tree_ok_any; exact Wy|exact Ho'|].
        split; [exact (tree_ok_leaf_at _ _ _ _ Wy Lp)|].
        specialize (Ly p). destruct (leaf_at x p) as [o|] eqn:Lo; [|congruence]. destruct Ly as (a & La & Wa & Da & Va).
        assert (o' = OpArr a) by congruence. subst o'. cbn [op_shape]. split.
        - intros ax m Hm. apply In_dget_iff in Hm; [|now apply wf_nodup]. rewrite Da in Hm. unfold with_axis in Hm.
          destruct (String.eqb_spec ax axis) as [-> |Dax].
          + injection Hm as <-. exists n. split; [now apply dget_In|now right].
          + apply (FL o); [cbn [leaves]; apply in_flat_map; exists (c, x); split; [exact Hx|exact (leaf_In x p o Lo)]|now apply dget_In].
        - rewrite Da. unfold with_axis. now rewrite String.eqb_refl. }
      destruct (vec_shape_fits y sh Wy N) as (s' & Es' & Fs'); [intros o' Ho'; apply (Leaf_y o' Ho')|].
      assert (Ns' := vec_shape_NoDup y s' Wy Es').
      assert (Hn' : dget s' axis = Some n).
      { destruct (filled_leaf y) as (p & o' & Lp); [eapply tree_ok_any; exact Wy|exact Fy|].
        assert (Ho' := leaf_In y p o' Lp). destruct (Leaf_y o' Ho') as (Wo' & _ & Dn).
        destruct (leaf_fits_shape y s' o' Wy Es' Ho' axis n (dget_In _ _ _ Dn)) as (m & Hm & X).
        destruct (Fs' axis m Hm) as (m' & Hm' & X'). assert (m' = n) by (apply In_dget_iff in Hm'; [congruence|exact N]). subst m'.
        apply In_dget_iff in Hm; [|exact Ns']. rewrite Hm. f_equal. lia. }
      destruct (IH y i s' (fun p => R (c :: p))) as (r & Er & Hr); auto.
      - assert (X := depth_In ty rs c y Hy). rewrite Db in X. lia.
      - destruct Sui as (Al & Re). split.
        + intros p t1 n1 t2 n2 K1 K2. rewrite Ky in K1. exact (Al p t1 n1 t2 n2 K1 K2).
        + intros p Hp. apply Re. intros Z. apply Hp. specialize (Ly p). now rewrite Z in Ly.
      - intros p o' j a Lo' Rj Wa Da Va. specialize (Ly p). destruct (leaf_at x p) as [o|] eqn:Lo; [|congruence].
        destruct Ly as (a' & La' & Wa' & Da' & Va'). assert (o' = OpArr a') by congruence. subst o'.
        apply (H (c :: p) o j a); auto.
        + cbn [leaf_at]. now rewrite Dx.
        + now rewrite (component_reaches c w i p Ei).
        + intros ax. rewrite Da. unfold with_axis. cbn [op_shape]. rewrite Da'. unfold with_axis. now destruct (String.eqb ax axis).
        + intros e. rewrite Va. apply Va'.
      - exists i, r. auto. }
    cbn [along_rec]. rewrite (suits_accepts ty cs w Su). cbn [negb]. rewrite Sv. cbn [bind]. rewrite Hn, Eb. cbn [bind].
    destruct (on_components_intro (fun c x => i <- component c w ;; along_rec fuel missing f axis x i) rs) as (qs & Eq).
    { intros c y Hy. assert (Dy := dget_NoDup rs c y Nc' Hy). specialize (G c). rewrite Dy in G. destruct (dget cs c) as [x|] eqn:Dx; [|contradiction].
      destruct (Child c x y Dx Dy) as (i & r & Ei & Er & _). exists r. rewrite Ei. exact Er. }
    rewrite Eq. cbn [bind]. eexists. split; [reflexivity|]. destruct (on_components_get _ _ _ Eq) as (Nq & Gq).
    apply node_each; [congruence|]. intros c. specialize (Gq c). specialize (G c).
    destruct (dget cs c) as [x|] eqn:Dx, (dget rs c) as [y|] eqn:Dy; try contradiction; destruct (dget qs c) as [q|]; try contradiction; auto.
    destruct (Child c x y Dx Dy) as (i & r & Ei & Er & Hr). rewrite Ei in Gq. cbn [bind] in Gq. assert (r = q) by congruence. subst q.
    destruct G as (Kx & Gx). destruct Hr as ((Kr & Lr) & Hr). split; [split|].
    + intros p. now rewrite <- Kx.
    + intros p. rewrite <- Lr. specialize (Gx p). destruct (leaf_at x p); [destruct Gx as (r' & -> & _); split; discriminate|rewrite Gx; tauto].
    + intros p o L. specialize (Gx p). rewrite L in Gx. destruct Gx as (r' & L' & _). exact (Hr p (OpArr r') L').
Qed.
End AlongRec.

Lemma along_map {A B C} missing (f : sarr A -> operand C -> res (sarr B)) axis n (v : vec A) (w : vec C) sh
    (R : list string -> operand A -> sarr B -> Prop) :
  vec_wf v -> filled v -> vec_shape v = Ok sh -> In (axis, n) sh -> suits v w ->
  (forall p o i a, leaf_at v p = Some o -> reaches w p = Some i -> wf a -> (forall ax, dget (sshape a) ax = with_axis (op_shape o) axis n ax) ->
     (forall e, bat a e = op_at o e) -> exists r, f a i = Ok r /\ wf r /\ R p o r) ->
  exists r, along_rec (depth v) missing f axis v w = Ok r /\ each v r R.
Proof.
  intros W Fl Sv Hn Su H. assert (N := vec_shape_NoDup v sh W Sv).
  destruct (along_rec_ok missing f axis n (depth v) v w sh (fun p a => forall o, leaf_at v p = Some o -> R p o a)) as (r & E & G); auto.
  - now apply In_dget_iff.
  - intros p o i a L Ri Wa Da Va. destruct (H p o i a L Ri Wa Da Va) as (r & E & Wr & Hr).
    exists r. split; [exact E|]. split; [exact Wr|]. intros o' L'. congruence.
  - exists r. split; [exact E|]. revert G. apply each_weaken. intros p o a L _ G. exact (G o L).
Qed.

(** ** Cumulative functions *)

Lemma only_axis {A} (a : sarr A) (s sh : shape) ax n : wf a -> fits_in s sh -> dkeys sh = [ax] ->
  (forall x, dget (sshape a) x = with_axis s ax n x) -> s_axes a = [ax].
Proof.
  intros W F K D. rewrite <- (wf_keys a W). assert (N := wf_nodup a W).
  assert (H : forall x, In x (dkeys (sshape a)) -> x = ax).
  { intros x Hx. apply key_dget in Hx as [k Hk]. rewrite D in Hk. unfold with_axis in Hk.
    destruct (String.eqb_spec x ax) as [|Nx]; [assumption|]. destruct (F x k (dget_In _ _ _ Hk)) as (m & Hm & _).
    apply (in_map fst) in Hm. cbn [fst] in Hm. change (map fst sh) with (dkeys sh) in Hm. rewrite K in Hm. destruct Hm as [<- |[]]; reflexivity. }
  assert (Ha : In ax (dkeys (sshape a))).
  { apply key_dget. exists n. rewrite D. unfold with_axis. now rewrite String.eqb_refl. }
  destruct (dkeys (sshape a)) as [|y [|z l]]; [destruct Ha| |].
  - now rewrite (H y (or_introl eq_refl)).
  - exfalso. inversion N as [|? ? Ny _]; subst. apply Ny. left. rewrite (H y (or_introl eq_refl)). apply H. right. now left.
Qed.

Lemma suits_number {A L} (v : vec A) (l : L) : suits v (Leaf l).
Proof.
  split; [intros p t1 n1 t2 n2 _ K; destruct p; discriminate|]. intros p _. rewrite reaches_Leaf. discriminate.
Qed.

Lemma vec_cumulative_spec {A B} (scan : list A -> B) (initial : bool) (v : vec A) (axis : option (list string)) (sh : shape) :
  vec_wf v -> filled v -> is_node v -> vec_shape v = Ok sh ->
  let S := match axis with Some l => l | None => dkeys sh end in
  (forall ax n, S = [ax] -> In (ax, n) sh -> exists r, vec_cumulative scan initial v axis = Ok r /\ each v r (fun _ o a =>
     (forall x, dget (sshape a) x = with_axis (op_shape o) ax (n + if initial then 1 else 0) x) /\
     forall e, inside e (sshape a) -> at_ a e = scan (firstn (e ax + if initial then 0 else 1) (run o ax n e)))) /\
  (forall ax, S = [ax] -> ~ In ax (dkeys sh) -> vec_cumulative scan initial v axis = Err KeyError) /\
  (length S <> 1 -> vec_cumulative scan initial v axis = Err ValueError).
Proof.
  intros W Fl (ty & cs & ->) Sv S. assert (N := vec_shape_NoDup _ sh W Sv). unfold vec_cumulative. rewrite Sv. cbn [bind]. fold S. split; [|split].
  - intros ax n ES Hn. rewrite ES. assert (Dn := dget_NoDup sh ax n N Hn).
    apply along_map with (n := n) (sh := sh); auto; [apply suits_number|].
    intros p o i a Lo _ Wa Da Va. assert (Ia : In ax (s_axes a)).
    { rewrite <- (wf_keys a Wa). apply key_dget. exists n. rewrite Da. unfold with_axis. now rewrite String.eqb_refl. }
    assert (Fo : fits_in (op_shape o) sh) by exact (leaf_fits_shape _ sh o W Sv (leaf_In _ p o Lo)).
    assert (Sz : size_of (sshape a) ax = n) by (unfold size_of; rewrite Da; unfold with_axis; now rewrite String.eqb_refl).
    destruct (cumulative_spec scan initial a axis Wa) as (G & _). destruct (G ax) as (r & Er & Wr & Sr & Vr); [|exact Ia|].
    { unfold S in ES. destruct axis as [l|]; [exact ES|]. exact (only_axis a (op_shape o) sh ax n Wa Fo ES Da). }
    exists r. split; [exact Er|]. split; [exact Wr|].
    split.
    + intros x. rewrite Sr, dget_resized, Da, Sz. unfold with_axis. destruct (String.eqb_spec x ax) as [-> |]; [now rewrite ?String.eqb_refl|].
      now destruct (dget (op_shape o) x).
    + intros e He. rewrite Vr. f_equal. f_equal. rewrite <- Sz. apply line_run; auto. intros x k Hx Nx. apply (He x k).
      apply (In_dget_iff _ _ _ (wf_nodup r Wr)). rewrite Sr, dget_resized.
      rewrite (dget_NoDup (sshape a) x k (wf_nodup a Wa) Hx). destruct (String.eqb_spec x ax); [contradiction|reflexivity].
  - intros ax ES Nx. rewrite ES. cbn [depth]. cbn [along_rec accepts negb]. rewrite Sv. cbn [bind].
    destruct (dget sh ax) as [k|] eqn:E; [|reflexivity]. exfalso. apply Nx. apply key_dget. eauto.
  - intros H. destruct S as [|x [|y l]]; [reflexivity|now elim H|reflexivity].
Qed.

(** ** Taking along an axis *)

Lemma take_direct {A} (a : sarr A) (indices : operand Z) (x : string) (n : nat) : wf a -> op_wf indices ->
  dget (sshape a) x = Some n ->
  let i := normalize indices in
  ~ conflict [without (sshape a) [x]; without (sshape i) [x]] ->
  (forall e, inside e (sshape i) -> in_range n (at_ i e)) ->
  exists r, na_take_along_axis (OpArr a) indices x = Ok r /\ wf r /\
    (forall ax k, In (ax, k) (sshape r) <->
       if String.eqb ax x then k = size_of (sshape i) x
       else (In ax (dkeys (sshape a)) \/ In ax (dkeys (sshape i))) /\ common_size (sizes_of [sshape a; sshape i] ax) k) /\
    forall e, inside e (sshape r) -> exists p, index_is n (bat i e) p /\ at_ r e = bat a (set_env e x p).
Proof.
  intros W Wn Dx i NC Rg.
  assert (Wi : wf i) by (unfold i; destruct indices; [exact Wn|repeat constructor]).
  destruct (take_along_axis_spec (OpArr a) indices x W Wn) as [_ T]. cbn [normalize] in T. fold i in T.
  assert (Kx : In x (s_axes a)) by (rewrite <- (wf_keys a W); apply key_dget; now exists n).
  specialize (T Kx). cbv zeta beta in T. rewrite !filter_others in T.
  assert (Sz : size_of (sshape a) x = n) by (unfold size_of; now rewrite Dx). rewrite Sz in T.
  assert (Nd : forall s : shape, NoDup (dkeys s) -> NoDup (dkeys (without s [x]))) by (intros s Hs; now apply nodup_map_filter).
  assert (N2 : Forall (fun s : shape => NoDup (dkeys s)) [without (sshape a) [x]; without (sshape i) [x]]).
  { constructor; [now apply Nd, wf_nodup|]. constructor; [now apply Nd, wf_nodup|constructor]. }
  match type of T with match ?q with Ok _ => _ | Err _ => _ end => destruct q as [sh|er] eqn:E end.
  2:{ exfalso. apply NC. apply broadcast_shapes_conflict; auto. destruct (broadcast_shapes_total _ N2) as [[q Q]|Q]; [|exact Q]. exfalso. change (broadcast_shapes [without (sshape a) [x]; without (sshape i) [x]] = Err er) in E. congruence. }
  destruct T as [T _]. destruct (T Rg) as (r & Er & Wr & Sr & Vr). exists r. split; [exact Er|]. split; [exact Wr|].
  destruct (broadcast_shapes_ok _ _ N2 E) as (_ & Ks & Ps). split; [|exact Vr].
  intros ax k. assert (Nr := wf_nodup _ Wr). rewrite Sr in Nr. inversion Nr as [|? ? H2 ?]; subst. rewrite Sr. cbn [In].
  destruct (String.eqb_spec ax x) as [Ex|Nx].
  - subst ax. split; [|intros ->; now left]. intros [Q|Q]; [now injection Q|]. exfalso. apply H2. now apply (in_map fst) in Q.
  - rewrite Ps. cbn [map concat]. rewrite app_nil_r, in_app_iff, !sizes2, !key_dget, !dget_others.
    destruct (String.eqb_spec ax x); [contradiction|]. split.
    + intros [Q|Q]; [injection Q as Q _; congruence|exact Q].
    + intros Q. now right.
Qed.

Lemma conflict_with_axis (s s' t : shape) x n : (forall ax, dget s' ax = with_axis s x n ax) ->
  conflict [without s' [x]; without t [x]] -> conflict [without s [x]; without t [x]].
Proof.
  intros D. apply conflict_ext. intros ax. rewrite !sizes2, !dget_others, D. unfold with_axis. now destruct (String.eqb ax x).
Qed.

Lemma vec_take_spec {A} (v : vec A) (w : vec Z) (axis : string) (sh : shape) :
  vec_wf v -> filled v -> vec_wf w -> suits v w -> vec_shape v = Ok sh ->
  (forall n, In (axis, n) sh ->
   (forall p o i, leaf_at v p = Some o -> reaches w p = Some i ->
      ~ conflict [without (op_shape o) [axis]; without (op_shape i) [axis]] /\
      forall e, inside e (op_shape i) -> in_range n (op_at i e)) ->
   exists r, vec_take_along_axis v w axis = Ok r /\ each v r (fun p o a => exists i, reaches w p = Some i /\
     (forall ax k, In (ax, k) (sshape a) <->
        if String.eqb ax axis then k = size_of (op_shape i) axis
        else (In ax (dkeys (op_shape o)) \/ In ax (dkeys (op_shape i))) /\ common_size (sizes_of [op_shape o; op_shape i] ax) k) /\
     forall e, inside e (sshape a) -> exists j, index_is n (op_at i e) j /\ at_ a e = op_at o (set_env e axis j))) /\
  (is_node v -> ~ In axis (dkeys sh) -> vec_take_along_axis v w axis = Err ValueError).
Proof.
  intros W Fl Ww Su Sv. split.
  - intros n Hn H. unfold vec_take_along_axis. apply along_map with (n := n) (sh := sh); auto.
    intros p o i a Lo Ri Wa Da Va. destruct (H p o i Lo Ri) as (NC & Rg).
    assert (Wi : op_wf i) by exact (tree_ok_reaches _ _ _ _ Ww Ri).
    assert (Si : sshape (normalize i) = op_shape i) by apply normalize_shape.
    assert (Bi : forall e, bat (normalize i) e = op_at i e) by (intros e; apply normalize_at).
    destruct (take_direct a i axis n Wa Wi) as (r & Er & Wr & Sr & Vr).
    + rewrite Da. unfold with_axis. now rewrite String.eqb_refl.
    + rewrite Si. intros Q. apply NC. exact (conflict_with_axis _ _ _ axis n Da Q).
    + intros e He. rewrite <- bat_in by exact He. rewrite Bi. apply Rg. now rewrite <- Si.
    + exists r. split; [exact Er|]. split; [exact Wr|]. exists i. split; [exact Ri|]. split.
      * intros ax k. rewrite Sr, Si. destruct (String.eqb_spec ax axis) as [|Nx]; [tauto|]. rewrite !key_dget, !sizes2, Da. unfold with_axis.
        destruct (String.eqb_spec ax axis); [contradiction|tauto].
      * intros e He. destruct (Vr e He) as (j & J1 & J2). rewrite Bi in J1. exists j. split; [exact J1|]. rewrite J2. apply Va.
  - intros (ty & cs & ->) Hx. unfold vec_take_along_axis. cbn [depth along_rec]. rewrite (suits_accepts ty cs w Su). cbn [negb]. rewrite Sv. cbn [bind].
    destruct (dget sh axis) as [k|] eqn:E; [|reflexivity]. exfalso. apply Hx. apply key_dget. eauto.
Qed.

(** ** Renaming *)

Lemma rename_inj_sub (rho : string -> string) (m l : list string) : NoDup (map rho m) -> NoDup l -> incl l m -> NoDup (map rho l).
Proof.
  intros Nm Nl I. apply PolyNameFacts.nodup_map_inj; [exact Nl|]. intros x y Hx Hy E. apply (FourierFacts.nodup_map_inj rho m); auto.
Qed.

Definition renamed_vec {A} (rho : string -> string) (v r : vec A) : Prop :=
  (forall p, kind r p = kind v p) /\
  forall p, match leaf_at v p with Some o => exists o', leaf_at r p = Some o' /\ renamed_op rho o o' | None => leaf_at r p = None end.

Lemma moveaxis_pairs_ok {A} (source destination : list string) (v : vec A) : forall sh, vec_wf v -> vec_shape v = Ok sh ->
  NoDup source -> length source = length destination ->
  ForallOrdPairs (fun p q => snd p <> fst q) (combine source destination) ->
  let rho := rename (combine source destination) in NoDup (map rho (dkeys sh)) ->
  exists r, vec_moveaxis_pairs v (filter (fun p => smem (fst p) (dkeys sh)) (combine source destination)) = Ok r /\ vec_wf r /\ renamed_vec rho v r.
Proof.
  induction v as [o|ty cs IH] using tree_rect'; intros sh W Sv Ns Ls Fp rho Nr; inversion W as [? Wo|? ? Nc Wc]; subst.
  - destruct o as [a|x]; cbn [vec_shape] in Sv; injection Sv as <-; cbn [vec_moveaxis_pairs].
    + cbn [op_wf] in Wo. destruct (moveaxis_part a source destination Wo Ns Ls Fp) as (r & Er & Wr & Sr & Vr).
      { rewrite <- (wf_keys a Wo). exact Nr. }
      rewrite Er. cbn [bind]. eexists. split; [reflexivity|]. split; [constructor; exact Wr|]. split; [intros [|]; reflexivity|].
      intros [|c p]; cbn [leaf_at]; [|reflexivity]. eexists. split; [reflexivity|]. cbn [renamed_op]. exists r. auto.
    + replace (filter _ _) with (@nil (string * string)) by (clear; induction (combine source destination); auto).
      eexists. split; [reflexivity|]. split; [constructor; exact Logic.I|]. split; [intros [|]; reflexivity|].
      intros [|c p]; cbn [leaf_at]; [|reflexivity]. eexists. split; reflexivity.
  - assert (N := vec_shape_NoDup _ sh W Sv). set (ps := filter _ _).
    assert (Ch : forall c x, In (c, x) cs -> exists shc, vec_shape x = Ok shc /\ incl (dkeys shc) (dkeys sh) /\ NoDup (dkeys shc)).
    { intros c x Hc. destruct (vec_shape_fits x sh (Wc c x Hc) N) as (shc & E & F).
      - intros o Ho. apply (leaf_fits_shape (Node ty cs) sh o W Sv). cbn [leaves]. apply in_flat_map. exists (c, x). auto.
      - exists shc. split; [exact E|]. split; [|exact (vec_shape_NoDup x shc (Wc c x Hc) E)].
        intros k Hk. apply in_map_iff in Hk as ((k', m) & <- & Hk). destruct (F k' m Hk) as (m' & Hm & _). now apply (in_map fst) in Hm. }
    assert (C : forall c x, In (c, x) cs -> exists b, (shc <- vec_shape x ;; y <- vec_moveaxis_pairs x (filter (fun p => smem (fst p) (dkeys shc)) ps) ;; Ok (c, y)) = Ok (c, b) /\ (vec_wf b /\ renamed_vec rho x b)).
    { intros c x Hc. destruct (Ch c x Hc) as (shc & E & I & Nk). rewrite E. cbn [bind].
      destruct (IH c x Hc shc (Wc c x Hc) E Ns Ls Fp) as (b & Eb & Wb & Rb); [exact (rename_inj_sub _ _ _ Nr Nk I)|].
      exists b. unfold ps. rewrite filter_filter.
      replace (filter _ (combine source destination)) with (filter (fun p : string * string => smem (fst p) (dkeys shc)) (combine source destination)).
      - rewrite Eb. auto.
      - apply filter_ext. intros q. destruct (smem (fst q) (dkeys shc)) eqn:Q; [|now rewrite ?andb_false_r].
        apply smem_In in Q. apply I in Q. apply smem_In in Q. now rewrite Q. }
    assert (X : exists rs, traverse (fun kv => shc <- vec_shape (snd kv) ;; y <- vec_moveaxis_pairs (snd kv) (filter (fun p => smem (fst p) (dkeys shc)) ps) ;; Ok (fst kv, y)) cs = Ok rs /\
      Forall2 (fun kv kr => fst kr = fst kv /\ (vec_wf (snd kr) /\ renamed_vec rho (snd kv) (snd kr))) cs rs).
    { clear - C. induction cs as [|[c x] cs IHc]; [exists []; split; [reflexivity|constructor]|].
      destruct (C c x (or_introl eq_refl)) as (b & E & Wb). destruct IHc as (rs & Er & F); [intros c' x' Hc; apply (C c' x'); now right|].
      exists ((c, b) :: rs). cbn [traverse fst snd]. rewrite E. cbn [bind]. rewrite Er. split; [reflexivity|]. constructor; [cbn; auto|exact F]. }
    destruct X as (rs & Er & F). cbn [vec_moveaxis_pairs].
    replace (vec_shape (Node ty cs)) with (@Ok shape sh) by (symmetry; exact Sv). cbn [bind].
    assert (Fb : forallb (fun p : string * string => smem (fst p) (dkeys sh)) ps = true).
    { apply forallb_forall. intros q Hq. now apply filter_In in Hq as [_ Hq]. }
    rewrite Fb. cbn [negb]. rewrite Er. cbn [bind]. exists (Node ty rs). split; [reflexivity|].
    assert (Names : map fst rs = map fst cs) by exact (Forall2_names (fun kv kr => vec_wf (snd kr) /\ renamed_vec rho (snd kv) (snd kr)) cs rs F).
    assert (G := Forall2_dget (fun _ x y => vec_wf y /\ renamed_vec rho x y) cs rs F).
    split; [|split].
    + constructor; [now rewrite Names|]. intros c y Hy. specialize (G c). rewrite (dget_NoDup rs c y) in G; [|unfold dkeys; now rewrite Names|exact Hy].
      destruct (dget cs c); [apply G|contradiction].
    + intros [|c p]; cbn [kind]; [now rewrite Names|]. specialize (G c). destruct (dget cs c), (dget rs c); try contradiction; auto; apply G.
    + intros [|c p]; cbn [leaf_at]; auto. specialize (G c). destruct (dget cs c), (dget rs c); try contradiction; auto; apply G.
Qed.

Lemma renamed_shape {A} (rho : string -> string) (o o' : operand A) : op_wf o -> renamed_op rho o o' ->
  op_wf o' /\ op_shape o' = map (fun kv => (rho (fst kv), snd kv)) (op_shape o).
Proof.
  intros W H. destruct o as [a|x]; cbn [renamed_op] in H; [destruct H as (b & -> & Wb & Sb & _); auto|subst o'; cbn; auto].
Qed.

Lemma vec_moveaxis_spec {A} (v : vec A) (source destination : list string) (sh : shape) :
  vec_wf v -> vec_shape v = Ok sh ->
  (NoDup source -> length source = length destination -> incl source (dkeys sh) ->
   ForallOrdPairs (fun p q => snd p <> fst q) (combine source destination) ->
   let rho := rename (combine source destination) in NoDup (map rho (dkeys sh)) ->
   exists r sh', vec_moveaxis v source destination = Ok r /\ vec_wf r /\ same_kind v r /\
     (forall p o, leaf_at v p = Some o -> exists o', leaf_at r p = Some o' /\ renamed_op rho o o') /\
     vec_shape r = Ok sh' /\ same_shape sh' (map (fun kv => (rho (fst kv), snd kv)) sh)) /\
  (~ incl source (dkeys sh) -> vec_moveaxis v source destination = Err ValueError).
Proof.
  intros W Sv. assert (N := vec_shape_NoDup v sh W Sv). unfold vec_moveaxis. rewrite Sv. cbn [bind]. split.
  - intros Ns Ls I Fp Nr. set (rho := rename (combine source destination)) in *.
    destruct (moveaxis_pairs_ok source destination v sh W Sv Ns Ls Fp Nr) as (r & Er & Wr & Kr & Lr). fold rho in Lr.
    assert (Fb : forallb (fun s => smem s (dkeys sh)) source = true) by (apply forallb_forall; intros x Hx; now apply smem_In, I).
    rewrite Fb. cbn [negb].
    assert (Ep : filter (fun p => smem (fst p) (dkeys sh)) (combine source destination) = combine source destination).
    { clear - I. revert destination. induction source as [|s l IHl]; intros [|d m]; cbn; auto.
      assert (Hs : smem s (dkeys sh) = true) by (apply smem_In, I; now left). rewrite Hs. f_equal. apply IHl. intros y Hy. apply I. now right. }
    rewrite Ep in Er. rewrite Er.
    set (ren := fun kv : string * nat => (rho (fst kv), snd kv)).
    assert (Inj : forall a b, In a (dkeys sh) -> In b (dkeys sh) -> rho a = rho b -> a = b) by (intros a b Ha Hb E; exact (FourierFacts.nodup_map_inj rho _ a b Nr Ha Hb E)).
    assert (Nm : NoDup (dkeys (map ren sh))).
    { replace (dkeys (map ren sh)) with (map rho (dkeys sh)); [exact Nr|]. unfold dkeys. now rewrite !map_map. }
    destruct (vec_shape_joint v sh W Sv) as (_ & Fv & Jv).
    assert (Leaf : forall o', In o' (leaves r) -> exists p o, leaf_at v p = Some o /\ op_shape o' = map ren (op_shape o)).
    { intros o' Ho'. destruct (In_leaf r o') as (p & Lp); [eapply tree_ok_any; exact Wr|exact Ho'|].
      assert (Q := Lr p). destruct (leaf_at v p) as [o|] eqn:Lo; [|congruence]. destruct Q as (q & Lq & Rq). assert (q = o') by congruence. subst q.
      exists p, o. split; [exact Lo|]. apply (renamed_shape rho o o'); [exact (tree_ok_leaf_at _ _ _ _ W Lo)|exact Rq]. }
    destruct (vec_shape_fits r (map ren sh) Wr Nm) as (sh' & E' & F').
    { intros o' Ho'. destruct (Leaf o' Ho') as (p & o & Lo & ->). intros ax n H. apply in_map_iff in H as ((ax0, n0) & X & H). injection X as <- <-.
      destruct (Fv (op_shape o) (in_map op_shape _ _ (leaf_In v p o Lo)) ax0 n0 H) as (m & Hm & Q). exists m. split; [|exact Q].
      apply in_map_iff. exists (ax0, m). auto. }
    exists r, sh'. split; [reflexivity|]. split; [exact Wr|]. split; [|split; [|split; [exact E'|]]].
    + split; [intros p; now rewrite Kr|]. intros p. specialize (Lr p). destruct (leaf_at v p); [destruct Lr as (o' & -> & _); split; discriminate|rewrite Lr; tauto].
    + intros p o Lo. specialize (Lr p). now rewrite Lo in Lr.
    + destruct (vec_shape_joint r sh' Wr E') as (N' & Fr & Jr). intros ax n. split; intros H.
      * destruct (Jr ax n H) as (s & Hs & Hn). apply in_map_iff in Hs as (o' & <- & Ho'). destruct (Leaf o' Ho') as (p & o & Lo & Eo). rewrite Eo in Hn.
        apply in_map_iff in Hn as ((ax0, n0) & X & Hn). injection X as <- <-.
        destruct (F' _ _ H) as (m & Hm & Q). apply in_map_iff in Hm as ((ax1, m1) & X & Hm). injection X as X <-.
        destruct (Fv (op_shape o) (in_map op_shape _ _ (leaf_In v p o Lo)) ax0 n0 Hn) as (m0 & Hm0 & Q0).
        assert (ax1 = ax0) by (apply Inj; [now apply (in_map fst) in Hm|now apply (in_map fst) in Hm0|exact X]). subst ax1.
        assert (m0 = m1) by (apply In_dget_iff in Hm; [|exact N]; apply In_dget_iff in Hm0; [|exact N]; congruence). subst m0.
        destruct Q as [-> |<-]; [|apply in_map_iff; exists (ax0, n0); auto].
        destruct (Jv ax0 m1 Hm) as (s & Hs & Hn'). apply in_map_iff in Hs as (o2 & <- & Ho2).
        destruct (In_leaf v o2) as (p2 & Lp2); [eapply tree_ok_any; exact W|exact Ho2|].
        assert (Z := Lr p2). rewrite Lp2 in Z. destruct Z as (o2' & Lo2' & R2). destruct (renamed_shape rho o2 o2' (tree_ok_leaf_at _ _ _ _ W Lp2) R2) as (_ & S2).
        destruct (Fr (op_shape o2') (in_map op_shape _ _ (leaf_In r p2 o2' Lo2')) (rho ax0) m1) as (m2 & Hm2 & Q2).
        { rewrite S2. apply in_map_iff. exists (ax0, m1). auto. }
        assert (m2 = 1) by (apply In_dget_iff in Hm2; [|exact N']; apply In_dget_iff in H; [|exact N']; congruence). subst m2.
        assert (m1 = 1) by (destruct Q2; auto). subst m1. apply in_map_iff. exists (ax0, 1). auto.
      * apply in_map_iff in H as ((ax0, n0) & X & H). injection X as <- <-.
        destruct (Jv ax0 n0 H) as (s & Hs & Hn). apply in_map_iff in Hs as (o & <- & Ho).
        destruct (In_leaf v o) as (p & Lp); [eapply tree_ok_any; exact W|exact Ho|].
        assert (Z := Lr p). rewrite Lp in Z. destruct Z as (o' & Lo' & R). destruct (renamed_shape rho o o' (tree_ok_leaf_at _ _ _ _ W Lp) R) as (_ & S).
        destruct (Fr (op_shape o') (in_map op_shape _ _ (leaf_In r p o' Lo')) (rho ax0) n0) as (m & Hm & Q).
        { rewrite S. apply in_map_iff. exists (ax0, n0). auto. }
        destruct (F' _ _ Hm) as (m' & Hm' & Q'). assert (m' = n0).
        { assert (Z : In (rho ax0, n0) (map ren sh)) by (apply in_map_iff; exists (ax0, n0); auto).
          apply In_dget_iff in Hm'; [|exact Nm]. apply In_dget_iff in Z; [|exact Nm]. congruence. } subst m'.
        assert (m = n0) by lia. now subst m.
  - intros H. destruct (forallb (fun s => smem s (dkeys sh)) source) eqn:Fb; [|reflexivity]. exfalso. apply H.
    rewrite forallb_forall in Fb. intros x Hx. now apply smem_In, Fb.
Qed.

Lemma vec_transpose_full {A} (v : vec A) (axes : list string) sh : vec_wf v -> filled v -> vec_shape v = Ok sh ->
  (NoDup axes /\ incl (dkeys sh) axes -> exists r, vec_transpose v (Some axes) = Ok r /\ each v r (fun _ o a =>
     s_axes a = axes /\
     (forall ax n, In (ax, n) (sshape a) <-> In (ax, n) sh \/ (~ In ax (dkeys sh) /\ In ax axes /\ n = 1)) /\
     forall e, inside e (sshape a) -> at_ a e = op_at o e)) /\
  (~ (NoDup axes /\ incl (dkeys sh) axes) -> vec_transpose v (Some axes) = Err ValueError).
Proof.
  intros W Fl Sv. split; [now apply vec_transpose_spec|]. intros H. apply broadcast_rec_error with (sh := sh); auto.
  intros a Wa Sa. destruct (na_transpose a (Some axes)) as [r|er] eqn:E; [|f_equal; exact (transpose_err a _ er E)].
  exfalso. apply H. assert (K : s_axes a = dkeys sh) by (rewrite <- (wf_keys a Wa); congruence). rewrite <- K.
  apply (transpose_some_success a axes Wa). eauto.
Qed.
