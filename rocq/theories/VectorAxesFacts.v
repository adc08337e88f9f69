(** Facts about the functions of vectors along named axes. *)
From Coq Require Import String List Arith ZArith Bool Lia.
From Verif Require Import Base Numpy Shapes Scalar Reorder Elementwise Reduce Along Vector VectorAxes Spec SpecVector SpecMatrix SpecVectorReduce SpecVectorAxes
  BaseFacts NumpyFacts ShapesFacts AlignFacts ElementwiseFacts ReorderFacts AlongFacts VectorFacts VectorIndexFacts MatrixFacts VectorReduceFacts.
Import ListNotations.
Open Scope nat_scope.
Open Scope list_scope.

Lemma filled_kind {L M} (t : tree L) (u : tree M) : (forall p, kind u p = kind t p) -> filled t -> filled u.
Proof. intros K H p ty cs E. rewrite K in E. exact (H p ty cs E). Qed.

(** a vector put together from its components *)
Lemma node_each {A B} ty (cs : list (string * vec A)) (rs : list (string * vec B)) (R : list string -> operand A -> sarr B -> Prop) :
  map fst rs = map fst cs ->
  (forall c, match dget cs c, dget rs c with
             | Some x, Some y => each x y (fun p => R (c :: p))
             | None, None => True
             | _, _ => False
             end) ->
  each (Node ty cs) (Node ty rs) R.
Proof.
  intros N G. split; [split|].
  - intros [|c p]; cbn [kind]; [now rewrite N|]. specialize (G c). destruct (dget cs c), (dget rs c); try contradiction; [|reflexivity]. apply G.
  - intros [|c p]; cbn [leaf_at]; [tauto|]. specialize (G c). destruct (dget cs c), (dget rs c); try contradiction; [|tauto]. apply G.
  - intros [|c p] o; cbn [leaf_at]; [discriminate|]. specialize (G c). destruct (dget cs c), (dget rs c); try contradiction; [|discriminate].
    intros H. exact (proj2 G p o H).
Qed.

(** ** Broadcasting all components *)

Section Broadcast.
Context {A B : Type} (f : sarr A -> res (sarr B)) (sh : shape).

Lemma broadcast_rec_ok fuel : forall (v : vec A) (R : list string -> sarr B -> Prop), depth v <= fuel -> vec_wf v -> filled v ->
  vec_shape v = Ok sh ->
  (forall p o a, leaf_at v p = Some o -> wf a -> sshape a = sh -> (forall e, bat a e = op_at o e) -> exists r, f a = Ok r /\ wf r /\ R p r) ->
  exists r, broadcast_rec fuel f v = Ok r /\ each v r (fun p _ => R p).
Proof.
  induction fuel as [|fuel IH]; intros v R D W Fl Sv H; (destruct v as [o|ty cs]).
  1, 3: inversion W as [? Wo|]; subst; destruct (H [] o (normalize o) eq_refl) as (r & E & Wr & Hr);
    [now apply normalize_wf|rewrite normalize_shape; destruct o; cbn in Sv |- *; congruence|intros e; apply normalize_at|];
    cbn [broadcast_rec]; rewrite E; cbn [bind]; eexists; split; [reflexivity|]; split;
      [split; [intros [|]; reflexivity|intros [|]; cbn; split; congruence]|];
      intros [|c p] o' L; [|discriminate]; exists r; auto.
  - cbn in D. lia.
  - assert (N : NoDup (dkeys sh)) by exact (vec_shape_NoDup _ _ W Sv).
    destruct (vec_broadcast_total sh (Node ty cs) W N) as (b & Eb).
    { intros o Ho ax n Hn. destruct (leaf_fits_shape _ _ o W Sv Ho ax n Hn) as (m & Hm & [-> | ->]).
      - split; [now apply (in_map fst) in Hm|auto].
      - split; [now apply (in_map fst) in Hm|auto]. }
    destruct (vec_broadcast_wf sh _ b W N Eb) as (Wb & Db & Lb & _).
    destruct (vec_broadcast_spec sh _ b W N Eb) as (Kb & Gb).
    assert (Ab := fun p o => vec_broadcast_arrays sh _ b p o Eb).
    destruct (vec_broadcast_node ty cs sh b Eb) as (rs & -> & F).
    assert (Flb : filled (Node ty rs)) by exact (filled_kind _ _ Kb Fl).
    assert (Names : map fst rs = map fst cs) by exact (Forall2_names (fun kv kr => vec_broadcast_to (snd kv) sh = Ok (snd kr)) cs rs F).
    assert (G := Forall2_dget (fun _ x y => vec_broadcast_to x sh = Ok y) cs rs F).
    inversion W as [|? ? Nc Wc]; subst. inversion Wb as [|? ? Nc' Wc']; subst.
    assert (Child : forall c y, In (c, y) rs -> exists r, broadcast_rec fuel f y = Ok r /\ each y r (fun p _ => R (c :: p))).
    { intros c y Hy. assert (Dy := dget_NoDup rs c y Nc' Hy). apply IH.
      - assert (X := depth_In ty rs c y Hy). rewrite Db in X. lia.
      - exact (Wc' c y Hy).
      - exact (filled_child ty rs c y Nc' Flb Hy).
      - apply uniform_shape; [exact N|exact (filled_child ty rs c y Nc' Flb Hy)|eapply tree_ok_any; exact (Wc' c y Hy)|].
        rewrite Forall_forall in Lb |- *. intros o Ho. apply Lb. cbn [leaves]. apply in_flat_map. exists (c, y). auto.
      - intros p o a L Wa Sa Va. specialize (Gb (c :: p)). cbn [leaf_at] in Gb. specialize (H (c :: p)). cbn [leaf_at] in H. rewrite Dy in Gb.
        specialize (G c). rewrite Dy in G. destruct (dget cs c) as [x|]; [|contradiction].
        destruct (leaf_at x p) as [o'|]; [|congruence]. destruct Gb as (r & Lr & _ & _ & Vr & _).
        apply (H o' a eq_refl Wa Sa). intros e. rewrite Va, <- Vr. congruence. }
    cbn [broadcast_rec]. rewrite Sv. cbn [bind]. rewrite Eb. cbn [bind].
    destruct (on_components_intro (fun _ x => broadcast_rec fuel f x) rs) as (qs & Eq).
    { intros c y Hy. destruct (Child c y Hy) as (r & E & _). eauto. }
    rewrite Eq. cbn [bind]. eexists. split; [reflexivity|]. destruct (on_components_get _ _ _ Eq) as (Nq & Gq).
    apply node_each; [congruence|]. intros c. specialize (Gq c). specialize (G c).
    destruct (dget cs c) as [x|] eqn:Dx, (dget rs c) as [y|] eqn:Dy; try contradiction; destruct (dget qs c) as [q|]; try contradiction; auto.
    destruct (Child c y (dget_In _ _ _ Dy)) as (r & E & Hr). assert (r = q) by congruence. subst q.
    destruct (vec_broadcast_spec sh x y (Wc c x (dget_In _ _ _ Dx)) N G) as (Kx & Gx). destruct Hr as ((Kr & Lr) & Hr). split; [split|].
    + intros p. now rewrite <- Kx.
    + intros p. rewrite <- Lr. specialize (Gx p). destruct (leaf_at x p); [destruct Gx as (r' & -> & _); split; discriminate|rewrite Gx; tauto].
    + intros p o L. specialize (Gx p). rewrite L in Gx. destruct Gx as (r' & L' & _). exact (Hr p r' L').
Qed.
End Broadcast.

Section BroadcastErrors.
Context {A B : Type} (f : sarr A -> res (sarr B)) (sh : shape) (er : err).

Lemma on_components_error {L M} (g : string -> tree L -> res M) cs : cs <> [] ->
  (forall c x, In (c, x) cs -> g c x = Err er) -> on_components g cs = Err er.
Proof.
  intros Hc H. destruct cs as [|[c x] cs]; [contradiction|]. unfold on_components. cbn [traverse fst snd]. rewrite (H c x) by now left. reflexivity.
Qed.

Lemma broadcast_rec_error fuel : forall (v : vec A), depth v <= fuel -> vec_wf v -> filled v -> vec_shape v = Ok sh ->
  (forall a, wf a -> sshape a = sh -> f a = Err er) -> broadcast_rec fuel f v = Err er.
Proof.
  induction fuel as [|fuel IH]; intros v D W Fl Sv H; (destruct v as [o|ty cs]).
  1, 3: inversion W as [? Wo|]; subst; cbn [broadcast_rec]; rewrite H;
    [reflexivity|now apply normalize_wf|rewrite normalize_shape; destruct o; cbn in Sv |- *; congruence].
  - cbn in D. lia.
  - assert (N : NoDup (dkeys sh)) by exact (vec_shape_NoDup _ _ W Sv).
    destruct (vec_broadcast_total sh (Node ty cs) W N) as (b & Eb).
    { intros o Ho ax n Hn. destruct (leaf_fits_shape _ _ o W Sv Ho ax n Hn) as (m & Hm & [-> | ->]).
      - split; [now apply (in_map fst) in Hm|auto].
      - split; [now apply (in_map fst) in Hm|auto]. }
    destruct (vec_broadcast_wf sh _ b W N Eb) as (Wb & Db & Lb & _).
    destruct (vec_broadcast_spec sh _ b W N Eb) as (Kb & Gb).
    destruct (vec_broadcast_node ty cs sh b Eb) as (rs & -> & F).
    assert (Flb : filled (Node ty rs)) by exact (filled_kind _ _ Kb Fl).
    inversion Wb as [|? ? Nc' Wc']; subst.
    cbn [broadcast_rec]. rewrite Sv. cbn [bind]. rewrite Eb. cbn [bind].
    rewrite on_components_error; [reflexivity| |].
    + intros ->. exact (Flb [] ty [] eq_refl eq_refl).
    + intros c y Hy. apply IH; auto.
      * assert (X := depth_In ty rs c y Hy). rewrite Db in X. lia.
      * exact (Wc' c y Hy).
      * exact (filled_child ty rs c y Nc' Flb Hy).
      * apply uniform_shape; [exact N|exact (filled_child ty rs c y Nc' Flb Hy)|eapply tree_ok_any; exact (Wc' c y Hy)|].
        rewrite Forall_forall in Lb |- *. intros o Ho. apply Lb. cbn [leaves]. apply in_flat_map. exists (c, y). auto.
Qed.
End BroadcastErrors.

(** ** The four functions *)

Lemma each_weaken {A B} (v : vec A) (r : vec B) (R R' : list string -> operand A -> sarr B -> Prop) :
  (forall p o a, leaf_at v p = Some o -> wf a -> R p o a -> R' p o a) -> each v r R -> each v r R'.
Proof. intros H (K & E). split; [exact K|]. intros p o L. destruct (E p o L) as (a & La & Wa & Ra). exists a. auto. Qed.

(** the relation is chosen by the path *)
Definition by_path {A B} (v : vec A) (R : operand A -> sarr B -> Prop) (p : list string) (a : sarr B) : Prop :=
  forall o, leaf_at v p = Some o -> R o a.

Lemma broadcast_map {A B} (f : sarr A -> res (sarr B)) (v : vec A) sh (R : operand A -> sarr B -> Prop) : vec_wf v -> filled v -> vec_shape v = Ok sh ->
  (forall o a, op_wf o -> wf a -> sshape a = sh -> (forall e, bat a e = op_at o e) -> exists r, f a = Ok r /\ wf r /\ R o r) ->
  exists r, broadcast_rec (depth v) f v = Ok r /\ each v r (fun _ => R).
Proof.
  intros W Fl Sv H. destruct (broadcast_rec_ok f sh (depth v) v (by_path v R)) as (r & E & G); auto.
  - intros p o a L Wa Sa Va. destruct (H o a) as (r & E & Wr & Hr); auto.
    { exact (tree_ok_leaf_at _ _ _ _ W L). } exists r. split; [exact E|]. split; [exact Wr|]. intros o' L'. congruence.
  - exists r. split; [exact E|]. revert G. apply each_weaken. intros p o a L _ G. exact (G o L).
Qed.

Lemma bat_fixed {A} (a : sarr A) e : wf a -> inside e (sshape a) -> bat a e = at_ a e.
Proof. intros _. apply bat_in. Qed.

Lemma line_run {A} (a : sarr A) (o : operand A) ax e : wf a -> (forall e, bat a e = op_at o e) ->
  (forall x n, In (x, n) (sshape a) -> x <> ax -> e x < n) -> line a ax e = run o ax (size_of (sshape a) ax) e.
Proof.
  intros W V I. unfold line, run. apply map_ext_in. intros j Hj. apply in_seq in Hj. rewrite <- V. symmetry. apply bat_in.
  intros x n Hx. unfold set_env. destruct (String.eqb_spec x ax) as [-> |D]; [|now apply (I x n)].
  unfold size_of in Hj. rewrite (dget_NoDup (sshape a) ax n) in Hj; [lia|now apply wf_nodup|exact Hx].
Qed.

Lemma vec_transpose_spec {A} (v : vec A) (axes : list string) sh : vec_wf v -> filled v -> vec_shape v = Ok sh ->
  (NoDup axes /\ incl (dkeys sh) axes -> exists r, vec_transpose v (Some axes) = Ok r /\ each v r (fun _ o a =>
     s_axes a = axes /\
     (forall ax n, In (ax, n) (sshape a) <-> In (ax, n) sh \/ (~ In ax (dkeys sh) /\ In ax axes /\ n = 1)) /\
     forall e, inside e (sshape a) -> at_ a e = op_at o e)).
Proof.
  intros W Fl Sv (N & I). apply broadcast_map with (sh := sh); auto. intros o a Wo Wa Sa Va.
  assert (K : s_axes a = dkeys sh) by (rewrite <- (wf_keys a Wa); congruence).
  destruct (proj2 (transpose_some_success a axes Wa)) as (r & E). { rewrite K. auto. }
  destruct (transpose_some a axes r Wa E) as (Wr & Ar & Sr & Vr). exists r. split; [exact E|]. split; [exact Wr|].
  split; [exact Ar|]. rewrite Sa, K in Sr. split; [exact Sr|]. intros e He. rewrite Vr, <- Va. symmetry. apply bat_in.
  rewrite Sa. intros ax n Hn. apply (He ax n). apply Sr. now left.
Qed.

Lemma vec_transpose_none_spec {A} (v : vec A) sh : vec_wf v -> filled v -> vec_shape v = Ok sh ->
  exists r, vec_transpose v None = Ok r /\ each v r (fun _ o a =>
     s_axes a = rev (dkeys sh) /\ same_shape (sshape a) sh /\ forall e, inside e sh -> at_ a e = op_at o e).
Proof.
  intros W Fl Sv. apply broadcast_map with (sh := sh); auto. intros o a Wo Wa Sa Va.
  assert (K : s_axes a = dkeys sh) by (rewrite <- (wf_keys a Wa); congruence).
  destruct (transpose_none a Wa) as (r & E & Wr & Ar & Sr & Vr). exists r. split; [exact E|]. split; [exact Wr|].
  split; [congruence|]. rewrite Sa in Sr. split; [exact Sr|]. intros e He. rewrite Vr, <- Va. symmetry. apply bat_in. now rewrite Sa.
Qed.

Lemma vec_diff_spec {A} (sub : A -> A -> A) (n : nat) (v : vec A) (axis : string) (prepend append : option (operand A)) sh :
  vec_wf v -> filled v -> vec_shape v = Ok sh ->
  (forall o, prepend = Some o -> op_wf o) -> (forall o, append = Some o -> op_wf o) ->
  let extra (o : option (operand A)) := match o with Some b => fun e => [op_at b e] | None => fun _ => [] end in
  let ok := In axis (dkeys sh) /\ (forall o, prepend = Some o \/ append = Some o -> op_fits o (resized sh axis 1)) in
  (ok -> exists r, vec_diff sub n v axis prepend append = Ok r /\ each v r (fun _ o a =>
     s_axes a = dkeys sh /\
     (forall ax, In ax (dkeys sh) -> ax <> axis -> size_of (sshape a) ax = size_of sh ax) /\
     forall e, (forall x m, In (x, m) sh -> x <> axis -> e x < m) -> line a axis e =
       match n with
       | 0 => run o axis (size_of sh axis) e
       | _ => Nat.iter n (Spec.delta sub) (extra prepend e ++ run o axis (size_of sh axis) e ++ extra append e)
       end)) /\
  (~ ok -> vec_diff sub n v axis prepend append = Err ValueError).
Proof.
  intros W Fl Sv Wp Wq extra ok. split.
  - intros (Hx & Hf). apply broadcast_map with (sh := sh); auto. intros o a Wo Wa Sa Va.
    assert (K : s_axes a = dkeys sh) by (rewrite <- (wf_keys a Wa); congruence).
    destruct (diff_spec sub n a axis prepend append Wa Wp Wq) as (G & _). rewrite K, Sa in G. destruct (G (conj Hx Hf)) as (r & E & Wr & Ar & Zr & Lr).
    exists r. split; [exact E|]. split; [exact Wr|]. split; [exact Ar|]. split; [exact Zr|].
    intros e He. rewrite Lr. rewrite (line_run a o axis e Wa Va) by (rewrite Sa; exact He). rewrite Sa. reflexivity.
  - intros Hn. apply broadcast_rec_error with (sh := sh); auto. intros a Wa Sa.
    assert (K : s_axes a = dkeys sh) by (rewrite <- (wf_keys a Wa); congruence).
    destruct (diff_spec sub n a axis prepend append Wa Wp Wq) as (_ & G). rewrite K, Sa in G. exact (G Hn).
Qed.

Lemma vec_repeat_spec {A} (v : vec A) (repeats : operand nat) (axis : string) sh :
  vec_wf v -> filled v -> vec_shape v = Ok sh -> op_wf repeats ->
  let n := size_of sh axis in
  let ok := In axis (dkeys sh) /\
    (op_shape repeats = [] \/ exists ax m, op_shape repeats = [(ax, m)] /\ (m = 1 \/ m = n)) in
  (ok -> exists r, vec_repeat v repeats axis = Ok r /\ each v r (fun _ o a =>
     s_axes a = dkeys sh /\
     (forall ax, In ax (dkeys sh) -> ax <> axis -> size_of (sshape a) ax = size_of sh ax) /\
     forall e, (forall x m, In (x, m) sh -> x <> axis -> e x < m) ->
       line a axis e = Spec.expand (map (fun j => op_at repeats (fun _ => j)) (seq 0 n)) (run o axis n e))) /\
  (~ ok -> vec_repeat v repeats axis = Err ValueError).
Proof.
  intros W Fl Sv Wp n ok. split.
  - intros H. apply broadcast_map with (sh := sh); auto. intros o a Wo Wa Sa Va.
    assert (K : s_axes a = dkeys sh) by (rewrite <- (wf_keys a Wa); congruence).
    destruct (repeat_spec a repeats axis Wa Wp) as (G & _). rewrite K, Sa in G. destruct (G H) as (r & E & Wr & Ar & Zr & Lr).
    exists r. split; [exact E|]. split; [exact Wr|]. split; [exact Ar|]. split; [exact Zr|].
    intros e He. rewrite Lr. rewrite (line_run a o axis e Wa Va) by (rewrite Sa; exact He). rewrite Sa. reflexivity.
  - intros Hn. apply broadcast_rec_error with (sh := sh); auto. intros a Wa Sa.
    assert (K : s_axes a = dkeys sh) by (rewrite <- (wf_keys a Wa); congruence).
    destruct (repeat_spec a repeats axis Wa Wp) as (_ & G). rewrite K, Sa in G. exact (G Hn).
Qed.
