(** Facts about comparisons of vectors. *)
From Coq Require Import String List Arith ZArith Bool Lia.
From Verif Require Import Base Numpy Shapes Scalar Reorder Elementwise Vector VectorEqual Spec SpecVector SpecVectorReduce SpecVectorEqual
  BaseFacts NumpyFacts ShapesFacts AlignFacts ElementwiseFacts ReorderFacts VectorFacts VectorReduceFacts MatrixFacts.
Import ListNotations.
Open Scope nat_scope.
Open Scope list_scope.

(** ** The loops *)

Lemma and_loop_spec {X} (f : X -> res bool) (Q : X -> Prop) l :
  (forall x, In x l -> exists b, f x = Ok b /\ (b = true <-> Q x)) ->
  exists b, and_loop f l = Ok b /\ (b = true <-> forall x, In x l -> Q x).
Proof.
  induction l as [|x l IH]; intros H; cbn [and_loop].
  - exists true. split; [reflexivity|]. split; [intros _ x []|reflexivity].
  - destruct (H x (or_introl eq_refl)) as (b & -> & Hb). cbn [bind]. destruct b.
    + destruct IH as (b & -> & Hl); [intros y Hy; apply H; now right|]. exists b. split; [reflexivity|]. rewrite Hl. split.
      * intros G y [<- |Hy]; [now apply Hb|auto].
      * intros G y Hy. apply G. now right.
    + exists false. split; [reflexivity|]. split; [discriminate|]. intros G. apply Hb, G. now left.
Qed.

Lemma times_loop_spec {X} (f : X -> res bool) (Q : X -> Prop) l :
  (forall x, In x l -> exists b, f x = Ok b /\ (b = true <-> Q x)) ->
  exists b, times_loop f l = Ok b /\ (b = true <-> forall x, In x l -> Q x).
Proof.
  induction l as [|x l IH]; intros H; cbn [times_loop].
  - exists true. split; [reflexivity|]. split; [intros _ x []|reflexivity].
  - destruct (H x (or_introl eq_refl)) as (b & -> & Hb). cbn [bind].
    destruct IH as (r & -> & Hl); [intros y Hy; apply H; now right|]. cbn [bind]. exists (b && r). split; [reflexivity|].
    rewrite andb_true_iff, Hb, Hl. split.
    + intros (G1 & G) y [<- |Hy]; auto.
    + intros G. split; [apply G; now left|intros y Hy; apply G; now right].
Qed.

(** ** Scalars *)

Lemma array_equiv_close {A} (close : A -> A -> bool) (a b : sarr A) sh : wf a -> wf b ->
  broadcast_shapes [sshape a; sshape b] = Ok sh ->
  exists v, na_array_equiv close a b = Ok v /\ (v = true <-> forall e, inside e sh -> close (bat a e) (bat b e) = true).
Proof.
  intros Wa Wb E. unfold na_array_equiv.
  assert (WW : Forall op_wf [OpArr a; OpArr b]) by (repeat constructor; simpl; try apply Wa; try apply Wb).
  change (broadcast_shapes [sshape a; sshape b]) with (shape_broadcasted [OpArr a; OpArr b]) in E. rewrite E. cbn [bind].
  destruct (ops_aligned _ _ WW E) as [N [ns [M [_ [B G]]]]].
  cbn [mapM op_aligned] in M.
  apply bind_ok in M as [n1 [M1 M]]. apply bind_ok in M as [x [M2 M]]. injection M as <-.
  apply bind_ok in M2 as [n2 [M2 M]]. injection M as <-.
  rewrite M1, M2. cbn [bind]. cbn [map] in B. rewrite B. eexists; split; [reflexivity|].
  rewrite forallb_forall. split.
  + intros H e He.
    rewrite <- (bget_aligned a _ _ e Wa N M1), <- (bget_aligned b _ _ e Wb N M2).
    apply H. apply ndindex_In. unfold inb.
    unfold dkeys, dvals. apply Forall2_map_l, Forall2_map_l, Forall2_map_r, Forall2_same.
    intros [k v] Hk. apply He in Hk. auto.
  + intros H idx Hi. apply ndindex_In in Hi.
    assert (Li : length idx = length (dkeys sh)).
    { apply inb_length in Hi. rewrite Hi. unfold dkeys, dvals. now rewrite !map_length. }
    rewrite <- (map_env_of (dkeys sh) idx N Li).
    rewrite (bget_aligned a _ _ _ Wa N M1), (bget_aligned b _ _ _ Wb N M2). apply H.
    intros ax n Hin.
    assert (Hd : dget sh ax = Some n) by now apply dget_NoDup.
    assert (Hax : In ax (dkeys sh)) by (apply dget_Some_key; eauto).
    unfold env_of. rewrite <- (combine_dkeys_dvals sh) in Hd.
    rewrite dget_combine in Hd by (unfold dkeys, dvals; now rewrite !map_length).
    apply (nth_error_nth _ _ 0) in Hd. rewrite <- Hd. apply inb_nth; auto.
    apply spos_lt in Hax. unfold dkeys, dvals in *. rewrite map_length in *. auto.
Qed.

Lemma joint_unique l s t : joint l s -> joint l t -> same_shape s t.
Proof.
  assert (G : forall s t, joint l s -> joint l t -> forall ax n, In (ax, n) s -> In (ax, n) t).
  { intros s' t' (Ns & Fs & As) (Nt & Ft & At) ax n H. destruct (As ax n H) as (r & Hr & Hn).
    destruct (Ft r Hr ax n Hn) as (m & Hm & [D|D]); [|now subst m].
    destruct (Nat.eq_dec m 1) as [->|M1]; [now subst n|].
    destruct (At ax m Hm) as (r' & Hr' & Hm'). destruct (Fs r' Hr' ax m Hm') as (k & Hk & [D'|D']); [contradiction|]. subst k.
    assert (X := dget_NoDup s' ax n Ns H). assert (Y := dget_NoDup s' ax m Ns Hk). assert (n = m) by congruence. now subst m. }
  intros Hs Ht ax n. split; apply G; assumption.
Qed.

Lemma op_shape_NoDup {A} (x : operand A) : op_wf x -> NoDup (dkeys (op_shape x)).
Proof. destruct x; cbn; [apply wf_nodup|constructor]. Qed.

Lemma leaf_close {A} (close : A -> A -> bool) (x y : operand A) B : op_wf x -> op_wf y -> NoDup (dkeys B) ->
  fits_in (op_shape x) B -> fits_in (op_shape y) B ->
  exists b, na_array_equiv close (normalize x) (normalize y) = Ok b /\
    (b = true <-> agree (fun s t => close s t = true) x y).
Proof.
  intros Wx Wy N Fx Fy.
  assert (ND : Forall (fun s : shape => NoDup (dkeys s)) [op_shape x; op_shape y]).
  { constructor; [now apply op_shape_NoDup|]. constructor; [now apply op_shape_NoDup|constructor]. }
  destruct (PdfFacts.fits_broadcast [op_shape x; op_shape y] B ND N) as (sh & E & _).
  { intros s [<- |[<- |[]]]; assumption. }
  destruct (array_equiv_close close (normalize x) (normalize y) sh) as (b & -> & Hb).
  { now apply normalize_wf. } { now apply normalize_wf. } { now rewrite !normalize_shape. }
  exists b. split; [reflexivity|]. rewrite Hb.
  assert (J := broadcast_joint _ _ ND E). split.
  - intros H sh' e J' I. rewrite <- !normalize_at. apply H. intros ax n Hn.
    apply (I ax n). now apply (joint_unique _ _ _ J J').
  - intros H e I. rewrite !normalize_at. now apply (H sh).
Qed.

Lemma leaf_equal {A} (eqb : A -> A -> bool) (x y : operand A) : (forall s t, eqb s t = true <-> s = t) -> op_wf x -> op_wf y ->
  dkeys (op_shape x) = dkeys (op_shape y) ->
  (na_array_equal eqb (normalize x) (normalize y) = true <-> same_contents x y).
Proof.
  intros Q Wx Wy K. assert (Wx' := normalize_wf x Wx). assert (Wy' := normalize_wf y Wy).
  rewrite array_equal_same_axes; auto.
  2: { rewrite <- !wf_keys by auto. now rewrite !normalize_shape. }
  unfold same_array, same_contents. rewrite !normalize_shape.
  assert (G : forall e, same_shape (op_shape x) (op_shape y) -> inside e (op_shape x) ->
    at_ (normalize x) e = op_at x e /\ at_ (normalize y) e = op_at y e).
  { intros e S I. rewrite <- !normalize_at. split; symmetry; apply bat_in; rewrite normalize_shape; auto.
    intros ax n H. apply (I ax n). now apply S. }
  split; intros (S & H); split; auto; intros e I; destruct (G e S I) as (E1 & E2); specialize (H e I); congruence.
Qed.

(** ** Vectors *)

Lemma In_dget {X} (cs : dict X) c x : NoDup (map fst cs) -> In (c, x) cs -> dget cs c = Some x.
Proof. intros N H. now apply dget_NoDup. Qed.

Lemma name_dget {X} (cs : dict X) c : In c (map fst cs) -> exists x, dget cs c = Some x.
Proof. intros H. now apply dget_Some_key. Qed.

Section Trees.
Context {A : Type}.
Variables (leaf : operand A -> operand A -> res bool) (mixed : sarr A -> vec A -> err) (P : operand A -> operand A -> Prop).

Definition leaf_spec (x y : operand A) : Prop := exists b, leaf x y = Ok b /\ (b = true <-> P x y).

Lemma vec_equal_spec (u w : vec A) : tree_ok (fun _ => True) u -> tree_ok (fun _ => True) w ->
  named_by_type u w -> comparable u w ->
  (forall p x y, leaf_at u p = Some x -> leaf_at w p = Some y -> leaf_spec x y) ->
  exists b, vec_equal leaf mixed u w = Ok b /\ (b = true <-> same_vectors P u w).
Proof.
  revert w. induction u as [x|ty cs IH] using tree_rect'; intros [y|ty' cs'] Wu Ww Nm (C1 & C2) H; cbn [vec_equal].
  - destruct (H [] x y eq_refl eq_refl) as (b & E & Hb). exists b. split; [destruct x; exact E|]. rewrite Hb. split.
    + intros Hp. split; [intros [|]; reflexivity|]. intros [|c p]; cbn; auto.
    + intros (_ & G). exact (G []).
  - discriminate (C1 [] x eq_refl).
  - destruct y as [a|n]; [|discriminate (C2 [] n eq_refl)]. exists false. split; [reflexivity|]. split; [discriminate|].
    intros (G & _). discriminate (G []).
  - destruct (String.eqb_spec ty ty') as [<- |D].
    2: { exists false. split; [reflexivity|]. split; [discriminate|]. intros (G & _). specialize (G []). cbn in G. congruence. }
    inversion Wu as [|? ? Nc Wc]; subst. inversion Ww as [|? ? Nc' Wc']; subst.
    assert (NN : forall c, In c (map fst cs) <-> In c (map fst cs')) by (intros c; exact (Nm [] ty _ _ eq_refl eq_refl c)).
    set (Q := fun kv : string * vec A => forall y, dget cs' (fst kv) = Some y -> same_vectors P (snd kv) y).
    destruct (and_loop_spec (fun kv => match dget cs' (fst kv) with
                               | Some y => vec_equal leaf mixed (snd kv) y
                               | None => Err KeyError
                               end) Q cs) as (b & E & Hb).
    { intros (c, x) Hc. cbn [fst snd].
      destruct (name_dget cs' c) as (y & Hy); [apply NN; now apply (in_map fst) in Hc|]. rewrite Hy.
      assert (Hx := In_dget cs c x Nc Hc).
      destruct (IH c x Hc y) as (b & E & Hb).
      - exact (Wc c x Hc).
      - exact (Wc' c y (dget_In _ _ _ Hy)).
      - intros p t n n' K K'. apply (Nm (c :: p) t n n'); cbn [kind]; [rewrite Hx|rewrite Hy]; assumption.
      - split; intros p z Hz; [specialize (C1 (c :: p) z)|specialize (C2 (c :: p) z)]; cbn [kind leaf_at] in *;
          rewrite Hx, Hy in *; auto.
      - intros p s t Hs Ht. apply (H (c :: p)); cbn [leaf_at]; [rewrite Hx|rewrite Hy]; assumption.
      - exists b. split; [exact E|]. rewrite Hb. unfold Q. cbn [fst snd]. split; [intros G z Hz; congruence|]. intros G. now apply G. }
    exists b. split; [exact E|]. rewrite Hb. unfold Q. split.
    + intros G.
      assert (R : forall c, match dget cs c, dget cs' c with Some x, Some y => same_vectors P x y | None, None => True | _, _ => False end).
      { intros c. destruct (dget cs c) as [x|] eqn:Ex.
        - destruct (name_dget cs' c) as (y & Hy). { apply NN. apply dget_In in Ex. now apply (in_map fst) in Ex. }
          rewrite Hy. exact (G (c, x) (dget_In _ _ _ Ex) y Hy).
        - destruct (dget cs' c) as [y|] eqn:Ey; [|exact Logic.I]. destruct (name_dget cs c) as (x & Hx); [|congruence].
          apply NN. apply dget_In in Ey. now apply (in_map fst) in Ey. }
      split; intros [|c p]; unfold type_at in *; cbn [kind leaf_at]; auto; specialize (R c);
        destruct (dget cs c) as [x|], (dget cs' c) as [y|]; try contradiction; try exact Logic.I; try reflexivity; apply R.
    + intros (G1 & G2) (c, x) Hc y Hy. cbn [fst snd] in *. assert (Hx := In_dget cs c x Nc Hc).
      split; intros p; [specialize (G1 (c :: p))|specialize (G2 (c :: p))]; unfold type_at in *; cbn [kind leaf_at] in *;
        rewrite Hx, Hy in *; assumption.
Qed.

(** every two scalars that meet are related *)
Definition all_meet (u w : vec A) : Prop := forall p x y, reaches u p = Some x -> reaches w p = Some y -> P x y.

Lemma close_left_spec (x : operand A) (w : vec A) B : op_wf x -> vec_wf w -> NoDup (dkeys B) ->
  fits_in (op_shape x) B -> (forall y, In y (leaves w) -> fits_in (op_shape y) B) ->
  (forall y, op_wf y -> fits_in (op_shape y) B -> leaf_spec x y) ->
  exists b, close_left leaf x w = Ok b /\ (b = true <-> all_meet (Leaf x) w).
Proof.
  intros Wx Ww N Fx Fw H. induction w as [y|ty cs IH] using tree_rect'; cbn [close_left].
  - inversion Ww; subst. destruct (H y) as (b & E & Hb); [assumption|apply Fw; now left|]. exists b. split; [exact E|]. rewrite Hb. split.
    + intros G p s t Hs Ht. destruct p; cbn in Hs, Ht; congruence.
    + intros G. now apply (G [] x y).
  - destruct (vec_shape_fits (Node ty cs) B Ww N Fw) as (s & Es & Fs).
    assert (Z : exists q, match x with OpArr a => s <- vec_shape (Node ty cs) ;; broadcast_shapes [sshape a; s] | OpNum _ => Ok [] end = Ok q).
    { destruct x as [a|n]; [|eauto]. rewrite Es. cbn [bind].
      destruct (PdfFacts.fits_broadcast [sshape a; s] B) as (q & Eq & _); eauto.
      - constructor; [now apply wf_nodup|]. constructor; [|constructor]. eapply vec_shape_NoDup; eauto.
      - intros r [<- |[<- |[]]]; assumption. }
    destruct Z as (q & ->). cbn [bind]. inversion Ww as [|? ? Nc Wc]; subst.
    destruct (times_loop_spec (fun kv => close_left leaf x (snd kv)) (fun kv => all_meet (Leaf x) (snd kv)) cs) as (b & E & Hb).
    { intros (c, y) Hc. apply (IH c y Hc); [exact (Wc c y Hc)|]. intros z Hz. apply Fw. cbn [leaves]. apply in_flat_map.
      exists (c, y). split; assumption. }
    exists b. split; [exact E|]. rewrite Hb. split.
    + intros G [|c p] s' t Hs Ht; cbn [reaches] in *; [discriminate|]. destruct (dget cs c) as [y|] eqn:Ey; [|discriminate].
      apply (G (c, y) (dget_In _ _ _ Ey) p s' t); [|exact Ht]. now destruct p.
    + intros G (c, y) Hc p s' t Hs Ht. cbn [snd] in Ht. apply (G (c :: p) s' t); cbn [reaches] in *; [now destruct p|].
      now rewrite (In_dget cs c y Nc Hc).
Qed.

Lemma close_right_spec (u : vec A) (y : operand A) B : op_wf y -> vec_wf u -> NoDup (dkeys B) ->
  fits_in (op_shape y) B -> (forall x, In x (leaves u) -> fits_in (op_shape x) B) ->
  (forall x, op_wf x -> fits_in (op_shape x) B -> leaf_spec x y) ->
  exists b, close_right leaf u y = Ok b /\ (b = true <-> all_meet u (Leaf y)).
Proof.
  intros Wy Wu N Fy Fu H. induction u as [x|ty cs IH] using tree_rect'; cbn [close_right].
  - inversion Wu; subst. destruct (H x) as (b & E & Hb); [assumption|apply Fu; now left|]. exists b. split; [exact E|]. rewrite Hb. split.
    + intros G p s t Hs Ht. destruct p; cbn in Hs, Ht; congruence.
    + intros G. now apply (G [] x y).
  - inversion Wu as [|? ? Nc Wc]; subst.
    destruct (times_loop_spec (fun kv => close_right leaf (snd kv) y) (fun kv => all_meet (snd kv) (Leaf y)) cs) as (b & E & Hb).
    { intros (c, x) Hc. apply (IH c x Hc); [exact (Wc c x Hc)|]. intros z Hz. apply Fu. cbn [leaves]. apply in_flat_map.
      exists (c, x). split; assumption. }
    exists b. split; [exact E|]. rewrite Hb. split.
    + intros G [|c p] s' t Hs Ht; cbn [reaches] in *; [discriminate|]. destruct (dget cs c) as [x|] eqn:Ex; [|discriminate].
      apply (G (c, x) (dget_In _ _ _ Ex) p s' t); [exact Hs|]. now destruct p.
    + intros G (c, x) Hc p s' t Hs Ht. cbn [snd] in Hs. apply (G (c :: p) s' t); cbn [reaches] in *; [|now destruct p].
      now rewrite (In_dget cs c x Nc Hc).
Qed.

Lemma vec_close_spec (u w : vec A) B : vec_wf u -> vec_wf w -> alike u w -> NoDup (dkeys B) ->
  (forall x, In x (leaves u) -> fits_in (op_shape x) B) -> (forall y, In y (leaves w) -> fits_in (op_shape y) B) ->
  (forall x y, op_wf x -> op_wf y -> fits_in (op_shape x) B -> fits_in (op_shape y) B -> leaf_spec x y) ->
  exists b, vec_close leaf u w = Ok b /\ (b = true <-> all_meet u w).
Proof.
  intros Wu Ww Al N Fu Fw H. revert w Ww Al Fw. induction u as [x|ty cs IH] using tree_rect'; intros w Ww Al Fw; cbn [vec_close].
  - inversion Wu; subst. assert (fits_in (op_shape x) B) by (apply Fu; now left). eapply close_left_spec; eauto.
  - destruct w as [y|ty' cs'].
    + inversion Ww; subst. assert (fits_in (op_shape y) B) by (apply Fw; now left). eapply close_right_spec; eauto.
    + destruct (Al [] ty (map fst cs) ty' (map fst cs') eq_refl eq_refl) as (<- & NN). rewrite String.eqb_refl.
      inversion Wu as [|? ? Nc Wc]; subst. inversion Ww as [|? ? Nc' Wc']; subst.
      destruct (times_loop_spec (fun kv => match dget cs' (fst kv) with
                                     | Some y => vec_close leaf (snd kv) y
                                     | None => Err KeyError
                                     end) (fun kv => forall y, dget cs' (fst kv) = Some y -> all_meet (snd kv) y) cs) as (b & E & Hb).
      { intros (c, x) Hc. cbn [fst snd].
        destruct (name_dget cs' c) as (y & Hy); [apply NN; now apply (in_map fst) in Hc|]. rewrite Hy.
        assert (Hx := In_dget cs c x Nc Hc).
        destruct (IH c x Hc (Wc c x Hc)) with (w := y) as (b & E & Hb).
        - intros z Hz. apply Fu. cbn [leaves]. apply in_flat_map. exists (c, x). split; assumption.
        - exact (Wc' c y (dget_In _ _ _ Hy)).
        - intros p t1 n1 t2 n2 K1 K2. apply (Al (c :: p) t1 n1 t2 n2); cbn [kind]; [rewrite Hx|rewrite Hy]; assumption.
        - intros z Hz. apply Fw. cbn [leaves]. apply in_flat_map. exists (c, y). split; [now apply dget_In|assumption].
        - exists b. split; [exact E|]. rewrite Hb. split; [intros G z Hz; injection Hz as <-; exact G|intros G; now apply G]. }
      exists b. split; [exact E|]. rewrite Hb. split.
      * intros G [|c p] s t Hs Ht; cbn [reaches] in *; [discriminate|]. destruct (dget cs c) as [x|] eqn:Ex; [|discriminate].
        destruct (dget cs' c) as [y|] eqn:Ey; [|discriminate]. exact (G (c, x) (dget_In _ _ _ Ex) y Ey p s t Hs Ht).
      * intros G (c, x) Hc y Hy p s t Hs Ht. cbn [fst snd] in *. apply (G (c :: p) s t); cbn [reaches].
        -- now rewrite (In_dget cs c x Nc Hc).
        -- now rewrite Hy.
Qed.
End Trees.

(** ** The three comparisons *)

Lemma vec_array_equal_spec {A} (eqb : A -> A -> bool) (u w : vec A) : (forall s t, eqb s t = true <-> s = t) -> vec_wf u -> vec_wf w ->
  named_by_type u w -> comparable u w ->
  (forall p x y, leaf_at u p = Some x -> leaf_at w p = Some y -> dkeys (op_shape x) = dkeys (op_shape y)) ->
  exists b, vec_array_equal eqb u w = Ok b /\ (b = true <-> same_vectors same_contents u w).
Proof.
  intros Q Wu Ww Nm C H. apply vec_equal_spec; auto; try (eapply tree_ok_any; eassumption).
  intros p x y Hx Hy. eexists. split; [reflexivity|]. apply leaf_equal; auto.
  - exact (tree_ok_leaf_at _ _ _ _ Wu Hx).
  - exact (tree_ok_leaf_at _ _ _ _ Ww Hy).
  - eauto.
Qed.

Lemma vec_array_equiv_spec {A} (eqb : A -> A -> bool) (u w : vec A) B : (forall s t, eqb s t = true <-> s = t) -> vec_wf u -> vec_wf w ->
  named_by_type u w -> comparable u w -> NoDup (dkeys B) ->
  (forall x, In x (leaves u ++ leaves w) -> fits_in (op_shape x) B) ->
  exists b, vec_array_equiv eqb u w = Ok b /\ (b = true <-> same_vectors (agree eq) u w).
Proof.
  intros Q Wu Ww Nm C N H. apply vec_equal_spec; auto; try (eapply tree_ok_any; eassumption).
  intros p x y Hx Hy.
  destruct (leaf_close eqb x y B) as (b & E & Hb); auto.
  - exact (tree_ok_leaf_at _ _ _ _ Wu Hx).
  - exact (tree_ok_leaf_at _ _ _ _ Ww Hy).
  - apply H, in_app_iff. left. exact (leaf_In u p x Hx).
  - apply H, in_app_iff. right. exact (leaf_In w p y Hy).
  - exists b. split; [exact E|]. rewrite Hb. split; intros G sh e J I; apply Q; now apply (G sh).
Qed.

Lemma vec_allclose_spec {A} (close : A -> A -> bool) (u w : vec A) B : vec_wf u -> vec_wf w -> alike u w -> NoDup (dkeys B) ->
  (forall x, In x (leaves u ++ leaves w) -> fits_in (op_shape x) B) ->
  exists b, vec_allclose close u w = Ok b /\
    (b = true <-> forall p x y, reaches u p = Some x -> reaches w p = Some y -> agree (fun s t => close s t = true) x y).
Proof.
  intros Wu Ww Al N H. apply vec_close_spec with (B := B); auto.
  - intros x Hx. apply H, in_app_iff. now left.
  - intros x Hx. apply H, in_app_iff. now right.
  - intros x y Wx Wy Fx Fy. exact (leaf_close close x y B Wx Wy N Fx Fy).
Qed.

(** vectors of different types never are close and are not compared *)
Lemma vec_allclose_types {A} (close : A -> A -> bool) ty ty' (cs cs' : dict (vec A)) : ty <> ty' ->
  vec_allclose close (Node ty cs) (Node ty' cs') = Err TypeError.
Proof. intros D. unfold vec_allclose. cbn [vec_close]. now apply String.eqb_neq in D as ->. Qed.
