(** Facts about vector arrays. *)
From Coq Require Import Ascii String List Arith ZArith Bool Lia.
From Verif Require Import Base BaseFacts Numpy NumpyFacts Shapes Scalar Elementwise Vector Spec SpecVector
  ShapesFacts AlignFacts.
Import ListNotations.
Open Scope nat_scope.
Open Scope list_scope.

(** ** Trees *)

Section TreeInd.
Context {L : Type} (P : tree L -> Prop)
  (HL : forall l, P (Leaf l))
  (HN : forall ty cs, (forall c x, In (c, x) cs -> P x) -> P (Node ty cs)).
Fixpoint tree_rect' (t : tree L) : P t :=
  match t with
  | Leaf l => HL l
  | Node ty cs =>
      HN ty cs ((fix go (l : list (string * tree L)) : forall c x, In (c, x) l -> P x :=
        match l with
        | [] => fun c x H => match H with end
        | kv :: l' => fun c x H =>
            match H with
            | or_introl E => eq_ind _ (fun kv => P (snd kv)) (tree_rect' (snd kv)) _ E
            | or_intror H' => go l' c x H'
            end
        end) cs)
  end.
End TreeInd.

Lemma traverse_mapM {A B} (f : A -> res B) l : traverse f l = mapM f l.
Proof. induction l as [|x l IH]; simpl; [reflexivity|]. now rewrite IH. Qed.

Lemma on_components_ok {L M} (f : string -> tree L -> res M) cs r :
  on_components f cs = Ok r ->
  Forall2 (fun kv kr => fst kr = fst kv /\ f (fst kv) (snd kv) = Ok (snd kr)) cs r.
Proof.
  unfold on_components. rewrite traverse_mapM. intros H. apply mapM_ok in H.
  revert r H. induction cs as [|kv cs IH]; intros r H; inversion H as [|? kr ? r' E H' E1 E2]; subst.
  - constructor.
  - constructor; [|auto]. cbv beta in E. destruct (f (fst kv) (snd kv)) as [y|]; simpl in E; [|discriminate].
    inversion E; subst. split; reflexivity.
Qed.

Lemma Forall2_names {L M} (R : string * tree L -> string * M -> Prop) cs r :
  Forall2 (fun kv kr => fst kr = fst kv /\ R kv kr) cs r -> map fst r = map fst cs.
Proof. induction 1 as [|? ? ? ? [E _] _ IH]; simpl; [reflexivity|]. now rewrite E, IH. Qed.

Lemma Forall2_dget {L M} (R : string -> L -> M -> Prop) (cs : dict L) (r : dict M) :
  Forall2 (fun kv kr => fst kr = fst kv /\ R (fst kv) (snd kv) (snd kr)) cs r ->
  forall c, match dget cs c, dget r c with
            | Some x, Some y => R c x y
            | None, None => True
            | _, _ => False
            end.
Proof.
  induction 1 as [|[k x] [k' y] cs r [E H] _ IH]; intros c; simpl; [exact I|].
  simpl in E. subst k'. destruct (String.eqb c k) eqn:Q; [|apply IH].
  apply String.eqb_eq in Q. subst. exact H.
Qed.

Lemma on_components_get {L M} (f : string -> tree L -> res M) cs r :
  on_components f cs = Ok r ->
  map fst r = map fst cs /\
  forall c, match dget cs c, dget r c with
            | Some x, Some y => f c x = Ok y
            | None, None => True
            | _, _ => False
            end.
Proof.
  intros H. apply on_components_ok in H. split.
  - exact (Forall2_names (fun kv kr => f (fst kv) (snd kv) = Ok (snd kr)) cs r H).
  - exact (Forall2_dget (fun c x y => f c x = Ok y) cs r H).
Qed.

Lemma on_components_intro {L M} (f : string -> tree L -> res M) cs :
  (forall c x, In (c, x) cs -> exists y, f c x = Ok y) -> exists r, on_components f cs = Ok r.
Proof.
  unfold on_components. rewrite traverse_mapM. induction cs as [|[c x] cs IH]; intros H; simpl.
  - now exists [].
  - destruct (H c x (or_introl eq_refl)) as (y & E). rewrite E. cbn [bind].
    destruct IH as (r & E'); [intros; apply H; now right|]. rewrite E'. simpl. eauto.
Qed.

Lemma depth_In {L} ty (cs : list (string * tree L)) c x :
  In (c, x) cs -> depth x < depth (Node ty cs).
Proof.
  intros H. simpl. apply Nat.lt_succ_r.
  assert (K : list_max (map (fun kv => depth (snd kv)) cs) <= list_max (map (fun kv : string * tree L => depth (snd kv)) cs)) by lia.
  apply list_max_le in K. rewrite Forall_map, Forall_forall in K. exact (K _ H).
Qed.

Lemma list_max_In l x : In x l -> x <= list_max l.
Proof.
  intros H. assert (K : list_max l <= list_max l) by lia. apply list_max_le in K.
  rewrite Forall_forall in K. auto.
Qed.

Lemma first_node_None {L} (l : list (tree L)) :
  first_node l = None <-> exists xs, l = map Leaf xs.
Proof.
  induction l as [|[x|ty cs] l IH]; unfold first_node in *; simpl.
  - split; [exists []; reflexivity|reflexivity].
  - rewrite IH. split; intros (xs & E).
    + exists (x :: xs). simpl. now rewrite E.
    + destruct xs; [discriminate|]. inversion E. now exists xs.
  - split; [discriminate|]. intros ([|? ?] & E); discriminate.
Qed.

Lemma first_node_Some {L} (l : list (tree L)) ty cs :
  first_node l = Some (ty, cs) ->
  exists xs l', l = map Leaf xs ++ Node ty cs :: l'.
Proof.
  induction l as [|[x|ty' cs'] l IH]; unfold first_node in *; simpl.
  - discriminate.
  - intros H. destruct (IH H) as (xs & l' & E). exists (x :: xs), l'. simpl. now rewrite E.
  - intros H. inversion H; subst. now exists [], l.
Qed.

Lemma leaves_of_Leaf {L} (xs : list L) : leaves_of (map Leaf xs) = xs.
Proof. induction xs as [|x xs IH]; [reflexivity|]. unfold leaves_of in *. simpl. now rewrite IH. Qed.

(** descending into a component *)
Lemma component_reaches {L} c (t x : tree L) p : component c t = Ok x ->
  reaches t (c :: p) = reaches x p.
Proof.
  destruct t as [l|ty cs]; simpl; intros H.
  - inversion H; subst. destruct p; reflexivity.
  - destruct (dget cs c); [now inversion H|discriminate].
Qed.

Lemma component_kind {L} c (t x : tree L) p : component c t = Ok x -> kind t (c :: p) = kind x p.
Proof.
  destruct t as [l|ty cs]; simpl; intros H.
  - inversion H; subst. destruct p; reflexivity.
  - destruct (dget cs c); [now inversion H|discriminate].
Qed.

Lemma component_depth {L} c (t x : tree L) : component c t = Ok x ->
  depth x <= depth t /\ (0 < depth t -> depth x < depth t).
Proof.
  destruct t as [l|ty cs]; simpl; intros H.
  - inversion H; subst. simpl. lia.
  - destruct (dget cs c) as [y|] eqn:E; [|discriminate]. inversion H; subst.
    apply dget_In in E. assert (K := depth_In ty cs c x E). simpl in K. lia.
Qed.

Lemma component_ok {L} (P : L -> Prop) c (t x : tree L) :
  tree_ok P t -> component c t = Ok x -> tree_ok P x.
Proof.
  intros W. destruct t as [l|ty cs]; simpl; intros H.
  - now inversion H; subst.
  - destruct (dget cs c) as [y|] eqn:E; [|discriminate]. inversion H; subst.
    inversion W; subst. apply dget_In in E. eauto.
Qed.

Lemma components_depth {L} c (l xs : list (tree L)) n :
  list_max (map depth l) <= S n -> Forall2 (fun t x => component c t = Ok x) l xs ->
  list_max (map depth xs) <= n.
Proof.
  intros H F. apply list_max_le. apply list_max_le in H. revert H.
  induction F as [|t x l xs E _ IH]; simpl; intros H; constructor; inversion H; subst; auto.
  destruct (component_depth c t x E). lia.
Qed.

(** ** Elementwise operations *)

Lemma forallb_is_num {A} (os : list (operand A)) :
  forallb is_num os = true <-> forall x, In x os -> exists y, x = OpNum y.
Proof.
  rewrite forallb_forall. split; intros H x Hx; specialize (H x Hx).
  - destruct x; [discriminate|eauto].
  - destruct H as (y & ->). reflexivity.
Qed.

Lemma op_shapes_nums {A} (os : list (operand A)) :
  (forall x, In x os -> exists y, x = OpNum y) -> op_shapes os = [].
Proof.
  induction os as [|o os IH]; intros H; [reflexivity|].
  destruct (H o (or_introl eq_refl)) as (y & ->). simpl. apply IH. intros; apply H; now right.
Qed.

Lemma nums_at {A} (os : list (operand A)) e :
  (forall x, In x os -> exists y, x = OpNum y) -> nums os = map (fun x => op_at x e) os.
Proof.
  induction os as [|o os IH]; intros H; [reflexivity|].
  destruct (H o (or_introl eq_refl)) as (y & ->). unfold nums in *. simpl. f_equal.
  apply IH. intros; apply H; now right.
Qed.

Lemma bat_in {A} (a : sarr A) e : inside e (sshape a) -> bat a e = at_ a e.
Proof.
  intros I. unfold bat, at_. f_equal. apply map_ext_in. intros ax Hax. unfold bclamp.
  destruct (dget (sshape a) ax) as [n|] eqn:D; [|reflexivity].
  apply dget_In in D. apply I in D. destruct n as [|[|n]]; [reflexivity|lia|reflexivity].
Qed.

Lemma op_ufunc_spec {A B} (f : list A -> B) os o :
  Forall op_wf os -> op_ufunc f os = Ok o -> elementwise f os o.
Proof.
  intros W. unfold op_ufunc. destruct (forallb is_num os) eqn:N; intros H.
  - inversion H; subst. assert (N' := proj1 (forallb_is_num os) N).
    split; [exact I|]. split; [now rewrite (op_shapes_nums os N')|].
    split; [|split; eauto]. intros e _. simpl. now rewrite (nums_at os e N').
  - apply bind_ok in H. destruct H as (b & E & H). inversion H; subst.
    destruct (shape_broadcasted os) as [sh|] eqn:S.
    + destruct (array_ufunc_ok f os sh W S) as (b' & E' & Wb & Sb & V).
      rewrite E in E'. inversion E'; subst b'. split; [exact Wb|]. split; [simpl; now rewrite Sb|].
      split.
      * intros e I. simpl. rewrite bat_in by exact I. apply V.
      * split; [intros (y & Y); discriminate|]. intros Q. apply forallb_is_num in Q. congruence.
    + unfold array_ufunc in E. rewrite S in E. discriminate.
Qed.

Lemma op_ufunc_intro {A B} (f : list A -> B) os sh :
  Forall op_wf os -> broadcast_shapes (op_shapes os) = Ok sh -> exists o, op_ufunc f os = Ok o.
Proof.
  intros W S. unfold op_ufunc. destruct (forallb is_num os); [eauto|].
  destruct (array_ufunc_ok f os sh W S) as (b & E & _). rewrite E. simpl. eauto.
Qed.

Lemma reaches_Leaf {L} (x : L) p : reaches (Leaf x) p = Some x.
Proof. destruct p; reflexivity. Qed.

Lemma tree_ok_leaf_at {L} (P : L -> Prop) t p l : tree_ok P t -> leaf_at t p = Some l -> P l.
Proof.
  revert p. induction t as [x|ty cs IH] using tree_rect'; intros [|c p] W H; simpl in H; try discriminate.
  - inversion H; subst. now inversion W.
  - destruct (dget cs c) as [x|] eqn:E; [|discriminate]. apply dget_In in E. inversion W; subst. eauto.
Qed.

Lemma tree_ok_reaches {L} (P : L -> Prop) t p l : tree_ok P t -> reaches t p = Some l -> P l.
Proof.
  revert p. induction t as [x|ty cs IH] using tree_rect'; intros p W H.
  - rewrite reaches_Leaf in H. inversion H; subst. now inversion W.
  - destruct p as [|c p]; simpl in H; [discriminate|].
    destruct (dget cs c) as [x|] eqn:E; [|discriminate]. apply dget_In in E. inversion W; subst. eauto.
Qed.

Lemma Forall2_component_reaches {L} c (l xs : list (tree L)) p os :
  Forall2 (fun t x => component c t = Ok x) l xs ->
  Forall2 (fun t o => reaches t p = Some o) xs os ->
  Forall2 (fun t o => reaches t (c :: p) = Some o) l os.
Proof.
  intros F. revert os. induction F as [|t x l xs E _ IH]; intros os G; inversion G; subst; constructor; auto.
  now rewrite (component_reaches c t x p E).
Qed.

Section Ufunc.
Context {A B : Type} (f : list A -> B).

Lemma leaf_or_node {L} (l : list (tree L)) :
  (exists xs, l = map Leaf xs /\ first_node l = None) \/
  (exists ty cs xs l', l = map Leaf xs ++ Node ty cs :: l' /\ first_node l = Some (ty, cs)).
Proof.
  destruct (first_node l) as [[ty cs]|] eqn:F.
  - right. destruct (first_node_Some l ty cs F) as (xs & l' & E). eauto 6.
  - left. destruct (proj1 (first_node_None l) F) as (xs & E). eauto.
Qed.

(** the leaves of the result *)
Lemma vec_ufunc_rec_leaves fuel : forall inputs r,
  vec_ufunc_rec fuel f inputs = Ok r ->
  forall p o, leaf_at r p = Some o ->
  exists os, Forall2 (fun v x => reaches v p = Some x) inputs os /\ op_ufunc f os = Ok o.
Proof.
  induction fuel as [|fuel IH]; intros inputs r H p o Ho; simpl in H;
    destruct (leaf_or_node inputs) as [(xs & E & F)|(ty & cs & xs & l' & E & F)]; rewrite F in H.
  1,3: apply bind_ok in H; destruct H as (o' & H & H'); inversion H'; subst;
    destruct p; simpl in Ho; [|discriminate]; inversion Ho; subst; exists xs;
    rewrite leaves_of_Leaf in H; split; [|exact H];
    clear; induction xs; simpl; constructor; auto.
  - discriminate.
  - destruct (forallb (accepts ty) inputs); [|discriminate].
    apply bind_ok in H. destruct H as (rs & H & H'). inversion H'; subst r.
    apply on_components_get in H. destruct p as [|c p]; simpl in Ho; [discriminate|].
    assert (D := proj2 H c).
    destruct (dget cs c) as [x|], (dget rs c) as [y|]; try contradiction; try discriminate.
    cbv beta in D. apply bind_ok in D. destruct D as (ins & D1 & D2).
    destruct (IH ins y D2 p o Ho) as (os & G & K). exists os. split; [|exact K].
    apply mapM_ok in D1. eapply Forall2_component_reaches; eauto.
Qed.

(** the vectors of the result *)
Lemma first_some_cons {X} (x : option X) l :
  first_some (x :: l) = match x with Some y => Some y | None => first_some l end.
Proof. destruct x; reflexivity. Qed.

Lemma first_some_None {X Y} (g : Y -> option X) l :
  (forall y, In y l -> g y = None) -> first_some (map g l) = None.
Proof.
  induction l as [|y l IH]; intros H; [reflexivity|]. simpl map. rewrite first_some_cons.
  rewrite (H y) by now left. apply IH. intros; apply H; now right.
Qed.

Lemma first_some_leaves {X} (xs : list (operand A)) l (g : vec A -> option X) :
  (forall x, g (Leaf x) = None) -> first_some (map g (map Leaf xs ++ l)) = first_some (map g l).
Proof.
  intros H. induction xs as [|x xs IH]; [reflexivity|]. simpl map. rewrite first_some_cons, H. exact IH.
Qed.

Lemma alike_components c (l xs : list (vec A)) :
  pairwise_alike l -> Forall2 (fun t x => component c t = Ok x) l xs -> pairwise_alike xs.
Proof.
  intros H F x x' Hx Hx' p ty names ty' names' K K'.
  assert (G : forall x, In x xs -> exists t, In t l /\ component c t = Ok x).
  { clear - F. induction F as [|t0 x0 l xs E0 _ IHF]; intros z Hz; simpl in Hz; [contradiction|].
    destruct Hz as [->|Hz]; [exists t0; split; [now left|exact E0]|].
    destruct (IHF z Hz) as (t & Ht & E). exists t. split; [now right|exact E]. }
  destruct (G x Hx) as (t & Ht & E), (G x' Hx') as (t' & Ht' & E').
  apply (H t t' Ht Ht' (c :: p)).
  - now rewrite (component_kind c t x p E).
  - now rewrite (component_kind c t' x' p E').
Qed.

Lemma vec_ufunc_rec_kinds fuel : forall inputs r,
  vec_ufunc_rec fuel f inputs = Ok r -> pairwise_alike inputs ->
  forall p, kind r p = first_some (map (fun v => kind v p) inputs).
Proof.
  induction fuel as [|fuel IH]; intros inputs r H W p; simpl in H;
    destruct (leaf_or_node inputs) as [(xs & E & F)|(ty & cs & xs & l' & E & F)]; rewrite F in H.
  1,3: apply bind_ok in H; destruct H as (o' & H & H'); inversion H'; subst;
    symmetry; etransitivity; [apply first_some_None|destruct p; reflexivity];
    intros y Hy; apply in_map_iff in Hy; destruct Hy as (z & <- & _); destruct p; reflexivity.
  - discriminate.
  - destruct (forallb (accepts ty) inputs); [|discriminate].
    apply bind_ok in H. destruct H as (rs & H & H'). inversion H'; subst r.
    apply on_components_get in H. destruct p as [|c p].
    + rewrite E, first_some_leaves by reflexivity. simpl.
      unfold first_some; simpl. now rewrite (proj1 H).
    + assert (D := proj2 H c). simpl.
      destruct (dget cs c) as [x|] eqn:Dc, (dget rs c) as [y|]; try contradiction.
      * cbv beta in D. apply bind_ok in D. destruct D as (ins & D1 & D2). apply mapM_ok in D1.
        rewrite (IH ins y D2 (alike_components c inputs ins W D1) p).
        f_equal. clear - D1. induction D1; simpl; [reflexivity|].
        rewrite IHD1. f_equal. symmetry. exact (component_kind c x y p H).
      * symmetry. apply first_some_None. intros v Hv. destruct v as [l|ty' cs']; [reflexivity|]. simpl.
        destruct (dget cs' c) as [x|] eqn:D'; [|reflexivity].
        assert (In (Node ty cs) inputs) by (rewrite E; apply in_or_app; right; now left).
        destruct (W _ _ H0 Hv [] ty (map fst cs) ty' (map fst cs') eq_refl eq_refl) as [_ K].
        apply dget_None in Dc. destruct Dc. apply K. apply dget_In in D'.
        apply in_map_iff. now exists (c, x).
Qed.

(** success *)
Lemma vec_ufunc_rec_total fuel : forall inputs,
  list_max (map depth inputs) <= fuel ->
  Forall vec_wf inputs -> pairwise_alike inputs ->
  (forall p os, Forall2 (fun v x => reaches v p = Some x) inputs os -> ~ conflict (op_shapes os)) ->
  exists r, vec_ufunc_rec fuel f inputs = Ok r.
Proof.
  induction fuel as [|fuel IH]; intros inputs D W Al C; simpl;
    destruct (leaf_or_node inputs) as [(xs & E & F)|(ty & cs & xs & l' & E & F)]; rewrite F.
  1,3: assert (Wx : Forall op_wf xs) by
         (subst; rewrite Forall_map in W; eapply Forall_impl; [|exact W]; intros a Ha; now inversion Ha);
    assert (G : Forall2 (fun v x => reaches v [] = Some x) inputs xs) by
         (subst; clear; induction xs; simpl; constructor; auto);
    specialize (C [] xs G);
    destruct (broadcast_shapes_total (op_shapes xs) (op_shapes_nodup xs Wx)) as [(sh & S)|S];
    [|apply broadcast_shapes_conflict in S; [contradiction|now apply op_shapes_nodup]];
    destruct (op_ufunc_intro f xs sh Wx S) as (o & O); subst; rewrite leaves_of_Leaf, O; simpl; eauto.
  - exfalso. assert (K : depth (Node ty cs) <= list_max (map depth inputs)).
    { apply list_max_In, in_map. rewrite E. apply in_or_app; right; now left. }
    simpl in K. lia.
  - assert (In1 : In (Node ty cs) inputs) by (rewrite E; apply in_or_app; right; now left).
    assert (Ac : forallb (accepts ty) inputs = true).
    { apply forallb_forall. intros [x|ty' cs'] Hx; [reflexivity|]. simpl. apply String.eqb_eq.
      destruct (Al _ _ Hx In1 [] ty' (map fst cs') ty (map fst cs) eq_refl eq_refl). auto. }
    rewrite Ac.
    enough (X : exists rs, on_components (fun c _ => ins <- mapM (component c) inputs ;; vec_ufunc_rec fuel f ins) cs = Ok rs)
      by (destruct X as (rs & X); rewrite X; simpl; eauto).
    apply on_components_intro. intros c x Hc.
    assert (M : exists ins, mapM (component c) inputs = Ok ins).
    { enough (Y : exists ins, Forall2 (fun t x => component c t = Ok x) inputs ins)
        by (destruct Y as (ins & Y); exists ins; now apply mapM_ok_intro).
      assert (Z : forall t, In t inputs -> exists x, component c t = Ok x).
      { intros [l|ty' cs'] Ht; simpl; [eauto|].
        destruct (Al _ _ Ht In1 [] ty' (map fst cs') ty (map fst cs) eq_refl eq_refl) as [_ K].
        assert (In c (map fst cs')) by (apply K, in_map_iff; now exists (c, x)).
        destruct (dget cs' c) as [y|] eqn:Dy; [eauto|]. now apply dget_None in Dy. }
      clear - Z. induction inputs as [|t l IHl]; [exists []; constructor|].
      destruct (Z t (or_introl eq_refl)) as (y & Y). destruct IHl as (ys & Ys); [intros; apply Z; now right|].
      exists (y :: ys). now constructor. }
    destruct M as (ins & M). rewrite M. cbn [bind]. apply mapM_ok in M.
    apply IH.
    + eapply components_depth; eauto.
    + clear - M W. revert W. induction M; intros W; constructor; inversion W; subst; auto.
      eapply component_ok; eauto.
    + eapply alike_components; eauto.
    + intros p os G. apply (C (c :: p)). eapply Forall2_component_reaches; eauto.
Qed.

Lemma op_ufunc_err os e : Forall op_wf os -> op_ufunc f os = Err e ->
  e = ValueError /\ conflict (op_shapes os).
Proof.
  intros W. unfold op_ufunc. destruct (forallb is_num os); [discriminate|]. intros H.
  destruct (array_ufunc f os) as [b|e'] eqn:E; simpl in H; [discriminate|]. inversion H; subst.
  destruct (array_ufunc_err f os e W E) as [S ->]. split; [reflexivity|].
  apply broadcast_shapes_conflict; [now apply op_shapes_nodup|exact S].
Qed.
End Ufunc.

(** ** Theorems about elementwise operations *)

Lemma vec_ufunc_leaves {A B} (f : list A -> B) inputs r :
  Forall vec_wf inputs -> vec_ufunc f inputs = Ok r ->
  forall p o, leaf_at r p = Some o ->
  exists os, Forall2 (fun v x => reaches v p = Some x) inputs os /\ elementwise f os o.
Proof.
  intros W H p o Ho. destruct (vec_ufunc_rec_leaves f _ _ _ H p o Ho) as (os & G & K).
  exists os. split; [exact G|]. apply op_ufunc_spec; [|exact K].
  clear - W G. revert W. induction G; intros W; constructor; inversion W; subst; auto.
  eapply tree_ok_reaches; eauto.
Qed.

Lemma vec_ufunc_success {A B} (f : list A -> B) inputs :
  Forall vec_wf inputs -> pairwise_alike inputs ->
  (forall p os, Forall2 (fun v x => reaches v p = Some x) inputs os -> ~ conflict (op_shapes os)) ->
  exists r, vec_ufunc f inputs = Ok r.
Proof. intros. apply vec_ufunc_rec_total; auto. Qed.

Lemma vec_ufunc_leaf_exists {A B} (f : list A -> B) inputs r :
  vec_ufunc f inputs = Ok r -> pairwise_alike inputs ->
  forall p os, Forall2 (fun v x => reaches v p = Some x) inputs os ->
  (exists v, In v inputs /\ leaf_at v p <> None) -> exists o, leaf_at r p = Some o.
Proof.
  unfold vec_ufunc. generalize (list_max (map depth inputs)). intros fuel. revert inputs r.
  induction fuel as [|fuel IH]; intros inputs r H W p os R (v & Hv & Lv); simpl in H;
    destruct (leaf_or_node inputs) as [(xs & E & F)|(ty & cs & xs & l' & E & F)]; rewrite F in H.
  1,3: subst; apply in_map_iff in Hv; destruct Hv as (z & <- & _); destruct p; simpl in Lv; [|congruence];
    apply bind_ok in H; destruct H as (o & _ & H); inversion H; subst; simpl; eauto.
  - discriminate.
  - destruct (forallb (accepts ty) inputs); [|discriminate].
    apply bind_ok in H. destruct H as (rs & H & H'). inversion H'; subst r.
    apply on_components_get in H. destruct H as [_ H].
    assert (In1 : In (Node ty cs) inputs) by (rewrite E; apply in_or_app; right; now left).
    destruct p as [|c p].
    + exfalso. assert (K : forall l os, Forall2 (fun (v : tree (operand A)) x => reaches v [] = Some x) l os -> ~ In (Node ty cs) l).
      { clear. induction 1 as [|t x l os E _ IH]; [auto|]. intros [-> |Q]; [discriminate|auto]. }
      exact (K _ _ R In1).
    + specialize (H c). simpl.
      assert (Dc : exists x, dget cs c = Some x).
      { assert (K : forall l os, Forall2 (fun (v : tree (operand A)) x => reaches v (c :: p) = Some x) l os ->
                    forall t, In t l -> reaches t (c :: p) <> None).
        { clear. induction 1 as [|t x l os E _ IH]; [intros ? []|]. intros t' [<- |Q]; [congruence|auto]. }
        specialize (K _ _ R _ In1). simpl in K. destruct (dget cs c); [eauto|congruence]. }
      destruct Dc as (x & Dc). rewrite Dc in H. destruct (dget rs c) as [y|]; [|contradiction].
      apply bind_ok in H. destruct H as (ins & M & H). apply mapM_ok in M.
      apply (IH ins y H (alike_components c inputs ins W M) p os).
      * clear - M R. revert os R. induction M as [|t x l xs E _ IH]; intros os R; inversion R; subst; constructor; auto.
        now rewrite <- (component_reaches c t x p E).
      * clear - M Hv Lv. induction M as [|t x l xs E _ IH]; [contradiction|].
        destruct Hv as [<- |Hv].
        -- exists x. split; [now left|]. destruct t as [?|? cs']; simpl in *; [congruence|].
           destruct (dget cs' c); [now inversion E; subst|discriminate].
        -- destruct (IH Hv) as (z & Hz & Lz). exists z. split; [now right|exact Lz].
Qed.

Lemma vec_ufunc_type_error {A B} (f : list A -> B) inputs ty cs ty' cs' :
  In (Node ty cs) inputs -> In (Node ty' cs') inputs -> ty <> ty' ->
  vec_ufunc f inputs = Err TypeError.
Proof.
  intros H H' N. unfold vec_ufunc.
  destruct (leaf_or_node inputs) as [(xs & E & F)|(ty1 & cs1 & xs & l' & E & F)].
  - subst. apply in_map_iff in H. destruct H as (? & ? & _). discriminate.
  - assert (K : forallb (accepts ty1) inputs = false).
    { apply not_true_is_false. intros K. rewrite forallb_forall in K.
      apply K in H, H'. simpl in H, H'. apply String.eqb_eq in H, H'. congruence. }
    destruct (list_max (map depth inputs)); simpl; rewrite F; [reflexivity|]. now rewrite K.
Qed.

(** ** Shape *)

Lemma same_outcome_refl r : match r with Ok _ => True | Err _ => True end -> same_outcome r r.
Proof. destruct r; simpl; auto. intros _ ax n. tauto. Qed.

Lemma same_outcome_trans a b c : same_outcome a b -> same_outcome b c -> same_outcome a c.
Proof.
  destruct a, b, c; simpl; try contradiction; try congruence.
  intros H H' ax n. now rewrite (H ax n).
Qed.

Lemma same_outcome_sym a b : same_outcome a b -> same_outcome b a.
Proof. destruct a, b; simpl; try contradiction; try congruence. intros H ax n. now rewrite (H ax n). Qed.

Lemma vec_shape_NoDup {A} (v : vec A) sh : vec_wf v -> vec_shape v = Ok sh -> NoDup (dkeys sh).
Proof.
  revert sh. induction v as [o|ty cs IH] using tree_rect'; intros sh W H; simpl in H.
  - inversion W; subst. destruct o; inversion H; subst; [now apply wf_nodup|constructor].
  - apply bind_ok in H. destruct H as (l & T & H). rewrite traverse_mapM in T. apply mapM_ok in T.
    assert (F : Forall (fun s => NoDup (dkeys s)) l).
    { apply Forall_forall. intros s Hs. inversion W; subst.
      assert (X : exists kv, In kv cs /\ vec_shape (snd kv) = Ok s).
      { clear - T Hs. induction T as [|kv s' cs l E _ IH]; [contradiction|]. destruct Hs as [-> |Hs].
        - exists kv. split; [now left|exact E].
        - destruct (IH Hs) as (kv' & ? & ?). exists kv'. split; [now right|auto]. }
      destruct X as ([c x] & Hx & E). simpl in E. eapply IH; [exact Hx| |exact E]. unfold vec_wf; eauto. }
    exact (proj1 (broadcast_shapes_ok l sh F H)).
Qed.

Lemma leaf_shapes_NoDup {A} (v : vec A) :
  vec_wf v -> Forall (fun s => NoDup (dkeys s)) (map op_shape (leaves v)).
Proof.
  induction v as [o|ty cs IH] using tree_rect'; intros W; inversion W; subst.
  - simpl. constructor; [|constructor]. destruct o; simpl; [now apply wf_nodup|constructor].
  - simpl. apply Forall_forall. intros s Hs. apply in_map_iff in Hs. destruct Hs as (o & <- & Ho).
    apply in_flat_map in Ho. destruct Ho as ([c x] & Hx & Ho). simpl in Ho.
    specialize (IH c x Hx (H2 c x Hx)). rewrite Forall_forall in IH. apply IH. now apply in_map.
Qed.

Lemma map_flat_map {X Y Z} (g : Y -> Z) (h : X -> list Y) l :
  map g (flat_map h l) = concat (map (fun x => map g (h x)) l).
Proof. induction l as [|x l IH]; simpl; [reflexivity|]. now rewrite map_app, IH. Qed.

Lemma vec_shape_leaves {A} (v : vec A) :
  vec_wf v -> same_outcome (vec_shape v) (broadcast_shapes (map op_shape (leaves v))).
Proof.
  induction v as [o|ty cs IH] using tree_rect'; intros W.
  - inversion W; subst.
    assert (N : NoDup (dkeys (op_shape o))) by (destruct o; simpl; [now apply wf_nodup|constructor]).
    replace (vec_shape (Leaf o)) with (Ok (op_shape o)) by (destruct o; reflexivity).
    simpl leaves. simpl map.
    assert (E : broadcast_shapes [op_shape o] = Ok (op_shape o)).
    { rewrite broadcast_shapes_entries by (repeat constructor; exact N).
      simpl concat. rewrite app_nil_r. now apply bs_first. }
    rewrite E. simpl. intros ax n. tauto.
  - inversion W as [|? ? N W']; subst. cbn [vec_shape leaves].
    rewrite traverse_mapM, map_flat_map.
    set (ls := map (fun kv : string * tree (operand A) => map op_shape (leaves (snd kv))) cs).
    assert (NF : Forall (Forall (fun s => NoDup (dkeys s))) ls).
    { apply Forall_forall. intros l Hl. apply in_map_iff in Hl. destruct Hl as ([c x] & <- & Hx).
      apply leaf_shapes_NoDup. exact (W' c x Hx). }
    assert (NC : Forall (fun s : shape => NoDup (dkeys s)) (concat ls)).
    { apply Forall_concat. exact NF. }
    destruct (mapM (fun kv => vec_shape (snd kv)) cs) as [shs|e] eqn:M.
    + cbn [bind]. apply mapM_ok in M.
      assert (X : exists rs, Forall2 (fun l r => broadcast_shapes l = Ok r) ls rs /\
                             Forall2 same_shape shs rs).
      { clear - M IH W'. subst ls. revert IH W'. induction M as [|[c x] sh cs shs E _ IHM]; intros IH W'.
        - exists []. split; constructor.
        - simpl in E. assert (Q := IH c x (or_introl eq_refl) (W' c x (or_introl eq_refl))).
          rewrite E in Q. destruct IHM as (rs & R1 & R2).
          { intros c' x' H'. apply (IH c' x'). now right. }
          { intros c' x' H'. apply (W' c' x'). now right. }
          destruct (broadcast_shapes (map op_shape (leaves x))) as [r|] eqn:Er; [|contradiction].
          exists (r :: rs). split; constructor; auto. }
      destruct X as (rs & R1 & R2).
      apply same_outcome_trans with (broadcast_shapes rs).
      * assert (N1 : Forall (fun s => NoDup (dkeys s)) shs).
        { clear - M W'. revert W'. induction M as [|[c x] sh cs shs E _ IHM]; intros W'; constructor.
          - eapply vec_shape_NoDup; [|exact E]. apply (W' c x). now left.
          - apply IHM. intros c' x' H'. apply (W' c' x'). now right. }
        assert (N2 : Forall (fun s => NoDup (dkeys s)) rs).
        { clear - R1 NF. revert NF. induction R1 as [|l r ls rs E _ IHR]; intros NF; constructor; inversion NF; subst; auto.
          eapply broadcast_shapes_ok; eauto. }
        assert (Q := broadcast_shapes_same shs rs R2 N1 N2).
        unfold same_outcome. exact Q.
      * apply same_outcome_sym. now apply broadcast_shapes_groups.
    + cbn [bind].
      assert (X : exists l, In l ls /\ broadcast_shapes l = Err ValueError /\ e = ValueError).
      { clear - M IH W'. subst ls. revert M IH W'. induction cs as [|[c x] cs IHc]; intros M IH W'; simpl in M; [discriminate|].
        assert (Q := IH c x (or_introl eq_refl) (W' c x (or_introl eq_refl))).
        destruct (vec_shape x) as [sh|e'] eqn:E.
        - simpl in M. destruct (mapM (fun kv => vec_shape (snd kv)) cs) as [?|e''] eqn:M'; simpl in M; [discriminate|].
          inversion M; subst. destruct IHc as (l & Hl & E1 & E2); auto.
          { intros c' x' H'. apply (IH c' x'). now right. }
          { intros c' x' H'. apply (W' c' x'). now right. }
          exists l. split; [now right|auto].
        - simpl in M. inversion M; subst. exists (map op_shape (leaves x)). split; [now left|].
          destruct (broadcast_shapes (map op_shape (leaves x))) as [|e1] eqn:E1; [contradiction|]. simpl in Q. subst e1.
          destruct (broadcast_shapes_total (map op_shape (leaves x))) as [(r & R)|R];
            [apply leaf_shapes_NoDup; exact (W' c x (or_introl eq_refl))|congruence|]. split; congruence. }
      destruct X as (l & Hl & E1 & ->).
      assert (Q := broadcast_shapes_group_err ls l NF Hl E1).
      match goal with |- same_outcome _ ?r => replace r with (@Err shape ValueError) by (symmetry; exact Q) end.
      reflexivity.
Qed.

(** ** Indexing *)

Lemma component_items_ok {L} c (it it' : dict (tree L)) :
  component_items c it = Ok it' ->
  Forall2 (fun kv ki => fst ki = fst kv /\ component c (snd kv) = Ok (snd ki)) it it'.
Proof.
  unfold component_items. intros H. apply mapM_ok in H.
  induction H as [|kv ki it it' E _ IH]; constructor; auto.
  apply bind_ok in E. destruct E as (x & E & E'). inversion E'; subst. simpl. auto.
Qed.

Lemma component_items_intro {L} c (it : dict (tree L)) :
  (forall kv, In kv it -> exists x, component c (snd kv) = Ok x) -> exists it', component_items c it = Ok it'.
Proof.
  unfold component_items. induction it as [|kv it IH]; intros H; simpl; [eauto|].
  destruct (H kv (or_introl eq_refl)) as (x & E). rewrite E. cbn [bind].
  destruct IH as (it' & E'); [intros; apply H; now right|]. rewrite E'. simpl. eauto.
Qed.

Lemma items_at_component {L} c (it it' : dict (tree L)) p d :
  Forall2 (fun kv ki => fst ki = fst kv /\ component c (snd kv) = Ok (snd ki)) it it' ->
  items_at it' p d -> items_at it (c :: p) d.
Proof.
  intros F. revert d. induction F as [|kv ki it it' [K E] _ IH]; intros d H; inversion H; subst; constructor.
  - destruct H2 as [K2 R]. split; [congruence|]. now rewrite (component_reaches c (snd kv) (snd ki) p E).
  - now apply IH.
Qed.

Lemma filter_Forall2 {X Y} (R : X -> Y -> Prop) (g : X -> bool) (h : Y -> bool) l l' :
  (forall x y, R x y -> g x = h y) -> Forall2 R l l' -> Forall2 R (filter g l) (filter h l').
Proof.
  intros G. induction 1 as [|x y l l' H _ IH]; simpl; [constructor|].
  rewrite <- (G x y H). destruct (g x); auto.
Qed.

Lemma leaf_items_at {L} (it : dict (tree L)) xs :
  map snd it = map Leaf xs -> leaf_items it = combine (dkeys it) xs /\ items_at it [] (leaf_items it).
Proof.
  revert xs. induction it as [|[k t] it IH]; intros [|x xs] H; simpl in H; try discriminate.
  - split; [reflexivity|constructor].
  - inversion H; subst. destruct (IH xs H2) as [E I].
    change (leaf_items ((k, Leaf x) :: it)) with ((k, x) :: leaf_items it). split.
    + simpl. now rewrite E.
    + constructor; [split; reflexivity|exact I].
Qed.

Lemma getitem_filter {A} (a : sarr A) it :
  getitem a (filter (fun kv => smem (fst kv) (s_axes a)) it) = getitem a it.
Proof.
  unfold getitem. rewrite filter_filter.
  replace (filter (fun x : string * item => smem (fst x) (s_axes a) && smem (fst x) (s_axes a)) it)
    with (filter (fun kv : string * item => smem (fst kv) (s_axes a)) it); [reflexivity|].
  apply filter_ext. intros kv. now destruct (smem (fst kv) (s_axes a)).
Qed.

(** a scalar array, possibly indexed by vectors of indices *)
Lemma vec_getitem_rec_scalar {A} (a : sarr A) fuel : forall it r,
  vec_getitem_rec fuel (Leaf (OpArr a)) it = Ok r ->
  forall p o, leaf_at r p = Some o ->
  exists d b, items_at (filter (fun kv => smem (fst kv) (s_axes a)) it) p d /\
              getitem a d = Ok b /\ o = OpArr b.
Proof.
  induction fuel as [|fuel IH]; intros it r H p o Ho; cbn [vec_getitem_rec] in H;
    set (here := filter (fun kv => smem (fst kv) (s_axes a)) it) in *;
    (destruct (first_node (map snd here)) as [q|] eqn:F;
     [|apply first_node_None in F; destruct F as (xs & F);
       apply bind_ok in H; destruct H as (b & G & H); inversion H; subst r;
       destruct p; simpl in Ho; [|discriminate]; inversion Ho; subst o;
       exists (leaf_items here), b; split; [exact (proj2 (leaf_items_at here xs F))|auto]]);
    destruct (first_node (map snd it)) as [[ty cs]|]; try discriminate;
    destruct (forallb (accepts ty) (map snd it)); try discriminate.
  apply bind_ok in H. destruct H as (rs & H & H'). inversion H'; subst r.
  apply on_components_get in H. destruct H as [_ H]. destruct p as [|c p]; simpl in Ho; [discriminate|].
  specialize (H c).
  assert (D : dget (map (fun kv : string * tree item => (fst kv, Leaf (OpArr a))) cs) c
              = option_map (fun _ => Leaf (OpArr a)) (dget cs c)).
  { clear. induction cs as [|[k t] cs IH]; simpl; [reflexivity|]. destruct (String.eqb c k); [reflexivity|exact IH]. }
  rewrite D in H. destruct (dget cs c) as [t|], (dget rs c) as [y|]; simpl in H; try contradiction; try discriminate.
  apply bind_ok in H. destruct H as (it_c & E & H).
  destruct (IH it_c y H p o Ho) as (d & b & I & G & Eo). exists d, b. split; [|auto].
  eapply items_at_component; [|exact I].
  apply component_items_ok in E. apply filter_Forall2; [|exact E].
  intros kv ki [K _]. now rewrite K.
Qed.

Lemma vec_getitem_scalar {A} (a : sarr A) it r :
  vec_getitem (Leaf (OpArr a)) it = Ok r ->
  forall p o, leaf_at r p = Some o ->
  exists d b, items_at (filter (fun kv => smem (fst kv) (s_axes a)) it) p d /\
              getitem a d = Ok b /\ o = OpArr b.
Proof. apply vec_getitem_rec_scalar. Qed.

(** the items suit the vector: vectors of indices have the type of what they
    index, and reach every leaf *)
Lemma items_suit_component {A} ty cs c (x : vec A) (it it' : dict (tree item)) :
  dget cs c = Some x -> items_suit (Node ty cs) it ->
  Forall2 (fun kv ki => fst ki = fst kv /\ component c (snd kv) = Ok (snd ki)) it it' ->
  items_suit x it'.
Proof.
  intros D S F ki Hki.
  assert (X : exists kv, In kv it /\ component c (snd kv) = Ok (snd ki)).
  { clear - F Hki. induction F as [|kv k it it' [K E] _ IH]; [contradiction|]. destruct Hki as [-> |Hki].
    - exists kv. split; [now left|exact E].
    - destruct (IH Hki) as (kv' & ? & ?). exists kv'. split; [now right|auto]. }
  destruct X as (kv & Hkv & E). destruct (S kv Hkv) as [Al R]. split.
  - intros p ty1 n1 ty2 n2 K1 K2. apply (Al (c :: p)).
    + simpl. now rewrite D.
    + now rewrite (component_kind c (snd kv) (snd ki) p E).
  - intros p Hp. rewrite <- (component_reaches c (snd kv) (snd ki) p E). apply R. simpl. now rewrite D.
Qed.

Lemma items_suit_accepts {A} ty (cs : list (string * vec A)) (it : dict (tree item)) :
  items_suit (Node ty cs) it -> forallb (accepts ty) (map snd it) = true.
Proof.
  intros S. apply forallb_forall. intros t Ht. apply in_map_iff in Ht. destruct Ht as (kv & <- & Hkv).
  destruct (S kv Hkv) as [Al _]. destruct (snd kv) as [x|ty' cs'] eqn:E; [reflexivity|]. simpl.
  apply String.eqb_eq. destruct (Al [] ty (map fst cs) ty' (map fst cs') eq_refl eq_refl). auto.
Qed.

Lemma items_suit_leaf {A} (o : operand A) (it : dict (tree item)) :
  items_suit (Leaf o) it -> exists xs, map snd it = map Leaf xs.
Proof.
  intros S. induction it as [|kv it IH]; [exists []; reflexivity|].
  destruct IH as (xs & E); [intros kv' H; apply S; now right|].
  destruct (S kv (or_introl eq_refl)) as [_ R]. specialize (R []). simpl in R.
  destruct (snd kv) as [x|ty cs] eqn:Q; [|exfalso; apply R; [discriminate|reflexivity]].
  exists (x :: xs). simpl. now rewrite Q, E.
Qed.

Lemma map_snd_filter_leaf {L} (g : string * tree L -> bool) (it : dict (tree L)) xs :
  map snd it = map Leaf xs -> exists ys, map snd (filter g it) = map Leaf ys.
Proof.
  revert xs. induction it as [|kv it IH]; intros [|x xs] H; simpl in H; try discriminate.
  - exists []. reflexivity.
  - inversion H. destruct (IH xs H2) as (ys & E). simpl. destruct (g kv); [|eauto].
    exists (x :: ys). simpl. now rewrite H1, E.
Qed.

Lemma leaf_items_filter {L} (g : string -> bool) (it : dict (tree L)) :
  leaf_items (filter (fun kv => g (fst kv)) it) = filter (fun kv => g (fst kv)) (leaf_items it).
Proof.
  induction it as [|[k t] it IH]; [reflexivity|]. unfold leaf_items in *. simpl.
  destruct t as [x|ty cs]; simpl; destruct (g k) eqn:G; simpl; rewrite ?IH; auto.
Qed.

Lemma vec_getitem_rec_spec {A} fuel : forall (v : vec A) it r,
  items_suit v it -> vec_getitem_rec fuel v it = Ok r ->
  (forall p, kind r p = kind v p) /\ indexed v r it.
Proof.
  induction fuel as [|fuel IH]; intros v it r S H; cbn [vec_getitem_rec] in H;
    destruct v as [[a|x]|ty cs].
  1,4: destruct (items_suit_leaf _ _ S) as (xs & X);
    destruct (map_snd_filter_leaf (fun kv => smem (fst kv) (s_axes a)) it xs X) as (ys & Y);
    rewrite (proj2 (first_node_None _) (ex_intro _ ys Y)) in H;
    apply bind_ok in H; destruct H as (b & G & H); inversion H; subst r;
    rewrite (leaf_items_filter (fun k => smem k (s_axes a))), getitem_filter in G;
    (split; [intros [|c p]; reflexivity|]); intros [|c p]; simpl;
    [exists (leaf_items it), b; split; [exact (proj2 (leaf_items_at it xs X))|auto]|reflexivity].
  1,3: inversion H; subst r; split; [reflexivity|]; intros [|c p]; reflexivity.
  - rewrite (items_suit_accepts ty cs it S) in H. discriminate.
  - rewrite (items_suit_accepts ty cs it S) in H. apply bind_ok in H. destruct H as (rs & H & H').
    inversion H'; subst r. apply on_components_get in H. destruct H as [N H].
    assert (K : forall c x y, dget cs c = Some x -> dget rs c = Some y ->
                exists it_c, Forall2 (fun kv ki => fst ki = fst kv /\ component c (snd kv) = Ok (snd ki)) it it_c /\
                  (forall p, kind y p = kind x p) /\ indexed x y it_c).
    { intros c x y Dx Dy. specialize (H c). rewrite Dx, Dy in H. apply bind_ok in H.
      destruct H as (it_c & E & H). apply component_items_ok in E. exists it_c. split; [exact E|].
      apply (IH x it_c y); [|exact H]. eapply items_suit_component; eauto. }
    split.
    + intros [|c p]; simpl; [now rewrite N|]. specialize (H c).
      destruct (dget cs c) as [x|] eqn:Dx, (dget rs c) as [y|] eqn:Dy; try contradiction; [|reflexivity].
      destruct (K c x y Dx Dy) as (it_c & _ & Q & _). apply Q.
    + intros [|c p]; simpl; [reflexivity|]. specialize (H c).
      destruct (dget cs c) as [x|] eqn:Dx, (dget rs c) as [y|] eqn:Dy; try contradiction; [|reflexivity].
      destruct (K c x y Dx Dy) as (it_c & E & _ & Q). specialize (Q p).
      destruct (leaf_at x p) as [[a|z]|]; auto.
      destruct Q as (d & b & I & G & Lb). exists d, b. split; [|auto]. eapply items_at_component; eauto.
Qed.

Lemma vec_getitem_spec {A} (v : vec A) it r :
  items_suit v it -> vec_getitem v it = Ok r ->
  (forall p, kind r p = kind v p) /\ indexed v r it.
Proof. apply vec_getitem_rec_spec. Qed.

Lemma items_at_det {L} (it : dict (tree L)) p d d' : items_at it p d -> items_at it p d' -> d = d'.
Proof.
  intros H. revert d'. induction H as [|kv ki it d [K R] _ IH]; intros d' H'; inversion H'; subst; [reflexivity|].
  destruct H1 as [K' R']. destruct ki, y. simpl in *. subst. rewrite R in R'. inversion R'; subst.
  f_equal. auto.
Qed.

Lemma component_exists {A} ty (cs : list (string * vec A)) c x (it : dict (tree item)) :
  In (c, x) cs -> items_suit (Node ty cs) it -> forall kv, In kv it -> exists y, component c (snd kv) = Ok y.
Proof.
  intros Hc S kv Hkv. destruct (S kv Hkv) as [Al _]. destruct (snd kv) as [l|ty' cs'] eqn:E; simpl; [eauto|].
  destruct (Al [] ty (map fst cs) ty' (map fst cs') eq_refl eq_refl) as [_ K].
  assert (In c (map fst cs')) by (apply K, in_map_iff; now exists (c, x)).
  destruct (dget cs' c) as [y|] eqn:Dy; [eauto|]. now apply dget_None in Dy.
Qed.

Lemma vec_getitem_rec_total {A} fuel : forall (v : vec A) it,
  depth v <= fuel -> vec_wf v -> items_suit v it ->
  (forall p a d, leaf_at v p = Some (OpArr a) -> items_at it p d -> exists b, getitem a d = Ok b) ->
  exists r, vec_getitem_rec fuel v it = Ok r.
Proof.
  induction fuel as [|fuel IH]; intros v it D W S G; cbn [vec_getitem_rec]; destruct v as [[a|x]|ty cs]; eauto.
  1,3: destruct (items_suit_leaf _ _ S) as (xs & X);
    destruct (map_snd_filter_leaf (fun kv => smem (fst kv) (s_axes a)) it xs X) as (ys & Y);
    rewrite (proj2 (first_node_None _) (ex_intro _ ys Y)),
      (leaf_items_filter (fun k => smem k (s_axes a))), getitem_filter;
    destruct (G [] a (leaf_items it) eq_refl (proj2 (leaf_items_at it xs X))) as (b & E); rewrite E; simpl; eauto.
  - simpl in D. lia.
  - rewrite (items_suit_accepts ty cs it S).
    enough (X : exists rs, on_components (fun c x => it_c <- component_items c it ;; vec_getitem_rec fuel x it_c) cs = Ok rs)
      by (destruct X as (rs & X); rewrite X; simpl; eauto).
    inversion W as [|? ? N W']; subst.
    apply on_components_intro. intros c x Hc.
    destruct (component_items_intro c it (component_exists ty cs c x it Hc S)) as (it_c & E).
    rewrite E. cbn [bind]. apply component_items_ok in E.
    assert (Dc : dget cs c = Some x) by (apply dget_NoDup; auto).
    apply IH.
    + assert (K := depth_In ty cs c x Hc). lia.
    + exact (W' c x Hc).
    + eapply items_suit_component; eauto.
    + intros p a d Hp Hd. apply (G (c :: p) a d).
      * simpl. now rewrite Dc.
      * eapply items_at_component; eauto.
Qed.

Lemma vec_getitem_success {A} (v : vec A) it :
  vec_wf v -> items_suit v it ->
  (forall p a d, leaf_at v p = Some (OpArr a) -> items_at it p d -> exists b, getitem a d = Ok b) ->
  exists r, vec_getitem v it = Ok r.
Proof. intros. apply vec_getitem_rec_total; auto. lia. Qed.
