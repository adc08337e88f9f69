(** Facts about masks and assignment. *)
From Coq Require Import String List Arith ZArith Bool Lia Permutation Sorted.
From Verif Require Import Base BaseFacts Numpy NumpyFacts Shapes Scalar Spec ShapesFacts AlignFacts GetitemFacts.
Import ListNotations.
Open Scope nat_scope.
Open Scope list_scope.

(** *** row-major order *)

Lemma lex_lt_cons x i y j : lex_lt (x :: i) (y :: j) <-> x < y \/ (x = y /\ lex_lt i j).
Proof. reflexivity. Qed.

Lemma lex_lt_irrefl i : ~ lex_lt i i.
Proof. induction i; simpl; auto. intros [H|[_ H]]; auto. lia. Qed.

Lemma StronglySorted_app {A} (R : A -> A -> Prop) l1 l2 :
  StronglySorted R l1 -> StronglySorted R l2 -> (forall x y, In x l1 -> In y l2 -> R x y) ->
  StronglySorted R (l1 ++ l2).
Proof.
  induction l1 as [|x l1 IH]; simpl; auto. intros H1 H2 H. inversion H1; subst. constructor.
  - apply IH; auto.
  - apply Forall_app. split; auto. apply Forall_forall. auto.
Qed.

Lemma StronglySorted_filter {A} (R : A -> A -> Prop) f l :
  StronglySorted R l -> StronglySorted R (filter f l).
Proof.
  induction l as [|x l IH]; simpl; auto. intros H. inversion H; subst.
  destruct (f x); auto. constructor; auto. apply Forall_forall. intros y Hy.
  apply filter_In in Hy as [Hy _]. rewrite Forall_forall in H3. auto.
Qed.

Lemma StronglySorted_map {A B} (R : A -> A -> Prop) (S : B -> B -> Prop) (f : A -> B) l :
  (forall x y, R x y -> S (f x) (f y)) -> StronglySorted R l -> StronglySorted S (map f l).
Proof.
  intros H. induction l as [|x l IH]; simpl; intros G; [constructor|]. inversion G; subst.
  constructor; auto. apply Forall_map. eapply Forall_impl; [|exact H3]. auto.
Qed.

Lemma ndindex_sorted sh : StronglySorted lex_lt (ndindex sh).
Proof.
  induction sh as [|n sh IH]; simpl; [repeat constructor|].
  generalize 0 at 1. induction n as [|n IHn]; intros s; simpl; [constructor|].
  apply StronglySorted_app; auto.
  - eapply StronglySorted_map; [|exact IH]. intros x y H. simpl. auto.
  - intros x y Hx Hy. apply in_map_iff in Hx as [i [<- Hi]].
    apply in_flat_map in Hy as [k [Hk Hy]]. apply in_map_iff in Hy as [j [<- Hj]].
    apply in_seq in Hk. simpl. left. lia.
Qed.

(** the list of the true positions is unique *)
Lemma sorted_lex_unique l l' :
  StronglySorted lex_lt l -> StronglySorted lex_lt l' -> (forall x, In x l <-> In x l') ->
  (forall x, In x l -> forall y, In y l -> lex_lt x y -> ~ lex_lt y x) -> l = l'.
Proof.
  revert l'. induction l as [|x l IH]; intros l' H1 H2 E AS.
  - destruct l' as [|y l']; auto. exfalso. apply (proj2 (E y)). left; auto.
  - destruct l' as [|y l']; [exfalso; apply (proj1 (E x)); left; auto|].
    inversion H1; subst. inversion H2; subst.
    rewrite Forall_forall in H4, H6.
    assert (x = y).
    { destruct (proj1 (E x) (or_introl eq_refl)) as [|Hx]; auto.
      destruct (proj2 (E y) (or_introl eq_refl)) as [|Hy]; auto.
      exfalso. apply (AS x (or_introl eq_refl) y (or_intror Hy)); auto. }
    subst y. f_equal. apply IH; auto.
    + intros z. split; intros Hz.
      * destruct (proj1 (E z) (or_intror Hz)) as [<-|]; auto. exfalso. apply (lex_lt_irrefl x); auto.
      * destruct (proj2 (E z) (or_intror Hz)) as [<-|]; auto. exfalso. apply (lex_lt_irrefl x); auto.
    + intros; apply AS; simpl; auto.
Qed.

Lemma StronglySorted_NoDup l : StronglySorted lex_lt l -> NoDup l.
Proof.
  induction 1; constructor; auto. rewrite Forall_forall in H0. intros Hin.
  apply (lex_lt_irrefl a); auto.
Qed.

(** *** moving the first dimension to the end *)

Lemma move_first_last {A} (a : nd A) n sh :
  nshape a = n :: sh ->
  nshape (moveaxis [0] [ndim a - 1] a) = sh ++ [n] /\
  forall j idx, length idx = length sh ->
    nget (moveaxis [0] [ndim a - 1] a) (idx ++ [j]) = nget a (j :: idx).
Proof.
  intros S. assert (Nd : ndim a = 1 + length sh) by (unfold ndim; rewrite S; auto).
  assert (O : moveaxis_order (ndim a) [0] [ndim a - 1] = seq 1 (length sh) ++ [0]).
  { replace [ndim a - 1] with (seq (ndim a - length [0]) (length [0])) by reflexivity.
    rewrite moveaxis_order_back.
    - f_equal. rewrite Nd. simpl. apply filter_all. intros x Hx. apply in_seq in Hx.
      destruct x; simpl; auto. lia.
    - repeat constructor; simpl; intuition.
    - repeat constructor. lia. }
  unfold moveaxis. rewrite O. split.
  - rewrite transpose_shape, map_app, S. simpl. f_equal.
    rewrite <- seq_shift, map_map. simpl. apply map_nth_seq.
  - intros j idx L.
    assert (P : Permutation (seq 1 (length sh) ++ [0]) (seq 0 (ndim a))).
    { rewrite Nd. simpl. symmetry. apply Permutation_cons_append. }
    replace (idx ++ [j]) with (map (fun i => nth i (j :: idx) 0) (seq 1 (length sh) ++ [0])).
    + rewrite transpose_read by auto. f_equal. rewrite Nd, <- L.
      change (1 + length idx) with (length (j :: idx)). apply map_nth_seq.
    + rewrite map_app. simpl. f_equal. rewrite <- seq_shift, map_map. simpl.
      rewrite <- L. apply map_nth_seq.
Qed.

(** *** assignment through a view *)

Lemma idx_eqb_true i j : idx_eqb i j = true <-> i = j.
Proof. unfold idx_eqb. destruct (list_eq_dec _ i j); split; congruence. Qed.

Lemma writes_shape {A} (l : list (list nat)) (f : list nat -> list nat) (g : list nat -> A) (base : nd A) :
  nshape (fold_left (fun b p => upd b (f p) (g p)) l base) = nshape base.
Proof. revert base; induction l; simpl; intros; auto. rewrite IHl. reflexivity. Qed.

Lemma writes_spec {A} (l : list (list nat)) (f : list nat -> list nat) (g : list nat -> A) (base : nd A) j :
  let r := fold_left (fun b p => upd b (f p) (g p)) l base in
  (exists p, In p l /\ f p = j /\ nget r j = g p) \/
  ((forall p, In p l -> f p <> j) /\ nget r j = nget base j).
Proof.
  revert base. induction l as [|p l IH] using rev_ind; simpl; intros base; [right; auto|].
  rewrite fold_left_app. simpl. destruct (idx_eqb j (f p)) eqn:E.
  - apply idx_eqb_true in E. left. exists p. rewrite in_app_iff. simpl. rewrite <- E.
    repeat split; auto.
  - destruct (IH base) as [[q (H1 & H2 & H3)]|[H1 H2]].
    + left. exists q. rewrite in_app_iff. auto.
    + right. split; auto. intros q Hq. apply in_app_iff in Hq as [Hq|[<-|[]]]; auto.
      intros <-. assert (idx_eqb (f p) (f p) = true) by now apply idx_eqb_true. congruence.
Qed.

Lemma strip_leading_0 s : strip_leading s 0 = Some s.
Proof. destruct s; reflexivity. Qed.

Lemma assign_ok {A} (base : nd A) view value r :
  ndim value <= ndim view ->
  assign base view value = Ok r ->
  bto_rev (rev (nshape value)) (rev (nshape view)) = true /\ nshape r = nshape base /\
  forall j, (exists p, inb p (nshape view) /\ nget view p = j /\ nget r j = bget value p) \/
            ((forall p, inb p (nshape view) -> nget view p <> j) /\ nget r j = nget base j).
Proof.
  intros L H. unfold assign in H. replace (ndim value - ndim view) with 0 in H by lia. rewrite strip_leading_0 in H. simpl in H.
  destruct (bto_rev _ _); [|discriminate]. injection H as <-. split; auto. split.
  - apply (writes_shape (ndindex (nshape view)) (nget view) (fun p => nget value (bidx (nshape value) p))).
  - intros j.
    destruct (writes_spec (ndindex (nshape view)) (nget view) (fun p => nget value (bidx (nshape value) p)) base j)
      as [[p (H1 & H2 & H3)]|[H1 H2]].
    + left. exists p. apply ndindex_In in H1. auto.
    + right. split; auto. intros p Hp. apply H1. now apply ndindex_In.
Qed.

Lemma assign_intro {A} (base : nd A) view value :
  ndim value <= ndim view ->
  bto_rev (rev (nshape value)) (rev (nshape view)) = true ->
  exists r, assign base view value = Ok r.
Proof.
  intros L H. unfold assign. replace (ndim value - ndim view) with 0 by lia. rewrite strip_leading_0. simpl. rewrite H. eauto.
Qed.

(** Of several positions that write to the same element, the last one in
    row-major order counts. *)
Lemma writes_last {A} (l : list (list nat)) (f : list nat -> list nat) (g : list nat -> A) (base : nd A) j :
  let r := fold_left (fun b p => upd b (f p) (g p)) l base in
  (exists l1 p l2, l = l1 ++ p :: l2 /\ f p = j /\ nget r j = g p /\ forall q, In q l2 -> f q <> j) \/
  ((forall p, In p l -> f p <> j) /\ nget r j = nget base j).
Proof.
  revert base. induction l as [|p l IH] using rev_ind; simpl; intros base; [right; auto|].
  rewrite fold_left_app. simpl. destruct (idx_eqb j (f p)) eqn:E.
  - apply idx_eqb_true in E. left. exists l, p, []. rewrite <- E. repeat split; auto.
  - assert (NE : f p <> j).
    { intros <-. assert (idx_eqb (f p) (f p) = true) by now apply idx_eqb_true. congruence. }
    destruct (IH base) as [(l1 & q & l2 & H1 & H2 & H3 & H4)|[H1 H2]].
    + left. exists l1, q, (l2 ++ [p]). split; [now rewrite H1, <- app_assoc|]. split; auto. split; auto.
      intros x Hx. apply in_app_iff in Hx as [Hx|[<-|[]]]; auto.
    + right. split; auto. intros q Hq. apply in_app_iff in Hq as [Hq|[<-|[]]]; auto.
Qed.

Lemma assign_last {A} (base : nd A) view value r :
  ndim value <= ndim view ->
  assign base view value = Ok r ->
  nshape r = nshape base /\
  forall j, (exists p, inb p (nshape view) /\ nget view p = j /\ nget r j = bget value p /\
               forall q, inb q (nshape view) -> nget view q = j -> q = p \/ lex_lt q p) \/
            ((forall p, inb p (nshape view) -> nget view p <> j) /\ nget r j = nget base j).
Proof.
  intros L H. split; [now apply (assign_ok _ _ _ _ L H)|].
  unfold assign in H. replace (ndim value - ndim view) with 0 in H by lia. rewrite strip_leading_0 in H. simpl in H.
  destruct (bto_rev _ _); [|discriminate]. injection H as <-. intros j.
  destruct (writes_last (ndindex (nshape view)) (nget view) (fun p => nget value (bidx (nshape value) p)) base j)
    as [(l1 & p & l2 & H1 & H2 & H3 & H4)|[H1 H2]].
  - left. exists p. assert (S := ndindex_sorted (nshape view)). split.
    { apply ndindex_In. rewrite H1. apply in_app_iff. right. now left. }
    split; auto. split; auto. intros q Hq Ej. apply ndindex_In in Hq. rewrite H1 in *.
    apply in_app_iff in Hq as [Hq|[->|Hq]]; auto; [|exfalso; eapply H4; eauto].
    right. clear - S Hq. induction l1 as [|x l1 IH]; [destruct Hq|]. cbn [app] in S. inversion S as [|? ? S' F]; subst.
    destruct Hq as [->|Hq]; auto. rewrite Forall_forall in F. apply F. apply in_app_iff. right. now left.
  - right. split; auto. intros p Hp. apply H1. now apply ndindex_In.
Qed.

(** *** assignment with a dictionary *)

Lemma selects_fun n i e ax p :
  item_ok n i -> selects n i e ax p -> p < n ->
  p = item_pos n i e ax /\ (keeps_axis i = true -> e ax < length (positions (item_slice i) n)).
Proof.
  intros OK S L.
  assert (IX : forall z, index_is n z p -> p = znorm n z).
  { unfold index_is, znorm. intros z [H1 H2]. rewrite <- H2. now rewrite Nat2Z.id. }
  assert (SL : forall s, sl_step s <> Some 0%Z -> slice_selects s n (e ax) p ->
             p = nth (e ax) (positions s n) 0 /\ e ax < length (positions s n)).
  { intros s Hs H. apply positions_spec in H; auto. split.
    - symmetry. now apply nth_error_nth.
    - apply nth_error_Some. congruence. }
  assert (ALL : p = e ax -> p = nth (e ax) (positions slice_all n) 0 /\ e ax < length (positions slice_all n)).
  { intros ->. rewrite positions_slice_all, seq_length, seq_nth; auto. }
  destruct i as [[|z|z|s|v]|]; simpl in *; try (split; [auto|discriminate]).
  - destruct (ALL S); auto.
  - destruct (SL s OK S); auto.
  - destruct (ALL S); auto.
Qed.

Lemma item_py_adv i : item_py i -> set_advanced i = get_advanced i.
Proof. destruct i; simpl; auto; contradiction. Qed.

Section Setitem.
Context {A : Type}.
Variable a : sarr A.
Variable it : dict item.
Variable v : operand A.
Hypothesis W : wf a.
Hypothesis NDi : NoDup (dkeys it).
Hypothesis Wi : Forall (fun kv => item_wf (snd kv)) it.
Hypothesis Py : Forall (fun kv => item_py (snd kv)) it.
Hypothesis Wv : op_wf v.
Variable sa : shape.
Hypothesis ES : broadcast_shapes (index_shapes (s_axes a) it) = Ok sa.
Hypothesis DJ : forall ax, In ax (dkeys sa) -> In ax (s_axes a) -> keeps_axis (dget it ax) = false.

Let axes := s_axes a.
Let it' := filter (fun kv => smem (fst kv) axes) it.
Let adv := filter (fun kv => get_advanced (snd kv)) it'.
Let basic := others axes (dkeys adv).

Lemma filter_ext_F {T} (f g : T -> bool) l : Forall (fun x => f x = g x) l -> filter f l = filter g l.
Proof. induction 1; simpl; auto. rewrite H. destruct (g x); congruence. Qed.

Lemma sa_eq : shape_broadcasted (map (fun kv => opnd (snd kv)) adv) = Ok sa.
Proof. unfold shape_broadcasted. rewrite <- ES, index_shapes_ops. reflexivity. Qed.

Lemma sa_nodup : NoDup (dkeys sa).
Proof.
  eapply (ops_aligned (map (fun kv => opnd (snd kv)) adv) sa).
  - apply (wf_adv_ops a it Wi).
  - apply sa_eq.
Qed.

Lemma basic_keeps ax : In ax basic <-> In ax axes /\ keeps_axis (dget it ax) = true.
Proof.
  unfold basic, adv, it', axes. rewrite (basic_eq a it NDi). rewrite filter_In.
  now rewrite keeps_basic.
Qed.

Lemma value_axes_nodup : NoDup (dkeys sa ++ basic).
Proof.
  apply NoDup_app_intro.
  - apply sa_nodup.
  - apply NoDup_filter, W.
  - intros x H1 H2. apply basic_keeps in H2 as [H2 H3]. specialize (DJ x H1 H2). congruence.
Qed.

Lemma self_axes_nodup : NoDup (dkeys adv ++ basic).
Proof.
  apply NoDup_app_intro.
  - apply (nd_adv a it NDi).
  - apply NoDup_filter, W.
  - intros x H1 H2. apply others_In in H2. tauto.
Qed.

Lemma self_axes_In ax : In ax (dkeys adv ++ basic) <-> In ax axes.
Proof.
  assert (P := front_perm axes (dkeys adv) (proj1 W) (nd_adv a it NDi) (adv_incl a it NDi)).
  split; intros H; [eapply Permutation_in; eauto|].
  eapply Permutation_in; [symmetry; exact P|auto].
Qed.

(** the view that is written *)
Lemma whole_ok :
  exists whole, ndarray_aligned (iota_of a) (dkeys adv ++ basic) = Ok whole /\
    nshape whole = map (asize a) (dkeys adv ++ basic) /\
    forall e : env, nget whole (map e (dkeys adv ++ basic)) = map e axes.
Proof.
  assert (Wt : wf (iota_of a)) by (destruct W; split; auto).
  destruct (align_sub (iota_of a) (dkeys adv ++ basic) Wt) as [n (H1 & H2 & H3)].
  - apply self_axes_nodup.
  - intros x Hx. now apply self_axes_In.
  - exists n. split; [auto|split]; auto.
Qed.

Definition sel_shape : shape :=
  sa ++ map (fun ax => (ax, length (positions (item_slice (dget it ax)) (asize a ax)))) basic.

Lemma sel_keys : dkeys sel_shape = dkeys sa ++ basic.
Proof.
  unfold sel_shape, dkeys at 1. rewrite map_app. f_equal. rewrite map_map. simpl. apply map_id.
Qed.

Lemma sel_vals : dvals sel_shape = dvals sa ++ map (fun ax => length (positions (item_slice (dget it ax)) (asize a ax))) basic.
Proof. unfold sel_shape, dvals at 1. rewrite map_app. f_equal. now rewrite map_map. Qed.

(** the value as read at a position of the selection *)
Definition value_nd : res (nd A) :=
  match v with
  | OpNum x => Ok (scalar x)
  | OpArr b => match sshape b with
               | [] => Ok (s_nd b)
               | _ => ndarray_aligned b (dkeys sa ++ basic)
               end
  end.

Lemma value_ok n e :
  value_nd = Ok n -> ndim n <= length (dkeys sa ++ basic) /\ bget n (map e (dkeys sa ++ basic)) = op_at v e.
Proof.
  unfold value_nd. destruct v as [b|x]; simpl in Wv.
  - destruct (sshape b) eqn:Eb.
    + intros H. injection H as <-. assert (K := wf_keys b Wv). assert (V := wf_vals b Wv).
      rewrite Eb in K, V. simpl in K, V. unfold ndim. rewrite <- V. split; [simpl; lia|].
      unfold bget. rewrite <- V. rewrite bidx_nil. simpl. unfold bat, at_. now rewrite <- K.
    + clear Eb. intros H. assert (N := value_axes_nodup).
      split; [|simpl; now apply bget_aligned].
      destruct (align_ok b _ n Wv N H) as (_ & S & _). unfold ndim. rewrite S, map_length. auto.
  - intros H. injection H as <-. split; [unfold ndim; simpl; lia|reflexivity].
Qed.

Lemma setitem_unfold :
  incl (dkeys it) axes ->
  setitem a it v =
  (ix <- index_tuple (dkeys sa) it' (dkeys adv ++ basic) ;;
   n <- value_nd ;;
   whole <- ndarray_aligned (iota_of a) (dkeys adv ++ basic) ;;
   view <- np_index ix whole ;;
   r <- assign (s_nd a) view n ;;
   Ok (mkS r axes)).
Proof.
  intros I. unfold setitem.
  assert (E1 : it' = it).
  { apply filter_all. intros [k i] Hin. simpl. apply smem_In, I. now apply (in_map fst) in Hin. }
  assert (E2 : filter (fun kv => set_advanced (snd kv)) it = adv).
  { unfold adv. rewrite E1. apply filter_ext_F. eapply Forall_impl; [|exact Py].
    intros [k i]; simpl. apply item_py_adv. }
  replace (forallb _ it) with true.
  2:{ symmetry. apply forallb_forall. intros [k i] Hin. apply smem_In. simpl. apply I.
      now apply (in_map fst) in Hin. }
  replace (existsb _ it) with false.
  2:{ symmetry. clear - Py. induction Py as [|[k i] l H F IH]; simpl; auto.
      destruct i; simpl in *; auto; contradiction. }
  cbn [negb]. rewrite E2.
  rewrite (adv_operands_map adv (adv_all a it)). rewrite sa_eq. cbn [bind].
  change (filter (fun ax => negb (smem ax (dkeys adv))) (s_axes a)) with basic.
  rewrite <- E1 at 1. reflexivity.
Qed.

Lemma addresses_item_pos (e e' : env) :
  (forall ax, In ax axes -> item_ok (asize a ax) (dget it ax)) ->
  inside e' (sshape a) ->
  (addresses (sshape a) sa it e e' <->
   inside e sel_shape /\ forall ax, In ax axes -> e' ax = item_pos (asize a ax) (dget it ax) e ax).
Proof.
  intros OK He'.
  assert (SA : forall ax, In ax axes -> In (ax, asize a ax) (sshape a)).
  { intros ax Hax. unfold axes in Hax. rewrite <- wf_keys in Hax by auto.
    apply dget_Some_key in Hax as [n Hn]. unfold asize. rewrite Hn. now apply dget_In. }
  assert (AS : forall ax n, In (ax, n) (sshape a) -> In ax axes /\ asize a ax = n).
  { intros ax n Hin. split.
    - unfold axes. rewrite <- wf_keys by auto. apply (in_map fst) in Hin. auto.
    - unfold asize. rewrite (dget_NoDup _ _ _ (wf_nodup a W) Hin). auto. }
  split.
  - intros [H1 H2].
    assert (F : forall ax, In ax axes -> e' ax = item_pos (asize a ax) (dget it ax) e ax /\
              (keeps_axis (dget it ax) = true -> e ax < length (positions (item_slice (dget it ax)) (asize a ax)))).
    { intros ax Hax. destruct (H2 ax (asize a ax) (SA ax Hax)). apply selects_fun; auto. }
    split; [|intros ax Hax; now apply F].
    intros ax n Hin. apply in_app_iff in Hin as [Hin|Hin]; [now apply H1|].
    apply in_map_iff in Hin as [ax' [E Hb]]. injection E as <- <-.
    apply basic_keeps in Hb as [Hb K]. now apply F.
  - intros [H1 H2].
    assert (Hsa : inside e sa) by (intros ax n Hin; apply H1; apply in_or_app; auto).
    split; auto.
    intros ax n Hin. destruct (AS _ _ Hin) as [Hax <-].
    split; [apply He'; auto|]. rewrite H2 by auto.
    apply item_pos_selects; auto.
    + intros K. apply H1. apply in_or_app. right. apply in_map_iff. exists ax. split; auto.
      apply basic_keeps; auto.
    + intros w Hw.
      assert (Hinw : In (ax, ItArr w) adv).
      { unfold adv, it'. apply (adv_In a it NDi). auto. }
      assert (Hop : In (OpArr w) (map (fun kv => opnd (snd kv)) adv)).
      { apply in_map_iff. exists (ax, ItArr w). auto. }
      assert (Wops := wf_adv_ops a it Wi). fold it' in Wops. fold adv in Wops.
      assert (Ww : wf w) by (rewrite Forall_forall in Wops; apply (Wops _ Hop)).
      apply bclamp_inside with (sh := sa); auto.
      intros x m Hx.
      destruct (broadcast_shapes_ok _ _ (op_shapes_nodup _ Wops) sa_eq) as (NDs & K & S).
      assert (Hk : In x (dkeys sa)).
      { apply (shape_broadcasted_incl _ sa w Wops sa_eq Hop). rewrite <- wf_keys by auto.
        apply dget_Some_key. eauto. }
      apply in_map_iff in Hk as [[x' k] [Ex Hk]]. simpl in Ex. subst x'.
      assert (C := Hk). apply S in C as [_ [C _]].
      destruct (C m) as [C1|C1]; auto; [|subst; auto].
      apply sizes_of_In. exists (sshape w). split; auto. now apply in_op_shapes.
Qed.

Lemma inside_sel e : inside e sel_shape <-> inb (map e (dkeys sa ++ basic)) (dvals sel_shape).
Proof.
  assert (N := value_axes_nodup). rewrite <- sel_keys in *.
  unfold inside. split.
  - intros H. apply Forall2_nth_intro with (d1 := 0) (d2 := 0).
    + unfold dkeys, dvals. now rewrite !map_length.
    + intros i Hi. rewrite map_length in Hi. rewrite map_nth_in with (d := ""%string) by auto.
      apply H. unfold dkeys, dvals in *. rewrite map_length in Hi.
      rewrite map_nth_in with (d := (""%string, 0)), map_nth_in with (d := (""%string, 0)) by auto.
      destruct (nth i sel_shape (""%string, 0)) eqn:E. simpl. rewrite <- E. now apply nth_In.
  - intros H ax n Hin. apply (In_nth _ _ (""%string, 0)) in Hin as [i [Hi Ei]].
    assert (G := Forall2_nth lt _ _ 0 0 i H). unfold dkeys, dvals in G. rewrite !map_length in G.
    rewrite map_map in G. rewrite map_nth_in with (d := (""%string, 0)), map_nth_in with (d := (""%string, 0)) in G by auto.
    rewrite Ei in G. simpl in G. auto.
Qed.

Lemma setitem_last r :
  incl (dkeys it) axes ->
  setitem a it v = Ok r ->
  wf r /\ sshape r = sshape a /\
  forall e', inside e' (sshape a) ->
    (exists e, addresses (sshape a) sa it e e' /\ at_ r e' = op_at v e /\
       forall e2, addresses (sshape a) sa it e2 e' ->
         map e2 (dkeys sa ++ basic) = map e (dkeys sa ++ basic) \/
         lex_lt (map e2 (dkeys sa ++ basic)) (map e (dkeys sa ++ basic))) \/
    ((forall e, ~ addresses (sshape a) sa it e e') /\ at_ r e' = at_ a e').
Proof.
  intros I H. rewrite setitem_unfold in H by auto.
  destruct whole_ok as [whole (W1 & W2 & W3)].
  destruct (view_of a it NDi Wi whole sa W2 sa_eq) as [ix (V1 & V2 & V3)].
  fold axes in V1, V2, V3. fold it' in V1, V2, V3. fold adv in V1, V2, V3. fold basic in V1, V2, V3.
  rewrite V1 in H. cbn [bind] in H.
  destruct value_nd as [n|] eqn:EV; [|discriminate]. cbn [bind] in H.
  rewrite W1 in H. cbn [bind] in H.
  destruct (np_index ix whole) as [view|] eqn:EN; [|discriminate]. cbn [bind] in H.
  destruct (assign (s_nd a) view n) as [w|] eqn:EA; [|discriminate]. cbn [bind] in H.
  injection H as <-.
  destruct (V3 view eq_refl) as [S3 G3].
  assert (OK := proj1 V2 (ex_intro _ view eq_refl)).
  assert (Lv : ndim n <= ndim view).
  { destruct (value_ok n (fun _ => 0) EV) as [L _]. unfold ndim at 2. rewrite S3.
    rewrite app_length in *. rewrite map_length. unfold dkeys, dvals in *. rewrite map_length in *. auto. }
  destruct (assign_last (s_nd a) view n w Lv EA) as (Sw & G).
  assert (Ws : wf (mkS w axes)).
  { destruct W as [Wa Wb]. split; simpl; auto. now rewrite Sw. }
  split; auto. split; [unfold sshape; simpl; now rewrite Sw|].
  assert (S3' : nshape view = dvals sel_shape) by (rewrite S3, sel_vals; auto).
  intros e' He'. destruct (G (map e' axes)) as [[p (P1 & P2 & P3 & P4)]|[P1 P2]].
  - left. set (e := env_of (dkeys sa ++ basic) p).
    assert (Lp : length p = length (dkeys sa ++ basic)).
    { rewrite (inb_length _ _ P1), S3', <- sel_keys. unfold dkeys, dvals. now rewrite !map_length. }
    assert (Ep : p = map e (dkeys sa ++ basic)) by (symmetry; apply map_env_of; auto; apply value_axes_nodup).
    exists e. split.
    + apply addresses_item_pos; auto. split.
      * apply inside_sel. now rewrite <- Ep, <- S3'.
      * rewrite Ep, G3, W3 in P2. intros ax Hax.
        symmetry. exact (map_eq_in _ _ _ P2 ax Hax).
    + split; [unfold at_ at 1; simpl; rewrite P3; rewrite Ep; now apply value_ok|].
      intros e2 H2. apply addresses_item_pos in H2 as [I1 I2]; auto.
      rewrite <- Ep. apply P4; [rewrite S3'; now apply inside_sel|].
      rewrite G3, W3. apply map_ext_in. intros ax Hax. symmetry. auto.
  - right. split; [|exact P2]. intros e Ha. apply addresses_item_pos in Ha as [H1 H2]; auto.
    apply (P1 (map e (dkeys sa ++ basic))).
    + rewrite S3'. now apply inside_sel.
    + rewrite G3, W3. apply map_ext_in. intros ax Hax. symmetry. auto.
Qed.

Lemma setitem_ok r :
  incl (dkeys it) axes ->
  setitem a it v = Ok r ->
  wf r /\ sshape r = sshape a /\
  forall e', inside e' (sshape a) ->
    (exists e, addresses (sshape a) sa it e e' /\ at_ r e' = op_at v e) \/
    ((forall e, ~ addresses (sshape a) sa it e e') /\ at_ r e' = at_ a e').
Proof.
  intros I H. destruct (setitem_last r I H) as (Wr & Sr & G). do 2 (split; auto).
  intros e' He'. destruct (G e' He') as [(e & G1 & G2 & _)|G1]; auto. left. eauto.
Qed.

Lemma value_fits :
  ((exists n, value_nd = Ok n /\ bto_rev (rev (nshape n)) (rev (dvals sel_shape)) = true) <->
   op_fits v sel_shape).
Proof.
  assert (N := value_axes_nodup).
  unfold value_nd, op_fits. destruct v as [b|x]; simpl in Wv.
  2:{ split; auto. intros _. exists (scalar x). auto. }
  destruct (sshape b) eqn:Eb.
  { split; [intros _ ? ? []|]. intros _. exists (s_nd b). split; auto.
    assert (V := wf_vals b Wv). rewrite Eb in V. simpl in V. now rewrite <- V. }
  rewrite <- Eb. clear Eb.
  assert (DS : forall ax m, In (ax, m) sel_shape <-> dget sel_shape ax = Some m).
  { intros ax m. split; [apply dget_NoDup; now rewrite sel_keys|apply dget_In]. }
  assert (LL : forall n, nshape n = map (asize b) (dkeys sa ++ basic) ->
     length (nshape (A:=A) n) = length (dvals sel_shape)).
  { intros n Hn. rewrite Hn, <- sel_keys. unfold dkeys, dvals. now rewrite !map_length. }
  assert (FF : Forall2 (fun m n => m = n \/ m = 1) (map (asize b) (dkeys sel_shape)) (dvals sel_shape) <->
            (forall ax m, In (ax, m) sel_shape -> asize b ax = m \/ asize b ax = 1)).
  { unfold dkeys, dvals. rewrite map_map. generalize sel_shape. intros t.
    induction t as [|[k m] t IH]; simpl; split; intros H.
    - intros ? ? [].
    - constructor.
    - inversion H; subst. intros ax m' [E|E]; [injection E as <- <-; auto|]. now apply IH.
    - constructor; auto. apply IH. intros; auto. }
  split.
  - intros [n [H1 H2]]. destruct (align_ok b _ n Wv N H1) as (I & S & _).
    rewrite bto_Forall2 in H2 by (apply LL; auto). rewrite S, <- sel_keys in H2.
    intros ax m Hin. assert (Hk : In ax (dkeys sel_shape)).
    { rewrite sel_keys. apply I. rewrite <- wf_keys by auto. now apply (in_map fst) in Hin. }
    apply dget_Some_key in Hk as [k Hk]. exists k. split; [now apply DS|].
    assert (asize b ax = m) by (unfold asize; now rewrite (dget_NoDup _ _ _ (wf_nodup b Wv) Hin)).
    apply DS in Hk. destruct (proj1 FF H2 ax k Hk); lia.
  - intros F. destruct (align_sub b (dkeys sa ++ basic) Wv N) as [n (H1 & H2 & H3)].
    + intros ax Hax. rewrite <- wf_keys in Hax by auto. apply dget_Some_key in Hax as [m Hm].
      destruct (F ax m (dget_In _ _ _ Hm)) as [k [Hk _]]. rewrite <- sel_keys. now apply (in_map fst) in Hk.
    + exists n. split; auto. rewrite bto_Forall2 by (apply LL; auto). rewrite H2, <- sel_keys.
      apply FF. intros ax k Hk. destruct (in_dec string_dec ax (s_axes b)) as [Hin|Hin].
      * rewrite <- wf_keys in Hin by auto. apply dget_Some_key in Hin as [m Hm].
        destruct (F ax m (dget_In _ _ _ Hm)) as [k' [Hk' C]].
        apply DS in Hk, Hk'. assert (k = k') by congruence. subst k'.
        unfold asize. rewrite Hm. lia.
      * right. now apply asize_absent.
Qed.

Lemma setitem_success_aux :
  incl (dkeys it) axes ->
  ((exists r, setitem a it v = Ok r) <->
   (forall ax, In ax axes -> item_ok (asize a ax) (dget it ax)) /\ op_fits v sel_shape).
Proof.
  intros I. rewrite setitem_unfold by auto.
  destruct whole_ok as [whole (W1 & W2 & W3)].
  destruct (view_of a it NDi Wi whole sa W2 sa_eq) as [ix (V1 & V2 & V3)].
  fold axes in V1, V2, V3. fold it' in V1, V2, V3. fold adv in V1, V2, V3. fold basic in V1, V2, V3.
  rewrite V1, W1. cbn [bind]. rewrite <- value_fits.
  assert (SV : forall view, np_index ix whole = Ok view -> nshape view = dvals sel_shape).
  { intros view H. destruct (V3 view H) as [S3 _]. now rewrite S3, sel_vals. }
  assert (LV : forall view n, np_index ix whole = Ok view -> value_nd = Ok n -> ndim n <= ndim view).
  { intros view n H1 H2. destruct (value_ok n (fun _ => 0) H2) as [L _].
    unfold ndim at 2. rewrite (SV _ H1). rewrite <- sel_keys in L. unfold dkeys, dvals in *.
    rewrite map_length in *. auto. }
  destruct value_nd as [n|e] eqn:EV; cbn [bind].
  - destruct (np_index ix whole) as [view|e] eqn:EN; cbn [bind].
    + split.
      * intros [r H]. destruct (assign (s_nd a) view n) as [w|] eqn:EA; [|discriminate].
        split; [apply V2; eauto|]. exists n. split; auto.
        destruct (assign_ok _ _ _ _ (LV _ _ eq_refl eq_refl) EA) as (B & _). now rewrite <- (SV _ eq_refl).
      * intros [_ [n' [H1 H2]]]. injection H1 as <-. rewrite <- (SV _ eq_refl) in H2.
        destruct (assign_intro (s_nd a) view n (LV _ _ eq_refl eq_refl) H2) as [w ->].
        eexists. reflexivity.
    + split; [intros [r H]; discriminate|]. intros [OK _]. apply V2 in OK as [x Hx]. discriminate.
  - split; [intros [r H]; discriminate|]. intros [_ [n [H _]]]. discriminate.
Qed.

End Setitem.

Lemma getitem_sel_shape {A} (a : sarr A) it sa s :
  wf a -> NoDup (dkeys it) -> Forall (fun kv => item_wf (snd kv)) it ->
  broadcast_shapes (index_shapes (s_axes a) it) = Ok sa ->
  getitem a it = Ok s -> sshape s = sel_shape a it sa.
Proof.
  intros W ND Wi ES H. unfold sel_shape.
  set (it' := filter (fun kv => smem (fst kv) (s_axes a)) it).
  destruct (list_eq_dec string_dec (dkeys it') []) as [E|E].
  - assert (E' : it' = []) by (destruct it'; [auto|discriminate]).
    rewrite getitem_empty in H by auto. injection H as <-.
    rewrite index_shapes_ops in ES. fold it' in ES. rewrite E' in ES. simpl in ES. injection ES as <-.
    rewrite E'. simpl. unfold others. simpl. rewrite filter_all by auto.
    assert (AB : forall ax, In ax (s_axes a) -> dget it ax = None).
    { intros ax Hax. apply dget_None. intros Hk. apply in_map_iff in Hk as [[k i] [Ek Hk]].
      simpl in Ek. subst. assert (In (ax, i) it').
      { apply filter_In. split; auto. simpl. now apply smem_In. }
      rewrite E' in H. destruct H. }
    unfold sshape. rewrite <- (map_asize a W). destruct W as [NDa _].
    clear - AB. induction (s_axes a) as [|x l IH]; simpl; auto.
    rewrite AB by (left; auto). rewrite positions_slice_all, seq_length. f_equal. apply IH.
    intros; apply AB; right; auto.
  - assert (NE : it' <> []) by (intros E'; apply E; now rewrite E').
    destruct (getitem_ok a it W ND Wi s NE H) as [sa' (ES' & _ & _ & Sr & _)].
    rewrite Sr. rewrite index_shapes_ops in ES. unfold shape_broadcasted in ES'.
    rewrite ES in ES'. injection ES' as <-. reflexivity.
Qed.

Lemma setitem_success {A} (a : sarr A) it (v : operand A) sa :
  wf a -> NoDup (dkeys it) -> Forall (fun kv => item_wf (snd kv)) it ->
  Forall (fun kv => item_py (snd kv)) it -> op_wf v ->
  broadcast_shapes (index_shapes (s_axes a) it) = Ok sa ->
  (forall ax, In ax (dkeys sa) -> In ax (s_axes a) -> keeps_axis (dget it ax) = false) ->
  ((exists r, setitem a it v = Ok r) <->
   incl (dkeys it) (s_axes a) /\ exists s, getitem a it = Ok s /\ op_fits v (sshape s)).
Proof.
  intros W ND Wi Py Wv ES DJ.
  destruct (incl_sdec (dkeys it) (s_axes a)) as [I|I].
  2:{ split; [|tauto]. intros [r H]. exfalso. apply I. unfold setitem in H.
      destruct (forallb (fun kv => smem (fst kv) (s_axes a)) it) eqn:E; [|discriminate].
      intros k Hk. apply in_map_iff in Hk as [[k' i] [<- Hk]]. rewrite forallb_forall in E.
      apply smem_In. apply (E _ Hk). }
  rewrite (setitem_success_aux a it v W ND Wi Py Wv sa ES DJ I).
  assert (AS : (forall ax, In ax (s_axes a) -> item_ok (asize a ax) (dget it ax)) <->
               (forall ax n, In (ax, n) (sshape a) -> item_ok n (dget it ax))).
  { split.
    - intros H ax n Hin. assert (Hn := dget_NoDup _ _ _ (wf_nodup a W) Hin).
      specialize (H ax). unfold asize in H. rewrite Hn in H. apply H.
      rewrite <- wf_keys by auto. now apply (in_map fst) in Hin.
    - intros H ax Hax. rewrite <- wf_keys in Hax by auto. apply dget_Some_key in Hax as [n Hn].
      unfold asize. rewrite Hn. apply H. now apply dget_In. }
  assert (GS := getitem_success a it W ND Wi).
  split.
  - intros [H1 H2]. split; auto. destruct (proj2 GS) as [s Hs].
    + exists sa. split; [auto|split]; auto. now apply AS.
    + exists s. split; auto. now rewrite (getitem_sel_shape a it sa s).
  - intros [_ [s [H1 H2]]]. split.
    + apply AS. destruct (proj1 GS (ex_intro _ s H1)) as [sa' (_ & H & _)]. auto.
    + now rewrite <- (getitem_sel_shape a it sa s).
Qed.

(** reading back what was written, when no element is addressed twice with
    different values *)
Lemma setitem_readback {A} (a : sarr A) it (v : operand A) sa r :
  wf a -> NoDup (dkeys it) -> Forall (fun kv => item_wf (snd kv)) it ->
  Forall (fun kv => item_py (snd kv)) it -> op_wf v ->
  broadcast_shapes (index_shapes (s_axes a) it) = Ok sa ->
  (forall ax, In ax (dkeys sa) -> In ax (s_axes a) -> keeps_axis (dget it ax) = false) ->
  (forall e1 e2 e', addresses (sshape a) sa it e1 e' -> addresses (sshape a) sa it e2 e' ->
     op_at v e1 = op_at v e2) ->
  setitem a it v = Ok r ->
  exists s, getitem r it = Ok s /\ forall e, inside e (sshape s) -> at_ s e = op_at v e.
Proof.
  intros W ND Wi Py Wv ES DJ INJ H.
  destruct (proj1 (setitem_success a it v sa W ND Wi Py Wv ES DJ) (ex_intro _ r H)) as [I [s0 [Hs0 _]]].
  destruct (setitem_ok a it v W ND Wi Py Wv sa ES DJ r I H) as (Wr & Sr & G).
  assert (Ax : s_axes r = s_axes a) by (rewrite <- (wf_keys r Wr), Sr; now apply wf_keys).
  destruct (proj2 (getitem_success r it Wr ND Wi)) as [s Hs].
  { exists sa. rewrite Ax. split; [auto|split]; auto. rewrite Sr.
    destruct (proj1 (getitem_success a it W ND Wi) (ex_intro _ s0 Hs0)) as [sa' (_ & H1 & _)]. auto. }
  exists s. split; auto. intros e He.
  destruct (getitem_full r it s Wr ND Wi Hs) as (_ & F & sa' & ES' & _ & Hsa & _).
  rewrite Ax, ES in ES'. injection ES' as <-.
  destruct (F e He) as [e' (H1 & H2 & H3)]. rewrite Sr in *.
  assert (Ad : addresses (sshape a) sa it e e').
  { split.
    - intros ax n Hin. apply He. now apply Hsa.
    - intros ax n Hin. split; [now apply H1|auto]. }
  rewrite H2. destruct (G e' H1) as [[e2 [A2 E2]]|[N _]].
  - rewrite E2. eapply INJ; eauto.
  - exfalso. eapply N; eauto.
Qed.

(** *** masks *)

Lemma mask_positions (m : sarr bool) : wf m ->
  true_positions m (filter (nget (s_nd m)) (ndindex (nshape (s_nd m)))).
Proof.
  intros W. split; [apply StronglySorted_filter, ndindex_sorted|].
  intros idx. rewrite filter_In, ndindex_In. split.
  - intros [H1 H2]. exists (env_of (s_axes m) idx).
    assert (E : map (env_of (s_axes m) idx) (s_axes m) = idx).
    { apply map_env_of; [apply W|]. rewrite (inb_length _ _ H1). symmetry. apply W. }
    split; [|split; [|auto]].
    + apply inside_inb; auto. now rewrite E.
    + unfold at_. now rewrite E.
  - intros [e (H1 & H2 & ->)]. apply inside_inb in H1; auto.
Qed.

Lemma lex_lt_asym i j : lex_lt i j -> ~ lex_lt j i.
Proof.
  revert j; induction i as [|x i IH]; destruct j as [|y j]; simpl; auto.
  intros [H|[-> H]] [G|[E G]]; try lia. eapply IH; eauto.
Qed.

Lemma true_positions_unique m l l' : true_positions m l -> true_positions m l' -> l = l'.
Proof.
  intros [H1 H2] [G1 G2]. apply sorted_lex_unique; auto.
  - intros x. rewrite H2, G2. reflexivity.
  - intros x _ y _. apply lex_lt_asym.
Qed.

Section Mask.
Context {A : Type}.
Variable a : sarr A.
Variable m : sarr bool.
Hypothesis W : wf a.
Hypothesis Wm : wf m.

Let rest := others (s_axes a) (s_axes m).
Let sel := filter (nget (s_nd m)) (ndindex (nshape (s_nd m))).

Lemma np_mask_ok {T} (o : nd T) :
  incl (s_axes m) (s_axes a) ->
  nshape o = map (asize a) (s_axes m ++ rest) ->
  ((exists x, np_mask (s_nd m) o = Ok x) <-> (forall ax n, In (ax, n) (sshape m) -> In (ax, n) (sshape a))) /\
  (forall x, np_mask (s_nd m) o = Ok x ->
     nshape x = length sel :: map (asize a) rest /\
     forall j r, nget x (j :: r) = nget o (nth j sel [] ++ r)).
Proof.
  intros I S. unfold np_mask. fold sel.
  assert (F1 : firstn (ndim (s_nd m)) (nshape o) = map (asize a) (s_axes m)).
  { rewrite S, map_app. apply firstn_app_exact. rewrite map_length. symmetry. apply Wm. }
  assert (F2 : skipn (ndim (s_nd m)) (nshape o) = map (asize a) rest).
  { rewrite S, map_app. apply skipn_app_exact. rewrite map_length. symmetry. apply Wm. }
  rewrite F1, F2.
  assert (EQ : nshape (s_nd m) = map (asize a) (s_axes m) <->
               (forall ax n, In (ax, n) (sshape m) -> In (ax, n) (sshape a))).
  { assert (SA : forall ax, In ax (s_axes a) -> In (ax, asize a ax) (sshape a)).
    { intros ax Hax. rewrite <- wf_keys in Hax by auto. apply dget_Some_key in Hax as [n Hn].
      unfold asize. rewrite Hn. now apply dget_In. }
    rewrite <- (map_asize m Wm). split.
    - intros H ax n Hin. assert (Hk : In ax (s_axes m)).
      { rewrite <- wf_keys by auto. now apply (in_map fst) in Hin. }
      assert (E : asize m ax = n) by (unfold asize; now rewrite (dget_NoDup _ _ _ (wf_nodup m Wm) Hin)).
      rewrite (map_eq_in _ _ _ H ax Hk) in E. subst n. auto.
    - intros H. apply map_ext_in. intros ax Hax. assert (Hk := Hax).
      rewrite <- wf_keys in Hk by auto. apply dget_Some_key in Hk as [n Hn].
      assert (H' := H ax n (dget_In _ _ _ Hn)). apply (dget_NoDup _ _ _ (wf_nodup a W)) in H'.
      unfold asize. now rewrite Hn, H'. }
  rewrite <- EQ. destruct (list_eq_dec Nat.eq_dec (nshape (s_nd m)) (map (asize a) (s_axes m))) as [E|E].
  - split; [split; eauto|]. intros x Hx. injection Hx as <-. simpl. split; auto.
  - split; [split; [intros [x Hx]; discriminate|tauto]|]. discriminate.
Qed.

Theorem getitem_mask_ok r :
  getitem_mask a m = Ok r ->
  wf r /\
  (forall ax n, In (ax, n) (sshape m) -> In (ax, n) (sshape a)) /\
  ~ In (mask_axis (s_axes m)) rest /\
  sshape r = map (fun ax => (ax, asize a ax)) rest ++ [(mask_axis (s_axes m), length sel)] /\
  forall e e', map e' (s_axes m) = nth (e (mask_axis (s_axes m))) sel [] ->
    (forall ax, In ax rest -> e' ax = e ax) -> at_ r e = at_ a e'.
Proof.
  intros H. unfold getitem_mask in H.
  destruct (forallb (fun ax => smem ax (s_axes a)) (s_axes m)) eqn:EI; [|discriminate].
  assert (I : incl (s_axes m) (s_axes a)).
  { intros x Hx. rewrite forallb_forall in EI. now apply smem_In, EI. }
  cbn [negb] in H. rewrite mapM_index_of in H by auto. cbn [bind] in H.
  destruct (move_front a (s_axes m) W (proj1 Wm) I) as [S G]. fold rest in S, G.
  set (o := moveaxis _ _ _) in *.
  destruct (np_mask_ok o I S) as [N1 N2].
  destruct (np_mask (s_nd m) o) as [x|] eqn:EN; [|discriminate]. cbn [bind] in H.
  destruct (N2 x eq_refl) as [S2 G2].
  destruct (move_first_last x _ _ S2) as [S3 G3].
  change (filter (fun ax => negb (smem ax (s_axes m))) (s_axes a)) with rest in H.
  apply mk_sarr_ok in H as [-> Wr].
  split; auto. split; [apply N1; eauto|]. split.
  { destruct Wr as [Nr _]. simpl in Nr. apply NoDup_remove in Nr as [_ Nr]. rewrite app_nil_r in Nr. auto. }
  split.
  - unfold sshape. cbn [s_nd s_axes]. rewrite S3.
    assert (CA : forall (k1 : list string) (v1 : list nat) k2 v2, length k1 = length v1 ->
              combine (k1 ++ k2) (v1 ++ v2) = combine k1 v1 ++ combine k2 v2).
    { induction k1; destruct v1; simpl; intros; try discriminate; auto. f_equal; auto. }
    rewrite CA by (now rewrite map_length). f_equal.
    clear. induction rest; simpl; congruence.
  - intros e e' H1 H2. unfold at_ at 1. cbn [s_nd s_axes]. rewrite map_app. cbn [map].
    rewrite G3 by (now rewrite !map_length). rewrite G2.
    rewrite <- H1. replace (map e rest) with (map e' rest) by (apply map_ext_in; auto).
    rewrite <- map_app. apply G.
Qed.

Theorem getitem_mask_intro :
  (forall ax n, In (ax, n) (sshape m) -> In (ax, n) (sshape a)) ->
  ~ In (mask_axis (s_axes m)) rest ->
  exists r, getitem_mask a m = Ok r.
Proof.
  intros H NI. unfold getitem_mask.
  assert (I : incl (s_axes m) (s_axes a)).
  { intros x Hx. rewrite <- wf_keys in Hx by auto. apply dget_Some_key in Hx as [n Hn].
    specialize (H x n (dget_In _ _ _ Hn)). rewrite <- wf_keys by auto. now apply (in_map fst) in H. }
  replace (forallb (fun ax => smem ax (s_axes a)) (s_axes m)) with true.
  2:{ symmetry. apply forallb_forall. intros x Hx. apply smem_In. auto. }
  cbn [negb]. rewrite mapM_index_of by auto. cbn [bind].
  destruct (move_front a (s_axes m) W (proj1 Wm) I) as [S G]. fold rest in S, G.
  set (o := moveaxis _ _ _) in *.
  destruct (np_mask_ok o I S) as [N1 N2].
  apply N1 in H as [x Hx]. rewrite Hx. cbn [bind]. destruct (N2 x Hx) as [S2 _].
  destruct (move_first_last x _ _ S2) as [S3 _].
  change (filter (fun ax => negb (smem ax (s_axes m))) (s_axes a)) with rest.
  rewrite mk_sarr_intro; eauto.
  - apply NoDup_snoc; auto. apply NoDup_filter, W.
  - rewrite S3, !app_length, map_length. auto.
Qed.

(** the element written at a true position is the value at its rank *)
Theorem setitem_mask_ok (v : operand A) r :
  op_wf v ->
  ~ In (mask_axis (s_axes m)) rest ->
  setitem_mask a m v = Ok r ->
  wf r /\ sshape r = sshape a /\
  (forall ax n, In (ax, n) (sshape m) -> In (ax, n) (sshape a)) /\
  forall e, inside e (sshape a) ->
    (at_ m e = false -> at_ r e = at_ a e) /\
    (forall k, nth_error sel k = Some (map e (s_axes m)) ->
       at_ r e = op_at v (set_env e (mask_axis (s_axes m)) k)).
Proof.
  intros Wv NI H. unfold setitem_mask in H.
  destruct (forallb (fun ax => smem ax (s_axes a)) (s_axes m)) eqn:EI; [|discriminate].
  assert (I : incl (s_axes m) (s_axes a)).
  { intros x Hx. rewrite forallb_forall in EI. now apply smem_In, EI. }
  cbn [negb] in H.
  change (filter (fun ax => negb (smem ax (s_axes m))) (s_axes a)) with rest in H.
  assert (NDs : NoDup (s_axes m ++ rest)).
  { apply NoDup_app_intro; [apply Wm|apply NoDup_filter, W|]. intros x H1 H2. apply others_In in H2. tauto. }
  assert (Pm : Permutation (s_axes m ++ rest) (s_axes a)) by (apply front_perm; [apply W|apply Wm|auto]).
  assert (Wt : wf (iota_of a)) by (destruct W; split; auto).
  destruct (align_sub (iota_of a) (s_axes m ++ rest) Wt NDs) as [whole (W1 & W2 & W3)].
  { intros x Hx. eapply Permutation_in; [symmetry; exact Pm|auto]. }
  rewrite W1 in H. cbn [bind] in H.
  destruct (np_mask_ok whole I W2) as [N1 N2].
  destruct (np_mask (s_nd m) whole) as [view|] eqn:EN; [|discriminate]. cbn [bind] in H.
  destruct (N2 view eq_refl) as [S2 G2].
  set (av := mask_axis (s_axes m) :: rest) in *.
  assert (NDv : NoDup av) by (constructor; auto; apply NoDup_filter, W).
  assert (VAL : exists n, (match v with
         | OpNum x => ndarray_aligned (mkS (scalar x) []) av
         | OpArr b => ndarray_aligned b av
         end) = Ok n /\ length (nshape n) = length av /\ forall e, bget n (map e av) = op_at v e).
  { destruct v as [b|x].
    - destruct (ndarray_aligned b av) as [n|] eqn:EB; [|discriminate].
      exists n. split; auto. split.
      + destruct (align_ok b av n Wv NDv EB) as (_ & S & _). now rewrite S, map_length.
      + intros e. now apply bget_aligned.
    - assert (W0 : wf (mkS (scalar x) [])) by (split; [constructor|reflexivity]).
      destruct (align_sub (mkS (scalar x) []) av W0 NDv) as [n (E1 & E2 & _)]; [intros ? []|].
      exists n. split; auto. split; [now rewrite E2, map_length|].
      intros e. rewrite (bget_aligned _ av n e W0 NDv E1). reflexivity. }
  destruct VAL as [n (EV & Lv & Gv)]. rewrite EV in H. cbn [bind] in H.
  destruct (assign (s_nd a) view n) as [w|] eqn:EA; [|discriminate]. cbn [bind] in H. injection H as <-.
  destruct (assign_ok (s_nd a) view n w) as (_ & Sw & G); auto.
  { unfold ndim. rewrite S2, Lv. simpl. rewrite map_length. lia. }
  assert (Ws : wf (mkS w (s_axes a))).
  { destruct W as [Wa Wb]. split; simpl; auto. now rewrite Sw. }
  split; auto. split; [unfold sshape; simpl; now rewrite Sw|]. split; [apply N1; eauto|].
  assert (TP := mask_positions m Wm). fold sel in TP. destruct TP as [T1 T2].
  intros e He.
  assert (RD : forall p, inb p (nshape view) -> nget view p = map e (s_axes a) ->
     exists k, nth_error sel k = Some (map e (s_axes m)) /\ p = k :: map e rest).
  { intros p P1 P2. rewrite S2 in P1. inversion P1 as [|k ? idx ? Hk Hr E1 E2]; subst.
    rewrite G2 in P2.
    set (g := env_of (s_axes m ++ rest) (nth k sel [] ++ idx)).
    assert (Lk : length (nth k sel []) = length (s_axes m)).
    { assert (In (nth k sel []) sel) by now apply nth_In. apply T2 in H as [e0 (_ & _ & ->)].
      now rewrite map_length. }
    assert (Eg : map g (s_axes m ++ rest) = nth k sel [] ++ idx).
    { apply map_env_of; auto. rewrite !app_length, Lk. f_equal.
      apply inb_length in Hr. now rewrite map_length in Hr. }
    rewrite <- Eg, W3 in P2. simpl in P2.
    assert (PE := map_eq_in _ _ _ P2). rewrite map_app in Eg.
    assert (EgA : map g (s_axes m) = nth k sel [] /\ map g rest = idx).
    { clear - Eg Lk. assert (L : length (map g (s_axes m)) = length (nth k sel [])) by (rewrite map_length; auto).
      exact (app_eq_split _ _ _ _ L Eg). }
    destruct EgA as [E1 E2]. exists k. split.
    - rewrite (nth_error_nth' sel []) by auto. f_equal. rewrite <- E1. apply map_ext_in. intros x Hx. now apply PE, I.
    - f_equal. rewrite <- E2. apply map_ext_in. intros x Hx. apply PE. apply others_In in Hx. tauto. }
  assert (NS : NoDup sel) by now apply StronglySorted_NoDup.
  destruct (G (map e (s_axes a))) as [[p (P1 & P2 & P3)]|[P1 P2]].
  - destruct (RD p P1 P2) as [k [Hk ->]]. split.
    + intros Hf. exfalso. assert (Hin : In (map e (s_axes m)) sel) by (eapply nth_error_In; eauto).
      apply T2 in Hin as [e0 (_ & Ht & Ee)]. unfold at_ in *. rewrite Ee in Hf. congruence.
    + intros k' Hk'. assert (k' = k).
      { apply (proj1 (NoDup_nth_error sel) NS); [|congruence]. apply nth_error_Some. congruence. }
      subst k'. unfold at_ at 1. simpl. rewrite P3. rewrite <- Gv.
      f_equal. unfold av. simpl. unfold set_env at 1. rewrite String.eqb_refl. f_equal.
      apply map_ext_in. intros x Hx. unfold set_env.
      destruct (String.eqb_spec x (mask_axis (s_axes m))); auto. subst. contradiction.
  - split; auto. intros k Hk. exfalso. apply (P1 (k :: map e rest)).
    + rewrite S2. constructor; [apply nth_error_Some; congruence|].
      apply Forall2_nth_intro with (d1 := 0) (d2 := 0); [now rewrite !map_length|].
      intros i Hi. rewrite map_length in Hi. rewrite !map_nth_in with (d := ""%string) by auto.
      apply inside_asize; auto. apply (others_In (s_axes a) (s_axes m)). now apply nth_In.
    + rewrite G2. erewrite nth_error_nth by eauto. rewrite <- map_app, W3. reflexivity.
Qed.

End Mask.

Lemma getitem_mask_full {A} (a : sarr A) (m : sarr bool) l r :
  wf a -> wf m -> true_positions m l -> getitem_mask a m = Ok r ->
  wf r /\
  s_axes r = filter (fun ax => negb (smem ax (s_axes m))) (s_axes a) ++ [mask_axis (s_axes m)] /\
  (forall ax n, In (ax, n) (sshape a) -> ~ In ax (s_axes m) -> In (ax, n) (sshape r)) /\
  In (mask_axis (s_axes m), length l) (sshape r) /\
  (forall e, inside e (sshape r) ->
     exists e', inside e' (sshape a) /\ at_ m e' = true /\
       nth_error l (e (mask_axis (s_axes m))) = Some (map e' (s_axes m)) /\
       (forall ax, In ax (s_axes a) -> ~ In ax (s_axes m) -> e' ax = e ax) /\
       at_ r e = at_ a e') /\
  (forall e', inside e' (sshape a) -> at_ m e' = true ->
     exists e, inside e (sshape r) /\
       nth_error l (e (mask_axis (s_axes m))) = Some (map e' (s_axes m)) /\
       (forall ax, In ax (s_axes a) -> ~ In ax (s_axes m) -> e ax = e' ax) /\
       at_ r e = at_ a e').
Proof.
  intros W Wm TP H.
  destruct (getitem_mask_ok a m W Wm r H) as (Wr & SS & NI & Sr & G).
  assert (TP' := mask_positions m Wm). rewrite (true_positions_unique m _ _ TP' TP) in *. clear TP'.
  set (rest := others (s_axes a) (s_axes m)) in *. set (nm := mask_axis (s_axes m)) in *.
  assert (SA : forall ax n, In (ax, n) (sshape a) -> In ax (s_axes a) /\ asize a ax = n).
  { intros ax n Hin. split.
    - rewrite <- wf_keys by auto. apply (in_map fst) in Hin. auto.
    - unfold asize. rewrite (dget_NoDup _ _ _ (wf_nodup a W) Hin). auto. }
  destruct TP as [T1 T2].
  assert (IM : incl (s_axes m) (s_axes a)).
  { intros x Hx. rewrite <- wf_keys in Hx by auto. apply dget_Some_key in Hx as [n Hn].
    specialize (SS x n (dget_In _ _ _ Hn)). now apply SA in SS. }
  assert (InR : forall e, inside e (sshape r) <->
            (forall ax, In ax rest -> e ax < asize a ax) /\ e nm < length l).
  { intros e. rewrite Sr. split.
    - intros He. split.
      + intros ax Hax. apply He. apply in_or_app. left. apply in_map_iff. exists ax. auto.
      + apply He. apply in_or_app. right. left. auto.
    - intros [H1 H2] ax n Hin. apply in_app_iff in Hin as [Hin|[Hin|[]]].
      + apply in_map_iff in Hin as [ax' [E Hin]]. injection E as <- <-. auto.
      + injection Hin as <- <-. auto. }
  split; auto. split; [|split; [|split; [|split]]].
  - rewrite <- (wf_keys r Wr), Sr. unfold dkeys. rewrite map_app, map_map. simpl. now rewrite map_id.
  - intros ax n Hin Hn. destruct (SA _ _ Hin) as [Hax <-]. rewrite Sr. apply in_or_app. left.
    apply in_map_iff. exists ax. split; auto. apply others_In. auto.
  - rewrite Sr. apply in_or_app. right. left. auto.
  - intros e He. apply InR in He as [H1 H2].
    assert (Hin : In (nth (e nm) l []) l) by now apply nth_In.
    apply T2 in Hin as [e0 (E1 & E2 & E3)].
    set (e' := fun ax => if smem ax (s_axes m) then e0 ax else e ax).
    assert (Em : map e' (s_axes m) = map e0 (s_axes m)).
    { apply map_ext_in. intros x Hx. unfold e'. now rewrite (proj2 (smem_In x _) Hx). }
    assert (Er : forall ax, ~ In ax (s_axes m) -> e' ax = e ax).
    { intros ax Hax. unfold e'. now rewrite (proj2 (smem_false ax _) Hax). }
    exists e'. split; [|split; [|split; [|split]]].
    + apply inside_asize; auto. intros ax Hax.
      destruct (in_dec string_dec ax (s_axes m)) as [Hm|Hm].
      * unfold e'. rewrite (proj2 (smem_In ax _) Hm).
        rewrite <- wf_keys in Hm by auto. apply dget_Some_key in Hm as [n Hn].
        assert (Ha := SS ax n (dget_In _ _ _ Hn)). apply SA in Ha as [_ ->].
        apply E1. now apply dget_In.
      * rewrite Er by auto. apply H1. apply others_In; auto.
    + unfold at_. rewrite Em. exact E2.
    + rewrite Em, <- E3. now apply nth_error_nth'.
    + intros; auto.
    + apply G; [now rewrite Em|]. intros ax Hax. apply Er. apply others_In in Hax. tauto.
  - intros e' He' Ht.
    assert (Hin : In (map e' (s_axes m)) l).
    { apply T2. exists e'. split; [|auto]. intros ax n Hn. apply He'. auto. }
    apply In_nth_error in Hin as [k Hk].
    assert (Lk : k < length l) by (apply nth_error_Some; congruence).
    exists (set_env e' nm k). unfold set_env at 2. rewrite String.eqb_refl.
    assert (Er : forall ax, In ax rest -> set_env e' nm k ax = e' ax).
    { intros ax Hax. unfold set_env. destruct (String.eqb_spec ax nm); auto. subst. contradiction. }
    split; [|split; [auto|split]].
    + apply InR. split.
      * intros ax Hax. rewrite Er by auto. apply inside_asize; auto. apply others_In in Hax. tauto.
      * unfold set_env. now rewrite String.eqb_refl.
    + intros ax H1 H2. apply Er. apply others_In. auto.
    + apply G.
      * unfold set_env. rewrite String.eqb_refl. symmetry. now apply nth_error_nth.
      * intros ax Hax. now rewrite Er.
Qed.

Lemma getitem_mask_success {A} (a : sarr A) (m : sarr bool) :
  wf a -> wf m ->
  ((exists r, getitem_mask a m = Ok r) <->
   (forall ax n, In (ax, n) (sshape m) -> In (ax, n) (sshape a)) /\
   (In (mask_axis (s_axes m)) (s_axes a) -> In (mask_axis (s_axes m)) (s_axes m))).
Proof.
  intros W Wm. split.
  - intros [r H]. destruct (getitem_mask_ok a m W Wm r H) as (_ & SS & NI & _). split; auto.
    intros Hin. destruct (in_dec string_dec (mask_axis (s_axes m)) (s_axes m)) as [|N]; auto.
    exfalso. apply NI. apply others_In; auto.
  - intros [SS H]. apply getitem_mask_intro; auto. intros Hin. apply others_In in Hin. tauto.
Qed.

Lemma setitem_mask_full {A} (a : sarr A) (m : sarr bool) (v : operand A) l r :
  wf a -> wf m -> op_wf v -> true_positions m l ->
  (In (mask_axis (s_axes m)) (s_axes a) -> In (mask_axis (s_axes m)) (s_axes m)) ->
  setitem_mask a m v = Ok r ->
  wf r /\ sshape r = sshape a /\
  forall e, inside e (sshape a) ->
    (at_ m e = false -> at_ r e = at_ a e) /\
    (at_ m e = true ->
     exists k, nth_error l k = Some (map e (s_axes m)) /\
       at_ r e = op_at v (set_env e (mask_axis (s_axes m)) k)).
Proof.
  intros W Wm Wv TP NI H.
  destruct (setitem_mask_ok a m W Wm v r Wv) as (Wr & Sr & SS & G); auto.
  { intros Hin. apply others_In in Hin. tauto. }
  assert (TP' := mask_positions m Wm). rewrite (true_positions_unique m _ _ TP' TP) in *. clear TP'.
  split; auto. split; auto. intros e He. destruct (G e He) as [G1 G2]. split; auto.
  intros Ht. destruct TP as [T1 T2].
  assert (Hin : In (map e (s_axes m)) l).
  { apply T2. exists e. split; [|auto]. intros ax n Hn. apply He. auto. }
  apply In_nth_error in Hin as [k Hk]. exists k. auto.
Qed.

Lemma fits_aligned {A} (b : sarr A) (t : shape) :
  wf b -> NoDup (dkeys t) ->
  ((exists n, ndarray_aligned b (dkeys t) = Ok n /\ bto_rev (rev (nshape n)) (rev (dvals t)) = true) <->
   fits_in (sshape b) t).
Proof.
  intros Wb N.
  assert (DS : forall ax m, In (ax, m) t <-> dget t ax = Some m).
  { intros ax m. split; [now apply dget_NoDup|apply dget_In]. }
  assert (LL : forall n, nshape n = map (asize b) (dkeys t) -> length (nshape (A:=A) n) = length (dvals t)).
  { intros n Hn. rewrite Hn. unfold dkeys, dvals. now rewrite !map_length. }
  assert (FF : Forall2 (fun m n => m = n \/ m = 1) (map (asize b) (dkeys t)) (dvals t) <->
            (forall ax m, In (ax, m) t -> asize b ax = m \/ asize b ax = 1)).
  { clear. unfold dkeys, dvals. rewrite map_map.
    induction t as [|[k m] s IH]; simpl; split; intros H.
    - intros ? ? [].
    - constructor.
    - inversion H; subst. intros ax m' [E|E]; [injection E as <- <-; auto|]. now apply IH.
    - constructor; auto. apply IH. intros; auto. }
  split.
  - intros [n [H1 H2]]. destruct (align_ok b _ n Wb N H1) as (I & S & _).
    rewrite bto_Forall2 in H2 by (apply LL; auto). rewrite S in H2.
    intros ax m Hin. assert (Hk : In ax (dkeys t)).
    { apply I. rewrite <- wf_keys by auto. now apply (in_map fst) in Hin. }
    apply dget_Some_key in Hk as [k Hk]. exists k. split; [now apply DS|].
    assert (asize b ax = m) by (unfold asize; now rewrite (dget_NoDup _ _ _ (wf_nodup b Wb) Hin)).
    apply DS in Hk. destruct (proj1 FF H2 ax k Hk); lia.
  - intros F. destruct (align_sub b (dkeys t) Wb N) as [n (H1 & H2 & H3)].
    + intros ax Hax. rewrite <- wf_keys in Hax by auto. apply dget_Some_key in Hax as [m Hm].
      destruct (F ax m (dget_In _ _ _ Hm)) as [k [Hk _]]. now apply (in_map fst) in Hk.
    + exists n. split; auto. rewrite bto_Forall2 by (apply LL; auto). rewrite H2.
      apply FF. intros ax k Hk. destruct (in_dec string_dec ax (s_axes b)) as [Hin|Hin].
      * rewrite <- wf_keys in Hin by auto. apply dget_Some_key in Hin as [m Hm].
        destruct (F ax m (dget_In _ _ _ Hm)) as [k' [Hk' C]].
        apply DS in Hk, Hk'. assert (k = k') by congruence. subst k'.
        unfold asize. rewrite Hm. lia.
      * right. now apply asize_absent.
Qed.

Lemma setitem_mask_success {A} (a : sarr A) (m : sarr bool) (v : operand A) :
  wf a -> wf m -> op_wf v ->
  (In (mask_axis (s_axes m)) (s_axes a) -> In (mask_axis (s_axes m)) (s_axes m)) ->
  ((exists r, setitem_mask a m v = Ok r) <->
   exists s, getitem_mask a m = Ok s /\ op_fits v (sshape s)).
Proof.
  intros W Wm Wv NI.
  destruct (forallb (fun ax => smem ax (s_axes a)) (s_axes m)) eqn:EI.
  2:{ unfold setitem_mask, getitem_mask. rewrite EI. cbn [negb]. split; [intros [r H]|intros [r [H _]]]; discriminate. }
  assert (I : incl (s_axes m) (s_axes a)).
  { intros x Hx. rewrite forallb_forall in EI. now apply smem_In, EI. }
  assert (NI' : ~ In (mask_axis (s_axes m)) (others (s_axes a) (s_axes m))).
  { intros Hin. apply others_In in Hin. tauto. }
  set (rest := others (s_axes a) (s_axes m)) in *. set (nm := mask_axis (s_axes m)) in *.
  set (sel := filter (nget (s_nd m)) (ndindex (nshape (s_nd m)))).
  assert (NDs : NoDup (s_axes m ++ rest)).
  { apply NoDup_app_intro; [apply Wm|apply NoDup_filter, W|]. intros x H1 H2. apply others_In in H2. tauto. }
  assert (Pm : Permutation (s_axes m ++ rest) (s_axes a)) by (apply front_perm; [apply W|apply Wm|auto]).
  assert (Wt : wf (iota_of a)) by (destruct W; split; auto).
  destruct (align_sub (iota_of a) (s_axes m ++ rest) Wt NDs) as [whole (W1 & W2 & W3)].
  { intros x Hx. eapply Permutation_in; [symmetry; exact Pm|auto]. }
  destruct (np_mask_ok a m W Wm whole I W2) as [N1 N2].
  set (t := (nm, length sel) :: map (fun ax => (ax, asize a ax)) rest).
  assert (Kt : dkeys t = nm :: rest).
  { unfold t, dkeys. simpl. rewrite map_map. simpl. now rewrite map_id. }
  assert (Vt : dvals t = length sel :: map (asize a) rest).
  { unfold t, dvals. simpl. now rewrite map_map. }
  assert (NDt : NoDup (dkeys t)) by (rewrite Kt; constructor; auto; apply NoDup_filter, W).
  assert (FT : forall s, getitem_mask a m = Ok s -> (op_fits v (sshape s) <-> op_fits v t)).
  { intros s Hs. destruct (getitem_mask_ok a m W Wm s Hs) as (_ & _ & _ & Sr & _).
    destruct v as [b|x]; simpl; [|tauto].
    assert (E : forall p, In p (sshape s) <-> In p t).
    { intros p. rewrite Sr. unfold t. rewrite in_app_iff. simpl. fold rest nm sel. tauto. }
    unfold fits_in. split; intros F ax n Hin; destruct (F ax n Hin) as [k [Hk ?]]; exists k; split; auto; now apply E. }
  assert (VF : (exists n, (match v with
         | OpNum x => ndarray_aligned (mkS (scalar x) []) (nm :: rest)
         | OpArr b => ndarray_aligned b (nm :: rest)
         end) = Ok n /\ bto_rev (rev (nshape n)) (rev (dvals t)) = true) <-> op_fits v t).
  { rewrite <- Kt. destruct v as [b|x]; cbn [op_fits op_wf] in *.
    - now apply fits_aligned.
    - assert (W0 : wf (mkS (scalar x) [])) by (split; [constructor|reflexivity]).
      rewrite (fits_aligned _ t W0 NDt). split; auto. intros _ ? ? []. }
  assert (UN : setitem_mask a m v =
     (view <- np_mask (s_nd m) whole ;;
      n <- match v with
           | OpNum x => ndarray_aligned (mkS (scalar x) []) (nm :: rest)
           | OpArr b => ndarray_aligned b (nm :: rest)
           end ;;
      r <- assign (s_nd a) view n ;; Ok (mkS r (s_axes a)))).
  { unfold setitem_mask. rewrite EI. cbn [negb].
    change (filter (fun ax => negb (smem ax (s_axes m))) (s_axes a)) with rest. rewrite W1. reflexivity. }
  rewrite UN.
  assert (Ln : forall n, (match v with
         | OpNum x => ndarray_aligned (mkS (scalar x) []) (nm :: rest)
         | OpArr b => ndarray_aligned b (nm :: rest)
         end) = Ok n -> ndim n = length (dvals t)).
  { intros n Hn. rewrite <- Kt in Hn.
    assert (LK : length (dkeys t) = length (dvals t)) by (unfold dkeys, dvals; now rewrite !map_length).
    unfold ndim. destruct v as [b|x].
    - destruct (align_ok b _ n Wv NDt Hn) as (_ & S & _). now rewrite S, map_length.
    - assert (W0 : wf (mkS (scalar x) [])) by (split; [constructor|reflexivity]).
      destruct (align_ok _ _ n W0 NDt Hn) as (_ & S & _). now rewrite S, map_length. }
  split.
  - intros [r H]. destruct (np_mask (s_nd m) whole) as [view|] eqn:EN; [|discriminate]. cbn [bind] in H.
    assert (SS := proj1 N1 (ex_intro _ view eq_refl)).
    destruct (N2 view eq_refl) as [S2 _]. fold rest sel in S2.
    destruct (proj2 (getitem_mask_success a m W Wm)) as [s Hs]; [split; auto|].
    exists s. split; auto. apply (FT s Hs). apply VF.
    destruct (match v with OpNum x => _ | OpArr b => _ end) as [n|] eqn:EV; [|discriminate]. cbn [bind] in H.
    destruct (assign (s_nd a) view n) as [w|] eqn:EA; [|discriminate].
    exists n. split; auto. destruct (assign_ok (s_nd a) view n w) as (B & _); auto.
    { rewrite (Ln n eq_refl). unfold ndim. now rewrite S2, <- Vt. }
    now rewrite S2, <- Vt in B.
  - intros [s [Hs F]]. apply (FT s Hs) in F. apply VF in F as [n [H1 H2]].
    destruct (proj1 (getitem_mask_success a m W Wm) (ex_intro _ s Hs)) as [SS _].
    apply N1 in SS as [view EN]. rewrite EN. cbn [bind]. rewrite H1. cbn [bind].
    destruct (N2 view EN) as [S2 _]. fold rest sel in S2.
    destruct (assign_intro (s_nd a) view n) as [w ->].
    + rewrite (Ln n H1). unfold ndim. now rewrite S2, <- Vt.
    + now rewrite S2, <- Vt.
    + cbn [bind]. eauto.
Qed.
