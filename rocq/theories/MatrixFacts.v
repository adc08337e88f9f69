(** Facts about matrix arrays. *)
From Coq Require Import Ascii String List Arith ZArith Bool Lia Permutation Field Field_theory Ring_theory.
From Verif Require Import Base BaseFacts Numpy NumpyFacts Shapes Scalar Elementwise Vector Matrix
  Spec SpecVector SpecMatrix ShapesFacts AlignFacts VectorFacts CartesianFacts VectorIndexFacts LinspaceFacts.
Import ListNotations.
Open Scope nat_scope.
Open Scope list_scope.

(** ** Names *)

Lemma names_length {L} (t : tree L) : length (names t) = length (leaves t).
Proof. unfold names. now rewrite map_length, paths_leaves. Qed.

Lemma names_child {L} c ty (cs : list (string * tree L)) :
  map (String.concat ".") (map (cons c) (paths (Node ty cs))) =
  map (fun s => c ++ "." ++ s)%string (names (Node ty cs)).
Proof.
  unfold names. rewrite !map_map. apply map_ext_in. intros p Hp. apply dotted_cons. eapply paths_nonempty; eauto.
Qed.

Lemma NoDup_app_l {A} (l1 l2 : list A) : NoDup (l1 ++ l2) -> NoDup l1.
Proof.
  induction l1 as [|x l1 IH]; intros N; [constructor|]. inversion N; subst. constructor.
  - intros H. apply H1. apply in_or_app. now left.
  - auto.
Qed.

Lemma NoDup_app_r {A} (l1 l2 : list A) : NoDup (l1 ++ l2) -> NoDup l2.
Proof. induction l1 as [|x l1 IH]; intros N; [exact N|]. inversion N; subst. auto. Qed.

Lemma NoDup_map_of {A B} (f : A -> B) l : NoDup (map f l) -> NoDup l.
Proof. apply NoDup_map_inv. Qed.

Lemma cart_entries {L} (t : tree L) : is_node t -> NoDup (names t) ->
  cartesian_nd t = combine (names t) (leaves t).
Proof.
  induction t as [l|ty cs IH] using tree_rect'; intros (ty' & cs' & E) N; [discriminate|]. clear E ty' cs'.
  cbn [cartesian_nd].
  set (entries := flat_map _ cs).
  assert (E : entries = combine (names (Node ty cs)) (leaves (Node ty cs))).
  { subst entries. unfold names in N |- *. cbn [paths leaves] in *.
    induction cs as [|[c x] cs IHc]; [reflexivity|].
    cbn [flat_map fst snd] in *. rewrite map_app in *. rewrite combine_app' by (now rewrite !map_length, paths_leaves).
    f_equal.
    - destruct x as [l|ty' cs']; [reflexivity|]. apply NoDup_app_l in N. rewrite names_child in N |- *. apply NoDup_map_of in N.
      rewrite (IH c (Node ty' cs') (or_introl eq_refl)); [|unfold is_node; eauto|exact N].
      now rewrite combine_map_l.
    - apply IHc.
      + intros c' x' H'. apply (IH c' x'). now right.
      + now apply NoDup_app_r in N. }
  rewrite E. apply dict_of_NoDup. now rewrite map_fst_combine by apply names_length.
Qed.

Lemma tree_ok_imp {L} (P Q : L -> Prop) (t : tree L) : (forall l, P l -> Q l) -> tree_ok P t -> tree_ok Q t.
Proof.
  intros H. induction t as [l|ty cs IH] using tree_rect'; intros W; inversion W; subst; constructor; auto.
  intros c x Hc. apply (IH c x Hc). eauto.
Qed.

Lemma cart_keys {L} (t : tree L) : is_node t -> NoDup (names t) -> map fst (cartesian_nd t) = names t.
Proof. intros T N. rewrite cart_entries by assumption. apply map_fst_combine, names_length. Qed.

Lemma cart_get {L} (t : tree L) c l : is_node t -> tree_ok (fun _ => True) t -> NoDup (names t) ->
  dget (cartesian_nd t) c = Some l <-> exists q, leaf_at t q = Some l /\ String.concat "." q = c.
Proof.
  intros T W N. rewrite cart_entries by assumption. unfold names in *. split.
  - intros H. apply dget_In in H. rewrite combine_map_l in H. apply in_map_iff in H. destruct H as ([q l'] & E & H).
    inversion E; subst. exists q. split; [|reflexivity]. now apply In_leaf_at.
  - intros (q & H & <-). apply dget_combine_In; [exact N|]. rewrite combine_map_l. apply in_map_iff. exists (q, l).
    split; [reflexivity|]. now apply leaf_at_In.
Qed.

Lemma part_get {A} (v : vec A) c o : vector_ok v -> part v c o <-> dget (cartesian_nd v) c = Some o.
Proof.
  intros (T & W & N & _). symmetry. apply cart_get; auto. eapply tree_ok_imp; [|exact W]. auto.
Qed.

Lemma part_name {A} (v : vec A) c : vector_ok v -> In c (names v) <-> exists o, part v c o.
Proof.
  intros V. assert (Q := V). destruct Q as (T & W & N & _). rewrite <- (cart_keys v T N). split.
  - intros H. change (In c (dkeys (cartesian_nd v))) in H. apply dget_Some_key in H. destruct H as (o & H). exists o. now apply part_get.
  - intros (o & H). apply part_get in H; [|exact V]. change (In c (dkeys (cartesian_nd v))). apply dget_Some_key. eauto.
Qed.

Lemma part_wf {A} (v : vec A) c o : vector_ok v -> part v c o -> op_wf o.
Proof. intros (_ & W & _ & _) (q & H & _). eapply tree_ok_leaf_at; eauto. Qed.

(** ** Rows *)

Definition rows_of {A} (m : matrix A) : dict (dict (operand A)) :=
  map (fun kv => (fst kv, cartesian_nd (snd kv))) (cartesian_nd m).

Lemma leaf_In {L} (t : tree L) p l : leaf_at t p = Some l -> In l (leaves t).
Proof. intros H. apply leaf_at_In in H. now apply in_combine_r in H. Qed.

Lemma In_leaf {L} (t : tree L) l : tree_ok (fun _ => True) t -> In l (leaves t) -> exists p, leaf_at t p = Some l.
Proof.
  intros W H. destruct (In_nth _ _ l H) as (i & Li & Ei). exists (nth i (paths t) []). apply In_leaf_at; [exact W|].
  replace (nth i (paths t) [], l) with (nth i (combine (paths t) (leaves t)) ([], l)).
  - apply nth_In. rewrite combine_length, paths_leaves. lia.
  - rewrite combine_nth by apply paths_leaves. now rewrite Ei.
Qed.

Lemma row_ok {A} (m : matrix A) row : matrix_ok m -> In row (leaves m) -> vector_ok row.
Proof.
  intros (_ & W & _) H. destruct (In_leaf m row) as (p & P); [eapply tree_ok_imp; [|exact W]; auto|exact H|].
  eapply tree_ok_leaf_at; eauto.
Qed.

Lemma m_rows_eq {A} (m : matrix A) : matrix_ok m -> m_rows m = Ok (rows_of m).
Proof.
  intros M. assert (Q := M). destruct Q as (T & W & N & _). destruct m as [v|ty cs]; [destruct T as (? & ? & T); discriminate|].
  unfold m_rows, rows_of. rewrite cart_entries by assumption.
  assert (R : forall v, In v (leaves (Node ty cs)) -> is_node v) by (intros v Hv; apply (row_ok _ v M Hv)).
  revert R. generalize (leaves (Node ty cs)) (names (Node ty cs)). intros l. induction l as [|v l IH]; intros [|n ns] R; try reflexivity.
  cbn [combine mapM map fst snd]. destruct (R v (or_introl eq_refl)) as (ty' & cs' & ->). cbn [flat_row bind].
  rewrite IH by (intros; apply R; now right). reflexivity.
Qed.

Lemma rows_keys {A} (m : matrix A) : matrix_ok m -> map fst (rows_of m) = names m.
Proof. intros (T & _ & N & _). unfold rows_of. rewrite map_map. cbn [fst]. now apply cart_keys. Qed.

Lemma dget_map_snd {V W} (f : V -> W) (d : dict V) k :
  dget (map (fun kv => (fst kv, f (snd kv))) d) k = option_map f (dget d k).
Proof. induction d as [|[k' v] d IH]; simpl; [reflexivity|]. destruct (String.eqb k k'); [reflexivity|exact IH]. Qed.

Lemma row_get {A} (m : matrix A) r row : matrix_ok m ->
  dget (rows_of m) r = Some row <-> exists p v, leaf_at m p = Some v /\ String.concat "." p = r /\ row = cartesian_nd v.
Proof.
  intros (T & W & N & _). unfold rows_of. rewrite (dget_map_snd (fun v => cartesian_nd v)).
  assert (W' : tree_ok (fun _ => True) m) by (eapply tree_ok_imp; [|exact W]; auto). split.
  - destruct (dget (cartesian_nd m) r) as [v|] eqn:E; [|discriminate]. intros H. injection H as <-.
    apply cart_get in E; auto. destruct E as (p & P & <-). eauto.
  - intros (p & v & P & R & ->). assert (E : dget (cartesian_nd m) r = Some v) by (apply cart_get; eauto). now rewrite E.
Qed.

Lemma cell_rows {A} (m : matrix A) r c o : matrix_ok m ->
  cell m r c o <-> exists row, dget (rows_of m) r = Some row /\ dget row c = Some o.
Proof.
  intros M. split.
  - intros (p & v & P & <- & Q). exists (cartesian_nd v). split; [apply row_get; eauto|]. apply part_get; [|exact Q].
    apply (row_ok m); [exact M|]. eapply leaf_In; eauto.
  - intros (row & R & D). apply row_get in R; [|exact M]. destruct R as (p & v & P & R & ->). exists p, v.
    split; [exact P|]. split; [exact R|]. apply part_get; [|exact D]. apply (row_ok m); [exact M|]. eapply leaf_In; eauto.
Qed.

(** ** The consistency of the rows *)

Lemma keys_eq_true l1 l2 : keys_eq l1 l2 = true <-> forall k, In k l1 <-> In k l2.
Proof.
  unfold keys_eq. rewrite andb_true_iff, !forallb_forall. split.
  - intros [H1 H2] k. split; intros H.
    + apply smem_In. now apply H1.
    + apply smem_In. now apply H2.
  - intros H. split; intros k Hk; apply smem_In; now apply H.
Qed.

Lemma rows_In {A} (m : matrix A) r row : matrix_ok m -> In (r, row) (rows_of m) ->
  exists v, In v (leaves m) /\ row = cartesian_nd v.
Proof.
  intros M H. unfold rows_of in H. apply in_map_iff in H. destruct H as ([k v] & E & H). inversion E; subst. clear E.
  destruct M as (T & W & N & _). rewrite cart_entries in H by assumption. apply in_combine_r in H. eauto.
Qed.

Lemma first_leaf_head {L} (t : tree L) l : first_leaf t = Ok l -> exists ls, leaves t = l :: ls.
Proof.
  induction t as [x|ty cs IH] using tree_rect'; intros H.
  - injection H as <-. simpl. eauto.
  - destruct cs as [|[c x] cs]; [discriminate|]. simpl in H. destruct (IH c x (or_introl eq_refl) H) as (ls & E).
    simpl. rewrite E. simpl. eauto.
Qed.

Lemma first_leaf_intro {L} (t : tree L) : tree_ok (fun _ => True) t ->
  filled t -> exists l, first_leaf t = Ok l.
Proof.
  induction t as [x|ty cs IH] using tree_rect'; intros W E; [simpl; eauto|].
  destruct cs as [|[c x] cs]; [exfalso; apply (E [] ty []); reflexivity|]. simpl.
  inversion W as [|? ? _ W']; subst. apply (IH c x (or_introl eq_refl) (W' c x (or_introl eq_refl))).
  intros p ty' cs' H. apply (E (c :: p) ty' cs'). simpl. now rewrite String.eqb_refl.
Qed.

Lemma consistent_true {A} (m : matrix A) row ls : matrix_ok m -> leaves m = row :: ls ->
  consistent (rows_of m) = true <-> has_columns m (names row).
Proof.
  intros M L. assert (Rok := fun r => row_ok m r M). assert (Q := M). destruct Q as (T & W & N & _).
  assert (E : rows_of m = map (fun kv => (fst kv, cartesian_nd (snd kv))) (combine (names m) (leaves m))).
  { unfold rows_of. now rewrite cart_entries. }
  assert (Ln := names_length m). rewrite L in E, Ln. destruct (names m) as [|n ns]; [discriminate|].
  rewrite E. cbn [combine map fst snd consistent]. rewrite forallb_forall.
  assert (K : forall v, In v (leaves m) -> map fst (cartesian_nd v) = names v).
  { intros v Hv. destruct (Rok v Hv) as (? & _ & ? & _). now apply cart_keys. }
  rewrite L in K. split.
  - intros H v Hv c. rewrite L in Hv. destruct Hv as [-> |Hv]; [tauto|].
    destruct (In_nth _ _ row Hv) as (i & Li & Ei). simpl in Ln.
    assert (Hin : In (nth i ns ""%string, cartesian_nd v) (map (fun kv => (fst kv, cartesian_nd (snd kv))) (combine ns ls))).
    { apply in_map_iff. exists (nth i ns ""%string, v). split; [reflexivity|].
      replace (nth i ns ""%string, v) with (nth i (combine ns ls) (""%string, row)).
      - apply nth_In. rewrite combine_length. lia.
      - rewrite combine_nth by lia. now rewrite Ei. }
    specialize (H _ Hin). cbn [snd] in H. rewrite !K in H by (simpl; auto). apply keys_eq_true with (k := c) in H. exact H.
  - intros H [k r] Hr. apply in_map_iff in Hr. destruct Hr as ([k' v] & Ek & Hr). inversion Ek; subst. cbn [snd].
    apply in_combine_r in Hr. rewrite !K by (simpl; auto). apply keys_eq_true. apply H. rewrite L. now right.
Qed.

Lemma has_columns_trans {A} (m : matrix A) C row : has_columns m C -> In row (leaves m) -> has_columns m (names row).
Proof. intros H R v Hv c. rewrite (H v Hv c), (H row R c). tauto. Qed.

Lemma row_prototype_intro {A} (m : matrix A) C : matrix_ok m -> has_columns m C ->
  exists row, row_prototype m = Ok row /\ In row (leaves m) /\ vector_ok row /\ forall c, In c (names row) <-> In c C.
Proof.
  intros M H. assert (Q := M). destruct Q as (T & W & N & E).
  destruct (first_leaf_intro m) as (row & R); [eapply tree_ok_imp; [|exact W]; auto|exact E|].
  destruct (first_leaf_head m row R) as (ls & L).
  assert (I : In row (leaves m)) by (rewrite L; now left).
  exists row. unfold row_prototype. rewrite m_rows_eq by exact M. cbn [bind].
  rewrite (proj2 (consistent_true m row ls M L)) by (eapply has_columns_trans; eauto).
  split; [exact R|]. split; [exact I|]. split; [now apply (row_ok m)|]. apply (H row I).
Qed.

Lemma row_prototype_ok {A} (m : matrix A) row : matrix_ok m -> row_prototype m = Ok row ->
  In row (leaves m) /\ vector_ok row /\ has_columns m (names row).
Proof.
  intros M H. unfold row_prototype in H. rewrite m_rows_eq in H by exact M. cbn [bind] in H.
  destruct (consistent (rows_of m)) eqn:C; [|discriminate]. destruct (first_leaf_head m row H) as (ls & L).
  assert (I : In row (leaves m)) by (rewrite L; now left). split; [exact I|]. split; [now apply (row_ok m)|].
  now apply (consistent_true m row ls M L).
Qed.

(** ** Trees of the same kind *)

Lemma same_paths {L M} (t : tree L) : forall (u : tree M), tree_ok (fun _ => True) t ->
  (forall p, kind u p = kind t p) -> (forall p, leaf_at u p = None <-> leaf_at t p = None) -> paths u = paths t.
Proof.
  induction t as [l|ty cs IH] using tree_rect'; intros u W Kd Lf.
  - destruct u as [m|ty' cs']; [reflexivity|]. specialize (Kd []). discriminate.
  - destruct u as [m|ty' cs']; [specialize (Kd []); discriminate|].
    assert (Nm := Kd []). simpl in Nm. injection Nm as _ Nm. inversion W as [|? ? N W']; subst. cbn [paths].
    assert (Ch : forall c x y, dget cs c = Some x -> dget cs' c = Some y -> paths y = paths x).
    { intros c x y Dx Dy. apply dget_In in Dx as Ix. apply (IH c x Ix y (W' c x Ix)).
      - intros p. specialize (Kd (c :: p)). simpl in Kd. now rewrite Dx, Dy in Kd.
      - intros p. specialize (Lf (c :: p)). simpl in Lf. now rewrite Dx, Dy in Lf. }
    clear IH Kd Lf W W'. revert cs' Nm Ch. induction cs as [|[c x] cs IHc]; intros [|[c' y] cs'] Nm Ch; try discriminate; [reflexivity|].
    simpl in Nm. injection Nm as -> Nm. inversion N; subst. cbn [flat_map fst snd]. f_equal.
    + f_equal. apply (Ch c); simpl; now rewrite String.eqb_refl.
    + apply IHc; auto. intros c' x' y' Dx Dy. apply (Ch c'); simpl.
      * destruct (String.eqb_spec c' c) as [-> |]; [|exact Dx]. exfalso. apply H1. apply dget_In in Dx.
        apply in_map_iff. now exists (c, x').
      * destruct (String.eqb_spec c' c) as [-> |]; [|exact Dy]. exfalso. apply H1. apply dget_In in Dx.
        apply in_map_iff. now exists (c, x').
Qed.

Lemma tree_ok_kind {L M} (P : L -> Prop) (Q : M -> Prop) (t : tree L) : forall u : tree M, tree_ok P t ->
  (forall p, kind u p = kind t p) -> (forall p l, leaf_at u p = Some l -> Q l) -> tree_ok Q u.
Proof.
  intros u W Kd Lf.
  assert (Nm : forall p ty n, kind u p = Some (ty, n) -> NoDup n).
  { intros p ty n H. rewrite Kd in H. clear - W H. revert p H. induction t as [x|ty' cs IH] using tree_rect'; intros [|c p] H; try discriminate.
    - simpl in H. injection H as <- <-. now inversion W.
    - simpl in H. destruct (dget cs c) as [y|] eqn:E; [|discriminate]. apply dget_In in E. inversion W; subst.
      exact (IH c y E (H3 c y E) p H). }
  clear - Nm Lf. induction u as [x|ty cs IH] using tree_rect'; [constructor; now apply (Lf [])|].
  assert (Nc : NoDup (map fst cs)) by exact (Nm [] ty _ eq_refl).
  constructor; [exact Nc|]. intros c x H. assert (D := dget_NoDup cs c x Nc H). apply (IH c x H).
  - intros p l E. apply (Lf (c :: p)). simpl. now rewrite D.
  - intros p ty' n E. apply (Nm (c :: p) ty' n). simpl. now rewrite D.
Qed.

Lemma map_tree_kind {L M} (f : L -> M) (t : tree L) p : kind (map_tree f t) p = kind t p.
Proof.
  revert p. induction t as [l|ty cs IH] using tree_rect'; intros [|c p]; try reflexivity; simpl.
  - now rewrite map_map.
  - rewrite (dget_map_snd (map_tree f)). destruct (dget cs c) as [x|] eqn:D; [|reflexivity]. simpl. apply dget_In in D. now apply (IH c x).
Qed.

Lemma map_tree_leaf {L M} (f : L -> M) (t : tree L) p : leaf_at (map_tree f t) p = option_map f (leaf_at t p).
Proof.
  revert p. induction t as [l|ty cs IH] using tree_rect'; intros [|c p]; try reflexivity; simpl.
  rewrite (dget_map_snd (map_tree f)). destruct (dget cs c) as [x|] eqn:D; [|reflexivity]. simpl. apply dget_In in D. now apply (IH c x).
Qed.

Lemma map_tree_paths {L M} (f : L -> M) (t : tree L) : paths (map_tree f t) = paths t.
Proof.
  induction t as [l|ty cs IH] using tree_rect'; [reflexivity|]. simpl. induction cs as [|[c x] cs IHc]; [reflexivity|]. simpl.
  rewrite (IH c x) by now left. f_equal. apply IHc. intros c' x' H'. apply (IH c' x'). now right.
Qed.

Lemma map_tree_leaves {L M} (f : L -> M) (t : tree L) : leaves (map_tree f t) = map f (leaves t).
Proof.
  induction t as [l|ty cs IH] using tree_rect'; [reflexivity|]. simpl. induction cs as [|[c x] cs IHc]; [reflexivity|]. simpl.
  rewrite map_app, (IH c x) by now left. f_equal. apply IHc. intros c' x' H'. apply (IH c' x'). now right.
Qed.

Lemma map_tree_names {L M} (f : L -> M) (t : tree L) : names (map_tree f t) = names t.
Proof. unfold names. now rewrite map_tree_paths. Qed.

Lemma map_tree_node {L M} (f : L -> M) (t : tree L) : is_node t -> is_node (map_tree f t).
Proof. intros (ty & cs & ->). simpl. unfold is_node. eauto. Qed.

Lemma map_tree_ok {L M} (P : L -> Prop) (Q : M -> Prop) (f : L -> M) (t : tree L) :
  (forall l, P l -> Q (f l)) -> tree_ok P t -> tree_ok Q (map_tree f t).
Proof.
  intros H W. eapply tree_ok_kind; [exact W|apply map_tree_kind|]. intros p l E. rewrite map_tree_leaf in E.
  destruct (leaf_at t p) as [x|] eqn:Lx; [|discriminate]. injection E as <-. apply H. eapply tree_ok_leaf_at; eauto.
Qed.

(** ** Building a matrix from a flat one *)

Lemma m_from_nd_spec {A} (like : matrix A) : forall nd r,
  m_from_nd nd like = Ok r ->
  (forall p, kind r p = kind like p) /\
  forall p, match leaf_at like p with
            | Some row => exists nr v, dget nd (String.concat "." p) = Some nr /\ from_cartesian_nd nr row = Ok v /\ leaf_at r p = Some v
            | None => leaf_at r p = None
            end.
Proof.
  induction like as [l|ty cs IH] using tree_rect'; intros nd r H; [discriminate|].
  cbn [m_from_nd] in H. apply bind_ok in H. destruct H as (rs & H & H'). inversion H'; subst r.
  change (on_components (fun c x =>
        match x with
        | Leaf row => match dget nd c with Some nr => v <- from_cartesian_nd nr row ;; Ok (Leaf v) | None => Err KeyError end
        | Node _ _ => m_from_nd (map (fun e => (drop (String.length (c ++ ".")%string) (fst e), snd e))
             (filter (fun e => starts_with (c ++ ".")%string (fst e)) nd)) x
        end) cs = Ok rs) in H.
  apply on_components_get in H. destruct H as [N H]. split.
  - intros [|c p]; simpl; [now rewrite N|]. specialize (H c).
    destruct (dget cs c) as [x|] eqn:D, (dget rs c) as [y|]; try contradiction; [|reflexivity].
    apply dget_In in D. destruct x as [l|ty' cs'].
    + destruct (dget nd c); [|discriminate]. apply bind_ok in H. destruct H as (v & _ & H). inversion H; subst. destruct p; reflexivity.
    + exact (proj1 (IH c _ D _ _ H) p).
  - intros [|c p]; simpl; [reflexivity|]. specialize (H c).
    destruct (dget cs c) as [x|] eqn:D, (dget rs c) as [y|]; try contradiction; [|reflexivity].
    apply dget_In in D. destruct x as [l|ty' cs'].
    + destruct (dget nd c) as [l'|] eqn:E; [|discriminate]. apply bind_ok in H. destruct H as (v & Fv & H). inversion H; subst.
      destruct p as [|c' p]; simpl; [|reflexivity]. eauto.
    + assert (Q := proj2 (IH c _ D _ _ H) p). destruct p as [|c' p]; [exact Q|].
      destruct (leaf_at (Node ty' cs') (c' :: p)) as [l|]; [|exact Q]. destruct Q as (nr & v & Q1 & Q2 & Q3).
      exists nr, v. split; [|auto]. rewrite <- Q1, dget_sub. f_equal. now rewrite sapp_assoc.
Qed.

Lemma m_from_nd_total {A} (like : matrix A) : forall nd,
  is_node like -> tree_ok (fun _ => True) like ->
  (forall p row, leaf_at like p = Some row -> exists nr v, dget nd (String.concat "." p) = Some nr /\ from_cartesian_nd nr row = Ok v) ->
  exists r, m_from_nd nd like = Ok r.
Proof.
  induction like as [l|ty cs IH] using tree_rect'; intros nd (ty' & cs' & E) W H; [discriminate|]. clear E ty' cs'.
  inversion W as [|? ? N W']; subst. cbn [m_from_nd].
  enough (X : exists rs, on_components (fun c x =>
        match x with
        | Leaf row => match dget nd c with Some nr => v <- from_cartesian_nd nr row ;; Ok (Leaf v) | None => Err KeyError end
        | Node _ _ => m_from_nd (map (fun e => (drop (String.length (c ++ ".")%string) (fst e), snd e))
             (filter (fun e => starts_with (c ++ ".")%string (fst e)) nd)) x
        end) cs = Ok rs).
  { destruct X as (rs & X). unfold on_components in X. rewrite X. simpl. eauto. }
  apply on_components_intro. intros c x Hc. assert (D : dget cs c = Some x) by (apply dget_NoDup; auto).
  destruct x as [l|ty' cs'].
  - destruct (H [c] l) as (nr & v & Dn & Fv); [simpl; rewrite D; reflexivity|]. simpl in Dn. rewrite Dn, Fv. simpl. eauto.
  - apply (IH c _ Hc); [unfold is_node; eauto|exact (W' c _ Hc)|]. intros p row Hp. rewrite dget_sub.
    destruct p as [|c' p]; [simpl in Hp; congruence|].
    destruct (H (c :: c' :: p) row) as (nr & v & Dn & Fv); [simpl; rewrite D; exact Hp|].
    exists nr, v. split; [|exact Fv]. rewrite <- Dn. f_equal. now rewrite sapp_assoc.
Qed.

(** ** Arithmetic: an operand which fits into the shape [B] and reads [f] there *)

Definition reads {A} (B : shape) (o : operand A) (f : env -> A) : Prop :=
  op_wf o /\ fits_in (op_shape o) B /\ forall e, inside e B -> op_at o e = f e.

Lemma fits_within B s e : fits_in s B -> inside e B -> within e s.
Proof.
  intros H I ax n Hn. destruct (H ax n Hn) as (m & Hm & [-> | ->]); [now left|right; now apply I].
Qed.

Lemma reads_self {A} B (o : operand A) : op_wf o -> fits_in (op_shape o) B -> reads B o (op_at o).
Proof. intros. split; auto. Qed.

Lemma reads_ext {A} B (o : operand A) f g : reads B o f -> (forall e, inside e B -> f e = g e) -> reads B o g.
Proof. intros (W & S & V) H. split; [exact W|]. split; [exact S|]. intros e I. rewrite V by exact I. auto. Qed.

Lemma reads_num {A} B (x : A) : reads B (OpNum x) (fun _ => x).
Proof. split; [exact I|]. split; [intros ax n []|reflexivity]. Qed.

Lemma ufunc_reads {A A'} (h : list A -> A') B os :
  NoDup (dkeys B) -> Forall op_wf os -> Forall (fun o => fits_in (op_shape o) B) os ->
  exists o, op_ufunc h os = Ok o /\ reads B o (fun e => h (map (fun x => op_at x e) os)).
Proof.
  intros N W S.
  assert (Nd : Forall (fun s => NoDup (dkeys s)) (op_shapes os)).
  { apply Forall_forall. intros s H. unfold op_shapes in H. apply in_flat_map in H.
    destruct H as ([b|y] & Hb & H); [|contradiction]. destruct H as [<- |[]].
    rewrite Forall_forall in W. apply wf_nodup. exact (W _ Hb). }
  assert (Fs : forall s, In s (op_shapes os) -> fits_in s B).
  { intros s H. unfold op_shapes in H. apply in_flat_map in H.
    destruct H as ([b|y] & Hb & H); [|contradiction]. destruct H as [<- |[]].
    rewrite Forall_forall in S. exact (S _ Hb). }
  destruct (broadcast_shapes_total _ Nd) as [(sh & E)|E].
  - destruct (op_ufunc_intro h os sh W E) as (o & Eo). exists o. split; [exact Eo|].
    assert (X := op_ufunc_spec h os o W Eo). assert (X' := X). destruct X' as (Wo & So & _ & _).
    assert (Fo : fits_in (op_shape o) B).
    { intros ax n H. destruct (broadcast_attained _ _ ax n Nd So H) as (s & Hs & Hn). exact (Fs s Hs ax n Hn). }
    split; [exact Wo|]. split; [exact Fo|]. intros e I.
    apply elementwise_within; [exact W|exact X|]. eapply fits_within; eauto.
  - exfalso. apply broadcast_shapes_conflict in E; [|exact Nd]. destruct E as (ax & n & m & Hn & Hm & D & D1 & D2).
    apply sizes_of_In in Hn, Hm. destruct Hn as (s & Hs & Hn), Hm as (t & Ht & Hm).
    destruct (Fs s Hs ax n (dget_In _ _ _ Hn)) as (k & Hk & [-> | ->]); [congruence|].
    destruct (Fs t Ht ax m (dget_In _ _ _ Hm)) as (k' & Hk' & [-> | ->]); [congruence|]. apply D.
    assert (X := dget_NoDup B ax k N Hk). rewrite (dget_NoDup B ax k' N Hk') in X. congruence.
Qed.

Section Arith.
Context {F : Type} (K : arith F) (FK : is_field K).

Let Fth : field_theory (zero K) (one K) (plus K) (times K) (minus K) (neg K) (over K) (over K (one K)) eq := proj1 FK.
Add Field Kf : Fth.

Lemma op2_reads B h a b f g : NoDup (dkeys B) -> reads B a f -> reads B b g ->
  exists o, op2 K h a b = Ok o /\ reads B o (fun e => h (f e) (g e)).
Proof.
  intros N (Wa & Sa & Va) (Wb & Sb & Vb). unfold op2.
  destruct (ufunc_reads (fun l => match l with [x; y] => h x y | _ => zero K end) B [a; b] N) as (o & E & R); [auto..|].
  exists o. split; [exact E|]. eapply reads_ext; [exact R|]. intros e I. simpl. now rewrite Va, Vb.
Qed.

Lemma op1_reads B h a f : NoDup (dkeys B) -> reads B a f ->
  exists o, op1 K h a = Ok o /\ reads B o (fun e => h (f e)).
Proof.
  intros N (Wa & Sa & Va). unfold op1.
  destruct (ufunc_reads (fun l => match l with [x] => h x | _ => zero K end) B [a] N) as (o & E & R); [auto..|].
  exists o. split; [exact E|]. eapply reads_ext; [exact R|]. intros e I. simpl. now rewrite Va.
Qed.

Lemma normalize_reads {A} B (a : operand A) f : reads B a f -> reads B (OpArr (normalize a)) f.
Proof.
  intros (W & S & V). split; [now apply normalize_wf|]. split; [simpl; now rewrite normalize_shape|].
  intros e I. rewrite op_at_normalize. auto.
Qed.

Lemma all_zero_at B a f e : reads B (OpArr a) f -> op_all_zero K a = true -> inside e B -> f e = zero K.
Proof.
  intros (W & S & V) Z I. rewrite <- V by exact I. simpl. unfold bat. apply (proj2 FK).
  unfold op_all_zero in Z. rewrite forallb_forall in Z. apply Z. unfold at_. apply ravel_In.
  eexists. split; [|reflexivity]. apply inside_inb; [exact W|]. apply clamp_inside; [now apply wf_nodup|].
  eapply fits_within; eauto.
Qed.

Lemma scalar_matmul_reads B a b f g : NoDup (dkeys B) -> reads B (OpArr a) f -> reads B (OpArr b) g ->
  exists o, scalar_matmul K a b = Ok o /\ reads B o (fun e => times K (f e) (g e)).
Proof.
  intros N Ra Rb. unfold scalar_matmul. destruct (op_all_zero K a) eqn:Za; [|destruct (op_all_zero K b) eqn:Zb]; cbn [orb].
  - exists (OpNum (zero K)). split; [reflexivity|]. eapply reads_ext; [apply reads_num|]. intros e I. simpl.
    rewrite (all_zero_at B a f e) by assumption. ring.
  - exists (OpNum (zero K)). split; [reflexivity|]. eapply reads_ext; [apply reads_num|]. intros e I. simpl.
    rewrite (all_zero_at B b g e) by assumption. ring.
  - now apply op2_reads.
Qed.

Lemma dot_reads B x1 x2 (f g : string -> env -> F) : NoDup (dkeys B) -> NoDup (map fst x1) ->
  (forall k, In k (map fst x1) <-> In k (map fst x2)) ->
  (forall k o, In (k, o) x1 -> reads B o (f k)) -> (forall k o, dget x2 k = Some o -> reads B o (g k)) ->
  exists o, dot K x1 x2 = Ok o /\ reads B o (fun e => sum_over K (map fst x1) (fun k => times K (f k e) (g k e))).
Proof.
  intros N N1 Ks H1 H2. unfold dot. rewrite (proj2 (keys_eq_true _ _) Ks).
  assert (D : forall k, In k (map fst x1) -> exists o, dget x2 k = Some o).
  { intros k Hk. apply Ks in Hk. change (In k (dkeys x2)) in Hk. now apply dget_Some_key in Hk. }
  clear Ks N1.
  enough (G : forall acc s, reads B acc s ->
    exists o, foldM (fun result kv => match dget x2 (fst kv) with
         | Some b => p <- scalar_matmul K (normalize (snd kv)) (normalize b) ;; op2 K (plus K) result p
         | None => Err KeyError end) x1 acc = Ok o /\
      reads B o (fun e => plus K (s e) (sum_over K (map fst x1) (fun k => times K (f k e) (g k e))))).
  { destruct (G _ _ (reads_num B (zero K))) as (o & E & R). exists o. split; [exact E|]. eapply reads_ext; [exact R|].
    intros e I. simpl. ring. }
  induction x1 as [|[k a] x1 IH]; intros acc s R; simpl.
  - exists acc. split; [reflexivity|]. eapply reads_ext; [exact R|]. intros e I. simpl. ring.
  - destruct (D k (or_introl eq_refl)) as (b & Eb). rewrite Eb.
    destruct (scalar_matmul_reads B (normalize a) (normalize b) (f k) (g k)) as (p & Ep & Rp).
    + exact N.
    + apply normalize_reads. apply H1. now left.
    + apply normalize_reads. now apply H2.
    + rewrite Ep. cbn [bind]. destruct (op2_reads B (plus K) acc p s _ N R Rp) as (q & Eq & Rq). rewrite Eq. cbn [bind].
      destruct (IH (fun k o H => H1 k o (or_intror H)) (fun k H => D k (or_intror H)) q _ Rq) as (o & Eo & Ro).
      exists o. split; [exact Eo|]. eapply reads_ext; [exact Ro|]. intros e I. simpl. ring.
Qed.
End Arith.

(** ** Rebuilding vectors and matrices *)

Lemma kind_node {L M} (t : tree L) (u : tree M) : is_node t -> (forall p, kind u p = kind t p) -> is_node u.
Proof. intros (ty & cs & ->) H. specialize (H []). destruct u as [x|ty' cs']; [discriminate|]. unfold is_node. eauto. Qed.

Lemma named_leaf {L} (t : tree L) c : tree_ok (fun _ => True) t -> In c (names t) ->
  exists q l, leaf_at t q = Some l /\ String.concat "." q = c.
Proof.
  intros W H. unfold names in H. apply in_map_iff in H. destruct H as (q & E & H).
  destruct (In_nth _ _ q H) as (i & Li & Ei). rewrite paths_leaves in Li.
  destruct (nth_error (leaves t) i) as [l|] eqn:El; [|apply nth_error_None in El; lia].
  exists q, l. split; [|exact E]. apply In_leaf_at; [exact W|].
  replace (q, l) with (nth i (combine (paths t) (leaves t)) (q, l)).
  - apply nth_In. rewrite combine_length, paths_leaves. lia.
  - rewrite combine_nth by apply paths_leaves. rewrite Ei. f_equal. now apply nth_error_nth.
Qed.

Lemma leaf_named {L} (t : tree L) q l : leaf_at t q = Some l -> In (String.concat "." q) (names t).
Proof. intros H. apply leaf_at_In in H. apply in_combine_l in H. unfold names. apply in_map_iff. eauto. Qed.

Lemma leaf_unique {L} (t : tree L) q q' l l' : tree_ok (fun _ => True) t -> NoDup (names t) ->
  leaf_at t q = Some l -> leaf_at t q' = Some l' -> String.concat "." q = String.concat "." q' -> q = q' /\ l = l'.
Proof.
  intros W N H H' E.
  assert (Q : q = q').
  { apply leaf_at_In, in_combine_l in H. apply leaf_at_In, in_combine_l in H'.
    unfold names in N. revert N H H' E. generalize (paths t). clear.
    induction l as [|x l IH]; intros N H H' E; [contradiction|]. simpl in N. inversion N; subst.
    destruct H as [<- |H], H' as [<- |H']; auto.
    - exfalso. apply H2. rewrite E. now apply in_map.
    - exfalso. apply H2. rewrite <- E. now apply in_map. }
  subst q'. split; [reflexivity|]. congruence.
Qed.

Lemma build_vector {A} (like : vec A) (nd : dict (operand A)) :
  is_node like -> tree_ok (fun _ => True) like -> NoDup (names like) -> filled like ->
  (forall c, In c (names like) -> exists o, dget nd c = Some o /\ op_wf o) ->
  exists v, from_cartesian_nd nd like = Ok v /\ vector_ok v /\ (forall p, kind v p = kind like p) /\ names v = names like /\
    forall c o, part v c o <-> In c (names like) /\ dget nd c = Some o.
Proof.
  intros T W N Fl H.
  destruct (from_nd_total like nd T W) as (v & E).
  { intros p Hp. destruct (leaf_at like p) as [l|] eqn:El; [|congruence]. destruct (H _ (leaf_named like p l El)) as (o & Eo & _).
    intros X. assert (Y := eq_trans (eq_sym Eo) X). discriminate. }
  exists v. split; [exact E|]. destruct (from_nd_spec like nd v E) as [Kd Lf].
  assert (Pt : paths v = paths like).
  { apply same_paths; [exact W|exact Kd|]. intros p. specialize (Lf p). destruct (leaf_at like p); [|tauto].
    split; intros X; [destruct Lf; contradiction|discriminate]. }
  assert (Nm : names v = names like) by (unfold names; now rewrite Pt).
  assert (Lv : forall p o, leaf_at v p = Some o -> In (String.concat "." p) (names like) /\ dget nd (String.concat "." p) = Some o).
  { intros p o Hp. split; [rewrite <- Nm; eapply leaf_named; eauto|]. specialize (Lf p). destruct (leaf_at like p); [|congruence].
    destruct Lf as [Lf _]. congruence. }
  split; [|split; [exact Kd|split; [exact Nm|]]].
  - split; [eapply kind_node; eauto|]. split; [|split; [now rewrite Nm|intros p ty cs Hk; rewrite Kd in Hk; eapply Fl; eauto]]. eapply tree_ok_kind; [exact W|exact Kd|].
    intros p o Hp. destruct (Lv p o Hp) as [Hc Hd]. destruct (H _ Hc) as (o' & Eo & Wo). congruence.
  - intros c o. split.
    + intros (q & Hq & <-). now apply Lv.
    + intros [Hc Hd]. destruct (named_leaf like c W Hc) as (q & l & Hq & <-). exists q. split; [|reflexivity].
      specialize (Lf q). rewrite Hq in Lf. destruct Lf as [Lf _]. rewrite Lf. exact Hd.
Qed.

Lemma matrix_tree {A} (m : matrix A) : matrix_ok m -> tree_ok (fun _ => True) m.
Proof. intros (_ & W & _). eapply tree_ok_imp; [|exact W]. auto. Qed.

Lemma vector_tree {A} (v : vec A) : vector_ok v -> tree_ok (fun _ => True) v.
Proof. intros (_ & W & _). eapply tree_ok_imp; [|exact W]. auto. Qed.

Lemma leaf_row_ok {A} (m : matrix A) p row : matrix_ok m -> leaf_at m p = Some row -> vector_ok row.
Proof. intros M H. eapply row_ok; [exact M|]. eapply leaf_In; eauto. Qed.

Lemma build_matrix {A} (like : matrix A) (nd : dict (dict (operand A))) :
  matrix_ok like ->
  (forall p row, leaf_at like p = Some row -> exists nr, dget nd (String.concat "." p) = Some nr /\
     forall c, In c (names row) -> exists o, dget nr c = Some o /\ op_wf o) ->
  exists m, m_from_nd nd like = Ok m /\ matrix_ok m /\ (forall p, kind m p = kind like p) /\ names m = names like /\
    (forall p row, leaf_at like p = Some row -> exists v, leaf_at m p = Some v /\ (forall q, kind v q = kind row q) /\ names v = names row) /\
    (forall p v, leaf_at m p = Some v -> exists row, leaf_at like p = Some row) /\
    forall i c o, cell m i c o <->
      (exists p row, leaf_at like p = Some row /\ String.concat "." p = i /\ In c (names row)) /\
      exists nr, dget nd i = Some nr /\ dget nr c = Some o.
Proof.
  intros M H. assert (W := matrix_tree like M). assert (Q := M). destruct Q as (T & _ & N & E).
  assert (V : forall p row, leaf_at like p = Some row -> exists nr v, dget nd (String.concat "." p) = Some nr /\ from_cartesian_nd nr row = Ok v /\
    vector_ok v /\ (forall q, kind v q = kind row q) /\ names v = names row /\ forall c o, part v c o <-> In c (names row) /\ dget nr c = Some o).
  { intros p row Hp. assert (Rk := leaf_row_ok like p row M Hp). destruct (H p row Hp) as (nr & Dn & Hc).
    destruct (build_vector row nr) as (v & Ev & X); [apply Rk|now apply vector_tree|apply Rk|apply Rk|exact Hc|].
    exists nr, v. tauto. }
  destruct (m_from_nd_total like nd T W) as (m & Em).
  { intros p row Hp. destruct (V p row Hp) as (nr & v & X1 & X2 & _). eauto. }
  exists m. split; [exact Em|]. destruct (m_from_nd_spec like nd m Em) as [Kd Lf].
  assert (Pt : paths m = paths like).
  { apply same_paths; [exact W|exact Kd|]. intros p. specialize (Lf p). destruct (leaf_at like p); [|tauto].
    destruct Lf as (? & ? & _ & _ & Lf). rewrite Lf. split; discriminate. }
  assert (Nm : names m = names like) by (unfold names; now rewrite Pt).
  assert (Lm : forall p v, leaf_at m p = Some v -> exists row nr, leaf_at like p = Some row /\ dget nd (String.concat "." p) = Some nr /\
    vector_ok v /\ (forall q, kind v q = kind row q) /\ names v = names row /\ forall c o, part v c o <-> In c (names row) /\ dget nr c = Some o).
  { intros p v Hp. specialize (Lf p). destruct (leaf_at like p) as [row|] eqn:El; [|congruence].
    destruct Lf as (nr & v' & X1 & X2 & X3). destruct (V p row El) as (nr' & v'' & Y1 & Y2 & Y3).
    assert (nr' = nr) by congruence. subst nr'. assert (v'' = v') by congruence. subst v''.
    assert (v' = v) by congruence. subst v'. exists row, nr. tauto. }
  assert (Ll : forall p row, leaf_at like p = Some row -> exists v, leaf_at m p = Some v).
  { intros p row El. specialize (Lf p). rewrite El in Lf. destruct Lf as (? & v & _ & _ & X). eauto. }
  split; [|split; [exact Kd|split; [exact Nm|split; [|split]]]].
  - split; [eapply kind_node; eauto|]. split; [|split; [now rewrite Nm|]].
    + eapply tree_ok_kind; [exact W|exact Kd|]. intros p v Hp. destruct (Lm p v Hp) as (row & nr & X). tauto.
    + intros p ty cs Hk. rewrite Kd in Hk. eapply E; eauto.
  - intros p row El. destruct (Ll p row El) as (v & Hv). destruct (Lm p v Hv) as (row' & nr & X1 & X2 & X3 & X4 & X5 & _).
    assert (row' = row) by congruence. subst row'. exists v. tauto.
  - intros p v Hv. destruct (Lm p v Hv) as (row & nr & X1 & _). eauto.
  - intros i c o. split.
    + intros (p & v & Hp & <- & Hc). destruct (Lm p v Hp) as (row & nr & X1 & X2 & X3 & X4 & X5 & X6).
      apply X6 in Hc. destruct Hc as [Hc Hd]. split; eauto.
    + intros ((p & row & Hp & <- & Hc) & nr & D1 & D2). destruct (Ll p row Hp) as (v & Hv).
      destruct (Lm p v Hv) as (row' & nr' & X1 & X2 & X3 & X4 & X5 & X6).
      assert (row' = row) by congruence. assert (nr' = nr) by congruence. subst. exists p, v. split; [exact Hv|]. split; [reflexivity|].
      apply X6. auto.
Qed.

(** the prototype of a matrix *)
Lemma prototype_ok {L A} (t : tree L) (row : vec A) : is_node t -> tree_ok (fun _ => True) t -> NoDup (names t) ->
  filled t -> vector_ok row -> matrix_ok (prototype_matrix t row).
Proof.
  intros T W N E R. unfold prototype_matrix. split; [now apply map_tree_node|]. split; [eapply map_tree_ok; [|exact W]; auto|].
  split; [now rewrite map_tree_names|]. intros p ty cs H. rewrite map_tree_kind in H. eauto.
Qed.

(** a flat matrix with the rows [rs] and the columns [cs] fills the prototype *)
Lemma build_flat {L A} (t : tree L) (row : vec A) (nd : dict (dict (operand A))) :
  is_node t -> tree_ok (fun _ => True) t -> NoDup (names t) ->
  filled t -> vector_ok row ->
  (forall i, In i (names t) -> exists nr, dget nd i = Some nr /\ forall c, In c (names row) -> exists o, dget nr c = Some o /\ op_wf o) ->
  exists m, m_from_nd nd (prototype_matrix t row) = Ok m /\ matrix_ok m /\ (forall p, kind m p = kind t p) /\ names m = names t /\
    (forall v, In v (leaves m) -> (forall q, kind v q = kind row q) /\ names v = names row) /\
    forall i c o, cell m i c o <->
      In i (names t) /\ In c (names row) /\ exists nr, dget nd i = Some nr /\ dget nr c = Some o.
Proof.
  intros T W N E R H. assert (M := prototype_ok t row T W N E R).
  destruct (build_matrix (prototype_matrix t row) nd M) as (m & Em & Mm & Kd & Nm & L1 & L2 & C).
  - intros p v Hp. unfold prototype_matrix in Hp. rewrite map_tree_leaf in Hp. destruct (leaf_at t p) as [l|] eqn:El; [|discriminate].
    injection Hp as <-. apply H. eapply leaf_named; eauto.
  - exists m. split; [exact Em|]. split; [exact Mm|]. split; [intros p; rewrite Kd; apply map_tree_kind|].
    split; [rewrite Nm; apply map_tree_names|]. split.
    + intros v Hv. destruct (In_leaf m v (matrix_tree m Mm) Hv) as (p & Hp). destruct (L2 p v Hp) as (row' & Hr).
      destruct (L1 p row' Hr) as (v' & Hv' & X). unfold prototype_matrix in Hr. rewrite map_tree_leaf in Hr.
      destruct (leaf_at t p); [|discriminate]. injection Hr as <-. assert (v' = v) by congruence. subst. exact X.
    + intros i c o. rewrite C. split.
      * intros ((p & row' & Hp & <- & Hc) & X). unfold prototype_matrix in Hp. rewrite map_tree_leaf in Hp.
        destruct (leaf_at t p) as [l|] eqn:El; [|discriminate]. injection Hp as <-. split; [eapply leaf_named; eauto|]. auto.
      * intros (Hi & Hc & X). split; [|exact X]. destruct (named_leaf t i W Hi) as (p & l & Hp & <-). exists p, row.
        split; [unfold prototype_matrix; rewrite map_tree_leaf, Hp; reflexivity|]. auto.
Qed.

Lemma mapM_dict {X V} (key : X -> string) (f : X -> res (string * V)) (P : X -> V -> Prop) l :
  NoDup (map key l) -> (forall x, In x l -> exists y, f x = Ok (key x, y) /\ P x y) ->
  exists ys, mapM f l = Ok ys /\ map fst ys = map key l /\ forall x, In x l -> exists y, dget ys (key x) = Some y /\ P x y.
Proof.
  induction l as [|x l IH]; intros N H; [exists []; simpl; repeat split; intros ? []|].
  simpl in N. inversion N; subst. destruct (H x (or_introl eq_refl)) as (y & Ey & Py).
  destruct (IH H3) as (ys & E & M & G); [intros z Hz; apply H; now right|].
  exists ((key x, y) :: ys). simpl. rewrite Ey. cbn [bind]. rewrite E. cbn [bind]. split; [reflexivity|]. split; [now rewrite M|].
  intros z [<- |Hz].
  - exists y. now rewrite String.eqb_refl.
  - destruct (String.eqb_spec (key z) (key x)) as [Q|_]; [|now apply G]. exfalso. apply H2. rewrite <- Q. now apply in_map.
Qed.

(** ** Entries *)

Lemma part_unique {A} (v : vec A) c o o' : vector_ok v -> part v c o -> part v c o' -> o = o'.
Proof. intros V H H'. apply part_get in H, H'; try exact V. congruence. Qed.

Lemma cell_unique {A} (m : matrix A) r c o o' : matrix_ok m -> cell m r c o -> cell m r c o' -> o = o'.
Proof.
  intros M H H'. apply cell_rows in H, H'; try exact M. destruct H as (row & H1 & H2), H' as (row' & H1' & H2'). congruence.
Qed.

Lemma cell_ok {A} (m : matrix A) r c o : matrix_ok m -> cell m r c o -> op_wf o.
Proof. intros M (p & row & Hp & _ & Hc). eapply part_wf; [|exact Hc]. eapply leaf_row_ok; eauto. Qed.

Lemma cell_exists {A} (m : matrix A) C r c : matrix_ok m -> has_columns m C ->
  In r (names m) /\ In c C <-> exists o, cell m r c o.
Proof.
  intros M H. split.
  - intros [Hr Hc]. destruct (named_leaf m r (matrix_tree m M) Hr) as (p & row & Hp & <-).
    assert (Rk := leaf_row_ok m p row M Hp). apply (H row (leaf_In _ _ _ Hp)) in Hc. apply part_name in Hc; [|exact Rk].
    destruct Hc as (o & Hc). exists o, p, row. auto.
  - intros (o & p & row & Hp & <- & Hc). split; [eapply leaf_named; eauto|]. apply (H row (leaf_In _ _ _ Hp)).
    apply part_name; [eapply leaf_row_ok; eauto|eauto].
Qed.

Lemma row_keys {A} (m : matrix A) r row : matrix_ok m -> dget (rows_of m) r = Some row ->
  exists v, In v (leaves m) /\ vector_ok v /\ map fst row = names v.
Proof.
  intros M H. apply row_get in H; [|exact M]. destruct H as (p & v & Hp & _ & ->). exists v.
  assert (Rk := leaf_row_ok m p v M Hp). split; [eapply leaf_In; eauto|]. split; [exact Rk|]. apply cart_keys; apply Rk.
Qed.

Lemma rows_pair {A} (m : matrix A) r row : matrix_ok m -> In (r, row) (rows_of m) <-> dget (rows_of m) r = Some row.
Proof.
  intros M. split; intros H; [|now apply dget_In]. apply dget_NoDup; [|exact H]. unfold dkeys. rewrite rows_keys by exact M. apply M.
Qed.

Lemma filled_row {A} (m : matrix A) row : matrix_ok m -> In row (leaves m) -> filled row.
Proof. intros M H. apply (row_ok m row M H). Qed.

Ltac eqbs := repeat match goal with
  | |- context [String.eqb ?x ?x] => rewrite (String.eqb_refl x)
  | H : ?x <> ?y |- context [String.eqb ?x ?y] => rewrite (proj2 (String.eqb_neq x y) H)
  | H : ?y <> ?x |- context [String.eqb ?x ?y] => rewrite (proj2 (String.eqb_neq x y) (not_eq_sym H))
  | |- context [dget (_ :: _) _] => cbn [dget]
  end.

Ltac step K B N := match goal with
  | Ra : reads B ?a _, Rb : reads B ?b _ |- context [op2 K ?h ?a ?b] =>
      let o := fresh "o" in let E := fresh "E" in let R := fresh "R" in
      destruct (op2_reads K B h a b _ _ N Ra Rb) as (o & E & R); rewrite E; clear E; cbn [bind]; cbv beta in R
  | Ra : reads B ?a _ |- context [op1 K ?h ?a] =>
      let o := fresh "o" in let E := fresh "E" in let R := fresh "R" in
      destruct (op1_reads K B h a _ N Ra) as (o & E & R); rewrite E; clear E; cbn [bind]; cbv beta in R
  end.

Section Products.
Context {F : Type} (K : arith F) (FK : is_field K).

Lemma column_ok (m : matrix F) : matrix_ok m -> vector_ok (column_prototype K m) /\ names (column_prototype K m) = names m.
Proof.
  intros M. assert (Q := M). destruct Q as (T & W & N & E). unfold column_prototype. split; [|apply map_tree_names].
  split; [now apply map_tree_node|]. split; [eapply map_tree_ok; [|exact W]; intros; exact I|].
  split; [now rewrite map_tree_names|]. intros p ty cs H. rewrite map_tree_kind in H. eauto.
Qed.

Lemma transpose_spec (m : matrix F) C : matrix_ok m -> has_columns m C ->
  exists t row, m_transpose K m = Ok t /\ row_prototype m = Ok row /\ matrix_ok t /\ (forall q, kind t q = kind row q) /\ names t = names row /\
    (forall v, In v (leaves t) -> (forall q, kind v q = kind m q) /\ names v = names m) /\
    forall i j o, cell t i j o <-> cell m j i o.
Proof.
  intros M H. destruct (row_prototype_intro m C M H) as (row & Er & Ir & Rk & Hc).
  assert (Hr : has_columns m (names row)) by (eapply has_columns_trans; eauto).
  destruct (column_ok m M) as [Ck Cn]. unfold m_transpose. rewrite m_rows_eq, Er by exact M. cbn [bind].
  rewrite cart_keys by apply Rk.
  destruct (mapM_dict (fun c => c) (fun c =>
            r <- mapM (fun kv => match dget (snd kv) c with Some x => Ok (fst kv, x) | None => Err KeyError end) (rows_of m) ;;
            Ok (c, r)) (fun c nr => forall i o, cell m i c o <-> dget nr i = Some o) (names row)) as (flat & Ef & _ & Gf).
  { rewrite map_id. apply Rk. }
  { intros c Hc'.
    destruct (mapM_dict fst (fun kv => match dget (snd kv) c with Some x => Ok (fst kv, x) | None => Err KeyError end)
                (fun kv o => cell m (fst kv) c o) (rows_of m)) as (nr & En & Kn & Gn).
    - rewrite rows_keys by exact M. apply M.
    - intros [r v] Hv. cbn [fst snd]. apply rows_pair in Hv; [|exact M].
      assert (Hi : In r (names m)).
      { rewrite <- rows_keys by exact M. change (In r (dkeys (rows_of m))). apply dget_Some_key. eauto. }
      destruct (proj1 (cell_exists m (names row) r c M Hr) (conj Hi Hc')) as (o & Ho). exists o.
      assert (Ho' := Ho). apply cell_rows in Ho'; [|exact M]. destruct Ho' as (v' & D1 & D2).
      assert (v' = v) by congruence. subst v'. rewrite D2. auto.
    - exists nr. rewrite En. cbn [bind]. split; [reflexivity|].
      assert (Gd : forall i, In i (names m) -> exists o, dget nr i = Some o /\ cell m i c o).
      { intros i Hi. rewrite <- rows_keys in Hi by exact M. apply in_map_iff in Hi. destruct Hi as (kv & <- & Hi). now apply Gn. }
      intros i o. split.
      + intros Ho. destruct (Gd i) as (o' & D & Ho').
        * destruct Ho as (p & v & Hp & <- & _). eapply leaf_named; eauto.
        * rewrite D. f_equal. eapply cell_unique; eauto.
      + intros D. destruct (Gd i) as (o' & D' & Ho').
        * assert (X : In i (map fst nr)) by (change (In i (dkeys nr)); apply dget_Some_key; eauto).
          rewrite Kn in X. now rewrite rows_keys in X by exact M.
        * congruence. }
  rewrite Ef. cbn [bind].
  destruct (build_flat row (column_prototype K m) flat) as (t & Et & Mt & Kt & Nt & Lt & Ct).
  - apply Rk.
  - now apply vector_tree.
  - apply Rk.
  - apply Rk.
  - exact Ck.
  - intros i Hi. destruct (Gf i Hi) as (nr & D & X). exists nr. split; [exact D|]. intros c Hcc. rewrite Cn in Hcc.
    destruct (proj1 (cell_exists m (names row) c i M Hr) (conj Hcc Hi)) as (o & Ho). exists o. split; [now apply X|].
    eapply cell_ok; eauto.
  - exists t, row. split; [exact Et|]. split; [first [exact Er|reflexivity]|]. split; [exact Mt|]. split; [exact Kt|]. split; [exact Nt|]. split.
    + intros v Hv. destruct (Lt v Hv) as [X Y]. split; [|now rewrite Y, Cn]. intros q. rewrite X. apply map_tree_kind.
    + intros i j o. rewrite Ct, Cn. split.
      * intros (Hi & Hj & nr & D1 & D2). destruct (Gf i Hi) as (nr' & D & X). assert (Z := eq_trans (eq_sym D) D1). injection Z as ->.
        now apply X.
      * intros Ho. destruct (proj2 (cell_exists m (names row) j i M Hr) (ex_intro _ o Ho)) as [Hj Hi].
        split; [exact Hi|]. split; [exact Hj|]. destruct (Gf i Hi) as (nr & D & X). exists nr. split; [exact D|]. now apply X.
Qed.

(** ** Sums *)

Let Fth : field_theory (zero K) (one K) (plus K) (times K) (minus K) (neg K) (over K) (over K (one K)) eq := proj1 FK.
Add Field Kf : Fth.

Lemma sum_over_ext l f g : (forall k, In k l -> f k = g k) -> sum_over K l f = sum_over K l g.
Proof.
  induction l as [|k l IH]; intros H; [reflexivity|]. simpl. rewrite (H k) by now left. f_equal. apply IH.
  intros k' Hk. apply H. now right.
Qed.

Lemma sum_over_perm l l' f : Permutation l l' -> sum_over K l f = sum_over K l' f.
Proof.
  induction 1; simpl; [reflexivity|now rewrite IHPermutation|ring|congruence].
Qed.

Lemma sum_over_same l l' f : NoDup l -> NoDup l' -> (forall k, In k l <-> In k l') -> sum_over K l f = sum_over K l' f.
Proof. intros N N' H. apply sum_over_perm. now apply NoDup_Permutation. Qed.

Lemma sum_over_plus l f g : sum_over K l (fun k => plus K (f k) (g k)) = plus K (sum_over K l f) (sum_over K l g).
Proof. induction l as [|k l IH]; simpl; [ring|]. rewrite IH. ring. Qed.

Lemma sum_over_times_l l f x : sum_over K l (fun k => times K x (f k)) = times K x (sum_over K l f).
Proof. induction l as [|k l IH]; simpl; [ring|]. rewrite IH. ring. Qed.

Lemma sum_over_times_r l f x : sum_over K l (fun k => times K (f k) x) = times K (sum_over K l f) x.
Proof. induction l as [|k l IH]; simpl; [ring|]. rewrite IH. ring. Qed.

Lemma sum_over_zero l : sum_over K l (fun _ => zero K) = zero K.
Proof. induction l as [|k l IH]; simpl; [reflexivity|]. rewrite IH. ring. Qed.

Lemma sum_over_swap l l' f :
  sum_over K l (fun k => sum_over K l' (fun j => f k j)) = sum_over K l' (fun j => sum_over K l (fun k => f k j)).
Proof.
  induction l as [|k l IH]; simpl; [now rewrite sum_over_zero|]. rewrite IH, <- sum_over_plus. reflexivity.
Qed.

(** ** The numbers in a matrix *)

Definition entry (m : matrix F) (r c : string) (e : env) : F :=
  match dget (rows_of m) r with
  | Some row => match dget row c with Some o => op_at o e | None => zero K end
  | None => zero K
  end.

Definition comp (v : vec F) (c : string) (e : env) : F :=
  match dget (cartesian_nd v) c with Some o => op_at o e | None => zero K end.

Lemma entry_cell (m : matrix F) r c o e : matrix_ok m -> cell m r c o -> entry m r c e = op_at o e.
Proof. intros M H. apply cell_rows in H; [|exact M]. destruct H as (row & D1 & D2). unfold entry. now rewrite D1, D2. Qed.

Lemma comp_part (v : vec F) c o e : vector_ok v -> part v c o -> comp v c e = op_at o e.
Proof. intros V H. apply part_get in H; [|exact V]. unfold comp. now rewrite H. Qed.

Lemma matmul_spec B (m1 m2 : matrix F) C : NoDup (dkeys B) ->
  matrix_ok m1 -> matrix_ok m2 -> matrix_fits B m1 -> matrix_fits B m2 -> has_columns m1 (names m2) -> has_columns m2 C ->
  exists r row2, matmul K m1 m2 = Ok r /\ row_prototype m2 = Ok row2 /\ matrix_ok r /\ (forall p, kind r p = kind m1 p) /\ names r = names m1 /\
    (forall v, In v (leaves r) -> (forall q, kind v q = kind row2 q) /\ names v = names row2) /\
    forall i j o, cell r i j o -> reads B o (fun e => sum_over K (names m2) (fun k => times K (entry m1 i k e) (entry m2 k j e))).
Proof.
  intros N M1 M2 F1 F2 H1 H2. destruct (row_prototype_intro m1 _ M1 H1) as (row1 & Er1 & Ir1 & Rk1 & Hc1).
  destruct (transpose_spec m2 C M2 H2) as (t & row2 & Et & Er2 & Mt & Kt & Nt & Lt & Ct).
  destruct (row_prototype_ok m2 row2 M2 Er2) as (Ir2 & Rk2 & Hr2).
  unfold matmul. rewrite m_rows_eq, Er1 by exact M1. cbn [bind]. destruct (column_ok m2 M2) as [Ck Cn].
  rewrite !cart_keys by first [apply Rk1 | apply Ck]. rewrite Cn.
  rewrite (proj2 (keys_eq_true _ _) Hc1), Er2, Et. cbn [bind]. rewrite m_rows_eq by exact Mt. cbn [bind].
  set (S := fun i j e => sum_over K (names m2) (fun k => times K (entry m1 i k e) (entry m2 k j e))).
  destruct (mapM_dict fst (fun kv =>
                 r <- mapM (fun kc => x <- dot K (snd kv) (snd kc) ;; Ok (fst kc, x)) (rows_of t) ;;
                 Ok (fst kv, r)) (fun kv nr => forall j, In j (names row2) -> exists o, dget nr j = Some o /\ reads B o (S (fst kv) j)) (rows_of m1)) as (flat & Ef & _ & Gf).
  { rewrite rows_keys by exact M1. apply M1. }
  { intros [i v1] Hi. cbn [fst snd]. apply rows_pair in Hi; [|exact M1].
    destruct (mapM_dict fst (fun kc => x <- dot K v1 (snd kc) ;; Ok (fst kc, x)) (fun kc o => reads B o (S i (fst kc))) (rows_of t)) as (nr & En & Kn & Gn).
    - rewrite rows_keys by exact Mt. apply Mt.
    - intros [j v2] Hj. cbn [fst snd]. apply rows_pair in Hj; [|exact Mt].
      destruct (row_keys m1 i v1 M1 Hi) as (u1 & Iu1 & Uk1 & Ku1). destruct (row_keys t j v2 Mt Hj) as (u2 & Iu2 & Uk2 & Ku2).
      assert (Ku2' : map fst v2 = names m2) by (rewrite Ku2; apply (Lt u2 Iu2)).
      assert (Nv1 : NoDup (map fst v1)) by (rewrite Ku1; apply Uk1).
      destruct (dot_reads K FK B v1 v2 (fun k e => entry m1 i k e) (fun k e => entry m2 k j e)) as (o & Eo & Ro).
      + exact N.
      + exact Nv1.
      + intros k. rewrite Ku1, Ku2'. apply (H1 u1 Iu1).
      + intros k o Ho. assert (D := dget_NoDup v1 k o Nv1 Ho).
        assert (Co : cell m1 i k o) by (apply cell_rows; [exact M1|eauto]).
        eapply reads_ext; [apply reads_self; [exact (cell_ok m1 i k o M1 Co)|exact (F1 i k o Co)]|]. intros e _. symmetry. now apply entry_cell.
      + intros k o D. assert (Co : cell m2 k j o) by (apply Ct; apply cell_rows; [exact Mt|eauto]).
        eapply reads_ext; [apply reads_self; [exact (cell_ok m2 k j o M2 Co)|exact (F2 k j o Co)]|]. intros e _. symmetry. now apply entry_cell.
      + exists o. rewrite Eo. cbn [bind]. split; [reflexivity|]. eapply reads_ext; [exact Ro|]. intros e _. unfold S.
        apply sum_over_same; [exact Nv1|apply M2|]. intros k. rewrite Ku1. apply (H1 u1 Iu1).
    - exists nr. rewrite En. cbn [bind]. split; [reflexivity|]. intros j Hj. rewrite <- Nt, <- rows_keys in Hj by exact Mt.
      apply in_map_iff in Hj. destruct Hj as (kc & <- & Hj). destruct (Gn kc Hj) as (o & Do & Ro). eauto. }
  rewrite Ef. cbn [bind].
  assert (Gd : forall i, In i (names m1) -> exists nr, dget flat i = Some nr /\ forall j, In j (names row2) -> exists o, dget nr j = Some o /\ reads B o (S i j)).
  { intros i Hi. rewrite <- rows_keys in Hi by exact M1. apply in_map_iff in Hi. destruct Hi as (kv & <- & Hi). now apply Gf. }
  assert (Q := M1). destruct Q as (T1 & _ & N1 & E1).
  destruct (build_flat m1 row2 flat T1 (matrix_tree m1 M1) N1 E1 Rk2) as (r & Er & Mr & Kr & Nr & Lr & Cr).
  - intros i Hi. destruct (Gd i Hi) as (nr & D & X). exists nr. split; [exact D|]. intros c Hc.
    destruct (X c Hc) as (o & Do & Ro). exists o. split; [exact Do|apply Ro].
  - exists r, row2. split; [exact Er|]. split; [first [exact Er2|reflexivity]|]. split; [exact Mr|]. split; [exact Kr|]. split; [exact Nr|]. split; [exact Lr|].
    intros i j o Co. apply Cr in Co. destruct Co as (Hi & Hj & nr & D1 & D2). destruct (Gd i Hi) as (nr' & D & X).
    assert (Z := eq_trans (eq_sym D) D1). injection Z as ->. destruct (X j Hj) as (o' & D' & Ro). assert (o' = o) by congruence. subst. exact Ro.
Qed.

Lemma matvec_spec B (m : matrix F) (v : vec F) : NoDup (dkeys B) ->
  matrix_ok m -> vector_ok v -> matrix_fits B m -> vector_fits B v -> has_columns m (names v) -> rows_typed m v ->
  exists r, matvec K m v = Ok r /\ vector_ok r /\ (forall p, kind r p = kind m p) /\ names r = names m /\
    forall i o, part r i o -> reads B o (fun e => sum_over K (names v) (fun k => times K (entry m i k e) (comp v k e))).
Proof.
  intros N M V Fm Fv H Ty. destruct (row_prototype_intro m _ M H) as (row & Er & Ir & Rk & Hc).
  unfold matvec. rewrite m_rows_eq, Er by exact M. cbn [bind].
  assert (Tr := Ty row Ir). assert (Kv : map fst (cartesian_nd v) = names v) by (apply cart_keys; apply V).
  assert (Vget := fun c o => part_get v c o V). assert (Vw := fun c o => part_wf v c o V).
  assert (Vc := fun c o e => comp_part v c o e V).
  destruct v as [x|ty cs]; [destruct V as ((? & ? & X) & _); discriminate|].
  destruct row as [x|ty' cs']; [destruct Rk as ((? & ? & X) & _); discriminate|].
  cbv [type_name kind option_map fst] in Tr. injection Tr as ->. rewrite String.eqb_refl.
  set (v := Node ty cs) in *.
  set (S := fun i e => sum_over K (names v) (fun k => times K (entry m i k e) (comp v k e))).
  destruct (mapM_dict fst (fun kv => x <- dot K (snd kv) (cartesian_nd v) ;; Ok (fst kv, x))
      (fun kv o => reads B o (S (fst kv))) (rows_of m)) as (flat & Ef & _ & Gf).
  { rewrite rows_keys by exact M. apply M. }
  { intros [i v1] Hi. cbn [fst snd]. apply rows_pair in Hi; [|exact M].
    destruct (row_keys m i v1 M Hi) as (u1 & Iu1 & Uk1 & Ku1).
    assert (Nv1 : NoDup (map fst v1)) by (rewrite Ku1; apply Uk1).
    destruct (dot_reads K FK B v1 (cartesian_nd v) (fun k e => entry m i k e) (fun k e => comp v k e)) as (o & Eo & Ro).
    - exact N.
    - exact Nv1.
    - intros k. rewrite Ku1, Kv. apply (H u1 Iu1).
    - intros k o Ho. assert (D := dget_NoDup v1 k o Nv1 Ho).
      assert (Co : cell m i k o) by (apply cell_rows; [exact M|eauto]).
      eapply reads_ext; [apply reads_self; [exact (cell_ok m i k o M Co)|exact (Fm i k o Co)]|].
      intros e _. symmetry. now apply entry_cell.
    - intros k o D. apply Vget in D.
      eapply reads_ext; [apply reads_self; [exact (Vw k o D)|exact (Fv k o D)]|]. intros e _. symmetry. now apply Vc.
    - exists o. rewrite Eo. cbn [bind]. split; [reflexivity|]. eapply reads_ext; [exact Ro|]. intros e _. unfold S.
      apply sum_over_same; [exact Nv1|apply V|]. intros k. rewrite Ku1. apply (H u1 Iu1). }
  rewrite Ef. cbn [bind]. destruct (column_ok m M) as [Ck Cn].
  assert (Gd : forall i, In i (names m) -> exists o, dget flat i = Some o /\ reads B o (S i)).
  { intros i Hi. rewrite <- rows_keys in Hi by exact M. apply in_map_iff in Hi. destruct Hi as (kv & <- & Hi). now apply Gf. }
  destruct (build_vector (column_prototype K m) flat) as (r & Er' & Vr & Kr & Nr & Pr).
  - apply Ck.
  - now apply vector_tree.
  - apply Ck.
  - apply Ck.
  - intros c Hc'. rewrite Cn in Hc'. destruct (Gd c Hc') as (o & Do & Ro). exists o. split; [exact Do|apply Ro].
  - exists r. split; [exact Er'|]. split; [exact Vr|]. split; [intros p; rewrite Kr; apply map_tree_kind|].
    split; [now rewrite Nr, Cn|]. intros i o Po. apply Pr in Po. rewrite Cn in Po. destruct Po as [Hi D].
    destruct (Gd i Hi) as (o' & D' & Ro). assert (o' = o) by congruence. subst. exact Ro.
Qed.

Lemma vecmat_spec B (v : vec F) (m : matrix F) C : NoDup (dkeys B) ->
  vector_ok v -> matrix_ok m -> vector_fits B v -> matrix_fits B m ->
  (forall k, In k (names v) <-> In k (names m)) -> has_columns m C ->
  exists r row, vecmat K v m = Ok r /\ row_prototype m = Ok row /\ vector_ok r /\ (forall p, kind r p = kind row p) /\ names r = names row /\
    forall j o, part r j o -> reads B o (fun e => sum_over K (names v) (fun k => times K (comp v k e) (entry m k j e))).
Proof.
  intros N V M Fv Fm Hk H. destruct (transpose_spec m C M H) as (t & row & Et & Er & Mt & Kt & Nt & Lt & Ct).
  unfold vecmat. rewrite Et. cbn [bind]. rewrite m_rows_eq by exact Mt. cbn [bind].
  assert (Kv : map fst (cartesian_nd v) = names v) by (apply cart_keys; apply V).
  assert (Nv : NoDup (names v)) by apply V.
  assert (Vget := fun c o => part_get v c o V). assert (Vw := fun c o => part_wf v c o V).
  assert (Vc := fun c o e => comp_part v c o e V).
  destruct v as [x|ty cs]; [destruct V as ((? & ? & X) & _); discriminate|]. set (v := Node ty cs) in *.
  set (S := fun j e => sum_over K (names v) (fun k => times K (comp v k e) (entry m k j e))).
  destruct (mapM_dict fst (fun kc => x <- dot K (cartesian_nd v) (snd kc) ;; Ok (fst kc, x))
      (fun kc o => reads B o (S (fst kc))) (rows_of t)) as (flat & Ef & _ & Gf).
  { rewrite rows_keys by exact Mt. apply Mt. }
  { intros [j v2] Hj. cbn [fst snd]. apply rows_pair in Hj; [|exact Mt].
    destruct (row_keys t j v2 Mt Hj) as (u2 & Iu2 & Uk2 & Ku2).
    assert (Ku2' : map fst v2 = names m) by (rewrite Ku2; apply (Lt u2 Iu2)).
    destruct (dot_reads K FK B (cartesian_nd v) v2 (fun k e => comp v k e) (fun k e => entry m k j e)) as (o & Eo & Ro).
    - exact N.
    - now rewrite Kv.
    - intros k. rewrite Kv, Ku2'. apply Hk.
    - intros k o Ho. assert (D : dget (cartesian_nd v) k = Some o) by (apply dget_NoDup; [unfold dkeys; now rewrite Kv|exact Ho]).
      apply Vget in D. eapply reads_ext; [apply reads_self; [exact (Vw k o D)|exact (Fv k o D)]|].
      intros e _. symmetry. now apply Vc.
    - intros k o D. assert (Co : cell m k j o) by (apply Ct; apply cell_rows; [exact Mt|eauto]).
      eapply reads_ext; [apply reads_self; [exact (cell_ok m k j o M Co)|exact (Fm k j o Co)]|].
      intros e _. symmetry. now apply entry_cell.
    - exists o. rewrite Eo. cbn [bind]. split; [reflexivity|]. rewrite Kv in Ro. exact Ro. }
  rewrite Ef. cbn [bind]. destruct (column_ok t Mt) as [Ck Cn].
  assert (Gd : forall i, In i (names t) -> exists o, dget flat i = Some o /\ reads B o (S i)).
  { intros i Hi. rewrite <- rows_keys in Hi by exact Mt. apply in_map_iff in Hi. destruct Hi as (kv & <- & Hi). now apply Gf. }
  destruct (build_vector (column_prototype K t) flat) as (r & Er' & Vr & Kr & Nr & Pr).
  - apply Ck.
  - now apply vector_tree.
  - apply Ck.
  - apply Ck.
  - intros c Hc'. rewrite Cn in Hc'. destruct (Gd c Hc') as (o & Do & Ro). exists o. split; [exact Do|apply Ro].
  - exists r, row. split; [exact Er'|]. split; [exact Er|]. split; [exact Vr|].
    split; [intros p; rewrite Kr, <- Kt; apply map_tree_kind|].
    split; [now rewrite Nr, Cn, Nt|]. intros i o Po. apply Pr in Po. rewrite Cn in Po. destruct Po as [Hi D].
    destruct (Gd i Hi) as (o' & D' & Ro). assert (o' = o) by congruence. subst. exact Ro.
Qed.

Lemma vec_dot_spec B (v w : vec F) : NoDup (dkeys B) ->
  vector_ok v -> vector_ok w -> vector_fits B v -> vector_fits B w -> (forall k, In k (names v) <-> In k (names w)) ->
  exists o, vec_dot K v w = Ok o /\ reads B o (fun e => sum_over K (names v) (fun k => times K (comp v k e) (comp w k e))).
Proof.
  intros N V W Fv Fw Hk.
  assert (Kv : map fst (cartesian_nd v) = names v) by (apply cart_keys; apply V).
  assert (Kw : map fst (cartesian_nd w) = names w) by (apply cart_keys; apply W).
  replace (vec_dot K v w) with (dot K (cartesian_nd v) (cartesian_nd w)).
  2:{ destruct V as ((? & ? & ->) & _), W as ((? & ? & ->) & _). reflexivity. }
  destruct (dot_reads K FK B (cartesian_nd v) (cartesian_nd w) (fun k e => comp v k e) (fun k e => comp w k e)) as (o & Eo & Ro).
  - exact N.
  - rewrite Kv. apply V.
  - intros k. rewrite Kv, Kw. apply Hk.
  - intros k o Ho. assert (D : dget (cartesian_nd v) k = Some o) by (apply dget_NoDup; [unfold dkeys; rewrite Kv; apply V|exact Ho]).
    apply part_get in D; [|exact V]. eapply reads_ext; [apply reads_self; [exact (part_wf v k o V D)|exact (Fv k o D)]|].
    intros e _. symmetry. now apply comp_part.
  - intros k o D. apply part_get in D; [|exact W].
    eapply reads_ext; [apply reads_self; [exact (part_wf w k o W D)|exact (Fw k o D)]|].
    intros e _. symmetry. now apply comp_part.
  - exists o. split; [exact Eo|]. now rewrite Kv in Ro.
Qed.

Lemma inconsistent_prototype (m : matrix F) : matrix_ok m -> (forall C, ~ has_columns m C) -> row_prototype m = Err ValueError.
Proof.
  intros M H. unfold row_prototype. rewrite m_rows_eq by exact M. cbn [bind].
  destruct (consistent (rows_of m)) eqn:Cs; [|reflexivity]. exfalso.
  destruct (first_leaf_intro m (matrix_tree m M)) as (row & R); [apply M|].
  destruct (first_leaf_head m row R) as (ls & L). apply (H (names row)). now apply (consistent_true m row ls M L).
Qed.

Lemma matmul_mismatch (m1 m2 : matrix F) C : matrix_ok m1 -> matrix_ok m2 -> has_columns m1 C ->
  ~ (forall k, In k C <-> In k (names m2)) -> matmul K m1 m2 = Err TypeError.
Proof.
  intros M1 M2 H1 D. destruct (row_prototype_intro m1 _ M1 H1) as (row1 & Er1 & Ir1 & Rk1 & Hc1).
  unfold matmul. rewrite m_rows_eq, Er1 by exact M1. cbn [bind]. destruct (column_ok m2 M2) as [Ck Cn].
  rewrite !cart_keys by first [apply Rk1 | apply Ck]. rewrite Cn.
  destruct (keys_eq (names row1) (names m2)) eqn:E; [|reflexivity]. exfalso. apply D. intros k. rewrite <- Hc1.
  now apply keys_eq_true with (k := k) in E.
Qed.

Lemma matvec_mismatch (m : matrix F) (v : vec F) C : matrix_ok m -> vector_ok v -> has_columns m C ->
  ~ (forall k, In k C <-> In k (names v)) -> matvec K m v = Err TypeError.
Proof.
  intros M V H D. destruct (row_prototype_intro m _ M H) as (row & Er & Ir & Rk & Hc).
  unfold matvec. rewrite m_rows_eq, Er by exact M. cbn [bind].
  assert (Kv : map fst (cartesian_nd v) = names v) by (apply cart_keys; apply V).
  destruct v as [x|ty cs]; [reflexivity|]. destruct row as [x|ty' cs']; [reflexivity|].
  destruct (String.eqb ty ty'); [|reflexivity].
  destruct (first_leaf_intro m (matrix_tree m M)) as (row & R); [apply M|].
  destruct (first_leaf_head m row R) as (ls & L).
  assert (Rk' : vector_ok row) by (apply (row_ok m row M); rewrite L; now left).
  unfold rows_of. assert (Q := M). destruct Q as (T & _ & Nm & _). rewrite (cart_entries m T Nm), L.
  assert (Ln := names_length m). rewrite L in Ln. destruct (names m) as [|n ns]; [discriminate|].
  cbn [combine map mapM fst snd]. unfold dot at 1. rewrite (cart_keys row), Kv by apply Rk'.
  destruct (keys_eq (names row) (names (Node ty cs))) eqn:E; [|reflexivity]. exfalso. apply D. intros k.
  rewrite <- (H row) by (rewrite L; now left). now apply keys_eq_true with (k := k) in E.
Qed.

(** ** Inverse *)

Definition look (d : dict (dict (operand F))) (r c : string) (e : env) : F :=
  match dget d r with
  | Some row => match dget row c with Some o => op_at o e | None => zero K end
  | None => zero K
  end.

(** the inverse of a flat matrix: [nd] is a two-sided inverse of [rows] *)
Definition inverse_of B rs cs rows nd : Prop :=
  map fst nd = cs /\
  (forall i nr, In (i, nr) nd -> map fst nr = rs /\ forall c o, In (c, o) nr -> op_wf o /\ fits_in (op_shape o) B) /\
  forall e, inside e B -> determinant K rs cs (fun r c => look rows r c e) <> zero K ->
    (forall i j, In i cs -> In j cs -> sum_over K rs (fun k => times K (look nd i k e) (look rows k j e)) = delta K i j) /\
    (forall i j, In i rs -> In j rs -> sum_over K cs (fun k => times K (look rows i k e) (look nd k j e)) = delta K i j).

Lemma reads_good {A} B (o : operand A) f : reads B o f -> op_wf o /\ fits_in (op_shape o) B.
Proof. intros (W & S & _). auto. Qed.

Lemma reads_at {A} B (o : operand A) f e : reads B o f -> inside e B -> op_at o e = f e.
Proof. intros (_ & _ & V). auto. Qed.

Lemma inverse1 B r1 c1 a : NoDup (dkeys B) -> op_wf a -> fits_in (op_shape a) B ->
  exists nd, inverse_nd K [(r1, [(c1, a)])] = Ok nd /\ inverse_of B [r1] [c1] [(r1, [(c1, a)])] nd.
Proof.
  intros N Wa Fa. assert (Ra := reads_self B a Wa Fa). assert (R1 := reads_num B (one K)). unfold inverse_nd.
  repeat step K B N.
  eexists. split; [reflexivity|]. split; [reflexivity|]. split.
  - intros i nr [H|[]]. injection H as <- <-. split; [reflexivity|]. intros c o' [H|[]]. injection H as <- <-. eapply reads_good; eauto.
  - intros e I D.
    assert (Va := reads_at B _ _ e R I). cbv beta in Va.
    assert (D' : op_at a e <> zero K) by (intros Z; apply D; cbn [determinant expand app]; unfold look; eqbs; rewrite Z; ring).
    split; intros i j [<- |[]] [<- |[]]; unfold sum_over, delta, look; cbn [fold_right]; eqbs; rewrite Va; field; exact D'.
Qed.

Lemma inverse2 B r1 r2 c1 c2 a b c d : NoDup (dkeys B) -> NoDup [r1; r2] -> NoDup [c1; c2] ->
  Forall (fun o => op_wf o /\ fits_in (op_shape o) B) [a; b; c; d] ->
  exists nd, inverse_nd K [(r1, [(c1, a); (c2, b)]); (r2, [(c1, c); (c2, d)])] = Ok nd /\
    inverse_of B [r1; r2] [c1; c2] [(r1, [(c1, a); (c2, b)]); (r2, [(c1, c); (c2, d)])] nd.
Proof.
  intros N Nr Nc G.
  assert (Hr : r1 <> r2) by (intros ->; inversion Nr; simpl in *; tauto).
  assert (Hc : c1 <> c2) by (intros ->; inversion Nc; simpl in *; tauto).
  assert (Gr : forall o, In o [a; b; c; d] -> reads B o (op_at o)).
  { intros o Ho. rewrite Forall_forall in G. destruct (G o Ho). now apply reads_self. }
  assert (Ra := Gr a ltac:(simpl; tauto)). assert (Rb := Gr b ltac:(simpl; tauto)).
  assert (Rc := Gr c ltac:(simpl; tauto)). assert (Rd := Gr d ltac:(simpl; tauto)). clear G Gr Nr Nc.
  unfold inverse_nd. repeat step K B N.
  eexists. split; [reflexivity|]. split; [reflexivity|]. split.
  - intros i nr [H|[H|[]]]; injection H as <- <-; (split; [reflexivity|]);
      intros k o' [H|[H|[]]]; injection H as <- <-; eapply reads_good; eassumption.
  - intros e I D.
    assert (D' : minus K (times K (op_at a e) (op_at d e)) (times K (op_at b e) (op_at c e)) <> zero K)
      by (intros Z; apply D; cbn [determinant expand app]; unfold look; eqbs; etransitivity; [|exact Z]; ring).
    split; intros i j [<- |[<- |[]]] [<- |[<- |[]]]; unfold sum_over, delta, look; cbn [fold_right]; eqbs;
      repeat match goal with R : reads B ?o _ |- context [op_at ?o e] => rewrite (reads_at B _ _ e R I); clear R end; field; exact D'.
Qed.

Lemma inverse3 B r1 r2 r3 c1 c2 c3 a b c d e f g h i : NoDup (dkeys B) -> NoDup [r1; r2; r3] -> NoDup [c1; c2; c3] ->
  Forall (fun o => op_wf o /\ fits_in (op_shape o) B) [a; b; c; d; e; f; g; h; i] ->
  let rows := [(r1, [(c1, a); (c2, b); (c3, c)]); (r2, [(c1, d); (c2, e); (c3, f)]); (r3, [(c1, g); (c2, h); (c3, i)])] in
  exists nd, inverse_nd K rows = Ok nd /\ inverse_of B [r1; r2; r3] [c1; c2; c3] rows nd.
Proof.
  intros N Nr Nc G rows.
  assert (Hr : r1 <> r2 /\ r1 <> r3 /\ r2 <> r3).
  { inversion Nr as [|? ? X Y]; subst. inversion Y; subst. simpl in *. repeat split; intros ->; tauto. }
  assert (Hc : c1 <> c2 /\ c1 <> c3 /\ c2 <> c3).
  { inversion Nc as [|? ? X Y]; subst. inversion Y; subst. simpl in *. repeat split; intros ->; tauto. }
  destruct Hr as (Hr1 & Hr2 & Hr3), Hc as (Hc1 & Hc2 & Hc3).
  assert (Gr : forall o, In o [a; b; c; d; e; f; g; h; i] -> reads B o (op_at o)).
  { intros o Ho. rewrite Forall_forall in G. destruct (G o Ho). now apply reads_self. }
  assert (Ra := Gr a ltac:(simpl; tauto)). assert (Rb := Gr b ltac:(simpl; tauto)).
  assert (Rc := Gr c ltac:(simpl; tauto)). assert (Rd := Gr d ltac:(simpl; tauto)).
  assert (Re := Gr e ltac:(simpl; tauto)). assert (Rf := Gr f ltac:(simpl; tauto)).
  assert (Rg := Gr g ltac:(simpl; tauto)). assert (Rh := Gr h ltac:(simpl; tauto)).
  assert (Ri := Gr i ltac:(simpl; tauto)). clear G Gr Nr Nc.
  subst rows. unfold inverse_nd, det3_expr, mul3, minor, neg_minor. repeat step K B N.
  eexists. split; [reflexivity|]. split; [reflexivity|]. split.
  - intros j nr [H|[H|[H|[]]]]; injection H as <- <-; (split; [reflexivity|]);
      intros k o' [H|[H|[H|[]]]]; injection H as <- <-; eapply reads_good; eassumption.
  - intros ev I D.
    assert (D' : minus K (minus K (minus K (plus K (plus K
      (times K (times K (op_at a ev) (op_at e ev)) (op_at i ev)) (times K (times K (op_at b ev) (op_at f ev)) (op_at g ev)))
      (times K (times K (op_at c ev) (op_at d ev)) (op_at h ev))) (times K (times K (op_at c ev) (op_at e ev)) (op_at g ev)))
      (times K (times K (op_at b ev) (op_at d ev)) (op_at i ev))) (times K (times K (op_at a ev) (op_at f ev)) (op_at h ev)) <> zero K) by
      (intros Z; apply D; cbn [determinant expand app]; unfold look; eqbs; etransitivity; [|exact Z]; ring).
    split; intros j k [<- |[<- |[<- |[]]]] [<- |[<- |[<- |[]]]]; unfold sum_over, delta, look; cbn [fold_right]; eqbs;
      repeat match goal with R : reads B ?o _ |- context [op_at ?o ev] => rewrite (reads_at B _ _ ev R I); clear R end; field; exact D'.
Qed.

Lemma ordered_has (m : matrix F) cs : ordered_columns m cs -> has_columns m cs.
Proof. intros H row Hr c. now rewrite (H row Hr). Qed.

Lemma rows_table (m : matrix F) cs : matrix_ok m -> ordered_columns m cs ->
  rows_of m = combine (names m) (map (fun v => combine cs (leaves v)) (leaves m)) /\
  length (leaves m) = length (names m) /\ forall v, In v (leaves m) -> length (leaves v) = length cs.
Proof.
  intros M H. assert (Q := M). destruct Q as (T & _ & N & _). split; [|split].
  - unfold rows_of. rewrite cart_entries by assumption.
    assert (X : forall v, In v (leaves m) -> cartesian_nd v = combine cs (leaves v)).
    { intros v Hv. destruct (row_ok m v M Hv) as (Tv & _ & Nv & _). now rewrite cart_entries, (H v Hv). }
    revert X. clear. generalize (names m) (leaves m). intros l l'. revert l'. induction l as [|n l IH]; intros [|v l'] X; [reflexivity..|].
    cbn [combine map fst snd]. rewrite X by now left. f_equal. apply IH. intros w Hw. apply X. now right.
  - symmetry. apply names_length.
  - intros v Hv. now rewrite <- names_length, (H v Hv).
Qed.

Lemma square_true (m : matrix F) cs : matrix_ok m -> ordered_columns m cs -> length cs = length (names m) ->
  square (rows_of m) = true.
Proof.
  intros M H L. destruct (rows_table m cs M H) as (E & Lm & Lv). unfold square. apply andb_true_iff. split.
  - destruct (first_leaf_intro m (matrix_tree m M)) as (row & R); [apply M|].
    destruct (first_leaf_head m row R) as (ls & Ls). apply (consistent_true m row ls M Ls).
    rewrite (H row) by (rewrite Ls; now left). now apply ordered_has.
  - apply forallb_forall. intros [r row] Hr. cbn [snd]. apply Nat.eqb_eq. destruct (rows_In m r row M Hr) as (v & Hv & ->).
    destruct (row_ok m v M Hv) as (Tv & _ & Nv & _). rewrite cart_entries by assumption. rewrite combine_length, names_length, (Lv v Hv).
    rewrite E, combine_length, map_length. lia.
Qed.

Lemma cells_good B (m : matrix F) v o : matrix_ok m -> matrix_fits B m -> In v (leaves m) -> In o (leaves v) ->
  op_wf o /\ fits_in (op_shape o) B.
Proof.
  intros M Fm Hv Ho. assert (Vk := row_ok m v M Hv). destruct (In_leaf m v (matrix_tree m M) Hv) as (p & Hp).
  destruct (In_leaf v o (vector_tree v Vk) Ho) as (q & Hq).
  assert (C : cell m (String.concat "." p) (String.concat "." q) o).
  { exists p, v. split; [exact Hp|]. split; [reflexivity|]. exists q. auto. }
  split; [eapply cell_ok; eauto|eapply Fm; eauto].
Qed.

Lemma inverse_nd_spec B (m : matrix F) cs : NoDup (dkeys B) -> matrix_ok m -> matrix_fits B m -> ordered_columns m cs ->
  length cs = length (names m) -> length cs <= 3 ->
  exists nd, inverse_nd K (rows_of m) = Ok nd /\ inverse_of B (names m) cs (rows_of m) nd.
Proof.
  intros N M Fm H L L3. destruct (rows_table m cs M H) as (E & Lm & Lv). rewrite E.
  assert (Nn : NoDup (names m)) by apply M.
  assert (Nc : NoDup cs).
  { destruct (first_leaf_intro m (matrix_tree m M)) as (row & R); [apply M|].
    destruct (first_leaf_head m row R) as (ls & Ls). assert (In row (leaves m)) by (rewrite Ls; now left).
    rewrite <- (H row) by assumption. apply (row_ok m row M). assumption. }
  assert (Ne : leaves m <> []).
  { destruct (first_leaf_intro m (matrix_tree m M)) as (row & R); [apply M|].
    destruct (first_leaf_head m row R) as (ls & Ls). rewrite Ls. discriminate. }
  assert (G : forall v o, In v (leaves m) -> In o (leaves v) -> op_wf o /\ fits_in (op_shape o) B).
  { intros v o. now apply cells_good. }
  clear E H M Fm. generalize dependent (names m). generalize dependent (leaves m). intros rows Lv Ne G ns L Lm Nn.
  destruct rows as [|v1 [|v2 [|v3 [|v4 rows]]]]; [congruence| | | |simpl in *; lia].
  - destruct ns as [|r1 [|]]; try discriminate. destruct cs as [|c1 [|]]; try discriminate.
    assert (L1 := Lv v1 (or_introl eq_refl)). assert (G1 := fun o => G v1 o (or_introl eq_refl)). cbn [map].
    destruct (leaves v1) as [|a [|]]; try discriminate. cbn [combine]. destruct (G1 a (or_introl eq_refl)). now apply inverse1.
  - destruct ns as [|r1 [|r2 [|]]]; try discriminate. destruct cs as [|c1 [|c2 [|]]]; try discriminate.
    assert (L1 := Lv v1 ltac:(simpl; tauto)). assert (G1 := fun o => G v1 o ltac:(simpl; tauto)). cbn [map].
    assert (L2 := Lv v2 ltac:(simpl; tauto)). assert (G2 := fun o => G v2 o ltac:(simpl; tauto)).
    destruct (leaves v1) as [|a [|b [|]]]; try discriminate. destruct (leaves v2) as [|c [|d [|]]]; try discriminate.
    cbn [combine]. apply inverse2; auto. apply Forall_forall. intros o Ho. simpl in Ho.
    destruct Ho as [<-|[<-|[<-|[<-|[]]]]]; first [apply G1; simpl; tauto | apply G2; simpl; tauto].
  - destruct ns as [|r1 [|r2 [|r3 [|]]]]; try discriminate. destruct cs as [|c1 [|c2 [|c3 [|]]]]; try discriminate.
    assert (L1 := Lv v1 ltac:(simpl; tauto)). assert (G1 := fun o => G v1 o ltac:(simpl; tauto)). cbn [map].
    assert (L2 := Lv v2 ltac:(simpl; tauto)). assert (G2 := fun o => G v2 o ltac:(simpl; tauto)).
    assert (L4 := Lv v3 ltac:(simpl; tauto)). assert (G3 := fun o => G v3 o ltac:(simpl; tauto)).
    destruct (leaves v1) as [|a [|b [|c [|]]]]; try discriminate. destruct (leaves v2) as [|d [|e [|f [|]]]]; try discriminate.
    destruct (leaves v3) as [|g [|h [|i [|]]]]; try discriminate.
    cbn [combine]. apply inverse3; auto. apply Forall_forall. intros o Ho. simpl in Ho.
    decompose [or] Ho; subst; try contradiction; first [apply G1; simpl; tauto | apply G2; simpl; tauto | apply G3; simpl; tauto].
Qed.

Lemma inverse_spec B (m : matrix F) cs : NoDup (dkeys B) -> matrix_ok m -> matrix_fits B m -> ordered_columns m cs ->
  length cs = length (names m) -> length cs <= 3 ->
  exists inv row, m_inverse K m = Ok inv /\ row_prototype m = Ok row /\ matrix_ok inv /\ (forall q, kind inv q = kind row q) /\ names inv = cs /\
    (forall v, In v (leaves inv) -> (forall q, kind v q = kind m q) /\ names v = names m) /\ matrix_fits B inv /\
    forall e, inside e B -> determinant K (names m) cs (fun r c => entry m r c e) <> zero K ->
      (forall i j, In i cs -> In j cs ->
         sum_over K (names m) (fun k => times K (entry inv i k e) (entry m k j e)) = delta K i j) /\
      (forall i j, In i (names m) -> In j (names m) ->
         sum_over K cs (fun k => times K (entry m i k e) (entry inv k j e)) = delta K i j).
Proof.
  intros N M Fm H L L3. destruct (inverse_nd_spec B m cs N M Fm H L L3) as (nd & En & Kn & Gn & In_).
  destruct (transpose_spec m cs M (ordered_has m cs H)) as (t & row & Et & Er & Mt & Kt & Nt & Lt & Ct).
  destruct (row_prototype_ok m row M Er) as (Ir & Rk & _).
  assert (Nt' : names t = cs) by (rewrite Nt; now apply H).
  assert (Nc : NoDup cs) by (rewrite <- Nt'; apply Mt).
  unfold m_inverse. rewrite m_rows_eq by exact M. cbn [bind]. rewrite (square_true m cs M H L). cbn [negb].
  rewrite En, Et. cbn [bind].
  assert (Dn : forall i, In i cs -> exists nr, dget nd i = Some nr /\ map fst nr = names m /\
             forall c o, dget nr c = Some o -> op_wf o /\ fits_in (op_shape o) B).
  { intros i Hi. rewrite <- Kn in Hi. change (In i (dkeys nd)) in Hi. apply dget_Some_key in Hi. destruct Hi as (nr & D).
    exists nr. split; [exact D|]. apply dget_In in D. destruct (Gn i nr D) as [X Y]. split; [exact X|].
    intros c o Hc. apply dget_In in Hc. eauto. }
  destruct (build_matrix t nd Mt) as (inv & Ei & Mi & Ki & Ni & L1 & L2 & Ci).
  - intros p v Hp. assert (Hi : In (String.concat "." p) cs) by (rewrite <- Nt'; eapply leaf_named; eauto).
    destruct (Dn _ Hi) as (nr & D & Kr & Gr). exists nr. split; [exact D|]. intros c Hc.
    destruct (Lt v (leaf_In _ _ _ Hp)) as [_ Nv]. rewrite Nv, <- Kr in Hc. change (In c (dkeys nr)) in Hc.
    apply dget_Some_key in Hc. destruct Hc as (o & Ho). exists o. split; [exact Ho|]. apply (Gr c o Ho).
  - exists inv, row. split; [exact Ei|]. split; [exact Er|]. split; [exact Mi|]. split; [intros q; now rewrite Ki, Kt|].
    split; [now rewrite Ni|].
    assert (Lv : forall v, In v (leaves inv) -> (forall q, kind v q = kind m q) /\ names v = names m).
    { intros v Hv. destruct (In_leaf inv v (matrix_tree inv Mi) Hv) as (p & Hp). destruct (L2 p v Hp) as (w & Hw).
      destruct (L1 p w Hw) as (v' & Hv' & Kv & Nv). assert (v' = v) by congruence. subst v'.
      destruct (Lt w (leaf_In _ _ _ Hw)) as [Kw Nw]. split; [intros q; now rewrite Kv|now rewrite Nv]. }
    split; [exact Lv|].
    assert (Cell : forall i c, In i cs -> In c (names m) -> exists nr o, dget nd i = Some nr /\ dget nr c = Some o /\ cell inv i c o).
    { intros i c Hi Hc. destruct (Dn i Hi) as (nr & D & Kr & Gr).
      assert (Hc' : In c (dkeys nr)) by (unfold dkeys; now rewrite Kr). apply dget_Some_key in Hc'. destruct Hc' as (o & Ho).
      exists nr, o. split; [exact D|]. split; [exact Ho|]. apply Ci. split; [|eauto].
      rewrite <- Nt' in Hi. destruct (named_leaf t i (matrix_tree t Mt) Hi) as (p & w & Hp & <-). exists p, w. split; [exact Hp|].
      split; [reflexivity|]. destruct (Lt w (leaf_In _ _ _ Hp)) as [_ ->]. exact Hc. }
    split.
    { intros i c o Co. assert (Co' := Co). apply Ci in Co'. destruct Co' as ((p & w & Hp & Ep & Hc) & nr & D1 & D2).
      assert (Hi : In i cs) by (rewrite <- Nt', <- Ep; eapply leaf_named; eauto).
      destruct (Dn i Hi) as (nr' & D & _ & Gr). assert (Z := eq_trans (eq_sym D) D1). injection Z as ->. apply (Gr c o D2). }
    assert (Look : forall i c e, In i cs -> In c (names m) -> entry inv i c e = look nd i c e).
    { intros i c e Hi Hc. destruct (Cell i c Hi Hc) as (nr & o & D1 & D2 & Co). rewrite (entry_cell inv i c o e Mi Co).
      unfold look. now rewrite D1, D2. }
    intros e I D. destruct (In_ e I D) as [X Y]. split.
    + intros i j Hi Hj. rewrite <- (X i j Hi Hj). apply sum_over_ext. intros k Hk. now rewrite Look.
    + intros i j Hi Hj. rewrite <- (Y i j Hi Hj). apply sum_over_ext. intros k Hk. now rewrite Look.
Qed.
End Products.
