(** Facts about the conversion of vectors to flat vectors. *)
From Coq Require Import Ascii String List Arith ZArith Bool Lia.
From Verif Require Import Base BaseFacts Shapes ShapesFacts Scalar Vector Spec SpecVector VectorFacts.
Import ListNotations.
Open Scope nat_scope.
Open Scope list_scope.

Lemma dunion_NoDup {V} (l : list (string * V)) : forall acc,
  NoDup (map fst (acc ++ l)) -> fold_left (fun d kv => dset d (fst kv) (snd kv)) l acc = acc ++ l.
Proof.
  induction l as [|[k v] l IH]; intros acc N; simpl; [now rewrite app_nil_r|].
  rewrite dset_new.
  - rewrite IH; rewrite <- app_assoc; [reflexivity|exact N].
  - rewrite map_app in N. simpl in N. apply NoDup_remove_2 in N. intros H. apply N, in_or_app. now left.
Qed.

Lemma dict_of_NoDup {V} (l : list (string * V)) : NoDup (map fst l) -> dict_of l = l.
Proof. intros N. unfold dict_of. now rewrite dunion_NoDup. Qed.

(** ** Strings *)

Lemma sapp_assoc (a b c : string) : ((a ++ b) ++ c = a ++ b ++ c)%string.
Proof. induction a as [|x a IH]; simpl; [reflexivity|]. now rewrite IH. Qed.

Lemma sapp_inj (a b c : string) : (a ++ b = a ++ c)%string -> b = c.
Proof. induction a as [|x a IH]; simpl; intros H; [exact H|]. inversion H. auto. Qed.

Lemma dot_split (c c' s s' : string) : dotless c -> dotless c' ->
  (c ++ "." ++ s = c' ++ "." ++ s')%string -> c = c' /\ s = s'.
Proof.
  revert c'. induction c as [|x c IH]; intros [|x' c'] D D' H; simpl in *.
  - inversion H. auto.
  - inversion H; subst. exfalso. apply D'. now left.
  - inversion H; subst. exfalso. apply D. now left.
  - inversion H; subst. destruct (IH c') as [-> ->]; auto.
    + intros K. apply D. now right.
    + intros K. apply D'. now right.
Qed.

Lemma dot_none (c c' s : string) : dotless c -> c <> (c' ++ "." ++ s)%string.
Proof.
  intros D ->. apply D. clear. induction c' as [|x c IH]; simpl; [now left|]. right. exact IH.
Qed.

Lemma prefix_app (p k : string) : String.prefix p k = true <-> exists s, k = (p ++ s)%string.
Proof.
  revert k. induction p as [|x p IH]; intros k.
  - split; [intros _; now exists k|]. intros _. now destruct k.
  - destruct k as [|y k]; [split; [discriminate|intros (s & H); discriminate]|].
    change (String.prefix (String x p) (String y k)) with (if ascii_dec x y then String.prefix p k else false).
    destruct (ascii_dec x y) as [-> |N].
    + rewrite IH. split; intros (s & H); exists s; [now rewrite H|now inversion H].
    + split; [discriminate|]. intros (s & H). inversion H. congruence.
Qed.

Lemma substring_all (s : string) : String.substring 0 (String.length s) s = s.
Proof. induction s as [|x s IH]; simpl; [reflexivity|]. now rewrite IH. Qed.

Lemma drop_app (p s : string) : drop (String.length p) (p ++ s) = s.
Proof.
  unfold drop.
  assert (L : String.length (p ++ s) - String.length p = String.length s).
  { induction p as [|x p IH]; simpl; [lia|exact IH]. }
  rewrite L. clear L. induction p as [|x p IH]; simpl; [apply substring_all|exact IH].
Qed.

Lemma dget_sub {L} (p : string) (nd : dict L) k :
  dget (map (fun e => (drop (String.length p) (fst e), snd e))
            (filter (fun e => starts_with p (fst e)) nd)) k = dget nd (p ++ k)%string.
Proof.
  induction nd as [|[k' v] nd IH]; simpl; [reflexivity|]. unfold starts_with in *.
  destruct (String.prefix p k') eqn:P.
  - apply prefix_app in P. destruct P as (s & ->). simpl. rewrite drop_app, IH.
    destruct (String.eqb_spec k s) as [-> |N].
    + now rewrite String.eqb_refl.
    + destruct (String.eqb_spec (p ++ k) (p ++ s)) as [E|_]; [|reflexivity].
      apply sapp_inj in E. congruence.
  - rewrite IH. destruct (String.eqb_spec (p ++ k) k') as [E|_]; [|reflexivity].
    assert (String.prefix p k' = true) by (apply prefix_app; eauto). congruence.
Qed.

(** the name of a leaf in the flat vector *)
Notation dotted p := (String.concat "." p).

Lemma dotted_cons c p : p <> [] -> dotted (c :: p) = (c ++ "." ++ dotted p)%string.
Proof. destruct p; [congruence|reflexivity]. Qed.

(** ** Building a vector from a flat one *)

Lemma from_nd_spec {L} (like : tree L) : forall nd r,
  from_cartesian_nd nd like = Ok r ->
  (forall p, kind r p = kind like p) /\
  forall p, match leaf_at like p with
            | Some _ => leaf_at r p = dget nd (dotted p) /\ leaf_at r p <> None
            | None => leaf_at r p = None
            end.
Proof.
  induction like as [l|ty cs IH] using tree_rect'; intros nd r H; [discriminate|].
  cbn [from_cartesian_nd] in H. apply bind_ok in H. destruct H as (rs & H & H'). inversion H'; subst r.
  change (on_components (fun c x =>
        match x with
        | Leaf _ => match dget nd c with Some l => Ok (Leaf l) | None => Err KeyError end
        | Node _ _ => from_cartesian_nd (map (fun e => (drop (String.length (c ++ ".")%string) (fst e), snd e))
             (filter (fun e => starts_with (c ++ ".")%string (fst e)) nd)) x
        end) cs = Ok rs) in H.
  apply on_components_get in H. destruct H as [N H]. split.
  - intros [|c p]; simpl; [now rewrite N|]. specialize (H c).
    destruct (dget cs c) as [x|] eqn:D, (dget rs c) as [y|]; try contradiction; [|reflexivity].
    apply dget_In in D. destruct x as [l|ty' cs'].
    + destruct (dget nd c); inversion H; subst. destruct p; reflexivity.
    + exact (proj1 (IH c _ D _ _ H) p).
  - intros [|c p]; simpl; [reflexivity|]. specialize (H c).
    destruct (dget cs c) as [x|] eqn:D, (dget rs c) as [y|]; try contradiction; [|reflexivity].
    apply dget_In in D. destruct x as [l|ty' cs'].
    + destruct (dget nd c) as [l'|] eqn:E; inversion H; subst. destruct p as [|c' p]; simpl; [|reflexivity].
      split; [now rewrite E|discriminate].
    + assert (Q := proj2 (IH c _ D _ _ H) p). destruct p as [|c' p]; [exact Q|].
      destruct (leaf_at (Node ty' cs') (c' :: p)) as [l|]; [|exact Q]. destruct Q as [Q1 Q2].
      split; [|exact Q2]. rewrite Q1, dget_sub. f_equal. now rewrite sapp_assoc.
Qed.

Lemma from_nd_total {L} (like : tree L) : forall nd,
  (exists ty cs, like = Node ty cs) -> tree_ok (fun _ => True) like ->
  (forall p, leaf_at like p <> None -> dget nd (dotted p) <> None) ->
  exists r, from_cartesian_nd nd like = Ok r.
Proof.
  induction like as [l|ty cs IH] using tree_rect'; intros nd (ty' & cs' & E) W H; [discriminate|]. clear E ty' cs'.
  inversion W as [|? ? N W']; subst. cbn [from_cartesian_nd].
  enough (X : exists rs, on_components (fun c x =>
        match x with
        | Leaf _ => match dget nd c with Some l => Ok (Leaf l) | None => Err KeyError end
        | Node _ _ => from_cartesian_nd (map (fun e => (drop (String.length (c ++ ".")%string) (fst e), snd e))
             (filter (fun e => starts_with (c ++ ".")%string (fst e)) nd)) x
        end) cs = Ok rs).
  { destruct X as (rs & X). unfold on_components in X. rewrite X. simpl. eauto. }
  apply on_components_intro. intros c x Hc. assert (D : dget cs c = Some x) by (apply dget_NoDup; auto).
  destruct x as [l|ty' cs'].
  - specialize (H [c]). simpl in H. rewrite D in H. simpl in H.
    destruct (dget nd c); [eauto|]. exfalso. apply H; [discriminate|reflexivity].
  - apply (IH c _ Hc); [eauto|exact (W' c _ Hc)|]. intros p Hp. rewrite dget_sub.
    destruct p as [|c' p]; [simpl in Hp; congruence|].
    specialize (H (c :: c' :: p)). simpl in H, Hp. rewrite D in H. simpl in H.
    rewrite sapp_assoc. apply H. exact Hp.
Qed.

Lemma traverse_id {X} (f : X -> res X) l : (forall x, In x l -> f x = Ok x) -> traverse f l = Ok l.
Proof.
  induction l as [|x l IH]; intros H; simpl; [reflexivity|].
  rewrite (H x) by now left. cbn [bind]. rewrite IH by (intros; apply H; now right). reflexivity.
Qed.

Lemma from_nd_same {L} (like : tree L) : forall nd,
  (exists ty cs, like = Node ty cs) -> tree_ok (fun _ => True) like ->
  (forall p l, leaf_at like p = Some l -> dget nd (dotted p) = Some l) ->
  from_cartesian_nd nd like = Ok like.
Proof.
  induction like as [l|ty cs IH] using tree_rect'; intros nd (ty' & cs' & E) W H; [discriminate|]. clear E ty' cs'.
  inversion W as [|? ? N W']; subst. cbn [from_cartesian_nd].
  rewrite traverse_id; [reflexivity|]. intros [c x] Hc. cbn [fst snd].
  assert (D : dget cs c = Some x) by (apply dget_NoDup; auto).
  destruct x as [l|ty' cs'].
  - specialize (H [c] l). simpl in H. rewrite D in H. rewrite H; reflexivity.
  - rewrite (IH c _ Hc); [reflexivity|eauto|exact (W' c _ Hc)|]. intros p l Hp. rewrite dget_sub.
    destruct p as [|c' p]; [discriminate|].
    specialize (H (c :: c' :: p) l). simpl in H, Hp. rewrite D in H. simpl in H.
    rewrite sapp_assoc. apply H. exact Hp.
Qed.

(** ** Flattening *)

(** no name contains a dot *)
Lemma paths_leaves {L} (t : tree L) : length (paths t) = length (leaves t).
Proof.
  induction t as [l|ty cs IH] using tree_rect'; [reflexivity|]. simpl.
  induction cs as [|[c x] cs IHc]; [reflexivity|]. simpl. rewrite !app_length, map_length.
  rewrite (IH c x) by now left. f_equal. apply IHc. intros c' x' H. apply (IH c' x'). now right.
Qed.

Lemma paths_nonempty {L} ty (cs : list (string * tree L)) p : In p (paths (Node ty cs)) -> p <> [].
Proof.
  simpl. intros H. apply in_flat_map in H. destruct H as ([c x] & _ & H). apply in_map_iff in H.
  destruct H as (q & <- & _). discriminate.
Qed.

(** every name in the flat vector starts with the name of a component *)
Lemma dotted_head {L} c (x : tree L) p : In p (paths x) ->
  dotted (c :: p) = c /\ p = [] \/ exists s, dotted (c :: p) = (c ++ "." ++ s)%string.
Proof.
  intros H. destruct p as [|c' p]; [now left|]. right. exists (dotted (c' :: p)). reflexivity.
Qed.

Lemma dotted_names_NoDup {L} (t : tree L) :
  tree_ok (fun _ => True) t -> dotless_names t -> NoDup (map (fun p => dotted p) (paths t)).
Proof.
  induction t as [l|ty cs IH] using tree_rect'; intros W D; [simpl; constructor; [tauto|constructor]|].
  inversion W as [|? ? N W']; subst. inversion D as [|? ? D']; subst. clear W D. cbn [paths].
  induction cs as [|[c x] cs IHc]; [constructor|]. cbn [flat_map fst snd]. rewrite map_app.
  inversion N; subst.
  apply NoDup_app_intro.
  - destruct (D' c x (or_introl eq_refl)) as [Dc Dx].
    assert (Q := IH c x (or_introl eq_refl) (W' c x (or_introl eq_refl)) Dx).
    rewrite map_map. destruct x as [l|ty' cs']; [simpl; constructor; [tauto|constructor]|].
    assert (K : forall p, In p (paths (Node ty' cs')) -> p <> []) by apply paths_nonempty.
    revert K Q. generalize (paths (Node ty' cs')). intros l. induction l as [|p l IHl]; intros K Q; cbn [map]; constructor.
    + inversion Q; subst. intros H. apply in_map_iff in H. destruct H as (q & E & Hq).
      rewrite !dotted_cons in E by (apply K; simpl; auto). apply sapp_inj in E.
      change ("." ++ dotted q = "." ++ dotted p)%string in E. apply sapp_inj in E.
      apply H3. rewrite <- E. apply in_map_iff. eauto.
    + apply IHl; [intros; apply K; now right|now inversion Q].
  - apply IHc; auto.
    + intros c' x' H'. apply (IH c' x'). now right.
    + intros c' x' H'. apply (W' c' x'). now right.
    + intros c' x' H'. apply (D' c' x'). now right.
  - intros k Hk Hk'. apply in_map_iff in Hk, Hk'. destruct Hk as (q & <- & Hq), Hk' as (q' & E & Hq').
    apply in_map_iff in Hq. destruct Hq as (p & <- & Hp).
    apply in_flat_map in Hq'. destruct Hq' as ([c' x'] & Hx' & Hq'). apply in_map_iff in Hq'.
    destruct Hq' as (p' & <- & Hp'). cbn [fst snd] in *.
    assert (Nc : c <> c').
    { intros ->. apply H1. apply in_map_iff. now exists (c', x'). }
    destruct (D' c x (or_introl eq_refl)) as [Dc _], (D' c' x' (or_intror Hx')) as [Dc' _].
    destruct (dotted_head c x p Hp) as [[E1 _]|(s & E1)], (dotted_head c' x' p' Hp') as [[E2 _]|(s' & E2)];
      rewrite E1, E2 in E.
    + congruence.
    + symmetry in E. now apply dot_none in E.
    + now apply dot_none in E.
    + symmetry in E. apply dot_split in E; tauto.
Qed.

Lemma combine_map_l {X Y Z} (g : X -> Y) (l : list X) (l' : list Z) :
  combine (map g l) l' = map (fun p => (g (fst p), snd p)) (combine l l').
Proof. revert l'. induction l as [|x l IH]; intros [|z l']; simpl; [reflexivity..|]. now rewrite IH. Qed.

Lemma combine_app' {X Y} (l1 l2 : list X) (m1 m2 : list Y) : length l1 = length m1 ->
  combine (l1 ++ l2) (m1 ++ m2) = combine l1 m1 ++ combine l2 m2.
Proof.
  revert m1. induction l1 as [|x l1 IH]; intros [|y m1] H; simpl in *; try discriminate; [reflexivity|].
  now rewrite IH by lia.
Qed.

Lemma map_fst_combine {X Y} (l : list X) (m : list Y) : length l = length m -> map fst (combine l m) = l.
Proof.
  revert m. induction l as [|x l IH]; intros [|y m] H; simpl in *; try discriminate; [reflexivity|].
  now rewrite IH by lia.
Qed.

Lemma cartesian_nd_entries {L} (t : tree L) :
  (exists ty cs, t = Node ty cs) -> tree_ok (fun _ => True) t -> dotless_names t ->
  cartesian_nd t = combine (map (fun p => dotted p) (paths t)) (leaves t).
Proof.
  induction t as [l|ty cs IH] using tree_rect'; intros (ty' & cs' & E) W D; [discriminate|]. clear E ty' cs'.
  cbn [cartesian_nd].
  set (entries := flat_map _ cs).
  assert (E : entries = combine (map (fun p => dotted p) (paths (Node ty cs))) (leaves (Node ty cs))).
  { inversion W as [|? ? N W']; subst. inversion D as [|? ? D']; subst. clear W D N. subst entries.
    induction cs as [|[c x] cs IHc]; [reflexivity|].
    cbn [flat_map fst snd paths leaves]. rewrite map_app, combine_app' by (now rewrite !map_length, paths_leaves).
    f_equal.
    - destruct x as [l|ty' cs']; [reflexivity|].
      rewrite (IH c (Node ty' cs') (or_introl eq_refl)); [|eauto|exact (W' c _ (or_introl eq_refl))|
        exact (proj2 (D' c _ (or_introl eq_refl)))].
      rewrite !map_map, !combine_map_l, map_map. apply map_ext_in. intros [p l] Hp. cbn [fst snd].
      rewrite dotted_cons; [reflexivity|]. apply in_combine_l in Hp. eapply paths_nonempty; eauto.
    - apply IHc.
      + intros c' x' H'. apply (IH c' x'). now right.
      + intros c' x' H'. apply (W' c' x'). now right.
      + intros c' x' H'. apply (D' c' x'). now right. }
  rewrite E. apply dict_of_NoDup. rewrite map_fst_combine by (now rewrite map_length, paths_leaves).
  now apply dotted_names_NoDup.
Qed.

Lemma dget_combine_In {V} (ks : list string) (vs : list V) k v :
  NoDup ks -> In (k, v) (combine ks vs) -> dget (combine ks vs) k = Some v.
Proof.
  intros N H. apply dget_NoDup; [|exact H].
  clear - N. revert vs. induction N as [|k ks H N IH]; intros [|v vs]; simpl; constructor; auto.
  intros K. apply in_map_iff in K. destruct K as ([k' v'] & <- & K). apply in_combine_l in K. auto.
Qed.

Lemma leaf_at_In {L} (t : tree L) p l : leaf_at t p = Some l -> In (p, l) (combine (paths t) (leaves t)).
Proof.
  revert p. induction t as [x|ty cs IH] using tree_rect'; intros [|c p] H; simpl in H; try discriminate.
  - inversion H; subst. now left.
  - destruct (dget cs c) as [x|] eqn:D; [|discriminate]. cbn [paths leaves].
    induction cs as [|[c' x'] cs IHc]; simpl in D; [discriminate|]. simpl flat_map.
    rewrite combine_app' by (now rewrite map_length, paths_leaves). apply in_or_app.
    destruct (String.eqb_spec c c') as [-> |Nc].
    + inversion D; subst. left. rewrite combine_map_l. apply in_map_iff. exists (p, l). split; [reflexivity|].
      apply (IH c' x); [now left|exact H].
    + right. apply IHc; [intros c1 x1 H1; apply (IH c1 x1); now right|exact D].
Qed.

Lemma In_leaf_at {L} (t : tree L) p l : tree_ok (fun _ => True) t ->
  In (p, l) (combine (paths t) (leaves t)) -> leaf_at t p = Some l.
Proof.
  revert p. induction t as [x|ty cs IH] using tree_rect'; intros p W H.
  - simpl in H. destruct H as [H|[]]. inversion H; subst. reflexivity.
  - inversion W as [|? ? N W']; subst. cbn [paths leaves] in H.
    assert (X : exists c q x, p = c :: q /\ In (c, x) cs /\ In (q, l) (combine (paths x) (leaves x))).
    { clear - H. induction cs as [|[c x] cs IHc]; simpl in H; [contradiction|].
      rewrite combine_app' in H by (now rewrite map_length, paths_leaves). apply in_app_or in H. destruct H as [H|H].
      - rewrite combine_map_l in H. apply in_map_iff in H. destruct H as ([q l'] & E & H). inversion E; subst.
        exists c, q, x. split; [reflexivity|]. split; [now left|exact H].
      - destruct (IHc H) as (c' & q & x' & ? & ? & ?). exists c', q, x'. split; [assumption|]. split; [now right|assumption]. }
    destruct X as (c & q & x & -> & Hc & Hq). simpl.
    rewrite (dget_NoDup cs c x N Hc). eapply IH; eauto.
Qed.

Lemma cartesian_nd_get {L} (t : tree L) p l :
  (exists ty cs, t = Node ty cs) -> tree_ok (fun _ => True) t -> dotless_names t ->
  leaf_at t p = Some l -> dget (cartesian_nd t) (dotted p) = Some l.
Proof.
  intros E W D H. rewrite cartesian_nd_entries by auto.
  apply dget_combine_In; [now apply dotted_names_NoDup|].
  rewrite combine_map_l. apply in_map_iff. exists (p, l). split; [reflexivity|]. now apply leaf_at_In.
Qed.

Lemma cartesian_round_trip {L} (t : tree L) :
  (exists ty cs, t = Node ty cs) -> tree_ok (fun _ => True) t -> dotless_names t ->
  from_cartesian_nd (cartesian_nd t) t = Ok t.
Proof.
  intros E W D. apply from_nd_same; auto. intros p l H. now apply cartesian_nd_get.
Qed.

Lemma cartesian_nd_full {L} (t : tree L) :
  (exists ty cs, t = Node ty cs) -> tree_ok (fun _ => True) t -> dotless_names t ->
  cartesian_nd t = combine (map (String.concat ".") (paths t)) (leaves t) /\
  length (cartesian_nd t) = length (leaves t) /\
  NoDup (dkeys (cartesian_nd t)).
Proof.
  intros T W D. rewrite (cartesian_nd_entries t T W D).
  assert (E : length (map (fun p => dotted p) (paths t)) = length (leaves t)) by (rewrite map_length; apply paths_leaves).
  split; [reflexivity|]. split.
  - rewrite combine_length, E. apply Nat.min_id.
  - unfold dkeys. rewrite map_fst_combine by exact E. now apply dotted_names_NoDup.
Qed.
