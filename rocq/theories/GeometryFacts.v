(** Facts about the vector product and cell volumes. *)
From Coq Require Import Ascii String List Arith ZArith Bool Lia Field Field_theory.
From Verif Require Import Base BaseFacts Numpy NumpyFacts Shapes Scalar Elementwise Vector Matrix Geometry
  Spec SpecDerived SpecVector SpecMatrix SpecGeometry ShapesFacts AlignFacts GetitemFacts VectorFacts CartesianFacts VectorIndexFacts
  LinspaceFacts MatrixFacts MatrixLaws.
Import ListNotations.
Open Scope nat_scope.
Open Scope list_scope.

(** ** Operands whose axes have exactly the sizes of the shape [B], among them the
    axes [l] *)

Definition covers {A} (l : list string) (B : shape) (o : operand A) (f : env -> A) : Prop :=
  op_wf o /\ sub_shape (op_shape o) B /\ (forall ax, In ax l -> In ax (dkeys (op_shape o))) /\
  forall e, inside e B -> op_at o e = f e.

Lemma covers_reads {A} l B (o : operand A) f : covers l B o f -> reads B o f.
Proof.
  intros (W & S & _ & V). split; [exact W|]. split; [|exact V]. intros ax n H. exists n. split; [now apply S|now right].
Qed.

Lemma covers_ext {A} l B (o : operand A) f g : covers l B o f -> (forall e, inside e B -> f e = g e) -> covers l B o g.
Proof. intros (W & S & L & V) H. repeat split; auto. intros e I. rewrite V by exact I. auto. Qed.

Lemma covers_less {A} l l' B (o : operand A) f : covers l B o f -> (forall ax, In ax l' -> In ax l) -> covers l' B o f.
Proof. intros (W & S & L & V) H. repeat split; auto. Qed.

Lemma covers_num {A} B (x : A) : covers [] B (OpNum x) (fun _ => x).
Proof. split; [exact I|]. split; [intros ax n []|]. split; [intros ax []|reflexivity]. Qed.

Lemma ufunc_spans {A} (h : list A -> A) os o : Forall op_wf os -> op_ufunc h os = Ok o ->
  (forall x, In x os -> fits_in (op_shape x) (op_shape o)) /\
  (forall ax n, In (ax, n) (op_shape o) -> exists x, In x os /\ In (ax, n) (op_shape x)).
Proof.
  intros W E.
  assert (Nd : Forall (fun s => NoDup (dkeys s)) (op_shapes os)).
  { apply Forall_forall. intros s H. unfold op_shapes in H. apply in_flat_map in H.
    destruct H as ([b|y] & Hb & H); [|contradiction]. destruct H as [<- |[]].
    rewrite Forall_forall in W. apply wf_nodup. exact (W _ Hb). }
  destruct (op_ufunc_spec h os o W E) as (Wo & So & _ & _). split.
  - intros [b|y] Hx ax n H; [|destruct H]. simpl in H.
    assert (Hs : In (sshape b) (op_shapes os)).
    { unfold op_shapes. apply in_flat_map. exists (OpArr b). split; [exact Hx|now left]. }
    destruct (broadcast_covers _ _ _ ax n Nd So Hs H) as [Hk [-> | Hn]].
    + apply dget_Some_key in Hk. destruct Hk as (m & Hm). exists m. split; [now apply dget_In|now left].
    + exists n. split; [exact Hn|now right].
  - intros ax n H. destruct (broadcast_attained _ _ ax n Nd So H) as (s & Hs & Hn).
    unfold op_shapes in Hs. apply in_flat_map in Hs. destruct Hs as ([b|y] & Hb & Hs); [|contradiction].
    destruct Hs as [<- |[]]. exists (OpArr b). auto.
Qed.

Lemma ufunc_covers {A} (h : list A -> A) l B os :
  NoDup (dkeys B) -> Forall op_wf os -> Forall (fun o => sub_shape (op_shape o) B) os ->
  (forall ax, In ax l -> exists x, In x os /\ In ax (dkeys (op_shape x))) ->
  exists o, op_ufunc h os = Ok o /\ covers l B o (fun e => h (map (fun x => op_at x e) os)).
Proof.
  intros N W S L.
  destruct (ufunc_reads h B os N W) as (o & E & (Wo & _ & V)).
  { rewrite Forall_forall in *. intros x Hx ax n H. exists n. split; [exact (S x Hx ax n H)|now right]. }
  exists o. split; [exact E|]. destruct (ufunc_spans h os o W E) as [F A']. split; [exact Wo|]. split; [|split; [|exact V]].
  - intros ax n H. destruct (A' ax n H) as (x & Hx & Hn). rewrite Forall_forall in S. exact (S x Hx ax n Hn).
  - intros ax H. destruct (L ax H) as (x & Hx & Hk). apply dget_Some_key in Hk. destruct Hk as (n & Hn). apply dget_In in Hn.
    destruct (F x Hx ax n Hn) as (m & Hm & _). apply in_map_iff. exists (ax, m). auto.
Qed.

Section Ops.
Context {F : Type} (K : arith F).

Lemma op2_covers l1 l2 B h a b f g : NoDup (dkeys B) -> covers l1 B a f -> covers l2 B b g ->
  exists o, op2 K h a b = Ok o /\ covers (l1 ++ l2) B o (fun e => h (f e) (g e)).
Proof.
  intros N (Wa & Sa & La & Va) (Wb & Sb & Lb & Vb). unfold op2.
  destruct (ufunc_covers (fun l => match l with [x; y] => h x y | _ => zero K end) (l1 ++ l2) B [a; b] N) as (o & E & R); [auto..| |].
  { intros ax H. apply in_app_or in H. destruct H as [H|H]; [exists a|exists b]; simpl; auto. }
  exists o. split; [exact E|]. eapply covers_ext; [exact R|]. intros e I. simpl. now rewrite Va, Vb.
Qed.

Lemma op1_covers l B h a f : NoDup (dkeys B) -> covers l B a f ->
  exists o, op1 K h a = Ok o /\ covers l B o (fun e => h (f e)).
Proof.
  intros N (Wa & Sa & La & Va). unfold op1.
  destruct (ufunc_covers (fun l => match l with [x] => h x | _ => zero K end) l B [a] N) as (o & E & R); [auto..| |].
  { intros ax H. exists a. simpl. auto. }
  exists o. split; [exact E|]. eapply covers_ext; [exact R|]. intros e I. simpl. now rewrite Va.
Qed.

Lemma op2_num h a b x : op2 K h a b = Ok (OpNum x) -> exists y z, a = OpNum y /\ b = OpNum z /\ x = h y z.
Proof.
  unfold op2, op_ufunc. destruct (forallb is_num [a; b]) eqn:Q.
  - destruct a as [a|y], b as [b|z]; simpl in Q; try discriminate. simpl. intros H. injection H as <-. eauto.
  - intros H. apply bind_ok in H. destruct H as (r & _ & H). discriminate.
Qed.
End Ops.

Ltac cstep K B N :=
  match goal with
  | Ra : covers ?l1 B ?a _, Rb : covers ?l2 B ?b _ |- context [op2 K ?h ?a ?b] =>
      let o := fresh "o" in let E := fresh "E" in let R := fresh "R" in
      destruct (op2_covers K l1 l2 B h a b _ _ N Ra Rb) as (o & E & R); rewrite E; clear E; cbn [bind]; cbv beta in R
  | Ra : covers ?l1 B ?a _ |- context [op1 K ?h ?a] =>
      let o := fresh "o" in let E := fresh "E" in let R := fresh "R" in
      destruct (op1_covers K l1 B h a _ N Ra) as (o & E & R); rewrite E; clear E; cbn [bind]; cbv beta in R
  end.

(** ** Labelled indices that agree *)

Lemma at_ext {A} (a : sarr A) e e' : (forall ax, In ax (s_axes a) -> e ax = e' ax) -> at_ a e = at_ a e'.
Proof. intros H. unfold at_. f_equal. now apply map_ext_in. Qed.

Lemma op_at_ext {A} (o : operand A) e e' : (forall ax, e ax = e' ax) -> op_at o e = op_at o e'.
Proof.
  intros H. destruct o as [a|x]; [|reflexivity]. simpl. unfold bat. apply at_ext. intros ax _. unfold bclamp. now rewrite H.
Qed.

Lemma exact_at {A} (a : sarr A) e : wf a -> inside e (sshape a) -> bat a e = at_ a e.
Proof.
  intros W I. unfold bat. apply at_ext. intros ax Hx. unfold bclamp.
  destruct (dget (sshape a) ax) as [[|[|n]]|] eqn:D; try reflexivity.
  apply dget_In in D. apply I in D. lia.
Qed.

(** ** Slices *)

(** the position read at [e] through the slices *)
Definition moved (it : dict item) (e : env) : env :=
  fun ax => match dget it ax with
            | Some (ItSlice s) => match sl_start s with Some _ => S (e ax) | None => e ax end
            | _ => e ax
            end.

Definition halves (it : dict item) : Prop :=
  NoDup (dkeys it) /\ forall ax i, In (ax, i) it -> i = ItSlice lower \/ i = ItSlice upper.

Lemma shrunk_keys B l : dkeys (shrunk B l) = dkeys B.
Proof. unfold shrunk, dkeys. rewrite map_map. reflexivity. Qed.

Lemma shrunk_In B l ax m : In (ax, m) (shrunk B l) <-> exists n, In (ax, n) B /\ m = if smem ax l then n - 1 else n.
Proof.
  unfold shrunk. rewrite in_map_iff. split.
  - intros ([ax' n] & E & H). simpl in E. injection E as <- <-. eauto.
  - intros (n & H & ->). exists (ax, n). auto.
Qed.

Lemma moved_inside B it e : halves it -> inside e (shrunk B (dkeys it)) -> inside (moved it e) B.
Proof.
  intros (N & H) I ax n Hn. unfold moved.
  assert (Q : e ax < if smem ax (dkeys it) then n - 1 else n) by (apply I, shrunk_In; eauto).
  destruct (dget it ax) as [i|] eqn:D.
  - assert (M : smem ax (dkeys it) = true) by (apply smem_In, dget_Some_key; eauto). rewrite M in Q.
    destruct (H ax i (dget_In _ _ _ D)) as [-> | ->]; simpl; lia.
  - destruct (smem ax (dkeys it)); lia.
Qed.

Lemma lower_selects n i p : slice_selects lower n i p <-> p = i /\ i < n - 1.
Proof.
  unfold slice_selects, slice_first, slice_end, slice_step, lower. cbn -[Z.add Z.max Z.min Z.mul Z.of_nat]. lia.
Qed.

Lemma upper_selects n i p : slice_selects upper n i p <-> p = S i /\ S i < n.
Proof.
  unfold slice_selects, slice_first, slice_end, slice_step, upper. cbn -[Z.add Z.max Z.min Z.mul Z.of_nat]. lia.
Qed.

Lemma half_size s n m : s = lower \/ s = upper ->
  (forall i, i < m <-> exists p, slice_selects s n i p) -> m = n - 1.
Proof.
  intros Hs H.
  assert (Q : forall i, (exists p, slice_selects s n i p) <-> i < n - 1).
  { intros i. destruct Hs as [-> | ->]; split.
    - intros (p & P). apply lower_selects in P. lia.
    - intros L. exists i. apply lower_selects. lia.
    - intros (p & P). apply upper_selects in P. lia.
    - intros L. exists (S i). apply upper_selects. lia. }
  assert (R : forall i, i < m <-> i < n - 1) by (intros i; rewrite H; apply Q).
  destruct (Nat.lt_trichotomy m (n - 1)) as [L|[E|L]]; [|exact E|]; apply R in L; lia.
Qed.

Lemma halves_wf it : halves it -> Forall (fun kv => item_wf (snd kv)) it.
Proof.
  intros (_ & H). apply Forall_forall. intros [ax i] Hi. destruct (H ax i Hi) as [-> | ->]; exact I.
Qed.

Lemma halves_shapes it l : halves it -> index_shapes l it = [].
Proof.
  intros (_ & H). unfold index_shapes. induction it as [|[ax i] it IH]; [reflexivity|]. simpl.
  destruct (H ax i (or_introl eq_refl)) as [-> | ->]; simpl; apply IH; intros; apply (H ax0 i); now right.
Qed.

Lemma slice_covers {A} l B (a : sarr A) f it : NoDup (dkeys B) -> halves it -> covers l B (OpArr a) f ->
  exists r, getitem a it = Ok r /\ covers l (shrunk B (dkeys it)) (OpArr r) (fun e => f (moved it e)).
Proof.
  intros N H (W & S & L & V). simpl in W, S, L. assert (Hn := proj1 H).
  destruct (proj2 (getitem_success a it W Hn (halves_wf it H))) as (r & E).
  { exists []. split; [now rewrite halves_shapes|]. split; [|intros ax []].
    intros ax n _. destruct (dget it ax) as [i|] eqn:D; [|exact I]. apply dget_In in D.
    destruct (proj2 H ax i D) as [-> | ->]; discriminate. }
  exists r. split; [exact E|]. assert (C := conj E H).
  destruct (getitem_full a it r W Hn (halves_wf it H) E) as (Wr & Vr & sa & Es & Ax & _ & Sz). clear C.
  rewrite halves_shapes in Es by exact H. injection Es as <-.
  assert (Kp : forall ax, keeps_axis (dget it ax) = true).
  { intros ax. destruct (dget it ax) as [i|] eqn:D; [|reflexivity]. apply dget_In in D.
    destruct (proj2 H ax i D) as [-> | ->]; reflexivity. }
  assert (Ax' : s_axes r = s_axes a).
  { rewrite Ax. simpl. generalize (s_axes a). intros q. induction q as [|x xs IH]; [reflexivity|]. simpl. rewrite Kp. now f_equal. }
  assert (Sr : sub_shape (sshape r) (shrunk B (dkeys it))).
  { intros ax m Hm. assert (Hx : In ax (s_axes a)).
    { rewrite <- Ax', <- wf_keys by exact Wr. apply in_map_iff. exists (ax, m). auto. }
    rewrite <- wf_keys in Hx by exact W. apply dget_Some_key in Hx. destruct Hx as (n & Hx). apply dget_In in Hx.
    apply shrunk_In. exists n. split; [now apply S|].
    assert (Q := Sz ax n m Hx (Kp ax) Hm). destruct (dget it ax) as [i|] eqn:D.
    - assert (M : smem ax (dkeys it) = true) by (apply smem_In, dget_Some_key; eauto). rewrite M. apply dget_In in D.
      destruct (proj2 H ax i D) as [-> | ->]; (eapply half_size; [|exact Q]); auto.
    - assert (M : smem ax (dkeys it) = false).
      { apply smem_false. intros Z. apply dget_Some_key in Z. destruct Z as (i & Z). congruence. }
      now rewrite M. }
  split; [exact Wr|]. split; [exact Sr|]. split.
  - intros ax Hl. simpl. rewrite wf_keys, Ax', <- wf_keys; auto.
  - intros e I. assert (Ir : inside e (sshape r)) by (intros ax n Hx; now apply I, Sr).
    assert (Im := moved_inside B it e H I).
    assert (Ia : inside (moved it e) (sshape a)) by (intros ax n Hx; now apply Im, S).
    rewrite <- V by exact Im. simpl. rewrite !exact_at by assumption.
    destruct (Vr e Ir) as (e' & I' & -> & Q). apply at_ext. intros ax Hx.
    rewrite <- wf_keys in Hx by exact W. apply dget_Some_key in Hx. destruct Hx as (n & Hx). apply dget_In in Hx.
    specialize (Q ax n Hx). unfold moved. assert (B1 := I' ax n Hx). destruct (dget it ax) as [i|] eqn:D; [|exact Q]. apply dget_In in D.
    destruct (proj2 H ax i D) as [-> | ->]; cbn [selects] in Q; simpl.
    + apply lower_selects in Q. apply Q.
    + apply upper_selects in Q. apply Q.
Qed.

(** ** Finite sums *)

Section Sums.
Context {F : Type} (K : arith F) (FK : is_field K).
Let Fth : field_theory (zero K) (one K) (plus K) (times K) (minus K) (neg K) (over K) (over K (one K)) eq := proj1 FK.
Add Field Kf : Fth.

Lemma over_times x y : over K x y = times K x (over K (one K) y).
Proof. exact (Fdiv_def Fth x y). Qed.

Lemma over_scale a x y : over K (times K a x) y = times K a (over K x y).
Proof. rewrite (over_times (times K a x)), (over_times x). ring. Qed.

Lemma over_plus a x y : over K (plus K a x) y = plus K (over K a y) (over K x y).
Proof. rewrite (over_times (plus K a x)), (over_times x), (over_times a). ring. Qed.

Lemma total_app l l' : total K (l ++ l') = plus K (total K l) (total K l').
Proof. induction l as [|x l IH]; simpl; [ring|]. rewrite IH. ring. Qed.

Lemma sum_to_S n f : sum_to K (S n) f = plus K (f 0) (sum_to K n (fun i => f (S i))).
Proof. unfold sum_to. cbn [seq map total fold_right]. now rewrite <- seq_shift, map_map. Qed.

Lemma sum_to_ext n f g : (forall i, i < n -> f i = g i) -> sum_to K n f = sum_to K n g.
Proof.
  intros H. unfold sum_to. f_equal. apply map_ext_in. intros i Hi. apply in_seq in Hi. apply H. lia.
Qed.

Lemma sum_to_plus n f g : sum_to K n (fun i => plus K (f i) (g i)) = plus K (sum_to K n f) (sum_to K n g).
Proof.
  revert f g. induction n as [|n IH]; intros f g; [unfold sum_to; simpl; ring|]. rewrite !sum_to_S, IH. ring.
Qed.

Lemma sum_to_minus n f g : sum_to K n (fun i => minus K (f i) (g i)) = minus K (sum_to K n f) (sum_to K n g).
Proof.
  revert f g. induction n as [|n IH]; intros f g; [unfold sum_to; simpl; ring|]. rewrite !sum_to_S, IH. ring.
Qed.

Lemma sum_to_times n f c : sum_to K n (fun i => times K (f i) c) = times K (sum_to K n f) c.
Proof.
  revert f. induction n as [|n IH]; intros f; [unfold sum_to; simpl; ring|]. rewrite !sum_to_S, IH. ring.
Qed.

Lemma sum_to_zero n : sum_to K n (fun _ => zero K) = zero K.
Proof. induction n as [|n IH]; [reflexivity|]. rewrite sum_to_S, IH. ring. Qed.

Lemma sum_to_swap n m f : sum_to K n (fun i => sum_to K m (fun j => f i j)) = sum_to K m (fun j => sum_to K n (fun i => f i j)).
Proof.
  revert f. induction n as [|n IH]; intros f.
  - change (zero K = sum_to K m (fun _ => zero K)). now rewrite sum_to_zero.
  - rewrite sum_to_S, IH, <- sum_to_plus. apply sum_to_ext. intros j _. now rewrite sum_to_S.
Qed.

Lemma telescope n f : sum_to K n (fun i => minus K (f (S i)) (f i)) = minus K (f n) (f 0).
Proof.
  revert f. induction n as [|n IH]; intros f; [unfold sum_to; simpl; ring|].
  rewrite sum_to_S, (IH (fun i => f (S i))). ring.
Qed.

Lemma sum_to_last n f : sum_to K (S n) f = plus K (sum_to K n f) (f n).
Proof.
  unfold sum_to. rewrite seq_S, map_app, total_app. simpl. ring.
Qed.

Lemma sum_to_rev n f : sum_to K n (fun i => f (n - S i)) = sum_to K n f.
Proof.
  induction n as [|n IH]; [reflexivity|]. rewrite sum_to_S, sum_to_last, <- IH.
  replace (S n - 1) with n by lia. replace (sum_to K n (fun i => f (S n - S (S i)))) with (sum_to K n (fun i => f (n - S i))); [ring|].
  apply sum_to_ext. intros i _. f_equal.
Qed.

(** ** Polygons *)

Definition walk (l : list (F * F)) : F := match l with [] => zero K | p :: l' => along K p l' end.

Lemma walk_cons p q l : walk (p :: q :: l) = plus K (wedge K p q) (walk (q :: l)).
Proof. reflexivity. Qed.

Lemma walk_segment (f : nat -> F * F) n : forall s l,
  walk (map f (seq s n) ++ f (s + n) :: l) = plus K (sum_to K n (fun i => wedge K (f (s + i)) (f (s + S i)))) (walk (f (s + n) :: l)).
Proof.
  induction n as [|n IH]; intros s l.
  - simpl. unfold sum_to. simpl. ring.
  - cbn [seq map app]. rewrite sum_to_S.
    assert (E : exists l', map f (seq (S s) n) ++ f (s + S n) :: l = f (S s) :: l').
    { destruct n as [|n]; simpl; [replace (s + 1) with (S s) by lia|]; eauto. }
    destruct E as (l' & E). rewrite E, walk_cons, <- E.
    replace (s + S n) with (S s + n) by lia. rewrite IH.
    replace (s + 0) with s by lia. replace (s + 1) with (S s) by lia.
    replace (sum_to K n (fun i => wedge K (f (s + S i)) (f (s + S (S i)))))
      with (sum_to K n (fun i => wedge K (f (S s + i)) (f (S s + S i)))); [ring|].
    apply sum_to_ext. intros i _. f_equal; f_equal; lia.
Qed.

Lemma segment_head {A} (f : nat -> A) n l : exists l', map f (seq 0 n) ++ f n :: l = f 0 :: l'.
Proof. destruct n; simpl; eauto. Qed.

Lemma wedge_swap p q : wedge K q p = neg K (wedge K p q).
Proof. unfold wedge. ring. Qed.

Lemma sum_to_neg n f : sum_to K n (fun i => neg K (f i)) = neg K (sum_to K n f).
Proof.
  revert f. induction n as [|n IH]; intros f; [unfold sum_to; simpl; ring|]. rewrite !sum_to_S, IH. ring.
Qed.

(** the wedges around a grid *)
Lemma boundary_walk (P : nat -> nat -> F * F) n m :
  polygon_area K (map (fun ij => P (fst ij) (snd ij)) (boundary n m)) =
  over K (minus K (minus K (plus K (sum_to K n (fun i => wedge K (P i 0) (P (S i) 0)))
                                   (sum_to K m (fun j => wedge K (P n j) (P n (S j)))))
                           (sum_to K n (fun i => wedge K (P i m) (P (S i) m))))
                  (sum_to K m (fun j => wedge K (P 0 j) (P 0 (S j))))) (two K).
Proof.
  assert (E : polygon_area K (map (fun ij => P (fst ij) (snd ij)) (boundary n m)) =
    over K (walk (map (fun i => P i 0) (seq 0 n) ++ map (fun j => P n j) (seq 0 m) ++
                  map (fun i => P (n - i) m) (seq 0 n) ++ map (fun j => P 0 (m - j)) (seq 0 m) ++ [P 0 0])) (two K)).
  { unfold boundary. rewrite !map_app, !map_map. cbn [fst snd].
    destruct n as [|n].
    - destruct m as [|m].
      + simpl. rewrite over_times. ring.
      + cbn [seq map app]. unfold polygon_area. f_equal. unfold walk. f_equal. rewrite <- !app_assoc. reflexivity.
    - cbn [seq map app]. unfold polygon_area. f_equal. unfold walk. f_equal. rewrite <- !app_assoc. cbn [app]. rewrite <- !app_assoc. reflexivity. }
  rewrite E. f_equal.
  destruct (segment_head (fun j => P 0 (m - j)) m []) as (l4 & E4). cbv beta in E4.
  replace (m - m) with 0 in E4 by lia. replace (m - 0) with m in E4 by lia.
  destruct (segment_head (fun i => P (n - i) m) n l4) as (l3 & E3). cbv beta in E3.
  replace (n - n) with 0 in E3 by lia. replace (n - 0) with n in E3 by lia.
  destruct (segment_head (fun j => P n j) m l3) as (l2 & E2). cbv beta in E2.
  assert (W4 := walk_segment (fun j => P 0 (m - j)) m 0 []). cbn [plus Nat.add] in W4. cbv beta in W4.
  replace (m - m) with 0 in W4 by lia.
  assert (W3 := walk_segment (fun i => P (n - i) m) n 0 l4). cbn [plus Nat.add] in W3. cbv beta in W3.
  replace (n - n) with 0 in W3 by lia.
  assert (W2 := walk_segment (fun j => P n j) m 0 l3). cbn [plus Nat.add] in W2. cbv beta in W2.
  assert (W1 := walk_segment (fun i => P i 0) n 0 l2). cbn [plus Nat.add] in W1. cbv beta in W1.
  rewrite E4, E3, E2, W1, <- E2, W2, <- E3, W3, <- E4, W4.
  replace (sum_to K n (fun i => wedge K (P (n - i) m) (P (n - S i) m))) with (neg K (sum_to K n (fun i => wedge K (P i m) (P (S i) m)))).
  - replace (sum_to K m (fun j => wedge K (P 0 (m - j)) (P 0 (m - S j)))) with (neg K (sum_to K m (fun j => wedge K (P 0 j) (P 0 (S j))))).
    + simpl. ring.
    + rewrite <- sum_to_neg, <- sum_to_rev. apply sum_to_ext. intros j Hj. rewrite <- wedge_swap. f_equal. f_equal. lia.
  - rewrite <- sum_to_neg, <- sum_to_rev. apply sum_to_ext. intros j Hj. rewrite <- wedge_swap. f_equal. f_equal. lia.
Qed.

Lemma quad_area p q r s : polygon_area K [p; q; r; s] =
  over K (plus K (wedge K p q) (plus K (wedge K q r) (plus K (wedge K r s) (wedge K s p)))) (two K).
Proof. unfold polygon_area. cbn [app along]. f_equal. ring. Qed.

Lemma grid_area (P : nat -> nat -> F * F) n m :
  sum_to K n (fun i => sum_to K m (fun j => polygon_area K [P i j; P (S i) j; P (S i) (S j); P i (S j)])) =
  polygon_area K (map (fun ij => P (fst ij) (snd ij)) (boundary n m)).
Proof.
  rewrite boundary_walk, over_times.
  set (h := over K (one K) (two K)).
  transitivity (sum_to K n (fun i => sum_to K m (fun j =>
     minus K (times K (minus K (wedge K (P (S i) j) (P (S i) (S j))) (wedge K (P i j) (P i (S j)))) h)
             (times K (minus K (wedge K (P i (S j)) (P (S i) (S j))) (wedge K (P i j) (P (S i) j))) h)))).
  { apply sum_to_ext. intros i _. apply sum_to_ext. intros j _. rewrite quad_area, over_times. fold h.
    rewrite (wedge_swap (P i (S j)) (P (S i) (S j))), (wedge_swap (P i j) (P i (S j))). ring. }
  transitivity (times K (minus K
    (sum_to K m (fun j => sum_to K n (fun i => minus K (wedge K (P (S i) j) (P (S i) (S j))) (wedge K (P i j) (P i (S j))))))
    (sum_to K n (fun i => sum_to K m (fun j => minus K (wedge K (P i (S j)) (P (S i) (S j))) (wedge K (P i j) (P (S i) j)))))) h).
  { rewrite (sum_to_swap m n (fun j i => minus K (wedge K (P (S i) j) (P (S i) (S j))) (wedge K (P i j) (P i (S j))))).
    rewrite <- sum_to_minus, <- sum_to_times. apply sum_to_ext. intros i _.
    rewrite <- sum_to_minus, <- sum_to_times. apply sum_to_ext. intros j _. ring. }
  f_equal.
  rewrite (sum_to_ext m _ (fun j => minus K (wedge K (P n j) (P n (S j))) (wedge K (P 0 j) (P 0 (S j))))).
  2:{ intros j _. exact (telescope n (fun i => wedge K (P i j) (P i (S j)))). }
  rewrite (sum_to_ext n _ (fun i => minus K (wedge K (P i m) (P (S i) m)) (wedge K (P i 0) (P (S i) 0)))).
  2:{ intros i _. exact (telescope m (fun j => wedge K (P i j) (P (S i) j))). }
  rewrite !sum_to_minus. ring.
Qed.
End Sums.

(** ** The corners of a cell *)

Lemma dict_of_two {V} a1 a2 (x y : V) : a1 <> a2 -> dict_of [(a1, x); (a2, y)] = [(a1, x); (a2, y)].
Proof.
  intros D. apply dict_of_NoDup. simpl. repeat constructor; simpl; intuition.
Qed.

Lemma corner_items_eq a1 a2 : a1 <> a2 -> corner_items a1 a2 =
  [[(a1, ItSlice lower); (a2, ItSlice lower)]; [(a1, ItSlice upper); (a2, ItSlice lower)];
   [(a1, ItSlice upper); (a2, ItSlice upper)]; [(a1, ItSlice lower); (a2, ItSlice upper)]].
Proof. intros D. unfold corner_items. cbn [map fst snd]. now rewrite !dict_of_two. Qed.

Lemma halves_two a1 a2 s t : a1 <> a2 -> s = lower \/ s = upper -> t = lower \/ t = upper ->
  halves [(a1, ItSlice s); (a2, ItSlice t)].
Proof.
  intros D Hs Ht. split; [simpl; repeat constructor; simpl; intuition|].
  intros ax i [E|[E|[]]]; injection E as <- <-; destruct Hs, Ht; subst; auto.
Qed.

Lemma halves_one a s : s = lower \/ s = upper -> halves [(a, ItSlice s)].
Proof. intros Hs. split; [simpl; repeat constructor; auto|]. intros ax i [E|[]]; injection E as <- <-; destruct Hs; subst; auto. Qed.

Ltac names_cases := repeat match goal with
  | |- context [String.eqb ?a ?b] => destruct (String.eqb_spec a b); subst; try congruence
  end.

Lemma moved_ll a1 a2 e ax : moved [(a1, ItSlice lower); (a2, ItSlice lower)] e ax = e ax.
Proof. unfold moved. simpl. now names_cases. Qed.
Lemma moved_ul a1 a2 e ax : a1 <> a2 -> moved [(a1, ItSlice upper); (a2, ItSlice lower)] e ax = next a1 e ax.
Proof. intros D. unfold moved, next, set_env. simpl. names_cases; reflexivity. Qed.
Lemma moved_uu a1 a2 e ax : a1 <> a2 -> moved [(a1, ItSlice upper); (a2, ItSlice upper)] e ax = next a2 (next a1 e) ax.
Proof. intros D. unfold moved, next, set_env. simpl. names_cases; reflexivity. Qed.
Lemma moved_lu a1 a2 e ax : a1 <> a2 -> moved [(a1, ItSlice lower); (a2, ItSlice upper)] e ax = next a2 e ax.
Proof. intros D. unfold moved, next, set_env. simpl. names_cases; reflexivity. Qed.
Lemma moved_l a e ax : moved [(a, ItSlice lower)] e ax = e ax.
Proof. unfold moved. simpl. now names_cases. Qed.
Lemma moved_u a e ax : moved [(a, ItSlice upper)] e ax = next a e ax.
Proof. unfold moved, next, set_env. simpl. now names_cases. Qed.

(** the four corners of an operand *)
Lemma corner_covers {A} l B (a : sarr A) (o : operand A) a1 a2 : NoDup (dkeys B) -> a1 <> a2 -> covers l B (OpArr a) (op_at o) ->
  exists r0 r1 r2 r3, mapM (getitem a) (corner_items a1 a2) = Ok [r0; r1; r2; r3] /\
    covers l (shrunk B [a1; a2]) (OpArr r0) (op_at o) /\
    covers l (shrunk B [a1; a2]) (OpArr r1) (fun e => op_at o (next a1 e)) /\
    covers l (shrunk B [a1; a2]) (OpArr r2) (fun e => op_at o (next a2 (next a1 e))) /\
    covers l (shrunk B [a1; a2]) (OpArr r3) (fun e => op_at o (next a2 e)).
Proof.
  intros N D C. rewrite corner_items_eq by exact D.
  destruct (slice_covers l B a (op_at o) [(a1, ItSlice lower); (a2, ItSlice lower)] N) as (r0 & E0 & C0); [apply halves_two; auto|exact C|].
  destruct (slice_covers l B a (op_at o) [(a1, ItSlice upper); (a2, ItSlice lower)] N) as (r1 & E1 & C1); [apply halves_two; auto|exact C|].
  destruct (slice_covers l B a (op_at o) [(a1, ItSlice upper); (a2, ItSlice upper)] N) as (r2 & E2 & C2); [apply halves_two; auto|exact C|].
  destruct (slice_covers l B a (op_at o) [(a1, ItSlice lower); (a2, ItSlice upper)] N) as (r3 & E3 & C3); [apply halves_two; auto|exact C|].
  exists r0, r1, r2, r3. split; [cbn [mapM]; rewrite E0, E1, E2, E3; reflexivity|].
  split; [eapply covers_ext; [exact C0|]; intros e _; apply op_at_ext; intros; apply moved_ll|].
  split; [eapply covers_ext; [exact C1|]; intros e _; apply op_at_ext; intros; now apply moved_ul|].
  split; [eapply covers_ext; [exact C2|]; intros e _; apply op_at_ext; intros; now apply moved_uu|].
  eapply covers_ext; [exact C3|]; intros e _; apply op_at_ext; intros; now apply moved_lu.
Qed.

Lemma covers_arr {A} ax l B (o : operand A) f : In ax l -> covers l B o f -> exists a, o = OpArr a.
Proof. intros H (_ & _ & L & _). destruct o as [a|x]; [eauto|]. destruct (L ax H). Qed.

Section Area.
Context {F : Type} (K : arith F) (FK : is_field K).
Let Fth : field_theory (zero K) (one K) (plus K) (times K) (minus K) (neg K) (over K) (over K (one K)) eq := proj1 FK.
Add Field Kf2 : Fth.

Lemma broadcast_covers_op (o : operand F) sh : op_wf o -> NoDup (dkeys sh) -> fits_in (op_shape o) sh ->
  exists a, op_broadcast_to o sh = Ok (OpArr a) /\ covers (dkeys sh) sh (OpArr a) (op_at o).
Proof.
  intros W N S. unfold op_broadcast_to. assert (Wn := normalize_wf o W).
  assert (Sn : fits_in (sshape (normalize o)) sh) by (rewrite normalize_shape; exact S).
  destruct (na_broadcast_to_intro (normalize o) sh Wn N) as (r & E).
  { intros ax H. rewrite <- wf_keys in H by exact Wn. apply dget_Some_key in H. destruct H as (n & H). apply dget_In in H.
    destruct (Sn ax n H) as (m & Hm & _). apply in_map_iff. now exists (ax, m). }
  { intros ax n H. apply dget_In in H. destruct (Sn ax n H) as (m & Hm & [-> | ->]); auto. }
  exists r. rewrite E. split; [reflexivity|].
  destruct (na_broadcast_to_ok _ _ _ Wn N E) as (_ & _ & Wr & Sr & V).
  split; [exact Wr|]. split; [simpl; rewrite Sr; intros ax n H; exact H|]. split; [simpl; now rewrite Sr|].
  intros e I. simpl. rewrite exact_at; [|exact Wr|now rewrite Sr]. rewrite V.
  change (bat (normalize o) e) with (op_at (OpArr (normalize o)) e). apply op_at_normalize.
Qed.

Lemma xy_shape ty (x y : operand F) sh : op_wf x -> op_wf y -> vec_shape (xy ty x y) = Ok sh ->
  NoDup (dkeys sh) /\ fits_in (op_shape x) sh /\ fits_in (op_shape y) sh.
Proof.
  intros Wx Wy H.
  assert (E : broadcast_shapes [op_shape x; op_shape y] = Ok sh).
  { rewrite <- H. destruct x, y; reflexivity. }
  assert (Nd : Forall (fun s => NoDup (dkeys s)) [op_shape x; op_shape y]) by (repeat constructor; now apply op_shape_NoDup).
  split; [apply (broadcast_shapes_ok _ _ Nd E)|].
  assert (G : forall s, In s [op_shape x; op_shape y] -> fits_in s sh).
  { intros s Hs ax n Hn. destruct (broadcast_covers _ _ s ax n Nd E Hs Hn) as [Hk [-> | Hm]].
    - apply dget_Some_key in Hk. destruct Hk as (m & Hm). exists m. split; [now apply dget_In|now left].
    - exists n. split; [exact Hm|now right]. }
  split; apply G; simpl; auto.
Qed.

Lemma area_term_covers l B y b a f g h : NoDup (dkeys B) -> covers l B (OpArr y) f -> covers l B (OpArr b) g -> covers l B (OpArr a) h ->
  exists o, area_term K y b a = Ok o /\ covers l B o (fun e => times K (f e) (minus K (g e) (h e))).
Proof.
  intros N C1 C2 C3. unfold area_term. cstep K B N. cstep K B N. eexists. split; [reflexivity|].
  eapply covers_less; [exact R0|]. intros ax Hx. apply in_or_app. now left.
Qed.

Lemma shoelace_covers l B x0 x1 x2 x3 y0 y1 y2 y3 fx0 fx1 fx2 fx3 fy0 fy1 fy2 fy3 : NoDup (dkeys B) ->
  covers l B (OpArr x0) fx0 -> covers l B (OpArr x1) fx1 -> covers l B (OpArr x2) fx2 -> covers l B (OpArr x3) fx3 ->
  covers l B (OpArr y0) fy0 -> covers l B (OpArr y1) fy1 -> covers l B (OpArr y2) fy2 -> covers l B (OpArr y3) fy3 ->
  exists o, shoelace_sum K [x0; x1; x2; x3] [y0; y1; y2; y3] = Ok o /\
    covers l B o (fun e => polygon_area K [(fx0 e, fy0 e); (fx1 e, fy1 e); (fx2 e, fy2 e); (fx3 e, fy3 e)]).
Proof.
  intros N X0 X1 X2 X3 Y0 Y1 Y2 Y3. unfold shoelace_sum.
  assert (Z := covers_num B (zero K)). assert (T := covers_num B (plus K (one K) (one K))).
  destruct (area_term_covers l B y0 x3 x1 _ _ _ N Y0 X3 X1) as (t0 & E0 & T0).
  destruct (area_term_covers l B y1 x0 x2 _ _ _ N Y1 X0 X2) as (t1 & E1 & T1).
  destruct (area_term_covers l B y2 x1 x3 _ _ _ N Y2 X1 X3) as (t2 & E2 & T2).
  destruct (area_term_covers l B y3 x2 x0 _ _ _ N Y3 X2 X0) as (t3 & E3 & T3).
  rewrite E0. cbn [bind]. cstep K B N. rewrite E1. cbn [bind]. cstep K B N. rewrite E2. cbn [bind]. cstep K B N.
  rewrite E3. cbn [bind]. cstep K B N. cstep K B N.
  eexists. split; [reflexivity|]. eapply covers_ext; [eapply covers_less; [eassumption|]|].
  - intros ax Hx. repeat (apply in_or_app; first [right; exact Hx|left]); try exact Hx.
  - intros e _. rewrite quad_area by exact FK. cbv beta. unfold two. f_equal. unfold wedge. simpl. ring.
Qed.

Lemma area_value ty (x y : operand F) sh a1 a2 : op_wf x -> op_wf y -> vec_shape (xy ty x y) = Ok sh ->
  In a1 (dkeys sh) -> In a2 (dkeys sh) -> a1 <> a2 ->
  exists r, volume_cell_2d K (xy ty x y) (Some [a1; a2]) = Ok (OpArr r) /\ wf r /\
    same_shape (sshape r) (shrunk sh [a1; a2]) /\
    forall e, inside e (sshape r) -> at_ r e = polygon_area K (map (point2 x y) (around a1 a2 e)).
Proof.
  intros Wx Wy Sh H1 H2 D. destruct (xy_shape ty x y sh Wx Wy Sh) as (N & Fx & Fy).
  unfold volume_cell_2d. rewrite Sh. cbn [bind forallb].
  rewrite (proj2 (smem_In a1 (dkeys sh)) H1), (proj2 (smem_In a2 (dkeys sh)) H2). cbn [andb negb].
  destruct (broadcast_covers_op x sh Wx N Fx) as (bx & Ex & Cx).
  destruct (broadcast_covers_op y sh Wy N Fy) as (by_ & Ey & Cy).
  unfold xy at 1. cbn [vec_broadcast_to traverse bind fst snd]. rewrite Ex, Ey. cbn [bind].
  cbn -[mapM corner_items shoelace_sum].
  destruct (corner_covers _ sh bx x a1 a2 N D Cx) as (x0 & x1 & x2 & x3 & Mx & X0 & X1 & X2 & X3).
  destruct (corner_covers _ sh by_ y a1 a2 N D Cy) as (y0 & y1 & y2 & y3 & My & Y0 & Y1 & Y2 & Y3).
  rewrite Mx, My. cbn [bind].
  destruct (shoelace_covers _ (shrunk sh [a1; a2]) x0 x1 x2 x3 y0 y1 y2 y3 _ _ _ _ _ _ _ _ ltac:(now rewrite shrunk_keys) X0 X1 X2 X3 Y0 Y1 Y2 Y3) as (o & E & C).
  rewrite E. destruct (covers_arr a1 _ _ _ _ H1 C) as (r & ->). exists r. split; [reflexivity|].
  destruct C as (Wr & Sr & Lr & V). simpl in Wr, Sr, Lr. split; [exact Wr|].
  assert (Q : same_shape (sshape r) (shrunk sh [a1; a2])).
  { intros ax n. split; [apply Sr|]. intros H.
    assert (Hk : In ax (dkeys (sshape r))).
    { apply Lr. rewrite <- (shrunk_keys sh [a1; a2]). apply in_map_iff. now exists (ax, n). }
    apply dget_Some_key in Hk. destruct Hk as (m & Hm). apply dget_In in Hm. replace n with m; [exact Hm|].
    apply Sr in Hm. assert (N' : NoDup (dkeys (shrunk sh [a1; a2]))) by now rewrite shrunk_keys.
    assert (Z := dget_NoDup _ _ _ N' Hm). rewrite (dget_NoDup _ _ _ N' H) in Z. congruence. }
  split; [exact Q|]. intros e I. rewrite <- exact_at by assumption.
  change (bat r e) with (op_at (OpArr r) e). rewrite V; [reflexivity|]. intros ax n H. apply I. now apply Q.
Qed.
End Area.

(** ** Signed areas *)

Section Polygons.
Context {F : Type} (K : arith F) (FK : is_field K).
Let Fth : field_theory (zero K) (one K) (plus K) (times K) (minus K) (neg K) (over K) (over K (one K)) eq := proj1 FK.
Add Field Kf3 : Fth.

Lemma along_shift t l : forall p, along K (shift2 K t p) (map (shift2 K t) l) =
  plus K (along K p l) (minus K (wedge K t (last l p)) (wedge K t p)).
Proof.
  induction l as [|q l IH]; intros p; cbn [map along].
  - simpl. ring.
  - rewrite IH. replace (last (q :: l) p) with (last l q).
    + unfold wedge, shift2. cbn [fst snd]. ring.
    + clear. revert p q. induction l as [|r l IH]; intros p q; [reflexivity|].
      change (last (q :: r :: l) p) with (last (r :: l) p). now rewrite <- (IH q r), <- (IH p r).
Qed.

Lemma area_shift t l : polygon_area K (map (shift2 K t) l) = polygon_area K l.
Proof.
  destruct l as [|p l]; [reflexivity|]. unfold polygon_area. cbn [map].
  replace (map (shift2 K t) l ++ [shift2 K t p]) with (map (shift2 K t) (l ++ [p])) by (rewrite map_app; reflexivity).
  rewrite along_shift, last_last. f_equal. ring.
Qed.

Lemma along_linear a b c d l : forall p, along K (linear2 K a b c d p) (map (linear2 K a b c d) l) =
  times K (minus K (times K a d) (times K b c)) (along K p l).
Proof.
  induction l as [|q l IH]; intros p; cbn [map along]; [ring|]. rewrite IH. unfold wedge, linear2. cbn [fst snd]. ring.
Qed.

Lemma area_linear a b c d l : polygon_area K (map (linear2 K a b c d) l) =
  times K (minus K (times K a d) (times K b c)) (polygon_area K l).
Proof.
  destruct l as [|p l]; [cbn; ring|]. unfold polygon_area. cbn [map].
  replace (map (linear2 K a b c d) l ++ [linear2 K a b c d p]) with (map (linear2 K a b c d) (l ++ [p])) by (rewrite map_app; reflexivity).
  rewrite along_linear. now apply over_scale.
Qed.

Lemma along_app l : forall p q l', along K p (l ++ q :: l') = plus K (along K p (l ++ [q])) (along K q l').
Proof.
  induction l as [|r l IH]; intros p q l'; cbn [app along]; [ring|]. rewrite IH. ring.
Qed.

Lemma area_split p l q l' : polygon_area K (p :: l ++ q :: l') =
  plus K (polygon_area K (p :: l ++ [q])) (polygon_area K (q :: l' ++ [p])).
Proof.
  unfold polygon_area. rewrite <- !app_assoc. cbn [app]. rewrite (along_app l p q (l' ++ [p])), (along_app l p q [p]), (along_app l' q p [q]).
  rewrite <- over_plus by exact FK. f_equal. cbn [along]. rewrite (wedge_swap K FK p q). ring.
Qed.
End Polygons.

Section AreaLaws.
Context {F : Type} (K : arith F) (FK : is_field K).
Let Fth : field_theory (zero K) (one K) (plus K) (times K) (minus K) (neg K) (over K) (over K (one K)) eq := proj1 FK.
Add Field Kf4 : Fth.

Lemma set_get e ax i : set_env e ax i ax = i.
Proof. unfold set_env. now rewrite String.eqb_refl. Qed.

(** summing the cells of a grid *)
Definition place (a1 a2 : string) (e : env) (i j : nat) : env := set_env (set_env e a1 i) a2 j.

Lemma point2_ext (x y : operand F) e e' : (forall ax, e ax = e' ax) -> point2 x y e = point2 x y e'.
Proof. intros H. unfold point2. now rewrite !(op_at_ext _ e e' H). Qed.

Lemma area_grid ty (x y : operand F) sh a1 a2 n m r : op_wf x -> op_wf y -> vec_shape (xy ty x y) = Ok sh ->
  In (a1, S n) sh -> In (a2, S m) sh -> a1 <> a2 -> volume_cell_2d K (xy ty x y) (Some [a1; a2]) = Ok (OpArr r) ->
  forall e, inside_but e sh [a1; a2] ->
  sum_to K n (fun i => sum_to K m (fun j => at_ r (place a1 a2 e i j))) =
  polygon_area K (map (fun ij => point2 x y (place a1 a2 e (fst ij) (snd ij))) (boundary n m)).
Proof.
  intros Wx Wy Sh H1 H2 D E e I.
  assert (N := proj1 (xy_shape ty x y sh Wx Wy Sh)).
  destruct (area_value K FK ty x y sh a1 a2 Wx Wy Sh) as (r' & E' & Wr & Sr & V);
    [apply in_map_iff; now exists (a1, S n)|apply in_map_iff; now exists (a2, S m)|exact D|].
  rewrite E in E'. injection E' as <-.
  rewrite <- (grid_area K FK (fun i j => point2 x y (place a1 a2 e i j))).
  apply sum_to_ext. intros i Hi. apply sum_to_ext. intros j Hj. rewrite V.
  - unfold around. cbn [map]. f_equal. f_equal. f_equal; [|f_equal; [|f_equal]]; apply point2_ext; intros ax; unfold place, next, set_env; names_cases; reflexivity.
  - intros ax k Hk. apply Sr, shrunk_In in Hk. destruct Hk as (k' & Hk & ->). unfold place, set_env. simpl.
    destruct (String.eqb_spec ax a2) as [-> |D2].
    + assert (Z := dget_NoDup _ _ _ N Hk). rewrite (dget_NoDup _ _ _ N H2) in Z. injection Z as <-. rewrite orb_true_r. lia.
    + destruct (String.eqb_spec ax a1) as [-> |D1].
      * assert (Z := dget_NoDup _ _ _ N Hk). rewrite (dget_NoDup _ _ _ N H1) in Z. injection Z as <-. simpl. lia.
      * simpl. apply (I ax k' Hk). simpl. intuition.
Qed.

Lemma area_transform (f : env -> F * F -> F * F) (g : F -> env -> F) ty ty' (x y x' y' : operand F) sh a1 a2 r r' :
  op_wf x -> op_wf y -> op_wf x' -> op_wf y' ->
  vec_shape (xy ty x y) = Ok sh -> vec_shape (xy ty' x' y') = Ok sh -> In a1 (dkeys sh) -> In a2 (dkeys sh) -> a1 <> a2 ->
  (forall e, inside e sh -> point2 x' y' e = f e (point2 x y e)) ->
  (forall e p, f (next a1 e) p = f e p) -> (forall e p, f (next a2 e) p = f e p) ->
  (forall e l, polygon_area K (map (f e) l) = g (polygon_area K l) e) ->
  volume_cell_2d K (xy ty x y) (Some [a1; a2]) = Ok (OpArr r) -> volume_cell_2d K (xy ty' x' y') (Some [a1; a2]) = Ok (OpArr r') ->
  forall e, inside e (sshape r) -> at_ r' e = g (at_ r e) e.
Proof.
  intros Wx Wy Wx' Wy' Sh Sh' H1 H2 D Hp F1 F2 G E E' e I.
  destruct (area_value K FK ty x y sh a1 a2 Wx Wy Sh H1 H2 D) as (q & Eq & Wq & Sq & V). rewrite E in Eq. injection Eq as <-.
  destruct (area_value K FK ty' x' y' sh a1 a2 Wx' Wy' Sh' H1 H2 D) as (q & Eq & Wq' & Sq' & V'). rewrite E' in Eq. injection Eq as <-.
  assert (I' : inside e (sshape r')) by (intros ax n Hn; apply I, Sq, Sq', Hn).
  rewrite V by exact I. rewrite V' by exact I'. rewrite <- G. f_equal.
  assert (Ib : forall ax n, In (ax, n) sh -> e ax < if smem ax [a1; a2] then n - 1 else n).
  { intros ax n Hn. apply I, Sq, shrunk_In. eauto. }
  assert (Q : forall e', In e' (around a1 a2 e) -> inside e' sh).
  { intros e' He ax n Hn. specialize (Ib ax n Hn). simpl in Ib. unfold around, next in He.
    destruct He as [<- |[<- |[<- |[<- |[]]]]]; unfold set_env;
      destruct (String.eqb_spec ax a1), (String.eqb_spec ax a2); simpl in Ib; subst; names_cases; lia. }
  unfold around in *. cbn [map]. rewrite !Hp by (apply Q; simpl; tauto).
  now rewrite !F2, !F1.
Qed.

Lemma area_translation ty ty' (x y x' y' : operand F) (t : env -> F * F) sh a1 a2 r r' :
  op_wf x -> op_wf y -> op_wf x' -> op_wf y' ->
  vec_shape (xy ty x y) = Ok sh -> vec_shape (xy ty' x' y') = Ok sh -> In a1 (dkeys sh) -> In a2 (dkeys sh) -> a1 <> a2 ->
  (forall e, t (next a1 e) = t e) -> (forall e, t (next a2 e) = t e) ->
  (forall e, inside e sh -> op_at x' e = plus K (op_at x e) (fst (t e)) /\ op_at y' e = plus K (op_at y e) (snd (t e))) ->
  volume_cell_2d K (xy ty x y) (Some [a1; a2]) = Ok (OpArr r) -> volume_cell_2d K (xy ty' x' y') (Some [a1; a2]) = Ok (OpArr r') ->
  forall e, inside e (sshape r) -> at_ r' e = at_ r e.
Proof.
  intros Wx Wy Wx' Wy' Sh Sh' H1 H2 D T1 T2 Hp E E' e I.
  apply (area_transform (fun e => shift2 K (t e)) (fun a _ => a) ty ty' x y x' y' sh a1 a2 r r'); auto.
  - intros e' I'. destruct (Hp e' I') as [P1 P2]. unfold point2, shift2. cbn [fst snd]. now rewrite P1, P2.
  - intros e' p. now rewrite T1.
  - intros e' p. now rewrite T2.
  - intros e' l. now apply area_shift.
Qed.

Lemma area_linear_map ty ty' (x y x' y' : operand F) (a b c d : F) sh a1 a2 r r' :
  op_wf x -> op_wf y -> op_wf x' -> op_wf y' ->
  vec_shape (xy ty x y) = Ok sh -> vec_shape (xy ty' x' y') = Ok sh -> In a1 (dkeys sh) -> In a2 (dkeys sh) -> a1 <> a2 ->
  (forall e, inside e sh -> op_at x' e = plus K (times K a (op_at x e)) (times K b (op_at y e)) /\
                            op_at y' e = plus K (times K c (op_at x e)) (times K d (op_at y e))) ->
  volume_cell_2d K (xy ty x y) (Some [a1; a2]) = Ok (OpArr r) -> volume_cell_2d K (xy ty' x' y') (Some [a1; a2]) = Ok (OpArr r') ->
  forall e, inside e (sshape r) -> at_ r' e = times K (minus K (times K a d) (times K b c)) (at_ r e).
Proof.
  intros Wx Wy Wx' Wy' Sh Sh' H1 H2 D Hp E E' e I.
  apply (area_transform (fun _ => linear2 K a b c d) (fun s _ => times K (minus K (times K a d) (times K b c)) s) ty ty' x y x' y' sh a1 a2 r r'); auto.
  - intros e' I'. destruct (Hp e' I') as [P1 P2]. unfold point2, linear2. cbn [fst snd]. now rewrite P1, P2.
  - intros e' l. now apply area_linear.
Qed.

(** which arguments are accepted *)
Lemma area_axis (v : vec F) sh : vec_shape v = Ok sh ->
  (length sh = 2 -> volume_cell_2d K v None = volume_cell_2d K v (Some (dkeys sh))) /\
  (length sh <> 2 -> volume_cell_2d K v None = Err ValueError) /\
  (forall l, (exists ax, In ax l /\ ~ In ax (dkeys sh)) \/ length l <> 2 -> volume_cell_2d K v (Some l) = Err ValueError).
Proof.
  intros E. unfold volume_cell_2d. rewrite E. cbn [bind]. split; [|split].
  - intros L. rewrite (proj2 (Nat.eqb_eq _ _) L). reflexivity.
  - intros L. rewrite (proj2 (Nat.eqb_neq _ _) L). reflexivity.
  - intros l H. destruct (forallb (fun ax => smem ax (dkeys sh)) l) eqn:Q; [|reflexivity]. cbn [negb].
    destruct H as [(ax & Hx & Hn)|H].
    + rewrite forallb_forall in Q. apply Q, smem_In in Hx. contradiction.
    + destruct l as [|? [|? [|? ?]]]; try reflexivity. now destruct H.
Qed.

Lemma area_parallelogram ty (x y : operand F) sh a1 a2 r : op_wf x -> op_wf y -> vec_shape (xy ty x y) = Ok sh ->
  In a1 (dkeys sh) -> In a2 (dkeys sh) -> a1 <> a2 -> two K <> zero K ->
  volume_cell_2d K (xy ty x y) (Some [a1; a2]) = Ok (OpArr r) ->
  forall e u v, inside e (sshape r) ->
  point2 x y (next a1 e) = shift2 K u (point2 x y e) -> point2 x y (next a2 e) = shift2 K v (point2 x y e) ->
  point2 x y (next a2 (next a1 e)) = shift2 K v (shift2 K u (point2 x y e)) ->
  at_ r e = wedge K u v.
Proof.
  intros Wx Wy Sh H1 H2 D Z E e u v I P1 P2 P3.
  destruct (area_value K FK ty x y sh a1 a2 Wx Wy Sh H1 H2 D) as (r' & E' & _ & _ & V). rewrite E in E'. injection E' as <-.
  rewrite V by exact I. unfold around. cbn [map]. rewrite P1, P2, P3. unfold polygon_area. cbn [app along].
  unfold wedge, shift2, two in *. destruct (point2 x y e) as [p q], u as [u1 u2], v as [v1 v2]. cbn [fst snd]. field. exact Z.
Qed.

Lemma triangle_area p u v : polygon_area K [p; shift2 K u p; shift2 K v p] = over K (wedge K u v) (two K).
Proof.
  unfold polygon_area. f_equal. cbn [app along]. unfold wedge, shift2. destruct p, u, v. cbn [fst snd]. ring.
Qed.
End AreaLaws.
