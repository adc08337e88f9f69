(** Facts about the numpy primitives of [Numpy.v]. *)
From Coq Require Import String List Arith ZArith Bool Lia Permutation.
From Verif Require Import Base BaseFacts Numpy.
Import ListNotations.
Open Scope nat_scope.
Open Scope list_scope.

(** *** in-bounds indices *)

Lemma inb_length idx sh : inb idx sh -> length idx = length sh.
Proof. apply Forall2_length'. Qed.

Lemma inbb_inb idx sh : inbb idx sh = true <-> inb idx sh.
Proof.
  unfold inb. revert sh; induction idx; destruct sh; simpl; split; intros H;
    try discriminate; try (inversion H; fail); auto.
  - apply andb_true_iff in H as [H1 H2]. apply Nat.ltb_lt in H1. constructor; auto.
    now apply IHidx.
  - inversion H; subst. apply andb_true_iff. split.
    + now apply Nat.ltb_lt.
    + now apply IHidx.
Qed.

Lemma inb_app i1 i2 s1 s2 : inb i1 s1 -> inb i2 s2 -> inb (i1 ++ i2) (s1 ++ s2).
Proof. apply Forall2_app. Qed.

Lemma inb_app_inv i s1 s2 : inb i (s1 ++ s2) ->
  inb (firstn (length s1) i) s1 /\ inb (skipn (length s1) i) s2.
Proof.
  revert i; induction s1; simpl; intros i H.
  - split; auto. constructor.
  - inversion H; subst. apply IHs1 in H4 as [H4 H5]. simpl. split; auto. constructor; auto.
Qed.

Lemma inb_nth idx sh d d' k : inb idx sh -> k < length sh -> nth k idx d < nth k sh d'.
Proof.
  intros H Hk. apply Forall2_nth with (P := lt); auto.
  erewrite Forall2_length'; eauto.
Qed.

Lemma ndindex_In sh idx : In idx (ndindex sh) <-> inb idx sh.
Proof.
  unfold inb. revert idx; induction sh as [|n sh IH]; simpl; intros idx.
  - split.
    + intros [<-|[]]. constructor.
    + intros H; inversion H; auto.
  - rewrite in_flat_map. split.
    + intros [i [Hi Hin]]. apply in_seq in Hi. apply in_map_iff in Hin as [r [<- Hr]].
      constructor; [lia|]. now apply IH.
    + intros H. inversion H; subst. exists x. split.
      * apply in_seq. lia.
      * apply in_map_iff. exists l. split; auto. now apply IH.
Qed.

Lemma flat_map_const_length {A B} (f : A -> list B) l k :
  (forall x, In x l -> length (f x) = k) -> length (flat_map f l) = length l * k.
Proof.
  induction l; simpl; intros H; auto. rewrite app_length, H, IHl; auto.
Qed.

Lemma ndindex_length sh : length (ndindex sh) = prod sh.
Proof.
  induction sh as [|n sh IH]; simpl; auto.
  rewrite flat_map_const_length with (k := prod sh).
  - now rewrite seq_length.
  - intros x _. now rewrite map_length.
Qed.

Lemma NoDup_flat_map_cons (l : list nat) (r : list (list nat)) :
  NoDup l -> NoDup r -> NoDup (flat_map (fun i => map (cons i) r) l).
Proof.
  intros Hl Hr. induction l; simpl; [constructor|].
  inversion Hl; subst.
  apply NoDup_app_intro; auto.
  - apply FinFun.Injective_map_NoDup; auto. intros x y E; congruence.
  - intros x Hx Hin. apply in_map_iff in Hx as [y [<- _]].
    apply in_flat_map in Hin as [z [Hz Hin]]. apply in_map_iff in Hin as [w [E _]].
    injection E as -> ->. contradiction.
Qed.

Lemma ndindex_NoDup sh : NoDup (ndindex sh).
Proof.
  induction sh; simpl.
  - constructor; auto. constructor.
  - apply NoDup_flat_map_cons; auto. apply seq_NoDup.
Qed.

(** *** row-major positions *)

Lemma ravel_idx_lt sh idx : inb idx sh -> ravel_idx sh idx < prod sh.
Proof.
  unfold inb. intros H; induction H; simpl; [lia|].
  assert (x * prod l' + prod l' <= y * prod l').
  { replace (x * prod l' + prod l') with (S x * prod l') by lia.
    apply Nat.mul_le_mono_r. lia. }
  lia.
Qed.

Lemma unravel_ravel sh idx : inb idx sh -> unravel sh (ravel_idx sh idx) = idx.
Proof.
  unfold inb. intros H; induction H as [|i n idx sh Hi Hr IH]; simpl; auto.
  assert (L := ravel_idx_lt _ _ Hr).
  assert (P : prod sh <> 0) by lia.
  f_equal.
  - rewrite Nat.div_add_l by auto. rewrite Nat.div_small by auto.
    rewrite Nat.add_0_r. now apply Nat.mod_small.
  - rewrite Nat.add_comm, Nat.mod_add by auto. now rewrite Nat.mod_small.
Qed.

Lemma unravel_inb sh k : k < prod sh -> inb (unravel sh k) sh.
Proof.
  unfold inb. revert k; induction sh as [|n sh IH]; simpl; intros k H; constructor.
  - apply Nat.mod_upper_bound. intros ->. simpl in H. lia.
  - apply IH. apply Nat.mod_upper_bound. intros E. rewrite E in H. lia.
Qed.

Lemma ravel_unravel sh k : k < prod sh -> ravel_idx sh (unravel sh k) = k.
Proof.
  revert k; induction sh as [|n sh IH]; simpl; intros k H; [lia|].
  assert (P : prod sh <> 0) by (intros E; rewrite E in H; lia).
  rewrite IH by (apply Nat.mod_upper_bound; auto).
  rewrite Nat.mod_small.
  - rewrite (Nat.div_mod k (prod sh)) at 3 by auto. lia.
  - apply Nat.div_lt_upper_bound; auto. lia.
Qed.

Lemma ravel_idx_inj sh i j : inb i sh -> inb j sh -> ravel_idx sh i = ravel_idx sh j -> i = j.
Proof.
  intros Hi Hj E. rewrite <- (unravel_ravel sh i), E by auto. now apply unravel_ravel.
Qed.

Lemma nth_flat_map_const {A B} (f : A -> list B) l k i j d d' :
  (forall x, In x l -> length (f x) = k) -> i < length l -> j < k ->
  nth (i * k + j) (flat_map f l) d = nth j (f (nth i l d')) d.
Proof.
  revert i; induction l as [|x l IH]; simpl; intros i Hk Hi Hj; [lia|].
  destruct i; simpl.
  - rewrite app_nth1; auto. rewrite Hk; auto.
  - rewrite app_nth2; rewrite Hk; auto; [|lia].
    replace (k + i * k + j - k) with (i * k + j) by lia. apply IH; auto. lia.
Qed.

Lemma nth_ndindex sh idx : inb idx sh -> nth (ravel_idx sh idx) (ndindex sh) [] = idx.
Proof.
  unfold inb. intros H; induction H as [|i n idx sh Hi Hr IH]; simpl; auto.
  assert (L := ravel_idx_lt _ _ Hr).
  rewrite nth_flat_map_const with (k := prod sh) (d' := 0); auto.
  - rewrite seq_nth by auto. simpl.
    rewrite map_nth_in with (d := []) by (now rewrite ndindex_length).
    now rewrite IH.
  - intros x _. now rewrite map_length, ndindex_length.
  - now rewrite seq_length.
Qed.

Lemma nth_ndindex' sh k : k < prod sh -> nth k (ndindex sh) [] = unravel sh k.
Proof.
  intros H. rewrite <- (ravel_unravel sh k) at 1 by auto.
  apply nth_ndindex. now apply unravel_inb.
Qed.

Lemma nth_ravel {A} (a : nd A) idx d :
  inb idx (nshape a) -> nth (ravel_idx (nshape a) idx) (ravel a) d = nget a idx.
Proof.
  intros H. unfold ravel.
  rewrite map_nth_in with (d := []) by (rewrite ndindex_length; now apply ravel_idx_lt).
  now rewrite nth_ndindex.
Qed.

Lemma ravel_length {A} (a : nd A) : length (ravel a) = prod (nshape a).
Proof. unfold ravel. now rewrite map_length, ndindex_length. Qed.

Lemma ravel_In {A} (a : nd A) x :
  In x (ravel a) <-> exists idx, inb idx (nshape a) /\ nget a idx = x.
Proof.
  unfold ravel. rewrite in_map_iff. split.
  - intros [i [E H]]. apply ndindex_In in H. eauto.
  - intros [i [H E]]. exists i. split; auto. now apply ndindex_In.
Qed.

(** *** the axis order computed by [moveaxis] *)

Definition sorted_fst (l : list (nat * nat)) : Prop :=
  forall i j d, i < j -> j < length l -> fst (nth i l d) < fst (nth j l d).

Fixpoint asc (lo : nat) (l : list (nat * nat)) : Prop :=
  match l with
  | [] => True
  | p :: l' => lo <= fst p /\ asc (S (fst p)) l'
  end.

Lemma asc_weaken lo lo' l : lo' <= lo -> asc lo l -> asc lo' l.
Proof. destruct l; simpl; auto. intuition lia. Qed.

Lemma insert_pair_perm p l : Permutation (insert_pair p l) (p :: l).
Proof.
  induction l; simpl; auto.
  destruct (fst p <? fst a); auto.
  destruct ((fst p =? fst a) && (snd p <=? snd a)); auto.
  etransitivity; [apply perm_skip, IHl|]. apply perm_swap.
Qed.

Lemma sort_pairs_perm l : Permutation (sort_pairs l) l.
Proof.
  induction l; simpl; auto.
  etransitivity; [apply insert_pair_perm|]. auto.
Qed.

Lemma insert_pair_asc p l lo :
  asc lo l -> lo <= fst p -> ~ In (fst p) (map fst l) -> asc lo (insert_pair p l).
Proof.
  revert lo; induction l as [|q l IH]; simpl; intros lo H1 H2 H3; auto.
  destruct (Nat.ltb_spec (fst p) (fst q)); simpl.
  - intuition.
  - destruct (Nat.eqb_spec (fst p) (fst q)); simpl; [exfalso; apply H3; auto|].
    destruct H1. split; auto. apply IH; auto. lia.
Qed.

Lemma sort_pairs_asc l : NoDup (map fst l) -> asc 0 (sort_pairs l).
Proof.
  induction l; simpl; intros H; auto. inversion H; subst.
  apply insert_pair_asc; auto; [lia|].
  intros Hin. apply H2.
  eapply Permutation_in; [|exact Hin]. apply Permutation_map, sort_pairs_perm.
Qed.

Lemma insert_pair_head p l : asc (S (fst p)) l -> insert_pair p l = p :: l.
Proof.
  destruct l as [|q l]; simpl; auto. intros [H _].
  destruct (Nat.ltb_spec (fst p) (fst q)); auto. lia.
Qed.

Lemma sort_pairs_id l lo : asc lo l -> sort_pairs l = l.
Proof.
  revert lo; induction l; simpl; intros lo H; auto. destruct H as [H1 H2].
  rewrite (IHl _ H2). now apply insert_pair_head.
Qed.

Fixpoint okpos (len : nat) (l : list (nat * nat)) : Prop :=
  match l with
  | [] => True
  | p :: l' => fst p <= len /\ okpos (S len) l'
  end.

Lemma asc_length lo n l :
  asc lo l -> Forall (fun p => fst p < n) l -> l <> [] -> lo + length l <= n.
Proof.
  revert lo; induction l as [|p l IH]; simpl; intros lo H1 H2 H3; [congruence|].
  inversion H2; subst. destruct H1.
  destruct l as [|q l]; [simpl; lia|].
  assert (S (fst p) + length (q :: l) <= n) by (apply IH; auto; discriminate).
  simpl in *. lia.
Qed.

Lemma asc_okpos lo n l len :
  asc lo l -> Forall (fun p => fst p < n) l -> n <= len + length l -> okpos len l.
Proof.
  revert lo len; induction l as [|p l IH]; simpl; intros lo len H1 H2 H3; auto.
  inversion H2; subst. destruct H1 as [H1 H6]. split.
  - destruct l as [|q l]; [simpl in *; lia|].
    assert (S (fst p) + length (q :: l) <= n) by (apply asc_length; auto; discriminate).
    simpl in *; lia.
  - eapply IH; eauto. lia.
Qed.

Definition mv_step (order : list nat) (p : nat * nat) : list nat := insert_at (fst p) (snd p) order.

Lemma mv_preserve l lo acc j :
  asc lo l -> okpos (length acc) l -> j < lo -> j < length acc ->
  nth_error (fold_left mv_step l acc) j = nth_error acc j.
Proof.
  revert lo acc; induction l as [|p l IH]; simpl; intros lo acc H1 H2 H3 H4; auto.
  destruct H1, H2. unfold mv_step at 2.
  rewrite IH with (lo := S (fst p)); auto.
  - apply nth_error_insert_at_lt; lia.
  - now rewrite length_insert_at.
  - lia.
  - rewrite length_insert_at. lia.
Qed.

Lemma mv_spec l lo acc :
  asc lo l -> okpos (length acc) l ->
  (forall p, In p l -> nth_error (fold_left mv_step l acc) (fst p) = Some (snd p)) /\
  Permutation (fold_left mv_step l acc) (map snd l ++ acc).
Proof.
  revert lo acc; induction l as [|p l IH]; simpl; intros lo acc H1 H2.
  - split; [tauto|auto].
  - destruct H1, H2.
    assert (L : length (mv_step acc p) = S (length acc)) by apply length_insert_at.
    destruct (IH (S (fst p)) (mv_step acc p)) as [IH1 IH2]; auto; [now rewrite L|].
    split.
    + intros q [<-|Hq].
      * rewrite mv_preserve with (lo := S (fst p)); auto; try lia.
        -- apply nth_error_insert_at_eq. auto.
        -- now rewrite L.
      * auto.
    + etransitivity; [exact IH2|]. unfold mv_step.
      etransitivity; [apply Permutation_app_head, Permutation_insert_at|].
      symmetry. apply Permutation_middle.
Qed.

Lemma filter_seq_perm n src :
  NoDup src -> Forall (fun i => i < n) src ->
  Permutation (src ++ filter (fun i => negb (nmem i src)) (seq 0 n)) (seq 0 n).
Proof.
  intros H1 H2. apply NoDup_Permutation.
  - apply NoDup_app_intro; auto.
    + apply NoDup_filter, seq_NoDup.
    + intros x Hx Hin. apply filter_In in Hin as [_ Hn].
      apply negb_true_iff, nmem_false in Hn. contradiction.
  - apply seq_NoDup.
  - intros x. rewrite in_app_iff, filter_In, in_seq. rewrite Forall_forall in H2.
    destruct (nmem x src) eqn:E.
    + apply nmem_In in E. split; auto. intros _. specialize (H2 _ E). lia.
    + simpl. apply nmem_false in E. split; [intros [?|[? _]]; [contradiction|lia]|].
      intros; right; split; auto; lia.
Qed.

Lemma filter_seq_length n src :
  NoDup src -> Forall (fun i => i < n) src ->
  length src + length (filter (fun i => negb (nmem i src)) (seq 0 n)) = n.
Proof.
  intros H1 H2. rewrite <- app_length.
  erewrite Permutation_length; [|apply filter_seq_perm; auto]. apply seq_length.
Qed.

Lemma map_fst_combine {A B} (l : list A) (r : list B) :
  length l = length r -> map fst (combine l r) = l.
Proof. revert r; induction l; destruct r; simpl; intros; try discriminate; auto. f_equal; auto. Qed.

Lemma map_snd_combine {A B} (l : list A) (r : list B) :
  length l = length r -> map snd (combine l r) = r.
Proof. revert r; induction l; destruct r; simpl; intros; try discriminate; auto. f_equal; auto. Qed.

Lemma moveaxis_order_spec n src dst :
  length src = length dst -> NoDup src -> NoDup dst ->
  Forall (fun i => i < n) src -> Forall (fun i => i < n) dst ->
  Permutation (moveaxis_order n src dst) (seq 0 n) /\
  (forall k, k < length src ->
     nth_error (moveaxis_order n src dst) (nth k dst 0) = Some (nth k src 0)).
Proof.
  intros HL Hs Hd Bs Bd. unfold moveaxis_order.
  set (ps := sort_pairs (combine dst src)).
  set (acc := filter (fun i => negb (nmem i src)) (seq 0 n)).
  assert (Pp : Permutation ps (combine dst src)) by apply sort_pairs_perm.
  assert (A : asc 0 ps).
  { apply sort_pairs_asc. rewrite map_fst_combine; auto. }
  assert (FB : Forall (fun p => fst p < n) ps).
  { apply Forall_forall. intros p Hp.
    assert (In p (combine dst src)) by (eapply Permutation_in; eauto).
    rewrite Forall_forall in Bd. apply Bd.
    rewrite <- (map_fst_combine dst src) by auto. now apply in_map. }
  assert (LP : length ps = length src).
  { rewrite (Permutation_length Pp), combine_length, HL. lia. }
  assert (LA : length src + length acc = n) by (apply filter_seq_length; auto).
  assert (OP : okpos (length acc) ps) by (eapply asc_okpos; eauto; lia).
  destruct (mv_spec ps 0 acc A OP) as [S1 S2]. unfold mv_step in *.
  split.
  - etransitivity; [exact S2|]. etransitivity; [|apply (filter_seq_perm n src); eauto].
    apply Permutation_app_tail. 
    rewrite <- (map_snd_combine dst src) by auto. now apply Permutation_map.
  - intros k Hk.
    specialize (S1 (nth k dst 0, nth k src 0)). simpl in S1. apply S1.
    eapply Permutation_in; [symmetry; exact Pp|].
    rewrite <- combine_nth by auto. apply nth_In. rewrite combine_length, HL. lia.
Qed.

Lemma mv_front l acc base :
  fold_left mv_step (combine (seq (length base) (length l)) l) (base ++ acc) = base ++ l ++ acc.
Proof.
  revert base; induction l as [|x l IH]; simpl; intros base; auto.
  unfold mv_step at 2. simpl. rewrite insert_at_app2.
  replace (S (length base)) with (length (base ++ [x])) by (rewrite app_length; simpl; lia).
  replace (base ++ x :: acc) with ((base ++ [x]) ++ acc) by (rewrite <- app_assoc; auto).
  rewrite IH. rewrite <- app_assoc. auto.
Qed.

Lemma asc_combine_seq lo l : asc lo (combine (seq lo (length l)) l).
Proof.
  revert lo; induction l; simpl; intros lo; auto.
Qed.

Lemma moveaxis_order_front n src :
  moveaxis_order n src (seq 0 (length src)) =
  src ++ filter (fun i => negb (nmem i src)) (seq 0 n).
Proof.
  unfold moveaxis_order. rewrite sort_pairs_id with (lo := 0) by apply asc_combine_seq.
  apply (mv_front src _ []).
Qed.

Lemma moveaxis_order_back n src :
  NoDup src -> Forall (fun i => i < n) src ->
  moveaxis_order n src (seq (n - length src) (length src)) =
  filter (fun i => negb (nmem i src)) (seq 0 n) ++ src.
Proof.
  intros H1 H2. unfold moveaxis_order.
  rewrite sort_pairs_id with (lo := n - length src) by apply asc_combine_seq.
  set (acc := filter _ _).
  assert (length src + length acc = n) by (apply filter_seq_length; auto).
  replace (n - length src) with (length acc) by lia.
  generalize (mv_front src [] acc). rewrite !app_nil_r. auto.
Qed.

(** *** transposes *)

Lemma transpose_read {A} perm (a : nd A) (g : nat -> nat) :
  Permutation perm (seq 0 (ndim a)) ->
  nget (transpose perm a) (map g perm) = nget a (map g (seq 0 (ndim a))).
Proof.
  intros H. unfold transpose. cbn [nget]. f_equal. apply map_ext_in. intros i Hi.
  assert (Hp : In i perm) by (eapply Permutation_in; [symmetry; exact H|auto]).
  rewrite map_nth_in with (d := 0) by (now apply npos_lt).
  now rewrite nth_npos.
Qed.

Lemma transpose_shape {A} perm (a : nd A) :
  nshape (transpose perm a) = map (fun p => nth p (nshape a) 0) perm.
Proof. reflexivity. Qed.

Lemma transpose_ndim {A} perm (a : nd A) :
  Permutation perm (seq 0 (ndim a)) -> ndim (transpose perm a) = ndim a.
Proof.
  intros H. unfold ndim at 1. simpl. rewrite map_length.
  rewrite (Permutation_length H). apply seq_length.
Qed.

Lemma map_nth_seq {A} (l : list A) d : map (fun i => nth i l d) (seq 0 (length l)) = l.
Proof.
  apply list_eq_nth with (d := d).
  - now rewrite map_length, seq_length.
  - intros i Hi. rewrite map_length, seq_length in Hi.
    rewrite map_nth_in with (d := 0) by (now rewrite seq_length).
    now rewrite seq_nth.
Qed.

(** transposing an array whose dimensions are named [names] *)
Lemma transpose_named {A B} perm (a : nd A) (names : list B) (e : B -> nat) d :
  Permutation perm (seq 0 (ndim a)) -> length names = ndim a ->
  nget (transpose perm a) (map e (map (fun p => nth p names d) perm)) =
  nget a (map e names).
Proof.
  intros H L. rewrite map_map.
  rewrite (transpose_read perm a (fun p => e (nth p names d))) by auto.
  f_equal. rewrite <- (map_map (fun p => nth p names d) e). f_equal.
  rewrite <- L. apply map_nth_seq.
Qed.

(** *** broadcasting shapes of equal rank *)

Lemma bsize_spec m n k :
  bsize m n = Some k <-> ((m = n \/ m = 1 \/ n = 1) /\ k = (if m =? 1 then n else m)).
Proof.
  unfold bsize. destruct (Nat.eqb_spec m n); [subst|].
  - split.
    + intros H; injection H as <-. split; auto. destruct (Nat.eqb_spec n 1); auto.
    + intros [_ ->]. destruct (Nat.eqb_spec n 1); subst; auto.
  - destruct (Nat.eqb_spec m 1); [|destruct (Nat.eqb_spec n 1)].
    + split; [intros H; injection H as <-; auto|intros [_ ->]; auto].
    + split; [intros H; injection H as <-; auto|intros [_ ->]; auto].
    + split; [discriminate|]. intros [[?|[?|?]] _]; contradiction.
Qed.

Fixpoint bzip (s t : list nat) : option (list nat) :=
  match s, t with
  | [], [] => Some []
  | m :: s', n :: t' =>
      match bsize m n, bzip s' t' with
      | Some k, Some r => Some (k :: r)
      | _, _ => None
      end
  | _, _ => None
  end.

Lemma bzip_rev s t : length s = length t -> bshape_rev s t = bzip s t.
Proof.
  revert t; induction s; destruct t; simpl; intros H; try discriminate; auto.
  rewrite IHs; auto.
Qed.

Lemma bzip_app s1 s2 t1 t2 : length s1 = length t1 ->
  bzip (s1 ++ s2) (t1 ++ t2) =
  match bzip s1 t1, bzip s2 t2 with Some r1, Some r2 => Some (r1 ++ r2) | _, _ => None end.
Proof.
  revert t1; induction s1; destruct t1; simpl; intros H; try discriminate.
  - destruct (bzip s2 t2); auto.
  - rewrite IHs1 by auto. destruct (bsize a n), (bzip s1 t1), (bzip s2 t2); auto.
Qed.

Lemma bzip_rev_eq s t : length s = length t -> bzip (rev s) (rev t) = option_map (@rev nat) (bzip s t).
Proof.
  revert t; induction s; destruct t; simpl; intros H; try discriminate; auto.
  rewrite bzip_app by (rewrite !rev_length; auto). rewrite IHs by auto. simpl.
  destruct (bsize a n), (bzip s t); simpl; auto.
Qed.

Lemma bshape2_zip s t : length s = length t -> bshape2 s t = bzip s t.
Proof.
  intros H. unfold bshape2. rewrite bzip_rev by (rewrite !rev_length; auto).
  rewrite bzip_rev_eq by auto. destruct (bzip s t); simpl; auto. now rewrite rev_involutive.
Qed.

Lemma bshape2_nil_r s : bshape2 s [] = Some s.
Proof.
  unfold bshape2. simpl. destruct (rev s) eqn:E; simpl.
  - rewrite <- (rev_involutive s), E. auto.
  - rewrite <- (rev_involutive s), E. reflexivity.
Qed.

Lemma bshape2_nil_l s : bshape2 [] s = Some s.
Proof. unfold bshape2. simpl. now rewrite rev_involutive. Qed.

Lemma bzip_length s t r : bzip s t = Some r -> length r = length s /\ length s = length t.
Proof.
  revert t r; induction s; destruct t; simpl; intros r H; try discriminate.
  - injection H as <-. auto.
  - destruct (bsize a n); [|discriminate]. destruct (bzip s t) eqn:E; [|discriminate].
    injection H as <-. apply IHs in E. simpl. intuition.
Qed.

Lemma bzip_nth s t r i d : bzip s t = Some r -> i < length s ->
  bsize (nth i s d) (nth i t d) = Some (nth i r d).
Proof.
  revert t r i; induction s; destruct t; simpl; intros r i H Hi; try discriminate; [lia|].
  destruct (bsize a n) eqn:E1; [|discriminate]. destruct (bzip s t) eqn:E; [|discriminate].
  injection H as <-. destruct i; simpl; auto. apply IHs; auto. lia.
Qed.

Lemma bzip_intro s t r d : length s = length t -> length r = length s ->
  (forall i, i < length s -> bsize (nth i s d) (nth i t d) = Some (nth i r d)) ->
  bzip s t = Some r.
Proof.
  revert t r; induction s; destruct t, r; simpl; intros H1 H2 H; try discriminate; auto.
  rewrite (H 0) by lia. erewrite IHs; auto. intros i Hi. apply (H (S i)). lia.
Qed.

(** per-axis description of broadcasting: every size is 1 or the common size *)
Definition bjoin (l : list nat) (k : nat) : Prop :=
  Forall (fun m => m = 1 \/ m = k) l /\ (Forall (fun m => m = 1) l -> k = 1).

Lemma bjoin_nil k : bjoin [] k <-> k = 1.
Proof. unfold bjoin; split; [intros [_ H]; auto|intros ->; auto]. Qed.

Lemma bjoin_cons m l k : bjoin (m :: l) k <->
  exists j, bjoin l j /\ bsize m j = Some k.
Proof.
  unfold bjoin. split.
  - intros [H1 H2]. inversion H1 as [|? ? Hm Hl]; subst.
    destruct (Forall_dec (fun m => m = 1) (fun m => Nat.eq_dec m 1) l) as [A|A].
    + exists 1. split; [split; auto|].
      * eapply Forall_impl; [|exact A]. auto.
      * apply bsize_spec. split; auto.
        destruct Hm as [->| ->]; simpl; auto. destruct (Nat.eqb_spec k 1); auto.
    + exists k. split; [split; auto; tauto|].
      apply bsize_spec. destruct Hm as [->| ->]; split; auto.
      destruct (Nat.eqb_spec k 1); auto.
  - intros [j [[H1 H2] H3]]. apply bsize_spec in H3 as [H3 ->].
    destruct (Nat.eqb_spec m 1).
    + subst. split; [constructor; auto|]. intros H; inversion H; auto.
    + split.
      * constructor; auto. destruct H3 as [->|[?| ->]]; auto; try contradiction.
        eapply Forall_impl; [|exact H1]. simpl; intuition; subst; auto.
      * intros H; inversion H; auto.
Qed.

Lemma bjoin_in l k : bjoin l k -> k = 1 \/ In k l.
Proof.
  revert k; induction l; intros k H.
  - left. now apply bjoin_nil in H.
  - apply bjoin_cons in H as [j [H1 H2]]. apply bsize_spec in H2 as [_ ->].
    destruct (Nat.eqb_spec a 1); [|right; left; auto]. apply IHl in H1. simpl; tauto.
Qed.

Lemma bjoin_unique l k k' : bjoin l k -> bjoin l k' -> k = k'.
Proof.
  intros [H1 H2] [H3 H4].
  destruct (Forall_dec (fun m => m = 1) (fun m => Nat.eq_dec m 1) l) as [A|A].
  - rewrite (H2 A), (H4 A); auto.
  - apply Exists_Forall_neg in A; [|intros; destruct (Nat.eq_dec x 1); tauto].
    apply Exists_exists in A as [x [Hx Hn]].
    rewrite Forall_forall in *. destruct (H1 x Hx), (H3 x Hx); congruence.
Qed.

(** broadcasting of shapes that all have rank [n] (a rank 0 operand, i.e. a
    plain number, is neutral) *)
Lemma bshapes_rank n l s :
  Forall (fun x => length x = n \/ x = []) l ->
  bshapes l = Some s -> (length s = n \/ s = []).
Proof.
  revert s; induction l as [|x l IH]; simpl; intros s H E.
  - injection E as <-. auto.
  - inversion H; subst. destruct (bshapes l) eqn:El; [|discriminate].
    destruct (IH _ H3 eq_refl) as [L| ->].
    + destruct H2 as [L2| ->].
      * rewrite bshape2_zip in E by lia. apply bzip_length in E. left; lia.
      * rewrite bshape2_nil_l in E. injection E as <-. auto.
    + rewrite bshape2_nil_r in E. injection E as <-. auto.
Qed.

Lemma bshapes_join n l s :
  Forall (fun x => length x = n \/ x = []) l ->
  bshapes l = Some s ->
  forall i, i < n -> bjoin (map (fun x => nth i x 1) l) (nth i s 1).
Proof.
  revert s; induction l as [|x l IH]; simpl; intros s H E i Hi.
  - injection E as <-. apply bjoin_nil. destruct i; auto.
  - inversion H; subst. destruct (bshapes l) as [t|] eqn:El; [|discriminate].
    specialize (IH _ H3 eq_refl i Hi). apply bjoin_cons. exists (nth i t 1). split; auto.
    destruct (bshapes_rank n l t H3 El) as [L| ->].
    + destruct H2 as [L2| ->].
      * rewrite bshape2_zip in E by lia. apply bzip_nth; auto. lia.
      * rewrite bshape2_nil_l in E. injection E as <-.
        apply bsize_spec. replace (nth i [] 1) with 1 by (destruct i; auto). auto.
    + rewrite bshape2_nil_r in E. injection E as <-.
      replace (nth i [] 1) with 1 by (destruct i; auto).
      apply bsize_spec. split; auto. destruct (Nat.eqb_spec (nth i x 1) 1); auto.
Qed.

Lemma bshapes_intro n l s :
  Forall (fun x => length x = n \/ x = []) l ->
  length s = n ->
  (forall i, i < n -> bjoin (map (fun x => nth i x 1) l) (nth i s 1)) ->
  exists t, bshapes l = Some t /\ (t = s \/ t = [] /\ s = repeat 1 n).
Proof.
  revert s; induction l as [|x l IH]; simpl; intros s H L J.
  - exists []. split; auto. right. split; auto.
    apply list_eq_nth with (d := 1). { now rewrite repeat_length. }
    intros i Hi. rewrite nth_repeat. apply (proj1 (bjoin_nil _)). apply J. lia.
  - inversion H as [|? ? H1 H2]; subst.
    set (P := fun i j => bjoin (map (fun x0 => nth i x0 1) l) j /\ bsize (nth i x 1) j = Some (nth i s 1)).
    assert (E : exists t, length t = length s /\ forall i, i < length s -> P i (nth i t 1)).
    { assert (G : forall m, m <= length s -> exists t, length t = m /\ forall i, i < m -> P i (nth i t 1)).
      { induction m; intros Hm.
        - exists []. split; auto. lia.
        - destruct IHm as [t [Lt Ht]]; [lia|].
          destruct (proj1 (bjoin_cons _ _ _) (J m Hm)) as [j [J1 J2]].
          exists (t ++ [j]). split. { rewrite app_length; simpl; lia. }
          intros i Hi. destruct (Nat.eq_dec i m).
          + subst. rewrite app_nth2, Nat.sub_diag by lia. split; auto.
          + rewrite app_nth1 by lia. apply Ht. lia. }
      apply G. lia. }
    destruct E as [t [Lt Ht]].
    destruct (IH t H2 (eq_trans Lt eq_refl)) as [u [Eu Hu]].
    { intros i Hi. apply Ht. auto. }
    rewrite Eu. destruct Hu as [->|[-> ->]].
    + destruct H1 as [Lx| ->].
      * exists s. split; auto. rewrite bshape2_zip by lia.
        apply bzip_intro with (d := 1); auto; try lia. intros i Hi. apply Ht. lia.
      * exists t. rewrite bshape2_nil_l. split; auto. left.
        apply list_eq_nth with (d := 1); auto. intros i Hi.
        destruct (Ht i) as [_ E]; [lia|]. apply bsize_spec in E as [_ ->].
        replace (nth i [] 1) with 1 by (destruct i; auto). auto.
    + rewrite bshape2_nil_r. exists x. split; auto.
      destruct H1 as [Lx| ->].
      * left. apply list_eq_nth with (d := 1); auto. intros i Hi.
        destruct (Ht i) as [_ E]; [lia|]. rewrite nth_repeat in E. apply bsize_spec in E as [_ ->].
        destruct (Nat.eqb_spec (nth i x 1) 1); auto.
      * right. split; auto. apply list_eq_nth with (d := 1). { now rewrite repeat_length. }
        intros i Hi. rewrite nth_repeat. destruct (Ht i) as [_ E]; [lia|].
        rewrite nth_repeat in E. apply bsize_spec in E as [_ ->].
        destruct i; auto.
Qed.

(** reading a broadcast operand of the same rank *)
Lemma bidx_same_length sh idx : length sh = length idx ->
  bidx sh idx = map (fun p => if fst p =? 1 then 0 else snd p) (combine sh idx).
Proof. intros H. unfold bidx. now rewrite H, Nat.sub_diag. Qed.

Lemma bidx_nil idx : bidx [] idx = [].
Proof. reflexivity. Qed.

Lemma bto_rev_Forall2 s t : length s = length t ->
  (bto_rev s t = true <-> Forall2 (fun m n => m = n \/ m = 1) s t).
Proof.
  revert t; induction s; destruct t; simpl; intros H; try discriminate.
  - split; auto.
  - rewrite andb_true_iff, orb_true_iff, !Nat.eqb_eq, IHs by auto. split.
    + intros [? ?]; constructor; auto.
    + intros H1; inversion H1; auto.
Qed.

Lemma Forall2_rev' {A B} (P : A -> B -> Prop) l1 l2 :
  Forall2 P l1 l2 -> Forall2 P (rev l1) (rev l2).
Proof.
  induction 1; simpl; auto. apply Forall2_app; auto.
Qed.

Lemma bto_Forall2 s t : length s = length t ->
  (bto_rev (rev s) (rev t) = true <-> Forall2 (fun m n => m = n \/ m = 1) s t).
Proof.
  intros H. rewrite bto_rev_Forall2 by (rewrite !rev_length; auto). split; intros F.
  - apply Forall2_rev' in F. now rewrite !rev_involutive in F.
  - now apply Forall2_rev'.
Qed.
