(** Facts about the helpers of [Base.v]. *)
From Coq Require Import String List Arith ZArith Bool Lia Permutation.
From Verif Require Import Base.
Import ListNotations.
Open Scope nat_scope.
Open Scope list_scope.

Lemma bind_ok {A B} (r : res A) (f : A -> res B) b :
  bind r f = Ok b -> exists a, r = Ok a /\ f a = Ok b.
Proof. destruct r; simpl; intros; [eauto | discriminate]. Qed.

Lemma mapM_ok {A B} (f : A -> res B) l ys :
  mapM f l = Ok ys -> Forall2 (fun x y => f x = Ok y) l ys.
Proof.
  revert ys; induction l as [|x l IH]; simpl; intros ys H.
  - injection H as <-; constructor.
  - destruct (f x) eqn:E; simpl in H; [|discriminate].
    destruct (mapM f l) eqn:E2; simpl in H; [|discriminate].
    injection H as <-. constructor; auto.
Qed.

Lemma mapM_ok_intro {A B} (f : A -> res B) l ys :
  Forall2 (fun x y => f x = Ok y) l ys -> mapM f l = Ok ys.
Proof. induction 1; simpl; auto. rewrite H, IHForall2. reflexivity. Qed.

Lemma mapM_map {A B} (f : A -> res B) (g : A -> B) l :
  (forall x, In x l -> f x = Ok (g x)) -> mapM f l = Ok (map g l).
Proof.
  intros H. apply mapM_ok_intro. induction l; simpl; constructor.
  - apply H; left; auto.
  - apply IHl. intros; apply H; right; auto.
Qed.

Lemma mapM_err {A B} (f : A -> res B) l :
  (exists x, In x l /\ is_ok (f x) = false) -> is_ok (mapM f l) = false.
Proof.
  induction l as [|x l IH]; intros [y [Hin Hy]]; [destruct Hin|].
  simpl. destruct Hin as [->|Hin].
  - destruct (f y); simpl in *; [discriminate|auto].
  - destruct (f x); simpl; auto.
    assert (H : is_ok (mapM f l) = false) by (apply IH; eauto).
    destruct (mapM f l); simpl in *; auto.
Qed.

(** *** membership *)

Lemma smem_In s l : smem s l = true <-> In s l.
Proof.
  unfold smem. rewrite existsb_exists. split.
  - intros [x [H1 H2]]. apply String.eqb_eq in H2. subst; auto.
  - intros H. exists s. split; auto. apply String.eqb_refl.
Qed.

Lemma smem_false s l : smem s l = false <-> ~ In s l.
Proof.
  rewrite <- smem_In. destruct (smem s l); split; intros; congruence.
Qed.

Lemma nmem_In n l : nmem n l = true <-> In n l.
Proof.
  unfold nmem. rewrite existsb_exists. split.
  - intros [x [H1 H2]]. apply Nat.eqb_eq in H2. subst; auto.
  - intros H. exists n. split; auto. apply Nat.eqb_refl.
Qed.

Lemma nmem_false n l : nmem n l = false <-> ~ In n l.
Proof. rewrite <- nmem_In. destruct (nmem n l); split; intros; congruence. Qed.

Lemma nodupb_NoDup l : nodupb l = true <-> NoDup l.
Proof.
  induction l; simpl.
  - split; auto. constructor.
  - rewrite andb_true_iff, negb_true_iff, smem_false, IHl. split.
    + intros [H1 H2]; constructor; auto.
    + intros H; inversion H; auto.
Qed.

Lemma nodupb_false l : nodupb l = false <-> ~ NoDup l.
Proof. rewrite <- nodupb_NoDup. destruct (nodupb l); split; intros; congruence. Qed.

Lemma sindex_Some s l i : sindex s l = Some i -> nth_error l i = Some s /\ i = spos s l.
Proof.
  revert i; induction l as [|x l IH]; simpl; intros i H; [discriminate|].
  destruct (String.eqb_spec s x).
  - injection H as <-. subst; auto.
  - destruct (sindex s l) eqn:E; [|discriminate]. injection H as <-.
    destruct (IH n0 eq_refl) as [H1 H2]. simpl. subst; auto.
Qed.

Lemma sindex_In s l : In s l -> sindex s l = Some (spos s l).
Proof.
  induction l as [|x l IH]; simpl; intros H; [destruct H|].
  destruct (String.eqb_spec s x); auto.
  rewrite IH; auto. destruct H; congruence.
Qed.

Lemma sindex_None s l : sindex s l = None <-> ~ In s l.
Proof.
  split.
  - intros H Hin. rewrite sindex_In in H; auto. discriminate.
  - intros H. destruct (sindex s l) eqn:E; auto.
    apply sindex_Some in E. destruct E as [E _]. apply nth_error_In in E. contradiction.
Qed.

Lemma spos_lt s l : In s l <-> spos s l < length l.
Proof.
  induction l as [|x l IH]; simpl.
  - split; [tauto|lia].
  - destruct (String.eqb_spec s x).
    + subst; split; auto; lia.
    + split.
      * intros [H|H]; [congruence|]. apply IH in H. lia.
      * intros H. right. apply IH. lia.
Qed.

Lemma nth_spos s l d : In s l -> nth (spos s l) l d = s.
Proof.
  induction l as [|x l IH]; simpl; intros H; [destruct H|].
  destruct (String.eqb_spec s x); auto. apply IH. destruct H; congruence.
Qed.

Lemma nth_error_spos s l : In s l -> nth_error l (spos s l) = Some s.
Proof.
  induction l as [|x l IH]; simpl; intros H; [destruct H|].
  destruct (String.eqb_spec s x); simpl; subst; auto. apply IH. destruct H; congruence.
Qed.

Lemma spos_nth l i d : NoDup l -> i < length l -> spos (nth i l d) l = i.
Proof.
  revert i; induction l as [|x l IH]; simpl; intros i ND H; [lia|].
  inversion ND; subst. destruct i.
  - now rewrite String.eqb_refl.
  - destruct (String.eqb_spec (nth i l d) x).
    + exfalso. apply H2. rewrite <- e. apply nth_In. lia.
    + f_equal. apply IH; auto. lia.
Qed.

Lemma spos_inj s t l : In s l -> In t l -> spos s l = spos t l -> s = t.
Proof.
  intros H1 H2 E. rewrite <- (nth_spos s l ""%string H1), E. now apply nth_spos.
Qed.

Lemma npos_lt n l : In n l <-> npos n l < length l.
Proof.
  induction l as [|x l IH]; simpl.
  - split; [tauto|lia].
  - destruct (Nat.eqb_spec n x).
    + subst; split; auto; lia.
    + split.
      * intros [H|H]; [congruence|]. apply IH in H. lia.
      * intros H. right. apply IH. lia.
Qed.

Lemma nth_npos n l d : In n l -> nth (npos n l) l d = n.
Proof.
  induction l as [|x l IH]; simpl; intros H; [destruct H|].
  destruct (Nat.eqb_spec n x); auto. apply IH. destruct H; congruence.
Qed.

Lemma npos_nth l i d : NoDup l -> i < length l -> npos (nth i l d) l = i.
Proof.
  revert i; induction l as [|x l IH]; simpl; intros i ND H; [lia|].
  inversion ND; subst. destruct i.
  - now rewrite Nat.eqb_refl.
  - destruct (Nat.eqb_spec (nth i l d) x).
    + exfalso. apply H2. rewrite <- e. apply nth_In. lia.
    + f_equal. apply IH; auto. lia.
Qed.

Lemma npos_nth_error l i n : NoDup l -> nth_error l i = Some n -> npos n l = i.
Proof.
  intros ND H. assert (i < length l) by (apply nth_error_Some; congruence).
  rewrite (nth_error_nth' l 0 H0) in H. injection H as <-. now apply npos_nth.
Qed.

(** *** dictionaries *)

Section Dict.
Context {V : Type}.
Implicit Types d : dict V.

Lemma dget_In d k v : dget d k = Some v -> In (k, v) d.
Proof.
  induction d as [|[k' v'] d IH]; simpl; [discriminate|].
  destruct (String.eqb_spec k k'); intros H.
  - injection H as <-. subst; auto.
  - auto.
Qed.

Lemma dget_None d k : dget d k = None <-> ~ In k (dkeys d).
Proof.
  induction d as [|[k' v'] d IH]; simpl.
  - tauto.
  - destruct (String.eqb_spec k k').
    + subst; split; [discriminate|]. intros H; exfalso; auto.
    + rewrite IH. split; intros H; [intros [?|?]; subst; tauto|tauto].
Qed.

Lemma dget_Some_key d k : In k (dkeys d) <-> exists v, dget d k = Some v.
Proof.
  destruct (dget d k) eqn:E.
  - split; intros; eauto. apply dget_In in E. apply (in_map fst) in E. auto.
  - apply dget_None in E. split; [tauto|]. intros [v H]; discriminate.
Qed.

Lemma dget_NoDup d k v : NoDup (dkeys d) -> In (k, v) d -> dget d k = Some v.
Proof.
  induction d as [|[k' v'] d IH]; simpl; intros ND H; [destruct H|].
  inversion ND; subst. destruct H as [H|H].
  - injection H as -> ->. now rewrite String.eqb_refl.
  - destruct (String.eqb_spec k k').
    + subst. exfalso. apply H2. apply (in_map fst) in H. auto.
    + auto.
Qed.

Lemma dget_dset d k v k' :
  dget (dset d k v) k' = if String.eqb k' k then Some v else dget d k'.
Proof.
  induction d as [|[x w] d IH]; simpl.
  - destruct (String.eqb_spec k' k); auto.
  - destruct (String.eqb_spec k x); simpl.
    + subst. destruct (String.eqb_spec k' x); auto.
    + rewrite IH. destruct (String.eqb_spec k' x), (String.eqb_spec k' k); auto; congruence.
Qed.

Lemma dkeys_dset d k v :
  dkeys (dset d k v) = if smem k (dkeys d) then dkeys d else dkeys d ++ [k].
Proof.
  induction d as [|[x w] d IH]; simpl; auto.
  destruct (String.eqb_spec k x); simpl; auto.
  rewrite IH. destruct (smem k (dkeys d)); auto.
Qed.

Lemma NoDup_snoc {T} (l : list T) x : NoDup l -> ~ In x l -> NoDup (l ++ [x]).
Proof.
  intros H1 H2. apply (Permutation_NoDup (l := x :: l)).
  - apply Permutation_cons_append.
  - constructor; auto.
Qed.

Lemma NoDup_dset d k v : NoDup (dkeys d) -> NoDup (dkeys (dset d k v)).
Proof.
  intros H. rewrite dkeys_dset. destruct (smem k (dkeys d)) eqn:E; auto.
  apply NoDup_snoc; auto. now apply smem_false.
Qed.

Lemma dget_ddel d k k' : NoDup (dkeys d) ->
  dget (ddel d k) k' = if String.eqb k' k then None else dget d k'.
Proof.
  induction d as [|[x w] d IH]; simpl; intros ND.
  - now destruct (String.eqb k' k).
  - inversion ND; subst. destruct (String.eqb_spec k x); simpl.
    + subst. destruct (String.eqb_spec k' x); auto. subst. now apply dget_None.
    + rewrite IH; auto. destruct (String.eqb_spec k' x), (String.eqb_spec k' k); auto; congruence.
Qed.

Lemma ddel_filter d k : NoDup (dkeys d) ->
  ddel d k = filter (fun kv => negb (String.eqb (fst kv) k)) d.
Proof.
  induction d as [|[x w] d IH]; simpl; intros ND; auto.
  inversion ND; subst. rewrite (String.eqb_sym x k).
  destruct (String.eqb_spec k x); simpl.
  - subst. clear IH ND. induction d as [|[a b] d IH]; simpl; auto.
    inversion H2; subst. destruct (String.eqb_spec a x); simpl.
    + exfalso. apply H1. left; auto.
    + f_equal. apply IH; auto. intros Hin. apply H1. right; auto.
  - f_equal. auto.
Qed.

Lemma dkeys_ddel d k : NoDup (dkeys d) ->
  dkeys (ddel d k) = filter (fun x => negb (String.eqb x k)) (dkeys d).
Proof.
  intros ND. rewrite ddel_filter; auto. unfold dkeys.
  induction d as [|[x w] d IH]; simpl; auto.
  inversion ND; subst.
  destruct (String.eqb x k); simpl; auto. f_equal; auto.
Qed.

Lemma dkeys_combine (ks : list string) (vs : list V) :
  length ks = length vs -> dkeys (combine ks vs) = ks.
Proof.
  revert vs; induction ks; destruct vs; simpl; intros; try discriminate; auto.
  f_equal; auto.
Qed.

Lemma dvals_combine (ks : list string) (vs : list V) :
  length ks = length vs -> dvals (combine ks vs) = vs.
Proof.
  revert vs; induction ks; destruct vs; simpl; intros; try discriminate; auto.
  f_equal; auto.
Qed.

Lemma combine_dkeys_dvals d : combine (dkeys d) (dvals d) = d.
Proof. induction d as [|[? ?] d IH]; simpl; congruence. Qed.

Lemma dget_combine (ks : list string) (vs : list V) k :
  length ks = length vs ->
  dget (combine ks vs) k = nth_error vs (spos k ks).
Proof.
  revert vs; induction ks; destruct vs; simpl; intros; try discriminate; auto.
  destruct (String.eqb_spec k a); simpl; auto.
Qed.

End Dict.

Lemma filter_all {A} (f : A -> bool) l : (forall x, In x l -> f x = true) -> filter f l = l.
Proof.
  induction l; simpl; intros H; auto. rewrite H; auto. f_equal; auto.
Qed.

Lemma filter_none {A} (f : A -> bool) l : (forall x, In x l -> f x = false) -> filter f l = [].
Proof.
  induction l; simpl; intros H; auto. rewrite H; auto.
Qed.

Lemma filter_filter {A} (f g : A -> bool) l :
  filter f (filter g l) = filter (fun x => g x && f x) l.
Proof.
  induction l; simpl; auto. destruct (g a); simpl; rewrite IHl; auto.
Qed.

Lemma map_nth_in {A B} (f : A -> B) l i d d' :
  i < length l -> nth i (map f l) d' = f (nth i l d).
Proof.
  intros H. rewrite nth_indep with (d' := f d). apply map_nth. now rewrite map_length.
Qed.

Lemma list_eq_nth {A} (l1 l2 : list A) (d : A) :
  length l1 = length l2 ->
  (forall i, i < length l1 -> nth i l1 d = nth i l2 d) -> l1 = l2.
Proof.
  revert l2; induction l1; destruct l2; simpl; intros; try discriminate; auto.
  f_equal.
  - apply (H0 0). lia.
  - apply IHl1; auto. intros i Hi. apply (H0 (S i)). lia.
Qed.

Lemma nth_error_insert_at_lt {A} i (x : A) l j :
  j < i -> j < length l -> nth_error (insert_at i x l) j = nth_error l j.
Proof.
  revert l j; induction i; intros l j H1 H2; [lia|].
  destruct l; simpl in *; [lia|]. destruct j; simpl; auto. apply IHi; lia.
Qed.

Lemma nth_error_insert_at_eq {A} i (x : A) l :
  i <= length l -> nth_error (insert_at i x l) i = Some x.
Proof.
  revert l; induction i; intros l H; simpl; auto.
  destruct l; simpl in *; [lia|]. apply IHi. lia.
Qed.

Lemma length_insert_at {A} i (x : A) l : length (insert_at i x l) = S (length l).
Proof.
  revert l; induction i; intros l; simpl; auto. destruct l; simpl; auto.
Qed.

Lemma Permutation_insert_at {A} i (x : A) l : Permutation (insert_at i x l) (x :: l).
Proof.
  revert l; induction i; intros l; simpl; auto. destruct l; simpl; auto.
  etransitivity; [apply perm_skip, IHi|]. apply perm_swap.
Qed.

Lemma insert_at_app {A} (x : A) l : insert_at (length l) x l = l ++ [x].
Proof. induction l; simpl; congruence. Qed.

Lemma insert_at_app2 {A} (x : A) l1 l2 : insert_at (length l1) x (l1 ++ l2) = l1 ++ x :: l2.
Proof. induction l1; simpl; congruence. Qed.

Lemma prod_app l1 l2 : prod (l1 ++ l2) = prod l1 * prod l2.
Proof. induction l1; simpl; [lia|]. rewrite IHl1. lia. Qed.

Lemma prod_repeat1 k : prod (repeat 1 k) = 1.
Proof. induction k; simpl; lia. Qed.

Lemma prod_perm l1 l2 : Permutation l1 l2 -> prod l1 = prod l2.
Proof. induction 1; simpl; lia. Qed.

Lemma Forall2_nth {A B} (P : A -> B -> Prop) l1 l2 d1 d2 i :
  Forall2 P l1 l2 -> i < length l1 -> P (nth i l1 d1) (nth i l2 d2).
Proof.
  intros H; revert i; induction H; simpl; intros i Hi; [lia|].
  destruct i; auto. apply IHForall2; lia.
Qed.

Lemma Forall2_length' {A B} (P : A -> B -> Prop) l1 l2 : Forall2 P l1 l2 -> length l1 = length l2.
Proof. induction 1; simpl; auto. Qed.

Lemma Forall2_nth_intro {A B} (P : A -> B -> Prop) l1 l2 d1 d2 :
  length l1 = length l2 ->
  (forall i, i < length l1 -> P (nth i l1 d1) (nth i l2 d2)) -> Forall2 P l1 l2.
Proof.
  revert l2; induction l1; destruct l2; simpl; intros; try discriminate; constructor.
  - apply (H0 0); lia.
  - apply IHl1; auto. intros i Hi. apply (H0 (S i)); lia.
Qed.

Lemma Forall2_map_l {A B C} (P : A -> B -> Prop) (f : C -> A) l1 l2 :
  Forall2 P (map f l1) l2 <-> Forall2 (fun x y => P (f x) y) l1 l2.
Proof.
  revert l2; induction l1; simpl; intros l2; split; intros H; inversion H; subst; constructor; auto;
  apply IHl1; auto.
Qed.

Lemma Forall2_map_r {A B C} (P : A -> B -> Prop) (f : C -> B) l1 l2 :
  Forall2 P l1 (map f l2) <-> Forall2 (fun x y => P x (f y)) l1 l2.
Proof.
  revert l1; induction l2; simpl; intros l1; split; intros H; inversion H; subst; constructor; auto;
  apply IHl2; auto.
Qed.

Lemma Forall2_same {A} (P : A -> A -> Prop) l : (forall x, In x l -> P x x) -> Forall2 P l l.
Proof. induction l; simpl; intros; constructor; auto. Qed.

Lemma firstn_app_exact {A} (l1 l2 : list A) n : n = length l1 -> firstn n (l1 ++ l2) = l1.
Proof.
  intros ->. rewrite firstn_app, Nat.sub_diag, firstn_all. simpl. apply app_nil_r.
Qed.

Lemma skipn_app_exact {A} (l1 l2 : list A) n : n = length l1 -> skipn n (l1 ++ l2) = l2.
Proof.
  intros ->. rewrite skipn_app, Nat.sub_diag, skipn_all. reflexivity.
Qed.

Lemma NoDup_app_intro {A} (l1 l2 : list A) :
  NoDup l1 -> NoDup l2 -> (forall x, In x l1 -> ~ In x l2) -> NoDup (l1 ++ l2).
Proof.
  induction l1; simpl; auto. intros H H0 H3. inversion H; subst. constructor.
  - rewrite in_app_iff. intros [?|?]; [tauto|]. apply (H3 a); auto.
  - apply IHl1; auto.
Qed.

Lemma map_eq_in {A B} (f g : A -> B) l : map f l = map g l -> forall x, In x l -> f x = g x.
Proof.
  induction l as [|y l IH]; simpl; intros H x Hx; [destruct Hx|]. injection H as H1 H2.
  destruct Hx as [<-|Hx]; auto.
Qed.

Lemma app_eq_split {A} (l1 l2 r1 r2 : list A) :
  length l1 = length r1 -> l1 ++ l2 = r1 ++ r2 -> l1 = r1 /\ l2 = r2.
Proof.
  revert r1; induction l1 as [|x l1 IH]; destruct r1 as [|y r1]; simpl; intros L E; try discriminate; auto.
  injection E as -> E. injection L as L. destruct (IH r1 L E) as [-> ->]. auto.
Qed.
