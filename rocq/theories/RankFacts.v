(** Facts about [rankdata]. *)
From Coq Require Import String List Arith ZArith Bool Lia Permutation Sorted QArith Qcanon.
From Verif Require Import Base BaseFacts Numpy NumpyFacts Shapes Scalar Reorder Elementwise Reduce Along Sorting Rank.
From Verif Require Import Spec ShapesFacts AlignFacts GetitemFacts SetitemFacts ReorderFacts ElementwiseFacts ReduceFacts
  AlongFacts SortingFacts DerivedFacts RankOrder.
Import ListNotations.
Open Scope nat_scope.
Open Scope list_scope.

(** ** Arrays with one distinguished axis and some other axes *)

Section Shaped.
Variable N : string.
Variable O : shape.
Hypothesis NO : ~ In N (dkeys O).
Hypothesis ND : NoDup (dkeys O).

Definition shaped {A} (x : sarr A) (m : nat) : Prop :=
  wf x /\ forall ax k, In (ax, k) (sshape x) <-> (ax = N /\ k = m) \/ In (ax, k) O.

Lemma not_N ax k : In (ax, k) O -> ax <> N.
Proof. intros H ->. apply NO. apply (in_map fst) in H. exact H. Qed.

Lemma shaped_in {A} (x : sarr A) m : shaped x m -> In N (s_axes x).
Proof.
  intros [W S]. rewrite <- wf_keys by auto. change N with (fst (N, m)). unfold dkeys. apply in_map, S. auto.
Qed.

Lemma shaped_size {A} (x : sarr A) m : shaped x m -> size_of (sshape x) N = m.
Proof. intros [W S]. apply size_of_In; [now apply wf_nodup|]. apply S. auto. Qed.

Lemma shaped_inside {A} (x : sarr A) m e : shaped x m -> (inside e (sshape x) <-> e N < m /\ inside e O).
Proof.
  intros [W S]. split.
  - intros H. split; [apply (H N), S; auto|]. intros ax k Hk. apply H, S. auto.
  - intros [H1 H2] ax k Hk. apply S in Hk as [[-> ->]|Hk]; auto.
Qed.

Lemma inside_set e i : inside e O -> inside (set_env e N i) O.
Proof.
  intros H ax k Hk. unfold set_env. destruct (String.eqb_spec ax N) as [->|]; auto. destruct (not_N _ _ Hk eq_refl).
Qed.

Lemma set_same (e : env) ax : set_env e N (e N) ax = e ax.
Proof. unfold set_env. destruct (String.eqb_spec ax N) as [->|]; auto. Qed.

Lemma at_set_same {A} (x : sarr A) e : at_ x (set_env e N (e N)) = at_ x e.
Proof. apply at_ext. intros ax _. apply set_same. Qed.

Lemma set_N (e : env) i : set_env e N i N = i.
Proof. unfold set_env. now rewrite String.eqb_refl. Qed.

Ltac side := first [assumption | apply inside_set; assumption | rewrite set_N; lia | lia].

Lemma set_set (e : env) i j ax : set_env (set_env e N i) N j ax = set_env e N j ax.
Proof. unfold set_env. destruct (String.eqb ax N); auto. Qed.

Lemma shaped_resized {A B} (x : sarr A) (r : sarr B) m k :
  shaped x m -> wf r -> sshape r = resized (sshape x) N k -> shaped r k.
Proof.
  intros [W S] Wr Sr. split; auto. intros ax n. rewrite Sr, in_resized. split.
  - intros (q & H & ->). apply S in H as [[-> ->]|H]; [rewrite String.eqb_refl; auto|].
    destruct (String.eqb_spec ax N) as [->|]; [destruct (not_N _ _ H eq_refl)|auto].
  - intros [[-> ->]|H].
    + exists m. rewrite String.eqb_refl. split; auto. apply S. auto.
    + exists n. split; [apply S; auto|]. destruct (String.eqb_spec ax N) as [->|]; auto. destruct (not_N _ _ H eq_refl).
Qed.

Lemma shaped_same {A B} (x : sarr A) (y : sarr B) m : shaped x m -> shaped y m -> same_shape (sshape x) (sshape y).
Proof. intros [_ S] [_ T] ax k. rewrite S, T. tauto. Qed.

Lemma shaped_transfer {A B} (x : sarr A) (y : sarr B) m : shaped x m -> wf y -> sshape y = sshape x -> shaped y m.
Proof. intros [_ S] W E. split; auto. intros ax k. rewrite E. apply S. Qed.

Lemma shaped_map1 {A B} (h : A -> B) d (x : sarr A) m : shaped x m ->
  exists r, map1 h d x = Ok r /\ shaped r m /\ forall e, inside e O -> e N < m -> at_ r e = h (at_ x e).
Proof.
  intros S. assert (W := proj1 S).
  destruct (array_ufunc_ok (fun l => match l with [x] => h x | _ => d end) [OpArr x] (sshape x)) as (r & E & Wr & Sr & V).
  { constructor; auto. }
  { unfold shape_broadcasted, op_shapes. cbn [flat_map app].
    apply bs_dominated; [now apply wf_nodup|intros s []]. }
  exists r. split; [exact E|]. split; [exact (shaped_transfer x r m S Wr Sr)|].
  intros e I L. rewrite V. cbn [map op_at]. rewrite bat_inside; auto. apply (shaped_inside x m); auto.
Qed.

Lemma shaped_map2 {A B} (h : A -> A -> B) d (x y : sarr A) m : shaped x m -> shaped y m ->
  exists r, map2 h d x y = Ok r /\ shaped r m /\ forall e, inside e O -> e N < m -> at_ r e = h (at_ x e) (at_ y e).
Proof.
  intros S T. assert (W := proj1 S). assert (W' := proj1 T).
  destruct (array_ufunc_ok (fun l => match l with [x; y] => h x y | _ => d end) [OpArr x; OpArr y] (sshape x)) as (r & E & Wr & Sr & V).
  { constructor; [exact W|constructor; [exact W'|constructor]]. }
  { unfold shape_broadcasted, op_shapes. cbn [flat_map app].
    apply bs_dominated; [now apply wf_nodup|]. intros s [<-|[]]. split; [now apply wf_nodup|].
    intros [ax k] H. apply (shaped_same x y m); auto. }
  exists r. split; [exact E|]. split; [exact (shaped_transfer x r m S Wr Sr)|].
  intros e I L. rewrite V. cbn [map op_at]. rewrite !bat_inside; auto.
  - apply (shaped_inside y m); auto.
  - apply (shaped_inside x m); auto.
Qed.

Lemma without_others {A} (x : sarr A) m : shaped x m ->
  same_shape (filter (fun kv => negb (String.eqb (fst kv) N)) (sshape x)) O.
Proof.
  intros [W S] ax k. rewrite filter_In, S. cbn [fst]. split.
  - intros [[[-> ->]|H] E]; auto. rewrite String.eqb_refl in E. discriminate.
  - intros H. split; auto. destruct (String.eqb_spec ax N) as [->|]; auto. destruct (not_N _ _ H eq_refl).
Qed.

Lemma nodup_filter_keys (f : string -> bool) (d : shape) : NoDup (dkeys d) -> NoDup (dkeys (filter (fun kv => f (fst kv)) d)).
Proof. intros H. rewrite (dkeys_filter_fst f d). now apply NoDup_filter. Qed.

Lemma shaped_take {A} (x : sarr A) (i : sarr Z) m k : shaped x m -> shaped i k ->
  (forall e, inside e O -> e N < k -> (0 <= at_ i e < Z.of_nat m)%Z) ->
  exists r, na_take_along_axis (OpArr x) (OpArr i) N = Ok r /\ shaped r k /\
    forall e, inside e O -> e N < k -> at_ r e = at_ x (set_env e N (Z.to_nat (at_ i e))).
Proof.
  intros S T H. assert (W := proj1 S). assert (W' := proj1 T).
  destruct (take_along_axis_spec (OpArr x) (OpArr i) N W W') as [_ G]. cbn [normalize] in G.
  specialize (G (shaped_in x m S)).
  set (wo := fun sh : shape => filter (fun kv => negb (String.eqb (fst kv) N)) sh) in *.
  assert (E : broadcast_shapes [wo (sshape x); wo (sshape i)] = Ok (wo (sshape x))).
  { apply bs_dominated; [apply (nodup_filter_keys (fun k => negb (String.eqb k N))); now apply wf_nodup|].
    intros s [<-|[]]. split; [apply (nodup_filter_keys (fun k => negb (String.eqb k N))); now apply wf_nodup|].
    intros [ax q] Hq. apply (without_others i k T) in Hq. now apply (without_others x m S). }
  fold (wo (sshape x)) (wo (sshape i)) in G. rewrite E in G. destruct G as [G _].
  destruct G as (r & Er & Wr & Sr & V).
  { intros e He. apply (shaped_inside i k e T) in He as [H1 H2]. specialize (H e H2 H1).
    rewrite (shaped_size x m S). unfold in_range. lia. }
  assert (R : shaped r k).
  { split; auto. intros ax q. rewrite Sr, (shaped_size i k T). cbn [In].
    assert (Q := without_others x m S ax q). fold (wo (sshape x)) in Q. rewrite Q. split.
    - intros [E'|H']; auto. injection E' as <- <-. auto.
    - intros [[-> ->]|H']; auto. }
  exists r. split; auto. split; auto. intros e I L.
  destruct (V e) as (p & P1 & P2); [apply (shaped_inside r k e R); auto|].
  rewrite P2. specialize (H e I L). rewrite (shaped_size x m S) in P1.
  rewrite (bat_inside i) in P1 by (auto; apply (shaped_inside i k e T); auto).
  destruct P1 as [P1 P3]. destruct (Z.ltb_spec (at_ i e) 0); [lia|]. rewrite <- P3, Nat2Z.id.
  apply bat_inside; auto. apply (shaped_inside x m); auto. rewrite set_N. split; auto. now apply inside_set.
Qed.

Lemma shaped_piece {A} (x : sarr A) m off k : shaped x m -> off + k <= m ->
  exists r, getitem x [(N, piece (Z.of_nat off) (Z.of_nat (off + k)))] = Ok r /\ shaped r k /\
    forall e, inside e O -> e N < k -> at_ r e = at_ x (set_env e N (off + e N)).
Proof.
  intros S L. destruct (getitem_piece x N off k (proj1 S) (shaped_in x m S)) as (r & E & Wr & Sr & V).
  { now rewrite (shaped_size x m S). }
  assert (R := shaped_resized x r m k S Wr Sr).
  exists r. split; [exact E|]. split; auto. intros e I Le. apply V. apply (shaped_inside r k); auto.
Qed.

Lemma shaped_concat {A} (x y : sarr A) m k : shaped x m -> shaped y k ->
  exists r, na_concatenate [OpArr x; OpArr y] N None = Ok r /\ shaped r (m + k) /\
    (forall e, inside e O -> e N < m -> at_ r e = at_ x e) /\
    (forall e, inside e O -> e N < k -> at_ r (set_env e N (m + e N)) = at_ y e).
Proof.
  intros S T. assert (W := proj1 S). assert (W' := proj1 T).
  destruct (concatenate_spec [OpArr x; OpArr y] N) as [C _]; [constructor; [exact W|constructor; [exact W'|constructor]]|].
  cbn [map normalize] in C.
  assert (Nx : NoDup (dkeys (resized (sshape x) N 1))) by (rewrite resized_keys; now apply wf_nodup).
  assert (Ny : NoDup (dkeys (resized (sshape y) N 1))) by (rewrite resized_keys; now apply wf_nodup).
  assert (E : broadcast_shapes [resized (sshape x) N 1; resized (sshape y) N 1] = Ok (resized (sshape x) N 1)).
  { apply bs_dominated; auto. intros s [<-|[]]. split; auto. intros [ax q] Hq.
    apply in_resized in Hq as (z & Hz & ->). apply in_resized.
    destruct T as [_ T]. destruct S as [_ S]. apply T in Hz as [[-> ->]|Hz].
    - exists m. split; [apply S; auto|]. now rewrite String.eqb_refl.
    - exists z. split; auto. apply S. auto. }
  destruct C as (r & sh & E' & Er & Wr & Sr & V).
  { split; [discriminate|]. split.
    - intros a [<-|[<-|[]]]; [now apply (shaped_in x m)|now apply (shaped_in y k)].
    - intros C. apply broadcast_shapes_conflict in C; [congruence|repeat constructor; auto]. }
  assert (sh = resized (sshape x) N 1) by congruence. subst sh.
  rewrite resized_twice in Sr. cbn [list_sum fold_right] in Sr.
  rewrite (shaped_size x m S), (shaped_size y k T), Nat.add_0_r in *.
  assert (R := shaped_resized x r m (m + k) S Wr Sr).
  exists r. split; auto. split; auto. split.
  - intros e I L. specialize (V 0 x e eq_refl). rewrite (shaped_size x m S) in V. specialize (V L).
    cbn [firstn list_sum fold_right plus] in V. rewrite at_set_same in V. rewrite V.
    apply bat_inside; auto. apply (shaped_inside x m); auto.
  - intros e I L. specialize (V 1 y e eq_refl). rewrite (shaped_size y k T) in V. specialize (V L).
    cbn [firstn list_sum fold_right] in V. rewrite Nat.add_0_r in V. rewrite V.
    apply bat_inside; auto. apply (shaped_inside y k); auto.
Qed.

Lemma shaped_line {A} (x : sarr A) m e : shaped x m -> line x N e = map (fun j => at_ x (set_env e N j)) (seq 0 m).
Proof. intros S. unfold line. now rewrite (shaped_size x m S). Qed.

Lemma shaped_cumulative {A B} (scan : list A -> B) (x : sarr A) m : shaped x m ->
  exists r, na_cumulative scan false x (Some [N]) None = Ok r /\ shaped r m /\
    forall e, e N < m -> at_ r e = scan (map (fun j => at_ x (set_env e N j)) (seq 0 (S (e N)))).
Proof.
  intros H. assert (W := proj1 H).
  destruct (cumulative_spec scan false x (Some [N]) W) as [C _]. cbn iota in C.
  destruct (C N eq_refl (shaped_in x m H)) as (r & E & Wr & Sr & V).
  assert (R := shaped_resized x r m _ H Wr Sr). rewrite (shaped_size x m H), Nat.add_0_r in R.
  exists r. split; auto. split; auto. intros e L. rewrite V, (shaped_line x m e H).
  rewrite firstn_map. f_equal. f_equal. rewrite Nat.add_1_r.
  replace m with (S (e N) + (m - S (e N))) by lia.
  rewrite seq_app, firstn_app, seq_length, Nat.sub_diag, firstn_O, app_nil_r.
  rewrite firstn_all2; auto. now rewrite seq_length.
Qed.

(** ** The sorting permutation along the axis *)

Hypothesis ONZ : forall ax k, In (ax, k) O -> k <> 0.

Lemma fibre_one sh e : fibre sh [N] e = map (fun j => set_env e N j) (seq 0 (size_of sh N)).
Proof. cbn [fibre]. induction (seq 0 (size_of sh N)) as [|j l IH]; auto. Qed.

Lemma row_major_one n i : row_major [n] [i] = i.
Proof. unfold row_major. cbn. lia. Qed.

Lemma argsort_entry {A} (argsort1 : list A -> list nat) (a : sarr A) n : shaped a n ->
  (forall x, length (argsort1 x) = length x) -> (forall x i, In i (argsort1 x) -> i < length x) ->
  exists d x, na_argsort argsort1 a (Some [N]) = Ok d /\ dget d N = Some x /\ shaped x n /\
    forall e, inside e O -> e N < n -> at_ x e = Z.of_nat (nth (e N) (argsort1 (line a N e)) 0).
Proof.
  intros H Hl Hr. assert (W := proj1 H). assert (Hin := shaped_in a n H).
  unfold na_argsort. cbn [forallb]. rewrite (proj2 (smem_In N (s_axes a)) Hin). cbn [andb negb flatten_axes String.concat bind].
  destruct (proj2 (combine_axes_success a [N] N W)) as [c Ec].
  { split; [repeat constructor; auto|]. split; [intros y [<-|[]]; auto|].
    intros ax k Hk Hn. apply (proj2 H) in Hk as [[-> _]|Hk]; [destruct Hn; now left|].
    split; [now apply (ONZ ax)|now apply (not_N ax k)]. }
  rewrite Ec. cbn [bind].
  destruct (combine_axes_spec a [N] N c W Ec) as (Wc & Ac & Sc & _).
  assert (TS : total_size (sshape a) [N] = n).
  { rewrite total_size_prod by (auto; intros y [<-|[]]; auto). cbn [map prod].
    change (asize a N) with (size_of (sshape a) N). rewrite (shaped_size a n H). lia. }
  assert (Hc : shaped c n).
  { split; auto. intros ax k. rewrite Sc, TS. rewrite (proj2 H ax k). split.
    - intros [[[[-> _]|K] Q]|K]; auto. destruct Q; now left.
    - intros [K|K]; auto. left. split; auto. intros [E|[]]. now apply (not_N ax k). }
  assert (Lc : forall e, inside e O -> line c N e = line a N e).
  { intros e I. rewrite (combine_axes_line a [N] N c e W Ec).
    - rewrite fibre_one, map_map, (shaped_size a n H), (shaped_line a n e H). reflexivity.
    - intros ax k Hk Hn. apply (proj2 H) in Hk as [[-> _]|Hk]; [destruct Hn; now left|auto]. }
  unfold index_of. rewrite (sindex_In _ _ (shaped_in c n Hc)). cbn [bind].
  destruct (along_named (fun n => n) (fun l i => Z.of_nat (nth i (argsort1 l) 0)) c N Wc (shaped_in c n Hc)) as (Wi & Si & Gi).
  rewrite mk_sarr_intro by (apply Wi). cbn [bind]. set (ind := mkS _ (s_axes c)) in *.
  assert (Hi : shaped ind n).
  { apply (shaped_transfer c ind n Hc Wi). rewrite Si. apply resized_id. now apply wf_nodup. }
  assert (SUB : subshape (sshape a) [N] = [(N, n)]).
  { rewrite subshape_keys by (auto; intros y [<-|[]]; auto). cbn [map].
    change (asize a N) with (size_of (sshape a) N). now rewrite (shaped_size a n H). }
  rewrite SUB.
  assert (NDs : NoDup (dkeys [(N, n)])) by (repeat constructor; auto).
  assert (RANGE : forall e, inside e O -> e N < n -> nth (e N) (argsort1 (line a N e)) 0 < n).
  { intros e I L. assert (LL : length (line a N e) = n) by (rewrite line_length; now apply shaped_size).
    rewrite <- LL. apply Hr. apply nth_In. now rewrite Hl, LL. }
  destruct (proj2 (unravel_index_success ind [(N, n)] Wi NDs)) as [d Hd].
  { split; [discriminate|]. intros e He. apply (shaped_inside ind n e Hi) in He as [L I].
    rewrite Gi, (Lc e I). specialize (RANGE e I L). unfold total_size. cbn [fold_right dkeys map fst dget].
    rewrite String.eqb_refl. lia. }
  rewrite Hd. cbn [bind]. destruct (unravel_index_spec ind [(N, n)] d Wi NDs Hd) as (Kd & Sd & Vd).
  assert (exists x, dget d N = Some x) as [x Hx] by (apply dget_Some_key; rewrite Kd; now left).
  exists (add_ranges (sshape a) (dkeys d) d), x. split; auto.
  cbn [dkeys map fst] in Kd. rewrite add_ranges_eq; [|now apply wf_nodup|intros ax _; auto].
  split; [now rewrite dget_app, Hx|].
  destruct (Sd N x Hx) as [Wx Sx]. assert (Hsx := shaped_transfer ind x n Hi Wx Sx). split; auto.
  intros e I L. destruct (Vd e) as (idx & F & R); [apply (shaped_inside ind n e Hi); auto|].
  inversion F as [|? i ? idx' [F1 (v & F2 & F3)] F4]; subst. inversion F4; subst. cbn [fst snd] in *.
  rewrite Hx in F2. injection F2 as <-. cbn [dvals map snd] in R. rewrite row_major_one in R.
  rewrite F3, R, Gi, (Lc e I). reflexivity.
Qed.

(** ** Groups *)

Lemma sum_cnt (f : nat -> Z) (P : nat -> bool) m : (forall j, j < m -> f j = if P j then 1%Z else 0%Z) ->
  fold_right Z.add 0%Z (map f (seq 0 m)) = Z.of_nat (cnt m P).
Proof.
  intros H. induction m as [|m IH]; auto. rewrite seq_S, map_app, fold_right_app. cbn [map fold_right plus].
  rewrite (H m) by lia. rewrite cnt_S, Nat2Z.inj_add, <- IH by (intros; apply H; lia).
  assert (E : forall l c, fold_right Z.add c l = (fold_right Z.add 0 l + c)%Z).
  { induction l as [|y l IHl]; intros c; cbn [fold_right]; [lia|]. rewrite IHl. lia. }
  rewrite E. destruct (P m); lia.
Qed.

Section Line.
Context {A : Type} (eqb : A -> A -> bool).

(** the element [k] of the line at [e] differs from the one before *)
Definition changes (s : sarr (option A)) (e : env) (k : nat) : bool :=
  match k with 0 => true | S j => differ eqb (at_ s (set_env e N k)) (at_ s (set_env e N j)) end.

Lemma changes_set s e i k : changes s (set_env e N i) k = changes s e k.
Proof.
  destruct k; auto. cbn [changes]. f_equal; apply at_ext; intros ax _; apply set_set.
Qed.

Lemma grp_set s e i k : grp (changes s (set_env e N i)) k = grp (changes s e) k.
Proof. unfold grp. apply cnt_ext. intros j _. apply changes_set. Qed.

Lemma groups_spec (s : sarr (option A)) n : shaped s n -> n <> 0 ->
  exists g, rank_groups eqb s N n = Ok g /\ shaped g n /\
    forall e, inside e O -> e N < n -> at_ g e = Z.of_nat (grp (changes s e) (e N)).
Proof.
  intros H NZ. unfold rank_groups.
  assert (P1 : piece 1 (Z.of_nat n) = piece (Z.of_nat 1) (Z.of_nat (1 + (n - 1)))).
  { replace (1 + (n - 1)) with n by lia. reflexivity. }
  assert (P2 : piece 0 (Z.of_nat n - 1) = piece (Z.of_nat 0) (Z.of_nat (0 + (n - 1)))).
  { replace (Z.of_nat (0 + (n - 1))) with (Z.of_nat n - 1)%Z by lia. reflexivity. }
  rewrite P1, P2.
  destruct (shaped_piece s n 1 (n - 1) H ltac:(lia)) as (u & Eu & Hu & Vu).
  rewrite Eu. cbn [bind].
  destruct (shaped_piece s n 0 (n - 1) H ltac:(lia)) as (l & El & Hl & Vl).
  rewrite El. cbn [bind].
  destruct (shaped_map2 (differ eqb) false u l (n - 1) Hu Hl) as (d & Ed & Hd & Vd). rewrite Ed. cbn [bind].
  assert (Wd := proj1 Hd). assert (Nd := wf_nodup d Wd).
  rewrite dset_resized by (auto; rewrite wf_keys by auto; now apply (shaped_in d (n - 1))).
  set (one := mkS (mkNd [1] (fun _ => true)) [N]).
  assert (Wo : wf one) by (split; [repeat constructor; auto|reflexivity]).
  assert (No : NoDup (dkeys (resized (sshape d) N 1))) by (now rewrite resized_keys).
  assert (exists f, na_broadcast_to one (resized (sshape d) N 1) false = Ok f) as [f Ef].
  { apply na_broadcast_to_intro; auto.
    - rewrite resized_keys, wf_keys by auto. intros y [<-|[]]. now apply (shaped_in d (n - 1)).
    - intros ax k. cbn [sshape one s_axes s_nd nshape combine dget]. destruct (String.eqb ax N); [|discriminate].
      intros E. injection E as <-. auto. }
  destruct (na_broadcast_to_ok one _ f Wo No Ef) as (_ & _ & Wf & Sf & Vf).
  rewrite Ef. cbn [bind]. assert (Hf := shaped_resized d f (n - 1) 1 Hd Wf Sf).
  destruct (shaped_concat f d 1 (n - 1) Hf Hd) as (c & Ecc & Hc & Vc1 & Vc2). rewrite Ecc. cbn [bind].
  replace (1 + (n - 1)) with n in Hc by lia.
  destruct (shaped_map1 (fun b : bool => if b then 1%Z else 0%Z) 0%Z c n Hc) as (t & Et & Ht & Vt). rewrite Et. cbn [bind].
  destruct (shaped_cumulative (fold_right Z.add 0%Z) t n Ht) as (g & Eg & Hg & Vg).
  exists g. split; auto. split; auto. intros e I L. rewrite Vg by auto. unfold grp. apply sum_cnt.
  intros j Hj. rewrite Vt by side. replace (at_ c (set_env e N j)) with (changes s e j); auto. symmetry.
  destruct j as [|j].
  - rewrite Vc1 by side. rewrite Vf. reflexivity.
  - assert (Q := Vc2 (set_env e N j)). rewrite set_N in Q.
    transitivity (at_ c (set_env (set_env e N j) N (1 + j))).
    { apply at_ext. intros ax _. now rewrite set_set. }
    rewrite Q by side.
    rewrite Vd by side.
    rewrite Vu, Vl by side. rewrite set_N. cbn [changes].
    f_equal; apply at_ext; intros ax _; apply set_set.
Qed.
End Line.

(** ** The number of elements up to the end of every group *)

Lemma lex_agree (ks : list string) (e2 e : env) :
  (forall ax, In ax ks -> ax <> N -> e2 ax = e ax) -> In N ks ->
  map e2 ks = map e ks \/ lex_lt (map e2 ks) (map e ks) -> e2 N <= e N.
Proof.
  induction ks as [|x ks IH]; intros H Hin C; [destruct Hin|]. cbn [map] in C.
  destruct (string_dec x N) as [->|NE].
  - destruct C as [C|C]; [injection C; lia|]. cbn [lex_lt] in C. lia.
  - destruct Hin as [->|Hin]; [congruence|]. apply IH; auto; [intros ax Hax; apply H; now right|].
    destruct C as [C|C]; [injection C; auto|]. cbn [lex_lt] in C. rewrite (H x) in C by (auto; now left).
    right. destruct C as [C|C]; [lia|tauto].
Qed.

Lemma in_as_item (d : dict (sarr Z)) k i : In (k, i) (as_item d) <-> exists v, In (k, v) d /\ i = ItArr v.
Proof.
  unfold as_item. rewrite in_map_iff. split.
  - intros [[k' v] [E H]]. cbn [fst snd] in E. injection E as <- <-. eauto.
  - intros (v & H & ->). exists (k, v). auto.
Qed.

Lemma dget_as_item (d : dict (sarr Z)) k : dget (as_item d) k = option_map (fun v => ItArr v) (dget d k).
Proof. exact (dget_map_dict (fun _ v => ItArr v) d k). Qed.

Lemma dkeys_as_item (d : dict (sarr Z)) : dkeys (as_item d) = dkeys d.
Proof. unfold as_item, dkeys. rewrite map_map. reflexivity. Qed.

Lemma dget_dset {V} (d : dict V) k v k' : dget (dset d k v) k' = if String.eqb k' k then Some v else dget d k'.
Proof.
  induction d as [|[q w] d IH]; cbn [dset dget]; [reflexivity|].
  destruct (String.eqb_spec k q) as [->|NE]; cbn [dget].
  - destruct (String.eqb_spec k' q); auto.
  - destruct (String.eqb_spec k' q) as [->|]; auto. destruct (String.eqb_spec q k); congruence.
Qed.

Lemma dkeys_dset_in {V} (d : dict V) k v : In k (dkeys d) -> dkeys (dset d k v) = dkeys d.
Proof.
  induction d as [|[q w] d IH]; cbn [dset dkeys map fst In]; [tauto|].
  destruct (String.eqb_spec k q) as [->|NE]; auto. intros [->|H]; [congruence|]. cbn [dkeys map fst]. f_equal. now apply IH.
Qed.

Lemma counts_spec {A} (s : sarr (option A)) (g : sarr Z) n : shaped s n -> shaped g n ->
  (forall e, inside e O -> e N < n -> (0 <= at_ g e <= Z.of_nat n)%Z) ->
  exists r, rank_counts s g N n = Ok r /\ shaped r (S n) /\
    forall e, inside e O -> e N < S n ->
      (exists i, i < n /\ at_ g (set_env e N i) = Z.of_nat (e N) /\ at_ r e = Z.of_nat (S i) /\
         forall k, k < n -> at_ g (set_env e N k) = Z.of_nat (e N) -> k <= i) \/
      ((forall i, i < n -> at_ g (set_env e N i) <> Z.of_nat (e N)) /\ at_ r e = 0%Z).
Proof.
  intros Hs Hg RG. unfold rank_counts. assert (Ws := proj1 Hs). assert (Wg := proj1 Hg).
  assert (KN : In N (dkeys (sshape s))) by (rewrite wf_keys by auto; now apply (shaped_in s n)).
  set (shc := dset (sshape s) N (S n)).
  assert (Esh : shc = resized (sshape s) N (S n)) by (apply dset_resized; auto; now apply wf_nodup).
  set (count := mkS (mkNd (dvals shc) (fun _ => 0%Z)) (dkeys shc)).
  assert (Nshc : NoDup (dkeys shc)) by (rewrite Esh, resized_keys; now apply wf_nodup).
  assert (Wc : wf count) by (split; [exact Nshc|unfold count, dkeys, dvals; cbn; now rewrite !map_length]).
  assert (Sc : sshape count = shc).
  { unfold sshape, count. cbn [s_axes s_nd nshape]. unfold dkeys, dvals. clear. induction shc as [|[k v] l IH]; auto.
    cbn [map combine fst snd]. now rewrite IH. }
  assert (Hc : shaped count (S n)) by (apply (shaped_resized s count n (S n) Hs Wc); now rewrite Sc).
  set (ic := dset (na_indices shc) N g). set (it := as_item ic).
  assert (Kni : dkeys (na_indices shc) = dkeys shc) by (unfold na_indices, dkeys; rewrite map_map; reflexivity).
  assert (Kic : dkeys it = dkeys shc).
  { unfold it. rewrite dkeys_as_item. unfold ic. rewrite dkeys_dset_in; auto. rewrite Kni, Esh, resized_keys. auto. }
  assert (Dit : forall ax k, In (ax, k) shc -> dget it ax = Some (ItArr (if String.eqb ax N then g else arange ax k))).
  { intros ax k Hk. unfold it. rewrite dget_as_item. unfold ic. rewrite dget_dset.
    destruct (String.eqb ax N); auto. unfold na_indices.
    rewrite (dget_map_dict arange shc ax), (dget_NoDup _ _ _ Nshc Hk). reflexivity. }
  assert (NDit : NoDup (dkeys it)) by now rewrite Kic.
  assert (It : forall ax i, In (ax, i) it -> exists k, In (ax, k) shc /\ i = ItArr (if String.eqb ax N then g else arange ax k)).
  { intros ax i Hi. assert (K : In ax (dkeys shc)) by (rewrite <- Kic; apply (in_map fst) in Hi; exact Hi).
    apply dget_Some_key in K as [k K]. apply dget_In in K. exists k. split; auto.
    assert (D := dget_NoDup _ _ _ NDit Hi). rewrite (Dit ax k K) in D. congruence. }
  assert (Wit : Forall (fun kv => item_wf (snd kv)) it).
  { apply Forall_forall. intros [ax i] Hi. destruct (It _ _ Hi) as (k & _ & ->). cbn [snd item_wf].
    destruct (String.eqb ax N); auto. apply arange_wf. }
  assert (Pit : Forall (fun kv => item_py (snd kv)) it).
  { apply Forall_forall. intros [ax i] Hi. destruct (It _ _ Hi) as (k & _ & ->). exact Logic.I. }
  assert (Osh : forall ax k, In (ax, k) shc -> ax <> N -> In (ax, k) O).
  { intros ax k Hk NE. rewrite <- Sc in Hk. apply (proj2 Hc) in Hk as [[-> _]|Hk]; [congruence|auto]. }
  assert (Inc : forall ax k, In (ax, k) O -> In (ax, k) shc) by (intros ax k Hk; rewrite <- Sc; apply (proj2 Hc); auto).
  assert (NinC : In (N, S n) shc) by (rewrite <- Sc; apply (proj2 Hc); auto).
  (* the index arrays *)
  assert (IS : forall t, In t (index_shapes (s_axes count) it) <->
            exists ax k, In (ax, k) shc /\ t = sshape (if String.eqb ax N then g else arange ax k)).
  { intros t. unfold index_shapes. rewrite in_flat_map. split.
    - intros [[ax i] [H1 H2]]. destruct (It _ _ H1) as (k & H3 & ->). cbn [fst snd] in H2.
      destruct (smem ax (s_axes count)); [|destruct H2]. destruct H2 as [<-|[]]. eauto.
    - intros (ax & k & H1 & ->). exists (ax, ItArr (if String.eqb ax N then g else arange ax k)). split.
      + apply dget_In, Dit. auto.
      + cbn [fst snd]. replace (smem ax (s_axes count)) with true; [now left|]. symmetry. apply smem_In.
        cbn [count s_axes]. apply (in_map fst) in H1. exact H1. }
  assert (NIS : Forall (fun t => NoDup (dkeys t)) (index_shapes (s_axes count) it)).
  { apply Forall_forall. intros t Ht. apply IS in Ht as (ax & k & _ & ->).
    apply wf_nodup. destruct (String.eqb ax N); auto. apply arange_wf. }
  assert (Gin : In (sshape g) (index_shapes (s_axes count) it)).
  { apply IS. exists N, (S n). split; auto. now rewrite String.eqb_refl. }
  assert (Entry : forall t ax k, In t (index_shapes (s_axes count) it) -> In (ax, k) t -> In (ax, k) (sshape g)).
  { intros t ax k Ht Hk. apply IS in Ht as (ax' & k' & H1 & ->). destruct (String.eqb_spec ax' N) as [->|NE]; auto.
    cbn in Hk. destruct Hk as [E|[]]. injection E as <- <-. apply (proj2 Hg). right. now apply Osh. }
  assert (Sizes : forall ax k, In k (sizes_of (index_shapes (s_axes count) it) ax) -> In (ax, k) (sshape g)).
  { intros ax k Hk. apply sizes_of_In in Hk as (t & Ht & D). apply dget_In in D. eapply Entry; eauto. }
  assert (Uniq : forall ax k k', In (ax, k) (sshape g) -> In (ax, k') (sshape g) -> k = k').
  { intros ax k k' H1 H2. apply (dget_NoDup _ _ _ (wf_nodup g Wg)) in H1. apply (dget_NoDup _ _ _ (wf_nodup g Wg)) in H2. congruence. }
  destruct (broadcast_shapes_total _ NIS) as [[sa Esa]|C].
  2: { apply broadcast_shapes_conflict in C as (ax & p & q & P1 & P2 & P3 & _); auto.
       destruct P3. apply (Uniq ax); apply Sizes; auto. }
  destruct (broadcast_shapes_ok _ sa NIS Esa) as (Nsa & _ & Msa).
  assert (SA : forall ax k, In (ax, k) sa <-> In (ax, k) (sshape g)).
  { intros ax k. rewrite Msa. split.
    - intros [H1 [H2 H3]]. apply in_concat in H1 as (ks & H4 & H5). apply in_map_iff in H4 as (t & <- & H4).
      apply dget_Some_key in H5 as [q Hq]. assert (Iq := Entry t ax q H4 (dget_In _ _ _ Hq)).
      assert (Sq : In q (sizes_of (index_shapes (s_axes count) it) ax)) by (apply sizes_of_In; eauto).
      destruct (H2 q Sq) as [-> | ->]; auto.
      rewrite H3; auto. intros m Hm. apply (Uniq ax); auto.
    - intros Hk. assert (Sk : In k (sizes_of (index_shapes (s_axes count) it) ax)).
      { apply sizes_of_In. exists (sshape g). split; auto. apply dget_NoDup; auto. now apply wf_nodup. }
      split.
      + apply in_concat. exists (dkeys (sshape g)). split; [now apply in_map|]. apply (in_map fst) in Hk. exact Hk.
      + split; [intros m Hm; right; apply (Uniq ax); auto|]. intros H1. auto. }
  assert (SAin : forall e, inside e sa <-> e N < n /\ inside e O).
  { intros e. rewrite <- (shaped_inside g n e Hg). split; intros H ax k Hk; apply H; now apply SA. }
  assert (DJ : forall ax, In ax (dkeys sa) -> In ax (s_axes count) -> keeps_axis (dget it ax) = false).
  { intros ax _ H. cbn [count s_axes] in H. apply dget_Some_key in H as [k Hk]. apply dget_In in Hk.
    rewrite (Dit ax k Hk). reflexivity. }
  (* the values *)
  assert (Ha : wf (arange N n)) by apply arange_wf.
  destruct (array_ufunc_ok (fun l : list Z => match l with [x] => (x + 1)%Z | _ => 0%Z end) [OpArr (arange N n)] [(N, n)])
    as (v & Ev & Wv & Sv & Vv).
  { constructor; [exact Ha|constructor]. }
  { reflexivity. }
  unfold map1. rewrite Ev. cbn [bind].
  (* success *)
  destruct (proj2 (setitem_success count it (OpArr v) sa Wc NDit Wit Pit Wv Esa DJ)) as [r Er].
  { split; [intros ax Hax; rewrite Kic in Hax; exact Hax|].
    assert (exists z, getitem count it = Ok z) as [z Ez].
    { apply (getitem_success count it Wc NDit Wit). exists sa. split; auto. split; auto.
      intros ax k Hk. rewrite Sc in Hk. rewrite (Dit ax k Hk). cbn [item_ok]. intros e He.
      destruct (String.eqb_spec ax N) as [->|NE].
      - apply (shaped_inside g n e Hg) in He as [L I]. specialize (RG e I L).
        assert (k = S n).
        { apply (dget_NoDup _ _ _ Nshc) in Hk. apply (dget_NoDup _ _ _ Nshc) in NinC. congruence. }
        subst k. unfold in_range. lia.
      - assert (L : e ax < k) by (apply (He ax); now left). unfold at_, arange. cbn. unfold in_range. lia. }
    exists z. split; auto. destruct (getitem_full count it z Wc NDit Wit Ez) as (_ & _ & sa' & E1 & _ & E2 & _).
    assert (sa' = sa) by congruence. subst sa'.
    intros ax k Hk. cbn [op_shape] in Hk. rewrite Sv in Hk. destruct Hk as [E|[]]. injection E as <- <-.
    exists n. split; auto. apply E2, SA, (proj2 Hg). auto. }
  exists r. split; auto.
  destruct (setitem_last count it (OpArr v) Wc NDit Wit Pit Wv sa Esa DJ r) as (Wr & Sr & G); auto.
  { rewrite Kic. apply incl_refl. }
  split; [apply (shaped_transfer count r (S n) Hc Wr Sr)|].
  (* what is addressed *)
  assert (AD : forall e e', inside e' O -> e' N < S n -> addresses (sshape count) sa it e e' <->
            (e N < n /\ inside e O) /\ (forall ax k, In (ax, k) O -> e ax = e' ax) /\
            at_ g e = Z.of_nat (e' N)).
  { intros e e' I' L'. unfold addresses. rewrite SAin, Sc. split.
    - intros [Hin H]. split; auto. split.
      + intros ax k Hk. destruct (H ax k (Inc _ _ Hk)) as [H1 H2]. rewrite (Dit ax k (Inc _ _ Hk)) in H2.
        destruct (String.eqb_spec ax N) as [->|NE]; [destruct (not_N _ _ Hk eq_refl)|]. cbn [selects] in H2.
        rewrite bat_inside in H2; [|apply arange_wf|intros x q [E|[]]; injection E as <- <-; apply (proj2 Hin); auto].
        destruct H2 as [_ H2]. unfold at_, arange in H2. cbn in H2. destruct (Z.ltb_spec (Z.of_nat (e ax)) 0); lia.
      + destruct (H N (S n) NinC) as [H1 H2]. rewrite (Dit N (S n) NinC), String.eqb_refl in H2. cbn [selects] in H2.
        rewrite bat_inside in H2; [|auto|apply (shaped_inside g n e Hg); auto].
        destruct H2 as [_ H2]. specialize (RG e (proj2 Hin) (proj1 Hin)). destruct (Z.ltb_spec (at_ g e) 0); lia.
    - intros (Hin & Hax & HN). split; auto. intros ax k Hk. rewrite (Dit ax k Hk).
      destruct (String.eqb_spec ax N) as [->|NE].
      + assert (k = S n).
        { apply (dget_NoDup _ _ _ Nshc) in Hk. apply (dget_NoDup _ _ _ Nshc) in NinC. congruence. }
        subst k. split; auto. cbn [selects]. rewrite bat_inside; [|auto|apply (shaped_inside g n e Hg); tauto].
        rewrite HN. split; auto. destruct (Z.ltb_spec (Z.of_nat (e' N)) 0); lia.
      + assert (Ho := Osh ax k Hk NE). assert (Lk := I' ax k Ho). split; auto. cbn [selects].
        rewrite bat_inside; [|apply arange_wf|intros x q [E|[]]; injection E as <- <-; apply (proj2 Hin); auto].
        split; auto. unfold at_, arange. cbn. rewrite (Hax ax k Ho). destruct (Z.ltb_spec (Z.of_nat (e' ax)) 0); lia. }
  (* values of g only depend on the named axes *)
  assert (GE : forall e e', (forall ax k, In (ax, k) O -> e ax = e' ax) -> at_ g e = at_ g (set_env e' N (e N))).
  { intros e e' H. apply at_ext. intros ax Hax. unfold set_env. destruct (String.eqb_spec ax N) as [->|NE]; auto.
    rewrite <- wf_keys in Hax by auto. apply dget_Some_key in Hax as [k Hk]. apply dget_In in Hk.
    apply (proj2 Hg) in Hk as [[-> _]|Hk]; [congruence|eauto]. }
  intros e' I' L'. destruct (G e') as [(e & A1 & A2 & A3)|[A1 A2]].
  { apply (shaped_inside count (S n)); auto. }
  - left. apply AD in A1 as ((B1 & B2) & B3 & B4); auto. exists (e N). split; auto. split; [now rewrite <- (GE e e' B3)|].
    split.
    { rewrite A2. cbn [op_at]. rewrite bat_inside; auto; [|rewrite Sv; intros x q [E|[]]; injection E as <- <-; auto].
      rewrite Vv. cbn [map op_at]. rewrite bat_inside; auto; [|intros x q [E|[]]; injection E as <- <-; auto].
      unfold at_, arange. cbn [s_nd s_axes nget map nth]. lia. }
    intros k Hk HG.
    assert (A4 : addresses (sshape count) sa it (set_env e' N k) e').
    { apply AD; auto. rewrite set_N. split; [split; auto; now apply inside_set|]. split; auto.
      intros ax q Hq. unfold set_env. destruct (String.eqb_spec ax N) as [->|]; auto. destruct (not_N _ _ Hq eq_refl). }
    specialize (A3 _ A4). rewrite <- (set_N e' k) at 1. eapply lex_agree; [|  |exact A3].
    + intros ax Hax NE. unfold set_env. destruct (String.eqb_spec ax N) as [->|_]; [congruence|].
      assert (exists q, In (ax, q) O) as [q Hq]; [|now rewrite (B3 ax q Hq)].
      apply in_app_iff in Hax as [Hax|Hax].
      * apply dget_Some_key in Hax as [q Hq]. apply dget_In in Hq. apply SA, (proj2 Hg) in Hq as [[-> _]|Hq]; [congruence|eauto].
      * unfold others in Hax. apply filter_In in Hax as [Hax _]. cbn [count s_axes] in Hax.
        apply dget_Some_key in Hax as [q Hq]. apply dget_In in Hq. exists q. now apply Osh.
    + apply in_app_iff. left. change N with (fst (N, n)). apply in_map, SA, (proj2 Hg). auto.
  - right. split.
    + intros i Hi HG. apply (A1 (set_env e' N i)). apply AD; auto. rewrite set_N. split; [split; auto; now apply inside_set|].
      split; auto. intros ax q Hq. unfold set_env. destruct (String.eqb_spec ax N) as [->|]; auto. destruct (not_N _ _ Hq eq_refl).
    + rewrite A2. reflexivity.
Qed.
End Shaped.
