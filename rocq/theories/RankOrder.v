(** Ranks of the elements of one sorted line: the arithmetic behind [rankdata],
    independent of arrays. *)
From Coq Require Import String List Arith ZArith Bool Lia Permutation Sorted.
From Verif Require Import Base BaseFacts.
Import ListNotations.
Open Scope nat_scope.
Open Scope list_scope.

(** the number of positions below [n] with the property [P] *)
Definition cnt (n : nat) (P : nat -> bool) : nat := length (filter P (seq 0 n)).

Lemma cnt_S n P : cnt (S n) P = cnt n P + if P n then 1 else 0.
Proof. unfold cnt. rewrite seq_S, filter_app, app_length. cbn. destruct (P n); reflexivity. Qed.

Lemma cnt_ext n P Q : (forall k, k < n -> P k = Q k) -> cnt n P = cnt n Q.
Proof.
  induction n as [|n IH]; intros H; auto. rewrite !cnt_S, (H n) by lia. rewrite IH; auto.
Qed.

Lemma cnt_prefix n P m : m <= n -> (forall k, k < n -> P k = true <-> k < m) -> cnt n P = m.
Proof.
  revert m. induction n as [|n IH]; intros m L H; [assert (m = 0) as -> by lia; reflexivity|].
  rewrite cnt_S. destruct (Nat.eq_dec m (S n)) as [->|NE].
  - rewrite (proj2 (H n (Nat.lt_succ_diag_r n))) by lia. rewrite (IH n); auto; [lia|].
    intros k Hk. rewrite H by lia. lia.
  - rewrite (IH m); [|lia|intros k Hk; apply H; lia].
    destruct (P n) eqn:E; [apply H in E; lia|lia].
Qed.

Section Groups.
(** [chg k] says that the element [k] of the sorted line differs from its
    predecessor; [grp] numbers the groups of equal elements from one *)
Variable chg : nat -> bool.
Hypothesis chg0 : chg 0 = true.

Definition grp (i : nat) : nat := cnt (S i) chg.

Lemma grp_S i : grp (S i) = grp i + if chg (S i) then 1 else 0.
Proof. apply cnt_S. Qed.

Lemma grp_0 : grp 0 = 1.
Proof. unfold grp. rewrite cnt_S, chg0. reflexivity. Qed.

Lemma grp_mono i j : i <= j -> grp i <= grp j.
Proof. induction 1; auto. rewrite grp_S. lia. Qed.

Lemma grp_pos i : 1 <= grp i.
Proof. rewrite <- grp_0. apply grp_mono. lia. Qed.

Lemma grp_le i : grp i <= S i.
Proof. induction i; [now rewrite grp_0|]. rewrite grp_S. destruct (chg (S i)); lia. Qed.

Lemma grp_onto i g : 1 <= g <= grp i -> exists k, k <= i /\ grp k = g.
Proof.
  induction i as [|i IH]; intros H; [rewrite grp_0 in H; exists 0; rewrite grp_0; lia|].
  rewrite grp_S in H. destruct (Nat.le_gt_cases g (grp i)) as [L|G].
  - destruct IH as [k [K1 K2]]; [lia|]. exists k. lia.
  - exists (S i). rewrite grp_S. destruct (chg (S i)); lia.
Qed.

(** the last position of a group is one less than the number of positions in
    this group and the groups before it *)
Lemma last_of_group n i g : i < n -> grp i = g -> (forall k, k < n -> grp k = g -> k <= i) ->
  cnt n (fun k => grp k <=? g) = S i.
Proof.
  intros L E H. apply cnt_prefix; [lia|]. intros k Hk. rewrite Nat.leb_le. split.
  - intros G. destruct (Nat.le_gt_cases k i) as [|K]; [lia|].
    assert (M := grp_mono i k ltac:(lia)). assert (grp k = g) by lia. specialize (H k Hk H0). lia.
  - intros K. rewrite <- E. apply grp_mono. lia.
Qed.

Lemma no_group n i g : i < n -> g <= grp i -> (forall k, k < n -> grp k <> g) -> cnt n (fun k => grp k <=? g) = 0.
Proof.
  intros L G H. destruct g as [|g].
  - apply cnt_prefix; [lia|]. intros k Hk. rewrite Nat.leb_le. assert (P := grp_pos k). lia.
  - destruct (grp_onto i (S g)) as [k [K1 K2]]; [lia|]. exfalso. apply (H k); auto. lia.
Qed.

Lemma grp_same i j : i <= j -> (grp j <= grp i <-> forall k, i < k <= j -> chg k = false).
Proof.
  induction 1 as [|j L IH]; [split; [intros; lia|auto]|]. rewrite grp_S. split.
  - intros H k Hk. assert (M := grp_mono i j L). destruct (chg (S j)) eqn:E; [lia|].
    destruct (Nat.eq_dec k (S j)) as [->|]; auto. apply IH; lia.
  - intros H. rewrite (H (S j)) by lia. assert (grp j <= grp i) by (apply IH; intros; apply H; lia). lia.
Qed.
End Groups.

Section Sorted.
Context {V : Type} (leb : V -> V -> bool) (differ : V -> V -> bool) (proper : V -> Prop).
Hypothesis total : forall x y, leb x y = true \/ leb y x = true.
Hypothesis trans : forall x y z, leb x y = true -> leb y z = true -> leb x z = true.
Hypothesis differ_spec : forall x y, proper x \/ proper y -> differ x y = negb (leb x y && leb y x).
Hypothesis proper_below : forall x y, proper x -> leb y x = true -> proper y.

Variable s : nat -> V.
Variable n : nat.
Hypothesis sorted : forall i j, i <= j -> j < n -> leb (s i) (s j) = true.
Let chg k := match k with 0 => true | S j => differ (s k) (s j) end.

Lemma refl x : leb x x = true.
Proof. destruct (total x x); auto. Qed.

Lemma group_order i k : i < n -> k < n -> proper (s i) ->
  (grp chg k <= grp chg i <-> leb (s k) (s i) = true) /\
  (grp chg i <= grp chg k <-> leb (s i) (s k) = true).
Proof.
  intros Hi Hk P. assert (C0 : chg 0 = true) by reflexivity.
  destruct (Nat.le_gt_cases k i) as [L|L].
  - split; [split; intros _; [now apply sorted|now apply grp_mono]|].
    rewrite grp_same by auto. split.
    + intros H. assert (G : forall j, k <= j <= i -> leb (s j) (s k) = true).
      { intros j [J1 J2]. induction J1 as [|j J1 IH]; [apply refl|].
        apply trans with (s j); [|apply IH; lia]. specialize (H (S j) ltac:(lia)). cbn [chg] in H.
        rewrite differ_spec in H.
        2: { left. apply (proper_below (s i)); auto. }
        apply negb_false_iff, andb_prop in H. apply H. }
      apply G. lia.
    + intros H j Hj. destruct j as [|j]; [lia|]. cbn [chg].
      assert (PJ : proper (s (S j))) by (apply (proper_below (s i)); auto; apply sorted; lia).
      rewrite differ_spec by auto. apply negb_false_iff, andb_true_intro. split.
      * apply trans with (s i); [apply sorted; lia|]. apply trans with (s k); auto. apply sorted; lia.
      * apply sorted; lia.
  - split; [|split; intros _; [apply sorted; lia|apply grp_mono; lia]].
    rewrite grp_same by lia. split.
    + intros H. assert (G : forall j, i <= j -> j <= k -> leb (s j) (s i) = true).
      { intros j J1. induction J1 as [|j J1 IH]; intros J2; [apply refl|].
        apply trans with (s j); [|apply IH; lia]. specialize (H (S j) ltac:(lia)). cbn [chg] in H.
        rewrite differ_spec in H.
        2: { right. apply (proper_below (s i)); auto. apply IH; lia. }
        apply negb_false_iff, andb_prop in H. apply H. }
      apply G; lia.
    + intros H j Hj. destruct j as [|j]; [lia|]. cbn [chg].
      assert (PJ : proper (s j)).
      { apply (proper_below (s i)); auto. apply trans with (s k); auto. apply sorted; lia. }
      rewrite differ_spec by auto. apply negb_false_iff, andb_true_intro. split.
      * apply trans with (s k); [apply sorted; lia|]. apply trans with (s i); auto. apply sorted; lia.
      * apply sorted; lia.
Qed.

Lemma group_leq i : i < n -> proper (s i) ->
  cnt n (fun k => grp chg k <=? grp chg i) = cnt n (fun k => leb (s k) (s i)).
Proof.
  intros Hi P. apply cnt_ext. intros k Hk. apply eq_true_iff_eq. rewrite Nat.leb_le.
  exact (proj1 (group_order i k Hi Hk P)).
Qed.

Lemma group_less i : i < n -> proper (s i) ->
  cnt n (fun k => grp chg k <=? grp chg i - 1) = cnt n (fun k => negb (leb (s i) (s k))).
Proof.
  intros Hi P. apply cnt_ext. intros k Hk. apply eq_true_iff_eq. rewrite Nat.leb_le, negb_true_iff.
  assert (Q := grp_pos chg eq_refl i). destruct (group_order i k Hi Hk P) as [_ G].
  destruct (leb (s i) (s k)) eqn:E.
  - assert (grp chg i <= grp chg k) by now apply G. split; [lia|discriminate].
  - split; auto. intros _. destruct (Nat.le_gt_cases (grp chg i) (grp chg k)) as [L|L]; [apply G in L; congruence|lia].
Qed.

(** the number of a group is one more than the number of different smaller
    elements *)
Hypothesis antisym : forall x y, proper x -> leb x y = true -> leb y x = true -> x = y.
Variable dec : forall x y : V, {x = y} + {x <> y}.

Lemma distinct_prefix i : i < n -> proper (s i) ->
  length (nodup dec (map s (seq 0 (S i)))) = grp chg i.
Proof.
  induction i as [|i IH]; intros Hi P; [reflexivity|].
  assert (Pi : proper (s i)) by (apply (proper_below (s (S i))); auto; apply sorted; lia).
  rewrite grp_S, <- IH by (auto; lia).
  assert (E : forall l x, length (nodup dec (l ++ [x])) = length (nodup dec l) + if in_dec dec x l then 0 else 1).
  { clear. intros l x. rewrite <- (rev_involutive l). generalize (rev l). clear l. intros l.
    assert (R : forall m : list V, length (nodup dec (rev m)) = length (nodup dec m)).
    { intros m. apply Permutation_length, NoDup_Permutation; try apply NoDup_nodup.
      intros y. rewrite !nodup_In. symmetry. apply in_rev. }
    rewrite <- (rev_involutive (rev l ++ [x])), R, rev_app_distr, rev_involutive. cbn [rev app nodup].
    rewrite R. destruct (in_dec dec x l) as [I|I]; destruct (in_dec dec x (rev l)) as [I'|I']; cbn [length]; try lia;
      apply in_rev in I || (rewrite <- in_rev in I'); contradiction. }
  rewrite seq_S, map_app. cbn [map plus]. rewrite E. f_equal.
  cbn [chg]. rewrite differ_spec by auto.
  assert (L : leb (s i) (s (S i)) = true) by (apply sorted; lia). rewrite L, andb_true_r.
  destruct (in_dec dec (s (S i)) (map s (seq 0 (S i)))) as [I|I].
  - apply in_map_iff in I as [k [Ek Hk]]. apply in_seq in Hk. replace (leb (s (S i)) (s i)) with true; auto.
    symmetry. rewrite <- Ek. apply sorted; lia.
  - destruct (leb (s (S i)) (s i)) eqn:F; auto. exfalso. apply I. apply in_map_iff. exists i. split; [|apply in_seq; lia].
    apply antisym; auto.
Qed.

Lemma filter_prefix {X} (f : X -> bool) (h : nat -> X) m k :
  k <= m -> (forall i, i < m -> f (h i) = true <-> i < k) -> filter f (map h (seq 0 m)) = map h (seq 0 k).
Proof.
  revert k. induction m as [|m IH]; intros k L H; [assert (k = 0) as -> by lia; reflexivity|].
  rewrite seq_S, map_app, filter_app. cbn [map filter plus]. destruct (Nat.eq_dec k (S m)) as [->|NE].
  - rewrite (IH m), (proj2 (H m ltac:(lia))) by (auto; try lia; intros; rewrite H by lia; lia).
    rewrite seq_S, map_app. reflexivity.
  - rewrite (IH k) by (try lia; intros; apply H; lia). destruct (f (h m)) eqn:E; [apply H in E; lia|].
    apply app_nil_r.
Qed.

Lemma group_dense i : i < n -> proper (s i) ->
  S (length (nodup dec (filter (fun x => negb (leb (s i) x)) (map s (seq 0 n))))) = grp chg i.
Proof.
  intros Hi P. assert (C0 : chg 0 = true) by reflexivity.
  (* the first position of the group *)
  assert (F : exists f, f <= i /\ grp chg f = grp chg i /\ (f = 0 \/ exists f', f = S f' /\ grp chg f' < grp chg i)).
  { clear P. induction i as [|i IH].
    - exists 0. auto.
    - rewrite grp_S. destruct (chg (S i)) eqn:E.
      + exists (S i). rewrite grp_S, E. split; auto. split; auto. right. exists i. split; auto. lia.
      + destruct IH as (f & F1 & F2 & F3); [lia|]. exists f. rewrite !Nat.add_0_r. auto. }
  destruct F as (f & F1 & F2 & F3).
  assert (PF : forall k, k < n -> negb (leb (s i) (s k)) = true <-> k < f).
  { intros k Hk. rewrite negb_true_iff. destruct (group_order i k Hi Hk P) as [_ G]. split.
    - intros E. destruct (Nat.le_gt_cases f k) as [L|L]; auto.
      assert (M := grp_mono chg f k L). rewrite F2 in M. apply G in M. congruence.
    - intros L. destruct (leb (s i) (s k)) eqn:E; auto. assert (E' : grp chg i <= grp chg k) by (now apply G).
      destruct F3 as [->|(f' & -> & F3)]; [lia|]. assert (M := grp_mono chg k f' ltac:(lia)). lia. }
  rewrite (filter_prefix (fun x => negb (leb (s i) x)) s n f) by (auto; lia).
  destruct F3 as [->|(f' & -> & F3)]; [rewrite <- F2, grp_0; auto|].
  rewrite distinct_prefix; [|lia|apply (proper_below (s i)); auto; apply sorted; lia].
  rewrite <- F2 in F3 |- *. rewrite grp_S in *. destruct (chg (S f')); lia.
Qed.
End Sorted.

Lemma cnt_list {V} (s : nat -> V) n (P : V -> bool) : cnt n (fun k => P (s k)) = length (filter P (map s (seq 0 n))).
Proof.
  unfold cnt. induction (seq 0 n) as [|k l IH]; auto. cbn [map filter]. destruct (P (s k)); cbn [length]; auto.
Qed.

Lemma filter_perm {V} (P : V -> bool) l m : Permutation l m -> Permutation (filter P l) (filter P m).
Proof.
  induction 1; cbn [filter]; auto.
  - destruct (P x); auto.
  - destruct (P x), (P y); auto. apply perm_swap.
  - etransitivity; eauto.
Qed.

Lemma nodup_perm {V} (dec : forall x y : V, {x = y} + {x <> y}) l m :
  Permutation l m -> length (nodup dec l) = length (nodup dec m).
Proof.
  intros P. apply Permutation_length, NoDup_Permutation; try apply NoDup_nodup.
  intros x. rewrite !nodup_In. split; apply Permutation_in; auto. now apply Permutation_sym.
Qed.
