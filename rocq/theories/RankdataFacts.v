(** Facts about [rankdata]: lines, ranks and masks. *)
From Coq Require Import String List Arith ZArith Bool Lia Permutation Sorted QArith Qcanon.
From Verif Require Import Base BaseFacts Numpy NumpyFacts Shapes Scalar Reorder Elementwise Reduce Along Sorting Rank.
From Verif Require Import Spec SpecRank ShapesFacts AlignFacts GetitemFacts SetitemFacts ReorderFacts ElementwiseFacts ReduceFacts
  AlongFacts SortingFacts DerivedFacts VectorIndexFacts RankOrder RankFacts.
Import ListNotations.
Open Scope nat_scope.
Open Scope list_scope.

Section Order.
Context {A : Type} (leb : A -> A -> bool) (eqb : A -> A -> bool) (dec : forall x y : A, {x = y} + {x <> y}).
Hypothesis TO : total_order leb.
Hypothesis EQ : forall x y, eqb x y = true <-> x = y.

Definition leo (x y : option A) : bool :=
  match x, y with Some x, Some y => leb x y | None, Some _ => false | _, None => true end.
Definition proper (x : option A) : Prop := x <> None.

Lemma leo_spec x y : nan_last leb x y <-> leo x y = true.
Proof. destruct x, y; cbn; try tauto; split; auto; discriminate. Qed.

Lemma leo_total x y : leo x y = true \/ leo y x = true.
Proof. destruct x, y; cbn; auto. apply TO. Qed.

Lemma leo_trans x y z : leo x y = true -> leo y z = true -> leo x z = true.
Proof. destruct x, y, z; cbn; auto; try discriminate. apply TO. Qed.

Lemma leo_refl x : leo x x = true.
Proof. destruct (leo_total x x); auto. Qed.

Lemma leo_differ x y : proper x \/ proper y -> differ eqb x y = negb (leo x y && leo y x).
Proof.
  destruct x as [x|], y as [y|]; cbn; auto; [|unfold proper; tauto]. intros _. f_equal.
  destruct (eqb x y) eqn:E.
  - apply EQ in E as ->. destruct TO as (T & _). destruct (T y y) as [H|H]; now rewrite H.
  - destruct (leb x y) eqn:E1, (leb y x) eqn:E2; auto. destruct TO as (_ & _ & AS). rewrite (AS x y) in E; auto.
    assert (eqb y y = true) by now apply EQ. congruence.
Qed.

Lemma leo_below x y : proper x -> leo y x = true -> proper y.
Proof. destruct x, y; cbn; unfold proper; congruence. Qed.

Lemma leo_antisym x y : proper x -> leo x y = true -> leo y x = true -> x = y.
Proof. destruct x, y; cbn; try discriminate; auto. intros _ H1 H2. f_equal. now apply TO. Qed.

Definition deco : forall x y : option A, {x = y} + {x <> y}.
Proof. decide equality. Defined.

(** counting among the numbers *)
Lemma filter_numbers (P : option A -> bool) (l : list (option A)) : P None = false ->
  filter P l = map Some (filter (fun x => P (Some x)) (numbers l)).
Proof.
  intros H. induction l as [|[x|] l IH]; auto; cbn [filter numbers flat_map app].
  - destruct (P (Some x)) eqn:E; cbn [map]; fold (numbers l); now rewrite IH.
  - rewrite H. exact IH.
Qed.

Lemma nodup_some (l : list A) : length (nodup deco (map Some l)) = length (nodup dec l).
Proof.
  induction l as [|x l IH]; auto. cbn [map nodup].
  destruct (in_dec deco (Some x) (map Some l)) as [I|I]; destruct (in_dec dec x l) as [J|J]; cbn [length]; auto.
  - exfalso. apply J. apply in_map_iff in I as (y & E & H). now injection E as <-.
  - exfalso. apply I. now apply in_map.
Qed.

Lemma sorted_nth (s : nat -> option A) n : StronglySorted (nan_last leb) (map s (seq 0 n)) ->
  forall i j, i <= j -> j < n -> leo (s i) (s j) = true.
Proof.
  intros H i j L Hj. destruct (Nat.eq_dec i j) as [->|NE]; [apply leo_refl|]. apply leo_spec.
  replace n with (i + S (n - S i)) in H by lia. rewrite seq_app, map_app in H. cbn [seq map plus] in H.
  assert (G : forall l m : list (option A), StronglySorted (nan_last leb) (l ++ m) -> StronglySorted (nan_last leb) m).
  { clear. induction l as [|x l IH]; intros m H; auto. inversion H; auto. }
  apply G in H. inversion H as [|? ? _ F]; subst. rewrite Forall_forall in F. apply F.
  apply in_map. apply in_seq. lia.
Qed.
End Order.

(** positions that sort the positions invert them *)
Lemma inverse_positions (arg_int : list Z -> list nat) (sigma : list nat) n : argsorts Z.le arg_int ->
  Permutation (seq 0 n) sigma -> forall j, j < n ->
  nth j (arg_int (map Z.of_nat sigma)) 0 < n /\ nth (nth j (arg_int (map Z.of_nat sigma)) 0) sigma 0 = j.
Proof.
  intros H P j Hj. set (z := map Z.of_nat sigma). assert (Ls : length sigma = n) by (rewrite <- (Permutation_length P); apply seq_length).
  assert (Lz : length z = n) by (unfold z; now rewrite map_length).
  assert (R := argsorts_range Z.le arg_int H z). assert (Ll := argsorts_length Z.le arg_int H z). rewrite Lz in *.
  set (t := map (fun p => nth p z 0%Z) (arg_int z)).
  assert (Et : map Some t = map (nth_error z) (arg_int z)).
  { unfold t. rewrite map_map. apply map_ext_in. intros p Hp. symmetry. apply nth_error_nth'. rewrite Lz. now apply R. }
  destruct (argsorts_sorted Z.le arg_int z t H Et) as [P1 S1].
  assert (t = map Z.of_nat (seq 0 n)) as Eq.
  { apply (sorted_unique Z.le); auto.
    - intros x y; lia.
    - generalize 0. clear. induction n as [|n IH]; intros k; cbn [seq map]; constructor; auto.
      apply Forall_forall. intros y Hy. apply in_map_iff in Hy as (q & <- & Hq). apply in_seq in Hq. lia.
    - etransitivity; [apply Permutation_sym, P1|]. unfold z. apply Permutation_map. now apply Permutation_sym. }
  assert (E := f_equal (fun l => nth j l (-1)%Z) Eq). unfold t in E.
  rewrite map_nth_in with (d := 0) in E by lia. rewrite map_nth_in with (d := 0) in E by (rewrite seq_length; lia).
  rewrite seq_nth in E by auto. cbn [plus] in E.
  assert (B : nth j (arg_int z) 0 < n) by (apply R, nth_In; lia). split; auto.
  set (p := nth j (arg_int z) 0) in *. unfold z in E. rewrite map_nth_in with (d := 0) in E by lia. now apply Nat2Z.inj in E.
Qed.

Section Ranked.
Context {A : Type} (leb : A -> A -> bool) (eqb : A -> A -> bool) (dec : forall x y : A, {x = y} + {x <> y}).
Hypothesis TO : total_order leb.
Hypothesis EQ : forall x y, eqb x y = true <-> x = y.
Context (arg1 : list (option A) -> list nat) (arg_int : list Z -> list nat).
Hypothesis AS : argsorts (nan_last leb) arg1.
Hypothesis AI : argsorts Z.le arg_int.

Variable N : string.
Variable O : shape.
Hypothesis NO : ~ In N (dkeys O).
Hypothesis ND : NoDup (dkeys O).
Hypothesis ONZ : forall ax k, In (ax, k) O -> k <> 0.

Notation shaped := (shaped N O).

Lemma rank_number method (less leq g : nat) x l : smem method methods = true ->
  less = length (smaller leb x l) -> leq = length (up_to leb x l) -> g = rank_dense leb dec x l ->
  Some (if String.eqb method "average" then half (Z.of_nat less + Z.of_nat leq + 1)
        else if String.eqb method "min" then whole (Z.of_nat less + 1)
        else if String.eqb method "max" then whole (Z.of_nat leq)
        else whole (Z.of_nat g)) = rank_of leb dec method x l.
Proof.
  intros M -> -> ->. unfold rank_of, half, whole.
  assert (M' : method = "average"%string \/ method = "min"%string \/ method = "max"%string \/ method = "dense"%string).
  { apply smem_In in M. cbn [methods In] in M. intuition. }
  destruct M' as [-> |[-> |[-> | ->]]]; cbn [String.eqb Ascii.eqb Bool.eqb]; f_equal.
  - unfold rank_min, rank_max. apply Qc_is_canon. unfold Qcdiv, Qcmult, Qcplus, Qcinv. cbn [this Q2Qc].
    rewrite !Qred_correct. rewrite !Nat2Z.inj_add.
    set (u := Z.of_nat (length (smaller leb x l))). set (v := Z.of_nat (length (up_to leb x l))).
    change (/ (1 + 1))%Q with (1 # 2)%Q. unfold Qeq, Qmult, Qplus. cbn [Qnum Qden]. lia.
  - unfold rank_min. apply Qc_is_canon. cbn [this Q2Qc]. rewrite !Qred_correct. rewrite Nat2Z.inj_add.
    unfold Qeq, inject_Z. cbn [Qnum Qden]. lia.
Qed.

Theorem rank_axis_spec method (a : sarr (option A)) n : smem method methods = true -> shaped a n -> n <> 0 ->
  exists r, rank_axis arg1 arg_int eqb method a N = Ok r /\ shaped r n /\
    forall e x, inside e O -> e N < n -> at_ a e = Some x ->
      Some (at_ r e) = rank_of leb dec method x (numbers (line a N e)).
Proof.
  intros M Ha NZ. assert (Wa := proj1 Ha). unfold rank_axis, lookup.
  assert (D : dget (sshape a) N = Some n) by (apply dget_NoDup; [now apply wf_nodup|apply (proj2 Ha); auto]).
  rewrite D. cbn [bind].
  assert (L1 := argsorts_length _ _ AS). assert (R1 := argsorts_range _ _ AS).
  assert (LI := argsorts_length _ _ AI). assert (RI := argsorts_range _ _ AI).
  destruct (argsort_entry N O NO ONZ arg1 a n Ha L1 R1) as (d & so & Ed & Gd & Hso & Vso). rewrite Ed. cbn [bind]. rewrite Gd. cbn [bind].
  destruct (argsort_entry N O NO ONZ arg_int so n Hso LI RI) as (d2 & inv & Ed2 & Gd2 & Hinv & Vinv). rewrite Ed2. cbn [bind]. rewrite Gd2. cbn [bind].
  assert (LL : forall e, length (line a N e) = n) by (intros e; rewrite line_length; now apply (shaped_size N O)).
  assert (Rg : forall e i, i < n -> nth i (arg1 (line a N e)) 0 < n).
  { intros e i Hi. rewrite <- (LL e). apply R1, nth_In. now rewrite L1, LL. }
  destruct (shaped_take N O NO a so n n Ha Hso) as (s & Es & Hs & Vs).
  { intros e I L. rewrite Vso by auto. specialize (Rg e (e N) L). lia. }
  rewrite Es. cbn [bind].
  destruct (groups_spec N O NO eqb s n Hs NZ) as (g & Eg & Hg & Vg). rewrite Eg. cbn [bind].
  assert (Gr : forall e, inside e O -> e N < n -> (1 <= at_ g e <= Z.of_nat n)%Z).
  { intros e I L. rewrite Vg by auto. assert (P := grp_pos (changes N eqb s e) eq_refl (e N)).
    assert (Q := grp_le (changes N eqb s e) eq_refl (e N)). lia. }
  destruct (counts_spec N O NO s g n Hs Hg) as (c & Ec & Hc & Vc).
  { intros e I L. specialize (Gr e I L). lia. }
  rewrite Ec. cbn [bind].
  (* the counts *)
  assert (CNT : forall e m, inside e O -> e N < n -> m <= grp (changes N eqb s e) (e N) ->
            at_ c (set_env e N m) = Z.of_nat (cnt n (fun k => grp (changes N eqb s e) k <=? m))).
  { intros e m I L Hm. assert (Q := grp_le (changes N eqb s e) eq_refl (e N)).
    assert (GG : forall i, i < n -> at_ g (set_env (set_env e N m) N i) = Z.of_nat (grp (changes N eqb s e) i)).
    { intros i Hi. rewrite Vg.
      - rewrite set_N, grp_set, grp_set. reflexivity.
      - apply inside_set; auto. apply inside_set; auto.
      - now rewrite set_N. }
    destruct (Vc (set_env e N m)) as [(i & C1 & C2 & C3 & C4)|[C1 C2]].
    { apply inside_set; auto. }
    { rewrite set_N. lia. }
    - rewrite set_N in *. rewrite C3. f_equal. symmetry. rewrite GG in C2 by auto. apply Nat2Z.inj in C2.
      apply last_of_group; auto. intros k Hk Gk. apply C4; auto. rewrite GG by auto. lia.
    - rewrite set_N in *. rewrite C2. symmetry. apply (f_equal Z.of_nat (y := 0)). apply (no_group _ eq_refl n (e N)); auto.
      intros k Hk Gk. apply (C1 k Hk). rewrite GG by auto. lia. }
  unfold rank_sorted.
  destruct (shaped_take N O NO c g (S n) n Hc Hg) as (q & Eq & Hq & Vq).
  { intros e I L. specialize (Gr e I L). lia. }
  rewrite Eq. cbn [bind].
  destruct (shaped_map1 N O (fun z => z - 1)%Z 0%Z g n Hg) as (b & Eb & Hb & Vb). rewrite Eb. cbn [bind].
  destruct (shaped_take N O NO c b (S n) n Hc Hb) as (p & Ep & Hp & Vp).
  { intros e I L. rewrite Vb by auto. specialize (Gr e I L). lia. }
  rewrite Ep. cbn [bind].
  assert (exists rk, (if String.eqb method "average" then map2 (fun x y => half (x + y + 1)) (half 0) p q
    else if String.eqb method "min" then map1 (fun x => whole (x + 1)) (half 0) p
    else if String.eqb method "max" then map1 whole (half 0) q
    else map1 whole (half 0) g) = Ok rk /\ shaped rk n /\ forall e, inside e O -> e N < n -> at_ rk e =
      if String.eqb method "average" then half (at_ p e + at_ q e + 1)
      else if String.eqb method "min" then whole (at_ p e + 1)
      else if String.eqb method "max" then whole (at_ q e) else whole (at_ g e)) as (rk & Erk & Hrk & Vrk).
  { destruct (String.eqb method "average"); [apply (shaped_map2 N O (fun x y => half (x + y + 1)) (half 0)); auto|].
    destruct (String.eqb method "min"); [apply (shaped_map1 N O (fun x => whole (x + 1)) (half 0)); auto|].
    destruct (String.eqb method "max"); apply (shaped_map1 N O whole (half 0)); auto. }
  rewrite Erk. cbn [bind].
  (* lines *)
  assert (SL : forall e, inside e O -> line so N e = map Z.of_nat (arg1 (line a N e))).
  { intros e I. rewrite (shaped_line N O so n e Hso). apply nth_ext with (d := 0%Z) (d' := 0%Z).
    - now rewrite !map_length, seq_length, L1, LL.
    - intros i Hi. rewrite map_length, seq_length in Hi. rewrite map_nth_in with (d := 0) by now rewrite seq_length.
      rewrite seq_nth by auto. cbn [plus]. rewrite map_nth_in with (d := 0) by now rewrite L1, LL.
      rewrite Vso; [now rewrite set_N, line_set|apply inside_set; auto|now rewrite set_N]. }
  assert (IV : forall e, inside e O -> e N < n -> exists i, i < n /\ at_ inv e = Z.of_nat i /\ nth i (arg1 (line a N e)) 0 = e N).
  { intros e I L. rewrite Vinv by auto. rewrite SL by auto.
    destruct (inverse_positions arg_int (arg1 (line a N e)) n AI) with (j := e N) as [I1 I2]; auto.
    - rewrite <- (LL e). apply AS.
    - eexists. split; [exact I1|]. split; auto. }
  destruct (shaped_take N O NO rk inv n n Hrk Hinv) as (r & Er & Hr & Vr).
  { intros e I L. destruct (IV e I L) as (i & I1 & -> & _). lia. }
  exists r. split; auto. split; auto.
  intros e x I L Ex. destruct (IV e I L) as (i & I1 & I2 & I3). rewrite Vr by auto. rewrite I2, Nat2Z.id.
  set (ei := set_env e N i). assert (Ii : inside ei O) by (apply inside_set; auto).
  assert (Li : ei N < n) by (unfold ei; now rewrite set_N).
  rewrite Vrk by auto.
  set (sv := fun k => at_ s (set_env e N k)).
  assert (SV : forall k, k < n -> sv k = at_ a (set_env e N (nth k (arg1 (line a N e)) 0))).
  { intros k Hk. unfold sv. rewrite Vs; [|apply inside_set; auto|now rewrite set_N].
    rewrite Vso; [|apply inside_set; auto|now rewrite set_N]. rewrite Nat2Z.id, set_N, line_set.
    apply at_ext. intros ax _. apply set_set. }
  assert (Ei : sv i = Some x) by (rewrite SV, I3, at_set_same by auto; auto).
  assert (PL : Permutation (line a N e) (map sv (seq 0 n)) /\ StronglySorted (nan_last leb) (map sv (seq 0 n))).
  { apply (argsorts_sorted (nan_last leb) arg1); auto. apply nth_error_ext. intros k. rewrite !nth_error_map.
    destruct (Nat.lt_ge_cases k n) as [Hk|Hk].
    - rewrite seq_nth_error. destruct (Nat.ltb_spec k n); [|lia]. cbn [option_map plus].
      rewrite (nth_error_nth' _ 0) by now rewrite L1, LL. cbn [option_map]. f_equal. rewrite SV by auto.
      rewrite (shaped_line N O a n e Ha), nth_error_map, seq_nth_error.
      destruct (Nat.ltb_spec (nth k (arg1 (map (fun j : nat => at_ a (set_env e N j)) (seq 0 n))) 0) n) as [|B]; auto.
      rewrite <- (shaped_line N O a n e Ha) in B. specialize (Rg e k Hk). lia.
    - rewrite (proj2 (nth_error_None _ _)) by now rewrite seq_length.
      rewrite (proj2 (nth_error_None _ _)) by now rewrite L1, LL. reflexivity. }
  destruct PL as [PL SS]. assert (SO := sorted_nth leb TO sv n SS).
  assert (Pi : proper (sv i)) by (rewrite Ei; discriminate).
  set (chg := changes N eqb s e).
  assert (CH : forall k, chg k = match k with 0 => true | S j => differ eqb (sv k) (sv j) end) by (intros [|k]; reflexivity).
  assert (GRP : forall k, grp chg k = grp (fun k => match k with 0 => true | S j => differ eqb (sv k) (sv j) end) k).
  { intros k. unfold grp. apply cnt_ext. intros j _. apply CH. }
  assert (Vgi : at_ g ei = Z.of_nat (grp chg i)).
  { rewrite Vg by auto. unfold ei, chg. now rewrite grp_set, set_N. }
  assert (Q1 : at_ q ei = Z.of_nat (length (up_to leb x (numbers (line a N e))))).
  { rewrite Vq, Vgi, Nat2Z.id by auto.
    transitivity (at_ c (set_env ei N (grp chg i))); auto.
    rewrite CNT; auto; [|unfold ei; rewrite grp_set, set_N; auto].
    f_equal. transitivity (cnt n (fun k => grp (fun k => match k with 0 => true | S j => differ eqb (sv k) (sv j) end) k
                                <=? grp (fun k => match k with 0 => true | S j => differ eqb (sv k) (sv j) end) i)).
    { apply cnt_ext. intros k _. unfold ei. rewrite grp_set. fold chg. now rewrite !GRP. }
    rewrite (group_leq (leo leb) (differ eqb) proper (leo_total leb TO) (leo_trans leb TO) (leo_differ leb eqb TO EQ)
              (leo_below leb) sv n SO i I1 Pi).
    rewrite (cnt_list sv n (fun y => leo leb y (sv i))).
    rewrite <- (Permutation_length (filter_perm (fun y => leo leb y (sv i)) _ _ PL)), Ei.
    rewrite filter_numbers by reflexivity. rewrite map_length. reflexivity. }
  assert (Q2 : at_ p ei = Z.of_nat (length (smaller leb x (numbers (line a N e))))).
  { rewrite Vp, Vb, Vgi by auto. assert (GP := grp_pos chg eq_refl i).
    replace (Z.to_nat (Z.of_nat (grp chg i) - 1)) with (grp chg i - 1) by lia.
    rewrite CNT; auto; [|unfold ei; rewrite grp_set, set_N; fold chg; lia].
    f_equal. transitivity (cnt n (fun k => grp (fun k => match k with 0 => true | S j => differ eqb (sv k) (sv j) end) k
                                <=? grp (fun k => match k with 0 => true | S j => differ eqb (sv k) (sv j) end) i - 1)).
    { apply cnt_ext. intros k _. unfold ei. rewrite grp_set. fold chg. now rewrite !GRP. }
    rewrite (group_less (leo leb) (differ eqb) proper (leo_total leb TO) (leo_trans leb TO) (leo_differ leb eqb TO EQ)
              (leo_below leb) sv n SO i I1 Pi).
    rewrite (cnt_list sv n (fun y => negb (leo leb (sv i) y))).
    rewrite <- (Permutation_length (filter_perm (fun y => negb (leo leb (sv i) y)) _ _ PL)), Ei.
    rewrite filter_numbers by reflexivity. rewrite map_length. reflexivity. }
  assert (Q3 : at_ g ei = Z.of_nat (rank_dense leb dec x (numbers (line a N e)))).
  { rewrite Vgi, GRP. f_equal. symmetry. unfold rank_dense. cbn [plus].
    rewrite <- (group_dense (leo leb) (differ eqb) proper (leo_total leb TO) (leo_trans leb TO) (leo_differ leb eqb TO EQ)
              (leo_below leb) sv n SO (leo_antisym leb TO) (deco dec) i I1 Pi).
    f_equal. rewrite <- (nodup_perm (deco dec) _ _ (filter_perm (fun y => negb (leo leb (sv i) y)) _ _ PL)), Ei.
    rewrite filter_numbers by reflexivity. rewrite nodup_some. reflexivity. }
  rewrite Q1, Q2, Q3. now apply rank_number.
Qed.
End Ranked.

Definition kept (sh : shape) (l : list string) : shape := filter (fun kv => negb (smem (fst kv) l)) sh.

Lemma in_kept sh l ax n : In (ax, n) (kept sh l) <-> In (ax, n) sh /\ ~ In ax l.
Proof.
  unfold kept. rewrite filter_In. cbn [fst]. rewrite negb_true_iff. split; intros [I M]; split; auto.
  - intros J. apply smem_In in J. congruence.
  - destruct (smem ax l) eqn:E; auto. apply smem_In in E. contradiction.
Qed.

Lemma key_size {V} (d : dict V) k : In k (dkeys d) -> exists v, In (k, v) d.
Proof. unfold dkeys. intros H. apply in_map_iff in H as [[k' v] [E I]]. cbn in E. subst. eauto. Qed.

Lemma set_env_other (e : env) ax i x : x <> ax -> set_env e ax i x = e x.
Proof. intros D. unfold set_env. destruct (String.eqb_spec x ax); congruence. Qed.

Lemma total_one (sh : shape) ax : In ax (dkeys sh) -> total_size sh [ax] = size_of sh ax.
Proof. intros I. rewrite <- prod_total_size by (intros y [<-|[]]; auto). cbn [map prod]. unfold prod; cbn. lia. Qed.

Lemma flattened_spec {B} (b : sarr B) l : wf b -> rankable (sshape b) l ->
  exists c, flattened b l = Ok (flat_name l, c) /\ shaped (flat_name l) (kept (sshape b) l) c (total_size (sshape b) l) /\
    (forall e, inside_but e (sshape b) l -> line c (flat_name l) e = map (at_ b) (fibre (sshape b) l e)) /\
    (forall e, inside e (sshape b) -> at_ c (flat_position (sshape b) l e) = at_ b e /\
       flat_position (sshape b) l e (flat_name l) < total_size (sshape b) l).
Proof.
  intros W (NE & ND & IN & TZ & OK).
  assert (KD : NoDup (dkeys (sshape b))) by now apply wf_nodup.
  assert (LT : forall e, inside e (sshape b) -> row_major (map (size_of (sshape b)) l) (map e l) < total_size (sshape b) l).
  { intros e I. assert (F := fibre_nth b l e e ND).
    assert (row_major (map (size_of (sshape b)) l) (map e l) < length (map (at_ b) (fibre (sshape b) l e))).
    { apply nth_error_Some. rewrite F; try discriminate; auto.
      intros ax H. apply IN in H. apply key_size in H as [n H]. rewrite (size_of_In _ _ n) by auto. now apply I. }
    rewrite map_length, fibre_length in H. now rewrite <- prod_total_size. }
  destruct l as [|x [|y l0]]; [congruence| |].
  - exists b. cbn [flattened]. change (flat_name [x]) with x. split; auto.
    assert (Ix : In x (dkeys (sshape b))) by (apply IN; simpl; auto).
    assert (exists n, In (x, n) (sshape b)) as [n Hn] by now apply key_size.
    assert (Sx : size_of (sshape b) x = n) by now apply size_of_In.
    split; [|split].
    + split; auto. intros ax k. rewrite in_kept, total_one, Sx by auto. split.
      * intros I. destruct (string_dec ax x) as [->|D]; [left; split; auto|right; split; auto; intros [|[]]; congruence].
        assert (size_of (sshape b) x = k) by now apply size_of_In. congruence.
      * intros [[-> ->]|[I _]]; auto.
    + intros e _. unfold line. now rewrite fibre_one, map_map.
    + intros e I. unfold flat_position. change (flat_name [x]) with x. cbn [map]. rewrite row_major_one. split.
      * apply at_set_same.
      * rewrite set_N, total_one, Sx by auto. now apply I.
  - set (l := x :: y :: l0) in *.
    assert (S : sortable b l).
    { split; [auto|split; [auto|split; [|auto]]]. rewrite <- wf_keys by auto. exact IN. }
    destruct (proj2 (combine_axes_success b l (flat_name l) W)) as [c Ec].
    { split; auto. split; [apply S|apply S]. }
    exists c. split.
    { unfold flattened. unfold l. fold l. cbn [flatten_axes]. change (flatten_axes l) with (Ok (flat_name l)). cbn [bind]. now rewrite Ec. }
    destruct (combine_axes_spec b l (flat_name l) c W Ec) as (Wc & Ac & Sc & Vc).
    split; [|split].
    + split; auto. intros ax k. rewrite Sc, in_kept. tauto.
    + intros e I. now apply (combine_axes_line b l (flat_name l) c e W Ec).
    + intros e I. specialize (LT e I). split.
      * apply Vc; auto.
        { intros ax k H. apply Sc in H as [[H NI]|[-> ->]].
          - unfold flat_position. rewrite set_env_other; [now apply I|]. apply (OK ax k); auto.
          - unfold flat_position. now rewrite set_N. }
        { intros ax H NI. unfold flat_position. rewrite set_env_other; auto.
          rewrite <- wf_keys in H by auto. apply key_size in H as [k H]. apply (OK ax k); auto. }
        { unfold flat_position. rewrite set_N. f_equal. apply map_ext_in. intros ax H. apply IN, key_size in H as [k H].
          rewrite (size_of_In _ _ k) by auto. now rewrite (dget_NoDup _ _ k). }
      * unfold flat_position. now rewrite set_N.
Qed.

Section Rankdata.
Context {A : Type} (leb : A -> A -> bool) (eqb : A -> A -> bool) (dec : forall x y : A, {x = y} + {x <> y}).
Hypothesis TO : total_order leb.
Hypothesis EQ : forall x y, eqb x y = true <-> x = y.
Context (arg1 : list (option A) -> list nat) (arg_int : list Z -> list nat).
Hypothesis AS : argsorts (nan_last leb) arg1.
Hypothesis AI : argsorts Z.le arg_int.

Lemma kept_name sh l : NoDup (dkeys sh) -> rankable sh l ->
  ~ In (flat_name l) (dkeys (kept sh l)) /\ NoDup (dkeys (kept sh l)) /\ forall ax n, In (ax, n) (kept sh l) -> n <> 0.
Proof.
  intros ND (_ & _ & _ & _ & OK). split; [|split].
  - intros H. apply key_size in H as [n H]. apply in_kept in H as [I J]. now apply (OK _ n I J).
  - unfold kept. now apply (nodup_filter_keys (fun k => negb (smem k l))).
  - intros ax n H. apply in_kept in H as [I J]. now apply (OK _ _ I J).
Qed.

Lemma kept_inside e sh l : inside e sh -> rankable sh l -> inside (flat_position sh l e) (kept sh l).
Proof.
  intros I (_ & _ & _ & _ & OK) ax n H. apply in_kept in H as [H J]. unfold flat_position.
  rewrite set_env_other; [now apply I|]. now apply (OK ax n).
Qed.

Lemma rank_flat method (b : sarr (option A)) l : smem method methods = true -> wf b -> rankable (sshape b) l ->
  exists c r, flattened b l = Ok (flat_name l, c) /\ rank_axis arg1 arg_int eqb method c (flat_name l) = Ok r /\
    shaped (flat_name l) (kept (sshape b) l) r (total_size (sshape b) l) /\
    forall e x, inside e (sshape b) -> at_ b e = Some x ->
      Some (at_ r (flat_position (sshape b) l e)) =
      rank_of leb dec method x (numbers (map (at_ b) (fibre (sshape b) l e))).
Proof.
  intros M W R. destruct (kept_name (sshape b) l) as (NO & ND & NZ); auto; [now apply wf_nodup|].
  destruct (flattened_spec b l W R) as (c & Ec & Hc & Lc & Vc).
  destruct (rank_axis_spec leb eqb dec TO EQ arg1 arg_int AS AI (flat_name l) (kept (sshape b) l) NO NZ method c
              (total_size (sshape b) l)) as (r & Er & Hr & Vr); auto; [apply R|].
  exists c, r. split; auto. split; auto. split; auto.
  intros e x I Ex. destruct (Vc e I) as [V1 V2].
  rewrite (Vr _ x); auto; [|now apply kept_inside|congruence].
  do 2 f_equal. unfold flat_position. rewrite line_set. apply Lc. intros ax n H _. now apply I.
Qed.

Lemma shaped_flat {B} (r : sarr B) sh l : shaped (flat_name l) (kept sh l) r (total_size sh l) -> flat_shape sh l (sshape r).
Proof. intros [_ H] ax n. rewrite H, in_kept. tauto. Qed.

Theorem rankdata_spec method (a : sarr (option A)) axis (v : bool) :
  smem method methods = true -> wf a ->
  let l := match axis with Some l => l | None => s_axes a end in rankable (sshape a) l ->
  exists r, rankdata arg1 arg_int eqb a axis method (OpNum v) = Ok r /\ wf r /\ flat_shape (sshape a) l (sshape r) /\
    forall e x, inside e (sshape a) -> at_ a e = Some x ->
      at_ r (flat_position (sshape a) l e) = rank_of leb dec method x (numbers (map (at_ a) (fibre (sshape a) l e))).
Proof.
  intros M W l R. unfold rankdata. rewrite M. cbn [negb].
  replace (axis_normalized a axis) with l by (destruct axis; reflexivity).
  destruct (rank_flat method a l M W R) as (c & r & Ec & Er & Hr & Vr). rewrite Ec. cbn [bind]. rewrite Er. cbn [bind].
  destruct (shaped_map1 (flat_name l) (kept (sshape a) l) (@Some Qc) None r _ Hr) as (q & Eq & Hq & Vq).
  exists q. split; auto. split; [apply Hq|]. split; [now apply shaped_flat|].
  intros e x I Ex. rewrite Vq; [now apply Vr|now apply kept_inside|].
  destruct (flattened_spec a l W R) as (c' & _ & _ & _ & V). now apply V.
Qed.

Lemma numbers_filter {T} (w : T -> bool) (f : T -> option A) l :
  numbers (map (fun x => if w x then f x else None) l) = numbers (map f (filter w l)).
Proof.
  unfold numbers. induction l as [|x l IH]; auto. cbn [map filter flat_map]. rewrite IH.
  destruct (w x); reflexivity.
Qed.

Theorem rankdata_masked method (a : sarr (option A)) (w : sarr bool) axis sh :
  smem method methods = true -> wf a -> wf w -> broadcast_shapes [sshape a; sshape w] = Ok sh ->
  let l := match axis with Some l => l | None => dkeys sh end in rankable sh l ->
  exists r, rankdata arg1 arg_int eqb a axis method (OpArr w) = Ok r /\ wf r /\ flat_shape sh l (sshape r) /\
    forall e, inside e sh ->
      (bat w e = false -> at_ r (flat_position sh l e) = None) /\
      (forall x, bat w e = true -> bat a e = Some x ->
         at_ r (flat_position sh l e) = rank_of leb dec method x (numbers (map (bat a) (filter (bat w) (fibre sh l e))))).
Proof.
  intros M W Ww B l R. unfold rankdata. rewrite M, B. cbn [negb bind].
  assert (NN : Forall (fun s : shape => NoDup (dkeys s)) [sshape a; sshape w])
    by (constructor; [now apply wf_nodup|constructor; [now apply wf_nodup|constructor]]).
  destruct (broadcast_shapes_ok _ _ NN B) as (ND & K & S).
  assert (IC : forall T (z : sarr T), wf z -> In (sshape z) [sshape a; sshape w] ->
     exists y, na_broadcast_to z sh false = Ok y /\ wf y /\ sshape y = sh /\ forall e, at_ y e = bat z e).
  { intros T z Wz Hz. destruct (na_broadcast_to_intro z sh) as [y Ey]; auto.
    - rewrite K, <- wf_keys by auto. intros ax H. apply first_appearance_In. apply in_concat. exists (dkeys (sshape z)).
      split; auto. now apply in_map.
    - intros ax n H. destruct (Nat.eq_dec n 1) as [|D]; auto. right. destruct (broadcast_covers _ _ (sshape z) ax n NN B Hz (dget_In _ _ _ H)) as [_ [X|X]]; auto; contradiction.
    - exists y. split; auto. destruct (na_broadcast_to_ok z sh y Wz ND Ey) as (_ & _ & X1 & X2 & X3). auto. }
  destruct (IC _ a W) as (b & Eb & Wb & Sb & Vb); [simpl; auto|]. rewrite Eb. cbn [bind].
  destruct (IC _ w Ww) as (u & Eu & Wu & Su & Vu); [simpl; auto|]. rewrite Eu. cbn [bind].
  assert (WS := where_spec (OpArr u) (OpArr b) (OpNum None) Wu Wb Logic.I). cbn [op_shape] in WS.
  rewrite Su, Sb in WS. rewrite (bs_dominated sh) in WS; auto.
  2:{ intros s [<-|[<-|[]]]; split; auto; [apply incl_refl|constructor|intros z []]. }
  destruct WS as (c & Ew & Wc & Sc & Vc). rewrite Ew. cbn [bind].
  replace (axis_normalized c axis) with l.
  2:{ unfold axis_normalized, l. destruct axis; auto. now rewrite <- wf_keys, Sc. }
  assert (Rc : rankable (sshape c) l) by now rewrite Sc.
  destruct (rank_flat method c l M Wc Rc) as (f & r & Ef & Er & Hr & Vr). rewrite Ef. cbn [bind].
  assert (Ru : rankable (sshape u) l) by now rewrite Su.
  destruct (flattened_spec u l Wu Ru) as (fu & Efu & Hfu & _ & Vfu). rewrite Efu. cbn [bind snd]. rewrite Er. cbn [bind].
  rewrite Sc in Hr, Vr. rewrite Su in Hfu, Vfu.
  destruct (shaped_map1 (flat_name l) (kept sh l) (@Some Qc) None r _ Hr) as (q & Eq & Hq & Vq). rewrite Eq. cbn [bind].
  assert (WS := where_spec (OpArr fu) (OpArr q) (OpNum None) (proj1 Hfu) (proj1 Hq) Logic.I). cbn [op_shape] in WS.
  rewrite (bs_dominated (sshape fu)) in WS.
  2:{ apply wf_nodup, Hfu. }
  2:{ intros s [<-|[<-|[]]]; split; [apply wf_nodup, Hq| |constructor|intros z []].
      intros [ax n] H. apply (proj2 Hfu). now apply (proj2 Hq). }
  destruct WS as (res & Eres & Wres & Sres & Vres). exists res. split; auto. split; auto.
  split; [rewrite Sres; now apply shaped_flat|].
  intros e I. destruct (Vfu e I) as [F1 F2].
  assert (IF : inside (flat_position sh l e) (kept sh l)) by now apply kept_inside.
  assert (OU : op_at (OpArr fu) (flat_position sh l e) = bat w e).
  { cbn [op_at]. rewrite bat_inside; [now rewrite F1|apply Hfu|].
    apply (shaped_inside (flat_name l) (kept sh l) fu _ _ Hfu). auto. }
  assert (OQ : op_at (OpArr q) (flat_position sh l e) = Some (at_ r (flat_position sh l e))).
  { cbn [op_at]. rewrite bat_inside; [now apply Vq|apply Hq|].
    apply (shaped_inside (flat_name l) (kept sh l) q _ _ Hq). auto. }
  assert (CV : forall e', inside e' sh -> at_ c e' = if bat w e' then bat a e' else None).
  { intros e' I'. rewrite Vc. cbn [op_at]. rewrite !bat_inside by (rewrite ?Su, ?Sb; auto). now rewrite Vu, Vb. }
  rewrite Vres, OU, OQ. cbn [op_at]. split.
  - now intros ->.
  - intros x Hw Ha. rewrite Hw. rewrite (Vr e x); auto.
    + f_equal. rewrite <- numbers_filter. f_equal. apply map_ext_in. intros e' H. apply CV.
      destruct (fibre_inside _ _ _ _ H) as [H1 H2]. intros ax n Hn.
      destruct (in_dec string_dec ax l) as [J|J]; [|rewrite H2 by auto; now apply I].
      rewrite <- (size_of_In sh ax n) by auto. now apply H1.
    + now rewrite CV, Hw.
Qed.
End Rankdata.

(** sorting by insertion *)
Definition arg_by {T} (leb : T -> T -> bool) (d : T) (l : list T) : list nat :=
  isort (fun i j => leb (nth i l d) (nth j l d)) (seq 0 (length l)).

Lemma arg_by_argsorts {T} (leb : T -> T -> bool) (d : T) (le : T -> T -> Prop) :
  (forall x y, leb x y = true \/ leb y x = true) -> (forall x y z, leb x y = true -> leb y z = true -> leb x z = true) ->
  (forall x y, leb x y = true -> le x y) -> argsorts le (arg_by leb d).
Proof.
  intros T1 T2 T3 l. destruct (isort_sorts (fun i j => leb (nth i l d) (nth j l d))) with (l := seq 0 (length l)) as [P S].
  - auto.
  - eauto.
  - split; auto. clear P. unfold arg_by. induction S as [|i m S IH F]; constructor; auto.
    eapply Forall_impl; [|exact F]. intros j H x y Hx Hy. cbv beta in H.
    apply (nth_error_nth _ _ d) in Hx, Hy. rewrite Hx, Hy in H. auto.
Qed.

Lemma rankdata_method {A} (arg1 : list (option A) -> list nat) arg_int eqb a axis method w :
  ~ In method ["average"; "min"; "max"; "dense"]%string -> rankdata arg1 arg_int eqb a axis method w = Err ValueError.
Proof.
  intros H. unfold rankdata. destruct (smem method methods) eqn:E; auto. apply smem_In in E. contradiction.
Qed.

Lemma rankdata_conflict {A} (arg1 : list (option A) -> list nat) arg_int eqb a axis method w : wf a -> wf w ->
  conflict [sshape a; sshape w] -> rankdata arg1 arg_int eqb a axis method (OpArr w) = Err ValueError.
Proof.
  intros W Ww C. unfold rankdata. destruct (negb _); auto.
  rewrite (proj1 (broadcast_shapes_conflict [sshape a; sshape w] ltac:(constructor; [now apply wf_nodup|constructor; [now apply wf_nodup|constructor]])) C).
  reflexivity.
Qed.

Definition z_order (x y : option Z) : bool := leo Z.leb x y.

Lemma z_total : total_order Z.leb.
Proof. split; [|split]; intros *; rewrite ?Z.leb_le; lia. Qed.

Lemma z_argsorts : argsorts (nan_last Z.leb) (arg_by z_order None).
Proof.
  apply arg_by_argsorts.
  - apply leo_total, z_total.
  - apply leo_trans, z_total.
  - intros x y H. now apply leo_spec.
Qed.

Lemma zint_argsorts : argsorts Z.le (arg_by Z.leb 0%Z).
Proof. apply arg_by_argsorts; intros *; rewrite ?Z.leb_le; lia. Qed.
