From Coq Require Import String List Arith ZArith Bool Lia Field_theory Field.
From Verif Require Import Base Numpy Shapes Scalar Elementwise Matrix Convolve Spec SpecMatrix SpecConvolve.
From Verif Require Import SpecVectorReduce BaseFacts ShapesFacts AlignFacts VectorReduceFacts.
Import ListNotations.
Open Scope nat_scope.
Open Scope list_scope.

Section Facts.
Context {F : Type} (K : arith F) (FK : is_field K).
Let Fth : field_theory (zero K) (one K) (plus K) (times K) (minus K) (neg K) (over K) (over K (one K)) eq := proj1 FK.
Add Field Kf86 : Fth.
Notation sum_below := (sum_below K).
Notation pairs := (pairs K).

Lemma sum_below_ext n f g : (forall i, i < n -> f i = g i) -> sum_below n f = sum_below n g.
Proof. induction n as [|n IH]; intros H; [reflexivity|]. cbn. rewrite IH by (intros; apply H; lia). now rewrite H by lia. Qed.
Lemma sum_below_zero n : sum_below n (fun _ => zero K) = zero K.
Proof. induction n as [|n IH]; [reflexivity|]. cbn. rewrite IH. ring. Qed.
Lemma sum_below_plus n f g : sum_below n (fun i => plus K (f i) (g i)) = plus K (sum_below n f) (sum_below n g).
Proof. induction n as [|n IH]; cbn; [ring|]. rewrite IH. ring. Qed.
Lemma sum_below_times n f c : sum_below n (fun i => times K c (f i)) = times K c (sum_below n f).
Proof. induction n as [|n IH]; cbn; [ring|]. rewrite IH. ring. Qed.
Lemma sum_below_swap n m f : sum_below n (fun i => sum_below m (fun j => f i j)) = sum_below m (fun j => sum_below n (fun i => f i j)).
Proof.
  induction n as [|n IH]; cbn; [now rewrite sum_below_zero|]. rewrite IH. now rewrite <- sum_below_plus.
Qed.
Lemma sum_below_at n c f : c < n -> sum_below n (fun i => if i =? c then f i else zero K) = f c.
Proof.
  induction n as [|n IH]; [lia|]. intros H. cbn. destruct (Nat.eqb_spec n c) as [->|Hn].
  - rewrite (sum_below_ext c _ (fun _ => zero K)); [rewrite sum_below_zero; ring|]. intros i Hi. destruct (Nat.eqb_spec i c); [lia|reflexivity].
  - rewrite IH by lia. ring.
Qed.
Lemma sum_below_none n f P : (forall i, i < n -> P i = false) -> sum_below n (fun i => if (P i : bool) then f i else zero K) = zero K.
Proof. intros H. rewrite (sum_below_ext n _ (fun _ => zero K)); [apply sum_below_zero|]. intros i Hi. now rewrite H. Qed.

Lemma inner_pairs m i k f : sum_below m (fun j => if i + j =? k then f j else zero K) = if (i <=? k) && (k - i <? m) then f (k - i) else zero K.
Proof.
  destruct (Nat.leb_spec i k) as [Hi|Hi]; cbn [andb].
  - rewrite (sum_below_ext m _ (fun j => if j =? k - i then f j else zero K)).
    + destruct (Nat.ltb_spec (k - i) m) as [Hm|Hm]; [now apply sum_below_at|]. apply sum_below_none. intros j Hj. apply Nat.eqb_neq. lia.
    + intros j _. destruct (Nat.eqb_spec (i + j) k), (Nat.eqb_spec j (k - i)); try reflexivity; lia.
  - apply sum_below_none. intros j Hj. apply Nat.eqb_neq. lia.
Qed.

Lemma fold_app l l' : fold_right (plus K) (zero K) (l ++ l') = plus K (fold_right (plus K) (zero K) l) (fold_right (plus K) (zero K) l').
Proof. induction l as [|x l IH]; cbn; [ring|]. rewrite IH. ring. Qed.

Lemma range_sum n lo len f : lo + len <= n ->
  fold_right (plus K) (zero K) (map f (seq lo len)) = sum_below n (fun i => if (lo <=? i) && (i <? lo + len) then f i else zero K).
Proof.
  induction len as [|len IH]; intros H.
  - symmetry. apply sum_below_none. intros i Hi. destruct (Nat.leb_spec lo i), (Nat.ltb_spec i (lo + 0)); try reflexivity; lia.
  - rewrite seq_S, map_app, fold_app, IH by lia. cbn [map fold_right].
    rewrite <- (sum_below_at n (lo + len) f) by lia. replace (plus K (sum_below n (fun i => if i =? lo + len then f i else zero K)) (zero K)) with (sum_below n (fun i => if i =? lo + len then f i else zero K)) by ring.
    rewrite <- sum_below_plus. apply sum_below_ext. intros i Hi.
    destruct (Nat.leb_spec lo i), (Nat.ltb_spec i (lo + len)), (Nat.ltb_spec i (lo + S len)), (Nat.eqb_spec i (lo + len)); cbn [andb]; try lia; ring.
Qed.

Lemma overlap_pairs a v k : a <> [] -> v <> [] -> k < length a + length v - 1 ->
  overlap K a v k = pairs (length a) (length v) (fun i => nth i a (zero K)) (fun j => nth j v (zero K)) k.
Proof.
  intros Ha Hv Hk. destruct a as [|a0 a]; [easy|]. destruct v as [|v0 v]; [easy|]. set (la := a0 :: a) in *. set (lv := v0 :: v) in *.
  assert (La : 1 <= length la) by (cbn; lia). assert (Lv : 1 <= length lv) by (cbn; lia). clearbody la lv.
  unfold overlap, SpecConvolve.pairs. rewrite (range_sum (length la)) by lia. apply sum_below_ext. intros i Hi. rewrite inner_pairs.
  destruct (Nat.leb_spec (k - (length lv - 1)) i), (Nat.ltb_spec i (k - (length lv - 1) + (S (Nat.min k (length la - 1)) - (k - (length lv - 1))))),
    (Nat.leb_spec i k), (Nat.ltb_spec (k - i) (length lv)); cbn [andb]; try reflexivity; lia.
Qed.

Lemma pairs_swap n m a v k : pairs n m a v k = pairs m n v a k.
Proof.
  unfold SpecConvolve.pairs. rewrite sum_below_swap. apply sum_below_ext. intros j _. apply sum_below_ext. intros i _. rewrite (Nat.add_comm i j). destruct (j + i =? k); [ring|reflexivity].
Qed.

Lemma pairs_ext n m a v a' v' k : (forall i, i < n -> a i = a' i) -> (forall j, j < m -> v j = v' j) -> pairs n m a v k = pairs n m a' v' k.
Proof. intros Ha Hv. apply sum_below_ext. intros i Hi. apply sum_below_ext. intros j Hj. now rewrite Ha, Hv. Qed.

Theorem np_convolve_ok mode a v : a <> [] -> v <> [] ->
  np_convolve K mode a v = Ok (map (fun k => pairs (length a) (length v) (fun i => nth i a (zero K)) (fun j => nth j v (zero K)) (first_kept mode (length a) (length v) + k)) (seq 0 (kept mode (length a) (length v)))).
Proof.
  assert (Main : forall a v, a <> [] -> v <> [] -> length v <= length a ->
    np_convolve K mode a v = Ok (map (fun k => pairs (length a) (length v) (fun i => nth i a (zero K)) (fun j => nth j v (zero K)) (first_kept mode (length a) (length v) + k)) (seq 0 (kept mode (length a) (length v))))).
  { clear a v. intros a v Ha Hv L. unfold np_convolve. destruct (Nat.ltb_spec (length a) (length v)) as [|_]; [lia|].
    destruct v as [|v0 v']; [easy|]. set (v := v0 :: v') in *. assert (Lv : 1 <= length v) by (cbn; lia). clearbody v. clear v0 v'.
    assert (Go : forall start size, start + size <= length a + length v - 1 ->
      map (overlap K a v) (seq start size) = map (fun k => pairs (length a) (length v) (fun i => nth i a (zero K)) (fun j => nth j v (zero K)) (start + k)) (seq 0 size)).
    { intros start size H. replace (seq start size) with (map (fun k => start + k) (seq 0 size)).
      - rewrite map_map. apply map_ext_in. intros k Hk. apply in_seq in Hk. apply overlap_pairs; [exact Ha|exact Hv|lia].
      - clear H. revert start. induction size as [|size IH]; intros start; [reflexivity|]. cbn [seq map]. f_equal; [lia|]. rewrite <- seq_shift, map_map. rewrite <- (IH (S start)). apply map_ext. intros k. lia. }
    destruct mode; cbn [first_kept kept].
    - rewrite Go by lia. reflexivity.
    - rewrite Go.
      + rewrite Nat.min_r, Nat.max_l by lia. f_equal. apply map_ext. intros k. f_equal. f_equal.
        clear -Lv. assert (E := Nat.div_mod (length v) 2). assert (E' := Nat.div_mod (length v - 1) 2). assert (M := Nat.mod_upper_bound (length v) 2). assert (M' := Nat.mod_upper_bound (length v - 1) 2). lia.
      + assert (E := Nat.div_mod (length v) 2). assert (M := Nat.mod_upper_bound (length v) 2). lia.
    - rewrite Go by lia. rewrite Nat.min_r, Nat.max_l by lia. reflexivity. }
  intros Ha Hv. destruct (Nat.le_gt_cases (length v) (length a)) as [L|L]; [now apply Main|].
  assert (E : np_convolve K mode a v = np_convolve K mode v a).
  { unfold np_convolve. destruct (Nat.ltb_spec (length a) (length v)); [|lia]. destruct (Nat.ltb_spec (length v) (length a)); [lia|reflexivity]. }
  rewrite E, Main by (auto; lia). f_equal. assert (Ek : kept mode (length v) (length a) = kept mode (length a) (length v)) by (destruct mode; cbn; lia).
  assert (Ef : first_kept mode (length v) (length a) = first_kept mode (length a) (length v)) by (destruct mode; cbn [first_kept]; rewrite ?(Nat.min_comm (length v)); reflexivity).
  rewrite Ek, Ef. apply map_ext. intros k. apply pairs_swap.
Qed.

(** the elements of an operand along an axis *)
Lemma line_of x (o : operand F) : along x o -> exists l, np_line (s_nd (normalize o)) = Ok l /\ length l = long o /\ forall i, i < long o -> nth i l (zero K) = element o i.
Proof.
  intros (W & H). destruct o as [a|y].
  - cbn [normalize op_shape op_wf] in *. unfold np_line, long, element, op_at, bat, at_. cbn [op_shape]. destruct W as (Nd & L).
    destruct a as [[sh g] axes]. cbn [s_nd s_axes nshape nget sshape] in *. unfold sshape in *. cbn [s_nd s_axes nshape] in *.
    destruct H as [H|(n & H)].
    + assert (axes = [] /\ sh = []) as (-> & ->) by (destruct axes, sh; try discriminate; auto). eexists. split; [reflexivity|]. split; [reflexivity|].
      intros i Hi. cbn in *. assert (i = 0) as -> by lia. reflexivity.
    + destruct axes as [|ax [|]], sh as [|m [|]]; try discriminate. cbn in H. injection H as -> ->. eexists. split; [reflexivity|]. cbn [combine].
      split; [now rewrite map_length, seq_length|]. intros i Hi. cbn [map]. unfold bclamp. cbn [dget]. rewrite String.eqb_refl.
      rewrite (nth_indep _ _ ((fun i => g [i]) 0)) by now rewrite map_length, seq_length. rewrite (map_nth (fun i => g [i])), seq_nth by exact Hi.
      destruct n as [|[|n]]; [lia| |reflexivity]. replace i with 0 by lia. reflexivity.
  - cbn. eexists. split; [reflexivity|]. split; [reflexivity|]. intros i Hi. assert (i = 0) as -> by lia. reflexivity.
Qed.

Lemma normal_shape (o : operand F) : sshape (normalize o) = op_shape o.
Proof. destruct o; reflexivity. Qed.

Lemma joint_line x (a v : operand F) : along x a -> along x v -> long a = long v \/ long a = 1 \/ long v = 1 ->
  shape_broadcasted [OpArr (normalize a); OpArr (normalize v)] =
  Ok (match op_shape a, op_shape v with [], [] => [] | _, _ => [(x, if long a =? 1 then long v else long a)] end).
Proof.
  intros (_ & Ha) (_ & Hv) H. unfold shape_broadcasted, op_shapes, broadcast_shapes. cbn [flat_map app]. rewrite !normal_shape. unfold long in *.
  destruct Ha as [Ea|(n & Ea)], Hv as [Ev|(m & Ev)]; rewrite Ea, Ev in *; cbn [foldM bind bs_shape].
  - reflexivity.
  - unfold bs_shape. cbn. reflexivity.
  - unfold bs_shape. cbn. destruct (Nat.eqb_spec n 1) as [->|]; reflexivity.
  - unfold bs_shape, dict_eqb. cbn. rewrite String.eqb_refl. cbn [andb]. rewrite andb_true_r. destruct (Nat.eqb_spec n m) as [->|Hnm]; cbn [bind foldM].
    + destruct (m =? 1); reflexivity.
    + destruct (Nat.eqb_spec m 1) as [->|].
      * destruct (Nat.eqb_spec n 1); [lia|reflexivity].
      * destruct (Nat.eqb_spec n 1); [reflexivity|lia].
Qed.

Lemma joint_line_error x (a v : operand F) : along x a -> along x v -> long a <> long v -> long a <> 1 -> long v <> 1 ->
  shape_broadcasted [OpArr (normalize a); OpArr (normalize v)] = Err ValueError.
Proof.
  intros (_ & Ha) (_ & Hv) H1 H2 H3. unfold shape_broadcasted, op_shapes, broadcast_shapes. cbn [flat_map app]. rewrite !normal_shape. unfold long in *.
  destruct Ha as [E|(n & E)]; rewrite E in *; [lia|]. destruct Hv as [E'|(m & E')]; rewrite E' in *; [lia|].
  cbn [foldM bind]. unfold bs_shape, dict_eqb. cbn. rewrite String.eqb_refl. destruct (Nat.eqb_spec n m); [lia|]. cbn. destruct (Nat.eqb_spec m 1); [lia|]. destruct (Nat.eqb_spec n 1); [lia|]. reflexivity.
Qed.

(** what the convolution is, for lengths that broadcast *)
Theorem convolve_ok x mode (a v : operand F) : along x a -> along x v -> 1 <= long a -> 1 <= long v -> long a = long v \/ long a = 1 \/ long v = 1 ->
  exists c, na_convolve K mode a v = Ok c /\ along x (OpArr c) /\ (sshape c = [] <-> op_shape a = [] /\ op_shape v = []) /\
    long (OpArr c) = kept mode (long a) (long v) /\
    forall k, k < kept mode (long a) (long v) -> element (OpArr c) k = pairs (long a) (long v) (element a) (element v) (first_kept mode (long a) (long v) + k).
Proof.
  intros Aa Av La Lv H. unfold na_convolve. cbv zeta. rewrite (joint_line x a v Aa Av H). cbn [bind].
  destruct (line_of x a Aa) as (la & Ea & Na & Ra). destruct (line_of x v Av) as (lv & Ev & Nv & Rv).
  rewrite Ea, Ev. cbn [bind]. assert (Ha : la <> []) by (intros ->; cbn in Na; lia). assert (Hv : lv <> []) by (intros ->; cbn in Nv; lia).
  rewrite (np_convolve_ok mode la lv Ha Hv). cbn [bind]. rewrite Na, Nv.
  set (L := kept mode (long a) (long v)). set (r := map _ _).
  assert (Nr : length r = L) by (unfold r; now rewrite map_length, seq_length).
  assert (Rr : forall k, k < L -> nth k r (zero K) = pairs (long a) (long v) (element a) (element v) (first_kept mode (long a) (long v) + k)).
  { intros k Hk. unfold r. rewrite (nth_indep _ _ ((fun k => pairs (long a) (long v) (fun i => nth i la (zero K)) (fun j => nth j lv (zero K)) (first_kept mode (long a) (long v) + k)) 0)) by now rewrite map_length, seq_length.
    rewrite (map_nth (fun k => pairs (long a) (long v) (fun i => nth i la (zero K)) (fun j => nth j lv (zero K)) (first_kept mode (long a) (long v) + k))), seq_nth by exact Hk.
    apply pairs_ext; [exact Ra|exact Rv]. }
  clearbody r.
  assert (LL : 1 <= L) by (unfold L; destruct mode; cbn; lia).
  assert (Arr : let c := mkS (of_list (zero K) [length r] r) [x] in along x (OpArr c) /\ long (OpArr c) = L /\ forall k, k < L -> element (OpArr c) k = nth k r (zero K)).
  { cbv zeta. split; [|split].
    - split; [split; [constructor; [intros []|constructor]|reflexivity]|]. right. eexists. reflexivity.
    - unfold long. cbn. exact Nr.
    - intros k Hk. unfold element, op_at, bat, at_, sshape, bclamp. cbn. rewrite String.eqb_refl. rewrite Nr. replace (L =? 1) with (L =? 1) by reflexivity.
      destruct L as [|[|L']]; [lia| |]; rewrite ?Nat.mul_1_r, ?Nat.add_0_r; [replace k with 0 by lia; reflexivity|reflexivity]. }
  destruct (op_shape a) as [|sa ra] eqn:Sa; [destruct (op_shape v) as [|sv rv] eqn:Sv|].
  - cbn [length Nat.ltb Nat.leb]. unfold mk_sarr. cbn. eexists. split; [reflexivity|].
    assert (L1 : L = 1) by (unfold L, long; rewrite Sa, Sv; destruct mode; reflexivity).
    split; [split; [split; [constructor|reflexivity]|now left]|]. split; [easy|]. split; [symmetry; exact L1|].
    intros k Hk. assert (k = 0) as -> by (rewrite L1 in Hk; lia). rewrite <- Rr by lia. reflexivity.
  - exists (mkS (of_list (zero K) [length r] r) [x]). split; [reflexivity|].
    destruct Arr as (A1 & A2 & A3). cbv zeta in *. split; [exact A1|]. split; [cbn; split; [discriminate|intros (_ & Q); discriminate]|]. split; [exact A2|]. intros k Hk. rewrite A3 by exact Hk. now apply Rr.
  - exists (mkS (of_list (zero K) [length r] r) [x]). split; [reflexivity|].
    destruct Arr as (A1 & A2 & A3). cbv zeta in *. split; [exact A1|]. split; [cbn; split; [discriminate|intros (Q & _); discriminate]|]. split; [exact A2|]. intros k Hk. rewrite A3 by exact Hk. now apply Rr.
Qed.

Theorem convolve_lengths x mode (a v : operand F) : along x a -> along x v -> long a <> long v -> long a <> 1 -> long v <> 1 ->
  na_convolve K mode a v = Err ValueError.
Proof. intros Aa Av H1 H2 H3. unfold na_convolve. cbv zeta. now rewrite (joint_line_error x a v). Qed.

(** polynomials *)
Lemma raised_add y i j : raised K y (i + j) = times K (raised K y i) (raised K y j).
Proof. induction i as [|i IH]; cbn; [ring|]. rewrite IH. ring. Qed.

Theorem pairs_polynomial n m a v y : 1 <= n -> 1 <= m ->
  polynomial K (n + m - 1) (pairs n m a v) y = times K (polynomial K n a y) (polynomial K m v y).
Proof.
  intros Hn Hm. unfold polynomial, SpecConvolve.pairs.
  transitivity (sum_below (n + m - 1) (fun k => sum_below n (fun i => sum_below m (fun j => if k =? i + j then times K (times K (a i) (v j)) (raised K y k) else zero K)))).
  { apply sum_below_ext. intros k _. replace (times K (sum_below n (fun i => sum_below m (fun j => if i + j =? k then times K (a i) (v j) else zero K))) (raised K y k))
      with (times K (raised K y k) (sum_below n (fun i => sum_below m (fun j => if i + j =? k then times K (a i) (v j) else zero K)))) by ring.
    rewrite <- sum_below_times. apply sum_below_ext. intros i _. rewrite <- sum_below_times. apply sum_below_ext. intros j _. rewrite (Nat.eqb_sym k). destruct (i + j =? k); ring. }
  rewrite sum_below_swap. transitivity (sum_below n (fun i => times K (times K (a i) (raised K y i)) (sum_below m (fun j => times K (v j) (raised K y j))))).
  - apply sum_below_ext. intros i Hi. rewrite sum_below_swap, <- sum_below_times. apply sum_below_ext. intros j Hj.
    rewrite (sum_below_at (n + m - 1) (i + j) (fun k => times K (times K (a i) (v j)) (raised K y k))) by lia. rewrite raised_add. ring.
  - rewrite (sum_below_ext n _ (fun i => times K (sum_below m (fun j => times K (v j) (raised K y j))) (times K (a i) (raised K y i)))) by (intros; ring). rewrite sum_below_times. ring.
Qed.

(** more than one axis *)
Lemma fits_line x n (s : shape) : NoDup (dkeys s) -> fits_in s [(x, n)] -> s = [] \/ exists k, s = [(x, k)].
Proof.
  intros Nd Fs. assert (K1 : forall ax k, In (ax, k) s -> ax = x) by (intros ax k Hk; destruct (Fs ax k Hk) as (m & [Q|[]] & _); now injection Q).
  destruct s as [|[ax k] [|[ax' k'] s]]; [now left| |].
  - right. rewrite (K1 ax k) by now left. eauto.
  - exfalso. rewrite (K1 ax k), (K1 ax' k') in Nd by (cbn; auto). inversion Nd as [|? ? Hn _]. apply Hn. now left.
Qed.

Theorem convolve_axes mode (a v : operand F) : op_wf a -> op_wf v -> (forall x, ~ (along x a /\ along x v)) -> na_convolve K mode a v = Err ValueError.
Proof.
  intros Wa Wv H. unfold na_convolve. cbv zeta. unfold shape_broadcasted, op_shapes. cbn [flat_map app]. rewrite !normal_shape.
  assert (Na : NoDup (dkeys (op_shape a))) by (destruct a as [a|y]; [exact (wf_nodup a Wa)|constructor]).
  assert (Nv : NoDup (dkeys (op_shape v))) by (destruct v as [v|y]; [exact (wf_nodup v Wv)|constructor]).
  assert (Nd : Forall (fun s => NoDup (dkeys s)) [op_shape a; op_shape v]) by auto.
  destruct (broadcast_shapes_total _ Nd) as [(sh & E)|E]; rewrite E; [|reflexivity]. cbn [bind].
  destruct (broadcast_joint _ sh Nd E) as (_ & Js & _). assert (Ja := Js _ (or_introl eq_refl)). assert (Jv := Js _ (or_intror (or_introl eq_refl))).
  destruct (Nat.ltb_spec 1 (length sh)) as [|L]; [reflexivity|]. exfalso. destruct sh as [|[x n] [|]]; [| |cbn in L; lia].
  - apply (H ""%string). assert (Ea : op_shape a = []) by (destruct (op_shape a) as [|[ax k] l]; [reflexivity|destruct (Ja ax k (or_introl eq_refl)) as (? & [] & _)]).
    assert (Ev : op_shape v = []) by (destruct (op_shape v) as [|[ax k] l]; [reflexivity|destruct (Jv ax k (or_introl eq_refl)) as (? & [] & _)]).
    split; (split; [assumption|now left]).
  - apply (H x). split; (split; [assumption|]); eapply fits_line; eauto.
Qed.

(** an empty array *)
Theorem convolve_empty x mode (a v : operand F) : along x a -> along x v -> long a = 0 \/ long v = 0 -> na_convolve K mode a v = Err ValueError.
Proof.
  intros Aa Av H.
  assert (Dec : (long a = long v \/ long a = 1 \/ long v = 1) \/ (long a <> long v /\ long a <> 1 /\ long v <> 1)) by lia.
  destruct Dec as [D|(D1 & D2 & D3)]; [|now apply (convolve_lengths x)].
  unfold na_convolve. cbv zeta. rewrite (joint_line x a v Aa Av D). cbn [bind].
  destruct (line_of x a Aa) as (la & Ea & Na & _). destruct (line_of x v Av) as (lv & Ev & Nv & _). rewrite Ea, Ev. cbn [bind].
  assert (E : np_convolve K mode la lv = Err ValueError).
  { unfold np_convolve. destruct (Nat.ltb_spec (length la) (length lv)) as [L|L].
    - assert (la = []) as -> by (apply length_zero_iff_nil; lia). reflexivity.
    - assert (lv = []) as -> by (apply length_zero_iff_nil; lia). reflexivity. }
  rewrite E. match goal with |- (if ?b then _ else _) = _ => destruct b; reflexivity end.
Qed.

Theorem convolve_commutes x mode (a v : operand F) : along x a -> along x v ->
  (exists c c', na_convolve K mode a v = Ok c /\ na_convolve K mode v a = Ok c' /\ long (OpArr c) = long (OpArr c') /\ forall k, k < long (OpArr c) -> element (OpArr c) k = element (OpArr c') k) \/
  (na_convolve K mode a v = Err ValueError /\ na_convolve K mode v a = Err ValueError).
Proof.
  intros Aa Av.
  assert (Dec : (long a = 0 \/ long v = 0) \/ (long a <> long v /\ long a <> 1 /\ long v <> 1) \/ (1 <= long a /\ 1 <= long v /\ (long a = long v \/ long a = 1 \/ long v = 1))) by lia.
  destruct Dec as [D|[(D1 & D2 & D3)|(L1 & L2 & D)]].
  - right. split; apply (convolve_empty x); auto. tauto.
  - right. split; apply (convolve_lengths x); auto.
  - left. destruct (convolve_ok x mode a v Aa Av L1 L2 D) as (c & E & _ & _ & Lc & R).
    destruct (convolve_ok x mode v a Av Aa L2 L1) as (c' & E' & _ & _ & Lc' & R'); [destruct D as [D|[D|D]]; auto|].
    assert (Ek : kept mode (long v) (long a) = kept mode (long a) (long v)) by (destruct mode; cbn; lia).
    assert (Ef : first_kept mode (long v) (long a) = first_kept mode (long a) (long v)) by (destruct mode; cbn [first_kept]; rewrite ?(Nat.min_comm (long v)); reflexivity).
    exists c, c'. split; [exact E|]. split; [exact E'|]. split; [congruence|]. intros k Hk. rewrite Lc in Hk. rewrite R by exact Hk. rewrite R' by (rewrite Ek; exact Hk). rewrite Ef. apply pairs_swap.
Qed.

Theorem convolve_polynomial x (a v : operand F) : along x a -> along x v -> 1 <= long a -> 1 <= long v -> long a = long v \/ long a = 1 \/ long v = 1 ->
  exists c, na_convolve K Full a v = Ok c /\
    forall y, polynomial K (long (OpArr c)) (element (OpArr c)) y = times K (polynomial K (long a) (element a) y) (polynomial K (long v) (element v) y).
Proof.
  intros Aa Av L1 L2 D. destruct (convolve_ok x Full a v Aa Av L1 L2 D) as (c & E & _ & _ & Lc & R). exists c. split; [exact E|]. intros y.
  rewrite <- pairs_polynomial by assumption. rewrite Lc. cbn [kept]. unfold polynomial. apply sum_below_ext. intros k Hk. rewrite R by exact Hk. reflexivity.
Qed.
End Facts.
