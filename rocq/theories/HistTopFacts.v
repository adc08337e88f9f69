(** Histograms with edges or numbers of bins given by the user. *)
From Coq Require Import String List Arith ZArith Bool Lia Permutation QArith Qcanon.
From Verif Require Import Base BaseFacts Numpy NumpyFacts Shapes Scalar Elementwise Reduce Derived Interp Hist Spec SpecNumeric SpecHist
  ShapesFacts AlignFacts GetitemFacts SetitemFacts ReorderFacts ReduceFacts SortingFacts AlongFacts VectorFacts VectorIndexFacts
  OptimizeFacts RankFacts RankdataFacts LinspaceFacts InterpFacts PdfFacts FuncFacts MatrixFacts UncertainIndexFacts HistFacts.
Import ListNotations.
Open Scope nat_scope.
Open Scope list_scope.

(** ** Lists side by side *)

Lemma Forall2_combine {X Y Z} (R1 : X -> Y -> Prop) (R2 : X -> Z -> Prop) q l1 l2 : Forall2 R1 q l1 -> Forall2 R2 q l2 ->
  Forall2 (fun x p => R1 x (fst p) /\ R2 x (snd p)) q (combine l1 l2).
Proof.
  intros F1. revert l2. induction F1; intros l2 F2; inversion F2; subst; simpl; constructor; auto.
Qed.

Lemma Forall2_map_self {X Y} (f : X -> Y) q : Forall2 (fun x y => y = f x) q (map f q).
Proof. induction q; simpl; constructor; auto. Qed.

Lemma Forall2_weak {X Y} (R S : X -> Y -> Prop) q l : Forall2 R q l -> (forall x y, In x q -> R x y -> S x y) -> Forall2 S q l.
Proof.
  induction 1; intros H'; constructor; [apply H'; simpl; auto|]. apply IHForall2. intros. apply H'; simpl; auto.
Qed.

Lemma combine_split_eq {X Y} (l : list X) (l' : list Y) : length l = length l' ->
  map fst (combine l l') = l /\ map snd (combine l l') = l'.
Proof.
  revert l'. induction l as [|x l IH]; intros [|y l'] H; simpl in *; auto; try discriminate.
  destruct (IH l') as [-> ->]; auto.
Qed.

Lemma Forall2_len {X Y} (R : X -> Y -> Prop) q l : Forall2 R q l -> length q = length l.
Proof. induction 1; simpl; auto. Qed.

Lemma Forall2_out {X Y} (R : X -> Y -> Prop) q l y : Forall2 R q l -> In y l -> exists x, In x q /\ R x y.
Proof.
  induction 1; intros H'; [destruct H'|]. destruct H' as [->|H']; [eexists; simpl; eauto|].
  destruct (IHForall2 H') as (z & Hz & Rz). exists z. simpl. auto.
Qed.

Lemma mapM_comp {X T Y} (f : T -> res Y) (g : X -> T) l : mapM f (map g l) = mapM (fun x => f (g x)) l.
Proof. induction l as [|x l IH]; auto. cbn [map mapM]. now rewrite IH. Qed.

Lemma mapM_ext_in {X Y} (f g : X -> res Y) l : (forall x, In x l -> f x = g x) -> mapM f l = mapM g l.
Proof. induction l as [|x l IH]; intros H; auto. cbn [mapM]. rewrite H by (simpl; auto). rewrite IH; auto. intros; apply H; simpl; auto. Qed.

(** ** The broadcast arguments *)

Definition spread_to (sh : shape) (s s' : sarr Qc) : Prop := wf s' /\ sshape s' = sh /\ forall e, at_ s' e = bat s e.

Lemma fits_spread (s : sarr Qc) sh : wf s -> NoDup (dkeys sh) -> fits_in (sshape s) sh ->
  exists s', na_broadcast_to s sh false = Ok s' /\ spread_to sh s s'.
Proof.
  intros W N F. destruct (na_broadcast_to_intro s sh W N) as (r & E).
  { intros ax H. rewrite <- wf_keys in H by auto. apply key_size in H as [n H]. destruct (F _ _ H) as (m & Hm & _).
    now apply (in_map fst) in Hm. }
  { intros ax n H. apply dget_In in H. destruct (F _ _ H) as (m & Hm & [-> | ->]); auto. }
  exists r. split; auto. destruct (na_broadcast_to_ok _ _ _ W N E) as (_ & _ & Wr & Sr & Vr). repeat split; auto; apply Wr.
Qed.

Lemma arguments_ok (ss : list (sarr Qc)) (w : option (sarr Qc)) sh :
  Forall wf ss -> opt_wf w -> broadcast_shapes (map sshape ss ++ opt_shape w) = Ok sh ->
  NoDup (dkeys sh) /\ (forall s, In s ss -> fits_in (sshape s) sh) /\ (forall x, w = Some x -> fits_in (sshape x) sh) /\
  exists ss' w', hist_arguments ss w = Ok (sh, ss', w') /\ Forall2 (spread_to sh) ss ss' /\
    match w, w' with Some x, Some x' => spread_to sh x x' | None, None => True | _, _ => False end.
Proof.
  intros Wss Ww E. rewrite Forall_forall in Wss.
  assert (Nb : Forall (fun s => NoDup (dkeys s)) (map sshape ss ++ opt_shape w)).
  { apply Forall_app. split.
    - apply Forall_forall. intros s H. apply in_map_iff in H as (a & <- & H). apply wf_nodup. auto.
    - destruct w; simpl in *; repeat constructor. now apply wf_nodup. }
  destruct (broadcast_shapes_ok _ _ Nb E) as (N & _). split; auto.
  assert (F1 : forall s, In s ss -> fits_in (sshape s) sh).
  { intros s H. apply (broadcast_fits _ _ _ Nb E). apply in_app_iff. left. now apply in_map. }
  assert (F2 : forall x, w = Some x -> fits_in (sshape x) sh).
  { intros x ->. apply (broadcast_fits _ _ _ Nb E). apply in_app_iff. right. simpl. auto. }
  split; auto. split; auto.
  unfold hist_arguments. change (match w with Some w0 => [sshape w0] | None => [] end) with (opt_shape w). rewrite E. cbn [bind].
  destruct (mapM_exists (fun s : sarr Qc => s) (fun s => na_broadcast_to s sh false) (spread_to sh) ss) as (ss' & Es & Fs).
  { intros s H. apply fits_spread; auto. }
  rewrite map_id in Es. rewrite Es. cbn [bind]. destruct w as [x|].
  - destruct (fits_spread x sh Ww N (F2 x eq_refl)) as (x' & -> & Sx). cbn [bind]. exists ss', (Some x'). auto.
  - cbn [bind]. exists ss', None. auto.
Qed.

(** replacing the samples and the weights by broadcast ones *)
Lemma spread_bat sh s s' e : spread_to sh s s' -> inside e sh -> bat s' e = bat s e.
Proof. intros (W & S & V) H. rewrite bat_inside by (auto; now rewrite S). apply V. Qed.

Lemma histogram_ext h sh axis ds ds' w w' : NoDup (dkeys sh) ->
  Forall2 (fun d d' => d_edges d = d_edges d' /\ d_axis d = d_axis d' /\ spread_to sh (d_sample d) (d_sample d')) ds ds' ->
  match w, w' with Some x, Some x' => spread_to sh x x' | None, None => True | _, _ => False end ->
  is_histogram h sh axis ds' w' -> is_histogram h sh axis ds w.
Proof.
  intros Ns F G (W & S & V). split; auto.
  assert (Sh : cells_shape (apart sh axis) ds' = cells_shape (apart sh axis) ds).
  { unfold cells_shape. f_equal. clear V S. induction F as [|d d' l l' (E1 & E2 & _) F IH]; simpl; auto.
    rewrite IH. f_equal. unfold d_count. rewrite E1, E2. reflexivity. }
  rewrite Sh in S. split; auto. intros e He. rewrite (V e He).
  assert (Io : inside e (apart sh axis)).
  { intros ax n H. apply He. apply S. unfold cells_shape. apply in_app_iff. auto. }
  f_equal.
  assert (In_sh : forall e', In e' (fibre sh axis e) -> inside e' sh) by (intros; now apply (fibre_all sh axis Ns e)).
  assert (FE : filter (in_cells ds' e) (fibre sh axis e) = filter (in_cells ds e) (fibre sh axis e)).
  { apply filter_ext_in. intros e' He'. specialize (In_sh e' He'). unfold in_cells. clear V S Sh.
    induction F as [|d d' l l' (E1 & E2 & E3) F IH]; simpl; auto. rewrite IH. f_equal.
    unfold d_edge, d_count. rewrite E1, E2, (spread_bat sh _ _ e' E3 In_sh). reflexivity. }
  rewrite FE. apply map_ext_in. intros e' He'. apply filter_In in He' as [He' _]. specialize (In_sh e' He').
  unfold weight_at. destruct w as [x|], w' as [x'|]; try contradiction; auto. now apply spread_bat with (sh := sh).
Qed.

Lemma core_top junk sh axis ds w ss' w' : NoDup (dkeys sh) -> NoDup axis -> ds <> [] ->
  (forall d, In d ds -> edges_ok (apart sh axis) d) -> NoDup (map d_axis ds) ->
  Forall2 (spread_to sh) (map d_sample ds) ss' ->
  match w, w' with Some x, Some x' => spread_to sh x x' | None, None => True | _, _ => False end ->
  exists h, hist_core junk ss' w' sh axis (map d_edges ds) = Ok h /\ is_histogram h sh axis ds w.
Proof.
  intros Ns Na D0 Ok Nd F G.
  set (ds' := map (fun p => mkDim (snd p) (d_edges (fst p)) (d_axis (fst p))) (combine ds ss')).
  assert (Fd : Forall2 (fun d d' => d_edges d = d_edges d' /\ d_axis d = d_axis d' /\ spread_to sh (d_sample d) (d_sample d')) ds ds').
  { unfold ds'. clear - F. revert ss' F. induction ds as [|d l IH]; intros ss' F; inversion F; subst; simpl; constructor; auto. }
  assert (E1 : map d_sample ds' = ss').
  { unfold ds'. clear - F. revert ss' F. induction ds as [|d l IH]; intros ss' F; inversion F; subst; simpl; auto. f_equal. auto. }
  assert (E2 : map d_edges ds' = map d_edges ds).
  { clear - Fd. induction Fd as [|d d' l l' (X & _) Fd IH]; simpl; congruence. }
  assert (E3 : map d_axis ds' = map d_axis ds).
  { clear - Fd. induction Fd as [|d d' l l' (_ & X & _) Fd IH]; simpl; congruence. }
  destruct (hist_core_ok sh axis ds' w' Ns Na) with (junk := junk) as (h & Eh & Hh).
  - intros d' Hd'. destruct (Forall2_out _ _ _ d' Fd Hd') as (d & Hd & X1 & X2 & X3).
    destruct X3 as (W' & S' & _). split; auto. specialize (Ok d Hd). unfold edges_ok, d_count, d_edge in *. rewrite <- X1, <- X2. exact Ok.
  - now rewrite E3.
  - intros x' ->. destruct w as [x|]; [|contradiction]. destruct G as (Wx & Sx & _). auto.
  - intros Z0. apply D0. apply Forall2_len in Fd. rewrite Z0 in Fd. destruct ds; auto. discriminate.
  - rewrite E1, E2 in Eh. exists h. split; auto. now apply (histogram_ext h sh axis ds ds' w w').
Qed.

(** ** Edges given as arrays *)

Theorem histogramdd_arrays junk ds axis mn mx w sh :
  ds <> [] -> Forall wf (map d_sample ds) -> opt_wf w ->
  broadcast_shapes (map (fun d => sshape (d_sample d)) ds ++ opt_shape w) = Ok sh ->
  NoDup (hist_axes sh axis) -> NoDup (map d_axis ds) ->
  (forall d, In d ds -> edges_ok (apart sh (hist_axes sh axis)) d) ->
  exists h, na_histogramdd junk (map d_sample ds) (BinsArr (map d_edges ds)) axis mn mx w = Ok (h, map d_edges ds) /\
    is_histogram h sh (hist_axes sh axis) ds w.
Proof.
  intros D0 Ws Ww E Na Nd Ok. rewrite <- (map_map d_sample sshape) in E.
  destruct (arguments_ok (map d_sample ds) w sh Ws Ww E) as (N & _ & _ & ss' & w' & Ea & F & G).
  unfold na_histogramdd. replace (length (map d_sample ds) =? 0) with false by (destruct ds; [now elim D0|reflexivity]).
  rewrite Ea. cbn [bind]. cbn [edges_dd]. cbn [bind]. fold (hist_axes sh axis).
  destruct (core_top junk sh (hist_axes sh axis) ds w ss' w' N Na D0 Ok Nd F G) as (h & Eh & Hh).
  rewrite Eh. cbn [bind]. eauto.
Qed.

(** ** Edges made by [linspace] *)

Lemma qnat_le a b : a <= b -> (qnat a <= qnat b)%Qc.
Proof.
  intros H. destruct (Nat.eq_dec a b) as [->|D]; [apply Qcle_refl|]. apply Qclt_le_weak. apply (qz_lt (Z.of_nat a) (Z.of_nat b)). lia.
Qed.

Lemma evenly_monotone lo hi n edge : (lo <= hi)%Qc -> evenly lo hi n edge -> forall i j, i <= j -> j < n -> (edge i <= edge j)%Qc.
Proof.
  intros L E i j Hij Hj. rewrite !E by lia. apply Qcplus_le_compat; [apply Qcle_refl|].
  destruct (Nat.eq_dec n 1) as [->|Hn].
  { assert (i = 0) by lia. assert (j = 0) by lia. subst. apply Qcle_refl. }
  apply Qcmult_le_compat_r; [now apply qnat_le|]. unfold piece.
  assert (P : pieces n true false = Z.of_nat (n - 1)) by (unfold pieces; lia). rewrite P.
  assert (P0 : (0 < qint (Z.of_nat (n - 1)))%Qc).
  { change 0%Qc with (qz 0). apply (qz_lt 0). lia. }
  unfold Qcdiv. rewrite <- (Qcmult_0_l (/ qint (Z.of_nat (n - 1)))).
  apply Qcmult_le_compat_r.
  - apply Qcle_minus_iff in L. exact L.
  - apply Qclt_le_weak. unfold Qclt, Qcinv in *. simpl in *. rewrite Qred_correct. now apply Qinv_lt_0_compat.
Qed.

Lemma evenly_ends lo hi n edge : 2 <= n -> evenly lo hi n edge -> edge 0 = lo /\ edge (n - 1) = hi.
Proof.
  intros Hn E. rewrite !E by lia. split.
  - change (qnat 0) with 0%Qc. ring.
  - unfold piece. assert (P : pieces n true false = Z.of_nat (n - 1)) by (unfold pieces; lia). rewrite P.
    unfold qnat. field. change 0%Qc with (qz 0). apply qz_nonzero. lia.
Qed.

Lemma linspace_dimension (s : sarr Qc) (start stop : operand Qc) ax n orth :
  NoDup (dkeys orth) -> op_wf start -> op_wf stop -> fits_in (op_shape start) orth -> fits_in (op_shape stop) orth ->
  ~ In ax (dkeys orth) -> n <> 0 -> (forall e, inside e orth -> (op_at start e <= op_at stop e)%Qc) ->
  exists r, na_linspace start stop ax (Z.of_nat n) true false = Ok r /\
    let d := mkDim s r ax in edges_ok orth d /\ d_count d = n /\
    forall e, inside e orth -> evenly (op_at start e) (op_at stop e) n (d_edge d e).
Proof.
  intros N W1 W2 F1 F2 Na Hn L.
  assert (Nb : Forall (fun s => NoDup (dkeys s)) [op_shape start; op_shape stop]).
  { repeat constructor; now apply op_shape_NoDup. }
  destruct (fits_broadcast _ orth Nb N) as (B & EB & FB).
  { intros s' [<- |[<- |[]]]; auto. }
  destruct (broadcast_shapes_ok _ _ Nb EB) as (NB & _).
  assert (NaB : ~ In ax (dkeys B)).
  { intros H. apply key_size in H as [m H]. destruct (FB _ _ H) as (k & Hk & _). apply Na. now apply (in_map fst) in Hk. }
  destruct (linspace_edges start stop B ax W1 W2 EB NaB n true) as (r & Er & Wr & Sr & Vr).
  exists r. split; auto. intros d.
  assert (Ia : In (ax, n) (sshape r)) by (apply Sr, in_app_iff; simpl; auto).
  assert (Dc : d_count d = n) by (unfold d_count, d; simpl; apply size_of_In; auto; now apply wf_nodup).
  assert (Cov : forall o, In o [start; stop] -> forall ax0 n0, In (ax0, n0) (op_shape o) -> n0 = 1 \/ In (ax0, n0) (sshape r)).
  { intros o Ho ax0 n0 H0. destruct (broadcast_covers [op_shape start; op_shape stop] B (op_shape o) ax0 n0 Nb EB) as [_ [->|C]]; auto.
    - destruct Ho as [<- |[<- |[]]]; simpl; auto.
    - right. apply Sr, in_app_iff. auto. }
  assert (EV : forall e, inside e orth -> evenly (op_at start e) (op_at stop e) n (d_edge d e)).
  { intros e He i Hi. unfold d_edge, d. simpl. unfold bat.
    set (e1 := bclamp (sshape r) (set_env e ax i)).
    assert (I1 : inside e1 (sshape r)).
    { apply clamp_inside; [now apply wf_nodup|]. intros ax0 n0 H0. apply Sr, in_app_iff in H0 as [H0|[H0|[]]].
      - destruct (FB _ _ H0) as (m & Hm & C). destruct C as [-> | ->]; auto. right. unfold set_env.
        destruct (String.eqb_spec ax0 ax) as [->|_]; [|now apply He]. exfalso. apply NaB. now apply (in_map fst) in H0.
      - injection H0 as <- <-. right. now rewrite set_N. }
    destruct (Vr e1 I1) as [V0 V1].
    assert (Oa : forall o, In o [start; stop] -> op_wf o -> op_at o e1 = op_at o e).
    { intros o Ho Wo. unfold e1. rewrite op_at_clamp; [|auto|now apply wf_nodup|now apply Cov].
      destruct o as [a|x]; auto. simpl. apply bat_agree. intros ax0 Hax0. unfold set_env.
      destruct (String.eqb_spec ax0 ax) as [->|_]; auto. exfalso. rewrite <- wf_keys in Hax0 by auto.
      apply key_size in Hax0 as [m Hm]. assert (fits_in (sshape a) orth) as Fa by (destruct Ho as [->|[->|[]]]; auto).
      destruct (Fa _ _ Hm) as (k & Hk & _). apply Na. now apply (in_map fst) in Hk. }
    rewrite (Oa start) in V0, V1 by (simpl; auto). rewrite (Oa stop) in V1 by (simpl; auto).
    assert (E1 : e1 ax = if n =? 1 then 0 else i).
    { unfold e1, bclamp. rewrite (dget_NoDup _ _ _ (wf_nodup r Wr) Ia), set_N. destruct n as [|[|n]]; auto. }
    destruct (Nat.eq_dec n 1) as [->|D1].
    - rewrite V0 by reflexivity. assert (i = 0) by lia. subst. change (qnat 0) with 0%Qc. ring.
    - rewrite V1 by (unfold pieces; lia). rewrite E1. apply Nat.eqb_neq in D1. now rewrite D1. }
  split; [|split; auto].
  repeat split; simpl; auto; try apply Wr.
  - rewrite <- wf_keys by auto. now apply (in_map fst) in Ia.
  - now rewrite Dc.
  - intros ax0 n0 H0 D. apply Sr, in_app_iff in H0 as [H0|[H0|[]]].
    + destruct (FB _ _ H0) as (m & Hm & C). eauto.
    + injection H0 as <- <-. congruence.
  - intros e i j He Hij Hj. rewrite Dc in Hj. apply (evenly_monotone _ _ _ _ (L e He) (EV e He) i j Hij Hj).
Qed.

(** ** The least and the greatest sample *)

Lemma fold_min l x : is_min (fold_left (fun m y => if qc_leb m y then m else y) l x) (x :: l).
Proof.
  revert x. induction l as [|y l IH]; intros x; simpl.
  - split; [now left|]. intros z [<- |[]]. apply Qcle_refl.
  - destruct (qc_leb x y) eqn:E.
    + apply qc_leb_le in E. destruct (IH x) as [I L]. split; [destruct I as [<- |I]; simpl; auto|].
      intros z [<- |[<- |H]]; [apply L; now left| |apply L; now right].
      apply Qcle_trans with x; auto. apply L. now left.
    + assert (E' : (y <= x)%Qc).
      { destruct (Qclt_le_dec x y) as [H|H]; auto. apply Qclt_le_weak, qc_leb_le in H. congruence. }
      destruct (IH y) as [I L]. split; [destruct I as [<- |I]; simpl; auto|].
      intros z [<- |[<- |H]]; [|apply L; now left|apply L; now right].
      apply Qcle_trans with y; auto. apply L. now left.
Qed.

Lemma fold_max l x : is_max (fold_left (fun m y => if qc_leb y m then m else y) l x) (x :: l).
Proof.
  revert x. induction l as [|y l IH]; intros x; simpl.
  - split; [now left|]. intros z [<- |[]]. apply Qcle_refl.
  - destruct (qc_leb y x) eqn:E.
    + apply qc_leb_le in E. destruct (IH x) as [I L]. split; [destruct I as [<- |I]; simpl; auto|].
      intros z [<- |[<- |H]]; [apply L; now left| |apply L; now right].
      apply Qcle_trans with x; auto. apply L. now left.
    + assert (E' : (x <= y)%Qc).
      { destruct (Qclt_le_dec y x) as [H|H]; auto. apply Qclt_le_weak, qc_leb_le in H. congruence. }
      destruct (IH y) as [I L]. split; [destruct I as [<- |I]; simpl; auto|].
      intros z [<- |[<- |H]]; [|apply L; now left|apply L; now right].
      apply Qcle_trans with y; auto. apply L. now left.
Qed.

Lemma list_min_spec l : l <> [] -> is_min (list_min l) l.
Proof. destruct l as [|x l]; [congruence|]. intros _. apply fold_min. Qed.

Lemma list_max_spec l : l <> [] -> is_max (list_max l) l.
Proof. destruct l as [|x l]; [congruence|]. intros _. apply fold_max. Qed.

Lemma fibre_total sh S e : incl S (dkeys sh) -> length (fibre sh S e) = total_size sh S.
Proof.
  intros H. rewrite fibre_length. unfold total_size. induction S as [|x S IH]; simpl; auto.
  rewrite IH by (intros y Hy; apply H; simpl; auto). unfold size_of.
  destruct (dget sh x) eqn:E; auto. exfalso. apply dget_None in E. apply E, H. simpl; auto.
Qed.

Lemma in_perm_min x l l' : Permutation l l' -> is_min x l -> is_min x l'.
Proof.
  intros P [I L]. split; [now apply (Permutation_in _ P)|]. intros y Hy. apply L. apply Permutation_sym in P. now apply (Permutation_in _ P).
Qed.

Lemma in_perm_max x l l' : Permutation l l' -> is_max x l -> is_max x l'.
Proof.
  intros P [I L]. split; [now apply (Permutation_in _ P)|]. intros y Hy. apply L. apply Permutation_sym in P. now apply (Permutation_in _ P).
Qed.

(** a limit of the samples: an array along the other axes *)
Lemma extreme_ok (f : list Qc -> Qc) sh axis (s s' : sarr Qc) : NoDup (dkeys sh) -> NoDup axis -> incl axis (dkeys sh) ->
  total_size sh axis <> 0 -> spread_to sh s s' ->
  exists m, na_reduce false f s' (Some axis) false None None = Ok m /\ wf m /\ fits_in (sshape m) (apart sh axis) /\
    forall e, inside e (apart sh axis) -> exists l,
      Permutation l (map (bat s) (fibre sh axis e)) /\ bat m e = f l.
Proof.
  intros N Na Ia T Sp. pose proof Sp as (W & S & V).
  pose proof (reduce_spec false f s' (Some axis) false None W) as R. cbv beta iota zeta in R.
  rewrite (broadcast_one (sshape s') (wf_nodup s' W)), S in R.
  destruct R as [R _]; [discriminate|]. destruct R as (m & Em & Wm & Am & Sm & Vm).
  { repeat split; auto. discriminate. discriminate. }
  exists m. split; auto. split; auto.
  assert (Fm : forall ax n, In (ax, n) (sshape m) <-> In (ax, n) (apart sh axis)).
  { intros ax n. rewrite Sm, Am. unfold apart. rewrite !filter_In. cbn [fst]. split.
    - intros [[H1 H2] ->]. destruct (smem ax axis); [discriminate|]. split; auto. apply key_size in H1 as [k Hk].
      now rewrite (size_of_In sh ax k).
    - intros [H1 H2]. split; [split; auto; now apply (in_map fst) in H1|]. destruct (smem ax axis); [discriminate|].
      now rewrite (size_of_In sh ax n). }
  split.
  { intros ax n H. exists n. split; auto. now apply Fm. }
  intros e He. rewrite bat_inside; auto.
  2:{ intros ax n H. apply He. now apply Fm. }
  exists (map (at_ s') (fibre sh (filter (fun ax => smem ax axis) (dkeys sh)) e)). split.
  - assert (P : Permutation (filter (fun ax => smem ax axis) (dkeys sh)) axis).
    { apply NoDup_Permutation; [now apply NoDup_filter|auto|]. intros x. rewrite filter_In, smem_In. split; [tauto|]. intros H. split; auto. }
    assert (E : forall S, map (at_ s') (fibre sh S e) = flat_map (fun e' => [at_ s' e']) (fibre sh S e)).
    { intros S'. induction (fibre sh S' e) as [|x l IH]; simpl; congruence. }
    rewrite E. etransitivity; [apply (fibre_perm sh _ axis (fun e' => [at_ s' e']) e)|]; auto.
    + intros e1 e2 H12. f_equal. apply at_ext. intros; apply H12.
    + now apply NoDup_filter.
    + rewrite <- E. erewrite map_ext; [apply Permutation_refl|]. exact V.
  - rewrite Vm. f_equal. rewrite filter_all; auto.
Qed.

Lemma fibre_nonempty sh S e : incl S (dkeys sh) -> total_size sh S <> 0 -> fibre sh S e <> [].
Proof. intros I H Z. apply H. rewrite <- (fibre_total sh S e I), Z. reflexivity. Qed.

Definition extreme_of (P : Qc -> list Qc -> Prop) sh axis (s : sarr Qc) (o : operand Qc) : Prop :=
  op_wf o /\ fits_in (op_shape o) (apart sh axis) /\
  forall e, inside e (apart sh axis) -> P (op_at o e) (map (bat s) (fibre sh axis e)).

Lemma limits_none f (P : Qc -> list Qc -> Prop) sh axis ss ss' : NoDup (dkeys sh) -> NoDup axis -> incl axis (dkeys sh) ->
  total_size sh axis <> 0 -> Forall2 (spread_to sh) ss ss' ->
  (forall l l', l <> [] -> Permutation l l' -> P (f l) l') ->
  exists os, limits f LimNone ss' axis = Ok os /\ Forall2 (extreme_of P sh axis) ss os.
Proof.
  intros N Na I T F HP. unfold limits.
  apply (Forall2_mapM (spread_to sh) _ (extreme_of P sh axis) ss ss' F). intros s s' _ Sp.
  destruct (extreme_ok f sh axis s s' N Na I T Sp) as (m & Em & Wm & Fm & Vm). rewrite Em. cbn [bind].
  eexists. split; [reflexivity|]. split; [exact Wm|]. split; [exact Fm|]. intros e He. simpl.
  destruct (Vm e He) as (l & Pl & ->). apply HP; auto. intros ->. apply Permutation_nil in Pl.
  apply map_eq_nil in Pl. now apply (fibre_nonempty sh axis e I T).
Qed.

(** ** Numbers of bins *)

Lemma edges_made orth (count : nat -> nat) (norm : operand Qc -> operand Qc) bs : NoDup (dkeys orth) ->
  (forall o, op_wf o -> op_wf (norm o) /\ op_shape (norm o) = op_shape o /\ forall e, op_at (norm o) e = op_at o e) ->
  (forall b, In b bs -> bounded_ok orth b /\ count (b_num b) <> 0) ->
  exists ds, mapM (fun b => na_linspace (norm (b_lo b)) (norm (b_hi b)) (b_axis b) (Z.of_nat (count (b_num b))) true false) bs
             = Ok (map d_edges ds) /\ Forall2 (made_of orth count) bs ds.
Proof.
  intros N Hn H. induction bs as [|b bs IH]; [exists []; split; auto|].
  destruct IH as (ds & E & F); [intros; apply H; simpl; auto|].
  destruct (H b) as (((Wl & Fl) & (Wh & Fh) & L & Nx) & C0); [simpl; auto|].
  destruct (Hn _ Wl) as (Wl' & Sl & Vl). destruct (Hn _ Wh) as (Wh' & Shh & Vh).
  destruct (linspace_dimension (b_sample b) (norm (b_lo b)) (norm (b_hi b)) (b_axis b) (count (b_num b)) orth) as (r & Er & O & C & EV);
    auto; try (rewrite Sl; auto; fail); try (rewrite Shh; auto; fail).
  { intros e He. rewrite Vl, Vh. auto. }
  exists (mkDim (b_sample b) r (b_axis b) :: ds). cbn [mapM map]. rewrite Er. cbn [bind]. rewrite E. cbn [bind]. split; auto.
  constructor; auto. split; [reflexivity|]. split; [reflexivity|]. split; [exact C|]. split; [exact O|].
  intros e He. rewrite C, <- Vl, <- Vh. now apply EV.
Qed.

(** limits, samples, names and numbers of bins side by side *)
Lemma bounded_list ss (d : dict nat) mn mx : length d = length ss -> length mn = length ss -> length mx = length ss ->
  exists bs, map b_sample bs = ss /\ map b_lo bs = mn /\ map b_hi bs = mx /\ b_dict bs = d.
Proof.
  revert d mn mx. induction ss as [|s ss IH]; intros [|[k n] d] [|l mn] [|h mx] H1 H2 H3; simpl in *; try discriminate.
  - exists []. auto.
  - injection H1 as H1. injection H2 as H2. injection H3 as H3. destruct (IH d mn mx) as (bs & <- & <- & <- & <-); auto.
    exists (mkB s l h k n :: bs). auto.
Qed.

Lemma combine_bounded bs :
  combine (combine (map b_lo bs) (map b_hi bs)) (z_dict (b_dict bs))
  = map (fun b => ((b_lo b, b_hi b), (b_axis b, Z.of_nat (b_num b)))) bs.
Proof. induction bs; simpl; congruence. Qed.

Lemma made_lists orth count bs ds : Forall2 (made_of orth count) bs ds ->
  map d_sample ds = map b_sample bs /\ map d_axis ds = map b_axis bs /\ map d_count ds = map (fun b => count (b_num b)) bs /\
  (forall d, In d ds -> edges_ok orth d).
Proof.
  induction 1 as [|b d bs ds (E1 & E2 & E3 & E4 & _) F (I1 & I2 & I3 & I4)]; [simpl; tauto|].
  cbn [map]. split; [congruence|]. split; [congruence|]. split; [congruence|]. intros x [<- |Hx]; auto.
Qed.

Lemma normalize_norm (o : operand Qc) : op_wf o ->
  op_wf (OpArr (normalize o)) /\ op_shape (OpArr (normalize o)) = op_shape o /\ forall e, op_at (OpArr (normalize o)) e = op_at o e.
Proof. intros W. split; [now apply normalize_wf|]. split; [apply normalize_shape|]. intros e. exact (LinspaceFacts.op_at_normalize o e). Qed.

Lemma plain_norm (o : operand Qc) : op_wf o -> op_wf o /\ op_shape o = op_shape o /\ forall e, op_at o e = op_at o e.
Proof. auto. Qed.

(** the edges that both functions make out of limits and numbers of bins *)
Lemma edges_dd_made bs mn mx ss' axis orth : NoDup (dkeys orth) ->
  (forall b, In b bs -> bounded_ok orth b /\ b_num b <> 0) -> length ss' = length bs ->
  limits list_min mn ss' axis = Ok (map b_lo bs) -> limits list_max mx ss' axis = Ok (map b_hi bs) ->
  exists ds, edges_dd (BinsDict (z_dict (b_dict bs))) mn mx ss' axis = Ok (map d_edges ds) /\
    Forall2 (made_of orth (fun n => n)) bs ds.
Proof.
  intros N H L E1 E2. unfold edges_dd. rewrite E1, E2. cbn [bind].
  replace (length (z_dict (b_dict bs))) with (length bs) by (unfold z_dict, b_dict; now rewrite !map_length).
  rewrite L, Nat.eqb_refl. cbn [negb]. rewrite combine_bounded, mapM_comp. cbn [fst snd].
  exact (edges_made orth (fun n => n) (fun o => OpArr (normalize o)) bs N normalize_norm H).
Qed.

Lemma edges_2d_made bs mn mx ss' axis orth orth' : NoDup (dkeys orth) ->
  (forall b, In b bs -> bounded_ok orth b) -> length bs = 2 ->
  limits list_min mn ss' axis = Ok (map b_lo bs) -> limits list_max mx ss' axis = Ok (map b_hi bs) ->
  exists ds, edges_2d (BinsDict (z_dict (b_dict bs))) mn mx ss' axis orth' = Ok (map d_edges ds) /\
    Forall2 (made_of orth S) bs ds.
Proof.
  intros N H L E1 E2. unfold edges_2d. rewrite E1, E2. cbn [bind].
  replace (length (z_dict (b_dict bs))) with (length bs) by (unfold z_dict, b_dict; now rewrite !map_length).
  rewrite L. cbn [negb Nat.eqb]. rewrite combine_bounded, mapM_comp. cbn [fst snd].
  destruct (edges_made orth S (fun o => o) bs N plain_norm) as (ds & E & F).
  { intros b Hb. split; auto. }
  exists ds. split; auto. rewrite <- E. apply mapM_ext_in. intros b _. f_equal. lia.
Qed.

(** ** The functions *)

Lemma apart_nodup sh axis : NoDup (dkeys sh) -> NoDup (dkeys (apart sh axis)).
Proof. intros N. unfold apart. now apply (nodup_filter_keys (fun ax => negb (smem ax axis))). Qed.

Lemma b_dict_keys bs : dkeys (b_dict bs) = map b_axis bs.
Proof. unfold b_dict, dkeys. rewrite map_map. reflexivity. Qed.

Lemma b_dict_vals bs : dvals (b_dict bs) = map b_num bs.
Proof. unfold b_dict, dvals. rewrite map_map. reflexivity. Qed.

Section Top.
Variables (junk : Qc) (bs : list bounded) (axis : option (list string)) (w : option (sarr Qc)) (sh : shape).
Let axes := hist_axes sh axis.
Hypothesis (Ws : Forall wf (map b_sample bs)) (Ww : opt_wf w) (B0 : bs <> [])
  (E : broadcast_shapes (map sshape (map b_sample bs) ++ opt_shape w) = Ok sh) (Na : NoDup axes) (Nd : NoDup (map b_axis bs)).

Lemma dd_made mn mx : (forall b, In b bs -> bounded_ok (apart sh axes) b /\ b_num b <> 0) ->
  (forall ss', Forall2 (spread_to sh) (map b_sample bs) ss' ->
     limits list_min mn ss' axes = Ok (map b_lo bs) /\ limits list_max mx ss' axes = Ok (map b_hi bs)) ->
  exists h ds, na_histogramdd junk (map b_sample bs) (BinsDict (z_dict (b_dict bs))) axis mn mx w = Ok (h, map d_edges ds) /\
    Forall2 (made_of (apart sh axes) (fun n => n)) bs ds /\ is_histogram h sh axes ds w.
Proof.
  intros Ok L. destruct (arguments_ok (map b_sample bs) w sh Ws Ww E) as (N & _ & _ & ss' & w' & Ea & F & G).
  destruct (L ss' F) as [L1 L2].
  destruct (edges_dd_made bs mn mx ss' axes (apart sh axes) (apart_nodup sh axes N) Ok) as (ds & Ed & Fd); auto.
  { apply Forall2_len in F. now rewrite <- F, map_length. }
  destruct (made_lists _ _ _ _ Fd) as (M1 & M2 & _ & M4).
  destruct (core_top junk sh axes ds w ss' w' N Na) as (h & Eh & Hh); auto.
  { intros ->. apply B0. inversion Fd; auto. }
  { now rewrite M2. }
  { now rewrite M1. }
  exists h, ds. split; auto. unfold na_histogramdd.
  replace (length (map b_sample bs) =? 0) with false by (rewrite map_length; destruct bs; [now elim B0|reflexivity]).
  rewrite Ea. cbn [bind]. fold (hist_axes sh axis). fold axes. rewrite Ed. cbn [bind]. now rewrite Eh.
Qed.

Lemma h2_made x y mn mx : map b_sample bs = [x; y] -> (forall b, In b bs -> bounded_ok (apart sh axes) b) ->
  (forall ss', Forall2 (spread_to sh) (map b_sample bs) ss' ->
     limits list_min mn ss' axes = Ok (map b_lo bs) /\ limits list_max mx ss' axes = Ok (map b_hi bs)) ->
  exists h ds, na_histogram2d junk x y (BinsDict (z_dict (b_dict bs))) axis mn mx w = Ok (map d_edges ds, h) /\
    Forall2 (made_of (apart sh axes) S) bs ds /\ is_histogram h sh axes ds w.
Proof.
  intros Exy Ok L. destruct (arguments_ok (map b_sample bs) w sh Ws Ww E) as (N & _ & _ & ss' & w' & Ea & F & G).
  destruct (L ss' F) as [L1 L2].
  destruct (edges_2d_made bs mn mx ss' axes (apart sh axes) (orthogonal sh axes) (apart_nodup sh axes N) Ok) as (ds & Ed & Fd); auto.
  { rewrite <- (map_length b_sample), Exy. reflexivity. }
  destruct (made_lists _ _ _ _ Fd) as (M1 & M2 & _ & M4).
  destruct (core_top junk sh axes ds w ss' w' N Na) as (h & Eh & Hh); auto.
  { intros ->. apply B0. inversion Fd; auto. }
  { now rewrite M2. }
  { now rewrite M1. }
  exists h, ds. split; auto. unfold na_histogram2d. rewrite <- Exy.
  rewrite Ea. cbn [bind]. fold (hist_axes sh axis). fold axes. rewrite Ed. cbn [bind]. now rewrite Eh.
Qed.

End Top.

(** without limits *)
Lemma spans_made sh axis count bs ds : Forall2 (made_of (apart sh axis) count) bs ds ->
  (forall b, In b bs -> extreme_of is_min sh axis (b_sample b) (b_lo b) /\ extreme_of is_max sh axis (b_sample b) (b_hi b)) ->
  Forall (spans sh axis) ds.
Proof.
  intros F H. apply Forall_forall. intros d Hd. destruct (Forall2_out _ _ _ d F Hd) as (b & Hb & S1 & S2 & S3 & S4 & S5).
  destruct (H b Hb) as [(_ & _ & Hl) (_ & _ & Hh)]. intros e He. exists (op_at (b_lo b) e), (op_at (b_hi b) e). rewrite S1. auto.
Qed.

Lemma total_spans h sh axis ds w e : NoDup (dkeys sh) -> is_histogram h sh axis ds w -> NoDup (map d_axis ds) ->
  (forall d, In d ds -> edges_ok (apart sh axis) d /\ wf (d_sample d) /\ fits_in (sshape (d_sample d)) sh /\ 2 <= d_count d) ->
  (forall x, w = Some x -> wf x /\ fits_in (sshape x) sh) -> Forall (spans sh axis) ds -> inside e (apart sh axis) ->
  qsum (map (at_ h) (fibre (sshape h) (map d_axis ds) e)) = qsum (map (weight_at w) (fibre sh axis e)).
Proof.
  intros N H Nd D Wx Sp I.
  assert (Inc : forall x : sarr Qc, wf x -> fits_in (sshape x) sh -> incl (s_axes x) (dkeys sh)).
  { intros x W F ax Hax. rewrite <- wf_keys in Hax by auto. apply key_size in Hax as [n Hn]. destruct (F _ _ Hn) as (m & Hm & _).
    now apply (in_map fst) in Hm. }
  apply (total_count h sh axis ds w e H Nd); auto.
  - intros d Hd. destruct (D d Hd) as (D1 & D2 & D3 & D4). auto.
  - intros x Ex. destruct (Wx x Ex). auto.
  - intros d e' Hd He'. rewrite Forall_forall in Sp. destruct (Sp d Hd e I) as (lo & hi & [_ Lo] & [_ Hi] & Ev).
    destruct (D d Hd) as (_ & _ & _ & D4). destruct (evenly_ends lo hi _ _ D4 Ev) as [-> ->].
    split; [apply Lo|apply Hi]; now apply in_map.
Qed.

Lemma none_bounded ss (d : dict nat) sh axis ss' : length d = length ss -> NoDup (dkeys sh) -> NoDup axis -> incl axis (dkeys sh) ->
  total_size sh axis <> 0 -> (forall ax, In ax (dkeys d) -> ~ In ax (dkeys (apart sh axis))) ->
  Forall2 (spread_to sh) ss ss' ->
  exists bs, map b_sample bs = ss /\ b_dict bs = d /\
    limits list_min LimNone ss' axis = Ok (map b_lo bs) /\ limits list_max LimNone ss' axis = Ok (map b_hi bs) /\
    forall b, In b bs -> bounded_ok (apart sh axis) b /\
      extreme_of is_min sh axis (b_sample b) (b_lo b) /\ extreme_of is_max sh axis (b_sample b) (b_hi b).
Proof.
  intros L N Na I T Nk F.
  destruct (limits_none list_min is_min sh axis ss ss' N Na I T F) as (mn & E1 & F1).
  { intros l l' H P. apply (in_perm_min _ _ _ P). now apply list_min_spec. }
  destruct (limits_none list_max is_max sh axis ss ss' N Na I T F) as (mx & E2 & F2).
  { intros l l' H P. apply (in_perm_max _ _ _ P). now apply list_max_spec. }
  destruct (bounded_list ss d mn mx L) as (bs & M1 & M2 & M3 & M4).
  { symmetry. now apply Forall2_len in F1. }
  { symmetry. now apply Forall2_len in F2. }
  exists bs. rewrite M2, M3. repeat (split; [assumption|]). subst ss mn mx d. intros b Hb.
  assert (X1 : extreme_of is_min sh axis (b_sample b) (b_lo b) /\ extreme_of is_max sh axis (b_sample b) (b_hi b)).
  { clear - F1 F2 Hb. induction bs as [|b' bs IH]; [destruct Hb|]. inversion F1; inversion F2; subst. destruct Hb as [->|Hb]; auto. }
  split; auto. destruct X1 as [(Wl & Fl & Vl) (Wh & Fh & Vh)]. split; [split; auto|]. split; [split; auto|]. split.
  - intros e He. apply (Vl e He). apply (Vh e He).
  - apply Nk. rewrite b_dict_keys. now apply in_map.
Qed.

Lemma made_counted count bs sh axis w h ds : NoDup (dkeys sh) -> Forall wf (map b_sample bs) -> opt_wf w ->
  (forall s, In s (map b_sample bs) -> fits_in (sshape s) sh) -> (forall x, w = Some x -> fits_in (sshape x) sh) ->
  NoDup (map b_axis bs) ->
  (forall b, In b bs -> extreme_of is_min sh axis (b_sample b) (b_lo b) /\ extreme_of is_max sh axis (b_sample b) (b_hi b)) ->
  Forall2 (made_of (apart sh axis) count) bs ds -> is_histogram h sh axis ds w ->
  counted count (map b_sample bs) (b_dict bs) sh axis w h ds.
Proof.
  intros N Ws Ww F1 F2 Nd Hb F H. destruct (made_lists _ _ _ _ F) as (M1 & M2 & M3 & M4).
  assert (Sp : Forall (spans sh axis) ds) by exact (spans_made sh axis count bs ds F Hb).
  split; [exact M1|]. split; [now rewrite b_dict_keys|]. split; [now rewrite b_dict_vals, map_map|]. split; [exact H|]. split; [exact Sp|].
  intros C e He. rewrite b_dict_keys, <- M2. apply (total_spans h sh axis ds w e); auto.
  - now rewrite M2.
  - intros d Hd. rewrite Forall_forall in Ws. split; auto.
    assert (In (d_sample d) (map b_sample bs)) as Hs by (rewrite <- M1; now apply in_map).
    split; auto. split; auto. apply (in_map d_count) in Hd. rewrite M3 in Hd. apply in_map_iff in Hd as (b & Eb & Hin).
    rewrite <- Eb. apply C. rewrite b_dict_vals. now apply in_map.
  - intros x ->. auto.
Qed.

Section None_.
Variables (junk : Qc) (ss : list (sarr Qc)) (d : dict nat) (axis : option (list string)) (w : option (sarr Qc)) (sh : shape).
Let axes := hist_axes sh axis.
Hypothesis (S0 : ss <> []) (Ws : Forall wf ss) (Ww : opt_wf w)
  (E : broadcast_shapes (map sshape ss ++ opt_shape w) = Ok sh) (Na : NoDup axes) (Ia : incl axes (dkeys sh))
  (T : total_size sh axes <> 0) (Nd : NoDup (dkeys d)) (L : length d = length ss)
  (Nk : forall ax, In ax (dkeys d) -> ~ In ax (dkeys (apart sh axes))).

Theorem histogramdd_none : (forall n, In n (dvals d) -> n <> 0) ->
  exists h ds, na_histogramdd junk ss (BinsDict (z_dict d)) axis LimNone LimNone w = Ok (h, map d_edges ds) /\
    counted (fun n => n) ss d sh axes w h ds.
Proof.
  intros D0. destruct (arguments_ok ss w sh Ws Ww E) as (N & F1 & F2 & ss' & w' & Ea & F & G).
  destruct (none_bounded ss d sh axes ss' L N Na Ia T Nk F) as (bs & M1 & M2 & L1 & L2 & Hb).
  assert (Nb : NoDup (map b_axis bs)) by (rewrite <- b_dict_keys; now rewrite M2).
  assert (B0 : bs <> []) by (intros ->; apply S0; now rewrite <- M1).
  destruct (edges_dd_made bs LimNone LimNone ss' axes (apart sh axes) (apart_nodup sh axes N)) as (ds & Ed & Fd); auto.
  { intros b H. split; [apply Hb; auto|]. apply D0. rewrite <- M2, b_dict_vals. now apply in_map. }
  { apply Forall2_len in F. rewrite <- F, <- M1, map_length. reflexivity. }
  destruct (made_lists _ _ _ _ Fd) as (Q1 & Q2 & _ & Q4).
  destruct (core_top junk sh axes ds w ss' w' N Na) as (h & Eh & Hh); auto.
  { intros ->. apply B0. inversion Fd; auto. }
  { now rewrite Q2. }
  { now rewrite Q1, M1. }
  exists h, ds. split.
  - unfold na_histogramdd. replace (length ss =? 0) with false by (clear - S0; destruct ss; [now elim S0|reflexivity]).
    rewrite Ea. cbn [bind]. fold (hist_axes sh axis). fold axes. rewrite <- M2, Ed. cbn [bind]. now rewrite Eh.
  - rewrite <- M1, <- M2. apply made_counted; auto; try (rewrite M1; auto; fail). intros b H. apply Hb, H.
Qed.

Theorem histogram2d_none x y : ss = [x; y] ->
  exists h ds, na_histogram2d junk x y (BinsDict (z_dict d)) axis LimNone LimNone w = Ok (map d_edges ds, h) /\
    counted S ss d sh axes w h ds.
Proof.
  intros Exy. destruct (arguments_ok ss w sh Ws Ww E) as (N & F1 & F2 & ss' & w' & Ea & F & G).
  destruct (none_bounded ss d sh axes ss' L N Na Ia T Nk F) as (bs & M1 & M2 & L1 & L2 & Hb).
  assert (Nb : NoDup (map b_axis bs)) by (rewrite <- b_dict_keys; now rewrite M2).
  assert (B0 : bs <> []) by (intros ->; apply S0; now rewrite <- M1).
  destruct (edges_2d_made bs LimNone LimNone ss' axes (apart sh axes) (orthogonal sh axes) (apart_nodup sh axes N)) as (ds & Ed & Fd); auto.
  { intros b H. apply Hb; auto. }
  { rewrite <- (map_length b_sample), M1, Exy. reflexivity. }
  destruct (made_lists _ _ _ _ Fd) as (Q1 & Q2 & _ & Q4).
  destruct (core_top junk sh axes ds w ss' w' N Na) as (h & Eh & Hh); auto.
  { intros ->. apply B0. inversion Fd; auto. }
  { now rewrite Q2. }
  { now rewrite Q1, M1. }
  exists h, ds. split.
  - unfold na_histogram2d. rewrite <- Exy, Ea. cbn [bind]. fold (hist_axes sh axis). fold axes. rewrite <- M2, Ed. cbn [bind]. now rewrite Eh.
  - rewrite <- M1, <- M2. apply made_counted; auto; try (rewrite M1; auto; fail). intros b H. apply Hb, H.
Qed.
End None_.

(** the number of samples *)
Lemma qsum_ones {X} (l : list X) : qsum (map (fun _ => qint 1) l) = qnat (length l).
Proof.
  induction l as [|x l IH]; auto. cbn [map length]. change (qsum (qint 1 :: map (fun _ => qint 1) l)) with (qint 1 + qsum (map (fun _ => qint 1) l))%Qc.
  rewrite IH. unfold qnat. rewrite Nat2Z.inj_succ, <- Z.add_1_l. symmetry. apply (qz_add 1 (Z.of_nat (length l))).
Qed.

Lemma number_of_samples sh axis e : incl axis (dkeys sh) ->
  qsum (map (weight_at None) (fibre sh axis e)) = qnat (total_size sh axis).
Proof. intros I. unfold weight_at. rewrite qsum_ones. now rewrite fibre_total. Qed.

(** explicit limits *)
Theorem histogramdd_limits junk bs axis w sh :
  Forall wf (map b_sample bs) -> opt_wf w -> bs <> [] ->
  broadcast_shapes (map sshape (map b_sample bs) ++ opt_shape w) = Ok sh ->
  NoDup (hist_axes sh axis) -> NoDup (map b_axis bs) ->
  (forall b, In b bs -> bounded_ok (apart sh (hist_axes sh axis)) b /\ b_num b <> 0) ->
  exists h ds, na_histogramdd junk (map b_sample bs) (BinsDict (z_dict (b_dict bs))) axis
                 (LimSeq (map b_lo bs)) (LimSeq (map b_hi bs)) w = Ok (h, map d_edges ds) /\
    Forall2 (made_of (apart sh (hist_axes sh axis)) (fun n => n)) bs ds /\ is_histogram h sh (hist_axes sh axis) ds w.
Proof. intros. apply dd_made; auto. Qed.

Theorem histogram2d_limits junk bs x y axis w sh : map b_sample bs = [x; y] ->
  Forall wf (map b_sample bs) -> opt_wf w ->
  broadcast_shapes (map sshape (map b_sample bs) ++ opt_shape w) = Ok sh ->
  NoDup (hist_axes sh axis) -> NoDup (map b_axis bs) ->
  (forall b, In b bs -> bounded_ok (apart sh (hist_axes sh axis)) b) ->
  exists h ds, na_histogram2d junk x y (BinsDict (z_dict (b_dict bs))) axis
                 (LimSeq (map b_lo bs)) (LimSeq (map b_hi bs)) w = Ok (map d_edges ds, h) /\
    Forall2 (made_of (apart sh (hist_axes sh axis)) S) bs ds /\ is_histogram h sh (hist_axes sh axis) ds w.
Proof. intros Exy. intros. apply h2_made; auto. intros ->. discriminate. Qed.

(** [histogram] is [histogramdd] of one sample *)
Theorem histogram_none junk a ax n axis w sh :
  wf a -> opt_wf w -> broadcast_shapes (sshape a :: opt_shape w) = Ok sh -> NoDup (hist_axes sh axis) ->
  incl (hist_axes sh axis) (dkeys sh) -> total_size sh (hist_axes sh axis) <> 0 -> n <> 0 ->
  ~ In ax (dkeys (apart sh (hist_axes sh axis))) ->
  exists edges h, na_histogram junk a (BinsDict [(ax, Z.of_nat n)]) axis LimNone LimNone w = Ok (edges, h) /\
    counted (fun n => n) [a] [(ax, n)] sh (hist_axes sh axis) w h [mkDim a edges ax].
Proof.
  intros Wa Ww E Na Ia T Hn Nx.
  destruct (histogramdd_none junk [a] [(ax, n)] axis w sh) as (h & ds & Eh & C); auto; try discriminate.
  - repeat constructor. intros [].
  - intros y [<- |[]]. exact Nx.
  - intros m [<- |[]]. exact Hn.
  - destruct C as (C1 & C2 & C3). destruct ds as [|[s e x] [|]]; try discriminate. simpl in C1, C2. injection C1 as ->. injection C2 as ->.
    exists e, h. unfold na_histogram. change (BinsDict [(ax, Z.of_nat n)]) with (BinsDict (z_dict [(ax, n)])). rewrite Eh. cbn [bind snd fst map d_edges].
    split; auto. split; auto.
Qed.
