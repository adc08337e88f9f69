(** Facts about regridding. *)
From Coq Require Import String List Arith ZArith Bool Lia Permutation QArith Qcanon.
From Verif Require Import Base BaseFacts Numpy NumpyFacts Shapes Scalar Elementwise Interp Regrid Spec SpecNumeric SpecHist SpecRegrid
  ShapesFacts AlignFacts ReorderFacts ReduceFacts SortingFacts AlongFacts VectorIndexFacts OptimizeFacts RankFacts RankdataFacts
  LinspaceFacts UncertainIndexFacts HistFacts HistTopFacts.
Import ListNotations.
Open Scope nat_scope.
Open Scope list_scope.

(** ** Shapes *)

Lemma shape_eq (s t : shape) : dkeys s = dkeys t -> NoDup (dkeys t) -> (forall ax n, In (ax, n) s -> In (ax, n) t) -> s = t.
Proof.
  revert t. induction s as [|[k n] s IH]; intros [|[k' n'] t] K N H; simpl in *; try discriminate; auto.
  injection K as -> K. inversion N; subst. f_equal.
  - f_equal. destruct (H k' n (or_introl eq_refl)) as [E|E]; [congruence|]. exfalso. apply H2. now apply (in_map fst) in E.
  - apply IH; auto. intros ax m Hm. destruct (H ax m (or_intror Hm)) as [E|E]; auto. injection E as -> ->. exfalso. apply H2.
    fold (dkeys t). rewrite <- K. now apply (in_map fst) in Hm.
Qed.

Lemma dkeys_without sh l : dkeys (without sh l) = filter (fun ax => negb (smem ax l)) (dkeys sh).
Proof. unfold without. apply (dkeys_filter_fst (fun ax => negb (smem ax l)) sh). Qed.

Lemma without_In sh l ax n : In (ax, n) (without sh l) <-> In (ax, n) sh /\ ~ In ax l.
Proof. unfold without. rewrite filter_In. cbn [fst]. rewrite Bool.negb_true_iff, smem_false. tauto. Qed.

Lemma dkeys_app (s t : shape) : dkeys (s ++ t) = dkeys s ++ dkeys t.
Proof. apply map_app. Qed.

Lemma dvals_app (s t : shape) : dvals (s ++ t) = dvals s ++ dvals t.
Proof. apply map_app. Qed.

(** the common shape of [orth] and of a shape that fits in it where they overlap *)
Lemma merge_shapes (orth sh : shape) : NoDup (dkeys orth) -> NoDup (dkeys sh) ->
  (forall ax n m, In (ax, n) sh -> In (ax, m) orth -> n = 1 \/ n = m) ->
  broadcast_shapes [orth; sh] = Ok (orth ++ without sh (dkeys orth)).
Proof.
  intros N1 N2 H.
  assert (Nb : Forall (fun s => NoDup (dkeys s)) [orth; sh]) by (repeat constructor; auto).
  assert (NR : NoDup (dkeys (orth ++ without sh (dkeys orth)))).
  { rewrite dkeys_app, dkeys_without. apply NoDup_app_intro; auto; [now apply NoDup_filter|].
    intros ax Ha Hf. apply filter_In in Hf as [_ Hf]. apply Bool.negb_true_iff, smem_false in Hf. contradiction. }
  destruct (broadcast_shapes_total _ Nb) as [(r & E)|E].
  - rewrite E. f_equal. destruct (broadcast_shapes_ok _ _ Nb E) as (Nr & Kr & Pr).
    apply shape_eq; auto.
    + rewrite Kr, dkeys_app, dkeys_without. cbn [map concat]. rewrite app_nil_r, ReorderFacts.first_appearance_app.
      rewrite (nodup_first_appearance (dkeys orth) N1), (nodup_first_appearance (dkeys sh) N2). reflexivity.
    + intros ax n Hn. apply Pr in Hn as [Hk C]. destruct C as [C1 C2]. apply in_app_iff.
      simpl in Hk. rewrite app_nil_r in Hk. unfold sizes_of in C1, C2. simpl in C1, C2.
      destruct (in_dec string_dec ax (dkeys orth)) as [Ho|Ho].
      * left. apply key_size in Ho as [m Hm]. rewrite (dget_NoDup orth ax m N1 Hm) in C1, C2. simpl in C1, C2.
        destruct (dget sh ax) as [k|] eqn:Ek; simpl in C1, C2.
        -- apply dget_In in Ek. destruct (H ax k m Ek Hm) as [-> | ->].
           ++ destruct (C1 m (or_introl eq_refl)) as [-> | ->]; auto.
              replace n with 1; auto. symmetry. apply C2. intros x [<- |[<- |[]]]; auto.
           ++ destruct (C1 m (or_introl eq_refl)) as [-> | ->]; auto.
              replace n with 1; auto. symmetry. apply C2. intros x [<- |[<- |[]]]; auto.
        -- destruct (C1 m (or_introl eq_refl)) as [-> | ->]; auto.
           replace n with 1; auto. symmetry. apply C2. intros x [<- |[]]; auto.
      * right. apply without_In. split; auto. apply in_app_iff in Hk as [Hk|Hk]; [contradiction|].
        apply key_size in Hk as [m Hm]. rewrite (proj2 (dget_None orth ax) Ho) in C1, C2.
        rewrite (dget_NoDup sh ax m N2 Hm) in C1, C2. simpl in C1, C2.
        destruct (C1 m (or_introl eq_refl)) as [-> | ->]; auto.
        replace n with 1; auto. symmetry. apply C2. intros x [<- |[]]; auto.
  - exfalso. apply broadcast_shapes_conflict in E; auto. destruct E as (ax & n & m & Hn & Hm & D & D1 & D2).
    unfold sizes_of in Hn, Hm. simpl in Hn, Hm.
    destruct (dget orth ax) as [a|] eqn:Ea; destruct (dget sh ax) as [b|] eqn:Eb; simpl in Hn, Hm.
    + apply dget_In in Ea, Eb. specialize (H ax b a Eb Ea). intuition; subst; intuition.
    + intuition; subst; intuition.
    + intuition; subst; intuition.
    + intuition.
Qed.

(** ** Cells *)

Lemma size_of_key (c : shape) ax n : NoDup (dkeys c) -> In (ax, n) c -> size_of c ax = n.
Proof. apply size_of_In. Qed.

Lemma sizes_dvals (c : shape) : NoDup (dkeys c) -> map (size_of c) (dkeys c) = dvals c.
Proof.
  intros N. unfold dkeys, dvals. rewrite map_map. apply map_ext_in. intros [ax n] H. now apply size_of_In.
Qed.

Lemma fibre_cells sh sh' l e : (forall ax, In ax l -> size_of sh ax = size_of sh' ax) -> fibre sh l e = fibre sh' l e.
Proof. apply fibre_ext. Qed.

Lemma nth_flat_map {X Y} (f : X -> list Y) n (l : list X) k d dx :
  (forall x, In x l -> length (f x) = n) -> k < length l * n -> nth k (flat_map f l) d = nth (k mod n) (f (nth (k / n) l dx)) d.
Proof.
  intros L. revert k. induction l as [|x l IH]; intros k Hk; simpl in *; [lia|].
  assert (n <> 0) by (intros ->; lia).
  destruct (lt_dec k n) as [Hn|Hn].
  - rewrite app_nth1 by (rewrite L; auto). rewrite Nat.div_small, Nat.mod_small by auto. reflexivity.
  - rewrite app_nth2 by (rewrite L; auto; lia). rewrite L by auto. rewrite IH; [|auto|lia].
    assert (E : k = (k - n) + 1 * n) by lia. rewrite E at 3 4. rewrite Nat.mod_add, Nat.div_add by auto.
    replace ((k - n) / n + 1) with (S ((k - n) / n)) by lia. reflexivity.
Qed.

Lemma cell_at_spec sh l e k : NoDup l -> k < prod (map (size_of sh) l) ->
  map (nth k (fibre sh l e) e) l = unravel (map (size_of sh) l) k /\ forall ax, ~ In ax l -> nth k (fibre sh l e) e ax = e ax.
Proof.
  intros N Hk. split.
  2:{ intros ax H. apply (fibre_inside sh l e). apply nth_In. now rewrite fibre_length. auto. }
  revert e k Hk. assert (G : forall e d k, k < prod (map (size_of sh) l) -> map (nth k (fibre sh l e) d) l = unravel (map (size_of sh) l) k).
  2:{ intros e k. apply G. }
  induction l as [|x l IH]; intros e d k Hk; [reflexivity|]. inversion N as [|? ? Nx Nl]; subst.
  cbn [fibre map unravel]. cbn [map] in Hk. change (prod (size_of sh x :: map (size_of sh) l)) with (size_of sh x * prod (map (size_of sh) l)) in Hk.
  set (p := prod (map (size_of sh) l)) in *.
  assert (p <> 0) by (intros Z; rewrite Z in Hk; lia).
  assert (Lp : forall i, In i (seq 0 (size_of sh x)) -> length (fibre sh l (set_env e x i)) = p) by (intros; apply fibre_length).
  rewrite (nth_flat_map (fun i => fibre sh l (set_env e x i)) p _ k d 0 Lp) by (rewrite seq_length; auto).
  assert (Q : k / p < size_of sh x) by (apply Nat.div_lt_upper_bound; lia).
  rewrite seq_nth by auto. simpl (0 + k / p). assert (R : k mod p < p) by (now apply Nat.mod_upper_bound).
  f_equal.
  - rewrite (proj2 (fibre_inside sh l (set_env e x (k / p)) _ (nth_In _ d (eq_ind_r (fun n => k mod p < n) R (fibre_length sh l _)))) x Nx).
    rewrite set_N. now rewrite Nat.mod_small.
  - now apply IH.
Qed.

(** ** Positions *)

Lemma spos_tail (l m : list string) : NoDup (l ++ m) -> map (fun x => spos x (l ++ m)) m = seq (length l) (length m).
Proof.
  intros N. apply list_eq_nth with (d := 0); [now rewrite map_length, seq_length|].
  intros i Hi. rewrite map_length in Hi. rewrite (map_nth_in (fun x => spos x (l ++ m)) m i ""%string 0 Hi), seq_nth by auto.
  replace (nth i m ""%string) with (nth (length l + i) (l ++ m) ""%string).
  - apply spos_nth; auto. rewrite app_length. lia.
  - rewrite app_nth2 by lia. f_equal. lia.
Qed.

Lemma filter_none {X} (f : X -> bool) l : (forall x, In x l -> f x = false) -> filter f l = [].
Proof. induction l as [|x l IH]; intros H; auto. simpl. rewrite (H x) by (simpl; auto). apply IH. intros; apply H; simpl; auto. Qed.

Lemma rest_tail s p q : length s = p + q -> rest s (seq p q) = seq 0 p.
Proof.
  intros L. unfold rest. rewrite L, seq_app, filter_app. simpl (0 + p).
  rewrite filter_all.
  - rewrite filter_none; [apply app_nil_r|]. intros x Hx. apply Bool.negb_false_iff. now apply nmem_In.
  - intros x Hx. apply Bool.negb_true_iff, nmem_false. rewrite in_seq in *. lia.
Qed.

Lemma sizes_head (a b : list nat) : sizes_at (a ++ b) (seq 0 (length a)) = a.
Proof.
  unfold sizes_at. transitivity (map (fun k => nth k a 0) (seq 0 (length a))); [|apply map_nth_seq].
  apply map_ext_in. intros k Hk. apply in_seq in Hk. apply app_nth1. lia.
Qed.

Lemma sizes_tail (a b : list nat) : sizes_at (a ++ b) (seq (length a) (length b)) = b.
Proof.
  unfold sizes_at. apply list_eq_nth with (d := 0); [now rewrite map_length, seq_length|].
  intros i Hi. rewrite map_length, seq_length in Hi. rewrite (map_nth_in _ _ i 0 0) by (now rewrite seq_length).
  rewrite seq_nth by auto. rewrite app_nth2 by lia. f_equal. lia.
Qed.

Lemma fold_sum {X} (c : X -> bool) (f : X -> Qc) l a :
  fold_left (fun acc w => if c w then (acc + f w)%Qc else acc) l a = (a + qsum (map (fun w => if c w then f w else qint 0) l))%Qc.
Proof.
  revert a. induction l as [|x l IH]; intros a; simpl.
  - change (qint 0) with 0%Qc. ring.
  - rewrite IH. destruct (c x); [ring|]. change (qint 0) with 0%Qc. ring.
Qed.

Lemma unravel_length sh k : length (unravel sh k) = length sh.
Proof. revert k. induction sh; intros k; simpl; auto. Qed.

Lemma transpose_id {A} (v : nd A) idx : length idx = ndim v -> nget (transpose (seq 0 (ndim v)) v) idx = nget v idx.
Proof.
  intros L. rewrite <- (map_nth_seq idx 0) at 1. rewrite L. rewrite (transpose_read _ v (fun i => nth i idx 0)) by apply Permutation_refl.
  rewrite <- L. now rewrite map_nth_seq.
Qed.

Lemma same_sizes_refl l : same_sizes l l = true.
Proof. unfold same_sizes. destruct (list_eq_dec Nat.eq_dec l l); congruence. Qed.

Lemma rg_apply_ok (weights : nd (list weight)) dO ci co (v : nd Qc) : nshape weights = dO -> nshape v = dO ++ ci ->
  (forall idx w, inb idx dO -> In w (nget weights idx) -> fst (fst w) < prod ci /\ snd (fst w) < prod co) ->
  exists r, rg_apply weights (dO ++ ci) (dO ++ co) v (seq (length dO) (length ci)) (seq (length dO) (length co)) = Ok r /\
    nshape r = dO ++ co /\
    forall o c, length o = length dO -> length c = length co ->
      nget r (o ++ c) = qsum (map (fun w : weight => if snd (fst w) =? ravel_idx co c
                                            then (snd w * nget v (o ++ unravel ci (fst (fst w))))%Qc else qint 0) (nget weights o)).
Proof.
  intros Sw Sv R. unfold rg_apply.
  rewrite !rest_tail by (now rewrite app_length). rewrite !sizes_head, !sizes_tail, Sw, same_sizes_refl. cbn [andb negb].
  assert (F : forallb (forallb (fun w : weight => (fst (fst w) <? prod ci) && (snd (fst w) <? prod co))) (ravel weights) = true).
  { apply forallb_forall. intros l Hl. unfold ravel in Hl. apply in_map_iff in Hl as (idx & <- & Hi). apply forallb_forall. intros w Hw.
    rewrite Sw in Hi. apply ndindex_In in Hi. destruct (R idx w Hi Hw) as [R1 R2].
    apply andb_true_intro. split; now apply Nat.ltb_lt. }
  rewrite F. cbn [negb]. eexists. split; [reflexivity|]. cbn [nshape nget]. split; [reflexivity|].
  intros o c Lo Lc. rewrite <- Lo, <- Lc, sizes_head, sizes_tail. rewrite fold_sum.
  match goal with |- (qz 0 + ?x)%Qc = ?y => transitivity x; [change (qz 0) with 0%Qc; ring|] end.
  f_equal. apply map_ext. intros w. destruct (snd (fst w) =? ravel_idx co c); auto. f_equal.
  rewrite Lo, <- seq_app. assert (D : length dO + length ci = ndim v) by (unfold ndim; now rewrite Sv, app_length).
  rewrite D. apply transpose_id. rewrite app_length, unravel_length. lia.
Qed.

Lemma fits_spread_any {A} (s : sarr A) sh : wf s -> NoDup (dkeys sh) -> fits_in (sshape s) sh ->
  exists s', na_broadcast_to s sh false = Ok s' /\ wf s' /\ sshape s' = sh /\ forall e, at_ s' e = bat s e.
Proof.
  intros W N F. destruct (na_broadcast_to_intro s sh W N) as (r & E).
  { intros ax H. rewrite <- wf_keys in H by auto. apply key_size in H as [n H]. destruct (F _ _ H) as (m & Hm & _).
    now apply (in_map fst) in Hm. }
  { intros ax n H. apply dget_In in H. destruct (F _ _ H) as (m & Hm & [-> | ->]); auto. }
  exists r. split; auto. destruct (na_broadcast_to_ok _ _ _ W N E) as (_ & _ & Wr & Sr & Vr). repeat split; auto; apply Wr.
Qed.

Lemma inside_inb_keys (sh : shape) e : inb (map e (dkeys sh)) (dvals sh) -> inside e sh.
Proof.
  intros H ax n Hin. induction sh as [|[k m] sh IH]; [destruct Hin|]. simpl in H. inversion H; subst.
  destruct Hin as [E|Hin]; [injection E as -> ->; auto|]. now apply IH.
Qed.

(** ** Regridding *)

Section Regrid.
Variables (W : weights_array) (sh_in sh_out : shape).
Hypothesis G : grids_ok W sh_in sh_out.
Let c_in := grid_cells W sh_in.
Let c_out := grid_cells W sh_out.

Lemma cells_nodup sh : NoDup (dkeys sh) -> NoDup (dkeys (grid_cells W sh)).
Proof. intros N. unfold grid_cells. rewrite dkeys_without. now apply NoDup_filter. Qed.

Lemma cell_in_cells c e k : NoDup (dkeys c) -> k < prod (dvals c) ->
  map (cell_at c e k) (dkeys c) = unravel (dvals c) k /\ forall ax, ~ In ax (dkeys c) -> cell_at c e k ax = e ax.
Proof.
  intros N H. unfold cell_at. rewrite <- (sizes_dvals c N) in *. now apply cell_at_spec.
Qed.

Lemma orth_facts x orth : values_ok W sh_in sh_out x orth ->
  NoDup (dkeys orth) /\ fits_in (sshape W) orth /\ (forall ax n, In (ax, n) (sshape W) -> n = 1 \/ In (ax, n) orth) /\
  (forall ax, In ax (dkeys orth) -> ~ In ax (dkeys c_in)) /\ fits_in (op_shape x) (orth ++ c_in) /\
  broadcast_shapes [orth; sh_in] = Ok (orth ++ c_in) /\ broadcast_shapes [orth; sh_out] = Ok (orth ++ c_out) /\
  without (orth ++ c_in) (dkeys c_in) = orth.
Proof.
  destruct G as (WW & Ni & No & Gs & Gv). intros (Wx & EB & Fx & Dx). fold c_in in EB, Fx. fold c_out in Dx.
  assert (Nb : Forall (fun s => NoDup (dkeys s)) [without (op_shape x) (dkeys c_in); sshape W]).
  { repeat constructor; [|now apply wf_nodup]. rewrite dkeys_without. apply NoDup_filter. now apply op_shape_NoDup. }
  destruct (broadcast_shapes_ok _ _ Nb EB) as (N & K & _).
  assert (FW : forall ax n, In (ax, n) (sshape W) -> n = 1 \/ In (ax, n) orth).
  { intros ax n H. apply (broadcast_covers _ orth (sshape W) ax n Nb EB); simpl; auto. }
  assert (KW : forall ax, In ax (s_axes W) -> In ax (dkeys orth)).
  { intros ax H. rewrite <- wf_keys in H by auto. apply key_size in H as [n H].
    apply (broadcast_covers _ orth (sshape W) ax n Nb EB); simpl; auto. }
  assert (Di : forall ax, In ax (dkeys orth) -> ~ In ax (dkeys c_in)).
  { intros ax H Hc. rewrite K in H. apply (proj1 (first_appearance_In _ _)) in H. cbn [map concat] in H. rewrite app_nil_r in H.
    apply in_app_iff in H as [H|H].
    - rewrite dkeys_without in H. apply filter_In in H as [_ H]. apply Bool.negb_true_iff, smem_false in H. contradiction.
    - rewrite wf_keys in H by auto. unfold c_in, grid_cells in Hc. rewrite dkeys_without in Hc. apply filter_In in Hc as [_ Hc].
      apply Bool.negb_true_iff, smem_false in Hc. contradiction. }
  assert (M : forall sh, NoDup (dkeys sh) -> (forall ax n, In (ax, n) (sshape W) -> In (ax, n) sh) ->
              (forall ax, In ax (dkeys orth) -> ~ In ax (dkeys (grid_cells W sh))) ->
              broadcast_shapes [orth; sh] = Ok (orth ++ grid_cells W sh)).
  { intros sh Nsh Hsh D. rewrite merge_shapes; auto.
    - f_equal. f_equal. unfold grid_cells, without. apply filter_ext_in. intros [ax n] Hin. cbn [fst]. f_equal.
      apply Bool.eq_iff_eq_true. rewrite !smem_In. split; auto. intros Ho.
      destruct (in_dec string_dec ax (s_axes W)) as [Hw|Hw]; auto. exfalso. apply (D ax Ho).
      assert (In (ax, n) (grid_cells W sh)) as Hc by (apply without_In; auto). now apply (in_map fst) in Hc.
    - intros ax n m Hn Hm. assert (Ho : In ax (dkeys orth)) by (now apply (in_map fst) in Hm).
      destruct (in_dec string_dec ax (s_axes W)) as [Hw|Hw].
      + rewrite <- wf_keys in Hw by auto. apply key_size in Hw as [k Hk]. pose proof (Hsh _ _ Hk) as Hk'.
        assert (n = k) by (apply (entry_eq sh ax); auto). subst k. destruct (FW ax n Hk) as [->|Hf]; auto.
        right. apply (entry_eq orth ax); auto.
      + exfalso. apply (D ax Ho). assert (In (ax, n) (grid_cells W sh)) as Hc by (apply without_In; auto). now apply (in_map fst) in Hc. }
  split; auto. split.
  { intros ax n H. destruct (FW ax n H) as [->|Hf]; [|eauto]. rewrite <- wf_keys in KW by auto.
    assert (In ax (dkeys orth)) as Ho by (apply KW; now apply (in_map fst) in H). apply key_size in Ho as [m Hm]. eauto. }
  split; auto. split; auto. split.
  { intros ax n H. destruct (in_dec string_dec ax (dkeys c_in)) as [Hc|Hc].
    - apply key_size in Hc as [m Hm]. exists m. split; [apply in_app_iff; auto|]. eapply Fx; eauto.
    - assert (H' : In (ax, n) (without (op_shape x) (dkeys c_in))) by (apply without_In; auto).
      destruct (broadcast_covers _ orth _ ax n Nb EB (or_introl eq_refl) H') as [Hk Hn].
      destruct Hn as [->|Hn]; [|exists n; split; auto; apply in_app_iff; auto].
      apply key_size in Hk as [m Hm]. exists m. split; auto. apply in_app_iff; auto. }
  split; [apply M; auto; intros; now apply Gs|]. split; [apply M; auto; intros; now apply Gs|].
  unfold without. rewrite filter_app, filter_all.
  - rewrite filter_none; [apply app_nil_r|]. intros [ax n] H. cbn [fst]. apply Bool.negb_false_iff, smem_In. now apply (in_map fst) in H.
  - intros [ax n] H. cbn [fst]. apply Bool.negb_true_iff, smem_false. apply Di. now apply (in_map fst) in H.
Qed.

Lemma valid_bat orth e i j w : NoDup (dkeys orth) -> fits_in (sshape W) orth -> inside e orth -> In (i, j, w) (bat W e) ->
  i < prod (dvals c_in) /\ j < prod (dvals c_out).
Proof.
  destruct G as (WW & _ & _ & _ & Gv). intros N F I H. apply (Gv (bclamp (sshape W) e) i j w); auto.
  apply clamp_inside; [now apply wf_nodup|]. intros ax n Hn. destruct (F ax n Hn) as (m & Hm & [-> | ->]); auto.
Qed.

Theorem regrid_ok x orth : values_ok W sh_in sh_out x orth ->
  exists r, regrid_from_weights W sh_in sh_out x = Ok r /\ regridded W sh_in sh_out x orth r.
Proof.
  intros V. destruct (orth_facts x orth V) as (N & FW & _ & Di & Fx & Bi & Bo & Wo).
  destruct V as (Wx & EB & _ & Do). fold c_in in EB. fold c_out in Do.
  pose proof G as (WW & Ni & No & Gs & Gv).
  assert (Nci : NoDup (dkeys c_in)) by (now apply cells_nodup).
  assert (Nco : NoDup (dkeys c_out)) by (now apply cells_nodup).
  assert (Nin : NoDup (dkeys (orth ++ c_in))) by (rewrite dkeys_app; apply NoDup_app_intro; auto).
  assert (Nout : NoDup (dkeys (orth ++ c_out))) by (rewrite dkeys_app; apply NoDup_app_intro; auto).
  unfold regrid_from_weights, weight.
  change (not_in sh_in (s_axes W)) with (filter (fun ax => negb (smem ax (s_axes W))) (dkeys sh_in)).
  change (not_in sh_out (s_axes W)) with (filter (fun ax => negb (smem ax (s_axes W))) (dkeys sh_out)).
  rewrite <- !dkeys_without. fold (grid_cells W sh_in) (grid_cells W sh_out) c_in c_out.
  rewrite normalize_shape.
  match goal with |- context [bind (broadcast_shapes ?a)] => assert (EB' : broadcast_shapes a = Ok orth) by exact EB end. rewrite EB'. cbn [bind]. rewrite Bi. cbn [bind].
  rewrite Bo. cbn [bind]. 
  match goal with |- context [na_broadcast_to W ?a] => change a with (without (orth ++ c_in) (dkeys c_in)) end. rewrite Wo.
  destruct (fits_spread_any W orth WW N FW) as (w & Ew & Ww & Sw & Vw). rewrite Ew. cbn [bind].
  destruct (fits_spread_any (normalize x) (orth ++ c_in) (normalize_wf x Wx) Nin) as (v & Ev & Wv & Sv & Vv).
  { now rewrite normalize_shape. }
  rewrite Ev. cbn [bind].
  rewrite !mapM_index_of by (rewrite dkeys_app; intros ax H; apply in_app_iff; auto). cbn [bind].
  rewrite !dkeys_app, !spos_tail by (now rewrite <- dkeys_app). rewrite !dvals_app.
  replace (length (dkeys orth)) with (length (dvals orth)) by (unfold dvals, dkeys; now rewrite !map_length).
  replace (length (dkeys c_in)) with (length (dvals c_in)) by (unfold dvals, dkeys; now rewrite !map_length).
  replace (length (dkeys c_out)) with (length (dvals c_out)) by (unfold dvals, dkeys; now rewrite !map_length).
  assert (Aw : s_axes w = dkeys orth) by (rewrite <- wf_keys, Sw; auto).
  assert (Av : s_axes v = dkeys orth ++ dkeys c_in) by (rewrite <- wf_keys, Sv, dkeys_app; auto).
  assert (Nw : nshape (s_nd w) = dvals orth) by (rewrite <- wf_vals, Sw; auto).
  assert (Nv : nshape (s_nd v) = dvals orth ++ dvals c_in) by (rewrite <- wf_vals, Sv, dvals_app; auto).
  destruct (rg_apply_ok (s_nd w) (dvals orth) (dvals c_in) (dvals c_out) (s_nd v) Nw Nv) as (r & Er & Sr & Vr).
  { intros idx [[i j] q] Hi Hq. cbn [fst snd].
    assert (L : length idx = length (dkeys orth)).
    { unfold inb in Hi. apply Forall2_len in Hi. rewrite Hi. unfold dvals, dkeys. now rewrite !map_length. }
    pose proof (map_env_of (dkeys orth) idx N L) as ME.
    apply (valid_bat orth (env_of (dkeys orth) idx) i j q); auto.
    - apply inside_inb_keys; auto. now rewrite ME.
    - rewrite <- Vw. unfold at_. rewrite Aw, ME. exact Hq. }
  rewrite Er. cbn [bind].
  assert (Lr : length (dkeys orth ++ dkeys c_out) = length (nshape r)).
  { rewrite Sr, !app_length. unfold dkeys, dvals. now rewrite !map_length. }
  rewrite mk_sarr_intro; [|now rewrite <- dkeys_app|exact Lr].
  eexists. split; [reflexivity|]. split; [split; [cbn [s_axes]; now rewrite <- dkeys_app|exact Lr]|].
  assert (Ssh : sshape (mkS r (dkeys orth ++ dkeys c_out)) = orth ++ c_out).
  { unfold sshape. cbn [s_axes s_nd]. rewrite Sr, <- dkeys_app, <- dvals_app. apply combine_dkeys_dvals. }
  split; [exact Ssh|]. fold c_in c_out. intros e He. rewrite Ssh in He.
  assert (Io : inside e orth) by (intros ax n H; apply He, in_app_iff; auto).
  unfold at_ at 1. cbn [s_nd s_axes]. rewrite map_app.
  rewrite Vr by (rewrite map_length; unfold dkeys, dvals; now rewrite !map_length).
  unfold weighted. rewrite <- (Vw e). unfold at_ at 1. rewrite Aw. f_equal. apply map_ext_in. intros [[i j] q] Hq. cbn [fst snd].
  unfold cell_number. rewrite row_major_ravel by (unfold dkeys, dvals; now rewrite !map_length).
  destruct (j =? ravel_idx (dvals c_out) (map e (dkeys c_out))); auto. f_equal.
  assert (Hi : i < prod (dvals c_in)).
  { apply (valid_bat orth e i j q); auto. rewrite <- Vw. unfold at_. now rewrite Aw. }
  destruct (cell_in_cells c_in e i Nci Hi) as [C1 C2].
  transitivity (at_ v (cell_at c_in e i)).
  - unfold at_. rewrite Av, map_app, C1. f_equal. f_equal. apply map_ext_in. intros ax Hax. symmetry. apply C2. now apply Di.
  - rewrite Vv. exact (LinspaceFacts.op_at_normalize x (cell_at c_in e i)).
Qed.

End Regrid.

(** ** Linearity *)

Lemma qsum_map_add {X} (f g h : X -> Qc) a b l : (forall x, In x l -> h x = (a * f x + b * g x)%Qc) ->
  qsum (map h l) = (a * qsum (map f l) + b * qsum (map g l))%Qc.
Proof.
  induction l as [|x l IH]; intros H; simpl.
  - change (qint 0) with 0%Qc. ring.
  - rewrite IH by (intros; apply H; simpl; auto). rewrite (H x) by (simpl; auto). ring.
Qed.

(** the value at a broadcast position *)
Lemma regridded_bat W sh_in sh_out x orth r e : grids_ok W sh_in sh_out -> values_ok W sh_in sh_out x orth ->
  regridded W sh_in sh_out x orth r ->
  within e orth -> inside e (grid_cells W sh_out) ->
  bat r e = weighted W (grid_cells W sh_in) x e (cell_number (grid_cells W sh_out) e).
Proof.
  intros G V (Wr & Sr & Vr) Ie Ic. destruct (orth_facts W sh_in sh_out G x orth V) as (N & FW & CW & Di & Fx & _).
  pose proof G as (WW & Ni & No & Gs & Gv). destruct V as (Wx & EB & _ & Do).
  set (c_in := grid_cells W sh_in) in *. set (c_out := grid_cells W sh_out) in *.
  assert (Nci : NoDup (dkeys c_in)) by (now apply cells_nodup).
  assert (Nco : NoDup (dkeys c_out)) by (now apply cells_nodup).
  assert (NR : NoDup (dkeys (sshape r))) by (now apply wf_nodup).
  unfold bat at 1. set (e1 := bclamp (sshape r) e).
  assert (I1 : inside e1 (sshape r)).
  { apply clamp_inside; auto. intros ax n H. rewrite Sr in H. apply in_app_iff in H as [H|H]; [now apply Ie|right; now apply Ic]. }
  rewrite (Vr e1 I1). unfold weighted.
  assert (E0 : forall ax, In ax (dkeys c_out) -> e1 ax = e ax).
  { intros ax H. apply key_size in H as [n H]. unfold e1, bclamp.
    rewrite (dget_NoDup (sshape r) ax n NR) by (rewrite Sr; apply in_app_iff; auto).
    specialize (Ic ax n H). destruct n as [|[|n]]; [lia| |reflexivity]. lia. }
  assert (E1 : cell_number c_out e1 = cell_number c_out e).
  { unfold cell_number. f_equal. apply map_ext_in. exact E0. }
  assert (E2 : bat W e1 = bat W e).
  { apply (op_at_clamp (OpArr W) (sshape r) e WW NR). intros ax n H. destruct (CW ax n H) as [->|C]; auto.
    right. rewrite Sr. apply in_app_iff; auto. }
  rewrite E1, E2. f_equal. apply map_ext_in. intros [[i j] w] Hin. destruct (j =? cell_number c_out e); auto. f_equal.
  assert (Hi : i < prod (dvals c_in)).
  { apply (Gv (bclamp (sshape W) e) i j w); auto. apply clamp_inside; [now apply wf_nodup|]. intros ax n Hn.
    destruct (CW ax n Hn) as [->|C]; auto. }
  destruct (cell_in_cells c_in e i Nci Hi) as [C1 C2]. destruct (cell_in_cells c_in e1 i Nci Hi) as [C1' C2'].
  assert (Q : forall ax, cell_at c_in e1 i ax = cell_at c_in e i ax \/ (~ In ax (dkeys c_in) /\ cell_at c_in e1 i ax = e1 ax /\ cell_at c_in e i ax = e ax)).
  { intros ax. destruct (in_dec string_dec ax (dkeys c_in)) as [Ha|Ha]; [left|right; auto].
    assert (M : map (cell_at c_in e1 i) (dkeys c_in) = map (cell_at c_in e i) (dkeys c_in)) by congruence.
    clear - M Ha. induction (dkeys c_in) as [|y l IH]; [destruct Ha|]. simpl in M. injection M as M1 M2. destruct Ha as [->|Ha]; auto. }
  destruct x as [a|y]; auto. cbn [op_at]. unfold bat, at_. f_equal. apply map_ext_in. intros ax Hax. unfold bclamp.
  rewrite <- (wf_keys a) in Hax by exact Wx. apply key_size in Hax as [n Hn].
  rewrite (dget_NoDup (sshape a) ax n (wf_nodup a Wx) Hn). destruct n as [|[|n]]; auto.
  - destruct (Q ax) as [->|(Hc & -> & ->)]; auto. unfold e1, bclamp.
    destruct (Fx ax 0 Hn) as (m & Hm & [D|<-]); [discriminate|]. apply in_app_iff in Hm as [Hm|Hm].
    + rewrite (dget_NoDup (sshape r) ax 0 NR) by (rewrite Sr; apply in_app_iff; auto). reflexivity.
    + exfalso. apply Hc. now apply (in_map fst) in Hm.
  - destruct (Q ax) as [->|(Hc & -> & ->)]; auto. unfold e1, bclamp.
    destruct (Fx ax (S (S n)) Hn) as (m & Hm & [D|<-]); [discriminate|]. apply in_app_iff in Hm as [Hm|Hm].
    + rewrite (dget_NoDup (sshape r) ax (S (S n)) NR) by (rewrite Sr; apply in_app_iff; auto). reflexivity.
    + exfalso. apply Hc. now apply (in_map fst) in Hm.
Qed.

(** the other axes of values that fit in others *)
Lemma orth_fits W sh_in sh_out x z ox oz e : grids_ok W sh_in sh_out -> values_ok W sh_in sh_out x ox -> values_ok W sh_in sh_out z oz ->
  fits_in (op_shape x) (op_shape z) -> inside e oz -> within e ox.
Proof.
  intros G V Vz F I ax n H.
  destruct (orth_facts W sh_in sh_out G x ox V) as (N & _ & _ & Dx & _).
  destruct (orth_facts W sh_in sh_out G z oz Vz) as (Nz & FW & _ & Dz & Fz & _).
  destruct V as (Wx & EB & _ & _). destruct Vz as (Wz & EBz & _ & _).
  pose proof G as (WW & _).
  assert (Nb : Forall (fun s => NoDup (dkeys s)) [without (op_shape x) (dkeys (grid_cells W sh_in)); sshape W]).
  { repeat constructor; [|now apply wf_nodup]. rewrite dkeys_without. apply NoDup_filter. now apply op_shape_NoDup. }
  destruct (VectorIndexFacts.broadcast_attained _ _ ax n Nb EB H) as (s & Hs & Hn). destruct Hs as [<- |[<- |[]]].
  - apply without_In in Hn as [Hn Ha]. destruct (F ax n Hn) as (m & Hm & [->|<-]); auto.
    destruct (Fz ax n Hm) as (k & Hk & [->|<-]); auto. apply in_app_iff in Hk as [Hk|Hk]; [right; now apply I|].
    exfalso. apply Ha. now apply (in_map fst) in Hk.
  - destruct (FW ax n Hn) as (m & Hm & [->|<-]); auto.
Qed.

Theorem regrid_linear W sh_in sh_out x y z ox oy oz (a b : Qc) : grids_ok W sh_in sh_out ->
  values_ok W sh_in sh_out x ox -> values_ok W sh_in sh_out y oy -> values_ok W sh_in sh_out z oz ->
  fits_in (op_shape x) (op_shape z) -> fits_in (op_shape y) (op_shape z) ->
  (forall e, inside e (op_shape z) -> op_at z e = (a * op_at x e + b * op_at y e)%Qc) ->
  exists rx ry rz, regrid_from_weights W sh_in sh_out x = Ok rx /\ regrid_from_weights W sh_in sh_out y = Ok ry /\
    regrid_from_weights W sh_in sh_out z = Ok rz /\
    forall e, inside e (sshape rz) -> at_ rz e = (a * bat rx e + b * bat ry e)%Qc.
Proof.
  intros G Vx Vy Vz Fx Fy H.
  destruct (regrid_ok W sh_in sh_out G x ox Vx) as (rx & Ex & Rx).
  destruct (regrid_ok W sh_in sh_out G y oy Vy) as (ry & Ey & Ry).
  destruct (regrid_ok W sh_in sh_out G z oz Vz) as (rz & Ez & Rz).
  exists rx, ry, rz. repeat (split; [assumption|]). intros e I. destruct Rz as (Wz & Sz & Vz').
  rewrite (Vz' e I). rewrite Sz in I.
  assert (Io : inside e oz) by (intros ax n Hn; apply I, in_app_iff; auto).
  assert (Ic : inside e (grid_cells W sh_out)) by (intros ax n Hn; apply I, in_app_iff; auto).
  rewrite (regridded_bat W sh_in sh_out x ox rx e G Vx Rx (orth_fits W sh_in sh_out x z ox oz e G Vx Vz Fx Io) Ic).
  rewrite (regridded_bat W sh_in sh_out y oy ry e G Vy Ry (orth_fits W sh_in sh_out y z oy oz e G Vy Vz Fy Io) Ic).
  pose proof G as (WW & Ni & No & Gs & Gv).
  destruct (orth_facts W sh_in sh_out G z oz Vz) as (Nz & _ & CW & Dz & Fz & _).
  assert (Nci : NoDup (dkeys (grid_cells W sh_in))) by (now apply cells_nodup).
  apply qsum_map_add. intros [[i j] w] Hin. destruct (j =? cell_number (grid_cells W sh_out) e).
  - assert (Hi : i < prod (dvals (grid_cells W sh_in))).
    { apply (Gv (bclamp (sshape W) e) i j w); auto. apply clamp_inside; [now apply wf_nodup|]. intros ax n Hn.
      destruct (CW ax n Hn) as [->|C]; auto. }
    destruct (cell_in_cells (grid_cells W sh_in) e i Nci Hi) as [C1 C2].
    set (e1 := cell_at (grid_cells W sh_in) e i) in *.
    assert (I1 : inside e1 (grid_cells W sh_in)) by (apply inside_inb_keys; rewrite C1; now apply unravel_inb).
    assert (Q : within e1 (op_shape z)).
    { intros ax n Hn. destruct (Fz ax n Hn) as (m & Hm & [->|<-]); auto. right. apply in_app_iff in Hm as [Hm|Hm]; [|now apply I1].
      rewrite C2; [now apply Io|]. apply Dz. now apply (in_map fst) in Hm. }
    pose proof (proj1 Vz) as Wzo. pose proof (op_shape_NoDup z Wzo) as Nsz.
    pose proof (H _ (clamp_inside e1 (op_shape z) Nsz Q)) as H1.
    rewrite (op_at_clamp z (op_shape z) e1 Wzo Nsz) in H1 by auto.
    rewrite (op_at_clamp x (op_shape z) e1 (proj1 Vx) Nsz) in H1 by (intros ax n Hn; destruct (Fx ax n Hn) as (m & Hm & [->|<-]); auto).
    rewrite (op_at_clamp y (op_shape z) e1 (proj1 Vy) Nsz) in H1 by (intros ax n Hn; destruct (Fy ax n Hn) as (m & Hm & [->|<-]); auto).
    rewrite H1. ring.
  - change (qint 0) with 0%Qc. ring.
Qed.

(** ** The transpose *)

Lemma transpose_weights_ok W sh_in sh_out : wf W ->
  exists T, transpose_weights (W, sh_in, sh_out) = Ok (T, sh_out, sh_in) /\ wf T /\ sshape T = sshape W /\ s_axes T = s_axes W /\
    forall e, at_ T e = map swap (at_ W e).
Proof.
  intros (N & L). unfold transpose_weights. rewrite mk_sarr_intro by auto. cbn [bind].
  eexists. split; [reflexivity|]. split; [split; auto|]. split; [reflexivity|]. split; [reflexivity|].
  intros e. unfold at_. cbn [s_nd s_axes rg_transpose nget]. apply map_ext. intros [[i j] w]. reflexivity.
Qed.

Lemma qsum_swap {X Y} (f : X -> Y -> Qc) l m :
  qsum (map (fun x => qsum (map (f x) m)) l) = qsum (map (fun y => qsum (map (fun x => f x y) l)) m).
Proof.
  induction l as [|x l IH]; simpl.
  - symmetry. apply qsum_zero. reflexivity.
  - rewrite IH. symmetry. apply (qsum_plus (f x) (fun y => qsum (map (fun x => f x y) l))).
Qed.

Lemma qsum_scale {X} (f : X -> Qc) a l : qsum (map (fun x => (f x * a)%Qc) l) = (qsum (map f l) * a)%Qc.
Proof. induction l as [|x l IH]; simpl; [|rewrite IH]; change (qint 0) with 0%Qc; ring. Qed.

(** the cells of a fibre, by number *)
Lemma fibre_cells_seq c e : NoDup (dkeys c) -> fibre c (dkeys c) e = map (cell_at c e) (seq 0 (prod (dvals c))).
Proof.
  intros N. unfold cell_at. symmetry. etransitivity; [|apply (map_nth_seq (fibre c (dkeys c) e) e)].
  f_equal. f_equal. rewrite fibre_length, <- (sizes_dvals c N). reflexivity.
Qed.

Lemma cell_number_at c e k : NoDup (dkeys c) -> k < prod (dvals c) -> cell_number c (cell_at c e k) = k.
Proof.
  intros N H. destruct (cell_in_cells c e k N H) as [E _]. unfold cell_number. rewrite E.
  rewrite row_major_ravel by (symmetry; apply unravel_length). now apply ravel_unravel.
Qed.

Section Adjoint.
Variables (W : weights_array) (sh_in sh_out : shape) (x y : operand Qc) (ox : shape) (r : sarr Qc).
Hypothesis G : grids_ok W sh_in sh_out.
Hypothesis V : values_ok W sh_in sh_out x ox.
Hypothesis R : regridded W sh_in sh_out x ox r.
Let c_in := grid_cells W sh_in.
Let c_out := grid_cells W sh_out.

(** one side of the adjoint, as a sum over the weights *)
Lemma side_sum e : within e ox ->
  qsum (map (fun e' => (bat r e' * op_at y e')%Qc) (fibre c_out (dkeys c_out) e)) =
  qsum (map (fun t => let '(i, j, w) := t in (w * op_at x (cell_at c_in e i) * op_at y (cell_at c_out e j))%Qc) (bat W e)).
Proof.
  intros I. pose proof G as (WW & Ni & No & Gs & Gv).
  destruct (orth_facts W sh_in sh_out G x ox V) as (N & FW & CW & Di & Fx & _).
  pose proof V as (Wx & EB & _ & Do). fold c_in in EB, Di, Fx. fold c_out in Do.
  assert (Nci : NoDup (dkeys c_in)) by (now apply cells_nodup).
  assert (Nco : NoDup (dkeys c_out)) by (now apply cells_nodup).
  rewrite fibre_cells_seq by auto. rewrite map_map.
  assert (E : forall k, In k (seq 0 (prod (dvals c_out))) ->
     (bat r (cell_at c_out e k) * op_at y (cell_at c_out e k))%Qc =
     qsum (map (fun t => let '(i, j, w) := t in
        if k =? j then (w * op_at x (cell_at c_in e i) * op_at y (cell_at c_out e j))%Qc else 0%Qc) (bat W e))).
  { intros k Hk. apply in_seq in Hk. assert (Hk' : k < prod (dvals c_out)) by lia. clear Hk.
    destruct (cell_in_cells c_out e k Nco Hk') as [C1 C2]. set (e1 := cell_at c_out e k) in *.
    assert (I1 : within e1 ox).
    { intros ax n H. rewrite (C2 ax); [now apply I|]. apply Do. now apply (in_map fst) in H. }
    assert (I2 : inside e1 (grid_cells W sh_out)).
    { apply inside_inb_keys. fold c_out. rewrite C1. now apply unravel_inb. }
    rewrite (regridded_bat W sh_in sh_out x ox r e1 G V R I1 I2). fold c_in c_out.
    assert (En : cell_number c_out e1 = k) by (now apply cell_number_at). unfold weighted. rewrite En. rewrite <- qsum_scale.
    assert (EW : bat W e1 = bat W e).
    { apply bat_agree; auto. intros ax H. apply C2. intros Hc. unfold c_out, grid_cells in Hc. rewrite dkeys_without in Hc.
      apply filter_In in Hc as [_ Hc]. apply Bool.negb_true_iff, smem_false in Hc. contradiction. }
    rewrite EW. f_equal. apply map_ext_in. intros [[i j] w] Hin. rewrite (Nat.eqb_sym k j).
    destruct (Nat.eqb_spec j k) as [->|Hj]; [|change (qint 0) with 0%Qc; ring]. fold e1. f_equal. f_equal.
    assert (Hi : i < prod (dvals c_in)).
    { apply (Gv (bclamp (sshape W) e) i k w); auto. apply clamp_inside; [now apply wf_nodup|]. intros ax n Hn.
      destruct (CW ax n Hn) as [->|C]; auto. }
    destruct (cell_in_cells c_in e i Nci Hi) as [D1 D2]. destruct (cell_in_cells c_in e1 i Nci Hi) as [D1' D2'].
    destruct x as [a|q]; auto. cbn [op_at]. apply bat_agree; auto. intros ax Hax.
    rewrite <- (wf_keys a) in Hax by exact Wx. apply key_size in Hax as [n Hn].
    destruct (Fx ax n Hn) as (m & Hm & _). apply in_app_iff in Hm as [Hm|Hm]; apply (in_map fst) in Hm; cbn [fst] in Hm.
    - rewrite D2, D2' by (now apply Di). apply C2. now apply Do.
    - assert (M : map (cell_at c_in e1 i) (dkeys c_in) = map (cell_at c_in e i) (dkeys c_in)) by congruence.
      clear - M Hm. change (map fst c_in) with (dkeys c_in) in Hm. induction (dkeys c_in) as [|z l IH]; [destruct Hm|].
      simpl in M. injection M as M1 M2. destruct Hm as [->|Ha]; auto. }
  rewrite (map_ext_in _ _ _ E). rewrite qsum_swap. f_equal. apply map_ext_in. intros [[i j] w] Hin.
  apply (qsum_single (fun k => k =? j) _ j).
  - apply seq_NoDup.
  - apply in_seq. split; [lia|]. cbn [plus].
    apply (Gv (bclamp (sshape W) e) i j w); auto. apply clamp_inside; [now apply wf_nodup|]. intros ax n Hn.
    destruct (CW ax n Hn) as [->|C]; auto.
  - apply Nat.eqb_refl.
  - intros k _ Hk. now apply Nat.eqb_eq in Hk.
Qed.

End Adjoint.

(** exchanged weights are weights for the exchanged grids *)
Lemma grids_swap W T sh_in sh_out : grids_ok W sh_in sh_out -> wf T -> sshape T = sshape W -> s_axes T = s_axes W ->
  (forall e, at_ T e = map swap (at_ W e)) -> grids_ok T sh_out sh_in.
Proof.
  intros (WW & Ni & No & Gs & Gv) WT ST AT H. split; auto. split; auto. split; auto. split.
  - intros ax n Hn. rewrite ST in Hn. destruct (Gs ax n Hn). auto.
  - intros e i j w I Hin. rewrite ST in I. rewrite H in Hin. apply in_map_iff in Hin as ([[j' i'] w'] & E & Hin).
    injection E as -> -> ->. destruct (Gv e j i w I Hin). unfold grid_cells. rewrite AT. auto.
Qed.

Theorem regrid_adjoint_at W T sh_in sh_out x y ox oy r s e : grids_ok W sh_in sh_out ->
  wf T -> sshape T = sshape W -> s_axes T = s_axes W -> (forall e, at_ T e = map swap (at_ W e)) ->
  values_ok W sh_in sh_out x ox -> values_ok T sh_out sh_in y oy ->
  regridded W sh_in sh_out x ox r -> regridded T sh_out sh_in y oy s ->
  within e ox -> within e oy ->
  qsum (map (fun e' => (bat r e' * op_at y e')%Qc) (fibre (grid_cells W sh_out) (dkeys (grid_cells W sh_out)) e)) =
  qsum (map (fun e' => (op_at x e' * bat s e')%Qc) (fibre (grid_cells W sh_in) (dkeys (grid_cells W sh_in)) e)).
Proof.
  intros G WT ST AT H Vx Vy Rx Ry Ix Iy.
  pose proof (grids_swap W T sh_in sh_out G WT ST AT H) as GT.
  rewrite (side_sum W sh_in sh_out x y ox r G Vx Rx e Ix).
  pose proof (side_sum T sh_out sh_in y x oy s GT Vy Ry e Iy) as B.
  assert (C : forall sh, grid_cells T sh = grid_cells W sh) by (intros; unfold grid_cells; now rewrite AT).
  rewrite !C in B. symmetry. etransitivity; [|etransitivity; [exact B|]].
  - f_equal. apply map_ext. intros e'. ring.
  - assert (EB : bat T e = map swap (bat W e)) by (unfold bat; rewrite H, ST; reflexivity).
    rewrite EB, map_map. f_equal. apply map_ext. intros [[i j] w]. simpl. ring.
Qed.

(** the sum over all positions *)
Theorem regrid_adjoint W T sh_in sh_out x y ox oy r s o : grids_ok W sh_in sh_out ->
  wf T -> sshape T = sshape W -> s_axes T = s_axes W -> (forall e, at_ T e = map swap (at_ W e)) ->
  values_ok W sh_in sh_out x ox -> values_ok T sh_out sh_in y oy ->
  regridded W sh_in sh_out x ox r -> regridded T sh_out sh_in y oy s ->
  NoDup (dkeys (o ++ grid_cells W sh_in)) -> NoDup (dkeys (o ++ grid_cells W sh_out)) -> fits_in ox o -> fits_in oy o ->
  forall e,
  qsum (map (fun e' => (bat r e' * op_at y e')%Qc)
            (fibre (o ++ grid_cells W sh_out) (dkeys (o ++ grid_cells W sh_out)) e)) =
  qsum (map (fun e' => (op_at x e' * bat s e')%Qc)
            (fibre (o ++ grid_cells W sh_in) (dkeys (o ++ grid_cells W sh_in)) e)).
Proof.
  intros G WT ST AT H Vx Vy Rx Ry Ni No Fx Fy e.
  assert (K : forall (c : shape) (f : env -> Qc), NoDup (dkeys (o ++ c)) ->
     qsum (map f (fibre (o ++ c) (dkeys (o ++ c)) e)) =
     qsum (map (fun e1 => qsum (map f (fibre c (dkeys c) e1))) (fibre o (dkeys o) e))).
  { intros c f N. rewrite dkeys_app in N |- *. rewrite fibre_app. rewrite flat_map_concat_map, concat_map, map_map, <- flat_map_concat_map.
    rewrite qsum_flat_map. assert (E : fibre (o ++ c) (dkeys o) e = fibre o (dkeys o) e).
    { apply fibre_ext. intros ax Hax. apply key_size in Hax as [n Hn].
      rewrite (size_of_In o ax n), (size_of_In (o ++ c) ax n); auto; [rewrite dkeys_app; auto|apply in_app_iff; auto|].
      clear - N. induction (dkeys o); [constructor|]. inversion N; subst. constructor; auto. rewrite in_app_iff in H1. tauto. }
    rewrite E. f_equal. apply map_ext. intros e1. f_equal. f_equal. apply fibre_ext. intros ax Hax. apply key_size in Hax as [n Hn].
    rewrite (size_of_In c ax n), (size_of_In (o ++ c) ax n); auto; [rewrite dkeys_app; auto|apply in_app_iff; auto|].
    clear - N. induction (dkeys o); auto. inversion N; auto. }
  rewrite !K by auto. f_equal. apply map_ext_in. intros e1 H1. apply fibre_inside in H1 as [H1 _].
  assert (I : inside e1 o).
  { intros ax n Hn. rewrite <- (size_of_In o ax n); auto; [apply H1; now apply (in_map fst) in Hn|].
    rewrite dkeys_app in No. clear - No. induction (dkeys o); [constructor|]. inversion No; subst. constructor; auto.
    rewrite in_app_iff in H1. tauto. }
  assert (Q : forall o', fits_in o' o -> within e1 o').
  { intros o' F ax n Hn. destruct (F ax n Hn) as (m & Hm & [->|<-]); auto. }
  now apply (regrid_adjoint_at W T sh_in sh_out x y ox oy r s e1); auto.
Qed.

Theorem transpose_twice W sh_in sh_out : wf W ->
  exists T W', transpose_weights (W, sh_in, sh_out) = Ok (T, sh_out, sh_in) /\ transpose_weights (T, sh_out, sh_in) = Ok (W', sh_in, sh_out) /\
    sshape W' = sshape W /\ forall e, at_ W' e = at_ W e.
Proof.
  intros WW. destruct (transpose_weights_ok W sh_in sh_out WW) as (T & E & WT & ST & AT & H).
  destruct (transpose_weights_ok T sh_out sh_in WT) as (W' & E' & WT' & ST' & AT' & H').
  exists T, W'. split; auto. split; auto. split; [congruence|]. intros e. rewrite H', H, map_map.
  rewrite <- map_id. apply map_ext. intros [[i j] w]. reflexivity.
Qed.

Lemma values_same W T sh_in sh_out x o : sshape T = sshape W -> s_axes T = s_axes W ->
  values_ok W sh_in sh_out x o -> values_ok T sh_in sh_out x o.
Proof. intros S A. unfold values_ok, grid_cells. now rewrite S, A. Qed.

Theorem adjoint W sh_in sh_out x y ox oy : grids_ok W sh_in sh_out ->
  values_ok W sh_in sh_out x ox -> values_ok W sh_out sh_in y oy ->
  exists T r s, transpose_weights (W, sh_in, sh_out) = Ok (T, sh_out, sh_in) /\
    regrid_from_weights W sh_in sh_out x = Ok r /\ regrid_from_weights T sh_out sh_in y = Ok s /\
    (forall e, reaches e ox -> reaches e oy ->
       inner (bat r) (op_at y) (grid_cells W sh_out) e = inner (op_at x) (bat s) (grid_cells W sh_in) e) /\
    (forall o e, NoDup (dkeys (o ++ grid_cells W sh_in)) -> NoDup (dkeys (o ++ grid_cells W sh_out)) ->
       fits_in ox o -> fits_in oy o ->
       inner (bat r) (op_at y) (o ++ grid_cells W sh_out) e = inner (op_at x) (bat s) (o ++ grid_cells W sh_in) e).
Proof.
  intros G Vx Vy. destruct (transpose_weights_ok W sh_in sh_out (proj1 G)) as (T & E & WT & ST & AT & H).
  destruct (regrid_ok W sh_in sh_out G x ox Vx) as (r & Er & Rr).
  pose proof (grids_swap W T sh_in sh_out G WT ST AT H) as GT.
  pose proof (values_same W T sh_out sh_in y oy ST AT Vy) as VT.
  destruct (regrid_ok T sh_out sh_in GT y oy VT) as (s & Es & Rs).
  exists T, r, s. split; auto. split; auto. split; auto. split.
  - intros e I J. now apply (regrid_adjoint_at W T sh_in sh_out x y ox oy r s e).
  - intros o e Ni No Fx Fy. now apply (regrid_adjoint W T sh_in sh_out x y ox oy r s o).
Qed.
