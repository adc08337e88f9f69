(** Facts about reorganising uncertain arrays. *)
From Coq Require Import String List Arith ZArith Bool Lia Permutation.
From Verif Require Import Base BaseFacts Numpy NumpyFacts Shapes Scalar Elementwise Reduce Reorder Vector Func Uncertain UncertainReorder Spec SpecUncertain
  ShapesFacts AlignFacts ElementwiseFacts ReduceFacts ReorderFacts AlongFacts SortingFacts LinspaceFacts VectorIndexFacts MatrixFacts OptimizeFacts HistTopFacts
  RankdataFacts PdfFacts GetitemFacts FuncFacts FuncOpsFacts FuncPairsFacts FuncShapeFacts PolyNameFacts UncertainFacts UncertainIndexFacts.
Import ListNotations.
Open Scope nat_scope.
Open Scope list_scope.

Lemma u_at_arrays {A} (n d : sarr A) (u : unc A) : wf n -> wf d ->
  (forall e, at_ n e = op_at (u_nominal u) e) -> (forall e, at_ d e = op_at (u_distribution u) e) ->
  forall w e, u_inside (mkU (OpArr n) (OpArr d)) w e -> u_at (Uncertain (mkU (OpArr n) (OpArr d))) w e = u_at (Uncertain u) w e.
Proof.
  intros Wn Wd Vn Vd [k|] e H; cbn [u_inside u_nominal u_distribution op_shape] in H; cbn [u_at u_nominal u_distribution op_at].
  - now rewrite bat_inside, Vd.
  - now rewrite bat_inside, Vn.
Qed.

Theorem u_transpose_spec {A} (u : unc A) axes sh : u_wf u -> u_shape u = Ok sh ->
  ((exists r, u_transpose u (Some axes) = Ok r) <-> NoDup axes /\ incl (dkeys sh) axes /\ ~ In axis_distribution axes) /\
  forall r, u_transpose u (Some axes) = Ok r ->
  exists n d, r = mkU (OpArr n) (OpArr d) /\ u_wf r /\ s_axes n = axes /\ s_axes d = axes ++ [axis_distribution] /\
    (forall ax m, In (ax, m) (sshape n) <-> In (ax, m) sh \/ (~ In ax (dkeys sh) /\ In ax axes /\ m = 1)) /\
    (forall ax m, In (ax, m) (sshape d) <->
       In (ax, m) (sshape n) \/
       (ax = axis_distribution /\ m = match dget (op_shape (u_distribution u)) axis_distribution with Some k => k | None => 1 end)) /\
    forall w e, u_inside r w e -> u_at (Uncertain r) w e = u_at (Uncertain u) w e.
Proof.
  intros W H. pose proof W as (_ & Wd0 & _).
  destruct (u_broadcasted_spec u sh W H) as (Ns & X & nb & db & Eb & Wnb & Wdb & Sn & Vn & Vd & (rest & K & Kr) & MEM).
  assert (An : s_axes nb = dkeys sh) by (now rewrite <- (wf_keys nb), Sn).
  assert (Ad : s_axes db = dkeys sh ++ rest) by (now rewrite <- (wf_keys db)).
  unfold u_transpose. rewrite Eb. cbn [bind u_nominal u_distribution normalize option_map].
  assert (C : forall r, (n <- na_transpose nb (Some axes) ;; d <- na_transpose db (Some (axes ++ [axis_distribution])) ;; mk_unc (OpArr n) (OpArr d)) = Ok r ->
     NoDup axes /\ incl (dkeys sh) axes /\ ~ In axis_distribution axes /\
     exists n d, na_transpose nb (Some axes) = Ok n /\ na_transpose db (Some (axes ++ [axis_distribution])) = Ok d /\ r = mkU (OpArr n) (OpArr d)).
  { intros r E. apply bind_ok in E as (n & En & E). apply bind_ok in E as (d & Ed & E).
    assert (P := proj1 (transpose_some_success nb axes Wnb) (ex_intro _ _ En)). destruct P as [P1 P2].
    assert (Q := proj1 (transpose_some_success db _ Wdb) (ex_intro _ _ Ed)). destruct Q as [Q1 _].
    split; auto. rewrite An in P2. split; auto. split.
    - intros B. apply in_split in B as (l1 & l2 & ->). rewrite <- app_assoc in Q1. apply NoDup_remove_2 in Q1.
      apply Q1. apply in_or_app. right. apply in_or_app. right. now left.
    - exists n, d. split; auto. split; auto. now apply mk_unc_ok in E as [-> _]. }
  split.
  - split; [intros [r E]; destruct (C r E) as (a & b & c & _); auto|]. intros (Na & Ia & Xa).
    destruct (proj2 (transpose_some_success nb axes Wnb)) as [n En]; [now rewrite An|].
    destruct (proj2 (transpose_some_success db (axes ++ [axis_distribution]) Wdb)) as [d Ed].
    { split; [apply PolyNameFacts.nodup_append; auto; [repeat constructor; intros []|intros x Hx [<- |[]]; contradiction]|].
      rewrite Ad. intros x Hx. apply in_app_or in Hx as [Hx|Hx]; apply in_or_app; [left; auto|right; left; symmetry; auto]. }
    rewrite En. cbn [bind]. rewrite Ed. cbn [bind]. eexists. apply mk_unc_intro. cbn [op_shape].
    destruct (transpose_some nb axes n Wnb En) as (Wr & Ar & _). now rewrite (wf_keys n Wr), Ar.
  - intros r E. destruct (C r E) as (Na & Ia & Xa & n & d & En & Ed & ->). exists n, d. split; [reflexivity|].
    destruct (transpose_some nb axes n Wnb En) as (Wr & Ar & Gr & Vr).
    destruct (transpose_some db _ d Wdb Ed) as (Wr' & Ar' & Gr' & Vr').
    split. { split; [exact Wr|split; [exact Wr'|]]. cbn [u_nominal op_shape]. now rewrite (wf_keys n Wr), Ar. }
    split; [exact Ar|]. split; [exact Ar'|].
    assert (Gn : forall ax m, In (ax, m) (sshape n) <-> In (ax, m) sh \/ (~ In ax (dkeys sh) /\ In ax axes /\ m = 1)).
    { intros ax m. now rewrite Gr, Sn, An. }
    split; [exact Gn|]. split.
    + intros ax m. rewrite Gr', MEM, Gn, Ad.
      assert (R : In axis_distribution (dkeys sh ++ rest) <-> exists k, dget (op_shape (u_distribution u)) axis_distribution = Some k).
      { rewrite <- K. split.
        - intros B. apply key_size in B as [k B]. apply MEM in B as [B|[_ B]]; [destruct X; now apply (in_map fst) in B|].
          exists k. apply in_dget; auto. now apply op_shape_nodup.
        - intros [k B]. apply dget_In in B. assert (In (axis_distribution, k) (sshape db)) by (apply MEM; auto).
          now apply (in_map fst) in H0. }
      split.
      * intros [[B|[-> B]]|(B & B' & ->)]; [now left; left| |].
        -- right. split; auto. apply (in_dget _ _ _ (op_shape_nodup _ Wd0)) in B. now rewrite B.
        -- apply in_app_or in B' as [B'|[<- |[]]].
           ++ left. right. split; auto. intros Z. apply B. apply in_or_app. now left.
           ++ right. split; auto. destruct (dget _ axis_distribution) eqn:D; auto. destruct B. apply R. eauto.
      * intros [[B|(B & B' & ->)]|[-> ->]]; [now left; left| |].
        -- right. split; [|split; [apply in_or_app; now left|reflexivity]].
           intros Z. apply in_app_or in Z as [Z|Z]; [contradiction|]. apply Kr in Z. subst ax. contradiction.
        -- destruct (dget _ axis_distribution) eqn:D.
           ++ left. right. split; auto. now apply dget_In.
           ++ right. split; [|split; [apply in_or_app; right; now left|reflexivity]]. intros Z. apply R in Z as [k Z]. congruence.
    + apply u_at_arrays; auto; intros e; [now rewrite Vr|now rewrite Vr'].
Qed.

Theorem u_transpose_default {A} (u : unc A) sh : u_wf u -> u_shape u = Ok sh ->
  exists n d, let r := mkU (OpArr n) (OpArr d) in
    u_transpose u None = Ok r /\ u_wf r /\ s_axes n = rev (dkeys sh) /\ same_shape (sshape n) sh /\
    (forall ax m, In (ax, m) (sshape d) <-> In (ax, m) sh \/ (ax = axis_distribution /\ In (ax, m) (op_shape (u_distribution u)))) /\
    (In axis_distribution (dkeys (op_shape (u_distribution u))) -> s_axes d = axis_distribution :: rev (dkeys sh)) /\
    forall w e, u_inside r w e -> u_at (Uncertain r) w e = u_at (Uncertain u) w e.
Proof.
  intros W H. destruct (u_broadcasted_spec u sh W H) as (Ns & X & nb & db & Eb & Wnb & Wdb & Sn & Vn & Vd & (rest & K & Kr) & MEM).
  destruct (transpose_none nb Wnb) as (n & En & Wr & Ar & Gr & Vr).
  destruct (transpose_none db Wdb) as (d & Ed & Wr' & Ar' & Gr' & Vr').
  assert (An : s_axes nb = dkeys sh) by (now rewrite <- (wf_keys nb), Sn).
  assert (Ad : s_axes db = dkeys sh ++ rest) by (now rewrite <- (wf_keys db)).
  exists n, d. cbn zeta. split.
  { unfold u_transpose. rewrite Eb. cbn [bind u_nominal u_distribution normalize option_map]. rewrite En. cbn [bind]. rewrite Ed. cbn [bind].
    apply mk_unc_intro. cbn [op_shape]. rewrite (wf_keys n Wr), Ar, <- in_rev, An. exact X. }
  split. { split; [exact Wr|split; [exact Wr'|]]. cbn [u_nominal op_shape]. rewrite (wf_keys n Wr), Ar, <- in_rev, An. exact X. }
  split; [now rewrite Ar, An|]. split; [now rewrite <- Sn|]. split; [intros ax m; rewrite (Gr' ax m); apply MEM|]. split.
  - intros B. rewrite Ar', Ad. assert (rest = [axis_distribution]) as ->; [|now rewrite rev_app_distr].
    assert (N : NoDup (dkeys sh ++ rest)) by (rewrite <- Ad; apply Wdb).
    assert (I : In axis_distribution rest).
    { apply key_size in B as [k B]. assert (Q : In (axis_distribution, k) (sshape db)) by (apply MEM; auto).
      apply (in_map fst) in Q. change (In axis_distribution (dkeys (sshape db))) in Q. rewrite K in Q. apply in_app_or in Q as [Q|Q]; auto. contradiction. }
    clear - Kr N I. destruct rest as [|a [|b l]]; [contradiction| |].
    + f_equal. apply Kr. now left.
    + exfalso. rewrite (Kr a), (Kr b) in N by (cbn; auto). apply NoDup_remove_2 in N. apply N. apply in_or_app. right. now left.
  - apply u_at_arrays; auto; intros e; [now rewrite Vr|now rewrite Vr'].
Qed.

(** ** Renaming *)

Lemma u_shape_keys {A} (u : unc A) sh ax : u_wf u -> u_shape u = Ok sh ->
  (In ax (dkeys (op_shape (u_nominal u))) \/ In ax (dkeys (op_shape (u_distribution u)))) -> ax <> axis_distribution -> In ax (dkeys sh).
Proof.
  intros W H C N. destruct (u_shape_ok u sh W H) as (sd & E & Nd & Ns & P & Fn & Fd & At).
  destruct C as [C|C]; apply key_size in C as [n C]; [apply Fn in C as (m & C & _)|apply Fd in C as (m & C & _)];
    assert (Q : In (ax, m) sh) by (apply P; auto); now apply (in_map fst) in Q.
Qed.

Lemma injective_on {A B} (g : A -> B) (l : list A) : NoDup (map g l) -> forall a b, In a l -> In b l -> g a = g b -> a = b.
Proof.
  induction l as [|c m IH]; intros Nm a b Ha Hb E; [contradiction|]. cbn in Nm. inversion Nm; subst.
  destruct Ha as [-> |Ha], Hb as [-> |Hb]; auto.
  - exfalso. apply H1. rewrite E. now apply in_map.
  - exfalso. apply H1. rewrite <- E. now apply in_map.
Qed.

Lemma nodup_injective {A B} (g : A -> B) (l : list A) : NoDup l -> (forall a b, In a l -> In b l -> g a = g b -> a = b) -> NoDup (map g l).
Proof.
  induction l as [|a l IH]; intros N J; cbn; [constructor|]. inversion N; subst. constructor; [|apply IH; auto; intros x y Hx Hy; apply J; now right].
  intros K. apply in_map_iff in K as (b & E & K). apply H1. rewrite (J a b); auto; [now left|now right].
Qed.

Lemma rename_cases (l : list (string * string)) ax : rename l ax = ax \/ In (ax, rename l ax) l.
Proof. unfold rename. destruct (dget l ax) eqn:E; auto. right. now apply dget_In. Qed.

Lemma in_map_fst {A B} (l : list (A * B)) x y : In (x, y) l -> In x (map fst l) /\ In y (map snd l).
Proof. intros H. split; [now apply (in_map fst) in H|now apply (in_map snd) in H]. Qed.

Theorem u_moveaxis_spec {A} (u : unc A) source destination sh : u_wf u -> u_shape u = Ok sh ->
  NoDup source -> length source = length destination -> incl source (dkeys sh) ->
  ForallOrdPairs (fun p q => snd p <> fst q) (combine source destination) ->
  let rho := rename (combine source destination) in
  NoDup (map rho (dkeys sh)) -> ~ In axis_distribution destination ->
  exists n d, let r := mkU (OpArr n) (OpArr d) in
    u_moveaxis u source destination = Ok r /\ u_wf r /\
    sshape n = map (fun kv => (rho (fst kv), snd kv)) (op_shape (u_nominal u)) /\
    sshape d = map (fun kv => (rho (fst kv), snd kv)) (op_shape (u_distribution u)) /\
    forall w e, u_inside r w e -> u_at (Uncertain r) w e = u_at (Uncertain u) w (fun ax => e (rho ax)).
Proof.
  intros W H N L I F rho Nr X. pose proof W as (Wn & Wd & Wx).
  destruct (u_broadcasted_spec u sh W H) as (Ns & Xs & _).
  assert (Ra : rho axis_distribution = axis_distribution).
  { destruct (rename_cases (combine source destination) axis_distribution) as [E|E]; auto.
    apply in_combine_l in E. now apply I in E. }
  assert (Rb : forall ax, rho ax = axis_distribution -> ax = axis_distribution).
  { intros ax E. destruct (rename_cases (combine source destination) ax) as [E'|E']; [unfold rho in E; congruence|].
    apply in_combine_r in E'. unfold rho in E. rewrite E in E'. contradiction. }
  assert (J := injective_on rho (dkeys sh) Nr).
  assert (P : forall (o : operand A), op_wf o -> (forall ax, In ax (dkeys (op_shape o)) -> ax <> axis_distribution -> In ax (dkeys sh)) ->
     exists r, u_moveaxis_part o (combine source destination) = Ok r /\ wf r /\
       sshape r = map (fun kv => (rho (fst kv), snd kv)) (op_shape o) /\
       forall e, inside e (sshape r) -> bat r e = op_at o (fun ax => e (rho ax))).
  { intros o Wo Ko. assert (Wo' : wf (normalize o)) by now apply normalize_wf.
    destruct (moveaxis_part (normalize o) source destination Wo' N L F) as (r & Er & Wr & Sr & Vr).
    { fold rho. rewrite <- (wf_keys _ Wo'), normalize_shape. apply nodup_injective; [now apply op_shape_nodup|].
      intros a b Ha Hb E. destruct (String.eqb_spec a axis_distribution) as [-> |Na].
      - rewrite Ra in E. symmetry. now apply Rb.
      - destruct (String.eqb_spec b axis_distribution) as [-> |Nb]; [rewrite Ra in E; now apply Rb|]. apply J; auto. }
    exists r. unfold u_moveaxis_part. rewrite <- (wf_keys _ Wo'). split; [exact Er|]. split; [exact Wr|].
    rewrite normalize_shape in Sr. split; [exact Sr|]. intros e He. rewrite bat_inside by auto. rewrite Vr. fold rho.
    apply op_at_normalize; auto. intros ax m Hm. apply (He (rho ax) m). rewrite Sr. apply in_map_iff. now exists (ax, m). }
  destruct (P (u_nominal u) Wn) as (n & En & Wrn & Sn & Vn).
  { intros ax B Nx. now apply (u_shape_keys u sh ax W H); auto. }
  destruct (P (u_distribution u) Wd) as (d & Ed & Wrd & Sd & Vd).
  { intros ax B Nx. now apply (u_shape_keys u sh ax W H); auto. }
  assert (Xn : ~ In axis_distribution (dkeys (op_shape (OpArr n)))).
  { cbn [op_shape]. rewrite Sn. unfold dkeys. rewrite map_map. cbn [fst]. intros B. apply in_map_iff in B as (kv & E & B).
    apply Rb in E. apply Wx. rewrite <- E. now apply in_map. }
  exists n, d. cbn zeta. split.
  { unfold u_moveaxis. rewrite H. cbn [bind]. assert (Fb : forallb (fun s => smem s (dkeys sh)) source = true) by (apply forallb_forall; intros x Hx; now apply smem_In, I).
    rewrite Fb. cbn [negb]. rewrite (proj2 (Nat.ltb_ge _ _)) by lia. rewrite En. cbn [bind]. rewrite Ed. cbn [bind]. now apply mk_unc_intro. }
  split; [split; [exact Wrn|split; [exact Wrd|exact Xn]]|]. split; [exact Sn|]. split; [exact Sd|].
  intros [k|] e He; cbn [u_inside u_nominal u_distribution op_shape] in He; cbn [u_at u_nominal u_distribution op_at].
  - rewrite Vd by exact He. apply op_at_respects. intros ax. unfold set_env.
    destruct (String.eqb_spec (rho ax) axis_distribution) as [E|E].
    + apply Rb in E. subst ax. now rewrite String.eqb_refl.
    + destruct (String.eqb_spec ax axis_distribution) as [-> |]; [now destruct E|reflexivity].
  - now apply Vn.
Qed.

Theorem u_moveaxis_missing {A} (u : unc A) source destination sh : u_shape u = Ok sh ->
  ~ incl source (dkeys sh) -> u_moveaxis u source destination = Err ValueError.
Proof.
  intros H I. unfold u_moveaxis. rewrite H. cbn [bind].
  destruct (forallb (fun s => smem s (dkeys sh)) source) eqn:E; [|reflexivity]. destruct I.
  intros x Hx. rewrite forallb_forall in E. now apply smem_In, E.
Qed.

Theorem u_moveaxis_few {A} (u : unc A) source destination sh : u_shape u = Ok sh ->
  incl source (dkeys sh) -> length destination < length source -> u_moveaxis u source destination = Err IndexError.
Proof.
  intros H I L. unfold u_moveaxis. rewrite H. cbn [bind].
  assert (Fb : forallb (fun s => smem s (dkeys sh)) source = true) by (apply forallb_forall; intros x Hx; now apply smem_In, I).
  rewrite Fb. cbn [negb]. now rewrite (proj2 (Nat.ltb_lt _ _)).
Qed.

(** ** Reshaping *)

Lemma fibre_last sh S d e :
  fibre sh (S ++ [d]) e = flat_map (fun p => map (fun i => set_env p d i) (seq 0 (size_of sh d))) (fibre sh S e).
Proof.
  revert e. induction S as [|ax S IH]; intros e; cbn [app fibre flat_map].
  - rewrite app_nil_r. induction (seq 0 (size_of sh d)); cbn; congruence.
  - induction (seq 0 (size_of sh ax)) as [|i l IHl]; cbn; [reflexivity|]. now rewrite flat_map_app, IHl, IH.
Qed.

Lemma fibre_sizes s t S e : (forall ax, In ax S -> size_of s ax = size_of t ax) -> fibre s S e = fibre t S e.
Proof.
  revert e. induction S as [|ax S IH]; intros e H; [reflexivity|]. cbn [fibre]. rewrite (H ax) by now left.
  rewrite !flat_map_concat_map. f_equal. apply map_ext. intros i. apply IH. intros x Hx. apply H. now right.
Qed.

Lemma app_split {A} (a b c d : list A) : length a = length c -> a ++ b = c ++ d -> a = c /\ b = d.
Proof.
  revert c. induction a as [|x a IH]; intros [|y c] L E; try discriminate; auto. cbn in *.
  injection E as -> E. injection L as L. destruct (IH c L E) as [-> ->]. auto.
Qed.

Lemma blocks {X X' Y} (f : X -> list Y) (g : X' -> list Y) n l l' :
  (forall x, length (f x) = n) -> (forall x, length (g x) = n) -> length l = length l' ->
  flat_map f l = flat_map g l' -> map f l = map g l'.
Proof.
  intros Lf Lg. revert l'. induction l as [|x l IH]; intros [|y l'] L E; try discriminate; auto. cbn in *.
  apply app_split in E as [-> E]; [|now rewrite Lf, Lg]. f_equal. apply IH; auto.
Qed.

Lemma map_flat_map {X Y Z} (F : Y -> Z) (f : X -> list Y) l : map F (flat_map f l) = flat_map (fun x => map F (f x)) l.
Proof. induction l; cbn; auto. now rewrite map_app, IHl. Qed.

Lemma samples_apart {X Y} (F G : X -> nat -> Y) n k (l l' : list X) : k < n -> length l = length l' ->
  flat_map (fun p => map (F p) (seq 0 n)) l = flat_map (fun p => map (G p) (seq 0 n)) l' ->
  map (fun p => F p k) l = map (fun p => G p k) l'.
Proof.
  intros Hk L E. apply (blocks _ _ n) in E; auto; [|intros; now rewrite map_length, seq_length..].
  assert (Q : forall (H : X -> nat -> Y) p, nth_error (map (H p) (seq 0 n)) k = Some (H p k)).
  { intros H p. rewrite nth_error_map, (nth_error_nth' _ 0) by now rewrite seq_length. now rewrite seq_nth. }
  apply (f_equal (map (fun b => nth_error b k))) in E. rewrite !map_map in E.
  rewrite (map_ext _ (fun p => Some (F p k)) (Q F)), (map_ext _ (fun p => Some (G p k)) (Q G)) in E.
  rewrite <- (map_map (fun p => F p k) Some), <- (map_map (fun p => G p k) Some) in E.
  revert E. generalize (map (fun p => F p k) l) (map (fun p => G p k) l'). clear.
  induction l as [|a l IH]; intros [|b m] E; try discriminate; auto. cbn in E. injection E as -> E. f_equal. now apply IH.
Qed.

Lemma u_reshape_parts {A} (u : unc A) sh : u_wf u -> u_shape u = Ok sh ->
  NoDup (dkeys sh) /\ ~ In axis_distribution (dkeys sh) /\
  exists nb db sd, na_broadcast_to (normalize (u_nominal u)) sh false = Ok nb /\
    u_shape_distribution (mkU (OpArr nb) (u_distribution u)) = Ok sd /\
    na_broadcast_to (normalize (u_distribution u)) sd false = Ok db /\
    wf nb /\ wf db /\ sshape nb = sh /\
    (forall e, at_ nb e = op_at (u_nominal u) e) /\ (forall e, at_ db e = op_at (u_distribution u) e) /\
    sshape db = sh ++ filter (fun kv => String.eqb (fst kv) axis_distribution) (op_shape (u_distribution u)).
Proof.
  intros W H. pose proof W as (Wn & Wd & Wx).
  destruct (u_shape_ok u sh W H) as (sd & E & Nd & Ns & P & Fn & Fd & At).
  assert (X : ~ In axis_distribution (dkeys sh)).
  { intros K. apply key_size in K as [n K]. apply P in K as [_ K]. now apply K. }
  split; auto. split; auto.
  destruct (broadcast_normalized (u_nominal u) sh Wn Ns) as (nb & En & Wnb & Sn & Vn).
  { intros ax n Hn. destruct (Fn ax n Hn) as (m & Hm & D). exists m. split; auto. apply P. split; auto.
    intros ->. apply Wx. now apply (in_map fst) in Hn. }
  assert (Fw : Forall op_wf [OpArr nb; u_distribution u]) by (repeat (constructor; auto)).
  assert (Fk := op_shapes_nodup _ Fw).
  destruct (fits_broadcast (op_shapes [OpArr nb; u_distribution u]) sd Fk Nd) as (sd' & E' & Ft).
  { intros s Hs. unfold op_shapes in Hs. apply in_flat_map in Hs as (o & Ho & Hs). destruct Ho as [<-|[<-|[]]].
    - destruct Hs as [<-|[]]. intros ax n Hn. exists n. split; auto. apply P. now rewrite <- Sn.
    - destruct (u_distribution u) as [a|x]; [|contradiction]. destruct Hs as [<-|[]]. exact Fd. }
  destruct (broadcast_shapes_ok _ _ Fk E') as (N' & K' & _).
  assert (F1 := op_fits_broadcast _ _ _ Fw E' (or_introl eq_refl)).
  assert (F2 := op_fits_broadcast _ _ _ Fw E' (or_intror (or_introl eq_refl))).
  destruct (broadcast_normalized (u_distribution u) sd' Wd N' F2) as (db & Ed & Wdb & Sd & Vd).
  exists nb, db, sd'. do 8 (split; [assumption|]). rewrite Sd.
  assert (Att : forall ax n, In (ax, n) sd' -> In (ax, n) sh \/ In (ax, n) (op_shape (u_distribution u))).
  { intros ax n Hn. destruct (broadcast_attained _ _ ax n Fk E' Hn) as (s & Hs & Hn').
    unfold op_shapes in Hs. apply in_flat_map in Hs as (o & Ho & Hs). destruct Ho as [<-|[<-|[]]].
    - destruct Hs as [<-|[]]. left. now rewrite <- Sn.
    - destruct (u_distribution u) as [a|x]; [|contradiction]. destruct Hs as [<-|[]]. now right. }
  assert (MEM : forall ax n, In (ax, n) sd' <-> In (ax, n) sh \/ (ax = axis_distribution /\ In (ax, n) (op_shape (u_distribution u)))).
  { intros ax n. split.
    - intros Hn. destruct (String.eqb_spec ax axis_distribution) as [->|NE].
      + right. split; auto. destruct (Att _ _ Hn) as [B|B]; auto. destruct X. now apply (in_map fst) in B.
      + left. destruct (Att _ _ Hn) as [B|B]; auto.
        assert (B' := Fd _ _ B). destruct B' as (m & Hm & _). assert (Hm' : In (ax, m) sh) by (apply P; auto).
        destruct (F1 ax m) as (m' & Hm2 & D); [cbn [op_shape]; now rewrite Sn|].
        assert (n = m') by (apply (entry_eq sd' ax); auto). subst m'.
        destruct (Ft ax n Hn) as (q & Hq & D'). assert (q = m) by (apply (entry_eq sd ax); auto). subst q.
        destruct D as [-> | ->]; auto. destruct D' as [-> |D']; auto. rewrite D'. exact Hm'.
    - intros [B|[-> B]].
      + destruct (F1 ax n) as (m' & Hm2 & D); [cbn [op_shape]; now rewrite Sn|].
        destruct (Ft ax m' Hm2) as (q & Hq & D'). assert (q = n) by (apply (entry_eq sd ax); auto; now apply P). subst q.
        destruct D as [D|D]; subst; auto. destruct D' as [D'|D']; subst; auto.
      + destruct (F2 _ _ B) as (m & Hm & D). destruct (Att _ _ Hm) as [C|C].
        * destruct X. now apply (in_map fst) in C.
        * now rewrite (entry_eq _ _ _ _ (op_shape_NoDup _ Wd) B C). }
  set (D := filter (fun kv : string * nat => String.eqb (fst kv) axis_distribution) (op_shape (u_distribution u))).
  assert (HD : forall ax n, In (ax, n) D <-> ax = axis_distribution /\ In (ax, n) (op_shape (u_distribution u))).
  { intros ax n. unfold D. rewrite filter_In. cbn [fst]. rewrite String.eqb_eq. tauto. }
  assert (KD : dkeys sd' = dkeys sh ++ dkeys D).
  { rewrite K'. assert (Kc : exists l, concat (map dkeys (op_shapes [OpArr nb; u_distribution u])) = dkeys sh ++ l /\ l = dkeys (op_shape (u_distribution u))).
    { exists (dkeys (op_shape (u_distribution u))). split; auto. cbn [op_shapes flat_map app map concat]. rewrite Sn. f_equal.
      destruct (u_distribution u); cbn; now rewrite ?app_nil_r. }
    destruct Kc as (l & -> & ->). rewrite ReorderFacts.first_appearance_app, (first_appearance_nodup (dkeys sh)) by auto.
    rewrite first_appearance_nodup by now apply op_shape_nodup. f_equal.
    unfold D. assert (Kd : forall kv, In kv (op_shape (u_distribution u)) -> (String.eqb (fst kv) axis_distribution = negb (smem (fst kv) (dkeys sh)))).
    { intros [ax n] Hn. cbn [fst]. destruct (String.eqb_spec ax axis_distribution) as [-> |Nx].
      - destruct (smem axis_distribution (dkeys sh)) eqn:Q; auto. apply smem_In in Q. contradiction.
      - rewrite (proj2 (smem_In _ _)); auto. apply (u_shape_keys u sh); auto. right. now apply (in_map fst) in Hn. }
    clear - Kd. induction (op_shape (u_distribution u)) as [|kv s IH]; auto. cbn [dkeys map filter]. rewrite (Kd kv) by now left.
    destruct (negb _); cbn [map]; [f_equal|]; apply IH; intros; apply Kd; now right. }
  clear - KD MEM HD N' Ns.
  assert (G : forall (s t : shape), NoDup (dkeys s) -> dkeys s = dkeys t -> (forall ax n, In (ax, n) t -> In (ax, n) s) -> s = t).
  { clear. induction s as [|[k v] s IH]; intros [|[k' v'] t] N E I; cbn in E; try discriminate; auto.
    injection E as <- E. inversion N; subst. assert (v = v').
    { destruct (I k v' (or_introl eq_refl)) as [Q|Q]; [congruence|]. destruct H1. now apply (in_map fst) in Q. }
    subst v'. f_equal. apply IH; auto. intros ax n Hn. destruct (I ax n (or_intror Hn)) as [Q|Q]; auto. injection Q as <- <-.
    destruct H1. change (In k (map fst s)). rewrite E. now apply (in_map fst) in Hn. }
  apply G; auto; [rewrite KD; unfold dkeys; now rewrite map_app|]. intros ax n Hn. apply MEM. apply in_app_or in Hn as [Hn|Hn]; auto.
  right. now apply HD.
Qed.

Lemma only_samples (s : shape) : NoDup (dkeys s) ->
  filter (fun kv => String.eqb (fst kv) axis_distribution) s =
  match dget s axis_distribution with Some n => [(axis_distribution, n)] | None => [] end.
Proof.
  induction s as [|[k v] s IH]; intros N; auto. inversion N; subst. cbn [filter dget fst].
  destruct (String.eqb_spec k axis_distribution) as [-> |Nk].
  - rewrite String.eqb_refl. f_equal. rewrite IH by auto. now rewrite (proj2 (dget_None s axis_distribution)).
  - destruct (String.eqb_spec axis_distribution k); [congruence|]. auto.
Qed.

Theorem u_reshape_no_samples {A} (u : unc A) sh new : u_wf u -> u_shape u = Ok sh ->
  ~ In axis_distribution (dkeys (op_shape (u_distribution u))) -> u_reshape u new = Err KeyError.
Proof.
  intros W H X. destruct (u_reshape_parts u sh W H) as (Ns & Xs & nb & db & sd & En & Esd & Ed & Wnb & Wdb & Sn & Vn & Vd & Sd).
  unfold u_reshape. rewrite H. cbn [bind]. rewrite En. cbn [bind]. rewrite Esd. cbn [bind]. rewrite Ed. cbn [bind].
  rewrite change_axis_index_absent; auto. rewrite <- (wf_keys db Wdb), Sd. unfold dkeys. rewrite map_app. intros B.
  apply in_app_or in B as [B|B]; [contradiction|]. apply X. apply in_map_iff in B as (kv & <- & B). apply filter_In in B as [B _].
  now apply in_map.
Qed.

Theorem u_reshape_spec {A} (u : unc A) sh new num : u_wf u -> u_shape u = Ok sh -> NoDup (dkeys new) ->
  In (axis_distribution, num) (op_shape (u_distribution u)) ->
  (In axis_distribution (dkeys new) \/ total_size new (dkeys new) <> total_size sh (dkeys sh) -> u_reshape u new = Err ValueError) /\
  (~ In axis_distribution (dkeys new) -> total_size new (dkeys new) = total_size sh (dkeys sh) ->
   exists n d, let r := mkU (OpArr n) (OpArr d) in
     u_reshape u new = Ok r /\ u_wf r /\ sshape n = new /\ sshape d = new ++ [(axis_distribution, num)] /\
     forall w e, (forall k, w = Some k -> k < num) ->
       map (u_at (Uncertain r) w) (fibre new (dkeys new) e) = map (u_at (Uncertain u) w) (fibre sh (dkeys sh) e)).
Proof.
  intros W H Nn Hnum. pose proof W as (Wn0 & Wd0 & Wx0).
  destruct (u_reshape_parts u sh W H) as (Ns & Xs & nb & db & sd & En & Esd & Ed & Wnb & Wdb & Sn & Vn & Vd & Sd).
  assert (Nd := op_shape_nodup _ Wd0). rewrite only_samples, (dget_NoDup _ _ _ Nd Hnum) in Sd by auto.
  assert (An : s_axes nb = dkeys sh) by (now rewrite <- (wf_keys nb), Sn).
  assert (Ad : s_axes db = dkeys sh ++ [axis_distribution]) by (rewrite <- (wf_keys db), Sd by auto; unfold dkeys; now rewrite map_app).
  assert (Dn : dget (sshape db) axis_distribution = Some num).
  { apply in_dget; [now apply wf_nodup|]. rewrite Sd. apply in_or_app. right. now left. }
  assert (Eq : u_reshape u new = (rn <- na_reshape nb new ;; rd <- na_reshape db (dset new axis_distribution num) ;; mk_unc (OpArr rn) (OpArr rd))).
  { unfold u_reshape. rewrite H. cbn [bind]. rewrite En. cbn [bind]. rewrite Esd. cbn [bind]. rewrite Ed. cbn [bind].
    destruct (change_axis_index_spec db axis_distribution (-1)%Z Wdb) as (c & Ec & _).
    { rewrite Ad. apply in_or_app. right. now left. }
    rewrite Ec. cbn [bind]. now rewrite Dn. }
  rewrite Eq. clear Eq. split.
  - intros C. destruct (Nat.eq_dec (total_size new (dkeys new)) (total_size sh (dkeys sh))) as [T|T].
    + destruct C as [C|C]; [|contradiction]. destruct (proj1 (reshape_spec nb new Wnb Nn)) as (rn & Ern & Wrn & Srn & _).
      { now rewrite Sn, An. }
      rewrite Ern. cbn [bind]. assert (Nd' : NoDup (dkeys (dset new axis_distribution num))) by now apply NoDup_dset.
      destruct (reshape_spec db _ Wdb Nd') as [R1 R2].
      destruct (Nat.eq_dec (total_size (dset new axis_distribution num) (dkeys (dset new axis_distribution num))) (total_size (sshape db) (s_axes db))) as [T'|T'].
      * destruct (R1 T') as (rd & Erd & _). rewrite Erd. cbn [bind]. unfold mk_unc, dmem. rewrite Srn.
        apply key_size in C as [m C]. now rewrite (dget_NoDup new _ m Nn C).
      * now rewrite (R2 T').
    + rewrite (proj2 (reshape_spec nb new Wnb Nn)); [reflexivity|]. now rewrite Sn, An.
  - intros X T. destruct (proj1 (reshape_spec nb new Wnb Nn)) as (rn & Ern & Wrn & Srn & Vrn); [now rewrite Sn, An|].
    rewrite dset_new by auto. set (new' := new ++ [(axis_distribution, num)]).
    assert (K' : dkeys new' = dkeys new ++ [axis_distribution]) by (unfold new', dkeys; now rewrite map_app).
    assert (Nn' : NoDup (dkeys new')).
    { rewrite K'. apply nodup_append; auto; [repeat constructor; intros []|intros x Hx [<- |[]]; contradiction]. }
    assert (Gs : forall (s : shape) ax, NoDup (dkeys s) -> ~ In axis_distribution (dkeys s) -> In ax (dkeys s) ->
               dget (s ++ [(axis_distribution, num)]) ax = dget s ax).
    { clear. intros s ax N X Hax. apply key_size in Hax as [n Hn]. rewrite (dget_NoDup s ax n N Hn).
      apply in_dget; [|apply in_or_app; now left]. unfold dkeys. rewrite map_app.
      apply nodup_append; auto; [repeat constructor; intros []|intros y Hy [<- |[]]; contradiction]. }
    assert (Gt : forall (s : shape), ~ In axis_distribution (dkeys s) -> dget (s ++ [(axis_distribution, num)]) axis_distribution = Some num).
    { clear. induction s as [|[k v] s IH]; intros X; cbn [app dget]; [now rewrite String.eqb_refl|].
      destruct (String.eqb_spec axis_distribution k) as [E|_]; [destruct X; left; cbn; now symmetry|]. apply IH. intros B. apply X. now right. }
    assert (Ts : forall (s : shape), NoDup (dkeys s) -> ~ In axis_distribution (dkeys s) ->
               total_size (s ++ [(axis_distribution, num)]) (dkeys s ++ [axis_distribution]) = total_size s (dkeys s) * num).
    { intros s N Xx. assert (Q : forall l, incl l (dkeys s) -> total_size (s ++ [(axis_distribution, num)]) (l ++ [axis_distribution]) = total_size s l * num).
      { induction l as [|a l IHl]; intros I; cbn [app total_size fold_right].
        - rewrite Gt by auto. lia.
        - fold (total_size (s ++ [(axis_distribution, num)]) (l ++ [axis_distribution])). fold (total_size s l).
          rewrite IHl by (intros y Hy; apply I; now right). rewrite Gs by (auto; apply I; now left). destruct (dget s a); lia. }
      apply Q. intros y Hy. exact Hy. }
    destruct (proj1 (reshape_spec db new' Wdb Nn')) as (rd & Erd & Wrd & Srd & Vrd).
    { rewrite K', Sd, Ad. unfold new'. rewrite !Ts by auto. now rewrite T. }
    exists rn, rd. cbn zeta. rewrite Ern. cbn [bind]. rewrite Erd. cbn [bind].
    split; [apply mk_unc_intro; cbn [op_shape]; now rewrite Srn|].
    split. { split; [exact Wrn|split; [exact Wrd|]]. cbn [u_nominal op_shape]. now rewrite Srn. }
    split; [exact Srn|]. split; [exact Srd|].
    assert (Nom : forall e, map (u_at (Uncertain (mkU (OpArr rn) (OpArr rd))) None) (fibre new (dkeys new) e)
                          = map (u_at (Uncertain u) None) (fibre sh (dkeys sh) e)).
    { intros e. rewrite <- (map_ext (at_ nb) (u_at (Uncertain u) None)) by (intros p; apply Vn).
      rewrite <- Sn at 1. rewrite <- An. rewrite <- Vrn. apply map_ext_in. intros p Hp. cbn [u_at u_nominal op_at].
      apply bat_inside; auto. rewrite Srn. intros ax n Hn. replace n with (size_of new ax).
      - apply (proj1 (fibre_inside new (dkeys new) e p Hp)). now apply (in_map fst) in Hn.
      - unfold size_of. now rewrite (dget_NoDup new ax n Nn Hn). }
    intros [k|] e Hk; [|apply Nom].
    assert (Len : length (fibre new (dkeys new) e) = length (fibre sh (dkeys sh) e)).
    { rewrite !fibre_total by (intros y Hy; exact Hy). exact T. }
    assert (Q := Vrd e). rewrite K', Sd, Ad in Q. unfold new' in Q. rewrite !fibre_last, !map_flat_map in Q.
    assert (Sz : forall s : shape, ~ In axis_distribution (dkeys s) -> size_of (s ++ [(axis_distribution, num)]) axis_distribution = num) by (intros s Xs0; unfold size_of; now rewrite Gt).
    rewrite !Sz in Q by auto.
    rewrite (fibre_sizes (new ++ _) new) in Q by (intros ax Hax; unfold size_of; now rewrite Gs).
    rewrite (fibre_sizes (sh ++ _) sh) in Q by (intros ax Hax; unfold size_of; now rewrite Gs).
    assert (Q' : flat_map (fun p => map (fun i => at_ rd (set_env p axis_distribution i)) (seq 0 num)) (fibre new (dkeys new) e) =
                 flat_map (fun p => map (fun i => at_ db (set_env p axis_distribution i)) (seq 0 num)) (fibre sh (dkeys sh) e)).
    { etransitivity; [|etransitivity; [exact Q|]]; rewrite !flat_map_concat_map; f_equal; apply map_ext; intros p; now rewrite map_map. }
    apply (samples_apart _ _ num k) in Q'; auto.
    etransitivity; [|etransitivity; [exact Q'|]].
    + apply map_ext_in. intros p Hp. cbn [u_at u_distribution op_at]. apply bat_inside; auto. rewrite Srd.
      intros ax n Hn. apply in_app_or in Hn as [Hn|[Hn|[]]].
      * unfold set_env. destruct (String.eqb_spec ax axis_distribution) as [-> |_]; [destruct X; now apply (in_map fst) in Hn|].
        replace n with (size_of new ax); [apply (proj1 (fibre_inside new (dkeys new) e p Hp)); now apply (in_map fst) in Hn|].
        unfold size_of. now rewrite (dget_NoDup new ax n Nn Hn).
      * injection Hn as <- <-. unfold set_env. rewrite String.eqb_refl. now apply Hk.
    + apply map_ext. intros p. apply Vd.
Qed.
