(** Facts about joining uncertain arrays. *)
From Coq Require Import String List Arith ZArith Bool Lia.
From Verif Require Import Base BaseFacts Numpy NumpyFacts Shapes Scalar Elementwise Reorder Along Sorting Uncertain UncertainChoice UncertainAlong UncertainJoin
  Spec SpecFilter SpecVectorReduce SpecUncertain SpecUncertainChoice SpecUncertainAlong SpecUncertainEqual SpecUncertainJoin
  ShapesFacts AlignFacts ElementwiseFacts ReduceFacts SortingFacts AlongFacts RankdataFacts VectorIndexFacts OptimizeFacts MatrixFacts PdfFacts FuncFacts VectorReduceFacts
  UncertainFacts UncertainIndexFacts UncertainFilterFacts UncertainChoiceFacts UncertainReorderFacts UncertainAlongFacts UncertainEqualFacts.
Import ListNotations.
Open Scope nat_scope.
Open Scope list_scope.

(** [a] is the part of the argument for the world [w], broadcast *)
Definition piece {A} (w : option nat) (p : uop A * shape) (a : sarr A) : Prop :=
  wf a /\ (forall ax, dget (sshape a) ax = dget (full_shape w p) ax) /\ forall e, bat a e = op_at (part_of (fst p) w) e.

Lemma clamped {A} (b : sarr A) (o : operand A) : wf b -> op_wf o -> fits_in (op_shape o) (sshape b) ->
  (forall e, at_ b e = op_at o e) -> forall e, bat b e = op_at o e.
Proof.
  intros W Wo F V e. unfold bat. rewrite V. destruct o as [a|x]; [|reflexivity]. cbn [op_at]. unfold bat, at_. f_equal. apply map_ext_in.
  intros ax Hax. cbn [op_shape] in F. cbn in Wo. rewrite <- (wf_keys a Wo) in Hax. apply key_size in Hax as [n Hn].
  destruct (F ax n Hn) as (m & Hm & D). unfold bclamp. rewrite (dget_NoDup _ _ _ (wf_nodup a Wo) Hn), (dget_NoDup _ _ _ (wf_nodup b W) Hm).
  destruct D as [-> | ->]; [reflexivity|]. destruct m as [|[|m]]; reflexivity.
Qed.

Lemma full_nodup {A} (p : uop A * shape) w : joinable p -> NoDup (dkeys (full_shape w p)) /\ ~ In axis_distribution (dkeys (snd p)).
Proof.
  intros (W & F & H). assert (Q : NoDup (dkeys (snd p)) /\ ~ In axis_distribution (dkeys (snd p))).
  { destruct p as [[u|o] sh]; cbn in *.
    - destruct (broadcast_parts u sh W H) as (N & X & _). auto.
    - subst sh. split; [now apply op_shape_nodup|exact F]. }
  split; [|apply Q]. destruct w as [k|]; cbn [full_shape]; [|apply Q]. apply samples_nodup; apply Q.
Qed.

Lemma spread_piece {A} (p : uop A * shape) : joinable p ->
  exists y, spread_out (fst p) = Ok y /\ uop_wf y /\ forall w, piece w p (normalize (part_of y w)).
Proof.
  intros J. pose proof J as (W & F & H). destruct p as [[u|o] sh]; cbn [fst snd] in *.
  - cbn [has_shape uop_wf] in *. destruct (broadcast_parts u sh W H) as (Ns & Xs & nb & db & Eb & Wnb & Wdb & Sn & An & Vn & Vd & MEM & Dd & _).
    destruct (u_shape_ok u sh W H) as (sd & E & Nd & _ & P & Fn & Fd & _). pose proof W as (Wn & Wd & Wx).
    cbn [spread_out]. rewrite Eb. cbn [bind]. eexists. split; [reflexivity|].
    assert (Xn : ~ In axis_distribution (dkeys (op_shape (OpArr nb)))) by (cbn [op_shape]; now rewrite Sn).
    split; [split; [exact Wnb|split; [exact Wdb|exact Xn]]|]. intros [k|]; (split; [assumption|]); cbn [part_of nominal_of distribution_of u_nominal u_distribution normalize full_shape fst snd].
    + split; [exact Dd|]. apply clamped; auto. intros ax n Hn. destruct (Fd ax n Hn) as (m & Hm & D). exists m. split; auto. apply MEM, in_app_iff.
      destruct (string_dec ax axis_distribution) as [Ex|Nx]; [|left; apply P; auto].
      right. apply samples_in; auto. split; auto. destruct D as [-> | ->]; auto.
      destruct (broadcast_attained _ _ ax m (op_shapes_nodup [u_nominal u; u_distribution u] ltac:(auto)) E Hm) as (s & Hs & Hq).
      apply in_flat_map in Hs as (o & Ho & Hs). destruct Ho as [<- |[<- |[]]].
      * destruct (u_nominal u); cbn in Hs; [|contradiction]. destruct Hs as [<- |[]]. destruct Wx. rewrite <- Ex. now apply (in_map fst) in Hq.
      * destruct (u_distribution u); cbn in Hs; [|contradiction]. destruct Hs as [<- |[]]. exact Hq.
    + rewrite Sn. split; [reflexivity|]. apply clamped; auto. intros ax n Hn. destruct (Fn ax n Hn) as (m & Hm & D). exists m. split; auto. rewrite Sn.
      apply P. split; auto. intros Ex. apply Wx. rewrite <- Ex. now apply (in_map fst) in Hn.
  - cbn [has_shape uop_wf sample_free] in *. exists (Certain o). split; [reflexivity|]. split; [exact W|].
    assert (Z : forall w : option nat, full_shape w (Certain o, sh) = sh).
    { intros [k|]; cbn [full_shape fst snd nominal_of distribution_of]; [|reflexivity]. unfold samples. cbn [u_distribution].
      rewrite (proj2 (dget_None _ _) F). now rewrite app_nil_r. }
    intros w. split; [apply ElementwiseFacts.normalize_wf; destruct w; exact W|]. rewrite Z. cbn [fst].
    split; [intros ax; rewrite ElementwiseFacts.normalize_shape; destruct w; cbn [part_of nominal_of distribution_of]; now rewrite H|].
    intros e. apply ElementwiseFacts.normalize_at.
Qed.

Lemma spread_all {A} (xs : list (uop A * shape)) : Forall joinable xs ->
  exists ys, mapM spread_out (map fst xs) = Ok ys /\ Forall uop_wf ys /\
    forall w, Forall2 (piece w) xs (map (fun y => normalize (part_of y w)) ys).
Proof.
  induction 1 as [|p xs J _ (ys & E & W & P)]; cbn [map mapM].
  - exists []. repeat split; auto. constructor.
  - destruct (spread_piece p J) as (y & Ey & Wy & Py). rewrite Ey. cbn [bind]. rewrite E. cbn [bind].
    exists (y :: ys). split; [reflexivity|]. split; [constructor; auto|]. intros w. cbn [map]. constructor; auto.
Qed.

(** ** Shapes *)

Definition alike_shape (s t : shape) : Prop := NoDup (dkeys s) /\ NoDup (dkeys t) /\ forall ax, dget s ax = dget t ax.

Lemma alike_in s t ax n : alike_shape s t -> In (ax, n) s -> In (ax, n) t.
Proof. intros (Ns & Nt & D) H. apply dget_In. rewrite <- D. now apply dget_NoDup. Qed.

Lemma alike_sym s t : alike_shape s t -> alike_shape t s.
Proof. intros (Ns & Nt & D). repeat split; auto. Qed.

Lemma alike_sizes l l' ax n : Forall2 alike_shape l l' -> In n (sizes_of l ax) -> In n (sizes_of l' ax).
Proof.
  intros F H. apply sizes_of_In in H as (s & Hs & D). apply sizes_of_In. induction F as [|s' t l l' Q F IH]; [contradiction|].
  destruct Hs as [-> |Hs]; [exists t; split; [now left|]; rewrite <- D; symmetry; apply Q|].
  destruct (IH Hs) as (t' & Ht & Dt). exists t'. split; [now right|exact Dt].
Qed.

Lemma alike_all_sym l l' : Forall2 alike_shape l l' -> Forall2 alike_shape l' l.
Proof. induction 1; constructor; auto. now apply alike_sym. Qed.

Lemma alike_conflict l l' : Forall2 alike_shape l l' -> conflict l -> conflict l'.
Proof.
  intros F (ax & n & m & Hn & Hm & D). exists ax, n, m. split; [now apply (alike_sizes l)|]. split; [now apply (alike_sizes l)|exact D].
Qed.

Lemma Forall2_in_r {X Y} (R : X -> Y -> Prop) l l' y : Forall2 R l l' -> In y l' -> exists x, In x l /\ R x y.
Proof.
  induction 1 as [|a b l l' Q F IH]; [contradiction|]. intros [-> |H]; [exists a; split; [now left|exact Q]|].
  destruct (IH H) as (x & Hx & Hr). exists x. split; [now right|exact Hr].
Qed.

Lemma alike_joint l l' T : Forall2 alike_shape l l' -> joint l T -> joint l' T.
Proof.
  intros F (N & Fi & At). split; auto. split.
  - intros t Ht ax n Hn. destruct (Forall2_in_r _ _ _ _ F Ht) as (s & Hs & Q). apply (Fi s Hs). apply (alike_in t); auto. now apply alike_sym.
  - intros ax n Hn. destruct (At ax n Hn) as (s & Hs & Hq). destruct (Forall2_in_r _ _ _ _ (alike_all_sym _ _ F) Hs) as (t & Ht & Q).
    exists t. split; auto. apply (alike_in s); auto. now apply alike_sym.
Qed.

Lemma resized_keys s ax n : dkeys (resized s ax n) = dkeys s.
Proof. unfold resized, dkeys. rewrite map_map. reflexivity. Qed.

Lemma alike_resized s t ax n : alike_shape s t -> alike_shape (resized s ax n) (resized t ax n).
Proof.
  intros (Ns & Nt & D). split; [now rewrite resized_keys|]. split; [now rewrite resized_keys|]. intros x. apply same_dget; try now rewrite resized_keys.
  assert (G : forall s t, alike_shape s t -> forall y m, In (y, m) (resized s ax n) -> In (y, m) (resized t ax n)).
  { intros s0 t0 Q y m H. unfold resized in *. apply in_map_iff in H as ((k, v) & E & H). apply in_map_iff. exists (k, v). split; auto. now apply (alike_in s0). }
  intros y m. split; apply G; repeat split; auto.
Qed.

Lemma piece_alike {A} w (p : uop A * shape) a : joinable p -> piece w p a -> alike_shape (sshape a) (full_shape w p).
Proof. intros J (Wa & D & _). split; [now apply wf_nodup|]. split; [now apply full_nodup|exact D]. Qed.

Lemma pieces_shapes {A} w (f : shape -> shape) (xs : list (uop A * shape)) l : (forall s t, alike_shape s t -> alike_shape (f s) (f t)) ->
  Forall joinable xs -> Forall2 (piece w) xs l ->
  Forall2 alike_shape (map (fun a => f (sshape a)) l) (map (fun p => f (full_shape w p)) xs).
Proof.
  intros Hf J F. induction F as [|p a xs l Q F IH]; cbn [map]; [constructor|]. inversion J; subst. constructor; auto.
  apply Hf. now apply piece_alike.
Qed.

Lemma full_axis {A} (p : uop A * shape) w ax : w = None \/ ax <> axis_distribution -> dget (full_shape w p) ax = dget (snd p) ax.
Proof.
  intros N. destruct w as [k|]; cbn [full_shape]; [|reflexivity]. destruct N as [N|N]; [discriminate|].
  assert (G : forall s t : shape, dget t ax = None -> dget (s ++ t) ax = dget s ax).
  { induction s as [|[k' v] s IH]; intros t H; cbn; auto. destruct (String.eqb ax k'); auto. }
  apply G. unfold samples. destruct (dget (op_shape _) _); [|reflexivity]. cbn [dget fst snd]. destruct (String.eqb_spec ax axis_distribution); [contradiction|reflexivity].
Qed.

Lemma piece_size {A} w (p : uop A * shape) a ax : w = None \/ ax <> axis_distribution -> piece w p a -> size_of (sshape a) ax = size_of (snd p) ax.
Proof. intros N (_ & D & _). unfold size_of. now rewrite D, full_axis. Qed.

Lemma piece_key {A} w (p : uop A * shape) a ax : w = None \/ ax <> axis_distribution -> piece w p a -> (In ax (s_axes a) <-> In ax (dkeys (snd p))).
Proof.
  intros N (W & D & _). rewrite <- (wf_keys a W). split; intros H.
  - destruct (in_dec string_dec ax (dkeys (snd p))) as [|Nk]; auto. apply dget_None in Nk. rewrite <- (full_axis p w ax N), <- D in Nk. apply dget_None in Nk. contradiction.
  - destruct (in_dec string_dec ax (dkeys (sshape a))) as [|Nk]; auto. apply dget_None in Nk. rewrite D, full_axis in Nk by auto. apply dget_None in Nk. contradiction.
Qed.

Lemma pieces_sizes {A} w (xs : list (uop A * shape)) l ax : w = None \/ ax <> axis_distribution -> Forall2 (piece w) xs l ->
  map (fun a => size_of (sshape a) ax) l = map (fun p => size_of (snd p) ax) xs.
Proof. intros N F. induction F as [|p a xs l Q F IH]; cbn [map]; [reflexivity|]. f_equal; auto. now apply (piece_size w). Qed.

Lemma Forall2_nth {X Y} (R : X -> Y -> Prop) l l' k x : Forall2 R l l' -> nth_error l k = Some x -> exists y, nth_error l' k = Some y /\ R x y.
Proof.
  intros F. revert k. induction F as [|a b l l' Q F IH]; intros [|k] H; try discriminate.
  - injection H as <-. exists b. auto.
  - apply (IH k H).
Qed.

Lemma Forall2_len {X Y} (R : X -> Y -> Prop) l l' : Forall2 R l l' -> length l = length l'.
Proof. induction 1; cbn; congruence. Qed.

(** a conflict of the shapes is one of the shapes in the worlds of the samples *)
Lemma wider_conflict {A} (f : shape -> shape) (xs : list (uop A * shape)) :
  (forall s t ax, NoDup (dkeys t) -> incl s t -> forall n, dget (f s) ax = Some n -> dget (f t) ax = Some n) ->
  Forall joinable xs -> conflict (map (fun p => f (full_shape None p)) xs) -> conflict (map (fun p => f (full_shape (Some 0) p)) xs).
Proof.
  intros Hf J (ax & n & m & Hn & Hm & D). exists ax, n, m.
  assert (G : forall v, In v (sizes_of (map (fun p => f (full_shape None p)) xs) ax) -> In v (sizes_of (map (fun p => f (full_shape (Some 0) p)) xs) ax)).
  { intros v Hv. apply sizes_of_In in Hv as (s & Hs & Ds). apply in_map_iff in Hs as (p & <- & Hp). apply sizes_of_In.
    exists (f (full_shape (Some 0) p)). split; [apply in_map_iff; eauto|]. rewrite Forall_forall in J. apply (Hf (full_shape None p)); auto.
    - now apply full_nodup, J.
    - cbn [full_shape]. intros q Hq. apply in_app_iff. now left. }
  split; auto.
Qed.

Lemma resized_wider ax0 s t ax : NoDup (dkeys t) -> incl s t -> forall n, dget (resized s ax0 1) ax = Some n -> dget (resized t ax0 1) ax = Some n.
Proof.
  intros N I n H. apply dget_NoDup; [now rewrite resized_keys|]. apply dget_In in H. unfold resized in *. apply in_map_iff in H as (q & E & H). apply in_map_iff. exists q. auto.
Qed.

Theorem u_concatenate_spec {A} (xs : list (uop A * shape)) (axis : string) : Forall joinable xs ->
  let sizes := map (fun p => size_of (snd p) axis) xs in
  let shapes w := map (fun p => resized (full_shape w p) axis 1) xs in
  let ok := xs <> [] /\ (forall p, In p xs -> In axis (dkeys (snd p))) /\ ~ conflict (shapes (Some 0)) in
  (ok -> exists n d, let r := mkU (OpArr n) (OpArr d) in
     u_concatenate (map fst xs) axis = Ok r /\ u_wf r /\
     (forall w, exists T, joint (shapes w) T /\ op_shape (u_part r w) = resized T axis (list_sum sizes)) /\
     forall w k x sh e, nth_error xs k = Some (x, sh) -> e axis < size_of sh axis ->
       let e' := set_env e axis (list_sum (firstn k sizes) + e axis) in
       u_inside r w e' -> u_at (Uncertain r) w e' = u_at x w e) /\
  (~ ok -> u_concatenate (map fst xs) axis = Err ValueError).
Proof.
  intros J sizes shapes ok. unfold u_concatenate, u_stack_like. destruct (spread_all xs J) as (ys & Ey & Wy & P). rewrite Ey. cbn [bind].
  assert (Wp : forall w, Forall op_wf (map (fun y => part_of y w) ys)).
  { intros w. apply Forall_forall. intros o Ho. apply in_map_iff in Ho as (y & <- & Hy). rewrite Forall_forall in Wy. now apply part_wf, Wy. }
  assert (PP : forall w, Forall2 (piece w) xs (map normalize (map (fun y => part_of y w) ys))) by (intros w; rewrite map_map; apply P).
  assert (Cat : forall w, let l := map (fun y => part_of y w) ys in
     (xs <> [] -> (forall p, In p xs -> In axis (dkeys (snd p))) -> ~ conflict (shapes w) ->
      exists r T, na_concatenate l axis None = Ok r /\ wf r /\ joint (shapes w) T /\ sshape r = resized T axis (list_sum sizes) /\
        forall k x sh e, nth_error xs k = Some (x, sh) -> e axis < size_of sh axis ->
          at_ r (set_env e axis (list_sum (firstn k sizes) + e axis)) = op_at (part_of x w) e) /\
     (na_concatenate l axis None = Err ValueError \/
      (xs <> [] /\ (w = None \/ axis <> axis_distribution -> forall p, In p xs -> In axis (dkeys (snd p))) /\ ~ conflict (shapes w)))).
  { intros w l. destruct (concatenate_spec l axis (Wp w)) as [G Bd]. cbn zeta in G, Bd. specialize (PP w). fold l in PP.
    assert (Lq := Forall2_len _ _ _ PP). assert (SS := pieces_shapes w (fun s => resized s axis 1) xs _ (fun s t => alike_resized s t axis 1) J PP).
    set (L := map normalize l) in *. split.
    - intros NE Ha NC.
      assert (Nx : w = None \/ axis <> axis_distribution).
      { right. destruct xs as [|p xs']; [now destruct NE|]. intros Ex. pose proof (Forall_inv J) as Jp. apply (proj2 (full_nodup p None Jp)). rewrite <- Ex. apply Ha. now left. }
      destruct G as (r & sh & Eb & Er & Wr & Sr & Vr).
      { split; [intros E0; rewrite E0 in Lq; destruct xs; [contradiction|discriminate]|]. split.
        - intros a Ha'. destruct (Forall2_in_r _ _ _ _ PP Ha') as (p & Hp & Q). apply (piece_key w p a axis Nx Q). auto.
        - intros C. apply NC. exact (alike_conflict _ _ SS C). }
      exists r, sh. split; auto. split; auto. split.
      + apply (alike_joint _ _ _ SS). apply broadcast_joint; auto. apply Forall_forall. intros s Hs. apply in_map_iff in Hs as (a & <- & Ha').
        destruct (Forall2_in_r _ _ _ _ PP Ha') as (p & Hp & (Wa & _)). rewrite resized_keys. now apply wf_nodup.
      + unfold sizes. rewrite <- (pieces_sizes w xs L axis Nx PP). split; auto. intros k x sh0 e Hk He.
        destruct (Forall2_nth _ _ _ _ _ PP Hk) as (a & Ka & Q). rewrite (Vr k a e Ka); [apply Q|]. now rewrite (piece_size w _ a axis Nx Q).
    - destruct (na_concatenate l axis None) as [r|er] eqn:Er.
      + right. assert (NN : ~ ~ (L <> [] /\ (forall a, In a L -> In axis (s_axes a)) /\ ~ conflict (map (fun a => resized (sshape a) axis 1) L))).
        { intros Z. apply Bd in Z. discriminate. }
        assert (NE : xs <> []). { intros ->. apply NN. intros (Z & _). apply Z. destruct L; [reflexivity|discriminate]. }
        split; auto. split.
        * intros Nx p Hp. destruct (in_dec string_dec axis (dkeys (snd p))) as [|Nk]; auto. exfalso. apply NN. intros (_ & Z & _).
          destruct (In_nth_error _ _ Hp) as [k Hk]. destruct (Forall2_nth _ _ _ _ _ PP Hk) as (a & Ka & Q). apply Nk. apply (piece_key w p a axis Nx Q). apply Z.
          now apply nth_error_In in Ka.
        * intros C. apply NN. intros (_ & _ & Z). apply Z. exact (alike_conflict _ _ (alike_all_sym _ _ SS) C).
      + left. destruct er; try reflexivity; exfalso; cut (~ (L <> [] /\ (forall a, In a L -> In axis (s_axes a)) /\ ~ conflict (map (fun a => resized (sshape a) axis 1) L)));
          try (intros Z'; apply Bd in Z'; discriminate); intros Z'; destruct (G Z') as (? & ? & _ & Z'' & _); discriminate. }
  destruct (Cat None) as [Gn Bn]. destruct (Cat (Some 0)) as [Gd Bd]. cbn zeta in Gn, Bn, Gd, Bd.
  change (map (fun y => part_of y None) ys) with (map nominal_of ys) in *. change (map (fun y => part_of y (Some 0)) ys) with (map distribution_of ys) in *.
  assert (Wid := wider_conflict (fun s => resized s axis 1) xs (resized_wider axis) J).
  split.
  - intros (NE & Ha & NC).
    destruct (Gn NE Ha (fun C => NC (Wid C))) as (n & Tn & En & Wn & Jn & Sn & Vn).
    destruct (Gd NE Ha NC) as (d & Td & Ed & Wd & Jd & Sd & Vd). rewrite En. cbn [bind]. rewrite Ed. cbn [bind].
    assert (Xn : ~ In axis_distribution (dkeys (op_shape (OpArr n)))).
    { cbn [op_shape]. rewrite Sn, resized_keys. intros K. apply key_size in K as [m K]. destruct Jn as (_ & _ & At). destruct (At _ _ K) as (s & Hs & Hm).
      apply in_map_iff in Hs as (p & <- & Hp). rewrite Forall_forall in J. apply (proj2 (full_nodup p None (J p Hp))).
      apply (in_map fst) in Hm. change (map fst (resized (full_shape None p) axis 1)) with (dkeys (resized (full_shape None p) axis 1)) in Hm. rewrite resized_keys in Hm. exact Hm. }
    exists n, d. cbn zeta. split; [now apply mk_unc_intro|]. assert (Wr : u_wf (mkU (OpArr n) (OpArr d))) by (split; [exact Wn|split; [exact Wd|exact Xn]]).
    split; [exact Wr|]. split.
    + intros [k|]; [exists Td|exists Tn]; split; auto.
    + intros w k x sh e Hk He In'. assert (Nx : axis <> axis_distribution).
      { intros Ex. apply nth_error_In in Hk. rewrite Forall_forall in J. apply (proj2 (full_nodup _ None (J _ Hk))). rewrite <- Ex. now apply Ha. }
      assert (Jx : joinable (x, sh)) by (apply nth_error_In in Hk; rewrite Forall_forall in J; now apply J). destruct Jx as (Wx & Fx & _). cbn [fst snd] in *.
      rewrite (u_at_part_of x) by auto. destruct w as [k'|]; cbn [u_inside op_shape u_nominal u_distribution] in In'.
      * cbn [u_at u_distribution op_at]. rewrite bat_inside by auto. cbn [in_world part_of].
        change (distribution_of x) with (part_of x (Some 0)). rewrite <- (Vd k x sh (set_env e axis_distribution k') Hk).
        -- apply at_respects. intros y. unfold set_env. destruct (String.eqb_spec axis axis_distribution); [contradiction|].
           destruct (String.eqb_spec y axis) as [-> |]; [|reflexivity]. destruct (String.eqb_spec axis axis_distribution); [contradiction|reflexivity].
        -- unfold set_env. destruct (String.eqb_spec axis axis_distribution); [contradiction|exact He].
      * cbn [u_at u_nominal op_at]. rewrite bat_inside by auto. apply (Vn k x sh e Hk He).
  - intros Nok. destruct Bn as [Bn|(NE & Ha & NC)]; [now rewrite Bn|].
    specialize (Ha (or_introl eq_refl)). destruct (Gn NE Ha NC) as (n & _ & En & _). rewrite En. cbn [bind].
    destruct Bd as [Bd|(_ & _ & NC')]; [now rewrite Bd|]. exfalso. apply Nok. unfold ok. auto.
Qed.

Lemma incl_wider s t ax : NoDup (dkeys t) -> incl s t -> forall n, dget ((fun x : shape => x) s) ax = Some n -> dget ((fun x : shape => x) t) ax = Some n.
Proof. intros N I n H. apply dget_NoDup; auto. apply I. now apply dget_In. Qed.

Theorem u_stack_spec {A} (xs : list (uop A * shape)) (axis : string) : Forall joinable xs ->
  let shapes w := map (full_shape w) xs in
  let ok := xs <> [] /\ axis <> axis_distribution /\ (forall p, In p xs -> ~ In axis (dkeys (snd p))) /\ ~ conflict (shapes (Some 0)) in
  (ok -> exists n d, let r := mkU (OpArr n) (OpArr d) in
     u_stack (map fst xs) axis = Ok r /\ u_wf r /\
     (forall w, exists T, joint (shapes w) T /\ op_shape (u_part r w) = (axis, length xs) :: T) /\
     forall w k x sh e, nth_error xs k = Some (x, sh) -> e axis = k ->
       u_inside r w e -> u_at (Uncertain r) w e = u_at x w e) /\
  (~ ok -> u_stack (map fst xs) axis = Err ValueError).
Proof.
  intros J shapes ok. unfold u_stack, u_stack_like. destruct (spread_all xs J) as (ys & Ey & Wy & P). rewrite Ey. cbn [bind].
  assert (Wp : forall w, Forall op_wf (map (fun y => part_of y w) ys)).
  { intros w. apply Forall_forall. intros o Ho. apply in_map_iff in Ho as (y & <- & Hy). rewrite Forall_forall in Wy. now apply part_wf, Wy. }
  assert (PP : forall w, Forall2 (piece w) xs (map normalize (map (fun y => part_of y w) ys))) by (intros w; rewrite map_map; apply P).
  assert (St : forall w, let l := map (fun y => part_of y w) ys in
     (xs <> [] -> axis <> axis_distribution \/ w = None -> (forall p, In p xs -> ~ In axis (dkeys (snd p))) -> ~ conflict (shapes w) ->
      exists r T, na_stack l axis None = Ok r /\ wf r /\ joint (shapes w) T /\ sshape r = (axis, length xs) :: T /\
        forall k x sh e, nth_error xs k = Some (x, sh) -> e axis = k -> at_ r e = op_at (part_of x w) e) /\
     (na_stack l axis None = Err ValueError \/
      (xs <> [] /\ (w = None -> forall p, In p xs -> ~ In axis (dkeys (snd p))) /\ ~ conflict (shapes w)))).
  { intros w l. destruct (stack_spec l axis (Wp w)) as [G Bd]. cbn zeta in G, Bd. specialize (PP w). fold l in PP.
    assert (Lq := Forall2_len _ _ _ PP). assert (SS := pieces_shapes w (fun s => s) xs _ (fun s t Q => Q) J PP).
    set (L := map normalize l) in *. change (map (fun p => full_shape w p) xs) with (shapes w) in SS. change (map (fun a => sshape a) L) with (map sshape L) in SS. split.
    - intros NE Nx' Ha NC. assert (Nx : w = None \/ axis <> axis_distribution) by tauto.
      destruct G as (r & sh & Eb & Er & Wr & Sr & Vr).
      { split; [intros E0; rewrite E0 in Lq; destruct xs; [contradiction|discriminate]|]. split.
        - intros a Ha'. destruct (Forall2_in_r _ _ _ _ PP Ha') as (p & Hp & Q). rewrite (piece_key w p a axis Nx Q). auto.
        - intros C. apply NC. exact (alike_conflict _ _ SS C). }
      exists r, sh. split; auto. split; auto. split.
      + apply (alike_joint _ _ _ SS). apply broadcast_joint; auto. apply Forall_forall. intros s Hs. apply in_map_iff in Hs as (a & <- & Ha').
        destruct (Forall2_in_r _ _ _ _ PP Ha') as (p & Hp & (Wa & _)). now apply wf_nodup.
      + rewrite Lq. split; auto. intros k x sh0 e Hk He.
        destruct (Forall2_nth _ _ _ _ _ PP Hk) as (a & Ka & Q). rewrite (Vr k a e Ka He). apply Q.
    - destruct (na_stack l axis None) as [r|er] eqn:Er.
      + right. assert (NN : ~ ~ (L <> [] /\ (forall a, In a L -> ~ In axis (s_axes a)) /\ ~ conflict (map sshape L))).
        { intros Z. apply Bd in Z. discriminate. }
        assert (NE : xs <> []). { intros ->. apply NN. intros (Z & _). apply Z. destruct L; [reflexivity|discriminate]. }
        split; auto. split.
        * intros Nx p Hp Hk'. apply NN. intros (_ & Z & _).
          destruct (In_nth_error _ _ Hp) as [k Hk]. destruct (Forall2_nth _ _ _ _ _ PP Hk) as (a & Ka & Q). apply (Z a); [now apply nth_error_In in Ka|].
          apply (piece_key w p a axis (or_introl Nx) Q). exact Hk'.
        * intros C. apply NN. intros (_ & _ & Z). apply Z. exact (alike_conflict _ _ (alike_all_sym _ _ SS) C).
      + left. destruct er; try reflexivity; exfalso; cut (~ (L <> [] /\ (forall a, In a L -> ~ In axis (s_axes a)) /\ ~ conflict (map sshape L)));
          try (intros Z'; apply Bd in Z'; discriminate); intros Z'; destruct (G Z') as (? & ? & _ & Z'' & _); discriminate. }
  destruct (St None) as [Gn Bn]. destruct (St (Some 0)) as [Gd Bd]. cbn zeta in Gn, Bn, Gd, Bd.
  change (map (fun y => part_of y None) ys) with (map nominal_of ys) in *. change (map (fun y => part_of y (Some 0)) ys) with (map distribution_of ys) in *.
  assert (Wid := wider_conflict (fun s => s) xs incl_wider J).
  change (map (fun p => full_shape None p) xs) with (shapes None) in Wid. change (map (fun p => full_shape (Some 0) p) xs) with (shapes (Some 0)) in Wid.
  split.
  - intros (NE & Nx & Ha & NC).
    destruct (Gn NE (or_introl Nx) Ha (fun C => NC (Wid C))) as (n & Tn & En & Wn & Jn & Sn & Vn).
    destruct (Gd NE (or_introl Nx) Ha NC) as (d & Td & Ed & Wd & Jd & Sd & Vd). rewrite En. cbn [bind]. rewrite Ed. cbn [bind].
    assert (Xn : ~ In axis_distribution (dkeys (op_shape (OpArr n)))).
    { cbn [op_shape]. rewrite Sn. intros [K|K]; [now apply Nx|]. apply key_size in K as [m K]. destruct Jn as (_ & _ & At). destruct (At _ _ K) as (s & Hs & Hm).
      apply in_map_iff in Hs as (p & <- & Hp). rewrite Forall_forall in J. apply (proj2 (full_nodup p None (J p Hp))).
      apply (in_map fst) in Hm. exact Hm. }
    exists n, d. cbn zeta. split; [now apply mk_unc_intro|]. assert (Wr : u_wf (mkU (OpArr n) (OpArr d))) by (split; [exact Wn|split; [exact Wd|exact Xn]]).
    split; [exact Wr|]. split.
    + intros [k|]; [exists Td|exists Tn]; split; auto.
    + intros w k x sh e Hk He In'.
      assert (Jx : joinable (x, sh)) by (apply nth_error_In in Hk; rewrite Forall_forall in J; now apply J). destruct Jx as (Wx & Fx & _). cbn [fst snd] in *.
      rewrite (u_at_part_of x) by auto. destruct w as [k'|]; cbn [u_inside op_shape u_nominal u_distribution] in In'.
      * cbn [u_at u_distribution op_at]. rewrite bat_inside by auto. cbn [in_world part_of].
        apply (Vd k x sh (set_env e axis_distribution k') Hk).
        unfold set_env. destruct (String.eqb_spec axis axis_distribution); [contradiction|exact He].
      * cbn [u_at u_nominal op_at]. rewrite bat_inside by auto. apply (Vn k x sh e Hk He).
  - intros Nok. destruct Bn as [Bn|(NE & Ha & NC)]; [now rewrite Bn|].
    specialize (Ha eq_refl). destruct (Gn NE (or_intror eq_refl) Ha NC) as (n & Tn & En & _ & _ & Sn & _). rewrite En. cbn [bind].
    destruct Bd as [Bd|(_ & _ & NC')]; [now rewrite Bd|].
    destruct (string_dec axis axis_distribution) as [Ex|Nx]; [|exfalso; apply Nok; unfold ok; auto].
    destruct (na_stack (map distribution_of ys) axis None) as [d|er] eqn:Ed; cbn [bind].
    + unfold mk_unc. rewrite Sn. unfold dmem. rewrite <- Ex. cbn [dget fst snd]. now rewrite String.eqb_refl.
    + destruct (stack_spec (map distribution_of ys) axis (Wp (Some 0))) as [G B']. cbn zeta in G, B'.
      destruct er; try reflexivity; exfalso; cut (~ (map normalize (map distribution_of ys) <> [] /\ (forall a, In a (map normalize (map distribution_of ys)) -> ~ In axis (s_axes a)) /\ ~ conflict (map sshape (map normalize (map distribution_of ys)))));
          try (intros Z'; apply B' in Z'; rewrite Ed in Z'; discriminate); intros Z'; destruct (G Z') as (? & ? & _ & Z'' & _); rewrite Ed in Z''; discriminate.
Qed.
