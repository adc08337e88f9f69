(** Proofs about the model of [na.despike]. *)
From Coq Require Import String List Arith ZArith Bool Lia.
From Verif Require Import Base BaseFacts Numpy NumpyFacts Shapes ShapesFacts Scalar Elementwise Derived Hist InterpAxis Despike
  Spec SpecNumeric SpecInterp SpecDespike AlignFacts GetitemFacts SetitemFacts ElementwiseFacts ReduceFacts SortingFacts
  AlongFacts RankdataFacts RegridFacts ReorderFacts PdfFacts UncertainIndexFacts HistFacts InterpAxisFacts LoopFacts.
From Verif Require QuantileFacts.
Import ListNotations.
Open Scope nat_scope.
Open Scope list_scope.

Lemma flat_map_single {X Y} (f : X -> Y) l : flat_map (fun x => [f x]) l = map f l.
Proof. induction l; simpl; congruence. Qed.

Lemma map_flat_map {X Y Z} (f : Y -> Z) (g : X -> list Y) l : map f (flat_map g l) = flat_map (fun x => map f (g x)) l.
Proof. induction l; simpl; auto. rewrite map_app. congruence. Qed.

Lemma flat_map_ext_in {X Y} (f g : X -> list Y) l : (forall x, In x l -> f x = g x) -> flat_map f l = flat_map g l.
Proof. induction l as [|x l IH]; simpl; auto. intros H. rewrite H, IH; auto. Qed.

Lemma fibre_two {B} (g : env -> B) sh x y e : map g (fibre sh [x; y] e)
  = flat_map (fun i => map (fun j => g (set_env (set_env e x i) y j)) (seq 0 (size_of sh y))) (seq 0 (size_of sh x)).
Proof.
  simpl. rewrite map_flat_map. apply flat_map_ext. intros i. rewrite flat_map_single, map_map. reflexivity.
Qed.

Lemma wf_two {A} (a : sarr A) x y m n : wf a -> s_axes a = [x; y] -> In (x, m) (sshape a) -> In (y, n) (sshape a) -> nshape (s_nd a) = [m; n].
Proof.
  intros W E Hx Hy. assert (N := wf_nodup a W). destruct W as [ND L]. rewrite E in ND, L.
  destruct (nshape (s_nd a)) as [|p [|q [|r l]]] eqn:Es; simpl in L; try discriminate.
  assert (Sh : sshape a = [(x, p); (y, q)]) by (unfold sshape; now rewrite E, Es).
  rewrite Sh in Hx, Hy, N. rewrite (entry_eq _ x m p N Hx), (entry_eq _ y n q N Hy); simpl; auto.
Qed.

(** the part of an array that is an image *)
Lemma image_part {A} (b : sarr A) S L i x y m n : wf b -> sshape b = S -> pos (without S L) i -> taken S L = [x; y] ->
  In (x, m) S -> In (y, n) S ->
  exists r, getitem b (int_items i) = Ok r /\ wf r /\ s_axes r = [x; y] /\ nshape (s_nd r) = [m; n] /\
    (forall ax k, In (ax, k) (sshape r) <-> In (ax, k) S /\ In ax [x; y]) /\
    forall e, agrees i e -> as_image (s_nd r) = Ok (table m n (fun p q => at_ b (set_env (set_env e x p) y q))).
Proof.
  intros W E P Tk Hx Hy. destruct (part_fibre b S L i W E P) as (r & Gr & Wr & Ar & Sr & _ & V).
  assert (N : NoDup (dkeys S)) by (rewrite <- E; now apply wf_nodup).
  rewrite Tk in *. exists r. split; auto. split; auto. split; auto.
  assert (Sh : nshape (s_nd r) = [m; n]).
  { apply (wf_two r x y m n); auto; apply Sr; simpl; auto. }
  split; auto. split; auto. intros e G. unfold as_image. rewrite Sh, (V e G), fibre_two.
  rewrite (size_of_In S x m), (size_of_In S y n) by auto. reflexivity.
Qed.

Lemma table_ext {A} m n (f g : nat -> nat -> A) : (forall i j, f i j = g i j) -> table m n f = table m n g.
Proof. intros H. unfold table. f_equal. apply flat_map_ext. intros i. apply map_ext. auto. Qed.

Section Loop.
Context {A P : Type} (detect : detector A P).
Variable (S : shape) (axis : list string) (x y : string) (m n : nat).
Let O := without S axis.
Hypothesis (NS : NoDup (dkeys S)) (Tk : taken S axis = [x; y]) (Hx : In (x, m) S) (Hy : In (y, n) S).

Lemma axes_differ : x <> y.
Proof. intros E. assert (X : NoDup (taken S axis)) by now apply NoDup_filter. rewrite Tk, E in X. inversion X; subst. apply H1. simpl. auto. Qed.

(** an optional image over the same shape *)
Definition covered {X} (o : option (sarr X)) (f : option (env -> X)) : Prop :=
  match o, f with
  | Some b, Some f => wf b /\ sshape b = S /\ forall e, at_ b e = f e
  | None, None => True
  | _, _ => False
  end.

Definition opt_pixels {X} (f : option (env -> X)) (e : env) : option (nat -> nat -> X) :=
  match f with Some f => Some (fun p q => f (set_env (set_env e x p) y q)) | None => None end.

Lemma covered_item {X} (o : option (sarr X)) f i : covered o f -> pos O i ->
  exists d, opt_item o i = Ok d /\ forall e, agrees i e -> opt_image d = Ok (opt_table m n (opt_pixels f e)).
Proof.
  intros C Pi. destruct o as [b|], f as [f|]; simpl in C; try contradiction; [|exists None; split; auto].
  destruct C as (Wb & Sb & Vb). destruct (image_part b S axis i x y m n Wb Sb Pi Tk Hx Hy) as (r & Gr & _ & _ & _ & _ & V).
  simpl. rewrite Gr. cbn [bind]. exists (Some (s_nd r)). split; auto. intros e G. simpl. rewrite (V e G). cbn [bind].
  f_equal. f_equal. apply table_ext. auto.
Qed.

(** the kernel *)
Definition kernel_ok (o : option (sarr P)) (kx ky : string) (p q : nat) (f : option (env -> P)) : Prop :=
  match o, f with
  | Some b, Some f => wf b /\ sshape b = O ++ [(kx, p); (ky, q)] /\ forall e, at_ b e = f e
  | None, None => True
  | _, _ => False
  end.

Definition opt_kernel (kx ky : string) (f : option (env -> P)) (e : env) : option (nat -> nat -> P) :=
  match f with Some f => Some (fun i j => f (set_env (set_env e kx i) ky j)) | None => None end.

Lemma kernel_item o kx ky p q f i : kernel_ok o kx ky p q f -> pos O i ->
  exists d, opt_item o i = Ok d /\ forall e, agrees i e -> opt_image d = Ok (opt_table p q (opt_kernel kx ky f e)).
Proof.
  intros C Pi. destruct o as [b|], f as [f|]; simpl in C; try contradiction; [|exists None; split; auto].
  destruct C as (Wb & Sb & Vb).
  assert (NB : NoDup (dkeys (O ++ [(kx, p); (ky, q)]))) by (rewrite <- Sb; now apply wf_nodup).
  rewrite dkeys_app in NB. simpl in NB.
  assert (Dx : ~ In kx (dkeys O)) by (intros H; apply NoDup_remove_2 in NB; apply NB; apply in_app_iff; auto).
  assert (Dy : ~ In ky (dkeys O)).
  { intros H. change ([kx; ky]) with ([kx] ++ [ky]) in NB. rewrite app_assoc in NB. apply NoDup_remove_2 in NB. apply NB.
    rewrite app_nil_r. apply in_app_iff. auto. }
  assert (Wo : without (O ++ [(kx, p); (ky, q)]) [kx; ky] = O).
  { unfold without. rewrite filter_app. simpl. rewrite !String.eqb_refl. simpl. rewrite Bool.orb_true_r. simpl. rewrite app_nil_r.
    apply filter_all. intros [k v] H. simpl. apply (in_map fst) in H. simpl in H. fold (dkeys O) in H.
    destruct (String.eqb_spec k kx); [subst; contradiction|]. destruct (String.eqb_spec k ky); [subst; contradiction|]. auto. }
  assert (Ta : taken (O ++ [(kx, p); (ky, q)]) [kx; ky] = [kx; ky]).
  { unfold taken. rewrite dkeys_app, filter_app. simpl. rewrite !String.eqb_refl. simpl. rewrite Bool.orb_true_r.
    replace (filter (fun ax => ((ax =? kx)%string || ((ax =? ky)%string || false))%bool) (dkeys O)) with (@nil string); auto.
    symmetry. clear - Dx Dy. induction (dkeys O) as [|k l IH]; auto. simpl in *.
    destruct (String.eqb_spec k kx); [tauto|]. destruct (String.eqb_spec k ky); [tauto|]. simpl. auto. }
  assert (Pi' : pos (without (O ++ [(kx, p); (ky, q)]) [kx; ky]) i) by now rewrite Wo.
  destruct (image_part b _ [kx; ky] i kx ky p q Wb Sb Pi' Ta) as (r & Gr & _ & _ & _ & _ & V).
  { apply in_app_iff. simpl. auto. }
  { apply in_app_iff. simpl. auto. }
  simpl. rewrite Gr. cbn [bind]. exists (Some (s_nd r)). split; auto. intros e G. simpl. rewrite (V e G). cbn [bind].
  f_equal. f_equal. apply table_ext. auto.
Qed.

Variable (b : sarr A) (mk : option (sarr bool)) (bk vr : option (sarr A)) (kn : option (sarr P)).
Variable (fm : option (env -> bool)) (fb fv : option (env -> A)) (fk : option (env -> P)) (kx ky : string) (kp kq : nat).
Hypothesis (Wb : wf b) (Sb : sshape b = S) (Cm : covered mk fm) (Cb : covered bk fb) (Cv : covered vr fv)
           (Ck : kernel_ok kn kx ky kp kq fk).

Definition cleaned (e : env) : A :=
  detect (table m n (fun p q => at_ b (set_env (set_env e x p) y q))) (opt_table m n (opt_pixels fm e)) (opt_table m n (opt_pixels fb e))
    (opt_table m n (opt_pixels fv e)) (opt_table kp kq (opt_kernel kx ky fk e)) (e x) (e y).

Lemma step_ok result i : pos O i -> wf result -> sshape result = S ->
  exists r, despike_step detect b mk bk vr kn result i = Ok r /\ wf r /\ sshape r = S /\
    forall e, inside e S -> at_ r e = cleaned e \/ (~ agrees i e /\ at_ r e = at_ result e).
Proof.
  intros Pi Wr Sr. assert (Ki : dkeys i = dkeys O) by apply Pi.
  destruct (image_part b S axis i x y m n Wb Sb Pi Tk Hx Hy) as (a & Ga & Wa & Aa & Na & Sa & Va).
  destruct (covered_item mk fm i Cm Pi) as (dm & Em & Vm). destruct (covered_item bk fb i Cb Pi) as (db & Eb & Vb).
  destruct (covered_item vr fv i Cv Pi) as (dv & Ev & Vv). destruct (kernel_item kn kx ky kp kq fk i Ck Pi) as (dk & Ek & Vk).
  unfold despike_step. rewrite Ga, Em, Eb, Ev, Ek. cbn [bind].
  set (e0 := over i (fun _ => 0)). assert (G0 : agrees i e0) by apply pos_agrees_over.
  destruct (as_image (s_nd a)) as [a'|] eqn:Ea'; [|assert (Y := Va e0 G0); congruence].
  destruct (opt_image dm) as [m'|] eqn:Em'; [|assert (Y := Vm e0 G0); congruence].
  destruct (opt_image db) as [b'|] eqn:Eb'; [|assert (Y := Vb e0 G0); congruence].
  destruct (opt_image dv) as [v'|] eqn:Ev'; [|assert (Y := Vv e0 G0); congruence].
  destruct (opt_image dk) as [k'|] eqn:Ek'; [|assert (Y := Vk e0 G0); congruence].
  cbn [bind]. set (v := mkNd _ _).
  assert (Wv : wf (mkS v (s_axes a))) by (split; [apply Wa|apply (proj2 Wa)]).
  assert (Emk : mk_sarr v (s_axes a) = Ok (mkS v (s_axes a))) by (apply mk_sarr_intro; apply Wv).
  rewrite Emk. cbn [bind].
  assert (ONS : forall ax k, In (ax, k) O -> In (ax, k) S) by (intros ax k H; now apply without_In in H).
  destruct (int_setitem result (mkS v (s_axes a)) i Wr Wv) as (r & Er & Wr' & Sr' & Vr).
  { rewrite Ki. now apply without_nodup. }
  { intros ax H. rewrite <- wf_keys, Sr by auto. rewrite Ki in H. apply key_size in H as [k H].
    apply (in_map fst S (ax, k)). auto. }
  { intros ax k q Hn Hq. rewrite Sr in Hn. assert (H : In ax (dkeys O)) by (rewrite <- Ki; apply dget_Some_key; eauto).
    apply key_size in H as [k2 Hk2]. rewrite (entry_eq S ax k k2 NS Hn) by auto. apply (proj2 Pi ax k2 q); auto. }
  { intros ax k. change (sshape (mkS v (s_axes a))) with (sshape a). rewrite (Sa ax k), Sr, Ki, <- Tk. split; intros [H H'].
    - split; auto. apply (taken_apart S axis ax); auto. now apply (in_map fst) in H.
    - split; auto. apply (taken_apart S axis ax); auto. now apply (in_map fst) in H. }
  exists r. split; auto. split; auto. split; [congruence|]. intros e He. rewrite <- Sr in He.
  destruct (Vr e He) as [[G V1]|V2]; auto. left. rewrite V1. unfold at_ at 1. cbn [s_axes s_nd]. rewrite Aa. simpl.
  specialize (Va e G). specialize (Vm e G). specialize (Vb e G). specialize (Vv e G). specialize (Vk e G).
  injection Va as ->. injection Vm as ->. injection Vb as ->. injection Vv as ->. injection Vk as ->. reflexivity.
Qed.

Lemma loop_ok : exists r, foldM (despike_step detect b mk bk vr kn) (na_ndindex S axis) b = Ok r /\ wf r /\ sshape r = S /\
  forall e, inside e S -> at_ r e = cleaned e.
Proof.
  destruct (fill_loop (despike_step detect b mk bk vr kn) S (pos O) cleaned) with (l := na_ndindex S axis) (result := b) as (r & Er & Wr & Sr & V); auto.
  - intros result i. apply step_ok.
  - intros i Hi. now apply ignored_pos.
  - exists r. do 3 (split; auto). intros e He. apply V; auto. right. exists (position_of O e). split; [|apply position_agrees].
    apply ignored_cover; auto. intros ax k H. apply He. now apply without_In in H.
Qed.
End Loop.

Lemma opt_spread_ok {X} (o : option (operand X)) S : opt_operand_wf o -> NoDup (dkeys S) ->
  (forall s, In s (opt_operand_shape o) -> fits_in s S) ->
  exists b, opt_spread (option_map normalize o) S = Ok b /\
    covered S b (match o with Some o => Some (op_at o) | None => None end).
Proof.
  intros W N F. destruct o as [o|]; simpl; [|exists None; simpl; auto].
  destruct (fits_spread_any (normalize o) S (normalize_wf o (W o eq_refl)) N) as (b & E & Wb & Sb & Vb).
  { rewrite normalize_shape. apply F. simpl. auto. }
  rewrite E. exists (Some b). simpl. split; auto. split; auto. split; auto. intros e. rewrite Vb. apply normalize_at.
Qed.

Lemma opt_shapes_normalize {X} (o : option (operand X)) : map sshape (opt_list (option_map normalize o)) = opt_operand_shape o.
Proof. destruct o; simpl; auto. now rewrite normalize_shape. Qed.

Lemma opt_shapes_nodup {X} (o : option (operand X)) : opt_operand_wf o -> Forall (fun s : shape => NoDup (dkeys s)) (opt_operand_shape o).
Proof.
  intros W. destruct o as [o|]; simpl; constructor; [|constructor]. rewrite <- normalize_shape. apply wf_nodup, normalize_wf. auto.
Qed.

Theorem despike_ok {A P} (detect : detector A P) (a : operand A) (axis : list string) (w : option (operand bool))
        (bk vr : option (operand A)) (k : option (operand P)) (S : shape) (x y kx ky : string) (m n p q : nat) :
  op_wf a -> opt_operand_wf w -> opt_operand_wf bk -> opt_operand_wf vr -> opt_operand_wf k ->
  broadcast_shapes (op_shape a :: opt_operand_shape w ++ opt_operand_shape bk ++ opt_operand_shape vr) = Ok S ->
  filter (fun ax => smem ax axis) (dkeys S) = [x; y] -> In (x, m) S -> In (y, n) S ->
  (forall c, k = Some c -> broadcast_shapes [without S axis; op_shape c] = Ok (without S axis ++ [(kx, p); (ky, q)])) ->
  exists r, na_despike detect a axis w bk vr k = Ok r /\ wf r /\ sshape r = S /\
    forall e, inside e S ->
      at_ r e = detect (table m n (plane a x y e)) (opt_table m n (excluded w x y e)) (opt_table m n (opt_plane bk x y e))
                  (opt_table m n (opt_plane vr x y e)) (opt_table p q (opt_plane k kx ky e)) (e x) (e y).
Proof.
  intros Wa Ww Wbk Wvr Wk ES Tk Hx Hy EK.
  assert (Fs : Forall (fun s : shape => NoDup (dkeys s)) (op_shape a :: opt_operand_shape w ++ opt_operand_shape bk ++ opt_operand_shape vr)).
  { constructor; [rewrite <- (normalize_shape a); apply wf_nodup, normalize_wf; auto|]. rewrite !Forall_app. auto using opt_shapes_nodup. }
  destruct (broadcast_shapes_ok _ _ Fs ES) as (NS & _). assert (Ft := broadcast_fits _ _ Fs ES).
  destruct (fits_spread_any (normalize a) S (normalize_wf a Wa) NS) as (b & Eb & Wb & Sb & Vb).
  { rewrite normalize_shape. apply Ft. simpl. auto. }
  destruct (opt_spread_ok w S Ww NS) as (wb & Ew & Cw). { intros s H. apply Ft. simpl. rewrite !in_app_iff. auto. }
  destruct (opt_spread_ok bk S Wbk NS) as (bb & Ebk & Cbk). { intros s H. apply Ft. simpl. rewrite !in_app_iff. auto. }
  destruct (opt_spread_ok vr S Wvr NS) as (vb & Evr & Cvr). { intros s H. apply Ft. simpl. rewrite !in_app_iff. auto. }
  set (fm := match w with Some o => Some (fun e => negb (op_at o e)) | None => None end).
  assert (Cm : covered S (option_map inverted wb) fm).
  { unfold fm. destruct w as [o|], wb as [c|]; simpl in Cw |- *; try contradiction; auto. destruct Cw as (Wc & Sc & Vc).
    split; [split; apply Wc|]. split; auto. intros e. rewrite <- Vc. reflexivity. }
  assert (exists kb, match option_map normalize k with
    | Some psfk => shape_psfk <- broadcast_shapes [orthogonal S axis; sshape psfk] ;;
                   b <- na_broadcast_to psfk shape_psfk false ;; Ok (Some b)
    | None => Ok None end = Ok kb /\
    kernel_ok S axis kb kx ky p q (match k with Some o => Some (op_at o) | None => None end)) as (kb & Ekb & Ckb).
  { destruct k as [c|]; cbn [option_map]; [|exists None; simpl; auto]. specialize (EK c eq_refl). rewrite normalize_shape.
    change (orthogonal S axis) with (without S axis). rewrite EK. cbn [bind].
    assert (Wc := normalize_wf c (Wk c eq_refl)).
    assert (F2 : Forall (fun s : shape => NoDup (dkeys s)) [without S axis; op_shape c]).
    { apply two_nodup; [now apply without_nodup|]. rewrite <- normalize_shape. now apply wf_nodup. }
    destruct (broadcast_shapes_ok _ _ F2 EK) as (NK & _).
    destruct (fits_spread_any (normalize c) _ Wc NK) as (d & Ed & Wd & Sd & Vd).
    { rewrite normalize_shape. apply (broadcast_fits _ _ F2 EK). simpl. auto. }
    rewrite Ed. exists (Some d). simpl. split; auto. split; auto. split; auto. intros e. rewrite Vd. apply normalize_at. }
  unfold na_despike. rewrite !opt_shapes_normalize, normalize_shape, ES. cbn [bind]. rewrite Eb. cbn [bind].
  rewrite Ew. cbn [bind]. rewrite Ebk. cbn [bind]. rewrite Evr. cbn [bind]. rewrite Ekb. cbn [bind].
  destruct (loop_ok detect S axis x y m n NS Tk Hx Hy b (option_map inverted wb) bb vb kb fm _ _ _ kx ky p q Wb Sb Cm Cbk Cvr Ckb)
    as (r & Er & Wr & Sr & V).
  exists r. split; auto. split; auto. split; auto. intros e He. rewrite (V e He). unfold cleaned.
  assert (E1 : table m n (fun i j => at_ b (set_env (set_env e x i) y j)) = table m n (plane a x y e)).
  { apply table_ext. intros i j. rewrite Vb. apply normalize_at. }
  rewrite E1. unfold fm. destruct w, bk, vr, k; reflexivity.
Qed.

(** ** Storage order *)

Lemma table_ext_in {A} m n (f g : nat -> nat -> A) : (forall i j, i < m -> j < n -> f i j = g i j) -> table m n f = table m n g.
Proof.
  intros H. unfold table. f_equal. apply flat_map_ext_in. intros i Hi. apply in_seq in Hi. apply map_ext_in. intros j Hj. apply in_seq in Hj.
  apply H; lia.
Qed.

Lemma opt_table_ext {A} m n (f g : option (nat -> nat -> A)) :
  match f, g with
  | Some f, Some g => forall i j, i < m -> j < n -> f i j = g i j
  | None, None => True
  | _, _ => False
  end -> opt_table m n f = opt_table m n g.
Proof. destruct f, g; simpl; try tauto. intros H. f_equal. now apply table_ext_in. Qed.

Lemma op_at_commute {A} (o : operand A) x y e i j : x <> y ->
  op_at o (set_env (set_env e x i) y j) = op_at o (set_env (set_env e y j) x i).
Proof.
  intros D. destruct o as [a|v]; simpl; auto. apply bat_agree. intros ax _. unfold set_env.
  destruct (String.eqb_spec ax x), (String.eqb_spec ax y); auto. congruence.
Qed.

Lemma same_fits {A} (o p : operand A) S e : op_wf o -> op_wf p -> same_operand o p -> fits_in (op_shape o) S -> inside e S ->
  op_at o e = op_at p e.
Proof.
  intros Wo Wp E F I. destruct o as [a|v], p as [b|w]; simpl in *; try contradiction; auto.
  apply bat_same; auto. apply bclamp_inside with (sh := S); auto. intros ax n H. apply dget_In in H.
  destruct (F ax n H) as (k & Hk & [C|C]); auto. subst. auto.
Qed.

Theorem despike_order {A P} (detect : detector A P) (a a' : operand A) (axis : list string) (w w' : option (operand bool))
        (bk bk' vr vr' : option (operand A)) (S : shape) :
  impartial detect ->
  op_wf a -> opt_operand_wf w -> opt_operand_wf bk -> opt_operand_wf vr ->
  op_wf a' -> opt_operand_wf w' -> opt_operand_wf bk' -> opt_operand_wf vr' ->
  same_operand a a' -> same_option w w' -> same_option bk bk' -> same_option vr vr' ->
  broadcast_shapes (op_shape a :: opt_operand_shape w ++ opt_operand_shape bk ++ opt_operand_shape vr) = Ok S ->
  length (filter (fun ax => smem ax axis) (dkeys S)) = 2 ->
  exists r r', na_despike detect a axis w bk vr None = Ok r /\ na_despike detect a' axis w' bk' vr' None = Ok r' /\ same_array r r'.
Proof.
  intros Imp Wa Ww Wbk Wvr Wa' Ww' Wbk' Wvr' Ha Hw Hbk Hvr ES Len.
  assert (Fs : Forall (fun s : shape => NoDup (dkeys s)) (op_shape a :: opt_operand_shape w ++ opt_operand_shape bk ++ opt_operand_shape vr)).
  { constructor; [rewrite <- (normalize_shape a); apply wf_nodup, normalize_wf; auto|]. rewrite !Forall_app. auto using opt_shapes_nodup. }
  assert (Fs' : Forall (fun s : shape => NoDup (dkeys s)) (op_shape a' :: opt_operand_shape w' ++ opt_operand_shape bk' ++ opt_operand_shape vr')).
  { constructor; [rewrite <- (normalize_shape a'); apply wf_nodup, normalize_wf; auto|]. rewrite !Forall_app. auto using opt_shapes_nodup. }
  assert (OS : forall X (o p : option (operand X)), same_option o p -> Forall2 same_shape (opt_operand_shape o) (opt_operand_shape p)).
  { intros X [o|] [p|]; simpl; try tauto; intros H; constructor; auto. now apply QuantileFacts.same_operand_shape. }
  assert (SS : Forall2 same_shape (op_shape a :: opt_operand_shape w ++ opt_operand_shape bk ++ opt_operand_shape vr)
                 (op_shape a' :: opt_operand_shape w' ++ opt_operand_shape bk' ++ opt_operand_shape vr')).
  { constructor; [now apply QuantileFacts.same_operand_shape|]. apply Forall2_app; auto. apply Forall2_app; auto. }
  assert (BS := broadcast_shapes_same _ _ SS Fs Fs'). rewrite ES in BS.
  destruct (broadcast_shapes (op_shape a' :: _)) as [S'|] eqn:ES'; [|contradiction].
  destruct (broadcast_shapes_ok _ _ Fs ES) as (NS & _). destruct (broadcast_shapes_ok _ _ Fs' ES') as (NS' & _).
  assert (Ft := broadcast_fits _ _ Fs ES).
  change (length (taken S axis) = 2) in Len.
  destruct (taken S axis) as [|x [|y [|z l]]] eqn:Tk; try discriminate. clear Len.
  assert (NT : NoDup [x; y]) by (rewrite <- Tk; now apply NoDup_filter).
  assert (D : x <> y) by (intros E; subst; inversion NT; subst; apply H1; simpl; auto).
  assert (Tk' : taken S' axis = [x; y] \/ taken S' axis = [y; x]).
  { assert (M : forall ax, In ax (taken S' axis) <-> In ax [x; y]).
    { intros ax. rewrite <- Tk, !taken_In. rewrite (same_shape_keys _ _ BS ax). tauto. }
    assert (N' : NoDup (taken S' axis)) by now apply NoDup_filter.
    assert (L2 : length (taken S' axis) = 2).
    { apply Nat.le_antisymm; [apply (NoDup_incl_length N' (l' := [x; y]))|apply (NoDup_incl_length NT)]; intros ax; apply M. }
    destruct (taken S' axis) as [|u [|v [|z l]]]; try discriminate.
    destruct (proj1 (M u)) as [<- |[<- |[]]]; [simpl; auto| |]; destruct (proj1 (M v)) as [<- |[<- |[]]]; auto;
      try (simpl; auto; fail); exfalso; inversion N'; subst; apply H1; simpl; auto. }
  assert (In x (dkeys S)) as Kx by (apply (taken_In S axis); rewrite Tk; simpl; auto).
  assert (In y (dkeys S)) as Ky by (apply (taken_In S axis); rewrite Tk; simpl; auto).
  apply key_size in Kx as [m Hm]. apply key_size in Ky as [n Hn].
  assert (Hm' := proj1 (BS x m) Hm). assert (Hn' := proj1 (BS y n) Hn).
  destruct (despike_ok detect a axis w bk vr None S x y "" "" m n 0 0) as (r & Er & Wr & Sr & V); auto; try discriminate.
  exists r.
  assert (Q : forall e i j, inside e S -> i < m -> j < n -> inside (set_env (set_env e x i) y j) S).
  { intros e i j I Hi Hj ax k H. unfold set_env. destruct (String.eqb_spec ax y) as [E|E1].
    - rewrite E in H. now rewrite (entry_eq S y k n NS H Hn).
    - destruct (String.eqb_spec ax x) as [E|E2]; [rewrite E in H; now rewrite (entry_eq S x k m NS H Hm)|auto]. }
  assert (PA : forall e i j, inside e S -> i < m -> j < n -> plane a x y e i j = plane a' x y e i j).
  { intros e i j I Hi Hj. apply (same_fits a a' S); auto. apply Ft. simpl. auto. }
  assert (PO : forall X (o p : option (operand X)) e, opt_operand_wf o -> opt_operand_wf p -> same_option o p ->
    (forall s, In s (opt_operand_shape o) -> fits_in s S) -> inside e S ->
    match opt_plane o x y e, opt_plane p x y e with
    | Some f, Some g => forall i j, i < m -> j < n -> f i j = g i j | None, None => True | _, _ => False end).
  { intros X [o|] [p|] e Wo Wp H F I; simpl in *; try contradiction; auto. intros i j Hi Hj. apply (same_fits o p S); auto. }
  assert (PW : forall e, inside e S -> match excluded w x y e, excluded w' x y e with
    | Some f, Some g => forall i j, i < m -> j < n -> f i j = g i j | None, None => True | _, _ => False end).
  { intros e I. assert (X := PO bool w w' e Ww Ww' Hw). destruct w, w'; simpl in *; try contradiction; auto. intros i j Hi Hj. f_equal. apply X; auto.
    intros s Hs. apply Ft. simpl. destruct Hs as [<- |[]]. auto. }
  assert (Fbk : forall s, In s (opt_operand_shape bk) -> fits_in s S) by (intros s H; apply Ft; simpl; rewrite !in_app_iff; auto).
  assert (Fvr : forall s, In s (opt_operand_shape vr) -> fits_in s S) by (intros s H; apply Ft; simpl; rewrite !in_app_iff; auto).
  destruct Tk' as [Tk'|Tk'].
  - destruct (despike_ok detect a' axis w' bk' vr' None S' x y "" "" m n 0 0) as (r' & Er' & Wr' & Sr' & V'); auto; try discriminate.
    exists r'. split; auto. split; auto. split; [now rewrite Sr, Sr'|]. intros e He. rewrite Sr in He.
    rewrite (V e He), V' by now apply (same_shape_inside S).
    rewrite (table_ext_in m n (plane a x y e) (plane a' x y e)) by auto.
    rewrite (opt_table_ext m n _ _ (PW e He)), (opt_table_ext m n _ _ (PO A bk bk' e Wbk Wbk' Hbk Fbk He)), (opt_table_ext m n _ _ (PO A vr vr' e Wvr Wvr' Hvr Fvr He)).
    reflexivity.
  - destruct (despike_ok detect a' axis w' bk' vr' None S' y x "" "" n m 0 0) as (r' & Er' & Wr' & Sr' & V'); auto; try discriminate.
    exists r'. split; auto. split; auto. split; [now rewrite Sr, Sr'|]. intros e He. rewrite Sr in He.
    rewrite (V e He), V' by now apply (same_shape_inside S).
    rewrite (table_ext_in m n (plane a x y e) (plane a' x y e)) by auto.
    rewrite (opt_table_ext m n _ _ (PW e He)), (opt_table_ext m n _ _ (PO A bk bk' e Wbk Wbk' Hbk Fbk He)), (opt_table_ext m n _ _ (PO A vr vr' e Wvr Wvr' Hvr Fvr He)).
    rewrite (Imp m n _ _ _ _ 0 0 None) by (apply He; auto). simpl option_map.
    assert (FP : forall X (o : operand X) i j, flip (plane o x y e) i j = plane o y x e i j).
    { intros X o i j. unfold flip, plane. now apply op_at_commute. }
    rewrite (table_ext n m (flip (plane a' x y e)) (plane a' y x e)) by auto.
    assert (FO : forall X (o : option (operand X)), opt_table n m (option_map flip (opt_plane o x y e)) = opt_table n m (opt_plane o y x e)).
    { intros X [o|]; simpl; auto. f_equal. apply table_ext. auto. }
    rewrite !FO.
    assert (FW : opt_table n m (option_map flip (excluded w' x y e)) = opt_table n m (excluded w' y x e)).
    { destruct w' as [o|]; simpl; auto. f_equal. apply table_ext. intros i j. rewrite <- FP. reflexivity. }
    rewrite FW. reflexivity.
Qed.

(** ** A simple detector *)

(** the pixel in a row and column *)
Definition pixel (im : image Z) (i j : nat) : Z :=
  match im with (m, n, l) => if (i <? m) && (j <? n) then nth (i * n + j) l 0%Z else 0%Z end.

Lemma nth_rows (f : nat -> nat -> Z) n l : forall i j, i < length l -> j < n ->
  nth (i * n + j) (flat_map (fun i => map (f i) (seq 0 n)) l) 0%Z = f (nth i l 0) j.
Proof.
  induction l as [|x l IH]; intros i j Hi Hj; simpl in *; [lia|]. destruct i as [|i].
  - simpl. rewrite app_nth1 by (rewrite map_length, seq_length; lia).
    rewrite (nth_indep _ 0%Z (f x 0)) by (rewrite map_length, seq_length; lia). rewrite map_nth, seq_nth; auto.
  - rewrite app_nth2; rewrite map_length, seq_length; [|simpl; lia]. simpl. rewrite <- (IH i j) by lia. f_equal. lia.
Qed.

Lemma pixel_table m n f i j : pixel (table m n f) i j = if (i <? m) && (j <? n) then f i j else 0%Z.
Proof.
  unfold pixel, table. destruct (Nat.ltb_spec i m); simpl; auto. destruct (Nat.ltb_spec j n); simpl; auto.
  rewrite nth_rows; [|now rewrite seq_length|auto]. now rewrite seq_nth.
Qed.

(** every pixel is multiplied by the element of the kernel at the same place *)
Definition scaled : detector Z Z := fun im _ _ _ k i j =>
  match k with Some k => (pixel im i j * pixel k i j)%Z | None => pixel im i j end.

Lemma scaled_impartial : impartial scaled.
Proof.
  intros m n f g b v p q k i j Hi Hj. unfold scaled. destruct k as [k|]; cbn [opt_table option_map]; rewrite !pixel_table; unfold flip;
    rewrite (andb_comm (i <? m)); auto. now rewrite (andb_comm (i <? p)).
Qed.
