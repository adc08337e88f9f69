(** Proofs about Fourier transforms. *)
From Coq Require Import String List Arith ZArith Bool Lia.
From Verif Require Import Base BaseFacts Numpy NumpyFacts Shapes ShapesFacts Scalar Along Fourier
  Spec SpecFourier AlignFacts AlongFacts RegridFacts.
Import ListNotations.
Open Scope nat_scope.
Open Scope list_scope.

Lemma fit_padded {A} (zero : A) n l : fit zero n l = padded zero n l.
Proof.
  unfold fit, padded. apply list_eq_nth with (d := zero).
  - rewrite app_length, firstn_length, repeat_length, map_length, seq_length. lia.
  - intros i Hi. rewrite app_length, firstn_length, repeat_length in Hi.
    rewrite (nth_indep (map _ _) zero (nth 0 l zero)) by (rewrite map_length, seq_length; lia).
    rewrite (map_nth (fun i => nth i l zero)), seq_nth by lia. simpl.
    destruct (Nat.lt_ge_cases i (length (firstn n l))) as [L|L].
    + rewrite app_nth1 by auto. rewrite firstn_length in L. rewrite <- (firstn_skipn n l) at 2.
      rewrite app_nth1; auto. rewrite firstn_length. lia.
    + rewrite app_nth2 by auto. rewrite nth_repeat. rewrite firstn_length in L. rewrite nth_overflow; auto. lia.
Qed.

Lemma nodup_map_inj {X Y} (f : X -> Y) (l : list X) x y : NoDup (map f l) -> In x l -> In y l -> f x = f y -> x = y.
Proof.
  induction l as [|z l IH]; simpl; intros N Hx Hy E; [destruct Hx|]. inversion N; subst.
  destruct Hx as [-> |Hx], Hy as [-> |Hy]; auto; exfalso; apply H1.
  - rewrite E. now apply in_map.
  - rewrite <- E. now apply in_map.
Qed.

Section Fourier.
Context {A : Type} (zero : A).

(** one transform, with the old name of the axis *)
Lemma np_fft_named (t : transform A) (a : sarr A) x m n : wf a -> In (x, m) (sshape a) -> n <> 0 ->
  exists r, np_fft zero t (s_nd a) (Some n) (spos x (s_axes a)) = Ok r /\ wf (mkS r (s_axes a)) /\
    sshape (mkS r (s_axes a)) = resized (sshape a) x (t_out t n) /\
    forall e, at_ (mkS r (s_axes a)) e = spectrum zero t n x m (at_ a) e.
Proof.
  intros W H N. unfold np_fft. destruct (Nat.ltb_spec n 1); [lia|].
  eexists. split; [reflexivity|].
  assert (K : In x (s_axes a)) by (rewrite <- wf_keys by auto; now apply (in_map fst) in H).
  destruct (along_named (fun _ => t_out t n) (fun l => t_value t n (fit zero (t_in t n) l)) a x W K) as (W' & S & V).
  split; auto. split; auto. intros e. rewrite V. unfold spectrum. rewrite fit_padded. unfold line.
  rewrite (size_of_key _ _ _ (wf_nodup a W) H). reflexivity.
Qed.

Lemma rename_nd (r : nd A) (axes : list string) (f : string -> string) : NoDup (map f axes) -> length axes = length (nshape r) ->
  mk_sarr r (map f axes) = Ok (mkS r (map f axes)) /\ wf (mkS r (map f axes)) /\
  sshape (mkS r (map f axes)) = map (fun kv => (f (fst kv), snd kv)) (sshape (mkS r axes)) /\
  forall e, at_ (mkS r (map f axes)) e = at_ (mkS r axes) (fun ax => e (f ax)).
Proof.
  intros N L. split; [apply mk_sarr_intro; auto; now rewrite map_length|].
  split; [split; simpl; auto; now rewrite map_length|]. split.
  - unfold sshape. simpl. clear N. revert L. generalize (nshape r). induction axes as [|x axes IH]; intros [|n l] L; simpl in *; auto; try discriminate.
    f_equal. apply IH. lia.
  - intros e. unfold at_. simpl. now rewrite map_map.
Qed.

Theorem fft_ok (t : transform A) (a : sarr A) x y m (n : option nat) : wf a -> In (x, m) (sshape a) ->
  let k := match n with Some n => n | None => t_default t m end in
  k <> 0 -> (y = x \/ ~ In y (s_axes a)) ->
  exists r, na_fft zero t a (x, y) n = Ok r /\ wf r /\
    sshape r = map (fun kv => if String.eqb (fst kv) x then (y, t_out t k) else kv) (sshape a) /\
    forall e, at_ r e = t_value t k (padded zero (t_in t k) (line a x e)) (e y).
Proof.
  intros W H k K Y. unfold na_fft. cbn [fst snd].
  assert (Hx : In x (s_axes a)) by (rewrite <- wf_keys by auto; now apply (in_map fst) in H).
  unfold index_of. rewrite (sindex_In _ _ Hx). cbn [bind].
  assert (E : np_fft zero t (s_nd a) n (spos x (s_axes a)) = np_fft zero t (s_nd a) (Some k) (spos x (s_axes a))).
  { unfold np_fft, k. destruct n; auto. rewrite nth_shape by auto. now rewrite (size_of_key _ _ _ (wf_nodup a W) H). }
  rewrite E. destruct (np_fft_named t a x m k W H K) as (r & -> & Wr & Sr & V). cbn [bind].
  set (f := fun ax => if String.eqb ax x then y else ax).
  assert (ND : NoDup (map f (s_axes a))).
  { assert (Na : NoDup (s_axes a)) by apply W. unfold f.
    clear - Na Y. destruct Y as [-> |Y].
    - rewrite (map_ext _ (fun ax => ax)); [now rewrite map_id|]. intros ax. destruct (String.eqb_spec ax x); auto.
    - induction (s_axes a) as [|z l IH]; simpl; [constructor|]. inversion Na; subst. simpl in Y. constructor; [|apply IH; auto].
      rewrite in_map_iff. intros (w & E & Hw). destruct (String.eqb_spec w x), (String.eqb_spec z x); subst; auto; tauto. }
  destruct (rename_nd r (s_axes a) f ND) as (-> & W2 & S2 & V2); [apply Wr|].
  eexists. split; [reflexivity|]. split; auto. split.
  - rewrite S2, Sr. unfold resized. rewrite map_map. apply map_ext. intros [z q]. simpl. unfold f. destruct (String.eqb z x); auto.
  - intros e. rewrite V2, V. unfold spectrum. f_equal.
    + f_equal. unfold line. rewrite (size_of_key _ _ _ (wf_nodup a W) H). apply map_ext. intros i. apply at_ext.
      intros ax Hax. unfold set_env, f. destruct (String.eqb_spec ax x); auto.
    + unfold f. now rewrite String.eqb_refl.
Qed.

Theorem fft_refused (t : transform A) (a : sarr A) x y (n : option nat) : wf a ->
  ~ In x (s_axes a) \/
  (exists m, In (x, m) (sshape a) /\ match n with Some n => n | None => t_default t m end = 0) \/
  (y <> x /\ In y (s_axes a)) ->
  na_fft zero t a (x, y) n = Err ValueError.
Proof.
  intros W D. unfold na_fft. cbn [fst snd]. unfold index_of.
  destruct (in_dec string_dec x (s_axes a)) as [Hx|Hx].
  - rewrite (sindex_In _ _ Hx). cbn [bind]. destruct D as [D|[(m & H & D)|[D1 D2]]]; [contradiction| |].
    + unfold np_fft.
      assert (E : match n with Some n => n | None => t_default t (nth (spos x (s_axes a)) (nshape (s_nd a)) 0) end = 0).
      { destruct n; auto. rewrite nth_shape by auto. now rewrite (size_of_key _ _ _ (wf_nodup a W) H). }
      rewrite E. reflexivity.
    + unfold np_fft. destruct (_ <? 1); auto. cbn [bind]. unfold mk_sarr.
      destruct (negb (_ =? _)); auto.
      set (f := fun ax => if String.eqb ax x then y else ax).
      destruct (nodupb (map f (s_axes a))) eqn:E; auto. exfalso. apply nodupb_NoDup in E.
      apply D1. apply (nodup_map_inj f _ y x E); auto. unfold f. rewrite String.eqb_refl.
      destruct (String.eqb_spec y x); congruence.
  - apply sindex_None in Hx. now rewrite Hx.
Qed.

(** *** Several axes *)

Lemma spectra_ext (l : list (stage A)) : forall sh (v w : env -> A), (forall e, v e = w e) -> forall e, spectra zero l sh v e = spectra zero l sh w e.
Proof.
  induction l as [|[t [x n]] l IH]; intros sh v w H e; simpl; auto. apply IH. intros e'. unfold spectrum. do 2 f_equal.
  apply map_ext. auto.
Qed.

Lemma dkeys_spectra (l : list (stage A)) : forall sh, dkeys (spectra_shape l sh) = dkeys sh.
Proof. induction l as [|[t [x n]] l IH]; intros sh; simpl; auto. rewrite IH. apply dkeys_resized. Qed.

Lemma plan_ok (w : ntransform A) (l : list (string * nat)) st (g : string * nat -> nat * nat) : stages w l st ->
  np_plan w (map g l) = Ok (map (fun s => (fst s, g (snd s))) st).
Proof.
  intros H. destruct H; unfold np_plan.
  - rewrite <- map_rev, !map_map. reflexivity.
  - rewrite map_app, rev_app_distr. simpl. rewrite <- map_rev, !map_map. reflexivity.
  - rewrite map_app, rev_app_distr. simpl. rewrite rev_involutive, map_app, !map_map. reflexivity.
Qed.

Lemma fold_steps (st : list (stage A)) : forall a : sarr A, wf a ->
  (forall t x n, In (t, (x, n)) st -> In x (s_axes a) /\ n <> 0) ->
  exists r, foldM (fun b s => np_fft zero (fst s) b (Some (snd (snd s))) (fst (snd s)))
      (map (fun s => (fst s, (spos (fst (snd s)) (s_axes a), snd (snd s)))) st) (s_nd a) = Ok r /\
    wf (mkS r (s_axes a)) /\ sshape (mkS r (s_axes a)) = spectra_shape st (sshape a) /\
    forall e, at_ (mkS r (s_axes a)) e = spectra zero st (sshape a) (at_ a) e.
Proof.
  induction st as [|[t [x n]] st IH]; intros a W H.
  - exists (s_nd a). split; [reflexivity|]. replace (mkS (s_nd a) (s_axes a)) with a by (destruct a; reflexivity). auto.
  - destruct (H t x n (or_introl eq_refl)) as [Hx Hn].
    assert (Hs : In (x, size_of (sshape a) x) (sshape a)).
    { rewrite <- wf_keys in Hx by auto. apply RankdataFacts.key_size in Hx as [m Hm].
      now rewrite (size_of_key _ _ _ (wf_nodup a W) Hm). }
    destruct (np_fft_named t a x _ n W Hs Hn) as (r & E & Wr & Sr & V).
    destruct (IH (mkS r (s_axes a)) Wr) as (r' & E' & Wr' & Sr' & V').
    { intros t' x' n' Hi. apply (H t' x' n'). simpl. auto. }
    exists r'. simpl in *. rewrite E. cbn [bind]. split; [exact E'|]. split; auto. rewrite Sr in Sr', V'. split; auto.
    intros e. rewrite V'. apply spectra_ext. exact V.
Qed.

Theorem fftn_ok (w : ntransform A) (a : sarr A) (axes : dict string) (s : option (dict nat)) (k : string -> nat) st :
  wf a -> NoDup (dkeys axes) -> incl (dkeys axes) (s_axes a) -> NoDup (map (renamed axes) (s_axes a)) ->
  (forall ax, In ax (dkeys axes) -> k ax <> 0 /\
     match s with Some s => dget s ax = Some (k ax) | None => In (ax, k ax) (sshape a) end) ->
  (forall d ax, s = Some d -> In ax (dkeys d) -> In ax (dkeys axes)) ->
  stages w (map (fun ax => (ax, k ax)) (dkeys axes)) st ->
  exists r, na_fftn zero w a axes s = Ok r /\ wf r /\
    sshape r = map (fun kv => (renamed axes (fst kv), snd kv)) (spectra_shape st (sshape a)) /\
    forall e, at_ r e = spectra zero st (sshape a) (at_ a) (fun ax => e (renamed axes ax)).
Proof.
  intros W Na I NR K Ks St. unfold na_fftn.
  assert (E1 : forallb (fun ax => smem ax (dkeys (sshape a))) (dkeys axes) = true).
  { apply forallb_forall. intros ax H. apply smem_In. rewrite wf_keys by auto. auto. }
  rewrite E1. cbn [negb].
  set (s' := match s with Some s => s | None => map (fun ax => (ax, k ax)) (dkeys axes) end).
  assert (E2 : match s with
         | Some s => Ok s
         | None => mapM (fun ax => match dget (sshape a) ax with Some n => Ok (ax, n) | None => Err KeyError end) (dkeys axes)
         end = Ok s').
  { unfold s'. destruct s; auto. apply mapM_map. intros ax H. destruct (K ax H) as [_ D].
    now rewrite (dget_NoDup (sshape a) ax (k ax) (wf_nodup a W) D). }
  rewrite E2. cbn [bind].
  assert (DK : forall ax, In ax (dkeys axes) -> dget s' ax = Some (k ax)).
  { intros ax H. unfold s'. destruct s as [d|]; [now apply K|]. clear - H. induction (dkeys axes) as [|x l IH]; [destruct H|].
    simpl. destruct (String.eqb_spec ax x) as [-> |D]; auto. apply IH. destruct H; congruence. }
  assert (E3 : forallb (fun ax => smem ax (dkeys s')) (dkeys axes) = true).
  { apply forallb_forall. intros ax H. apply smem_In. apply dget_Some_key. eauto. }
  assert (E4 : forallb (fun ax => smem ax (dkeys axes)) (dkeys s') = true).
  { apply forallb_forall. intros ax H. apply smem_In. unfold s' in H. destruct s as [d|]; [now apply (Ks d ax)|].
    unfold dkeys in H. rewrite map_map in H. simpl in H. now rewrite map_id in H. }
  rewrite E3, E4. cbn [andb negb].
  rewrite (mapM_map _ k) by (intros ax H; now rewrite DK). cbn [bind].
  rewrite mapM_index_of by auto. cbn [bind].
  unfold np_fftn.
  assert (EC : combine (map (fun ax => spos ax (s_axes a)) (dkeys axes)) (map k (dkeys axes))
             = map (fun p : string * nat => (spos (fst p) (s_axes a), snd p)) (map (fun ax => (ax, k ax)) (dkeys axes))).
  { rewrite map_map. simpl. clear. induction (dkeys axes); simpl; congruence. }
  rewrite EC, (plan_ok w _ st _ St). cbn [bind].
  destruct (fold_steps st a W) as (r & E & Wr & Sr & V).
  { intros t x n H. assert (H' : In (x, n) (map (fun ax => (ax, k ax)) (dkeys axes))).
    { clear - St H. destruct St.
      - apply in_map_iff in H as (y & E & H). apply in_rev in H. congruence.
      - destruct H as [E|H]; [injection E as <- <-; apply in_or_app; simpl; auto|].
        apply in_map_iff in H as (y & E & H). apply in_rev in H. apply in_or_app. left. congruence.
      - apply in_or_app. apply in_app_or in H as [H|[E|[]]]; [left|right; injection E as <- <-; simpl; auto].
        apply in_map_iff in H as (y & E & H). congruence. }
    apply in_map_iff in H' as (ax & E & H'). injection E as <- <-. split; auto. now apply K. }
  rewrite E. cbn [bind].
  destruct (rename_nd r (s_axes a) (renamed axes) NR) as (E5 & W2 & S2 & V2); [apply Wr|].
  unfold renamed in E5 at 1. rewrite E5. eexists. split; [reflexivity|]. split; auto. split; [now rewrite S2, Sr|].
  intros e. now rewrite V2, V.
Qed.

Theorem fftn_refused (w : ntransform A) (a : sarr A) (axes : dict string) (s : option (dict nat)) : wf a ->
  ~ incl (dkeys axes) (s_axes a) \/ (exists d, s = Some d /\ exists ax, ~ (In ax (dkeys d) <-> In ax (dkeys axes))) ->
  na_fftn zero w a axes s = Err ValueError.
Proof.
  intros W D. unfold na_fftn. destruct (forallb (fun ax => smem ax (dkeys (sshape a))) (dkeys axes)) eqn:E1; cbn [negb]; auto.
  destruct D as [D|(d & -> & ax & D)].
  - exfalso. apply D. intros ax H. rewrite forallb_forall in E1. rewrite <- wf_keys by auto. now apply smem_In, E1.
  - cbn [bind]. destruct (forallb (fun ax => smem ax (dkeys d)) (dkeys axes)) eqn:E2; cbn [andb negb]; auto.
    destruct (forallb (fun ax => smem ax (dkeys axes)) (dkeys d)) eqn:E3; cbn [negb]; auto.
    exfalso. apply D. rewrite forallb_forall in E2, E3. split; intros H; apply smem_In; auto.
Qed.

(** *** Storage order *)

Lemma size_of_same s t ax : NoDup (dkeys s) -> NoDup (dkeys t) -> same_shape s t -> size_of s ax = size_of t ax.
Proof. intros N N' H. unfold size_of. now rewrite (same_shape_dget s t ax N N' H). Qed.

Lemma resized_sames s t x n : same_shape s t -> same_shape (resized s x n) (resized t x n).
Proof.
  intros H ax m. unfold resized. rewrite !in_map_iff. split; intros ([z q] & E & I); exists (z, q); split; auto; now apply H.
Qed.

Lemma spectra_same (l : list (stage A)) : forall s t v w, NoDup (dkeys s) -> NoDup (dkeys t) -> same_shape s t ->
  (forall e, inside e s -> v e = w e) ->
  (forall tr x n, In (tr, (x, n)) l -> In x (dkeys s)) ->
  same_shape (spectra_shape l s) (spectra_shape l t) /\
  forall e, inside e (spectra_shape l s) -> spectra zero l s v e = spectra zero l t w e.
Proof.
  induction l as [|[tr [x n]] l IH]; intros s t v w N N' H V K; simpl.
  - auto.
  - apply IH; auto.
    + now rewrite dkeys_resized.
    + now rewrite dkeys_resized.
    + now apply resized_sames.
    + intros e He. unfold spectrum. rewrite <- (size_of_same s t x) by auto. do 2 f_equal. apply map_ext_in. intros i Hi. apply in_seq in Hi.
      apply V. intros ax m Hm. unfold set_env. destruct (String.eqb_spec ax x) as [-> |D].
      * rewrite <- (size_of_key s x m) by auto. lia.
      * apply He. unfold resized. apply in_map_iff. exists (ax, m). split; auto. simpl. destruct (String.eqb_spec ax x); congruence.
    + intros tr' x' n' Hi. rewrite dkeys_resized. apply (K tr' x' n'). simpl. auto.
Qed.

Theorem fftn_order (w : ntransform A) (a a' : sarr A) (axes : dict string) (s : option (dict nat)) (k : string -> nat) st :
  wf a -> wf a' -> same_array a a' ->
  NoDup (dkeys axes) -> incl (dkeys axes) (s_axes a) -> NoDup (map (renamed axes) (s_axes a)) ->
  (forall ax, In ax (dkeys axes) -> k ax <> 0 /\
     match s with Some s => dget s ax = Some (k ax) | None => In (ax, k ax) (sshape a) end) ->
  (forall d ax, s = Some d -> In ax (dkeys d) -> In ax (dkeys axes)) ->
  stages w (map (fun ax => (ax, k ax)) (dkeys axes)) st ->
  exists r r', na_fftn zero w a axes s = Ok r /\ na_fftn zero w a' axes s = Ok r' /\ same_array r r'.
Proof.
  intros W W' [SS SV] Na I NR K Ks St.
  assert (P : Permutation.Permutation (s_axes a) (s_axes a')).
  { apply Permutation.NoDup_Permutation; [apply W|apply W'|]. intros ax. rewrite <- !wf_keys by auto. now apply same_shape_keys. }
  destruct (fftn_ok w a axes s k st) as (r & Er & Wr & Sr & V); auto.
  destruct (fftn_ok w a' axes s k st) as (r' & Er' & Wr' & Sr' & V'); auto.
  { intros ax H. apply (Permutation.Permutation_in _ P), I, H. }
  { eapply Permutation.Permutation_NoDup; [apply Permutation.Permutation_map, P|auto]. }
  { intros ax H. destruct (K ax H) as [K1 K2]. split; auto. destruct s; auto. now apply SS. }
  exists r, r'. split; auto. split; auto.
  destruct (spectra_same st (sshape a) (sshape a') (at_ a) (at_ a')) as [S2 V2]; auto using wf_nodup.
  { intros t x n H. rewrite wf_keys by auto. apply I.
    assert (H' : In (x, n) (map (fun ax => (ax, k ax)) (dkeys axes))).
    { clear - St H. destruct St.
      - apply in_map_iff in H as (y & E & H). apply in_rev in H. congruence.
      - destruct H as [E|H]; [injection E as <- <-; apply in_or_app; simpl; auto|].
        apply in_map_iff in H as (y & E & H). apply in_rev in H. apply in_or_app. left. congruence.
      - apply in_or_app. apply in_app_or in H as [H|[E|[]]]; [left|right; injection E as <- <-; simpl; auto].
        apply in_map_iff in H as (y & E & H). congruence. }
    apply in_map_iff in H' as (ax & E & H'). congruence. }
  split.
  - intros ax m. rewrite Sr, Sr', !in_map_iff. split; intros ([z q] & E & H); exists (z, q); split; auto; now apply S2.
  - intros e He. rewrite V, V'. apply V2. intros ax m Hm. apply He. rewrite Sr. apply in_map_iff. now exists (ax, m).
Qed.
End Fourier.
