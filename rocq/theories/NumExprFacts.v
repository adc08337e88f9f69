(** Proofs about the evaluation of expressions. *)
From Coq Require Import String List Arith ZArith Bool Lia Permutation.
From Verif Require Import Base BaseFacts Numpy NumpyFacts Shapes ShapesFacts Scalar Elementwise NumExpr
  Spec SpecNumeric SpecInterp SpecNumExpr AlignFacts ElementwiseFacts ReorderFacts SortingFacts AlongFacts HistFacts RegridFacts
  InterpAxisFacts DespikeFacts PolygonFacts.
Import ListNotations.
Open Scope nat_scope.
Open Scope list_scope.

Lemma insert_name_perm v l : Permutation (v :: l) (insert_name v l).
Proof.
  induction l as [|w l IH]; simpl; auto. destruct (string_leb v w); auto.
  etransitivity; [apply perm_swap|]. now constructor.
Qed.

Lemma names_perm {A} (ex : expr A) : Permutation (nodup string_dec (variables ex)) (names ex).
Proof.
  unfold names. induction (nodup string_dec (variables ex)) as [|v l IH]; simpl; auto.
  etransitivity; [|apply insert_name_perm]. now constructor.
Qed.

Lemma names_In {A} (ex : expr A) v : In v (names ex) <-> In v (variables ex).
Proof.
  rewrite <- (nodup_In string_dec (variables ex)). split; apply Permutation_in; [symmetry|]; apply names_perm.
Qed.

Lemma names_nodup {A} (ex : expr A) : NoDup (names ex).
Proof. eapply Permutation_NoDup; [apply names_perm|]. apply NoDup_nodup. Qed.

Lemma occurs_In {A} (ex : expr A) v : occurs v ex <-> In v (variables ex).
Proof.
  induction ex; simpl; rewrite ?in_app_iff.
  - split; [intros H; inversion H; auto|intros [-> |[]]; constructor].
  - split; [intros H; inversion H|tauto].
  - rewrite <- IHex. split; [intros H; inversion H; auto|intros; now constructor].
  - rewrite <- IHex1, <- IHex2. split; [intros H; inversion H; auto|intros [H|H]; [now apply occurs_bin1|now apply occurs_bin2]].
  - rewrite <- IHex1, <- IHex2, <- IHex3. split; [intros H; inversion H; auto|].
    intros [H|[H|H]]; [now apply occurs_tri1|now apply occurs_tri2|now apply occurs_tri3].
Qed.

Lemma expr_value_ok {A} (f : string -> res A) (rho : string -> A) (ex : expr A) :
  (forall v, In v (variables ex) -> f v = Ok (rho v)) -> expr_value f ex = Ok (meaning rho ex).
Proof.
  induction ex; simpl; intros H; auto.
  - rewrite IHex by auto. reflexivity.
  - rewrite IHex1, IHex2 by (intros; apply H, in_or_app; auto). reflexivity.
  - rewrite IHex1, IHex2, IHex3 by (intros; apply H; rewrite !in_app_iff; auto). reflexivity.
Qed.

Lemma bshape2_same s : bshape2 s s = Some s.
Proof.
  rewrite bshape2_zip by auto. induction s as [|n s IH]; simpl; auto. rewrite IH.
  unfold bsize. rewrite Nat.eqb_refl. destruct (n =? 1); auto.
Qed.

Lemma bshapes_all l s : l <> [] -> (forall x, In x l -> x = s) -> bshapes l = Some s.
Proof.
  induction l as [|x l IH]; [congruence|]. intros _ H. simpl. rewrite (H x) by (simpl; auto). destruct l as [|y l].
  - simpl. apply bshape2_nil_r.
  - rewrite IH; [apply bshape2_same|discriminate|]. intros z Hz. apply H. simpl. auto.
Qed.

Section Evaluate.
Context {A : Type} (junk : A).

Lemma get_arguments_ok (ns : list string) local global (rho : string -> operand A) :
  (forall v, In v ns -> scope local global v = Some (rho v)) -> get_arguments ns local global = Ok (map rho ns).
Proof.
  intros H. unfold get_arguments. induction ns as [|v ns IH]; simpl; auto.
  assert (E := H v (or_introl eq_refl)). unfold scope in E.
  assert (E' : match dget local v with Some a => Ok a | None => match dget global v with Some a => Ok a | None => Err KeyError end end = Ok (rho v)).
  { destruct (dget local v); [congruence|]. now rewrite E. }
  rewrite E'. cbn [bind]. rewrite IH; auto. intros w Hw. apply H. simpl. auto.
Qed.

Lemma spread_all (l : list (sarr A)) S : Forall wf l -> NoDup (dkeys S) -> Forall (fun a => fits_in (sshape a) S) l ->
  exists bs, mapM (fun a => na_broadcast_to a S false) l = Ok bs /\
    Forall2 (fun a b => wf b /\ sshape b = S /\ forall e, at_ b e = bat a e) l bs.
Proof.
  intros W N. induction W as [|a l Wa W IH]; intros F; simpl.
  - exists []. auto.
  - inversion F; subst. destruct (fits_spread_any a S Wa N H1) as (b & -> & Wb). cbn [bind].
    destruct (IH H2) as (bs & -> & Hbs). cbn [bind]. exists (b :: bs). split; auto.
Qed.

Lemma dget_combine (ns : list string) (l : list (sarr A)) (bs : list (sarr A)) (P : sarr A -> sarr A -> Prop) (rho : string -> sarr A) v :
  l = map rho ns -> Forall2 P l bs -> In v ns -> exists b, dget (combine ns (map s_nd bs)) v = Some (s_nd b) /\ P (rho v) b.
Proof.
  intros -> . revert bs. induction ns as [|w ns IH]; intros bs F H; [destruct H|].
  simpl in F. inversion F; subst. simpl. destruct (String.eqb_spec v w) as [-> |D]; [eauto|].
  destruct H as [E|H]; [congruence|]. now apply IH.
Qed.

Theorem evaluate_ok (ex : expr A) (local global : dict (operand A)) (rho : string -> operand A) (l : list string) (S : shape) :
  NoDup l -> l <> [] -> (forall v, In v l <-> occurs v ex) ->
  (forall v, In v l -> scope local global v = Some (rho v) /\ op_wf (rho v) /\ ~ In v reserved) ->
  broadcast_shapes (map (fun v => op_shape (rho v)) l) = Ok S ->
  exists r, na_evaluate junk ex local global = Ok r /\ wf r /\ same_shape (sshape r) S /\
    forall e, inside e S -> at_ r e = meaning (fun v => op_at (rho v) e) ex.
Proof.
  intros Nl Hl L H E. unfold na_evaluate.
  assert (L' : forall v, In v (names ex) <-> In v l).
  { intros v. rewrite L, occurs_In. apply names_In. }
  assert (P : Permutation l (names ex)).
  { apply NoDup_Permutation; auto using names_nodup. intros v. symmetry. apply L'. }
  rewrite (get_arguments_ok _ _ _ rho) by (intros v Hv; apply H, L', Hv). cbn [bind].
  assert (R : existsb (fun n => smem n reserved) (names ex) = false).
  { destruct (existsb _ _) eqn:X; auto. apply existsb_exists in X as (v & Hv & X). apply smem_In in X.
    exfalso. apply L' in Hv. now apply (H v Hv). }
  rewrite R. destruct (names ex) as [|v0 ns0] eqn:Ns.
  { exfalso. apply Permutation_sym, Permutation_nil in P. auto. }
  assert (N0 : names ex <> []) by (rewrite Ns; discriminate).
  rewrite <- Ns in *. clear Ns v0 ns0. set (ns := names ex) in *.
  unfold na_evaluate_arrays.
  assert (K1 : dkeys (combine ns (map rho ns)) = ns) by (apply dkeys_combine; now rewrite map_length).
  assert (K2 : dvals (combine ns (map rho ns)) = map rho ns) by (apply dvals_combine; now rewrite map_length).
  rewrite K1, K2. rewrite !map_map.
  rewrite (map_ext (fun x => sshape (normalize (rho x))) (fun v => op_shape (rho v))) by (intros; apply normalize_shape).
  assert (F : Forall (fun s : shape => NoDup (dkeys s)) (map (fun v => op_shape (rho v)) l)).
  { apply Forall_map, Forall_forall. intros v Hv. rewrite <- normalize_shape. apply wf_nodup, normalize_wf. now apply H. }
  assert (BS := broadcast_shapes_perm _ _ F (Permutation_map (fun v => op_shape (rho v)) P)). rewrite E in BS.
  destruct (broadcast_shapes (map (fun v => op_shape (rho v)) ns)) as [S'|] eqn:E'; [|contradiction]. cbn [bind]. simpl in BS.
  assert (F' : Forall (fun s : shape => NoDup (dkeys s)) (map (fun v => op_shape (rho v)) ns)).
  { apply Forall_map, Forall_forall. intros v Hv. rewrite <- normalize_shape. apply wf_nodup, normalize_wf. now apply H, L'. }
  destruct (broadcast_shapes_ok _ _ F' E') as (NS & _ & _). assert (Ft := broadcast_fits _ _ F' E').
  destruct (spread_all (map (fun v => normalize (rho v)) ns) S') as (bs & EB & HB); auto.
  { apply Forall_map, Forall_forall. intros v Hv. apply normalize_wf. now apply H, L'. }
  { apply Forall_map, Forall_forall. intros v Hv. rewrite normalize_shape. apply Ft. now apply in_map with (f := fun v => op_shape (rho v)). }
  rewrite EB. cbn [bind].
  assert (LB : length bs = length ns) by (apply Forall2_length in HB; rewrite map_length in HB; auto).
  unfold np_evaluate. rewrite (dvals_combine ns) by now rewrite map_length.
  rewrite (bshapes_all _ (dvals S')).
  - cbn [bind]. rewrite mk_sarr_intro; auto; [|simpl; unfold dkeys, dvals; now rewrite !map_length].
    eexists. split; [reflexivity|].
    match goal with |- wf ?R /\ _ => set (r := R) end.
    assert (SR : sshape r = S') by apply combine_dkeys_dvals.
    split; [split; simpl; auto; unfold dkeys, dvals; now rewrite !map_length|].
    split; [rewrite SR; now apply same_shape_sym|]. intros e He.
    unfold at_. unfold r. cbn [s_nd s_axes nget].
    rewrite (expr_value_ok _ (fun v => op_at (rho v) e)); auto.
    intros v Hv. apply names_In in Hv.
    destruct (dget_combine ns _ bs _ (fun v => normalize (rho v)) v eq_refl HB Hv) as (b & -> & Wb & Sb & Vb).
    f_equal. rewrite <- normalize_at, <- Vb.
    assert (I : inside e (sshape b)) by (rewrite Sb; eapply AlignFacts.same_shape_inside; eauto).
    rewrite <- (bat_inside b e Wb I). apply bget_aligned; auto. unfold ndarray_aligned.
    rewrite <- Sb, wf_keys by auto. destruct (axes_eqb (s_axes b) (s_axes b)) eqn:X; auto.
    exfalso. assert (axes_eqb (s_axes b) (s_axes b) = true) by now apply axes_eqb_true. congruence.
  - intros C. apply map_eq_nil in C. apply map_eq_nil in C. subst bs. simpl in LB. destruct ns; auto; discriminate.
  - intros x Hx. apply in_map_iff in Hx as (n & <- & Hx). apply in_map_iff in Hx as (b & <- & Hx).
    clear - HB Hx. induction HB; [destruct Hx|]. destruct Hx as [<- |Hx]; auto. destruct H as (W & <- & _). now rewrite wf_vals.
Qed.

Theorem evaluate_missing (ex : expr A) (local global : dict (operand A)) v :
  occurs v ex -> scope local global v = None -> na_evaluate junk ex local global = Err KeyError.
Proof.
  intros H E. apply occurs_In, names_In in H. unfold na_evaluate. unfold get_arguments, scope in *.
  assert (X : forall ns, In v ns -> mapM (fun v => match dget local v with
                 | Some a => Ok a
                 | None => match dget global v with Some a => Ok a | None => Err KeyError end
                 end) ns = Err KeyError).
  { induction ns as [|w ns IH]; [intros []|]. intros [-> |Hv]; simpl.
    - destruct (dget local v); [discriminate|]. now rewrite E.
    - rewrite IH by auto. destruct (dget local w); auto. destruct (dget global w); auto. }
  now rewrite X.
Qed.

Theorem evaluate_reserved (ex : expr A) (local global : dict (operand A)) (rho : string -> operand A) v :
  (forall v, occurs v ex -> scope local global v = Some (rho v)) -> occurs v ex -> In v reserved ->
  na_evaluate junk ex local global = Err TypeError.
Proof.
  intros H Hv R. unfold na_evaluate. rewrite (get_arguments_ok _ _ _ rho) by (intros w Hw; apply H, occurs_In, names_In, Hw). cbn [bind].
  replace (existsb (fun n => smem n reserved) (names ex)) with true; auto. symmetry. apply existsb_exists. exists v.
  split; [now apply names_In, occurs_In|now apply smem_In].
Qed.

Theorem evaluate_constant (ex : expr A) (local global : dict (operand A)) :
  (forall v, ~ occurs v ex) -> na_evaluate junk ex local global = Err TypeError.
Proof.
  intros H. unfold na_evaluate. destruct (names ex) as [|v ns] eqn:E; [reflexivity|].
  exfalso. apply (H v), occurs_In, names_In. rewrite E. simpl. auto.
Qed.

Theorem evaluate_conflict (ex : expr A) (local global : dict (operand A)) (rho : string -> operand A) (l : list string) :
  NoDup l -> (forall v, In v l <-> occurs v ex) ->
  (forall v, In v l -> scope local global v = Some (rho v) /\ op_wf (rho v) /\ ~ In v reserved) ->
  conflict (map (fun v => op_shape (rho v)) l) -> na_evaluate junk ex local global = Err ValueError.
Proof.
  intros Nl L H C. unfold na_evaluate.
  assert (L' : forall v, In v (names ex) <-> In v l).
  { intros v. rewrite L, occurs_In. apply names_In. }
  assert (P : Permutation l (names ex)).
  { apply NoDup_Permutation; auto using names_nodup. intros v. symmetry. apply L'. }
  rewrite (get_arguments_ok _ _ _ rho) by (intros v Hv; apply H, L', Hv). cbn [bind].
  assert (R : existsb (fun n => smem n reserved) (names ex) = false).
  { destruct (existsb _ _) eqn:X; auto. apply existsb_exists in X as (v & Hv & X). apply smem_In in X.
    exfalso. apply L' in Hv. now apply (H v Hv). }
  rewrite R. destruct (names ex) as [|v0 ns0] eqn:Ns.
  { exfalso. apply Permutation_sym, Permutation_nil in P. subst l. simpl in C. destruct C as (? & ? & ? & C). simpl in C. tauto. }
  rewrite <- Ns in *. clear Ns v0 ns0. set (ns := names ex) in *.
  unfold na_evaluate_arrays.
  assert (K1 : dkeys (combine ns (map rho ns)) = ns) by (apply dkeys_combine; now rewrite map_length).
  assert (K2 : dvals (combine ns (map rho ns)) = map rho ns) by (apply dvals_combine; now rewrite map_length).
  rewrite K1, K2. rewrite !map_map.
  rewrite (map_ext (fun x => sshape (normalize (rho x))) (fun v => op_shape (rho v))) by (intros; apply normalize_shape).
  assert (F : Forall (fun s : shape => NoDup (dkeys s)) (map (fun v => op_shape (rho v)) l)).
  { apply Forall_map, Forall_forall. intros v Hv. rewrite <- normalize_shape. apply wf_nodup, normalize_wf. now apply H. }
  assert (BS := broadcast_shapes_perm _ _ F (Permutation_map (fun v => op_shape (rho v)) P)).
  apply broadcast_shapes_conflict in C; auto. rewrite C in BS.
  destruct (broadcast_shapes (map (fun v => op_shape (rho v)) ns)) as [S'|] eqn:E'; [contradiction|]. simpl in BS. subst. reflexivity.
Qed.
End Evaluate.
