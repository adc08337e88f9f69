(** Facts about polynomial fits. *)
From Coq Require Import Ascii String List Arith ZArith Bool Lia Permutation Field Field_theory Ring_theory.
From Verif Require Import Base BaseFacts Numpy NumpyFacts Shapes Scalar Elementwise Reduce Vector Matrix Poly
  Spec SpecNumeric SpecVector SpecMatrix SpecPoly ShapesFacts AlignFacts ElementwiseFacts ReduceFacts VectorFacts
  CartesianFacts LinspaceFacts MatrixFacts.
From Verif Require RegridFacts SortingFacts VectorIndexFacts ReorderFacts DotFacts.
Import ListNotations.
Open Scope nat_scope.
Open Scope list_scope.

Lemma incl_dec (l m : list string) : incl l m \/ ~ incl l m.
Proof.
  induction l as [|x l [IH|IH]]; [left; intros ? []| |right; intros H; apply IH; intros z Hz; apply H; now right].
  destruct (in_dec string_dec x m); [left; intros z [<- |Hz]; auto|right; intros H; apply n, H; now left].
Qed.

(** ** Splitting names at the stars *)

Lemma concat_cons x y l : String.concat "*" (x :: y :: l) = (x ++ "*" ++ String.concat "*" (y :: l))%string.
Proof. reflexivity. Qed.

Lemma concat_one x : String.concat "*" [x] = x.
Proof. reflexivity. Qed.

Lemma string_app_nil s : (s ++ "")%string = s.
Proof. induction s; simpl; congruence. Qed.

Lemma split_free x : star_free x -> forall s acc,
  split_star (x ++ s) acc = split_star s (rev (list_ascii_of_string x) ++ acc).
Proof.
  induction x as [|c x IH]; intros H s acc; [reflexivity|].
  unfold star_free in *. cbn [list_ascii_of_string In] in H. cbn [append split_star list_ascii_of_string rev].
  destruct (Ascii.eqb_spec c "*") as [-> |N]; [exfalso; tauto|]. rewrite IH by tauto. now rewrite <- app_assoc.
Qed.

Lemma split_concat l : l <> [] -> Forall star_free l -> split_star (String.concat "*" l) [] = l.
Proof.
  induction l as [|x l IH]; intros N H; [congruence|]. inversion H as [|? ? Hx Hl]; subst.
  destruct l as [|y l].
  - rewrite concat_one, <- (string_app_nil x) at 1. rewrite split_free by exact Hx. cbn [split_star].
    now rewrite app_nil_r, rev_involutive, string_of_list_ascii_of_string.
  - rewrite concat_cons, split_free by exact Hx. cbn [split_star append Ascii.eqb]. cbn.
    rewrite app_nil_r, rev_involutive, string_of_list_ascii_of_string. f_equal. apply IH; [discriminate|exact Hl].
Qed.

Lemma factors_split name l : factors name l -> name <> ""%string -> split_star name [] = l.
Proof.
  intros (Sf & <- & E) N. apply split_concat; [|exact Sf]. intros ->. now apply N.
Qed.

(** every name has factors *)
Lemma split_nonempty s acc : split_star s acc <> [].
Proof. revert acc. induction s as [|c s IH]; intros acc; simpl; [discriminate|]. destruct (Ascii.eqb c "*"); [discriminate|apply IH]. Qed.

Lemma list_ascii_app s t : list_ascii_of_string (s ++ t) = list_ascii_of_string s ++ list_ascii_of_string t.
Proof. induction s; simpl; congruence. Qed.

Lemma split_spec s : forall acc, ~ In "*"%char acc ->
  Forall star_free (split_star s acc) /\
  String.concat "*" (split_star s acc) = (string_of_list_ascii (rev acc) ++ s)%string.
Proof.
  induction s as [|c s IH]; intros acc H.
  - cbn [split_star]. split; [|rewrite string_app_nil; reflexivity]. constructor; [|constructor].
    unfold star_free. rewrite list_ascii_of_string_of_list_ascii, <- in_rev. exact H.
  - cbn [split_star]. destruct (Ascii.eqb_spec c "*") as [-> |N].
    + destruct (IH []) as [F E]; [intros []|]. split.
      * constructor; [|exact F]. unfold star_free. rewrite list_ascii_of_string_of_list_ascii, <- in_rev. exact H.
      * destruct (split_star s []) as [|y l] eqn:Ey; [now apply split_nonempty in Ey|]. rewrite concat_cons, E. reflexivity.
    + destruct (IH (c :: acc)) as [F E]; [intros [G|G]; auto|]. split; [exact F|]. rewrite E. cbn [rev].
      assert (Q : forall l, (string_of_list_ascii (l ++ [c]) ++ s)%string = (string_of_list_ascii l ++ String c s)%string).
      { induction l as [|d l Q]; simpl; congruence. }
      apply Q.
Qed.

Lemma factors_exist name : exists l, factors name l.
Proof.
  destruct (string_dec name "") as [-> |N].
  - exists []. unfold factors. split; [constructor|]. split; [reflexivity|tauto].
  - exists (split_star name []). destruct (split_spec name []) as [F E]; [intros []|]. split; [exact F|]. split; [exact E|].
    split; [congruence|]. intros X. now apply split_nonempty in X.
Qed.

Lemma factors_unique name l l' : factors name l -> factors name l' -> l = l'.
Proof.
  intros H H'. destruct (string_dec name "") as [E|N].
  - destruct H as (_ & _ & H), H' as (_ & _ & H'). transitivity (@nil string); [|symmetry]; tauto.
  - now rewrite <- (factors_split name l), <- (factors_split name l').
Qed.

(** ** Shapes *)

Lemma sizes_op_shapes {A} (l : list (operand A)) ax : sizes_of (op_shapes l) ax = sizes_of (map op_shape l) ax.
Proof.
  unfold sizes_of. induction l as [|[a|x] l IH]; [reflexivity| |exact IH].
  cbn [op_shapes flat_map map op_shape app]. now rewrite <- IH.
Qed.

Lemma concat_op_shapes {A} (l : list (operand A)) : concat (map dkeys (op_shapes l)) = concat (map dkeys (map op_shape l)).
Proof. induction l as [|[a|x] l IH]; [reflexivity| |exact IH]. cbn [op_shapes flat_map map op_shape app concat]. now rewrite <- IH. Qed.

Lemma op_shape_nodup {A} (o : operand A) : op_wf o -> NoDup (dkeys (op_shape o)).
Proof. destruct o; cbn; intros W; [now apply wf_nodup|constructor]. Qed.

Lemma map_shape_nodup {A} (l : list (operand A)) : Forall op_wf l -> Forall (fun s => NoDup (dkeys s)) (map op_shape l).
Proof. intros H. apply Forall_map. eapply Forall_impl; [|exact H]. intros o. apply op_shape_nodup. Qed.

Lemma shape_broadcasted_eq {A} (l : list (operand A)) : Forall op_wf l ->
  shape_broadcasted l = broadcast_shapes (map op_shape l).
Proof.
  intros W. unfold shape_broadcasted. assert (N1 := op_shapes_nodup l W). assert (N2 := map_shape_nodup l W).
  destruct (broadcast_shapes_total _ N1) as [(r & E1)|E1], (broadcast_shapes_total _ N2) as [(s & E2)|E2]; rewrite E1, E2.
  - f_equal. destruct (broadcast_shapes_ok _ _ N1 E1) as (Nr & Kr & Sr). destruct (broadcast_shapes_ok _ _ N2 E2) as (Ns & Ks & Ss).
    apply RegridFacts.shape_eq; [now rewrite Kr, Ks, concat_op_shapes|exact Ns|].
    intros ax n H. apply Ss. apply Sr in H. now rewrite <- concat_op_shapes, <- sizes_op_shapes.
  - exfalso. apply broadcast_shapes_conflict in E2; [|exact N2]. assert (C : conflict (op_shapes l)).
    { destruct E2 as (ax & n & m & H). exists ax, n, m. now rewrite sizes_op_shapes. }
    apply broadcast_shapes_conflict in C; [congruence|exact N1].
  - exfalso. apply broadcast_shapes_conflict in E1; [|exact N1]. assert (C : conflict (map op_shape l)).
    { destruct E1 as (ax & n & m & H). exists ax, n, m. now rewrite <- sizes_op_shapes. }
    apply broadcast_shapes_conflict in C; [congruence|exact N2].
  - reflexivity.
Qed.

Lemma broadcast_absorb (s t : shape) : NoDup (dkeys t) -> NoDup (dkeys s) -> fits_in s t -> broadcast_shapes [t; s] = Ok t.
Proof.
  intros Nt Ns H. assert (N : Forall (fun s => NoDup (dkeys s)) [t; s]) by auto.
  assert (Ks : incl (dkeys s) (dkeys t)).
  { intros ax Hax. apply in_map_iff in Hax. destruct Hax as ([ax' n] & <- & Hn). destruct (H ax' n Hn) as (m & Hm & _).
    cbn [fst]. exact (in_map fst _ _ Hm). }
  destruct (broadcast_shapes_total _ N) as [(r & E)|E]; rewrite E.
  - f_equal. destruct (broadcast_shapes_ok _ _ N E) as (Nr & Kr & Sr). cbn [map concat] in Kr. rewrite app_nil_r in Kr.
    rewrite first_appearance_absorb, SortingFacts.first_appearance_nodup in Kr by assumption.
    apply RegridFacts.shape_eq; [exact Kr|exact Nt|]. intros ax n Hr.
    destruct (VectorIndexFacts.broadcast_attained _ _ ax n N E Hr) as (u & [<- |[<- |[]]] & Hu); [exact Hu|].
    destruct (H ax n Hu) as (m & Hm & [-> | ->]); [|exact Hm].
    destruct (VectorIndexFacts.broadcast_covers _ _ t ax m N E (or_introl eq_refl) Hm) as (_ & [-> |Hm']); [exact Hm|].
    assert (X := dget_NoDup r ax 1 Nr Hr). rewrite (dget_NoDup r ax m Nr Hm') in X. injection X as ->. exact Hm.
  - exfalso. apply broadcast_shapes_conflict in E; [|exact N]. destruct E as (ax & n & m & Hn & Hm & D & D1 & D2).
    apply sizes_of_In in Hn, Hm. destruct Hn as (u & Hu & Hn), Hm as (v & Hv & Hm). apply dget_In in Hn, Hm.
    assert (Q : forall u n, In u [t; s] -> In (ax, n) u -> n <> 1 -> In (ax, n) t).
    { intros u' n' [<- |[<- |[]]] Hu' N1; [exact Hu'|]. destruct (H ax n' Hu') as (m' & Hm' & [-> | ->]); [congruence|exact Hm']. }
    apply (Q u n Hu) in Hn; [|exact D1]. apply (Q v m Hv) in Hm; [|exact D2].
    assert (X := dget_NoDup t ax n Nt Hn). rewrite (dget_NoDup t ax m Nt Hm) in X. congruence.
Qed.

(** an array of exactly the shape [S] *)
Definition full {A} (S : shape) (o : operand A) (f : env -> A) : Prop :=
  exists a, o = OpArr a /\ wf a /\ sshape a = S /\ forall e, inside e S -> at_ a e = f e.

Lemma full_reads {A} S (o : operand A) f : full S o f -> reads S o f.
Proof.
  intros (a & -> & W & <- & V). split; [exact W|]. split.
  - cbn [op_shape]. intros ax n H. eauto.
  - intros e I. cbn [op_at]. rewrite SortingFacts.bat_inside by assumption. auto.
Qed.

Lemma full_ext {A} S (o : operand A) f g : full S o f -> (forall e, inside e S -> f e = g e) -> full S o g.
Proof. intros (a & E & W & Sh & V) H. exists a. repeat split; auto; try apply W. intros e I. rewrite V by exact I. auto. Qed.

Lemma full_wf {A} S (o : operand A) f : full S o f -> op_wf o /\ op_shape o = S.
Proof. intros (a & -> & W & Sh & _). auto. Qed.

(** a dictionary of arrays of the shape [S] *)
Definition tabled {A} (S : shape) (ns : list string) (d : dict (operand A)) (f : string -> env -> A) : Prop :=
  map fst d = ns /\ forall n o, dget d n = Some o -> full S o (f n).

Lemma In_dget {V} (d : dict V) kv : NoDup (map fst d) -> In kv d -> dget d (fst kv) = Some (snd kv).
Proof. destruct kv as [k v]. intros N H. now apply dget_NoDup. Qed.

Lemma fits_broadcast (l : list shape) S s : Forall (fun s => NoDup (dkeys s)) l -> broadcast_shapes l = Ok S -> In s l -> fits_in s S.
Proof.
  intros N E Hs ax n Hn. destruct (VectorIndexFacts.broadcast_covers l S s ax n N E Hs Hn) as (Hk & [-> |H]); [|eauto].
  apply in_map_iff in Hk. destruct Hk as ([ax' m] & <- & Hm). eauto.
Qed.

Lemma d_broadcasted_ok {A} (d : dict (operand A)) ns S : NoDup ns -> map fst d = ns ->
  (forall n o, dget d n = Some o -> op_wf o) -> broadcast_shapes (map op_shape (map snd d)) = Ok S ->
  exists d', d_broadcasted d = Ok d' /\ map fst d' = ns /\
    forall n o', dget d' n = Some o' -> exists o, dget d n = Some o /\ full S o' (op_at o).
Proof.
  intros N Kd Wd E. assert (W : Forall op_wf (map snd d)).
  { apply Forall_forall. intros o Ho. apply in_map_iff in Ho. destruct Ho as (kv & <- & Hk). apply (Wd (fst kv)).
    apply In_dget; [now rewrite Kd|exact Hk]. }
  assert (Nd := map_shape_nodup _ W). destruct (broadcast_shapes_ok _ _ Nd E) as (Ns & _).
  unfold d_broadcasted. rewrite shape_broadcasted_eq, E by exact W. cbn [bind].
  destruct (mapM_dict fst (fun kv : string * operand A => o <- na_broadcast_to (normalize (snd kv)) S false ;; Ok (fst kv, OpArr o))
              (fun kv o' => full S o' (op_at (snd kv))) d) as (ys & Ey & Ky & Py).
  - now rewrite Kd.
  - intros kv Hk. rewrite Forall_forall in W. assert (Wk : op_wf (snd kv)) by (apply W; now apply in_map).
    destruct (broadcast_to_fits (normalize (snd kv)) S) as [X _]; [now apply normalize_wf|exact Ns|].
    destruct X as (r & Er & Wr & Sr & Vr).
    { rewrite normalize_shape. eapply fits_broadcast; [exact Nd|exact E|]. apply in_map. now apply in_map. }
    exists (OpArr r). rewrite Er. split; [reflexivity|]. exists r. repeat split; auto; try apply Wr. intros e _. now rewrite Vr, normalize_at.
  - exists ys. split; [exact Ey|]. split; [now rewrite Ky|]. intros n o' Ho.
    assert (Hn : In n (map fst d)) by (rewrite <- Ky; change (In n (dkeys ys)); apply dget_Some_key; eauto).
    apply in_map_iff in Hn. destruct Hn as (kv & <- & Hk). destruct (Py kv Hk) as (o'' & Ho'' & Fo). exists (snd kv).
    split; [apply In_dget; [now rewrite Kd|exact Hk]|]. congruence.
Qed.

Section Poly.
Context {F : Type} (K : arith F) (FK : is_field K).

Let Fth : field_theory (zero K) (one K) (plus K) (times K) (minus K) (neg K) (over K) (over K (one K)) eq := proj1 FK.
Add Field Kf : Fth.

Lemma op2_full h S T a f b : full S a f -> op_wf b -> broadcast_shapes [S; op_shape b] = Ok T ->
  exists o, op2 K h a b = Ok o /\ full T o (fun e => h (op_at a e) (op_at b e)).
Proof.
  intros (x & -> & W & Sx & _) Wb E. unfold op2, op_ufunc. cbn [forallb is_num andb].
  destruct (array_ufunc_ok (fun l => match l with [x; y] => h x y | _ => zero K end) [OpArr x; b] T) as (r & Er & Wr & Sr & Vr).
  - constructor; [exact W|]. auto.
  - rewrite shape_broadcasted_eq by (constructor; [exact W|auto]). cbn [map op_shape]. now rewrite Sx.
  - exists (OpArr r). rewrite Er. split; [reflexivity|]. exists r. repeat split; auto; try apply Wr. intros e _. now rewrite Vr.
Qed.

Lemma mul_one_full S a f : full S a f -> NoDup (dkeys S) ->
  exists o, op2 K (times K) (OpNum (one K)) a = Ok o /\ full S o f.
Proof.
  intros (x & -> & W & Sx & V) N. unfold op2, op_ufunc. cbn [forallb is_num andb].
  destruct (array_ufunc_ok (fun l => match l with [x; y] => times K x y | _ => zero K end) [OpNum (one K); OpArr x] S) as (r & Er & Wr & Sr & Vr).
  - constructor; [exact I|]. auto.
  - unfold shape_broadcasted. cbn [op_shapes flat_map app broadcast_shapes foldM]. now rewrite Sx.
  - exists (OpArr r). rewrite Er. split; [reflexivity|]. exists r. repeat split; auto; try apply Wr. intros e I. rewrite Vr. cbn [map op_at].
    rewrite SortingFacts.bat_inside by (try rewrite Sx; assumption). rewrite V by exact I. ring.
Qed.

Lemma mul_full S a b f g : NoDup (dkeys S) -> full S a f -> full S b g ->
  exists o, op2 K (times K) a b = Ok o /\ full S o (fun e => times K (f e) (g e)).
Proof.
  intros N Fa Fb. destruct (full_wf S b g Fb) as [Wb Sb].
  destruct (op2_full (times K) S S a f b Fa Wb) as (o & E & Fo).
  - rewrite Sb. apply broadcast_absorb; auto. intros ax n H. eauto.
  - exists o. split; [exact E|]. eapply full_ext; [exact Fo|]. intros e I.
    cbv beta. now rewrite (reads_at S a f e (full_reads _ _ _ Fa) I), (reads_at S b g e (full_reads _ _ _ Fb) I).
Qed.

(** ** The terms *)

Lemma product_step X k l acc : times K (times K acc (X k)) (product_of K X l) = times K acc (product_of K X (k :: l)).
Proof. cbn [product_of fold_right]. fold (product_of K X l). ring. Qed.

Lemma term_loop S cs comps X l : NoDup (dkeys S) -> tabled S cs comps X -> incl l cs ->
  forall acc f, full S acc f ->
  exists o, foldM (fun term k => match dget comps k with None => Err ValueError | Some x => op2 K (times K) term x end) l acc = Ok o /\
    full S o (fun e => times K (f e) (product_of K (fun k => X k e) l)).
Proof.
  intros N [Kc Hc]. induction l as [|k l IH]; intros I acc f Fa.
  - exists acc. split; [reflexivity|]. eapply full_ext; [exact Fa|]. intros e _. cbn. ring.
  - cbn [foldM]. assert (Hk : In k (dkeys comps)) by (change (In k (map fst comps)); rewrite Kc; apply I; now left).
    apply dget_Some_key in Hk. destruct Hk as (x & Ex). rewrite Ex.
    destruct (mul_full S acc x f (X k) N Fa (Hc k x Ex)) as (o & Eo & Fo). rewrite Eo. cbn [bind].
    destruct (IH (fun z H => I z (or_intror H)) o _ Fo) as (o' & Eo' & Fo'). exists o'. split; [exact Eo'|].
    eapply full_ext; [exact Fo'|]. intros e _. cbn beta. apply (product_step (fun k => X k e)).
Qed.

Lemma poly_term_ok S cs comps X name l : NoDup (dkeys S) -> tabled S cs comps X -> factors name l -> incl l cs ->
  exists o, poly_term K comps name = Ok o /\ reads S o (fun e => product_of K (fun k => X k e) l) /\
    (name <> ""%string -> full S o (fun e => product_of K (fun k => X k e) l)) /\
    (name = ""%string -> op_shape o = []).
Proof.
  intros N T Fl I. unfold poly_term. destruct (String.eqb_spec name "") as [E|E].
  - assert (l = []) as -> by (now apply Fl). exists (OpNum (one K)). split; [reflexivity|].
    split; [|split; [congruence|reflexivity]]. eapply reads_ext; [apply reads_num|]. reflexivity.
  - rewrite (factors_split name l Fl E). destruct l as [|k l]; [exfalso; apply E; now apply Fl|].
    assert (Tc := T). destruct Tc as [Kc Hc]. cbn [foldM].
    assert (Hk : In k (dkeys comps)) by (change (In k (map fst comps)); rewrite Kc; apply I; now left).
    apply dget_Some_key in Hk. destruct Hk as (x & Ex). rewrite Ex.
    destruct (mul_one_full S x (X k) (Hc k x Ex) N) as (o & Eo & Fo). rewrite Eo. cbn [bind].
    destruct (term_loop S cs comps X l N T (fun z H => I z (or_intror H)) o _ Fo) as (o' & Eo' & Fo').
    exists o'. split; [exact Eo'|]. split; [now apply full_reads|].
    split; [intros _; exact Fo'|congruence].
Qed.

Lemma poly_term_unknown S cs comps X name l : NoDup (dkeys S) -> tabled S cs comps X -> factors name l -> ~ incl l cs ->
  poly_term K comps name = Err ValueError.
Proof.
  intros N T Fl I. unfold poly_term. destruct (String.eqb_spec name "") as [E|E].
  - exfalso. apply I. assert (l = []) as -> by (now apply Fl). intros ? [].
  - rewrite (factors_split name l Fl E). clear Fl E. assert (Tc := T). destruct Tc as [Kc Hc].
    assert (G : forall l, ~ incl l cs -> forall acc f, full S acc f ->
      foldM (fun term k => match dget comps k with None => Err ValueError | Some x => op2 K (times K) term x end) l acc = Err ValueError).
    { clear l I. induction l as [|k l IH]; intros I acc f Fa; [exfalso; apply I; intros ? []|]. cbn [foldM].
      destruct (dget comps k) as [x|] eqn:Ex; [|reflexivity].
      destruct (mul_full S acc x f (X k) N Fa (Hc k x Ex)) as (o & Eo & Fo). rewrite Eo. cbn [bind].
      apply (IH (fun H => I (fun z Hz => match Hz with or_introl Q => ltac:(subst z; rewrite <- Kc; change (In k (dkeys comps)); apply dget_Some_key; eauto) | or_intror Q => H z Q end)) o _ Fo). }
    destruct l as [|k l]; [exfalso; apply I; intros ? []|]. cbn [foldM].
    destruct (dget comps k) as [x|] eqn:Ex; [|reflexivity].
    destruct (mul_one_full S x (X k) (Hc k x Ex) N) as (o & Eo & Fo). rewrite Eo. cbn [bind].
    apply (G l) with (f := X k); [|exact Fo]. intros H. apply I. intros z [<- |Hz]; [|now apply H].
    rewrite <- Kc. change (In k (dkeys comps)). apply dget_Some_key. eauto.
Qed.

(** ** The inputs *)

Definition input_names {A} (x : vec A) : list string :=
  match x with Leaf _ => ["dummy"%string] | Node _ _ => names x end.

Lemma input_name {A} (x : vec A) c : input_ok x -> In c (input_names x) <-> exists o, input_part x c o.
Proof.
  destruct x as [o|ty cs]; cbn [input_ok input_names input_part]; intros V.
  - split; [intros [<- |[]]; eauto|]. intros (o' & -> & _). now left.
  - now apply part_name.
Qed.

Lemma poly_components_ok (x : vec F) S X : input_ok x -> broadcast_shapes (map op_shape (leaves x)) = Ok S ->
  (forall e, inside e S -> input_reads x e (X e)) ->
  exists comps, poly_components x = Ok comps /\ tabled S (input_names x) comps (fun k e => X e k).
Proof.
  intros V E R. unfold poly_components.
  set (d := match x with Leaf o => [("dummy"%string, o)] | Node _ _ => cartesian_nd x end).
  assert (D : map fst d = input_names x /\ map snd d = leaves x /\ NoDup (input_names x) /\
    forall n o, dget d n = Some o -> op_wf o /\ input_part x n o).
  { destruct x as [o|ty cs]; cbn [input_ok] in V; subst d; cbn [input_names].
    - split; [reflexivity|]. split; [reflexivity|]. split; [repeat constructor; intros []|]. intros n o'. cbn [dget].
      destruct (String.eqb_spec n "dummy") as [-> |_]; [|discriminate]. intros H. injection H as <-. now cbn.
    - assert (V' := V). destruct V' as (T & W & N & _). split; [now apply cart_keys|]. split.
      { rewrite cart_entries by assumption. apply map_snd_combine. now rewrite names_length. }
      split; [exact N|]. intros n o Hn. apply part_get in Hn; [|exact V]. split; [eapply part_wf; eauto|exact Hn]. }
  destruct D as (Kd & Sd & N & Pd).
  destruct (d_broadcasted_ok d (input_names x) S N Kd (fun n o H => proj1 (Pd n o H))) as (d' & Ed & Kd' & Fd); [now rewrite Sd|].
  exists d'. split; [exact Ed|]. split; [exact Kd'|]. intros n o' Ho. destruct (Fd n o' Ho) as (o & Hn & Fo).
  eapply full_ext; [exact Fo|]. intros e I. symmetry. apply (R e I n o). now apply (Pd n o).
Qed.

(** ** The design matrix *)

Lemma dset_fresh {V} (d : dict V) k v : ~ In k (map fst d) -> dset d k v = d ++ [(k, v)].
Proof.
  induction d as [|[k' v'] d IH]; intros H; [reflexivity|]. cbn [dset map fst In] in *.
  destruct (String.eqb_spec k k') as [-> |_]; [exfalso; tauto|]. rewrite IH by tauto. reflexivity.
Qed.

Lemma design_loop {V} (g : string -> res V) (P : string -> V -> Prop) ns :
  (forall n, In n ns -> exists t, g n = Ok t /\ P n t) ->
  forall d, NoDup (map fst d ++ ns) -> (forall n t, dget d n = Some t -> P n t) ->
  exists d', foldM (fun d name => term <- g name ;; Ok (dset d name term)) ns d = Ok d' /\ map fst d' = map fst d ++ ns /\
    forall n t, dget d' n = Some t -> P n t.
Proof.
  induction ns as [|n ns IH]; intros H d N Hd.
  - exists d. rewrite app_nil_r. auto.
  - cbn [foldM]. destruct (H n (or_introl eq_refl)) as (t & Et & Pt). rewrite Et. cbn [bind].
    assert (Fr : ~ In n (map fst d)).
    { intros X. apply NoDup_remove_2 in N. apply N. apply in_or_app. now left. }
    destruct (IH (fun m Hm => H m (or_intror Hm)) (dset d n t)) as (d' & Ed & Kd & Pd).
    + rewrite dset_fresh by exact Fr. rewrite map_app. cbn [map fst]. now rewrite <- app_assoc.
    + intros m u. rewrite dget_dset. destruct (String.eqb_spec m n) as [-> |_]; [|apply Hd]. intros X. now injection X as <-.
    + exists d'. split; [exact Ed|]. split; [|exact Pd]. rewrite Kd, dset_fresh by exact Fr. rewrite map_app. cbn [map fst]. now rewrite <- app_assoc.
Qed.

Lemma design_loop_err {V} (g : string -> res V) ns n : In n ns -> g n = Err ValueError ->
  (forall m, In m ns -> (exists t, g m = Ok t) \/ g m = Err ValueError) ->
  forall d, foldM (fun d name => term <- g name ;; Ok (dset d name term)) ns d = Err ValueError.
Proof.
  induction ns as [|m ns IH]; intros Hn En H d; [destruct Hn|]. cbn [foldM].
  destruct (H m (or_introl eq_refl)) as [(t & Et)|Et]; rewrite Et; cbn [bind]; [|reflexivity].
  destruct Hn as [-> |Hn]; [congruence|]. apply IH; auto. intros k Hk. apply H. now right.
Qed.

Variable inputs x : vec F.
Variable center : option (vec F).
Variable S : shape.
Variable X : env -> string -> F.
Hypothesis Cx : centered K inputs center = Ok x.
Hypothesis Vx : input_ok x.
Hypothesis Sx : broadcast_shapes (map op_shape (leaves x)) = Ok S.
Hypothesis Rx : forall e, inside e S -> input_reads x e (X e).

Lemma leaves_wf : Forall op_wf (leaves x).
Proof.
  destruct x as [o|ty cs]; cbn [input_ok] in Vx.
  - cbn [leaves]. auto.
  - apply Forall_forall. intros o Ho. destruct (In_leaf _ o (vector_tree _ Vx) Ho) as (q & Hq).
    apply (part_wf _ (String.concat "." q) o Vx). exists q. auto.
Qed.

Lemma S_nodup : NoDup (dkeys S).
Proof. exact (proj1 (broadcast_shapes_ok _ _ (map_shape_nodup _ leaves_wf) Sx)). Qed.

Definition term_of (fs : string -> list string) n (o : operand F) : Prop :=
  reads S o (fun e => product_of K (X e) (fs n)) /\
  (n <> ""%string -> full S o (fun e => product_of K (X e) (fs n))) /\
  (n = ""%string -> op_shape o = []).

Lemma design_ok ns fs : NoDup ns -> (forall n, In n ns -> factors n (fs n) /\ incl (fs n) (input_names x)) ->
  exists d, design_matrix K (Some ns) center inputs = Ok d /\ map fst d = ns /\
    forall n o, dget d n = Some o -> term_of fs n o.
Proof.
  intros N H. unfold design_matrix. rewrite Cx. cbn [bind].
  destruct (poly_components_ok x S X Vx Sx Rx) as (comps & Ec & Tc). rewrite Ec. cbn [bind].
  destruct (design_loop (poly_term K comps) (term_of fs) ns) with (d := @nil (string * operand F)) as (d & Ed & Kd & Pd).
  - intros n Hn. destruct (H n Hn) as [Fn In_]. apply (poly_term_ok S _ comps _ n (fs n) S_nodup Tc Fn In_).
  - exact N.
  - intros n t [=].
  - exists d. auto.
Qed.

Lemma design_unknown ns n l : In n ns -> factors n l -> ~ incl l (input_names x) ->
  design_matrix K (Some ns) center inputs = Err ValueError.
Proof.
  intros Hn Fl I. unfold design_matrix. rewrite Cx. cbn [bind].
  destruct (poly_components_ok x S X Vx Sx Rx) as (comps & Ec & Tc). rewrite Ec. cbn [bind].
  apply design_loop_err with (n := n); [exact Hn|eapply poly_term_unknown; eauto using S_nodup|].
  intros m Hm. destruct (factors_exist m) as (k & Fk).
  destruct (incl_dec k (input_names x)) as [J|J].
  - left. destruct (poly_term_ok S _ comps _ m k S_nodup Tc Fk J) as (o & Eo & _). eauto.
  - right. eapply poly_term_unknown; eauto using S_nodup.
Qed.

Lemma broadcast_mixed (l : list shape) : Forall (fun s => s = S \/ s = []) l -> In S l -> broadcast_shapes l = Ok S.
Proof.
  intros H Hl. assert (NS := S_nodup). assert (N : Forall (fun s => NoDup (dkeys s)) l).
  { eapply Forall_impl; [|exact H]. intros s [-> | ->]; [exact NS|constructor]. }
  rewrite Forall_forall in H.
  destruct (broadcast_shapes_total _ N) as [(r & E)|E]; rewrite E.
  - f_equal. destruct (broadcast_shapes_ok _ _ N E) as (Nr & Kr & Sr). apply RegridFacts.shape_eq; [|exact NS|].
    + rewrite Kr. clear Kr Sr E N. induction l as [|s l IH]; [destruct Hl|]. cbn [map concat].
      destruct (H s (or_introl eq_refl)) as [-> | ->].
      * rewrite first_appearance_absorb; [now apply SortingFacts.first_appearance_nodup|].
        intros ax Hax. apply in_concat in Hax. destruct Hax as (ks & Hk & Hax). apply in_map_iff in Hk. destruct Hk as (s & <- & Hs).
        destruct (H s (or_intror Hs)) as [-> | ->]; [exact Hax|destruct Hax].
      * destruct S as [|kv S'] eqn:ES.
        { assert (Q : concat (map dkeys l) = []); [|now rewrite Q].
          assert (Q' : forall s, In s l -> s = []) by (intros s Hs; destruct (H s (or_intror Hs)); auto).
          clear - Q'. induction l as [|s l IH]; [reflexivity|]. cbn [map concat]. rewrite (Q' s (or_introl eq_refl)). cbn.
          apply IH. intros t Ht. apply Q'. now right. }
        cbn [dkeys map app]. apply IH; [intros s Hs; apply H; now right|]. destruct Hl as [Q|Hl]; [discriminate Q|exact Hl].
    + intros ax n Hr. destruct (VectorIndexFacts.broadcast_attained _ _ ax n N E Hr) as (u & Hu & Hn).
      destruct (H u Hu) as [-> | ->]; [exact Hn|destruct Hn].
  - exfalso. apply broadcast_shapes_conflict in E; [|exact N]. destruct E as (ax & n & m & Hn & Hm & D & D1 & D2).
    apply sizes_of_In in Hn, Hm. destruct Hn as (u & Hu & Hn), Hm as (v & Hv & Hm).
    destruct (H u Hu) as [-> | ->]; [|discriminate]. destruct (H v Hv) as [-> | ->]; [|discriminate]. congruence.
Qed.

Lemma design_shape ns d fs : map fst d = ns -> NoDup ns ->
  (forall n o, dget d n = Some o -> term_of fs n o) ->
  (exists n, In n ns /\ n <> ""%string) -> broadcast_shapes (map op_shape (map snd d)) = Ok S.
Proof.
  intros Kd N Hd (n & Hn & Nn). apply broadcast_mixed.
  - apply Forall_forall. intros s Hs. apply in_map_iff in Hs. destruct Hs as (o & <- & Ho). apply in_map_iff in Ho.
    destruct Ho as (kv & <- & Hk). assert (D : dget d (fst kv) = Some (snd kv)) by (apply In_dget; [now rewrite Kd|exact Hk]).
    destruct (string_dec (fst kv) "") as [E|E]; destruct (Hd _ _ D) as (_ & G & G0); [right; auto|]. left. apply (full_wf _ _ _ (G E)).
  - rewrite <- Kd in Hn. change (In n (dkeys d)) in Hn. apply dget_Some_key in Hn. destruct Hn as (o & Ho).
    destruct (Hd n o Ho) as (_ & G & _). destruct (full_wf _ _ _ (G Nn)) as [_ <-]. apply in_map. apply dget_In in Ho.
    exact (in_map snd _ _ Ho).
Qed.
End Poly.
