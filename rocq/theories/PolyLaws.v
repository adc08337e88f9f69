(** The theorems on polynomial fits. *)
From Coq Require Import Ascii String List Arith ZArith Bool Lia Permutation QArith Qcanon Lqa.
From Verif Require Import Base BaseFacts Numpy Shapes Scalar Elementwise Reduce Vector Matrix Poly
  Spec SpecNumeric SpecVector SpecMatrix SpecPoly ShapesFacts AlignFacts MatrixFacts MatrixLaws PolyFacts PolyFitFacts.
From Verif Require RegridFacts StrataFacts VectorFacts.
Import ListNotations.
Open Scope nat_scope.
Open Scope list_scope.

Section Laws.
Context {F : Type} (K : arith F) (FK : is_field K) (np_inv : list (list F) -> list (list F)).
Variables (inputs x : vec F) (center : option (vec F)) (ns : list string) (fs : string -> list string)
  (outputs : operand F) (axis : option (list string)) (w : operand bool) (S T : shape) (A : list string) (X : env -> string -> F).
Hypothesis Cx : centered K inputs center = Ok x.
Hypothesis Fp : fit_problem x ns fs outputs axis w S T A.
Hypothesis Rx : forall e, inside e S -> input_reads x e (X e).

Lemma factors_ok : forall n, In n ns -> factors n (fs n) /\ incl (fs n) (input_names x).
Proof.
  intros n Hn. destruct (fp_factors _ _ _ _ _ _ _ _ _ Fp n Hn) as [H1 H2]. split; [exact H1|]. intros k Hk.
  apply input_name; [apply Fp|]. now apply H2.
Qed.

Theorem fit_all : exists cf, coefficients K np_inv (Some ns) center inputs outputs axis w = Ok cf /\ map fst cf = ns /\
  (forall n o, In (n, o) cf -> op_wf o /\ fits_in (op_shape o) (without T A)) /\
  forall e C, inside e (without T A) -> coefficients_at cf e C ->
  let l := points S A w e in
  invertible K np_inv ns (gram_at K X fs l) ->
  exists N, (forall i j, In i ns -> In j ns -> sum_over K ns (fun k => times K (N i k) (gram_at K X fs l k j)) = delta K i j) /\
    (forall i j, In i ns -> In j ns -> sum_over K ns (fun k => times K (gram_at K X fs l i k) (N k j)) = delta K i j) /\
    forall n, In n ns -> C n = sum_over K ns (fun k => times K (N n k)
      (sum_points K l (fun p => times K (term_at K X fs k p) (op_at outputs p)))).
Proof.
  destruct Fp as [P1 P2 P3 P4 P5 P6 P7 P8 P9 P10].
  destruct P9 as [P9 P9'], P10 as (P10 & P10' & P10'').
  destruct (coefficients_ok K FK np_inv inputs x center S X Cx P1 P2 Rx ns fs P3 factors_ok P5 outputs axis w T A P6 P9 P7 P8 P9' P10 P10' P10'')
    as (cf & Ec & Kc & Gc & Vc).
  exists cf. split; [exact Ec|]. split; [exact Kc|]. split; [exact Gc|]. intros e C I HC l Inv.
  destruct (Vc e I Inv) as (N & N1 & N2 & N3). exists N. split; [exact N1|]. split; [exact N2|]. intros n Hn.
  rewrite <- Kc in Hn. apply in_map_iff in Hn. destruct Hn as ([n' o] & <- & Ho). cbn [fst]. rewrite (HC n' o Ho). exact (N3 n' o Ho).
Qed.

Theorem fit_exists : exists cf, coefficients K np_inv (Some ns) center inputs outputs axis w = Ok cf /\ map fst cf = ns /\
  forall n o, In (n, o) cf -> op_wf o /\ fits_in (op_shape o) (without T A).
Proof. destruct fit_all as (cf & E & Kc & G & _). eauto. Qed.

Variable cf : dict (operand F).
Hypothesis Ec : coefficients K np_inv (Some ns) center inputs outputs axis w = Ok cf.

Theorem fit_normal e C : inside e (without T A) -> coefficients_at cf e C -> invertible K np_inv ns (gram_at K X fs (points S A w e)) ->
  forall n, In n ns -> sum_points K (points S A w e)
    (fun p => times K (term_at K X fs n p) (minus K (poly_at K X fs ns C p) (op_at outputs p))) = zero K.
Proof.
  intros I HC Inv n Hn. destruct fit_all as (cf' & E' & _ & _ & V). assert (cf' = cf) by congruence. subst cf'.
  destruct (V e C I HC Inv) as (N & N1 & N2 & N3).
  exact (normal_equations K FK X fs ns (points S A w e) (op_at outputs) N C (fp_names _ _ _ _ _ _ _ _ _ Fp) N2 N3 n Hn).
Qed.

Theorem fit_recovers e C D : inside e (without T A) -> coefficients_at cf e C -> invertible K np_inv ns (gram_at K X fs (points S A w e)) ->
  (forall p, In p (points S A w e) -> op_at outputs p = poly_at K X fs ns D p) -> forall n, In n ns -> C n = D n.
Proof.
  intros I HC Inv H n Hn. destruct fit_all as (cf' & E' & _ & _ & V). assert (cf' = cf) by congruence. subst cf'.
  destruct (V e C I HC Inv) as (N & N1 & N2 & N3).
  exact (recovery K FK X fs ns (points S A w e) (op_at outputs) N C (fp_names _ _ _ _ _ _ _ _ _ Fp) N1 N3 D H n Hn).
Qed.

Theorem fit_split e C D : inside e (without T A) -> coefficients_at cf e C -> invertible K np_inv ns (gram_at K X fs (points S A w e)) ->
  squared_error K X fs ns (points S A w e) (op_at outputs) D = plus K (squared_error K X fs ns (points S A w e) (op_at outputs) C)
    (sum_points K (points S A w e) (fun p => times K (minus K (poly_at K X fs ns D p) (poly_at K X fs ns C p))
                                                    (minus K (poly_at K X fs ns D p) (poly_at K X fs ns C p)))).
Proof.
  intros I HC Inv. destruct fit_all as (cf' & E' & _ & _ & V). assert (cf' = cf) by congruence. subst cf'.
  destruct (V e C I HC Inv) as (N & N1 & N2 & N3).
  exact (residual_split K FK X fs ns (points S A w e) (op_at outputs) N C (fp_names _ _ _ _ _ _ _ _ _ Fp) N2 N3 D).
Qed.
End Laws.

Section Call.
Context {F : Type} (K : arith F) (FK : is_field K).
Variables (inputs x : vec F) (center : option (vec F)) (ns : list string) (fs : string -> list string) (S : shape) (X : env -> string -> F).
Hypothesis Cx : centered K inputs center = Ok x.
Hypothesis Vx : input_ok x.
Hypothesis Sx : broadcast_shapes (map op_shape (leaves x)) = Ok S.
Hypothesis Rx : forall e, inside e S -> input_reads x e (X e).
Hypothesis Nn : NoDup ns.

Lemma names_known : (forall n, In n ns -> factors n (fs n) /\ forall k, In k (fs n) -> exists o, input_part x k o) ->
  forall n, In n ns -> factors n (fs n) /\ incl (fs n) (input_names x).
Proof. intros H n Hn. destruct (H n Hn) as [H1 H2]. split; [exact H1|]. intros k Hk. apply input_name; auto. Qed.

Theorem design_values : (forall n, In n ns -> factors n (fs n) /\ forall k, In k (fs n) -> exists o, input_part x k o) ->
  exists d, design_matrix K (Some ns) center inputs = Ok d /\ map fst d = ns /\
    forall n o, In (n, o) d -> op_wf o /\ op_shape o = (if String.eqb n "" then [] else S) /\
      forall e, inside e S -> op_at o e = term_at K X fs n e.
Proof.
  intros H. destruct (design_ok K FK inputs x center S X Cx Vx Sx Rx ns fs Nn (names_known H)) as (d & Ed & Kd & Td).
  exists d. split; [exact Ed|]. split; [exact Kd|]. intros n o Ho.
  assert (D : dget d n = Some o) by (apply dget_NoDup; [unfold dkeys; now rewrite Kd|exact Ho]).
  destruct (Td n o D) as ((W & _ & V) & T1 & T2). split; [exact W|]. split; [|exact V].
  destruct (String.eqb_spec n "") as [E|E]; [auto|]. apply (full_wf _ _ _ (T1 E)).
Qed.

Theorem design_refused : (exists n l k, In n ns /\ factors n l /\ In k l /\ ~ exists o, input_part x k o) ->
  design_matrix K (Some ns) center inputs = Err ValueError.
Proof.
  intros (n & l & k & Hn & Fl & Hk & H). apply (design_unknown K FK inputs x center S X Cx Vx Sx Rx ns n l Hn Fl).
  intros I. apply H. apply input_name; auto.
Qed.

Theorem call_values cf B : (forall n, In n ns -> factors n (fs n) /\ forall k, In k (fs n) -> exists o, input_part x k o) ->
  map fst cf = ns -> (forall n o, In (n, o) cf -> op_wf o /\ fits_in (op_shape o) B) -> NoDup (dkeys B) -> incl S B ->
  exists r, poly_call K (Some ns) center cf inputs = Ok r /\ op_wf r /\ fits_in (op_shape r) B /\
    forall e C, inside e B -> coefficients_at cf e C -> op_at r e = poly_at K X fs ns C e.
Proof.
  intros H Kc Gc NB SB. destruct (design_values H) as (d & Ed & Kd & Td). unfold poly_call. rewrite Ed. cbn [bind].
  set (Cf := fun k e => match dget cf k with Some o => op_at o e | None => zero K end).
  destruct (dot_reads K FK B d cf (fun k => term_at K X fs k) Cf NB) as (r & Er & Wr & Fr & Vr).
  - now rewrite Kd.
  - intros k. rewrite Kd, Kc. tauto.
  - intros k o Ho. destruct (Td k o Ho) as (W & Sh & V). split; [exact W|]. split.
    + rewrite Sh. destruct (String.eqb k ""); [intros ? ? []|]. intros ax n Hx. exists n. split; [now apply SB|now right].
    + intros e I. apply V. intros ax n Hx. apply (I ax n). auto.
  - intros k o Ho. destruct (Gc k o (dget_In _ _ _ Ho)) as [W Fo]. split; [exact W|]. split; [exact Fo|]. intros e _. unfold Cf. now rewrite Ho.
  - exists r. split; [exact Er|]. split; [exact Wr|]. split; [exact Fr|]. intros e C I HC. rewrite Vr by exact I. rewrite Kd. unfold poly_at.
    apply sum_over_ext. intros n Hn. f_equal. unfold Cf. rewrite <- Kc in Hn. change (In n (dkeys cf)) in Hn. apply dget_Some_key in Hn.
    destruct Hn as (o & Ho). rewrite Ho. symmetry. apply HC. now apply dget_In.
Qed.
End Call.

(** ** Rational numbers *)

Lemma square_nonneg (a : Qc) : (0 <= a * a)%Qc.
Proof. unfold Qcle. rewrite StrataFacts.this_mul. change (this 0) with (0 # 1)%Q. nra. Qed.

Lemma squares_nonneg l (f : env -> Qc) : (0 <= sum_points qK l (fun p => times qK (f p) (f p)))%Qc.
Proof.
  induction l as [|p l IH]; [apply Qcle_refl|]. cbn [sum_points fold_right]. fold (sum_points qK l (fun p => times qK (f p) (f p))).
  cbn [plus times qK]. replace 0%Qc with (0 + 0)%Qc by reflexivity. apply Qcplus_le_compat; [apply square_nonneg|exact IH].
Qed.

Lemma le_plus (a b : Qc) : (0 <= b)%Qc -> (a <= a + b)%Qc.
Proof. intros H. rewrite <- (Qcplus_0_r a) at 1. apply Qcplus_le_compat; [apply Qcle_refl|exact H]. Qed.

Theorem fit_least np_inv (inputs x : vec Qc) center ns fs outputs axis w S T A X cf e C D :
  centered qK inputs center = Ok x -> fit_problem x ns fs outputs axis w S T A ->
  (forall e, inside e S -> input_reads x e (X e)) -> coefficients qK np_inv (Some ns) center inputs outputs axis w = Ok cf ->
  inside e (without T A) -> coefficients_at cf e C -> invertible qK np_inv ns (gram_at qK X fs (points S A w e)) ->
  (squared_error qK X fs ns (points S A w e) (op_at outputs) C <= squared_error qK X fs ns (points S A w e) (op_at outputs) D)%Qc.
Proof.
  intros Cx Fp Rx Ec I HC Inv.
  rewrite (fit_split qK qK_field np_inv inputs x center ns fs outputs axis w S T A X Cx Fp Rx cf Ec e C D I HC Inv).
  cbn [plus qK]. apply le_plus. apply squares_nonneg.
Qed.

(** the center is subtracted, leaf by leaf *)
Lemma centered_leaves {F} (K : arith F) (inputs x : vec F) (center : vec F) :
  vec_wf inputs -> vec_wf center -> centered K inputs (Some center) = Ok x ->
  forall p o, leaf_at x p = Some o -> exists a b, reaches inputs p = Some a /\ reaches center p = Some b /\ op_wf o /\
    broadcast_shapes (op_shapes [a; b]) = Ok (op_shape o) /\
    forall e, inside e (op_shape o) -> op_at o e = minus K (op_at a e) (op_at b e).
Proof.
  intros Wi Wc E p o Lo. unfold centered in E.
  destruct (VectorFacts.vec_ufunc_leaves _ [inputs; center] x (Forall_cons _ Wi (Forall_cons _ Wc (Forall_nil _))) E p o Lo) as (os & R & W & S & V & _).
  inversion R as [|i a l os1 Ra R1]; subst. inversion R1 as [|c b l os2 Rb R2]; subst. inversion R2; subst.
  exists a, b. auto 10.
Qed.
