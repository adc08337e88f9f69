(** Newton's method with the shear of C80 as the Jacobian: it goes round in circles. *)
From Coq Require Import Ascii String List Arith ZArith Bool Lia QArith Qcanon.
From Verif Require Import Base Numpy Shapes Scalar Elementwise Vector Matrix Transform Poly BigMatrix Jacobian VectorReduce VectorOptimize.
From Verif Require Import Spec SpecVector SpecMatrix SpecTransform SpecJacobian SpecVectorReduce SpecOptimize SpecInverse SpecVectorOptimize.
From Verif Require Import BaseFacts ShapesFacts VectorFacts VectorIndexFacts MatrixFacts MatrixLaws TransformFacts JacobianFacts VectorReduceFacts BigInverseLaws VectorOptimizeFacts.
From Verif Require Prop29 Prop80 JacobianLaws.
Import ListNotations.
Open Scope nat_scope.
Open Scope list_scope.

Local Notation qK := MatrixLaws.qK.
Local Notation row4 := Prop80.row4.
Local Notation shear := Prop80.shear.
Local Notation cols := Prop80.cols.

Definition shadow {L} (t : tree L) : tree unit := map_tree (fun _ => tt) t.

Lemma shadow_kind {L} (t : tree L) p : shadow t = p -> of_kind p t.
Proof. intros <- c. symmetry. apply map_tree_kind. Qed.

Open Scope string_scope.
Definition p4 : tree unit := MatrixLaws.flat "Nd" ["a"; "b"; "c"; "d"] [tt; tt; tt; tt].
Definition q4 : tree unit := MatrixLaws.flat "Nd" ["w"; "x"; "y"; "z"] [tt; tt; tt; tt].

Lemma space_flat ty ns : NoDup ns -> ns <> [] -> space (MatrixLaws.flat ty ns (map (fun _ => tt) ns)).
Proof.
  intros N H. split; [unfold is_node, MatrixLaws.flat; eauto|]. split; [apply flat_tree; [now rewrite map_length|exact N|now apply Forall_forall]|].
  split; [now rewrite flat_names by now rewrite map_length|]. apply flat_filled; [now rewrite map_length|]. now destruct ns.
Qed.

Lemma space_p4 : space p4.
Proof. apply (space_flat "Nd" ["a"; "b"; "c"; "d"]); [repeat constructor; simpl; intuition discriminate|discriminate]. Qed.
Lemma space_q4 : space q4.
Proof. apply (space_flat "Nd" ["w"; "x"; "y"; "z"]); [repeat constructor; simpl; intuition discriminate|discriminate]. Qed.

Definition none : env := fun _ => 0%nat.
Lemma inside_none e : inside e [].
Proof. intros ax n []. Qed.

Lemma shear_between : between [] p4 q4 shear /\ forall row, In row (leaves shear) -> of_kind p4 row.
Proof.
  destruct (Prop80.matrix4_ok 1 1 0 0 0 1 0 0 0 0 1 0 0 0 0 1) as (Mk & Fm & Oc & L & L4). fold shear in Mk, Fm, Oc, L.
  assert (R : forall row, In row (leaves shear) -> of_kind p4 row).
  { intros row [<- |[<- |[<- |[<- |[]]]]]; apply shadow_kind; reflexivity. }
  split; [|exact R]. split; [exact Mk|]. split; [exact Fm|]. split; [apply shadow_kind; reflexivity|].
  split; [intros row Hr c; rewrite (Oc row Hr); tauto|]. intros row Hr. apply kind_type, R, Hr.
Qed.

Definition M4 (r c : string) : Qc := entry qK shear r c none.
Definition N4 (c r : string) : Qc := if String.eqb c "a" && String.eqb r "x" then (- (1))%Qc else
    if (String.eqb c "a" && String.eqb r "w") || (String.eqb c "b" && String.eqb r "x") || (String.eqb c "c" && String.eqb r "y") ||
       (String.eqb c "d" && String.eqb r "z") then 1%Qc else 0%Qc.

Lemma M4_reads e : matrix_reads shear e M4.
Proof.
  intros r c o (a & row & Hr & <- & b & Hc & <-). assert (Q := entry_reads qK shear none (proj1 (proj1 shear_between)) _ _ o (ex_intro _ a (ex_intro _ row (conj Hr (conj eq_refl (ex_intro _ b (conj Hc eq_refl))))))).
  unfold M4. rewrite Q. destruct (proj1 shear_between) as (Mk & Fm & _).
  assert (Fo := Fm _ _ o (ex_intro _ a (ex_intro _ row (conj Hr (conj eq_refl (ex_intro _ b (conj Hc eq_refl))))))).
  apply op_at_near.
  - assert (Rk := tree_ok_leaf_at vector_ok shear a row (proj1 (proj2 Mk)) Hr). exact (tree_ok_leaf_at op_wf row b o (proj1 (proj2 Rk)) Hc).
  - rewrite (no_axes o Fo). intros ax n [].
Qed.

Lemma shear_two_sided : two_sided qK (names q4) (names p4) M4 N4.
Proof.
  split; intros a b Ha Hb; destruct Ha as [<- |[<- |[<- |[<- |[]]]]], Hb as [<- |[<- |[<- |[<- |[]]]]];
      apply Qc_is_canon; vm_compute; reflexivity.
Qed.

(** the function and the tolerance *)
Definition f4 (e : env) (V : string -> Qc) (r : string) : Qc := sum_over qK (names p4) (fun c => times qK (M4 r c) (V c)).
Definition half : Qc := Q2Qc (1 # 2).
Definition T4 (c : string) : Qc := half.

Lemma f4_realises : realises [] p4 q4 (matvec qK shear) f4.
Proof.
  intros v Mv. destruct (matvec_reads qK MatrixLaws.qK_field [] (NoDup_nil _) p4 q4 shear v space_p4 space_q4 (proj1 shear_between) Mv) as (w & E & Mw & R).
  exists w. split; [exact E|]. split; [exact Mw|]. intros e V I RV. exact (R e M4 V I (M4_reads e) RV).
Qed.

Lemma f4_slopes : slopes [] p4 q4 (fun _ => Ok shear) (fun _ _ => M4).
Proof.
  intros v Mv. exists shear. split; [reflexivity|]. split; [exact (proj1 shear_between)|]. split; [exact (proj2 shear_between)|].
  intros e V _ _. apply M4_reads.
Qed.

Lemma f4_w e V : f4 e V "w" = (V "a" + V "b")%Qc.
Proof.
  unfold f4. change (names p4) with ["a"; "b"; "c"; "d"]. unfold sum_over. cbn [map fold_right].
  replace (M4 "w" "a") with 1%Qc by (apply Qc_is_canon; vm_compute; reflexivity).
  replace (M4 "w" "b") with 1%Qc by (apply Qc_is_canon; vm_compute; reflexivity).
  replace (M4 "w" "c") with 0%Qc by (apply Qc_is_canon; vm_compute; reflexivity).
  replace (M4 "w" "d") with 0%Qc by (apply Qc_is_canon; vm_compute; reflexivity).
  change (plus qK) with Qcplus. change (times qK) with Qcmult. change (zero qK) with 0%Qc. ring.
Qed.

Lemma f4_x e V : f4 e V "x" = V "b".
Proof.
  unfold f4. change (names p4) with ["a"; "b"; "c"; "d"]. unfold sum_over. cbn [map fold_right].
  replace (M4 "x" "a") with 0%Qc by (apply Qc_is_canon; vm_compute; reflexivity).
  replace (M4 "x" "b") with 1%Qc by (apply Qc_is_canon; vm_compute; reflexivity).
  replace (M4 "x" "c") with 0%Qc by (apply Qc_is_canon; vm_compute; reflexivity).
  replace (M4 "x" "d") with 0%Qc by (apply Qc_is_canon; vm_compute; reflexivity).
  change (plus qK) with Qcplus. change (times qK) with Qcmult. change (zero qK) with 0%Qc. ring.
Qed.

Definition z (n : Z) : Qc := Q2Qc (inject_Z n).
Definition orbit : list (Qc * Qc) := [(z 1, z 0); (z 0, z 1); (z (-1), z 1); (z (-1), z 0); (z 0, z (-1)); (z 1, z (-1))].

Lemma orbit_next a b : In (a, b) orbit -> In ((- b)%Qc, (a + b)%Qc) orbit.
Proof.
  assert (E1 : forall x y u v, this x = this u -> this y = this v -> (x, y) = (u, v)).
  { intros x y u v H1 H2. f_equal; apply Qc_is_canon; [rewrite H1|rewrite H2]; reflexivity. }
  intros [H|[H|[H|[H|[H|[H|[]]]]]]]; injection H as <- <-.
  - right; left. apply E1; vm_compute; reflexivity.
  - right; right; left. apply E1; vm_compute; reflexivity.
  - right; right; right; left. apply E1; vm_compute; reflexivity.
  - right; right; right; right; left. apply E1; vm_compute; reflexivity.
  - right; right; right; right; right; left. apply E1; vm_compute; reflexivity.
  - left. apply E1; vm_compute; reflexivity.
Qed.

Lemma orbit_large a b : In (a, b) orbit -> Prop29.qless (Prop29.qabs (a + b)) half = false \/ Prop29.qless (Prop29.qabs b) half = false.
Proof.
  intros [H|[H|[H|[H|[H|[H|[]]]]]]]; injection H as <- <-; first [left; vm_compute; reflexivity | right; vm_compute; reflexivity].
Qed.

Section Circle.
Variable np_inv : list (list Qc) -> list (list Qc).
Hypothesis EN : np_inv (rows_by (names q4) (names p4) M4) = rows_by (names p4) (names q4) N4.

Lemma shear_inverse : exists inv, m_inverse_any qK np_inv shear = Ok inv /\ between [] q4 p4 inv /\
  exists W, (forall e, matrix_reads inv e W) /\ (forall r, In r (names q4) -> W "a" r = if String.eqb r "w" then 1%Qc else 0%Qc) /\
    forall r, In r (names q4) -> W "b" r = if String.eqb r "w" then (- (1))%Qc else if String.eqb r "x" then 1%Qc else 0%Qc.
Proof.
  destruct shear_between as ((Mk & Fm & Km & Mc & Mt) & Rows).
  assert (Oc : ordered_columns shear (names p4)) by (intros row Hr; apply space_names; [exact space_p4|now apply Rows]).
  destruct (inverse_big qK np_inv [] shear (names p4) (NoDup_nil _) Mk Fm Oc) as (inv & row & E & Rp & Ik & Ki & Ni & Kr & If & X); [reflexivity|cbn; lia|].
  assert (Bi : between [] q4 p4 inv).
  { split; [exact Ik|]. split; [exact If|]. split; [intros x; rewrite Ki; apply Rows; exact (proj1 (row_prototype_ok shear row Mk Rp))|].
    split; [intros v Hv c; rewrite (proj2 (Kr v Hv)); change (names shear) with (names q4); tauto|]. intros v Hv. unfold type_name. rewrite (proj1 (Kr v Hv)). now rewrite Km. }
  exists inv. split; [exact E|]. split; [exact Bi|].
  exists (fun r c => entry qK inv r c none).
  assert (P : forall i r c, nth_error ["w"; "x"; "y"; "z"] i = Some r -> nth_error ["a"; "b"; "c"; "d"] i = Some c -> paired (names shear) (names p4) r c).
  { intros [|[|[|[|i]]]] r c H H'; cbn in H, H'; try (destruct i; discriminate); injection H as <-; injection H' as <-; cbn; auto. }
  split; [|split].
  - intros e r c o Po. rewrite (entry_reads qK inv none Ik r c o Po). apply op_at_near.
    + destruct Po as (a & rw & Hr & _ & b & Hc & _). assert (Rk := tree_ok_leaf_at vector_ok inv a rw (proj1 (proj2 Ik)) Hr). exact (tree_ok_leaf_at op_wf rw b o (proj1 (proj2 Rk)) Hc).
    + rewrite (no_axes o (If r c o Po)). intros ax n [].
  - intros r Hr. change (names q4) with ["w"; "x"; "y"; "z"] in Hr. cbv beta. destruct Hr as [<- |[<- |[<- |[<- |[]]]]].
    + rewrite (X none N4 (inside_none _) EN "w" "a" "w" "a" (P 0%nat _ _ eq_refl eq_refl) (P 0%nat _ _ eq_refl eq_refl)). reflexivity.
    + rewrite (X none N4 (inside_none _) EN "w" "a" "x" "b" (P 0%nat _ _ eq_refl eq_refl) (P 1%nat _ _ eq_refl eq_refl)). reflexivity.
    + rewrite (X none N4 (inside_none _) EN "w" "a" "y" "c" (P 0%nat _ _ eq_refl eq_refl) (P 2%nat _ _ eq_refl eq_refl)). reflexivity.
    + rewrite (X none N4 (inside_none _) EN "w" "a" "z" "d" (P 0%nat _ _ eq_refl eq_refl) (P 3%nat _ _ eq_refl eq_refl)). reflexivity.
  - intros r Hr. change (names q4) with ["w"; "x"; "y"; "z"] in Hr. cbv beta. destruct Hr as [<- |[<- |[<- |[<- |[]]]]].
    + rewrite (X none N4 (inside_none _) EN "x" "b" "w" "a" (P 1%nat _ _ eq_refl eq_refl) (P 0%nat _ _ eq_refl eq_refl)). reflexivity.
    + rewrite (X none N4 (inside_none _) EN "x" "b" "x" "b" (P 1%nat _ _ eq_refl eq_refl) (P 1%nat _ _ eq_refl eq_refl)). reflexivity.
    + rewrite (X none N4 (inside_none _) EN "x" "b" "y" "c" (P 1%nat _ _ eq_refl eq_refl) (P 2%nat _ _ eq_refl eq_refl)). reflexivity.
    + rewrite (X none N4 (inside_none _) EN "x" "b" "z" "d" (P 1%nat _ _ eq_refl eq_refl) (P 3%nat _ _ eq_refl eq_refl)). reflexivity.
Qed.

Local Notation state := (state_ok [] p4 q4 f4).
Local Notation pass := (vnewton_pass qK Prop29.qabs Prop29.qless np_inv (matvec qK shear) (fun _ => Ok shear)).

Lemma pass_circle t x v X : tolerance_of [] q4 T4 t -> state x v -> vector_reads x none X -> In (X "a", X "b") orbit ->
  exists flags x' v' X', pass t x v = Ok (Some (flags, x', v')) /\ state x' v' /\ vector_reads x' none X' /\ In (X' "a", X' "b") orbit.
Proof.
  intros Ht St RX HX.
  destruct (small_ok qK Prop29.qabs Prop29.qless [] (NoDup_nil _) p4 q4 f4 T4 space_q4 none (inside_none _) t x v Ht St) as (flags & b & Es & Ea & _ & _ & Hb).
  unfold vnewton_pass. rewrite Es. cbn [bind]. rewrite Ea. cbn [bind].
  assert (b = false) as ->.
  { destruct b; [|reflexivity]. exfalso. assert (Ab := proj1 Hb eq_refl).
    destruct (orbit_large _ _ HX) as [Z|Z].
    - assert (Q := Ab none X "w" (inside_none _) RX ltac:(cbn; auto)). rewrite f4_w in Q. unfold T4 in Q. congruence.
    - assert (Q := Ab none X "x" (inside_none _) RX ltac:(cbn; auto)). rewrite f4_x in Q. unfold T4 in Q. congruence. }
  destruct shear_inverse as (inv & Ei & Bi & W & RW & Wa & Wb). rewrite Ei. cbn [bind].
  destruct St as (Mx & Mv & Rv).
  destruct (matvec_reads qK MatrixLaws.qK_field [] (NoDup_nil _) q4 p4 inv v space_q4 space_p4 Bi Mv) as (cor & Ec & Mc & Rc). rewrite Ec. cbn [bind].
  destruct (vsub_reads qK [] (NoDup_nil _) p4 x cor space_p4 Mx Mc) as (x' & Ex & Mx' & Rx'). rewrite Ex. cbn [bind].
  destruct (f4_realises x' Mx') as (v' & Ev & Mv' & Rv'). rewrite Ev. cbn [bind].
  assert (R1 := Rx' none X _ (inside_none _) RX (Rc none W (f4 none X) (inside_none _) (RW none) (Rv none X (inside_none _) RX))).
  eexists flags, x', v', _. split; [reflexivity|]. split; [exact (conj Mx' (conj Mv' Rv'))|]. split; [exact R1|]. cbn beta.
  change (names q4) with ["w"; "x"; "y"; "z"]. unfold sum_over. cbn [map fold_right].
  rewrite !Wa, !Wb by (cbn; auto). cbn [String.eqb Ascii.eqb Bool.eqb].
  replace (_, _) with ((- X "b")%Qc, (X "a" + X "b")%Qc); [now apply orbit_next|].
  rewrite f4_w, f4_x. change (plus qK) with Qcplus. change (times qK) with Qcmult. change (zero qK) with 0%Qc. change (minus qK) with Qcminus. f_equal; ring.
Qed.

Lemma loop_circle t n : tolerance_of [] q4 T4 t -> forall i x v flags X, state x v -> vector_reads x none X -> In (X "a", X "b") orbit ->
  snd (vnewton_loop qK Prop29.qabs Prop29.qless np_inv (matvec qK shear) (fun _ => Ok shear) t n i x v flags) = Err ValueError.
Proof.
  intros Ht. induction n as [|n IH]; intros i x v flags X St RX HX; [reflexivity|]. cbn [vnewton_loop].
  destruct (pass_circle t x v X Ht St RX HX) as (flags' & x' & v' & X' & E & St' & RX' & HX'). rewrite E. cbn [snd]. exact (IH _ _ _ _ X' St' RX' HX').
Qed.

Theorem newton_circle n :
  snd (vroot_newton qK Prop29.qabs Prop29.qless np_inv (matvec qK shear) (fun _ => Ok shear) (row4 1 0 0 0) (Leaf (OpNum half)) n) = Err ValueError.
Proof.
  assert (Mg : member [] p4 (row4 1 0 0 0)).
  { split; [|split].
    - change (row4 1 0 0 0) with (MatrixLaws.flat "Nd" cols (leaves (row4 1 0 0 0))). Prop80.flat_ok; exact I.
    - intros c o (a & Ha & _). apply leaf_In in Ha. destruct Ha as [<- |[<- |[<- |[<- |[]]]]]; intros ax n' [].
    - apply shadow_kind. reflexivity. }
  assert (St : step_ok [] q4 (Leaf (OpNum half))).
  { split; [constructor; exact I|]. split; [intros c ty ns ty' ns' _ H; now rewrite JacobianLaws.kind_Leaf in H|].
    intros c _. exists (OpNum half). split; [destruct c; reflexivity|intros ax n' []]. }
  assert (Rt : step_reads q4 (Leaf (OpNum half)) (fun _ => 0%nat) T4).
  { intros c o _ H. assert (H' : Some (OpNum half) = Some o) by (rewrite <- H; destruct c; reflexivity). injection H' as <-. reflexivity. }
  destruct (start_ok qK MatrixLaws.qK_field [] (NoDup_nil _) p4 q4 (matvec qK shear) f4 T4 space_p4 space_q4 f4_realises _ _ Mg St Rt)
    as (t & x & v & flags & E & Th & Sx & Rg & _). unfold vroot_newton. rewrite E.
  apply (loop_circle t n Th 0 x v flags (fun c => if String.eqb c "a" then z 1 else z 0) Sx); [|left; reflexivity].
  apply Rg. intros c o (a & Ha & <-). destruct a as [|c [|c' a]]; [discriminate| |].
  - unfold row4, Prop80.row4 in Ha. rewrite leaf_at_tree in Ha. cbn [dget] in Ha. cbn [String.concat].
    destruct (String.eqb c "a"); [injection Ha as <-; reflexivity|].
    destruct (String.eqb c "b"); [injection Ha as <-; reflexivity|]. destruct (String.eqb c "c"); [injection Ha as <-; reflexivity|].
    destruct (String.eqb c "d"); [injection Ha as <-; reflexivity|discriminate].
  - unfold row4, Prop80.row4 in Ha. rewrite leaf_at_tree in Ha. cbn [dget] in Ha.
    destruct (String.eqb c "a"); [discriminate|]. destruct (String.eqb c "b"); [discriminate|]. destruct (String.eqb c "c"); [discriminate|]. destruct (String.eqb c "d"); discriminate.
Qed.
End Circle.
