(** Facts on the inverse of matrices with four or more rows. *)
From Coq Require Import String List Arith ZArith Bool Lia Field_theory Field.
From Verif Require Import Base BaseFacts Numpy NumpyFacts Shapes Scalar Elementwise Vector Matrix Poly BigMatrix
  Spec SpecNumeric SpecVector SpecMatrix SpecPoly SpecInverse ShapesFacts AlignFacts MatrixFacts MatrixLaws PolyFacts PolyFitFacts.
Import ListNotations.
Open Scope nat_scope.
Open Scope list_scope.

(** ** Matching by position *)

Definition partner (rs cs : list string) (r : string) : string :=
  match dget (combine rs cs) r with Some c => c | None => ""%string end.

Lemma keys_combine (rs cs : list string) : length rs = length cs -> dkeys (combine rs cs) = rs.
Proof.
  unfold dkeys. revert cs. induction rs as [|r rs IH]; intros [|c cs] L; cbn in *; try discriminate; [reflexivity|].
  f_equal. apply IH. lia.
Qed.

Lemma paired_partner rs cs r c : NoDup rs -> length rs = length cs -> paired rs cs r c <-> In r rs /\ c = partner rs cs r.
Proof.
  intros N L. unfold paired, partner. split.
  - intros H. split; [eapply in_combine_l; eauto|]. rewrite (dget_NoDup (combine rs cs) r c); [reflexivity|now rewrite keys_combine|exact H].
  - intros [Hr ->]. rewrite <- (keys_combine rs cs L) in Hr. apply dget_Some_key in Hr. destruct Hr as (c & Hc). rewrite Hc. now apply dget_In.
Qed.

Lemma map_partner rs cs : NoDup rs -> length rs = length cs -> map (partner rs cs) rs = cs.
Proof.
  revert cs. induction rs as [|r rs IH]; intros [|c cs] N L; cbn in L; try discriminate; [reflexivity|]. inversion N; subst. cbn [map].
  unfold partner at 1. cbn [combine dget]. rewrite String.eqb_refl. f_equal. transitivity (map (partner rs cs) rs); [|apply IH; auto; lia].
  apply map_ext_in. intros x Hx. unfold partner. cbn [combine dget]. destruct (String.eqb_spec x r) as [->|]; [contradiction|].
  reflexivity.
Qed.

(** ** Algebra *)

Section Algebra.
Context {F : Type} (K : arith F) (FK : is_field K).
Let Fth : field_theory (zero K) (one K) (plus K) (times K) (minus K) (neg K) (over K) (over K (one K)) eq := proj1 FK.
Add Field Kbig : Fth.

Lemma sum_over_map l (t : string -> string) f : sum_over K (map t l) f = sum_over K l (fun k => f (t k)).
Proof. induction l as [|x l IH]; [reflexivity|]. cbn [map sum_over fold_right]. unfold sum_over in IH. now rewrite IH. Qed.

Lemma delta_sym i j : delta K i j = delta K j i.
Proof. unfold delta. now rewrite String.eqb_sym. Qed.

Lemma sum_delta_r ns i f : NoDup ns -> In i ns -> sum_over K ns (fun k => times K (f k) (delta K k i)) = f i.
Proof.
  intros N H. rewrite <- (sum_delta K FK ns i f N H). apply sum_over_ext. intros k _. rewrite (delta_sym i k). ring.
Qed.

Section One.
Variables (ns : list string) (M N : string -> string -> F).
Hypothesis Nn : NoDup ns.
Hypothesis NM : forall i j, In i ns -> In j ns -> sum_over K ns (fun k => times K (N i k) (M k j)) = delta K i j.
Hypothesis MN : forall i j, In i ns -> In j ns -> sum_over K ns (fun k => times K (M i k) (N k j)) = delta K i j.

(** inverses are unique *)
Lemma left_unique R : (forall i j, In i ns -> In j ns -> sum_over K ns (fun k => times K (R i k) (M k j)) = delta K i j) ->
  forall i j, In i ns -> In j ns -> R i j = N i j.
Proof.
  intros H i j Hi Hj. rewrite <- (sum_delta_r ns j (R i) Nn Hj).
  rewrite (sum_over_ext K ns _ (fun k => times K (R i k) (sum_over K ns (fun x => times K (M k x) (N x j))))).
  - rewrite (matrix_assoc K FK ns R M (fun x => N x j) i).
    rewrite (sum_over_ext K ns _ (fun x => times K (delta K i x) (N x j))) by (intros x Hx; now rewrite H).
    exact (sum_delta K FK ns i (fun x => N x j) Nn Hi).
  - intros k Hk. now rewrite MN.
Qed.

Lemma right_unique R : (forall i j, In i ns -> In j ns -> sum_over K ns (fun k => times K (M i k) (R k j)) = delta K i j) ->
  forall i j, In i ns -> In j ns -> R i j = N i j.
Proof.
  intros H i j Hi Hj. rewrite <- (sum_delta K FK ns i (fun k => R k j) Nn Hi).
  rewrite (sum_over_ext K ns _ (fun k => times K (sum_over K ns (fun x => times K (N i x) (M x k))) (R k j)))
    by (intros k Hk; now rewrite NM).
  rewrite <- (matrix_assoc K FK ns N M (fun k => R k j) i).
  rewrite (sum_over_ext K ns _ (fun x => times K (N i x) (delta K x j))) by (intros x Hx; now rewrite H).
  exact (sum_delta_r ns j (N i) Nn Hj).
Qed.

Lemma symmetric_left : (forall i j, In i ns -> In j ns -> M i j = M j i) ->
  forall i j, In i ns -> In j ns -> sum_over K ns (fun k => times K (N k i) (M k j)) = delta K i j.
Proof.
  intros S i j Hi Hj. rewrite delta_sym, <- (MN j i Hj Hi). apply sum_over_ext. intros k Hk. rewrite (S k j) by assumption. ring.
Qed.

Lemma symmetric_right : (forall i j, In i ns -> In j ns -> M i j = M j i) ->
  forall i j, In i ns -> In j ns -> sum_over K ns (fun k => times K (M i k) (N j k)) = delta K i j.
Proof.
  intros S i j Hi Hj. rewrite delta_sym, <- (NM j i Hj Hi). apply sum_over_ext. intros k Hk. rewrite (S i k) by assumption. ring.
Qed.

End One.

Lemma transposed_symmetric ns M N : NoDup ns ->
  (forall i j, In i ns -> In j ns -> sum_over K ns (fun k => times K (N i k) (M k j)) = delta K i j) ->
  (forall i j, In i ns -> In j ns -> sum_over K ns (fun k => times K (M i k) (N k j)) = delta K i j) ->
  (forall i j, In i ns -> In j ns -> N i j = N j i) -> forall i j, In i ns -> In j ns -> M i j = M j i.
Proof.
  intros Nn NM MN S i j Hi Hj. symmetry. refine (left_unique ns N M Nn NM (fun i j => M j i) _ i j Hi Hj).
  intros a b Ha Hb. rewrite delta_sym, <- (NM b a Hb Ha). apply sum_over_ext. intros k Hk. rewrite (S b k) by assumption. ring.
Qed.

(** the transpose of the inverse is an inverse only of symmetric tables *)
Lemma transposed_left ns M N : NoDup ns ->
  (forall i j, In i ns -> In j ns -> sum_over K ns (fun k => times K (N i k) (M k j)) = delta K i j) ->
  (forall i j, In i ns -> In j ns -> sum_over K ns (fun k => times K (M i k) (N k j)) = delta K i j) ->
  (forall i j, In i ns -> In j ns -> sum_over K ns (fun k => times K (N k i) (M k j)) = delta K i j) <->
  (forall i j, In i ns -> In j ns -> M i j = M j i).
Proof.
  intros Nn NM MN. split; [|now apply symmetric_left]. intros H. apply (transposed_symmetric ns M N Nn NM MN).
  intros i j Hi Hj. symmetry. exact (left_unique ns M N Nn MN (fun i j => N j i) H i j Hi Hj).
Qed.

Lemma transposed_right ns M N : NoDup ns ->
  (forall i j, In i ns -> In j ns -> sum_over K ns (fun k => times K (N i k) (M k j)) = delta K i j) ->
  (forall i j, In i ns -> In j ns -> sum_over K ns (fun k => times K (M i k) (N k j)) = delta K i j) ->
  (forall i j, In i ns -> In j ns -> sum_over K ns (fun k => times K (M i k) (N j k)) = delta K i j) <->
  (forall i j, In i ns -> In j ns -> M i j = M j i).
Proof.
  intros Nn NM MN. split; [|now apply symmetric_right]. intros H. apply (transposed_symmetric ns M N Nn NM MN).
  intros i j Hi Hj. symmetry. exact (right_unique ns M N Nn NM (fun i j => N j i) H i j Hi Hj).
Qed.

(** ** The table of the inverse *)
Variable np_inv : list (list F) -> list (list F).

Definition table2 (B : shape) (rs cs : list string) (rows : dict (dict (operand F))) (G : string -> string -> env -> F) : Prop :=
  map fst rows = rs /\
  forall r row, dget rows r = Some row -> map fst row = cs /\ forall c o, dget row c = Some o -> reads B o (G r c).

Lemma table2_rows B rs cs rows G : table2 B rs cs rows G -> NoDup rs -> NoDup cs ->
  forall r row, In (r, row) rows -> map fst row = cs /\ forall o, In o (map snd row) -> op_wf o /\ fits_in (op_shape o) B.
Proof.
  intros [Kr H] N Nc r row Hr. assert (E : dget rows r = Some row) by (apply dget_NoDup; [unfold dkeys; now rewrite Kr|exact Hr]).
  destruct (H r row E) as [Kc Ho]. split; [exact Kc|]. intros o Hi. apply in_map_iff in Hi. destruct Hi as ([c o'] & <- & Hc).
  apply (reads_good B _ (G r c)). apply Ho. apply dget_NoDup; [unfold dkeys; now rewrite Kc|exact Hc].
Qed.

Lemma table2_values B rs cs rows G e : table2 B rs cs rows G -> NoDup rs -> NoDup cs -> inside e B ->
  map (fun o => op_at o e) (flat_map (fun kv : string * dict (operand F) => map snd (snd kv)) rows) =
  flat_map (fun r => map (fun c => G r c e) cs) rs.
Proof.
  intros Gr N Nc I. assert (Q : forall l, incl l rows ->
    map (fun o => op_at o e) (flat_map (fun kv : string * dict (operand F) => map snd (snd kv)) l) =
    flat_map (fun r => map (fun c => G r c e) cs) (map fst l)).
  { induction l as [|[r row] l IH]; intros Il; [reflexivity|]. cbn [flat_map map fst snd]. rewrite map_app, IH by (intros z Hz; apply Il; now right).
    f_equal. destruct Gr as [Kr H].
    assert (E : dget rows r = Some row) by (apply dget_NoDup; [unfold dkeys; now rewrite Kr|apply Il; now left]).
    destruct (H r row E) as [Kc Ho]. rewrite <- Kc, !map_map. apply map_ext_in. intros [c o] Hc. cbn [fst snd].
    apply (reads_at B); [|exact I]. apply Ho. apply dget_NoDup; [unfold dkeys; now rewrite Kc|exact Hc]. }
  rewrite Q by apply incl_refl. destruct Gr as [-> _]. reflexivity.
Qed.

Lemma seq_combine (ns : list string) i r : In (i, r) (combine (seq 0 (length ns)) ns) <-> nth_error ns i = Some r.
Proof.
  assert (Q : forall m, In (i, r) (combine (seq m (length ns)) ns) <-> m <= i /\ nth_error ns (i - m) = Some r).
  { induction ns as [|n ns IH]; intros m; cbn [length seq combine In].
    - split; [intros []|]. intros [_ H]. destruct (i - m); discriminate.
    - rewrite IH. split.
      + intros [E|[L H]]; [injection E as <- <-; rewrite Nat.sub_diag; auto|]. split; [lia|].
        replace (i - m) with (S (i - S m)) by lia. exact H.
      + intros [L H]. destruct (Nat.eq_dec m i) as [->|D]; [rewrite Nat.sub_diag in H; injection H as <-; auto|]. right. split; [lia|].
        replace (i - m) with (S (i - S m)) in H by lia. exact H. }
  rewrite Q, Nat.sub_0_r. split; [tauto|]. intros H. split; [lia|exact H].
Qed.

Lemma combine_nth_error (rs cs : list string) i r c : nth_error rs i = Some r -> nth_error cs i = Some c -> In (r, c) (combine rs cs).
Proof.
  revert cs i. induction rs as [|x rs IH]; intros [|y cs] [|i] Hr Hc; cbn in *; try discriminate.
  - left. congruence.
  - right. eauto.
Qed.

Lemma combine_position (rs cs : list string) r c : In (r, c) (combine rs cs) -> exists i, nth_error rs i = Some r /\ nth_error cs i = Some c.
Proof.
  revert cs. induction rs as [|x rs IH]; intros [|y cs] H; cbn in H; try contradiction. destruct H as [E|H].
  - injection E as -> ->. now exists 0.
  - destruct (IH cs H) as (i & H1 & H2). now exists (S i).
Qed.

Lemma inverse_flat_large B rs cs rows G : NoDup (dkeys B) -> NoDup rs -> NoDup cs -> length rs = length cs -> 4 <= length rs ->
  table2 B rs cs rows G -> square rows = true ->
  exists nd, inverse_flat K np_inv rows = Ok nd /\ map fst nd = cs /\
    (forall c row, In (c, row) nd -> map fst row = rs /\ forall r o, In (r, o) row -> op_wf o /\ fits_in (op_shape o) B) /\
    forall e N, inside e B -> np_inv (rows_by rs cs (fun r c => G r c e)) = rows_by cs rs N ->
      forall r c r' c', paired rs cs r c -> paired rs cs r' c' -> look K nd c r' e = N c' r.
Proof.
  intros NB N Nc L L4 Gr Sq. assert (Ne : rs <> []) by (intros ->; simpl in L4; lia).
  unfold inverse_flat. rewrite Sq. cbn [negb].
  assert (Gd := table2_rows B rs cs rows G Gr N Nc). assert (Kr := proj1 Gr).
  assert (Lr : length rows = length rs) by (rewrite <- Kr; now rewrite map_length).
  rewrite Lr. destruct (Nat.ltb_spec (length rs) 4) as [X|_]; [lia|].
  assert (Kc : match rows with [] => [] | (_, row) :: _ => map fst row end = cs).
  { destruct rows as [|[r p] rows']; [simpl in Kr; congruence|]. apply (Gd r p (or_introl eq_refl)). }
  rewrite Kc, Kr. set (entries := flat_map (fun kv : string * dict (operand F) => map snd (snd kv)) rows).
  assert (We : Forall op_wf entries /\ Forall (fun o => fits_in (op_shape o) B) entries).
  { split; apply Forall_forall; intros o Ho; apply in_flat_map in Ho; destruct Ho as ([r row] & Hr & Ho); cbn [snd] in Ho;
      now apply (proj2 (Gd r row Hr)). }
  destruct We as [We Fe].
  set (val := fun (i j : nat) (e : env) => nth i (nth j (np_inv (rows_by rs cs (fun r c => G r c e))) []) (zero K)).
  assert (Ent : forall i j, exists o, op_ufunc (fun l => nth i (nth j (np_inv (chunks (length rs) l)) []) (zero K)) entries = Ok o /\ reads B o (val i j)).
  { intros i j. destruct (ufunc_reads (fun l => nth i (nth j (np_inv (chunks (length rs) l)) []) (zero K)) B entries NB We Fe) as (o & E & R).
    exists o. split; [exact E|]. eapply reads_ext; [exact R|]. intros e I. cbv beta. unfold entries.
    rewrite (table2_values B rs cs rows G e Gr N Nc I), chunks_flat; [reflexivity|]. intros r Hr. now rewrite map_length. }
  assert (Kcs : map snd (combine (seq 0 (length rs)) cs) = cs) by (apply map_snd_combine; rewrite seq_length; lia).
  assert (Krs : map snd (combine (seq 0 (length rs)) rs) = rs) by (apply map_snd_combine; now rewrite seq_length).
  destruct (mapM_dict (V := dict (operand F)) snd (fun ic : nat * string =>
      row <- mapM (fun jr : nat * string =>
               x <- op_ufunc (fun l => nth (fst ic) (nth (fst jr) (np_inv (chunks (length rs) l)) []) (zero K)) entries ;; Ok (snd jr, x))
             (combine (seq 0 (length rs)) rs) ;; Ok (snd ic, row))
    (fun ic row => map fst row = rs /\ forall jr, In jr (combine (seq 0 (length rs)) rs) ->
        exists o, dget row (snd jr) = Some o /\ reads B o (val (fst ic) (fst jr))) (combine (seq 0 (length rs)) cs)) as (nd & En & Kn & Pn).
  - now rewrite Kcs.
  - intros ic Hi. destruct (mapM_dict snd (fun jr : nat * string =>
               x <- op_ufunc (fun l => nth (fst ic) (nth (fst jr) (np_inv (chunks (length rs) l)) []) (zero K)) entries ;; Ok (snd jr, x))
               (fun jr o => reads B o (val (fst ic) (fst jr))) (combine (seq 0 (length rs)) rs)) as (row & Er & Kr' & Pr).
    + now rewrite Krs.
    + intros jr Hj. destruct (Ent (fst ic) (fst jr)) as (o & Eo & Ro). exists o. rewrite Eo. auto.
    + exists row. rewrite Er. split; [reflexivity|]. split; [now rewrite Kr', Krs|exact Pr].
  - exists nd. split; [exact En|]. rewrite Kcs in Kn. split; [exact Kn|].
    assert (Look : forall c r e i j, nth_error cs i = Some c -> nth_error rs j = Some r -> inside e B -> look K nd c r e = val i j e).
    { intros c r e i j Hi Hj I. apply seq_combine in Hi, Hj. rewrite <- L in Hi.
      destruct (Pn (i, c) Hi) as (row & D & _ & Q). destruct (Q (j, r) Hj) as (o & Do & Ro). cbn [fst snd] in *.
      assert (D' : @dget (dict (operand F)) nd c = Some row) by exact D. unfold look. rewrite D', Do. now apply (reads_at B). }
    split.
    + intros c row Hc. assert (Hc' : In c cs) by (rewrite <- Kn; now apply (in_map fst) in Hc). apply In_nth_error in Hc'. destruct Hc' as (i & Hi).
      apply seq_combine in Hi. rewrite <- L in Hi. destruct (Pn (i, c) Hi) as (row' & D & Kr' & Q). cbn [fst snd] in *.
      assert (D' : dget nd c = Some row) by (apply dget_NoDup; [unfold dkeys; now rewrite Kn|exact Hc]).
      assert (row' = row) by congruence. subst row'. split; [exact Kr'|]. intros r o Ho.
      assert (Hr : In r rs) by (rewrite <- Kr'; now apply (in_map fst) in Ho). apply In_nth_error in Hr. destruct Hr as (j & Hj).
      apply seq_combine in Hj. destruct (Q (j, r) Hj) as (o' & Do & Ro). cbn [fst snd] in *.
      assert (Do' : dget row r = Some o) by (apply dget_NoDup; [unfold dkeys; now rewrite Kr'|exact Ho]).
      assert (o' = o) by congruence. subst o'. eapply reads_good. exact Ro.
    + intros e Nv I EN r c r' c' H H'. apply combine_position in H, H'. destruct H as (i & Hr & Hc), H' as (j & Hr' & Hc').
      rewrite (Look c r' e i j Hc Hr' I). unfold val. rewrite EN. unfold rows_by.
      assert (E : nth j (map (fun r0 => map (Nv r0) rs) cs) [] = map (Nv c') rs).
      { apply nth_error_nth. rewrite nth_error_map, Hc'. reflexivity. }
      rewrite E. apply nth_error_nth. rewrite nth_error_map, Hr. reflexivity.
Qed.
End Algebra.
