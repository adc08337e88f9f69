(** The inverse of matrices with four or more rows. *)
From Coq Require Import String List Arith ZArith Bool Lia Field_theory Field.
From Verif Require Import Base BaseFacts Numpy NumpyFacts Shapes Scalar Elementwise Vector Matrix Poly BigMatrix
  Spec SpecNumeric SpecVector SpecMatrix SpecPoly SpecInverse ShapesFacts AlignFacts VectorFacts CartesianFacts MatrixFacts MatrixLaws PolyFacts PolyFitFacts BigInverseFacts.
Import ListNotations.
Open Scope nat_scope.
Open Scope list_scope.

Section Big.
Context {F : Type} (K : arith F) (FK : is_field K) (np_inv : list (list F) -> list (list F)).

Lemma rows_table2 B (m : matrix F) cs : matrix_ok m -> matrix_fits B m -> ordered_columns m cs ->
  table2 B (names m) cs (rows_of m) (entry K m).
Proof.
  intros M Fm H. split; [now apply rows_keys|]. intros r row Er. destruct (row_keys m r row M Er) as (v & Hv & _ & Kv).
  split; [rewrite Kv; now apply H|]. intros c o Eo. assert (Co : cell m r c o) by (apply cell_rows; [exact M|eauto]).
  assert (W := cell_ok m r c o M Co). assert (S := Fm r c o Co). eapply reads_ext; [now apply reads_self|].
  intros e _. symmetry. now apply entry_cell.
Qed.

Lemma columns_nodup (m : matrix F) cs : matrix_ok m -> ordered_columns m cs -> NoDup cs.
Proof.
  intros M H. destruct (first_leaf_intro m (matrix_tree m M)) as (row & R); [apply M|].
  destruct (first_leaf_head m row R) as (ls & Ls). assert (I : In row (leaves m)) by (rewrite Ls; now left).
  rewrite <- (H row I). apply (row_ok m row M). exact I.
Qed.

Lemma inverse_big B (m : matrix F) cs : NoDup (dkeys B) -> matrix_ok m -> matrix_fits B m -> ordered_columns m cs ->
  length cs = length (names m) -> 4 <= length cs ->
  exists inv row, m_inverse_any K np_inv m = Ok inv /\ row_prototype m = Ok row /\ matrix_ok inv /\ (forall q, kind inv q = kind row q) /\ names inv = cs /\
    (forall v, In v (leaves inv) -> (forall q, kind v q = kind m q) /\ names v = names m) /\ matrix_fits B inv /\
    forall e N, inside e B -> np_inv (rows_by (names m) cs (fun r c => entry K m r c e)) = rows_by cs (names m) N ->
      forall r c r' c', paired (names m) cs r c -> paired (names m) cs r' c' -> entry K inv c r' e = N c' r.
Proof.
  intros N M Fm H L L4. assert (Nc := columns_nodup m cs M H). assert (Nr : NoDup (names m)) by apply M.
  destruct (inverse_flat_large K np_inv B (names m) cs (rows_of m) (entry K m) N Nr Nc (eq_sym L) ltac:(lia)
     (rows_table2 B m cs M Fm H) (square_true m cs M H L)) as (nd & En & Kn & Gn & In_).
  destruct (transpose_spec K m cs M (ordered_has m cs H)) as (t & row & Et & Er & Mt & Kt & Nt & Lt & Ct).
  destruct (row_prototype_ok m row M Er) as (Ir & Rk & _).
  assert (Nt' : names t = cs) by (rewrite Nt; now apply H).
  unfold m_inverse_any. rewrite m_rows_eq by exact M. cbn [bind]. rewrite En, Et. cbn [bind].
  assert (Dn : forall i, In i cs -> exists nr, dget nd i = Some nr /\ map fst nr = names m /\
             forall c o, dget nr c = Some o -> op_wf o /\ fits_in (op_shape o) B).
  { intros i Hi. rewrite <- Kn in Hi. change (In i (dkeys nd)) in Hi. apply dget_Some_key in Hi. destruct Hi as (nr & D).
    exists nr. split; [exact D|]. apply dget_In in D. destruct (Gn i nr D) as [X Y]. split; [exact X|].
    intros c o Hc. apply dget_In in Hc. eauto. }
  destruct (build_matrix t nd Mt) as (inv & Ei & Mi & Ki & Ni & L1 & L2 & Ci).
  - intros p v Hp. assert (Hi : In (String.concat "." p) cs) by (rewrite <- Nt'; eapply leaf_named; eauto).
    destruct (Dn _ Hi) as (nr & D & Kr & Gr). exists nr. split; [exact D|]. intros c Hc.
    destruct (Lt v (leaf_In _ _ _ Hp)) as [_ Nv]. rewrite Nv, <- Kr in Hc. change (In c (dkeys nr)) in Hc.
    apply dget_Some_key in Hc. destruct Hc as (o & Ho). exists o. split; [exact Ho|]. apply (Gr c o Ho).
  - exists inv, row. split; [exact Ei|]. split; [exact Er|]. split; [exact Mi|]. split; [intros q; now rewrite Ki, Kt|].
    split; [now rewrite Ni|].
    assert (Lv : forall v, In v (leaves inv) -> (forall q, kind v q = kind m q) /\ names v = names m).
    { intros v Hv. destruct (In_leaf inv v (matrix_tree inv Mi) Hv) as (p & Hp). destruct (L2 p v Hp) as (w & Hw).
      destruct (L1 p w Hw) as (v' & Hv' & Kv & Nv). assert (v' = v) by congruence. subst v'.
      destruct (Lt w (leaf_In _ _ _ Hw)) as [Kw Nw]. split; [intros q; now rewrite Kv|now rewrite Nv]. }
    split; [exact Lv|].
    assert (Cell : forall i c, In i cs -> In c (names m) -> exists nr o, dget nd i = Some nr /\ dget nr c = Some o /\ cell inv i c o).
    { intros i c Hi Hc. destruct (Dn i Hi) as (nr & D & Kr & Gr).
      assert (Hc' : In c (dkeys nr)) by (unfold dkeys; now rewrite Kr). apply dget_Some_key in Hc'. destruct Hc' as (o & Ho).
      exists nr, o. split; [exact D|]. split; [exact Ho|]. apply Ci. split; [|eauto].
      rewrite <- Nt' in Hi. destruct (named_leaf t i (matrix_tree t Mt) Hi) as (p & w & Hp & <-). exists p, w. split; [exact Hp|].
      split; [reflexivity|]. destruct (Lt w (leaf_In _ _ _ Hp)) as [_ ->]. exact Hc. }
    split.
    { intros i c o Co. assert (Co' := Co). apply Ci in Co'. destruct Co' as ((p & w & Hp & Ep & Hc) & nr & D1 & D2).
      assert (Hi : In i cs) by (rewrite <- Nt', <- Ep; eapply leaf_named; eauto).
      destruct (Dn i Hi) as (nr' & D & _ & Gr). assert (Z := eq_trans (eq_sym D) D1). injection Z as ->. apply (Gr c o D2). }
    intros e N' I EN r c r' c' P P'.
    assert (Hc : In c cs) by (eapply in_combine_r; exact P). assert (Hr' : In r' (names m)) by (eapply in_combine_l; exact P').
    destruct (Cell c r' Hc Hr') as (nr & o & D1 & D2 & Co). rewrite (entry_cell K inv c r' o e Mi Co).
    rewrite <- (In_ e N' I EN r c r' c' P P'). unfold look. now rewrite D1, D2.
Qed.

(** the inverse and both products *)
Theorem big_laws B (m : matrix F) cs : NoDup (dkeys B) ->
  matrix_ok m -> matrix_fits B m -> ordered_columns m cs -> length cs = length (names m) -> 4 <= length cs ->
  exists inv p q, m_inverse_any K np_inv m = Ok inv /\ matmul K inv m = Ok p /\ matmul K m inv = Ok q /\
    matrix_ok inv /\ matrix_fits B inv /\ names inv = cs /\ ordered_columns inv (names m) /\
    forall e M N, inside e B -> matrix_reads m e M ->
      np_inv (rows_by (names m) cs M) = rows_by cs (names m) N -> two_sided K (names m) cs M N ->
      (forall r c r' c' o, paired (names m) cs r c -> paired (names m) cs r' c' -> cell inv c r' o -> op_at o e = N c' r) /\
      (matrix_reads p e (delta K) <-> symmetric (names m) cs M) /\
      (matrix_reads q e (delta K) <-> symmetric (names m) cs M).
Proof.
  intros NB Mk Fm H L L4. assert (Hc := ordered_has m cs H).
  destruct (inverse_big B m cs NB Mk Fm H L L4) as (inv & row & Ei & Er & Mi & Ki & Ni & Li & Fi & X).
  assert (Nc := columns_nodup m cs Mk H). assert (Nr : NoDup (names m)) by apply Mk.
  assert (Oi : ordered_columns inv (names m)) by (intros v Hv; apply (Li v Hv)).
  assert (Hi := ordered_has inv _ Oi).
  destruct (matmul_value K FK B inv m cs NB Mi Mk Fi Fm Hi Hc) as (p & Ep & Mp & _ & Np & Hp & _ & _ & _ & Rp).
  destruct (matmul_value K FK B m inv (names m) NB Mk Mi Fm Fi ltac:(now rewrite Ni) Hi) as (q & Eq & Mq & _ & Nq & Hq & _ & _ & _ & Rq).
  exists inv, p, q. repeat (split; [assumption|]). intros e M N I RM EN [NM MN].
  set (rs := names m) in *. set (t := partner rs cs).
  assert (Em : forall r c, In r rs -> In c cs -> entry K m r c e = M r c) by (intros; eapply reads_entry; eauto).
  assert (EN' : np_inv (rows_by rs cs (fun r c => entry K m r c e)) = rows_by cs rs N).
  { rewrite <- EN. f_equal. unfold rows_by. apply map_ext_in. intros r Hr. apply map_ext_in. intros c Hcc. now apply Em. }
  assert (En := X e N I EN').
  assert (Cs : map t rs = cs) by (apply map_partner; auto).
  assert (Tp : forall r, In r rs -> paired rs cs r (t r)) by (intros r Hr; apply paired_partner; auto).
  assert (Tc : forall r, In r rs -> In (t r) cs) by (intros r Hr; rewrite <- Cs; now apply in_map).
  assert (Ct : forall c, In c cs -> exists r, In r rs /\ t r = c).
  { intros c Hcc. rewrite <- Cs in Hcc. apply in_map_iff in Hcc. destruct Hcc as (r & <- & Hr). eauto. }
  assert (Ti : forall r r', In r rs -> In r' rs -> delta K (t r) (t r') = delta K r r').
  { intros r r' Hr Hr'. unfold delta. destruct (String.eqb_spec r r') as [->|D]; [now rewrite String.eqb_refl|].
    destruct (String.eqb_spec (t r) (t r')) as [E|_]; [|reflexivity]. exfalso. apply D.
    assert (Nm : NoDup (map t rs)) by now rewrite Cs. revert Hr Hr' E Nm. generalize rs, t. clear. intros l t Hr Hr' E Nm.
    induction l as [|x l IH]; [destruct Hr|]. cbn in Nm. inversion Nm; subst.
    destruct Hr as [->|Hr], Hr' as [->|Hr']; auto.
    - exfalso. apply H1. rewrite E. now apply in_map.
    - exfalso. apply H1. rewrite <- E. now apply in_map. }
  assert (Sy : symmetric rs cs M <-> forall i j, In i rs -> In j rs -> M i (t j) = M j (t i)).
  { split.
    - intros S i j Hi' Hj. apply S; auto.
    - intros S r c r' c' P P'. apply paired_partner in P, P'; auto. destruct P as [Hr ->], P' as [Hr' ->]. now apply S. }
  assert (NM' : forall i j, In i rs -> In j rs -> sum_over K rs (fun k => times K (N (t i) k) (M k (t j))) = delta K i j).
  { intros i j Hi' Hj. rewrite NM by auto. now apply Ti. }
  assert (MN' : forall i j, In i rs -> In j rs -> sum_over K rs (fun k => times K (M i (t k)) (N (t k) j)) = delta K i j).
  { intros i j Hi' Hj. rewrite <- MN by auto. rewrite <- Cs, (sum_over_map K). reflexivity. }
  assert (Ev : forall i j, In i rs -> In j rs -> entry K inv (t i) j e = N (t j) i).
  { intros i j Hi' Hj. apply (En i (t i) j (t j)); auto. }
  split; [|split].
  - intros r c r' c' o P P' Co. rewrite <- (entry_cell K inv c r' o e Mi Co). now apply En.
  - rewrite Sy, <- (transposed_left K FK rs (fun i j => M i (t j)) (fun i j => N (t i) j) Nr NM' MN'). cbv beta. split.
    + intros Rd i j Hi' Hj. destruct (proj1 (cell_exists p cs (t i) (t j) Mp Hp) ltac:(rewrite Np, Ni; auto)) as (o & Co).
      rewrite <- (Ti i j Hi' Hj), (Rd _ _ _ Co).
      assert (Z := Rp e _ _ I (entry_reads K inv e Mi) (entry_reads K m e Mk) (t i) (t j) o Co). cbv beta in Z. rewrite <- Z.
      fold rs. apply sum_over_ext. intros k Hk. rewrite Ev, Em by auto. reflexivity.
    + intros S c c' o Co. destruct (cell_in p cs c c' o Mp Hp Co) as [Hpi Hpj]. rewrite Np, Ni in Hpi.
      destruct (Ct c Hpi) as (i & Hi' & <-), (Ct c' Hpj) as (j & Hj & <-). rewrite (Ti i j Hi' Hj), <- (S i j Hi' Hj).
      assert (Z := Rp e _ _ I (entry_reads K inv e Mi) (entry_reads K m e Mk) (t i) (t j) o Co). cbv beta in Z. rewrite <- Z.
      fold rs. apply sum_over_ext. intros k Hk. rewrite Ev, Em by auto. reflexivity.
  - rewrite Sy, <- (transposed_right K FK rs (fun i j => M i (t j)) (fun i j => N (t i) j) Nr NM' MN'). cbv beta. split.
    + intros Rd i j Hi' Hj. destruct (proj1 (cell_exists q rs i j Mq Hq) ltac:(rewrite Nq; auto)) as (o & Co).
      rewrite (Rd _ _ _ Co).
      assert (Z := Rq e _ _ I (entry_reads K m e Mk) (entry_reads K inv e Mi) i j o Co). cbv beta in Z. rewrite <- Z.
      rewrite Ni, <- Cs, (sum_over_map K). apply sum_over_ext. intros k Hk. rewrite Ev, Em by auto. reflexivity.
    + intros S i j o Co. destruct (cell_in q rs i j o Mq Hq Co) as [Hi' Hj]. rewrite Nq in Hi'. rewrite <- (S i j Hi' Hj).
      assert (Z := Rq e _ _ I (entry_reads K m e Mk) (entry_reads K inv e Mi) i j o Co). cbv beta in Z. rewrite <- Z.
      rewrite Ni, <- Cs, (sum_over_map K). apply sum_over_ext. intros k Hk. rewrite Ev, Em by auto. reflexivity.
Qed.

Lemma small_same (m : matrix F) : length (rows_of m) < 4 -> matrix_ok m -> m_inverse_any K np_inv m = m_inverse K m.
Proof.
  intros L M. unfold m_inverse_any, m_inverse. rewrite m_rows_eq by exact M. cbn [bind]. unfold inverse_flat.
  destruct (negb (square (rows_of m))); [reflexivity|]. destruct (Nat.ltb_spec (length (rows_of m)) 4); [reflexivity|lia].
Qed.

Theorem small_laws (m : matrix F) : length (names m) <= 3 -> matrix_ok m -> m_inverse_any K np_inv m = m_inverse K m.
Proof.
  intros L M. apply small_same; [|exact M]. rewrite <- (map_length fst), rows_keys by exact M. lia.
Qed.
End Big.
