From Coq Require Import Ascii String List Arith ZArith Bool Lia Field_theory Field.
From Verif Require Import Base Numpy Shapes Scalar Elementwise Vector Matrix Transform Poly BigMatrix Jacobian VectorReduce VectorOptimize.
From Verif Require Import Spec SpecVector SpecMatrix SpecTransform SpecJacobian SpecVectorReduce SpecOptimize SpecInverse SpecVectorOptimize.
From Verif Require Import BaseFacts ShapesFacts VectorFacts VectorIndexFacts MatrixFacts MatrixLaws AlignFacts ElementwiseFacts TransformFacts JacobianFacts JacobianLaws VectorReduceFacts PdfFacts DotFacts VectorOptimizeFacts.
Import ListNotations.
Open Scope nat_scope.
Open Scope list_scope.

Section Facts.
Context {F : Type} (K : arith F) (FK : is_field K) (absolute : F -> F) (less : F -> F -> bool).
Let Fth : field_theory (zero K) (one K) (plus K) (times K) (minus K) (neg K) (over K) (over K (one K)) eq := proj1 FK.
Add Field Kf85 : Fth.
Variable B : shape.
Hypothesis N : NoDup (dkeys B).
Variable p : tree unit.
Hypothesis Sp : space p.

(** products and sums of settings *)
Lemma setting_op (h : F -> F -> F) (v w : vec F) : setting B p v -> setting B p w ->
  exists r, vec_ufunc (fun l => match l with [x; y] => h x y | _ => zero K end) [v; w] = Ok r /\ setting B p r /\
    (member B p v \/ member B p w -> member B p r) /\
    forall e V W, inside e B -> setting_reads v e V -> setting_reads w e W -> setting_reads r e (fun c => h (V c) (W c)).
Proof.
  intros Sv Sw. set (hh := fun l => match l with [x; y] => h x y | _ => zero K end).
  assert (Mem : member B p v \/ member B p w -> exists r, vec_ufunc hh [v; w] = Ok r /\ setting B p r /\ (member B p v \/ member B p w -> member B p r) /\
    forall e V W, inside e B -> setting_reads v e V -> setting_reads w e W -> setting_reads r e (fun c => h (V c) (W c))).
  { intros H. assert (H' : exists u, In u [v; w] /\ member B p u) by (destruct H; [exists v|exists w]; cbn; auto). destruct H' as (u & Hu & Mu).
    destruct (mixed_reads K B N hh p [v; w] u Sp Hu Mu) as (r & E & Mr & Rr); [auto|].
    exists r. split; [exact E|]. split; [now apply member_setting|]. split; [auto|]. intros e V W I RV RW. apply (member_setting_reads B p); [exact Mr|].
    refine (Rr e [V; W] I _). constructor; [exact RV|constructor; [exact RW|constructor]]. }
  destruct v as [s|ty cs]; [|apply Mem; left; exact Sv]. destruct w as [s'|ty cs]; [|apply Mem; right; exact Sw]. clear Mem.
  destruct Sv as (W1 & F1), Sw as (W2 & F2).
  destruct (ufunc_reads hh B [s; s'] N) as (o & Eo & (Wo & Fo & Ro)); [auto|auto|].
  exists (Leaf o). split; [|split; [split; [exact Wo|exact Fo]|split]].
  - apply leaf_ufunc. exact Eo.
  - intros [M|M]; destruct M as (((ty & cs & E) & _) & _); discriminate.
  - intros e V W I RV RW c. cbn [setting_reads] in RV, RW. rewrite Ro by exact I. cbn. now rewrite RV, RW.
Qed.

Variables function gradient : vec F -> res (vec F).
Variable g : env -> (string -> F) -> F.
Variable G : env -> (string -> F) -> string -> F.
Hypotheses (Rf : realises_scalar B p function g) (RG : realises B p p gradient G).
Variables (step momentum : vec F) (A Bt : env -> string -> F) (T : string -> F).
Hypotheses (Sst : setting B p step) (Smo : setting B p momentum).
Hypotheses (Rst : forall e, inside e B -> setting_reads step e (A e)) (Rmo : forall e, inside e B -> setting_reads momentum e (Bt e)).
Variable e0 : env.
Hypothesis I0 : inside e0 B.

Definition limit (t : vec F) : Prop := setting B p t /\ forall e, inside e B -> setting_reads t e T.

Lemma small_limit t (v x : vec F) : limit t -> member B p x -> member B p v -> (forall e X, inside e B -> vector_reads x e X -> vector_reads v e (G e X)) ->
  exists flags b, small K absolute less v t = Ok flags /\ vec_all flags = Ok b /\ member B p flags /\
    (forall e X, inside e B -> vector_reads x e X -> vector_reads flags e (fun c => less (absolute (G e X c)) (T c))) /\
    (b = true <-> all_below absolute less B p G T x).
Proof.
  intros (St & Rt) Mx Mv Rv. unfold small, vabs, vless.
  destruct (vec_ufunc_reads K B N (fun l => match l with [x] => absolute x | _ => zero K end) p [v] Sp) as (a & Ea & Ma & Ra); [discriminate|constructor; [exact Mv|constructor]|].
  rewrite Ea. cbn [bind].
  destruct (mixed_reads K B N (fun l => match l with [x; y] => less x y | _ => false end) p [a; t] a Sp) as (w & Ew & Mw & Rw); [now left|exact Ma|constructor; [now apply member_setting|auto]|].
  destruct (member_all B N p w e0 Sp Mw I0) as (b & Eb & Hb).
  assert (Rd : forall e X, inside e B -> vector_reads x e X -> vector_reads w e (fun c => less (absolute (G e X c)) (T c))).
  { intros e X I RX. refine (Rw e [_; T] I _). constructor; [|constructor; [now apply Rt|constructor]].
    apply (member_setting_reads B p); [exact Ma|]. refine (Ra e [G e X] I _). constructor; [now apply Rv|constructor]. }
  exists w, b. split; [exact Ew|]. split; [exact Eb|]. split; [exact Mw|]. split; [exact Rd|]. rewrite Hb. split.
  - intros H e X c I RX Hc. exact (H e _ c I (Rd e X I RX) Hc).
  - intros H e V c I RV Hc. destruct (some_reads x (zero K) e (proj1 Mx)) as (X & RX).
    assert (Nw := member_names B p w Sp Mw). rewrite <- Nw in Hc. assert (Hc' := Hc). apply (part_name w c (proj1 Mw)) in Hc. destruct Hc as (o & Po).
    rewrite (RV c o Po). rewrite <- (Rd e X I RX c o Po). apply (H e X c I RX). now rewrite <- Nw.
Qed.

Lemma descent_pass_ok t x z Z : limit t -> member B p x -> setting B p z -> (forall e, inside e B -> setting_reads z e (Z e)) ->
  (descent_pass K absolute less function gradient step momentum t x z = Ok None /\ all_below absolute less B p G T x) \/
  exists flags x' v' z' Z', descent_pass K absolute less function gradient step momentum t x z = Ok (Some (flags, x', v', z')) /\
    ~ all_below absolute less B p G T x /\ member B p x' /\ setting B p z' /\ (forall e, inside e B -> setting_reads z' e (Z' e)) /\
    (exists o, v' = Leaf o /\ scalar_in B o /\ forall e X, inside e B -> vector_reads x' e X -> op_at o e = g e X) /\
    member B p flags /\ (forall e X, inside e B -> vector_reads x e X -> vector_reads flags e (fun c => less (absolute (G e X c)) (T c))) /\
    forall e X, inside e B -> vector_reads x e X ->
      (forall c, In c (names p) -> Z' e c = plus K (times K (Bt e c) (Z e c)) (G e X c)) /\
      forall X' c, vector_reads x' e X' -> In c (names p) -> X' c = minus K (X c) (times K (A e c) (Z' e c)).
Proof.
  intros Ht Mx Sz Rz. unfold descent_pass. destruct (RG x Mx) as (gr & Eg & Mg & Rg). rewrite Eg. cbn [bind].
  destruct (small_limit t gr x Ht Mx Mg Rg) as (flags & b & Es & Ea & Mfl & Rfl & Hb). rewrite Es. cbn [bind]. rewrite Ea. cbn [bind]. destruct b.
  - left. split; [reflexivity|]. now apply Hb.
  - right. unfold vtimes, vplus.
    destruct (setting_op (times K) momentum z Smo Sz) as (kept & Ek & Sk & _ & Rk). rewrite Ek. cbn [bind].
    destruct (setting_op (plus K) kept gr Sk (member_setting B p gr Mg)) as (z' & Ez & Sz' & Mz' & Rz'). rewrite Ez. cbn [bind].
    assert (Mz := Mz' (or_intror Mg)). clear Mz'.
    destruct (setting_op (times K) step z' Sst Sz') as (cor & Ec & _ & Mc & Rc). rewrite Ec. cbn [bind]. assert (Mco := Mc (or_intror Mz)). clear Mc.
    destruct (vsub_reads K B N p x cor Sp Mx Mco) as (x' & Ex & Mx' & Rx'). rewrite Ex. cbn [bind].
    destruct (Rf x' Mx') as (o & Ef & So & Ro). rewrite Ef. cbn [bind].
    assert (Rzz : forall e X, inside e B -> vector_reads x e X -> setting_reads z' e (fun c => plus K (times K (Bt e c) (Z e c)) (G e X c))).
    { intros e X I RX. apply (Rz' e (fun c => times K (Bt e c) (Z e c)) (G e X) I); [exact (Rk e (Bt e) (Z e) I (Rmo e I) (Rz e I))|].
      apply (member_setting_reads B p); [exact Mg|]. now apply Rg. }
    exists flags, x', (Leaf o), z', (fun e c => comp K z' c e). split; [reflexivity|]. split; [intros Ab; apply Hb in Ab; discriminate|].
    split; [exact Mx'|]. split; [exact Sz'|]. split; [intros e _; apply (member_setting_reads B p); [exact Mz|apply comp_reads, Mz]|].
    split; [exists o; split; [reflexivity|]; split; [exact So|exact Ro]|]. split; [exact Mfl|]. split; [exact Rfl|].
    intros e X I RX.
    assert (Vz : forall c, In c (names p) -> comp K z' c e = plus K (times K (Bt e c) (Z e c)) (G e X c)).
    { intros c Hc. assert (Q := Rzz e X I RX). destruct z' as [|ty cs]; [destruct Mz as (((? & ? & Q') & _) & _); discriminate|]. cbn [setting_reads] in Q.
      apply (reads_comp K _ e _ c (proj1 Mz)) in Q; [exact Q|]. now rewrite (member_names B p _ Sp Mz). }
    split; [exact Vz|]. intros X' c RX' Hc.
    assert (R1 : vector_reads cor e (fun c => times K (A e c) (comp K z' c e))).
    { assert (Q := Rc e (A e) (fun c => comp K z' c e) I (Rst e I) (member_setting_reads B p z' e _ Mz (comp_reads K z' e (proj1 Mz)))).
      destruct cor as [|ty cs]; [destruct Mco as (((? & ? & Q') & _) & _); discriminate|exact Q]. }
    assert (R2 := Rx' e X _ I RX R1).
    assert (Nx := member_names B p x' Sp Mx'). rewrite <- Nx in Hc. apply (part_name x' c (proj1 Mx')) in Hc. destruct Hc as (o' & Po).
    rewrite (RX' c o' Po). now rewrite <- (R2 c o' Po).
Qed.

Lemma velocity_shift beta z h k : velocity K beta z h (S k) = velocity K beta (plus K (times K beta z) (h 0)) (fun j => h (S j)) k.
Proof. induction k as [|k IH]; [reflexivity|]. cbn [velocity] in *. now rewrite IH. Qed.

Lemma velocity_ext beta z z' h h' k : z = z' -> (forall j, j < k -> h j = h' j) -> velocity K beta z h k = velocity K beta z' h' k.
Proof. intros <-. induction k as [|k IH]; intros H; [reflexivity|]. cbn [velocity]. rewrite IH by (intros; apply H; lia). now rewrite H by lia. Qed.

Lemma descent_loop_ok t n : limit t -> forall i x v z Z flags, member B p x -> setting B p z -> (forall e, inside e B -> setting_reads z e (Z e)) ->
  (exists o, v = Leaf o /\ scalar_in B o /\ forall e X, inside e B -> vector_reads x e X -> op_at o e = g e X) ->
  let run := descent_loop K absolute less function gradient step momentum t n i x v z flags in
  (forall k s, nth_error (fst run) k = Some s -> at_descent B p g (i + k) s) /\
  (forall s, hd_error (fst run) = Some s -> v_x s = x /\ v_f s = v /\ v_flags s = flags) /\
  descends K B p G A Bt Z (fst run) /\ linked (flags_linked absolute less B p G T) (fst run) /\
  newton_outcome absolute less B p G T n (fst run) (snd run).
Proof.
  intros Ht. induction n as [|n IH]; intros i x v z Z flags Mx Sz Rz Hv; cbn [descent_loop].
  - cbn [fst snd]. split; [intros [|k] s; discriminate|]. split; [discriminate|]. split; [intros e X k c _ _ Hk; cbn in Hk; lia|]. split; [intros [|k] s s' E; discriminate|].
    right. repeat split; constructor.
  - assert (A0 : at_descent B p g i (mkVseen i x v flags)) by exact (conj eq_refl (conj Mx Hv)).
    destruct (descent_pass_ok t x z Z Ht Mx Sz Rz) as [(E & Ab)|(flags' & x' & v' & z' & Z' & E & Nb & Mx' & Sz' & Rz' & Hv' & Mfl & Rfl & Lk)]; rewrite E; cbn [fst snd].
    + split; [intros [|k] s Hs; cbn in Hs; [injection Hs as <-; now rewrite Nat.add_0_r|destruct k; discriminate]|].
      split; [intros s Hs; injection Hs as <-; now repeat split|].
      split; [intros e X k c _ _ Hk; cbn in Hk; lia|]. split; [intros [|[|k]] s s' E1 E2; discriminate|].
      left. exists [], (mkVseen i x v flags). cbn. repeat split; [lia|exact Ab|constructor].
    + destruct (IH (S i) x' v' z' Z' flags' Mx' Sz' Rz' Hv') as (H1 & H2 & H3 & H4 & H5).
      set (rest := descent_loop K absolute less function gradient step momentum t n (S i) x' v' z' flags') in *. clearbody rest.
      split; [intros [|k] s Hs; cbn in Hs; [injection Hs as <-; now rewrite Nat.add_0_r|replace (i + S k) with (S i + k) by lia; now apply H1]|].
      split; [intros s Hs; injection Hs as <-; now repeat split|].
      split; [|split].
      * intros e X k c I Ps Hk Hc. cbn [length] in Hk.
        assert (R0 : vector_reads x e (X 0)) by exact (Ps 0 _ eq_refl). destruct (Lk e (X 0) I R0) as (Lz & Lx).
        assert (Ps' : positions (fst rest) e (fun j => X (S j))) by (intros j s Hs; exact (Ps (S j) s Hs)).
        destruct k as [|k].
        -- destruct (fst rest) as [|s l] eqn:Er; [cbn in Hk; lia|]. destruct (H2 s eq_refl) as (Es & _).
           assert (R1 : vector_reads x' e (X 1)) by (rewrite <- Es; exact (Ps' 0 s eq_refl)). rewrite (Lx (X 1) c R1 Hc). cbn [velocity]. now rewrite Lz.
        -- rewrite (H3 e (fun j => X (S j)) k c I Ps') by (try exact Hc; lia). f_equal. f_equal.
           rewrite (velocity_shift (Bt e c) (Z e c) (fun j => G e (X j) c) (S k)). apply velocity_ext; [now apply Lz|reflexivity].
      * apply linked_cons; [exact H4|]. intros s' Hs. destruct (H2 s' Hs) as (_ & _ & Ef). unfold flags_linked. cbn [v_x]. rewrite Ef. now split.
      * destruct H5 as [(before & s & E1 & Ln & E2 & Ab & Fb)|(E1 & E2 & Fb)]; [left|right].
        -- exists (mkVseen i x v flags :: before), s. rewrite E1. rewrite E1 in Ln. cbn [length app] in *. repeat split; [lia|exact E2|exact Ab|]. constructor; [exact Nb|exact Fb].
        -- cbn [length]. repeat split; [exact E1|lia|]. constructor; [exact Nb|exact Fb].
Qed.

(** ** before the loop *)

Lemma limit_ok (t : vec F) (o : operand F) : setting [] p t -> (forall e, setting_reads t e T) -> scalar_in B o ->
  exists t', any_like t (Leaf o) = Ok t' /\ vec_shape t' = Ok [] /\ limit t'.
Proof.
  intros St Rt _. cbn [any_like]. eexists. split; [reflexivity|].
  assert (Lf : forall c o', leaf_at (map_tree (fun o => OpArr (normalize o)) t) c = Some o' -> exists o1, leaf_at t c = Some o1 /\ o' = OpArr (normalize o1)).
  { intros c o' H. rewrite map_tree_leaf in H. destruct (leaf_at t c) as [o1|]; [|discriminate]. injection H as <-. eauto. }
  assert (Wt : vec_wf t) by (destruct t; [constructor; apply St|apply St]).
  assert (Pr : forall c o1, leaf_at t c = Some o1 -> op_wf o1 /\ op_shape o1 = []).
  { intros c o1 H. split; [exact (tree_ok_leaf_at op_wf t c o1 Wt H)|]. apply no_axes. destruct t as [o2|ty cs].
    - destruct c; [|discriminate]. injection H as <-. apply St.
    - apply (proj1 (proj2 St) (String.concat "." c)). now exists c. }
  assert (Nz : forall o1 : operand F, op_wf o1 -> op_shape o1 = [] -> op_wf (OpArr (normalize o1)) /\ op_shape (OpArr (normalize o1)) = [] /\ forall e, op_at (OpArr (normalize o1)) e = op_at o1 e).
  { intros o1 W E. assert (Rd : reads [] (OpArr (normalize o1)) (op_at o1)) by (apply normalize_reads, reads_self; [exact W|rewrite E; intros ax n []]).
    destruct Rd as (W' & _ & Rd). split; [exact W'|]. split; [destruct o1; [exact E|reflexivity]|]. intros e. apply Rd. intros ax n []. }
  split.
  - destruct t as [o1|ty cs].
    + destruct (Pr [] o1 eq_refl) as (W1 & E1). destruct (Nz o1 W1 E1) as (W2 & E2 & _). cbn [map_tree]. exact (f_equal Ok E2).
    + set (t' := map_tree (fun o => OpArr (normalize o)) (Node ty cs)) in *.
      assert (Tk : tree_ok op_wf t') by (apply (map_tree_ok op_wf op_wf); [intros l W; destruct l as [a|y]; [exact W|exact (proj1 (Nz (OpNum y) W eq_refl))]|exact Wt]).
      apply uniform_shape; [exact (NoDup_nil _)| |exact (tree_ok_any _ _ Tk)|].
      * intros c ty' cs' Hk. subst t'. rewrite map_tree_kind in Hk. exact (proj2 (proj2 (proj2 (proj1 St))) c ty' cs' Hk).
      * apply Forall_forall. intros o' Ho. destruct (In_leaf t' o' (tree_ok_any _ _ Tk) Ho) as (c & Lc). destruct (Lf c o' Lc) as (o1 & L1 & ->).
        destruct (Pr c o1 L1) as (W1 & E1). apply (Nz o1 W1 E1).
  - destruct t as [o1|ty cs].
    + destruct (Pr [] o1 eq_refl) as (W1 & E1). destruct (Nz o1 W1 E1) as (W2 & E2 & R2). cbn [map_tree]. split.
      * split; [exact W2|rewrite E2; intros ax n []].
      * intros e _ c. rewrite R2. apply Rt.
    + set (t' := map_tree (fun o => OpArr (normalize o)) (Node ty cs)) in *.
      assert (Tk : tree_ok op_wf t') by (apply (map_tree_ok op_wf op_wf); [intros l W; destruct l as [a|y]; [exact W|exact (proj1 (Nz (OpNum y) W eq_refl))]|exact Wt]).
      assert (Mt : member B p t').
      { destruct St as ((Hn & _ & Nd & Fl) & _ & Kt). split; [split; [|split; [exact Tk|split]]|split].
        - now apply map_tree_node.
        - unfold t'. now rewrite map_tree_names.
        - intros c ty' cs' Hk. unfold t' in Hk. rewrite map_tree_kind in Hk. exact (Fl c ty' cs' Hk).
        - intros c o' (c' & Lc & _). destruct (Lf c' o' Lc) as (o1 & L1 & ->). destruct (Pr c' o1 L1) as (W1 & E1). destruct (Nz o1 W1 E1) as (_ & -> & _). intros ax n [].
        - intros c. unfold t'. rewrite map_tree_kind. apply Kt. }
      split; [now apply member_setting|]. intros e _. apply (member_setting_reads B p); [exact Mt|].
      intros c o' (c' & Lc & <-). destruct (Lf c' o' Lc) as (o1 & L1 & ->). destruct (Pr c' o1 L1) as (W1 & E1). destruct (Nz o1 W1 E1) as (_ & _ & ->).
      apply (Rt e). now exists c'.
Qed.

Theorem descent_start_ok guess t : member B p guess -> setting [] p t -> (forall e, setting_reads t e T) ->
  exists t' x o flags, descent_start K function guess t = Ok (t', x, Leaf o, flags) /\ limit t' /\ member B p x /\ function guess = Ok (Leaf o) /\ scalar_in B o /\
    (forall e X, vector_reads guess e X <-> vector_reads x e X) /\
    (forall e X, inside e B -> vector_reads x e X -> op_at o e = g e X) /\
    member B p flags /\ forall e, inside e B -> vector_reads flags e (fun _ => false).
Proof.
  intros Mg St Rt. unfold descent_start. destruct (Rf guess Mg) as (o & Eo & So & Ro). rewrite Eo. cbn [bind].
  destruct (limit_ok t o St Rt So) as (t' & Et & Sh & Lt). rewrite Et. cbn [bind].
  destruct (vec_shape_member B N p guess Sp Mg) as (sg & Esg & Fg & Ng & Pg).
  assert (Nd : Forall (fun s => NoDup (dkeys s)) [op_shape o; sg]).
  { constructor; [|constructor; [exact Ng|constructor]]. destruct o as [a|x]; [exact (wf_nodup a (proj1 So))|constructor]. }
  destruct (fits_broadcast [op_shape o; sg] B Nd N) as (sh & Es & Fs); [intros s [<- |[<- |[]]]; [apply So|exact Fg]|].
  destruct (broadcast_joint _ sh Nd Es) as (Ns & Js & _).
  assert (Po : forall c o', part guess c o' -> fits_in (op_shape o') sh) by (intros c o' H; eapply fits_trans; [exact (Pg c o' H)|apply Js; right; now left]).
  destruct (flags_start K FK B N p Sp guess sh Mg Ns Fs Po) as (w & Ew & Mw & Rw).
  destruct (broadcast_member B p guess sh Mg Ns Fs Po) as (x & Ex & Mx & Rx).
  exists t', x, o, w. split.
  - assert (Eso : vec_shape (Leaf o) = Ok (op_shape o)) by (destruct o; reflexivity).
    destruct (proj1 (proj1 Mg)) as (ty & cs & Eg). rewrite Eg in *. rewrite Sh, Eso, Esg. cbn [bind]. rewrite Es. cbn [bind]. rewrite Ew, Ex. reflexivity.
  - split; [exact Lt|]. split; [exact Mx|]. split; [reflexivity|]. split; [exact So|]. split; [exact Rx|]. split; [|split; [exact Mw|exact Rw]].
    intros e X I RX. apply (Ro e X I). now apply Rx.
Qed.

Theorem descent_history guess t n : member B p guess -> setting [] p t -> (forall e, setting_reads t e T) ->
  let run := minimum_gradient_descent K absolute less function gradient guess step momentum t n in
  (forall k s, nth_error (fst run) k = Some s -> at_descent B p g k s) /\
  (forall s, hd_error (fst run) = Some s -> (forall e X, vector_reads guess e X <-> vector_reads (v_x s) e X) /\ function guess = Ok (v_f s) /\
     member B p (v_flags s) /\ forall e, inside e B -> vector_reads (v_flags s) e (fun _ => false)) /\
  descends K B p G A Bt (fun _ _ => zero K) (fst run) /\ linked (flags_linked absolute less B p G T) (fst run) /\
  newton_outcome absolute less B p G T n (fst run) (snd run).
Proof.
  intros Mg St Rt. unfold minimum_gradient_descent.
  destruct (descent_start_ok guess t Mg St Rt) as (t' & x & o & flags & E & Lt & Mx & Ev & So & Rg & Ro & Mw & Rw). rewrite E.
  assert (Sz : setting B p (Leaf (OpNum (zero K)))) by (split; [exact I|intros ax m []]).
  destruct (descent_loop_ok t' n Lt 0 x (Leaf o) (Leaf (OpNum (zero K))) (fun _ _ => zero K) flags Mx Sz) as (H1 & H2 & H3 & H4 & H5).
  { intros e _ c. reflexivity. }
  { exists o. split; [reflexivity|]. split; [exact So|exact Ro]. }
  cbv zeta in *. split; [exact H1|]. split; [|exact (conj H3 (conj H4 H5))].
  intros s Hs. destruct (H2 s Hs) as (-> & -> & ->). split; [exact Rg|]. split; [exact Ev|]. now split.
Qed.

(** a quadratic bowl without momentum *)
Theorem descent_bowl guess t n (h m : env -> string -> F) : member B p guess -> setting [] p t -> (forall e, setting_reads t e T) ->
  (forall e X c, inside e B -> In c (names p) -> G e X c = times K (h e c) (minus K (X c) (m e c))) ->
  (forall e c, inside e B -> In c (names p) -> Bt e c = zero K) ->
  forall e X k c, inside e B -> positions (fst (minimum_gradient_descent K absolute less function gradient guess step momentum t n)) e X ->
    k < length (fst (minimum_gradient_descent K absolute less function gradient guess step momentum t n)) -> In c (names p) ->
    minus K (X k c) (m e c) = times K (power K (minus K (one K) (times K (A e c) (h e c))) k) (minus K (X 0 c) (m e c)).
Proof.
  intros Mg St Rt HG HB e X k c I Ps. destruct (descent_history guess t n Mg St Rt) as (_ & _ & Ds & _). cbv zeta in *.
  set (run := fst (minimum_gradient_descent K absolute less function gradient guess step momentum t n)) in *. clearbody run.
  intros Hk Hc. induction k as [|k IH]; [cbn [power]; ring|]. rewrite (Ds e X k c I Ps Hk Hc). cbn [velocity power]. rewrite (HB e c I Hc), (HG e (X k) c I Hc).
  assert (IH' := IH ltac:(lia)).
  transitivity (times K (minus K (one K) (times K (A e c) (h e c))) (minus K (X k c) (m e c))); [ring|]. rewrite IH'. ring.
Qed.

(** the exact minimum after one step, when the step sizes are the inverse curvatures *)
Theorem descent_exact guess t n (h m : env -> string -> F) : member B p guess -> setting [] p t -> (forall e, setting_reads t e T) ->
  (forall e X c, inside e B -> In c (names p) -> G e X c = times K (h e c) (minus K (X c) (m e c))) ->
  (forall e c, inside e B -> In c (names p) -> times K (A e c) (h e c) = one K) ->
  (forall c, In c (names p) -> less (absolute (zero K)) (T c) = true) -> 2 <= n ->
  exists x, snd (minimum_gradient_descent K absolute less function gradient guess step momentum t n) = Ok x /\ member B p x /\
    ((all_below absolute less B p G T guess /\ forall e X, vector_reads guess e X <-> vector_reads x e X) \/
     (~ all_below absolute less B p G T guess /\ forall e X c, inside e B -> vector_reads x e X -> In c (names p) -> X c = m e c)).
Proof.
  intros Mg St Rt HG HA Z0 Hn. destruct (descent_history guess t n Mg St Rt) as (H1 & H2 & H3 & _ & H5).
  set (run := minimum_gradient_descent K absolute less function gradient guess step momentum t n) in *. cbv zeta in *. clearbody run.
  assert (Root : forall s0 s1, nth_error (fst run) 0 = Some s0 -> nth_error (fst run) 1 = Some s1 ->
            forall e X c, inside e B -> vector_reads (v_x s1) e X -> In c (names p) -> X c = m e c).
  { intros s0 s1 E0 E1 e X c Ie RX Hc.
    set (Xs := fun k => match k with 1 => X | _ => match nth_error (fst run) k with Some s => fun c => comp K (v_x s) c e | None => fun _ => zero K end end).
    assert (Ps : positions (fst run) e Xs).
    { intros k s Hs. destruct (Nat.eq_dec k 1) as [->|Hk]; [rewrite E1 in Hs; injection Hs as <-; exact RX|].
      assert (EX : Xs k = fun c => comp K (v_x s) c e) by (destruct k as [|[|k]]; unfold Xs; [now rewrite Hs|lia|now rewrite Hs]). rewrite EX.
      apply comp_reads. apply (H1 k s Hs). }
    assert (Lt : 1 < length (fst run)) by (apply nth_error_Some; congruence).
    assert (Q := H3 e Xs 0 c Ie Ps Lt Hc). cbn [velocity] in Q. rewrite (HG e (Xs 0) c Ie Hc) in Q. change (Xs 1) with X in Q. rewrite Q.
    transitivity (minus K (Xs 0 c) (times K (times K (A e c) (h e c)) (minus K (Xs 0 c) (m e c)))); [ring|]. rewrite (HA e c Ie Hc). ring. }
  assert (Guess : forall s0, nth_error (fst run) 0 = Some s0 -> all_below absolute less B p G T (v_x s0) <-> all_below absolute less B p G T guess).
  { intros s0 E0. assert (E0' : hd_error (fst run) = Some s0) by (destruct (fst run); [discriminate|exact E0]). destruct (H2 s0 E0') as (Rg & _).
    split; intros H e X c Ie RX Hc; apply (H e X c Ie); auto; now apply Rg. }
  assert (Second : forall s0 s1, nth_error (fst run) 0 = Some s0 -> nth_error (fst run) 1 = Some s1 -> all_below absolute less B p G T (v_x s1)).
  { intros s0 s1 E0 E1 e X c Ie RX Hc. rewrite (HG e X c Ie Hc), (Root s0 s1 E0 E1 e X c Ie RX Hc). replace (times K (h e c) (minus K (m e c) (m e c))) with (zero K) by ring. now apply Z0. }
  destruct H5 as [(before & s & Eh & Ln & Eo & Ab & Fb)|(Eo & Ln & Fb)].
  - exists (v_x s). split; [exact Eo|]. assert (Es : nth_error (fst run) (length before) = Some s) by (rewrite Eh, nth_error_app2, Nat.sub_diag by lia; reflexivity).
    split; [apply (H1 _ s Es)|]. destruct before as [|s0 [|s1 before]]; cbn [length] in Es.
    + left. split; [now apply (Guess s)|]. assert (E0' : hd_error (fst run) = Some s) by (destruct (fst run); [discriminate|exact Es]). apply (H2 s E0').
    + right. assert (E0 : nth_error (fst run) 0 = Some s0) by (rewrite Eh; reflexivity). inversion Fb as [|? ? Nb _]; subst.
      split; [intros H; apply Nb; now apply (Guess s0 E0)|]. exact (Root s0 s E0 Es).
    + exfalso. inversion Fb as [|? ? _ Fb']; subst. inversion Fb' as [|? ? Nb _]; subst. apply Nb. apply (Second s0 s1); rewrite Eh; reflexivity.
  - exfalso. destruct (fst run) as [|s0 [|s1 l]] eqn:Eh; cbn [length] in Ln; [lia|lia|].
    inversion Fb as [|? ? _ Fb']; subst. inversion Fb' as [|? ? Nb _]; subst. apply Nb. apply (Second s0 s1); reflexivity.
Qed.
End Facts.

(** ** the default gradient *)
Lemma default_gradient_ok {F} (K : arith F) B (p : tree unit) (function : vec F -> res (vec F)) g dx (D : env -> string -> F) :
  NoDup (dkeys B) -> space p -> realises_scalar B p function g -> step_ok B p dx -> (forall e, inside e B -> step_reads p dx e (D e)) ->
  realises B p p (default_gradient K function dx) (fun e X c => quotient K (g e (moved K X c (D e c))) (g e X) (D e c)).
Proof.
  intros N Sp Rf Sd Rd x Mx. destruct (jacobian_to_scalar K B N p function x dx Sp Mx Sd g Rf) as (v & E & Mv & Rv).
  exists v. unfold default_gradient. rewrite E. cbn [bind]. split; [reflexivity|]. split; [exact Mv|]. intros e X I RX. exact (Rv e X (D e) I RX (Rd e I)).
Qed.

(** ** guesses that are not vectors *)
Lemma descent_scalar {F} (K : arith F) absolute less (function gradient : vec F -> res (vec F)) (o : operand F) step momentum tolerance n v :
  function (Leaf o) = Ok v -> (exists w, v = Leaf w) ->
  minimum_gradient_descent K absolute less function gradient (Leaf o) step momentum tolerance n = ([], Err TypeError).
Proof. intros E (w & ->). unfold minimum_gradient_descent, descent_start. rewrite E. reflexivity. Qed.
