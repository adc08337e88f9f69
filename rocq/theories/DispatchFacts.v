(** Facts about sorting and dispatch. *)
From Coq Require Import String List Arith ZArith Bool Lia Permutation Sorted.
From Verif Require Import Base BaseFacts Dispatch SpecDispatch.
Import ListNotations.
Open Scope nat_scope.
Open Scope list_scope.

Section Sort.
  Context {X : Type} (lt : X -> X -> bool).

  Lemma run_rest_app d x l r s : run_rest lt d x l = (r, s) -> l = r ++ s.
  Proof.
    revert x r s. induction l as [|y l IH]; intros x r s H; cbn [run_rest] in H; [injection H as <- <-; reflexivity|].
    destruct (Bool.eqb (lt y x) d); [|injection H as <- <-; reflexivity].
    destruct (run_rest lt d y l) as [r' s'] eqn:E. injection H as <- <-. cbn. now rewrite (IH _ _ _ E) at 1.
  Qed.

  Lemma count_run_perm l r s : count_run lt l = (r, s) -> Permutation (r ++ s) l.
  Proof.
    destruct l as [|x l]; cbn [count_run]; intros H; [injection H as <- <-; constructor|].
    destruct (run_rest lt _ x l) as [r' s'] eqn:E. injection H as <- <-. apply run_rest_app in E.
    destruct (match l with [] => false | y :: _ => lt y x end).
    - rewrite E. change (x :: r' ++ s') with ((x :: r') ++ s'). apply Permutation_app_tail, Permutation_sym, Permutation_rev.
    - rewrite E. reflexivity.
  Qed.

  Lemma binary_insert_perm l p : Permutation (binary_insert lt l p) (p :: l).
  Proof.
    unfold binary_insert. set (k := bisect _ _ _ _ _ _). rewrite <- (firstn_skipn k l) at 3.
    apply Permutation_sym, Permutation_middle.
  Qed.

  Lemma insert_all_perm l acc : Permutation (fold_left (binary_insert lt) l acc) (acc ++ l).
  Proof.
    revert acc. induction l as [|x l IH]; intros acc; cbn [fold_left]; [now rewrite app_nil_r|].
    rewrite IH. rewrite (binary_insert_perm acc x). cbn. apply Permutation_middle.
  Qed.

  Theorem py_sorted_perm l : Permutation (py_sorted lt l) l.
  Proof.
    unfold py_sorted. destruct (count_run lt l) as [r s] eqn:E. rewrite insert_all_perm. now apply count_run_perm.
  Qed.

  (** ** With a strict weak order the result is sorted and stable *)

  Context (P : X -> Prop)
          (irrefl : forall x, lt x x = false)
          (trans : forall x y z, P x -> P y -> P z -> lt x y = true -> lt y z = true -> lt x z = true)
          (weak : forall x y z, P x -> P y -> P z -> lt y x = false -> lt z y = false -> lt z x = false).

  Definition le (x y : X) : Prop := lt y x = false.

  Lemma asym x y : P x -> P y -> lt x y = true -> lt y x = false.
  Proof. intros Px Py H. destruct (lt y x) eqn:E; auto. rewrite <- (irrefl x). symmetry. apply (trans x y x); auto. Qed.

  Lemma run_rest_up x l r s : P x -> Forall P l -> run_rest lt false x l = (r, s) -> StronglySorted le (x :: r).
  Proof.
    revert x r s. induction l as [|y l IH]; intros x r s Px F H; cbn [run_rest] in H.
    - injection H as <- <-. repeat constructor.
    - inversion F as [|? ? Py F']; subst. destruct (lt y x) eqn:E; cbn [Bool.eqb] in H.
      { injection H as <- <-. repeat constructor. }
      destruct (run_rest lt false y l) as [r' s'] eqn:E'. injection H as <- <-.
      specialize (IH y r' s' Py F' E'). constructor; auto. inversion IH as [|? ? S0 FF]; subst.
      constructor; [exact E|]. apply Forall_forall. intros z Hz. rewrite Forall_forall in FF. apply (weak x y z); auto.
      + rewrite Forall_forall in F'. apply F'. apply run_rest_app in E'. rewrite E'. apply in_or_app; auto.
      + now apply FF.
  Qed.

  Lemma run_rest_down x l r s : P x -> Forall P l -> run_rest lt true x l = (r, s) ->
    StronglySorted (fun a b => lt b a = true) (x :: r).
  Proof.
    revert x r s. induction l as [|y l IH]; intros x r s Px F H; cbn [run_rest] in H.
    - injection H as <- <-. repeat constructor.
    - inversion F as [|? ? Py F']; subst. destruct (lt y x) eqn:E; cbn [Bool.eqb] in H.
      2: { injection H as <- <-. repeat constructor. }
      destruct (run_rest lt true y l) as [r' s'] eqn:E'. injection H as <- <-.
      specialize (IH y r' s' Py F' E'). constructor; auto. inversion IH as [|? ? S0 FF]; subst.
      constructor; [exact E|]. apply Forall_forall. intros z Hz. rewrite Forall_forall in FF. apply (trans z y x); auto.
      rewrite Forall_forall in F'. apply F'. apply run_rest_app in E'. rewrite E'. apply in_or_app; auto.
  Qed.

  Lemma sorted_app_intro {Y} (R : Y -> Y -> Prop) l m : StronglySorted R l -> StronglySorted R m ->
    (forall x y, In x l -> In y m -> R x y) -> StronglySorted R (l ++ m).
  Proof.
    intros Sl Sm H. induction Sl as [|x l Sl IH F]; auto. cbn. constructor; [apply IH; intros; apply H; cbn; auto|].
    apply Forall_app. split; auto. apply Forall_forall. intros y Hy. apply H; cbn; auto.
  Qed.

  Lemma sorted_app_elim {Y} (R : Y -> Y -> Prop) l m : StronglySorted R (l ++ m) ->
    StronglySorted R l /\ StronglySorted R m /\ forall x y, In x l -> In y m -> R x y.
  Proof.
    induction l as [|a l IH]; cbn; intros H; [split; [constructor|split; auto; contradiction]|].
    inversion H as [|? ? S0 F]; subst. destruct (IH S0) as (A & B & C). apply Forall_app in F as [F1 F2].
    split; [constructor; auto|]. split; auto. intros x y [<-|Hx] Hy; auto. rewrite Forall_forall in F2. auto.
  Qed.

  Lemma sorted_rev {Y} (R : Y -> Y -> Prop) l : StronglySorted R l -> StronglySorted (fun a b => R b a) (rev l).
  Proof.
    induction 1 as [|x l Sl IH F]; cbn; [constructor|]. apply sorted_app_intro; [auto|repeat constructor|].
    intros a b Ha [<-|[]]. rewrite Forall_forall in F. apply F. now apply in_rev.
  Qed.

  Lemma sorted_imp {Y} (R Q : Y -> Y -> Prop) l : (forall x y, In x l -> In y l -> R x y -> Q x y) ->
    StronglySorted R l -> StronglySorted Q l.
  Proof.
    intros H Sl. induction Sl as [|x l Sl IH F]; constructor.
    - apply IH. intros; apply H; cbn; auto.
    - rewrite Forall_forall in *. intros y Hy. apply H; cbn; auto.
  Qed.

  (** the elements incomparable with [c], in the given order *)
  Definition class_of (c : X) (l : list X) : list X := filter (fun x => negb (lt c x) && negb (lt x c)) l.

  Lemma class_of_app c l m : class_of c (l ++ m) = class_of c l ++ class_of c m.
  Proof. apply filter_app. Qed.

  Lemma class_of_strict c l : P c -> Forall P l -> StronglySorted (fun a b => lt b a = true) l ->
    class_of c (rev l) = class_of c l.
  Proof.
    intros Pc F H. induction H as [|x l Sl IH Fx]; auto. inversion F as [|? ? Px F']; subst.
    cbn [rev]. rewrite class_of_app, IH by auto.
    destruct (negb (lt c x) && negb (lt x c)) eqn:E.
    - apply andb_true_iff in E as [E1 E2]. rewrite negb_true_iff in E1, E2.
      assert (N : class_of c l = []).
      { unfold class_of. rewrite Forall_forall in Fx, F'. clear IH Sl F. induction l as [|y l IHl]; auto. cbn [filter].
        assert (lt y x = true) as Hyx by (apply Fx; cbn; auto). assert (Py : P y) by (apply F'; cbn; auto).
        destruct (lt c y) eqn:Ecy; cbn [negb andb].
        - apply IHl; intros; [apply Fx|apply F']; cbn; auto.
        - assert (lt y c = true) as ->.
          { destruct (lt y c) eqn:Eyc; auto. exfalso.
            assert (lt y x = false) by (apply (weak x c y); auto). congruence. }
          cbn [negb]. apply IHl; intros; [apply Fx|apply F']; cbn; auto. }
      rewrite N. cbn [app]. unfold class_of in N |- *. cbn [filter]. now rewrite N.
    - unfold class_of at 2 3. cbn [filter]. rewrite E. apply app_nil_r.
  Qed.

  Lemma bisect_spec fuel p l lo hi : P p -> Forall P l -> StronglySorted le l -> hi <= length l -> lo <= hi -> hi - lo <= fuel ->
    (forall i y, i < lo -> nth_error l i = Some y -> lt p y = false) ->
    (forall i y, hi <= i -> nth_error l i = Some y -> lt p y = true) ->
    let k := bisect fuel lt p l lo hi in
    k <= length l /\ (forall i y, i < k -> nth_error l i = Some y -> lt p y = false) /\
    (forall i y, k <= i -> nth_error l i = Some y -> lt p y = true).
  Proof.
    intros Pp F Sl. revert lo hi. induction fuel as [|fuel IH]; intros lo hi Hh Hlo Hf A B; cbn [bisect]; cbv zeta.
    - assert (lo = hi) by lia. subst. split; [lia|]. split; auto.
    - destruct (Nat.ltb_spec lo hi) as [L|L].
      2: { assert (lo = hi) by lia. subst. split; [lia|]. split; auto. }
      set (q := lo + (hi - lo) / 2). assert (Q : lo <= q < hi).
      { unfold q. assert ((hi - lo) / 2 < hi - lo) by (apply Nat.div_lt; lia). lia. }
      destruct (nth_error l q) as [y|] eqn:E.
      2: { apply nth_error_None in E. lia. }
      assert (Py : P y) by (rewrite Forall_forall in F; apply F; now apply nth_error_In in E).
      assert (LE : forall i j a b, i < j -> nth_error l i = Some a -> nth_error l j = Some b -> lt b a = false).
      { intros i j a b Hij Ha Hb. apply nth_error_split in Ha as (l1 & l2 & -> & <-).
        apply sorted_app_elim in Sl as (_ & Sl & _). inversion Sl as [|? ? _ Fa]; subst. rewrite Forall_forall in Fa. apply Fa.
        rewrite nth_error_app2 in Hb by lia. replace (j - length l1) with (S (j - length l1 - 1)) in Hb by lia.
        cbn [nth_error] in Hb. exact (nth_error_In _ _ Hb). }
      assert (PI : forall i a, nth_error l i = Some a -> P a) by (intros i a Ha; rewrite Forall_forall in F; apply F; now apply nth_error_In in Ha).
      destruct (lt p y) eqn:C.
      + apply IH; try lia; auto. intros i z Hi Hz. destruct (Nat.eq_dec i q) as [->|].
        * congruence.
        * assert (lt z y = false) by (apply (LE q i); auto; lia).
          destruct (lt p z) eqn:D; auto. exfalso.
          assert (lt p y = false) by (apply (weak y z p); eauto). congruence.
      + apply IH; try lia; auto. intros i z Hi Hz. destruct (Nat.eq_dec i q) as [->|].
        * congruence.
        * assert (lt y z = false) by (apply (LE i q); auto; lia).
          apply (weak z y p); eauto.
  Qed.

  Lemma nth_firstn_in {Y} (l : list Y) k y : In y (firstn k l) -> exists i, i < k /\ nth_error l i = Some y.
  Proof.
    revert k. induction l as [|a l IH]; intros [|k] H; cbn in H; try contradiction.
    destruct H as [<-|H]; [exists 0; split; [lia|auto]|]. destruct (IH k H) as (i & Hi & E). exists (S i). split; [lia|auto].
  Qed.

  Lemma nth_skipn_in {Y} (l : list Y) k y : In y (skipn k l) -> exists i, k <= i /\ nth_error l i = Some y.
  Proof.
    revert k. induction l as [|a l IH]; intros [|k] H; cbn in H; try contradiction.
    - apply (In_nth_error (a :: l)) in H as [i E]. exists i. split; [lia|auto].
    - destruct (IH k H) as (i & Hi & E). exists (S i). split; [lia|auto].
  Qed.

  Lemma binary_insert_sorted l p : P p -> Forall P l -> StronglySorted le l ->
    StronglySorted le (binary_insert lt l p) /\ forall c, P c -> class_of c (binary_insert lt l p) = class_of c (l ++ [p]).
  Proof.
    intros Pp F Sl. unfold binary_insert.
    destruct (bisect_spec (length l) p l 0 (length l)) as (Hk & A & B); auto; try lia.
    { intros i y Hi E. assert (i < length l) by (apply nth_error_Some; congruence). lia. }
    set (k := bisect (length l) lt p l 0 (length l)) in *.
    assert (A' : forall y, In y (firstn k l) -> lt p y = false). { intros y Hy. apply nth_firstn_in in Hy as (i & Hi & E); eauto. }
    assert (B' : forall y, In y (skipn k l) -> lt p y = true). { intros y Hy. apply nth_skipn_in in Hy as (i & Hi & E); eauto. }
    assert (PL : forall y, In y (skipn k l) -> P y).
    { intros y Hy. rewrite Forall_forall in F. apply F. rewrite <- (firstn_skipn k l). apply in_or_app; auto. }
    rewrite <- (firstn_skipn k l) in Sl. apply sorted_app_elim in Sl as (S1 & S2 & S3).
    split.
    - apply sorted_app_intro; auto.
      + constructor; auto. apply Forall_forall. intros y Hy. unfold le. apply asym; auto.
      + intros x y Hx [<-|Hy]; [now apply A'|now apply S3].
    - intros c Pc. rewrite <- (firstn_skipn k l) at 3. rewrite <- app_assoc, !class_of_app. f_equal.
      change (p :: skipn k l) with ([p] ++ skipn k l). rewrite class_of_app.
      destruct (negb (lt c p) && negb (lt p c)) eqn:E.
      + apply andb_true_iff in E as [E1 E2]. rewrite negb_true_iff in E1, E2.
        assert (N : class_of c (skipn k l) = []).
        { unfold class_of. clear S2 S3. induction (skipn k l) as [|y m IH]; auto. cbn [filter].
          assert (Py : P y) by (apply PL; cbn; auto).
          destruct (lt c y) eqn:Ecy; cbn [negb andb]; [apply IH; intros; [apply B'|apply PL]; cbn; auto|].
          exfalso. assert (lt p y = false) by (apply (weak y c p); auto). rewrite B' in H by (cbn; auto). discriminate. }
        rewrite N. cbn [app]. now rewrite app_nil_r.
      + assert (N : class_of c [p] = []) by (unfold class_of; cbn [filter]; now rewrite E).
        rewrite N. cbn [app]. now rewrite app_nil_r.
  Qed.

  Lemma insert_all_sorted l acc : Forall P l -> Forall P acc -> StronglySorted le acc ->
    StronglySorted le (fold_left (binary_insert lt) l acc) /\
    forall c, P c -> class_of c (fold_left (binary_insert lt) l acc) = class_of c (acc ++ l).
  Proof.
    revert acc. induction l as [|x l IH]; intros acc Fl Fa Sa; cbn [fold_left]; [split; auto; intros; now rewrite app_nil_r|].
    inversion Fl as [|? ? Px Fl']; subst. destruct (binary_insert_sorted acc x Px Fa Sa) as [S1 S2].
    destruct (IH (binary_insert lt acc x)) as [A B]; auto.
    { apply Forall_forall. intros y Hy. apply (Permutation_in _ (binary_insert_perm acc x)) in Hy.
      rewrite Forall_forall in Fa. destruct Hy as [<-|Hy]; auto. }
    split; auto. intros c Pc. rewrite B, class_of_app, S2, <- class_of_app, <- app_assoc by auto. reflexivity.
  Qed.

  Theorem py_sorted_spec l : Forall P l ->
    StronglySorted le (py_sorted lt l) /\ forall c, P c -> class_of c (py_sorted lt l) = class_of c l.
  Proof.
    intros F. unfold py_sorted. destruct l as [|x l]; [split; [constructor|reflexivity]|].
    cbn [count_run]. inversion F as [|? ? Px F']; subst.
    destruct (run_rest lt _ x l) as [r s] eqn:E. pose proof (run_rest_app _ _ _ _ _ E) as EA.
    assert (FR : Forall P r /\ Forall P s) by (rewrite EA in F'; now apply Forall_app). destruct FR as [FR FS].
    destruct (match l with [] => false | y :: _ => lt y x end) eqn:D.
    - assert (SD := run_rest_down x l r s Px F' E).
      destruct (insert_all_sorted s (rev (x :: r))) as [A B]; auto.
      { apply Forall_rev. constructor; auto. }
      { apply (sorted_imp (fun a b => lt a b = true)); [|apply (sorted_rev (fun a b => lt b a = true)); exact SD].
        intros a b Ha Hb H. apply asym; auto; rewrite <- in_rev in *.
        - destruct Ha as [<-|Ha]; auto. rewrite Forall_forall in FR; auto.
        - destruct Hb as [<-|Hb]; auto. rewrite Forall_forall in FR; auto. }
      split; auto. intros c Pc. rewrite B, class_of_app, class_of_strict, <- class_of_app by (auto; constructor; auto).
      now rewrite EA.
    - destruct (insert_all_sorted s (x :: r)) as [A B]; auto.
      { exact (run_rest_up x l r s Px F' E). }
      split; auto. intros c Pc. rewrite B by auto. now rewrite EA.
  Qed.
End Sort.

Section Order.
  Context {X T R : Type} (class : X -> T) (same subclass : T -> T -> bool) (O : class_order same subclass).
  Context (answer : X -> res (option R)).

  Lemma same_false s t : same s t = false <-> s <> t.
  Proof.
    destruct (same s t) eqn:E.
    - apply (same_eq _ _ O) in E. split; [discriminate|congruence].
    - split; auto. intros _ H. apply (same_eq _ _ O) in H. congruence.
  Qed.

  Lemma key_lt_spec a b : key_lt class same subclass a b = true <-> class a <> class b /\ subclass (class b) (class a) = true.
  Proof.
    unfold key_lt, is_subclass. destruct (same (class a) (class b)) eqn:E.
    - apply (same_eq _ _ O) in E. split; [discriminate|tauto].
    - apply same_false in E. destruct (subclass (class a) (class b)) eqn:E1.
      + split; [discriminate|]. intros [_ H]. destruct E. now apply (sub_antisym _ _ O).
      + destruct (subclass (class b) (class a)); [split; auto|]. split; [discriminate|intros [_ H]; discriminate].
  Qed.

  Lemma ask_spec l : outcome answer l (fst (ask answer l)) (snd (ask answer l)).
  Proof.
    induction l as [|a l IH]; [left; repeat split; contradiction|]. cbn [ask].
    destruct (answer a) as [[v|]|x] eqn:E.
    - right. exists [], a, l. repeat split; auto. contradiction.
    - destruct (ask answer l) as [asked r]. cbn [fst snd] in *. destruct IH as [(-> & H & ->)|(d & x & la & -> & -> & H & M)].
      + left. repeat split. intros x [<-|Hx]; auto.
      + right. exists (a :: d), x, la. repeat split; auto. intros y [<-|Hy]; auto.
    - right. exists [], a, l. repeat split; auto. contradiction.
  Qed.

  Theorem dispatch_spec args kwargs :
    exists order, Permutation order (arrays_of args kwargs) /\
      outcome answer order (fst (named_array_function class same subclass answer args kwargs))
                           (snd (named_array_function class same subclass answer args kwargs)) /\
      ((forall x y, In x (arrays_of args kwargs) -> In y (arrays_of args kwargs) ->
          subclass (class x) (class y) = true \/ subclass (class y) (class x) = true) ->
       (forall before x between y after, order = before ++ x :: between ++ y :: after -> subclass (class y) (class x) = true) /\
       forall t, filter (fun x => same (class x) t) order = filter (fun x => same (class x) t) (arrays_of args kwargs)).
  Proof.
    set (lt := key_lt class same subclass).
    assert (EA : flat_map (fun o : option X => match o with Some x => [x] | None => [] end) args ++
                 flat_map (fun o : option X => match o with Some x => [x] | None => [] end) (dvals kwargs) = arrays_of args kwargs).
    { unfold arrays_of. now rewrite flat_map_app. }
    exists (py_sorted lt (arrays_of args kwargs)). split; [apply py_sorted_perm|]. split.
    { unfold named_array_function. rewrite EA. apply ask_spec. }
    intros CH. set (l := arrays_of args kwargs) in *. set (P := fun x => In x l).
    assert (LTF : forall x y, P x -> P y -> lt y x = false -> subclass (class y) (class x) = true).
    { intros x y Px Py H. destruct (subclass (class y) (class x)) eqn:E; auto. exfalso.
      destruct (CH x y Px Py) as [C|C]; [|congruence].
      assert (lt y x = true); [|congruence]. apply key_lt_spec. split; auto. intros EQ. rewrite EQ in E.
      rewrite (sub_refl _ _ O) in E. discriminate. }
    destruct (py_sorted_spec lt P) with (l := l) as [SO ST].
    - intros x. destruct (lt x x) eqn:E; auto. apply key_lt_spec in E as [E _]. now destruct E.
    - intros x y z _ _ _ H1 H2. apply key_lt_spec in H1 as [N1 H1]. apply key_lt_spec in H2 as [N2 H2].
      apply key_lt_spec. split; [|eapply (sub_trans _ _ O); eauto].
      intros EQ. apply N1. apply (sub_antisym _ _ O); auto. now rewrite EQ.
    - intros x y z Px Py Pz H1 H2. destruct (lt z x) eqn:E; auto. exfalso.
      apply key_lt_spec in E as [N E]. pose proof (LTF x y Px Py H1) as L1. pose proof (LTF y z Py Pz H2) as L2.
      apply N. apply (sub_antisym _ _ O); auto. eapply (sub_trans _ _ O); eauto.
    - apply Forall_forall. auto.
    - split.
      + intros before x between y after E.
        assert (Pxy : P x /\ P y).
        { split; apply (Permutation_in _ (py_sorted_perm lt l)); rewrite E; apply in_or_app; right; cbn; auto.
          right. apply in_or_app. cbn; auto. }
        rewrite E in SO. apply sorted_app_elim in SO as (_ & SO & _). inversion SO as [|? ? _ F]; subst.
        apply Forall_app in F as [_ F]. inversion F as [|? ? H _]; subst. now apply LTF.
      + intros t. destruct (filter (fun x => same (class x) t) l) as [|c cs] eqn:EC.
        * assert (NN : forall x, In x (py_sorted lt l) -> same (class x) t = false).
          { intros x Hx. apply (Permutation_in _ (py_sorted_perm lt l)) in Hx.
            destruct (same (class x) t) eqn:E; auto. exfalso.
            assert (In x (filter (fun x => same (class x) t) l)) by (apply filter_In; auto). rewrite EC in H. contradiction. }
          clear - NN. induction (py_sorted lt l) as [|x m IH]; auto. cbn. rewrite NN by (cbn; auto). apply IH. intros; apply NN; cbn; auto.
        * assert (Hc : In c l /\ same (class c) t = true).
          { apply (filter_In (fun x => same (class x) t)). rewrite EC. now left. }
          destruct Hc as [Pc Et]. apply (same_eq _ _ O) in Et. subst t.
          rewrite <- EC.
          assert (EQ : forall m, (forall x, In x m -> P x) -> filter (fun x => same (class x) (class c)) m = class_of lt c m).
          { intros m Hm. unfold class_of. apply filter_ext_in. intros x Hx. specialize (Hm x Hx).
            destruct (same (class x) (class c)) eqn:E.
            - apply (same_eq _ _ O) in E. symmetry. apply andb_true_iff. rewrite !negb_true_iff. split.
              + destruct (lt c x) eqn:E'; auto. apply key_lt_spec in E' as [E' _]. now destruct E'.
              + destruct (lt x c) eqn:E'; auto. apply key_lt_spec in E' as [E' _]. now destruct E'.
            - apply same_false in E. symmetry. apply andb_false_iff. rewrite !negb_false_iff.
              destruct (CH x c Hm Pc) as [C|C]; [left|right]; apply key_lt_spec; auto. }
          rewrite !EQ; auto. intros x Hx. now apply (Permutation_in _ (py_sorted_perm lt l)).
  Qed.
End Order.
