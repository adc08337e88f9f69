(** Facts about joining vectors. *)
From Coq Require Import String List Arith ZArith Bool Lia.
From Verif Require Import Base Numpy Shapes Scalar Reorder Elementwise Reduce Along Vector VectorAxes VectorStack
  Spec SpecNumeric SpecVector SpecMatrix SpecVectorReduce SpecVectorAxes SpecVectorStack
  BaseFacts NumpyFacts ShapesFacts AlignFacts AlongFacts ElementwiseFacts ReduceFacts VectorFacts VectorIndexFacts
  MatrixFacts FuncOpsFacts VectorReduceFacts VectorAxesFacts VectorAlongFacts VectorSortFacts FuncPairsFacts.
Import ListNotations.
Open Scope nat_scope.
Open Scope list_scope.

Section Join.
Context {A : Type} (cat : bool) (axis : string).

(** the vector [v] has size [n] along the axis *)
Definition long (n : nat) (v : vec A) : Prop := cat = true -> exists sh, vec_shape v = Ok sh /\ dget sh axis = Some n.

(** the scalar that takes part in place of [o] *)
Definition stands (n : nat) (o o' : operand A) : Prop :=
  op_wf o' /\ (forall e, op_at o' e = op_at o e) /\
  if cat then forall ax, dget (op_shape o') ax = with_axis (op_shape o) axis n ax else o' = o.

Definition fn (os : list (operand A)) : res (sarr A) := if cat then na_concatenate os axis None else na_stack os axis None.

Lemma stands_trans n o o1 o2 : stands n o o1 -> stands n o1 o2 -> stands n o o2.
Proof.
  intros (W1 & V1 & S1) (W2 & V2 & S2). split; [exact W2|]. split; [intros e; now rewrite V2|].
  destruct cat; [|congruence]. intros ax. rewrite S2. unfold with_axis. destruct (String.eqb ax axis) eqn:E; [reflexivity|]. rewrite S1. unfold with_axis. now rewrite E.
Qed.

Lemma leaf_reaches {L M} (R : L -> M -> Prop) (t : tree L) (u : tree M) :
  (forall p, match leaf_at t p with Some x => exists y, leaf_at u p = Some y /\ R x y | None => leaf_at u p = None end) ->
  forall p, match reaches t p with Some x => exists y, reaches u p = Some y /\ R x y | None => reaches u p = None end.
Proof.
  intros H p. destruct (reaches t p) as [x|] eqn:E.
  - apply reaches_prefix in E. destruct E as (q & q' & -> & E). specialize (H q). rewrite E in H. destruct H as (y & Hy & Q).
    exists y. split; [apply reaches_prefix; eauto|exact Q].
  - destruct (reaches u p) as [y|] eqn:F; [|reflexivity]. exfalso. apply reaches_prefix in F. destruct F as (q & q' & -> & F). specialize (H q).
    destruct (leaf_at t q) as [x|] eqn:G; [|congruence]. assert (X : reaches t (q ++ q') = Some x) by (apply reaches_prefix; eauto). congruence.
Qed.

(** one array before its components are taken *)
Definition prep (v : vec A) : res (vec A) :=
  if cat then sh <- vec_shape v ;; match dget sh axis with Some n => vec_append v [(axis, n)] | None => Err KeyError end else Ok v.

Lemma prep_ok n (v : vec A) : vec_wf v -> filled v -> long n v ->
  exists b, prep v = Ok b /\ vec_wf b /\ depth b = depth v /\ filled b /\ (forall p, kind b p = kind v p) /\
    (forall p, match reaches v p with Some o => exists o', reaches b p = Some o' /\ stands n o o' | None => reaches b p = None end) /\
    (forall p, leaf_at v p = None <-> leaf_at b p = None) /\
    forall c y, component c b = Ok y -> vec_wf y /\ filled y /\ long n y.
Proof.
  intros W Fl Ln. unfold prep. destruct cat eqn:Ec.
  - destruct (Ln Ec) as (sh & Sv & Dn). rewrite Sv. cbn [bind]. rewrite Dn. assert (N := vec_shape_NoDup v sh W Sv).
    assert (FL : forall o, In o (leaves v) -> fits_in (op_shape o) sh) by (intros o Ho; exact (leaf_fits_shape v sh o W Sv Ho)).
    destruct (vec_append_ok axis n v W) as (b & Eb & Wb & Db & Ab & Sb).
    { intros o k Ho Hk. destruct (FL o Ho axis k (dget_In _ _ _ Hk)) as (m & Hm & X). assert (m = n) by (apply In_dget_iff in Hm; [congruence|exact N]). subst m. exact X. }
    exists b. destruct Ab as (Kb & Lb). assert (Fb := filled_kind v b Kb Fl).
    split; [exact Eb|]. split; [exact Wb|]. split; [exact Db|]. split; [exact Fb|]. split; [exact Kb|]. split; [|split].
    + apply leaf_reaches. intros p. specialize (Lb p). destruct (leaf_at v p) as [o|]; [|exact Lb].
      destruct Lb as (a & La & Wa & Da & Va). exists (OpArr a). split; [exact La|]. split; [exact Wa|]. rewrite Ec. split; [exact Va|exact Da].
    + intros p. specialize (Lb p). destruct (leaf_at v p); [destruct Lb as (a & -> & _); split; discriminate|rewrite Lb; tauto].
    + (* the components of b *)
      assert (Lv : forall y, vec_wf y -> filled y -> (forall o', In o' (leaves y) -> In o' (leaves b)) -> long n y).
      { intros y Wy Fy Sub _.
        assert (Leaf_y : forall o', In o' (leaves y) -> op_wf o' /\ fits_in (op_shape o') sh /\ dget (op_shape o') axis = Some n).
        { intros o' Ho'. destruct (In_leaf b o' (tree_ok_any _ _ Wb) (Sub o' Ho')) as (p & Lp). split; [exact (tree_ok_leaf_at _ _ _ _ Wb Lp)|].
          specialize (Lb p). destruct (leaf_at v p) as [o|] eqn:Lo; [|congruence]. destruct Lb as (a & La & Wa & Da & Va).
          assert (o' = OpArr a) by congruence. subst o'. cbn [op_shape]. split.
          - intros ax m Hm. apply In_dget_iff in Hm; [|now apply wf_nodup]. rewrite Da in Hm. unfold with_axis in Hm.
            destruct (String.eqb_spec ax axis) as [-> |Dax].
            + injection Hm as <-. exists n. split; [now apply dget_In|now right].
            + apply (FL o); [exact (leaf_In v p o Lo)|now apply dget_In].
          - rewrite Da. unfold with_axis. now rewrite String.eqb_refl. }
        destruct (vec_shape_fits y sh Wy N) as (s' & Es' & Fs'); [intros o' Ho'; apply (Leaf_y o' Ho')|].
        assert (Ns' := vec_shape_NoDup y s' Wy Es'). exists s'. split; [exact Es'|].
        destruct (filled_leaf y) as (p & o' & Lp); [eapply tree_ok_any; exact Wy|exact Fy|].
        assert (Ho' := leaf_In y p o' Lp). destruct (Leaf_y o' Ho') as (Wo' & _ & Dn').
        destruct (leaf_fits_shape y s' o' Wy Es' Ho' axis n (dget_In _ _ _ Dn')) as (m & Hm & X).
        destruct (Fs' axis m Hm) as (m' & Hm' & X'). assert (m' = n) by (apply In_dget_iff in Hm'; [congruence|exact N]). subst m'.
        apply In_dget_iff in Hm; [|exact Ns']. rewrite Hm. f_equal. lia. }
      intros c y Hy. destruct b as [o|ty rs]; cbn [component] in Hy.
      * injection Hy as <-. auto.
      * destruct (dget rs c) as [x|] eqn:D; [|discriminate]. injection Hy as ->. inversion Wb as [|? ? Nc Wc]; subst. assert (Hc := dget_In _ _ _ D).
        assert (Wy : vec_wf y) by exact (Wc c y Hc). assert (Fy : filled y) by exact (filled_child ty rs c y Nc Fb Hc).
        split; [exact Wy|]. split; [exact Fy|]. apply Lv; auto. intros o' Ho'. cbn [leaves]. apply in_flat_map. exists (c, y). auto.
  - exists v. split; [reflexivity|]. split; [exact W|]. split; [reflexivity|]. split; [exact Fl|]. split; [reflexivity|]. split; [|split; [tauto|]].
    + apply leaf_reaches. intros p. destruct (leaf_at v p) as [o|] eqn:Lo; [|reflexivity]. exists o. split; [reflexivity|]. split; [exact (tree_ok_leaf_at _ _ _ _ W Lo)|].
      split; [reflexivity|]. rewrite Ec. reflexivity.
    + intros c y Hy. assert (Q : vec_wf y /\ filled y); [|split; [apply Q|split; [apply Q|intros Z; congruence]]].
      destruct v as [o|ty rs]; cbn [component] in Hy; [injection Hy as <-; auto|].
      destruct (dget rs c) as [x|] eqn:D; [|discriminate]. injection Hy as ->. inversion W as [|? ? Nc Wc]; subst. assert (Hc := dget_In _ _ _ D).
      split; [exact (Wc c y Hc)|exact (filled_child ty rs c y Nc Fl Hc)].
Qed.

Lemma first_kind (vs : list (vec A)) :
  match first_node vs with
  | Some (ty, cs) => first_some (map (fun v => kind v []) vs) = Some (ty, map fst cs) /\ In (Node ty cs) vs
  | None => first_some (map (fun v => kind v []) vs) = None
  end.
Proof.
  induction vs as [|[x|ty cs] vs IH]; unfold first_node in *; cbn [flat_map app map kind]; [reflexivity| |].
  - rewrite first_some_cons. destruct (flat_map _ vs) as [|[ty cs] l]; cbn in *; [exact IH|]. destruct IH as [E H]. auto.
  - cbn. auto.
Qed.

Lemma with_axis_all_ok (vs bs : list (vec A)) : cat = true -> Forall2 (fun v b => prep v = Ok b) vs bs -> with_axis_all vs axis = Ok bs.
Proof.
  unfold prep. intros -> F. unfold with_axis_all.
  assert (X : exists shs, mapM vec_shape vs = Ok shs /\ existsb (fun sh => negb (smem axis (dkeys sh))) shs = false).
  { clear - F. induction F as [|v b vs bs E F IH]; [exists []; auto|]. destruct IH as (shs & E1 & E2). cbn [mapM]. destruct (vec_shape v) as [sh|]; [|discriminate].
    cbn [bind] in *. rewrite E1. cbn [bind]. exists (sh :: shs). split; [reflexivity|]. cbn [existsb]. rewrite E2, orb_false_r.
    destruct (dget sh axis) as [n|] eqn:D; [|discriminate]. apply negb_false_iff, smem_In, key_dget. eauto. }
  destruct X as (shs & E1 & E2). rewrite E1. cbn [bind]. rewrite E2. now apply mapM_ok_intro.
Qed.

Lemma Forall2_in_l {X Y} (R : X -> Y -> Prop) l m x : Forall2 R l m -> In x l -> exists y, In y m /\ R x y.
Proof. induction 1 as [|a b l m H F IH]; [intros []|]; intros [<- |Hx]; [exists b; split; [now left|exact H]|]. destruct (IH Hx) as (y & Hy & Q). exists y. split; [now right|exact Q]. Qed.

Lemma Forall2_in_r {X Y} (R : X -> Y -> Prop) l m y : Forall2 R l m -> In y m -> exists x, In x l /\ R x y.
Proof. induction 1 as [|a b l m H F IH]; [intros []|]; intros [<- |Hx]; [exists a; split; [now left|exact H]|]. destruct (IH Hx) as (x & Hy & Q). exists x. split; [now right|exact Q]. Qed.

Lemma on_components_or {X Y : Type} (f : string -> tree X -> res (tree Y)) (er : err) (P : string -> Prop) cs :
  (forall c x, In (c, x) cs -> (exists r, f c x = Ok r) \/ f c x = Err er /\ P c) ->
  (exists qs, on_components f cs = Ok qs) \/ on_components f cs = Err er /\ exists c, In c (map fst cs) /\ P c.
Proof.
  unfold on_components. induction cs as [|[c x] cs IH]; intros H; [left; now exists []|].
  cbn [map traverse fst snd]. destruct (H c x (or_introl eq_refl)) as [(r & E)|(E & Pc)]; rewrite E; cbn [bind].
  - destruct IH as [(qs & Eq)|(Eq & c' & Hc & Pc)]; [intros c' x' H'; apply H; now right| |]; rewrite Eq; cbn [bind]; [left; eauto|].
    right. split; [reflexivity|]. exists c'. split; [now right|exact Pc].
  - right. split; [reflexivity|]. exists c. split; [now left|exact Pc].
Qed.

Lemma join_rec_ok {L} fuel : forall (t : tree L) (zs : list (nat * vec A)) (R : list string -> sarr A -> Prop) (Bad : list string -> Prop),
  tree_ok (fun _ => True) t ->
  Forall (fun z => depth (snd z) <= fuel /\ vec_wf (snd z) /\ filled (snd z) /\ long (fst z) (snd z)) zs ->
  merges t (map snd zs) ->
  (forall p os', leaf_at t p <> None ->
     Forall2 (fun z o' => exists o, reaches (snd z) p = Some o /\ stands (fst z) o o') zs os' -> (exists r, fn os' = Ok r /\ wf r /\ R p r) \/ fn os' = Err ValueError /\ Bad p) ->
  (exists r, join_rec fuel cat (map snd zs) axis = Ok r /\ same_kind t r /\
    forall p, leaf_at t p <> None -> exists a, leaf_at r p = Some (OpArr a) /\ wf a /\ R p a) \/
  join_rec fuel cat (map snd zs) axis = Err ValueError /\ exists p, leaf_at t p <> None /\ Bad p.
Proof.
  induction fuel as [|fuel IH]; intros t zs R Bad T F (Su & Kd) H; (destruct t as [l|ty ts]).
  1, 3: assert (X : exists os, map snd zs = map Leaf os /\ Forall2 (fun z o => snd z = Leaf o) zs os);
    [clear - Su; induction zs as [|[n v] zs IHz]; [exists []; split; [reflexivity|constructor]|];
      destruct IHz as (os & E & F); [intros v' Hv; apply Su; now right|];
      destruct (Su v (or_introl eq_refl)) as [_ Re]; specialize (Re [] ltac:(discriminate));
      destruct v as [o|]; [|exfalso; now apply Re]; exists (o :: os); split; [cbn [map snd]; now rewrite E|constructor; auto]|];
    destruct X as (os & E & G); assert (Y := proj2 (first_node_None _) (ex_intro _ os E));
    destruct (H [] os) as [(r & Er & Wr & Hr)|(Er & Hb)];
    [discriminate
    |clear - F G; induction G as [|[n v] o zs os Ev G IHg]; [constructor|]; cbn [fst snd] in *; subst v; inversion F as [|? ? (_ & Wo & _ & Ln) F']; subst;
      constructor; [|now apply IHg]; exists o; split; [reflexivity|]; cbn [fst snd] in *; inversion Wo as [? Wo'|]; subst; split; [exact Wo'|]; split; [reflexivity|];
      unfold long in Ln; destruct cat; [|reflexivity]; destruct (Ln eq_refl) as (sh & Sh & D); cbn [vec_shape] in Sh;
      assert (sh = op_shape o) by (destruct o; cbn [op_shape] in *; injection Sh as <-; reflexivity); subst sh;
      intros ax; unfold with_axis; destruct (String.eqb_spec ax axis) as [-> |]; [exact D|reflexivity]
    | |];
    cbn [join_rec]; rewrite Y, E, leaves_of_Leaf; unfold fn in Er; rewrite Er; cbn [bind];
    [left; eexists; split; [reflexivity|]; split;
     [split; [intros [|]; reflexivity|intros [|]; cbn; split; congruence]|];
     intros [|c p] Hp; [exists r; auto|now elim Hp]
    |right; split; [reflexivity|]; exists []; split; [discriminate|exact Hb]].
  - exfalso. assert (X := first_kind (map snd zs)). rewrite <- Kd in X. destruct (first_node (map snd zs)) as [[ty' cs]|]; [|discriminate].
    destruct X as [_ X]. apply in_map_iff in X. destruct X as ([n v] & Ev & Hv). cbn [snd] in Ev. subst v. rewrite Forall_forall in F. destruct (F _ Hv) as (D & _). cbn in D. lia.
  - assert (X := first_kind (map snd zs)). rewrite <- Kd in X. cbn [join_rec]. destruct (first_node (map snd zs)) as [[ty' cs]|] eqn:Fn; [|discriminate].
    destruct X as [X Xin]. cbn [kind] in X. injection X as <- Names.
    assert (Acc : forallb (accepts ty) (map snd zs) = true) by (apply forallb_forall; intros v Hv; exact (suits_accepts ty ts v (Su v Hv))).
    rewrite Acc. cbn [negb].
    inversion T as [|? ? Nt Tc]; subst.
    (* the arrays with the axis *)
    assert (Bs : exists bs, Forall2 (fun z b => prep (snd z) = Ok b /\ vec_wf b /\ depth b = depth (snd z) /\ (forall p, kind b p = kind (snd z) p) /\
        (forall p, match reaches (snd z) p with Some o => exists o', reaches b p = Some o' /\ stands (fst z) o o' | None => reaches b p = None end) /\
        forall c y, component c b = Ok y -> vec_wf y /\ filled y /\ long (fst z) y) zs bs).
    { clear - F. induction F as [|[n v] zs (_ & W & Fl & Ln) F IHf]; [exists []; constructor|]. destruct IHf as (bs & B).
      destruct (prep_ok n v W Fl Ln) as (b & E & Wb & Db & _ & Kb & Rb & _ & Cb). exists (b :: bs). constructor; [cbn [fst snd]; auto 10|exact B]. }
    destruct Bs as (bs & B).
    assert (Eb : (if cat then with_axis_all (map snd zs) axis else Ok (map snd zs)) = Ok bs).
    { assert (P : Forall2 (fun v b => prep v = Ok b) (map snd zs) bs) by (clear - B; induction B as [|z b zs bs (E & _) B IHb]; constructor; auto).
      destruct cat eqn:Ec; [now apply with_axis_all_ok|]. f_equal. unfold prep in P. rewrite Ec in P. clear - P. remember (map snd zs) as vs eqn:Q. clear Q zs. induction P as [|v b vs bs E P IHp]; [reflexivity|]. injection E as <-. now f_equal. }
    rewrite Eb. cbn [bind].
    assert (Sb : forall b, In b bs -> suits (Node ty ts) b).
    { intros b Hb. destruct (Forall2_in_r _ _ _ b B Hb) as (z & Hz & _ & _ & _ & Kb & Rb & _). destruct (Su (snd z) (in_map snd _ _ Hz)) as (Al & Re). split.
      - intros p t1 n1 t2 n2 K1 K2. rewrite Kb in K2. exact (Al p t1 n1 t2 n2 K1 K2).
      - intros p Hp. specialize (Re p Hp). specialize (Rb p). destruct (reaches (snd z) p); [destruct Rb as (o' & -> & _); discriminate|congruence]. }
    assert (Child : forall c x, dget ts c = Some x -> exists xs, mapM (component c) bs = Ok xs /\
        ((exists r, join_rec fuel cat xs axis = Ok r /\ same_kind x r /\
          forall p, leaf_at x p <> None -> exists a, leaf_at r p = Some (OpArr a) /\ wf a /\ R (c :: p) a) \/
         join_rec fuel cat xs axis = Err ValueError /\ exists p, leaf_at x p <> None /\ Bad (c :: p))).
    { intros c x Dx. assert (Hx := dget_In _ _ _ Dx).
      assert (Cs : exists xs, Forall2 (fun b y => component c b = Ok y) bs xs).
      { clear - Sb Hx. induction bs as [|b bs IHb]; [exists []; constructor|]. destruct IHb as (xs & G); [intros b' Hb; apply Sb; now right|].
        destruct (suits_exists ty ts c x b Hx (Sb b (or_introl eq_refl))) as (y & E). exists (y :: xs). now constructor. }
      destruct Cs as (xs & C). exists xs.
      assert (Lz : map snd (combine (map fst zs) xs) = xs).
      { clear - B C. revert xs C. induction B as [|z b zs bs _ _ IHb]; intros xs C; inversion C; subst; [reflexivity|]. cbn [map combine snd]. f_equal. now apply IHb. }
      assert (Ix := IH x (combine (map fst zs) xs) (fun p => R (c :: p)) (fun p => Bad (c :: p))). rewrite Lz in Ix.
      split; [now apply mapM_ok_intro|]. apply Ix; clear Ix.
      - exact (Tc c x Hx).
      - clear - B C F. revert xs C. induction B as [|z b zs bs (_ & Wb & Db & _ & _ & Cb) _ IHb]; intros xs C; inversion C as [|? y ? xs' Ey C']; subst; [constructor|]. inversion F as [|? ? (Dz & _) F']; subst.
        cbn [map combine]. constructor; [|now apply IHb]. cbn [fst snd]. destruct (Cb c y Ey) as (Wy & Fy & Ly). split; [|auto].
        destruct b as [o|ty cs]; cbn [component] in Ey; [injection Ey as <-; cbn; lia|].
        destruct (dget cs c) as [y'|] eqn:D; [|discriminate]. injection Ey as ->. assert (X := depth_In ty cs c y (dget_In _ _ _ D)). lia.
      - split.
        + intros y Hy. destruct (Forall2_in_r _ _ _ y C Hy) as (b & Hb & Ey). exact (suits_component ty ts c x b y Dx (Sb b Hb) Ey).
        + intros p. assert (K := Kd (c :: p)). cbn [kind] in K. rewrite Dx in K. rewrite K. f_equal. rewrite map_map. clear - B C. revert xs C.
          induction B as [|z b zs bs (_ & _ & _ & Kb & _) _ IHb]; intros xs C; inversion C as [|? y ? xs' Ey C']; subst; [reflexivity|]. cbn [map]. f_equal; [|now apply IHb].
          rewrite <- (component_kind c b y p Ey). cbn beta. symmetry. apply Kb.
      - intros p os' Hp G. apply (H (c :: p) os'); [cbn [leaf_at]; now rewrite Dx|]. clear - B C G. revert xs C os' G.
        induction B as [|z b zs bs (_ & _ & _ & _ & Rb & _) _ IHb]; intros xs C os' G; inversion C as [|? y ? xs' Ey C']; subst; cbn [map combine] in G;
          inversion G as [|? o2 ? os2 (o1 & R1 & S1) G']; subst; constructor; [|now apply (IHb xs')].
        cbn [fst snd] in *. rewrite <- (component_reaches c b y p Ey) in R1. specialize (Rb (c :: p)).
        destruct (reaches (snd z) (c :: p)) as [o|]; [|congruence]. destruct Rb as (o' & R' & S'). assert (o' = o1) by congruence. subst o'. exists o. split; [reflexivity|]. exact (stands_trans _ _ _ _ S' S1). }
    assert (Dk : forall c, dget cs c = None <-> dget ts c = None).
    { intros c. rewrite !dget_None. unfold dkeys. rewrite Names. tauto. }
    destruct (on_components_or (fun c (_ : vec A) => xs <- mapM (component c) bs ;; join_rec fuel cat xs axis) ValueError
        (fun c => exists p, leaf_at (Node ty ts) (c :: p) <> None /\ Bad (c :: p)) cs) as [(qs & Eq)|(Eq & c & _ & p & Hp)].
    { intros c y Hy. destruct (dget ts c) as [x|] eqn:Dx.
      - destruct (Child c x Dx) as (xs & Ex & [(r & Er & _)|(Er & p & Hp)]); rewrite Ex; cbn [bind]; [left; eauto|right].
        split; [exact Er|]. exists p. cbn [leaf_at]. now rewrite Dx.
      - exfalso. apply Dk in Dx. apply dget_None in Dx. apply Dx. exact (in_map fst _ _ Hy). }
    2:{ right. rewrite Eq. split; [reflexivity|]. exists (c :: p). exact Hp. }
    left. rewrite Eq. cbn [bind]. eexists. split; [reflexivity|]. destruct (on_components_get _ _ _ Eq) as (Nq & Gq).
    assert (Q : forall c, match dget ts c, dget qs c with Some x, Some r => same_kind x r /\ forall p, leaf_at x p <> None -> exists a, leaf_at r p = Some (OpArr a) /\ wf a /\ R (c :: p) a | None, None => True | _, _ => False end).
    { intros c. specialize (Gq c). destruct (dget ts c) as [x|] eqn:Dx.
      - destruct (dget cs c) as [y|] eqn:Dy; [|apply Dk in Dy; congruence]. destruct (dget qs c) as [q|]; [|contradiction].
        destruct (Child c x Dx) as (xs & Ex & [(r & Er & Hr)|(Er & _)]); rewrite Ex in Gq; cbn [bind] in Gq; [|congruence]. assert (r = q) by congruence. subst q. exact Hr.
      - apply Dk in Dx. rewrite Dx in Gq. destruct (dget qs c); [contradiction|exact Logic.I]. }
    split; [split|].
    + intros [|c p]; cbn [kind]; [congruence|]. specialize (Q c). destruct (dget ts c), (dget qs c); try contradiction; [|reflexivity]. apply Q.
    + intros [|c p]; cbn [leaf_at]; [tauto|]. specialize (Q c). destruct (dget ts c), (dget qs c); try contradiction; [|tauto]. apply Q.
    + intros [|c p] Hp; cbn [leaf_at] in *; [now elim Hp|]. specialize (Q c). destruct (dget ts c), (dget qs c); try contradiction. now apply Q.
Qed.
End Join.

Lemma scalars_unique {L} (vs : list (tree L)) p os os' : scalars_at vs p os -> scalars_at vs p os' -> os = os'.
Proof. intros F. revert os'. induction F as [|v o vs os E F IH]; intros os' G; inversion G; subst; [reflexivity|]. f_equal; [congruence|now apply IH]. Qed.

Lemma sizes_other (l l' : list shape) ax : Forall2 (fun s s' => dget s ax = dget s' ax) l l' -> sizes_of l ax = sizes_of l' ax.
Proof. induction 1 as [|s s' l l' E F IH]; [reflexivity|]. unfold sizes_of in *. cbn [flat_map]. now rewrite E, IH. Qed.

Lemma keys_sizes (l : list shape) ax : In ax (concat (map dkeys l)) <-> sizes_of l ax <> [].
Proof.
  induction l as [|s l IH]; [cbn; split; [intros []|congruence]|]. cbn [map concat]. rewrite in_app_iff, IH, key_dget. unfold sizes_of. cbn [flat_map].
  destruct (dget s ax) as [n|] eqn:E; cbn [app]; split; try discriminate; eauto. intros [[n H]|H]; [discriminate|exact H].
Qed.

Lemma Forall2_nth {X Y} (R : X -> Y -> Prop) l m k x : Forall2 R l m -> nth_error l k = Some x -> exists y, nth_error m k = Some y /\ R x y.
Proof. intros F. revert k. induction F as [|a b l m H F IH]; intros [|k] E; try discriminate; cbn in *; [injection E as <-; eauto|now apply IH]. Qed.

Lemma combine_snd {X Y} (l : list X) (m : list Y) : length l = length m -> map snd (combine l m) = m.
Proof. revert m. induction l as [|x l IH]; intros [|y m] H; cbn in *; try discriminate; [reflexivity|]. f_equal. apply IH. lia. Qed.

(** ** Concatenation *)

Lemma concatenate_leaf {A} (axis : string) (zs : list (nat * vec A)) (p : list string) (os' : list (operand A)) : zs <> [] ->
  Forall2 (fun z o' => exists o, reaches (snd z) p = Some o /\ stands true axis (fst z) o o') zs os' ->
  exists os, scalars_at (map snd zs) p os /\
    (~ conflict (map (fun o => without (op_shape o) [axis]) os) ->
      exists r, na_concatenate os' axis None = Ok r /\ wf r /\ concatenated os axis (map fst zs) r) /\
    (conflict (map (fun o => without (op_shape o) [axis]) os) -> na_concatenate os' axis None = Err ValueError).
Proof.
  intros Ne F.
  assert (X : exists os, scalars_at (map snd zs) p os /\ Forall2 (fun z oo => stands true axis (fst z) (fst oo) (snd oo)) zs (combine os os') /\ length os = length os').
  { clear Ne. induction F as [|z o' zs os' (o & Ro & So) F IH]; [exists []; repeat split; constructor|]. destruct IH as (os & Sc & G & Le).
    exists (o :: os). split; [constructor; [exact Ro|exact Sc]|]. split; [constructor; [exact So|exact G]|cbn; lia]. }
  destruct X as (os & Sc & G & Le). exists os. split; [exact Sc|].
  assert (W' : Forall op_wf os').
  { clear - F. induction F as [|z o' zs os' (o & _ & So) F IH]; constructor; [apply So|exact IH]. }
  assert (D : forall ax, ax <> axis -> Forall2 (fun o o' => dget (op_shape o) ax = dget (op_shape o') ax) os os').
  { intros ax Nx. clear - G Nx Le. revert zs os' G Le. induction os as [|o os IH]; intros zs [|o' os'] G Le; cbn in Le; try discriminate; [constructor|].
    cbn [combine] in G. inversion G as [|z ? zs' ? (_ & _ & Sd) G']; subst. constructor; [|apply (IH zs' os'); [exact G'|lia]].
    cbn [fst snd] in Sd. rewrite Sd. unfold with_axis. destruct (String.eqb_spec ax axis); [contradiction|reflexivity]. }
  assert (Da : Forall2 (fun n o' => dget (op_shape o') axis = Some n) (map fst zs) os').
  { clear - F. induction F as [|z o' zs os' (o & _ & _ & _ & Sd) F IH]; constructor; [|exact IH]. rewrite Sd. unfold with_axis. now rewrite String.eqb_refl. }
  set (shapes := map (fun a => resized (sshape a) axis 1) (map normalize os')) in *.
  assert (Sz : forall ax, ax <> axis -> sizes_of shapes ax = sizes_of (map op_shape os) ax).
  { intros ax Nx. symmetry. apply sizes_other. specialize (D ax Nx). unfold shapes. clear - D Nx. induction D as [|o o' os os' E D IH]; cbn [map]; constructor; [|exact IH].
    rewrite dget_resized, normalize_shape, E. destruct (String.eqb_spec ax axis); [contradiction|]. now destruct (dget (op_shape o') ax). }
  assert (Sw : forall ax, ax <> axis -> sizes_of (map (fun o => without (op_shape o) [axis]) os) ax = sizes_of (map op_shape os) ax).
  { intros ax Nx. apply sizes_other. clear - Nx. induction os as [|o os IH]; cbn [map]; constructor; [|exact IH]. rewrite dget_others. destruct (String.eqb_spec ax axis); [contradiction|reflexivity]. }
  assert (Cf : conflict shapes <-> conflict (map (fun o => without (op_shape o) [axis]) os)).
  { split; intros (ax & n & m & H1 & H2 & H3); exists ax, n, m; destruct (String.eqb_spec ax axis) as [-> |Nx].
    - exfalso. apply sizes_of_In in H1. destruct H1 as (s & Hs & Ds). unfold shapes in Hs. apply in_map_iff in Hs. destruct Hs as (a & <- & _).
      rewrite dget_resized, String.eqb_refl in Ds. destruct (dget (sshape a) axis); [injection Ds as <-; lia|discriminate].
    - rewrite (Sw ax Nx), <- (Sz ax Nx). auto.
    - exfalso. apply sizes_of_In in H1. destruct H1 as (s & Hs & Ds). apply in_map_iff in Hs. destruct Hs as (a & <- & _). now rewrite dget_others, String.eqb_refl in Ds.
    - rewrite (Sz ax Nx), <- (Sw ax Nx). auto. }
  assert (Sizes : map (fun a => size_of (sshape a) axis) (map normalize os') = map fst zs).
  { clear - Da. induction Da as [|n o' ns os' E Da IH]; cbn [map]; [reflexivity|]. rewrite normalize_shape, IH. f_equal. unfold size_of. now rewrite E. }
  destruct (concatenate_spec os' axis W') as (Good & Err). fold shapes in Good, Err. rewrite Sizes in Good.
  assert (Nl : map normalize os' <> []). { destruct os'; [|discriminate]. inversion F; subst. now elim Ne. }
  assert (Hax : forall a, In a (map normalize os') -> In axis (s_axes a)).
  { intros a Ha. apply in_map_iff in Ha. destruct Ha as (o' & <- & Ho'). rewrite Forall_forall in W'. rewrite <- (wf_keys _ (normalize_wf _ (W' o' Ho'))), normalize_shape.
    destruct (Forall2_in_r _ _ _ o' Da Ho') as (n & _ & Dn). apply key_dget. eauto. }
  split.
  - intros NC. destruct Good as (r & sh & Bs & Er & Wr & Sr & Vr); [split; [exact Nl|]; split; [exact Hax|]; now rewrite Cf|].
    exists r. split; [exact Er|]. split; [exact Wr|].
    assert (Ns : Forall (fun s : shape => NoDup (dkeys s)) shapes).
    { unfold shapes. clear - W'. induction W' as [|o' os' W _ IH]; cbn [map]; constructor; [|exact IH]. unfold dkeys, resized. rewrite map_map. cbn [fst]. apply wf_nodup, normalize_wf, W. }
    destruct (broadcast_shapes_ok _ _ Ns Bs) as (Nsh & _ & Ps). split.
    + intros ax m. rewrite (In_dget_iff _ _ _ (wf_nodup r Wr)), Sr, dget_resized. destruct (String.eqb_spec ax axis) as [-> |Nx].
      * assert (K : In axis (dkeys sh)).
        { assert (K : In axis (concat (map dkeys shapes))).
          { destruct os' as [|o' os']; [now elim Nl|]. unfold shapes. cbn [map concat]. apply in_or_app. left. apply key_dget.
            inversion Da as [|n ? ns ? Dn _]; subst. exists 1. rewrite dget_resized, normalize_shape, Dn, String.eqb_refl. reflexivity. }
          apply (in_map fst sh (axis, 1)). apply Ps. split; [exact K|]. split; [|tauto].
          intros k Hk. left. apply sizes_of_In in Hk. destruct Hk as (s & Hs & Ds). unfold shapes in Hs. apply in_map_iff in Hs. destruct Hs as (a & <- & _).
          rewrite dget_resized, String.eqb_refl in Ds. destruct (dget (sshape a) axis); [now injection Ds|discriminate]. }
        apply key_dget in K. destruct K as (k & ->). split; [intros Q; now injection Q|now intros ->].
      * rewrite <- (Sz ax Nx), <- keys_sizes. rewrite <- Ps. rewrite (In_dget_iff _ _ _ Nsh). destruct (dget sh ax); tauto.
    + intros k o n e Ho Hn He.
      assert (Va : Forall2 (fun o o' : operand A => forall e, op_at o' e = op_at o e) os os').
      { clear - G Le. revert zs os' G Le. induction os as [|o os IH]; intros zs [|o' os'] G Le; cbn in Le; try discriminate; [constructor|].
        cbn [combine] in G. inversion G as [|z ? zs' ? (_ & Sv & _) G']; subst. constructor; [exact Sv|apply (IH zs' os'); [exact G'|lia]]. }
      destruct (Forall2_nth _ _ _ k o Va Ho) as (o' & Ho' & Eo). rewrite <- Eo, <- normalize_at.
      apply (Vr k (normalize o') e); [now apply map_nth_error|]. rewrite normalize_shape.
      destruct (Forall2_nth _ _ _ k n Da Hn) as (o2 & Ho2 & Dn). assert (o2 = o') by congruence. subst o2. unfold size_of. now rewrite Dn.
  - intros C. apply Err. intros (_ & _ & Q). apply Q. now apply Cf.
Qed.

Lemma zs_of {A} (vs : list (vec A)) (axis : string) (ns : list nat) (b : bool) : Forall vec_wf vs -> Forall filled vs ->
  (b = true -> lengths vs axis ns) -> length ns = length vs ->
  Forall (fun z => depth (snd z) <= list_max (map depth vs) /\ vec_wf (snd z) /\ filled (snd z) /\ long b axis (fst z) (snd z)) (combine ns vs).
Proof.
  intros W Fl Ln Le. apply Forall_forall. intros [n v] Hz. assert (Hv := in_combine_r _ _ _ _ Hz). rewrite Forall_forall in W, Fl. cbn [fst snd].
  split; [apply list_max_In, in_map; exact Hv|]. split; [now apply W|]. split; [now apply Fl|]. intros Eb. specialize (Ln Eb).
  clear - Ln Hz W. revert Hz. assert (W' : forall v, In v vs -> vec_wf v) by exact W. clear W. induction Ln as [|v' n' vs ns (sh & Sh & Hn) Ln IH]; [intros []|]. cbn [combine]. intros [Q|Q].
  - injection Q as -> ->. exists sh. split; [exact Sh|]. apply In_dget_iff; [|exact Hn]. exact (vec_shape_NoDup v sh (W' v (or_introl eq_refl)) Sh).
  - apply IH; [|exact Q]. intros u Hu. apply W'. now right.
Qed.

Lemma vec_concatenate_spec {A L} (t : tree L) (vs : list (vec A)) (axis : string) (ns : list nat) :
  vs <> [] -> Forall vec_wf vs -> Forall filled vs -> tree_ok (fun _ => True) t -> merges t vs -> lengths vs axis ns ->
  let fits p := forall os, scalars_at vs p os -> ~ conflict (map (fun o => without (op_shape o) [axis]) os) in
  ((forall p, leaf_at t p <> None -> fits p) -> exists r, vec_concatenate vs axis = Ok r /\ same_kind t r /\
     forall p os, leaf_at t p <> None -> scalars_at vs p os -> exists a, leaf_at r p = Some (OpArr a) /\ wf a /\ concatenated os axis ns a) /\
  (~ (forall p, leaf_at t p <> None -> fits p) -> vec_concatenate vs axis = Err ValueError).
Proof.
  intros Ne W Fl T M Ln fits. assert (Le : length ns = length vs) by (symmetry; exact (Forall2_length _ _ _ Ln)).
  assert (Es := combine_snd ns vs Le). assert (Ef : map fst (combine ns vs) = ns).
  { clear - Le. revert vs Le. induction ns as [|n ns IH]; intros [|v vs] Le; cbn in *; try discriminate; [reflexivity|]. f_equal. apply IH. lia. }
  assert (J := join_rec_ok true axis (list_max (map depth vs)) t (combine ns vs)
    (fun p a => exists os, scalars_at vs p os /\ ~ conflict (map (fun o => without (op_shape o) [axis]) os) /\ concatenated os axis ns a)
    (fun p => exists os, scalars_at vs p os /\ conflict (map (fun o => without (op_shape o) [axis]) os)) T).
  rewrite Es in J. unfold vec_concatenate, vec_join.
  destruct J as [(r & Er & Kr & Hr)|(Er & p & Hp & os & Sc & C)].
  - now apply zs_of.
  - exact M.
  - intros p os' Hp G. destruct (concatenate_leaf axis (combine ns vs) p os') as (os & Sc & Good & Bad); [|exact G|].
    { intros Z. apply Ne. rewrite <- Es, Z. reflexivity. }
    rewrite Es in Sc. rewrite Ef in Good. unfold fn.
    assert (Nd : Forall (fun s : shape => NoDup (dkeys s)) (map (fun o => without (op_shape o) [axis]) os)).
    { apply Forall_forall. intros s Hs. apply in_map_iff in Hs. destruct Hs as (o & <- & Ho). destruct (Forall2_in_r _ _ _ o Sc Ho) as (v & Hv & Ro). rewrite Forall_forall in W.
      unfold without, dkeys. apply nodup_map_filter. apply op_nodup'. exact (tree_ok_reaches _ _ _ _ (W v Hv) Ro). }
    destruct (broadcast_shapes_total _ Nd) as [(q & Q)|Q].
    + left. destruct Good as (r & Er & Wr & Cr); [intros C; apply (broadcast_shapes_conflict _ Nd) in C; congruence|].
      exists r. split; [exact Er|]. split; [exact Wr|]. exists os. split; [exact Sc|]. split; [|exact Cr]. intros C. apply (broadcast_shapes_conflict _ Nd) in C. congruence.
    + right. apply (broadcast_shapes_conflict _ Nd) in Q. split; [now apply Bad|]. exists os. auto.
  - split.
    + intros _. exists r. split; [exact Er|]. split; [exact Kr|]. intros p os Hp Sc. destruct (Hr p Hp) as (a & La & Wa & os2 & Sc2 & _ & Ca).
      exists a. rewrite (scalars_unique vs p os os2 Sc Sc2). auto.
    + intros Q. exfalso. apply Q. intros p Hp os Sc. destruct (Hr p Hp) as (a & La & Wa & os2 & Sc2 & NC & _). now rewrite (scalars_unique vs p os os2 Sc Sc2).
  - split; [|intros _; exact Er]. intros Q. exfalso. exact (Q p Hp os Sc C).
Qed.

(** an axis that is not there *)
Lemma vec_concatenate_missing {A L} (t : tree L) (vs : list (vec A)) (axis : string) : is_node t -> merges t vs ->
  (forall v, In v vs -> exists sh, vec_shape v = Ok sh) ->
  (exists v sh, In v vs /\ vec_shape v = Ok sh /\ ~ In axis (dkeys sh)) -> vec_concatenate vs axis = Err ValueError.
Proof.
  intros (ty & ts & ->) (Su & Kd) Sh (v & sh & Hv & Sv & Nx). unfold vec_concatenate, vec_join.
  assert (X := first_kind vs). rewrite <- Kd in X. destruct (first_node vs) as [[ty' cs]|] eqn:Fn; [|discriminate]. destruct X as [X Xin]. cbn [kind] in X. injection X as <- Names.
  destruct (list_max (map depth vs)) as [|fuel] eqn:El.
  { exfalso. assert (Z := list_max_In _ _ (in_map depth _ _ Xin)). cbn [depth] in Z. lia. }
  cbn [join_rec]. rewrite Fn.
  assert (Acc : forallb (accepts ty) vs = true) by (apply forallb_forall; intros u Hu; exact (suits_accepts ty ts u (Su u Hu))).
  rewrite Acc. cbn [negb]. unfold with_axis_all.
  assert (Y : exists shs, mapM vec_shape vs = Ok shs /\ Forall2 (fun v s => vec_shape v = Ok s) vs shs).
  { clear - Sh. induction vs as [|v vs IH]; [exists []; split; [reflexivity|constructor]|]. destruct IH as (shs & E & F); [intros u Hu; apply Sh; now right|].
    destruct (Sh v (or_introl eq_refl)) as (s & Es). exists (s :: shs). cbn [mapM]. rewrite Es. cbn [bind]. rewrite E. split; [reflexivity|now constructor]. }
  destruct Y as (shs & E & F). rewrite E. cbn [bind].
  assert (Z : existsb (fun sh => negb (smem axis (dkeys sh))) shs = true).
  { apply existsb_exists. destruct (Forall2_in_l _ _ _ v F Hv) as (s & Hs & Es). exists s. split; [exact Hs|]. assert (s = sh) by congruence. subst s.
    apply negb_true_iff. destruct (smem axis (dkeys sh)) eqn:Q; [|reflexivity]. now apply smem_In in Q. }
  rewrite Z. reflexivity.
Qed.

(** ** Stacking *)

Lemma stack_leaf {A} (axis : string) (os : list (operand A)) : Forall op_wf os -> os <> [] ->
  (stackable axis os -> exists r, na_stack os axis None = Ok r /\ wf r /\ stacked os axis r) /\
  (~ stackable axis os -> na_stack os axis None = Err ValueError).
Proof.
  intros W Ne. destruct (stack_spec os axis W) as (Good & Bad).
  assert (Ms : map sshape (map normalize os) = map op_shape os) by (rewrite map_map; apply map_ext; intros o; apply normalize_shape).
  rewrite Ms in Good, Bad. assert (Nl : map normalize os <> []) by (destruct os; [now elim Ne|discriminate]).
  assert (Ok_iff : map normalize os <> [] /\ (forall a, In a (map normalize os) -> ~ In axis (s_axes a)) /\ ~ conflict (map op_shape os) <-> stackable axis os).
  { rewrite Forall_forall in W. split; [intros (_ & H & C)|intros (H & C)].
    - split; [|exact C]. intros o Ho. specialize (H (normalize o) (in_map _ _ _ Ho)). now rewrite <- (wf_keys _ (normalize_wf _ (W o Ho))), normalize_shape in H.
    - split; [exact Nl|]. split; [|exact C]. intros a Ha. apply in_map_iff in Ha. destruct Ha as (o & <- & Ho). rewrite <- (wf_keys _ (normalize_wf _ (W o Ho))), normalize_shape. now apply H. }
  rewrite Ok_iff in Good, Bad. split; [|exact Bad]. intros S. destruct (Good S) as (r & sh & Bs & Er & Wr & Sr & Vr). exists r. split; [exact Er|]. split; [exact Wr|].
  assert (Ns : Forall (fun s : shape => NoDup (dkeys s)) (map op_shape os)).
  { clear - W. induction W as [|o os W _ IH]; cbn [map]; constructor; [now apply op_nodup'|exact IH]. }
  destruct (broadcast_shapes_ok _ _ Ns Bs) as (Nsh & _ & Ps). split.
  - intros ax m. assert (Nr := wf_nodup r Wr). rewrite Sr in Nr. inversion Nr as [|? ? Na _]; subst. rewrite Sr, map_length. cbn [In].
    destruct (String.eqb_spec ax axis) as [-> |Nx].
    + split; [|intros ->; now left]. intros [Q|Q]; [now injection Q|]. exfalso. apply Na. exact (in_map fst _ _ Q).
    + rewrite <- keys_sizes, <- Ps. split; [intros [Q|Q]; [injection Q as Q _; congruence|exact Q]|now right].
  - intros k o e Ho Hk. rewrite <- normalize_at. apply (Vr k); [now apply map_nth_error|exact Hk].
Qed.

Lemma stackable_dec {A} axis (os : list (operand A)) : Forall op_wf os -> stackable axis os \/ ~ stackable axis os.
Proof.
  intros W. assert (Ns : Forall (fun s : shape => NoDup (dkeys s)) (map op_shape os)).
  { clear - W. induction W as [|o os W _ IH]; cbn [map]; constructor; [now apply op_nodup'|exact IH]. }
  destruct (broadcast_shapes_total _ Ns) as [(q & Q)|Q].
  - assert (C : ~ conflict (map op_shape os)) by (intros C; apply (broadcast_shapes_conflict _ Ns) in C; congruence).
    destruct (existsb (fun o => smem axis (dkeys (op_shape o))) os) eqn:E.
    + right. intros (H & _). apply existsb_exists in E. destruct E as (o & Ho & E). apply smem_In in E. exact (H o Ho E).
    + left. split; [|exact C]. intros o Ho Hx. rewrite <- not_true_iff_false in E. apply E. apply existsb_exists. exists o. split; [exact Ho|now apply smem_In].
  - right. intros (_ & C). apply C. now apply (broadcast_shapes_conflict _ Ns).
Qed.

Lemma vec_stack_spec {A L} (t : tree L) (vs : list (vec A)) (axis : string) :
  vs <> [] -> Forall vec_wf vs -> Forall filled vs -> tree_ok (fun _ => True) t -> merges t vs ->
  let fits p := forall os, scalars_at vs p os -> stackable axis os in
  ((forall p, leaf_at t p <> None -> fits p) -> exists r, vec_stack vs axis = Ok r /\ same_kind t r /\
     forall p os, leaf_at t p <> None -> scalars_at vs p os -> exists a, leaf_at r p = Some (OpArr a) /\ wf a /\ stacked os axis a) /\
  (~ (forall p, leaf_at t p <> None -> fits p) -> vec_stack vs axis = Err ValueError).
Proof.
  intros Ne W Fl T M fits. set (ns := map (fun _ => 0) vs). assert (Le : length ns = length vs) by apply map_length.
  assert (Es := combine_snd ns vs Le).
  assert (J := join_rec_ok false axis (list_max (map depth vs)) t (combine ns vs)
    (fun p a => exists os, scalars_at vs p os /\ stackable axis os /\ stacked os axis a)
    (fun p => exists os, scalars_at vs p os /\ ~ stackable axis os) T).
  rewrite Es in J. unfold vec_stack, vec_join.
  destruct J as [(r & Er & Kr & Hr)|(Er & p & Hp & os & Sc & C)].
  - apply zs_of; auto. discriminate.
  - exact M.
  - intros p os Hp G.
    assert (Sc : scalars_at vs p os).
    { rewrite <- Es. clear - G. induction G as [|z o' zs os (o & Ro & _ & _ & Eo) G IH]; cbn [map]; constructor; [congruence|exact IH]. }
    assert (Wo : Forall op_wf os).
    { apply Forall_forall. intros o Ho. destruct (Forall2_in_r _ _ _ o Sc Ho) as (v & Hv & Ro). rewrite Forall_forall in W. exact (tree_ok_reaches _ _ _ _ (W v Hv) Ro). }
    assert (No : os <> []) by (intros ->; inversion Sc; subst; now apply Ne).
    destruct (stack_leaf axis os Wo No) as (Good & Bad). unfold fn. destruct (stackable_dec axis os Wo) as [S|S].
    + left. destruct (Good S) as (r & Er & Wr & Sr). exists r. split; [exact Er|]. split; [exact Wr|]. exists os. auto.
    + right. split; [now apply Bad|]. exists os. auto.
  - split.
    + intros _. exists r. split; [exact Er|]. split; [exact Kr|]. intros p os Hp Sc. destruct (Hr p Hp) as (a & La & Wa & os2 & Sc2 & _ & Ca).
      exists a. rewrite (scalars_unique vs p os os2 Sc Sc2). auto.
    + intros Q. exfalso. apply Q. intros p Hp os Sc. destruct (Hr p Hp) as (a & La & Wa & os2 & Sc2 & NC & _). now rewrite (scalars_unique vs p os os2 Sc Sc2).
  - split; [|intros _; exact Er]. intros Q. exfalso. exact (C (Q p Hp os Sc)).
Qed.

(** vectors of different types *)
Lemma vec_join_types {A} (b : bool) (vs : list (vec A)) (axis : string) (v w : vec A) t1 n1 t2 n2 : In v vs -> In w vs ->
  kind v [] = Some (t1, n1) -> kind w [] = Some (t2, n2) -> t1 <> t2 -> vec_join b vs axis = Err TypeError.
Proof.
  intros Hv Hw Kv Kw D. destruct v as [|ty1 cs1]; [discriminate|]. destruct w as [|ty2 cs2]; [discriminate|]. cbn [kind] in Kv, Kw.
  injection Kv as -> _. injection Kw as -> _. unfold vec_join.
  destruct (leaf_or_node vs) as [(xs & E & _)|(ty & cs & xs & l & E & Fn)].
  { exfalso. rewrite E in Hv. apply in_map_iff in Hv. destruct Hv as (x & Q & _). discriminate. }
  destruct (list_max (map depth vs)) as [|fuel] eqn:El.
  { exfalso. assert (Z := list_max_In _ _ (in_map depth _ _ Hv)). cbn [depth] in Z. lia. }
  cbn [join_rec]. rewrite Fn.
  assert (Acc : forallb (accepts ty) vs = false).
  { destruct (forallb (accepts ty) vs) eqn:Q; [|reflexivity]. exfalso. rewrite forallb_forall in Q. assert (Q1 := Q _ Hv). assert (Q2 := Q _ Hw).
    cbn [accepts] in Q1, Q2. apply String.eqb_eq in Q1, Q2. congruence. }
  now rewrite Acc.
Qed.
