(** Facts about the Jacobian. *)
From Coq Require Import Ascii String List Arith ZArith Bool Lia Permutation Field Field_theory.
From Verif Require Import Base BaseFacts Numpy NumpyFacts Shapes Scalar Elementwise Vector Matrix Jacobian Spec SpecDerived SpecVector SpecMatrix SpecTransform SpecJacobian.
From Verif Require Import ShapesFacts AlignFacts ElementwiseFacts VectorFacts CartesianFacts VectorIndexFacts MatrixFacts MatrixLaws TransformFacts.
Import ListNotations.
Open Scope nat_scope.
Open Scope list_scope.

(** ** The step *)

Lemma leaf_at_tree {L} ty (cs : list (string * tree L)) c q : leaf_at (Node ty cs) (c :: q) = match dget cs c with Some x => leaf_at x q | None => None end.
Proof. reflexivity. Qed.

Lemma kind_child {L M} ty (cs : list (string * tree L)) ty' (ds : list (string * tree M)) c x :
  of_kind (Node ty cs) (Node ty' ds) -> dget cs c = Some x -> exists y, dget ds c = Some y /\ of_kind x y.
Proof.
  intros H D. assert (Hn := H []). simpl in Hn. injection Hn as _ Hn.
  assert (In c (dkeys ds)) as Kc.
  { unfold dkeys. rewrite Hn. apply in_map_iff. exists (c, x). split; [reflexivity|now apply dget_In]. }
  apply dget_Some_key in Kc. destruct Kc as (y & Dy). exists y. split; [exact Dy|].
  intros q. specialize (H (c :: q)). simpl in H. now rewrite D, Dy in H.
Qed.

(** [any_like] keeps the leaf in charge *)
Lemma any_like_ok {F} (B : shape) (x : vec F) : forall (p : tree unit) dx, tree_ok (fun _ => True) p -> of_kind p x -> tree_ok (fun _ => True) x ->
  vec_wf dx -> alike p dx -> (forall c, leaf_at p c <> None -> exists o, reaches dx c = Some o /\ fits_in (op_shape o) B) ->
  exists d, any_like dx x = Ok d /\ of_kind p d /\
    forall c, match leaf_at p c with
              | Some _ => exists o, reaches dx c = Some o /\ leaf_at d c = Some (OpArr (normalize o))
              | None => leaf_at d c = None
              end.
Proof.
  induction x as [l|ty ls IH] using tree_rect'; intros p dx Tp Kp Tx W Al R.
  - destruct p as [[]|ty' cs]; [|specialize (Kp []); discriminate].
    destruct (R []) as (o & Ro & _); [discriminate|]. destruct dx as [o'|ty' cs]; [|discriminate]. injection Ro as ->.
    exists (Leaf (OpArr (normalize o))). split; [reflexivity|]. split; [intros [|? ?]; reflexivity|].
    intros [|c q]; simpl; [now exists o|reflexivity].
  - destruct p as [u|ty0 ps]; [specialize (Kp []); discriminate|].
    assert (Hn := Kp []). simpl in Hn. injection Hn as -> Hn.
    inversion Tp as [|? ? Np Tps]; subst. inversion Tx as [|? ? Nx Txs]; subst.
    assert (G : forall c l, In (c, l) ls -> exists pc, dget ps c = Some pc /\ of_kind pc l /\ tree_ok (fun _ => True) pc).
    { intros c l Hl. assert (Dl : dget ls c = Some l) by (apply dget_NoDup; auto).
      assert (Kc : In c (dkeys ps)) by (unfold dkeys; rewrite <- Hn; apply in_map_iff; exists (c, l); auto).
      apply dget_Some_key in Kc. destruct Kc as (pc & Dp). exists pc. split; [exact Dp|].
      split; [|apply (Tps c); now apply dget_In]. intros q. specialize (Kp (c :: q)). simpl in Kp. now rewrite Dp, Dl in Kp. }
    assert (Fin : forall (sub : string -> option (vec F)), (forall c l, In (c, l) ls -> exists dc, sub c = Some dc /\ vec_wf dc) ->
      (forall c pc dc, dget ps c = Some pc -> sub c = Some dc -> alike pc dc /\ forall q, reaches dx (c :: q) = reaches dc q) ->
      exists r, traverse (fun kl => match sub (fst kl) with Some a => y <- any_like a (snd kl) ;; Ok (fst kl, y) | None => Err KeyError end) ls = Ok r /\
        of_kind (Node ty0 ps) (Node ty0 r) /\
        forall c, match leaf_at (Node ty0 ps) c with
                  | Some _ => exists o, reaches dx c = Some o /\ leaf_at (Node ty0 r) c = Some (OpArr (normalize o))
                  | None => leaf_at (Node ty0 r) c = None
                  end).
    { intros sub Hs Ha.
      assert (E : exists r, traverse (fun kl => match sub (fst kl) with Some a => y <- any_like a (snd kl) ;; Ok (fst kl, y) | None => Err KeyError end) ls = Ok r /\
        Forall2 (fun kl kr => fst kr = fst kl /\ exists pc, dget ps (fst kl) = Some pc /\ of_kind pc (snd kr) /\
          forall c, match leaf_at pc c with
                  | Some _ => exists o, reaches dx (fst kl :: c) = Some o /\ leaf_at (snd kr) c = Some (OpArr (normalize o))
                  | None => leaf_at (snd kr) c = None
                  end) ls r).
      { assert (Sub : incl ls ls) by apply incl_refl. revert Sub. generalize ls at 1 3 4. intros l0. induction l0 as [|[c l] l0 IHl]; intros Sub.
        - exists []. split; [reflexivity|constructor].
        - destruct IHl as (r & Er & Fr); [intros z Hz; apply Sub; now right|].
          assert (Hl : In (c, l) ls) by (apply Sub; now left). destruct (G c l Hl) as (pc & Dp & Kc & Tc).
          destruct (Hs c l Hl) as (dc & Sc & Wc). destruct (Ha c pc dc Dp Sc) as (Ac & Rc).
          destruct (IH c l Hl pc dc Tc Kc (Txs c l Hl) Wc Ac) as (d & Ed & Kd & Ld).
          { intros q Hq. rewrite <- Rc. apply R. simpl. now rewrite Dp. }
          exists ((c, d) :: r). split; [cbn [traverse fst snd]; rewrite Sc, Ed; cbn [bind]; rewrite Er; reflexivity|].
          constructor; [|exact Fr]. cbn [fst snd]. split; [reflexivity|]. exists pc. split; [exact Dp|]. split; [exact Kd|].
          intros q. specialize (Ld q). destruct (leaf_at pc q); [|exact Ld]. destruct Ld as (o & Ro & Lo). exists o. rewrite Rc. auto. }
      destruct E as (r & Er & Fr). exists r. split; [exact Er|].
      assert (Ns : map fst r = map fst ps) by (rewrite <- Hn; exact (Forall2_names _ _ _ Fr)).
      assert (Gr := Forall2_dget (fun c _ y => exists pc, dget ps c = Some pc /\ of_kind pc y /\
          forall q, match leaf_at pc q with
                  | Some _ => exists o, reaches dx (c :: q) = Some o /\ leaf_at y q = Some (OpArr (normalize o))
                  | None => leaf_at y q = None
                  end) ls r Fr).
      assert (Gn : forall c, dget ps c = None -> dget r c = None).
      { intros c Z. destruct (dget r c) as [y|] eqn:D; [|reflexivity]. exfalso. apply dget_In in D.
        assert (Kc : In c (dkeys ps)) by (unfold dkeys; rewrite <- Ns; apply in_map_iff; exists (c, y); auto).
        apply dget_Some_key in Kc. destruct Kc as (pc & Dp). congruence. }
      assert (Gs : forall c pc, dget ps c = Some pc -> exists y, dget r c = Some y /\ of_kind pc y /\
          forall q, match leaf_at pc q with
                  | Some _ => exists o, reaches dx (c :: q) = Some o /\ leaf_at y q = Some (OpArr (normalize o))
                  | None => leaf_at y q = None
                  end).
      { intros c pc Dp. specialize (Gr c). assert (Kc : In c (dkeys ls)).
        { unfold dkeys. rewrite Hn. apply in_map_iff. exists (c, pc). split; [reflexivity|now apply dget_In]. }
        apply dget_Some_key in Kc. destruct Kc as (l & Dl). rewrite Dl in Gr. destruct (dget r c) as [y|]; [|contradiction].
        destruct Gr as (pc' & Dp' & H1 & H2). rewrite Dp in Dp'. injection Dp' as <-. exists y. auto. }
      split.
      - intros [|c q]; simpl; [now rewrite Ns|]. destruct (dget ps c) as [pc|] eqn:Dp; [|now rewrite (Gn c Dp)].
        destruct (Gs c pc Dp) as (y & Dy & Ky & _). rewrite Dy. apply Ky.
      - intros [|c q]; simpl; [reflexivity|]. destruct (dget ps c) as [pc|] eqn:Dp; [|now rewrite (Gn c Dp)].
        destruct (Gs c pc Dp) as (y & Dy & _ & Ly). rewrite Dy. apply Ly. }
    destruct dx as [o|tyd cs].
    + destruct (Fin (fun _ => Some (Leaf o))) as (r & Er & Kr & Lr).
      * intros c l _. exists (Leaf o). split; [reflexivity|exact W].
      * intros c pc dc _ E. injection E as <-. split; [intros [|? ?] ? ? ? ? _ Z; discriminate|]. intros q. now rewrite !reaches_Leaf.
      * exists (Node ty0 r). split; [|split; [exact Kr|exact Lr]]. cbn [any_like].
        match type of Er with traverse ?f ls = _ => change (traverse f ls) with (traverse (fun kl => y <- any_like (Leaf o) (snd kl) ;; Ok (fst kl, y)) ls) in Er end.
        now rewrite Er.
    + assert (A0 := Al [] ty0 (map fst ps) tyd (map fst cs) eq_refl eq_refl). destruct A0 as [-> A0].
      inversion W as [|? ? Nc Wc]; subst.
      destruct (Fin (fun c => dget cs c)) as (r & Er & Kr & Lr).
      * intros c l Hl. assert (Kc : In c (map fst cs)) by (apply A0; rewrite <- Hn; apply in_map_iff; exists (c, l); auto).
        change (In c (dkeys cs)) in Kc. apply dget_Some_key in Kc. destruct Kc as (dc & Dd). exists dc. split; [exact Dd|]. apply (Wc c). now apply dget_In.
      * intros c pc dc Dp Dd. split; [|intros q; simpl; now rewrite Dd].
        intros q t1 n1 t2 n2 H1 H2. apply (Al (c :: q) t1 n1 t2 n2); simpl; [now rewrite Dp|now rewrite Dd].
      * exists (Node tyd r). split; [|split; [exact Kr|exact Lr]]. cbn [any_like]. rewrite String.eqb_refl. now rewrite Er.
Qed.

Section Jac.
Context {F : Type} (K : arith F) (B : shape) (N : NoDup (dkeys B)).

Lemma member_names (p : tree unit) (v : vec F) : space p -> member B p v -> names v = names p.
Proof. intros Sp (_ & _ & Kv). now apply space_names. Qed.

Lemma member_get (p : tree unit) (v : vec F) c : space p -> member B p v -> In c (names p) ->
  exists o, dget (cartesian_nd v) c = Some o /\ reads B o (op_at o) /\
    forall e V, vector_reads v e V -> V c = op_at o e.
Proof.
  intros Sp Mv Hc. rewrite <- (member_names p v Sp Mv) in Hc. destruct Mv as (Vk & Vf & Kv).
  apply (part_name v c Vk) in Hc. destruct Hc as (o & Ho). exists o. split; [now apply part_get|].
  split; [|intros e V R; exact (R c o Ho)]. apply reads_self; [exact (part_wf v c o Vk Ho)|exact (Vf c o Ho)].
Qed.

(** a vector of the kind [p] from its components *)
Lemma build_member (p : tree unit) (x : vec F) (nd : dict (operand F)) (f : env -> string -> F) : space p -> member B p x ->
  (forall c, In c (names p) -> exists o, dget nd c = Some o /\ reads B o (fun e => f e c)) ->
  exists v, from_cartesian_nd nd x = Ok v /\ member B p v /\ forall e, inside e B -> vector_reads v e (f e).
Proof.
  intros Sp Mx H. assert (Nx := member_names p x Sp Mx). destruct Mx as ((Xn & Xw & Xd & Xf) & Xs & Kx).
  destruct (build_vector x nd Xn (vector_tree x (conj Xn (conj Xw (conj Xd Xf)))) Xd Xf) as (v & E & Vk & Kv & Nv & Pv).
  { intros c Hc. rewrite Nx in Hc. destruct (H c Hc) as (o & D & W & _). eauto. }
  exists v. split; [exact E|]. split.
  - split; [exact Vk|]. split; [|intros q; rewrite Kv; apply Kx].
    intros c o Po. apply Pv in Po. destruct Po as (Hc & D). rewrite Nx in Hc. destruct (H c Hc) as (o' & D' & W & Fo & _).
    rewrite D in D'. injection D' as <-. exact Fo.
  - intros e I c o Po. apply Pv in Po. destruct Po as (Hc & D). rewrite Nx in Hc. destruct (H c Hc) as (o' & D' & W & Fo & V).
    rewrite D in D'. injection D' as <-. symmetry. now apply V.
Qed.

Lemma step_member (p : tree unit) (x dx : vec F) : space p -> member B p x -> step_ok B p dx ->
  exists d, any_like dx x = Ok d /\ member B p d /\ forall e D, inside e B -> step_reads p dx e D -> vector_reads d e D.
Proof.
  intros (Pn & Pt & Pd & Pf) Mx (W & Al & R). assert (Mx' := Mx). destruct Mx' as (Vk & _ & Kx).
  destruct (any_like_ok B x p dx Pt Kx (vector_tree x Vk) W Al R) as (d & E & Kd & Ld).
  assert (Lf : forall q o, leaf_at d q = Some o -> leaf_at p q <> None /\ exists o', reaches dx q = Some o' /\ fits_in (op_shape o') B /\ op_wf o' /\ o = OpArr (normalize o')).
  { intros q o Lo. specialize (Ld q). destruct (leaf_at p q) as [u|] eqn:Lp; [|congruence]. split; [discriminate|].
    destruct Ld as (o' & Ro & Lo'). assert (o = OpArr (normalize o')) as -> by congruence. exists o'. split; [exact Ro|].
    destruct (R q) as (o2 & Ro2 & Fo2); [congruence|]. rewrite Ro in Ro2. injection Ro2 as <-. split; [exact Fo2|]. split; [|reflexivity].
    eapply tree_ok_reaches; eassumption. }
  assert (Rd : forall q o, leaf_at d q = Some o -> exists o', reaches dx q = Some o' /\ leaf_at p q <> None /\ reads B o (op_at o')).
  { intros q o Lo. destruct (Lf q o Lo) as (Hp & o' & Ro & Fo & Wo & ->). exists o'. split; [exact Ro|]. split; [exact Hp|].
    apply normalize_reads. now apply reads_self. }
  exists d. split; [exact E|].
  assert (Dk : vector_ok d).
  { split; [exact (kind_node p d Pn Kd)|]. split; [|split; [|exact (kind_filled p d Kd Pf)]].
    - apply (tree_ok_kind (fun _ => True) op_wf p d Pt Kd). intros q o Lo. destruct (Rd q o Lo) as (o' & _ & _ & (Wo & _)). exact Wo.
    - rewrite (kind_names p d Pt Kd). exact Pd. }
  split.
  - split; [exact Dk|]. split; [|exact Kd]. intros c o (q & Lo & _). destruct (Rd q o Lo) as (o' & _ & _ & (_ & Fo & _)). exact Fo.
  - intros e D I Hs c o (q & Lo & <-). destruct (Rd q o Lo) as (o' & Ro & Hp & (_ & _ & V)). rewrite V by exact I. now apply Hs.
Qed.

Lemma move_ok (p : tree unit) (x d : vec F) c : space p -> member B p x -> member B p d -> In c (names p) ->
  exists a s y x0, dget (cartesian_nd x) c = Some a /\ dget (cartesian_nd d) c = Some s /\ op2 K (plus K) a s = Ok y /\
    from_cartesian_nd (dset (cartesian_nd x) c y) x = Ok x0 /\ member B p x0 /\ reads B s (op_at s) /\
    (forall e D, vector_reads d e D -> D c = op_at s e) /\
    forall e X D, inside e B -> vector_reads x e X -> vector_reads d e D -> vector_reads x0 e (moved K X c (D c)).
Proof.
  intros Sp Mx Md Hc. destruct (member_get p x c Sp Mx Hc) as (a & Da & Ra & Va). destruct (member_get p d c Sp Md Hc) as (s & Ds & Rs & Vs).
  destruct (op2_reads K B (plus K) a s _ _ N Ra Rs) as (y & Ey & Ry).
  destruct (build_member p x (dset (cartesian_nd x) c y) (fun e k => if String.eqb k c then plus K (op_at a e) (op_at s e) else comp K x k e) Sp Mx) as (x0 & E0 & M0 & R0).
  { intros k Hk. rewrite dget_dset. destruct (String.eqb_spec k c) as [->|Ne].
    - rewrite ?String.eqb_refl. exists y. auto.
    - rewrite ?(proj2 (String.eqb_neq _ _) Ne), ?(proj2 (String.eqb_neq _ _) (not_eq_sym Ne)).
      destruct (member_get p x k Sp Mx Hk) as (o & Do & Ro & _). exists o. split; [exact Do|].
      apply (reads_ext B o _ _ Ro). intros e _. unfold comp. now rewrite Do. }
  exists a, s, y, x0. split; [exact Da|]. split; [exact Ds|]. split; [exact Ey|]. split; [exact E0|]. split; [exact M0|]. split; [exact Rs|]. split; [exact Vs|].
  intros e X D I Rx Rd k o Po. rewrite <- (R0 e I k o Po). unfold moved. destruct (String.eqb_spec k c) as [->|Ne].
  - now rewrite (Va e X Rx), (Vs e D Rd).
  - assert (Hk : In k (names p)) by (rewrite <- (member_names p x0 Sp M0); apply part_name; [apply M0|eauto]).
    symmetry. apply reads_comp; [apply Mx|exact Rx|]. now rewrite (member_names p x Sp Mx).
Qed.

Lemma vsub_reads (q : tree unit) (v w : vec F) : space q -> member B q v -> member B q w ->
  exists r, vsub K v w = Ok r /\ member B q r /\
    forall e V W, inside e B -> vector_reads v e V -> vector_reads w e W -> vector_reads r e (fun c => minus K (V c) (W c)).
Proof.
  intros Sq Mv Mw. unfold vsub.
  destruct (vec_ufunc_reads K B N (fun l => match l with [x; y] => minus K x y | _ => zero K end) q [v; w] Sq) as (r & E & M & R); [discriminate|auto|].
  exists r. split; [exact E|]. split; [exact M|]. intros e V W I Rv Rw. apply (R e [V; W] I). auto.
Qed.

(** a matrix from its rows *)
Lemma build_rows (p q : tree unit) (f x : vec F) (nd : dict (vec F)) (M : env -> string -> string -> F) : space p -> space q -> member B q f ->
  (forall r, In r (names q) -> exists v, dget nd r = Some v /\ member B p v /\ forall e, inside e B -> vector_reads v e (M e r)) ->
  exists m, from_cartesian_nd nd (prototype_matrix f x) = Ok m /\ matrix_ok m /\ matrix_fits B m /\ of_kind q m /\
    (forall row, In row (leaves m) -> of_kind p row) /\ forall e, inside e B -> matrix_reads m e (M e).
Proof.
  intros Sp Sq Mf H. assert (Nf := member_names q f Sq Mf). destruct Mf as (Fk & Ff & Kf).
  assert (Fn : is_node f) by apply Fk.
  destruct (from_nd_total (prototype_matrix f x) nd) as (m & E).
  { destruct (map_tree_node (fun _ => x) f Fn) as (ty & cs & E). exists ty, cs. exact E. }
  { apply (map_tree_ok (fun _ => True) (fun _ => True) (fun _ => x) f); [auto|now apply vector_tree]. }
  { intros c Hc. unfold prototype_matrix in Hc. rewrite map_tree_leaf in Hc. destruct (leaf_at f c) as [o|] eqn:Lc; [|now contradict Hc].
    apply leaf_named in Lc. rewrite Nf in Lc. destruct (H _ Lc) as (v & D & _). intro Z; congruence. }
  destruct (from_nd_spec (prototype_matrix f x) nd m E) as (Km & Lm).
  assert (Kq : of_kind q m).
  { intros c. rewrite Km. unfold prototype_matrix. rewrite map_tree_kind. apply Kf. }
  assert (Lv : forall c v, leaf_at m c = Some v -> In (String.concat "." c) (names q) /\ dget nd (String.concat "." c) = Some v).
  { intros c v Lc. specialize (Lm c). unfold prototype_matrix in Lm. rewrite map_tree_leaf in Lm.
    destruct (leaf_at f c) as [o|] eqn:Lf; cbn [option_map] in Lm; [|congruence]. split; [rewrite <- Nf; now apply (leaf_named f c o)|].
    destruct Lm as (Lm & _). etransitivity; [symmetry; exact Lm|exact Lc]. }
  assert (Lr : forall c v, leaf_at m c = Some v -> member B p v /\ forall e, inside e B -> vector_reads v e (M e (String.concat "." c))).
  { intros c v Lc. destruct (Lv c v Lc) as (Hr & D). destruct (H _ Hr) as (v' & D' & Mv & Rv). rewrite D in D'. injection D' as <-. auto. }
  destruct Sq as (Qn & Qt & Qd & Qf).
  assert (Tm : tree_ok (fun _ => True) m) by (apply (tree_ok_kind (fun _ => True) (fun _ => True) q m Qt Kq); auto).
  exists m. split; [exact E|]. split; [|split; [|split; [exact Kq|split]]].
  - split; [exact (kind_node q m Qn Kq)|]. split; [|split; [|exact (kind_filled q m Kq Qf)]].
    + apply (tree_ok_kind (fun _ => True) vector_ok q m Qt Kq). intros c v Lc. apply (Lr c v Lc).
    + rewrite (kind_names q m Qt Kq). exact Qd.
  - intros r c o (pth & row & Lp & _ & Po). destruct (Lr pth row Lp) as ((_ & Vf & _) & _). exact (Vf c o Po).
  - intros row Hr. destruct (In_leaf m row Tm Hr) as (c & Lc). destruct (Lr c row Lc) as ((_ & _ & Kv) & _). exact Kv.
  - intros e I r c o (pth & row & Lp & <- & Po). destruct (Lr pth row Lp) as (_ & Rv). exact (Rv e I c o Po).
Qed.

Section Vectors.
Variables (p q : tree unit) (function : vec F -> res (vec F)) (x dx : vec F).
Hypothesis Sp : space p.
Hypothesis Mx : member B p x.
Hypothesis St : step_ok B p dx.

Lemma jacobian_vector (f : env -> (string -> F) -> string -> F) : space q -> realises B p q function f ->
  exists m, na_jacobian K function x dx = Ok (Square m) /\ matrix_ok m /\ matrix_fits B m /\ of_kind q m /\
    (forall row, In row (leaves m) -> of_kind p row) /\
    forall e X D, inside e B -> vector_reads x e X -> step_reads p dx e D ->
      matrix_reads m e (fun r c => quotient K (f e (moved K X c (D c)) r) (f e X r) (D c)).
Proof.
  intros Sq Rf. destruct (step_member p x dx Sp Mx St) as (d & Ed & Md & Rd).
  destruct (Rf x Mx) as (fx & Ef & Mf & Vf).
  assert (Nx := member_names p x Sp Mx). assert (Nf := member_names q fx Sq Mf).
  assert (Kx : map fst (cartesian_nd x) = names p) by (rewrite cart_keys by apply Mx; exact Nx).
  assert (Kf : map fst (cartesian_nd fx) = names q) by (rewrite cart_keys by apply Mf; exact Nf).
  set (Q := fun (e : env) (r c : string) => quotient K (f e (moved K (fun k => comp K x k e) c (comp K d c e)) r) (f e (fun k => comp K x k e) r) (comp K d c e)).
  destruct (mapM_dict (V := dict (operand F)) (fun c => c)
    (fun c_x => df <- change K function x fx (cartesian_nd d) c_x ;; s <- step_of (cartesian_nd d) c_x ;;
                t <- slopes K df (map fst (cartesian_nd fx)) s ;; Ok (c_x, t))
    (fun c t => forall r, In r (names q) -> exists o, dget t r = Some o /\ reads B o (fun e => Q e r c))
    (map fst (cartesian_nd x))) as (columns & Ec & Kc & Hc).
  { rewrite map_id, Kx. apply Sp. }
  { intros c Hc. rewrite Kx in Hc. destruct (move_ok p x d c Sp Mx Md Hc) as (a & s & y & x0 & Da & Ds & Ey & E0 & M0 & Rs & Vs & R0).
    destruct (Rf x0 M0) as (f0 & Ef0 & Mf0 & Vf0). destruct (vsub_reads q f0 fx Sq Mf0 Mf) as (df & Edf & Mdf & Rdf).
    assert (Ech : change K function x fx (cartesian_nd d) c = Ok df).
    { unfold change. rewrite Da, Ds, Ey. cbn [bind]. rewrite E0. cbn [bind]. rewrite Ef0. cbn [bind]. exact Edf. }
    rewrite Ech. cbn [bind]. unfold step_of. rewrite Ds. cbn [bind]. unfold slopes. rewrite Kf.
    destruct (mapM_dict (V := operand F) (fun r => r)
      (fun c_f => match dget (cartesian_nd df) c_f with Some dd => t <- op2 K (over K) dd s ;; Ok (c_f, t) | None => Err KeyError end)
      (fun r o => reads B o (fun e => Q e r c)) (names q)) as (t & Et & Kt & Ht).
    - rewrite map_id. apply Sq.
    - intros r Hr. destruct (member_get q df r Sq Mdf Hr) as (dd & Dd & Rdd & Vdd). rewrite Dd.
      destruct (op2_reads K B (over K) dd s _ _ N Rdd Rs) as (o & Eo & Ro). exists o. rewrite Eo. split; [reflexivity|].
      apply (reads_ext B o _ _ Ro). intros e I. unfold Q, quotient.
      assert (Rcx : vector_reads x e (fun k => comp K x k e)) by (apply comp_reads; apply Mx).
      assert (Rcd : vector_reads d e (fun k => comp K d k e)) by (apply comp_reads; apply Md).
      rewrite <- (Vs e _ Rcd). f_equal.
      rewrite <- (Vdd e _ (Rdf e _ _ I (Vf0 e _ I (R0 e _ _ I Rcx Rcd)) (Vf e _ I Rcx))). reflexivity.
    - exists t. rewrite Et. split; [reflexivity|]. intros r Hr. destruct (Ht r Hr) as (o & Do & Ro). exists o. auto. }
  rewrite map_id in Kc. rewrite Kx in Kc, Hc.
  assert (Nc : NoDup (map fst columns)) by (rewrite Kc; apply Sp).
  destruct (mapM_dict (V := vec F) (fun r => r)
    (fun c_f => row <- mapM (fun column => match dget (snd column) c_f with Some s => Ok (fst column, s) | None => Err KeyError end) columns ;;
                v <- from_cartesian_nd row x ;; Ok (c_f, v))
    (fun r v => member B p v /\ forall e, inside e B -> vector_reads v e (Q e r)) (names q)) as (rows & Er & Kr & Hr).
  { rewrite map_id. apply Sq. }
  { intros r Hr.
    destruct (mapM_dict (V := operand F) (fun column : string * dict (operand F) => fst column)
      (fun column => match dget (snd column) r with Some s => Ok (fst column, s) | None => Err KeyError end)
      (fun column o => reads B o (fun e => Q e r (fst column))) columns Nc) as (row & Erow & Krow & Hrow).
    - intros [c t] Hin. cbn [fst snd]. assert (Hcc : In c (names p)) by (rewrite <- Kc; apply in_map_iff; exists (c, t); auto).
      destruct (Hc c Hcc) as (t' & Dt & Pt). apply (dget_NoDup columns c t) in Hin; [|exact Nc]. rewrite Dt in Hin. injection Hin as <-.
      destruct (Pt r Hr) as (o & Do & Ro). exists o. rewrite Do. auto.
    - rewrite Erow. cbn [bind].
      destruct (build_member p x row (fun e c => Q e r c) Sp Mx) as (v & Ev & Mv & Rv).
      { intros c Hcc. rewrite <- Kc in Hcc. apply in_map_iff in Hcc. destruct Hcc as ([c' t] & <- & Hin).
        destruct (Hrow _ Hin) as (o & Do & Ro). exists o. auto. }
      exists v. rewrite Ev. split; [reflexivity|]. auto. }
  destruct (build_rows p q fx x rows Q Sp Sq Mf) as (m & Em & Mk & Mft & Km & Krw & Rm).
  { intros r Hr'. destruct (Hr r Hr') as (v & Dv & Pv). exists v. auto. }
  exists m.
  assert (Nxn : is_node x) by apply Mx. assert (Nfn : is_node fx) by apply Mf.
  split.
  { unfold na_jacobian. rewrite Ed. cbn [bind]. rewrite Ef. cbn [bind].
    assert (Ej : jacobian_matrix K function x fx (cartesian_nd d) = Ok m).
    { unfold jacobian_matrix. rewrite Ec. cbn [bind]. rewrite Kf, Er. cbn [bind]. exact Em. }
    destruct Nxn as (tx & csx & ->), Nfn as (tf & csf & ->). rewrite Ej. reflexivity. }
  split; [exact Mk|]. split; [exact Mft|]. split; [exact Km|]. split; [exact Krw|].
  intros e X D I Rx RD r c o Co. rewrite <- (Rm e I r c o Co). unfold Q.
  assert (Hcr : In c (names p)).
  { destruct Co as (pth & row & Lp & _ & Po). assert (Hrow : In row (leaves m)) by now apply leaf_In in Lp.
    rewrite <- (kind_names p row (proj1 (proj2 Sp)) (Krw row Hrow)). apply part_name; [now apply (row_ok m)|eauto]. }
  assert (Hr2 : In r (names q)).
  { destruct Co as (pth & row & Lp & <- & _). apply leaf_named in Lp. now rewrite (kind_names q m (proj1 (proj2 Sq)) Km) in Lp. }
  assert (Rdd := Rd e D I RD).
  assert (Ecx : forall k, In k (names p) -> comp K x k e = X k).
  { intros k Hk. apply reads_comp; [apply Mx|exact Rx|now rewrite Nx]. }
  assert (Ecd : comp K d c e = D c) by (apply reads_comp; [apply Md|exact Rdd|now rewrite (member_names p d Sp Md)]).
  rewrite Ecd.
  (* the values only depend on the components *)
  assert (Same : forall w X1 X2, member B p w -> vector_reads w e X1 -> vector_reads w e X2 -> f e X1 r = f e X2 r).
  { intros w X1 X2 Mw R1 R2. destruct (Rf w Mw) as (fw & Efw & Mfw & Vfw).
    destruct (member_get q fw r Sq Mfw Hr2) as (ow & _ & _ & Vow). rewrite (Vow e _ (Vfw e _ I R1)), (Vow e _ (Vfw e _ I R2)). reflexivity. }
  assert (Rcx : vector_reads x e (fun k => comp K x k e)) by (apply comp_reads; apply Mx).
  f_equal; [|].
  - destruct (move_ok p x d c Sp Mx Md Hcr) as (a & s & y & x0 & _ & _ & _ & _ & M0 & _ & _ & R0).
    apply (Same x0); [exact M0|now apply R0|now apply R0].
  - now apply (Same x).
Qed.

Lemma jacobian_to_scalar (g : env -> (string -> F) -> F) : realises_scalar B p function g ->
  exists v, na_jacobian K function x dx = Ok (Column v) /\ member B p v /\
    forall e X D, inside e B -> vector_reads x e X -> step_reads p dx e D ->
      vector_reads v e (fun c => quotient K (g e (moved K X c (D c))) (g e X) (D c)).
Proof.
  intros Rf. destruct (step_member p x dx Sp Mx St) as (d & Ed & Md & Rd).
  destruct (Rf x Mx) as (fx & Ef & (Wf & Ff) & Vf).
  assert (Nx := member_names p x Sp Mx).
  assert (Kx : map fst (cartesian_nd x) = names p) by (rewrite cart_keys by apply Mx; exact Nx).
  set (Q := fun (e : env) (c : string) => quotient K (g e (moved K (fun k => comp K x k e) c (comp K d c e))) (g e (fun k => comp K x k e)) (comp K d c e)).
  destruct (mapM_dict (V := operand F) (fun c => c)
    (fun c_x => df <- change K function x (Leaf fx) (cartesian_nd d) c_x ;; s <- step_of (cartesian_nd d) c_x ;;
                match df with Leaf t => o <- op2 K (over K) t s ;; Ok (c_x, o) | Node _ _ => Err TypeError end)
    (fun c o => reads B o (fun e => Q e c))
    (map fst (cartesian_nd x))) as (row & Er & Kr & Hr).
  { rewrite map_id, Kx. apply Sp. }
  { intros c Hc. rewrite Kx in Hc. destruct (move_ok p x d c Sp Mx Md Hc) as (a & s & y & x0 & Da & Ds & Ey & E0 & M0 & Rs & Vs & R0).
    destruct (Rf x0 M0) as (f0 & Ef0 & (Wf0 & Ff0) & Vf0).
    destruct (op2_reads K B (minus K) f0 fx _ _ N (reads_self B f0 Wf0 Ff0) (reads_self B fx Wf Ff)) as (df & Edf & Rdf).
    destruct (op2_reads K B (over K) df s _ _ N Rdf Rs) as (o & Eo & Ro).
    assert (Ech : change K function x (Leaf fx) (cartesian_nd d) c = Ok (Leaf df)).
    { unfold change. rewrite Da, Ds, Ey. cbn [bind]. rewrite E0. cbn [bind]. rewrite Ef0. cbn [bind]. unfold vsub, vec_ufunc, vec_ufunc_rec.
      cbn [map depth list_max fold_right]. unfold first_node. cbn [flat_map app leaves_of]. unfold op2 in Edf. cbn. rewrite Edf. reflexivity. }
    exists o. rewrite Ech. cbn [bind]. unfold step_of. rewrite Ds. cbn [bind]. rewrite Eo. split; [reflexivity|].
    apply (reads_ext B o _ _ Ro). intros e I. unfold Q, quotient.
    assert (Rcx : vector_reads x e (fun k => comp K x k e)) by (apply comp_reads; apply Mx).
    assert (Rcd : vector_reads d e (fun k => comp K d k e)) by (apply comp_reads; apply Md).
    rewrite <- (Vs e _ Rcd). rewrite (Vf0 e _ I (R0 e _ _ I Rcx Rcd)), (Vf e _ I Rcx). reflexivity. }
  rewrite map_id in Kr. rewrite Kx in Kr, Hr.
  destruct (build_member p x row Q Sp Mx) as (v & Ev & Mv & Rv).
  { intros c Hc. destruct (Hr c Hc) as (o & Do & Ro). exists o. auto. }
  exists v. assert (Nxn : is_node x) by apply Mx.
  split.
  { unfold na_jacobian. rewrite Ed. cbn [bind]. rewrite Ef. cbn [bind].
    assert (Ej : jacobian_gradient K function x (Leaf fx) (cartesian_nd d) = Ok v).
    { unfold jacobian_gradient. rewrite Er. cbn [bind]. exact Ev. }
    destruct Nxn as (tx & csx & ->). rewrite Ej. reflexivity. }
  split; [exact Mv|]. intros e X D I Rx RD c o Co. rewrite <- (Rv e I c o Co). unfold Q.
  assert (Hcr : In c (names p)) by (rewrite <- (member_names p v Sp Mv); apply part_name; [apply Mv|eauto]).
  assert (Rdd := Rd e D I RD).
  assert (Ecd : comp K d c e = D c) by (apply reads_comp; [apply Md|exact Rdd|now rewrite (member_names p d Sp Md)]).
  rewrite Ecd.
  assert (Same : forall w X1 X2, member B p w -> vector_reads w e X1 -> vector_reads w e X2 -> g e X1 = g e X2).
  { intros w X1 X2 Mw R1 R2. destruct (Rf w Mw) as (fw & Efw & _ & Vfw). now rewrite <- (Vfw e _ I R1), <- (Vfw e _ I R2). }
  assert (Rcx : vector_reads x e (fun k => comp K x k e)) by (apply comp_reads; apply Mx).
  f_equal.
  - destruct (move_ok p x d c Sp Mx Md Hcr) as (a & s & y & x0 & _ & _ & _ & _ & M0 & _ & _ & R0).
    apply (Same x0); [exact M0|now apply R0|now apply R0].
  - now apply (Same x).
Qed.
End Vectors.
End Jac.
