(** C79: polynomial fits are least-squares fits of the named terms. *)
From Coq Require Import Ascii String List Arith ZArith Bool Lia Permutation QArith Qcanon.
From Verif Require Import Base BaseFacts Numpy Shapes Scalar Elementwise Vector Matrix Poly Spec SpecNumeric SpecVector SpecMatrix SpecPoly.
From Verif Require MatrixLaws PolyNameFacts PolyLaws.
Import ListNotations.
Open Scope nat_scope.
Open Scope list_scope.

Local Notation qK := MatrixLaws.qK.

(** The terms of [from_degree]: every product of at most [degree] components, once
    up to the order of the factors, and nothing else. *)
Theorem C79_terms : forall (comps : list string) (degree : nat),
  NoDup comps -> Forall (fun c => star_free c /\ c <> ""%string) comps ->
  let names := degree_names comps degree in
  NoDup names /\
  (forall n, In n names -> exists l, factors n l /\ incl l comps /\ length l <= degree) /\
  (forall l, incl l comps -> length l <= degree -> exists n l', In n names /\ factors n l' /\ Permutation l l') /\
  (forall n n' l l', In n names -> In n' names -> factors n l -> factors n' l' -> Permutation l l' -> n = n').
Proof.
  intros. repeat split.
  - now apply PolyNameFacts.names_nodup.
  - now apply PolyNameFacts.names_sound.
  - now apply PolyNameFacts.names_complete.
  - intros. eapply PolyNameFacts.names_unique; eassumption.
Qed.
Print Assumptions C79_terms.

(** The center is subtracted from the inputs, component by component; without a
    center the inputs stay as they are. *)
Theorem C79_center : forall (F : Type) (K : arith F) (inputs : vec F),
  centered K inputs None = Ok inputs /\
  forall center x, vec_wf inputs -> vec_wf center -> centered K inputs (Some center) = Ok x ->
  forall p o, leaf_at x p = Some o -> exists a b, reaches inputs p = Some a /\ reaches center p = Some b /\ op_wf o /\
    broadcast_shapes (op_shapes [a; b]) = Ok (op_shape o) /\
    forall e, inside e (op_shape o) -> op_at o e = minus K (op_at a e) (op_at b e).
Proof. intros. split; [reflexivity|]. intros. eapply PolyLaws.centered_leaves; eassumption. Qed.
Print Assumptions C79_center.

(** The design matrix holds the value of every term; the constant has no axes. *)
Theorem C79_design : forall (F : Type) (K : arith F) (inputs x : vec F) (center : option (vec F)) (ns : list string)
  (fs : string -> list string) (S : shape) (X : env -> string -> F),
  is_field K -> centered K inputs center = Ok x -> input_ok x ->
  broadcast_shapes (map op_shape (leaves x)) = Ok S -> (forall e, inside e S -> input_reads x e (X e)) -> NoDup ns ->
  (forall n, In n ns -> factors n (fs n) /\ forall k, In k (fs n) -> exists o, input_part x k o) ->
  exists d, design_matrix K (Some ns) center inputs = Ok d /\ map fst d = ns /\
    forall n o, In (n, o) d -> op_wf o /\ op_shape o = (if String.eqb n "" then [] else S) /\
      forall e, inside e S -> op_at o e = term_at K X fs n e.
Proof. intros. eapply PolyLaws.design_values; eassumption. Qed.
Print Assumptions C79_design.

Theorem C79_design_unknown : forall (F : Type) (K : arith F) (inputs x : vec F) (center : option (vec F)) (ns : list string)
  (S : shape) (X : env -> string -> F),
  is_field K -> centered K inputs center = Ok x -> input_ok x ->
  broadcast_shapes (map op_shape (leaves x)) = Ok S -> (forall e, inside e S -> input_reads x e (X e)) ->
  (exists n l k, In n ns /\ factors n l /\ In k l /\ ~ exists o, input_part x k o) ->
  design_matrix K (Some ns) center inputs = Err ValueError.
Proof. intros. eapply PolyLaws.design_refused; eassumption. Qed.
Print Assumptions C79_design_unknown.

(** The coefficients exist and have the axes that are not fitted. *)
Theorem C79_fit_partial : forall (F : Type) (K : arith F) (np_inv : list (list F) -> list (list F)) (inputs x : vec F)
  (center : option (vec F)) (ns : list string) (fs : string -> list string) (outputs : operand F) (axis : option (list string))
  (w : operand bool) (S T : shape) (A : list string) (X : env -> string -> F),
  is_field K -> centered K inputs center = Ok x -> fit_problem x ns fs outputs axis w S T A ->
  (forall e, inside e S -> input_reads x e (X e)) ->
  exists cf, coefficients K np_inv (Some ns) center inputs outputs axis w = Ok cf /\ map fst cf = ns /\
    forall n o, In (n, o) cf -> op_wf o /\ fits_in (op_shape o) (without T A).
Proof. intros. eapply PolyLaws.fit_exists; eassumption. Qed.
Print Assumptions C79_fit_partial.

(** The normal equations: the residual is orthogonal to every term. *)
Theorem C79_normal_partial : forall (F : Type) (K : arith F) (np_inv : list (list F) -> list (list F)) (inputs x : vec F)
  (center : option (vec F)) (ns : list string) (fs : string -> list string) (outputs : operand F) (axis : option (list string))
  (w : operand bool) (S T : shape) (A : list string) (X : env -> string -> F) (cf : dict (operand F)),
  is_field K -> centered K inputs center = Ok x -> fit_problem x ns fs outputs axis w S T A ->
  (forall e, inside e S -> input_reads x e (X e)) ->
  coefficients K np_inv (Some ns) center inputs outputs axis w = Ok cf ->
  forall e C, inside e (without T A) -> coefficients_at cf e C ->
  let l := points S A w e in
  invertible K np_inv ns (gram_at K X fs l) ->
  forall n, In n ns ->
  sum_points K l (fun p => times K (term_at K X fs n p) (minus K (poly_at K X fs ns C p) (op_at outputs p))) = zero K.
Proof. intros. eapply PolyLaws.fit_normal; eassumption. Qed.
Print Assumptions C79_normal_partial.

(** Outputs that are a polynomial in these terms give back its coefficients. *)
Theorem C79_recovery_partial : forall (F : Type) (K : arith F) (np_inv : list (list F) -> list (list F)) (inputs x : vec F)
  (center : option (vec F)) (ns : list string) (fs : string -> list string) (outputs : operand F) (axis : option (list string))
  (w : operand bool) (S T : shape) (A : list string) (X : env -> string -> F) (cf : dict (operand F)),
  is_field K -> centered K inputs center = Ok x -> fit_problem x ns fs outputs axis w S T A ->
  (forall e, inside e S -> input_reads x e (X e)) ->
  coefficients K np_inv (Some ns) center inputs outputs axis w = Ok cf ->
  forall e C D, inside e (without T A) -> coefficients_at cf e C ->
  let l := points S A w e in
  invertible K np_inv ns (gram_at K X fs l) ->
  (forall p, In p l -> op_at outputs p = poly_at K X fs ns D p) ->
  forall n, In n ns -> C n = D n.
Proof. intros. eapply PolyLaws.fit_recovers; eassumption. Qed.
Print Assumptions C79_recovery_partial.

(** No polynomial in these terms is closer to the outputs. *)
Theorem C79_least_partial : forall (np_inv : list (list Qc) -> list (list Qc)) (inputs x : vec Qc)
  (center : option (vec Qc)) (ns : list string) (fs : string -> list string) (outputs : operand Qc) (axis : option (list string))
  (w : operand bool) (S T : shape) (A : list string) (X : env -> string -> Qc) (cf : dict (operand Qc)),
  centered qK inputs center = Ok x -> fit_problem x ns fs outputs axis w S T A ->
  (forall e, inside e S -> input_reads x e (X e)) ->
  coefficients qK np_inv (Some ns) center inputs outputs axis w = Ok cf ->
  forall e C D, inside e (without T A) -> coefficients_at cf e C ->
  let l := points S A w e in
  invertible qK np_inv ns (gram_at qK X fs l) ->
  (squared_error qK X fs ns l (op_at outputs) C <= squared_error qK X fs ns l (op_at outputs) D)%Qc.
Proof. intros. eapply PolyLaws.fit_least; eassumption. Qed.
Print Assumptions C79_least_partial.

(** The polynomial at other inputs, whose axes the coefficients do not stretch. *)
Theorem C79_call : forall (F : Type) (K : arith F) (inputs x : vec F) (center : option (vec F)) (ns : list string)
  (fs : string -> list string) (S : shape) (X : env -> string -> F) (cf : dict (operand F)) (B : shape),
  is_field K -> centered K inputs center = Ok x -> input_ok x ->
  broadcast_shapes (map op_shape (leaves x)) = Ok S -> (forall e, inside e S -> input_reads x e (X e)) -> NoDup ns ->
  (forall n, In n ns -> factors n (fs n) /\ forall k, In k (fs n) -> exists o, input_part x k o) ->
  map fst cf = ns -> (forall n o, In (n, o) cf -> op_wf o /\ fits_in (op_shape o) B) -> NoDup (dkeys B) -> incl S B ->
  exists r, poly_call K (Some ns) center cf inputs = Ok r /\ op_wf r /\ fits_in (op_shape r) B /\
    forall e C, inside e B -> coefficients_at cf e C -> op_at r e = poly_at K X fs ns C e.
Proof. intros. eapply PolyLaws.call_values; eassumption. Qed.
Print Assumptions C79_call.

(** ** Refutations and examples *)
Open Scope string_scope.

Definition q (n : Z) : Qc := Q2Qc (inject_Z n).
Definition arr (axes : list string) (sh : list nat) (l : list Z) : operand Qc :=
  OpArr (mkS (mkNd sh (fun p => q (nth (fold_left (fun acc sp => acc * snd sp + fst sp) (combine p sh) 0) l 0%Z))) axes).
Definition yes : operand bool := OpNum true.
Definition no_inverse (l : list (list Qc)) := l.
Definition ok {A} (r : res A) : bool := match r with Ok _ => true | Err _ => false end.
Definition the {A} (r : res (dict A)) : dict A := match r with Ok d => d | Err _ => [] end.
Lemma ok_the {A} (r : res (dict A)) : ok r = true -> r = Ok (the r).
Proof. destruct r; [reflexivity|discriminate]. Qed.
Definition value (cf : dict (operand Qc)) (e : env) (n : string) : Qc :=
  match dget cf n with Some o => op_at o e | None => q 0 end.
Lemma value_at cf e ns : map fst cf = ns -> NoDup ns -> coefficients_at cf e (value cf e).
Proof. intros E N n o H. unfold value. assert (D : dget cf n = Some o) by (apply dget_NoDup; [unfold dkeys; now rewrite E|exact H]).
  now rewrite D.
Qed.
Lemma found cf e C n : In n (map fst cf) -> coefficients_at cf e C -> C n = value cf e n.
Proof.
  intros H Hc. apply (dget_Some_key cf n) in H. destruct H as (o & Ho). unfold value. rewrite Ho. apply Hc. now apply dget_In.
Qed.
Definition show (r : res (dict (operand Qc))) : res (list (string * list Q)) :=
  match r with
  | Ok d => Ok (map (fun no => (fst no, match snd no with OpArr a => map this (ravel (s_nd a)) | OpNum x => [this x] end)) d)
  | Err x => Err x
  end.

(** Inputs 0 1 2 3 along "x"; outputs along "t" and "x". *)
Definition xs := arr ["x"] [4] [0; 1; 2; 3]%Z.
Definition ys := arr ["t"; "x"] [2; 4] [1; 3; 5; 7;  0; 0; 0; 2]%Z.
Definition names := ["" ; "dummy"].
Definition split (n : string) : list string := if String.eqb n "" then [] else [n].
Definition coord (a : operand Qc) (e : env) (k : string) : Qc := op_at a e.

(** a line for every "t": 1 + 2 x, and the least-squares line -4/10 + 6/10 x *)
Example C79_example_line : show (coefficients qK no_inverse (Some names) None (Leaf xs) ys (Some ["x"]) yes)
  = Ok [("", [1; -2 # 5]); ("dummy", [2; 3 # 5])]%Q.
Proof. vm_compute. reflexivity. Qed.

Lemma factors_one s : star_free s -> s <> "" -> factors s [s].
Proof. intros H H'. repeat split; [now constructor|intros; contradiction|discriminate]. Qed.

Lemma split_names n : In n names -> factors n (split n).
Proof.
  intros [<- |[<- |[]]].
  - repeat split; constructor.
  - apply factors_one; [|discriminate]. intros H. cbn in H. decompose [or] H; try discriminate; contradiction.
Qed.

Example C79_example_problem : fit_problem (Leaf xs) names split ys (Some ["x"]) yes [("x", 4)] [("x", 4); ("t", 2)] ["x"].
Proof.
  constructor.
  - repeat split. repeat constructor; intros [].
  - reflexivity.
  - repeat constructor; cbn; intuition discriminate.
  - intros n Hn. split; [now apply split_names|]. intros k Hk. destruct Hn as [<- |[<- |[]]]; [destruct Hk|].
    destruct Hk as [<- |[]]. now exists xs.
  - exists "dummy". split; [cbn; auto|discriminate].
  - repeat split. repeat constructor; cbn; intuition discriminate.
  - reflexivity.
  - intros y [<- |[]]. cbn. auto.
  - split; [exact I|intros ? ? []].
  - repeat split; [repeat constructor; intros []|intros y [<- |[]]; cbn; auto].
Qed.

Example C79_example_invertible : forall e,
  invertible qK no_inverse names (gram_at qK (coord xs) split (points [("x", 4)] ["x"] yes e)).
Proof. intros e. unfold invertible. cbn [length names Nat.ltb Nat.leb]. intros H. apply (f_equal this) in H. vm_compute in H. discriminate. Qed.

(** the theorem on least squares applies to the second line *)
Example C79_example_least : forall D, let e := (fun _ => 1) : env in let l := points [("x", 4)] ["x"] yes e in
  let cf := the (coefficients qK no_inverse (Some names) None (Leaf xs) ys (Some ["x"]) yes) in
  (squared_error qK (coord xs) split names l (op_at ys) (value cf e) <= squared_error qK (coord xs) split names l (op_at ys) D)%Qc.
Proof.
  intros D e l cf. apply (C79_least_partial no_inverse (Leaf xs) (Leaf xs) None names split ys (Some ["x"]) yes
    [("x", 4)] [("x", 4); ("t", 2)] ["x"] (coord xs) cf eq_refl C79_example_problem).
  - intros e' _ c o [_ ->]. reflexivity.
  - apply ok_the. vm_compute. reflexivity.
  - intros ax n [H|[]]. injection H as <- <-. auto.
  - apply (value_at _ _ names); [vm_compute; reflexivity|repeat constructor; cbn; intuition discriminate].
  - apply C79_example_invertible.
Qed.

(** two components with a center and a product: 2 + 3 (x - 1) (y - 5) with one point
    left out by the mask, and its value at another point *)
Definition vec2 (x y : operand Qc) : vec Qc := Node "CartesianNdVectorArray" [("x", Leaf x); ("y", Leaf y)].
Definition points2 := vec2 (arr ["i"] [5] [1; 2; 3; 2; 3]%Z) (arr ["i"] [5] [5; 6; 7; 7; 4]%Z).
Definition center2 := Some (vec2 (OpNum (q 1)) (OpNum (q 5))).
Definition values2 := arr ["i"] [5] [2; 5; 14; 100; -4]%Z.
Definition mask2 : operand bool := OpArr (mkS (mkNd [5] (fun p => negb (Nat.eqb (nth 0 p 0) 3))) ["i"]).
Example C79_example_product :
  show (coefficients qK no_inverse (Some [""; "x*y"]) center2 points2 values2 None mask2) = Ok [("", [2]); ("x*y", [3])]%Q /\
  match poly_call qK (Some [""; "x*y"]) center2 (the (coefficients qK no_inverse (Some [""; "x*y"]) center2 points2 values2 None mask2))
    (vec2 (OpNum (q 3)) (OpNum (q 9))) with Ok r => this (op_at r (fun _ => 0)) = 26%Q | Err _ => False end /\
  design_matrix qK (Some [""; "x*z"]) center2 points2 = Err ValueError.
Proof. split; [|split]; vm_compute; reflexivity. Qed.

(** the center is subtracted from each component *)
Example C79_example_center :
  show (design_matrix qK (Some ["x"; "y"]) center2 points2) = Ok [("x", [0; 1; 2; 1; 2]); ("y", [0; 1; 2; 2; -(1)])]%Q.
Proof. vm_compute. reflexivity. Qed.

Example C79_example_terms : degree_names ["x"; "y"] 2 = [""; "x"; "y"; "x*x"; "x*y"; "y*y"].
Proof. reflexivity. Qed.

(** four terms, with the elimination of Gauss and Jordan as [np.linalg.inv] *)
Definition row_op (f : Qc) (p r : list Qc) : list Qc := map (fun xy => (fst xy - f * snd xy)%Qc) (combine r p).
Fixpoint pivot (c : nat) (before rows : list (list Qc)) : list (list Qc) :=
  match rows with
  | [] => before
  | r :: rest => if Qc_eq_bool (nth c r 0%Qc) 0 then pivot c (before ++ [r])%list rest else (r :: before ++ rest)%list
  end.
Definition eliminate (rows : list (list Qc)) (c : nat) : list (list Qc) :=
  match pivot c [] (skipn c rows) with
  | [] => rows
  | p :: rest =>
      let p' := map (fun x => (x / nth c p 0)%Qc) p in
      let clear := map (fun r => row_op (nth c r 0%Qc) p' r) in
      (clear (firstn c rows) ++ p' :: clear rest)%list
  end.
Definition gauss (m : list (list Qc)) : list (list Qc) :=
  let n := length m in
  map (skipn n) (fold_left eliminate (seq 0 n)
    (map (fun ir => (snd ir ++ map (fun j => if Nat.eqb (fst ir) j then 1%Qc else 0%Qc) (seq 0 n))%list) (combine (seq 0 n) m))).
Example C79_example_cubic :
  show (coefficients qK gauss (Some (degree_names ["dummy"] 3)) None (Leaf (arr ["x"] [5] [-2; -1; 0; 1; 2]%Z))
    (arr ["x"] [5] [-5; 0; 1; 4; 15]%Z) (Some ["x"]) yes)
  = Ok [("", [1]); ("dummy", [1]); ("dummy*dummy", [1]); ("dummy*dummy*dummy", [1])]%Q.
Proof. vm_compute. reflexivity. Qed.

(** *** The constant alone *)

(** The fit of a constant is the sum of the outputs, not their mean; with an explicit
    axis it raises a ValueError. *)
Theorem C79_constant_refuted : forall np_inv, exists (inputs outputs : operand Qc) (C D : string -> Qc) cf,
  op_wf inputs /\ op_wf outputs /\ op_shape inputs = [("x", 3)] /\ op_shape outputs = [("x", 3)] /\
  coefficients qK np_inv (Some [""]) None (Leaf inputs) outputs None (OpNum true) = Ok cf /\
  coefficients_at cf (fun _ => 0) C /\
  (let X := fun e (_ : string) => op_at inputs e in
   let l := points [("x", 3)] ["x"] (OpNum true) (fun _ => 0%nat) in
   squared_error qK X split [""] l (op_at outputs) D < squared_error qK X split [""] l (op_at outputs) C)%Qc /\
  coefficients qK np_inv (Some [""]) None (Leaf inputs) outputs (Some ["x"]) (OpNum true) = Err ValueError.
Proof.
  intros np_inv. set (i := arr ["x"] [3] [0; 1; 2]%Z). set (o := arr ["x"] [3] [1; 2; 3]%Z).
  exists i, o, (value (the (coefficients qK np_inv (Some [""]) None (Leaf i) o None (OpNum true))) (fun _ => 0)), (fun _ => q 2),
    (the (coefficients qK np_inv (Some [""]) None (Leaf i) o None (OpNum true))).
  split; [repeat split; repeat constructor; intros []|]. split; [repeat split; repeat constructor; intros []|].
  split; [reflexivity|]. split; [reflexivity|]. split; [apply ok_the; vm_compute; reflexivity|].
  split; [apply (value_at _ _ [""]); [vm_compute; reflexivity|repeat constructor; intros []]|].
  split; [vm_compute; reflexivity|]. vm_compute. reflexivity.
Qed.
Print Assumptions C79_constant_refuted.

(** *** Outputs with more axes *)

(** Without [axis], outputs with an axis that the inputs lack are summed over more
    points than the terms: the line through the origin fitted to outputs equal to
    the inputs has the slope 2. *)
Theorem C79_axes_refuted : forall np_inv, exists (inputs outputs : operand Qc) (cf : dict (operand Qc)),
  op_wf inputs /\ op_wf outputs /\ op_shape inputs = [("x", 3)] /\ op_shape outputs = [("t", 2); ("x", 3)] /\
  (forall e, inside e (op_shape outputs) -> op_at outputs e = op_at inputs e) /\
  coefficients qK np_inv (Some ["dummy"]) None (Leaf inputs) outputs None (OpNum true) = Ok cf /\
  forall e C, coefficients_at cf e C -> C "dummy" = q 2.
Proof.
  intros np_inv. set (i := arr ["x"] [3] [0; 1; 2]%Z). set (o := arr ["t"; "x"] [2; 3] [0; 1; 2; 0; 1; 2]%Z).
  exists i, o, (the (coefficients qK np_inv (Some ["dummy"]) None (Leaf i) o None (OpNum true))).
  split; [repeat split; repeat constructor; intros []|].
  split; [repeat split; repeat constructor; cbn; intuition discriminate|]. split; [reflexivity|]. split; [reflexivity|].
  split.
  - intros e I. assert (Lt := I "t" 2 (or_introl eq_refl)). assert (Lx := I "x" 3 (or_intror (or_introl eq_refl))).
    unfold op_at, i, o, arr, bat, at_, bclamp. cbn -[q nth]. revert Lt Lx. generalize (e "t"), (e "x"). intros t x Lt Lx.
    destruct t as [|[|t]]; [| |exfalso; lia]; (destruct x as [|[|[|x]]]; [| | |exfalso; lia]); reflexivity.
  - split; [apply ok_the; vm_compute; reflexivity|]. intros e C H.
    assert (N : map fst (the (coefficients qK np_inv (Some ["dummy"]) None (Leaf i) o None (OpNum true))) = ["dummy"]) by (vm_compute; reflexivity).
    rewrite (found _ e C "dummy" ltac:(rewrite N; now left) H). clear N H. apply Qc_is_canon. vm_compute. reflexivity.
Qed.
Print Assumptions C79_axes_refuted.
