(** C84: gradient descent with momentum. *)
From Coq Require Import Ascii String List Arith ZArith Bool Lia QArith Qcanon.
From Verif Require Import Base BaseFacts Numpy Shapes Scalar Elementwise Vector Matrix Jacobian VectorOptimize.
From Verif Require Import Spec SpecVector SpecMatrix SpecTransform SpecJacobian SpecVectorReduce SpecOptimize SpecInverse SpecVectorOptimize.
From Verif Require MatrixFacts MatrixLaws DescentFacts DescentLaws Prop29 Prop81 Prop83.
Import ListNotations.
Open Scope nat_scope.
Open Scope list_scope.

Local Notation qK := MatrixLaws.qK.

(** The whole history, for guesses that are vectors.  Every step has its number, a
    position of the kind of the guess and the value there; the first position is the
    guess; the next position is the old one without the step size times the momentum,
    to which the gradient has been added already; the flags are those of the gradient
    before; the loop ends at the first position whose gradient is below the tolerance
    or with an error after [n] steps.  Missing from the full statement: guesses that
    are scalars. *)
Theorem C84_history_partial : forall (F : Type) (K : arith F) (absolute : F -> F) (less : F -> F -> bool) (B : shape) (p : tree unit)
  (function gradient : vec F -> res (vec F)) (g : env -> (string -> F) -> F) (G : env -> (string -> F) -> string -> F)
  (guess step momentum t : vec F) (A Bt : env -> string -> F) (T : string -> F) (n : nat),
  is_field K -> NoDup (dkeys B) -> (exists e, inside e B) -> space p -> realises_scalar B p function g -> realises B p p gradient G ->
  setting B p step -> setting B p momentum ->
  (forall e, inside e B -> setting_reads step e (A e)) -> (forall e, inside e B -> setting_reads momentum e (Bt e)) ->
  member B p guess -> setting [] p t -> (forall e, setting_reads t e T) ->
  let run := minimum_gradient_descent K absolute less function gradient guess step momentum t n in
  (forall k s, nth_error (fst run) k = Some s -> at_descent B p g k s) /\
  (forall s, hd_error (fst run) = Some s -> (forall e X, vector_reads guess e X <-> vector_reads (v_x s) e X) /\ function guess = Ok (v_f s) /\
     member B p (v_flags s) /\ forall e, inside e B -> vector_reads (v_flags s) e (fun _ => false)) /\
  descends K B p G A Bt (fun _ _ => zero K) (fst run) /\ linked (flags_linked absolute less B p G T) (fst run) /\
  newton_outcome absolute less B p G T n (fst run) (snd run).
Proof. intros F K ab less B p f gr g G gu st mo t A Bt T n FK N (e0 & I0) Sp Rf RG Ss Sm Rs Rm Mg St Rt. exact (DescentFacts.descent_history K FK ab less B N p Sp f gr g G Rf RG st mo A Bt T Ss Sm Rs Rm e0 I0 gu t n Mg St Rt). Qed.
Print Assumptions C84_history_partial.

(** A quadratic bowl without momentum: the distance to the minimum is multiplied by
    [1 - A h] at every step. *)
Theorem C84_bowl_partial : forall (F : Type) (K : arith F) (absolute : F -> F) (less : F -> F -> bool) (B : shape) (p : tree unit)
  (function gradient : vec F -> res (vec F)) (g : env -> (string -> F) -> F) (G : env -> (string -> F) -> string -> F)
  (guess step momentum t : vec F) (A Bt : env -> string -> F) (T : string -> F) (n : nat) (h m : env -> string -> F),
  is_field K -> NoDup (dkeys B) -> (exists e, inside e B) -> space p -> realises_scalar B p function g -> realises B p p gradient G ->
  setting B p step -> setting B p momentum ->
  (forall e, inside e B -> setting_reads step e (A e)) -> (forall e, inside e B -> setting_reads momentum e (Bt e)) ->
  member B p guess -> setting [] p t -> (forall e, setting_reads t e T) ->
  (forall e X c, inside e B -> In c (names p) -> G e X c = times K (h e c) (minus K (X c) (m e c))) ->
  (forall e c, inside e B -> In c (names p) -> Bt e c = zero K) ->
  let history := fst (minimum_gradient_descent K absolute less function gradient guess step momentum t n) in
  forall e X k c, inside e B -> positions history e X -> k < length history -> In c (names p) ->
    minus K (X k c) (m e c) = times K (power K (minus K (one K) (times K (A e c) (h e c))) k) (minus K (X 0 c) (m e c)).
Proof. intros F K ab less B p f gr g G gu st mo t A Bt T n h m FK N (e0 & I0) Sp Rf RG Ss Sm Rs Rm Mg St Rt HG HB. exact (DescentFacts.descent_bowl K FK ab less B N p Sp f gr g G Rf RG st mo A Bt T Ss Sm Rs Rm e0 I0 gu t n h m Mg St Rt HG HB). Qed.
Print Assumptions C84_bowl_partial.

(** When the step sizes are the inverses of the curvatures, the guess is returned if
    its gradient is below the tolerance, otherwise the exact minimum, after one step. *)
Theorem C84_exact_partial : forall (F : Type) (K : arith F) (absolute : F -> F) (less : F -> F -> bool) (B : shape) (p : tree unit)
  (function gradient : vec F -> res (vec F)) (g : env -> (string -> F) -> F) (G : env -> (string -> F) -> string -> F)
  (guess step momentum t : vec F) (A Bt : env -> string -> F) (T : string -> F) (n : nat) (h m : env -> string -> F),
  is_field K -> NoDup (dkeys B) -> (exists e, inside e B) -> space p -> realises_scalar B p function g -> realises B p p gradient G ->
  setting B p step -> setting B p momentum ->
  (forall e, inside e B -> setting_reads step e (A e)) -> (forall e, inside e B -> setting_reads momentum e (Bt e)) ->
  member B p guess -> setting [] p t -> (forall e, setting_reads t e T) ->
  (forall e X c, inside e B -> In c (names p) -> G e X c = times K (h e c) (minus K (X c) (m e c))) ->
  (forall e c, inside e B -> In c (names p) -> times K (A e c) (h e c) = one K) ->
  (forall c, In c (names p) -> less (absolute (zero K)) (T c) = true) -> 2 <= n ->
  exists x, snd (minimum_gradient_descent K absolute less function gradient guess step momentum t n) = Ok x /\ member B p x /\
    ((all_below absolute less B p G T guess /\ forall e X, vector_reads guess e X <-> vector_reads x e X) \/
     (~ all_below absolute less B p G T guess /\ forall e X c, inside e B -> vector_reads x e X -> In c (names p) -> X c = m e c)).
Proof. intros F K ab less B p f gr g G gu st mo t A Bt T n h m FK N (e0 & I0) Sp Rf RG Ss Sm Rs Rm Mg St Rt HG HA Z0 Hn. exact (DescentFacts.descent_exact K FK ab less B N p Sp f gr g G Rf RG st mo A Bt T Ss Sm Rs Rm e0 I0 gu t n h m Mg St Rt HG HA Z0 Hn). Qed.
Print Assumptions C84_exact_partial.

(** The default gradient has the difference quotients for its components. *)
Theorem C84_default : forall (F : Type) (K : arith F) (B : shape) (p : tree unit) (function : vec F -> res (vec F))
  (g : env -> (string -> F) -> F) (dx : vec F) (D : env -> string -> F),
  NoDup (dkeys B) -> space p -> realises_scalar B p function g -> step_ok B p dx -> (forall e, inside e B -> step_reads p dx e (D e)) ->
  realises B p p (default_gradient K function dx) (fun e X c => quotient K (g e (moved K X c (D e c))) (g e X) (D e c)).
Proof. intros F K B p f g dx D N Sp Rf Sd Rd. exact (DescentFacts.default_gradient_ok K B p f g dx D N Sp Rf Sd Rd). Qed.
Print Assumptions C84_default.

Open Scope string_scope.

(** Refuted for scalars: whatever the function of one variable, its gradient and the
    guess, TypeError is raised before the first step. *)
Theorem C84_refuted : forall (F : Type) (K : arith F) (absolute : F -> F) (less : F -> F -> bool) (function gradient : vec F -> res (vec F))
  (guess : operand F) (step momentum t : vec F) (n : nat) (v : operand F),
  function (Leaf guess) = Ok (Leaf v) ->
  minimum_gradient_descent K absolute less function gradient (Leaf guess) step momentum t n = ([], Err TypeError).
Proof. intros. eapply DescentFacts.descent_scalar; eauto. Qed.
Print Assumptions C84_refuted.

(** Refuted: the rule of the documentation, by the bowl x x + y y without momentum,
    whatever the momentum at the beginning. *)
Theorem C84_documented_refuted : exists (p : tree unit) (function gradient : vec Qc -> res (vec Qc)) (guess step momentum t : vec Qc) (a b : Qc) (n : nat),
  space p /\ names p = ["x"; "y"] /\
  realises_scalar [] p function (fun _ V => (V "x" * V "x" + V "y" * V "y")%Qc) /\
  realises [] p p gradient (fun _ V c => (Prop81.q 2 * V c)%Qc) /\ member [] p guess /\ setting [] p t /\
  setting [] p step /\ (forall e, setting_reads step e (fun _ => a)) /\ setting [] p momentum /\ (forall e, setting_reads momentum e (fun _ => b)) /\
  forall Z, ~ documented qK [] p (fun _ V c => (Prop81.q 2 * V c)%Qc) (fun _ _ => a) (fun _ _ => b) Z
              (fst (minimum_gradient_descent qK Prop29.qabs Prop29.qless function gradient guess step momentum t n)).
Proof.
  exists Prop83.p2, DescentLaws.bowl, DescentLaws.bowl_gradient, DescentLaws.start, (Leaf (OpNum DescentLaws.quarter)), (Leaf (OpNum (Prop81.q 0))), (Leaf (OpNum DescentLaws.hundredth)), DescentLaws.quarter, (Prop81.q 0), 3%nat.
  split; [exact DescentLaws.space_p2|]. split; [reflexivity|].
  split; [exact (DescentLaws.bowl_realises [] (NoDup_nil _))|]. split; [exact (DescentLaws.bowl_gradient_realises [] (NoDup_nil _))|].
  split; [exact DescentLaws.start_member|]. split; [exact (DescentLaws.scalar_setting _ _)|]. split; [exact (DescentLaws.scalar_setting _ _)|].
  split; [exact (fun _ _ => eq_refl)|]. split; [exact (DescentLaws.scalar_setting _ _)|]. split; [exact (fun _ _ => eq_refl)|]. exact DescentLaws.not_documented.
Qed.
Print Assumptions C84_documented_refuted.

(** ** Examples *)

Local Notation q := Prop81.q.
Local Notation arr := Prop81.arr.
Local Notation point := Prop83.point.
Local Notation p2 := Prop83.p2.
Local Notation show_vec := Prop81.show_vec.
Local Notation num x := (Leaf (OpNum x)).
Definition half : Qc := Q2Qc (1 # 2).
Definition flat_value (v : vec Qc) := match v with Leaf o => Prop81.flat_op o | Node _ _ => [] end.
Definition show (r : list (vseen Qc) * res (vec Qc)) :=
  (map (fun s => (v_step s, show_vec (v_x s), flat_value (v_f s), map (fun kv => (fst kv, Prop83.flat_flags (snd kv))) (cartesian_nd (v_flags s)))) (fst r),
   match snd r with Ok v => Ok (show_vec v) | Err e => Err e end).
Definition descent := minimum_gradient_descent qK Prop29.qabs Prop29.qless.

(** two guesses along an axis, with momentum 1/2 and steps of a quarter *)
Example C84_example_history :
  show (descent DescentLaws.bowl DescentLaws.bowl_gradient (point (arr "t" [0; 4]%Z) (OpNum (q 2))) (num DescentLaws.quarter) (num half) (num (q 2)) 5) =
  ([(0%nat, [("x", [0; 4]); ("y", [2; 2])], [4; 20], [("x", [false; false]); ("y", [false; false])]);
    (1%nat, [("x", [0; 2]); ("y", [1; 1])], [1; 5], [("x", [true; false]); ("y", [false; false])]);
    (2%nat, [("x", [0; 0]); ("y", [0; 0])], [0; 0], [("x", [true; false]); ("y", [false; false])])],
   Ok [("x", [0; 0]); ("y", [0; 0])])%Q.
Proof. vm_compute. reflexivity. Qed.

(** a step size for every component, a tolerance for every component, too few steps *)
Example C84_example_settings :
  snd (show (descent DescentLaws.bowl DescentLaws.bowl_gradient (point (OpNum (q 8)) (OpNum (q 6))) (point (OpNum half) (OpNum DescentLaws.quarter)) (num (q 0)) (point (OpNum (q 1)) (OpNum (q 7))) 3)) =
    Ok [("x", [0]); ("y", [3])]%Q /\
  snd (show (descent DescentLaws.bowl DescentLaws.bowl_gradient (point (OpNum (q 8)) (OpNum (q 6))) (point (OpNum half) (OpNum DescentLaws.quarter)) (num (q 0)) (point (OpNum (q 1)) (OpNum (q 7))) 1)) =
    Err ValueError /\
  snd (show (descent DescentLaws.bowl DescentLaws.bowl_gradient (point (OpNum (q 8)) (OpNum (q 6))) (num half) (num (q 0)) (Leaf (arr "t" [1; 2]%Z)) 3)) =
    Err ValueError.
Proof. split; [|split]; vm_compute; reflexivity. Qed.

(** the default gradient with a step of 1 *)
Example C84_example_default :
  match default_gradient qK DescentLaws.bowl (num (q 1)) (point (arr "t" [3; 5]%Z) (OpNum (q 2))) with Ok v => show_vec v | Err _ => [] end =
  [("x", [7; 11]); ("y", [5; 5])]%Q.
Proof. vm_compute. reflexivity. Qed.

(** a function whose value is a vector has no gradient *)
Example C84_example_vector :
  default_gradient qK (fun v => Ok v) (num (q 1)) (point (arr "t" [3; 5]%Z) (OpNum (q 2))) = Err TypeError.
Proof. vm_compute. reflexivity. Qed.

(** the bowl meets the hypotheses of the theorems: with steps of a half its minimum is
    reached after one step *)
Example C84_example_exact : exists x,
  snd (descent DescentLaws.bowl DescentLaws.bowl_gradient DescentLaws.start (num half) (num (q 5)) (num half) 2) = Ok x /\
  forall X c, vector_reads x (fun _ => 0%nat) X -> In c (names p2) -> X c = q 0.
Proof.
  assert (N0 : NoDup (@dkeys nat [])) by constructor.
  assert (In0 : forall e : env, inside e []) by (intros e ax n []).
  destruct (C84_exact_partial Qc qK Prop29.qabs Prop29.qless [] p2 DescentLaws.bowl DescentLaws.bowl_gradient _ _ DescentLaws.start (num half) (num (q 5)) (num half)
    (fun _ _ => half) (fun _ _ => q 5) (fun _ => half) 2 (fun _ _ => q 2) (fun _ _ => q 0) MatrixLaws.qK_field N0 (ex_intro _ (fun _ => 0%nat) (In0 _)) DescentLaws.space_p2
    (DescentLaws.bowl_realises [] N0) (DescentLaws.bowl_gradient_realises [] N0) (DescentLaws.scalar_setting _ _) (DescentLaws.scalar_setting _ _)
    (fun _ _ _ => eq_refl) (fun _ _ _ => eq_refl) DescentLaws.start_member (DescentLaws.scalar_setting _ _) (fun _ _ => eq_refl)) as (x & E & _ & [(Ab & _)|(_ & R)]).
  - intros e X c _ _. change (q 2 * X c = q 2 * (X c - 0))%Qc. ring.
  - intros e c _ _. apply Qc_is_canon. reflexivity.
  - intros c _. reflexivity.
  - lia.
  - exfalso. specialize (Ab (fun _ => 0%nat) (fun c => MatrixFacts.comp qK DescentLaws.start c (fun _ => 0%nat)) "x" (In0 _) (MatrixLaws.comp_reads qK DescentLaws.start _ (proj1 DescentLaws.start_member)) (or_introl eq_refl)).
    vm_compute in Ab. discriminate.
  - exists x. split; [exact E|]. intros X c RX Hc. exact (R _ X c (In0 _) RX Hc).
Qed.
