(** C30: the secant method. *)
From Coq Require Import String List Arith ZArith Bool Lia QArith Qcanon.
From Verif Require Import Base Numpy Shapes Scalar Matrix Optimize Spec SpecOptimize MatrixLaws OptimizeFacts SecantFacts.
Import ListNotations.
Open Scope nat_scope.
Open Scope list_scope.

(** When the values of the function are finite: a returned array is the last
    position of the history, and each of its elements met the residual or the step
    criterion at some step and was not modified afterwards. *)
Theorem C30_returns_partial :
  forall (F : Type) (K : arith F) (absolute : F -> F) (less : F -> F -> bool) (ten : F)
         (function : sarr F -> res (sarr F)) (min_step guess tolerance : sarr F) (damping : option F) (n : nat),
  returns_wf function -> wf min_step -> wf guess -> wf tolerance -> finite_values K function ->
  let run := root_secant K absolute less ten function min_step damping guess tolerance n in
  let start := fun e => minus K (bat guess e) (times K ten (bat min_step e)) in
  forall x, snd run = Ok x ->
  exists init s, fst run = init ++ [s] /\ at_x s = x /\ function x = Ok (at_f s) /\ wf x /\
    forall e, inside e (sshape x) ->
      exists k, converges K absolute less start (single tolerance) min_step (fst run) k e /\
        forall k' s', k <= k' -> nth_error (fst run) k' = Some s' -> at_ (at_x s') e = at_ x e.
Proof. exact @secant_returns. Qed.
Print Assumptions C30_returns_partial.

(** The history: at most [n] steps, numbered from 0, beginning with the guess; the
    elements that have met a criterion stay, the others follow the formula of the
    secant through the two last positions; the flags tell which is which. *)
Theorem C30_history_partial :
  forall (F : Type) (K : arith F) (absolute : F -> F) (less : F -> F -> bool) (ten : F)
         (function : sarr F -> res (sarr F)) (min_step guess tolerance : sarr F) (damping : option F) (n : nat),
  returns_wf function -> wf min_step -> wf guess -> wf tolerance -> finite_values K function ->
  let tr := fst (root_secant K absolute less ten function min_step damping guess tolerance n) in
  let start := fun e => minus K (bat guess e) (times K ten (bat min_step e)) in
  length tr <= n /\
  (forall k s, nth_error tr k = Some s -> at_step s = k /\ function (at_x s) = Ok (at_f s)) /\
  (tr <> [] -> exists x0 f0 sh, function x0 = Ok f0 /\
     broadcast_shapes [sshape f0; sshape guess; sshape min_step] = Ok sh /\
     (forall e, inside e sh -> bat x0 e = start e) /\
     (forall s, nth_error tr 0 = Some s -> broadcast_of guess sh (at_x s)) /\
     (forall s, In s tr -> wf (at_x s) /\ sshape (at_x s) = sh /\ wf (at_flags s) /\ sshape (at_flags s) = sh) /\
     forall k s s', nth_error tr k = Some s -> nth_error tr (S k) = Some s' ->
       secant_link K absolute less start (single tolerance) min_step damping f0 sh tr k s s').
Proof. exact @secant_history. Qed.
Print Assumptions C30_history_partial.

(** For a function that keeps shapes, the only reasons to raise are that all [n]
    iterations have been used or that the secant is horizontal at an element that
    has not converged. *)
Theorem C30_raises_partial :
  forall (F : Type) (K : arith F) (absolute : F -> F) (less : F -> F -> bool) (ten : F)
         (function : sarr F -> res (sarr F)) (min_step guess tolerance : sarr F) (damping : option F) (n : nat),
  returns_wf function -> wf min_step -> wf guess -> wf tolerance -> finite_values K function ->
  let run := root_secant K absolute less ten function min_step damping guess tolerance n in
  let start := fun e => minus K (bat guess e) (times K ten (bat min_step e)) in
  forall (er : err) (sh0 : shape), keeps_shape function -> sshape tolerance = [] ->
  broadcast_shapes [sshape guess; sshape min_step] = Ok sh0 ->
  snd run = Err er ->
  er = ValueError /\
  (length (fst run) = n \/
   exists init s x0 f0 e, fst run = init ++ [s] /\ function x0 = Ok f0 /\
     (forall e, inside e (sshape (at_x s)) -> bat x0 e = start e) /\
     inside e (sshape (at_x s)) /\
     ~ converged_by K absolute less start (single tolerance) min_step (fst run) (length init) e /\
     is_zero K (minus K (bat (at_f s) e) (value_before K f0 (fst run) (length init) e)) = true).
Proof. exact @secant_raises. Qed.
Print Assumptions C30_raises_partial.

Open Scope string_scope.

(** Non-vacuity: the square roots of 2 and 9; the second element converges one step
    before the first and is not touched by the last step *)
Definition qabs (x : Qc) : Qc := if Qle_bool (this x) 0 then Qcopp x else x.
Definition qless (x y : Qc) : bool := negb (Qle_bool (this y) (this x)).
Definition ex_goal : sarr Qc := mkS (of_list (Q2Qc 0) [2] [Q2Qc 2; Q2Qc 9]) ["x"].
Definition ex_guess : sarr Qc := mkS (of_list (Q2Qc 0) [2] [Q2Qc 1; Q2Qc 3]) ["x"].
Definition ex_tol : sarr Qc := mkS (scalar (Q2Qc (1 # 10))) [].
Definition ex_min : sarr Qc := mkS (scalar (Q2Qc (1 # 20))) [].
Definition ex_f (x : sarr Qc) : res (sarr Qc) :=
  s <- u2 (Q2Qc 0) Qcmult x x ;; u2 (Q2Qc 0) Qcminus s ex_goal.
Definition show (a : sarr Qc) := map this (ravel (s_nd a)).
Definition show_step (s : seen Qc) := (at_step s, show (at_x s), show (at_f s), ravel (s_nd (at_flags s))).

Example C30_ex :
  let run := root_secant qK qabs qless (Q2Qc 10) ex_f ex_min None ex_guess ex_tol 10 in
  match snd run with Ok x => Some (show x) | Err _ => None end = Some [103 # 73; 3]%Q /\
  map show_step (fst run) =
    [(0, [1; 3]%Q, [-1 # 1; 0]%Q, [false; false]);
     (1, [5 # 3; 3]%Q, [7 # 9; 0]%Q, [false; true]);
     (2, [11 # 8; 3]%Q, [-7 # 64; 0]%Q, [false; true]);
     (3, [103 # 73; 3]%Q, [-49 # 5329; 0]%Q, [false; true])].
Proof. vm_compute. split; reflexivity. Qed.

Example C30_ex_damped :
  let run := root_secant qK qabs qless (Q2Qc 10) ex_f ex_min (Some (Q2Qc (1 # 2))) ex_guess ex_tol 2 in
  snd run = Err ValueError /\
  map show_step (fst run) =
    [(0, [1; 3]%Q, [-1 # 1; 0]%Q, [false; false]); (1, [4 # 3; 3]%Q, [-2 # 9; 0]%Q, [false; true])].
Proof. vm_compute. split; reflexivity. Qed.

(** the hypotheses hold for this function and for a polynomial *)
Example C30_ex_hypotheses :
  returns_wf ex_f /\ wf ex_min /\ wf ex_guess /\ wf ex_tol /\ finite_values qK ex_f /\
  keeps_shape (u1 (Q2Qc 0) (fun y => Qcminus (Qcmult y y) (Q2Qc 2))).
Proof.
  assert (Wg : wf ex_goal) by (split; [repeat constructor; simpl; tauto|reflexivity]).
  split; [|split; [|split; [|split; [|split]]]].
  - intros x y W E. unfold ex_f in E. destruct (u2 (Q2Qc 0) Qcmult x x) as [s|] eqn:Es; [cbn [bind] in E|discriminate].
    apply (u2_inv _ _ _ _ _ W W) in Es. destruct Es as (Ws & _). now apply (u2_inv _ _ _ _ _ Ws Wg) in E.
  - split; [constructor|reflexivity].
  - split; [repeat constructor; simpl; tauto|reflexivity].
  - split; [constructor|reflexivity].
  - intros x y _ _ e _. unfold finite. cbn [times zero is_zero qK]. rewrite Qcmult_0_l.
    destruct (Qc_eq_dec (Q2Qc 0) (Q2Qc 0)) as [H|H]; [reflexivity|now destruct H].
  - intros x W. destruct (u1_ok (Q2Qc 0) (fun y => Qcminus (Qcmult y y) (Q2Qc 2)) x W) as (r & E & Wr & Sr & V).
    exists r. split; [exact E|]. split; [exact Wr|]. now rewrite Sr.
Qed.

(** Finding.  The flags are initialised with [(0 * f0).astype(bool)], which is true
    where [f0], the value at [guess - 10 * min_step_size], is not finite.  Such an
    element counts as converged from the beginning: if the function is undefined
    (NaN) just left of the guess, the guess itself is returned although its value is
    not small and no step was made.  Numbers with NaN are [option Z] here. *)
Definition nan2 (h : Z -> Z -> Z) (x y : option Z) : option Z :=
  match x, y with Some a, Some b => Some (h a b) | _, _ => None end.
Definition nanK : arith (option Z) :=
  mkArith _ (Some 0%Z) (Some 1%Z) (nan2 Z.add) (nan2 Z.mul) (nan2 Z.sub) (option_map Z.opp) (nan2 Z.div)
    (fun x => match x with Some 0%Z => true | _ => false end).
Definition nan_less (x y : option Z) : bool := match x, y with Some a, Some b => Z.ltb a b | _, _ => false end.

(** [sqrt(x) - 100]-like: undefined for negative numbers, otherwise [x - 100] *)
Definition root_like (x : option Z) : option Z :=
  match x with Some a => if Z.ltb a 0 then None else Some (a - 100)%Z | None => None end.

Theorem C30_refuted :
  exists (function : sarr (option Z) -> res (sarr (option Z))) (min_step guess tolerance x : sarr (option Z)) (e : env),
    returns_wf function /\ keeps_shape function /\ applies function root_like /\ wf min_step /\ wf guess /\ wf tolerance /\
    let run := root_secant nanK (option_map Z.abs) nan_less (Some 10%Z) function min_step None guess tolerance 100 in
    let start := fun e => minus nanK (bat guess e) (times nanK (Some 10%Z) (bat min_step e)) in
    snd run = Ok x /\ inside e (sshape x) /\ at_ x e = Some 0%Z /\ root_like (at_ x e) = Some (-100)%Z /\
    single tolerance = Some 1%Z /\
    forall k, ~ converges nanK (option_map Z.abs) nan_less start (single tolerance) min_step (fst run) k e.
Proof.
  exists (u1 None root_like), (mkS (scalar (Some 1%Z)) []), (mkS (scalar (Some 0%Z)) []), (mkS (scalar (Some 1%Z)) []).
  eexists. exists (fun _ => 0).
  split; [|split; [|split; [|split; [|split; [|split]]]]].
  - intros x y W E. destruct (u1_ok None root_like x W) as (r & E' & Wr & _). congruence.
  - intros x W. destruct (u1_ok None root_like x W) as (r & E & Wr & Sr & V).
    exists r. split; [exact E|]. split; [exact Wr|]. now rewrite Sr.
  - intros x W. destruct (u1_ok None root_like x W) as (r & E & Wr & Sr & V).
    exists r. split; [exact E|]. split; [exact Wr|]. split; [now rewrite Sr|exact V].
  - split; [constructor|reflexivity].
  - split; [constructor|reflexivity].
  - split; [constructor|reflexivity].
  - cbv zeta. split; [vm_compute; reflexivity|]. split; [intros ax n []|]. split; [reflexivity|]. split; [reflexivity|]. split; [reflexivity|].
    intros k (s & H & C). destruct k as [|[|k]]; [|vm_compute in H; discriminate|vm_compute in H; destruct k; discriminate].
    vm_compute in H. injection H as <-. vm_compute in C. destruct C; discriminate.
Qed.
Print Assumptions C30_refuted.
