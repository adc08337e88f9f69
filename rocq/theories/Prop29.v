(** C29: Newton's method. *)
From Coq Require Import String List Arith ZArith Bool Lia QArith Qcanon.
From Verif Require Import Base Numpy Shapes Scalar Matrix Optimize Spec SpecOptimize MatrixLaws OptimizeFacts.
Import ListNotations.
Open Scope nat_scope.
Open Scope list_scope.

(** A returned value is the last position of the history.  The function has been
    computed at it (at the guess itself when no step was made), all elements are
    below the tolerance, and this was not the case earlier. *)
Theorem C29_returns :
  forall (F : Type) (K : arith F) (absolute : F -> F) (less : F -> F -> bool)
         (function jacobian : sarr F -> res (sarr F)),
  returns_wf function -> returns_wf jacobian ->
  forall (guess tolerance : sarr F) (n : nat), wf guess -> wf tolerance ->
  let run := root_newton K absolute less function jacobian guess tolerance n in
  forall x, snd run = Ok x ->
  exists init s, fst run = init ++ [s] /\ at_x s = x /\ wf x /\ wf (at_f s) /\
    below absolute less (single tolerance) (at_f s) /\
    Forall (fun s => ~ below absolute less (single tolerance) (at_f s)) init /\
    function (match init with [] => guess | _ => x end) = Ok (at_f s).
Proof. exact @newton_returns. Qed.
Print Assumptions C29_returns.

(** When the function applies [h] to each element, every element of the returned
    array is a root of [h] within the tolerance. *)
Theorem C29_elementwise :
  forall (F : Type) (K : arith F) (absolute : F -> F) (less : F -> F -> bool)
         (function jacobian : sarr F -> res (sarr F)),
  returns_wf function -> returns_wf jacobian ->
  forall (guess tolerance : sarr F) (n : nat), wf guess -> wf tolerance ->
  forall (h : F -> F) (x : sarr F), applies function h ->
  snd (root_newton K absolute less function jacobian guess tolerance n) = Ok x ->
  forall e, inside e (sshape x) -> less (absolute (h (at_ x e))) (single tolerance) = true.
Proof. exact @newton_elementwise. Qed.
Print Assumptions C29_elementwise.

(** What the callback sees: at most [n] steps, numbered from 0, beginning with the
    guess broadcast against its value, each of them one Newton step after the
    previous one, with the value of the function there and with the flags of the
    previous step. *)
Theorem C29_history :
  forall (F : Type) (K : arith F) (absolute : F -> F) (less : F -> F -> bool)
         (function jacobian : sarr F -> res (sarr F)),
  returns_wf function -> returns_wf jacobian ->
  forall (guess tolerance : sarr F) (n : nat), wf guess -> wf tolerance ->
  let tr := fst (root_newton K absolute less function jacobian guess tolerance n) in
  length tr <= n /\
  (forall k s, nth_error tr k = Some s -> at_step s = k) /\
  (forall s, nth_error tr 0 = Some s ->
     function guess = Ok (at_f s) /\
     exists sh, broadcast_shapes [sshape (at_f s); sshape guess] = Ok sh /\ broadcast_of guess sh (at_x s)) /\
  linked (fun s s' => newton_step K jacobian (at_x s) (at_f s) (at_x s') /\ function (at_x s') = Ok (at_f s') /\
            flags_of absolute less (single tolerance) (at_flags s') (at_f s)) tr.
Proof. exact @newton_history. Qed.
Print Assumptions C29_history.

(** When it raises, no position of the history was good enough, and the reason is
    one of: the function raises at the guess, the tolerance has axes, the shapes do
    not fit, all [n] iterations have been used, or a step cannot be made. *)
Theorem C29_raises :
  forall (F : Type) (K : arith F) (absolute : F -> F) (less : F -> F -> bool)
         (function jacobian : sarr F -> res (sarr F)),
  returns_wf function -> returns_wf jacobian ->
  forall (guess tolerance : sarr F) (n : nat), wf guess -> wf tolerance ->
  let run := root_newton K absolute less function jacobian guess tolerance n in
  forall e, snd run = Err e ->
  Forall (fun s => ~ below absolute less (single tolerance) (at_f s)) (fst run) /\
  ((function guess = Err e \/
    exists f, function guess = Ok f /\ e = ValueError /\
      (sshape tolerance <> [] \/ broadcast_shapes [sshape f; sshape guess] = Err ValueError)) \/
   (length (fst run) = n /\ e = ValueError) \/
   exists init s, fst run = init ++ [s] /\ newton_step_fails K function jacobian (at_x s) (at_f s) e).
Proof. exact @newton_raises. Qed.
Print Assumptions C29_raises.

Open Scope string_scope.

(** Non-vacuity: the square roots of 2 and 9, beginning at 1 and 3 *)
Definition qabs (x : Qc) : Qc := if Qle_bool (this x) 0 then Qcopp x else x.
Definition qless (x y : Qc) : bool := negb (Qle_bool (this y) (this x)).
Definition ex_goal : sarr Qc := mkS (of_list (Q2Qc 0) [2] [Q2Qc 2; Q2Qc 9]) ["x"].
Definition ex_guess : sarr Qc := mkS (of_list (Q2Qc 0) [2] [Q2Qc 1; Q2Qc 3]) ["x"].
Definition ex_tol : sarr Qc := mkS (scalar (Q2Qc (1 # 100))) [].
Definition ex_f (x : sarr Qc) : res (sarr Qc) :=
  s <- u2 (Q2Qc 0) Qcmult x x ;; u2 (Q2Qc 0) Qcminus s ex_goal.
Definition ex_j (x : sarr Qc) : res (sarr Qc) := u2 (Q2Qc 0) Qcplus x x.
Definition show (a : sarr Qc) := map this (ravel (s_nd a)).
Definition show_step (s : seen Qc) := (at_step s, show (at_x s), show (at_f s), ravel (s_nd (at_flags s))).

Example C29_ex :
  let run := root_newton qK qabs qless ex_f ex_j ex_guess ex_tol 10 in
  match snd run with Ok x => Some (show x) | Err _ => None end = Some [(17 # 12)%Q; 3%Q] /\
  map show_step (fst run) =
    [(0, [1%Q; 3%Q], [-1 # 1; 0]%Q, [false; false]);
     (1, [3 # 2; 3]%Q, [1 # 4; 0]%Q, [false; true]);
     (2, [17 # 12; 3]%Q, [1 # 144; 0]%Q, [false; true])].
Proof. vm_compute. split; reflexivity. Qed.

Example C29_ex_exhausted :
  let run := root_newton qK qabs qless ex_f ex_j ex_guess ex_tol 2 in
  snd run = Err ValueError /\ length (fst run) = 2.
Proof. vm_compute. split; reflexivity. Qed.

(** the hypotheses hold for these functions *)
Example C29_ex_wf : returns_wf ex_f /\ returns_wf ex_j /\ wf ex_guess /\ wf ex_tol /\
  applies (u1 (Q2Qc 0) (fun y => Qcminus (Qcmult y y) (Q2Qc 2))) (fun y => Qcminus (Qcmult y y) (Q2Qc 2)).
Proof.
  assert (Wg : wf ex_goal) by (split; [repeat constructor; simpl; tauto|reflexivity]).
  split; [|split; [|split; [|split]]].
  - intros x y W E. unfold ex_f in E. destruct (u2 (Q2Qc 0) Qcmult x x) as [s|] eqn:Es; [cbn [bind] in E|discriminate].
    apply (u2_inv _ _ _ _ _ W W) in Es. destruct Es as (Ws & _). now apply (u2_inv _ _ _ _ _ Ws Wg) in E.
  - intros x y W E. now apply (u2_inv _ _ _ _ _ W W) in E.
  - split; [repeat constructor; simpl; tauto|reflexivity].
  - split; [constructor|reflexivity].
  - intros x W. destruct (u1_ok (Q2Qc 0) (fun y => Qcminus (Qcmult y y) (Q2Qc 2)) x W) as (r & E & Wr & Sr & V).
    exists r. split; [exact E|]. split; [exact Wr|]. split; [now rewrite Sr|exact V].
Qed.
