(** C71: copying to function arrays. *)
From Coq Require Import String List Arith ZArith Bool Lia.
From Verif Require Import Base BaseFacts Numpy Shapes Scalar Elementwise Func FuncOps Spec SpecNumeric SpecFuncOps FuncShapeFacts.
Import ListNotations.
Open Scope nat_scope.
Open Scope list_scope.

(** Without a mask both parts are copied, broadcast to the destination; if only the
    outputs do not fit, the inputs are copied before the exception. *)
Theorem C71_plain :
  forall (A B : Type) (eqb : A -> A -> bool) (dst src : farr A B) (b : bool),
  wf (f_inputs dst) -> wf (f_outputs dst) -> wf (f_inputs src) -> wf (f_outputs src) ->
  (fits_in (sshape (f_inputs src)) (sshape (f_inputs dst)) -> exists i, wf i /\ sshape i = sshape (f_inputs dst) /\
     (forall e, at_ i e = if b then bat (f_inputs src) e else at_ (f_inputs dst) e) /\
     (fits_in (sshape (f_outputs src)) (sshape (f_outputs dst)) -> exists o, wf o /\ sshape o = sshape (f_outputs dst) /\
        (forall e, at_ o e = if b then bat (f_outputs src) e else at_ (f_outputs dst) e) /\
        f_copyto eqb dst src (FMBool b) = (mkF i o, Ok tt)) /\
     (~ fits_in (sshape (f_outputs src)) (sshape (f_outputs dst)) ->
        f_copyto eqb dst src (FMBool b) = (mkF i (f_outputs dst), Err ValueError))) /\
  (~ fits_in (sshape (f_inputs src)) (sshape (f_inputs dst)) -> f_copyto eqb dst src (FMBool b) = (dst, Err ValueError)).
Proof. exact @f_copyto_plain. Qed.
Print Assumptions C71_plain.

(** With a mask, which must have the inputs of the source, the outputs are copied
    where it is true.  Missing from the full statement: the inputs of the
    destination are replaced everywhere, by the buffer of the source. *)
Theorem C71_masked_partial :
  forall (A B : Type) (eqb : A -> A -> bool) (dst src : farr A B) (g : farr A bool),
  (forall x y, eqb x y = true <-> x = y) ->
  wf (f_inputs dst) -> wf (f_outputs dst) -> wf (f_inputs src) -> wf (f_outputs src) -> wf (f_inputs g) -> wf (f_outputs g) ->
  (~ agree (f_inputs g) (f_inputs src) -> f_copyto eqb dst src (FMFun g) = (dst, Err ValueError)) /\
  (agree (f_inputs g) (f_inputs src) ->
   incl (s_axes (f_inputs src)) (s_axes (f_inputs dst)) -> incl (s_axes (f_inputs g)) (s_axes (f_inputs dst)) ->
   fits_in (sshape (f_outputs src)) (sshape (f_outputs dst)) -> fits_in (sshape (f_outputs g)) (sshape (f_outputs dst)) ->
   exists o, f_copyto eqb dst src (FMFun g) = (mkF (mkS (s_nd (f_inputs src)) (s_axes (f_inputs dst))) o, Ok tt) /\
     wf o /\ sshape o = sshape (f_outputs dst) /\
     forall e, at_ o e = if bat (f_outputs g) e then bat (f_outputs src) e else at_ (f_outputs dst) e).
Proof. exact @f_copyto_masked. Qed.
Print Assumptions C71_masked_partial.

Open Scope string_scope.

Definition arr {T} (d : T) (sh : list nat) (axes : list string) (l : list T) : sarr T := mkS (of_list d sh l) axes.
Definition parts (f : farr Z Z) :=
  (sshape (f_inputs f), ravel (s_nd (f_inputs f)), sshape (f_outputs f), ravel (s_nd (f_outputs f))).
Definition show (r : farr Z Z * res unit) := (parts (fst r), snd r).

Definition ex_dst : farr Z Z := mkF (arr 0%Z [3] ["x"] [0; 1; 2]%Z) (arr 0%Z [3] ["x"] [10; 11; 12]%Z).
Definition ex_src : farr Z Z := mkF (arr 0%Z [3] ["x"] [5; 6; 7]%Z) (arr 0%Z [3] ["x"] [55; 66; 77]%Z).
Definition ex_mask : farr Z bool := mkF (arr 0%Z [3] ["x"] [5; 6; 7]%Z) (arr false [3] ["x"] [true; false; true]).

Example C71_example :
  show (f_copyto Z.eqb ex_dst ex_src (FMBool true)) = ([("x", 3)], [5; 6; 7]%Z, [("x", 3)], [55; 66; 77]%Z, Ok tt) /\
  show (f_copyto Z.eqb ex_dst ex_src (FMBool false)) = (parts ex_dst, Ok tt) /\
  show (f_copyto Z.eqb ex_dst ex_dst (FMFun ex_mask)) = (parts ex_dst, Err ValueError) /\
  wf (f_inputs ex_dst) /\ fits_in (sshape (f_inputs ex_src)) (sshape (f_inputs ex_dst)) /\ agree (f_inputs ex_mask) (f_inputs ex_src).
Proof.
  do 3 (split; [vm_compute; reflexivity|]). split; [split; [repeat (constructor; [simpl; intuition discriminate|]); constructor|reflexivity]|].
  split; [intros ax n [H|[]]; injection H as <- <-; exists 3; simpl; auto|]. split.
  - intros (ax & n & m & H1 & H2 & H3 & _). cbn in H1, H2. destruct (String.eqb ax "x"); simpl in H1, H2; intuition lia.
  - reflexivity.
Qed.

(** Where the mask is false the destination keeps its output but gets the input of
    the source: the point (1, 11) becomes (6, 11). *)
Theorem C71_mask_refuted :
  show (f_copyto Z.eqb ex_dst ex_src (FMFun ex_mask)) = ([("x", 3)], [5; 6; 7]%Z, [("x", 3)], [55; 11; 77]%Z, Ok tt).
Proof. vm_compute. reflexivity. Qed.
Print Assumptions C71_mask_refuted.

(** The buffer of the inputs is replaced without looking at the names: even if the
    mask is true everywhere, inputs stored in another order are transposed... *)
Definition ex_dst2 : farr Z Z := mkF (arr 0%Z [2; 2] ["x"; "y"] [0; 0; 0; 0]%Z) (arr 0%Z [2; 2] ["x"; "y"] [0; 0; 0; 0]%Z).
Definition ex_src2 : farr Z Z := mkF (arr 0%Z [2; 2] ["y"; "x"] [1; 2; 3; 4]%Z) (arr 0%Z [2; 2] ["x"; "y"] [1; 3; 2; 4]%Z).
Definition ex_mask2 : farr Z bool := mkF (f_inputs ex_src2) (arr false [] [] [true]).

Theorem C71_transposed_refuted :
  let e := fun ax => if String.eqb ax "x" then 1 else 0 in
  let r := fst (f_copyto Z.eqb ex_dst2 ex_src2 (FMFun ex_mask2)) in
  snd (f_copyto Z.eqb ex_dst2 ex_src2 (FMFun ex_mask2)) = Ok tt /\
  at_ (f_inputs ex_src2) e = 2%Z /\ at_ (f_outputs ex_src2) e = 2%Z /\ at_ (f_inputs r) e = 3%Z /\ at_ (f_outputs r) e = 2%Z.
Proof. vm_compute. repeat split; reflexivity. Qed.
Print Assumptions C71_transposed_refuted.

(** ... and inputs with fewer axes leave an array with more names than dimensions. *)
Definition ex_src3 : farr Z Z := mkF (arr 0%Z [2] ["x"] [1; 2]%Z) (arr 0%Z [2; 2] ["x"; "y"] [1; 2; 3; 4]%Z).
Definition ex_mask3 : farr Z bool := mkF (f_inputs ex_src3) (arr false [] [] [true]).

Theorem C71_broken_refuted :
  wf (f_inputs ex_dst2) /\ snd (f_copyto Z.eqb ex_dst2 ex_src3 (FMFun ex_mask3)) = Ok tt /\
  let i := f_inputs (fst (f_copyto Z.eqb ex_dst2 ex_src3 (FMFun ex_mask3))) in
  s_axes i = ["x"; "y"] /\ nshape (s_nd i) = [2] /\ ~ wf i.
Proof.
  split; [split; [repeat (constructor; [simpl; intuition discriminate|]); constructor|reflexivity]|].
  split; [reflexivity|]. split; [reflexivity|]. split; [reflexivity|]. intros [_ H]. discriminate H.
Qed.
Print Assumptions C71_broken_refuted.

(** An exception leaves new inputs with old outputs. *)
Definition ex_src4 : farr Z Z := mkF (f_inputs ex_src) (arr 0%Z [4] ["x"] [1; 2; 3; 4]%Z).

Theorem C71_atomic_refuted :
  show (f_copyto Z.eqb ex_dst ex_src4 (FMBool true)) = ([("x", 3)], [5; 6; 7]%Z, [("x", 3)], [10; 11; 12]%Z, Err ValueError).
Proof. vm_compute. reflexivity. Qed.
Print Assumptions C71_atomic_refuted.
