(** C85: one-dimensional convolutions with [np.convolve]. *)
From Coq Require Import String List Arith ZArith Bool Lia QArith Qcanon.
From Verif Require Import Base Numpy Shapes Scalar Elementwise Matrix Convolve Spec SpecMatrix SpecConvolve.
From Verif Require MatrixLaws ConvolveFacts Prop81.
Import ListNotations.
Open Scope nat_scope.
Open Scope list_scope.

Local Notation qK := MatrixLaws.qK.

(** The element [k] of the result is the sum of the products of all pairs whose
    positions add up to [k], counted from the first that the mode keeps.  Missing from
    the full statement: two arrays of different lengths, neither of which is 1. *)
Theorem C85_convolve_partial : forall (F : Type) (K : arith F) (x : string) (mode : conv_mode) (a v : operand F),
  is_field K -> along x a -> along x v -> 1 <= long a -> 1 <= long v -> long a = long v \/ long a = 1 \/ long v = 1 ->
  exists c, na_convolve K mode a v = Ok c /\ along x (OpArr c) /\ (sshape c = [] <-> op_shape a = [] /\ op_shape v = []) /\
    long (OpArr c) = kept mode (long a) (long v) /\
    forall k, k < kept mode (long a) (long v) ->
      element (OpArr c) k = pairs K (long a) (long v) (element a) (element v) (first_kept mode (long a) (long v) + k).
Proof. intros F K x mode a v FK. exact (ConvolveFacts.convolve_ok K FK x mode a v). Qed.
Print Assumptions C85_convolve_partial.

(** Convolution multiplies polynomials. *)
Theorem C85_polynomial_partial : forall (F : Type) (K : arith F) (x : string) (a v : operand F),
  is_field K -> along x a -> along x v -> 1 <= long a -> 1 <= long v -> long a = long v \/ long a = 1 \/ long v = 1 ->
  exists c, na_convolve K Full a v = Ok c /\
    forall y, polynomial K (long (OpArr c)) (element (OpArr c)) y = times K (polynomial K (long a) (element a) y) (polynomial K (long v) (element v) y).
Proof. intros F K x a v FK. exact (ConvolveFacts.convolve_polynomial K FK x a v). Qed.
Print Assumptions C85_polynomial_partial.

Theorem C85_commutes : forall (F : Type) (K : arith F) (x : string) (mode : conv_mode) (a v : operand F),
  is_field K -> along x a -> along x v ->
  (exists c c', na_convolve K mode a v = Ok c /\ na_convolve K mode v a = Ok c' /\ long (OpArr c) = long (OpArr c') /\
     forall k, k < long (OpArr c) -> element (OpArr c) k = element (OpArr c') k) \/
  (na_convolve K mode a v = Err ValueError /\ na_convolve K mode v a = Err ValueError).
Proof. intros F K x mode a v FK. exact (ConvolveFacts.convolve_commutes K FK x mode a v). Qed.
Print Assumptions C85_commutes.

(** More than one axis and empty arrays are refused. *)
Theorem C85_axes : forall (F : Type) (K : arith F) (mode : conv_mode) (a v : operand F),
  op_wf a -> op_wf v -> (forall x, ~ (along x a /\ along x v)) -> na_convolve K mode a v = Err ValueError.
Proof. exact @ConvolveFacts.convolve_axes. Qed.
Print Assumptions C85_axes.

Theorem C85_empty : forall (F : Type) (K : arith F) (x : string) (mode : conv_mode) (a v : operand F),
  along x a -> along x v -> long a = 0 \/ long v = 0 -> na_convolve K mode a v = Err ValueError.
Proof. exact @ConvolveFacts.convolve_empty. Qed.
Print Assumptions C85_empty.

(** Refuted: a signal and a kernel of another length can never be convolved. *)
Theorem C85_refuted : forall (F : Type) (K : arith F) (x : string) (mode : conv_mode) (a v : operand F),
  along x a -> along x v -> long a <> long v -> long a <> 1 -> long v <> 1 -> na_convolve K mode a v = Err ValueError.
Proof. exact @ConvolveFacts.convolve_lengths. Qed.
Print Assumptions C85_refuted.

Open Scope string_scope.
Local Notation arr := Prop81.arr.
Local Notation num x := (OpNum (Prop81.q x)).
Definition show (r : res (sarr Qc)) : res (shape * list Q) := match r with Ok c => Ok (sshape c, map this (ravel (s_nd c))) | Err e => Err e end.
Definition conv := na_convolve qK.

Example C85_example : show (conv Full (arr "x" [1; 2; 3]%Z) (arr "x" [4; 5; -6]%Z)) = Ok ([("x", 5%nat)], [4; 13; 16; 3; -(18)]%Q) /\
  show (conv Same (arr "x" [1; 2; 3]%Z) (arr "x" [4; 5; -6]%Z)) = Ok ([("x", 3%nat)], [13; 16; 3]%Q) /\
  show (conv Valid (arr "x" [1; 2; 3]%Z) (arr "x" [4; 5; -6]%Z)) = Ok ([("x", 1%nat)], [16]%Q).
Proof. split; [|split]; vm_compute; reflexivity. Qed.

(** an even number of elements: the sum before the middle is kept first *)
Example C85_example_even : show (conv Same (arr "x" [1; 2; 3; 4]%Z) (arr "x" [1; 0; 0; 1]%Z)) = Ok ([("x", 4%nat)], [2; 3; 5; 2]%Q).
Proof. vm_compute. reflexivity. Qed.

Example C85_example_number : show (conv Full (arr "x" [1; 2; 3]%Z) (num 2)) = Ok ([("x", 3%nat)], [2; 4; 6]%Q) /\
  show (conv Full (num 3) (num 2)) = Ok ([], [6]%Q) /\
  show (conv Valid (num 3) (arr "x" [1; 2; 3]%Z)) = Ok ([("x", 3%nat)], [3; 6; 9]%Q).
Proof. split; [|split]; vm_compute; reflexivity. Qed.

Example C85_example_along : along "x" (arr "x" [1; 2; 3]%Z) /\ long (arr "x" [1; 2; 3]%Z) = 3%nat /\ along "x" (num 2) /\
  ~ along "y" (arr "x" [1; 2; 3]%Z) /\ show (conv Full (arr "x" [1; 2; 3]%Z) (arr "y" [1; 2; 3]%Z)) = Err ValueError /\
  show (conv Full (arr "x" [1; 2; 3]%Z) (arr "x" [1; 2]%Z)) = Err ValueError.
Proof.
  split; [split; [split; [constructor; [intros []|constructor]|reflexivity]|right; exists 3%nat; reflexivity]|]. split; [reflexivity|].
  split; [split; [exact Logic.I|now left]|]. split; [|split; vm_compute; reflexivity].
  intros (_ & [Q|(n & Q)]); discriminate.
Qed.
