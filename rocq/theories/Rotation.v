(** Model of the rotation matrices of _matrices/cartesian/matrices_cartesian_2d.py
    and matrices_cartesian_3d.py. *)
From Coq Require Import Ascii String List Arith ZArith Bool Lia.
From Verif Require Import Base Numpy Shapes Scalar Elementwise Vector Matrix.
Import ListNotations.
Open Scope nat_scope.
Open Scope list_scope.

Section Rotation.
Context {A F : Type} (K : arith F).

(** [np.cos] and [np.sin] of the elements, from angles to numbers; units are not
    modelled *)
Variables cosine sine : A -> F.

Definition op_cos (a : operand A) : res (operand F) :=
  op_ufunc (fun l => match l with [x] => cosine x | _ => zero K end) [a].
Definition op_sin (a : operand A) : res (operand F) :=
  op_ufunc (fun l => match l with [x] => sine x | _ => zero K end) [a].

Local Open Scope string_scope.

Definition row2 (x y : operand F) : vec F := Node "Cartesian2d" [("x", Leaf x); ("y", Leaf y)].
Definition row3 (x y z : operand F) : vec F := Node "Cartesian3d" [("x", Leaf x); ("y", Leaf y); ("z", Leaf z)].

(** [Cartesian2dRotationMatrixArray.explicit], matrices_cartesian_2d.py:157-163 *)
Definition rotation2 (a : operand A) : res (matrix F) :=
  c <- op_cos a ;; s <- op_sin a ;; n <- op1 K (neg K) s ;;
  Ok (Node "Cartesian2d" [("x", Leaf (row2 c n)); ("y", Leaf (row2 s c))]).

(** the [explicit] of the rotations about x, y and z,
    matrices_cartesian_3d.py:115-122, 131-138, 147-154 *)
Definition rotation_x (a : operand A) : res (matrix F) :=
  c <- op_cos a ;; s <- op_sin a ;; n <- op1 K (neg K) s ;;
  Ok (Node "Cartesian3d" [("x", Leaf (row3 (OpNum (one K)) (OpNum (zero K)) (OpNum (zero K))));
                          ("y", Leaf (row3 (OpNum (zero K)) c n));
                          ("z", Leaf (row3 (OpNum (zero K)) s c))]).
Definition rotation_y (a : operand A) : res (matrix F) :=
  c <- op_cos a ;; s <- op_sin a ;; n <- op1 K (neg K) s ;;
  Ok (Node "Cartesian3d" [("x", Leaf (row3 c (OpNum (zero K)) s));
                          ("y", Leaf (row3 (OpNum (zero K)) (OpNum (one K)) (OpNum (zero K))));
                          ("z", Leaf (row3 n (OpNum (zero K)) c))]).
Definition rotation_z (a : operand A) : res (matrix F) :=
  c <- op_cos a ;; s <- op_sin a ;; n <- op1 K (neg K) s ;;
  Ok (Node "Cartesian3d" [("x", Leaf (row3 c n (OpNum (zero K))));
                          ("y", Leaf (row3 s c (OpNum (zero K))));
                          ("z", Leaf (row3 (OpNum (zero K)) (OpNum (zero K)) (OpNum (one K))))]).

(** The four classes *)
Inductive about : Type := InPlane | AboutX | AboutY | AboutZ.
Definition rotation (k : about) : operand A -> res (matrix F) :=
  match k with InPlane => rotation2 | AboutX => rotation_x | AboutY => rotation_y | AboutZ => rotation_z end.
End Rotation.
