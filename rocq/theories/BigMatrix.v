(** Model of [AbstractMatrixArray.inverse] for any number of rows:
    named_arrays/_matrices/matrices.py:170-255. *)
From Coq Require Import String List Arith ZArith Bool Lia.
From Verif Require Import Base Numpy Shapes Scalar Vector Matrix Poly.
Import ListNotations.
Open Scope nat_scope.
Open Scope list_scope.

(** [inverse], matrices.py:170-255, [np_inv] being [np.linalg.inv] of one matrix
    given by its rows; the table of entries is inverted by [inverse_flat].  Units
    (lines 240-241 and 247) are not modelled. *)
Definition m_inverse_any {F} (K : arith F) (np_inv : list (list F) -> list (list F)) (m : matrix F) : res (matrix F) :=
  rows <- m_rows m ;;
  inv <- inverse_flat K np_inv rows ;;
  t <- m_transpose K m ;;
  m_from_nd inv t.
