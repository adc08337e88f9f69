(** Model of the vector transformations of transformations.py. *)
From Coq Require Import Ascii String List Arith ZArith Bool Lia.
From Verif Require Import Base Numpy Shapes Scalar Elementwise Vector Matrix Geometry.
Import ListNotations.
Open Scope nat_scope.
Open Scope list_scope.

(** The classes of transformations, transformations.py:191-692.  A translation is
    its vector, a linear transformation its matrix, an affine transformation its
    matrix and the vector of its translation; [Cartesian3dTranslation] and the
    rotations are a translation and linear transformations.  A list is given by its
    elements and the flag [intrinsic]. *)
Inductive trans (F : Type) : Type :=
| Identity
| Translation (v : vec F)
| Linear (m : matrix F)
| Affine (m : matrix F) (v : vec F)
| Sequence (l : list (trans F)) (intrinsic : bool).
Arguments Identity {F}.
Arguments Translation {F} _.
Arguments Linear {F} _.
Arguments Affine {F} _ _.
Arguments Sequence {F} _ _.

Section Transform.
Context {F : Type} (K : arith F).

(** [v + w] and [-v] of vectors *)
Definition vadd (v w : vec F) : res (vec F) := vec2 K (plus K) v w.
Definition vneg (v : vec F) : res (vec F) := vec1 K (neg K) v.

(** [a @ b] for two transformations that are not lists: [__matmul__] of the first
    or, when that returns NotImplemented, [__rmatmul__] of the second.
    IdentityTransformation 213-217, AbstractTranslation 242-249,
    AbstractLinearTransformation 363-391, AbstractAffineTransformation 535-583. *)
Definition join (a b : trans F) : res (trans F) :=
  match a, b with
  | Identity, _ => Ok b
  | _, Identity => Ok a
  | Translation u, Translation w => s <- vadd u w ;; Ok (Translation s)
  | Translation u, Linear m => Ok (Affine m u)
  | Translation u, Affine m w => s <- vadd u w ;; Ok (Affine m s)
  | Linear m, Linear m' => p <- matmul K m m' ;; Ok (Linear p)
  | Linear m, Translation w => s <- matvec K m w ;; Ok (Affine m s)
  | Linear m, Affine m' w => p <- matmul K m m' ;; s <- matvec K m w ;; Ok (Affine p s)
  | Affine m u, Affine m' w => p <- matmul K m m' ;; s <- matvec K m w ;; s <- vadd s u ;; Ok (Affine p s)
  | Affine m u, Linear m' => p <- matmul K m m' ;; Ok (Affine p u)
  | Affine m u, Translation w => s <- matvec K m w ;; s <- vadd s u ;; Ok (Affine m s)
  | Sequence _ _, _ | _, Sequence _ _ => Err TypeError
  end.

(** [composed], transformations.py:640-652, and [__iter__], 633-637.  The elements
    are composed before they are joined. *)
Fixpoint composed (t : trans F) : res (trans F) :=
  match t with
  | Sequence l intrinsic =>
      cs <- traverse composed l ;;
      foldM (fun result c => join c result) (if intrinsic then cs else rev cs) Identity
  | _ => Ok t
  end.

(** [a @ b]; lists 661-665 *)
Definition tmatmul (a b : trans F) : res (trans F) :=
  match a with
  | Identity => Ok b
  | _ => a' <- composed a ;;
         match a' with
         | Identity => Ok b
         | _ => b' <- composed b ;; join a' b'
         end
  end.

(** [compose], transformations.py:41-105 *)
Definition compose (a b : option (trans F)) : res (option (trans F)) :=
  match a, b with
  | None, _ => Ok b
  | _, None => Ok a
  | Some a, Some b => c <- tmatmul a b ;; Ok (Some c)
  end.

(** [__call__]: 203-207, 234-235, 355-356, 522-523, 654-655 *)
Definition apply_simple (t : trans F) (v : vec F) : res (vec F) :=
  match t with
  | Identity => Ok v
  | Translation u => vadd v u
  | Linear m => matvec K m v
  | Affine m u => w <- matvec K m v ;; vadd w u
  | Sequence _ _ => Err TypeError
  end.
Definition apply (t : trans F) (v : vec F) : res (vec F) := c <- composed t ;; apply_simple c v.

(** [inverse]: 209-211, 237-239, 358-360, 525-532, 657-659 *)
Definition invert_simple (t : trans F) : res (trans F) :=
  match t with
  | Identity => Ok Identity
  | Translation u => n <- vneg u ;; Ok (Translation n)
  | Linear m => i <- m_inverse K m ;; Ok (Linear i)
  | Affine m u => i <- m_inverse K m ;; n <- vneg u ;; s <- matvec K i n ;; Ok (Affine i s)
  | Sequence _ _ => Err TypeError
  end.
Definition invert (t : trans F) : res (trans F) := c <- composed t ;; invert_simple c.
End Transform.
