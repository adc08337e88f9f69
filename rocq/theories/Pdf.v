(** Model of the percentiles of a probability mass function
    (named_arrays/pdf.py).  Floating-point numbers are exact rational numbers and
    division by zero (which gives NaN or infinity in the code) gives zero; units
    are removed. *)
From Coq Require Import String List Arith ZArith Bool QArith Qcanon.
From Verif Require Import Base Numpy Shapes Scalar Reorder Elementwise Reduce Along Sorting Rank.
Import ListNotations.
Open Scope nat_scope.
Open Scope list_scope.

(** the position of the first true element *)
Fixpoint first_true (l : list bool) : option nat :=
  match l with
  | [] => None
  | b :: l' => if b then Some 0 else option_map S (first_true l')
  end.

(** [np.argmax] of a line of booleans (trusted numpy behaviour) *)
Definition argmax_bool (l : list bool) : nat := match first_true l with Some i => i | None => 0 end.

(** a ufunc of two operands, [__array_ufunc__], scalars.py:527-610 *)
Definition qc2 {B} (h : Qc -> Qc -> B) (x y : operand Qc) : res (sarr B) :=
  array_ufunc (fun l => h (nth 0 l 0%Qc) (nth 1 l 0%Qc)) [x; y].

Definition of_int (z : Z) : Qc := Q2Qc (inject_Z z).

(** [x < y] *)
Definition qc_ltb (x y : Qc) : bool := match (x ?= y)%Qc with Lt => true | _ => false end.

(** [argpercentile], pdf.py:16-70.  The integers of [x0] and [x1] are converted
    to floating-point numbers by the ufuncs that use them. *)
Definition argpercentile (a : sarr Qc) (q : operand Qc) (axis : option (list string)) : res (string * sarr Qc) :=
  if length (sshape a) =? 0 then Err ValueError
  else
    match axis_normalized a axis with
    | [ax] =>
        cs <- na_cumulative (fold_right Qcplus 0%Qc) true a (Some [ax]) None ;;
        total <- getitem cs [(ax, ItInt (-1)%Z)] ;;   (* [~0] is [-1] *)
        y <- qc2 Qcmult q (OpArr total) ;;
        y <- qc2 Qcdiv (OpArr y) (OpNum (of_int 100)) ;;
        above <- qc2 (fun c y => qc_ltb y c) (OpArr cs) (OpArr y) ;;
        i1 <- na_arg_reduce argmax_bool above (Some [ax]) ;;
        x1 <- lookup i1 ax ;;
        x0 <- map1 (fun z => z - 1)%Z 0%Z x1 ;;
        let i0 := dset i1 ax x0 in
        y0 <- getitem cs (as_item i0) ;;
        y1 <- getitem cs (as_item i1) ;;
        rise <- qc2 Qcminus (OpArr y) (OpArr y0) ;;
        step <- qc2 Qcminus (OpArr y1) (OpArr y0) ;;
        ratio <- qc2 Qcdiv (OpArr rise) (OpArr step) ;;
        width <- map2 Z.sub 0%Z x1 x0 ;;
        width <- map1 of_int 0%Qc width ;;
        part <- qc2 Qcmult (OpArr ratio) (OpArr width) ;;
        start <- map1 of_int 0%Qc x0 ;;
        x <- qc2 Qcplus (OpArr part) (OpArr start) ;;
        Ok (ax, x)
    | _ => Err ValueError
    end.
