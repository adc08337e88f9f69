(** Model of [na.step], [na.linspace] and [interp_linear] over exact rational
    numbers. *)
From Coq Require Import String List Arith ZArith QArith Qround Qcanon Bool Lia.
From Verif Require Import Base Numpy Shapes Scalar Elementwise Sorting Derived.
Import ListNotations.
Open Scope nat_scope.
Open Scope list_scope.

(** ** Numbers *)

Definition qz (z : Z) : Qc := Q2Qc (inject_Z z).
Definition qc_leb (x y : Qc) : bool := Qle_bool (this x) (this y).
Definition qc_ltb (x y : Qc) : bool := negb (qc_leb y x).

(** a binary operator between operands: two plain numbers give a number,
    anything else is a ufunc of arrays (scalars.py:527-610) *)
Definition op_bin (f : Qc -> Qc -> Qc) (x y : operand Qc) : res (operand Qc) :=
  match x, y with
  | OpNum a, OpNum b => Ok (OpNum (f a b))
  | _, _ => r <- array_ufunc (bin f (qz 0)) [x; y] ;; Ok (OpArr r)
  end.

(** ** linspace *)

(** [step], _named_array_functions.py:314-343.  A division by zero raises
    ZeroDivisionError here, also for arrays, where numpy gives inf or nan. *)
Definition na_step (start stop : operand Qc) (num : Z) (endpoint centers : bool) : res (operand Qc) :=
  let num := if endpoint then (num - 1)%Z else num in
  let num := if centers then (num + 1)%Z else num in
  d <- op_bin Qcminus stop start ;;
  if (num =? 0)%Z then Err ZeroDivisionError else op_bin Qcdiv d (OpNum (qz num)).

(** sample [i] of [numpy.linspace(s, t, num, endpoint)] (trusted numpy
    behaviour, exact arithmetic) *)
Definition lin1 (s t : Qc) (num : nat) (endpoint : bool) (i : nat) : Qc :=
  let div := if endpoint then num - 1 else num in
  if endpoint && (1 <? num) && (i =? num - 1) then t
  else if div =? 0 then (qz (Z.of_nat i) * (t - s) + s)%Qc
  else (qz (Z.of_nat i) * ((t - s) / qz (Z.of_nat div)) + s)%Qc.

(** [numpy.linspace] with [axis=-1] *)
Definition np_linspace (s t : nd Qc) (num : Z) (endpoint : bool) : res (nd Qc) :=
  if (num <? 0)%Z then Err ValueError
  else
    match bshapes [nshape s; nshape t] with
    | None => Err ValueError
    | Some sh =>
        Ok (mkNd (sh ++ [Z.to_nat num]) (fun idx =>
          lin1 (bget s (removelast idx)) (bget t (removelast idx)) (Z.to_nat num) endpoint (last idx 0)))
    end.

(** [array_function_sequence] for [np.linspace],
    scalar_array_functions.py:140-176 *)
Definition sequence_linspace (start stop : operand Qc) (axis : string) (num : Z) (endpoint : bool) : res (sarr Qc) :=
  let s := normalize start in
  let t := normalize stop in
  sh <- shape_broadcasted [OpArr s; OpArr t] ;;
  s' <- ndarray_aligned s (dkeys sh) ;;
  t' <- ndarray_aligned t (dkeys sh) ;;
  r <- np_linspace s' t' num endpoint ;;
  mk_sarr r (dkeys sh ++ [axis]).

(** [linspace], _named_array_functions.py:346-428, without [dtype] *)
Definition na_linspace (start stop : operand Qc) (axis : string) (num : Z) (endpoint centers : bool)
  : res (sarr Qc) :=
  if centers then
    h <- na_step start stop num endpoint centers ;;
    h <- op_bin Qcdiv h (OpNum (qz 2)) ;;
    start' <- op_bin Qcplus start h ;;
    stop' <- op_bin Qcminus stop h ;;
    sequence_linspace start' stop' axis num endpoint
  else sequence_linspace start stop axis num endpoint.

(** ** interp_linear *)

Definition un {A B} (f : A -> B) (dflt : B) (l : list A) : B :=
  match l with [x] => f x | _ => dflt end.

(** the lower index along an axis of size [n], _core.py:1568-1583.  [floor] and
    [astype(int)] are one step. *)
Definition lower (x : sarr Qc) (n : nat) : res (operand Z) :=
  if length (s_axes x) =? 0 then
    let v := nget (s_nd x) [] in
    Ok (OpNum (if qc_ltb v (qz 0) then 0%Z
               else if qc_leb (qz (Z.of_nat n - 1)) v then (Z.of_nat n - 2)%Z
               else Z.quot (Qnum (this v)) (Zpos (Qden (this v)))))
  else
    below <- array_ufunc (bin qc_ltb false) [OpArr x; OpNum (qz 0)] ;;
    above <- array_ufunc (bin qc_leb false) [OpNum (qz (Z.of_nat n - 1)); OpArr x] ;;
    x0 <- array_ufunc (un (fun v => Qfloor (this v)) 0%Z) [OpArr x] ;;
    x0 <- setitem_mask x0 below (OpNum 0%Z) ;;
    x0 <- setitem_mask x0 above (OpNum (Z.of_nat n - 2)%Z) ;;
    Ok (OpArr x0).

(** an index that is a Python integer or an integer array *)
Definition item_of (x : operand Z) : item :=
  match x with OpNum z => ItInt z | OpArr v => ItArr v end.

(** [x0 + 1] and the conversion of [x0] to a float *)
Definition op_succ (x : operand Z) : res (operand Z) :=
  match x with
  | OpNum z => Ok (OpNum (z + 1)%Z)
  | OpArr v => r <- array_ufunc (un (fun z => z + 1)%Z 0%Z) [OpArr v] ;; Ok (OpArr r)
  end.
Definition op_qc (x : operand Z) : operand Qc :=
  match x with
  | OpNum z => OpNum (qz z)
  | OpArr v => OpArr (mkS (mkNd (nshape (s_nd v)) (fun idx => qz (nget (s_nd v) idx))) (s_axes v))
  end.

(** [_interp_linear_recursive], _core.py:1553-1595, for an array of exact
    numbers *)
Fixpoint interp_rec (a : sarr Qc) (it : dict (sarr Qc)) (base : dict item) : res (sarr Qc) :=
  match it with
  | [] => Err ValueError
  | (axis, x) :: it' =>
      n <- match dget (sshape a) axis with Some n => Ok n | None => Err KeyError end ;;
      x0 <- lower x n ;;
      x1 <- op_succ x0 ;;
      let base0 := dset base axis (item_of x0) in
      let base1 := dset base axis (item_of x1) in
      y0 <- match it' with [] => getitem a base0 | _ => interp_rec a it' base0 end ;;
      y1 <- match it' with [] => getitem a base1 | _ => interp_rec a it' base1 end ;;
      w <- array_ufunc (bin Qcminus (qz 0)) [OpArr x; op_qc x0] ;;
      d <- array_ufunc (bin Qcminus (qz 0)) [OpArr y1; OpArr y0] ;;
      p <- array_ufunc (bin Qcmult (qz 0)) [OpArr w; OpArr d] ;;
      array_ufunc (bin Qcplus (qz 0)) [OpArr y0; OpArr p]
  end.

(** [interp_linear], _core.py:1597-1616; [indices] of an array, _core.py:754-762 *)
Definition interp_linear (a : sarr Qc) (it : dict (sarr Qc)) : res (sarr Qc) :=
  match it with
  | [] => Ok a
  | _ =>
      b <- getitem a (map (fun kv => (fst kv, ItInt 0)) it) ;;
      interp_rec a it (map (fun kv => (fst kv, ItArr (arange (fst kv) (snd kv)))) (sshape b))
  end.
