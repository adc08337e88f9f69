(** Model of functions composed of the earlier ones: [debroadcast],
    [mean_trimmed] and [cell_centers]. *)
From Coq Require Import String List Arith ZArith QArith Bool Lia.
From Verif Require Import Base Numpy Shapes Scalar Reorder Elementwise Reduce Along Sorting.
Import ListNotations.
Open Scope nat_scope.
Open Scope list_scope.

(** ** debroadcast *)

Definition bin {A B} (f : A -> A -> B) (dflt : B) (l : list A) : B :=
  match l with [x; y] => f x y | _ => dflt end.

(** the test in the loop of [_debroadcast], _named_array_functions.py:851-858;
    [eqb] is the comparison of two elements *)
Definition constant_along {A} (eqb : A -> A -> bool) (a : sarr A) (axis : string) (n : nat) : res bool :=
  other <- getitem a [(axis, ItSlice (mkSlice (Some 0%Z) (Some 1%Z) None))] ;;
  if n =? 0 then Ok false
  else
    eq <- array_ufunc (bin eqb false) [OpArr a; OpArr other] ;;
    all <- na_reduce true (forallb (fun b => b)) eq None false None None ;;
    Ok (nget (s_nd all) []).

(** [_debroadcast], _named_array_functions.py:831-860, called by [debroadcast],
    scalar_named_array_functions.py:211-217 *)
Fixpoint debroadcast_index {A} (eqb : A -> A -> bool) (a : sarr A) (axes : list string) (index : dict item)
  : res (dict item) :=
  match axes with
  | [] => Ok index
  | axis :: axes' =>
      match dget (sshape a) axis with
      | None => debroadcast_index eqb a axes' index
      | Some n =>
          c <- constant_along eqb a axis n ;;
          debroadcast_index eqb a axes' (if c : bool then dset index axis (ItInt 0) else index)
      end
  end.

Definition na_debroadcast {A} (eqb : A -> A -> bool) (a : sarr A) (axes : option (list string)) : res (sarr A) :=
  let axes := match axes with Some l => l | None => dkeys (sshape a) end in
  index <- debroadcast_index eqb a axes [] ;;
  getitem a index.

(** ** mean_trimmed *)

(** [int(q * n)] *)
Definition trim (q : Q) (n : nat) : Z := Z.quot (Qnum q * Z.of_nat n) (Zpos (Qden q)).

(** [mean_trimmed], _named_array_functions.py:1008-1075, without [out] and
    [dtype].  [part1 kth l] partitions one line at the positions [kth]; [mean] is
    the mean of a list (NaN for the empty list, without an exception).  [q] is an
    exact number. *)
Definition na_mean_trimmed {A} (part1 : list Z -> list A -> list A) (mean : list A -> A)
           (a : sarr A) (q : Q) (axis : option (list string)) (keepdims : bool) : res (sarr A) :=
  if length (s_axes a) =? 0 then Ok a
  else
    let axis := axis_normalized a axis in
    axis_flat <- flatten_axes axis ;;
    c <- combine_axes a (Some axis) (Some axis_flat) ;;
    nobs <- match dget (sshape c) axis_flat with Some n => Ok n | None => Err KeyError end ;;
    let lower := trim q nobs in
    let upper := (Z.of_nat nobs - lower)%Z in
    if (upper <? lower)%Z then Err ValueError
    else
      p <- na_partition (part1 [lower; upper - 1]%Z) [lower; upper - 1]%Z c axis_flat ;;
      s <- getitem p [(axis_flat, ItSlice (mkSlice (Some lower) (Some upper) None))] ;;
      na_reduce true mean s (Some [axis_flat]) keepdims None None.

(** ** cell_centers *)

Section Lerp.
Context {A : Type} (add mul sub : A -> A -> A) (zero one half : A).

(** [_lerp], _core.py:820-827: [a0 * (1 - i) + a1 * i]; for a plain number the
    subtraction gives a plain number *)
Definition lerp (i : operand A) (a0 a1 : sarr A) : res (sarr A) :=
  w <- match i with
       | OpNum x => Ok (OpNum (sub one x))
       | OpArr _ => r <- array_ufunc (bin sub zero) [OpNum one; i] ;; Ok (OpArr r)
       end ;;
  p0 <- array_ufunc (bin mul zero) [OpArr a0; w] ;;
  p1 <- array_ufunc (bin mul zero) [OpArr a1; i] ;;
  array_ufunc (bin add zero) [OpArr p0; OpArr p1].

(** [_nlerp], _core.py:829-849 *)
Fixpoint nlerp (i : dict (operand A)) (a : sarr A) : res (sarr A) :=
  match i with
  | [] => Ok a
  | (axis, w) :: i_new =>
      a0 <- getitem a [(axis, ItSlice (mkSlice None (Some (-1)%Z) None))] ;;
      a1 <- getitem a [(axis, ItSlice (mkSlice (Some 1%Z) None None))] ;;
      a0 <- nlerp i_new a0 ;;
      a1 <- nlerp i_new a1 ;;
      lerp w a0 a1
  end.

(** [cell_centers], _core.py:851-896.  [random] gives the draws of
    [na.random.uniform(0, 1, shape_random=shape_centers)] for every axis. *)
Definition na_cell_centers (a : sarr A) (axis : option (list string)) (random : option (string -> sarr A))
  : res (sarr A) :=
  let axis := match axis with Some l => l | None => s_axes a end in
  let axis := filter (fun ax => smem ax (dkeys (sshape a))) axis in
  nlerp (fold_left (fun d ax => dset d ax (match random with Some f => OpArr (f ax) | None => OpNum half end)) axis []) a.
End Lerp.
