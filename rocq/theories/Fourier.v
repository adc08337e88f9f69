(** Model of the Fourier transforms of scalar arrays
    (named_arrays/_scalars/scalar_array_functions.py). *)
From Coq Require Import String List Arith ZArith Bool.
From Verif Require Import Base Numpy Shapes Scalar Along.
Import ListNotations.
Open Scope nat_scope.
Open Scope list_scope.

(** a one-dimensional transform of numpy: the default of the argument [n] for a line of
    given length, the number of elements of the line that are used and the length of
    the result for given [n], and the transform of a line of that many elements *)
Record transform (A : Type) : Type := mkT {
  t_default : nat -> nat;
  t_in : nat -> nat;
  t_out : nat -> nat;
  t_value : nat -> list A -> nat -> A
}.
Arguments mkT {A} _ _ _ _.
Arguments t_default {A} _ _.
Arguments t_in {A} _ _.
Arguments t_out {A} _ _.
Arguments t_value {A} _ _ _ _.

(** a line cropped or padded with zeros *)
Definition fit {A} (zero : A) (n : nat) (l : list A) : list A := firstn n l ++ repeat zero (n - length l).

(** [np.fft.fft(a, n, axis)] and its variants (trusted numpy behaviour) *)
Definition np_fft {A} (zero : A) (t : transform A) (a : nd A) (n : option nat) (p : nat) : res (nd A) :=
  let n := match n with Some n => n | None => t_default t (nth p (nshape a) 0) end in
  if n <? 1 then Err ValueError
  else Ok (np_along (fun _ => t_out t n) (fun l => t_value t n (fit zero (t_in t n) l)) a p).

(** [array_function_fft_like], scalar_array_functions.py:416-432 *)
Definition na_fft {A} (zero : A) (t : transform A) (a : sarr A) (axis : string * string) (n : option nat) : res (sarr A) :=
  p <- index_of (fst axis) (s_axes a) ;;
  r <- np_fft zero t (s_nd a) n p ;;
  mk_sarr r (map (fun ax => if String.eqb ax (fst axis) then snd axis else ax) (s_axes a)).

(** the transforms along several axes: complex ones ([fftn], [ifftn], last axis
    first), from real numbers ([rfftn], the real transform of the last axis first) and
    to real numbers ([irfftn], first axis first, the real transform of the last axis last) *)
Inductive ntransform (A : Type) : Type :=
| NComplex (t : transform A)
| NFromReal (t real : transform A)
| NToReal (t real : transform A).
Arguments NComplex {A} _.
Arguments NFromReal {A} _ _.
Arguments NToReal {A} _ _.

(** the one-dimensional transforms in the order in which numpy does them *)
Definition np_plan {A X} (w : ntransform A) (axes : list X) : res (list (transform A * X)) :=
  match w, rev axes with
  | NComplex t, l => Ok (map (fun x => (t, x)) l)
  | _, [] => Err IndexError
  | NFromReal t real, x :: l => Ok ((real, x) :: map (fun x => (t, x)) l)
  | NToReal t real, x :: l => Ok (map (fun x => (t, x)) (rev l) ++ [(real, x)])
  end.

(** [np.fft.fftn(a, s, axes)] and its variants (trusted numpy behaviour), for [s] and
    [axes] of the same length *)
Definition np_fftn {A} (zero : A) (w : ntransform A) (a : nd A) (s : list nat) (axes : list nat) : res (nd A) :=
  plan <- np_plan w (combine axes s) ;;
  foldM (fun a st => np_fft zero (fst st) a (Some (snd (snd st))) (fst (snd st))) plan a.

(** [array_function_fftn_like], scalar_array_functions.py:435-463 *)
Definition na_fftn {A} (zero : A) (w : ntransform A) (a : sarr A) (axes : dict string) (s : option (dict nat))
  : res (sarr A) :=
  let shape := sshape a in
  if negb (forallb (fun ax => smem ax (dkeys shape)) (dkeys axes)) then Err ValueError
  else
    s <- match s with
         | Some s => Ok s
         | None => mapM (fun ax => match dget shape ax with Some n => Ok (ax, n) | None => Err KeyError end) (dkeys axes)
         end ;;
    if negb (forallb (fun ax => smem ax (dkeys s)) (dkeys axes) && forallb (fun ax => smem ax (dkeys axes)) (dkeys s))
    then Err ValueError
    else
      sizes <- mapM (fun ax => match dget s ax with Some n => Ok n | None => Err KeyError end) (dkeys axes) ;;
      ps <- mapM (fun ax => index_of ax (s_axes a)) (dkeys axes) ;;
      r <- np_fftn zero w (s_nd a) sizes ps ;;
      mk_sarr r (map (fun ax => match dget axes ax with Some y => y | None => ax end) (s_axes a)).
