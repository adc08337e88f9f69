(** Model of the root finders for scalar arrays
    (named_arrays/_scalars/scalar_named_array_functions.py). *)
From Coq Require Import String List Arith ZArith Bool Lia.
From Verif Require Import Base Numpy Shapes Scalar Elementwise Reduce Matrix.
Import ListNotations.
Open Scope nat_scope.
Open Scope list_scope.

(** one call [callback(i, x, f, converged)]: what the user sees at an iteration *)
Record seen (F : Type) : Type := mkSeen { at_step : nat; at_x : sarr F; at_f : sarr F; at_flags : sarr bool }.
Arguments mkSeen {F} _ _ _ _.
Arguments at_step {F} _.
Arguments at_x {F} _.
Arguments at_f {F} _.
Arguments at_flags {F} _.

(** ufuncs of one and two arrays, [__array_ufunc__], scalars.py:527-610.  [d] is
    never used. *)
Definition u1 {A B} (d : A) (h : A -> B) (a : sarr A) : res (sarr B) :=
  array_ufunc (fun l => h (nth 0 l d)) [OpArr a].
Definition u2 {A B} (d : A) (h : A -> A -> B) (a b : sarr A) : res (sarr B) :=
  array_ufunc (fun l => h (nth 0 l d) (nth 1 l d)) [OpArr a; OpArr b].

(** [a op= b]: the ufunc with [out=a], scalars.py:527-610 *)
Definition update {A} (d : A) (h : A -> A -> A) (a b : sarr A) : res (sarr A) :=
  rs <- na_ufunc (fun _ => d) [fun l => h (nth 0 l d) (nth 1 l d)] [OpArr a; OpArr b] None [Some a] ;;
  match rs with [r] => Ok r | _ => Err TypeError end.

(** [bool(array)], [__bool__] of scalars.py:497-498: only an array with one
    element has a truth value *)
Definition truth (a : sarr bool) : res bool :=
  match ravel (s_nd a) with [b] => Ok b | _ => Err ValueError end.

(** [np.all(a)] and [np.any(a, where=w)] as the condition of an [if] *)
Definition all_true (a : sarr bool) : res bool :=
  r <- na_reduce true (forallb (fun b => b)) a None false None None ;; truth r.
Definition any_true (a : sarr bool) (w : option (sarr bool)) : res bool :=
  r <- na_reduce true (existsb (fun b => b)) a None false (option_map OpArr w) None ;; truth r.

Section Roots.
Context {F : Type} (K : arith F) (absolute : F -> F) (less : F -> F -> bool) (ten : F).

(** The function of the user.  A result that is a plain number is the array
    without axes that holds it; other types of arrays are not modelled. *)
Variable function : sarr F -> res (sarr F).

(** the flags at the beginning,
    [broadcast_to(0 * value(f), shape=shape).astype(bool)]: an element of [f]
    that is not finite gives a flag that is true *)
Definition initial_flags (f : sarr F) (sh : shape) : res (sarr bool) :=
  z <- array_ufunc (fun l => times K (nth 0 l (zero K)) (nth 1 l (zero K))) [OpNum (zero K); OpArr f] ;;
  z <- na_broadcast_to z sh false ;;
  u1 (zero K) (fun x => negb (is_zero K x)) z.

(** ** Newton's method *)

Variable jacobian : sarr F -> res (sarr F).

(** one pass through the body of the loop after the callback, lines 1577-1590:
    [None] when everything has converged, otherwise the new flags, [x] and [f] *)
Definition newton_pass (tolerance : sarr F) (x f : sarr F) : res (option (sarr bool * sarr F * sarr F)) :=
  size <- u1 (zero K) absolute f ;;
  converged <- u2 (zero K) less size tolerance ;;
  done <- all_true converged ;;
  if done then Ok None
  else
    jac <- jacobian x ;;
    correction <- u2 (zero K) (over K) f jac ;;
    x' <- u2 (zero K) (minus K) x correction ;;
    f' <- function x' ;;
    Ok (Some (converged, x', f')).

(** the loop, lines 1572-1593: what the callback was given, and the outcome *)
Fixpoint newton_loop (tolerance : sarr F) (n i : nat) (x f : sarr F) (converged : sarr bool)
  : list (seen F) * res (sarr F) :=
  match n with
  | 0 => ([], Err ValueError)
  | S n' =>
      let now := mkSeen i x f converged in
      match newton_pass tolerance x f with
      | Err e => ([now], Err e)
      | Ok None => ([now], Ok x)
      | Ok (Some (converged', x', f')) =>
          let rest := newton_loop tolerance n' (S i) x' f' converged' in (now :: fst rest, snd rest)
      end
  end.

(** [optimize_root_newton] before the loop, lines 1540-1570.  The first value of
    the function is computed at the guess itself; converting the guess to floating
    point does not change it here. *)
Definition newton_start (guess tolerance : sarr F) : res (sarr F * sarr F * sarr bool) :=
  f <- function guess ;;
  match sshape tolerance with
  | [] =>
      sh <- shape_broadcasted [OpArr f; OpArr guess] ;;
      converged <- initial_flags f sh ;;
      x <- na_broadcast_to guess sh false ;;
      Ok (x, f, converged)
  | _ => Err ValueError
  end.

(** [optimize_root_newton], lines 1529-1593 *)
Definition root_newton (guess tolerance : sarr F) (max_iterations : nat) : list (seen F) * res (sarr F) :=
  match newton_start guess tolerance with
  | Err e => ([], Err e)
  | Ok (x, f, converged) => newton_loop tolerance max_iterations 0 x f converged
  end.

(** ** The secant method *)

Variable min_step : sarr F.
Variable damping : option F.

(** the new flags, lines 1636-1641 *)
Definition secant_flags (tolerance x0 x1 f1 : sarr F) (converged : sarr bool) : res (sarr F * sarr bool) :=
  size <- u1 (zero K) absolute f1 ;;
  small <- u2 (zero K) less size tolerance ;;
  converged <- update false orb converged small ;;
  dx <- u2 (zero K) (minus K) x1 x0 ;;
  adx <- u1 (zero K) absolute dx ;;
  ams <- u1 (zero K) absolute min_step ;;
  short <- u2 (zero K) less adx ams ;;
  converged <- update false orb converged short ;;
  Ok (dx, converged).

(** the new position of the elements that have not converged, lines 1646-1670 *)
Definition secant_move (x1 f0 f1 dx : sarr F) (active : sarr bool) : res (sarr F) :=
  df <- u2 (zero K) (minus K) f1 f0 ;;
  flat <- u1 (zero K) (is_zero K) df ;;
  stationary <- any_true flat (Some active) ;;
  if stationary then Err ValueError
  else
    dx_active <- getitem_mask dx active ;;
    f0_active <- getitem_mask f0 active ;;
    f1_active <- getitem_mask f1 active ;;
    df_active <- u2 (zero K) (minus K) f1_active f0_active ;;
    flat_active <- u1 (zero K) (is_zero K) df_active ;;
    stationary <- any_true flat_active None ;;
    if stationary then Err ValueError
    else
      slope <- u2 (zero K) (over K) df_active dx_active ;;
      correction <- u2 (zero K) (over K) f1_active slope ;;
      correction <- match damping with
                    | Some d => array_ufunc (fun l => times K (nth 0 l (zero K)) (nth 1 l (zero K)))
                                  [OpNum d; OpArr correction]
                    | None => Ok correction
                    end ;;
      chosen <- getitem_mask x1 active ;;
      chosen <- update (zero K) (minus K) chosen correction ;;
      setitem_mask x1 active (OpArr chosen).

(** one pass through the body of the loop after the callback: [None] when
    everything has converged, otherwise the new flags and the new position *)
Definition secant_pass (tolerance x0 x1 f0 f1 : sarr F) (converged : sarr bool)
  : res (option (sarr bool * sarr F)) :=
  p <- secant_flags tolerance x0 x1 f1 converged ;;
  let (dx, converged') := p in
  done <- all_true converged' ;;
  if done then Ok None
  else
    active <- u1 false negb converged' ;;
    x2 <- secant_move x1 f0 f1 dx active ;;
    Ok (Some (converged', x2)).

(** the loop, lines 1628-1676.  The callback is given the flags themselves,
    which are later changed in place; what is recorded here is their value at the
    time of the call. *)
Fixpoint secant_loop (tolerance : sarr F) (n i : nat) (x0 x1 f0 : sarr F) (converged : sarr bool)
  : list (seen F) * res (sarr F) :=
  match n with
  | 0 => ([], Err ValueError)
  | S n' =>
      match function x1 with
      | Err e => ([], Err e)
      | Ok f1 =>
          let now := mkSeen i x1 f1 converged in
          match secant_pass tolerance x0 x1 f0 f1 converged with
          | Err e => ([now], Err e)
          | Ok None => ([now], Ok x1)
          | Ok (Some (converged', x2)) =>
              let rest := secant_loop tolerance n' (S i) x1 x2 f1 converged' in (now :: fst rest, snd rest)
          end
      end
  end.

(** [optimize_root_secant] before the loop, lines 1607-1626: the two positions,
    the value at the first one, and the flags *)
Definition secant_start (guess tolerance : sarr F) : res (sarr F * sarr F * sarr F * sarr bool) :=
  back <- array_ufunc (fun l => times K (nth 0 l (zero K)) (nth 1 l (zero K))) [OpNum ten; OpArr min_step] ;;
  x0 <- u2 (zero K) (minus K) guess back ;;
  f0 <- function x0 ;;
  match sshape tolerance with
  | [] =>
      sh <- shape_broadcasted [OpArr f0; OpArr guess; OpArr min_step] ;;
      converged <- initial_flags f0 sh ;;
      x1 <- na_broadcast_to guess sh false ;;
      Ok (x0, x1, f0, converged)
  | _ => Err ValueError
  end.

(** [optimize_root_secant], lines 1596-1678 *)
Definition root_secant (guess tolerance : sarr F) (max_iterations : nat) : list (seen F) * res (sarr F) :=
  match secant_start guess tolerance with
  | Err e => ([], Err e)
  | Ok (x0, x1, f0, converged) => secant_loop tolerance max_iterations 0 x0 x1 f0 converged
  end.

End Roots.
