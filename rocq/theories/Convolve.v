(** [np.convolve] of scalar arrays, scalar_array_functions.py:970-996. *)
From Coq Require Import String List Arith ZArith Bool Lia.
From Verif Require Import Base Numpy Shapes Scalar Elementwise Matrix.
Import ListNotations.
Open Scope nat_scope.
Open Scope list_scope.

Inductive conv_mode := Full | Same | Valid.

Section Convolve.
Context {F : Type} (K : arith F).

(** [np.array(a, ndmin=1)] for an array of at most one dimension *)
Definition np_line (a : nd F) : res (list F) :=
  match nshape a with
  | [] => Ok [nget a []]
  | [n] => Ok (map (fun i => nget a [i]) (seq 0 n))
  | _ => Err ValueError
  end.

(** one number of the convolution: the sum over the positions at which both lists
    overlap (the dot products of numpy's [correlate] with the reversed list) *)
Definition overlap (a v : list F) (k : nat) : F :=
  let first := k - (length v - 1) in
  let last := Nat.min k (length a - 1) in
  fold_right (plus K) (zero K)
    (map (fun i => times K (nth i a (zero K)) (nth (k - i) v (zero K))) (seq first (S last - first))).

(** numpy's [convolve]: the longer list comes first, and empty lists are refused; the
    mode selects which numbers are kept *)
Definition np_convolve (mode : conv_mode) (a v : list F) : res (list F) :=
  let '(a, v) := if length a <? length v then (v, a) else (a, v) in
  match v with
  | [] => Err ValueError
  | _ =>
      let n := length a in
      let m := length v in
      let '(start, size) := match mode with
        | Full => (0, n + m - 1)
        | Same => (m - 1 - m / 2, n)
        | Valid => (m - 1, n - m + 1)
        end in
      Ok (map (overlap a v) (seq start size))
  end.

(** [convolve], scalar_array_functions.py:970-996; arrays that hold [None] are left
    out *)
Definition na_convolve (mode : conv_mode) (a v : operand F) : res (sarr F) :=
  let a := normalize a in
  let v := normalize v in
  sh <- shape_broadcasted [OpArr a; OpArr v] ;;
  if 1 <? length sh then Err ValueError
  else
    la <- np_line (s_nd a) ;;
    lv <- np_line (s_nd v) ;;
    r <- np_convolve mode la lv ;;
    match sh with
    | [] => mk_sarr (scalar (nth 0 r (zero K))) []
    | _ => mk_sarr (of_list (zero K) [length r] r) (dkeys sh)
    end.
End Convolve.
