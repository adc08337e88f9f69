(** Model of the polynomial fits: named_arrays/_functions/functions.py:1162-1422
    ([PolynomialFitFunctionArray]), for scalar outputs.  Vectors and matrices
    whose type is [CartesianNdVectorArray] or [CartesianNdMatrixArray] are flat, so
    that they are given by the dictionary of their components.  The attributes of
    the object are arguments.  Units, vector-valued outputs and uncertain inputs
    are not modelled. *)
From Coq Require Import Ascii String List Arith ZArith Bool Lia.
From Verif Require Import Base Numpy Shapes Scalar Elementwise Reduce Vector Matrix.
Import ListNotations.
Open Scope nat_scope.
Open Scope list_scope.

(** ** The names of the terms *)

(** [itertools.combinations_with_replacement(components, i)] *)
Fixpoint combinations (i : nat) (components : list string) : list (list string) :=
  match i with
  | 0 => [[]]
  | S i' =>
      (fix from (l : list string) : list (list string) :=
         match l with
         | [] => []
         | x :: l' => map (cons x) (combinations i' l) ++ from l'
         end) components
  end.

(** [from_degree], functions.py:1368-1371 *)
Definition degree_names (components : list string) (degree : nat) : list string :=
  flat_map (fun i => map (String.concat "*") (combinations i components)) (seq 0 (S degree)).

(** [name.split("*")], [acc] being the characters read since the last star, in
    reverse *)
Fixpoint split_star (s : string) (acc : list ascii) : list string :=
  match s with
  | EmptyString => [string_of_list_ascii (rev acc)]
  | String c s' =>
      if Ascii.eqb c "*"%char then string_of_list_ascii (rev acc) :: split_star s' []
      else split_star s' (c :: acc)
  end.

Section Poly.
Context {F : Type} (K : arith F).

(** [np.linalg.inv] of one matrix, given by its rows *)
Variable np_inv : list (list F) -> list (list F).

(** [vector.broadcasted], vectors.py (C24): all the components in the shape of
    the vector *)
Definition d_broadcasted (d : dict (operand F)) : res (dict (operand F)) :=
  sh <- shape_broadcasted (map snd d) ;;
  mapM (fun kv => o <- na_broadcast_to (normalize (snd kv)) sh false ;; Ok (fst kv, OpArr o)) d.

(** the centered inputs, functions.py:1289-1290 *)
Definition centered (inputs : vec F) (center : option (vec F)) : res (vec F) :=
  match center with
  | None => Ok inputs
  | Some c => vec_ufunc (fun l => match l with [x; y] => minus K x y | _ => zero K end) [inputs; c]
  end.

(** their components, lines 1292-1295 *)
Definition poly_components (inputs : vec F) : res (dict (operand F)) :=
  d_broadcasted match inputs with
                | Leaf o => [("dummy", o)]
                | Node _ _ => cartesian_nd inputs
                end%string.

(** one term, lines 1299-1308 *)
Definition poly_term (inputs : dict (operand F)) (name : string) : res (operand F) :=
  if String.eqb name "" then Ok (OpNum (one K))
  else foldM (fun term k => match dget inputs k with
                            | None => Err ValueError
                            | Some x => op2 K (times K) term x
                            end) (split_star name []) (OpNum (one K)).

(** [design_matrix], lines 1278-1313 *)
Definition design_matrix (coefficient_names : option (list string)) (center : option (vec F)) (inputs : vec F)
  : res (dict (operand F)) :=
  match coefficient_names with
  | None => Err ValueError
  | Some names =>
      x <- centered inputs center ;;
      components <- poly_components x ;;
      foldM (fun d name => term <- poly_term components name ;; Ok (dset d name term)) names []
  end.

(** [x.sum(axis=axis, where=where)] *)
Definition poly_sum (x : operand F) (axis : option (list string)) (where_ : operand bool) : res (operand F) :=
  r <- na_reduce true (fold_right (plus K) (zero K)) (normalize x) axis false (Some where_) None ;; Ok (OpArr r).

(** [_outer] of a vector and a scalar, lines 1384-1386 and 1400-1404 *)
Definition outer_scalar (v1 : dict (operand F)) (v2 : operand F) (axis : option (list string)) (where_ : operand bool)
  : res (dict (operand F)) :=
  v1 <- d_broadcasted v1 ;;
  mapM (fun kv => p <- op2 K (times K) (snd kv) v2 ;; s <- poly_sum p axis where_ ;; Ok (fst kv, s)) v1.

(** [_outer] of two vectors, lines 1384-1398 *)
Definition outer_vector (v1 v2 : dict (operand F)) (axis : option (list string)) (where_ : operand bool)
  : res (dict (dict (operand F))) :=
  v1 <- d_broadcasted v1 ;;
  mapM (fun kv =>
    v2 <- d_broadcasted v2 ;;
    row <- mapM (fun kw => p <- op2 K (times K) (snd kv) (snd kw) ;; s <- poly_sum p axis where_ ;; Ok (fst kw, s)) v2 ;;
    Ok (fst kv, row)) v1.

(** [inverse] of a flat matrix, matrices.py:170-255.  With four or more rows,
    lines 238-252, the entries are stacked along ["_row"] and ["_column"], and
    [np.linalg.inv] is applied to the matrix at every position.  The inverse keeps
    the labels of the matrix ([matrix_inverse], scalars.py:761-787: its rows are
    labelled ["_column"], its columns ["_row"]), but its entry [_row=i, _column=j]
    is stored in the row [i] and the column [j] of the result. *)
Definition chunks (n : nat) (l : list F) : list (list F) :=
  map (fun i => firstn n (skipn (i * n) l)) (seq 0 n).

Definition inverse_flat (rows : dict (dict (operand F))) : res (dict (dict (operand F))) :=
  if negb (square rows) then Err ValueError else
  if length rows <? 4 then inverse_nd K rows else
  let n := length rows in
  let entries := flat_map (fun kv => map snd (snd kv)) rows in
  let columns := match rows with [] => [] | (_, row) :: _ => map fst row end in
  mapM (fun ic =>
    row <- mapM (fun jr =>
             x <- op_ufunc (fun l => nth (fst ic) (nth (fst jr) (np_inv (chunks n l)) []) (zero K)) entries ;;
             Ok (snd jr, x)) (combine (seq 0 n) (map fst rows)) ;;
    Ok (snd ic, row)) (combine (seq 0 n) columns).

(** [coefficients], lines 1268-1276 *)
Definition coefficients (coefficient_names : option (list string)) (center : option (vec F))
  (inputs : vec F) (outputs : operand F) (axis : option (list string)) (where_ : operand bool)
  : res (dict (operand F)) :=
  d <- design_matrix coefficient_names center inputs ;;
  dTd <- outer_vector d d axis where_ ;;
  dTo <- outer_scalar d outputs axis where_ ;;
  inv <- inverse_flat dTd ;;
  mapM (fun kv => x <- dot K (snd kv) dTo ;; Ok (fst kv, x)) inv.

(** [__call__], lines 1210-1217: the outputs at other inputs *)
Definition poly_call (coefficient_names : option (list string)) (center : option (vec F)) (coefs : dict (operand F))
  (inputs : vec F) : res (operand F) :=
  d <- design_matrix coefficient_names center inputs ;;
  dot K d coefs.
End Poly.
