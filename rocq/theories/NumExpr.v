(** Model of [na.numexpr.evaluate] for scalar arrays. *)
From Coq Require Import String List Arith Bool.
From Verif Require Import Base Numpy Shapes Scalar Elementwise.
Import ListNotations.
Open Scope nat_scope.
Open Scope list_scope.

(** a parsed expression: variables, constants and functions of up to three arguments
    (operators, [where]); reductions such as [sum(a)] are not modelled *)
Inductive expr (A : Type) : Type :=
| EVar (v : string)
| EConst (c : A)
| EUn (f : A -> A) (a : expr A)
| EBin (f : A -> A -> A) (a b : expr A)
| ETri (f : A -> A -> A -> A) (a b c : expr A).
Arguments EVar {A} _.
Arguments EConst {A} _.
Arguments EUn {A} _ _.
Arguments EBin {A} _ _ _.
Arguments ETri {A} _ _ _ _.

(** the variables of the parsed expression *)
Fixpoint variables {A} (ex : expr A) : list string :=
  match ex with
  | EVar v => [v]
  | EConst _ => []
  | EUn _ a => variables a
  | EBin _ a b => variables a ++ variables b
  | ETri _ a b c => variables a ++ variables b ++ variables c
  end.

(** Python's order of strings of ASCII characters *)
Fixpoint string_leb (s t : string) : bool :=
  match s, t with
  | EmptyString, _ => true
  | String _ _, EmptyString => false
  | String a s, String b t =>
      let a := Ascii.nat_of_ascii a in
      let b := Ascii.nat_of_ascii b in
      if a <? b then true else if b <? a then false else string_leb s t
  end.

Fixpoint insert_name (v : string) (l : list string) : list string :=
  match l with
  | [] => [v]
  | w :: l => if string_leb v w then v :: w :: l else w :: insert_name v l
  end.

(** [numexpr.necompiler.getExprNames(...)[0]] (trusted): the names of the variables,
    each once, sorted *)
Definition names {A} (ex : expr A) : list string :=
  fold_right insert_name [] (nodup string_dec (variables ex)).

(** [_getArguments], numexpr.py:16-52 *)
Definition get_arguments {A} (ns : list string) (local global : dict (operand A)) : res (list (operand A)) :=
  mapM (fun v => match dget local v with
                 | Some a => Ok a
                 | None => match dget global v with Some a => Ok a | None => Err KeyError end
                 end) ns.

(** the names that the calls in numexpr.py:134-143 and _named_array_functions.py:63-73
    use for other arguments *)
Definition reserved : list string :=
  ["func"; "ex"; "order"; "casting"; "sanitize"; "optimization"; "truediv"; "self"]%string.

(** the value of an expression for given values of its variables *)
Fixpoint expr_value {A} (v : string -> res A) (ex : expr A) : res A :=
  match ex with
  | EVar n => v n
  | EConst c => Ok c
  | EUn f a => x <- expr_value v a ;; Ok (f x)
  | EBin f a b => x <- expr_value v a ;; y <- expr_value v b ;; Ok (f x y)
  | ETri f a b c => x <- expr_value v a ;; y <- expr_value v b ;; z <- expr_value v c ;; Ok (f x y z)
  end.

(** [numexpr.evaluate] (trusted): the arrays of the variables are broadcast, and the
    expression is evaluated for every element.  All variables are given. *)
Definition np_evaluate {A} (junk : A) (ex : expr A) (arrays : dict (nd A)) : res (nd A) :=
  match bshapes (map nshape (dvals arrays)) with
  | None => Err ValueError
  | Some s =>
      Ok (mkNd s (fun idx =>
        match expr_value (fun n => match dget arrays n with Some a => Ok (bget a idx) | None => Err KeyError end) ex with
        | Ok x => x
        | Err _ => junk
        end))
  end.

(** [evaluate], scalar_named_array_functions.py:2082-2129, for dimensionless arrays;
    the arrays are those of the variables of the expression *)
Definition na_evaluate_arrays {A} (junk : A) (ex : expr A) (arrays : dict (operand A)) : res (sarr A) :=
  let ns := dkeys arrays in
  let l := map normalize (dvals arrays) in
  sh <- broadcast_shapes (map sshape l) ;;
  l <- mapM (fun a => na_broadcast_to a sh false) l ;;
  r <- np_evaluate junk ex (combine ns (map s_nd l)) ;;
  mk_sarr r (dkeys sh).

(** [evaluate], numexpr.py:55-143, for a dictionary of local and one of global
    variables.  A variable with the name of another argument raises TypeError, and so
    does a call without arrays (_named_array_functions.py:75). *)
Definition na_evaluate {A} (junk : A) (ex : expr A) (local global : dict (operand A)) : res (sarr A) :=
  let ns := names ex in
  args <- get_arguments ns local global ;;
  if existsb (fun n => smem n reserved) ns then Err TypeError
  else match ns with
       | [] => Err TypeError
       | _ => na_evaluate_arrays junk ex (combine ns args)
       end.
