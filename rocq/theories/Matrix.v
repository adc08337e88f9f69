(** Model of the matrix arrays: named_arrays/_matrices/matrices.py,
    _matrices/cartesian/matrices_cartesian_2d.py and matrices_cartesian_3d.py,
    and of the scalar product of vector arrays, _vectors/vectors.py. *)
From Coq Require Import Ascii String List Arith ZArith Bool Lia.
From Verif Require Import Base Numpy Shapes Scalar Elementwise Vector.
Import ListNotations.
Open Scope nat_scope.
Open Scope list_scope.

(** The arithmetic of the elements.  Units are not modelled; the quotient by zero
    is whatever [over] gives. *)
Record arith (F : Type) : Type := mkArith {
  zero : F; one : F;
  plus : F -> F -> F; times : F -> F -> F; minus : F -> F -> F; neg : F -> F; over : F -> F -> F;
  is_zero : F -> bool
}.
Arguments zero {F} _.
Arguments one {F} _.
Arguments plus {F} _ _ _.
Arguments times {F} _ _ _.
Arguments minus {F} _ _ _.
Arguments neg {F} _ _.
Arguments over {F} _ _ _.
Arguments is_zero {F} _ _.

(** A matrix array is a tree whose leaves are the rows, which are vectors.  A
    nested matrix such as [SpectralPositionalMatrixArray] has matrices among its
    components.  A matrix type and the corresponding vector type have the same
    type name, so [type_vector] and [type_matrix] are the identity.  A matrix with
    a row which is not a vector is not modelled (an error). *)
Notation matrix F := (tree (vec F)).

Section Matrix.
Context {F : Type} (K : arith F).

(** ** Arithmetic of scalar arrays and numbers *)

(** a binary ufunc *)
Definition op2 (f : F -> F -> F) (a b : operand F) : res (operand F) :=
  op_ufunc (fun l => match l with [x; y] => f x y | _ => zero K end) [a; b].

(** a unary ufunc *)
Definition op1 (f : F -> F) (a : operand F) : res (operand F) :=
  op_ufunc (fun l => match l with [x] => f x | _ => zero K end) [a].

(** [np.all(x == 0)] *)
Definition op_all_zero (a : sarr F) : bool := forallb (is_zero K) (ravel (s_nd a)).

(** [AbstractScalar.__array_matmul__], scalars.py:134-157, without [out]: the
    number 0 when one of the factors is zero everywhere *)
Definition scalar_matmul (x1 x2 : sarr F) : res (operand F) :=
  if op_all_zero x1 || op_all_zero x2 then Ok (OpNum (zero K)) else op2 (times K) (OpArr x1) (OpArr x2).

(** ** The scalar product *)

(** [d1.keys() == d2.keys()] *)
Definition keys_eq (l1 l2 : list string) : bool :=
  forallb (fun k => smem k l2) l1 && forallb (fun k => smem k l1) l2.

(** [AbstractVectorArray.__array_matmul__], vectors.py:390-405, for two flat
    vectors; NotImplemented becomes TypeError *)
Definition dot (x1 x2 : dict (operand F)) : res (operand F) :=
  if keys_eq (map fst x1) (map fst x2)
  then foldM (fun result kv =>
         match dget x2 (fst kv) with
         | Some b => p <- scalar_matmul (normalize (snd kv)) (normalize b) ;; op2 (plus K) result p
         | None => Err KeyError
         end) x1 (OpNum (zero K))
  else Err TypeError.

(** [x1 @ x2] for two vectors *)
Definition vec_dot (x1 x2 : vec F) : res (operand F) :=
  match x1, x2 with
  | Node _ _, Node _ _ => dot (cartesian_nd x1) (cartesian_nd x2)
  | _, _ => Err TypeError
  end.

(** ** Rows and prototypes *)

Definition flat_row (v : vec F) : res (dict (operand F)) :=
  match v with Node _ _ => Ok (cartesian_nd v) | Leaf _ => Err AttributeError end.

(** [cartesian_nd], matrices.py:258-276: the rows of the flat matrix *)
Definition m_rows (m : matrix F) : res (dict (dict (operand F))) :=
  match m with
  | Node _ _ => mapM (fun kv => r <- flat_row (snd kv) ;; Ok (fst kv, r)) (cartesian_nd m)
  | Leaf _ => Err AttributeError
  end.

(** [is_consistent], matrices.py:55-66 (a matrix without rows raises
    StopIteration; here it is not consistent) *)
Definition consistent (rows : dict (dict (operand F))) : bool :=
  match rows with
  | [] => false
  | (_, p) :: l => forallb (fun kv => keys_eq (map fst (snd kv)) (map fst p)) l
  end.

(** [is_square], matrices.py:68-78 *)
Definition square (rows : dict (dict (operand F))) : bool :=
  consistent rows && forallb (fun kv => length rows =? length (snd kv)) rows.

(** the first row *)
Fixpoint first_leaf {L} (t : tree L) : res L :=
  match t with
  | Leaf l => Ok l
  | Node _ ((_, x) :: _) => first_leaf x
  | Node _ [] => Err ValueError
  end.

(** [row_prototype], matrices.py:84-100 *)
Definition row_prototype (m : matrix F) : res (vec F) :=
  rows <- m_rows m ;;
  if consistent rows then first_leaf m else Err ValueError.

Fixpoint map_tree {L M} (f : L -> M) (t : tree L) : tree M :=
  match t with
  | Leaf l => Leaf (f l)
  | Node ty cs => Node ty (map (fun kv => (fst kv, map_tree f (snd kv))) cs)
  end.

(** [column_prototype], matrices.py:102-115 *)
Definition column_prototype (m : matrix F) : vec F := map_tree (fun _ => OpNum (zero K)) m.

(** [prototype_matrix], matrices.py:117-130 *)
Definition prototype_matrix {L} (m : tree L) (row : vec F) : matrix F := map_tree (fun _ => row) m.

(** [from_cartesian_nd], matrices.py:356-385, with [like] *)
Fixpoint m_from_nd (nd : dict (dict (operand F))) (like : matrix F) : res (matrix F) :=
  match like with
  | Leaf _ => Err TypeError
  | Node ty cs =>
      r <- traverse (fun kv =>
        x <- match snd kv with
             | Leaf row =>
                 match dget nd (fst kv) with
                 | Some nr => v <- from_cartesian_nd nr row ;; Ok (Leaf v)
                 | None => Err KeyError
                 end
             | Node _ _ =>
                 let p := (fst kv ++ ".")%string in
                 m_from_nd (map (fun e => (drop (String.length p) (fst e), snd e))
                                (filter (fun e => starts_with p (fst e)) nd)) (snd kv)
             end ;;
        Ok (fst kv, x)) cs ;;
      Ok (Node ty r)
  end.

(** [matrix_transpose], matrices.py:132-161 *)
Definition m_transpose (m : matrix F) : res (matrix F) :=
  rows <- m_rows m ;;
  row <- row_prototype m ;;
  flat <- mapM (fun c =>
            r <- mapM (fun kv => match dget (snd kv) c with
                                 | Some x => Ok (fst kv, x)
                                 | None => Err KeyError
                                 end) rows ;;
            Ok (c, r)) (map fst (cartesian_nd row)) ;;
  m_from_nd flat (prototype_matrix row (column_prototype m)).

(** ** Products, matrices.py:278-338 *)

(** matrix @ matrix, lines 288-309 *)
Definition matmul (x1 x2 : matrix F) : res (matrix F) :=
  rows1 <- m_rows x1 ;;
  row1 <- row_prototype x1 ;;
  if keys_eq (map fst (cartesian_nd row1)) (map fst (cartesian_nd (column_prototype x2)))
  then row2 <- row_prototype x2 ;;
       t <- m_transpose x2 ;;
       cols <- m_rows t ;;
       flat <- mapM (fun kv =>
                 r <- mapM (fun kc => x <- dot (snd kv) (snd kc) ;; Ok (fst kc, x)) cols ;;
                 Ok (fst kv, r)) rows1 ;;
       m_from_nd flat (prototype_matrix x1 row2)
  else Err TypeError.

Definition type_of {L} (t : tree L) : option string :=
  match t with Node ty _ => Some ty | Leaf _ => None end.

(** matrix @ vector, lines 311-321 *)
Definition matvec (x1 : matrix F) (x2 : vec F) : res (vec F) :=
  rows1 <- m_rows x1 ;;
  row1 <- row_prototype x1 ;;
  match x2, row1 with
  | Node ty _, Node ty' _ =>
      if String.eqb ty ty'
      then flat <- mapM (fun kv => x <- dot (snd kv) (cartesian_nd x2) ;; Ok (fst kv, x)) rows1 ;;
           from_cartesian_nd flat (column_prototype x1)
      else Err TypeError
  | _, _ => Err TypeError
  end.

(** vector @ matrix, lines 326-331 *)
Definition vecmat (x1 : vec F) (x2 : matrix F) : res (vec F) :=
  t <- m_transpose x2 ;;
  cols <- m_rows t ;;
  match x1 with
  | Node _ _ =>
      flat <- mapM (fun kc => x <- dot (cartesian_nd x1) (snd kc) ;; Ok (fst kc, x)) cols ;;
      from_cartesian_nd flat (column_prototype t)
  | Leaf _ => Err TypeError
  end.

(** ** Determinants *)

(** [determinant], matrices_cartesian_2d.py:54-60; here the rows are flat.  The
    names of the columns are not looked at. *)
Definition det2 (m : matrix F) : res (operand F) :=
  rows <- m_rows m ;;
  if negb (square rows) then Err ValueError else
  match dget rows "x", dget rows "y" with
  | Some [(_, xx); (_, xy)], Some [(_, yx); (_, yy)] =>
      p <- op2 (times K) xx yy ;; q <- op2 (times K) xy yx ;; op2 (minus K) p q
  | _, _ => Err ValueError
  end.

Definition mul3 (a b c : operand F) : res (operand F) := p <- op2 (times K) a b ;; op2 (times K) p c.

(** the expression for the determinant of a 3 by 3 matrix *)
Definition det3_expr (a b c d e f g h i : operand F) : res (operand F) :=
  t1 <- mul3 a e i ;; t2 <- mul3 b f g ;; t3 <- mul3 c d h ;;
  t4 <- mul3 c e g ;; t5 <- mul3 b d i ;; t6 <- mul3 a f h ;;
  s <- op2 (plus K) t1 t2 ;; s <- op2 (plus K) s t3 ;;
  s <- op2 (minus K) s t4 ;; s <- op2 (minus K) s t5 ;; op2 (minus K) s t6.

(** [determinant], matrices_cartesian_3d.py:55-62 *)
Definition det3 (m : matrix F) : res (operand F) :=
  rows <- m_rows m ;;
  if negb (square rows) then Err ValueError else
  match dget rows "x", dget rows "y", dget rows "z" with
  | Some [(_, a); (_, b); (_, c)], Some [(_, d); (_, e); (_, f)], Some [(_, g); (_, h); (_, i)] =>
      det3_expr a b c d e f g h i
  | _, _, _ => Err ValueError
  end%string.

(** ** Inverse *)

(** [(p * q - r * s) / det] *)
Definition minor (p q r s det : operand F) : res (operand F) :=
  x <- op2 (times K) p q ;; y <- op2 (times K) r s ;; d <- op2 (minus K) x y ;; op2 (over K) d det.

(** [-(p * q - r * s) / det] *)
Definition neg_minor (p q r s det : operand F) : res (operand F) :=
  x <- op2 (times K) p q ;; y <- op2 (times K) r s ;; d <- op2 (minus K) x y ;; d <- op1 (neg K) d ;;
  op2 (over K) d det.

(** matrices.py:183-236: one, two or three rows.  The names of the columns are
    those of the first row, the entries of the other rows are taken by position.
    Four or more rows are not modelled. *)
Definition inverse_nd (rows : dict (dict (operand F))) : res (dict (dict (operand F))) :=
  match rows with
  | [(r1, [(c1, a)])] =>
      x <- op2 (over K) (OpNum (one K)) a ;; Ok [(c1, [(r1, x)])]
  | [(r1, [(c1, a); (c2, b)]); (r2, [(_, c); (_, d)])] =>
      p <- op2 (times K) a d ;; q <- op2 (times K) b c ;; det <- op2 (minus K) p q ;;
      x11 <- op2 (over K) d det ;;
      nb <- op1 (neg K) b ;; x12 <- op2 (over K) nb det ;;
      nc <- op1 (neg K) c ;; x21 <- op2 (over K) nc det ;;
      x22 <- op2 (over K) a det ;;
      Ok [(c1, [(r1, x11); (r2, x12)]); (c2, [(r1, x21); (r2, x22)])]
  | [(r1, [(c1, a); (c2, b); (c3, c)]); (r2, [(_, d); (_, e); (_, f)]); (r3, [(_, g); (_, h); (_, i)])] =>
      det <- det3_expr a b c d e f g h i ;;
      x11 <- minor e i f h det ;; x12 <- neg_minor b i c h det ;; x13 <- minor b f c e det ;;
      x21 <- neg_minor d i f g det ;; x22 <- minor a i c g det ;; x23 <- neg_minor a f c d det ;;
      x31 <- minor d h e g det ;; x32 <- neg_minor a h b g det ;; x33 <- minor a e b d det ;;
      Ok [(c1, [(r1, x11); (r2, x12); (r3, x13)]);
          (c2, [(r1, x21); (r2, x22); (r3, x23)]);
          (c3, [(r1, x31); (r2, x32); (r3, x33)])]
  | _ => Err TypeError
  end.

(** [inverse], matrices.py:170-255 *)
Definition m_inverse (m : matrix F) : res (matrix F) :=
  rows <- m_rows m ;;
  if negb (square rows) then Err ValueError else
  inv <- inverse_nd rows ;;
  t <- m_transpose m ;;
  m_from_nd inv t.
End Matrix.
