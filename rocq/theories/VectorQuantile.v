(** Model of percentiles and quantiles of vectors
    (named_arrays/_vectors/vector_array_functions.py). *)
From Coq Require Import String List Arith ZArith Bool Lia.
From Verif Require Import Base Numpy Shapes Scalar Elementwise Reduce Vector Quantile.
Import ListNotations.
Open Scope nat_scope.
Open Scope list_scope.

(** [array_function_percentile_like], vector_array_functions.py:267-316, without [out].  A
    component that is a scalar array or a number is treated by the function for scalars,
    scalar_array_functions.py:301-373, which declines a vector [q] (lines 331-335); numpy then asks
    the vector, whose function tests the axes (280-287) and fails at the components of the scalar
    (291). *)
Fixpoint vec_percentile_rec {A Q B} (fuel : nat) (valid : Q -> bool) (perc : Q -> list A -> B) (v : vec A) (q : vec Q)
         (axis : option (list string)) (keepdims : bool) : res (vec B) :=
  match v with
  | Leaf o =>
      match q with
      | Leaf qo => r <- na_percentile valid perc o qo axis None keepdims ;; Ok (Leaf (OpArr r))
      | Node _ _ =>
          if match axis with
             | Some l => negb (forallb (fun ax => smem ax (s_axes (normalize o))) l)
             | None => false
             end then Err ValueError
          else Err AttributeError
      end
  | Node ty cs =>
      match fuel with
      | 0 => Err TypeError            (* not reached, see [vec_percentile] *)
      | S fuel =>
          sh <- vec_shape v ;;
          let axis_n := match axis with None => dkeys sh | Some l => l end in
          if match axis with
             | Some _ => negb (forallb (fun ax => smem ax (dkeys sh)) axis_n)
             | None => false
             end then Err ValueError
          else
            let base := dict_of (flat_map (fun ax => match dget sh ax with Some n => [(ax, n)] | None => [] end) axis_n) in
            r <- on_components (fun c x =>
                   shx <- vec_shape x ;;
                   shc <- broadcast_shapes [shx; base] ;;
                   x <- vec_broadcast_to x shc ;;
                   qc <- component c q ;;
                   vec_percentile_rec fuel valid perc x qc axis keepdims) cs ;;
            Ok (Node ty r)
      end
  end.

Definition vec_percentile {A Q B} (valid : Q -> bool) (perc : Q -> list A -> B) (v : vec A) (q : vec Q)
           (axis : option (list string)) (keepdims : bool) : res (vec B) :=
  vec_percentile_rec (depth v) valid perc v q axis keepdims.
