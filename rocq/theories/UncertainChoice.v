(** Model of writing into and clipping uncertain scalars
    (named_arrays/_scalars/uncertainties/uncertainties_array_functions.py). *)
From Coq Require Import String List Arith ZArith Bool.
From Verif Require Import Base Numpy Shapes Scalar Elementwise Uncertain.
Import ListNotations.
Open Scope nat_scope.
Open Scope list_scope.

(** The assignment to one part, uncertainties_array_functions.py:512-521: a
    number has no storage, [np.copyto] raises [TypeError] for it, and the code
    replaces the part by that of the source.  A scalar array holds an ndarray;
    [castable] tells whether numpy accepts the mask, see [u_copyto]. *)
Definition part_copyto {A} (castable : bool) (dst src : operand A) (w : operand bool) : operand A * option err :=
  match dst with
  | OpNum _ => (src, None)
  | OpArr a => match na_copyto castable a src w with
               | Ok r => (OpArr r, None)
               | Err e => (dst, Some e)
               end
  end.

Definition copy_parts {A} (castable : bool) (dst : unc A) (src : uop A) (wn wd : operand bool) : unc A * option err :=
  match part_copyto castable (u_nominal dst) (nominal_of src) wn with
  | (n, Some e) => (mkU n (u_distribution dst), Some e)
  | (n, None) => let (d, e) := part_copyto castable (u_distribution dst) (distribution_of src) wd in (mkU n d, e)
  end.

Definition op_read {A B} (f : A -> B) (o : operand A) : operand B :=
  match o with
  | OpArr a => OpArr (mkS (mkNd (nshape (s_nd a)) (fun idx => f (nget (s_nd a) idx))) (s_axes a))
  | OpNum x => OpNum (f x)
  end.

(** [copyto], uncertainties_array_functions.py:474-521: [dst] afterwards, and the
    exception if there is one.  The branch for an uncertain mask (499-501) asks for
    the type of [src] and takes its parts for the mask; if [src] is not uncertain the
    call is declined.  [truth] reads an element of the source as a mask; it is [None]
    if the elements are not booleans: numpy refuses such a mask with [TypeError] and
    the function for scalars (scalar_array_functions.py:524-532) replaces the
    elements of the whole part. *)
Definition u_copyto {A} (truth : option (A -> bool)) (dst : unc A) (src : uop A) (where_ : uop bool) : unc A * option err :=
  match where_, src with
  | Certain w, _ => copy_parts true dst src w w
  | Uncertain _, Certain _ => (dst, Some TypeError)
  | Uncertain _, Uncertain s =>
      match truth with
      | Some t => copy_parts true dst src (op_read t (u_nominal s)) (op_read t (u_distribution s))
      | None => copy_parts false dst src (OpNum true) (OpNum true)
      end
  end.

(** [_normalize], uncertainties.py:56-69 *)
Definition as_unc {A} (x : uop A) : res (unc A) := match x with Uncertain u => Ok u | Certain o => mk_unc o o end.

Section Clip.
Context {A : Type} (minimum maximum : A -> A -> A).

(** [np.clip] of one part: numbers are clipped by numpy, everything else by the
    function for scalars *)
Definition part_clip (a : operand A) (lo hi : option (operand A)) : res (operand A) :=
  let number (o : option (operand A)) := match o with Some (OpArr _) => false | _ => true end in
  if number (Some a) && number lo && number hi
  then r <- na_clip minimum maximum a lo hi None ;; Ok (OpNum (nget (s_nd r) []))
  else r <- na_clip minimum maximum a lo hi None ;; Ok (OpArr r).

Definition as_bound (x : option (uop A)) : res (option (unc A)) :=
  match x with Some x => u <- as_unc x ;; Ok (Some u) | None => Ok None end.

(** [clip], uncertainties_array_functions.py:955-993, without [out] *)
Definition u_clip (a : uop A) (a_min a_max : option (uop A)) : res (unc A) :=
  a <- as_unc a ;;
  lo <- as_bound a_min ;;
  hi <- as_bound a_max ;;
  n <- part_clip (u_nominal a) (option_map u_nominal lo) (option_map u_nominal hi) ;;
  d <- part_clip (u_distribution a) (option_map u_distribution lo) (option_map u_distribution hi) ;;
  mk_unc n d.
End Clip.
