(** Specification of convolutions and of filters with a moving window: the value at
    a labelled position is that of the function applied to the elements along the
    named axes, every other axis being held fixed. *)
From Coq Require Import String List Arith ZArith Bool.
From Verif Require Import Base Numpy Shapes Scalar Uncertain Filter Spec SpecNumeric SpecUncertain.
Import ListNotations.
Open Scope nat_scope.
Open Scope list_scope.

(** the axes of a convolution: by default those of the kernel *)
Definition names_of {K} (axis : axis_arg) (kernel : operand K) : list string :=
  match axis with AxNone => dkeys (op_shape kernel) | AxName s => [s] | AxNames l => l end.

(** the value of a convolution at [e] *)
Definition convolved {A K B} (conv : list nat -> list A -> list bool -> list nat -> list K -> list nat -> B)
           (sh : shape) (array : env -> A) (where_ : env -> bool)
           (sk : shape) (kernel : env -> K) (ks : list string) (e : env) : B :=
  conv (map (size_of sh) ks) (map array (fibre sh ks e)) (map where_ (fibre sh ks e))
       (map (size_of sk) ks) (map kernel (fibre sk ks e)) (map e ks).

(** the value of a filter at [e]; [size] is the size of the window along each axis *)
Definition filtered {A B} (flt : list nat -> list nat -> list A -> list bool -> list nat -> B)
           (sh : shape) (array : env -> A) (where_ : env -> bool) (size : dict nat) (e : env) : B :=
  flt (map (size_of sh) (dkeys size)) (dvals size) (map array (fibre sh (dkeys size) e)) (map where_ (fibre sh (dkeys size) e))
      (map e (dkeys size)).

(** the uncertain array that stands for an argument: a certain value is its own
    distribution *)
Definition unc_of {A} (x : uop A) : unc A := match x with Uncertain u => u | Certain o => mkU o o end.

(** the axes of a convolution of uncertain scalars, [sk] being the shape of the kernel *)
Definition u_names (axis : axis_arg) (sk : shape) : list string :=
  match axis with AxNone => dkeys sk | AxName s => [s] | AxNames l => l end.

(** an axis given as a string has a name of one character *)
Definition short_name (axis : axis_arg) : Prop := match axis with AxName s => String.length s = 1 | _ => True end.

(** the shapes that meet in a world, off the axes [ks] *)
Definition meeting {A K} (array : unc A) (kernel : unc K) (where_ : unc bool) (ks : list string) (w : option nat) : list shape :=
  [op_shape (u_part array w); without (op_shape (u_part kernel w)) ks; op_shape (u_part where_ w)].
