(** C76: Fourier transforms act along named axes and rename them. *)
From Coq Require Import String List Arith ZArith Bool Lia.
From Verif Require Import Base BaseFacts Numpy Shapes Scalar Along Fourier Spec SpecFourier FourierFacts.
Import ListNotations.
Open Scope nat_scope.
Open Scope list_scope.

(** [np.fft.fft(a, axis=(x, y), n=n)] and its variants transform every line along [x],
    cropped or padded with zeros, into a line along [y]. *)
Theorem C76_fft :
  forall (A : Type) (zero : A) (t : transform A) (a : sarr A) (x y : string) (m : nat) (n : option nat),
  wf a -> In (x, m) (sshape a) ->
  let k := match n with Some n => n | None => t_default t m end in
  k <> 0 -> (y = x \/ ~ In y (s_axes a)) ->
  exists r, na_fft zero t a (x, y) n = Ok r /\ wf r /\
    sshape r = map (fun kv => if String.eqb (fst kv) x then (y, t_out t k) else kv) (sshape a) /\
    forall e, at_ r e = t_value t k (padded zero (t_in t k) (line a x e)) (e y).
Proof. exact (fun A => fft_ok). Qed.
Print Assumptions C76_fft.

(** An axis that does not exist, a length of zero, and a new name that is taken are
    refused. *)
Theorem C76_fft_refused :
  forall (A : Type) (zero : A) (t : transform A) (a : sarr A) (x y : string) (n : option nat), wf a ->
  ~ In x (s_axes a) \/
  (exists m, In (x, m) (sshape a) /\ match n with Some n => n | None => t_default t m end = 0) \/
  (y <> x /\ In y (s_axes a)) ->
  na_fft zero t a (x, y) n = Err ValueError.
Proof. exact (fun A => fft_refused). Qed.
Print Assumptions C76_fft_refused.

(** [np.fft.fftn(a, axes=axes, s=s)] and its variants transform the lines along the
    axes one axis after the other, each with its own length whatever the order of [s],
    and then rename all of them at once.  Missing from the full statement: the default
    of [s] is not that of numpy, see below. *)
Theorem C76_fftn_partial :
  forall (A : Type) (zero : A) (w : ntransform A) (a : sarr A) (axes : dict string) (s : option (dict nat))
         (k : string -> nat) (st : list (stage A)),
  wf a -> NoDup (dkeys axes) -> incl (dkeys axes) (s_axes a) -> NoDup (map (renamed axes) (s_axes a)) ->
  (forall ax, In ax (dkeys axes) -> k ax <> 0 /\
     match s with Some s => dget s ax = Some (k ax) | None => In (ax, k ax) (sshape a) end) ->
  (forall d ax, s = Some d -> In ax (dkeys d) -> In ax (dkeys axes)) ->
  stages w (map (fun ax => (ax, k ax)) (dkeys axes)) st ->
  exists r, na_fftn zero w a axes s = Ok r /\ wf r /\
    sshape r = map (fun kv => (renamed axes (fst kv), snd kv)) (spectra_shape st (sshape a)) /\
    forall e, at_ r e = spectra zero st (sshape a) (at_ a) (fun ax => e (renamed axes ax)).
Proof. exact (fun A => fftn_ok). Qed.
Print Assumptions C76_fftn_partial.

Theorem C76_fftn_refused :
  forall (A : Type) (zero : A) (w : ntransform A) (a : sarr A) (axes : dict string) (s : option (dict nat)), wf a ->
  ~ incl (dkeys axes) (s_axes a) \/ (exists d, s = Some d /\ exists ax, ~ (In ax (dkeys d) <-> In ax (dkeys axes))) ->
  na_fftn zero w a axes s = Err ValueError.
Proof. exact (fun A => fftn_refused). Qed.
Print Assumptions C76_fftn_refused.

(** The order in which the axes of the array are stored does not matter. *)
Theorem C76_order :
  forall (A : Type) (zero : A) (w : ntransform A) (a a' : sarr A) (axes : dict string) (s : option (dict nat))
         (k : string -> nat) (st : list (stage A)),
  wf a -> wf a' -> same_array a a' ->
  NoDup (dkeys axes) -> incl (dkeys axes) (s_axes a) -> NoDup (map (renamed axes) (s_axes a)) ->
  (forall ax, In ax (dkeys axes) -> k ax <> 0 /\
     match s with Some s => dget s ax = Some (k ax) | None => In (ax, k ax) (sshape a) end) ->
  (forall d ax, s = Some d -> In ax (dkeys d) -> In ax (dkeys axes)) ->
  stages w (map (fun ax => (ax, k ax)) (dkeys axes)) st ->
  exists r r', na_fftn zero w a axes s = Ok r /\ na_fftn zero w a' axes s = Ok r' /\ same_array r r'.
Proof. exact (fun A => fftn_order). Qed.
Print Assumptions C76_order.

Open Scope string_scope.

(** the transforms of numpy with the given values *)
Definition complex {A} (f : nat -> list A -> nat -> A) : transform A := mkT (fun m => m) (fun n => n) (fun n => n) f.
Definition from_real {A} (f : nat -> list A -> nat -> A) : transform A := mkT (fun m => m) (fun n => n) (fun n => n / 2 + 1) f.
Definition to_real {A} (f : nat -> list A -> nat -> A) : transform A := mkT (fun m => 2 * (m - 1)) (fun n => n / 2 + 1) (fun n => n) f.

Definition sizes {A} (r : res (sarr A)) : res shape := match r with Ok a => Ok (sshape a) | Err e => Err e end.

(** Without [s], [np.fft.irfftn] (and [irfft2]) uses the size of the spectrum as the
    size of the result, unlike [np.fft.irfft] and numpy: it does not undo
    [np.fft.rfftn], whatever the transforms are. *)
Theorem C76_irfftn_refuted :
  forall (A : Type) (zero : A) (f g h : nat -> list A -> nat -> A) (a : sarr A),
  wf a -> sshape a = [("x", 4)] ->
  exists b, na_fftn zero (NFromReal (complex f) (from_real g)) a [("x", "k")] None = Ok b /\
    sizes (na_fft zero (to_real h) b ("k", "x") None) = Ok [("x", 4)] /\
    sizes (na_fftn zero (NToReal (complex f) (to_real h)) b [("k", "x")] None) = Ok [("x", 3)].
Proof.
  intros A zero f g h [[s v] ax] [_ L] E. unfold sshape in E. simpl in E, L.
  destruct ax as [|x [|? ?]], s as [|n [|? ?]]; try discriminate. injection E as -> ->.
  eexists. split; [reflexivity|split; reflexivity].
Qed.
Print Assumptions C76_irfftn_refuted.

(** ** Examples *)

Definition show {A} (r : res (sarr A)) : res (list string * list nat * list A) :=
  match r with Ok a => Ok (s_axes a, nshape (s_nd a), ravel (s_nd a)) | Err e => Err e end.

(** an integer stand-in for a transform: the sum of [(i + 1) ^ k] times the elements *)
Definition moments (n : nat) (l : list Z) (k : nat) : Z :=
  fold_right Z.add 0%Z (map (fun p => (fst p ^ Z.of_nat k * snd p)%Z) (combine (map (fun i => Z.of_nat (i + 1)) (seq 0 n)) l)).

Definition grid : sarr Z := mkS (of_list 0%Z [2; 3] [1; 2; 3; 4; 5; 6]%Z) ["x"; "y"].

Example ex_fft :
  show (na_fft 0%Z (complex moments) grid ("x", "k") (Some 3)) = Ok (["k"; "y"], [3; 3], [5; 7; 9; 9; 12; 15; 17; 22; 27]%Z) /\
  show (na_fft 0%Z (complex moments) grid ("y", "k") (Some 2)) = Ok (["x"; "k"], [2; 2], [3; 5; 9; 14]%Z).
Proof. split; vm_compute; reflexivity. Qed.

(** the two axes exchange their names *)
Example ex_fftn :
  show (na_fftn 0%Z (NComplex (complex moments)) grid [("x", "y"); ("y", "x")] (Some [("y", 1); ("x", 2)]))
  = Ok (["y"; "x"], [2; 1], [5; 9]%Z).
Proof. vm_compute. reflexivity. Qed.

Example ex_hypotheses :
  NoDup (map (renamed [("x", "y"); ("y", "x")]) (s_axes grid)) /\
  stages (NComplex (complex moments)) [("x", 2); ("y", 1)] [(complex moments, ("y", 1)); (complex moments, ("x", 2))] /\
  stages (NFromReal (complex moments) (from_real moments)) [("x", 2); ("y", 1)] [(from_real moments, ("y", 1)); (complex moments, ("x", 2))].
Proof.
  split; [|split].
  - vm_compute. repeat constructor; simpl; intuition discriminate.
  - apply (stages_complex (complex moments) [("x", 2); ("y", 1)]).
  - apply (stages_from_real (complex moments) (from_real moments) [("x", 2)] ("y", 1)).
Qed.

Example ex_refused :
  show (na_fft 0%Z (complex moments) grid ("x", "y") None) = Err ValueError /\
  show (na_fft 0%Z (complex moments) grid ("z", "k") None) = Err ValueError /\
  show (na_fft 0%Z (complex moments) grid ("x", "k") (Some 0)) = Err ValueError.
Proof. repeat split; vm_compute; reflexivity. Qed.
