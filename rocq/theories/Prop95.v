(** C95: [np.nan_to_num] with and without a copy. *)
From Coq Require Import String List Arith ZArith Bool Lia.
From Verif Require Import Base Numpy Shapes Scalar Vector History NanToNum Spec SpecVector SpecNanToNum.
From Verif Require NanToNumFacts.
Import ListNotations.
Open Scope nat_scope.
Open Scope list_scope.

(** With a copy every element of every component is replaced, and everything in the result is
    explicit. *)
Theorem C95_copy :
  forall (A : Type) (f : A -> A) (k : class) (v : tree (held A)),
  (forall p, kind (nan_copy f k v) p = option_map (fun tn => (explicit k (fst tn), snd tn)) (kind v p)) /\
  forall p, match leaf_at v p with
            | None => leaf_at (nan_copy f k v) p = None
            | Some l => exists l', leaf_at (nan_copy f k v) p = Some l' /\ replaced f l l' /\ not_implicit l'
            end.
Proof. exact @NanToNumFacts.nan_copy_spec. Qed.
Print Assumptions C95_copy.

(** Without a copy, an explicit array all of whose scalars are stored in arrays has every element
    replaced.  Missing from the full statement: numbers, which are not, see below. *)
Theorem C95_inplace_partial :
  forall (A : Type) (f : A -> A) (k : class) (v : tree (held A)),
  tree_ok (fun _ => True) v -> all_explicit k v -> (forall p l, leaf_at v p = Some l -> not_implicit l) ->
  exists r, nan_inplace f k v = (r, None) /\ (forall p, kind r p = kind v p) /\
    forall p, match leaf_at v p with
              | None => leaf_at r p = None
              | Some l => exists l', leaf_at r p = Some l' /\ (has_array l -> replaced f l l') /\ (~ has_array l -> l' = l)
              end.
Proof. exact @NanToNumFacts.nan_inplace_spec. Qed.
Print Assumptions C95_inplace_partial.

(** An array that is not explicit is refused before anything is written. *)
Theorem C95_inplace_refused :
  forall (A : Type) (f : A -> A) (k : class),
  (forall a, nan_inplace f k (Leaf (HImplicit a)) = (Leaf (HImplicit a), Some ValueError)) /\
  forall ty cs e, refusal k ty = Some e -> nan_inplace f k (Node ty cs) = (Node ty cs, Some e).
Proof. exact (fun A f k => conj (fun a => eq_refl) (NanToNumFacts.nan_inplace_refused f k)). Qed.
Print Assumptions C95_inplace_refused.

(** A component that is not explicit is only refused after the components before it have been
    written. *)
Theorem C95_inplace_component_refuted :
  forall (A : Type) (f : A -> A) (k : class) (ty : string) (bs : list (string * sarr A)) (c : string) (a : sarr A) (rest : list (string * tree (held A))),
  refusal k ty = None ->
  nan_inplace f k (Node ty (map (fun kv => (fst kv, Leaf (HArr (snd kv)))) bs ++ (c, Leaf (HImplicit a)) :: rest)) =
  (Node ty (map (fun kv => (fst kv, Leaf (HArr (smap f (snd kv))))) bs ++ (c, Leaf (HImplicit a)) :: rest), Some ValueError).
Proof. exact @NanToNumFacts.nan_inplace_prefix. Qed.
Print Assumptions C95_inplace_component_refuted.

(** Without a copy, a number stays as it is, alone in a scalar array or as a component, and there is
    no exception. *)
Theorem C95_inplace_number_refuted :
  forall (A : Type) (f : A -> A) (k : class) (x : A), f x <> x ->
  nan_inplace f k (Leaf (HBare x)) = (Leaf (HBare x), None) /\ ~ replaced f (HBare x) (HBare x) /\
  forall ty c, refusal k ty = None -> nan_inplace f k (Node ty [(c, Leaf (HNum x))]) = (Node ty [(c, Leaf (HNum x))], None).
Proof.
  intros A f k x D. split; [reflexivity|]. split.
  - intros [_ H]. apply D. symmetry. exact (H (fun _ => 0)).
  - intros ty c R. cbn [nan_inplace leaf_nan_inplace]. now rewrite R.
Qed.
Print Assumptions C95_inplace_number_refuted.

Open Scope string_scope.

(** ** Examples: [None] is NaN, replaced by 0 *)

Definition fill (x : option Z) : option Z := match x with Some z => Some z | None => Some 0%Z end.
Definition ex_class : class :=
  mkClass (fun ty => if String.eqb ty "Cartesian2dVectorLinearSpace" then "Cartesian2dVectorArray" else ty)
          (fun ty => if String.eqb ty "Cartesian2dVectorLinearSpace" then Some ValueError
                     else if String.eqb ty "UniformUncertainScalarArray" then Some TypeError else None).

Definition ex_a : sarr (option Z) := mkS (of_list None [2] [Some 5%Z; None]) ["t"].
Definition ex_v : tree (held (option Z)) :=
  Node "Cartesian2dVectorArray" [("x", Leaf (HArr ex_a)); ("y", Node "UncertainScalarArray" [("nominal", Leaf (HNum None)); ("distribution", Leaf (HArr ex_a))])].

Definition look (l : held (option Z)) : nat * list (option Z) :=
  match l with HArr a => (0, ravel (s_nd a)) | HBare x => (1, [x]) | HNum x => (2, [x]) | HImplicit a => (3, ravel (s_nd a)) end.
Fixpoint looks (v : tree (held (option Z))) : tree (nat * list (option Z)) :=
  match v with Leaf l => Leaf (look l) | Node ty cs => Node ty (map (fun kv => (fst kv, looks (snd kv))) cs) end.

Example ex_copy : looks (nan_copy fill ex_class ex_v) =
  Node "Cartesian2dVectorArray" [("x", Leaf (0, [Some 5%Z; Some 0%Z]));
    ("y", Node "UncertainScalarArray" [("nominal", Leaf (2, [Some 0%Z])); ("distribution", Leaf (0, [Some 5%Z; Some 0%Z]))])].
Proof. vm_compute. reflexivity. Qed.

(* the nominal value stays NaN *)
Example ex_inplace : let (r, e) := nan_inplace fill ex_class ex_v in
  e = None /\ looks r =
  Node "Cartesian2dVectorArray" [("x", Leaf (0, [Some 5%Z; Some 0%Z]));
    ("y", Node "UncertainScalarArray" [("nominal", Leaf (2, [None])); ("distribution", Leaf (0, [Some 5%Z; Some 0%Z]))])].
Proof. vm_compute. split; reflexivity. Qed.

Example ex_hypotheses : tree_ok (fun _ => True) ex_v /\ all_explicit ex_class ex_v /\ (forall p l, leaf_at ex_v p = Some l -> not_implicit l).
Proof.
  split; [|split].
  - constructor; [repeat constructor; cbn; intuition discriminate|]. intros c x [H|[H|[]]]; injection H as <- <-; constructor; auto.
    + repeat constructor; cbn; intuition discriminate.
    + intros c x [H|[H|[]]]; injection H as <- <-; constructor; auto.
  - intros [|c p] ty ns K; cbn in K; [now injection K as <- _|]. destruct (String.eqb c "x"); [now destruct p|]. destruct (String.eqb c "y"); [|discriminate].
    destruct p as [|d p]; cbn in K; [now injection K as <- _|]. destruct (String.eqb d "nominal"); [now destruct p|]. destruct (String.eqb d "distribution"); [now destruct p|discriminate].
  - intros [|c p] l L; cbn in L; [discriminate|]. destruct (String.eqb c "x"); [destruct p; [now injection L as <-|discriminate]|]. destruct (String.eqb c "y"); [|discriminate].
    destruct p as [|d p]; cbn in L; [discriminate|]. destruct (String.eqb d "nominal"); [destruct p; [now injection L as <-|discriminate]|].
    destruct (String.eqb d "distribution"); [destruct p; [now injection L as <-|discriminate]|discriminate].
Qed.

Example ex_implicit :
  looks (nan_copy fill ex_class (Node "Cartesian2dVectorLinearSpace" [("x", Leaf (HImplicit ex_a)); ("y", Leaf (HBare None))])) =
    Node "Cartesian2dVectorArray" [("x", Leaf (0, [Some 5%Z; Some 0%Z])); ("y", Leaf (1, [Some 0%Z]))] /\
  snd (nan_inplace fill ex_class (Node "UniformUncertainScalarArray" [("nominal", Leaf (HArr ex_a)); ("distribution", Leaf (HArr ex_a))])) = Some TypeError.
Proof. split; vm_compute; reflexivity. Qed.
