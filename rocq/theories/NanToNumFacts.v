(** Proofs about [np.nan_to_num]. *)
From Coq Require Import String List Arith ZArith Bool Lia.
From Verif Require Import Base BaseFacts Numpy Shapes Scalar Vector History NanToNum Spec SpecVector SpecNanToNum VectorFacts.
Import ListNotations.
Open Scope nat_scope.
Open Scope list_scope.

Section Facts.
Context {A : Type} (f : A -> A) (k : class).

Lemma leaf_replaced (l : held A) : replaced f l (leaf_nan f l).
Proof. destruct l; split; reflexivity. Qed.

Lemma dget_map {X Y} (g : X -> Y) (cs : list (string * X)) c : dget (map (fun kv => (fst kv, g (snd kv))) cs) c = option_map g (dget cs c).
Proof. induction cs as [|[d x] cs IH]; [reflexivity|]. cbn [map dget fst snd]. destruct (String.eqb c d); [reflexivity|exact IH]. Qed.

Theorem nan_copy_spec (v : tree (held A)) :
  (forall p, kind (nan_copy f k v) p = option_map (fun tn => (explicit k (fst tn), snd tn)) (kind v p)) /\
  forall p, match leaf_at v p with
            | None => leaf_at (nan_copy f k v) p = None
            | Some l => exists l', leaf_at (nan_copy f k v) p = Some l' /\ replaced f l l' /\ not_implicit l'
            end.
Proof.
  induction v as [l|ty cs IH] using tree_rect'; split; intros [|c p]; cbn [nan_copy kind leaf_at]; try reflexivity.
  - exists (leaf_nan f l). split; [reflexivity|]. split; [apply leaf_replaced|]. destruct l; exact Logic.I.
  - cbn [option_map fst snd]. rewrite map_map. reflexivity.
  - rewrite dget_map. destruct (dget cs c) as [x|] eqn:D; [|reflexivity]. cbn [option_map]. apply (IH c x (dget_In _ _ _ D)).
  - rewrite dget_map. destruct (dget cs c) as [x|] eqn:D; [|reflexivity]. cbn [option_map]. apply (IH c x (dget_In _ _ _ D)).
Qed.

Definition each := fix each (cs : list (string * tree (held A))) : list (string * tree (held A)) * option err :=
  match cs with
  | [] => ([], None)
  | (c, x) :: cs' =>
      match nan_inplace f k x with
      | (x', None) => let (r, e) := each cs' in ((c, x') :: r, e)
      | (x', Some e) => ((c, x') :: cs', Some e)
      end
  end.

Lemma inplace_node ty cs : refusal k ty = None -> nan_inplace f k (Node ty cs) = let (r, e) := each cs in (Node ty r, e).
Proof. intros R. cbn [nan_inplace]. rewrite R. reflexivity. Qed.

Lemma each_ok (g : tree (held A) -> tree (held A)) cs : (forall c x, In (c, x) cs -> nan_inplace f k x = (g x, None)) ->
  each cs = (map (fun kv => (fst kv, g (snd kv))) cs, None).
Proof.
  induction cs as [|[c x] cs IH]; intros H; [reflexivity|]. cbn [each]. rewrite (H c x (or_introl eq_refl)).
  rewrite IH by (intros d y Hy; apply (H d); now right). reflexivity.
Qed.

(** the result when nothing is refused *)
Definition written (l : held A) : held A := fst (leaf_nan_inplace f l).
Fixpoint after (v : tree (held A)) : tree (held A) :=
  match v with Leaf l => Leaf (written l) | Node ty cs => Node ty (map (fun kv => (fst kv, after (snd kv))) cs) end.

Lemma inplace_after (v : tree (held A)) : tree_ok (fun _ => True) v -> all_explicit k v -> (forall p l, leaf_at v p = Some l -> not_implicit l) ->
  nan_inplace f k v = (after v, None).
Proof.
  induction v as [l|ty cs IH] using tree_rect'; intros W E N.
  - cbn. specialize (N [] l eq_refl). destruct l; try contradiction; reflexivity.
  - inversion W as [|? ? Nc W']; subst. rewrite inplace_node by exact (E [] ty (map fst cs) eq_refl).
    rewrite (each_ok after); [reflexivity|]. intros c x Hc. assert (D := dget_NoDup cs c x Nc Hc). apply (IH c x Hc (W' c x Hc)).
    + intros p ty' ns K. apply (E (c :: p) ty' ns). cbn [kind]. now rewrite D.
    + intros p l L. apply (N (c :: p) l). cbn [leaf_at]. now rewrite D.
Qed.

Lemma after_spec (v : tree (held A)) : (forall p, kind (after v) p = kind v p) /\ forall p, leaf_at (after v) p = option_map written (leaf_at v p).
Proof.
  induction v as [l|ty cs IH] using tree_rect'; split; intros [|c p]; cbn [after kind leaf_at]; try reflexivity.
  - rewrite map_map. reflexivity.
  - rewrite dget_map. destruct (dget cs c) as [x|] eqn:D; [|reflexivity]. cbn [option_map]. apply (IH c x (dget_In _ _ _ D)).
  - rewrite dget_map. destruct (dget cs c) as [x|] eqn:D; [|reflexivity]. cbn [option_map]. apply (IH c x (dget_In _ _ _ D)).
Qed.

Theorem nan_inplace_spec (v : tree (held A)) : tree_ok (fun _ => True) v -> all_explicit k v -> (forall p l, leaf_at v p = Some l -> not_implicit l) ->
  exists r, nan_inplace f k v = (r, None) /\ (forall p, kind r p = kind v p) /\
    forall p, match leaf_at v p with
              | None => leaf_at r p = None
              | Some l => exists l', leaf_at r p = Some l' /\ (has_array l -> replaced f l l') /\ (~ has_array l -> l' = l)
              end.
Proof.
  intros W E N. exists (after v). split; [now apply inplace_after|]. destruct (after_spec v) as (K & L). split; [exact K|].
  intros p. rewrite L. specialize (N p). destruct (leaf_at v p) as [l|]; [|reflexivity]. specialize (N l eq_refl).
  exists (written l). split; [reflexivity|]. destruct l; cbn in *; try contradiction; (split; [intros []|]); try tauto.
  split; reflexivity.
Qed.

Lemma each_prefix (bs : list (string * sarr A)) c (a : sarr A) rest :
  each (map (fun kv => (fst kv, Leaf (HArr (snd kv)))) bs ++ (c, Leaf (HImplicit a)) :: rest) =
  (map (fun kv => (fst kv, Leaf (HArr (smap f (snd kv))))) bs ++ (c, Leaf (HImplicit a)) :: rest, Some ValueError).
Proof. induction bs as [|[d b] bs IH]; [reflexivity|]. cbn [map app each fst snd nan_inplace leaf_nan_inplace]. now rewrite IH. Qed.

Theorem nan_inplace_prefix ty (bs : list (string * sarr A)) c (a : sarr A) rest : refusal k ty = None ->
  nan_inplace f k (Node ty (map (fun kv => (fst kv, Leaf (HArr (snd kv)))) bs ++ (c, Leaf (HImplicit a)) :: rest)) =
  (Node ty (map (fun kv => (fst kv, Leaf (HArr (smap f (snd kv))))) bs ++ (c, Leaf (HImplicit a)) :: rest), Some ValueError).
Proof. intros R. rewrite inplace_node by exact R. now rewrite each_prefix. Qed.

Theorem nan_inplace_refused ty cs e : refusal k ty = Some e -> nan_inplace f k (Node ty cs) = (Node ty cs, Some e).
Proof. intros R. cbn [nan_inplace]. now rewrite R. Qed.
End Facts.
