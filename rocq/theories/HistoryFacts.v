(** Every array made by a program has one name for each of its dimensions. *)
From Coq Require Import String List Arith ZArith Bool QArith Qcanon Lia.
From Verif Require Import Base BaseFacts Numpy NumpyFacts Shapes Scalar Reorder Elementwise Reduce Along Sorting Derived History Spec SpecHistory
  AlignFacts ShapesFacts.
Import ListNotations.
Open Scope nat_scope.
Open Scope list_scope.

Lemma mk_wf {A} (n : nd A) axes r : mk_sarr n axes = Ok r -> wf r.
Proof. intros H. apply mk_sarr_ok in H as [_ W]. exact W. Qed.

Ltac inv H :=
  cbv zeta in H;
  match type of H with
  | bind ?x _ = Ok _ => let y := fresh "y" in let E := fresh "E" in destruct x as [y|] eqn:E; cbn [bind] in H; [inv H|discriminate H]
  | mk_sarr _ _ = Ok _ => apply mk_wf in H
  | Err _ = Ok _ => discriminate H
  | (match ?x with _ => _ end) = Ok _ => let E := fresh "E" in destruct x eqn:E; try discriminate H; inv H
  | _ => idtac
  end.

Ltac done H := inv H; try exact H; auto.

Section Ops.
Context {A : Type}.
Implicit Type a : sarr A.

Lemma getitem_wf a it r : wf a -> getitem a it = Ok r -> wf r.
Proof. intros W H. unfold getitem in H. done H. now injection H as <-. Qed.

Lemma getitem_mask_wf a m r : getitem_mask a m = Ok r -> wf r.
Proof. intros H. unfold getitem_mask in H. done H. Qed.

Lemma upd_shape l (view : list nat -> list nat) (v : list nat -> A) (b : nd A) :
  nshape (fold_left (fun b p => upd b (view p) (v p)) l b) = nshape b.
Proof. revert b. induction l as [|p l IH]; intros b; simpl; auto. rewrite IH. reflexivity. Qed.

Lemma assign_shape (b : nd A) view v (r : nd A) : assign b view v = Ok r -> nshape r = nshape b.
Proof.
  unfold assign. destruct (strip_leading _ _); [|discriminate]. destruct (bto_rev _ _); [|discriminate].
  intros H. injection H as <-. apply upd_shape.
Qed.

Lemma wf_shape {B C} (a : sarr B) (n : nd C) : wf a -> nshape n = nshape (s_nd a) -> wf (mkS n (s_axes a)).
Proof. intros (N & L) E. split; auto. cbn [s_nd s_axes]. now rewrite E. Qed.

Lemma setitem_wf a it v r : wf a -> setitem a it v = Ok r -> wf r.
Proof.
  intros W H. unfold setitem in H. done H; injection H as <-; apply wf_shape; auto; eapply assign_shape; eassumption.
Qed.

Lemma setitem_mask_wf a m v r : wf a -> setitem_mask a m v = Ok r -> wf r.
Proof. intros W H. unfold setitem_mask in H. done H; injection H as <-; apply wf_shape; auto; eapply assign_shape; eassumption. Qed.

Lemma array_ufunc_wf {B} (f : list B -> A) l r : array_ufunc f l = Ok r -> wf r.
Proof. intros H. unfold array_ufunc in H. done H. Qed.

Lemma idx_eqb_eq i j : idx_eqb i j = true -> i = j.
Proof. unfold idx_eqb. destruct (list_eq_dec Nat.eq_dec i j); congruence. Qed.

Lemma na_ufunc_wf {B} u (fs : list (list B -> A)) l w outs rs : (forall o, In (Some o) outs -> wf o) ->
  na_ufunc u fs l w outs = Ok rs -> Forall wf rs.
Proof.
  intros Wo H. unfold na_ufunc in H.
  match type of H with bind ?x _ = _ => destruct x as [sh|] eqn:E1; cbn [bind] in H; [|discriminate] end.
  match type of H with bind ?x _ = _ => destruct x as [m|] eqn:E2; cbn [bind] in H; [|discriminate] end.
  match type of H with bind ?x _ = _ => destruct x as [ins|] eqn:E3; cbn [bind] in H; [|discriminate] end.
  match type of H with bind ?x _ = _ => destruct x as [ns|] eqn:E4; cbn [bind] in H; [|discriminate] end.
  match type of H with bind ?x _ = _ => destruct x as [ss|] eqn:E5; cbn [bind] in H; [|discriminate] end.
  injection H as <-. unfold np_ufunc_out in E4. destruct (bshapes _) as [s|]; [|discriminate].
  destruct (forallb _ _) eqn:F; [|discriminate]. injection E4 as <-. rewrite forallb_forall in F.
  assert (Q : Forall (fun x => wf x /\ nshape (s_nd x) = s) ss).
  { assert (K : forall ns ss, (forall n : nd A, In n ns -> nshape n = s) -> mapM (fun r : nd A => mk_sarr r (dkeys sh)) ns = Ok ss ->
                Forall (fun x => wf x /\ nshape (s_nd x) = s) ss).
    { clear. intros l. induction l as [|n l IH]; intros ss K E; cbn [mapM] in E.
      - injection E as <-. constructor.
      - match type of E with bind ?x _ = _ => destruct x as [x0|] eqn:E1; cbn [bind] in E; [|discriminate] end.
        match type of E with bind ?x _ = _ => destruct x as [l0|] eqn:E2; cbn [bind] in E; [|discriminate] end.
        injection E as <-. constructor; [|apply IH; auto; intros; apply K; simpl; auto].
        apply mk_sarr_ok in E1 as [-> W]. split; auto. apply K. simpl; auto. }
    eapply K; [|exact E5]. intros n Hn. apply in_map_iff in Hn as (p & <- & _). reflexivity. }
  apply Forall_forall. intros x Hx. apply in_map_iff in Hx as ([y o] & <- & Hin). cbn [fst snd].
  pose proof (in_combine_l _ _ _ _ Hin) as H1. pose proof (in_combine_r _ _ _ _ Hin) as H2.
  rewrite Forall_forall in Q. destruct (Q y H1) as [Wy Sy]. destruct o as [o|]; auto.
  apply wf_shape; auto. rewrite Sy. symmetry. apply idx_eqb_eq. apply F. apply in_flat_map.
  exists (Some (s_nd o)). split; [|simpl; auto]. apply (in_map (option_map s_nd)) in H2. exact H2.
Qed.

Lemma na_reduce_wf {B} i (f : list B -> A) (a : sarr B) axis k w out r : (forall o, out = Some o -> wf o) ->
  na_reduce i f a axis k w out = Ok r -> wf r.
Proof.
  intros Wo H. unfold na_reduce in H.
  match type of H with bind ?x _ = _ => destruct x as [sh|] eqn:E1; cbn [bind] in H; [|discriminate] end. cbv zeta in H.
  destruct (match axis with Some _ => _ | None => false end); [discriminate|].
  match type of H with bind ?x _ = _ => destruct x as [axs|] eqn:E2; cbn [bind] in H; [|discriminate] end.
  match type of H with bind ?x _ = _ => destruct x as [m|] eqn:E3; cbn [bind] in H; [|discriminate] end.
  match type of H with bind ?x _ = _ => destruct x as [n|] eqn:E4; cbn [bind] in H; [|discriminate] end.
  match type of H with bind ?x _ = _ => destruct x as [q|] eqn:E5; cbn [bind] in H; [|discriminate] end.
  destruct out as [o|]; [|now apply mk_wf in H]. injection H as <-. apply wf_shape; auto.
  unfold np_reduce in E5. cbv zeta in E5. cbn [option_map] in E5.
  repeat match type of E5 with (if ?b then _ else _) = _ => destruct b eqn:?; [discriminate|] end.
  injection E5 as <-. cbn [nshape]. symmetry. apply idx_eqb_eq. now apply Bool.negb_false_iff.
Qed.

Lemma na_cumulative_wf {B} (scan : list B -> A) i (a : sarr B) axis out r : (forall o, out = Some o -> wf o) ->
  na_cumulative scan i a axis out = Ok r -> wf r.
Proof.
  intros Wo H. unfold na_cumulative in H.
  destruct (axis_normalized a axis) as [|ax [|]]; try discriminate.
  destruct (match axis with Some _ => _ | None => false end); [discriminate|]. cbv zeta in H.
  match type of H with bind ?x _ = _ => destruct x as [p|] eqn:E1; cbn [bind] in H; [|discriminate] end.
  destruct (negb (p <? _)); [discriminate|].
  match type of H with (if ?b then _ else _) = _ => destruct b eqn:F; [discriminate|] end.
  destruct out as [o|]; [|now apply mk_wf in H]. injection H as <-. apply wf_shape; auto.
  symmetry. apply idx_eqb_eq. now apply Bool.negb_false_iff.
Qed.

Lemma write_out_wf o axes (n : nd A) r : wf o -> write_out o axes n = Ok r -> wf r.
Proof. intros W H. unfold write_out in H. done H. injection H as <-. apply wf_shape; auto. eapply assign_shape; eassumption. Qed.

Lemma na_concatenate_wf (l : list (operand A)) axis out r : (forall o, out = Some o -> wf o) ->
  na_concatenate l axis out = Ok r -> wf r.
Proof. intros W H. unfold na_concatenate in H. done H. eapply write_out_wf; eauto. Qed.

Lemma na_stack_wf (l : list (operand A)) axis out r : (forall o, out = Some o -> wf o) -> na_stack l axis out = Ok r -> wf r.
Proof. intros W H. unfold na_stack in H. done H. eapply write_out_wf; eauto. Qed.

Lemma na_diff_wf sub n a axis p q r : na_diff sub n a axis p q = Ok r -> wf r.
Proof. intros H. unfold na_diff in H. done H. Qed.

Lemma na_repeat_wf a n axis r : na_repeat a n axis = Ok r -> wf r.
Proof. intros H. unfold na_repeat in H. done H. Qed.

Lemma na_take_wf (a : operand A) i axis r : na_take_along_axis a i axis = Ok r -> wf r.
Proof. intros H. unfold na_take_along_axis in H. done H. Qed.

Lemma na_sort_wf s a axis r : wf a -> na_sort s a axis = Ok r -> wf r.
Proof. intros W H. unfold na_sort in H. done H. now injection H as <-. Qed.

Lemma na_partition_wf s k a axis r : na_partition s k a axis = Ok r -> wf r.
Proof. intros H. unfold na_partition in H. done H. Qed.

Lemma na_transpose_wf a axes r : na_transpose a axes = Ok r -> wf r.
Proof. intros H. unfold na_transpose in H. done H. Qed.

Lemma na_moveaxis_wf a s d r : na_moveaxis a s d = Ok r -> wf r.
Proof. intros H. unfold na_moveaxis in H. done H. Qed.

Lemma na_reshape_wf a s r : na_reshape a s = Ok r -> wf r.
Proof. intros H. unfold na_reshape in H. done H. Qed.

Lemma add_axes_wf a s r : add_axes a s = Ok r -> wf r.
Proof. intros H. unfold add_axes in H. done H. Qed.

Lemma change_axis_index_wf a s i r : change_axis_index a s i = Ok r -> wf r.
Proof. intros H. unfold change_axis_index in H. done H. Qed.

Lemma combine_axes_wf a s i r : combine_axes a s i = Ok r -> wf r.
Proof. intros H. unfold combine_axes in H. done H. Qed.

Lemma na_broadcast_to_wf a s i r : na_broadcast_to a s i = Ok r -> wf r.
Proof. intros H. unfold na_broadcast_to in H. done H. Qed.

Lemma na_where_wf c (x y : operand A) r : na_where c x y = Ok r -> wf r.
Proof. intros H. unfold na_where in H. done H. Qed.

Lemma na_clip_wf mn mx (a : operand A) lo hi out r : na_clip mn mx a lo hi out = Ok r -> wf r.
Proof. intros H. unfold na_clip in H. done H. Qed.

Lemma na_copyto_wf d (s : operand A) w r : wf d -> na_copyto true d s w = Ok r -> wf r.
Proof.
  intros W H. unfold na_copyto in H. done H. injection H as <-. apply wf_shape; auto.
  unfold np_copyto in *. match goal with E : (if ?b then _ else _) = Ok _ |- _ => destruct b; [|discriminate]; injection E as <- end.
  reflexivity.
Qed.

Lemma na_debroadcast_wf eqb a axes r : wf a -> na_debroadcast eqb a axes = Ok r -> wf r.
Proof. intros W H. unfold na_debroadcast in H. done H. eapply getitem_wf; eauto. Qed.

Lemma na_mean_trimmed_wf p m a q axis k r : wf a -> na_mean_trimmed p m a q axis k = Ok r -> wf r.
Proof.
  intros W H. unfold na_mean_trimmed in H. inv H; [now injection H as <-|..].
  all: eapply na_reduce_wf; [|exact H]; discriminate.
Qed.

Lemma nlerp_wf (add mul sub : A -> A -> A) zero one i : forall a r, wf a -> nlerp add mul sub zero one i a = Ok r -> wf r.
Proof.
  induction i as [|[ax w] i IH]; intros a r W H; cbn [nlerp] in H; [now injection H as <-|].
  inv H. unfold lerp in H. inv H; eapply array_ufunc_wf; eassumption.
Qed.

Lemma na_cell_centers_wf (add mul sub : A -> A -> A) zero one half a axis r : wf a ->
  na_cell_centers add mul sub zero one half a axis None = Ok r -> wf r.
Proof. intros W H. unfold na_cell_centers in H. eapply nlerp_wf; eauto. Qed.

End Ops.

(** ** Dictionaries of arrays *)

Lemma dset_vals {B} (P : B -> Prop) (d : dict B) k v : Forall (fun kv => P (snd kv)) d -> P v -> Forall (fun kv => P (snd kv)) (dset d k v).
Proof.
  intros F Hv. induction F as [|[x y] d H F IH]; simpl; [repeat constructor; auto|].
  destruct (String.eqb k x); constructor; auto.
Qed.

Lemma unravel_wf i sh d : na_unravel_index i sh = Ok d -> Forall (fun kv => wf (snd kv)) d.
Proof.
  unfold na_unravel_index. intros H. destruct (np_unravel_index _ _) as [l|]; cbn [bind] in H; [|discriminate].
  assert (Q : forall l d0 d, Forall (fun kv => wf (snd kv)) d0 ->
     foldM (fun (d : dict (sarr Z)) p => a <- mk_sarr (snd p) (s_axes i) ;; Ok (dset d (fst p) a)) l d0 = Ok d -> Forall (fun kv => wf (snd kv)) d).
  { clear. intros l. induction l as [|p l IH]; intros d0 d F H; cbn [foldM] in H; [now injection H as <-|].
    destruct (mk_sarr (snd p) (s_axes i)) as [a|] eqn:E; cbn [bind] in H; [|discriminate].
    eapply IH; [|exact H]. apply dset_vals; auto. eapply mk_wf; eauto. }
  eapply Q; [|exact H]. constructor.
Qed.

Lemma arange_wf ax n : wf (arange ax n).
Proof. split; [repeat constructor; simpl; tauto|reflexivity]. Qed.

Lemma add_ranges_wf sh axis d : Forall (fun kv => wf (snd kv)) d -> Forall (fun kv => wf (snd kv)) (add_ranges sh axis d).
Proof.
  unfold add_ranges. revert d. induction sh as [|[ax n] sh IH]; intros d F; simpl; auto. apply IH.
  destruct (smem ax axis); auto. apply dset_vals; auto. apply arange_wf.
Qed.

Lemma argsort_wf {A} (f : list A -> list nat) a axis d : na_argsort f a axis = Ok d -> Forall (fun kv => wf (snd kv)) d.
Proof.
  intros H. unfold na_argsort in H. destruct (match axis with None => _ | Some _ => _ end); [injection H as <-; constructor|].
  inv H; injection H as <-; apply add_ranges_wf; eapply unravel_wf; eassumption.
Qed.

Lemma arg_reduce_wf {A} (f : list A -> nat) a axis d : na_arg_reduce f a axis = Ok d -> Forall (fun kv => wf (snd kv)) d.
Proof.
  intros H. unfold na_arg_reduce in H. inv H; try (injection H as <-; apply add_ranges_wf; eapply unravel_wf; eassumption).
  eapply unravel_wf; eassumption.
Qed.

(** ** Steps *)

Section Steps.
Context {V : Type} (truth : V -> bool) (int : V -> Z) (count : V -> nat) (of_int : Z -> V).
Notation heap := (list (sarr V)).

Lemma set_nth_Forall {X} (P : X -> Prop) k x (l : list X) : Forall P l -> P x -> Forall P (set_nth k x l).
Proof. intros F H. revert k. induction F; intros [|k]; simpl; auto. Qed.

Lemma snoc_Forall {X} (P : X -> Prop) x (l : list X) : Forall P l -> P x -> Forall P (l ++ [x]).
Proof. intros F H. apply Forall_app. auto. Qed.

Lemma fetch_wf (h : heap) k a : Forall wf h -> fetch h k = Ok a -> wf a.
Proof.
  unfold fetch. intros F H. destruct (nth_error h k) eqn:E; [|discriminate]. injection H as <-.
  apply nth_error_In in E. rewrite Forall_forall in F. auto.
Qed.

Lemma put_wf (h : heap) out r : Forall wf h -> wf r -> Forall wf (put h out r).
Proof. intros F W. destruct out; cbn [put]; [now apply set_nth_Forall|now apply snoc_Forall]. Qed.

Lemma put_all_wf (h : heap) outs rs : Forall wf h -> Forall wf rs -> Forall wf (put_all h outs rs).
Proof.
  unfold put_all. revert h outs. induction rs as [|r rs IH]; intros h outs F W; destruct outs; cbn [combine fold_left]; auto.
  inversion W; subst. apply IH; auto. now apply put_wf.
Qed.

Lemma smap_wf {X Y} (f : X -> Y) (a : sarr X) : wf a -> wf (smap f a).
Proof. intros (N & L). split; auto. Qed.

Lemma put_ints_wf (h : heap) d : Forall wf h -> Forall (fun kv => wf (snd kv)) d -> Forall wf (put_ints of_int h d).
Proof. intros F W. apply Forall_app. split; auto. apply Forall_map. eapply Forall_impl; [|exact W]. intros kv. apply smap_wf. Qed.

Lemma fetch_out_wf (h : heap) out o : Forall wf h -> fetch_opt (fetch h) out = Ok o -> forall x, o = Some x -> wf x.
Proof.
  intros F H x ->. destruct out as [k|]; cbn [fetch_opt] in H; [|discriminate].
  destruct (fetch h k) as [a|] eqn:E; cbn [bind] in H; [|discriminate]. injection H as <-. eapply fetch_wf; eauto.
Qed.

Lemma fetch_outs_wf (h : heap) outs os : Forall wf h -> mapM (fetch_opt (fetch h)) outs = Ok os -> forall x, In (Some x) os -> wf x.
Proof.
  intros F. revert os. induction outs as [|o outs IH]; intros os H x Hx; cbn [mapM] in H.
  - injection H as <-. destruct Hx.
  - destruct (fetch_opt (fetch h) o) as [y|] eqn:E; cbn [bind] in H; [|discriminate].
    destruct (mapM _ outs) as [l|]; cbn [bind] in H; [|discriminate]. injection H as <-. destruct Hx as [->|Hx]; eauto.
    eapply fetch_out_wf; eauto.
Qed.

Ltac go H := match type of H with
  | bind ?x _ = Ok _ => let y := fresh "y" in let E := fresh "E" in destruct x as [y|] eqn:E; cbn [bind] in H; [go H|discriminate H]
  | Ok _ = Ok _ => injection H as <-
  end.

Theorem step_wf h c h' : Forall wf h ->
  match c with
  | FromScalar (inr n) => nshape n = []
  | ReduceNumber _ _ _ _ _ _ _ => False
  | CopyTo accepted _ _ _ => accepted = true
  | _ => True
  end -> step truth int count of_int h c = Ok h' -> Forall wf h'.
Proof.
  intros F C H. destruct c; cbn [step] in H; try contradiction; try (destruct a as [k|n]); subst;
    try (match type of H with bind _ _ = Ok _ => idtac end); go H;
    try (apply snoc_Forall; auto); try (apply set_nth_Forall; auto); try (apply put_wf; auto);
    try (apply put_ints_wf; auto); try (apply put_all_wf; auto);
    repeat match goal with E : fetch _ _ = Ok ?a |- _ => lazymatch goal with W : wf a |- _ => fail | _ => pose proof (fetch_wf _ _ _ F E) end end;
        first [ simple eapply mk_wf; eassumption | simple eapply getitem_wf; eassumption | simple eapply getitem_mask_wf; eassumption | simple eapply
      setitem_wf; eassumption | simple eapply setitem_mask_wf; eassumption | simple eapply na_diff_wf; eassumption | simple eapply na_repeat_wf;
      eassumption | simple eapply na_take_wf; eassumption | simple eapply na_sort_wf; eassumption | simple eapply na_partition_wf; eassumption |
      simple eapply argsort_wf; eassumption | simple eapply arg_reduce_wf; eassumption | simple eapply na_transpose_wf; eassumption | simple eapply
      na_moveaxis_wf; eassumption | simple eapply na_reshape_wf; eassumption | simple eapply add_axes_wf; eassumption | simple eapply
      change_axis_index_wf; eassumption | simple eapply combine_axes_wf; eassumption | simple eapply na_broadcast_to_wf; eassumption | simple eapply
      na_where_wf; eassumption | simple eapply na_clip_wf; eassumption | simple eapply na_copyto_wf; eassumption | simple eapply unravel_wf;
      eassumption | simple eapply na_debroadcast_wf; eassumption | simple eapply na_mean_trimmed_wf; eassumption | simple eapply na_cell_centers_wf;
      eassumption
        | simple eapply na_reduce_wf; [simple eapply fetch_out_wf; eassumption|eassumption] | simple eapply na_cumulative_wf; [simple eapply
      fetch_out_wf; eassumption|eassumption] | simple eapply na_concatenate_wf; [simple eapply fetch_out_wf; eassumption|eassumption] | simple eapply
      na_stack_wf; [simple eapply fetch_out_wf; eassumption|eassumption]
    | simple eapply na_ufunc_wf; [simple eapply fetch_outs_wf; eassumption|eassumption]
    | idtac ].
  - destruct y; assumption.
  - split; cbn [s_axes s_nd]; [constructor|]. now rewrite C.
  - now apply wf_shape.
Qed.

Theorem run_wf cs : forall h, Forall wf h -> Forall checked cs -> Forall wf (run truth int count of_int cs h).
Proof.
  induction cs as [|c cs IH]; intros h F C; cbn [run fold_left]; auto. inversion C; subst.
  apply IH; auto. unfold after. destruct (step truth int count of_int h c) as [h'|] eqn:E; auto. eapply step_wf; eauto.
Qed.

End Steps.

(** ** The calls without a check *)

Lemma mk_sarr_iff {A} (n : nd A) axes : (exists a, mk_sarr n axes = Ok a) <-> NoDup axes /\ length axes = length (nshape n).
Proof.
  split.
  - intros [a E]. apply mk_sarr_ok in E as [-> W]. exact W.
  - intros [N L]. eexists. now apply mk_sarr_intro.
Qed.

Lemma mk_sarr_or_err {A} (n : nd A) axes : ~ (NoDup axes /\ length axes = length (nshape n)) -> mk_sarr n axes = Err ValueError.
Proof.
  intros H. destruct (mk_sarr n axes) as [a|e] eqn:E; [|apply mk_sarr_err in E; now subst].
  exfalso. apply H, mk_sarr_iff. eauto.
Qed.

Lemma copyto_refused {A} (d : sarr A) s w r : wf d -> na_copyto false d s w = Ok r ->
  exists a, s = OpArr a /\ r = mkS (s_nd a) (s_axes d) /\ (wf r <-> length (s_axes d) = length (nshape (s_nd a))).
Proof.
  intros [N L] H. unfold na_copyto in H. destruct (op_aligned _ s) eqn:E1; cbn [bind] in H; [|discriminate].
  destruct (op_aligned _ w) eqn:E2; cbn [bind] in H; [|discriminate]. destruct s as [b|]; [|discriminate]. injection H as <-.
  exists b. split; auto. split; auto. split; [intros [_ K]; exact K|intros K; split; auto].
Qed.

Lemma pick_none {A} flags (l : list A) : length flags = length l -> (length (pick false flags l) = 0 <-> forall f, In f flags -> f = true).
Proof.
  revert l. induction flags as [|f flags IH]; intros [|x l] L; simpl in L; try discriminate; simpl.
  - split; auto; intros _ f [].
  - injection L as L. destruct f; cbn [Bool.eqb].
    + rewrite IH by auto. split; [intros H f [<- |Hf]; auto|intros H f Hf; apply H; auto].
    + simpl. split; [discriminate|]. intros H. specialize (H false (or_introl eq_refl)). discriminate.
Qed.

(** a reduction into a number: the result has the right number of names only if all
    axes are reduced *)
Lemma reduce_number_wf {A B} i (f : list A -> B) (a : sarr A) axis w (o : sarr B) sh r :
  wf a -> (forall x, w = Some x -> op_wf x) -> s_axes o = [] -> na_reduce_number i f a axis false w o = Ok r ->
  broadcast_shapes (sshape a :: match w with Some w => op_shapes [w] | None => [] end) = Ok sh ->
  (wf r <-> incl (dkeys sh) match axis with Some l => l | None => s_axes a end).
Proof.
  intros W Ww O H E. unfold na_reduce_number in H. rewrite E in H. cbn [bind] in H. cbv zeta in H. rewrite O in H. cbn [app] in H.
  assert (FA : filter (fun ax => negb (smem ax [])) (dkeys sh) = dkeys sh) by (apply filter_all; reflexivity). rewrite FA in H.
  fold (axis_normalized a axis) in *.
  destruct (match axis with Some _ => _ | None => false end); [discriminate|].
  destruct (mapM _ (axis_normalized a axis)) as [axs|] eqn:E2; cbn [bind] in H; [|discriminate].
  match type of H with bind ?x _ = _ => destruct x as [m|] eqn:E3; cbn [bind] in H; [|discriminate] end.
  destruct (ndarray_aligned a (dkeys sh)) as [n|] eqn:E4; cbn [bind] in H; [|discriminate].
  destruct (np_reduce _ _ _ _ _ _ _) as [q|] eqn:E5; cbn [bind] in H; [|discriminate]. injection H as <-.
  assert (Eax : axs = map (fun ax => spos ax (dkeys sh)) (axis_normalized a axis) /\ incl (axis_normalized a axis) (dkeys sh)).
  { destruct (incl_sdec (axis_normalized a axis) (dkeys sh)) as [I|I].
    - pose proof (mapM_index_of _ _ I) as Q. cbv beta in Q. rewrite Q in E2. injection E2 as <-. auto.
    - destruct (mapM_index_of_err _ _ I) as (x & Q & _). rewrite Q in E2. discriminate. }
  destruct Eax as [-> I].
  assert (Nd : NoDup (dkeys sh)).
  { eapply broadcast_shapes_ok; [|exact E]. constructor; [now apply wf_nodup|].
    destruct w as [w|]; [|constructor]. apply op_shapes_nodup. repeat constructor. now apply Ww. }
  assert (Ln : length (nshape n) = length (dkeys sh)).
  { destruct (align_ok a (dkeys sh) n W Nd E4) as (_ & -> & _). apply map_length. }
  assert (Sq : nshape q = pick false (map (fun p => nmem p (map (fun ax => spos ax (dkeys sh)) (axis_normalized a axis))) (seq 0 (ndim n))) (nshape n)).
  { unfold np_reduce in E5. cbv zeta in E5.
    repeat match type of E5 with (if ?b then _ else _) = _ => destruct b eqn:?; [discriminate|] end.
    injection E5 as <-. reflexivity. }
  unfold wf. cbn [s_axes s_nd]. rewrite Sq. cbn [length].
  assert (Lf : length (map (fun p => nmem p (map (fun ax => spos ax (dkeys sh)) (axis_normalized a axis))) (seq 0 (ndim n))) = length (nshape n))
    by (rewrite map_length, seq_length; reflexivity).
  split.
  - intros [_ K]. symmetry in K. rewrite (pick_none _ _ Lf) in K. intros ax Hax.
    assert (K' : nmem (spos ax (dkeys sh)) (map (fun ax => spos ax (dkeys sh)) (axis_normalized a axis)) = true).
    { apply K. apply in_map_iff. exists (spos ax (dkeys sh)). split; auto. apply in_seq. split; [lia|]. cbn [plus].
      unfold ndim. rewrite Ln. now apply spos_lt. }
    apply nmem_In, in_map_iff in K' as (bx & Eb & Hb). replace ax with bx; auto.
    apply (spos_inj bx ax (dkeys sh)); auto.
  - intros K. split; [constructor|]. symmetry. apply (pick_none _ _ Lf). intros fl Hf. apply in_map_iff in Hf as (p & <- & Hp).
    apply in_seq in Hp. apply nmem_In, in_map_iff. exists (nth p (dkeys sh) EmptyString). unfold ndim in Hp. rewrite Ln in Hp. split.
    + apply spos_nth; auto. lia.
    + apply K, nth_In. lia.
Qed.
