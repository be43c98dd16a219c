(** C99: whether a call succeeds and the shape of the result depend on shapes only. *)
From Verif Require Import ActionMapFacts Sequential Properties_EntryMaps EquivSpec.
Local Open Scope string_scope.
Local Open Scope list_scope.

(** Both calls return tensors of the same shape, or both raise the same exception. *)
Definition same_kind {A B} (r : result (tensor A)) (r' : result (tensor B)) : Prop :=
  match r, r' with
  | Ok y, Ok y' => shape y = shape y'
  | Err e, Err e' => e = e'
  | _, _ => False
  end.

(** Tensors without numbers. *)
#[local] Instance Arith_unit : Arith unit := {| arith_zero := tt; add := fun _ _ => tt; mul := fun _ _ => tt |}.
#[local] Instance Pool_unit : Pool unit := {| pool_max := fun _ => tt; pool_mean := fun _ => tt |}.
Definition blank {A} (x : tensor A) : tensor unit := tmap (fun _ => tt) x.

Lemma blank_eq {A B} (x : tensor A) (x' : tensor B) : wf x -> wf x' -> shape x = shape x' -> blank x = blank x'.
Proof.
  intros W W' S. unfold blank, tmap. rewrite S. f_equal. unfold wf in W, W'.
  assert (E : List.length (data x) = List.length (data x')) by congruence. clear W W' S. revert E.
  generalize (data x) as l, (data x') as l'. induction l as [|v l IH]; intros [|v' l'] E; cbn in *; [reflexivity|discriminate E|discriminate E|].
  f_equal. apply IH. congruence.
Qed.

Lemma blank_kind {A B} (r : result (tensor A)) (r' : result (tensor B)) : rmap blank r = rmap blank r' -> same_kind r r'.
Proof.
  destruct r as [y|e], r' as [y'|e']; cbn [rmap same_kind]; intros E; [|discriminate E|discriminate E|congruence].
  assert (Q : blank y = blank y') by congruence. exact (f_equal shape Q).
Qed.

Lemma blank_respects {A} {RA : Arith A} : respects_arithmetic (RA := RA) (RB := Arith_unit) (fun _ => tt).
Proof. split; [reflexivity|split; intros; reflexivity]. Qed.

Lemma no_number (u v : unit) : u = v.
Proof. destruct u, v. reflexivity. Qed.

Section Outcomes.
Context {A B : Type} {RA : Arith A} {RB : Arith B}.

(** Convolutions and transposed convolutions with the same arguments, called on tensors of
    the same shape: neither the numbers, nor their type, nor the weights or the activation
    matter. *)
Theorem C99_convolutions (f : B -> B) d transpose (a : conv_args A) input kinit binit kinit' binit' x x' :
  wf x -> wf x' -> shape x = shape x' ->
  same_kind (run_conv d transpose a input kinit binit x) (run_conv d transpose (with_activation f a) input kinit' binit' x').
Proof.
  intros W W' S. apply blank_kind.
  pose proof (C91_convolutions (fun _ : A => tt) (fun u => u) d transpose a input kinit binit x blank_respects (fun _ => eq_refl)) as E.
  pose proof (C91_convolutions (fun _ : B => tt) (fun u => u) d transpose (with_activation f a) input kinit' binit' x' blank_respects (fun _ => eq_refl)) as E'.
  refine (eq_trans (eq_sym E) (eq_trans _ E')).
  assert (Q : tmap (fun _ : A => tt) x = tmap (fun _ : B => tt) x') by exact (blank_eq x x' W W' S). rewrite Q. reflexivity.
Qed.

Context {PA : Pool A} {PB : Pool B}.

(** The same for pooling, global pooling and [Group.action]. *)
Theorem C99_pooling d type a input (x : tensor A) (x' : tensor B) :
  wf x -> wf x' -> shape x = shape x' -> same_kind (run_pool d type a input x) (run_pool d type a input x').
Proof.
  intros W W' S. apply blank_kind.
  pose proof (C91_pooling (PA := PA) (PB := Pool_unit) (fun _ : A => tt) d type a input x eq_refl (fun _ => no_number _ _)) as E.
  pose proof (C91_pooling (PA := PB) (PB := Pool_unit) (fun _ : B => tt) d type a input x' eq_refl (fun _ => no_number _ _)) as E'.
  refine (eq_trans (eq_sym E) (eq_trans _ E')).
  assert (Q : tmap (fun _ : A => tt) x = tmap (fun _ : B => tt) x') by exact (blank_eq x x' W W' S). rewrite Q. reflexivity.
Qed.

Theorem C99_global_pooling d type format keepdims input (x : tensor A) (x' : tensor B) :
  wf x -> wf x' -> shape x = shape x' -> same_kind (run_global d type format keepdims input x) (run_global d type format keepdims input x').
Proof.
  intros W W' S. apply blank_kind.
  pose proof (C91_global_pooling (PA := PA) (PB := Pool_unit) (fun _ : A => tt) d type format keepdims input x eq_refl (fun _ => no_number _ _)) as E.
  pose proof (C91_global_pooling (PA := PB) (PB := Pool_unit) (fun _ : B => tt) d type format keepdims input x' eq_refl (fun _ => no_number _ _)) as E'.
  refine (eq_trans (eq_sym E) (eq_trans _ E')).
  assert (Q : tmap (fun _ : A => tt) x = tmap (fun _ : B => tt) x') by exact (blank_eq x x' W W' S). rewrite Q. reflexivity.
Qed.

Theorem C99_action name G (x : tensor A) (x' : tensor B) axes new_axis group_axis acting domain :
  dict_get group_dict name = Ok G -> wf x -> wf x' -> shape x = shape x' ->
  same_kind (action G x axes new_axis group_axis acting domain) (action G x' axes new_axis group_axis acting domain).
Proof.
  intros D W W' S. apply blank_kind.
  pose proof (C91_action (fun _ : A => tt) name G x axes new_axis group_axis acting domain D eq_refl) as E.
  pose proof (C91_action (fun _ : B => tt) name G x' axes new_axis group_axis acting domain D eq_refl) as E'.
  refine (eq_trans (eq_sym E) (eq_trans _ E')).
  assert (Q : tmap (fun _ : A => tt) x = tmap (fun _ : B => tt) x') by exact (blank_eq x x' W W' S). rewrite Q. reflexivity.
Qed.
End Outcomes.

Section Models.
Context {A : Type} {RA : Arith A} {PA : Pool A}.

(** One layer, whatever its arguments and weights. *)
Lemma layer_call_blank (l : model_layer A) x x' : blank x = blank x' -> rmap blank (layer_call l x) = rmap blank (layer_call l x').
Proof.
  intros Q. unfold blank in *. destruct l as [L|L]; cbn [layer_call].
  - pose proof (tmap_conv_apply (fun _ : A => tt) eq_refl (fun _ _ => eq_refl) (fun _ _ => eq_refl) (fun u => u) L x (fun _ => eq_refl)) as E.
    pose proof (tmap_conv_apply (fun _ : A => tt) eq_refl (fun _ _ => eq_refl) (fun _ _ => eq_refl) (fun u => u) L x' (fun _ => eq_refl)) as E'.
    rewrite Q in E. rewrite E in E'. exact (f_equal snd E').
  - assert (T : forall t, pool_call L (tmap (fun _ : A => tt) t) = rmap (tmap (fun _ => tt)) (pool_call L t)).
    { intros t. unfold pool_call. rewrite (tmap_subgroup_pooling (fun _ : A => tt) eq_refl (pool_fun (po_type L))) by (intros; apply no_number).
      rewrite bind_rmap, rmap_bind. apply bind_ext. intros u. rewrite (tmap_merge_group (fun _ : A => tt) eq_refl), bind_rmap, rmap_bind. apply bind_ext. intros v.
      rewrite (tmap_pool_op (RB := Arith_unit) (fun _ : A => tt) eq_refl (pool_fun (po_type L))) by (intros; apply no_number). rewrite bind_rmap, rmap_bind.
      apply bind_ext. intros w. apply (tmap_restore_group (fun _ : A => tt) eq_refl). }
    rewrite <- !T, Q. reflexivity.
Qed.

(** A model, and layers that are called one after the other and built when they are called. *)
Theorem C99_models (ls : list (model_layer A)) x x' :
  wf x -> wf x' -> shape x = shape x' -> same_kind (model_call ls x) (model_call ls x').
Proof.
  intros W W' S. apply blank_kind. pose proof (blank_eq x x' W W' S) as Q. clear W W' S. revert x x' Q.
  induction ls as [|l ls IH]; intros x x' Q; cbn [model_call]; [cbn [rmap]; f_equal; exact Q|].
  pose proof (layer_call_blank l x x' Q) as E.
  destruct (layer_call l x) as [y|e], (layer_call l x') as [y'|e']; cbn [rmap bind] in *; [|discriminate E|discriminate E|exact E].
  apply IH. congruence.
Qed.

Theorem C99_layers_called_one_after_the_other d specs (x x' : tensor A) :
  wf x -> wf x' -> shape x = shape x' -> same_kind (call_layers d specs x) (call_layers d specs x').
Proof.
  intros W W' S. apply blank_kind. pose proof (blank_eq x x' W W' S) as Q. clear W W' S. revert x x' Q.
  induction specs as [|p specs IH]; intros x x' Q; cbn [call_layers]; [cbn [rmap]; f_equal; exact Q|].
  assert (S : shape x = shape x') by exact (f_equal shape Q). rewrite S.
  destruct (layer_built d p (map Some (shape x'))) as [l|e]; cbn [bind rmap]; [|reflexivity].
  pose proof (layer_call_blank l x x' Q) as E.
  destruct (layer_call l x) as [y|e], (layer_call l x') as [y'|e']; cbn [rmap bind] in *; [|discriminate E|discriminate E|exact E].
  apply IH. congruence.
Qed.

End Models.
Print Assumptions C99_convolutions.
Print Assumptions C99_pooling.
Print Assumptions C99_global_pooling.
Print Assumptions C99_action.
Print Assumptions C99_models.
Print Assumptions C99_layers_called_one_after_the_other.

(** A convolution on two images of the same size, with different weights: both calls return
    tensors of one shape.  On images with another number of channels both raise ValueError;
    rectangular images cannot be rotated. *)
Example C99_case :
  let input := [None; Some 4; Some 4; Some 1] in
  let call := run_conv 2 false without_activation input in
  let other := tab [1; 4; 4; 1] (fun _ => 7%Z) in
  match call some_weights some_weights (some_signal [1; 4; 4; 1]), call (fun _ => 0%Z) (fun _ => 1%Z) other with
  | Ok y, Ok y' => same_tensor y y' = false /\ shape y = [1; 4; 4; 4; 1] /\ shape y' = [1; 4; 4; 4; 1]
  | _, _ => False
  end /\
  call some_weights some_weights (some_signal [1; 4; 4; 2]) = Err ValueError /\
  call (fun _ => 0%Z) (fun _ => 1%Z) (tab [1; 4; 4; 2] (fun _ => 7%Z)) = Err ValueError /\
  is_ok (transforms_of_grid_signal P4 2 "P4" (some_signal [1; 4; 4; 1])) = true /\
  is_ok (transforms_of_grid_signal P4 2 "P4" (some_signal [1; 3; 4; 1])) = false.
Proof. vm_compute. repeat split; reflexivity. Qed.
