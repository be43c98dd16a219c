(** C91: the layers and the group action do not depend on the kind of numbers in a tensor. *)
From Verif Require Import ActionMapFacts PoolSpec EquivSpec.
Local Open Scope string_scope.
Local Open Scope list_scope.

(** A map between two kinds of numbers that respects zero, sums and products. *)
Definition respects_arithmetic {A B} {RA : Arith A} {RB : Arith B} (phi : A -> B) : Prop :=
  phi zero = zero /\ (forall a b, phi (add a b) = add (phi a) (phi b)) /\ (forall a b, phi (mul a b) = mul (phi a) (phi b)).

(** The same arguments, with another activation. *)
Definition with_activation {A B} (f : B -> B) (a : conv_args A) : conv_args B :=
  mkConvArgs (ca_group a) (ca_subgroup a) (ca_kernel_size a) (ca_filters a) (ca_strides a) (ca_padding a) (ca_dilation a)
             (ca_data_format a) (ca_allow a) (ca_use_bias a) f.

(** Construct a layer, build it and call it. *)
Definition run_conv {A} {RA : Arith A} (d : nat) (transpose : bool) (a : conv_args A) (input : sshape) (kinit binit : list nat -> A)
  (x : tensor A) : result (tensor A) :=
  L <- conv_init d transpose a ;; L <- conv_build L input kinit binit ;; apply L x.
Definition run_pool {A} {RA : Arith A} {PA : Pool A} (d : nat) (type : string) (a : pool_args) (input : sshape) (x : tensor A) : result (tensor A) :=
  L <- pool_init d type a ;; L <- pool_build L input ;; pool_call L x.
Definition run_global {A} {RA : Arith A} {PA : Pool A} (d : nat) (type : string) (format : option string) (keepdims : bool) (input : sshape)
  (x : tensor A) : result (tensor A) :=
  L <- global_init d type format keepdims ;; L <- global_build L input ;; global_call L x.

Section Maps.
Context {A B : Type} {RA : Arith A} {RB : Arith B}.

(** Convolutions, with any arguments: mapped weights and a mapped signal give the mapped
    output, and the same exception if there is one. *)
Theorem C91_convolutions (phi : A -> B) (f : B -> B) d transpose (a : conv_args A) input kinit binit x :
  respects_arithmetic phi -> (forall v, f (phi v) = phi (ca_activation a v)) ->
  run_conv d transpose (with_activation f a) input (fun j => phi (kinit j)) (fun j => phi (binit j)) (tmap phi x)
  = rmap (tmap phi) (run_conv d transpose a input kinit binit x).
Proof.
  intros [P0 [PP PM]] H. unfold run_conv.
  assert (IN : conv_init d transpose (with_activation f a) = rmap (map_layer phi f) (conv_init d transpose a)).
  { unfold conv_init. cbn [with_activation ca_group ca_subgroup ca_kernel_size ca_filters ca_strides ca_padding ca_dilation ca_data_format ca_allow ca_use_bias ca_activation].
    repeat (rewrite rmap_bind; apply bind_ext; intros ?). rewrite !rmap_guard. reflexivity. }
  assert (AC : forall L, conv_init d transpose a = Ok L -> cl_activation L = ca_activation a).
  { intros L. unfold conv_init.
    repeat match goal with |- bind ?r _ = _ -> _ => destruct r; [cbn [bind]|intros E; discriminate E]
                         | |- (if ?b then _ else _) = _ -> _ => destruct b; [|intros E; discriminate E] end.
    intros E. assert (EO : forall u v : conv_layer A, Ok u = Ok v -> u = v) by congruence. apply EO in E. subst L. reflexivity. }
  rewrite IN, bind_rmap, rmap_bind. destruct (conv_init d transpose a) as [L|e] eqn:EI; [|reflexivity]. cbn [bind].
  specialize (AC L eq_refl). rewrite (tmap_conv_build phi P0), bind_rmap, rmap_bind.
  assert (AB : forall L', conv_build L input kinit binit = Ok L' -> cl_activation L' = cl_activation L).
  { intros L'. unfold conv_build.
    repeat match goal with |- bind ?r _ = _ -> _ => destruct r; [cbn [bind]|intros E; discriminate E] end.
    intros E. assert (EO : forall u v : conv_layer A, Ok u = Ok v -> u = v) by congruence. apply EO in E. subst L'. reflexivity. }
  destruct (conv_build L input kinit binit) as [L'|e] eqn:EB; [|reflexivity]. cbn [bind]. specialize (AB L' eq_refl).
  unfold apply. rewrite (tmap_conv_apply phi P0 PP PM f) by (intros v; rewrite AB, AC; apply H). reflexivity.
Qed.

(** Pooling, with any arguments: the map has to respect the maximum or the mean. *)
Theorem C91_pooling {PA : Pool A} {PB : Pool B} (phi : A -> B) d type a input x :
  phi zero = zero -> (forall l, @pool_fun B PB type (map phi l) = phi (@pool_fun A PA type l)) ->
  run_pool d type a input (tmap phi x) = rmap (tmap phi) (run_pool d type a input x).
Proof.
  intros P0 H. unfold run_pool.
  assert (TY : forall L, pool_init d type a = Ok L -> po_type L = type).
  { intros L. unfold pool_init.
    repeat match goal with |- bind ?r _ = _ -> _ => destruct r; [cbn [bind]|intros E; discriminate E] end.
    intros E. assert (EO : forall u v : pool_layer, Ok u = Ok v -> u = v) by congruence. apply EO in E. subst L. reflexivity. }
  destruct (pool_init d type a) as [L|e] eqn:EI; [|reflexivity]. cbn [bind]. specialize (TY L eq_refl).
  assert (TB : forall L', pool_build L input = Ok L' -> po_type L' = type).
  { intros L'. unfold pool_build.
    repeat match goal with |- bind ?r _ = _ -> _ => destruct r; [cbn [bind]|intros E; discriminate E] end.
    intros E. assert (EO : forall u v : pool_layer, Ok u = Ok v -> u = v) by congruence. apply EO in E. subst L'. exact TY. }
  destruct (pool_build L input) as [L'|e]; [|reflexivity]. cbn [bind]. specialize (TB L' eq_refl).
  unfold pool_call. rewrite TB. rewrite (tmap_subgroup_pooling phi P0 (pool_fun type)) by exact H.
  rewrite bind_rmap, rmap_bind. apply bind_ext. intros u. rewrite (tmap_merge_group phi P0), bind_rmap, rmap_bind. apply bind_ext. intros v.
  rewrite (tmap_pool_op phi P0 (pool_fun type)) by exact H. rewrite bind_rmap, rmap_bind. apply bind_ext. intros w. apply (tmap_restore_group phi P0).
Qed.

Theorem C91_global_pooling {PA : Pool A} {PB : Pool B} (phi : A -> B) d type format keepdims input x :
  phi zero = zero -> (forall l, @pool_fun B PB type (map phi l) = phi (@pool_fun A PA type l)) ->
  run_global d type format keepdims input (tmap phi x) = rmap (tmap phi) (run_global d type format keepdims input x).
Proof.
  intros P0 H. unfold run_global. rewrite rmap_bind.
  assert (TY : forall L, global_init d type format keepdims = Ok L -> gp_type L = type).
  { intros L. unfold global_init. destruct (match format with Some f => standardize_format f | None => _ end); [|intros E; discriminate E].
    cbn [bind]. intros E. assert (EO : forall u v : global_pool_layer, Ok u = Ok v -> u = v) by congruence. apply EO in E. subst L. reflexivity. }
  destruct (global_init d type format keepdims) as [L|e]; [|reflexivity]. cbn [bind]. specialize (TY L eq_refl). rewrite rmap_bind.
  assert (TB : forall L', global_build L input = Ok L' -> L' = L).
  { intros L'. unfold global_build. destruct (_ =? _)%nat; [|intros E; discriminate E]. destruct (merge_shapes _ _ _); [|intros E; discriminate E].
    cbn [bind]. congruence. }
  destruct (global_build L input) as [L'|e]; [|reflexivity]. cbn [bind]. rewrite (TB L' eq_refl). unfold global_call. rewrite TY.
  rewrite (tmap_reduce phi P0 (pool_fun type)) by exact H. rewrite bind_rmap, rmap_bind. apply bind_ext. intros u.
  rewrite (tmap_global_pool phi P0 (pool_fun type)) by exact H. rewrite bind_rmap, rmap_bind. apply bind_ext. intros v.
  destruct (gp_keepdims L); [apply tmap_expand_dims|reflexivity].
Qed.
End Maps.

(** [Group.action] of a library group, for all arguments.  For zero: upsampling fills
    with zeros. *)
Theorem C91_action {A B} {ZA : Zero A} {ZB : Zero B} (phi : A -> B) name G x axes new_axis group_axis acting domain :
  dict_get group_dict name = Ok G -> phi zero = zero ->
  action G (tmap phi x) axes new_axis group_axis acting domain = rmap (tmap phi) (action G x axes new_axis group_axis acting domain).
Proof. intros D P0. apply (tmap_action phi P0). exact (library_entrywise name G D). Qed.

(** So max pooling commutes with increasing functions that keep zero, for instance relu: it
    does not matter whether relu comes before or after the pooling. *)
Theorem C91_max_pooling_and_increasing_functions (phi : Z -> Z) d a input x :
  phi 0%Z = 0%Z -> (forall u v, (u <= v)%Z -> (phi u <= phi v)%Z) ->
  run_pool d "max" a input (tmap phi x) = rmap (tmap phi) (run_pool d "max" a input x).
Proof.
  intros P0 MO. apply C91_pooling; [exact P0|]. intros l.
  change (@pool_fun Z Pool_Z "max") with (fun l : list Z => match l with [] => 0%Z | v :: r => fold_left Z.max r v end). cbv beta.
  destruct l as [|v l]; [symmetry; exact P0|]. cbn [map]. revert v. induction l as [|w l IH]; intros v; [reflexivity|].
  cbn [map fold_left]. rewrite <- IH. f_equal. destruct (Z.max_spec v w) as [[L ->]|[L ->]].
  - apply Z.max_r, MO. lia.
  - apply Z.max_l, MO. lia.
Qed.

(** Without the condition on zero this is false: the zeros of the extra padding take part in
    the maximum (those of Keras' own padding do not). *)
Definition shifted (v : Z) : Z := (v - 40)%Z.
Definition same_outcome (r r' : result (tensor Z)) : bool :=
  match r, r' with Ok y, Ok y' => same_tensor y y' | _, _ => false end.

Definition padded_pool := mkPoolArgs (ByName "P4") (Some "P4") (One 2) (Some (One 4)) (Some (Some "valid_equiv")) "channels_last" false.

Theorem C91_shifts_refuted :
  ~ (forall (a : pool_args) input x, run_pool 2 "max" a input (tmap shifted x) = rmap (tmap shifted) (run_pool 2 "max" a input x)).
Proof.
  intros H. specialize (H padded_pool [None; Some 4; Some 4; Some 4; Some 1] (some_signal [1; 4; 4; 4; 1])).
  assert (E : forall r r' : result (tensor Z), r = r' -> same_outcome r r' = true \/ is_ok r = false).
  { intros r r' <-. destruct r as [y|]; [left; apply same_tensor_ok; reflexivity|right; reflexivity]. }
  apply E in H. revert H.
  assert (N : negb (same_outcome (run_pool 2 "max" padded_pool [None; Some 4; Some 4; Some 4; Some 1] (tmap shifted (some_signal [1; 4; 4; 4; 1])))
     (rmap (tmap shifted) (run_pool 2 "max" padded_pool [None; Some 4; Some 4; Some 4; Some 1] (some_signal [1; 4; 4; 4; 1]))))
     && is_ok (run_pool 2 "max" padded_pool [None; Some 4; Some 4; Some 4; Some 1] (tmap shifted (some_signal [1; 4; 4; 4; 1]))) = true)
    by (vm_compute; reflexivity).
  apply andb_true_iff in N as [N1 N2]. apply negb_true_iff in N1. intros [H|H]; congruence.
Qed.

(** Remainders: calculating with integers and reducing the result modulo 7 is calculating
    modulo 7. *)
Definition modulo7 : Arith Z := {| arith_zero := Zero_Z; add := fun a b => ((a + b) mod 7)%Z; mul := fun a b => ((a * b) mod 7)%Z |}.

Lemma modulo7_respects : @respects_arithmetic Z Z Arith_Z modulo7 (fun v => v mod 7)%Z.
Proof.
  split; [reflexivity|]. split; intros a b; cbn [add mul Arith_Z modulo7].
  - apply Z.add_mod. lia.
  - apply Z.mul_mod. lia.
Qed.

Definition without_activation : conv_args Z :=
  mkConvArgs (ByName "P4M") (Some "P4") (One 3) 1 None (Some (Some "same_equiv")) None "channels_last" false true (fun z => z).

Example C91_case_remainders :
  let x := some_signal [1; 4; 4; 1] in
  let y := @run_conv Z modulo7 2 false without_activation [None; Some 4; Some 4; Some 1] (fun j => some_weights j mod 7)%Z (fun j => some_weights j mod 7)%Z (tmap (fun v => v mod 7)%Z x) in
  let z := run_conv 2 false without_activation [None; Some 4; Some 4; Some 1] some_weights some_weights x in
  match z with Ok z => same_outcome y (Ok (tmap (fun v => v mod 7)%Z z)) && negb (same_outcome y (Ok z)) | Err _ => false end = true.
Proof. vm_compute. reflexivity. Qed.

Example C91_case_relu :
  let relu := fun v => Z.max 0 v in
  let x := tmap (fun v => v - 15)%Z (some_signal [1; 4; 4; 4; 1]) in
  match run_pool 2 "max" padded_pool [None; Some 4; Some 4; Some 4; Some 1] (tmap relu x), run_pool 2 "max" padded_pool [None; Some 4; Some 4; Some 4; Some 1] x with
  | Ok y, Ok z => same_tensor y (tmap relu z) | _, _ => false end = true.
Proof. vm_compute. reflexivity. Qed.

Print Assumptions C91_convolutions.
Print Assumptions C91_pooling.
Print Assumptions C91_global_pooling.
Print Assumptions C91_action.
Print Assumptions C91_max_pooling_and_increasing_functions.
Print Assumptions C91_shifts_refuted.
