(** Operations on tensors commute with maps of the entries. *)
From Verif Require Export Layers.
Local Open Scope list_scope.

Definition rmap {A B} (f : A -> B) (r : result A) : result B :=
  match r with Ok a => Ok (f a) | Err e => Err e end.

Lemma bind_rmap {A B C} (f : A -> B) (r : result A) (k : B -> result C) : bind (rmap f r) k = bind r (fun a => k (f a)).
Proof. destruct r; reflexivity. Qed.
Lemma rmap_bind {A B C} (f : B -> C) (r : result A) (k : A -> result B) : rmap f (bind r k) = bind r (fun a => rmap f (k a)).
Proof. destruct r; reflexivity. Qed.
Lemma rmap_guard {A B} (f : A -> B) (b : bool) (r : result A) e : rmap f (if b then r else Err e) = if b then rmap f r else Err e.
Proof. destruct b; reflexivity. Qed.
Lemma bind_ext {A B} (r : result A) (k k' : A -> result B) : (forall a, k a = k' a) -> bind r k = bind r k'.
Proof. intros H. destruct r; [apply H|reflexivity]. Qed.

Section Zero.
Context {A B : Type} {ZA : Zero A} {ZB : Zero B} (phi : A -> B) (P0 : phi zero = zero).

Lemma shape_tmap (t : tensor A) : shape (tmap phi t) = shape t.
Proof. reflexivity. Qed.
Lemma rank_tmap (t : tensor A) : rank (tmap phi t) = rank t.
Proof. reflexivity. Qed.
Lemma at_tmap t i : at_ (tmap phi t) i = phi (at_ t i).
Proof. unfold at_. cbn [shape data tmap]. rewrite <- P0. apply map_nth. Qed.
Lemma tab_tmap s (f : list nat -> A) (g : list nat -> B) : (forall i, g i = phi (f i)) -> tab s g = tmap phi (tab s f).
Proof. intros H. unfold tab, tmap. cbn [shape data]. f_equal. rewrite map_map. apply map_ext. exact H. Qed.

Lemma tmap_expand_dims t a : expand_dims (tmap phi t) a = rmap (tmap phi) (expand_dims t a).
Proof. unfold expand_dims. rewrite rmap_bind, rank_tmap. apply bind_ext. intros k. reflexivity. Qed.

Lemma tmap_flip t a : flip (tmap phi t) a = rmap (tmap phi) (flip t a).
Proof.
  unfold flip. rewrite rmap_bind, rank_tmap. apply bind_ext. intros k. cbn [rmap]. f_equal. rewrite shape_tmap.
  apply tab_tmap. intros i. apply at_tmap.
Qed.

Lemma tmap_transpose t p : transpose (tmap phi t) p = rmap (tmap phi) (transpose t p).
Proof.
  unfold transpose. rewrite rmap_guard, rank_tmap. destruct (is_perm _ _); [|reflexivity]. cbn [rmap]. f_equal. rewrite shape_tmap.
  apply tab_tmap. intros i. apply at_tmap.
Qed.

Lemma tmap_moveaxis t a b : moveaxis (tmap phi t) a b = rmap (tmap phi) (moveaxis t a b).
Proof.
  unfold moveaxis. rewrite rmap_bind, !rank_tmap. apply bind_ext. intros x. rewrite rmap_bind. apply bind_ext. intros y. apply tmap_transpose.
Qed.

Lemma tmap_swapaxes t a b : swapaxes (tmap phi t) a b = rmap (tmap phi) (swapaxes t a b).
Proof.
  unfold swapaxes. rewrite rmap_bind, !rank_tmap. apply bind_ext. intros x. rewrite rmap_bind. apply bind_ext. intros y. apply tmap_transpose.
Qed.

Lemma tmap_take t idx a : take (tmap phi t) idx a = rmap (tmap phi) (take t idx a).
Proof.
  unfold take. rewrite rmap_bind, rank_tmap. apply bind_ext. intros k. rewrite rmap_guard. rewrite shape_tmap.
  destruct (forallb _ _); [|reflexivity]. cbn [rmap]. f_equal. apply tab_tmap. intros i. apply at_tmap.
Qed.

Lemma tmap_reshape (t : tensor A) s : reshape (tmap phi t) s = rmap (tmap phi) (reshape t s).
Proof. unfold reshape. rewrite rmap_bind. cbn [data tmap]. rewrite map_length. apply bind_ext. intros s'. reflexivity. Qed.

Lemma tmap_pad t pads : pad (tmap phi t) pads = rmap (tmap phi) (pad t pads).
Proof.
  unfold pad. rewrite rmap_guard, rank_tmap. destruct (_ =? _); [|reflexivity]. cbn [rmap]. f_equal. rewrite shape_tmap. apply tab_tmap.
  intros i. destruct (pad_inside _ _ _); [apply at_tmap|symmetry; exact P0].
Qed.

Lemma tmap_reduce (f : list A -> A) (g : list B -> B) t a : (forall l, g (map phi l) = phi (f l)) ->
  reduce g (tmap phi t) a = rmap (tmap phi) (reduce f t a).
Proof.
  intros H. unfold reduce. rewrite rmap_bind, rank_tmap. apply bind_ext. intros k. cbn [rmap]. f_equal. rewrite shape_tmap. apply tab_tmap.
  intros i. rewrite <- H, map_map. f_equal. apply map_ext. intros v. apply at_tmap.
Qed.

Lemma tmap_merge_axes t a b : merge_axes (tmap phi t) a b = rmap (tmap phi) (merge_axes t a b).
Proof.
  unfold merge_axes, merge_axes_st, move_axis_to_left_of. rewrite rmap_bind, shape_tmap. apply bind_ext. intros s.
  rewrite tmap_moveaxis, bind_rmap, rmap_bind. apply bind_ext. intros u. apply tmap_reshape.
Qed.

Lemma tmap_split_axes (t : tensor A) n a : split_axes (tmap phi t) n a = rmap (tmap phi) (split_axes t n a).
Proof.
  unfold split_axes, split_axes_st. rewrite rmap_bind, shape_tmap. apply bind_ext. intros s. apply tmap_reshape.
Qed.

Lemma tmap_get_index_tensor (t : tensor A) : get_index_tensor (tmap phi t) = get_index_tensor t.
Proof. reflexivity. Qed.

Lemma tmap_padding_call P t : padding_call P (tmap phi t) = rmap (tmap phi) (padding_call P t).
Proof. unfold padding_call. destruct (pl_needs P) as [[]|]; [|reflexivity|reflexivity]. destruct (pl_pads P); [apply tmap_pad|reflexivity]. Qed.

Lemma tmap_merge_group T t : merge_group_axis_and_pad T (tmap phi t) = rmap (tmap phi) (merge_group_axis_and_pad T t).
Proof.
  unfold merge_group_axis_and_pad. rewrite rmap_bind. destruct (gt_group_valued T).
  - rewrite tmap_merge_axes, bind_rmap. apply bind_ext. intros u. apply tmap_padding_call.
  - cbn [bind]. apply tmap_padding_call.
Qed.

Lemma tmap_repeat_bias T t : repeat_bias T (tmap phi t) = rmap (tmap phi) (repeat_bias T t).
Proof. unfold repeat_bias. destruct (gt_bias_indices T); [apply tmap_take|reflexivity]. Qed.

Lemma tmap_transform_kernel T t : transform_kernel T (tmap phi t) = rmap (tmap phi) (transform_kernel T t).
Proof.
  unfold transform_kernel. rewrite tmap_reshape, bind_rmap, rmap_bind. apply bind_ext. intros u. destruct (gt_kernel_indices T); [apply tmap_take|reflexivity].
Qed.

Lemma tmap_restore_group T t : restore_group_axis T (tmap phi t) = rmap (tmap phi) (restore_group_axis T t).
Proof.
  unfold restore_group_axis. rewrite !rmap_bind. apply bind_ext. intros act. rewrite tmap_split_axes, bind_rmap, rmap_bind.
  apply bind_ext. intros u. apply tmap_moveaxis.
Qed.

Lemma tmap_subgroup_pooling (f : list A -> A) (g : list B -> B) T t : (forall l, g (map phi l) = phi (f l)) ->
  subgroup_pooling g T (tmap phi t) = rmap (tmap phi) (subgroup_pooling f T t).
Proof.
  intros H. unfold subgroup_pooling. destruct (gt_pooling_indices T); [|reflexivity].
  rewrite tmap_take, bind_rmap, rmap_bind. apply bind_ext. intros u. apply tmap_reduce. exact H.
Qed.

Lemma tmap_prepare_call T k b n t :
  prepare_call T (tmap phi k) (option_map (tmap phi) b) n (tmap phi t)
  = rmap (fun r => let '(k, b, n, x) := r in (tmap phi k, option_map (tmap phi) b, n, tmap phi x)) (prepare_call T k b n t).
Proof.
  unfold prepare_call. rewrite tmap_merge_group, bind_rmap, rmap_bind. apply bind_ext. intros x.
  rewrite tmap_transform_kernel, bind_rmap, rmap_bind. apply bind_ext. intros k'.
  destruct b as [b|]; cbn [option_map].
  - rewrite tmap_repeat_bias, bind_rmap, rmap_bind. destruct (repeat_bias T b); [|reflexivity]. cbn [bind]. rewrite rmap_bind. apply bind_ext. intros act. reflexivity.
  - cbn [bind]. rewrite rmap_bind. apply bind_ext. intros act. reflexivity.
Qed.

Lemma tmap_gt_build_conv T (k : tensor A) (b : option (tensor A)) :
  gt_build_conv T (tmap phi k) (option_map (tmap phi) b) = gt_build_conv T k b.
Proof.
  unfold gt_build_conv, compute_transformed_kernel_indices.
  destruct b as [b|]; cbn [option_map].
  - unfold compute_repeated_bias_indices. rewrite tmap_get_index_tensor. apply bind_ext. intros i.
    destruct (gt_transpose T); [|reflexivity]. rewrite tmap_swapaxes, bind_rmap. destruct (swapaxes k (-1) (-2)); reflexivity.
  - apply bind_ext. intros i. destruct (gt_transpose T); [|reflexivity]. rewrite tmap_swapaxes, bind_rmap. destruct (swapaxes k (-1) (-2)); reflexivity.
Qed.

End Zero.

Section Arithmetic.
Context {A B : Type} {RA : Arith A} {RB : Arith B} (phi : A -> B).
Context (P0 : phi zero = zero) (PP : forall a b, phi (add a b) = add (phi a) (phi b)) (PM : forall a b, phi (mul a b) = mul (phi a) (phi b)).

Lemma phi_sum l : phi (sum l) = sum (map phi l).
Proof. induction l as [|v l IH]; [exact P0|]. unfold sum in *. cbn [fold_right map]. rewrite PP, IH. reflexivity. Qed.

Lemma sum_tmap {C} (f : C -> A) (g : C -> B) l : (forall c, g c = phi (f c)) -> sum (map g l) = phi (sum (map f l)).
Proof. intros H. rewrite phi_sum, map_map. f_equal. apply map_ext. exact H. Qed.

Lemma tmap_in_format fmt (f : tensor A -> result (tensor A)) (g : tensor B -> result (tensor B)) t :
  (forall u, g (tmap phi u) = rmap (tmap phi) (f u)) -> in_format fmt g (tmap phi t) = rmap (tmap phi) (in_format fmt f t).
Proof.
  intros H. unfold in_format. destruct (String.eqb _ _); [apply H|].
  rewrite (tmap_moveaxis phi P0), bind_rmap, rmap_bind. apply bind_ext. intros u. rewrite H, bind_rmap, rmap_bind. apply bind_ext. intros v. apply (tmap_moveaxis phi P0).
Qed.
Lemma tmap_conv_last x w s dl p : conv_last (tmap phi x) (tmap phi w) s dl p = rmap (tmap phi) (conv_last x w s dl p).
Proof.
  unfold conv_last. rewrite !rank_tmap, !shape_tmap, !rmap_guard. destruct (_ && _ && _); [|reflexivity]. destruct (_ =? _)%nat; [|reflexivity].
  rewrite (tmap_pad phi P0), bind_rmap, rmap_bind. apply bind_ext. intros xp. rewrite rmap_guard, !shape_tmap. destruct (forallb _ _); [|reflexivity].
  cbn [rmap]. f_equal. apply tab_tmap. intros i. apply sum_tmap. intros jc. rewrite PM, !(at_tmap phi P0). reflexivity.
Qed.

Lemma tmap_conv_transpose_last x w s dl p : conv_transpose_last (tmap phi x) (tmap phi w) s dl p = rmap (tmap phi) (conv_transpose_last x w s dl p).
Proof.
  unfold conv_transpose_last. rewrite !rank_tmap, !shape_tmap, !rmap_guard. destruct (_ && _ && _); [|reflexivity]. destruct (_ =? _)%nat; [|reflexivity].
  cbn [rmap]. f_equal. apply tab_tmap. intros i. apply sum_tmap. intros jc. destruct (transpose_srcs _ _ _ _ _ _); [|symmetry; exact P0].
  rewrite PM, !(at_tmap phi P0). reflexivity.
Qed.

Lemma tmap_add_bias fmt n b y : add_bias fmt n (option_map (tmap phi) b) (tmap phi y) = rmap (tmap phi) (add_bias fmt n b y).
Proof.
  unfold add_bias. destruct b as [b|]; [|reflexivity]. cbn [option_map]. rewrite tmap_reshape, bind_rmap, rmap_bind. apply bind_ext. intros b'.
  rewrite rmap_guard, !rank_tmap, !shape_tmap. destruct (_ =? _)%nat; [|reflexivity]. cbn [rmap]. f_equal. apply tab_tmap. intros i.
  rewrite PP, !(at_tmap phi P0). reflexivity.
Qed.

Lemma tmap_base_conv_call tr fmt s dl p n (f : A -> A) (g : B -> B) k b x : (forall v, g (phi v) = phi (f v)) ->
  base_conv_call tr fmt s dl p n g (tmap phi k) (option_map (tmap phi) b) (tmap phi x) = rmap (tmap phi) (base_conv_call tr fmt s dl p n f k b x).
Proof.
  intros H. unfold base_conv_call.
  rewrite (tmap_in_format fmt (fun x => if tr then conv_transpose_last x k s dl p else conv_last x k s dl p)).
  - rewrite bind_rmap, rmap_bind. apply bind_ext. intros y. rewrite tmap_add_bias, bind_rmap, rmap_bind. apply bind_ext. intros z.
    cbn [rmap]. f_equal. unfold tmap. cbn [shape data]. f_equal. rewrite !map_map. apply map_ext. exact H.
  - intros u. destruct tr; [apply tmap_conv_transpose_last|apply tmap_conv_last].
Qed.

Lemma map_keep_some {C} (g : C -> A) l : map phi (keep_some (map (fun o => option_map g o) l)) = keep_some (map (fun o => option_map (fun c => phi (g c)) o) l).
Proof. induction l as [|[c|] l IH]; cbn; [reflexivity| |]; unfold keep_some in *; rewrite ?IH; reflexivity. Qed.

Lemma tmap_pool_op (f : list A -> A) (g : list B -> B) fmt x k s p : (forall l, g (map phi l) = phi (f l)) ->
  pool_op g fmt (tmap phi x) k s p = rmap (tmap phi) (pool_op f fmt x k s p).
Proof.
  intros H. unfold pool_op. apply (tmap_in_format). intros u. unfold pool_last. rewrite !rank_tmap, !shape_tmap, !rmap_guard.
  destruct (_ && _); [|reflexivity]. destruct (mem_str _ _); [|reflexivity]. destruct (forallb _ _); [|reflexivity].
  cbn [rmap]. f_equal. apply tab_tmap. intros i. rewrite <- H. f_equal.
  assert (KS : forall (h : list nat -> option (list nat)) (q : list nat -> A) (q' : list nat -> B) l, (forall v, q' v = phi (q v)) ->
    keep_some (map (fun j => option_map q' (h j)) l) = map phi (keep_some (map (fun j => option_map q (h j)) l))).
  { intros h q q' l E. induction l as [|j l IH]; [reflexivity|]. unfold keep_some in *. cbn [map flat_map]. destruct (h j); cbn [option_map app map]; rewrite IH, ?E; reflexivity. }
  apply KS. intros v. apply (at_tmap phi P0).
Qed.

Lemma tmap_global_pool (f : list A -> A) (g : list B -> B) fmt kd d x : (forall l, g (map phi l) = phi (f l)) ->
  global_pool g fmt kd d (tmap phi x) = rmap (tmap phi) (global_pool f fmt kd d x).
Proof.
  intros H. unfold global_pool, global_pool_last, global_pool_first. rewrite !rank_tmap, !shape_tmap.
  destruct (String.eqb _ _); (destruct (_ =? _)%nat; [|reflexivity]); cbn [rmap]; f_equal; apply tab_tmap; intros i;
    rewrite <- H, map_map; f_equal; apply map_ext; intros j; apply (at_tmap phi P0).
Qed.

(** Layers with the entries of their weights mapped. *)
Definition map_layer (f : B -> B) (L : conv_layer A) : conv_layer B :=
  mkConv (cl_gt L) (cl_strides L) (cl_dilation L) (cl_kernel_size L) (cl_padding L) (cl_format L) (cl_use_bias L) f (cl_filters L)
         (option_map (tmap phi) (cl_kernel L)) (option_map (tmap phi) (cl_bias L)) (cl_channels L).

Lemma tmap_conv_call (f : B -> B) L x : (forall v, f (phi v) = phi (cl_activation L v)) ->
  conv_call (map_layer f L) (tmap phi x) = (map_layer f (fst (conv_call L x)), rmap (tmap phi) (snd (conv_call L x))).
Proof.
  intros H. unfold conv_call. cbn [cl_kernel map_layer]. destruct (cl_kernel L) as [k|] eqn:EK; cbn [option_map]; [|reflexivity].
  cbn [cl_gt cl_bias cl_filters map_layer]. rewrite (tmap_prepare_call phi P0). destruct (prepare_call _ _ _ _ _) as [[[[k' b'] n'] x']|e]; cbn [rmap]; [|reflexivity].
  cbn [cl_set_weights cl_format cl_strides cl_dilation cl_padding cl_filters cl_activation cl_bias map_layer].
  rewrite (tmap_base_conv_call _ _ _ _ _ _ (cl_activation L) f) by exact H. rewrite bind_rmap.
  destruct (base_conv_call _ _ _ _ _ _ _ _ _ _) as [y|e]; cbn [bind].
  - rewrite (tmap_restore_group phi P0). destruct (restore_group_axis _ _) as [z|e]; cbn [rmap fst snd]; [|reflexivity].
    unfold map_layer, cl_set_weights. cbn. reflexivity.
  - reflexivity.
Qed.

Lemma tmap_conv_apply (f : B -> B) L x : (forall v, f (phi v) = phi (cl_activation L v)) ->
  conv_apply (map_layer f L) (tmap phi x) = (map_layer f (fst (conv_apply L x)), rmap (tmap phi) (snd (conv_apply L x))).
Proof.
  intros H. unfold conv_apply. rewrite rank_tmap, shape_tmap. cbn [cl_gt cl_format cl_channels map_layer]. destruct (_ <? _)%nat; [reflexivity|].
  destruct (cl_channels L); [|apply tmap_conv_call; exact H]. destruct (_ =? _)%nat; [apply tmap_conv_call; exact H|reflexivity].
Qed.

Lemma tmap_conv_build (f : B -> B) L sh (ki bi : list nat -> A) :
  conv_build (map_layer f L) sh (fun j => phi (ki j)) (fun j => phi (bi j)) = rmap (map_layer f) (conv_build L sh ki bi).
Proof.
  unfold conv_build. cbn [cl_gt map_layer]. rewrite rmap_bind. apply bind_ext. intros T.
  cbn [cl_set_gt cl_format map_layer]. rewrite rmap_bind. apply bind_ext. intros o. rewrite rmap_bind. apply bind_ext. intros c.
  rewrite rmap_bind. change (conv_compute_output_shape (cl_set_gt (map_layer f L) T)) with (conv_compute_output_shape (cl_set_gt L T)).
  apply bind_ext. intros sh'. cbn [cl_kernel_size cl_filters cl_use_bias cl_set_gt map_layer].
  rewrite rmap_bind. rewrite (tab_tmap phi _ ki _ (fun i => eq_refl)).
  assert (EB : (if cl_use_bias L then Some (tab [cl_filters L] (fun j => phi (bi j))) else None) = option_map (tmap phi) (if cl_use_bias L then Some (tab [cl_filters L] bi) else None)).
  { destruct (cl_use_bias L); [|reflexivity]. cbn [option_map]. f_equal. apply tab_tmap. reflexivity. }
  rewrite EB, (tmap_gt_build_conv phi P0). apply bind_ext. intros T'. rewrite rmap_bind. apply bind_ext. intros ch. reflexivity.
Qed.

End Arithmetic.
