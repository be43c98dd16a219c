(** Facts about the helpers of tensor_manips.py that the properties are stated with:
    index tensors, axes counted from the end, unknown batch sizes. *)
From Verif Require Export UtilsFacts GroupTheorems.
From Coq Require Import Permutation.

(** ** Axes counted from the end *)

Lemma norm_axis_neg r (k : nat) : k < r -> norm_axis r (Z.of_nat k - Z.of_nat r) = Ok k.
Proof.
  intros H. unfold norm_axis.
  destruct (Z.leb_spec 0 (Z.of_nat k - Z.of_nat r)); [lia|]. cbn [andb].
  destruct (Z.leb_spec (- Z.of_nat r) (Z.of_nat k - Z.of_nat r)); [|lia].
  destruct (Z.ltb_spec (Z.of_nat k - Z.of_nat r) 0); [|lia]. cbn [andb]. f_equal. lia.
Qed.

Lemma slice_pos_neg r k : k < r -> slice_pos r (Z.of_nat k - Z.of_nat r) = k.
Proof. intros H. unfold slice_pos. destruct (Z.ltb_spec (Z.of_nat k - Z.of_nat r) 0); lia. Qed.

Lemma slice_pos_nat r k : k <= r -> slice_pos r (Z.of_nat k) = k.
Proof. intros H. unfold slice_pos. destruct (Z.ltb_spec (Z.of_nat k) 0); lia. Qed.

Lemma split_shapes_neg s n k :
  k < List.length s ->
  split_shapes s n (Z.of_nat k - Z.of_nat (List.length s)) = split_shapes s n (Z.of_nat k).
Proof.
  intros H. unfold split_shapes, py_nth, py_set. rewrite norm_axis_neg, norm_axis_nat by auto. cbn [bind].
  destruct (nth_error s k) as [[x|]|]; cbn [bind]; auto. destruct (negb (n =? 0)); auto.
  unfold py_upto, py_from. rewrite length_upd, slice_pos_neg, slice_pos_nat by lia. reflexivity.
Qed.

Lemma merge_shapes_neg s k a :
  k < List.length s -> a < List.length s ->
  merge_shapes s (Z.of_nat k - Z.of_nat (List.length s)) (Z.of_nat a - Z.of_nat (List.length s))
  = merge_shapes s (Z.of_nat k) (Z.of_nat a).
Proof.
  intros K H. unfold merge_shapes, py_nth, py_set, py_pop. rewrite !norm_axis_neg, !norm_axis_nat by auto. cbn [bind].
  destruct (nth_error s a) as [[x|]|]; cbn [bind]; auto. destruct (nth_error s k) as [[y|]|]; cbn [bind]; auto.
  rewrite length_upd, norm_axis_neg, norm_axis_nat by auto. reflexivity.
Qed.

Section Facts.
Context {A : Type} {ZA : Zero A}.

Lemma move_axis_left_neg (t : tensor A) k a :
  k < rank t -> a < rank t ->
  move_axis_to_left_of t (Z.of_nat k - Z.of_nat (rank t)) (Z.of_nat a - Z.of_nat (rank t))
  = move_axis_to_left_of t (Z.of_nat k) (Z.of_nat a).
Proof.
  intros K H. unfold move_axis_to_left_of, moveaxis. rewrite norm_axis_neg, norm_axis_nat by auto. cbn [bind].
  destruct (Z.ltb_spec (Z.of_nat k - Z.of_nat (rank t)) (Z.of_nat a - Z.of_nat (rank t))),
    (Z.ltb_spec (Z.of_nat k) (Z.of_nat a)); try lia.
  - replace (Z.of_nat a - Z.of_nat (rank t) - 1)%Z with (Z.of_nat (a - 1) - Z.of_nat (rank t))%Z by lia.
    replace (Z.of_nat a - 1)%Z with (Z.of_nat (a - 1)) by lia.
    rewrite norm_axis_neg, norm_axis_nat by lia. reflexivity.
  - rewrite norm_axis_neg, norm_axis_nat by lia. reflexivity.
Qed.

Lemma merge_axes_st_neg st (t : tensor A) k a :
  List.length st = rank t -> k < rank t -> a < rank t ->
  merge_axes_st st t (Z.of_nat k - Z.of_nat (rank t)) (Z.of_nat a - Z.of_nat (rank t))
  = merge_axes_st st t (Z.of_nat k) (Z.of_nat a).
Proof.
  intros L K H. unfold merge_axes_st. rewrite move_axis_left_neg by auto.
  rewrite <- L at 1 2. rewrite merge_shapes_neg by lia. reflexivity.
Qed.

Lemma merge_axes_neg (t : tensor A) k a :
  k < rank t -> a < rank t ->
  merge_axes t (Z.of_nat k - Z.of_nat (rank t)) (Z.of_nat a - Z.of_nat (rank t))
  = merge_axes t (Z.of_nat k) (Z.of_nat a).
Proof. intros K H. apply merge_axes_st_neg; auto. apply map_length. Qed.

Lemma split_axes_st_neg st (t : tensor A) n k :
  List.length st = rank t -> k < rank t ->
  split_axes_st st t n (Z.of_nat k - Z.of_nat (rank t)) = split_axes_st st t n (Z.of_nat k).
Proof.
  intros L H. unfold split_axes_st. rewrite <- L. rewrite split_shapes_neg by lia. reflexivity.
Qed.

Lemma split_axes_neg (t : tensor A) n k :
  k < rank t -> split_axes t n (Z.of_nat k - Z.of_nat (rank t)) = split_axes t n (Z.of_nat k).
Proof. intros H. apply split_axes_st_neg; auto. apply map_length. Qed.

Lemma resolve_batch n (s : list nat) :
  prod s <> 0 -> resolve_shape (n * prod s) ((-1)%Z :: map Z.of_nat s) = Ok (n :: s).
Proof.
  intros P. unfold resolve_shape.
  assert (F : filter (fun z => negb (z =? -1)%Z) (map Z.of_nat s) = map Z.of_nat s).
  { clear. induction s as [|x s IH]; auto. cbn [map filter].
    destruct (Z.eqb_spec (Z.of_nat x) (-1)); [lia|]. cbn [negb]. f_equal; auto. }
  assert (G : forallb (fun z => (0 <=? z)%Z) (map Z.of_nat s) = true).
  { clear. induction s as [|x s IH]; auto. cbn [map forallb]. rewrite IH.
    destruct (Z.leb_spec 0 (Z.of_nat x)); [auto|lia]. }
  assert (M : map Z.to_nat (map Z.of_nat s) = s).
  { clear. induction s as [|x s IH]; simpl; auto. rewrite Nat2Z.id. f_equal; auto. }
  assert (M' : map (fun z => if (z =? -1)%Z then n * prod s / prod s else Z.to_nat z) (map Z.of_nat s) = s).
  { rewrite map_map. transitivity (map (fun x : nat => x) s); [|apply map_id]. apply map_ext. intros x.
    destruct (Z.eqb_spec (Z.of_nat x) (-1)); [lia|]. apply Nat2Z.id. }
  cbn [filter]. change ((-1 =? -1)%Z) with true. cbn [negb]. rewrite F, G, M.
  cbn [List.length]. rewrite map_length. replace (S (List.length s) - List.length s) with 1 by lia.
  replace (0 <? prod s) with true by (symmetry; apply Nat.ltb_lt; lia).
  rewrite Nat.mod_mul by exact P. cbn [andb Nat.eqb]. cbn [map]. change ((-1 =? -1)%Z) with true. cbv iota.
  rewrite M', Nat.div_mul by exact P. reflexivity.
Qed.

(** ** Flattening and index tensors *)

Lemma reshape_flat (t : tensor A) : reshape t [(-1)%Z] = Ok (mkTensor [List.length (data t)] (data t)).
Proof.
  unfold reshape. rewrite <- (Nat.mul_1_r (List.length (data t))) at 1. change 1 with (prod []) at 1.
  change [(-1)%Z] with ((-1)%Z :: map Z.of_nat []). rewrite resolve_batch by discriminate. reflexivity.
Qed.

Lemma index_tensor (t : tensor A) : get_index_tensor t = Ok (mkTensor (shape t) (seq 0 (prod (shape t)))).
Proof.
  unfold get_index_tensor, arange, reshape, size. cbn [data]. rewrite seq_length.
  rewrite resolve_nat by reflexivity. reflexivity.
Qed.

Lemma at_index_tensor s i : inb s i -> at_ (mkTensor s (seq 0 (prod s))) i = ravel s i.
Proof. intros I. unfold at_. cbn [shape data]. apply nth_seq0. apply ravel_lt. exact I. Qed.

Lemma index_tensor_tab (t : tensor A) : get_index_tensor t = Ok (tab (shape t) (ravel (shape t))).
Proof.
  rewrite index_tensor. f_equal. apply tensor_ext.
  - unfold wf. cbn [data shape]. apply seq_length.
  - apply wf_tab.
  - reflexivity.
  - cbn [shape]. intros i I. rewrite at_index_tensor, at_tab by exact I. reflexivity.
Qed.

Lemma take_flat (l : list A) (idx : tensor nat) :
  wf idx -> (forall v, In v (data idx) -> v < List.length l) ->
  take (mkTensor [List.length l] l) idx 0 = Ok (tab (shape idx) (fun i => nth (at_ idx i) l zero)).
Proof.
  intros W B.
  assert (Q : mkTensor [List.length l] l = tab [List.length l] (fun i => nth (nth 0 i 0) l zero)).
  { apply tensor_ext.
    - unfold wf. cbn. lia.
    - apply wf_tab.
    - reflexivity.
    - cbn [shape]. intros i I. rewrite at_tab by exact I. unfold at_. cbn [shape data].
      destruct i as [|x [|? ?]]; try (apply inb_length in I; discriminate I). rewrite ravel_1. reflexivity. }
  rewrite Q. change 0%Z with (Z.of_nat 0). rewrite take_tab; [|cbn; lia|exact B|exact W].
  f_equal. cbn [firstn skipn app]. rewrite app_nil_r. apply tab_ext. intros i I.
  cbn [nth]. rewrite firstn_all2; [reflexivity|]. rewrite (inb_length _ _ I). lia.
Qed.

(** ** Merging and splitting, without side conditions on the sizes *)

Lemma merge_axes_stk0 k n s (F : nat -> list nat -> A) a :
  k <= List.length s -> a < List.length s ->
  merge_axes (stk k n s F) (Z.of_nat k) (Z.of_nat (shift k a))
  = Ok (tab (upd a (n * nth a s 0) s)
            (fun i => F (nth a i 0 / nth a s 0) (upd a (nth a i 0 mod nth a s 0) i))).
Proof.
  intros K H. destruct (Nat.eq_dec (nth a s 0) 0) as [Z|NZ]; [|apply merge_axes_stk; auto].
  unfold merge_axes, merge_axes_st. rewrite shape_stk, merge_shapes_known by auto.
  cbn [bind]. rewrite move_axis_left_stk by auto. cbn [bind]. rewrite format_batch_Some.
  assert (P : prod (upd a (n * nth a s 0) s) = n * prod s) by (apply prod_upd_mul; auto).
  unfold reshape. cbn [data stk tab]. rewrite map_length, length_indices, prod_insert_at.
  rewrite resolve_nat by exact P. cbn [bind]. f_equal. apply tensor_ext.
  - unfold wf. cbn [data shape]. rewrite map_length, length_indices, prod_insert_at. symmetry. exact P.
  - apply wf_tab.
  - reflexivity.
  - cbn [shape]. intros i I. pose proof (inb_nth _ _ a I) as X.
    rewrite length_upd, nth_upd_same in X by auto. specialize (X H). rewrite Z in X. lia.
Qed.

(** Every tensor is the stack of its slices. *)
Lemma stack_of_slices (t : tensor A) k :
  wf t -> k < rank t ->
  t = stk k (nth k (shape t) 0) (remove_at k (shape t)) (fun g i => at_ t (insert_at k g i)).
Proof.
  intros W K. rewrite <- tab_stk by (rewrite length_remove_at; unfold rank in K; lia).
  rewrite insert_remove_at by exact K. symmetry. apply tab_at. exact W.
Qed.

Lemma merge_axes_entries (t : tensor A) k a :
  wf t -> k < rank t -> a < rank t -> a <> k ->
  let n := nth k (shape t) 0 in let s := remove_at k (shape t) in let b := without k a in
  merge_axes t (Z.of_nat k) (Z.of_nat a)
  = Ok (tab (upd b (n * nth b s 0) s)
            (fun i => at_ t (insert_at k (nth b i 0 / nth b s 0) (upd b (nth b i 0 mod nth b s 0) i)))).
Proof.
  intros W K H NE n s b.
  assert (L : List.length s = rank t - 1) by (apply length_remove_at; exact K).
  rewrite (stack_of_slices t k W K) at 1. fold n s.
  rewrite <- (shift_without k a NE). fold b.
  rewrite merge_axes_stk0; [reflexivity|lia|].
  unfold b, without. destruct (Nat.ltb_spec k a); lia.
Qed.

Lemma split_after_merge k n s (F : nat -> list nat -> A) b :
  k <= List.length s -> b < List.length s -> n <> 0 ->
  exists u, merge_axes (stk k n s F) (Z.of_nat k) (Z.of_nat (shift k b)) = Ok u /\
    split_axes u n (Z.of_nat b) = Ok (stk b n s F).
Proof.
  intros K B N. eexists. split; [apply merge_axes_stk0; auto|].
  rewrite split_axes_tab by auto. f_equal. apply stk_ext; [lia|]. intros g i G I.
  pose proof (inb_length _ _ I). pose proof (inb_nth _ _ b I B) as X.
  rewrite nth_upd_same by lia. rewrite upd_upd.
  rewrite Nat.add_comm, Nat.div_add, Nat.div_small, Nat.add_0_l by lia.
  rewrite Nat.mod_add, Nat.mod_small by lia. rewrite upd_same. reflexivity.
Qed.

(** ** Unknown batch size *)

(** The static shape of a tensor whose batch size is not known. *)
Definition unknown_batch (s : list nat) : sshape := upd 0 None (map Some s).

Lemma map_Some_inj (a b : list nat) : map Some a = map Some b -> a = b.
Proof.
  revert b; induction a as [|x a IH]; intros [|y b] E; try discriminate E; auto.
  cbn [map] in E. injection E as E1 E2. f_equal; auto.
Qed.

Lemma nth_error_unknown s k : 0 < k -> k < List.length s -> nth_error (unknown_batch s) k = Some (Some (nth k s 0)).
Proof.
  intros P H. unfold unknown_batch. destruct s as [|n s]; [cbn in H; lia|]. cbn [map upd].
  destruct k as [|k]; [lia|]. cbn [nth_error nth]. rewrite nth_error_map.
  rewrite (nth_error_nth' s 0) by (cbn in H; lia). reflexivity.
Qed.

Lemma split_shapes_unknown s n a :
  0 < a -> a < List.length s -> n <> 0 ->
  split_shapes (unknown_batch s) n (Z.of_nat a) = Ok (unknown_batch (insert_at a n (upd a (nth a s 0 / n) s))).
Proof.
  intros P H N. unfold split_shapes, py_nth. unfold unknown_batch at 1. rewrite length_upd, map_length.
  rewrite norm_axis_nat by auto. cbn [bind]. rewrite nth_error_unknown by auto. cbn [bind].
  replace (n =? 0) with false by (symmetry; apply Nat.eqb_neq; auto). cbn [negb].
  rewrite py_set_nat by (unfold unknown_batch; rewrite length_upd, map_length; auto). cbn [bind].
  rewrite py_upto_nat, py_from_nat by (unfold unknown_batch; rewrite !length_upd, map_length; lia).
  f_equal. unfold unknown_batch. destruct s as [|m s]; [cbn in H; lia|]. destruct a as [|a]; [lia|].
  cbn [map upd nth]. rewrite insert_at_S. cbn [map upd firstn skipn app]. f_equal.
  rewrite map_insert_at, map_upd. reflexivity.
Qed.

Lemma merge_shapes_unknown s k a :
  0 < k -> 0 < a -> k < List.length s -> a < List.length s ->
  exists s', merge_shapes (map Some s) (Z.of_nat k) (Z.of_nat a) = Ok (map Some s') /\
    merge_shapes (unknown_batch s) (Z.of_nat k) (Z.of_nat a) = Ok (unknown_batch s') /\
    exists tl, s' = nth 0 s 0 :: tl.
Proof.
  intros PK PA K H. unfold merge_shapes, py_nth, py_set.
  assert (LU : List.length (unknown_batch s) = List.length s)
    by (unfold unknown_batch; rewrite length_upd; apply map_length).
  rewrite LU, map_length, !norm_axis_nat by auto. cbn [bind].
  rewrite !nth_error_unknown by auto. rewrite !nth_error_map. rewrite !(nth_error_nth' s 0) by auto. cbn [option_map bind].
  rewrite !py_pop_nat by (rewrite length_upd, ?LU, ?map_length; auto).
  exists (remove_at k (upd a (nth a s 0 * nth k s 0) s)). split; [|split].
  - rewrite map_remove_at, map_upd. reflexivity.
  - f_equal. unfold unknown_batch. rewrite map_remove_at, map_upd.
    destruct s as [|m s]; [cbn in H; lia|]. destruct k as [|k]; [lia|]. destruct a as [|a]; [lia|].
    cbn [map upd]. rewrite !remove_at_S. reflexivity.
  - destruct s as [|m s]; [cbn in H; lia|]. destruct k as [|k]; [lia|]. destruct a as [|a]; [lia|].
    cbn [upd]. rewrite remove_at_S. eexists. reflexivity.
Qed.

Lemma reshape_unknown (t : tensor A) n (s : list nat) :
  List.length (data t) = n * prod s -> prod s <> 0 ->
  reshape t (format_batch_dim (unknown_batch (n :: s))) = reshape t (format_batch_dim (map Some (n :: s))).
Proof.
  intros L P. change (unknown_batch (n :: s)) with (None :: map (@Some nat) s). rewrite format_batch_Some.
  unfold format_batch_dim. cbn [map]. rewrite map_map. unfold reshape. rewrite L.
  rewrite resolve_batch by exact P. change (Z.of_nat n :: map Z.of_nat s) with (map Z.of_nat (n :: s)).
  rewrite resolve_nat by reflexivity. reflexivity.
Qed.

End Facts.
