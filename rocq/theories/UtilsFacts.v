(** The helpers of tensor_manips.py applied to tensors given by their entries. *)
From Verif Require Export Utils OpFacts.

Lemma py_nth_nat {A} (l : list A) k d : k < List.length l -> py_nth l (Z.of_nat k) = Ok (nth k l d).
Proof.
  intros H. unfold py_nth. rewrite norm_axis_nat by auto. cbn [bind].
  rewrite (nth_error_nth' l d H). reflexivity.
Qed.

Lemma py_set_nat {A} (l : list A) k v : k < List.length l -> py_set l (Z.of_nat k) v = Ok (upd k v l).
Proof. intros H. unfold py_set. rewrite norm_axis_nat by auto. reflexivity. Qed.

Lemma py_pop_nat {A} (l : list A) k : k < List.length l -> py_pop l (Z.of_nat k) = Ok (remove_at k l).
Proof. intros H. unfold py_pop. rewrite norm_axis_nat by auto. reflexivity. Qed.

Lemma py_upto_nat {A} (l : list A) k : k <= List.length l -> py_upto l (Z.of_nat k) = firstn k l.
Proof.
  intros H. unfold py_upto, slice_pos. destruct (Z.ltb_spec (Z.of_nat k) 0); [lia|].
  rewrite Nat2Z.id, Nat.min_r; auto.
Qed.

Lemma py_from_nat {A} (l : list A) k : k <= List.length l -> py_from l (Z.of_nat k) = skipn k l.
Proof.
  intros H. unfold py_from, slice_pos. destruct (Z.ltb_spec (Z.of_nat k) 0); [lia|].
  rewrite Nat2Z.id, Nat.min_r; auto.
Qed.

Lemma map_upd {A B} (f : A -> B) k v l : map f (upd k v l) = upd k (f v) (map f l).
Proof. revert k; induction l as [|x l IH]; intros [|k]; simpl; auto. f_equal; auto. Qed.

Lemma map_remove_at {A B} (f : A -> B) k l : map f (remove_at k l) = remove_at k (map f l).
Proof. unfold remove_at. rewrite map_app, firstn_map, skipn_map. reflexivity. Qed.

Lemma map_insert_at {A B} (f : A -> B) k v l : map f (insert_at k v l) = insert_at k (f v) (map f l).
Proof. unfold insert_at. rewrite map_app. simpl. rewrite firstn_map, skipn_map. reflexivity. Qed.

Lemma nth_map_Some (s : list nat) k : k < List.length s -> nth k (map Some s) None = Some (nth k s 0).
Proof.
  intros H. rewrite (nth_indep _ None (Some 0)) by (rewrite map_length; auto). apply map_nth.
Qed.

Lemma format_batch_Some s : format_batch_dim (map Some s) = map Z.of_nat s.
Proof. unfold format_batch_dim. rewrite map_map. reflexivity. Qed.

(** ** Shapes *)

Lemma split_shapes_known s n a :
  a < List.length s -> n <> 0 ->
  split_shapes (map Some s) n (Z.of_nat a) = Ok (map Some (insert_at a n (upd a (nth a s 0 / n) s))).
Proof.
  intros H N. unfold split_shapes.
  rewrite (py_nth_nat _ _ None), nth_map_Some by (rewrite ?map_length; auto). cbn [bind].
  replace (n =? 0) with false by (symmetry; apply Nat.eqb_neq; auto). cbn [negb].
  rewrite py_set_nat by (rewrite map_length; auto). cbn [bind].
  rewrite py_upto_nat, py_from_nat by (rewrite length_upd, map_length; lia).
  rewrite map_insert_at, map_upd. reflexivity.
Qed.

Lemma remove_at_upd_self_shift k a v (i : list (option nat)) :
  k < List.length i -> remove_at k (upd (shift k a) v i) = upd a v (remove_at k i).
Proof.
  intros K. revert k a K. induction i as [|x i IH]; intros [|k] a K; cbn [List.length] in K; try lia.
  - reflexivity.
  - unfold shift in *. destruct a as [|a].
    + reflexivity.
    + specialize (IH k a). destruct (Nat.leb_spec (S k) (S a)), (Nat.leb_spec k a); try lia;
        cbn [upd]; rewrite !remove_at_S; cbn [upd]; f_equal; apply IH; auto; lia.
Qed.

Lemma merge_shapes_known k n s a :
  k <= List.length s -> a < List.length s ->
  merge_shapes (map Some (insert_at k n s)) (Z.of_nat k) (Z.of_nat (shift k a))
  = Ok (map Some (upd a (n * nth a s 0) s)).
Proof.
  intros K H. unfold merge_shapes.
  assert (L : List.length (map Some (insert_at k n s)) = S (List.length s))
    by (rewrite map_length; apply length_insert_at).
  pose proof (shift_lt k a (List.length s) K H).
  rewrite !(py_nth_nat _ _ None) by lia. cbn [bind].
  rewrite !nth_map_Some by (rewrite length_insert_at; lia).
  rewrite nth_shift, nth_insert_at_eq by auto.
  rewrite py_set_nat by lia. cbn [bind]. rewrite py_pop_nat by (rewrite length_upd; lia). f_equal.
  rewrite remove_at_upd_self_shift by lia.
  rewrite map_insert_at, remove_insert_at by (rewrite map_length; auto).
  rewrite map_upd. rewrite Nat.mul_comm. reflexivity.
Qed.

Section Facts.
Context {A : Type} {ZA : Zero A}.

Lemma move_axis_left_stk k n s (F : nat -> list nat -> A) a :
  k <= List.length s -> a < List.length s ->
  move_axis_to_left_of (stk k n s F) (Z.of_nat k) (Z.of_nat (shift k a)) = Ok (stk a n s F).
Proof.
  intros K H. unfold move_axis_to_left_of.
  replace (if (Z.of_nat k <? Z.of_nat (shift k a))%Z then (Z.of_nat (shift k a) - 1)%Z
           else Z.of_nat (shift k a)) with (Z.of_nat a).
  - apply moveaxis_stk; lia.
  - unfold shift. destruct (Nat.leb_spec k a).
    + destruct (Z.ltb_spec (Z.of_nat k) (Z.of_nat (S a))); lia.
    + destruct (Z.ltb_spec (Z.of_nat k) (Z.of_nat a)); lia.
Qed.

(** Merging the stacked axis [k] into axis [a] of the slices. *)
Lemma merge_axes_stk k n s (F : nat -> list nat -> A) a :
  k <= List.length s -> a < List.length s -> nth a s 0 <> 0 ->
  merge_axes (stk k n s F) (Z.of_nat k) (Z.of_nat (shift k a))
  = Ok (tab (upd a (n * nth a s 0) s)
            (fun i => F (nth a i 0 / nth a s 0) (upd a (nth a i 0 mod nth a s 0) i))).
Proof.
  intros K H NZ. unfold merge_axes, merge_axes_st. rewrite shape_stk, merge_shapes_known by auto.
  cbn [bind]. rewrite move_axis_left_stk by auto. cbn [bind].
  rewrite format_batch_Some. apply reshape_merge; auto.
Qed.

(** Splitting [n] off axis [a]. *)
Lemma split_axes_tab n s (f : list nat -> A) a :
  a < List.length s -> n <> 0 ->
  split_axes (tab (upd a (n * nth a s 0) s) f) n (Z.of_nat a)
  = Ok (stk a n s (fun g i => f (upd a (g * nth a s 0 + nth a i 0) i))).
Proof.
  intros H N. unfold split_axes, split_axes_st. rewrite shape_tab, split_shapes_known by (rewrite ?length_upd; auto).
  cbn [bind]. rewrite format_batch_Some. rewrite nth_upd_same, upd_upd by auto.
  rewrite (Nat.mul_comm n (nth a s 0)) at 2. rewrite Nat.div_mul, upd_same by auto.
  apply reshape_split; auto.
Qed.

End Facts.
