(** C36, C37, C42: the tensor helpers of groco/utils/tensor_manips.py. *)
From Verif Require Import UtilsTheorems LibraryTheorems.
From Coq Require Import Permutation.

(** C36.  [u] is any tensor of the same shape as [t]. *)
Theorem C36_index_tensor_identity {A B} {ZA : Zero A} {ZB : Zero B} (t : tensor B) (u : tensor A) :
  wf u -> shape u = shape t ->
  exists ix flat, get_index_tensor t = Ok ix /\ reshape u [(-1)%Z] = Ok flat /\ take flat ix 0 = Ok u.
Proof.
  intros W S. rewrite index_tensor_tab, reshape_flat. eexists; eexists. split; [reflexivity|]. split; [reflexivity|].
  rewrite take_flat.
  - f_equal. cbn [shape tab]. rewrite <- S. transitivity (tab (shape u) (at_ u)); [|apply tab_at; exact W].
    apply tab_ext. intros i I. rewrite at_tab by exact I. reflexivity.
  - apply wf_tab.
  - intros v V. cbn [tab data] in V. apply in_map_iff in V as [i [<- I]]. apply In_indices in I.
    rewrite W, S. apply ravel_lt. exact I.
Qed.
Print Assumptions C36_index_tensor_identity.

Example C36_case : get_index_tensor (mkTensor [2; 3] [true; true; false; true; false; false])
  = Ok (mkTensor [2; 3] [0; 1; 2; 3; 4; 5]).
Proof. reflexivity. Qed.

(** C37.  Merging axis [k] into axis [a]: nothing is lost, and the entry with
    coordinates [i_k], [i_a] ends up at [i_k * size_a + i_a]. *)
Theorem C37_merge_axes_moves_every_entry {A} {ZA : Zero A} (t : tensor A) k a :
  wf t -> k < rank t -> a < rank t -> a <> k ->
  let b := without k a in
  exists u, merge_axes t (Z.of_nat k) (Z.of_nat a) = Ok u /\ wf u /\
    shape u = upd b (nth k (shape t) 0 * nth a (shape t) 0) (remove_at k (shape t)) /\
    Permutation (data u) (data t) /\
    forall i, inb (shape t) i ->
      at_ u (upd b (nth k i 0 * nth a (shape t) 0 + nth a i 0) (remove_at k i)) = at_ t i.
Proof.
  intros W K H NE b. pose proof (merge_axes_entries t k a W K H NE) as M. cbv zeta in M. fold b in M.
  set (n := nth k (shape t) 0) in *. set (s := remove_at k (shape t)) in *.
  assert (LS : List.length s = rank t - 1) by (apply length_remove_at; exact K).
  assert (B : b < List.length s) by (unfold b, without; destruct (Nat.ltb_spec k a); lia).
  assert (C : nth b s 0 = nth a (shape t) 0).
  { unfold s. rewrite nth_remove_at_shift by exact K. unfold b. rewrite shift_without by exact NE. reflexivity. }
  assert (E : forall i, inb (shape t) i ->
      let j := upd b (nth k i 0 * nth b s 0 + nth a i 0) (remove_at k i) in
      inb (upd b (n * nth b s 0) s) j /\
      insert_at k (nth b j 0 / nth b s 0) (upd b (nth b j 0 mod nth b s 0) j) = i).
  { intros i I j. pose proof (inb_length _ _ I) as LI. unfold rank in *.
    assert (LR : List.length (remove_at k i) = List.length s) by (rewrite length_remove_at; lia).
    assert (A1 : nth a i 0 < nth b s 0) by (rewrite C; apply (inb_nth _ _ a I); exact H).
    assert (A2 : nth k i 0 < n) by (apply (inb_nth _ _ k I); exact K).
    assert (A3 : nth b (remove_at k i) 0 = nth a i 0).
    { rewrite nth_remove_at_shift by lia. unfold b. rewrite shift_without by exact NE. reflexivity. }
    assert (IR : inb s (remove_at k i)).
    { apply inb_intro; [exact LR|]. intros m M'. unfold s. rewrite !nth_remove_at_shift by lia.
      apply (inb_nth _ _ _ I). pose proof (shift_lt k m (List.length s)). lia. }
    split.
    - apply inb_upd_both; [exact IR|]. nia.
    - unfold j. rewrite nth_upd_same by lia. rewrite upd_upd.
      rewrite Nat.add_comm, Nat.div_add, Nat.div_small, Nat.add_0_l by lia.
      rewrite Nat.mod_add, Nat.mod_small by lia. rewrite <- A3, upd_same. apply insert_remove_at. lia. }
  exists (tab (upd b (n * nth b s 0) s)
              (fun i => at_ t (insert_at k (nth b i 0 / nth b s 0) (upd b (nth b i 0 mod nth b s 0) i)))).
  split; [exact M|]. split; [apply wf_tab|]. split; [rewrite shape_tab, C; reflexivity|].
  assert (AT : forall i, inb (shape t) i -> at_ (tab (upd b (n * nth b s 0) s)
      (fun i0 => at_ t (insert_at k (nth b i0 0 / nth b s 0) (upd b (nth b i0 0 mod nth b s 0) i0))))
      (upd b (nth k i 0 * nth b s 0 + nth a i 0) (remove_at k i)) = at_ t i).
  { intros i I. destruct (E i I) as [I' Q]. rewrite at_tab by exact I'. rewrite Q. reflexivity. }
  split; [|intros i I; rewrite <- C; exact (AT i I)].
  (* permutation *)
  assert (DT : data t = map (at_ t) (indices (shape t))) by (rewrite <- (tab_at t W) at 1; reflexivity).
  rewrite DT. cbn [tab data].
  rewrite <- (map_map (fun i => insert_at k (nth b i 0 / nth b s 0) (upd b (nth b i 0 mod nth b s 0) i)) (at_ t)).
  apply Permutation_map. symmetry. apply NoDup_Permutation_bis.
  - apply NoDup_indices.
  - rewrite map_length, !length_indices, (prod_upd_mul b n (nth b s 0)) by auto.
    unfold n, s. rewrite <- (prod_insert_at k), insert_remove_at by exact K. auto.
  - intros i I. apply In_indices in I. destruct (E i I) as [I' Q]. apply in_map_iff.
    eexists. split; [exact Q|]. apply In_indices. exact I'.
Qed.
Print Assumptions C37_merge_axes_moves_every_entry.

(** Splitting again and moving the axis back restores the tensor. *)
Theorem C37_split_undoes_merge {A} {ZA : Zero A} (t : tensor A) k a :
  wf t -> k < rank t -> a < rank t -> a <> k -> nth k (shape t) 0 <> 0 ->
  let b := without k a in
  exists u v, merge_axes t (Z.of_nat k) (Z.of_nat a) = Ok u /\
    split_axes u (nth k (shape t) 0) (Z.of_nat b) = Ok v /\
    moveaxis v (Z.of_nat b) (Z.of_nat k) = Ok t.
Proof.
  intros W K H NE N b.
  assert (LS : List.length (remove_at k (shape t)) = rank t - 1) by (apply length_remove_at; exact K).
  assert (B : b < List.length (remove_at k (shape t))) by (unfold b, without; destruct (Nat.ltb_spec k a); lia).
  pose proof (stack_of_slices t k W K) as ST.
  destruct (split_after_merge k (nth k (shape t) 0) (remove_at k (shape t))
              (fun g i => at_ t (insert_at k g i)) b ltac:(lia) B N) as [u [M S]].
  rewrite <- ST in M. unfold b in M at 1. rewrite shift_without in M by exact NE.
  exists u. eexists. split; [exact M|]. split; [exact S|].
  rewrite moveaxis_stk by lia. f_equal. symmetry. exact ST.
Qed.
Print Assumptions C37_split_undoes_merge.

(** Splitting an axis and merging the two parts again restores the tensor. *)
Theorem C37_merge_undoes_split {A} {ZA : Zero A} (t : tensor A) n a :
  wf t -> a < rank t -> n <> 0 -> nth a (shape t) 0 mod n = 0 ->
  exists v, split_axes t n (Z.of_nat a) = Ok v /\
    shape v = insert_at a n (upd a (nth a (shape t) 0 / n) (shape t)) /\
    merge_axes v (Z.of_nat a) (Z.of_nat (S a)) = Ok t.
Proof.
  intros W H N D. unfold rank in H.
  set (c := nth a (shape t) 0 / n). set (s := upd a c (shape t)).
  assert (LS : List.length s = List.length (shape t)) by apply length_upd.
  assert (CC : nth a s 0 = c) by (apply nth_upd_same; exact H).
  assert (NC : n * c = nth a (shape t) 0) by (pose proof (Nat.div_mod (nth a (shape t) 0) n N); unfold c; lia).
  assert (SH : upd a (n * nth a s 0) s = shape t)
    by (rewrite CC, NC; unfold s; rewrite upd_upd; apply upd_same).
  pose proof (split_axes_tab n s (at_ t) a ltac:(lia) N) as SP. rewrite SH, tab_at in SP by exact W.
  eexists. split; [exact SP|]. split; [apply shape_stk|].
  replace (S a) with (shift a a) by (unfold shift; rewrite Nat.leb_refl; reflexivity).
  rewrite merge_axes_stk0 by lia. rewrite SH. f_equal.
  transitivity (tab (shape t) (at_ t)); [|apply tab_at; exact W]. apply tab_ext. intros i I.
  pose proof (inb_length _ _ I) as LI. pose proof (inb_nth _ _ a I H) as X.
  rewrite nth_upd_same by lia. rewrite upd_upd. f_equal.
  assert (NZ : nth a s 0 <> 0) by (rewrite CC; intros Q; rewrite Q in NC; lia).
  rewrite (Nat.mul_comm (nth a i 0 / nth a s 0)). rewrite <- Nat.div_mod by exact NZ. apply upd_same.
Qed.
Print Assumptions C37_merge_undoes_split.

(** Axes may be counted from the end, as long as both are. *)
Theorem C37_axes_from_the_end {A} {ZA : Zero A} (t : tensor A) k a n :
  k < rank t -> a < rank t ->
  let neg x := (Z.of_nat x - Z.of_nat (rank t))%Z in
  merge_axes t (neg k) (neg a) = merge_axes t (Z.of_nat k) (Z.of_nat a) /\
  split_axes t n (neg a) = split_axes t n (Z.of_nat a).
Proof.
  intros K H neg. split; [apply merge_axes_neg; assumption|apply split_axes_neg; assumption].
Qed.
Print Assumptions C37_axes_from_the_end.

(** Mixing the two ways of counting gives another tensor: axis 1 of 3 is merged into
    the last axis "from the wrong side". *)
Theorem C37_mixed_axes_refuted :
  ~ (forall (t : tensor nat) k a, wf t -> k < rank t -> a < rank t -> a <> k ->
       merge_axes t (Z.of_nat k) (Z.of_nat a - Z.of_nat (rank t)) = merge_axes t (Z.of_nat k) (Z.of_nat a)).
Proof.
  intros H. specialize (H (mkTensor [1; 2; 2] [1; 2; 3; 4]) 1 2). revert H. unfold rank, wf. cbn [shape data List.length].
  intros H. specialize (H eq_refl ltac:(lia) ltac:(lia) ltac:(lia)). vm_compute in H. discriminate H.
Qed.
Print Assumptions C37_mixed_axes_refuted.

Example C37_case :
  merge_axes (mkTensor [1; 2; 3] [1; 2; 3; 4; 5; 6]) 2 1 = Ok (mkTensor [1; 6] [1; 4; 2; 5; 3; 6]) /\
  split_axes (mkTensor [1; 6] [1; 4; 2; 5; 3; 6]) 3 1 = Ok (mkTensor [1; 3; 2] [1; 4; 2; 5; 3; 6]) /\
  moveaxis (mkTensor [1; 3; 2] [1; 4; 2; 5; 3; 6]) 1 2 = Ok (mkTensor [1; 2; 3] [1; 2; 3; 4; 5; 6]).
Proof. vm_compute. auto. Qed.

(** C42.  The first entry of the static shape is [None]. *)
Theorem C42_merge_with_unknown_batch {A} {ZA : Zero A} (t : tensor A) k a :
  wf t -> 0 < k < rank t -> 0 < a < rank t -> a <> k ->
  (forall m, 0 < m < rank t -> nth m (shape t) 0 <> 0) ->
  merge_axes_st (upd 0 None (map Some (shape t))) t (Z.of_nat k) (Z.of_nat a)
  = merge_axes t (Z.of_nat k) (Z.of_nat a).
Proof.
  intros W [PK K] [PA H] NE NZ.
  destruct (C37_merge_axes_moves_every_entry t k a W K H NE) as [u [M [WU [SU _]]]].
  destruct (merge_shapes_unknown (shape t) k a PK PA K H) as [s' [M1 [M2 [tl E]]]].
  unfold merge_axes in *. unfold merge_axes_st in *. fold (unknown_batch (shape t)). rewrite M2. rewrite M1 in *. cbn [bind] in *.
  destruct (move_axis_to_left_of t (Z.of_nat k) (Z.of_nat a)) as [t'|]; cbn [bind] in *; [|discriminate M].
  rewrite E in *. unfold reshape in M. rewrite format_batch_Some in M.
  assert (SS : shape u = nth 0 (shape t) 0 :: tl /\ List.length (data t') = prod (shape u)).
  { destruct (resolve_shape (List.length (data t')) (map Z.of_nat (nth 0 (shape t) 0 :: tl))) as [q|] eqn:R;
      cbn [bind] in M; [|discriminate M]. injection M as <-. cbn [shape].
    unfold wf in WU. cbn [shape data] in WU. split; [|exact WU].
    destruct (Nat.eq_dec (prod (nth 0 (shape t) 0 :: tl)) (List.length (data t'))) as [Q|Q].
    - rewrite resolve_nat in R by exact Q. congruence.
    - exfalso. revert R. unfold resolve_shape.
      assert (F : forall l, filter (fun z => negb (z =? -1)%Z) (map Z.of_nat l) = map Z.of_nat l).
      { clear. induction l as [|x s IH]; auto. cbn [map filter].
        destruct (Z.eqb_spec (Z.of_nat x) (-1)); [lia|]. cbn [negb]. f_equal; auto. }
      rewrite F, Nat.sub_diag. destruct (forallb _ _); [|discriminate].
      rewrite map_map. rewrite (map_ext _ (fun x => x)) by (intros; apply Nat2Z.id). rewrite map_id.
      destruct (Nat.eqb_spec (prod (nth 0 (shape t) 0 :: tl)) (List.length (data t'))); [contradiction|discriminate]. }
  destruct SS as [SS LD]. apply reshape_unknown.
  - rewrite LD, SS. reflexivity.
  - rewrite SS in SU. intros Z.
    assert (P : forall l, (forall m, m < List.length l -> nth m l 0 <> 0) -> prod l <> 0).
    { clear. induction l as [|x l IH]; intros Q; [discriminate|]. rewrite prod_cons.
      pose proof (Q 0 ltac:(cbn; lia)) as Q0. cbn in Q0.
      assert (prod l <> 0) by (apply IH; intros m M; apply (Q (S m)); cbn; lia). nia. }
    revert Z. apply P. intros m M'.
    assert (LT : List.length (nth 0 (shape t) 0 :: tl) = rank t - 1).
    { rewrite SU, length_upd. apply length_remove_at. exact K. }
    cbn in LT. change (nth m tl 0) with (nth (S m) (nth 0 (shape t) 0 :: tl) 0). rewrite SU.
    rewrite nth_upd by (rewrite length_remove_at by exact K; unfold rank in *; lia).
    destruct (without k a =? S m).
    + pose proof (NZ k ltac:(lia)). pose proof (NZ a ltac:(lia)). nia.
    + rewrite nth_remove_at_shift by exact K. apply NZ.
      unfold shift. destruct (k <=? S m); unfold rank in *; lia.
Qed.
Print Assumptions C42_merge_with_unknown_batch.

Theorem C42_split_with_unknown_batch {A} {ZA : Zero A} (t : tensor A) n a :
  wf t -> 0 < a < rank t -> n <> 0 -> nth a (shape t) 0 mod n = 0 ->
  (forall m, 0 < m < rank t -> nth m (shape t) 0 <> 0) ->
  split_axes_st (upd 0 None (map Some (shape t))) t n (Z.of_nat a) = split_axes t n (Z.of_nat a).
Proof.
  intros W [PA H] N D NZ. unfold rank in *. unfold split_axes, split_axes_st. fold (unknown_batch (shape t)).
  rewrite split_shapes_unknown, split_shapes_known by assumption. cbn [bind].
  assert (NC : n * (nth a (shape t) 0 / n) = nth a (shape t) 0)
    by (pose proof (Nat.div_mod (nth a (shape t) 0) n N); lia).
  pose proof (NZ a ltac:(lia)) as NA.
  assert (PR : n * prod (upd a (nth a (shape t) 0 / n) (shape t)) = prod (shape t)).
  { rewrite <- (prod_upd_mul a n (nth a (shape t) 0 / n)); [|rewrite length_upd; exact H|apply nth_upd_same; exact H].
    rewrite upd_upd, NC, upd_same. reflexivity. }
  unfold wf in W.
  destruct (shape t) as [|m s] eqn:SH; [cbn in H; lia|]. destruct a as [|a]; [lia|].
  cbn [upd] in *. rewrite insert_at_S. apply reshape_unknown.
  - rewrite W, <- PR. rewrite prod_insert_at, prod_cons. lia.
  - rewrite prod_insert_at. cbn [nth] in *. intros Z.
    assert (P : forall l, (forall m, m < List.length l -> nth m l 0 <> 0) -> prod l <> 0).
    { clear. induction l as [|x l IH]; intros Q; [discriminate|]. rewrite prod_cons.
      pose proof (Q 0 ltac:(cbn; lia)) as Q0. cbn in Q0.
      assert (prod l <> 0) by (apply IH; intros m M; apply (Q (S m)); cbn; lia). nia. }
    assert (prod (upd a (nth a s 0 / n) s) <> 0); [|nia]. apply P. intros j J. rewrite length_upd in J.
    rewrite nth_upd by exact J. destruct (a =? j); [nia|]. apply (NZ (S j)). cbn. lia.
Qed.
Print Assumptions C42_split_with_unknown_batch.

Example C42_case :
  merge_axes_st [None; Some 2; Some 3] (mkTensor [2; 2; 3] (seq 0 12)) 1 2
  = Ok (mkTensor [2; 6] (seq 0 12)).
Proof. vm_compute. reflexivity. Qed.

From Verif Require Import GroupTransforms.
Local Open Scope string_scope.
Local Open Scope list_scope.

(** The two steps as the layers take them: [GroupTransforms] merges the group axis into
    the channels before the backend is called and restores it afterwards, in both data
    formats.  [T] is any object made by the constructor and built for signals on the
    group; the group axis of [x] has one entry per element of the acting group. *)
Theorem C37_restoring_the_group_axis {A} {ZA : Zero A} g ks d first allow H tr st po input T0 T idx (x : tensor A) :
  gt_init g ks d (if first : bool then "channels_first" else "channels_last")%string allow H tr st po = Ok T0 ->
  gt_build T0 input = Ok T -> List.length input = d + 3 ->
  subgroup_get (gt_group T) (gt_acting T) = Ok idx -> idx <> [] ->
  wf x -> rank x = d + 3 ->
  nth (if first then d + 2 else d + 1) (shape x) 0 = List.length idx ->
  (u <- merge_axes x (gt_group_axis T) (gt_channels_axis T) ;; restore_group_axis T u) = Ok x.
Proof.
  intros I B LI SG NI W R GX.
  assert (F : gt_dims T0 = d /\ gt_format T0 = (if first then "channels_first" else "channels_last")%string /\
              gt_channels_axis T0 = (if first then 1 else Z.of_nat d + 1)%Z /\
              gt_group_axis T0 = (Z.of_nat d + 1 + if first then 1 else 0)%Z).
  { unfold gt_init in I.
    destruct (match g with Object G0 => Ok G0 | ByName s0 => dict_get group_dict s0 end) as [G|]; [|discriminate I]. cbn [bind] in I.
    destruct (match parse_subgroup G H with Some s0 => dict_get group_dict s0 | None => Err KeyError end) as [K|]; [|discriminate I]. cbn [bind] in I.
    destruct tr; (match type of I with context [padding_init ?p1 ?p2 ?p3 ?p4 ?p5 ?p6 ?p7] => destruct (padding_init p1 p2 p3 p4 p5 p6 p7) as [P|] end; [|discriminate I]);
    cbn [bind] in I; injection I as <-; destruct first; repeat split; reflexivity. }
  destruct F as [FD [FF [FC FG]]].
  unfold gt_build in B. rewrite FD, LI, Nat.eqb_refl in B.
  match type of B with bind ?e _ = _ => destruct e as [reshaped|]; [|discriminate B] end. cbn [bind] in B.
  destruct (padding_build (gt_padding T0) reshaped) as [P|]; [|discriminate B]. cbn [bind] in B. injection B as <-.
  unfold restore_group_axis. cbn [gt_set_build gt_group gt_acting gt_group_axis gt_channels_axis gt_group_valued gt_format] in SG |- *.
  rewrite SG, FF, FC, FG. cbn [bind].
  assert (L : List.length idx <> 0) by (destruct idx; [congruence|discriminate]).
  destruct first; cbn [String.eqb Ascii.eqb Bool.eqb andb].
  - destruct (C37_split_undoes_merge x (d + 2) 1 W ltac:(lia) ltac:(lia) ltac:(lia) ltac:(rewrite GX; exact L)) as [u [v [M [S V]]]].
    rewrite GX in S. unfold without in S, V. replace (d + 2 <? 1)%nat with false in S, V by (symmetry; apply Nat.ltb_ge; lia).
    replace (Z.of_nat d + 1 + 1)%Z with (Z.of_nat (d + 2)) by lia. replace 1%Z with (Z.of_nat 1) by lia.
    rewrite M. cbn [bind]. rewrite S. cbn [bind]. exact V.
  - destruct (C37_split_undoes_merge x (d + 1) (d + 2) W ltac:(lia) ltac:(lia) ltac:(lia) ltac:(rewrite GX; exact L)) as [u [v [M [S V]]]].
    rewrite GX in S. unfold without in S, V. replace (d + 1 <? d + 2)%nat with true in S, V by (symmetry; apply Nat.ltb_lt; lia).
    replace (d + 2 - 1) with (d + 1) in S, V by lia.
    replace (Z.of_nat d + 1 + 0)%Z with (Z.of_nat (d + 1)) by lia. replace (Z.of_nat d + 1 + 1)%Z with (Z.of_nat (d + 2)) by lia.
    replace (Z.of_nat (d + 2) - 1)%Z with (Z.of_nat (d + 1)) by lia.
    rewrite M. cbn [bind]. rewrite S. cbn [bind]. exact V.
Qed.
Print Assumptions C37_restoring_the_group_axis.

(** A pooling layer's object in the format channels_first, on a 1x2 image. *)
Example C37_case_restoring :
  let x := mkTensor [1; 2; 1; 2; 2] [1; 2; 3; 4; 5; 6; 7; 8] in
  exists T0 T, gt_init (ByName "P2") (One 1) 2 "channels_first" true (Some "") false None (Some (Some "valid")) = Ok T0 /\
    gt_build T0 [Some 1; Some 2; Some 1; Some 2; Some 2] = Ok T /\
    merge_axes x (gt_group_axis T) (gt_channels_axis T) = Ok (mkTensor [1; 4; 1; 2] [1; 3; 5; 7; 2; 4; 6; 8]) /\
    restore_group_axis T (mkTensor [1; 4; 1; 2] [1; 3; 5; 7; 2; 4; 6; 8]) = Ok x.
Proof. eexists. eexists. repeat (split; [vm_compute; reflexivity|]). vm_compute. reflexivity. Qed.
