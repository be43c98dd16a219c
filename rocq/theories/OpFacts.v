(** The tensor operations applied to tensors given by shape and entries. *)
From Coq Require Import Permutation.
From Verif Require Export TensorFacts.

Lemma skipn_S_app {A} (l1 l2 : list A) x n : n = List.length l1 -> skipn (S n) (l1 ++ x :: l2) = l2.
Proof. intros ->. induction l1; simpl in *; auto. Qed.

Section OpFacts.
Context {A : Type} {ZA : Zero A}.

(** [n] slices of shape [s] stacked along axis [k]. *)
Definition stk (k n : nat) (s : list nat) (F : nat -> list nat -> A) : tensor A :=
  tab (insert_at k n s) (fun i => F (nth k i 0) (remove_at k i)).

Lemma wf_stk k n s F : wf (stk k n s F).
Proof. apply wf_tab. Qed.

Lemma shape_stk k n s F : shape (stk k n s F) = insert_at k n s.
Proof. reflexivity. Qed.

Lemma at_stk k n s F g i :
  k <= List.length s -> inb s i -> g < n -> at_ (stk k n s F) (insert_at k g i) = F g i.
Proof.
  intros K I G. unfold stk. rewrite at_tab by (apply inb_insert; auto).
  pose proof (inb_length _ _ I).
  rewrite nth_insert_at_eq, remove_insert_at by lia. reflexivity.
Qed.

Lemma stk_ext k n s F F' :
  k <= List.length s -> (forall g i, g < n -> inb s i -> F g i = F' g i) -> stk k n s F = stk k n s F'.
Proof.
  intros K H. apply tab_ext. intros i I.
  destruct (inb_insert_inv _ _ _ _ K I) as [v [j [-> [V J]]]].
  pose proof (inb_length _ _ J).
  rewrite nth_insert_at_eq, remove_insert_at by lia. auto.
Qed.

Lemma tab_stk k n s (f : list nat -> A) :
  k <= List.length s -> tab (insert_at k n s) f = stk k n s (fun g i => f (insert_at k g i)).
Proof.
  intros K. apply tab_ext. intros i I.
  destruct (inb_insert_inv _ _ _ _ K I) as [v [j [-> [V J]]]].
  pose proof (inb_length _ _ J).
  rewrite nth_insert_at_eq, remove_insert_at by lia. auto.
Qed.

Lemma rank_tab s (f : list nat -> A) : rank (tab s f) = List.length s.
Proof. reflexivity. Qed.

Lemma rank_stk k n s F : rank (stk k n s F) = S (List.length s).
Proof. unfold rank, stk, tab; simpl. apply length_insert_at. Qed.

(** ** expand_dims *)

Lemma ravel_insert_1 k s i :
  k <= List.length s -> List.length i = List.length s ->
  ravel (insert_at k 1 s) (insert_at k 0 i) = ravel s i.
Proof.
  revert s i; induction k as [|k IH]; intros s i K L.
  - rewrite !insert_at_0. simpl. lia.
  - destruct s as [|m s]; simpl in K; [lia|]. destruct i as [|x i]; simpl in L; [lia|].
    rewrite !insert_at_S. cbn [ravel]. rewrite IH by lia. rewrite prod_insert_at. lia.
Qed.

Lemma expand_dims_tab k s (f : list nat -> A) :
  k <= List.length s -> expand_dims (tab s f) (Z.of_nat k) = Ok (stk k 1 s (fun _ => f)).
Proof.
  intros K. unfold expand_dims. rewrite rank_tab, norm_axis_nat by lia. cbn [bind]. f_equal.
  apply tensor_ext.
  - unfold wf; simpl. rewrite map_length, length_indices, prod_insert_at. lia.
  - apply wf_tab.
  - reflexivity.
  - simpl. intros i I. destruct (inb_insert_inv _ _ _ _ K I) as [v [j [-> [V J]]]].
    rewrite at_stk by auto. assert (v = 0) by lia. subst v.
    pose proof (inb_length _ _ J).
    rewrite (at_reshape _ s _ _ j) by (apply ravel_insert_1; auto).
    change (mkTensor s (map f (indices s))) with (tab s f). apply at_tab; auto.
Qed.

(** ** flip *)

Lemma flip_tab k s (f : list nat -> A) :
  k < List.length s ->
  flip (tab s f) (Z.of_nat k) = Ok (tab s (fun i => f (upd k (nth k s 0 - 1 - nth k i 0) i))).
Proof.
  intros K. unfold flip. rewrite rank_tab, norm_axis_nat by lia. cbn [bind]. f_equal.
  simpl. apply tab_ext. intros i I. apply at_tab. apply inb_upd; auto.
  pose proof (inb_nth _ _ _ I K). lia.
Qed.

(** An axis of the slices as an axis of the stack. *)
Definition shift (k a : nat) : nat := if k <=? a then S a else a.

Lemma shift_Z k a :
  (if (Z.of_nat k <=? Z.of_nat a)%Z then (Z.of_nat a + 1)%Z else Z.of_nat a) = Z.of_nat (shift k a).
Proof. unfold shift. destruct (Nat.leb_spec k a), (Z.leb_spec (Z.of_nat k) (Z.of_nat a)); lia. Qed.

Lemma nth_shift k a v (l : list nat) :
  k <= List.length l -> nth (shift k a) (insert_at k v l) 0 = nth a l 0.
Proof.
  intros K. unfold shift. destruct (Nat.leb_spec k a).
  - apply nth_insert_at_gt; auto.
  - apply nth_insert_at_lt; auto.
Qed.

Lemma upd_shift k a (v w : nat) l :
  k <= List.length l -> upd (shift k a) v (insert_at k w l) = insert_at k w (upd a v l).
Proof.
  intros K. unfold shift. destruct (Nat.leb_spec k a).
  - apply upd_insert_at_ge; auto.
  - apply upd_insert_at_lt; auto.
Qed.

Lemma shift_lt k a r : k <= r -> a < r -> shift k a < S r.
Proof. unfold shift. destruct (Nat.leb_spec k a); lia. Qed.

Lemma shift_inj k a b : shift k a = shift k b -> a = b.
Proof. unfold shift. destruct (Nat.leb_spec k a), (Nat.leb_spec k b); lia. Qed.

Lemma shift_neq k a : shift k a <> k.
Proof. unfold shift. destruct (Nat.leb_spec k a); lia. Qed.

Lemma remove_at_upd_shift k a v (i : list nat) :
  k < List.length i -> remove_at k (upd (shift k a) v i) = upd a v (remove_at k i).
Proof.
  intros K. rewrite <- (insert_remove_at k i K) at 1. rewrite upd_shift.
  - rewrite remove_insert_at; auto. rewrite length_upd, length_remove_at; lia.
  - rewrite length_remove_at; lia.
Qed.

Lemma nth_remove_at_shift k a (i : list nat) :
  k < List.length i -> nth a (remove_at k i) 0 = nth (shift k a) i 0.
Proof.
  intros K. rewrite <- (insert_remove_at k i K) at 2. rewrite nth_shift; auto.
  rewrite length_remove_at; lia.
Qed.

Lemma flip_stk k n s F a :
  k <= List.length s -> a < List.length s ->
  flip (stk k n s F) (Z.of_nat (shift k a))
  = Ok (stk k n s (fun g i => F g (upd a (nth a s 0 - 1 - nth a i 0) i))).
Proof.
  intros K H. unfold stk at 1. rewrite flip_tab.
  2:{ rewrite length_insert_at. apply shift_lt; lia. }
  f_equal. rewrite tab_stk by auto. apply stk_ext; auto. intros g i G I.
  pose proof (inb_length _ _ I).
  rewrite !nth_shift by lia. rewrite upd_shift by lia.
  rewrite nth_insert_at_eq, remove_insert_at by (rewrite ?length_upd; lia). reflexivity.
Qed.

(** ** concatenate *)

Definition pickF (L : list (nat * (nat -> list nat -> A))) : nat -> list nat -> A :=
  fold_right (fun nF rest g i => if g <? fst nF then snd nF g i else rest (g - fst nF) i)
             (fun _ _ => zero) L.

Definition total (L : list (nat * (nat -> list nat -> A))) : nat :=
  fold_right Nat.add 0 (map fst L).

Lemma same_shape_insert k n m s :
  k <= List.length s -> same_shape_except k (insert_at k n s) (insert_at k m s) = true.
Proof.
  intros K. unfold same_shape_except. rewrite !length_insert_at, Nat.eqb_refl. simpl.
  rewrite !remove_insert_at by auto. clear. induction s; simpl; auto.
  rewrite Nat.eqb_refl. auto.
Qed.

Lemma concatenate_stk k s L :
  L <> [] -> k <= List.length s ->
  concatenate (map (fun nF => stk k (fst nF) s (snd nF)) L) (Z.of_nat k)
  = Ok (stk k (total L) s (pickF L)).
Proof.
  intros NE K. unfold concatenate.
  destruct (map (fun nF => stk k (fst nF) s (snd nF)) L) as [|t0 ts] eqn:E.
  { destruct L; [congruence|discriminate]. }
  assert (T0 : shape t0 = insert_at k (nth k (shape t0) 0) s).
  { destruct L as [|[n F] L']; [discriminate|]. cbn [map fst snd] in E. injection E as <- _.
    rewrite shape_stk, nth_insert_at_eq; auto. }
  assert (R : rank t0 = S (List.length s)).
  { unfold rank. rewrite T0. apply length_insert_at. }
  rewrite R, norm_axis_nat by lia. cbn [bind]. rewrite <- E.
  rewrite (proj2 (forallb_forall _ _)).
  2:{ intros t T. apply in_map_iff in T as [[m F'] [<- _]]. rewrite T0. apply same_shape_insert; auto. }
  f_equal. rewrite T0, upd_insert_at by auto.
  rewrite map_map.
  replace (map (fun x => nth k (shape (stk k (fst x) s (snd x))) 0) L) with (map fst L).
  2:{ apply map_ext. intros [m F']. simpl. rewrite nth_insert_at_eq; auto. }
  change (fold_right Nat.add 0 (map fst L)) with (total L).
  rewrite tab_stk by auto. apply stk_ext; auto. intros g i G I.
  pose proof (inb_length _ _ I). rewrite nth_insert_at_eq by lia.
  clear NE E T0 R. generalize g at 2 as w. revert g G.
  induction L as [|[m F'] L' IH]; intros g G w; unfold total in G; simpl in *; [lia|].
  rewrite nth_insert_at_eq by lia. destruct (Nat.ltb_spec g m).
  - rewrite upd_insert_at by lia. apply at_stk; auto.
  - apply IH. unfold total. lia.
Qed.

Lemma concatenate_stk2 k s n1 F1 n2 F2 :
  k <= List.length s ->
  concatenate [stk k n1 s F1; stk k n2 s F2] (Z.of_nat k)
  = Ok (stk k (n1 + n2) s (fun g => if g <? n1 then F1 g else F2 (g - n1))).
Proof.
  intros K. etransitivity; [apply (concatenate_stk k s [(n1, F1); (n2, F2)]); [discriminate|auto]|].
  f_equal. unfold total; simpl. rewrite Nat.add_0_r. apply stk_ext; auto.
  intros g i G I. destruct (Nat.ltb_spec g n1); auto.
  destruct (Nat.ltb_spec (g - n1) n2); auto. lia.
Qed.

(** Slices that do not all have the same shape are refused. *)
Lemma same_shape_except_eq k (s s' : list nat) :
  k < List.length s -> same_shape_except k s s' = true ->
  List.length s = List.length s' /\ remove_at k s = remove_at k s'.
Proof.
  intros K H. unfold same_shape_except in H. apply andb_true_iff in H as [H1 H2].
  apply Nat.eqb_eq in H1. split; auto.
  assert (L : List.length (remove_at k s) = List.length (remove_at k s')).
  { rewrite !length_remove_at; lia. }
  revert L H2. generalize (remove_at k s) as l, (remove_at k s') as l'.
  induction l as [|x l IH]; intros [|y l'] L H2; simpl in *; try lia; auto.
  apply andb_true_iff in H2 as [E H2]. apply Nat.eqb_eq in E. f_equal; auto.
Qed.

Lemma concatenate_stk2_bad k s n1 F1 s' n2 F2 :
  k <= List.length s -> k <= List.length s' -> s <> s' ->
  concatenate [stk k n1 s F1; stk k n2 s' F2] (Z.of_nat k) = Err BackendError.
Proof.
  intros K K' N. unfold concatenate. rewrite rank_stk, norm_axis_nat by lia. cbn [bind].
  cbn [forallb]. rewrite !shape_stk, same_shape_insert by auto. cbn [andb].
  destruct (same_shape_except k (insert_at k n1 s) (insert_at k n2 s')) eqn:E; auto.
  exfalso. apply N. apply same_shape_except_eq in E.
  - destruct E as [_ E]. rewrite !remove_insert_at in E; auto.
  - rewrite length_insert_at. lia.
Qed.

Lemma concatenate_bad ts t0 u axis :
  In u ts -> hd_error ts = Some t0 ->
  (forall k, norm_axis (rank t0) axis = Ok k -> same_shape_except k (shape t0) (shape u) = false) ->
  exists e, concatenate ts axis = Err e.
Proof.
  intros U H B. unfold concatenate. destruct ts as [|t ts]; [discriminate|].
  injection H as ->. destruct (norm_axis (rank t0) axis) as [k|e]; cbn [bind]; eauto.
  replace (forallb (fun t => same_shape_except k (shape t0) (shape t)) (t0 :: ts)) with false; eauto.
  symmetry. apply not_true_iff_false. intros C. rewrite forallb_forall in C.
  specialize (C u U). rewrite B in C; auto. discriminate.
Qed.

(** ** take *)

Lemma ravel_1 n x : ravel [n] [x] = x.
Proof. simpl. lia. Qed.

Lemma take_tab k s (f : list nat -> A) (idx : tensor nat) :
  k < List.length s -> (forall v, In v (data idx) -> v < nth k s 0) -> wf idx ->
  take (tab s f) idx (Z.of_nat k)
  = Ok (tab (firstn k s ++ shape idx ++ skipn (S k) s)
            (fun i => f (firstn k i ++ at_ idx (firstn (List.length (shape idx)) (skipn k i))
                                    :: skipn (k + List.length (shape idx)) i))).
Proof.
  intros K V W. unfold take. rewrite rank_tab, norm_axis_nat by lia. cbn [bind].
  rewrite shape_tab.
  rewrite (proj2 (forallb_forall _ _)) by (intros x Hx; apply Nat.ltb_lt; auto).
  f_equal. apply tab_ext. intros i I. unfold at_ at 2, zero, Zero_nat.
  destruct (split_at_elem s k K) as [s1 [s2 [E L]]].
  rewrite E in I. rewrite firstn_app_exact in I by auto.
  replace (s1 ++ nth k s 0 :: s2) with ((s1 ++ [nth k s 0]) ++ s2) in I by (rewrite <- app_assoc; auto).
  rewrite skipn_app_exact in I by (rewrite app_length; simpl; lia).
  destruct (inb_app_split _ _ _ I) as [i1 [i' [-> [I1 I']]]].
  destruct (inb_app_split _ _ _ I') as [iq [i2 [-> [Iq I2]]]].
  pose proof (inb_length _ _ I1). pose proof (inb_length _ _ Iq).
  rewrite firstn_app_exact by lia. rewrite (skipn_app_exact i1 (iq ++ i2)) by lia.
  rewrite firstn_app_exact by lia.
  rewrite (app_assoc i1 iq i2). rewrite skipn_app_exact by (rewrite app_length; lia).
  apply at_tab. rewrite E. apply inb_app; auto. constructor; auto.
  apply V. apply nth_In. rewrite W. apply ravel_lt; auto.
Qed.

Lemma take_vec k s (f : list nat -> A) l :
  k < List.length s -> (forall v, In v l -> v < nth k s 0) ->
  take (tab s f) (vec l) (Z.of_nat k)
  = Ok (tab (upd k (List.length l) s) (fun i => f (upd k (nth (nth k i 0) l 0) i))).
Proof.
  intros K V. rewrite take_tab; auto.
  2:{ unfold wf, vec, prod; simpl. lia. }
  f_equal. simpl shape.
  destruct (split_at_elem s k K) as [s1 [s2 [E L]]].
  assert (ES : firstn k s ++ [List.length l] ++ skipn (S k) s = upd k (List.length l) s).
  { rewrite E. rewrite <- L. rewrite upd_app.
    rewrite firstn_app_exact, skipn_S_app by auto. reflexivity. }
  rewrite ES. apply tab_ext. intros i I.
  rewrite E, <- L, upd_app in I.
  destruct (inb_app_split _ _ _ I) as [i1 [i' [-> [I1 I']]]].
  inversion I' as [|x ? i2 ? X I2]; subst.
  pose proof (inb_length _ _ I1) as L1. f_equal. rewrite <- L1.
  rewrite firstn_app_exact by auto. rewrite upd_app.
  rewrite skipn_app_exact by auto. simpl.
  replace (i1 ++ x :: i2) with ((i1 ++ [x]) ++ i2) by (rewrite <- app_assoc; auto).
  rewrite skipn_app_exact by (rewrite app_length; simpl; lia).
  f_equal. f_equal. unfold at_, vec; simpl.
  rewrite <- app_assoc. simpl. rewrite app_nth2, Nat.sub_diag by lia. simpl.
  rewrite Nat.mul_1_r, Nat.add_0_r. reflexivity.
Qed.

Lemma take_stk k n s F l :
  k <= List.length s -> (forall v, In v l -> v < n) ->
  take (stk k n s F) (vec l) (Z.of_nat k) = Ok (stk k (List.length l) s (fun g => F (nth g l 0))).
Proof.
  intros K V. unfold stk at 1. rewrite take_vec.
  - f_equal. rewrite upd_insert_at by auto. rewrite tab_stk by auto. apply stk_ext; auto.
    intros g i G I. pose proof (inb_length _ _ I).
    rewrite upd_insert_at by lia. rewrite !nth_insert_at_eq by lia.
    rewrite remove_insert_at by lia. reflexivity.
  - rewrite length_insert_at. lia.
  - rewrite nth_insert_at_eq; auto.
Qed.

(** ** transpose *)

Lemma is_perm_true r p : List.length p = r -> (forall a, a < r -> In a p) -> is_perm r p = true.
Proof.
  intros L H. unfold is_perm. rewrite L, Nat.eqb_refl. simpl.
  apply forallb_forall. intros a Ha. apply mem_In. apply H. apply in_seq in Ha. lia.
Qed.

Lemma perm_NoDup r p : List.length p = r -> (forall a, a < r -> In a p) -> NoDup p.
Proof.
  intros L H. apply (@NoDup_incl_NoDup _ (seq 0 r) p).
  - apply seq_NoDup.
  - rewrite seq_length. lia.
  - intros a Ha. apply H. apply in_seq in Ha. lia.
Qed.

(** A characterisation of the source index of a transposition. *)
Lemma perm_src_char r p i j :
  List.length p = r -> (forall a, a < r -> In a p) -> List.length j = r ->
  (forall m, m < r -> nth (nth m p 0) j 0 = nth m i 0) -> perm_src p i = j.
Proof.
  intros L H LJ E. apply nth_ext0; unfold perm_src.
  - rewrite map_length, seq_length. lia.
  - rewrite map_length, seq_length, L. intros a Ha.
    rewrite (nth_indep _ 0 (nth (index_of 0 p) i 0)) by (rewrite map_length, seq_length; lia).
    rewrite (map_nth (fun a => nth (index_of a p) i 0)).
    rewrite seq_nth by lia. simpl.
    specialize (H a Ha). pose proof (index_of_lt _ _ H).
    rewrite <- E by lia. rewrite nth_index_of; auto.
Qed.

Lemma transpose_tab s (f : list nat -> A) p s' (src : list nat -> list nat) :
  List.length p = List.length s -> (forall a, a < List.length s -> In a p) ->
  List.length s' = List.length s ->
  (forall m, m < List.length s -> nth m s' 0 = nth (nth m p 0) s 0) ->
  (forall i, inb s' i -> inb s (src i)) ->
  (forall i, inb s' i -> forall m, m < List.length s -> nth (nth m p 0) (src i) 0 = nth m i 0) ->
  transpose (tab s f) p = Ok (tab s' (fun i => f (src i))).
Proof.
  intros L H LS ES SI E. unfold transpose. rewrite rank_tab, is_perm_true; auto. f_equal.
  assert (S' : map (fun a => nth a (shape (tab s f)) 0) p = s').
  { apply nth_ext0; rewrite map_length; [lia|]. intros m M. simpl.
    rewrite (nth_indep _ 0 (nth 0 s 0)) by (rewrite map_length; lia).
    rewrite (map_nth (fun a => nth a s 0)). rewrite ES by lia. reflexivity. }
  rewrite S'. apply tab_ext. intros i I.
  rewrite (perm_src_char (List.length s) p i (src i)); auto.
  - apply at_tab; auto.
  - apply inb_length; auto.
Qed.

(** *** swapping two axes *)

Definition swapi (x y : nat) (i : list nat) : list nat := upd x (nth y i 0) (upd y (nth x i 0) i).

Lemma length_swapi x y i : List.length (swapi x y i) = List.length i.
Proof. unfold swapi. rewrite !length_upd. reflexivity. Qed.

Lemma nth_swapi x y i m :
  x < List.length i -> y < List.length i -> m < List.length i ->
  nth m (swapi x y i) 0 = nth (if m =? x then y else if m =? y then x else m) i 0.
Proof.
  intros X Y M. unfold swapi. rewrite nth_upd by (rewrite length_upd; lia).
  rewrite (Nat.eqb_sym x m), nth_upd, (Nat.eqb_sym y m) by lia.
  destruct (m =? x); auto. destruct (m =? y); auto.
Qed.

Lemma swapi_invol x y i : x < List.length i -> y < List.length i -> swapi x y (swapi x y i) = i.
Proof.
  intros X Y. apply nth_ext0; rewrite !length_swapi; auto. intros m M.
  rewrite nth_swapi by (rewrite ?length_swapi; auto).
  rewrite nth_swapi; try lia.
  - f_equal. destruct (Nat.eqb_spec m x), (Nat.eqb_spec m y);
      repeat match goal with |- context[?a =? ?b] => destruct (Nat.eqb_spec a b) end; lia.
  - destruct (Nat.eqb_spec m x), (Nat.eqb_spec m y); lia.
Qed.

Lemma inb_swapi s i x y :
  x < List.length s -> y < List.length s -> inb s i -> inb (swapi x y s) (swapi x y i).
Proof.
  intros X Y I. pose proof (inb_length _ _ I). apply inb_intro.
  - rewrite !length_swapi; auto.
  - rewrite length_swapi. intros m M. rewrite !nth_swapi by lia. apply inb_nth; auto.
    destruct (m =? x); auto. destruct (m =? y); auto.
Qed.

Lemma nth_swapi_seq x y r m :
  x < r -> y < r -> m < r ->
  nth m (upd y x (upd x y (seq 0 r))) 0 = if m =? y then x else if m =? x then y else m.
Proof.
  intros X Y M. rewrite nth_upd by (rewrite length_upd, seq_length; lia).
  rewrite (Nat.eqb_sym y m). destruct (Nat.eqb_spec m y); auto.
  rewrite nth_upd by (rewrite seq_length; lia). rewrite (Nat.eqb_sym x m).
  destruct (Nat.eqb_spec m x); auto. rewrite seq_nth; lia.
Qed.

Lemma transpose_swap x y s (f : list nat -> A) :
  x < List.length s -> y < List.length s ->
  transpose (tab s f) (upd y x (upd x y (seq 0 (List.length s))))
  = Ok (tab (swapi x y s) (fun i => f (swapi x y i))).
Proof.
  intros X Y. apply transpose_tab.
  - rewrite !length_upd, seq_length. reflexivity.
  - intros a Ha.
    assert (E : nth (if a =? y then x else if a =? x then y else a) (upd y x (upd x y (seq 0 (List.length s)))) 0 = a).
    { rewrite nth_swapi_seq; auto.
      - destruct (Nat.eqb_spec a x), (Nat.eqb_spec a y);
          repeat match goal with |- context[?a =? ?b] => destruct (Nat.eqb_spec a b) end; lia.
      - destruct (Nat.eqb_spec a x), (Nat.eqb_spec a y); lia. }
    rewrite <- E at 1. apply nth_In. rewrite !length_upd, seq_length.
    destruct (Nat.eqb_spec a x), (Nat.eqb_spec a y); lia.
  - apply length_swapi.
  - intros m M. rewrite nth_swapi_seq, nth_swapi by auto. f_equal.
    destruct (Nat.eqb_spec m x), (Nat.eqb_spec m y); lia.
  - intros i I. assert (L : List.length i = List.length s).
    { rewrite <- (length_swapi x y s). apply inb_length; auto. }
    rewrite <- (swapi_invol x y s) by auto. apply inb_swapi; auto; rewrite length_swapi; auto.
  - intros i I m M. assert (L : List.length i = List.length s).
    { rewrite <- (length_swapi x y s). apply inb_length; auto. }
    rewrite nth_swapi_seq by auto. rewrite nth_swapi; try lia.
    + f_equal. destruct (Nat.eqb_spec m x), (Nat.eqb_spec m y);
        repeat match goal with |- context[?a =? ?b] => destruct (Nat.eqb_spec a b) end; lia.
    + destruct (Nat.eqb_spec m x), (Nat.eqb_spec m y); lia.
Qed.

Lemma swapi_shift k x y v (i : list nat) :
  k <= List.length i -> swapi (shift k x) (shift k y) (insert_at k v i) = insert_at k v (swapi x y i).
Proof.
  intros K. unfold swapi. rewrite !nth_shift, !upd_shift by (rewrite ?length_upd; lia). reflexivity.
Qed.

Lemma transpose_swap_stk k n s F x y :
  k <= List.length s -> x < List.length s -> y < List.length s ->
  let x' := shift k x in let y' := shift k y in
  transpose (stk k n s F) (upd y' x' (upd x' y' (seq 0 (S (List.length s)))))
  = Ok (stk k n (swapi x y s) (fun g i => F g (swapi x y i))).
Proof.
  intros K X Y x' y'. unfold stk at 1. rewrite <- (length_insert_at k n s).
  rewrite transpose_swap by (unfold x', y'; rewrite length_insert_at; apply shift_lt; lia).
  f_equal. unfold x', y'. rewrite swapi_shift by auto.
  rewrite tab_stk by (rewrite length_swapi; auto).
  apply stk_ext; [rewrite length_swapi; auto|]. intros g i G I.
  pose proof (inb_length _ _ I) as L. rewrite length_swapi in L.
  rewrite swapi_shift by lia. rewrite nth_insert_at_eq, remove_insert_at by (rewrite length_swapi; lia).
  reflexivity.
Qed.

(** *** moving an axis *)

Lemma nth_seq0 a r : a < r -> nth a (seq 0 r) 0 = a.
Proof. intros. rewrite seq_nth; lia. Qed.

Lemma nth_moveaxis_perm r src dst m :
  src < r -> dst < r -> m < r ->
  nth m (moveaxis_perm r src dst) 0
  = if m =? dst then src else shift src (if dst <? m then m - 1 else m).
Proof.
  intros S D M. unfold moveaxis_perm.
  assert (LR : List.length (remove_at src (seq 0 r)) = r - 1).
  { rewrite length_remove_at; rewrite seq_length; auto. }
  assert (NR : forall a, a < r - 1 -> nth a (remove_at src (seq 0 r)) 0 = shift src a).
  { intros a Ha. rewrite nth_remove_at_shift by (rewrite seq_length; auto).
    apply nth_seq0. unfold shift. destruct (src <=? a); lia. }
  destruct (Nat.eqb_spec m dst) as [->|N].
  - apply nth_insert_at_eq. lia.
  - destruct (Nat.ltb_spec dst m).
    + destruct m as [|m]; [lia|]. rewrite nth_insert_at_gt by lia.
      rewrite NR by lia. f_equal. lia.
    + rewrite nth_insert_at_lt by lia. rewrite NR by lia. reflexivity.
Qed.

Lemma moveaxis_stk src dst n s F :
  src <= List.length s -> dst <= List.length s ->
  moveaxis (stk src n s F) (Z.of_nat src) (Z.of_nat dst) = Ok (stk dst n s F).
Proof.
  intros S D. unfold moveaxis. rewrite rank_stk, !norm_axis_nat by lia. cbn [bind].
  set (r := Datatypes.S (List.length s)).
  assert (LP : List.length (moveaxis_perm r src dst) = r).
  { unfold moveaxis_perm, r. rewrite length_insert_at, length_remove_at; rewrite seq_length; lia. }
  unfold stk at 1.
  rewrite (transpose_tab _ _ _ (insert_at dst n s) (fun i => insert_at src (nth dst i 0) (remove_at dst i))).
  - f_equal. rewrite tab_stk by auto. apply stk_ext; auto. intros g i G I.
    pose proof (inb_length _ _ I).
    rewrite (nth_insert_at_eq dst), (remove_insert_at dst) by lia.
    rewrite nth_insert_at_eq, remove_insert_at by lia. reflexivity.
  - rewrite LP. unfold r. rewrite length_insert_at. reflexivity.
  - rewrite length_insert_at. fold r. intros a Ha.
    assert (exists m, m < r /\ nth m (moveaxis_perm r src dst) 0 = a) as [m [M E]].
    { destruct (Nat.eq_dec a src) as [->|N].
      - exists dst. split; [lia|]. rewrite nth_moveaxis_perm by lia. rewrite Nat.eqb_refl. auto.
      - set (b := if src <? a then a - 1 else a).
        assert (B : shift src b = a /\ b < r - 1).
        { unfold shift, b. destruct (Nat.ltb_spec src a);
            match goal with |- context[?x <=? ?y] => destruct (Nat.leb_spec x y) end; lia. }
        destruct B as [B1 B2].
        exists (shift dst b). split; [unfold shift; destruct (dst <=? b); lia|].
        rewrite nth_moveaxis_perm; [|lia|lia|unfold shift; destruct (dst <=? b); lia].
        destruct (Nat.eqb_spec (shift dst b) dst) as [E|_]; [exfalso; revert E; apply shift_neq|].
        rewrite <- B1. f_equal. unfold shift.
        destruct (Nat.leb_spec dst b);
          match goal with |- context[?x <? ?y] => destruct (Nat.ltb_spec x y) end; lia. }
    rewrite <- E. apply nth_In. lia.
  - rewrite !length_insert_at. reflexivity.
  - rewrite length_insert_at. fold r. intros m M. rewrite nth_moveaxis_perm by lia.
    destruct (Nat.eqb_spec m dst) as [->|N].
    + rewrite !nth_insert_at_eq by auto. reflexivity.
    + rewrite nth_shift by auto. destruct (Nat.ltb_spec dst m).
      * destruct m as [|m]; [lia|]. rewrite nth_insert_at_gt by lia. f_equal. lia.
      * rewrite nth_insert_at_lt by lia. reflexivity.
  - intros i I. destruct (inb_insert_inv _ _ _ _ D I) as [v [j [-> [V J]]]].
    pose proof (inb_length _ _ J). rewrite nth_insert_at_eq, remove_insert_at by lia.
    apply inb_insert; auto.
  - rewrite length_insert_at. fold r. intros i I m M.
    destruct (inb_insert_inv _ _ _ _ D I) as [v [j [-> [V J]]]].
    pose proof (inb_length _ _ J). rewrite nth_insert_at_eq, remove_insert_at by lia.
    rewrite nth_moveaxis_perm by lia.
    destruct (Nat.eqb_spec m dst) as [->|N].
    + rewrite !nth_insert_at_eq by lia. reflexivity.
    + rewrite nth_shift by lia. destruct (Nat.ltb_spec dst m).
      * destruct m as [|m]; [lia|]. rewrite nth_insert_at_gt by lia. f_equal. lia.
      * rewrite nth_insert_at_lt by lia. reflexivity.
Qed.

(** ** reshape *)

Lemma resolve_nat n s : prod s = n -> resolve_shape n (map Z.of_nat s) = Ok s.
Proof.
  intros P. unfold resolve_shape.
  assert (F : filter (fun z => negb (z =? -1)%Z) (map Z.of_nat s) = map Z.of_nat s).
  { clear. induction s as [|x s IH]; auto. cbn [map filter].
    destruct (Z.eqb_spec (Z.of_nat x) (-1)); [lia|]. cbn [negb]. f_equal; auto. }
  rewrite F.
  assert (G : forallb (fun z => (0 <=? z)%Z) (map Z.of_nat s) = true).
  { clear. induction s as [|x s IH]; auto. cbn [map forallb]. rewrite IH.
    destruct (Z.leb_spec 0 (Z.of_nat x)); [auto|lia]. }
  rewrite G, Nat.sub_diag.
  assert (M : map Z.to_nat (map Z.of_nat s) = s).
  { clear. induction s as [|x s IH]; simpl; auto. rewrite Nat2Z.id. f_equal; auto. }
  rewrite M, P, Nat.eqb_refl. reflexivity.
Qed.

Lemma reshape_tab s (f : list nat -> A) s' (src : list nat -> list nat) :
  prod s' = prod s -> (forall i, inb s' i -> inb s (src i) /\ ravel s (src i) = ravel s' i) ->
  reshape (tab s f) (map Z.of_nat s') = Ok (tab s' (fun i => f (src i))).
Proof.
  intros P H. unfold reshape. simpl data. rewrite map_length, length_indices.
  rewrite resolve_nat by auto. cbn [bind]. f_equal. apply tensor_ext.
  - unfold wf; simpl. rewrite map_length, length_indices. auto.
  - apply wf_tab.
  - reflexivity.
  - simpl. intros i I. rewrite at_tab by auto. destruct (H i I) as [H1 H2].
    rewrite (at_reshape _ s _ _ (src i)) by auto.
    change (mkTensor s (map f (indices s))) with (tab s f). apply at_tab; auto.
Qed.

(** *** splitting and merging an axis *)

Lemma prod_upd_mul a n c s : a < List.length s -> nth a s 0 = c -> prod (upd a (n * c) s) = n * prod s.
Proof.
  revert s; induction a as [|a IH]; intros [|m s] H C; cbn [nth List.length upd] in H, C |- *; try (exfalso; lia).
  - subst m. rewrite !prod_cons. lia.
  - rewrite !prod_cons. rewrite IH by (auto; lia). lia.
Qed.

Lemma ravel_upd_insert a n c (s i : list nat) g x :
  a < List.length s -> List.length i = List.length s -> nth a s 0 = c -> 
  ravel (insert_at a n s) (insert_at a g (upd a x i)) = ravel (upd a (n * c) s) (upd a (g * c + x) i).
Proof.
  revert s i; induction a as [|a IH]; intros s i H L C.
  - destruct s as [|m s]; simpl in H; [lia|]. destruct i as [|y i]; simpl in L; [lia|].
    simpl in C. subst m. rewrite !insert_at_0. simpl upd. cbn [ravel]. rewrite prod_cons. lia.
  - destruct s as [|m s]; simpl in H; [lia|]. destruct i as [|y i]; simpl in L; [lia|].
    simpl in C. rewrite insert_at_S. simpl upd. rewrite insert_at_S. cbn [ravel].
    rewrite IH by (auto; lia). rewrite prod_insert_at, (prod_upd_mul a n c) by (auto; lia). reflexivity.
Qed.

(** [s] is the shape after splitting off an axis of size [n]. *)
Lemma reshape_split a n (s : list nat) (f : list nat -> A) :
  a < List.length s ->
  reshape (tab (upd a (n * nth a s 0) s) f) (map Z.of_nat (insert_at a n s))
  = Ok (stk a n s (fun g i => f (upd a (g * nth a s 0 + nth a i 0) i))).
Proof.
  intros H. set (c := nth a s 0).
  rewrite (reshape_tab _ _ _ (fun i => let j := remove_at a i in
                                        upd a (nth a i 0 * c + nth a j 0) j)).
  - f_equal.
  - rewrite prod_insert_at, (prod_upd_mul a n c) by auto. reflexivity.
  - intros i I. assert (K : a <= List.length s) by lia.
    destruct (inb_insert_inv _ _ _ _ K I) as [v [j [-> [V J]]]].
    pose proof (inb_length _ _ J) as L. pose proof (inb_nth _ _ _ J H) as X. fold c in X.
    cbv zeta. rewrite nth_insert_at_eq, remove_insert_at by lia. split.
    + apply inb_upd_both; auto. nia.
    + rewrite <- (ravel_upd_insert a n c) by auto. rewrite upd_same. reflexivity.
Qed.

Lemma reshape_merge a n (s : list nat) (F : nat -> list nat -> A) :
  a < List.length s -> nth a s 0 <> 0 ->
  reshape (stk a n s F) (map Z.of_nat (upd a (n * nth a s 0) s))
  = Ok (tab (upd a (n * nth a s 0) s)
            (fun i => F (nth a i 0 / nth a s 0) (upd a (nth a i 0 mod nth a s 0) i))).
Proof.
  intros H NZ. set (c := nth a s 0) in *.
  unfold stk. rewrite (reshape_tab _ _ _ (fun i => insert_at a (nth a i 0 / c) (upd a (nth a i 0 mod c) i))).
  - f_equal. apply tab_ext. intros i I. pose proof (inb_length _ _ I) as L. rewrite length_upd in L.
    rewrite nth_insert_at_eq, remove_insert_at by (rewrite length_upd; lia). reflexivity.
  - rewrite prod_insert_at, (prod_upd_mul a n c) by auto. reflexivity.
  - intros i I. pose proof (inb_length _ _ I) as L. rewrite length_upd in L.
    assert (X : nth a i 0 < n * c).
    { pose proof (inb_nth _ _ a I) as X. rewrite length_upd, nth_upd_same in X by auto. auto. }
    split.
    + apply inb_insert; [lia| |].
      * replace s with (upd a c (upd a (n * c) s)) by (rewrite upd_upd; apply upd_same).
        apply inb_upd_both; auto. apply Nat.mod_upper_bound; auto.
      * apply Nat.div_lt_upper_bound; auto. lia.
    + rewrite (ravel_upd_insert a n c) by auto. f_equal.
      replace (nth a i 0 / c * c + nth a i 0 mod c) with (nth a i 0).
      * apply upd_same.
      * pose proof (Nat.div_mod (nth a i 0) c NZ). lia.
Qed.

End OpFacts.
