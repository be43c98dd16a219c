(** Facts about multi-indices and tensors. *)
From Coq Require Import Permutation.
From Verif Require Export Tensor.

(* ------------------------------------------------------------------ *)
(** * Lists *)

Lemma length_upd {A} k (v : A) l : List.length (upd k v l) = List.length l.
Proof. revert k; induction l as [|x l IH]; intros [|k]; simpl; auto. Qed.

Lemma nth_upd_same {A} k (v d : A) l : k < List.length l -> nth k (upd k v l) d = v.
Proof. revert k; induction l as [|x l IH]; intros [|k] H; simpl in *; try lia; auto. apply IH; lia. Qed.

Lemma nth_upd_other {A} k j (v d : A) l : k <> j -> nth j (upd k v l) d = nth j l d.
Proof.
  revert k j; induction l as [|x l IH]; intros [|k] [|j] H; simpl; try congruence; auto.
Qed.

Lemma nth_upd {A} k j (v d : A) l :
  j < List.length l -> nth j (upd k v l) d = if k =? j then v else nth j l d.
Proof.
  intros H. destruct (Nat.eqb_spec k j) as [->|N].
  - apply nth_upd_same; auto.
  - apply nth_upd_other; auto.
Qed.

Lemma upd_same {A} k (d : A) l : upd k (nth k l d) l = l.
Proof. revert k; induction l as [|x l IH]; intros [|k]; simpl; auto. f_equal; auto. Qed.

Lemma upd_upd {A} k (v w : A) l : upd k v (upd k w l) = upd k v l.
Proof. revert k; induction l as [|x l IH]; intros [|k]; simpl; auto. f_equal; auto. Qed.

Lemma upd_out {A} k (v : A) l : List.length l <= k -> upd k v l = l.
Proof. revert k; induction l as [|x l IH]; intros [|k] H; simpl in *; auto; try lia. f_equal; apply IH; lia. Qed.

Lemma nth_ext0 (l l' : list nat) :
  List.length l = List.length l' ->
  (forall k, k < List.length l -> nth k l 0 = nth k l' 0) -> l = l'.
Proof. intros H1 H2. apply (nth_ext _ _ 0 0); auto. Qed.

Lemma length_insert_at {A} k (v : A) l : List.length (insert_at k v l) = S (List.length l).
Proof.
  unfold insert_at. rewrite app_length. simpl. rewrite firstn_length, skipn_length. lia.
Qed.

Lemma nth_insert_at_lt {A} k j (v d : A) l :
  j < k -> k <= List.length l -> nth j (insert_at k v l) d = nth j l d.
Proof.
  intros H1 H2. unfold insert_at. rewrite app_nth1 by (rewrite firstn_length; lia).
  rewrite <- (firstn_skipn k l) at 2. rewrite app_nth1; auto. rewrite firstn_length; lia.
Qed.

Lemma nth_insert_at_eq {A} k (v d : A) l : k <= List.length l -> nth k (insert_at k v l) d = v.
Proof.
  intros H. unfold insert_at. rewrite app_nth2 by (rewrite firstn_length; lia).
  rewrite firstn_length. replace (k - Nat.min k (List.length l)) with 0 by lia. reflexivity.
Qed.

Lemma nth_insert_at_gt {A} k j (v d : A) l :
  k <= j -> k <= List.length l -> nth (S j) (insert_at k v l) d = nth j l d.
Proof.
  intros H1 H2. unfold insert_at. rewrite app_nth2 by (rewrite firstn_length; lia).
  rewrite firstn_length.
  replace (S j - Nat.min k (List.length l)) with (S (j - k)) by lia. simpl.
  rewrite <- (firstn_skipn k l) at 2. rewrite app_nth2 by (rewrite firstn_length; lia).
  rewrite firstn_length. f_equal. lia.
Qed.

Lemma insert_at_0 {A} (v : A) l : insert_at 0 v l = v :: l.
Proof. reflexivity. Qed.

Lemma insert_at_S {A} k (v x : A) l : insert_at (S k) v (x :: l) = x :: insert_at k v l.
Proof. reflexivity. Qed.

Lemma remove_at_S {A} k (x : A) l : remove_at (S k) (x :: l) = x :: remove_at k l.
Proof. reflexivity. Qed.

Lemma remove_insert_at {A} k (v : A) l : k <= List.length l -> remove_at k (insert_at k v l) = l.
Proof.
  revert k; induction l as [|x l IH]; intros [|k] H; simpl in *; try lia; auto.
  rewrite insert_at_S, remove_at_S. f_equal. apply IH; lia.
Qed.

Lemma insert_remove_at k (l : list nat) : k < List.length l -> insert_at k (nth k l 0) (remove_at k l) = l.
Proof.
  revert k; induction l as [|x l IH]; intros [|k] H; simpl in *; try lia; auto.
  rewrite remove_at_S, insert_at_S. f_equal. apply IH; lia.
Qed.

Lemma length_remove_at {A} k (l : list A) : k < List.length l -> List.length (remove_at k l) = List.length l - 1.
Proof.
  intros H. unfold remove_at. rewrite app_length, firstn_length, skipn_length. lia.
Qed.

Lemma upd_insert_at {A} k (v w : A) l : k <= List.length l -> upd k v (insert_at k w l) = insert_at k v l.
Proof.
  revert k; induction l as [|x l IH]; intros [|k] H; simpl in *; try lia; auto.
  rewrite !insert_at_S. simpl. f_equal. apply IH; lia.
Qed.

Lemma upd_insert_at_lt {A} k j (v w : A) l :
  j < k -> k <= List.length l -> upd j v (insert_at k w l) = insert_at k w (upd j v l).
Proof.
  revert k j; induction l as [|x l IH]; intros [|k] [|j] H1 H2; simpl in *; try lia; auto.
  rewrite !insert_at_S. simpl. f_equal. apply IH; lia.
Qed.

Lemma upd_insert_at_ge {A} k j (v w : A) l :
  k <= j -> k <= List.length l -> upd (S j) v (insert_at k w l) = insert_at k w (upd j v l).
Proof.
  revert k j; induction l as [|x l IH]; intros [|k] [|j] H1 H2; simpl in *; try lia; auto.
  rewrite !insert_at_S. simpl. f_equal. apply IH; lia.
Qed.

Lemma insert_at_app_r {A} (v : A) l1 l2 : insert_at (List.length l1) v (l1 ++ l2) = l1 ++ v :: l2.
Proof.
  unfold insert_at. rewrite firstn_app, Nat.sub_diag, firstn_all. simpl. rewrite app_nil_r.
  rewrite skipn_app, skipn_all, Nat.sub_diag. reflexivity.
Qed.

Lemma remove_at_app {A} (v : A) l1 l2 : remove_at (List.length l1) (l1 ++ v :: l2) = l1 ++ l2.
Proof.
  induction l1 as [|x l1 IH]; [reflexivity|]. simpl.
  rewrite remove_at_S, IH. reflexivity.
Qed.

Lemma upd_app {A} (v w : A) l1 l2 : upd (List.length l1) v (l1 ++ w :: l2) = l1 ++ v :: l2.
Proof. induction l1; simpl; congruence. Qed.

Lemma firstn_app_exact {A} (l1 l2 : list A) n : n = List.length l1 -> firstn n (l1 ++ l2) = l1.
Proof. intros ->. rewrite firstn_app, Nat.sub_diag, firstn_all. simpl. apply app_nil_r. Qed.

Lemma skipn_app_exact {A} (l1 l2 : list A) n : n = List.length l1 -> skipn n (l1 ++ l2) = l2.
Proof. intros ->. rewrite skipn_app, Nat.sub_diag, skipn_all. reflexivity. Qed.

Lemma split_at {A} (l : list A) k : k <= List.length l -> exists l1 l2, l = l1 ++ l2 /\ List.length l1 = k.
Proof.
  intros H. exists (firstn k l), (skipn k l). rewrite firstn_skipn, firstn_length. split; auto; lia.
Qed.

Lemma split_at_elem (l : list nat) k :
  k < List.length l -> exists l1 l2, l = l1 ++ nth k l 0 :: l2 /\ List.length l1 = k.
Proof.
  intros H. destruct (nth_split l 0 H) as [l1 [l2 [E L]]]. exists l1, l2; auto.
Qed.

(* ------------------------------------------------------------------ *)
(** * Python helpers *)

Lemma norm_axis_nat r (k : nat) : k < r -> norm_axis r (Z.of_nat k) = Ok k.
Proof.
  intros H. unfold norm_axis.
  replace ((0 <=? Z.of_nat k) && (Z.of_nat k <? Z.of_nat r))%Z with true by lia.
  rewrite Nat2Z.id. reflexivity.
Qed.

Lemma norm_axis_lt r a k : norm_axis r a = Ok k -> k < r.
Proof.
  unfold norm_axis. destruct ((0 <=? a) && (a <? Z.of_nat r))%Z eqn:E.
  - intros H; injection H as <-. lia.
  - destruct ((- Z.of_nat r <=? a) && (a <? 0))%Z eqn:E2; [|discriminate].
    intros H; injection H as <-. lia.
Qed.

Lemma mem_In a l : mem a l = true <-> In a l.
Proof.
  unfold mem. rewrite existsb_exists. split.
  - intros [x [H E]]. apply Nat.eqb_eq in E. subst; auto.
  - intros H. exists a. split; auto. apply Nat.eqb_refl.
Qed.

Lemma index_of_lt a l : In a l -> index_of a l < List.length l.
Proof.
  induction l as [|x l IH]; simpl; [tauto|]. intros [->|H].
  - rewrite Nat.eqb_refl. lia.
  - destruct (x =? a); [lia|]. apply IH in H. lia.
Qed.

Lemma nth_index_of a l d : In a l -> nth (index_of a l) l d = a.
Proof.
  induction l as [|x l IH]; simpl; [tauto|]. intros [->|H].
  - rewrite Nat.eqb_refl. reflexivity.
  - destruct (Nat.eqb_spec x a); auto.
Qed.

Lemma index_of_nth l k d : NoDup l -> k < List.length l -> index_of (nth k l d) l = k.
Proof.
  revert k; induction l as [|x l IH]; intros k ND H; simpl in *; [lia|].
  inversion ND as [|? ? N1 N2]; subst.
  destruct k as [|k]; simpl.
  - rewrite Nat.eqb_refl. reflexivity.
  - destruct (Nat.eqb_spec x (nth k l d)) as [->|E].
    + exfalso. apply N1. apply nth_In. lia.
    + f_equal. apply IH; auto. lia.
Qed.

Lemma mapM_Ok {A B} (f : A -> result B) (g : A -> B) l :
  (forall x, In x l -> f x = Ok (g x)) -> mapM f l = Ok (map g l).
Proof.
  induction l as [|x l IH]; intros H; simpl; auto.
  rewrite H by (left; auto). simpl. rewrite IH by (intros; apply H; right; auto). reflexivity.
Qed.

Lemma mapM_length {A B} (f : A -> result B) l r : mapM f l = Ok r -> List.length r = List.length l.
Proof.
  revert r; induction l as [|x l IH]; intros r H; simpl in H.
  - injection H as <-; auto.
  - destruct (f x); simpl in H; [|discriminate]. destruct (mapM f l); simpl in H; [|discriminate].
    injection H as <-. simpl. f_equal. auto.
Qed.

Lemma mapM_nth {A B} (f : A -> result B) l r k da db :
  mapM f l = Ok r -> k < List.length l -> f (nth k l da) = Ok (nth k r db).
Proof.
  revert r k; induction l as [|x l IH]; intros r k H K; simpl in *; [lia|].
  destruct (f x) eqn:E; simpl in H; [|discriminate].
  destruct (mapM f l) eqn:E2; simpl in H; [|discriminate].
  injection H as <-. destruct k as [|k]; simpl; auto. apply IH; auto. lia.
Qed.

Lemma mapM_all {A B} (f : A -> result B) (P : A -> B -> Prop) l :
  (forall x, In x l -> exists y, f x = Ok y /\ P x y) ->
  exists r, mapM f l = Ok r /\ Forall2 P l r.
Proof.
  induction l as [|x l IH]; intros H; simpl.
  - exists []. split; auto.
  - destruct (H x) as [y [E Py]]; [left; auto|].
    destruct IH as [r [E2 F]]; [intros z Hz; apply H; right; auto|].
    exists (y :: r). rewrite E. simpl. rewrite E2. simpl. split; auto.
Qed.

Lemma zip_get_spec es vs k p :
  NoDup es -> p < List.length es -> p < List.length vs -> nth p es 0 = k ->
  zip_get es vs k = Ok (nth p vs 0).
Proof.
  revert vs p; induction es as [|e es IH]; intros vs p ND H1 H2 E; simpl in *; [lia|].
  destruct vs as [|v vs]; simpl in *; [lia|].
  inversion ND as [|? ? N1 N2]; subst.
  destruct p as [|p]; simpl in *.
  - assert (Hn : forall vs', exists er, zip_get es vs' e = Err er).
    { clear -N1. induction es as [|x es IH]; intros vs'; simpl; eauto.
      destruct vs' as [|v' vs']; eauto.
      destruct (IH (fun H => N1 (or_intror H)) vs') as [er ->].
      destruct (Nat.eqb_spec x e) as [->|]; eauto. exfalso; apply N1; left; auto. }
    destruct (Hn vs) as [er ->]. rewrite Nat.eqb_refl. reflexivity.
  - rewrite (IH vs p); auto; lia.
Qed.

Lemma zip_get_seq es k p :
  NoDup es -> p < List.length es -> nth p es 0 = k ->
  zip_get es (seq 0 (List.length es)) k = Ok p.
Proof.
  intros ND H E. rewrite (zip_get_spec es _ k p); auto.
  - rewrite seq_nth; auto.
  - rewrite seq_length; auto.
Qed.

(* ------------------------------------------------------------------ *)
(** * Multi-indices *)

Lemma inb_length s i : inb s i -> List.length i = List.length s.
Proof. intros H. induction H; simpl; auto. Qed.

Lemma inb_nth s i k : inb s i -> k < List.length s -> nth k i 0 < nth k s 0.
Proof.
  intros H. revert k. induction H as [|x y l l' H1 H2 IH]; intros [|k] K; simpl in *; try lia.
  apply IH; lia.
Qed.

Lemma inb_intro s i :
  List.length i = List.length s -> (forall k, k < List.length s -> nth k i 0 < nth k s 0) -> inb s i.
Proof.
  revert i; induction s as [|n s IH]; intros [|x i] L H; simpl in *; try lia.
  - constructor.
  - constructor.
    + apply (H 0); lia.
    + apply IH; [lia|]. intros k K. apply (H (S k)); lia.
Qed.

Lemma inb_app s1 s2 i1 i2 : inb s1 i1 -> inb s2 i2 -> inb (s1 ++ s2) (i1 ++ i2).
Proof. intros; apply Forall2_app; auto. Qed.

Lemma inb_app_inv s1 s2 i1 i2 :
  List.length i1 = List.length s1 -> inb (s1 ++ s2) (i1 ++ i2) -> inb s1 i1 /\ inb s2 i2.
Proof.
  revert i1; induction s1 as [|n s1 IH]; intros [|x i1] L H; simpl in *; try lia.
  - split; [constructor|auto].
  - inversion H; subst. destruct (IH i1) as [H1 H2]; auto. split; auto. constructor; auto.
Qed.

Lemma inb_app_split s1 s2 i :
  inb (s1 ++ s2) i -> exists i1 i2, i = i1 ++ i2 /\ inb s1 i1 /\ inb s2 i2.
Proof.
  intros H. pose proof (inb_length _ _ H) as L. rewrite app_length in L.
  destruct (split_at i (List.length s1)) as [i1 [i2 [-> L1]]]; [lia|].
  exists i1, i2. split; auto. apply inb_app_inv; auto.
Qed.

Lemma inb_cons n s x i : inb (n :: s) (x :: i) <-> x < n /\ inb s i.
Proof.
  split; intros H.
  - inversion H; subst; auto.
  - constructor; tauto.
Qed.

Lemma inb_insert k n s v i :
  k <= List.length s -> inb s i -> v < n -> inb (insert_at k n s) (insert_at k v i).
Proof.
  revert s i; induction k as [|k IH]; intros s i K H V.
  - unfold insert_at; simpl. constructor; auto.
  - destruct H as [|x y i s H1 H2]; simpl in K; [lia|].
    rewrite !insert_at_S. constructor; auto. apply IH; auto; lia.
Qed.

Lemma inb_insert_inv k n s i :
  k <= List.length s -> inb (insert_at k n s) i ->
  exists v i', i = insert_at k v i' /\ v < n /\ inb s i'.
Proof.
  revert s i; induction k as [|k IH]; intros s i K H.
  - unfold insert_at in *; simpl in *. inversion H as [|x y i0 s0 H1 H2]; subst. exists x, i0. auto.
  - destruct s as [|m s]; simpl in K; [lia|]. rewrite insert_at_S in H.
    inversion H as [|x y i0 s0 H1 H2]; subst.
    destruct (IH s i0) as [v [i' [-> [V I]]]]; auto; [lia|].
    exists v, (x :: i'). rewrite insert_at_S. repeat split; auto. constructor; auto.
Qed.

Lemma inb_upd s i k v : inb s i -> v < nth k s 0 -> inb s (upd k v i).
Proof.
  intros H V. apply inb_intro.
  - rewrite length_upd. apply inb_length; auto.
  - intros j J. pose proof (inb_length _ _ H). rewrite nth_upd by lia.
    destruct (Nat.eqb_spec k j) as [->|]; auto. apply inb_nth; auto.
Qed.

Lemma inb_upd_both s i k n v : inb s i -> v < n -> inb (upd k n s) (upd k v i).
Proof.
  intros H V. apply inb_intro.
  - rewrite !length_upd. apply inb_length; auto.
  - intros j J. rewrite length_upd in J. pose proof (inb_length _ _ H). rewrite !nth_upd by lia.
    destruct (Nat.eqb_spec k j) as [->|]; auto. apply inb_nth; auto.
Qed.

Lemma prod_app s1 s2 : prod (s1 ++ s2) = prod s1 * prod s2.
Proof. unfold prod. induction s1 as [|n s1 IH]; simpl; [lia|]. rewrite IH. lia. Qed.

Lemma prod_cons n s : prod (n :: s) = n * prod s.
Proof. reflexivity. Qed.

Lemma prod_insert_at k n s : prod (insert_at k n s) = n * prod s.
Proof.
  unfold insert_at. rewrite prod_app. rewrite prod_cons.
  rewrite <- (firstn_skipn k s) at 3. rewrite prod_app. lia.
Qed.

Lemma ravel_lt s i : inb s i -> ravel s i < prod s.
Proof.
  intros H. induction H as [|x n i s H1 H2 IH]; [simpl; lia|].
  cbn [ravel]. rewrite prod_cons. nia.
Qed.

Lemma ravel_app s1 s2 i1 i2 :
  List.length i1 = List.length s1 ->
  ravel (s1 ++ s2) (i1 ++ i2) = ravel s1 i1 * prod s2 + ravel s2 i2.
Proof.
  revert i1; induction s1 as [|n s1 IH]; intros [|x i1] L; simpl in L; try lia; [simpl; lia|].
  cbn [ravel app]. rewrite IH by lia. rewrite prod_app. lia.
Qed.

Lemma ravel_inj s i j : inb s i -> inb s j -> ravel s i = ravel s j -> i = j.
Proof.
  intros H. revert j. induction H as [|x n i s H1 H2 IH]; intros j J E.
  - inversion J; auto.
  - inversion J as [|y ? j' ? J1 J2]; subst. cbn [ravel] in E.
    pose proof (ravel_lt _ _ H2). pose proof (ravel_lt _ _ J2).
    assert (x = y) by nia. subst. f_equal. apply IH; auto. lia.
Qed.

Lemma ravel_surj s n : n < prod s -> exists i, inb s i /\ ravel s i = n.
Proof.
  revert n; induction s as [|m s IH]; intros n H.
  - exists []. split; [constructor|]. unfold prod in H; simpl in *. lia.
  - rewrite prod_cons in H. assert (prod s <> 0) by nia.
    destruct (IH (n mod prod s)) as [i [I E]]; [apply Nat.mod_upper_bound; auto|].
    exists (n / prod s :: i). split.
    + constructor; auto. apply Nat.div_lt_upper_bound; auto. lia.
    + cbn [ravel]. rewrite E. pose proof (Nat.div_mod n (prod s)). lia.
Qed.

Lemma length_flat_map_const {A B} (f : A -> list B) l m :
  (forall x, In x l -> List.length (f x) = m) -> List.length (flat_map f l) = List.length l * m.
Proof.
  induction l as [|x l IH]; intros H; simpl; auto.
  rewrite app_length, H, IH; [lia| |left; auto]. intros y Hy. apply H. right; auto.
Qed.

Lemma length_indices s : List.length (indices s) = prod s.
Proof.
  induction s as [|n s IH]; [reflexivity|].
  cbn [indices]. rewrite (length_flat_map_const _ _ (prod s)).
  - rewrite seq_length. reflexivity.
  - intros x _. rewrite map_length. auto.
Qed.

Lemma nth_error_flat_map_const {A B} (f : A -> list B) l m k r x :
  (forall y, In y l -> List.length (f y) = m) -> r < m -> nth_error l k = Some x ->
  nth_error (flat_map f l) (k * m + r) = nth_error (f x) r.
Proof.
  revert k; induction l as [|y l IH]; intros k H R K.
  - destruct k; discriminate.
  - simpl. assert (Hy : List.length (f y) = m) by (apply H; left; auto).
    destruct k as [|k]; simpl in K.
    + injection K as ->. simpl. rewrite nth_error_app1; auto. lia.
    + rewrite nth_error_app2 by (simpl; lia). rewrite Hy.
      replace (S k * m + r - m) with (k * m + r) by (simpl; lia).
      apply IH; auto. intros z Hz. apply H. right; auto.
Qed.

Lemma nth_error_indices s i : inb s i -> nth_error (indices s) (ravel s i) = Some i.
Proof.
  intros H. induction H as [|x n i s H1 H2 IH]; [reflexivity|].
  cbn [indices ravel].
  rewrite (nth_error_flat_map_const _ _ (prod s) x _ x).
  - apply map_nth_error. auto.
  - intros y _. rewrite map_length. apply length_indices.
  - apply ravel_lt; auto.
  - rewrite (nth_error_nth' _ 0) by (rewrite seq_length; auto). rewrite seq_nth; auto.
Qed.

Lemma In_indices s i : In i (indices s) <-> inb s i.
Proof.
  split.
  - revert i; induction s as [|n s IH]; intros i H; simpl in H.
    + destruct H as [<-|[]]. constructor.
    + apply in_flat_map in H as [k [K H]]. apply in_map_iff in H as [j [<- H]].
      apply in_seq in K. constructor; [lia|]. apply IH; auto.
  - intros H. apply nth_error_In with (ravel s i). apply nth_error_indices; auto.
Qed.

Lemma NoDup_indices s : NoDup (indices s).
Proof.
  apply NoDup_nth_error. intros a b Ha E.
  rewrite length_indices in Ha. destruct (ravel_surj _ _ Ha) as [i [I <-]].
  rewrite nth_error_indices in E by auto. symmetry in E.
  assert (Hb : b < List.length (indices s)) by (apply nth_error_Some; congruence).
  rewrite length_indices in Hb. destruct (ravel_surj _ _ Hb) as [j [J <-]].
  rewrite nth_error_indices in E by auto. congruence.
Qed.

Lemma indices_app s1 s2 :
  indices (s1 ++ s2) = flat_map (fun i => map (fun j => i ++ j) (indices s2)) (indices s1).
Proof.
  induction s1 as [|n s1 IH].
  - simpl. rewrite app_nil_r. rewrite map_id. reflexivity.
  - cbn [app indices]. rewrite IH. clear IH.
    induction (seq 0 n) as [|k l IHl]; [reflexivity|].
    cbn [flat_map]. rewrite flat_map_app, IHl. f_equal. clear.
    induction (indices s1) as [|i l IHl]; [reflexivity|].
    simpl. rewrite map_app, IHl, map_map. reflexivity.
Qed.

(* ------------------------------------------------------------------ *)
(** * Tensors *)

Section Facts.
Context {A : Type} {ZA : Zero A}.
Implicit Types t u : tensor A.

Lemma wf_tab s (f : list nat -> A) : wf (tab s f).
Proof. unfold wf, tab; simpl. rewrite map_length. apply length_indices. Qed.

Lemma at_tab s (f : list nat -> A) i : inb s i -> at_ (tab s f) i = f i.
Proof.
  intros H. unfold at_, tab; simpl.
  apply nth_error_nth. apply map_nth_error. apply nth_error_indices; auto.
Qed.

Lemma shape_tab s (f : list nat -> A) : shape (tab s f) = s.
Proof. reflexivity. Qed.

Lemma tab_ext s (f g : list nat -> A) : (forall i, inb s i -> f i = g i) -> tab s f = tab s g.
Proof.
  intros H. unfold tab. f_equal. apply map_ext_in. intros i Hi. apply H. apply In_indices; auto.
Qed.

Lemma tensor_ext t u :
  wf t -> wf u -> shape t = shape u ->
  (forall i, inb (shape t) i -> at_ t i = at_ u i) -> t = u.
Proof.
  destruct t as [s d], u as [s' d']. unfold wf, at_; simpl. intros W1 W2 <- H.
  f_equal. apply (nth_ext _ _ zero zero); [congruence|].
  intros n N. rewrite W1 in N. destruct (ravel_surj _ _ N) as [i [I <-]]. apply H; auto.
Qed.

Lemma tab_at t : wf t -> tab (shape t) (at_ t) = t.
Proof.
  intros W. apply tensor_ext; auto.
  - apply wf_tab.
  - intros i I. simpl in I. rewrite at_tab; auto.
Qed.

(** Reshaping keeps the entry at the same row-major position. *)
Lemma at_reshape s s' (d : list A) i j :
  ravel s i = ravel s' j -> at_ (mkTensor s d) i = at_ (mkTensor s' d) j.
Proof. unfold at_; simpl. intros ->. reflexivity. Qed.

End Facts.
