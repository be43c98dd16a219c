(** The library of groups: relations between the groups, and the properties of
    the actions of library groups. *)
From Coq Require Import Permutation.
From Verif Require Export DerivedFacts.

(** ** index lemmas *)

Lemma gather_upd sp a v i : ~ In a sp -> gather sp (upd a v i) = gather sp i.
Proof.
  intros N. unfold gather. apply map_ext_in. intros b B. apply nth_upd_other. intros ->. auto.
Qed.

Lemma upd_comm {A} a b (v w : A) l : a <> b -> upd a v (upd b w l) = upd b w (upd a v l).
Proof.
  revert a b; induction l as [|x l IH]; intros [|a] [|b] N; cbn; auto; try congruence.
  f_equal. apply IH. congruence.
Qed.

Lemma scatter_upd sp w a v i : ~ In a sp -> scatter sp w (upd a v i) = upd a v (scatter sp w i).
Proof.
  revert w; induction sp as [|b sp IH]; intros w N; cbn; auto. destruct w as [|x w]; auto.
  rewrite IH by (intros I; apply N; right; auto). apply upd_comm. intros ->. apply N. left; auto.
Qed.

Lemma pixel_at_upd e sp s a v i : ~ In a sp -> pixel_at e sp s (upd a v i) = upd a v (pixel_at e sp s i).
Proof. intros N. unfold pixel_at. rewrite gather_upd, scatter_upd by auto. reflexivity. Qed.

Lemma pixel_at_upd_shape e sp s a m i : ~ In a sp -> pixel_at e sp (upd a m s) i = pixel_at e sp s i.
Proof. intros N. unfold pixel_at. rewrite gather_upd by auto. reflexivity. Qed.

Lemma nth_pixel_at_other e sp s a i : ~ In a sp -> nth a (pixel_at e sp s i) 0 = nth a i 0.
Proof. intros N. unfold pixel_at. apply nth_scatter_other; auto. Qed.

Lemma insert_insert nga ga (a h : nat) j :
  ga <= List.length j -> nga <= S (List.length j) ->
  insert_at nga a (insert_at ga h j) = insert_at (shift nga ga) h (insert_at (without ga nga) a j).
Proof.
  intros G N. assert (W : without ga nga <= List.length j).
  { unfold without. destruct (Nat.ltb_spec ga nga); lia. }
  assert (S : shift nga ga <= S (List.length j)).
  { unfold shift. destruct (Nat.leb_spec nga ga); lia. }
  unfold shift, without in *. destruct (Nat.ltb_spec ga nga) as [H|H];
    destruct (Nat.leb_spec nga ga) as [H'|H']; try lia.
  - destruct nga as [|nga]; [lia|]. replace (Datatypes.S nga - 1) with nga in * by lia.
    destruct (split_at j ga G) as [j1 [j2 [-> L1]]]. rewrite app_length in *. subst ga.
    rewrite insert_at_app_r.
    destruct (split_at j2 (nga - List.length j1) ltac:(lia)) as [j3 [j4 [-> L3]]].
    replace nga with (List.length (j1 ++ j3)) by (rewrite app_length; lia).
    replace (Datatypes.S (List.length (j1 ++ j3))) with (List.length (j1 ++ h :: j3)) by (rewrite !app_length; cbn; lia).
    replace (j1 ++ h :: j3 ++ j4) with ((j1 ++ h :: j3) ++ j4) by (rewrite <- app_assoc; auto).
    rewrite insert_at_app_r. rewrite app_assoc, insert_at_app_r.
    rewrite <- !app_assoc. rewrite insert_at_app_r. auto.
  - destruct (split_at j ga G) as [j1 [j2 [-> L1]]]. subst ga. rewrite app_length in *.
    destruct (split_at j1 nga H') as [j3 [j4 [-> L3]]]. subst nga. rewrite insert_at_app_r.
    rewrite <- !app_assoc. rewrite !insert_at_app_r.
    replace (Datatypes.S (List.length (j3 ++ j4))) with (List.length (j3 ++ a :: j4)) by (rewrite !app_length; cbn; lia).
    replace (j3 ++ a :: j4 ++ j2) with ((j3 ++ a :: j4) ++ j2) by (rewrite <- app_assoc; auto).
    rewrite insert_at_app_r. rewrite <- app_assoc. auto.
Qed.

(** ** group algebra *)
Section Alg.
Variables (n : nat) (op : nat -> nat -> nat) (iv : nat -> nat).
Hypothesis GR : is_group n op iv.

Lemma g_inv_op a b : a < n -> b < n -> iv (op a b) = op (iv b) (iv a).
Proof.
  intros A B. pose proof (group_closed _ _ _ GR) as CL. pose proof (group_inv_closed _ _ _ GR) as IC.
  symmetry. apply (group_inv_unique n op); auto.
  rewrite <- (group_assoc _ _ _ GR) by auto. rewrite (group_assoc _ _ _ GR b) by auto.
  rewrite (group_inv_r _ _ _ GR b), (group_id_l _ _ _ GR) by auto. apply (group_inv_r _ _ _ GR); auto.
Qed.

Lemma g_inv_inv a : a < n -> iv (iv a) = a.
Proof.
  intros A. symmetry. apply (group_inv_unique n op); auto.
  - apply (group_inv_closed _ _ _ GR); auto.
  - apply (group_inv_l _ _ _ GR); auto.
Qed.

Lemma g_inv_0 : iv 0 = 0.
Proof.
  pose proof (group_nonempty _ _ _ GR). symmetry. apply (group_inv_unique n op); auto.
  apply (group_id_l _ _ _ GR); auto.
Qed.

Lemma g_cancel_l a b c : a < n -> b < n -> c < n -> op a b = op a c -> b = c.
Proof.
  intros A B C H. pose proof (group_inv_closed _ _ _ GR a A) as I.
  rewrite <- (group_id_l _ _ _ GR b), <- (group_id_l _ _ _ GR c), <- (group_inv_l _ _ _ GR a) by auto.
  rewrite <- !(group_assoc _ _ _ GR) by auto. congruence.
Qed.

Lemma g_cancel_r a b c : a < n -> b < n -> c < n -> op b a = op c a -> b = c.
Proof.
  intros A B C H. pose proof (group_inv_closed _ _ _ GR a A) as I.
  rewrite <- (group_id_r _ _ _ GR b), <- (group_id_r _ _ _ GR c), <- (group_inv_r _ _ _ GR a) by auto.
  rewrite !(group_assoc _ _ _ GR) by auto. congruence.
Qed.

Lemma g_solve a b : a < n -> b < n -> op a (op (iv a) b) = b.
Proof.
  intros A B. pose proof (group_inv_closed _ _ _ GR a A) as I.
  rewrite (group_assoc _ _ _ GR) by auto. rewrite (group_inv_r _ _ _ GR) by auto. apply (group_id_l _ _ _ GR); auto.
Qed.

Lemma g_solve' a b : a < n -> b < n -> op (iv a) (op a b) = b.
Proof.
  intros A B. pose proof (group_inv_closed _ _ _ GR a A) as I.
  rewrite (group_assoc _ _ _ GR) by auto. rewrite (group_inv_l _ _ _ GR) by auto. apply (group_id_l _ _ _ GR); auto.
Qed.
End Alg.

(** ** left actions *)
Section G.
Variables (G : group) (d : nat) (E : list symmetry) (eq : bool).
Hypothesis OK : group_ok G d E eq.
Notation n := (List.length E).

Lemma ok_closed a b : a < n -> b < n -> comp G a b < n.
Proof. intros A B. apply (ok_comp _ _ _ _ OK); auto. Qed.
Lemma ok_inv_lt a : a < n -> inv G a < n.
Proof. intros A. apply (ok_inv _ _ _ _ OK); auto. Qed.

Section A.
Context {A : Type} {ZA : Zero A}.

Lemma grid_left_action (x y : tensor A) k sp ga :
  wf x -> k <= rank x -> spatial_axes_ok d sp (rank x) ->
  action G x (map Z.of_nat sp) (Z.of_nat k) ga (Some ""%string) None = Ok y ->
  slice k 0 y = x /\
  forall g, g < n -> exists z,
    action G (slice k g y) (map Z.of_nat sp) (Z.of_nat k) ga (Some ""%string) None = Ok z /\
    forall h, h < n -> slice k h z = slice k (comp G h g) y.
Proof.
  intros W K SP R. pose proof (sub_idx_whole _ _ _ _ OK) as SW. pose proof (ok_pos _ _ _ _ OK) as P.
  destruct (grid_action_ok _ _ _ _ OK x y k sp ga _ _ W K SP SW R) as [AC ->]. rewrite seq_length.
  assert (SL : forall g, g < n -> slice k g (stk k n (shape x)
       (fun g i => at_ x (pixel_at (nth (nth g (seq 0 n) 0) E []) sp (shape x) i)))
       = tab (shape x) (fun i => at_ x (pixel_at (nth g E []) sp (shape x) i))).
  { intros g H. rewrite slice_stk by auto. rewrite nth_seq0 by auto. reflexivity. }
  split.
  - rewrite SL by auto. transitivity (tab (shape x) (at_ x)); [|apply tab_at; auto]. apply tab_ext. intros i I.
    rewrite (px_id _ _ _ _ OK); auto.
  - intros g HG. rewrite SL by auto.
    exists (stk k n (shape x) (fun h i => at_ x (pixel_at (nth g E []) sp (shape x) (pixel_at (nth h E []) sp (shape x) i)))).
    split.
    + rewrite (action_grid _ _ _ _ OK _ _ _ _ _ _ (seq 0 n)) by auto. rewrite seq_length. f_equal.
      apply stk_ext; auto. intros h i H I. rewrite nth_seq0 by auto. reflexivity.
    + intros h H. rewrite slice_stk by auto. rewrite SL by (apply ok_closed; auto). apply tab_ext. intros i I.
      rewrite (px_comp _ _ _ _ OK); auto.
Qed.

Lemma group_left_action (x y : tensor A) sp ga nga :
  wf x -> ga < rank x -> nga <= rank x -> spatial_axes_ok d sp (rank x) -> ~ In ga sp ->
  nth ga (shape x) 0 = n ->
  action G x (map Z.of_nat sp) (Z.of_nat nga) (Some (Z.of_nat ga)) (Some ""%string) (Some ""%string) = Ok y ->
  slice nga 0 y = x /\
  forall g, g < n -> exists z,
    action G (slice nga g y) (map Z.of_nat sp) (Z.of_nat nga) (Some (Z.of_nat ga)) (Some ""%string) (Some ""%string) = Ok z /\
    forall h, h < n -> slice nga h z = slice nga (comp G h g) y.
Proof.
  intros W GA NGA SP NI LG R. pose proof (sub_idx_whole _ _ _ _ OK) as SW. pose proof (ok_pos _ _ _ _ OK) as P.
  pose proof (ok_is_group _ _ _ _ OK) as GR.
  destruct (group_action_ok _ _ _ _ OK x y sp ga nga _ _ _ _ W GA NGA SP NI SW SW) as [AC ->];
    [rewrite seq_length; auto|auto|]. rewrite seq_length.
  assert (DA : forall (f : list nat -> A) p i, p < n -> dom_at f ga (seq 0 n) p i = f (upd ga p i)).
  { intros f p i HP. unfold dom_at. rewrite (proj2 (mem_In _ _)) by (apply in_seq; lia). f_equal. f_equal.
    rewrite <- (nth_seq0 p n HP) at 1. apply index_of_nth; [apply seq_NoDup|rewrite seq_length; auto]. }
  assert (IL : forall i, inb (shape x) i -> nth ga i 0 < n).
  { intros i I. rewrite <- LG. apply inb_nth; auto. }
  set (Y := stk nga n (shape x) _).
  assert (SL : forall g, g < n -> slice nga g Y
       = tab (shape x) (fun i => at_ x (upd ga (comp G (inv G g) (nth ga i 0)) (pixel_at (nth g E []) sp (shape x) i)))).
  { intros g H. unfold Y. rewrite slice_stk by auto. rewrite nth_seq0 by auto. apply tab_ext. intros i I.
    pose proof (IL i I). rewrite nth_seq0 by auto. apply DA. apply ok_closed; auto. apply ok_inv_lt; auto. }
  split.
  - rewrite SL by auto. transitivity (tab (shape x) (at_ x)); [|apply tab_at; auto]. apply tab_ext. intros i I.
    rewrite (px_id _ _ _ _ OK) by auto. rewrite (g_inv_0 _ _ _ GR), (group_id_l _ _ _ GR) by auto.
    rewrite upd_same. auto.
  - intros g HG. rewrite SL by auto.
    set (f := fun i => at_ x (upd ga (comp G (inv G g) (nth ga i 0)) (pixel_at (nth g E []) sp (shape x) i))).
    exists (stk nga n (shape x) (fun h i => f (upd ga (comp G (inv G h) (nth ga i 0)) (pixel_at (nth h E []) sp (shape x) i)))).
    split.
    + rewrite (action_group _ _ _ _ OK _ _ _ _ _ _ _ (seq 0 n) (seq 0 n)); auto; [|rewrite seq_length; auto].
      rewrite seq_length. f_equal.
      apply stk_ext; auto. intros h i H I. pose proof (IL i I). rewrite !nth_seq0 by auto.
      apply DA. apply ok_closed; auto. apply ok_inv_lt; auto.
    + intros h H. rewrite slice_stk by auto. rewrite SL by (apply ok_closed; auto). apply tab_ext. intros i I.
      pose proof (IL i I). pose proof (ok_inv_lt g HG). pose proof (ok_inv_lt h H).
      assert (LPX : List.length (pixel_at (nth h E []) sp (shape x) i) = List.length (shape x)).
      { unfold pixel_at. rewrite length_scatter. apply inb_length. auto. }
      unfold f. rewrite nth_upd_same by (rewrite LPX; auto).
      rewrite pixel_at_upd, upd_upd by auto. rewrite (px_comp _ _ _ _ OK) by auto.
      rewrite (g_inv_op _ _ _ GR) by auto. rewrite (group_assoc _ _ _ GR) by auto. reflexivity.
Qed.

(** ** upsample *)
Lemma upsample_spec (x : tensor A) ga H idx :
  wf x -> ga < rank x -> dict_get (g_subgroup G) H = Ok idx -> nth ga (shape x) 0 = List.length idx ->
  exists y, upsample G x (Z.of_nat ga) (Some H) = Ok y /\ wf y /\ shape y = upd ga n (shape x) /\
    (forall a, a < List.length idx -> slice ga (nth a idx 0) y = slice ga a x) /\
    (forall g, g < n -> ~ In g idx -> slice ga g y = zeros (remove_at ga (shape x))).
Proof.
  intros W GA D LG.
  destruct (ok_sub _ _ _ _ OK _ _ D) as [ND [B _]].
  set (sr := remove_at ga (shape x)).
  assert (Es : shape x = insert_at ga (List.length idx) sr).
  { unfold sr. rewrite <- LG. symmetry. apply insert_remove_at. auto. }
  assert (Lr : List.length sr = rank x - 1) by (unfold sr; apply length_remove_at; auto).
  assert (Kr : ga <= List.length sr) by lia.
  assert (EX : x = stk ga (List.length idx) sr (fun g i => at_ x (insert_at ga g i))).
  { rewrite <- (tab_at x W) at 1. rewrite Es at 1. apply tab_stk. auto. }
  set (F := fun g i => at_ x (insert_at ga g i)).
  assert (UP : upsample G x (Z.of_nat ga) (Some H)
               = Ok (stk ga n sr (fun g i => if mem g idx then F (index_of g idx) i else zero))).
  { rewrite EX at 1. apply (upsample_stk _ _ _ _ OK); auto. }
  rewrite UP. eexists. split; [reflexivity|]. split; [apply wf_stk|]. split; [rewrite shape_stk, Es, upd_insert_at; auto|].
  split.
  - intros a HA. assert (IN : In (nth a idx 0) idx) by (apply nth_In; auto).
    rewrite slice_stk by auto. rewrite (proj2 (mem_In _ _) IN). rewrite index_of_nth by auto.
    unfold slice. fold sr. reflexivity.
  - intros g HG N. rewrite slice_stk by auto. unfold zeros. apply tab_ext. intros i I.
    destruct (mem g idx) eqn:M; [|reflexivity]. apply mem_In in M. contradiction.
Qed.

Lemma upsample_commutes (x y z : tensor A) sp ga nga H idx :
  wf x -> ga < rank x -> nga <= rank x -> spatial_axes_ok d sp (rank x) -> ~ In ga sp ->
  dict_get (g_subgroup G) H = Ok idx -> H <> ""%string -> nth ga (shape x) 0 = List.length idx ->
  upsample G x (Z.of_nat ga) (Some H) = Ok y ->
  action G x (map Z.of_nat sp) (Z.of_nat nga) (Some (Z.of_nat ga)) (Some H) (Some H) = Ok z ->
  exists w,
    action G y (map Z.of_nat sp) (Z.of_nat nga) (Some (Z.of_nat ga)) (Some H) (Some ""%string) = Ok w /\
    upsample G z (Z.of_nat (shift nga ga)) (Some H) = Ok w.
Proof.
  intros W GA NGA SP NI D NE LG UP R. pose proof (sub_idx_whole _ _ _ _ OK) as SW.
  pose proof (ok_is_group _ _ _ _ OK) as GR.
  assert (SH : sub_idx G (Some H) idx).
  { unfold sub_idx, parse_subgroup. destruct (String.eqb_spec H ""); [contradiction|exact D]. }
  destruct (sub_idx_facts _ _ _ _ OK _ _ SH) as [ND [B [_ [_ CL]]]].
  destruct (group_action_ok _ _ _ _ OK x z sp ga nga _ _ _ _ W GA NGA SP NI SH SH LG R) as [AC EZ].
  set (sr := remove_at ga (shape x)).
  assert (Es : shape x = insert_at ga (List.length idx) sr).
  { unfold sr. rewrite <- LG. symmetry. apply insert_remove_at. auto. }
  assert (Lr : List.length sr = rank x - 1) by (unfold sr; apply length_remove_at; auto).
  assert (Kr : ga <= List.length sr) by lia.
  assert (EX : x = stk ga (List.length idx) sr (fun g i => at_ x (insert_at ga g i))).
  { rewrite <- (tab_at x W) at 1. rewrite Es at 1. apply tab_stk. auto. }
  rewrite EX in UP at 1. rewrite (upsample_stk _ _ _ _ OK _ _ _ _ idx) in UP by auto. injection UP as UP.
  set (Fy := fun g i => if mem g idx then at_ x (insert_at ga (index_of g idx) i) else zero).
  assert (SU : insert_at ga n sr = upd ga n (shape x)) by (rewrite Es, upd_insert_at; auto).
  assert (LSU : List.length (insert_at ga n sr) = rank x) by (rewrite length_insert_at; lia).
  exists (stk nga (List.length idx) (insert_at ga n sr) (fun a i =>
     let p := comp G (inv G (nth a idx 0)) (nth ga i 0) in
     Fy p (remove_at ga (pixel_at (nth (nth a idx 0) E []) sp (shape x) i)))).
  split.
  - rewrite <- UP. fold Fy. unfold stk at 1.
    rewrite (action_group _ _ _ _ OK _ _ _ _ _ _ _ idx (seq 0 n)); auto.
    + f_equal. apply stk_ext; [lia|]. intros a i HA I.
      assert (An : nth a idx 0 < n) by (apply B; apply nth_In; auto).
      assert (Ig : nth ga i 0 < n).
      { apply (Nat.lt_le_trans _ (nth ga (insert_at ga n sr) 0)); [apply inb_nth; auto; lia|].
        rewrite nth_insert_at_eq by auto. lia. }
      rewrite nth_seq0 by auto. cbv zeta.
      set (p := comp G (inv G (nth a idx 0)) (nth ga i 0)).
      assert (Pn : p < n) by (apply ok_closed; auto; apply ok_inv_lt; auto).
      unfold dom_at. rewrite (proj2 (mem_In _ _)) by (apply in_seq; lia).
      replace (index_of p (seq 0 n)) with p.
      2:{ rewrite <- (nth_seq0 p n Pn) at 2. symmetry. apply index_of_nth; [apply seq_NoDup|rewrite seq_length; auto]. }
      rewrite SU, pixel_at_upd_shape by auto.
      set (q := pixel_at _ _ _ _). assert (LQ : List.length q = rank x).
      { unfold q, pixel_at. rewrite length_scatter. rewrite (inb_length _ _ I). lia. }
      rewrite nth_upd_same by lia. f_equal.
      rewrite <- (insert_remove_at ga q) at 1 by lia. rewrite upd_insert_at, remove_insert_at by (rewrite length_remove_at; lia).
      reflexivity.
    + lia.
    + lia.
    + rewrite LSU. auto.
    + rewrite SU. unfold accepts in *. rewrite gather_upd by auto. auto.
    + rewrite nth_insert_at_eq, seq_length by auto. auto.
  - subst z. rewrite Es at 1.
    set (FZ := fun a i => dom_at (at_ x) ga idx (comp G (inv G (nth a idx 0)) (nth (nth ga i 0) idx 0))
       (pixel_at (nth (nth a idx 0) E []) sp (shape x) i)).
    set (nga' := without ga nga).
    assert (Wn : nga' <= List.length sr).
    { unfold nga', without. destruct (Nat.ltb_spec ga nga); lia. }
    assert (TO : forall m (F : nat -> list nat -> A),
      stk nga (List.length idx) (insert_at ga m sr) F =
      stk (shift nga ga) m (insert_at nga' (List.length idx) sr)
          (fun h i => F (nth nga' i 0) (insert_at ga h (remove_at nga' i)))).
    { intros m F. unfold stk at 1. rewrite insert_insert by lia. fold nga'.
      rewrite tab_stk by (rewrite length_insert_at; unfold shift; destruct (Nat.leb_spec nga ga); lia).
      apply stk_ext.
      { rewrite length_insert_at; unfold shift; destruct (Nat.leb_spec nga ga); lia. }
      intros h i HH I. destruct (inb_insert_inv _ _ _ _ Wn I) as [v [j [-> [V J]]]].
      pose proof (inb_length _ _ J) as LJ.
      unfold nga'. rewrite <- insert_insert by lia. fold nga'.
      rewrite nth_insert_at_eq, remove_insert_at by (rewrite length_insert_at; lia).
      rewrite nth_insert_at_eq, remove_insert_at by lia. reflexivity. }
    rewrite !TO.
    rewrite (upsample_stk _ _ _ _ OK _ _ _ _ idx); auto.
    2:{ rewrite length_insert_at; unfold shift; destruct (Nat.leb_spec nga ga); lia. }
    f_equal. apply stk_ext.
    { rewrite length_insert_at; unfold shift; destruct (Nat.leb_spec nga ga); lia. }
    intros h i HH I. destruct (inb_insert_inv _ _ _ _ Wn I) as [a [j [-> [V J]]]].
    pose proof (inb_length _ _ J) as LJ.
    rewrite !nth_insert_at_eq, !remove_insert_at by lia. cbv zeta. unfold FZ.
    rewrite !nth_insert_at_eq by lia.
    assert (Ia : In (nth a idx 0) idx) by (apply nth_In; auto).
    assert (An : nth a idx 0 < n) by (apply B; auto).
    destruct (mem h idx) eqn:M.
    + apply mem_In in M. rewrite nth_index_of by auto.
      rewrite !pixel_at_stack by (auto; rewrite ?(inb_length _ _ J); unfold rank in *; lia). fold sr.
      rewrite remove_insert_at by (unfold pixel_at; rewrite length_scatter; lia).
      unfold dom_at, Fy. destruct (mem _ idx); auto. f_equal.
      rewrite upd_insert_at by (unfold pixel_at; rewrite length_scatter; lia). reflexivity.
    + unfold Fy. destruct (mem (comp G (inv G (nth a idx 0)) h) idx) eqn:M'; [|reflexivity].
      exfalso. apply mem_In in M'. rewrite <- not_true_iff_false in M. apply M. apply mem_In.
      assert (I0 : In (inv G (nth a idx 0)) idx).
      { assert (Z0 : In 0 idx) by (destruct (sub_idx_facts _ _ _ _ OK _ _ SH) as [_ [_ [HD _]]]; destruct idx; [discriminate|injection HD as ->; left; auto]).
        rewrite <- (group_id_r _ _ _ GR (inv G (nth a idx 0))) by (apply ok_inv_lt; auto). apply CL; auto. }
      specialize (CL _ _ I0 M'). rewrite (g_inv_inv _ _ _ GR) in CL by auto.
      rewrite (g_solve _ _ _ GR) in CL by auto. exact CL.
Qed.
End A.

(** ** cosets *)
Lemma coset_factor H idx g :
  dict_get (g_subgroup G) H = Ok idx -> g < n ->
  exists cos, dict_get (g_cosets G) H = Ok cos /\
  exists h c, In h idx /\ In c cos /\ comp G h c = g /\
    forall h' c', In h' idx -> In c' cos -> comp G h' c' = g -> h' = h /\ c' = c.
Proof.
  intros D HG. destruct (ok_cos _ _ _ _ OK _ _ D) as [cos [DC [NDc [Bc [SU LE]]]]].
  destruct (ok_sub _ _ _ _ OK _ _ D) as [ND [B _]].
  exists cos. split; auto. destruct (SU g HG) as [h [c [Hh [Hc EQ]]]]. exists h, c.
  split; auto. split; auto. split; auto.
  intros h' c' Hh' Hc' EQ'.
  set (f := fun p => comp G (fst p) (snd p)).
  assert (NDf : NoDup (map f (list_prod idx cos))).
  { apply (NoDup_incl_NoDup (l := seq 0 n)); [apply seq_NoDup|rewrite map_length, prod_length, seq_length; lia|].
    intros x X. apply in_seq in X. destruct (SU x ltac:(lia)) as [a [b [IA [IB AB]]]].
    apply in_map_iff. exists (a, b). split; auto. apply in_prod; auto. }
  assert (INJ : forall p q, In p (list_prod idx cos) -> In q (list_prod idx cos) -> f p = f q -> p = q).
  { clear -NDf. revert NDf. generalize (list_prod idx cos). intros l NDf p q IP IQ E0.
    destruct (In_nth _ _ (0, 0) IP) as [a [HA EA]]. destruct (In_nth _ _ (0, 0) IQ) as [b [HB EB]].
    assert (a = b); [|congruence].
    apply (proj1 (NoDup_nth (map f l) (f (0, 0))) NDf); rewrite ?map_length; auto.
    rewrite !map_nth. congruence. }
  assert (X : (h', c') = (h, c)).
  { apply INJ; [apply in_prod; auto|apply in_prod; auto|]. unfold f; cbn [fst snd]. congruence. }
  injection X as -> ->. auto.
Qed.

(** ** a subgroup as an object of its own *)
Section Sub.
Variables (K : group) (eq' : bool) (H : string) (idx : list nat).
Hypothesis D : dict_get (g_subgroup G) H = Ok idx.
Hypothesis OK' : group_ok K d (symmetries_of H) eq'.
Hypothesis GD : named G /\ E = symmetries_of (g_name G).
Hypothesis KD : named K /\ symmetries_of H = symmetries_of (g_name K).

Lemma sub_length : List.length (symmetries_of H) = List.length idx.
Proof. destruct (ok_sub _ _ _ _ OK _ _ D) as [_ [_ [_ [M _]]]]. symmetry. exact (M (proj1 GD)). Qed.

Lemma sub_nth a : a < List.length idx -> nth a (symmetries_of H) [] = nth (nth a idx 0) E [].
Proof.
  intros HA. destruct (ok_sub _ _ _ _ OK _ _ D) as [_ [_ [_ [_ [_ [_ M]]]]]]. rewrite <- (proj2 (M (proj1 GD) (proj2 GD))).
  rewrite (nth_indep _ [] (nth 0 E [])) by (rewrite map_length; auto).
  apply (map_nth (fun a => nth a E [])).
Qed.

Lemma sub_comp a b : a < List.length idx -> b < List.length idx ->
  comp K a b < List.length idx /\ nth (comp K a b) idx 0 = comp G (nth a idx 0) (nth b idx 0).
Proof.
  intros HA HB. pose proof sub_length as L. destruct (ok_sub _ _ _ _ OK _ _ D) as [_ [B _]].
  destruct (ok_comp _ _ _ _ OK' a b) as [C EC]; [lia|lia|]. rewrite L in C. split; auto.
  assert (An : nth a idx 0 < n) by (apply B; apply nth_In; auto).
  assert (Bn : nth b idx 0 < n) by (apply B; apply nth_In; auto).
  destruct (ok_comp _ _ _ _ OK _ _ An Bn) as [CG EG].
  apply (E_inj _ _ _ _ OK); auto; [apply B; apply nth_In; auto|].
  rewrite <- sub_nth by auto. rewrite EC, EG, !sub_nth by auto. reflexivity.
Qed.

Lemma sub_inv a : a < List.length idx ->
  inv K a < List.length idx /\ nth (inv K a) idx 0 = inv G (nth a idx 0).
Proof.
  intros HA. pose proof sub_length as L. destruct (ok_sub _ _ _ _ OK _ _ D) as [ND [B [F _]]].
  destruct (ok_inv _ _ _ _ OK' a) as [I [_ IR]]; [lia|]. rewrite L in I. split; auto.
  assert (An : nth a idx 0 < n) by (apply B; apply nth_In; auto).
  apply (group_inv_unique n (comp G)); auto; [apply (ok_is_group _ _ _ _ OK)|apply B; apply nth_In; auto|].
  destruct (sub_comp a (inv K a)) as [_ <-]; auto. rewrite IR. destruct idx; [discriminate|]. injection F as ->. auto.
Qed.

Lemma sub_lists L l m :
  dict_get (g_subgroup K) L = Ok l -> dict_get (g_subgroup G) L = Ok m ->
  map (fun a => nth a idx 0) l = m.
Proof.
  intros DK DG. pose proof sub_length as LN.
  destruct (ok_sub _ _ _ _ OK _ _ D) as [_ [B _]].
  destruct (ok_sub _ _ _ _ OK' _ _ DK) as [_ [BK [_ [_ [_ [_ MK']]]]]]. pose proof (proj2 (MK' (proj1 KD) (proj2 KD))) as MK.
  destruct (ok_sub _ _ _ _ OK _ _ DG) as [_ [BG [_ [_ [_ [_ MG']]]]]]. pose proof (proj2 (MG' (proj1 GD) (proj2 GD))) as MG.
  rewrite LN in BK.
  assert (X : map (fun a => nth a E []) (map (fun a => nth a idx 0) l) = map (fun a => nth a E []) m).
  { rewrite MG, <- MK, map_map. apply map_ext_in. intros a IA. symmetry. apply sub_nth. auto. }
  assert (B1 : forall a, In a (map (fun a => nth a idx 0) l) -> a < n).
  { intros a IA. apply in_map_iff in IA as [b [<- IB]]. apply B. apply nth_In. auto. }
  revert X B1 BG. generalize (map (fun a => nth a idx 0) l). clear - OK. intros l1 X B1 B2.
  revert m X B2. induction l1 as [|a l1 IH]; intros [|b m] X B2; cbn in X; try discriminate; auto.
  injection X as X1 X2. f_equal.
  - apply (E_inj _ _ _ _ OK); auto; [apply B1|apply B2]; left; auto.
  - apply IH; auto; intros; [apply B1|apply B2]; right; auto.
Qed.

Section A.
Context {A : Type} {ZA : Zero A}.

Lemma sub_grid_action (x y : tensor A) k sp ga :
  wf x -> k <= rank x -> spatial_axes_ok d sp (rank x) -> (eq' = true -> eq = true) ->
  action G x (map Z.of_nat sp) (Z.of_nat k) ga (Some ""%string) None = Ok y -> H <> ""%string ->
  exists z, take y (vec idx) (Z.of_nat k) = Ok z /\
    action G x (map Z.of_nat sp) (Z.of_nat k) ga (Some H) None = Ok z /\
    action K x (map Z.of_nat sp) (Z.of_nat k) ga (Some ""%string) None = Ok z.
Proof.
  intros W KK SP EE R NE. pose proof (sub_idx_whole _ _ _ _ OK) as SW.
  pose proof (sub_idx_whole _ _ _ _ OK') as SW'. pose proof sub_length as L.
  assert (SH : sub_idx G (Some H) idx).
  { unfold sub_idx, parse_subgroup. destruct (String.eqb_spec H ""); [contradiction|exact D]. }
  destruct (sub_idx_facts _ _ _ _ OK _ _ SH) as [ND [B _]].
  destruct (grid_action_ok _ _ _ _ OK x y k sp ga _ _ W KK SP SW R) as [AC ->].
  exists (stk k (List.length idx) (shape x) (fun g i => at_ x (pixel_at (nth (nth g idx 0) E []) sp (shape x) i))).
  split; [|split].
  - rewrite seq_length, take_stk by auto. f_equal. apply stk_ext; auto. intros g i HG I.
    rewrite nth_seq0 by (apply B; apply nth_In; auto). reflexivity.
  - rewrite <- (tab_at x W) at 1. apply (action_grid _ _ _ _ OK); auto.
  - rewrite <- (tab_at x W) at 1. rewrite (action_grid _ _ _ _ OK' _ _ _ _ _ _ (seq 0 (List.length (symmetries_of H)))); auto.
    + rewrite seq_length, L. f_equal. apply stk_ext; auto. intros g i HG I.
      rewrite nth_seq0, sub_nth by auto. reflexivity.
    + intros Q. apply AC. auto.
Qed.

Lemma sub_group_action (x y : tensor A) sp ga nga :
  wf x -> ga < rank x -> nga <= rank x -> spatial_axes_ok d sp (rank x) -> ~ In ga sp ->
  (eq' = true -> eq = true) -> nth ga (shape x) 0 = List.length idx -> H <> ""%string ->
  action G x (map Z.of_nat sp) (Z.of_nat nga) (Some (Z.of_nat ga)) (Some H) (Some H) = Ok y ->
  action K x (map Z.of_nat sp) (Z.of_nat nga) (Some (Z.of_nat ga)) (Some ""%string) (Some ""%string) = Ok y.
Proof.
  intros W GA NGA SP NI EE LG NE R. pose proof (sub_idx_whole _ _ _ _ OK') as SW'. pose proof sub_length as L.
  assert (SH : sub_idx G (Some H) idx).
  { unfold sub_idx, parse_subgroup. destruct (String.eqb_spec H ""); [contradiction|exact D]. }
  destruct (sub_idx_facts _ _ _ _ OK _ _ SH) as [ND [B [_ [_ CL]]]].
  destruct (group_action_ok _ _ _ _ OK x y sp ga nga _ _ _ _ W GA NGA SP NI SH SH LG R) as [AC ->].
  rewrite <- (tab_at x W) at 1.
  rewrite (action_group _ _ _ _ OK' _ _ _ _ _ _ _ (seq 0 (List.length (symmetries_of H))) (seq 0 (List.length (symmetries_of H)))); auto.
  - rewrite seq_length, L. f_equal. apply stk_ext; auto. intros a i HA I.
    assert (Ig : nth ga i 0 < List.length idx) by (rewrite <- LG; apply inb_nth; auto).
    rewrite !nth_seq0 by auto. rewrite sub_nth by auto.
    destruct (sub_inv a HA) as [I1 I2]. destruct (sub_comp (inv K a) (nth ga i 0) I1 Ig) as [C1 C2].
    rewrite <- I2, <- C2. unfold dom_at.
    rewrite (proj2 (mem_In _ _)) by (apply in_seq; lia).
    rewrite (proj2 (mem_In _ _)) by (apply nth_In; auto). rewrite index_of_nth by auto.
    f_equal. f_equal.
    rewrite <- (nth_seq0 (comp K (inv K a) (nth ga i 0)) (List.length idx) C1) at 1.
    apply index_of_nth; [apply seq_NoDup|rewrite seq_length; auto].
  - intros Q. apply AC. auto.
  - rewrite seq_length, L. auto.
Qed.
End A.
End Sub.
End G.
