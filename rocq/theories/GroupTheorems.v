(** Consequences of [group_ok] in the form in which the properties state them. *)
From Coq Require Import Permutation.
From Verif Require Export GroupActionFacts.

Lemma all_equal_dec l : {all_equal l} + {~ all_equal l}.
Proof.
  destruct (forallb (fun x => forallb (Nat.eqb x) l) l) eqn:E.
  - left. intros x y X Y. rewrite forallb_forall in E. specialize (E x X). rewrite forallb_forall in E.
    apply Nat.eqb_eq. auto.
  - right. intros H. rewrite <- not_true_iff_false in E. apply E. apply forallb_forall. intros x X.
    apply forallb_forall. intros y Y. apply Nat.eqb_eq. auto.
Qed.

Section Slices.
Context {A : Type} {ZA : Zero A}.

Lemma slice_stk k n s (F : nat -> list nat -> A) g :
  k <= List.length s -> g < n -> slice k g (stk k n s F) = tab s (F g).
Proof.
  intros K H. unfold slice. rewrite shape_stk, remove_insert_at by auto.
  apply tab_ext. intros i I. apply at_stk; auto.
Qed.

Lemma slice_tab k g s (f : list nat -> A) :
  k < List.length s -> g < nth k s 0 ->
  slice k g (tab s f) = tab (remove_at k s) (fun i => f (insert_at k g i)).
Proof.
  intros K H. unfold slice. rewrite shape_tab. apply tab_ext. intros i I. apply at_tab.
  rewrite <- (insert_remove_at k s K). apply inb_insert; auto. rewrite length_remove_at; lia.
Qed.

(** A tensor is determined by its slices. *)
Lemma slices_ext k n s (t u : tensor A) :
  k <= List.length s -> wf t -> wf u -> shape t = insert_at k n s -> shape u = insert_at k n s ->
  (forall g, g < n -> slice k g t = slice k g u) -> t = u.
Proof.
  intros K WT WU ST SU H. apply tensor_ext; auto; [congruence|].
  intros i I. rewrite ST in I. destruct (inb_insert_inv _ _ _ _ K I) as [v [j [-> [V J]]]].
  pose proof (f_equal (fun z => at_ z j) (H v V)) as E. cbv beta in E. unfold slice in E.
  rewrite ST, SU, remove_insert_at in E by auto. rewrite !at_tab in E by auto. exact E.
Qed.
End Slices.

(** Rearranging the indices of a shape bijectively. *)
Lemma indices_permuted s (f g : list nat -> list nat) :
  (forall i, inb s i -> inb s (f i)) -> (forall i, inb s i -> inb s (g i)) ->
  (forall i, inb s i -> g (f i) = i) ->
  Permutation (map f (indices s)) (indices s).
Proof.
  intros F G GF. apply NoDup_Permutation_bis.
  - apply NoDup_map_in; [|apply NoDup_indices]. intros a b IA IB E.
    rewrite <- (GF a), <- (GF b) by (apply In_indices; auto). congruence.
  - rewrite map_length. auto.
  - intros i I. apply in_map_iff in I as [j [<- J]]. apply In_indices. apply F. apply In_indices. auto.
Qed.

Section G.
Variables (G : group) (d : nat) (E : list symmetry) (eq : bool).
Hypothesis OK : group_ok G d E eq.
Notation n := (List.length E).
Notation acc := (accepts eq).

Lemma inverse_symmetry a : a < n ->
  exists b, b < n /\ after (nth a E []) (nth b E []) = identity d /\ after (nth b E []) (nth a E []) = identity d.
Proof.
  intros H. destruct (ok_inv _ _ _ _ OK a H) as [I [L R]]. exists (inv G a). split; auto.
  destruct (ok_comp _ _ _ _ OK _ _ H I) as [_ E1]. destruct (ok_comp _ _ _ _ OK _ _ I H) as [_ E2].
  rewrite <- E1, <- E2, L, R. split; apply (ok_id _ _ _ _ OK).
Qed.

Section Pix.
Variables (sp s : list nat).
Hypothesis SP : spatial_axes_ok d sp (List.length s).
Hypothesis AC : acc sp s.

Lemma px_inb a i : a < n -> inb s i -> inb s (pixel_at (nth a E []) sp s i).
Proof.
  intros H I. destruct SP as [L [ND [B _]]].
  apply (pixel_at_inb d); auto. apply (ok_sym _ _ _ _ OK); auto. apply (accepts_fits _ _ _ _ OK); auto.
Qed.

Lemma px_comp a b i : a < n -> b < n -> inb s i ->
  pixel_at (nth (comp G a b) E []) sp s i = pixel_at (nth b E []) sp s (pixel_at (nth a E []) sp s i).
Proof.
  intros H1 H2 I. destruct SP as [L [ND [B _]]].
  destruct (ok_comp _ _ _ _ OK _ _ H1 H2) as [_ ->].
  apply (pixel_at_after d); auto; first [apply (ok_sym _ _ _ _ OK); auto | apply (accepts_fits _ _ _ _ OK); auto].
Qed.

Lemma px_id i : inb s i -> pixel_at (nth 0 E []) sp s i = i.
Proof.
  intros I. destruct SP as [L [ND [B _]]]. rewrite (ok_id _ _ _ _ OK). apply pixel_at_identity; auto.
Qed.

Lemma px_inv a i : a < n -> inb s i ->
  pixel_at (nth (inv G a) E []) sp s (pixel_at (nth a E []) sp s i) = i.
Proof.
  intros H I. destruct (ok_inv _ _ _ _ OK a H) as [J [_ R]].
  rewrite <- px_comp by auto. rewrite R. apply px_id; auto.
Qed.

Lemma px_permutes a : a < n -> Permutation (map (pixel_at (nth a E []) sp s) (indices s)) (indices s).
Proof.
  intros H. destruct (ok_inv _ _ _ _ OK a H) as [J _].
  apply (indices_permuted s _ (pixel_at (nth (inv G a) E []) sp s)); intros; auto using px_inb, px_inv.
Qed.
End Pix.

Section A.
Context {A : Type} {ZA : Zero A}.

Lemma grid_action_refused (x : tensor A) k sp ga H idx :
  wf x -> k <= rank x -> spatial_axes_ok d sp (rank x) -> sub_idx G H idx -> ~ acc sp (shape x) ->
  exists e, action G x (map Z.of_nat sp) (Z.of_nat k) ga H None = Err e.
Proof.
  intros W K SP S N. unfold action. cbn [parse_subgroup]. unfold action_on_grid.
  rewrite <- (tab_at x W). unfold accepts in N. destruct eq eqn:Q.
  - destruct (ok_refuse _ _ _ _ OK A ZA (shape x) (at_ x) k sp) as [e ->]; [assumption|assumption|reflexivity|tauto|].
    cbn [bind]. eauto.
  - exfalso. apply N. discriminate.
Qed.

Lemma acc_dec sp s : acc sp s \/ ~ acc sp s.
Proof.
  unfold accepts. destruct eq; [|left; discriminate].
  destruct (all_equal_dec (gather sp s)); [left; auto|right; intros H; auto].
Qed.

Lemma grid_action_ok (x y : tensor A) k sp ga H idx :
  wf x -> k <= rank x -> spatial_axes_ok d sp (rank x) -> sub_idx G H idx ->
  action G x (map Z.of_nat sp) (Z.of_nat k) ga H None = Ok y ->
  acc sp (shape x) /\
  y = stk k (List.length idx) (shape x)
          (fun g i => at_ x (pixel_at (nth (nth g idx 0) E []) sp (shape x) i)).
Proof.
  intros W K SP S R.
  destruct (acc_dec sp (shape x)) as [AC|N].
  - split; auto. rewrite <- (tab_at x W) in R.
    rewrite (action_grid _ _ _ _ OK _ _ _ _ _ _ idx) in R; auto. congruence.
  - destruct (grid_action_refused x k sp ga H idx) as [e X]; auto. congruence.
Qed.

Lemma transformed_tab e sp s (f : list nat -> A) :
  (forall i, inb s i -> inb s (pixel_at e sp s i)) ->
  transformed e sp (tab s f) = tab s (fun i => f (pixel_at e sp s i)).
Proof.
  intros H. unfold transformed. rewrite shape_tab. apply tab_ext. intros i I. apply at_tab. auto.
Qed.

(** the grid action, slice by slice *)
Lemma grid_action_slices (x y : tensor A) k sp ga H idx :
  wf x -> k <= rank x -> spatial_axes_ok d sp (rank x) -> sub_idx G H idx ->
  action G x (map Z.of_nat sp) (Z.of_nat k) ga H None = Ok y ->
  wf y /\ shape y = insert_at k (List.length idx) (shape x) /\
  forall a, a < List.length idx ->
    slice k a y = transformed (nth (nth a idx 0) E []) sp x /\
    Permutation (data (slice k a y)) (data x).
Proof.
  intros W K SP S R. destruct (grid_action_ok x y k sp ga H idx) as [AC ->]; auto.
  split; [apply wf_stk|]. split; [apply shape_stk|].
  intros a HA. rewrite slice_stk by auto. split; [reflexivity|].
  destruct (sub_idx_facts _ _ _ _ OK _ _ S) as [_ [B _]].
  replace (data x) with (map (at_ x) (indices (shape x))) by (exact (f_equal data (tab_at x W))).
  unfold tab. cbn [data].
  rewrite <- map_map. apply Permutation_map. apply px_permutes; auto. apply B. apply nth_In; auto.
Qed.

(** ** signals on the group *)

Lemma group_action_refused (x : tensor A) sp ga nga Ha Hd act dom :
  wf x -> ga < rank x -> spatial_axes_ok d sp (rank x) -> ~ In ga sp ->
  sub_idx G Ha act -> sub_idx G Hd dom -> nth ga (shape x) 0 = List.length dom -> ~ acc sp (shape x) ->
  exists e, action G x (map Z.of_nat sp) nga (Some (Z.of_nat ga)) Ha Hd = Err e.
Proof.
  intros W GA SP NI SA SD LG N.
  destruct (sub_idx_dict _ _ _ SD) as [dname [PD DD]].
  destruct (sub_idx_facts _ _ _ _ OK _ _ SD) as [ND2 [B2 [H2 [FULL _]]]].
  unfold action. rewrite PD. unfold sub_idx in SA, SD. rewrite PD in SD.
  unfold action_on_group. rewrite SA. cbn [bind]. rewrite SD. cbn [bind].
  assert (ERR : forall s (f : list nat -> A), List.length s = rank x -> gather sp s = gather sp (shape x) ->
     exists e, action_on_grid G (tab s f) (Z.of_nat ga) (map Z.of_nat sp) (parse_subgroup G Ha) = Err e).
  { intros s f L GS. unfold action_on_grid. unfold accepts in N. destruct eq eqn:Q.
    - destruct (ok_refuse _ _ _ _ OK A ZA s f ga sp) as [e ->]; cbn [bind]; eauto.
      + lia.
      + rewrite L; auto.
      + rewrite GS. tauto.
    - exfalso. apply N. discriminate. }
  set (sr := remove_at ga (shape x)).
  assert (Es : shape x = insert_at ga (List.length dom) sr).
  { unfold sr. rewrite <- LG. symmetry. apply insert_remove_at. auto. }
  assert (Lr : List.length sr = rank x - 1) by (unfold sr; apply length_remove_at; auto).
  rewrite <- (tab_at x W).
  destruct (Nat.ltb_spec (List.length dom) (g_order G)).
  - assert (EX : tab (shape x) (at_ x) = stk ga (List.length dom) sr (fun g i => at_ x (insert_at ga g i))).
    { rewrite Es at 1. apply tab_stk. lia. }
    rewrite EX, (upsample_stk _ _ _ _ OK _ _ _ _ dom) by (auto; lia). cbn [bind]. clear EX.
    unfold stk. match goal with |- context[tab ?s ?f] => destruct (ERR s f) as [e ->] end; cbn [bind]; eauto.
    + rewrite length_insert_at. lia.
    + rewrite <- (shift_without_map ga sp NI). rewrite Es. rewrite !gather_shift by lia. reflexivity.
  - cbn [bind]. destruct (ERR (shape x) (at_ x)) as [e ->]; auto. cbn [bind]. eauto.
Qed.

Lemma group_action_ok (x y : tensor A) sp ga nga Ha Hd act dom :
  wf x -> ga < rank x -> nga <= rank x -> spatial_axes_ok d sp (rank x) -> ~ In ga sp ->
  sub_idx G Ha act -> sub_idx G Hd dom -> nth ga (shape x) 0 = List.length dom ->
  action G x (map Z.of_nat sp) (Z.of_nat nga) (Some (Z.of_nat ga)) Ha Hd = Ok y ->
  acc sp (shape x) /\
  y = stk nga (List.length act) (shape x) (fun a i =>
          dom_at (at_ x) ga dom (comp G (inv G (nth a act 0)) (nth (nth ga i 0) dom 0))
                 (pixel_at (nth (nth a act 0) E []) sp (shape x) i)).
Proof.
  intros W GA NGA SP NI SA SD LG R.
  destruct (acc_dec sp (shape x)) as [AC|N].
  - split; auto. rewrite <- (tab_at x W) in R.
    rewrite (action_group _ _ _ _ OK _ _ _ _ _ _ _ act dom) in R; auto. congruence.
  - destruct (group_action_refused x sp ga (Z.of_nat nga) Ha Hd act dom) as [e X]; auto. congruence.
Qed.

(** What the value of a signal on [dom] is at group element [p]. *)
Definition at_element (ga : nat) (dom : list nat) (x : tensor A) (p : nat) : tensor A :=
  if mem p dom then slice ga (index_of p dom) x else zeros (remove_at ga (shape x)).

Lemma group_action_slices (x y : tensor A) sp ga nga Ha Hd act dom :
  wf x -> ga < rank x -> nga <= rank x -> spatial_axes_ok d sp (rank x) -> ~ In ga sp ->
  sub_idx G Ha act -> sub_idx G Hd dom -> nth ga (shape x) 0 = List.length dom ->
  action G x (map Z.of_nat sp) (Z.of_nat nga) (Some (Z.of_nat ga)) Ha Hd = Ok y ->
  wf y /\ shape y = insert_at nga (List.length act) (shape x) /\
  forall a h, a < List.length act -> h < List.length dom ->
    slice ga h (slice nga a y)
    = transformed (nth (nth a act 0) E []) (map (without ga) sp)
                  (at_element ga dom x (comp G (inv G (nth a act 0)) (nth h dom 0))).
Proof.
  intros W GA NGA SP NI SA SD LG R.
  destruct (group_action_ok x y sp ga nga Ha Hd act dom) as [AC ->]; auto.
  split; [apply wf_stk|]. split; [apply shape_stk|]. intros a h HA HH.
  rewrite slice_stk by auto. rewrite slice_tab by (auto; lia).
  destruct (sub_idx_facts _ _ _ _ OK _ _ SA) as [_ [B _]].
  assert (An : nth a act 0 < n) by (apply B; apply nth_In; auto).
  destruct (spatial_gt d sp (rank x) ga SP NI GA) as [ND' [L' B']].
  set (sr := remove_at ga (shape x)).
  assert (Lr : List.length sr = rank x - 1) by (unfold sr; apply length_remove_at; auto).
  assert (FIT : fits (nth (nth a act 0) E []) (gather (map (without ga) sp) sr)).
  { unfold sr. rewrite gather_remove by auto. apply (accepts_fits _ _ _ _ OK); auto. apply SP. }
  assert (PX : forall i, inb sr i -> inb sr (pixel_at (nth (nth a act 0) E []) (map (without ga) sp) sr i)).
  { intros i I. apply (pixel_at_inb d); auto; [rewrite Lr; auto|apply (ok_sym _ _ _ _ OK); auto]. }
  set (p := comp G (inv G (nth a act 0)) (nth h dom 0)).
  assert (SH : shape (at_element ga dom x p) = sr) by (unfold at_element; destruct (mem p dom); reflexivity).
  unfold transformed. rewrite SH. apply tab_ext. intros i I. fold sr.
  pose proof (inb_length _ _ I) as LI.
  rewrite nth_insert_at_eq by lia. fold p. rewrite pixel_at_stack by (auto; unfold rank in *; lia). fold sr.
  set (j := pixel_at _ _ sr i). assert (J : inb sr j) by (apply PX; auto). pose proof (inb_length _ _ J) as LJ.
  unfold dom_at, at_element. destruct (mem p dom) eqn:M.
  - unfold slice. fold sr. rewrite at_tab by auto. f_equal. apply upd_insert_at. lia.
  - unfold zeros. fold sr. rewrite at_tab by auto. reflexivity.
Qed.

End A.
End G.

Lemma at_element_whole {A} {ZA : Zero A} ga n (x : tensor A) p :
  p < n -> at_element ga (seq 0 n) x p = slice ga p x.
Proof.
  intros P. unfold at_element. rewrite (proj2 (mem_In _ _)) by (apply in_seq; lia). f_equal.
  rewrite <- (nth_seq0 p n P) at 1. apply index_of_nth; [apply seq_NoDup|rewrite seq_length; auto].
Qed.
