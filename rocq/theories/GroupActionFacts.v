(** [Group.action] on grid signals and on group signals, for any group that
    satisfies [group_ok]. *)
From Verif Require Export LibraryFacts.

Lemma NoDup_map_in {X Y} (f : X -> Y) l :
  (forall a b, In a l -> In b l -> f a = f b -> a = b) -> NoDup l -> NoDup (map f l).
Proof.
  induction l as [|x l IH]; intros H ND; cbn; [constructor|].
  inversion ND as [|? ? N ND']; subst. constructor.
  - intros I. apply in_map_iff in I as [y [E I]]. apply N.
    rewrite (H x y); auto; [left; auto|right; auto].
  - apply IH; auto. intros a b IA IB. apply H; right; auto.
Qed.

Section G.
Variables (G : group) (d : nat) (E : list symmetry) (eq : bool).
Hypothesis OK : group_ok G d E eq.

Notation n := (List.length E).

Lemma E_inj a b : a < n -> b < n -> nth a E [] = nth b E [] -> a = b.
Proof. intros A B. apply (proj1 (NoDup_nth E []) (ok_nodup _ _ _ _ OK)); auto. Qed.

Lemma ok_is_group : is_group n (comp G) (inv G).
Proof.
  pose proof (ok_pos _ _ _ _ OK) as P.
  assert (ID : forall e, is_symmetry d e -> after (identity d) e = e /\ after e (identity d) = e).
  { intros e SY. pose proof SY as [L _]. split; apply (nth_ext _ _ (0, false) (0, false)).
    - apply length_after.
    - rewrite length_after. intros m M. rewrite nth_after by auto.
      pose proof (is_symmetry_nth _ _ _ SY ltac:(rewrite <- L; exact M)) as X.
      destruct (nth m e (0, false)) as [p r]. cbn [fst] in X. unfold identity.
      pose proof (map_nth (fun m : nat => (m, false)) (seq 0 d) 0 p) as Q. cbv beta in Q.
      rewrite Q, seq_nth by auto. rewrite xorb_false_r. reflexivity.
    - rewrite length_after. unfold identity. rewrite map_length, seq_length. auto.
    - rewrite length_after. unfold identity. rewrite map_length, seq_length. intros m M.
      rewrite nth_after by (rewrite map_length, seq_length; auto).
      pose proof (map_nth (fun m : nat => (m, false)) (seq 0 d) 0 m) as Q. cbv beta in Q.
      rewrite Q, seq_nth by auto. cbn [Nat.add]. destruct (nth m e (0, false)). rewrite xorb_false_l. reflexivity. }
  constructor; auto.
  - intros a b A B. apply (ok_comp _ _ _ _ OK); auto.
  - intros a b c A B C.
    destruct (ok_comp _ _ _ _ OK b c B C) as [BC EBC]. destruct (ok_comp _ _ _ _ OK a b A B) as [AB EAB].
    destruct (ok_comp _ _ _ _ OK a _ A BC) as [X EX]. destruct (ok_comp _ _ _ _ OK _ c AB C) as [Y EY].
    apply E_inj; auto. rewrite EX, EY, EBC, EAB. apply (after_assoc d); apply (ok_sym _ _ _ _ OK); auto.
  - intros a A. destruct (ok_comp _ _ _ _ OK 0 a P A) as [X EX]. apply E_inj; auto.
    rewrite EX, (ok_id _ _ _ _ OK). apply ID. apply (ok_sym _ _ _ _ OK); auto.
  - intros a A. destruct (ok_comp _ _ _ _ OK a 0 A P) as [X EX]. apply E_inj; auto.
    rewrite EX, (ok_id _ _ _ _ OK). apply ID. apply (ok_sym _ _ _ _ OK); auto.
  - intros a A. apply (ok_inv _ _ _ _ OK); auto.
  - intros a A. apply (ok_inv _ _ _ _ OK); auto.
  - intros a A. apply (ok_inv _ _ _ _ OK); auto.
Qed.

Definition accepts (sp s : list nat) : Prop := eq = true -> all_equal (gather sp s).

Lemma accepts_fits sp s a :
  List.length sp = d -> accepts sp s -> a < n -> fits (nth a E []) (gather sp s).
Proof.
  intros L H A. unfold accepts in H. destruct eq eqn:Q.
  - apply (fits_all_equal d); auto.
    + apply (ok_sym _ _ _ _ OK); auto.
    + rewrite length_gather; auto.
  - apply (ok_fits _ _ _ _ OK); auto.
Qed.

(** Index lists of (acting or domain) subgroups. *)
Definition sub_idx (H : option string) (idx : list nat) : Prop :=
  subgroup_get G (parse_subgroup G H) = Ok idx.

Lemma sub_idx_dict H idx : sub_idx H idx -> exists name, parse_subgroup G H = Some name /\ dict_get (g_subgroup G) name = Ok idx.
Proof.
  unfold sub_idx, subgroup_get. destruct (parse_subgroup G H); [eauto|discriminate].
Qed.

Lemma sub_idx_facts H idx : sub_idx H idx ->
  NoDup idx /\ (forall a, In a idx -> a < n) /\ hd_error idx = Some 0 /\
  (List.length idx = n -> idx = seq 0 n) /\
  (forall a b, In a idx -> In b idx -> In (comp G (inv G a) b) idx).
Proof.
  intros S. destruct (sub_idx_dict _ _ S) as [name [_ D]].
  destruct (ok_sub _ _ _ _ OK _ _ D) as [H1 [H2 [H3 [_ [H5 [H6 _]]]]]]. auto.
Qed.

Lemma sub_idx_whole : sub_idx (Some ""%string) (seq 0 n).
Proof.
  unfold sub_idx, parse_subgroup, subgroup_get. cbn. apply (ok_self _ _ _ _ OK).
Qed.

Lemma sub_idx_le H idx : sub_idx H idx -> List.length idx <= n.
Proof.
  intros S. destruct (sub_idx_facts _ _ S) as [ND [B _]].
  rewrite <- (seq_length n 0). apply NoDup_incl_length; auto.
  intros a A. apply in_seq. split; [lia|]. apply B; auto.
Qed.

Section A.
Context {A : Type} {ZA : Zero A}.

Lemma action_on_grid_tab s (f : list nat -> A) k sp H idx :
  k <= List.length s -> spatial_axes_ok d sp (List.length s) -> accepts sp s ->
  subgroup_get G H = Ok idx -> (forall a, In a idx -> a < n) ->
  action_on_grid G (tab s f) (Z.of_nat k) (map Z.of_nat sp) H
  = Ok (stk k (List.length idx) s (fun g i => f (pixel_at (nth (nth g idx 0) E []) sp s i))).
Proof.
  intros K SP AC S B. unfold action_on_grid.
  rewrite (ok_action _ _ _ _ OK) by auto. cbn [bind]. rewrite S. cbn [bind].
  rewrite take_stk by auto. reflexivity.
Qed.

Lemma action_grid s (f : list nat -> A) k sp ga H idx :
  k <= List.length s -> spatial_axes_ok d sp (List.length s) -> accepts sp s -> sub_idx H idx ->
  action G (tab s f) (map Z.of_nat sp) (Z.of_nat k) ga H None
  = Ok (stk k (List.length idx) s (fun g i => f (pixel_at (nth (nth g idx 0) E []) sp s i))).
Proof.
  intros K SP AC S. unfold action. cbn [parse_subgroup].
  apply action_on_grid_tab; auto. apply (sub_idx_facts _ _ S).
Qed.

(** ** upsample *)

Lemma upsample_stk k s (F : nat -> list nat -> A) H idx :
  k <= List.length s -> subgroup_get G H = Ok idx -> NoDup idx -> (forall a, In a idx -> a < n) ->
  upsample G (stk k (List.length idx) s F) (Z.of_nat k) H
  = Ok (stk k n s (fun g i => if mem g idx then F (index_of g idx) i else zero)).
Proof.
  intros K S ND B. unfold upsample. rewrite S. cbn [bind]. rewrite shape_stk.
  assert (ES : py_upto (insert_at k (List.length idx) s) (Z.of_nat k) ++ [1]
               ++ py_from (insert_at k (List.length idx) s) (Z.of_nat k + 1) = insert_at k 1 s).
  { replace (Z.of_nat k + 1)%Z with (Z.of_nat (k + 1)) by lia.
    rewrite py_upto_nat, py_from_nat by (rewrite length_insert_at; lia).
    unfold insert_at. rewrite firstn_app_exact by (rewrite firstn_length; lia). f_equal. cbn [app]. f_equal.
    rewrite Nat.add_1_r. rewrite skipn_S_app; auto. rewrite firstn_length; lia. }
  rewrite ES.
  set (L := map (fun g => (1, fun (_ : nat) i => if mem g idx then F (index_of g idx) i else zero)) (seq 0 n)).
  rewrite (mapM_Ok _ (fun g => stk k 1 s (fun _ i => if mem g idx then F (index_of g idx) i else zero))).
  2:{ intros g _. destruct (mem g idx) eqn:M.
      - apply mem_In in M.
        rewrite (zip_get_seq idx g (index_of g idx)); auto using index_of_lt, nth_index_of.
        cbn [bind]. rewrite take_stk; [|auto|].
        + f_equal. apply stk_ext; auto. intros v i V _. cbn in V. assert (v = 0) by lia. subst. reflexivity.
        + intros v [<-|[]]. apply index_of_lt; auto.
      - reflexivity. }
  cbn [bind]. rewrite (ok_order _ _ _ _ OK).
  replace (map (fun g => stk k 1 s (fun _ i => if mem g idx then F (index_of g idx) i else zero)) (seq 0 n))
    with (map (fun nF => stk k (fst nF) s (snd nF)) L) by (unfold L; rewrite map_map; reflexivity).
  rewrite concatenate_stk; auto.
  - f_equal. unfold L.
    rewrite (total_ones (fun g i => if mem g idx then F (index_of g idx) i else zero)). rewrite seq_length.
    apply stk_ext; auto. intros g i Hg _.
    etransitivity; [apply (pickF_ones (fun g i => if mem g idx then F (index_of g idx) i else zero) _ _ _ 0); rewrite seq_length; auto|].
    cbv beta. rewrite seq_nth by auto. reflexivity.
  - unfold L. pose proof (ok_pos _ _ _ _ OK). destruct n; [lia|]. discriminate.
Qed.

(** ** the table of flat positions *)

Lemma comp_tab : g_composition G = tab [n; n] (fun i => at_ (g_composition G) i).
Proof.
  rewrite <- (tab_at (g_composition G)) at 1 by apply (ok_cwf _ _ _ _ OK).
  rewrite (ok_cshape _ _ _ _ OK). reflexivity.
Qed.

Lemma row_tab m c (f : list nat -> nat) r : r < m -> row (tab [m; c] f) r = Ok (map (fun x => f [r; x]) (seq 0 c)).
Proof.
  intros R. unfold row. rewrite shape_tab. replace (r <? m) with true by (symmetry; apply Nat.ltb_lt; auto).
  f_equal. apply map_ext_in. intros x X. apply in_seq in X. apply at_tab. repeat constructor; lia.
Qed.

Lemma nth_flat_rows (rows : list (list nat)) c a x (h : nat -> nat -> nat) st :
  (forall r, In r rows -> List.length r = c) -> a < List.length rows -> x < c ->
  nth (a * c + x) (flat_map (fun ir => map (h (fst ir)) (snd ir)) (combine (seq st (List.length rows)) rows)) 0
  = h (st + a) (nth x (nth a rows []) 0).
Proof.
  revert a st; induction rows as [|r rows IH]; intros a st H HA X; cbn in HA; [lia|].
  cbn [List.length seq combine flat_map fst snd].
  assert (LR : List.length r = c) by (apply H; left; auto).
  destruct a as [|a].
  - cbn [Nat.mul Nat.add nth]. rewrite app_nth1 by (rewrite map_length; lia). rewrite Nat.add_0_r.
    rewrite (nth_indep _ 0 (h st 0)) by (rewrite map_length; lia). apply map_nth.
  - rewrite app_nth2 by (rewrite map_length; simpl; lia). rewrite map_length, LR.
    replace (S a * c + x - c) with (a * c + x) by (simpl; lia).
    rewrite IH; auto; [|intros; apply H; right; auto|lia]. cbn [nth]. f_equal. lia.
Qed.

Lemma length_flat_rows (rows : list (list nat)) c (h : nat -> nat -> nat) st :
  (forall r, In r rows -> List.length r = c) ->
  List.length (flat_map (fun ir => map (h (fst ir)) (snd ir)) (combine (seq st (List.length rows)) rows))
  = List.length rows * c.
Proof.
  revert st; induction rows as [|r rows IH]; intros st H; auto.
  cbn [List.length seq combine flat_map fst snd]. rewrite app_length, map_length, IH by (intros; apply H; right; auto).
  rewrite H by (left; auto). lia.
Qed.

Lemma flat_indices Ha Hd act dom :
  subgroup_get G Ha = Ok act -> subgroup_get G Hd = Ok dom ->
  (forall a, In a act -> a < n) -> (forall a, In a dom -> a < n) ->
  exists l, composition_flat_indices G Ha Hd = Ok l /\
    List.length l = List.length act * List.length dom /\
    forall a x, a < List.length act -> x < List.length dom ->
      nth (a * List.length dom + x) l 0 = a * n + comp G (inv G (nth a act 0)) (nth x dom 0).
Proof.
  intros SA SD BA BD. unfold composition_flat_indices. rewrite SA. cbn [bind].
  rewrite (mapM_Ok _ (inv G)).
  2:{ intros a IA. rewrite (py_nth_nat _ _ 0); auto. rewrite (ok_ilen _ _ _ _ OK). auto. }
  cbn [bind]. change 0%Z with (Z.of_nat 0). change 1%Z with (Z.of_nat 1).
  rewrite comp_tab, take_vec.
  2:{ cbn. lia. }
  2:{ intros v V. apply in_map_iff in V as [a [<- IA]]. cbn. apply (ok_inv _ _ _ _ OK); auto. }
  cbn [bind]. rewrite SD. cbn [bind]. rewrite take_vec; [|cbn; lia|cbn; intros; apply BD; auto].
  cbn [bind upd]. rewrite map_length.
  set (rowf := fun r => map (fun x => comp G (inv G (nth r act 0)) (nth x dom 0)) (seq 0 (List.length dom))).
  rewrite (mapM_Ok _ rowf).
  2:{ intros r R. apply in_seq in R. rewrite row_tab by lia. f_equal. unfold rowf. apply map_ext_in.
      intros x X. apply in_seq in X. cbn [nth upd]. unfold comp. f_equal. f_equal.
      rewrite (nth_indep _ 0 (inv G 0)) by (rewrite map_length; lia). apply map_nth. }
  cbn [bind]. rewrite (ok_order _ _ _ _ OK). eexists. split; [reflexivity|].
  assert (LR : List.length (map rowf (seq 0 (List.length act))) = List.length act)
    by (rewrite map_length, seq_length; auto).
  assert (LC : forall r, In r (map rowf (seq 0 (List.length act))) -> List.length r = List.length dom).
  { intros r R. apply in_map_iff in R as [x [<- _]]. unfold rowf. rewrite map_length, seq_length. auto. }
  split.
  - pose proof (length_flat_rows _ _ (fun i v => i * n + v) 0 LC) as X. rewrite LR in X. exact X.
  - intros a x Ha0 Hx. pose proof (nth_flat_rows _ _ a x (fun i v => i * n + v) 0 LC) as X.
    rewrite LR in X. rewrite X by auto. cbn [Nat.add]. f_equal.
    rewrite (nth_indep _ [] (rowf 0)) by (rewrite LR; auto). rewrite map_nth, seq_nth by auto.
    unfold rowf. cbn [Nat.add].
    rewrite (nth_indep _ 0 ((fun x => comp G (inv G (nth a act 0)) (nth x dom 0)) 0)) by (rewrite map_length, seq_length; auto).
    rewrite (map_nth (fun x => comp G (inv G (nth a act 0)) (nth x dom 0))). rewrite seq_nth by auto. reflexivity.
Qed.

(** ** the action on a signal on the group *)

Lemma shift_without k a : a <> k -> shift k (without k a) = a.
Proof.
  intros N. unfold shift, without. destruct (Nat.ltb_spec k a);
    match goal with |- context[?x <=? ?y] => destruct (Nat.leb_spec x y) end; lia.
Qed.

Lemma shift_without_map k sp : ~ In k sp -> map (shift k) (map (without k) sp) = sp.
Proof.
  intros N. rewrite map_map. rewrite <- (map_id sp) at 2. apply map_ext_in. intros a IA.
  apply shift_without. intros ->. auto.
Qed.

(** Spatial action on a stack, slice by slice. *)
Lemma pixel_at_stack e k sp s v i :
  ~ In k sp -> k < List.length s -> List.length i = List.length s - 1 ->
  pixel_at e sp s (insert_at k v i) = insert_at k v (pixel_at e (map (without k) sp) (remove_at k s) i).
Proof.
  intros N K L. rewrite <- (shift_without_map k sp N) at 1.
  rewrite <- (insert_remove_at k s K) at 1. apply pixel_at_shift.
  - rewrite length_remove_at; lia.
  - lia.
Qed.

Lemma gather_remove k sp s : ~ In k sp -> k < List.length s -> gather (map (without k) sp) (remove_at k s) = gather sp s.
Proof.
  intros N K. rewrite <- (shift_without_map k sp N) at 2. rewrite <- (insert_remove_at k s K) at 2.
  rewrite gather_shift; auto. rewrite length_remove_at; lia.
Qed.

(** Value at group position [p] and index [i] of a signal on the elements [dom]. *)
Definition dom_at (f : list nat -> A) (ga : nat) (dom : list nat) (p : nat) (i : list nat) : A :=
  if mem p dom then f (upd ga (index_of p dom) i) else zero.

Lemma spatial_gt d' sp r k : spatial_axes_ok d' sp r -> ~ In k sp -> k < r ->
  NoDup (map (without k) sp) /\ List.length (map (without k) sp) = d' /\
  (forall a, In a (map (without k) sp) -> a < r - 1).
Proof.
  intros [L [ND [B _]]] N K. split; [|split].
  - apply NoDup_map_in; auto.
    intros a b IA IB E0. rewrite <- (shift_without k a), <- (shift_without k b); congruence.
  - rewrite map_length. auto.
  - intros a IA. apply in_map_iff in IA as [b [<- IB]]. specialize (B b IB). unfold without.
    destruct (Nat.ltb_spec k b); [lia|]. assert (b <> k) by congruence. lia.
Qed.

Lemma action_group s (f : list nat -> A) sp ga nga Ha Hd act dom :
  ga < List.length s -> nga <= List.length s ->
  spatial_axes_ok d sp (List.length s) -> ~ In ga sp ->
  accepts sp s -> sub_idx Ha act -> sub_idx Hd dom -> nth ga s 0 = List.length dom ->
  action G (tab s f) (map Z.of_nat sp) (Z.of_nat nga) (Some (Z.of_nat ga)) Ha Hd
  = Ok (stk nga (List.length act) s (fun a i =>
          dom_at f ga dom (comp G (inv G (nth a act 0)) (nth (nth ga i 0) dom 0))
                 (pixel_at (nth (nth a act 0) E []) sp s i))).
Proof.
  intros GA NGA SP NI AC SA SD LG.
  destruct (sub_idx_dict _ _ SD) as [dname [PD DD]].
  unfold action. rewrite PD.
  unfold sub_idx in SA, SD. rewrite PD in SD.
  destruct (sub_idx_facts _ _ SA) as [ND1 [B1 [H1 _]]].
  destruct (sub_idx_facts (Some dname) dom) as [ND2 [B2 [H2 [FULL _]]]].
  { unfold sub_idx. cbn. destruct (String.eqb_spec dname ""); [|auto]. subst dname.
    unfold parse_subgroup in PD. destruct Hd as [hd|]; [|discriminate].
    destruct (String.eqb_spec hd ""); injection PD as PD; [|congruence]. subst.
    cbn [subgroup_get] in *. rewrite PD. auto. }
  unfold action_on_group. rewrite SA. cbn [bind]. rewrite SD. cbn [bind].
  set (sr := remove_at ga s). assert (Es : s = insert_at ga (List.length dom) sr).
  { unfold sr. rewrite <- LG. symmetry. apply insert_remove_at. auto. }
  assert (Lr : List.length sr = List.length s - 1) by (unfold sr; apply length_remove_at; auto).
  assert (Kr : ga <= List.length sr) by lia.
  pose proof (ok_pos _ _ _ _ OK) as Pn.
  assert (Pd : 0 < List.length dom) by (destruct dom; [discriminate|cbn; lia]).
  assert (Pa : 0 < List.length act) by (destruct act; [discriminate|cbn; lia]).
  set (F := fun g i => f (insert_at ga g i)).
  assert (EF : tab s f = stk ga (List.length dom) sr F).
  { rewrite Es at 1. unfold F. apply tab_stk. auto. }
  set (Fup := fun p i => if mem p dom then F (index_of p dom) i else zero).
  assert (UP : (if List.length dom <? g_order G
                then upsample G (tab s f) (Z.of_nat ga) (Some dname) else Ok (tab s f))
               = Ok (stk ga n sr Fup)).
  { rewrite (ok_order _ _ _ _ OK), EF. destruct (Nat.ltb_spec (List.length dom) n).
    - apply upsample_stk; auto.
    - f_equal. assert (LN : List.length dom = n).
      { pose proof (sub_idx_le (Some dname) dom) as Y.
        assert (List.length dom <= n); [|lia]. rewrite <- (seq_length n 0). apply NoDup_incl_length; auto.
        intros a IA. apply in_seq. specialize (B2 a IA). lia. }
      rewrite LN. specialize (FULL LN). apply stk_ext; auto. intros p i Hp _. unfold Fup.
      assert (IN : In p dom) by (rewrite FULL; apply in_seq; lia).
      rewrite (proj2 (mem_In _ _) IN).
      replace (index_of p dom) with p; auto.
      rewrite FULL. rewrite <- (nth_seq0 p n Hp) at 2. symmetry. apply index_of_nth; [apply seq_NoDup|rewrite seq_length; auto]. }
  rewrite UP. cbn [bind]. clear UP.
  (* spatial action *)
  set (spr := map (without ga) sp).
  set (su := insert_at ga n sr).
  assert (SPu : gather sp su = gather sp s).
  { unfold su. rewrite <- (shift_without_map ga sp NI). rewrite Es. rewrite !gather_shift by auto. reflexivity. }
  assert (LSU : List.length su = List.length s) by (unfold su; rewrite length_insert_at; lia).
  unfold stk at 1. fold su.
  rewrite (action_on_grid_tab su _ ga sp _ act); auto; [|lia|rewrite LSU; auto|unfold accepts in *; rewrite SPu; auto].
  cbn [bind].
  (* merge *)
  replace (Z.of_nat ga + 1)%Z with (Z.of_nat (shift ga ga)) by (unfold shift; rewrite Nat.leb_refl; lia).
  assert (NU : nth ga su 0 = n) by (unfold su; apply nth_insert_at_eq; auto).
  rewrite merge_axes_stk; [|lia|lia|lia]. cbn [bind]. rewrite NU.
  destruct (flat_indices _ _ act dom SA SD B1 B2) as [l [EL [LL NL]]]. rewrite EL. cbn [bind].
  (* take *)
  assert (U1 : upd ga (List.length act * n) su = insert_at ga (List.length act * n) sr).
  { unfold su. apply upd_insert_at; auto. }
  rewrite U1, tab_stk by auto.
  rewrite take_stk; auto.
  2:{ intros v V. destruct (In_nth _ _ 0 V) as [x [X <-]]. rewrite LL in X.
      pose proof (Nat.div_mod x (List.length dom) ltac:(lia)) as DM.
      pose proof (Nat.mod_upper_bound x (List.length dom) ltac:(lia)).
      assert (x / List.length dom < List.length act) by (apply Nat.div_lt_upper_bound; lia).
      replace x with (x / List.length dom * List.length dom + x mod List.length dom) by lia.
      rewrite NL by auto.
      assert (comp G (inv G (nth (x / List.length dom) act 0)) (nth (x mod List.length dom) dom 0) < n).
      { apply (ok_comp _ _ _ _ OK).
        - apply (ok_inv _ _ _ _ OK). apply B1. apply nth_In; auto.
        - apply B2. apply nth_In; auto. }
      nia. }
  cbn [bind]. rewrite LL.
  (* split *)
  assert (U2 : insert_at ga (List.length act * List.length dom) sr
               = upd ga (List.length act * nth ga s 0) s).
  { rewrite LG. rewrite Es at 1. rewrite upd_insert_at by auto. reflexivity. }
  unfold stk at 1. rewrite U2, split_axes_tab by lia. cbn [bind].
  rewrite moveaxis_stk by lia. f_equal. apply stk_ext; auto.
  intros a i HA I. rewrite LG.
  assert (Ig : nth ga i 0 < List.length dom) by (rewrite <- LG; apply inb_nth; auto).
  rewrite Es in I. destruct (inb_insert_inv _ _ _ _ Kr I) as [v [j [-> [V J]]]].
  pose proof (inb_length _ _ J) as LJ.
  rewrite nth_insert_at_eq in * by lia. rewrite upd_insert_at by lia.
  rewrite !remove_insert_at by lia. rewrite !nth_insert_at_eq by lia. rewrite NL by auto.
  rewrite upd_insert_at by lia.
  assert (CB : comp G (inv G (nth a act 0)) (nth v dom 0) < n).
  { apply (ok_comp _ _ _ _ OK).
    - apply (ok_inv _ _ _ _ OK). apply B1. apply nth_In; auto.
    - apply B2. apply nth_In; auto. }
  rewrite Nat.div_add_l, (Nat.div_small _ n), Nat.add_0_r by lia.
  rewrite (Nat.add_comm (a * n)), Nat.mod_add, Nat.mod_small by lia.
  rewrite !pixel_at_stack by (auto; lia).
  unfold su at 1 2. rewrite !remove_insert_at by lia. fold spr. fold sr.
  assert (LP : forall e, List.length (pixel_at e spr sr j) = List.length j).
  { intros e. unfold pixel_at. apply length_scatter. }
  rewrite nth_insert_at_eq, remove_insert_at by (rewrite LP; lia).
  unfold Fup, dom_at, F. rewrite upd_insert_at by (rewrite LP; lia). reflexivity.
Qed.

End A.
End G.
