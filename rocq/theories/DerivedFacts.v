(** [Group.__init__]: computed inverses and groups derived from a parent. *)
From Verif Require Export GroupTheorems.

Lemma nth_concat (l : list (list nat)) n r c :
  (forall x, In x l -> List.length x = n) -> r < List.length l -> c < n ->
  nth (r * n + c) (List.concat l) 0 = nth c (nth r l []) 0.
Proof.
  intros LR R C. revert r R. induction l as [|x l IH]; intros r R; [cbn in R; lia|].
  cbn [List.concat]. assert (LX : List.length x = n) by (apply LR; left; auto). destruct r as [|r].
  - cbn [Nat.mul Nat.add nth]. rewrite app_nth1 by lia. reflexivity.
  - cbn [List.length] in R. rewrite app_nth2 by (cbn [Nat.mul]; lia). rewrite LX.
    replace (S r * n + c - n) with (r * n + c) by (cbn [Nat.mul]; lia).
    rewrite IH; [reflexivity| |lia]. intros y Y. apply LR. right; auto.
Qed.

Lemma at_cast2 rows t r c n :
  cast2 rows = Ok t -> List.length rows = n -> (forall l, In l rows -> List.length l = n) ->
  r < n -> c < n -> at_ t [r; c] = nth c (nth r rows []) 0.
Proof.
  intros H L LR R C. rewrite <- (nth_concat rows n r c) by (auto; lia).
  unfold cast2 in H. destruct rows as [|r0 rows]; [cbn in L; lia|].
  destruct (forallb _ _); [|discriminate]. injection H as <-.
  unfold at_. cbn [shape data]. rewrite (LR r0) by (left; auto). cbn [ravel]. unfold prod. cbn [fold_right].
  rewrite !Nat.mul_1_r, Nat.add_0_r. reflexivity.
Qed.

Lemma cast2_ok rows n :
  List.length rows = n -> 0 < n -> (forall l, In l rows -> List.length l = n) ->
  exists t, cast2 rows = Ok t /\ shape t = [n; n] /\ wf t.
Proof.
  intros L P LR. unfold cast2. destruct rows as [|r0 rows]; [cbn in L; lia|].
  assert (L0 : List.length r0 = n) by (apply LR; left; auto).
  replace (forallb _ _) with true.
  2:{ symmetry. apply forallb_forall. intros x X. rewrite LR, L0 by auto. apply Nat.eqb_refl. }
  eexists. split; [reflexivity|]. cbn [shape]. rewrite L0, L. split; auto.
  unfold wf. cbn [data shape]. unfold prod. cbn [fold_right]. rewrite Nat.mul_1_r. rewrite <- L at 1.
  clear L L0 P. revert LR. generalize (r0 :: rows). intros l LR. induction l as [|x l IH]; auto.
  cbn [List.concat List.length]. rewrite app_length, IH, (LR x); [lia|left; auto|intros; apply LR; right; auto].
Qed.

Lemma entry_ok t n r c : shape t = [n; n] -> r < n -> c < n -> entry t r c = Ok (at_ t [r; c]).
Proof.
  intros S R C. unfold entry. rewrite S.
  replace (r <? n) with true by (symmetry; apply Nat.ltb_lt; auto).
  replace (c <? n) with true by (symmetry; apply Nat.ltb_lt; auto). reflexivity.
Qed.

Lemma group_inv_unique n op iv a b :
  is_group n op iv -> a < n -> b < n -> op a b = 0 -> b = iv a.
Proof.
  intros GR A B E. pose proof (group_inv_closed _ _ _ GR a A) as I.
  rewrite <- (group_id_l _ _ _ GR b B), <- (group_inv_l _ _ _ GR a A).
  rewrite <- (group_assoc _ _ _ GR) by auto. rewrite E. apply (group_id_r _ _ _ GR); auto.
Qed.

Lemma compute_inverses_ok t n iv :
  shape t = [n; n] -> is_group n (fun a b => at_ t [a; b]) iv ->
  exists l, compute_inverses n t None = Ok l /\ List.length l = n /\
            (forall a, a < n -> nth a l 0 = iv a).
Proof.
  intros S GR. unfold compute_inverses.
  rewrite (mapM_Ok _ iv).
  - exists (map iv (seq 0 n)). split; auto. split; [rewrite map_length, seq_length; auto|].
    intros a H. rewrite (nth_indep _ 0 (iv 0)) by (rewrite map_length, seq_length; auto).
    rewrite map_nth, seq_nth by auto. reflexivity.
  - intros r R. apply in_seq in R.
    rewrite (mapM_Ok _ (fun c => (c, at_ t [r; c]))).
    2:{ intros c C. apply in_seq in C. rewrite (entry_ok t n) by (auto; lia). reflexivity. }
    cbn [bind].
    assert (I : iv r < n) by (apply (group_inv_closed _ _ _ GR); lia).
    assert (IN : In (iv r, 0) (filter (fun p => snd p =? 0) (map (fun c => (c, at_ t [r; c])) (seq 0 n)))).
    { apply filter_In. split; [|auto]. apply in_map_iff. exists (iv r). split; [|apply in_seq; lia].
      f_equal. apply (group_inv_r _ _ _ GR). lia. }
    destruct (filter _ _) as [|[c e] rest] eqn:F; [destruct IN|].
    f_equal. assert (IN' : In (c, e) ((c, e) :: rest)) by (left; auto). rewrite <- F in IN'.
    apply filter_In in IN' as [M Z]. cbn [snd] in Z. apply Nat.eqb_eq in Z.
    apply in_map_iff in M as [c' [EQ C]]. injection EQ as -> EQ. apply in_seq in C.
    apply (group_inv_unique n (fun a b => at_ t [a; b])); auto; lia.
Qed.

Lemma is_group_ext n op op' iv iv' :
  (forall a b, a < n -> b < n -> op a b = op' a b) -> (forall a, a < n -> iv a = iv' a) ->
  is_group n op iv -> is_group n op' iv'.
Proof.
  intros HO HI GR. pose proof (group_nonempty _ _ _ GR).
  assert (CL := group_closed _ _ _ GR). assert (IC := group_inv_closed _ _ _ GR).
  constructor; auto.
  - intros a b A B. rewrite <- HO by auto. auto.
  - intros a b c A B C. rewrite <- (HO b c), <- (HO a b), <- (HO a), <- (HO (op a b)) by auto.
    apply (group_assoc _ _ _ GR); auto.
  - intros a A. rewrite <- HO by auto. apply (group_id_l _ _ _ GR); auto.
  - intros a A. rewrite <- HO by auto. apply (group_id_r _ _ _ GR); auto.
  - intros a A. rewrite <- HI by auto. auto.
  - intros a A. rewrite <- HI, <- HO by auto. apply (group_inv_l _ _ _ GR); auto.
  - intros a A. rewrite <- HI, <- HO by auto. apply (group_inv_r _ _ _ GR); auto.
Qed.

(** ** C03 *)
Lemma init_inverses name order rows iv sub cos act parent :
  List.length rows = order -> (forall r, In r rows -> List.length r = order) ->
  is_group order (fun a b => nth b (nth a rows []) 0) iv ->
  exists G, group_init name order None (Some rows) (Some sub) (Some cos) act parent = Ok G /\
    g_name G = name /\ g_order G = order /\
    shape (g_composition G) = [order; order] /\ List.length (g_inverses G) = order /\
    (forall a b, a < order -> b < order -> comp G a b = nth b (nth a rows []) 0) /\
    is_group order (comp G) (inv G).
Proof.
  intros L LR GR. pose proof (group_nonempty _ _ _ GR) as P.
  destruct (cast2_ok rows order L P LR) as [t [C [S W]]].
  assert (EQ : forall a b, a < order -> b < order -> nth b (nth a rows []) 0 = at_ t [a; b]).
  { intros a b A B. symmetry. apply (at_cast2 rows t a b order); auto. }
  assert (GR' : is_group order (fun a b => at_ t [a; b]) iv) by (revert GR; apply is_group_ext; auto).
  destruct (compute_inverses_ok t order iv S GR') as [l [I [LI IV]]].
  unfold group_init, compute_composition. rewrite C. cbn [bind]. rewrite I. cbn [bind compute_subgroup compute_cosets].
  eexists. split; [reflexivity|]. cbn [g_name g_order g_composition g_inverses].
  do 4 (split; [assumption || reflexivity|]). split.
  - unfold comp. cbn [g_composition]. intros. symmetry. apply EQ; auto.
  - revert GR'. apply is_group_ext; auto. intros a A. unfold inv. cbn [g_inverses]. symmetry. auto.
Qed.

(** ** C02 *)
Lemma ext_int_ok ext order l :
  NoDup ext -> List.length ext = order -> incl l ext ->
  external_to_internal ext order l = Ok (map (fun a => index_of a ext) l).
Proof.
  intros ND L I. unfold external_to_internal. apply mapM_Ok. intros a IA. rewrite <- L.
  apply zip_get_seq; auto using index_of_lt, nth_index_of.
Qed.

Lemma dict_get_map {B C} (f : B -> C) l k :
  dict_get (map (fun kv => (fst kv, f (snd kv))) l) k
  = match dict_get l k with Ok v => Ok (f v) | Err e => Err e end.
Proof.
  induction l as [|[k' v] l IH]; auto. cbn. destruct (String.eqb k k'); auto.
Qed.

Lemma dict_get_filter {B} (f : string * B -> bool) l k :
  NoDup (map fst l) ->
  dict_get (filter f l) k
  = match dict_get l k with Ok v => if f (k, v) then Ok v else Err KeyError | Err e => Err e end.
Proof.
  induction l as [|[k' v] l IH]; intros ND; auto. cbn [map fst] in ND. inversion ND as [|? ? N ND']; subst.
  cbn [filter dict_get]. destruct (String.eqb_spec k k') as [->|NE].
  - destruct (f (k', v)) eqn:F; cbn [dict_get].
    + rewrite String.eqb_refl. auto.
    + rewrite IH by auto. destruct (dict_get l k') eqn:D.
      * exfalso. apply N. apply dict_get_In in D. apply in_map_iff. exists (k', a). auto.
      * clear -D. induction l as [|[x y] l IH]; cbn in *; [congruence|].
        destruct (String.eqb k' x); [discriminate|auto].
  - destruct (f (k', v)); cbn [dict_get]; [|auto].
    destruct (String.eqb_spec k k'); [contradiction|]. auto.
Qed.

Definition sub_of (ext : list nat) (sub : list (string * list nat)) : list (string * list nat) :=
  map (fun kv => (fst kv, map (fun a => index_of a ext) (snd kv)))
      (filter (fun kv => forallb (fun i => mem i ext) (snd kv)) sub).

Record subgroup_list (P : group) (n : nat) (name : string) (ext : list nat) : Prop := {
  sl_get : dict_get (g_subgroup P) name = Ok ext;
  sl_nodup : NoDup ext;
  sl_first : hd_error ext = Some 0;
  sl_bound : forall a, In a ext -> a < n;
  sl_comp : forall a b, In a ext -> In b ext -> In (comp P a b) ext;
  sl_inv : forall a, In a ext -> In (inv P a) ext
}.

Lemma derived_group P n name ext :
  shape (g_composition P) = [n; n] -> wf (g_composition P) -> is_group n (comp P) (inv P) ->
  subgroup_list P n name ext ->
  exists G, group_init name (List.length ext) None None None None None (Some P) = Ok G /\
    g_name G = name /\ g_order G = List.length ext /\
    shape (g_composition G) = [List.length ext; List.length ext] /\ List.length (g_inverses G) = List.length ext /\
    is_group (List.length ext) (comp G) (inv G) /\
    (forall a b, a < List.length ext -> b < List.length ext ->
       nth (comp G a b) ext 0 = comp P (nth a ext 0) (nth b ext 0)) /\
    (forall a, a < List.length ext -> nth (inv G a) ext 0 = inv P (nth a ext 0)) /\
    g_subgroup G = sub_of ext (g_subgroup P).
Proof.
  intros SH W GR [GET ND F B CO CI].
  set (m := List.length ext).
  assert (Pm : 0 < m) by (unfold m; destruct ext; [discriminate|cbn; lia]).
  assert (Z : nth 0 ext 0 = 0) by (destruct ext; [discriminate|injection F as ->; auto]).
  assert (N : forall a, a < m -> In (nth a ext 0) ext) by (intros; apply nth_In; auto).
  set (rowf := fun r => map (fun x => index_of (comp P (nth r ext 0) (nth x ext 0)) ext) (seq 0 m)).
  assert (COMP : exists t, compute_composition name m (Some P) None = Ok t /\ shape t = [m; m] /\ wf t /\
                 forall a b, a < m -> b < m -> at_ t [a; b] = index_of (comp P (nth a ext 0) (nth b ext 0)) ext).
  { unfold compute_composition. rewrite GET. cbn [bind]. change 0%Z with (Z.of_nat 0). change 1%Z with (Z.of_nat 1).
    rewrite <- (tab_at (g_composition P)) by auto. rewrite SH.
    rewrite take_vec by (cbn; auto; lia). cbn [bind]. rewrite take_vec by (cbn; auto; lia). cbn [bind upd]. fold m.
    rewrite (mapM_Ok _ rowf).
    2:{ intros r R. apply in_seq in R. rewrite row_tab by lia. cbn [bind].
        rewrite ext_int_ok; auto.
        - unfold rowf. f_equal. rewrite map_map. apply map_ext_in. intros x X. apply in_seq in X.
          cbn [nth upd]. reflexivity.
        - intros v V. apply in_map_iff in V as [x [<- X]]. apply in_seq in X. cbn [nth upd].
          apply CO; apply N; lia. }
    cbn [bind].
    assert (LR : List.length (map rowf (seq 0 m)) = m) by (rewrite map_length, seq_length; auto).
    assert (LL : forall l, In l (map rowf (seq 0 m)) -> List.length l = m).
    { intros l L. apply in_map_iff in L as [x [<- _]]. unfold rowf. rewrite map_length, seq_length. auto. }
    destruct (cast2_ok _ m LR Pm LL) as [t [C [S Wt]]]. exists t. split; auto. split; auto. split; auto.
    intros a b HA HB. rewrite (at_cast2 _ _ a b m C) by auto.
    rewrite (nth_indep _ [] (rowf 0)) by (rewrite LR; auto). rewrite map_nth, seq_nth by auto.
    unfold rowf. cbn [Nat.add].
    rewrite (nth_indep _ 0 ((fun x => index_of (comp P (nth a ext 0) (nth x ext 0)) ext) 0)) by (rewrite map_length, seq_length; auto).
    rewrite (map_nth (fun x => index_of (comp P (nth a ext 0) (nth x ext 0)) ext)). rewrite seq_nth by auto. reflexivity. }
  destruct COMP as [t [C [S [Wt AT]]]].
  assert (TR : forall a b, a < m -> b < m -> at_ t [a; b] < m /\ nth (at_ t [a; b]) ext 0 = comp P (nth a ext 0) (nth b ext 0)).
  { intros a b HA HB. rewrite AT by auto. split; [apply index_of_lt|apply nth_index_of]; auto. }
  assert (INJ : forall a b, a < m -> b < m -> nth a ext 0 = nth b ext 0 -> a = b).
  { intros a b HA HB. apply (proj1 (NoDup_nth ext 0) ND); auto. }
  set (iv := fun a => index_of (inv P (nth a ext 0)) ext).
  assert (IVok : forall a, a < m -> iv a < m /\ nth (iv a) ext 0 = inv P (nth a ext 0)).
  { intros a HA. unfold iv. split; [apply index_of_lt|apply nth_index_of]; auto. }
  assert (GT : is_group m (fun a b => at_ t [a; b]) iv).
  { constructor; auto.
    - intros a b HA HB. apply TR; auto.
    - intros a b c HA HB HC. destruct (TR b c) as [T1 E1]; auto. destruct (TR a b) as [T2 E2]; auto.
      destruct (TR a (at_ t [b; c])) as [T3 E3]; auto. destruct (TR (at_ t [a; b]) c) as [T4 E4]; auto.
      apply INJ; auto. rewrite E3, E4, E1, E2. apply (group_assoc _ _ _ GR); auto.
    - intros a HA. destruct (TR 0 a) as [T1 E1]; auto. apply INJ; auto. rewrite E1, Z. apply (group_id_l _ _ _ GR); auto.
    - intros a HA. destruct (TR a 0) as [T1 E1]; auto. apply INJ; auto. rewrite E1, Z. apply (group_id_r _ _ _ GR); auto.
    - intros a HA. apply IVok; auto.
    - intros a HA. destruct (IVok a HA) as [I1 I2]. destruct (TR (iv a) a) as [T1 E1]; auto.
      apply INJ; auto. rewrite E1, I2, Z. apply (group_inv_l _ _ _ GR); auto.
    - intros a HA. destruct (IVok a HA) as [I1 I2]. destruct (TR a (iv a)) as [T1 E1]; auto.
      apply INJ; auto. rewrite E1, I2, Z. apply (group_inv_r _ _ _ GR); auto. }
  destruct (compute_inverses_ok t m iv S GT) as [l [I [LI IV]]].
  assert (SUB : compute_subgroup name m (Some P) None = Ok (sub_of ext (g_subgroup P))).
  { unfold compute_subgroup. rewrite GET. cbn [bind]. unfold sub_of. apply mapM_Ok.
    intros kv KV. apply filter_In in KV as [_ KV]. rewrite ext_int_ok; auto.
    rewrite forallb_forall in KV. intros a IA. apply mem_In. auto. }
  assert (COS : exists cs, compute_cosets name m (Some P) (sub_of ext (g_subgroup P)) None = Ok cs).
  { unfold compute_cosets. rewrite GET. cbn [bind]. eexists.
    apply (mapM_Ok _ (fun kv => (fst kv, map (fun a => index_of a ext) (filter (fun i => mem i ext) (snd kv))))).
    intros kv _. rewrite ext_int_ok; auto. intros a IA. apply filter_In in IA as [_ IA]. apply mem_In; auto. }
  destruct COS as [cs COS].
  unfold group_init. rewrite C. cbn [bind]. rewrite I. cbn [bind]. rewrite SUB. cbn [bind]. rewrite COS. cbn [bind].
  eexists. split; [reflexivity|]. cbn [g_name g_order g_composition g_inverses g_subgroup].
  do 4 (split; [assumption || reflexivity|]). split; [|split; [|split]]; auto.
  - revert GT. apply is_group_ext; auto. intros a HA. unfold inv. cbn [g_inverses]. symmetry. auto.
  - intros a b HA HB. apply TR; auto.
  - intros a HA. unfold inv at 1. cbn [g_inverses]. rewrite IV by auto. apply IVok; auto.
Qed.

Lemma sub_of_get ext sub k l :
  NoDup (map fst sub) ->
  dict_get (sub_of ext sub) k = Ok l <->
  (exists m, dict_get sub k = Ok m /\ incl m ext /\ l = map (fun a => index_of a ext) m).
Proof.
  intros ND. unfold sub_of. rewrite dict_get_map, dict_get_filter by auto.
  destruct (dict_get sub k) as [m|e].
  - cbn [snd]. destruct (forallb (fun i => mem i ext) m) eqn:F.
    + split.
      * intros H. injection H as <-. exists m. split; auto. split; auto. rewrite forallb_forall in F.
        intros a IA. apply mem_In. auto.
      * intros [m' [H [_ ->]]]. injection H as <-. auto.
    + split; [discriminate|]. intros [m' [H [I _]]]. injection H as <-.
      rewrite <- not_true_iff_false in F. exfalso. apply F. apply forallb_forall. intros a IA. apply mem_In. auto.
  - split; [discriminate|]. intros [m [H _]]. discriminate.
Qed.

(** The derived group acts by the rows [ext] of the parent's action. *)
Lemma derived_group_action P name order G ext {A} {ZA : Zero A} (x : tensor A) sp k :
  group_init name order None None None None None (Some P) = Ok G ->
  dict_get (g_subgroup P) name = Ok ext ->
  g__action G A ZA x sp k = bind (g__action P A ZA x sp k) (fun y => take y (vec ext) k).
Proof.
  intros I D. apply group_init_action in I. rewrite I. cbn [compute_action].
  destruct (g__action P A ZA x sp k); cbn [bind]; auto. rewrite D. reflexivity.
Qed.
