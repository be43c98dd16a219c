(** C70: the assertions of the project's own tests (/repo/tests) hold for all signals
    and weights, and for all sizes for which they make sense. *)
From Verif Require Import StackFacts Properties_Config Properties_Conv Properties_Pooling Properties_Checks Properties_Build Properties_TransposedBuild Properties_Shapes Properties_PoolBuild.
From Verif Require Import StackSpec EquivSpec LayerBatch FormatFacts.
Local Open Scope string_scope.
Local Open Scope list_scope.

Lemma std_cube d n : 0 < n -> standardize_tuple d (One (Z.of_nat n)) = Ok (repeat n d).
Proof.
  intros P. unfold standardize_tuple, per_axis. rewrite repeat_length, Nat.eqb_refl.
  assert (F : forallb (fun z => (0 <? z)%Z) (repeat (Z.of_nat n) d) = true).
  { apply forallb_forall. intros z I. apply repeat_spec in I as ->. apply Z.ltb_lt. lia. }
  rewrite F. f_equal. clear F. induction d as [|d IH]; cbn [repeat map]; [reflexivity|]. rewrite IH, Nat2Z.id. reflexivity.
Qed.

Lemma cube_equal n d : all_equal (repeat n d).
Proof. intros x y X Y. apply repeat_spec in X as ->. apply repeat_spec in Y as ->. reflexivity. Qed.

Lemma nth_cube n d ax : ax < d -> nth ax (repeat n d) 0 = n.
Proof. intros H. apply (repeat_spec d n). apply nth_In. rewrite repeat_length. exact H. Qed.

Lemma odd_stride n t k s : Nat.Odd s -> exists e, admissible n t k s e.
Proof.
  intros [z S]. set (e := (s - 1) * (n + t) + k).
  assert (Q : (Z.of_nat (n + t + e) - Z.of_nat k = Z.of_nat (n + t) * Z.of_nat s)%Z) by (unfold e; nia).
  destruct (Nat.Even_or_Odd (t + e)) as [E|O].
  - exists e. split; [exists (Z.of_nat (n + t)); exact Q|exact E].
  - exists (e + s). split; [exists (Z.of_nat (n + t) + 1)%Z; lia|]. destruct O as [q O]. exists (q + z + 1). lia.
Qed.

Section Tests.
Context {A : Type} {RA : Arith A} {PA : Pool A} {MA : Metric A}.

(** Cubes can be transformed by every group. *)
Lemma cube_grid name G H idx (x : tensor A) b n c :
  dict_get group_dict name = Ok G -> subgroup_indices G H idx ->
  let d := dimension_of name in
  wf x -> shape x = b :: repeat n d ++ [c] -> exists gx, transforms_of_grid_signal G d H x = Ok gx.
Proof.
  intros DG SI d W SH. apply lib_ok in DG as [_ OK]. fold d in OK.
  assert (Lm : List.length (repeat n d) = d) by apply repeat_length.
  destruct (grid_slices_ok G d _ _ OK b (repeat n d) c (fun3 x) None (Some H) idx SI) as [gx [R _]].
  { split; [intros _; apply cube_equal|exact Lm]. }
  exists gx. unfold transforms_of_grid_signal. rewrite (tensor_sig3 d b (repeat n d) c x W Lm SH). exact R.
Qed.

Lemma cube_group name G H K idx dom (x : tensor A) b n c :
  dict_get group_dict name = Ok G -> subgroup_indices G H idx -> subgroup_indices G K dom ->
  let d := dimension_of name in
  wf x -> shape x = b :: repeat n d ++ [List.length dom; c] -> exists gx, transforms_of_group_signal G d H K x = Ok gx.
Proof.
  intros DG SI SD d W SH. apply lib_ok in DG as [_ OK]. fold d in OK.
  assert (Lm : List.length (repeat n d) = d) by apply repeat_length.
  unfold transforms_of_group_signal. rewrite (tensor_sig4 d b (repeat n d) _ c x W Lm SH). eexists. change 0%Z with (Z.of_nat 0).
  unfold spatial_axes, group_axis. apply (action_group G d _ _ OK) with (act := idx) (dom := dom); try assumption.
  all: cbn [List.length]; try (rewrite app_length, Lm; cbn [List.length]; lia); try lia.
  - apply spatial_block. rewrite app_length, Lm; cbn [List.length]; lia. lia.
  - intros I. apply in_seq in I. lia.
  - apply sizes_accept; [exact Lm|]. intros _. apply cube_equal.
  - replace (d + 1) with (S d) by lia. cbn [nth]. rewrite app_nth2, Lm, Nat.sub_diag by lia. reflexivity.
Qed.

Lemma padding_of_unique (a : conv_args A) tr d bs m C P P' : padding_of a tr d bs m C P -> padding_of a tr d bs m C P' -> P = P'.
Proof. intros [P0 [I B]] [P0' [I' B']]. congruence. Qed.

Lemma map_cube (f : nat -> nat) d v : (forall ax, ax < d -> f ax = v) -> map f (seq 0 d) = repeat v d.
Proof.
  intros F. apply nth_ext with (d := 0) (d' := 0); rewrite map_length, seq_length; [symmetry; apply repeat_length|].
  intros ax Hax. rewrite nth_cube by exact Hax. rewrite (nth_indep _ 0 (f 0)) by (rewrite map_length, seq_length; exact Hax).
  rewrite map_nth, seq_nth by exact Hax. apply F. exact Hax.
Qed.

Lemma data_cube (y : tensor A) b n d r : wf y -> shape y = b :: repeat n d ++ r -> 0 < b -> 0 < n -> (forall v, In v r -> 0 < v) -> data y <> [].
Proof.
  intros W SH B N R E. unfold wf in W. rewrite E, SH in W. cbn [List.length] in W.
  assert (P : 0 < prod (b :: repeat n d ++ r)).
  { clear W SH E. change (prod (b :: repeat n d ++ r)) with (b * prod (repeat n d ++ r)). apply Nat.mul_pos_pos; [exact B|].
    induction d as [|d IH]; cbn [repeat app].
    - induction r as [|v r IH]; [cbn; lia|]. change (prod (v :: r)) with (v * prod r). apply Nat.mul_pos_pos; [apply R; left; reflexivity|].
      apply IH. intros w I. apply R. right. exact I.
    - change (prod (n :: repeat n d ++ r)) with (n * prod (repeat n d ++ r)). apply Nat.mul_pos_pos; [exact N|exact IH]. }
  lia.
Qed.

(** The group's own name means the same as "". *)
Lemma check_by_name name G (layer : tensor A -> result (tensor A)) x sp ga H K T D :
  dict_get group_dict name = Ok G -> In D [""; name] ->
  check_equivariance layer x G sp ga H (Some D) T = check_equivariance layer x G sp ga H (Some "") T /\
  check_equivariance layer x G sp ga H K (Some D) = check_equivariance layer x G sp ga H K (Some "").
Proof.
  intros DG I. apply lib_ok in DG as [GN _].
  assert (E : parse_subgroup G (Some D) = parse_subgroup G (Some "")).
  { unfold parse_subgroup. destruct I as [<-|[<-|[]]]; [reflexivity|]. rewrite GN. destruct (String.eqb_spec name ""); reflexivity. }
  unfold check_equivariance. rewrite E. split; reflexivity.
Qed.

(** The layers that the tests construct (conv_test_base.py:165-176), with any kernel
    size, number of filters, strides, use of the bias and activation. *)
Definition tested (G : group) (H : string) (k o s : nat) (p : string) (ub : bool) (f : A -> A) : conv_args A :=
  mkConvArgs (Object G) (Some H) (One (Z.of_nat k)) o (Some (One (Z.of_nat s))) (Some (Some p)) None "channels_last" false ub f.

Lemma tested_facts name G H idx k o s p ub (f : A -> A) (tr : bool) :
  dict_get group_dict name = Ok G -> subgroup_indices G H idx -> In p ["same_equiv"; "valid_equiv"] -> 0 < k -> 0 < s -> 0 < o ->
  let a := tested G H k o s p ub f in
  let d := dimension_of name in
  layer_for name G a /\ option_of a (upper p) /\ sizes d a (repeat k d) (repeat s d) (repeat 1 d) /\ exists L0, conv_init d tr a = Ok L0.
Proof.
  intros DG SI IP K S O a d.
  assert (LF : layer_for name G a) by (split; [exact DG|split; [right; reflexivity|reflexivity]]).
  assert (OP : option_of a (upper p)) by (exists p; split; reflexivity).
  assert (SZ : sizes d a (repeat k d) (repeat s d) (repeat 1 d)).
  { split; [apply std_cube; exact K|]. split; [apply std_cube; exact S|]. exact (std_cube d 1 Nat.lt_0_1). }
  split; [exact LF|]. split; [exact OP|]. split; [exact SZ|].
  apply (C53_when_the_constructor_accepts name G a H tr LF eq_refl). split.
  { destruct (String.eqb_spec H "") as [->|NE]; [left; reflexivity|]. right.
    unfold subgroup_indices, parse_subgroup, subgroup_get in SI. destruct (String.eqb_spec H ""); [contradiction|].
    destruct (lib_sub name G H idx DG SI) as [K' [DK _]]. unfold library_names; exact (in_map fst _ _ (dict_get_In _ _ _ DK)). }
  split; [exact O|]. split.
  { exists p. split; [reflexivity|]. destruct IP as [<-|[<-|[]]].
    - exists "same", "_equiv". cbn. tauto.
    - exists "valid", "_equiv". cbn. tauto. }
  exists (repeat k d), (repeat s d), (repeat 1 d). split; [exact SZ|]. right. intros v I. apply repeat_spec in I. exact I.
Qed.

(** Convolutions: [test_lift_shape], [test_lift_shape_subgroup], [test_gc_shape],
    [test_gc_shape_subgroup], [test_lift_equiv], [test_lift_equiv_subgroup],
    [test_gc_equiv], [test_gc_equiv_subgroup] and [test_padding_equiv]
    (conv_test_base.py:43-128), for any cube that is not smaller than the kernel and
    for any odd stride. *)
Theorem C70_convolutions_pass_the_tests name G H idx (valued : bool) b n c k o s p ub (f : A -> A) kinit binit D :
  measures_differences A -> add_commutes A ->
  dict_get group_dict name = Ok G -> subgroup_indices G H idx -> In D [""; name] ->
  In p ["same_equiv"; "valid_equiv"] -> 0 < b -> 0 < k <= n -> 0 < o -> Nat.Odd s ->
  let d := dimension_of name in
  let g := g_order G in
  exists L, built d false (tested G H k o s p ub f) (static_signal_shape valued (Some b) (repeat n d) g c) kinit binit L /\
  forall x, wf x -> shape x = signal_shape valued b (repeat n d) g c ->
  exists y n', apply L x = Ok y /\ shape y = b :: repeat n' d ++ [List.length idx; o] /\
    (p = "same_equiv" -> s = 1 -> Nat.Odd k -> n' = n) /\
    check_equivariance (apply L) x G (spatial_axes d) (group_axis d) (Some H) (if valued then Some D else None) (Some H) = Ok zero.
Proof.
  intros MD ADD DG SI ID IP B [K KN] O OS d g. assert (S : 0 < s) by (destruct OS; lia).
  destruct (tested_facts name G H idx k o s p ub f false DG SI IP K S O) as [LF [OP [SZ [L0 I0]]]].
  set (a := tested G H k o s p ub f) in *. fold d in SZ, I0.
  assert (Lm : List.length (repeat n d) = d) by apply repeat_length.
  pose proof DG as DG'. apply lib_ok in DG' as [GN OK]. fold d in OK.
  assert (GO : g = List.length (symmetries_of name)) by apply (ok_order _ _ _ _ OK).
  assert (PL : mem_str (upper p) ["SAME"; "VALID"] = false) by (destruct IP as [<-|[<-|[]]]; reflexivity).
  assert (BL : exists L, conv_build L0 (static_signal_shape valued (Some b) (repeat n d) g c) kinit binit = Ok L).
  { apply (C53_when_convolutions_build name G a H (upper p) valued (Some b) (repeat n d) g c kinit binit L0 _ _ _ LF eq_refl OP I0 Lm SZ).
    fold d. split; [exists idx; exact SI|]. split; [intros _; exact GO|]. rewrite PL. split; [|split].
    - intros ax Hax. rewrite !nth_cube by exact Hax. apply odd_stride. exact OS.
    - right. intros ax Hax. rewrite !nth_cube by exact Hax. lia.
    - intros _. apply cube_equal. }
  destruct BL as [L BL]. assert (BB : built d false a (static_signal_shape valued (Some b) (repeat n d) g c) kinit binit L) by (exists L0; split; assumption).
  exists L. split; [exact BB|]. intros x W SH.
  destruct (C29_output_shape name G a H (upper p) valued (Some b) (repeat n d) g c kinit binit L _ _ _ LF eq_refl OP BB Lm SZ) as [P [PO SX]].
  fold d in PO, SX. destruct (SX x b (repeat n d) W Lm) as [xp [np [XP [SP [Lp [GOOD _]]]]]]; [|exact SH|].
  { intros ax Hax. rewrite nth_cube by exact Hax. lia. }
  destruct (built_facts name G a H (upper p) false valued (Some b) (repeat n d) g c kinit binit L _ _ _ LF eq_refl OP BB Lm SZ)
    as [_ [eb [ea [act [dom [WO [SA [SD [CF [CC [_ [_ PO']]]]]]]]]]]]. fold d in WO, SA, SD, CF, PO'.
  assert (EP : P = gt_padding (cl_gt L)) by exact (padding_of_unique _ _ _ _ _ _ _ _ PO PO').
  destruct WO as [LE1 [LE2 [[PA' _]|[_ WO]]]]; [unfold a, tested in PA'; cbn [ca_allow] in PA'; rewrite andb_false_r in PA'; discriminate PA'|].
  assert (NP : np = padded eb (repeat n d) ea).
  { rewrite EP, (merged_signal_eq d valued c g x b (repeat n d) W Lm SH) in XP. destruct CF. rewrite cf_pads in XP by exact Lm.
    assert (EY : forall u v : tensor A, Ok u = Ok v -> u = v) by congruence. apply EY in XP. subst xp. rewrite shape_tab in SP.
    assert (SP' : padded eb (repeat n d) ea ++ [if valued then g * c else c] = np ++ [if valued then g * c else c]) by congruence.
    apply app_inv_tail in SP'. symmetry. exact SP'. }
  set (same := mem_str (upper p) ["SAME"; "SAME_EQUIV"]) in *.
  set (t := if same then same_total n k s else 0). set (e := nextra n t k s).
  assert (NE : forall ax, ax < d -> nth ax np 0 = n + e).
  { intros ax Hax. subst np. rewrite (nth_padded _ _ _ d) by assumption. destruct (WO ax Hax) as [E _]. cbv zeta in E.
    rewrite !nth_cube in E by exact Hax. rewrite nth_cube by exact Hax. change (is_same (upper p)) with same in E. fold t in E. fold e in E. lia. }
  assert (FIT : same = true \/ (forall ax, ax < d -> dilated (nth ax (repeat k d) 0) (nth ax (repeat 1 d) 0) <= nth ax np 0)).
  { right. intros ax Hax. rewrite NE, !nth_cube by exact Hax. unfold dilated. lia. }
  destruct (GOOD FIT) as [y [CA SY]]. set (n' := conv_size same (n + e) k 1 s).
  assert (SY' : shape y = b :: repeat n' d ++ [List.length idx; o]).
  { rewrite SY. f_equal. f_equal.
    - apply map_cube. intros ax Hax. rewrite NE, !nth_cube by exact Hax. reflexivity.
    - rewrite (sub_length _ _ _ _ _ _ (lib_named _ _ DG GN) OK SI), GN. reflexivity. }
  exists y, n'. split; [exact CA|]. split; [exact SY'|]. split.
  { intros Ep Es [q Q]. unfold n', e, t, same. subst p s.
    replace (mem_str (upper "same_equiv") ["SAME"; "SAME_EQUIV"]) with true by reflexivity.
    replace (same_total n k 1) with (2 * q) by (unfold same_total; rewrite Nat.div_1_r; lia).
    rewrite nextra_unit by (exists q; reflexivity). unfold conv_size. cbv iota. rewrite Nat.div_1_r. lia. }
  assert (PN : 0 < n').
  { unfold n', conv_size. destruct same; [|lia]. apply Nat.div_str_pos. lia. }
  assert (PX : 0 < List.length idx).
  { destruct (sub_idx_facts _ _ _ _ OK _ _ SI) as [_ [_ [HD _]]]. destruct idx; [discriminate HD|cbn [List.length]; lia]. }
  assert (WY : wf y) by exact (proj1 (conv_output G d _ _ false valued act dom c _ o _ _ _ eb ea _ _ _ _ _ L (repeat n d) g b x y OK CF CC eq_refl Lm W SH CA)).
  assert (NY : data y <> []).
  { apply (data_cube y b n' d [List.length idx; o] WY SY' B PN). intros v [<-|[<-|[]]]; assumption. }
  destruct valued.
  - rewrite (proj1 (check_by_name name G (apply L) x (spatial_axes d) (group_axis d) (Some H) None (Some H) D DG ID)).
    assert (R : exists gx, transforms_of_group_signal G d H "" x = Ok gx).
    { apply (cube_group name G H "" idx (seq 0 (List.length (symmetries_of name))) x b n c DG SI); [exact (sub_idx_whole _ _ _ _ OK)|exact W|].
      rewrite seq_length, <- GO. exact SH. }
    destruct R as [gx R].
    exact (C38_group_convolutions_pass name G a H (Some b) (repeat n d) g c kinit binit L _ _ x b gx y MD ADD LF eq_refl eq_refl BB Lm SZ (fun _ => cube_equal s d) W SH R CA NY).
  - destruct (cube_grid name G H idx x b n c DG SI W SH) as [gx R].
    exact (C38_lifting_convolutions_pass name G a H (Some b) (repeat n d) c kinit binit L _ _ x b gx y MD ADD LF eq_refl eq_refl BB Lm SZ (fun _ => cube_equal s d) W SH R CA NY).
Qed.

Lemma same_total_multiple n k s : Nat.divide s n -> 0 < s -> 0 < n -> same_total n k s = k - s.
Proof.
  intros [q Q] S N. unfold same_total.
  replace ((n + s - 1) / s) with q; [lia|]. apply (Nat.div_unique _ _ _ (s - 1)); lia.
Qed.

(** Transposed convolutions: the same tests.  The stride must not be larger than the
    kernel; with 'same_equiv' the kernel size must be odd and the stride must divide
    the size.  (conv_test_base.py:122: "figure out why it's not working for all
    strides".) *)
Theorem C70_transposed_convolutions_pass_the_tests name G H idx (valued : bool) b n c k o s p ub (f : A -> A) kinit binit D :
  measures_differences A -> add_commutes A ->
  dict_get group_dict name = Ok G -> subgroup_indices G H idx -> In D [""; name] ->
  In p ["same_equiv"; "valid_equiv"] -> 0 < b -> 0 < n -> 0 < o -> Nat.Odd s -> s <= k ->
  (p = "same_equiv" -> Nat.Odd k /\ Nat.divide s n) ->
  let d := dimension_of name in
  let g := List.length idx in
  exists L, built d true (tested G H k o s p ub f) (static_signal_shape valued (Some b) (repeat n d) g c) kinit binit L /\
  forall x, wf x -> shape x = signal_shape valued b (repeat n d) g c ->
  exists y n', apply L x = Ok y /\ shape y = b :: repeat n' d ++ [g_order G; o] /\
    (p = "same_equiv" -> n' = n * s) /\
    check_equivariance (apply L) x G (spatial_axes d) (group_axis d) (Some H) (if valued then Some H else None) (Some D) = Ok zero.
Proof.
  intros MD ADD DG SI ID IP B N O OS SK SE d g. assert (S : 0 < s) by (destruct OS; lia). assert (K : 0 < k) by lia.
  destruct (tested_facts name G H idx k o s p ub f true DG SI IP K S O) as [LF [OP [SZ [L0 I0]]]].
  set (a := tested G H k o s p ub f) in *. fold d in SZ, I0.
  assert (Lm : List.length (repeat n d) = d) by apply repeat_length.
  pose proof DG as DG'. apply lib_ok in DG' as [GN OK]. fold d in OK.
  assert (GO : g_order G = List.length (symmetries_of name)) by apply (ok_order _ _ _ _ OK).
  assert (PL : mem_str (upper p) ["SAME"; "VALID"] = false) by (destruct IP as [<-|[<-|[]]]; reflexivity).
  assert (SAME : mem_str (upper p) ["SAME"; "SAME_EQUIV"] = String.eqb p "same_equiv") by (destruct IP as [<-|[<-|[]]]; reflexivity).
  assert (BL : exists L, conv_build L0 (static_signal_shape valued (Some b) (repeat n d) g c) kinit binit = Ok L).
  { apply (C61_when_transposed_convolutions_build name G a H (upper p) valued (Some b) (repeat n d) g c kinit binit L0 _ _ _ LF eq_refl OP I0 Lm SZ).
    fold d. split; [intros _; exists idx; split; [exact SI|reflexivity]|]. rewrite PL. split.
    - intros ax Hax. rewrite !nth_cube by exact Hax. apply odd_stride. exact OS.
    - intros _. apply cube_equal. }
  destruct BL as [L BL]. assert (BB : built d true a (static_signal_shape valued (Some b) (repeat n d) g c) kinit binit L) by (exists L0; split; assumption).
  exists L. split; [exact BB|]. intros x W SH.
  destruct (C29_transposed_output_shape name G a H (upper p) valued (Some b) (repeat n d) g c kinit binit L _ _ _ LF eq_refl OP BB Lm SZ) as [P [PO SX]].
  fold d in PO, SX. destruct (SX x b (repeat n d) W Lm SH) as [xp [np [y [XP [SP [Lp [CA SY]]]]]]].
  destruct (built_facts name G a H (upper p) true valued (Some b) (repeat n d) g c kinit binit L _ _ _ LF eq_refl OP BB Lm SZ)
    as [_ [eb [ea [act [dom [WO [SA [SD [CF [CC [_ [_ PO']]]]]]]]]]]]. fold d in WO, SA, SD, CF, PO'.
  assert (EP : P = gt_padding (cl_gt L)) by exact (padding_of_unique _ _ _ _ _ _ _ _ PO PO').
  destruct WO as [LE1 [LE2 [[PA' _]|[_ WO]]]]; [unfold a, tested in PA'; cbn [ca_allow] in PA'; rewrite andb_false_r in PA'; discriminate PA'|].
  assert (NP : np = padded eb (repeat n d) ea).
  { rewrite EP, (merged_signal_eq d valued c g x b (repeat n d) W Lm SH) in XP. destruct CF. rewrite cf_pads in XP by exact Lm.
    assert (EY : forall u v : tensor A, Ok u = Ok v -> u = v) by congruence. apply EY in XP. subst xp. rewrite shape_tab in SP.
    assert (SP' : padded eb (repeat n d) ea ++ [if valued then g * c else c] = np ++ [if valued then g * c else c]) by congruence.
    apply app_inv_tail in SP'. symmetry. exact SP'. }
  set (same := mem_str (upper p) ["SAME"; "SAME_EQUIV"]) in *.
  set (t := if same then same_total n k s else s - k). set (e := nextra n t k s).
  assert (NE : forall ax, ax < d -> nth ax np 0 = n + e).
  { intros ax Hax. subst np. rewrite (nth_padded _ _ _ d) by assumption. destruct (WO ax Hax) as [E _]. cbv zeta in E.
    rewrite !nth_cube in E by exact Hax. rewrite nth_cube by exact Hax. change (is_same (upper p)) with same in E. fold t in E. fold e in E. lia. }
  set (n' := transposed_size same (n + e) k 1 s).
  assert (SY' : shape y = b :: repeat n' d ++ [g_order G; o]).
  { rewrite SY. f_equal. f_equal.
    - apply map_cube. intros ax Hax. rewrite NE, !nth_cube by exact Hax. reflexivity.
    - rewrite GO. reflexivity. }
  assert (EVEN : same = true -> Nat.Even (k - s) /\ Nat.Even (same_total n k s) /\ e = 0).
  { intros ES. rewrite SAME in ES. apply String.eqb_eq in ES. destruct (SE ES) as [[q Q] DV]. destruct OS as [z Z].
    assert (EV : Nat.Even (k - s)) by (exists (q - z); lia). split; [exact EV|].
    rewrite (same_total_multiple n k s DV S N). split; [exact EV|].
    assert (AD : admissible n t k s 0).
    { unfold t. rewrite SAME. apply String.eqb_eq in ES. rewrite ES. rewrite (same_total_multiple n k s DV S N). split.
      - destruct DV as [r R]. exists (Z.of_nat r - 1)%Z. nia.
      - rewrite Nat.add_0_r. exact EV. }
    pose proof (nextra_least n t k s 0 S AD). unfold e. lia. }
  exists y, n'. split; [exact CA|]. split; [exact SY'|]. split.
  { intros Ep. assert (ES : same = true) by (rewrite SAME, Ep; reflexivity). destruct (EVEN ES) as [_ [_ E0]].
    unfold n', transposed_size. rewrite ES, E0. rewrite Nat.add_0_r. reflexivity. }
  assert (PN : 0 < n') by (unfold n', transposed_size; destruct same; nia).
  assert (PX : 0 < g_order G).
  { rewrite GO. pose proof (sub_idx_le _ _ _ _ OK _ _ SI). destruct (sub_idx_facts _ _ _ _ OK _ _ SI) as [_ [_ [HD _]]]. destruct idx; [discriminate HD|cbn [List.length] in *; lia]. }
  assert (WY : wf y) by exact (proj1 (conv_output G d _ _ true valued act dom c _ o _ _ _ eb ea _ _ _ _ _ L (repeat n d) g b x y OK CF CC eq_refl Lm W SH CA)).
  assert (NY : data y <> []).
  { apply (data_cube y b n' d [g_order G; o] WY SY' B PN). intros v [<-|[<-|[]]]; assumption. }
  assert (RT : regular_transposed d (upper p) (repeat n d) (repeat k d) (repeat s d)).
  { intros ax Hax. rewrite !nth_cube by exact Hax. split; [exact N|]. split; [exact SK|]. split.
    - intros I. apply EVEN. destruct I as [I|[I|[]]]; unfold same; rewrite <- I; reflexivity.
    - intros I. apply EVEN. unfold same. rewrite I. reflexivity. }
  destruct (C27_transposed_convolution_any_stride name G a H H (upper p) (Some b) (repeat n d) g c kinit binit L _ _ ADD LF eq_refl OP Lm SZ (fun _ => cube_equal s d) RT)
    as [T1 T2]. fold d in T1, T2.
  assert (SW : samplewise (repeat n d ++ (if valued then [g; c] else [c])) (apply L))
    by exact (C49_convolutions_treat_samples_independently name G a H (upper p) true valued (Some b) (repeat n d) (repeat n d) g c kinit binit L _ _ _ LF eq_refl OP BB Lm SZ Lm).
  assert (SOy : signal_on G (Some "") (seq 1 d) (Some (d + 1)) y).
  { apply (group_signal_on name G y b (repeat n' d) (g_order G) o "" (seq 0 (List.length (symmetries_of name)))); [apply repeat_length|exact SY'|exact (sub_idx_whole _ _ _ _ OK)|].
    rewrite seq_length. exact GO. }
  rewrite (proj2 (check_by_name name G (apply L) x (spatial_axes d) (group_axis d) (Some H) (if valued then Some H else None) None D DG ID)).
  assert (AY : spatial_axes_ok d (seq 1 d) (rank y)) by exact (axes_of_signal name G y b (repeat n' d) _ DG (repeat_length _ _) SY').
  assert (AX : spatial_axes_ok d (seq 1 d) (rank x)) by exact (axes_of_signal name G x b (repeat n d) _ DG (repeat_length _ _) SH).
  destruct valued.
  - destruct (cube_group name G H H idx idx x b n c DG SI SI W SH) as [gx R].
    apply (passes name G (apply L) x gx y H (Some H) (Some "") idx b (repeat n d ++ [g; c])); try assumption.
    + exact (group_signal_on name G x b (repeat n d) g c H idx Lm SH SI eq_refl).
    + apply (T2 BB b x W SH).
  - destruct (cube_grid name G H idx x b n c DG SI W SH) as [gx R].
    apply (passes name G (apply L) x gx y H None (Some "") idx b (repeat n d ++ [c])); try assumption.
    + exact I.
    + apply (T1 BB b x W SH).
Qed.

(** Pooling: [test_pool_shape], [test_pool_shape_subgroup], [test_pool_equiv] and
    [test_pool_equiv_subgroup] (test_pooling.py:43-109), for pool sizes equal to the
    strides that divide the size; strides need not be given with 'valid_equiv' (as in
    test_model.py). *)
Definition tested_pooling (G : group) (H : string) (k : nat) (st : option size_arg) (p : string) : pool_args :=
  mkPoolArgs (Object G) (Some H) (One (Z.of_nat k)) st (Some (Some p)) "channels_last" false.

Theorem C70_pooling_passes_the_tests name G H idx t b n c k st p D :
  measures_differences A -> order_irrelevant (pool_fun (A := A) t) ->
  dict_get group_dict name = Ok G -> subgroup_indices G H idx -> In D [""; name] ->
  In p ["same_equiv"; "valid_equiv"] -> 0 < b -> 0 < k -> 0 < n -> 0 < c -> Nat.divide k n ->
  st = Some (One (Z.of_nat k)) \/ (st = None /\ p = "valid_equiv") ->
  let d := dimension_of name in
  let g := g_order G in
  exists L, pooling_built d t (tested_pooling G H k st p) (Some b :: map Some (repeat n d) ++ [Some g; Some c]) L /\
  forall x : tensor A, wf x -> shape x = b :: repeat n d ++ [g; c] ->
  exists y, pool_call L x = Ok y /\ shape y = b :: repeat (n / k) d ++ [List.length idx; c] /\
    check_equivariance (pool_call L) x G (spatial_axes d) (group_axis d) (Some H) (Some D) (Some H) = Ok zero.
Proof.
  intros MD OI DG SI ID IP B K N Pc DV ST d g. set (a := tested_pooling G H k st p).
  pose proof DG as DG'. apply lib_ok in DG' as [GN OK]. fold d in OK.
  assert (GO : g = List.length (symmetries_of name)) by apply (ok_order _ _ _ _ OK).
  assert (Lm : List.length (repeat n d) = d) by apply repeat_length.
  assert (PF : pooling_for name G a) by (split; [exact DG|split; [right; reflexivity|reflexivity]]).
  assert (OP : pool_option a (upper p)) by (exists p; split; reflexivity).
  assert (SZ : pool_sizes d a (repeat k d) (repeat k d)).
  { split; [apply std_cube; exact K|]. unfold a, tested_pooling. cbn [pa_strides pa_pool_size]. destruct ST as [->|[-> _]]; apply std_cube; exact K. }
  assert (HL : H = "" \/ In H library_names).
  { destruct (String.eqb_spec H "") as [->|NE]; [left; reflexivity|]. right.
    unfold subgroup_indices, parse_subgroup, subgroup_get in SI. destruct (String.eqb_spec H ""); [contradiction|].
    destruct (lib_sub name G H idx DG SI) as [K' [DK _]]. unfold library_names; exact (in_map fst _ _ (dict_get_In _ _ _ DK)). }
  assert (I0 : exists L0, pool_init d t a = Ok L0).
  { apply (C57_when_the_constructor_accepts name G d a H t PF eq_refl). split; [exact HL|]. split.
    - exists p. split; [reflexivity|]. destruct IP as [<-|[<-|[]]]; cbn; tauto.
    - exists (repeat k d), (repeat k d). exact SZ. }
  destruct I0 as [L0 I0].
  assert (SA' : exists s', 0 < s' /\ standardize_tuple d (match pa_strides a with Some v => v | None => One 1 end) = Ok (repeat s' d) /\ (s' = k \/ (s' = 1 /\ p = "valid_equiv"))).
  { unfold a, tested_pooling. cbn [pa_strides]. destruct ST as [->|[-> V]].
    - exists k. split; [exact K|]. split; [apply std_cube; exact K|left; reflexivity].
    - exists 1. split; [lia|]. split; [exact (std_cube d 1 Nat.lt_0_1)|right; split; [reflexivity|exact V]]. }
  destruct SA' as [s' [S' [SS' SV]]].
  set (same := mem_str (upper p) ["SAME"; "SAME_EQUIV"]).
  assert (AD : admissible n (backend_total same n k s') k s' 0).
  { unfold same. destruct SV as [->|[-> ->]].
    - assert (BT : backend_total (mem_str (upper p) ["SAME"; "SAME_EQUIV"]) n k k = 0).
      { unfold backend_total. rewrite (same_total_multiple n k k DV K N), Nat.sub_diag. destruct (mem_str _ _); reflexivity. }
      rewrite BT. split; [|exists 0; reflexivity]. destruct DV as [r R]. exists (Z.of_nat r - 1)%Z. nia.
    - replace (mem_str (upper "valid_equiv") ["SAME"; "SAME_EQUIV"]) with false by reflexivity. cbn [backend_total].
      split; [exists (Z.of_nat n - Z.of_nat k)%Z; lia|exists 0; reflexivity]. }
  assert (PL : mem_str (upper p) ["SAME"; "VALID"] = false) by (destruct IP as [<-|[<-|[]]]; reflexivity).
  assert (BL : exists L, pool_build L0 (static_signal_shape true (Some b) (repeat n d) g c) = Ok L).
  { apply (C57_when_pooling_builds name G d a H (upper p) t true (Some b) (repeat n d) g c L0 _ _ PF eq_refl OP I0 Lm (proj1 SZ) SS').
    split; [exists idx; exact SI|]. split; [intros _; exact GO|]. unfold padding_works. rewrite PL.
    intros ax Hax. exists 0. rewrite !nth_cube by exact Hax. exact AD. }
  destruct BL as [L BL]. exists L. split; [exists L0; split; assumption|]. intros x W SH.
  assert (BB : pooling_built d t a (Some b :: map Some (repeat n d) ++ [Some g; Some c]) L) by (exists L0; split; assumption).
  pose proof PF as [_ [AG AF]].
  destruct (pool_build_inv (A := A) G d _ _ OK name t a L0 (Some b) (repeat n d) g c L DG AG AF I0 Lm BL)
    as [p' [k' [s0 [s1 [eb [ea [sub [cos [Hn [PN' [SK' [SS0 [SS1 [WO [PS [DS [DC [SA [_ [F [P [PI PB]]]]]]]]]]]]]]]]]]]]]].
  assert (p' = p) by (unfold pool_padding_name, a, tested_pooling in PN'; cbn [pa_padding] in PN'; congruence). subst p'.
  assert (EK : forall u v : list nat, Ok u = Ok v -> u = v) by congruence.
  assert (k' = repeat k d) as -> by (apply EK; rewrite <- SK'; apply (proj1 SZ)).
  assert (s0 = repeat k d) as -> by (apply EK; rewrite <- SS0; apply (proj2 SZ)).
  assert (s1 = repeat s' d) as -> by (apply EK; rewrite <- SS1; exact SS').
  assert (sub = idx) as -> by (unfold subgroup_indices in SI; unfold sub_idx, a, tested_pooling in SA; cbn [pa_subgroup] in SA; congruence).
  assert (PO : mem_str (lower (po_padding L)) ["valid"; "same"] = true).
  { assert (E0 : po_padding L = po_padding L0).
    { unfold pool_build in BL. destruct (gt_build (po_gt L0) _) as [T1|]; [|discriminate BL]. cbn [bind] in BL.
      destruct (gt_build_pool T1) as [T2|]; [|discriminate BL]. cbn [bind] in BL. injection BL as <-. reflexivity. }
    rewrite E0. unfold pool_init in I0. destruct (gt_init _ _ _ _ _ _ _ _ _) as [T0|] eqn:GI; [|discriminate I0]. cbn [bind] in I0.
    destruct (standardize_tuple d (pa_pool_size a)); [|discriminate I0]. cbn [bind] in I0.
    destruct (standardize_tuple d _); [|discriminate I0]. cbn [bind] in I0.
    destruct (standardize_format _); [|discriminate I0]. cbn [bind] in I0. injection I0 as <-. cbn [po_padding].
    unfold gt_init in GI. unfold a, tested_pooling in GI, PS, PI. cbn [pa_group pa_pool_size pa_data_format pa_allow pa_subgroup pa_strides pa_padding bind] in GI, PS, PI.
    rewrite PS in GI. destruct (dict_get group_dict Hn) as [K'|]; [|discriminate GI]. cbn [bind] in GI.
    destruct (padding_init _ _ _ _ _ _ _) as [P0|] eqn:PI0; [|discriminate GI]. cbn [bind] in GI. injection GI as <-. cbn [gt_padding].
    destruct (padding_init_inv _ _ _ _ _ _ _ _ PI0) as [_ [_ [BI _]]]. rewrite BI. destruct IP as [<-|[<-|[]]]; reflexivity. }
  specialize (F PO).
  destruct WO as [LE1 [LE2 [[PA' _]|[_ WO]]]]; [unfold a, tested_pooling in PA'; cbn [pa_allow] in PA'; rewrite andb_false_r in PA'; discriminate PA'|].
  assert (NP : forall ax, ax < d -> nth ax (padded eb (repeat n d) ea) 0 = n).
  { intros ax Hax. rewrite (nth_padded _ _ _ d) by assumption. destruct (WO ax Hax) as [E _]. cbv zeta in E.
    rewrite !nth_cube in E by exact Hax. rewrite nth_cube by exact Hax.
    pose proof (nextra_least n (backend_total same n k s') k s' 0 S' AD) as NL.
    change (is_same (upper p)) with same in E. unfold backend_total in NL. lia. }
  set (m1 := padded eb (repeat n d) ea) in *.
  assert (NES : idx <> []).
  { destruct (sub_idx_facts _ _ _ _ OK _ _ SI) as [_ [_ [HD _]]]. intros ->. discriminate HD. }
  assert (L1 : List.length m1 = d) by (apply length_padded; assumption).
  assert (LK : List.length (repeat k d) = d) by apply repeat_length.
  set (pads := builtin_pads (padding_string (is_same (upper p))) m1 (repeat k d) (repeat k d)).
  set (m2 := padded (map fst pads) m1 (map snd pads)).
  assert (LP : List.length pads = d) by (apply length_builtin; assumption).
  assert (L2 : List.length m2 = d) by (apply length_padded; rewrite ?map_length; assumption).
  assert (N2 : forall ax, ax < d -> nth ax m2 0 = n).
  { intros ax Hax. unfold m2, pads. rewrite (backend_sizes d) by assumption. rewrite NP, !nth_cube by exact Hax.
    unfold backend_total. rewrite (same_total_multiple n k k DV K N), Nat.sub_diag. destruct (is_same (upper p)); lia. }
  assert (FB : forallb (fun q => fst q <=? snd q)%nat (combine (repeat k d) m2) = true).
  { apply (forallb_combine_le_iff (repeat k d) m2 d LK L2). intros ax Hax. rewrite N2, nth_cube by exact Hax. apply Nat.divide_pos_le; assumption. }
  assert (OU : outs m2 (repeat k d) (repeat k d) = repeat (n / k) d).
  { unfold outs. rewrite (axes_as_map out_size m2 (repeat k d) (repeat k d) d L2 LK LK). apply map_cube. intros ax Hax.
    rewrite N2, !nth_cube by exact Hax. unfold out_size. destruct DV as [r R]. subst n. rewrite Nat.div_mul by lia.
    replace (r * k - k) with ((r - 1) * k) by nia. rewrite Nat.div_mul by lia. assert (0 < r) by nia. lia. }
  assert (CA : exists y, pool_call L x = Ok y /\ wf y /\ shape y = b :: repeat (n / k) d ++ [List.length idx; c]).
  { pose proof (pool_call_eq G d _ _ OK idx cos (repeat k d) (repeat k d) eb ea (is_same (upper p)) t L b (repeat n d) c (fun4 x) F NES Lm) as CE.
    cbv zeta in CE. fold m1 in CE. fold pads in CE. fold m2 in CE. rewrite FB in CE. rewrite GO in SH. rewrite <- (tensor_sig4 d b (repeat n d) _ c x W Lm SH) in CE.
    eexists. split; [exact CE|]. split; [apply wf_tab|]. rewrite shape_tab, OU. reflexivity. }
  destruct CA as [y [CA [WY SY]]]. exists y. split; [exact CA|]. split; [exact SY|].
  assert (NY : data y <> []).
  { assert (PN : 0 < n / k) by (apply Nat.div_str_pos; split; [exact K|apply Nat.divide_pos_le; assumption]).
    apply (data_cube y b (n / k) d [List.length idx; c] WY SY B PN). intros v [<-|[<-|[]]]; [|exact Pc]. destruct idx; [contradiction|cbn [List.length]; lia]. }
  rewrite (proj1 (check_by_name name G (pool_call L) x (spatial_axes d) (group_axis d) (Some H) None (Some H) D DG ID)).
  assert (SW0 : sub_idx G (Some "") (seq 0 (List.length (symmetries_of name)))) by exact (sub_idx_whole _ _ _ _ OK).
  assert (R : exists gx, transforms_of_group_signal G d H "" x = Ok gx).
  { apply (cube_group name G H "" idx (seq 0 (List.length (symmetries_of name))) x b n c DG SI SW0 W). rewrite seq_length, <- GO. exact SH. }
  destruct R as [gx R].
  apply (passes name G (pool_call L) x gx y H (Some "") (Some H) idx b (repeat n d ++ [g; c])); try assumption.
  - exact (C49_pooling_treats_samples_independently name G d t a H (upper p) (Some b) (repeat n d) (repeat n d) g c L _ _ PF eq_refl OP BB Lm SZ (ex_intro _ x (ex_intro _ y CA)) Lm).
  - exact (axes_of_signal name G x b (repeat n d) _ DG Lm SH).
  - apply (group_signal_on name G x b (repeat n d) g c "" _ Lm SH SW0). rewrite seq_length. exact GO.
  - exact (axes_of_signal name G y b (repeat (n / k) d) _ DG (repeat_length _ _) SY).
  - exact (group_signal_on name G y b (repeat (n / k) d) _ c H idx (repeat_length _ _) SY SI eq_refl).
  - destruct ST as [ST|[ST V]].
    + apply (C32_pooling_is_equivariant name G t a H (upper p) (Some b) (repeat n d) g c L (repeat k d) (repeat k d) (One (Z.of_nat k)) x b (repeat n d)); try assumption; try reflexivity.
      * left. reflexivity.
      * intros _. apply cube_equal.
      * intros _. apply cube_equal.
      * intros _ ax Hax. fold d in Hax. rewrite !nth_cube by exact Hax. pose proof (same_total_multiple n k k DV K N) as ST0. unfold same_total in ST0. unfold rows_added. rewrite ST0, Nat.sub_diag. exists 0. reflexivity.
    + apply (C33_default_strides name G t a H (upper p) (Some b) (repeat n d) g c L (repeat k d) (repeat k d) x b); try assumption; try reflexivity.
      * intros _. apply cube_equal.
      * intros ax Hax. fold d in Hax. rewrite V. replace (mem_str (upper "valid_equiv") ["SAME"; "SAME_EQUIV"]) with false by reflexivity.
        rewrite !nth_cube by exact Hax. apply Nat.mod_divide; [lia|exact DV].
Qed.

(** Two layers after each other: if both pass, so does the composition. *)
Lemma checks_compose name G (l1 l2 : tensor A -> result (tensor A)) (x y z : tensor A) b m1 c1 m2 c2 m3 c3 :
  measures_differences A -> dict_get group_dict name = Ok G ->
  let d := dimension_of name in
  let g := g_order G in
  let check l x := check_equivariance l x G (spatial_axes d) (group_axis d) (Some "") (Some "") (Some "") in
  let s m c := repeat m d ++ [g; c] in
  samplewise (s m1 c1) l1 -> samplewise (s m2 c2) l2 -> 0 < b -> 0 < m2 -> 0 < c2 -> 0 < m3 -> 0 < c3 ->
  wf x -> shape x = b :: s m1 c1 -> l1 x = Ok y -> wf y -> shape y = b :: s m2 c2 -> l2 y = Ok z -> wf z -> shape z = b :: s m3 c3 ->
  check l1 x = Ok zero -> check l2 y = Ok zero ->
  samplewise (s m1 c1) (fun x => y <- l1 x ;; l2 y) /\ check (fun x => y <- l1 x ;; l2 y) x = Ok zero.
Proof.
  intros MD DG d g check s S1 S2 B M2 C2 M3 C3 Wx Sx L1 Wy Sy L2 Wz Sz K1 K2.
  pose proof DG as DG'. apply lib_ok in DG' as [GN OK]. fold d in OK.
  assert (GO : g = List.length (symmetries_of name)) by apply (ok_order _ _ _ _ OK).
  assert (SI : subgroup_indices G "" (seq 0 g)) by (rewrite GO; exact (sub_idx_whole _ _ _ _ OK)).
  assert (LG : List.length (seq 0 g) = g) by apply seq_length.
  assert (PG : 0 < g).
  { destruct (sub_idx_facts _ _ _ _ OK _ _ SI) as [_ [_ [HD _]]]. destruct g; [discriminate HD|lia]. }
  assert (R : forall (w : tensor A) m c, wf w -> shape w = b :: s m c -> exists gw, transforms_of_group_signal G d "" "" w = Ok gw).
  { intros w m c W Sw. apply (cube_group name G "" "" _ _ w b m c DG SI SI W). rewrite LG. exact Sw. }
  destruct (R x m1 c1 Wx Sx) as [gx Rx]. destruct (R y m2 c2 Wy Sy) as [gy Ry]. destruct (R z m3 c3 Wz Sz) as [gz Rz]. clear R.
  assert (AX : forall (w : tensor A) m c, shape w = b :: s m c -> spatial_axes_ok d (seq 1 d) (rank w)).
  { intros w m c Sw. exact (axes_of_signal name G w b (repeat m d) _ DG (repeat_length _ _) Sw). }
  assert (SO : forall (w : tensor A) m c, shape w = b :: s m c -> signal_on G (Some "") (seq 1 d) (Some (d + 1)) w).
  { intros w m c Sw. exact (group_signal_on name G w b (repeat m d) g c "" (seq 0 g) (repeat_length _ _) Sw SI (eq_sym LG)). }
  assert (NEy : data y <> []) by (apply (data_cube y b m2 d [g; c2] Wy Sy B M2); intros v [<-|[<-|[]]]; assumption).
  assert (NEz : data z <> []) by (apply (data_cube z b m3 d [g; c3] Wz Sz B M3); intros v [<-|[<-|[]]]; assumption).
  pose proof (proj1 (C38_check_equivariance_decides name G l1 x gx y gy (seq 1 d) (Some (d + 1)) "" (Some "") (Some "") (seq 0 g) b (s m1 c1) MD DG S1 Wx Sx
    (AX x m1 c1 Sx) SI (SO x m1 c1 Sx) L1 NEy (AX y m2 c2 Sy) (SO y m2 c2 Sy) Rx Ry) K1) as E1.
  pose proof (proj1 (C38_check_equivariance_decides name G l2 y gy z gz (seq 1 d) (Some (d + 1)) "" (Some "") (Some "") (seq 0 g) b (s m2 c2) MD DG S2 Wy Sy
    (AX y m2 c2 Sy) SI (SO y m2 c2 Sy) L2 NEz (AX z m3 c3 Sz) (SO z m3 c3 Sz) Ry Rz) K2) as E2.
  assert (SW : samplewise (s m1 c1) (fun x => y <- l1 x ;; l2 y)).
  { destruct S1 as [[e Q]|[s1 Q1]]; [rewrite (Q x b Wx Sx) in L1; discriminate L1|].
    destruct S2 as [[e Q]|[s2 Q2]]; [rewrite (Q y b Wy Sy) in L2; discriminate L2|].
    right. exists s2. intros u v Wu Su. destruct (Q1 u v Wu Su) as [u1 [U1 [W1 [SU1 T1]]]].
    assert (s1 = s m2 c2) as ->.
    { destruct (Q1 x b Wx Sx) as [y' [Y' [_ [SY' _]]]]. rewrite L1 in Y'. assert (EY : forall p q : tensor A, Ok p = Ok q -> p = q) by congruence.
      apply EY in Y'. subst y'. rewrite Sy in SY'. congruence. }
    destruct (Q2 u1 v W1 SU1) as [u2 [U2 [W2 [SU2 T2]]]].
    exists u2. rewrite U1. cbn [bind]. split; [exact U2|]. split; [exact W2|]. split; [exact SU2|].
    intros bi BI. rewrite (T1 bi BI). cbn [bind]. exact (T2 bi BI). }
  split; [exact SW|].
  assert (LC : (y <- l1 x ;; l2 y) = Ok z) by (rewrite L1; exact L2).
  apply (proj2 (C38_check_equivariance_decides name G (fun x => y <- l1 x ;; l2 y) x gx z gz (seq 1 d) (Some (d + 1)) "" (Some "") (Some "") (seq 0 g) b (s m1 c1) MD DG SW Wx Sx
    (AX x m1 c1 Sx) SI (SO x m1 c1 Sx) LC NEz (AX z m3 c3 Sz) (SO z m3 c3 Sz) Rx Rz)).
  intros u U. rewrite (E1 u U). cbn [bind]. exact (E2 u U).
Qed.

(** A layer that maps every signal of shape (b, m1, ..., m1, |G|, c1) to one of shape
    (b, m2, ..., m2, |G|, c2) and passes [check_equivariance] on it. *)
Definition passes_on (name : string) (G : group) (b m1 c1 m2 c2 : nat) (layer : tensor A -> result (tensor A)) : Prop :=
  let d := dimension_of name in
  forall x, wf x -> shape x = b :: repeat m1 d ++ [g_order G; c1] ->
  exists y, layer x = Ok y /\ shape y = b :: repeat m2 d ++ [g_order G; c2] /\
    check_equivariance layer x G (spatial_axes d) (group_axis d) (Some "") (Some "") (Some "") = Ok zero.

Definition stage name G b m1 c1 m2 c2 layer : Prop :=
  samplewise (repeat m1 (dimension_of name) ++ [g_order G; c1]) layer /\ passes_on name G b m1 c1 m2 c2 layer.

Lemma samplewise_wf s (layer : tensor A -> result (tensor A)) x y b : samplewise s layer -> wf x -> shape x = b :: s -> layer x = Ok y -> wf y.
Proof.
  intros [[e Q]|[s' Q]] W S L; [rewrite (Q x b W S) in L; discriminate L|].
  destruct (Q x b W S) as [y' [Y' [W' _]]]. assert (EY : forall p q : tensor A, Ok p = Ok q -> p = q) by congruence.
  rewrite L in Y'. apply EY in Y'. subst y'. exact W'.
Qed.

Lemma whole_group name G : dict_get group_dict name = Ok G -> exists idx, subgroup_indices G "" idx /\ List.length idx = g_order G.
Proof.
  intros DG. apply lib_ok in DG as [_ OK]. exists (seq 0 (List.length (symmetries_of name))).
  split; [exact (sub_idx_whole _ _ _ _ OK)|]. rewrite seq_length. symmetry. apply (ok_order _ _ _ _ OK).
Qed.

Lemma stage_nil name G b m c : measures_differences A -> dict_get group_dict name = Ok G -> 0 < b -> 0 < m -> 0 < c ->
  stage name G b m c m c (run []).
Proof.
  intros MD DG B M C. set (d := dimension_of name).
  assert (SW : samplewise (repeat m d ++ [g_order G; c]) (run (A := A) [])).
  { right. exists (repeat m d ++ [g_order G; c]). intros u v Wu Su. exists u. split; [reflexivity|]. split; [exact Wu|]. split; [exact Su|]. intros bi BI. reflexivity. }
  split; [exact SW|]. intros x W S. exists x. split; [reflexivity|]. split; [exact S|]. fold d in S |- *.
  destruct (whole_group name G DG) as [idx [SI LI]].
  assert (PG : 0 < g_order G).
  { rewrite <- LI. pose proof DG as DG'. apply lib_ok in DG' as [_ OK]. destruct (sub_idx_facts _ _ _ _ OK _ _ SI) as [_ [_ [HD _]]]. destruct idx; [discriminate HD|cbn [List.length]; lia]. }
  destruct (cube_group name G "" "" idx idx x b m c DG SI SI W) as [gx R]; [rewrite LI; exact S|].
  assert (AX : spatial_axes_ok d (seq 1 d) (rank x)) by exact (axes_of_signal name G x b (repeat m d) _ DG (repeat_length _ _) S).
  assert (SO : signal_on G (Some "") (seq 1 d) (Some (d + 1)) x) by exact (group_signal_on name G x b (repeat m d) _ c "" idx (repeat_length _ _) S SI (eq_sym LI)).
  assert (NE : data x <> []) by (apply (data_cube x b m d [g_order G; c] W S B M); intros v [<-|[<-|[]]]; assumption).
  apply (proj2 (C38_check_equivariance_decides name G (run []) x gx x gx (seq 1 d) (Some (d + 1)) "" (Some "") (Some "") idx b _ MD DG SW W S AX SI SO eq_refl NE AX SO R R)).
  intros u U. reflexivity.
Qed.

Lemma stage_cons name G b m1 c1 m2 c2 m3 c3 f rest :
  measures_differences A -> dict_get group_dict name = Ok G -> 0 < b -> 0 < m2 -> 0 < c2 -> 0 < m3 -> 0 < c3 ->
  stage name G b m1 c1 m2 c2 f -> stage name G b m2 c2 m3 c3 (run rest) -> stage name G b m1 c1 m3 c3 (run (f :: rest)).
Proof.
  intros MD DG B M2 C2 M3 C3 [S1 P1] [S2 P2].
  assert (Q : forall x, wf x -> shape x = b :: repeat m1 (dimension_of name) ++ [g_order G; c1] ->
     exists z, run (f :: rest) x = Ok z /\ shape z = b :: repeat m3 (dimension_of name) ++ [g_order G; c3] /\
     samplewise (repeat m1 (dimension_of name) ++ [g_order G; c1]) (run (f :: rest)) /\
     check_equivariance (run (f :: rest)) x G (spatial_axes (dimension_of name)) (group_axis (dimension_of name)) (Some "") (Some "") (Some "") = Ok zero).
  { intros x W S. destruct (P1 x W S) as [y [Y [SY KY]]]. pose proof (samplewise_wf _ _ _ _ _ S1 W S Y) as WY.
    destruct (P2 y WY SY) as [z [Zz [SZ KZ]]]. pose proof (samplewise_wf _ _ _ _ _ S2 WY SY Zz) as WZ.
    exists z. split; [cbn [run]; rewrite Y; exact Zz|]. split; [exact SZ|].
    exact (checks_compose name G f (run rest) x y z b m1 c1 m2 c2 m3 c3 MD DG S1 S2 B M2 C2 M3 C3 W S Y WY SY Zz WZ SZ KY KZ). }
  split.
  - set (s1 := repeat m1 (dimension_of name) ++ [g_order G; c1]) in *.
    destruct (Q (tab (b :: s1) (fun _ => zero)) (wf_tab _ _) (shape_tab _ _)) as [z [_ [_ [SW _]]]]. exact SW.
  - intros x W S. destruct (Q x W S) as [z [Zz [SZ [_ K]]]]. exists z. split; [exact Zz|]. split; [exact SZ|exact K].
Qed.

(** The model of test_model.py:16-48, [test_model_shape] and [test_model_equivariance]
    (test_model.py:50-61), for all groups, pool sizes [q], odd kernel sizes and numbers
    of channels; [n] is the size after all pooling. *)
Theorem C70_the_model_passes_the_tests name G b n q c k1 k2 k3 o1 o2 o3 ub1 ub2 ub3 (f1 f2 f3 : A -> A) t kinit1 kinit2 kinit3 binit1 binit2 binit3 :
  measures_differences A -> add_commutes A -> order_irrelevant (pool_fun (A := A) t) ->
  dict_get group_dict name = Ok G ->
  0 < b -> 0 < n -> 0 < q -> 0 < c -> 0 < o1 -> 0 < o2 -> 0 < o3 ->
  Nat.Odd k1 -> k1 <= n * q * q -> Nat.Odd k2 -> k2 <= n * q -> Nat.Odd k3 ->
  let d := dimension_of name in
  let input m c := Some b :: map Some (repeat m d) ++ [Some (g_order G); Some c] in
  exists L1 L2 L3 L4 L5,
    built d false (tested G "" k1 o1 1 "same_equiv" ub1 f1) (input (n * q * q) c) kinit1 binit1 L1 /\
    pooling_built d t (tested_pooling G "" q None "valid_equiv") (input (n * q * q) o1) L2 /\
    built d false (tested G "" k2 o2 1 "same_equiv" ub2 f2) (input (n * q) o1) kinit2 binit2 L3 /\
    pooling_built d t (tested_pooling G "" q None "valid_equiv") (input (n * q) o2) L4 /\
    built d true (tested G "" k3 o3 1 "same_equiv" ub3 f3) (input n o2) kinit3 binit3 L5 /\
    passes_on name G b (n * q * q) c n o3 (run [apply L1; pool_call L2; apply L3; pool_call L4; apply L5]).
Proof.
  intros MD ADD OI DG B N Q C O1 O2 O3 K1 K1n K2 K2n K3 d input.
  destruct (whole_group name G DG) as [idx [SI LI]]. pose proof DG as DG'. apply lib_ok in DG' as [GN OK]. fold d in OK.
  assert (NQ : 0 < n * q) by nia. assert (NQQ : 0 < n * q * q) by nia.
  assert (ODD1 : Nat.Odd 1) by (exists 0; reflexivity).
  assert (CONV : forall m ci k o ub (f : A -> A) kinit binit, 0 < m -> 0 < o -> Nat.Odd k -> k <= m ->
    exists L, built d false (tested G "" k o 1 "same_equiv" ub f) (input m ci) kinit binit L /\ stage name G b m ci m o (apply L)).
  { intros m ci k o ub f kinit binit M O [r R] KM. assert (K0 : 0 < k) by lia. assert (S0 : 0 < 1) by lia.
    destruct (C70_convolutions_pass_the_tests name G "" idx true b m ci k o 1 "same_equiv" ub f kinit binit "" MD ADD DG SI (or_introl eq_refl) (or_introl eq_refl) B
      (conj K0 KM) O ODD1) as [L [BB T]]. exists L. split; [exact BB|]. split.
    - destruct (tested_facts name G "" idx k o 1 "same_equiv" ub f false DG SI (or_introl eq_refl) K0 S0 O) as [LF [OP [SZ _]]].
      exact (C49_convolutions_treat_samples_independently name G _ "" _ false true (Some b) (repeat m d) (repeat m d) (g_order G) ci kinit binit L _ _ _ LF eq_refl OP BB (repeat_length _ _) SZ (repeat_length _ _)).
    - intros x W S. destruct (T x W S) as [y [n' [Y [SY [N' K]]]]]. exists y. split; [exact Y|]. split; [|exact K].
      rewrite SY, LI, (N' eq_refl eq_refl (ex_intro _ r R)). reflexivity. }
  assert (TRAN : forall m ci k o ub (f : A -> A) kinit binit, 0 < m -> 0 < o -> Nat.Odd k ->
    exists L, built d true (tested G "" k o 1 "same_equiv" ub f) (input m ci) kinit binit L /\ stage name G b m ci m o (apply L)).
  { intros m ci k o ub f kinit binit M O [r R]. assert (K0 : 0 < k) by lia. assert (S0 : 0 < 1) by lia. assert (K1' : 1 <= k) by lia.
    destruct (C70_transposed_convolutions_pass_the_tests name G "" idx true b m ci k o 1 "same_equiv" ub f kinit binit "" MD ADD DG SI (or_introl eq_refl) (or_introl eq_refl) B
      M O ODD1 K1' (fun _ => conj (ex_intro _ r R) (Nat.divide_1_l m))) as [L [BB T]]. rewrite LI in BB, T. exists L. split; [exact BB|]. split.
    - destruct (tested_facts name G "" idx k o 1 "same_equiv" ub f true DG SI (or_introl eq_refl) K0 S0 O) as [LF [OP [SZ _]]].
      exact (C49_convolutions_treat_samples_independently name G _ "" _ true true (Some b) (repeat m d) (repeat m d) (g_order G) ci kinit binit L _ _ _ LF eq_refl OP BB (repeat_length _ _) SZ (repeat_length _ _)).
    - intros x W S. destruct (T x W S) as [y [n' [Y [SY [N' K]]]]]. exists y. split; [exact Y|]. split; [|exact K].
      rewrite SY, (N' eq_refl), Nat.mul_1_r. reflexivity. }
  assert (POOL : forall m ci, 0 < m -> 0 < ci ->
    exists L, pooling_built d t (tested_pooling G "" q None "valid_equiv") (input (m * q) ci) L /\ stage name G b (m * q) ci m ci (pool_call L)).
  { intros m ci M Ci. assert (MQ : 0 < m * q) by nia.
    destruct (C70_pooling_passes_the_tests name G "" idx t b (m * q) ci q None "valid_equiv" "" MD OI DG SI (or_introl eq_refl) (or_intror (or_introl eq_refl)) B Q
      MQ Ci (ex_intro _ m eq_refl) (or_intror (conj eq_refl eq_refl))) as [L [BB T]]. exists L. split; [exact BB|].
    rewrite Nat.div_mul in T by lia. split.
    - assert (PF : pooling_for name G (tested_pooling G "" q None "valid_equiv")) by (split; [exact DG|split; [right; reflexivity|reflexivity]]).
      assert (SZ : pool_sizes d (tested_pooling G "" q None "valid_equiv") (repeat q d) (repeat q d)) by (split; apply std_cube; exact Q).
      assert (OP : pool_option (tested_pooling G "" q None "valid_equiv") "VALID_EQUIV") by (exists "valid_equiv"; split; reflexivity).
      set (x0 := tab (A := A) (b :: repeat (m * q) d ++ [g_order G; ci]) (fun _ => zero)).
      destruct (T x0 (wf_tab _ _) (shape_tab _ _)) as [y0 [Y0 _]].
      exact (C49_pooling_treats_samples_independently name G d t _ "" "VALID_EQUIV" (Some b) (repeat (m * q) d) (repeat (m * q) d) (g_order G) ci L _ _ PF eq_refl OP BB
        (repeat_length _ _) SZ (ex_intro _ x0 (ex_intro _ y0 Y0)) (repeat_length _ _)).
    - intros x W S. destruct (T x W S) as [y [Y [SY K]]]. exists y. split; [exact Y|]. split; [|exact K]. rewrite SY, LI. reflexivity. }
  destruct (CONV (n * q * q) c k1 o1 ub1 f1 kinit1 binit1 NQQ O1 K1 K1n) as [L1 [B1 T1]].
  destruct (POOL (n * q) o1 NQ O1) as [L2 [B2 T2]].
  destruct (CONV (n * q) o1 k2 o2 ub2 f2 kinit2 binit2 NQ O2 K2 K2n) as [L3 [B3 T3]].
  destruct (POOL n o2 N O2) as [L4 [B4 T4]].
  destruct (TRAN n o2 k3 o3 ub3 f3 kinit3 binit3 N O3 K3) as [L5 [B5 T5]].
  exists L1, L2, L3, L4, L5. split; [exact B1|]. split; [exact B2|]. split; [exact B3|]. split; [exact B4|]. split; [exact B5|].
  pose proof (stage_nil name G b n o3 MD DG B N O3) as T6.
  pose proof (stage_cons _ _ _ _ _ _ _ _ _ _ _ MD DG B N O3 N O3 T5 T6) as R5.
  pose proof (stage_cons _ _ _ _ _ _ _ _ _ _ _ MD DG B N O2 N O3 T4 R5) as R4.
  pose proof (stage_cons _ _ _ _ _ _ _ _ _ _ _ MD DG B NQ O2 N O3 T3 R4) as R3.
  pose proof (stage_cons _ _ _ _ _ _ _ _ _ _ _ MD DG B NQ O1 N O3 T2 R3) as R2.
  pose proof (stage_cons _ _ _ _ _ _ _ _ _ _ _ MD DG B NQQ O1 N O3 T1 R2) as R1.
  exact (proj2 R1).
Qed.

End Tests.
Print Assumptions C70_convolutions_pass_the_tests.
Print Assumptions C70_transposed_convolutions_pass_the_tests.
Print Assumptions C70_pooling_passes_the_tests.
Print Assumptions C70_the_model_passes_the_tests.

(** ** What test_subgroups checks *)

(** test_wallpaper.py:22-43 and test_space.py:28-49, the body of [test_subgroups] for one
    entry of [group.subgroup].  [ginv_h] lists the products of the inverses of the listed
    elements with the listed elements; [equalities] has one row per listed index and one
    column per product, and [ops.all(ops.any(equalities, axis=1))] says that every listed
    index is one of the products. *)
Definition closure_test (G : group) (idx : list nat) : result bool :=
  invs <- mapM (fun i => match nth_error (g_inverses G) i with Some v => Ok v | None => Err IndexError end) idx ;;
  ginv_h <- take (g_composition G) (vec invs) 0%Z ;;
  ginv_h <- take ginv_h (vec idx) 1%Z ;;
  Ok (forallb (fun i => existsb (Nat.eqb i) (data ginv_h)) idx).

(** The check meant by the docstring of the test: every product is a listed index, as in
    [ops.all(ops.any(equalities, axis=0))]. *)
Definition intended_closure_test (G : group) (idx : list nat) : result bool :=
  invs <- mapM (fun i => match nth_error (g_inverses G) i with Some v => Ok v | None => Err IndexError end) idx ;;
  ginv_h <- take (g_composition G) (vec invs) 0%Z ;;
  ginv_h <- take ginv_h (vec idx) 1%Z ;;
  Ok (forallb (fun p => existsb (fun i => Nat.eqb i p) idx) (data ginv_h)).

Lemma products_of_list name G idx : dict_get group_dict name = Ok G -> (forall a, In a idx -> a < g_order G) ->
  mapM (fun i => match nth_error (g_inverses G) i with Some v => Ok v | None => Err IndexError end) idx = Ok (map (inv G) idx) /\
  exists t, take (g_composition G) (vec (map (inv G) idx)) 0%Z = Ok t /\
  exists u, take t (vec idx) 1%Z = Ok u /\ forall v, In v (data u) <-> exists a b, In a idx /\ In b idx /\ v = comp G (inv G a) b.
Proof.
  intros DG R. apply lib_ok in DG as [_ OK]. rewrite (ok_order _ _ _ _ OK) in R.
  set (n := List.length (symmetries_of name)) in *.
  assert (M : mapM (fun i => match nth_error (g_inverses G) i with Some v => Ok v | None => Err IndexError end) idx = Ok (map (inv G) idx)).
  { clear - OK R. induction idx as [|a l IH]; [reflexivity|]. cbn [mapM map].
    assert (Ha : a < n) by (apply R; left; reflexivity).
    rewrite (nth_error_nth' (g_inverses G) 0) by (rewrite (ok_ilen _ _ _ _ OK); exact Ha). cbn [bind].
    rewrite IH by (intros b I; apply R; right; exact I). reflexivity. }
  split; [exact M|].
  pose proof (tab_at _ (ok_cwf _ _ _ _ OK)) as T. rewrite (ok_cshape _ _ _ _ OK) in T. fold n in T. rewrite <- T.
  change 0%Z with (Z.of_nat 0). change 1%Z with (Z.of_nat 1).
  rewrite take_vec; [|cbn; lia|].
  2:{ intros v V. cbn [nth]. apply in_map_iff in V as [a [<- I]]. apply (ok_inv _ _ _ _ OK). exact (R a I). }
  eexists. split; [reflexivity|]. cbn [upd firstn skipn app nth].
  rewrite take_vec; [|cbn; lia|exact R].
  eexists. split; [reflexivity|]. cbn [upd firstn skipn app nth]. rewrite map_length.
  intros v. unfold tab. cbn [data]. rewrite in_map_iff. split.
  - intros [i [<- I]]. apply In_indices in I. apply inb2 in I as [q [r [-> [Q P]]]]. cbn [nth upd].
    exists (nth q idx 0), (nth r idx 0). split; [apply nth_In; exact Q|]. split; [apply nth_In; exact P|].
    unfold comp. rewrite (nth_indep _ 0 (inv G 0)) by (rewrite map_length; exact Q). rewrite map_nth. reflexivity.
  - intros [a [b [Ia [Ib ->]]]]. destruct (In_nth _ _ 0 Ia) as [q [Q <-]]. destruct (In_nth _ _ 0 Ib) as [r [P <-]].
    exists [q; r]. split; [|apply In_indices; apply Forall2_cons; [exact Q|apply Forall2_cons; [exact P|apply Forall2_nil]]].
    cbn [nth upd]. unfold comp. rewrite (nth_indep _ 0 (inv G 0)) by (rewrite map_length; exact Q). rewrite map_nth. reflexivity.
Qed.

(** C71: the test passes for every list of elements that contains the identity, so it says
    nothing about closure. *)
Theorem C71_subgroup_test_accepts_any_list_with_the_identity name G idx :
  dict_get group_dict name = Ok G -> (forall a, In a idx -> a < g_order G) -> In 0 idx -> closure_test G idx = Ok true.
Proof.
  intros DG R Z0. destruct (products_of_list name G idx DG R) as [M [t [T [u [U P]]]]].
  unfold closure_test. rewrite M. cbn [bind]. rewrite T. cbn [bind]. rewrite U. cbn [bind]. f_equal.
  apply forallb_forall. intros i I. apply existsb_exists. exists i. split; [|apply Nat.eqb_refl].
  apply P. exists 0, i. split; [exact Z0|]. split; [exact I|].
  apply lib_ok in DG as [_ OK]. rewrite (ok_order _ _ _ _ OK) in R. pose proof (ok_is_group _ _ _ _ OK) as IG.
  assert (I0 : inv G 0 = 0).
  { destruct (ok_inv _ _ _ _ OK 0 (R 0 Z0)) as [B [L _]]. rewrite <- (group_id_r _ _ _ IG _ B). exact L. }
  rewrite I0. symmetry. exact (group_id_l _ _ _ IG i (R i I)).
Qed.

(** With the other axis the test would decide closure. *)
Theorem C71_other_axis_decides_closure name G idx :
  dict_get group_dict name = Ok G -> (forall a, In a idx -> a < g_order G) ->
  exists v, intended_closure_test G idx = Ok v /\
  (v = true <-> forall a b, In a idx -> In b idx -> In (comp G (inv G a) b) idx).
Proof.
  intros DG R. destruct (products_of_list name G idx DG R) as [M [t [T [u [U P]]]]].
  unfold intended_closure_test. rewrite M. cbn [bind]. rewrite T. cbn [bind]. rewrite U. cbn [bind].
  eexists. split; [reflexivity|]. rewrite forallb_forall. split.
  - intros F a b Ia Ib. assert (I : In (comp G (inv G a) b) (data u)) by (apply P; exists a, b; auto).
    apply F, existsb_exists in I as [i [I E]]. apply Nat.eqb_eq in E. subst i. exact I.
  - intros F v I. apply P in I as [a [b [Ia [Ib ->]]]]. apply existsb_exists. exists (comp G (inv G a) b).
    split; [exact (F a b Ia Ib)|apply Nat.eqb_refl].
Qed.

(** A list that is not closed passes: P4 with the identity and the quarter turn. *)
Theorem C71_subgroup_test_detects_lists_that_are_not_closed_refuted :
  ~ (forall G idx, closure_test G idx = Ok true -> forall a b, In a idx -> In b idx -> In (comp G (inv G a) b) idx).
Proof.
  intros H. assert (T : closure_test P4 [0; 1] = Ok true) by (vm_compute; reflexivity).
  specialize (H P4 [0; 1] T 1 0 (or_intror (or_introl eq_refl)) (or_introl eq_refl)). vm_compute in H.
  destruct H as [H|[H|[]]]; discriminate H.
Qed.
Print Assumptions C71_subgroup_test_accepts_any_list_with_the_identity.
Print Assumptions C71_other_axis_decides_closure.
Print Assumptions C71_subgroup_test_detects_lists_that_are_not_closed_refuted.

Example C71_case :
  closure_test P4 [0; 1] = Ok true /\ intended_closure_test P4 [0; 1] = Ok false /\
  intended_closure_test P4 [0; 2] = Ok true /\ closure_test P4 [1; 2] = Ok false.
Proof. vm_compute. auto. Qed.

(** ** Cases of C70, with integer weights and signals *)

(** conv_test_base.py:120-128 [test_padding_equiv] with stride 5 for [GroupConv2D] and
    stride 3 for [GroupConv2DTranspose]; the last case is stride 5 for the transposed
    layer with kernel size 3, which the test leaves out (conv_test_base.py:122), on a
    signal of size 1. *)
Example C70_case_strides :
  checked "P4" "" (Some "") (test_layer 2 false (tested P4 "" 3 1 5 "same_equiv" true (fun v => v))
    [Some 1; Some 3; Some 3; Some 4; Some 1] some_weights some_weights) (some_signal [1; 3; 3; 4; 1]) = Ok 0%Z /\
  checked "P4" "" (Some "") (test_layer 2 true (tested P4 "" 3 1 3 "valid_equiv" true (fun v => v))
    [Some 1; Some 3; Some 3; Some 4; Some 1] some_weights some_weights) (some_signal [1; 3; 3; 4; 1]) = Ok 0%Z /\
  match checked "P4" "" (Some "") (test_layer 2 true (tested P4 "" 3 1 5 "same_equiv" true (fun v => v))
    [Some 1; Some 1; Some 1; Some 4; Some 1] some_weights some_weights) (some_signal [1; 1; 1; 4; 1]) with
  | Ok v => negb (v =? 0)%Z | Err _ => false end = true.
Proof. split; [vm_compute; reflexivity|]. split; [vm_compute; reflexivity|]. vm_compute. reflexivity. Qed.

(** test_pooling.py:88-109 [test_pool_equiv_subgroup]. *)
Definition checked_pooling (name H : string) (R : result pool_layer) (x : tensor Z) : result (list nat * Z) :=
  G <- dict_get group_dict name ;; L <- R ;; y <- pool_call L x ;;
  v <- check_equivariance (pool_call L) x G (spatial_axes (dimension_of name)) (group_axis (dimension_of name)) (Some H) (Some "") (Some H) ;;
  Ok (shape y, v).

Example C70_case_pooling :
  checked_pooling "P4" "P2" (test_pool 2 "max" (tested_pooling P4 "P2" 2 (Some (One 2)) "same_equiv") (map Some [2; 4; 4; 4; 1])) (some_signal [2; 4; 4; 4; 1])
  = Ok ([2; 2; 2; 2; 1], 0%Z).
Proof. vm_compute. reflexivity. Qed.

(** test_model.py:50-61 with size 4 instead of 8 and one channel: the shape and the check. *)
Definition tested_model : result (tensor Z -> result (tensor Z)) :=
  L1 <- test_layer 2 false (tested P4 "" 3 1 1 "same_equiv" true (fun v => v)) (map Some [1; 4; 4; 4; 1]) some_weights some_weights ;;
  L2 <- test_pool 2 "max" (tested_pooling P4 "" 2 None "valid_equiv") (map Some [1; 4; 4; 4; 1]) ;;
  L3 <- test_layer 2 false (tested P4 "" 1 1 1 "same_equiv" true (fun v => v)) (map Some [1; 2; 2; 4; 1]) some_weights some_weights ;;
  L4 <- test_pool 2 "max" (tested_pooling P4 "" 2 None "valid_equiv") (map Some [1; 2; 2; 4; 1]) ;;
  L5 <- test_layer 2 true (tested P4 "" 3 1 1 "same_equiv" true (fun v => v)) (map Some [1; 1; 1; 4; 1]) some_weights some_weights ;;
  Ok (run [apply L1; pool_call L2; apply L3; pool_call L4; apply L5]).

Example C70_case_model :
  match tested_model with
  | Ok model =>
      (exists y, model (some_signal [1; 4; 4; 4; 1]) = Ok y /\ shape y = [1; 1; 1; 4; 1]) /\
      check_equivariance model (some_signal [1; 4; 4; 4; 1]) P4 [1; 2]%Z (Some 3%Z) (Some "") (Some "") (Some "") = Ok 0%Z
  | Err _ => False
  end.
Proof. vm_compute. split; [eexists; split; reflexivity|reflexivity]. Qed.

(** test_padding.py: the shapes the tests expect. *)
Definition padded_shape (d : nat) (p format : string) (s : list nat) : result (list nat) :=
  L0 <- padding_init (One 2) d (One 3) (Some p) false format false ;; L <- padding_build L0 (map Some s) ;;
  y <- padding_call L (zeros (A := Z) s) ;; Ok (shape y).

Example C70_case_padding :
  padded_shape 1 "valid_equiv" "channels_last" [1; 30; 1] = Ok [1; 32; 1] /\
  padded_shape 2 "valid_equiv" "channels_last" [1; 30; 31; 1] = Ok [1; 32; 35; 1] /\
  padded_shape 1 "same_equiv" "channels_last" [1; 30; 1] = Ok [1; 32; 1] /\
  padded_shape 2 "same_equiv" "channels_last" [1; 30; 31; 1] = Ok [1; 32; 34; 1] /\
  padded_shape 2 "valid_equiv" "channels_first" [1; 1; 30; 31] = Ok [1; 1; 32; 35].
Proof. vm_compute. auto 10. Qed.
