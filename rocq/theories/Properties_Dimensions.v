(** C65: groups used with another number of spatial axes than their own. *)
From Verif Require Import Properties_Build Properties_Pooling Properties_Config AxisFacts.
Local Open Scope string_scope.
Local Open Scope list_scope.

Section Dimensions.
Context {A : Type} {ZA : Zero A}.

Lemma wallpaper_two_axes name G (x : tensor A) sp n :
  dict_get group_dict name = Ok G -> dimension_of name = 2 -> name <> "P1" -> List.length sp <> 2 ->
  g__action G A ZA x sp n = Err ValueError.
Proof.
  intros D DIM NP L. assert (OA : open_action x sp n = Err ValueError).
  { destruct sp as [|h [|w [|z sp]]]; try reflexivity. contradiction L. reflexivity. }
  apply dict_get_In in D. unfold group_dict, wallpaper_group_dict, space_group_dict in D. cbn [app In] in D.
  repeat (destruct D as [D|D]; [apply pair_equal_spec in D as [<- <-]; try discriminate DIM; try (exfalso; apply NP; reflexivity);
    first [rewrite P2_action_eq; unfold P2_action; rewrite OA; reflexivity
          |rewrite PMw_action_eq; unfold PMw_action; rewrite OA; reflexivity
          |rewrite PMh_action_eq; unfold PMh_action; rewrite OA; reflexivity
          |rewrite P2MM_action_eq; unfold P2MM_action; rewrite OA; reflexivity
          |rewrite P4_action_eq; unfold P4_action; rewrite OA; reflexivity
          |rewrite P4M_action_eq; unfold P4M_action; rewrite OA; reflexivity
          |reflexivity] |]).
  destruct D.
Qed.

Lemma no_grid_action G (x : tensor A) sp : (forall (t : tensor A) n, exists e, g__action G A ZA t sp n = Err e) ->
  forall n ga H K, exists e, action G x sp n ga H K = Err e.
Proof.
  intros N n ga H K.
  assert (Q : forall (t : tensor A) m h, exists e, action_on_grid G t m sp h = Err e).
  { intros t m h. destruct (N t m) as [e E]. exists e. unfold action_on_grid. rewrite E. reflexivity. }
  unfold action. destruct (parse_subgroup G K) as [k|]; [|apply Q]. destruct ga as [ga|].
  2:{ destruct (subgroup_get G (parse_subgroup G H)); [|eexists; reflexivity]. cbn [bind]. destruct (subgroup_get G (Some k)); eexists; reflexivity. }
  unfold action_on_group. destruct (subgroup_get G (parse_subgroup G H)); [|eexists; reflexivity]. cbn [bind].
  destruct (subgroup_get G (Some k)); [|eexists; reflexivity]. cbn [bind].
  match goal with |- context[bind ?r _] => destruct r as [t|e]; [|exists e; reflexivity] end. cbn [bind].
  destruct (Q t ga (parse_subgroup G H)) as [e ->]. exists e. reflexivity.
Qed.

(** (a) Wallpaper groups other than P1 act along exactly two axes. *)
Theorem C65_wallpaper_groups_need_two_axes name G (x : tensor A) sp n ga H K :
  dict_get group_dict name = Ok G -> dimension_of name = 2 -> name <> "P1" -> List.length sp <> 2 ->
  exists e, action G x sp n ga H K = Err e.
Proof.
  intros D DIM NP L. apply no_grid_action. intros t m. exists ValueError. apply (wallpaper_two_axes name); assumption.
Qed.

(** (b) Space groups look at the first of the axes only. *)
Lemma space_first_axis name G (x : tensor A) z sp sp' n :
  dict_get group_dict name = Ok G -> dimension_of name = 3 ->
  g__action G A ZA x (z :: sp) n = g__action G A ZA x (z :: sp') n.
Proof.
  intros D DIM. apply dict_get_In in D. unfold group_dict, wallpaper_group_dict, space_group_dict in D. cbn [app In] in D.
  assert (Use : forall nm order K, derived nm order = Ok K -> g__action K A ZA x (z :: sp) n = g__action K A ZA x (z :: sp') n).
  { intros nm order K I. destruct (derived_action nm order K (A := A) I) as [ext EQ]. rewrite !EQ. reflexivity. }
  repeat (destruct D as [D|D]; [apply pair_equal_spec in D as [<- <-]; try discriminate DIM;
    first [rewrite Oh_action_eq; reflexivity|exact (Use _ _ _ O_init_eq)|exact (Use _ _ _ D4h_init_eq)|exact (Use _ _ _ D4_init_eq)] |]).
  destruct D.
Qed.

Theorem C65_space_groups_ignore_the_other_axes name G (x : tensor A) z sp sp' n ga H K :
  dict_get group_dict name = Ok G -> dimension_of name = 3 ->
  action G x (z :: sp) n ga H K = action G x (z :: sp') n ga H K.
Proof.
  intros D DIM.
  assert (Q : forall (t : tensor A) m h, action_on_grid G t m (z :: sp) h = action_on_grid G t m (z :: sp') h).
  { intros t m h. unfold action_on_grid. rewrite (space_first_axis name G t z sp sp' m D DIM). reflexivity. }
  unfold action. destruct (parse_subgroup G K) as [k|]; [|apply Q]. destruct ga as [ga|]; [|reflexivity].
  unfold action_on_group. destruct (subgroup_get G (parse_subgroup G H)); [|reflexivity]. cbn [bind].
  destruct (subgroup_get G (Some k)); [|reflexivity]. cbn [bind].
  match goal with |- context[bind ?r _] => destruct r as [t|e]; [|reflexivity] end. cbn [bind].
  rewrite Q. reflexivity.
Qed.
End Dimensions.
Print Assumptions C65_wallpaper_groups_need_two_axes.
Print Assumptions C65_space_groups_ignore_the_other_axes.

Section Layers.
Context {A : Type} {RA : Arith A}.

(** Building a convolution transforms its kernel. *)
Lemma build_transforms_kernel (L0 : conv_layer A) input kinit binit L :
  conv_build L0 input kinit binit = Ok L ->
  exists T c i, gt_build (cl_gt L0) input = Ok T /\
    (exists r, gt_reshaped T = Some r /\ py_nth r (if String.eqb (cl_format L0) "channels_last" then (-1)%Z else 1%Z) = Ok (Some c)) /\
    compute_transformed_kernel_indices T
      (tab (cl_kernel_size L0 ++ (if gt_transpose T then [cl_filters L0; c] else [c; cl_filters L0])) kinit) = Ok i.
Proof.
  intros B. unfold conv_build in B. destruct (gt_build (cl_gt L0) input) as [T|] eqn:GB; [|discriminate B]. cbn [bind] in B.
  cbv zeta in B. unfold cl_set_gt in B. cbn [cl_format cl_kernel_size cl_filters cl_use_bias] in B.
  assert (RS : exists r, gt_reshaped T = Some r).
  { unfold gt_build in GB. cbv zeta in GB. match type of GB with bind ?u _ = _ => destruct u as [r|]; [|discriminate GB] end. cbn [bind] in GB.
    destruct (padding_build _ r); [|discriminate GB]. cbn [bind] in GB. injection GB as <-. exists r. reflexivity. }
  destruct RS as [r RS]. rewrite RS in B. destruct (py_nth r _) as [o|] eqn:PN; [|discriminate B]. cbn [bind] in B.
  destruct o as [c|]; [|discriminate B]. cbn [bind] in B.
  match type of B with bind ?u _ = _ => destruct u as [u'|]; [|discriminate B] end. cbn [bind] in B.
  unfold gt_build_conv in B.
  match type of B with bind (bind ?u _) _ = _ => destruct u as [u''|]; [|discriminate B] end. cbn [bind] in B.
  match type of B with bind (bind ?u _) _ = _ => destruct u as [i|] eqn:CK; [|discriminate B] end.
  exists T, c, i. split; [reflexivity|]. split; [exists r; split; [exact RS|exact PN]|exact CK].
Qed.

Lemma gt_build_keeps T0 input T : gt_build T0 input = Ok T ->
  gt_dims T = gt_dims T0 /\ gt_transpose T = gt_transpose T0 /\ gt_group T = gt_group T0 /\ gt_acting T = gt_acting T0 /\
  gt_group_valued T = (List.length input =? gt_dims T0 + 3)%nat /\
  gt_domain T = (if gt_group_valued T then gt_domain T0 else None).
Proof.
  intros GB. unfold gt_build in GB. cbv zeta in GB. match type of GB with bind ?u _ = _ => destruct u as [r|]; [|discriminate GB] end. cbn [bind] in GB.
  destruct (padding_build _ r); [|discriminate GB]. cbn [bind] in GB. injection GB as <-. cbn. repeat split.
Qed.

Lemma init_group d tr (a : conv_args A) G L0 : group_of_arg (ca_group a) G -> conv_init d tr a = Ok L0 ->
  gt_group (cl_gt L0) = G /\ gt_dims (cl_gt L0) = d /\ gt_transpose (cl_gt L0) = tr.
Proof.
  intros GA I. unfold conv_init in I. destruct (gt_init _ _ _ _ _ _ _ _ _) as [T|] eqn:GI; [|discriminate I]. cbn [bind] in I.
  repeat (match type of I with bind ?u _ = _ => destruct u; [|discriminate I]; cbn [bind] in I end).
  match type of I with (guard ?u else _ ;; _) = _ => destruct u; [|discriminate I] end.
  match type of I with (guard ?u else _ ;; _) = _ => destruct u; [|discriminate I] end.
  assert (E : forall u v : conv_layer A, Ok u = Ok v -> u = v) by congruence. apply E in I. subst L0. cbn [cl_gt].
  unfold gt_init in GI.
  replace (match ca_group a with ByName s => dict_get group_dict s | Object G0 => Ok G0 end) with (Ok G) in GI
    by (unfold group_of_arg in GA; destruct (ca_group a); congruence).
  cbn [bind] in GI.
  repeat (match type of GI with bind ?u _ = _ => destruct u; [|discriminate GI]; cbn [bind] in GI end).
  destruct tr; cbv beta iota zeta in GI;
  repeat (match type of GI with bind ?u _ = _ => destruct u; [|discriminate GI]; cbn [bind] in GI end);
  assert (E' : forall u v : gtransforms, Ok u = Ok v -> u = v) by congruence; apply E' in GI; subst T; repeat split.
Qed.

(** so 3D convolutions with such groups can be constructed, but not built. *)
Theorem C65_wallpaper_convolutions_are_two_dimensional name G d tr (a : conv_args A) L0 input kinit binit :
  dict_get group_dict name = Ok G -> dimension_of name = 2 -> name <> "P1" -> d <> 2 ->
  group_of_arg (ca_group a) G -> conv_init d tr a = Ok L0 ->
  exists e, conv_build L0 input kinit binit = Err e.
Proof.
  intros D DIM NP ND GA I. destruct (conv_build L0 input kinit binit) as [L|e] eqn:B; [exfalso|exists e; reflexivity].
  apply build_transforms_kernel in B as [T [c [i [GB [_ CK]]]]].
  destruct (init_group d tr a G L0 GA I) as [G1 [G2 G3]]. destruct (gt_build_keeps _ _ _ GB) as [K1 [K2 [K3 _]]].
  rewrite G1 in K3. rewrite G2 in K1.
  unfold compute_transformed_kernel_indices in CK.
  match type of CK with bind ?u _ = _ => destruct u as [k1|]; [|discriminate CK] end. cbn [bind] in CK.
  destruct (get_index_tensor k1) as [k2|]; [|discriminate CK]. cbn [bind] in CK. cbv zeta in CK. rewrite K1, K3 in CK.
  assert (LS : List.length (map Z.of_nat (seq 0 d)) <> 2) by (rewrite map_length, seq_length; exact ND).
  destruct (negb (gt_group_valued T)).
  - destruct (C65_wallpaper_groups_need_two_axes name G k2 _ (Z.of_nat d) None (gt_acting T) (gt_domain T) D DIM NP LS) as [e Q].
    rewrite Q in CK. discriminate CK.
  - destruct (subgroup_get G (gt_domain T)) as [dom|]; [|discriminate CK]. cbn [bind] in CK.
    destruct (split_axes k2 _ _) as [k3|]; [|discriminate CK]. cbn [bind] in CK.
    destruct (C65_wallpaper_groups_need_two_axes name G k3 _ (Z.of_nat d) (Some (Z.of_nat d)) (gt_acting T) (gt_domain T) D DIM NP LS) as [e Q].
    rewrite Q in CK. discriminate CK.
Qed.

(** (c) A space group in a layer of any dimension takes the first three axes of
    the kernel for the spatial ones. *)
Lemma space_first_three {B} {ZB : Zero B} name G s (f : list nat -> B) d k t :
  dict_get group_dict name = Ok G -> dimension_of name = 3 -> 0 < d -> 3 <= List.length s -> k <= List.length s ->
  g__action G B ZB (tab s f) (map Z.of_nat (seq 0 d)) (Z.of_nat k) = Ok t -> all_equal (firstn 3 s).
Proof.
  intros D DIM PD L3 K R. destruct d as [|d]; [lia|]. cbn [seq map] in R.
  rewrite (space_first_axis name G _ _ _ (map Z.of_nat [1; 2]) _ D DIM) in R.
  change (Z.of_nat 0 :: map Z.of_nat [1; 2]) with (map Z.of_nat [0; 1; 2]) in R.
  assert (GE : gather [0; 1; 2] s = firstn 3 s) by (destruct s as [|x [|y [|z s]]]; cbn [List.length] in L3; try lia; reflexivity).
  destruct (lib_ok name G D) as [_ OK]. rewrite DIM in OK.
  assert (NE : needs_equal_sizes name = true).
  { apply dict_get_In in D. unfold group_dict, wallpaper_group_dict, space_group_dict in D. cbn [app In] in D.
    repeat (destruct D as [D|D]; [apply pair_equal_spec in D as [<- _]; try discriminate DIM; reflexivity|]). destruct D. }
  assert (DEC : all_equal (firstn 3 s) \/ ~ all_equal (firstn 3 s)).
  { destruct s as [|x [|y [|z s]]]; cbn [List.length] in L3; try lia. cbn [firstn].
    destruct (Nat.eq_dec x y) as [<-|N]; [|right; intros Q; apply N; apply Q; cbn; auto].
    destruct (Nat.eq_dec x z) as [<-|N]; [left|right; intros Q; apply N; apply Q; cbn; auto].
    intros a b [<-|[<-|[<-|[]]]] [<-|[<-|[<-|[]]]]; reflexivity. }
  destruct DEC as [Y|N]; [exact Y|exfalso].
  destruct (ok_refuse _ _ _ _ OK B ZB s f k [0; 1; 2]) as [e Q]; [exact K| |exact NE|rewrite GE; exact N|rewrite Q in R; discriminate R].
  split; [reflexivity|]. split; [repeat constructor; cbn; intuition lia|]. split; [|intros _; exists 0; reflexivity].
  intros a [<-|[<-|[<-|[]]]]; lia.
Qed.

Lemma static_build T0 d (valued : bool) bs m g c T : gt_dims T0 = d -> gt_format T0 = "channels_last" ->
  gt_channels_axis T0 = Z.of_nat (d + 1) -> gt_group_axis T0 = Z.of_nat (d + 1) -> List.length m = d ->
  gt_build T0 (static_signal_shape valued bs m g c) = Ok T ->
  gt_group_valued T = valued /\
  gt_reshaped T = Some (bs :: map Some m ++ [Some (if valued then g * c else c)]) /\
  (valued = true -> exists dom, subgroup_get (gt_group T) (gt_domain T) = Ok dom /\ g = List.length dom).
Proof.
  intros GD GF GC GX LM GB. set (inp := static_signal_shape valued bs m g c) in *.
  assert (LSH : List.length inp = d + 2 + (if valued then 1 else 0)).
  { unfold inp, static_signal_shape. cbn [List.length]. rewrite app_length, map_length. destruct valued; cbn [List.length]; lia. }
  assert (VV : (List.length inp =? d + 3)%nat = valued).
  { rewrite LSH. destruct valued; [apply Nat.eqb_eq|apply Nat.eqb_neq]; lia. }
  unfold gt_build in GB. rewrite GD, GF, GC, GX, VV in GB. cbv zeta in GB.
  match type of GB with bind ?u _ = _ => destruct u as [r|] eqn:RR; [|discriminate GB] end. cbn [bind] in GB.
  destruct (padding_build _ r); [|discriminate GB]. cbn [bind] in GB. injection GB as <-. cbn [gt_group_valued gt_reshaped gt_group gt_domain gt_set_build].
  split; [reflexivity|]. destruct valued.
  - cbn [String.eqb Ascii.eqb Bool.eqb andb] in RR.
    destruct (subgroup_get (gt_group T0) (gt_domain T0)) as [dom|]; [|discriminate RR]. cbn [bind] in RR.
    rewrite (py_nth_nat _ (d + 1) None) in RR by lia. cbn [bind] in RR.
    replace (nth (d + 1) inp None) with (Some g) in RR.
    2:{ unfold inp, static_signal_shape. replace (d + 1) with (S d) by lia. cbn [nth]. rewrite app_nth2 by (rewrite map_length; lia).
        rewrite map_length, LM, Nat.sub_diag. reflexivity. }
    destruct (Nat.eqb_spec g (List.length dom)) as [GE|]; [|discriminate RR].
    replace (Z.of_nat (d + 1) + 1)%Z with (Z.of_nat (d + 2)) in RR by lia.
    unfold inp, static_signal_shape in RR. rewrite merge_static in RR by exact LM. injection RR as <-.
    split; [reflexivity|]. intros _. exists dom. split; [reflexivity|exact GE].
  - injection RR as <-. split; [reflexivity|discriminate].
Qed.

Lemma last_of {B} (l : list B) x n : List.length l = n -> py_nth (l ++ [x]) (-1) = Ok x.
Proof.
  intros L. unfold py_nth. assert (LL : List.length (l ++ [x]) = n + 1) by (rewrite app_length; cbn [List.length]; lia).
  replace (-1)%Z with (Z.of_nat n - Z.of_nat (List.length (l ++ [x])))%Z by lia. rewrite norm_axis_neg by lia. cbn [bind].
  rewrite nth_error_app2 by lia. rewrite L, Nat.sub_diag. reflexivity.
Qed.

Theorem C65_space_group_layers_of_any_dimension name G d tr (a : conv_args A) valued bs m g c kinit binit k L :
  dict_get group_dict name = Ok G -> dimension_of name = 3 -> 0 < d ->
  (ca_group a = ByName name \/ ca_group a = Object G) -> ca_data_format a = "channels_last" -> List.length m = d ->
  standardize_tuple d (ca_kernel_size a) = Ok k ->
  built d tr a (static_signal_shape valued bs m g c) kinit binit L ->
  all_equal (firstn 3 (k ++ (if valued then [g_order G; c; ca_filters a] else [c; ca_filters a]))).
Proof.
  intros D DIM PD GA FM LM SK [L0 [I B]].
  destruct (conv_init_inv G d name tr a L0 D GA FM I) as [p [k' [s [dl [Hn [PN [SK' [SS [SD [PS [NEH [MM [FP [_ [P [PI EL]]]]]]]]]]]]]]]].
  rewrite SK' in SK. injection SK as ->. destruct (std_pos _ _ _ SK') as [LK _].
  apply build_transforms_kernel in B as [T [C [i [GB [[r [RS PY]] CK]]]]].
  destruct (gt_build_keeps _ _ _ GB) as [K1 [K2 [K3 [K4 [K5 K6]]]]].
  destruct (static_build (cl_gt L0) d valued bs m g c T) as [V1 [V2 V3]];
    [rewrite EL; reflexivity|rewrite EL; reflexivity|rewrite EL; reflexivity|rewrite EL; reflexivity|exact LM|exact GB|].
  rewrite V2 in RS. injection RS as <-. rewrite EL in PY. cbn [cl_format String.eqb Ascii.eqb Bool.eqb] in PY.
  change (bs :: map Some m ++ [Some (if valued then g * c else c)]) with ((bs :: map Some m) ++ [Some (if valued then g * c else c)]) in PY.
  rewrite (last_of _ _ (S d)) in PY by (cbn [List.length]; rewrite map_length; lia). injection PY as PY.
  assert (KT : gt_transpose T = tr) by (rewrite K2, EL; reflexivity).
  assert (KG : gt_group T = G) by (rewrite K3, EL; reflexivity).
  assert (KD : gt_dims T = d) by (rewrite K1, EL; reflexivity).
  rewrite V1 in K6.
  unfold compute_transformed_kernel_indices in CK. rewrite KT in CK.
  assert (SW : exists f, (if tr
     then swapaxes (tab (cl_kernel_size L0 ++ (if tr then [cl_filters L0; C] else [C; cl_filters L0])) kinit) (-1) (-2)
     else Ok (tab (cl_kernel_size L0 ++ (if tr then [cl_filters L0; C] else [C; cl_filters L0])) kinit)) = Ok (tab (k ++ [C; ca_filters a]) f)).
  { rewrite EL. cbn [cl_kernel_size cl_filters]. destruct tr; [|eexists; reflexivity].
    rewrite (tab_ker d) by exact LK. rewrite swap_ker by exact LK. eexists. reflexivity. }
  destruct SW as [f SW]. rewrite SW in CK. cbn [bind] in CK. rewrite index_tensor_tab in CK. cbn [bind] in CK. rewrite shape_tab in CK.
  cbv zeta in CK. rewrite V1, KD, KG in CK. destruct valued; cbn [negb] in CK.
  - destruct (V3 eq_refl) as [dom [SG GL]]. rewrite KG in SG. rewrite SG in CK. cbn [bind] in CK.
    destruct (lib_ok name G D) as [NG OK]. rewrite DIM in OK.
    assert (SDm : exists dn, gt_domain T = Some dn /\ dn <> "").
    { rewrite K6, EL. cbn [cl_gt gt_domain]. eexists. split; [reflexivity|]. destruct tr; [exact NEH|exact (lib_name_nonempty _ _ D)]. }
    destruct SDm as [dn [DN NEd]]. rewrite DN in CK, SG. cbn [subgroup_get] in SG.
    destruct (ok_sub _ _ _ _ OK _ _ SG) as [ND [BD [HD [_ [FULL _]]]]].
    assert (DP : List.length dom <> 0) by (intros Z; destruct dom; [discriminate HD|discriminate Z]).
    subst C. rewrite GL in CK. set (s3 := k ++ [c; ca_filters a]).
    assert (L3 : List.length s3 = d + 2) by (unfold s3; rewrite app_length; cbn [List.length]; lia).
    assert (N3 : nth d s3 0 = c) by (unfold s3; rewrite app_nth2 by lia; rewrite LK, Nat.sub_diag; reflexivity).
    assert (S1 : k ++ [List.length dom * c; ca_filters a] = upd d (List.length dom * nth d s3 0) s3).
    { rewrite N3. unfold s3. rewrite <- LK. symmetry. apply upd_app. }
    rewrite S1 in CK.
    match type of CK with context[split_axes ?t _ _] => replace (-2)%Z with (Z.of_nat d - Z.of_nat (rank t))%Z in CK at 1
      by (rewrite rank_tab, length_upd; lia) end.
    rewrite split_axes_neg in CK by (rewrite rank_tab, length_upd; lia). rewrite split_axes_tab in CK by (lia || exact DP). cbn [bind] in CK.
    match type of CK with context[stk d _ s3 ?F] => set (g3 := F) in CK end.
    unfold action in CK. cbn [parse_subgroup] in CK. destruct (String.eqb_spec dn "") as [|_]; [contradiction|].
    unfold action_on_group in CK.
    destruct (subgroup_get G _) as [act|]; [|discriminate CK]. cbn [bind subgroup_get] in CK. rewrite SG in CK. cbn [bind] in CK.
    assert (UP : exists F, (if (List.length dom <? g_order G)%nat then upsample G (stk d (List.length dom) s3 g3) (Z.of_nat d) (Some dn)
                  else Ok (stk d (List.length dom) s3 g3)) = Ok (stk d (g_order G) s3 F)).
    { destruct (Nat.ltb_spec (List.length dom) (g_order G)).
      - rewrite (upsample_stk _ _ _ _ OK _ _ _ _ dom) by (assumption || lia). rewrite (ok_order _ _ _ _ OK). eexists. reflexivity.
      - assert (LE : List.length dom <= g_order G).
        { rewrite (ok_order _ _ _ _ OK). rewrite <- (seq_length (List.length (symmetries_of name)) 0). apply NoDup_incl_length; [exact ND|].
          intros x IX. apply in_seq. specialize (BD x IX). lia. }
        replace (g_order G) with (List.length dom) by lia. eexists. reflexivity. }
    destruct UP as [F UP]. rewrite UP in CK. cbn [bind] in CK. unfold action_on_grid in CK.
    destruct (g__action G nat _ (stk d (g_order G) s3 F) _ _) as [t|] eqn:GAx; [|discriminate CK].
    unfold stk in GAx.
    assert (E4 : insert_at d (g_order G) s3 = k ++ [g_order G; c; ca_filters a]) by (unfold s3; rewrite <- LK; apply insert_at_app_r).
    rewrite E4 in GAx.
    apply (space_first_three name G _ _ d d t D DIM PD) in GAx; [exact GAx| |]; rewrite app_length; cbn [List.length]; lia.
  - rewrite K6 in CK. unfold action in CK. cbn [parse_subgroup] in CK. unfold action_on_grid in CK. subst C.
    destruct (g__action G nat _ _ _ _) as [t|] eqn:GAx; [|discriminate CK].
    apply (space_first_three name G _ _ d d t D DIM PD) in GAx; [exact GAx| |]; rewrite app_length; cbn [List.length]; lia.
Qed.
End Layers.
Print Assumptions C65_wallpaper_convolutions_are_two_dimensional.
Print Assumptions C65_space_group_layers_of_any_dimension.

(** ** Examples over the integers *)

(** P4 acts along two axes only; Oh takes the axes 0, 1, 2 whichever axes are named
    after the first. *)
Example C65_case_axes :
  is_ok (action P4 (some_signal [2; 2; 2]) [0; 1; 2]%Z 0 None (Some "") None) = false /\
  is_ok (action P4 (some_signal [2; 2; 2]) [0]%Z 0 None (Some "") None) = false /\
  is_ok (action P4 (some_signal [2; 2; 2]) [0; 1]%Z 0 None (Some "") None) = true /\
  action Oh (some_signal [2; 2; 2]) [0; 1]%Z 0 None (Some "D4") None
  = action Oh (some_signal [2; 2; 2]) [0; 1; 2]%Z 0 None (Some "D4") None /\
  is_ok (action Oh (some_signal [2; 2; 2]) [0; 1]%Z 0 None (Some "D4") None) = true /\
  action P1 (some_signal [2; 3]) [0]%Z 0 None (Some "") None
  = Ok (mkTensor [1; 2; 3] (data (some_signal [2; 3]))).
Proof. vm_compute. auto 10. Qed.

(** GroupConv3D for P4 is constructed and does not build; for P1 it does.  GroupConv2D for Oh builds on RGB images with 3x3 kernels and not otherwise;
    on signals on the group it never builds with 3x3 kernels. *)
Example C65_case_layers :
  let a name H k := with_group name H (One k) 2 None (Some (Some "same_equiv")) None true in
  let builds d tr name H k shape := is_ok (test_layer d tr (a name H k) shape some_weights some_weights) in
  is_ok (conv_init 3 false (a "P4" "" 3%Z)) = true /\
  builds 3 false "P4" "" 3%Z [None; Some 3; Some 3; Some 3; Some 1] = false /\
  builds 3 true "P4" "" 3%Z [None; Some 3; Some 3; Some 3; Some 1] = false /\
  builds 3 false "P1" "" 3%Z [None; Some 3; Some 3; Some 3; Some 1] = true /\
  builds 3 true "P1" "" 3%Z [None; Some 3; Some 3; Some 3; Some 1] = true /\
  builds 2 false "Oh" "D4" 3%Z [None; Some 5; Some 5; Some 3] = true /\
  builds 2 false "Oh" "D4" 3%Z [None; Some 5; Some 5; Some 2] = false /\
  builds 2 false "D4" "D4" 3%Z [None; Some 5; Some 5; Some 8; Some 3] = false.
Proof. vm_compute. auto 10. Qed.
