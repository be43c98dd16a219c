(** Exactly when a convolution layer can be built. *)
From Verif Require Export ShapeFacts FormatFacts.
Local Open Scope string_scope.
Local Open Scope list_scope.

(** The output size that Keras computes in [build] is not negative. *)
Lemma output_size_ok (same : bool) n k s : 0 < s ->
  ((0 <=? conv_out_z (if same then "same" else "valid") n k s)%Z = true <-> (same = true \/ k <= n + s)).
Proof.
  intros S. unfold conv_out_z. rewrite Z.leb_le. destruct same; cbn [String.eqb Ascii.eqb Bool.eqb].
  - split; [intros _; left; reflexivity|intros _].
    assert (-1 <= (Z.of_nat n - 1) / Z.of_nat s)%Z by (apply Z.div_le_lower_bound; nia). lia.
  - split.
    + intros H. right. assert (Q : (-1 <= (Z.of_nat n - Z.of_nat k) / Z.of_nat s)%Z) by lia.
      pose proof (Z.mul_div_le (Z.of_nat n - Z.of_nat k) (Z.of_nat s) ltac:(lia)). nia.
    + intros [H|H]; [discriminate|]. assert (-1 <= (Z.of_nat n - Z.of_nat k) / Z.of_nat s)%Z by (apply Z.div_le_lower_bound; nia). lia.
Qed.

Lemma keras_shape_iff d (same : bool) o k s dl bs m C : List.length m = d -> List.length k = d -> List.length s = d -> List.length dl = d ->
  (forall a, a < d -> 0 < nth a s 0) ->
  ((exists r, keras_conv_output_shape false "channels_last" (if same then "same" else "valid") o k s dl (bs :: map Some m ++ [Some C]) = Ok r) <->
   (forall a, a < d -> same = true \/ dilated (nth a k 0) (nth a dl 0) <= nth a m 0 + nth a s 0)).
Proof.
  intros Lm Lk Ls Ld PS. unfold keras_conv_output_shape. cbn [String.eqb Ascii.eqb Bool.eqb].
  replace (List.length (bs :: map Some m ++ [Some C]) =? List.length k + 2)%nat with true
    by (symmetry; apply Nat.eqb_eq; cbn [List.length]; rewrite app_length, map_length; cbn [List.length]; lia).
  cbn [skipn]. rewrite firstn_app_exact by (rewrite map_length; lia). rewrite keras_sizes_known, keras_sizes_check.
  cbv beta iota.
  assert (LE : List.length (vzip dilated k dl) = d) by (rewrite length_vzip; lia).
  assert (F : forallb (fun z => (0 <=? z)%Z) (map (fun q => let '(n, k, s) := q in conv_out_z (if same then "same" else "valid") n k s) (combine (combine m (vzip dilated k dl)) s)) = true
     <-> (forall a, a < d -> same = true \/ dilated (nth a k 0) (nth a dl 0) <= nth a m 0 + nth a s 0)).
  { rewrite forallb_forall. split.
    - intros H a Ha. apply (proj1 (output_size_ok same (nth a m 0) (dilated (nth a k 0) (nth a dl 0)) (nth a s 0) (PS a Ha))). apply H.
      apply in_map_iff. exists (nth a m 0, dilated (nth a k 0) (nth a dl 0), nth a s 0). split; [reflexivity|].
      replace (nth a m 0, dilated (nth a k 0) (nth a dl 0), nth a s 0) with (nth a (combine (combine m (vzip dilated k dl)) s) (0, 0, 0)).
      + apply nth_In. rewrite !combine_length. lia.
      + rewrite combine_nth by (rewrite combine_length; lia). rewrite combine_nth by lia.
        rewrite nth_vzip by lia. reflexivity.
    - intros H z I. apply in_map_iff in I as [[[n0 k0] s0] [<- I]]. destruct (In_nth _ _ (0, 0, 0) I) as [a [Ha E]].
      rewrite !combine_length in Ha. rewrite combine_nth in E by (rewrite combine_length; lia). rewrite combine_nth in E by lia.
      rewrite nth_vzip in E by lia. injection E as <- <- <-. apply output_size_ok; [apply PS; lia|]. apply H. lia. }
  rewrite <- F. destruct (forallb _ _); split.
  - reflexivity.
  - intros _. eauto.
  - intros [r R]. discriminate R.
  - discriminate.
Qed.

Section Build.
Context {A : Type} {RA : Arith A}.
Context (G : group) (d : nat) (E : list symmetry) (eq : bool) (OK : group_ok G d E eq).

Lemma conv_build_iff name tr (a : conv_args A) L0 p k s dl (valued : bool) bs m g c kinit binit :
  dict_get group_dict name = Ok G -> (ca_group a = ByName name \/ ca_group a = Object G) ->
  ca_data_format a = "channels_last" -> conv_init d tr a = Ok L0 -> List.length m = d ->
  padding_name a = Some p ->
  standardize_tuple d (ca_kernel_size a) = Ok k -> standardize_tuple d (strides_of a) = Ok s -> standardize_tuple d (dilation_of a) = Ok dl ->
  let C := if valued then g * c else c in
  ((exists L, conv_build L0 (build_shape valued bs m g c) kinit binit = Ok L) <->
   ((exists act, sub_idx G (if tr then Some "" else ca_subgroup a) act) /\
    (valued = true -> exists dom, sub_idx G (if tr then ca_subgroup a else Some "") dom /\ g = List.length dom) /\
    (exists P P', padding_init (ca_kernel_size a) d (strides_of a) (Some p) (ca_allow a) "channels_last" tr = Ok P /\
                  padding_build P (bs :: map Some m ++ [Some C]) = Ok P') /\
    (tr = false -> forall ax, ax < d -> is_same (upper p) = true \/ dilated (nth ax k 0) (nth ax dl 0) <= nth ax m 0 + nth ax s 0) /\
    kernel_fits eq k)).
Proof.
  intros DG AG AF I LM PN SK SS SD C.
  destruct (conv_init_inv G d name tr a L0 DG AG AF I) as [p0 [k0 [s0 [dl0 [Hn [PN0 [SK0 [SS0 [SD0 [PS [NE [MM [FP [_ [P [PI EL]]]]]]]]]]]]]]]].
  rewrite PN in PN0. injection PN0 as <-. rewrite SK in SK0. injection SK0 as <-. rewrite SS in SS0. injection SS0 as <-. rewrite SD in SD0. injection SD0 as <-.
  assert (NG : g_name G = name) by (apply (lib_ok _ _ DG)). pose proof (lib_name_nonempty _ _ DG) as NEG.
  destruct (std_pos _ _ _ SK) as [Lk Pk]. destruct (std_pos _ _ _ SS) as [Ls Ps]. destruct (std_pos _ _ _ SD) as [Ldl _].
  split.
  - intros [L B]. pose proof B as B0.
    destruct (conv_build_inv G d E eq OK name tr a L0 valued bs m g c kinit binit L DG AG AF I LM B)
      as [p1 [k1 [s1 [dl1 [eb [ea [act [dom [PN1 [SK1 [SS1 [SD1 [WO [SA [SDm [CF [_ [_ [RSH [P1 [PI1 PB1]]]]]]]]]]]]]]]]]]]]].
    rewrite SK in SK1. injection SK1 as <-.
    split; [exists act; exact SA|]. split; [intros V; exists dom; apply SDm; exact V|]. split.
    { rewrite PN in PN1. injection PN1 as <-. exists P1. eexists. split; [exact PI1|exact PB1]. }
    split; [|destruct CF; exact cf_fit].
    intros ->. apply (keras_shape_iff d (is_same (upper p)) (ca_filters a) k s dl bs m C LM Lk Ls Ldl Ps).
    unfold conv_build in B0. rewrite EL in B0. cbn [cl_gt] in B0.
    destruct (gt_build _ _) as [T|] eqn:GB in B0; [|discriminate B0]. cbn [bind cl_set_gt cl_format] in B0.
    assert (RT : gt_reshaped T = gt_reshaped (cl_gt L) /\ gt_transpose T = false).
    { split.
      - destruct (py_nth _ _) as [oc|] in B0; [|discriminate B0]. cbn [bind] in B0. destruct oc as [cc|]; [|discriminate B0]. cbn [bind] in B0.
        match type of B0 with (_ <- ?M ;; _) = _ => destruct M; [|discriminate B0] end. cbn [bind] in B0.
        unfold gt_build_conv in B0. match type of B0 with (_ <- (_ <- ?M ;; _) ;; _) = _ => destruct M as [bi|]; [|discriminate B0] end. cbn [bind] in B0.
        destruct (compute_transformed_kernel_indices _ _) as [ki|]; [|discriminate B0]. cbn [bind] in B0.
        match type of B0 with (_ <- ?M ;; _) = _ => destruct M; [|discriminate B0] end. cbn [bind] in B0.
        apply (f_equal (fun r => match r with Ok t => gt_reshaped (cl_gt t) | Err _ => None end)) in B0. symmetry. symmetry in B0. exact B0.
      - unfold gt_build in GB. match type of GB with (_ <- ?M ;; _) = _ => destruct M; [|discriminate GB] end. cbn [bind] in GB.
        destruct (padding_build _ _); [|discriminate GB]. cbn [bind] in GB.
        apply (f_equal (fun r => match r with Ok t => gt_transpose t | Err _ => false end)) in GB. symmetry. exact GB. }
    destruct RT as [RT TT]. rewrite TT, RT, RSH in B0. fold C in B0.
    destruct (py_nth _ _) as [oc|] in B0; [|discriminate B0]. cbn [bind] in B0. destruct oc as [cc|]; [|discriminate B0]. cbn [bind] in B0.
    unfold conv_compute_output_shape in B0. cbn [cl_gt cl_format cl_padding cl_filters cl_kernel_size cl_strides cl_dilation cl_set_gt] in B0.
    rewrite RT, RSH, TT in B0. fold C in B0. destruct (keras_conv_output_shape _ _ _ _ _ _ _ _) as [r|] in B0 |- *; [eauto|discriminate B0].
  - intros [[act SA2] [DM [[P1 [P' [PI1 PB]]] [SH KF]]]].
    rewrite PI in PI1. injection PI1 as <-.
    assert (ACTN : forall Hm idx, sub_idx G Hm idx -> forall nm, parse_subgroup G Hm = Some nm -> subgroup_get G (Some nm) = Ok idx).
    { intros Hm idx S nm Q. unfold sub_idx in S. rewrite Q in S. exact S. }
    assert (SA : subgroup_get G (Some (if tr then name else Hn)) = Ok act).
    { destruct tr; [apply (ACTN (Some ""))|apply (ACTN (ca_subgroup a))]; try exact SA2; [cbn; rewrite NG; reflexivity|exact PS]. }
    assert (SA3 : sub_idx G (Some (if tr then name else Hn)) act) by (unfold sub_idx, parse_subgroup; destruct (String.eqb_spec (if tr then name else Hn) ""); [destruct tr; contradiction|exact SA]).
    assert (DOM' : exists dom, valued = true -> subgroup_get G (Some (if tr then Hn else name)) = Ok dom /\ g = List.length dom).
    { destruct valued; [|exists []; discriminate]. destruct (DM eq_refl) as [dom [S1 S2]]. exists dom. intros _. split; [|exact S2].
      destruct tr; [apply (ACTN (ca_subgroup a))|apply (ACTN (Some ""))]; try exact S1; [exact PS|cbn; rewrite NG; reflexivity]. }
    destruct DOM' as [dom DMN].
    assert (LSH : List.length (build_shape valued bs m g c) = d + 2 + (if valued then 1 else 0)).
    { unfold build_shape. cbn [List.length]. rewrite app_length, map_length. destruct valued; cbn [List.length]; lia. }
    rewrite EL. set (Kg := gt_subgroup (cl_gt L0)). clearbody Kg. clear EL I L0.
    unfold conv_build, gt_build. cbn [cl_gt gt_dims gt_format gt_domain gt_channels_axis gt_group_axis gt_group gt_padding].
    assert (VV : (List.length (build_shape valued bs m g c) =? d + 3)%nat = valued).
    { rewrite LSH. destruct valued; [apply Nat.eqb_eq|apply Nat.eqb_neq]; lia. }
    rewrite VV. cbn [String.eqb Ascii.eqb Bool.eqb andb].
    set (cax := if valued then (Z.of_nat (d + 1) + 1)%Z else Z.of_nat (d + 1)).
    assert (CAX : cax = Z.of_nat (if valued then d + 2 else d + 1)) by (unfold cax; destruct valued; lia).
    assert (RS : (if valued
               then idx <- subgroup_get G (if valued then Some (if tr then Hn else name) else None) ;;
                    o <- py_nth (build_shape valued bs m g c) (Z.of_nat (d + 1)) ;;
                    guard (match o with Some n => (n =? List.length idx)%nat | None => false end)
                    else AssertionError ;;
                    merge_shapes (build_shape valued bs m g c) (Z.of_nat (d + 1)) cax
               else Ok (build_shape valued bs m g c)) = Ok (bs :: map Some m ++ [Some C])).
    { destruct valued; [|reflexivity]. destruct (DMN eq_refl) as [D1 D2]. rewrite D1. cbn [bind].
      rewrite (py_nth_nat _ (d + 1) None) by lia. cbn [bind].
      replace (nth (d + 1) (build_shape true bs m g c) None) with (Some g).
      - rewrite D2 at 1. rewrite Nat.eqb_refl. rewrite CAX. apply merge_static. exact LM.
      - unfold build_shape. replace (d + 1) with (S d) by lia. cbn [nth]. rewrite app_nth2 by (rewrite map_length; lia).
        rewrite map_length, LM, Nat.sub_diag. reflexivity. }
    rewrite RS. cbn [bind]. clear RS. rewrite PB. cbn [bind].
    unfold gt_set_build, cl_set_gt. cbn [gt_reshaped cl_format String.eqb Ascii.eqb Bool.eqb].
    assert (CH : py_nth (bs :: map Some m ++ [Some C]) (-1) = Ok (Some C)).
    { unfold py_nth. set (l := bs :: map Some m ++ [Some C]).
      assert (LL : List.length l = d + 2) by (unfold l; cbn [List.length]; rewrite app_length, map_length; cbn [List.length]; lia).
      replace (-1)%Z with (Z.of_nat (d + 1) - Z.of_nat (List.length l))%Z by lia. rewrite norm_axis_neg by lia. cbn [bind].
      rewrite (nth_error_nth' l None) by lia. unfold l. replace (d + 1) with (S d) by lia. cbn [nth].
      rewrite app_nth2 by (rewrite map_length; lia). rewrite map_length, LM, Nat.sub_diag. reflexivity. }
    rewrite CH. cbn [bind gt_transpose].
    match goal with |- exists L, (_ <- ?M ;; _) = _ => assert (OS : exists r, M = Ok r) end.
    { destruct tr; [eauto|]. unfold conv_compute_output_shape. cbn [cl_gt gt_reshaped gt_transpose cl_format cl_padding cl_filters cl_kernel_size cl_strides cl_dilation].
      destruct (proj2 (keras_shape_iff d (is_same (upper p)) (ca_filters a) k s dl bs m C LM Lk Ls Ldl Ps) (SH eq_refl)) as [r R]. rewrite R. cbn [bind]. eauto. }
    destruct OS as [r OS]. rewrite OS. cbn [bind]. clear OS r.
    unfold gt_build_conv. cbn [cl_kernel_size cl_filters cl_use_bias gt_bias_indices].
    set (T := mkGT _ _ _ _ _ _ _ _ _ _ _ _ _ _ _).
    assert (DO : domain_ok G T valued dom c C).
    { split; [reflexivity|]. unfold C. destruct valued; [|reflexivity]. destruct (DMN eq_refl) as [D1 D2].
      split; [|split; [exact D1|rewrite D2; reflexivity]]. unfold sub_idx, parse_subgroup. cbn [gt_domain T].
      destruct (String.eqb_spec (if tr then Hn else name) ""); [destruct tr; contradiction|exact D1]. }
    destruct (sub_idx_facts _ _ _ _ OK _ _ SA3) as [_ [_ [HA _]]].
    assert (NA : act <> []) by (intros ->; discriminate HA).
    assert (BB : match (if ca_use_bias a then Some (tab [ca_filters a] binit) else None) with
               | Some b => i <- compute_repeated_bias_indices T b ;; Ok (Some i) | None => Ok None end
          = Ok (if ca_use_bias a then Some (tab [List.length act * ca_filters a] (fun i => nth 0 i 0 mod ca_filters a)) else None)).
    { destruct (ca_use_bias a); [|reflexivity]. rewrite (repeated_bias_indices T act) by assumption. reflexivity. }
    rewrite BB. cbn [bind]. clear BB.
    destruct (kernel_indices_eq G d E eq OK T tr valued dom act c C (ca_filters a) k kinit eq_refl eq_refl eq_refl DO SA3 Lk) as [[_ KI]|[NKF _]]; [|contradiction].
    rewrite KI. cbn [bind]. cbn [gt_group_valued gt_set_indices gt_channels_axis T]. fold cax.
    match goal with |- exists L, (_ <- ?M ;; _) = _ => assert (CE : M = Ok c) end.
    { destruct valued; cbn [gt_group_valued gt_channels_axis T gt_set_indices]; [|reflexivity]. fold cax. rewrite CAX. rewrite (py_nth_nat _ (d + 2) None) by lia. cbn [bind].
      replace (nth (d + 2) (build_shape true bs m g c) None) with (Some c); [reflexivity|].
      unfold build_shape. replace (d + 2) with (S (d + 1)) by lia. cbn [nth]. rewrite app_nth2 by (rewrite map_length; lia).
      rewrite map_length. replace (d + 1 - List.length m) with 1 by lia. reflexivity. }
    rewrite CE. cbn [bind]. eauto.
Qed.

End Build.
