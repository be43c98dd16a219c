(** Convolution layers with several blocks of channels ([groups] > 1). *)
From Verif Require Export Grouped SliceFacts.
Local Open Scope string_scope.
Local Open Scope list_scope.

Section Op.
Context {A : Type} {RA : Arith A}.

Lemma grouped_last_eq d b n B C F k (X : nat -> list nat -> nat -> A) (w : tensor A) s dl padding :
  List.length n = d -> List.length s = d -> List.length dl = d -> List.length k = d -> shape w = (k ++ [C; B * F])%list ->
  0 < B -> 0 < C ->
  (forall a, a < d -> 0 < nth a k 0) -> (forall a, a < d -> 0 < nth a s 0) ->
  let ke := vzip dilated k dl in
  let pads := builtin_pads padding n ke s in
  let N := padded (map fst pads) n (map snd pads) in
  grouped_last (tab (b :: n ++ [B * C])%list (sig3 d X)) w s dl padding
  = if forallb (fun p => fst p <=? snd p)%nat (combine ke N)
    then Ok (tab (b :: outs N ke s ++ [B * F])%list
                 (sig3 d (fun bi p r => window d (csrc n s dl (map fst pads)) cterm k C (fun i q => X bi i (r / F * C + q))
                                               (fun j q r => at_ w (j ++ [q; r])%list) p r)))
    else Err BackendError.
Proof.
  intros L LS LD LK SW BP CP PK PS ke pads N.
  destruct (Nat.eq_dec B 1) as [->|NB].
  { unfold grouped_last. rewrite LS, shape_tab, SW, (chan_ix d b n (1 * C) [] L).
    replace (nth d (k ++ [C; 1 * F])%list 0) with C by (rewrite app_nth2 by lia; rewrite LK, Nat.sub_diag; reflexivity).
    rewrite Nat.mul_1_l, Nat.eqb_refl. rewrite (conv_last_eq d b n C (1 * F) k X w) by assumption.
    fold ke. fold pads. fold N. destruct (forallb _ (combine ke N)); [|reflexivity]. f_equal. rewrite Nat.mul_1_l.
    pose proof (length_outs N ke s d) as LO. apply sig3_ext.
    - apply LO; [apply length_padded; rewrite ?map_length; try assumption; apply length_builtin; try assumption; unfold ke; rewrite length_vzip; lia|unfold ke; rewrite length_vzip; lia|assumption].
    - intros bi p r _ _ R. rewrite Nat.div_small by exact R. reflexivity. }
  assert (LKE : List.length ke = d) by (unfold ke; rewrite length_vzip; lia).
  assert (LP : List.length pads = d) by (apply length_builtin; assumption).
  assert (LF : List.length (map fst pads) = d) by (rewrite map_length; exact LP).
  assert (LSn : List.length (map snd pads) = d) by (rewrite map_length; exact LP).
  assert (LN : List.length N = d) by (apply length_padded; assumption).
  unfold grouped_last. rewrite LS. rewrite rank_tab. unfold rank. rewrite SW.
  rewrite shape_tab, (chan_ix d b n (B * C) [] L).
  assert (F2 : nth d (k ++ [C; B * F])%list 0 = C) by (rewrite app_nth2 by lia; rewrite LK, Nat.sub_diag; reflexivity).
  rewrite F2. destruct (Nat.eqb_spec (B * C) C) as [Q|_]; [exfalso; nia|].
  replace (List.length (b :: n ++ [B * C])%list =? d + 2)%nat with true
    by (symmetry; apply Nat.eqb_eq; cbn [List.length]; rewrite app_length; cbn; lia).
  replace (List.length (k ++ [C; B * F])%list =? d + 2)%nat with true
    by (symmetry; apply Nat.eqb_eq; rewrite app_length; cbn; lia).
  rewrite LD, Nat.eqb_refl. cbn [andb].
  rewrite (spatial_ix d b n [B * C] L).
  assert (F1 : firstn d (k ++ [C; B * F])%list = k) by (apply firstn_app_exact; auto).
  assert (F3 : nth (d + 1) (k ++ [C; B * F])%list 0 = B * F) by (rewrite app_nth2 by lia; replace (d + 1 - List.length k) with 1 by lia; reflexivity).
  rewrite F1, F3. rewrite Nat.div_mul by lia. rewrite Nat.eqb_refl.
  replace (0 <? C)%nat with true by (symmetry; apply Nat.ltb_lt; exact CP).
  replace ((B * F) mod B =? 0)%nat with true by (symmetry; apply Nat.eqb_eq; rewrite Nat.mul_comm; apply Nat.mod_mul; lia).
  replace (B * F / B) with F by (rewrite Nat.mul_comm, Nat.div_mul by lia; reflexivity).
  cbn [andb]. fold ke. fold pads.
  replace ((0, 0) :: (pads ++ [(0, 0)])%list) with ((0, 0) :: (combine (map fst pads) (map snd pads) ++ [(0, 0)])%list)
    by (rewrite combine_split'; reflexivity).
  rewrite (pad_sig3 d) by assumption. fold N. cbn [bind].
  rewrite shape_tab, (spatial_ix d b N [B * C] LN). fold (outs N ke s).
  destruct (forallb _ (combine ke N)) eqn:FB; [|reflexivity]. f_equal. change (nth 0 (b :: n ++ [B * C]) 0) with b.
  pose proof (length_outs N ke s d LN LKE LS) as LO.
  rewrite (tab_sig3 d) by exact LO. apply sig3_ext; [exact LO|]. intros bi p r BI P R.
  pose proof (inb_length _ _ P) as LP'. rewrite LO in LP'.
  unfold window. f_equal. apply map_ext_in. intros jc I. apply In_indices in I.
  apply inb_app_split in I as [j [c [-> [J I]]]]. apply inb1 in I as [q [-> Q]]. pose proof (inb_length _ _ J) as LJ.
  rewrite firstn_app_exact by lia. rewrite app_nth2 by lia. replace (d - List.length j) with 0 by lia. change (nth 0 [q] 0) with q. change (nth 0 (bi :: p ++ [r]) 0) with bi.
  rewrite (spatial_ix d bi p [r] LP'), (chan_ix d bi p r [] LP'). rewrite <- app_assoc. cbn [app]. f_equal.
  set (v := vzip Nat.add (vzip Nat.mul p s) (vzip Nat.mul j dl)).
  assert (LV : List.length v = d) by (unfold v; rewrite !length_vzip; rewrite ?length_vzip; lia).
  assert (NV : forall a, a < d -> nth a v 0 = nth a p 0 * nth a s 0 + nth a j 0 * nth a dl 0).
  { intros a Ha. unfold v. rewrite !nth_vzip; rewrite ?length_vzip; lia. }
  pose proof (forallb_combine_le ke N d LKE LN FB) as LE.
  assert (IV : inb N v).
  { apply inb_intro; [lia|]. rewrite LN. intros a Ha. rewrite NV by exact Ha. specialize (LE a Ha).
    pose proof (inb_nth _ _ a P ltac:(lia)) as PB. rewrite (nth_outs N ke s d a) in PB by assumption.
    pose proof (inb_nth _ _ a J ltac:(lia)) as JB. unfold ke in LE, PB. rewrite nth_vzip in LE, PB by lia. unfold dilated, out_size in *.
    specialize (PS a Ha). pose proof (Nat.mul_div_le (nth a N 0 - ((nth a k 0 - 1) * nth a dl 0 + 1)) (nth a s 0) ltac:(lia)). nia. }
  assert (RB : r / F * C + q < B * C).
  { assert (F <> 0) by (intros ->; lia). assert (r / F < B) by (apply Nat.div_lt_upper_bound; lia). nia. }
  rewrite (at_sig3 d) by assumption.
  assert (S1 : csrc n s dl (map fst pads) p j =
    if inside (map fst pads) n v then Some (vzip Nat.sub v (map fst pads)) else None).
  { unfold csrc. rewrite L.
    destruct (inside (map fst pads) n v) eqn:IN.
    - pose proof (proj1 (inside_spec _ n v d LF L LV) IN) as IN'. apply wsrc_all; [rewrite length_vzip; lia|].
      intros a Ha. specialize (IN' a Ha). rewrite NV in IN' by exact Ha.
      unfold conv_src. rewrite nth_vzip by lia. rewrite NV by exact Ha.
      rewrite (proj2 (Nat.leb_le _ _) (proj1 IN')). rewrite (proj2 (Nat.ltb_lt _ (nth a n 0))) by lia. reflexivity.
    - destruct (inside_none _ n v d LF L LV IN) as [a [Ha NI]]. apply wsrc_none. exists a. split; [exact Ha|].
      rewrite NV in NI by exact Ha.
      unfold conv_src. destruct (Nat.leb_spec (nth a (map fst pads) 0) (nth a p 0 * nth a s 0 + nth a j 0 * nth a dl 0)); [|reflexivity].
      cbn [andb]. destruct (Nat.ltb_spec (nth a p 0 * nth a s 0 + nth a j 0 * nth a dl 0 - nth a (map fst pads) 0) (nth a n 0)); [lia|reflexivity]. }
  rewrite S1. unfold bordered. destruct (inside (map fst pads) n v); reflexivity.
Qed.

End Op.

Section Call.
Context {A : Type} {RA : Arith A}.
Context (G : group) (d : nat) (E : list symmetry) (eq : bool) (OK : group_ok G d E eq).
Context (valued : bool) (act dom : list nat) (c C o : nat) (k s dl eb ea : list nat)
        (same ub : bool) (f : A -> A) (kinit binit : list nat -> A).

Lemma grouped_call_eq B F0 (L : conv_layer A) (x : tensor A) b m (X : nat -> list nat -> nat -> A) :
  conv_facts G d E eq false valued act dom c C o k s dl eb ea same ub f kinit binit L ->
  List.length m = d -> merged d valued x b m (B * C) X ->
  0 < B -> 0 < C -> List.length act * o = B * F0 ->
  let K := tab (k ++ [C; o]) kinit in
  let ke := vzip dilated k dl in
  let m1 := padded eb m ea in
  let pads := builtin_pads (padding_string same) m1 ke s in
  let m2 := padded (map fst pads) m1 (map snd pads) in
  grouped_call L x =
  if forallb (fun p => fst p <=? snd p)%nat (combine ke m2)
  then (L, Ok (tab (b :: outs m2 ke s ++ [List.length act; o])
                   (sig4 d (fun bi p h oo =>
                      f (biased ub binit (window d (csrc m s dl (vzip Nat.add eb (map fst pads))) cterm k C (fun i q => X bi i ((h * o + oo) / F0 * C + q))
                                                 (kval G E valued dom act c o k C K) p (h * o + oo)) oo)))))
  else (half_done G d E false valued dom act c C o k ub kinit binit L, Err BackendError).
Proof.
  intros F LM MG BP CP AO K ke m1 pads m2.
  destruct (sub_idx_facts _ _ _ _ OK _ _ (cf_act _ _ _ _ _ _ _ _ _ _ _ _ _ _ _ _ _ _ _ _ _ _ F)) as [_ [Ba [HA _]]].
  assert (NA : act <> []) by (intros ->; discriminate HA).
  destruct F.
  assert (Lm1 : List.length m1 = d) by (apply length_padded; assumption).
  assert (LKE : List.length ke = d) by (unfold ke; rewrite length_vzip; lia).
  assert (LP : List.length pads = d) by (apply length_builtin; assumption).
  assert (Lm2 : List.length m2 = d) by (apply length_padded; rewrite ?map_length; assumption).
  assert (CK : cl_kernel L = Some K) by exact cf_kernel. clear cf_kernel.
  unfold grouped_call. rewrite CK. unfold prepare_call.
  assert (MP : merge_group_axis_and_pad (cl_gt L) x = Ok (tab (b :: m1 ++ [B * C]) (sig3 d (bordered eb m X)))).
  { unfold merge_group_axis_and_pad. pose proof cf_dom as [DV _]. rewrite DV, cf_gaxis, cf_caxis. unfold merged in MG.
    destruct valued; rewrite MG; cbn [bind]; apply cf_pads; exact LM. }
  rewrite MP. cbn [bind].
  rewrite (transform_kernel_eq G d E eq OK (cl_gt L) false valued dom act c C o k K cf_dom Ba cf_k cf_fit cf_kidx (wf_tab _ _) (shape_tab _ _)). cbn [bind].
  assert (BB : match cl_bias L with Some b => b <- repeat_bias (cl_gt L) b ;; Ok (Some b) | None => Ok None end
     = Ok (if ub then Some (tab [List.length act * o] (fun i => binit [nth 0 i 0 mod o])) else None)).
  { rewrite cf_bias. destruct ub; [|reflexivity]. rewrite (repeat_bias_eq _ act o binit (cf_bidx eq_refl)). reflexivity. }
  rewrite BB. cbn [bind]. rewrite cf_group, cf_act'. cbn [bind cl_filters cl_bias cl_set_weights]. rewrite cf_filters.
  unfold grouped_conv_call. rewrite cf_fmt', cf_strides, cf_dilation, cf_padding, cf_activation. unfold in_format. cbn [String.eqb Ascii.eqb Bool.eqb].
  fold (padding_string same).
  rewrite (grouped_last_eq d b m1 B C F0 k (bordered eb m X)); try assumption; [|rewrite shape_tab, AO; reflexivity].
  fold ke. fold pads. fold m2.
  destruct (forallb _ (combine ke m2)) eqn:FB; cbn [bind].
  2:{ reflexivity. }
  pose proof (length_outs m2 ke s d Lm2 LKE cf_s) as LO.
  rewrite <- AO. match goal with |- context[tab _ (sig3 d ?y)] => set (Y := y) end.
  pose proof (bias_activation d b (outs m2 ke s) (List.length act) (o * List.length act) ub binit o Y f LO (Nat.mul_comm _ _)) as BA.
  change (cl_bias (mkConv (cl_gt L) (cl_strides L) (cl_dilation L) (cl_kernel_size L) (cl_padding L) (cl_format L) (cl_use_bias L)
       (cl_activation L) (o * List.length act) (Some (tab (k ++ [C; List.length act * o]) (ker d (kval G E valued dom act c o k C K))))
       (if ub then Some (tab [List.length act * o] (fun i => binit [nth 0 i 0 mod o])) else None) (cl_channels L)))
    with (if ub then Some (tab [List.length act * o] (fun i => binit [nth 0 i 0 mod o])) else None).
  rewrite BA. cbn [bind].
  rewrite (restore_eq G d (cl_gt L) valued act b (outs m2 ke s) o); try assumption; [|apply cf_dom].
  f_equal.
  - rewrite set_weights_set. rewrite <- cf_filters, <- CK. apply set_weights_id.
  - f_equal. apply sig4_ext; [exact LO|]. intros bi p h oo BI P H O. unfold Y.
    assert (R : h * o + oo < List.length act * o) by nia.
    assert (RM : (h * o + oo) mod o = oo) by (rewrite Nat.add_comm, Nat.mod_add by lia; apply Nat.mod_small; exact O).
    rewrite RM. f_equal. f_equal. unfold m1.
    change (fun i q => bordered eb m X bi i ((h * o + oo) / F0 * C + q))
      with (bordered eb m (fun bi i q => X bi i ((h * o + oo) / F0 * C + q)) bi).
    rewrite (window_bordered d m s dl eb ea (map fst pads)); try assumption; [|rewrite map_length; exact LP].
    apply window_ext; [exact cf_k|reflexivity|]. intros j q J Q. apply (at_ker d); assumption.
Qed.

End Call.

(** ** Building *)

Definition set_reshaped (T : gtransforms) (r : sshape) : gtransforms :=
  mkGT (gt_dims T) (gt_transpose T) (gt_group T) (gt_subgroup T) (gt_domain T) (gt_acting T) (gt_padding T) (gt_format T)
       (gt_channels_axis T) (gt_group_axis T) (gt_group_valued T) (Some r) (gt_bias_indices T) (gt_kernel_indices T) (gt_pooling_indices T).

Lemma padding_build_channels P bs (m : list nat) C C' :
  pl_format P = "channels_last" -> pl_dims P = List.length m ->
  padding_build P (bs :: map Some m ++ [Some C]) = padding_build P (bs :: map Some m ++ [Some C']).
Proof.
  intros PF PD. unfold padding_build. rewrite PF, PD. cbn [String.eqb Ascii.eqb Bool.eqb skipn].
  rewrite !firstn_app_exact by (rewrite map_length; reflexivity). reflexivity.
Qed.

Lemma gt_build_channels T d (valued : bool) bs (m : list nat) g c c' :
  gt_dims T = d -> gt_format T = "channels_last" -> gt_channels_axis T = Z.of_nat (d + 1) -> gt_group_axis T = Z.of_nat (d + 1) ->
  pl_format (gt_padding T) = "channels_last" -> pl_dims (gt_padding T) = d -> List.length m = d ->
  gt_build T (build_shape valued bs m g c) =
  (T' <- gt_build T (build_shape valued bs m g c') ;; Ok (set_reshaped T' (bs :: map Some m ++ [Some (if valued then g * c else c)]))) /\
  forall T', gt_build T (build_shape valued bs m g c') = Ok T' ->
    gt_reshaped T' = Some (bs :: map Some m ++ [Some (if valued then g * c' else c')]) /\ gt_group_valued T' = valued /\
    gt_transpose T' = gt_transpose T /\ gt_channels_axis T' = Z.of_nat (if valued then d + 2 else d + 1) /\
    (valued = true -> exists idx, subgroup_get (gt_group T) (gt_domain T) = Ok idx /\ g = List.length idx) /\
    gt_domain T' = (if valued then gt_domain T else None) /\ gt_group T' = gt_group T.
Proof.
  intros TD TF TC TG PF PD LM. unfold gt_build. rewrite TD, TF, TC, TG. cbn [String.eqb Ascii.eqb Bool.eqb andb].
  assert (LSH : forall c, List.length (build_shape valued bs m g c) = d + 2 + (if valued then 1 else 0)).
  { intros. unfold build_shape. cbn [List.length]. rewrite app_length, map_length. destruct valued; cbn [List.length]; lia. }
  assert (VV : forall c, (List.length (build_shape valued bs m g c) =? d + 3)%nat = valued).
  { intros. rewrite LSH. destruct valued; [apply Nat.eqb_eq|apply Nat.eqb_neq]; lia. }
  rewrite !VV. replace (if valued then (Z.of_nat (d + 1) + 1)%Z else Z.of_nat (d + 1)) with (Z.of_nat (if valued then d + 2 else d + 1)) by (destruct valued; lia).
  destruct valued.
  - destruct (subgroup_get (gt_group T) (gt_domain T)) as [idx|e]; cbn [bind]; [|split; [reflexivity|intros; discriminate]].
    assert (NG : forall c, nth (d + 1) (build_shape true bs m g c) None = Some g).
    { intros c0. unfold build_shape. replace (d + 1) with (S d) by lia. cbn [nth]. rewrite app_nth2 by (rewrite map_length; lia).
      rewrite map_length, LM, Nat.sub_diag. reflexivity. }
    rewrite !(py_nth_nat _ (d + 1) None) by (rewrite LSH; lia). cbn [bind]. rewrite !NG.
    destruct (Nat.eqb_spec g (List.length idx)) as [GI|GI]; cbn [bind]; [|split; [reflexivity|intros; discriminate]].
    unfold build_shape. rewrite !(merge_static d) by exact LM. cbn [bind].
    rewrite (padding_build_channels (gt_padding T) bs m (g * c) (g * c')) by congruence.
    destruct (padding_build (gt_padding T) _) as [P'|]; cbn [bind]; [|split; [reflexivity|intros; discriminate]].
    split; [reflexivity|]. intros T' ET. apply (f_equal (fun r => match r with Ok t => t | _ => T' end)) in ET. cbv beta iota in ET. subst T'.
    repeat split; try reflexivity. intros _. exists idx. split; [reflexivity|exact GI].
  - cbn [bind]. unfold build_shape. rewrite (padding_build_channels (gt_padding T) bs m c c') by congruence.
    destruct (padding_build (gt_padding T) _) as [P'|]; cbn [bind]; [|split; [reflexivity|intros; discriminate]].
    split; [reflexivity|]. intros T' ET. apply (f_equal (fun r => match r with Ok t => t | _ => T' end)) in ET. cbv beta iota in ET. subst T'.
    repeat split; try reflexivity. intros; discriminate.
Qed.

(** ** The number of channels per element is a multiple of the number of blocks *)

Lemma resolve_nat_inv n s r : resolve_shape n (map Z.of_nat s) = Ok r -> prod s = n.
Proof.
  intros H. destruct (Nat.eq_dec (prod s) n) as [E|NE]; [exact E|exfalso].
  unfold resolve_shape in H.
  assert (F : filter (fun z => negb (z =? -1)%Z) (map Z.of_nat s) = map Z.of_nat s).
  { clear. induction s as [|x s IH]; auto. cbn [map filter].
    destruct (Z.eqb_spec (Z.of_nat x) (-1)); [lia|]. cbn [negb]. f_equal; auto. }
  rewrite F in H. destruct (forallb _ _); [|discriminate H]. cbn [bind] in H. rewrite Nat.sub_diag in H.
  assert (M : map Z.to_nat (map Z.of_nat s) = s) by (rewrite map_map; erewrite map_ext; [apply map_id|intros; apply Nat2Z.id]).
  rewrite M in H. destruct (Nat.eqb_spec (prod s) n); [contradiction|discriminate H].
Qed.

Lemma split_divides {B} {ZB : Zero B} k q o g (f : list nat -> B) y :
  0 < prod k -> 0 < o -> 0 < g -> split_axes (tab (k ++ [q; o]) f) g (-2) = Ok y -> exists t, q = g * t.
Proof.
  intros PK PO PG. set (t := tab (k ++ [q; o]) f).
  assert (RK : rank t = List.length k + 2) by (unfold t; rewrite rank_tab, app_length; cbn [List.length]; lia).
  replace (-2)%Z with (Z.of_nat (List.length k) - Z.of_nat (rank t))%Z by (rewrite RK; lia).
  rewrite split_axes_neg by lia. unfold t, split_axes, split_axes_st. rewrite shape_tab.
  rewrite split_shapes_known by (rewrite ?app_length; cbn [List.length]; lia). cbn [bind]. rewrite format_batch_Some.
  rewrite app_nth2, Nat.sub_diag by lia. cbn [nth]. unfold reshape. rewrite length_data_tab.
  destruct (resolve_shape _ _) as [r|] eqn:R; [|discriminate]. intros _. apply resolve_nat_inv in R.
  rewrite prod_insert_at in R. change (k ++ [q; o]) with (k ++ q :: [o]) in R. rewrite upd_app in R. rewrite !prod_app in R.
  change (prod (q / g :: [o])) with (q / g * (o * 1)) in R. change (prod (q :: [o])) with (q * (o * 1)) in R.
  exists (q / g). assert (0 < prod k * o) by nia. rewrite !Nat.mul_1_r in R.
  assert (R2 : prod k * o * q = prod k * o * (g * (q / g))) by lia. apply Nat.mul_cancel_l in R2; lia.
Qed.

Section Build.
Context {A : Type} {RA : Arith A}.

Lemma gt_build_conv_reshaped T r (K : tensor A) b :
  gt_build_conv (set_reshaped T r) K b = (T' <- gt_build_conv T K b ;; Ok (set_reshaped T' r)).
Proof.
  unfold gt_build_conv.
  assert (E1 : forall b, compute_repeated_bias_indices (A := A) (set_reshaped T r) b = compute_repeated_bias_indices T b) by reflexivity.
  assert (E2 : compute_transformed_kernel_indices (set_reshaped T r) K = compute_transformed_kernel_indices T K) by reflexivity.
  rewrite E2. destruct b as [b|].
  - rewrite E1. destruct (compute_repeated_bias_indices T b); cbn [bind]; [|reflexivity].
    destruct (compute_transformed_kernel_indices T K); reflexivity.
  - change (gt_bias_indices (set_reshaped T r)) with (gt_bias_indices T). cbn [bind].
    destruct (compute_transformed_kernel_indices T K); reflexivity.
Qed.

Definition widen (L : conv_layer A) (r : sshape) (c : nat) : conv_layer A := cl_set_channels (cl_set_gt L (set_reshaped (cl_gt L) r)) (Some c).

Lemma py_nth_last {B} (l : list B) v : py_nth (l ++ [v]) (-1) = Ok v.
Proof.
  unfold py_nth. assert (LL : List.length (l ++ [v]) = S (List.length l)) by (rewrite app_length; cbn [List.length]; lia).
  replace (-1)%Z with (Z.of_nat (List.length l) - Z.of_nat (List.length (l ++ [v])))%Z by lia.
  rewrite norm_axis_neg by lia. cbn [bind]. rewrite nth_error_app2 by lia. rewrite Nat.sub_diag. reflexivity.
Qed.

(** A layer with [B] blocks has the same weights as the layer for a [B]th part of the channels. *)
Lemma grouped_build_eq B (L0 : conv_layer A) d (valued : bool) bs m g c kinit binit :
  gt_dims (cl_gt L0) = d -> gt_format (cl_gt L0) = "channels_last" -> cl_format L0 = "channels_last" ->
  gt_channels_axis (cl_gt L0) = Z.of_nat (d + 1) -> gt_group_axis (cl_gt L0) = Z.of_nat (d + 1) ->
  gt_transpose (cl_gt L0) = false ->
  pl_format (gt_padding (cl_gt L0)) = "channels_last" -> pl_dims (gt_padding (cl_gt L0)) = d -> List.length m = d -> 0 < B ->
  grouped_build B L0 (build_shape valued bs m g (B * c)) kinit binit =
  (L <- conv_build L0 (build_shape valued bs m g c) kinit binit ;;
   Ok (widen L (bs :: map Some m ++ [Some (if valued then g * (B * c) else B * c)]) (B * c))).
Proof.
  intros TD TF LF TC TG TT PF PD LM BP. unfold grouped_build, conv_build.
  destruct (gt_build_channels (cl_gt L0) d valued bs m g (B * c) c TD TF TC TG PF PD LM) as [GB GT]. rewrite GB.
  destruct (gt_build (cl_gt L0) (build_shape valued bs m g c)) as [T|e]; cbn [bind]; [|reflexivity].
  destruct (GT T eq_refl) as [RS [GV [GTR [GC _]]]]. clear GB GT. rewrite GTR, TT.
  change (cl_format (cl_set_gt L0 (set_reshaped T (bs :: map Some m ++ [Some (if valued then g * (B * c) else B * c)])))) with (cl_format L0).
  change (cl_format (cl_set_gt L0 T)) with (cl_format L0). rewrite LF, RS. cbn [String.eqb Ascii.eqb Bool.eqb].
  change (gt_reshaped (set_reshaped T (bs :: map Some m ++ [Some (if valued then g * (B * c) else B * c)])))
    with (Some (bs :: map Some m ++ [Some (if valued then g * (B * c) else B * c)])). cbv iota.
  rewrite !app_comm_cons, !py_nth_last. cbn [bind].
  assert (DV : (if valued then g * (B * c) else B * c) = (if valued then g * c else c) * B) by (destruct valued; lia). rewrite DV.
  rewrite Nat.mod_mul by lia. rewrite Nat.div_mul by lia. cbn [Nat.eqb].
  set (C := if valued then g * c else c).
  assert (CO : conv_compute_output_shape (cl_set_gt L0 (set_reshaped T ((bs :: map Some m) ++ [Some (C * B)])))
             = conv_compute_output_shape (cl_set_gt L0 T)).
  { unfold conv_compute_output_shape. cbn [cl_gt cl_set_gt gt_reshaped set_reshaped]. rewrite RS.
    unfold keras_conv_output_shape. cbn [cl_set_gt cl_kernel_size cl_format cl_filters cl_padding cl_strides cl_dilation gt_transpose set_reshaped].
    rewrite LF. cbn [String.eqb Ascii.eqb Bool.eqb app List.length skipn nth]. rewrite !app_length. cbn [List.length].
    destruct (Nat.eqb_spec (S (List.length (map (@Some nat) m) + 1)) (List.length (cl_kernel_size L0) + 2)) as [Q|Q]; cbn [bind]; [|reflexivity].
    rewrite !firstn_app_exact by lia. reflexivity. }
  rewrite CO. destruct (conv_compute_output_shape (cl_set_gt L0 T)); cbn [bind]; [|reflexivity].
  rewrite gt_build_conv_reshaped. cbn [cl_set_gt cl_kernel_size cl_filters cl_use_bias cl_set_weights].
  destruct (gt_build_conv T _ _) as [T2|] eqn:BC; cbn [bind]; [|reflexivity].
  assert (T2V : gt_group_valued T2 = valued /\ gt_channels_axis T2 = gt_channels_axis T).
  { unfold gt_build_conv in BC. match type of BC with (_ <- ?M ;; _) = _ => destruct M; [|discriminate BC] end. cbn [bind] in BC.
    destruct (compute_transformed_kernel_indices T _) as [ki|]; [|discriminate BC]. cbn [bind] in BC.
    apply (f_equal (fun r => match r with Ok t => t | _ => T2 end)) in BC. cbv beta iota in BC. subst T2. split; [exact GV|reflexivity]. }
  destruct T2V as [V2 C2]. change (gt_group_valued (set_reshaped T2 ((bs :: map Some m) ++ [Some (C * B)]))) with (gt_group_valued T2).
  change (gt_channels_axis (set_reshaped T2 ((bs :: map Some m) ++ [Some (C * B)]))) with (gt_channels_axis T2).
  rewrite V2, C2, GC. destruct valued.
  - assert (LSH : forall c, List.length (build_shape true bs m g c) = d + 3)
      by (intros; unfold build_shape; cbn [List.length]; rewrite app_length, map_length; cbn [List.length]; lia).
    assert (NC : forall c, nth (d + 2) (build_shape true bs m g c) None = Some c).
    { intros c0. unfold build_shape. replace (d + 2) with (S (d + 1)) by lia. cbn [nth]. rewrite app_nth2 by (rewrite map_length; lia).
      rewrite map_length. replace (d + 1 - List.length m) with 1 by lia. reflexivity. }
    rewrite !(py_nth_nat _ (d + 2) None) by (rewrite LSH; lia). cbn [bind]. rewrite !NC. cbn [bind].
    unfold widen. cbn [cl_set_channels cl_set_weights cl_set_gt cl_gt]. reflexivity.
  - cbn [bind]. unfold widen. cbn [cl_set_channels cl_set_weights cl_set_gt cl_gt]. unfold C. rewrite (Nat.mul_comm c B). reflexivity.
Qed.

Lemma grouped_build_divides B (L0 : conv_layer A) d (valued : bool) bs m g c kinit binit L :
  gt_dims (cl_gt L0) = d -> gt_format (cl_gt L0) = "channels_last" -> cl_format L0 = "channels_last" ->
  gt_channels_axis (cl_gt L0) = Z.of_nat (d + 1) -> gt_group_axis (cl_gt L0) = Z.of_nat (d + 1) ->
  gt_transpose (cl_gt L0) = false ->
  pl_format (gt_padding (cl_gt L0)) = "channels_last" -> pl_dims (gt_padding (cl_gt L0)) = d -> List.length m = d -> 0 < B ->
  0 < prod (cl_kernel_size L0) -> 0 < cl_filters L0 ->
  (forall idx, subgroup_get (gt_group (cl_gt L0)) (gt_domain (cl_gt L0)) = Ok idx -> idx <> []) ->
  grouped_build B L0 (build_shape valued bs m g c) kinit binit = Ok L -> exists c', c = B * c'.
Proof.
  intros TD TF LF TC TG TT PF PD LM BP KP FP GP H. unfold grouped_build in H.
  destruct (gt_build_channels (cl_gt L0) d valued bs m g c c TD TF TC TG PF PD LM) as [_ GT].
  destruct (gt_build (cl_gt L0) (build_shape valued bs m g c)) as [T|e]; cbn [bind] in H; [|discriminate H].
  destruct (GT T eq_refl) as [RS [GV [GTR [GC [GD [DM GG]]]]]]. clear GT.
  change (cl_format (cl_set_gt L0 T)) with (cl_format L0) in H. rewrite LF, RS in H. cbn [String.eqb Ascii.eqb Bool.eqb] in H.
  rewrite app_comm_cons, py_nth_last in H. cbn [bind] in H.
  set (C := if valued then g * c else c) in *.
  destruct (Nat.eqb_spec (C mod B) 0) as [DV|]; [|discriminate H]. cbn [bind] in H.
  assert (CQ : C = B * (C / B)) by (apply Nat.div_exact; [lia|exact DV]).
  destruct valued; [|exists (C / B); exact CQ].
  destruct (conv_compute_output_shape _); [|discriminate H]. cbn [bind] in H.
  cbn [cl_set_gt cl_kernel_size cl_filters cl_use_bias cl_set_weights] in H.
  destruct (gt_build_conv T _ _) as [T2|] eqn:BC; [|discriminate H].
  unfold gt_build_conv in BC. match type of BC with (_ <- ?M ;; _) = _ => destruct M; [|discriminate BC] end. cbn [bind] in BC.
  destruct (compute_transformed_kernel_indices T _) as [ki|] eqn:KI; [|discriminate BC].
  unfold compute_transformed_kernel_indices in KI. rewrite GTR, TT in KI. cbn [bind] in KI. rewrite index_tensor_tab, shape_tab in KI. cbn [bind] in KI.
  rewrite GV in KI. cbn [negb] in KI. destruct (GD eq_refl) as [idx [SI GI]]. rewrite GG, DM, SI in KI. cbn [bind] in KI.
  destruct (split_axes _ _ _) as [y|] eqn:SP; [|discriminate KI].
  assert (GQ : 0 < g) by (rewrite GI; specialize (GP idx SI); destruct idx; [contradiction|cbn [List.length]; lia]).
  apply split_divides in SP as [t Q]; [|exact KP|exact FP|rewrite <- GI; exact GQ].
  exists t. rewrite <- GI in Q. unfold C in *. nia.
Qed.

End Build.
