(** C69: every equivariant convolution is computed by a layer, for exactly one kernel. *)
From Verif Require Import CompleteFacts TranslationFacts Properties_Layers.
Local Open Scope string_scope.
Local Open Scope list_scope.

Section Complete.
Context {A : Type} {RA : Arith A}.

(** A layer is the ordinary convolution with the transformed kernel [W]. *)
Lemma as_one_convolution G d E eq (OK : group_ok G d E eq) valued act dom c C o k s dl eb ea same ub f kinit binit
  (L : conv_layer A) (W : tensor A) (x : tensor A) b m g :
  conv_facts G d E eq false valued act dom c C o k s dl eb ea same ub f kinit binit L -> cl_channels L = Some c ->
  C = (if valued then g * c else c) -> shape W = k ++ [C; List.length act * o] ->
  (forall j q h r, inb k j -> q < C -> h < List.length act -> r < o ->
     at_ W (j ++ [q; h * o + r]) = kval G E valued dom act c o k C (tab (k ++ [C; o]) kinit) j q (h * o + r)) ->
  List.length m = d -> wf x -> shape x = signal_shape valued b m g c ->
  exists xp, padding_call (gt_padding (cl_gt L)) (merged_signal valued c g x b m) = Ok xp /\
  apply L x = (y <- base_conv_call false "channels_last" s dl (padding_string same) (List.length act * o) f W
                      (if ub then Some (tab [List.length act * o] (fun i => binit [nth 0 i 0 mod o])) else None) xp ;;
               Ok (last_axis_split (List.length act) o y)).
Proof.
  intros CF CH CC SW HW LM WX SX.
  pose proof (merged_input d valued x b m g c WX LM SX) as MG. rewrite <- CC in MG.
  unfold apply. rewrite (conv_apply_call G d E eq false valued act dom c C o k s dl eb ea same ub f kinit binit L x b m g CF CH LM SX).
  rewrite (conv_call_eq G d E eq OK valued act dom c C o k s dl eb ea same ub f kinit binit L x b m _ CF LM MG).
  rewrite (merged_signal_eq d valued c g x b m WX LM SX), <- CC. set (X := merged_fun valued x c) in *.
  destruct CF. rewrite (cf_pads b m C X LM). eexists. split; [reflexivity|].
  set (ke := vzip dilated k dl). set (m1 := padded eb m ea). set (pads := builtin_pads (padding_string same) m1 ke s).
  set (m2 := padded (map fst pads) m1 (map snd pads)). cbv zeta.
  assert (Lm1 : List.length m1 = d) by (apply length_padded; assumption).
  assert (LKE : List.length ke = d) by (unfold ke; rewrite length_vzip; lia).
  assert (LP : List.length pads = d) by (apply length_builtin; assumption).
  assert (Lm2 : List.length m2 = d) by (apply length_padded; rewrite ?map_length; assumption).
  unfold base_conv_call, in_format. cbn [String.eqb Ascii.eqb Bool.eqb].
  rewrite (conv_last_eq d b m1 C (List.length act * o) k (bordered eb m X)); try assumption.
  fold ke. fold pads. fold m2.
  destruct (forallb _ (combine ke m2)); cbn [bind snd]; [|reflexivity].
  pose proof (length_outs m2 ke s d Lm2 LKE cf_s) as LO.
  rewrite (bias_activation d b (outs m2 ke s) (List.length act) (List.length act * o) ub binit o) by (assumption || reflexivity).
  cbn [bind]. rewrite split_last by exact LO. f_equal. apply sig4_ext; [exact LO|]. intros bi p h r B P Hh R.
  destruct (split_ok o h r R) as [_ ->]. f_equal. f_equal. unfold m1.
  rewrite (window_bordered d m s dl eb ea (map fst pads)); try assumption; [|rewrite map_length; exact LP].
  apply window_ext; [exact cf_k|reflexivity|]. intros j q J Q. symmetry. apply HW; assumption.
Qed.

(** An equivariant kernel is determined by its filters for the identity. *)
Lemma equivariant_kernel G d E eq (OK : group_ok G d E eq) (one : A) (NE : neutral one)
  (valued : bool) H act dom g c C o k (W : tensor A) :
  sub_idx G (Some H) act -> (valued = true -> sub_idx G (Some "") dom /\ g = List.length dom) ->
  C = (if valued then g * c else c) -> List.length k = d -> kernel_fits eq k -> (forall a, a < d -> 0 < nth a k 0) ->
  shape W = k ++ [C; List.length act * o] ->
  (forall x, wf x -> shape x = signal_shape valued 1 k g c ->
     commutes_at (if valued then transforms_of_group_signal G d H "" else transforms_of_grid_signal G d H)
                 (transforms_of_group_signal G d H H) (convolve valued d g c (List.length act) o W) x) ->
  forall j q h r, inb k j -> q < C -> h < List.length act -> r < o ->
    at_ W (j ++ [q; h * o + r])
    = at_ W (pixel (nth (nth h act 0) E []) k j ++ [moved_chan G valued (nth h act 0) dom c q; r]).
Proof.
  intros SA SD CC L KF PK SW CM j q h r J Q Hh R.
  destruct (sub_idx_facts _ _ _ _ OK _ _ SA) as [ND [BD [HD _]]].
  assert (ST : forall u, In u act -> stable G u act) by (intros u U; apply (stable_of G d _ _ OK (Some H)); assumption).
  set (u := nth h act 0). assert (IU : In u act) by (apply nth_In; exact Hh). pose proof (BD u IU) as BU.
  assert (SW' : valued = true -> sub_idx G (Some "") dom /\ g = List.length dom /\ forall v, In v act -> stable G v dom).
  { intros V. destruct (SD V) as [D1 D2]. split; [exact D1|]. split; [exact D2|]. intros v IV.
    rewrite (whole_dom _ _ _ _ _ OK D1). apply (stable_whole _ _ _ _ OK), BD. exact IV. }
  assert (FK : fit d eq k) by (split; [exact KF|exact L]).
  set (j0 := pixel (nth u E []) k j). set (q0 := moved_chan G valued u dom c q).
  assert (J0 : inb k j0) by (apply (pixel_in G d E eq OK); assumption).
  assert (MC : forall q', q' < C -> moved_chan G valued u dom c q' < C).
  { intros q' Q'. unfold moved_chan. rewrite CC in *. destruct valued; [|exact Q']. destruct (SW' eq_refl) as [_ [-> S]].
    apply chan_lt; [apply S; exact IU|exact Q']. }
  assert (MI : forall q', q' < C -> moved_chan G valued u dom c q' = q0 -> q' = q).
  { intros q' Q' M. unfold q0, moved_chan in M. rewrite CC in Q, Q'. destruct valued; [|exact M].
    destruct (SW' eq_refl) as [D1 [GD S]]. rewrite GD in Q, Q'. destruct (sub_idx_facts _ _ _ _ OK _ _ D1) as [NDd [Bd _]].
    apply (chan_inj G d E eq OK u dom c); try assumption. apply S. exact IU. }
  assert (Q0 : q0 < C) by (apply MC; exact Q).
  set (x := signal_from valued d 1 k g c (fun _ => spot one j0 q0)).
  assert (WX : wf x) by apply wf_signal_from. assert (SX : shape x = signal_shape valued 1 k g c) by apply shape_signal_from.
  pose proof (convolve_kernel_sized valued d k g c (List.length act) o W x L PK ltac:(rewrite SW, CC; reflexivity) WX SX) as CX.
  (* the transformed signals *)
  assert (TX : exists gx, (if valued then transforms_of_group_signal G d H "" else transforms_of_grid_signal G d H) x = Ok gx).
  { unfold transforms_of_group_signal, transforms_of_grid_signal, spatial_axes, group_axis, x, signal_from. destruct valued.
    - destruct (SW' eq_refl) as [D1 [GD S]].
      destruct (group_slices_ok G d E eq OK 1 k g c (fun _ p h r => spot one j0 q0 p (h * c + r)) (Some H) (Some "") act dom SA D1 GD FK S) as [gx [T _]].
      exists gx. exact T.
    - destruct (grid_slices_ok G d E eq OK 1 k c (fun _ => spot one j0 q0) None (Some H) act SA FK) as [gx [T _]]. exists gx. exact T. }
  destruct TX as [gx TX].
  assert (AX : action G x (map Z.of_nat (seq 1 d)) 0 (if valued then Some (Z.of_nat (d + 1)) else None) (Some H) (if valued then Some "" else None) = Ok gx)
    by (destruct valued; exact TX).
  destruct (moved_input G d E eq OK valued x gx 1 k g c act dom (Some H) (Some "") SA SW' WX L SX AX) as [_ [SG MV]].
  destruct (CM x WX SX gx _ TX CX) as [gy [TY [SY CU]]].
  rewrite SG in CU. cbn [nth] in CU. specialize (CU h Hh).
  destruct (MV h Hh) as [X' [MG [WU [SU XX]]]].
  rewrite SX in SU.
  rewrite (convolve_kernel_sized valued d k g c (List.length act) o W (slice 0 h gx) L PK ltac:(rewrite SW, CC; reflexivity) WU SU) in CU.
  assert (L1 : List.length (repeat 1 d) = d) by apply repeat_length.
  destruct (group_slices G d E eq OK 1 (repeat 1 d) (List.length act) o _ (Some H) (Some H) act act gy SA SA eq_refl L1 ST TY) as [FO [_ SL]].
  rewrite (SL h Hh) in CU.
  assert (EY : forall y z : tensor A, Ok y = Ok z -> y = z) by congruence. apply EY in CU.
  assert (I0 : inb (repeat 1 d) (repeat 0 d)) by (clear; induction d as [|d' IH]; [apply inb_nil|cbn [repeat]; apply inb_cons; split; [lia|exact IH]]).
  apply (f_equal (fun t => at_ t (0 :: repeat 0 d ++ [h; r]))) in CU.
  rewrite !(at_sig4 d) in CU by (assumption || lia). unfold moved4 in CU. fold u in CU.
  (* the input is only read at the pixels of the kernel *)
  assert (PX : pixel (nth u E []) (repeat 1 d) (repeat 0 d) = repeat 0 d).
  { pose proof (pixel_in G d E eq OK u (repeat 1 d) (repeat 0 d) BU FO I0) as PI.
    apply (nth_ext _ _ 0 0); [rewrite (inb_length _ _ PI), !repeat_length; reflexivity|]. intros a Ha.
    rewrite (inb_length _ _ PI), repeat_length in Ha. pose proof (inb_nth _ _ a PI ltac:(rewrite repeat_length; exact Ha)) as Q9.
    rewrite nth_repeat1 in Q9 by exact Ha. rewrite nth_repeat. lia. }
  rewrite PX in CU.
  assert (T0 : turned G u act h = 0).
  { unfold turned. fold u. rewrite (group_inv_l _ _ _ (ok_is_group _ _ _ _ OK) u BU).
    destruct act as [|z act']; [discriminate HD|]. cbn [hd_error] in HD. injection HD as ->. reflexivity. }
  rewrite T0, Nat.mul_0_l, Nat.add_0_l in CU.
  assert (MF : forall bi p q', bi < 1 -> inb k p -> q' < C -> merged_fun valued (slice 0 h gx) c bi p q' = X' bi p q').
  { intros bi p q' B P Q'. pose proof (merged_input d valued (slice 0 h gx) 1 k g c WU L SU) as MG'.
    assert (TT : tab (1 :: k ++ [C]) (sig3 d (merged_fun valued (slice 0 h gx) c)) = tab (1 :: k ++ [C]) (sig3 d X')).
    { apply EY. rewrite CC. unfold merged in MG, MG'. destruct valued; rewrite <- MG, <- MG'; reflexivity. }
    apply (f_equal (fun t => at_ t (bi :: p ++ [q']))) in TT. rewrite !(at_sig3 d) in TT by assumption. exact TT. }
  rewrite <- CC in CU.
  rewrite (window_spot one NE d _ k C _ _ (repeat 0 d) (h * o + r) j q L J Q) in CU.
  - rewrite (window_spot one NE d _ k C _ _ (repeat 0 d) r j0 q0 L J0 Q0) in CU; [exact CU|].
    intros j' q' J' Q'. rewrite (csrc_kernel_sized d k j' L J'). cbn [option_map]. f_equal.
    unfold x. rewrite merged_signal_from by (try assumption; try lia; rewrite <- CC; exact Q'). reflexivity.
  - intros j' q' J' Q'. rewrite (csrc_kernel_sized d k j' L J'). cbn [option_map]. f_equal.
    rewrite MF by (assumption || lia). rewrite CC in Q'. rewrite (XX 0 j' q' Q'). rewrite <- CC in Q'. fold u.
    pose proof (pixel_in G d E eq OK u k j' BU FK J') as PJ. pose proof (MC q' Q') as MQ.
    unfold x. rewrite merged_signal_from by (try assumption; try lia; rewrite <- CC; exact MQ).
    destruct (list_eq_dec Nat.eq_dec j' j) as [->|NJ]; [destruct (Nat.eq_dec q' q) as [->|NQ]|].
    + fold j0 q0. rewrite !spot_same. reflexivity.
    + rewrite (spot_other one j q) by (right; exact NQ). apply spot_other. right. intros M. apply NQ, MI; assumption.
    + rewrite (spot_other one j q) by (left; exact NJ). apply spot_other. left. intros M. apply NJ.
      apply (pixel_injective d (nth u E []) k); try assumption; [apply (sym_ok G d E eq OK); exact BU|apply (fits_sym G d E eq OK); assumption].
Qed.

Lemma identity_kernel G d E eq (OK : group_ok G d E eq) (valued : bool) act dom g c C o k kinit (W : tensor A) :
  (forall a, In a act -> a < List.length E) -> (valued = true -> sub_idx G (Some "") dom /\ g = List.length dom) ->
  C = (if valued then g * c else c) -> List.length k = d -> kernel_fits eq k ->
  (forall j q r, inb k j -> q < C -> r < o -> kinit (j ++ [q; r]) = at_ W (j ++ [q; r])) ->
  (forall j q h r, inb k j -> q < C -> h < List.length act -> r < o ->
    at_ W (j ++ [q; h * o + r])
    = at_ W (pixel (nth (nth h act 0) E []) k j ++ [moved_chan G valued (nth h act 0) dom c q; r])) ->
  forall j q h r, inb k j -> q < C -> h < List.length act -> r < o ->
     at_ W (j ++ [q; h * o + r]) = kval G E valued dom act c o k C (tab (k ++ [C; o]) kinit) j q (h * o + r).
Proof.
  intros BD SD CC L KF KI HW j q h r J Q Hh R. rewrite HW by assumption.
  unfold kval, kidx, kernel_src. destruct (split_ok o h r R) as [-> ->]. set (u := nth h act 0).
  assert (BU : u < List.length E) by (apply BD, nth_In; exact Hh).
  assert (PJ : inb k (pixel (nth u E []) k j)) by (apply (pixel_in G d E eq OK); try assumption; split; assumption).
  assert (MC : moved_chan G valued u dom c q < C /\ chan_from G valued dom c u q = Some (moved_chan G valued u dom c q)).
  { unfold moved_chan, chan_from. rewrite CC in *. destruct valued; [|split; [exact Q|reflexivity]].
    destruct (SD eq_refl) as [D1 GD].
    assert (S : stable G u dom) by (rewrite (whole_dom _ _ _ _ _ OK D1); apply (stable_whole _ _ _ _ OK); exact BU).
    rewrite GD in Q |- *. split; [apply chan_lt; assumption|]. unfold seen_from, chan, turned.
    destruct (div_ok _ _ _ Q) as [_ [Q1 _]]. specialize (S (q / c) Q1). rewrite (proj2 (mem_In _ _) S). reflexivity. }
  destruct MC as [MQ ->]. cbn [option_map].
  rewrite <- KI by assumption.
  change (kinit (pixel (nth u E []) k j ++ [moved_chan G valued u dom c q; r])
    = at_ (tab (k ++ [C; o]) kinit) (pixel (nth u E []) k j ++ [moved_chan G valued u dom c q; r])).
  rewrite at_tab; [reflexivity|]. apply inb_app; [exact PJ|]. apply inb_cons. split; [exact MQ|]. apply inb_cons. split; [exact R|apply inb_nil].
Qed.

Lemma complete_at name G d E eq (OK : group_ok G d E eq) (one : A) (a : conv_args A) H opt (valued : bool) bs m g c kinit binit L k s dl act W :
  neutral one ->
  layer_for name G a -> ca_subgroup a = Some H -> option_of a opt -> subgroup_indices G H act ->
  let o := ca_filters a in
  let n := List.length act in
  let C := if valued then g * c else c in
  built d false a (static_signal_shape valued bs m g c) kinit binit L -> List.length m = d -> sizes d a k s dl ->
  shape W = k ++ [C; n * o] ->
  (forall x, wf x -> shape x = signal_shape valued 1 k g c ->
     commutes_at (if valued then transforms_of_group_signal G d H "" else transforms_of_grid_signal G d H)
                 (transforms_of_group_signal G d H H) (convolve valued d g c n o W) x) ->
  (forall j q r, inb k j -> q < C -> r < o -> kinit (j ++ [q; r]) = at_ W (j ++ [q; r])) ->
  exists P, padding_of a false d bs m C P /\
    forall x b m', wf x -> List.length m' = d -> shape x = signal_shape valued b m' g c ->
    exists xp, padding_call P (merged_signal valued c g x b m') = Ok xp /\
    apply L x = (y <- base_conv_call false "channels_last" s dl (backend_padding opt) (n * o) (ca_activation a) W
                        (if ca_use_bias a then Some (tab [n * o] (fun i => binit [nth 0 i 0 mod o])) else None) xp ;;
                 Ok (last_axis_split n o y)).
Proof.
  intros NE LF HS OP SI o n C B Lm SZ SW CM KI.
  destruct (built_facts_at name G d E eq a H opt false valued bs m g c kinit binit L k s dl OK LF HS OP B Lm SZ)
    as [eb [ea [act' [dom [WO [SA [SD [CF [CC [KS [RS PO]]]]]]]]]]]. fold C in CF, PO. fold o in CF.
  assert (act' = act) as -> by (unfold sub_idx, subgroup_indices in *; congruence). fold n in CF.
  exists (gt_padding (cl_gt L)). split; [exact PO|]. intros x b m' WX Lm' SX.
  pose proof (cf_k _ _ _ _ _ _ _ _ _ _ _ _ _ _ _ _ _ _ _ _ _ _ CF) as Lk.
  pose proof (cf_fit _ _ _ _ _ _ _ _ _ _ _ _ _ _ _ _ _ _ _ _ _ _ CF) as KF.
  pose proof (cf_kpos _ _ _ _ _ _ _ _ _ _ _ _ _ _ _ _ _ _ _ _ _ _ CF) as Pk.
  destruct (sub_idx_facts _ _ _ _ OK _ _ SA) as [_ [BD _]].
  pose proof (equivariant_kernel G d E eq OK one NE valued H act dom g c C o k W SA SD eq_refl Lk KF Pk SW CM) as HW.
  apply (as_one_convolution G d E eq OK valued act dom c C o k s dl eb ea (is_same opt) (ca_use_bias a) (ca_activation a) kinit binit
    L W x b m' g CF CC eq_refl SW); try assumption.
  apply (identity_kernel G d E eq OK valued act dom g c C o k kinit W BD SD eq_refl Lk KF KI HW).
Qed.

(** If the ordinary convolution with the kernel [W], with n filters for each of the [o]
    channels of its output, commutes with the action of the subgroup [H] on the signals of the
    size of the kernel, then it is what the layer computes whose initial kernel consists of the
    filters of [W] for the identity: for all inputs, padding options, strides, dilations,
    activations and biases. *)
Theorem C69_every_equivariant_convolution_is_a_layer name G (one : A) (a : conv_args A) H opt (valued : bool) bs m g c kinit binit L k s dl act W :
  neutral one ->
  layer_for name G a -> ca_subgroup a = Some H -> option_of a opt -> subgroup_indices G H act ->
  let d := dimension_of name in
  let o := ca_filters a in
  let n := List.length act in
  let C := if valued then g * c else c in
  built d false a (static_signal_shape valued bs m g c) kinit binit L -> List.length m = d -> sizes d a k s dl ->
  shape W = k ++ [C; n * o] ->
  (forall x, wf x -> shape x = signal_shape valued 1 k g c ->
     commutes_at (if valued then transforms_of_group_signal G d H "" else transforms_of_grid_signal G d H)
                 (transforms_of_group_signal G d H H) (convolve valued d g c n o W) x) ->
  (forall j q r, inb k j -> q < C -> r < o -> kinit (j ++ [q; r]) = at_ W (j ++ [q; r])) ->
  exists P, padding_of a false d bs m C P /\
    forall x b m', wf x -> List.length m' = d -> shape x = signal_shape valued b m' g c ->
    exists xp, padding_call P (merged_signal valued c g x b m') = Ok xp /\
    apply L x = (y <- base_conv_call false "channels_last" s dl (backend_padding opt) (n * o) (ca_activation a) W
                        (if ca_use_bias a then Some (tab [n * o] (fun i => binit [nth 0 i 0 mod o])) else None) xp ;;
                 Ok (last_axis_split n o y)).
Proof.
  intros NE LF. pose proof LF as [DG _]. apply lib_ok in DG as [_ OK]. intros HS OP SI d o n C.
  exact (complete_at name G d _ _ OK one a H opt valued bs m g c kinit binit L k s dl act W NE LF HS OP SI).
Qed.

Lemma repeat_fits d eq v : fit d eq (repeat v d).
Proof. split; [|apply repeat_length]. intros _ x y U V. apply repeat_spec in U, V. congruence. Qed.

Lemma equivariant_kernels_at name G d E eq (OK : group_ok G d E eq) (one : A) (a : conv_args A) H opt (valued : bool) bs m g c kinit binit L k s dl act (W : tensor A) :
  neutral one -> (forall u v w : A, add u (add v w) = add v (add u w)) ->
  layer_for name G a -> ca_subgroup a = Some H -> option_of a opt -> subgroup_indices G H act ->
  let o := ca_filters a in
  let n := List.length act in
  let C := if valued then g * c else c in
  built d false a (static_signal_shape valued bs m g c) kinit binit L -> List.length m = d -> sizes d a k s dl ->
  wf W -> shape W = k ++ [C; n * o] ->
  (forall x, wf x -> shape x = signal_shape valued 1 k g c ->
     commutes_at (if valued then transforms_of_group_signal G d H "" else transforms_of_grid_signal G d H)
                 (transforms_of_group_signal G d H H) (convolve valued d g c n o W) x) <->
  transform_kernel (cl_gt L) (tab (k ++ [C; o]) (at_ W)) = Ok W.
Proof.
  intros NE AC LF HS OP SI o n C B Lm SZ WW SW.
  destruct (built_facts_at name G d E eq a H opt false valued bs m g c kinit binit L k s dl OK LF HS OP B Lm SZ)
    as [eb [ea [act' [dom [WO [SA [SD [CF [CC [KS [RS PO]]]]]]]]]]]. fold C in CF, PO. fold o in CF.
  assert (act' = act) as -> by (unfold sub_idx, subgroup_indices in *; congruence). fold n in CF.
  destruct CF. destruct (sub_idx_facts _ _ _ _ OK _ _ SA) as [ND [BD _]].
  set (K := tab (k ++ [C; o]) (at_ W)).
  rewrite (transform_kernel_eq G d E eq OK (cl_gt L) false valued dom act c C o k K cf_dom BD cf_k cf_fit cf_kidx (wf_tab _ _) (shape_tab _ _)).
  fold n. split.
  - intros CM.
    pose proof (equivariant_kernel G d E eq OK one NE valued H act dom g c C o k W SA SD eq_refl cf_k cf_fit cf_kpos SW CM) as HW.
    pose proof (identity_kernel G d E eq OK valued act dom g c C o k (at_ W) W BD SD eq_refl cf_k cf_fit ltac:(reflexivity) HW) as KV.
    f_equal. apply tensor_ext; [apply wf_tab|exact WW|rewrite SW; apply shape_tab|]. intros i I. rewrite shape_tab in I.
    apply inbk_inv in I as [j [q [r [-> [J [Q R]]]]]]. rewrite (at_ker d) by assumption.
    destruct (div_ok _ _ _ R) as [O [R1 R2]].
    assert (RR : r = r / o * o + r mod o) by (rewrite (Nat.mul_comm (r / o)); apply Nat.div_mod; exact O).
    rewrite RR. symmetry. apply KV; assumption.
  - intros QW x WX SX gx y TX CX.
    assert (EY : forall u v : tensor A, Ok u = Ok v -> u = v) by congruence. apply EY in QW.
    assert (ST : forall u, In u act -> stable G u act) by (intros u U; apply (stable_of G d _ _ OK (Some H)); assumption).
    assert (SD' : valued = true -> sub_idx G (Some "") dom /\ g = List.length dom /\ forall v, In v act -> stable G v dom).
    { intros V. destruct (SD V) as [D1 D2]. split; [exact D1|]. split; [exact D2|]. intros v IV.
      rewrite (whole_dom _ _ _ _ _ OK D1). apply (stable_whole _ _ _ _ OK), BD. exact IV. }
    assert (AX : action G x (map Z.of_nat (seq 1 d)) 0 (if valued then Some (Z.of_nat (d + 1)) else None) (Some H) (if valued then Some "" else None) = Ok gx)
      by (destruct valued; exact TX).
    destruct (moved_input G d E eq OK valued x gx 1 k g c act dom (Some H) (Some "") SA SD' WX cf_k SX AX) as [FK [SG MV]].
    rewrite (convolve_kernel_sized valued d k g c n o W x cf_k cf_kpos SW WX SX) in CX. apply EY in CX. subst y.
    match goal with |- context[sig4 d ?F] => set (Y := F) end.
    destruct (group_slices_ok G d E eq OK 1 (repeat 1 d) n o Y (Some H) (Some H) act act SA SA eq_refl (repeat_fits d eq 1) ST) as [gy [TY [SY SL]]].
    exists gy. split; [exact TY|]. split; [rewrite SY, SG; reflexivity|]. intros u U. rewrite SG in U. cbn [nth] in U.
    rewrite (SL u U). destruct (MV u U) as [X' [MG [WU [SU XX]]]]. rewrite SX in SU.
    rewrite (convolve_kernel_sized valued d k g c n o W (slice 0 u gx) cf_k cf_kpos SW WU SU). fold C. f_equal.
    apply sig4_ext; [apply repeat_length|]. intros bi p h r BI P Hh R. unfold moved4, Y.
    assert (MF : forall p q', inb k p -> q' < C -> merged_fun valued (slice 0 u gx) c bi p q' = X' bi p q').
    { intros p' q' P' Q'. pose proof (merged_input d valued (slice 0 u gx) 1 k g c WU cf_k SU) as MG'.
      assert (TT : tab (1 :: k ++ [C]) (sig3 d (merged_fun valued (slice 0 u gx) c)) = tab (1 :: k ++ [C]) (sig3 d X')).
      { apply EY. unfold C. unfold merged in MG, MG'. destruct valued; rewrite <- MG, <- MG'; reflexivity. }
      apply (f_equal (fun t => at_ t (bi :: p' ++ [q']))) in TT. rewrite !(at_sig3 d) in TT by assumption. exact TT. }
    set (u' := nth u act 0) in *. assert (IU : In u' act) by (apply nth_In; exact U).
    pose proof (conv_out_moved G d E eq OK valued act dom c C o k (repeat 1 d) (repeat 1 d) false (fun v => v) (fun _ => zero) K AC u' k (repeat 1 d) (repeat 0 d)
      (merged_fun valued x c) (merged_fun valued (slice 0 u gx) c) bi p h r) as CO.
    unfold conv_out, biased in CO.
    assert (WK : forall (X : list nat -> nat -> A) p r, r < n * o -> window d (csrc k (repeat 1 d) (repeat 1 d) (repeat 0 d)) cterm k C X (fun j q r => at_ W (j ++ [q; r])) p r
       = window d (csrc k (repeat 1 d) (repeat 1 d) (repeat 0 d)) cterm k C X (kval G E valued dom act c o k C K) p r).
    { intros X p' r' R'. apply window_ext; [exact cf_k|reflexivity|]. intros j q J Q. rewrite <- QW at 1. apply (at_ker d); assumption. }
    pose proof (turned_lt G u' act h (ST u' IU) Hh) as TH.
    rewrite !WK by (unfold n in *; nia). apply CO; try assumption; try apply repeat_fits.
    + constructor; [apply BD; exact IU|split; [exact ND|split; [exact BD|apply ST; exact IU]]|].
      intros V. destruct (SD' V) as [D1 [D2 D3]]. destruct (sub_idx_facts _ _ _ _ OK _ _ D1) as [ND' [Bd _]].
      split; [exact ND'|]. split; [exact Bd|]. split; [apply D3; exact IU|]. unfold C. rewrite V, D2. reflexivity.
    + intros b0 Hb _. unfold mirrored. rewrite nth_repeat1, nth_repeat by exact Hb. specialize (cf_kpos b0 Hb). lia.
    + intros i q I Q. rewrite MF by assumption. apply XX. exact Q.
Qed.

(** The kernels of equivariant convolutions are the transformed kernels: the ordinary
    convolution with [W] commutes with the action of the subgroup [H] if and only if the layer
    transforms the filters of [W] for the identity into [W]. *)
Theorem C69_equivariant_kernels name G (one : A) (a : conv_args A) H opt (valued : bool) bs m g c kinit binit L k s dl act (W : tensor A) :
  neutral one -> (forall u v w : A, add u (add v w) = add v (add u w)) ->
  layer_for name G a -> ca_subgroup a = Some H -> option_of a opt -> subgroup_indices G H act ->
  let d := dimension_of name in
  let o := ca_filters a in
  let n := List.length act in
  let C := if valued then g * c else c in
  built d false a (static_signal_shape valued bs m g c) kinit binit L -> List.length m = d -> sizes d a k s dl ->
  wf W -> shape W = k ++ [C; n * o] ->
  (forall x, wf x -> shape x = signal_shape valued 1 k g c ->
     commutes_at (if valued then transforms_of_group_signal G d H "" else transforms_of_grid_signal G d H)
                 (transforms_of_group_signal G d H H) (convolve valued d g c n o W) x) <->
  transform_kernel (cl_gt L) (tab (k ++ [C; o]) (at_ W)) = Ok W.
Proof.
  intros NE AC LF. pose proof LF as [DG _]. apply lib_ok in DG as [_ OK]. intros HS OP SI d o n C.
  exact (equivariant_kernels_at name G d _ _ OK one a H opt valued bs m g c kinit binit L k s dl act W NE AC LF HS OP SI).
Qed.

Lemma same_total_small n ke s : 0 < s -> same_total n ke s <= ke.
Proof.
  intros P. unfold same_total. pose proof (Nat.mul_div_le (n + s - 1) s ltac:(lia)). lia.
Qed.

(** An input large enough for a window that lies inside it. *)
Definition roomy (ke eb s : list nat) : list nat := vzip Nat.add (vzip Nat.mul (vzip Nat.add eb ke) s) ke.

Lemma redundant_at name G d E eq (OK : group_ok G d E eq) (one : A) (a : conv_args A) H opt (valued : bool) bs m g c kinit kinit' binit binit' L L' k s dl :
  neutral one -> (forall u v w : A, add u w = add v w -> u = v) -> (forall u v, ca_activation a u = ca_activation a v -> u = v) ->
  layer_for name G a -> ca_subgroup a = Some H -> option_of a opt ->
  let o := ca_filters a in
  let C := if valued then g * c else c in
  built d false a (static_signal_shape valued bs m g c) kinit binit L ->
  built d false a (static_signal_shape valued bs m g c) kinit' binit' L' -> List.length m = d -> sizes d a k s dl ->
  (forall x m', wf x -> List.length m' = d -> shape x = signal_shape valued 1 m' g c -> apply L x = apply L' x) ->
  (forall j q r, inb k j -> q < C -> r < o -> kinit (j ++ [q; r]) = kinit' (j ++ [q; r])) /\
  (ca_use_bias a = true -> forall r, r < o -> binit [r] = binit' [r]).
Proof.
  intros NE AK AJ LF HS OP o C B B' Lm SZ SAME.
  destruct (slice_at name G d E eq a H opt valued bs m g c kinit binit L k s dl OK LF HS OP B Lm SZ) as [P [KT [PO [RK [K0 SL]]]]].
  destruct (slice_at name G d E eq a H opt valued bs m g c kinit' binit' L' k s dl OK LF HS OP B' Lm SZ) as [P' [KT' [PO' [RK' [K0' SL']]]]].
  fold C in PO, RK, K0, SL, PO', RK', K0', SL'. fold o in PO, RK, K0, SL, PO', RK', K0', SL'.
  destruct (built_facts_at name G d E eq a H opt false valued bs m g c kinit binit L k s dl OK LF HS OP B Lm SZ)
    as [eb [ea [act [dom [_ [SA [SD [CF [_ [_ [_ PO'']]]]]]]]]]]. fold C in CF, PO''. fold o in CF.
  assert (PP : forall Q Q', padding_of a false d bs m C Q -> padding_of a false d bs m C Q' -> Q = Q').
  { intros Q Q' [P0 [I1 B1]] [P1 [I2 B2]]. rewrite I1 in I2. injection I2 as <-. rewrite B1 in B2. injection B2 as <-. reflexivity. }
  assert (P' = P) as -> by (apply PP; assumption). pose proof (PP _ _ PO'' PO) as GP. clear PO' PO'' PP.
  assert (KN : forall (kinit : list nat -> A) (KT : tensor A), kernel_transforms G d valued (Some H) (Some "") (kernel_signal valued k g c o (initial_kernel false k C o kinit)) = Ok KT ->
    0 < nth d (shape KT) 0).
  { intros ki KTi RKi. pose proof (cf_k _ _ _ _ _ _ _ _ _ _ _ _ _ _ _ _ _ _ _ _ _ _ CF) as Lk.
    pose proof (cf_fit _ _ _ _ _ _ _ _ _ _ _ _ _ _ _ _ _ _ _ _ _ _ CF) as KF.
    destruct (kval_slices G d _ _ OK valued act dom (Some H) (Some "") c C o k g (initial_kernel false k C o ki) SA SD eq_refl Lk KF (wf_tab _ _)) as [KT2 [RK2 [_ [SKT _]]]].
    assert (EY : forall y z : tensor A, Ok y = Ok z -> y = z) by congruence.
    assert (KT2 = KTi) as -> by (apply EY; etransitivity; [symmetry; exact RK2|exact RKi]). rewrite SKT, app_nth2 by lia. rewrite Lk, Nat.sub_diag. cbn [nth].
    destruct (sub_idx_facts _ _ _ _ OK _ _ SA) as [_ [_ [HD _]]]. destruct act; [discriminate HD|]. cbn [List.length]. lia. }
  pose proof (KN _ _ RK) as N0. pose proof (KN _ _ RK') as N0'. clear KN.
  destruct CF. rewrite GP in cf_pads. clear cf_kidx cf_bidx cf_kernel cf_bias.
  set (ke := vzip dilated k dl). assert (LKE : List.length ke = d) by (unfold ke; rewrite length_vzip; lia).
  set (m' := roomy ke eb s). set (p := vzip Nat.add eb ke).
  assert (LPp : List.length p = d) by (unfold p; rewrite length_vzip; lia).
  assert (LM : List.length m' = d) by (unfold m', roomy; rewrite !length_vzip; rewrite ?length_vzip; rewrite ?length_vzip; lia).
  assert (NP : forall a0, a0 < d -> nth a0 p 0 = nth a0 eb 0 + nth a0 ke 0) by (intros a0 H0; unfold p; rewrite nth_vzip by lia; reflexivity).
  assert (NM : forall a0, a0 < d -> nth a0 m' 0 = nth a0 p 0 * nth a0 s 0 + nth a0 ke 0).
  { intros a0 H0. unfold m', roomy. fold p. rewrite !nth_vzip; rewrite ?length_vzip; lia. }
  set (m1 := padded eb m' ea). assert (Lm1 : List.length m1 = d) by (apply length_padded; assumption).
  set (bp := backend_padding opt) in *.
  set (pads := builtin_pads bp m1 ke s). assert (LP : List.length pads = d) by (apply length_builtin; assumption).
  assert (LF1 : List.length (map fst pads) = d) by (rewrite map_length; exact LP).
  assert (LF2 : List.length (map snd pads) = d) by (rewrite map_length; exact LP).
  set (m2 := padded (map fst pads) m1 (map snd pads)). assert (Lm2 : List.length m2 = d) by (apply length_padded; assumption).
  assert (BP : forall a0, a0 < d -> nth a0 (map fst pads) 0 <= nth a0 ke 0).
  { intros a0 H0. change 0 with (fst (0, 0)) at 1. rewrite map_nth. unfold pads. rewrite (nth_builtin bp m1 ke s d a0) by assumption.
    unfold backend_pads. destruct (bp =? "same"); [|cbn [fst]; lia]. unfold same_pads. cbn [fst].
    pose proof (same_total_small (nth a0 m1 0) (nth a0 ke 0) (nth a0 s 0) (cf_spos a0 H0)).
    pose proof (Nat.div_le_upper_bound (same_total (nth a0 m1 0) (nth a0 ke 0) (nth a0 s 0)) 2 (same_total (nth a0 m1 0) (nth a0 ke 0) (nth a0 s 0)) ltac:(lia) ltac:(lia)). lia. }
  assert (M1 : forall a0, a0 < d -> nth a0 m' 0 <= nth a0 m2 0).
  { intros a0 H0. unfold m2, m1. rewrite !(nth_padded _ _ _ d) by assumption. lia. }
  assert (FB : forallb (fun q => fst q <=? snd q)%nat (combine ke m2) = true).
  { apply (forallb_combine_le_iff ke m2 d LKE Lm2). intros a0 H0. specialize (M1 a0 H0). specialize (NM a0 H0). lia. }
  pose proof (length_outs m2 ke s d Lm2 LKE cf_s) as LO.
  assert (IP : inb (outs m2 ke s) p).
  { apply inb_intro; [lia|]. rewrite LO. intros a0 H0. rewrite (nth_outs m2 ke s d a0) by assumption. unfold out_size.
    specialize (M1 a0 H0). rewrite NM in M1 by exact H0. pose proof (cf_spos a0 H0).
    pose proof (Nat.div_le_lower_bound (nth a0 m2 0 - nth a0 ke 0) (nth a0 s 0) (nth a0 p 0) ltac:(lia) ltac:(lia)). lia. }
  set (before := vzip Nat.add eb (map fst pads)).
  (* the sources of the window *)
  set (src := fun j => vzip Nat.sub (vzip Nat.add (vzip Nat.mul p s) (vzip Nat.mul j dl)) before).
  assert (LB : List.length before = d) by (unfold before; rewrite length_vzip; lia).
  assert (NS : forall j a0, inb k j -> a0 < d -> nth a0 before 0 <= nth a0 p 0 * nth a0 s 0 /\
     nth a0 (src j) 0 = nth a0 p 0 * nth a0 s 0 + nth a0 j 0 * nth a0 dl 0 - nth a0 before 0 /\ nth a0 (src j) 0 < nth a0 m' 0).
  { intros j a0 J H0. pose proof (inb_length _ _ J) as LJ. pose proof (inb_nth _ _ a0 J ltac:(lia)) as JB.
    assert (NB : nth a0 before 0 = nth a0 eb 0 + nth a0 (map fst pads) 0) by (unfold before; rewrite nth_vzip by lia; reflexivity).
    specialize (BP a0 H0). pose proof (cf_spos a0 H0) as PS. rewrite (NP a0 H0) in *.
    assert (Q1 : nth a0 before 0 <= (nth a0 eb 0 + nth a0 ke 0) * nth a0 s 0) by nia. split; [exact Q1|].
    assert (Q2 : nth a0 (src j) 0 = (nth a0 eb 0 + nth a0 ke 0) * nth a0 s 0 + nth a0 j 0 * nth a0 dl 0 - nth a0 before 0).
    { unfold src. rewrite !nth_vzip; rewrite ?length_vzip; rewrite ?length_vzip; try lia. rewrite NP by exact H0. reflexivity. }
    split; [exact Q2|]. rewrite Q2, (NM a0 H0), (NP a0 H0).
    assert (Q3 : nth a0 j 0 * nth a0 dl 0 < nth a0 ke 0) by (unfold ke; rewrite nth_vzip by lia; unfold dilated; nia). lia. }
  assert (CS : forall j, inb k j -> csrc m' s dl before p j = Some (src j)).
  { intros j J. pose proof (inb_length _ _ J) as LJ. unfold csrc. rewrite LM. apply wsrc_all.
    { unfold src. rewrite !length_vzip; rewrite ?length_vzip; rewrite ?length_vzip; lia. }
    intros a0 H0. destruct (NS j a0 J H0) as [Q1 [Q2 Q3]]. rewrite Q2 in *. unfold conv_src.
    rewrite (proj2 (Nat.leb_le _ _)) by lia. rewrite (proj2 (Nat.ltb_lt _ _)) by lia. reflexivity. }
  assert (IS : forall j, inb k j -> inb m' (src j)).
  { intros j J. pose proof (inb_length _ _ J) as LJ. apply inb_intro.
    { unfold src. rewrite !length_vzip; rewrite ?length_vzip; rewrite ?length_vzip; lia. }
    rewrite LM. intros a0 H0. apply (NS j a0 J H0). }
  assert (DP : forall a0, a0 < d -> 0 < nth a0 dl 0).
  { destruct SZ as [_ [_ SZ]]. apply (std_pos d _ _ SZ). }
  assert (SJ : forall j j', inb k j -> inb k j' -> src j = src j' -> j = j').
  { intros j j' J J' Q. apply (nth_ext _ _ 0 0); [rewrite (inb_length _ _ J), (inb_length _ _ J'); reflexivity|]. intros a0 H0.
    rewrite (inb_length _ _ J), cf_k in H0. destruct (NS j a0 J H0) as [Q1 [Q2 _]]. destruct (NS j' a0 J' H0) as [_ [Q2' _]].
    rewrite Q in Q2. specialize (DP a0 H0). nia. }
  (* outputs of both layers *)
  assert (OUT : forall D r, r < o ->
    let v := fun ki => window d (csrc m' s dl before) cterm k C (fun i q => merged_fun valued (signal_from valued d 1 m' g c (fun _ => D)) c 0 i q)
                              (fun j q r => ki (j ++ [q; r])) p r in
    biased (ca_use_bias a) binit (v kinit) r = biased (ca_use_bias a) binit' (v kinit') r).
  { intros D r R v. set (x := signal_from valued d 1 m' g c (fun _ => D)).
    assert (WX : wf x) by apply wf_signal_from. assert (SX : shape x = signal_shape valued 1 m' g c) by apply shape_signal_from.
    destruct (SL x 1 m' WX LM SX) as [xp [XP SLx]]. destruct (SL' x 1 m' WX LM SX) as [xp' [XP' SLx']].
    assert (EY : forall y z : tensor A, Ok y = Ok z -> y = z) by congruence.
    rewrite XP in XP'. apply EY in XP'. subst xp'. specialize (SLx 0 N0). specialize (SLx' 0 N0'). rewrite K0 in SLx. rewrite K0' in SLx'.
    rewrite <- (SAME x m' WX LM SX), <- SLx in SLx'. clear SLx.
    rewrite (merged_signal_eq d valued c g x 1 m' WX LM SX) in XP. fold C in XP. set (X := merged_fun valued x c) in *.
    rewrite (cf_pads 1 m' C X LM) in XP. apply EY in XP. subst xp. fold m1 in SLx'.
    assert (ONE : forall ki bi, base_conv_call false "channels_last" s dl bp o (ca_activation a) (initial_kernel false k C o ki) (initial_bias a bi)
        (tab (1 :: m1 ++ [C]) (sig3 d (bordered eb m' X)))
      = Ok (tab (1 :: outs m2 ke s ++ [o]) (sig3 d (fun b0 p r => ca_activation a (biased (ca_use_bias a) bi
           (window d (csrc m1 s dl (map fst pads)) cterm k C (bordered eb m' X b0) (fun j q r => at_ (initial_kernel false k C o ki) (j ++ [q; r])) p r) r))))).
    { intros ki bi. unfold base_conv_call, in_format. cbn [String.eqb Ascii.eqb Bool.eqb].
      rewrite (conv_last_eq d 1 m1 C o k (bordered eb m' X)); try assumption; [|apply shape_tab]. fold ke. fold pads. fold m2. rewrite FB. cbn [bind].
      unfold initial_bias. fold o. rewrite (bias_activation1 d o (ca_use_bias a) (ca_activation a) bi) by exact LO. reflexivity. }
    rewrite !ONE in SLx'. apply EY in SLx'. apply (f_equal (fun t => at_ t (0 :: p ++ [r]))) in SLx'.
    rewrite !(at_sig3 d) in SLx' by (assumption || lia). apply AJ in SLx'.
    rewrite !(window_bordered d m' s dl eb ea (map fst pads)) in SLx' by assumption. fold before in SLx'.
    assert (IK : forall ki, window d (csrc m' s dl before) cterm k C (X 0) (fun j q r => at_ (initial_kernel false k C o ki) (j ++ [q; r])) p r = v ki).
    { intros ki. unfold v. apply window_ext; [exact cf_k|reflexivity|]. intros j q J Q. unfold initial_kernel.
      rewrite at_tab; [reflexivity|]. apply inb_app; [exact J|]. apply inb_cons. split; [exact Q|]. apply inb_cons. split; [exact R|apply inb_nil]. }
    rewrite !IK in SLx'. symmetry. exact SLx'. }
  assert (SUM0 : forall {T} (l : list T), sum (map (fun _ => zero) l) = (zero : A)).
  { intros T l. induction l as [|t l IH]; [reflexivity|]. unfold sum in *. cbn [map fold_right]. rewrite IH. apply (zero_add _ NE). }
  assert (BI : ca_use_bias a = true -> forall r, r < o -> binit [r] = binit' [r]).
  { intros UB r R. specialize (OUT (fun _ _ => zero) r R). cbv zeta in OUT. unfold biased in OUT. rewrite UB in OUT.
    assert (Z : forall W, window d (csrc m' s dl before) cterm k C
       (fun i q => merged_fun valued (signal_from valued d 1 m' g c (fun _ _ _ => zero)) c 0 i q) W p r = zero).
    { intros W. unfold window. etransitivity; [|apply (SUM0 _ (indices (k ++ [C])))]. f_equal. apply map_ext_in. intros jc I. apply In_indices in I.
      apply inb_app_split in I as [j [qq [-> [J I]]]]. apply inb1 in I as [q [-> Q]]. pose proof (inb_length _ _ J) as LJ.
      rewrite firstn_app_exact by lia. rewrite app_nth2 by lia. replace (d - List.length j) with 0 by lia. change (nth 0 [q] 0) with q.
      rewrite (CS j J). cbn [option_map]. unfold cterm. cbn [or_zero].
      rewrite merged_signal_from by (try assumption; try lia; apply IS; exact J). apply (zero_mul _ NE). }
    rewrite !Z, !(zero_add _ NE) in OUT. exact OUT. }
  split; [|exact BI]. intros j q r J Q R.
  specialize (OUT (spot one (src j) q) r R). cbv beta zeta in OUT.
  assert (WS : forall W, window d (csrc m' s dl before) cterm k C
     (fun i q' => merged_fun valued (signal_from valued d 1 m' g c (fun _ => spot one (src j) q)) c 0 i q') W p r = W j q r).
  { intros W. apply (window_spot one NE); try assumption. intros j' q' J' Q'. rewrite (CS j' J'). cbn [option_map]. f_equal.
    rewrite merged_signal_from by (try assumption; try lia; apply IS; exact J').
    destruct (list_eq_dec Nat.eq_dec j' j) as [->|NJ]; [destruct (Nat.eq_dec q' q) as [->|NQ]|].
    - rewrite !spot_same. reflexivity.
    - rewrite !spot_other by (right; exact NQ). reflexivity.
    - rewrite (spot_other one j q) by (left; exact NJ). apply spot_other. left. intros M. apply NJ, SJ; assumption. }
  rewrite !WS in OUT. unfold biased in OUT. destruct (ca_use_bias a); [|exact OUT]. rewrite (BI eq_refl r R) in OUT. apply AK in OUT. exact OUT.
Qed.

(** No weight is redundant: if two layers built from the same arguments return the same for all
    inputs, then they have the same initial kernel and, if they use one, the same bias. *)
Theorem C69_no_weight_is_redundant name G (one : A) (a : conv_args A) H opt (valued : bool) bs m g c kinit kinit' binit binit' L L' k s dl :
  neutral one -> (forall u v w : A, add u w = add v w -> u = v) -> (forall u v, ca_activation a u = ca_activation a v -> u = v) ->
  layer_for name G a -> ca_subgroup a = Some H -> option_of a opt ->
  let d := dimension_of name in
  let o := ca_filters a in
  let C := if valued then g * c else c in
  built d false a (static_signal_shape valued bs m g c) kinit binit L ->
  built d false a (static_signal_shape valued bs m g c) kinit' binit' L' -> List.length m = d -> sizes d a k s dl ->
  (forall x m', wf x -> List.length m' = d -> shape x = signal_shape valued 1 m' g c -> apply L x = apply L' x) ->
  (forall j q r, inb k j -> q < C -> r < o -> kinit (j ++ [q; r]) = kinit' (j ++ [q; r])) /\
  (ca_use_bias a = true -> forall r, r < o -> binit [r] = binit' [r]).
Proof.
  intros NE AK AJ LF. pose proof LF as [DG _]. apply lib_ok in DG as [_ OK]. intros HS OP d o C.
  exact (redundant_at name G d _ _ OK one a H opt valued bs m g c kinit kinit' binit binit' L L' k s dl NE AK AJ LF HS OP).
Qed.
End Complete.
Print Assumptions C69_every_equivariant_convolution_is_a_layer.
Print Assumptions C69_equivariant_kernels.
Print Assumptions C69_no_weight_is_redundant.

(** The integers, and the four rotations of a kernel of 2x2 pixels. *)
Lemma neutral_Z : neutral 1%Z.
Proof.
  constructor; intros w; [exact (Z.mul_1_l w)|exact (Z.mul_0_l w)|exact (Z.add_0_l w)|exact (Z.add_0_r w)].
Qed.

Definition edge_args : conv_args Z :=
  mkConvArgs (ByName "P4") (Some "") (One 2) 1 None (Some (Some "valid_equiv")) None "channels_last" false true (fun v => v).
Definition edge_layer (kinit : list nat -> Z) : result (conv_layer Z) :=
  test_layer 2 false edge_args [None; Some 3; Some 3; Some 1] kinit (fun _ => 5%Z).
(** Pixel by pixel, the four filters. *)
Definition four_rotations : tensor Z := mkTensor [2; 2; 1; 4] [1; 2; 4; 3;  2; 4; 3; 1;  3; 1; 2; 4;  4; 3; 1; 2]%Z.
Definition two_exchanged : tensor Z := mkTensor [2; 2; 1; 4] [1; 4; 2; 3;  2; 3; 4; 1;  3; 2; 1; 4;  4; 1; 3; 2]%Z.
Definition commuting_kernel (W : tensor Z) : Prop :=
  forall x, wf x -> shape x = [1; 2; 2; 1] ->
  commutes_at (transforms_of_grid_signal P4 2 "") (transforms_of_group_signal P4 2 "" "") (convolve false 2 1 1 4 1 W) x.

Lemma edge_kernels (W : tensor Z) : wf W -> shape W = [2; 2; 1; 4] ->
  exists L, edge_layer (at_ W) = Ok L /\ (commuting_kernel W <-> transform_kernel (cl_gt L) (tab [2; 2; 1; 1] (at_ W)) = Ok W).
Proof.
  intros WW SW.
  assert (Q : match edge_layer (at_ W) with Ok _ => true | Err _ => false end = true) by (vm_compute; reflexivity).
  pose proof (test_layer_built 2 false edge_args [None; Some 3; Some 3; Some 1] (at_ W) (fun _ => 5%Z)) as TB. fold (edge_layer (at_ W)) in TB.
  destruct (edge_layer (at_ W)) as [L|]; [|discriminate Q]. exists L. split; [reflexivity|]. specialize (TB L eq_refl).
  assert (LF : layer_for "P4" P4 edge_args) by (split; [vm_compute; reflexivity|split; [left; reflexivity|reflexivity]]).
  assert (OP : option_of edge_args "VALID_EQUIV") by (exists "valid_equiv"; split; reflexivity).
  assert (SI : subgroup_indices P4 "" [0; 1; 2; 3]) by (vm_compute; reflexivity).
  exact (C69_equivariant_kernels "P4" P4 1%Z edge_args "" "VALID_EQUIV" false None [3; 3] 1 1 (at_ W) (fun _ => 5%Z) L [2; 2] [1; 1] [1; 1] [0; 1; 2; 3] W
    neutral_Z ltac:(intros u v w; cbn; lia) LF eq_refl OP SI TB eq_refl ltac:(repeat split) WW SW).
Qed.

Example C69_case_kernels : commuting_kernel four_rotations /\ ~ commuting_kernel two_exchanged.
Proof.
  split.
  - destruct (edge_kernels four_rotations eq_refl eq_refl) as [L [EL IFF]]. apply IFF.
    assert (Q : match edge_layer (at_ four_rotations) with Ok L => same_result (transform_kernel (cl_gt L) (tab [2; 2; 1; 1] (at_ four_rotations))) (Ok four_rotations) | Err _ => false end = true)
      by (vm_compute; reflexivity).
    rewrite EL in Q. destruct (transform_kernel (cl_gt L) (tab [2; 2; 1; 1] (at_ four_rotations))) as [W|]; [|discriminate Q].
    f_equal. apply same_tensor_ok. exact Q.
  - destruct (edge_kernels two_exchanged eq_refl eq_refl) as [L [EL IFF]]. intros C. apply IFF in C.
    assert (Q : match edge_layer (at_ two_exchanged) with Ok L => same_result (transform_kernel (cl_gt L) (tab [2; 2; 1; 1] (at_ two_exchanged))) (Ok two_exchanged) | Err _ => true end = false)
      by (vm_compute; reflexivity).
    rewrite EL, C in Q. cbn [same_result] in Q. rewrite (proj2 (same_tensor_ok _ _) eq_refl) in Q. discriminate Q.
Qed.

(** Its layer, with bias 5, on one image of 3x3 pixels. *)
Example C69_case_values :
  match edge_layer (at_ four_rotations) with
  | Ok L => match apply L (some_signal [1; 3; 3; 1]), base_conv_call false "channels_last" [1; 1] [1; 1] "valid" 4 (fun v => v) four_rotations
                    (Some (mkTensor [4] [5; 5; 5; 5]%Z)) (some_signal [1; 3; 3; 1]) with
            | Ok y, Ok z => Some (shape y, data y, list_eqb Z.eqb (data y) (data z)) | _, _ => None end
  | Err _ => None end
  = Some ([1; 2; 2; 4; 1], [58; 71; 62; 49; 182; 209; 158; 131; 63; 61; 47; 49; 187; 199; 143; 131]%Z, true).
Proof. vm_compute. reflexivity. Qed.

(** Weights of a layer whose activation forgets everything are redundant, so the hypothesis
    on the activation cannot be dropped. *)
Example C69_case_constant_activation :
  let a := mkConvArgs (ByName "P4") (Some "") (One 1) 1 None None None "channels_last" false false (fun _ => 7%Z) in
  match test_layer 2 false a [None; Some 1; Some 1; Some 1] (fun _ => 1%Z) (fun _ => 0%Z), test_layer 2 false a [None; Some 1; Some 1; Some 1] (fun _ => 2%Z) (fun _ => 0%Z) with
  | Ok L, Ok L' => same_result (apply L (some_signal [1; 1; 1; 1])) (apply L' (some_signal [1; 1; 1; 1]))
  | _, _ => false end = true.
Proof. vm_compute. reflexivity. Qed.
