(** C23, C24, C25, C28: how a group convolution relates to an ordinary one.
    [valued]: the input is a signal on the group (shape batch, m, g, c), not on the
    grid (batch, m, c).  [C] is the number of channels after the group axis has been
    merged into the channels. *)
From Verif Require Import SliceFacts.
Local Open Scope string_scope.
Local Open Scope list_scope.

Section Layers.
Context {A : Type} {RA : Arith A}.

(** The three theorems of C23, for any dimension in which the group acts. *)
Lemma slice_at name G d E eq (a : conv_args A) H opt (valued : bool) bs m g c kinit binit L k s dl :
  group_ok G d E eq ->
  layer_for name G a -> ca_subgroup a = Some H -> option_of a opt ->
  let o := ca_filters a in
  let C := if valued then g * c else c in
  let K := initial_kernel false k C o kinit in
  built d false a (static_signal_shape valued bs m g c) kinit binit L -> List.length m = d -> sizes d a k s dl ->
  exists P KT,
    padding_of a false d bs m C P /\
    kernel_transforms G d valued (Some H) (Some "") (kernel_signal valued k g c o K) = Ok KT /\
    kernel_slice d k C o KT 0 = K /\
    forall x b m', wf x -> List.length m' = d -> shape x = signal_shape valued b m' g c ->
    exists xp, padding_call P (merged_signal valued c g x b m') = Ok xp /\
    forall h, h < nth d (shape KT) 0 ->
      base_conv_call false "channels_last" s dl (backend_padding opt) o (ca_activation a)
        (kernel_slice d k C o KT h) (initial_bias a binit) xp
      = (y <- apply L x ;; Ok (slice (d + 1) h y)).
Proof.
  intros OK LF HS OP o C K B Lm SZ.
  destruct (built_facts_at name G d E eq a H opt false valued bs m g c kinit binit L k s dl OK LF HS OP B Lm SZ)
    as [eb [ea [act [dom [WO [SA [SD [CF [CC [KS [RS PO]]]]]]]]]]]. fold C in CF, PO. fold o in CF.
  pose proof (cf_k _ _ _ _ _ _ _ _ _ _ _ _ _ _ _ _ _ _ _ _ _ _ CF) as Lk.
  pose proof (cf_fit _ _ _ _ _ _ _ _ _ _ _ _ _ _ _ _ _ _ _ _ _ _ CF) as KF.
  destruct (kval_slices G d _ _ OK valued act dom (Some H) (Some "") c C o k g K SA SD eq_refl Lk KF (wf_tab _ _)) as [KT [RK [WK [SKT PK]]]].
  exists (gt_padding (cl_gt L)), KT. split; [exact PO|]. split; [exact RK|].
  split; [apply (first_slice G d _ _ OK valued act dom (Some H) (Some "") c C o k g K KT SA SD eq_refl Lk KF (wf_tab _ _) RK)|].
  intros x b m' W Lm' SH.
  destruct (conv_slices G d _ _ OK valued act dom c C o k s dl eb ea (is_same opt) (ca_use_bias a) (ca_activation a) kinit binit
              L x b m' g CF eq_refl Lm' W SH) as [xp [XP SL]].
  exists xp. split; [exact XP|]. intros h Hh. rewrite SKT in Hh. rewrite app_nth2 in Hh by lia. rewrite Lk, Nat.sub_diag in Hh. cbn [nth] in Hh.
  destruct (PK h Hh) as [WS PS].
  assert (CB : cl_bias L = initial_bias a binit) by (destruct CF; exact cf_bias).
  specialize (SL h (kernel_slice d k C o KT h) Hh eq_refl).
  unfold apply. rewrite (conv_apply_call G d _ _ false valued act dom c C o k s dl eb ea (is_same opt) (ca_use_bias a) (ca_activation a)
    kinit binit L x b m' g CF CC Lm' SH).
  rewrite <- CB. rewrite <- SL; [reflexivity|]. intros j q r J Q R. change (tab (k ++ [C; o]) kinit) with K. rewrite (PS j q r J Q R).
  rewrite (whole_visible G d _ _ valued act dom (Some H) c C g h q OK SA SD eq_refl Hh Q). reflexivity.
Qed.

Lemma trivial_at name G d E eq (a : conv_args A) H opt (valued : bool) bs m g c kinit binit L k s dl :
  group_ok G d E eq ->
  layer_for name G a -> ca_subgroup a = Some H -> option_of a opt ->
  List.length (symmetries_of (if String.eqb H "" then name else H)) = 1 ->
  let o := ca_filters a in
  let C := if valued then g * c else c in
  built d false a (static_signal_shape valued bs m g c) kinit binit L -> List.length m = d -> sizes d a k s dl ->
  exists P, padding_of a false d bs m C P /\
    forall x b m', wf x -> List.length m' = d -> shape x = signal_shape valued b m' g c ->
    exists xp, padding_call P (merged_signal valued c g x b m') = Ok xp /\
    apply L x = (y <- base_conv_call false "channels_last" s dl (backend_padding opt) o (ca_activation a)
                        (initial_kernel false k C o kinit) (initial_bias a binit) xp ;;
                 expand_dims y (Z.of_nat (d + 1))).
Proof.
  intros OK LF HS OP TS o C B Lm SZ.
  destruct (built_facts_at name G d E eq a H opt false valued bs m g c kinit binit L k s dl OK LF HS OP B Lm SZ)
    as [eb [ea [act [dom [WO [SA [SD [CF [CC [KS [RS PO]]]]]]]]]]]. fold C in CF, PO. fold o in CF.
  destruct (slice_at name G d E eq a H opt valued bs m g c kinit binit L k s dl OK LF HS OP B Lm SZ)
    as [P [KT [PO' [RK [K0 SL]]]]]. fold C in PO', RK, K0, SL. fold o in RK, K0, SL.
  exists P. split; [exact PO'|]. intros x b m' W Lm' SH. destruct (SL x b m' W Lm' SH) as [xp [XP SL']]. exists xp. split; [exact XP|].
  assert (LA : List.length act = 1).
  { destruct LF as [DG _]. destruct (lib_ok _ _ DG) as [GN _]. rewrite (sub_length _ _ _ _ _ _ (lib_named _ _ DG GN) OK SA), GN.
    exact TS. }
  pose proof (cf_k _ _ _ _ _ _ _ _ _ _ _ _ _ _ _ _ _ _ _ _ _ _ CF) as Lk.
  pose proof (cf_fit _ _ _ _ _ _ _ _ _ _ _ _ _ _ _ _ _ _ _ _ _ _ CF) as KF.
  assert (NK : nth d (shape KT) 0 = 1).
  { destruct (kval_slices G d _ _ OK valued act dom (Some H) (Some "") c C o k g _ SA SD eq_refl Lk KF (wf_tab (k ++ [C; o]) kinit)) as [KT' [RK' [_ [SKT _]]]].
    assert (KT' = KT) as -> by (change (tab (k ++ [C; o]) kinit) with (initial_kernel false k C o kinit) in RK'; congruence).
    rewrite SKT, app_nth2 by lia. rewrite Lk, Nat.sub_diag. exact LA. }
  specialize (SL' 0). rewrite NK, K0 in SL'. rewrite (SL' Nat.lt_0_1).
  unfold apply. rewrite (conv_apply_call G d _ _ false valued act dom c C o k s dl eb ea (is_same opt) (ca_use_bias a) (ca_activation a)
    kinit binit L x b m' g CF CC Lm' SH).
  pose proof (merged_input d valued x b m' g c W Lm' SH) as MG. change (if valued then g * c else c) with C in MG.
  rewrite (conv_call_eq G d _ _ OK valued act dom c C o k s dl eb ea (is_same opt) (ca_use_bias a) (ca_activation a) kinit binit L x b m' _ CF Lm' MG).
  destruct (forallb _ _); cbn [snd bind]; [|reflexivity].
  match goal with |- Ok (tab (b :: ?mm ++ _) (sig4 d ?F)) = _ => set (mo := mm); set (FF := F) end.
  assert (LO : List.length mo = d).
  { destruct CF. assert (L1 : List.length (padded eb m' ea) = d) by (apply length_padded; assumption).
    assert (LE : List.length (vzip dilated k dl) = d) by (rewrite length_vzip; lia).
    unfold mo. apply length_outs; [apply length_padded; rewrite ?map_length; try apply length_builtin; assumption|assumption..]. }
  rewrite slice_sig4 by (rewrite ?LA; lia). rewrite expand_dims_tab by (cbn [List.length]; rewrite app_length; cbn [List.length]; lia).
  rewrite LA. f_equal. replace (d + 1) with (S d) by lia. rewrite (insert_group b mo 1 o d LO).
  rewrite tab_stk by (cbn [List.length]; rewrite app_length; cbn [List.length]; lia).
  apply tensor_ext; [apply wf_stk|apply wf_stk|rewrite !shape_stk; reflexivity|].
  intros i I. rewrite shape_stk in I. destruct (inb_insert_inv (S d) 1 (b :: mo ++ [o]) i) as [v [j [-> [V J]]]];
    [cbn [List.length]; rewrite app_length; cbn [List.length]; lia|exact I|].
  assert (v = 0) as -> by lia.
  assert (LS : S d <= List.length (b :: mo ++ [o])) by (cbn [List.length]; rewrite app_length; cbn [List.length]; lia).
  rewrite !at_stk by first [exact LS|exact J|lia].
  apply inb3_inv in J as [bi [p [q [-> [B1 [P1 Q1]]]]]]. pose proof (inb_length _ _ P1) as LP.
  rewrite <- (insert_group bi p 0 q d) by lia. rewrite sig4_ix, sig3_ix by lia. reflexivity.
Qed.

Lemma transposed_slice_at name G d E eq (a : conv_args A) H opt (valued : bool) bs m g c kinit binit L k s dl dom :
  group_ok G d E eq ->
  layer_for name G a -> ca_subgroup a = Some H -> option_of a opt -> subgroup_indices G H dom ->
  let o := ca_filters a in
  let C := if valued then g * c else c in
  let K := initial_kernel true k C o kinit in
  built d true a (static_signal_shape valued bs m g c) kinit binit L -> List.length m = d -> sizes d a k s dl ->
  exists P KT,
    padding_of a true d bs m C P /\
    kernel_transforms G d valued (Some "") (Some H) (kernel_signal valued k g c o K) = Ok KT /\
    nth d (shape KT) 0 = List.length E /\
    forall x b m', wf x -> List.length m' = d -> shape x = signal_shape valued b m' g c ->
    exists xp y, padding_call P (merged_signal valued c g x b m') = Ok xp /\ apply L x = Ok y /\
    forall h Kh, h < nth d (shape KT) 0 -> shape Kh = k ++ [o; C] ->
      (forall j q r, inb k j -> q < C -> r < o ->
         at_ Kh (j ++ [r; q]) = if visible G valued dom c h q then at_ (kernel_slice d k C o KT h) (j ++ [q; r]) else nth 0 (data K) zero) ->
      base_conv_call true "channels_last" s dl (backend_padding opt) o (ca_activation a) Kh (initial_bias a binit) xp
      = Ok (slice (d + 1) h y).
Proof.
  intros OK LF HS OP SI o C K B Lm SZ.
  destruct (built_facts_at name G d E eq a H opt true valued bs m g c kinit binit L k s dl OK LF HS OP B Lm SZ)
    as [eb [ea [act [dom' [WO [SA [SD [CF [CC [KS [RS PO]]]]]]]]]]]. fold C in CF, PO. fold o in CF.
  pose proof (cf_k _ _ _ _ _ _ _ _ _ _ _ _ _ _ _ _ _ _ _ _ _ _ CF) as Lk.
  pose proof (cf_fit _ _ _ _ _ _ _ _ _ _ _ _ _ _ _ _ _ _ _ _ _ _ CF) as KF.
  assert (LD : List.length (data K) = prod (k ++ [C; o])) by (rewrite <- prod_swap; apply wf_tab).
  destruct (kval_slices G d _ _ OK valued act dom' (Some "") (Some H) c C o k g K SA SD eq_refl Lk KF LD) as [KT [RK [WK [SKT PK]]]].
  pose proof (whole_dom _ _ _ _ _ OK SA) as AE.
  assert (NK : nth d (shape KT) 0 = List.length act) by (rewrite SKT, app_nth2 by lia; rewrite Lk, Nat.sub_diag; reflexivity).
  exists (gt_padding (cl_gt L)), KT. split; [exact PO|]. split; [exact RK|]. split; [rewrite NK, AE; apply seq_length|].
  intros x b m' W Lm' SH.
  destruct (transpose_slices G d _ _ OK valued act dom' c C o k s dl eb ea (is_same opt) (ca_use_bias a) (ca_activation a) kinit binit
              L x b m' g CF eq_refl Lm' W SH) as [xp [y [XP [CA SL]]]].
  exists xp, y. split; [exact XP|]. split.
  { unfold apply. rewrite (conv_apply_call G d _ _ true valued act dom' c C o k s dl eb ea (is_same opt) (ca_use_bias a) (ca_activation a)
      kinit binit L x b m' g CF CC Lm' SH). rewrite CA. reflexivity. }
  intros h Kh Hh SKh HK. rewrite NK in Hh.
  assert (CB : cl_bias L = initial_bias a binit) by (destruct CF; exact cf_bias). rewrite <- CB.
  apply SL; [exact Hh|exact SKh|]. intros j q r J Q R. destruct (PK h Hh) as [_ PS].
  change (tab (k ++ [o; C]) kinit) with K. rewrite (PS j q r J Q R), (HK j q r J Q R).
  assert (NH : nth h act 0 = h) by (rewrite AE, seq_length in Hh; rewrite AE; apply nth_seq0; exact Hh). rewrite NH.
  destruct valued; [|reflexivity]. destruct (SD eq_refl) as [SD' _].
  assert (dom' = dom) as -> by (unfold sub_idx in SD'; unfold subgroup_indices in SI; congruence). reflexivity.
Qed.

(** [KT] are the transformed kernels, computed with [Group.action] from the kernel
    itself, and [P] is the padding layer for the input.  Slice [h] of the output is
    what the backend's ordinary convolution returns for the kernel transformed by
    [h]; the layer raises when the backend does. *)
Theorem C23_slice_is_an_ordinary_convolution name G (a : conv_args A) H opt (valued : bool) bs m g c kinit binit L k s dl :
  layer_for name G a -> ca_subgroup a = Some H -> option_of a opt ->
  let d := dimension_of name in
  let o := ca_filters a in
  let C := if valued then g * c else c in
  let K := initial_kernel false k C o kinit in
  built d false a (static_signal_shape valued bs m g c) kinit binit L -> List.length m = d -> sizes d a k s dl ->
  exists P KT,
    padding_of a false d bs m C P /\
    kernel_transforms G d valued (Some H) (Some "") (kernel_signal valued k g c o K) = Ok KT /\
    kernel_slice d k C o KT 0 = K /\
    forall x b m', wf x -> List.length m' = d -> shape x = signal_shape valued b m' g c ->
    exists xp, padding_call P (merged_signal valued c g x b m') = Ok xp /\
    forall h, h < nth d (shape KT) 0 ->
      base_conv_call false "channels_last" s dl (backend_padding opt) o (ca_activation a)
        (kernel_slice d k C o KT h) (initial_bias a binit) xp
      = (y <- apply L x ;; Ok (slice (d + 1) h y)).
Proof.
  intros LF HS OP d o C K B Lm SZ. pose proof LF as [DG _]. apply lib_ok in DG as [_ OK].
  exact (slice_at name G d _ _ a H opt valued bs m g c kinit binit L k s dl OK LF HS OP B Lm SZ).
Qed.

(** A layer with a trivial subgroup (for example any layer for P1) is the ordinary
    convolution, with an axis of size 1 inserted in its output. *)
Theorem C23_trivial_subgroup name G (a : conv_args A) H opt (valued : bool) bs m g c kinit binit L k s dl :
  layer_for name G a -> ca_subgroup a = Some H -> option_of a opt ->
  H = "P1" \/ (H = "" /\ name = "P1") ->
  let d := dimension_of name in
  let o := ca_filters a in
  let C := if valued then g * c else c in
  built d false a (static_signal_shape valued bs m g c) kinit binit L -> List.length m = d -> sizes d a k s dl ->
  exists P, padding_of a false d bs m C P /\
    forall x b m', wf x -> List.length m' = d -> shape x = signal_shape valued b m' g c ->
    exists xp, padding_call P (merged_signal valued c g x b m') = Ok xp /\
    apply L x = (y <- base_conv_call false "channels_last" s dl (backend_padding opt) o (ca_activation a)
                        (initial_kernel false k C o kinit) (initial_bias a binit) xp ;;
                 expand_dims y (Z.of_nat (d + 1))).
Proof.
  intros LF HS OP TS d o C B Lm SZ. pose proof LF as [DG _]. apply lib_ok in DG as [_ OK].
  assert (T1 : List.length (symmetries_of (if String.eqb H "" then name else H)) = 1) by (destruct TS as [->|[-> ->]]; vm_compute; reflexivity).
  exact (trivial_at name G d _ _ a H opt valued bs m g c kinit binit L k s dl OK LF HS OP T1 B Lm SZ).
Qed.

(** The transposed layer: its kernel, of shape (k, filters, C), is read in that
    order as a kernel on the subgroup [H] of shape (k, g, c, filters), and the whole
    group acts on it. *)
Theorem C23_transposed_slice name G (a : conv_args A) H opt (valued : bool) bs m g c kinit binit L k s dl dom :
  layer_for name G a -> ca_subgroup a = Some H -> option_of a opt -> subgroup_indices G H dom ->
  let d := dimension_of name in
  let o := ca_filters a in
  let C := if valued then g * c else c in
  let K := initial_kernel true k C o kinit in
  built d true a (static_signal_shape valued bs m g c) kinit binit L -> List.length m = d -> sizes d a k s dl ->
  exists P KT,
    padding_of a true d bs m C P /\
    kernel_transforms G d valued (Some "") (Some H) (kernel_signal valued k g c o K) = Ok KT /\
    nth d (shape KT) 0 = List.length (symmetries_of name) /\
    forall x b m', wf x -> List.length m' = d -> shape x = signal_shape valued b m' g c ->
    exists xp y, padding_call P (merged_signal valued c g x b m') = Ok xp /\ apply L x = Ok y /\
    forall h Kh, h < nth d (shape KT) 0 -> shape Kh = k ++ [o; C] ->
      (forall j q r, inb k j -> q < C -> r < o ->
         at_ Kh (j ++ [r; q]) = if visible G valued dom c h q then at_ (kernel_slice d k C o KT h) (j ++ [q; r]) else nth 0 (data K) zero) ->
      base_conv_call true "channels_last" s dl (backend_padding opt) o (ca_activation a) Kh (initial_bias a binit) xp
      = Ok (slice (d + 1) h y).
Proof.
  intros LF HS OP SI d o C K B Lm SZ. pose proof LF as [DG _]. apply lib_ok in DG as [_ OK].
  exact (transposed_slice_at name G d _ _ a H opt valued bs m g c kinit binit L k s dl dom OK LF HS OP SI B Lm SZ).
Qed.

(** Precomputing the action on the indices of a kernel and gathering its values is
    the same as acting on the kernel. *)
Theorem C24_kernel_is_transformed_by_the_action name G (a : conv_args A) H opt (valued : bool) bs m g c kinit binit L k s dl (K : tensor A) :
  layer_for name G a -> ca_subgroup a = Some H -> option_of a opt ->
  let d := dimension_of name in
  let o := ca_filters a in
  let C := if valued then g * c else c in
  built d false a (static_signal_shape valued bs m g c) kinit binit L -> List.length m = d -> sizes d a k s dl ->
  wf K -> shape K = k ++ [C; o] ->
  exists KT K' R,
    kernel_transforms G d valued (Some H) (Some "") (kernel_signal valued k g c o K) = Ok KT /\
    transform_kernel (cl_gt L) K = Ok K' /\
    R = List.length (symmetries_of (if String.eqb H "" then name else H)) /\
    nth d (shape KT) 0 = R /\ shape K' = k ++ [C; R * o] /\
    forall h j q r, h < R -> inb k j -> q < C -> r < o ->
      at_ K' (j ++ [q; h * o + r]) = at_ (kernel_slice d k C o KT h) (j ++ [q; r]).
Proof.
  intros LF HS OP d o C B Lm SZ W SH.
  destruct (built_facts name G a H opt false valued bs m g c kinit binit L k s dl LF HS OP B Lm SZ)
    as [OK [eb [ea [act [dom [WO [SA [SD [CF [CC [KS [RS PO]]]]]]]]]]]]. fold d in OK, SA, SD, CF, PO. fold C in CF, PO. fold o in CF.
  pose proof (cf_k _ _ _ _ _ _ _ _ _ _ _ _ _ _ _ _ _ _ _ _ _ _ CF) as Lk.
  destruct (transformed_kernel G d _ _ OK false valued act dom (Some H) (Some "") c C o g k s dl eb ea (is_same opt) (ca_use_bias a) (ca_activation a)
              kinit binit L K CF SA SD eq_refl W SH) as [KT [K' [RK [_ [SKT [TK [_ [SK' P]]]]]]]].
  exists KT, K', (List.length act). split; [exact RK|]. split; [exact TK|].
  split. { destruct LF as [DG _]. destruct (lib_ok _ _ DG) as [GN _]. rewrite (sub_length _ _ _ _ _ _ (lib_named _ _ DG GN) OK SA), GN. reflexivity. }
  split. { rewrite SKT, app_nth2 by lia. rewrite Lk, Nat.sub_diag. reflexivity. }
  split; [exact SK'|]. intros h j q r Hh J Q R. pose proof (P h j q r Hh J Q R) as PE. cbn [app] in PE. rewrite PE.
  rewrite (whole_visible G d _ _ valued act dom (Some H) c C g h q OK SA SD eq_refl Hh Q). reflexivity.
Qed.

(** The same for a transposed layer, whose kernel lives on the subgroup; where the
    kernel seen from [h] has no value (C28), the gathered kernel contains the
    kernel's first entry, not zero. *)
Theorem C24_transposed_kernel name G (a : conv_args A) H opt (valued : bool) bs m g c kinit binit L k s dl (K : tensor A) dom :
  layer_for name G a -> ca_subgroup a = Some H -> option_of a opt -> subgroup_indices G H dom ->
  let d := dimension_of name in
  let o := ca_filters a in
  let C := if valued then g * c else c in
  built d true a (static_signal_shape valued bs m g c) kinit binit L -> List.length m = d -> sizes d a k s dl ->
  wf K -> shape K = k ++ [o; C] ->
  exists KT K' R,
    kernel_transforms G d valued (Some "") (Some H) (kernel_signal valued k g c o K) = Ok KT /\
    transform_kernel (cl_gt L) K = Ok K' /\
    R = List.length (symmetries_of name) /\
    nth d (shape KT) 0 = R /\ shape K' = k ++ [R * o; C] /\
    forall h j q r, h < R -> inb k j -> q < C -> r < o ->
      (visible G valued dom c h q = true ->
       at_ K' (j ++ [h * o + r; q]) = at_ (kernel_slice d k C o KT h) (j ++ [q; r])) /\
      (visible G valued dom c h q = false ->
       at_ (kernel_slice d k C o KT h) (j ++ [q; r]) = zero /\ at_ K' (j ++ [h * o + r; q]) = nth 0 (data K) zero).
Proof.
  intros LF HS OP SI d o C B Lm SZ W SH.
  destruct (built_facts name G a H opt true valued bs m g c kinit binit L k s dl LF HS OP B Lm SZ)
    as [OK [eb [ea [act [dom' [WO [SA [SD [CF [CC [KS [RS PO]]]]]]]]]]]]. fold d in OK, SA, SD, CF, PO. fold C in CF, PO. fold o in CF.
  pose proof (cf_k _ _ _ _ _ _ _ _ _ _ _ _ _ _ _ _ _ _ _ _ _ _ CF) as Lk.
  pose proof (cf_fit _ _ _ _ _ _ _ _ _ _ _ _ _ _ _ _ _ _ _ _ _ _ CF) as KF.
  destruct (transformed_kernel G d _ _ OK true valued act dom' (Some "") (Some H) c C o g k s dl eb ea (is_same opt) (ca_use_bias a) (ca_activation a)
              kinit binit L K CF SA SD eq_refl W SH) as [KT [K' [RK [_ [SKT [TK [_ [SK' P]]]]]]]].
  pose proof (whole_dom _ _ _ _ _ OK SA) as AE.
  exists KT, K', (List.length act). split; [exact RK|]. split; [exact TK|].
  split. { rewrite AE. apply seq_length. }
  split. { rewrite SKT, app_nth2 by lia. rewrite Lk, Nat.sub_diag. reflexivity. }
  split; [exact SK'|]. intros h j q r Hh J Q R. pose proof (P h j q r Hh J Q R) as PE. cbn [app] in PE.
  assert (NH : nth h act 0 = h) by (rewrite AE, seq_length in Hh; rewrite AE; apply nth_seq0; exact Hh). rewrite NH in PE.
  assert (VD : visible G valued dom c h q = visible G valued dom' c h q).
  { destruct valued; [|reflexivity]. destruct (SD eq_refl) as [SD' _].
    assert (dom' = dom) as -> by (unfold sub_idx in SD'; unfold subgroup_indices in SI; congruence). reflexivity. }
  rewrite VD. split; intros V; rewrite V in PE.
  - exact PE.
  - split; [|exact PE]. rewrite <- NH in V.
    apply (hidden_is_zero G d _ _ OK valued act dom' c C o g k (Some "") (Some H) K KT h j q r SA SD eq_refl Lk KF); try assumption.
    unfold wf in W. rewrite W, SH. apply prod_swap.
Qed.

(** So the kernel is extended by zero exactly when its first entry is zero, or
    nothing has to be filled in. *)
Theorem C28_filled_with_the_first_entry name G (a : conv_args A) H opt bs m g c kinit binit L k s dl (K : tensor A) dom :
  layer_for name G a -> ca_subgroup a = Some H -> option_of a opt -> subgroup_indices G H dom ->
  let d := dimension_of name in
  let o := ca_filters a in
  built d true a (static_signal_shape true bs m g c) kinit binit L -> List.length m = d -> sizes d a k s dl ->
  wf K -> shape K = k ++ [o; g * c] -> 0 < c ->
  exists KT K',
    kernel_transforms G d true (Some "") (Some H) (kernel_signal true k g c o K) = Ok KT /\
    transform_kernel (cl_gt L) K = Ok K' /\
    ((forall h j q r, h < List.length (symmetries_of name) -> inb k j -> q < g * c -> r < o ->
        at_ K' (j ++ [h * o + r; q]) = at_ (kernel_slice d k (g * c) o KT h) (j ++ [q; r]))
     <-> nth 0 (data K) zero = zero \/ List.length dom = List.length (symmetries_of name)).
Proof.
  intros LF HS OP SI d o B Lm SZ W SH C0.
  destruct (built_facts name G a H opt true true bs m g c kinit binit L k s dl LF HS OP B Lm SZ)
    as [OK [eb [ea [act [dom' [WO [SA [SD [CF [CC [KS [RS PO]]]]]]]]]]]]. fold d in OK, SA, SD, CF, PO. fold o in CF.
  destruct (SD eq_refl) as [SD' GD]. assert (dom' = dom) as -> by (unfold sub_idx in SD'; unfold subgroup_indices in SI; congruence).
  destruct (C24_transposed_kernel name G a H opt true bs m g c kinit binit L k s dl K dom LF HS OP SI B Lm SZ W SH)
    as [KT [K' [R [RK [TK [RR [SR [SK' P]]]]]]]]. fold d in RK, SR, P. fold o in RK, SR, SK', P.
  exists KT, K'. split; [exact RK|]. split; [exact TK|]. subst R. set (n := List.length (symmetries_of name)) in *.
  destruct (sub_idx_facts _ _ _ _ OK _ _ SD') as [ND [Bd [HD [FULL CL]]]]. fold n in Bd, FULL.
  pose proof (ok_is_group _ _ _ _ OK) as IG. fold n in IG.
  destruct CF. split.
  - intros EX. destruct (Nat.eq_dec (List.length dom) n) as [F|NF]; [right; exact F|]. left.
    assert (EH : exists h, h < n /\ ~ In h dom).
    { destruct (forallb (fun h => mem h dom) (seq 0 n)) eqn:FB.
      - exfalso. apply NF. rewrite <- (seq_length n 0). apply Nat.le_antisymm.
        + apply NoDup_incl_length; [exact ND|]. intros z Z. apply in_seq. pose proof (Bd z Z). lia.
        + apply NoDup_incl_length; [apply seq_NoDup|]. intros z Z. rewrite forallb_forall in FB. apply mem_In. apply FB. exact Z.
      - rewrite <- not_true_iff_false, forallb_forall in FB.
        assert (EX' : exists h, In h (seq 0 n) /\ mem h dom = false).
        { destruct (existsb (fun h => negb (mem h dom)) (seq 0 n)) eqn:EB.
          - apply existsb_exists in EB as [h [I1 I2]]. exists h. split; [exact I1|]. apply negb_true_iff. exact I2.
          - exfalso. apply FB. intros h I. destruct (mem h dom) eqn:M; [reflexivity|].
            rewrite <- not_true_iff_false in EB. exfalso. apply EB. apply existsb_exists. exists h. rewrite M. split; [exact I|reflexivity]. }
        destruct EX' as [h [I1 I2]]. exists h. apply in_seq in I1. split; [lia|]. intros I. apply mem_In in I. congruence. }
    destruct EH as [h [Hh NI]].
    assert (D0 : nth 0 dom 0 = 0 /\ 0 < List.length dom).
    { destruct dom as [|z dom]; [discriminate HD|]. injection HD as ->. split; [reflexivity|cbn [List.length]; lia]. }
    assert (PK : inb k (map (fun _ => 0) k)).
    { clear - cf_kpos cf_k. revert cf_kpos. rewrite <- cf_k. clear. induction k as [|v k' IH]; intros P; [apply inb_nil|].
      cbn [map]. apply inb_cons. split; [apply (P 0); cbn [List.length]; lia|]. apply IH. intros a Ha. apply (P (S a)). cbn [List.length]. lia. }
    assert (V : visible G true dom c h 0 = false).
    { unfold visible. cbn [negb orb]. rewrite Nat.div_0_l by lia. destruct D0 as [-> _].
      rewrite (group_id_r _ _ _ IG) by (apply (group_inv_closed _ _ _ IG); exact Hh).
      destruct (mem (inv G h) dom) eqn:M; [|reflexivity]. exfalso. apply mem_In in M. apply NI.
      assert (I0 : In 0 dom) by (destruct dom as [|z dm]; [discriminate HD|]; injection HD as ->; left; reflexivity).
      pose proof (CL (inv G h) 0 M I0) as I1. rewrite (group_id_r _ _ _ IG) in I1 by (do 2 apply (group_inv_closed _ _ _ IG); exact Hh).
      replace (inv G (inv G h)) with h in I1; [exact I1|].
      assert (X : comp G (comp G (inv G (inv G h)) (inv G h)) h = h).
      { rewrite (group_inv_l _ _ _ IG) by (apply (group_inv_closed _ _ _ IG); exact Hh). apply (group_id_l _ _ _ IG). exact Hh. }
      rewrite <- (group_assoc _ _ _ IG) in X; [|repeat apply (group_inv_closed _ _ _ IG); exact Hh|apply (group_inv_closed _ _ _ IG); exact Hh|exact Hh].
      rewrite (group_inv_l _ _ _ IG) in X by exact Hh. rewrite (group_id_r _ _ _ IG) in X by (repeat apply (group_inv_closed _ _ _ IG); exact Hh).
      symmetry. exact X. }
    assert (Q0 : 0 < g * c) by (destruct D0; nia).
    destruct (P h (map (fun _ => 0) k) 0 0 Hh PK Q0 cf_opos) as [_ PN]. destruct (PN V) as [Z1 Z2].
    rewrite <- Z2, (EX h _ 0 0 Hh PK Q0 cf_opos). exact Z1.
  - intros ZF h j q r Hh J Q Rr. destruct (P h j q r Hh J Q Rr) as [P1 P2].
    destruct (visible G true dom c h q) eqn:V; [apply P1; reflexivity|]. destruct (P2 eq_refl) as [Z1 Z2].
    destruct ZF as [ZF|FU]; [congruence|]. exfalso. specialize (FULL FU). subst dom. rewrite FU in GD.
    assert (VT : visible G true (seq 0 n) c h q = true) by (apply (visible_whole G d _ _ OK); [exact Hh|lia|unfold n in *; subst g; exact Q]).
    congruence.
Qed.

(** The bias is shared by the group elements. *)
Theorem C25_bias_is_shared name G (a : conv_args A) H opt (tr valued : bool) bs m g c kinit binit L k s dl (bias : tensor A) :
  layer_for name G a -> ca_subgroup a = Some H -> option_of a opt -> ca_use_bias a = true ->
  let d := dimension_of name in
  let o := ca_filters a in
  built d tr a (static_signal_shape valued bs m g c) kinit binit L -> List.length m = d -> sizes d a k s dl ->
  wf bias -> shape bias = [o] ->
  exists bias' R, repeat_bias (cl_gt L) bias = Ok bias' /\
    R = List.length (symmetries_of (if tr then name else if String.eqb H "" then name else H)) /\
    shape bias' = [R * o] /\ forall h r, h < R -> r < o -> at_ bias' [h * o + r] = at_ bias [r].
Proof.
  intros LF HS OP UB d o B Lm SZ W SH.
  destruct (built_facts name G a H opt tr valued bs m g c kinit binit L k s dl LF HS OP B Lm SZ)
    as [OK [eb [ea [act [dom [WO [SA [SD [CF _]]]]]]]]]. fold d in OK, SA, SD, CF. fold o in CF. rewrite UB in CF.
  assert (BI : gt_bias_indices (cl_gt L) = Some (tab [List.length act * o] (fun i => nth 0 i 0 mod o))) by (destruct CF; apply cf_bidx; reflexivity).
  assert (BE : bias = tab [o] (fun i => at_ bias i)) by (rewrite <- SH; symmetry; apply tab_at; exact W).
  exists (tab [List.length act * o] (fun i => at_ bias [nth 0 i 0 mod o])), (List.length act).
  split. { rewrite BE at 1. rewrite (repeat_bias_eq _ act o _ BI). reflexivity. }
  split. { destruct LF as [DG _]. destruct (lib_ok _ _ DG) as [GN _].
    destruct tr; [rewrite (whole_dom _ _ _ _ _ OK SA); apply seq_length|]. rewrite (sub_length _ _ _ _ _ _ (lib_named _ _ DG GN) OK SA), GN. reflexivity. }
  split; [apply shape_tab|]. intros h r Hh R. rewrite at_tab by (apply inb_cons; split; [nia|apply inb_nil]).
  cbn [nth]. rewrite Nat.add_comm, Nat.mod_add by lia. rewrite Nat.mod_small by exact R. reflexivity.
Qed.

End Layers.

Print Assumptions C23_slice_is_an_ordinary_convolution.
Print Assumptions C23_trivial_subgroup.
Print Assumptions C23_transposed_slice.
Print Assumptions C24_kernel_is_transformed_by_the_action.
Print Assumptions C24_transposed_kernel.
Print Assumptions C28_filled_with_the_first_entry.
Print Assumptions C25_bias_is_shared.

(** ** Examples over the integers *)

(** The kernel of a P4 convolution (size 2, one channel, two filters) and the gathered
    kernel: the filters of the four rotated kernels, one after the other. *)
Example C24_example :
  match test_layer 2 false (with_group "P4" "" (One 2) 2 None None None true) [None; Some 3; Some 3; Some 1] some_weights some_weights with
  | Ok L => transform_kernel (cl_gt L) (mkTensor [2; 2; 1; 2] [1; 10; 2; 20; 3; 30; 4; 40]%Z)
  | Err e => Err e
  end = Ok (mkTensor [2; 2; 1; 8] [1; 10; 2; 20; 4; 40; 3; 30; 2; 20; 4; 40; 3; 30; 1; 10; 3; 30; 1; 10; 2; 20; 4; 40; 4; 40; 3; 30; 1; 10; 2; 20]%Z).
Proof. vm_compute. reflexivity. Qed.


(** The slices of a P4 convolution with strides and a bias, one by one: the transformed
    kernels differ, and so do the slices. *)
Example C23_example :
  let a := with_group "P4" "" (One 2) 2 (Some (One 3)) (Some (Some "valid_equiv")) None true in
  let x := some_signal [1; 3; 3; 2] in
  match test_layer 2 false a [None; Some 3; Some 3; Some 2] some_weights some_weights,
        kernel_transforms P4 2 false (Some "") (Some "") (tab [2; 2; 2; 2] some_weights),
        padding_init (One 2) 2 (One 3) (Some "valid_equiv") false "channels_last" false with
  | Ok L, Ok KT, Ok P0 =>
      match padding_build P0 [None; Some 3; Some 3; Some 2] with
      | Ok P =>
        match padding_call P x with
        | Ok xp =>
          forallb (fun h =>
            same_result (base_conv_call false "channels_last" [3; 3] [1; 1] "valid" 2 (ca_activation a)
                           (kernel_slice 2 [2; 2] 2 2 KT h) (Some (tab [2] some_weights)) xp)
                        (y <- apply L x ;; Ok (slice 3 h y))) (seq 0 4)
          && negb (same_result (y <- apply L x ;; Ok (slice 3 0 y)) (y <- apply L x ;; Ok (slice 3 1 y)))
        | Err _ => false
        end
      | Err _ => false
      end
  | _, _, _ => false
  end = true.
Proof. vm_compute. reflexivity. Qed.

Example C25_example :
  match test_layer 2 false (with_group "P4" "P2" (One 1) 3 None None None true) [None; Some 3; Some 3; Some 4; Some 1] some_weights some_weights with
  | Ok L => repeat_bias (cl_gt L) (mkTensor [3] [10; 20; 30]%Z)
  | Err e => Err e
  end = Ok (mkTensor [6] [10; 20; 30; 10; 20; 30]%Z).
Proof. vm_compute. reflexivity. Qed.

(** Upsampling from P2 to P4 with one channel, a kernel of one pixel and weights 7, 5:
    rotating by 90 degrees leaves no weight for the two elements of P2, and 7 is used
    instead of zero. *)
Example C28_example :
  match test_layer 2 true (with_group "P4" "P2" (One 1) 1 None None None false) [None; Some 3; Some 3; Some 2; Some 1] some_weights some_weights with
  | Ok L => transform_kernel (cl_gt L) (mkTensor [1; 1; 1; 2] [7; 5]%Z)
  | Err e => Err e
  end = Ok (mkTensor [1; 1; 4; 2] [7; 5; 7; 7; 5; 7; 7; 7]%Z).
Proof. vm_compute. reflexivity. Qed.

Theorem C28_extension_by_zero_refuted :
  exists (a : conv_args Z) L KT K',
    built 2 true a [None; Some 3; Some 3; Some 2; Some 1] some_weights some_weights L /\
    layer_for "P4" P4 a /\ ca_subgroup a = Some "P2" /\
    let K := mkTensor [1; 1; 1; 2] [7; 5]%Z in
    kernel_transforms P4 2 true (Some "") (Some "P2") (kernel_signal true [1; 1] 2 1 1 K) = Ok KT /\
    transform_kernel (cl_gt L) K = Ok K' /\
    at_ (kernel_slice 2 [1; 1] 2 1 KT 1) [0; 0; 0; 0] = 0%Z /\
    at_ K' [0; 0; 1; 0] = 7%Z.
Proof.
  set (a := with_group "P4" "P2" (One 1) 1 None None None false).
  set (R := test_layer 2 true a [None; Some 3; Some 3; Some 2; Some 1] some_weights some_weights).
  destruct R as [L|] eqn:T; [|vm_compute in T; discriminate T].
  exists a, L. eexists. exists (mkTensor [1; 1; 4; 2] [7; 5; 7; 7; 5; 7; 7; 7]%Z).
  split; [apply test_layer_built; exact T|]. split; [split; [vm_compute; reflexivity|split; [left; reflexivity|reflexivity]]|]. split; [reflexivity|].
  cbv zeta. split; [vm_compute; reflexivity|]. split; [|split; vm_compute; reflexivity].
  pose proof C28_example as X. fold a in X. fold R in X. rewrite T in X. exact X.
Qed.
Print Assumptions C28_extension_by_zero_refuted.
