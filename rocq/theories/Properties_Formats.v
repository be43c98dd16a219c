(** C20, C46: the data formats. *)
From Verif Require Import FormatFacts.
Local Open Scope string_scope.
Local Open Scope list_scope.

Section Formats.
Context {A : Type} {RA : Arith A}.

(** A layer that adds no padding in either format: the 'channels_first' layer with the
    same weights returns, for the rearranged signal, the rearranged output of the
    'channels_last' layer; it raises the same error when that one raises. *)
Theorem C46_convolution_formats name G (a : conv_args A) (tr valued : bool) bs m g c kinit binit L1 L2 :
  layer_for name G a ->
  let d := dimension_of name in
  built d tr a (static_signal_shape valued bs m g c) kinit binit L1 -> List.length m = d ->
  built d tr (with_format a "channels_first") (static_channels_first_shape valued bs m g c) kinit binit L2 ->
  needs_padding (cl_gt L1) = Some false -> needs_padding (cl_gt L2) = Some false ->
  forall x b m', wf x -> List.length m' = d -> shape x = signal_shape valued b m' g c ->
  exists x', channels_first x = Ok x' /\ shape x' = channels_first_shape valued b m' g c /\
    apply L2 x' = (y <- apply L1 x ;; channels_first y).
Proof.
  intros [DG [AG AF]] d [L0 [I B]] Lm [M0 [I2 B2]] N1 N2 x b m' W Lm' SH.
  pose proof DG as DG'. apply lib_ok in DG' as [_ OK]. fold d in OK.
  rewrite conv_init_first in I2 by exact AF. rewrite I in I2. cbn [bind] in I2.
  assert (EM : M0 = cl_first d L0) by congruence. subst M0. clear I2.
  destruct (conv_build_twin G d _ _ name tr a L0 valued bs m g c kinit binit L1 OK DG AG AF I Lm B) as [PB1 TW]. rewrite TW in B2. clear TW.
  destruct (padding_build _ (bs :: Some _ :: map Some m)) as [P|] eqn:PB2 in B2; [|discriminate B2]. cbn [bind] in B2.
  injection B2 as <-.
  destruct (conv_build_inv G d _ _ OK name tr a L0 valued bs m g c kinit binit L1 DG AG AF I Lm B)
    as [p [k [s [dl [eb [ea [act [dom [PN [SK [SS [SD [WO [SA [SDm [CF [CC [KS [RS _]]]]]]]]]]]]]]]]]]].
  assert (X' : exists x', channels_first x = Ok x' /\ shape x' = channels_first_shape valued b m' g c).
  { unfold signal_shape in SH. unfold channels_first, channels_first_shape. destruct valued.
    - rewrite (tensor_sig4 d b m' g c x W Lm' SH), (proj1 (move4 d b m' g c _ Lm')). eexists. split; [reflexivity|apply shape_tab].
    - rewrite (tensor_sig3 d b m' c x W Lm' SH), (proj1 (move3 d b m' c _ Lm')). eexists. split; [reflexivity|]. rewrite app_nil_r. apply shape_tab. }
  destruct X' as [x' [X' SX]]. exists x'. split; [exact X'|]. split; [exact SX|].
  pose proof (call_twin G d _ _ tr valued act dom c _ (ca_filters a) k s dl eb ea (is_same (upper p)) (ca_use_bias a) (ca_activation a) kinit binit L1 P
                (bs :: Some (if valued then g * c else c) :: map Some m) x b m' g OK CF) as CT.
  unfold channels_first in X'. rewrite X' in CT. cbn [bind] in CT. unfold apply, channels_first.
  destruct CT as [[e [E1 E2]]|[m2 [Y [L2 [E1 E2]]]]]; try assumption; try reflexivity.
  - apply CF.
  - unfold no_padding. unfold needs_padding in N1. rewrite N1. discriminate.
  - unfold no_padding. unfold needs_padding in N2. cbn [twin_of cl_gt gt_padding] in N2. rewrite N2. discriminate.
  - rewrite E1, E2. reflexivity.
  - rewrite E1, E2. symmetry. apply (proj1 (move4 d b m2 (List.length act) (ca_filters a) Y L2)).
Qed.

(** Such layers are those with strides 1 (for 'same_equiv': and odd kernel sizes), and
    those with the plain options 'same' and 'valid'. The 'channels_first' layer can
    then be built when the 'channels_last' layer can, with the exception of plain
    options together with allow_non_equivariance=False. *)
Theorem C46_layers_without_padding name G (a : conv_args A) opt (tr valued : bool) bs m g c kinit binit L1 k s dl :
  layer_for name G a -> option_of a opt ->
  let d := dimension_of name in
  built d tr a (static_signal_shape valued bs m g c) kinit binit L1 -> List.length m = d -> sizes d a k s dl ->
  ((forall v, In v s -> v = 1) /\ (opt = "VALID" \/ opt = "VALID_EQUIV" \/ forall v, In v k -> Nat.Odd v)) \/
  ((opt = "VALID" \/ opt = "SAME") /\ ca_allow a = true) ->
  needs_padding (cl_gt L1) = Some false /\
  exists L2, built d tr (with_format a "channels_first") (static_channels_first_shape valued bs m g c) kinit binit L2 /\
    needs_padding (cl_gt L2) = Some false.
Proof.
  intros [DG [AG AF]] [p [PN UP]] d [L0 [I B]] Lm [SK [SS SD]] CASES.
  pose proof DG as DG'. apply lib_ok in DG' as [_ OK]. fold d in OK.
  destruct (conv_init_inv G d name tr a L0 DG AG AF I) as [p' [k' [s' [dl' [Hn [PN' [SK' [SS' [_ [_ [_ [_ [_ [_ [P [PI EL]]]]]]]]]]]]]]]].
  unfold padding_name in PN'. rewrite PN in PN'. injection PN' as <-. rewrite SK in SK'. injection SK' as <-.
  unfold strides_of in SS', PI. rewrite SS in SS'. injection SS' as <-.
  assert (EP : gt_padding (cl_gt L0) = P) by (rewrite EL; reflexivity). clear EL.
  destruct (conv_build_twin G d _ _ name tr a L0 valued bs m g c kinit binit L1 OK DG AG AF I Lm B) as [PB1 TW]. rewrite EP in PB1, TW.
  assert (NB : forall n z, List.length n = d -> exists P', padding_build P (bs :: map Some n ++ [z]) = Ok P' /\ pl_needs P' = Some false).
  { intros n z N. destruct CASES as [[S1 KO]|[PL AL]].
    - apply (unit_no_padding (ca_kernel_size a) _ d k s p (ca_allow a) tr P n bs z SK SS PI N S1).
      destruct KO as [KO|[KO|KO]]; [left; rewrite UP, KO; reflexivity|left; rewrite UP, KO; reflexivity|right; exact KO].
    - apply padding_init_inv in PI as [Eo [_ [_ [Ea _]]]]. unfold padding_build. rewrite Eo, Ea, UP, AL.
      exists (set_needs P false (pl_pads P)). split; [|reflexivity]. destruct PL as [-> | ->]; reflexivity. }
  split.
  - destruct (NB m (Some (if valued then g * c else c)) Lm) as [P' [E' N']]. unfold needs_padding. rewrite PB1 in E'. injection E' as ->. exact N'.
  - assert (NE : m <> []).
    { destruct m; [|discriminate]. exfalso. pose proof (library_dimension name G DG). cbn in Lm. unfold d in Lm. lia. }
    assert (LR : List.length ((if valued then g * c else c) :: removelast m) = d).
    { cbn [List.length]. rewrite length_removelast. destruct m; [congruence|]. cbn [List.length] in *. lia. }
    destruct (NB _ (Some (last m 0)) LR) as [P' [E' N']]. rewrite <- first_as_last in E' by exact NE.
    rewrite E' in TW. cbn [bind] in TW. eexists. split; [exists (cl_first d L0); split; [rewrite conv_init_first, I by exact AF; reflexivity|exact TW]|exact N'].
Qed.

(** C20.  A 'channels_first' layer computes its padding as if the channel axis and all
    but the last spatial axis were the spatial axes: [padding_of a … (C :: removelast m)
    (last m 0)] is the padding layer of a 'channels_last' signal of shape (bs, C,
    m_1, …, m_(d-1), m_d), whose last axis, the "channels", is never padded. *)
Theorem C20_padding_of_channels_first_layers name G (a : conv_args A) (tr valued : bool) bs m g c kinit binit L :
  layer_for name G a ->
  let d := dimension_of name in
  let C := if valued then g * c else c in
  built d tr (with_format a "channels_first") (static_channels_first_shape valued bs m g c) kinit binit L -> List.length m = d ->
  padding_of a tr d bs (C :: removelast m) (last m 0) (gt_padding (cl_gt L)).
Proof. intros LF d C B Lm. exact (first_padding name G a tr valued bs m g c kinit binit L LF B Lm). Qed.

(** When the number [C] of (merged) channels does not fit the first stride, in the
    sense that it would have to be padded, the channel axis is padded, and every call
    raises a ValueError. *)
Theorem C20_padded_channels_raise name G (a : conv_args A) opt (valued : bool) bs m g c kinit binit L1 L2 k s dl :
  layer_for name G a -> option_of a opt -> opt = "VALID_EQUIV" \/ opt = "SAME_EQUIV" ->
  let d := dimension_of name in
  let C := if valued then g * c else c in
  built d false a (static_signal_shape valued bs m g c) kinit binit L1 -> List.length m = d ->
  built d false (with_format a "channels_first") (static_channels_first_shape valued bs m g c) kinit binit L2 ->
  sizes d a k s dl ->
  ~ admissible C (backend_total (String.eqb opt "SAME_EQUIV") C (nth 0 k 0) (nth 0 s 0)) (nth 0 k 0) (nth 0 s 0) 0 ->
  forall x b m', wf x -> List.length m' = d -> shape x = channels_first_shape valued b m' g c ->
  apply L2 x = Err ValueError.
Proof.
  intros [DG [AG AF]] [p [PN UP]] OPT d C [L0 [I B]] Lm [M0 [I2 B2]] [SK [SS SD]] NAD x b m' W Lm' SH.
  pose proof DG as DG'. apply lib_ok in DG' as [_ OK]. fold d in OK.
  pose proof (library_dimension name G DG) as DP. fold d in DP.
  rewrite conv_init_first in I2 by exact AF. rewrite I in I2. cbn [bind] in I2.
  assert (EM : M0 = cl_first d L0) by congruence. subst M0. clear I2.
  destruct (conv_build_twin G d _ _ name false a L0 valued bs m g c kinit binit L1 OK DG AG AF I Lm B) as [PB1 TW]. rewrite TW in B2. clear TW.
  destruct (padding_build _ (bs :: Some _ :: map Some m)) as [P|] eqn:PB2 in B2; [|discriminate B2]. cbn [bind] in B2. injection B2 as <-.
  destruct (conv_init_inv G d name false a L0 DG AG AF I) as [p0 [k0 [s0 [dl0 [Hn [PN0 [_ [_ [_ [_ [_ [_ [_ [_ [P0 [PI EL]]]]]]]]]]]]]]]].
  unfold padding_name in PN0. rewrite PN in PN0. injection PN0 as <-. unfold strides_of in PI.
  assert (EP : gt_padding (cl_gt L0) = P0) by (rewrite EL; reflexivity). clear EL. rewrite EP in PB2. clear EP.
  assert (NE : m <> []) by (destruct m; [cbn in Lm; lia|discriminate]).
  assert (LR : List.length (C :: removelast m) = d).
  { cbn [List.length]. rewrite length_removelast. destruct m; [congruence|]. cbn [List.length] in *. lia. }
  rewrite (first_as_last bs _ m NE) in PB2.
  destruct (built_pads (A := A) (ca_kernel_size a) _ d k s p (ca_allow a) false P0 (C :: removelast m) bs (Some (last m 0)) P SK SS PI LR PB2) as [pb [pa [WO PW]]].
  destruct (conv_build_inv G d _ _ OK name false a L0 valued bs m g c kinit binit L1 DG AG AF I Lm B)
    as [p1 [k1 [s1 [dl1 [eb [ea [act [dom [PN1 [SK1 [SS1 [SD1 [_ [_ [_ [CF [CC _]]]]]]]]]]]]]]]]].
  destruct WO as [Lpb [Lpa WO]].
  apply (call_channel_padded G d _ _ false valued act dom c C (ca_filters a) k1 s1 dl1 eb ea (is_same (upper p1)) (ca_use_bias a) (ca_activation a) kinit binit L1 P
           _ x b m' g pb pa OK CF); try assumption; try reflexivity; [apply CF|].
  intros Z0. rewrite UP in WO. destruct WO as [[PL _]|[_ WO]]; [destruct OPT as [-> | ->]; discriminate PL|].
  destruct (WO 0 DP) as [_ [AD _]]. rewrite Z0 in AD. apply NAD. unfold backend_total. destruct OPT as [-> | ->]; exact AD.
Qed.

End Formats.

Print Assumptions C46_convolution_formats.
Print Assumptions C46_layers_without_padding.
Print Assumptions C20_padding_of_channels_first_layers.
Print Assumptions C20_padded_channels_raise.

(** ** Examples and counterexamples over the integers *)

Definition first_layer (name : string) (k s : nat) (c : nat) : result (conv_layer Z) :=
  test_layer 2 false (with_format (with_group name "" (One (Z.of_nat k)) 1 (Some (One (Z.of_nat s))) (Some (Some "valid_equiv")) None true) "channels_first")
    [None; Some c; Some 4; Some 4] some_weights some_weights.

(** Kernel size 2 and stride 3 on 4 by 4 pixels with 2 channels: only the first of the
    spatial axes is padded, and the layer does not commute with the rotation by 180
    degrees. *)
Theorem C20_channels_first_equivariance_refuted :
  exists (a : conv_args Z) kinit binit L x, layer_for "P2" P2 a /\
    built 2 false (with_format a "channels_first") (static_channels_first_shape false None [4; 4] 0 2) kinit binit L /\
    shape x = channels_first_shape false 1 [4; 4] 0 2 /\ wf x /\
    ~ commutes_at (transforms_of_first_grid_signal P2 2 "") (transforms_of_first_group_signal P2 2 "" "") (apply L) x.
Proof.
  destruct (fails_to_commute_ok (transforms_of_first_grid_signal P2 2 "") (transforms_of_first_group_signal P2 2 "" "") 2 false
    (with_format (with_group "P2" "" (One 2) 1 (Some (One 3)) (Some (Some "valid_equiv")) None true) "channels_first")
    (static_channels_first_shape false None [4; 4] 0 2) some_weights some_weights (some_signal [1; 2; 4; 4])) as [L [B F]]; [vm_compute; reflexivity|].
  eexists; exists some_weights, some_weights, L, (some_signal [1; 2; 4; 4]). split; [|split; [exact B|split; [reflexivity|split; [reflexivity|exact F]]]].
  split; [vm_compute; reflexivity|split; [left; reflexivity|reflexivity]].
Qed.
Print Assumptions C20_channels_first_equivariance_refuted.

(** The same for P4: the output is not even square, unlike that of the 'channels_last'
    layer. *)
Example C20_case_output_shapes :
  let a := with_group "P4" "" (One 2) 1 (Some (One 3)) (Some (Some "valid_equiv")) None true in
  (L <- test_layer 2 false a [None; Some 4; Some 4; Some 2] some_weights some_weights ;; y <- apply L (some_signal [1; 4; 4; 2]) ;; Ok (shape y))
    = Ok [1; 3; 3; 4; 1] /\
  (L <- test_layer 2 false (with_format a "channels_first") [None; Some 2; Some 4; Some 4] some_weights some_weights ;;
   y <- apply L (some_signal [1; 2; 4; 4]) ;; Ok (shape y)) = Ok [1; 1; 3; 1; 4].
Proof. vm_compute. auto. Qed.

(** With 3 channels instead of 2 the channels are padded and the layer raises. *)
Example C20_case_channels :
  let a := with_group "P4" "" (One 2) 1 (Some (One 3)) (Some (Some "valid_equiv")) None true in
  (L <- test_layer 2 false (with_format a "channels_first") [None; Some 3; Some 4; Some 4] some_weights some_weights ;; apply L (some_signal [1; 3; 4; 4]))
  = Err ValueError /\ ~ admissible 3 0 2 3 0.
Proof. split; [vm_compute; reflexivity|]. intros [[q Q] _]. lia. Qed.

(** A layer from signals on P4 to signals on P2, in both formats. *)
Example C46_case :
  let a := with_group "P4" "P2" (One 3) 2 None (Some (Some "same_equiv")) None true in
  match test_layer 2 false a (static_signal_shape true None [3; 4] 4 2) some_weights some_weights,
        test_layer 2 false (with_format a "channels_first") (static_channels_first_shape true None [3; 4] 4 2) some_weights some_weights with
  | Ok L1, Ok L2 =>
      needs_padding (cl_gt L1) = Some false /\ needs_padding (cl_gt L2) = Some false /\
      exists x' y', channels_first (some_signal [1; 3; 4; 4; 2]) = Ok x' /\ shape x' = [1; 2; 3; 4; 4] /\
        apply L2 x' = Ok y' /\ shape y' = [1; 2; 3; 4; 2] /\ (y <- apply L1 (some_signal [1; 3; 4; 4; 2]) ;; channels_first y) = Ok y'
  | _, _ => False
  end.
Proof. vm_compute. split; [reflexivity|]. split; [reflexivity|]. eexists. eexists. repeat split; reflexivity. Qed.

(** Keras accepts the names of the formats in any case of letters, and so do the
    constructors here, but a layer that is given 'Channels_Last' raises on signals on the
    group (only that of a lifting layer is returned), and one that is given
    'Channels_First' raises in both cases. *)
Example C46_case_letters :
  let a := with_group "P4" "" (One 3) 2 None (Some (Some "same_equiv")) None true in
  (exists L, conv_init 2 false (with_format a "Channels_Last") = Ok L /\ cl_format L = "channels_last") /\
  (L <- test_layer 2 false (with_format a "Channels_Last") (static_signal_shape true None [3; 3] 4 2) some_weights some_weights ;;
   apply L (some_signal [1; 3; 3; 4; 2])) = Err BackendError /\
  (L <- test_layer 2 false (with_format a "Channels_Last") (static_signal_shape false None [3; 3] 4 2) some_weights some_weights ;;
   y <- apply L (some_signal [1; 3; 3; 2]) ;; Ok (shape y)) = Ok [1; 3; 3; 4; 2] /\
  (exists L, conv_init 2 false (with_format a "Channels_First") = Ok L /\ cl_format L = "channels_first") /\
  (L <- test_layer 2 false (with_format a "Channels_First") (static_channels_first_shape true None [3; 3] 4 2) some_weights some_weights ;;
   apply L (some_signal [1; 2; 3; 3; 4])) = Err AssertionError /\
  (L <- test_layer 2 false (with_format a "Channels_First") (static_channels_first_shape false None [3; 3] 4 2) some_weights some_weights ;;
   apply L (some_signal [1; 2; 3; 3])) = Err BackendError.
Proof. split; [eexists; split; vm_compute; reflexivity|]. split; [vm_compute; reflexivity|]. split; [vm_compute; reflexivity|].
  split; [eexists; split; vm_compute; reflexivity|]. split; vm_compute; reflexivity. Qed.
