(** C30 in the format channels_first. *)
From Verif Require Import FormatFacts FormatEquiv Properties_Shapes Properties_Formats EquivSpec FormatSpec.
Local Open Scope string_scope.
Local Open Scope list_scope.

Section FormatShapes.
Context {A : Type} {RA : Arith A}.

(** [compute_output_shape] of the same layer in both formats: the filters move to
    axis 1, the group axis stays behind the spatial axes. *)
Theorem C30_in_channels_first name G (a : conv_args A) H opt (tr valued : bool) bs m g c kinit binit L1 L2 k s dl :
  layer_for name G a -> ca_subgroup a = Some H -> option_of a opt ->
  let d := dimension_of name in
  let same := mem_str opt ["SAME"; "SAME_EQUIV"] in
  built d tr a (static_signal_shape valued bs m g c) kinit binit L1 -> List.length m = d -> sizes d a k s dl ->
  built d tr (with_format a "channels_first") (static_channels_first_shape valued bs m g c) kinit binit L2 ->
  let out := map (fun ax => keras_size tr same (nth ax m 0) (nth ax k 0) (nth ax dl 0) (nth ax s 0)) (seq 0 d) in
  conv_compute_output_shape L2 =
    if forallb (fun z => (0 <=? z)%Z) out
    then Ok (bs :: Some (ca_filters a) :: map (fun z => Some (Z.to_nat z)) out ++ [Some (List.length (symmetries_of name))])
    else Err ValueError.
Proof.
  intros LF HS OP d same B1 Lm SZ B2 out.
  pose proof (C30_compute_output_shape name G a H opt tr valued bs m g c kinit binit L1 k s dl LF HS OP B1 Lm SZ) as R1.
  cbv zeta in R1. fold d in R1. fold same in R1. fold out in R1.
  destruct (built_facts name G a H opt tr valued bs m g c kinit binit L1 k s dl LF HS OP B1 Lm SZ)
    as [OK [eb [ea [act [dom [WO [SA [SD [CF [CC [KS [RS PO]]]]]]]]]]]]. fold d in OK, CF.
  destruct LF as [DG [AG AF]], B1 as [L0 [I B]], B2 as [M0 [I2 B2]].
  rewrite conv_init_first in I2 by exact AF. rewrite I in I2. cbn [bind] in I2.
  assert (EM : M0 = cl_first d L0) by congruence. subst M0. clear I2.
  destruct (conv_build_twin G d _ _ name tr a L0 valued bs m g c kinit binit L1 OK DG AG AF I Lm B) as [PB1 TW]. rewrite TW in B2. clear TW.
  destruct (padding_build _ (bs :: Some _ :: map Some m)) as [P|] eqn:PB2 in B2; [|discriminate B2]. cbn [bind] in B2.
  assert (EO : forall u v : conv_layer A, Ok u = Ok v -> u = v) by congruence. apply EO in B2. subst L2. clear EO.
  unfold conv_compute_output_shape, twin_of.
  cbn [cl_gt gt_reshaped gt_transpose cl_format cl_padding cl_filters cl_kernel_size cl_strides cl_dilation].
  destruct CF. rewrite cf_tr, cf_padding, cf_filters, KS, cf_strides, cf_dilation.
  unfold keras_conv_output_shape. cbn [String.eqb Ascii.eqb Bool.eqb].
  assert (LI : (List.length (bs :: Some (if valued then g * c else c) :: map Some m) =? List.length k + 2)%nat = true).
  { apply Nat.eqb_eq. cbn [List.length]. rewrite map_length. lia. }
  rewrite LI. cbn [bind skipn]. rewrite keras_sizes_known, keras_sizes_check.
  assert (LK : List.length (vzip dilated k dl) = d) by (rewrite length_vzip; lia).
  match goal with |- context[forallb _ ?oo] => assert (OE : oo = out) end.
  { unfold out. destruct tr.
    - rewrite (axes_as_map (fun n k s => Z.of_nat (transpose_size (if is_same opt then "same" else "valid") n k s)) m (vzip dilated k dl) s d Lm LK cf_s).
      apply map_ext_in. intros ax Ia. apply in_seq in Ia. rewrite nth_vzip by lia. unfold keras_size, transposed_size, transpose_size.
      change (is_same opt) with same. destruct same; reflexivity.
    - rewrite (axes_as_map (fun n k s => conv_out_z (if is_same opt then "same" else "valid") n k s) m (vzip dilated k dl) s d Lm LK cf_s).
      apply map_ext_in. intros ax Ia. apply in_seq in Ia. rewrite nth_vzip by lia. unfold keras_size, conv_out_z.
      change (is_same opt) with same. destruct same; reflexivity. }
  rewrite OE. destruct (forallb _ out); cbn [bind]; [|reflexivity]. f_equal.
  replace (map (option_map Z.to_nat) (map Some out)) with (map (fun z => Some (Z.to_nat z)) out) by (symmetry; apply map_map).
  unfold correct_output_shape. cbn [gt_group gt_group_axis nth]. rewrite cf_group, (ok_order _ _ _ _ OK).
  set (mo := map (fun z : Z => Some (Z.to_nat z)) out).
  assert (LO : List.length mo = d) by (unfold mo, out; rewrite !map_length; apply seq_length).
  rewrite py_upto_nat, py_from_nat by (cbn [List.length]; lia).
  rewrite firstn_all2, skipn_all2 by (cbn [List.length]; lia). reflexivity.
Qed.

Lemma plain_builds_pad_nothing name G (a : conv_args A) opt (tr valued : bool) bs m g c kinit binit L1 L2 :
  layer_for name G a -> option_of a opt -> In opt ["SAME"; "VALID"] ->
  let d := dimension_of name in
  built d tr a (static_signal_shape valued bs m g c) kinit binit L1 -> List.length m = d ->
  built d tr (with_format a "channels_first") (static_channels_first_shape valued bs m g c) kinit binit L2 ->
  needs_padding (cl_gt L1) = Some false /\ needs_padding (cl_gt L2) = Some false.
Proof.
  intros [DG [AG AF]] [q [PQ UQ]] IP d [L0 [I B]] Lm [M0 [I2 B2]].
  pose proof DG as DG'. apply lib_ok in DG' as [_ OK]. fold d in OK.
  destruct (conv_init_inv G d name tr a L0 DG AG AF I) as [p [k [s [dl [Hn [PN [_ [_ [_ [_ [_ [_ [_ [_ [P [PI EL]]]]]]]]]]]]]]]].
  unfold padding_name in PN. rewrite PQ in PN. assert (q = p) as -> by congruence.
  assert (EP : gt_padding (cl_gt L0) = P) by (rewrite EL; reflexivity).
  apply padding_init_inv in PI as [Eo _].
  assert (PLN : is_plain (pl_option (gt_padding (cl_gt L0))) = true).
  { rewrite EP, Eo, UQ. destruct IP as [<-|[<-|[]]]; reflexivity. }
  rewrite conv_init_first in I2 by exact AF. rewrite I in I2. cbn [bind] in I2.
  assert (EM : M0 = cl_first d L0) by congruence. subst M0.
  destruct (conv_build_twin G d _ _ name tr a L0 valued bs m g c kinit binit L1 OK DG AG AF I Lm B) as [PB1 TW]. rewrite TW in B2. clear TW.
  destruct (padding_build _ (bs :: Some _ :: map Some m)) as [P2|] eqn:PB2 in B2; [|discriminate B2]. cbn [bind] in B2.
  assert (EO : forall u v : conv_layer A, Ok u = Ok v -> u = v) by congruence. apply EO in B2. subst L2.
  unfold needs_padding. cbn [twin_of cl_gt gt_padding]. split; [exact (plain_no_padding _ _ _ PLN PB1)|exact (plain_no_padding _ _ _ PLN PB2)].
Qed.

(** It is right about calls on inputs of the size the layer was built for, with the
    options 'same' and 'valid', if the output has an entry for every element of the
    group. *)
Theorem C30_agrees_in_channels_first name G (a : conv_args A) H opt (tr valued : bool) bs m g c kinit binit L1 L2 k s dl x b y :
  layer_for name G a -> ca_subgroup a = Some H -> option_of a opt -> In opt ["SAME"; "VALID"] ->
  let d := dimension_of name in
  built d tr a (static_signal_shape valued bs m g c) kinit binit L1 -> List.length m = d -> sizes d a k s dl ->
  built d tr (with_format a "channels_first") (static_channels_first_shape valued bs m g c) kinit binit L2 ->
  (forall ax, ax < d -> 0 < nth ax m 0) ->
  (tr = true \/ List.length (symmetries_of (if String.eqb H "" then name else H)) = List.length (symmetries_of name)) ->
  wf x -> shape x = channels_first_shape valued b m g c -> apply L2 x = Ok y ->
  exists rest, shape y = b :: rest /\ conv_compute_output_shape L2 = Ok (bs :: map Some rest).
Proof.
  intros LF HS OP IP d B1 Lm SZ B2 PM FU W SH CA.
  destruct (plain_builds_pad_nothing name G a opt tr valued bs m g c kinit binit L1 L2 LF OP IP B1 Lm B2) as [N1 N2].
  destruct (conv_agree name G a tr valued bs m g c kinit binit L1 L2 LF B1 Lm B2 N1 N2) as [act [dom [_ [_ AGR]]]]. fold d in AGR.
  assert (Z : exists z, wf z /\ shape z = signal_shape valued b m g c /\ channels_first z = Ok x).
  { unfold channels_first_shape in SH. unfold channels_first, signal_shape. destruct valued.
    - destruct (tensor_first4 d b m g c x W Lm SH) as [f ->].
      exists (tab (b :: m ++ [g; c]) (sig4 d f)). split; [apply wf_tab|]. split; [apply shape_tab|]. apply (proj1 (move4 d b m g c f Lm)).
    - rewrite app_nil_r in SH. destruct (tensor_first3 b m c x W SH) as [f ->].
      exists (tab (b :: m ++ [c]) (sig3 d f)). split; [apply wf_tab|]. split; [apply shape_tab|]. apply (proj1 (move3 d b m c f Lm)). }
  destruct Z as [z [WZ [SZ' CZ]]].
  destruct (AGR z b m WZ Lm SZ') as [[e [_ Q]]|[m' [o [Y [Lm' [Q1 Q2]]]]]]; rewrite CZ in *; cbn [bind] in *; [congruence|].
  destruct (C30_agrees_without_extra_padding name G a H opt tr valued bs m g c kinit binit L1 k s dl z b _ LF HS OP IP B1 Lm SZ PM FU WZ SZ' Q1)
    as [rest [RS CS]]. rewrite shape_tab in RS.
  assert (rest = m' ++ [List.length act; o]) as -> by congruence.
  rewrite (C30_compute_output_shape name G a H opt tr valued bs m g c kinit binit L1 k s dl LF HS OP B1 Lm SZ) in CS. cbv zeta in CS. fold d in CS.
  rewrite (C30_in_channels_first name G a H opt tr valued bs m g c kinit binit L1 L2 k s dl LF HS OP B1 Lm SZ B2). cbv zeta. fold d.
  destruct (forallb _ _); [|discriminate CS].
  set (mo := map (fun z => Some (Z.to_nat z)) _) in *.
  assert (E1 : mo ++ [Some (List.length (symmetries_of name)); Some (ca_filters a)] = map Some (m' ++ [List.length act; o])) by congruence.
  rewrite map_app in E1. cbn [map] in E1.
  assert (LO : List.length mo = List.length (map (@Some nat) m')).
  { apply (f_equal (@List.length (option nat))) in E1. rewrite !app_length in E1. cbn [List.length] in E1. lia. }
  assert (E2 : mo = map Some m').
  { apply (f_equal (firstn (List.length mo))) in E1. rewrite firstn_app_exact in E1 by reflexivity. rewrite LO, firstn_app_exact in E1 by reflexivity. exact E1. }
  rewrite E2 in E1. apply app_inv_head in E1.
  exists (o :: m' ++ [List.length act]). assert (y = tab (b :: o :: m' ++ [List.length act]) (first4 d Y)) as -> by congruence.
  split; [apply shape_tab|]. f_equal. f_equal. cbn [map]. rewrite map_app, E2. cbn [map].
  assert (ca_filters a = o) as -> by congruence. assert (List.length (symmetries_of name) = List.length act) as -> by congruence. reflexivity.
Qed.

(** [compute_output_shape] and [call] of a layer that has not been built, in either format. *)
Theorem C30_before_build d tr (a : conv_args A) L0 x : conv_init d tr a = Ok L0 ->
  conv_compute_output_shape L0 = Err AttributeError /\ conv_call L0 x = (L0, Err AttributeError).
Proof.
  unfold conv_init, gt_init. intros I.
  destruct (match ca_group a with Object G => Ok G | ByName s => dict_get group_dict s end) as [G|]; [|discriminate I]. cbn [bind] in I.
  destruct (match parse_subgroup G (ca_subgroup a) with None => Err KeyError | Some s => dict_get group_dict s end) as [H|]; [|discriminate I]. cbn [bind] in I.
  set (da := if tr then (g_name H, g_name G) else (g_name G, g_name H)) in I. destruct da as [dom act]. cbv zeta in I.
  destruct (padding_init _ _ _ _ _ _ _) as [P|]; [|discriminate I]. cbn [bind] in I.
  destruct (standardize_tuple d (ca_kernel_size a)) as [k|]; [|discriminate I]. cbn [bind] in I.
  destruct (standardize_tuple d (match ca_strides a with Some s => s | None => One 1 end)) as [s|]; [|discriminate I]. cbn [bind] in I.
  destruct (standardize_tuple d (match ca_dilation a with Some s => s | None => One 1 end)) as [dl|]; [|discriminate I]. cbn [bind] in I.
  destruct (standardize_padding _) as [p|]; [|discriminate I]. cbn [bind] in I.
  destruct (standardize_format _) as [f|]; [|discriminate I]. cbn [bind] in I.
  destruct (0 <? ca_filters a)%nat in I; [|discriminate I]. destruct (negb _) in I; [|discriminate I].
  assert (EO : forall u v : conv_layer A, Ok u = Ok v -> u = v) by congruence. apply EO in I. subst L0. split; reflexivity.
Qed.

End FormatShapes.
Print Assumptions C30_before_build.
Print Assumptions C30_in_channels_first.
Print Assumptions C30_agrees_in_channels_first.

(** A layer for signals on P4 in both formats, 3 channels, size 5 x 4, two filters. *)
Example C30_formats_case :
  let a := with_group "P4" "" (One 3) 2 None (Some (Some "valid")) None true in
  match test_layer 2 false a [None; Some 5; Some 4; Some 4; Some 3] some_weights some_weights,
        test_layer 2 false (with_format a "channels_first") [None; Some 3; Some 5; Some 4; Some 4] some_weights some_weights with
  | Ok L1, Ok L2 =>
      conv_compute_output_shape L1 = Ok [None; Some 3; Some 2; Some 4; Some 2] /\
      conv_compute_output_shape L2 = Ok [None; Some 2; Some 3; Some 2; Some 4] /\
      match apply L2 (some_signal [1; 3; 5; 4; 4]) with Ok y => shape y = [1; 2; 3; 2; 4] | Err _ => False end
  | _, _ => False
  end.
Proof. vm_compute. auto. Qed.

(** The layer of the previous case before it is built. *)
Example C30_case_before_build :
  match conv_init 2 false (with_group "P4" "" (One 3) 2 None (Some (Some "valid")) None true) with
  | Ok L0 => conv_compute_output_shape L0 = Err AttributeError /\ snd (conv_call L0 (some_signal [1; 5; 4; 4; 3])) = Err AttributeError
  | Err _ => False
  end.
Proof. vm_compute. auto. Qed.
