(** C29, C30, C35: shapes of the outputs of convolution layers, and what calls do to
    the layer. *)
From Verif Require Import ShapeFacts.
Local Open Scope string_scope.
Local Open Scope list_scope.

Section Shapes.
Context {A : Type} {RA : Arith A}.

(** Sizes along an axis: [n] of the (padded) input, [k] of the kernel, dilation [dl],
    stride [s]. *)
Definition conv_size (same : bool) (n k dl s : nat) : nat :=
  if same then (n + s - 1) / s else (n - dilated k dl) / s + 1.
Definition transposed_size (same : bool) (n k dl s : nat) : nat :=
  if same then n * s else n * s + (dilated k dl - s).

(** The layer returns a tensor with one entry per element of the subgroup, and sizes
    as for an ordinary convolution of the padded input, of sizes [np].  It raises
    exactly when that input is smaller than the kernel and the backend does not pad. *)
Theorem C29_output_shape name G (a : conv_args A) H opt (valued : bool) bs m g c kinit binit L k s dl :
  layer_for name G a -> ca_subgroup a = Some H -> option_of a opt ->
  let d := dimension_of name in
  let o := ca_filters a in
  let C := if valued then g * c else c in
  let same := mem_str opt ["SAME"; "SAME_EQUIV"] in
  built d false a (static_signal_shape valued bs m g c) kinit binit L -> List.length m = d -> sizes d a k s dl ->
  exists P, padding_of a false d bs m C P /\
  forall x b m', wf x -> List.length m' = d -> (forall ax, ax < d -> 0 < nth ax m' 0) -> shape x = signal_shape valued b m' g c ->
  exists xp np, padding_call P (merged_signal valued c g x b m') = Ok xp /\ shape xp = b :: np ++ [C] /\ List.length np = d /\
    ((same = true \/ forall ax, ax < d -> dilated (nth ax k 0) (nth ax dl 0) <= nth ax np 0) ->
     exists y, apply L x = Ok y /\
       shape y = b :: map (fun ax => conv_size same (nth ax np 0) (nth ax k 0) (nth ax dl 0) (nth ax s 0)) (seq 0 d)
                   ++ [List.length (symmetries_of (if String.eqb H "" then name else H)); o]) /\
    (~ (same = true \/ forall ax, ax < d -> dilated (nth ax k 0) (nth ax dl 0) <= nth ax np 0) -> apply L x = Err BackendError).
Proof.
  intros LF HS OP d o C same B Lm SZ.
  destruct (built_facts name G a H opt false valued bs m g c kinit binit L k s dl LF HS OP B Lm SZ)
    as [OK [eb [ea [act [dom [WO [SA [SD [CF [CC [KS [RS PO]]]]]]]]]]]]. fold d in OK, SA, SD, CF, PO. fold C in CF, PO. fold o in CF.
  exists (gt_padding (cl_gt L)). split; [exact PO|]. intros x b m' W Lm' PM SH.
  assert (XP : padding_call (gt_padding (cl_gt L)) (merged_signal valued c g x b m')
     = Ok (tab (b :: padded eb m' ea ++ [C]) (sig3 d (bordered eb m' (merged_fun valued x c))))).
  { rewrite (merged_signal_eq d valued c g x b m' W Lm' SH). destruct CF. apply cf_pads. exact Lm'. }
  eexists. exists (padded eb m' ea). split; [exact XP|]. split; [apply shape_tab|].
  assert (LE1 : List.length eb = d) by (destruct CF; assumption). assert (LE2 : List.length ea = d) by (destruct CF; assumption).
  assert (L1 : List.length (padded eb m' ea) = d) by (apply length_padded; assumption). split; [exact L1|].
  unfold apply. rewrite (conv_apply_call G d _ _ false valued act dom c C o k s dl eb ea (is_same opt) (ca_use_bias a) (ca_activation a)
    kinit binit L x b m' g CF CC Lm' SH).
  pose proof (merged_input d valued x b m' g c W Lm' SH) as MG. change (if valued then g * c else c) with C in MG.
  rewrite (conv_call_eq G d _ _ OK valued act dom c C o k s dl eb ea (is_same opt) (ca_use_bias a) (ca_activation a) kinit binit L x b m' _ CF Lm' MG).
  destruct CF. set (ke := vzip dilated k dl). set (m1 := padded eb m' ea) in *.
  change (is_same opt) with same. set (pads := builtin_pads (padding_string same) m1 ke s).
  set (m2 := padded (map fst pads) m1 (map snd pads)).
  assert (LK : List.length ke = d) by (unfold ke; rewrite length_vzip; lia).
  assert (LP : List.length pads = d) by (apply length_builtin; assumption).
  assert (L2 : List.length m2 = d) by (apply length_padded; rewrite ?map_length; assumption).
  assert (NK : forall ax, ax < d -> nth ax ke 0 = dilated (nth ax k 0) (nth ax dl 0)) by (intros ax Hax; unfold ke; rewrite nth_vzip by lia; reflexivity).
  assert (N2 : forall ax, ax < d -> nth ax m2 0 = nth ax m1 0 + backend_total same (nth ax m1 0) (nth ax ke 0) (nth ax s 0)).
  { intros ax Hax. apply (backend_sizes d); assumption. }
  assert (P1 : forall ax, ax < d -> 0 < nth ax m1 0).
  { intros ax Hax. unfold m1. rewrite (nth_padded _ _ _ d) by assumption. pose proof (PM ax Hax). lia. }
  assert (FIT : (same = true \/ forall ax, ax < d -> dilated (nth ax k 0) (nth ax dl 0) <= nth ax m1 0)
                <-> forallb (fun p => fst p <=? snd p)%nat (combine ke m2) = true).
  { split.
    - intros HH. apply (forallb_combine_le_iff ke m2 d LK L2). intros ax Hax. rewrite N2 by exact Hax. unfold backend_total.
      destruct same.
      + apply (same_size (nth ax m1 0) (nth ax ke 0) (nth ax s 0)); [apply P1; exact Hax|rewrite NK by exact Hax; apply dilated_pos|apply cf_spos; exact Hax].
      + destruct HH as [HH|HH]; [discriminate HH|]. rewrite NK by exact Hax. pose proof (HH ax Hax). lia.
    - intros FB. destruct same; [left; reflexivity|]. right. intros ax Hax. pose proof (forallb_combine_le ke m2 d LK L2 FB ax Hax) as X.
      rewrite N2, NK in X by exact Hax. cbn [backend_total] in X. lia. }
  split.
  - intros HH. apply FIT in HH. rewrite HH. cbn [snd]. eexists. split; [reflexivity|]. rewrite shape_tab. f_equal. f_equal.
    + unfold outs. rewrite (axes_as_map out_size m2 ke s d L2 LK cf_s). apply map_ext_in. intros ax I. apply in_seq in I.
      rewrite N2 by lia. unfold conv_size, backend_total. destruct same.
      * apply (same_size (nth ax m1 0) (nth ax ke 0) (nth ax s 0)); [apply P1; lia|rewrite NK by lia; apply dilated_pos|apply cf_spos; lia].
      * rewrite NK by lia. unfold out_size. rewrite Nat.add_0_r. reflexivity.
    + destruct LF as [DG _]. destruct (lib_ok _ _ DG) as [GN _]. rewrite (sub_length _ _ _ _ _ _ (lib_named _ _ DG GN) OK SA), GN. reflexivity.
  - intros HH. destruct (forallb _ (combine ke m2)); [exfalso; apply HH, FIT; reflexivity|]. reflexivity.
Qed.

(** A transposed layer always succeeds; one entry per element of the whole group. *)
Theorem C29_transposed_output_shape name G (a : conv_args A) H opt (valued : bool) bs m g c kinit binit L k s dl :
  layer_for name G a -> ca_subgroup a = Some H -> option_of a opt ->
  let d := dimension_of name in
  let o := ca_filters a in
  let C := if valued then g * c else c in
  let same := mem_str opt ["SAME"; "SAME_EQUIV"] in
  built d true a (static_signal_shape valued bs m g c) kinit binit L -> List.length m = d -> sizes d a k s dl ->
  exists P, padding_of a true d bs m C P /\
  forall x b m', wf x -> List.length m' = d -> shape x = signal_shape valued b m' g c ->
  exists xp np y, padding_call P (merged_signal valued c g x b m') = Ok xp /\ shape xp = b :: np ++ [C] /\ List.length np = d /\
    apply L x = Ok y /\
    shape y = b :: map (fun ax => transposed_size same (nth ax np 0) (nth ax k 0) (nth ax dl 0) (nth ax s 0)) (seq 0 d)
                ++ [List.length (symmetries_of name); o].
Proof.
  intros LF HS OP d o C same B Lm SZ.
  destruct (built_facts name G a H opt true valued bs m g c kinit binit L k s dl LF HS OP B Lm SZ)
    as [OK [eb [ea [act [dom [WO [SA [SD [CF [CC [KS [RS PO]]]]]]]]]]]]. fold d in OK, SA, SD, CF, PO. fold C in CF, PO. fold o in CF.
  exists (gt_padding (cl_gt L)). split; [exact PO|]. intros x b m' W Lm' SH.
  assert (XP : padding_call (gt_padding (cl_gt L)) (merged_signal valued c g x b m')
     = Ok (tab (b :: padded eb m' ea ++ [C]) (sig3 d (bordered eb m' (merged_fun valued x c))))).
  { rewrite (merged_signal_eq d valued c g x b m' W Lm' SH). destruct CF. apply cf_pads. exact Lm'. }
  eexists. exists (padded eb m' ea).
  assert (LE1 : List.length eb = d) by (destruct CF; assumption). assert (LE2 : List.length ea = d) by (destruct CF; assumption).
  assert (L1 : List.length (padded eb m' ea) = d) by (apply length_padded; assumption).
  unfold apply. rewrite (conv_apply_call G d _ _ true valued act dom c C o k s dl eb ea (is_same opt) (ca_use_bias a) (ca_activation a)
    kinit binit L x b m' g CF CC Lm' SH).
  pose proof (merged_input d valued x b m' g c W Lm' SH) as MG. change (if valued then g * c else c) with C in MG.
  rewrite (conv_transpose_call_eq G d _ _ OK valued act dom c C o k s dl eb ea (is_same opt) (ca_use_bias a) (ca_activation a) kinit binit L x b m' _ CF Lm' MG).
  eexists. split; [exact XP|]. split; [apply shape_tab|]. split; [exact L1|]. split; [reflexivity|].
  destruct CF. assert (LK : List.length (vzip dilated k dl) = d) by (rewrite length_vzip; lia).
  rewrite shape_tab. f_equal. f_equal.
  - unfold touts. rewrite (axes_as_map (transpose_size (padding_string (is_same opt))) _ _ _ d L1 LK cf_s). apply map_ext_in. intros ax I. apply in_seq in I.
    rewrite nth_vzip by lia. unfold transpose_size, transposed_size. rewrite padding_string_same. reflexivity.
  - rewrite (whole_dom _ _ _ _ _ OK SA), seq_length. reflexivity.
Qed.

(** compute_output_shape ignores its argument: it works with the sizes [m] the layer
    was built for, without extra padding, and with one entry per element of the
    whole group. *)
Definition keras_size (tr same : bool) (n k dl s : nat) : Z :=
  if tr then Z.of_nat (transposed_size same n k dl s)
  else if same then ((Z.of_nat n - 1) / Z.of_nat s + 1)%Z
  else ((Z.of_nat n - Z.of_nat (dilated k dl)) / Z.of_nat s + 1)%Z.

Theorem C30_compute_output_shape name G (a : conv_args A) H opt (tr valued : bool) bs m g c kinit binit L k s dl :
  layer_for name G a -> ca_subgroup a = Some H -> option_of a opt ->
  let d := dimension_of name in
  let same := mem_str opt ["SAME"; "SAME_EQUIV"] in
  built d tr a (static_signal_shape valued bs m g c) kinit binit L -> List.length m = d -> sizes d a k s dl ->
  let out := map (fun ax => keras_size tr same (nth ax m 0) (nth ax k 0) (nth ax dl 0) (nth ax s 0)) (seq 0 d) in
  conv_compute_output_shape L =
    if forallb (fun z => (0 <=? z)%Z) out
    then Ok (bs :: map (fun z => Some (Z.to_nat z)) out ++ [Some (List.length (symmetries_of name)); Some (ca_filters a)])
    else Err ValueError.
Proof.
  intros LF HS OP d same B Lm SZ out.
  destruct (built_facts name G a H opt tr valued bs m g c kinit binit L k s dl LF HS OP B Lm SZ)
    as [OK [eb [ea [act [dom [WO [SA [SD [CF [CC [KS [RS PO]]]]]]]]]]]]. fold d in OK, SA, SD, CF, PO.
  destruct CF. unfold conv_compute_output_shape. rewrite RS, cf_tr, cf_fmt', cf_padding, cf_filters, KS, cf_strides, cf_dilation.
  unfold keras_conv_output_shape. cbn [String.eqb Ascii.eqb Bool.eqb].
  assert (LI : (List.length (bs :: map Some m ++ [Some (if valued then g * c else c)]) =? List.length k + 2)%nat = true).
  { apply Nat.eqb_eq. cbn [List.length]. rewrite app_length, map_length. cbn [List.length]. lia. }
  rewrite LI. cbn [bind skipn]. rewrite firstn_app_exact by (rewrite map_length; lia). rewrite keras_sizes_known, keras_sizes_check.
  assert (LK : List.length (vzip dilated k dl) = d) by (rewrite length_vzip; lia).
  match goal with |- context[forallb _ ?oo] => assert (OE : oo = out) end.
  { unfold out. destruct tr.
    - rewrite (axes_as_map (fun n k s => Z.of_nat (transpose_size (if is_same opt then "same" else "valid") n k s)) m (vzip dilated k dl) s d Lm LK cf_s).
      apply map_ext_in. intros ax I. apply in_seq in I. rewrite nth_vzip by lia. unfold keras_size, transposed_size, transpose_size.
      change (is_same opt) with same. destruct same; reflexivity.
    - rewrite (axes_as_map (fun n k s => conv_out_z (if is_same opt then "same" else "valid") n k s) m (vzip dilated k dl) s d Lm LK cf_s).
      apply map_ext_in. intros ax I. apply in_seq in I. rewrite nth_vzip by lia. unfold keras_size, conv_out_z.
      change (is_same opt) with same. destruct same; reflexivity. }
  rewrite OE. destruct (forallb _ out); cbn [bind]; [|reflexivity]. f_equal.
  replace (map (option_map Z.to_nat) (map Some out)) with (map (fun z => Some (Z.to_nat z)) out) by (symmetry; apply map_map).
  unfold correct_output_shape. rewrite cf_group, cf_gaxis, (ok_order _ _ _ _ OK). cbn [nth].
  set (mo := map (fun z : Z => Some (Z.to_nat z)) out).
  assert (LO : List.length mo = d) by (unfold mo, out; rewrite !map_length; apply seq_length).
  rewrite py_upto_nat, py_from_nat by (cbn [List.length]; rewrite app_length; cbn [List.length]; lia).
  replace (d + 1) with (S d) by lia. cbn [firstn skipn]. rewrite firstn_app_exact, skipn_app_exact by congruence. reflexivity.
Qed.

(** It is right about calls on inputs of the size the layer was built for, if the
    layer adds no padding of its own (options 'same' and 'valid') and the output has
    an entry for every element of the group. *)
Lemma plain_widths opt allow same tr d m k s eb ea : In opt ["SAME"; "VALID"] -> widths_ok (is_plain opt) allow same tr d m k s eb ea ->
  eb = zeros_of d /\ ea = zeros_of d.
Proof.
  intros IP [L1 [L2 [[_ Q]|[_ Q]]]]; [exact Q|].
  assert (PT : is_plain opt = true) by (destruct IP as [<-|[<-|[]]]; reflexivity).
  split; apply nth_ext with (d := 0) (d' := 0); unfold zeros_of; rewrite ?repeat_length; try assumption; intros ax Hax;
    rewrite nth_repeat; destruct (Q ax) as [_ [_ [_ [_ Z]]]]; try lia; specialize (Z PT); lia.
Qed.

Theorem C30_agrees_without_extra_padding name G (a : conv_args A) H opt (tr valued : bool) bs m g c kinit binit L k s dl x b y :
  layer_for name G a -> ca_subgroup a = Some H -> option_of a opt -> In opt ["SAME"; "VALID"] ->
  let d := dimension_of name in
  built d tr a (static_signal_shape valued bs m g c) kinit binit L -> List.length m = d -> sizes d a k s dl ->
  (forall ax, ax < d -> 0 < nth ax m 0) ->
  (tr = true \/ List.length (symmetries_of (if String.eqb H "" then name else H)) = List.length (symmetries_of name)) ->
  wf x -> shape x = signal_shape valued b m g c -> apply L x = Ok y ->
  exists rest, shape y = b :: rest /\ conv_compute_output_shape L = Ok (bs :: map Some rest).
Proof.
  intros LF HS OP IP d B Lm SZ PM FU W SH CA.
  rewrite (C30_compute_output_shape name G a H opt tr valued bs m g c kinit binit L k s dl LF HS OP B Lm SZ). cbv zeta. fold d.
  destruct (built_facts name G a H opt tr valued bs m g c kinit binit L k s dl LF HS OP B Lm SZ)
    as [OK [eb [ea [act [dom [WO [SA [SD [CF [CC [KS [RS PO]]]]]]]]]]]]. fold d in OK, SA, SD, CF, PO, WO.
  destruct (plain_widths _ _ _ _ _ _ _ _ _ _ IP WO) as [-> ->].
  set (C := if valued then g * c else c) in *.
  assert (PF : forall P xp np, padding_of a tr d bs m C P -> padding_call P (merged_signal valued c g x b m) = Ok xp -> shape xp = b :: np ++ [C] -> np = m).
  { intros P xp np [P0 [I1 I2]] X1 X2. destruct PO as [P0' [J1 J2]]. assert (P0' = P0) as -> by congruence.
    assert (P = gt_padding (cl_gt L)) as -> by congruence.
    rewrite (merged_signal_eq d valued c g x b m W Lm SH) in X1. fold C in X1. destruct CF. rewrite (cf_pads _ _ _ _ Lm), bordered_zeros in X1 by exact Lm.
    injection X1 as <-. cbn [shape tab] in X2. injection X2 as X2. apply app_inv_tail in X2. congruence. }
  assert (SP : forall ax, ax < d -> 0 < nth ax s 0) by (destruct CF; assumption).
  destruct tr.
  - destruct (C29_transposed_output_shape name G a H opt valued bs m g c kinit binit L k s dl LF HS OP B Lm SZ) as [P [PO' Q]].
    destruct (Q x b m W Lm SH) as [xp [np [y' [X1 [X2 [_ [CA' SY]]]]]]]. assert (y' = y) as -> by congruence.
    rewrite (PF P xp np PO' X1 X2) in SY. fold d in SY. eexists. split; [exact SY|].
    match goal with |- context[forallb ?p ?l] => assert (FB : forallb p l = true) end.
    { apply forallb_forall. intros z Z. apply in_map_iff in Z as [ax [<- _]]. unfold keras_size. apply Z.leb_le. lia. }
    rewrite FB. f_equal. f_equal. rewrite map_app, !map_map. f_equal. apply map_ext. intros ax. unfold keras_size. rewrite Nat2Z.id. reflexivity.
  - destruct (C29_output_shape name G a H opt valued bs m g c kinit binit L k s dl LF HS OP B Lm SZ) as [P [PO' Q]].
    destruct (Q x b m W Lm PM SH) as [xp [np [X1 [X2 [_ [Q1 Q2]]]]]]. rewrite (PF P xp np PO' X1 X2) in Q1, Q2. fold d in Q1, Q2. clear Q.
    destruct FU as [FU|FU]; [discriminate FU|].
    set (same := mem_str opt ["SAME"; "SAME_EQUIV"]) in *.
    assert (FIT : same = true \/ forall ax, ax < d -> dilated (nth ax k 0) (nth ax dl 0) <= nth ax m 0).
    { destruct same; [left; reflexivity|]. right. intros ax Hax.
      destruct (Nat.le_gt_cases (dilated (nth ax k 0) (nth ax dl 0)) (nth ax m 0)) as [X|X]; [exact X|]. exfalso.
      rewrite Q2 in CA; [discriminate CA|]. intros [Y|Y]; [discriminate Y|]. specialize (Y ax Hax). lia. }
    destruct (Q1 FIT) as [y' [CA' SY]]. assert (y' = y) as -> by congruence. rewrite FU in SY. eexists. split; [exact SY|].
    assert (EQ : forall ax, ax < d -> keras_size false same (nth ax m 0) (nth ax k 0) (nth ax dl 0) (nth ax s 0)
       = Z.of_nat (conv_size same (nth ax m 0) (nth ax k 0) (nth ax dl 0) (nth ax s 0))).
    { intros ax Hax. unfold keras_size, conv_size. specialize (PM ax Hax). specialize (SP ax Hax). destruct same.
      - rewrite Nat2Z.inj_div. replace (Z.of_nat (nth ax m 0 + nth ax s 0 - 1)) with (Z.of_nat (nth ax m 0%nat) - 1 + 1 * Z.of_nat (nth ax s 0%nat))%Z by lia.
        rewrite Z.div_add by lia. reflexivity.
      - destruct FIT as [FIT|FIT]; [discriminate FIT|]. specialize (FIT ax Hax).
        rewrite Nat2Z.inj_add, Nat2Z.inj_div, Nat2Z.inj_sub by exact FIT. reflexivity. }
    match goal with |- context[forallb ?p ?l] => assert (FB : forallb p l = true) end.
    { apply forallb_forall. intros z Z. apply in_map_iff in Z as [ax [<- I]]. apply in_seq in I. rewrite EQ by lia. apply Z.leb_le. lia. }
    rewrite FB. f_equal. f_equal. rewrite map_app, !map_map. f_equal. apply map_ext_in. intros ax I. apply in_seq in I. rewrite EQ by lia. rewrite Nat2Z.id. reflexivity.
Qed.

(** ** Histories of calls *)

Fixpoint calls (L : conv_layer A) (xs : list (tensor A)) : conv_layer A * list (result (tensor A)) :=
  match xs with
  | [] => (L, [])
  | x :: xs' => let '(L1, r) := conv_apply L x in let '(L2, rs) := calls L1 xs' in (L2, r :: rs)
  end.

(** Calls that succeed leave the layer as it is, whatever the layer: they all return
    what the layer returns at the beginning. *)
Lemma success_keeps (L L' : conv_layer A) x y : conv_apply L x = (L', Ok y) -> L' = L.
Proof.
  unfold conv_apply. intros Q.
  assert (CC : conv_call L x = (L', Ok y)).
  { destruct (rank x <? gt_dims (cl_gt L) + 2)%nat; [discriminate Q|]. destruct (cl_channels L) as [c|]; [|exact Q].
    destruct (_ =? c)%nat; [exact Q|discriminate Q]. }
  unfold conv_call in CC. destruct (cl_kernel L) as [K|] eqn:EK; [|discriminate CC].
  destruct (prepare_call (cl_gt L) K (cl_bias L) (cl_filters L) x) as [[[[k b] f] xx]|e]; [|discriminate CC].
  match type of CC with match ?r with _ => _ end = _ => destruct r as [z|e]; [|discriminate CC] end.
  injection CC as <- _. rewrite set_weights_set, <- EK. apply set_weights_id.
Qed.

Theorem C35_successful_calls_change_nothing (L L' : conv_layer A) xs ys :
  calls L xs = (L', map Ok ys) -> L' = L /\ map (apply L) xs = map Ok ys.
Proof.
  revert ys. induction xs as [|x xs IH]; intros ys Q; cbn [calls] in Q.
  - destruct ys; [|discriminate Q]. injection Q as <-. split; reflexivity.
  - destruct (conv_apply L x) as [L1 r] eqn:CA. destruct (calls L1 xs) as [L2 rs] eqn:CS. destruct ys as [|y ys]; [discriminate Q|].
    cbn [map] in Q. injection Q as <- -> ->. pose proof (success_keeps _ _ _ _ CA) as ->.
    destruct (IH ys CS) as [-> E]. split; [reflexivity|]. cbn [map]. rewrite E. unfold apply at 1. rewrite CA. reflexivity.
Qed.

(** A call that raises leaves the layer as it is, or with the transformed weights. *)
Theorem C35_what_a_failing_call_leaves (L L' : conv_layer A) x e :
  conv_apply L x = (L', Err e) ->
  L' = L \/
  exists K K' b' f' xp, cl_kernel L = Some K /\ prepare_call (cl_gt L) K (cl_bias L) (cl_filters L) x = Ok (K', b', f', xp) /\
    transform_kernel (cl_gt L) K = Ok K' /\ cl_kernel L' = Some K' /\ cl_bias L' = b' /\ cl_filters L' = f' /\ cl_gt L' = cl_gt L.
Proof.
  unfold conv_apply. intros Q.
  assert (CC : L' = L \/ conv_call L x = (L', Err e)).
  { destruct (rank x <? gt_dims (cl_gt L) + 2)%nat; [injection Q as <- _; left; reflexivity|]. destruct (cl_channels L) as [c|]; [|right; exact Q].
    destruct (_ =? c)%nat; [right; exact Q|injection Q as <- _; left; reflexivity]. }
  destruct CC as [CC|CC]; [left; exact CC|]. unfold conv_call in CC. destruct (cl_kernel L) as [K|] eqn:EK; [|injection CC as <- _; left; reflexivity].
  destruct (prepare_call (cl_gt L) K (cl_bias L) (cl_filters L) x) as [[[[k b] f] xx]|e'] eqn:PC; [|injection CC as <- _; left; reflexivity].
  match type of CC with match ?r with _ => _ end = _ => destruct r as [z|e'] end; [discriminate CC|].
  injection CC as <- _. right. exists K, k, b, f, xx. split; [reflexivity|]. split; [exact PC|]. split; [|repeat split; reflexivity].
  unfold prepare_call in PC. destruct (merge_group_axis_and_pad (cl_gt L) x) as [x'|]; [|discriminate PC]. cbn [bind] in PC.
  destruct (transform_kernel (cl_gt L) K) as [K'|]; [|discriminate PC]. cbn [bind] in PC.
  destruct (match cl_bias L with Some b => _ | None => Ok None end) as [b'|]; [|discriminate PC]. cbn [bind] in PC.
  destruct (subgroup_get (gt_group (cl_gt L)) (gt_acting (cl_gt L))) as [ac|]; [|discriminate PC]. cbn [bind] in PC. congruence.
Qed.

End Shapes.

Print Assumptions C29_output_shape.
Print Assumptions C29_transposed_output_shape.
Print Assumptions C30_compute_output_shape.
Print Assumptions C30_agrees_without_extra_padding.
Print Assumptions C35_successful_calls_change_nothing.
Print Assumptions C35_what_a_failing_call_leaves.

(** Three calls, the first and the third on the same signal: the results of the first and
    the third agree and differ from the second, the weights are the initial ones, although
    they were replaced by transformed ones of another shape during each call. *)
Example C35_example :
  match test_layer 2 false (with_group "P4" "" (One 3) 2 None None None true) [None; Some 3; Some 3; Some 1] some_weights some_weights with
  | Ok L =>
      let x := some_signal [1; 3; 3; 1] in
      let x' := mkTensor [1; 3; 3; 1] (rev (data x)) in
      let '(L', rs) := calls L [x; x'; x] in
      match rs with
      | [r1; r2; r3] => same_result r1 r3 && negb (same_result r1 r2) && same_result (apply L' x) r1
      | _ => false
      end
      && match cl_kernel L, cl_kernel L' with
         | Some K, Some K' => same_result (Ok K) (Ok K') && negb (same_result (Ok K) (transform_kernel (cl_gt L) K))
         | _, _ => false
         end
  | Err _ => false
  end = true.
Proof. vm_compute. reflexivity. Qed.


(** ** Examples and counterexamples over the integers *)

Definition result_shape (R : result (conv_layer Z)) (x : tensor Z) : result (list nat * sshape) :=
  L <- R ;; y <- apply L x ;; s <- conv_compute_output_shape L ;; Ok (shape y, s).

(** A P4M layer pooling nothing: sizes 5 with kernel 3, stride 2, 'same'. *)
Example C29_example :
  result_shape (test_layer 2 false (with_group "P4M" "" (One 3) 2 (Some (One 2)) (Some (Some "same")) None true)
                  [None; Some 5; Some 5; Some 8; Some 1] some_weights some_weights) (some_signal [2; 5; 5; 8; 1])
  = Ok ([2; 3; 3; 8; 2], [None; Some 3; Some 3; Some 8; Some 2]).
Proof. vm_compute. reflexivity. Qed.

Example C29_transposed_example :
  result_shape (test_layer 2 true (with_group "P4" "P2" (One 3) 2 (Some (One 2)) (Some (Some "valid")) None true)
                  [None; Some 3; Some 3; Some 2; Some 1] some_weights some_weights) (some_signal [1; 3; 3; 2; 1])
  = Ok ([1; 7; 7; 4; 2], [None; Some 7; Some 7; Some 4; Some 2]).
Proof. vm_compute. reflexivity. Qed.

(** With a proper subgroup the announced group axis is too long. *)
Theorem C30_proper_subgroup_refuted :
  exists (a : conv_args Z) L y,
    built 2 false a [None; Some 5; Some 5; Some 3] some_weights some_weights L /\ layer_for "P4" P4 a /\
    apply L (some_signal [1; 5; 5; 3]) = Ok y /\ shape y = [1; 3; 3; 2; 1] /\
    conv_compute_output_shape L = Ok [None; Some 3; Some 3; Some 4; Some 1].
Proof.
  set (a := with_group "P4" "P2" (One 3) 1 None (Some (Some "valid")) None true).
  destruct (test_layer 2 false a [None; Some 5; Some 5; Some 3] some_weights some_weights) as [L|] eqn:T; [|vm_compute in T; discriminate T].
  assert (X : result_shape (Ok L) (some_signal [1; 5; 5; 3]) = Ok ([1; 3; 3; 2; 1], [None; Some 3; Some 3; Some 4; Some 1])).
  { rewrite <- T. vm_compute. reflexivity. }
  unfold result_shape in X. cbn [bind] in X. destruct (apply L (some_signal [1; 5; 5; 3])) as [y|] eqn:CA; [|discriminate X]. cbn [bind] in X.
  destruct (conv_compute_output_shape L) as [ss|] eqn:CS; [|discriminate X]. cbn [bind] in X. injection X as X1 X2.
  exists a, L, y. split; [apply test_layer_built; exact T|]. split; [split; [vm_compute; reflexivity|split; [left; reflexivity|reflexivity]]|].
  split; [exact CA|]. split; [exact X1|]. rewrite CS, X2. reflexivity.
Qed.
Print Assumptions C30_proper_subgroup_refuted.

(** With extra padding (stride 3 on size 3, kernel 2) the announced sizes are too small. *)
Theorem C30_extra_padding_refuted :
  exists (a : conv_args Z) L y,
    built 2 false a [None; Some 3; Some 3; Some 2] some_weights some_weights L /\ layer_for "P4" P4 a /\
    apply L (some_signal [1; 3; 3; 2]) = Ok y /\ shape y = [1; 2; 2; 4; 1] /\
    conv_compute_output_shape L = Ok [None; Some 1; Some 1; Some 4; Some 1].
Proof.
  set (a := with_group "P4" "" (One 2) 1 (Some (One 3)) (Some (Some "valid_equiv")) None true).
  destruct (test_layer 2 false a [None; Some 3; Some 3; Some 2] some_weights some_weights) as [L|] eqn:T; [|vm_compute in T; discriminate T].
  assert (X : result_shape (Ok L) (some_signal [1; 3; 3; 2]) = Ok ([1; 2; 2; 4; 1], [None; Some 1; Some 1; Some 4; Some 1])).
  { rewrite <- T. vm_compute. reflexivity. }
  unfold result_shape in X. cbn [bind] in X. destruct (apply L (some_signal [1; 3; 3; 2])) as [y|] eqn:CA; [|discriminate X]. cbn [bind] in X.
  destruct (conv_compute_output_shape L) as [ss|] eqn:CS; [|discriminate X]. cbn [bind] in X. injection X as X1 X2.
  exists a, L, y. split; [apply test_layer_built; exact T|]. split; [split; [vm_compute; reflexivity|split; [left; reflexivity|reflexivity]]|].
  split; [exact CA|]. split; [exact X1|]. rewrite CS, X2. reflexivity.
Qed.
Print Assumptions C30_extra_padding_refuted.

Definition broken_by_failure (R : result (conv_layer Z)) : bool :=
  match R with
  | Ok L =>
      match conv_apply L (some_signal [1; 1; 1; 2]) with
      | (L', Err BackendError) =>
          negb (cl_filters L' =? cl_filters L)%nat &&
          match cl_kernel L', cl_kernel L with Some K', Some K => negb (same_tensor K' K) | _, _ => false end &&
          match apply L (some_signal [1; 5; 5; 2]), apply L' (some_signal [1; 5; 5; 2]) with
          | Ok y, Ok y' => negb (same_tensor y' y)
          | _, _ => false
          end
      | _ => false
      end
  | Err _ => false
  end.

(** A layer built for size 5 and called on an image of size 1, smaller than its kernel:
    the call raises, and the next call on a good image returns something else than
    before. *)
Theorem C35_failing_call_refuted :
  exists (a : conv_args Z) L L' y y',
    let good := some_signal [1; 5; 5; 2] in
    built 2 false a [None; Some 5; Some 5; Some 2] some_weights some_weights L /\ layer_for "P4" P4 a /\
    apply L good = Ok y /\
    conv_apply L (some_signal [1; 1; 1; 2]) = (L', Err BackendError) /\
    cl_filters L' <> cl_filters L /\ cl_kernel L' <> cl_kernel L /\
    apply L' good = Ok y' /\ y' <> y.
Proof.
  set (a := with_group "P4" "" (One 3) 1 None (Some (Some "valid")) None false).
  destruct (test_layer 2 false a [None; Some 5; Some 5; Some 2] some_weights some_weights) as [L|] eqn:T; [|vm_compute in T; discriminate T].
  assert (X : broken_by_failure (Ok L) = true) by (rewrite <- T; vm_compute; reflexivity). unfold broken_by_failure in X.
  destruct (conv_apply L (some_signal [1; 1; 1; 2])) as [L' [z|[]]] eqn:CA; try discriminate X.
  apply andb_true_iff in X as [X X3]. apply andb_true_iff in X as [X1 X2].
  destruct (apply L (some_signal [1; 5; 5; 2])) as [y|] eqn:Y; [|discriminate X3].
  destruct (apply L' (some_signal [1; 5; 5; 2])) as [y'|] eqn:Y'; [|discriminate X3].
  exists a, L, L', y, y'. cbv zeta. split; [apply test_layer_built; exact T|]. split; [split; [vm_compute; reflexivity|split; [left; reflexivity|reflexivity]]|].
  split; [exact Y|]. split; [exact CA|]. split; [intros Q; rewrite Q, Nat.eqb_refl in X1; discriminate X1|].
  split. { intros Q. rewrite Q in X2. destruct (cl_kernel L) as [K|]; [|discriminate X2]. apply negb_true_iff in X2.
           rewrite (proj2 (same_tensor_ok K K) eq_refl) in X2. discriminate X2. }
  split; [exact Y'|]. intros ->. apply negb_true_iff in X3. rewrite (proj2 (same_tensor_ok y y) eq_refl) in X3. discriminate X3.
Qed.
Print Assumptions C35_failing_call_refuted.
