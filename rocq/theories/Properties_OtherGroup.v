(** C112: convolution layers called on signals with another group axis, rank or number of channels than they were built for. *)
From Verif Require Import OutputPadding Activations Traced GroupedFacts TracedFacts TranslationFacts Properties_Conv Properties_Grouped EquivSpec.
Local Open Scope string_scope.
Local Open Scope list_scope.

(** The signal that consists of the entries number j*g, ..., j*g + g - 1 along the group axis. *)
Definition group_part {A} {ZA : Zero A} (b : nat) (m : list nat) (g c j : nat) (x : tensor A) : tensor A :=
  let d := List.length m in
  tab (b :: m ++ [g; c]) (fun i => at_ x (firstn (d + 1) i ++ [j * g + nth (d + 1) i 0; nth (d + 2) i 0])).

Section OtherGroup.
Context {A : Type} {RA : Arith A}.

Lemma part_merged d b m g c j N (x : tensor A) : List.length m = d -> 0 < c ->
  merged d true (group_part b m g c j x) b m (g * c) (fun bi p q => merged_fun true x c bi p (j * (g * c) + q)) /\
  (wf x -> shape x = b :: m ++ [N * g; c] -> merged d true x b m (N * (g * c)) (merged_fun true x c)).
Proof.
  intros Lm CP. split.
  - assert (PE : group_part b m g c j x = tab (b :: m ++ [g; c]) (sig4 d (fun bi p e q => fun4 x bi p (j * g + e) q))).
    { unfold group_part. cbv zeta. rewrite Lm. apply tab_ext. intros i I. apply inb4_inv in I as [bi [p [h [q [-> [BI [P [HH Q]]]]]]]].
      pose proof (inb_length _ _ P) as LP. rewrite sig4_ix by lia. rewrite chan_ix, chan_ix2 by lia. unfold fun4.
      rewrite Nat.add_1_r. cbn [firstn app]. rewrite firstn_app_exact by lia. reflexivity. }
    unfold merged. rewrite PE, merge_group by exact Lm. f_equal. apply sig3_ext; [exact Lm|]. intros bi p q _ _ _. unfold merged_fun.
    replace (j * (g * c) + q) with (q + j * g * c) by lia. rewrite Nat.div_add, Nat.mod_add by lia. f_equal. lia.
  - intros W SH. pose proof (merged_input d true x b m (N * g) c W Lm SH) as MI. cbn [Nat.mul] in MI. rewrite <- Nat.mul_assoc in MI. exact MI.
Qed.

Lemma grouped_spec d (L : conv_layer A) (x : tensor A) b m g c : gt_dims (cl_gt L) = d -> cl_format L = "channels_last" -> cl_channels L = Some c ->
  List.length m = d -> shape x = b :: m ++ [g; c] -> grouped_apply L x = grouped_call L x.
Proof.
  intros D F CC Lm SH. unfold grouped_apply, rank. rewrite CC, D, F, SH. cbn [String.eqb Ascii.eqb Bool.eqb].
  assert (LL : List.length (b :: m ++ [g; c]) = d + 3) by (cbn [List.length]; rewrite app_length; cbn [List.length]; lia). rewrite LL.
  destruct (Nat.ltb_spec (d + 3) (d + 2)); [lia|]. replace (d + 3 - 1) with (d + 2) by lia. rewrite (chan_ix2 d b m g c []) by exact Lm. rewrite Nat.eqb_refl. reflexivity.
Qed.

(** Keras' convolutions take an input with N times the channels of the kernel for a convolution in N blocks. So a layer for group signals,
    called on a signal with N times as many entries along the group axis, raises nothing if N divides |subgroup| * filters: the output
    at element number [h] and filter [r] is what the layer returns there for one of the N parts of the signal, which depends on [h] and [r]. *)
Theorem C112_longer_group_axis name G N (a : conv_args A) H opt bs m g c kinit binit L k s dl act :
  layer_for name G a -> ca_subgroup a = Some H -> option_of a opt -> subgroup_indices G H act ->
  let d := dimension_of name in
  let o := ca_filters a in
  let part h r := (h * o + r) / (List.length act * o / N) in
  built d false a (static_signal_shape true bs m g c) kinit binit L -> 0 < c -> List.length m = d -> sizes d a k s dl ->
  0 < N -> Nat.divide N (List.length act * o) ->
  forall x b m', wf x -> List.length m' = d -> shape x = b :: m' ++ [N * g; c] ->
  (exists Y y, (forall j, j < N -> apply L (group_part b m' g c j x) = Ok (Y j)) /\
     grouped_apply L x = (L, Ok y) /\ wf y /\
     (exists mo, List.length mo = d /\ shape y = b :: mo ++ [List.length act; o] /\ forall j, j < N -> wf (Y j) /\ shape (Y j) = shape y) /\
     forall bi p h r, List.length p = d -> inb (shape y) (bi :: p ++ [h; r]) ->
       part h r < N /\ at_ y (bi :: p ++ [h; r]) = at_ (Y (part h r)) (bi :: p ++ [h; r])) \/
  (exists e, grouped_result L x = Err e /\ forall j, j < N -> apply L (group_part b m' g c j x) = Err e).
Proof.
  intros LF HS OP SI d o part BU CP Lm SZ NP DV x b m' W Lm' SH. pose proof LF as [DG _]. apply lib_ok in DG as [_ OK]. fold d in OK.
  destruct (built_facts_at name G d _ _ a H opt false true bs m g c kinit binit L k s dl OK LF HS OP BU Lm SZ)
    as [eb [ea [act' [dom [_ [SA [SD [CF [CC _]]]]]]]]].
  assert (act' = act) as -> by (unfold sub_idx in SA; unfold subgroup_indices in SI; congruence).
  destruct (sub_idx_facts _ _ _ _ OK _ _ SA) as [_ [_ [HA _]]].
  assert (NA : 0 < List.length act) by (destruct act; [discriminate HA|cbn [List.length]; lia]). clear HA.
  fold o in CF. cbv iota in CF.
  assert (GP : 0 < g * c).
  { destruct (SD eq_refl) as [SD' ->]. destruct (sub_idx_facts _ _ _ _ OK _ _ SD') as [_ [_ [HD _]]]. destruct dom; [discriminate HD|cbn [List.length]; nia]. }
  set (X := merged_fun true x c).
  pose proof (proj2 (part_merged d b m' g c 0 N x Lm' CP) W SH) as MX. fold X in MX.
  set (F0 := List.length act * o / N) in *.
  assert (AO : List.length act * o = N * F0) by (unfold F0; destruct DV as [t ->]; rewrite Nat.div_mul by lia; lia).
  pose proof (grouped_call_eq G d _ _ OK true act dom c (g * c) o k s dl eb ea (is_same opt) (ca_use_bias a) (ca_activation a) kinit binit
     N F0 L x b m' X CF Lm' MX NP GP AO) as GC. cbv zeta in GC.
  assert (BC : forall j, j < N -> conv_call L (group_part b m' g c j x) = _)
    by (intros j J; exact (conv_call_eq G d _ _ OK true act dom c (g * c) o k s dl eb ea (is_same opt) (ca_use_bias a) (ca_activation a)
       kinit binit L _ b m' _ CF Lm' (proj1 (part_merged d b m' g c j N x Lm' CP)))).
  cbv zeta in BC. fold X in BC.
  assert (AC : forall j, apply L (group_part b m' g c j x) = snd (conv_call L (group_part b m' g c j x))).
  { intros j. unfold apply. rewrite (conv_apply_call G d _ _ false true act dom c (g * c) o k s dl eb ea (is_same opt) (ca_use_bias a) (ca_activation a)
      kinit binit L (group_part b m' g c j x) b m' g CF CC Lm' eq_refl). reflexivity. }
  assert (GA : grouped_apply L x = grouped_call L x).
  { destruct CF. exact (grouped_spec d L x b m' (N * g) c cf_dims cf_fmt' CC Lm' SH). }
  set (ke := vzip dilated k dl) in *. set (m1 := padded eb m' ea) in *.
  set (pads := builtin_pads (padding_string (is_same opt)) m1 ke s) in *.
  set (m2 := padded (map fst pads) m1 (map snd pads)) in *.
  destruct (forallb (fun p => fst p <=? snd p)%nat (combine ke m2)) eqn:FB.
  - left. pose proof CF as CF'. destruct CF'.
    assert (Lm1 : List.length m1 = d) by (apply length_padded; assumption).
    assert (LKE : List.length ke = d) by (unfold ke; rewrite length_vzip; lia).
    assert (LP : List.length pads = d) by (apply length_builtin; assumption).
    assert (Lm2 : List.length m2 = d) by (apply length_padded; rewrite ?map_length; assumption).
    pose proof (length_outs m2 ke s d Lm2 LKE cf_s) as LO.
    eexists (fun j => tab _ _), _. split; [|split].
    + intros j J. rewrite AC, (BC j J). cbn [snd]. reflexivity.
    + rewrite GA, GC. reflexivity.
    + split; [apply wf_tab|]. split; [exists (outs m2 ke s); split; [exact LO|]; rewrite shape_tab; split; [reflexivity|intros; split; [apply wf_tab|apply shape_tab]]|].
      intros bi p h r LPp I. rewrite shape_tab in I.
      destruct (inb4_parts _ _ _ _ _ _ _ _ I) as [BI [P [HH RR]]].
      assert (BL : part h r < N).
      { unfold part. apply Nat.div_lt_upper_bound; [intros Q; rewrite Q in AO; nia|]. rewrite (Nat.mul_comm F0 N), <- AO. nia. }
      split; [exact BL|]. rewrite !at_tab by exact I. rewrite !sig4_ix by lia. reflexivity.
  - right. exists BackendError. split; [unfold grouped_result; rewrite GA, GC; reflexivity|]. intros j J. rewrite AC, (BC j J). reflexivity.
Qed.

(** Any other number of entries along the group axis raises, and leaves the transformed weights in the layer. *)
Theorem C112_other_group_axis_raises name G (a : conv_args A) H opt bs m g g' c kinit binit L k s dl act :
  layer_for name G a -> ca_subgroup a = Some H -> option_of a opt -> subgroup_indices G H act ->
  let d := dimension_of name in
  let o := ca_filters a in
  built d false a (static_signal_shape true bs m g c) kinit binit L -> 0 < c -> List.length m = d -> sizes d a k s dl ->
  0 < g' -> (forall N, g' = N * g -> ~ Nat.divide N (List.length act * o)) ->
  forall x b m', wf x -> List.length m' = d -> shape x = b :: m' ++ [g'; c] ->
  exists L' K', grouped_apply L x = (L', Err BackendError) /\ cl_filters L' = o * List.length act /\
    cl_kernel L' = Some K' /\ shape K' = k ++ [g * c; List.length act * o].
Proof.
  intros LF HS OP SI d o BU CP Lm SZ GP' ND x b m' W Lm' SH. pose proof LF as [DG _]. apply lib_ok in DG as [_ OK]. fold d in OK.
  destruct (built_facts_at name G d _ _ a H opt false true bs m g c kinit binit L k s dl OK LF HS OP BU Lm SZ)
    as [eb [ea [act' [dom [_ [SA [SD [CF [CC _]]]]]]]]].
  assert (act' = act) as -> by (unfold sub_idx in SA; unfold subgroup_indices in SI; congruence).
  destruct (sub_idx_facts _ _ _ _ OK _ _ SA) as [_ [Ba [HA _]]].
  assert (NA : 0 < List.length act) by (destruct act; [discriminate HA|cbn [List.length]; lia]).
  fold o in CF. cbv iota in CF.
  assert (GP : 0 < g).
  { destruct (SD eq_refl) as [SD' ->]. destruct (sub_idx_facts _ _ _ _ OK _ _ SD') as [_ [_ [HD _]]]. destruct dom; [discriminate HD|cbn [List.length]; lia]. }
  pose proof (merged_input d true x b m' g' c W Lm' SH) as MG. cbv iota in MG. set (X := merged_fun true x c) in MG.
  assert (GA : grouped_apply L x = grouped_call L x).
  { destruct CF. exact (grouped_spec d L x b m' g' c cf_dims cf_fmt' CC Lm' SH). }
  rewrite GA. clear GA. destruct CF.
  set (K := tab (k ++ [g * c; o]) kinit) in *.
  assert (CK : cl_kernel L = Some K) by exact cf_kernel. clear cf_kernel.
  set (m1 := padded eb m' ea). assert (Lm1 : List.length m1 = d) by (apply length_padded; assumption).
  unfold grouped_call. rewrite CK. unfold prepare_call.
  assert (MP : merge_group_axis_and_pad (cl_gt L) x = Ok (tab (b :: m1 ++ [g' * c]) (sig3 d (bordered eb m' X)))).
  { unfold merge_group_axis_and_pad. pose proof cf_dom as [DV _]. rewrite DV, cf_gaxis, cf_caxis. unfold merged in MG.
    rewrite MG; cbn [bind]; apply cf_pads; exact Lm'. }
  rewrite MP. cbn [bind].
  rewrite (transform_kernel_eq G d _ _ OK (cl_gt L) false true dom act c (g * c) o k K cf_dom Ba cf_k cf_fit cf_kidx (wf_tab _ _) (shape_tab _ _)). cbn [bind].
  set (ub := ca_use_bias a) in *.
  assert (BB : match cl_bias L with Some b => b <- repeat_bias (cl_gt L) b ;; Ok (Some b) | None => Ok None end
     = Ok (if ub then Some (tab [List.length act * o] (fun i => binit [nth 0 i 0 mod o])) else None)).
  { rewrite cf_bias. destruct ub; [|reflexivity]. rewrite (repeat_bias_eq _ act o binit (cf_bidx eq_refl)). reflexivity. }
  rewrite BB. cbn [bind]. rewrite cf_group, cf_act'. cbn [bind cl_filters cl_bias cl_set_weights]. rewrite cf_filters.
  unfold grouped_conv_call. rewrite cf_fmt', cf_strides, cf_dilation, cf_padding, cf_activation. unfold in_format. cbn [String.eqb Ascii.eqb Bool.eqb].
  match goal with |- context[grouped_last ?u ?w s dl ?p] => assert (GL : grouped_last u w s dl p = Err BackendError) end.
  { unfold grouped_last, rank. rewrite !shape_tab. cbv zeta. rewrite cf_s. rewrite (chan_ix d b m1 (g' * c) []) by exact Lm1.
    rewrite app_nth2 by lia. rewrite cf_k, Nat.sub_diag. cbn [nth].
    assert (NEQ : g' * c <> g * c). { intros Q. apply (ND 1); [nia|]. exists (List.length act * o). lia. }
    rewrite (proj2 (Nat.eqb_neq _ _) NEQ).
    assert (LX : List.length (b :: m1 ++ [g' * c]) = d + 2) by (cbn [List.length]; rewrite app_length; cbn [List.length]; lia).
    rewrite LX. rewrite app_length. cbn [List.length]. rewrite cf_k, cf_dl, !Nat.eqb_refl. cbn [andb bind].
    rewrite app_nth2 by lia. replace (d + 1 - List.length k) with 1 by lia. cbn [nth].
    rewrite (proj2 (Nat.ltb_lt 0 (g * c))) by nia. cbn [andb].
    destruct (Nat.eqb_spec (g' * c / (g * c) * (g * c)) (g' * c)) as [Q|Q]; [|reflexivity]. cbn [andb].
    set (N := g' * c / (g * c)) in *. assert (GN : g' = N * g) by nia.
    destruct (Nat.eqb_spec ((List.length act * o) mod N) 0) as [Q'|Q']; [|reflexivity]. exfalso.
    apply (ND N GN). apply Nat.mod_divide; [nia|exact Q']. }
  rewrite GL. cbn [bind]. eexists. eexists. split; [reflexivity|]. split; [reflexivity|]. split; [reflexivity|]. reflexivity.
Qed.

(** A layer for group signals, called on a signal without group axis, raises and stays as it is. *)
Theorem C112_no_group_axis name G (a : conv_args A) H opt tr bs m g c kinit binit L k s dl :
  layer_for name G a -> ca_subgroup a = Some H -> option_of a opt ->
  let d := dimension_of name in
  built d tr a (static_signal_shape true bs m g c) kinit binit L -> List.length m = d -> sizes d a k s dl ->
  forall x b m', List.length m' = d -> shape x = b :: m' ++ [c] -> conv_apply L x = (L, Err IndexError).
Proof.
  intros LF HS OP d BU Lm SZ x b m' Lm' SH. pose proof LF as [DG _]. apply lib_ok in DG as [_ OK]. fold d in OK.
  destruct (built_facts_at name G d _ _ a H opt tr true bs m g c kinit binit L k s dl OK LF HS OP BU Lm SZ)
    as [eb [ea [act [dom [_ [_ [_ [CF [CC _]]]]]]]]]. destruct CF.
  assert (LX : List.length (shape x) = d + 2) by (rewrite SH; cbn [List.length]; rewrite app_length; cbn [List.length]; lia).
  unfold conv_apply, rank. rewrite CC, cf_dims, cf_fmt', LX. cbn [String.eqb Ascii.eqb Bool.eqb].
  rewrite Nat.ltb_irrefl. replace (d + 2 - 1) with (d + 1) by lia. rewrite SH at 1. rewrite (chan_ix d b m' c []) by exact Lm'. rewrite Nat.eqb_refl.
  unfold conv_call. rewrite cf_kernel. unfold prepare_call, merge_group_axis_and_pad. pose proof cf_dom as [DV _]. rewrite DV, cf_gaxis, cf_caxis.
  assert (M : merge_axes x (Z.of_nat (d + 1)) (Z.of_nat (d + 2)) = Err IndexError).
  { unfold merge_axes, merge_axes_st, merge_shapes, py_nth. rewrite map_length, LX. unfold norm_axis. cbv zeta.
    destruct (Z.ltb_spec (Z.of_nat (d + 2)) (Z.of_nat (d + 2))); [lia|]. rewrite andb_false_r.
    destruct (Z.ltb_spec (Z.of_nat (d + 2)) 0); [lia|]. rewrite andb_false_r. reflexivity. }
  rewrite M. reflexivity.
Qed.

(** Too few axes, or another number of channels: whatever the layer and its state, for all kinds of convolution layers. *)
Definition axis_of_channels (L : conv_layer A) (x : tensor A) : nat := if String.eqb (cl_format L) "channels_last" then rank x - 1 else 1.

Theorem C112_input_spec (L : conv_layer A) (x : tensor A) op F unknown :
  rank x < gt_dims (cl_gt L) + 2 \/ (exists c, cl_channels L = Some c /\ nth (axis_of_channels L x) (shape x) 0 <> c) ->
  conv_apply L x = (L, Err ValueError) /\ grouped_apply L x = (L, Err ValueError) /\ opadded_apply op L x = (L, Err ValueError) /\
  vector_apply F L x = (L, Err ValueError) /\ conv_apply_traced unknown L x = (L, Err ValueError).
Proof.
  unfold axis_of_channels, conv_apply, grouped_apply, opadded_apply, vector_apply, conv_apply_traced. cbv zeta.
  intros [R|[c [-> NE]]].
  - rewrite (proj2 (Nat.ltb_lt _ _) R). repeat split.
  - rewrite (proj2 (Nat.eqb_neq _ _) NE). destruct (rank x <? gt_dims (cl_gt L) + 2)%nat; repeat split.
Qed.

End OtherGroup.

Print Assumptions C112_longer_group_axis.
Print Assumptions C112_other_group_axis_raises.
Print Assumptions C112_no_group_axis.
Print Assumptions C112_input_spec.

(** A layer for signals on PMw (two elements) called on a signal on four elements: the first element of the output sees the first two
    entries only, the second element the last two.  Three entries raise, and so do signals without group axis or with two channels. *)
Example C112_case :
  match test_layer 2 false (with_group "PMw" "" (One 1) 1 None (Some (Some "valid_equiv")) None false) [None; Some 1; Some 2; Some 2; Some 1]
          (fun i => if (nth 2 i 0 =? 0)%nat then 1%Z else 100%Z) (fun _ => 0%Z) with
  | Ok L =>
      match grouped_result L (mkTensor [1; 1; 1; 4; 1] [1; 2; 3; 4]%Z) with Ok y => (shape y, data y) | Err _ => ([], []) end
        = ([1; 1; 1; 2; 1], [201; 304]%Z) /\
      match apply L (mkTensor [1; 1; 1; 2; 1] [1; 2]%Z), apply L (mkTensor [1; 1; 1; 2; 1] [3; 4]%Z) with
      | Ok y, Ok y' => (data y, data y') | _, _ => ([], []) end = ([201; 102]%Z, [403; 304]%Z) /\
      grouped_result L (mkTensor [1; 1; 1; 3; 1] [1; 2; 3]%Z) = Err BackendError /\
      apply L (mkTensor [1; 1; 1; 1] [1]%Z) = Err IndexError /\
      apply L (mkTensor [1; 1; 1; 2; 2] [1; 2; 3; 4]%Z) = Err ValueError
  | Err _ => False
  end.
Proof. vm_compute. repeat split. Qed.
