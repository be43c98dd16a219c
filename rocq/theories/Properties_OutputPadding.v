(** Property C106: transposed layers with Keras' argument output_padding. *)
From Verif Require Import OutputPadding LinearFacts ShapeFacts Properties_Conv.
Local Open Scope string_scope.
Local Open Scope list_scope.

Section Op.
Context {A : Type} {RA : Arith A}.

Definition opadded_outs (d : nat) padding (n ke s op : list nat) : list nat :=
  map (fun ax => opadded_size padding (nth ax n 0) (nth ax ke 0) (nth ax s 0) (nth ax op 0)) (seq 0 d).

Definition opadded_crops (d : nat) padding (n ke s op : list nat) : list nat :=
  map (fun ax => opadded_before padding (nth ax n 0) (nth ax ke 0) (nth ax s 0) (nth ax (opadded_outs d padding n ke s op) 0)) (seq 0 d).

Definition opadded_runs (d : nat) padding (n ke s op : list nat) : bool :=
  forallb (fun ax => opadded_fits padding (nth ax n 0) (nth ax ke 0) (nth ax s 0) (nth ax (opadded_outs d padding n ke s op) 0)) (seq 0 d).

Lemma nth_seq_map (f : nat -> nat) d ax : ax < d -> nth ax (map f (seq 0 d)) 0 = f ax.
Proof. intros H. rewrite (nth_indep _ 0 (f 0)) by (rewrite map_length, seq_length; exact H). rewrite map_nth, seq_nth by exact H. reflexivity. Qed.

Lemma opadded_axes_eq padding d n ke s op : List.length n = d -> List.length ke = d -> List.length s = d -> List.length op = d ->
  map (fun q => fst (fst q)) (opadded_axes padding n ke s op) = opadded_outs d padding n ke s op /\
  map snd (opadded_axes padding n ke s op) = opadded_crops d padding n ke s op /\
  forallb (fun q => snd (fst q)) (opadded_axes padding n ke s op) = opadded_runs d padding n ke s op.
Proof.
  intros L1 L2 L3 L4.
  assert (E : opadded_axes padding n ke s op =
    map (fun ax => let out := opadded_size padding (nth ax n 0) (nth ax ke 0) (nth ax s 0) (nth ax op 0) in
         (out, opadded_fits padding (nth ax n 0) (nth ax ke 0) (nth ax s 0) out, opadded_before padding (nth ax n 0) (nth ax ke 0) (nth ax s 0) out)) (seq 0 d)).
  { unfold opadded_axes. revert n ke s op L1 L2 L3 L4. induction d as [|d IH]; intros n ke s op L1 L2 L3 L4.
    - destruct n; [reflexivity|discriminate L1].
    - destruct n as [|n0 n], ke as [|k0 ke], s as [|s0 s], op as [|o0 op]; try discriminate. cbn [combine map seq nth]. f_equal.
      rewrite (IH n ke s op) by (cbn in *; lia). rewrite <- seq_shift, map_map. reflexivity. }
  rewrite E. unfold opadded_crops, opadded_runs. rewrite !map_map. cbv zeta. cbn [fst snd]. split; [reflexivity|]. split.
  - apply map_ext_in. intros ax I. apply in_seq in I. unfold opadded_outs. rewrite nth_seq_map by lia. reflexivity.
  - set (g := fun ax => opadded_fits _ _ _ _ (nth ax _ 0)).
    assert (Q : forall l, (forall ax, In ax l -> ax < d) ->
      forallb (fun q : nat * bool * nat => snd (fst q)) (map (fun ax => (opadded_size padding (nth ax n 0) (nth ax ke 0) (nth ax s 0) (nth ax op 0),
         opadded_fits padding (nth ax n 0) (nth ax ke 0) (nth ax s 0) (opadded_size padding (nth ax n 0) (nth ax ke 0) (nth ax s 0) (nth ax op 0)),
         opadded_before padding (nth ax n 0) (nth ax ke 0) (nth ax s 0) (opadded_size padding (nth ax n 0) (nth ax ke 0) (nth ax s 0) (nth ax op 0)))) l)
      = forallb g l).
    { induction l as [|ax l IH]; intros I; [reflexivity|]. cbn [map forallb fst snd]. rewrite IH by (intros; apply I; right; assumption). f_equal.
      unfold g, opadded_outs. rewrite nth_seq_map by (apply I; left; reflexivity). reflexivity. }
    apply Q. intros ax I. apply in_seq in I. lia.
Qed.

Lemma opadded_last_eq d b n C o k (X : nat -> list nat -> nat -> A) (w : tensor A) s dl padding op :
  List.length n = d -> List.length s = d -> List.length dl = d -> List.length k = d -> List.length op = d -> shape w = k ++ [o; C] ->
  (forall a, a < d -> 0 < nth a s 0) ->
  let ke := vzip dilated k dl in
  opadded_last (tab (b :: n ++ [C]) (sig3 d X)) w s dl padding op
  = if opadded_runs d padding n ke s op
    then Ok (tab (b :: opadded_outs d padding n ke s op ++ [o])
            (sig3 d (fun bi p r => window d (tsrc n s dl (opadded_crops d padding n ke s op)) tterm k C (X bi)
                                          (fun j q r => at_ w (j ++ [r; q])) p r)))
    else Err BackendError.
Proof.
  intros L LS LD LK LOP SW PS ke.
  assert (LKE : List.length ke = d) by (unfold ke; rewrite length_vzip; lia).
  unfold opadded_last. rewrite LS. rewrite rank_tab. unfold rank. rewrite SW.
  replace (List.length (b :: n ++ [C]) =? d + 2)%nat with true
    by (symmetry; apply Nat.eqb_eq; cbn [List.length]; rewrite app_length; cbn; lia).
  replace (List.length (k ++ [o; C]) =? d + 2)%nat with true
    by (symmetry; apply Nat.eqb_eq; rewrite app_length; cbn; lia).
  rewrite LD, LOP, Nat.eqb_refl. cbn [andb]. rewrite shape_tab.
  rewrite (spatial_ix d b n [C] L), (chan_ix d b n C [] L).
  assert (F1 : firstn d (k ++ [o; C]) = k) by (apply firstn_app_exact; auto).
  assert (F2 : nth d (k ++ [o; C]) 0 = o) by (rewrite app_nth2 by lia; rewrite LK, Nat.sub_diag; reflexivity).
  assert (F3 : nth (d + 1) (k ++ [o; C]) 0 = C) by (rewrite app_nth2 by lia; replace (d + 1 - List.length k) with 1 by lia; reflexivity).
  rewrite F1, F2, F3, Nat.eqb_refl. fold ke.
  destruct (opadded_axes_eq padding d n ke s op L LKE LS LOP) as [E1 [E2 E3]]. rewrite E1, E2, E3.
  destruct (opadded_runs d padding n ke s op); [|reflexivity]. f_equal. change (nth 0 (b :: n ++ [C]) 0) with b.
  set (M := opadded_outs d padding n ke s op). set (bf := opadded_crops d padding n ke s op).
  assert (LO : List.length M = d) by (unfold M, opadded_outs; rewrite map_length; apply seq_length).
  assert (LBF : List.length bf = d) by (unfold bf, opadded_crops; rewrite map_length; apply seq_length).
  rewrite (tab_sig3 d) by exact LO. apply sig3_ext; [exact LO|]. intros bi p r B P R.
  pose proof (inb_length _ _ P) as LP'. rewrite LO in LP'.
  unfold window. f_equal. apply map_ext_in. intros jc I. apply In_indices in I.
  apply inb_app_split in I as [j [c [-> [J I]]]]. apply inb1 in I as [q [-> Q]]. pose proof (inb_length _ _ J) as LJ.
  rewrite firstn_app_exact by lia. rewrite app_nth2 by lia. replace (d - List.length j) with 0 by lia. change (nth 0 [q] 0) with q. change (nth 0 (bi :: p ++ [r]) 0) with bi.
  rewrite (spatial_ix d bi p [r] LP'), (chan_ix d bi p r [] LP').
  rewrite (transpose_srcs_wsrc d n s dl bf p j) by lia. unfold tsrc. rewrite L.
  destruct (wsrc _ d p j) as [i|] eqn:W; [|reflexivity]. cbn [option_map tterm]. f_equal.
  apply wsrc_some in W as [LI HI]. rewrite (at_sig3 d); [reflexivity|exact L|exact B| |exact Q].
  apply inb_intro; [lia|]. rewrite L. intros a Ha. specialize (HI a Ha). apply transpose_src_spec in HI as [HI _]; [exact HI|].
  apply PS. exact Ha.
Qed.

Context (G : group) (d : nat) (E : list symmetry) (eq : bool) (OK : group_ok G d E eq).
Context (valued : bool) (act dom : list nat) (c C o : nat) (k s dl eb ea : list nat)
        (same ub : bool) (f : A -> A) (kinit binit : list nat -> A).

Lemma opadded_call_eq op (L : conv_layer A) (x : tensor A) b m (X : nat -> list nat -> nat -> A) :
  conv_facts G d E eq true valued act dom c C o k s dl eb ea same ub f kinit binit L ->
  List.length m = d -> List.length op = d -> merged d valued x b m C X ->
  let K := tab (k ++ [o; C]) kinit in
  let ke := vzip dilated k dl in
  let m1 := padded eb m ea in
  let M := opadded_outs d (padding_string same) m1 ke s op in
  opadded_call op L x =
  if opadded_runs d (padding_string same) m1 ke s op
  then (L, Ok (tab (b :: M ++ [List.length act; o])
              (sig4 d (fun bi p h oo =>
                 f (biased ub binit (window d (tsrc m1 s dl (opadded_crops d (padding_string same) m1 ke s op)) tterm k C
                                            (bordered eb m X bi)
                                            (kval G E valued dom act c o k C K) p (h * o + oo)) oo)))))
  else (half_done G d E true valued dom act c C o k ub kinit binit L, Err BackendError).
Proof.
  intros F LM LOP MG K ke m1 M.
  destruct (sub_idx_facts _ _ _ _ OK _ _ (cf_act _ _ _ _ _ _ _ _ _ _ _ _ _ _ _ _ _ _ _ _ _ _ F)) as [_ [Ba [HA _]]].
  assert (NA : act <> []) by (intros ->; discriminate HA).
  destruct F.
  assert (Lm1 : List.length m1 = d) by (apply length_padded; assumption).
  assert (LKE : List.length ke = d) by (unfold ke; rewrite length_vzip; lia).
  assert (CK : cl_kernel L = Some K) by exact cf_kernel. clear cf_kernel.
  unfold opadded_call. rewrite CK. unfold prepare_call.
  assert (MP : merge_group_axis_and_pad (cl_gt L) x = Ok (tab (b :: m1 ++ [C]) (sig3 d (bordered eb m X)))).
  { unfold merge_group_axis_and_pad. pose proof cf_dom as [DV _]. rewrite DV, cf_gaxis, cf_caxis. unfold merged in MG.
    destruct valued; rewrite MG; cbn [bind]; apply cf_pads; exact LM. }
  rewrite MP. cbn [bind].
  rewrite (transform_kernel_eq G d E eq OK (cl_gt L) true valued dom act c C o k K cf_dom Ba cf_k cf_fit cf_kidx (wf_tab _ _) (shape_tab _ _)). cbn [bind].
  assert (BB : match cl_bias L with Some b => b <- repeat_bias (cl_gt L) b ;; Ok (Some b) | None => Ok None end
     = Ok (if ub then Some (tab [List.length act * o] (fun i => binit [nth 0 i 0 mod o])) else None)).
  { rewrite cf_bias. destruct ub; [|reflexivity]. rewrite (repeat_bias_eq _ act o binit (cf_bidx eq_refl)). reflexivity. }
  rewrite BB. cbn [bind]. rewrite cf_group, cf_act'. cbn [bind cl_filters cl_bias cl_set_weights]. rewrite cf_filters.
  unfold opadded_conv_call. rewrite cf_fmt', cf_strides, cf_dilation, cf_padding, cf_activation. unfold in_format. cbn [String.eqb Ascii.eqb Bool.eqb].
  fold (padding_string same).
  rewrite (opadded_last_eq d b m1 C (List.length act * o) k (bordered eb m X)); try assumption; [|apply shape_tab].
  fold ke. fold M. destruct (opadded_runs d _ m1 ke s op) eqn:RU; cbn [bind].
  2:{ reflexivity. }
  assert (LO : List.length M = d) by (unfold M, opadded_outs; rewrite map_length; apply seq_length).
  match goal with |- context[tab _ (sig3 d ?y)] => set (Y := y) end.
  pose proof (bias_activation d b M (List.length act) (o * List.length act) ub binit o Y f LO (Nat.mul_comm _ _)) as BA.
  match goal with |- context[add_bias _ _ ?bb _] => change bb with (if ub then Some (tab [List.length act * o] (fun i => binit [nth 0 i 0 mod o])) else None) end.
  rewrite BA. cbn [bind].
  rewrite (restore_eq G d (cl_gt L) valued act b M o); try assumption; [|apply cf_dom].
  f_equal.
  - rewrite set_weights_set. rewrite <- cf_filters, <- CK. apply set_weights_id.
  - f_equal. apply sig4_ext; [exact LO|]. intros bi p h oo B P H O. unfold Y.
    assert (R : h * o + oo < List.length act * o) by nia.
    assert (RM : (h * o + oo) mod o = oo) by (rewrite Nat.add_comm, Nat.mod_add by lia; apply Nat.mod_small; exact O).
    rewrite RM. f_equal. f_equal.
    apply window_ext; [exact cf_k|reflexivity|]. intros j q J Q. rewrite (at_ker d); [reflexivity|assumption..].
Qed.

Lemma opadded_apply_call op (L : conv_layer A) (x : tensor A) b m g :
  conv_facts G d E eq true valued act dom c C o k s dl eb ea same ub f kinit binit L -> cl_channels L = Some c ->
  List.length m = d -> shape x = input_shape valued b m g c -> opadded_apply op L x = opadded_call op L x.
Proof.
  intros F CC Lm SH. unfold opadded_apply, rank. rewrite SH, CC. destruct F. rewrite cf_dims, cf_fmt'. cbn [String.eqb Ascii.eqb Bool.eqb].
  assert (LL : List.length (input_shape valued b m g c) = d + 2 + (if valued then 1 else 0)).
  { unfold input_shape. cbn [List.length]. rewrite app_length. destruct valued; cbn [List.length]; lia. }
  destruct (Nat.ltb_spec (List.length (input_shape valued b m g c)) (d + 2)) as [Bad|_]; [lia|].
  replace (nth (List.length (input_shape valued b m g c) - 1) (input_shape valued b m g c) 0) with c; [rewrite Nat.eqb_refl; reflexivity|].
  rewrite LL. unfold input_shape. destruct valued.
  - replace (d + 2 + 1 - 1) with (d + 2) by lia. symmetry. apply (chan_ix2 d b m g c []). exact Lm.
  - replace (d + 2 + 0 - 1) with (d + 1) by lia. symmetry. apply (chan_ix d b m c []). exact Lm.
Qed.

(** Sizes for which TensorFlow accepts the output. *)
Lemma opadded_fits_iff n ke1 s1 op1 : 0 < ke1 -> 0 < s1 ->
  opadded_fits (padding_string same) n ke1 s1 (opadded_size (padding_string same) n ke1 s1 op1) = true <->
  0 < n /\ (if same then 1 <= ke1 mod 2 + op1 <= s1 else op1 < s1).
Proof.
  intros PK PS. unfold opadded_fits, opadded_size. rewrite padding_string_same. rewrite Bool.andb_true_iff, Nat.ltb_lt.
  assert (DM : forall q r, r < s1 -> (q * s1 + r) / s1 = q).
  { intros q r R. rewrite Nat.add_comm, Nat.div_add by lia. rewrite Nat.div_small by exact R. reflexivity. }
  destruct same.
  - rewrite Nat.eqb_eq. set (e := ke1 mod 2). split; intros [N H]; split; try exact N.
    + destruct (Nat.eq_dec (e + op1) 0) as [Z|NZ].
      * exfalso. assert (Q : (n - 1) * s1 + e + op1 + s1 - 1 = (n - 1) * s1 + (s1 - 1)) by lia. rewrite Q, DM in H by lia. lia.
      * split; [lia|]. destruct (Nat.le_gt_cases (e + op1) s1) as [LE|GT]; [exact LE|]. exfalso.
        assert ((n + 1) * s1 <= (n - 1) * s1 + e + op1 + s1 - 1) by nia.
        assert (n + 1 <= ((n - 1) * s1 + e + op1 + s1 - 1) / s1) by (apply Nat.div_le_lower_bound; nia). lia.
    + assert (Q : (n - 1) * s1 + e + op1 + s1 - 1 = n * s1 + (e + op1 - 1)) by nia. rewrite Q. apply DM. lia.
  - rewrite Bool.andb_true_iff, Nat.leb_le, Nat.eqb_eq. assert (Q : (n - 1) * s1 + ke1 + op1 - ke1 = (n - 1) * s1 + op1) by (generalize ((n - 1) * s1); intros; lia). rewrite Q.
    split; intros [N H]; split; try exact N.
    + destruct H as [_ H]. destruct (Nat.lt_ge_cases op1 s1) as [LT|GE]; [exact LT|]. exfalso.
      assert (n <= ((n - 1) * s1 + op1) / s1) by (apply Nat.div_le_lower_bound; nia). lia.
    + split; [lia|]. rewrite DM by exact H. lia.
Qed.

Lemma opadded_runs_iff m1 ke op : List.length m1 = d -> (forall ax, ax < d -> 0 < nth ax ke 0) -> (forall ax, ax < d -> 0 < nth ax s 0) ->
  opadded_runs d (padding_string same) m1 ke s op = true <->
  forall ax, ax < d -> 0 < nth ax m1 0 /\ (if same then 1 <= nth ax ke 0 mod 2 + nth ax op 0 <= nth ax s 0 else nth ax op 0 < nth ax s 0).
Proof.
  intros L PK PS. unfold opadded_runs. rewrite forallb_forall. split.
  - intros H ax Hax. specialize (H ax ltac:(apply in_seq; lia)). unfold opadded_outs in H. rewrite nth_seq_map in H by exact Hax.
    apply opadded_fits_iff in H; [exact H|apply PK; exact Hax|apply PS; exact Hax].
  - intros H ax I. apply in_seq in I. unfold opadded_outs. rewrite nth_seq_map by lia. apply opadded_fits_iff; [apply PK; lia|apply PS; lia|apply H; lia].
Qed.
End Op.

(** ** Statements *)

Section Statements.
Context {A : Type} {RA : Arith A}.

(** The result of calling a layer with this output_padding. *)
Definition with_output_padding (op : list nat) (L : conv_layer A) (x : tensor A) : result (tensor A) := snd (opadded_apply op L x).

(** The sizes of the output: along an axis a transposed layer writes (np - 1) * s + ke
    positions, where [np] is the size of the padded input and [ke] that of the dilated kernel.
    With 'valid' padding output_padding adds positions; with 'same' padding the size is as
    for a kernel of size one or zero. *)
Theorem C106_output_shape name G (a : conv_args A) H opt (valued : bool) bs m g c kinit binit L k s dl op :
  layer_for name G a -> ca_subgroup a = Some H -> option_of a opt ->
  let d := dimension_of name in
  let o := ca_filters a in
  let C := if valued then g * c else c in
  let same := mem_str opt ["SAME"; "SAME_EQUIV"] in
  built d true a (static_signal_shape valued bs m g c) kinit binit L -> List.length m = d -> sizes d a k s dl -> List.length op = d ->
  exists P, padding_of a true d bs m C P /\
  forall x b m', wf x -> List.length m' = d -> shape x = signal_shape valued b m' g c ->
  exists xp np, padding_call P (merged_signal valued c g x b m') = Ok xp /\ shape xp = b :: np ++ [C] /\ List.length np = d /\
    let accepted := forall ax, ax < d -> 0 < nth ax np 0 /\
      (if same then 1 <= dilated (nth ax k 0) (nth ax dl 0) mod 2 + nth ax op 0 <= nth ax s 0 else nth ax op 0 < nth ax s 0) in
    (accepted -> exists y, with_output_padding op L x = Ok y /\
       shape y = b :: map (fun ax => let ke := dilated (nth ax k 0) (nth ax dl 0) in
                                     (nth ax np 0 - 1) * nth ax s 0 + (if same then ke mod 2 else ke) + nth ax op 0) (seq 0 d)
                   ++ [List.length (symmetries_of name); o]) /\
    (~ accepted -> with_output_padding op L x = Err BackendError /\ cl_filters (fst (opadded_apply op L x)) = o * List.length (symmetries_of name)).
Proof.
  intros LF HS OP d o C same B Lm SZ LOP.
  destruct (built_facts name G a H opt true valued bs m g c kinit binit L k s dl LF HS OP B Lm SZ)
    as [OK [eb [ea [act [dom [WO [SA [SD [CF [CC [KS [RS PO]]]]]]]]]]]]. fold d in OK, SA, SD, CF, PO. fold C in CF, PO. fold o in CF.
  exists (gt_padding (cl_gt L)). split; [exact PO|]. intros x b m' W Lm' SH.
  assert (XP : padding_call (gt_padding (cl_gt L)) (merged_signal valued c g x b m')
     = Ok (tab (b :: padded eb m' ea ++ [C]) (sig3 d (bordered eb m' (merged_fun valued x c))))).
  { rewrite (merged_signal_eq d valued c g x b m' W Lm' SH). destruct CF. apply cf_pads. exact Lm'. }
  eexists. exists (padded eb m' ea). split; [exact XP|]. split; [apply shape_tab|].
  assert (LE1 : List.length eb = d) by (destruct CF; assumption). assert (LE2 : List.length ea = d) by (destruct CF; assumption).
  assert (L1 : List.length (padded eb m' ea) = d) by (apply length_padded; assumption). split; [exact L1|].
  unfold with_output_padding. rewrite (opadded_apply_call G d _ _ valued act dom c C o k s dl eb ea (is_same opt) (ca_use_bias a) (ca_activation a)
    kinit binit op L x b m' g CF CC Lm' SH).
  pose proof (merged_input d valued x b m' g c W Lm' SH) as MG. change (if valued then g * c else c) with C in MG.
  rewrite (opadded_call_eq G d _ _ OK valued act dom c C o k s dl eb ea (is_same opt) (ca_use_bias a) (ca_activation a) kinit binit op L x b m' _ CF Lm' LOP MG).
  destruct CF. set (ke := vzip dilated k dl). set (m1 := padded eb m' ea) in *. change (is_same opt) with same.
  assert (NK : forall ax, ax < d -> nth ax ke 0 = dilated (nth ax k 0) (nth ax dl 0)) by (intros ax Hax; unfold ke; rewrite nth_vzip by lia; reflexivity).
  pose proof (opadded_runs_iff d s same m1 ke op L1 ltac:(intros ax Hax; rewrite NK by exact Hax; apply dilated_pos) cf_spos) as RU.
  set (accepted := forall ax, ax < d -> 0 < nth ax m1 0 /\
      (if same then 1 <= dilated (nth ax k 0) (nth ax dl 0) mod 2 + nth ax op 0 <= nth ax s 0 else nth ax op 0 < nth ax s 0)).
  assert (AC : accepted <-> opadded_runs d (padding_string same) m1 ke s op = true).
  { rewrite RU. unfold accepted. split; intros Q ax Hax; specialize (Q ax Hax); rewrite NK in * by exact Hax; exact Q. }
  split.
  - intros Q. rewrite (proj1 AC Q). eexists. split; [reflexivity|]. rewrite shape_tab. f_equal. f_equal.
    + unfold opadded_outs. apply map_ext_in. intros ax I. apply in_seq in I. rewrite NK by lia. unfold opadded_size. rewrite padding_string_same. cbv zeta.
      destruct same; reflexivity.
    + rewrite (whole_dom _ _ _ _ _ OK SA), seq_length. reflexivity.
  - intros Q. destruct (opadded_runs d _ m1 ke s op); [exfalso; apply Q, AC; reflexivity|]. split; [reflexivity|].
    rewrite (whole_dom _ _ _ _ _ OK SA). unfold half_done. cbn [fst cl_set_weights cl_filters]. rewrite seq_length. reflexivity.
Qed.

(** Signals without the layer's number of channels are refused. *)
Theorem C106_other_channels name G (a : conv_args A) H opt (valued : bool) bs m g c kinit binit L k s dl op x :
  layer_for name G a -> ca_subgroup a = Some H -> option_of a opt ->
  let d := dimension_of name in
  built d true a (static_signal_shape valued bs m g c) kinit binit L -> List.length m = d -> sizes d a k s dl ->
  List.length (shape x) < d + 2 \/ last (shape x) 0 <> c ->
  opadded_apply op L x = (L, Err ValueError).
Proof.
  intros LF HS OP d B Lm SZ X.
  destruct (built_facts name G a H opt true valued bs m g c kinit binit L k s dl LF HS OP B Lm SZ)
    as [OK [eb [ea [act [dom [WO [SA [SD [CF [CC [KS [RS PO]]]]]]]]]]]]. fold d in CF.
  destruct CF. unfold opadded_apply. rewrite cf_dims, CC, cf_fmt'. unfold rank. cbn [String.eqb Ascii.eqb Bool.eqb].
  destruct (Nat.ltb_spec (List.length (shape x)) (d + 2)) as [LT|GE]; [reflexivity|]. destruct X as [X|X]; [lia|].
  destruct (Nat.eqb_spec (nth (List.length (shape x) - 1) (shape x) 0) c) as [E|_]; [|reflexivity]. exfalso. apply X.
  rewrite <- E. clear. induction (shape x) as [|n l IH]; [reflexivity|]. destruct l as [|n' l]; [reflexivity|].
  change (last (n :: n' :: l) 0) with (last (n' :: l) 0). rewrite IH. cbn [List.length]. rewrite !Nat.sub_succ, !Nat.sub_0_r. reflexivity.
Qed.

(** The layer without the argument is the layer with the output_padding that makes the
    size a multiple of the stride ('same'), or that fills the gap after the last copy of a kernel
    smaller than the stride ('valid'). *)
Theorem C106_the_default name G (a : conv_args A) H opt (valued : bool) bs m g c kinit binit L k s dl op x b m' :
  layer_for name G a -> ca_subgroup a = Some H -> option_of a opt ->
  let d := dimension_of name in
  built d true a (static_signal_shape valued bs m g c) kinit binit L -> List.length m = d -> sizes d a k s dl -> List.length op = d ->
  (forall ax, ax < d -> let ke := dilated (nth ax k 0) (nth ax dl 0) in
     nth ax op 0 = if mem_str opt ["SAME"; "SAME_EQUIV"] then nth ax s 0 - ke mod 2 else nth ax s 0 - ke) ->
  wf x -> List.length m' = d -> (forall ax, ax < d -> 0 < nth ax m' 0) -> shape x = signal_shape valued b m' g c ->
  opadded_apply op L x = conv_apply L x.
Proof.
  intros LF HS OP d B Lm SZ LOP DEF W Lm' PM SH.
  destruct (built_facts name G a H opt true valued bs m g c kinit binit L k s dl LF HS OP B Lm SZ)
    as [OK [eb [ea [act [dom [WO [SA [SD [CF [CC [KS [RS PO]]]]]]]]]]]]. fold d in OK, SA, SD, CF, PO.
  set (C := if valued then g * c else c) in *.
  rewrite (opadded_apply_call G d _ _ valued act dom c C (ca_filters a) k s dl eb ea (is_same opt) (ca_use_bias a) (ca_activation a)
    kinit binit op L x b m' g CF CC Lm' SH).
  rewrite (conv_apply_call G d _ _ true valued act dom c C (ca_filters a) k s dl eb ea (is_same opt) (ca_use_bias a) (ca_activation a)
    kinit binit L x b m' g CF CC Lm' SH).
  pose proof (merged_input d valued x b m' g c W Lm' SH) as MG. change (if valued then g * c else c) with C in MG.
  rewrite (opadded_call_eq G d _ _ OK valued act dom c C (ca_filters a) k s dl eb ea (is_same opt) (ca_use_bias a) (ca_activation a) kinit binit op L x b m' _ CF Lm' LOP MG).
  rewrite (conv_transpose_call_eq G d _ _ OK valued act dom c C (ca_filters a) k s dl eb ea (is_same opt) (ca_use_bias a) (ca_activation a) kinit binit L x b m' _ CF Lm' MG).
  destruct CF. set (ke := vzip dilated k dl). set (m1 := padded eb m' ea) in *.
  assert (LK : List.length ke = d) by (unfold ke; rewrite length_vzip; lia).
  assert (L1 : List.length m1 = d) by (apply length_padded; assumption).
  assert (P1 : forall ax, ax < d -> 0 < nth ax m1 0).
  { intros ax Hax. unfold m1. rewrite (nth_padded _ _ _ d) by assumption. pose proof (PM ax Hax). lia. }
  assert (NK : forall ax, ax < d -> nth ax ke 0 = dilated (nth ax k 0) (nth ax dl 0)) by (intros ax Hax; unfold ke; rewrite nth_vzip by lia; reflexivity).
  assert (PK : forall ax, ax < d -> 0 < nth ax ke 0) by (intros ax Hax; rewrite NK by exact Hax; apply dilated_pos).
  assert (DF : forall ax, ax < d -> nth ax op 0 = if is_same opt then nth ax s 0 - nth ax ke 0 mod 2 else nth ax s 0 - nth ax ke 0).
  { intros ax Hax. specialize (DEF ax Hax). cbv zeta in DEF. rewrite NK by exact Hax. exact DEF. }
  assert (HB : forall z, z mod 2 <= 1) by (intros z; pose proof (Nat.mod_upper_bound z 2 ltac:(lia)); lia).
  assert (RU : opadded_runs d (padding_string (is_same opt)) m1 ke s op = true).
  { apply opadded_runs_iff; [exact L1|exact PK|exact cf_spos|]. intros ax Hax. split; [apply P1; exact Hax|]. rewrite DF by exact Hax.
    specialize (PK ax Hax). specialize (cf_spos ax Hax). specialize (HB (nth ax ke 0)). destruct (is_same opt); lia. }
  rewrite RU.
  assert (EO : opadded_outs d (padding_string (is_same opt)) m1 ke s op = touts (padding_string (is_same opt)) m1 ke s).
  { unfold opadded_outs, touts. rewrite (axes_as_map (transpose_size (padding_string (is_same opt))) _ _ _ d L1 LK cf_s). apply map_ext_in. intros ax I. apply in_seq in I.
    assert (Hax : ax < d) by lia. unfold opadded_size, transpose_size. rewrite padding_string_same. rewrite DF by exact Hax.
    specialize (P1 ax Hax). specialize (PK ax Hax). specialize (cf_spos ax Hax). specialize (HB (nth ax ke 0)). destruct (is_same opt); nia. }
  assert (EB : opadded_crops d (padding_string (is_same opt)) m1 ke s op = vzip (transpose_before (padding_string (is_same opt))) ke s).
  { apply nth_ext0; [unfold opadded_crops; rewrite map_length, seq_length, length_vzip by lia; lia|]. intros ax Hax.
    unfold opadded_crops in *. rewrite map_length, seq_length in Hax. rewrite nth_seq_map by exact Hax. rewrite nth_vzip by lia.
    rewrite EO, (nth_touts _ _ _ _ d) by assumption. unfold opadded_before, transpose_before, transpose_size. rewrite padding_string_same.
    destruct (is_same opt); [|reflexivity]. f_equal. specialize (P1 ax Hax). nia. }
  rewrite EO, EB. reflexivity.
Qed.

(** The values: compared with the output without this argument, 'same' padding crops more (half of
    what is missing before, the rest after) and 'valid' padding crops or adds at the end; what is
    added gets no contribution from the signal. *)
Theorem C106_values name G (a : conv_args A) H opt (valued : bool) bs m g c kinit binit L k s dl op x b m' y :
  layer_for name G a -> ca_subgroup a = Some H -> option_of a opt ->
  let d := dimension_of name in
  let o := ca_filters a in
  let same := mem_str opt ["SAME"; "SAME_EQUIV"] in
  built d true a (static_signal_shape valued bs m g c) kinit binit L -> List.length m = d -> sizes d a k s dl -> List.length op = d ->
  wf x -> List.length m' = d -> shape x = signal_shape valued b m' g c ->
  with_output_padding op L x = Ok y ->
  exists y0 n n0, apply L x = Ok y0 /\
    shape y = b :: n ++ [List.length (symmetries_of name); o] /\ shape y0 = b :: n0 ++ [List.length (symmetries_of name); o] /\
    List.length n = d /\ List.length n0 = d /\
    forall i p u r, i < b -> inb n p -> u < List.length (symmetries_of name) -> r < o ->
    let shift ax := if same then let ke := dilated (nth ax k 0) (nth ax dl 0) in (ke - ke mod 2 - nth ax op 0) / 2 - (ke - nth ax s 0) / 2 else 0 in
    let p' := map (fun ax => nth ax p 0 + shift ax) (seq 0 d) in
    (same = true -> inb n0 p') /\
    (inb n0 p' -> at_ y (i :: p ++ [u; r]) = at_ y0 (i :: p' ++ [u; r])) /\
    (~ inb n0 p' -> add zero zero = zero ->
       at_ y (i :: p ++ [u; r]) = ca_activation a (if ca_use_bias a then add zero (binit [r]) else zero)).
Proof.
  intros LF HS OP d o same B Lm SZ LOP W Lm' SH Y.
  destruct (built_facts name G a H opt true valued bs m g c kinit binit L k s dl LF HS OP B Lm SZ)
    as [OK [eb [ea [act [dom [WO [SA [SD [CF [CC [KS [RS PO]]]]]]]]]]]]. fold d in OK, SA, SD, CF, PO.
  set (C := if valued then g * c else c) in *.
  unfold with_output_padding in Y. rewrite (opadded_apply_call G d _ _ valued act dom c C o k s dl eb ea (is_same opt) (ca_use_bias a) (ca_activation a)
    kinit binit op L x b m' g CF CC Lm' SH) in Y.
  pose proof (merged_input d valued x b m' g c W Lm' SH) as MG. change (if valued then g * c else c) with C in MG.
  rewrite (opadded_call_eq G d _ _ OK valued act dom c C o k s dl eb ea (is_same opt) (ca_use_bias a) (ca_activation a) kinit binit op L x b m' _ CF Lm' LOP MG) in Y.
  pose proof (conv_apply_call G d _ _ true valued act dom c C o k s dl eb ea (is_same opt) (ca_use_bias a) (ca_activation a)
    kinit binit L x b m' g CF CC Lm' SH) as AP.
  pose proof (conv_transpose_call_eq G d _ _ OK valued act dom c C o k s dl eb ea (is_same opt) (ca_use_bias a) (ca_activation a) kinit binit L x b m' _ CF Lm' MG) as CT. cbv zeta in CT.
  assert (LA : List.length act = List.length (symmetries_of name)) by (rewrite (whole_dom _ _ _ _ _ OK SA), seq_length; reflexivity).
  destruct CF. set (ke := vzip dilated k dl) in *. set (m1 := padded eb m' ea) in *. change (is_same opt) with same in *.
  assert (LKE : List.length ke = d) by (unfold ke; rewrite length_vzip; lia).
  assert (L1 : List.length m1 = d) by (apply length_padded; assumption).
  assert (NK : forall ax, ax < d -> nth ax ke 0 = dilated (nth ax k 0) (nth ax dl 0)) by (intros ax Hax; unfold ke; rewrite nth_vzip by lia; reflexivity).
  assert (PK : forall ax, ax < d -> 0 < nth ax ke 0) by (intros ax Hax; rewrite NK by exact Hax; apply dilated_pos).
  destruct (opadded_runs d (padding_string same) m1 ke s op) eqn:RU; [|discriminate Y].
  pose proof (proj1 (opadded_runs_iff d s same m1 ke op L1 PK cf_spos) RU) as AC. cbn [snd] in *.
  set (n := opadded_outs d (padding_string same) m1 ke s op) in *. set (n0 := touts (padding_string same) m1 ke s) in *.
  assert (LN : List.length n = d) by (unfold n, opadded_outs; rewrite map_length; apply seq_length).
  assert (LN0 : List.length n0 = d) by (apply length_touts; assumption).
  assert (EO : forall u v : tensor A, Ok u = Ok v -> u = v) by congruence. apply EO in Y. subst y.
  eexists. exists n, n0. split; [unfold apply; rewrite AP, CT; reflexivity|]. split; [rewrite shape_tab, LA; reflexivity|]. split; [rewrite shape_tab, LA; reflexivity|]. split; [exact LN|]. split; [exact LN0|].
  intros i p u r Hi IP Hu Hr. rewrite <- LA in Hu.
  set (shift := fun ax => if same then (dilated (nth ax k 0) (nth ax dl 0) - dilated (nth ax k 0) (nth ax dl 0) mod 2 - nth ax op 0) / 2
                          - (dilated (nth ax k 0) (nth ax dl 0) - nth ax s 0) / 2 else 0).
  set (p' := map (fun ax => nth ax p 0 + shift ax) (seq 0 d)).
  change ((same = true -> inb n0 p') /\ (inb n0 p' ->
    at_ (tab (b :: n ++ [List.length act; o]) (sig4 d (fun bi p h oo => ca_activation a (biased (ca_use_bias a) binit
       (window d (tsrc m1 s dl (opadded_crops d (padding_string same) m1 ke s op)) tterm k C (bordered eb m' (merged_fun valued x c) bi)
          (kval G (symmetries_of name) valued dom act c o k C (tab (k ++ [o; C]) kinit)) p (h * o + oo)) oo)))) (i :: p ++ [u; r])
    = at_ (tab (b :: n0 ++ [List.length act; o]) (sig4 d (fun bi p h oo => ca_activation a (biased (ca_use_bias a) binit
       (window d (tsrc m1 s dl (vzip (transpose_before (padding_string same)) ke s)) tterm k C (bordered eb m' (merged_fun valued x c) bi)
          (kval G (symmetries_of name) valued dom act c o k C (tab (k ++ [o; C]) kinit)) p (h * o + oo)) oo)))) (i :: p' ++ [u; r])) /\
    (~ inb n0 p' -> add zero zero = zero ->
    at_ (tab (b :: n ++ [List.length act; o]) (sig4 d (fun bi p h oo => ca_activation a (biased (ca_use_bias a) binit
       (window d (tsrc m1 s dl (opadded_crops d (padding_string same) m1 ke s op)) tterm k C (bordered eb m' (merged_fun valued x c) bi)
          (kval G (symmetries_of name) valued dom act c o k C (tab (k ++ [o; C]) kinit)) p (h * o + oo)) oo)))) (i :: p ++ [u; r])
     = ca_activation a (if ca_use_bias a then add zero (binit [r]) else zero))).
  assert (LP : List.length p = d) by (rewrite (inb_length _ _ IP); exact LN).
  assert (LP' : List.length p' = d) by (unfold p'; rewrite map_length; apply seq_length).
  assert (NP : forall ax, ax < d -> nth ax p' 0 = nth ax p 0 + shift ax) by (intros ax Hax; unfold p'; apply (nth_seq_map (fun ax => nth ax p 0 + shift ax)); exact Hax).
  assert (SZS : forall ax, ax < d -> nth ax n 0 = opadded_size (padding_string same) (nth ax m1 0) (nth ax ke 0) (nth ax s 0) (nth ax op 0))
    by (intros ax Hax; unfold n, opadded_outs; apply (nth_seq_map (fun ax => opadded_size (padding_string same) (nth ax m1 0) (nth ax ke 0) (nth ax s 0) (nth ax op 0))); exact Hax).
  assert (SZ0 : forall ax, ax < d -> nth ax n0 0 = transpose_size (padding_string same) (nth ax m1 0) (nth ax ke 0) (nth ax s 0))
    by (intros ax Hax; apply (nth_touts _ _ _ _ d); assumption).
  set (before := opadded_crops d (padding_string same) m1 ke s op). set (before0 := vzip (transpose_before (padding_string same)) ke s).
  assert (BF : forall ax, ax < d -> nth ax before 0 = if same then (nth ax ke 0 - nth ax ke 0 mod 2 - nth ax op 0) / 2 else 0).
  { intros ax Hax. unfold before, opadded_crops. rewrite nth_seq_map by exact Hax. fold n. rewrite SZS by exact Hax. unfold opadded_before, opadded_size.
    rewrite padding_string_same. destruct same; [|reflexivity]. f_equal. generalize ((nth ax m1 0 - 1) * nth ax s 0), (nth ax ke 0 mod 2). intros; lia. }
  assert (BF0 : forall ax, ax < d -> nth ax before0 0 = if same then (nth ax ke 0 - nth ax s 0) / 2 else 0).
  { intros ax Hax. unfold before0. rewrite nth_vzip by lia. unfold transpose_before. rewrite padding_string_same. reflexivity. }
  assert (SHF : forall ax, ax < d -> shift ax + nth ax before0 0 = nth ax before 0 /\
     (same = true -> nth ax p 0 + shift ax < nth ax n0 0)).
  { intros ax Hax. rewrite BF, BF0, SZ0 by exact Hax. unfold shift. cbv zeta. rewrite <- NK by exact Hax. unfold transpose_size. rewrite padding_string_same.
    destruct (AC ax Hax) as [P1 AX]. pose proof (inb_nth n p ax IP ltac:(lia)) as BP. rewrite SZS in BP by exact Hax. unfold opadded_size in BP.
    rewrite padding_string_same in BP. destruct same; [|split; [reflexivity|discriminate]].
    set (e := nth ax ke 0 mod 2) in *. set (K := nth ax ke 0) in *. set (S := nth ax s 0) in *. set (w := nth ax op 0) in *. set (N := nth ax m1 0) in *.
    assert (Q : (K - S) / 2 <= (K - e - w) / 2) by (apply Nat.div_le_mono; lia).
    split; [lia|]. intros _. pose proof (Nat.div_mod (K - S) 2 ltac:(lia)). pose proof (Nat.div_mod (K - e - w) 2 ltac:(lia)).
    pose proof (Nat.mod_upper_bound (K - S) 2 ltac:(lia)). pose proof (Nat.mod_upper_bound (K - e - w) 2 ltac:(lia)).
    assert (R : N * S = (N - 1) * S + S) by nia. rewrite R. generalize dependent ((N - 1) * S). intros; lia. }
  assert (TS : forall j, tsrc m1 s dl before p j = tsrc m1 s dl before0 p' j).
  { intros j. unfold tsrc. rewrite L1. unfold wsrc. f_equal. apply map_ext_in. intros ax I. apply in_seq in I. destruct (SHF ax ltac:(lia)) as [E _].
    unfold transpose_src. rewrite NP by lia. assert (Q : nth ax p 0 + shift ax + nth ax before0 0 = nth ax p 0 + nth ax before 0) by lia. rewrite Q. reflexivity. }
  split; [|split].
  - intros Q. apply inb_intro; [lia|]. rewrite LN0. intros ax Hax. rewrite NP by exact Hax. apply (SHF ax Hax). exact Q.
  - intros I0. rewrite !(at_sig4 d) by assumption. f_equal. f_equal. unfold window. f_equal. apply map_ext_in. intros jc _. rewrite TS. reflexivity.
  - intros NI ZZ. rewrite (at_sig4 d) by assumption. unfold biased.
    assert (WZ : forall X V, window d (tsrc m1 s dl before) tterm k C X V p (u * o + r) = zero).
    { intros X V. unfold window.
      assert (Z : forall l, (forall jc, In jc l -> tsrc m1 s dl before p (firstn d jc) = None) ->
        sum (map (fun jc => tterm (option_map (fun i0 => X i0 (nth d jc 0)) (tsrc m1 s dl before p (firstn d jc))) (V (firstn d jc) (nth d jc 0) (u * o + r))) l) = zero).
      { induction l as [|jc l IH]; intros Q; [reflexivity|]. cbn [map sum fold_right]. rewrite (Q jc) by (left; reflexivity). cbn [option_map tterm].
        unfold sum in IH. rewrite IH by (intros; apply Q; right; assumption). exact ZZ. }
      apply Z. intros jc I. apply In_indices in I. apply inb_app_split in I as [j [q [-> [J _]]]]. pose proof (inb_length _ _ J) as LJ.
      rewrite firstn_app_exact by lia. rewrite TS. unfold tsrc. rewrite L1. apply wsrc_none.
      destruct same eqn:SM.
      { exfalso. apply NI. apply inb_intro; [lia|]. rewrite LN0. intros ax Hax. rewrite NP by exact Hax. apply (SHF ax Hax). reflexivity. }
      assert (FX : exists ax, ax < d /\ nth ax n0 0 <= nth ax p' 0).
      { destruct (existsb (fun ax => (nth ax n0 0 <=? nth ax p' 0)%nat) (seq 0 d)) eqn:EX.
        - apply existsb_exists in EX as [ax [I Q]]. apply in_seq in I. apply Nat.leb_le in Q. exists ax. split; [lia|exact Q].
        - exfalso. apply NI. apply inb_intro; [lia|]. rewrite LN0. intros ax Hax. destruct (Nat.lt_ge_cases (nth ax p' 0) (nth ax n0 0)) as [LT|GE]; [exact LT|].
          exfalso. assert (existsb (fun ax => (nth ax n0 0 <=? nth ax p' 0)%nat) (seq 0 d) = true); [|congruence]. apply existsb_exists. exists ax. split; [apply in_seq; lia|].
          apply Nat.leb_le. exact GE. }
      destruct FX as [ax [Hax GE]]. exists ax. split; [exact Hax|].
      destruct (transpose_src _ _ _ _ _ _) as [z|] eqn:TZ; [|reflexivity]. exfalso.
      apply transpose_src_spec in TZ as [LT EQ]; [|apply cf_spos; exact Hax]. rewrite BF0 in EQ by exact Hax. rewrite SZ0 in GE by exact Hax. unfold transpose_size in GE.
      rewrite padding_string_same in GE. pose proof (inb_nth k j ax J ltac:(lia)) as BJ. rewrite NK in GE by exact Hax. unfold dilated in GE.
      pose proof (cf_spos ax Hax) as PS. assert (JD : nth ax j 0 * nth ax dl 0 <= (nth ax k 0 - 1) * nth ax dl 0) by (apply Nat.mul_le_mono_r; lia).
      assert (ZS : z * nth ax s 0 + nth ax s 0 <= nth ax m1 0 * nth ax s 0) by nia. lia. }
    rewrite WZ. reflexivity.
Qed.

(** Exactly as many positions are cropped before as after, along every axis, and no
    asymmetric padding was added to the input (cf. C27): with 'valid' padding output_padding has
    to be 0, with 'same' padding it has to be even and at most the kernel size. *)
Definition regular_output_padding (d : nat) (opt : string) (m k s op : list nat) : Prop :=
  forall ax, ax < d -> 0 < nth ax m 0 /\
    (In opt ["VALID"; "VALID_EQUIV"] -> nth ax op 0 = 0) /\
    (In opt ["SAME"; "SAME_EQUIV"] -> Nat.Even (nth ax op 0) /\ nth ax op 0 <= nth ax k 0) /\
    (opt = "VALID_EQUIV" -> Nat.Even (nth ax s 0 - nth ax k 0)) /\
    (opt = "SAME_EQUIV" -> Nat.Even (same_total (nth ax m 0) (nth ax k 0) (nth ax s 0))).

Lemma opadded_regular plain allow same d m k s op eb ea :
  widths_ok plain allow same true d m k s eb ea ->
  (forall ax, ax < d -> 0 < nth ax m 0 /\ (if same then Nat.Even (nth ax op 0) /\ nth ax op 0 <= nth ax k 0 else nth ax op 0 = 0) /\
     (plain = true \/ Nat.Even (if same then same_total (nth ax m 0) (nth ax k 0) (nth ax s 0) else nth ax s 0 - nth ax k 0))) ->
  List.length m = d -> List.length k = d -> List.length s = d ->
  (forall a, a < d -> 0 < nth a k 0) -> (forall a, a < d -> 0 < nth a s 0) ->
  let m1 := padded eb m ea in
  eb = ea /\ forall a, a < d ->
  mirrored (opadded_outs d (padding_string same) m1 k s op) k m1 s (repeat 1 d) (opadded_crops d (padding_string same) m1 k s op) a.
Proof.
  intros [LB [LA W]] TO Lm Lk Ls Pk Ps m1. split.
  - destruct W as [[_ [-> ->]]|[_ W]]; [reflexivity|]. apply nth_ext0; [congruence|]. intros a Ha. rewrite LB in Ha.
    specialize (W a Ha). cbv zeta in W. destruct W as [_ [AD [E1 [E2 E0]]]]. destruct (TO a Ha) as [_ [_ SA]].
    set (e := nth a eb 0 + nth a ea 0) in *.
    assert (EV : Nat.Even e).
    { destruct plain; [rewrite (E0 eq_refl); exists 0; reflexivity|]. destruct AD as [_ EV]. destruct SA as [F|[z Z]]; [discriminate|].
      destruct EV as [w EV]. exists (w - z). destruct same; lia. }
    destruct EV as [z Z]. rewrite Z in E1, E2. replace (2 * z / 2) with z in E1, E2 by (rewrite Nat.mul_comm, Nat.div_mul; lia). lia.
  - intros a Ha. assert (Lm1 : List.length m1 = d) by (apply length_padded; assumption).
    unfold mirrored, opadded_crops. rewrite nth_seq_map by exact Ha. unfold opadded_outs. rewrite nth_seq_map by exact Ha. rewrite nth_repeat1 by exact Ha.
    destruct (TO a Ha) as [MP [SO _]]. specialize (Pk a Ha). specialize (Ps a Ha).
    unfold opadded_size, opadded_before. rewrite padding_string_same. set (N := (nth a m1 0 - 1) * nth a s 0). destruct same; [|lia].
    destruct SO as [[z Z] LE]. pose proof (Nat.div_mod (nth a k 0) 2 ltac:(lia)) as D. set (kh := nth a k 0 / 2) in *. set (kr := nth a k 0 mod 2) in *.
    assert (KR : kr < 2) by (apply Nat.mod_upper_bound; lia).
    assert (Q : N + nth a k 0 - (N + kr + nth a op 0) = (kh - z) * 2) by lia. rewrite Q, Nat.div_mul by lia. lia.
Qed.

Lemma opadded_commutes name G (a : conv_args A) H U opt (valued : bool) bs m g c kinit binit L k s op x b :
  add_commutes A ->
  layer_for name G a -> ca_subgroup a = Some H -> option_of a opt ->
  let d := dimension_of name in
  built d true a (static_signal_shape valued bs m g c) kinit binit L -> List.length m = d ->
  sizes d a k s (repeat 1 d) -> respects name s -> List.length op = d -> respects name op ->
  regular_output_padding d opt m k s op -> (valued = true -> U = H) ->
  wf x -> shape x = signal_shape valued b m g c ->
  commutes_at (if valued then transforms_of_group_signal G d U H else transforms_of_grid_signal G d U)
              (transforms_of_group_signal G d U "") (with_output_padding op L) x.
Proof.
  intros ADD LF HS OP d B Lm SZ RS LOP ROP REG HU W SH gx y R CA.
  destruct (built_facts name G a H opt true valued bs m g c kinit binit L k s (repeat 1 d) LF HS OP B Lm SZ)
    as [OK [eb [ea [act [dom [WO [SA [SDm [CF [CC _]]]]]]]]]]. fold d in OK, SA, SDm, CF, WO.
  set (C := if valued then g * c else c) in *.
  set (E := symmetries_of name) in *. set (eqs := needs_equal_sizes name) in *.
  pose proof (sub_idx_whole _ _ _ _ OK) as WH. pose proof (whole_dom _ _ _ _ _ OK SA) as WD. subst act.
  assert (HI : exists idx, sub_idx G (Some U) idx).
  { destruct valued; [exact (action_names_subgroup _ _ _ _ _ _ _ _ R)|exact (action_names_subgroup _ _ _ _ _ _ _ _ R)]. }
  destruct HI as [idx HI].
  assert (R' : action G x (map Z.of_nat (seq 1 d)) 0 (if valued then Some (Z.of_nat (d + 1)) else None) (Some U) (if valued then Some H else None) = Ok gx).
  { destruct valued; exact R. }
  destruct (sub_idx_facts _ _ _ _ OK _ _ HI) as [NDi [Bi [Hi _]]].
  assert (ST : forall u, In u idx -> stable G u (seq 0 (List.length E))) by (intros u Uu; apply (stable_whole G d E eqs OK); apply Bi; exact Uu).
  assert (SW : valued = true -> sub_idx G (Some H) dom /\ g = List.length dom /\ forall u, In u idx -> stable G u dom).
  { intros V. destruct (SDm V) as [D1 D2]. split; [exact D1|]. split; [exact D2|]. intros u Uu.
    specialize (HU V). rewrite HU in HI. assert (idx = dom) as -> by (unfold sub_idx in *; congruence).
    apply (stable_of G d E eqs OK (Some H)); assumption. }
  destruct (moved_input G d E eqs OK valued x gx b m g c idx dom (Some U) (Some H) HI SW W Lm SH R') as [Fm [SG MV]].
  unfold with_output_padding in CA. revert CA.
  rewrite (opadded_apply_call G d _ _ valued _ dom c C (ca_filters a) k s _ eb ea (is_same opt) (ca_use_bias a) (ca_activation a)
    kinit binit op L x b m g CF CC Lm SH).
  pose proof (merged_input d valued x b m g c W Lm SH) as MG. change (if valued then g * c else c) with C in MG.
  rewrite (opadded_call_eq G d _ _ OK valued _ dom c C (ca_filters a) k s _ eb ea (is_same opt) (ca_use_bias a) (ca_activation a) kinit binit op L x b m _ CF Lm LOP MG).
  pose proof (cf_k _ _ _ _ _ _ _ _ _ _ _ _ _ _ _ _ _ _ _ _ _ _ CF) as Lk. pose proof (cf_s _ _ _ _ _ _ _ _ _ _ _ _ _ _ _ _ _ _ _ _ _ _ CF) as Ls.
  pose proof (cf_kpos _ _ _ _ _ _ _ _ _ _ _ _ _ _ _ _ _ _ _ _ _ _ CF) as Pk. pose proof (cf_spos _ _ _ _ _ _ _ _ _ _ _ _ _ _ _ _ _ _ _ _ _ _ CF) as Ps.
  assert (Fk : fit d eqs k) by (split; [apply (cf_fit _ _ _ _ _ _ _ _ _ _ _ _ _ _ _ _ _ _ _ _ _ _ CF)|exact Lk]).
  assert (Fs : fit d eqs s) by (split; [exact RS|exact Ls]). assert (Fop : fit d eqs op) by (split; [exact ROP|exact LOP]).
  destruct (fit_widths d eqs _ _ _ _ _ _ _ _ _ WO Fm Fk Fs) as [Feb Fea].
  rewrite undilate by assumption.
  assert (TO : forall ax, ax < d -> 0 < nth ax m 0 /\ (if is_same opt then Nat.Even (nth ax op 0) /\ nth ax op 0 <= nth ax k 0 else nth ax op 0 = 0) /\
     (is_plain opt = true \/ Nat.Even (if is_same opt then same_total (nth ax m 0) (nth ax k 0) (nth ax s 0) else nth ax s 0 - nth ax k 0))).
  { intros ax Hax. destruct (REG ax Hax) as [R1 [R2 [R3 [R4 R5]]]]. split; [exact R1|].
    assert (ON : In opt ["SAME"; "VALID"; "SAME_EQUIV"; "VALID_EQUIV"]).
    { destruct OP as [p [PN <-]]. destruct B as [L0 [I _]]. pose proof LF as [DG [AG AF]].
      destruct (conv_init_inv G d name true a L0 DG AG AF I) as [p' [k' [s' [dl' [Hn [PN' [_ [_ [_ [_ [_ [ME _]]]]]]]]]]]].
      unfold padding_name in PN'. assert (p' = p) as -> by congruence. apply mem_str_In. exact ME. }
    cbn [In] in ON. destruct ON as [<-|[<-|[<-|[<-|[]]]]].
    - split; [apply R3; left; reflexivity|left; reflexivity].
    - split; [apply R2; left; reflexivity|left; reflexivity].
    - split; [apply R3; right; left; reflexivity|right; apply R5; reflexivity].
    - split; [apply R2; right; left; reflexivity|right; apply R4; reflexivity]. }
  destruct (opadded_regular _ _ _ d m k s op eb ea WO TO Lm Lk Ls Pk Ps) as [EE MI].
  set (m1 := padded eb m ea) in *. set (same := is_same opt) in *.
  assert (Fm1 : fit d eqs m1) by (apply fit_padded; assumption). pose proof Fm1 as [_ Lm1].
  assert (FM : fit d eqs (opadded_outs d (padding_string same) m1 k s op)).
  { apply fit_of; [unfold opadded_outs; rewrite map_length; apply seq_length|]. intros Q p q Hp Hq. unfold opadded_outs. rewrite !nth_seq_map by assumption.
    rewrite (fit_nth d eqs m1 p q), (fit_nth d eqs k p q), (fit_nth d eqs s p q), (fit_nth d eqs op p q) by assumption. reflexivity. }
  assert (Fb : fit d eqs (opadded_crops d (padding_string same) m1 k s op)).
  { apply fit_of; [unfold opadded_crops; rewrite map_length; apply seq_length|]. intros Q p q Hp Hq. unfold opadded_crops. rewrite !nth_seq_map by assumption.
    rewrite (fit_nth d eqs m1 p q), (fit_nth d eqs k p q), (fit_nth d eqs s p q), (fit_nth d eqs (opadded_outs d (padding_string same) m1 k s op) p q) by assumption. reflexivity. }
  set (M := opadded_outs d (padding_string same) m1 k s op) in *. set (before := opadded_crops d (padding_string same) m1 k s op) in *.
  pose proof FM as [_ LM].
  destruct (opadded_runs d (padding_string same) m1 k s op) eqn:RU; [|discriminate]. cbn [snd]. intros CA.
  assert (EO : forall u v : tensor A, Ok u = Ok v -> u = v) by congruence. apply EO in CA. subst y.
  match goal with |- context[sig4 d ?y] => set (Y := y) end. rewrite seq_length.
  destruct (group_slices_ok G d E eqs OK b M (List.length E) (ca_filters a) Y (Some U) (Some "") idx (seq 0 (List.length E)) HI WH (eq_sym (seq_length _ _)) FM ST) as [gy [GY [SGY SL]]].
  exists gy. split; [exact GY|]. rewrite SG, SGY. cbn [nth]. split; [reflexivity|]. intros u Uu. rewrite (SL u Uu).
  destruct (MV u Uu) as [X' [MG' [WX [SX XX]]]].
  unfold with_output_padding. rewrite (opadded_apply_call G d _ _ valued _ dom c C (ca_filters a) k s _ eb ea (is_same opt) (ca_use_bias a) (ca_activation a)
    kinit binit op L (slice 0 u gx) b m g CF CC Lm (eq_trans SX SH)).
  rewrite (opadded_call_eq G d _ _ OK valued _ dom c C (ca_filters a) k s _ eb ea (is_same opt) (ca_use_bias a) (ca_activation a) kinit binit op L (slice 0 u gx) b m X' CF Lm LOP MG').
  rewrite undilate by assumption. fold m1. fold same. rewrite RU. cbn [snd]. fold M. fold before. rewrite seq_length. f_equal.
  apply sig4_ext; [exact LM|]. intros bi pp h oo BI P Hh O. unfold moved4, Y.
  set (u' := nth u idx 0) in *. assert (Hu : In u' idx) by (apply nth_In; exact Uu).
  apply (transpose_out_moved G d E eqs OK valued (seq 0 (List.length E)) dom c C (ca_filters a) k s (repeat 1 d) (ca_use_bias a) (ca_activation a) binit
           (tab (k ++ [ca_filters a; C]) kinit) ADD u' m1 M before (bordered eb m (merged_fun valued x c)) (bordered eb m X') bi pp h oo); try assumption.
  - split; [apply Bi; exact Hu| |].
    + split; [apply seq_NoDup|]. split; [intros z Z; apply in_seq in Z; lia|apply ST; exact Hu].
    + intros V. destruct (SW V) as [D1 [D2 D3]]. destruct (sub_idx_facts _ _ _ _ OK _ _ D1) as [ND' [Bd _]].
      split; [exact ND'|]. split; [exact Bd|]. split; [apply D3; exact Hu|]. unfold C. rewrite V, D2. reflexivity.
  - apply fit_ones.
  - intros q Hq _. apply MI. exact Hq.
  - intros i q IM Q. unfold m1 in *. rewrite <- EE in *. apply (bordered_moved G d E eqs OK); try assumption; [apply Bi; exact Hu|].
    intros i' _. apply XX. exact Q.
  - rewrite seq_length. exact Hh.
Qed.

(** With such an output_padding the layer commutes with the group, for every stride and every
    kernel, also where the default does not. *)
Theorem C106_regular_output_padding name G (a : conv_args A) H U opt bs m g c kinit binit L k s op :
  add_commutes A ->
  layer_for name G a -> ca_subgroup a = Some H -> option_of a opt ->
  let d := dimension_of name in
  List.length m = d -> sizes d a k s (repeat 1 d) -> respects name s -> List.length op = d -> respects name op ->
  regular_output_padding d opt m k s op ->
  (built d true a (bs :: map Some m ++ [Some c]) kinit binit L ->
   forall b x, wf x -> shape x = b :: m ++ [c] ->
     commutes_at (transforms_of_grid_signal G d U) (transforms_of_group_signal G d U "") (with_output_padding op L) x) /\
  (built d true a (bs :: map Some m ++ [Some g; Some c]) kinit binit L ->
   forall b x, wf x -> shape x = b :: m ++ [g; c] ->
     commutes_at (transforms_of_group_signal G d H H) (transforms_of_group_signal G d H "") (with_output_padding op L) x).
Proof.
  intros ADD LF HS OP d Lm SZ RS LOP ROP REG. split; intros B b x W SH.
  - apply (opadded_commutes name G a H U opt false bs m 0 c kinit binit L k s op x b); try assumption. discriminate.
  - apply (opadded_commutes name G a H H opt true bs m g c kinit binit L k s op x b); try assumption. reflexivity.
Qed.

(** A successful call leaves the layer as it is; one that raises leaves it as it is or with the transformed weights. *)
Theorem C106_successful_calls_change_nothing op (L L' : conv_layer A) x y : opadded_apply op L x = (L', Ok y) -> L' = L.
Proof.
  intros Q. assert (CC : opadded_call op L x = (L', Ok y)).
  { unfold opadded_apply in Q. destruct (rank x <? gt_dims (cl_gt L) + 2)%nat; [discriminate Q|]. destruct (cl_channels L) as [c|]; [|exact Q].
    destruct (_ =? c)%nat; [exact Q|discriminate Q]. }
  unfold opadded_call in CC. destruct (cl_kernel L) as [K|] eqn:EK; [|discriminate CC].
  destruct (prepare_call (cl_gt L) K (cl_bias L) (cl_filters L) x) as [[[[k b] f] xx]|e'] eqn:PC; [|discriminate CC].
  match type of CC with match ?r with _ => _ end = _ => destruct r as [z|e'] end; [|discriminate CC].
  assert (E : L' = cl_set_weights (cl_set_weights L (Some k) b f) (Some K) (cl_bias L) (cl_filters L)) by congruence.
  rewrite E, set_weights_set, <- EK. apply set_weights_id.
Qed.

Theorem C106_what_a_failing_call_leaves op (L L' : conv_layer A) x e :
  opadded_apply op L x = (L', Err e) ->
  L' = L \/
  exists K K' b' f' xp, cl_kernel L = Some K /\ prepare_call (cl_gt L) K (cl_bias L) (cl_filters L) x = Ok (K', b', f', xp) /\
    transform_kernel (cl_gt L) K = Ok K' /\ cl_kernel L' = Some K' /\ cl_bias L' = b' /\ cl_filters L' = f' /\ cl_gt L' = cl_gt L.
Proof.
  unfold opadded_apply. intros Q.
  assert (CC : L' = L \/ opadded_call op L x = (L', Err e)).
  { destruct (rank x <? gt_dims (cl_gt L) + 2)%nat; [injection Q as <- _; left; reflexivity|]. destruct (cl_channels L) as [c|]; [|right; exact Q].
    destruct (_ =? c)%nat; [right; exact Q|injection Q as <- _; left; reflexivity]. }
  destruct CC as [CC|CC]; [left; exact CC|]. unfold opadded_call in CC. destruct (cl_kernel L) as [K|] eqn:EK; [|injection CC as <- _; left; reflexivity].
  destruct (prepare_call (cl_gt L) K (cl_bias L) (cl_filters L) x) as [[[[k b] f] xx]|e'] eqn:PC; [|injection CC as <- _; left; reflexivity].
  match type of CC with match ?r with _ => _ end = _ => destruct r as [z|e'] end; [discriminate CC|].
  injection CC as <- _. right. exists K, k, b, f, xx. split; [reflexivity|]. split; [exact PC|]. split; [|repeat split; reflexivity].
  unfold prepare_call in PC. destruct (merge_group_axis_and_pad (cl_gt L) x) as [x'|]; [|discriminate PC]. cbn [bind] in PC.
  destruct (transform_kernel (cl_gt L) K) as [K'|]; [|discriminate PC]. cbn [bind] in PC.
  destruct (match cl_bias L with Some b => _ | None => Ok None end) as [b'|]; [|discriminate PC]. cbn [bind] in PC.
  destruct (subgroup_get (gt_group (cl_gt L)) (gt_acting (cl_gt L))) as [ac|]; [|discriminate PC]. cbn [bind] in PC. congruence.
Qed.

(** compute_output_shape: the sizes for the input without the padding the layer adds. *)
Theorem C106_compute_output_shape name G (a : conv_args A) H opt (valued : bool) bs m g c kinit binit L k s dl op :
  layer_for name G a -> ca_subgroup a = Some H -> option_of a opt ->
  let d := dimension_of name in
  let same := mem_str opt ["SAME"; "SAME_EQUIV"] in
  built d true a (static_signal_shape valued bs m g c) kinit binit L -> List.length m = d -> sizes d a k s dl -> List.length op = d ->
  opadded_compute_output_shape op L =
    Ok (bs :: map (fun ax => let ke := dilated (nth ax k 0) (nth ax dl 0) in
                             Some ((nth ax m 0 - 1) * nth ax s 0 + (if same then ke mod 2 else ke) + nth ax op 0)) (seq 0 d)
        ++ [Some (List.length (symmetries_of name)); Some (ca_filters a)]).
Proof.
  intros LF HS OP d same B Lm SZ LOP.
  destruct (built_facts name G a H opt true valued bs m g c kinit binit L k s dl LF HS OP B Lm SZ)
    as [OK [eb [ea [act [dom [WO [SA [SD [CF [CC [KS [RS PO]]]]]]]]]]]]. fold d in OK, SA, SD, CF, PO.
  destruct CF. unfold opadded_compute_output_shape. rewrite RS, cf_fmt', cf_padding, cf_filters, KS, cf_strides, cf_dilation.
  unfold opadded_output_shape. cbn [String.eqb Ascii.eqb Bool.eqb].
  assert (LI : (List.length (bs :: map Some m ++ [Some (if valued then g * c else c)]) =? List.length k + 2)%nat = true).
  { apply Nat.eqb_eq. cbn [List.length]. rewrite app_length, map_length. cbn [List.length]. lia. }
  rewrite LI. cbn [bind skipn]. rewrite firstn_app_exact by (rewrite map_length; lia).
  assert (LK : List.length (vzip dilated k dl) = d) by (rewrite length_vzip; lia).
  set (out := map (fun ax => let ke := dilated (nth ax k 0) (nth ax dl 0) in
                             Some ((nth ax m 0 - 1) * nth ax s 0 + (if same then ke mod 2 else ke) + nth ax op 0)) (seq 0 d)).
  match goal with |- context[nth 0 _ None :: ?oo ++ _] => assert (OE : oo = out) end.
  { assert (Q : forall (F : nat -> nat -> nat -> nat -> nat) e m n ke s op, List.length n = e -> List.length ke = e -> List.length s = e -> List.length op = e ->
      m = map Some n ->
      map (fun q : option nat * nat * nat * nat => let '(n, k, s, op) := q in option_map (fun n => F n k s op) n) (combine (combine (combine m ke) s) op)
      = map (fun ax => Some (F (nth ax n 0) (nth ax ke 0) (nth ax s 0) (nth ax op 0))) (seq 0 e)).
    { clear. intros F. induction e as [|e IH]; intros m n ke s op L1 L2 L3 L4 ->.
      - destruct n; [reflexivity|discriminate L1].
      - destruct n as [|n0 n], ke as [|k0 ke], s as [|s0 s], op as [|o0 op]; try discriminate. cbn [combine map seq nth option_map]. f_equal.
        rewrite (IH (map Some n) n ke s op) by (cbn in *; first [lia|reflexivity]). rewrite <- seq_shift, map_map. reflexivity. }
    rewrite (Q (opadded_size (if is_same opt then "same" else "valid")) d (map Some m) m _ s op Lm LK cf_s LOP eq_refl).
    unfold out. apply map_ext_in. intros ax I. apply in_seq in I. rewrite nth_vzip by lia. unfold opadded_size.
    change (is_same opt) with same. destruct same; reflexivity. }
  rewrite OE. f_equal. cbn [nth].
  unfold correct_output_shape. rewrite cf_group, cf_gaxis, (ok_order _ _ _ _ OK). cbn [nth].
  assert (LO : List.length out = d) by (unfold out; rewrite map_length; apply seq_length).
  rewrite py_upto_nat, py_from_nat by (cbn [List.length]; rewrite app_length; cbn [List.length]; lia).
  replace (d + 1) with (S d) by lia. cbn [firstn skipn]. rewrite firstn_app_exact, skipn_app_exact by congruence. reflexivity.
Qed.

(** It is the shape of the output exactly when the layer adds no padding of its own. *)
Theorem C106_when_the_announced_shape_is_right name G (a : conv_args A) H opt (valued : bool) bs m g c kinit binit L k s dl op x b y rest :
  layer_for name G a -> ca_subgroup a = Some H -> option_of a opt ->
  let d := dimension_of name in
  let C := if valued then g * c else c in
  built d true a (static_signal_shape valued bs m g c) kinit binit L -> List.length m = d -> sizes d a k s dl -> List.length op = d ->
  (forall ax, ax < d -> 0 < nth ax m 0) ->
  wf x -> shape x = signal_shape valued b m g c -> with_output_padding op L x = Ok y -> shape y = b :: rest ->
  (opadded_compute_output_shape op L = Ok (bs :: map Some rest) <->
   exists P, padding_of a true d bs m C P /\ padding_call P (merged_signal valued c g x b m) = Ok (merged_signal valued c g x b m)).
Proof.
  intros LF HS OP d C B Lm SZ LOP PM W SH CA SY.
  rewrite (C106_compute_output_shape name G a H opt valued bs m g c kinit binit L k s dl op LF HS OP B Lm SZ LOP). fold d.
  destruct (C106_output_shape name G a H opt valued bs m g c kinit binit L k s dl op LF HS OP B Lm SZ LOP) as [P1 [PO1 Q]].
  destruct (Q x b m W Lm SH) as [xp [np [X1 [X2 [Lnp [Y1 Y2]]]]]]. clear Q. fold d in Lnp, Y1, Y2. fold C in PO1, X2.
  set (same := mem_str opt ["SAME"; "SAME_EQUIV"]) in *.
  match type of Y1 with ?acc -> _ => assert (AC : acc) end.
  { match goal with |- ?acc => assert (DA : acc \/ ~ acc) end.
    { assert (DD : forall (Pr : nat -> Prop) e, (forall ax, ax < e -> Pr ax \/ ~ Pr ax) -> (forall ax, ax < e -> Pr ax) \/ ~ (forall ax, ax < e -> Pr ax)).
      { clear. intros Pr. induction e as [|e IH]; intros D; [left; intros; lia|].
        destruct IH as [I|I]; [intros ax Hax; apply D; lia| |right; intros N; apply I; intros ax Hax; apply N; lia].
        destruct (D e ltac:(lia)) as [J|J]; [left|right; intros N; apply J, N; lia].
        intros ax Hax. destruct (Nat.eq_dec ax e) as [->|NE]; [exact J|apply I; lia]. }
      apply DD. intros ax _. destruct same; lia. }
    destruct DA as [DA|DA]; [exact DA|]. rewrite (proj1 (Y2 DA)) in CA. discriminate CA. }
  destruct (Y1 AC) as [y' [CA' SY']]. assert (y' = y) as -> by congruence. rewrite SY in SY'.
  assert (CO : forall u v : list nat, b :: u = b :: v -> u = v) by congruence. apply CO in SY'. subst rest. clear CO Y1 Y2 CA'.
  destruct (built_facts name G a H opt true valued bs m g c kinit binit L k s dl LF HS OP B Lm SZ)
    as [OK [eb [ea [act [dom [WO [SA [SD [CF [CC [KS [RS PO]]]]]]]]]]]]. fold d in OK, SA, SD, CF, PO. fold C in CF, PO.
  pose proof (merged_signal_eq d valued c g x b m W Lm SH) as MS. fold C in MS.
  assert (PU : forall P, padding_of a true d bs m C P -> P = gt_padding (cl_gt L)).
  { intros P [P0 [I1 I2]]. destruct PO as [P0' [J1 J2]]. congruence. }
  rewrite (PU P1 PO1) in X1.
  assert (XP : padding_call (gt_padding (cl_gt L)) (merged_signal valued c g x b m)
     = Ok (tab (b :: padded eb m ea ++ [C]) (sig3 d (bordered eb m (merged_fun valued x c))))) by (rewrite MS; destruct CF; apply cf_pads; exact Lm).
  assert (EO : forall u v : tensor A, Ok u = Ok v -> u = v) by congruence.
  rewrite XP in X1. apply EO in X1. subst xp. rewrite shape_tab in X2.
  assert (NPE : np = padded eb m ea). { assert (X3 : padded eb m ea ++ [C] = np ++ [C]) by congruence. apply app_inv_tail in X3. congruence. }
  assert (LE1 : List.length eb = d) by (destruct CF; assumption). assert (LE2 : List.length ea = d) by (destruct CF; assumption).
  assert (SP : forall ax, ax < d -> 0 < nth ax s 0) by (destruct CF; assumption).
  assert (NP : forall ax, ax < d -> nth ax np 0 = nth ax m 0 + (nth ax eb 0 + nth ax ea 0)) by (intros ax Hax; rewrite NPE, (nth_padded _ _ _ d) by assumption; lia).
  rewrite map_app, map_map. cbn [map]. cbv zeta.
  set (f1 := fun ax => Some ((nth ax m 0 - 1) * _ + _ + _)). set (f2 := fun ax => Some ((nth ax np 0 - 1) * _ + _ + _)).
  assert (FE : (forall ax, ax < d -> f1 ax = f2 ax) <-> (forall ax, ax < d -> nth ax eb 0 + nth ax ea 0 = 0)).
  { split; intros Z ax Hax; specialize (Z ax Hax).
    - unfold f1, f2 in Z. specialize (PM ax Hax). specialize (SP ax Hax). rewrite (NP ax Hax) in Z.
      set (e := nth ax eb 0 + nth ax ea 0) in *. assert (SI : forall u v : nat, Some u = Some v -> u = v) by congruence. apply SI in Z.
      assert ((nth ax m 0 - 1) * nth ax s 0 = (nth ax m 0 + e - 1) * nth ax s 0) as Z' by lia. nia.
    - unfold f1, f2. rewrite (NP ax Hax), Z, Nat.add_0_r. reflexivity. }
  split.
  - intros E. assert (E' : map f1 (seq 0 d) = map f2 (seq 0 d)).
    { apply (app_inv_tail [Some (List.length (symmetries_of name)); Some (ca_filters a)]). congruence. }
    assert (Z : forall ax, ax < d -> nth ax eb 0 + nth ax ea 0 = 0).
    { apply FE. intros ax Hax. apply (f_equal (fun l => nth ax l (f1 0))) in E'. rewrite (map_nth f1) in E'.
      rewrite (nth_indep _ (f1 0) (f2 0)) in E' by (rewrite map_length, seq_length; exact Hax). rewrite (map_nth f2), seq_nth in E' by exact Hax. exact E'. }
    exists (gt_padding (cl_gt L)). split; [exact PO|]. rewrite XP, MS.
    assert (E1 : eb = zeros_of d /\ ea = zeros_of d).
    { split; apply nth_ext with (d := 0) (d' := 0); unfold zeros_of; rewrite ?repeat_length; try assumption; intros ax Hax; rewrite nth_repeat; specialize (Z ax ltac:(lia)); lia. }
    destruct E1 as [-> ->]. rewrite bordered_zeros by exact Lm. reflexivity.
  - intros [P [P2 P3]]. rewrite (PU P P2), XP, MS in P3. apply EO in P3. apply (f_equal (@shape A)) in P3. rewrite !shape_tab in P3.
    assert (P4 : padded eb m ea ++ [C] = m ++ [C]) by congruence. apply app_inv_tail in P4.
    assert (Z : forall ax, ax < d -> f1 ax = f2 ax).
    { apply FE. intros ax Hax. pose proof (NP ax Hax) as Q. rewrite NPE, P4 in Q. lia. }
    do 3 f_equal. apply map_ext_in. intros ax I. apply in_seq in I. apply Z. lia.
Qed.

End Statements.
Print Assumptions C106_output_shape.
Print Assumptions C106_successful_calls_change_nothing.
Print Assumptions C106_what_a_failing_call_leaves.
Print Assumptions C106_compute_output_shape.
Print Assumptions C106_when_the_announced_shape_is_right.
Print Assumptions C106_other_channels.
Print Assumptions C106_the_default.
Print Assumptions C106_values.
Print Assumptions C106_regular_output_padding.

(** ** Cases *)

Definition opadded_commutes_b (op : list nat) (tin tout : tensor Z -> result (tensor Z)) (R : result (conv_layer Z)) (x : tensor Z) : option bool :=
  match R with
  | Ok L => match tin x, with_output_padding op L x with Ok _, Ok _ => Some (commutes_b tin tout (with_output_padding op L) x) | _, _ => None end
  | Err _ => None
  end.

Lemma opadded_fails op tin tout d a input kinit binit x :
  opadded_commutes_b op tin tout (test_layer d true a input kinit binit) x = Some false ->
  exists L y, built d true a input kinit binit L /\ with_output_padding op L x = Ok y /\ ~ commutes_at tin tout (with_output_padding op L) x.
Proof.
  unfold opadded_commutes_b. destruct (test_layer d true a input kinit binit) as [L|] eqn:T; [|discriminate]. intros N.
  exists L. destruct (tin x); [|discriminate N]. destruct (with_output_padding op L x) as [y|]; [|discriminate N].
  exists y. split; [apply test_layer_built; exact T|]. split; [reflexivity|]. intros C. apply commutes_b_ok in C. rewrite C in N. discriminate N.
Qed.

(** Any positive output_padding with 'valid' padding, and an odd one with 'same' padding, may
    destroy the equivariance: *)
Theorem C106_every_output_padding_refuted :
  let a := with_group "P2" "" (One 3) 1 (Some (One 2)) (Some (Some "valid_equiv")) None true in
  let a' := with_group "P2" "" (One 3) 1 (Some (One 3)) (Some (Some "same_equiv")) None true in
  (exists L y, built 2 true a [None; Some 3; Some 3; Some 1] some_weights some_weights L /\
    with_output_padding [1; 1] L (some_signal [1; 3; 3; 1]) = Ok y /\
    ~ commutes_at (transforms_of_grid_signal P2 2 "") (transforms_of_group_signal P2 2 "" "") (with_output_padding [1; 1] L) (some_signal [1; 3; 3; 1])) /\
  (exists L y, built 2 true a' [None; Some 3; Some 3; Some 1] some_weights some_weights L /\
    with_output_padding [1; 1] L (some_signal [1; 3; 3; 1]) = Ok y /\
    ~ commutes_at (transforms_of_grid_signal P2 2 "") (transforms_of_group_signal P2 2 "" "") (with_output_padding [1; 1] L) (some_signal [1; 3; 3; 1])).
Proof. intros a a'. split; apply opadded_fails; vm_compute; reflexivity. Qed.
Print Assumptions C106_every_output_padding_refuted.

(** Kernel size 3, stride 2, 'same_equiv': the layer of [C27_every_transposed_layer_that_builds_refuted]
    with output_padding=0.  Kernel size 5, stride 4: without the argument, and with output_padding=2. *)
Example C106_case :
  opadded_commutes_b [0; 0] (transforms_of_grid_signal P2 2 "") (transforms_of_group_signal P2 2 "" "")
    (test_layer 2 true (with_group "P2" "" (One 3) 1 (Some (One 2)) (Some (Some "same_equiv")) None true)
       [None; Some 3; Some 3; Some 1] some_weights some_weights) (some_signal [1; 3; 3; 1]) = Some true /\
  fails_to_commute (transforms_of_grid_signal P2 2 "") (transforms_of_group_signal P2 2 "" "")
    (test_layer 2 true (with_group "P2" "" (One 5) 1 (Some (One 4)) (Some (Some "same_equiv")) None true)
       [None; Some 5; Some 1; Some 1] some_weights some_weights) (some_signal [1; 5; 1; 1]) = true /\
  opadded_commutes_b [2; 2] (transforms_of_grid_signal P2 2 "") (transforms_of_group_signal P2 2 "" "")
    (test_layer 2 true (with_group "P2" "" (One 5) 1 (Some (One 4)) (Some (Some "same_equiv")) None true)
       [None; Some 5; Some 1; Some 1] some_weights some_weights) (some_signal [1; 5; 1; 1]) = Some true.
Proof. split; [|split]; vm_compute; reflexivity. Qed.

(** An output_padding that is not smaller than the stride: TensorFlow refuses.  Two channels instead of one: Keras refuses. *)
Example C106_case_shapes :
  match test_layer 2 true (with_group "P4" "" (One 3) 1 (Some (One 2)) (Some (Some "valid")) None true)
       [None; Some 3; Some 3; Some 1] some_weights some_weights with
  | Ok L => match with_output_padding [1; 0] L (some_signal [1; 3; 3; 1]), with_output_padding [2; 0] L (some_signal [1; 3; 3; 1]),
                  with_output_padding [0; 0] L (some_signal [1; 3; 3; 1]), apply L (some_signal [1; 3; 3; 1]) with
            | Ok y, Err BackendError, Ok z, Ok z' => with_output_padding [1; 0] L (some_signal [1; 3; 3; 2]) = Err ValueError /\ shape y = [1; 8; 7; 4; 1] /\ shape z = [1; 7; 7; 4; 1] /\ same_tensor z z' = true
            | _, _, _, _ => False
            end
  | Err _ => False
  end.
Proof. vm_compute. repeat split. Qed.

(** What the call with output_padding [2; 0] above leaves, and one with [1; 0]. *)
Example C106_case_after_calls :
  match test_layer 2 true (with_group "P4" "" (One 3) 1 (Some (One 2)) (Some (Some "valid")) None true)
       [None; Some 3; Some 3; Some 1] some_weights some_weights with
  | Ok L => let x := some_signal [1; 3; 3; 1] in
            map (fun op => (cl_filters (fst (opadded_apply op L x)), option_map (fun K => shape K) (cl_kernel (fst (opadded_apply op L x))))) [[2; 0]; [1; 0]]
            = [(4, Some [3; 3; 4; 1]); (1, Some [3; 3; 1; 1])]
  | Err _ => False
  end.
Proof. vm_compute. reflexivity. Qed.

(** The announced shapes of a layer that adds no padding and of one that adds some, with the real ones. *)
Example C106_case_announced :
  match test_layer 2 true (with_group "P4" "" (One 3) 2 (Some (One 2)) (Some (Some "valid")) None true)
          [None; Some 3; Some 3; Some 1] some_weights some_weights,
        test_layer 2 true (with_group "P2" "" (One 3) 1 (Some (One 3)) (Some (Some "same_equiv")) None true)
          [None; Some 2; Some 1; Some 1] some_weights some_weights with
  | Ok L, Ok L' =>
      match with_output_padding [1; 0] L (some_signal [1; 3; 3; 1]), with_output_padding [0; 1] L' (some_signal [1; 2; 1; 1]) with
      | Ok y, Ok z => opadded_compute_output_shape [1; 0] L = Ok [None; Some 8; Some 7; Some 4; Some 2] /\ shape y = [1; 8; 7; 4; 2] /\
          opadded_compute_output_shape [0; 1] L' = Ok [None; Some 4; Some 2; Some 2; Some 1] /\ shape z = [1; 13; 2; 2; 1]
      | _, _ => False
      end
  | _, _ => False
  end.
Proof. vm_compute. repeat split. Qed.

(** Kernel size 3, stride 3, 'same_equiv', five rows after padding: output_padding 0 leaves rows 1 to 13 and column 1 of
    the output without the argument.  Kernel size 1, stride 3, 'valid_equiv': output_padding 1 leaves out the last row
    and column. *)
Example C106_case_values :
  match test_layer 2 true (with_group "P2" "" (One 3) 1 (Some (One 3)) (Some (Some "same_equiv")) None true)
          [None; Some 2; Some 1; Some 1] some_weights some_weights,
        test_layer 2 true (with_group "P2" "" (One 1) 1 (Some (One 3)) (Some (Some "valid_equiv")) None true)
          [None; Some 2; Some 1; Some 1] some_weights some_weights with
  | Ok L, Ok L' =>
      let x := some_signal [1; 2; 1; 1] in
      match with_output_padding [0; 0] L x, apply L x, with_output_padding [1; 1] L' x, apply L' x with
      | Ok y, Ok y0, Ok z, Ok z0 =>
          shape y = [1; 13; 1; 2; 1] /\ shape y0 = [1; 15; 3; 2; 1] /\
          map (fun p => at_ y [0; p; 0; 1; 0]) (seq 0 13) = map (fun p => at_ y0 [0; p; 1; 1; 0]) (seq 1 13) /\
          map (fun p => at_ y [0; p; 0; 1; 0]) (seq 0 13) <> map (fun p => at_ y0 [0; p; 1; 1; 0]) (seq 0 13) /\
          shape z = [1; 5; 14; 2; 1] /\ shape z0 = [1; 6; 15; 2; 1] /\
          map (fun q => at_ z [0; 3; q; 1; 0]) (seq 0 14) = map (fun q => at_ z0 [0; 3; q; 1; 0]) (seq 0 14)
      | _, _, _, _ => False
      end
  | _, _ => False
  end.
Proof. vm_compute. repeat split. discriminate. Qed.
