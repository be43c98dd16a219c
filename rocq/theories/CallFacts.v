(** What calling a built convolution layer returns (data_format 'channels_last'). *)
From Verif Require Export BuildFacts.
Local Open Scope string_scope.
Local Open Scope list_scope.

Lemma In_data_tab {A} {ZA : Zero A} s (f : list nat -> A) v : In v (data (tab s f)) -> exists i, inb s i /\ v = f i.
Proof.
  unfold tab. cbn [data]. intros I. apply in_map_iff in I as [i [<- I]]. exists i. split; [apply In_indices; exact I|reflexivity].
Qed.

Lemma tmap_tab {A B} {ZA : Zero A} {ZB : Zero B} (g : A -> B) s (f : list nat -> A) : tmap g (tab s f) = tab s (fun i => g (f i)).
Proof. unfold tmap, tab. cbn [shape data]. rewrite map_map. reflexivity. Qed.

Lemma length_data_tab {A} {ZA : Zero A} s (f : list nat -> A) : List.length (data (tab s f)) = prod s.
Proof. apply (wf_tab s f). Qed.

Lemma prod_swap k a b : prod (k ++ [a; b]) = prod (k ++ [b; a]).
Proof. rewrite !prod_app. f_equal. unfold prod. cbn [fold_right]. lia. Qed.

Section Call.
Context {A : Type} {RA : Arith A}.

(** ** Transposed convolution as a sum over windows *)

Definition tterm (o : option A) (w : A) : A := match o with Some x => mul x w | None => zero end.

Definition tsrc (n s dl before : list nat) : list nat -> list nat -> option (list nat) :=
  wsrc (fun a => transpose_src (nth a n 0) (nth a s 0) (nth a dl 0) (nth a before 0)) (List.length n).

Definition touts (padding : string) (n ke s : list nat) : list nat :=
  map (fun q => let '(n, k, s) := q in transpose_size padding n k s) (combine (combine n ke) s).

Lemma length_touts padding n ke s d : List.length n = d -> List.length ke = d -> List.length s = d -> List.length (touts padding n ke s) = d.
Proof. intros. unfold touts. rewrite map_length, !combine_length. lia. Qed.

Lemma nth_touts padding n ke s d a : List.length n = d -> List.length ke = d -> List.length s = d -> a < d ->
  nth a (touts padding n ke s) 0 = transpose_size padding (nth a n 0) (nth a ke 0) (nth a s 0).
Proof.
  intros L1 L2 L3 Ha. unfold touts.
  change (nth a (map (fun q : axis => let '(n, k, s) := q in transpose_size padding n k s) (axes_of n ke s)) 0 = transpose_size padding (nth a n 0) (nth a ke 0) (nth a s 0)).
  rewrite nth_map_axes by (rewrite (length_axes _ _ _ d); assumption).
  rewrite (nth_axes n ke s d a) by assumption. reflexivity.
Qed.

Lemma conv_transpose_last_eq d b n C o k (X : nat -> list nat -> nat -> A) (w : tensor A) s dl padding :
  List.length n = d -> List.length s = d -> List.length dl = d -> List.length k = d -> shape w = k ++ [o; C] ->
  (forall a, a < d -> 0 < nth a s 0) ->
  let ke := vzip dilated k dl in
  conv_transpose_last (tab (b :: n ++ [C]) (sig3 d X)) w s dl padding
  = Ok (tab (b :: touts padding n ke s ++ [o])
            (sig3 d (fun bi p r => window d (tsrc n s dl (vzip (transpose_before padding) ke s)) tterm k C (X bi)
                                          (fun j q r => at_ w (j ++ [r; q])) p r))).
Proof.
  intros L LS LD LK SW PS ke.
  assert (LKE : List.length ke = d) by (unfold ke; rewrite length_vzip; lia).
  unfold conv_transpose_last. rewrite LS. rewrite rank_tab. unfold rank. rewrite SW.
  replace (List.length (b :: n ++ [C]) =? d + 2)%nat with true
    by (symmetry; apply Nat.eqb_eq; cbn [List.length]; rewrite app_length; cbn; lia).
  replace (List.length (k ++ [o; C]) =? d + 2)%nat with true
    by (symmetry; apply Nat.eqb_eq; rewrite app_length; cbn; lia).
  rewrite LD, Nat.eqb_refl. cbn [andb]. rewrite shape_tab.
  rewrite (spatial_ix d b n [C] L), (chan_ix d b n C [] L).
  assert (F1 : firstn d (k ++ [o; C]) = k) by (apply firstn_app_exact; auto).
  assert (F2 : nth d (k ++ [o; C]) 0 = o) by (rewrite app_nth2 by lia; rewrite LK, Nat.sub_diag; reflexivity).
  assert (F3 : nth (d + 1) (k ++ [o; C]) 0 = C) by (rewrite app_nth2 by lia; replace (d + 1 - List.length k) with 1 by lia; reflexivity).
  rewrite F1, F2, F3, Nat.eqb_refl. fold ke. f_equal. change (nth 0 (b :: n ++ [C]) 0) with b.
  fold (touts padding n ke s). pose proof (length_touts padding n ke s d L LKE LS) as LO.
  rewrite (tab_sig3 d) by exact LO. apply sig3_ext; [exact LO|]. intros bi p r B P R.
  pose proof (inb_length _ _ P) as LP'. rewrite LO in LP'.
  unfold window. f_equal. apply map_ext_in. intros jc I. apply In_indices in I.
  apply inb_app_split in I as [j [c [-> [J I]]]]. apply inb1 in I as [q [-> Q]]. pose proof (inb_length _ _ J) as LJ.
  rewrite firstn_app_exact by lia. rewrite app_nth2 by lia. replace (d - List.length j) with 0 by lia. change (nth 0 [q] 0) with q. change (nth 0 (bi :: p ++ [r]) 0) with bi.
  rewrite (spatial_ix d bi p [r] LP'), (chan_ix d bi p r [] LP').
  set (bf := vzip (transpose_before padding) ke s).
  assert (LBF : List.length bf = d) by (unfold bf; rewrite length_vzip; lia).
  rewrite (transpose_srcs_wsrc d n s dl bf p j) by lia. unfold tsrc. rewrite L.
  destruct (wsrc _ d p j) as [i|] eqn:W; [|reflexivity]. cbn [option_map tterm]. f_equal.
  apply wsrc_some in W as [LI HI]. rewrite (at_sig3 d); [reflexivity|exact L|exact B| |exact Q].
  apply inb_intro; [lia|]. rewrite L. intros a Ha. specialize (HI a Ha). apply transpose_src_spec in HI as [HI _]; [exact HI|].
  apply PS. exact Ha.
Qed.

(** ** Kernel, bias, activation *)

Context (G : group) (d : nat) (E : list symmetry) (eq : bool) (OK : group_ok G d E eq).
Notation n := (List.length E).

(** The entry of the kernel (a tensor of shape k, C, o, or k, o, C read in that
    order) used for input channel [q] and output channel [r] at pixel [j]. *)
Definition kval (valued : bool) (dom act : list nat) (c o : nat) (k : list nat) (C : nat) (K : tensor A) (j : list nat) (q r : nat) : A :=
  nth (kidx G E valued dom act c o k C j q r) (data K) zero.

Lemma transform_kernel_eq T tr valued dom act c C o k (K : tensor A) :
  domain_ok G T valued dom c C -> (forall a, In a act -> a < n) -> List.length k = d -> kernel_fits eq k ->
  gt_kernel_indices T = Some (
     if tr : bool then tab (k ++ [List.length act * o; C]) (ker d (fun j r q => kidx G E valued dom act c o k C j q r))
     else tab (k ++ [C; List.length act * o]) (ker d (kidx G E valued dom act c o k C))) ->
  wf K -> shape K = k ++ (if tr then [o; C] else [C; o]) ->
  transform_kernel T K = Ok (
     if tr then tab (k ++ [List.length act * o; C]) (ker d (fun j r q => kval valued dom act c o k C K j q r))
     else tab (k ++ [C; List.length act * o]) (ker d (kval valued dom act c o k C K))).
Proof.
  intros DO Ba L KF KI WK SK. unfold transform_kernel. rewrite reshape_flat. cbn [bind]. rewrite KI.
  assert (PR : List.length (data K) = prod (k ++ [C; o])).
  { unfold wf in WK. rewrite WK, SK. destruct tr; [apply prod_swap|reflexivity]. }
  rewrite take_flat.
  - f_equal. destruct tr; rewrite shape_tab; apply tab_ext; intros i I; rewrite at_tab by exact I; reflexivity.
  - destruct tr; apply wf_tab.
  - intros v I. rewrite PR.
    destruct tr; apply In_data_tab in I as [i [I ->]]; apply inbk_inv in I as [j [q [r [-> [J [Q R]]]]]];
      (rewrite ker_ix by (rewrite (inb_length _ _ J); exact L)); apply (kidx_lt G d E eq OK T); assumption.
Qed.

Lemma repeat_bias_eq T (act : list nat) o (binit : list nat -> A) :
  gt_bias_indices T = Some (tab [List.length act * o] (fun i => nth 0 i 0 mod o)) ->
  repeat_bias T (tab [o] binit) = Ok (tab [List.length act * o] (fun i => binit [nth 0 i 0 mod o])).
Proof.
  intros BI. unfold repeat_bias. rewrite BI. change 0%Z with (Z.of_nat 0). rewrite take_tab.
  - f_equal. cbn [firstn skipn app shape tab List.length]. apply tab_ext. intros i I. apply inb1 in I as [q [-> Q]].
    cbn [firstn skipn app List.length Nat.add]. f_equal. f_equal. rewrite at_tab; [reflexivity|].
    apply inb_cons. split; [exact Q|apply inb_nil].
  - cbn. lia.
  - intros v I. apply In_data_tab in I as [i [I ->]]. apply inb1 in I as [q [-> Q]]. cbn [nth].
    apply Nat.mod_upper_bound. intros ->. lia.
  - apply wf_tab.
Qed.

Definition biased (ub : bool) (binit : list nat -> A) (v : A) (oo : nat) : A := if ub then add v (binit [oo]) else v.

Lemma reshape_same_vec m (f : list nat -> A) : reshape (tab [m] f) [Z.of_nat m] = Ok (tab [m] f).
Proof.
  unfold reshape. rewrite length_data_tab. change [Z.of_nat m] with (map Z.of_nat [m]). rewrite resolve_nat by reflexivity. reflexivity.
Qed.

Lemma bias_activation b m F filters ub (binit : list nat -> A) o (Y : nat -> list nat -> nat -> A) (f : A -> A) :
  List.length m = d -> filters = F * o ->
  (y <- add_bias "channels_last" filters (if ub : bool then Some (tab [F * o] (fun i => binit [nth 0 i 0 mod o])) else None)
                 (tab (b :: m ++ [F * o]) (sig3 d Y)) ;;
   Ok (tmap f y))
  = Ok (tab (b :: m ++ [F * o]) (sig3 d (fun bi p r => f (biased ub binit (Y bi p r) (r mod o))))).
Proof.
  intros L ->. unfold add_bias. destruct ub; cbn [bind].
  - rewrite reshape_same_vec. cbn [bind String.eqb Ascii.eqb Bool.eqb]. rewrite rank_tab, shape_tab.
    assert (CH : List.length (b :: m ++ [F * o]) - 1 = d + 1) by (cbn [List.length]; rewrite app_length; cbn [List.length]; lia).
    rewrite CH, (chan_ix d b m (F * o) [] L), Nat.eqb_refl. cbn [bind]. rewrite tmap_tab. f_equal.
    rewrite (tab_sig3 d) by exact L. apply sig3_ext; [exact L|]. intros bi p q B P Q.
    rewrite (at_sig3 d) by assumption. rewrite (chan_ix d bi p q []) by (rewrite (inb_length _ _ P); exact L).
    rewrite at_tab by (apply inb_cons; split; [exact Q|apply inb_nil]). reflexivity.
  - rewrite tmap_tab. f_equal.
Qed.

Lemma restore_eq T valued (act : list nat) b m o (Y : nat -> list nat -> nat -> A) :
  gt_group T = G -> gt_format T = "channels_last" -> gt_group_valued T = valued -> gt_group_axis T = Z.of_nat (d + 1) ->
  gt_channels_axis T = Z.of_nat (if valued then d + 2 else d + 1) -> subgroup_get G (gt_acting T) = Ok act -> act <> [] ->
  List.length m = d ->
  restore_group_axis T (tab (b :: m ++ [List.length act * o]) (sig3 d Y))
  = Ok (tab (b :: m ++ [List.length act; o]) (sig4 d (fun bi p h oo => Y bi p (h * o + oo)))).
Proof.
  intros TG TF TV TA TC SA NE L. unfold restore_group_axis. rewrite TG, TF, TV, TA, TC, SA. cbn [bind String.eqb Ascii.eqb Bool.eqb].
  rewrite andb_true_r.
  replace (if valued then (Z.of_nat (if valued then d + 2 else d + 1) - 1)%Z else Z.of_nat (if valued then d + 2 else d + 1))
    with (Z.of_nat (d + 1)) by (destruct valued; lia).
  rewrite split_group; [|exact L|destruct act; [contradiction|discriminate]]. cbn [bind].
  apply moveaxis_same; [apply wf_tab|]. rewrite rank_tab. cbn [List.length]. rewrite app_length. cbn [List.length]. lia.
Qed.

Lemma set_weights_id (L : conv_layer A) : cl_set_weights L (cl_kernel L) (cl_bias L) (cl_filters L) = L.
Proof. destruct L. reflexivity. Qed.
Lemma set_weights_set (L : conv_layer A) k b f k' b' f' : cl_set_weights (cl_set_weights L k b f) k' b' f' = cl_set_weights L k' b' f'.
Proof. reflexivity. Qed.

Lemma window_ext (src : list nat -> list nat -> option (list nat)) (term : option A -> A -> A) k C (x x' : list nat -> nat -> A) W W' p r :
  List.length k = d ->
  (forall i q, x i q = x' i q) -> (forall j q, inb k j -> q < C -> W j q r = W' j q r) ->
  window d src term k C x W p r = window d src term k C x' W' p r.
Proof.
  intros LK HX HW. unfold window. f_equal. apply map_ext_in. intros jc I. apply In_indices in I.
  apply inb_app_split in I as [j [c [-> [J I]]]]. apply inb1 in I as [q [-> Q]]. pose proof (inb_length _ _ J).
  rewrite firstn_app_exact by lia. rewrite app_nth2 by lia. replace (d - List.length j) with 0 by lia. change (nth 0 [q] 0) with q.
  rewrite HW by assumption. f_equal. destruct (src p j); cbn [option_map]; [rewrite HX|]; reflexivity.
Qed.

(** ** [call] *)

(** Everything a built layer (record [conv_facts]) computes, after the group axis
    of the input has been merged into the channels: *)
Definition merged (valued : bool) (x : tensor A) (b : nat) (m : list nat) (C : nat) (X : nat -> list nat -> nat -> A) : Prop :=
  (if valued then merge_axes x (Z.of_nat (d + 1)) (Z.of_nat (d + 2)) else Ok x) = Ok (tab (b :: m ++ [C]) (sig3 d X)).

Definition padding_string (same : bool) : string := if same then "same" else "valid".

(** the layer left behind when the backend raises *)
Definition half_done (tr : bool) (valued : bool) (dom act : list nat) (c C o : nat) (k : list nat) (ub : bool) (kinit binit : list nat -> A)
  (L : conv_layer A) : conv_layer A :=
  cl_set_weights L
    (Some (let K := tab (k ++ (if tr then [o; C] else [C; o])) kinit in
           if tr then tab (k ++ [List.length act * o; C]) (ker d (fun j r q => kval valued dom act c o k C K j q r))
           else tab (k ++ [C; List.length act * o]) (ker d (kval valued dom act c o k C K))))
    (if ub then Some (tab [List.length act * o] (fun i => binit [nth 0 i 0 mod o])) else None)
    (o * List.length act).

Section Layer.
Context (valued : bool) (act dom : list nat) (c C o : nat) (k s dl eb ea : list nat)
        (same ub : bool) (f : A -> A) (kinit binit : list nat -> A).

Lemma conv_call_eq (L : conv_layer A) (x : tensor A) b m (X : nat -> list nat -> nat -> A) :
  conv_facts G d E eq false valued act dom c C o k s dl eb ea same ub f kinit binit L ->
  List.length m = d -> merged valued x b m C X ->
  let K := tab (k ++ [C; o]) kinit in
  let ke := vzip dilated k dl in
  let m1 := padded eb m ea in
  let pads := builtin_pads (padding_string same) m1 ke s in
  let m2 := padded (map fst pads) m1 (map snd pads) in
  conv_call L x =
  if forallb (fun p => fst p <=? snd p)%nat (combine ke m2)
  then (L, Ok (tab (b :: outs m2 ke s ++ [List.length act; o])
                   (sig4 d (fun bi p h oo =>
                      f (biased ub binit (window d (csrc m s dl (vzip Nat.add eb (map fst pads))) cterm k C (X bi)
                                                 (kval valued dom act c o k C K) p (h * o + oo)) oo)))))
  else (half_done false valued dom act c C o k ub kinit binit L, Err BackendError).
Proof.
  intros F LM MG K ke m1 pads m2.
  destruct (sub_idx_facts _ _ _ _ OK _ _ (cf_act _ _ _ _ _ _ _ _ _ _ _ _ _ _ _ _ _ _ _ _ _ _ F)) as [_ [Ba [HA _]]].
  assert (NA : act <> []) by (intros ->; discriminate HA).
  destruct F.
  assert (Lm1 : List.length m1 = d) by (apply length_padded; assumption).
  assert (LKE : List.length ke = d) by (unfold ke; rewrite length_vzip; lia).
  assert (LP : List.length pads = d) by (apply length_builtin; assumption).
  assert (Lm2 : List.length m2 = d) by (apply length_padded; rewrite ?map_length; assumption).
  assert (CK : cl_kernel L = Some K) by exact cf_kernel. clear cf_kernel.
  unfold conv_call. rewrite CK. unfold prepare_call.
  assert (MP : merge_group_axis_and_pad (cl_gt L) x = Ok (tab (b :: m1 ++ [C]) (sig3 d (bordered eb m X)))).
  { unfold merge_group_axis_and_pad. pose proof cf_dom as [DV _]. rewrite DV, cf_gaxis, cf_caxis. unfold merged in MG.
    destruct valued; rewrite MG; cbn [bind]; apply cf_pads; exact LM. }
  rewrite MP. cbn [bind].
  rewrite (transform_kernel_eq (cl_gt L) false valued dom act c C o k K cf_dom Ba cf_k cf_fit cf_kidx (wf_tab _ _) (shape_tab _ _)). cbn [bind].
  assert (BB : match cl_bias L with Some b => b <- repeat_bias (cl_gt L) b ;; Ok (Some b) | None => Ok None end
     = Ok (if ub then Some (tab [List.length act * o] (fun i => binit [nth 0 i 0 mod o])) else None)).
  { rewrite cf_bias. destruct ub; [|reflexivity]. rewrite (repeat_bias_eq _ act o binit (cf_bidx eq_refl)). reflexivity. }
  rewrite BB. cbn [bind]. rewrite cf_group, cf_act'. cbn [bind cl_filters cl_bias cl_set_weights]. rewrite cf_filters.
  unfold base_conv_call. rewrite cf_fmt', cf_tr, cf_strides, cf_dilation, cf_padding, cf_activation. unfold in_format. cbn [String.eqb Ascii.eqb Bool.eqb].
  fold (padding_string same).
  rewrite (conv_last_eq d b m1 C (List.length act * o) k (bordered eb m X)); try assumption; [|apply shape_tab].
  fold ke. fold pads. fold m2.
  destruct (forallb _ (combine ke m2)) eqn:FB; cbn [bind].
  2:{ reflexivity. }
  pose proof (length_outs m2 ke s d Lm2 LKE cf_s) as LO.
  match goal with |- context[tab _ (sig3 d ?y)] => set (Y := y) end.
  pose proof (bias_activation b (outs m2 ke s) (List.length act) (o * List.length act) ub binit o Y f LO (Nat.mul_comm _ _)) as BA.
  change (cl_bias (mkConv (cl_gt L) (cl_strides L) (cl_dilation L) (cl_kernel_size L) (cl_padding L) (cl_format L) (cl_use_bias L)
       (cl_activation L) (o * List.length act) (Some (tab (k ++ [C; List.length act * o]) (ker d (kval valued dom act c o k C K))))
       (if ub then Some (tab [List.length act * o] (fun i => binit [nth 0 i 0 mod o])) else None) (cl_channels L)))
    with (if ub then Some (tab [List.length act * o] (fun i => binit [nth 0 i 0 mod o])) else None).
  rewrite BA. cbn [bind].
  rewrite (restore_eq (cl_gt L) valued act b (outs m2 ke s) o); try assumption; [|apply cf_dom].
  f_equal.
  - rewrite set_weights_set. rewrite <- cf_filters, <- CK. apply set_weights_id.
  - f_equal. apply sig4_ext; [exact LO|]. intros bi p h oo B P H O. unfold Y.
    assert (R : h * o + oo < List.length act * o) by nia.
    assert (RM : (h * o + oo) mod o = oo) by (rewrite Nat.add_comm, Nat.mod_add by lia; apply Nat.mod_small; exact O).
    rewrite RM. f_equal. f_equal. unfold m1.
    rewrite (window_bordered d m s dl eb ea (map fst pads)); try assumption; [|rewrite map_length; exact LP].
    apply window_ext; [exact cf_k|reflexivity|]. intros j q J Q. apply (at_ker d); assumption.
Qed.

Lemma conv_transpose_call_eq (L : conv_layer A) (x : tensor A) b m (X : nat -> list nat -> nat -> A) :
  conv_facts G d E eq true valued act dom c C o k s dl eb ea same ub f kinit binit L ->
  List.length m = d -> merged valued x b m C X ->
  let K := tab (k ++ [o; C]) kinit in
  let ke := vzip dilated k dl in
  let m1 := padded eb m ea in
  conv_call L x =
  (L, Ok (tab (b :: touts (padding_string same) m1 ke s ++ [List.length act; o])
              (sig4 d (fun bi p h oo =>
                 f (biased ub binit (window d (tsrc m1 s dl (vzip (transpose_before (padding_string same)) ke s)) tterm k C
                                            (bordered eb m X bi)
                                            (kval valued dom act c o k C K) p (h * o + oo)) oo))))).
Proof.
  intros F LM MG K ke m1.
  destruct (sub_idx_facts _ _ _ _ OK _ _ (cf_act _ _ _ _ _ _ _ _ _ _ _ _ _ _ _ _ _ _ _ _ _ _ F)) as [_ [Ba [HA _]]].
  assert (NA : act <> []) by (intros ->; discriminate HA).
  destruct F.
  assert (Lm1 : List.length m1 = d) by (apply length_padded; assumption).
  assert (LKE : List.length ke = d) by (unfold ke; rewrite length_vzip; lia).
  assert (CK : cl_kernel L = Some K) by exact cf_kernel. clear cf_kernel.
  unfold conv_call. rewrite CK. unfold prepare_call.
  assert (MP : merge_group_axis_and_pad (cl_gt L) x = Ok (tab (b :: m1 ++ [C]) (sig3 d (bordered eb m X)))).
  { unfold merge_group_axis_and_pad. pose proof cf_dom as [DV _]. rewrite DV, cf_gaxis, cf_caxis. unfold merged in MG.
    destruct valued; rewrite MG; cbn [bind]; apply cf_pads; exact LM. }
  rewrite MP. cbn [bind].
  rewrite (transform_kernel_eq (cl_gt L) true valued dom act c C o k K cf_dom Ba cf_k cf_fit cf_kidx (wf_tab _ _) (shape_tab _ _)). cbn [bind].
  assert (BB : match cl_bias L with Some b => b <- repeat_bias (cl_gt L) b ;; Ok (Some b) | None => Ok None end
     = Ok (if ub then Some (tab [List.length act * o] (fun i => binit [nth 0 i 0 mod o])) else None)).
  { rewrite cf_bias. destruct ub; [|reflexivity]. rewrite (repeat_bias_eq _ act o binit (cf_bidx eq_refl)). reflexivity. }
  rewrite BB. cbn [bind]. rewrite cf_group, cf_act'. cbn [bind cl_filters cl_bias cl_set_weights]. rewrite cf_filters.
  unfold base_conv_call. rewrite cf_fmt', cf_tr, cf_strides, cf_dilation, cf_padding, cf_activation. unfold in_format. cbn [String.eqb Ascii.eqb Bool.eqb].
  fold (padding_string same).
  rewrite (conv_transpose_last_eq d b m1 C (List.length act * o) k (bordered eb m X)); try assumption; [|apply shape_tab].
  fold ke. cbn [bind].
  pose proof (length_touts (padding_string same) m1 ke s d Lm1 LKE cf_s) as LO.
  match goal with |- context[tab _ (sig3 d ?y)] => set (Y := y) end.
  pose proof (bias_activation b (touts (padding_string same) m1 ke s) (List.length act) (o * List.length act) ub binit o Y f LO (Nat.mul_comm _ _)) as BA.
  match goal with |- context[add_bias _ _ ?bb _] => change bb with (if ub then Some (tab [List.length act * o] (fun i => binit [nth 0 i 0 mod o])) else None) end.
  rewrite BA. cbn [bind].
  rewrite (restore_eq (cl_gt L) valued act b (touts (padding_string same) m1 ke s) o); try assumption; [|apply cf_dom].
  f_equal.
  - rewrite set_weights_set. rewrite <- cf_filters, <- CK. apply set_weights_id.
  - f_equal. apply sig4_ext; [exact LO|]. intros bi p h oo B P H O. unfold Y.
    assert (R : h * o + oo < List.length act * o) by nia.
    assert (RM : (h * o + oo) mod o = oo) by (rewrite Nat.add_comm, Nat.mod_add by lia; apply Nat.mod_small; exact O).
    rewrite RM. f_equal. f_equal.
    apply window_ext; [exact cf_k|reflexivity|]. intros j q J Q. rewrite (at_ker d); [reflexivity|assumption..].
Qed.

End Layer.
End Call.
