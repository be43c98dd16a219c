(** C75, continued: the layers of a model called without the model. *)
From Verif Require Import ActionMapFacts Properties_Outcomes Properties_Shapes Properties_Sequential StackFacts Properties_Stacks Sequential FormatFacts EquivSpec LayerBatch.
Local Open Scope string_scope.
Local Open Scope list_scope.

Section Calls.
Context {A : Type} {RA : Arith A} {PA : Pool A}.

(** The layers that are built when [specs] are called on [x] one after the other. *)
Inductive built_on_call (d : nat) : list (layer_spec A) -> tensor A -> list (model_layer A) -> Prop :=
| built_none x : built_on_call d [] x []
| built_next p specs x l y ls :
    layer_built d p (map Some (shape x)) = Ok l -> layer_call l x = Ok y -> built_on_call d specs y ls ->
    built_on_call d (p :: specs) x (l :: ls).

Lemma calls_build d specs : forall x z, call_layers d specs x = Ok z -> exists ls, built_on_call d specs x ls.
Proof.
  induction specs as [|p specs IH]; intros x z; cbn [call_layers].
  - intros _. exists []. apply built_none.
  - destruct (layer_built d p _) as [l|] eqn:B; cbn [bind]; [|discriminate]. destruct (layer_call l x) as [y|] eqn:C; cbn [bind]; [|discriminate].
    intros R. destruct (IH y z R) as [ls H]. exists (l :: ls). exact (built_next d p specs x l y ls B C H).
Qed.

(** On every other tensor of this shape they are the same layers. *)
Lemma same_layers d specs x ls : built_on_call d specs x ls -> forall x', blank x' = blank x -> call_layers d specs x' = model_call ls x'.
Proof.
  induction 1 as [x|p specs x l y ls B C H IH]; intros x' Q; [reflexivity|]. cbn [call_layers model_call].
  assert (S : shape x' = shape x) by exact (f_equal shape Q). rewrite S, B. cbn [bind].
  pose proof (layer_call_blank l x' x Q) as E. rewrite C in E. destruct (layer_call l x') as [y'|e]; cbn [rmap bind] in *; [|discriminate E].
  apply IH. congruence.
Qed.

Lemma calls_stack d valued name specs last : add_commutes A -> chain d valued name specs last -> valued = true -> forall ls b m g c x,
  built_on_call d specs x ls -> List.length m = d -> wf x -> shape x = b :: m ++ [g; c] ->
  stack name x (map layer_call ls) last.
Proof.
  intros ADD CH. induction CH as [name|valued name G H a kinit binit k s specs last DN LF HS AL SZ RS CH IH|name G H t a opt k s specs last DN PF HS OP NSE OI ST AL SZ RK RS CH IH];
    intros VT ls b m g c x BC Lm W SH.
  - inversion BC. apply stack_end.
  - inversion BC as [|p0 specs0 x0 l y ls' B CX BC']; subst p0 specs0 x0 ls. clear BC. rewrite SH in B. cbn [map] in B. rewrite map_app in B. cbn [map] in B.
    cbn [layer_built] in B. destruct (conv_init d false a) as [L0|] eqn:I; [|discriminate B]. cbn [bind] in B.
    destruct (conv_build L0 _ kinit binit) as [L|] eqn:BL; [|discriminate B]. cbn [bind] in B.
    assert (EL : l = ConvolutionLayer L) by congruence. subst l. clear B.
    assert (CS : convolution_stage name H m g c (layer_call (ConvolutionLayer L))).
    { exists G, a, (Some b), kinit, binit, L, k, s. rewrite DN. split; [exact LF|]. split; [exact HS|]. split; [exact AL|].
      split; [exists L0; split; [exact I|exact BL]|]. split; [exact SZ|]. split; [exact RS|]. reflexivity. }
    rewrite <- DN in Lm. destruct (stage_facts name H m g c _ b x y ADD (or_introl CS) Lm W SH CX) as [G' [idx [mo [o [DG' [SI [GN [WY [Lmo [SY _]]]]]]]]]].
    cbn [map]. apply (stack_layer name H x b m g c _ y _ last Lm W SH (or_introl CS) CX). rewrite DN in Lmo.
    exact (IH eq_refl ls' b mo (List.length idx) o y BC' Lmo WY SY).
  - inversion BC as [|p0 specs0 x0 l y ls' B CX BC']; subst p0 specs0 x0 ls. clear BC. rewrite SH in B. cbn [map] in B. rewrite map_app in B. cbn [map] in B.
    cbn [layer_built] in B. destruct (pool_init d t a) as [L0|] eqn:I; [|discriminate B]. cbn [bind] in B.
    destruct (pool_build L0 _) as [L|] eqn:BL; [|discriminate B]. cbn [bind] in B.
    assert (EL : l = PoolingLayer L) by congruence. subst l. clear B.
    assert (CS : pooling_stage name H m g c (layer_call (PoolingLayer (A := A) L))).
    { exists G, t, a, opt, (Some b), L, k, s. rewrite DN. split; [exact OI|]. split; [exact PF|]. split; [exact HS|]. split; [exact OP|].
      split; [exists L0; split; [exact I|exact BL]|]. split; [exact SZ|]. split; [exact RK|]. split; [exact RS|]. split; [exact AL|].
      split; [destruct (pa_strides a); [intros E; contradiction|contradiction]|]. reflexivity. }
    rewrite <- DN in Lm. destruct (stage_facts name H m g c _ b x y ADD (or_intror CS) Lm W SH CX) as [G' [idx [mo [o [DG' [SI [GN [WY [Lmo [SY _]]]]]]]]]].
    cbn [map]. apply (stack_layer name H x b m g c _ y _ last Lm W SH (or_intror CS) CX). rewrite DN in Lmo.
    exact (IH eq_refl ls' b mo (List.length idx) o y BC' Lmo WY SY).
Qed.

Lemma calls_commute d specs x ls (tin tout : tensor A -> result (tensor A)) :
  built_on_call d specs x ls -> commutes_at tin tout (run (map layer_call ls)) x ->
  (forall gx u, tin x = Ok gx -> blank (slice 0 u gx) = blank x) ->
  commutes_at tin tout (call_layers d specs) x.
Proof.
  intros BC CM BS gx y R CX. rewrite (same_layers d specs x ls BC x eq_refl), model_run in CX.
  destruct (CM gx y R CX) as [gy [R1 [R2 Q]]]. exists gy. split; [exact R1|]. split; [exact R2|].
  intros u U. rewrite (same_layers d specs x ls BC _ (BS gx u R)), model_run. apply Q. exact U.
Qed.

(** Layers that are called one after the other commute with the transformations, with any
    padding: every layer is built for the signal that it gets. *)
Theorem C75_layers_called_one_after_the_other_are_equivariant name G specs last (valued : bool) b m g c x z :
  add_commutes A -> dict_get group_dict name = Ok G ->
  let d := dimension_of name in
  chain d valued name specs last -> List.length m = d -> wf x -> shape x = signal_shape valued b m g c ->
  call_layers d specs x = Ok z ->
  exists Gl idx, dict_get group_dict last = Ok Gl /\ subgroup_indices G last idx /\ g_order Gl = List.length idx /\
    commutes_at (if valued then transforms_of_group_signal G d last "" else transforms_of_grid_signal G d last)
      (transforms_of_group_signal Gl d "" "") (call_layers d specs) x.
Proof.
  intros ADD DG d CH Lm W SH CL. destruct (calls_build d specs x z CL) as [ls BC]. destruct valued.
  - pose proof (calls_stack d true name specs last ADD CH eq_refl ls b m g c x BC Lm W SH) as ST.
    destruct (C39_stacks_are_equivariant name G x _ last ADD DG ST) as [Gl [idx [Q1 [Q2 [Q3 Q4]]]]]. exists Gl, idx.
    split; [exact Q1|]. split; [exact Q2|]. split; [exact Q3|].
    destruct BC as [x|p specs x l y ls B CX BC']; [exact Q4|]. pose proof (built_next d p specs x l y ls B CX BC') as BC. clear BC'.
    assert (GN : g = List.length (symmetries_of name)).
    { cbn [map] in ST. inversion ST as [|name0 H x0 b' m' g' c' call y0 rest last0 Lm' W' SH' STG CX' ST']; subst name0 x0 call rest last0.
      assert (E : b :: m ++ [g; c] = b' :: m' ++ [g'; c']) by (rewrite <- SH'; symmetry; exact SH).
      assert (E1 : m ++ [g; c] = m' ++ [g'; c']) by congruence. apply (f_equal (@rev nat)) in E1. rewrite !rev_app_distr in E1. cbn [rev app] in E1.
      destruct (stage_facts name H m' g' c' _ b' x y0 ADD STG Lm' W' SH' CX') as [G' [idx' [mo [o [_ [_ [GN _]]]]]]]. congruence. }
    apply (calls_commute d (p :: specs) x (l :: ls) _ _ BC Q4). intros gx u R.
    apply blank_eq; [apply wf_slice|exact W|]. pose proof DG as OK. apply lib_ok in OK as [_ OK]. fold d in OK.
    pose proof (sub_idx_whole _ _ _ _ OK) as SW.
    assert (LW : g = List.length (seq 0 (List.length (symmetries_of name)))) by (rewrite seq_length; exact GN).
    assert (ST' : forall v, In v idx -> stable G v (seq 0 (List.length (symmetries_of name)))).
    { intros v I. destruct (sub_idx_facts _ _ _ _ OK _ _ Q2) as [_ [B' _]]. apply (stable_whole G d _ _ OK). apply B'. exact I. }
    pose proof (tensor_sig4 d b m g c x W Lm SH) as X. unfold transforms_of_group_signal, spatial_axes, group_axis in R. rewrite X in R.
    destruct (group_slices G d _ _ OK b m g c (fun4 x) _ _ idx _ gx Q2 SW LW Lm ST' R) as [_ [SG _]].
    rewrite SH. exact (shape_slice0 u gx _ _ SG).
  - inversion CH as [|valued' name' G' H a kinit binit k s specs' last' DN LF HS AL SZ RS CH'|]; subst valued' name' specs last'.
    inversion BC as [|p0 specs0 x0 l y ls' B CX BC']; subst p0 specs0 x0 ls. unfold signal_shape in SH. rewrite SH in B. cbn [map] in B. rewrite map_app in B. cbn [map] in B.
    cbn [layer_built] in B. destruct (conv_init d false a) as [L0|] eqn:I; [|discriminate B]. cbn [bind] in B.
    destruct (conv_build L0 _ kinit binit) as [L|] eqn:BL; [|discriminate B]. cbn [bind] in B.
    assert (EL : l = ConvolutionLayer L) by congruence. subst l. clear B.
    assert (CS : lifting_stage name H m c (layer_call (ConvolutionLayer L))).
    { exists G', a, (Some b), kinit, binit, L, k, s. rewrite DN. split; [exact LF|]. split; [exact HS|]. split; [exact AL|].
      split; [exists L0; split; [exact I|exact BL]|]. split; [exact SZ|]. split; [exact RS|]. reflexivity. }
    destruct (lifting_facts name H m c _ b x y ADD CS Lm W SH CX) as [G0 [idx0 [mo [o [DG0 [SI [WY [Lmo [SY _]]]]]]]]].
    pose proof (calls_stack d true _ specs' last ADD CH' eq_refl ls' b mo (List.length idx0) o y BC' Lmo WY SY) as ST.
    destruct (C39_lifting_stacks_are_equivariant name G H x y b m c _ _ last ADD DG CS Lm W SH CX ST) as [Gl [idx [Q1 [Q2 [Q3 Q4]]]]]. exists Gl, idx.
    split; [exact Q1|]. split; [exact Q2|]. split; [exact Q3|].
    apply (calls_commute d _ x _ _ _ BC Q4). intros gx u R.
    apply blank_eq; [apply wf_slice|exact W|]. pose proof DG as OK. apply lib_ok in OK as [_ OK]. fold d in OK.
    pose proof (tensor_sig3 d b m c x W Lm SH) as X. unfold transforms_of_grid_signal, spatial_axes in R. rewrite X in R.
    destruct (grid_slices G d _ _ OK b m c (fun3 x) None _ idx gx Q2 Lm R) as [_ [SG _]].
    rewrite SH. exact (shape_slice0 u gx _ _ SG).
Qed.

(** Where every layer is built for the signals that it gets, the layers do the same inside
    and outside a model. *)
Theorem C75_calling_the_layers_or_the_model name specs last ls (valued : bool) b m g c x :
  add_commutes A ->
  let d := dimension_of name in
  chain d valued name specs last -> List.length m = d -> wf x -> shape x = signal_shape valued b m g c ->
  sequential d specs (map Some (shape x)) = Ok ls -> as_announced ls (map Some (shape x)) x ->
  call_layers d specs x = model_call ls x.
Proof.
  intros ADD d CH. clearbody d. revert ls b m g c x.
  induction CH as [name|valued name G H a kinit binit k s specs last DN LF HS AL SZ RS CH IH|name G H t a opt k s specs last DN PF HS OP NSE OI ST AL SZ RK RS CH IH];
    intros ls b m g c x Lm W SH SQ AA; cbn [sequential] in SQ.
  - assert (ls = []) as -> by congruence. reflexivity.
  - destruct (layer_built d (Convolution false a kinit binit) (map Some (shape x))) as [l|] eqn:LB; [|discriminate SQ]. cbn [bind] in SQ.
    destruct (symbolic_shape l (map Some (shape x))) as [s'|] eqn:SS; [|discriminate SQ]. cbn [bind] in SQ.
    destruct (sequential d specs s') as [ls'|] eqn:SQ'; [|discriminate SQ]. cbn [bind] in SQ.
    assert (ls = l :: ls') as -> by congruence. cbn [call_layers model_call]. rewrite LB. cbn [bind].
    destruct (layer_call l x) as [y|e] eqn:CX; [|reflexivity]. cbn [bind].
    cbn [as_announced] in AA. destruct (AA s' y SS CX) as [TS AA'].
    assert (SX : map Some (shape x) = static_signal_shape valued (Some b) m g c).
    { rewrite SH. unfold signal_shape, static_signal_shape. destruct valued; cbn [map]; rewrite map_app; reflexivity. }
    rewrite SX in LB. cbn [layer_built] in LB. destruct (conv_init d false a) as [L0|] eqn:I; [|discriminate LB]. cbn [bind] in LB.
    destruct (conv_build L0 _ kinit binit) as [L|] eqn:B; [|discriminate LB]. cbn [bind] in LB. assert (l = ConvolutionLayer L) as -> by congruence.
    cbn [symbolic_shape] in SS. pose proof LF as [DG [AG AF]].
    assert (OP : exists opt, option_of a opt).
    { destruct (conv_init_inv G d name false a L0 DG AG AF I) as [pd [_ [_ [_ [_ [PN _]]]]]]. exists (upper pd), pd. auto. }
    destruct OP as [opt OP].
    assert (BU : built (dimension_of name) false a (static_signal_shape valued (Some b) m g c) kinit binit L) by (rewrite DN; exists L0; split; assumption).
    rewrite <- DN in Lm, SZ. rewrite (C30_compute_output_shape name G a H opt false valued (Some b) m g c kinit binit L k s _ LF HS OP BU Lm SZ) in SS.
    cbv zeta in SS. destruct (forallb _ _) in SS; [|discriminate SS].
    assert (YF : exists mo o n, wf y /\ List.length mo = d /\ shape y = b :: mo ++ [n; o]).
    { rewrite <- DN in *. destruct valued.
      - assert (CS : convolution_stage name H m g c (layer_call (ConvolutionLayer L))).
        { exists G, a, (Some b), kinit, binit, L, k, s. split; [exact LF|]. split; [exact HS|]. split; [exact AL|].
          split; [exact BU|]. split; [exact SZ|]. split; [exact RS|]. reflexivity. }
        destruct (stage_facts name H m g c _ b x y ADD (or_introl CS) Lm W SH CX) as [G' [idx [mo [o [_ [_ [_ [WY [Lmo [SY _]]]]]]]]]].
        exists mo, o, (List.length idx). split; [exact WY|]. split; [exact Lmo|exact SY].
      - assert (CS : lifting_stage name H m c (layer_call (ConvolutionLayer L))).
        { exists G, a, (Some b), kinit, binit, L, k, s. split; [exact LF|]. split; [exact HS|]. split; [exact AL|].
          split; [exact BU|]. split; [exact SZ|]. split; [exact RS|]. reflexivity. }
        destruct (lifting_facts name H m c _ b x y ADD CS Lm W SH CX) as [G' [idx [mo [o [_ [_ [WY [Lmo [SY _]]]]]]]]].
        exists mo, o, (List.length idx). split; [exact WY|]. split; [exact Lmo|exact SY]. }
    destruct YF as [mo [o [n [WY [Lmo SY]]]]].
    assert (ES : s' = map Some (shape y)).
    { assert (HD : exists r, s' = Some b :: r) by (eexists; symmetry; assert (EO : forall u v : sshape, Ok u = Ok v -> u = v) by congruence; exact (EO _ _ SS)).
      destruct HD as [r ->]. cbn [tl] in TS. rewrite TS, SY. reflexivity. }
    subst s'. apply (IH ls' b mo n o y Lmo WY SY SQ' AA').
  - destruct (layer_built d (Pooling t a) (map Some (shape x))) as [l|] eqn:LB; [|discriminate SQ]. cbn [bind] in SQ.
    destruct (symbolic_shape l (map Some (shape x))) as [s'|] eqn:SS; [|discriminate SQ]. cbn [bind] in SQ.
    destruct (sequential d specs s') as [ls'|] eqn:SQ'; [|discriminate SQ]. cbn [bind] in SQ.
    assert (ls = l :: ls') as -> by congruence. cbn [call_layers model_call]. rewrite LB. cbn [bind].
    destruct (layer_call l x) as [y|e] eqn:CX; [|reflexivity]. cbn [bind].
    cbn [as_announced] in AA. destruct (AA s' y SS CX) as [TS AA'].
    assert (SX : map Some (shape x) = Some b :: map Some m ++ [Some g; Some c]) by (rewrite SH; unfold signal_shape; cbn [map]; rewrite map_app; reflexivity).
    rewrite SX in LB. cbn [layer_built] in LB. destruct (pool_init d t a) as [L0|] eqn:I; [|discriminate LB]. cbn [bind] in LB.
    destruct (pool_build L0 _) as [L|] eqn:B; [|discriminate LB]. cbn [bind] in LB. assert (l = PoolingLayer L) as -> by congruence.
    assert (YF : exists mo o n, wf y /\ List.length mo = d /\ shape y = b :: mo ++ [n; o]).
    { rewrite <- DN in *.
      assert (CS : pooling_stage name H m g c (layer_call (PoolingLayer (A := A) L))).
      { exists G, t, a, opt, (Some b), L, k, s. split; [exact OI|]. split; [exact PF|]. split; [exact HS|]. split; [exact OP|].
        split; [exists L0; split; [exact I|exact B]|]. split; [exact SZ|]. split; [exact RK|]. split; [exact RS|]. split; [exact AL|].
        split; [destruct (pa_strides a); [intros E; contradiction|contradiction]|]. reflexivity. }
      destruct (stage_facts name H m g c _ b x y ADD (or_intror CS) Lm W SH CX) as [G' [idx [mo [o [_ [_ [_ [WY [Lmo [SY _]]]]]]]]]].
      exists mo, o, (List.length idx). split; [exact WY|]. split; [exact Lmo|exact SY]. }
    destruct YF as [mo [o [n [WY [Lmo SY]]]]].
    assert (ES : s' = map Some (shape y)).
    { assert (HD : exists r, s' = Some b :: r).
      { rewrite SX in SS. cbn [symbolic_shape] in SS. destruct (known_sizes _) in SS; [|discriminate SS]. cbn [bind] in SS.
        destruct (pool_call L _) in SS; [|discriminate SS]. cbn [bind] in SS. eexists. symmetry.
        assert (EO : forall u v : sshape, Ok u = Ok v -> u = v) by congruence. exact (EO _ _ SS). }
      destruct HD as [r ->]. cbn [tl] in TS. rewrite TS, SY. reflexivity. }
    subst s'. apply (IH ls' b mo n o y Lmo WY SY SQ' AA').
Qed.

End Calls.
Print Assumptions C75_layers_called_one_after_the_other_are_equivariant.
Print Assumptions C75_calling_the_layers_or_the_model.

(** The three layers of [small_model] (C75), called one after the other and as a model: the
    same output.  [twice_padded] does different things (C75_case_padded). *)
Example C75_case_calls :
  let x := some_signal [2; 8; 8; 1] in
  match sequential 2 small_model (map Some (shape x)) with
  | Ok ls => match call_layers 2 small_model x, model_call ls x with Ok z, Ok z' => same_tensor z z' && negb (List.length (data z) =? 0)%nat | _, _ => false end
  | Err _ => false end = true /\
  match sequential 2 twice_padded (map Some [1; 7; 7; 1]) with
  | Ok ls => match call_layers 2 twice_padded (some_signal [1; 7; 7; 1]), model_call ls (some_signal [1; 7; 7; 1]) with Ok z, Ok z' => same_tensor z z' | _, _ => true end
  | Err _ => true end = false.
Proof. vm_compute. split; reflexivity. Qed.
