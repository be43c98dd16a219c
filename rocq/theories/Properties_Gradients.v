(** C87: gradients.  Examples that an element of the group turns into each other have the
    same gradients for the weights, and the gradients for the input are equivariant. *)
From Verif Require Import GradientFacts BuildTheorems Properties_Build Properties_Conv Properties_Linear Properties_Exact EquivSpec.
Local Open Scope string_scope.
Local Open Scope list_scope.

Section Gradients.
Context {A : Type} {RA : Arith A}.

(** The same arguments without the activation. *)
Definition linear (a : conv_args A) : conv_args A :=
  mkConvArgs (ca_group a) (ca_subgroup a) (ca_kernel_size a) (ca_filters a) (ca_strides a) (ca_padding a) (ca_dilation a)
             (ca_data_format a) (ca_allow a) (ca_use_bias a) (fun v => v).

Definition bias_pairing (dB B : option (tensor A)) : A :=
  match dB, B with Some u, Some v => inner u v | _, _ => zero end.

(** What backpropagation finds for one example.  The arguments are a layer (its arguments
    [a], its weights [kinit] and [binit]), the derivative [f'] of its activation, the input
    [x], and the gradient [dy] of the loss with respect to the output.  With [z] the values
    to which the activation is applied, the gradient with respect to [z] is f'(z) * dy.
    [z] is linear in the weights and affine in the input, so its derivative in the
    direction of other weights is what the layer with those weights returns, and in the
    direction of another input it is what the layer returns for that input with zero
    bias.  The gradients [dK], [dB] (for the kernel and the bias) and [dx] (for the input)
    are the tensors whose pairing with a direction is the derivative in that direction. *)
Record gradients (d : nat) (tr : bool) (a : conv_args A) (input : sshape) (k : list nat) (C : nat) (kinit binit : list nat -> A)
  (f' : A -> A) (x dy dx dK : tensor A) (dB : option (tensor A)) : Prop := {
  g_input : of_shape (shape x) dx;
  g_kernel : of_shape (k ++ (if tr then [ca_filters a; C] else [C; ca_filters a])) dK;
  g_bias : match dB with Some B => ca_use_bias a = true /\ of_shape [ca_filters a] B | None => ca_use_bias a = false end;
  g_back : exists L z, built d tr (linear a) input kinit binit L /\ apply L x = Ok z /\ of_shape (shape z) dy /\
    let dz := delta f' z dy in
    (forall kinit' binit' L' y, built d tr (linear a) input kinit' binit' L' -> apply L' x = Ok y ->
       inner dz y = add (inner dK (initial_kernel tr k C (ca_filters a) kinit')) (bias_pairing dB (initial_bias a binit'))) /\
    (forall L' x' y, built d tr (linear a) input kinit (fun _ => zero) L' -> of_shape (shape x) x' -> apply L' x' = Ok y ->
       inner dz y = inner dx x')
}.

(** ** Layers without activation *)

Lemma linear_init d tr (a : conv_args A) L0 : conv_init d tr a = Ok L0 -> exists L0', conv_init d tr (linear a) = Ok L0'.
Proof.
  unfold conv_init, linear. cbn [ca_group ca_subgroup ca_kernel_size ca_filters ca_strides ca_padding ca_dilation ca_data_format ca_allow ca_use_bias ca_activation].
  intros I.
  destruct (gt_init _ _ _ _ _ _ _ _ _) as [T|]; [|discriminate I]. cbn [bind] in I |- *.
  destruct (standardize_tuple d (ca_kernel_size a)) as [k|]; [|discriminate I]. cbn [bind] in I |- *.
  destruct (standardize_tuple d (match ca_strides a with Some s => s | None => One 1 end)) as [s|]; [|discriminate I]. cbn [bind] in I |- *.
  destruct (standardize_tuple d (match ca_dilation a with Some s => s | None => One 1 end)) as [dl|]; [|discriminate I]. cbn [bind] in I |- *.
  destruct (standardize_padding _) as [q|]; [|discriminate I]. cbn [bind] in I |- *.
  destruct (standardize_format _) as [f|]; [|discriminate I]. cbn [bind] in I |- *.
  destruct (0 <? ca_filters a)%nat; [|discriminate I]. destruct (negb _); [|discriminate I]. eexists. reflexivity.
Qed.

Lemma linear_built name G (a : conv_args A) tr valued bs m g c kinit binit L :
  layer_for name G a ->
  let d := dimension_of name in
  built d tr a (static_signal_shape valued bs m g c) kinit binit L -> List.length m = d ->
  exists L', built d tr (linear a) (static_signal_shape valued bs m g c) kinit binit L'.
Proof.
  intros [DG [AG AF]] d [L0 [I B]] Lm. pose proof DG as DG'. apply lib_ok in DG' as [_ OK]. fold d in OK.
  destruct (conv_build_inv G d _ _ OK name tr a L0 valued bs m g c kinit binit L DG AG AF I Lm B)
    as [p [k [s [dl [_ [_ [_ [_ [PN [SK [SS [SD _]]]]]]]]]]]].
  destruct (linear_init d tr a L0 I) as [L0' I'].
  pose proof (conv_build_iff G d _ _ OK name tr a L0 p k s dl valued bs m g c kinit binit DG AG AF I Lm PN SK SS SD) as I1.
  pose proof (conv_build_iff G d _ _ OK name tr (linear a) L0' p k s dl valued bs m g c kinit binit DG AG AF I' Lm PN SK SS SD) as I2.
  cbv zeta in I1, I2. assert (X : exists L', conv_build L0' (build_shape valued bs m g c) kinit binit = Ok L').
  { apply I2, I1. exists L. exact B. }
  destruct X as [L' B']. exists L', L0'. split; [exact I'|exact B'].
Qed.

(** What is known about all of them. *)
Lemma facts_of_all name G (a : conv_args A) H opt (tr valued : bool) bs m g c k s dl :
  layer_for name G a -> ca_subgroup a = Some H -> option_of a opt ->
  let d := dimension_of name in
  let C := if valued then g * c else c in
  List.length m = d -> sizes d a k s dl ->
  (exists kinit binit L, built d tr a (static_signal_shape valued bs m g c) kinit binit L) ->
  group_ok G d (symmetries_of name) (needs_equal_sizes name) /\
  exists eb ea act dom,
    sub_idx G (if tr then Some "" else Some H) act /\
    (valued = true -> sub_idx G (if tr then Some H else Some "") dom /\ g = List.length dom) /\
    forall kinit binit (L : conv_layer A), built d tr a (static_signal_shape valued bs m g c) kinit binit L ->
      conv_facts G d (symmetries_of name) (needs_equal_sizes name) tr valued act dom c C (ca_filters a) k s dl eb ea (is_same opt)
               (ca_use_bias a) (ca_activation a) kinit binit L /\ cl_channels L = Some c.
Proof.
  intros LF HS OP d C Lm SZ [kinit0 [binit0 [L0 B0]]].
  destruct (built_facts name G a H opt tr valued bs m g c kinit0 binit0 L0 k s dl LF HS OP B0 Lm SZ)
    as [OK [eb [ea [act [dom [WD [SA [SD _]]]]]]]]. split; [exact OK|]. fold d in WD.
  exists eb, ea, act, dom. split; [exact SA|]. split; [exact SD|]. intros kinit binit L B.
  destruct (built_facts name G a H opt tr valued bs m g c kinit binit L k s dl LF HS OP B Lm SZ)
    as [_ [eb' [ea' [act' [dom' [WD' [SA' [SD' [CF [CH _]]]]]]]]]]. fold d in WD', CF. fold C in CF.
  destruct (widths_unique _ _ _ _ _ _ _ _ _ _ _ _ WD WD') as [<- <-].
  assert (act' = act) as -> by (unfold sub_idx in SA, SA'; congruence).
  split; [|exact CH]. destruct valued.
  - destruct (SD eq_refl) as [S1 _]. destruct (SD' eq_refl) as [S2 _]. assert (dom' = dom) as -> by (unfold sub_idx in S1, S2; congruence). exact CF.
  - apply (facts_without_domain _ _ _ _ _ _ dom'). exact CF.
Qed.

Lemma linear_for name G (a : conv_args A) : layer_for name G a -> layer_for name G (linear a).
Proof. intros [DG [AG AF]]. split; [exact DG|]. split; [exact AG|exact AF]. Qed.

(** Whether they return something, and of which shape, depends on sizes only. *)
Lemma runs_alike name G (a : conv_args A) H opt (tr valued : bool) bs m g c k s dl :
  layer_for name G a -> ca_subgroup a = Some H -> option_of a opt ->
  let d := dimension_of name in
  List.length m = d -> sizes d a k s dl ->
  forall kinit binit L b m' x y, built d tr a (static_signal_shape valued bs m g c) kinit binit L -> List.length m' = d ->
  of_shape (signal_shape valued b m' g c) x -> apply L x = Ok y ->
  exists M n, List.length M = d /\ (exists act, sub_idx G (if tr then Some "" else Some H) act /\ n = List.length act) /\
    forall kinit' binit' L' x', built d tr a (static_signal_shape valued bs m g c) kinit' binit' L' ->
    of_shape (signal_shape valued b m' g c) x' ->
    exists y', apply L' x' = Ok y' /\ of_shape (signal_shape true b M n (ca_filters a)) y'.
Proof.
  intros LF HS OP d Lm SZ kinit binit L b m' x y B Lm' [W SH] AP.
  destruct (facts_of_all name G a H opt tr valued bs m g c k s dl LF HS OP Lm SZ (ex_intro _ kinit (ex_intro _ binit (ex_intro _ L B))))
    as [OK [eb [ea [act [dom [SA [_ CFS]]]]]]]. fold d in OK, CFS.
  destruct (CFS _ _ _ B) as [CF CH].
  pose proof (merged_input d valued x b m' g c W Lm' SH) as MG.
  rewrite (layer_form G d _ _ OK tr valued act dom c _ _ k s dl eb ea _ _ _ kinit binit L x b m' g _ CF CH Lm' SH MG) in AP.
  destruct (layer_runs _ _ _ _ _ _ _ _) eqn:RU; [|discriminate AP].
  exists (layer_outs tr k s dl eb ea (is_same opt) m'), (List.length act).
  split; [exact (length_layer_outs G d _ _ _ _ _ _ _ _ _ _ _ _ _ _ _ _ _ _ _ L m' CF Lm')|]. split; [exists act; split; [exact SA|reflexivity]|].
  intros kinit' binit' L' x' B' [W' SH']. destruct (CFS _ _ _ B') as [CF' CH'].
  pose proof (merged_input d valued x' b m' g c W' Lm' SH') as MG'.
  eexists. split; [rewrite (layer_form G d _ _ OK tr valued act dom c _ _ k s dl eb ea _ _ _ kinit' binit' L' x' b m' g _ CF' CH' Lm' SH' MG'), RU; reflexivity|].
  apply of_shape_tab.
Qed.

(** The output is the activation of what the layer without it returns. *)
Theorem C87_the_activation_is_applied_last name G (a : conv_args A) H opt (tr valued : bool) bs m g c m' k s dl kinit binit L L' x b :
  layer_for name G a -> ca_subgroup a = Some H -> option_of a opt ->
  let d := dimension_of name in
  let input := static_signal_shape valued bs m g c in
  List.length m = d -> List.length m' = d -> sizes d a k s dl ->
  built d tr a input kinit binit L -> built d tr (linear a) input kinit binit L' ->
  wf x -> shape x = signal_shape valued b m' g c ->
  apply L x = (z <- apply L' x ;; Ok (mkTensor (shape z) (map (ca_activation a) (data z)))).
Proof.
  intros LF HS OP d input Lm Lm' SZ B B' W SH.
  destruct (built_facts name G a H opt tr valued bs m g c kinit binit L k s dl LF HS OP B Lm SZ)
    as [OK [eb [ea [act [dom [WD [SA [SD [CF [CH _]]]]]]]]]].
  destruct (built_facts name G (linear a) H opt tr valued bs m g c kinit binit L' k s dl (linear_for _ _ _ LF) HS OP B' Lm SZ)
    as [_ [eb' [ea' [act' [dom' [WD' [SA' [SD' [CF' [CH' _]]]]]]]]]].
  fold d in WD', CF', WD, CF, OK. cbn [linear ca_allow ca_filters ca_use_bias ca_activation] in WD', CF'.
  destruct (widths_unique _ _ _ _ _ _ _ _ _ _ _ _ WD WD') as [<- <-].
  assert (act' = act) as -> by (unfold sub_idx in SA, SA'; congruence).
  assert (CF2 : conv_facts G d (symmetries_of name) (needs_equal_sizes name) tr valued act dom c (if valued then g * c else c) (ca_filters a) k s dl eb ea (is_same opt)
               (ca_use_bias a) (fun v => v) kinit binit L').
  { destruct valued.
    - destruct (SD eq_refl) as [S1 _]. destruct (SD' eq_refl) as [S2 _]. assert (dom' = dom) as -> by (unfold sub_idx in S1, S2; congruence). exact CF'.
    - apply (facts_without_domain _ _ _ _ _ _ dom'). exact CF'. }
  pose proof (merged_input d valued x b m' g c W Lm' SH) as MG.
  rewrite (layer_form G d _ _ OK tr valued act dom c _ _ k s dl eb ea _ _ _ kinit binit L x b m' g _ CF CH Lm' SH MG).
  rewrite (layer_form G d _ _ OK tr valued act dom c _ _ k s dl eb ea _ _ _ kinit binit L' x b m' g _ CF2 CH' Lm' SH MG).
  destruct (layer_runs _ _ _ _ _ _ _ _); [|reflexivity]. cbn [bind]. f_equal. unfold tab. cbn [shape data]. rewrite map_map. reflexivity.
Qed.

(** ** There is exactly one gradient *)

(** With zero bias the layer is linear in the signal. *)
Lemma linear_without_bias name G (a : conv_args A) H opt (tr valued : bool) bs m g c kinit L k s dl :
  exact_arithmetic A ->
  layer_for name G a -> ca_subgroup a = Some H -> option_of a opt ->
  let d := dimension_of name in
  built d tr (linear a) (static_signal_shape valued bs m g c) kinit (fun _ => zero) L -> List.length m = d -> sizes d a k s dl ->
  forall s1 s2 x1 x2 b m', List.length m' = d ->
  of_shape (signal_shape valued b m' g c) x1 -> of_shape (signal_shape valued b m' g c) x2 ->
  apply L (combination s1 x1 s2 x2) = (y1 <- apply L x1 ;; y2 <- apply L x2 ;; Ok (combination s1 y1 s2 y2)).
Proof.
  intros EX LF HS OP d B Lm SZ s1 s2 x1 x2 b m' Lm' [W1 S1] [W2 S2].
  destruct (built_facts name G (linear a) H opt tr valued bs m g c kinit (fun _ => zero) L k s dl (linear_for _ _ _ LF) HS OP B Lm SZ)
    as [OK [eb [ea [act [dom [_ [_ [SD [CF [CC _]]]]]]]]]]. fold d in OK, CF.
  set (C := if valued then g * c else c) in *. cbn [linear ca_filters ca_use_bias ca_activation] in CF.
  pose proof (merged_input d valued x1 b m' g c W1 Lm' S1) as M1.
  pose proof (merged_input d valued x2 b m' g c W2 Lm' S2) as M2.
  pose proof (merged_combination d s1 s2 valued x1 x2 b m' g c W1 W2 Lm' S1 S2) as M3. fold C in M1, M2, M3.
  assert (S3 : shape (combination s1 x1 s2 x2) = signal_shape valued b m' g c) by exact S1.
  rewrite (layer_form G d _ _ OK tr valued act dom c C _ k s dl eb ea _ _ _ kinit _ L _ b m' g _ CF CC Lm' S1 M1).
  rewrite (layer_form G d _ _ OK tr valued act dom c C _ k s dl eb ea _ _ _ kinit _ L _ b m' g _ CF CC Lm' S2 M2).
  rewrite (layer_form G d _ _ OK tr valued act dom c C _ k s dl eb ea _ _ _ kinit _ L _ b m' g _ CF CC Lm' S3 M3).
  destruct (layer_runs _ _ _ _ _ _ _ _); [|reflexivity]. cbn [bind]. f_equal. rewrite combination_tab.
  pose proof (length_layer_outs G d _ _ _ _ _ _ _ _ _ _ _ _ _ _ _ _ _ _ _ L m' CF Lm') as LO.
  assert (BZ : forall v oo, biased (ca_use_bias a) (fun _ => zero) v oo = v).
  { intros v oo. unfold biased. destruct (ca_use_bias a); [apply (sum_neutral EX)|reflexivity]. }
  set (V := fun x => layer_value G d (symmetries_of name) tr valued act dom c C (ca_filters a) k s dl eb ea (is_same opt) m' kinit (merged_fun valued x c)).
  etransitivity; [|apply tab_ext; intros i I; unfold sig4; reflexivity].
  apply (sig4_ext d _ _ _ _ _ (fun bi p h oo => add (mul s1 (biased (ca_use_bias a) (fun _ => zero) (V x1 bi p h oo) oo))
     (mul s2 (biased (ca_use_bias a) (fun _ => zero) (V x2 bi p h oo) oo)))); [exact LO|].
  intros bi p h oo _ _ _ _. rewrite !BZ. unfold V, layer_value.
  apply (window_combination EX); [apply layer_term_cases|destruct CF; assumption|].
  intros i q j _ _ _. unfold layer_in. destruct tr; [|reflexivity]. unfold bordered.
  destruct (inside _ _ _); [reflexivity|]. rewrite !(ar_mzero_r EX), (ar_zero EX). reflexivity.
Qed.

(** A layer with given weights, and the layer to which they are assigned. *)
Lemma assigned_alike name G (a : conv_args A) H opt (tr valued : bool) bs m g c kinit binit L kinit' binit' L' k s dl :
  layer_for name G a -> ca_subgroup a = Some H -> option_of a opt ->
  let d := dimension_of name in
  let C := if valued then g * c else c in
  built d tr a (static_signal_shape valued bs m g c) kinit binit L -> built d tr a (static_signal_shape valued bs m g c) kinit' binit' L' ->
  List.length m = d -> sizes d a k s dl ->
  forall b m' x, List.length m' = d -> of_shape (signal_shape valued b m' g c) x ->
  apply L' x = apply (assigned L (initial_kernel tr k C (ca_filters a) kinit') (tab [ca_filters a] binit')) x.
Proof.
  intros LF HS OP d C B B' Lm SZ b m' x Lm' [W SH].
  destruct (facts_of_all name G a H opt tr valued bs m g c k s dl LF HS OP Lm SZ (ex_intro _ kinit (ex_intro _ binit (ex_intro _ L B))))
    as [OK [eb [ea [act [dom [_ [_ CFS]]]]]]]. fold d in OK, CFS.
  destruct (CFS _ _ _ B) as [CF CH]. destruct (CFS _ _ _ B') as [CF' CH']. fold C in CF, CF'.
  pose proof (replaced_weights G d _ _ tr valued act dom c C (ca_filters a) k s dl eb ea (is_same opt) (ca_use_bias a) (ca_activation a)
                kinit binit kinit' binit' L CF) as CR.
  pose proof (merged_input d valued x b m' g c W Lm' SH) as MG. fold C in MG.
  assert (AS : assigned L (initial_kernel tr k C (ca_filters a) kinit') (tab [ca_filters a] binit') =
     cl_set_weights L (Some (tab (k ++ (if tr then [ca_filters a; C] else [C; ca_filters a])) kinit')) (if ca_use_bias a then Some (tab [ca_filters a] binit') else None) (cl_filters L)).
  { unfold assigned, initial_kernel. destruct CF. rewrite cf_bias. destruct (ca_use_bias a); reflexivity. }
  rewrite AS.
  rewrite (layer_form G d _ _ OK tr valued act dom c C _ k s dl eb ea _ _ _ kinit' binit' _ x b m' g _ CR CH Lm' SH MG).
  exact (layer_form G d _ _ OK tr valued act dom c C _ k s dl eb ea _ _ _ kinit' binit' L' x b m' g _ CF' CH' Lm' SH MG).
Qed.

Theorem C87_gradients_exist name G (a : conv_args A) H opt (tr valued : bool) bs m g c m' k s dl kinit binit L f' x y dy b (one : A) :
  exact_arithmetic A -> (forall v, mul one v = v) ->
  layer_for name G a -> ca_subgroup a = Some H -> option_of a opt ->
  let d := dimension_of name in
  let C := if valued then g * c else c in
  let input := static_signal_shape valued bs m g c in
  List.length m = d -> List.length m' = d -> sizes d a k s dl ->
  built d tr a input kinit binit L -> wf x -> shape x = signal_shape valued b m' g c -> apply L x = Ok y ->
  wf dy -> shape dy = shape y ->
  exists dx dK dB, gradients d tr a input k C kinit binit f' x dy dx dK dB /\
    forall dx' dK' dB', gradients d tr a input k C kinit binit f' x dy dx' dK' dB' -> dx' = dx /\ dK' = dK /\ dB' = dB.
Proof.
  intros EX ONE LF HS OP d C input Lm Lm' SZ BA W SH AP WD SD.
  pose proof (linear_for _ _ _ LF) as LF'.
  destruct (linear_built name G a tr valued bs m g c kinit binit L LF BA Lm) as [L1 B1]. fold d input in B1.
  pose proof (C87_the_activation_is_applied_last name G a H opt tr valued bs m g c m' k s dl kinit binit L L1 x b LF HS OP Lm Lm' SZ BA B1 W SH) as AL.
  rewrite AP in AL. destruct (apply L1 x) as [z|] eqn:AZ; [|discriminate AL]. cbn [bind] in AL.
  assert (SZ' : shape dy = shape z) by (assert (EO : forall u v : tensor A, Ok u = Ok v -> u = v) by congruence; apply EO in AL; rewrite SD, AL; reflexivity).
  clear AL AP BA L y SD.
  assert (X : of_shape (signal_shape valued b m' g c) x) by (split; assumption).
  destruct (runs_alike name G (linear a) H opt tr valued bs m g c k s dl LF' HS OP Lm SZ kinit binit L1 b m' x z B1 Lm' X AZ)
    as [M [na [LM [_ RUN]]]]. cbn [linear ca_filters] in RUN. fold d input in RUN.
  set (o := ca_filters a) in *. set (si := signal_shape valued b m' g c) in *. set (so := signal_shape true b M na o) in *.
  assert (Z : of_shape so z). { destruct (RUN _ _ _ _ B1 X) as [z' [AP' Z]]. assert (z' = z) as -> by congruence. exact Z. }
  assert (DY : of_shape so dy) by (split; [exact WD|rewrite SZ'; destruct Z as [_ ->]; reflexivity]).
  set (dz := delta f' z dy). pose proof (of_shape_delta f' so z dy Z DY : of_shape so dz) as DZ.
  set (value := fun r : result (tensor A) => match r with Ok y => y | Err _ => tab [] (fun _ => zero) end).
  set (KS := k ++ (if tr then [o; C] else [C; o])).
  assert (ANY : forall ki bi, exists L', built d tr (linear a) input ki bi L').
  { intros ki bi. exact (builds_with_any_weights name G (linear a) H tr valued bs m g c kinit binit L1 ki bi LF' HS B1 Lm). }
  (* the function of the weights *)
  assert (SAME : forall ki bi L', built d tr (linear a) input ki bi L' -> apply L' x = apply (assigned L1 (tab KS ki) (tab [o] bi)) x).
  { intros ki bi L' B'. exact (assigned_alike name G (linear a) H opt tr valued bs m g c kinit binit L1 ki bi L' k s dl LF' HS OP B1 B' Lm SZ b m' x Lm' X). }
  set (FW := fun K B => inner dz (value (apply (assigned L1 K B) x))).
  assert (AS : forall K B, of_shape KS K -> of_shape [o] B -> exists y, apply (assigned L1 K B) x = Ok y /\ of_shape so y).
  { intros K B KK BB. destruct (ANY (at_ K) (at_ B)) as [L' B']. destruct (RUN _ _ _ _ B' X) as [y [AY Y]].
    rewrite (SAME _ _ _ B'), <- (of_shape_eq KS K KK), <- (of_shape_eq [o] B BB) in AY. exists y. split; assumption. }
  assert (LW : forall s1 s2 K1 K2 B2 B3, of_shape KS K1 -> of_shape KS K2 -> of_shape [o] B2 -> of_shape [o] B3 ->
     FW (combination s1 K1 s2 K2) (combination s1 B2 s2 B3) = add (mul s1 (FW K1 B2)) (mul s2 (FW K2 B3))).
  { intros s1 s2 K1 K2 B2 B3 H1 H2 H3 H4. unfold FW.
    destruct (AS K1 B2 H1 H3) as [y1 [A1 Y1]]. destruct (AS K2 B3 H2 H4) as [y2 [A2 Y2]].
    destruct H1 as [W1 S1], H2 as [W2 S2], H3 as [W3 S3], H4 as [W4 S4].
    rewrite (C78_linear_in_the_weights name G (linear a) H opt tr valued bs m g c kinit binit L1 k s dl EX LF' HS OP B1 Lm SZ (fun v => eq_refl)
               s1 s2 K1 K2 B2 B3 W1 W2 W3 W4 S1 S2 S3 S4 x b m' W Lm' SH).
    rewrite A1, A2. cbn [bind value]. exact (inner_combination so dz y1 y2 s1 s2 EX DZ Y1 Y2). }
  set (K0 := tab KS (fun _ => zero : A)). set (B0 := tab [o] (fun _ => zero : A)).
  assert (ZERO : forall sh s1 s2, combination s1 (tab sh (fun _ => zero : A)) s2 (tab sh (fun _ => zero : A)) = tab sh (fun _ => zero)).
  { intros sh s1 s2. rewrite combination_tab. apply tab_ext. intros i _. rewrite !(ar_mzero_r EX). apply (ar_zero EX). }
  assert (ONEL : forall sh K, of_shape sh K -> combination one K one (tab sh (fun _ => zero : A)) = K).
  { intros sh K KK. rewrite (of_shape_eq sh K KK), combination_tab. apply tab_ext. intros i _. rewrite !ONE. apply (sum_neutral EX). }
  assert (ONER : forall sh K, of_shape sh K -> combination one (tab sh (fun _ => zero : A)) one K = K).
  { intros sh K KK. rewrite (of_shape_eq sh K KK), combination_tab. apply tab_ext. intros i _. rewrite !ONE. apply (ar_zero EX). }
  destruct (represented one KS (fun K => FW K B0) EX ONE) as [dK [DK RK]].
  { intros s1 s2 K1 K2 H1 H2. pose proof (LW s1 s2 K1 K2 B0 B0 H1 H2 (of_shape_tab _ _) (of_shape_tab _ _)) as Q. unfold B0 in Q at 1 2. rewrite ZERO in Q. exact Q. }
  destruct (represented one [o] (fun B => FW K0 B) EX ONE) as [dB1 [DB RB]].
  { intros s1 s2 B2 B3 H1 H2. pose proof (LW s1 s2 K0 K0 B2 B3 (of_shape_tab _ _) (of_shape_tab _ _) H1 H2) as Q. unfold K0 in Q at 1 2. rewrite ZERO in Q. exact Q. }
  assert (SPLIT : forall K B, of_shape KS K -> of_shape [o] B -> FW K B = add (inner dK K) (inner dB1 B)).
  { intros K B KK BB. rewrite <- (RK K KK), <- (RB B BB). pose proof (LW one one K K0 B0 B KK (of_shape_tab _ _) (of_shape_tab _ _) BB) as Q.
    rewrite !ONE in Q. unfold K0 in Q at 1. unfold B0 in Q at 1. rewrite ONEL, ONER in Q by assumption. exact Q. }
  (* without a bias it does not matter *)
  assert (NB : ca_use_bias a = false -> forall K B, of_shape KS K -> FW K B = FW K B0).
  { intros UB K B _. unfold FW, assigned.
    destruct (built_facts name G (linear a) H opt tr valued bs m g c kinit binit L1 k s dl LF' HS OP B1 Lm SZ) as [_ [eb [ea [act [dom [_ [_ [_ [CF _]]]]]]]]].
    destruct CF. cbn [linear ca_use_bias] in cf_bias. rewrite cf_bias, UB. reflexivity. }
  (* the function of the input *)
  destruct (ANY kinit (fun _ => zero)) as [L0 BL0].
  destruct (represented one si (fun x' => inner dz (value (apply L0 x'))) EX ONE) as [dx [DX RX]].
  { intros s1 s2 x1 x2 H1 H2. rewrite (linear_without_bias name G a H opt tr valued bs m g c kinit L0 k s dl EX LF HS OP BL0 Lm SZ s1 s2 x1 x2 b m' Lm' H1 H2).
    destruct (RUN _ _ _ _ BL0 H1) as [y1 [A1 Y1]]. destruct (RUN _ _ _ _ BL0 H2) as [y2 [A2 Y2]]. rewrite A1, A2. cbn [bind value].
    exact (inner_combination so dz y1 y2 s1 s2 EX DZ Y1 Y2). }
  assert (PZ : forall sh (u : tensor A), of_shape sh u -> inner u (tab sh (fun _ => zero)) = zero).
  { intros sh u U. rewrite (of_shape_eq sh u U) at 1. rewrite inner_tab. apply (sum_nothing EX). intros i _. apply (ar_mzero_r EX). }
  exists dx, dK, (if ca_use_bias a then Some dB1 else None). split.
  - split; [rewrite SH; exact DX|exact DK|destruct (ca_use_bias a); [split; [reflexivity|exact DB]|reflexivity]|].
    exists L1, z. split; [exact B1|]. split; [exact AZ|]. split; [split; [exact WD|exact SZ']|]. cbv zeta. fold dz. split.
    + intros ki bi L' y B' AY. rewrite (SAME _ _ _ B') in AY.
      assert (FV : FW (tab KS ki) (tab [o] bi) = inner dz y) by (unfold FW; rewrite AY; reflexivity).
      rewrite <- FV. unfold initial_bias. fold o. change (initial_kernel tr k C o ki) with (tab KS ki). destruct (ca_use_bias a) eqn:UB.
      * apply SPLIT; apply of_shape_tab.
      * cbn [bias_pairing]. rewrite (NB eq_refl) by apply of_shape_tab. rewrite SPLIT by apply of_shape_tab. unfold B0. rewrite PZ by exact DB. reflexivity.
    + intros L' x' y B' X' AY. rewrite SH in X'. rewrite <- (RX x' X').
      assert (L' = L0) as ->.
      { destruct B' as [P [IP BP]], BL0 as [P' [IP' BP']]. assert (P' = P) as -> by congruence. congruence. }
      rewrite AY. reflexivity.
  - intros dx' dK' dB' [GX GK GB [L' [z' [B' [AZ' [_ [BW BX]]]]]]].
    assert (L' = L1) as ->.
    { destruct B' as [P [IP BP]], B1 as [P' [IP' BP']]. assert (P' = P) as -> by congruence. congruence. }
    assert (z' = z) as -> by congruence. cbv zeta in BW, BX. fold dz in BW, BX. fold o KS in GK. rewrite SH in GX. fold o in GB, BW.
    assert (VAL : forall ki bi, FW (tab KS ki) (tab [o] bi) = add (inner dK' (tab KS ki)) (bias_pairing dB' (initial_bias a bi))).
    { intros ki bi. destruct (ANY ki bi) as [L2 B2]. destruct (RUN _ _ _ _ B2 X) as [y [AY _]]. change (tab KS ki) with (initial_kernel tr k C o ki) at 2.
      rewrite <- (BW _ _ _ _ B2 AY). unfold FW. rewrite <- (SAME _ _ _ B2), AY. reflexivity. }
    assert (BP0 : bias_pairing dB' (initial_bias a (fun _ => zero)) = zero).
    { unfold initial_bias. fold o. destruct dB' as [Bx|]; [|reflexivity]. destruct GB as [-> GB]. cbn [bias_pairing]. apply PZ. exact GB. }
    split; [|split].
    + apply (represented_once one si dx' dx EX ONE GX DX). intros x' X'. rewrite <- (RX x' X').
      destruct (RUN _ _ _ _ BL0 X') as [y [AY _]]. rewrite AY. cbn [value]. symmetry. apply (BX L0 x' y BL0); [rewrite SH; exact X'|exact AY].
    + apply (represented_once one KS dK' dK EX ONE GK DK). intros K KK. rewrite <- (RK K KK). rewrite (of_shape_eq KS K KK) at 2.
      unfold B0. rewrite VAL, BP0. rewrite (sum_neutral EX). rewrite <- (of_shape_eq KS K KK). reflexivity.
    + destruct dB' as [Bx|]; [|rewrite GB; reflexivity]. destruct GB as [UB GB]. rewrite UB. f_equal.
      apply (represented_once one [o] Bx dB1 EX ONE GB DB). intros B BB. rewrite <- (RB B BB). unfold K0. rewrite (of_shape_eq [o] B BB) at 2.
      rewrite VAL, PZ by exact GK. rewrite (ar_zero EX). unfold initial_bias. rewrite UB. cbn [bias_pairing]. fold o. rewrite <- (of_shape_eq [o] B BB). reflexivity.
Qed.

(** ** Gradients of transformed examples *)

(** If the layer without its activation commutes with the elements of [U], the transformed
    example has the same gradients for the weights, and the transformed gradient for its
    input. *)
Theorem C87_gradients_of_transformed_examples name G (a : conv_args A) H U opt (tr valued : bool) bs m g c m' k s dl kinit binit f' x dy dx dK dB b gx :
  exact_arithmetic A ->
  layer_for name G a -> ca_subgroup a = Some H -> option_of a opt -> (U = H \/ tr = true /\ valued = false) ->
  let d := dimension_of name in
  let C := if valued then g * c else c in
  let tin := if valued then transforms_of_group_signal G d U (if tr then H else "") else transforms_of_grid_signal G d U in
  let tout := transforms_of_group_signal G d U (if tr then "" else H) in
  let input := static_signal_shape valued bs m g c in
  List.length m = d -> List.length m' = d -> sizes d a k s dl ->
  always_commute name G tr valued (linear a) H U bs m g c m' ->
  wf x -> shape x = signal_shape valued b m' g c ->
  gradients d tr a input k C kinit binit f' x dy dx dK dB ->
  tin x = Ok gx ->
  exists gdy gdx, tout dy = Ok gdy /\ tin dx = Ok gdx /\
    nth 0 (shape gdy) 0 = nth 0 (shape gx) 0 /\ nth 0 (shape gdx) 0 = nth 0 (shape gx) 0 /\
    forall u, u < nth 0 (shape gx) 0 ->
    gradients d tr a input k C kinit binit f' (slice 0 u gx) (slice 0 u gdy) (slice 0 u gdx) dK dB.
Proof.
  intros EX LF HS OP HU d C tin tout input Lm Lm' SZ AC W SH [GX GK GB GR] R.
  destruct GR as [L [z [B [AP [DY [BW BX]]]]]].
  pose proof (linear_for _ _ _ LF) as LF'.
  destruct (runs_alike name G (linear a) H opt tr valued bs m g c k s dl LF' HS OP Lm SZ kinit binit L b m' x z B Lm' (conj W SH) AP)
    as [M [na [LM [[act [SA NA]] RUN]]]]. cbn [linear ca_filters] in RUN.
  destruct (facts_of_all name G (linear a) H opt tr valued bs m g c k s dl LF' HS OP Lm SZ (ex_intro _ kinit (ex_intro _ binit (ex_intro _ L B))))
    as [OK [eb [ea [act' [dom [SA' [SD _]]]]]]]. fold d in OK. clear eb ea.
  assert (act' = act) as -> by (unfold sub_idx in SA, SA'; congruence). clear SA'.
  set (o := ca_filters a) in *. set (si := signal_shape valued b m' g c) in *. set (so := signal_shape true b M na o) in *.
  assert (HI : exists idx, sub_idx G (Some U) idx).
  { unfold tin in R. destruct valued; exact (action_names_subgroup _ _ _ _ _ _ _ _ R). }
  destruct HI as [idx SU]. destruct (sub_idx_facts _ _ _ _ OK _ _ SU) as [_ [BU _]].
  assert (STAB : forall K dom0, sub_idx G (Some K) dom0 -> K = "" \/ K = U -> forall u, In u idx -> stable G u dom0).
  { intros K dom0 S [->| ->] u Iu.
    - rewrite (whole_dom G d _ _ dom0 OK S). apply (stable_whole G d _ _ OK). apply BU. exact Iu.
    - apply (stable_of G d _ _ OK (Some U)); [exact S|]. assert (dom0 = idx) as -> by (unfold sub_idx in S, SU; congruence). exact Iu. }
  assert (DI : domain_of G valued U (if tr then H else "") idx dom g).
  { split; [exact SU|]. intros V. destruct (SD V) as [S Q].
    assert (S' : sub_idx G (Some (if tr then H else "")) dom) by (destruct tr; exact S).
    split; [exact S'|]. split; [exact Q|]. apply (STAB _ _ S'). destruct tr; [right|left; reflexivity]. destruct HU as [->|[_ HV]]; [reflexivity|congruence]. }
  assert (DO : domain_of G true U (if tr then "" else H) idx act na).
  { split; [exact SU|]. intros _.
    assert (S' : sub_idx G (Some (if tr then "" else H)) act) by (destruct tr; exact SA).
    split; [exact S'|]. split; [exact NA|]. apply (STAB _ _ S'). destruct tr; [left; reflexivity|right]. destruct HU as [->|[HT _]]; [reflexivity|discriminate HT]. }
  assert (TI : tin = transforms G d valued U (if tr then H else "")) by (unfold tin, transforms; destruct valued; reflexivity).
  assert (TO : tout = transforms G d true U (if tr then "" else H)) by reflexivity.
  assert (X : of_shape si x) by (split; assumption).
  rewrite TI in R |- *. rewrite TO. clear TI TO tin tout.
  pose proof (transforms_fit G d _ _ OK valued U _ idx dom g b m' c x gx DI Lm' X R) as Fm.
  destruct (transforms_ok G d _ _ OK valued U _ idx dom g b m' c x DI Fm X) as [gx' [R' [SGX SLX]]].
  assert (gx' = gx) as -> by congruence. clear R'.
  assert (Z : of_shape so z). { destruct (RUN _ _ _ _ B X) as [z' [AP' Z]]. assert (z' = z) as -> by congruence. exact Z. }
  assert (FM : fit d (needs_equal_sizes name) M).
  { assert (RR : (if valued then transforms_of_group_signal G d U (if tr then H else "") else transforms_of_grid_signal G d U) x = Ok gx)
      by (unfold transforms in R; destruct valued; exact R).
    destruct (AC kinit binit L b x B W SH gx z RR AP) as [gy [GY _]].
    exact (transforms_fit G d _ _ OK true U _ idx act na b M o z gy DO LM Z GY). }
  assert (DY' : of_shape so dy) by (destruct Z as [_ SZZ]; rewrite SZZ in DY; exact DY).
  assert (GX' : of_shape si dx) by (rewrite SH in GX; exact GX).
  destruct (transforms_ok G d _ _ OK true U _ idx act na b M o dy DO FM DY') as [gdy [RY [SGY SLY]]].
  destruct (transforms_ok G d _ _ OK valued U _ idx dom g b m' c dx DI Fm GX') as [gdx [RX [SGDX SLDX]]].
  exists gdy, gdx. split; [exact RY|]. split; [exact RX|]. rewrite SGX, SGY, SGDX. cbn [nth]. split; [reflexivity|]. split; [reflexivity|].
  intros u Hu. rewrite (SLX u Hu), (SLY u Hu), (SLDX u Hu).
  pose proof (read_at_domain G d _ _ OK valued U _ idx dom g b m' c u DI Fm Hu) as RI. fold si in RI |- *.
  pose proof (read_at_domain G d _ _ OK true U _ idx act na b M o u DO FM Hu) as RO. fold so in RO |- *.
  set (phi := read_at G d (symmetries_of name) valued (nth u idx 0) m' dom) in *.
  set (psi := read_at G d (symmetries_of name) true (nth u idx 0) M act) in *.
  (* the layers commute with this element *)
  assert (CO : forall kinit' binit' L' x' y, built d tr (linear a) input kinit' binit' L' -> of_shape si x' ->
             apply L' (reordered si phi x') = Ok y -> exists y', apply L' x' = Ok y' /\ of_shape so y' /\ y = reordered so psi y').
  { intros kinit' binit' L' x' y B' X' AY. destruct (RUN _ _ _ _ B' X') as [y' [AP' Y']]. exists y'. split; [exact AP'|]. split; [exact Y'|].
    destruct (transforms_ok G d _ _ OK valued U _ idx dom g b m' c x' DI Fm X') as [gx' [R' [SG' SL']]].
    destruct (transforms_ok G d _ _ OK true U _ idx act na b M o y' DO FM Y') as [gy' [RY' [SGY' SLY']]].
    assert (RR : (if valued then transforms_of_group_signal G d U (if tr then H else "") else transforms_of_grid_signal G d U) x' = Ok gx')
      by (unfold transforms in R'; destruct valued; exact R').
    destruct X' as [W' SH']. destruct (AC kinit' binit' L' b x' B' W' SH' gx' y' RR AP') as [gy [GY [_ SL]]].
    change (transforms G d true U (if tr then "" else H) y' = Ok gy) in GY. assert (gy = gy') as -> by congruence.
    rewrite SG' in SL. cbn [nth] in SL. specialize (SL u Hu). rewrite (SL' u Hu) in SL. fold si phi in SL. rewrite AY in SL.
    rewrite (SLY' u Hu) in SL. fold so psi in SL. congruence. }
  destruct (of_shape_reordered si phi x) as [_ SP].
  split; [rewrite SP; apply of_shape_reordered|exact GK|exact GB|].
  assert (APu : apply L (reordered si phi x) = Ok (reordered so psi z)).
  { destruct (RUN _ _ _ _ B (of_shape_reordered si phi x)) as [y [AY _]]. destruct (CO _ _ _ _ _ B X AY) as [y' [AY' [_ QY]]].
    assert (y' = z) as -> by congruence. congruence. }
  exists L, (reordered so psi z). split; [exact B|]. split; [exact APu|].
  destruct (of_shape_reordered so psi z) as [_ SPZ]. split; [rewrite SPZ; apply of_shape_reordered|]. cbv zeta.
  rewrite (delta_reordered f' so psi z dy RO Z DY').
  pose proof (of_shape_delta f' so z dy Z DY') as DZ. cbv zeta in BW, BX. split.
  - intros kinit' binit' L' y B' AY. destruct (CO _ _ _ _ _ B' X AY) as [y' [AY' [Y' ->]]].
    rewrite (inner_reordered so psi _ _ EX RO DZ Y'). exact (BW _ _ _ _ B' AY').
  - rewrite SP. intros L' x' y B' X' AY. destruct (reordered_onto si phi x' RI X') as [x'' [X'' <-]].
    destruct (CO _ _ _ _ _ B' X'' AY) as [y' [AY' [Y' ->]]].
    rewrite (inner_reordered so psi _ _ EX RO DZ Y'), (inner_reordered si phi _ _ EX RI GX' X'').
    apply (BX L' x'' y' B'); [rewrite SH; exact X''|exact AY'].
Qed.

(** In particular for the convolutions that C21, C22, C43, C44 and C45 are about ... *)
Theorem C87_convolutions name G (a : conv_args A) H opt (valued : bool) bs m g c m' k s dl kinit binit f' x dy dx dK dB b gx :
  exact_arithmetic A ->
  layer_for name G a -> ca_subgroup a = Some H -> option_of a opt -> (ca_allow a = false \/ In opt ["SAME_EQUIV"; "VALID_EQUIV"]) ->
  let d := dimension_of name in
  let C := if valued then g * c else c in
  let tin := if valued then transforms_of_group_signal G d H "" else transforms_of_grid_signal G d H in
  let tout := transforms_of_group_signal G d H H in
  let input := static_signal_shape valued bs m g c in
  List.length m = d -> List.length m' = d -> sizes d a k s dl -> respects name s -> respects name dl ->
  (In opt ["SAME"; "SAME_EQUIV"] -> forall ax, ax < d -> Nat.Odd (nth ax k 0) \/ Nat.Odd (nth ax dl 0)) ->
  (forall ax, ax < d -> nth ax m 0 mod nth ax s 0 = nth ax m' 0 mod nth ax s 0) ->
  wf x -> shape x = signal_shape valued b m' g c ->
  gradients d false a input k C kinit binit f' x dy dx dK dB ->
  tin x = Ok gx ->
  exists gdy gdx, tout dy = Ok gdy /\ tin dx = Ok gdx /\
    nth 0 (shape gdy) 0 = nth 0 (shape gx) 0 /\ nth 0 (shape gdx) 0 = nth 0 (shape gx) 0 /\
    forall u, u < nth 0 (shape gx) 0 ->
    gradients d false a input k C kinit binit f' (slice 0 u gx) (slice 0 u gdy) (slice 0 u gdx) dK dB.
Proof.
  intros EX LF HS OP AL d C tin tout input Lm Lm' SZ RS RD DF CO W SH GR R.
  apply (C87_gradients_of_transformed_examples name G a H H opt false valued bs m g c m' k s dl kinit binit f' x dy dx dK dB b gx EX LF HS OP
           (or_introl eq_refl) Lm Lm' SZ); try assumption.
  intros ki bi L b' x' B W' SH'.
  apply (layer_commutes name G (linear a) H opt valued bs m c g ki bi L k s dl m' x' b'); try assumption.
  intros u v w. rewrite !(ar_assoc EX). f_equal. apply (ar_comm EX).
Qed.

(** ... and for the transposed convolutions of C26 and C27. *)
Theorem C87_transposed_convolutions name G (a : conv_args A) H U opt (valued : bool) bs m g c k s kinit binit f' x dy dx dK dB b gx :
  exact_arithmetic A ->
  layer_for name G a -> ca_subgroup a = Some H -> option_of a opt -> (U = H \/ valued = false) ->
  let d := dimension_of name in
  let C := if valued then g * c else c in
  let tin := if valued then transforms_of_group_signal G d U H else transforms_of_grid_signal G d U in
  let tout := transforms_of_group_signal G d U "" in
  let input := static_signal_shape valued bs m g c in
  List.length m = d -> sizes d a k s (repeat 1 d) -> respects name s -> regular_transposed d opt m k s ->
  wf x -> shape x = signal_shape valued b m g c ->
  gradients d true a input k C kinit binit f' x dy dx dK dB ->
  tin x = Ok gx ->
  exists gdy gdx, tout dy = Ok gdy /\ tin dx = Ok gdx /\
    nth 0 (shape gdy) 0 = nth 0 (shape gx) 0 /\ nth 0 (shape gdx) 0 = nth 0 (shape gx) 0 /\
    forall u, u < nth 0 (shape gx) 0 ->
    gradients d true a input k C kinit binit f' (slice 0 u gx) (slice 0 u gdy) (slice 0 u gdx) dK dB.
Proof.
  intros EX LF HS OP HU d C tin tout input Lm SZ RS RT W SH GR R.
  apply (C87_gradients_of_transformed_examples name G a H U opt true valued bs m g c m k s (repeat 1 d) kinit binit f' x dy dx dK dB b gx EX LF HS OP
           ltac:(destruct HU as [HU|HU]; [left; exact HU|right; split; [reflexivity|exact HU]]) Lm Lm SZ); try assumption.
  intros ki bi L b' x' B W' SH'.
  assert (ADD : add_commutes A) by (intros u v w; rewrite !(ar_assoc EX); f_equal; apply (ar_comm EX)).
  destruct (C27_transposed_convolution_any_stride name G (linear a) H U opt bs m g c ki bi L k s ADD (linear_for _ _ _ LF) HS OP Lm SZ RS RT) as [Q1 Q2].
  destruct valued.
  - destruct HU as [->|HU]; [|discriminate HU]. exact (Q2 B b' x' W' SH').
  - exact (Q1 B b' x' W' SH').
Qed.

End Gradients.

Print Assumptions C87_the_activation_is_applied_last.
Print Assumptions C87_gradients_exist.
Print Assumptions C87_gradients_of_transformed_examples.
Print Assumptions C87_convolutions.
Print Assumptions C87_transposed_convolutions.

(** ** Examples *)

(** The derivative of [relu]. *)
Definition step (v : Z) : Z := if (0 <? v)%Z then 1%Z else 0%Z.

(** The gradients for the kernel and the input, computed one entry at a time. *)
Definition pairing_with (dz : tensor Z) (r : result (tensor Z)) : option Z :=
  match r with Ok y => Some (inner dz y) | Err _ => None end.
Definition kernel_gradient (d : nat) (tr : bool) (a : conv_args Z) (input : sshape) (f' : Z -> Z) (kshape : list nat) (x dy : tensor Z) : list (option Z) :=
  match (L <- test_layer d tr (linear a) input some_weights some_weights ;; apply L x) with
  | Ok z => map (fun i => pairing_with (delta f' z dy) (L <- test_layer d tr (linear a) input (unit_at 1%Z i) (fun _ => 0%Z) ;; apply L x)) (indices kshape)
  | Err _ => []
  end.
Definition input_gradient (d : nat) (tr : bool) (a : conv_args Z) (input : sshape) (f' : Z -> Z) (x dy : tensor Z) : list (option Z) :=
  match (L <- test_layer d tr (linear a) input some_weights some_weights ;; apply L x) with
  | Ok z => map (fun i => pairing_with (delta f' z dy) (L <- test_layer d tr (linear a) input some_weights (fun _ => 0%Z) ;; apply L (tab (shape x) (unit_at 1%Z i)))) (indices (shape x))
  | Err _ => []
  end.

(** A layer for P4 with [relu], and an example that is rotated four times. *)
Definition relu_args (p : string) (s : Z) : conv_args Z :=
  mkConvArgs (ByName "P4") (Some "") (One 3) 1 (Some (One s)) (Some (Some p)) None "channels_last" true true (fun v => Z.max v 0).
Definition an_example (n : nat) : tensor Z := tab [1; n; n; 1] (fun i => (Z.of_nat (nth 1 i 0 * nth 1 i 0 * 2 + 3 * nth 2 i 0)%nat - 8)%Z).
Definition an_output_gradient (n : nat) : tensor Z := tab [1; n; n; 4; 1] (fun i => (Z.of_nat (nth 1 i 0 + 2 * nth 2 i 0 * nth 3 i 0)%nat - 2)%Z).
Definition rotated (r : result (tensor Z)) (u : nat) : tensor Z := match r with Ok t => slice 0 u t | Err _ => tab [] (fun _ => 0%Z) end.
Definition gradients_of_rotated (p : string) (s : Z) (n no : nat) (u : nat) : list (option Z) * list (option Z) :=
  let a := relu_args p s in
  let input := static_signal_shape false None [n; n] 0 1 in
  let x := rotated (transforms_of_grid_signal P4 2 "" (an_example n)) u in
  let dy := rotated (transforms_of_group_signal P4 2 "" "" (an_output_gradient no)) u in
  (kernel_gradient 2 false a input step [3; 3; 1; 1] x dy, input_gradient 2 false a input step x dy).

(** The gradients for the kernel agree, those for the input are rotated. *)
Example C87_case :
  map (gradients_of_rotated "same_equiv" 1 3 3) [0; 1; 2; 3] =
  let dK := map Some [0; 54; 9; 2; 156; 69; -91; -23; -50]%Z in
  [(dK, map Some [0; 229; 110; 24; 466; 564; 88; 447; 729]%Z);
   (dK, map Some [110; 564; 729; 229; 466; 447; 0; 24; 88]%Z);
   (dK, map Some [729; 447; 88; 564; 466; 24; 110; 229; 0]%Z);
   (dK, map Some [88; 24; 0; 447; 466; 229; 729; 564; 110]%Z)].
Proof. vm_compute. reflexivity. Qed.

(** With 'same' padding, stride 2 and size 4, where the layer does not commute with the
    rotations, they do not agree. *)
Definition one_pairing (u : nat) : option Z :=
  let a := relu_args "same" 2 in
  let input := static_signal_shape false None [4; 4] 0 1 in
  let x := rotated (transforms_of_grid_signal P4 2 "" (an_example 4)) u in
  let dy := rotated (transforms_of_group_signal P4 2 "" "" (an_output_gradient 2)) u in
  match (L <- test_layer 2 false (linear a) input some_weights some_weights ;; apply L x) with
  | Ok z => pairing_with (delta step z dy) (L <- test_layer 2 false (linear a) input (unit_at 1%Z [0; 0; 0; 0]) (fun _ => 0%Z) ;; apply L x)
  | Err _ => None
  end.

Lemma one_pairing_ok u x dy dx dK dB :
  x = rotated (transforms_of_grid_signal P4 2 "" (an_example 4)) u ->
  dy = rotated (transforms_of_group_signal P4 2 "" "" (an_output_gradient 2)) u ->
  gradients 2 false (relu_args "same" 2) (static_signal_shape false None [4; 4] 0 1) [3; 3] 1 some_weights some_weights step x dy dx dK dB ->
  forall v, one_pairing u = Some v ->
  v = Z.add (inner dK (initial_kernel false [3; 3] 1 1 (unit_at 1%Z [0; 0; 0; 0]))) (bias_pairing dB (initial_bias (relu_args "same" 2) (fun _ => 0%Z))).
Proof.
  intros EX' EY [_ _ _ [L [z [B [AP [_ [BW _]]]]]]] v. unfold one_pairing. cbv zeta. rewrite <- EX', <- EY.
  destruct B as [L0 [I BL]]. unfold test_layer. rewrite I. cbn [bind]. rewrite BL. cbn [bind]. rewrite AP.
  destruct (conv_build L0 _ (unit_at 1%Z [0; 0; 0; 0]) (fun _ => 0%Z)) as [L'|] eqn:BL'; [|discriminate]. cbn [bind].
  destruct (apply L' x) as [y|] eqn:AY; [|discriminate]. cbn [pairing_with]. intros Q. assert (EO : forall p q : Z, Some p = Some q -> p = q) by congruence.
  apply EO in Q. rewrite <- Q. exact (BW _ _ L' y (ex_intro _ L0 (conj I BL')) AY).
Qed.

Definition differ (u v : option Z) : bool := match u, v with Some p, Some q => negb (p =? q)%Z | _, _ => false end.

Theorem C87_other_layers_refuted :
  let a := relu_args "same" 2 in
  let input := static_signal_shape false None [4; 4] 0 1 in
  exists x dy gx gdy dx dK dB,
    wf x /\ shape x = [1; 4; 4; 1] /\ gradients 2 false a input [3; 3] 1 some_weights some_weights step x dy dx dK dB /\
    transforms_of_grid_signal P4 2 "" x = Ok gx /\ transforms_of_group_signal P4 2 "" "" dy = Ok gdy /\
    slice 0 0 gx = x /\ slice 0 0 gdy = dy /\
    forall dx' dB', ~ gradients 2 false a input [3; 3] 1 some_weights some_weights step (slice 0 1 gx) (slice 0 1 gdy) dx' dK dB'.
Proof.
  intros a input.
  destruct (transforms_of_grid_signal P4 2 "" (an_example 4)) as [gx|] eqn:R; [|assert (Q : (if transforms_of_grid_signal P4 2 "" (an_example 4) then true else false) = true) by (vm_compute; reflexivity); rewrite R in Q; discriminate Q].
  destruct (transforms_of_group_signal P4 2 "" "" (an_output_gradient 2)) as [gdy|] eqn:RY; [|assert (Q : (if transforms_of_group_signal P4 2 "" "" (an_output_gradient 2) then true else false) = true) by (vm_compute; reflexivity); rewrite RY in Q; discriminate Q].
  assert (X0 : rotated (Ok gx) 0 = an_example 4) by (rewrite <- R; vm_compute; reflexivity).
  assert (Y0 : rotated (Ok gdy) 0 = an_output_gradient 2) by (rewrite <- RY; vm_compute; reflexivity).
  assert (BB : exists L, test_layer 2 false a input some_weights some_weights = Ok L /\ exists y, apply L (an_example 4) = Ok y /\ shape y = [1; 2; 2; 4; 1]).
  { assert (Q : match (L <- test_layer 2 false a input some_weights some_weights ;; apply L (an_example 4)) with Ok y => list_eqb Nat.eqb (shape y) [1; 2; 2; 4; 1] | Err _ => false end = true) by (vm_compute; reflexivity).
    destruct (test_layer 2 false a input some_weights some_weights) as [L|]; [|discriminate Q]. cbn [bind] in Q. exists L. split; [reflexivity|].
    destruct (apply L (an_example 4)) as [y|]; [|discriminate Q]. exists y. split; [reflexivity|apply (list_eqb_eq _ Nat.eqb_eq); exact Q]. }
  destruct BB as [L [BL [y [AP SY]]]]. apply test_layer_built in BL.
  destruct (C87_gradients_exist "P4" P4 a "" "SAME" false false None [4; 4] 0 1 [4; 4] [3; 3] [2; 2] [1; 1] some_weights some_weights L step
              (an_example 4) y (an_output_gradient 2) 1 1%Z) as [dx [dK [dB [GR _]]]]; try exact BL; try exact AP.
  - exact integers_exact.
  - intros v. cbn [mul Arith_Z]. lia.
  - split; [vm_compute; reflexivity|split; [left; reflexivity|reflexivity]].
  - reflexivity.
  - exists "same". split; reflexivity.
  - reflexivity.
  - reflexivity.
  - split; [reflexivity|split; reflexivity].
  - apply wf_tab.
  - reflexivity.
  - apply wf_tab.
  - rewrite SY. reflexivity.
  - exists (an_example 4), (an_output_gradient 2), gx, gdy, dx, dK, dB.
    split; [apply wf_tab|]. split; [reflexivity|]. split; [exact GR|]. split; [exact R|]. split; [exact RY|].
    split; [exact X0|]. split; [exact Y0|]. intros dx' dB' GR'.
    assert (Q : differ (one_pairing 0) (one_pairing 1) = true) by (vm_compute; reflexivity).
    destruct (one_pairing 0) as [v0|] eqn:P0; [|discriminate Q]. destruct (one_pairing 1) as [v1|] eqn:P1; [|discriminate Q].
    assert (E0 := one_pairing_ok 0 _ _ _ _ _ (eq_trans (eq_sym X0) (f_equal (fun r => rotated r 0) (eq_sym R)))
                    (eq_trans (eq_sym Y0) (f_equal (fun r => rotated r 0) (eq_sym RY))) GR v0 P0).
    assert (E1 := one_pairing_ok 1 _ _ _ _ _ (f_equal (fun r => rotated r 1) (eq_sym R)) (f_equal (fun r => rotated r 1) (eq_sym RY)) GR' v1 P1).
    assert (BZ : forall db, bias_pairing db (initial_bias a (fun _ => 0%Z)) = 0%Z).
    { intros [db|]; [|reflexivity]. unfold bias_pairing, initial_bias. cbn [a relu_args ca_use_bias ca_filters]. destruct db as [sh [|v [|v' l]]]; [reflexivity| |]; destruct v; reflexivity. }
    fold a in E0, E1. rewrite BZ in E0, E1. cbn [differ] in Q. rewrite E0, E1, Z.eqb_refl in Q. discriminate Q.
Qed.

Print Assumptions C87_other_layers_refuted.
