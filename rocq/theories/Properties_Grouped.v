(** C67: layers with Keras' argument [groups], which splits the channels into blocks. *)
From Verif Require Import GroupedFacts TracedFacts TranslationFacts Properties_Conv.
Local Open Scope string_scope.
Local Open Scope list_scope.

(** The layer constructed with [groups=N] and built for an input shape, and what it returns. *)
Definition built_grouped {A} {RA : Arith A} (d N : nat) (a : conv_args A) (input : sshape) (kinit binit : list nat -> A) (L : conv_layer A) : Prop :=
  exists L0, grouped_init d N a = Ok L0 /\ grouped_build N L0 input kinit binit = Ok L.
Definition grouped_result {A} {RA : Arith A} (L : conv_layer A) (x : tensor A) : result (tensor A) := snd (grouped_apply L x).

(** Block number [j] of the N blocks of channels of a signal with N * c channels; for
    group signals the group axis is merged into the channels first, and the block is
    read as a group signal with c channels again. *)
Definition channel_block {A} {ZA : Zero A} (valued : bool) (d b : nat) (m : list nat) (g c N j : nat) (x : tensor A) : tensor A :=
  let C := if valued then g * c else c in
  read_as (signal_shape valued b m g c)
    (tab (b :: m ++ [C]) (fun i => at_ (merged_signal valued (N * c) g x b m) (firstn (d + 1) i ++ [j * C + nth (d + 1) i 0]))).

Section Grouped.
Context {A : Type} {RA : Arith A}.

Lemma whole_shape valued bs m g c : build_shape valued bs m g c = static_signal_shape valued bs m g c.
Proof. reflexivity. Qed.

Lemma grouped_init_eq d N (a : conv_args A) L0 :
  grouped_init d N a = Ok L0 <-> conv_init d false a = Ok L0 /\ 0 < N /\ Nat.divide N (ca_filters a).
Proof.
  unfold grouped_init. destruct (conv_init d false a) as [L1|]; cbn [bind]; [|split; [discriminate|intros [Q _]; discriminate Q]].
  destruct (Nat.ltb_spec 0 N) as [NP|NP]; cbn [andb]; [|split; [discriminate|intros [_ [Q _]]; lia]].
  destruct (Nat.eqb_spec (ca_filters a mod N) 0) as [M|M].
  - split; [intros Q; split; [exact Q|split; [exact NP|apply Nat.mod_divide; lia]]|intros [Q _]; exact Q].
  - split; [discriminate|]. intros [_ [_ D]]. apply Nat.mod_divide in D; [contradiction|lia].
Qed.

(** What [grouped_build_eq] needs of a constructed layer. *)
Lemma init_parts name G d E eq (a : conv_args A) L0 :
  group_ok G d E eq -> layer_for name G a -> conv_init d false a = Ok L0 ->
  gt_dims (cl_gt L0) = d /\ gt_format (cl_gt L0) = "channels_last" /\ cl_format L0 = "channels_last" /\
  gt_channels_axis (cl_gt L0) = Z.of_nat (d + 1) /\ gt_group_axis (cl_gt L0) = Z.of_nat (d + 1) /\
  gt_transpose (cl_gt L0) = false /\
  pl_format (gt_padding (cl_gt L0)) = "channels_last" /\ pl_dims (gt_padding (cl_gt L0)) = d /\
  0 < prod (cl_kernel_size L0) /\ 0 < cl_filters L0 /\
  (forall idx, subgroup_get (gt_group (cl_gt L0)) (gt_domain (cl_gt L0)) = Ok idx -> idx <> []).
Proof.
  intros OK [DG [AG AF]] I.
  destruct (conv_init_inv G d name false a L0 DG AG AF I) as [p [k [s [dl [Hn [_ [SK [_ [_ [_ [_ [_ [FP [_ [P [PI EL]]]]]]]]]]]]]]]].
  destruct (padding_init_inv _ _ _ _ _ _ _ _ PI) as [_ [_ [_ [_ [PD [_ [_ [PF _]]]]]]]].
  rewrite EL. repeat split; try reflexivity; try assumption.
  - cbn [cl_kernel_size]. destruct (std_pos d _ _ SK) as [Lk Pk]. apply prod_positive. intros n0 IN.
    apply (In_nth k n0 0) in IN as [ax [Hax <-]]. apply Pk. lia.
  - cbn [gt_group gt_domain cl_gt]. intros idx SI Q. subst idx.
    assert (SX : sub_idx G (Some name) []).
    { unfold sub_idx. cbn [parse_subgroup]. destruct (String.eqb_spec name ""); [|exact SI].
      exfalso. apply (lib_name_nonempty _ _ DG). assumption. }
    destruct (sub_idx_facts _ _ _ _ OK _ _ SX) as [_ [_ [HA _]]]. discriminate HA.
Qed.

Lemma grouped_builds name G d E eq N (a : conv_args A) (valued : bool) bs m g c kinit binit L :
  group_ok G d E eq -> layer_for name G a -> List.length m = d ->
  built_grouped d N a (static_signal_shape valued bs m g (N * c)) kinit binit L <->
  (0 < N /\ Nat.divide N (ca_filters a) /\
   exists L', built d false a (static_signal_shape valued bs m g c) kinit binit L' /\
     L = widen L' (bs :: map Some m ++ [Some (if valued then g * (N * c) else N * c)]) (N * c)).
Proof.
  intros OK LF Lm.
  assert (EY : forall u v : conv_layer A, Ok u = Ok v -> u = v) by congruence.
  split.
  - intros [L0 [I B]]. apply grouped_init_eq in I as [I [NP DV]]. split; [exact NP|]. split; [exact DV|].
    destruct (init_parts name G d E eq a L0 OK LF I) as [P1 [P2 [P3 [P4 [P5 [P6 [P7 [P8 _]]]]]]]].
    rewrite <- whole_shape, (grouped_build_eq N L0 d valued bs m g c kinit binit P1 P2 P3 P4 P5 P6 P7 P8 Lm NP) in B.
    destruct (conv_build L0 (build_shape valued bs m g c) kinit binit) as [L'|] eqn:CB; [|discriminate B]. cbn [bind] in B.
    exists L'. split; [exists L0; split; [exact I|exact CB]|]. symmetry. apply EY. exact B.
  - intros [NP [DV [L' [[L0 [I B]] ->]]]]. exists L0. split; [apply grouped_init_eq; split; [exact I|split; assumption]|].
    destruct (init_parts name G d E eq a L0 OK LF I) as [P1 [P2 [P3 [P4 [P5 [P6 [P7 [P8 _]]]]]]]].
    rewrite <- whole_shape, (grouped_build_eq N L0 d valued bs m g c kinit binit P1 P2 P3 P4 P5 P6 P7 P8 Lm NP).
    rewrite whole_shape, B. reflexivity.
Qed.

(** When such a layer builds: [groups] must be positive, divide the number of filters
    and the number of channels (per element of the group), and the layer without
    [groups] must build for one block of the channels. *)
Theorem C67_when_they_build name G N (a : conv_args A) (valued : bool) bs m g c kinit binit :
  layer_for name G a ->
  let d := dimension_of name in
  List.length m = d ->
  ((exists L, built_grouped d N a (static_signal_shape valued bs m g c) kinit binit L) <->
   (0 < N /\ Nat.divide N (ca_filters a) /\ Nat.divide N c /\
    exists L, built d false a (static_signal_shape valued bs m g (c / N)) kinit binit L)).
Proof.
  intros LF d Lm. pose proof LF as [DG _]. apply lib_ok in DG as [_ OK]. fold d in OK. split.
  - intros [L B].
    assert (DC : exists c', c = N * c').
    { destruct B as [L0 [I B]]. apply grouped_init_eq in I as [I [NP _]].
      destruct (init_parts name G d _ _ a L0 OK LF I) as [P1 [P2 [P3 [P4 [P5 [P6 [P7 [P8 [P9 [P10 P11]]]]]]]]]].
      exact (grouped_build_divides N L0 d valued bs m g c kinit binit L P1 P2 P3 P4 P5 P6 P7 P8 Lm NP P9 P10 P11 B). }
    destruct DC as [c' ->]. apply (grouped_builds name G d _ _ N a valued bs m g c' kinit binit L OK LF Lm) in B as [NP [DV [L' [B _]]]].
    split; [exact NP|]. split; [exact DV|]. split; [exists c'; lia|]. exists L'.
    replace (N * c' / N) with c' by (rewrite Nat.mul_comm, Nat.div_mul by lia; reflexivity). exact B.
  - intros [NP [DV [[c' ->] [L B]]]]. rewrite Nat.div_mul in B by lia. rewrite Nat.mul_comm.
    eexists. apply (grouped_builds name G d _ _ N a valued bs m g c' kinit binit _ OK LF Lm). split; [exact NP|]. split; [exact DV|].
    exists L. split; [exact B|reflexivity].
Qed.

Lemma widen_facts G d E eq tr valued act dom c C o k s dl eb ea same ub f kinit binit (L : conv_layer A) r n :
  conv_facts G d E eq tr valued act dom c C o k s dl eb ea same ub f kinit binit L ->
  conv_facts G d E eq tr valued act dom c C o k s dl eb ea same ub f kinit binit (widen L r n).
Proof. intros []. constructor; assumption. Qed.

Lemma block_merged (valued : bool) d b m g c N j (x : tensor A) : List.length m = d ->
  let C := if valued then g * c else c in
  merged d valued (channel_block valued d b m g c N j x) b m C (fun bi p q => fun3 (merged_signal valued (N * c) g x b m) bi p (j * C + q)).
Proof.
  intros Lm C. set (B := channel_block valued d b m g c N j x).
  assert (WT : List.length (data B) = prod (b :: m ++ [C])) by apply (wf_tab (b :: m ++ [C])).
  assert (WB : wf B).
  { unfold wf. rewrite WT. unfold B, channel_block, read_as. cbn [shape]. unfold signal_shape, C.
    destruct valued; rewrite !prod_cons, !prod_app; f_equal; f_equal; unfold prod; cbn [fold_right]; lia. }
  pose proof (merged_input d valued B b m g c WB Lm eq_refl) as MI. unfold merged in *.
  rewrite MI. f_equal. rewrite <- (merged_signal_eq d valued c g B b m WB Lm eq_refl).
  change (EquivSpec.merged_signal valued c g B b m) with
    (tab (b :: m ++ [C]) (fun i => at_ (merged_signal valued (N * c) g x b m) (firstn (d + 1) i ++ [j * C + nth (d + 1) i 0]))).
  rewrite (tab_sig3 d) by exact Lm. apply sig3_ext; [exact Lm|]. intros bi p q _ P _. pose proof (inb_length _ _ P) as LP.
  unfold fun3. f_equal. rewrite Nat.add_1_r. cbn [firstn nth app]. rewrite firstn_app_exact by lia. rewrite app_nth2 by lia.
  replace (d - List.length p) with 0 by lia. reflexivity.
Qed.

Lemma blocks_of_filters N n o : 0 < N -> Nat.divide N o -> n * o = N * (n * (o / N)).
Proof. intros NP [t ->]. rewrite Nat.div_mul by lia. lia. Qed.

(** What such a layer computes: its output at element [h] and filter [r] is that of the
    layer without [groups] with the same weights, applied to one block of the
    channels.  The number of the block depends on [h]. *)
Theorem C67_each_output_sees_one_block name G N (a : conv_args A) H opt (valued : bool) bs m g c kinit binit L k s dl act :
  layer_for name G a -> ca_subgroup a = Some H -> option_of a opt -> subgroup_indices G H act ->
  let d := dimension_of name in
  let o := ca_filters a in
  let block h r := (h * o + r) / (List.length act * (o / N)) in
  built_grouped d N a (static_signal_shape valued bs m g (N * c)) kinit binit L -> 0 < c -> List.length m = d -> sizes d a k s dl ->
  exists L', built d false a (static_signal_shape valued bs m g c) kinit binit L' /\
    forall x b m', wf x -> List.length m' = d -> shape x = signal_shape valued b m' g (N * c) ->
    (exists Y y, (forall j, j < N -> apply L' (channel_block valued d b m' g c N j x) = Ok (Y j)) /\
       grouped_result L x = Ok y /\ wf y /\
       (exists mo, List.length mo = d /\ shape y = b :: mo ++ [List.length act; o] /\ forall j, j < N -> wf (Y j) /\ shape (Y j) = shape y) /\
       forall bi p h r, List.length p = d -> inb (shape y) (bi :: p ++ [h; r]) ->
         block h r < N /\ at_ y (bi :: p ++ [h; r]) = at_ (Y (block h r)) (bi :: p ++ [h; r])) \/
    (exists e, grouped_result L x = Err e /\ forall j, j < N -> apply L' (channel_block valued d b m' g c N j x) = Err e).
Proof.
  intros LF HS OP SI d o block BG CP Lm SZ. pose proof LF as [DG _]. apply lib_ok in DG as [_ OK]. fold d in OK.
  apply (grouped_builds name G d _ _ N a valued bs m g c kinit binit L OK LF Lm) in BG as [NP [DV [L' [BU EL]]]].
  exists L'. split; [exact BU|]. intros x b m' W Lm' SH.
  destruct (built_facts_at name G d _ _ a H opt false valued bs m g c kinit binit L' k s dl OK LF HS OP BU Lm SZ)
    as [eb [ea [act' [dom [_ [SA [SD [CF [CC _]]]]]]]]].
  assert (act' = act) as -> by (unfold sub_idx in SA; unfold subgroup_indices in SI; congruence).
  destruct (sub_idx_facts _ _ _ _ OK _ _ SA) as [_ [_ [HA _]]].
  assert (NA : 0 < List.length act) by (destruct act; [discriminate HA|cbn [List.length]; lia]). clear HA.
  fold o in CF. set (C := if valued then g * c else c) in *.
  assert (GP : 0 < C).
  { unfold C. destruct valued; [|exact CP]. destruct (SD eq_refl) as [SD' ->].
    destruct (sub_idx_facts _ _ _ _ OK _ _ SD') as [_ [_ [HD _]]]. destruct dom; [discriminate HD|cbn [List.length]; nia]. }
  set (r0 := bs :: map Some m ++ [Some (if valued then g * (N * c) else N * c)]) in EL.
  pose proof (widen_facts _ _ _ _ _ _ _ _ _ _ _ _ _ _ _ _ _ _ _ _ _ L' r0 (N * c) CF) as CF2. rewrite <- EL in CF2.
  assert (CC2 : cl_channels L = Some (N * c)) by (rewrite EL; reflexivity). clear EL r0.
  set (X := fun3 (merged_signal valued (N * c) g x b m')).
  assert (MX : merged d valued x b m' (N * C) X).
  { pose proof (merged_input d valued x b m' g (N * c) W Lm' SH) as MI. unfold merged in *. rewrite MI. f_equal.
    rewrite <- (merged_signal_eq d valued (N * c) g x b m' W Lm' SH).
    replace (N * C) with (if valued then g * (N * c) else N * c) by (unfold C; destruct valued; lia).
    apply tensor_sig3; [|exact Lm'|reflexivity]. unfold wf, EquivSpec.merged_signal, read_as. cbn [data shape].
    unfold wf in W. rewrite W, SH. unfold signal_shape.
    destruct valued; rewrite !prod_cons, !prod_app; f_equal; f_equal; unfold prod; cbn [fold_right]; lia. }
  pose proof (blocks_of_filters N (List.length act) o NP DV) as AO.
  set (F0 := List.length act * (o / N)) in *.
  pose proof (grouped_call_eq G d _ _ OK valued act dom c C o k s dl eb ea (is_same opt) (ca_use_bias a) (ca_activation a) kinit binit
     N F0 L x b m' X CF2 Lm' MX NP GP AO) as GC. cbv zeta in GC.
  assert (BC : forall j, j < N -> conv_call L' (channel_block valued d b m' g c N j x) = _)
    by (intros j J; exact (conv_call_eq G d _ _ OK valued act dom c C o k s dl eb ea (is_same opt) (ca_use_bias a) (ca_activation a)
       kinit binit L' _ b m' _ CF Lm' (block_merged valued d b m' g c N j x Lm'))).
  cbv zeta in BC.
  assert (AC : forall j, apply L' (channel_block valued d b m' g c N j x) = snd (conv_call L' (channel_block valued d b m' g c N j x))).
  { intros j. unfold apply. rewrite (conv_apply_call G d _ _ false valued act dom c C o k s dl eb ea (is_same opt) (ca_use_bias a) (ca_activation a)
      kinit binit L' (channel_block valued d b m' g c N j x) b m' g CF CC Lm' eq_refl). reflexivity. }
  assert (GA : grouped_result L x = snd (grouped_call L x)).
  { unfold grouped_result, grouped_apply, rank. rewrite CC2. destruct CF2. rewrite cf_dims, cf_fmt', SH. cbn [String.eqb Ascii.eqb Bool.eqb].
    assert (LL : List.length (signal_shape valued b m' g (N * c)) = d + 2 + (if valued then 1 else 0)).
    { unfold signal_shape. cbn [List.length]. rewrite app_length. destruct valued; cbn [List.length]; lia. }
    destruct (Nat.ltb_spec (List.length (signal_shape valued b m' g (N * c))) (d + 2)) as [Bad|_]; [lia|].
    replace (nth (List.length (signal_shape valued b m' g (N * c)) - 1) (signal_shape valued b m' g (N * c)) 0) with (N * c);
      [rewrite Nat.eqb_refl; reflexivity|].
    rewrite LL. unfold signal_shape. destruct valued.
    - replace (d + 2 + 1 - 1) with (d + 2) by lia. symmetry. apply (chan_ix2 d b m' g (N * c) []). exact Lm'.
    - replace (d + 2 + 0 - 1) with (d + 1) by lia. symmetry. apply (chan_ix d b m' (N * c) []). exact Lm'. }
  set (ke := vzip dilated k dl) in *. set (m1 := padded eb m' ea) in *.
  set (pads := builtin_pads (padding_string (is_same opt)) m1 ke s) in *.
  set (m2 := padded (map fst pads) m1 (map snd pads)) in *.
  destruct (forallb (fun p => fst p <=? snd p)%nat (combine ke m2)) eqn:FB.
  - left. pose proof CF as CF'. destruct CF'.
    assert (Lm1 : List.length m1 = d) by (apply length_padded; assumption).
    assert (LKE : List.length ke = d) by (unfold ke; rewrite length_vzip; lia).
    assert (LP : List.length pads = d) by (apply length_builtin; assumption).
    assert (Lm2 : List.length m2 = d) by (apply length_padded; rewrite ?map_length; assumption).
    pose proof (length_outs m2 ke s d Lm2 LKE cf_s) as LO.
    eexists (fun j => tab _ _), _. split; [|split].
    + intros j J. rewrite AC, (BC j J). cbn [snd]. reflexivity.
    + rewrite GA, GC. cbn [snd]. reflexivity.
    + split; [apply wf_tab|]. split; [exists (outs m2 ke s); split; [exact LO|]; rewrite shape_tab; split; [reflexivity|intros; split; [apply wf_tab|apply shape_tab]]|].
      intros bi p h r LPp I. rewrite shape_tab in I.
      destruct (inb4_parts _ _ _ _ _ _ _ _ I) as [BI [P [HH RR]]].
      assert (BL : block h r < N).
      { unfold block. fold F0. apply Nat.div_lt_upper_bound; [intros Q; rewrite Q in AO; nia|]. rewrite (Nat.mul_comm F0 N), <- AO. nia. }
      split; [exact BL|]. rewrite !at_tab by exact I. rewrite !sig4_ix by lia. reflexivity.
  - right. exists BackendError. split; [rewrite GA, GC; reflexivity|]. intros j J. rewrite AC, (BC j J). reflexivity.
Qed.

(** With [groups=1] it is the layer without [groups]. *)
Theorem C67_one_group name G (a : conv_args A) H opt (valued : bool) bs m g c kinit binit L k s dl :
  layer_for name G a -> ca_subgroup a = Some H -> option_of a opt ->
  let d := dimension_of name in
  let input := static_signal_shape valued bs m g c in
  (built_grouped d 1 a input kinit binit L <-> built d false a input kinit binit L) /\
  (built d false a input kinit binit L -> 0 < c -> List.length m = d -> sizes d a k s dl ->
   forall x b m', wf x -> List.length m' = d -> shape x = signal_shape valued b m' g c -> grouped_result L x = apply L x).
Proof.
  intros LF HS OP d input. pose proof LF as [DG _]. apply lib_ok in DG as [_ OK]. fold d in OK.
  assert (BB : built_grouped d 1 a input kinit binit L <-> built d false a input kinit binit L).
  { assert (BE : forall L0, conv_init d false a = Ok L0 -> grouped_build 1 L0 input kinit binit = conv_build L0 input kinit binit).
    { intros L0 I. destruct (init_parts name G d _ _ a L0 OK LF I) as [_ [_ [_ [_ [_ [TT _]]]]]].
      unfold grouped_build, conv_build. destruct (gt_build (cl_gt L0) input) as [T|] eqn:GB; cbn [bind]; [|reflexivity].
      assert (TT' : gt_transpose T = false).
      { unfold gt_build in GB. match type of GB with (_ <- ?M ;; _) = _ => destruct M; [|discriminate GB] end. cbn [bind] in GB.
        destruct (padding_build _ _); [|discriminate GB]. cbn [bind] in GB.
        apply (f_equal (fun r => match r with Ok t => gt_transpose t | _ => false end)) in GB. rewrite <- GB. exact TT. }
      rewrite TT'. destruct (py_nth _ _) as [[c'|]|]; cbn [bind]; [|reflexivity|reflexivity].
      rewrite Nat.mod_1_r, Nat.div_1_r. cbn [Nat.eqb]. reflexivity. }
    split; intros [L0 [I B]]; exists L0.
    - apply grouped_init_eq in I as [I _]. split; [exact I|]. rewrite <- BE by exact I. exact B.
    - split; [apply grouped_init_eq; split; [exact I|split; [lia|exists (ca_filters a); lia]]|]. rewrite BE by exact I. exact B. }
  split; [exact BB|]. intros BU CP Lm SZ x b m' W Lm' SH.
  assert (SU : exists act, subgroup_indices G H act).
  { destruct (built_facts_at name G d _ _ a H opt false valued bs m g c kinit binit L k s dl OK LF HS OP BU Lm SZ)
      as [eb [ea [act' [dom [_ [SA _]]]]]]. exists act'. exact SA. }
  destruct SU as [act SI]. pose proof (proj2 BB BU) as BG. unfold input in BG. rewrite <- (Nat.mul_1_l c) in BG.
  destruct (C67_each_output_sees_one_block name G 1 a H opt valued bs m g c kinit binit L k s dl act LF HS OP SI BG CP Lm SZ)
    as [L' [BU' DESC]].
  assert (L' = L) as ->.
  { destruct BU as [L1 [I1 B1]], BU' as [L2 [I2 B2]]. fold d in I2, B2.
    assert (EC : forall u v : conv_layer A, Ok u = Ok v -> u = v) by congruence.
    rewrite I1 in I2. apply EC in I2. subst L2. apply EC. unfold input in B1. rewrite <- B1, <- B2. reflexivity. }
  fold d in DESC.
  assert (BX : channel_block valued d b m' g c 1 0 x = x).
  { set (z := merged_signal valued (1 * c) g x b m'). set (C := if valued then g * c else c).
    assert (Wz : wf z).
    { unfold wf, z, EquivSpec.merged_signal, read_as. cbn [data shape]. unfold wf in W. rewrite W, SH. unfold signal_shape.
      destruct valued; rewrite !prod_cons, !prod_app; f_equal; f_equal; unfold prod; cbn [fold_right]; lia. }
    assert (Sz : shape z = b :: m' ++ [C]) by (unfold z, C; rewrite Nat.mul_1_l; reflexivity).
    assert (BZ : tab (b :: m' ++ [C]) (fun i => at_ z (firstn (d + 1) i ++ [0 * C + nth (d + 1) i 0])) = z).
    { transitivity (tab (shape z) (at_ z)); [rewrite Sz|exact (tab_at z Wz)]. apply tab_ext. intros i I.
      apply inb3_inv in I as [bi [p [q [-> [BI [P Q']]]]]]. pose proof (inb_length _ _ P) as LP.
      rewrite Nat.add_1_r. cbn [firstn nth app Nat.mul Nat.add]. rewrite firstn_app_exact by lia. rewrite app_nth2 by lia.
      replace (d - List.length p) with 0 by lia. reflexivity. }
    unfold channel_block. cbv zeta. fold z C. rewrite BZ. unfold z, EquivSpec.merged_signal, read_as. cbn [data].
    destruct x as [sx dx]. cbn [shape data] in *. rewrite SH. reflexivity. }
  destruct (DESC x b m' W Lm') as [[Y [y [AY [RY [WY [[mo [LMO [SY SYj]]] F]]]]]]|[e [RE AE]]].
  - rewrite Nat.mul_1_l. exact SH.
  - specialize (AY 0 ltac:(lia)). rewrite BX in AY. rewrite RY, AY. f_equal.
    apply tensor_ext; [exact WY|apply (SYj 0); lia|symmetry; apply (SYj 0); lia|].
    intros i I. rewrite SY in I. assert (I' := I). apply inb4_inv in I' as [bi [p [h [r [-> [BI [P [HH RR]]]]]]]].
    rewrite <- SY in I. destruct (F bi p h r ltac:(rewrite (inb_length _ _ P); exact LMO) I) as [B0 E0]. rewrite E0. f_equal. f_equal. lia.
  - specialize (AE 0 ltac:(lia)). rewrite BX in AE. rewrite RE, AE. reflexivity.
Qed.

(** Two signals with the same block [j]. *)
Lemma same_block d b m g c N j (x x' : tensor A) : List.length m = d ->
  shape x = b :: m ++ [N * c] -> shape x' = b :: m ++ [N * c] ->
  (forall bi p q, bi < b -> inb m p -> q < c -> at_ x (bi :: p ++ [j * c + q]) = at_ x' (bi :: p ++ [j * c + q])) ->
  channel_block false d b m g c N j x = channel_block false d b m g c N j x'.
Proof.
  intros Lm SX SX' Q. unfold channel_block. cbv zeta. f_equal. apply tab_ext. intros i I.
  apply inb3_inv in I as [bi [p [q [-> [BI [P Q']]]]]]. pose proof (inb_length _ _ P) as LP.
  rewrite Nat.add_1_r. cbn [firstn nth app]. rewrite firstn_app_exact by lia. rewrite app_nth2 by lia.
  replace (d - List.length p) with 0 by lia. cbn [nth].
  assert (M : forall z : tensor A, shape z = b :: m ++ [N * c] -> merged_signal false (N * c) g z b m = z).
  { intros [sz dz] SZ. cbn [shape] in SZ. unfold EquivSpec.merged_signal, read_as. cbn [data]. rewrite SZ. reflexivity. }
  rewrite !M by assumption. apply Q; assumption.
Qed.

(** Every filter sees different blocks for the first and for the last element. *)
Lemma first_last_blocks n o N r : 1 < n -> 1 < N -> 0 < o -> Nat.divide N o ->
  (0 * o + r) / (n * (o / N)) <> ((n - 1) * o + r) / (n * (o / N)).
Proof.
  intros Hn HN HO [t ->]. rewrite Nat.div_mul by lia. cbn [Nat.mul Nat.add].
  assert (TP : 0 < n * t) by nia.
  assert (Q : n * t <= (n - 1) * (t * N)) by nia.
  intros EQ.
  assert (r / (n * t) + 1 <= ((n - 1) * (t * N) + r) / (n * t)); [|lia].
  rewrite <- (Nat.div_add r 1 (n * t)) by lia. apply Nat.div_le_mono; lia.
Qed.

Lemma transitive G d E eq (OK : group_ok G d E eq) H act h h0 : sub_idx G H act -> h < List.length act -> h0 < List.length act ->
  exists u, u < List.length act /\ turned G (nth u act 0) act h0 = h.
Proof.
  intros SA Hh Hh0. pose proof (ok_is_group _ _ _ _ OK) as GR.
  destruct (sub_idx_facts _ _ _ _ OK _ _ SA) as [ND [BD [HD [_ CL]]]].
  assert (I0 : In 0 act) by (destruct act; [discriminate HD|cbn [hd_error] in HD; injection HD as ->; left; reflexivity]).
  set (e := nth h act 0). set (e0 := nth h0 act 0).
  assert (Ie : In e act) by (apply nth_In; exact Hh). assert (Ie0 : In e0 act) by (apply nth_In; exact Hh0).
  pose proof (BD e Ie) as Be. pose proof (BD e0 Ie0) as Be0.
  assert (IV : forall z, In z act -> In (inv G z) act).
  { intros z Iz. pose proof (CL z 0 Iz I0) as Q. rewrite (group_id_r _ _ _ GR) in Q by (apply (group_inv_closed _ _ _ GR), BD; exact Iz). exact Q. }
  assert (II : forall z, z < List.length E -> inv G (inv G z) = z).
  { intros z Bz. pose proof (group_inv_closed _ _ _ GR z Bz) as Bz'.
    pose proof (group_inv_closed _ _ _ GR _ Bz') as Bz''.
    rewrite <- (group_id_r _ _ _ GR (inv G (inv G z))), <- (group_inv_l _ _ _ GR z) by assumption.
    rewrite (group_assoc _ _ _ GR), (group_inv_l _ _ _ GR (inv G z)), (group_id_l _ _ _ GR) by assumption. reflexivity. }
  set (w := comp G e0 (inv G e)).
  assert (Iw : In w act).
  { unfold w. rewrite <- (II e0) by exact Be0. apply CL; apply IV; assumption. }
  apply (In_nth _ _ 0) in Iw as [u [Hu EU]]. exists u. split; [exact Hu|]. rewrite EU. unfold turned.
  assert (Q : comp G (inv G w) e0 = e).
  { assert (Bi : inv G e < List.length E) by (apply (group_inv_closed _ _ _ GR); exact Be).
    assert (Bw : w < List.length E) by (apply (group_closed _ _ _ GR); assumption).
    assert (Bw' : inv G w < List.length E) by (apply (group_inv_closed _ _ _ GR); exact Bw).
    assert (Q : comp G w e = e0).
    { unfold w. rewrite <- (group_assoc _ _ _ GR), (group_inv_l _ _ _ GR), (group_id_r _ _ _ GR) by assumption. reflexivity. }
    rewrite <- Q at 1. rewrite (group_assoc _ _ _ GR), (group_inv_l _ _ _ GR), (group_id_l _ _ _ GR) by assumption. reflexivity. }
  fold e0. rewrite Q. apply (proj1 (NoDup_nth act 0) ND); [apply index_of_lt; exact Ie|exact Hh|].
  rewrite nth_index_of by exact Ie. reflexivity.
Qed.

Lemma pixel_reached G d E eq (OK : group_ok G d E eq) a m p : a < List.length E -> fit d eq m -> inb m p ->
  exists p0, inb m p0 /\ pixel (nth a E []) m p0 = p.
Proof.
  intros Ha F P. destruct (ok_inv _ _ _ _ OK a Ha) as [Hi [IL _]].
  exists (pixel (nth (inv G a) E []) m p). split; [apply (pixel_in G d E eq OK); assumption|].
  rewrite <- (pixel_after d); [|apply (ok_sym _ _ _ _ OK); exact Hi|apply (ok_sym _ _ _ _ OK); exact Ha|apply F
    |apply (fits_sym G d E eq OK); [apply F|apply F|exact Hi]|apply (fits_sym G d E eq OK); [apply F|apply F|exact Ha]|exact P].
  destruct (ok_comp _ _ _ _ OK (inv G a) a Hi Ha) as [_ <-]. rewrite IL, (ok_id _ _ _ _ OK).
  apply pixel_identity. rewrite (inb_length _ _ P). apply F.
Qed.

(** A layer that lifts signals on the grid, with more than one block and for a subgroup
    with more than one element, is equivariant for signals of some size only if its
    output does not depend on them. *)
Theorem C67_equivariant_only_if_constant name G N (a : conv_args A) H opt bs m g c kinit binit L k s dl act b m' :
  layer_for name G a -> ca_subgroup a = Some H -> option_of a opt -> subgroup_indices G H act ->
  let d := dimension_of name in
  built_grouped d N a (static_signal_shape false bs m g (N * c)) kinit binit L -> 0 < c -> List.length m = d -> sizes d a k s dl ->
  1 < N -> 1 < List.length act ->
  List.length m' = d -> respects name m' ->
  (forall x, wf x -> shape x = b :: m' ++ [N * c] ->
     commutes_at (transforms_of_grid_signal G d H) (transforms_of_group_signal G d H H) (grouped_result L) x) ->
  forall x x' y y', wf x -> wf x' -> shape x = b :: m' ++ [N * c] -> shape x' = b :: m' ++ [N * c] ->
  grouped_result L x = Ok y -> grouped_result L x' = Ok y' -> y = y'.
Proof.
  intros LF HS OP SI d BG CP Lm SZ N2 A2 Lm' RS CM x x' y y' Wx Wx' Sx Sx' Ry Ry'.
  pose proof LF as [DG _]. apply lib_ok in DG as [_ OK]. fold d in OK.
  assert (SA : sub_idx G (Some H) act) by exact SI.
  destruct (sub_idx_facts _ _ _ _ OK _ _ SA) as [ND [BD _]].
  assert (FIT : fit d (needs_equal_sizes name) m') by (split; [exact RS|exact Lm']).
  set (o := ca_filters a). set (block := fun h r => (h * o + r) / (List.length act * (o / N))).
  assert (DV : Nat.divide N o).
  { destruct BG as [L0 [I _]]. apply grouped_init_eq in I as [_ [_ DV]]. exact DV. }
  destruct (C67_each_output_sees_one_block name G N a H opt false bs m g c kinit binit L k s dl act LF HS OP SI BG CP Lm SZ)
    as [L' [_ DESC]]. fold d o in DESC.
  assert (EY : forall u v : tensor A, Ok u = Ok v -> u = v) by congruence.
  assert (SG : forall mo : list nat, b :: mo ++ [N * c] = signal_shape false b mo g (N * c)) by reflexivity.
  (* two signals that share a block *)
  assert (KEY : forall z1 z2 w1 j, wf z1 -> wf z2 -> shape z1 = b :: m' ++ [N * c] -> shape z2 = b :: m' ++ [N * c] -> j < N ->
     (forall bi p q, bi < b -> inb m' p -> q < c -> at_ z1 (bi :: p ++ [j * c + q]) = at_ z2 (bi :: p ++ [j * c + q])) ->
     grouped_result L z1 = Ok w1 ->
     exists w2, grouped_result L z2 = Ok w2 /\ wf w1 /\ wf w2 /\ shape w1 = shape w2 /\
       (exists mo, List.length mo = d /\ shape w1 = b :: mo ++ [List.length act; o]) /\
       forall bi p h r, List.length p = d -> inb (shape w1) (bi :: p ++ [h; r]) ->
         block h r < N /\ (block h r = j -> at_ w1 (bi :: p ++ [h; r]) = at_ w2 (bi :: p ++ [h; r]))).
  { intros z1 z2 w1 j V1 V2 S1 S2 J AG R1. pose proof (same_block d b m' g c N j z1 z2 Lm' S1 S2 AG) as BE.
    destruct (DESC z1 b m' V1 Lm' S1) as [[Y1 [v1 [A1 [Q1 [VV1 [[mo1 [LM1 [SV1 SY1]]] F1]]]]]]|[e [Q1 _]]]; [|congruence].
    rewrite Q1 in R1. apply EY in R1. subst v1.
    destruct (DESC z2 b m' V2 Lm' S2) as [[Y2 [v2 [A2' [Q2 [VV2 [[mo2 [LM2 [SV2 SY2]]] F2]]]]]]|[e [_ A2']]];
      [|specialize (A2' j J); rewrite <- BE, (A1 j J) in A2'; discriminate A2'].
    assert (YY : Y1 j = Y2 j) by (apply EY; rewrite <- (A1 j J), <- (A2' j J), BE; reflexivity).
    exists v2. split; [exact Q2|]. split; [exact VV1|]. split; [exact VV2|].
    assert (SS : shape w1 = shape v2) by (rewrite <- (proj2 (SY1 j J)), <- (proj2 (SY2 j J)), YY; reflexivity).
    split; [exact SS|]. split; [exists mo1; split; [exact LM1|exact SV1]|]. intros bi p h r LP IN.
    destruct (F1 bi p h r LP IN) as [B1 E1]. rewrite SS in IN. destruct (F2 bi p h r LP IN) as [B2 E2].
    split; [exact B1|]. intros BJ. rewrite E1, E2. fold (block h r). rewrite BJ, YY. reflexivity. }
  (* one block of x, the other blocks of x' *)
  set (mix := fun j => tab (b :: m' ++ [N * c]) (sig3 d (fun bi p q => if (q / c =? j)%nat then at_ x (bi :: p ++ [q]) else at_ x' (bi :: p ++ [q])))).
  assert (IC : forall j q, q < c -> (j * c + q) / c = j).
  { intros j q Q. rewrite Nat.add_comm, Nat.div_add, Nat.div_small by lia. reflexivity. }
  assert (LT : forall j q, j < N -> q < c -> j * c + q < N * c) by (intros; nia).
  assert (MX : forall j, j < N -> forall bi p q, bi < b -> inb m' p -> q < c -> at_ x (bi :: p ++ [j * c + q]) = at_ (mix j) (bi :: p ++ [j * c + q])).
  { intros j J bi p q BI P Q. unfold mix. rewrite (at_sig3 d) by (try apply LT; assumption). rewrite IC by exact Q. rewrite Nat.eqb_refl. reflexivity. }
  assert (MX' : forall j j', j' < N -> j' <> j -> forall bi p q, bi < b -> inb m' p -> q < c ->
     at_ (mix j) (bi :: p ++ [j' * c + q]) = at_ x' (bi :: p ++ [j' * c + q])).
  { intros j j' J NE bi p q BI P Q. unfold mix. rewrite (at_sig3 d) by (try apply LT; assumption). rewrite IC by exact Q.
    destruct (Nat.eqb_spec j' j); [contradiction|reflexivity]. }
  assert (WM : forall j, wf (mix j)) by (intros; apply wf_tab).
  assert (SM : forall j, shape (mix j) = b :: m' ++ [N * c]) by (intros; apply shape_tab).
  destruct (KEY x (mix 0) y 0 Wx (WM 0) Sx (SM 0) ltac:(lia) (MX 0 ltac:(lia)) Ry) as [y0 [R0 [WY [W0 [S0 [[mo [LMO SY]] _]]]]]].
  destruct (KEY (mix 0) x' y0 1 (WM 0) Wx' (SM 0) Sx' N2 (MX' 0 1 N2 ltac:(lia)) R0) as [y1 [R1 [_ [WY' [S1 _]]]]].
  rewrite Ry' in R1. apply EY in R1. subst y1.
  assert (SY' : shape y' = b :: mo ++ [List.length act; o]) by congruence.
  apply tensor_ext; [exact WY|exact WY'|congruence|]. rewrite SY. intros i I.
  apply inb4_inv in I as [bi [p [h [r [-> [BI [P [HH RR]]]]]]]]. pose proof (inb_length _ _ P) as LP. rewrite LMO in LP.
  assert (IN : inb (shape y) (bi :: p ++ [h; r])) by (rewrite SY; apply inb4; assumption).
  set (j := block h r).
  assert (J : j < N).
  { destruct (KEY x x y 0 Wx Wx Sx Sx ltac:(lia) ltac:(reflexivity) Ry) as [w9 [_ [_ [_ [_ [_ Q]]]]]]. apply (Q bi p h r LP IN). }
  destruct (KEY x (mix j) y j Wx (WM j) Sx (SM j) J (MX j J) Ry) as [y2 [R2 [_ [W2 [S2 [_ F2]]]]]].
  destruct (F2 bi p h r LP IN) as [_ E2]. rewrite (E2 eq_refl). clear E2 F2.
  (* an element that sees another block *)
  assert (HB : exists h0, h0 < List.length act /\ block h0 r <> j).
  { pose proof (first_last_blocks (List.length act) o N r A2 N2 ltac:(lia) DV) as FL.
    destruct (Nat.eq_dec (block 0 r) j) as [Q|Q]; [|exists 0; split; [lia|exact Q]].
    exists (List.length act - 1). split; [lia|]. intros Q'. apply FL. unfold block in Q, Q'. congruence. }
  destruct HB as [h0 [HH0 NJ]].
  destruct (transitive G d _ _ OK (Some H) act h h0 SA HH HH0) as [u [U TU]].
  assert (AU : nth u act 0 < List.length (symmetries_of name)) by (apply BD, nth_In; exact U).
  assert (ST : forall v, In v act -> stable G v act) by (intros v V; apply (stable_of G d _ _ OK (Some H)); assumption).
  (* what equivariance says about a signal *)
  assert (EQV : forall z w, wf z -> shape z = b :: m' ++ [N * c] -> grouped_result L z = Ok w -> wf w -> shape w = b :: mo ++ [List.length act; o] ->
     fit d (needs_equal_sizes name) mo /\
     grouped_result L (tab (b :: m' ++ [N * c]) (sig3 d (moved3 (symmetries_of name) (nth u act 0) m' (fun3 z))))
     = Ok (tab (b :: mo ++ [List.length act; o]) (sig4 d (moved4 G (symmetries_of name) (nth u act 0) mo act (fun4 w))))).
  { intros z w Wz Sz Rz Ww Sw. pose proof (CM z Wz Sz) as CZ. unfold commutes_at in CZ.
    pose proof (tensor_sig3 d b m' (N * c) z Wz Lm' Sz) as Ez.
    pose proof (tensor_sig4 d b mo (List.length act) o w Ww LMO Sw) as Ew.
    destruct (grid_slices_ok G d _ _ OK b m' (N * c) (fun3 z) None (Some H) act SA FIT) as [gz [RG [SGZ SLZ]]].
    rewrite <- Ez in RG. destruct (CZ gz w RG Rz) as [gw [RW [_ CU]]].
    assert (UG : u < nth 0 (shape gz) 0) by (rewrite SGZ; exact U).
    specialize (CU u UG). rewrite (SLZ u U) in CU.
    unfold transforms_of_group_signal in RW. rewrite Ew in RW.
    apply (group_slices G d _ _ OK) with (idx := act) (dom := act) in RW as [FO [_ SLW]]; [|exact SA|exact SA|reflexivity|exact LMO|exact ST].
    split; [exact FO|]. rewrite CU, (SLW u U). reflexivity. }
  destruct (EQV (mix j) y2 (WM j) (SM j) R2 W2 ltac:(congruence)) as [FO V2].
  destruct (EQV x' y' Wx' Sx' Ry' WY' SY') as [_ V'].
  destruct (pixel_reached G d _ _ OK (nth u act 0) mo p AU FO P) as [p0 [P0 PP]].
  assert (J0 : block h0 r < N).
  { destruct (KEY x x y 0 Wx Wx Sx Sx ltac:(lia) ltac:(reflexivity) Ry) as [w9 [_ [_ [_ [_ [_ Q]]]]]]. apply (Q bi p h0 r LP).
    rewrite SY. apply inb4; assumption. }
  set (mv := fun z : tensor A => tab (b :: m' ++ [N * c]) (sig3 d (moved3 (symmetries_of name) (nth u act 0) m' (fun3 z)))).
  assert (MV : forall bi p q, bi < b -> inb m' p -> q < c ->
     at_ (mv (mix j)) (bi :: p ++ [block h0 r * c + q]) = at_ (mv x') (bi :: p ++ [block h0 r * c + q])).
  { intros bi' p' q BI' P' Q. unfold mv. rewrite !(at_sig3 d) by (try apply LT; assumption). unfold moved3, fun3.
    apply MX'; try assumption. apply (pixel_in G d _ _ OK); assumption. }
  destruct (KEY (mv (mix j)) (mv x') _ (block h0 r) (wf_tab _ _) (wf_tab _ _) (shape_tab _ _) (shape_tab _ _) J0 MV V2) as [w [R3 [_ [_ [_ [_ F3]]]]]].
  unfold mv in R3.
  rewrite V' in R3. apply EY in R3. subst w.
  destruct (F3 bi p0 h0 r ltac:(rewrite (inb_length _ _ P0); exact LMO) ltac:(rewrite shape_tab; apply inb4; assumption)) as [_ E3].
  specialize (E3 eq_refl). rewrite !(at_sig4 d) in E3 by assumption. unfold moved4, fun4 in E3. rewrite TU, PP in E3. exact E3.
Qed.
(** A call that returns leaves the layer as it was. *)
Theorem C67_calls_leave_the_layer (L : conv_layer A) x y :
  snd (grouped_apply L x) = Ok y -> grouped_apply L x = (L, Ok y).
Proof.
  unfold grouped_apply. destruct (_ <? _)%nat; [discriminate|].
  assert (K : snd (grouped_call L x) = Ok y -> grouped_call L x = (L, Ok y)).
  { unfold grouped_call. destruct (cl_kernel L) as [kernel|] eqn:EK; [|discriminate].
    destruct (prepare_call _ _ _ _ _) as [[[[k b] f] x']|e]; [|discriminate].
    destruct (bind _ _) as [y'|e]; cbn [snd]; [|discriminate]. intros E. assert (y' = y) as -> by congruence. f_equal.
    rewrite <- EK, set_weights_set. apply set_weights_id. }
  destruct (cl_channels L); [|exact K]. destruct (_ =? _)%nat; [exact K|discriminate].
Qed.

End Grouped.
Print Assumptions C67_when_they_build.
Print Assumptions C67_each_output_sees_one_block.
Print Assumptions C67_one_group.
Print Assumptions C67_calls_leave_the_layer.
Print Assumptions C67_equivariant_only_if_constant.

(** ** Examples over the integers *)

Definition test_grouped (d N : nat) (a : conv_args Z) (input : sshape) (kinit binit : list nat -> Z) : result (conv_layer Z) :=
  L0 <- grouped_init d N a ;; grouped_build N L0 input kinit binit.

Lemma test_grouped_built d N a input kinit binit L :
  test_grouped d N a input kinit binit = Ok L -> built_grouped d N a input kinit binit L.
Proof.
  unfold test_grouped, built_grouped. destruct (grouped_init d N a) as [L0|]; [|discriminate]. cbn [bind]. intros B. exists L0. split; [reflexivity|exact B].
Qed.

Lemma grouped_fails_ok d N a input kinit binit tin tout x :
  match test_grouped d N a input kinit binit with Ok L => negb (commutes_b tin tout (grouped_result L) x) | Err _ => false end = true ->
  exists L, built_grouped d N a input kinit binit L /\ ~ commutes_at tin tout (grouped_result L) x.
Proof.
  destruct (test_grouped d N a input kinit binit) as [L|] eqn:T; [|discriminate]. intros B. exists L.
  split; [apply test_grouped_built; exact T|]. intros C. apply commutes_b_ok in C. rewrite C in B. discriminate B.
Qed.

(** A layer with two blocks for P4 builds, runs and is not equivariant, on the grid and on the group. *)
Theorem C67_grouped_lifting_is_equivariant_refuted :
  exists L, built_grouped 2 2 (with_group "P4" "" (One 3) 2 None (Some (Some "same_equiv")) None true) [None; Some 3; Some 3; Some 2] some_weights some_weights L /\
    ~ commutes_at (transforms_of_grid_signal P4 2 "") (transforms_of_group_signal P4 2 "" "") (grouped_result L) (some_signal [1; 3; 3; 2]).
Proof. apply grouped_fails_ok. vm_compute. reflexivity. Qed.
Print Assumptions C67_grouped_lifting_is_equivariant_refuted.

Theorem C67_grouped_layer_on_the_group_is_equivariant_refuted :
  exists L, built_grouped 2 2 (with_group "P4" "" (One 1) 2 None (Some (Some "valid_equiv")) None false) [None; Some 2; Some 2; Some 4; Some 2] some_weights some_weights L /\
    ~ commutes_at (transforms_of_group_signal P4 2 "" "") (transforms_of_group_signal P4 2 "" "") (grouped_result L) (some_signal [1; 2; 2; 4; 2]).
Proof. apply grouped_fails_ok. vm_compute. reflexivity. Qed.
Print Assumptions C67_grouped_layer_on_the_group_is_equivariant_refuted.

(** PMw has two elements: with two blocks and a kernel of one pixel that multiplies by 1, the first element of
    the output is the first channel of the input, the second element the second channel. *)
Definition one_pixel : conv_args Z :=
  mkConvArgs (ByName "PMw") (Some "") (One 1) 2 None (Some (Some "valid_equiv")) None "channels_last" false false (fun z => z).
Example C67_case :
  match test_grouped 2 2 one_pixel [None; Some 1; Some 2; Some 2] (fun _ => 1%Z) (fun _ => 0%Z) with
  | Ok L => match grouped_result L (mkTensor [1; 1; 2; 2] [10; 20; 30; 40]%Z) with
            | Ok y => Some (shape y, data y) | Err _ => None end
  | Err _ => None end = Some ([1; 1; 2; 2; 2], [10; 10; 20; 20; 30; 30; 40; 40]%Z).
Proof. vm_compute. reflexivity. Qed.

(** The blocks must divide the filters and the channels. *)
Example C67_odd_filters : test_grouped 2 2 (with_group "P4" "" (One 3) 3 None None None true) [None; Some 3; Some 3; Some 2] some_weights some_weights = Err ValueError.
Proof. vm_compute. reflexivity. Qed.
Example C67_odd_channels : test_grouped 2 2 (with_group "P4" "" (One 3) 2 None None None true) [None; Some 3; Some 3; Some 3] some_weights some_weights = Err ValueError.
Proof. vm_compute. reflexivity. Qed.

(** The hypothesis of [C67_equivariant_only_if_constant] can hold: with the kernel 0 the layer returns its bias. *)
Example C67_constant_layer :
  match test_grouped 2 2 one_pixel [None; Some 1; Some 2; Some 2] (fun _ => 0%Z) (fun _ => 0%Z) with
  | Ok L => commutes_b (transforms_of_grid_signal PMw 2 "") (transforms_of_group_signal PMw 2 "" "") (grouped_result L) (some_signal [1; 1; 2; 2])
  | Err _ => false end = true.
Proof. vm_compute. reflexivity. Qed.
