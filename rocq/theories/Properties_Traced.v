(** C64: calls on inputs whose sizes are partly unknown. *)
From Verif Require Import TracedFacts Properties_Padding Properties_Config Properties_Build Properties_Shapes Properties_Pooling Properties_Unknown.
Local Open Scope string_scope.
Local Open Scope list_scope.

Lemma known_or_not (sp : sshape) : In None sp \/ exists m, sp = map Some m.
Proof.
  induction sp as [|[v|] sp IH]; [right; exists []; reflexivity| |left; left; reflexivity].
  destruct IH as [IH|[m ->]]; [left; right; exact IH|right; exists (v :: m); reflexivity].
Qed.

Lemma partly_known_Some valued bs m g c : partly_known_shape valued bs (map Some m) g c = static_signal_shape valued bs m g c.
Proof. reflexivity. Qed.

Section Traced.
Context {A : Type} {RA : Arith A}.

Lemma traced_ignores_reshaped u (L : conv_layer A) r x : snd (conv_apply_traced u (cl_with_reshaped L r) x) = snd (conv_apply_traced u L x).
Proof.
  unfold conv_apply_traced, cl_with_reshaped. cbn [cl_set_gt cl_gt gt_dims with_reshaped cl_format cl_channels].
  destruct (_ <? _)%nat; [reflexivity|].
  assert (Q : snd (conv_call_traced u (cl_set_gt L (with_reshaped (cl_gt L) r)) x) = snd (conv_call_traced u L x)).
  { unfold conv_call_traced. cbn [cl_set_gt cl_gt cl_kernel cl_bias cl_filters].
    destruct (cl_kernel L) as [w|]; [|reflexivity].
    change (prepare_call_traced u (with_reshaped (cl_gt L) r) w (cl_bias L) (cl_filters L) x) with (prepare_call_traced u (cl_gt L) w (cl_bias L) (cl_filters L) x).
    destruct (prepare_call_traced _ _ _ _ _ _) as [[[[w' b'] f'] x']|]; [|reflexivity].
    cbn [cl_set_weights cl_gt cl_format cl_strides cl_dilation cl_padding cl_filters cl_activation cl_bias gt_transpose with_reshaped].
    destruct (base_conv_call _ _ _ _ _ _ _ _ _ _) as [y|]; [|reflexivity]. cbn [bind].
    change (restore_group_axis_traced u (with_reshaped (cl_gt L) r) y) with (restore_group_axis_traced u (cl_gt L) y).
    destruct (restore_group_axis_traced _ _ y); reflexivity. }
  destruct (cl_channels L) as [c|]; [|exact Q]. destruct (_ =? _)%nat; [exact Q|reflexivity].
Qed.

(** A layer built for partly unknown sizes computes what one built for known sizes does. *)
Lemma built_for_some_sizes name G (a : conv_args A) opt (tr valued : bool) bs sp g c kinit binit L :
  layer_for name G a -> option_of a opt ->
  let d := dimension_of name in
  List.length sp = d -> built d tr a (partly_known_shape valued bs sp g c) kinit binit L ->
  exists m L', List.length m = d /\ built d tr a (static_signal_shape valued bs m g c) kinit binit L' /\
    (forall x, apply L x = apply L' x) /\ forall u x, snd (conv_apply_traced u L x) = snd (conv_apply_traced u L' x).
Proof.
  intros LF OP d Lp B. destruct (known_or_not sp) as [N|[m ->]].
  2:{ exists m, L. rewrite map_length in Lp. split; [exact Lp|]. split; [exact B|]. split; reflexivity. }
  pose proof B as [L0 [I B0]].
  assert (AL : In opt ["SAME"; "VALID"] /\ ca_allow a = true).
  { destruct OP as [p [PN UP]]. pose proof LF as [DG [AG AF]].
    destruct (conv_init_inv G d name tr a L0 DG AG AF I) as [p0 [k0 [s0 [dl0 [Hn [PN0 [_ [_ [_ [_ [_ [_ [_ [_ [P [PI EL]]]]]]]]]]]]]]]].
    unfold padding_name in PN0. rewrite PN in PN0. injection PN0 as <-.
    pose proof (padding_init_inv _ _ _ _ _ _ _ _ PI) as [Eo [_ [_ [Ea [Ed [_ [_ [Ef _]]]]]]]].
    rewrite EL in B0. unfold conv_build in B0. cbn [cl_gt] in B0.
    rewrite (gt_build_partly_known _ d valued bs sp g c) in B0 by (exact Lp || reflexivity). cbn [gt_padding] in B0.
    destruct (mem_str (pl_option P) ["SAME"; "VALID"] && pl_allow P) eqn:NP.
    - apply andb_true_iff in NP as [N1 N2]. rewrite Eo, UP in N1. rewrite Ea in N2. split; [|exact N2].
      cbn [mem_str existsb] in N1. destruct (String.eqb_spec opt "SAME") as [<-|_]; [left; reflexivity|].
      destruct (String.eqb_spec opt "VALID") as [<-|_]; [right; left; reflexivity|discriminate N1].
    - exfalso. rewrite (padding_build_unknown P d) in B0 by assumption. destruct (before_padding _ valued g); discriminate B0. }
  destruct AL as [OA AL].
  destruct (proj1 (C63_unknown_sizes_are_accepted name G a opt tr valued bs sp g c kinit binit L0 LF OP OA AL I Lp)) as [m [L' [[Lm _] B']]]; [exists L; exact B0|].
  fold d in Lm. exists m, L'. rewrite Lp in Lm. split; [exact Lm|]. split; [exists L0; split; [exact I|exact B']|].
  pose proof LF as [DG [AG AF]]. destruct OP as [p [PN UP]].
  destruct (conv_init_inv G d name tr a L0 DG AG AF I) as [p0 [k [s [dl [Hn [PN0 [SK [SS [SD _]]]]]]]]].
  unfold padding_name in PN0. rewrite PN in PN0. injection PN0 as <-.
  assert (PL : is_plain (upper p) && ca_allow a = true) by (rewrite UP, AL; destruct OA as [<-|[<-|[]]]; reflexivity).
  destruct (conv_build_partly_known name G tr a d L0 p k s dl valued bs g c kinit binit DG AG AF I PN PL SK SS SD) as [R H].
  pose proof (H sp Lp) as H1. cbv zeta in H1. rewrite B0 in H1. destruct H1 as [L1 [R1 [-> _]]].
  pose proof (H (map Some m) ltac:(rewrite map_length; exact Lm)) as H2. cbv zeta in H2. rewrite partly_known_Some, B' in H2. destruct H2 as [L2 [R2 [-> _]]].
  assert (L2 = L1) as -> by congruence. split; intros; unfold apply; rewrite ?call_ignores_reshaped, ?traced_ignores_reshaped; reflexivity.
Qed.

(** [unknown ax] says that the size of axis [ax] (0 for the batch, then the spatial
    axes) is not known while the call is traced.  As long as this is one axis only,
    calls compute what they do when all sizes are known. *)
Theorem C64_one_unknown_size name G (a : conv_args A) H opt (tr valued : bool) bs sp g c kinit binit L :
  layer_for name G a -> ca_subgroup a = Some H -> option_of a opt ->
  let d := dimension_of name in
  List.length sp = d -> built d tr a (partly_known_shape valued bs sp g c) kinit binit L ->
  forall unknown, (forall ax, d < ax -> unknown ax = false) -> (forall i j, unknown i = true -> unknown j = true -> i = j) ->
  forall x b m, wf x -> List.length m = d -> shape x = signal_shape valued b m g c -> (forall n, In n (shape x) -> 0 < n) ->
  snd (conv_apply_traced unknown L x) = apply L x.
Proof.
  intros LF HS OP d Lp B u U O x b m W Lm SH P.
  destruct (built_for_some_sizes name G a opt tr valued bs sp g c kinit binit L LF OP Lp B) as [m0 [L' [Lm0 [B' [E1 E2]]]]].
  rewrite E1, E2. fold d in B', Lm0.
  assert (SZ : exists k s dl, sizes d a k s dl).
  { destruct B' as [L0 [I _]]. pose proof LF as [DG [AG AF]].
    destruct (conv_init_inv G d name tr a L0 DG AG AF I) as [p0 [k [s [dl [Hn [PN0 [SK [SS [SD _]]]]]]]]].
    exists k, s, dl. split; [exact SK|]. split; [exact SS|exact SD]. }
  destruct SZ as [k [s [dl SZ]]].
  destruct (built_facts name G a H opt tr valued bs m0 g c kinit binit L' k s dl LF HS OP B' Lm0 SZ)
    as [OK [eb [ea [act [dom [WO [SA [SD [CF [CC [KS [RS PO]]]]]]]]]]]]. fold d in OK, CF.
  unfold apply. f_equal.
  apply (conv_call_one_unknown G d _ _ OK tr valued act dom c (if valued then g * c else c) (ca_filters a) k s dl eb ea (is_same opt) (ca_use_bias a) (ca_activation a)
    kinit binit u L' x b m g CF CC eq_refl Lm W SH P). split; assumption.
Qed.

(** If two sizes are unknown, every call raises. *)
Theorem C64_two_unknown_sizes name G (a : conv_args A) H opt (tr valued : bool) bs sp g c kinit binit L :
  layer_for name G a -> ca_subgroup a = Some H -> option_of a opt ->
  let d := dimension_of name in
  List.length sp = d -> built d tr a (partly_known_shape valued bs sp g c) kinit binit L ->
  forall unknown i j, (forall ax, d < ax -> unknown ax = false) -> i <> j -> unknown i = true -> unknown j = true ->
  forall x b m, wf x -> List.length m = d -> shape x = signal_shape valued b m g c ->
  exists e, snd (conv_apply_traced unknown L x) = Err e.
Proof.
  intros LF HS OP d Lp B u i j U NE UI UJ x b m W Lm SH.
  destruct (built_for_some_sizes name G a opt tr valued bs sp g c kinit binit L LF OP Lp B) as [m0 [L' [Lm0 [B' [_ E2]]]]].
  rewrite E2. fold d in B', Lm0.
  assert (SZ : exists k s dl, sizes d a k s dl).
  { destruct B' as [L0 [I _]]. pose proof LF as [DG [AG AF]].
    destruct (conv_init_inv G d name tr a L0 DG AG AF I) as [p0 [k [s [dl [Hn [PN0 [SK [SS [SD _]]]]]]]]].
    exists k, s, dl. split; [exact SK|]. split; [exact SS|exact SD]. }
  destruct SZ as [k [s [dl SZ]]].
  destruct (built_facts name G a H opt tr valued bs m0 g c kinit binit L' k s dl LF HS OP B' Lm0 SZ)
    as [OK [eb [ea [act [dom [WO [SA [SD [CF [CC [KS [RS PO]]]]]]]]]]]]. fold d in OK, CF.
  apply (conv_call_two_unknown G d _ _ OK tr valued act dom c (if valued then g * c else c) (ca_filters a) k s dl eb ea (is_same opt) (ca_use_bias a) (ca_activation a)
    kinit binit u L' x b m g CF CC eq_refl Lm W SH). split; [exact U|]. exists i, j. split; [exact NE|]. split; assumption.
Qed.

End Traced.

(** The same for pooling layers. *)
Section Pooling.
Context {A : Type} {RA : Arith A} {PA : Pool A}.

Lemma pooling_for_some_sizes name G d (a : pool_args) opt t bs sp g c L :
  pooling_for name G a -> pool_option a opt ->
  List.length sp = d -> pooling_built d t a (partly_known_shape true bs sp g c) L ->
  exists m L', List.length m = d /\ pooling_built d t a (bs :: map Some m ++ [Some g; Some c]) L' /\
    (forall x : tensor A, pool_call L x = pool_call L' x) /\ forall u (x : tensor A), pool_call_traced u L x = pool_call_traced u L' x.
Proof.
  intros [DG [AG AF]] [p [PN UP]] Lp [L0 [I B]]. destruct (known_or_not sp) as [N|[m ->]].
  2:{ exists m, L. rewrite map_length in Lp. split; [exact Lp|]. split; [exists L0; split; [exact I|exact B]|]. split; reflexivity. }
  destruct (pool_init_gt d t a L0 AF I) as [D [F [CA [GA [p0 [PN0 [Eo [Ea [Ed Ef]]]]]]]]]. rewrite PN in PN0. injection PN0 as <-.
  unfold pool_build in B. rewrite (gt_build_partly_known _ d true bs sp g c D F CA GA Lp) in B.
  destruct (mem_str (pl_option (gt_padding (po_gt L0))) ["SAME"; "VALID"] && pl_allow (gt_padding (po_gt L0))) eqn:NP.
  2:{ exfalso. rewrite (padding_build_unknown _ d) in B by assumption. destruct (before_padding _ true g); discriminate B. }
  assert (PB : forall r, padding_build (gt_padding (po_gt L0)) r = Ok (set_needs (gt_padding (po_gt L0)) false (pl_pads (gt_padding (po_gt L0))))).
  { intros r. apply padding_build_allowed. exact NP. }
  rewrite PB in B.
  destruct (before_padding _ true g) as [u|] eqn:BP; [|discriminate B]. cbn [bind] in B.
  unfold gt_build_pool in B. cbn [gt_set_build gt_group gt_subgroup gt_bias_indices gt_kernel_indices] in B.
  destruct (dict_get (g_cosets _) _) as [cos|] eqn:DC; [|discriminate B]. cbn [bind] in B.
  destruct (take _ (vec cos) 1) as [i1|] eqn:T1; [|discriminate B]. cbn [bind] in B.
  destruct (dict_get (g_subgroup _) _) as [sub|] eqn:DS; [|discriminate B]. cbn [bind] in B.
  destruct (take i1 (vec sub) 0) as [i2|] eqn:T2; [|discriminate B]. cbn [bind] in B.
  exists (repeat 0 d). eexists. split; [apply repeat_length|]. split.
  - exists L0. split; [exact I|]. unfold pool_build.
    change (bs :: map Some (repeat 0 d) ++ [Some g; Some c]) with (partly_known_shape true bs (map Some (repeat 0 d)) g c).
    rewrite (gt_build_partly_known _ d true bs _ g c D F CA GA) by (rewrite map_length; apply repeat_length). rewrite PB, BP. cbn [bind].
    unfold gt_build_pool. cbn [gt_set_build gt_group gt_subgroup gt_bias_indices gt_kernel_indices]. rewrite DC. cbn [bind]. rewrite T1. cbn [bind]. rewrite DS. cbn [bind]. rewrite T2. cbn [bind]. reflexivity.
  - assert (E : forall u v : pool_layer, Ok u = Ok v -> u = v) by congruence. apply E in B. rewrite <- B. split; reflexivity.
Qed.

Lemma traced_pooling_facts name G d t (a : pool_args) H opt bs m g c L :
  pooling_for name G a -> pa_subgroup a = Some H -> pool_option a opt ->
  pooling_built d t a (bs :: map Some m ++ [Some g; Some c]) L -> List.length m = d ->
  po_format L = "channels_last" /\ g = List.length (symmetries_of name) /\
  group_ok G (dimension_of name) (symmetries_of name) (needs_equal_sizes name) /\
  (mem_str (lower (po_padding L)) ["valid"; "same"] = true ->
   exists k s eb ea sub cos, sub <> [] /\ pool_facts (A := A) G d (symmetries_of name) sub cos k s eb ea (is_same opt) t L).
Proof.
  intros [DG [AG AF]] HS [p [PN UP]] [L0 [I B]] Lm.
  pose proof DG as DG'. apply lib_ok in DG' as [_ OK].
  destruct (pool_build_inv (A := A) G d _ _ OK name t a L0 bs m g c L DG AG AF I Lm B)
    as [p' [k' [s0 [s' [eb [ea [sub [cos [Hn [PN' [SK' [SS0 [SS' [WO [PS [DS [DC [SA [GN [F [P [PI PB]]]]]]]]]]]]]]]]]]]]]].
  unfold pool_padding_name in PN'. rewrite PN in PN'. injection PN' as <-. rewrite UP in F.
  split; [exact (pool_format _ _ _ _ _ _ _ _ _ AF I B)|]. split; [exact GN|]. split; [exact OK|]. intros M.
  exists k', s0, eb, ea, sub, cos. split; [|exact (F M)].
  destruct (sub_idx_facts _ _ _ _ OK _ _ SA) as [_ [_ [HA _]]]. intros ->. discriminate HA.
Qed.

Theorem C64_pooling_one_unknown_size name G d t (a : pool_args) H opt bs sp g c L :
  pooling_for name G a -> pa_subgroup a = Some H -> pool_option a opt ->
  List.length sp = d -> pooling_built d t a (partly_known_shape true bs sp g c) L ->
  forall unknown, (forall ax, d < ax -> unknown ax = false) -> (forall i j, unknown i = true -> unknown j = true -> i = j) ->
  forall (x : tensor A) b m, wf x -> List.length m = d -> shape x = b :: m ++ [g; c] -> (forall n, In n (shape x) -> 0 < n) ->
  forall y, pool_call_traced unknown L x = Ok y <-> pool_call L x = Ok y.
Proof.
  intros PF HS OP Lp B u U O x b m W Lm SH P y.
  destruct (pooling_for_some_sizes name G d a opt t bs sp g c L PF OP Lp B) as [m0 [L' [Lm0 [B' [E1 E2]]]]].
  rewrite E1, E2.
  destruct (traced_pooling_facts name G d t a H opt bs m0 g c L' PF HS OP B' Lm0) as [PFm [GN [OK F]]].
  assert (Q : mem_str (lower (po_padding L')) ["valid"; "same"] = true -> pool_call_traced u L' x = pool_call L' x).
  { intros M. destruct (F M) as [k [s [eb [ea [sub [cos [NE PFs]]]]]]]. rewrite GN in SH.
    apply (pool_call_one_unknown G d _ _ OK u sub cos k s eb ea (is_same opt) t L' x b m c PFs NE Lm W SH P). split; assumption. }
  split; intros C.
  - rewrite <- Q by exact (pool_traced_option u L' x y PFm C). exact C.
  - rewrite Q by exact (pool_call_option L' x y PFm C). exact C.
Qed.

Theorem C64_pooling_two_unknown_sizes name G d t (a : pool_args) H opt bs sp g c L :
  pooling_for name G a -> pa_subgroup a = Some H -> pool_option a opt ->
  List.length sp = d -> pooling_built d t a (partly_known_shape true bs sp g c) L ->
  forall unknown i j, (forall ax, d < ax -> unknown ax = false) -> i <> j -> unknown i = true -> unknown j = true ->
  forall (x : tensor A) b m, wf x -> List.length m = d -> shape x = b :: m ++ [g; c] ->
  exists e, pool_call_traced unknown L x = Err e.
Proof.
  intros PF HS OP Lp B u i j U NE UI UJ x b m W Lm SH.
  destruct (pooling_for_some_sizes name G d a opt t bs sp g c L PF OP Lp B) as [m0 [L' [Lm0 [B' [E1 E2]]]]].
  rewrite E2.
  destruct (traced_pooling_facts name G d t a H opt bs m0 g c L' PF HS OP B' Lm0) as [PFm [GN [OK F]]].
  destruct (pool_call_traced u L' x) as [y|e] eqn:C; [|exists e; reflexivity]. exfalso.
  destruct (F (pool_traced_option u L' x y PFm C)) as [k [s [eb [ea [sub [cos [_ PFs]]]]]]]. rewrite GN in SH.
  destruct (pool_call_two_unknown G d _ _ OK u sub cos k s eb ea (is_same opt) t L' x b m c PFs Lm W SH) as [e X]; [|congruence].
  split; [exact U|]. exists i, j. split; [exact NE|]. split; assumption.
Qed.

End Pooling.

(** P4: unknown batch size, or unknown height, but not both. *)
Example C64_case :
  let hidden l ax := existsb (Nat.eqb ax) l in
  let same_as r r' := match r, r' with Ok y, Ok y' => is_ok (r : result (tensor Z)) && (if list_eq_dec Z.eq_dec (data y) (data y') then true else false) | _, _ => false end in
  match test_layer 2 false (mkConvArgs (ByName "P4") (Some "") (One 2) 2 (Some (One 2)) (Some (Some "valid")) None "channels_last" true true (fun z => z))
          [None; None; None; Some 4; Some 3] some_weights some_weights,
        test_pool 2 "max" (pooling "P4" "P2" (One 2) None None) [None; Some 4; Some 4; Some 4; Some 2] with
  | Ok L, Ok P =>
      let x := some_signal [2; 5; 5; 4; 3] in
      let z := some_signal [2; 4; 4; 4; 2] in
      let call l := snd (conv_apply_traced (hidden l) L x) in
      same_as (call []) (apply L x) = true /\ same_as (call [0]) (apply L x) = true /\ same_as (call [2]) (apply L x) = true /\
      is_ok (call [0; 1]) = false /\ is_ok (call [1; 2]) = false /\
      same_as (pool_call_traced (hidden [0]) P z) (pool_call P z) = true /\ is_ok (pool_call_traced (hidden [0; 2]) P z) = false
  | _, _ => False
  end.
Proof. vm_compute. repeat split. Qed.

Print Assumptions C64_one_unknown_size.
Print Assumptions C64_two_unknown_sizes.
Print Assumptions C64_pooling_one_unknown_size.
Print Assumptions C64_pooling_two_unknown_sizes.
