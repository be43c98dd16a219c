(** C63: layers built for inputs of unknown sizes. *)
From Verif Require Import UnknownFacts Properties_Padding Properties_Config Properties_Build Properties_Shapes.
Local Open Scope string_scope.
Local Open Scope list_scope.

(** [m] is a possible value of the sizes [sp]. *)
Definition possible_sizes (sp : sshape) (m : list nat) : Prop :=
  List.length m = List.length sp /\ forall ax n, nth ax sp None = Some n -> nth ax m 0 = n.

Lemma pool_init_gt d t a L0 : pa_data_format a = "channels_last" -> pool_init d t a = Ok L0 ->
  let T := po_gt L0 in
  gt_dims T = d /\ gt_format T = "channels_last" /\ gt_channels_axis T = Z.of_nat (d + 1) /\ gt_group_axis T = Z.of_nat (d + 1) /\
  exists p, (match pa_padding a with Some q => q | None => Some "valid_equiv" end) = Some p /\ pl_option (gt_padding T) = upper p /\
    pl_allow (gt_padding T) = pa_allow a /\ pl_dims (gt_padding T) = d /\ pl_format (gt_padding T) = "channels_last".
Proof.
  intros AF I. unfold pool_init, gt_init in I. rewrite AF in I.
  match type of I with (_ <- (_ <- ?M ;; _) ;; _) = _ => destruct M as [G|]; [|discriminate I] end. cbn [bind] in I.
  match type of I with (_ <- (_ <- ?M ;; _) ;; _) = _ => destruct M as [K|]; [|discriminate I] end. cbn [bind] in I.
  destruct (match pa_padding a with Some q => q | None => Some "valid_equiv" end) as [p|]; [|discriminate I].
  destruct (padding_init _ _ _ _ _ _ _) as [P|] eqn:PI; [|discriminate I]. cbn [bind] in I.
  do 3 (match type of I with (_ <- ?M ;; _) = _ => destruct M; [|discriminate I] end; cbn [bind] in I).
  assert (E : forall u v : pool_layer, Ok u = Ok v -> u = v) by congruence. apply E in I. rewrite <- I.
  pose proof (padding_init_inv _ _ _ _ _ _ _ _ PI) as [Eo [_ [_ [Ea [Ed [_ [_ [Ef _]]]]]]]].
  cbn [po_gt gt_dims gt_format gt_channels_axis gt_group_axis gt_padding String.eqb Ascii.eqb Bool.eqb].
  split; [reflexivity|]. split; [reflexivity|]. split; [lia|]. split; [lia|]. exists p. repeat split; assumption.
Qed.

Section Unknown.
Context {A : Type} {RA : Arith A}.

(** Unless the padding is 'same' or 'valid' and allow_non_equivariance is set, building
    a convolution or transposed convolution raises if any spatial size is unknown
    (a ValueError, unless the group axis is wrong too). *)
Theorem C63_unknown_sizes_are_rejected name G (a : conv_args A) opt (tr valued : bool) bs sp g c kinit binit L0 :
  layer_for name G a -> option_of a opt ->
  let d := dimension_of name in
  conv_init d tr a = Ok L0 -> List.length sp = d -> In None sp ->
  (In opt ["SAME_EQUIV"; "VALID_EQUIV"] \/ ca_allow a = false) ->
  exists e, conv_build L0 (partly_known_shape valued bs sp g c) kinit binit = Err e /\ (valued = false -> e = ValueError).
Proof.
  intros LF [p [PN UP]] d I L N NA. pose proof LF as [DG [AG AF]].
  destruct (conv_init_inv G d name tr a L0 DG AG AF I) as [p0 [k0 [s0 [dl0 [Hn [PN0 [_ [_ [_ [_ [_ [_ [_ [_ [P [PI EL]]]]]]]]]]]]]]]].
  unfold padding_name in PN0. rewrite PN in PN0. injection PN0 as <-.
  pose proof (padding_init_inv _ _ _ _ _ _ _ _ PI) as [Eo [_ [_ [Ea [Ed [_ [_ [Ef _]]]]]]]].
  rewrite EL. unfold conv_build. cbn [cl_gt].
  rewrite (gt_build_partly_known _ d valued bs sp g c) by (exact L || reflexivity). cbn [gt_padding].
  assert (NP : mem_str (pl_option P) ["SAME"; "VALID"] && pl_allow P = false).
  { rewrite Eo, Ea, UP. destruct NA as [[<-|[<-|[]]]| ->]; [reflexivity|reflexivity|apply andb_false_r]. }
  rewrite (padding_build_unknown P d) by assumption.
  destruct (before_padding _ valued g) as [u|e] eqn:BP; cbn [bind].
  - exists ValueError. split; [reflexivity|]. reflexivity.
  - exists e. split; [reflexivity|]. intros ->. discriminate BP.
Qed.

(** With 'same' or 'valid' and allow_non_equivariance a layer can be built for unknown
    sizes exactly when it can be built for some sizes that fit what is known. *)
Theorem C63_unknown_sizes_are_accepted name G (a : conv_args A) opt (tr valued : bool) bs sp g c kinit binit L0 :
  layer_for name G a -> option_of a opt -> In opt ["SAME"; "VALID"] -> ca_allow a = true ->
  let d := dimension_of name in
  conv_init d tr a = Ok L0 -> List.length sp = d ->
  ((exists L, conv_build L0 (partly_known_shape valued bs sp g c) kinit binit = Ok L) <->
   (exists m L, possible_sizes sp m /\ conv_build L0 (static_signal_shape valued bs m g c) kinit binit = Ok L)).
Proof.
  intros LF [p [PN UP]] OP AL d I Lp. pose proof LF as [DG [AG AF]].
  destruct (conv_init_inv G d name tr a L0 DG AG AF I) as [p0 [k [s [dl [Hn [PN0 [SK [SS [SD _]]]]]]]]].
  unfold padding_name in PN0. rewrite PN in PN0. injection PN0 as <-.
  assert (PA : is_plain (upper p) && ca_allow a = true) by (rewrite UP, AL; destruct OP as [<-|[<-|[]]]; reflexivity).
  destruct (conv_build_partly_known name G tr a d L0 p k s dl valued bs g c kinit binit DG AG AF I PN PA SK SS SD) as [R H].
  destruct (std_pos _ _ _ SK) as [Lk Pk]. destruct (std_pos _ _ _ SS) as [Ls Ps]. destruct (std_pos _ _ _ SD) as [Ldl _].
  set (C := if valued then g * c else c) in H.
  pose proof (fun sp L => keras_partly_known_iff d (is_same (upper p)) (ca_filters a) k s dl bs sp C L Lk Ls Ldl Ps) as KI.
  assert (GO : forall sp1 sp2, List.length sp1 = d -> List.length sp2 = d ->
    ((forall ax n, ax < d -> nth ax sp1 None = Some n -> is_same (upper p) = true \/ dilated (nth ax k 0) (nth ax dl 0) <= n + nth ax s 0) ->
     (forall ax n, ax < d -> nth ax sp2 None = Some n -> is_same (upper p) = true \/ dilated (nth ax k 0) (nth ax dl 0) <= n + nth ax s 0)) ->
    (exists L, conv_build L0 (partly_known_shape valued bs sp1 g c) kinit binit = Ok L) ->
    exists L, conv_build L0 (partly_known_shape valued bs sp2 g c) kinit binit = Ok L).
  { intros sp1 sp2 L1 L2 IMP [L B]. pose proof (H sp1 L1) as H1. rewrite B in H1. cbv zeta in H1. destruct H1 as [Lr [RE [_ K1]]].
    pose proof (H sp2 L2) as H2. cbv zeta in H2. destruct (conv_build L0 (partly_known_shape valued bs sp2 g c) kinit binit) as [L'|e]; [exists L'; reflexivity|].
    exfalso. destruct H2 as [[e' Q]|[TR [e' Q]]]; [congruence|].
    pose proof (proj1 (KI sp1 L1) (K1 TR)) as K2. pose proof (IMP K2) as K3. apply (KI sp2 L2) in K3 as [o K3]. congruence. }
  split.
  - intros B. set (m := map (fun ax => match nth ax sp None with Some n => n | None => dilated (nth ax k 0) (nth ax dl 0) end) (seq 0 d)).
    assert (Lm : List.length m = d) by (unfold m; rewrite map_length, seq_length; reflexivity).
    assert (NM : forall ax, ax < d -> nth ax m 0 = match nth ax sp None with Some n => n | None => dilated (nth ax k 0) (nth ax dl 0) end).
    { intros ax Hax. unfold m. rewrite (nth_indep _ 0 ((fun ax => match nth ax sp None with Some n => n | None => dilated (nth ax k 0) (nth ax dl 0) end) 0)) by (rewrite map_length, seq_length; exact Hax).
      rewrite (map_nth (fun ax => match nth ax sp None with Some n => n | None => dilated (nth ax k 0) (nth ax dl 0) end)), seq_nth by exact Hax. reflexivity. }
    destruct (GO sp (map Some m) Lp ltac:(rewrite map_length; exact Lm)) as [L' B']; [|exact B|].
    + intros Q ax n Hax E. rewrite (nth_indep _ None (Some 0)) in E by (rewrite map_length; lia). rewrite (map_nth Some) in E. injection E as <-.
      rewrite (NM ax Hax). destruct (nth ax sp None) as [n|] eqn:E; [apply Q; [exact Hax|exact E]|right; lia].
    + exists m, L'. split; [|exact B']. split; [congruence|]. intros ax n E.
      destruct (Nat.lt_ge_cases ax d) as [Hax|Hax]; [rewrite (NM ax Hax), E; reflexivity|]. rewrite nth_overflow in E by lia. discriminate E.
  - intros [m [L [[Lm PM] B]]]. apply (GO (map Some m) sp); [rewrite map_length; congruence|exact Lp| |exists L; exact B].
    intros Q ax n Hax E. apply Q; [exact Hax|]. rewrite (nth_indep _ None (Some 0)) by (rewrite map_length; lia). rewrite (map_nth Some). f_equal. apply PM. exact E.
Qed.

(** Such a layer computes the same whatever sizes it was built for. *)
Theorem C63_sizes_do_not_matter name G (a : conv_args A) opt (tr valued : bool) bs sp sp' g c kinit binit L L' :
  layer_for name G a -> option_of a opt -> In opt ["SAME"; "VALID"] -> ca_allow a = true ->
  let d := dimension_of name in
  List.length sp = d -> List.length sp' = d ->
  built d tr a (partly_known_shape valued bs sp g c) kinit binit L ->
  built d tr a (partly_known_shape valued bs sp' g c) kinit binit L' ->
  forall x, apply L x = apply L' x.
Proof.
  intros LF [p [PN UP]] OP AL d Lp Lp' [L0 [I B]] [L0' [I' B']] x. assert (L0' = L0) as -> by congruence. pose proof LF as [DG [AG AF]].
  destruct (conv_init_inv G d name tr a L0 DG AG AF I) as [p0 [k [s [dl [Hn [PN0 [SK [SS [SD _]]]]]]]]].
  unfold padding_name in PN0. rewrite PN in PN0. injection PN0 as <-.
  assert (PA : is_plain (upper p) && ca_allow a = true) by (rewrite UP, AL; destruct OP as [<-|[<-|[]]]; reflexivity).
  destruct (conv_build_partly_known name G tr a d L0 p k s dl valued bs g c kinit binit DG AG AF I PN PA SK SS SD) as [R H].
  pose proof (H sp Lp) as H1. cbv zeta in H1. rewrite B in H1. destruct H1 as [L1 [R1 [-> _]]].
  pose proof (H sp' Lp') as H2. cbv zeta in H2. rewrite B' in H2. destruct H2 as [L2 [R2 [-> _]]].
  assert (L2 = L1) as -> by congruence. unfold apply. rewrite !call_ignores_reshaped. reflexivity.
Qed.

(** The sizes it reports for its output: unknown where the input's are. *)
Theorem C63_output_shape name G (a : conv_args A) opt (tr valued : bool) bs sp g c kinit binit L k s dl :
  layer_for name G a -> option_of a opt -> In opt ["SAME"; "VALID"] -> ca_allow a = true ->
  let d := dimension_of name in
  let same := mem_str opt ["SAME"; "SAME_EQUIV"] in
  List.length sp = d -> sizes d a k s dl ->
  built d tr a (partly_known_shape valued bs sp g c) kinit binit L ->
  let size ax := option_map (fun n => keras_size tr same n (nth ax k 0) (nth ax dl 0) (nth ax s 0)) (nth ax sp None) in
  (forall ax z, ax < d -> size ax = Some z -> (0 <= z)%Z) ->
  conv_compute_output_shape L =
  Ok (bs :: map (fun ax => option_map Z.to_nat (size ax)) (seq 0 d) ++ [Some (List.length (symmetries_of name)); Some (ca_filters a)]).
Proof.
  intros LF [p [PN UP]] OP AL d same Lp [SK [SS SD]] [L0 [I B]] size NN. pose proof LF as [DG [AG AF]].
  pose proof DG as DG'. apply lib_ok in DG' as [NG OK]. fold d in OK.
  destruct (conv_init_inv G d name tr a L0 DG AG AF I) as [p0 [k0 [s0 [dl0 [Hn [PN0 [SK0 [SS0 [SD0 [_ [_ [_ [_ [_ [P [PI EL]]]]]]]]]]]]]]]].
  unfold padding_name in PN0. rewrite PN in PN0. injection PN0 as <-. rewrite SK in SK0. injection SK0 as <-.
  unfold strides_of in SS0. rewrite SS in SS0. injection SS0 as <-. unfold dilation_of in SD0. rewrite SD in SD0. injection SD0 as <-.
  destruct (std_pos _ _ _ SK) as [Lk _]. destruct (std_pos _ _ _ SS) as [Ls _]. destruct (std_pos _ _ _ SD) as [Ldl _].
  pose proof (padding_init_inv _ _ _ _ _ _ _ _ PI) as [Eo [_ [_ [Ea _]]]].
  set (r := bs :: sp ++ [Some (if valued then g * c else c)]).
  assert (CO : conv_compute_output_shape L =
    (o <- keras_conv_output_shape tr "channels_last" (if is_same opt then "same" else "valid") (ca_filters a) k s dl r ;;
     Ok (py_upto o (Z.of_nat (d + 1)) ++ [Some (g_order G)] ++ py_from o (Z.of_nat (d + 1))))).
  { rewrite EL in B. unfold conv_build in B. cbn [cl_gt] in B.
    rewrite (gt_build_partly_known _ d valued bs sp g c) in B by (exact Lp || reflexivity). cbn [gt_padding] in B.
    destruct (before_padding _ valued g) as [u|]; [|discriminate B]. cbn [bind] in B.
    rewrite padding_build_allowed in B by (rewrite Eo, Ea, UP, AL; destruct OP as [<-|[<-|[]]]; reflexivity). cbn [bind] in B.
    match type of B with (_ <- ?M ;; _) = _ => destruct M; [|discriminate B] end. cbn [bind] in B.
    match type of B with (_ <- ?M ;; _) = _ => destruct M; [|discriminate B] end. cbn [bind] in B.
    match type of B with (_ <- ?M ;; _) = _ => destruct M; [|discriminate B] end. cbn [bind] in B.
    unfold gt_build_conv in B. match type of B with (_ <- (_ <- ?M ;; _) ;; _) = _ => destruct M; [|discriminate B] end. cbn [bind] in B.
    match type of B with (_ <- (_ <- ?M ;; _) ;; _) = _ => destruct M; [|discriminate B] end. cbn [bind] in B.
    match type of B with (_ <- ?M ;; _) = _ => destruct M; [|discriminate B] end. cbn [bind] in B.
    assert (E : forall u v : conv_layer A, Ok u = Ok v -> u = v) by congruence. apply E in B. rewrite <- B, UP. reflexivity. }
  rewrite CO. unfold r. rewrite (keras_partly_known tr d _ _ k s dl bs sp _ Lp Lk Ls Ldl).
  match goal with |- context[forallb _ ?oo] => assert (OE : oo = map size (seq 0 d)) end.
  { apply map_ext_in. intros ax X. unfold size. destruct (nth ax sp None) as [n|]; [|reflexivity]. cbn [option_map]. f_equal.
    change (is_same opt) with same. unfold keras_size, transposed_size, transpose_size, conv_out_z. destruct tr, same; reflexivity. }
  rewrite OE. clear OE.
  replace (forallb (fun v => match v with Some z => (0 <=? z)%Z | None => true end) (map size (seq 0 d))) with true.
  2:{ symmetry. apply forallb_forall. intros v X. apply in_map_iff in X as [ax [E X]]. apply in_seq in X. destruct v as [z|]; [|reflexivity].
      apply Z.leb_le. apply (NN ax z ltac:(lia) E). }
  cbn [bind]. f_equal. rewrite map_map. set (mo := map (fun ax => option_map Z.to_nat (size ax)) (seq 0 d)).
  assert (LO : List.length mo = d) by (unfold mo; rewrite map_length; apply seq_length).
  rewrite (ok_order _ _ _ _ OK).
  rewrite py_upto_nat, py_from_nat by (cbn [List.length]; rewrite app_length; cbn [List.length]; lia).
  replace (d + 1) with (S d) by lia. cbn [firstn skipn]. rewrite firstn_app_exact, skipn_app_exact by congruence. reflexivity.
Qed.

End Unknown.

(** Pooling layers. *)
Theorem C63_pooling_rejects_unknown_sizes name G d (a : pool_args) opt t (valued : bool) bs sp g c L0 :
  pooling_for name G a -> pool_option a opt ->
  pool_init d t a = Ok L0 -> List.length sp = d -> In None sp ->
  (In opt ["SAME_EQUIV"; "VALID_EQUIV"] \/ pa_allow a = false) ->
  exists e, pool_build L0 (partly_known_shape valued bs sp g c) = Err e /\ (valued = false -> e = ValueError).
Proof.
  intros [DG [AG AF]] [p [PN UP]] I L N NA.
  destruct (pool_init_gt d t a L0 AF I) as [D [F [CA [GA [p0 [PN0 [Eo [Ea [Ed Ef]]]]]]]]]. rewrite PN in PN0. injection PN0 as <-.
  unfold pool_build. rewrite (gt_build_partly_known _ d valued bs sp g c D F CA GA L).
  assert (NP : mem_str (pl_option (gt_padding (po_gt L0))) ["SAME"; "VALID"] && pl_allow (gt_padding (po_gt L0)) = false).
  { rewrite Eo, Ea, UP. destruct NA as [[<-|[<-|[]]]| ->]; [reflexivity|reflexivity|apply andb_false_r]. }
  rewrite (padding_build_unknown _ d) by assumption.
  destruct (before_padding _ valued g) as [u|e] eqn:BP; cbn [bind].
  - exists ValueError. split; [reflexivity|]. reflexivity.
  - exists e. split; [reflexivity|]. intros ->. discriminate BP.
Qed.

Theorem C63_pooling_sizes_do_not_matter {A} {RA : Arith A} {PA : Pool A} name G d (a : pool_args) opt t (valued : bool) bs sp sp' g c L :
  pooling_for name G a -> pool_option a opt -> In opt ["SAME"; "VALID"] -> pa_allow a = true ->
  List.length sp = d -> List.length sp' = d ->
  pooling_built d t a (partly_known_shape valued bs sp g c) L ->
  exists L', pooling_built d t a (partly_known_shape valued bs sp' g c) L' /\ forall x : tensor A, pool_call L x = pool_call L' x.
Proof.
  intros [DG [AG AF]] [p [PN UP]] OP AL Lp Lp' [L0 [I B]].
  destruct (pool_init_gt d t a L0 AF I) as [D [F [CA [GA [p0 [PN0 [Eo [Ea [Ed Ef]]]]]]]]]. rewrite PN in PN0. injection PN0 as <-.
  assert (PB : forall r, padding_build (gt_padding (po_gt L0)) r = Ok (set_needs (gt_padding (po_gt L0)) false (pl_pads (gt_padding (po_gt L0))))).
  { intros r. apply padding_build_allowed. rewrite Eo, Ea, UP, AL. destruct OP as [<-|[<-|[]]]; reflexivity. }
  unfold pool_build in B. rewrite (gt_build_partly_known _ d valued bs sp g c D F CA GA Lp), PB in B.
  destruct (before_padding _ valued g) as [u|] eqn:BP; [|discriminate B]. cbn [bind] in B.
  unfold gt_build_pool in B. cbn [gt_set_build gt_group gt_subgroup gt_bias_indices gt_kernel_indices] in B.
  destruct (dict_get (g_cosets _) _) as [cos|] eqn:DC; [|discriminate B]. cbn [bind] in B.
  destruct (take _ (vec cos) 1) as [i1|] eqn:T1; [|discriminate B]. cbn [bind] in B.
  destruct (dict_get (g_subgroup _) _) as [sub|] eqn:DS; [|discriminate B]. cbn [bind] in B.
  destruct (take i1 (vec sub) 0) as [i2|] eqn:T2; [|discriminate B]. cbn [bind] in B.
  eexists. split.
  - exists L0. split; [exact I|]. unfold pool_build. rewrite (gt_build_partly_known _ d valued bs sp' g c D F CA GA Lp'), PB, BP. cbn [bind].
    unfold gt_build_pool. cbn [gt_set_build gt_group gt_subgroup gt_bias_indices gt_kernel_indices]. rewrite DC. cbn [bind]. rewrite T1. cbn [bind]. rewrite DS. cbn [bind]. rewrite T2. cbn [bind]. reflexivity.
  - intros x. assert (E : forall u v : pool_layer, Ok u = Ok v -> u = v) by congruence. apply E in B. rewrite <- B. reflexivity.
Qed.

(** P4, 2x2 kernels, 'valid': with unknown sizes the layer can only be built with
    allow_non_equivariance, and then computes what the layer built for 5x5 images does;
    the other options raise.  A known size that is too small still raises. *)
Example C63_case :
  let a p allow := mkConvArgs (ByName "P4") (Some "") (One 2) 2 (Some (One 2)) (Some (Some p)) None "channels_last" allow true (fun z => z) in
  let b p allow sh := test_layer 2 false (a p allow) sh some_weights some_weights in
  let error r := match r : result (conv_layer Z) with Ok _ => None | Err e => Some e end in
  let u := [None; None; Some 5; Some 3] in
  error (b "valid" false u) = Some ValueError /\ error (b "valid_equiv" false u) = Some ValueError /\
  error (b "valid_equiv" true u) = Some ValueError /\ error (b "same" false u) = Some ValueError /\
  error (b "valid" true u) = None /\ error (b "valid" true [None; None; Some 5; Some 4; Some 3]) = None /\
  error (test_layer 2 false (mkConvArgs (ByName "P4") (Some "") (One 7) 2 None (Some (Some "valid")) None "channels_last" true true (fun z => z)) [None; Some 5; None; Some 1] some_weights some_weights) = Some ValueError /\
  match b "valid" true u, b "valid" true [None; Some 9; Some 9; Some 3] with
  | Ok L, Ok L' =>
      conv_compute_output_shape L = Ok [None; None; Some 2; Some 4; Some 2] /\
      apply L (some_signal [1; 5; 5; 3]) = apply L' (some_signal [1; 5; 5; 3]) /\
      is_ok (apply L (some_signal [1; 5; 5; 3])) = true
  | _, _ => False
  end.
Proof. vm_compute. repeat split. Qed.

Print Assumptions C63_unknown_sizes_are_rejected.
Print Assumptions C63_unknown_sizes_are_accepted.
Print Assumptions C63_sizes_do_not_matter.
Print Assumptions C63_output_shape.
Print Assumptions C63_pooling_rejects_unknown_sizes.
Print Assumptions C63_pooling_sizes_do_not_matter.
