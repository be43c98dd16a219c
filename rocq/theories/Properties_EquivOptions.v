(** C109: where 'same' and 'valid' are accepted, 'same_equiv' and 'valid_equiv' do the same. *)
From Verif Require Import Layers EquivSpec PoolSpec.
Local Open Scope string_scope.
Local Open Scope list_scope.

(** The same arguments with another padding option. *)
Definition conv_with_padding {A} (a : conv_args A) (o : string) : conv_args A :=
  mkConvArgs (ca_group a) (ca_subgroup a) (ca_kernel_size a) (ca_filters a) (ca_strides a) (Some (Some o)) (ca_dilation a)
    (ca_data_format a) (ca_allow a) (ca_use_bias a) (ca_activation a).
Definition pool_with_padding (a : pool_args) (o : string) : pool_args :=
  mkPoolArgs (pa_group a) (pa_subgroup a) (pa_pool_size a) (pa_strides a) (Some (Some o)) (pa_data_format a) (pa_allow a).

(** [layer.group_transforms.equivariant_padding.needs_padding]. *)
Definition needs_padding (T : gtransforms) : option bool := pl_needs (gt_padding T).

(** ** The layers differ in the name of the option only *)

Definition re_pl (o : string) (P : padding_layer) : padding_layer :=
  mkPadding o (pl_built_in P) (pl_allow P) (pl_dims P) (pl_strides P) (pl_kernel P) (pl_format P) (pl_transpose P) (pl_pads P) (pl_needs P).
Definition re_gt (o : string) (T : gtransforms) : gtransforms :=
  mkGT (gt_dims T) (gt_transpose T) (gt_group T) (gt_subgroup T) (gt_domain T) (gt_acting T) (re_pl o (gt_padding T)) (gt_format T)
    (gt_channels_axis T) (gt_group_axis T) (gt_group_valued T) (gt_reshaped T) (gt_bias_indices T) (gt_kernel_indices T) (gt_pooling_indices T).
Definition re_cl {A} (o : string) (L : conv_layer A) : conv_layer A := cl_set_gt L (re_gt o (cl_gt L)).
Definition re_po (o : string) (L : pool_layer) : pool_layer := po_set_gt L (re_gt o (po_gt L)).
Definition rmap {X Y} (f : X -> Y) (r : result X) : result Y := x <- r ;; Ok (f x).

Definition pair_of (o oe : string) : Prop := (o = "SAME" /\ oe = "SAME_EQUIV") \/ (o = "VALID" /\ oe = "VALID_EQUIV").

Lemma extra_re o oe P z : pair_of o oe -> pl_option P = o -> compute_equivariant_padding (re_pl oe P) z = compute_equivariant_padding P z.
Proof.
  intros PO E. unfold compute_equivariant_padding, compute_built_in_padding, compute_extra_padding. cbn [re_pl pl_option pl_kernel pl_strides pl_transpose].
  rewrite E. destruct PO as [[-> ->]|[-> ->]]; reflexivity.
Qed.

(** What the two padding layers do when they are built. *)
Lemma pad_build_re o oe P s : pair_of o oe -> pl_option P = o -> pl_needs P = None ->
  (pl_allow P = false -> forall P', padding_build P s = Ok P' -> padding_build (re_pl oe P) s = Ok (re_pl oe P') /\ pl_needs P' = Some false) /\
  (forall P2, padding_build (re_pl oe P) s = Ok P2 ->
     (pl_needs P2 = Some false -> exists P', padding_build P s = Ok P' /\ P2 = re_pl oe P') /\
     (pl_needs P2 <> Some false -> pl_needs P2 = Some true /\ (pl_allow P = false -> padding_build P s = Err ValueError))).
Proof.
  intros PO E NN.
  assert (PLAIN : mem_str o ["SAME"; "VALID"] = true) by (destruct PO as [[-> _]|[-> _]]; reflexivity).
  assert (EQUIV : mem_str oe ["SAME"; "VALID"] = false) by (destruct PO as [[_ ->]|[_ ->]]; reflexivity).
  assert (PE : padding_error P = ValueError) by (unfold padding_error; rewrite E; destruct PO as [[-> _]|[-> _]]; reflexivity).
  unfold padding_build. rewrite E, PLAIN. change (pl_option (re_pl oe P)) with oe. rewrite EQUIV. cbn [andb].
  change (pl_format (re_pl oe P)) with (pl_format P). change (pl_dims (re_pl oe P)) with (pl_dims P).
  set (cs := cast_sizes _).
  assert (SET : forall b p, set_needs (re_pl oe P) b p = re_pl oe (set_needs P b p)) by reflexivity.
  assert (EO : forall u v : padding_layer, Ok u = Ok v -> u = v) by congruence.
  destruct cs as [z|e]; cbn [bind].
  2:{ split; [intros -> P' Q; discriminate Q|intros P2 Q; discriminate Q]. }
  rewrite (extra_re o oe P z PO E). destruct (compute_equivariant_padding P z) as [[extra total]|e]; cbn [bind].
  2:{ split; [intros -> P' Q; discriminate Q|intros P2 Q; discriminate Q]. }
  destruct (negb (existsb (fun e => negb (e =? 0)%Z) extra)) eqn:NE.
  - split.
    + intros -> P' Q. apply EO in Q. subst P'. split; reflexivity.
    + intros P2 Q. apply EO in Q. subst P2. split; [|intros N; exfalso; apply N; reflexivity]. intros _. exists (set_needs P false (pl_pads P)).
      split; [destruct (pl_allow P); reflexivity|reflexivity].
  - split; [intros -> P' Q; discriminate Q|]. intros P2 Q. destruct (existsb _ total); [discriminate Q|]. apply EO in Q. subst P2. split; [discriminate|].
    intros _. split; [reflexivity|]. intros ->. rewrite PE. reflexivity.
Qed.

Lemma gt_build_re o oe T s : pair_of o oe -> pl_option (gt_padding T) = o -> pl_needs (gt_padding T) = None ->
  (pl_allow (gt_padding T) = false -> forall T', gt_build T s = Ok T' -> gt_build (re_gt oe T) s = Ok (re_gt oe T') /\ needs_padding T' = Some false) /\
  (forall T2, gt_build (re_gt oe T) s = Ok T2 ->
     (needs_padding T2 = Some false -> exists T', gt_build T s = Ok T' /\ T2 = re_gt oe T') /\
     (needs_padding T2 <> Some false -> needs_padding T2 = Some true /\ (pl_allow (gt_padding T) = false -> gt_build T s = Err ValueError))).
Proof.
  intros PO E NN. unfold gt_build.
  cbn [re_gt gt_dims gt_domain gt_format gt_channels_axis gt_group gt_group_axis gt_padding].
  set (v := (List.length s =? gt_dims T + 3)%nat). set (dm := if v then gt_domain T else None). set (ca := if _ && v then _ else _).
  set (rs := if v then _ else Ok s). destruct rs as [r|e]; cbn [bind]; [|split; [intros _ T' Q; discriminate Q|intros T2 Q; discriminate Q]].
  destruct (pad_build_re o oe (gt_padding T) r PO E NN) as [PA PB].
  assert (EO : forall u v : gtransforms, Ok u = Ok v -> u = v) by congruence. split.
  - intros AL T' Q. destruct (padding_build (gt_padding T) r) as [P'|] eqn:B; [|discriminate Q]. cbn [bind] in Q. apply EO in Q. subst T'.
    destruct (PA AL P' eq_refl) as [B2 N]. rewrite B2. split; [reflexivity|exact N].
  - intros T2 Q. destruct (padding_build (re_pl oe (gt_padding T)) r) as [P2|] eqn:B; [|discriminate Q]. cbn [bind] in Q. apply EO in Q. subst T2.
    destruct (PB P2 eq_refl) as [B1 B2]. split.
    + intros N. destruct (B1 N) as [P' [B' ->]]. rewrite B'. cbn [bind]. eexists. split; reflexivity.
    + intros N. destruct (B2 N) as [N2 B3]. split; [exact N2|]. intros AL. rewrite (B3 AL). reflexivity.
Qed.

Section Conv.
Context {A : Type} {RA : Arith A}.

Lemma conv_init_re d tr (a : conv_args A) o oe opt opte :
  (o = "same" /\ oe = "same_equiv" /\ opt = "SAME" /\ opte = "SAME_EQUIV") \/ (o = "valid" /\ oe = "valid_equiv" /\ opt = "VALID" /\ opte = "VALID_EQUIV") ->
  conv_init d tr (conv_with_padding a oe) = rmap (re_cl opte) (conv_init d tr (conv_with_padding a o)) /\
  (forall L, conv_init d tr (conv_with_padding a o) = Ok L ->
     pl_option (gt_padding (cl_gt L)) = opt /\ pl_needs (gt_padding (cl_gt L)) = None /\ pl_allow (gt_padding (cl_gt L)) = ca_allow a).
Proof.
  intros OC. unfold conv_init, gt_init.
  cbn [conv_with_padding ca_group ca_subgroup ca_kernel_size ca_filters ca_strides ca_padding ca_dilation ca_data_format ca_allow ca_use_bias ca_activation].
  destruct (match ca_group a with Object G => Ok G | ByName s => dict_get group_dict s end) as [G|]; [|split; [reflexivity|intros L Q; discriminate Q]]. cbn [bind].
  destruct (match parse_subgroup G (ca_subgroup a) with None => Err KeyError | Some s => dict_get group_dict s end) as [H|]; [|split; [reflexivity|intros L Q; discriminate Q]]. cbn [bind].
  set (da := if tr then (g_name H, g_name G) else (g_name G, g_name H)). destruct da as [dom act]. cbv zeta.
  assert (PI : forall q r, In (q, r) [("same", "SAME"); ("valid", "VALID"); ("same_equiv", "SAME_EQUIV"); ("valid_equiv", "VALID_EQUIV")] ->
    padding_init (ca_kernel_size a) d (match ca_strides a with Some s => s | None => One 1 end) (Some q) (ca_allow a) "channels_last" tr =
    Ok (mkPadding r (if endswith q "_equiv" then drop_last 6 q else q) (ca_allow a) d (per_axis d (match ca_strides a with Some s => s | None => One 1 end))
          (per_axis d (ca_kernel_size a)) "channels_last" tr None None)).
  { intros q r I. cbn [In] in I. unfold padding_init, format_padding_option.
    destruct I as [I|[I|[I|[I|[]]]]]; assert (q = fst (q, r)) as E1 by reflexivity; assert (r = snd (q, r)) as E2 by reflexivity;
      rewrite <- I in E1, E2; cbn [fst snd] in E1, E2; rewrite E1, E2; reflexivity. }
  assert (BI : (if endswith oe "_equiv" then drop_last 6 oe else oe) = o /\ (if endswith o "_equiv" then drop_last 6 o else o) = o).
  { destruct OC as [[-> [-> _]]|[-> [-> _]]]; split; reflexivity. }
  destruct BI as [B1 B2].
  rewrite (PI o opt), (PI oe opte), B1, B2; [|destruct OC as [[-> [-> [-> ->]]]|[-> [-> [-> ->]]]]; cbn [In]; tauto..]. cbn [bind gt_padding pl_built_in].
  destruct (standardize_tuple d (ca_kernel_size a)) as [k|]; [|split; [reflexivity|intros L Q; discriminate Q]]. cbn [bind].
  destruct (standardize_tuple d (match ca_strides a with Some s => s | None => One 1 end)) as [s|]; [|split; [reflexivity|intros L Q; discriminate Q]]. cbn [bind].
  destruct (standardize_tuple d (match ca_dilation a with Some s => s | None => One 1 end)) as [dl|]; [|split; [reflexivity|intros L Q; discriminate Q]]. cbn [bind].
  destruct (standardize_padding o) as [p|]; [|split; [reflexivity|intros L Q; discriminate Q]]. cbn [bind].
  destruct (standardize_format _) as [f|]; [|split; [reflexivity|intros L Q; discriminate Q]]. cbn [bind].
  destruct (0 <? ca_filters a)%nat; [|split; [reflexivity|intros L Q; discriminate Q]]. destruct (negb _); [|split; [reflexivity|intros L Q; discriminate Q]].
  split; [reflexivity|]. intros L Q. assert (EO : forall u v : conv_layer A, Ok u = Ok v -> u = v) by congruence. apply EO in Q. rewrite <- Q.
  split; [reflexivity|]. split; reflexivity.
Qed.

Lemma conv_build_re oe (L : conv_layer A) s ki bi T' : gt_build (cl_gt L) s = Ok T' -> gt_build (re_gt oe (cl_gt L)) s = Ok (re_gt oe T') ->
  conv_build (re_cl oe L) s ki bi = rmap (re_cl oe) (conv_build L s ki bi).
Proof.
  intros B1 B2. unfold conv_build. change (cl_gt (re_cl oe L)) with (re_gt oe (cl_gt L)). rewrite B1, B2. cbn [bind].
  change (gt_reshaped (re_gt oe T')) with (gt_reshaped T'). change (gt_transpose (re_gt oe T')) with (gt_transpose T').
  change (cl_set_gt (re_cl oe L) (re_gt oe T')) with (re_cl oe (cl_set_gt L T')).
  change (conv_compute_output_shape (re_cl oe (cl_set_gt L T'))) with (conv_compute_output_shape (cl_set_gt L T')).
  change (cl_format (re_cl oe (cl_set_gt L T'))) with (cl_format (cl_set_gt L T')).
  change (cl_kernel_size (re_cl oe (cl_set_gt L T'))) with (cl_kernel_size (cl_set_gt L T')).
  change (cl_filters (re_cl oe (cl_set_gt L T'))) with (cl_filters (cl_set_gt L T')).
  change (cl_use_bias (re_cl oe (cl_set_gt L T'))) with (cl_use_bias (cl_set_gt L T')).
  destruct (py_nth _ _) as [o|]; [|reflexivity]. cbn [bind]. destruct o as [c|]; [|reflexivity]. cbn [bind].
  destruct (if gt_transpose T' then _ else _) as [u|]; [|reflexivity]. cbn [bind].
  set (K := tab _ ki). set (Bi := if cl_use_bias (cl_set_gt L T') then _ else None).
  assert (BC : gt_build_conv (re_gt oe T') K Bi = rmap (re_gt oe) (gt_build_conv T' K Bi)).
  { unfold gt_build_conv. change (gt_bias_indices (re_gt oe T')) with (gt_bias_indices T').
    change (compute_transformed_kernel_indices (re_gt oe T') K) with (compute_transformed_kernel_indices T' K).
    destruct Bi as [bb|].
    - change (compute_repeated_bias_indices (re_gt oe T') bb) with (compute_repeated_bias_indices T' bb).
      destruct (compute_repeated_bias_indices T' bb); [|reflexivity]. cbn [bind]. destruct (compute_transformed_kernel_indices T' K); reflexivity.
    - cbn [bind]. destruct (compute_transformed_kernel_indices T' K); reflexivity. }
  rewrite BC. destruct (gt_build_conv T' K Bi) as [T3|]; [|reflexivity]. cbn [rmap bind].
  change (gt_group_valued (re_gt oe T3)) with (gt_group_valued T3). change (gt_channels_axis (re_gt oe T3)) with (gt_channels_axis T3).
  destruct (if gt_group_valued T3 then _ else _) as [ch|]; reflexivity.
Qed.

Lemma conv_apply_re oe (L : conv_layer A) x : apply (re_cl oe L) x = apply L x.
Proof.
  unfold apply, conv_apply. change (cl_gt (re_cl oe L)) with (re_gt oe (cl_gt L)). change (gt_dims (re_gt oe (cl_gt L))) with (gt_dims (cl_gt L)).
  change (cl_format (re_cl oe L)) with (cl_format L). change (cl_channels (re_cl oe L)) with (cl_channels L).
  assert (CC : snd (conv_call (re_cl oe L) x) = snd (conv_call L x)).
  { unfold conv_call. change (cl_kernel (re_cl oe L)) with (cl_kernel L). destruct (cl_kernel L) as [K|]; [|reflexivity].
    change (prepare_call (cl_gt (re_cl oe L)) K (cl_bias (re_cl oe L)) (cl_filters (re_cl oe L)) x) with (prepare_call (cl_gt L) K (cl_bias L) (cl_filters L) x).
    destruct (prepare_call _ _ _ _ _) as [[[[k b] f] x']|]; [|reflexivity]. cbv zeta.
    match goal with |- snd (match ?u with _ => _ end) = snd (match ?v with _ => _ end) => change u with v; destruct v; reflexivity end. }
  destruct (_ <? _)%nat; [reflexivity|]. destruct (cl_channels L) as [c|]; [destruct (_ =? _)%nat; [exact CC|reflexivity]|exact CC].
Qed.

(** What a convolution keeps of its built [group_transforms]. *)
Lemma conv_build_gt (L : conv_layer A) s ki bi L' : conv_build L s ki bi = Ok L' ->
  exists T', gt_build (cl_gt L) s = Ok T' /\ gt_padding (cl_gt L') = gt_padding T'.
Proof.
  unfold conv_build. intros Q. destruct (gt_build (cl_gt L) s) as [T'|]; [|discriminate Q]. exists T'. split; [reflexivity|]. cbn [bind] in Q.
  destruct (py_nth _ _) as [o|] in Q; [|discriminate Q]. cbn [bind] in Q. destruct o as [c|]; [|discriminate Q]. cbn [bind] in Q.
  destruct (if gt_transpose T' then _ else _) as [u|] in Q; [|discriminate Q]. cbn [bind] in Q.
  destruct (gt_build_conv T' _ _) as [T3|] eqn:BC in Q; [|discriminate Q]. cbn [bind] in Q.
  destruct (if gt_group_valued T3 then _ else _) as [ch|] in Q; [|discriminate Q]. cbn [bind] in Q.
  assert (EO : forall u v : conv_layer A, Ok u = Ok v -> u = v) by congruence. apply EO in Q. rewrite <- Q. clear Q.
  assert (EG : forall u v : gtransforms, Ok u = Ok v -> u = v) by congruence.
  unfold gt_build_conv in BC. destruct (match (if cl_use_bias (cl_set_gt L T') then _ else _) with Some _ => _ | None => _ end) as [b|] in BC; [|discriminate BC].
  cbn [bind] in BC. destruct (compute_transformed_kernel_indices _ _) as [kk|] in BC; [|discriminate BC]. cbn [bind] in BC. apply EG in BC. rewrite <- BC. reflexivity.
Qed.

(** GroupConv and GroupConvTranspose layers, in any number of dimensions and both data formats, for library groups and other groups. *)
Theorem C109_convolutions d tr (a : conv_args A) o s ki bi : In o ["same"; "valid"] ->
  let plain := conv_with_padding a o in
  let equiv := conv_with_padding a (o ++ "_equiv")%string in
  (forall L L', built d tr plain s ki bi L -> built d tr equiv s ki bi L' -> needs_padding (cl_gt L') = Some false ->
     conv_compute_output_shape L = conv_compute_output_shape L' /\ forall x, apply L x = apply L' x) /\
  (ca_allow a = false -> forall L, built d tr plain s ki bi L -> exists L', built d tr equiv s ki bi L' /\ needs_padding (cl_gt L') = Some false) /\
  (forall L', built d tr equiv s ki bi L' ->
     (needs_padding (cl_gt L') = Some false -> exists L, built d tr plain s ki bi L) /\
     (needs_padding (cl_gt L') <> Some false -> needs_padding (cl_gt L') = Some true /\
        (ca_allow a = false -> exists L0, conv_init d tr plain = Ok L0 /\ conv_build L0 s ki bi = Err ValueError))).
Proof.
  intros IO plain equiv.
  set (oe := (o ++ "_equiv")%string) in *.
  assert (exists opt opte, ((o = "same" /\ oe = "same_equiv" /\ opt = "SAME" /\ opte = "SAME_EQUIV") \/ (o = "valid" /\ oe = "valid_equiv" /\ opt = "VALID" /\ opte = "VALID_EQUIV")) /\ pair_of opt opte)
    as [opt [opte [OC PO]]].
  { subst oe. destruct IO as [<-|[<-|[]]]; [exists "SAME", "SAME_EQUIV"|exists "VALID", "VALID_EQUIV"]; (split; [|unfold pair_of; tauto]); [left|right]; repeat split. }
  destruct (conv_init_re d tr a o oe opt opte OC) as [IE IF]. fold plain in IE, IF. fold equiv in IE.
  assert (EO : forall u v : conv_layer A, Ok u = Ok v -> u = v) by congruence.
  assert (INI : forall L0', conv_init d tr equiv = Ok L0' -> exists L0, conv_init d tr plain = Ok L0 /\ L0' = re_cl opte L0).
  { intros L0' Q. rewrite IE in Q. destruct (conv_init d tr plain) as [L0|]; [|discriminate Q]. cbn [rmap bind] in Q. apply EO in Q. exists L0. split; [reflexivity|congruence]. }
  assert (SAME : forall L', built d tr equiv s ki bi L' -> needs_padding (cl_gt L') = Some false -> exists L, built d tr plain s ki bi L /\ L' = re_cl opte L).
  { intros L' [L0' [I' B']] N. destruct (INI L0' I') as [L0 [I ->]]. destruct (IF L0 I) as [E [NN AL]].
    destruct (conv_build_gt _ _ _ _ _ B') as [T2 [G2 P2]]. change (cl_gt (re_cl opte L0)) with (re_gt opte (cl_gt L0)) in G2.
    unfold needs_padding in N. rewrite P2 in N.
    destruct (gt_build_re opt opte (cl_gt L0) s PO E NN) as [_ GB]. destruct (proj1 (GB T2 G2) N) as [T' [G1 ->]].
    rewrite (conv_build_re opte L0 s ki bi T' G1 G2) in B'. destruct (conv_build L0 s ki bi) as [L|] eqn:B; [|discriminate B']. cbn [rmap bind] in B'. apply EO in B'.
    exists L. split; [exists L0; split; assumption|congruence]. }
  split; [|split].
  - intros L L' [L0 [I B]] B' N. destruct (SAME L' B' N) as [L1 [[L0' [I' B1]] ->]].
    assert (L0' = L0) as -> by congruence. assert (L1 = L) as -> by congruence. split; [reflexivity|]. intros x. symmetry. apply conv_apply_re.
  - intros AF L [L0 [I B]]. destruct (IF L0 I) as [E [NN AL]]. rewrite AF in AL. destruct (conv_build_gt _ _ _ _ _ B) as [T' [G1 P1]].
    destruct (gt_build_re opt opte (cl_gt L0) s PO E NN) as [GA _]. destruct (GA AL T' G1) as [G2 N].
    exists (re_cl opte L). split.
    + exists (re_cl opte L0). split; [rewrite IE, I; reflexivity|]. rewrite (conv_build_re opte L0 s ki bi T' G1 G2), B. reflexivity.
    + unfold needs_padding in N |- *. change (pl_needs (gt_padding (cl_gt L)) = Some false). rewrite P1. exact N.
  - intros L' B'. split; [intros N; destruct (SAME L' B' N) as [L [BL _]]; exists L; exact BL|]. intros N.
    destruct B' as [L0' [I' B']]. destruct (INI L0' I') as [L0 [I ->]]. destruct (IF L0 I) as [E [NN AL]].
    destruct (conv_build_gt _ _ _ _ _ B') as [T2 [G2 P2]]. change (cl_gt (re_cl opte L0)) with (re_gt opte (cl_gt L0)) in G2.
    unfold needs_padding in N |- *. rewrite P2 in N |- *.
    destruct (gt_build_re opt opte (cl_gt L0) s PO E NN) as [_ GB]. destruct (proj2 (GB T2 G2) N) as [N2 ER]. split; [exact N2|].
    intros AF. exists L0. split; [exact I|]. unfold conv_build. rewrite ER by (rewrite AL; exact AF). reflexivity.
Qed.

End Conv.
Print Assumptions C109_convolutions.

(** ** Pooling *)

Lemma pool_init_re d t a o oe opt opte :
  (o = "same" /\ oe = "same_equiv" /\ opt = "SAME" /\ opte = "SAME_EQUIV") \/ (o = "valid" /\ oe = "valid_equiv" /\ opt = "VALID" /\ opte = "VALID_EQUIV") ->
  pool_init d t (pool_with_padding a oe) = rmap (re_po opte) (pool_init d t (pool_with_padding a o)) /\
  (forall L, pool_init d t (pool_with_padding a o) = Ok L ->
     pl_option (gt_padding (po_gt L)) = opt /\ pl_needs (gt_padding (po_gt L)) = None /\ pl_allow (gt_padding (po_gt L)) = pa_allow a).
Proof.
  intros OC. unfold pool_init, gt_init.
  cbn [pool_with_padding pa_group pa_subgroup pa_pool_size pa_strides pa_padding pa_data_format pa_allow].
  destruct (match pa_group a with Object G => Ok G | ByName s => dict_get group_dict s end) as [G|]; [|split; [reflexivity|intros L Q; discriminate Q]]. cbn [bind].
  destruct (match parse_subgroup G (pa_subgroup a) with None => Err KeyError | Some s => dict_get group_dict s end) as [H|]; [|split; [reflexivity|intros L Q; discriminate Q]]. cbn [bind].
  assert (PI : forall q r, In (q, r) [("same", "SAME"); ("valid", "VALID"); ("same_equiv", "SAME_EQUIV"); ("valid_equiv", "VALID_EQUIV")] ->
    padding_init (pa_pool_size a) d (match pa_strides a with Some s => s | None => One 1 end) (Some q) (pa_allow a) "channels_last" false =
    Ok (mkPadding r (if endswith q "_equiv" then drop_last 6 q else q) (pa_allow a) d (per_axis d (match pa_strides a with Some s => s | None => One 1 end))
          (per_axis d (pa_pool_size a)) "channels_last" false None None)).
  { intros q r I. cbn [In] in I. unfold padding_init, format_padding_option.
    destruct I as [I|[I|[I|[I|[]]]]]; assert (q = fst (q, r)) as E1 by reflexivity; assert (r = snd (q, r)) as E2 by reflexivity;
      rewrite <- I in E1, E2; cbn [fst snd] in E1, E2; rewrite E1, E2; reflexivity. }
  assert (BI : (if endswith oe "_equiv" then drop_last 6 oe else oe) = o /\ (if endswith o "_equiv" then drop_last 6 o else o) = o).
  { destruct OC as [[-> [-> _]]|[-> [-> _]]]; split; reflexivity. }
  destruct BI as [B1 B2].
  rewrite (PI o opt), (PI oe opte), B1, B2; [|destruct OC as [[-> [-> [-> ->]]]|[-> [-> [-> ->]]]]; cbn [In]; tauto..]. cbn [bind gt_padding pl_built_in].
  destruct (standardize_tuple d (pa_pool_size a)) as [k|]; [|split; [reflexivity|intros L Q; discriminate Q]]. cbn [bind].
  destruct (standardize_tuple d (match pa_strides a with Some s => s | None => pa_pool_size a end)) as [s|]; [|split; [reflexivity|intros L Q; discriminate Q]]. cbn [bind].
  destruct (standardize_format _) as [f|]; [|split; [reflexivity|intros L Q; discriminate Q]]. cbn [bind].
  split; [reflexivity|]. intros L Q. assert (EO : forall u v : pool_layer, Ok u = Ok v -> u = v) by congruence. apply EO in Q. rewrite <- Q.
  split; [reflexivity|]. split; reflexivity.
Qed.

Lemma build_pool_re oe T : gt_build_pool (re_gt oe T) = rmap (re_gt oe) (gt_build_pool T).
Proof.
  unfold gt_build_pool. change (gt_group (re_gt oe T)) with (gt_group T). change (gt_subgroup (re_gt oe T)) with (gt_subgroup T).
  destruct (dict_get (g_cosets (gt_group T)) (g_name (gt_subgroup T))) as [c|]; [|reflexivity]. cbn [bind].
  destruct (take _ _ 1) as [i|]; [|reflexivity]. cbn [bind]. destruct (dict_get _ _) as [u|]; [|reflexivity]. cbn [bind].
  destruct (take i _ _) as [p|]; reflexivity.
Qed.

Lemma build_pool_padding T T' : gt_build_pool T = Ok T' -> gt_padding T' = gt_padding T.
Proof.
  unfold gt_build_pool. intros Q. destruct (dict_get (g_cosets (gt_group T)) (g_name (gt_subgroup T))) as [c|]; [|discriminate Q]. cbn [bind] in Q.
  destruct (take _ _ 1) as [i|] in Q; [|discriminate Q]. cbn [bind] in Q. destruct (dict_get _ _) as [u|] in Q; [|discriminate Q]. cbn [bind] in Q.
  destruct (take i _ _) as [p|] in Q; [|discriminate Q]. cbn [bind] in Q. assert (EG : forall u v : gtransforms, Ok u = Ok v -> u = v) by congruence. apply EG in Q. rewrite <- Q. reflexivity.
Qed.

(** Pooling layers, in any number of dimensions and both data formats. *)
Theorem C109_pooling {A} {RA : Arith A} {PA : Pool A} d t (a : pool_args) o s : In o ["same"; "valid"] ->
  let plain := pool_with_padding a o in
  let equiv := pool_with_padding a (o ++ "_equiv")%string in
  (forall L L', pooling_built d t plain s L -> pooling_built d t equiv s L' -> needs_padding (po_gt L') = Some false ->
     forall x : tensor A, pool_call L x = pool_call L' x) /\
  (pa_allow a = false -> forall L, pooling_built d t plain s L -> exists L', pooling_built d t equiv s L' /\ needs_padding (po_gt L') = Some false) /\
  (forall L', pooling_built d t equiv s L' ->
     (needs_padding (po_gt L') = Some false -> exists L, pooling_built d t plain s L) /\
     (needs_padding (po_gt L') <> Some false -> needs_padding (po_gt L') = Some true /\
        (pa_allow a = false -> exists L0, pool_init d t plain = Ok L0 /\ pool_build L0 s = Err ValueError))).
Proof.
  intros IO plain equiv.
  set (oe := (o ++ "_equiv")%string) in *.
  assert (exists opt opte, ((o = "same" /\ oe = "same_equiv" /\ opt = "SAME" /\ opte = "SAME_EQUIV") \/ (o = "valid" /\ oe = "valid_equiv" /\ opt = "VALID" /\ opte = "VALID_EQUIV")) /\ pair_of opt opte)
    as [opt [opte [OC PO]]].
  { subst oe. destruct IO as [<-|[<-|[]]]; [exists "SAME", "SAME_EQUIV"|exists "VALID", "VALID_EQUIV"]; (split; [|unfold pair_of; tauto]); [left|right]; repeat split. }
  destruct (pool_init_re d t a o oe opt opte OC) as [IE IF]. fold plain in IE, IF. fold equiv in IE.
  assert (EO : forall u v : pool_layer, Ok u = Ok v -> u = v) by congruence.
  assert (INI : forall L0', pool_init d t equiv = Ok L0' -> exists L0, pool_init d t plain = Ok L0 /\ L0' = re_po opte L0).
  { intros L0' Q. rewrite IE in Q. destruct (pool_init d t plain) as [L0|]; [|discriminate Q]. cbn [rmap bind] in Q. apply EO in Q. exists L0. split; [reflexivity|congruence]. }
  assert (SPLIT : forall L u L', pool_build L u = Ok L' -> exists T1 T2, gt_build (po_gt L) u = Ok T1 /\ gt_build_pool T1 = Ok T2 /\ L' = po_set_gt L T2 /\ gt_padding (po_gt L') = gt_padding T1).
  { intros L u L' Q. unfold pool_build in Q. destruct (gt_build (po_gt L) u) as [T1|]; [|discriminate Q]. cbn [bind] in Q.
    destruct (gt_build_pool T1) as [T2|] eqn:B2; [|discriminate Q]. cbn [bind] in Q. apply EO in Q. exists T1, T2. split; [reflexivity|]. split; [exact B2|].
    split; [congruence|]. rewrite <- Q. apply build_pool_padding. exact B2. }
  assert (BRE : forall L T', gt_build (po_gt L) s = Ok T' -> gt_build (re_gt opte (po_gt L)) s = Ok (re_gt opte T') ->
    pool_build (re_po opte L) s = rmap (re_po opte) (pool_build L s)).
  { intros L T' B1 B2. unfold pool_build. change (po_gt (re_po opte L)) with (re_gt opte (po_gt L)). rewrite B1, B2. cbn [bind]. rewrite build_pool_re.
    destruct (gt_build_pool T') as [T3|]; reflexivity. }
  assert (SAME : forall L', pooling_built d t equiv s L' -> needs_padding (po_gt L') = Some false -> exists L, pooling_built d t plain s L /\ L' = re_po opte L).
  { intros L' [L0' [I' B']] N. destruct (INI L0' I') as [L0 [I ->]]. destruct (IF L0 I) as [E [NN AL]].
    destruct (SPLIT _ _ _ B') as [T2 [T3 [G2 [_ [_ P2]]]]]. change (po_gt (re_po opte L0)) with (re_gt opte (po_gt L0)) in G2.
    unfold needs_padding in N. rewrite P2 in N.
    destruct (gt_build_re opt opte (po_gt L0) s PO E NN) as [_ GB]. destruct (proj1 (GB T2 G2) N) as [T' [G1 ->]].
    rewrite (BRE L0 T' G1 G2) in B'. destruct (pool_build L0 s) as [L|] eqn:B; [|discriminate B']. cbn [rmap bind] in B'. apply EO in B'.
    exists L. split; [exists L0; split; assumption|congruence]. }
  split; [|split].
  - intros L L' [L0 [I B]] B' N. destruct (SAME L' B' N) as [L1 [[L0' [I' B1]] ->]].
    assert (L0' = L0) as -> by congruence. assert (L1 = L) as -> by congruence. intros x. reflexivity.
  - intros AF L [L0 [I B]]. destruct (IF L0 I) as [E [NN AL]]. rewrite AF in AL. destruct (SPLIT _ _ _ B) as [T' [T3 [G1 [_ [_ P1]]]]].
    destruct (gt_build_re opt opte (po_gt L0) s PO E NN) as [GA _]. destruct (GA AL T' G1) as [G2 N].
    exists (re_po opte L). split.
    + exists (re_po opte L0). split; [rewrite IE, I; reflexivity|]. rewrite (BRE L0 T' G1 G2), B. reflexivity.
    + unfold needs_padding in N |- *. change (pl_needs (gt_padding (po_gt L)) = Some false). rewrite P1. exact N.
  - intros L' B'. split; [intros N; destruct (SAME L' B' N) as [L [BL _]]; exists L; exact BL|]. intros N.
    destruct B' as [L0' [I' B']]. destruct (INI L0' I') as [L0 [I ->]]. destruct (IF L0 I) as [E [NN AL]].
    destruct (SPLIT _ _ _ B') as [T2 [T3 [G2 [_ [_ P2]]]]]. change (po_gt (re_po opte L0)) with (re_gt opte (po_gt L0)) in G2.
    unfold needs_padding in N |- *. rewrite P2 in N |- *.
    destruct (gt_build_re opt opte (po_gt L0) s PO E NN) as [_ GB]. destruct (proj2 (GB T2 G2) N) as [N2 ER]. split; [exact N2|].
    intros AF. exists L0. split; [exact I|]. unfold pool_build. rewrite ER by (rewrite AL; exact AF). reflexivity.
Qed.
Print Assumptions C109_pooling.

(** Kernel size 3 and stride 3 fit an axis of size 6, so 'valid' and 'valid_equiv' are the same. On an axis of size 4 'valid' is refused, and
    'valid_equiv' adds a row on both sides. *)
Definition conv_for (p : string) (n : nat) : result (conv_layer Z) :=
  test_layer 2 false (with_group "P4" "P4" (One 3) 2 (Some (One 3)) (Some (Some p)) None true) (map Some [1; n; n; 2]) some_weights some_weights.
Definition conv_value (p : string) (n : nat) : result (tensor Z) := L <- conv_for p n ;; apply L (some_signal [1; n; n; 2]).
Definition pool_for (p : string) (n : nat) : result pool_layer :=
  test_pool 2 "max" (pooling "P4" "P2" (One 3) (Some (One 3)) (Some (Some p))) (map Some [1; n; n; 4; 1]).
Definition pool_value (p : string) (n : nat) : result (tensor Z) := L <- pool_for p n ;; pool_call L (some_signal [1; n; n; 4; 1]).

Example C109_case_convolutions :
  (is_ok (conv_value "valid" 6) = true /\ conv_value "valid" 6 = conv_value "valid_equiv" 6 /\
   (L <- conv_for "valid_equiv" 6 ;; Ok (needs_padding (cl_gt L))) = Ok (Some false)) /\
  (conv_value "valid" 4 = Err ValueError /\ is_ok (conv_value "valid_equiv" 4) = true /\
   (L <- conv_for "valid_equiv" 4 ;; Ok (needs_padding (cl_gt L))) = Ok (Some true)) /\
  (conv_value "same" 5 = Err ValueError /\ is_ok (conv_value "same_equiv" 5) = true /\ conv_value "same" 4 = conv_value "same_equiv" 4 /\
   is_ok (conv_value "same" 4) = true).
Proof. vm_compute. repeat split. Qed.

Example C109_case_pooling :
  (is_ok (pool_value "valid" 6) = true /\ pool_value "valid" 6 = pool_value "valid_equiv" 6 /\
   (L <- pool_for "valid_equiv" 6 ;; Ok (needs_padding (po_gt L))) = Ok (Some false)) /\
  (pool_value "valid" 4 = Err ValueError /\ is_ok (pool_value "valid_equiv" 4) = true /\
   (L <- pool_for "valid_equiv" 4 ;; Ok (needs_padding (po_gt L))) = Ok (Some true)) /\
  (pool_value "same" 5 = Err ValueError /\ is_ok (pool_value "same_equiv" 5) = true /\ pool_value "same" 4 = pool_value "same_equiv" 4 /\
   is_ok (pool_value "same" 4) = true).
Proof. vm_compute. repeat split. Qed.
