(** C74: what an attempt to build a layer leaves behind when it raises. *)
From Verif Require Import Rebuild BuildTheorems PoolSpec PoolFacts EquivSpec.
Local Open Scope string_scope.
Local Open Scope list_scope.

(** ** The padding layer *)

Definition same_options (P P' : padding_layer) : Prop := set_needs P false None = set_needs P' false None.

(** Equal up to paddings that are not read. *)
Definition pads_alike (P P' : padding_layer) : Prop :=
  same_options P P' /\ pl_needs P = pl_needs P' /\ (pl_needs P = Some true -> pl_pads P = pl_pads P').

Lemma same_refl P : same_options P P.
Proof. reflexivity. Qed.

Lemma same_needs P n q : same_options (set_needs P n q) P.
Proof. destruct P. reflexivity. Qed.

Lemma same_trans P Q R : same_options P Q -> same_options Q R -> same_options P R.
Proof. unfold same_options. congruence. Qed.

Lemma padding_build_same P s Q : padding_build P s = Ok Q -> same_options Q P.
Proof.
  unfold padding_build. destruct (_ && _); [intros E; assert (Q = set_needs P false (pl_pads P)) as -> by congruence; apply same_needs|].
  destruct (cast_sizes _) as [sp|]; [|discriminate]. cbn [bind]. destruct (compute_equivariant_padding _ _) as [[ex to]|]; [|discriminate]. cbn [bind].
  destruct (negb _); [intros E; assert (Q = set_needs P false (pl_pads P)) as -> by congruence; apply same_needs|].
  destruct (mem_str _ _); [discriminate|]. destruct (existsb _ to); [discriminate|].
  intros E; assert (Q = set_needs P true (Some (split_padding P ex))) as -> by congruence. apply same_needs.
Qed.

Lemma padding_attempt_same P s : same_options (padding_attempt P s) P.
Proof.
  unfold padding_attempt. destruct (padding_build P s) as [Q|e] eqn:B; [exact (padding_build_same _ _ _ B)|].
  destruct (cast_sizes _); [|apply same_refl]. destruct (compute_equivariant_padding _ _); [apply same_needs|apply same_refl].
Qed.

Lemma padding_build_again P P' s : same_options P P' ->
  match padding_build P s, padding_build P' s with
  | Ok Q, Ok Q' => pads_alike Q Q'
  | Err e, Err e' => e = e'
  | _, _ => False
  end.
Proof.
  intros S. destruct P as [op bi al dm st k fm tr pd nd], P' as [op' bi' al' dm' st' k' fm' tr' pd' nd'].
  unfold same_options, set_needs in S. cbn in S.
  assert (op' = op /\ bi' = bi /\ al' = al /\ dm' = dm /\ st' = st /\ k' = k /\ fm' = fm /\ tr' = tr) as [-> [-> [-> [-> [-> [-> [-> ->]]]]]]] by (repeat split; congruence).
  clear S. set (P := mkPadding op bi al dm st k fm tr pd nd). set (P' := mkPadding op bi al dm st k fm tr pd' nd').
  assert (CE : forall sp, compute_equivariant_padding P' sp = compute_equivariant_padding P sp) by reflexivity.
  unfold padding_build. change (pl_option P') with (pl_option P). change (pl_allow P') with (pl_allow P).
  change (pl_format P') with (pl_format P). change (pl_dims P') with (pl_dims P).
  assert (AL : forall q q', pads_alike (set_needs P false q) (set_needs P' false q')) by (intros q q'; split; [reflexivity|split; [reflexivity|discriminate]]).
  destruct (_ && pl_allow P); [apply AL|].
  destruct (cast_sizes _) as [sp|]; [|reflexivity]. cbn [bind]. rewrite CE. destruct (compute_equivariant_padding P sp) as [[ex to]|]; [|reflexivity]. cbn [bind].
  destruct (negb _); [apply AL|]. destruct (mem_str _ _); [reflexivity|]. destruct (existsb _ to); [reflexivity|].
  split; [reflexivity|]. split; [reflexivity|]. intros _. reflexivity.
Qed.

Lemma padding_call_alike {A} {ZA : Zero A} P P' (x : tensor A) : pads_alike P P' -> padding_call P x = padding_call P' x.
Proof.
  intros [_ [N Q]]. unfold padding_call. rewrite <- N. destruct (pl_needs P) as [[|]|] eqn:E; try reflexivity. rewrite <- Q by reflexivity. reflexivity.
Qed.

(** ** GroupTransforms *)

(** The shape of a signal on the group. *)
Definition on_group (d : nat) (s : sshape) : bool := (List.length s =? d + 3)%nat.

(** An object that differs in what [build] assigns. *)
Definition rebuilt (T : gtransforms) (domain : option string) (P : padding_layer) (channels_axis : Z) (valued : bool) (reshaped : option sshape) : gtransforms :=
  mkGT (gt_dims T) (gt_transpose T) (gt_group T) (gt_subgroup T) domain (gt_acting T) P (gt_format T) channels_axis (gt_group_axis T) valued reshaped
       (gt_bias_indices T) (gt_kernel_indices T) (gt_pooling_indices T).

Definition moved (T : gtransforms) (ss : list sshape) : Z :=
  if String.eqb (gt_format T) "channels_last" then Z.of_nat (List.length (filter (on_group (gt_dims T)) ss)) else 0%Z.

Lemma attempts_state ss T :
  exists P v r, same_options P (gt_padding T) /\
  fold_left gt_attempt ss T = rebuilt T (if forallb (on_group (gt_dims T)) ss then gt_domain T else None) P (gt_channels_axis T + moved T ss)%Z v r.
Proof.
  revert T. induction ss as [|s ss IH]; intros T.
  - exists (gt_padding T), (gt_group_valued T), (gt_reshaped T). split; [reflexivity|]. cbn [fold_left forallb]. destruct T. unfold moved, rebuilt. cbn.
    destruct (String.eqb _ _); rewrite Z.add_0_r; reflexivity.
  - cbn [fold_left].
    assert (ONE : exists P v r, same_options P (gt_padding T) /\
      gt_attempt T s = rebuilt T (if on_group (gt_dims T) s then gt_domain T else None) P (gt_channels_axis T + moved T [s])%Z v r).
    { unfold gt_attempt. fold (on_group (gt_dims T) s).
      assert (CA : (if String.eqb (gt_format T) "channels_last" && on_group (gt_dims T) s then (gt_channels_axis T + 1)%Z else gt_channels_axis T) = (gt_channels_axis T + moved T [s])%Z).
      { unfold moved. cbn [filter]. destruct (String.eqb _ _), (on_group _ _); cbn [andb List.length]; lia. }
      cbv zeta. rewrite CA. match goal with |- context [match ?c with Ok _ => _ | Err _ => _ end] => destruct c as [rs|] end.
      - exists (padding_attempt (gt_padding T) rs), (on_group (gt_dims T) s), (Some rs). split; [apply padding_attempt_same|reflexivity].
      - exists (gt_padding T), (on_group (gt_dims T) s), (gt_reshaped T). split; [apply same_refl|reflexivity]. }
    destruct ONE as [P1 [v1 [r1 [S1 E1]]]]. rewrite E1.
    destruct (IH (rebuilt T (if on_group (gt_dims T) s then gt_domain T else None) P1 (gt_channels_axis T + moved T [s])%Z v1 r1)) as [P [v [r [S E]]]].
    exists P, v, r. split; [exact (same_trans _ _ _ S S1)|]. rewrite E. unfold rebuilt. cbn [gt_dims gt_transpose gt_group gt_subgroup gt_domain gt_acting gt_padding gt_format gt_channels_axis gt_group_axis gt_bias_indices gt_kernel_indices gt_pooling_indices].
    f_equal.
    + cbn [forallb]. destruct (on_group (gt_dims T) s); cbn [andb]; [reflexivity|]. destruct (forallb _ ss); reflexivity.
    + unfold moved. cbn [gt_format gt_dims filter]. destruct (String.eqb _ _); [|lia]. destruct (on_group _ s); cbn [List.length]; lia.
Qed.

(** The result of the next [build], if the axis is where it was. *)
Definition alike (T T' : gtransforms) : Prop :=
  T' = rebuilt T (gt_domain T) (gt_padding T') (gt_channels_axis T) (gt_group_valued T) (gt_reshaped T) /\ pads_alike (gt_padding T) (gt_padding T').

Lemma gt_build_again T dom P v r s : same_options P (gt_padding T) -> (on_group (gt_dims T) s = true -> dom = gt_domain T) ->
  match gt_build T s, gt_build (rebuilt T dom P (gt_channels_axis T) v r) s with
  | Ok R, Ok R' => alike R R'
  | Err e, Err e' => e = e'
  | _, _ => False
  end.
Proof.
  intros S D. unfold gt_build. cbv zeta.
  change (gt_dims (rebuilt T dom P (gt_channels_axis T) v r)) with (gt_dims T).
  change (gt_domain (rebuilt T dom P (gt_channels_axis T) v r)) with dom.
  change (gt_format (rebuilt T dom P (gt_channels_axis T) v r)) with (gt_format T).
  change (gt_channels_axis (rebuilt T dom P (gt_channels_axis T) v r)) with (gt_channels_axis T).
  change (gt_group (rebuilt T dom P (gt_channels_axis T) v r)) with (gt_group T).
  change (gt_group_axis (rebuilt T dom P (gt_channels_axis T) v r)) with (gt_group_axis T).
  change (gt_padding (rebuilt T dom P (gt_channels_axis T) v r)) with P.
  fold (on_group (gt_dims T) s).
  replace (if on_group (gt_dims T) s then dom else None) with (if on_group (gt_dims T) s then gt_domain T else None)
    by (destruct (on_group (gt_dims T) s); [symmetry; apply D; reflexivity|reflexivity]).
  match goal with |- match bind ?c _ with _ => _ end => destruct c as [rs|e] end; cbn [bind]; [|reflexivity].
  pose proof (padding_build_again (gt_padding T) P rs ltac:(unfold same_options in *; congruence)) as B.
  destruct (padding_build (gt_padding T) rs) as [Q|e], (padding_build P rs) as [Q'|e']; cbn [bind]; try contradiction; [|exact B].
  split; [reflexivity|exact B].
Qed.

Lemma moved_pos T d ss : gt_dims T = d -> gt_format T = "channels_last" -> (exists s', In s' ss /\ List.length s' = d + 3) ->
  exists n, moved T ss = Z.of_nat (S n).
Proof.
  intros D GF [s' [Is Ls']]. unfold moved. rewrite GF, D. cbn [String.eqb Ascii.eqb Bool.eqb].
  destruct (filter (on_group d) ss) as [|w l] eqn:FL; [|exists (List.length l); reflexivity]. exfalso.
  assert (X : In s' (filter (on_group d) ss)) by (apply filter_In; split; [exact Is|apply Nat.eqb_eq; exact Ls']). rewrite FL in X. exact X.
Qed.

Lemma group_after_group T d ss s : gt_dims T = d -> gt_format T = "channels_last" ->
  gt_channels_axis T = Z.of_nat (d + 1) -> gt_group_axis T = Z.of_nat (d + 1) ->
  (exists s', In s' ss /\ List.length s' = d + 3) -> List.length s = d + 3 ->
  exists e, gt_build (fold_left gt_attempt ss T) s = Err e /\ In e [KeyError; AssertionError; IndexError].
Proof.
  intros D GF CA GA EX Ls. destruct (attempts_state ss T) as [P [v [r [_ E]]]]. rewrite E. clear E.
  destruct (moved_pos T d ss D GF EX) as [n M]. rewrite M, CA.
  match goal with |- context [rebuilt T ?h _ _ _ _] => set (dom := h) end. set (T' := rebuilt _ _ _ _ _ _).
  unfold gt_build. cbv zeta. change (gt_dims T') with (gt_dims T). change (gt_format T') with (gt_format T).
  change (gt_domain T') with dom. change (gt_group_axis T') with (gt_group_axis T). change (gt_channels_axis T') with (Z.of_nat (d + 1) + Z.of_nat (S n))%Z.
  change (gt_group T') with (gt_group T).
  rewrite D, GF, GA, Ls, Nat.eqb_refl. cbn [String.eqb Ascii.eqb Bool.eqb andb].
  destruct (subgroup_get (gt_group T) dom) as [idx|e] eqn:SG; cbn [bind].
  2:{ exists e. split; [reflexivity|]. unfold subgroup_get in SG. destruct dom as [h|]; [|left; congruence].
      left. clear - SG. induction (g_subgroup (gt_group T)) as [|[k w] l IH]; cbn [dict_get] in SG; [congruence|].
      destruct (String.eqb h k); [discriminate SG|exact (IH SG)]. }
  rewrite (py_nth_nat _ (d + 1) None) by lia. cbn [bind].
  match goal with |- context [if ?c then _ else _] => destruct c end; [|exists AssertionError; split; [reflexivity|right; left; reflexivity]].
  exists IndexError. split; [|right; right; left; reflexivity]. unfold merge_shapes.
  assert (PN : py_nth s (Z.of_nat (d + 1) + Z.of_nat (S n) + 1) = Err IndexError).
  { unfold py_nth, norm_axis. rewrite Ls.
    replace ((0 <=? Z.of_nat (d + 1) + Z.of_nat (S n) + 1)%Z && (Z.of_nat (d + 1) + Z.of_nat (S n) + 1 <? Z.of_nat (d + 3))%Z)%bool with false
      by (symmetry; apply andb_false_iff; right; apply Z.ltb_ge; lia).
    replace ((- Z.of_nat (d + 3) <=? Z.of_nat (d + 1) + Z.of_nat (S n) + 1)%Z && (Z.of_nat (d + 1) + Z.of_nat (S n) + 1 <? 0)%Z)%bool with false
      by (symmetry; apply andb_false_iff; right; apply Z.ltb_ge; lia). reflexivity. }
  rewrite PN. reflexivity.
Qed.

Lemma group_after_grid T d ss s : gt_dims T = d -> (exists s', In s' ss /\ List.length s' <> d + 3) -> List.length s = d + 3 ->
  gt_build (fold_left gt_attempt ss T) s = Err KeyError.
Proof.
  intros D [s' [Is Ls']] Ls. destruct (attempts_state ss T) as [P [v [r [_ E]]]]. rewrite E. clear E.
  assert (FB : forallb (on_group (gt_dims T)) ss = false).
  { apply not_true_is_false. rewrite forallb_forall. intros X. specialize (X s' Is). unfold on_group in X. apply Nat.eqb_eq in X. lia. }
  rewrite FB. set (T' := rebuilt _ _ _ _ _ _).
  unfold gt_build. cbv zeta. change (gt_dims T') with (gt_dims T). rewrite D, Ls, Nat.eqb_refl. reflexivity.
Qed.

(** ** Convolution layers *)
Section Conv.
Context {A : Type} {RA : Arith A}.

(** Attempts to build, all of which raised; [L'] is the layer afterwards. *)
Inductive conv_failed : conv_layer A -> list sshape -> conv_layer A -> Prop :=
| conv_failed_nil L : conv_failed L [] L
| conv_failed_cons L s ss kinit binit e L1 L' :
    conv_attempt L s kinit binit = (L1, Err e) -> conv_failed L1 ss L' -> conv_failed L (s :: ss) L'.

Lemma conv_failed_state L ss L' : conv_failed L ss L' -> L' = cl_set_gt L (fold_left gt_attempt ss (cl_gt L)).
Proof.
  induction 1 as [L|L s ss ki bi e L1 L' C F IH]; [destruct L; reflexivity|].
  unfold conv_attempt in C. destruct (conv_build L s ki bi); [discriminate C|].
  assert (E : L1 = cl_set_gt L (gt_attempt (cl_gt L) s)) by congruence. subst L1. rewrite IH. reflexivity.
Qed.

Lemma conv_init_inv d tr (a : conv_args A) L : conv_init d tr a = Ok L ->
  gt_dims (cl_gt L) = d /\ gt_format (cl_gt L) = ca_data_format a /\ List.length (cl_strides L) = d /\
  (ca_data_format a = "channels_last" -> gt_channels_axis (cl_gt L) = Z.of_nat (d + 1) /\ gt_group_axis (cl_gt L) = Z.of_nat (d + 1) /\ cl_format L = "channels_last").
Proof.
  unfold conv_init, gt_init. intros I.
  destruct (match ca_group a with Object G => Ok G | ByName s => dict_get group_dict s end) as [G|]; [|discriminate I]. cbn [bind] in I.
  destruct (match parse_subgroup G (ca_subgroup a) with None => Err KeyError | Some s => dict_get group_dict s end) as [H|]; [|discriminate I]. cbn [bind] in I.
  set (da := if tr then (g_name H, g_name G) else (g_name G, g_name H)) in I. destruct da as [dom act]. cbv zeta in I.
  destruct (padding_init _ _ _ _ _ _ _) as [P|]; [|discriminate I]. cbn [bind] in I.
  destruct (standardize_tuple d (ca_kernel_size a)) as [k|]; [|discriminate I]. cbn [bind] in I.
  destruct (standardize_tuple d (match ca_strides a with Some s => s | None => One 1 end)) as [s|] eqn:SS; [|discriminate I]. cbn [bind] in I.
  destruct (standardize_tuple d (match ca_dilation a with Some s => s | None => One 1 end)) as [dl|]; [|discriminate I]. cbn [bind] in I.
  destruct (standardize_padding _) as [p|]; [|discriminate I]. cbn [bind] in I.
  destruct (standardize_format _) as [f|] eqn:SF; [|discriminate I]. cbn [bind] in I.
  destruct (0 <? ca_filters a)%nat in I; [|discriminate I]. destruct (negb _) in I; [|discriminate I].
  assert (EO : forall u v : conv_layer A, Ok u = Ok v -> u = v) by congruence. apply EO in I. subst L.
  cbn [cl_gt gt_dims gt_format cl_strides gt_channels_axis gt_group_axis cl_format].
  split; [reflexivity|]. split; [reflexivity|]. split; [apply (std_pos d _ _ SS)|]. intros F. rewrite F in *.
  replace (String.eqb "channels_last" "channels_first") with false by reflexivity. split; [lia|]. split; [lia|].
  unfold standardize_format in SF. replace (lower "channels_last") with "channels_last" in SF by reflexivity.
  cbn [mem_str existsb String.eqb Ascii.eqb Bool.eqb orb] in SF. congruence.
Qed.

(** C74: once an attempt for a signal on the group has raised, a layer in the format
    channels_last cannot be built for such signals any more. *)
Theorem C74_no_second_attempt d tr (a : conv_args A) L0 ss L s kinit binit :
  conv_init d tr a = Ok L0 -> ca_data_format a = "channels_last" -> conv_failed L0 ss L ->
  (exists s', In s' ss /\ List.length s' = d + 3) -> List.length s = d + 3 ->
  exists e, snd (conv_attempt L s kinit binit) = Err e /\ In e [KeyError; AssertionError; IndexError].
Proof.
  intros I F C [s' [Is Ls']] Ls. destruct (conv_init_inv _ _ _ _ I) as [D [GF [_ Q]]]. destruct (Q F) as [CA [GA _]].
  rewrite (conv_failed_state _ _ _ C).
  destruct (group_after_group (cl_gt L0) d ss s D ltac:(congruence) CA GA (ex_intro _ s' (conj Is Ls')) Ls) as [e [B IE]].
  exists e. split; [|exact IE]. unfold conv_attempt, conv_build. cbn [cl_gt cl_set_gt]. rewrite B. reflexivity.
Qed.

(** After an attempt for a signal on the grid, no attempt for a signal on the group
    succeeds, in either format. *)
Theorem C74_no_group_after_grid d tr (a : conv_args A) L0 ss L s kinit binit :
  conv_init d tr a = Ok L0 -> conv_failed L0 ss L ->
  (exists s', In s' ss /\ List.length s' <> d + 3) -> List.length s = d + 3 ->
  snd (conv_attempt L s kinit binit) = Err KeyError.
Proof.
  intros I C [s' [Is Ls']] Ls. destruct (conv_init_inv _ _ _ _ I) as [D _].
  rewrite (conv_failed_state _ _ _ C). pose proof (group_after_grid (cl_gt L0) d ss s D (ex_intro _ s' (conj Is Ls')) Ls) as B.
  unfold conv_attempt, conv_build. cbn [cl_gt cl_set_gt]. rewrite B. reflexivity.
Qed.

(** In all other cases the attempts leave no trace: the next attempt does what it would
    have done first.  [same_outcome]: both attempts raise the same exception, or both
    succeed and the layers compute the same function. *)
Definition same_outcome (L L' : conv_layer A * result unit) : Prop :=
  snd L = snd L' /\ (snd L = Ok tt -> forall x, snd (conv_apply (fst L) x) = snd (conv_apply (fst L') x)).

Lemma alike_apply (L : conv_layer A) T' x : alike (cl_gt L) T' -> snd (conv_apply L x) = snd (conv_apply (cl_set_gt L T') x).
Proof.
  intros [E PA]. unfold conv_apply, conv_call. change (cl_gt (cl_set_gt L T')) with T'.
  assert (D : gt_dims T' = gt_dims (cl_gt L)) by (rewrite E; reflexivity). rewrite D.
  change (cl_format (cl_set_gt L T')) with (cl_format L). change (cl_channels (cl_set_gt L T')) with (cl_channels L).
  change (cl_kernel (cl_set_gt L T')) with (cl_kernel L). change (cl_bias (cl_set_gt L T')) with (cl_bias L).
  change (cl_filters (cl_set_gt L T')) with (cl_filters L).
  assert (PC : forall k b f, prepare_call T' k b f x = prepare_call (cl_gt L) k b f x).
  { intros k b f. unfold prepare_call, merge_group_axis_and_pad.
    assert (F1 : gt_group_valued T' = gt_group_valued (cl_gt L)) by (rewrite E; reflexivity).
    assert (F2 : gt_group_axis T' = gt_group_axis (cl_gt L)) by (rewrite E; reflexivity).
    assert (F3 : gt_channels_axis T' = gt_channels_axis (cl_gt L)) by (rewrite E; reflexivity). rewrite F1, F2, F3.
    destruct (if gt_group_valued (cl_gt L) then _ else _) as [y|]; [|reflexivity]. cbn [bind]. rewrite (padding_call_alike _ _ y PA).
    destruct (padding_call (gt_padding T') y); [|reflexivity]. cbn [bind]. rewrite E. reflexivity. }
  assert (RC : forall y : tensor A, restore_group_axis T' y = restore_group_axis (cl_gt L) y) by (intros y; rewrite E; reflexivity).
  assert (TR : gt_transpose T' = gt_transpose (cl_gt L)) by (rewrite E; reflexivity).
  assert (CC : snd (conv_call L x) = snd (conv_call (cl_set_gt L T') x)).
  { unfold conv_call. change (cl_gt (cl_set_gt L T')) with T'. change (cl_kernel (cl_set_gt L T')) with (cl_kernel L).
    change (cl_bias (cl_set_gt L T')) with (cl_bias L). change (cl_filters (cl_set_gt L T')) with (cl_filters L).
    destruct (cl_kernel L) as [k|]; [|reflexivity]. rewrite PC. destruct (prepare_call (cl_gt L) k (cl_bias L) (cl_filters L) x) as [[[[k' b'] f'] x']|]; [|reflexivity].
    cbv zeta. rewrite TR. cbn [cl_set_weights cl_set_gt cl_format cl_strides cl_dilation cl_padding cl_filters cl_activation cl_bias cl_gt cl_kernel].
    destruct (base_conv_call _ _ _ _ _ _ _ _ _ _) as [y|]; [|reflexivity]. cbn [bind]. rewrite RC.
    destruct (restore_group_axis (cl_gt L) y); reflexivity. }
  cbv zeta. destruct (_ <? _)%nat; [reflexivity|]. destruct (cl_channels L) as [c|]; [|exact CC]. destruct (_ =? c)%nat; [exact CC|reflexivity].
Qed.

Lemma build_conv_alike T T' (kernel : tensor A) bias : alike T T' ->
  match gt_build_conv T kernel bias, gt_build_conv T' kernel bias with
  | Ok R, Ok R' => alike R R'
  | Err e, Err e' => e = e'
  | _, _ => False
  end.
Proof.
  intros [E PA]. unfold gt_build_conv.
  assert (B1 : forall b : tensor A, compute_repeated_bias_indices T' b = compute_repeated_bias_indices T b) by (intros b; rewrite E; reflexivity).
  assert (B2 : compute_transformed_kernel_indices T' kernel = compute_transformed_kernel_indices T kernel) by (rewrite E; reflexivity).
  assert (B3 : gt_bias_indices T' = gt_bias_indices T) by (rewrite E; reflexivity). rewrite B2, B3.
  assert (B4 : match bias with Some b => i <- compute_repeated_bias_indices T' b ;; Ok (Some i) | None => Ok (gt_bias_indices T) end
             = match bias with Some b => i <- compute_repeated_bias_indices T b ;; Ok (Some i) | None => Ok (gt_bias_indices T) end)
    by (destruct bias; [rewrite B1|]; reflexivity).
  rewrite B4. match goal with |- match bind ?c _ with _ => _ end => destruct c as [b|] end; cbn [bind]; [|reflexivity].
  destruct (compute_transformed_kernel_indices T kernel) as [k|]; cbn [bind]; [|reflexivity].
  split; [|exact PA]. rewrite E. reflexivity.
Qed.

Lemma conv_build_alike (L : conv_layer A) dom P v r s kinit binit :
  same_options P (gt_padding (cl_gt L)) -> (on_group (gt_dims (cl_gt L)) s = true -> dom = gt_domain (cl_gt L)) ->
  match conv_build L s kinit binit, conv_build (cl_set_gt L (rebuilt (cl_gt L) dom P (gt_channels_axis (cl_gt L)) v r)) s kinit binit with
  | Ok R, Ok R' => R' = cl_set_gt R (cl_gt R') /\ alike (cl_gt R) (cl_gt R')
  | Err e, Err e' => e = e'
  | _, _ => False
  end.
Proof.
  intros S D. unfold conv_build. set (T1 := rebuilt _ _ _ _ _ _). change (cl_gt (cl_set_gt L T1)) with T1.
  pose proof (gt_build_again (cl_gt L) dom P v r s S D) as B. fold T1 in B.
  destruct (gt_build (cl_gt L) s) as [R|e], (gt_build T1 s) as [R'|e']; cbn [bind]; try contradiction; [|exact B].
  cbv zeta. pose proof B as B'. destruct B' as [E PA].
  assert (Q1 : gt_reshaped R' = gt_reshaped R) by (rewrite E; reflexivity). rewrite Q1.
  assert (Q2 : gt_transpose R' = gt_transpose R) by (rewrite E; reflexivity). rewrite Q2.
  change (cl_format (cl_set_gt (cl_set_gt L T1) R')) with (cl_format L). change (cl_format (cl_set_gt L R)) with (cl_format L).
  destruct (py_nth _ _) as [o|]; cbn [bind]; [|reflexivity].
  destruct o as [c|]; cbn [bind]; [|reflexivity].
  assert (Q3 : conv_compute_output_shape (cl_set_gt (cl_set_gt L T1) R') = conv_compute_output_shape (cl_set_gt L R)).
  { rewrite E. reflexivity. }
  rewrite Q3. match goal with |- match bind ?c _ with _ => _ end => destruct c as [os|] end; cbn [bind]; [|reflexivity].
  cbn [cl_set_gt cl_kernel_size cl_filters cl_use_bias].
  match goal with |- match bind (gt_build_conv R ?k ?b) _ with _ => _ end => pose proof (build_conv_alike R R' k b B) as C; destruct (gt_build_conv R k b) as [R1|], (gt_build_conv R' k b) as [R1'|] end; cbn [bind]; try contradiction; [|exact C].
  destruct C as [E1 PA1].
  assert (Q4 : gt_group_valued R1' = gt_group_valued R1) by (rewrite E1; reflexivity). rewrite Q4.
  assert (Q5 : gt_channels_axis R1' = gt_channels_axis R1) by (rewrite E1; reflexivity). rewrite Q5.
  match goal with |- match bind ?c _ with _ => _ end => destruct c as [ch|] end; cbn [bind]; [|reflexivity].
  split; [reflexivity|]. split; [exact E1|exact PA1].
Qed.

Theorem C74_other_attempts_leave_no_trace d tr (a : conv_args A) L0 ss L s kinit binit :
  conv_init d tr a = Ok L0 -> conv_failed L0 ss L ->
  (ca_data_format a = "channels_last" /\ (forall s', In s' ss -> List.length s' <> d + 3) /\ List.length s <> d + 3 \/
   ca_data_format a <> "channels_last" /\ ((forall s', In s' ss -> List.length s' = d + 3) \/ List.length s <> d + 3)) ->
  same_outcome (conv_attempt L0 s kinit binit) (conv_attempt L s kinit binit).
Proof.
  intros I C H. destruct (conv_init_inv _ _ _ _ I) as [D [GF _]].
  rewrite (conv_failed_state _ _ _ C). destruct (attempts_state ss (cl_gt L0)) as [P [v [r [S E]]]]. rewrite E. clear E.
  assert (M : (gt_channels_axis (cl_gt L0) + moved (cl_gt L0) ss)%Z = gt_channels_axis (cl_gt L0)).
  { unfold moved. rewrite GF, D. destruct H as [[-> [N _]]|[F _]].
    - cbn [String.eqb Ascii.eqb Bool.eqb]. replace (filter (on_group d) ss) with (@nil sshape); [cbn [List.length]; lia|].
      symmetry. clear - N. induction ss as [|s ss IH]; [reflexivity|]. cbn [filter].
      replace (on_group d s) with false by (symmetry; apply Nat.eqb_neq, N; left; reflexivity). apply IH. intros s' Is. apply N. right. exact Is.
    - destruct (String.eqb_spec (ca_data_format a) "channels_last") as [Q|_]; [contradiction|lia]. }
  rewrite M. set (dom := if forallb _ ss then _ else _).
  assert (DM : on_group (gt_dims (cl_gt L0)) s = true -> dom = gt_domain (cl_gt L0)).
  { unfold dom. rewrite D. intros V. apply Nat.eqb_eq in V. destruct H as [[_ [_ N]]|[_ [N|N]]]; try contradiction.
    replace (forallb (on_group d) ss) with true; [reflexivity|]. symmetry. apply forallb_forall. intros s' Is. apply Nat.eqb_eq, N, Is. }
  pose proof (conv_build_alike L0 dom P v r s kinit binit S DM) as B. unfold conv_attempt.
  destruct (conv_build L0 s kinit binit) as [R|e], (conv_build (cl_set_gt L0 _) s kinit binit) as [R'|e']; try contradiction.
  - split; [reflexivity|]. intros _ x. cbn [fst]. destruct B as [B1 B2]. rewrite B1. apply alike_apply. exact B2.
  - split; [cbn [snd]; congruence|]. cbn [snd]. discriminate.
Qed.

(** A layer in the format channels_last that was first tried with a signal on the group
    can be built for signals on the grid, but cannot be called. *)
Lemma split_out_of_range (y : tensor A) n ax : (Z.of_nat (rank y) <= ax)%Z -> exists e, split_axes y n ax = Err e.
Proof.
  intros H. exists IndexError. unfold split_axes, split_axes_st, split_shapes, py_nth, norm_axis. rewrite map_length. unfold rank in H.
  replace ((0 <=? ax)%Z && (ax <? Z.of_nat (List.length (shape y)))%Z)%bool with false by (symmetry; apply andb_false_iff; right; apply Z.ltb_ge; lia).
  replace ((- Z.of_nat (List.length (shape y)) <=? ax)%Z && (ax <? 0)%Z)%bool with false by (symmetry; apply andb_false_iff; right; apply Z.ltb_ge; lia).
  reflexivity.
Qed.

Lemma output_rank tr s dl p f act (k : tensor A) b x y : base_conv_call tr "channels_last" s dl p f act k b x = Ok y -> rank y <= List.length s + 2.
Proof.
  unfold base_conv_call, in_format. cbn [String.eqb Ascii.eqb Bool.eqb].
  assert (Q : forall z, (if tr then conv_transpose_last x k s dl p else conv_last x k s dl p) = Ok z -> rank z <= List.length s + 2).
  { intros z. unfold rank. destruct tr.
    - unfold conv_transpose_last. cbv zeta. destruct (_ && _)%bool; [|discriminate]. destruct (_ =? _)%nat; [|discriminate].
      intros E. match type of E with Ok ?u = _ => assert (Q : z = u) by congruence; rewrite Q end. cbn [shape tab List.length].
      rewrite app_length, map_length, combine_length. cbn [List.length]. lia.
    - unfold conv_last. cbv zeta. 
      repeat (match goal with |- (if ?c then _ else _) = _ -> _ => destruct c; [|discriminate] | |- bind ?c _ = _ -> _ => destruct c; cbn [bind]; [|discriminate] end).
      intros E. match type of E with Ok ?u = _ => assert (Q : z = u) by congruence; rewrite Q end. cbn [shape tab List.length].
      rewrite app_length, map_length, combine_length. cbn [List.length]. lia. }
  destruct (if tr then _ else _) as [z|]; [|discriminate]. cbn [bind]. specialize (Q z eq_refl).
  unfold add_bias. destruct b as [b|]; [|cbn [bind]; intros E; assert (y = tmap act z) by congruence; subst y; exact Q].
  destruct (reshape b _); [|discriminate]. cbn [bind]. cbv zeta. destruct (_ =? f)%nat; [|discriminate]. cbn [bind]. intros E.
  match type of E with Ok ?u = _ => assert (QQ : y = u) by congruence; rewrite QQ end. exact Q.
Qed.

Theorem C74_lifting_after_group_attempt_cannot_be_called d tr (a : conv_args A) L0 ss L s kinit binit L1 :
  conv_init d tr a = Ok L0 -> ca_data_format a = "channels_last" -> conv_failed L0 ss L ->
  (exists s', In s' ss /\ List.length s' = d + 3) -> List.length s <> d + 3 ->
  conv_attempt L s kinit binit = (L1, Ok tt) ->
  forall x, exists e, snd (conv_apply L1 x) = Err e.
Proof.
  intros I F C [s' [Is Ls']] Ls AT x. destruct (conv_init_inv _ _ _ _ I) as [D [GF [LS Q]]]. destruct (Q F) as [CA [GA CF]].
  rewrite (conv_failed_state _ _ _ C) in AT. destruct (attempts_state ss (cl_gt L0)) as [P [v [r [_ E]]]]. rewrite E in AT. clear E.
  destruct (moved_pos (cl_gt L0) d ss D ltac:(congruence) (ex_intro _ s' (conj Is Ls'))) as [n M]. rewrite M, CA in AT. set (T := rebuilt _ _ _ _ _ _) in AT.
  assert (BT : forall R, gt_build T s = Ok R -> gt_group_valued R = false /\ gt_channels_axis R = (Z.of_nat (d + 1) + Z.of_nat (S n))%Z).
  { intros R. unfold gt_build. cbv zeta. change (gt_dims T) with (gt_dims (cl_gt L0)). rewrite D.
    replace (List.length s =? d + 3)%nat with false by (symmetry; apply Nat.eqb_neq; exact Ls). rewrite andb_false_r. cbn [bind].
    destruct (padding_build (gt_padding T) s); [|discriminate]. cbn [bind]. intros E. 
    match type of E with Ok ?u = _ => assert (QQ : R = u) by congruence; rewrite QQ end. split; reflexivity. }
  assert (BL : gt_group_valued (cl_gt L1) = false /\ gt_channels_axis (cl_gt L1) = (Z.of_nat (d + 1) + Z.of_nat (S n))%Z /\ cl_format L1 = "channels_last" /\ cl_strides L1 = cl_strides L0).
  { unfold conv_attempt in AT. destruct (conv_build _ _ _ _) as [R|] eqn:CB; [|discriminate AT]. assert (R = L1) by congruence. subst R. clear AT.
    unfold conv_build in CB. change (cl_gt (cl_set_gt L0 T)) with T in CB. destruct (gt_build T s) as [R|]; [|discriminate CB]. cbn [bind] in CB. cbv zeta in CB.
    destruct (BT R eq_refl) as [V W]. destruct (py_nth _ _) as [[c|]|]; cbn [bind] in CB; try discriminate CB.
    match type of CB with bind ?c _ = _ => destruct c end; [|discriminate CB]. cbn [bind] in CB.
    destruct (gt_build_conv R _ _) as [R1|] eqn:BC; [|discriminate CB]. cbn [bind] in CB.
    match type of CB with bind ?c _ = _ => destruct c end; [|discriminate CB]. cbn [bind] in CB.
    match type of CB with Ok ?u = _ => assert (QQ : L1 = u) by congruence; rewrite QQ end.
    assert (X : gt_group_valued R1 = gt_group_valued R /\ gt_channels_axis R1 = gt_channels_axis R).
    { unfold gt_build_conv in BC. match type of BC with bind ?c _ = _ => destruct c end; [|discriminate BC]. cbn [bind] in BC.
      destruct (compute_transformed_kernel_indices R _); [|discriminate BC]. cbn [bind] in BC.
      match type of BC with Ok ?u = _ => assert (QR : R1 = u) by congruence; rewrite QR end. split; reflexivity. }
    destruct X as [X1 X2]. cbn [cl_set_channels cl_set_weights cl_set_gt cl_gt cl_format cl_strides]. repeat split; congruence. }
  destruct BL as [BV [BC [BF BS]]].
  assert (CC : exists e, snd (conv_call L1 x) = Err e).
  { unfold conv_call. destruct (cl_kernel L1) as [k|]; [|eexists; reflexivity].
    destruct (prepare_call _ _ _ _ _) as [[[[k' b'] f'] x']|e]; [|eexists; reflexivity]. cbv zeta. rewrite BF.
    destruct (base_conv_call _ _ _ _ _ _ _ _ _ _) as [y|e] eqn:BCC; cbn [bind]; [|eexists; reflexivity].
    apply output_rank in BCC. rewrite BS, LS in BCC.
    unfold restore_group_axis. rewrite BV, BC. cbn [andb]. destruct (subgroup_get _ _) as [act|]; cbn [bind]; [|eexists; reflexivity].
    destruct (split_out_of_range y (List.length act) (Z.of_nat (d + 1) + Z.of_nat (S n))%Z ltac:(lia)) as [e ->]. eexists; reflexivity. }
  unfold conv_apply. cbv zeta. destruct (_ <? _)%nat; [eexists; reflexivity|]. destruct (cl_channels L1) as [c|]; [|exact CC].
  destruct (_ =? c)%nat; [exact CC|eexists; reflexivity].
Qed.
(** A layer in the format channels_last that works on signals on the group: calling [build]
    again for such signals raises, and then every call raises. *)
Lemma build_axis (T : gtransforms) s R : gt_build T s = Ok R ->
  exists dom P r, R = rebuilt T dom P (if String.eqb (gt_format T) "channels_last" && on_group (gt_dims T) s then (gt_channels_axis T + 1)%Z else gt_channels_axis T)
    (on_group (gt_dims T) s) r.
Proof.
  unfold gt_build. cbv zeta. match goal with |- bind ?c _ = _ -> _ => destruct c as [rs|] end; [|discriminate]. cbn [bind].
  destruct (padding_build (gt_padding T) rs) as [P|]; [|discriminate]. cbn [bind]. intros E.
  match type of E with Ok ?u = _ => assert (QQ : R = u) by congruence; rewrite QQ end. exists (if on_group (gt_dims T) s then gt_domain T else None), P, (Some rs). reflexivity.
Qed.

Lemma conv_build_axis (L : conv_layer A) s kinit binit R : conv_build L s kinit binit = Ok R ->
  gt_dims (cl_gt R) = gt_dims (cl_gt L) /\ gt_format (cl_gt R) = gt_format (cl_gt L) /\ gt_group_axis (cl_gt R) = gt_group_axis (cl_gt L) /\
  gt_channels_axis (cl_gt R) = (if String.eqb (gt_format (cl_gt L)) "channels_last" && on_group (gt_dims (cl_gt L)) s then (gt_channels_axis (cl_gt L) + 1)%Z else gt_channels_axis (cl_gt L)).
Proof.
  unfold conv_build. destruct (gt_build (cl_gt L) s) as [T|] eqn:B; [|discriminate]. cbn [bind]. cbv zeta. intros CB.
  destruct (build_axis _ _ _ B) as [dom [P [r E]]].
  destruct (py_nth _ _) as [[c|]|]; cbn [bind] in CB; try discriminate CB.
  match type of CB with bind ?c _ = _ => destruct c end; [|discriminate CB]. cbn [bind] in CB.
  destruct (gt_build_conv T _ _) as [T1|] eqn:BC; [|discriminate CB]. cbn [bind] in CB.
  match type of CB with bind ?c _ = _ => destruct c end; [|discriminate CB]. cbn [bind] in CB.
  match type of CB with Ok ?u = _ => assert (QQ : R = u) by congruence; rewrite QQ end. cbn [cl_set_channels cl_set_weights cl_set_gt cl_gt].
  unfold gt_build_conv in BC. match type of BC with bind ?c _ = _ => destruct c end; [|discriminate BC]. cbn [bind] in BC.
  destruct (compute_transformed_kernel_indices T _); [|discriminate BC]. cbn [bind] in BC.
  match type of BC with Ok ?u = _ => assert (QR : T1 = u) by congruence; rewrite QR end. rewrite E. repeat split; reflexivity.
Qed.

Lemma merge_out_of_range {B} {ZB : Zero B} (x : tensor B) ax t : (Z.of_nat (rank x) <= t)%Z -> exists e, merge_axes x ax t = Err e.
Proof.
  intros H. exists IndexError. unfold merge_axes, merge_axes_st, merge_shapes, py_nth at 1, norm_axis. rewrite map_length. unfold rank in H.
  replace ((0 <=? t)%Z && (t <? Z.of_nat (List.length (shape x)))%Z)%bool with false by (symmetry; apply andb_false_iff; right; apply Z.ltb_ge; lia).
  replace ((- Z.of_nat (List.length (shape x)) <=? t)%Z && (t <? 0)%Z)%bool with false by (symmetry; apply andb_false_iff; right; apply Z.ltb_ge; lia).
  reflexivity.
Qed.

(** What [gt_attempt] leaves of a built object. *)
Lemma attempt_axis T s : gt_dims (gt_attempt T s) = gt_dims T /\
  gt_group_valued (gt_attempt T s) = on_group (gt_dims T) s /\
  gt_channels_axis (gt_attempt T s) = (if String.eqb (gt_format T) "channels_last" && on_group (gt_dims T) s then (gt_channels_axis T + 1)%Z else gt_channels_axis T).
Proof. unfold gt_attempt. cbv zeta. match goal with |- context [match ?c with Ok _ => _ | Err _ => _ end] => destruct c end; repeat split; reflexivity. Qed.

Theorem C74_building_again_breaks_the_layer d tr (a : conv_args A) L0 s kinit binit L s' kinit' binit' :
  conv_init d tr a = Ok L0 -> ca_data_format a = "channels_last" -> List.length s = d + 3 -> conv_build L0 s kinit binit = Ok L -> List.length s' = d + 3 ->
  exists L' e, conv_attempt L s' kinit' binit' = (L', Err e) /\
  forall x, rank x = d + 3 -> exists e', snd (conv_apply L' x) = Err e'.
Proof.
  intros I F Ls B Ls'. destruct (conv_init_inv _ _ _ _ I) as [D [GF [_ Q]]]. destruct (Q F) as [CA [GA CF]].
  destruct (conv_build_axis _ _ _ _ _ B) as [D1 [F1 [G1 C1]]]. rewrite D in *. rewrite GF, F in *. rewrite GA in *. rewrite CA in *.
  assert (OG : forall s, List.length s = d + 3 -> on_group d s = true) by (intros s0 H; apply Nat.eqb_eq; exact H).
  rewrite (OG s Ls) in C1. cbn [String.eqb Ascii.eqb Bool.eqb andb] in C1.
  destruct (attempt_axis (cl_gt L) s') as [D2 [V2 C2]]. rewrite D1, F1, C1, (OG s' Ls') in *. cbn [String.eqb Ascii.eqb Bool.eqb andb] in C2.
  assert (BE : exists e, conv_build L s' kinit' binit' = Err e).
  { unfold conv_build. assert (GE : exists e, gt_build (cl_gt L) s' = Err e).
    { unfold gt_build. cbv zeta. rewrite D1, F1, C1, Ls', Nat.eqb_refl. cbn [String.eqb Ascii.eqb Bool.eqb andb].
      destruct (subgroup_get _ _); cbn [bind]; [|eexists; reflexivity]. destruct (py_nth s' _); cbn [bind]; [|eexists; reflexivity].
      match goal with |- context [if ?c then _ else _] => destruct c end; [|eexists; reflexivity]. unfold merge_shapes.
      assert (PN : py_nth s' (Z.of_nat (d + 1) + 1 + 1) = Err IndexError).
      { unfold py_nth, norm_axis. rewrite Ls'.
        replace ((0 <=? Z.of_nat (d + 1) + 1 + 1)%Z && (Z.of_nat (d + 1) + 1 + 1 <? Z.of_nat (d + 3))%Z)%bool with false
          by (symmetry; apply andb_false_iff; right; apply Z.ltb_ge; lia).
        replace ((- Z.of_nat (d + 3) <=? Z.of_nat (d + 1) + 1 + 1)%Z && (Z.of_nat (d + 1) + 1 + 1 <? 0)%Z)%bool with false
          by (symmetry; apply andb_false_iff; right; apply Z.ltb_ge; lia). reflexivity. }
      rewrite PN. eexists. reflexivity. }
    destruct GE as [e ->]. eexists. reflexivity. }
  destruct BE as [e BE]. unfold conv_attempt. rewrite BE. exists (cl_set_gt L (gt_attempt (cl_gt L) s')), e. split; [reflexivity|].
  intros x RX.
  assert (CC : exists e', snd (conv_call (cl_set_gt L (gt_attempt (cl_gt L) s')) x) = Err e').
  { unfold conv_call. cbn [cl_set_gt cl_kernel cl_gt cl_bias cl_filters]. destruct (cl_kernel L); [|eexists; reflexivity].
    unfold prepare_call, merge_group_axis_and_pad. rewrite V2, C2.
    destruct (merge_out_of_range x (gt_group_axis (gt_attempt (cl_gt L) s')) (Z.of_nat (d + 1) + 1 + 1)%Z ltac:(lia)) as [e' ->]. eexists. reflexivity. }
  unfold conv_apply. cbv zeta. destruct (_ <? _)%nat; [eexists; reflexivity|].
  destruct (cl_channels _) as [c|]; [|exact CC]. destruct (_ =? c)%nat; [exact CC|eexists; reflexivity].
Qed.
End Conv.

Print Assumptions C74_no_second_attempt.
Print Assumptions C74_no_group_after_grid.
Print Assumptions C74_other_attempts_leave_no_trace.
Print Assumptions C74_lifting_after_group_attempt_cannot_be_called.
Print Assumptions C74_building_again_breaks_the_layer.

(** ** Pooling layers *)
Inductive pool_failed : pool_layer -> list sshape -> pool_layer -> Prop :=
| pool_failed_nil L : pool_failed L [] L
| pool_failed_cons L s ss e L1 L' : pool_attempt L s = (L1, Err e) -> pool_failed L1 ss L' -> pool_failed L (s :: ss) L'.

Lemma pool_failed_state L ss L' : pool_failed L ss L' -> L' = po_set_gt L (fold_left gt_attempt ss (po_gt L)).
Proof.
  induction 1 as [L|L s ss e L1 L' C F IH]; [destruct L; reflexivity|].
  unfold pool_attempt in C. destruct (pool_build L s); [discriminate C|].
  assert (E : L1 = po_set_gt L (gt_attempt (po_gt L) s)) by congruence. subst L1. rewrite IH. reflexivity.
Qed.

Lemma pool_init_inv d t (a : pool_args) L : pool_init d t a = Ok L ->
  gt_dims (po_gt L) = d /\ gt_format (po_gt L) = pa_data_format a /\
  (pa_data_format a = "channels_last" -> gt_channels_axis (po_gt L) = Z.of_nat (d + 1) /\ gt_group_axis (po_gt L) = Z.of_nat (d + 1)).
Proof.
  unfold pool_init, gt_init. intros I.
  destruct (match pa_group a with Object G => Ok G | ByName s => dict_get group_dict s end) as [G|]; [|discriminate I]. cbn [bind] in I.
  destruct (match parse_subgroup G (pa_subgroup a) with None => Err KeyError | Some s => dict_get group_dict s end) as [H|]; [|discriminate I]. cbn [bind] in I. cbv zeta in I.
  destruct (padding_init _ _ _ _ _ _ _) as [P|]; [|discriminate I]. cbn [bind] in I.
  destruct (standardize_tuple d (pa_pool_size a)) as [k|]; [|discriminate I]. cbn [bind] in I.
  destruct (standardize_tuple d (match pa_strides a with Some s => s | None => pa_pool_size a end)) as [s|]; [|discriminate I]. cbn [bind] in I.
  destruct (standardize_format _) as [f|]; [|discriminate I]. cbn [bind] in I.
  assert (EO : forall u v : pool_layer, Ok u = Ok v -> u = v) by congruence. apply EO in I. subst L.
  cbn [po_gt gt_dims gt_format gt_channels_axis gt_group_axis]. split; [reflexivity|]. split; [reflexivity|]. intros F. rewrite F in *.
  replace (String.eqb "channels_last" "channels_first") with false by reflexivity. split; lia.
Qed.

Theorem C74_pooling_no_second_attempt d t (a : pool_args) L0 ss L s :
  pool_init d t a = Ok L0 -> pool_failed L0 ss L -> List.length s = d + 3 ->
  (pa_data_format a = "channels_last" -> (exists s', In s' ss /\ List.length s' = d + 3) ->
   exists e, snd (pool_attempt L s) = Err e /\ In e [KeyError; AssertionError; IndexError]) /\
  ((exists s', In s' ss /\ List.length s' <> d + 3) -> snd (pool_attempt L s) = Err KeyError).
Proof.
  intros I C Ls. destruct (pool_init_inv _ _ _ _ I) as [D [GF Q]]. rewrite (pool_failed_state _ _ _ C). split.
  - intros F EX. destruct (Q F) as [CA GA]. destruct (group_after_group (po_gt L0) d ss s D ltac:(congruence) CA GA EX Ls) as [e [B IE]].
    exists e. split; [|exact IE]. unfold pool_attempt, pool_build. cbn [po_gt po_set_gt]. rewrite B. reflexivity.
  - intros EX. pose proof (group_after_grid (po_gt L0) d ss s D EX Ls) as B.
    unfold pool_attempt, pool_build. cbn [po_gt po_set_gt]. rewrite B. reflexivity.
Qed.

Print Assumptions C74_pooling_no_second_attempt.

(** ** Cases *)

(** The outcomes of attempts one after the other. *)
Fixpoint outcomes (L : conv_layer Z) (ss : list sshape) : list (result unit) :=
  match ss with
  | [] => []
  | s :: ss => let '(L', r) := conv_attempt L s some_weights some_weights in r :: outcomes L' ss
  end.

Definition tried (fmt : string) (ss : list sshape) : list (result unit) :=
  match conv_init 2 false (mkConvArgs (ByName "P4") (Some "") (One 3) 2 None None None fmt false true (fun z => z)) with
  | Ok L => outcomes L ss
  | Err _ => []
  end.

Definition right_shape : sshape := [None; Some 5; Some 5; Some 4; Some 1].
Definition wrong_group : sshape := [None; Some 5; Some 5; Some 8; Some 1].

Example C74_case :
  tried "channels_last" [right_shape] = [Ok tt] /\
  tried "channels_last" [wrong_group; right_shape] = [Err AssertionError; Err IndexError] /\
  tried "channels_last" [wrong_group; wrong_group; [None; Some 5; Some 5; Some 1]] = [Err AssertionError; Err AssertionError; Ok tt] /\
  tried "channels_last" [[None; Some 5; Some 5; None]; right_shape] = [Err ValueError; Err KeyError] /\
  tried "channels_last" [[None; Some 5; Some 5; None]; [None; Some 5; Some 5; Some 1]] = [Err ValueError; Ok tt] /\
  tried "channels_first" [[None; Some 1; Some 5; Some 5; Some 8]; [None; Some 1; Some 5; Some 5; Some 4]] = [Err AssertionError; Ok tt].
Proof. vm_compute. repeat split; reflexivity. Qed.

(** A layer called on a signal after the attempts. *)
Fixpoint after (L : conv_layer Z) (ss : list sshape) : conv_layer Z :=
  match ss with
  | [] => L
  | s :: ss => after (fst (conv_attempt L s some_weights some_weights)) ss
  end.

Definition raises (ss : list sshape) (x : list nat) : option bool :=
  match conv_init 2 false (mkConvArgs (ByName "P4") (Some "") (One 3) 2 None None None "channels_last" false true (fun z => z)) with
  | Ok L => Some (match snd (conv_apply (after L ss) (some_signal x)) with Ok _ => false | Err _ => true end)
  | Err _ => None
  end.

Example C74_case_calls :
  raises [[None; Some 5; Some 5; Some 1]] [1; 5; 5; 1] = Some false /\
  raises [wrong_group; [None; Some 5; Some 5; Some 1]] [1; 5; 5; 1] = Some true /\
  raises [right_shape] [1; 5; 5; 4; 1] = Some false /\
  raises [right_shape; right_shape] [1; 5; 5; 4; 1] = Some true.
Proof. vm_compute. repeat split; reflexivity. Qed.
