(** C30: layers with other options that are used before they are built. *)
From Verif Require Import Grouped Activations Traced OutputPadding Properties_FormatShapes.
From Verif Require Import EquivSpec.
Local Open Scope string_scope.
Local Open Scope list_scope.

(** [call] of layers with an activation that is not entrywise ([F]), with Keras' [groups], traced with unknown sizes, and with
    output_padding; [compute_output_shape] with output_padding. *)
Theorem C30_before_build_other_calls {A} {RA : Arith A} d tr (a : conv_args A) L0 (x : tensor A) : conv_init d tr a = Ok L0 ->
  (forall F, vector_call F L0 x = (L0, Err AttributeError)) /\
  (forall unknown, conv_call_traced unknown L0 x = (L0, Err AttributeError)) /\
  (forall op, opadded_call op L0 x = (L0, Err AttributeError) /\ opadded_compute_output_shape op L0 = Err AttributeError) /\
  (forall groups L1, grouped_init d groups a = Ok L1 -> grouped_call L1 x = (L1, Err AttributeError)).
Proof.
  intros I. destruct (C30_before_build d tr a L0 x I) as [CO CC].
  assert (G : forall tr' L, conv_init d tr' a = Ok L -> cl_kernel L = None /\ gt_reshaped (cl_gt L) = None).
  { intros tr' L. unfold conv_init. destruct (gt_init _ _ _ _ _ _ _ _ _) as [T|] eqn:GT; [|discriminate]. cbn [bind].
    assert (R : gt_reshaped T = None).
    { revert GT. unfold gt_init. destruct (match ca_group a with Object G => Ok G | ByName s => dict_get group_dict s end) as [G|]; [|discriminate].
      cbn [bind]. destruct (match parse_subgroup G (ca_subgroup a) with None => Err KeyError | Some s => dict_get group_dict s end) as [H|]; [|discriminate].
      cbn [bind]. destruct (if tr' then _ else _) as [dom act]. cbv zeta. destruct (padding_init _ _ _ _ _ _ _) as [P|]; [|discriminate].
      cbn [bind]. intros E. assert (EO : forall u v : gtransforms, Ok u = Ok v -> u = v) by congruence. apply EO in E. rewrite <- E. reflexivity. }
    destruct (standardize_tuple d (ca_kernel_size a)) as [k|]; [|discriminate]. cbn [bind].
    destruct (standardize_tuple d (match ca_strides a with Some s => s | None => One 1 end)) as [s|]; [|discriminate]. cbn [bind].
    destruct (standardize_tuple d (match ca_dilation a with Some s => s | None => One 1 end)) as [dl|]; [|discriminate]. cbn [bind].
    destruct (standardize_padding _) as [p|]; [|discriminate]. cbn [bind]. destruct (standardize_format _) as [f|]; [|discriminate]. cbn [bind].
    destruct (0 <? ca_filters a)%nat; [|discriminate]. destruct (negb _); [|discriminate]. intros E.
    assert (EO : forall u v : conv_layer A, Ok u = Ok v -> u = v) by congruence. apply EO in E. rewrite <- E. split; [reflexivity|exact R]. }
  destruct (G tr L0 I) as [K R]. split; [intros F; unfold vector_call; rewrite K; reflexivity|].
  split; [intros u; unfold conv_call_traced; rewrite K; reflexivity|].
  split; [intros op; split; [unfold opadded_call; rewrite K; reflexivity|unfold opadded_compute_output_shape; rewrite R; reflexivity]|].
  intros groups L1 I1. unfold grouped_init in I1. destruct (conv_init d false a) as [L|] eqn:IL; [|discriminate I1]. cbn [bind] in I1.
  destruct (_ && _) in I1; [|discriminate I1]. assert (EO : forall u v : conv_layer A, Ok u = Ok v -> u = v) by congruence. apply EO in I1. subst L1.
  destruct (G false L IL) as [K1 _]. unfold grouped_call. rewrite K1. reflexivity.
Qed.
Print Assumptions C30_before_build_other_calls.

Example C30_case_before_build_other_calls :
  let a := with_group "P4" "" (One 3) 2 None (Some (Some "valid")) None true in
  let x := some_signal [1; 5; 5; 1] in
  match conv_init 2 true a, grouped_init 2 2 a with
  | Ok L, Ok L1 => snd (opadded_call [0; 0] L x) = Err AttributeError /\ snd (grouped_call L1 x) = Err AttributeError
  | _, _ => False
  end.
Proof. vm_compute. split; reflexivity. Qed.
