(** C40, C41: configurations of layers and names of subgroups. *)
From Verif Require Import LayerBatch Properties_Pooling.
Local Open Scope string_scope.
Local Open Scope list_scope.

(** C40: [get_config] raises, for every convolution layer and every pooling layer, in
    every state (before and after building, whatever the arguments). *)
Theorem C40_get_config_refuted {A} (L : conv_layer A) : conv_get_config L = Err AttributeError.
Proof. reflexivity. Qed.

Theorem C40_pooling_get_config_refuted (L : pool_layer) : pool_get_config L = Err AttributeError.
Proof. reflexivity. Qed.

(** A layer with another name for the subgroup. *)
Definition with_subgroup {A} (a : conv_args A) (H : option string) : conv_args A :=
  mkConvArgs (ca_group a) H (ca_kernel_size a) (ca_filters a) (ca_strides a) (ca_padding a) (ca_dilation a) (ca_data_format a)
             (ca_allow a) (ca_use_bias a) (ca_activation a).
Definition pool_with_subgroup (a : pool_args) (H : option string) : pool_args :=
  mkPoolArgs (pa_group a) H (pa_pool_size a) (pa_strides a) (pa_padding a) (pa_data_format a) (pa_allow a).

(** The group that the argument [g] stands for. *)
Definition group_of_arg (g : group_arg) (G : group) : Prop :=
  match g with Object G' => G' = G | ByName s => dict_get group_dict s = Ok G end.

Definition library_names : list string := map fst group_dict.

Section Names.
Context {A : Type} {RA : Arith A}.

Lemma init_name d tr (a : conv_args A) G Hn : group_of_arg (ca_group a) G -> parse_subgroup G (ca_subgroup a) = Hn ->
  (match Hn with Some s => dict_get group_dict s | None => Err KeyError end = Err KeyError) -> conv_init d tr a = Err KeyError.
Proof.
  intros GA <- Q. unfold conv_init, gt_init. unfold group_of_arg in GA.
  replace (match ca_group a with ByName s => dict_get group_dict s | Object G0 => Ok G0 end) with (Ok G) by (destruct (ca_group a); congruence).
  cbn [bind]. rewrite Q. reflexivity.
Qed.

(** "" and the name of the group are the same argument. *)
Theorem C41_empty_name_is_the_whole_group d tr (a : conv_args A) G :
  group_of_arg (ca_group a) G -> g_name G <> "" ->
  conv_init d tr (with_subgroup a (Some "")) = conv_init d tr (with_subgroup a (Some (g_name G))).
Proof.
  intros GA NE. unfold conv_init, gt_init, with_subgroup. cbn [ca_group ca_subgroup ca_kernel_size ca_data_format ca_allow ca_strides ca_padding ca_dilation ca_filters ca_use_bias ca_activation].
  replace (match ca_group a with ByName s => dict_get group_dict s | Object G0 => Ok G0 end) with (Ok G) by (unfold group_of_arg in GA; destruct (ca_group a); congruence).
  cbn [bind]. unfold parse_subgroup. apply String.eqb_neq in NE. rewrite NE. reflexivity.
Qed.

(** The value None, which the documentation gives as the default and as meaning the
    whole group, is rejected. *)
Theorem C41_none_refuted d tr (a : conv_args A) G :
  group_of_arg (ca_group a) G -> conv_init d tr (with_subgroup a None) = Err KeyError.
Proof. intros GA. apply (init_name d tr _ G None); [exact GA|reflexivity|reflexivity]. Qed.

Lemma dict_get_none {B} (l : list (string * B)) s : ~ In s (map fst l) -> dict_get l s = Err KeyError.
Proof.
  induction l as [|[k v] l IH]; intros N; [reflexivity|]. cbn [dict_get]. cbn [map fst In] in N.
  destruct (String.eqb_spec s k) as [->|NE]; [exfalso; apply N; left; reflexivity|]. apply IH. intros I. apply N. right. exact I.
Qed.

(** A name of no group of the library is rejected. *)
Theorem C41_unknown_names_are_rejected d tr (a : conv_args A) G H :
  group_of_arg (ca_group a) G -> ca_subgroup a = Some H -> H <> "" -> ~ In H library_names ->
  conv_init d tr a = Err KeyError.
Proof.
  intros GA HS NE N. apply (init_name d tr a G (Some H) GA).
  - rewrite HS. unfold parse_subgroup. apply String.eqb_neq in NE. rewrite NE. reflexivity.
  - apply dict_get_none. exact N.
Qed.

(** So is every group that is not in the library: the constructor looks up the name of
    the subgroup in the library, also that of the whole group. *)
Theorem C41_other_groups_are_rejected d tr (a : conv_args A) G :
  ca_group a = Object G -> ca_subgroup a = Some "" -> ~ In (g_name G) library_names ->
  conv_init d tr a = Err KeyError.
Proof.
  intros GA HS N. apply (init_name d tr a G (Some (g_name G))).
  - rewrite GA. reflexivity.
  - rewrite HS. reflexivity.
  - apply dict_get_none. exact N.
Qed.

(** Whether the constructor accepts the other arguments does not depend on the
    subgroup. *)
Theorem C41_constructor_accepts_listed_names d tr (a : conv_args A) name G H H' :
  layer_for name G a -> (H = "" \/ In H library_names) -> (H' = "" \/ In H' library_names) ->
  forall e, conv_init d tr (with_subgroup a (Some H)) = Err e -> conv_init d tr (with_subgroup a (Some H')) = Err e.
Proof.
  intros [DG [AG AF]] IH IH' e.
  assert (GA : match ca_group a with ByName s => dict_get group_dict s | Object G0 => Ok G0 end = Ok G).
  { destruct AG as [-> | ->]; [exact DG|reflexivity]. }
  assert (LK : forall s, s = "" \/ In s library_names -> exists Q, match parse_subgroup G (Some s) with Some s => dict_get group_dict s | None => Err KeyError end = Ok Q).
  { intros s I. unfold parse_subgroup. destruct (String.eqb_spec s "") as [->|NE].
    - exists G. apply lib_ok in DG as LO. destruct LO as [NG _]. rewrite NG. exact DG.
    - destruct I as [->|I]; [contradiction|]. clear NE. revert I. unfold library_names. generalize group_dict. intros l.
      induction l as [|[k v] l IHl]; cbn [map fst In dict_get]; [intros []|]. intros [->|I]; [rewrite String.eqb_refl; exists v; reflexivity|].
      destruct (String.eqb s k); [exists v; reflexivity|apply IHl; exact I]. }
  destruct (LK H IH) as [Q1 E1]. destruct (LK H' IH') as [Q2 E2].
  unfold conv_init, gt_init, with_subgroup. cbn [ca_group ca_subgroup ca_kernel_size ca_data_format ca_allow ca_strides ca_padding ca_dilation ca_filters ca_use_bias ca_activation].
  rewrite GA. cbn [bind]. rewrite E1, E2. cbn [bind]. clear.
  destruct tr; (destruct (padding_init _ _ _ _ _ _ _) as [P|]; [|intros Q; exact Q]); cbn [bind gt_padding];
  repeat (match goal with |- (r <- ?x ;; _) = _ -> _ => destruct x; [|intros Q; exact Q]; cbn [bind] end);
  match goal with |- context[(0 <? ?f)%nat] => destruct (0 <? f)%nat; [|intros Q; exact Q] end;
  match goal with |- context[negb ?f] => destruct (negb f); [|intros Q; exact Q] end;
  discriminate.
Qed.

(** A layer can only be built if the group lists the subgroup (for transposed layers
    on grid signals see below). *)
Theorem C41_built_layers_have_listed_subgroups name G (a : conv_args A) H (tr valued : bool) bs m g c kinit binit L :
  layer_for name G a -> ca_subgroup a = Some H ->
  let d := dimension_of name in
  built d tr a (static_signal_shape valued bs m g c) kinit binit L -> List.length m = d -> (tr = false \/ valued = true) ->
  exists idx, dict_get (g_subgroup G) (if String.eqb H "" then name else H) = Ok idx.
Proof.
  intros LF HS d B Lm TV. pose proof LF as [DG [AG AF]]. pose proof B as [L0 [I _]].
  destruct (conv_init_inv G d name tr a L0 DG AG AF I) as [p [k [s [dl [_ [PN [SK [SS [SD _]]]]]]]]].
  destruct (built_facts name G a H (upper p) tr valued bs m g c kinit binit L k s dl LF HS (ex_intro _ p (conj PN eq_refl)) B Lm (conj SK (conj SS SD)))
    as [_ [eb [ea [act [dom [_ [SA [SDm _]]]]]]]].
  assert (X : exists idx, sub_idx G (Some H) idx).
  { destruct tr; [|exists act; exact SA]. destruct TV as [Q|V]; [discriminate Q|]. exists dom. apply SDm. exact V. }
  destruct X as [idx X]. exists idx. unfold sub_idx, parse_subgroup, subgroup_get in X. apply lib_ok in DG as [NG _]. rewrite <- NG. destruct (String.eqb H ""); exact X.
Qed.

End Names.

(** Pooling layers likewise. *)
Theorem C41_pooling_none_refuted d t (a : pool_args) G :
  group_of_arg (pa_group a) G -> pool_init d t (pool_with_subgroup a None) = Err KeyError.
Proof.
  intros GA. unfold pool_init, gt_init, pool_with_subgroup. cbn [pa_group pa_subgroup].
  replace (match pa_group a with ByName s => dict_get group_dict s | Object G0 => Ok G0 end) with (Ok G) by (unfold group_of_arg in GA; destruct (pa_group a); congruence).
  reflexivity.
Qed.

Theorem C41_pooling_empty_name_is_the_whole_group d t (a : pool_args) G :
  group_of_arg (pa_group a) G -> g_name G <> "" ->
  pool_init d t (pool_with_subgroup a (Some "")) = pool_init d t (pool_with_subgroup a (Some (g_name G))).
Proof.
  intros GA NE. unfold pool_init, gt_init, pool_with_subgroup. cbn [pa_group pa_subgroup pa_pool_size pa_data_format pa_allow pa_strides pa_padding].
  replace (match pa_group a with ByName s => dict_get group_dict s | Object G0 => Ok G0 end) with (Ok G) by (unfold group_of_arg in GA; destruct (pa_group a); congruence).
  cbn [bind]. unfold parse_subgroup. apply String.eqb_neq in NE. rewrite NE. reflexivity.
Qed.

Theorem C41_pooling_other_groups_are_rejected d t (a : pool_args) G :
  pa_group a = Object G -> pa_subgroup a = Some "" -> ~ In (g_name G) library_names -> pool_init d t a = Err KeyError.
Proof.
  intros GA HS N. unfold pool_init, gt_init. rewrite GA, HS. cbn [bind]. unfold parse_subgroup. cbn [String.eqb].
  rewrite (dict_get_none _ _ N). reflexivity.
Qed.

Theorem C41_pooling_constructor_accepts_listed_names d t (a : pool_args) name G H H' :
  pooling_for name G a -> (H = "" \/ In H library_names) -> (H' = "" \/ In H' library_names) ->
  forall e, pool_init d t (pool_with_subgroup a (Some H)) = Err e -> pool_init d t (pool_with_subgroup a (Some H')) = Err e.
Proof.
  intros [DG [AG AF]] IH IH' e.
  assert (GA : match pa_group a with ByName s => dict_get group_dict s | Object G0 => Ok G0 end = Ok G).
  { destruct AG as [-> | ->]; [exact DG|reflexivity]. }
  assert (LK : forall s, s = "" \/ In s library_names -> exists Q, match parse_subgroup G (Some s) with Some s => dict_get group_dict s | None => Err KeyError end = Ok Q).
  { intros s I. unfold parse_subgroup. destruct (String.eqb_spec s "") as [->|NE].
    - exists G. apply lib_ok in DG as LO. destruct LO as [NG _]. rewrite NG. exact DG.
    - destruct I as [->|I]; [contradiction|]. clear NE. revert I. unfold library_names. generalize group_dict. intros l.
      induction l as [|[k v] l IHl]; cbn [map fst In dict_get]; [intros []|]. intros [->|I]; [rewrite String.eqb_refl; exists v; reflexivity|].
      destruct (String.eqb s k); [exists v; reflexivity|apply IHl; exact I]. }
  destruct (LK H IH) as [Q1 E1]. destruct (LK H' IH') as [Q2 E2].
  unfold pool_init, gt_init, pool_with_subgroup. cbn [pa_group pa_subgroup pa_pool_size pa_data_format pa_allow pa_strides pa_padding].
  rewrite GA. cbn [bind]. rewrite E1, E2. cbn [bind]. clear.
  destruct (padding_init _ _ _ _ _ _ _) as [P|]; [|intros Q; exact Q]. cbn [bind gt_padding].
  repeat (match goal with |- (r <- ?x ;; _) = _ -> _ => destruct x; [|intros Q; exact Q]; cbn [bind] end).
  discriminate.
Qed.

Theorem C41_pooling_unknown_names_are_rejected d t (a : pool_args) G H :
  group_of_arg (pa_group a) G -> pa_subgroup a = Some H -> H <> "" -> ~ In H library_names -> pool_init d t a = Err KeyError.
Proof.
  intros GA HS NE N. unfold pool_init, gt_init.
  replace (match pa_group a with ByName s => dict_get group_dict s | Object G0 => Ok G0 end) with (Ok G) by (unfold group_of_arg in GA; destruct (pa_group a); congruence).
  cbn [bind]. rewrite HS. unfold parse_subgroup. apply String.eqb_neq in NE. rewrite NE. rewrite (dict_get_none _ _ N). reflexivity.
Qed.

Theorem C41_built_pooling_has_a_listed_subgroup {A} {RA : Arith A} name G d t (a : pool_args) H bs m g c L :
  pooling_for name G a -> pa_subgroup a = Some H ->
  pooling_built d t a (bs :: map Some m ++ [Some g; Some c]) L -> List.length m = d ->
  exists idx, dict_get (g_subgroup G) (if String.eqb H "" then name else H) = Ok idx.
Proof.
  intros [DG [AG AF]] HS [L0 [I B]] Lm. pose proof DG as DG'. apply lib_ok in DG' as [NG OK].
  destruct (pool_build_inv (A := A) G d _ _ OK name t a L0 bs m g c L DG AG AF I Lm B)
    as [p [k [s0 [s' [eb [ea [sub [cos [Hn [_ [_ [_ [_ [_ [PS [DS _]]]]]]]]]]]]]]]].
  exists sub. rewrite HS in PS. unfold parse_subgroup in PS. rewrite NG in PS. destruct (String.eqb H ""); injection PS as ->; exact DS.
Qed.

(** A transposed layer on grid signals never looks at its subgroup: P4M is accepted as
    a subgroup of P4. *)
Theorem C41_transposed_lifting_refuted :
  let a := with_group "P4" "P4M" (One 2) 1 None (Some (Some "valid")) None true in
  (exists L, built 2 true a [None; Some 3; Some 3; Some 1] some_weights some_weights L) /\
  dict_get (g_subgroup P4) "P4M" = Err KeyError /\
  test_layer 2 false a [None; Some 3; Some 3; Some 1] some_weights some_weights = Err KeyError.
Proof.
  intros a. split; [|split; vm_compute; reflexivity].
  destruct (test_layer 2 true a [None; Some 3; Some 3; Some 1] some_weights some_weights) as [L|] eqn:T.
  - exists L. apply test_layer_built. exact T.
  - exfalso. vm_compute in T. discriminate T.
Qed.

(** Concrete cases. *)
Definition is_ok {B} (r : result B) : bool := match r with Ok _ => true | Err _ => false end.

Example C41_case_names :
  let a H := with_group "P4M" H (One 3) 1 None None None true in
  map (fun H => is_ok (conv_init 2 false (a H))) [""; "P4M"; "P4"; "P2MM"; "Oh"; "p4"; "P3"] = [true; true; true; true; true; false; false] /\
  map (fun H => is_ok (test_layer 2 false (a H) [None; Some 3; Some 3; Some 8; Some 1] some_weights some_weights)) [""; "P4M"; "P4"; "P2MM"; "Oh"]
  = [true; true; true; true; false].
Proof. vm_compute. auto. Qed.

Example C40_case :
  let a := with_group "P4" "P2" (One 3) 1 None None None true in
  match conv_init 2 false a with Ok L => conv_get_config L = Err AttributeError | Err _ => False end.
Proof. vm_compute. reflexivity. Qed.

Print Assumptions C40_get_config_refuted.
Print Assumptions C40_pooling_get_config_refuted.
Print Assumptions C41_empty_name_is_the_whole_group.
Print Assumptions C41_none_refuted.
Print Assumptions C41_unknown_names_are_rejected.
Print Assumptions C41_other_groups_are_rejected.
Print Assumptions C41_constructor_accepts_listed_names.
Print Assumptions C41_built_layers_have_listed_subgroups.
Print Assumptions C41_pooling_none_refuted.
Print Assumptions C41_pooling_empty_name_is_the_whole_group.
Print Assumptions C41_pooling_other_groups_are_rejected.
Print Assumptions C41_pooling_constructor_accepts_listed_names.
Print Assumptions C41_pooling_unknown_names_are_rejected.
Print Assumptions C41_built_pooling_has_a_listed_subgroup.
Print Assumptions C41_transposed_lifting_refuted.
