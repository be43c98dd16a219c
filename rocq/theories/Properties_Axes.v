(** C56: what negative axes do in [Group.action]. *)
From Verif Require Import AxisFacts.
Local Open Scope string_scope.
Local Open Scope list_scope.

(** [a] counted from the back of [r] axes *)
Definition from_back (r a : nat) : Z := (Z.of_nat a - Z.of_nat r)%Z.

Lemma grid_lift G {A} {ZA : Zero A} (x : tensor A) zs zs' n n' acting :
  grows (g__action G A ZA) ->
  norm_axis (S (rank x)) n = norm_axis (S (rank x)) n' ->
  g__action G A ZA x zs n = g__action G A ZA x zs' n' ->
  action_on_grid G x n zs acting = action_on_grid G x n' zs' acting.
Proof.
  intros R N E. unfold action_on_grid. rewrite E. destruct (g__action G A ZA x zs' n') as [y|] eqn:Y; [|reflexivity].
  cbn [bind]. destruct (subgroup_get G acting); [|reflexivity]. cbn [bind]. apply take_norm.
  rewrite (R _ _ _ _ Y). exact N.
Qed.

Lemma two_axes name G {A} {ZA : Zero A} (x : tensor A) h w h' w' n n' acting :
  dict_get group_dict name = Ok G -> dimension_of name = 2 ->
  (exists a, norm_axis (S (rank x)) n = Ok a /\ norm_axis (S (rank x)) n' = Ok a) ->
  (exists a, norm_axis (S (rank x)) (moved n h) = Ok a /\ norm_axis (S (rank x)) (moved n' h') = Ok a) ->
  (exists a, norm_axis (S (rank x)) (moved n w) = Ok a /\ norm_axis (S (rank x)) (moved n' w') = Ok a) ->
  action_on_grid G x n [h; w] acting = action_on_grid G x n' [h'; w'] acting.
Proof.
  intros D DIM [a [A1 A2]] [b [B1 B2]] [c [C1 C2]].
  destruct (two_dimensional name G (ZA := ZA) D DIM) as [S R].
  apply grid_lift; [exact R|congruence|]. apply S; congruence.
Qed.

Lemma both_name r n n' z z' a :
  names_axis (S r) n a -> names_axis (S r) n' a -> z = n -> z' = n' ->
  exists a, norm_axis (S r) z = Ok a /\ norm_axis (S r) z' = Ok a.
Proof. intros H H' -> ->. exists a. split; apply norm_axis_names; assumption. Qed.

Ltac pick_axis v :=
  unfold moved, from_back;
  repeat match goal with |- context[(?a <=? ?b)%Z] => destruct (Z.leb_spec a b); try (exfalso; lia) end;
  exists v; split; apply norm_axis_names; (split; [lia|]); lia.

Theorem C56_negative_spatial_axes name G {A} {ZA : Zero A} (x : tensor A) k sp zs acting :
  dict_get group_dict name = Ok G -> dimension_of name = 2 ->
  k <= rank x -> spatial_axes_ok 2 sp (rank x) -> Forall (fun a => k <= a) sp ->
  Forall2 (names_axis (rank x)) zs sp ->
  action G x zs (Z.of_nat k) None acting None = action G x (map Z.of_nat sp) (Z.of_nat k) None acting None.
Proof.
  intros D DIM K SP F2 N. destruct (spatial2 _ _ SP) as [h [w [-> [H [W _]]]]].
  inversion F2 as [|? ? K1 F2']; subst. inversion F2' as [|? ? K2 _]; subst.
  inversion N as [|z1 ? ? ? [_ N1] N']; subst. inversion N' as [|z2 ? ? ? [_ N2] N'']; subst. inversion N''; subst.
  apply (two_axes name); try assumption.
  - pick_axis k.
  - destruct N1 as [-> | ->]; pick_axis (S h).
  - destruct N2 as [-> | ->]; pick_axis (S w).
Qed.
Print Assumptions C56_negative_spatial_axes.

Theorem C56_negative_new_axis name G {A} {ZA : Zero A} (x : tensor A) k sp acting :
  dict_get group_dict name = Ok G ->
  k <= rank x -> spatial_axes_ok (dimension_of name) sp (rank x) ->
  (dimension_of name = 2 -> Forall (fun a => k <= a) sp) ->
  action G x (map Z.of_nat sp) (from_back (S (rank x)) k) None acting None
  = action G x (map Z.of_nat sp) (Z.of_nat k) None acting None.
Proof.
  intros D K SP F. unfold action. cbn [parse_subgroup].
  assert (DIM : dimension_of name = 2 \/ dimension_of name = 3).
  { pose proof (dict_get_In _ _ _ D) as I. unfold group_dict, wallpaper_group_dict, space_group_dict in I. cbn [app In] in I.
    repeat (destruct I as [I|I]; [apply pair_equal_spec in I as [<- _]; first [left; reflexivity|right; reflexivity]|]).
    destruct I. }
  destruct DIM as [DIM|DIM].
  - specialize (F DIM). rewrite DIM in SP. destruct (spatial2 _ _ SP) as [h [w [-> [H [W _]]]]].
    inversion F as [|? ? K1 F2']; subst. inversion F2' as [|? ? K2 _]; subst. cbn [map].
    apply (two_axes name); try assumption.
    + pick_axis k.
    + pick_axis (S h).
    + pick_axis (S w).
  - destruct (three_dimensional name G (A := A) (ZA := ZA) D DIM) as [E [R _]].
    assert (N : norm_axis (S (rank x)) (from_back (S (rank x)) k) = norm_axis (S (rank x)) (Z.of_nat k)).
    { rewrite !(norm_axis_names _ _ k); [reflexivity|split; [lia|left; reflexivity]|split; [lia|right; reflexivity]]. }
    apply grid_lift; [exact R|exact N|]. apply E, N.
Qed.
Print Assumptions C56_negative_new_axis.

(** ** Signals on the group *)

Lemma upsample_rank G {A} {ZA : Zero A} (x y : tensor A) ga dom :
  ga < rank x -> upsample G x (Z.of_nat ga) dom = Ok y -> rank y = rank x.
Proof.
  intros L. unfold upsample. destruct (subgroup_get G dom) as [idx|]; [|discriminate]. cbn [bind].
  destruct (mapM _ _) as [ts|] eqn:M; [|discriminate]. cbn [bind]. intros E.
  destruct ts as [|t ts]; [discriminate E|]. apply concatenate_rank in E. rewrite E.
  destruct (seq 0 (g_order G)) as [|i is_]; [cbn [mapM] in M; discriminate M|].
  apply mapM_cons_ok in M as [y' [ts' [EQ M]]]. assert (t = y') by congruence. subst y'.
  destruct (mem i idx).
  - destruct (zip_get _ _ _); [|discriminate M]. cbn [bind] in M. apply take_rank in M. exact M.
  - assert (EY : forall u v : tensor A, Ok u = Ok v -> u = v) by congruence. apply EY in M. subst t.
    unfold rank, zeros, tab. cbn [shape]. rewrite !app_length. unfold py_upto, py_from, slice_pos.
    rewrite firstn_length, skipn_length. unfold rank in L. cbn [List.length].
    destruct (Z.ltb_spec (Z.of_nat ga) 0); [lia|]. destruct (Z.ltb_spec (Z.of_nat ga + 1) 0); lia.
Qed.

Theorem C56_group_signals_negative_spatial_axes name G {A} {ZA : Zero A} (x : tensor A) ga n sp zs acting domain :
  dict_get group_dict name = Ok G -> dimension_of name = 2 ->
  ga < rank x -> spatial_axes_ok 2 sp (rank x) -> Forall (fun a => ga <= a) sp ->
  Forall2 (names_axis (rank x)) zs sp ->
  action G x zs n (Some (Z.of_nat ga)) acting (Some domain)
  = action G x (map Z.of_nat sp) n (Some (Z.of_nat ga)) acting (Some domain).
Proof.
  intros D DIM K SP F2 N.
  assert (Grid : forall y : tensor A, rank y = rank x -> forall act,
    action_on_grid G y (Z.of_nat ga) zs act = action_on_grid G y (Z.of_nat ga) (map Z.of_nat sp) act).
  { intros y R act. destruct (spatial2 _ _ SP) as [h [w [-> [H [W _]]]]].
    inversion F2 as [|? ? K1 F2']; subst. inversion F2' as [|? ? K2 _]; subst.
    inversion N as [|z1 ? ? ? [_ N1] N']; subst. inversion N' as [|z2 ? ? ? [_ N2] N'']; subst. inversion N''; subst.
    apply (two_axes name); try assumption; rewrite R.
    - pick_axis ga.
    - destruct N1 as [-> | ->]; pick_axis (S h).
    - destruct N2 as [-> | ->]; pick_axis (S w). }
  unfold action. destruct (parse_subgroup G (Some domain)) as [dm|] eqn:PD; cbn [parse_subgroup] in PD;
    [|destruct (String.eqb domain ""); discriminate PD].
  unfold action_on_group. destruct (subgroup_get G _) as [act|]; [|reflexivity]. cbn [bind].
  destruct (subgroup_get G (Some dm)) as [dom|]; [|reflexivity]. cbn [bind].
  destruct (List.length dom <? g_order G)%nat.
  - destruct (upsample G x (Z.of_nat ga) (Some dm)) as [y|] eqn:U; [|reflexivity]. cbn [bind].
    rewrite (Grid y (upsample_rank G x y ga (Some dm) K U)). reflexivity.
  - cbn [bind]. rewrite (Grid x eq_refl). reflexivity.
Qed.
Print Assumptions C56_group_signals_negative_spatial_axes.

Theorem C56_group_signals_negative_new_axis name G {A} {ZA : Zero A} (x y : tensor A) k ga sp H idx H' idx' :
  dict_get group_dict name = Ok G -> dict_get (g_subgroup G) H = Ok idx -> dict_get (g_subgroup G) H' = Ok idx' ->
  wf x -> k <= rank x -> ga < rank x -> spatial_axes_ok (dimension_of name) sp (rank x) -> ~ In ga sp ->
  nth ga (shape x) 0 = List.length idx' ->
  action G x (map Z.of_nat sp) (Z.of_nat k) (Some (Z.of_nat ga)) (Some H) (Some H') = Ok y ->
  action G x (map Z.of_nat sp) (from_back (S (rank x)) k) (Some (Z.of_nat ga)) (Some H) (Some H') = Ok y.
Proof.
  intros D DH DH' W K GA SP NI LG R. destruct (lib_sub name G H idx D DH) as [_ [_ [NE _]]].
  destruct (lib_sub name G H' idx' D DH') as [_ [_ [NE' _]]].
  apply lib_ok in D as [_ OK].
  assert (SY : shape y = insert_at k (List.length idx) (shape x)).
  { destruct (group_action_slices _ _ _ _ OK x y sp ga k (Some H) (Some H') idx idx') as [X [Y _]]; try assumption.
    - apply (sub_idx_some _ _ _ NE DH).
    - apply (sub_idx_some _ _ _ NE' DH'). }
  unfold action in *. assert (PD : exists dm, parse_subgroup G (Some H') = Some dm)
    by (cbn [parse_subgroup]; destruct (String.eqb H' ""); eexists; reflexivity).
  destruct PD as [dm PD]. rewrite PD in *. unfold action_on_group in *.
  repeat match type of R with
  | bind ?u _ = _ => destruct u; cbn [bind] in *; [|discriminate R]
  end.
  rewrite <- R. apply moveaxis_norm.
  assert (RY : rank y = S (rank x)).
  { unfold rank. rewrite SY. unfold insert_at. rewrite app_length. cbn [List.length]. rewrite firstn_length, skipn_length.
    unfold rank in K. lia. }
  match type of R with moveaxis ?t _ _ = _ => assert (RA : rank t = S (rank x)) end.
  { clear - R RY. unfold moveaxis in R.
    repeat match type of R with
    | bind ?u _ = _ => destruct u; cbn [bind] in R; [|discriminate R]
    end.
    apply transpose_rank in R. congruence. }
  rewrite RA, !(norm_axis_names _ _ k); [reflexivity|split; [lia|left; reflexivity]|split; [lia|right; reflexivity]].
Qed.
Print Assumptions C56_group_signals_negative_new_axis.

(** ** Where negative axes denote something else *)

Theorem C56_both_negative_acts_on_the_next_axes name G {A} {ZA : Zero A} (x : tensor A) k sp acting :
  dict_get group_dict name = Ok G -> dimension_of name = 2 ->
  k <= rank x -> spatial_axes_ok 2 sp (rank x) -> Forall (fun a => S a < rank x) sp ->
  action G x (map (from_back (rank x)) sp) (from_back (S (rank x)) k) None acting None
  = action G x (map (fun a => Z.of_nat (S a)) sp) (Z.of_nat k) None acting None.
Proof.
  intros D DIM K SP F. destruct (spatial2 _ _ SP) as [h [w [-> [H [W _]]]]].
  inversion F as [|? ? K1 F2']; subst. inversion F2' as [|? ? K2 _]; subst. cbn [map].
  apply (two_axes name); try assumption.
  - pick_axis k.
  - destruct (le_lt_dec k (S h)); [pick_axis (S (S h))|pick_axis (S h)].
  - destruct (le_lt_dec k (S w)); [pick_axis (S (S w))|pick_axis (S w)].
Qed.
Print Assumptions C56_both_negative_acts_on_the_next_axes.

Theorem C56_negative_new_axis_behind name G {A} {ZA : Zero A} (x : tensor A) k sp acting :
  dict_get group_dict name = Ok G -> dimension_of name = 2 ->
  k <= rank x -> spatial_axes_ok 2 sp (rank x) -> Forall (fun a => S a < k) sp ->
  action G x (map Z.of_nat sp) (from_back (S (rank x)) k) None acting None
  = action G x (map (fun a => Z.of_nat (S a)) sp) (Z.of_nat k) None acting None.
Proof.
  intros D DIM K SP F. destruct (spatial2 _ _ SP) as [h [w [-> [H [W _]]]]].
  inversion F as [|? ? K1 F2']; subst. inversion F2' as [|? ? K2 _]; subst. cbn [map].
  apply (two_axes name); try assumption.
  - pick_axis k.
  - pick_axis (S h).
  - pick_axis (S w).
Qed.
Print Assumptions C56_negative_new_axis_behind.

Theorem C56_negative_spatial_axes_in_front name G {A} {ZA : Zero A} (x : tensor A) k sp acting :
  dict_get group_dict name = Ok G -> dimension_of name = 2 ->
  k <= rank x -> spatial_axes_ok 2 sp (rank x) -> Forall (fun a => S a < k) sp ->
  action G x (map (from_back (rank x)) sp) (Z.of_nat k) None acting None
  = action G x (map (fun a => Z.of_nat (S a)) sp) (Z.of_nat k) None acting None.
Proof.
  intros D DIM K SP F. destruct (spatial2 _ _ SP) as [h [w [-> [H [W _]]]]].
  inversion F as [|? ? K1 F2']; subst. inversion F2' as [|? ? K2 _]; subst. cbn [map].
  apply (two_axes name); try assumption.
  - pick_axis k.
  - pick_axis (S h).
  - pick_axis (S w).
Qed.
Print Assumptions C56_negative_spatial_axes_in_front.

Theorem C56_space_groups_refuse_negative_spatial_axes name G {A} {ZA : Zero A} (x : tensor A) n z zs acting :
  dict_get group_dict name = Ok G -> dimension_of name = 3 -> (z < 0)%Z ->
  exists e, action G x (z :: zs) n None acting None = Err e.
Proof.
  intros D DIM L. destruct (three_dimensional name G (A := A) (ZA := ZA) D DIM) as [_ [_ E]].
  destruct (E x z zs n L) as [e EQ]. exists e. unfold action. cbn [parse_subgroup]. unfold action_on_grid. rewrite EQ. reflexivity.
Qed.
Print Assumptions C56_space_groups_refuse_negative_spatial_axes.

(** The claim that a negative axis always denotes the axis counted from the back is
    false, and nothing is raised: with [new_group_axis=-1] the horizontal mirror
    flips the channels of a signal of shape (batch, height, width, channels). *)
Theorem C56_negative_axes_refuted :
  exists x y y' : tensor nat,
    shape x = [1; 1; 2; 2] /\ wf x /\
    action PMw x [1; 2]%Z (from_back 5 4) None (Some "") None = Ok y /\
    action PMw x [1; 2]%Z 4 None (Some "") None = Ok y' /\
    shape y = shape y' /\ y <> y' /\
    slice 4 1 y' = transformed [(0, false); (1, true)] [1; 2] x /\
    slice 4 1 y = transformed [(0, false); (1, true)] [2; 3] x.
Proof.
  exists (mkTensor [1; 1; 2; 2] [1; 2; 3; 4]). do 2 eexists.
  split; [reflexivity|]. split; [reflexivity|]. split; [vm_compute; reflexivity|]. split; [vm_compute; reflexivity|].
  split; [reflexivity|]. split; [discriminate|]. split; vm_compute; reflexivity.
Qed.
Print Assumptions C56_negative_axes_refuted.

(** A negative group axis of the input is not understood at all: the call raises
    where the same axis counted from the front is accepted. *)
Theorem C56_negative_group_axis_refuted :
  exists x y : tensor nat,
    shape x = [2; 2; 2; 2; 2] /\ wf x /\
    action PMw x [1; 2]%Z 0 (Some 3%Z) (Some "") (Some "") = Ok y /\
    exists e, action PMw x [1; 2]%Z 0 (Some (from_back 5 3)) (Some "") (Some "") = Err e.
Proof.
  exists (mkTensor [2; 2; 2; 2; 2] (seq 0 32)). eexists.
  split; [reflexivity|]. split; [reflexivity|]. split; [vm_compute; reflexivity|].
  eexists. vm_compute. reflexivity.
Qed.
Print Assumptions C56_negative_group_axis_refuted.

(** The square [[1;2];[3;4]] turned by P4 with the axes counted from the back *)
Example C56_case :
  action P4 (mkTensor [2; 2] [1; 2; 3; 4]) [-2; -1]%Z 0 None (Some "") None
  = action P4 (mkTensor [2; 2] [1; 2; 3; 4]) [0; 1]%Z 0 None (Some "") None /\
  action P4 (mkTensor [2; 2] [1; 2; 3; 4]) [0; 1]%Z (-3) None (Some "") None
  = Ok (mkTensor [4; 2; 2] [1; 2; 3; 4;  2; 4; 1; 3;  4; 3; 2; 1;  3; 1; 4; 2]).
Proof. split; vm_compute; reflexivity. Qed.
