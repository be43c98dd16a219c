(** C62: networks that go to subgroups and back (encoders and decoders). *)
From Verif Require Import GraphFacts Properties_Stacks Properties_Networks.
Local Open Scope string_scope.
Local Open Scope list_scope.

Section Graphs.
Context {A : Type} {RA : Arith A} {PA : Pool A}.

(** Transforming the input of a network by a symmetry that belongs to all the groups
    that its layers lead to transforms its output by the same symmetry.  Transposed
    convolutions may return to larger groups, and branches may use different
    groups. *)
Theorem C62_encoders_and_decoders_are_equivariant d (x : tensor A) first net dom groups (e : symmetry) z gx :
  add_commutes A -> graph d x first net dom groups -> List.length e = d ->
  (forall g, In g groups -> In e (symmetries_of g)) ->
  net x = Ok z -> transform_of e first x gx ->
  exists gz, transform_of e dom z gz /\ net gx = Ok gz.
Proof. intros ADD N LE GE Z TX. exact (graph_commutes d x first net dom groups e ADD N GE LE z gx Z TX). Qed.

(** Transformed signals are unique, so that the theorem determines the output. *)
Theorem C62_transforms_are_unique d dom (e : symmetry) (x gx gx' : tensor A) :
  is_signal d dom x -> List.length e = d -> transform_of e dom x gx -> transform_of e dom x gx' -> gx = gx'.
Proof.
  intros [W [b [m [c [Lm SH]]]]] LE T1 T2.
  inversion T1 as [name G u y' T DG U RT E1 E2 E3|name G u y' T DG U RT E1 E2 E3]; subst y' dom;
    inversion T2 as [name' G' u' y' T' DG' U' RT' E1 E2' E3'|name' G' u' y' T' DG' U' RT' E1 E2' E3']; subst y'; try subst name'.
  - assert (DD : dimension_of name = d) by (rewrite <- (symmetry_dimension _ _ _ _ DG U); exact LE).
    assert (DD' : dimension_of name' = d) by (rewrite <- (symmetry_dimension _ _ _ _ DG' U'); exact LE).
    pose proof (grid_transform name G u e b m c x T DG U) as P1. pose proof (grid_transform name' G' u' e b m c x T' DG' U') as P2.
    cbv zeta in P1, P2. rewrite DD in P1, RT. rewrite DD' in P2, RT'. rewrite (P1 Lm W SH RT), (P2 Lm W SH RT'). reflexivity.
  - assert (E : G' = G) by congruence. subst G'. rewrite (same_element _ _ _ _ _ DG U' U). congruence.
Qed.

(** With global pooling at the end the output does not change. *)
Theorem C62_encoders_with_global_pooling_are_invariant d (x : tensor A) first net last groups (e : symmetry) z gx t fmt kd input Lg0 Lg :
  add_commutes A -> order_irrelevant (pool_fun (A := A) t) -> In fmt [None; Some "channels_last"] ->
  graph d x first net (Some last) groups -> List.length e = d ->
  (forall g, In g groups -> In e (symmetries_of g)) ->
  net x = Ok z -> transform_of e first x gx ->
  global_init d t fmt kd = Ok Lg0 -> global_build Lg0 input = Ok Lg ->
  exists w, followed_by net (global_call Lg) x = Ok w /\ followed_by net (global_call Lg) gx = Ok w.
Proof.
  intros ADD OI FM N LE GE Z TX I B.
  destruct (graph_commutes d x first net _ groups e ADD N GE LE z gx Z TX) as [gz [TZ NZ]].
  destruct (graph_output _ _ _ _ _ _ ADD N z Z) as [WZ [b [m [c [Lm SZ]]]]].
  inversion TZ as [|name G u y' T DG U RT E1 E2 E3]. subst name y' gz.
  assert (DD : dimension_of last = d) by (rewrite <- (symmetry_dimension _ _ _ _ DG U); exact LE).
  assert (KF : known_format fmt /\ first_of fmt = false) by (unfold known_format; destruct FM as [<-|[<-|[]]]; cbn; tauto).
  destruct KF as [KF FF]. pose proof DG as DG'. apply lib_ok in DG' as [_ OK]. pose proof (sub_idx_whole _ _ _ _ OK) as SW.
  unfold followed_by. rewrite Z, NZ.
  pose proof (C34_global_pooling_is_invariant last G t fmt kd input "" "" _ _ Lg0 Lg z T b m c OI KF DG SW SW (fun _ h => h)) as INV.
  cbv zeta in INV. rewrite DD in INV, RT. destruct (INV I B Lm WZ) as [NG Q].
  - rewrite SZ, seq_length. unfold global_shape. rewrite FF. reflexivity.
  - unfold transforms_of_group_signal, spatial_axes, group_axis in RT. unfold global_axes, global_group_axis. rewrite FF.
    rewrite (Nat.add_comm 1 d). exact RT.
  - rewrite (Q u) by (rewrite seq_length; apply nth_error_Some; congruence).
    destruct (what_global_pooling_computes (dimension_of last) t fmt kd input Lg0 Lg z b m (List.length (symmetries_of last)) c KF) as [w [Wz _]];
      [rewrite DD; exact I|exact B|congruence|unfold global_shape; rewrite FF; exact SZ|]. exists w. auto.
Qed.

End Graphs.
Print Assumptions C62_encoders_and_decoders_are_equivariant.
Print Assumptions C62_transforms_are_unique.
Print Assumptions C62_encoders_with_global_pooling_are_invariant.

(** A small U-net: lift to P4, go down to P2 with stride 2, return to P4 with a transposed
    convolution, and concatenate with the lifted signal. *)
Definition unet_lift : result (conv_layer Z) :=
  test_layer 2 false (with_group "P4" "P4" (One 3) 1 (Some (One 1)) (Some (Some "same_equiv")) None true)
    [None; Some 4; Some 4; Some 1] some_weights some_weights.
Definition unet_down : result (conv_layer Z) :=
  test_layer 2 false (with_group "P4" "P2" (One 2) 1 (Some (One 2)) (Some (Some "valid_equiv")) None true)
    [None; Some 4; Some 4; Some 4; Some 1] some_weights some_weights.
Definition unet_up : result (conv_layer Z) :=
  test_layer 2 true (with_group "P4" "P2" (One 2) 1 (Some (One 2)) (Some (Some "valid_equiv")) None true)
    [None; Some 2; Some 2; Some 2; Some 1] some_weights some_weights.
Definition joined (v w : list Z) : list Z := v ++ w.
Definition unet (lift down up : tensor Z -> result (tensor Z)) : tensor Z -> result (tensor Z) :=
  branches joined 2 lift (followed_by (followed_by lift down) up).
Definition unet_x : tensor Z := some_signal [1; 4; 4; 1].
Definition unet_y : tensor Z := Eval vm_compute in or_empty (called apply unet_lift unet_x).
Definition unet_h : tensor Z := Eval vm_compute in or_empty (called apply unet_down unet_y).
Definition unet_w : tensor Z := Eval vm_compute in or_empty (called apply unet_up unet_h).
Definition unet_z : tensor Z := Eval vm_compute in or_empty (position_wise joined 2 unet_y unet_w).
Definition turned_input (u : nat) : tensor Z := match transforms_of_grid_signal P4 2 "" unet_x with Ok T => slice 0 u T | Err _ => unet_x end.
Definition turned_output (u : nat) : tensor Z := match transforms_of_group_signal P4 2 "" "" unet_z with Ok T => slice 0 u T | Err _ => unet_x end.

(** It commutes with the half turn (element 2) and not with the quarter turn (element 1),
    which is not in P2. *)
Example C62_case : exists lift down up,
  graph 2 unet_x None (unet lift down up) (Some "P4") ["P4"; "P2"; "P4"] /\
  unet lift down up unet_x = Ok unet_z /\ shape unet_z = [1; 4; 4; 4; 2] /\
  unet lift down up (turned_input 2) = Ok (turned_output 2) /\ same_tensor (turned_output 2) unet_z = false /\
  unet lift down up (turned_input 1) <> Ok (turned_output 1).
Proof.
  assert (Q1 : called apply unet_lift unet_x = Ok unet_y) by (vm_compute; reflexivity).
  assert (Q2 : called apply unet_down unet_y = Ok unet_h) by (vm_compute; reflexivity).
  assert (Q3 : called apply unet_up unet_h = Ok unet_w) by (vm_compute; reflexivity).
  assert (Q4 : position_wise joined 2 unet_y unet_w = Ok unet_z) by (vm_compute; reflexivity).
  assert (R1 : unet (called apply unet_lift) (called apply unet_down) (called apply unet_up) (turned_input 2) = Ok (turned_output 2)) by (vm_compute; reflexivity).
  assert (R2 : match unet (called apply unet_lift) (called apply unet_down) (called apply unet_up) (turned_input 1) with
               | Ok v => same_tensor v (turned_output 1) | Err _ => false end = false) by (vm_compute; reflexivity).
  destruct (called_ok _ _ _ _ Q1) as [L1 [B1 C1]]. destruct (called_ok _ _ _ _ Q2) as [L2 [B2 C2]]. destruct (called_ok _ _ _ _ Q3) as [L3 [B3 C3]].
  assert (SAME : forall v, unet (apply L1) (apply L2) (apply L3) v = unet (called apply unet_lift) (called apply unet_down) (called apply unet_up) v).
  { intros v. unfold unet, branches, followed_by, called. rewrite B1, B2, B3. reflexivity. }
  exists (apply L1), (apply L2), (apply L3).
  assert (N1 : graph 2 unet_x None (followed_by Ok (apply L1)) (Some "P4") ["P4"]).
  { apply (graph_lift 2 unet_x None Ok [] unet_x 1 [4; 4] 1 "P4" "P4"); [|reflexivity|reflexivity|reflexivity|vm_compute; reflexivity|exact (pair_equal _ _)|].
    { apply graph_input. split; [vm_compute; reflexivity|]. exists 1, [4; 4], 1. split; [reflexivity|vm_compute; reflexivity]. }
    exists P4, (with_group "P4" "P4" (One 3) 1 (Some (One 1)) (Some (Some "same_equiv")) None true), None, some_weights, some_weights, L1, [3; 3], [1; 1].
    split; [split; [vm_compute; reflexivity|split; [left; reflexivity|reflexivity]]|].
    split; [reflexivity|]. split; [reflexivity|]. split; [apply test_layer_built; exact B1|].
    split; [repeat split; reflexivity|]. split; [|reflexivity]. exact (pair_equal _ _). }
  assert (N2 : graph 2 unet_x None (followed_by (followed_by Ok (apply L1)) (apply L2)) (Some "P2") ["P2"; "P4"]).
  { apply (graph_layer 2 unet_x None _ ["P4"] unet_y 1 [4; 4] 4 1 "P4" "P2" (apply L2) N1); [exact C1|reflexivity|reflexivity|vm_compute; reflexivity|].
    left. exists P4, (with_group "P4" "P2" (One 2) 1 (Some (One 2)) (Some (Some "valid_equiv")) None true), None, some_weights, some_weights, L2, [2; 2], [2; 2].
    split; [split; [vm_compute; reflexivity|split; [left; reflexivity|reflexivity]]|].
    split; [reflexivity|]. split; [reflexivity|]. split; [apply test_layer_built; exact B2|].
    split; [repeat split; reflexivity|]. split; [|reflexivity]. exact (pair_equal _ _). }
  assert (N3 : graph 2 unet_x None (followed_by (followed_by (followed_by Ok (apply L1)) (apply L2)) (apply L3)) (Some "P4") ["P2"; "P4"]).
  { apply (graph_transposed 2 unet_x None _ ["P2"; "P4"] unet_h 1 [2; 2] 2 1 "P4" "P2" (apply L3) N2);
      [unfold followed_by at 1; unfold followed_by; rewrite C1; exact C2|reflexivity|reflexivity|vm_compute; reflexivity|exact (pair_equal _ _)|].
    exists P4, (with_group "P4" "P2" (One 2) 1 (Some (One 2)) (Some (Some "valid_equiv")) None true), "VALID_EQUIV", None, some_weights, some_weights, L3, [2; 2], [2; 2].
    split; [split; [vm_compute; reflexivity|split; [left; reflexivity|reflexivity]]|].
    split; [reflexivity|]. split; [exists "valid_equiv"; split; vm_compute; reflexivity|]. split; [apply test_layer_built; exact B3|].
    split; [repeat split; reflexivity|]. split; [exact (pair_equal _ _)|]. split; [|reflexivity].
    intros [|[|ax]] Hax; cbn in Hax; try lia; cbn [nth]; (split; [lia|]; split; [lia|]; split; [intros [Q|[Q|[]]]; discriminate Q|discriminate]). }
  split; [exact (graph_branches 2 unet_x None _ _ _ _ (Some "P4") joined 2 N1 N3)|].
  split; [unfold unet, branches, followed_by; rewrite C1, C2, C3; exact Q4|]. split; [reflexivity|].
  rewrite !SAME. split; [exact R1|]. split; [vm_compute; reflexivity|].
  intros Q. rewrite Q in R2. rewrite (proj2 (same_tensor_ok _ _) eq_refl) in R2. discriminate R2.
Qed.
