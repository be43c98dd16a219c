(** C59, C60: layers that treat all positions alike, and networks with branches. *)
From Verif Require Import NetFacts Properties_Stacks.
Local Open Scope string_scope.
Local Open Scope list_scope.

Section Networks.
Context {A : Type} {RA : Arith A} {PA : Pool A}.

(** Whatever is computed from the channels at one position alone commutes with the action
    on signals on the group ... *)
Theorem C59_position_wise_layers_on_group_signals name G H phi o b m g c1 c2 (x1 x2 gx1 gx2 : tensor A) :
  dict_get group_dict name = Ok G ->
  let d := dimension_of name in
  g = g_order G -> List.length m = d ->
  wf x1 -> wf x2 -> shape x1 = b :: m ++ [g; c1] -> shape x2 = b :: m ++ [g; c2] ->
  transforms_of_group_signal G d H "" x1 = Ok gx1 -> transforms_of_group_signal G d H "" x2 = Ok gx2 ->
  exists z gz, position_wise phi o x1 x2 = Ok z /\ shape z = b :: m ++ [g; o] /\
    transforms_of_group_signal G d H "" z = Ok gz /\
    nth 0 (shape gx1) 0 = nth 0 (shape gz) 0 /\ nth 0 (shape gx2) 0 = nth 0 (shape gz) 0 /\
    forall u, u < nth 0 (shape gz) 0 -> position_wise phi o (slice 0 u gx1) (slice 0 u gx2) = Ok (slice 0 u gz).
Proof.
  intros DG d GN Lm W1 W2 S1 S2 R1 R2. pose proof DG as DG'. apply lib_ok in DG' as [_ OK]. rewrite (ok_order _ _ _ _ OK) in GN.
  assert (SI : exists idx, subgroup_indices G H idx).
  { unfold subgroup_indices. destruct (subgroup_get G (parse_subgroup G (Some H))) as [idx|e] eqn:Q; [exists idx; reflexivity|exfalso].
    unfold transforms_of_group_signal, action, group_axis in R1.
    destruct (parse_subgroup G (Some "")) as [w|] eqn:PW; [|unfold parse_subgroup in PW; destruct (String.eqb "" ""); discriminate PW].
    unfold action_on_group in R1. rewrite Q in R1. discriminate R1. }
  destruct SI as [idx SI].
  destruct (group_positions name G H idx phi o b m g c1 c2 x1 x2 gx1 gx2 DG SI GN Lm W1 W2 S1 S2 R1 R2) as [z [gz [PZ [_ [SZ [RZ [N1 [N2 [NZ Q]]]]]]]]].
  exists z, gz. split; [exact PZ|]. split; [exact SZ|]. split; [exact RZ|]. rewrite N1, N2, NZ. auto.
Qed.

(** ... and on the grid. *)
Theorem C59_position_wise_layers_on_grid_signals name G H phi o b m c1 c2 (x1 x2 gx1 gx2 : tensor A) :
  dict_get group_dict name = Ok G ->
  let d := dimension_of name in
  List.length m = d ->
  wf x1 -> wf x2 -> shape x1 = b :: m ++ [c1] -> shape x2 = b :: m ++ [c2] ->
  transforms_of_grid_signal G d H x1 = Ok gx1 -> transforms_of_grid_signal G d H x2 = Ok gx2 ->
  exists z gz, position_wise phi o x1 x2 = Ok z /\ shape z = b :: m ++ [o] /\
    transforms_of_grid_signal G d H z = Ok gz /\
    nth 0 (shape gx1) 0 = nth 0 (shape gz) 0 /\ nth 0 (shape gx2) 0 = nth 0 (shape gz) 0 /\
    forall u, u < nth 0 (shape gz) 0 -> position_wise phi o (slice 0 u gx1) (slice 0 u gx2) = Ok (slice 0 u gz).
Proof.
  intros DG d Lm W1 W2 S1 S2 R1 R2.
  assert (SI : exists idx, subgroup_indices G H idx).
  { unfold subgroup_indices. destruct (subgroup_get G (parse_subgroup G (Some H))) as [idx|e] eqn:Q; [exists idx; reflexivity|exfalso].
    unfold transforms_of_grid_signal, action in R1. cbn [parse_subgroup] in Q. change (parse_subgroup G None) with (@None string) in R1.
    unfold action_on_grid in R1. cbn [parse_subgroup] in R1. rewrite Q in R1.
    destruct (g__action _ _ _ _ _ _); discriminate R1. }
  destruct SI as [idx SI].
  destruct (grid_positions name G H idx phi o b m c1 c2 x1 x2 gx1 gx2 DG SI Lm W1 W2 S1 S2 R1 R2) as [z [gz [PZ [_ [SZ [RZ [N1 [N2 [NZ Q]]]]]]]]].
  exists z, gz. split; [exact PZ|]. split; [exact SZ|]. split; [exact RZ|]. rewrite N1, N2, NZ. auto.
Qed.

(** Networks of GroCo's layers, such layers and branches commute with the elements of the
    group of their output. *)
Theorem C60_networks_are_equivariant grid name G (x z : tensor A) net last :
  add_commutes A -> dict_get group_dict name = Ok G -> network grid name x net last -> net x = Ok z ->
  let d := dimension_of name in
  exists Gl idx, dict_get group_dict last = Ok Gl /\ subgroup_indices G last idx /\ g_order Gl = List.length idx /\
    (exists b m c, List.length m = d /\ shape z = b :: m ++ [g_order Gl; c]) /\
    commutes_at (transforms_of_input grid G d last) (transforms_of_group_signal Gl d "" "") net x.
Proof.
  intros ADD DG N NX d. destruct (network_commutes grid name x net last ADD N G z DG NX) as [Gl [idx [DL [DI [_ [_ [[b [m [c [Lm SZ]]]] C]]]]]]].
  exists Gl, idx. split; [exact DL|]. split; [exact (listed_indices _ _ _ _ DG DI)|].
  pose proof DL as DL'. apply lib_ok in DL' as [_ OKL]. rewrite (ok_order _ _ _ _ OKL).
  destruct (C50_listed_subgroups_are_in_the_library _ _ _ _ DG DI) as [K [DK [_ OK]]].
  split; [|split; [exists b, m, c; auto|exact C]].
  assert (K = Gl) by congruence. subst K. rewrite <- (ok_order _ _ _ _ OKL). exact OK.
Qed.

(** With global pooling at the end they return the same for all transformed inputs. *)
Theorem C60_networks_with_global_pooling_are_invariant grid name G (x z gx : tensor A) net last t fmt kd input Lg0 Lg :
  add_commutes A -> order_irrelevant (pool_fun (A := A) t) -> In fmt [None; Some "channels_last"] ->
  dict_get group_dict name = Ok G -> network grid name x net last -> net x = Ok z ->
  let d := dimension_of name in
  global_init d t fmt kd = Ok Lg0 -> global_build Lg0 input = Ok Lg ->
  transforms_of_input grid G d last x = Ok gx ->
  (exists w, followed_by net (global_call Lg) x = Ok w) /\
  forall v, v < nth 0 (shape gx) 0 ->
    followed_by net (global_call Lg) (slice 0 v gx) = followed_by net (global_call Lg) x.
Proof.
  intros ADD OI FM DG N NX d I B R.
  destruct (network_commutes grid name x net last ADD N G z DG NX) as [Gl [idx [DL [DI [DIM [WZ [[b [m [c [Lm SZ]]]] C]]]]]]]. fold d in DIM, Lm, C.
  assert (KF : known_format fmt /\ first_of fmt = false) by (unfold known_format; destruct FM as [<-|[<-|[]]]; cbn; tauto).
  destruct KF as [KF FF].
  assert (RUN : forall y, run ([net] ++ [global_call Lg]) y = followed_by net (global_call Lg) y).
  { intros y. unfold followed_by. cbn [run app]. destruct (net y) as [w|]; [|reflexivity]. destruct (global_call Lg w); reflexivity. }
  assert (R1 : forall y, run [net] y = net y) by (intros y; cbn [run]; destruct (net y); reflexivity).
  split.
  - unfold followed_by. rewrite NX.
    destruct (what_global_pooling_computes (dimension_of last) t fmt kd input Lg0 Lg z b m (List.length (symmetries_of last)) c KF) as [w [Wz _]];
      [rewrite DIM; exact I|exact B|congruence|unfold global_shape; rewrite FF; exact SZ|]. exists w. exact Wz.
  - intros v V. rewrite <- !RUN.
    refine (invariant_after last Gl d _ [net] x gx z t fmt kd input Lg0 Lg b m c OI KF FF DL DIM I B _ R _ WZ Lm SZ v V).
    + intros gx' y' R' C'. rewrite R1 in C'. destruct (C gx' y' R' C') as [gy [RY [NY QY]]]. exists gy. split; [exact RY|]. split; [exact NY|].
      intros u U. rewrite R1. exact (QY u U).
    + rewrite R1. exact NX.
Qed.

End Networks.
Print Assumptions C59_position_wise_layers_on_group_signals.
Print Assumptions C59_position_wise_layers_on_grid_signals.
Print Assumptions C60_networks_are_equivariant.
Print Assumptions C60_networks_with_global_pooling_are_invariant.

(** Entry-wise functions, sums and a function of all channels are of this kind. *)
Definition entry_wise (f : Z -> Z) (v _ : list Z) : list Z := map f v.
Definition added (v w : list Z) : list Z := map (fun p => Z.add (fst p) (snd p)) (combine v w).
Definition relu_of (z : Z) : Z := Z.max 0 (z - 200).
Definition normalised (v _ : list Z) : list Z := map (fun z => Z.sub z (fold_right Z.min 0%Z v)) v.

Example C59_case :
  match position_wise (entry_wise Z.opp) 2 (some_signal [1; 2; 2; 4; 2]) (some_signal [1; 2; 2; 4; 2]) with
  | Ok z => same_tensor z (tmap Z.opp (some_signal [1; 2; 2; 4; 2])) = true
  | Err _ => False
  end /\
  commutes_b (transforms_of_group_signal P4 2 "" "") (transforms_of_group_signal P4 2 "" "")
    (fun x => position_wise normalised 2 x x) (some_signal [1; 2; 2; 4; 2]) = true.
Proof. vm_compute. split; reflexivity. Qed.

(** A function that depends on the group element, for instance a normalisation with
    one scale per group element, does not commute. *)
Definition scaled_by_element (x : tensor Z) : result (tensor Z) :=
  Ok (tab (shape x) (fun i => Z.mul (Z.of_nat (S (nth 3 i 0))) (at_ x i))).

Theorem C59_scale_per_group_element_refuted :
  ~ forall x : tensor Z, commutes_at (transforms_of_group_signal P4 2 "" "") (transforms_of_group_signal P4 2 "" "") scaled_by_element x.
Proof.
  intros H. specialize (H (some_signal [1; 1; 1; 4; 1])). apply commutes_b_ok in H. vm_compute in H. discriminate H.
Qed.
Print Assumptions C59_scale_per_group_element_refuted.

(** A residual block after a lifting convolution: y + conv(relu(y)) with y = lift(x). *)
Definition block_lift : result (conv_layer Z) :=
  test_layer 2 false (with_group "P4" "P4" (One 2) 1 (Some (One 1)) (Some (Some "valid_equiv")) None true)
    [None; Some 4; Some 4; Some 1] some_weights some_weights.
Definition block_conv : result (conv_layer Z) :=
  test_layer 2 false (with_group "P4" "P4" (One 3) 1 (Some (One 1)) (Some (Some "same_equiv")) None true)
    [None; Some 3; Some 3; Some 4; Some 1] some_weights some_weights.
Definition block (lift conv : tensor Z -> result (tensor Z)) : tensor Z -> result (tensor Z) :=
  branches added 1 lift (followed_by (branches (entry_wise relu_of) 1 lift lift) conv).
Definition block_x : tensor Z := some_signal [1; 4; 4; 1].
Definition block_y : tensor Z := Eval vm_compute in or_empty (called apply block_lift block_x).
Definition block_r : tensor Z := Eval vm_compute in or_empty (position_wise (entry_wise relu_of) 1 block_y block_y).
Definition block_z : tensor Z := Eval vm_compute in or_empty (block (called apply block_lift) (called apply block_conv) block_x).

Example C60_case : exists lift conv,
  network true "P4" block_x (block lift conv) "P4" /\ block lift conv block_x = Ok block_z /\
  same_tensor block_r block_y = false /\ same_tensor block_z block_y = false.
Proof.
  assert (Q1 : called apply block_lift block_x = Ok block_y) by (vm_compute; reflexivity).
  assert (Q2 : block (called apply block_lift) (called apply block_conv) block_x = Ok block_z) by (vm_compute; reflexivity).
  assert (Q3 : exists r, called apply block_conv block_r = Ok r) by (eexists; vm_compute; reflexivity). destruct Q3 as [r Q3].
  assert (QR : position_wise (entry_wise relu_of) 1 block_y block_y = Ok block_r) by (vm_compute; reflexivity).
  destruct (called_ok _ _ _ _ Q1) as [L1 [B1 C1]]. destruct (called_ok _ _ _ _ Q3) as [L2 [B2 C2]].
  exists (apply L1), (apply L2).
  assert (N1 : network true "P4" block_x (apply L1) "P4").
  { apply (net_lift "P4" "P4" block_x 1 [4; 4] 1); [reflexivity|vm_compute; reflexivity|vm_compute; reflexivity|].
    exists P4, (with_group "P4" "P4" (One 2) 1 (Some (One 1)) (Some (Some "valid_equiv")) None true), None, some_weights, some_weights, L1, [2; 2], [1; 1].
    split; [split; [vm_compute; reflexivity|split; [left; reflexivity|reflexivity]]|].
    split; [reflexivity|]. split; [reflexivity|]. split; [apply test_layer_built; exact B1|].
    split; [repeat split; reflexivity|]. split; [|reflexivity]. exact (pair_equal _ _). }
  assert (NR : branches (entry_wise relu_of) 1 (apply L1) (apply L1) block_x = Ok block_r).
  { unfold branches. rewrite C1. exact QR. }
  split.
  - apply net_branches; [exact N1|].
    apply (net_layer true "P4" block_x _ "P4" "P4" block_r 1 [3; 3] 4 1 (apply L2)); [apply net_branches; exact N1|exact NR|reflexivity|vm_compute; reflexivity|vm_compute; reflexivity|].
    left. exists P4, (with_group "P4" "P4" (One 3) 1 (Some (One 1)) (Some (Some "same_equiv")) None true), None, some_weights, some_weights, L2, [3; 3], [1; 1].
    split; [split; [vm_compute; reflexivity|split; [left; reflexivity|reflexivity]]|].
    split; [reflexivity|]. split; [reflexivity|]. split; [apply test_layer_built; exact B2|].
    split; [repeat split; reflexivity|]. split; [|reflexivity]. exact (pair_equal _ _).
  - split; [|split; vm_compute; reflexivity].
    rewrite <- Q2. unfold block, branches, followed_by, called. rewrite B1, B2. reflexivity.
Qed.
