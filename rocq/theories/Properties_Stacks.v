(** C39, C50: stacks of layers, and subgroups of subgroups. *)
From Verif Require Import StackFacts.
Local Open Scope string_scope.
Local Open Scope list_scope.

(** The subgroups listed for a subgroup are listed for the group, at the
    corresponding positions. *)
Theorem C50_subgroups_of_subgroups name G H idx K U j :
  dict_get group_dict name = Ok G -> dict_get (g_subgroup G) H = Ok idx -> dict_get group_dict H = Ok K ->
  dict_get (g_subgroup K) U = Ok j ->
  dict_get (g_subgroup G) U = Ok (map (fun v => nth v idx 0) j).
Proof. exact (lib_nested name G H idx K U j). Qed.

(** And every listed subgroup is a group of the library. *)
Theorem C50_listed_subgroups_are_in_the_library name G H idx :
  dict_get group_dict name = Ok G -> dict_get (g_subgroup G) H = Ok idx ->
  exists K, dict_get group_dict H = Ok K /\ dimension_of H = dimension_of name /\ g_order K = List.length idx.
Proof.
  intros DG DH. destruct (lib_sub _ _ _ _ DG DH) as [K [DK [NE [OKK EE]]]]. exists K. split; [exact DK|].
  destruct (lib_dims _ _ _ _ _ DG DH DK) as [GD _].
  apply lib_ok in DG as [NG OK]. destruct (ok_sub _ _ _ _ OK _ _ DH) as [_ [_ [_ [_ [_ [_ DIM]]]]]]. split; [exact (proj1 (DIM (proj1 GD) (proj2 GD)))|].
  pose proof (LibraryTheorems.sub_length _ _ _ _ OK _ _ DH GD) as LI. rewrite (ok_order _ _ _ _ OKK). congruence.
Qed.

Section Stacks.
Context {A : Type} {RA : Arith A} {PA : Pool A}.

(** A stack of layers commutes with the elements of the last subgroup. *)
Theorem C39_stacks_are_equivariant name G (x : tensor A) layers last :
  add_commutes A -> dict_get group_dict name = Ok G -> stack name x layers last ->
  let d := dimension_of name in
  exists Gl idx, dict_get group_dict last = Ok Gl /\ subgroup_indices G last idx /\ g_order Gl = List.length idx /\
    commutes_at (transforms_of_group_signal G d last "") (transforms_of_group_signal Gl d "" "") (run layers) x.
Proof.
  intros ADD DG ST d. destruct (stack_commutes name x layers last ADD ST G DG) as [Gl [idx [DL [DI [_ C]]]]].
  exists Gl, idx. split; [exact DL|]. split; [exact (listed_indices _ _ _ _ DG DI)|]. split; [|exact C].
  destruct (C50_listed_subgroups_are_in_the_library _ _ _ _ DG DI) as [K [DK [_ OK]]]. congruence.
Qed.

(** The same for a stack whose first layer is a lifting convolution. *)
Theorem C39_lifting_stacks_are_equivariant name G H (x y : tensor A) b m c lift rest last :
  add_commutes A -> dict_get group_dict name = Ok G -> lifting_stage name H m c lift ->
  let d := dimension_of name in
  List.length m = d -> wf x -> shape x = b :: m ++ [c] -> lift x = Ok y ->
  stack (subgroup_name name H) y rest last ->
  exists Gl idx, dict_get group_dict last = Ok Gl /\ subgroup_indices G last idx /\ g_order Gl = List.length idx /\
    commutes_at (transforms_of_grid_signal G d last) (transforms_of_group_signal Gl d "" "") (run (lift :: rest)) x.
Proof.
  intros ADD DG LS d Lm W SH LX ST.
  destruct (lifting_stack_commutes name H x y b m c lift rest last ADD LS G DG Lm W SH LX ST) as [Gl [idx [DL [DI [_ C]]]]].
  exists Gl, idx. split; [exact DL|]. split; [exact (listed_indices _ _ _ _ DG DI)|]. split; [|exact C].
  destruct (C50_listed_subgroups_are_in_the_library _ _ _ _ DG DI) as [K [DK [_ OK]]]. congruence.
Qed.

(** Every layer of a stack returns, and so does global pooling after it. *)
Theorem C39_stacks_return name G (x : tensor A) layers last b m g c :
  add_commutes A -> dict_get group_dict name = Ok G -> stack name x layers last ->
  List.length m = dimension_of name -> g = g_order G -> wf x -> shape x = b :: m ++ [g; c] ->
  exists z mo o Gl, run layers x = Ok z /\ wf z /\ dict_get group_dict last = Ok Gl /\
    List.length mo = dimension_of name /\ shape z = b :: mo ++ [g_order Gl; o].
Proof.
  intros ADD DG ST Lm -> W SH. pose proof DG as DG'. apply lib_ok in DG' as [_ OK]. rewrite (ok_order _ _ _ _ OK) in SH.
  destruct (stack_output name x layers last ADD ST G b m c DG Lm W SH) as [z [mo [o [RZ [WZ [Lmo SZ]]]]]].
  destruct (stack_commutes name x layers last ADD ST G DG) as [Gl [idx [DL [_ [DD _]]]]].
  exists z, mo, o, Gl. split; [exact RZ|]. split; [exact WZ|]. split; [exact DL|]. split; [congruence|].
  pose proof DL as DL'. apply lib_ok in DL' as [_ OKL]. rewrite (ok_order _ _ _ _ OKL). exact SZ.
Qed.

(** Followed by global pooling they are invariant. *)
Theorem C39_stacks_with_global_pooling_are_invariant name G (x gx : tensor A) layers last t fmt kd input Lg0 Lg b m g c :
  add_commutes A -> order_irrelevant (pool_fun (A := A) t) -> In fmt [None; Some "channels_last"] ->
  dict_get group_dict name = Ok G -> stack name x layers last ->
  let d := dimension_of name in
  global_init d t fmt kd = Ok Lg0 -> global_build Lg0 input = Ok Lg ->
  List.length m = d -> g = g_order G -> wf x -> shape x = b :: m ++ [g; c] ->
  transforms_of_group_signal G d last "" x = Ok gx ->
  (exists z, run (layers ++ [global_call Lg]) x = Ok z) /\
  forall v, v < nth 0 (shape gx) 0 ->
    run (layers ++ [global_call Lg]) (slice 0 v gx) = run (layers ++ [global_call Lg]) x.
Proof.
  intros ADD OI FM DG ST d I B Lm -> W SH R. pose proof DG as DG'. apply lib_ok in DG' as [_ OK]. rewrite (ok_order _ _ _ _ OK) in SH.
  destruct (stack_output name x layers last ADD ST G b m c DG Lm W SH) as [z [mo [o [RZ [WZ [Lmo SZ]]]]]].
  destruct (stack_commutes name x layers last ADD ST G DG) as [Gl [idx [DL [_ [DD C]]]]]. fold d in DD, C. rewrite DD in Lmo.
  assert (KF : known_format fmt /\ first_of fmt = false) by (unfold known_format; destruct FM as [<-|[<-|[]]]; cbn; tauto).
  destruct KF as [KF FF]. split.
  - rewrite run_app, RZ. cbn [run].
    destruct (what_global_pooling_computes (dimension_of last) t fmt kd input Lg0 Lg z b mo (List.length (symmetries_of last)) o KF) as [w [Wz _]];
      [rewrite DD; exact I|exact B|congruence|unfold global_shape; rewrite FF; exact SZ|].
    exists w. rewrite Wz. reflexivity.
  - exact (invariant_after last Gl d _ layers x gx z t fmt kd input Lg0 Lg b mo o OI KF FF DL DD I B C R RZ WZ Lmo SZ).
Qed.

Theorem C39_lifting_stacks_with_global_pooling_are_invariant name G H (x y gx : tensor A) b m c lift rest last t fmt kd input Lg0 Lg :
  add_commutes A -> order_irrelevant (pool_fun (A := A) t) -> In fmt [None; Some "channels_last"] ->
  dict_get group_dict name = Ok G -> lifting_stage name H m c lift ->
  let d := dimension_of name in
  List.length m = d -> wf x -> shape x = b :: m ++ [c] -> lift x = Ok y ->
  stack (subgroup_name name H) y rest last ->
  global_init d t fmt kd = Ok Lg0 -> global_build Lg0 input = Ok Lg ->
  transforms_of_grid_signal G d last x = Ok gx ->
  (exists z, run (lift :: rest ++ [global_call Lg]) x = Ok z) /\
  forall v, v < nth 0 (shape gx) 0 ->
    run (lift :: rest ++ [global_call Lg]) (slice 0 v gx) = run (lift :: rest ++ [global_call Lg]) x.
Proof.
  intros ADD OI FM DG LS d Lm W SH LX ST I B R.
  destruct (lifting_facts name H m c lift b x y ADD LS Lm W SH LX) as [G' [idx [mo [o [DG' [SI [WY [Lmo [SY CM]]]]]]]]].
  rewrite DG in DG'. injection DG' as <-.
  destruct (output_group name G H idx DG SI) as [K [DK [DIM [LI OG]]]]. rewrite LI in SY. rewrite <- DIM in Lmo.
  destruct (stack_output _ y rest last ADD ST K b mo o DK Lmo WY SY) as [z [mz [oz [RZ [WZ [Lmz SZ]]]]]].
  destruct (lifting_stack_commutes name H x y b m c lift rest last ADD LS G DG Lm W SH LX ST) as [Gl [j [DL [DJ [DD C]]]]]. fold d in DD, C.
  assert (KF : known_format fmt /\ first_of fmt = false) by (unfold known_format; destruct FM as [<-|[<-|[]]]; cbn; tauto).
  destruct KF as [KF FF].
  change (lift :: rest ++ [global_call Lg]) with ((lift :: rest) ++ [global_call Lg]).
  assert (RR : run (lift :: rest) x = Ok z) by (cbn [run]; rewrite LX; exact RZ).
  split.
  - rewrite run_app, RR. cbn [run].
    destruct (what_global_pooling_computes (dimension_of last) t fmt kd input Lg0 Lg z b mz (List.length (symmetries_of last)) oz KF) as [w [Wz _]];
      [rewrite DD; exact I|exact B|exact Lmz|unfold global_shape; rewrite FF; exact SZ|].
    exists w. rewrite Wz. reflexivity.
  - rewrite DD in Lmz. exact (invariant_after last Gl d _ (lift :: rest) x gx z t fmt kd input Lg0 Lg b mz oz OI KF FF DL DD I B C R RR WZ Lmz SZ).
Qed.

End Stacks.
Print Assumptions C50_subgroups_of_subgroups.
Print Assumptions C50_listed_subgroups_are_in_the_library.
Print Assumptions C39_stacks_are_equivariant.
Print Assumptions C39_lifting_stacks_are_equivariant.
Print Assumptions C39_stacks_return.
Print Assumptions C39_stacks_with_global_pooling_are_invariant.
Print Assumptions C39_lifting_stacks_with_global_pooling_are_invariant.

Example C50_case :
  dict_get (g_subgroup P4M) "P4" = Ok [0; 1; 2; 3] /\ dict_get (g_subgroup P4) "P2" = Ok [0; 2] /\
  dict_get (g_subgroup P4M) "P2" = Ok [0; 2] /\
  dict_get (g_subgroup Oh) "D4h" = Ok [0; 1; 2; 3; 4; 5; 6; 7; 40; 41; 42; 43; 44; 45; 46; 47] /\
  dict_get (g_subgroup D4h) "D4" = Ok [0; 1; 2; 3; 12; 13; 14; 15] /\
  dict_get (g_subgroup Oh) "D4" = Ok [0; 1; 2; 3; 44; 45; 46; 47].
Proof. vm_compute. auto 10. Qed.

(** A model of four layers on the integers: a lifting convolution for the group P4M,
    a convolution from P4M to P4, pooling from P4 to P2, and global pooling. *)
Definition model_lift : result (conv_layer Z) :=
  test_layer 2 false (with_group "P4M" "P4M" (One 2) 1 (Some (One 1)) (Some (Some "valid_equiv")) None true)
    [None; Some 6; Some 6; Some 1] some_weights some_weights.
Definition model_conv : result (conv_layer Z) :=
  test_layer 2 false (with_group "P4M" "P4" (One 3) 1 (Some (One 2)) (Some (Some "same_equiv")) None true)
    [None; Some 5; Some 5; Some 8; Some 1] some_weights some_weights.
Definition model_pool : result pool_layer :=
  test_pool 2 "max" (pooling "P4" "P2" (One 2) (Some (One 1)) None) (map Some [1; 3; 3; 4; 1]).

Definition or_empty (r : result (tensor Z)) : tensor Z := match r with Ok y => y | Err _ => mkTensor [] [] end.
Definition called {L} (call : L -> tensor Z -> result (tensor Z)) (r : result L) (x : tensor Z) : result (tensor Z) := l <- r ;; call l x.

Definition model_x : tensor Z := some_signal [1; 6; 6; 1].
Definition model_y1 : tensor Z := Eval vm_compute in or_empty (called apply model_lift model_x).
Definition model_y2 : tensor Z := Eval vm_compute in or_empty (called apply model_conv model_y1).
Definition model_y3 : tensor Z := Eval vm_compute in or_empty (called pool_call model_pool model_y2).

Lemma called_ok {L} (call : L -> tensor Z -> result (tensor Z)) r x y : called call r x = Ok y -> exists l, r = Ok l /\ call l x = Ok y.
Proof. unfold called. destruct r as [l|e]; cbn [bind]; [|discriminate]. intros Q. exists l. auto. Qed.

Lemma pair_equal name n : respects name [n; n].
Proof. intros _ x y. cbn [In]. lia. Qed.

(** All hypotheses of the theorems above hold for it. *)
Example C39_case_stack : exists lift rest,
  lifting_stage "P4M" "P4M" [6; 6] 1 lift /\ lift model_x = Ok model_y1 /\ stack (subgroup_name "P4M" "P4M") model_y1 rest "P2" /\
  List.length rest = 2.
Proof.
  assert (P1 : called apply model_lift model_x = Ok model_y1) by (vm_compute; reflexivity).
  assert (P2 : called apply model_conv model_y1 = Ok model_y2) by (vm_compute; reflexivity).
  assert (P3 : called pool_call model_pool model_y2 = Ok model_y3) by (vm_compute; reflexivity).
  destruct (called_ok _ _ _ _ P1) as [L1 [B1 C1]]. destruct (called_ok _ _ _ _ P2) as [L2 [B2 C2]]. destruct (called_ok _ _ _ _ P3) as [L3 [B3 C3]].
  exists (apply L1), [apply L2; pool_call L3]. split; [|split; [exact C1|split; [|reflexivity]]].
  - exists P4M, (with_group "P4M" "P4M" (One 2) 1 (Some (One 1)) (Some (Some "valid_equiv")) None true), None, some_weights, some_weights, L1, [2; 2], [1; 1].
    split; [split; [vm_compute; reflexivity|split; [left; reflexivity|reflexivity]]|].
    split; [reflexivity|]. split; [reflexivity|]. split; [apply test_layer_built; exact B1|].
    split; [repeat split; reflexivity|]. split; [|reflexivity]. exact (pair_equal _ _).
  - apply (stack_layer "P4M" "P4" model_y1 1 [5; 5] 8 1 (apply L2) model_y2); [reflexivity|vm_compute; reflexivity|vm_compute; reflexivity| |exact C2|].
    { left. exists P4M, (with_group "P4M" "P4" (One 3) 1 (Some (One 2)) (Some (Some "same_equiv")) None true), None, some_weights, some_weights, L2, [3; 3], [2; 2].
      split; [split; [vm_compute; reflexivity|split; [left; reflexivity|reflexivity]]|].
      split; [reflexivity|]. split; [reflexivity|]. split; [apply test_layer_built; exact B2|].
      split; [repeat split; reflexivity|]. split; [|reflexivity]. exact (pair_equal _ _). }
    apply (stack_layer "P4" "P2" model_y2 1 [3; 3] 4 1 (pool_call L3) model_y3); [reflexivity|vm_compute; reflexivity|vm_compute; reflexivity| |exact C3|apply stack_end].
    right. exists P4, "max", (pooling "P4" "P2" (One 2) (Some (One 1)) None), "VALID_EQUIV", (Some 1), L3, [2; 2], [1; 1].
    split; [apply pool_Z_order_irrelevant|].
    split; [split; [vm_compute; reflexivity|split; [left; reflexivity|reflexivity]]|].
    split; [reflexivity|]. split; [exists "valid_equiv"; split; reflexivity|]. split; [apply test_pool_built; exact B3|].
    split; [split; reflexivity|]. split; [exact (pair_equal _ _)|]. split; [exact (pair_equal _ _)|].
    split; [reflexivity|]. split; [discriminate|reflexivity].
Qed.

(** The signal turned by 180 degrees is another one, and gives the turned output; turning by
    90 degrees does not leave the final result unchanged, since the last subgroup is P2. *)
Definition model (x : tensor Z) : result (tensor Z) :=
  y1 <- called apply model_lift x ;; y2 <- called apply model_conv y1 ;; y3 <- called pool_call model_pool y2 ;;
  L0 <- global_init 2 "average" None false ;; L <- global_build L0 (map Some (shape y3)) ;; global_call L y3.

Example C39_case_invariant :
  match transforms_of_grid_signal P4M 2 "P4" model_x with
  | Ok gx => map (fun u => match model (slice 0 u gx) with Ok z => data z | Err _ => [] end) [0; 1; 2; 3]
             = [data (or_empty (model model_x)); data (or_empty (model (slice 0 1 gx))); data (or_empty (model model_x)); data (or_empty (model (slice 0 1 gx)))] /\
             same_tensor (slice 0 2 gx) model_x = false /\ 
             same_result (model (slice 0 1 gx)) (model model_x) = false
  | Err _ => False
  end.
Proof. vm_compute. auto. Qed.
