(** C101 for transposed layers. *)
From Verif Require Import Properties_Layers EquivFacts CorrelationFacts SliceFacts LinearFacts Properties_TurnedWeights.
From Verif Require Import EquivSpec.
Local Open Scope string_scope.
Local Open Scope list_scope.

Section TurnedTransposed.
Context {A : Type} {RA : Arith A}.

(** Two transposed convolutions with the same arguments, the same bias and the same input shape, for signals on the grid or on the
    whole group.  The numbers of the kernels are read in the order pixels, channels, filters (see C105).  [KT] are the transforms
    of the kernel of the first by the elements of the group; the kernel of the second is number [w] of them.  On every input slice
    [h] of what the second returns is slice [h] after [w] of what the first returns. *)
Theorem C101_transposed name G (a : conv_args A) H opt (valued : bool) bs m g c kinit kinit' binit L L' k s dl KT w h :
  layer_for name G a -> ca_subgroup a = Some H -> option_of a opt -> (valued = true -> H = "") ->
  let d := dimension_of name in
  let o := ca_filters a in
  let C := if valued then g * c else c in
  built d true a (static_signal_shape valued bs m g c) kinit binit L ->
  built d true a (static_signal_shape valued bs m g c) kinit' binit L' ->
  List.length m = d -> sizes d a k s dl ->
  kernel_transforms G d valued (Some "") (Some "") (kernel_signal valued k g c o (initial_kernel true k C o kinit)) = Ok KT ->
  w < List.length (symmetries_of name) -> h < List.length (symmetries_of name) ->
  read_as (k ++ [C; o]) (initial_kernel true k C o kinit') = kernel_slice d k C o KT w ->
  forall x b m', wf x -> List.length m' = d -> shape x = signal_shape valued b m' g c ->
  exists y y', apply L x = Ok y /\ apply L' x = Ok y' /\ slice (d + 1) h y' = slice (d + 1) (comp G h w) y.
Proof.
  intros LF HS OP HW d o C B B' Lm SZ RK Hw Hh KK x b m' W Lm' SH.
  destruct (built_facts name G a H opt true valued bs m g c kinit binit L k s dl LF HS OP B Lm SZ)
    as [OK [eb [ea [act [dom [WO [SA [SD [CF [CC [KS [RS PO]]]]]]]]]]]]. fold d in OK, WO, CF, PO. fold o C in CF. fold C in PO.
  destruct (built_facts name G a H opt true valued bs m g c kinit' binit L' k s dl LF HS OP B' Lm SZ)
    as [_ [eb' [ea' [act' [dom' [_ [SA' [SD' [CF' [CC' [_ [_ PO']]]]]]]]]]]]. fold d in CF', PO'. fold o C in CF'. fold C in PO'.
  assert (act' = act) as -> by (unfold sub_idx in SA, SA'; congruence).
  set (E := symmetries_of name) in *. set (eq := needs_equal_sizes name) in *.
  set (K := initial_kernel true k C o kinit) in *. set (K' := initial_kernel true k C o kinit') in *.
  pose proof (cf_k _ _ _ _ _ _ _ _ _ _ _ _ _ _ _ _ _ _ _ _ _ _ CF) as Lk.
  pose proof (cf_fit _ _ _ _ _ _ _ _ _ _ _ _ _ _ _ _ _ _ _ _ _ _ CF) as KF.
  pose proof (whole_dom _ _ _ _ _ OK SA) as AE.
  assert (LA : List.length act = List.length E) by (rewrite AE; apply seq_length).
  assert (NA : forall e, e < List.length E -> nth e act 0 = e) by (intros e He; rewrite AE; apply nth_seq0; exact He).
  assert (Hhw : comp G h w < List.length E) by (apply (ok_closed _ _ _ _ OK); assumption).
  assert (SDW : valued = true -> sub_idx G (Some "") dom /\ g = List.length dom).
  { intros V. destruct (SD V) as [S1 S2]. rewrite (HW V) in S1. split; assumption. }
  assert (SDW' : valued = true -> dom' = dom).
  { intros V. destruct (SD V) as [S1 _]. destruct (SD' V) as [S2 _]. unfold sub_idx in S1, S2. congruence. }
  assert (LD : List.length (data K) = prod (k ++ [C; o])) by (rewrite <- prod_swap; apply wf_tab).
  assert (LD' : List.length (data K') = prod (k ++ [C; o])) by (rewrite <- prod_swap; apply wf_tab).
  destruct (kval_slices G d _ _ OK valued act dom (Some "") (Some "") c C o k g K SA SDW eq_refl Lk KF LD) as [KT0 [R0 [_ [_ P0]]]].
  assert (KT0 = KT) as -> by (rewrite RK in R0; congruence).
  destruct (kval_slices G d _ _ OK valued act dom (Some "") (Some "") c C o k g K' SA SDW eq_refl Lk KF LD') as [KT' [R1 [_ [_ P1]]]].
  assert (KS1 : kernel_signal valued k g c o K' = kernel_signal valued k g c o (kernel_slice d k C o KT w)).
  { unfold kernel_signal. rewrite <- KK. reflexivity. }
  rewrite KS1 in R1.
  assert (HA : h < List.length act) by (rewrite LA; exact Hh). assert (WA : w < List.length act) by (rewrite LA; exact Hw).
  assert (HWA : comp G h w < List.length act) by (rewrite LA; exact Hhw).
  assert (TT : kernel_slice d k C o KT' h = kernel_slice d k C o KT (comp G h w)).
  { apply (turned_twice G d E eq OK valued act dom "" g c o k K KT KT' w h (comp G h w)); try assumption.
    rewrite !NA by assumption. reflexivity. }
  assert (VIS : forall e q, e < List.length act -> q < C -> visible G valued dom c (nth e act 0) q = true).
  { intros e q1 He H1. exact (whole_visible G d _ _ valued act dom (Some "") c C g e q1 OK SA SDW eq_refl He H1). }
  assert (KV : forall j q r, inb k j -> q < C -> r < o ->
    kval G E valued dom act c o k C K' j q (h * o + r) = kval G E valued dom act c o k C K j q (comp G h w * o + r)).
  { intros j q r J Hq Hr. destruct (P1 h HA) as [_ V1]. destruct (P0 (comp G h w) HWA) as [_ V0].
    rewrite (V1 j q r J Hq Hr), (V0 j q r J Hq Hr), !VIS by assumption. rewrite TT. reflexivity. }
  destruct (transpose_slices G d _ _ OK valued act dom c C o k s dl eb ea (is_same opt) (ca_use_bias a) (ca_activation a) kinit binit
              L x b m' g CF eq_refl Lm' W SH) as [xp [y [XP [CA SL]]]].
  destruct (transpose_slices G d _ _ OK valued act dom' c C o k s dl eb' ea' (is_same opt) (ca_use_bias a) (ca_activation a) kinit' binit
              L' x b m' g CF' eq_refl Lm' W SH) as [xp' [y' [XP' [CA' SL']]]].
  exists y, y'.
  split.
  { unfold apply. rewrite (conv_apply_call G d _ _ true valued act dom c C o k s dl eb ea (is_same opt) (ca_use_bias a) (ca_activation a)
      kinit binit L x b m' g CF CC Lm' SH). rewrite CA. reflexivity. }
  split.
  { unfold apply. rewrite (conv_apply_call G d _ _ true valued act dom' c C o k s dl eb' ea' (is_same opt) (ca_use_bias a) (ca_activation a)
      kinit' binit L' x b m' g CF' CC' Lm' SH). rewrite CA'. reflexivity. }
  assert (PE : gt_padding (cl_gt L') = gt_padding (cl_gt L)).
  { destruct PO as [Pa [I1 I2]], PO' as [Pb [I3 I4]]. assert (Pa = Pb) by congruence. congruence. }
  rewrite PE in XP'. assert (xp' = xp) as -> by congruence.
  assert (BE : cl_bias L' = cl_bias L).
  { assert (B1 : cl_bias L = initial_bias a binit) by (destruct CF; exact cf_bias). assert (B2 : cl_bias L' = initial_bias a binit) by (destruct CF'; exact cf_bias). congruence. }
  rewrite BE in SL'.
  set (Kh := tab (k ++ [o; C]) (fun i => kval G E valued dom act c o k C K (firstn d i) (nth (d + 1) i 0) (comp G h w * o + nth d i 0))).
  assert (KH : forall j q r, inb k j -> q < C -> r < o -> at_ Kh (j ++ [r; q]) = kval G E valued dom act c o k C K j q (comp G h w * o + r)).
  { intros j q r J Hq Hr. unfold Kh. rewrite at_tab by (apply inbk; assumption). pose proof (inb_length _ _ J) as LJ.
    rewrite firstn_app_exact by lia. rewrite !app_nth2 by lia. replace (d + 1 - List.length j) with 1 by lia.
    replace (d - List.length j) with 0 by lia. reflexivity. }
  pose proof (SL (comp G h w) Kh HWA (shape_tab _ _) KH) as S1.
  assert (S2 := SL' h Kh HA (shape_tab _ _)).
  assert (EO : forall u v : tensor A, Ok u = Ok v -> u = v) by congruence. apply EO. rewrite <- S1. symmetry. apply S2.
  intros j q r J Hq Hr. rewrite (KH j q r J Hq Hr). rewrite <- (KV j q r J Hq Hr). unfold kval, kidx.
  change (tab (k ++ [o; C]) kinit') with K'. destruct valued; [rewrite (SDW' eq_refl)|]; reflexivity.
Qed.

End TurnedTransposed.
Print Assumptions C101_transposed.

(** A transposed P4 layer on group signals, its kernel turned by the first rotation: the slices are the same in another order, and
    not in the same order. *)
Example C101_case_transposed :
  let a := with_group "P4" "" (One 2) 2 (Some (One 1)) (Some (Some "valid")) None true in
  let x := some_signal [1; 2; 2; 4; 1] in
  let sh := [None; Some 2; Some 2; Some 4; Some 1] in
  match test_layer 2 true a sh some_weights some_weights,
        kernel_transforms P4 2 true (Some "") (Some "") (kernel_signal true [2; 2] 4 1 2 (initial_kernel true [2; 2] 4 2 some_weights)) with
  | Ok L, Ok KT =>
    match test_layer 2 true a sh (at_ (read_as [2; 2; 2; 4] (slice 2 1 KT))) some_weights with
    | Ok L' =>
      match apply L x, apply L' x with
      | Ok y, Ok y' => shape y = [1; 3; 3; 4; 2] /\ map (fun h => slice 3 h y') (seq 0 4) = map (fun h => slice 3 (comp P4 h 1) y) (seq 0 4) /\ same_tensor y' y = false
      | _, _ => False
      end
    | Err _ => False
    end
  | _, _ => False
  end.
Proof. vm_compute. repeat split. Qed.
