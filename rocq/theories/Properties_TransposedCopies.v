(** C105 for transposed layers: one ordinary transposed convolution of all transformed copies of the signal, transformed back. *)
From Verif Require Import Properties_Conv Properties_Layers SliceFacts CheckFacts LinearFacts EquivFacts Properties_Copies.
From Verif Require Import EquivSpec.
Local Open Scope string_scope.
Local Open Scope list_scope.

Section TransposedCopies.
Context {A : Type} {RA : Arith A}.

(** The kernel of a transposed layer (pixels, filters, channels), whose numbers are read in the order pixels, channels, filters
    ([_compute_transformed_kernel_indices] numbers the entries of the kernel after the exchange of its last two axes,
    [transform_kernel] takes them from the flattened kernel before it, group_transforms.py:95-103, 176-190). *)
Definition reread (d : nat) (k : list nat) (C o : nat) (K : tensor A) : tensor A :=
  tab (k ++ [o; C]) (fun i => at_ (read_as (k ++ [C; o]) K) (firstn d i ++ [nth (d + 1) i 0; nth d i 0])).

(** [ordinary] is the ordinary transposed convolution.  A signal on the subgroup [H] is transformed by [H], a signal on the grid by
    any subgroup [U] of the group.  For every element of [U] the slice of the output at this element is the ordinary transposed
    convolution of the signal transformed by its inverse, transformed by the element. *)
Theorem C105_transposed name G (a : conv_args A) H U opt (valued : bool) bs m g c kinit binit L k s idx :
  add_commutes A ->
  layer_for name G a -> ca_subgroup a = Some H -> option_of a opt ->
  let d := dimension_of name in
  let o := ca_filters a in
  let C := if valued then g * c else c in
  let turns := if valued then transforms_of_group_signal G d H H else transforms_of_grid_signal G d U in
  built d true a (static_signal_shape valued bs m g c) kinit binit L -> List.length m = d ->
  sizes d a k s (repeat 1 d) -> respects name s -> regular_transposed d opt m k s ->
  (valued = true -> U = H) -> subgroup_indices G U idx ->
  exists P, padding_of a true d bs m C P /\
  let ordinary x b :=
    xp <- padding_call P (merged_signal valued c g x b m) ;;
    base_conv_call true "channels_last" s (repeat 1 d) (backend_padding opt) o (ca_activation a)
      (reread d k C o (initial_kernel true k C o kinit)) (initial_bias a binit) xp in
  forall x b gx, wf x -> shape x = signal_shape valued b m g c -> turns x = Ok gx ->
  exists y, apply L x = Ok y /\
  forall u v, u < List.length idx -> v < List.length idx -> comp G (nth u idx 0) (nth v idx 0) = 0 ->
  exists z gz, ordinary (slice 0 v gx) b = Ok z /\ transforms_of_grid_signal G d U z = Ok gz /\
    slice (d + 1) (nth u idx 0) y = slice 0 u gz.
Proof.
  intros ADD LF HS OP d o C turns B Lm SZ RS RT HU SI.
  destruct (built_facts name G a H opt true valued bs m g c kinit binit L k s _ LF HS OP B Lm SZ)
    as [OK [eb [ea [act [dom [WO [SA [SD [CF [CC _]]]]]]]]]]. fold d in OK, WO, CF. fold o C in CF.
  set (E := symmetries_of name) in *. set (eq := needs_equal_sizes name) in *.
  set (K := initial_kernel true k C o kinit).
  pose proof (cf_k _ _ _ _ _ _ _ _ _ _ _ _ _ _ _ _ _ _ _ _ _ _ CF) as Lk.
  pose proof (cf_fit _ _ _ _ _ _ _ _ _ _ _ _ _ _ _ _ _ _ _ _ _ _ CF) as KF.
  assert (LD : List.length (data K) = prod (k ++ [C; o])) by (rewrite <- prod_swap; apply wf_tab).
  destruct (kval_slices G d _ _ OK valued act dom (Some "") (Some H) c C o k g K SA SD eq_refl Lk KF LD) as [KT [RK [WK [SKT PK]]]].
  pose proof (first_slice G d _ _ OK valued act dom (Some "") (Some H) c C o k g K KT SA SD eq_refl Lk KF LD RK) as K0.
  pose proof (whole_dom _ _ _ _ _ OK SA) as AE. pose proof (ok_pos _ _ _ _ OK) as P0.
  assert (LA : List.length act = List.length E) by (rewrite AE; apply seq_length).
  assert (NA : forall e, e < List.length E -> nth e act 0 = e) by (intros e He; rewrite AE; apply nth_seq0; exact He).
  exists (gt_padding (cl_gt L)). split; [destruct (built_facts name G a H opt true valued bs m g c kinit binit L k s _ LF HS OP B Lm SZ)
    as [_ [eb' [ea' [act' [dom' [_ [_ [_ [_ [_ [_ [_ PO]]]]]]]]]]]]; exact PO|].
  intros ordinary x b gx W SH RX.
  assert (FIRST : forall x', wf x' -> shape x' = signal_shape valued b m g c -> exists y', apply L x' = Ok y' /\ ordinary x' b = Ok (slice (d + 1) 0 y')).
  { intros x' W' SH'.
    destruct (transpose_slices G d _ _ OK valued act dom c C o k s _ eb ea (is_same opt) (ca_use_bias a) (ca_activation a) kinit binit
                L x' b m g CF eq_refl Lm W' SH') as [xp [y' [XP [CA SL]]]].
    exists y'. split.
    { unfold apply. rewrite (conv_apply_call G d _ _ true valued act dom c C o k s _ eb ea (is_same opt) (ca_use_bias a) (ca_activation a)
        kinit binit L x' b m g CF CC Lm SH'). rewrite CA. reflexivity. }
    unfold ordinary. rewrite XP. cbn [bind].
    assert (CB : cl_bias L = initial_bias a binit) by (destruct CF; exact cf_bias). rewrite <- CB.
    assert (H0 : 0 < List.length act) by lia.
    apply SL; [exact H0|apply shape_tab|]. intros j q r J Q R. destruct (PK 0 H0) as [_ PS].
    change (tab (k ++ [o; C]) kinit) with K. rewrite (PS j q r J Q R), K0, (NA 0 P0).
    assert (VI : visible G valued dom c 0 q = true).
    { unfold visible. destruct valued; [|reflexivity]. cbn [negb orb]. destruct (SD eq_refl) as [SD' GD].
      destruct (sub_idx_facts _ _ _ _ OK _ _ SD') as [_ [Bd _]].
      assert (C0 : c <> 0) by (intros ->; unfold C in Q; lia).
      assert (QD : q / c < List.length dom) by (apply Nat.div_lt_upper_bound; [exact C0|]; unfold C in Q; rewrite GD in Q; lia).
      rewrite (from_identity G d E eq OK) by (apply Bd, nth_In; exact QD). apply mem_In, nth_In. exact QD. }
    rewrite VI. unfold reread. rewrite at_tab by (apply inbk; assumption). pose proof (inb_length _ _ J) as LJ.
    f_equal. rewrite firstn_app_exact by lia. rewrite !app_nth2 by lia. replace (d + 1 - List.length j) with 1 by lia.
    replace (d - List.length j) with 0 by lia. reflexivity. }
  assert (CM : commutes_at turns (transforms_of_group_signal G d U "") (apply L) x).
  { destruct (C27_transposed_convolution_any_stride name G a H U opt bs m g c kinit binit L k s ADD LF HS OP Lm SZ RS RT) as [CG CV].
    subst turns. destruct valued.
    - rewrite (HU eq_refl). exact (CV B b x W SH).
    - exact (CG B b x W SH). }
  destruct (FIRST x W SH) as [y [CA _]]. exists y. split; [exact CA|]. intros u v Hu Hv UV.
  destruct (CM gx y RX CA) as [gy [RY [_ CO]]].
  pose proof (merged_input d valued x b m g c W Lm SH) as MG. change (if valued then g * c else c) with C in MG.
  rewrite (layer_form G d E eq OK true valued act dom c C o k s _ eb ea (is_same opt) (ca_use_bias a) (ca_activation a) kinit binit L x b m g _ CF CC Lm SH MG) in CA.
  assert (LO : List.length (layer_outs true k s (repeat 1 d) eb ea (is_same opt) m) = d) by (exact (length_layer_outs G d E eq true valued act dom c C o k s _ eb ea (is_same opt) _ _ kinit binit L m CF Lm)).
  set (M := layer_outs true k s (repeat 1 d) eb ea (is_same opt) m) in *.
  destruct (layer_runs _ _ _ _ _ _ _ _) in CA; [|discriminate CA].
  assert (EO : forall u v : tensor A, Ok u = Ok v -> u = v) by congruence. apply EO in CA. match type of CA with tab _ (sig4 _ ?f) = _ => set (Y := f) in CA end.
  subst y. assert (SI' : sub_idx G (Some U) idx) by exact SI.
  destruct (sub_idx_facts _ _ _ _ OK _ _ SI') as [ND [BA [HD [_ CL]]]].
  assert (STA : forall w, In w idx -> stable G w act) by (intros w I; rewrite AE; apply (stable_whole G d E eq OK), BA, I).
  destruct (group_slices G d E eq OK b M (List.length act) o Y (Some U) (Some "") idx act gy SI' SA eq_refl LO STA RY) as [FM [SGY SLY]].
  assert (SX : exists gs, shape gx = List.length idx :: gs /\ gs = signal_shape valued b m g c).
  { subst turns. destruct valued.
    - rewrite (tensor_sig4 d b m g c x W Lm SH) in RX. destruct (SD eq_refl) as [D1 D2]. rewrite <- (HU eq_refl) in RX, D1.
      assert (dom = idx) as -> by (unfold sub_idx in D1, SI'; congruence).
      destruct (group_slices G d E eq OK b m g c (fun4 x) (Some U) (Some U) idx idx gx SI' SI' D2 Lm) as [_ [Q _]]; [|exact RX|eexists; split; [exact Q|reflexivity]].
      intros w I. exact (stable_of G d E eq OK _ _ _ SI' I).
    - rewrite (tensor_sig3 d b m c x W Lm SH) in RX.
      destruct (grid_slices G d E eq OK b m c (fun3 x) None (Some U) idx gx SI' Lm RX) as [_ [Q _]]. eexists; split; [exact Q|reflexivity]. }
  destruct SX as [gs [SGX ->]]. rewrite SGX in CO. specialize (CO v Hv).
  destruct (FIRST (slice 0 v gx) (wf_slice 0 v gx) (shape_slice0 v gx _ _ SGX)) as [yv [AV OV]].
  assert (yv = slice 0 v gy) as -> by congruence. rewrite SLY in OV by exact Hv.
  assert (L0 : 0 < List.length act) by lia.
  rewrite (slice_sig4 d) in OV by assumption. set (f := nth v idx 0) in *. set (e := nth u idx 0) in *.
  destruct (grid_slices_ok G d E eq OK b M o (fun bi p r => moved4 G E f M act Y bi p 0 r) None (Some U) idx SI' FM) as [gz [RZ [_ SZ']]].
  eexists. exists gz. split; [exact OV|]. split; [exact RZ|].
  assert (Ie : In e idx) by (apply nth_In; exact Hu). assert (If : In f idx) by (apply nth_In; exact Hv).
  pose proof (BA e Ie) as He. pose proof (BA f If) as Hf. pose proof (ok_is_group _ _ _ _ OK) as GR.
  rewrite SZ' by exact Hu. rewrite (slice_sig4 d) by (try assumption; rewrite LA; exact He). apply sig3_ext; [exact LO|]. intros bi p r Hb Hp Hr. unfold moved3, moved4. fold e.
  destruct (ok_inv _ _ _ _ OK e He) as [Hie [IL IR]]. destruct (ok_inv _ _ _ _ OK f Hf) as [Hif [ILf IRf]].
  assert (FE : f = inv G e).
  { rewrite <- (group_id_r _ _ _ GR (inv G e)) by exact Hie. rewrite <- UV. rewrite (group_assoc _ _ _ GR) by assumption. rewrite IL.
    symmetry. apply (group_id_l _ _ _ GR). exact Hf. }
  assert (EF : inv G f = e).
  { rewrite <- (group_id_l _ _ _ GR (inv G f)) by exact Hif. rewrite <- UV. rewrite <- (group_assoc _ _ _ GR) by assumption. rewrite IRf.
    apply (group_id_r _ _ _ GR). exact He. }
  assert (TL : turned G f act 0 < List.length act) by (apply turned_lt; [exact (STA f If)|exact L0]).
  assert (TU : turned G f act 0 = e).
  { rewrite <- (NA (turned G f act 0)) by (rewrite <- LA; exact TL). rewrite turned_nth by (try exact (STA f If); exact L0).
    rewrite (NA 0 P0), EF. apply (group_id_r _ _ _ GR). exact He. }
  rewrite TU. f_equal.
  assert (F0 : f = comp G (inv G e) 0) by (rewrite FE; symmetry; apply (group_id_r _ _ _ GR); exact Hie).
  rewrite F0. rewrite (px_twice G d E eq OK) by (try assumption; try apply FM; exact P0).
  rewrite (ok_id _ _ _ _ OK). symmetry. apply pixel_identity. rewrite (inb_length _ _ Hp). exact LO.
Qed.

(** With one filter or one channel the numbers of the kernel are in the same order either way. *)
Theorem C105_transposed_kernel (k : list nat) (C o : nat) kinit : C = 1 \/ o = 1 ->
  reread (List.length k) k C o (initial_kernel true k C o kinit) = initial_kernel (A := A) true k C o kinit.
Proof.
  intros E. unfold initial_kernel, reread. apply tab_ext. intros i I. apply inbk_inv in I as [j [r [q [-> [J [R Q]]]]]].
  pose proof (inb_length _ _ J) as LJ. rewrite firstn_app_exact by lia. rewrite !app_nth2 by lia.
  replace (List.length k + 1 - List.length j) with 1 by lia. replace (List.length k - List.length j) with 0 by lia. cbn [nth].
  rewrite <- (at_tab (k ++ [o; C]) kinit (j ++ [r; q])) by (apply inbk; assumption).
  unfold at_. cbn [read_as shape data]. change (shape (tab (k ++ [o; C]) kinit)) with (k ++ [o; C]). f_equal.
  rewrite !ravel_app by lia. assert (P2 : forall a b, prod [a; b] = a * b) by (intros; unfold prod; cbn [fold_right]; lia).
  assert (R2 : forall a b x y, ravel [a; b] [x; y] = x * b + y) by (intros; cbn [ravel]; unfold prod; cbn [fold_right]; lia).
  rewrite !P2, !R2. destruct E; subst; nia.
Qed.

End TransposedCopies.

Print Assumptions C105_transposed.
Print Assumptions C105_transposed_kernel.

(** A transposed P4 layer with kernels of 3x3 pixels, strides 2 and two filters on 3x3 pixels with two channels: the four slices
    of the output are the ordinary transposed convolutions of the signal transformed by elements 0, 3, 2, 1, transformed back.
    With the kernel in the order in which the layer stores it none of them is right. *)
Definition ordinary_transposed (K : tensor Z) (x : tensor Z) : result (tensor Z) :=
  base_conv_call true "channels_last" [2; 2] [1; 1] "valid" 2 (fun v => v) K (Some (tab [2] some_weights)) x.

Example C105_case_transposed :
  let x := some_signal [1; 3; 3; 2] in
  let K := initial_kernel true [3; 3] 2 2 some_weights in
  match test_layer 2 true (with_group "P4" "" (One 3) 2 (Some (One 2)) (Some (Some "valid")) None true) [None; Some 3; Some 3; Some 2] some_weights some_weights,
        transforms_of_grid_signal P4 2 "" x with
  | Ok L, Ok gx =>
    match apply L x with
    | Ok y =>
      let right K' := map (fun uv => match ordinary_transposed K' (slice 0 (snd uv) gx) with
        | Ok z => match transforms_of_grid_signal P4 2 "" z with Ok gz => same_tensor (slice 3 (fst uv) y) (slice 0 (fst uv) gz) | Err _ => false end
        | Err _ => false end) [(0, 0); (1, 3); (2, 2); (3, 1)]%nat in
      shape y = [1; 7; 7; 4; 2] /\ right (reread 2 [3; 3] 2 2 K) = [true; true; true; true] /\ right K = [false; false; false; false]
    | _ => False
    end
  | _, _ => False
  end.
Proof. vm_compute. repeat split. Qed.
