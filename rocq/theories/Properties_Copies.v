(** C105: a layer is one ordinary convolution of all transformed copies of the signal, transformed back. *)
From Verif Require Import Properties_Conv Properties_Layers SliceFacts CheckFacts LinearFacts EquivFacts.
From Verif Require Import EquivSpec.
Local Open Scope string_scope.
Local Open Scope list_scope.

Section Copies.
Context {A : Type} {RA : Arith A}.

Lemma copies name G (a : conv_args A) H opt (valued : bool) bs m g c kinit binit L k s idx :
  add_commutes A ->
  layer_for name G a -> ca_subgroup a = Some H -> option_of a opt -> ca_allow a = false ->
  let d := dimension_of name in
  let o := ca_filters a in
  let C := if valued then g * c else c in
  let turns := if valued then transforms_of_group_signal G d H "" else transforms_of_grid_signal G d H in
  built d false a (static_signal_shape valued bs m g c) kinit binit L -> List.length m = d ->
  sizes d a k s (repeat 1 d) -> respects name s -> subgroup_indices G H idx ->
  exists P, padding_of a false d bs m C P /\
  let ordinary x b :=
    xp <- padding_call P (merged_signal valued c g x b m) ;;
    base_conv_call false "channels_last" s (repeat 1 d) (backend_padding opt) o (ca_activation a) (initial_kernel false k C o kinit) (initial_bias a binit) xp in
  forall x b gx y, wf x -> shape x = signal_shape valued b m g c -> turns x = Ok gx -> apply L x = Ok y ->
  forall u v, u < List.length idx -> v < List.length idx -> comp G (nth u idx 0) (nth v idx 0) = 0 ->
  exists z gz M, ordinary (slice 0 v gx) b = Ok z /\ transforms_of_grid_signal G d H z = Ok gz /\
    slice (d + 1) u y = slice 0 u gz /\ fit d (needs_equal_sizes name) M /\
    shape y = b :: M ++ [List.length idx; o] /\ shape z = b :: M ++ [o] /\
    forall bi p r, bi < b -> inb M p -> r < o ->
      at_ y (bi :: p ++ [u; r]) = at_ z (bi :: pixel (nth (nth u idx 0) (symmetries_of name) []) M p ++ [r]).
Proof.
  intros ADD LF HS OP AL d o C turns B Lm SZ RS SI.
  destruct (C23_slice_is_an_ordinary_convolution name G a H opt valued bs m g c kinit binit L k s (repeat 1 d) LF HS OP B Lm SZ)
    as [P [KT [PA [KR [K0 SL]]]]]. fold d in PA, KR, K0, SL.
  exists P. split; [exact PA|]. intros ordinary x b gx y W SH RX CA u v Hu Hv UV.
  assert (CM : commutes_at turns (transforms_of_group_signal G d H H) (apply L) x).
  { subst turns. destruct valued.
    - exact (C22_group_convolution_is_equivariant name G a H bs m g c kinit binit L k s x b ADD LF HS AL B Lm SZ RS W SH).
    - exact (C21_lifting_convolution_is_equivariant name G a H bs m c kinit binit L k s x b ADD LF HS AL B Lm SZ RS W SH). }
  destruct (CM gx y RX CA) as [gy [RY [_ CO]]].
  destruct (built_facts name G a H opt false valued bs m g c kinit binit L k s _ LF HS OP B Lm SZ)
    as [OK [eb [ea [act [dom [WO [SA [SD [CF [CC _]]]]]]]]]]. fold d in OK, WO, CF.
  assert (act = idx) as -> by (unfold sub_idx in SA; unfold subgroup_indices in SI; congruence).
  set (E := symmetries_of name) in *. set (eq := needs_equal_sizes name) in *.
  destruct (sub_idx_facts _ _ _ _ OK _ _ SA) as [ND [BA [HD [_ CL]]]].
  pose proof (merged_input d valued x b m g c W Lm SH) as MG. change (if valued then g * c else c) with C in MG. fold o in CF, CC.
  rewrite (layer_form G d E eq OK false valued idx dom c C o k s _ eb ea (is_same opt) (ca_use_bias a) (ca_activation a) kinit binit L x b m g _ CF CC Lm SH MG) in CA.
  assert (LO : List.length (layer_outs false k s (repeat 1 d) eb ea (is_same opt) m) = d) by (exact (length_layer_outs G d E eq false valued idx dom c C o k s _ eb ea (is_same opt) _ _ kinit binit L m CF Lm)).
  set (M := layer_outs false k s (repeat 1 d) eb ea (is_same opt) m) in *.
  destruct (layer_runs _ _ _ _ _ _ _ _) in CA; [|discriminate CA].
  assert (EO : forall u v : tensor A, Ok u = Ok v -> u = v) by congruence. apply EO in CA. match type of CA with tab _ (sig4 _ ?f) = _ => set (Y := f) in CA end.
  subst y.
  assert (STA : forall w, In w idx -> stable G w idx) by (intros w I; exact (stable_of G d E eq OK _ _ _ SA I)).
  destruct (group_slices G d E eq OK b M (List.length idx) o Y (Some H) (Some H) idx idx gy SA SA eq_refl LO STA RY) as [FM [SGY SLY]].
  assert (SX : exists gs, shape gx = List.length idx :: gs /\ gs = signal_shape valued b m g c).
  { subst turns. destruct valued.
    - rewrite (tensor_sig4 d b m g c x W Lm SH) in RX. destruct (SD eq_refl) as [D1 D2].
      destruct (group_slices G d E eq OK b m g c (fun4 x) (Some H) (Some "") idx dom gx SA D1 D2 Lm) as [_ [Q _]]; [|exact RX|eexists; split; [exact Q|reflexivity]].
      intros w I. rewrite (whole_dom _ _ _ _ _ OK D1). apply (stable_whole G d E eq OK), BA, I.
    - rewrite (tensor_sig3 d b m c x W Lm SH) in RX.
      destruct (grid_slices G d E eq OK b m c (fun3 x) None (Some H) idx gx SA Lm RX) as [_ [Q _]]. eexists; split; [exact Q|reflexivity]. }
  destruct SX as [gs [SGX ->]]. rewrite SGX in CO. specialize (CO v Hv).
  destruct (SL (slice 0 v gx) b m (wf_slice 0 v gx) Lm (shape_slice0 v gx _ _ SGX)) as [xp [PC SL']].
  assert (H0 : 0 < nth d (shape KT) 0).
  { destruct (kval_slices G d _ _ OK valued idx dom (Some H) (Some "") c C o k g (initial_kernel false k C o kinit) SA SD eq_refl) as [KT0 [R0 [_ [Q _]]]];
      try (destruct CF; assumption); [unfold initial_kernel; apply length_data_tab|].
    assert (KT0 = KT) as -> by (fold o in KR; change (if valued then (g * c)%nat else c) with C in KR; rewrite KR in R0; congruence). assert (Lk : List.length k = d) by (destruct CF; assumption).
    rewrite Q, app_nth2 by lia. replace (d - List.length k) with 0 by lia. cbn [nth]. lia. }
  specialize (SL' 0 H0). rewrite K0, CO in SL'. cbn [bind] in SL'. rewrite SLY in SL' by exact Hv.
  assert (L0 : 0 < List.length idx) by lia.
  rewrite (slice_sig4 d) in SL' by (try assumption). set (f := nth v idx 0) in *. set (e := nth u idx 0) in *.
  destruct (grid_slices_ok G d E eq OK b M o (fun bi p r => moved4 G E f M idx Y bi p 0 r) None (Some H) idx SA FM) as [gz [RZ [_ SZ']]].
  eexists. exists gz, M. split; [unfold ordinary; rewrite PC; cbn [bind]; exact SL'|]. split; [exact RZ|].
  assert (PW : forall bi p r, bi < b -> inb M p -> r < o -> Y bi p u r = moved4 G E f M idx Y bi (pixel (nth e E []) M p) 0 r).
  2:{ split; [rewrite SZ' by exact Hu; rewrite (slice_sig4 d) by assumption; apply sig3_ext; [exact LO|]; intros bi p r Hb Hp Hr; apply PW; assumption|].
      split; [exact FM|]. split; [apply shape_tab|]. split; [apply shape_tab|]. intros bi p r Hb Hp Hr.
      assert (Ie : In e idx) by (apply nth_In; exact Hu).
      assert (IP : inb M (pixel (nth e E []) M p)) by exact (pixel_in G d E eq OK e M p (BA e Ie) FM Hp).
      rewrite (at_sig4 d) by assumption. rewrite (at_sig3 d) by assumption.
      apply PW; assumption. }
  intros bi p r Hb Hp Hr. unfold moved4.
  assert (Ie : In e idx) by (apply nth_In; exact Hu). assert (If : In f idx) by (apply nth_In; exact Hv).
  pose proof (BA e Ie) as He. pose proof (BA f If) as Hf. pose proof (ok_is_group _ _ _ _ OK) as GR.
  destruct (ok_inv _ _ _ _ OK e He) as [Hie [IL IR]]. destruct (ok_inv _ _ _ _ OK f Hf) as [Hif [ILf IRf]].
  assert (FE : f = inv G e).
  { rewrite <- (group_id_r _ _ _ GR (inv G e)) by exact Hie. rewrite <- UV. rewrite (group_assoc _ _ _ GR) by assumption. rewrite IL.
    symmetry. apply (group_id_l _ _ _ GR). exact Hf. }
  assert (EF : inv G f = e).
  { rewrite <- (group_id_l _ _ _ GR (inv G f)) by exact Hif. rewrite <- UV. rewrite <- (group_assoc _ _ _ GR) by assumption. rewrite IRf.
    apply (group_id_r _ _ _ GR). exact He. }
  assert (I0 : nth 0 idx 0 = 0) by (destruct idx; [reflexivity|cbn in HD |- *; congruence]).
  assert (TU : turned G f idx 0 = u).
  { apply (proj1 (NoDup_nth idx 0) ND); [apply turned_lt; [exact (STA f If)|exact L0]|exact Hu|].
    rewrite turned_nth by (try exact (STA f If); exact L0). rewrite I0, EF. apply (group_id_r _ _ _ GR). exact He. }
  rewrite TU. f_equal.
  assert (F0 : f = comp G (inv G e) 0) by (rewrite FE; symmetry; apply (group_id_r _ _ _ GR); exact Hie).
  rewrite F0. rewrite (px_twice G d E eq OK) by (try assumption; try apply FM; exact (ok_pos _ _ _ _ OK)).
  rewrite (ok_id _ _ _ _ OK). symmetry. apply pixel_identity. rewrite (inb_length _ _ Hp). exact LO.
Qed.

(** [ordinary] is the ordinary convolution with the kernel of the layer as it was initialised, its bias, strides and
    activation, on the padded signal (with the group axis, if it has one, merged with the channels).  Slice number [u] of the output
    of the layer is the ordinary convolution of the signal transformed by the inverse ([v]) of element [u], transformed by [u]. *)
Theorem C105_one_convolution_of_every_transformed_signal name G (a : conv_args A) H opt (valued : bool) bs m g c kinit binit L k s idx :
  add_commutes A ->
  layer_for name G a -> ca_subgroup a = Some H -> option_of a opt -> ca_allow a = false ->
  let d := dimension_of name in
  let o := ca_filters a in
  let C := if valued then g * c else c in
  let turns := if valued then transforms_of_group_signal G d H "" else transforms_of_grid_signal G d H in
  built d false a (static_signal_shape valued bs m g c) kinit binit L -> List.length m = d ->
  sizes d a k s (repeat 1 d) -> respects name s -> subgroup_indices G H idx ->
  exists P, padding_of a false d bs m C P /\
  let ordinary x b :=
    xp <- padding_call P (merged_signal valued c g x b m) ;;
    base_conv_call false "channels_last" s (repeat 1 d) (backend_padding opt) o (ca_activation a) (initial_kernel false k C o kinit) (initial_bias a binit) xp in
  forall x b gx y, wf x -> shape x = signal_shape valued b m g c -> turns x = Ok gx -> apply L x = Ok y ->
  forall u v, u < List.length idx -> v < List.length idx -> comp G (nth u idx 0) (nth v idx 0) = 0 ->
  exists z gz, ordinary (slice 0 v gx) b = Ok z /\ transforms_of_grid_signal G d H z = Ok gz /\
    slice (d + 1) u y = slice 0 u gz.
Proof.
  intros ADD LF HS OP AL d o C turns B Lm SZ RS SI.
  destruct (copies name G a H opt valued bs m g c kinit binit L k s idx ADD LF HS OP AL B Lm SZ RS SI) as [P [PA Q]].
  exists P. split; [exact PA|]. intros ordinary x b gx y W SH RX CA u v Hu Hv UV.
  destruct (Q x b gx y W SH RX CA u v Hu Hv UV) as [z [gz [M [Q1 [Q2 [Q3 _]]]]]]. exists z, gz. split; [exact Q1|]. split; [exact Q2|exact Q3].
Qed.

End Copies.

Print Assumptions C105_one_convolution_of_every_transformed_signal.

(** A P4 layer with kernels of 3x3 pixels on 5x5 pixels, 'valid' (no padding): the four slices of the output
    are the ordinary convolutions of the signal transformed by elements 0, 3, 2, 1, transformed back; none of the other
    slices is the ordinary convolution of the signal itself. *)
Definition ordinary_case (x : tensor Z) : result (tensor Z) :=
  base_conv_call false "channels_last" [1; 1] [1; 1] "valid" 1 (fun v => v) (tab [3; 3; 1; 1] some_weights) (Some (tab [1] some_weights)) x.

Example C105_case :
  let x := some_signal [1; 5; 5; 1] in
  match test_layer 2 false (with_group "P4" "" (One 3) 1 (Some (One 1)) (Some (Some "valid")) None true) [None; Some 5; Some 5; Some 1] some_weights some_weights,
        transforms_of_grid_signal P4 2 "" x with
  | Ok L, Ok gx =>
    match apply L x with
    | Ok y =>
      map (comp P4 1) [3] = [0] /\ comp P4 2 2 = 0%nat /\ shape y = [1; 3; 3; 4; 1] /\
      forallb (fun uv => match ordinary_case (slice 0 (snd uv) gx) with
        | Ok z => match transforms_of_grid_signal P4 2 "" z with Ok gz => same_tensor (slice 3 (fst uv) y) (slice 0 (fst uv) gz) | Err _ => false end
        | Err _ => false end) [(0, 0); (1, 3); (2, 2); (3, 1)]%nat = true /\
      map (fun u => same_result (ordinary_case x) (Ok (slice 3 u y))) (seq 0 4) = [true; false; false; false]
    | _ => False
    end
  | _, _ => False
  end.
Proof. vm_compute. repeat split. Qed.
