(** C110: equivariant layers keep the symmetries of their input. *)
From Verif Require Import Properties_Conv Properties_Layers SliceFacts CheckFacts LinearFacts EquivFacts Properties_Pooling.
From Verif Require Import EquivSpec PoolSpec.
Local Open Scope string_scope.
Local Open Scope list_scope.

Section Symmetric.
Context {A : Type} {RA : Arith A}.

(** Number [w] of the transformed signals is the signal itself. *)
Definition has_symmetry (transforms : tensor A -> result (tensor A)) (w : nat) (x : tensor A) : Prop :=
  exists gx, transforms x = Ok gx /\ w < nth 0 (shape gx) 0 /\ slice 0 w gx = x.

(** Whatever commutes with the group (C21, C22, C26, C27, C32, C39, C52, C60, ...) keeps the symmetries of its input. *)
Theorem C110_commuting_calls (tin tout : tensor A -> result (tensor A)) call x y w :
  commutes_at tin tout call x -> call x = Ok y -> has_symmetry tin w x -> has_symmetry tout w y.
Proof.
  intros CM CA [gx [R [Hw S]]]. destruct (CM gx y R CA) as [gy [RY [N CO]]]. exists gy. split; [exact RY|]. split; [rewrite N; exact Hw|].
  specialize (CO w Hw). rewrite S, CA in CO. congruence.
Qed.

(** A signal on the subgroup [U] (the whole group for "") has the symmetry [w] exactly when its slice for [w] composed with [h] is its
    slice for [h], transformed by [w]. *)
Theorem C110_slices name G H U (y : tensor A) b m n c idx dom w :
  dict_get group_dict name = Ok G -> subgroup_indices G H idx -> subgroup_indices G U dom -> U = H \/ U = "" ->
  let d := dimension_of name in
  wf y -> List.length m = d -> shape y = b :: m ++ [n; c] -> n = List.length dom -> w < List.length idx ->
  is_ok (transforms_of_group_signal G d H U y) = true ->
  has_symmetry (transforms_of_group_signal G d H U) w y <->
  forall h h', h < n -> h' < n -> nth h' dom 0 = comp G (nth w idx 0) (nth h dom 0) ->
  exists gz, transforms_of_grid_signal G d H (slice (d + 1) h y) = Ok gz /\ slice (d + 1) h' y = slice 0 w gz.
Proof.
  intros DG SI SU HU d W Lm SH NN Hw IO. apply lib_ok in DG as [_ OK]. fold d in OK.
  set (E := symmetries_of name) in *. set (eq := needs_equal_sizes name) in *.
  assert (SI' : sub_idx G (Some H) idx) by exact SI. assert (SU' : sub_idx G (Some U) dom) by exact SU.
  destruct (sub_idx_facts _ _ _ _ OK _ _ SI') as [_ [BI _]]. destruct (sub_idx_facts _ _ _ _ OK _ _ SU') as [ND [BU _]].
  assert (ST : forall u, In u idx -> stable G u dom).
  { intros u I. destruct HU as [->| ->].
    - assert (dom = idx) as -> by (unfold sub_idx in SI', SU'; congruence). exact (stable_of G d E eq OK _ _ _ SI' I).
    - rewrite (whole_dom _ _ _ _ _ OK SU'). apply (stable_whole G d E eq OK), BI, I. }
  set (a := nth w idx 0). assert (Ia : In a idx) by (apply nth_In; exact Hw). pose proof (BI a Ia) as Ha. pose proof (ST a Ia) as Sa.
  pose proof (ok_is_group _ _ _ _ OK) as GR. destruct (ok_inv _ _ _ _ OK a Ha) as [Hia [IL IR]].
  destruct (transforms_of_group_signal G d H U y) as [gy|] eqn:RY; [|discriminate IO]. clear IO.
  pose proof (tensor_sig4 d b m n c y W Lm SH) as YE. set (Y := fun4 y) in YE.
  assert (RY' := RY). rewrite YE in RY'.
  destruct (group_slices G d E eq OK b m n c Y (Some H) (Some U) idx dom gy SI' SU' NN Lm ST RY') as [FM [SGY SLY]].
  assert (T : forall h h', h < n -> h' < n -> nth h' dom 0 = comp G a (nth h dom 0) -> turned G a dom h' = h).
  { intros h h' Hh Hh' Q. apply (proj1 (NoDup_nth dom 0) ND); [apply turned_lt; [exact Sa|lia]|lia|]. rewrite turned_nth by (try exact Sa; lia). rewrite Q.
    pose proof (BU (nth h dom 0) ltac:(apply nth_In; lia)) as Hd. rewrite (group_assoc _ _ _ GR) by assumption. rewrite IL. apply (group_id_l _ _ _ GR). exact Hd. }
  assert (GZ : forall h, h < n -> exists gz, transforms_of_grid_signal G d H (slice (d + 1) h y) = Ok gz /\
    slice 0 w gz = tab (b :: m ++ [c]) (sig3 d (fun bi p r => Y bi (pixel (nth a E []) m p) h r))).
  { intros h Hh. rewrite YE, (slice_sig4 d) by assumption.
    destruct (grid_slices_ok G d E eq OK b m c (fun bi p r => Y bi p h r) None (Some H) idx SI' FM) as [gz [RZ [_ SZ]]].
    exists gz. split; [exact RZ|]. rewrite SZ by exact Hw. reflexivity. }
  assert (SY : forall h, h < n -> slice (d + 1) h y = tab (b :: m ++ [c]) (sig3 d (fun bi p r => Y bi p h r))).
  { intros h Hh. rewrite YE. apply (slice_sig4 d); assumption. }
  split.
  - intros [gy' [R' [_ S]]] h h' Hh Hh' Q. assert (gy' = gy) as -> by congruence. destruct (GZ h Hh) as [gz [RZ SZ]]. exists gz. split; [exact RZ|].
    rewrite SZ. rewrite SLY in S by exact Hw. rewrite <- S. rewrite (slice_sig4 d) by assumption.
    apply sig3_ext; [exact Lm|]. intros bi p r _ _ _. unfold moved4. fold a. rewrite (T h h' Hh Hh' Q). reflexivity.
  - intros SL. exists gy. split; [exact RY|]. split; [rewrite SGY; exact Hw|]. rewrite SLY by exact Hw. rewrite YE at 1. apply sig4_ext; [exact Lm|].
    intros bi p h' r Hb Hp Hh' Hr. unfold moved4. fold a.
    assert (Ht : turned G a dom h' < n) by (rewrite NN in Hh' |- *; apply turned_lt; [exact Sa|exact Hh']).
    destruct (SL (turned G a dom h') h' Ht Hh') as [gz [RZ SZ]].
    { fold a. rewrite turned_nth by (try exact Sa; lia). pose proof (BU (nth h' dom 0) ltac:(apply nth_In; lia)) as Hd.
      rewrite (group_assoc _ _ _ GR) by assumption. rewrite IR. symmetry. apply (group_id_l _ _ _ GR). exact Hd. }
    destruct (GZ _ Ht) as [gz' [RZ' SZ']]. assert (gz' = gz) as -> by congruence. rewrite SZ', (SY h' Hh') in SZ.
    assert (EV := f_equal (fun t => at_ t (bi :: p ++ [r])) SZ). cbv beta in EV.
    rewrite !at_tab in EV by (apply inb3; assumption). pose proof (inb_length _ _ Hp) as LP. rewrite !sig3_ix in EV by lia. symmetry. exact EV.
Qed.

(** Convolutions on the grid or on the group: if the input does not change under element [w] of the layer's subgroup, every slice of
    the output is another slice transformed by [w]. *)
Theorem C110_convolutions name G (a : conv_args A) H (valued : bool) bs m g c kinit binit L k s idx w x b y :
  add_commutes A ->
  layer_for name G a -> ca_subgroup a = Some H -> ca_allow a = false ->
  let d := dimension_of name in
  built d false a (static_signal_shape valued bs m g c) kinit binit L -> List.length m = d ->
  sizes d a k s (repeat 1 d) -> respects name s -> subgroup_indices G H idx ->
  wf x -> shape x = signal_shape valued b m g c -> apply L x = Ok y ->
  has_symmetry (if valued then transforms_of_group_signal G d H "" else transforms_of_grid_signal G d H) w x ->
  forall h h', h < List.length idx -> h' < List.length idx -> nth h' idx 0 = comp G (nth w idx 0) (nth h idx 0) ->
  exists gz, transforms_of_grid_signal G d H (slice (d + 1) h y) = Ok gz /\ slice (d + 1) h' y = slice 0 w gz.
Proof.
  intros ADD LF HS AL d B Lm SZ RS SI W SH CA SX.
  assert (CM : commutes_at (if valued then transforms_of_group_signal G d H "" else transforms_of_grid_signal G d H) (transforms_of_group_signal G d H H) (apply L) x).
  { destruct valued.
    - exact (C22_group_convolution_is_equivariant name G a H bs m g c kinit binit L k s x b ADD LF HS AL B Lm SZ RS W SH).
    - exact (C21_lifting_convolution_is_equivariant name G a H bs m c kinit binit L k s x b ADD LF HS AL B Lm SZ RS W SH). }
  pose proof (C110_commuting_calls _ _ _ _ _ _ CM CA SX) as SYM.
  assert (P : exists opt, option_of a opt).
  { destruct B as [L0 [I B]]. pose proof LF as [DG [AG AF]].
    destruct (conv_init_inv G d name false a L0 DG AG AF I) as [p [_ [_ [_ [_ [PN _]]]]]]. exists (upper p), p. split; [exact PN|reflexivity]. }
  destruct P as [opt OP].
  destruct (built_facts name G a H opt false valued bs m g c kinit binit L k s _ LF HS OP B Lm SZ)
    as [OK [eb [ea [act [dom [WO [SA [SD [CF [CC _]]]]]]]]]]. fold d in OK, WO, CF.
  assert (act = idx) as -> by (unfold subgroup_indices in SI; unfold sub_idx in SA; congruence).
  set (C := if valued then g * c else c) in *. set (o := ca_filters a) in *.
  pose proof (merged_input d valued x b m g c W Lm SH) as MG. change (if valued then g * c else c) with C in MG.
  rewrite (layer_form G d _ _ OK false valued idx dom c C o k s _ eb ea (is_same opt) (ca_use_bias a) (ca_activation a) kinit binit L x b m g _ CF CC Lm SH MG) in CA.
  assert (LO : List.length (layer_outs false k s (repeat 1 d) eb ea (is_same opt) m) = d) by (exact (length_layer_outs G d _ _ false valued idx dom c C o k s _ eb ea (is_same opt) _ _ kinit binit L m CF Lm)).
  set (M := layer_outs false k s (repeat 1 d) eb ea (is_same opt) m) in *.
  destruct (layer_runs _ _ _ _ _ _ _ _) in CA; [|discriminate CA].
  assert (EO : forall u v : tensor A, Ok u = Ok v -> u = v) by congruence. apply EO in CA.
  assert (WY : wf y) by (rewrite <- CA; apply wf_tab). assert (SY : shape y = b :: M ++ [List.length idx; o]) by (rewrite <- CA; apply shape_tab). clear CA.
  pose proof SYM as [gy [RY [Hw S]]]. pose proof RY as RY0.
  assert (Hw' : w < List.length idx).
  { pose proof (tensor_sig4 d b M (List.length idx) o y WY LO SY) as YE. rewrite YE in RY.
    destruct (group_slices G d _ _ OK b M (List.length idx) o (fun4 y) (Some H) (Some H) idx idx gy SA SA eq_refl LO) as [_ [SGY _]]; [|exact RY|].
    - intros u I. exact (stable_of G d _ _ OK _ _ _ SA I).
    - rewrite SGY in Hw. exact Hw. }
  pose proof LF as [DG _].
  apply (proj1 (C110_slices name G H H y b M (List.length idx) o idx idx w DG SI SI (or_introl eq_refl) WY LO SY eq_refl Hw' (f_equal is_ok RY0))).
  exact SYM.
Qed.

End Symmetric.
Print Assumptions C110_commuting_calls.
Print Assumptions C110_slices.
Print Assumptions C110_convolutions.

(** A picture of 3x3 pixels that the half turn (element 2 of P4) does not change, while the quarter turn does: the half turn takes slice 0 of
    the output to slice 2 and slice 1 to slice 3, the quarter turn does not take slice 0 to slice 1. *)
Definition two_fold : tensor Z := mkTensor [1; 3; 3; 1]%nat [1; 2; 3; 4; 5; 4; 3; 2; 1]%Z.
Definition turned_slice (y : tensor Z) (h w : nat) : tensor Z :=
  match transforms_of_grid_signal P4 2 "" (slice 3 h y) with Ok gz => slice 0 w gz | Err _ => y end.

Example C110_case :
  match transforms_of_grid_signal P4 2 "" two_fold,
        test_layer 2 false (with_group "P4" "" (One 2) 1 None (Some (Some "valid")) None true) [None; Some 3; Some 3; Some 1] some_weights some_weights with
  | Ok gx, Ok L =>
    slice 0 2 gx = two_fold /\ same_tensor (slice 0 1 gx) two_fold = false /\
    match apply L two_fold with
    | Ok y => shape y = [1; 2; 2; 4; 1]%nat /\ slice 3 2 y = turned_slice y 0 2 /\ slice 3 3 y = turned_slice y 1 2 /\ slice 3 0 y = turned_slice y 2 2 /\
              same_tensor (slice 3 1 y) (turned_slice y 0 1) = false
    | Err _ => False
    end
  | _, _ => False
  end.
Proof. vm_compute. repeat split. Qed.
