(** C68: activations that act on all channels at once, such as softmax. *)
From Coq Require Import Permutation.
From Verif Require Import Activations TracedFacts TranslationFacts LayerBatch EquivSpec Properties_Conv.
Local Open Scope string_scope.
Local Open Scope list_scope.

(** What the layer returns with the activation [F]. *)
Definition vector_result {A} {RA : Arith A} (F : list A -> list A) (L : conv_layer A) (x : tensor A) : result (tensor A) :=
  snd (vector_apply F L x).

(** [F] treats its arguments alike: rearranging them rearranges the values. *)
Definition symmetric {A} {ZA : Zero A} (F : list A -> list A) : Prop :=
  forall l s, Permutation s (seq 0 (List.length l)) ->
    F (map (fun i => nth i l zero) s) = map (fun i => nth i (F l) zero) s.

(** All outputs at one position, for all elements and filters, the filters of the first element first. *)
Definition outputs_at {A} {ZA : Zero A} (y : tensor A) (n o bi : nat) (p : list nat) : list A :=
  map (fun q => at_ y (bi :: p ++ [q / o; q mod o])) (seq 0 (n * o)).

Section Activations.
Context {A : Type} {RA : Arith A}.

Lemma nth_map_seq {B} (f : nat -> B) n q z : q < n -> nth q (map f (seq 0 n)) z = f q.
Proof. intros Q. rewrite nth_indep with (d' := f 0) by (rewrite map_length, seq_length; exact Q). rewrite map_nth, seq_nth by exact Q. reflexivity. Qed.

Lemma tmap_id (f : A -> A) (y : tensor A) : (forall v, f v = v) -> tmap f y = tmap (fun v => v) y.
Proof. intros I. unfold tmap. f_equal. apply map_ext. exact I. Qed.

Lemma base_conv_call_id (f : A -> A) tr fmt s dl p n K b x : (forall v, f v = v) ->
  base_conv_call tr fmt s dl p n (fun v => v) K b x = base_conv_call tr fmt s dl p n f K b x.
Proof.
  intros I. unfold base_conv_call. destruct (in_format _ _ _); [|reflexivity]. cbn [bind].
  destruct (add_bias _ _ _ _); [|reflexivity]. cbn [bind]. rewrite (tmap_id f) by exact I. reflexivity.
Qed.

Lemma along_last_sig3 (F : list A -> list A) d b m C (y : tensor A) : wf y -> List.length m = d -> shape y = b :: m ++ [C] ->
  along_last F y = tab (b :: m ++ [C]) (sig3 d (fun bi p q => nth q (F (map (fun r => at_ y (bi :: p ++ [r])) (seq 0 C))) zero)).
Proof.
  intros W Lm SH. unfold along_last, rank. rewrite SH. cbv zeta.
  assert (R : List.length (b :: m ++ [C]) - 1 = d + 1) by (cbn [List.length]; rewrite app_length; cbn [List.length]; lia). rewrite R.
  rewrite (tab_sig3 d) by exact Lm. apply sig3_ext; [exact Lm|]. intros bi p q BI P Q. pose proof (inb_length _ _ P) as LP.
  rewrite (chan_ix d bi p q []) by lia. rewrite (chan_ix d b m C []) by lia.
  rewrite Nat.add_1_r. cbn [firstn]. rewrite firstn_app_exact by lia. reflexivity.
Qed.

Lemma vector_call_ok G d E eq tr valued act dom c C o k s dl eb ea same ub f kinit binit (L : conv_layer A) F x b m X :
  group_ok G d E eq -> conv_facts G d E eq tr valued act dom c C o k s dl eb ea same ub f kinit binit L ->
  List.length m = d -> merged d valued x b m C X -> 0 < o -> (forall v, f v = v) ->
  (exists y y' mo, snd (conv_call L x) = Ok y /\ snd (vector_call F L x) = Ok y' /\ wf y /\ wf y' /\ List.length mo = d /\
     shape y = b :: mo ++ [List.length act; o] /\ shape y' = shape y /\
     forall bi p h r, bi < b -> inb mo p -> h < List.length act -> r < o ->
       at_ y' (bi :: p ++ [h; r]) = nth (h * o + r) (F (outputs_at y (List.length act) o bi p)) zero) \/
  (exists e, snd (conv_call L x) = Err e /\ snd (vector_call F L x) = Err e).
Proof.
  intros OK CF Lm MG OP ID.
  destruct (sub_idx_facts _ _ _ _ OK _ _ (cf_act _ _ _ _ _ _ _ _ _ _ _ _ _ _ _ _ _ _ _ _ _ _ CF)) as [_ [_ [HA _]]].
  assert (NA : act <> []) by (intros ->; discriminate HA). clear HA.
  pose proof (conv_outputs G d E eq OK tr valued act dom c C o k s dl eb ea same ub f kinit binit L x b m X) as CO.
  unfold conv_call, vector_call. destruct (cl_kernel L) as [K|] eqn:CK; [|right; exists AttributeError; split; reflexivity].
  destruct (prepare_call (cl_gt L) K (cl_bias L) (cl_filters L) x) as [[[[kk bb] ff] xx]|e] eqn:PR; [|right; exists e; split; reflexivity].
  cbv zeta. cbn [cl_set_weights cl_filters cl_bias].
  rewrite (base_conv_call_id (cl_activation L)) by (rewrite (cf_activation _ _ _ _ _ _ _ _ _ _ _ _ _ _ _ _ _ _ _ _ _ _ CF); exact ID).
  destruct (base_conv_call (gt_transpose (cl_gt L)) (cl_format L) (cl_strides L) (cl_dilation L) (cl_padding L) ff (cl_activation L) kk bb xx)
    as [y0|e] eqn:BC; [|right; exists e; split; reflexivity].
  cbn [bind]. destruct (CO K kk bb ff xx y0 CF Lm MG eq_refl PR BC) as [W0 [mo [LO [S0 _]]]]. clear CO.
  left. rewrite (along_last_sig3 F d b mo _ y0 W0 LO S0).
  assert (R0 : restore_group_axis (cl_gt L) y0 = Ok (tab (b :: mo ++ [List.length act; o]) (sig4 d (fun bi p h oo => fun3 y0 bi p (h * o + oo))))).
  { rewrite (tensor_sig3 d b mo _ y0 W0 LO S0) at 1. destruct CF. apply (restore_eq G d _ valued act); try assumption. apply cf_dom. }
  rewrite R0. destruct CF. rewrite (restore_eq G d _ valued act); try assumption; [|apply cf_dom]. cbn [snd].
  eexists _, _, mo. split; [reflexivity|]. split; [reflexivity|]. split; [apply wf_tab|]. split; [apply wf_tab|]. split; [exact LO|].
  split; [apply shape_tab|]. split; [rewrite !shape_tab; reflexivity|].
  intros bi p h r BI P HH RR. rewrite (at_sig4 d) by assumption. f_equal. f_equal. unfold outputs_at. apply map_ext_in. intros q Q. apply in_seq in Q.
  rewrite (at_sig4 d); try assumption; [|apply Nat.div_lt_upper_bound; lia|apply Nat.mod_upper_bound; lia].
  unfold fun3. f_equal. f_equal. f_equal. f_equal. rewrite (Nat.div_mod q o) at 1 by lia. lia.
Qed.

Lemma vector_apply_call G d E eq tr valued act dom c C o k s dl eb ea same ub f kinit binit (L : conv_layer A) F x b m g :
  conv_facts G d E eq tr valued act dom c C o k s dl eb ea same ub f kinit binit L -> cl_channels L = Some c ->
  List.length m = d -> shape x = signal_shape valued b m g c -> vector_apply F L x = vector_call F L x.
Proof.
  intros CF CC Lm SH. unfold vector_apply, rank. rewrite CC, SH. destruct CF. rewrite cf_dims, cf_fmt'. cbn [String.eqb Ascii.eqb Bool.eqb].
  assert (LL : List.length (signal_shape valued b m g c) = d + 2 + (if valued then 1 else 0)).
  { unfold signal_shape. cbn [List.length]. rewrite app_length. destruct valued; cbn [List.length]; lia. }
  destruct (Nat.ltb_spec (List.length (signal_shape valued b m g c)) (d + 2)) as [Bad|_]; [lia|].
  replace (nth (List.length (signal_shape valued b m g c) - 1) (signal_shape valued b m g c) 0) with c; [rewrite Nat.eqb_refl; reflexivity|].
  rewrite LL. unfold signal_shape. destruct valued.
  - replace (d + 2 + 1 - 1) with (d + 2) by lia. symmetry. apply (chan_ix2 d b m g c []). exact Lm.
  - replace (d + 2 + 0 - 1) with (d + 1) by lia. symmetry. apply (chan_ix d b m c []). exact Lm.
Qed.

(** What the layer computes: [F] of the outputs for all elements and filters together,
    where the outputs are those of the layer without activation. *)
Theorem C68_activation_of_all_outputs name G (a : conv_args A) H opt (tr valued : bool) bs m g c kinit binit L k s dl act F :
  layer_for name G a -> ca_subgroup a = Some H -> option_of a opt -> (forall v, ca_activation a v = v) ->
  subgroup_indices G (if tr then "" else H) act ->
  let d := dimension_of name in
  let o := ca_filters a in
  built d tr a (static_signal_shape valued bs m g c) kinit binit L -> List.length m = d -> sizes d a k s dl ->
  forall x b m', wf x -> List.length m' = d -> shape x = signal_shape valued b m' g c ->
  (exists y y' mo, apply L x = Ok y /\ vector_result F L x = Ok y' /\ wf y /\ wf y' /\ List.length mo = d /\
     shape y = b :: mo ++ [List.length act; o] /\ shape y' = shape y /\
     forall bi p h r, bi < b -> inb mo p -> h < List.length act -> r < o ->
       at_ y' (bi :: p ++ [h; r]) = nth (h * o + r) (F (outputs_at y (List.length act) o bi p)) zero) \/
  (exists e, apply L x = Err e /\ vector_result F L x = Err e).
Proof.
  intros LF HS OP ID SI d o BU Lm SZ x b m' W Lm' SH. pose proof LF as [DG _]. apply lib_ok in DG as [_ OK]. fold d in OK.
  destruct (built_facts_at name G d _ _ a H opt tr valued bs m g c kinit binit L k s dl OK LF HS OP BU Lm SZ)
    as [eb [ea [act' [dom [_ [SA [_ [CF [CC _]]]]]]]]].
  assert (act' = act) as -> by (unfold sub_idx in SA; unfold subgroup_indices in SI; destruct tr; congruence).
  assert (FP : 0 < o).
  { destruct BU as [L0 [I _]]. destruct LF as [DG [AG AF]]. destruct (conv_init_inv G d name tr a L0 DG AG AF I) as [? [? [? [? [? [_ [_ [_ [_ [_ [_ [_ [FP _]]]]]]]]]]]]]. exact FP. }
  unfold apply, vector_result.
  rewrite (conv_apply_call G d _ _ tr valued act dom c _ _ k s dl eb ea _ _ _ kinit binit L x b m' g CF CC Lm' SH).
  rewrite (vector_apply_call G d _ _ tr valued act dom c _ _ k s dl eb ea _ _ _ kinit binit L F x b m' g CF CC Lm' SH).
  exact (vector_call_ok G d _ _ tr valued act dom c _ _ k s dl eb ea _ _ _ kinit binit L F x b m' _ OK CF Lm' (merged_input d valued x b m' g c W Lm' SH) FP ID).
Qed.

(** An activation that acts on every number by itself is the special case [map f]. *)
Theorem C68_entrywise_activation name G (a : conv_args A) H opt (tr valued : bool) bs m g c kinit binit L k s dl f :
  layer_for name G a -> ca_subgroup a = Some H -> option_of a opt -> (forall v, ca_activation a v = v) ->
  let d := dimension_of name in
  built d tr a (static_signal_shape valued bs m g c) kinit binit L -> List.length m = d -> sizes d a k s dl ->
  forall x b m', wf x -> List.length m' = d -> shape x = signal_shape valued b m' g c ->
  vector_result (map f) L x = (y <- apply L x ;; Ok (tmap f y)).
Proof.
  intros LF HS OP ID d BU Lm SZ x b m' W Lm' SH.
  assert (SU : exists act, subgroup_indices G (if tr then "" else H) act).
  { pose proof LF as [DG _]. apply lib_ok in DG as [_ OK]. fold d in OK.
    destruct (built_facts_at name G d _ _ a H opt tr valued bs m g c kinit binit L k s dl OK LF HS OP BU Lm SZ)
      as [eb [ea [act' [dom [_ [SA _]]]]]]. exists act'. destruct tr; exact SA. }
  destruct SU as [act SI].
  destruct (C68_activation_of_all_outputs name G a H opt tr valued bs m g c kinit binit L k s dl act (map f) LF HS OP ID SI BU Lm SZ x b m' W Lm' SH)
    as [[y [y' [mo [RA1 [RV [Wy [Wy' [LMO [SY [SY' EN]]]]]]]]]]|[e [-> ->]]]; [|reflexivity].
  rewrite RA1, RV. cbn [bind]. f_equal. apply tensor_ext; [exact Wy'|unfold wf, tmap in *; cbn [data shape]; rewrite map_length; exact Wy|exact SY'|].
  intros i I. rewrite SY', SY in I. assert (I' := I). apply inb4_inv in I' as [bi [p [h [r [-> [BI [P [HH RR]]]]]]]].
  rewrite EN by assumption. set (o := ca_filters a) in *.
  assert (Q : h * o + r < List.length act * o) by nia.
  unfold outputs_at. rewrite map_map, nth_map_seq by exact Q. destruct (split_ok o h r RR) as [-> ->].
  rewrite <- (tab_at y Wy) at 2. rewrite tmap_tab, at_tab by (rewrite SY; exact I). reflexivity.
Qed.

(** Rearranged outputs. *)
Lemma chan_permutes G d E eq (OK : group_ok G d E eq) u act o : u < List.length E -> NoDup act -> (forall x, In x act -> x < List.length E) ->
  stable G u act -> Permutation (map (chan G u act o) (seq 0 (List.length act * o))) (seq 0 (List.length act * o)).
Proof.
  intros U ND BD ST. set (n := List.length act * o).
  apply NoDup_Permutation_bis; [|rewrite map_length; lia|].
  - apply NoDup_map_in; [|apply seq_NoDup]. intros q q' I I' Q. apply in_seq in I, I'.
    apply (chan_inj G d E eq OK u act o q q'); try assumption; unfold n in *; lia.
  - intros q I. apply in_map_iff in I as [q' [<- I]]. apply in_seq in I. apply in_seq. split; [lia|]. cbn [Nat.add].
    apply chan_lt; [exact ST|unfold n in *; lia].
Qed.

Lemma symmetric_moved (F : list A -> list A) G d E eq (OK : group_ok G d E eq) u act o (Y : nat -> nat -> A) h r :
  symmetric F -> u < List.length E -> NoDup act -> (forall x, In x act -> x < List.length E) -> stable G u act ->
  h < List.length act -> r < o ->
  nth (h * o + r) (F (map (fun q => Y (turned G u act (q / o)) (q mod o)) (seq 0 (List.length act * o)))) zero
  = nth (turned G u act h * o + r) (F (map (fun q => Y (q / o) (q mod o)) (seq 0 (List.length act * o)))) zero.
Proof.
  intros SF U ND BD ST HH RR. set (n := List.length act * o). set (l := map (fun q => Y (q / o) (q mod o)) (seq 0 n)).
  assert (LL : List.length l = n) by (unfold l; rewrite map_length, seq_length; reflexivity).
  pose proof (chan_permutes G d E eq OK u act o U ND BD ST) as PM. fold n in PM.
  pose proof (SF l (map (chan G u act o) (seq 0 n)) ltac:(rewrite LL; exact PM)) as Q. rewrite !map_map in Q.
  assert (Q1 : map (fun q => Y (turned G u act (q / o)) (q mod o)) (seq 0 n) = map (fun q => nth (chan G u act o q) l zero) (seq 0 n)).
  { apply map_ext_in. intros q I. apply in_seq in I. unfold l.
    rewrite nth_map_seq by (apply chan_lt; [exact ST|unfold n in I; lia]).
    destruct (chan_parts G u act o q) as [-> ->]; [unfold n in I; lia|reflexivity]. }
  rewrite Q1, Q, nth_map_seq by (unfold n; nia). f_equal. apply chan_pair. exact RR.
Qed.

(** Equivariance: an activation that treats its arguments alike keeps it. *)
Theorem C68_symmetric_activations_keep_equivariance name G (a : conv_args A) H V opt (tr valued : bool) bs m g c kinit binit L k s dl sub idx F x b m' :
  symmetric F ->
  layer_for name G a -> ca_subgroup a = Some H -> option_of a opt -> (forall v, ca_activation a v = v) ->
  subgroup_indices G H sub -> subgroup_indices G V idx -> incl idx sub ->
  let d := dimension_of name in
  let tin := if valued then transforms_of_group_signal G d V (if tr then H else "") else transforms_of_grid_signal G d V in
  let tout := transforms_of_group_signal G d V (if tr then "" else H) in
  built d tr a (static_signal_shape valued bs m g c) kinit binit L -> List.length m = d -> sizes d a k s dl ->
  wf x -> List.length m' = d -> shape x = signal_shape valued b m' g c ->
  commutes_at tin tout (apply L) x -> commutes_at tin tout (vector_result F L) x.
Proof.
  intros SF LF HS OP ID SH SV IN d tin tout BU Lm SZ W Lm' SX CM.
  pose proof LF as [DG _]. apply lib_ok in DG as [_ OK]. fold d in OK.
  set (U := if tr then "" else H). set (K := if tr then H else "").
  assert (WH : sub_idx G (Some "") (seq 0 (List.length (symmetries_of name)))) by apply (sub_idx_whole _ _ _ _ OK).
  set (act := if tr then seq 0 (List.length (symmetries_of name)) else sub).
  set (dom := if tr then sub else seq 0 (List.length (symmetries_of name))).
  assert (SU : sub_idx G (Some U) act) by (unfold U, act; destruct tr; assumption).
  assert (SK : sub_idx G (Some K) dom) by (unfold K, dom; destruct tr; assumption).
  destruct (sub_idx_facts _ _ _ _ OK _ _ SV) as [_ [BV _]].
  assert (STs : forall u, In u idx -> stable G u sub) by (intros u I; apply (stable_of G d _ _ OK (Some H)); [exact SH|apply IN; exact I]).
  assert (STw : forall u, In u idx -> stable G u (seq 0 (List.length (symmetries_of name)))) by (intros u I; apply (stable_whole G d _ _ OK); apply BV; exact I).
  assert (STa : forall u, In u idx -> stable G u act) by (unfold act; destruct tr; assumption).
  assert (STd : forall u, In u idx -> stable G u dom) by (unfold dom; destruct tr; assumption).
  destruct (sub_idx_facts _ _ _ _ OK _ _ SU) as [NDa [BDa _]].
  destruct (built_facts_at name G d _ _ a H opt tr valued bs m g c kinit binit L k s dl OK LF HS OP BU Lm SZ)
    as [_ [_ [_ [dom' [_ [_ [SD _]]]]]]].
  assert (GD : valued = true -> g = List.length dom).
  { intros V1. destruct (SD V1) as [SD1 ->]. f_equal. unfold sub_idx in *. unfold K in SK. destruct tr; congruence. }
  pose proof (fun z => C68_activation_of_all_outputs name G a H opt tr valued bs m g c kinit binit L k s dl act F LF HS OP ID SU BU Lm SZ z b m') as AO.
  cbv zeta in AO. fold d in AO. set (o := ca_filters a) in *.
  intros gx y' TI RV.
  destruct (AO x W Lm' SX) as [[y [y2 [mo [R1 [R2 [Wy [Wy' [LMO [SY [SY' EN]]]]]]]]]]|[e [_ R2]]]; [|congruence].
  assert (y2 = y') as -> by congruence. clear R2.
  destruct (CM gx y TI R1) as [gy [TO [NS CU]]].
  (* the transformed inputs *)
  assert (SL : nth 0 (shape gx) 0 = List.length idx /\ forall u, u < List.length idx -> wf (slice 0 u gx) /\ shape (slice 0 u gx) = signal_shape valued b m' g c).
  { unfold tin in TI. destruct valued.
    - unfold transforms_of_group_signal, spatial_axes, group_axis in TI. unfold signal_shape in SX.
      rewrite (tensor_sig4 d b m' g c x W Lm' SX) in TI.
      destruct (group_slices G d _ _ OK b m' g c (fun4 x) (Some V) (Some K) idx dom gx SV SK (GD eq_refl) Lm' STd TI) as [_ [SG SLI]].
      rewrite SG. split; [reflexivity|]. intros u U1. rewrite (SLI u U1). split; [apply wf_tab|apply shape_tab].
    - unfold transforms_of_grid_signal, spatial_axes in TI. unfold signal_shape in SX.
      rewrite (tensor_sig3 d b m' c x W Lm' SX) in TI.
      destruct (grid_slices G d _ _ OK b m' c (fun3 x) None (Some V) idx gx SV Lm' TI) as [_ [SG SLI]].
      rewrite SG. split; [reflexivity|]. intros u U1. rewrite (SLI u U1). split; [apply wf_tab|apply shape_tab]. }
  destruct SL as [NX SL]. rewrite NX in *.
  (* the transformed outputs *)
  unfold tout, transforms_of_group_signal, spatial_axes, group_axis in TO. fold U in TO.
  rewrite (tensor_sig4 d b mo (List.length act) o y Wy LMO SY) in TO.
  destruct (group_slices G d _ _ OK b mo (List.length act) o (fun4 y) (Some V) (Some U) idx act gy SV SU eq_refl LMO STa TO) as [FO [_ SLY]].
  destruct (group_slices_ok G d _ _ OK b mo (List.length act) o (fun4 y') (Some V) (Some U) idx act SV SU eq_refl FO STa) as [gy' [TO' [SG' SLY']]].
  exists gy'. split.
  { unfold tout, transforms_of_group_signal, spatial_axes, group_axis. fold U.
    rewrite (tensor_sig4 d b mo (List.length act) o y' Wy' LMO) by congruence. exact TO'. }
  split; [rewrite SG'; reflexivity|]. intros u UI.
  destruct (SL u UI) as [Wu Su]. specialize (CU u UI).
  destruct (AO (slice 0 u gx) Wu Lm' Su) as [[z [z' [mz [Q1 [Q2 [Wz [Wz' [LMZ [SZ1 [SZ' EZ]]]]]]]]]]|[e [Q1 _]]]; [|congruence].
  rewrite Q2. f_equal.
  assert (z = slice 0 u gy) as EZ0 by congruence. rewrite (SLY u UI) in EZ0.
  assert (MZ : mz = mo).
  { assert (SS : shape z = b :: mo ++ [List.length act; o]) by (rewrite EZ0; apply shape_tab). rewrite SZ1 in SS.
    injection SS as SS. apply app_inv_tail in SS. exact SS. }
  subst mz. rewrite (SLY' u UI).
  set (v := nth u idx 0) in *. assert (VI : In v idx) by (apply nth_In; exact UI).
  apply tensor_ext; [exact Wz'|apply wf_tab|rewrite shape_tab; congruence|].
  rewrite SZ', SZ1. intros i I. apply inb4_inv in I as [bi [p [h [r [-> [BI [P [HH RR]]]]]]]].
  rewrite EZ by assumption. rewrite (at_sig4 d) by assumption.
  unfold moved4, fun4 at 1.
  assert (PI : inb mo (pixel (nth v (symmetries_of name) []) mo p)) by (apply (pixel_in G d _ _ OK); [apply BV; exact VI|exact FO|exact P]).
  pose proof (turned_lt G v act h (STa v VI) HH) as TL. rewrite EN by assumption.
  unfold outputs_at. rewrite <- (symmetric_moved F G d _ _ OK v act o (fun h r => at_ y (bi :: pixel (nth v (symmetries_of name) []) mo p ++ [h; r])) h r SF (BV v VI) NDa BDa (STa v VI) HH RR).
  f_equal. f_equal. apply map_ext_in. intros q Q. apply in_seq in Q. rewrite EZ0.
  rewrite (at_sig4 d); try assumption; [reflexivity|apply Nat.div_lt_upper_bound; lia|apply Nat.mod_upper_bound; lia].
Qed.
(** A call that returns leaves the layer as it was, so that a second call on the same tensor
    returns the same. *)
Theorem C68_calls_leave_the_layer (F : list A -> list A) (L : conv_layer A) x y :
  snd (vector_apply F L x) = Ok y -> vector_apply F L x = (L, Ok y).
Proof.
  unfold vector_apply. destruct (_ <? _)%nat; [discriminate|].
  assert (K : snd (vector_call F L x) = Ok y -> vector_call F L x = (L, Ok y)).
  { unfold vector_call. destruct (cl_kernel L) as [kernel|] eqn:EK; [|discriminate].
    destruct (prepare_call _ _ _ _ _) as [[[[k b] f] x']|e]; [|discriminate].
    destruct (bind _ _) as [y'|e]; cbn [snd]; [|discriminate]. intros E. assert (y' = y) as -> by congruence. f_equal.
    rewrite <- EK, set_weights_set. apply set_weights_id. }
  destruct (cl_channels L); [|exact K]. destruct (_ =? _)%nat; [exact K|discriminate].
Qed.

End Activations.

Print Assumptions C68_activation_of_all_outputs.
Print Assumptions C68_entrywise_activation.
Print Assumptions C68_calls_leave_the_layer.
Print Assumptions C68_symmetric_activations_keep_equivariance.

(** ** Examples over the integers *)

(** An activation like softmax, which divides by a sum: subtract the sum of all entries. *)
Definition minus_sum (l : list Z) : list Z := map (fun v => (v - fold_right Z.add 0 l)%Z) l.
(** The cumulative sum is not symmetric. *)
Fixpoint cumulative (acc : Z) (l : list Z) : list Z :=
  match l with [] => [] | v :: l => (acc + v)%Z :: cumulative (acc + v) l end.

Example minus_sum_symmetric : symmetric minus_sum.
Proof.
  intros l s P. unfold minus_sum. rewrite map_map.
  assert (E : Permutation (map (fun i => nth i l zero) s) l).
  { assert (Q : map (fun i => nth i l zero) (seq 0 (List.length l)) = l).
    { apply (nth_ext _ _ zero zero); rewrite map_length, seq_length; [reflexivity|]. intros i I. rewrite nth_map_seq by exact I. reflexivity. }
    pose proof (Permutation_map (fun i => nth i l zero) P) as R. rewrite Q in R. exact R. }
  assert (S : fold_right Z.add 0%Z (map (fun i => nth i l zero) s) = fold_right Z.add 0%Z l).
  { clear P. induction E; cbn [fold_right]; lia. }
  rewrite S. apply map_ext_in. intros i I. apply (Permutation_in _ P) in I. apply in_seq in I.
  symmetry. rewrite (nth_indep _ _ ((fun v => (v - fold_right Z.add 0 l)%Z) zero)).
  - apply (map_nth (fun v => (v - fold_right Z.add 0 l)%Z)).
  - match goal with |- i < List.length ?x => change (i < List.length (map (fun v => (v - fold_right Z.add 0 l)%Z) l)) end. rewrite map_length. lia.
Qed.

Definition linear_args (name H : string) (k : nat) (filters : nat) : conv_args Z :=
  mkConvArgs (ByName name) (Some H) (One (Z.of_nat k)) filters None (Some (Some "same_equiv")) None "channels_last" false true (fun v => v).

Definition vector_commutes (F : list Z -> list Z) (tin tout : tensor Z -> result (tensor Z)) (R : result (conv_layer Z)) (x : tensor Z) : bool :=
  match R with
  | Ok L => match tin x, vector_result F L x with Ok _, Ok _ => commutes_b tin tout (vector_result F L) x | _, _ => false end
  | Err _ => false
  end.

Example C68_case_lifting :
  vector_commutes minus_sum (transforms_of_grid_signal P4 2 "") (transforms_of_group_signal P4 2 "" "")
    (test_layer 2 false (linear_args "P4" "" 3 2) [None; Some 3; Some 3; Some 2] some_weights some_weights) (some_signal [1; 3; 3; 2]) = true.
Proof. vm_compute. reflexivity. Qed.

Example C68_case_transposed :
  vector_commutes minus_sum (transforms_of_group_signal P4 2 "P2" "P2") (transforms_of_group_signal P4 2 "P2" "")
    (test_layer 2 true (linear_args "P4" "P2" 1 2) [None; Some 2; Some 2; Some 2; Some 1] some_weights some_weights) (some_signal [1; 2; 2; 2; 1]) = true.
Proof. vm_compute. reflexivity. Qed.

(** An activation that is not symmetric: the layer returns something and is not equivariant. *)
Theorem C68_any_activation_keeps_equivariance_refuted :
  exists L, built 2 false (linear_args "P4" "" 3 2) [None; Some 3; Some 3; Some 2] some_weights some_weights L /\
    ~ commutes_at (transforms_of_grid_signal P4 2 "") (transforms_of_group_signal P4 2 "" "") (vector_result (cumulative 0) L) (some_signal [1; 3; 3; 2]).
Proof.
  assert (Q : match test_layer 2 false (linear_args "P4" "" 3 2) [None; Some 3; Some 3; Some 2] some_weights some_weights with
     | Ok L => negb (commutes_b (transforms_of_grid_signal P4 2 "") (transforms_of_group_signal P4 2 "" "") (vector_result (cumulative 0) L) (some_signal [1; 3; 3; 2]))
     | Err _ => false end = true) by (vm_compute; reflexivity).
  revert Q. generalize (test_layer_built 2 false (linear_args "P4" "" 3 2) [None; Some 3; Some 3; Some 2] some_weights some_weights).
  destruct (test_layer 2 false (linear_args "P4" "" 3 2) [None; Some 3; Some 3; Some 2] some_weights some_weights) as [L|]; [|discriminate].
  intros B Q. exists L. split; [apply B; reflexivity|]. intros C. apply commutes_b_ok in C. rewrite C in Q. discriminate Q.
Qed.
Print Assumptions C68_any_activation_keeps_equivariance_refuted.

(** The sum runs over all elements and filters, not over the filters of each element: PMw with one filter and the kernel 1. *)
Definition pmw_args : conv_args Z :=
  mkConvArgs (ByName "PMw") (Some "") (One 1) 1 None (Some (Some "valid_equiv")) None "channels_last" false false (fun v => v).
Example C68_case_values :
  match test_layer 2 false pmw_args [None; Some 1; Some 2; Some 1] (fun _ => 1%Z) (fun _ => 0%Z) with
  | Ok L => match vector_result minus_sum L (mkTensor [1; 1; 2; 1] [10; 20]%Z) with
            | Ok y => Some (shape y, data y) | Err _ => None end
  | Err _ => None end = Some ([1; 1; 2; 2; 1], [-10; -10; -20; -20]%Z).
Proof. vm_compute. reflexivity. Qed.
