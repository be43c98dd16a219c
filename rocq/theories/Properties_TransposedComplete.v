(** C84: every equivariant transposed convolution is computed by a layer for the whole
    group, for exactly one kernel. *)
From Verif Require Import CompleteFacts TranslationFacts Properties_Layers Properties_Complete.
Local Open Scope string_scope.
Local Open Scope list_scope.

(** The ordinary transposed convolution (Keras, channels_last, stride 1, 'valid', no bias, no
    activation) with the kernel [W], which has [n * o] filters; its input is a signal with the
    group axis merged into the channels, and its output is read as a signal with a group axis of
    size [n] and [o] channels. *)
Definition convolve_transposed {A} {RA : Arith A} (valued : bool) (d g c n o : nat) (W x : tensor A) : result (tensor A) :=
  y <- base_conv_call true "channels_last" (repeat 1 d) (repeat 1 d) "valid" (n * o) (fun v => v) W None
         (merged_signal valued c g x (nth 0 (shape x) 0) (firstn d (tl (shape x)))) ;;
  Ok (last_axis_split n o y).

Section Complete.
Context {A : Type} {RA : Arith A}.

(** ** A layer is one ordinary transposed convolution *)

Lemma as_one_transposed G d E eq (OK : group_ok G d E eq) valued act dom c C o k s dl eb ea same ub f kinit binit
  (L : conv_layer A) (W : tensor A) (x : tensor A) b m g :
  conv_facts G d E eq true valued act dom c C o k s dl eb ea same ub f kinit binit L -> cl_channels L = Some c ->
  C = (if valued then g * c else c) -> shape W = k ++ [List.length act * o; C] ->
  (forall j q h r, inb k j -> q < C -> h < List.length act -> r < o ->
     at_ W (j ++ [h * o + r; q]) = kval G E valued dom act c o k C (tab (k ++ [o; C]) kinit) j q (h * o + r)) ->
  List.length m = d -> wf x -> shape x = signal_shape valued b m g c ->
  exists xp, padding_call (gt_padding (cl_gt L)) (merged_signal valued c g x b m) = Ok xp /\
  apply L x = (y <- base_conv_call true "channels_last" s dl (padding_string same) (List.length act * o) f W
                      (if ub then Some (tab [List.length act * o] (fun i => binit [nth 0 i 0 mod o])) else None) xp ;;
               Ok (last_axis_split (List.length act) o y)).
Proof.
  intros CF CH CC SW HW LM WX SX.
  pose proof (merged_input d valued x b m g c WX LM SX) as MG. rewrite <- CC in MG.
  unfold apply. rewrite (conv_apply_call G d E eq true valued act dom c C o k s dl eb ea same ub f kinit binit L x b m g CF CH LM SX).
  pose proof (conv_transpose_call_eq G d E eq OK valued act dom c C o k s dl eb ea same ub f kinit binit L x b m _ CF LM MG) as CE.
  cbv zeta in CE. rewrite CE. clear CE.
  rewrite (merged_signal_eq d valued c g x b m WX LM SX), <- CC. set (X := merged_fun valued x c) in *.
  destruct CF. rewrite (cf_pads b m C X LM). eexists. split; [reflexivity|].
  set (ke := vzip dilated k dl). set (m1 := padded eb m ea).
  assert (Lm1 : List.length m1 = d) by (apply length_padded; assumption).
  assert (LKE : List.length ke = d) by (unfold ke; rewrite length_vzip; lia).
  unfold base_conv_call, in_format. cbn [String.eqb Ascii.eqb Bool.eqb].
  rewrite (conv_transpose_last_eq d b m1 C (List.length act * o) k (bordered eb m X)); try assumption.
  fold ke. cbn [bind snd].
  pose proof (length_touts (padding_string same) m1 ke s d Lm1 LKE cf_s) as LO.
  rewrite (bias_activation d b (touts (padding_string same) m1 ke s) (List.length act) (List.length act * o) ub binit o) by (assumption || reflexivity).
  cbn [bind]. rewrite split_last by exact LO. f_equal. apply sig4_ext; [exact LO|]. intros bi p h r B P Hh R.
  destruct (split_ok o h r R) as [_ ->]. f_equal. f_equal.
  apply window_ext; [exact cf_k|reflexivity|]. intros j q J Q. symmetry. apply HW; assumption.
Qed.

(** ** Signals with a single nonzero entry *)

Context (one : A) (NE : neutral one).

(** A window in which a single entry is read. *)
Lemma window_single d (src : list nat -> list nat -> option (list nat)) k C (X : list nat -> nat -> A) W p r j0 q0 i0 :
  List.length k = d -> inb k j0 -> q0 < C -> src p j0 = Some i0 -> X i0 q0 = one ->
  (forall j q i, inb k j -> q < C -> src p j = Some i -> j <> j0 \/ q <> q0 -> X i q = zero) ->
  window d src tterm k C X W p r = W j0 q0 r.
Proof.
  intros L J0 Q0 S0 X0 H. unfold window. rewrite (sum_single one NE _ _ (j0 ++ [q0])).
  - pose proof (inb_length _ _ J0) as LJ. rewrite firstn_app_exact by lia. rewrite app_nth2 by lia.
    replace (d - List.length j0) with 0 by lia. change (nth 0 [q0] 0) with q0. rewrite S0. cbn [option_map tterm]. rewrite X0. apply (one_mul _ NE).
  - apply NoDup_indices.
  - apply In_indices. apply inb_app; [exact J0|]. constructor; [exact Q0|constructor].
  - intros jc I N. apply In_indices in I. apply inb_app_split in I as [j [qq [-> [J I]]]]. apply inb1 in I as [q [-> Q]].
    pose proof (inb_length _ _ J) as LJ. rewrite firstn_app_exact by lia. rewrite app_nth2 by lia.
    replace (d - List.length j) with 0 by lia. change (nth 0 [q] 0) with q.
    destruct (src p j) as [i|] eqn:S; [|reflexivity]. cbn [option_map tterm]. rewrite (H j q i J Q S); [apply (zero_mul _ NE)|].
    destruct (list_eq_dec Nat.eq_dec j j0) as [->|D]; [|left; exact D]. right. intros ->. apply N. reflexivity.
Qed.

(** ** Signals of a single pixel *)

Lemma tsrc_pixel d p j i : List.length p = d -> List.length j = d ->
  (tsrc (repeat 1 d) (repeat 1 d) (repeat 1 d) (repeat 0 d) p j = Some i <-> j = p /\ i = repeat 0 d).
Proof.
  intros LP LJ. assert (LR : List.length (repeat 1 d) = d) by apply repeat_length. unfold tsrc. rewrite LR. split.
  - intros Q. apply wsrc_some in Q as [LI HI].
    assert (V : forall a, a < d -> nth a j 0 = nth a p 0 /\ nth a i 0 = 0).
    { intros a Ha. specialize (HI a Ha). rewrite !nth_repeat1, nth_repeat in HI by exact Ha.
      apply transpose_src_spec in HI as [H1 H2]; [|lia]. split; lia. }
    split; apply (nth_ext _ _ 0 0); rewrite ?repeat_length; try lia; intros a Ha.
    + apply V. lia.
    + rewrite nth_repeat. apply V. lia.
  - intros [-> ->]. apply wsrc_all; [rewrite repeat_length; lia|]. intros a Ha. rewrite !nth_repeat1, !nth_repeat by exact Ha.
    apply transpose_src_spec; lia.
Qed.

Lemma convolve_transposed_pixel (valued : bool) d k g c n o (W x : tensor A) :
  let C := if valued then g * c else c in
  List.length k = d -> (forall a, a < d -> 0 < nth a k 0) -> shape W = k ++ [n * o; C] ->
  wf x -> shape x = signal_shape valued 1 (repeat 1 d) g c ->
  convolve_transposed valued d g c n o W x =
  Ok (tab (1 :: k ++ [n; o])
          (sig4 d (fun bi p h r => window d (tsrc (repeat 1 d) (repeat 1 d) (repeat 1 d) (repeat 0 d)) tterm k C (merged_fun valued x c bi)
                                          (fun j q r => at_ W (j ++ [r; q])) p (h * o + r)))).
Proof.
  intros C L PK SW WX SX. assert (L1 : List.length (repeat 1 d) = d) by apply repeat_length.
  unfold convolve_transposed. rewrite SX. unfold signal_shape. cbn [nth tl].
  rewrite firstn_app_exact by (symmetry; exact L1).
  rewrite (merged_signal_eq d valued c g x 1 (repeat 1 d) WX L1 SX). fold C.
  unfold base_conv_call, in_format. cbn [String.eqb Ascii.eqb Bool.eqb].
  rewrite (conv_transpose_last_eq d 1 (repeat 1 d) C (n * o) k); try assumption;
    [|intros a Ha; rewrite nth_repeat1 by exact Ha; lia].
  set (ke := vzip dilated k (repeat 1 d)).
  assert (KE : ke = k).
  { apply (nth_ext _ _ 0 0); unfold ke; rewrite length_vzip by lia; [reflexivity|]. intros a Ha.
    rewrite nth_vzip by lia. rewrite nth_repeat1 by lia. unfold dilated. specialize (PK a ltac:(lia)). lia. }
  rewrite KE.
  assert (TB : vzip (transpose_before "valid") k (repeat 1 d) = repeat 0 d).
  { apply (nth_ext _ _ 0 0); rewrite length_vzip by lia; [rewrite repeat_length; exact L|]. intros a Ha. rewrite nth_vzip by lia. rewrite nth_repeat. reflexivity. }
  assert (TO : touts "valid" (repeat 1 d) k (repeat 1 d) = k).
  { apply (nth_ext _ _ 0 0); rewrite (length_touts _ _ _ _ d) by assumption; [lia|]. intros a Ha.
    rewrite (nth_touts _ _ _ _ d) by assumption. rewrite nth_repeat1 by exact Ha. unfold transpose_size. cbn [String.eqb Ascii.eqb Bool.eqb].
    specialize (PK a Ha). lia. }
  rewrite TB, TO. cbn [bind].
  match goal with |- context[sig3 d ?F] => set (Y := F) end.
  pose proof (bias_activation d 1 k n (n * o) false (fun _ => zero) o Y (fun v => v) L eq_refl) as BA.
  cbn [bind]. rewrite BA. cbn [bind]. rewrite split_last by exact L. f_equal.
Qed.

Lemma zero_pixel d : inb (repeat 1 d) (repeat 0 d).
Proof. induction d as [|d' IH]; [apply inb_nil|cbn [repeat]; apply inb_cons; split; [lia|exact IH]]. Qed.

(** An equivariant kernel is determined by its filters for the identity. *)
Lemma equivariant_transposed_kernel G d E eq (OK : group_ok G d E eq)
  (valued : bool) act dom g c C o k (W : tensor A) :
  sub_idx G (Some "") act -> (valued = true -> sub_idx G (Some "") dom /\ g = List.length dom) ->
  C = (if valued then g * c else c) -> List.length k = d -> kernel_fits eq k -> (forall a, a < d -> 0 < nth a k 0) ->
  shape W = k ++ [List.length act * o; C] ->
  (forall x, wf x -> shape x = signal_shape valued 1 (repeat 1 d) g c ->
     commutes_at (if valued then transforms_of_group_signal G d "" "" else transforms_of_grid_signal G d "")
                 (transforms_of_group_signal G d "" "") (convolve_transposed valued d g c (List.length act) o W) x) ->
  forall j q h r, inb k j -> q < C -> h < List.length act -> r < o ->
    at_ W (j ++ [h * o + r; q])
    = at_ W (pixel (nth (nth h act 0) E []) k j ++ [r; moved_chan G valued (nth h act 0) dom c q]).
Proof.
  intros SA SD CC L KF PK SW CM j q h r J Q Hh R.
  destruct (sub_idx_facts _ _ _ _ OK _ _ SA) as [ND [BD [HD _]]].
  assert (ST : forall u, In u act -> stable G u act) by (intros u U; apply (stable_of G d _ _ OK (Some "")); assumption).
  set (u := nth h act 0). assert (IU : In u act) by (apply nth_In; exact Hh). pose proof (BD u IU) as BU.
  assert (SW' : valued = true -> sub_idx G (Some "") dom /\ g = List.length dom /\ forall v, In v act -> stable G v dom).
  { intros V. destruct (SD V) as [D1 D2]. split; [exact D1|]. split; [exact D2|]. intros v IV.
    rewrite (whole_dom _ _ _ _ _ OK D1). apply (stable_whole _ _ _ _ OK), BD. exact IV. }
  assert (FK : fit d eq k) by (split; [exact KF|exact L]).
  assert (L1 : List.length (repeat 1 d) = d) by apply repeat_length.
  set (j0 := pixel (nth u E []) k j). set (q0 := moved_chan G valued u dom c q). set (z := repeat 0 d).
  assert (IZ : inb (repeat 1 d) z) by apply zero_pixel.
  assert (J0 : inb k j0) by (apply (pixel_in G d E eq OK); assumption).
  assert (MC : forall q', q' < C -> moved_chan G valued u dom c q' < C).
  { intros q' Q'. unfold moved_chan. rewrite CC in *. destruct valued; [|exact Q']. destruct (SW' eq_refl) as [_ [-> S]].
    apply chan_lt; [apply S; exact IU|exact Q']. }
  assert (MI : forall q', q' < C -> moved_chan G valued u dom c q' = q0 -> q' = q).
  { intros q' Q' M. unfold q0, moved_chan in M. rewrite CC in Q, Q'. destruct valued; [|exact M].
    destruct (SW' eq_refl) as [D1 [GD S]]. rewrite GD in Q, Q'. destruct (sub_idx_facts _ _ _ _ OK _ _ D1) as [NDd [Bd _]].
    apply (chan_inj G d E eq OK u dom c); try assumption. apply S. exact IU. }
  assert (Q0 : q0 < C) by (apply MC; exact Q).
  set (x := signal_from valued d 1 (repeat 1 d) g c (fun _ => spot one z q0)).
  assert (WX : wf x) by apply wf_signal_from. assert (SX : shape x = signal_shape valued 1 (repeat 1 d) g c) by apply shape_signal_from.
  pose proof (convolve_transposed_pixel valued d k g c (List.length act) o W x L PK ltac:(rewrite SW, CC; reflexivity) WX SX) as CX.
  assert (TX : exists gx, (if valued then transforms_of_group_signal G d "" "" else transforms_of_grid_signal G d "") x = Ok gx).
  { unfold transforms_of_group_signal, transforms_of_grid_signal, spatial_axes, group_axis, x, signal_from. destruct valued.
    - destruct (SW' eq_refl) as [D1 [GD S]].
      destruct (group_slices_ok G d E eq OK 1 (repeat 1 d) g c (fun _ p h r => spot one z q0 p (h * c + r)) (Some "") (Some "") act dom SA D1 GD (repeat_fits d eq 1) S) as [gx [T _]].
      exists gx. exact T.
    - destruct (grid_slices_ok G d E eq OK 1 (repeat 1 d) c (fun _ => spot one z q0) None (Some "") act SA (repeat_fits d eq 1)) as [gx [T _]]. exists gx. exact T. }
  destruct TX as [gx TX].
  assert (AX : action G x (map Z.of_nat (seq 1 d)) 0 (if valued then Some (Z.of_nat (d + 1)) else None) (Some "") (if valued then Some "" else None) = Ok gx)
    by (destruct valued; exact TX).
  destruct (moved_input G d E eq OK valued x gx 1 (repeat 1 d) g c act dom (Some "") (Some "") SA SW' WX L1 SX AX) as [_ [SG MV]].
  destruct (CM x WX SX gx _ TX CX) as [gy [TY [SY CU]]].
  rewrite SG in CU. cbn [nth] in CU. specialize (CU h Hh).
  destruct (MV h Hh) as [X' [MG [WU [SU XX]]]].
  rewrite SX in SU.
  rewrite (convolve_transposed_pixel valued d k g c (List.length act) o W (slice 0 h gx) L PK ltac:(rewrite SW, CC; reflexivity) WU SU) in CU.
  destruct (group_slices G d E eq OK 1 k (List.length act) o _ (Some "") (Some "") act act gy SA SA eq_refl L ST TY) as [FO [_ SL]].
  rewrite (SL h Hh) in CU.
  assert (EY : forall y z : tensor A, Ok y = Ok z -> y = z) by congruence. apply EY in CU.
  apply (f_equal (fun t => at_ t (0 :: j ++ [h; r]))) in CU.
  rewrite !(at_sig4 d) in CU by (assumption || lia). unfold moved4 in CU. fold u in CU. fold j0 in CU.
  assert (PX : pixel (nth u E []) (repeat 1 d) z = z).
  { pose proof (pixel_in G d E eq OK u (repeat 1 d) z BU (repeat_fits d eq 1) IZ) as PI.
    apply (nth_ext _ _ 0 0); [rewrite (inb_length _ _ PI); unfold z; rewrite !repeat_length; reflexivity|]. intros a Ha.
    rewrite (inb_length _ _ PI), repeat_length in Ha. pose proof (inb_nth _ _ a PI ltac:(rewrite repeat_length; exact Ha)) as Q9.
    rewrite nth_repeat1 in Q9 by exact Ha. replace (nth a z 0) with 0 by (unfold z; symmetry; apply nth_repeat). lia. }
  assert (T0 : turned G u act h = 0).
  { unfold turned. fold u. rewrite (group_inv_l _ _ _ (ok_is_group _ _ _ _ OK) u BU).
    destruct act as [|z' act']; [discriminate HD|]. cbn [hd_error] in HD. injection HD as ->. reflexivity. }
  rewrite T0, Nat.mul_0_l, Nat.add_0_l in CU.
  assert (MF : forall bi p q', bi < 1 -> inb (repeat 1 d) p -> q' < C -> merged_fun valued (slice 0 h gx) c bi p q' = X' bi p q').
  { intros bi p q' B P Q'. pose proof (merged_input d valued (slice 0 h gx) 1 (repeat 1 d) g c WU L1 SU) as MG'.
    assert (TT : tab (1 :: repeat 1 d ++ [C]) (sig3 d (merged_fun valued (slice 0 h gx) c)) = tab (1 :: repeat 1 d ++ [C]) (sig3 d X')).
    { apply EY. rewrite CC. unfold merged in MG, MG'. destruct valued; rewrite <- MG, <- MG'; reflexivity. }
    apply (f_equal (fun t => at_ t (bi :: p ++ [q']))) in TT. rewrite !(at_sig3 d) in TT by assumption. exact TT. }
  rewrite <- CC in CU.
  pose proof (inb_length _ _ J) as LJ. pose proof (inb_length _ _ J0) as LJ0.
  assert (XV : forall q', q' < C -> merged_fun valued (slice 0 h gx) c 0 z q' = spot one z q0 z (moved_chan G valued u dom c q')).
  { intros q' Q'. rewrite MF by (assumption || lia). pose proof (MC q' Q') as MQ. rewrite CC in Q'. rewrite (XX 0 z q' Q'). fold u. rewrite PX.
    unfold x. rewrite merged_signal_from by (try assumption; try lia; rewrite <- CC; exact MQ). reflexivity. }
  rewrite (window_single d _ k C _ _ j (h * o + r) j q z L J Q) in CU.
  - rewrite (window_single d _ k C _ _ j0 r j0 q0 z L J0 Q0) in CU; [exact CU| | |].
    + apply tsrc_pixel; [lia|lia|]. split; reflexivity.
    + unfold x. rewrite merged_signal_from by (try assumption; try lia; rewrite <- CC; exact Q0). apply spot_same.
    + intros j' q' i J' Q' S N. apply tsrc_pixel in S as [S1 S2]; [|lia|rewrite (inb_length _ _ J'); exact L]. subst i. fold z.
      unfold x. rewrite merged_signal_from by (try assumption; try lia; rewrite <- CC; exact Q'). apply spot_other.
      destruct N as [N|N]; [congruence|right; exact N].
  - apply tsrc_pixel; [lia|lia|]. split; reflexivity.
  - rewrite XV by exact Q. fold q0. apply spot_same.
  - intros j' q' i J' Q' S N. apply tsrc_pixel in S as [S1 S2]; [|lia|rewrite (inb_length _ _ J'); exact L]. subst i. fold z.
    rewrite XV by exact Q'. apply spot_other. right. intros M. apply MI in M; [|exact Q']. destruct N as [N|N]; congruence.
Qed.

(** The flat position of an entry of the kernel, which the layer reads as pixel, channel, filter. *)
Lemma identity_transposed_kernel G d E eq (OK : group_ok G d E eq) (valued : bool) act dom g c C o k (K W : tensor A) :
  (forall a, In a act -> a < List.length E) -> (valued = true -> sub_idx G (Some "") dom /\ g = List.length dom) ->
  C = (if valued then g * c else c) -> List.length k = d -> kernel_fits eq k ->
  (forall j q r, inb k j -> q < C -> r < o -> at_ (read_as (k ++ [C; o]) K) (j ++ [q; r]) = at_ W (j ++ [r; q])) ->
  (forall j q h r, inb k j -> q < C -> h < List.length act -> r < o ->
    at_ W (j ++ [h * o + r; q])
    = at_ W (pixel (nth (nth h act 0) E []) k j ++ [r; moved_chan G valued (nth h act 0) dom c q])) ->
  forall j q h r, inb k j -> q < C -> h < List.length act -> r < o ->
     at_ W (j ++ [h * o + r; q]) = kval G E valued dom act c o k C K j q (h * o + r).
Proof.
  intros BD SD CC L KF KI HW j q h r J Q Hh R. rewrite HW by assumption.
  unfold kval, kidx, kernel_src. destruct (split_ok o h r R) as [-> ->]. set (u := nth h act 0).
  assert (BU : u < List.length E) by (apply BD, nth_In; exact Hh).
  assert (PJ : inb k (pixel (nth u E []) k j)) by (apply (pixel_in G d E eq OK); try assumption; split; assumption).
  assert (MC : moved_chan G valued u dom c q < C /\ chan_from G valued dom c u q = Some (moved_chan G valued u dom c q)).
  { unfold moved_chan, chan_from. rewrite CC in *. destruct valued; [|split; [exact Q|reflexivity]].
    destruct (SD eq_refl) as [D1 GD].
    assert (S : stable G u dom) by (rewrite (whole_dom _ _ _ _ _ OK D1); apply (stable_whole _ _ _ _ OK); exact BU).
    rewrite GD in Q |- *. split; [apply chan_lt; assumption|]. unfold seen_from, chan, turned.
    destruct (div_ok _ _ _ Q) as [_ [Q1 _]]. specialize (S (q / c) Q1). rewrite (proj2 (mem_In _ _) S). reflexivity. }
  destruct MC as [MQ ->]. cbn [option_map]. rewrite <- KI by assumption. reflexivity.
Qed.

Lemma complete_transposed_at name G d E eq (OK : group_ok G d E eq) (a : conv_args A) H opt (valued : bool) bs m g c kinit binit L k s dl W :
  layer_for name G a -> ca_subgroup a = Some H -> option_of a opt -> (valued = true -> H = "") ->
  let o := ca_filters a in
  let n := List.length E in
  let C := if valued then g * c else c in
  built d true a (static_signal_shape valued bs m g c) kinit binit L -> List.length m = d -> sizes d a k s dl ->
  shape W = k ++ [n * o; C] ->
  (forall x, wf x -> shape x = signal_shape valued 1 (repeat 1 d) g c ->
     commutes_at (if valued then transforms_of_group_signal G d "" "" else transforms_of_grid_signal G d "")
                 (transforms_of_group_signal G d "" "") (convolve_transposed valued d g c n o W) x) ->
  (forall j q r, inb k j -> q < C -> r < o -> at_ (read_as (k ++ [C; o]) (initial_kernel true k C o kinit)) (j ++ [q; r]) = at_ W (j ++ [r; q])) ->
  exists P, padding_of a true d bs m C P /\
    forall x b m', wf x -> List.length m' = d -> shape x = signal_shape valued b m' g c ->
    exists xp, padding_call P (merged_signal valued c g x b m') = Ok xp /\
    apply L x = (y <- base_conv_call true "channels_last" s dl (backend_padding opt) (n * o) (ca_activation a) W
                        (if ca_use_bias a then Some (tab [n * o] (fun i => binit [nth 0 i 0 mod o])) else None) xp ;;
                 Ok (last_axis_split n o y)).
Proof.
  intros LF HS OP HV o n C B Lm SZ SW CM KI.
  destruct (built_facts_at name G d E eq a H opt true valued bs m g c kinit binit L k s dl OK LF HS OP B Lm SZ)
    as [eb [ea [act [dom [WO [SA [SD [CF [CC [KS [RS PO]]]]]]]]]]]. fold C in CF, PO. fold o in CF.
  assert (SD' : valued = true -> sub_idx G (Some "") dom /\ g = List.length dom) by (intros V; rewrite <- (HV V); apply SD; exact V).
  assert (LA : List.length act = n) by (rewrite (whole_dom _ _ _ _ _ OK SA); apply seq_length).
  exists (gt_padding (cl_gt L)). split; [exact PO|]. intros x b m' WX Lm' SX.
  pose proof (cf_k _ _ _ _ _ _ _ _ _ _ _ _ _ _ _ _ _ _ _ _ _ _ CF) as Lk.
  pose proof (cf_fit _ _ _ _ _ _ _ _ _ _ _ _ _ _ _ _ _ _ _ _ _ _ CF) as KF.
  pose proof (cf_kpos _ _ _ _ _ _ _ _ _ _ _ _ _ _ _ _ _ _ _ _ _ _ CF) as Pk.
  destruct (sub_idx_facts _ _ _ _ OK _ _ SA) as [_ [BD _]].
  rewrite <- LA in SW, CM |- *.
  pose proof (equivariant_transposed_kernel G d E eq OK valued act dom g c C o k W SA SD' eq_refl Lk KF Pk SW CM) as HW.
  apply (as_one_transposed G d E eq OK valued act dom c C o k s dl eb ea (is_same opt) (ca_use_bias a) (ca_activation a) kinit binit
    L W x b m' g CF CC eq_refl SW); try assumption.
  apply (identity_transposed_kernel G d E eq OK valued act dom g c C o k _ W BD SD' eq_refl Lk KF KI HW).
Qed.

(** If the ordinary transposed convolution with the kernel [W], with n = |group| filters for each
    of the [o] channels of its output, commutes with the action of the group on signals of a single
    pixel, then it is what the layer computes whose initial kernel, read in the order pixel,
    channel, filter, consists of the filters of [W] for the identity: for all inputs, padding
    options, strides, dilations, activations and biases.  A layer for group signals has the whole
    group as its subgroup. *)
Theorem C84_every_equivariant_transposed_convolution_is_a_layer name G (a : conv_args A) H opt (valued : bool) bs m g c kinit binit L k s dl W :
  layer_for name G a -> ca_subgroup a = Some H -> option_of a opt -> (valued = true -> H = "") ->
  let d := dimension_of name in
  let o := ca_filters a in
  let n := List.length (symmetries_of name) in
  let C := if valued then g * c else c in
  built d true a (static_signal_shape valued bs m g c) kinit binit L -> List.length m = d -> sizes d a k s dl ->
  shape W = k ++ [n * o; C] ->
  (forall x, wf x -> shape x = signal_shape valued 1 (repeat 1 d) g c ->
     commutes_at (if valued then transforms_of_group_signal G d "" "" else transforms_of_grid_signal G d "")
                 (transforms_of_group_signal G d "" "") (convolve_transposed valued d g c n o W) x) ->
  (forall j q r, inb k j -> q < C -> r < o -> at_ (read_as (k ++ [C; o]) (initial_kernel true k C o kinit)) (j ++ [q; r]) = at_ W (j ++ [r; q])) ->
  exists P, padding_of a true d bs m C P /\
    forall x b m', wf x -> List.length m' = d -> shape x = signal_shape valued b m' g c ->
    exists xp, padding_call P (merged_signal valued c g x b m') = Ok xp /\
    apply L x = (y <- base_conv_call true "channels_last" s dl (backend_padding opt) (n * o) (ca_activation a) W
                        (if ca_use_bias a then Some (tab [n * o] (fun i => binit [nth 0 i 0 mod o])) else None) xp ;;
                 Ok (last_axis_split n o y)).
Proof.
  intros LF. pose proof LF as [DG _]. apply lib_ok in DG as [_ OK]. intros HS OP HV d o n C.
  exact (complete_transposed_at name G d _ _ OK a H opt valued bs m g c kinit binit L k s dl W LF HS OP HV).
Qed.

(** ** All equivariant kernels *)

Lemma kval_identity G d E eq (OK : group_ok G d E eq) (valued : bool) act dom Ha Hd g c C o k (K : tensor A) j q r :
  sub_idx G Ha act -> (valued = true -> sub_idx G Hd dom /\ g = List.length dom) ->
  C = (if valued then g * c else c) -> List.length k = d -> inb k j -> q < C -> r < o ->
  kval G E valued dom act c o k C K j q r = at_ (read_as (k ++ [C; o]) K) (j ++ [q; r]).
Proof.
  intros SA SD CC L J Q R. destruct (sub_idx_facts _ _ _ _ OK _ _ SA) as [_ [_ [HA _]]].
  assert (A0 : nth 0 act 0 = 0) by (destruct act; [discriminate HA|injection HA as ->; reflexivity]).
  unfold kval, kidx, kernel_src. rewrite Nat.div_small, Nat.mod_small by exact R.
  rewrite A0, (ok_id _ _ _ _ OK). rewrite pixel_identity by (rewrite (inb_length _ _ J); exact L).
  assert (CF : chan_from G valued dom c 0 q = Some q).
  { unfold chan_from. destruct valued; [|reflexivity]. destruct (SD eq_refl) as [SD' GD].
    destruct (sub_idx_facts _ _ _ _ OK _ _ SD') as [ND [Bd _]].
    assert (C0 : c <> 0) by (intros ->; rewrite CC in Q; lia).
    assert (QD : q / c < List.length dom) by (apply Nat.div_lt_upper_bound; [exact C0|]; rewrite CC, GD in Q; lia).
    unfold seen_from. rewrite (from_identity G d E eq OK) by (apply Bd, nth_In; exact QD).
    assert (M : mem (nth (q / c) dom 0) dom = true) by (apply mem_In, nth_In; exact QD). rewrite M.
    rewrite index_of_nth by assumption. f_equal. rewrite (Nat.mul_comm (q / c)). symmetry. apply Nat.div_mod. exact C0. }
  rewrite CF. reflexivity.
Qed.

Lemma equivariant_transposed_kernels_at name G d E eq (OK : group_ok G d E eq) (a : conv_args A) H opt (valued : bool) bs m g c kinit binit L k s dl (W : tensor A) :
  (forall u v w : A, add u (add v w) = add v (add u w)) ->
  layer_for name G a -> ca_subgroup a = Some H -> option_of a opt -> (valued = true -> H = "") ->
  let o := ca_filters a in
  let n := List.length E in
  let C := if valued then g * c else c in
  built d true a (static_signal_shape valued bs m g c) kinit binit L -> List.length m = d -> sizes d a k s dl ->
  wf W -> shape W = k ++ [n * o; C] ->
  (forall x, wf x -> shape x = signal_shape valued 1 (repeat 1 d) g c ->
     commutes_at (if valued then transforms_of_group_signal G d "" "" else transforms_of_grid_signal G d "")
                 (transforms_of_group_signal G d "" "") (convolve_transposed valued d g c n o W) x) <->
  exists K, wf K /\ shape K = k ++ [o; C] /\ transform_kernel (cl_gt L) K = Ok W.
Proof.
  intros AC LF HS OP HV o n C B Lm SZ WW SW.
  destruct (built_facts_at name G d E eq a H opt true valued bs m g c kinit binit L k s dl OK LF HS OP B Lm SZ)
    as [eb [ea [act [dom [WO [SA [SD0 [CF [CC [KS [RS PO]]]]]]]]]]]. fold C in CF, PO. fold o in CF.
  assert (SD : valued = true -> sub_idx G (Some "") dom /\ g = List.length dom) by (intros V; rewrite <- (HV V); apply SD0; exact V).
  assert (LA : List.length act = n) by (rewrite (whole_dom _ _ _ _ _ OK SA); apply seq_length).
  destruct CF. destruct (sub_idx_facts _ _ _ _ OK _ _ SA) as [ND [BD _]].
  assert (EY : forall u v : tensor A, Ok u = Ok v -> u = v) by congruence.
  split.
  - intros CM.
    set (T := tab (k ++ [C; o]) (ker d (fun j q r => at_ W (j ++ [r; q])))).
    set (K := read_as (k ++ [o; C]) T).
    assert (WK : wf K). { unfold wf, K, read_as. cbn [data shape]. unfold T. rewrite length_data_tab. apply prod_swap. }
    exists K. split; [exact WK|]. split; [reflexivity|].
    rewrite (transform_kernel_eq G d E eq OK (cl_gt L) true valued dom act c C o k K cf_dom BD cf_k cf_fit cf_kidx WK eq_refl).
    rewrite <- LA in SW, CM.
    pose proof (equivariant_transposed_kernel G d E eq OK valued act dom g c C o k W SA SD eq_refl cf_k cf_fit cf_kpos SW CM) as HW.
    assert (KI : forall j q r, inb k j -> q < C -> r < o -> at_ (read_as (k ++ [C; o]) K) (j ++ [q; r]) = at_ W (j ++ [r; q])).
    { intros j q r J Q R. change (at_ T (j ++ [q; r]) = at_ W (j ++ [r; q])). unfold T. rewrite (at_ker d) by assumption. reflexivity. }
    pose proof (identity_transposed_kernel G d E eq OK valued act dom g c C o k K W BD SD eq_refl cf_k cf_fit KI HW) as KV.
    f_equal. apply tensor_ext; [apply wf_tab|exact WW|rewrite SW; apply shape_tab|]. intros i I. rewrite shape_tab in I.
    apply inbk_inv in I as [j [r [q [-> [J [R Q]]]]]]. rewrite (at_ker d) by assumption.
    destruct (div_ok _ _ _ R) as [O [R1 R2]].
    assert (RR : r = r / o * o + r mod o) by (rewrite (Nat.mul_comm (r / o)); apply Nat.div_mod; exact O).
    rewrite RR. symmetry. apply KV; assumption.
  - intros [K [WK [SK QW]]] x WX SX gx y TX CX.
    rewrite (transform_kernel_eq G d E eq OK (cl_gt L) true valued dom act c C o k K cf_dom BD cf_k cf_fit cf_kidx WK SK) in QW. apply EY in QW.
    assert (ST : forall u, In u act -> stable G u act) by (intros u U; apply (stable_of G d _ _ OK (Some "")); assumption).
    assert (SD' : valued = true -> sub_idx G (Some "") dom /\ g = List.length dom /\ forall v, In v act -> stable G v dom).
    { intros V. destruct (SD V) as [D1 D2]. split; [exact D1|]. split; [exact D2|]. intros v IV.
      rewrite (whole_dom _ _ _ _ _ OK D1). apply (stable_whole _ _ _ _ OK), BD. exact IV. }
    assert (L1 : List.length (repeat 1 d) = d) by apply repeat_length.
    assert (AX : action G x (map Z.of_nat (seq 1 d)) 0 (if valued then Some (Z.of_nat (d + 1)) else None) (Some "") (if valued then Some "" else None) = Ok gx)
      by (destruct valued; exact TX).
    destruct (moved_input G d E eq OK valued x gx 1 (repeat 1 d) g c act dom (Some "") (Some "") SA SD' WX L1 SX AX) as [FK [SG MV]].
    rewrite (convolve_transposed_pixel valued d k g c n o W x cf_k cf_kpos SW WX SX) in CX. apply EY in CX. subst y.
    match goal with |- context[sig4 d ?F] => set (Y := F) end. rewrite <- LA.
    destruct (group_slices_ok G d E eq OK 1 k (List.length act) o Y (Some "") (Some "") act act SA SA eq_refl (conj cf_fit cf_k) ST) as [gy [TY [SY SL]]].
    exists gy. split; [exact TY|]. split; [rewrite SY, SG; reflexivity|]. intros u U. rewrite SG in U. cbn [nth] in U.
    rewrite (SL u U). destruct (MV u U) as [X' [MG [WU [SU XX]]]]. rewrite SX in SU.
    rewrite (convolve_transposed_pixel valued d k g c (List.length act) o W (slice 0 u gx) cf_k cf_kpos ltac:(rewrite LA; exact SW) WU SU). fold C. f_equal.
    apply sig4_ext; [exact cf_k|]. intros bi p h r BI P Hh R. unfold moved4, Y.
    assert (MF : forall p q', inb (repeat 1 d) p -> q' < C -> merged_fun valued (slice 0 u gx) c bi p q' = X' bi p q').
    { intros p' q' P' Q'. pose proof (merged_input d valued (slice 0 u gx) 1 (repeat 1 d) g c WU L1 SU) as MG'.
      assert (TT : tab (1 :: repeat 1 d ++ [C]) (sig3 d (merged_fun valued (slice 0 u gx) c)) = tab (1 :: repeat 1 d ++ [C]) (sig3 d X')).
      { apply EY. unfold C. unfold merged in MG, MG'. destruct valued; rewrite <- MG, <- MG'; reflexivity. }
      apply (f_equal (fun t => at_ t (bi :: p' ++ [q']))) in TT. rewrite !(at_sig3 d) in TT by assumption. exact TT. }
    set (u' := nth u act 0) in *. assert (IU : In u' act) by (apply nth_In; exact U).
    pose proof (transpose_out_moved G d E eq OK valued act dom c C o k (repeat 1 d) (repeat 1 d) false (fun v => v) (fun _ => zero) K AC u' (repeat 1 d) k (repeat 0 d)
      (merged_fun valued x c) (merged_fun valued (slice 0 u gx) c) bi p h r) as CO.
    unfold transpose_out, biased in CO.
    assert (WKV : forall (X : list nat -> nat -> A) p r, r < n * o -> window d (tsrc (repeat 1 d) (repeat 1 d) (repeat 1 d) (repeat 0 d)) tterm k C X (fun j q r => at_ W (j ++ [r; q])) p r
       = window d (tsrc (repeat 1 d) (repeat 1 d) (repeat 1 d) (repeat 0 d)) tterm k C X (kval G E valued dom act c o k C K) p r).
    { intros X p' r' R'. apply window_ext; [exact cf_k|reflexivity|]. intros j q J Q. rewrite <- QW at 1. rewrite (at_ker d); [reflexivity|assumption|assumption|rewrite LA; assumption|assumption]. }
    pose proof (turned_lt G u' act h (ST u' IU) Hh) as TH.
    rewrite !WKV by (rewrite <- LA; nia). apply CO; try assumption; try apply repeat_fits.
    + constructor; [apply BD; exact IU|split; [exact ND|split; [exact BD|apply ST; exact IU]]|].
      intros V. destruct (SD' V) as [D1 [D2 D3]]. destruct (sub_idx_facts _ _ _ _ OK _ _ D1) as [ND' [Bd _]].
      split; [exact ND'|]. split; [exact Bd|]. split; [apply D3; exact IU|]. unfold C. rewrite V, D2. reflexivity.
    + split; assumption.
    + split; assumption.
    + intros b0 Hb. rewrite nth_repeat1 by exact Hb. lia.
    + intros b0 Hb _. unfold mirrored. rewrite !nth_repeat1, nth_repeat by exact Hb. specialize (cf_kpos b0 Hb). lia.
    + intros i q I Q. rewrite MF by assumption. apply XX. exact Q.
Qed.

(** The kernels of equivariant transposed convolutions are exactly those that the layer
    makes of its own kernels. *)
Theorem C84_equivariant_transposed_kernels name G (a : conv_args A) H opt (valued : bool) bs m g c kinit binit L k s dl (W : tensor A) :
  (forall u v w : A, add u (add v w) = add v (add u w)) ->
  layer_for name G a -> ca_subgroup a = Some H -> option_of a opt -> (valued = true -> H = "") ->
  let d := dimension_of name in
  let o := ca_filters a in
  let n := List.length (symmetries_of name) in
  let C := if valued then g * c else c in
  built d true a (static_signal_shape valued bs m g c) kinit binit L -> List.length m = d -> sizes d a k s dl ->
  wf W -> shape W = k ++ [n * o; C] ->
  (forall x, wf x -> shape x = signal_shape valued 1 (repeat 1 d) g c ->
     commutes_at (if valued then transforms_of_group_signal G d "" "" else transforms_of_grid_signal G d "")
                 (transforms_of_group_signal G d "" "") (convolve_transposed valued d g c n o W) x) <->
  exists K, wf K /\ shape K = k ++ [o; C] /\ transform_kernel (cl_gt L) K = Ok W.
Proof.
  intros AC LF. pose proof LF as [DG _]. apply lib_ok in DG as [_ OK]. intros HS OP HV d o n C.
  exact (equivariant_transposed_kernels_at name G d _ _ OK a H opt valued bs m g c kinit binit L k s dl W AC LF HS OP HV).
Qed.

(** ** No weight is redundant *)

Lemma window_local d (src : list nat -> list nat -> option (list nat)) (term : option A -> A -> A) k C (x x' : list nat -> nat -> A) W W' p r :
  List.length k = d -> (forall j q i, q < C -> src p j = Some i -> x i q = x' i q) -> (forall j q, inb k j -> q < C -> W j q r = W' j q r) ->
  window d src term k C x W p r = window d src term k C x' W' p r.
Proof.
  intros LK HX HW. unfold window. f_equal. apply map_ext_in. intros jc I. apply In_indices in I.
  apply inb_app_split in I as [j [c [-> [J I]]]]. apply inb1 in I as [q [-> Q]]. pose proof (inb_length _ _ J).
  rewrite firstn_app_exact by lia. rewrite app_nth2 by lia. replace (d - List.length j) with 0 by lia. change (nth 0 [q] 0) with q.
  rewrite HW by assumption. f_equal. destruct (src p j) as [i|] eqn:S; cbn [option_map]; [rewrite (HX j q i Q S)|]; reflexivity.
Qed.

Lemma redundant_transposed_at name G d E eq (OK : group_ok G d E eq) (a : conv_args A) H opt (valued : bool) bs m g c kinit kinit' binit binit' L L' k s dl :
  (forall u v w : A, add u w = add v w -> u = v) -> (forall u v, ca_activation a u = ca_activation a v -> u = v) ->
  layer_for name G a -> ca_subgroup a = Some H -> option_of a opt ->
  let o := ca_filters a in
  let C := if valued then g * c else c in
  built d true a (static_signal_shape valued bs m g c) kinit binit L ->
  built d true a (static_signal_shape valued bs m g c) kinit' binit' L' -> List.length m = d -> sizes d a k s dl ->
  (forall x m', wf x -> List.length m' = d -> shape x = signal_shape valued 1 m' g c -> apply L x = apply L' x) ->
  (forall j q r, inb k j -> q < C -> r < o -> kinit (j ++ [r; q]) = kinit' (j ++ [r; q])) /\
  (ca_use_bias a = true -> forall r, r < o -> binit [r] = binit' [r]).
Proof.
  intros AK AJ LF HS OP o C B B' Lm SZ SAME.
  destruct (built_facts_at name G d E eq a H opt true valued bs m g c kinit binit L k s dl OK LF HS OP B Lm SZ)
    as [eb [ea [act [dom [_ [SA [SD [CF [CH [_ [_ PO]]]]]]]]]]]. fold C in CF, PO. fold o in CF.
  destruct (built_facts_at name G d E eq a H opt true valued bs m g c kinit' binit' L' k s dl OK LF HS OP B' Lm SZ)
    as [eb' [ea' [act' [dom' [_ [SA' [SD' [CF' [CH' [_ [_ PO']]]]]]]]]]]. fold C in CF', PO'. fold o in CF'.
  assert (act' = act) as -> by (unfold sub_idx in *; congruence).
  assert (NA : 0 < List.length act).
  { destruct (sub_idx_facts _ _ _ _ OK _ _ SA) as [_ [_ [HD _]]]. destruct act; [discriminate HD|]. cbn [List.length]. lia. }
  set (ke := vzip dilated k dl).
  pose proof (cf_pads _ _ _ _ _ _ _ _ _ _ _ _ _ _ _ _ _ _ _ _ _ _ CF') as cf_pads'. pose proof CF as CF0. destruct CF0.
  assert (PP : gt_padding (cl_gt L') = gt_padding (cl_gt L)).
  { destruct PO as [P0 [I1 B1]], PO' as [P1 [I2 B2]]. rewrite I1 in I2. injection I2 as <-. rewrite B1 in B2. injection B2 as B2. symmetry. exact B2. }
  rewrite PP in cf_pads'.
  assert (LKE : List.length ke = d) by (unfold ke; rewrite length_vzip; lia).
  set (m' := vzip Nat.add ke ke). assert (LM : List.length m' = d) by (unfold m'; rewrite length_vzip; lia).
  assert (NM : forall a0, a0 < d -> nth a0 m' 0 = nth a0 ke 0 + nth a0 ke 0) by (intros a0 H0; unfold m'; rewrite nth_vzip by lia; reflexivity).
  assert (KEP : forall a0, a0 < d -> 0 < nth a0 ke 0).
  { intros a0 H0. unfold ke. rewrite nth_vzip by lia. unfold dilated. specialize (cf_kpos a0 H0). nia. }
  (* both layers have the same extra padding *)
  assert (DL' : List.length eb' = d /\ List.length ea' = d) by (destruct CF'; split; assumption). destruct DL' as [LEB' LEA'].
  assert (DL : List.length eb = d /\ List.length ea = d) by (split; assumption). destruct DL as [LEB LEA].
  set (ps := padding_string (is_same opt)). set (bf := vzip (transpose_before ps) ke s).
  assert (LBF : List.length bf = d) by (unfold bf; rewrite length_vzip; lia).
  set (m1 := padded eb m' ea). assert (Lm1 : List.length m1 = d) by (apply length_padded; assumption).
  set (mo := touts ps m1 ke s). assert (LO : List.length mo = d) by (apply length_touts; assumption).
  assert (OUT : forall (D : list nat -> nat -> A) p r, inb mo p -> r < o ->
    let x := signal_from valued d 1 m' g c (fun _ => D) in
    let v := fun ki => window d (tsrc m1 s dl bf) tterm k C (bordered eb m' (merged_fun valued x c) 0)
                              (fun j q r => at_ (read_as (k ++ [C; o]) (tab (k ++ [o; C]) ki)) (j ++ [q; r])) p r in
    biased (ca_use_bias a) binit (v kinit) r = biased (ca_use_bias a) binit' (v kinit') r).
  { intros D p r P R x v.
    assert (WX : wf x) by apply wf_signal_from. assert (SX : shape x = signal_shape valued 1 m' g c) by apply shape_signal_from.
    pose proof (SAME x m' WX LM SX) as Q. unfold apply in Q.
    rewrite (conv_apply_call G d E eq true valued act dom c C o k s dl eb ea (is_same opt) (ca_use_bias a) (ca_activation a) kinit binit L x 1 m' g CF CH LM SX) in Q.
    rewrite (conv_apply_call G d E eq true valued act dom' c C o k s dl eb' ea' (is_same opt) (ca_use_bias a) (ca_activation a) kinit' binit' L' x 1 m' g CF' CH' LM SX) in Q.
    pose proof (merged_input d valued x 1 m' g c WX LM SX) as MG. change (if valued then g * c else c) with C in MG.
    pose proof (conv_transpose_call_eq G d E eq OK valued act dom c C o k s dl eb ea (is_same opt) (ca_use_bias a) (ca_activation a) kinit binit L x 1 m' _ CF LM MG) as C1.
    pose proof (conv_transpose_call_eq G d E eq OK valued act dom' c C o k s dl eb' ea' (is_same opt) (ca_use_bias a) (ca_activation a) kinit' binit' L' x 1 m' _ CF' LM MG) as C2.
    cbv zeta in C1, C2. rewrite C1, C2 in Q. cbn [snd] in Q. clear C1 C2.
    assert (EY : forall y z : tensor A, Ok y = Ok z -> y = z) by congruence.
    assert (BE : padded eb' m' ea' = m1 /\ forall i q, inb m1 i -> q < C -> bordered eb' m' (merged_fun valued x c) 0 i q = bordered eb m' (merged_fun valued x c) 0 i q).
    { pose proof (cf_pads 1 m' C (merged_fun valued x c) LM) as Q1. pose proof (cf_pads' 1 m' C (merged_fun valued x c) LM) as Q2.
      rewrite Q1 in Q2. apply EY in Q2. pose proof (f_equal shape Q2) as S2. rewrite !shape_tab in S2. injection S2 as S2. apply app_inj_tail in S2 as [S2 _].
      split; [symmetry; exact S2|]. intros i q I Q'. fold m1 in S2, Q2. rewrite <- S2 in Q2. apply (f_equal (fun t => at_ t (0 :: i ++ [q]))) in Q2.
      rewrite !(at_sig3 d) in Q2 by (assumption || lia). symmetry. exact Q2. }
    destruct BE as [BE1 BE2]. rewrite BE1 in Q. fold ps ke bf m1 in Q. fold mo in Q. apply EY in Q.
    apply (f_equal (fun t => at_ t (0 :: p ++ [0; r]))) in Q. rewrite !(at_sig4 d) in Q by (assumption || lia). apply AJ in Q.
    rewrite Nat.mul_0_l, Nat.add_0_l in Q.
    unfold v. etransitivity; [|etransitivity; [exact Q|]]; f_equal; (apply window_local; [exact cf_k| |]).
    - reflexivity.
    - intros j q J Q'. symmetry. apply (kval_identity G d E eq OK valued act dom (Some "") (Some H) g c C o k); try assumption; reflexivity.
    - intros j q i Q' T. apply BE2; [|exact Q']. apply (tsrc_in m1 s dl bf p j i T).
    - intros j q J Q'. apply (kval_identity G d E eq OK valued act dom' (Some "") (Some H) g c C o k); try assumption; reflexivity. }
  (* the output pixel that a kernel entry reaches from the pixel [ke] of the input *)
  assert (DP : forall a0, a0 < d -> 0 < nth a0 dl 0).
  { destruct SZ as [_ [_ SZ]]. apply (std_pos d _ _ SZ). }
  set (i1 := vzip Nat.add eb ke). assert (LI1 : List.length i1 = d) by (unfold i1; rewrite length_vzip; lia).
  assert (NI1 : forall a0, a0 < d -> nth a0 i1 0 = nth a0 eb 0 + nth a0 ke 0) by (intros a0 H0; unfold i1; rewrite nth_vzip by lia; reflexivity).
  set (tgt := fun j => vzip Nat.sub (vzip Nat.add (vzip Nat.mul i1 s) (vzip Nat.mul j dl)) bf).
  assert (NB : forall a0, a0 < d -> nth a0 bf 0 <= nth a0 ke 0).
  { intros a0 H0. unfold bf. rewrite nth_vzip by lia. unfold transpose_before. destruct (ps =? "same"); [|lia].
    pose proof (Nat.div_le_upper_bound (nth a0 ke 0 - nth a0 s 0) 2 (nth a0 ke 0) ltac:(lia) ltac:(lia)). lia. }
  assert (NT : forall j a0, inb k j -> a0 < d -> nth a0 (tgt j) 0 + nth a0 bf 0 = nth a0 i1 0 * nth a0 s 0 + nth a0 j 0 * nth a0 dl 0
    /\ nth a0 j 0 * nth a0 dl 0 < nth a0 ke 0).
  { intros j a0 J H0. pose proof (inb_length _ _ J) as LJ. pose proof (inb_nth _ _ a0 J ltac:(lia)) as JB.
    assert (Q2 : nth a0 (tgt j) 0 = nth a0 i1 0 * nth a0 s 0 + nth a0 j 0 * nth a0 dl 0 - nth a0 bf 0).
    { unfold tgt. rewrite !nth_vzip; rewrite ?length_vzip; rewrite ?length_vzip; try lia. }
    specialize (NB a0 H0). specialize (cf_spos a0 H0). split.
    - rewrite Q2. rewrite (NI1 a0 H0). nia.
    - unfold ke. rewrite nth_vzip by lia. unfold dilated. nia. }
  assert (LT : forall j, inb k j -> List.length (tgt j) = d).
  { intros j J. pose proof (inb_length _ _ J) as LJ. unfold tgt. rewrite !length_vzip; rewrite ?length_vzip; rewrite ?length_vzip; lia. }
  assert (IT : forall j, inb k j -> inb mo (tgt j)).
  { intros j J. apply inb_intro; [rewrite LT by exact J; lia|]. rewrite LO. intros a0 H0. destruct (NT j a0 J H0) as [T1 T2].
    unfold mo. rewrite (nth_touts ps m1 ke s d) by assumption. unfold m1. rewrite (nth_padded _ _ _ d) by assumption. rewrite (NM a0 H0).
    rewrite (NI1 a0 H0) in T1. specialize (cf_spos a0 H0).
    assert (T3 : nth a0 (tgt j) 0 < (nth a0 eb 0 + (nth a0 ke 0 + nth a0 ke 0) + nth a0 ea 0) * nth a0 s 0) by nia.
    unfold transpose_size. destruct (ps =? "same"); lia. }
  assert (SUM0 : forall {T} (l : list T), sum (map (fun _ => zero) l) = (zero : A)).
  { intros T l. induction l as [|t l IH]; [reflexivity|]. unfold sum in *. cbn [map fold_right]. rewrite IH. apply (zero_add _ NE). }
  assert (BV : forall D i q, inb m1 i -> q < C -> bordered eb m' (merged_fun valued (signal_from valued d 1 m' g c (fun _ => D)) c) 0 i q
      = if inside eb m' i then D (vzip Nat.sub i eb) q else zero).
  { intros D i q I Q. pose proof (inb_length _ _ I) as LI. rewrite Lm1 in LI. unfold bordered. destruct (inside eb m' i) eqn:IN; [|reflexivity].
    pose proof (proj1 (inside_spec eb m' i d LEB LM LI) IN) as IN'.
    rewrite merged_signal_from; [reflexivity|exact LM|lia| |exact Q].
    apply inb_intro; [rewrite length_vzip; lia|]. rewrite LM. intros a0 Ha. rewrite nth_vzip by lia. specialize (IN' a0 Ha). lia. }
  assert (Z0 : forall p W r, window d (tsrc m1 s dl bf) tterm k C (bordered eb m' (merged_fun valued (signal_from valued d 1 m' g c (fun _ _ _ => zero)) c) 0) W p r = zero).
  { intros p W r. unfold window. etransitivity; [|apply (SUM0 _ (indices (k ++ [C])))]. f_equal. apply map_ext_in. intros jc I. apply In_indices in I.
    apply inb_app_split in I as [j [qq [-> [J I]]]]. apply inb1 in I as [q [-> Q]]. pose proof (inb_length _ _ J) as LJ.
    rewrite firstn_app_exact by lia. rewrite app_nth2 by lia. replace (d - List.length j) with 0 by lia. change (nth 0 [q] 0) with q.
    destruct (tsrc m1 s dl bf p j) as [i|] eqn:T; [|reflexivity]. cbn [option_map tterm].
    rewrite (BV (fun _ _ => zero) i q (tsrc_in m1 s dl bf p j i T) Q). destruct (inside eb m' i); apply (zero_mul _ NE). }
  assert (BI : ca_use_bias a = true -> forall r, r < o -> binit [r] = binit' [r]).
  { intros UB r R.
    assert (P0 : inb mo (repeat 0 d)).
    { apply inb_intro; [rewrite repeat_length; lia|]. rewrite LO. intros a0 H0. rewrite nth_repeat.
      unfold mo. rewrite (nth_touts ps m1 ke s d) by assumption. unfold m1. rewrite (nth_padded _ _ _ d) by assumption. rewrite (NM a0 H0).
      specialize (cf_spos a0 H0). specialize (KEP a0 H0). unfold transpose_size. destruct (ps =? "same"); nia. }
    specialize (OUT (fun _ _ => zero) (repeat 0 d) r P0 R). cbv zeta in OUT. unfold biased in OUT. rewrite UB in OUT.
    rewrite !Z0, !(zero_add _ NE) in OUT. exact OUT. }
  split; [|exact BI].
  assert (FLAT : forall j q r, inb k j -> q < C -> r < o ->
     at_ (read_as (k ++ [C; o]) (tab (k ++ [o; C]) kinit)) (j ++ [q; r]) = at_ (read_as (k ++ [C; o]) (tab (k ++ [o; C]) kinit')) (j ++ [q; r])).
  { intros j q r J Q R. specialize (OUT (spot one ke q) (tgt j) r (IT j J) R). cbv beta zeta in OUT.
    pose proof (inb_length _ _ J) as LJ.
    assert (S1 : tsrc m1 s dl bf (tgt j) j = Some i1).
    { unfold tsrc. rewrite Lm1. apply wsrc_all; [lia|]. intros a0 H0. apply transpose_src_spec; [apply cf_spos; exact H0|].
      destruct (NT j a0 J H0) as [T1 _]. split; [|lia]. unfold m1. rewrite (nth_padded _ _ _ d) by assumption. rewrite (NM a0 H0), (NI1 a0 H0).
      specialize (KEP a0 H0). lia. }
    assert (SB : vzip Nat.sub i1 eb = ke).
    { apply (nth_ext _ _ 0 0); rewrite length_vzip by lia; [lia|]. intros a0 H0. rewrite nth_vzip by lia. rewrite NI1 by lia. lia. }
    assert (IN1 : inside eb m' i1 = true).
    { apply (inside_spec eb m' i1 d LEB LM LI1). intros a0 H0. rewrite (NM a0 H0), (NI1 a0 H0). specialize (KEP a0 H0). lia. }
    assert (WS : forall W, window d (tsrc m1 s dl bf) tterm k C (bordered eb m' (merged_fun valued (signal_from valued d 1 m' g c (fun _ => spot one ke q)) c) 0) W (tgt j) r = W j q r).
    { intros W. apply (window_single d _ k C _ W (tgt j) r j q i1); try assumption.
      - rewrite (BV (spot one ke q) i1 q (tsrc_in m1 s dl bf (tgt j) j i1 S1) Q), IN1, SB. apply spot_same.
      - intros j' q' i J' Q' S N. rewrite (BV (spot one ke q) i q' (tsrc_in m1 s dl bf (tgt j) j' i S) Q'). destruct (inside eb m' i) eqn:IN; [|reflexivity].
        apply spot_other. destruct (Nat.eq_dec q' q) as [->|NQ]; [|right; exact NQ]. left. destruct N as [N|N]; [|congruence]. intros V. apply N.
        assert (LI : List.length i = d) by (rewrite (inb_length _ _ (tsrc_in m1 s dl bf (tgt j) j' i S)); exact Lm1).
        unfold tsrc in S. rewrite Lm1 in S. apply wsrc_some in S as [_ S].
        pose proof (inb_length _ _ J') as LJ'. apply (nth_ext _ _ 0 0); [lia|]. intros a0 H0. assert (H1 : a0 < d) by lia.
        specialize (S a0 H1). apply transpose_src_spec in S as [_ S]; [|apply cf_spos; exact H1].
        destruct (NT j a0 J H1) as [T1 _]. specialize (DP a0 H1).
        assert (EI : nth a0 i 0 = nth a0 i1 0).
        { pose proof (proj1 (inside_spec eb m' i d LEB LM LI) IN a0 H1) as I9. rewrite (NI1 a0 H1).
          assert (V' : nth a0 (vzip Nat.sub i eb) 0 = nth a0 ke 0) by (rewrite V; reflexivity). rewrite nth_vzip in V' by lia. lia. }
        rewrite EI in S. nia. }
    rewrite !WS in OUT. unfold biased in OUT. destruct (ca_use_bias a); [|exact OUT]. rewrite (BI eq_refl r R) in OUT. apply AK in OUT. exact OUT. }
  assert (SAMEK : tab (k ++ [o; C]) kinit = tab (k ++ [o; C]) kinit').
  { assert (WR : forall ki : list nat -> A, wf (read_as (k ++ [C; o]) (tab (k ++ [o; C]) ki))).
    { intros ki. unfold wf, read_as. cbn [data shape]. rewrite length_data_tab. apply prod_swap. }
    assert (RR : read_as (k ++ [C; o]) (tab (k ++ [o; C]) kinit) = read_as (k ++ [C; o]) (tab (k ++ [o; C]) kinit')).
    { apply tensor_ext; [apply WR|apply WR|reflexivity|]. intros i I. change (inb (k ++ [C; o]) i) in I.
      apply inbk_inv in I as [j [q [r [-> [J [Q R]]]]]]. apply FLAT; assumption. }
    unfold read_as, tab in RR |- *. injection RR as RR. cbn [data] in RR. rewrite RR. reflexivity. }
  intros j q r J Q R. apply (f_equal (fun t => at_ t (j ++ [r; q]))) in SAMEK.
  assert (IJ : inb (k ++ [o; C]) (j ++ [r; q])).
  { apply inb_app; [exact J|]. apply inb_cons. split; [exact R|]. apply inb_cons. split; [exact Q|apply inb_nil]. }
  rewrite !at_tab in SAMEK by exact IJ. exact SAMEK.
Qed.

(** Two transposed layers built from the same arguments (with any subgroup) that return the same
    for all inputs have the same initial kernel and, if they use one, the same bias. *)
Theorem C84_no_weight_is_redundant name G (a : conv_args A) H opt (valued : bool) bs m g c kinit kinit' binit binit' L L' k s dl :
  (forall u v w : A, add u w = add v w -> u = v) -> (forall u v, ca_activation a u = ca_activation a v -> u = v) ->
  layer_for name G a -> ca_subgroup a = Some H -> option_of a opt ->
  let d := dimension_of name in
  let o := ca_filters a in
  let C := if valued then g * c else c in
  built d true a (static_signal_shape valued bs m g c) kinit binit L ->
  built d true a (static_signal_shape valued bs m g c) kinit' binit' L' -> List.length m = d -> sizes d a k s dl ->
  (forall x m', wf x -> List.length m' = d -> shape x = signal_shape valued 1 m' g c -> apply L x = apply L' x) ->
  (forall j q r, inb k j -> q < C -> r < o -> kinit (j ++ [r; q]) = kinit' (j ++ [r; q])) /\
  (ca_use_bias a = true -> forall r, r < o -> binit [r] = binit' [r]).
Proof.
  intros AK AJ LF. pose proof LF as [DG _]. apply lib_ok in DG as [_ OK]. intros HS OP d o C.
  exact (redundant_transposed_at name G d _ _ OK a H opt valued bs m g c kinit kinit' binit binit' L L' k s dl AK AJ LF HS OP).
Qed.

End Complete.
Print Assumptions C84_every_equivariant_transposed_convolution_is_a_layer.
Print Assumptions C84_equivariant_transposed_kernels.
Print Assumptions C84_no_weight_is_redundant.

(** ** Proper subgroups *)

(** For signals on a proper subgroup the layers do not compute all equivariant transposed
    convolutions: a transposed layer for P2 and signals on the trivial subgroup, with a
    kernel of one pixel, returns the same for both elements of P2. *)
Definition refined_args : conv_args Z :=
  mkConvArgs (ByName "P2") (Some "P1") (One 1) 1 None (Some (Some "valid")) None "channels_last" false false (fun v => v).
Definition refined_layer : result (conv_layer Z) :=
  test_layer 2 true refined_args [None; Some 1; Some 1; Some 1; Some 1] some_weights some_weights.
Definition two_filters : tensor Z := mkTensor [1; 1; 2; 1] [3; 5]%Z.

Lemma one_entry {B} (l : list B) : List.length l = 1 -> exists v, l = [v].
Proof. destruct l as [|v [|w l]]; cbn; intros Q; try discriminate Q. exists v. reflexivity. Qed.

Lemma no_layer_kernel L (K : tensor Z) : refined_layer = Ok L -> wf K -> shape K = [1; 1; 1; 1] -> transform_kernel (cl_gt L) K <> Ok two_filters.
Proof.
  intros EL WK SK Q. destruct K as [sh da]. cbn [shape] in SK. subst sh. unfold wf in WK. cbn [data shape] in WK.
  apply one_entry in WK as [v ->].
  assert (T : match refined_layer with Ok L => transform_kernel (cl_gt L) (mkTensor [1; 1; 1; 1] [v]) = Ok (mkTensor [1; 1; 2; 1] [v; v]) | Err _ => False end)
    by (vm_compute; reflexivity).
  rewrite EL in T. rewrite T in Q. unfold two_filters in Q. injection Q as -> Q. discriminate Q.
Qed.

Lemma two_filters_commute (x : tensor Z) : wf x -> shape x = [1; 1; 1; 1; 1] ->
  commutes_at (transforms_of_group_signal P2 2 "P1" "P1") (transforms_of_group_signal P2 2 "P1" "") (convolve_transposed true 2 1 1 2 1 two_filters) x.
Proof.
  intros WX SX gx y TX CX. destruct x as [sh da]. cbn [shape] in SX. subst sh. unfold wf in WX. cbn [data shape] in WX.
  apply one_entry in WX as [v ->].
  assert (T1 : transforms_of_group_signal P2 2 "P1" "P1" (mkTensor [1; 1; 1; 1; 1] [v]) = Ok (mkTensor [1; 1; 1; 1; 1; 1] [v])) by (vm_compute; reflexivity).
  rewrite T1 in TX. assert (EY : forall a b : tensor Z, Ok a = Ok b -> a = b) by congruence. apply EY in TX. subst gx. clear T1.
  assert (S1 : slice 0 0 (mkTensor [1; 1; 1; 1; 1; 1] [v]) = mkTensor [1; 1; 1; 1; 1] [v]) by (vm_compute; reflexivity).
  assert (SY : exists w w', y = mkTensor [1; 1; 1; 2; 1] [w; w']).
  { assert (Q : match convolve_transposed true 2 1 1 2 1 two_filters (mkTensor [1; 1; 1; 1; 1] [v]) with
                | Ok y => exists w w', y = mkTensor [1; 1; 1; 2; 1] [w; w'] | Err _ => False end)
      by (vm_compute; do 2 eexists; reflexivity).
    rewrite CX in Q. exact Q. }
  destruct SY as [w [w' ->]].
  assert (T2 : transforms_of_group_signal P2 2 "P1" "" (mkTensor [1; 1; 1; 2; 1] [w; w']) = Ok (mkTensor [1; 1; 1; 1; 2; 1] [w; w'])) by (vm_compute; reflexivity).
  exists (mkTensor [1; 1; 1; 1; 2; 1] [w; w']). split; [exact T2|]. split; [reflexivity|]. intros u U. change (u < 1) in U.
  assert (u = 0) as -> by lia. rewrite S1, CX. f_equal.
Qed.

Theorem C84_proper_subgroup_refuted :
  exists L, refined_layer = Ok L /\
  (forall x, wf x -> shape x = signal_shape true 1 [1; 1] 1 1 ->
     commutes_at (transforms_of_group_signal P2 2 "P1" "P1") (transforms_of_group_signal P2 2 "P1" "") (convolve_transposed true 2 1 1 2 1 two_filters) x) /\
  forall K, wf K -> shape K = [1; 1; 1; 1] -> transform_kernel (cl_gt L) K <> Ok two_filters.
Proof.
  assert (Q : match refined_layer with Ok _ => true | Err _ => false end = true) by (vm_compute; reflexivity).
  destruct refined_layer as [L|] eqn:EL; [|discriminate Q]. exists L. split; [reflexivity|]. split.
  - exact two_filters_commute.
  - intros K. apply no_layer_kernel. exact EL.
Qed.
Print Assumptions C84_proper_subgroup_refuted.

(** ** The four rotations of a kernel of 2x2 pixels *)

Definition spread_args : conv_args Z :=
  mkConvArgs (ByName "P4") (Some "") (One 2) 1 None (Some (Some "valid")) None "channels_last" false true (fun v => v).
Definition spread_layer (kinit : list nat -> Z) : result (conv_layer Z) :=
  test_layer 2 true spread_args [None; Some 3; Some 3; Some 1] kinit (fun _ => 5%Z).
Definition spread_rotations : tensor Z := read_as [2; 2; 4; 1] four_rotations.
Definition spread_exchanged : tensor Z := read_as [2; 2; 4; 1] two_exchanged.
Definition spreading_commutes (W : tensor Z) : Prop :=
  forall x, wf x -> shape x = [1; 1; 1; 1] ->
  commutes_at (transforms_of_grid_signal P4 2 "") (transforms_of_group_signal P4 2 "" "") (convolve_transposed false 2 1 1 4 1 W) x.

Lemma spread_kernels (W : tensor Z) : wf W -> shape W = [2; 2; 4; 1] ->
  exists L, spread_layer (at_ W) = Ok L /\
    (spreading_commutes W <-> exists K, wf K /\ shape K = [2; 2; 1; 1] /\ transform_kernel (cl_gt L) K = Ok W).
Proof.
  intros WW SW.
  assert (Q : match spread_layer (at_ W) with Ok _ => true | Err _ => false end = true) by (vm_compute; reflexivity).
  pose proof (test_layer_built 2 true spread_args [None; Some 3; Some 3; Some 1] (at_ W) (fun _ => 5%Z)) as TB. fold (spread_layer (at_ W)) in TB.
  destruct (spread_layer (at_ W)) as [L|]; [|discriminate Q]. exists L. split; [reflexivity|]. specialize (TB L eq_refl).
  assert (LF : layer_for "P4" P4 spread_args) by (split; [vm_compute; reflexivity|split; [left; reflexivity|reflexivity]]).
  assert (OP : option_of spread_args "VALID") by (exists "valid"; split; reflexivity).
  exact (C84_equivariant_transposed_kernels 1%Z neutral_Z "P4" P4 spread_args "" "VALID" false None [3; 3] 1 1 (at_ W) (fun _ => 5%Z) L [2; 2] [1; 1] [1; 1] W
    ltac:(intros u v w; cbn; lia) LF eq_refl OP ltac:(intros _; reflexivity) TB eq_refl ltac:(repeat split) WW SW).
Qed.

Example C84_case_kernels : spreading_commutes spread_rotations /\ ~ spreading_commutes spread_exchanged.
Proof.
  split.
  - destruct (spread_kernels spread_rotations eq_refl eq_refl) as [L [EL IFF]]. apply IFF. exists (mkTensor [2; 2; 1; 1] [1; 2; 3; 4]%Z).
    split; [reflexivity|]. split; [reflexivity|].
    assert (Q : match spread_layer (at_ spread_rotations) with Ok L => same_result (transform_kernel (cl_gt L) (mkTensor [2; 2; 1; 1] [1; 2; 3; 4]%Z)) (Ok spread_rotations) | Err _ => false end = true)
      by (vm_compute; reflexivity).
    rewrite EL in Q. destruct (transform_kernel (cl_gt L) _) as [W|]; [|discriminate Q]. f_equal. apply same_tensor_ok. exact Q.
  - destruct (spread_kernels spread_exchanged eq_refl eq_refl) as [L [EL IFF]]. intros C. apply IFF in C as [K [WK [SK C]]].
    destruct K as [sh da]. cbn [shape] in SK. subst sh. unfold wf in WK. cbn [data shape] in WK.
    destruct da as [|v1 [|v2 [|v3 [|v4 [|v5 da]]]]]; try discriminate WK. clear WK.
    assert (T : match spread_layer (at_ spread_exchanged) with
                | Ok L => exists t, transform_kernel (cl_gt L) (mkTensor [2; 2; 1; 1] [v1; v2; v3; v4]) = Ok t /\ nth 0 (data t) 0%Z = v1 /\ nth 1 (data t) 0%Z = v2
                | Err _ => False end) by (vm_compute; eexists; repeat split).
    rewrite EL in T. destruct T as [t [T [T1 T2]]]. rewrite C in T. assert (EY : forall a b : tensor Z, Ok a = Ok b -> a = b) by congruence. apply EY in T. subst t.
    assert (T4 : match spread_layer (at_ spread_exchanged) with
                | Ok L => exists t, transform_kernel (cl_gt L) (mkTensor [2; 2; 1; 1] [v1; v2; v3; v4]) = Ok t /\ nth 4 (data t) 0%Z = v2
                | Err _ => False end) by (vm_compute; eexists; repeat split).
    rewrite EL in T4. destruct T4 as [t [T4 T5]]. rewrite C in T4. apply EY in T4. subst t. vm_compute in T2, T5. congruence.
Qed.

(** Its layer, with bias 5, on one image of 2x2 pixels. *)
Example C84_case_values :
  match spread_layer (fun i => at_ (mkTensor [2; 2; 1; 1] [1; 2; 3; 4]%Z) i) with
  | Ok L => match apply L (some_signal [1; 2; 2; 1]), base_conv_call true "channels_last" [1; 1] [1; 1] "valid" 4 (fun v => v) spread_rotations
                    (Some (mkTensor [4] [5; 5; 5; 5]%Z)) (some_signal [1; 2; 2; 1]) with
            | Ok y, Ok z => Some (shape y, list_eqb Z.eqb (data y) (data z)) | _, _ => None end
  | Err _ => None end
  = Some ([1; 3; 3; 4; 1], true).
Proof. vm_compute. reflexivity. Qed.
