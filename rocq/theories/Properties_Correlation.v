(** C90: the layers compute the correlation on the symmetry group of the grid. *)
From Verif Require Import CorrelationFacts TranslationFacts ConvTheorems Properties_Shapes Properties_Conv EquivSpec.
Local Open Scope string_scope.
Local Open Scope list_scope.

Section Correlation.
Context {A : Type} {RA : Arith A}.

(** The output entry from the sum: bias and activation. *)
Definition finished (a : conv_args A) (binit : list nat -> A) (v : A) (oo : nat) : A :=
  ca_activation a (if ca_use_bias a then add v (binit [oo]) else v).

(** Position [I] of the input pixel and [P] of the output pixel relative to the centres of
    their images, in half pixels: I - s * P, or, in transposed layers, P - s * I. *)
Definition offset (transpose : bool) (m M s i p : list nat) : list Z :=
  if transpose then away (List.length m) M m s p i else away (List.length m) m M s i p.

(** Turning a vector back is the same as looking up a pixel in the transformed image. *)
Theorem C90_turning_back d e n i : is_symmetry d e -> List.length n = d -> fits e n -> inb n i ->
  turned_back e (map (fun ax => centred (nth ax n 0) (nth ax i 0)) (seq 0 d))
  = map (fun ax => centred (nth ax n 0) (nth ax (pixel e n i) 0)) (seq 0 d).
Proof.
  intros SY L F I. pose proof SY as [LE _]. apply nth_ext_Z; [rewrite length_turned_back, map_length, seq_length; exact LE|].
  intros a Ha. rewrite length_turned_back in Ha. rewrite nth_turned_back by exact Ha. rewrite (nth_axis_mapZ _ d a) by lia.
  rewrite nth_pixel by exact Ha. pose proof (is_symmetry_nth _ _ a SY ltac:(lia)) as X. specialize (F a ltac:(lia)).
  destruct (nth a e (0, false)) as [b r]. cbn [fst snd] in *. rewrite (nth_axis_mapZ _ d b) by exact X. rewrite F. unfold centred.
  pose proof (inb_nth _ _ b I ltac:(lia)) as IB. rewrite F in IB. destruct r; [|reflexivity].
  rewrite !Nat2Z.inj_sub by lia. change (Z.of_nat 1) with 1%Z. lia.
Qed.

(** The kernel as a function of the position: its values at its pixels, zero elsewhere. *)
Theorem C90_kernel_as_a_function (k dl : list nat) (K : list nat -> A) :
  (forall ax, ax < List.length k -> 0 < nth ax dl 0) ->
  (forall j, inb k j -> filter_at k dl K (map (fun ax => (Z.of_nat (nth ax dl 0%nat) * centred (nth ax k 0%nat) (nth ax j 0%nat))%Z) (seq 0 (List.length k))) = K j) /\
  (forall v, (forall j, inb k j -> map (fun ax => (Z.of_nat (nth ax dl 0%nat) * centred (nth ax k 0%nat) (nth ax j 0%nat))%Z) (seq 0 (List.length k)) <> v) ->
     filter_at k dl K v = zero).
Proof.
  intros P. split.
  - intros j J. exact (filter_at_pixel _ k dl K j eq_refl P J).
  - intros v H. exact (filter_at_elsewhere k dl K v H).
Qed.

Section Layers.
Context (EX : exact_arithmetic A).

Lemma conv_correlates name G (a : conv_args A) H idx opt (valued : bool) bs m g c kinit binit L k s dl m' x b y :
  layer_for name G a -> ca_subgroup a = Some H -> subgroup_indices G H idx -> option_of a opt ->
  (ca_allow a = false \/ In opt ["SAME_EQUIV"; "VALID_EQUIV"]) ->
  let d := dimension_of name in
  built d false a (static_signal_shape valued bs m g c) kinit binit L -> List.length m = d ->
  sizes d a k s dl -> respects name dl ->
  (In opt ["SAME"; "SAME_EQUIV"] -> forall ax, ax < d -> Nat.Odd (nth ax k 0) \/ Nat.Odd (nth ax dl 0)) ->
  List.length m' = d -> (forall ax, ax < d -> nth ax m 0 mod nth ax s 0 = nth ax m' 0 mod nth ax s 0) ->
  wf x -> shape x = signal_shape valued b m' g c -> apply L x = Ok y ->
  (valued = true -> g = List.length (symmetries_of name)) /\
  exists M, List.length M = d /\ shape y = b :: M ++ [List.length idx; ca_filters a] /\
  forall bi p h oo, inb (shape y) (bi :: p ++ [h; oo]) ->
  let e := nth h idx 0 in
  at_ y (bi :: p ++ [h; oo])
  = finished a binit
      (sum (map (fun i => sum (map (fun q => mul (merged_fun valued x c bi i q)
         (filter_at k dl (fun j => at_ (read_as (k ++ [if valued then g * c else c; ca_filters a]) (initial_kernel false k (if valued then g * c else c) (ca_filters a) kinit)) (j ++ [kernel_channel G valued c e q; oo]))
            (turned_back (nth e (symmetries_of name) []) (offset false m' M s i p)))) (seq 0 (if valued then g * c else c)))) (indices m'))) oo.
Proof.
  intros LF HS SI OP AL d B Lm SZ RD DF Lm' CO W SH CA.
  destruct (built_facts name G a H opt false valued bs m g c kinit binit L k s dl LF HS OP B Lm SZ)
    as [OK [eb [ea [act [dom [WO [SA [SD [CF [CC _]]]]]]]]]]. fold d in OK, WO, SA, SD, CF.
  assert (act = idx) as -> by (unfold sub_idx, subgroup_indices in *; congruence).
  set (E := symmetries_of name) in *. set (eq := needs_equal_sizes name) in *.
  assert (DO : valued = true -> dom = seq 0 (List.length E) /\ g = List.length E).
  { intros V. destruct (SD V) as [D1 D2]. pose proof (sub_idx_whole _ _ _ _ OK) as WH.
    assert (dom = seq 0 (List.length E)) as -> by (unfold sub_idx in *; congruence). rewrite seq_length in D2. split; [reflexivity|exact D2]. }
  split; [intros V; exact (proj2 (DO V))|].
  set (C := if valued then g * c else c) in *. set (o := ca_filters a) in *. set (same := is_same opt) in *.
  destruct (sub_idx_facts _ _ _ _ OK _ _ SA) as [_ [Bi _]].
  pose proof (merged_input d valued x b m' g c W Lm' SH) as MG. change (if valued then g * c else c) with C in MG.
  rewrite (layer_form G d E eq OK false valued idx dom c C o k s dl eb ea same (ca_use_bias a) (ca_activation a) kinit binit L x b m' g _ CF CC Lm' SH MG) in CA.
  pose proof (length_layer_outs G d E eq false valued idx dom c C o k s dl eb ea same (ca_use_bias a) (ca_activation a) kinit binit L m' CF Lm') as LO.
  destruct (layer_runs false k s dl eb ea same m') eqn:RUN; [|discriminate CA].
  assert (EO : forall u v : tensor A, Ok u = Ok v -> u = v) by congruence. apply EO in CA. subst y.
  set (M := layer_outs false k s dl eb ea same m') in *.
  exists M. split; [exact LO|]. rewrite shape_tab. split; [reflexivity|]. intros bi p h oo I e.
  rewrite at_tab by exact I. destruct (inb4_parts _ _ _ _ _ _ _ _ I) as [Bb [P [Hh O]]]. pose proof (inb_length _ _ P) as LP.
  rewrite sig4_ix by lia. refine (f_equal (fun v => finished a binit v oo) _).
  pose proof LF as [DG [AG AF]]. pose proof SZ as [SK [SS SDl]]. destruct (std_pos d _ _ SDl) as [Ldl Pdl].
  assert (ONE : forall q, q < d -> nth q s 0 = 1 \/ nth q dl 0 = 1).
  { destruct B as [L0 [IN _]]. destruct OP as [p0 [PN UP]].
    destruct (conv_init_inv G d name false a L0 DG AG AF IN) as [p' [k' [s' [dl' [Hn [_ [_ [SS' [SD' [_ [_ [_ [_ [MM _]]]]]]]]]]]]]].
    unfold strides_of in SS'. rewrite SS in SS'. injection SS' as <-. unfold dilation_of in SD'. rewrite SDl in SD'. injection SD' as <-.
    exact (one_of_them d a s dl SS SDl MM). }
  assert (PA : is_plain opt && ca_allow a = false).
  { destruct AL as [-> |AL]; [apply andb_false_r|]. cbn [In] in AL. destruct AL as [<-|[<-|[]]]; reflexivity. }
  assert (DF' : dilation_fine d same k dl).
  { intros S ax Hax. apply DF; [|exact Hax]. apply mem_str_In. exact S. }
  assert (Fk : kernel_fits eq k) by (destruct CF; assumption). assert (Lk : List.length k = d) by (destruct CF; assumption).
  assert (Ls : List.length s = d) by (destruct CF; assumption).
  assert (Ps : forall ax, ax < d -> 0 < nth ax s 0) by (destruct CF; assumption). assert (Pk : forall ax, ax < d -> 0 < nth ax k 0) by (destruct CF; assumption).
  apply (widths_mod d _ _ _ _ m m' k s eb ea Ps CO) in WO.
  assert (He : e < List.length E) by (apply Bi, nth_In; exact Hh).
  unfold layer_runs in RUN. unfold M, layer_outs in P. set (ke := vzip dilated k dl) in *. set (m1 := padded eb m' ea) in *.
  set (pads := builtin_pads (padding_string same) m1 ke s) in *. set (m2 := padded (map fst pads) m1 (map snd pads)) in *.
  assert (LB : List.length eb = d) by (destruct CF; assumption). assert (LA : List.length ea = d) by (destruct CF; assumption).
  assert (Lke : List.length ke = d) by (unfold ke; rewrite length_vzip; lia).
  assert (L1 : List.length m1 = d) by (apply length_padded; assumption).
  assert (L2 : List.length m2 = d) by (apply length_padded; rewrite ?map_length; try assumption; apply length_builtin; assumption).
  pose proof (forallb_combine_le ke m2 d Lke L2 RUN) as LE.
  assert (MI : forall ax, ax < d -> mirrored m' k M s dl (vzip Nat.add eb (map fst pads)) ax).
  { intros q Hq. exact (mirrored_built d (is_plain opt) (ca_allow a) same m' k s dl eb ea WO PA Lm' Lk Ls Ldl Pk Ps Pdl ONE DF' q Hq (LE q Hq)). }
  unfold layer_value, layer_in, layer_term. unfold offset. rewrite Lm'.
  assert (DO' : valued = true -> dom = seq 0 (List.length E) /\ C = List.length E * c).
  { intros V. destruct (DO V) as [D1 D2]. split; [exact D1|]. unfold C. rewrite V, D2. reflexivity. }
  apply (window_correlation EX d _ cterm k C dl (merged_fun valued x c bi) _
           (fun j q => at_ (read_as (k ++ [C; o]) (initial_kernel false k C o kinit)) (j ++ [q; oo]))
           (nth e E []) m' p (h * o + oo) (kernel_channel G valued c e) (fun i => away d m' M s i p)).
  - left. reflexivity.
  - exact Lk.
  - apply (ok_sym _ _ _ _ OK). exact He.
  - exact (fits_of G d E eq OK k e Fk Lk He).
  - exact (fits_of G d E eq OK dl e RD Ldl He).
  - exact Pdl.
  - intros i _. apply length_away.
  - intros j i J. unfold layer_src. exact (csrc_away d m' k M s dl _ p j i Lm' Lk MI LO P J).
  - intros j q J Q. exact (kval_filter G d E eq OK valued dom idx c C o k _ h oo j q DO' Bi Hh O Q).
Qed.

(** Lifting layers: the input is a signal on the grid.  [M]: sizes of the output. *)
Theorem C90_lifting_convolution name G (a : conv_args A) H idx opt bs m c kinit binit L k s dl m' x b y :
  layer_for name G a -> ca_subgroup a = Some H -> subgroup_indices G H idx -> option_of a opt ->
  (ca_allow a = false \/ In opt ["SAME_EQUIV"; "VALID_EQUIV"]) ->
  let d := dimension_of name in
  let o := ca_filters a in
  built d false a (bs :: map Some m ++ [Some c]) kinit binit L -> List.length m = d ->
  sizes d a k s dl -> respects name dl ->
  (In opt ["SAME"; "SAME_EQUIV"] -> forall ax, ax < d -> Nat.Odd (nth ax k 0) \/ Nat.Odd (nth ax dl 0)) ->
  List.length m' = d -> (forall ax, ax < d -> nth ax m 0 mod nth ax s 0 = nth ax m' 0 mod nth ax s 0) ->
  wf x -> shape x = b :: m' ++ [c] -> apply L x = Ok y ->
  exists M, List.length M = d /\ shape y = b :: M ++ [List.length idx; o] /\
  forall bi p h oo, inb (shape y) (bi :: p ++ [h; oo]) ->
  let e := nth h idx 0 in
  at_ y (bi :: p ++ [h; oo])
  = finished a binit
      (sum (map (fun i => sum (map (fun q =>
         mul (at_ x (bi :: i ++ [q]))
             (filter_at k dl (fun j => at_ (initial_kernel false k c o kinit) (j ++ [q; oo]))
                (turned_back (nth e (symmetries_of name) []) (offset false m' M s i p)))) (seq 0 c))) (indices m'))) oo.
Proof.
  intros LF HS SI OP AL d o B Lm SZ RD DF Lm' CO W SH CA.
  destruct (conv_correlates name G a H idx opt false bs m 0 c kinit binit L k s dl m' x b y LF HS SI OP AL B Lm SZ RD DF Lm' CO W SH CA)
    as [_ R]. exact R.
Qed.

(** Layers on group signals: also summed over the elements [g] of the group. *)
Theorem C90_group_convolution name G (a : conv_args A) H idx opt bs m g c kinit binit L k s dl m' x b y :
  layer_for name G a -> ca_subgroup a = Some H -> subgroup_indices G H idx -> option_of a opt ->
  (ca_allow a = false \/ In opt ["SAME_EQUIV"; "VALID_EQUIV"]) ->
  let d := dimension_of name in
  let o := ca_filters a in
  built d false a (bs :: map Some m ++ [Some g; Some c]) kinit binit L -> List.length m = d ->
  sizes d a k s dl -> respects name dl ->
  (In opt ["SAME"; "SAME_EQUIV"] -> forall ax, ax < d -> Nat.Odd (nth ax k 0) \/ Nat.Odd (nth ax dl 0)) ->
  List.length m' = d -> (forall ax, ax < d -> nth ax m 0 mod nth ax s 0 = nth ax m' 0 mod nth ax s 0) ->
  wf x -> shape x = b :: m' ++ [g; c] -> apply L x = Ok y ->
  g = List.length (symmetries_of name) /\
  exists M, List.length M = d /\ shape y = b :: M ++ [List.length idx; o] /\
  forall bi p h oo, inb (shape y) (bi :: p ++ [h; oo]) ->
  let e := nth h idx 0 in
  at_ y (bi :: p ++ [h; oo])
  = finished a binit
      (sum (map (fun i => sum (map (fun u => sum (map (fun q =>
         mul (at_ x (bi :: i ++ [u; q]))
             (filter_at k dl (fun j => at_ (initial_kernel false k (g * c) o kinit) (j ++ [comp G (inv G e) u * c + q; oo]))
                (turned_back (nth e (symmetries_of name) []) (offset false m' M s i p)))) (seq 0 c))) (seq 0 g))) (indices m'))) oo.
Proof.
  intros LF HS SI OP AL d o B Lm SZ RD DF Lm' CO W SH CA.
  destruct (conv_correlates name G a H idx opt true bs m g c kinit binit L k s dl m' x b y LF HS SI OP AL B Lm SZ RD DF Lm' CO W SH CA)
    as [GE [M [LM [SY R]]]]. split; [exact (GE eq_refl)|]. exists M. split; [exact LM|]. split; [exact SY|].
  intros bi p h oo I e. etransitivity; [exact (R bi p h oo I)|]. f_equal. apply sum_ext. intros i II.
  rewrite (sum_two_axes EX). apply sum_ext. intros u U. apply sum_ext. intros q Q. apply in_seq in Q.
  unfold kernel_channel, merged_fun. destruct (split_ok c u q ltac:(lia)) as [-> ->]. reflexivity.
Qed.

Lemma transpose_correlates name G (a : conv_args A) H opt (valued : bool) bs m g c kinit binit L k s x b :
  layer_for name G a -> ca_subgroup a = Some H -> (valued = true -> subgroup_indices G H (seq 0 (List.length (symmetries_of name)))) -> option_of a opt ->
  let d := dimension_of name in
  built d true a (static_signal_shape valued bs m g c) kinit binit L -> List.length m = d ->
  sizes d a k s (repeat 1 d) -> regular_transposed d opt m k s ->
  wf x -> shape x = signal_shape valued b m g c ->
  (valued = true -> g = List.length (symmetries_of name)) /\
  exists y M, apply L x = Ok y /\ List.length M = d /\ shape y = b :: M ++ [List.length (symmetries_of name); ca_filters a] /\
  forall bi p h oo, inb (shape y) (bi :: p ++ [h; oo]) ->
  at_ y (bi :: p ++ [h; oo])
  = finished a binit
      (sum (map (fun i => sum (map (fun q => mul (merged_fun valued x c bi i q)
         (filter_at k (repeat 1 d) (fun j => at_ (read_as (k ++ [if valued then g * c else c; ca_filters a]) (initial_kernel true k (if valued then g * c else c) (ca_filters a) kinit)) (j ++ [kernel_channel G valued c h q; oo]))
            (turned_back (nth h (symmetries_of name) []) (offset true m M s i p)))) (seq 0 (if valued then g * c else c)))) (indices m))) oo.
Proof.
  intros LF HS SI OP d B Lm SZ RT W SH.
  destruct (built_facts name G a H opt true valued bs m g c kinit binit L k s (repeat 1 d) LF HS OP B Lm SZ)
    as [OK [eb [ea [act [dom [WO [SA [SD [CF [CC _]]]]]]]]]]. fold d in OK, WO, SA, SD, CF.
  set (E := symmetries_of name) in *. set (eq := needs_equal_sizes name) in *.
  pose proof (sub_idx_whole _ _ _ _ OK) as WH. assert (act = seq 0 (List.length E)) as -> by (unfold sub_idx in *; congruence).
  assert (DO : valued = true -> dom = seq 0 (List.length E) /\ g = List.length E).
  { intros V. destruct (SD V) as [D1 D2]. specialize (SI V).
    assert (dom = seq 0 (List.length E)) as -> by (unfold sub_idx, subgroup_indices in *; congruence). rewrite seq_length in D2. split; [reflexivity|exact D2]. }
  split; [intros V; exact (proj2 (DO V))|].
  set (C := if valued then g * c else c) in *. set (o := ca_filters a) in *. set (same := is_same opt) in *.
  destruct (sub_idx_facts _ _ _ _ OK _ _ WH) as [_ [Bi _]].
  pose proof (merged_input d valued x b m g c W Lm SH) as MG. change (if valued then g * c else c) with C in MG.
  rewrite (layer_form G d E eq OK true valued (seq 0 (List.length E)) dom c C o k s (repeat 1 d) eb ea same (ca_use_bias a) (ca_activation a) kinit binit L x b m g _ CF CC Lm SH MG).
  pose proof (length_layer_outs G d E eq true valued (seq 0 (List.length E)) dom c C o k s (repeat 1 d) eb ea same (ca_use_bias a) (ca_activation a) kinit binit L m CF Lm) as LO.
  change (layer_runs true k s (repeat 1 d) eb ea same m) with true. cbv iota.
  set (M := layer_outs true k s (repeat 1 d) eb ea same m) in *. rewrite seq_length.
  eexists. exists M. split; [reflexivity|]. split; [exact LO|]. rewrite shape_tab. split; [reflexivity|]. intros bi p h oo I.
  rewrite at_tab by exact I. destruct (inb4_parts _ _ _ _ _ _ _ _ I) as [Bb [P [Hh O]]]. pose proof (inb_length _ _ P) as LP.
  rewrite sig4_ix by lia. refine (f_equal (fun v => finished a binit v oo) _).
  assert (TO : transpose_ok d (is_plain opt) same m k s).
  { intros ax Hax. destruct (RT ax Hax) as [R1 [R2 [R3 R4]]]. split; [exact R1|]. split; [exact R2|]. intros S.
    unfold same, is_same in S. apply mem_str_In in S. split; [apply R3; exact S|].
    cbn [In] in S. destruct S as [<-|[<-|[]]]; [left; reflexivity|right; apply R4; reflexivity]. }
  assert (Fk : kernel_fits eq k) by (destruct CF; assumption). assert (Lk : List.length k = d) by (destruct CF; assumption).
  assert (Ls : List.length s = d) by (destruct CF; assumption).
  assert (Ps : forall ax, ax < d -> 0 < nth ax s 0) by (destruct CF; assumption). assert (Pk : forall ax, ax < d -> 0 < nth ax k 0) by (destruct CF; assumption).
  destruct (transpose_regular d _ _ _ m k s eb ea WO TO Lm Lk Ls Pk Ps) as [EE MI]. subst ea. fold same in MI.
  assert (LB : List.length eb = d) by (destruct CF; assumption).
  set (m1 := padded eb m eb) in *. assert (L1 : List.length m1 = d) by (apply length_padded; assumption).
  assert (P1 : forall ax, ax < d -> 0 < nth ax (repeat 1 d) 0) by (intros ax Hax; rewrite nth_ones by exact Hax; lia).
  assert (F1 : kernel_fits eq (repeat 1 d)) by (intros _ u v U V; apply repeat_spec in U, V; congruence).
  unfold layer_value, layer_in, layer_term. unfold offset. rewrite Lm.
  assert (DO' : valued = true -> dom = seq 0 (List.length E) /\ C = List.length E * c).
  { intros V. destruct (DO V) as [D1 D2]. split; [exact D1|]. unfold C. rewrite V, D2. reflexivity. }
  assert (MM : M = touts (padding_string same) m1 k s) by (unfold M, layer_outs; fold m1; rewrite (undilate d) by assumption; reflexivity).
  etransitivity; [apply (window_correlation EX d _ tterm k C (repeat 1 d) (bordered eb m (merged_fun valued x c) bi) _
           (fun j q => at_ (read_as (k ++ [C; o]) (initial_kernel true k C o kinit)) (j ++ [q; oo]))
           (nth h E []) m1 p (h * o + oo) (kernel_channel G valued c h) (fun i => away d M m1 s p i))|].
  - right. reflexivity.
  - exact Lk.
  - apply (ok_sym _ _ _ _ OK). exact Hh.
  - exact (fits_of G d E eq OK k h Fk Lk Hh).
  - exact (fits_of G d E eq OK (repeat 1 d) h F1 (repeat_length _ _) Hh).
  - exact P1.
  - intros i _. apply length_away.
  - intros j i J. unfold layer_src. fold m1. rewrite (undilate d) by assumption.
    refine (tsrc_away d m1 k M s (repeat 1 d) _ p j i L1 Lk Ps _ LO P J). intros ax Hax. rewrite MM. apply MI. exact Hax.
  - intros j q J Q. rewrite (kval_filter G d E eq OK valued dom (seq 0 (List.length E)) c C o k _ h oo j q DO' Bi) by (rewrite ?seq_length; assumption).
    rewrite nth_seq0 by exact Hh. reflexivity.
  - unfold m1. rewrite (sum_bordered EX d m eb (merged_fun valued x c) bi C
      (fun i q => filter_at k (repeat 1 d) (fun j => at_ (read_as (k ++ [C; o]) (initial_kernel true k C o kinit)) (j ++ [kernel_channel G valued c h q; oo]))
            (turned_back (nth h E []) (away d M (padded eb m eb) s p i))) Lm LB).
    apply sum_ext. intros i II. apply In_indices in II. apply sum_ext. intros q _. rewrite away_bordered by assumption. reflexivity.
Qed.

(** Transposed layers; their kernels, of shape (k, filters, channels), are read in that
    order as kernels of shape (k, channels, filters).  Grid signals, any subgroup (which
    plays no role). *)
Theorem C90_transposed_lifting_convolution name G (a : conv_args A) H opt bs m c kinit binit L k s x b :
  layer_for name G a -> ca_subgroup a = Some H -> option_of a opt ->
  let d := dimension_of name in
  let o := ca_filters a in
  built d true a (bs :: map Some m ++ [Some c]) kinit binit L -> List.length m = d ->
  sizes d a k s (repeat 1 d) -> regular_transposed d opt m k s ->
  wf x -> shape x = b :: m ++ [c] ->
  exists y M, apply L x = Ok y /\ List.length M = d /\ shape y = b :: M ++ [List.length (symmetries_of name); o] /\
  forall bi p h oo, inb (shape y) (bi :: p ++ [h; oo]) ->
  at_ y (bi :: p ++ [h; oo])
  = finished a binit
      (sum (map (fun i => sum (map (fun q =>
         mul (at_ x (bi :: i ++ [q]))
             (filter_at k (repeat 1 d) (fun j => at_ (read_as (k ++ [c; o]) (initial_kernel true k c o kinit)) (j ++ [q; oo]))
                (turned_back (nth h (symmetries_of name) []) (offset true m M s i p)))) (seq 0 c))) (indices m))) oo.
Proof.
  intros LF HS OP d o B Lm SZ RT W SH.
  destruct (transpose_correlates name G a H opt false bs m 0 c kinit binit L k s x b LF HS ltac:(discriminate) OP B Lm SZ RT W SH) as [_ R]. exact R.
Qed.

(** Group signals, on the whole group. *)
Theorem C90_transposed_group_convolution name G (a : conv_args A) H opt bs m g c kinit binit L k s x b :
  layer_for name G a -> ca_subgroup a = Some H -> subgroup_indices G H (seq 0 (List.length (symmetries_of name))) -> option_of a opt ->
  let d := dimension_of name in
  let o := ca_filters a in
  built d true a (bs :: map Some m ++ [Some g; Some c]) kinit binit L -> List.length m = d ->
  sizes d a k s (repeat 1 d) -> regular_transposed d opt m k s ->
  wf x -> shape x = b :: m ++ [g; c] ->
  g = List.length (symmetries_of name) /\
  exists y M, apply L x = Ok y /\ List.length M = d /\ shape y = b :: M ++ [List.length (symmetries_of name); o] /\
  forall bi p h oo, inb (shape y) (bi :: p ++ [h; oo]) ->
  at_ y (bi :: p ++ [h; oo])
  = finished a binit
      (sum (map (fun i => sum (map (fun u => sum (map (fun q =>
         mul (at_ x (bi :: i ++ [u; q]))
             (filter_at k (repeat 1 d) (fun j => at_ (read_as (k ++ [g * c; o]) (initial_kernel true k (g * c) o kinit)) (j ++ [comp G (inv G h) u * c + q; oo]))
                (turned_back (nth h (symmetries_of name) []) (offset true m M s i p)))) (seq 0 c))) (seq 0 g))) (indices m))) oo.
Proof.
  intros LF HS SI OP d o B Lm SZ RT W SH.
  destruct (transpose_correlates name G a H opt true bs m g c kinit binit L k s x b LF HS (fun _ => SI) OP B Lm SZ RT W SH) as [GE [y [M [CA [LM [SY R]]]]]].
  split; [exact (GE eq_refl)|]. exists y, M. split; [exact CA|]. split; [exact LM|]. split; [exact SY|].
  intros bi p h oo I. etransitivity; [exact (R bi p h oo I)|]. f_equal. apply sum_ext. intros i II.
  rewrite (sum_two_axes EX). apply sum_ext. intros u U. apply sum_ext. intros q Q. apply in_seq in Q.
  unfold kernel_channel, merged_fun. destruct (split_ok c u q ltac:(lia)) as [-> ->]. reflexivity.
Qed.

(** The response to a single nonzero entry [v] shows the filter. *)
Theorem C90_impulse_response name G (a : conv_args A) H idx opt bs m g c kinit binit L k s dl m' x b y b0 i0 u0 q0 v :
  layer_for name G a -> ca_subgroup a = Some H -> subgroup_indices G H idx -> option_of a opt ->
  (ca_allow a = false \/ In opt ["SAME_EQUIV"; "VALID_EQUIV"]) ->
  let d := dimension_of name in
  let o := ca_filters a in
  built d false a (bs :: map Some m ++ [Some g; Some c]) kinit binit L -> List.length m = d ->
  sizes d a k s dl -> respects name dl ->
  (In opt ["SAME"; "SAME_EQUIV"] -> forall ax, ax < d -> Nat.Odd (nth ax k 0) \/ Nat.Odd (nth ax dl 0)) ->
  List.length m' = d -> (forall ax, ax < d -> nth ax m 0 mod nth ax s 0 = nth ax m' 0 mod nth ax s 0) ->
  wf x -> shape x = b :: m' ++ [g; c] -> inb (shape x) (b0 :: i0 ++ [u0; q0]) ->
  (forall j, inb (shape x) j -> at_ x j = if list_eqb Nat.eqb j (b0 :: i0 ++ [u0; q0]) then v else zero) ->
  apply L x = Ok y ->
  exists M, List.length M = d /\ shape y = b :: M ++ [List.length idx; o] /\
  forall bi p h oo, inb (shape y) (bi :: p ++ [h; oo]) ->
  let e := nth h idx 0 in
  at_ y (bi :: p ++ [h; oo])
  = finished a binit
      (if (bi =? b0)%nat
       then mul v (filter_at k dl (fun j => at_ (initial_kernel false k (g * c) o kinit) (j ++ [comp G (inv G e) u0 * c + q0; oo]))
                     (turned_back (nth e (symmetries_of name) []) (offset false m' M s i0 p)))
       else zero) oo.
Proof.
  intros LF HS SI OP AL d o B Lm SZ RD DF Lm' CO W SH I0 XV CA.
  destruct (C90_group_convolution name G a H idx opt bs m g c kinit binit L k s dl m' x b y LF HS SI OP AL B Lm SZ RD DF Lm' CO W SH CA)
    as [_ [M [LM [SY R]]]]. exists M. split; [exact LM|]. split; [exact SY|]. intros bi p h oo I e.
  etransitivity; [exact (R bi p h oo I)|]. f_equal.
  rewrite SY in I. destruct (inb4_parts _ _ _ _ _ _ _ _ I) as [Bb [P [Hh O]]].
  rewrite SH in I0. destruct (inb4_parts _ _ _ _ _ _ _ _ I0) as [Bb0 [II0 [U0 Q0]]].
  assert (AT : forall i u q, inb m' i -> u < g -> q < c ->
     at_ x (bi :: i ++ [u; q]) = if (bi =? b0)%nat && list_eqb Nat.eqb i i0 && (u =? u0)%nat && (q =? q0)%nat then v else zero).
  { intros i u q Ii U Q. rewrite XV.
    - pose proof (inb_length _ _ Ii) as LI. pose proof (inb_length _ _ II0) as LI0.
      assert (EQ : list_eqb Nat.eqb (bi :: i ++ [u; q]) (b0 :: i0 ++ [u0; q0]) = (bi =? b0)%nat && list_eqb Nat.eqb i i0 && (u =? u0)%nat && (q =? q0)%nat);
        [|rewrite EQ; reflexivity].
      apply eq_true_iff_eq. rewrite (list_eqb_eq _ Nat.eqb_eq). rewrite !andb_true_iff, !Nat.eqb_eq, (list_eqb_eq _ Nat.eqb_eq).
      split; [|intros [[[-> ->] ->] ->]; reflexivity]. intros Q'. injection Q' as -> Q'.
      change (i ++ [u; q]) with (i ++ ([u] ++ [q])) in Q'. change (i0 ++ [u0; q0]) with (i0 ++ ([u0] ++ [q0])) in Q'. rewrite !app_assoc in Q'.
      apply app_inj_tail in Q' as [Q' ->]. apply app_inj_tail in Q' as [-> ->]. repeat split; reflexivity.
    - rewrite SH. apply inb_cons. split; [exact Bb|]. apply inb_app; [exact Ii|]. apply inb_cons. split; [exact U|]. apply inb_cons. split; [exact Q|apply inb_nil]. }
  destruct (Nat.eqb_spec bi b0) as [-> |NB].
  - rewrite (sum_only EX (indices m') _ i0).
    + rewrite (sum_only EX (seq 0 g) _ u0).
      * rewrite (sum_only EX (seq 0 c) _ q0).
        -- rewrite AT by assumption. rewrite (proj2 (list_eqb_eq _ Nat.eqb_eq i0 i0) eq_refl), !Nat.eqb_refl. reflexivity.
        -- apply seq_NoDup.
        -- apply in_seq. lia.
        -- intros q Q NE. apply in_seq in Q. rewrite AT by (assumption || lia). rewrite (proj2 (Nat.eqb_neq q q0) NE), andb_false_r. apply (ar_mzero EX).
      * apply seq_NoDup.
      * apply in_seq. lia.
      * intros u U NE. apply in_seq in U. apply (sum_nothing EX). intros q Q. apply in_seq in Q. rewrite AT by (assumption || lia).
        rewrite (proj2 (Nat.eqb_neq u u0) NE), andb_false_r. apply (ar_mzero EX).
    + apply NoDup_indices.
    + apply In_indices. exact II0.
    + intros i Ii NE. apply In_indices in Ii. apply (sum_nothing EX). intros u U. apply in_seq in U. apply (sum_nothing EX). intros q Q. apply in_seq in Q.
      rewrite AT by (assumption || lia). destruct (list_eqb Nat.eqb i i0) eqn:QI; [apply (list_eqb_eq _ Nat.eqb_eq) in QI; congruence|].
      rewrite andb_false_r. apply (ar_mzero EX).
  - apply (sum_nothing EX). intros i Ii. apply In_indices in Ii. apply (sum_nothing EX). intros u U. apply in_seq in U. apply (sum_nothing EX). intros q Q.
    apply in_seq in Q. rewrite AT by (assumption || lia). cbn [andb]. apply (ar_mzero EX).
Qed.

End Layers.
End Correlation.

Print Assumptions C90_turning_back.
Print Assumptions C90_kernel_as_a_function.
Print Assumptions C90_lifting_convolution.
Print Assumptions C90_group_convolution.
Print Assumptions C90_impulse_response.
Print Assumptions C90_transposed_lifting_convolution.
Print Assumptions C90_transposed_group_convolution.

(** The output of a layer on integers, compared with the formula: group signals. *)
Definition correlation_case (name : string) (G : group) (idx : list nat) (a : conv_args Z) (m k s dl : list nat) (c : nat) : bool :=
  let g := List.length (symmetries_of name) in
  let x := some_signal (2 :: m ++ [g; c]) in
  match test_layer (dimension_of name) false a (None :: map Some m ++ [Some g; Some c]) some_weights some_weights with
  | Ok L => match apply L x with
    | Ok y =>
        let d := dimension_of name in
        let M := firstn d (tl (shape y)) in
        same_tensor y (tab (2 :: M ++ [List.length idx; ca_filters a]) (fun ix =>
          let bi := nth 0 ix 0 in let p := firstn d (tl ix) in let e := nth (nth (d + 1) ix 0) idx 0 in let oo := nth (d + 2) ix 0 in
          finished a some_weights
            (sum (map (fun i => sum (map (fun u => sum (map (fun q =>
               mul (at_ x (bi :: i ++ [u; q]))
                   (filter_at k dl (fun j => at_ (initial_kernel false k (g * c) (ca_filters a) some_weights) (j ++ [comp G (inv G e) u * c + q; oo]))
                      (turned_back (nth e (symmetries_of name) []) (offset false m M s i p)))) (seq 0 c))) (seq 0 g))) (indices m))) oo))
    | Err _ => false
    end
  | Err _ => false
  end.

(** P4 on a rectangular image with stride 2, and its subgroup P2 with dilation rate 2. *)
Example C90_case_stride :
  correlation_case "P4" P4 [0; 1; 2; 3] (with_group "P4" "" (One 3) 1 (Some (One 2)) (Some (Some "same_equiv")) None true) [5; 3] [3; 3] [2; 2] [1; 1] 2 = true.
Proof. vm_compute. reflexivity. Qed.
Example C90_case_dilation :
  correlation_case "P4" P4 [0; 2] (with_group "P4" "P2" (One 2) 2 None (Some (Some "valid_equiv")) (Some (One 2)) true) [4; 5] [2; 2] [1; 1] [2; 2] 1 = true.
Proof. vm_compute. reflexivity. Qed.

(** The formula asks for windows that are placed symmetrically: it fails for a layer that
    [allow_non_equivariance] lets through. *)
Theorem C90_plain_padding_refuted :
  let a := mkConvArgs (ByName "P2") (Some "") (One 2) 1 None (Some (Some "same")) None "channels_last" true true (fun z : Z => z) in
  (exists L y, built 2 false a [None; Some 4; Some 4; Some 2; Some 1] some_weights some_weights L /\ apply L (some_signal [2; 4; 4; 2; 1]) = Ok y) /\
  correlation_case "P2" P2 [0; 1] a [4; 4] [2; 2] [1; 1] [1; 1] 1 = false.
Proof.
  intros a. split; [|vm_compute; reflexivity].
  destruct (test_layer 2 false a [None; Some 4; Some 4; Some 2; Some 1] some_weights some_weights) as [L|] eqn:T; [|vm_compute in T; discriminate T].
  exists L. destruct (apply L (some_signal [2; 4; 4; 2; 1])) as [y|] eqn:AP.
  - exists y. split; [apply test_layer_built; exact T|reflexivity].
  - exfalso. assert (CH : match test_layer 2 false a [None; Some 4; Some 4; Some 2; Some 1] some_weights some_weights with
      | Ok L => match apply L (some_signal [2; 4; 4; 2; 1]) with Ok _ => true | Err _ => false end | Err _ => false end = true) by (vm_compute; reflexivity).
    rewrite T, AP in CH. discriminate CH.
Qed.
Print Assumptions C90_plain_padding_refuted.
