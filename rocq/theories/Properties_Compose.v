(** C96: two layers without a nonlinearity in between are one layer. *)
From Verif Require Import ComposeFacts ExactFacts CorrelationFacts TranslationFacts ConvTheorems Properties_Shapes Properties_TransposedComplete Properties_Build Properties_Linear Properties_Correlation EquivSpec.
Local Open Scope string_scope.
Local Open Scope list_scope.

(** Nothing is padded: 'valid', or 'valid_equiv' with strides of 1. *)
Definition without_padding (opt : string) (s : list nat) : Prop := opt = "VALID" \/ (opt = "VALID_EQUIV" /\ forall v, In v s -> v = 1).

Lemma without_padding_widths opt s allow d m k eb ea : without_padding opt s -> List.length s = d ->
  widths_ok (is_plain opt) allow (is_same opt) false d m k s eb ea -> is_same opt = false /\ eb = zeros_of d /\ ea = zeros_of d.
Proof.
  intros WP Ls [L1 [L2 W]]. assert (SM : is_same opt = false) by (destruct WP as [-> |[-> _]]; reflexivity). split; [exact SM|]. rewrite SM in W.
  destruct W as [[_ [-> ->]]|[_ W]]; [split; reflexivity|].
  assert (Z : forall ax, ax < d -> nth ax eb 0 + nth ax ea 0 = 0).
  { intros ax Hax. destruct (W ax Hax) as [E0 [_ [_ [_ P]]]]. destruct WP as [-> |[-> S1]]; [apply P; reflexivity|].
    cbv zeta in E0. rewrite E0. rewrite (S1 (nth ax s 0)) by (apply nth_In; lia). apply nextra_unit. exists 0. reflexivity. }
  assert (ZL : forall l, List.length l = d -> (forall ax, ax < d -> nth ax l 0 = 0) -> l = zeros_of d).
  { intros l L H. apply nth_ext0; [unfold zeros_of; rewrite repeat_length; exact L|]. intros ax Hax. rewrite nth_zeros. apply H. lia. }
  split; apply ZL; try assumption; intros ax Hax; specialize (Z ax Hax); lia.
Qed.

Section Plain.
Context {A : Type} {RA : Arith A}.
Context (G : group) (d : nat) (E : list symmetry) (eq : bool) (OK : group_ok G d E eq).
Notation zs := (zeros_of d).

(** A layer that pads nothing. *)
Lemma plain_form valued act dom c C o k s dl ub f kinit binit (L : conv_layer A) (x : tensor A) b m g X :
  conv_facts G d E eq false valued act dom c C o k s dl zs zs false ub f kinit binit L -> cl_channels L = Some c ->
  List.length m = d -> shape x = signal_shape valued b m g c -> merged d valued x b m C X ->
  apply L x = if forallb (fun p => fst p <=? snd p)%nat (combine (vzip dilated k dl) m)
    then Ok (tab (b :: outs m (vzip dilated k dl) s ++ [List.length act; o])
               (sig4 d (fun bi p h oo => f (biased ub binit
                  (window d (csrc m s dl zs) cterm k C (X bi) (kval G E valued dom act c o k C (tab (k ++ [C; o]) kinit)) p (h * o + oo)) oo))))
    else Err BackendError.
Proof.
  intros CF CH Lm SH MG.
  rewrite (layer_form G d E eq OK false valued act dom c C o k s dl zs zs false ub f kinit binit L x b m g X CF CH Lm SH MG).
  unfold layer_runs, layer_outs, layer_value, layer_src, layer_term, layer_in. rewrite padded_zeros by exact Lm.
  unfold builtin_pads, padding_string. cbn [String.eqb Ascii.eqb Bool.eqb]. rewrite !map_map. cbn [fst snd].
  assert (ZM : map (fun _ : nat => 0) m = zs) by (unfold zeros_of; rewrite <- Lm; clear; induction m as [|v m IH]; [reflexivity|cbn [map List.length repeat]; rewrite IH; reflexivity]).
  rewrite ZM. rewrite padded_zeros by exact Lm.
  assert (ZZ : vzip Nat.add zs zs = zs).
  { unfold zeros_of. clear. induction d as [|d' IH]; [reflexivity|]. cbn [repeat]. unfold vzip in *. cbn [combine map fst snd]. rewrite IH. reflexivity. }
  rewrite ZZ. reflexivity.
Qed.

End Plain.

Lemma joint_sizes_fit a b s1 s2 m : 0 < s1 -> 0 < s2 ->
  (b + 1 <= m /\ a + 1 <= out_size m (b + 1) s1 <-> s1 * a + b + 1 <= m) /\
  (s1 * a + b + 1 <= m -> out_size (out_size m (b + 1) s1) (a + 1) s2 = out_size m (s1 * a + b + 1) (s1 * s2)).
Proof.
  intros P1 P2. unfold out_size. split.
  - split.
    + intros [H1 H2]. assert (a <= (m - (b + 1)) / s1) by lia. pose proof (Nat.mul_div_le (m - (b + 1)) s1 ltac:(lia)). nia.
    + intros H. split; [nia|]. assert (a <= (m - (b + 1)) / s1) by (apply Nat.div_le_lower_bound; lia). lia.
  - intros H. f_equal. rewrite <- Nat.div_div by lia. f_equal.
    replace (m - (b + 1)) with ((m - (s1 * a + b + 1)) + a * s1) by nia. rewrite Nat.div_add by lia. lia.
Qed.

Section Compose.
Context {A : Type} {RA : Arith A} (EX : exact_arithmetic A).

Theorem C96_two_layers_are_one name G (a1 a2 a3 : conv_args A) H1 H opt1 opt2 opt3 (valued : bool) bs1 bs2 m1 m2 g c
  kinit1 binit1 kinit2 binit2 L1 L2 k1 s1 dl1 k2 s2 dl2 k3 s3 dl3 :
  layer_for name G a1 -> layer_for name G a2 -> layer_for name G a3 ->
  let d := dimension_of name in
  let n := List.length (symmetries_of name) in
  ca_subgroup a1 = Some H1 -> subgroup_indices G H1 (seq 0 n) -> ca_subgroup a2 = Some H -> ca_subgroup a3 = Some H ->
  option_of a1 opt1 -> option_of a2 opt2 -> option_of a3 opt3 ->
  built d false a1 (static_signal_shape valued bs1 m1 g c) kinit1 binit1 L1 -> List.length m1 = d -> sizes d a1 k1 s1 dl1 ->
  built d false a2 (static_signal_shape true bs2 m2 n (ca_filters a1)) kinit2 binit2 L2 -> List.length m2 = d -> sizes d a2 k2 s2 dl2 ->
  without_padding opt1 s1 -> without_padding opt2 s2 -> without_padding opt3 s3 ->
  respects name s1 -> respects name dl1 -> respects name dl2 ->
  (forall v, ca_activation a1 v = v) ->
  (* the arguments of the one layer *)
  sizes d a3 k3 s3 dl3 ->
  (forall ax, ax < d -> nth ax k3 0 = nth ax s1 0 * (nth ax dl2 0 * (nth ax k2 0 - 1)) + nth ax dl1 0 * (nth ax k1 0 - 1) + 1) ->
  (forall ax, ax < d -> nth ax s3 0 = nth ax s1 0 * nth ax s2 0) -> (forall ax, ax < d -> nth ax dl3 0 = 1) ->
  ca_filters a3 = ca_filters a2 -> ca_activation a3 = ca_activation a2 -> ca_use_bias a3 = ca_use_bias a1 || ca_use_bias a2 ->
  exists kinit3 binit3, forall bs3 m3 L3, List.length m3 = d ->
    built d false a3 (static_signal_shape valued bs3 m3 g c) kinit3 binit3 L3 ->
    forall x b m, wf x -> List.length m = d -> shape x = signal_shape valued b m g c ->
    apply L3 x = (y <- apply L1 x ;; apply L2 y).
Proof.
  intros LF1 LF2 LF3 d n HS1 SI1 HS2 HS3 OP1 OP2 OP3 B1 Lm1 SZ1 B2 Lm2 SZ2 WP1 WP2 WP3 Rs1 Rdl1 Rdl2 LIN SZ3 K3 S3 D3 FI3 AC3 UB3.
  destruct (built_facts name G a1 H1 opt1 false valued bs1 m1 g c kinit1 binit1 L1 k1 s1 dl1 LF1 HS1 OP1 B1 Lm1 SZ1)
    as [OK [eb1 [ea1 [act1 [dom1 [WO1 [SA1 [SD1 [CF1 [CC1 _]]]]]]]]]]. fold d in OK, WO1, CF1.
  destruct (built_facts name G a2 H opt2 false true bs2 m2 n (ca_filters a1) kinit2 binit2 L2 k2 s2 dl2 LF2 HS2 OP2 B2 Lm2 SZ2)
    as [_ [eb2 [ea2 [act2 [dom2 [WO2 [SA2 [SD2 [CF2 [CC2 _]]]]]]]]]]. fold d in WO2, CF2.
  set (E := symmetries_of name) in *. set (eq := needs_equal_sizes name) in *.
  assert (Ls1 : List.length s1 = d) by (destruct CF1; assumption). assert (Ls2 : List.length s2 = d) by (destruct CF2; assumption).
  destruct (without_padding_widths _ _ _ d _ _ _ _ WP1 Ls1 WO1) as [SM1 [-> ->]]. rewrite SM1 in CF1.
  destruct (without_padding_widths _ _ _ d _ _ _ _ WP2 Ls2 WO2) as [SM2 [-> ->]]. rewrite SM2 in CF2.
  assert (act1 = seq 0 n) as -> by (unfold sub_idx, subgroup_indices in *; congruence).
  assert (dom2 = seq 0 n) as -> by (exact (whole_dom _ _ _ _ _ OK (proj1 (SD2 eq_refl)))).
  set (o1 := ca_filters a1) in *. set (o2 := ca_filters a2) in *. set (C := if valued then g * c else c) in *. set (C2 := n * o1).
  change (if true then n * o1 else o1) with C2 in CF2.
  set (ub1 := ca_use_bias a1) in *. set (ub2 := ca_use_bias a2) in *.
  assert (Lk1 : List.length k1 = d) by (destruct CF1; assumption). assert (Ldl1 : List.length dl1 = d) by (destruct CF1; assumption).
  assert (Lk2 : List.length k2 = d) by (destruct CF2; assumption). assert (Ldl2 : List.length dl2 = d) by (destruct CF2; assumption).
  assert (Fk1 : kernel_fits eq k1) by (destruct CF1; assumption). assert (Fk2 : kernel_fits eq k2) by (destruct CF2; assumption).
  assert (Pk1 : forall ax, ax < d -> 0 < nth ax k1 0) by (destruct CF1; assumption). assert (Pk2 : forall ax, ax < d -> 0 < nth ax k2 0) by (destruct CF2; assumption).
  assert (Ps1 : forall ax, ax < d -> 0 < nth ax s1 0) by (destruct CF1; assumption). assert (Ps2 : forall ax, ax < d -> 0 < nth ax s2 0) by (destruct CF2; assumption).
  assert (Po1 : 0 < o1) by (destruct CF1; assumption). assert (Po2 : 0 < o2) by (destruct CF2; assumption).
  set (W1 := kval G E valued dom1 (seq 0 n) c o1 k1 C (tab (k1 ++ [C; o1]) kinit1)).
  set (W2 := kval G E true (seq 0 n) act2 o1 o2 k2 C2 (tab (k2 ++ [C2; o2]) kinit2)).
  set (K := joint_size d s1 dl1 dl2 k1 k2). set (J := joint_kernel d k1 s1 dl1 k2 dl2 C2 W1 W2).
  set (BS := fun r => window d (fun _ j2 => Some j2) cterm k2 C2 (fun _ q2 => binit1 [q2 mod o1]) W2 [] r).
  set (kinit3 := fun i => J (firstn d i) (nth d i 0) (nth (d + 1) i 0)).
  set (binit3 := fun i => add (if ub1 then BS (nth 0 i 0) else zero) (if ub2 then binit2 [nth 0 i 0] else zero)).
  exists kinit3, binit3. intros bs3 m3 L3 Lm3 B3 x b m WX Lm SH.
  destruct (built_facts name G a3 H opt3 false valued bs3 m3 g c kinit3 binit3 L3 k3 s3 dl3 LF3 HS3 OP3 B3 Lm3 SZ3)
    as [_ [eb3 [ea3 [act3 [dom3 [WO3 [SA3 [SD3 [CF3 [CC3 _]]]]]]]]]]. fold d E eq in WO3, CF3.
  assert (Ls3 : List.length s3 = d) by (destruct CF3; assumption).
  destruct (without_padding_widths _ _ _ d _ _ _ _ WP3 Ls3 WO3) as [SM3 [-> ->]]. rewrite SM3, FI3, AC3, UB3 in CF3. fold C o2 in CF3.
  assert (act3 = act2) as -> by (unfold sub_idx in *; congruence).
  assert (DD : kval G E valued dom3 act2 c o2 k3 C (tab (k3 ++ [C; o2]) kinit3) = kval G E valued dom1 act2 c o2 k3 C (tab (k3 ++ [C; o2]) kinit3)).
  { destruct valued; [|reflexivity]. destruct (SD1 eq_refl) as [D1 _]. destruct (SD3 eq_refl) as [D3' _]. assert (dom3 = dom1) as -> by (unfold sub_idx in *; congruence). reflexivity. }
  assert (k3 = K) as ->.
  { apply nth_ext0; [unfold K; rewrite length_joint_size; destruct CF3; assumption|]. intros ax Hax.
    assert (HD : ax < d) by (destruct CF3; lia). rewrite K3 by exact HD. unfold K, joint_size. rewrite nth_on_axes by exact HD. reflexivity. }
  assert (s3 = vzip Nat.mul s1 s2) as ->.
  { apply nth_ext0; [rewrite length_vzip; lia|]. intros ax Hax. rewrite S3 by lia. rewrite nth_vzip by lia. reflexivity. }
  assert (dl3 = repeat 1 d) as ->.
  { apply nth_ext0; [rewrite repeat_length; destruct CF3; assumption|]. intros ax Hax. assert (HD : ax < d) by (destruct CF3; lia). rewrite D3, nth_repeat1 by exact HD. reflexivity. }
  assert (LK : List.length K = d) by apply length_joint_size.
  assert (FK : kernel_fits eq K) by (destruct CF3; assumption).
  (* the elements of the subgroup *)
  destruct (sub_idx_facts _ _ _ _ OK _ _ SA2) as [ND2 [BD2 [HD2 _]]].
  assert (ST2 : forall u, In u act2 -> stable G u act2) by (intros u U; apply (stable_of G d _ _ OK (Some H)); assumption).
  assert (STW : forall u, In u act2 -> stable G u (seq 0 n)) by (intros u U; apply (stable_whole _ _ _ _ OK), BD2; exact U).
  assert (BW : forall u, In u (seq 0 n) -> u < List.length E) by (intros u U; apply in_seq in U; fold n; lia).
  assert (DO1 : valued = true -> dom1 = seq 0 n /\ C = List.length dom1 * c).
  { intros V. destruct (SD1 V) as [D1 D2]. split; [exact (whole_dom _ _ _ _ _ OK D1)|]. unfold C. rewrite V, D2. reflexivity. }
  assert (LW : List.length (seq 0 n) = n) by apply seq_length.
  (* the kernel of the one layer is the joint kernel *)
  assert (KV : forall j q h oo, inb K j -> q < C -> h < List.length act2 -> oo < o2 ->
    kval G E valued dom3 act2 c o2 K C (tab (K ++ [C; o2]) kinit3) j q (h * o2 + oo) = J j q (h * o2 + oo)).
  { intros j q h oo JJ Q Hh O. rewrite DD. set (u := nth h act2 0). assert (IU : In u act2) by (apply nth_In; exact Hh). pose proof (BD2 u IU) as BU.
    assert (T0 : turned G u act2 h = 0).
    { unfold turned. fold u. rewrite (group_inv_l _ _ _ (ok_is_group _ _ _ _ OK) u BU).
      destruct act2 as [|z act']; [discriminate HD2|]. cbn [hd_error] in HD2. injection HD2 as ->. reflexivity. }
    assert (CH : chan G u act2 o2 (h * o2 + oo) = oo) by (rewrite (chan_pair G act2 o2 u h oo O), T0; reflexivity).
    assert (DM : valued = true -> (forall z, In z dom1 -> z < List.length E) /\ stable G u dom1 /\ C = List.length dom1 * c).
    { intros V. destruct (DO1 V) as [-> CV]. split; [exact BW|]. split; [apply STW; exact IU|exact CV]. }
    assert (RB : h * o2 + oo < List.length act2 * o2) by nia.
    rewrite <- (kval_moved G d E eq OK valued dom1 act2 c C o2 K (tab (K ++ [C; o2]) kinit3) u j q (h * o2 + oo) BU BD2 (ST2 u IU) DM FK LK JJ Q RB).
    rewrite CH.
    assert (FU : forall l, kernel_fits eq l -> List.length l = d -> fits (nth u E []) l) by (intros l F L; exact (fits_of G d E eq OK l u F L BU)).
    unfold J. rewrite <- (joint_kernel_moved EX d k1 s1 dl1 k2 s2 dl2 C2 Lk1 Ls1 Ldl1 Lk2 Ls2 Ldl2 (nth u E []) (moved_chan G valued u dom1 c) (chan G u (seq 0 n) o1)
      (chan G u act2 o2) W1 W2 j q (h * o2 + oo)).
    - rewrite CH.
      set (j' := pixel (nth u E []) K j). set (q' := moved_chan G valued u dom1 c q).
      assert (J' : inb K j') by (apply (pixel_in G d E eq OK); [exact BU|split; assumption|exact JJ]).
      assert (Q' : q' < C).
      { unfold q', moved_chan. destruct valued; [|exact Q]. destruct (DO1 eq_refl) as [DE CV]. rewrite CV in *. apply chan_lt; [rewrite DE; apply STW; exact IU|exact Q]. }
      rewrite (kval_identity G d E eq OK valued act2 dom1 (Some H) (Some "") g c C o2 K (tab (K ++ [C; o2]) kinit3) j' q' oo SA2 SD1 eq_refl LK J' Q' O).
      change (read_as (K ++ [C; o2]) (tab (K ++ [C; o2]) kinit3)) with (tab (K ++ [C; o2]) kinit3).
      rewrite at_tab by (apply inb_app; [exact J'|]; apply Forall2_cons; [exact Q'|]; apply Forall2_cons; [exact O|apply Forall2_nil]).
      unfold kinit3. pose proof (inb_length _ _ J') as LJ. rewrite firstn_app_exact by lia.
      rewrite !app_nth2 by lia. replace (d - List.length j') with 0 by lia. replace (d + 1 - List.length j') with 1 by lia. reflexivity.
    - apply (ok_sym _ _ _ _ OK). exact BU.
    - apply FU; assumption.
    - apply FU; assumption.
    - apply FU; assumption.
    - apply FU; assumption.
    - apply FU; assumption.
    - intros q2 Q2. unfold C2. rewrite <- LW at 2. apply chan_lt; [apply STW; exact IU|]. rewrite LW. exact Q2.
    - intros q2 q2' Q2 Q2'. apply (chan_inj G d E eq OK u (seq 0 n) o1); try assumption; [apply seq_NoDup|apply STW; exact IU|rewrite LW; exact Q2|rewrite LW; exact Q2'].
    - intros j1 q2 J1 Q2. apply (kval_moved G d E eq OK); try assumption; [apply STW; exact IU|rewrite LW; exact Q2].
    - intros j2 q2 J2 Q2.
      apply (kval_moved G d E eq OK true (seq 0 n) act2 o1 C2 o2 k2 (tab (k2 ++ [C2; o2]) kinit2) u j2 q2 (h * o2 + oo)); try assumption; [apply ST2; exact IU|].
      intros _. split; [exact BW|]. split; [apply STW; exact IU|rewrite LW; reflexivity].
    - exact JJ. }
  (* the bias of the first layer is seen the same by all elements *)
  assert (BV : forall h oo, h < List.length act2 -> oo < o2 -> BS (h * o2 + oo) = BS oo).
  { intros h oo Hh O. set (u := nth h act2 0). assert (IU : In u act2) by (apply nth_In; exact Hh). pose proof (BD2 u IU) as BU.
    assert (T0 : turned G u act2 h = 0).
    { unfold turned. fold u. rewrite (group_inv_l _ _ _ (ok_is_group _ _ _ _ OK) u BU).
      destruct act2 as [|z act']; [discriminate HD2|]. cbn [hd_error] in HD2. injection HD2 as ->. reflexivity. }
    assert (CH : chan G u act2 o2 (h * o2 + oo) = oo) by (rewrite (chan_pair G act2 o2 u h oo O), T0; reflexivity).
    unfold BS. rewrite <- CH at 2.
    apply (window_match d _ _ cterm k2 C2 _ _ W2 (nth u E []) (chan G u (seq 0 n) o1) (chan G u act2 o2) [] [] (h * o2 + oo)).
    - exact (exact_add_commutes EX).
    - apply (ok_sym _ _ _ _ OK). exact BU.
    - exact Lk2.
    - exact (fits_of G d E eq OK k2 u Fk2 Lk2 BU).
    - intros q2 Q2. unfold C2. rewrite <- LW at 2. apply chan_lt; [apply STW; exact IU|]. rewrite LW. exact Q2.
    - intros q2 q2' Q2 Q2'. apply (chan_inj G d E eq OK u (seq 0 n) o1); try assumption; [apply seq_NoDup|apply STW; exact IU|rewrite LW; exact Q2|rewrite LW; exact Q2'].
    - intros j2 q2 _ Q2. cbn [option_map]. destruct (chan_parts G u (seq 0 n) o1 q2 ltac:(rewrite LW; exact Q2)) as [_ ->]. reflexivity.
    - intros j2 q2 J2 Q2.
      apply (kval_moved G d E eq OK true (seq 0 n) act2 o1 C2 o2 k2 (tab (k2 ++ [C2; o2]) kinit2) u j2 q2 (h * o2 + oo)); try assumption; [apply ST2; exact IU| |nia].
      intros _. split; [exact BW|]. split; [apply STW; exact IU|rewrite LW; reflexivity]. }
  (* the three layers *)
  pose proof (merged_input d valued x b m g c WX Lm SH) as MG. change (if valued then g * c else c) with C in MG.
  set (X := merged_fun valued x c) in *.
  rewrite (plain_form G d E eq OK valued act2 dom3 c C o2 K (vzip Nat.mul s1 s2) (repeat 1 d) (ub1 || ub2) (ca_activation a2) kinit3 binit3 L3 x b m g X CF3 CC3 Lm SH MG).
  rewrite (plain_form G d E eq OK valued (seq 0 n) dom1 c C o1 k1 s1 dl1 ub1 (ca_activation a1) kinit1 binit1 L1 x b m g X CF1 CC1 Lm SH MG).
  set (ke1 := vzip dilated k1 dl1). set (ke2 := vzip dilated k2 dl2). set (M1 := outs m ke1 s1).
  assert (Lke1 : List.length ke1 = d) by (unfold ke1; rewrite length_vzip; lia). assert (Lke2 : List.length ke2 = d) by (unfold ke2; rewrite length_vzip; lia).
  assert (LM1 : List.length M1 = d) by (apply length_outs; assumption).
  assert (DK : vzip dilated K (repeat 1 d) = K).
  { apply nth_ext0; [rewrite length_vzip; [reflexivity|rewrite repeat_length; exact LK]|]. intros ax Hax. rewrite length_vzip in Hax by (rewrite repeat_length; exact LK).
    rewrite nth_vzip by (try exact Hax; rewrite repeat_length; exact LK). rewrite nth_repeat1 by lia. unfold dilated.
    assert (PK : 0 < nth ax K 0) by (unfold K, joint_size; rewrite nth_on_axes by lia; rewrite Nat.add_1_r; apply Nat.lt_0_succ). lia. }
  rewrite DK.
  assert (NK : forall ax, ax < d -> nth ax K 0 = nth ax s1 0 * ((nth ax k2 0 - 1) * nth ax dl2 0) + (nth ax k1 0 - 1) * nth ax dl1 0 + 1).
  { intros ax Hax. unfold K, joint_size. rewrite nth_on_axes by exact Hax. rewrite (Nat.mul_comm (nth ax dl2 0)), (Nat.mul_comm (nth ax dl1 0)). reflexivity. }
  assert (N1 : forall ax, ax < d -> nth ax ke1 0 = (nth ax k1 0 - 1) * nth ax dl1 0 + 1) by (intros ax Hax; unfold ke1; rewrite nth_vzip by lia; reflexivity).
  assert (N2 : forall ax, ax < d -> nth ax ke2 0 = (nth ax k2 0 - 1) * nth ax dl2 0 + 1) by (intros ax Hax; unfold ke2; rewrite nth_vzip by lia; reflexivity).
  assert (NM1 : forall ax, ax < d -> nth ax M1 0 = out_size (nth ax m 0) (nth ax ke1 0) (nth ax s1 0)) by (intros ax Hax; apply (nth_outs m ke1 s1 d ax); assumption).
  assert (JF : forall ax, ax < d -> (nth ax ke1 0 <= nth ax m 0 /\ nth ax ke2 0 <= nth ax M1 0 <-> nth ax K 0 <= nth ax m 0) /\
     (nth ax K 0 <= nth ax m 0 -> out_size (nth ax M1 0) (nth ax ke2 0) (nth ax s2 0) = out_size (nth ax m 0) (nth ax K 0) (nth ax s1 0 * nth ax s2 0))).
  { intros ax Hax. rewrite NM1, NK, N1, N2 by exact Hax. apply joint_sizes_fit; [apply Ps1|apply Ps2]; exact Hax. }
  destruct (forallb _ (combine ke1 m)) eqn:R1; cbn [bind].
  2:{ destruct (forallb _ (combine K m)) eqn:R3; [|reflexivity]. exfalso. pose proof (forallb_combine_le K m d LK Lm R3) as H3.
      rewrite (forallb_combine_le_iff ke1 m d Lke1 Lm) in R1; [discriminate R1|]. intros ax Hax. apply (proj1 (JF ax Hax)). apply H3. exact Hax. }
  set (F1 := fun bi p h oo => ca_activation a1 _).
  assert (MG1 : merged d true (tab (b :: M1 ++ [List.length (seq 0 n); o1]) (sig4 d F1)) b M1 C2 (fun bi p q => F1 bi p (q / o1) (q mod o1))).
  { unfold merged. rewrite LW. apply merge_group. exact LM1. }
  assert (SH1 : shape (tab (b :: M1 ++ [List.length (seq 0 n); o1]) (sig4 d F1)) = signal_shape true b M1 n o1) by (rewrite shape_tab, LW; reflexivity).
  rewrite (plain_form G d E eq OK true act2 (seq 0 n) o1 C2 o2 k2 s2 dl2 ub2 (ca_activation a2) kinit2 binit2 L2 _ b M1 n _ CF2 CC2 LM1
    SH1 MG1). fold ke2.
  destruct (forallb _ (combine ke2 M1)) eqn:R2.
  2:{ destruct (forallb _ (combine K m)) eqn:R3; [|reflexivity]. exfalso. pose proof (forallb_combine_le K m d LK Lm R3) as H3.
      rewrite (forallb_combine_le_iff ke2 M1 d Lke2 LM1) in R2; [discriminate R2|]. intros ax Hax. apply (proj1 (JF ax Hax)). apply H3. exact Hax. }
  pose proof (forallb_combine_le ke1 m d Lke1 Lm R1) as H1'. pose proof (forallb_combine_le ke2 M1 d Lke2 LM1 R2) as H2'.
  assert (H3' : forall ax, ax < d -> nth ax K 0 <= nth ax m 0) by (intros ax Hax; apply (proj1 (JF ax Hax)); split; [apply H1'|apply H2']; exact Hax).
  rewrite (forallb_combine_le_iff K m d LK Lm H3').
  assert (OO : outs M1 ke2 s2 = outs m K (vzip Nat.mul s1 s2)).
  { assert (LV : List.length (vzip Nat.mul s1 s2) = d) by (rewrite length_vzip; lia).
    apply nth_ext0; [rewrite !(length_outs _ _ _ d) by assumption; reflexivity|]. intros ax Hax. rewrite (length_outs _ _ _ d) in Hax by assumption.
    rewrite !(nth_outs _ _ _ d) by assumption. rewrite nth_vzip by lia. apply (proj2 (JF ax Hax)). apply H3'. exact Hax. }
  rewrite <- OO. set (M2 := outs M1 ke2 s2) in *. assert (LM2 : List.length M2 = d) by (apply length_outs; assumption).
  f_equal. apply sig4_ext; [exact LM2|]. intros bi p h oo Bb P Hh O. f_equal.
  assert (NM2 : forall ax, ax < d -> nth ax M2 0 = out_size (nth ax M1 0) (nth ax ke2 0) (nth ax s2 0)) by (intros ax Hax; apply (nth_outs M1 ke2 s2 d ax); assumption).
  assert (RG1 : forall ax i j, ax < d -> i < nth ax M1 0 -> j < nth ax k1 0 -> i * nth ax s1 0 + j * nth ax dl1 0 < nth ax m 0).
  { intros ax i j Hax Hi Hj. specialize (H1' ax Hax). rewrite NM1 in Hi by exact Hax. rewrite N1 in * by exact Hax. unfold out_size in Hi. pose proof (Ps1 ax Hax).
    pose proof (Nat.mul_div_le (nth ax m 0 - ((nth ax k1 0 - 1) * nth ax dl1 0 + 1)) (nth ax s1 0) ltac:(lia)).
    assert (j * nth ax dl1 0 <= (nth ax k1 0 - 1) * nth ax dl1 0) by (apply Nat.mul_le_mono_r; lia).
    assert (i * nth ax s1 0 <= nth ax s1 0 * ((nth ax m 0 - ((nth ax k1 0 - 1) * nth ax dl1 0 + 1)) / nth ax s1 0)) by (rewrite Nat.mul_comm; apply Nat.mul_le_mono_l; lia). lia. }
  assert (RG2 : forall ax j, ax < d -> j < nth ax k2 0 -> nth ax p 0 * nth ax s2 0 + j * nth ax dl2 0 < nth ax M1 0).
  { intros ax j Hax Hj. specialize (H2' ax Hax). pose proof (inb_nth _ _ ax P ltac:(lia)) as Hi. rewrite NM2 in Hi by exact Hax. rewrite N2 in * by exact Hax. unfold out_size in Hi. pose proof (Ps2 ax Hax).
    pose proof (Nat.mul_div_le (nth ax M1 0 - ((nth ax k2 0 - 1) * nth ax dl2 0 + 1)) (nth ax s2 0) ltac:(lia)).
    assert (j * nth ax dl2 0 <= (nth ax k2 0 - 1) * nth ax dl2 0) by (apply Nat.mul_le_mono_r; lia).
    assert (nth ax p 0 * nth ax s2 0 <= nth ax s2 0 * ((nth ax M1 0 - ((nth ax k2 0 - 1) * nth ax dl2 0 + 1)) / nth ax s2 0)) by (rewrite Nat.mul_comm; apply Nat.mul_le_mono_l; lia). lia. }
  assert (RG3 : forall ax j, ax < d -> j < nth ax K 0 -> nth ax p 0 * (nth ax s1 0 * nth ax s2 0) + j < nth ax m 0).
  { intros ax j Hax Hj. specialize (H3' ax Hax). pose proof (inb_nth _ _ ax P ltac:(lia)) as Hi. rewrite NM2 in Hi by exact Hax. rewrite (proj2 (JF ax Hax) H3') in Hi. unfold out_size in Hi.
    pose proof (Ps1 ax Hax). pose proof (Ps2 ax Hax). assert (0 < nth ax s1 0 * nth ax s2 0) by nia. set (ss := nth ax s1 0 * nth ax s2 0) in *.
    pose proof (Nat.mul_div_le (nth ax m 0 - nth ax K 0) ss ltac:(lia)).
    assert (nth ax p 0 * ss <= ss * ((nth ax m 0 - nth ax K 0) / ss)) by (rewrite Nat.mul_comm; apply Nat.mul_le_mono_l; lia). lia. }
  (* the window of the one layer *)
  assert (V3 : window d (csrc m (vzip Nat.mul s1 s2) (repeat 1 d) (zeros_of d)) cterm K C (X bi) (kval G E valued dom3 act2 c o2 K C (tab (K ++ [C; o2]) kinit3)) p (h * o2 + oo)
    = window d (csrc M1 s2 dl2 (zeros_of d)) cterm k2 C2 (fun i q2 => window d (csrc m s1 dl1 (zeros_of d)) cterm k1 C (X bi) W1 i q2) W2 p (h * o2 + oo)).
  { rewrite (two_windows EX d k1 s1 dl1 k2 s2 dl2 C C2 Lk1 Ls1 Ldl1 Lk2 Ls2 Ldl2 m M1 (X bi) W1 W2 p (h * o2 + oo) Lm LM1 RG1 RG2 RG3).
    apply window_ext; [exact LK|reflexivity|]. intros j q JJ Q. apply KV; assumption. }
  rewrite V3.
  assert (SP : forall q2, q2 / o1 * o1 + q2 mod o1 = q2) by (intros q2; rewrite Nat.mul_comm; symmetry; apply Nat.div_mod; lia).
  assert (V2 : window d (csrc M1 s2 dl2 (zeros_of d)) cterm k2 C2 (fun i q2 => F1 bi i (q2 / o1) (q2 mod o1)) W2 p (h * o2 + oo)
    = add (window d (csrc M1 s2 dl2 (zeros_of d)) cterm k2 C2 (fun i q2 => window d (csrc m s1 dl1 (zeros_of d)) cterm k1 C (X bi) W1 i q2) W2 p (h * o2 + oo))
          (if ub1 then BS (h * o2 + oo) else zero)).
  { transitivity (window d (csrc M1 s2 dl2 (zeros_of d)) cterm k2 C2 (fun i q2 => add (window d (csrc m s1 dl1 (zeros_of d)) cterm k1 C (X bi) W1 i q2) (if ub1 then binit1 [q2 mod o1] else zero)) W2 p (h * o2 + oo)).
    - apply window_ext; [exact Lk2| |reflexivity]. intros i q2. unfold F1. rewrite LIN. fold W1. rewrite SP. unfold biased.
      destruct ub1; [reflexivity|]. rewrite (ar_comm EX). symmetry. apply (ar_zero EX).
    - assert (RD2 : forall j2, inb k2 j2 -> csrc M1 s2 dl2 (zeros_of d) p j2 = Some (read_at d s2 dl2 p j2)).
      { intros j2 J2. apply csrc_read; [exact LM1|]. intros ax Hax. apply RG2; [exact Hax|]. apply (inb_nth _ _ ax J2). lia. }
      assert (BE : (if ub1 then BS (h * o2 + oo) else zero) = window d (csrc M1 s2 dl2 (zeros_of d)) cterm k2 C2 (fun _ q2 => if ub1 then binit1 [q2 mod o1] else zero) W2 p (h * o2 + oo)).
      { rewrite (Properties_Adjoint.window_sums EX) by exact Lk2. unfold BS. destruct ub1.
        - rewrite (Properties_Adjoint.window_sums EX) by exact Lk2. apply Properties_Adjoint.sum_ext. intros j2 J2. apply In_indices in J2. apply Properties_Adjoint.sum_ext. intros q2 _. rewrite RD2 by exact J2. reflexivity.
        - symmetry. apply (sum_nothing EX). intros j2 J2. apply In_indices in J2. apply (sum_nothing EX). intros q2 _. rewrite RD2 by exact J2. unfold cterm, option_map, or_zero. apply (ar_mzero EX). }
      rewrite BE, !(Properties_Adjoint.window_sums EX) by exact Lk2. rewrite <- (sum_add EX). apply Properties_Adjoint.sum_ext. intros j2 J2. apply In_indices in J2.
      rewrite <- (sum_add EX). apply Properties_Adjoint.sum_ext. intros q2 _. rewrite RD2 by exact J2. cbn [option_map]. unfold cterm, or_zero.
      rewrite (ar_mcomm EX), (ar_dist EX), (ar_mcomm EX (W2 _ _ _)). f_equal. apply (ar_mcomm EX). }
  fold W2. rewrite V2. set (V := window d (csrc M1 s2 dl2 _) cterm k2 C2 _ W2 p (h * o2 + oo)). unfold biased, binit3. cbn [nth].
  assert (Z0 : forall v : A, add v zero = v) by (intros v; rewrite (ar_comm EX); apply (ar_zero EX)).
  rewrite (BV h oo Hh O). destruct ub1, ub2; cbn [orb]; rewrite ?Z0, ?(ar_zero EX); try reflexivity. apply (ar_assoc EX).
Qed.

(** Arguments for which there is such a layer: it has the filters, activation and subgroup of
    the second layer, and is built for all inputs that are large enough. *)
Definition joint_args (name H : string) (a1 a2 : conv_args A) (K s : list nat) : conv_args A :=
  mkConvArgs (ByName name) (Some H) (Tuple (map Z.of_nat K)) (ca_filters a2) (Some (Tuple (map Z.of_nat s))) (Some (Some "valid")) None
    "channels_last" true (ca_use_bias a1 || ca_use_bias a2) (ca_activation a2).

Lemma says_sizes d l : List.length l = d -> (forall v, In v l -> 0 < v) -> standardize_tuple d (Tuple (map Z.of_nat l)) = Ok l.
Proof.
  intros L P. unfold standardize_tuple, per_axis. rewrite map_length, L, Nat.eqb_refl.
  assert (F : forallb (fun z => (0 <? z)%Z) (map Z.of_nat l) = true).
  { apply forallb_forall. intros z I. apply in_map_iff in I as [v [<- I]]. apply Z.ltb_lt. specialize (P v I). lia. }
  rewrite F, map_map. f_equal. rewrite <- (map_id l) at 2. apply map_ext. intros v. apply Nat2Z.id.
Qed.

Theorem C96_the_layer_exists name G (a1 a2 : conv_args A) H1 H opt1 opt2 (valued : bool) bs1 bs2 m1 m2 g c
  kinit1 binit1 kinit2 binit2 L1 L2 k1 s1 dl1 k2 s2 dl2 :
  layer_for name G a1 -> layer_for name G a2 ->
  let d := dimension_of name in
  let n := List.length (symmetries_of name) in
  ca_subgroup a1 = Some H1 -> subgroup_indices G H1 (seq 0 n) -> ca_subgroup a2 = Some H ->
  option_of a1 opt1 -> option_of a2 opt2 ->
  built d false a1 (static_signal_shape valued bs1 m1 g c) kinit1 binit1 L1 -> List.length m1 = d -> sizes d a1 k1 s1 dl1 ->
  built d false a2 (static_signal_shape true bs2 m2 n (ca_filters a1)) kinit2 binit2 L2 -> List.length m2 = d -> sizes d a2 k2 s2 dl2 ->
  without_padding opt1 s1 -> without_padding opt2 s2 ->
  respects name s1 -> respects name dl1 -> respects name dl2 ->
  (forall v, ca_activation a1 v = v) ->
  exists a3 kinit3 binit3, layer_for name G a3 /\ ca_subgroup a3 = Some H /\ ca_filters a3 = ca_filters a2 /\ ca_activation a3 = ca_activation a2 /\
  forall bs3 m3, List.length m3 = d ->
    (forall ax, ax < d -> nth ax s1 0 * (nth ax dl2 0 * (nth ax k2 0 - 1)) + nth ax dl1 0 * (nth ax k1 0 - 1) + 1 <= nth ax m3 0) ->
  exists L3, built d false a3 (static_signal_shape valued bs3 m3 g c) kinit3 binit3 L3 /\
    forall x b m, wf x -> List.length m = d -> shape x = signal_shape valued b m g c ->
    apply L3 x = (y <- apply L1 x ;; apply L2 y).
Proof.
  intros LF1 LF2 d n HS1 SI1 HS2 OP1 OP2 B1 Lm1 SZ1 B2 Lm2 SZ2 WP1 WP2 Rs1 Rdl1 Rdl2 LIN.
  set (K := joint_size d s1 dl1 dl2 k1 k2). set (s3 := vzip Nat.mul s1 s2). set (a3 := joint_args name H a1 a2 K s3).
  destruct (built_facts name G a1 H1 opt1 false valued bs1 m1 g c kinit1 binit1 L1 k1 s1 dl1 LF1 HS1 OP1 B1 Lm1 SZ1)
    as [OK [eb1 [ea1 [act1 [dom1 [WO1 [SA1 [SD1 [CF1 [CC1 _]]]]]]]]]]. fold d in OK, WO1, CF1.
  destruct (built_facts name G a2 H opt2 false true bs2 m2 n (ca_filters a1) kinit2 binit2 L2 k2 s2 dl2 LF2 HS2 OP2 B2 Lm2 SZ2)
    as [_ [eb2 [ea2 [act2 [dom2 [WO2 [SA2 [SD2 [CF2 [CC2 _]]]]]]]]]]. fold d in WO2, CF2.
  assert (Ls1 : List.length s1 = d) by (destruct CF1; assumption). assert (Ls2 : List.length s2 = d) by (destruct CF2; assumption).
  assert (Lk1 : List.length k1 = d) by (destruct CF1; assumption). assert (Ldl1 : List.length dl1 = d) by (destruct CF1; assumption).
  assert (Lk2 : List.length k2 = d) by (destruct CF2; assumption). assert (Ldl2 : List.length dl2 = d) by (destruct CF2; assumption).
  assert (Fk1 : respects name k1) by (destruct CF1; assumption). assert (Fk2 : respects name k2) by (destruct CF2; assumption).
  assert (Ps1 : forall ax, ax < d -> 0 < nth ax s1 0) by (destruct CF1; assumption). assert (Ps2 : forall ax, ax < d -> 0 < nth ax s2 0) by (destruct CF2; assumption).
  assert (Po2 : 0 < ca_filters a2) by (destruct CF2; assumption).
  assert (LK : List.length K = d) by apply length_joint_size. assert (Ls3 : List.length s3 = d) by (unfold s3; rewrite length_vzip; lia).
  assert (NK : forall ax, ax < d -> nth ax K 0 = nth ax s1 0 * (nth ax dl2 0 * (nth ax k2 0 - 1)) + nth ax dl1 0 * (nth ax k1 0 - 1) + 1).
  { intros ax Hax. unfold K, joint_size. rewrite nth_on_axes by exact Hax. reflexivity. }
  assert (N3 : forall ax, ax < d -> nth ax s3 0 = nth ax s1 0 * nth ax s2 0) by (intros ax Hax; unfold s3; rewrite nth_vzip by lia; reflexivity).
  assert (PK : forall v, In v K -> 0 < v).
  { intros v I. apply (In_nth _ _ 0) in I as [ax [Hax <-]]. rewrite NK by lia. rewrite Nat.add_1_r. apply Nat.lt_0_succ. }
  assert (P3 : forall v, In v s3 -> 0 < v).
  { intros v I. apply (In_nth _ _ 0) in I as [ax [Hax <-]]. rewrite N3 by lia. specialize (Ps1 ax ltac:(lia)). specialize (Ps2 ax ltac:(lia)). nia. }
  assert (SZ3 : sizes d a3 K s3 (repeat 1 d)).
  { split; [apply says_sizes; assumption|]. split; [apply says_sizes; assumption|]. unfold a3, joint_args. cbn [ca_dilation].
    assert (E1 : standardize_tuple d (One 1) = standardize_tuple d (Tuple (map Z.of_nat (repeat 1 d)))).
    { unfold standardize_tuple, per_axis. assert (R : repeat 1%Z d = map Z.of_nat (repeat 1 d)) by (clear; induction d as [|d' IH]; [reflexivity|cbn [repeat map]; rewrite IH; reflexivity]). rewrite R. reflexivity. }
    rewrite E1. apply says_sizes; [apply repeat_length|]. intros v I. apply repeat_spec in I. lia. }
  pose proof LF1 as [DG _].
  assert (LF3 : layer_for name G a3) by (split; [exact DG|split; [left; reflexivity|reflexivity]]).
  assert (OP3 : option_of a3 "VALID") by (exists "valid"; split; reflexivity).
  destruct (C96_two_layers_are_one name G a1 a2 a3 H1 H opt1 opt2 "VALID" valued bs1 bs2 m1 m2 g c kinit1 binit1 kinit2 binit2 L1 L2
    k1 s1 dl1 k2 s2 dl2 K s3 (repeat 1 d) LF1 LF2 LF3 HS1 SI1 HS2 eq_refl OP1 OP2 OP3 B1 Lm1 SZ1 B2 Lm2 SZ2 WP1 WP2 (or_introl eq_refl) Rs1 Rdl1 Rdl2 LIN SZ3 NK N3
    ltac:(intros ax Hax; apply nth_repeat1; exact Hax) eq_refl eq_refl eq_refl) as [kinit3 [binit3 ONE]].
  exists a3, kinit3, binit3. split; [exact LF3|]. split; [reflexivity|]. split; [reflexivity|]. split; [reflexivity|].
  intros bs3 m3 Lm3 BIG.
  (* constructor *)
  destruct B2 as [L20 [I2 B2]].
  destruct (proj1 (C53_when_the_constructor_accepts name G a2 H false LF2 HS2) (ex_intro _ L20 I2)) as [NH _].
  assert (I3 : exists L0, conv_init d false a3 = Ok L0).
  { apply (C53_when_the_constructor_accepts name G a3 H false LF3 eq_refl). split; [exact NH|]. split; [exact Po2|]. split.
    - exists "valid". split; [reflexivity|]. exists "valid", "". split; [reflexivity|]. split; [right; left; reflexivity|left; reflexivity].
    - exists K, s3, (repeat 1 d). split; [exact SZ3|]. right. intros v I. apply repeat_spec in I. exact I. }
  destruct I3 as [L0 I3].
  assert (ALL : forall l, respects name l -> List.length l = d -> needs_equal_sizes name = true -> forall ax ax', ax < d -> ax' < d -> nth ax l 0 = nth ax' l 0).
  { intros l R L Q ax ax' Hax Hax'. apply (R Q); apply nth_In; lia. }
  destruct (proj2 (C53_when_convolutions_build name G a3 H "VALID" valued bs3 m3 g c kinit3 binit3 L0 K s3 (repeat 1 d) LF3 eq_refl OP3 I3 Lm3 SZ3)) as [L3 BL3].
  - split; [exists act2; exact SA2|]. split; [|split; [|split]].
    + intros V. destruct (SD1 V) as [D1 D2]. rewrite D2, (whole_dom _ _ _ _ _ OK D1). apply seq_length.
    + left. reflexivity.
    + right. intros ax Hax. rewrite nth_repeat1 by exact Hax. specialize (BIG ax Hax). rewrite <- NK in BIG by exact Hax.
      specialize (PK (nth ax K 0) ltac:(apply nth_In; lia)). lia.
    + intros Q x y Ix Iy. apply (In_nth _ _ 0) in Ix as [ax [Hax <-]]. apply (In_nth _ _ 0) in Iy as [ay [Hay <-]]. rewrite LK in Hax, Hay. rewrite !NK by assumption.
      rewrite (ALL s1 Rs1 Ls1 Q ax ay Hax Hay), (ALL dl1 Rdl1 Ldl1 Q ax ay Hax Hay), (ALL dl2 Rdl2 Ldl2 Q ax ay Hax Hay), (ALL k1 Fk1 Lk1 Q ax ay Hax Hay), (ALL k2 Fk2 Lk2 Q ax ay Hax Hay). reflexivity.
  - assert (BB : built d false a3 (static_signal_shape valued bs3 m3 g c) kinit3 binit3 L3) by (exists L0; split; [exact I3|exact BL3]).
    exists L3. split; [exact BB|]. intros x b m. exact (ONE bs3 m3 L3 Lm3 BB x b m).
Qed.

End Compose.

Print Assumptions C96_two_layers_are_one.
Print Assumptions C96_the_layer_exists.

(** Concrete cases: a lifting layer with kernels of 2x2 pixels, followed by a layer with
    subgroup P2 and strides of 2, is a layer with kernels of 3x3 pixels and strides of 2. *)
Definition first_args : conv_args Z :=
  mkConvArgs (ByName "P4") (Some "") (One 2) 2 None (Some (Some "valid_equiv")) None "channels_last" false true (fun z => z).
Definition second_args : conv_args Z :=
  mkConvArgs (ByName "P4") (Some "P2") (One 2) 1 (Some (One 2)) (Some (Some "valid")) None "channels_last" false true (fun z => if (z <? 5)%Z then 0%Z else z).
Definition one_args : conv_args Z :=
  mkConvArgs (ByName "P4") (Some "P2") (One 3) 1 (Some (One 2)) (Some (Some "valid")) None "channels_last" false true (fun z => if (z <? 5)%Z then 0%Z else z).
Definition small_weights (j : list nat) : Z := (some_weights j mod 5 - 2)%Z.
Definition first_bias (j : list nat) : Z := (8 - 5 * Z.of_nat (nth 0 j 0%nat))%Z.
Definition one_kernel : tensor Z := mkTensor [3; 3; 1; 1] [1; 5; 9; -11; -17; -2; -5; 5; 9]%Z.

Example C96_case :
  match test_layer 2 false first_args [None; Some 5; Some 5; Some 1] small_weights first_bias,
        test_layer 2 false second_args [None; Some 4; Some 4; Some 4; Some 2] small_weights (fun _ => 7%Z),
        test_layer 2 false one_args [None; Some 5; Some 5; Some 1] (at_ one_kernel) (fun _ => (-50)%Z) with
  | Ok L1, Ok L2, Ok L3 =>
      match (y <- apply L1 (some_signal [1; 5; 5; 1]) ;; apply L2 y), apply L3 (some_signal [1; 5; 5; 1]) with
      | Ok z, Ok z' => Some (shape z, data z, data z') | _, _ => None end
  | _, _, _ => None end
  = Some ([1; 2; 2; 2; 1], [325; 0; 0; 81; 0; 0; 376; 242]%Z, [325; 0; 0; 81; 0; 0; 376; 242]%Z).
Proof. vm_compute. reflexivity. Qed.

(** With a nonlinearity in between there is no such layer: the layer would be linear. *)
Definition kinked_args : conv_args Z :=
  mkConvArgs (ByName "P4") (Some "") (One 1) 1 None None None "channels_last" false false (fun z => Z.max 0 z).
Definition straight_args (k : Z) (p : string) : conv_args Z :=
  mkConvArgs (ByName "P4") (Some "") (One k) 1 None (Some (Some p)) None "channels_last" false false (fun z => z).
Definition one_pixel (v : Z) : tensor Z := mkTensor [1; 1; 1; 1] [v].

Theorem C96_nonlinearity_refuted : exists L1 L2,
  built 2 false kinked_args [None; Some 1; Some 1; Some 1] (fun _ => 1%Z) (fun _ => 0%Z) L1 /\
  built 2 false (straight_args 1 "valid") [None; Some 1; Some 1; Some 4; Some 1] (fun _ => 1%Z) (fun _ => 0%Z) L2 /\
  forall kinit binit L3, built 2 false (straight_args 1 "valid") [None; Some 1; Some 1; Some 1] kinit binit L3 ->
    ~ (forall x b m, wf x -> List.length m = 2 -> shape x = b :: m ++ [1] -> apply L3 x = (y <- apply L1 x ;; apply L2 y)).
Proof.
  destruct (test_layer 2 false kinked_args [None; Some 1; Some 1; Some 1] (fun _ => 1%Z) (fun _ => 0%Z)) as [L1|] eqn:T1.
  2:{ exfalso. assert (Q : is_ok (test_layer 2 false kinked_args [None; Some 1; Some 1; Some 1] (fun _ => 1%Z) (fun _ => 0%Z)) = true) by (vm_compute; reflexivity). rewrite T1 in Q. discriminate Q. }
  destruct (test_layer 2 false (straight_args 1 "valid") [None; Some 1; Some 1; Some 4; Some 1] (fun _ => 1%Z) (fun _ => 0%Z)) as [L2|] eqn:T2.
  2:{ exfalso. assert (Q : is_ok (test_layer 2 false (straight_args 1 "valid") [None; Some 1; Some 1; Some 4; Some 1] (fun _ => 1%Z) (fun _ => 0%Z)) = true) by (vm_compute; reflexivity). rewrite T2 in Q. discriminate Q. }
  exists L1, L2. split; [apply test_layer_built; exact T1|]. split; [apply test_layer_built; exact T2|]. intros kinit binit L3 B3 H.
  (* the two layers at 1 and at -1 *)
  assert (V : forall v, (y <- apply L1 (one_pixel v) ;; apply L2 y)
     = (M1 <- test_layer 2 false kinked_args [None; Some 1; Some 1; Some 1] (fun _ => 1%Z) (fun _ => 0%Z) ;;
        M2 <- test_layer 2 false (straight_args 1 "valid") [None; Some 1; Some 1; Some 4; Some 1] (fun _ => 1%Z) (fun _ => 0%Z) ;;
        y <- apply M1 (one_pixel v) ;; apply M2 y)) by (intros v; rewrite T1, T2; reflexivity).
  assert (O : forall v, shape (one_pixel v) = 1 :: [1; 1] ++ [1] /\ wf (one_pixel v)) by (intros v; split; reflexivity).
  assert (A3 : forall v, apply L3 (one_pixel v) = _) by (intros v; etransitivity; [apply (H _ 1 [1; 1]); [apply O|reflexivity|apply O]|exact (V v)]).
  pose proof (C78_linear_in_the_signal "P4" P4 (straight_args 1 "valid") "" "VALID" false false None [1; 1] 0 1 kinit binit L3 [1; 1] [1; 1] [1; 1] integers_exact
    ltac:(split; [vm_compute; reflexivity|split; [left; reflexivity|reflexivity]]) eq_refl ltac:(exists "valid"; split; reflexivity) B3 eq_refl
    ltac:(split; [reflexivity|split; reflexivity]) eq_refl (fun v => eq_refl) 1%Z 1%Z (one_pixel 1) (one_pixel (-1)) 1 [1; 1] eq_refl eq_refl eq_refl eq_refl eq_refl) as LIN.
  change (combination 1%Z (one_pixel 1) 1%Z (one_pixel (-1))) with (one_pixel 0) in LIN. rewrite !A3 in LIN. revert LIN.
  match goal with |- ?l = ?r -> _ => assert (Q : same_result l r = false) by (vm_compute; reflexivity); intros LIN; rewrite LIN in Q end.
  match type of Q with same_result ?r ?r = _ => assert (Q' : same_result r r = true) by (vm_compute; reflexivity) end.
  rewrite Q' in Q. discriminate Q.
Qed.

(** Nor with zeros padded in between: in an image of one pixel the second layer does not see
    what the first one spreads over the neighbouring pixels. *)
Definition one_spot (m : nat) : tensor Z := tab [1; m; m; 1] (fun j => if list_eqb Nat.eqb j [0; m / 2; m / 2; 0]%nat then 1%Z else 0%Z).

Theorem C96_same_padding_refuted : exists L1 L2,
  built 2 false (straight_args 3 "same_equiv") [None; Some 3; Some 3; Some 1] (fun _ => 1%Z) (fun _ => 0%Z) L1 /\
  built 2 false (straight_args 3 "same_equiv") [None; Some 3; Some 3; Some 4; Some 1] (fun _ => 1%Z) (fun _ => 0%Z) L2 /\
  forall kinit binit L3, built 2 false (straight_args 5 "same_equiv") [None; Some 3; Some 3; Some 1] kinit binit L3 ->
    ~ (forall x b m, wf x -> List.length m = 2 -> shape x = b :: m ++ [1] -> apply L3 x = (y <- apply L1 x ;; apply L2 y)).
Proof.
  destruct (test_layer 2 false (straight_args 3 "same_equiv") [None; Some 3; Some 3; Some 1] (fun _ => 1%Z) (fun _ => 0%Z)) as [L1|] eqn:T1.
  2:{ exfalso. assert (Q : is_ok (test_layer 2 false (straight_args 3 "same_equiv") [None; Some 3; Some 3; Some 1] (fun _ => 1%Z) (fun _ => 0%Z)) = true) by (vm_compute; reflexivity). rewrite T1 in Q. discriminate Q. }
  destruct (test_layer 2 false (straight_args 3 "same_equiv") [None; Some 3; Some 3; Some 4; Some 1] (fun _ => 1%Z) (fun _ => 0%Z)) as [L2|] eqn:T2.
  2:{ exfalso. assert (Q : is_ok (test_layer 2 false (straight_args 3 "same_equiv") [None; Some 3; Some 3; Some 4; Some 1] (fun _ => 1%Z) (fun _ => 0%Z)) = true) by (vm_compute; reflexivity). rewrite T2 in Q. discriminate Q. }
  exists L1, L2. split; [apply test_layer_built; exact T1|]. split; [apply test_layer_built; exact T2|]. intros kinit binit L3 B3 H.
  assert (V : forall m, match (y <- apply L1 (one_spot m) ;; apply L2 y) with Ok z => Some (shape z, at_ z [0; m / 2; m / 2; 0; 0]) | Err _ => None end
     = match (M1 <- test_layer 2 false (straight_args 3 "same_equiv") [None; Some 3; Some 3; Some 1] (fun _ => 1%Z) (fun _ => 0%Z) ;;
        M2 <- test_layer 2 false (straight_args 3 "same_equiv") [None; Some 3; Some 3; Some 4; Some 1] (fun _ => 1%Z) (fun _ => 0%Z) ;;
        y <- apply M1 (one_spot m) ;; apply M2 y) with Ok z => Some (shape z, at_ z [0; m / 2; m / 2; 0; 0]) | Err _ => None end) by (intros v; rewrite T1, T2; reflexivity).
  pose proof (V 1) as V1. pose proof (V 3) as V3. clear V.
  match type of V1 with _ = ?r => assert (Q1 : r = Some ([1; 1; 1; 4; 1], 4%Z)) by (vm_compute; reflexivity) end. rewrite Q1 in V1. clear Q1.
  match type of V3 with _ = ?r => assert (Q3 : r = Some ([1; 3; 3; 4; 1], 36%Z)) by (vm_compute; reflexivity) end. rewrite Q3 in V3. clear Q3.
  rewrite <- (H (one_spot 1) 1 [1; 1] (wf_tab _ _) eq_refl eq_refl) in V1. rewrite <- (H (one_spot 3) 1 [3; 3] (wf_tab _ _) eq_refl eq_refl) in V3.
  destruct (apply L3 (one_spot 1)) as [y1|] eqn:Y1; [|discriminate V1]. destruct (apply L3 (one_spot 3)) as [y3|] eqn:Y3; [|discriminate V3].
  assert (CO : forall m y, apply L3 (one_spot m) = Ok y -> exists M, List.length M = 2 /\ shape y = 1 :: M ++ [4; 1] /\
     forall p, inb M p -> at_ y (0 :: p ++ [0; 0])
      = sum (map (fun i => mul (at_ (one_spot m) (0 :: i ++ [0])) (filter_at [5; 5] [1; 1] (fun j => at_ (initial_kernel false [5; 5] 1 1 kinit) (j ++ [0; 0]))
          (turned_back (nth 0 (symmetries_of "P4") []) (offset false [m; m] M [1; 1] i p)))) (indices [m; m]))).
  { intros m y Y.
    destruct (C90_lifting_convolution integers_exact "P4" P4 (straight_args 5 "same_equiv") "" [0; 1; 2; 3] "SAME_EQUIV" None [3; 3] 1 kinit binit L3 [5; 5] [1; 1] [1; 1] [m; m] (one_spot m) 1 y)
      as [M [LM [SY AT]]]; try assumption; try reflexivity.
    - split; [vm_compute; reflexivity|split; [left; reflexivity|reflexivity]].
    - exists "same_equiv". split; reflexivity.
    - left. reflexivity.
    - split; [reflexivity|split; reflexivity].
    - intros _ u v [<-|[<-|[]]] [<-|[<-|[]]]; reflexivity.
    - intros _ ax Hax. left. destruct ax as [|[|ax]]; [exists 2; reflexivity|exists 2; reflexivity|cbn in Hax; lia].
    - intros ax Hax. destruct ax as [|[|ax]]; [apply Nat.mod_1_r|apply Nat.mod_1_r|cbn in Hax; lia].
    - apply wf_tab.
    - exists M. split; [exact LM|]. split; [exact SY|]. intros p P.
      assert (I : inb (shape y) (0 :: p ++ [0; 0])).
      { rewrite SY. apply inb_cons. split; [lia|]. apply inb_app; [exact P|]. apply Forall2_cons; [cbn; lia|]. apply Forall2_cons; [cbn; lia|apply Forall2_nil]. }
      etransitivity; [exact (AT 0 p 0 0 I)|]. unfold finished. cbn [ca_use_bias straight_args ca_activation].
      apply Properties_Adjoint.sum_ext. intros i _. cbn [seq map]. unfold sum. cbn [fold_right]. apply Z.add_0_r. }
  assert (EX := integers_exact).
  destruct (CO 1 y1 Y1) as [M1 [LM1 [S1 AT1]]]. destruct (CO 3 y3 Y3) as [M3 [LM3 [S3 AT3]]]. clear CO.
  assert (ES : forall (u : list nat) (v : Z) u' v', Some (u, v) = Some (u', v') -> u = u' /\ v = v') by (intros; split; congruence).
  apply ES in V1 as [SV1 V1]. apply ES in V3 as [SV3 V3]. rewrite SV1 in S1. rewrite SV3 in S3.
  destruct M1 as [|u1 [|u2 [|]]]; try discriminate LM1. cbn [app] in S1. injection S1 as <- <-.
  destruct M3 as [|u1 [|u2 [|]]]; try discriminate LM3. cbn [app] in S3. injection S3 as <- <-.
  change [0; 1 / 2; 1 / 2; 0; 0] with (0 :: [0; 0] ++ [0; 0]) in V1. change [0; 3 / 2; 3 / 2; 0; 0] with (0 :: [1; 1] ++ [0; 0]) in V3.
  rewrite AT1 in V1 by (apply Forall2_cons; [lia|]; apply Forall2_cons; [lia|apply Forall2_nil]).
  rewrite AT3 in V3 by (apply Forall2_cons; [lia|]; apply Forall2_cons; [lia|apply Forall2_nil]).
  rewrite (sum_only EX (indices [1; 1]) _ [0; 0]) in V1.
  - rewrite (sum_only EX (indices [3; 3]) _ [1; 1]) in V3.
    + change (at_ (one_spot 1) (0 :: [0; 0] ++ [0])) with 1%Z in V1. change (at_ (one_spot 3) (0 :: [1; 1] ++ [0])) with 1%Z in V3.
      change (offset false [1; 1] [1; 1] [1; 1] [0; 0] [0; 0]) with [0%Z; 0%Z] in V1.
      change (offset false [3; 3] [3; 3] [1; 1] [1; 1] [1; 1]) with [0%Z; 0%Z] in V3.
      rewrite V1 in V3. discriminate V3.
    + apply NoDup_indices.
    + vm_compute. tauto.
    + intros i I NE. replace (at_ (one_spot 3) (0 :: i ++ [0])) with 0%Z; [reflexivity|].
      cbn in I. repeat (destruct I as [<-|I]; [try reflexivity; destruct (NE eq_refl)|]). destruct I.
  - apply NoDup_indices.
  - vm_compute. tauto.
  - intros i I NE. cbn in I. destruct I as [<-|[]]. destruct (NE eq_refl).
Qed.

Print Assumptions C96_nonlinearity_refuted.
Print Assumptions C96_same_padding_refuted.
