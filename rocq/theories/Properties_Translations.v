(** C55: group convolutions and pooling commute with translations of the grid. *)
From Verif Require Import TranslationFacts Properties_Pooling.
Local Open Scope string_scope.
Local Open Scope list_scope.

Section Translations.
Context {A : Type} {RA : Arith A}.

(** The input translated by [t] strides (zeros coming in, and only zeros leaving the
    image), the output is translated by [t] pixels, wherever both outputs have the
    pixel.  Any padding option. *)
Theorem C55_convolution_of_a_translated_signal name G (a : conv_args A) H opt (valued : bool) bs m g c kinit binit L k s dl t x x' y y' b m' :
  layer_for name G a -> ca_subgroup a = Some H -> option_of a opt ->
  let d := dimension_of name in
  built d false a (static_signal_shape valued bs m g c) kinit binit L -> List.length m = d -> sizes d a k s dl ->
  List.length m' = d -> wf x -> shape x = signal_shape valued b m' g c -> wf x' -> shape x' = signal_shape valued b m' g c ->
  List.length t = d -> translated m' (times_strides t s) x x' ->
  apply L x = Ok y -> apply L x' = Ok y' ->
  forall bi p p' h o, inb (shape y) (bi :: p ++ [h; o]) -> inb (shape y') (bi :: p' ++ [h; o]) ->
  (forall ax, ax < d -> Z.of_nat (nth ax p' 0) = (Z.of_nat (nth ax p 0%nat) + nth ax t 0)%Z) ->
  at_ y' (bi :: p' ++ [h; o]) = at_ y (bi :: p ++ [h; o]).
Proof.
  intros LF HS OP d B Lm SZ Lm' W SH W' SH' Lt TR CA CA' bi p p' h oo I I' PP.
  destruct (built_facts name G a H opt false valued bs m g c kinit binit L k s dl LF HS OP B Lm SZ)
    as [OK [eb [ea [act [dom [WO [SA [SD [CF [CC _]]]]]]]]]]. fold d in OK, WO, SA, SD, CF.
  set (C := if valued then g * c else c) in *. set (o := ca_filters a) in *.
  pose proof (merged_input d valued x b m' g c W Lm' SH) as MG. change (if valued then g * c else c) with C in MG.
  pose proof (merged_input d valued x' b m' g c W' Lm' SH') as MG'. change (if valued then g * c else c) with C in MG'.
  unfold apply in CA, CA'.
  rewrite (conv_apply_call G d _ _ false valued act dom c C o k s dl eb ea (is_same opt) (ca_use_bias a) (ca_activation a)
    kinit binit L x b m' g CF CC Lm' SH) in CA.
  rewrite (conv_apply_call G d _ _ false valued act dom c C o k s dl eb ea (is_same opt) (ca_use_bias a) (ca_activation a)
    kinit binit L x' b m' g CF CC Lm' SH') in CA'.
  rewrite (conv_call_eq G d _ _ OK valued act dom c C o k s dl eb ea (is_same opt) (ca_use_bias a) (ca_activation a) kinit binit L x b m' _ CF Lm' MG) in CA.
  rewrite (conv_call_eq G d _ _ OK valued act dom c C o k s dl eb ea (is_same opt) (ca_use_bias a) (ca_activation a) kinit binit L x' b m' _ CF Lm' MG') in CA'.
  destruct (forallb _ _); [|discriminate CA]. cbn [snd] in CA, CA'.
  assert (EY : forall u v : tensor A, Ok u = Ok v -> u = v) by (intros u v Q; congruence).
  apply EY in CA. apply EY in CA'. subst y y'.
  rewrite shape_tab in I, I'. rewrite !at_tab by assumption.
  match type of I with inb (b :: ?mm ++ _) _ => set (mo := mm) in * end.
  assert (LO : List.length mo = d).
  { destruct CF. assert (L1 : List.length (padded eb m' ea) = d) by (apply length_padded; assumption).
    assert (LE : List.length (vzip dilated k dl) = d) by (rewrite length_vzip; lia).
    unfold mo. apply length_outs; [apply length_padded; rewrite ?map_length; try apply length_builtin; assumption|assumption..]. }
  destruct (inb4_parts _ _ _ _ _ _ _ _ I) as [Bi [P [Hh O]]]. destruct (inb4_parts _ _ _ _ _ _ _ _ I') as [_ [P' _]].
  pose proof (inb_length _ _ P) as LP. pose proof (inb_length _ _ P') as LP'. rewrite !sig4_ix by lia.
  f_equal. f_equal. destruct CF. apply window_local; [|exact cf_k]. intros j q J Q.
  rewrite !(merged_at d) by exact Lm'. rewrite (below_moved d s dl _ p p' j t) by assumption. apply TR.
  unfold below. rewrite map_length, seq_length. congruence.
Qed.

(** A part of the image, cut out at a multiple of the strides: without padding, the
    output is the corresponding part of the output.  The part may be of any size for
    which the call succeeds. *)
Theorem C55_convolution_of_a_part name G (a : conv_args A) H (valued : bool) bs m g c kinit binit L k s dl t x x' y y' b n n' :
  layer_for name G a -> ca_subgroup a = Some H -> option_of a "VALID" ->
  let d := dimension_of name in
  built d false a (static_signal_shape valued bs m g c) kinit binit L -> List.length m = d -> sizes d a k s dl ->
  List.length n = d -> wf x -> shape x = signal_shape valued b n g c ->
  List.length n' = d -> wf x' -> shape x' = signal_shape valued b n' g c -> List.length t = d ->
  (forall ax, ax < d -> nth ax t 0 * nth ax s 0 + nth ax n' 0 <= nth ax n 0) ->
  (forall bi i i' rest, inb n' i' -> List.length i = d -> (forall ax, ax < d -> nth ax i 0 = nth ax i' 0 + nth ax t 0 * nth ax s 0) ->
     at_ x' (bi :: i' ++ rest) = at_ x (bi :: i ++ rest)) ->
  apply L x = Ok y -> apply L x' = Ok y' ->
  forall bi p p' h o, inb (shape y') (bi :: p' ++ [h; o]) -> List.length p = d ->
  (forall ax, ax < d -> nth ax p 0 = nth ax p' 0 + nth ax t 0) ->
  inb (shape y) (bi :: p ++ [h; o]) /\ at_ y' (bi :: p' ++ [h; o]) = at_ y (bi :: p ++ [h; o]).
Proof.
  intros LF HS OP d B Lm SZ Ln W SH Ln' W' SH' Lt LE TR CA CA' bi p p' h oo I' Lp PP.
  destruct (built_facts name G a H "VALID" false valued bs m g c kinit binit L k s dl LF HS OP B Lm SZ)
    as [OK [eb [ea [act [dom [WO [SA [SD [CF [CC _]]]]]]]]]]. fold d in OK, WO, SA, SD, CF.
  destruct (plain_widths _ _ _ _ _ _ _ _ _ _ ltac:(right; left; reflexivity) WO) as [-> ->].
  set (C := if valued then g * c else c) in *. set (o := ca_filters a) in *.
  pose proof (merged_input d valued x b n g c W Ln SH) as MG. change (if valued then g * c else c) with C in MG.
  pose proof (merged_input d valued x' b n' g c W' Ln' SH') as MG'. change (if valued then g * c else c) with C in MG'.
  unfold apply in CA, CA'.
  rewrite (conv_apply_call G d _ _ false valued act dom c C o k s dl _ _ _ (ca_use_bias a) (ca_activation a)
    kinit binit L x b n g CF CC Ln SH) in CA.
  rewrite (conv_apply_call G d _ _ false valued act dom c C o k s dl _ _ _ (ca_use_bias a) (ca_activation a)
    kinit binit L x' b n' g CF CC Ln' SH') in CA'.
  rewrite (conv_call_eq G d _ _ OK valued act dom c C o k s dl _ _ _ (ca_use_bias a) (ca_activation a) kinit binit L x b n _ CF Ln MG) in CA.
  rewrite (conv_call_eq G d _ _ OK valued act dom c C o k s dl _ _ _ (ca_use_bias a) (ca_activation a) kinit binit L x' b n' _ CF Ln' MG') in CA'.
  change (is_same "VALID") with false in CA, CA'. cbn [padding_string] in CA, CA'. unfold builtin_pads in CA, CA'. cbn [String.eqb Ascii.eqb Bool.eqb] in CA, CA'.
  rewrite !padded_zeros in CA by exact Ln. rewrite !padded_zeros in CA' by exact Ln'.
  assert (ZM : forall l : list nat, map fst (map (fun _ : nat => (0, 0)) l) = zeros_of (List.length l) /\ map snd (map (fun _ : nat => (0, 0)) l) = zeros_of (List.length l)).
  { induction l as [|v l [IH1 IH2]]; [split; reflexivity|]. unfold zeros_of in *. cbn [map List.length repeat]. rewrite IH1, IH2. split; reflexivity. }
  destruct (ZM n) as [Z1 Z2], (ZM n') as [Z1' Z2']. rewrite Ln in Z1, Z2. rewrite Ln' in Z1', Z2'.
  rewrite !Z1, !Z2, !padded_zeros in CA by exact Ln. rewrite !Z1', !Z2', !padded_zeros in CA' by exact Ln'.
  destruct (forallb _ _) eqn:FB in CA; [|discriminate CA]. destruct (forallb _ _) eqn:FB' in CA'; [|discriminate CA']. cbn [snd] in CA, CA'.
  assert (EY : forall u v : tensor A, Ok u = Ok v -> u = v) by (intros u v Q; congruence).
  apply EY in CA. apply EY in CA'. subst y y'. destruct CF.
  assert (LKE : List.length (vzip dilated k dl) = d) by (rewrite length_vzip; lia).
  set (ke := vzip dilated k dl) in *.
  assert (LO : List.length (outs n ke s) = d) by (apply length_outs; assumption).
  assert (LO' : List.length (outs n' ke s) = d) by (apply length_outs; assumption).
  rewrite shape_tab in I'. destruct (inb4_parts _ _ _ _ _ _ _ _ I') as [Bi [P' [Hh O]]].
  assert (KF : forall ax, ax < d -> nth ax ke 0 <= nth ax n' 0).
  { intros ax Hax. rewrite forallb_forall in FB'. specialize (FB' (nth ax (combine ke n') (0, 0)) ltac:(apply nth_In; rewrite combine_length; lia)).
    rewrite combine_nth in FB' by lia. apply Nat.leb_le in FB'. exact FB'. }
  assert (PO' : forall ax, ax < d -> nth ax p' 0 * nth ax s 0 + nth ax ke 0 <= nth ax n' 0).
  { intros ax Hax. pose proof (inb_nth _ _ ax P' ltac:(lia)) as Q. rewrite (nth_outs n' ke s d ax) in Q by assumption. unfold out_size in Q.
    specialize (KF ax Hax). pose proof (Nat.mul_div_le (nth ax n' 0 - nth ax ke 0) (nth ax s 0)) as DV. specialize (cf_spos ax Hax). nia. }
  assert (P : inb (outs n ke s) p).
  { apply inb_intro; [lia|]. intros ax Hax. rewrite LO in Hax. rewrite (nth_outs n ke s d ax) by assumption. unfold out_size. rewrite PP by exact Hax.
    specialize (LE ax Hax). specialize (PO' ax Hax). specialize (cf_spos ax Hax). rewrite Nat.add_1_r. apply Nat.lt_succ_r.
    apply Nat.div_le_lower_bound; nia. }
  assert (I : inb (b :: outs n ke s ++ [List.length act; o]) (bi :: p ++ [h; oo])).
  { apply inb_cons. split; [exact Bi|]. apply inb_app; [exact P|]. apply inb_cons. split; [exact Hh|]. apply inb_cons. split; [exact O|apply inb_nil]. }
  split; [rewrite shape_tab; exact I|]. rewrite !at_tab by assumption.
  pose proof (inb_length _ _ P') as LP'. rewrite !sig4_ix by lia. f_equal. f_equal. apply window_local; [|exact cf_k]. intros j q J Q.
  assert (ZZ : forall ax, nth ax (vzip Nat.add (zeros_of d) (zeros_of d)) 0 = 0).
  { intros ax. destruct (Nat.lt_ge_cases ax d) as [Hax|Hax].
    - rewrite nth_vzip by (unfold zeros_of; rewrite ?repeat_length; lia). rewrite !nth_zeros. reflexivity.
    - apply nth_overflow. rewrite length_vzip; unfold zeros_of; rewrite ?repeat_length; lia. }
  assert (JK : forall ax, ax < d -> nth ax j 0 * nth ax dl 0 < nth ax ke 0).
  { intros ax Hax. unfold ke. rewrite nth_vzip by lia. unfold dilated. pose proof (inb_nth _ _ ax J ltac:(lia)). nia. }
  assert (CS : forall nn pp, List.length nn = d -> (forall ax, ax < d -> nth ax pp 0 * nth ax s 0 + nth ax ke 0 <= nth ax nn 0) ->
      csrc nn s dl (vzip Nat.add (zeros_of d) (zeros_of d)) pp j = Some (map (fun ax => nth ax pp 0 * nth ax s 0 + nth ax j 0 * nth ax dl 0) (seq 0 d))).
  { intros nn pp Lnn H1. unfold csrc. rewrite Lnn. apply wsrc_all; [rewrite map_length; apply seq_length|]. intros ax Hax.
    rewrite (nth_map_lt _ _ _ 0), seq_nth by (rewrite ?seq_length; exact Hax). cbn [Nat.add]. unfold conv_src. rewrite ZZ, Nat.sub_0_r. cbn [Nat.leb andb].
    specialize (JK ax Hax). specialize (H1 ax Hax). destruct (Nat.ltb_spec (nth ax pp 0 * nth ax s 0 + nth ax j 0 * nth ax dl 0) (nth ax nn 0)); [reflexivity|lia]. }
  rewrite (CS n' p' Ln' PO'). rewrite (CS n p Ln).
  2:{ intros ax Hax. rewrite PP by exact Hax. specialize (LE ax Hax). specialize (PO' ax Hax). nia. }
  cbn [option_map or_zero]. rewrite !merged_value. apply TR.
  - apply inb_intro; [rewrite map_length, seq_length; lia|]. intros ax Hax. rewrite Ln' in Hax.
    rewrite (nth_map_lt _ _ _ 0), seq_nth by (rewrite ?seq_length; exact Hax). cbn [Nat.add]. specialize (JK ax Hax). specialize (PO' ax Hax). lia.
  - rewrite map_length. apply seq_length.
  - intros ax Hax. rewrite !(nth_map_lt _ _ _ 0), !seq_nth by (rewrite ?seq_length; exact Hax). cbn [Nat.add]. rewrite PP by exact Hax. nia.
Qed.

(** Transposed convolutions: the input translated by [t] pixels, the output is
    translated by [t] strides. *)
Theorem C55_transposed_convolution_of_a_translated_signal name G (a : conv_args A) H opt (valued : bool) bs m g c kinit binit L k s dl t x x' y y' b m' :
  (forall w : A, mul zero w = zero) ->
  layer_for name G a -> ca_subgroup a = Some H -> option_of a opt ->
  let d := dimension_of name in
  built d true a (static_signal_shape valued bs m g c) kinit binit L -> List.length m = d -> sizes d a k s dl ->
  List.length m' = d -> wf x -> shape x = signal_shape valued b m' g c -> wf x' -> shape x' = signal_shape valued b m' g c ->
  List.length t = d -> translated m' t x x' ->
  apply L x = Ok y -> apply L x' = Ok y' ->
  forall bi p p' h o, inb (shape y) (bi :: p ++ [h; o]) -> inb (shape y') (bi :: p' ++ [h; o]) ->
  (forall ax, ax < d -> Z.of_nat (nth ax p' 0) = (Z.of_nat (nth ax p 0%nat) + nth ax t 0 * Z.of_nat (nth ax s 0%nat))%Z) ->
  at_ y' (bi :: p' ++ [h; o]) = at_ y (bi :: p ++ [h; o]).
Proof.
  intros MZ LF HS OP d B Lm SZ Lm' W SH W' SH' Lt TR CA CA' bi p p' h oo I I' PP.
  destruct (built_facts name G a H opt true valued bs m g c kinit binit L k s dl LF HS OP B Lm SZ)
    as [OK [eb [ea [act [dom [WO [SA [SD [CF [CC _]]]]]]]]]]. fold d in OK, WO, SA, SD, CF.
  set (C := if valued then g * c else c) in *. set (o := ca_filters a) in *.
  pose proof (merged_input d valued x b m' g c W Lm' SH) as MG. change (if valued then g * c else c) with C in MG.
  pose proof (merged_input d valued x' b m' g c W' Lm' SH') as MG'. change (if valued then g * c else c) with C in MG'.
  unfold apply in CA, CA'.
  rewrite (conv_apply_call G d _ _ true valued act dom c C o k s dl eb ea (is_same opt) (ca_use_bias a) (ca_activation a)
    kinit binit L x b m' g CF CC Lm' SH) in CA.
  rewrite (conv_apply_call G d _ _ true valued act dom c C o k s dl eb ea (is_same opt) (ca_use_bias a) (ca_activation a)
    kinit binit L x' b m' g CF CC Lm' SH') in CA'.
  rewrite (conv_transpose_call_eq G d _ _ OK valued act dom c C o k s dl eb ea (is_same opt) (ca_use_bias a) (ca_activation a) kinit binit L x b m' _ CF Lm' MG) in CA.
  rewrite (conv_transpose_call_eq G d _ _ OK valued act dom c C o k s dl eb ea (is_same opt) (ca_use_bias a) (ca_activation a) kinit binit L x' b m' _ CF Lm' MG') in CA'.
  cbn [snd] in CA, CA'.
  assert (EY : forall u v : tensor A, Ok u = Ok v -> u = v) by (intros u v Q; congruence).
  apply EY in CA. apply EY in CA'. subst y y'.
  rewrite shape_tab in I, I'. rewrite !at_tab by assumption. destruct CF.
  assert (LKE : List.length (vzip dilated k dl) = d) by (rewrite length_vzip; lia).
  set (m1 := padded eb m' ea) in *.
  assert (L1 : List.length m1 = d) by (apply length_padded; assumption).
  destruct (inb4_parts _ _ _ _ _ _ _ _ I) as [Bi [P [Hh O]]]. destruct (inb4_parts _ _ _ _ _ _ _ _ I') as [_ [P' _]].
  pose proof (inb_length _ _ P) as LP. pose proof (inb_length _ _ P') as LP'. rewrite (length_touts _ _ _ _ d) in LP, LP' by assumption. rewrite !sig4_ix by lia.
  f_equal. f_equal. unfold window. f_equal. apply map_ext_in. intros jc IJ. apply In_indices in IJ.
  apply inb_app_split in IJ as [j [c' [-> [J IJ]]]]. apply inb1 in IJ as [q [-> Q]]. pose proof (inb_length _ _ J) as LJ.
  rewrite firstn_app_exact by lia. rewrite app_nth2 by lia. replace (d - List.length j) with 0 by lia. cbn [nth].
  rewrite !(tsrc_value d) by assumption.
  set (Bf := vzip (transpose_before (padding_string (is_same opt))) (vzip dilated k dl) s).
  set (num := fun pp ax => (Z.of_nat (nth ax pp 0%nat + nth ax Bf 0%nat) - Z.of_nat (nth ax j 0%nat * nth ax dl 0%nat))%Z).
  assert (NN : forall ax, ax < d -> num p' ax = (num p ax + nth ax t 0 * Z.of_nat (nth ax s 0%nat))%Z).
  { intros ax Hax. unfold num. specialize (PP ax Hax). lia. }
  assert (SP : forall ax, ax < d -> Z.of_nat (nth ax s 0) <> 0%Z) by (intros ax Hax; specialize (cf_spos ax Hax); lia).
  match goal with |- (if ?u then _ else _) = (if ?v then _ else _) => assert (FE : u = v) end.
  { apply forallb_ext_in. intros ax IX. apply in_seq in IX. f_equal.
    change (num p' ax mod Z.of_nat (nth ax s 0%nat) = num p ax mod Z.of_nat (nth ax s 0%nat))%Z. rewrite NN by lia. apply Z.mod_add. apply SP. lia. }
  rewrite FE. clear FE. destruct (forallb _ (seq 0 d)); [|reflexivity]. cbv zeta.
  change (fun ax => ((Z.of_nat (nth ax p' 0%nat + nth ax Bf 0%nat) - Z.of_nat (nth ax j 0%nat * nth ax dl 0%nat)) / Z.of_nat (nth ax s 0%nat))%Z)
    with (fun ax => (num p' ax / Z.of_nat (nth ax s 0%nat))%Z).
  change (fun ax => ((Z.of_nat (nth ax p 0%nat + nth ax Bf 0%nat) - Z.of_nat (nth ax j 0%nat * nth ax dl 0%nat)) / Z.of_nat (nth ax s 0%nat))%Z)
    with (fun ax => (num p ax / Z.of_nat (nth ax s 0%nat))%Z).
  set (z := map (fun ax => (num p ax / Z.of_nat (nth ax s 0%nat))%Z) (seq 0 d)).
  set (z' := map (fun ax => (num p' ax / Z.of_nat (nth ax s 0%nat))%Z) (seq 0 d)).
  assert (LZ : List.length z = d) by (unfold z; rewrite map_length; apply seq_length).
  assert (LZ' : List.length z' = d) by (unfold z'; rewrite map_length; apply seq_length).
  assert (ZZ : forall ax, ax < d -> nth ax z' 0%Z = (nth ax z 0 + nth ax t 0)%Z).
  { intros ax Hax. unfold z, z'. rewrite !(nth_map_lt _ _ _ 0), !seq_nth by (rewrite ?seq_length; exact Hax). cbn [Nat.add].
    rewrite NN by exact Hax. apply Z.div_add. apply SP. exact Hax. }
  assert (BV : forall (u : tensor A) zz, List.length zz = d ->
     (if forallb (fun q => (0 <=? fst q)%Z && (fst q <? Z.of_nat (snd q))%Z) (combine zz m1)
      then bordered eb m' (merged_fun valued u c) bi (map Z.to_nat zz) q else zero)
     = signal_at m' u bi (translate zz (map (fun v => (- Z.of_nat v)%Z) eb)) (rest_of valued c q)).
  { intros u zz LZZ. unfold signal_at. set (tz := translate zz (map (fun v => (- Z.of_nat v)%Z) eb)).
    assert (LE : List.length zz = List.length (map (fun v => (- Z.of_nat v)%Z) eb)) by (rewrite map_length; lia).
    assert (LTZ : List.length tz = d) by (unfold tz; rewrite length_translate; lia).
    assert (TZ : forall ax, ax < d -> nth ax tz 0%Z = (nth ax zz 0 - Z.of_nat (nth ax eb 0%nat))%Z).
    { intros ax Hax. unfold tz. rewrite nth_translate by lia. rewrite (nth_map_lt _ _ _ 0) by lia. lia. }
    assert (M1 : forall ax, ax < d -> nth ax m1 0 = nth ax eb 0 + nth ax m' 0 + nth ax ea 0) by (intros ax Hax; unfold m1; apply (nth_padded _ _ _ d); assumption).
    assert (LM : List.length (map Z.to_nat zz) = d) by (rewrite map_length; exact LZZ).
    destruct (forallb _ (combine tz m')) eqn:F2.
    - pose proof (proj1 (in_range tz m' ltac:(lia)) F2) as R2.
      replace (forallb _ (combine zz m1)) with true.
      2:{ symmetry. apply in_range; [lia|]. intros ax Hax. specialize (R2 ax ltac:(lia)). rewrite TZ in R2 by lia. rewrite M1 by lia. lia. }
      unfold bordered. replace (inside eb m' (map Z.to_nat zz)) with true.
      2:{ symmetry. apply (inside_spec _ _ _ d); try assumption. intros ax Hax. rewrite (nth_map_lt _ _ _ 0%Z) by lia.
          specialize (R2 ax ltac:(lia)). rewrite TZ in R2 by lia. lia. }
      rewrite merged_value. f_equal. f_equal. f_equal. apply nth_ext0; [rewrite length_vzip, !map_length; lia|]. intros ax Hax.
      rewrite length_vzip in Hax by lia. rewrite nth_vzip by lia. rewrite !(nth_map_lt _ _ _ 0%Z) by lia.
      specialize (R2 ax ltac:(lia)). rewrite TZ in R2 |- * by lia. lia.
    - destruct (forallb _ (combine zz m1)) eqn:F1; [|reflexivity]. pose proof (proj1 (in_range zz m1 ltac:(lia)) F1) as R1.
      unfold bordered. destruct (inside eb m' (map Z.to_nat zz)) eqn:IS; [|reflexivity]. exfalso.
      pose proof (proj1 (inside_spec _ _ _ d cf_eb Lm' LM) IS) as R3.
      assert (F2' : forallb (fun q => (0 <=? fst q)%Z && (fst q <? Z.of_nat (snd q))%Z) (combine tz m') = true).
      { apply in_range; [lia|]. intros ax Hax. specialize (R3 ax ltac:(lia)). rewrite (nth_map_lt _ _ _ 0%Z) in R3 by lia.
        specialize (R1 ax ltac:(lia)). rewrite TZ by lia. lia. }
      congruence. }
  rewrite (BV x z LZ), (BV x' z' LZ'). f_equal. rewrite <- TR.
  - f_equal. assert (LN : List.length (map (fun v => (- Z.of_nat v)%Z) eb) = d) by (rewrite map_length; exact cf_eb).
    assert (LT1 : List.length (translate z (map (fun v => (- Z.of_nat v)%Z) eb)) = d) by (rewrite length_translate; lia).
    apply nth_extZ; [rewrite !length_translate; lia|]. intros ax Hax. rewrite length_translate in Hax by lia.
    rewrite !nth_translate by lia. rewrite ZZ by lia. lia.
  - rewrite length_translate by (rewrite map_length; lia). lia.
Qed.

(** Pooling of a part of the image. *)
Theorem C55_pooling_of_a_part {PA : Pool A} name G d tp (a : pool_args) H bs m g c L k s t (x x' y y' : tensor A) b n n' :
  pooling_for name G a -> pa_subgroup a = Some H -> pool_option a "VALID" ->
  pooling_built d tp a (bs :: map Some m ++ [Some g; Some c]) L -> List.length m = d -> pool_sizes d a k s ->
  List.length n = d -> wf x -> shape x = b :: n ++ [g; c] ->
  List.length n' = d -> wf x' -> shape x' = b :: n' ++ [g; c] -> List.length t = d ->
  (forall ax, ax < d -> nth ax t 0 * nth ax s 0 + nth ax n' 0 <= nth ax n 0) ->
  (forall bi i i' rest, inb n' i' -> List.length i = d -> (forall ax, ax < d -> nth ax i 0 = nth ax i' 0 + nth ax t 0 * nth ax s 0) ->
     at_ x' (bi :: i' ++ rest) = at_ x (bi :: i ++ rest)) ->
  pool_call L x = Ok y -> pool_call L x' = Ok y' ->
  forall bi p p' h o, inb (shape y') (bi :: p' ++ [h; o]) -> List.length p = d ->
  (forall ax, ax < d -> nth ax p 0 = nth ax p' 0 + nth ax t 0) ->
  inb (shape y) (bi :: p ++ [h; o]) /\ at_ y' (bi :: p' ++ [h; o]) = at_ y (bi :: p ++ [h; o]).
Proof.
  intros PF HS OP B Lm SZ Ln W SH Ln' W' SH' Lt LE TR CA CA' bi p p' h oo I' Lp PP.
  pose proof PF as [DG [AG AF]]. pose proof B as [L0 [IN BL]].
  pose proof DG as DG'. apply lib_ok in DG' as [_ OK].
  destruct (pool_build_inv (A := A) G d _ _ OK name tp a L0 bs m g c L DG AG AF IN Lm BL)
    as [pn [k' [s0 [s' [eb [ea [sub [cos [Hn [PN' [SK' [SS0 [SS' [WO [PS [DS [DC [SA [GN [F _]]]]]]]]]]]]]]]]]]]].
  specialize (F (pool_call_option L x y (pool_format _ _ _ _ _ _ _ _ _ AF IN BL) CA)).
  destruct OP as [pn' [PN UP]]. unfold pool_padding_name in PN'. rewrite PN in PN'. injection PN' as <-. rewrite UP in WO, F.
  destruct SZ as [SK SS]. rewrite SK in SK'. injection SK' as <-. unfold pool_strides in SS0. rewrite SS in SS0. injection SS0 as <-.
  subst g. pose proof (plain_widths _ _ _ _ _ _ _ _ _ _ ltac:(right; left; reflexivity) WO) as EZ.
  destruct EZ as [-> ->].
  destruct (sub_idx_facts _ _ _ _ OK _ _ SA) as [_ [_ [HD _]]]. assert (NE : sub <> []) by (intros ->; discriminate HD).
  rewrite (tensor_sig4 d b n _ c x W Ln SH) in CA. rewrite (tensor_sig4 d b n' _ c x' W' Ln' SH') in CA'.
  rewrite (pool_call_eq G d _ _ OK sub cos k s _ _ _ tp L b n c _ F NE Ln) in CA.
  rewrite (pool_call_eq G d _ _ OK sub cos k s _ _ _ tp L b n' c _ F NE Ln') in CA'.
  change (is_same "VALID") with false in CA, CA'. cbn [padding_string] in CA, CA'. unfold builtin_pads in CA, CA'. cbn [String.eqb Ascii.eqb Bool.eqb] in CA, CA'.
  rewrite !padded_zeros in CA by exact Ln. rewrite !padded_zeros in CA' by exact Ln'.
  assert (ZM : forall l : list nat, map fst (map (fun _ : nat => (0, 0)) l) = zeros_of (List.length l) /\ map snd (map (fun _ : nat => (0, 0)) l) = zeros_of (List.length l)).
  { induction l as [|v l [IH1 IH2]]; [split; reflexivity|]. unfold zeros_of in *. cbn [map List.length repeat]. rewrite IH1, IH2. split; reflexivity. }
  destruct (ZM n) as [Z1 Z2], (ZM n') as [Z1' Z2']. rewrite Ln in Z1, Z2. rewrite Ln' in Z1', Z2'.
  rewrite !Z1, !Z2, !padded_zeros in CA by exact Ln. rewrite !Z1', !Z2', !padded_zeros in CA' by exact Ln'.
  destruct (forallb _ _) eqn:FB in CA; [|discriminate CA]. destruct (forallb _ _) eqn:FB' in CA'; [|discriminate CA'].
  assert (EY : forall u v : tensor A, Ok u = Ok v -> u = v) by (intros u v Q; congruence).
  apply EY in CA. apply EY in CA'. subst y y'. destruct F.
  assert (LO : List.length (outs n k s) = d) by (apply length_outs; assumption).
  assert (LO' : List.length (outs n' k s) = d) by (apply length_outs; assumption).
  rewrite shape_tab in I'. destruct (inb4_parts _ _ _ _ _ _ _ _ I') as [Bi [P' [Hh O]]].
  assert (KF : forall ax, ax < d -> nth ax k 0 <= nth ax n' 0).
  { intros ax Hax. rewrite forallb_forall in FB'. specialize (FB' (nth ax (combine k n') (0, 0)) ltac:(apply nth_In; rewrite combine_length; lia)).
    rewrite combine_nth in FB' by lia. apply Nat.leb_le in FB'. exact FB'. }
  assert (PO' : forall ax, ax < d -> nth ax p' 0 * nth ax s 0 + nth ax k 0 <= nth ax n' 0).
  { intros ax Hax. pose proof (inb_nth _ _ ax P' ltac:(lia)) as Q. rewrite (nth_outs n' k s d ax) in Q by assumption. unfold out_size in Q.
    specialize (KF ax Hax). pose proof (Nat.mul_div_le (nth ax n' 0 - nth ax k 0) (nth ax s 0)) as DV. specialize (pf_spos ax Hax). nia. }
  assert (P : inb (outs n k s) p).
  { apply inb_intro; [lia|]. intros ax Hax. rewrite LO in Hax. rewrite (nth_outs n k s d ax) by assumption. unfold out_size. rewrite PP by exact Hax.
    specialize (LE ax Hax). specialize (PO' ax Hax). specialize (pf_spos ax Hax). rewrite Nat.add_1_r. apply Nat.lt_succ_r.
    apply Nat.div_le_lower_bound; nia. }
  assert (I : inb (b :: outs n k s ++ [List.length sub; c]) (bi :: p ++ [h; oo])).
  { apply inb_cons. split; [exact Bi|]. apply inb_app; [exact P|]. apply inb_cons. split; [exact Hh|]. apply inb_cons. split; [exact O|apply inb_nil]. }
  split; [rewrite shape_tab; exact I|]. rewrite !at_tab by assumption.
  pose proof (inb_length _ _ P') as LP'. rewrite !sig4_ix by lia. unfold pool_out, pooled. do 2 f_equal. apply map_ext_in. intros j J. apply In_indices in J.
  assert (JK : forall ax, ax < d -> nth ax j 0 < nth ax k 0) by (intros ax Hax; apply inb_nth; [exact J|lia]).
  assert (O1 : forall ax, ax < d -> nth ax (ones d) 0 = 1) by (intros ax Hax; apply nth_ones; exact Hax).
  assert (CS : forall nn pp, List.length nn = d -> (forall ax, ax < d -> nth ax pp 0 * nth ax s 0 + nth ax k 0 <= nth ax nn 0) ->
      csrc nn s (ones d) (zeros_of d) pp j = Some (map (fun ax => nth ax pp 0 * nth ax s 0 + nth ax j 0) (seq 0 d))).
  { intros nn pp Lnn H1. unfold csrc. rewrite Lnn. apply wsrc_all; [rewrite map_length; apply seq_length|]. intros ax Hax.
    rewrite (nth_map_lt _ _ _ 0), seq_nth by (rewrite ?seq_length; exact Hax). cbn [Nat.add]. unfold conv_src. rewrite nth_zeros, Nat.sub_0_r, O1, Nat.mul_1_r by exact Hax. cbn [Nat.leb andb].
    specialize (JK ax Hax). specialize (H1 ax Hax). destruct (Nat.ltb_spec (nth ax pp 0 * nth ax s 0 + nth ax j 0) (nth ax nn 0)); [reflexivity|lia]. }
  assert (PO : forall ax, ax < d -> nth ax p 0 * nth ax s 0 + nth ax k 0 <= nth ax n 0).
  { intros ax Hax. rewrite PP by exact Hax. specialize (LE ax Hax). specialize (PO' ax Hax). nia. }
  rewrite (CS n' p' Ln' PO'), (CS n p Ln PO). cbn [option_map]. f_equal.
  assert (IB : forall nn pp, List.length nn = d -> (forall ax, ax < d -> nth ax pp 0 * nth ax s 0 + nth ax k 0 <= nth ax nn 0) ->
     inb nn (map (fun ax => nth ax pp 0 * nth ax s 0 + nth ax j 0) (seq 0 d))).
  { intros nn pp Lnn H1. apply inb_intro; [rewrite map_length, seq_length; lia|]. intros ax Hax. rewrite Lnn in Hax.
    rewrite (nth_map_lt _ _ _ 0), seq_nth by (rewrite ?seq_length; exact Hax). cbn [Nat.add]. specialize (JK ax Hax). specialize (H1 ax Hax). lia. }
  unfold bordered. rewrite !(inside_zeros _ _ d) by (try assumption; apply IB; assumption).
  rewrite !vzip_sub_zeros by (rewrite map_length; apply seq_length). f_equal. apply map_ext_in. intros e Ie. unfold fun4. apply TR.
  - apply IB; assumption.
  - rewrite map_length. apply seq_length.
  - intros ax Hax. rewrite !(nth_map_lt _ _ _ 0), !seq_nth by (rewrite ?seq_length; exact Hax). cbn [Nat.add]. rewrite PP by exact Hax. nia.
Qed.

End Translations.

(** Concrete cases: a 7x7 image and its 5x5 part at row 2, column 0. *)
Definition part (r cl : nat) (x : tensor Z) (n' : list nat) : tensor Z :=
  match shape x with
  | b :: _ :: _ :: rest => tab (b :: n' ++ rest) (fun i => match i with bi :: u :: v :: q => at_ x (bi :: u + r :: v + cl :: q) | _ => 0%Z end)
  | _ => x
  end.

Example C55_case_part :
  let a := with_group "P4" "" (One 3) 2 (Some (One 2)) (Some (Some "valid")) None true in
  let x := some_signal [1; 7; 7; 1] in
  match test_layer 2 false a [None; Some 7; Some 7; Some 1] some_weights some_weights with
  | Ok L =>
      match apply L x, apply L (part 2 0 x [5; 5]), apply L (part 1 0 x [5; 5]) with
      | Ok y, Ok y', Ok y'' => same_tensor y' (part 1 0 y [2; 2]) && negb (same_tensor y'' (part 1 0 y [2; 2])) && negb (same_tensor y' (part 0 0 y [2; 2]))
      | _, _, _ => false
      end
  | _ => false
  end = true.
Proof. vm_compute. reflexivity. Qed.

(** A signal supported in the middle, translated by one stride (2 pixels) down, with
    padding; the transposed layer translates its output by 2 pixels per input pixel. *)
Definition middle (r : nat) : tensor Z :=
  tab [1; 7; 7; 1] (fun i => match i with
    | [_; u; v; _] => if ((2 + r <=? u) && (u <? 4 + r) && (2 <=? v) && (v <? 5))%nat then Z.of_nat (7 * (u - r) + v * v) else 0%Z
    | _ => 0%Z end).

Example C55_case_translated :
  let a tr := with_group "P4M" "P2MM" (One 3) 2 (Some (One 2)) (Some (Some "same_equiv")) None tr in
  match test_layer 2 false (a true) [None; Some 7; Some 7; Some 1] some_weights some_weights,
        test_layer 2 true (with_group "P4" "" (One 3) 2 (Some (One 2)) (Some (Some "same_equiv")) None true) [None; Some 7; Some 7; Some 1] some_weights some_weights with
  | Ok L, Ok LT =>
      match apply L (middle 0), apply L (middle 2), apply LT (middle 0), apply LT (middle 1) with
      | Ok y, Ok y', Ok z, Ok z' =>
          same_tensor (part 1 0 y' [3; 4]) (part 0 0 y [3; 4]) && negb (same_tensor y y') &&
          same_tensor (part 2 0 z' [11; 14]) (part 0 0 z [11; 14]) && negb (same_tensor (part 1 0 z' [11; 14]) (part 0 0 z [11; 14]))
      | _, _, _, _ => false
      end
  | _, _ => false
  end = true.
Proof. vm_compute. reflexivity. Qed.

Example C55_case_pooling :
  let a := mkPoolArgs (ByName "P4") (Some "P2") (One 2) (Some (One 1)) (Some (Some "valid")) "channels_last" true in
  let x := some_signal [1; 5; 5; 4; 1] in
  match test_pool 2 "max" a [None; Some 5; Some 5; Some 4; Some 1] with
  | Ok L => match pool_call L x, pool_call L (part 1 2 x [3; 3]) with
            | Ok y, Ok y' => same_tensor y' (part 1 2 y [2; 2]) && negb (same_tensor y' (part 0 2 y [2; 2]))
            | _, _ => false
            end
  | _ => false
  end = true.
Proof. vm_compute. reflexivity. Qed.

Print Assumptions C55_convolution_of_a_translated_signal.
Print Assumptions C55_convolution_of_a_part.
Print Assumptions C55_transposed_convolution_of_a_translated_signal.
Print Assumptions C55_pooling_of_a_part.
