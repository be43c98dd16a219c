(** C98: strides subsample. *)
From Verif Require Import ComposeFacts ExactFacts CorrelationFacts TranslationFacts ConvTheorems Properties_Shapes Properties_TransposedComplete Properties_Build Properties_Linear Properties_Correlation Properties_Compose Properties_Exact EquivSpec.
Local Open Scope string_scope.
Local Open Scope list_scope.

(** A signal with [before] and [after] zeros in front of and behind its spatial axes. *)
Definition zero_padded {A} {ZA : Zero A} (before after : list nat) (x : tensor A) : tensor A :=
  let d := List.length before in
  let n := firstn d (tl (shape x)) in
  tab (hd 0 (shape x) :: map (fun ax => nth ax before 0 + nth ax n 0 + nth ax after 0) (seq 0 d) ++ skipn d (tl (shape x)))
      (fun i => let p := firstn d (tl i) in
                if forallb (fun ax => (nth ax before 0 <=? nth ax p 0) && (nth ax p 0 <? nth ax before 0 + nth ax n 0))%nat (seq 0 d)
                then at_ x (hd 0 i :: map (fun ax => nth ax p 0 - nth ax before 0) (seq 0 d) ++ skipn d (tl i)) else zero).

(** Every [s]-th pixel of a signal on the group, at the elements [idx]. *)
Definition subsampled {A} {ZA : Zero A} (s idx : list nat) (z : tensor A) : tensor A :=
  let d := List.length s in
  tab (nth 0 (shape z) 0 :: map (fun ax => (nth (S ax) (shape z) 0 + nth ax s 0 - 1) / nth ax s 0) (seq 0 d) ++ [List.length idx; nth (d + 2) (shape z) 0])
      (fun i => at_ z (nth 0 i 0 :: map (fun ax => nth (S ax) i 0 * nth ax s 0) (seq 0 d) ++ [nth (nth (d + 1) i 0) idx 0; nth (d + 2) i 0])).

Lemma sampled_size n ke s : 0 < s -> ke <= n -> 0 < ke -> (out_size n ke 1 + s - 1) / s = out_size n ke s.
Proof.
  intros S K P. unfold out_size. rewrite Nat.div_1_r. replace (n - ke + 1 + s - 1) with (n - ke + 1 * s) by lia. rewrite Nat.div_add by lia. reflexivity.
Qed.

Section Padded.
Context {A : Type} {RA : Arith A}.

Lemma inside_axes before n p d : List.length before = d -> List.length n = d -> List.length p = d ->
  forallb (fun ax => (nth ax before 0 <=? nth ax p 0) && (nth ax p 0 <? nth ax before 0 + nth ax n 0))%nat (seq 0 d) = inside before n p.
Proof.
  intros L1 L2 L3. apply Bool.eq_true_iff_eq. rewrite (inside_spec before n p d) by assumption. rewrite forallb_forall. split.
  - intros H ax Hax. specialize (H ax ltac:(apply in_seq; lia)). apply andb_true_iff in H as [H1 H2].
    apply Nat.leb_le in H1. apply Nat.ltb_lt in H2. lia.
  - intros H ax I. apply in_seq in I. specialize (H ax ltac:(lia)). apply andb_true_iff. split; [apply Nat.leb_le|apply Nat.ltb_lt]; lia.
Qed.

Lemma zero_padded_eq before after (x : tensor A) b n r d :
  List.length before = d -> List.length after = d -> List.length n = d -> shape x = b :: n ++ r ->
  zero_padded before after x = tab (b :: padded before n after ++ r)
    (fun i => let p := spatial d i in if inside before n p then at_ x (nth 0 i 0 :: vzip Nat.sub p before ++ skipn d (tl i)) else zero).
Proof.
  intros Lb La Ln SH. unfold zero_padded. rewrite SH, Lb. cbn [hd tl]. rewrite firstn_app_exact by lia. rewrite skipn_app_exact by lia.
  assert (PP : map (fun ax => nth ax before 0 + nth ax n 0 + nth ax after 0) (seq 0 d) = padded before n after).
  { apply nth_ext0; [rewrite map_length, seq_length, (length_padded _ _ _ d) by assumption; reflexivity|]. intros ax Hax. rewrite map_length, seq_length in Hax.
    rewrite nth_on_axes by exact Hax. rewrite (nth_padded _ _ _ d) by assumption. reflexivity. }
  rewrite PP. apply tab_ext. intros i I. destruct i as [|bi i]; [inversion I|]. apply inb_cons in I as [_ I].
  apply inb_app_split in I as [p [t [-> [P T]]]]. pose proof (inb_length _ _ P) as LP. rewrite (length_padded _ _ _ d) in LP by assumption.
  cbv zeta. rewrite spatial_ix by exact LP. cbn [hd tl nth]. rewrite firstn_app_exact by lia. rewrite skipn_app_exact by lia.
  rewrite (inside_axes before n p d) by assumption. destruct (inside before n p); [|reflexivity]. f_equal. f_equal. f_equal.
  apply nth_ext0; [rewrite map_length, seq_length, length_vzip by lia; lia|]. intros ax Hax. rewrite map_length, seq_length in Hax.
  rewrite nth_on_axes by exact Hax. rewrite nth_vzip by lia. reflexivity.
Qed.

Lemma merged_padded d valued before after (x : tensor A) b n g c : wf x ->
  List.length before = d -> List.length after = d -> List.length n = d -> shape x = signal_shape valued b n g c ->
  merged d valued (zero_padded before after x) b (padded before n after) (if valued then g * c else c) (bordered before n (merged_fun valued x c)).
Proof.
  intros W Lb La Ln SH. rewrite (zero_padded_eq before after x b n _ d Lb La Ln SH).
  set (x' := tab _ _). assert (LP : List.length (padded before n after) = d) by (apply length_padded; assumption).
  pose proof (merged_input d valued x' b (padded before n after) g c (wf_tab _ _) LP ltac:(unfold x'; rewrite shape_tab; reflexivity)) as MG.
  unfold merged in *. rewrite MG. f_equal. apply sig3_ext; [exact LP|]. intros bi p q B P Q. pose proof (inb_length _ _ P) as L. rewrite LP in L.
  unfold bordered, merged_fun. destruct valued.
  - unfold fun4, x'. assert (PC : 0 < c) by (destruct c; [rewrite Nat.mul_0_r in Q; lia|lia]).
    rewrite at_tab by (apply inb4; [exact B|exact P|apply Nat.div_lt_upper_bound; lia|apply Nat.mod_upper_bound; lia]).
    cbv zeta. rewrite spatial_ix by exact L. cbn [nth tl]. rewrite skipn_app_exact by lia. reflexivity.
  - unfold fun3, x'. rewrite at_tab by (apply inb3; assumption). cbv zeta. rewrite spatial_ix by exact L. cbn [nth tl]. rewrite skipn_app_exact by lia. reflexivity.
Qed.
End Padded.

Section Strides.
Context {A : Type} {RA : Arith A}.

(** C98: a layer with strides [s] and any padding is the layer with strides of 1, without
    padding, for the whole group and with the same weights, applied to the input with a border
    of zeros, of which every [s]-th pixel and the elements of the subgroup are kept.  The border
    depends on the layer and the sizes of the input; it is as wide on both sides for
    'valid_equiv', and for inputs of the size that an equivariant layer was built for, and then
    the last window ends where the border ends. *)
Theorem C98_strides_subsample name G (a a1 : conv_args A) H H1 idx opt opt1 (valued : bool) bs bs1 m m1 g c kinit binit L L1 k s dl :
  layer_for name G a -> layer_for name G a1 ->
  let d := dimension_of name in
  let n := List.length (symmetries_of name) in
  ca_subgroup a = Some H -> subgroup_indices G H idx -> ca_subgroup a1 = Some H1 -> subgroup_indices G H1 (seq 0 n) ->
  option_of a opt -> option_of a1 opt1 -> sizes d a k s dl ->
  (* the same layer with strides of 1, without padding and for the whole group *)
  sizes d a1 k (repeat 1 d) dl -> without_padding opt1 (repeat 1 d) ->
  ca_filters a1 = ca_filters a -> ca_activation a1 = ca_activation a -> ca_use_bias a1 = ca_use_bias a ->
  built d false a (static_signal_shape valued bs m g c) kinit binit L -> List.length m = d ->
  built d false a1 (static_signal_shape valued bs1 m1 g c) kinit binit L1 -> List.length m1 = d ->
  forall m', List.length m' = d ->
  exists before after, List.length before = d /\ List.length after = d /\
    (opt = "VALID" -> before = repeat 0 d /\ after = repeat 0 d) /\
    (opt = "VALID_EQUIV" -> before = after) /\
    (forall ax, ax < d -> nth ax before 0 <= nth ax after 0 + 1 /\ nth ax after 0 <= nth ax before 0 + 1) /\
    (m' = m -> dl = repeat 1 d -> (ca_allow a = false \/ mem_str opt ["SAME_EQUIV"; "VALID_EQUIV"] = true) ->
       before = after /\
       forall ax, ax < d -> exists q : Z,
         (Z.of_nat (nth ax before 0%nat + nth ax m 0%nat + nth ax after 0%nat) - Z.of_nat (nth ax k 0%nat) = q * Z.of_nat (nth ax s 0%nat))%Z) /\
    forall x b, wf x -> shape x = signal_shape valued b m' g c ->
    apply L x = (z <- apply L1 (zero_padded before after x) ;; Ok (subsampled s idx z)).
Proof.
  intros LF LF1 d n HS SI HS1 SI1 OP OP1 SZ SZ1 WP1 FI AC UB B Lm B1 Lm1 m' Lm'.
  destruct (built_facts name G a H opt false valued bs m g c kinit binit L k s dl LF HS OP B Lm SZ)
    as [OK [eb [ea [act [dom [WO [SA [SD [CF [CC _]]]]]]]]]]. fold d in OK, WO, CF.
  destruct (built_facts name G a1 H1 opt1 false valued bs1 m1 g c kinit binit L1 k (repeat 1 d) dl LF1 HS1 OP1 B1 Lm1 SZ1)
    as [_ [eb1 [ea1 [act1 [dom1 [WO1 [SA1 [SD1 [CF1 [CC1 _]]]]]]]]]]. fold d in WO1, CF1.
  set (E := symmetries_of name) in *. set (eq := needs_equal_sizes name) in *.
  destruct (without_padding_widths _ _ _ d _ _ _ _ WP1 (repeat_length 1 d) WO1) as [SM1 [-> ->]]. rewrite SM1, FI, AC, UB in CF1.
  assert (act1 = seq 0 n) as -> by (unfold sub_idx, subgroup_indices in *; congruence).
  assert (act = idx) as -> by (unfold sub_idx, subgroup_indices in *; congruence).
  set (o := ca_filters a) in *. set (C := if valued then g * c else c) in *. set (ub := ca_use_bias a) in *.
  assert (Lk : List.length k = d) by (destruct CF; assumption). assert (Ls : List.length s = d) by (destruct CF; assumption).
  assert (Ldl : List.length dl = d) by (destruct CF; assumption). assert (Po : 0 < o) by (destruct CF; assumption).
  assert (Ps : forall ax, ax < d -> 0 < nth ax s 0) by (destruct CF; assumption).
  assert (Pk : forall ax, ax < d -> 0 < nth ax k 0) by (destruct CF; assumption).
  pose proof WO as [Leb [Lea W]].
  set (ke := vzip dilated k dl). assert (Lke : List.length ke = d) by (unfold ke; rewrite length_vzip; lia).
  set (pm := padded eb m' ea). assert (Lpm : List.length pm = d) by (apply length_padded; assumption).
  set (pads := builtin_pads (padding_string (is_same opt)) pm ke s).
  assert (Lp : List.length pads = d) by (apply length_builtin; assumption).
  set (before := vzip Nat.add eb (map fst pads)). set (after := vzip Nat.add ea (map snd pads)).
  assert (Lb : List.length before = d) by (unfold before; rewrite length_vzip; rewrite ?map_length; lia).
  assert (La : List.length after = d) by (unfold after; rewrite length_vzip; rewrite ?map_length; lia).
  assert (SPS : (padding_string (is_same opt) =? "same") = is_same opt) by (unfold padding_string; destruct (is_same opt); reflexivity).
  assert (NP : forall ax, ax < d -> nth ax pads (0, 0) = backend_pads (is_same opt) (nth ax eb 0 + nth ax m' 0 + nth ax ea 0) (nth ax ke 0) (nth ax s 0)).
  { intros ax Hax. unfold pads. rewrite (nth_builtin _ _ _ _ d) by assumption. rewrite SPS. unfold pm. rewrite (nth_padded _ _ _ d) by assumption. reflexivity. }
  assert (NB : forall ax, ax < d -> nth ax before 0 = nth ax eb 0 + fst (nth ax pads (0, 0)) /\ nth ax after 0 = nth ax ea 0 + snd (nth ax pads (0, 0))).
  { intros ax Hax. unfold before, after. rewrite !nth_vzip by (rewrite ?map_length; lia). split; f_equal.
    - rewrite (nth_indep _ 0 (fst (0, 0))) by (rewrite map_length; lia). apply map_nth.
    - rewrite (nth_indep _ 0 (snd (0, 0))) by (rewrite map_length; lia). apply map_nth. }
  exists before, after. split; [exact Lb|]. split; [exact La|].
  assert (EE : forall ax, ax < d -> nth ax ea 0 <= nth ax eb 0 <= nth ax ea 0 + 1).
  { intros ax Hax. destruct W as [[_ [-> ->]]|[_ W]]; [rewrite nth_zeros; lia|]. specialize (W ax Hax). cbv zeta in W. destruct W as [_ [_ [E1 [E2 _]]]].
    set (e := nth ax eb 0 + nth ax ea 0) in *. pose proof (Nat.div_mod e 2 ltac:(lia)). pose proof (Nat.mod_upper_bound e 2 ltac:(lia)). lia. }
  split; [|split; [|split; [|split]]].
  - intros ->. assert (ZA : forall ax, ax < d -> nth ax eb 0 = 0 /\ nth ax ea 0 = 0).
    { intros ax Hax. destruct W as [[_ [-> ->]]|[_ W]]; [rewrite nth_zeros; lia|]. specialize (W ax Hax). cbv zeta in W. destruct W as [_ [_ [_ [_ E0]]]]. specialize (E0 eq_refl). lia. }
    split; apply nth_ext0; try (rewrite repeat_length; assumption); intros ax Hax; rewrite nth_repeat; [destruct (NB ax ltac:(lia)) as [-> _]|destruct (NB ax ltac:(lia)) as [_ ->]];
      rewrite NP by lia; destruct (ZA ax ltac:(lia)) as [Z1 Z2]; [rewrite Z1|rewrite Z2]; reflexivity.
  - intros ->. apply nth_ext0; [lia|]. intros ax Hax. destruct (NB ax ltac:(lia)) as [-> ->]. rewrite NP by lia. cbn [backend_pads is_same mem_str existsb String.eqb Ascii.eqb Bool.eqb orb fst snd].
    destruct W as [[F _]|[_ W]]; [discriminate F|]. specialize (W ax ltac:(lia)). cbv zeta in W. destruct W as [_ [[_ EV] [E1 [E2 _]]]].
    cbn [is_same mem_str existsb String.eqb Ascii.eqb Bool.eqb orb] in EV. destruct EV as [z Z].
    set (e := nth ax eb 0 + nth ax ea 0) in *. assert (DE : e / 2 = z) by (replace e with (z * 2) by lia; apply Nat.div_mul; lia). lia.
  - intros ax Hax. destruct (NB ax Hax) as [-> ->]. specialize (EE ax Hax). rewrite NP by exact Hax. unfold backend_pads. destruct (is_same opt); [|cbn [fst snd]; lia].
    unfold same_pads. cbn [fst snd]. set (t := same_total _ _ _). pose proof (Nat.div_mod t 2 ltac:(lia)). pose proof (Nat.mod_upper_bound t 2 ltac:(lia)). lia.
  - intros -> -> AL.
    assert (PL : is_plain opt && ca_allow a = false).
    { destruct AL as [-> |AL]; [apply andb_false_r|]. apply mem_str_In in AL. destruct AL as [<- |[<- |[]]]; reflexivity. }
    destruct W as [[F _]|[_ W]]; [congruence|].
    assert (KE : ke = k).
    { apply nth_ext0; [lia|]. intros ax Hax. unfold ke. rewrite nth_vzip by lia. rewrite nth_repeat1 by lia. unfold dilated. specialize (Pk ax ltac:(lia)). lia. }
    assert (BOTH : forall ax, ax < d -> nth ax before 0 = nth ax after 0 /\ exists q : Z,
      (Z.of_nat (nth ax before 0%nat + nth ax m 0%nat + nth ax after 0%nat) - Z.of_nat (nth ax k 0%nat) = q * Z.of_nat (nth ax s 0%nat))%Z).
    { intros ax Hax. destruct (NB ax Hax) as [-> ->]. rewrite NP, KE by exact Hax. specialize (W ax Hax). cbv zeta in W. destruct W as [_ [AD [E1 [E2 _]]]].
      set (e := nth ax eb 0 + nth ax ea 0) in *. specialize (Ps ax Hax). specialize (Pk ax Hax).
      replace (nth ax eb 0 + nth ax m 0 + nth ax ea 0) with (nth ax m 0 + e) by (unfold e; lia).
      pose proof AD as [[q Q] EV]. unfold backend_pads. destruct (is_same opt).
      - unfold same_pads. rewrite (same_total_padded _ _ _ _ Ps Pk AD). set (t := same_total (nth ax m 0) (nth ax k 0) (nth ax s 0)) in *.
        pose proof (split_even t e EV) as SE. cbn [fst snd]. pose proof (Nat.div_mod t 2 ltac:(lia)). pose proof (Nat.mod_upper_bound t 2 ltac:(lia)).
        split; [lia|]. exists q. lia.
      - pose proof (split_even 0 e EV) as SE. change (0 / 2) with 0 in SE. cbn [fst snd]. split; [lia|]. exists q. lia. }
    split; [apply nth_ext0; [lia|]; intros ax Hax; apply BOTH; lia|]. intros ax Hax. apply BOTH. exact Hax.
  - intros x b WX SH.
    pose proof (merged_input d valued x b m' g c WX Lm' SH) as MG. change (if valued then g * c else c) with C in MG. set (X := merged_fun valued x c) in *.
    rewrite (layer_form G d E eq OK false valued idx dom c C o k s dl eb ea (is_same opt) ub (ca_activation a) kinit binit L x b m' g X CF CC Lm' SH MG).
    unfold layer_runs, layer_outs, layer_value, layer_src, layer_term, layer_in. fold ke pm pads.
    set (m2 := padded (map fst pads) pm (map snd pads)).
    assert (Lm2 : List.length m2 = d) by (apply length_padded; rewrite ?map_length; assumption).
    assert (M2 : m2 = padded before m' after).
    { apply nth_ext0; [rewrite (length_padded before m' after d) by assumption; exact Lm2|]. intros ax Hax. assert (HD : ax < d) by lia.
      unfold m2. rewrite !(nth_padded _ _ _ d) by (rewrite ?map_length; assumption). destruct (NB ax HD) as [-> ->]. unfold pm. rewrite (nth_padded _ _ _ d) by assumption.
      rewrite (nth_indep (map fst pads) 0 (fst (0, 0))) by (rewrite map_length; lia). rewrite (nth_indep (map snd pads) 0 (snd (0, 0))) by (rewrite map_length; lia). rewrite !map_nth. lia. }
    pose proof (merged_padded d valued before after x b m' g c WX Lb La Lm' SH) as MP. change (if valued then g * c else c) with C in MP. rewrite <- M2 in MP.
    assert (SP : shape (zero_padded before after x) = signal_shape valued b m2 g c).
    { rewrite (zero_padded_eq before after x b m' _ d Lb La Lm' SH), shape_tab, <- M2. reflexivity. }
    rewrite (plain_form G d E eq OK valued (seq 0 n) dom1 c C o k (repeat 1 d) dl ub (ca_activation a) kinit binit L1 _ b m2 g _ CF1 CC1 Lm2 SP MP). fold ke.
    destruct (forallb _ (combine ke m2)) eqn:R; cbn [bind]; [|reflexivity]. pose proof (forallb_combine_le ke m2 d Lke Lm2 R) as FIT. f_equal.
    set (M := outs m2 ke s). set (M1 := outs m2 ke (repeat 1 d)).
    assert (LM : List.length M = d) by (apply length_outs; assumption). assert (LM1 : List.length M1 = d) by (apply length_outs; try assumption; apply repeat_length).
    assert (NM : forall ax, ax < d -> nth ax M 0 = out_size (nth ax m2 0) (nth ax ke 0) (nth ax s 0)) by (intros ax Hax; apply (nth_outs m2 ke s d ax); assumption).
    assert (NM1 : forall ax, ax < d -> nth ax M1 0 = out_size (nth ax m2 0) (nth ax ke 0) 1).
    { intros ax Hax. unfold M1. rewrite (nth_outs m2 ke _ d ax) by (try assumption; apply repeat_length). rewrite nth_repeat1 by exact Hax. reflexivity. }
    assert (NKE : forall ax, ax < d -> nth ax ke 0 = (nth ax k 0 - 1) * nth ax dl 0 + 1) by (intros ax Hax; unfold ke; rewrite nth_vzip by lia; reflexivity).
    set (F1 := fun bi p h oo => ca_activation a _). set (F2 := fun bi p h oo => ca_activation a _).
    assert (LAST : forall (u v w : nat) (l : list nat), List.length l = d -> nth (d + 2) (u :: l ++ [v; w]) 0 = w).
    { intros u v w l Ll. rewrite Nat.add_comm. cbn [Nat.add nth]. rewrite app_nth2 by lia. rewrite Ll. replace (S d - d) with 1 by lia. reflexivity. }
    unfold subsampled. rewrite Ls, shape_tab. rewrite LAST by exact LM1. cbn [nth].
    assert (MM : map (fun ax => (nth ax (M1 ++ [List.length (seq 0 n); o]) 0 + nth ax s 0 - 1) / nth ax s 0) (seq 0 d) = M).
    { apply nth_ext0; [rewrite map_length, seq_length; lia|]. intros ax Hax. rewrite map_length, seq_length in Hax. rewrite nth_on_axes by exact Hax.
      rewrite app_nth1 by lia. rewrite NM1, NM by exact Hax. apply sampled_size; [apply Ps; exact Hax|apply FIT; exact Hax|rewrite NKE by exact Hax; rewrite Nat.add_1_r; apply Nat.lt_0_succ]. }
    rewrite MM.
    apply tab_ext. intros i I. apply inb4_inv in I as [bi [p [h [oo [-> [Bb [P [Hh O]]]]]]]]. pose proof (inb_length _ _ P) as LP. rewrite LM in LP.
    rewrite sig4_ix by exact LP. cbv beta. rewrite (chan_ix d bi p h [oo] LP), LAST by exact LP. cbn [nth].
    set (p' := map _ (seq 0 d)).
    assert (Lp' : List.length p' = d) by (unfold p'; rewrite map_length; apply seq_length).
    assert (Np' : forall ax, ax < d -> nth ax p' 0 = nth ax p 0 * nth ax s 0) by (intros ax Hax; unfold p'; rewrite nth_on_axes by exact Hax; rewrite app_nth1 by lia; reflexivity).
    assert (BND : forall ax, ax < d -> nth ax p 0 * nth ax s 0 + nth ax ke 0 <= nth ax m2 0).
    { intros ax Hax. specialize (FIT ax Hax). pose proof (inb_nth _ _ ax P ltac:(lia)) as Hi. rewrite NM in Hi by exact Hax. unfold out_size in Hi. specialize (Ps ax Hax).
      pose proof (Nat.mul_div_le (nth ax m2 0 - nth ax ke 0) (nth ax s 0) ltac:(lia)).
      assert (nth ax p 0 * nth ax s 0 <= nth ax s 0 * ((nth ax m2 0 - nth ax ke 0) / nth ax s 0)) by (rewrite Nat.mul_comm; apply Nat.mul_le_mono_l; lia). lia. }
    assert (P' : inb M1 p').
    { apply (Properties_Exact.inb_of_nth d); [exact LM1|exact Lp'|]. intros ax Hax. rewrite Np', NM1 by lia. unfold out_size. rewrite Nat.div_1_r. specialize (BND ax ltac:(lia)). lia. }
    destruct (sub_idx_facts _ _ _ _ OK _ _ SA) as [_ [BD _]].
    assert (AH : nth h idx 0 < n) by (apply BD, nth_In; exact Hh).
    rewrite at_sig4 by (try assumption; rewrite seq_length; exact AH). unfold F1, F2. f_equal. f_equal.
    (* the windows *)
    assert (KV : forall j q, kval G E valued dom idx c o k C (tab (k ++ [C; o]) kinit) j q (h * o + oo)
                           = kval G E valued dom1 (seq 0 n) c o k C (tab (k ++ [C; o]) kinit) j q (nth h idx 0 * o + oo)).
    { intros j q. assert (S1 : (h * o + oo) / o = h /\ (h * o + oo) mod o = oo) by (apply split_ok; exact O).
      assert (S2 : (nth h idx 0 * o + oo) / o = nth h idx 0 /\ (nth h idx 0 * o + oo) mod o = oo) by (apply split_ok; exact O).
      unfold kval, kidx, kernel_src. destruct S1 as [-> ->], S2 as [-> ->]. rewrite (seq_nth (len := n) 0 0 AH). cbn [Nat.add].
      assert (DD : chan_from G valued dom c (nth h idx 0) q = chan_from G valued dom1 c (nth h idx 0) q).
      { destruct valued; [|reflexivity]. destruct (SD eq_refl) as [D1 _], (SD1 eq_refl) as [D2 _].
        rewrite (whole_dom _ _ _ _ _ OK D1), (whole_dom _ _ _ _ _ OK D2). reflexivity. }
      rewrite DD. reflexivity. }
    unfold window. f_equal. apply map_ext_in. intros jc I. apply In_indices in I.
    apply inb_app_split in I as [j [cc [-> [J I]]]]. apply inb1 in I as [q [-> Q]]. pose proof (inb_length _ _ J) as LJ.
    rewrite firstn_app_exact by lia. rewrite app_nth2 by lia. replace (d - List.length j) with 0 by lia. change (nth 0 [q] 0) with q.
    rewrite KV. unfold cterm. f_equal. fold before.
    assert (NJ : forall ax, ax < d -> nth ax j 0 * nth ax dl 0 <= (nth ax k 0 - 1) * nth ax dl 0).
    { intros ax Hax. apply Nat.mul_le_mono_r. pose proof (inb_nth _ _ ax J ltac:(lia)). lia. }
    rewrite (csrc_read d m2 (repeat 1 d) dl p' j Lm2).
    2:{ intros ax Hax. rewrite nth_repeat1, Np' by exact Hax. specialize (BND ax Hax). specialize (NJ ax Hax). rewrite NKE in BND by exact Hax. lia. }
    cbn [option_map or_zero]. unfold bordered. set (i1 := read_at d (repeat 1 d) dl p' j).
    assert (Li1 : List.length i1 = d) by (unfold i1, read_at; rewrite map_length; apply seq_length).
    assert (Ni1 : forall ax, ax < d -> nth ax i1 0 = nth ax p 0 * nth ax s 0 + nth ax j 0 * nth ax dl 0).
    { intros ax Hax. unfold i1, read_at. rewrite nth_on_axes by exact Hax. rewrite nth_repeat1, Np' by exact Hax. lia. }
    destruct (inside before m' i1) eqn:IN.
    + assert (IN' := proj1 (inside_spec before m' i1 d Lb Lm' Li1) IN).
      assert (CS : csrc m' s dl before p j = Some (vzip Nat.sub i1 before)).
      { unfold csrc. rewrite Lm'. apply wsrc_all; [rewrite length_vzip; lia|]. intros ax Hax. rewrite nth_vzip by lia. specialize (IN' ax Hax). rewrite Ni1 in * by exact Hax.
        unfold conv_src. rewrite (proj2 (Nat.leb_le _ _)), (proj2 (Nat.ltb_lt _ _)) by lia. reflexivity. }
      rewrite CS. reflexivity.
    + destruct (inside_none before m' i1 d Lb Lm' Li1 IN) as [ax [Hax NI]].
      assert (CS : csrc m' s dl before p j = None).
      { unfold csrc. rewrite Lm'. apply wsrc_none. exists ax. split; [exact Hax|]. rewrite Ni1 in NI by exact Hax. unfold conv_src.
        destruct (Nat.leb_spec (nth ax before 0) (nth ax p 0 * nth ax s 0 + nth ax j 0 * nth ax dl 0)); [|reflexivity].
        destruct (Nat.ltb_spec (nth ax p 0 * nth ax s 0 + nth ax j 0 * nth ax dl 0 - nth ax before 0) (nth ax m' 0)); [lia|reflexivity]. }
      rewrite CS. reflexivity.
Qed.

(** The layer with strides of 1 exists, built for all sizes that are large enough. *)
Definition with_unit_strides (a : conv_args A) : conv_args A :=
  mkConvArgs (ca_group a) (Some "") (ca_kernel_size a) (ca_filters a) (Some (One 1)) (Some (Some "valid")) (ca_dilation a) (ca_data_format a) true (ca_use_bias a) (ca_activation a).

Theorem C98_the_layer_exists name G (a : conv_args A) H idx opt (valued : bool) bs m g c kinit binit L k s dl :
  layer_for name G a ->
  let d := dimension_of name in
  let a1 := with_unit_strides a in
  ca_subgroup a = Some H -> subgroup_indices G H idx -> option_of a opt -> sizes d a k s dl ->
  built d false a (static_signal_shape valued bs m g c) kinit binit L -> List.length m = d ->
  forall bs1 m1, List.length m1 = d -> (forall ax, ax < d -> (nth ax k 0 - 1) * nth ax dl 0 <= nth ax m1 0) ->
  exists L1, built d false a1 (static_signal_shape valued bs1 m1 g c) kinit binit L1 /\
    forall x b m', wf x -> List.length m' = d -> shape x = signal_shape valued b m' g c ->
    exists before after, apply L x = (z <- apply L1 (zero_padded before after x) ;; Ok (subsampled s idx z)).
Proof.
  intros LF d a1 HS SI OP SZ B Lm bs1 m1 Lm1 BIG. pose proof SZ as [SK [SS SD]].
  destruct (built_facts name G a H opt false valued bs m g c kinit binit L k s dl LF HS OP B Lm SZ)
    as [OK [eb [ea [act [dom [WO [SA [SDm [CF [CC _]]]]]]]]]]. fold d in OK, WO, CF.
  assert (ONE : standardize_tuple d (One 1) = Ok (repeat 1 d)).
  { assert (E1 : standardize_tuple d (One 1) = standardize_tuple d (Tuple (map Z.of_nat (repeat 1 d)))).
    { unfold standardize_tuple, per_axis. assert (R : repeat 1%Z d = map Z.of_nat (repeat 1 d)) by (clear; induction d as [|d' IH]; [reflexivity|cbn [repeat map]; rewrite IH; reflexivity]). rewrite R. reflexivity. }
    rewrite E1. apply says_sizes; [apply repeat_length|]. intros v I. apply repeat_spec in I. lia. }
  assert (LF1 : layer_for name G a1) by exact LF.
  assert (OP1 : option_of a1 "VALID") by (exists "valid"; split; reflexivity).
  assert (SZ1 : sizes d a1 k (repeat 1 d) dl) by (split; [exact SK|split; [exact ONE|exact SD]]).
  pose proof (sub_idx_whole _ _ _ _ OK) as WH.
  pose proof B as [L0 [I0 B0]].
  destruct (proj1 (C53_when_the_constructor_accepts name G a H false LF HS) (ex_intro _ L0 I0)) as [_ [PF [_ _]]].
  assert (I1 : exists L0, conv_init d false a1 = Ok L0).
  { apply (C53_when_the_constructor_accepts name G a1 "" false LF1 eq_refl). split; [left; reflexivity|]. split; [exact PF|]. split.
    - exists "valid". split; [reflexivity|]. exists "valid", "". split; [reflexivity|]. split; [right; left; reflexivity|left; reflexivity].
    - exists k, (repeat 1 d), dl. split; [exact SZ1|]. left. intros v I. apply repeat_spec in I. exact I. }
  destruct I1 as [L01 I1].
  destruct (proj2 (C53_when_convolutions_build name G a1 "" "VALID" valued bs1 m1 g c kinit binit L01 k (repeat 1 d) dl LF1 eq_refl OP1 I1 Lm1 SZ1)) as [L1 BL1].
  - split; [eexists; exact WH|]. split; [|split; [|split]].
    + intros V. destruct (SDm V) as [D1 D2]. rewrite D2, (whole_dom _ _ _ _ _ OK D1). apply seq_length.
    + left. reflexivity.
    + right. intros ax Hax. rewrite nth_repeat1 by exact Hax. specialize (BIG ax Hax). lia.
    + destruct CF; assumption.
  - exists L1. assert (BB : built d false a1 (static_signal_shape valued bs1 m1 g c) kinit binit L1) by (exists L01; split; [exact I1|exact BL1]).
    split; [exact BB|]. intros x b m' W Lm' SH.
    destruct (C98_strides_subsample name G a a1 H "" idx opt "VALID" valued bs bs1 m m1 g c kinit binit L L1 k s dl LF LF1 HS SI eq_refl WH OP OP1 SZ SZ1
      (or_introl eq_refl) eq_refl eq_refl eq_refl B Lm BB Lm1 m' Lm') as [before [after [_ [_ [_ [_ [_ [_ EQ]]]]]]]].
    exists before, after. exact (EQ x b W SH).
Qed.

End Strides.

Print Assumptions C98_strides_subsample.
Print Assumptions C98_the_layer_exists.

(** Concrete cases: 'same_equiv' with strides 2 and kernels of 3x3 pixels on 5x5 pixels, and
    'valid_equiv' with strides 3 and kernels of 2x2 pixels on 6x6 pixels. *)
Definition strided (p : string) (k s : Z) : conv_args Z :=
  mkConvArgs (ByName "P4") (Some "P2") (One k) 1 (Some (One s)) (Some (Some p)) None "channels_last" false true (fun z => z).

Definition both_ways (p : string) (k s : Z) (n border : nat) : option (list nat * list Z * list Z) :=
  match test_layer 2 false (strided p k s) [None; Some n; Some n; Some 1] small_weights (fun _ => 3%Z),
        test_layer 2 false (with_unit_strides (strided p k s)) [None; Some 9; Some 9; Some 1] small_weights (fun _ => 3%Z) with
  | Ok L, Ok L1 =>
      let x := some_signal [1; n; n; 1] in
      match apply L x, apply L1 (zero_padded [border; border] [border; border] x) with
      | Ok y, Ok z => Some (shape y, data y, data (subsampled [Z.to_nat s; Z.to_nat s] [0; 2] z)) | _, _ => None end
  | _, _ => None end.

Example C98_case :
  both_ways "same_equiv" 3 2 5 1 =
    Some ([1; 3; 3; 2; 1], [-12; -10; -115; -19; -83; -41; -46; 16; -42; -154; -55; -21; -28; -96; -52; -60; -18; -66]%Z,
          [-12; -10; -115; -19; -83; -41; -46; 16; -42; -154; -55; -21; -28; -96; -52; -60; -18; -66]%Z) /\
  both_ways "valid_equiv" 2 3 6 1 =
    Some ([1; 3; 3; 2; 1], [-2; 8; -79; 85; -17; 23; 0; 6; 76; -70; -20; 26; 21; -15; 5; 1; 17; -11]%Z,
          [-2; 8; -79; 85; -17; 23; 0; 6; 76; -70; -20; 26; 21; -15; 5; 1; 17; -11]%Z).
Proof. vm_compute. split; reflexivity. Qed.
