(** C102: receptive fields. *)
From Verif Require Import Properties_Layers Properties_Pooling LinearFacts TranslationFacts Properties_Strides.
From Verif Require Import EquivSpec.
Local Open Scope string_scope.
Local Open Scope list_scope.

(** Input pixel [i] lies in the window of output pixel [p]: kernel size [k], strides [s],
    dilation rates [dl], and [before] zeros in front of the image. *)
Definition in_window (k s dl before p i : list nat) : Prop :=
  forall ax, ax < List.length k -> exists j, j < nth ax k 0 /\ nth ax i 0 + nth ax before 0 = nth ax p 0 * nth ax s 0 + j * nth ax dl 0.

(** Input pixel [i] reaches output pixel [p] of a transposed convolution: [before] zeros in
    front of the image, then [s - 1] zeros between neighbours, and [cut] pixels removed in front. *)
Definition reaches (k s dl before cut p i : list nat) : Prop :=
  forall ax, ax < List.length k -> exists j, j < nth ax k 0 /\
    (nth ax i 0 + nth ax before 0) * nth ax s 0 + j * nth ax dl 0 = nth ax p 0 + nth ax cut 0.

(** The zeros [before] and [after] the image, along each axis, of a layer called on
    images of sizes [m'], built for sizes [m]: none for 'valid', as wide on both sides for 'valid_equiv', nearly so
    always; for the sizes that a layer padding for equivariance ([checked], without dilation) was built for they are as wide on
    both sides, and the windows fit exactly. *)
Definition border_of (checked : Prop) (d : nat) (opt : string) (m k s dl m' before after : list nat) : Prop :=
  List.length before = d /\ List.length after = d /\
  (opt = "VALID" -> before = repeat 0 d /\ after = repeat 0 d) /\
  (opt = "VALID_EQUIV" -> before = after) /\
  (forall ax, ax < d -> nth ax before 0 <= nth ax after 0 + 1 /\ nth ax after 0 <= nth ax before 0 + 1) /\
  (m' = m -> dl = repeat 1 d -> checked ->
     before = after /\
     forall ax, ax < d -> exists q : Z,
       (Z.of_nat (nth ax before 0%nat + nth ax m 0%nat + nth ax after 0%nat) - Z.of_nat (nth ax k 0%nat) = q * Z.of_nat (nth ax s 0%nat))%Z).

(** A convolution does not allow other sizes, or pads by itself. *)
Definition conv_checked {A} (a : conv_args A) (opt : string) : Prop := ca_allow a = false \/ mem_str opt ["SAME_EQUIV"; "VALID_EQUIV"] = true.
(** The same for a pooling layer, which computes its padding with its strides only if they are given. *)
Definition pool_checked (a : pool_args) (opt : string) : Prop :=
  pa_strides a <> None /\ (pa_allow a = false \/ mem_str opt ["SAME_EQUIV"; "VALID_EQUIV"] = true).

Section Fields.
Context {A : Type} {RA : Arith A}.

Lemma csrc_in_window d m k s dl before p j i : List.length m = d -> List.length k = d -> inb k j ->
  csrc m s dl before p j = Some i -> inb m i /\ in_window k s dl before p i.
Proof.
  intros Lm Lk J S. unfold csrc in S. rewrite Lm in S. apply wsrc_some in S as [Li S].
  assert (EQ : forall ax, ax < d -> nth ax i 0 + nth ax before 0 = nth ax p 0 * nth ax s 0 + nth ax j 0 * nth ax dl 0 /\ nth ax i 0 < nth ax m 0).
  { intros ax Hax. specialize (S ax Hax). unfold conv_src in S.
    destruct (Nat.leb_spec (nth ax before 0) (nth ax p 0 * nth ax s 0 + nth ax j 0 * nth ax dl 0)); [|discriminate S].
    destruct (Nat.ltb_spec (nth ax p 0 * nth ax s 0 + nth ax j 0 * nth ax dl 0 - nth ax before 0) (nth ax m 0)); [|discriminate S].
    cbn [andb] in S. assert (EO : forall u v : nat, Some u = Some v -> u = v) by congruence. apply EO in S. lia. }
  split.
  - apply inb_intro; [lia|]. intros ax Hax. apply EQ. lia.
  - intros ax Hax. exists (nth ax j 0). split; [apply (inb_nth _ _ ax J); lia|]. apply EQ. lia.
Qed.

Lemma layer_border (checked : Prop) d allow opt m m' k s s' dl eb ea :
  (checked -> s' = s /\ (allow = false \/ mem_str opt ["SAME_EQUIV"; "VALID_EQUIV"] = true)) ->
  widths_ok (is_plain opt) allow (is_same opt) false d m k s' eb ea ->
  List.length k = d -> List.length s = d -> List.length dl = d -> List.length m' = d ->
  (forall ax, ax < d -> 0 < nth ax s 0) -> (forall ax, ax < d -> 0 < nth ax k 0) ->
  border_of checked d opt m k s dl m' (vzip Nat.add eb (map fst (builtin_pads (padding_string (is_same opt)) (padded eb m' ea) (vzip dilated k dl) s)))
    (vzip Nat.add ea (map snd (builtin_pads (padding_string (is_same opt)) (padded eb m' ea) (vzip dilated k dl) s))).
Proof.
  intros CH WO Lk Ls Ldl Lm' Ps Pk.
  pose proof WO as [Leb [Lea W]].
  set (ke := vzip dilated k dl). assert (Lke : List.length ke = d) by (unfold ke; rewrite length_vzip; lia).
  set (pm := padded eb m' ea). assert (Lpm : List.length pm = d) by (apply length_padded; assumption).
  set (pads := builtin_pads (padding_string (is_same opt)) pm ke s).
  assert (Lp : List.length pads = d) by (apply length_builtin; assumption).
  set (before := vzip Nat.add eb (map fst pads)). set (after := vzip Nat.add ea (map snd pads)).
  assert (Lb : List.length before = d) by (unfold before; rewrite length_vzip; rewrite ?map_length; lia).
  assert (La : List.length after = d) by (unfold after; rewrite length_vzip; rewrite ?map_length; lia).
  assert (SPS : (padding_string (is_same opt) =? "same") = is_same opt) by (unfold padding_string; destruct (is_same opt); reflexivity).
  assert (NP : forall ax, ax < d -> nth ax pads (0, 0) = backend_pads (is_same opt) (nth ax eb 0 + nth ax m' 0 + nth ax ea 0) (nth ax ke 0) (nth ax s 0)).
  { intros ax Hax. unfold pads. rewrite (nth_builtin _ _ _ _ d) by assumption. rewrite SPS. unfold pm. rewrite (nth_padded _ _ _ d) by assumption. reflexivity. }
  assert (NB : forall ax, ax < d -> nth ax before 0 = nth ax eb 0 + fst (nth ax pads (0, 0)) /\ nth ax after 0 = nth ax ea 0 + snd (nth ax pads (0, 0))).
  { intros ax Hax. unfold before, after. rewrite !nth_vzip by (rewrite ?map_length; lia). split; f_equal.
    - rewrite (nth_indep _ 0 (fst (0, 0))) by (rewrite map_length; lia). apply map_nth.
    - rewrite (nth_indep _ 0 (snd (0, 0))) by (rewrite map_length; lia). apply map_nth. }
  split; [exact Lb|]. split; [exact La|].
  assert (EE : forall ax, ax < d -> nth ax ea 0 <= nth ax eb 0 <= nth ax ea 0 + 1).
  { intros ax Hax. destruct W as [[_ [-> ->]]|[_ W]]; [rewrite nth_zeros; lia|]. specialize (W ax Hax). cbv zeta in W. destruct W as [_ [_ [E1 [E2 _]]]].
    set (e := nth ax eb 0 + nth ax ea 0) in *. pose proof (Nat.div_mod e 2 ltac:(lia)). pose proof (Nat.mod_upper_bound e 2 ltac:(lia)). lia. }
  split; [|split; [|split]].
  - intros ->. assert (ZA : forall ax, ax < d -> nth ax eb 0 = 0 /\ nth ax ea 0 = 0).
    { intros ax Hax. destruct W as [[_ [-> ->]]|[_ W]]; [rewrite nth_zeros; lia|]. specialize (W ax Hax). cbv zeta in W. destruct W as [_ [_ [_ [_ E0]]]]. specialize (E0 eq_refl). lia. }
    split; apply nth_ext0; try (rewrite repeat_length; assumption); intros ax Hax; rewrite nth_repeat; [destruct (NB ax ltac:(lia)) as [-> _]|destruct (NB ax ltac:(lia)) as [_ ->]];
      rewrite NP by lia; destruct (ZA ax ltac:(lia)) as [Z1 Z2]; [rewrite Z1|rewrite Z2]; reflexivity.
  - intros ->. apply nth_ext0; [lia|]. intros ax Hax. destruct (NB ax ltac:(lia)) as [-> ->]. rewrite NP by lia. cbn [backend_pads is_same mem_str existsb String.eqb Ascii.eqb Bool.eqb orb fst snd].
    destruct W as [[F _]|[_ W]]; [discriminate F|]. specialize (W ax ltac:(lia)). cbv zeta in W. destruct W as [_ [[_ EV] [E1 [E2 _]]]].
    cbn [is_same mem_str existsb String.eqb Ascii.eqb Bool.eqb orb] in EV. destruct EV as [z Z].
    set (e := nth ax eb 0 + nth ax ea 0) in *. assert (DE : e / 2 = z) by (replace e with (z * 2) by lia; apply Nat.div_mul; lia). lia.
  - intros ax Hax. destruct (NB ax Hax) as [-> ->]. specialize (EE ax Hax). rewrite NP by exact Hax. unfold backend_pads. destruct (is_same opt); [|cbn [fst snd]; lia].
    unfold same_pads. cbn [fst snd]. set (t := same_total _ _ _). pose proof (Nat.div_mod t 2 ltac:(lia)). pose proof (Nat.mod_upper_bound t 2 ltac:(lia)). lia.
  - intros -> -> AL. destruct (CH AL) as [-> AL']. clear AL. rename AL' into AL.
    assert (PL : is_plain opt && allow = false).
    { destruct AL as [-> |AL]; [apply andb_false_r|]. apply mem_str_In in AL. destruct AL as [<- |[<- |[]]]; reflexivity. }
    destruct W as [[F _]|[_ W]]; [congruence|].
    assert (KE : ke = k).
    { apply nth_ext0; [lia|]. intros ax Hax. unfold ke. rewrite nth_vzip by lia. rewrite nth_repeat1 by lia. unfold dilated. specialize (Pk ax ltac:(lia)). lia. }
    assert (BOTH : forall ax, ax < d -> nth ax before 0 = nth ax after 0 /\ exists q : Z,
      (Z.of_nat (nth ax before 0%nat + nth ax m 0%nat + nth ax after 0%nat) - Z.of_nat (nth ax k 0%nat) = q * Z.of_nat (nth ax s 0%nat))%Z).
    { intros ax Hax. destruct (NB ax Hax) as [-> ->]. rewrite NP, KE by exact Hax. specialize (W ax Hax). cbv zeta in W. destruct W as [_ [AD [E1 [E2 _]]]].
      set (e := nth ax eb 0 + nth ax ea 0) in *. specialize (Ps ax Hax). specialize (Pk ax Hax).
      replace (nth ax eb 0 + nth ax m 0 + nth ax ea 0) with (nth ax m 0 + e) by (unfold e; lia).
      pose proof AD as [[q Q] EV]. unfold backend_pads. destruct (is_same opt).
      - unfold same_pads. rewrite (same_total_padded _ _ _ _ Ps Pk AD). set (t := same_total (nth ax m 0) (nth ax k 0) (nth ax s 0)) in *.
        pose proof (split_even t e EV) as SE. cbn [fst snd]. pose proof (Nat.div_mod t 2 ltac:(lia)). pose proof (Nat.mod_upper_bound t 2 ltac:(lia)).
        split; [lia|]. exists q. lia.
      - pose proof (split_even 0 e EV) as SE. change (0 / 2) with 0 in SE. cbn [fst snd]. split; [lia|]. exists q. lia. }
    split; [apply nth_ext0; [lia|]; intros ax Hax; apply BOTH; lia|]. intros ax Hax. apply BOTH. exact Hax.
Qed.

Lemma conv_border d (a : conv_args A) opt m m' k s dl eb ea :
  widths_ok (is_plain opt) (ca_allow a) (is_same opt) false d m k s eb ea ->
  List.length k = d -> List.length s = d -> List.length dl = d -> List.length m' = d ->
  (forall ax, ax < d -> 0 < nth ax s 0) -> (forall ax, ax < d -> 0 < nth ax k 0) ->
  border_of (conv_checked a opt) d opt m k s dl m' (vzip Nat.add eb (map fst (builtin_pads (padding_string (is_same opt)) (padded eb m' ea) (vzip dilated k dl) s)))
    (vzip Nat.add ea (map snd (builtin_pads (padding_string (is_same opt)) (padded eb m' ea) (vzip dilated k dl) s))).
Proof. intros WO. apply (layer_border _ d (ca_allow a) opt m m' k s s); [|exact WO]. intros CH. split; [reflexivity|exact CH]. Qed.

Lemma pool_border d (a : pool_args) opt m m' k s s' eb ea :
  standardize_tuple d (pa_pool_size a) = Ok k -> standardize_tuple d (pool_strides a) = Ok s -> standardize_tuple d (assumed_strides a) = Ok s' ->
  widths_ok (is_plain opt) (pa_allow a) (is_same opt) false d m k s' eb ea -> List.length m' = d ->
  border_of (pool_checked a opt) d opt m k s (ones d) m' (vzip Nat.add eb (map fst (builtin_pads (padding_string (is_same opt)) (padded eb m' ea) k s)))
    (vzip Nat.add ea (map snd (builtin_pads (padding_string (is_same opt)) (padded eb m' ea) k s))).
Proof.
  intros SK SS SS' WO Lm'. destruct (std_pos d _ _ SK) as [Lk Pk]. destruct (std_pos d _ _ SS) as [Ls Ps].
  assert (Lo : List.length (ones d) = d) by apply repeat_length.
  assert (KE : vzip dilated k (ones d) = k).
  { apply nth_ext0; [rewrite length_vzip; lia|]. intros ax Hax. rewrite length_vzip in Hax by lia. rewrite nth_vzip by lia. rewrite (PoolFacts.nth_ones d) by lia. unfold dilated. specialize (Pk ax ltac:(lia)). lia. }
  pose proof (layer_border (pool_checked a opt) d (pa_allow a) opt m m' k s s' (ones d) eb ea) as LB. rewrite KE in LB.
  apply LB; try assumption. intros [ST CH]. split; [|exact CH]. unfold pool_strides, assumed_strides in *.
  destruct (pa_strides a); [congruence|]. exfalso. apply ST. reflexivity.
Qed.

(** An entry of the output of a convolution at pixel [p] of sample [bi] depends only on the
    entries of the input at the pixels in the window of [p], of the same sample.  The border
    [before], [after] depends on the layer and the sizes of the input; it is as in C98. *)
Theorem C102_convolutions name G (a : conv_args A) H opt (valued : bool) bs m g c kinit binit L k s dl :
  layer_for name G a ->
  let d := dimension_of name in
  ca_subgroup a = Some H -> option_of a opt -> sizes d a k s dl ->
  built d false a (static_signal_shape valued bs m g c) kinit binit L -> List.length m = d ->
  forall m', List.length m' = d ->
  exists before after, border_of (conv_checked a opt) d opt m k s dl m' before after /\
    forall x x' b b' y y', wf x -> wf x' -> shape x = signal_shape valued b m' g c -> shape x' = signal_shape valued b' m' g c ->
    apply L x = Ok y -> apply L x' = Ok y' ->
    forall bi bi' p h o, inb (shape y) (bi :: p ++ [h; o]) -> inb (shape y') (bi' :: p ++ [h; o]) ->
    (forall i rest, inb m' i -> in_window k s dl before p i -> at_ x (bi :: i ++ rest) = at_ x' (bi' :: i ++ rest)) ->
    at_ y (bi :: p ++ [h; o]) = at_ y' (bi' :: p ++ [h; o]).
Proof.
  intros LF d HS OP SZ B Lm m' Lm'.
  destruct (built_facts name G a H opt false valued bs m g c kinit binit L k s dl LF HS OP B Lm SZ)
    as [OK [eb [ea [act [dom [WO [SA [SD [CF [CC _]]]]]]]]]]. fold d in OK, WO, CF.
  set (E := symmetries_of name) in *. set (eq := needs_equal_sizes name) in *.
  set (o := ca_filters a) in *. set (C := if valued then g * c else c) in *. set (ub := ca_use_bias a) in *.
  assert (Lk : List.length k = d) by (destruct CF; assumption). assert (Ls : List.length s = d) by (destruct CF; assumption).
  assert (Ldl : List.length dl = d) by (destruct CF; assumption).
  assert (Ps : forall ax, ax < d -> 0 < nth ax s 0) by (destruct CF; assumption).
  assert (Pk : forall ax, ax < d -> 0 < nth ax k 0) by (destruct CF; assumption).
  pose proof WO as [Leb [Lea W]].
  set (ke := vzip dilated k dl). assert (Lke : List.length ke = d) by (unfold ke; rewrite length_vzip; lia).
  set (pm := padded eb m' ea). assert (Lpm : List.length pm = d) by (apply length_padded; assumption).
  set (pads := builtin_pads (padding_string (is_same opt)) pm ke s).
  assert (Lp : List.length pads = d) by (apply length_builtin; assumption).
  set (before := vzip Nat.add eb (map fst pads)). set (after := vzip Nat.add ea (map snd pads)).
  assert (Lb : List.length before = d) by (unfold before; rewrite length_vzip; rewrite ?map_length; lia).
  assert (La : List.length after = d) by (unfold after; rewrite length_vzip; rewrite ?map_length; lia).
  exists before, after. split; [exact (conv_border d a opt m m' k s dl eb ea WO Lk Ls Ldl Lm' Ps Pk)|].
  intros x x' b b' y y' WX WX' SH SH' CA CA' bi bi' p h oo I I' AG.
  pose proof (merged_input d valued x b m' g c WX Lm' SH) as MG. change (if valued then g * c else c) with C in MG.
  pose proof (merged_input d valued x' b' m' g c WX' Lm' SH') as MG'. change (if valued then g * c else c) with C in MG'.
  rewrite (layer_form G d E eq OK false valued act dom c C o k s dl eb ea (is_same opt) ub (ca_activation a) kinit binit L x b m' g _ CF CC Lm' SH MG) in CA.
  rewrite (layer_form G d E eq OK false valued act dom c C o k s dl eb ea (is_same opt) ub (ca_activation a) kinit binit L x' b' m' g _ CF CC Lm' SH' MG') in CA'.
  assert (LO : List.length (layer_outs false k s dl eb ea (is_same opt) m') = d) by (exact (length_layer_outs G d E eq false valued act dom c C o k s dl eb ea (is_same opt) ub _ kinit binit L m' CF Lm')).
  destruct (layer_runs _ _ _ _ _ _ _ _); [|discriminate CA].
  assert (EO : forall u v : tensor A, Ok u = Ok v -> u = v) by congruence. apply EO in CA, CA'. subst y y'.
  rewrite shape_tab in I, I'.
  assert (PARTS : forall bb bj, inb (bb :: layer_outs false k s dl eb ea (is_same opt) m' ++ [List.length act; o]) (bj :: p ++ [h; oo]) ->
     bj < bb /\ inb (layer_outs false k s dl eb ea (is_same opt) m') p /\ h < List.length act /\ oo < o).
  { intros bb bj Q. apply inb4_inv in Q as [b0 [p0 [h0 [o0 [Q [Q1 [Q2 [Q3 Q4]]]]]]]].
    assert (b0 = bj) by congruence. subst b0. assert (Q' : p ++ [h; oo] = p0 ++ [h0; o0]) by congruence.
    change [h; oo] with ([h] ++ [oo]) in Q'. change [h0; o0] with ([h0] ++ [o0]) in Q'. rewrite !app_assoc in Q'.
    apply app_inj_tail in Q' as [Q' ->]. apply app_inj_tail in Q' as [-> ->]. repeat split; assumption. }
  destruct (PARTS _ _ I) as [Hb [P [Hh Ho]]]. destruct (PARTS _ _ I') as [Hb' _].
  rewrite !at_sig4 by assumption. f_equal. f_equal.
  unfold layer_value, layer_src, layer_term, layer_in. fold ke pm pads before.
  apply window_local; [|exact Lk]. intros j q J Q.
  destruct (csrc m' s dl before p j) as [i|] eqn:CS; [|reflexivity]. cbn [option_map or_zero].
  rewrite !merged_value. destruct (csrc_in_window d m' k s dl before p j i Lm' Lk J CS) as [II IW]. apply AG; assumption.
Qed.

Lemma nth_seq_map (f : nat -> nat) n q : q < n -> nth q (map f (seq 0 n)) 0 = f q.
Proof.
  intros Q. rewrite (nth_indep _ 0 (f 0)) by (rewrite map_length, seq_length; exact Q). rewrite map_nth, seq_nth by exact Q. reflexivity.
Qed.

Lemma spread_local d (src : list nat -> list nat -> option (list nat)) (term : option A -> A -> A) k C (x x' : list nat -> nat -> A) W p r :
  List.length k = d -> (forall j q i, inb k j -> q < C -> src p j = Some i -> x i q = x' i q) ->
  window d src term k C x W p r = window d src term k C x' W p r.
Proof.
  intros LK HX. unfold window. f_equal. apply map_ext_in. intros jc I. apply In_indices in I.
  apply inb_app_split in I as [j [c [-> [J I]]]]. apply inb1 in I as [q [-> Q]]. pose proof (inb_length _ _ J).
  rewrite firstn_app_exact by lia. rewrite app_nth2 by lia. replace (d - List.length j) with 0 by lia. change (nth 0 [q] 0) with q.
  f_equal. destruct (src p j) as [i|] eqn:S; cbn [option_map]; [rewrite (HX j q i J Q S)|]; reflexivity.
Qed.

(** The same for transposed convolutions, whose input pixels are spread out. *)
Theorem C102_transposed_convolutions name G (a : conv_args A) H opt (valued : bool) bs m g c kinit binit L k s dl :
  layer_for name G a ->
  let d := dimension_of name in
  ca_subgroup a = Some H -> option_of a opt -> sizes d a k s dl ->
  built d true a (static_signal_shape valued bs m g c) kinit binit L -> List.length m = d ->
  exists before, List.length before = d /\
    (opt = "VALID" \/ opt = "SAME" /\ ca_allow a = true -> before = repeat 0 d) /\
    let cut := map (fun ax => if mem_str opt ["SAME"; "SAME_EQUIV"] then (dilated (nth ax k 0) (nth ax dl 0) - nth ax s 0) / 2 else 0) (seq 0 d) in
    forall m' x x' b b' y y', List.length m' = d -> wf x -> wf x' ->
    shape x = signal_shape valued b m' g c -> shape x' = signal_shape valued b' m' g c ->
    apply L x = Ok y -> apply L x' = Ok y' ->
    forall bi bi' p h o, inb (shape y) (bi :: p ++ [h; o]) -> inb (shape y') (bi' :: p ++ [h; o]) ->
    (forall i rest, inb m' i -> reaches k s dl before cut p i -> at_ x (bi :: i ++ rest) = at_ x' (bi' :: i ++ rest)) ->
    at_ y (bi :: p ++ [h; o]) = at_ y' (bi' :: p ++ [h; o]).
Proof.
  intros LF d HS OP SZ B Lm.
  destruct (built_facts name G a H opt true valued bs m g c kinit binit L k s dl LF HS OP B Lm SZ)
    as [OK [eb [ea [act [dom [WO [SA [SD [CF [CC _]]]]]]]]]]. fold d in OK, WO, CF.
  set (E := symmetries_of name) in *. set (eq := needs_equal_sizes name) in *.
  set (o := ca_filters a) in *. set (C := if valued then g * c else c) in *. set (ub := ca_use_bias a) in *.
  assert (Lk : List.length k = d) by (destruct CF; assumption). assert (Ls : List.length s = d) by (destruct CF; assumption).
  assert (Ldl : List.length dl = d) by (destruct CF; assumption).
  assert (Ps : forall ax, ax < d -> 0 < nth ax s 0) by (destruct CF; assumption).
  pose proof WO as [Leb [Lea W]].
  exists eb. split; [exact Leb|]. split.
  { intros Q. apply nth_ext0; [rewrite repeat_length; exact Leb|]. intros ax Hax. rewrite nth_repeat.
    destruct W as [[_ [-> _]]|[PL W]]; [apply nth_zeros|]. destruct Q as [-> |[-> AL]].
    - specialize (W ax ltac:(lia)). cbv zeta in W. destruct W as [_ [_ [_ [_ E0]]]]. specialize (E0 eq_refl). lia.
    - rewrite AL in PL. discriminate PL. }
  cbv zeta. intros m' x x' b b' y y' Lm' WX WX' SH SH' CA CA' bi bi' p h oo I I' AG.
  pose proof (merged_input d valued x b m' g c WX Lm' SH) as MG. change (if valued then g * c else c) with C in MG.
  pose proof (merged_input d valued x' b' m' g c WX' Lm' SH') as MG'. change (if valued then g * c else c) with C in MG'.
  rewrite (layer_form G d E eq OK true valued act dom c C o k s dl eb ea (is_same opt) ub (ca_activation a) kinit binit L x b m' g _ CF CC Lm' SH MG) in CA.
  rewrite (layer_form G d E eq OK true valued act dom c C o k s dl eb ea (is_same opt) ub (ca_activation a) kinit binit L x' b' m' g _ CF CC Lm' SH' MG') in CA'.
  assert (LO : List.length (layer_outs true k s dl eb ea (is_same opt) m') = d) by (exact (length_layer_outs G d E eq true valued act dom c C o k s dl eb ea (is_same opt) ub _ kinit binit L m' CF Lm')).
  unfold layer_runs in CA, CA'.
  assert (EO : forall u v : tensor A, Ok u = Ok v -> u = v) by congruence. apply EO in CA, CA'. subst y y'.
  rewrite shape_tab in I, I'.
  assert (PARTS : forall bb bj, inb (bb :: layer_outs true k s dl eb ea (is_same opt) m' ++ [List.length act; o]) (bj :: p ++ [h; oo]) ->
     bj < bb /\ inb (layer_outs true k s dl eb ea (is_same opt) m') p /\ h < List.length act /\ oo < o).
  { intros bb bj Q. apply inb4_inv in Q as [b0 [p0 [h0 [o0 [Q [Q1 [Q2 [Q3 Q4]]]]]]]].
    assert (b0 = bj) by congruence. subst b0. assert (Q' : p ++ [h; oo] = p0 ++ [h0; o0]) by congruence.
    change [h; oo] with ([h] ++ [oo]) in Q'. change [h0; o0] with ([h0] ++ [o0]) in Q'. rewrite !app_assoc in Q'.
    apply app_inj_tail in Q' as [Q' ->]. apply app_inj_tail in Q' as [-> ->]. repeat split; assumption. }
  destruct (PARTS _ _ I) as [Hb [P [Hh Ho]]]. destruct (PARTS _ _ I') as [Hb' _].
  rewrite !at_sig4 by assumption. f_equal. f_equal.
  unfold layer_value, layer_src, layer_term, layer_in.
  set (ke := vzip dilated k dl). assert (Lke : List.length ke = d) by (unfold ke; rewrite length_vzip; lia).
  set (pm := padded eb m' ea). assert (Lpm : List.length pm = d) by (apply length_padded; assumption).
  apply spread_local; [exact Lk|]. intros j q i J Q S.
  assert (Li : List.length i = d) by (unfold tsrc in S; rewrite Lpm in S; apply wsrc_some in S; apply S).
  unfold bordered. destruct (inside eb m' i) eqn:IN; [|reflexivity]. assert (IN' := proj1 (inside_spec eb m' i d Leb Lm' Li) IN).
  rewrite !merged_value. apply AG.
  - apply inb_intro; [rewrite length_vzip; lia|]. intros ax Hax. rewrite nth_vzip by lia. specialize (IN' ax ltac:(lia)). lia.
  - intros ax Hax. exists (nth ax j 0). split; [apply (inb_nth _ _ ax J); exact Hax|]. rewrite nth_vzip by lia. specialize (IN' ax ltac:(lia)).
    rewrite nth_seq_map by lia. unfold tsrc in S. rewrite Lpm in S. apply wsrc_some in S as [_ S]. specialize (S ax ltac:(lia)).
    rewrite nth_vzip in S by lia. unfold ke in S. rewrite nth_vzip in S by lia. unfold transpose_before in S.
    replace (String.eqb (padding_string (is_same opt)) "same") with (is_same opt) in S by (unfold padding_string; destruct (is_same opt); reflexivity).
    change (mem_str opt ["SAME"; "SAME_EQUIV"]) with (is_same opt).
    set (cc := if is_same opt then _ else 0) in *. unfold transpose_src in S.
    destruct (Nat.leb_spec (nth ax j 0 * nth ax dl 0) (nth ax p 0 + cc)) as [LE|]; [|discriminate S].
    destruct (Nat.eqb_spec ((nth ax p 0 + cc - nth ax j 0 * nth ax dl 0) mod nth ax s 0) 0) as [MO|]; [|discriminate S].
    cbn [andb] in S. destruct (_ <? _)%nat; [|discriminate S]. assert (ES : forall u v : nat, Some u = Some v -> u = v) by congruence. apply ES in S.
    pose proof (Nat.div_mod (nth ax p 0 + cc - nth ax j 0 * nth ax dl 0) (nth ax s 0) ltac:(specialize (Ps ax ltac:(lia)); lia)) as DM.
    rewrite S, MO in DM. replace (nth ax i 0 - nth ax eb 0 + nth ax eb 0) with (nth ax i 0) by lia. lia.
Qed.

(** Pooling: an entry at pixel [p], element [h] of the subgroup and channel [q] depends only on
    the entries at the pixels in the window of [p], the elements in the coset of [h], and the
    same channel, of the same sample. *)
Theorem C102_pooling {PA : Pool A} name G d t (a : pool_args) H opt bs m g c L k s :
  pooling_for name G a -> pa_subgroup a = Some H -> pool_option a opt ->
  pooling_built d t a (bs :: map Some m ++ [Some g; Some c]) L -> List.length m = d -> pool_sizes d a k s ->
  exists sub cos,
    dict_get (g_subgroup G) (listed_as G H) = Ok sub /\ dict_get (g_cosets G) (listed_as G H) = Ok cos /\
    forall m', List.length m' = d -> exists before after, border_of (pool_checked a opt) d opt m k s (repeat 1 d) m' before after /\
    forall (x x' y y' : tensor A) b b', wf x -> wf x' -> shape x = b :: m' ++ [g; c] -> shape x' = b' :: m' ++ [g; c] ->
    pool_call L x = Ok y -> pool_call L x' = Ok y' ->
    forall bi bi' p h q, inb (shape y) (bi :: p ++ [h; q]) -> inb (shape y') (bi' :: p ++ [h; q]) ->
    (forall i e, inb m' i -> in_window k s (repeat 1 d) before p i -> In e cos ->
       at_ x (bi :: i ++ [comp G (nth h sub 0) e; q]) = at_ x' (bi' :: i ++ [comp G (nth h sub 0) e; q])) ->
    at_ y (bi :: p ++ [h; q]) = at_ y' (bi' :: p ++ [h; q]).
Proof.
  intros [DG [AG AF]] HS [po [PN UP]] [L0 [I B]] Lm [SK SS].
  pose proof DG as DG'. apply lib_ok in DG' as [_ OK].
  destruct (pool_build_inv (A := A) G d _ _ OK name t a L0 bs m g c L DG AG AF I Lm B)
    as [p' [k' [s0 [s' [eb [ea [sub [cos [Hn [PN' [SK' [SS0 [SS' [WO [PS [DS [DC [SA [GN [F _]]]]]]]]]]]]]]]]]]]].
  rewrite SK in SK'. injection SK' as <-. unfold pool_strides in SS0. rewrite SS in SS0. injection SS0 as <-.
  rewrite HS in PS. apply parse_listed in PS. subst Hn.
  exists sub, cos. split; [exact DS|]. split; [exact DC|]. intros m' Lm'.
  pose proof (pool_format _ _ _ _ _ _ _ _ _ AF I B) as PF.
  assert (p' = po) as -> by (unfold pool_padding_name in PN'; congruence). rewrite UP in WO, F.
  pose proof (pool_border d a opt m m' k s s' eb ea SK SS SS' WO Lm') as BO.
  eexists. eexists. split; [exact BO|]. clear BO.
  destruct (mem_str (lower (po_padding L)) ["valid"; "same"]) eqn:MS.
  2:{ intros x x' y y' b b' _ _ _ _ CA. rewrite (pool_call_option L x y PF CA) in MS. discriminate MS. }
  specialize (F eq_refl). set (same := is_same opt) in *. set (E := symmetries_of name) in *.
  set (m1 := padded eb m' ea). set (pads := builtin_pads (padding_string same) m1 k s).
  assert (Lk : List.length k = d) by (destruct F; assumption). assert (Ls : List.length s = d) by (destruct F; assumption).
  assert (Leb : List.length eb = d) by (destruct F; assumption). assert (Lea : List.length ea = d) by (destruct F; assumption).
  assert (Lm1 : List.length m1 = d) by (apply length_padded; assumption). assert (Lp : List.length pads = d) by (apply length_builtin; assumption).
  assert (NE : sub <> []) by (destruct (ok_sub _ _ _ _ OK _ _ DS) as [_ [_ [Q _]]]; intros ->; discriminate Q).
  intros x x' y y' b b' WX WX' SH SH' CA CA' bi bi' p h q II II' AGR. rewrite GN in SH, SH'.
  rewrite (tensor_sig4 d b m' _ c x WX Lm' SH) in CA. rewrite (tensor_sig4 d b' m' _ c x' WX' Lm' SH') in CA'.
  rewrite (pool_call_eq G d E _ OK sub cos k s eb ea same t L b m' c _ F NE Lm') in CA.
  rewrite (pool_call_eq G d E _ OK sub cos k s eb ea same t L b' m' c _ F NE Lm') in CA'.
  fold m1 in CA, CA', AGR. fold pads in CA, CA', AGR. set (m2 := padded (map fst pads) m1 (map snd pads)) in *.
  assert (Lm2 : List.length m2 = d) by (apply length_padded; rewrite ?map_length; assumption).
  destruct (forallb _ _); [|discriminate CA].
  assert (EO : forall u v : tensor A, Ok u = Ok v -> u = v) by congruence. apply EO in CA, CA'. subst y y'.
  assert (LO : List.length (outs m2 k s) = d) by (apply length_outs; assumption).
  rewrite shape_tab in II, II'.
  assert (PARTS : forall bb bj, inb (bb :: outs m2 k s ++ [List.length sub; c]) (bj :: p ++ [h; q]) ->
       bj < bb /\ inb (outs m2 k s) p /\ h < List.length sub /\ q < c).
  { intros bb bj Q. apply inb4_inv in Q as [b0 [p0 [h0 [o0 [Q [Q1 [Q2 [Q3 Q4]]]]]]]].
    assert (b0 = bj) by congruence. subst b0. assert (Q' : p ++ [h; q] = p0 ++ [h0; o0]) by congruence.
    change [h; q] with ([h] ++ [q]) in Q'. change [h0; o0] with ([h0] ++ [o0]) in Q'. rewrite !app_assoc in Q'.
    apply app_inj_tail in Q' as [Q' ->]. apply app_inj_tail in Q' as [-> ->]. repeat split; assumption. }
  destruct (PARTS _ _ II) as [Hb [P [Hh Hq]]]. destruct (PARTS _ _ II') as [Hb' _].
  rewrite !at_sig4 by assumption. unfold pool_out, pooled. f_equal. f_equal. apply map_ext_in. intros j J. apply In_indices in J.
  destruct (csrc m1 s (ones d) (map fst pads) p j) as [i|] eqn:CS; [|reflexivity]. cbn [option_map]. f_equal. unfold bordered.
  destruct (csrc_in_window d m1 k s (ones d) (map fst pads) p j i Lm1 Lk J CS) as [I1 IW]. pose proof (inb_length _ _ I1) as Li. rewrite Lm1 in Li.
  destruct (inside eb m' i) eqn:IN; [|reflexivity]. assert (IN' := proj1 (inside_spec eb m' i d Leb Lm' Li) IN).
  f_equal. apply map_ext_in. intros e Ie. unfold fun4. apply AGR; [| |exact Ie].
  - apply inb_intro; [rewrite length_vzip; lia|]. intros ax Hax. rewrite nth_vzip by lia. specialize (IN' ax ltac:(lia)). lia.
  - intros ax Hax. destruct (IW ax Hax) as [jj [J1 J2]]. exists jj. split; [exact J1|]. rewrite !nth_vzip by (rewrite ?map_length; lia).
    specialize (IN' ax ltac:(lia)). change (repeat 1 d) with (ones d). lia.
Qed.

End Fields.

Print Assumptions C102_convolutions.
Print Assumptions C102_transposed_convolutions.
Print Assumptions C102_pooling.

(** A P4 convolution with kernels of 3x3 pixels and strides of 2 on 7x7 pixels, 'same_equiv':
    one zero in front of each axis.  The pixels of the output (of any channel) that differ when one pixel of the input is
    replaced are those with the pixel in their window.  The same for a pooling with windows of 3x3. *)
Definition replaced (i : list nat) (x : tensor Z) : tensor Z :=
  tab (shape x) (fun j => if list_eqb Nat.eqb (firstn 2 (tl j)) i then 1000%Z else at_ x j).
Definition changed (y y' : tensor Z) (n : list nat) : list (list nat) :=
  filter (fun p => existsb (fun h => negb (Z.eqb (at_ y (0 :: p ++ [h; 0])) (at_ y' (0 :: p ++ [h; 0])))) (seq 0 4)) (indices n).
Definition reached (k s before i n : list nat) : list (list nat) :=
  filter (fun p => forallb (fun ax => existsb (fun j => (nth ax i 0 + nth ax before 0 =? nth ax p 0 * nth ax s 0 + j)%nat) (seq 0 (nth ax k 0))) (seq 0 2)) (indices n).

Example C102_case :
  let x := some_signal [1; 7; 7; 1] in
  let z := some_signal [1; 7; 7; 4; 1] in
  match test_layer 2 false (with_group "P4" "" (One 3) 1 (Some (One 2)) (Some (Some "same_equiv")) None true) [None; Some 7; Some 7; Some 1] some_weights some_weights,
        test_pool 2 "max" (mkPoolArgs (ByName "P4") (Some "") (One 3) (Some (One 2)) (Some (Some "valid_equiv")) "channels_last" false) [None; Some 7; Some 7; Some 4; Some 1] with
  | Ok L, Ok P =>
    match apply L x, pool_call P z with
    | Ok y, Ok w =>
      shape y = [1; 4; 4; 4; 1] /\ shape w = [1; 3; 3; 4; 1] /\
      forallb (fun i => match apply L (replaced i x), pool_call P (replaced i z) with
         | Ok y', Ok w' => list_eqb (list_eqb Nat.eqb) (changed y y' [4; 4]) (reached [3; 3] [2; 2] [1; 1] i [4; 4])
                        && list_eqb (list_eqb Nat.eqb) (changed w w' [3; 3]) (reached [3; 3] [2; 2] [0; 0] i [3; 3])
         | _, _ => false end) (indices [7; 7]) = true /\
      reached [3; 3] [2; 2] [1; 1] [3; 4] [4; 4] = [[1; 2]; [2; 2]]
    | _, _ => False
    end
  | _, _ => False
  end.
Proof. vm_compute. repeat split. Qed.

(** A transposed P4 convolution with kernels of 3x3 pixels and strides of 2 on 3x3 pixels, 'valid': a
    pixel reaches 3x3 pixels of the output. *)
Definition fan (k s i n : list nat) : list (list nat) :=
  filter (fun p => forallb (fun ax => existsb (fun j => (nth ax i 0 * nth ax s 0 + j =? nth ax p 0)%nat) (seq 0 (nth ax k 0))) (seq 0 2)) (indices n).
Example C102_transposed_case :
  let x := some_signal [1; 3; 3; 4; 1] in
  match test_layer 2 true (with_group "P4" "" (One 3) 1 (Some (One 2)) (Some (Some "valid")) None true) [None; Some 3; Some 3; Some 4; Some 1] some_weights some_weights with
  | Ok L =>
    match apply L x with
    | Ok y =>
      shape y = [1; 7; 7; 4; 1] /\
      forallb (fun i => match apply L (replaced i x) with
         | Ok y' => list_eqb (list_eqb Nat.eqb) (changed y y' [7; 7]) (fan [3; 3] [2; 2] i [7; 7])
         | _ => false end) (indices [3; 3]) = true /\
      fan [3; 3] [2; 2] [0; 2] [7; 7] = [[0; 4]; [0; 5]; [0; 6]; [1; 4]; [1; 5]; [1; 6]; [2; 4]; [2; 5]; [2; 6]]
    | _ => False
    end
  | _ => False
  end.
Proof. vm_compute. repeat split. Qed.
