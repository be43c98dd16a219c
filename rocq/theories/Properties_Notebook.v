(** C76: the networks of /repo/notebooks/example_MNIST.ipynb. *)
From Coq Require Import Permutation.
From Verif Require Import Sequential Properties_Sequential Properties_Tests GlobalFacts StackFacts Properties_Config Properties_Conv Properties_Pooling Properties_Checks Properties_Build Properties_Shapes Properties_PoolBuild Properties_Stacks.
From Verif Require Import StackSpec EquivSpec LayerBatch FormatFacts.
Local Open Scope string_scope.
Local Open Scope list_scope.

Section Notebook.
Context {A : Type} {RA : Arith A} {PA : Pool A}.

(** ** Keras' own global pooling over space and group *)

(** GlobalMaxPooling3D (for d = 2): the group axis is treated as one more spatial axis. *)
Definition pool_everything (f : list A -> A) (d : nat) (y : tensor A) : result (tensor A) :=
  global_pool f "channels_last" false (d + 1) y.

Lemma pool_everything_eq f d b m g c (y : tensor A) : List.length m = d -> shape y = b :: m ++ [g; c] ->
  pool_everything f d y = Ok (tab [b; c] (fun i => f (map (fun j => at_ y (nth 0 i 0 :: j ++ [last i 0])) (indices (m ++ [g]))))).
Proof.
  intros L SH. unfold pool_everything, global_pool. cbn [String.eqb Ascii.eqb Bool.eqb]. unfold global_pool_last, rank. rewrite SH.
  replace (List.length (b :: m ++ [g; c]) =? d + 1 + 2)%nat with true
    by (symmetry; apply Nat.eqb_eq; cbn [List.length]; rewrite app_length; cbn [List.length]; lia).
  assert (L' : List.length (m ++ [g]) = d + 1) by (rewrite app_length; cbn [List.length]; lia).
  replace (m ++ [g; c]) with ((m ++ [g]) ++ [c]) by (rewrite <- app_assoc; reflexivity).
  rewrite (spatial_ix (d + 1) b (m ++ [g]) [c] L'), (chan_ix (d + 1) b (m ++ [g]) c [] L'). reflexivity.
Qed.

Lemma inb_two b c i : inb [b; c] i -> exists bi q, i = [bi; q] /\ bi < b /\ q < c.
Proof.
  intros I. destruct i as [|bi i]; [inversion I|]. apply inb_cons in I as [BI I]. apply inb1 in I as [q [-> Q]]. exists bi, q. auto.
Qed.

Theorem C76_pooling_everything_is_invariant name G f b m g c (x gx : tensor A) :
  dict_get group_dict name = Ok G -> order_irrelevant f ->
  let d := dimension_of name in
  List.length m = d -> g = g_order G -> wf x -> shape x = b :: m ++ [g; c] -> transforms_of_group_signal G d "" "" x = Ok gx ->
  exists z, pool_everything f d x = Ok z /\ shape z = [b; c] /\
    shape gx = g :: shape x /\ forall u, u < g -> pool_everything f d (slice 0 u gx) = Ok z.
Proof.
  intros DG OI d L EG W SH R. pose proof DG as DG'. apply lib_ok in DG' as [_ OK]. fold d in OK.
  set (E := symmetries_of name) in *. pose proof (ok_order _ _ _ _ OK) as GO. fold E in GO.
  pose proof (sub_idx_whole _ _ _ _ OK) as SA. fold E in SA. set (dom := seq 0 (List.length E)) in *.
  assert (LD : List.length dom = g) by (unfold dom; rewrite seq_length; congruence).
  destruct (sub_idx_facts _ _ _ _ OK _ _ SA) as [ND [B _]].
  assert (ST : forall u, In u dom -> stable G u dom) by (intros u U; exact (stable_of G d E _ OK (Some "") dom u SA U)).
  assert (SH2 : shape x = [b] ++ m ++ List.length dom :: [c]) by (rewrite LD; exact SH).
  unfold transforms_of_group_signal, spatial_axes, group_axis in R.
  replace (Z.of_nat (d + 1)) with (Z.of_nat (List.length [b] + d)) in R by (cbn [List.length]; lia).
  destruct (slices_block G d E _ OK x gx [b] m [c] (Some "") (Some "") dom dom SA SA L W SH2 ST R) as [F [SG SL]].
  rewrite (pool_everything_eq f d b m g c x L SH). eexists. split; [reflexivity|]. split; [apply shape_tab|].
  split; [rewrite <- LD; exact SG|].
  intros u U. rewrite <- LD in U. destruct (SL u U) as [W' [SH' MV]]. set (a := nth u dom 0) in *. assert (IA : In a dom) by (apply nth_In; exact U).
  rewrite (pool_everything_eq f d b m g c (slice 0 u gx) L) by congruence. f_equal. apply tab_ext. intros i I. apply inb_two in I as [bi [q [-> [BI Q]]]].
  cbn [nth last].
  set (mv := fun j => pixel (nth a E []) m (firstn d j) ++ [turned G a dom (nth d j 0)]).
  assert (SPL : forall j, inb (m ++ [g]) j -> exists p h, j = p ++ [h] /\ inb m p /\ h < g /\ mv j = pixel (nth a E []) m p ++ [turned G a dom h]).
  { intros j J. apply inb_app_split in J as [p [r [-> [P J]]]]. apply inb1 in J as [h [-> Hh]]. exists p, h. repeat (split; [assumption || reflexivity|]).
    pose proof (inb_length _ _ P) as LP. unfold mv. rewrite firstn_app, LP, L, Nat.sub_diag, firstn_O, app_nil_r. rewrite app_nth2 by lia.
    rewrite LP, L, Nat.sub_diag. cbn [nth]. rewrite firstn_all2 by lia. reflexivity. }
  assert (PI : forall p, inb m p -> inb m (pixel (nth a E []) m p)) by (intros p P; apply (pixel_in G d E _ OK); [apply B; exact IA|exact F|exact P]).
  transitivity (f (map (fun j => at_ x (bi :: j ++ [q])) (map mv (indices (m ++ [g]))))).
  - f_equal. rewrite map_map. apply map_ext_in. intros j J. apply In_indices in J. destruct (SPL j J) as [p [h [-> [P [Hh ->]]]]].
    rewrite <- !app_assoc. cbn [app]. apply (MV [bi] p h [q]); [|exact P|lia|]; apply inb_cons; (split; [assumption|apply inb_nil]).
  - apply OI. apply Permutation_map. apply indices_injective.
    + intros j J. destruct (SPL j J) as [p [h [-> [P [Hh ->]]]]]. apply inb_app; [apply PI; exact P|]. apply inb_cons. split; [|apply inb_nil].
      rewrite <- LD. apply turned_lt; [apply ST; exact IA|lia].
    + intros j j' J J' EQ. destruct (SPL j J) as [p [h [-> [P [Hh E1]]]]]. destruct (SPL j' J') as [p' [h' [-> [P' [Hh' E2]]]]].
      rewrite E1, E2 in EQ. apply app_inj_tail in EQ as [EP EH].
      assert (h = h') as -> by (apply (turned_inj G d E _ OK a dom) with (h := h) (h' := h'); try assumption; try lia; [apply B; exact IA|apply ST; exact IA]).
      f_equal. destruct F as [F LF]. apply (pixel_injective d (nth a E []) m); try assumption.
      * apply (sym_ok G d E _ OK). apply B. exact IA.
      * apply (fits_sym G d E _ OK m a F LF). apply B. exact IA.
Qed.

(** ** Layers on cubes *)

(** A function that computes for every batch of signals of shape [s], giving signals of
    shape [s'], and treats the samples of the batch independently. *)
Definition works (s s' : list nat) (f : tensor A -> result (tensor A)) : Prop :=
  forall x b, wf x -> shape x = b :: s ->
  exists y, f x = Ok y /\ wf y /\ shape y = b :: s' /\ forall bi, bi < b -> f (sample bi x) = Ok (sample bi y).

Lemma works_samplewise s s' (f : tensor A -> result (tensor A)) : samplewise s f ->
  (forall x b, wf x -> shape x = b :: s -> exists y, f x = Ok y /\ shape y = b :: s') -> works s s' f.
Proof.
  intros SW Q x b W SH. destruct (Q x b W SH) as [y [Y SY]]. destruct SW as [[e SW]|[s0 SW]].
  - rewrite (SW x b W SH) in Y. discriminate Y.
  - destruct (SW x b W SH) as [y' [Y' [WY [_ S]]]]. assert (y' = y) as -> by congruence. exists y. auto.
Qed.

Lemma works_compose s s' s'' f h : works s s' f -> works s' s'' h -> works s s'' (fun x => y <- f x ;; h y).
Proof.
  intros F H x b W SH. destruct (F x b W SH) as [y [Y [WY [SY Q]]]]. destruct (H y b WY SY) as [z [Z [WZ [SZ Q']]]].
  exists z. rewrite Y. cbn [bind]. split; [exact Z|]. split; [exact WZ|]. split; [exact SZ|].
  intros bi BI. rewrite (Q bi BI). cbn [bind]. apply Q'. exact BI.
Qed.

(** GroupConv2D(group, kernel_size=k, filters=o, activation=act), everything else left
    at its default (conv2d.py:35-56). *)
Definition plain_convolution (name : string) (k o : nat) (act : A -> A) : conv_args A :=
  mkConvArgs (ByName name) (Some "") (One (Z.of_nat k)) o None None None "channels_last" false true act.

Lemma plain_convolution_facts name G k o act : dict_get group_dict name = Ok G -> 0 < k ->
  let d := dimension_of name in
  let a := plain_convolution name k o act in
  layer_for name G a /\ option_of a "VALID_EQUIV" /\ sizes d a (repeat k d) (repeat 1 d) (repeat 1 d).
Proof.
  intros DG K d a. split; [split; [exact DG|split; [left; reflexivity|reflexivity]]|]. split; [exists "valid_equiv"; split; reflexivity|].
  split; [apply std_cube; exact K|]. split; exact (std_cube d 1 Nat.lt_0_1).
Qed.

Lemma map_repeat {B} (f : nat -> B) v k : (forall ax, ax < k -> f ax = v) -> map f (seq 0 k) = repeat v k.
Proof.
  intros E. transitivity (map (fun _ => v) (seq 0 k)); [apply map_ext_in; intros ax I; apply in_seq in I; apply E; lia|].
  clear E. generalize 0. induction k as [|k IH]; intros i; cbn [seq map repeat]; [reflexivity|]. rewrite IH. reflexivity.
Qed.

Lemma convolution_step name G (valued : bool) bs n c k o act kinit binit :
  dict_get group_dict name = Ok G -> 0 < k <= n -> 0 < o ->
  let d := dimension_of name in
  let g := g_order G in
  exists l, layer_built d (Convolution false (plain_convolution name k o act) kinit binit) (static_signal_shape valued bs (repeat n d) g c) = Ok l /\
    symbolic_shape l (static_signal_shape valued bs (repeat n d) g c) = Ok (static_signal_shape true bs (repeat (n - k + 1) d) g o) /\
    works (repeat n d ++ (if valued then [g; c] else [c])) (repeat (n - k + 1) d ++ [g; o]) (layer_call l).
Proof.
  intros DG [K KN] O d g. set (a := plain_convolution name k o act).
  destruct (plain_convolution_facts name G k o act DG K) as [LF [OP SZ]]. fold a in LF, OP, SZ. fold d in SZ.
  assert (Lm : List.length (repeat n d) = d) by apply repeat_length.
  pose proof DG as DG'. apply lib_ok in DG' as [GN OK]. fold d in OK.
  assert (GO : g = List.length (symmetries_of name)) by apply (ok_order _ _ _ _ OK).
  assert (I0 : exists L0, conv_init d false a = Ok L0).
  { apply (C53_when_the_constructor_accepts name G a "" false LF eq_refl). split; [left; reflexivity|]. split; [exact O|]. split.
    - exists "valid_equiv". split; [reflexivity|]. exists "valid", "_equiv". cbn. tauto.
    - exists (repeat k d), (repeat 1 d), (repeat 1 d). split; [exact SZ|]. right. intros v I. apply repeat_spec in I. exact I. }
  destruct I0 as [L0 I0].
  assert (BL : exists L, conv_build L0 (static_signal_shape valued bs (repeat n d) g c) kinit binit = Ok L).
  { apply (C53_when_convolutions_build name G a "" "VALID_EQUIV" valued bs (repeat n d) g c kinit binit L0 _ _ _ LF eq_refl OP I0 Lm SZ).
    fold d. split; [exists (seq 0 (List.length (symmetries_of name))); exact (sub_idx_whole _ _ _ _ OK)|]. split; [intros _; exact GO|].
    replace (mem_str "VALID_EQUIV" ["SAME"; "VALID"]) with false by reflexivity. split; [|split].
    - intros ax Hax. rewrite !nth_cube by exact Hax. apply odd_stride. exists 0. reflexivity.
    - right. intros ax Hax. rewrite !nth_cube by exact Hax. lia.
    - intros _. apply cube_equal. }
  destruct BL as [L BL]. assert (BB : built d false a (static_signal_shape valued bs (repeat n d) g c) kinit binit L) by (exists L0; split; assumption).
  exists (ConvolutionLayer L). split; [cbn [layer_built]; rewrite I0; cbn [bind]; rewrite BL; reflexivity|].
  split.
  { cbn [symbolic_shape]. rewrite (C30_compute_output_shape name G a "" "VALID_EQUIV" false valued bs (repeat n d) g c kinit binit L _ _ _ LF eq_refl OP BB Lm SZ).
    cbv zeta. fold d. match goal with |- context[forallb _ ?l] => assert (EO : l = repeat (Z.of_nat (n - k + 1)) d) end.
    { apply map_repeat. intros ax Hax. rewrite !nth_cube by exact Hax.
      replace (mem_str "VALID_EQUIV" ["SAME"; "SAME_EQUIV"]) with false by reflexivity. unfold keras_size, dilated. rewrite Z.div_1_r. lia. }
    rewrite EO. assert (FB : forallb (fun z => (0 <=? z)%Z) (repeat (Z.of_nat (n - k + 1)) d) = true).
    { apply forallb_forall. intros z I. apply repeat_spec in I as ->. apply Z.leb_le. lia. }
    rewrite FB. unfold static_signal_shape. f_equal. f_equal. rewrite GO. f_equal. clear. induction d as [|d IH]; cbn [repeat map]; [reflexivity|].
    rewrite IH, Nat2Z.id. reflexivity. }
  apply works_samplewise.
  { exact (C49_convolutions_treat_samples_independently name G a "" "VALID_EQUIV" false valued bs (repeat n d) (repeat n d) g c kinit binit L _ _ _ LF eq_refl OP BB Lm SZ Lm). }
  intros x b W SH0. assert (SH : shape x = signal_shape valued b (repeat n d) g c) by (rewrite SH0; destruct valued; reflexivity). clear SH0.
  destruct (C29_output_shape name G a "" "VALID_EQUIV" valued bs (repeat n d) g c kinit binit L _ _ _ LF eq_refl OP BB Lm SZ) as [P [PO SX]].
  fold d in PO, SX. destruct (SX x b (repeat n d) W Lm) as [xp [np [XP [SP [Lp [GOOD _]]]]]]; [|exact SH|].
  { intros ax Hax. rewrite nth_cube by exact Hax. lia. }
  destruct (built_facts name G a "" "VALID_EQUIV" false valued bs (repeat n d) g c kinit binit L _ _ _ LF eq_refl OP BB Lm SZ)
    as [_ [eb [ea [act' [dom [WO [SA [SD [CF [CC [_ [_ PO']]]]]]]]]]]]. fold d in WO, SA, SD, CF, PO'.
  assert (EP : P = gt_padding (cl_gt L)) by exact (padding_of_unique _ _ _ _ _ _ _ _ PO PO').
  destruct WO as [LE1 [LE2 [[PA' _]|[_ WO]]]]; [unfold a, plain_convolution in PA'; cbn [ca_allow] in PA'; rewrite andb_false_r in PA'; discriminate PA'|].
  assert (NP : np = padded eb (repeat n d) ea).
  { rewrite EP, (merged_signal_eq d valued c g x b (repeat n d) W Lm SH) in XP. destruct CF. rewrite cf_pads in XP by exact Lm.
    assert (EY : forall u v : tensor A, Ok u = Ok v -> u = v) by congruence. apply EY in XP. subst xp. rewrite shape_tab in SP.
    assert (SP' : padded eb (repeat n d) ea ++ [if valued then g * c else c] = np ++ [if valued then g * c else c]) by congruence.
    apply app_inv_tail in SP'. symmetry. exact SP'. }
  assert (NE : forall ax, ax < d -> nth ax np 0 = n).
  { intros ax Hax. subst np. rewrite (nth_padded _ _ _ d) by assumption. destruct (WO ax Hax) as [E _]. cbv zeta in E.
    rewrite !nth_cube in E by exact Hax. rewrite nth_cube by exact Hax. replace (is_same "VALID_EQUIV") with false in E by reflexivity.
    rewrite nextra_unit in E by (exists 0; reflexivity). lia. }
  assert (FIT : mem_str "VALID_EQUIV" ["SAME"; "SAME_EQUIV"] = true \/ (forall ax, ax < d -> dilated (nth ax (repeat k d) 0) (nth ax (repeat 1 d) 0) <= nth ax np 0)).
  { right. intros ax Hax. rewrite NE, !nth_cube by exact Hax. unfold dilated. lia. }
  destruct (GOOD FIT) as [y [CA SY]]. exists y. split; [exact CA|]. rewrite SY. f_equal. f_equal.
  - apply map_cube. intros ax Hax. rewrite NE, !nth_cube by exact Hax. replace (mem_str "VALID_EQUIV" ["SAME"; "SAME_EQUIV"]) with false by reflexivity.
    unfold conv_size, dilated. rewrite Nat.div_1_r. lia.
  - rewrite GO. reflexivity.
Qed.

(** GroupMaxPooling2D(group, subgroup, pool_size=k, strides=k), everything else left at
    its default (pooling.py:29-50). *)
Definition plain_pooling (name H : string) (k : nat) : pool_args :=
  mkPoolArgs (ByName name) (Some H) (One (Z.of_nat k)) (Some (One (Z.of_nat k))) None "channels_last" false.

Lemma plain_pooling_facts name G H k : dict_get group_dict name = Ok G -> 0 < k ->
  let d := dimension_of name in
  let a := plain_pooling name H k in
  pooling_for name G a /\ pool_option a "VALID_EQUIV" /\ pool_sizes d a (repeat k d) (repeat k d).
Proof.
  intros DG K d a. split; [split; [exact DG|split; [left; reflexivity|reflexivity]]|]. split; [exists "valid_equiv"; split; reflexivity|].
  split; apply std_cube; exact K.
Qed.

Lemma pooling_step name G H idx t bs n c k :
  dict_get group_dict name = Ok G -> subgroup_indices G H idx -> 0 < k -> 0 < n -> Nat.divide k n ->
  let d := dimension_of name in
  let g := g_order G in
  exists l : model_layer A, layer_built d (Pooling t (plain_pooling name H k)) (static_signal_shape true bs (repeat n d) g c) = Ok l /\
    symbolic_shape l (static_signal_shape true bs (repeat n d) g c) = Ok (static_signal_shape true bs (repeat (n / k) d) (List.length idx) c) /\
    works (repeat n d ++ [g; c]) (repeat (n / k) d ++ [List.length idx; c]) (layer_call l).
Proof.
  intros DG SI K N DV d g. set (a := plain_pooling name H k).
  pose proof DG as DG'. apply lib_ok in DG' as [GN OK]. fold d in OK.
  assert (GO : g = List.length (symmetries_of name)) by apply (ok_order _ _ _ _ OK).
  assert (Lm : List.length (repeat n d) = d) by apply repeat_length.
  destruct (plain_pooling_facts name G H k DG K) as [PF [OP SZ]]. fold a in PF, OP, SZ. fold d in SZ.
  assert (HL : H = "" \/ In H library_names).
  { destruct (String.eqb_spec H "") as [->|NE]; [left; reflexivity|]. right.
    unfold subgroup_indices, parse_subgroup, subgroup_get in SI. destruct (String.eqb_spec H ""); [contradiction|].
    destruct (lib_sub name G H idx DG SI) as [K' [DK _]]. unfold library_names; exact (in_map fst _ _ (dict_get_In _ _ _ DK)). }
  assert (I0 : exists L0, pool_init d t a = Ok L0).
  { apply (C57_when_the_constructor_accepts name G d a H t PF eq_refl). split; [exact HL|]. split.
    - exists "valid_equiv". split; [reflexivity|]. cbn. tauto.
    - exists (repeat k d), (repeat k d). exact SZ. }
  destruct I0 as [L0 I0].
  assert (AD : admissible n 0 k k 0).
  { split; [|exists 0; reflexivity]. destruct DV as [r R]. exists (Z.of_nat r - 1)%Z. nia. }
  assert (BL : exists L, pool_build L0 (static_signal_shape true bs (repeat n d) g c) = Ok L).
  { apply (C57_when_pooling_builds name G d a H "VALID_EQUIV" t true bs (repeat n d) g c L0 _ _ PF eq_refl OP I0 Lm (proj1 SZ) (proj2 SZ)).
    split; [exists idx; exact SI|]. split; [intros _; exact GO|]. unfold padding_works.
    replace (mem_str "VALID_EQUIV" ["SAME"; "VALID"]) with false by reflexivity.
    intros ax Hax. exists 0. rewrite !nth_cube by exact Hax. exact AD. }
  destruct BL as [L BL].
  assert (BB : pooling_built d t a (bs :: map Some (repeat n d) ++ [Some g; Some c]) L) by (exists L0; split; assumption).
  assert (CALL : forall x b, wf x -> shape x = b :: repeat n d ++ [g; c] -> exists y, pool_call L x = Ok y /\ shape y = b :: repeat (n / k) d ++ [List.length idx; c]).
  { intros x b W SH. pose proof PF as [_ [AG AF]].
    destruct (pool_build_inv (A := A) G d _ _ OK name t a L0 bs (repeat n d) g c L DG AG AF I0 Lm BL)
      as [p' [k' [s0 [s1 [eb [ea [sub [cos [Hn [PN' [SK' [SS0 [SS1 [WO [PS [DS [DC [SA [_ [F [P [PI PB]]]]]]]]]]]]]]]]]]]]]].
    assert (p' = "valid_equiv") by (unfold pool_padding_name, a, plain_pooling in PN'; cbn [pa_padding] in PN'; congruence). subst p'.
    assert (EK : forall u v : list nat, Ok u = Ok v -> u = v) by congruence.
    assert (k' = repeat k d) as -> by (apply EK; rewrite <- SK'; apply (proj1 SZ)).
    assert (s0 = repeat k d) as -> by (apply EK; rewrite <- SS0; apply (proj2 SZ)).
    assert (s1 = repeat k d) as -> by (apply EK; rewrite <- SS1; apply (proj2 SZ)).
    assert (sub = idx) as -> by (unfold subgroup_indices in SI; unfold sub_idx, a, plain_pooling in SA; cbn [pa_subgroup] in SA; congruence).
    assert (PO : mem_str (lower (po_padding L)) ["valid"; "same"] = true).
    { assert (E0 : po_padding L = po_padding L0).
      { unfold pool_build in BL. destruct (gt_build (po_gt L0) _) as [T1|]; [|discriminate BL]. cbn [bind] in BL.
        destruct (gt_build_pool T1) as [T2|]; [|discriminate BL]. cbn [bind] in BL. injection BL as <-. reflexivity. }
      rewrite E0. unfold pool_init in I0. destruct (gt_init _ _ _ _ _ _ _ _ _) as [T0|] eqn:GI; [|discriminate I0]. cbn [bind] in I0.
      destruct (standardize_tuple d (pa_pool_size a)); [|discriminate I0]. cbn [bind] in I0.
      destruct (standardize_tuple d _); [|discriminate I0]. cbn [bind] in I0.
      destruct (standardize_format _); [|discriminate I0]. cbn [bind] in I0. injection I0 as <-. cbn [po_padding].
      unfold gt_init in GI. unfold a, plain_pooling in GI, PS, PI. cbn [pa_group pa_pool_size pa_data_format pa_allow pa_subgroup pa_strides pa_padding bind] in GI, PS, PI.
      rewrite DG in GI. cbn [bind] in GI. rewrite PS in GI. destruct (dict_get group_dict Hn) as [K'|]; [|discriminate GI]. cbn [bind] in GI.
      destruct (padding_init _ _ _ _ _ _ _) as [P0|] eqn:PI0; [|discriminate GI]. cbn [bind] in GI. injection GI as <-. cbn [gt_padding].
      destruct (padding_init_inv _ _ _ _ _ _ _ _ PI0) as [_ [_ [BI _]]]. rewrite BI. reflexivity. }
    specialize (F PO).
    destruct WO as [LE1 [LE2 [[PA' _]|[_ WO]]]]; [unfold a, plain_pooling in PA'; cbn [pa_allow] in PA'; rewrite andb_false_r in PA'; discriminate PA'|].
    assert (NP : forall ax, ax < d -> nth ax (padded eb (repeat n d) ea) 0 = n).
    { intros ax Hax. rewrite (nth_padded _ _ _ d) by assumption. destruct (WO ax Hax) as [E _]. cbv zeta in E.
      rewrite !nth_cube in E by exact Hax. rewrite nth_cube by exact Hax. pose proof (nextra_least n 0 k k 0 K AD) as NL.
      change (is_same (upper "valid_equiv")) with false in E. cbv iota in E. lia. }
    set (m1 := padded eb (repeat n d) ea) in *.
    assert (NES : idx <> []).
    { destruct (sub_idx_facts _ _ _ _ OK _ _ SI) as [_ [_ [HD _]]]. intros ->. discriminate HD. }
    assert (L1 : List.length m1 = d) by (apply length_padded; assumption).
    assert (LK : List.length (repeat k d) = d) by apply repeat_length.
    set (pads := builtin_pads (padding_string (is_same (upper "valid_equiv"))) m1 (repeat k d) (repeat k d)).
    set (m2 := padded (map fst pads) m1 (map snd pads)).
    assert (LP : List.length pads = d) by (apply length_builtin; assumption).
    assert (L2 : List.length m2 = d) by (apply length_padded; rewrite ?map_length; assumption).
    assert (N2 : forall ax, ax < d -> nth ax m2 0 = n).
    { intros ax Hax. unfold m2, pads. rewrite (backend_sizes d) by assumption. rewrite NP, !nth_cube by exact Hax.
      change (is_same (upper "valid_equiv")) with false. unfold backend_total. lia. }
    assert (FB : forallb (fun q => fst q <=? snd q)%nat (combine (repeat k d) m2) = true).
    { apply (forallb_combine_le_iff (repeat k d) m2 d LK L2). intros ax Hax. rewrite N2, nth_cube by exact Hax. apply Nat.divide_pos_le; assumption. }
    assert (OU : outs m2 (repeat k d) (repeat k d) = repeat (n / k) d).
    { unfold outs. rewrite (axes_as_map out_size m2 (repeat k d) (repeat k d) d L2 LK LK). apply map_cube. intros ax Hax.
      rewrite N2, !nth_cube by exact Hax. unfold out_size. destruct DV as [r R]. subst n. rewrite Nat.div_mul by lia.
      replace (r * k - k) with ((r - 1) * k) by nia. rewrite Nat.div_mul by lia. assert (0 < r) by nia. lia. }
    pose proof (pool_call_eq G d _ _ OK idx cos (repeat k d) (repeat k d) eb ea (is_same (upper "valid_equiv")) t L b (repeat n d) c (fun4 x) F NES Lm) as CE.
    cbv zeta in CE. fold m1 in CE. fold pads in CE. fold m2 in CE. rewrite FB in CE. rewrite GO in SH. rewrite <- (tensor_sig4 d b (repeat n d) _ c x W Lm SH) in CE.
    eexists. split; [exact CE|]. rewrite shape_tab, OU. reflexivity. }
  exists (PoolingLayer L). split; [cbn [layer_built]; rewrite I0; cbn [bind]; rewrite BL; reflexivity|].
  assert (TZ : wf (tab (1 :: repeat n d ++ [g; c]) (fun _ => zero (A := A)))) by apply wf_tab.
  destruct (CALL _ 1 TZ (shape_tab _ _)) as [y0 [Y0 SY0]]. split.
  { cbn [symbolic_shape]. unfold static_signal_shape.
    replace (map Some (repeat n d) ++ [Some g; Some c]) with (map Some (repeat n d ++ [g; c])) by (rewrite map_app; reflexivity).
    rewrite known_sizes_known. cbn [bind]. rewrite Y0. cbn [bind]. rewrite SY0. cbn [tl]. rewrite map_app. reflexivity. }
  apply works_samplewise; [|exact CALL].
  exact (C49_pooling_treats_samples_independently name G d t a H "VALID_EQUIV" bs (repeat n d) (repeat n d) g c L _ _ PF eq_refl OP BB Lm SZ (ex_intro _ _ (ex_intro _ y0 Y0)) Lm).
Qed.

(** ** Networks: a model, and then global pooling *)

Definition network (f : list A -> A) (d : nat) (ls : list (model_layer A)) (x : tensor A) : result (tensor A) :=
  y <- model_call ls x ;; pool_everything f d y.

(** Networks that start with a lifting convolution and have neither padding nor
    convolutions to a proper subgroup do not change their output when their input is
    transformed by an element of the last subgroup. *)
Theorem C76_networks_without_padding_are_invariant name G specs last ls bs b m c x gx z f :
  add_commutes A -> order_irrelevant f -> dict_get group_dict name = Ok G ->
  let d := dimension_of name in
  chain d false name specs last -> (forall p, In p specs -> whole_group_without_padding d p) ->
  sequential d specs (static_signal_shape false bs m 1 c) = Ok ls -> List.length m = d -> (forall ax, ax < d -> 0 < nth ax m 0) ->
  wf x -> shape x = b :: m ++ [c] -> model_call ls x = Ok z ->
  transforms_of_grid_signal G d last x = Ok gx ->
  exists features, network f d ls x = Ok features /\
    forall u, u < nth 0 (shape gx) 0 -> network f d ls (slice 0 u gx) = Ok features.
Proof.
  intros ADD OI DG d CH WG SQ Lm PM W SH MC R.
  pose proof (C75_when_models_are_built_for_their_signals name specs last false ls bs b m 1 c x CH WG SQ Lm PM W SH ADD) as AA.
  destruct (C75_models_without_padding_are_equivariant name G specs last ls false bs b m 1 c x z ADD DG CH WG SQ Lm PM W SH MC) as [Gl [idx [DL [_ [_ CM]]]]].
  destruct (CM gx z R MC) as [gz [RZ [NZ Q]]].
  destruct (chain_lifting_stack d name specs last ls bs b m 1 c x z ADD CH eq_refl SQ Lm W SH AA MC) as [H [lift [rest [y [EM [LS [LX ST]]]]]]].
  destruct (lifting_facts name H m c lift b x y ADD LS Lm W SH LX) as [G' [ih [mo [o [DG' [SI [WY [Lmo [SY _]]]]]]]]].
  assert (G' = G) as -> by congruence. destruct (output_group name G H ih DG SI) as [K [DK [DD [LI _]]]].
  rewrite LI in SY.
  destruct (stack_output _ y rest last ADD ST K b mo o DK) as [z' [mo' [o' [RZ' [WZ [Lmo' SZ]]]]]]; [rewrite DD; exact Lmo|exact WY|exact SY|].
  assert (z' = z) as ->.
  { rewrite model_run, EM in MC. cbn [run] in MC. rewrite LX in MC. cbn [bind] in MC. congruence. }
  pose proof DL as DL'. apply lib_ok in DL' as [_ OKL].
  assert (DLA : dimension_of last = d).
  { destruct (stack_commutes _ y rest last ADD ST K DK) as [_ [_ [_ [_ [DDL _]]]]]. unfold d; congruence. }
  rewrite DLA in *. rewrite <- (ok_order _ _ _ _ OKL) in SZ.
  pose proof (C76_pooling_everything_is_invariant last Gl f b mo' (g_order Gl) o' z gz DL OI) as PE. cbv zeta in PE. rewrite DLA in PE.
  destruct (PE Lmo' eq_refl WZ SZ RZ) as [fe [F1 [_ [SG F2]]]].
  exists fe. unfold network. rewrite MC. cbn [bind]. split; [exact F1|].
  intros u U. rewrite (Q u U). cbn [bind]. apply F2. rewrite <- NZ, SG in U. exact U.
Qed.

Lemma works_everything f d m g c : List.length m = d -> works (m ++ [g; c]) [c] (pool_everything f d).
Proof.
  intros L x b W SH. rewrite (pool_everything_eq f d b m g c x L SH). eexists. split; [reflexivity|]. split; [apply wf_tab|]. split; [apply shape_tab|].
  intros bi BI. rewrite (pool_everything_eq f d 1 m g c (sample bi x) L) by (apply (shape_sample bi x b); exact SH).
  f_equal. rewrite (tab_sample bi b [c]) by exact BI. apply tab_ext. intros i I. apply inb_two in I as [b0 [q [-> [B0 Q]]]]. cbn [nth last tl].
  f_equal. apply map_ext_in. intros j J. apply In_indices in J. assert (b0 = 0) as -> by lia.
  apply (at_sample bi x b (m ++ [g; c])); [exact SH|]. replace (m ++ [g; c]) with ((m ++ [g]) ++ [c]) by (rewrite <- app_assoc; reflexivity).
  apply inb_app; [exact J|]. apply inb_cons. split; [exact Q|apply inb_nil].
Qed.

Lemma sequential_step d (p : layer_spec A) specs sin smid l ls s s1 s2 :
  layer_built d p sin = Ok l -> symbolic_shape l sin = Ok smid -> works s s1 (layer_call l) ->
  sequential d specs smid = Ok ls -> works s1 s2 (model_call ls) ->
  sequential d (p :: specs) sin = Ok (l :: ls) /\ works s s2 (model_call (l :: ls)).
Proof.
  intros B S W1 SQ W2. split.
  - cbn [sequential]. rewrite B. cbn [bind]. rewrite S. cbn [bind]. rewrite SQ. reflexivity.
  - exact (works_compose _ _ _ _ _ W1 W2).
Qed.

Lemma works_nothing s : works s s (model_call (A := A) []).
Proof. intros x b W SH. exists x. repeat (split; [assumption || reflexivity|]). intros bi _. reflexivity. Qed.

(** The transformations by a subgroup are among those by the group. *)
Lemma subgroup_slices name G H idx b m c (x gx gf : tensor A) : dict_get group_dict name = Ok G -> subgroup_indices G H idx ->
  let d := dimension_of name in
  List.length m = d -> wf x -> shape x = b :: m ++ [c] ->
  transforms_of_grid_signal G d H x = Ok gx -> transforms_of_grid_signal G d "" x = Ok gf ->
  nth 0 (shape gx) 0 = List.length idx /\ shape gf = g_order G :: b :: m ++ [c] /\ wf gf /\
  forall u, u < List.length idx -> slice 0 u gx = slice 0 (nth u idx 0) gf.
Proof.
  intros DG SI d L W SH R RF. pose proof DG as DG'. apply lib_ok in DG' as [_ OK]. fold d in OK.
  pose proof RF as RF'. unfold transforms_of_grid_signal, spatial_axes in R, RF. rewrite (tensor_sig3 d b m c x W L SH) in R, RF.
  pose proof (sub_idx_whole _ _ _ _ OK) as SW.
  destruct (grid_slices G d _ _ OK b m c (fun3 x) None (Some H) idx gx SI L R) as [_ [SG SL]].
  destruct (grid_slices G d _ _ OK b m c (fun3 x) None (Some "") _ gf SW L RF) as [_ [SGF SLF]].
  rewrite SG, SGF, seq_length. split; [reflexivity|]. split; [rewrite (ok_order _ _ _ _ OK); reflexivity|].
  split.
  { assert (RK : rank x = d + 2) by (unfold rank; rewrite SH; cbn [List.length]; rewrite app_length; cbn [List.length]; lia).
    unfold transforms_of_grid_signal, spatial_axes in RF'. change 0%Z with (Z.of_nat 0) in RF'.
    apply (grid_action_ok _ _ _ _ OK) with (idx := seq 0 (List.length (symmetries_of name))) in RF' as [_ ->];
      [apply wf_stk|exact W|lia|apply spatial_block; lia|exact SW]. }
  intros u U. destruct (sub_idx_facts _ _ _ _ OK _ _ SI) as [_ [B _]]. assert (BU : nth u idx 0 < List.length (symmetries_of name)) by (apply B, nth_In; exact U).
  rewrite (SL u U), (SLF (nth u idx 0)) by (rewrite seq_length; exact BU). rewrite seq_nth by exact BU. reflexivity.
Qed.

(** What the notebook claims for a network: it gets made, and for every batch of images
    it returns the same features for the transformed images, for the elements [idx] of
    the group.  For a single image the transformed images can be merged into a batch; then the
    rows of the result are the same for these elements. *)
Definition invariant_network (f : list A -> A) (d : nat) (G : group) (idx : list nat) (specs : list (layer_spec A)) (bs : option nat) (n c o : nat) : Prop :=
  exists ls, sequential d specs (bs :: repeat (Some n) d ++ [Some c]) = Ok ls /\
  forall x b, wf x -> shape x = b :: repeat n d ++ [c] ->
  exists gx features, transforms_of_grid_signal G d "" x = Ok gx /\ nth 0 (shape gx) 0 = g_order G /\
    network f d ls x = Ok features /\ shape features = [b; o] /\
    (forall u, In u idx -> network f d ls (slice 0 u gx) = Ok features) /\
    (b = 1 -> exists rows, network f d ls (read_as (g_order G :: repeat n d ++ [c]) gx) = Ok rows /\ shape rows = [g_order G; o] /\
       forall u, In u idx -> sample u rows = features).

Lemma network_invariant name G specs last idx ls bs n c g o mo f :
  add_commutes A -> order_irrelevant f -> dict_get group_dict name = Ok G ->
  let d := dimension_of name in
  chain d false name specs last -> (forall p, In p specs -> whole_group_without_padding d p) ->
  subgroup_indices G last idx -> 0 < n -> List.length mo = d ->
  sequential d specs (static_signal_shape false bs (repeat n d) 1 c) = Ok ls ->
  works (repeat n d ++ [c]) (mo ++ [g; o]) (model_call ls) ->
  invariant_network f d G idx specs bs n c o.
Proof.
  intros ADD OI DG d CH WG SI N Lmo SQ WK. exists ls.
  assert (MS : bs :: repeat (Some n) d ++ [Some c] = static_signal_shape false bs (repeat n d) 1 c).
  { unfold static_signal_shape. f_equal. f_equal. clear. induction d as [|d IH]; cbn [repeat map]; [reflexivity|]. rewrite IH. reflexivity. }
  rewrite MS. split; [exact SQ|]. intros x b W SH.
  assert (Lm : List.length (repeat n d) = d) by apply repeat_length.
  pose proof DG as DG'. apply lib_ok in DG' as [_ OK]. fold d in OK.
  destruct (cube_grid name G "" _ x b n c DG (sub_idx_whole _ _ _ _ OK) W SH) as [gf RF]. fold d in RF.
  destruct (cube_grid name G last idx x b n c DG SI W SH) as [gx R]. fold d in R.
  destruct (subgroup_slices name G last idx b (repeat n d) c x gx gf DG SI Lm W SH R RF) as [NX [SF [WF SL]]]. fold d in SF.
  destruct (WK x b W SH) as [z [MC [WZ [SZ _]]]].
  destruct (C76_networks_without_padding_are_invariant name G specs last ls bs b (repeat n d) c x gx z f ADD OI DG CH WG SQ Lm) as [fe [F1 F2]]; try assumption.
  { intros ax Hax. fold d in Hax. rewrite nth_cube by exact Hax. exact N. }
  fold d in F1, F2. rewrite NX in F2.
  assert (IV : forall u, In u idx -> network f d ls (slice 0 u gf) = Ok fe).
  { intros u U. destruct (In_nth _ _ 0 U) as [i [I <-]]. rewrite <- (SL i I). apply F2. exact I. }
  assert (NW : works (repeat n d ++ [c]) [o] (network f d ls)) by exact (works_compose _ _ _ _ _ WK (works_everything f d mo g o Lmo)).
  exists gf, fe. split; [exact RF|]. split; [rewrite SF; reflexivity|]. split; [exact F1|].
  destruct (NW x b W SH) as [fe' [F1' [_ [SFE _]]]]. assert (fe' = fe) as -> by congruence. split; [exact SFE|]. split; [exact IV|].
  intros ->. set (rx := read_as (g_order G :: repeat n d ++ [c]) gf).
  assert (WR : wf rx).
  { unfold wf, rx, read_as in *. cbn [shape data]. rewrite WF, SF. cbn [prod fold_right]. lia. }
  destruct (NW rx (g_order G) WR eq_refl) as [rows [R1 [WRO [SR Q]]]]. exists rows. split; [exact R1|]. split; [exact SR|].
  intros u U. assert (UB : u < g_order G).
  { destruct (sub_idx_facts _ _ _ _ OK _ _ SI) as [_ [B _]]. rewrite (ok_order _ _ _ _ OK). apply B. exact U. }
  assert (ES : sample u rx = slice 0 u gf).
  { pose proof (sample_of_batches u 0 gf (g_order G) 1 (repeat n d ++ [c]) UB Nat.lt_0_1 SF) as E. rewrite Nat.mul_1_r, Nat.mul_1_r, Nat.add_0_r in E.
    fold rx in E. rewrite <- E. pose proof (shape_slice0 u gf (g_order G) (1 :: repeat n d ++ [c]) SF) as S1.
    symmetry. apply tensor_ext; [apply wf_slice|apply (wf_sample _ _ 1 _ S1)|rewrite S1; symmetry; apply (shape_sample _ _ 1 _ S1)|].
    intros i I. rewrite S1 in I. destruct i as [|v i]; [inversion I|]. apply inb_cons in I as [V I]. assert (v = 0) as -> by lia.
    symmetry. exact (at_sample 0 _ 1 _ i S1 I). }
  specialize (Q u UB). rewrite ES, (IV u U) in Q. congruence.
Qed.

(** ** The notebook's two models *)

(** build_model (cell 10) with the layers of cell 14, without Dense. *)
Definition group_model (name : string) (filters : nat -> nat) (act : A -> A) (kinit binit : nat -> list nat -> A) : list (layer_spec A) :=
  let conv i := Convolution false (plain_convolution name 3 (filters i) act) (kinit i) (binit i) in
  [conv 0; conv 1; Pooling "max" (plain_pooling name "" 2); conv 2; conv 3].

(** build_model_subgroups (cell 46), without Dense. *)
Definition subgroup_model (g0 g1 g2 : string) (filters : nat -> nat) (act : A -> A) (kinit binit : nat -> list nat -> A) : list (layer_spec A) :=
  let conv i name := Convolution false (plain_convolution name 3 (filters i) act) (kinit i) (binit i) in
  [conv 0 g0; conv 1 g0; Pooling "max" (plain_pooling g0 g1 2); conv 2 g1; Pooling "max" (plain_pooling g1 g2 1); conv 3 g2].

Lemma plain_convolution_without_padding name G k o act kinit binit : dict_get group_dict name = Ok G -> 0 < k ->
  whole_group_without_padding (dimension_of name) (Convolution false (plain_convolution name k o act) kinit binit).
Proof.
  intros DG K. destruct (plain_convolution_facts name G k o act DG K) as [LF [OP SZ]]. split.
  - exists "VALID_EQUIV", (repeat k (dimension_of name)), (repeat 1 (dimension_of name)), (repeat 1 (dimension_of name)).
    split; [exact OP|]. split; [exact SZ|]. right. split; [intros v I; apply repeat_spec in I; exact I|discriminate].
  - exists name, G, "". split; [exact LF|]. split; reflexivity.
Qed.

Lemma chain_plain_convolution d valued name G k o act kinit binit specs last : dimension_of name = d -> dict_get group_dict name = Ok G -> 0 < k ->
  chain d true name specs last -> chain d valued name (Convolution false (plain_convolution name k o act) kinit binit :: specs) last.
Proof.
  intros DN DG K CH. destruct (plain_convolution_facts name G k o act DG K) as [LF [_ SZ]]. rewrite DN in SZ.
  apply (chain_convolution d valued name G "" _ _ _ (repeat k d) (repeat 1 d) _ _ DN LF eq_refl eq_refl SZ); [intros _; apply cube_equal|exact CH].
Qed.

Lemma chain_plain_pooling d name G H k specs last : order_irrelevant (pool_fun (A := A) "max") -> dimension_of name = d -> dict_get group_dict name = Ok G -> 0 < k ->
  chain d true (subgroup_name name H) specs last -> chain d true name (Pooling "max" (plain_pooling name H k) :: specs) last.
Proof.
  intros OI DN DG K CH. destruct (plain_pooling_facts name G H k DG K) as [PF [OP SZ]]. rewrite DN in SZ.
  apply (chain_pooling d name G H "max" _ "VALID_EQUIV" (repeat k d) (repeat k d) _ _ DN PF eq_refl OP ltac:(discriminate) OI ltac:(discriminate) eq_refl SZ);
    [intros _; apply cube_equal|intros _; apply cube_equal|exact CH].
Qed.

(** The network with one group throughout: invariant under the whole group. *)
Theorem C76_the_group_network_is_invariant name G filters act kinit binit bs n c f :
  add_commutes A -> order_irrelevant (pool_fun (A := A) "max") -> order_irrelevant f -> dict_get group_dict name = Ok G ->
  Nat.Even n -> 14 <= n -> (forall i, 0 < filters i) ->
  invariant_network f (dimension_of name) G (seq 0 (g_order G)) (group_model name filters act kinit binit) bs n c (filters 3).
Proof.
  intros ADD OM OI DG [h EH] N FI. set (d := dimension_of name). pose proof DG as DG'. apply lib_ok in DG' as [GN OK]. fold d in OK.
  pose proof (sub_idx_whole _ _ _ _ OK) as SW. pose proof (ok_order _ _ _ _ OK) as GO. rewrite <- GO in SW.
  destruct (convolution_step name G false bs n c 3 (filters 0) act (kinit 0) (binit 0) DG ltac:(lia) (FI 0)) as [l0 [B0 [S0 W0]]].
  destruct (convolution_step name G true bs (n - 3 + 1) (filters 0) 3 (filters 1) act (kinit 1) (binit 1) DG ltac:(lia) (FI 1)) as [l1 [B1 [S1 W1]]].
  assert (E1 : n - 3 + 1 - 3 + 1 = (h - 2) * 2) by lia. rewrite E1 in *.
  destruct (pooling_step name G "" _ "max" bs ((h - 2) * 2) (filters 1) 2 DG SW ltac:(lia) ltac:(lia) (ex_intro _ (h - 2) eq_refl)) as [l2 [B2 [S2 W2]]].
  rewrite seq_length, Nat.div_mul in S2, W2 by lia.
  destruct (convolution_step name G true bs (h - 2) (filters 1) 3 (filters 2) act (kinit 2) (binit 2) DG ltac:(lia) (FI 2)) as [l3 [B3 [S3 W3]]].
  destruct (convolution_step name G true bs (h - 2 - 3 + 1) (filters 2) 3 (filters 3) act (kinit 3) (binit 3) DG ltac:(lia) (FI 3)) as [l4 [B4 [S4 W4]]].
  fold d in B0, S0, W0, B1, S1, W1, B2, S2, W2, B3, S3, W3, B4, S4, W4.
  destruct (sequential_step d _ [] _ _ l4 [] _ _ _ B4 S4 W4 eq_refl (works_nothing _)) as [Q4 V4].
  destruct (sequential_step d _ _ _ _ l3 _ _ _ _ B3 S3 W3 Q4 V4) as [Q3 V3].
  destruct (sequential_step d _ _ _ _ l2 _ _ _ _ B2 S2 W2 Q3 V3) as [Q2 V2].
  destruct (sequential_step d _ _ _ _ l1 _ _ _ _ B1 S1 W1 Q2 V2) as [Q1 V1].
  assert (S0' : symbolic_shape l0 (static_signal_shape false bs (repeat n d) 1 c) = Ok (static_signal_shape true bs (repeat (n - 3 + 1) d) (g_order G) (filters 0))) by exact S0.
  destruct (sequential_step d _ _ (static_signal_shape false bs (repeat n d) 1 c) _ l0 _ _ _ _ B0 S0' W0 Q1 V1) as [Q0 V0].
  assert (SL : subgroup_indices G name (seq 0 (g_order G))).
  { apply (listed_indices name G name _ DG). exact (indices_listed name G "" _ DG SW). }
  refine (network_invariant name G (group_model name filters act kinit binit) name _ _ bs n c _ _ _ f ADD OI DG _ _ SL ltac:(lia) (repeat_length _ _) Q0 V0).
  - apply chain_plain_convolution with (G := G); [reflexivity|exact DG|lia|].
    apply chain_plain_convolution with (G := G); [reflexivity|exact DG|lia|].
    apply chain_plain_pooling with (G := G); [exact OM|reflexivity|exact DG|lia|].
    apply chain_plain_convolution with (G := G); [reflexivity|exact DG|lia|].
    apply chain_plain_convolution with (G := G); [reflexivity|exact DG|lia|]. apply chain_end.
  - intros p [<-|[<-|[<-|[<-|[<-|[]]]]]]; [| |exact I| |]; apply (plain_convolution_without_padding name G); try exact DG; lia.
Qed.

(** The network that pools onto smaller and smaller subgroups: invariant under the last
    one. *)
Theorem C76_the_subgroup_network_is_invariant g0 g1 g2 G0 G1 i1 i2 filters act kinit binit bs n c f :
  add_commutes A -> order_irrelevant (pool_fun (A := A) "max") -> order_irrelevant f ->
  dict_get group_dict g0 = Ok G0 -> dict_get (g_subgroup G0) g1 = Ok i1 ->
  dict_get group_dict g1 = Ok G1 -> dict_get (g_subgroup G1) g2 = Ok i2 ->
  Nat.Even n -> 14 <= n -> (forall i, 0 < filters i) ->
  invariant_network f (dimension_of g0) G0 (map (fun v => nth v i1 0) i2) (subgroup_model g0 g1 g2 filters act kinit binit) bs n c (filters 3).
Proof.
  intros ADD OM OI D0 L1 D1 L2 [h EH] N FI. set (d := dimension_of g0).
  destruct (C50_listed_subgroups_are_in_the_library _ _ _ _ D0 L1) as [G1' [D1' [DD1 O1]]]. assert (G1' = G1) as -> by congruence. clear D1'.
  destruct (C50_listed_subgroups_are_in_the_library _ _ _ _ D1 L2) as [G2 [D2 [DD2 O2]]].
  pose proof (listed_indices _ _ _ _ D0 L1) as SI1. pose proof (listed_indices _ _ _ _ D1 L2) as SI2.
  assert (NE1 : subgroup_name g0 g1 = g1).
  { unfold subgroup_name. destruct (String.eqb_spec g1 ""); [|reflexivity]. exfalso. exact (lib_name_nonempty _ _ D1 e). }
  assert (NE2 : subgroup_name g1 g2 = g2).
  { unfold subgroup_name. destruct (String.eqb_spec g2 ""); [|reflexivity]. exfalso. exact (lib_name_nonempty _ _ D2 e). }
  rewrite DD1 in DD2. fold d in DD1, DD2.
  destruct (convolution_step g0 G0 false bs n c 3 (filters 0) act (kinit 0) (binit 0) D0 ltac:(lia) (FI 0)) as [l0 [B0 [S0 W0]]].
  destruct (convolution_step g0 G0 true bs (n - 3 + 1) (filters 0) 3 (filters 1) act (kinit 1) (binit 1) D0 ltac:(lia) (FI 1)) as [l1 [B1 [S1 W1]]].
  assert (E1 : n - 3 + 1 - 3 + 1 = (h - 2) * 2) by lia. rewrite E1 in *.
  destruct (pooling_step g0 G0 g1 _ "max" bs ((h - 2) * 2) (filters 1) 2 D0 SI1 ltac:(lia) ltac:(lia) (ex_intro _ (h - 2) eq_refl)) as [l2 [B2 [S2 W2]]].
  rewrite <- O1, Nat.div_mul in S2, W2 by lia.
  destruct (convolution_step g1 G1 true bs (h - 2) (filters 1) 3 (filters 2) act (kinit 2) (binit 2) D1 ltac:(lia) (FI 2)) as [l3 [B3 [S3 W3]]].
  assert (DV1 : Nat.divide 1 (h - 2 - 3 + 1)) by apply Nat.divide_1_l.
  destruct (pooling_step g1 G1 g2 _ "max" bs (h - 2 - 3 + 1) (filters 2) 1 D1 SI2 ltac:(lia) ltac:(lia) DV1) as [l4 [B4 [S4 W4]]].
  rewrite <- O2, Nat.div_1_r in S4, W4.
  destruct (convolution_step g2 G2 true bs (h - 2 - 3 + 1) (filters 2) 3 (filters 3) act (kinit 3) (binit 3) D2 ltac:(lia) (FI 3)) as [l5 [B5 [S5 W5]]].
  rewrite DD1 in B3, S3, W3, B4, S4, W4. rewrite DD2 in B5, S5, W5. fold d in B0, S0, W0, B1, S1, W1, B2, S2, W2.
  destruct (sequential_step d _ [] _ _ l5 [] _ _ _ B5 S5 W5 eq_refl (works_nothing _)) as [Q5 V5].
  destruct (sequential_step d _ _ _ _ l4 _ _ _ _ B4 S4 W4 Q5 V5) as [Q4 V4].
  destruct (sequential_step d _ _ _ _ l3 _ _ _ _ B3 S3 W3 Q4 V4) as [Q3 V3].
  destruct (sequential_step d _ _ _ _ l2 _ _ _ _ B2 S2 W2 Q3 V3) as [Q2 V2].
  destruct (sequential_step d _ _ _ _ l1 _ _ _ _ B1 S1 W1 Q2 V2) as [Q1 V1].
  assert (S0' : symbolic_shape l0 (static_signal_shape false bs (repeat n d) 1 c) = Ok (static_signal_shape true bs (repeat (n - 3 + 1) d) (g_order G0) (filters 0))) by exact S0.
  destruct (sequential_step d _ _ (static_signal_shape false bs (repeat n d) 1 c) _ l0 _ _ _ _ B0 S0' W0 Q1 V1) as [Q0 V0].
  assert (SL : subgroup_indices G0 g2 (map (fun v => nth v i1 0) i2)).
  { apply (listed_indices g0 G0 g2 _ D0). exact (C50_subgroups_of_subgroups g0 G0 g1 i1 G1 g2 i2 D0 L1 D1 L2). }
  refine (network_invariant g0 G0 (subgroup_model g0 g1 g2 filters act kinit binit) g2 _ _ bs n c _ _ _ f ADD OI D0 _ _ SL ltac:(lia) (repeat_length _ _) Q0 V0).
  - apply chain_plain_convolution with (G := G0); [reflexivity|exact D0|lia|].
    apply chain_plain_convolution with (G := G0); [reflexivity|exact D0|lia|].
    apply chain_plain_pooling with (G := G0); [exact OM|reflexivity|exact D0|lia|]. rewrite NE1.
    apply chain_plain_convolution with (G := G1); [exact DD1|exact D1|lia|].
    apply chain_plain_pooling with (G := G1); [exact OM|exact DD1|exact D1|lia|]. rewrite NE2.
    apply chain_plain_convolution with (G := G2); [exact DD2|exact D2|lia|]. apply chain_end.
  - intros p [<-|[<-|[<-|[<-|[<-|[<-|[]]]]]]]; [| |exact I| |exact I|].
    + apply (plain_convolution_without_padding g0 G0); [exact D0|lia].
    + apply (plain_convolution_without_padding g0 G0); [exact D0|lia].
    + fold d. rewrite <- DD1. apply (plain_convolution_without_padding g1 G1); [exact D1|lia].
    + fold d. rewrite <- DD2. apply (plain_convolution_without_padding g2 G2); [exact D2|lia].
Qed.

End Notebook.
Print Assumptions C76_pooling_everything_is_invariant.
Print Assumptions C76_networks_without_padding_are_invariant.
Print Assumptions C76_the_group_network_is_invariant.
Print Assumptions C76_the_subgroup_network_is_invariant.

(** ** Cases *)

(** The notebook's own networks: images of 28 x 28 pixels, the group P4M, and the
    subgroups P2MM and PMw, which is at the positions 0 and 4 of P4M. *)
Definition rectified (z : Z) : Z := if (z <? 0)%Z then 0%Z else z.

Example C76_case_the_notebook bs (filters : nat -> nat) (kinit binit : nat -> list nat -> Z) : (forall i, 0 < filters i) ->
  invariant_network (pool_fun (A := Z) "max") 2 P4M [0; 1; 2; 3; 4; 5; 6; 7] (group_model "P4M" filters rectified kinit binit) bs 28 1 (filters 3) /\
  invariant_network (pool_fun (A := Z) "max") 2 P4M [0; 4] (subgroup_model "P4M" "P2MM" "PMw" filters rectified kinit binit) bs 28 1 (filters 3).
Proof.
  intros FI. assert (ADD : add_commutes Z) by exact integers_add_commutes.
  split.
  - exact (C76_the_group_network_is_invariant "P4M" P4M filters rectified kinit binit bs 28 1 _ ADD (pool_Z_order_irrelevant "max") (pool_Z_order_irrelevant "max")
      ltac:(vm_compute; reflexivity) (ex_intro _ 14 eq_refl) ltac:(lia) FI).
  - exact (C76_the_subgroup_network_is_invariant "P4M" "P2MM" "PMw" P4M P2MM [0; 4; 6; 2] [0; 1] filters rectified kinit binit bs 28 1 _ ADD
      (pool_Z_order_irrelevant "max") (pool_Z_order_irrelevant "max") ltac:(vm_compute; reflexivity) ltac:(vm_compute; reflexivity) ltac:(vm_compute; reflexivity)
      ltac:(vm_compute; reflexivity) (ex_intro _ 14 eq_refl) ltac:(lia) FI).
Qed.

(** With images of 14 x 14 pixels and the groups P2MM, PMw, PMw: the features for the
    image and for its transforms by the elements 0 to 3 of P2MM.  Only PMw, at the
    positions 0 and 1, leaves them unchanged. *)
Definition one_filter (i : nat) : nat := 1.
Definition weights (i : nat) (j : list nat) : Z := (some_weights (i :: j) - 3)%Z.
Example C76_case_features :
  match sequential 2 (subgroup_model "P2MM" "PMw" "PMw" one_filter rectified weights weights) [None; Some 14; Some 14; Some 1] with
  | Ok ls =>
      let x := some_signal [1; 14; 14; 1] in
      match transforms_of_grid_signal P2MM 2 "" x with
      | Ok gx => map (fun y => match network (pool_fun "max") 2 ls y with Ok z => data z | Err _ => [] end) (x :: map (fun u => slice 0 u gx) (seq 0 4))
      | Err _ => [] end
  | Err _ => [] end = [[5679118895]; [5679118895]; [5679118895]; [5614323288]; [5614323288]]%Z.
Proof. vm_compute. reflexivity. Qed.
