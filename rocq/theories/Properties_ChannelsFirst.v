(** C51, C52 and the part of C20 about pooling: pooling layers in both data formats, and
    equivariance in the format 'channels_first'. *)
From Verif Require Import FormatEquiv Properties_Conv Properties_Pooling Properties_Formats.
Local Open Scope string_scope.
Local Open Scope list_scope.

Section ChannelsFirst.
Context {A : Type} {RA : Arith A} {PA : Pool A}.

(** A pooling layer that adds no padding in either format (compare
    C46_convolution_formats). *)
Theorem C51_pooling_formats name G d t (a : pool_args) bs m g c L1 L2 :
  pooling_for name G a ->
  pooling_built d t a (static_signal_shape true bs m g c) L1 -> List.length m = d ->
  pooling_built d t (pool_with_format a "channels_first") (static_channels_first_shape true bs m g c) L2 ->
  needs_padding (po_gt L1) = Some false -> needs_padding (po_gt L2) = Some false ->
  forall (x : tensor A) b m', wf x -> List.length m' = d -> shape x = signal_shape true b m' g c ->
  exists x', channels_first x = Ok x' /\ shape x' = channels_first_shape true b m' g c /\
    pool_call L2 x' = (y <- pool_call L1 x ;; channels_first y).
Proof.
  intros PF B1 Lm B2 N1 N2 x b m' W Lm' SH.
  destruct (pool_agree (A := A) name G d t a bs m g c L1 L2 PF B1 Lm B2 N1 N2) as [_ [sub [_ AG]]].
  specialize (AG x b m' W Lm' SH). unfold signal_shape in SH.
  pose proof (proj1 (move4 d b m' g c (fun4 x) Lm')) as MV. rewrite <- (tensor_sig4 d b m' g c x W Lm' SH) in MV.
  eexists. split; [exact MV|]. split; [apply shape_tab|]. unfold calls_agree, channels_first in *. rewrite MV in AG. cbn [bind] in AG.
  destruct AG as [[e [E1 E2]]|[m2 [o [Y [L' [E1 E2]]]]]]; rewrite E1, E2; cbn [bind]; [reflexivity|].
  symmetry. apply (proj1 (move4 d b m2 (List.length sub) o Y L')).
Qed.

(** Pooling layers for which the padding layer assumes strides 1 (also those without
    strides; for 'same_equiv': and odd pool sizes), and those with plain options, add no
    padding. *)
Theorem C51_pooling_without_padding name G d t (a : pool_args) opt bs m g c L1 k s :
  pooling_for name G a -> pool_option a opt -> 0 < d ->
  pooling_built d t a (static_signal_shape true bs m g c) L1 -> List.length m = d -> pool_sizes d a k s ->
  ((pa_strides a = None \/ forall v, In v s -> v = 1) /\ (opt = "VALID" \/ opt = "VALID_EQUIV" \/ forall v, In v k -> Nat.Odd v)) \/
  ((opt = "VALID" \/ opt = "SAME") /\ pa_allow a = true) ->
  needs_padding (po_gt L1) = Some false /\
  exists L2, pooling_built d t (pool_with_format a "channels_first") (static_channels_first_shape true bs m g c) L2 /\
    needs_padding (po_gt L2) = Some false.
Proof.
  intros [DG [AG AF]] [p [PN UP]] PD [L0 [I B]] Lm [SK SS] CASES.
  pose proof DG as DG'. apply lib_ok in DG' as [_ OK].
  destruct (pool_build_twin G d _ _ name t a L0 bs m g c L1 OK DG AG AF I Lm B) as [[p' [PN' PI]] [_ [_ [PB1 TW]]]].
  unfold pool_padding_name in PN'. rewrite PN in PN'. injection PN' as <-. set (P := gt_padding (po_gt L0)) in *.
  assert (NB : forall n z, List.length n = d -> exists P', padding_build P (bs :: map Some n ++ [z]) = Ok P' /\ pl_needs P' = Some false).
  { intros n z N. destruct CASES as [[S1 KO]|[PL AL]].
    - assert (SA : exists s', standardize_tuple d (assumed_strides a) = Ok s' /\ forall v, In v s' -> v = 1).
      { unfold assumed_strides. destruct (pa_strides a) as [st|].
        - exists s. split; [exact SS|]. destruct S1 as [S1|S1]; [discriminate S1|exact S1].
        - exists (repeat 1 d). split; [|intros v V; apply repeat_spec in V; exact V].
          unfold standardize_tuple, per_axis. rewrite repeat_length, Nat.eqb_refl.
          replace (forallb _ _) with true; [|symmetry; apply forallb_forall; intros z0 Z; apply repeat_spec in Z; subst z0; reflexivity].
          f_equal. clear. induction d as [|d' IH]; [reflexivity|]. cbn [repeat map]. rewrite IH. reflexivity. }
      destruct SA as [s' [SA S1']].
      apply (unit_no_padding (pa_pool_size a) _ d k s' p (pa_allow a) false P n bs z SK SA PI N S1').
      destruct KO as [KO|[KO|KO]]; [left; rewrite UP, KO; reflexivity|left; rewrite UP, KO; reflexivity|right; exact KO].
    - apply padding_init_inv in PI as [Eo [_ [_ [Ea _]]]]. unfold padding_build. rewrite Eo, Ea, UP, AL.
      exists (set_needs P false (pl_pads P)). split; [|reflexivity]. destruct PL as [-> | ->]; reflexivity. }
  split.
  - destruct (NB m (Some (g * c)) Lm) as [P' [E' N']]. unfold needs_padding. rewrite PB1 in E'. injection E' as ->. exact N'.
  - assert (NE : m <> []).
    { destruct m; [|discriminate]. exfalso. cbn in Lm. lia. }
    assert (LR : List.length (g * c :: removelast m) = d).
    { cbn [List.length]. rewrite length_removelast. destruct m; [congruence|]. cbn [List.length] in *. lia. }
    destruct (NB _ (Some (last m 0)) LR) as [P' [E' N']]. rewrite <- first_as_last in E' by exact NE.
    rewrite E' in TW. cbn [bind] in TW. eexists. split; [exists (po_first d L0); split; [rewrite pool_init_first, I by exact AF; reflexivity|exact TW]|exact N'].
Qed.

(** Global pooling. *)
Theorem C51_global_pooling_formats d t kd i1 i2 M1 M2 L1 L2 (x : tensor A) b m g c :
  global_init d t (Some "channels_last") kd = Ok M1 -> global_build M1 i1 = Ok L1 ->
  global_init d t (Some "channels_first") kd = Ok M2 -> global_build M2 i2 = Ok L2 ->
  List.length m = d -> wf x -> shape x = signal_shape true b m g c ->
  exists x' y, channels_first x = Ok x' /\ shape x' = channels_first_shape true b m g c /\
    global_call L1 x = Ok y /\ global_call L2 x' = channels_first y.
Proof.
  intros I1 B1 I2 B2 Lm W SH. unfold signal_shape in SH.
  rewrite (global_layer (Some "channels_last") d t kd M1 i1 L1 ltac:(right; left; reflexivity) I1 B1).
  rewrite (global_layer (Some "channels_first") d t kd M2 i2 L2 ltac:(right; right; left; reflexivity) I2 B2).
  clear I1 B1 I2 B2 M1 M2 L1 L2. cbn [first_of String.eqb Ascii.eqb Bool.eqb].
  pose proof (proj1 (move4 d b m g c (fun4 x) Lm)) as MV. rewrite <- (tensor_sig4 d b m g c x W Lm SH) in MV.
  set (x' := tab (b :: c :: m ++ [g]) (first4 d (fun4 x))) in *.
  unfold global_call. cbn [gp_type gp_group_axis gp_format gp_keepdims gp_dims]. unfold global_group_axis. cbn [first_of String.eqb Ascii.eqb Bool.eqb].
  set (f := pool_fun t). exists x'.
  destruct (reduce_block f x [b] m g [c] SH) as [z [RZ [WZ [SZ AZ]]]]. cbn [List.length] in RZ. rewrite Lm in RZ. rewrite RZ. cbn [bind].
  destruct (reduce_block f x' [b; c] m g [] (shape_tab _ _)) as [z' [RZ' [WZ' [SZ' AZ']]]]. cbn [List.length] in RZ'. rewrite Lm in RZ'. rewrite RZ'. cbn [bind].
  cbn [app] in SZ, SZ'. rewrite app_nil_r in SZ'.
  unfold global_pool. cbn [String.eqb Ascii.eqb Bool.eqb]. unfold global_pool_first, global_pool_last, rank. rewrite SZ, SZ'.
  replace (List.length (b :: m ++ [c]) =? d + 2)%nat with true by (symmetry; apply Nat.eqb_eq; cbn [List.length]; rewrite app_length; cbn [List.length]; lia).
  replace (List.length (b :: c :: m) =? d + 2)%nat with true by (symmetry; apply Nat.eqb_eq; cbn [List.length]; lia).
  rewrite (spatial_ix d b m [c] Lm), (chan_ix d b m c [] Lm). cbn [firstn skipn app bind nth].
  assert (V : forall bi q, bi < b -> q < c ->
    map (fun j => at_ z' (bi :: q :: j)) (indices m) = map (fun j => at_ z (bi :: j ++ [q])) (indices m)).
  { intros bi q BI Q. apply map_ext_in. intros p P. apply In_indices in P.
    assert (I2 : inb [b; c] [bi; q]) by (apply inb_cons; split; [exact BI|]; apply inb_cons; split; [exact Q|apply inb_nil]).
    assert (J1 : inb [b] [bi]) by (apply inb_cons; split; [exact BI|apply inb_nil]).
    assert (J2 : inb [c] [q]) by (apply inb_cons; split; [exact Q|apply inb_nil]).
    pose proof (AZ [bi] p [q] J1 P J2) as Q1. pose proof (AZ' [bi; q] p [] I2 P inb_nil) as Q2.
    cbn [app] in Q1, Q2. rewrite app_nil_r in Q2. rewrite Q1, Q2. f_equal. apply map_ext_in. intros h Hh. apply in_seq in Hh.
    unfold x'. rewrite at_tab.
    - rewrite first4_ix by (rewrite (inb_length _ _ P); exact Lm). reflexivity.
    - apply inb_cons. split; [exact BI|]. apply inb_cons. split; [exact Q|]. apply inb_app; [exact P|]. apply inb_cons. split; [lia|apply inb_nil]. }
  set (F := fun bi q => f (map (fun j => at_ z (bi :: j ++ [q])) (indices m))).
  destruct kd.
  - set (s1 := b :: repeat 1 d ++ [c]). set (s2 := b :: c :: repeat 1 d).
    assert (T1 : tab s1 (fun i => f (map (fun j => at_ z (nth 0 i 0 :: j ++ [last i 0])) (indices m))) = tab s1 (sig3 d (fun bi _ q => F bi q))).
    { unfold s1. apply tab_ext. intros i I. apply inb3_inv in I as [bi [p [q [-> [_ [P _]]]]]].
      rewrite sig3_ix by (rewrite (inb_length _ _ P), repeat_length; reflexivity). change (bi :: p ++ [q]) with ((bi :: p) ++ [q]). rewrite last_last. reflexivity. }
    assert (T2 : tab s2 (fun i => f (map (fun j => at_ z' (firstn 2 i ++ j)) (indices m))) = tab s2 (first3 (fun bi _ q => F bi q))).
    { unfold s2. apply tab_ext. intros i I. apply inbF_inv in I as [bi [q [p [-> [BI [Q _]]]]]]. cbn [firstn app]. rewrite V by assumption. reflexivity. }
    assert (LO : List.length (repeat 1 d) = d) by apply repeat_length.
    assert (E1 : expand_dims (tab s1 (sig3 d (fun bi _ q => F bi q))) (Z.of_nat (1 + d)) = Ok (tab (b :: repeat 1 d ++ [1; c]) (sig4 d (fun bi _ _ q => F bi q)))).
    { unfold s1. rewrite expand_dims_tab by (cbn [List.length]; rewrite app_length, LO; cbn [List.length]; lia). f_equal.
      replace (b :: repeat 1 d ++ [1; c]) with (insert_at (1 + d) 1 (b :: repeat 1 d ++ [c])).
      2:{ replace (1 + d) with (List.length (b :: repeat 1 d)) by (cbn [List.length]; rewrite LO; reflexivity).
          change (b :: repeat 1 d ++ [c]) with ((b :: repeat 1 d) ++ [c]). rewrite insert_at_app_r. reflexivity. }
      rewrite tab_stk by (cbn [List.length]; rewrite app_length, LO; cbn [List.length]; lia).
      apply stk_ext; [cbn [List.length]; rewrite app_length, LO; cbn [List.length]; lia|]. intros h i Hh I.
      apply inb3_inv in I as [bi [p [q [-> [_ [P _]]]]]]. pose proof (inb_length _ _ P) as LP. rewrite LO in LP.
      replace (1 + d) with (List.length (bi :: p)) by (cbn [List.length]; lia). change (bi :: p ++ [q]) with ((bi :: p) ++ [q]). rewrite insert_at_app_r.
      cbn [app]. rewrite sig3_ix, sig4_ix by exact LP. reflexivity. }
    assert (E2 : expand_dims (tab s2 (first3 (fun bi _ q => F bi q))) (Z.of_nat (2 + d)) = Ok (tab (b :: c :: repeat 1 d ++ [1]) (first4 d (fun bi _ _ q => F bi q)))).
    { unfold s2. rewrite expand_dims_tab by (cbn [List.length]; rewrite LO; lia). f_equal.
      change (b :: c :: repeat 1 d ++ [1]) with ((b :: c :: repeat 1 d) ++ [1]). rewrite insert_last.
      replace (List.length (b :: c :: repeat 1 d)) with (2 + d) by (cbn [List.length]; lia).
      rewrite tab_stk by (cbn [List.length]; rewrite LO; lia).
      apply stk_ext; [cbn [List.length]; rewrite LO; lia|]. intros h i Hh I.
      apply inbF_inv in I as [bi [q [p [-> [_ [_ P]]]]]]. pose proof (inb_length _ _ P) as LP. rewrite LO in LP.
      replace (2 + d) with (List.length (bi :: q :: p)) by (cbn [List.length]; lia). rewrite <- insert_last. cbn [app]. rewrite first4_ix by exact LP. reflexivity. }
    exists (tab (b :: repeat 1 d ++ [1; c]) (sig4 d (fun bi _ _ q => F bi q))). split; [exact MV|]. split; [apply shape_tab|].
    split; [etransitivity; [|exact E1]; f_equal; exact T1|]. unfold channels_first. rewrite (proj1 (move4 d b (repeat 1 d) 1 c _ LO)).
    etransitivity; [|exact E2]. f_equal. exact T2.
  - set (y := tab [b; c] (fun i => F (nth 0 i 0) (nth 1 i 0))). exists y. split; [exact MV|]. split; [apply shape_tab|]. split.
    + f_equal. apply tab_ext. intros i I. apply inb2 in I as [bi [q [-> _]]]. reflexivity.
    + assert (MY : channels_first y = Ok y).
      { pose proof (proj1 (to_first b c [] (fun q i => F (nth 0 i 0) q))) as T. unfold channels_first.
        assert (EY : y = stk 1 c [b] (fun q i => F (nth 0 i 0) q)).
        { unfold y. change [b; c] with (insert_at 1 c [b]). rewrite tab_stk by (cbn [List.length]; lia). apply stk_ext; [cbn [List.length]; lia|].
          intros q i Q I. apply inb1 in I as [bi [-> _]]. reflexivity. }
        rewrite EY. exact T. }
      rewrite MY. f_equal. apply tab_ext. intros i I. apply inb2 in I as [bi [q [-> [BI Q]]]]. cbn [firstn app nth]. rewrite V by assumption. reflexivity.
Qed.

(** ** Equivariance in the format 'channels_first' *)

Lemma whole_listed G d E eq : group_ok G d E eq -> forall dom, sub_idx G (Some "") dom -> dom = seq 0 (List.length E).
Proof. intros OK dom S. pose proof (sub_idx_whole _ _ _ _ OK) as S'. unfold sub_idx in *. congruence. Qed.

(** Convolutions: under the conditions of the theorems about 'channels_last' layers
    (Properties_Conv), when no padding is added in either format. *)
Theorem C52_channels_first_convolution name G (a : conv_args A) H opt (valued : bool) bs m g c kinit binit L1 L2 k s dl m' x b :
  add_commutes A ->
  layer_for name G a -> ca_subgroup a = Some H -> option_of a opt ->
  (ca_allow a = false \/ In opt ["SAME_EQUIV"; "VALID_EQUIV"]) ->
  let d := dimension_of name in
  built d false a (static_signal_shape valued bs m g c) kinit binit L1 -> List.length m = d ->
  built d false (with_format a "channels_first") (static_channels_first_shape valued bs m g c) kinit binit L2 ->
  needs_padding (cl_gt L1) = Some false -> needs_padding (cl_gt L2) = Some false ->
  sizes d a k s dl -> respects name s -> respects name dl ->
  (In opt ["SAME"; "SAME_EQUIV"] -> forall ax, ax < d -> Nat.Odd (nth ax k 0) \/ Nat.Odd (nth ax dl 0)) ->
  List.length m' = d -> (forall ax, ax < d -> nth ax m 0 mod nth ax s 0 = nth ax m' 0 mod nth ax s 0) ->
  wf x -> shape x = channels_first_shape valued b m' g c ->
  commutes_at (if valued then transforms_of_first_group_signal G d H "" else transforms_of_first_grid_signal G d H)
              (transforms_of_first_group_signal G d H H) (apply L2) x.
Proof.
  intros ADD LF HS OP AL d B1 Lm B2 N1 N2 SZ RS RD DF Lm' CO W SH.
  pose proof LF as [DG _]. apply lib_ok in DG as [_ OK]. fold d in OK.
  destruct (conv_agree name G a false valued bs m g c kinit binit L1 L2 LF B1 Lm B2 N1 N2) as [act [dom [SA [SD AG]]]]. fold d in AG. rewrite HS in SA.
  assert (BA : forall u, In u act -> u < List.length (symmetries_of name)) by (apply (sub_idx_facts _ _ _ _ OK _ _ SA)).
  pose proof (commutes_first G d _ _ OK valued (apply L1) (apply L2) H "" H act dom act x b m' g c SA) as T.
  unfold transforms_first, transforms_last in T.
  assert (Q : commutes_at (fun x0 : tensor A => if valued then transforms_of_first_group_signal G d H "" x0 else transforms_of_first_grid_signal G d H x0)
                          (transforms_of_first_group_signal G d H H) (apply L2) x).
  { apply T; try assumption.
    - intros V. destruct (SD V) as [S1 S2]. split; [exact S1|]. split; [exact S2|]. intros u U. rewrite (whole_listed _ _ _ _ OK dom S1).
      apply (stable_whole _ _ _ _ OK). apply BA. exact U.
    - intros u U. apply (stable_of _ _ _ _ OK (Some H)); assumption.
    - intros z WZ SHZ. apply (AG z b m' WZ Lm' SHZ).
    - intros z WZ SHZ. pose proof (layer_commutes name G a H opt valued bs m c g kinit binit L1 k s dl m' z b ADD LF HS OP AL B1 Lm SZ RS RD DF Lm' CO WZ SHZ) as LC.
      destruct valued; exact LC. }
  destruct valued; exact Q.
Qed.

(** In particular with strides 1. *)
Theorem C52_channels_first_stride_one name G (a : conv_args A) H opt (valued : bool) bs m g c kinit binit L1 L2 k s x b m' :
  add_commutes A ->
  layer_for name G a -> ca_subgroup a = Some H -> option_of a opt -> ca_allow a = false ->
  let d := dimension_of name in
  built d false a (static_signal_shape valued bs m g c) kinit binit L1 -> List.length m = d ->
  built d false (with_format a "channels_first") (static_channels_first_shape valued bs m g c) kinit binit L2 ->
  sizes d a k s (repeat 1 d) -> (forall v, In v s -> v = 1) ->
  opt = "VALID" \/ opt = "VALID_EQUIV" \/ (forall v, In v k -> Nat.Odd v) ->
  wf x -> List.length m' = d -> shape x = channels_first_shape valued b m' g c ->
  commutes_at (if valued then transforms_of_first_group_signal G d H "" else transforms_of_first_grid_signal G d H)
              (transforms_of_first_group_signal G d H H) (apply L2) x.
Proof.
  intros ADD LF HS OP AL d B1 Lm B2 SZ S1 KO W Lm' SH.
  destruct (C46_layers_without_padding name G a opt false valued bs m g c kinit binit L1 k s (repeat 1 d) LF OP B1 Lm SZ (or_introl (conj S1 KO)))
    as [N1 [L2' [B2' N2]]].
  assert (EL : L2' = L2).
  { destruct B2 as [M0 [I2 B2]], B2' as [M0' [I2' B2']]. fold d in I2', B2'. assert (M0' = M0) as -> by congruence. congruence. }
  subst L2'.
  assert (N1S : forall ax, ax < d -> nth ax s 0 = 1).
  { intros ax Hax. apply S1, nth_In. destruct SZ as [_ [SS _]]. destruct (std_pos d _ _ SS) as [-> _]. exact Hax. }
  apply (C52_channels_first_convolution name G a H opt valued bs m g c kinit binit L1 L2 k s (repeat 1 d) m' x b); try assumption.
  - left. exact AL.
  - intros _ u v U V. rewrite (S1 u U), (S1 v V). reflexivity.
  - apply ones_respect.
  - intros _ ax Hax. right. fold d in Hax. rewrite Properties_Conv.nth_ones by exact Hax. exists 0. reflexivity.
  - intros ax Hax. rewrite N1S by exact Hax. rewrite !Nat.mod_1_r. reflexivity.
Qed.

(** Transposed convolutions, under the conditions of C27. *)
Theorem C52_channels_first_transposed name G (a : conv_args A) H U opt bs m g c kinit binit L1 L2 k s :
  add_commutes A ->
  layer_for name G a -> ca_subgroup a = Some H -> option_of a opt ->
  let d := dimension_of name in
  List.length m = d -> sizes d a k s (repeat 1 d) -> respects name s -> regular_transposed d opt m k s ->
  needs_padding (cl_gt L1) = Some false -> needs_padding (cl_gt L2) = Some false ->
  (built d true a (static_signal_shape false bs m g c) kinit binit L1 ->
   built d true (with_format a "channels_first") (static_channels_first_shape false bs m g c) kinit binit L2 ->
   forall b x, wf x -> shape x = channels_first_shape false b m g c ->
     commutes_at (transforms_of_first_grid_signal G d U) (transforms_of_first_group_signal G d U "") (apply L2) x) /\
  (built d true a (static_signal_shape true bs m g c) kinit binit L1 ->
   built d true (with_format a "channels_first") (static_channels_first_shape true bs m g c) kinit binit L2 ->
   forall b x, wf x -> shape x = channels_first_shape true b m g c ->
     commutes_at (transforms_of_first_group_signal G d H H) (transforms_of_first_group_signal G d H "") (apply L2) x).
Proof.
  intros ADD LF HS OP d Lm SZ RS RT N1 N2. pose proof LF as [DG _]. apply lib_ok in DG as [_ OK]. fold d in OK.
  destruct (C27_transposed_convolution_any_stride name G a H U opt bs m g c kinit binit L1 k s ADD LF HS OP Lm SZ RS RT) as [C1 C2].
  split; intros B1 B2 b x W SH.
  - intros gx y R C. assert (HI : exists idx, sub_idx G (Some U) idx) by exact (action_names_subgroup _ _ _ _ _ _ _ _ R). destruct HI as [idx HI].
    destruct (conv_agree name G a true false bs m g c kinit binit L1 L2 LF B1 Lm B2 N1 N2) as [act [dom [SA [_ AG]]]]. fold d in AG.
    revert gx y R C. apply (commutes_first G d _ _ OK false (apply L1) (apply L2) U "" "" idx dom act x b m g c HI); try assumption.
    + discriminate.
    + intros u U'. rewrite (whole_listed _ _ _ _ OK act SA). apply (stable_whole _ _ _ _ OK). apply (sub_idx_facts _ _ _ _ OK _ _ HI). exact U'.
    + intros z WZ SHZ. apply (AG z b m WZ Lm SHZ).
    + intros z WZ SHZ. apply (C1 B1 b z WZ SHZ).
  - intros gx y R C. assert (HI : exists idx, sub_idx G (Some H) idx) by exact (action_names_subgroup _ _ _ _ _ _ _ _ R). destruct HI as [idx HI].
    destruct (conv_agree name G a true true bs m g c kinit binit L1 L2 LF B1 Lm B2 N1 N2) as [act [dom [SA [SD AG]]]]. fold d in AG.
    revert gx y R C. apply (commutes_first G d _ _ OK true (apply L1) (apply L2) H H "" idx dom act x b m g c HI); try assumption.
    + intros V. destruct (SD V) as [S1 S2]. rewrite HS in S1. split; [exact S1|]. split; [exact S2|]. intros u U'.
      assert (dom = idx) as -> by (unfold sub_idx in *; congruence). apply (stable_of _ _ _ _ OK (Some H)); assumption.
    + intros u U'. rewrite (whole_listed _ _ _ _ OK act SA). apply (stable_whole _ _ _ _ OK). apply (sub_idx_facts _ _ _ _ OK _ _ HI). exact U'.
    + intros z WZ SHZ. apply (AG z b m WZ Lm SHZ).
    + intros z WZ SHZ. apply (C2 B1 b z WZ SHZ).
Qed.

Lemma pooling_first name G t (a : pool_args) H bs m g c L1 L2 (x : tensor A) b m' :
  pooling_for name G a -> pa_subgroup a = Some H ->
  let d := dimension_of name in
  pooling_built d t a (static_signal_shape true bs m g c) L1 -> List.length m = d ->
  pooling_built d t (pool_with_format a "channels_first") (static_channels_first_shape true bs m g c) L2 ->
  needs_padding (po_gt L1) = Some false -> needs_padding (po_gt L2) = Some false ->
  List.length m' = d -> wf x -> shape x = channels_first_shape true b m' g c ->
  (forall z, wf z -> shape z = signal_shape true b m' g c ->
     commutes_at (transforms_of_group_signal G d H "") (transforms_of_group_signal G d H H) (pool_call (A := A) L1) z) ->
  commutes_at (transforms_of_first_group_signal G d H "") (transforms_of_first_group_signal G d H H) (pool_call L2) x.
Proof.
  intros PF HS d B1 Lm B2 N1 N2 Lm' W SH CM.
  pose proof PF as [DG _]. apply lib_ok in DG as [_ OK]. fold d in OK.
  destruct (pool_agree (A := A) name G d t a bs m g c L1 L2 PF B1 Lm B2 N1 N2) as [GN [sub [SA AG]]]. fold d in AG. rewrite HS in SA.
  assert (BA : forall u, In u sub -> u < List.length (symmetries_of name)) by (apply (sub_idx_facts _ _ _ _ OK _ _ SA)).
  apply (commutes_first G d _ _ OK true (pool_call L1) (pool_call L2) H "" H sub (seq 0 (List.length (symmetries_of name))) sub x b m' g c SA); try assumption.
  - intros _. split; [apply (sub_idx_whole _ _ _ _ OK)|]. split; [rewrite seq_length; exact GN|]. intros u U. apply (stable_whole _ _ _ _ OK). apply BA. exact U.
  - intros u U. apply (stable_of _ _ _ _ OK (Some H)); assumption.
  - intros z WZ SHZ. apply (AG z b m' WZ Lm' SHZ).
Qed.

(** Pooling layers, under the conditions of C32 and C33. *)
Theorem C52_channels_first_pooling name G t (a : pool_args) H opt bs m g c L1 L2 k s st (x : tensor A) b m' :
  order_irrelevant (pool_fun (A := A) t) ->
  pooling_for name G a -> pa_subgroup a = Some H -> pool_option a opt ->
  (pa_allow a = false \/ In opt ["SAME_EQUIV"; "VALID_EQUIV"]) ->
  let d := dimension_of name in
  pooling_built d t a (static_signal_shape true bs m g c) L1 -> List.length m = d ->
  pooling_built d t (pool_with_format a "channels_first") (static_channels_first_shape true bs m g c) L2 ->
  needs_padding (po_gt L1) = Some false -> needs_padding (po_gt L2) = Some false ->
  pool_sizes d a k s -> respects name k -> respects name s -> pa_strides a = Some st ->
  (opt = "SAME_EQUIV" -> forall ax, ax < d -> Nat.Even (rows_added (nth ax m 0) (nth ax k 0) (nth ax s 0))) ->
  List.length m' = d -> (forall ax, ax < d -> nth ax m 0 mod nth ax s 0 = nth ax m' 0 mod nth ax s 0) ->
  wf x -> shape x = channels_first_shape true b m' g c ->
  commutes_at (transforms_of_first_group_signal G d H "") (transforms_of_first_group_signal G d H H) (pool_call L2) x.
Proof.
  intros PF FOR HS OP AL d B1 Lm B2 N1 N2 SZ RK RS ST EV Lm' CO W SH.
  apply (pooling_first name G t a H bs m g c L1 L2 x b m'); try assumption. intros z WZ SHZ.
  exact (C32_pooling_is_equivariant name G t a H opt bs m g c L1 k s st z b m' PF FOR HS OP AL B1 Lm SZ RK RS ST EV Lm' CO WZ SHZ).
Qed.

Theorem C52_channels_first_pooling_default_strides name G t (a : pool_args) H opt bs m g c L1 L2 k s (x : tensor A) b :
  order_irrelevant (pool_fun (A := A) t) ->
  pooling_for name G a -> pa_subgroup a = Some H -> pool_option a opt -> pa_allow a = false ->
  let d := dimension_of name in
  pooling_built d t a (static_signal_shape true bs m g c) L1 -> List.length m = d ->
  pooling_built d t (pool_with_format a "channels_first") (static_channels_first_shape true bs m g c) L2 ->
  pool_sizes d a k s -> respects name k -> pa_strides a = None ->
  (forall ax, ax < d -> if mem_str opt ["SAME"; "SAME_EQUIV"]
                        then Nat.Odd (nth ax k 0) /\ Nat.Even (rows_added (nth ax m 0) (nth ax k 0) (nth ax k 0))
                        else nth ax m 0 mod nth ax k 0 = 0) ->
  wf x -> shape x = channels_first_shape true b m g c ->
  commutes_at (transforms_of_first_group_signal G d H "") (transforms_of_first_group_signal G d H H) (pool_call L2) x.
Proof.
  intros PF FOR HS OP AL d B1 Lm B2 SZ RK ST EV W SH.
  assert (KO : opt = "VALID" \/ opt = "VALID_EQUIV" \/ forall v, In v k -> Nat.Odd v).
  { destruct (mem_str opt ["SAME"; "SAME_EQUIV"]) eqn:MS.
    - right. right. intros v V. destruct (In_nth _ _ 0 V) as [ax [Hax <-]]. destruct SZ as [SK _]. destruct (std_pos d _ _ SK) as [LK _].
      apply (EV ax). fold d. lia.
    - destruct OP as [p [PN UP]]. destruct B1 as [L0 [I B1]]. pose proof FOR as [DG [AG AF]].
      pose proof DG as DG'. apply lib_ok in DG' as [_ OK]. fold d in OK.
      destruct (pool_build_twin G d _ _ name t a L0 bs m g c L1 OK DG AG AF I Lm B1) as [[p' [PN' PI]] _].
      unfold pool_padding_name in PN'. rewrite PN in PN'. injection PN' as <-. apply padding_init_inv in PI as [_ [MM _]].
      rewrite UP in MM. apply mem_str_In in MM. cbn [In] in MM. destruct MM as [MM|[MM|[MM|[MM|[]]]]]; subst opt; rewrite <- MM in MS; try discriminate MS; rewrite <- MM; auto. }
  destruct (C51_pooling_without_padding name G d t a opt bs m g c L1 k s FOR OP (library_dimension name G (proj1 FOR)) B1 Lm SZ (or_introl (conj (or_introl ST) KO))) as [N1 [L2' [B2' N2]]].
  assert (EL : L2' = L2).
  { destruct B2 as [M0 [I2 B2]], B2' as [M0' [I2' B2']]. fold d in I2', B2'. assert (M0' = M0) as -> by congruence. congruence. }
  subst L2'.
  apply (pooling_first name G t a H bs m g c L1 L2 x b m); try assumption. intros z WZ SHZ.
  apply (C33_default_strides name G t a H opt bs m g c L1 k s z b PF FOR HS OP AL B1 Lm SZ RK ST EV WZ SHZ).
Qed.

(** C20 for pooling layers: the padding is that of a 'channels_last' signal of shape
    (bs, C, m_1, …, m_d), as for convolutions (C20_padding_of_channels_first_layers). *)
Theorem C20_padding_of_channels_first_pooling name G d t (a : pool_args) bs m g c L1 L2 :
  pooling_for name G a -> 0 < d ->
  pooling_built d t a (static_signal_shape true bs m g c) L1 -> List.length m = d ->
  pooling_built d t (pool_with_format a "channels_first") (static_channels_first_shape true bs m g c) L2 ->
  padding_of_pooling a d bs (g * c :: removelast m) (last m 0) (gt_padding (po_gt L2)).
Proof.
  intros [DG [AG AF]] PD [L0 [I B]] Lm [M0 [I2 B2]].
  pose proof DG as DG'. apply lib_ok in DG' as [_ OK].
  rewrite pool_init_first in I2 by exact AF. rewrite I in I2. cbn [bind] in I2.
  assert (EM : M0 = po_first d L0) by congruence. subst M0. clear I2.
  destruct (pool_build_twin G d _ _ name t a L0 bs m g c L1 OK DG AG AF I Lm B) as [[p [PN PI]] [_ [_ [_ TW]]]]. rewrite TW in B2. clear TW.
  destruct (padding_build _ (bs :: Some _ :: map Some m)) as [P|] eqn:PB2 in B2; [|discriminate B2]. cbn [bind] in B2. injection B2 as <-.
  assert (NE : m <> []).
  { destruct m; [|discriminate]. exfalso. cbn in Lm. lia. }
  exists (gt_padding (po_gt L0)). split; [unfold pool_padding_name in PN; rewrite PN; exact PI|].
  rewrite <- first_as_last by exact NE. exact PB2.
Qed.

End ChannelsFirst.

Print Assumptions C51_pooling_formats.
Print Assumptions C51_pooling_without_padding.
Print Assumptions C51_global_pooling_formats.
Print Assumptions C52_channels_first_convolution.
Print Assumptions C52_channels_first_stride_one.
Print Assumptions C52_channels_first_transposed.
Print Assumptions C52_channels_first_pooling.
Print Assumptions C52_channels_first_pooling_default_strides.
Print Assumptions C20_padding_of_channels_first_pooling.

(** ** Examples and a counterexample over the integers *)

(** Maximum over windows of 2 by 2 pixels and over cosets of P2 in P4, in both formats. *)
Example C51_case :
  let a := pooling "P4" "P2" (One 2) (Some (One 2)) (Some (Some "valid_equiv")) in
  match test_pool 2 "max" a (static_signal_shape true None [4; 4] 4 2),
        test_pool 2 "max" (pool_with_format a "channels_first") (static_channels_first_shape true None [4; 4] 4 2) with
  | Ok L1, Ok L2 =>
      needs_padding (po_gt L1) = Some false /\ needs_padding (po_gt L2) = Some false /\
      exists x' y', channels_first (signed_signal [1; 4; 4; 4; 2]) = Ok x' /\ shape x' = [1; 2; 4; 4; 4] /\
        pool_call L2 x' = Ok y' /\ shape y' = [1; 2; 2; 2; 2] /\ (y <- pool_call L1 (signed_signal [1; 4; 4; 4; 2]) ;; channels_first y) = Ok y'
  | _, _ => False
  end.
Proof. vm_compute. split; [reflexivity|]. split; [reflexivity|]. eexists. eexists. repeat split; reflexivity. Qed.

Example C51_case_global :
  (M <- global_init 2 "average" (Some "channels_first") true ;; L <- global_build M (static_channels_first_shape true None [2; 3] 4 2) ;;
   x' <- channels_first (signed_signal [1; 2; 3; 4; 2]) ;; y' <- global_call L x' ;; Ok (shape y')) = Ok [1; 2; 1; 1; 1].
Proof. vm_compute. reflexivity. Qed.

Example C52_case_convolution :
  does_commute (transforms_of_first_group_signal P4 2 "P4" "") (transforms_of_first_group_signal P4 2 "P4" "P4")
    (test_layer 2 false (with_format (with_group "P4" "P4" (One 3) 2 None (Some (Some "same_equiv")) None true) "channels_first")
       (static_channels_first_shape true None [3; 3] 4 2) some_weights some_weights) (some_signal [1; 2; 3; 3; 4]) = true.
Proof. vm_compute. reflexivity. Qed.

Example C52_case_transposed :
  does_commute (transforms_of_first_group_signal P4 2 "P2" "P2") (transforms_of_first_group_signal P4 2 "P2" "")
    (test_layer 2 true (with_format (with_group "P4" "P2" (One 3) 2 None (Some (Some "valid_equiv")) None true) "channels_first")
       (static_channels_first_shape true None [3; 3] 2 2) some_weights some_weights) (some_signal [1; 2; 3; 3; 2]) = true.
Proof. vm_compute. reflexivity. Qed.

Example C52_case_pooling :
  pooling_does_commute (transforms_of_first_group_signal P4 2 "P2" "") (transforms_of_first_group_signal P4 2 "P2" "P2")
    (test_pool 2 "max" (pool_with_format (pooling "P4" "P2" (One 2) (Some (One 2)) (Some (Some "valid_equiv"))) "channels_first")
       (static_channels_first_shape true None [4; 4] 4 2)) (signed_signal [1; 2; 4; 4; 4]) = true.
Proof. vm_compute. reflexivity. Qed.

(** Pool size 2 and strides 3 on 4 by 4 pixels with 2 channels: only one of the spatial
    axes is padded. *)
Theorem C20_channels_first_pooling_refuted :
  exists (a : pool_args) L x, pooling_for "P2" P2 a /\
    pooling_built 2 "max" (pool_with_format a "channels_first") (static_channels_first_shape true None [4; 4] 2 1) L /\
    shape x = channels_first_shape true 1 [4; 4] 2 1 /\ wf x /\
    ~ commutes_at (transforms_of_first_group_signal P2 2 "" "") (transforms_of_first_group_signal P2 2 "" "") (pool_call L) x.
Proof.
  destruct (pooling_fails_to_commute_ok (transforms_of_first_group_signal P2 2 "" "") (transforms_of_first_group_signal P2 2 "" "") 2 "max"
    (pool_with_format (pooling "P2" "" (One 2) (Some (One 3)) (Some (Some "valid_equiv"))) "channels_first")
    (static_channels_first_shape true None [4; 4] 2 1) (signed_signal [1; 1; 4; 4; 2])) as [L [B F]]; [vm_compute; reflexivity|].
  eexists; exists L, (signed_signal [1; 1; 4; 4; 2]). split; [|split; [exact B|split; [reflexivity|split; [reflexivity|exact F]]]].
  split; [vm_compute; reflexivity|split; [left; reflexivity|reflexivity]].
Qed.
Print Assumptions C20_channels_first_pooling_refuted.
