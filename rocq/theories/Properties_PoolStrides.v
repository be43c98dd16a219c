(** C98: strides of pooling layers subsample. *)
From Verif Require Import ComposeFacts BuildTheorems PoolSpec PoolFacts Properties_Pooling Properties_Groups Properties_PoolBuild Properties_PoolSteps Properties_Compose Properties_PoolCompose Properties_Strides PoolSpec.
Local Open Scope string_scope.
Local Open Scope list_scope.

(** The options without built-in padding; None is the default. *)
Definition valid_options : list (option (option string)) := [None; Some (Some "valid"); Some (Some "valid_equiv")].

Section Strides.
Context {A : Type} {RA : Arith A} {PA : Pool A}.

Lemma valid_pool_facts name G (a : pool_args) d t H' H bs m g c L k s :
  pooling_for name G a -> pa_subgroup a = Some H' -> means name H' H ->
  pooling_built d t a (bs :: map Some m ++ [Some g; Some c]) L -> List.length m = d -> pool_sizes d a k s -> In (pa_padding a) valid_options ->
  exists sub cos border, dict_get (g_subgroup G) H = Ok sub /\ dict_get (g_cosets G) H = Ok cos /\ g = List.length (symmetries_of name) /\
    List.length border = d /\ (pa_padding a = Some (Some "valid") \/ pa_strides a = None -> border = repeat 0 d) /\
    (pa_strides a <> None -> pa_padding a <> Some (Some "valid") \/ pa_allow a = false -> forall ax, ax < d -> exists q : Z,
       (Z.of_nat (nth ax border 0%nat + nth ax m 0%nat + nth ax border 0%nat) - Z.of_nat (nth ax k 0%nat) = q * Z.of_nat (nth ax s 0%nat))%Z) /\
    pool_facts (A := A) G d (symmetries_of name) sub cos k s border border false t L.
Proof.
  intros [DG [AG AF]] HS [NE ME] [L0 [I B]] Lm [SK SS] UN.
  pose proof DG as DG'. apply lib_ok in DG' as [NG OK].
  assert (PD : mem_str (lower (po_padding L)) ["valid"; "same"] = true).
  { clear - I B UN. unfold pool_init, gt_init in I.
    destruct (match pa_group a with ByName s => dict_get group_dict s | Object G => Ok G end) as [G0|]; [|discriminate I]. cbn [bind] in I.
    destruct (match parse_subgroup G0 (pa_subgroup a) with None => Err KeyError | Some s => dict_get group_dict s end) as [K|]; [|discriminate I]. cbn [bind] in I. cbv zeta in I.
    destruct (padding_init _ _ _ _ _ _ _) as [P|] eqn:PI; [|discriminate I]. cbn [bind] in I.
    destruct (standardize_tuple d (pa_pool_size a)); [|discriminate I]. cbn [bind] in I.
    destruct (standardize_tuple d _); [|discriminate I]. cbn [bind] in I.
    destruct (standardize_format _); [|discriminate I]. cbn [bind] in I.
    assert (EO : forall u v : pool_layer, Ok u = Ok v -> u = v) by congruence. apply EO in I. subst L0.
    unfold pool_build in B. destruct (gt_build _ _) as [T1|]; [|discriminate B]. cbn [bind] in B.
    destruct (gt_build_pool T1) as [T2|]; [|discriminate B]. cbn [bind] in B. apply EO in B. subst L. cbn [po_padding po_set_gt gt_padding].
    assert (PP : match pa_padding a with Some p => p | None => Some "valid_equiv" end = Some "valid" \/ match pa_padding a with Some p => p | None => Some "valid_equiv" end = Some "valid_equiv").
    { destruct UN as [E|[E|[E|[]]]]; rewrite <- E; [right|left|right]; reflexivity. }
    destruct PP as [PP|PP]; rewrite PP in PI; unfold padding_init in PI; cbn in PI;
      repeat (match type of PI with context [match ?e with _ => _ end] => destruct e; try discriminate PI end);
      assert (EP : forall u v : padding_layer, Ok u = Ok v -> u = v) by congruence; apply EP in PI; subst P; reflexivity. }
  destruct (pool_build_inv (A := A) G d _ _ OK name t a L0 bs m g c L DG AG AF I Lm B)
    as [p' [k' [s0 [s' [eb [ea [sub [cos [Hn [PN' [SK' [SS0 [SS' [WO [PS [DS [DC [SA [GN [F _]]]]]]]]]]]]]]]]]]]].
  specialize (F PD).
  assert (k' = k) by congruence. subst k'. assert (s0 = s) by (unfold pool_strides in SS0; congruence). subst s0.
  assert (HN : Hn = H).
  { rewrite HS in PS. unfold parse_subgroup in PS. destruct ME as [->|[-> ->]].
    - destruct (String.eqb_spec H "") as [Q|_]; [contradiction|]. congruence.
    - cbn [String.eqb] in PS. congruence. }
  subst Hn.
  assert (PP : (p' = "valid" /\ pa_padding a = Some (Some "valid")) \/ (p' = "valid_equiv" /\ pa_padding a <> Some (Some "valid"))).
  { assert (ES : forall u v : string, Some u = Some v -> u = v) by congruence.
    unfold pool_padding_name in PN'. destruct UN as [E|[E|[E|[]]]]; rewrite <- E in PN' |- *; apply ES in PN'; subst p'; [right|left|right]; split; try reflexivity; discriminate. }
  assert (SM : is_same (upper p') = false) by (destruct PP as [[-> _]|[-> _]]; reflexivity). rewrite SM in *.
  assert (EV : eb = ea).
  { destruct WO as [L1 [L2 [[_ [-> ->]]|[_ Q]]]]; [reflexivity|]. apply nth_ext0; [lia|]. intros ax Ha. specialize (Q ax ltac:(lia)). cbv zeta in Q. destruct Q as [_ [[_ [z Z]] [E1 [E2 _]]]].
    set (e := nth ax eb 0 + nth ax ea 0) in *. assert (DE : e / 2 = z) by (replace e with (z * 2) by lia; apply Nat.div_mul; lia). lia. }
  subst ea. exists sub, cos, eb. split; [exact DS|]. split; [exact DC|]. split; [exact GN|].
  pose proof WO as [L1 [_ WO']]. split; [exact L1|]. split; [|split; [|exact F]].
  - intros Q. destruct WO' as [[_ [E _]]|[_ R]]; [exact E|]. apply nth_ext0; [rewrite repeat_length; exact L1|]. intros ax Ha. rewrite nth_repeat.
    specialize (R ax ltac:(lia)). cbv zeta in R. destruct R as [E [_ [_ [_ E0]]]]. destruct Q as [Q|Q].
    + destruct PP as [[-> _]|[_ N]]; [specialize (E0 eq_refl); lia|contradiction].
    + unfold assumed_strides in SS'. rewrite Q, std_unit in SS'. assert (EE : forall u v : list nat, Ok u = Ok v -> u = v) by congruence. apply EE in SS'. subst s'.
      assert (R1 : nth ax (repeat 1 d) 0 = 1) by (apply nth_ones; lia). rewrite R1, nextra_unit in E by (exists 0; reflexivity). lia.
  - intros N Q ax Ha. assert (s' = s).
    { unfold assumed_strides in SS'. unfold pool_strides in SS0. destruct (pa_strides a); [congruence|contradiction]. }
    subst s'. destruct WO' as [[PL _]|[_ R]].
    { exfalso. apply andb_true_iff in PL as [P1 P2]. destruct Q as [Q|Q]; [|congruence]. destruct PP as [[_ E]|[-> _]]; [contradiction|discriminate P1]. }
    specialize (R ax Ha). cbv zeta in R. destruct R as [_ [[[q E] _] _]]. exists q. lia.
Qed.

(** Pooling without built-in padding: windows in the padded signal. *)
Lemma padded_tiles_call d t L G E dd eq (OK : group_ok G dd E eq) sub cos k s eb ea b m c (X : nat -> list nat -> nat -> nat -> A) :
  pool_facts (A := A) G d E sub cos k s eb ea false t L -> sub <> [] -> List.length m = d ->
  let m1 := padded eb m ea in
  pool_call L (tab (b :: m ++ [List.length E; c]) (sig4 d X)) =
  if forallb (fun p => fst p <=? snd p)%nat (combine k m1)
  then Ok (tab (b :: outs m1 k s ++ [List.length sub; c])
    (sig4 d (fun bi p h q => pool_fun t (map (fun j => bordered eb m (fun bi p _ => pool_fun t (map (fun e => X bi p (comp G (nth h sub 0) e) q) cos)) bi (vzip Nat.add (vzip Nat.mul p s) j) 0) (indices k)))))
  else Err BackendError.
Proof.
  intros F NE Lm m1.
  assert (pf_k0 : List.length k = d) by apply (pf_k _ _ _ _ _ _ _ _ _ _ _ _ F).
  assert (pf_s0 : List.length s = d) by apply (pf_s _ _ _ _ _ _ _ _ _ _ _ _ F).
  assert (Leb : List.length eb = d) by apply (pf_eb _ _ _ _ _ _ _ _ _ _ _ _ F).
  assert (Lea : List.length ea = d) by apply (pf_ea _ _ _ _ _ _ _ _ _ _ _ _ F).
  assert (pf_spos0 : forall a, a < d -> 0 < nth a s 0) by apply (pf_spos _ _ _ _ _ _ _ _ _ _ _ _ F).
  assert (Lm1 : List.length m1 = d) by (apply length_padded; assumption).
  pose proof (pool_call_eq G d E eq OK sub cos k s eb ea false t L b m c X F NE Lm) as C. cbv zeta in C. rewrite C. clear C. fold m1.
  cbn [padding_string].
  set (pads := builtin_pads "valid" m1 k s).
  assert (P1 : map fst pads = zeros_of d /\ map snd pads = zeros_of d).
  { unfold pads, builtin_pads, zeros_of. cbn [String.eqb Ascii.eqb Bool.eqb]. rewrite !map_map. cbn [fst snd]. rewrite <- Lm1. clear.
    induction m1 as [|x l [I1 I2]]; [split; reflexivity|]. cbn [map List.length repeat]. split; f_equal; assumption. }
  destruct P1 as [P1 P2]. rewrite P1, P2. rewrite padded_zeros by exact Lm1.
  destruct (forallb _ (combine k m1)) eqn:FB; [|reflexivity].
  assert (KM : forall ax, ax < d -> nth ax k 0 <= nth ax m1 0).
  { apply (forallb_combine_le k m1 d); assumption. }
  assert (LO : List.length (outs m1 k s) = d) by (apply length_outs; assumption).
  f_equal. apply sig4_ext; [exact LO|]. intros bi p h q B P H Q. pose proof (inb_length _ _ P) as LP. rewrite LO in LP.
  unfold pool_out, pooled. f_equal.
  assert (SRC : forall j, inb k j -> csrc m1 s (ones d) (zeros_of d) p j = Some (vzip Nat.add (vzip Nat.mul p s) j)).
  { intros j J. pose proof (inb_length _ _ J) as LJ. assert (LV : List.length (vzip Nat.mul p s) = d) by (rewrite length_vzip by lia; exact LP).
    assert (LW : List.length (vzip Nat.add (vzip Nat.mul p s) j) = d) by (rewrite length_vzip by lia; exact LV).
    unfold csrc. rewrite Lm1. apply wsrc_all; [exact LW|]. intros ax Hax. rewrite nth_vzip by lia. rewrite nth_vzip by lia.
    assert (V2 : nth ax p 0 * nth ax s 0 + nth ax j 0 < nth ax m1 0).
    { pose proof (inb_nth _ _ ax P ltac:(lia)) as PA'. rewrite (nth_outs _ _ _ d) in PA' by assumption. unfold out_size in PA'.
      pose proof (inb_nth _ _ ax J ltac:(lia)) as JA. specialize (KM ax Hax). specialize (pf_spos0 ax Hax).
      pose proof (Nat.mul_div_le (nth ax m1 0 - nth ax k 0) (nth ax s 0) ltac:(lia)).
      assert (nth ax p 0 * nth ax s 0 <= nth ax s 0 * ((nth ax m1 0 - nth ax k 0) / nth ax s 0)) by (rewrite Nat.mul_comm; apply Nat.mul_le_mono_l; lia).
      lia. }
    unfold conv_src. rewrite nth_ones by exact Hax. unfold zeros_of. rewrite nth_repeat. cbn [Nat.leb]. rewrite Nat.mul_1_r, Nat.sub_0_r. rewrite (proj2 (Nat.ltb_lt _ _)) by exact V2. reflexivity. }
  assert (KS : forall {B C : Type} (g : B -> C) (o : B -> option C) l, (forall j, In j l -> o j = Some (g j)) -> keep_some (map o l) = map g l).
  { clear. intros B C g o l. unfold keep_some. induction l as [|j l IH]; intros H; [reflexivity|]. cbn [map flat_map]. rewrite (H j (or_introl eq_refl)).
    cbn [app]. f_equal. apply IH. intros i I. apply H. right. exact I. }
  apply KS. intros j J. apply In_indices in J. rewrite (SRC j J). reflexivity.
Qed.

(** C98 for pooling: a pooling with strides [s] is the pooling with strides of 1 without padding,
    applied to the input with a border of zeros, of which every [s]-th pixel is kept.  There is
    a border only for 'valid_equiv' with the argument strides. *)
Theorem C98_pooling_strides_subsample name G H d t (a a1 : pool_args) H' H1' idx bs bs1 m m1 g c L L1 k s :
  pooling_for name G a -> pooling_for name G a1 ->
  pa_subgroup a = Some H' -> means name H' H -> pa_subgroup a1 = Some H1' -> means name H1' H -> subgroup_indices G H idx ->
  pooling_built d t a (bs :: map Some m ++ [Some g; Some c]) L -> List.length m = d -> pool_sizes d a k s -> In (pa_padding a) valid_options ->
  pooling_built d t a1 (bs1 :: map Some m1 ++ [Some g; Some c]) L1 -> List.length m1 = d -> pool_sizes d a1 k (repeat 1 d) -> unpadded_pooling d a1 (repeat 1 d) ->
  exists border, List.length border = d /\
    (pa_padding a = Some (Some "valid") \/ pa_strides a = None -> border = repeat 0 d) /\
    (pa_strides a <> None -> pa_padding a <> Some (Some "valid") \/ pa_allow a = false -> forall ax, ax < d -> exists q : Z,
       (Z.of_nat (nth ax border 0%nat + nth ax m 0%nat + nth ax border 0%nat) - Z.of_nat (nth ax k 0%nat) = q * Z.of_nat (nth ax s 0%nat))%Z) /\
    ((forall ax, ax < d -> nth ax border 0 = 0) \/ (forall n, 0 < n -> max_or_mean (A := A) t (repeat zero n) = zero) ->
     forall (x : tensor A) b m', wf x -> List.length m' = d -> shape x = b :: m' ++ [g; c] ->
     pool_call L x = (z <- pool_call L1 (zero_padded border border x) ;; Ok (subsampled s (seq 0 (List.length idx)) z))).
Proof.
  intros P P1 SG M S1 M1 SI B Lm SZ VO B1 Lm1 SZ1 UN.
  destruct (valid_pool_facts _ _ _ _ _ _ _ _ _ _ _ _ _ _ P SG M B Lm SZ VO) as [sub [cos [border [DS [DC [GN [Lb [ZB [DV F]]]]]]]]].
  destruct (unpadded_facts (A := A) _ _ _ _ _ _ _ _ _ _ _ _ _ _ P1 S1 M1 B1 Lm1 SZ1 UN) as [sub1 [cos1 [DS1 [DC1 [_ F1]]]]].
  assert (sub1 = sub) as -> by congruence. assert (cos1 = cos) as -> by congruence.
  pose proof (proj1 P) as DG. pose proof DG as DG'. apply lib_ok in DG' as [_ OK].
  assert (NH : H <> "") by apply M.
  assert (sub = idx) as ->.
  { unfold subgroup_indices, parse_subgroup in SI. destruct (String.eqb_spec H "") as [Q|_]; [contradiction|]. unfold subgroup_get in SI. congruence. }
  exists border. split; [exact Lb|]. split; [exact ZB|]. split; [exact DV|]. intros ZZ x b m' W Lm' SX.
  set (E := symmetries_of name) in *. rewrite GN in SX.
  assert (NE : idx <> []) by (destruct (ok_sub _ _ _ _ OK _ _ DS) as [_ [_ [Q _]]]; intros ->; discriminate Q).
  destruct (ok_cos _ _ _ _ OK _ _ DS) as [cos' [EC [_ [_ [_ LEC]]]]]. assert (cos' = cos) by congruence. subst cos'. clear EC.
  pose proof (ok_pos _ _ _ _ OK) as PO.
  assert (NC : 0 < List.length cos) by (destruct cos; [cbn [List.length] in LEC; lia|cbn [List.length]; lia]).
  assert (Lk : List.length k = d) by apply (pf_k _ _ _ _ _ _ _ _ _ _ _ _ F).
  assert (Ls : List.length s = d) by apply (pf_s _ _ _ _ _ _ _ _ _ _ _ _ F).
  assert (Pk : forall ax, ax < d -> 0 < nth ax k 0) by apply (pf_kpos _ _ _ _ _ _ _ _ _ _ _ _ F).
  assert (Ps : forall ax, ax < d -> 0 < nth ax s 0) by apply (pf_spos _ _ _ _ _ _ _ _ _ _ _ _ F).
  rewrite (zero_padded_eq border border x b m' _ d Lb Lb Lm' SX).
  set (m2 := padded border m' border). assert (Lm2 : List.length m2 = d) by (apply length_padded; assumption).
  assert (XX : tab (b :: m2 ++ [List.length E; c]) (fun i => let p := spatial d i in if inside border m' p then at_ x (nth 0 i 0 :: vzip Nat.sub p border ++ skipn d (tl i)) else zero)
    = tab (b :: m2 ++ [List.length E; c]) (sig4 d (fun bi p h q => if inside border m' p then at_ x (bi :: vzip Nat.sub p border ++ [h; q]) else zero))).
  { apply tab_ext. intros i I. apply inb4_inv in I as [bi [p [h [q [-> [Bb [Pp [Hh Q]]]]]]]]. pose proof (inb_length _ _ Pp) as LP. rewrite Lm2 in LP.
    rewrite sig4_ix by exact LP. cbv zeta. rewrite spatial_ix by exact LP. cbn [nth tl]. rewrite skipn_app_exact by lia. reflexivity. }
  rewrite XX. clear XX.
  rewrite (tiles_call d t L1 G E _ _ OK idx cos k (repeat 1 d) b m2 c _ F1 NE Lm2).
  rewrite (tensor_sig4 d b m' (List.length E) c x W Lm' SX) at 1.
  rewrite (padded_tiles_call d t L G E _ _ OK idx cos k s border border b m' c (fun4 x) F NE Lm'). fold m2.
  destruct (forallb _ (combine k m2)) eqn:R; cbn [bind]; [|reflexivity]. pose proof (forallb_combine_le k m2 d Lk Lm2 R) as FIT. f_equal.
  set (N0 := outs m2 k s). set (M1' := outs m2 k (repeat 1 d)).
  assert (LM : List.length N0 = d) by (apply length_outs; assumption). assert (LM1 : List.length M1' = d) by (apply length_outs; try assumption; apply repeat_length).
  assert (NM : forall ax, ax < d -> nth ax N0 0 = out_size (nth ax m2 0) (nth ax k 0) (nth ax s 0)) by (intros ax Hax; apply (nth_outs m2 k s d ax); assumption).
  assert (NM1 : forall ax, ax < d -> nth ax M1' 0 = out_size (nth ax m2 0) (nth ax k 0) 1).
  { intros ax Hax. unfold M1'. rewrite (nth_outs m2 k _ d ax) by (try assumption; apply repeat_length).
    assert (R1 : nth ax (repeat 1 d) 0 = 1) by (apply nth_ones; exact Hax). rewrite R1. reflexivity. }
  assert (LAST : forall (u v w : nat) (l : list nat), List.length l = d -> nth (d + 2) (u :: l ++ [v; w]) 0 = w).
  { intros u v w l Ll. rewrite Nat.add_comm. cbn [Nat.add nth]. rewrite app_nth2 by lia. rewrite Ll. replace (S d - d) with 1 by lia. reflexivity. }
  unfold subsampled. rewrite Ls, shape_tab, seq_length. rewrite LAST by exact LM1. cbn [nth].
  assert (MM : map (fun ax => (nth ax (M1' ++ [List.length idx; c]) 0 + nth ax s 0 - 1) / nth ax s 0) (seq 0 d) = N0).
  { apply nth_ext0; [rewrite map_length, seq_length; lia|]. intros ax Hax. rewrite map_length, seq_length in Hax. rewrite nth_on_axes by exact Hax.
    rewrite app_nth1 by lia. rewrite NM1, NM by exact Hax. apply sampled_size; [apply Ps; exact Hax|apply FIT; exact Hax|apply Pk; exact Hax]. }
  rewrite MM.
  apply tab_ext. intros i I. apply inb4_inv in I as [bi [p [h [oo [-> [Bb [Pp [Hh O]]]]]]]]. pose proof (inb_length _ _ Pp) as LP. rewrite LM in LP.
  rewrite sig4_ix by exact LP. cbv beta. rewrite (chan_ix d bi p h [oo] LP), LAST by exact LP. rewrite seq_nth by exact Hh. cbn [nth Nat.add].
  set (p' := map _ (seq 0 d)).
  assert (Lp' : List.length p' = d) by (unfold p'; rewrite map_length; apply seq_length).
  assert (Np' : forall ax, ax < d -> nth ax p' 0 = nth ax p 0 * nth ax s 0) by (intros ax Hax; unfold p'; rewrite nth_on_axes by exact Hax; rewrite app_nth1 by lia; reflexivity).
  assert (P' : inb M1' p').
  { apply inb_intro; [lia|]. rewrite LM1. intros ax Hax. rewrite Np', NM1 by exact Hax. unfold out_size. rewrite Nat.div_1_r.
    specialize (FIT ax Hax). pose proof (inb_nth _ _ ax Pp ltac:(lia)) as Hi. rewrite NM in Hi by exact Hax. unfold out_size in Hi. specialize (Ps ax Hax).
    pose proof (Nat.mul_div_le (nth ax m2 0 - nth ax k 0) (nth ax s 0) ltac:(lia)).
    assert (nth ax p 0 * nth ax s 0 <= nth ax s 0 * ((nth ax m2 0 - nth ax k 0) / nth ax s 0)) by (rewrite Nat.mul_comm; apply Nat.mul_le_mono_l; lia). lia. }
  rewrite at_sig4 by assumption. f_equal. apply map_ext_in. intros j J. apply In_indices in J. pose proof (inb_length _ _ J) as LJ.
  assert (PJ : vzip Nat.add (vzip Nat.mul p' (repeat 1 d)) j = vzip Nat.add (vzip Nat.mul p s) j).
  { f_equal. apply nth_ext0; [rewrite !length_vzip; rewrite ?repeat_length; lia|]. intros ax Hax. rewrite length_vzip in Hax by (rewrite repeat_length; lia).
    rewrite !nth_vzip by (rewrite ?repeat_length; lia). assert (R1 : nth ax (repeat 1 d) 0 = 1) by (apply nth_ones; lia). rewrite R1, Np' by lia. lia. }
  rewrite PJ. set (v := vzip Nat.add (vzip Nat.mul p s) j). unfold bordered. destruct (inside border m' v) eqn:IN; [reflexivity|].
  destruct ZZ as [ZZ|ZZ].
  - exfalso. assert (Lv : List.length v = d) by (unfold v; rewrite !length_vzip; rewrite ?length_vzip; lia).
    destruct (inside_none border m' v d Lb Lm' Lv IN) as [ax [Hax NI]]. apply NI. rewrite ZZ by exact Hax. split; [lia|].
    unfold v. rewrite nth_vzip by (rewrite ?length_vzip; lia). rewrite nth_vzip by lia.
    assert (V2 : nth ax m2 0 = nth ax m' 0) by (unfold m2; rewrite (nth_padded _ _ _ d) by assumption; rewrite ZZ by exact Hax; lia).
    pose proof (inb_nth _ _ ax J ltac:(lia)). specialize (FIT ax Hax). pose proof (inb_nth _ _ ax Pp ltac:(lia)) as Hi. rewrite NM in Hi by exact Hax. unfold out_size in Hi. specialize (Ps ax Hax).
    pose proof (Nat.mul_div_le (nth ax m2 0 - nth ax k 0) (nth ax s 0) ltac:(lia)).
    assert (nth ax p 0 * nth ax s 0 <= nth ax s 0 * ((nth ax m2 0 - nth ax k 0) / nth ax s 0)) by (rewrite Nat.mul_comm; apply Nat.mul_le_mono_l; lia). lia.
  - symmetry. transitivity (max_or_mean (A := A) t (repeat zero (List.length cos))); [|apply ZZ; exact NC]. unfold max_or_mean, pool_fun. f_equal. clear. induction cos as [|e l IH]; [reflexivity|]. cbn [map List.length repeat]. rewrite IH. reflexivity.
Qed.
End Strides.

Print Assumptions C98_pooling_strides_subsample.

(** Concrete case: maxima over 2x2 windows with strides 3 of a signal on 6x6 pixels, whose values
    are negative, so that the border is seen. *)
Example C98_case_pooling :
  let a s p := mkPoolArgs (ByName "P4") (Some "P2") (One 2) (Some (One s)) (Some (Some p)) "channels_last" false in
  let x := tab [1; 6; 6; 4; 1] (fun i => Z.sub (Z.of_nat (7 * nth 1 i 0 * nth 2 i 0 + 3 * nth 3 i 0)) 300) in
  match test_pool 2 "max" (a 3%Z "valid_equiv") [None; Some 6; Some 6; Some 4; Some 1], test_pool 2 "max" (a 1%Z "valid") [None; Some 8; Some 8; Some 4; Some 1] with
  | Ok L, Ok L1 => match pool_call L x, pool_call L1 (zero_padded [1; 1] [1; 1] x) with
                   | Ok y, Ok z => Some (shape y, data y, data (subsampled [3; 3] [0; 1] z)) | _, _ => None end
  | _, _ => None end
  = Some ([1; 3; 3; 2; 1], [0; 0; 0; 0; 0; 0; 0; 0; -234; -228; 0; 0; 0; 0; 0; 0; 0; 0]%Z, [0; 0; 0; 0; 0; 0; 0; 0; -234; -228; 0; 0; 0; 0; 0; 0; 0; 0]%Z).
Proof. vm_compute. reflexivity. Qed.
