(** C75: models made with keras.Sequential or the functional API. *)
From Verif Require Import Sequential StackFacts Properties_Shapes Properties_Build Properties_Stacks Properties_Pooling.
From Verif Require Import FormatFacts EquivSpec LayerBatch.
Local Open Scope string_scope.
Local Open Scope list_scope.

(** Extra padding always makes the output larger. *)
Lemma ceil_larger n k s e : 0 < n -> 0 < k -> 0 < s -> 0 < e -> admissible n (same_total n k s) k s e ->
  (n + s - 1) / s < (n + e + s - 1) / s.
Proof.
  intros N K S E [[q Q] _]. set (c := (n + s - 1) / s) in *. set (c' := (n + e + s - 1) / s).
  assert (C1 : n <= c * s < n + s) by (unfold c; pose proof (Nat.div_mod (n + s - 1) s ltac:(lia)); pose proof (Nat.mod_upper_bound (n + s - 1) s ltac:(lia)); nia).
  assert (C2 : n + e <= c' * s) by (unfold c'; pose proof (Nat.div_mod (n + e + s - 1) s ltac:(lia)); pose proof (Nat.mod_upper_bound (n + e + s - 1) s ltac:(lia)); nia).
  destruct (Nat.le_gt_cases c' c) as [LE|GT]; [|exact GT]. exfalso.
  assert (n + e <= c * s) by nia. unfold same_total in Q. fold c in Q.
  destruct (Nat.le_gt_cases (s + n) (c * s + k)) as [F|F].
  - assert (Q' : (Z.of_nat e = (q - Z.of_nat c + 1) * Z.of_nat s)%Z) by (rewrite !Nat2Z.inj_add, Nat2Z.inj_sub in Q by exact F; lia).
    assert (0 < q - Z.of_nat c + 1)%Z by nia. nia.
  - replace (c * s + k - (s + n)) with 0 in Q by lia.
    assert (q < Z.of_nat c)%Z by nia. nia.
Qed.

Lemma floor_smaller n k s e : 0 < s -> 0 < e -> admissible n 0 k s e -> k <= n + e ->
  ((Z.of_nat n - Z.of_nat k) / Z.of_nat s + 1 < Z.of_nat ((n + e - k) / s + 1))%Z.
Proof.
  intros S E [[q Q] _] F.
  assert (Q' : (Z.of_nat (n + e - k) = q * Z.of_nat s)%Z) by lia.
  rewrite Nat2Z.inj_add, Nat2Z.inj_div, Q', Z.div_mul by lia.
  replace (Z.of_nat n - Z.of_nat k)%Z with (- Z.of_nat e + q * Z.of_nat s)%Z by lia. rewrite Z.div_add by lia.
  assert ((- Z.of_nat e) / Z.of_nat s < 0)%Z by (apply Z.div_lt_upper_bound; lia). lia.
Qed.

Lemma split_announced (out : list Z) (mo : list nat) u v f f' : List.length out = List.length mo ->
  map (fun z => Some (Z.to_nat z)) out ++ [Some u; f] = map Some mo ++ [Some v; f'] ->
  map (fun z => Some (Z.to_nat z)) out = map Some mo /\ u = v.
Proof.
  revert mo. induction out as [|z l IH]; intros [|w mo] L E; cbn in *; try lia.
  - split; congruence.
  - destruct (IH mo) as [I1 I2]; [lia|congruence|]. split; [congruence|exact I2].
Qed.

Section Sequential.
Context {A : Type} {RA : Arith A} {PA : Pool A}.

(** compute_output_shape returns the shape of the output exactly when the layer adds no
    padding of its own and the output has an entry for every element of the group. *)
Theorem C75_when_the_announced_shape_is_right name G (a : conv_args A) H opt (tr valued : bool) bs m g c kinit binit L k s dl x b y rest :
  layer_for name G a -> ca_subgroup a = Some H -> option_of a opt ->
  let d := dimension_of name in
  let C := if valued then g * c else c in
  built d tr a (static_signal_shape valued bs m g c) kinit binit L -> List.length m = d -> sizes d a k s dl ->
  (forall ax, ax < d -> 0 < nth ax m 0) ->
  wf x -> shape x = signal_shape valued b m g c -> apply L x = Ok y -> shape y = b :: rest ->
  (conv_compute_output_shape L = Ok (bs :: map Some rest) <->
   (tr = true \/ List.length (symmetries_of (if String.eqb H "" then name else H)) = List.length (symmetries_of name)) /\
   exists P, padding_of a tr d bs m C P /\ padding_call P (merged_signal valued c g x b m) = Ok (merged_signal valued c g x b m)).
Proof.
  intros LF HS OP d C B Lm SZ PM W SH CA SY.
  rewrite (C30_compute_output_shape name G a H opt tr valued bs m g c kinit binit L k s dl LF HS OP B Lm SZ). cbv zeta. fold d.
  destruct (built_facts name G a H opt tr valued bs m g c kinit binit L k s dl LF HS OP B Lm SZ)
    as [OK [eb [ea [act [dom [WO [SA [SD [CF [CC [KS [RS PO]]]]]]]]]]]]. fold d in OK, SA, SD, CF, PO, WO. fold C in CF, PO.
  pose proof (merged_signal_eq d valued c g x b m W Lm SH) as MS. fold C in MS.
  assert (PU : forall P, padding_of a tr d bs m C P -> P = gt_padding (cl_gt L)).
  { intros P [P0 [I1 I2]]. destruct PO as [P0' [J1 J2]]. congruence. }
  assert (XP : padding_call (gt_padding (cl_gt L)) (merged_signal valued c g x b m)
     = Ok (tab (b :: padded eb m ea ++ [C]) (sig3 d (bordered eb m (merged_fun valued x c))))) by (rewrite MS; destruct CF; apply cf_pads; exact Lm).
  assert (LE1 : List.length eb = d) by (destruct CF; assumption). assert (LE2 : List.length ea = d) by (destruct CF; assumption).
  assert (SP : forall ax, ax < d -> 0 < nth ax s 0) by (destruct CF; assumption). assert (KP : forall ax, ax < d -> 0 < nth ax k 0) by (destruct CF; assumption).
  assert (NP : forall ax, ax < d -> nth ax (padded eb m ea) 0 = nth ax m 0 + (nth ax eb 0 + nth ax ea 0)) by (intros ax Hax; rewrite (nth_padded _ _ _ d) by assumption; lia).
  set (same := mem_str opt ["SAME"; "SAME_EQUIV"]) in *. change (is_same opt) with same in *.
  assert (DLS : (forall v, In v s -> v = 1) \/ (forall v, In v dl -> v = 1)).
  { destruct B as [L0 [I _]]. destruct (C53_when_the_constructor_accepts name G a H tr LF HS) as [Q _].
    destruct (Q (ex_intro _ L0 I)) as [_ [_ [_ [k' [s' [dl' [[S1 [S2 S3]] Q']]]]]]]. destruct SZ as [T1 [T2 T3]]. fold d in S2, S3.
    rewrite T2 in S2. rewrite T3 in S3. replace s with s' by congruence. replace dl with dl' by congruence. exact Q'. }
  assert (LS : List.length s = d /\ List.length dl = d) by (destruct CF; split; assumption). destruct LS as [LS LD].
  (* no padding at all *)
  assert (NOPAD : (exists P, padding_of a tr d bs m C P /\ padding_call P (merged_signal valued c g x b m) = Ok (merged_signal valued c g x b m))
                  <-> forall ax, ax < d -> nth ax eb 0 + nth ax ea 0 = 0).
  { split.
    - intros [P [P1 P2]]. rewrite (PU P P1), XP, MS in P2. assert (EO : forall u v : tensor A, Ok u = Ok v -> u = v) by congruence. apply EO in P2.
      apply (f_equal (@shape A)) in P2. rewrite !shape_tab in P2.
      assert (P3 : padded eb m ea ++ [C] = m ++ [C]) by congruence. apply app_inv_tail in P3. intros ax Hax. pose proof (NP ax Hax) as Q. rewrite P3 in Q. lia.
    - intros Z. exists (gt_padding (cl_gt L)). split; [exact PO|]. rewrite XP, MS.
      assert (E1 : eb = zeros_of d /\ ea = zeros_of d).
      { split; apply nth_ext with (d := 0) (d' := 0); unfold zeros_of; rewrite ?repeat_length; try assumption; intros ax Hax; rewrite nth_repeat; specialize (Z ax ltac:(lia)); lia. }
      destruct E1 as [-> ->]. rewrite bordered_zeros by exact Lm. reflexivity. }
  rewrite NOPAD. clear NOPAD XP.
  (* the announced and the real sizes *)
  set (out := map (fun ax => keras_size tr same (nth ax m 0) (nth ax k 0) (nth ax dl 0) (nth ax s 0)) (seq 0 d)).
  assert (LO : List.length out = d) by (unfold out; rewrite map_length, seq_length; reflexivity).
  assert (NO : forall ax, ax < d -> nth ax out 0%Z = keras_size tr same (nth ax m 0) (nth ax k 0) (nth ax dl 0) (nth ax s 0)).
  { intros ax Hax. unfold out. rewrite (nth_indep _ 0%Z (keras_size tr same (nth 0 m 0) (nth 0 k 0) (nth 0 dl 0) (nth 0 s 0))) by (rewrite map_length, seq_length; exact Hax).
    rewrite (map_nth (fun ax => keras_size tr same (nth ax m 0) (nth ax k 0) (nth ax dl 0) (nth ax s 0))), seq_nth by exact Hax. reflexivity. }
  assert (REAL : exists mo, List.length mo = d /\
     rest = mo ++ [List.length (symmetries_of (if tr then name else if String.eqb H "" then name else H)); ca_filters a] /\
     (forall ax, ax < d -> nth ax eb 0 + nth ax ea 0 = 0 -> nth ax out 0%Z = Z.of_nat (nth ax mo 0)) /\
     (forall ax, ax < d -> 0 < nth ax eb 0 + nth ax ea 0 -> (nth ax out 0 < Z.of_nat (nth ax mo 0%nat))%Z)).
  { assert (NM : forall f ax, ax < d -> nth ax (map f (seq 0 d)) 0 = f ax).
    { intros f ax Hax. rewrite (nth_indep _ 0 (f 0)) by (rewrite map_length, seq_length; exact Hax). rewrite map_nth, seq_nth by exact Hax. reflexivity. }
    assert (PUP : forall P xp np, padding_of a tr d bs m C P -> padding_call P (merged_signal valued c g x b m) = Ok xp -> shape xp = b :: np ++ [C] -> np = padded eb m ea).
    { intros P xp np P1 X1 X2. rewrite (PU P P1), MS in X1. destruct CF. rewrite (cf_pads _ _ _ _ Lm) in X1.
      assert (EO : forall u v : tensor A, Ok u = Ok v -> u = v) by congruence. apply EO in X1. subst xp. rewrite shape_tab in X2.
      assert (X3 : padded eb m ea ++ [C] = np ++ [C]) by congruence. apply app_inv_tail in X3. congruence. }
    destruct tr.
    - destruct (C29_transposed_output_shape name G a H opt valued bs m g c kinit binit L k s dl LF HS OP B Lm SZ) as [P [PO' Q]].
      destruct (Q x b m W Lm SH) as [xp [np [y' [X1 [X2 [_ [CA' SY']]]]]]]. assert (y' = y) as -> by congruence.
      rewrite (PUP P xp np PO' X1 X2) in SY'. fold d in SY'. fold same in SY'. rewrite SY in SY'.
      eexists. split; [|split; [|split]]; [| |intros ax Hax Z|intros ax Hax Z].
      2:{ assert (CO : forall u v : list nat, b :: u = b :: v -> u = v) by congruence. apply CO in SY'. exact SY'. }
      + rewrite map_length, seq_length. reflexivity.
      + rewrite NO, NM, NP, Z, Nat.add_0_r by exact Hax. reflexivity.
      + rewrite NO, NM, NP by exact Hax. unfold keras_size, transposed_size. specialize (SP ax Hax). destruct same; nia.
    - destruct (C29_output_shape name G a H opt valued bs m g c kinit binit L k s dl LF HS OP B Lm SZ) as [P [PO' Q]].
      destruct (Q x b m W Lm PM SH) as [xp [np [X1 [X2 [_ [Q1 Q2]]]]]]. rewrite (PUP P xp np PO' X1 X2) in Q1, Q2. fold d in Q1, Q2. fold same in Q1, Q2. clear Q.
      assert (FIT : same = true \/ forall ax, ax < d -> dilated (nth ax k 0) (nth ax dl 0) <= nth ax (padded eb m ea) 0).
      { destruct same; [left; reflexivity|]. right. intros ax Hax.
        destruct (Nat.le_gt_cases (dilated (nth ax k 0) (nth ax dl 0)) (nth ax (padded eb m ea) 0)) as [X|X]; [exact X|]. exfalso.
        rewrite Q2 in CA; [discriminate CA|]. intros [Y|Y]; [discriminate Y|]. specialize (Y ax Hax). lia. }
      destruct (Q1 FIT) as [y' [CA' SY']]. assert (y' = y) as -> by congruence. rewrite SY in SY'.
      eexists. split; [|split; [|split]]; [| |intros ax Hax Z|intros ax Hax Z].
      2:{ assert (CO : forall u v : list nat, b :: u = b :: v -> u = v) by congruence. apply CO in SY'. exact SY'. }
      + rewrite map_length, seq_length. reflexivity.
      + rewrite NO, NM by exact Hax. rewrite NP by exact Hax. rewrite Z, Nat.add_0_r. unfold keras_size, conv_size.
        specialize (PM ax Hax). specialize (SP ax Hax). destruct same.
        * rewrite Nat2Z.inj_div. replace (Z.of_nat (nth ax m 0 + nth ax s 0 - 1)) with (Z.of_nat (nth ax m 0%nat) - 1 + 1 * Z.of_nat (nth ax s 0%nat))%Z by lia.
          rewrite Z.div_add by lia. lia.
        * destruct FIT as [FIT|FIT]; [discriminate FIT|]. specialize (FIT ax Hax). rewrite NP, Z, Nat.add_0_r in FIT by exact Hax.
          rewrite Nat2Z.inj_add, Nat2Z.inj_div, Nat2Z.inj_sub by exact FIT. reflexivity.
      + rewrite NO, NM, NP by exact Hax. unfold keras_size, conv_size. set (e := nth ax eb 0 + nth ax ea 0) in *.
        destruct WO as [_ [_ [[_ [-> ->]]|[_ WO]]]]; [unfold e, zeros_of in Z; rewrite !nth_repeat in Z; lia|].
        destruct (WO ax Hax) as [_ [AD _]]. cbv zeta in AD. fold e in AD. specialize (PM ax Hax). specialize (SP ax Hax). specialize (KP ax Hax).
        destruct same.
        * pose proof (ceil_larger _ _ _ _ PM KP SP Z AD) as X.
          replace (Z.of_nat (nth ax m 0%nat) - 1)%Z with (Z.of_nat (nth ax m 0%nat + nth ax s 0%nat - 1) + (-1) * Z.of_nat (nth ax s 0%nat))%Z by lia.
          rewrite Z.div_add, <- Nat2Z.inj_div by lia. lia.
        * destruct FIT as [FIT|FIT]; [discriminate FIT|]. specialize (FIT ax Hax). rewrite NP in FIT by exact Hax. fold e in FIT.
          destruct DLS as [S1|D1].
          { exfalso. destruct AD as [_ [q E2]]. destruct (WO ax Hax) as [EE _]. cbv zeta in EE. fold e in EE.
            rewrite (S1 (nth ax s 0)) in EE by (apply nth_In; lia). rewrite nextra_unit in EE by (exists 0; reflexivity). lia. }
          assert (DK : dilated (nth ax k 0) (nth ax dl 0) = nth ax k 0) by (rewrite (D1 (nth ax dl 0)) by (apply nth_In; lia); unfold dilated; lia).
          rewrite DK in *. apply floor_smaller; assumption. }
  destruct REAL as [mo [LMO [-> [R0 R1]]]].
  split.
  - destruct (forallb _ out) eqn:NN; [|discriminate]. intros E. rewrite forallb_forall in NN.
    assert (E' : map (fun z => Some (Z.to_nat z)) out ++ [Some (List.length (symmetries_of name)); Some (ca_filters a)]
                 = map Some (mo ++ [List.length (symmetries_of (if tr then name else if String.eqb H "" then name else H)); ca_filters a])) by congruence.
    rewrite map_app in E'. cbn [map] in E'.
    assert (F1 : map (fun z => Some (Z.to_nat z)) out = map Some mo /\ List.length (symmetries_of name) = List.length (symmetries_of (if tr then name else if String.eqb H "" then name else H))).
    { apply (split_announced out mo _ _ (Some (ca_filters a)) (Some (ca_filters a))); [congruence|exact E']. }
    destruct F1 as [F1 F2]. split; [destruct tr; [left; reflexivity|right; symmetry; exact F2]|].
    intros ax Hax. destruct (Nat.eq_0_gt_0_cases (nth ax eb 0 + nth ax ea 0)) as [Z|Z]; [exact Z|]. exfalso. specialize (R1 ax Hax Z).
    assert (F3 : nth ax (map (fun z => Some (Z.to_nat z)) out) None = nth ax (map Some mo) None) by congruence.
    rewrite (nth_indep _ None (Some (Z.to_nat 0))) in F3 by (rewrite map_length; lia). rewrite (map_nth (fun z => Some (Z.to_nat z))) in F3.
    rewrite (nth_indep _ None (Some 0)) in F3 by (rewrite map_length; lia). rewrite (map_nth Some) in F3.
    assert (F4 : Z.to_nat (nth ax out 0%Z) = nth ax mo 0) by congruence. specialize (NN (nth ax out 0%Z) ltac:(apply nth_In; lia)). apply Z.leb_le in NN. lia.
  - intros [OR Z].
    assert (EO : out = map Z.of_nat mo).
    { apply nth_ext with (d := 0%Z) (d' := Z.of_nat 0); [rewrite map_length; lia|]. intros ax Hax. rewrite map_nth. apply R0; [lia|]. apply Z. lia. }
    rewrite EO. match goal with |- context[forallb ?p ?l] => assert (FB : forallb p l = true) end.
    { apply forallb_forall. intros z I. apply in_map_iff in I as [v [<- _]]. apply Z.leb_le. lia. }
    rewrite FB. f_equal. f_equal. rewrite map_app, map_map. cbn [map]. f_equal; [apply map_ext; intros v; rewrite Nat2Z.id; reflexivity|].
    destruct OR as [->|OR]; [reflexivity|]. destruct tr; [reflexivity|rewrite OR; reflexivity].
Qed.

(** ** Layers after a convolution with a proper subgroup *)

(** The group on which a layer expects its input. *)
Definition takes_signals_on (p : layer_spec A) (K : string) : Prop :=
  match p with
  | Convolution false a _ _ => exists G, layer_for K G a
  | Convolution true a _ _ => exists name G H idx, layer_for name G a /\ ca_subgroup a = Some H /\ subgroup_indices G H idx /\ K = subgroup_name name H
  | Pooling _ a => exists G, pooling_for K G a
  end.

Definition can_be_constructed (d : nat) (p : layer_spec A) : Prop :=
  match p with
  | Convolution tr a _ _ => exists L, conv_init d tr a = Ok L
  | Pooling t a => exists L, pool_init d t a = Ok L
  end.

Lemma wrong_order T d (K : string) idx s n : gt_dims T = d -> gt_domain T = Some K -> gt_group_axis T = Z.of_nat (d + 1) ->
  dict_get (g_subgroup (gt_group T)) K = Ok idx -> List.length s = d + 3 -> nth (d + 1) s None = Some n -> n <> List.length idx ->
  gt_build T s = Err AssertionError.
Proof.
  intros D DO GA DI LS NS NE. unfold gt_build. cbv zeta. rewrite D, LS, Nat.eqb_refl, DO, GA. unfold subgroup_get. rewrite DI. cbn [bind].
  rewrite (py_nth_nat _ (d + 1) None) by lia. rewrite NS. cbn [bind].
  replace (n =? List.length idx)%nat with false by (symmetry; apply Nat.eqb_neq; exact NE). reflexivity.
Qed.

(** Every group lists itself. *)
Lemma own_listed name G : dict_get group_dict name = Ok G -> exists idx, dict_get (g_subgroup G) name = Ok idx /\ List.length idx = List.length (symmetries_of name).
Proof.
  intros DG. pose proof DG as DG'. apply lib_ok in DG' as [NG OK]. pose proof (sub_idx_whole _ _ _ _ OK) as SI.
  unfold sub_idx, parse_subgroup, subgroup_get in SI. cbn [String.eqb] in SI. rewrite NG in SI. eexists. split; [exact SI|]. apply seq_length.
Qed.

Lemma wrong_group_axis d (p : layer_spec A) K n s :
  takes_signals_on p K -> can_be_constructed d p -> List.length s = d + 3 -> nth (d + 1) s None = Some n -> n <> List.length (symmetries_of K) ->
  layer_built d p s = Err AssertionError.
Proof.
  intros TS CC LS NS NE. destruct p as [[|] a kinit binit|t a].
  - destruct TS as [name [G [H [idx [LF [HS [SI EK]]]]]]]. destruct CC as [L0 I]. pose proof LF as [DG [AG AF]].
    destruct (conv_init_inv G d name true a L0 DG AG AF I) as [pd [k [s' [dl [Hn [_ [_ [_ [_ [PS [_ [_ [_ [_ [P [_ EL]]]]]]]]]]]]]]]].
    destruct (output_group name G H idx DG SI) as [K' [_ [_ [LI _]]]]. pose proof (indices_listed name G H idx DG SI) as DH.
    assert (EH : Hn = K).
    { pose proof DG as DG'. apply lib_ok in DG' as [NG _]. rewrite HS in PS. unfold parse_subgroup in PS. rewrite NG in PS. unfold subgroup_name in EK.
      destruct (String.eqb H ""); congruence. }
    cbn [layer_built]. rewrite I. cbn [bind]. unfold conv_build. rewrite (wrong_order (cl_gt L0) d K idx s n); [reflexivity| | | | |exact LS|exact NS|].
    + rewrite EL. reflexivity.
    + rewrite EL. cbn [cl_gt gt_domain]. rewrite EH. reflexivity.
    + rewrite EL. reflexivity.
    + rewrite EL. cbn [cl_gt gt_group]. rewrite EK. exact DH.
    + rewrite LI, <- EK. exact NE.
  - destruct TS as [G LF]. destruct CC as [L0 I]. pose proof LF as [DG [AG AF]].
    destruct (conv_init_inv G d K false a L0 DG AG AF I) as [pd [k [s' [dl [Hn [_ [_ [_ [_ [PS [_ [_ [_ [_ [P [_ EL]]]]]]]]]]]]]]]].
    destruct (own_listed K G DG) as [idx [DI LI]].
    cbn [layer_built]. rewrite I. cbn [bind]. unfold conv_build. rewrite (wrong_order (cl_gt L0) d K idx s n); [reflexivity| | | | |exact LS|exact NS|].
    + rewrite EL. reflexivity.
    + rewrite EL. reflexivity.
    + rewrite EL. reflexivity.
    + rewrite EL. exact DI.
    + rewrite LI. exact NE.
  - destruct TS as [G [DG [AG AF]]]. destruct CC as [L0 I]. destruct (own_listed K G DG) as [idx [DI LI]].
    cbn [layer_built]. rewrite I. cbn [bind]. unfold pool_build.
    assert (F : gt_dims (po_gt L0) = d /\ gt_domain (po_gt L0) = Some K /\ gt_group_axis (po_gt L0) = Z.of_nat (d + 1) /\ gt_group (po_gt L0) = G).
    { unfold pool_init, gt_init in I. rewrite AF in I.
      assert (GA : match pa_group a with Object G => Ok G | ByName s => dict_get group_dict s end = Ok G) by (destruct AG as [-> | ->]; [exact DG|reflexivity]).
      rewrite GA in I. cbn [bind] in I.
      destruct (match parse_subgroup G (pa_subgroup a) with None => Err KeyError | Some s => dict_get group_dict s end) as [H|]; [|discriminate I]. cbn [bind] in I. cbv zeta in I.
      destruct (padding_init _ _ _ _ _ _ _) as [P|]; [|discriminate I]. cbn [bind] in I.
      destruct (standardize_tuple d (pa_pool_size a)) as [k|]; [|discriminate I]. cbn [bind] in I.
      destruct (standardize_tuple d (match pa_strides a with Some s => s | None => pa_pool_size a end)) as [s'|]; [|discriminate I]. cbn [bind] in I.
      destruct (standardize_format _) as [f|]; [|discriminate I]. cbn [bind] in I.
      assert (EO : forall u v : pool_layer, Ok u = Ok v -> u = v) by congruence. apply EO in I. subst L0.
      cbn [po_gt gt_dims gt_domain gt_group_axis gt_group]. apply lib_ok in DG as [NG _]. rewrite NG.
      replace (String.eqb "channels_last" "channels_first") with false by reflexivity.
      repeat split; lia. }
    destruct F as [F1 [F2 [F3 F4]]].
    rewrite (wrong_order (po_gt L0) d K idx s n); [reflexivity|exact F1|exact F2|exact F3|rewrite F4; exact DI|exact LS|exact NS|rewrite LI; exact NE].
Qed.

(** In a Sequential or functional model no layer for the subgroup can follow a
    convolution with a proper subgroup: making the model raises AssertionError. *)
Theorem C75_nothing_follows_a_proper_subgroup name G (a : conv_args A) H (valued : bool) bs m g c kinit binit L p specs :
  layer_for name G a -> ca_subgroup a = Some H ->
  let d := dimension_of name in
  let K := subgroup_name name H in
  List.length (symmetries_of K) <> List.length (symmetries_of name) ->
  built d false a (static_signal_shape valued bs m g c) kinit binit L -> List.length m = d ->
  takes_signals_on p K -> can_be_constructed d p ->
  sequential d (Convolution false a kinit binit :: p :: specs) (static_signal_shape valued bs m g c) = Err AssertionError.
Proof.
  intros LF HS d K NE B Lm TS CC. pose proof LF as [DG [AG AF]]. pose proof B as [L0 [I B']].
  assert (OP : exists opt, option_of a opt).
  { destruct (conv_init_inv G d name false a L0 DG AG AF I) as [pd [_ [_ [_ [_ [PN _]]]]]]. exists (upper pd), pd. auto. }
  destruct OP as [opt OP].
  destruct (C53_when_the_constructor_accepts name G a H false LF HS) as [Q _]. destruct (Q (ex_intro _ L0 I)) as [_ [_ [_ [k [s [dl [SZ _]]]]]]]. clear Q.
  fold d in SZ. pose proof SZ as [S1 [S2 _]].
  destruct (std_pos d _ _ S2) as [LS SP].
  destruct (C53_when_convolutions_build name G a H opt valued bs m g c kinit binit L0 k s dl LF HS OP I Lm SZ) as [Q _].
  destruct (Q (ex_intro _ L B')) as [_ [_ [_ [FIT _]]]]. clear Q. fold d in FIT.
  cbn [sequential layer_built]. rewrite I. cbn [bind]. rewrite B'. cbn [bind symbolic_shape].
  rewrite (C30_compute_output_shape name G a H opt false valued bs m g c kinit binit L k s dl LF HS OP B Lm SZ). cbv zeta. fold d.
  set (same := mem_str opt ["SAME"; "SAME_EQUIV"]) in *.
  match goal with |- context[forallb ?q ?l] => assert (FB : forallb q l = true); [|set (out := l) in *] end.
  { apply forallb_forall. intros z IZ. apply in_map_iff in IZ as [ax [<- IA]]. apply in_seq in IA. apply Z.leb_le. unfold keras_size.
    assert (SX : 0 < nth ax s 0) by (apply SP; lia).
    destruct same.
    - assert (-1 <= (Z.of_nat (nth ax m 0%nat) - 1) / Z.of_nat (nth ax s 0%nat))%Z; [|lia]. apply Z.div_le_lower_bound; lia.
    - destruct FIT as [FIT|FIT]; [discriminate FIT|]. specialize (FIT ax ltac:(lia)). unfold dilated.
      assert (-1 <= (Z.of_nat (nth ax m 0%nat) - Z.of_nat ((nth ax k 0%nat - 1) * nth ax dl 0%nat + 1)) / Z.of_nat (nth ax s 0%nat))%Z; [|lia]. apply Z.div_le_lower_bound; lia. }
  rewrite FB. cbn [bind].
  assert (LO : List.length (map (fun z => Some (Z.to_nat z)) out) = d) by (unfold out; rewrite !map_length, seq_length; reflexivity).
  rewrite (wrong_group_axis d p K (List.length (symmetries_of name))); [reflexivity|exact TS|exact CC| | |intros E; apply NE; symmetry; exact E].
  - cbn [List.length]. rewrite app_length, LO. cbn [List.length]. lia.
  - rewrite Nat.add_1_r. cbn [nth]. rewrite app_nth2 by lia. rewrite LO, Nat.sub_diag. reflexivity.
Qed.

(** ** Models whose layers are built for the signals that they get *)

(** Every layer's output has the shape that the next layer was built for (apart from
    the batch size). *)
Fixpoint as_announced (ls : list (model_layer A)) (s : sshape) (x : tensor A) : Prop :=
  match ls with
  | [] => True
  | l :: ls => forall s' y, symbolic_shape l s = Ok s' -> layer_call l x = Ok y ->
      tl s' = map Some (tl (shape y)) /\ as_announced ls s' y
  end.

(** The layers that the equivariance theorems are about, each for the group that the one
    before it produces; the input is a signal on the group [name] or ([valued] is false)
    on the grid. *)
Inductive chain (d : nat) : bool -> string -> list (layer_spec A) -> string -> Prop :=
| chain_end name : chain d true name [] name
| chain_convolution valued name G H (a : conv_args A) kinit binit k s specs last :
    dimension_of name = d -> layer_for name G a -> ca_subgroup a = Some H -> ca_allow a = false ->
    sizes d a k s (repeat 1 d) -> respects name s ->
    chain d true (subgroup_name name H) specs last ->
    chain d valued name (Convolution false a kinit binit :: specs) last
| chain_pooling name G H t a opt k s specs last :
    dimension_of name = d -> pooling_for name G a -> pa_subgroup a = Some H -> pool_option a opt -> opt <> "SAME_EQUIV" ->
    order_irrelevant (pool_fun (A := A) t) -> pa_strides a <> None -> pa_allow a = false ->
    pool_sizes d a k s -> respects name k -> respects name s ->
    chain d true (subgroup_name name H) specs last ->
    chain d true name (Pooling t a :: specs) last.

Lemma model_run (ls : list (model_layer A)) x : model_call ls x = run (map layer_call ls) x.
Proof. revert x. induction ls as [|l ls IH]; intros x; cbn [model_call map run]; [reflexivity|]. destruct (layer_call l x); cbn [bind]; [apply IH|reflexivity]. Qed.

Lemma chain_stack d valued name specs last : add_commutes A -> chain d valued name specs last -> valued = true -> forall ls bs b m g c x z,
  sequential d specs (static_signal_shape true bs m g c) = Ok ls -> List.length m = d -> wf x -> shape x = b :: m ++ [g; c] ->
  as_announced ls (static_signal_shape true bs m g c) x -> model_call ls x = Ok z ->
  stack name x (map layer_call ls) last.
Proof.
  intros ADD CH. induction CH as [name|valued name G H a kinit binit k s specs last DN LF HS AL SZ RS CH IH|name G H t a opt k s specs last DN PF HS OP NSE OI ST AL SZ RK RS CH IH];
    intros VT ls bs b m g c x z SQ Lm W SH AA MC.
  - cbn [sequential] in SQ. assert (ls = []) as -> by congruence. apply stack_end.
  - cbn [sequential layer_built] in SQ. destruct (conv_init d false a) as [L0|] eqn:I; [|discriminate SQ]. cbn [bind] in SQ.
    destruct (conv_build L0 _ kinit binit) as [L|] eqn:B; [|discriminate SQ]. cbn [bind] in SQ.
    destruct (symbolic_shape (ConvolutionLayer L) _) as [s'|] eqn:SS; [|discriminate SQ]. cbn [bind] in SQ.
    destruct (sequential d specs s') as [ls'|] eqn:SQ'; [|discriminate SQ]. cbn [bind] in SQ.
    assert (EL : ls = ConvolutionLayer L :: ls') by congruence. subst ls.
    cbn [model_call] in MC. destruct (layer_call (ConvolutionLayer L) x) as [y|] eqn:CX; [|discriminate MC]. cbn [bind] in MC.
    cbn [as_announced] in AA. destruct (AA s' y SS CX) as [TS AA'].
    assert (CS : convolution_stage name H m g c (layer_call (ConvolutionLayer L))).
    { exists G, a, bs, kinit, binit, L, k, s. rewrite DN. split; [exact LF|]. split; [exact HS|]. split; [exact AL|].
      split; [exists L0; split; [exact I|exact B]|]. split; [exact SZ|]. split; [exact RS|]. reflexivity. }
    rewrite <- DN in Lm. destruct (stage_facts name H m g c _ b x y ADD (or_introl CS) Lm W SH CX) as [G' [idx [mo [o [DG' [SI [GN [WY [Lmo [SY _]]]]]]]]]].
    cbn [map]. apply (stack_layer name H x b m g c _ y _ last Lm W SH (or_introl CS) CX).
    rewrite SY in TS. cbn [tl] in TS. rewrite DN in Lmo.
    destruct s' as [|bs' s']; [cbn [tl] in TS; destruct mo; discriminate TS|]. cbn [tl] in TS. subst s'.
    rewrite map_app in *. cbn [map] in *. apply (IH eq_refl ls' bs' b mo (List.length idx) o y z); try assumption.
  - cbn [sequential layer_built] in SQ. destruct (pool_init d t a) as [L0|] eqn:I; [|discriminate SQ]. cbn [bind] in SQ.
    destruct (pool_build L0 _) as [L|] eqn:B; [|discriminate SQ]. cbn [bind] in SQ.
    destruct (symbolic_shape (PoolingLayer L) _) as [s'|] eqn:SS; [|discriminate SQ]. cbn [bind] in SQ.
    destruct (sequential d specs s') as [ls'|] eqn:SQ'; [|discriminate SQ]. cbn [bind] in SQ.
    assert (EL : ls = PoolingLayer L :: ls') by congruence. subst ls.
    cbn [model_call] in MC. destruct (layer_call (PoolingLayer L) x) as [y|] eqn:CX; [|discriminate MC]. cbn [bind] in MC.
    cbn [as_announced] in AA. destruct (AA s' y SS CX) as [TS AA'].
    assert (CS : pooling_stage name H m g c (layer_call (PoolingLayer (A := A) L))).
    { exists G, t, a, opt, bs, L, k, s. rewrite DN. split; [exact OI|]. split; [exact PF|]. split; [exact HS|]. split; [exact OP|].
      split; [exists L0; split; [exact I|exact B]|]. split; [exact SZ|]. split; [exact RK|]. split; [exact RS|]. split; [exact AL|].
      split; [destruct (pa_strides a); [intros E; contradiction|contradiction]|]. reflexivity. }
    rewrite <- DN in Lm. destruct (stage_facts name H m g c _ b x y ADD (or_intror CS) Lm W SH CX) as [G' [idx [mo [o [DG' [SI [GN [WY [Lmo [SY _]]]]]]]]]].
    cbn [map]. apply (stack_layer name H x b m g c _ y _ last Lm W SH (or_intror CS) CX).
    rewrite SY in TS. cbn [tl] in TS. rewrite DN in Lmo.
    destruct s' as [|bs' s']; [cbn [tl] in TS; destruct mo; discriminate TS|]. cbn [tl] in TS. subst s'.
    rewrite map_app in *. cbn [map] in *. apply (IH eq_refl ls' bs' b mo (List.length idx) o y z); try assumption.
Qed.

(** The same for a model that starts with a lifting convolution. *)
Lemma chain_lifting_stack d name specs last ls bs b m g c x z : add_commutes A -> chain d false name specs last -> dimension_of name = d ->
  sequential d specs (static_signal_shape false bs m g c) = Ok ls -> List.length m = d -> wf x -> shape x = b :: m ++ [c] ->
  as_announced ls (static_signal_shape false bs m g c) x -> model_call ls x = Ok z ->
  exists H lift rest y, map layer_call ls = lift :: rest /\ lifting_stage name H m c lift /\ lift x = Ok y /\ stack (subgroup_name name H) y rest last.
Proof.
  intros ADD CH DN SQ Lm W SH AA MC. inversion CH as [|valued' name' G H a kinit binit k s specs' last' DN' LF HS AL SZ RS CH'|]; subst valued' name' specs last'.
  cbn [sequential layer_built] in SQ. destruct (conv_init d false a) as [L0|] eqn:I; [|discriminate SQ]. cbn [bind] in SQ.
  destruct (conv_build L0 _ kinit binit) as [L|] eqn:B; [|discriminate SQ]. cbn [bind] in SQ.
  destruct (symbolic_shape (ConvolutionLayer L) _) as [s'|] eqn:SS; [|discriminate SQ]. cbn [bind] in SQ.
  destruct (sequential d specs' s') as [ls'|] eqn:SQ'; [|discriminate SQ]. cbn [bind] in SQ.
  assert (EL : ls = ConvolutionLayer L :: ls') by congruence. subst ls.
  cbn [model_call] in MC. destruct (layer_call (ConvolutionLayer L) x) as [y|] eqn:CX; [|discriminate MC]. cbn [bind] in MC.
  cbn [as_announced] in AA. destruct (AA s' y SS CX) as [TS AA'].
  assert (CS : lifting_stage name H m c (layer_call (ConvolutionLayer L))).
  { exists G, a, bs, kinit, binit, L, k, s. rewrite DN. split; [exact LF|]. split; [exact HS|]. split; [exact AL|].
    split; [exists L0; split; [exact I|exact B]|]. split; [exact SZ|]. split; [exact RS|]. reflexivity. }
  rewrite <- DN in Lm. destruct (lifting_facts name H m c _ b x y ADD CS Lm W SH CX) as [G' [idx [mo [o [DG' [SI [WY [Lmo [SY _]]]]]]]]].
  exists H, (layer_call (ConvolutionLayer L)), (map layer_call ls'), y. split; [reflexivity|]. split; [exact CS|]. split; [exact CX|].
  rewrite SY in TS. cbn [tl] in TS. rewrite DN in Lmo.
  destruct s' as [|bs' s']; [cbn [tl] in TS; destruct mo; discriminate TS|]. cbn [tl] in TS. subst s'.
  rewrite map_app in *. cbn [map] in *.
  apply (chain_stack d true _ specs' last ADD CH' eq_refl ls' bs' b mo (List.length idx) o y z); try assumption.
Qed.

Lemma commutes_ext (tin tout call call' : tensor A -> result (tensor A)) x : (forall y, call' y = call y) ->
  commutes_at tin tout call x -> commutes_at tin tout call' x.
Proof.
  intros E C gx y R CX. rewrite E in CX. destruct (C gx y R CX) as [gy [R1 [R2 Q]]]. exists gy. split; [exact R1|]. split; [exact R2|].
  intros u U. rewrite E. apply Q. exact U.
Qed.

(** Models whose layers are all built for the signals that they get commute with the
    transformations. *)
Theorem C75_models_built_for_their_signals_are_equivariant name G specs last ls (valued : bool) bs b m g c x z :
  add_commutes A -> dict_get group_dict name = Ok G ->
  let d := dimension_of name in
  chain d valued name specs last ->
  sequential d specs (static_signal_shape valued bs m g c) = Ok ls -> List.length m = d -> wf x -> shape x = signal_shape valued b m g c ->
  as_announced ls (static_signal_shape valued bs m g c) x -> model_call ls x = Ok z ->
  exists Gl idx, dict_get group_dict last = Ok Gl /\ subgroup_indices G last idx /\ g_order Gl = List.length idx /\
    commutes_at (if valued then transforms_of_group_signal G d last "" else transforms_of_grid_signal G d last)
      (transforms_of_group_signal Gl d "" "") (model_call ls) x.
Proof.
  intros ADD DG d CH SQ Lm W SH AA MC. destruct valued.
  - pose proof (chain_stack d true name specs last ADD CH eq_refl ls bs b m g c x z SQ Lm W SH AA MC) as ST.
    destruct (C39_stacks_are_equivariant name G x _ last ADD DG ST) as [Gl [idx [Q1 [Q2 [Q3 Q4]]]]]. exists Gl, idx.
    split; [exact Q1|]. split; [exact Q2|]. split; [exact Q3|]. exact (commutes_ext _ _ _ _ _ (model_run ls) Q4).
  - destruct (chain_lifting_stack d name specs last ls bs b m g c x z ADD CH eq_refl SQ Lm W SH AA MC) as [H [lift [rest [y [EM [LS [LX ST]]]]]]].
    destruct (C39_lifting_stacks_are_equivariant name G H x y b m c lift rest last ADD DG LS Lm W SH LX ST) as [Gl [idx [Q1 [Q2 [Q3 Q4]]]]]. exists Gl, idx.
    split; [exact Q1|]. split; [exact Q2|]. split; [exact Q3|]. rewrite <- EM in Q4. exact (commutes_ext _ _ _ _ _ (model_run ls) Q4).
Qed.

(** ** Convolutions that add no padding *)

Definition pads_nothing (d : nat) (a : conv_args A) : Prop :=
  exists opt k s dl, option_of a opt /\ sizes d a k s dl /\
    (In opt ["SAME"; "VALID"] \/
     (forall v, In v s -> v = 1) /\ (opt = "SAME_EQUIV" -> forall v, In v k -> Nat.Odd v)).

Lemma convolution_announced name G (a : conv_args A) H (valued : bool) bs m g c kinit binit L x b y :
  layer_for name G a -> ca_subgroup a = Some H ->
  let d := dimension_of name in
  List.length (symmetries_of (subgroup_name name H)) = List.length (symmetries_of name) -> pads_nothing d a ->
  built d false a (static_signal_shape valued bs m g c) kinit binit L -> List.length m = d -> (forall ax, ax < d -> 0 < nth ax m 0) ->
  wf x -> shape x = signal_shape valued b m g c -> apply L x = Ok y ->
  exists mo, List.length mo = d /\ (forall ax, ax < d -> 0 < nth ax mo 0) /\
    shape y = b :: mo ++ [List.length (symmetries_of (subgroup_name name H)); ca_filters a] /\
    conv_compute_output_shape L = Ok (bs :: map Some (mo ++ [List.length (symmetries_of (subgroup_name name H)); ca_filters a])).
Proof.
  intros LF HS d EQ [opt [k [s [dl [OP [SZ PN]]]]]] B Lm PM W SH CA.
  destruct (C29_output_shape name G a H opt valued bs m g c kinit binit L k s dl LF HS OP B Lm SZ) as [P [PO Q]]. fold d in PO, Q.
  destruct (Q x b m W Lm PM SH) as [xp [np [X1 [X2 [Lnp [Q1 Q2]]]]]]. clear Q.
  set (same := mem_str opt ["SAME"; "SAME_EQUIV"]) in *. set (C := if valued then g * c else c) in *.
  assert (FIT : same = true \/ forall ax, ax < d -> dilated (nth ax k 0) (nth ax dl 0) <= nth ax np 0).
  { destruct same; [left; reflexivity|]. right. intros ax Hax.
    destruct (Nat.le_gt_cases (dilated (nth ax k 0) (nth ax dl 0)) (nth ax np 0)) as [X|X]; [exact X|]. exfalso.
    rewrite Q2 in CA; [discriminate CA|]. intros [Y|Y]; [discriminate Y|]. specialize (Y ax Hax). lia. }
  destruct (Q1 FIT) as [y' [CA' SY]]. assert (y' = y) as -> by congruence. fold (subgroup_name name H) in SY.
  (* the padding adds nothing *)
  destruct (built_facts name G a H opt false valued bs m g c kinit binit L k s dl LF HS OP B Lm SZ)
    as [OK [eb [ea [act [dom [WO [SA [SD [CF [CC [KS [RS PO']]]]]]]]]]]]. fold d in OK, SA, SD, CF, PO', WO. fold C in CF, PO'.
  assert (PU : P = gt_padding (cl_gt L)) by (destruct PO as [P0 [I1 I2]]; destruct PO' as [P0' [J1 J2]]; congruence).
  assert (E1 : eb = zeros_of d /\ ea = zeros_of d).
  { destruct PN as [PN|[S1 KO]]; [exact (plain_widths _ _ _ _ _ _ _ _ _ _ PN WO)|].
    assert (LE1 : List.length eb = d) by (destruct CF; assumption). assert (LE2 : List.length ea = d) by (destruct CF; assumption).
    assert (LS : List.length s = d) by (destruct CF; assumption). assert (LK : List.length k = d) by (destruct CF; assumption).
    assert (KP : forall ax, ax < d -> 0 < nth ax k 0) by (destruct CF; assumption).
    destruct WO as [_ [_ [[_ WO]|[_ WO]]]]; [exact WO|].
    assert (Z : forall ax, ax < d -> nth ax eb 0 + nth ax ea 0 = 0).
    { intros ax Hax. destruct (WO ax Hax) as [EE [_ [_ [_ PL]]]]. cbv zeta in EE, PL.
      destruct (is_plain opt) eqn:IP; [apply PL; reflexivity|]. clear PL. rewrite EE. rewrite (S1 (nth ax s 0)) by (apply nth_In; lia). apply nextra_unit.
      change (is_same opt) with same. destruct same eqn:SM; [|exists 0; reflexivity].
      assert (ES : opt = "SAME_EQUIV").
      { unfold same, mem_str in SM. cbn [existsb] in SM. unfold is_plain in IP. cbn [mem_str existsb] in IP.
        destruct (String.eqb_spec opt "SAME") as [->|N1]; [discriminate IP|]. destruct (String.eqb_spec opt "SAME_EQUIV") as [E|N2]; [exact E|].
        cbn in SM. discriminate SM. }
      specialize (KO ES (nth ax k 0) ltac:(apply nth_In; lia)). destruct KO as [q KO]. unfold same_total. rewrite KO.
      replace (nth ax m 0 + 1 - 1) with (nth ax m 0) by lia. rewrite Nat.div_1_r. exists q. lia. }
    split; apply nth_ext with (d := 0) (d' := 0); unfold zeros_of; rewrite ?repeat_length; try assumption; intros ax Hax; rewrite nth_repeat; specialize (Z ax ltac:(lia)); lia. }
  pose proof (merged_signal_eq d valued c g x b m W Lm SH) as MS. fold C in MS.
  assert (ID : padding_call P (merged_signal valued c g x b m) = Ok (merged_signal valued c g x b m)).
  { rewrite PU, MS. destruct CF. rewrite (cf_pads _ _ _ _ Lm). destruct E1 as [-> ->]. rewrite bordered_zeros by exact Lm. reflexivity. }
  assert (NM : np = m).
  { rewrite ID, MS in X1. assert (EO : forall u v : tensor A, Ok u = Ok v -> u = v) by congruence. apply EO in X1. subst xp. rewrite shape_tab in X2.
    assert (X3 : m ++ [C] = np ++ [C]) by congruence. apply app_inv_tail in X3. congruence. }
  subst np. eexists. split; [|split; [|split; [exact SY|]]].
  - rewrite map_length, seq_length. reflexivity.
  - intros ax Hax. match goal with |- context[map ?f _] => rewrite (nth_indep _ 0 (f 0)) by (rewrite map_length, seq_length; exact Hax); rewrite (map_nth f), seq_nth by exact Hax end.
    cbn [Nat.add]. unfold conv_size. destruct same; [|lia]. assert (SP : 0 < nth ax s 0) by (destruct CF; auto). specialize (PM ax Hax).
    apply Nat.div_str_pos. lia.
  - apply (C75_when_the_announced_shape_is_right name G a H opt false valued bs m g c kinit binit L k s dl x b y _ LF HS OP B Lm SZ PM W SH CA SY).
    split; [right; exact EQ|]. exists P. split; [exact PO|exact ID].
Qed.

Lemma known_sizes_known l : known_sizes (map Some l) = Ok l.
Proof. induction l as [|n l IH]; cbn [map known_sizes]; [reflexivity|]. rewrite IH. reflexivity. Qed.

(** The shapes of pooling layers are right. *)
Lemma pooling_announced name G d t (a : pool_args) H opt bs m g c L k s (x y : tensor A) b :
  pooling_for name G a -> pa_subgroup a = Some H -> pool_option a opt ->
  pooling_built d t a (static_signal_shape true bs m g c) L -> List.length m = d -> pool_sizes d a k s ->
  wf x -> shape x = b :: m ++ [g; c] -> pool_call L x = Ok y ->
  exists mo idx, List.length mo = d /\ (forall ax, ax < d -> 0 < nth ax mo 0) /\ shape y = b :: mo ++ [List.length (A := nat) idx; c] /\
    symbolic_shape (A := A) (PoolingLayer L) (static_signal_shape true bs m g c) = Ok (bs :: map Some (mo ++ [List.length idx; c])).
Proof.
  intros PF HS OP B Lm SZ W SH CA.
  destruct (pooling_facts name G d t a H opt bs m g c L k s x y PF HS OP B Lm SZ CA) as [OK [GN [_ [eb [ea [sub [cos [DS [DC [SA F]]]]]]]]]].
  assert (NES : sub <> []).
  { destruct (sub_idx_facts _ _ _ _ OK _ _ SA) as [_ [_ [HD _]]]. destruct sub; [discriminate HD|discriminate]. }
  subst g. pose proof CA as CA'. rewrite (tensor_sig4 d b m _ c x W Lm SH) in CA'.
  rewrite (pool_call_eq G d _ _ OK sub cos k s eb ea _ t L b m c (fun4 x) F NES Lm) in CA'. cbv zeta in CA'.
  match type of CA' with context[outs ?a ?b ?c] => set (mo := outs a b c) in * end.
  destruct (forallb _ _) eqn:FB; [|discriminate CA'].
  assert (EO : forall u v : tensor A, Ok u = Ok v -> u = v) by congruence. apply EO in CA'.
  assert (Lmo : List.length mo = d) by (unfold mo; destruct F; apply length_outs; [apply length_padded; rewrite ?map_length; try apply length_builtin; try apply length_padded; assumption|assumption..]).
  exists mo, sub. split; [exact Lmo|]. split; [|split].
  - intros ax Hax. unfold mo. destruct F. rewrite (nth_outs _ _ _ d) by (assumption || (apply length_padded; rewrite ?map_length; try apply length_builtin; try apply length_padded; assumption)).
    unfold out_size. lia.
  - rewrite <- CA'. apply shape_tab.
  - cbn [symbolic_shape]. unfold static_signal_shape. replace (map Some m ++ [Some (List.length (symmetries_of name)); Some c])
      with (map Some (m ++ [List.length (symmetries_of name); c])) by (rewrite map_app; reflexivity).
    rewrite known_sizes_known. cbn [bind].
    assert (TZ : tab (1 :: m ++ [List.length (symmetries_of name); c]) (fun _ => zero) = tab (1 :: m ++ [List.length (symmetries_of name); c]) (sig4 d (fun _ _ _ _ => zero (A := A)))) by reflexivity.
    rewrite TZ, (pool_call_eq G d _ _ OK sub cos k s eb ea _ t L 1 m c (fun _ _ _ _ => zero (A := A)) F NES Lm). cbv zeta. rewrite FB. cbn [bind]. rewrite shape_tab. reflexivity.
Qed.


(** The layers of a model are built for the signals that they get if every convolution
    covers its whole group and adds no padding. *)
Definition whole_group_without_padding (d : nat) (p : layer_spec A) : Prop :=
  match p with
  | Convolution _ a _ _ =>
      pads_nothing d a /\
      exists name G H, layer_for name G a /\ ca_subgroup a = Some H /\
        List.length (symmetries_of (subgroup_name name H)) = List.length (symmetries_of name)
  | Pooling _ _ => True
  end.

Lemma same_layer_for (a : conv_args A) name G name' G' : layer_for name G a -> layer_for name' G' a -> name = name' /\ G = G'.
Proof.
  intros [DG [AG _]] [DG' [AG' _]]. pose proof DG as NG. apply lib_ok in NG as [NG _]. pose proof DG' as NG'. apply lib_ok in NG' as [NG' _].
  assert (EN : name = name').
  { destruct AG as [AG|AG]; destruct AG' as [AG'|AG']; congruence. }
  split; [exact EN|]. rewrite <- EN in DG'. congruence.
Qed.

Theorem C75_when_models_are_built_for_their_signals name specs last (valued : bool) ls bs b m g c x :
  let d := dimension_of name in
  chain d valued name specs last -> (forall p, In p specs -> whole_group_without_padding d p) ->
  sequential d specs (static_signal_shape valued bs m g c) = Ok ls -> List.length m = d -> (forall ax, ax < d -> 0 < nth ax m 0) ->
  wf x -> shape x = signal_shape valued b m g c -> add_commutes A ->
  as_announced ls (static_signal_shape valued bs m g c) x.
Proof.
  intros d CH. clearbody d. revert ls bs b m g c x.
  induction CH as [name|valued name G H a kinit binit k s specs last DN LF HS AL SZ RS CH IH|name G H t a opt k s specs last DN PF HS OP NSE OI ST AL SZ RK RS CH IH];
    intros ls bs b m g c x WG SQ Lm PM W SH ADD.
  - cbn [sequential] in SQ. assert (ls = []) as -> by congruence. exact I.
  - cbn [sequential layer_built] in SQ. destruct (conv_init d false a) as [L0|] eqn:I; [|discriminate SQ]. cbn [bind] in SQ.
    destruct (conv_build L0 _ kinit binit) as [L|] eqn:B; [|discriminate SQ]. cbn [bind] in SQ.
    destruct (symbolic_shape (ConvolutionLayer L) _) as [s'|] eqn:SS; [|discriminate SQ]. cbn [bind] in SQ.
    destruct (sequential d specs s') as [ls'|] eqn:SQ'; [|discriminate SQ]. cbn [bind] in SQ.
    assert (EL : ls = ConvolutionLayer L :: ls') by congruence. subst ls.
    cbn [as_announced]. intros s'' y SS'' CX. assert (s'' = s') as -> by congruence. clear SS''.
    destruct (WG (Convolution false a kinit binit) (or_introl eq_refl)) as [PN [name' [G' [H' [LF' [HS' EQ]]]]]].
    destruct (same_layer_for a name G name' G' LF LF') as [<- <-]. assert (H' = H) as -> by congruence.
    assert (BB : built (dimension_of name) false a (static_signal_shape valued bs m g c) kinit binit L) by (rewrite DN; exists L0; split; [exact I|exact B]).
    pose proof (convolution_announced name G a H valued bs m g c kinit binit L x b y LF HS) as Q. cbv zeta in Q. rewrite DN in Q.
    rewrite DN in BB. destruct (Q EQ PN BB Lm PM W SH CX) as [mo [Lmo [PMo [SY CO]]]]. clear Q.
    cbn [symbolic_shape] in SS. rewrite CO in SS. assert (ES : s' = bs :: map Some (mo ++ [List.length (symmetries_of (subgroup_name name H)); ca_filters a])) by congruence.
    subst s'. rewrite SY. cbn [tl]. split; [reflexivity|].
    assert (WY : wf y).
    { destruct valued.
      - assert (CS : convolution_stage name H m g c (apply L)) by (exists G, a, bs, kinit, binit, L, k, s; rewrite DN; tauto).
        rewrite <- DN in Lm. destruct (stage_facts name H m g c _ b x y ADD (or_introl CS) Lm W SH CX) as [_ [_ [_ [_ [_ [_ [_ [WY _]]]]]]]]. exact WY.
      - assert (CS : lifting_stage name H m c (apply L)) by (exists G, a, bs, kinit, binit, L, k, s; rewrite DN; tauto).
        rewrite <- DN in Lm. destruct (lifting_facts name H m c _ b x y ADD CS Lm W SH CX) as [_ [_ [_ [_ [_ [_ [WY _]]]]]]]. exact WY. }
    rewrite map_app in *. cbn [map] in *.
    apply (IH ls' bs b mo (List.length (symmetries_of (subgroup_name name H))) (ca_filters a) y); try assumption.
    intros p IP. apply WG. right. exact IP.
  - cbn [sequential layer_built] in SQ. destruct (pool_init d t a) as [L0|] eqn:I; [|discriminate SQ]. cbn [bind] in SQ.
    destruct (pool_build L0 _) as [L|] eqn:B; [|discriminate SQ]. cbn [bind] in SQ.
    destruct (symbolic_shape (PoolingLayer L) _) as [s'|] eqn:SS; [|discriminate SQ]. cbn [bind] in SQ.
    destruct (sequential d specs s') as [ls'|] eqn:SQ'; [|discriminate SQ]. cbn [bind] in SQ.
    assert (EL : ls = PoolingLayer L :: ls') by congruence. subst ls.
    cbn [as_announced]. intros s'' y SS'' CX. assert (s'' = s') as -> by congruence. clear SS''.
    assert (BB : pooling_built d t a (static_signal_shape true bs m g c) L) by (exists L0; split; [exact I|exact B]).
    destruct (pooling_announced name G d t a H opt bs m g c L k s x y b PF HS OP BB Lm SZ W SH CX) as [mo [idx [Lmo [PMo [SY CO]]]]].
    assert (ES : s' = bs :: map Some (mo ++ [List.length idx; c])) by congruence. subst s'. rewrite SY. cbn [tl]. split; [reflexivity|].
    assert (WY : wf y).
    { assert (CS : pooling_stage name H m g c (pool_call (A := A) L)).
      { exists G, t, a, opt, bs, L, k, s. rewrite DN. split; [exact OI|]. split; [exact PF|]. split; [exact HS|]. split; [exact OP|].
        split; [exact BB|]. split; [exact SZ|]. split; [exact RK|]. split; [exact RS|]. split; [exact AL|].
        split; [destruct (pa_strides a); [intros E; contradiction|contradiction]|]. reflexivity. }
      rewrite <- DN in Lm. destruct (stage_facts name H m g c _ b x y ADD (or_intror CS) Lm W SH CX) as [_ [_ [_ [_ [_ [_ [_ [WY _]]]]]]]]. exact WY. }
    rewrite map_app in *. cbn [map] in *.
    apply (IH ls' bs b mo (List.length idx) c y); try assumption.
    intros p IP. apply WG. right. exact IP.
Qed.

(** Both together. *)
Theorem C75_models_without_padding_are_equivariant name G specs last ls (valued : bool) bs b m g c x z :
  add_commutes A -> dict_get group_dict name = Ok G ->
  let d := dimension_of name in
  chain d valued name specs last -> (forall p, In p specs -> whole_group_without_padding d p) ->
  sequential d specs (static_signal_shape valued bs m g c) = Ok ls -> List.length m = d -> (forall ax, ax < d -> 0 < nth ax m 0) ->
  wf x -> shape x = signal_shape valued b m g c -> model_call ls x = Ok z ->
  exists Gl idx, dict_get group_dict last = Ok Gl /\ subgroup_indices G last idx /\ g_order Gl = List.length idx /\
    commutes_at (if valued then transforms_of_group_signal G d last "" else transforms_of_grid_signal G d last)
      (transforms_of_group_signal Gl d "" "") (model_call ls) x.
Proof.
  intros ADD DG d CH WG SQ Lm PM W SH MC.
  pose proof (C75_when_models_are_built_for_their_signals name specs last valued ls bs b m g c x CH WG SQ Lm PM W SH ADD) as AA.
  exact (C75_models_built_for_their_signals_are_equivariant name G specs last ls valued bs b m g c x z ADD DG CH SQ Lm W SH AA MC).
Qed.

End Sequential.
Print Assumptions C75_when_the_announced_shape_is_right.
Print Assumptions C75_nothing_follows_a_proper_subgroup.
Print Assumptions C75_models_built_for_their_signals_are_equivariant.
Print Assumptions C75_when_models_are_built_for_their_signals.
Print Assumptions C75_models_without_padding_are_equivariant.

(** ** Cases *)

Definition p4_conv (H : string) (s : Z) : layer_spec Z :=
  Convolution false (with_group "P4" H (One 3) 1 (Some (One s)) None None true) some_weights some_weights.
Definition p2_conv : layer_spec Z :=
  Convolution false (with_group "P2" "" (One 3) 1 None None None true) some_weights some_weights.

Definition twice_padded : list (layer_spec Z) := [p4_conv "" 3; p4_conv "" 3].

(** The model is made and returns, but its output is not transformed with the input. *)
Theorem C75_padded_models_refuted :
  exists ls, let x := some_signal [1; 7; 7; 1] in
    chain 2 false "P4" twice_padded "P4" /\
    sequential 2 twice_padded [None; Some 7; Some 7; Some 1] = Ok ls /\
    (exists z, model_call ls x = Ok z) /\
    ~ commutes_at (transforms_of_grid_signal P4 2 "P4") (transforms_of_group_signal P4 2 "" "") (model_call ls) x.
Proof.
  destruct (sequential 2 twice_padded [None; Some 7; Some 7; Some 1]) as [ls|] eqn:SQ; [|vm_compute in SQ; discriminate SQ].
  exists ls. cbv zeta. split; [|split; [reflexivity|]].
  - set (a := with_group "P4" "" (One 3) 1 (Some (One 3)) None None true).
    assert (LF : layer_for "P4" P4 a) by (split; [vm_compute; reflexivity|split; [left; reflexivity|reflexivity]]).
    assert (SZ : sizes 2 a [3; 3] [3; 3] (repeat 1 2)) by (split; [|split]; vm_compute; reflexivity).
    assert (RS : respects "P4" [3; 3]) by (intros _ u v [<-|[<-|[]]] [<-|[<-|[]]]; reflexivity).
    apply (chain_convolution 2 false "P4" P4 "" a some_weights some_weights [3; 3] [3; 3] _ _ eq_refl LF eq_refl eq_refl SZ RS).
    apply (chain_convolution 2 true "P4" P4 "" a some_weights some_weights [3; 3] [3; 3] _ _ eq_refl LF eq_refl eq_refl SZ RS).
    apply chain_end.
  - assert (R : match sequential 2 twice_padded [None; Some 7; Some 7; Some 1] with
               | Ok ls => match model_call ls (some_signal [1; 7; 7; 1]) with Ok _ => true | Err _ => false end &&
                          negb (commutes_b (transforms_of_grid_signal P4 2 "P4") (transforms_of_group_signal P4 2 "" "") (model_call ls) (some_signal [1; 7; 7; 1]))
               | Err _ => false end = true) by (vm_compute; reflexivity).
    rewrite SQ in R. apply andb_prop in R as [R1 R2]. split.
    + destruct (model_call ls _) as [z|]; [exists z; reflexivity|discriminate R1].
    + intros C. apply commutes_b_ok in C. rewrite C in R2. discriminate R2.
Qed.
Print Assumptions C75_padded_models_refuted.

(** Outside a model the same two layers commute, and their output is smaller. *)
Example C75_case_padded :
  let x := some_signal [1; 7; 7; 1] in
  match sequential 2 twice_padded [None; Some 7; Some 7; Some 1] with
  | Ok ls => match model_call ls x with Ok z => shape z | Err _ => [] end
  | Err _ => [] end = [1; 2; 2; 4; 1] /\
  match call_layers 2 twice_padded x with Ok z => shape z | Err _ => [] end = [1; 1; 1; 4; 1] /\
  commutes_b (transforms_of_grid_signal P4 2 "P4") (transforms_of_group_signal P4 2 "" "") (call_layers 2 twice_padded) x = true.
Proof. vm_compute. auto. Qed.

(** A convolution to a subgroup and one on the subgroup: no model, though they can be
    called one after the other. *)
Example C75_case_subgroup :
  sequential 2 [p4_conv "P2" 1; p2_conv] [None; Some 7; Some 7; Some 1] = Err AssertionError /\
  match sequential 2 [p4_conv "P2" 1] [None; Some 7; Some 7; Some 1] with Ok _ => true | Err _ => false end = true /\
  match call_layers 2 [p4_conv "P2" 1; p2_conv] (some_signal [1; 7; 7; 1]) with Ok z => shape z | Err _ => [] end = [1; 3; 3; 2; 1].
Proof. vm_compute. auto. Qed.

(** A model that commutes: a lifting convolution, pooling to P2, a convolution on P2. *)
Definition small_model : list (layer_spec Z) :=
  [p4_conv "" 1; Pooling "max" (pooling "P4" "P2" (One 2) (Some (One 2)) None); p2_conv].
Example C75_case_model :
  match sequential 2 small_model [None; Some 10; Some 10; Some 1] with
  | Ok ls => match model_call ls (some_signal [1; 10; 10; 1]) with
             | Ok z => list_eqb Nat.eqb (shape z) [1; 2; 2; 2; 1] && negb (forallb (Z.eqb (nth 0 (data z) 0%Z)) (data z)) &&
                       commutes_b (transforms_of_grid_signal P4 2 "P2") (transforms_of_group_signal P2 2 "" "") (model_call ls) (some_signal [1; 10; 10; 1])
             | Err _ => false end
  | Err _ => false end = true.
Proof. vm_compute. reflexivity. Qed.

(** It meets the conditions of the theorem. *)
Example C75_case_conditions :
  chain 2 false "P4" small_model "P2" /\ forall p, In p small_model -> whole_group_without_padding 2 p.
Proof.
  assert (RS : forall name n, respects name [n; n]) by (intros name n _ u v [<-|[<-|[]]] [<-|[<-|[]]]; reflexivity).
  set (a := with_group "P4" "" (One 3) 1 (Some (One 1)) None None true).
  assert (LF : layer_for "P4" P4 a) by (split; [vm_compute; reflexivity|split; [left; reflexivity|reflexivity]]).
  assert (SZ : sizes 2 a [3; 3] [1; 1] (repeat 1 2)) by (split; [|split]; vm_compute; reflexivity).
  set (a' := with_group "P2" "" (One 3) 1 None None None true).
  assert (LF' : layer_for "P2" P2 a') by (split; [vm_compute; reflexivity|split; [left; reflexivity|reflexivity]]).
  assert (SZ' : sizes 2 a' [3; 3] [1; 1] (repeat 1 2)) by (split; [|split]; vm_compute; reflexivity).
  set (q := pooling "P4" "P2" (One 2) (Some (One 2)) None).
  assert (PF : pooling_for "P4" P4 q) by (split; [vm_compute; reflexivity|split; [left; reflexivity|reflexivity]]).
  assert (PS : pool_sizes 2 q [2; 2] [2; 2]) by (split; vm_compute; reflexivity).
  assert (PO : pool_option q "VALID_EQUIV") by (exists "valid_equiv"; split; reflexivity).
  assert (OA : forall c : conv_args Z, ca_padding c = None -> option_of c "VALID_EQUIV") by (intros c E; exists "valid_equiv"; rewrite E; split; reflexivity).
  split.
  - apply (chain_convolution 2 false "P4" P4 "" a some_weights some_weights [3; 3] [1; 1] _ _ eq_refl LF eq_refl eq_refl SZ (RS _ _)).
    apply (chain_pooling 2 "P4" P4 "P2" "max" q "VALID_EQUIV" [2; 2] [2; 2] _ _ eq_refl PF eq_refl PO ltac:(discriminate) (pool_Z_order_irrelevant "max") ltac:(discriminate) eq_refl PS (RS _ _) (RS _ _)).
    apply (chain_convolution 2 true "P2" P2 "" a' some_weights some_weights [3; 3] [1; 1] _ _ eq_refl LF' eq_refl eq_refl SZ' (RS _ _)).
    apply chain_end.
  - intros p [<-|[<-|[<-|[]]]]; [| exact I |].
    + split; [|exists "P4", P4, ""; split; [exact LF|split; reflexivity]].
      exists "VALID_EQUIV", [3; 3], [1; 1], (repeat 1 2). split; [apply OA; reflexivity|]. split; [exact SZ|]. right. split; [intros v [<-|[<-|[]]]; reflexivity|discriminate].
    + split; [|exists "P2", P2, ""; split; [exact LF'|split; reflexivity]].
      exists "VALID_EQUIV", [3; 3], [1; 1], (repeat 1 2). split; [apply OA; reflexivity|]. split; [exact SZ'|]. right. split; [intros v [<-|[<-|[]]]; reflexivity|discriminate].
Qed.
