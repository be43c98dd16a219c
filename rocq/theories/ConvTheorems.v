(** Built convolution layers commute with the group action. *)
From Verif Require Export EquivFacts.
Local Open Scope string_scope.
Local Open Scope list_scope.

(** Shape of the input of a layer: batch, spatial axes, group axis (for a signal on
    a group), channels. *)
Definition input_shape (valued : bool) (b : nat) (m : list nat) (g c : nat) : list nat :=
  b :: m ++ (if valued then [g; c] else [c]).

Section Conv.
Context {A : Type} {RA : Arith A}.
Context (G : group) (d : nat) (E : list symmetry) (eq : bool) (OK : group_ok G d E eq).
Notation n := (List.length E).
Notation sym a := (nth a E []).

(** ** Sizes *)

Notation fit := (fit d eq).

Lemma fit_of l : List.length l = d -> (eq = true -> forall a b, a < d -> b < d -> nth a l 0 = nth b l 0) -> fit l.
Proof. intros L H. split; [|exact L]. intros Q. apply (uniform_of d); [exact L|auto]. Qed.

Lemma fit_nth l a b : fit l -> eq = true -> a < d -> b < d -> nth a l 0 = nth b l 0.
Proof. intros [F L] Q. apply uniform_nth; auto. Qed.

Lemma nth_repeat1 a : a < d -> nth a (repeat 1 d) 0 = 1.
Proof.
  intros Ha. rewrite (nth_indep _ 0 1) by (rewrite repeat_length; exact Ha). apply nth_repeat.
Qed.

Lemma fit_ones : fit (repeat 1 d).
Proof. apply fit_of; [apply repeat_length|]. intros _ a b Ha Hb. rewrite !nth_repeat1 by assumption. reflexivity. Qed.

Lemma undilate k : List.length k = d -> (forall a, a < d -> 0 < nth a k 0) -> vzip dilated k (repeat 1 d) = k.
Proof.
  intros L P. apply nth_ext0; [rewrite length_vzip; rewrite ?repeat_length; lia|].
  intros a Ha. rewrite length_vzip in Ha by (rewrite repeat_length; lia).
  rewrite nth_vzip by (rewrite ?repeat_length; lia). rewrite nth_repeat1 by lia.
  unfold dilated. specialize (P a ltac:(lia)). lia.
Qed.

Lemma fit_widths plain allow same tr m k s eb ea :
  widths_ok plain allow same tr d m k s eb ea -> fit m -> fit k -> fit s -> fit eb /\ fit ea.
Proof.
  intros [LB [LA W]] Fm Fk Fs.
  assert (Q : eq = true -> forall a b, a < d -> b < d -> nth a eb 0 = nth b eb 0 /\ nth a ea 0 = nth b ea 0).
  { intros Qe a b Ha Hb. destruct W as [[_ [-> ->]]|[_ W]].
    - rewrite !nth_zeros. auto.
    - pose proof (W a Ha) as [W1 [_ [W2 [W3 _]]]]. pose proof (W b Hb) as [V1 [_ [V2 [V3 _]]]].
      assert (EE : nth a eb 0 + nth a ea 0 = nth b eb 0 + nth b ea 0).
      { rewrite W1, V1. rewrite (fit_nth m a b), (fit_nth k a b), (fit_nth s a b) by assumption. reflexivity. }
      rewrite EE in W2, W3. split; congruence. }
  split; apply fit_of; try assumption; intros Qe a b Ha Hb; apply (Q Qe a b Ha Hb).
Qed.

Lemma fit_padded be m af : fit be -> fit m -> fit af -> fit (padded be m af).
Proof.
  intros Fb Fm Fa. pose proof Fb as [_ Lb]. pose proof Fm as [_ Lm]. pose proof Fa as [_ La].
  apply fit_of; [apply length_padded; assumption|]. intros Q a b Ha Hb. rewrite !(nth_padded _ _ _ d) by assumption.
  rewrite (fit_nth be a b), (fit_nth m a b), (fit_nth af a b) by assumption. reflexivity.
Qed.

Lemma fit_vzip f l l' : fit l -> fit l' -> fit (vzip f l l').
Proof.
  intros F1 F2. pose proof F1 as [_ L1]. pose proof F2 as [_ L2].
  apply fit_of; [rewrite length_vzip; lia|]. intros Q a b Ha Hb. rewrite !nth_vzip by lia.
  rewrite (fit_nth l a b), (fit_nth l' a b) by assumption. reflexivity.
Qed.

Lemma nth_pads padding m k s a : List.length m = d -> List.length k = d -> List.length s = d -> a < d ->
  nth a (map fst (builtin_pads padding m k s)) 0 = fst (backend_pads (String.eqb padding "same") (nth a m 0) (nth a k 0) (nth a s 0)) /\
  nth a (map snd (builtin_pads padding m k s)) 0 = snd (backend_pads (String.eqb padding "same") (nth a m 0) (nth a k 0) (nth a s 0)).
Proof.
  intros Lm Lk Ls Ha. rewrite <- (nth_builtin padding m k s d a) by assumption.
  pose proof (length_builtin padding m k s d Lm Lk Ls) as LP. split.
  - rewrite <- (map_nth fst). reflexivity.
  - rewrite <- (map_nth snd). reflexivity.
Qed.

Lemma fit_pads padding m k s : fit m -> fit k -> fit s ->
  fit (map fst (builtin_pads padding m k s)) /\ fit (map snd (builtin_pads padding m k s)).
Proof.
  intros Fm Fk Fs. pose proof Fm as [_ Lm]. pose proof Fk as [_ Lk]. pose proof Fs as [_ Ls].
  split; apply fit_of; try (rewrite map_length; apply length_builtin; assumption); intros Q a b Ha Hb.
  - rewrite (proj1 (nth_pads padding m k s a Lm Lk Ls Ha)), (proj1 (nth_pads padding m k s b Lm Lk Ls Hb)).
    rewrite (fit_nth m a b), (fit_nth k a b), (fit_nth s a b) by assumption. reflexivity.
  - rewrite (proj2 (nth_pads padding m k s a Lm Lk Ls Ha)), (proj2 (nth_pads padding m k s b Lm Lk Ls Hb)).
    rewrite (fit_nth m a b), (fit_nth k a b), (fit_nth s a b) by assumption. reflexivity.
Qed.

Lemma fit_outs m k s : fit m -> fit k -> fit s -> fit (outs m k s).
Proof.
  intros Fm Fk Fs. pose proof Fm as [_ Lm]. pose proof Fk as [_ Lk]. pose proof Fs as [_ Ls].
  apply fit_of; [apply length_outs; assumption|]. intros Q a b Ha Hb. rewrite !(nth_outs _ _ _ d) by assumption.
  rewrite (fit_nth m a b), (fit_nth k a b), (fit_nth s a b) by assumption. reflexivity.
Qed.

Lemma fit_touts p m k s : fit m -> fit k -> fit s -> fit (touts p m k s).
Proof.
  intros Fm Fk Fs. pose proof Fm as [_ Lm]. pose proof Fk as [_ Lk]. pose proof Fs as [_ Ls].
  apply fit_of; [apply length_touts; assumption|]. intros Q a b Ha Hb. rewrite !(nth_touts _ _ _ _ d) by assumption.
  rewrite (fit_nth m a b), (fit_nth k a b), (fit_nth s a b) by assumption. reflexivity.
Qed.

Lemma padding_string_same same : String.eqb (padding_string same) "same" = same.
Proof. destruct same; reflexivity. Qed.

(** The extra padding of a layer depends on the sizes modulo the strides only. *)
Lemma mod_opp a a' q : 0 < q -> a mod q = a' mod q -> exists z : Z, (Z.of_nat a' = Z.of_nat a + z * Z.of_nat q)%Z.
Proof.
  intros Q M. pose proof (Nat.div_mod a q ltac:(lia)) as D. pose proof (Nat.div_mod a' q ltac:(lia)) as D'. rewrite M in D.
  exists (Z.of_nat (a' / q) - Z.of_nat (a / q))%Z. nia.
Qed.

Lemma same_total_mod a a' k s : 0 < s -> a mod s = a' mod s -> same_total a k s = same_total a' k s.
Proof.
  intros P M. destruct (mod_opp a a' s P M) as [z Z]. apply Nat2Z.inj. rewrite !same_total_Z by exact P. unfold zb_same. do 2 f_equal.
  rewrite Z. replace (- (Z.of_nat a + z * Z.of_nat s))%Z with (- Z.of_nat a + (- z) * Z.of_nat s)%Z by lia.
  rewrite Z.mod_add by lia. reflexivity.
Qed.

Lemma nextra_mod a a' b k s : 0 < s -> a mod s = a' mod s -> nextra a b k s = nextra a' b k s.
Proof.
  intros P M. destruct (mod_opp a a' s P M) as [z Z]. unfold nextra, zextra, ze0. rewrite Z.
  replace (- (Z.of_nat a + z * Z.of_nat s + Z.of_nat b - Z.of_nat k))%Z with (- (Z.of_nat a + Z.of_nat b - Z.of_nat k) + (- z) * Z.of_nat s)%Z by lia.
  rewrite Z.mod_add by lia. reflexivity.
Qed.

Lemma admissible_mod a a' b k s e : 0 < s -> a mod s = a' mod s -> admissible a b k s e -> admissible a' b k s e.
Proof.
  intros P M [[q Q] EV]. split; [|exact EV]. destruct (mod_opp a a' s P M) as [z Z]. exists (q + z)%Z. lia.
Qed.

(** Sizes that differ from the sizes [m] by multiples of the strides [s]. *)
Definition congruent_sizes (s m m' : list nat) : Prop := forall a, a < d -> nth a m 0 mod nth a s 0 = nth a m' 0 mod nth a s 0.

Lemma widths_mod plain allow same tr m m' k s eb ea :
  (forall a, a < d -> 0 < nth a s 0) -> congruent_sizes s m m' ->
  widths_ok plain allow same tr d m k s eb ea -> widths_ok plain allow same tr d m' k s eb ea.
Proof.
  intros P M [LB [LA W]]. split; [exact LB|]. split; [exact LA|]. destruct W as [W|[PA W]]; [left; exact W|]. right. split; [exact PA|].
  intros a Ha. specialize (W a Ha). cbv zeta in *. specialize (P a Ha). specialize (M a Ha).
  rewrite <- (same_total_mod _ _ (nth a k 0) (nth a s 0) P M). rewrite <- (nextra_mod _ _ _ (nth a k 0) (nth a s 0) P M).
  destruct W as [W1 [W2 W3]]. split; [exact W1|]. split; [|exact W3]. exact (admissible_mod _ _ _ _ _ _ P M W2).
Qed.

(** Dilation: with 'same' padding the kernel size or the dilation must be odd. *)
Definition dilation_fine (same : bool) (k dl : list nat) : Prop :=
  same = true -> forall a, a < d -> Nat.Odd (nth a k 0) \/ Nat.Odd (nth a dl 0).

(** The sampled positions of a layer built for size [m] mirror at every axis. *)
Lemma mirrored_built plain allow same m k s dl eb ea :
  widths_ok plain allow same false d m k s eb ea -> plain && allow = false ->
  List.length m = d -> List.length k = d -> List.length s = d -> List.length dl = d ->
  (forall a, a < d -> 0 < nth a k 0) -> (forall a, a < d -> 0 < nth a s 0) -> (forall a, a < d -> 0 < nth a dl 0) ->
  (forall a, a < d -> nth a s 0 = 1 \/ nth a dl 0 = 1) -> dilation_fine same k dl ->
  let m1 := padded eb m ea in
  let ke := vzip dilated k dl in
  let pads := builtin_pads (padding_string same) m1 ke s in
  let m2 := padded (map fst pads) m1 (map snd pads) in
  forall a, a < d -> nth a ke 0 <= nth a m2 0 ->
  mirrored m k (outs m2 ke s) s dl (vzip Nat.add eb (map fst pads)) a.
Proof.
  intros [LB [LA W]] PA Lm Lk Ls Ldl Pk Ps Pd SDl DF m1 ke pads m2 a Ha LE.
  assert (Lm1 : List.length m1 = d) by (apply length_padded; assumption).
  assert (Lke : List.length ke = d) by (unfold ke; rewrite length_vzip; lia).
  assert (LP : List.length pads = d) by (apply length_builtin; assumption).
  assert (Lm2 : List.length m2 = d) by (apply length_padded; rewrite ?map_length; assumption).
  destruct W as [[W _]|[_ W]]; [congruence|].
  unfold mirrored. rewrite (nth_outs _ _ _ d) by assumption.
  rewrite nth_vzip by (rewrite ?map_length; lia).
  unfold m2 in *. rewrite (nth_padded _ _ _ d) in * by (rewrite ?map_length; assumption).
  destruct (nth_pads (padding_string same) m1 ke s a Lm1 Lke Ls Ha) as [P1 P2]. fold pads in P1, P2. rewrite P1, P2 in *.
  rewrite padding_string_same in *. unfold m1 in *. rewrite (nth_padded _ _ _ d) in * by assumption.
  specialize (W a Ha). cbv zeta in W. destruct W as [EQ [AD [E1 [E2 _]]]].
  specialize (Pk a Ha). specialize (Ps a Ha). specialize (Pd a Ha).
  set (e := nth a eb 0 + nth a ea 0) in *.
  assert (ME : nth a eb 0 + nth a m 0 + nth a ea 0 = nth a m 0 + e) by (unfold e; lia). rewrite ME in *.
  assert (EE : nth a eb 0 + nth a ea 0 = e) by reflexivity.
  assert (KE : nth a ke 0 = dilated (nth a k 0) (nth a dl 0)) by (unfold ke; apply nth_vzip; lia). rewrite KE in *.
  destruct (SDl a Ha) as [S1|D1].
  - (* stride one *)
    rewrite S1 in *. unfold out_size. rewrite Nat.div_1_r. unfold dilated in *. set (kd := (nth a k 0 - 1) * nth a dl 0) in *.
    assert (Z1 : forall z, zextra (Z.of_nat (nth a m 0)) z (Z.of_nat (nth a k 0)) 1 = (z mod 2)%Z).
    { intros z. unfold zextra, ze0. rewrite Z.mod_1_r, !Z.add_0_l, Z.mul_1_r. reflexivity. }
    destruct same.
    + unfold same_total in EQ. replace (nth a m 0 + 1 - 1) with (nth a m 0) in EQ by lia. rewrite Nat.div_1_r in EQ.
      replace (nth a m 0 * 1 + nth a k 0 - (1 + nth a m 0)) with (nth a k 0 - 1) in EQ by lia.
      assert (ST : same_total (nth a m 0 + e) (kd + 1) 1 = kd).
      { unfold same_total. replace (nth a m 0 + e + 1 - 1) with (nth a m 0 + e) by lia. rewrite Nat.div_1_r. lia. }
      unfold backend_pads, same_pads in *. rewrite ST in *. cbn [fst snd] in *.
      assert (EV : Nat.Even (kd + e)).
      { pose proof (nextra_Z (nth a m 0) (nth a k 0 - 1) (nth a k 0) 1 ltac:(lia)) as NZ. rewrite <- EQ in NZ.
        change (Z.of_nat 1) with 1%Z in NZ. rewrite Z1 in NZ.
        destruct (DF eq_refl a Ha) as [[z OD]|[z OD]].
        - replace (nth a k 0 - 1) with (z * 2) in NZ by lia. rewrite Nat2Z.inj_mul in NZ. change (Z.of_nat 2) with 2%Z in NZ. rewrite Z.mod_mul in NZ by lia.
          exists (z * nth a dl 0). unfold kd. replace (nth a k 0 - 1) with (2 * z) by lia. lia.
        - unfold kd. set (k1 := nth a k 0 - 1) in *. pose proof (Z.div_mod (Z.of_nat k1) 2 ltac:(lia)) as DM.
          pose proof (Z.mod_pos_bound (Z.of_nat k1) 2 ltac:(lia)) as MB.
          set (r := (Z.of_nat k1 mod 2)%Z) in *. set (w := (Z.of_nat k1 / 2)%Z) in *.
          exists (Z.to_nat w + e + k1 * z). rewrite OD. nia. }
      pose proof (split_even kd e EV) as SE. pose proof (Nat.div_le_upper_bound kd 2 kd). lia.
    + unfold backend_pads in *. cbn [fst snd] in *.
      pose proof (nextra_Z (nth a m 0) 0 (nth a k 0) 1 ltac:(lia)) as NZ. rewrite <- EQ in NZ.
      change (Z.of_nat 1) with 1%Z in NZ. change (Z.of_nat 0) with 0%Z in NZ. rewrite Z1 in NZ. change (0 mod 2)%Z with 0%Z in NZ. lia.
  - (* no dilation *)
    rewrite D1 in *. unfold dilated in *. replace ((nth a k 0 - 1) * 1 + 1) with (nth a k 0) in * by lia.
    set (t := if same then same_total (nth a m 0) (nth a k 0) (nth a s 0) else 0) in *.
    assert (BP : fst (backend_pads same (nth a m 0 + e) (nth a k 0) (nth a s 0)) = t / 2 /\
                 snd (backend_pads same (nth a m 0 + e) (nth a k 0) (nth a s 0)) = t - t / 2).
    { unfold backend_pads, t in *. destruct same; [|split; reflexivity]. unfold same_pads.
      rewrite same_total_padded by assumption. split; reflexivity. }
    destruct BP as [B1 B2]. rewrite B1, B2 in *. clear B1 B2 P1 P2.
    destruct AD as [[q Q] EV]. pose proof (split_even t e EV) as SE.
    assert (T : t / 2 + (t - t / 2) = t) by (pose proof (Nat.div_le_upper_bound t 2 t); lia).
    assert (N : t / 2 + (nth a m 0 + e) + (t - t / 2) = nth a m 0 + t + e) by lia. rewrite N in *.
    assert (DV : exists z, nth a m 0 + t + e - nth a k 0 = z * nth a s 0).
    { exists (Z.to_nat q). assert (0 <= q)%Z by nia. nia. }
    destruct DV as [z Z]. unfold out_size. rewrite Z. rewrite Nat.div_mul by lia. lia.
Qed.

(** ** Inputs *)

Definition merged_fun (valued : bool) (x : tensor A) (c : nat) : nat -> list nat -> nat -> A :=
  if valued then fun bi p q => fun4 x bi p (q / c) (q mod c) else fun3 x.

Lemma merged_input valued x b m g c : wf x -> List.length m = d -> shape x = input_shape valued b m g c ->
  merged d valued x b m (if valued then g * c else c) (merged_fun valued x c).
Proof.
  intros W L SH. unfold merged, merged_fun, input_shape in *. destruct valued.
  - rewrite (tensor_sig4 d b m g c x W L SH) at 1. apply merge_group. exact L.
  - f_equal. apply tensor_sig3; assumption.
Qed.

Lemma merged_grid b m c X : List.length m = d -> merged d false (tab (b :: m ++ [c]) (sig3 d X)) b m c X.
Proof. intros L. unfold merged. reflexivity. Qed.

Lemma merged_group b m g c X : List.length m = d ->
  merged d true (tab (b :: m ++ [g; c]) (sig4 d X)) b m (g * c) (fun bi p q => X bi p (q / c) (q mod c)).
Proof. intros L. unfold merged. apply merge_group. exact L. Qed.

(** The slices of the transformed input. *)
Lemma moved_input valued (x gx : tensor A) b m g c idx dom H Hd :
  sub_idx G H idx -> (valued = true -> sub_idx G Hd dom /\ g = List.length dom /\ forall u, In u idx -> stable G u dom) ->
  wf x -> List.length m = d -> shape x = input_shape valued b m g c ->
  action G x (map Z.of_nat (seq 1 d)) 0 (if valued then Some (Z.of_nat (d + 1)) else None) H (if valued then Hd else None) = Ok gx ->
  fit m /\ shape gx = List.length idx :: shape x /\
  forall u, u < List.length idx -> exists X',
    merged d valued (slice 0 u gx) b m (if valued then g * c else c) X' /\ wf (slice 0 u gx) /\ shape (slice 0 u gx) = shape x /\
    forall bi i q, q < (if valued then g * c else c) ->
      X' bi i q = merged_fun valued x c bi (pixel (sym (nth u idx 0)) m i) (moved_chan G valued (nth u idx 0) dom c q).
Proof.
  intros SI SD W L SH R. unfold input_shape in *. destruct valued.
  - destruct (SD eq_refl) as [SD' [GD ST]]. rewrite (tensor_sig4 d b m g c x W L SH) in R.
    destruct (group_slices G d E eq OK b m g c _ H Hd idx dom gx SI SD' GD L ST R) as [F [SG SL]].
    split; [exact F|]. rewrite SH. split; [exact SG|]. intros u U. rewrite (SL u U).
    eexists. split; [apply merged_group; exact L|]. split; [apply wf_tab|]. split; [apply shape_tab|].
    intros bi i q Q. unfold moved4, merged_fun, moved_chan. rewrite GD in Q.
    destruct (chan_parts G (nth u idx 0) dom c q Q) as [-> ->]. reflexivity.
  - rewrite (tensor_sig3 d b m c x W L SH) in R.
    destruct (grid_slices G d E eq OK b m c _ None H idx gx SI L R) as [F [SG SL]].
    split; [exact F|]. rewrite SH. split; [exact SG|]. intros u U. rewrite (SL u U).
    eexists. split; [apply merged_grid; exact L|]. split; [apply wf_tab|]. split; [apply shape_tab|].
    intros bi i q Q. reflexivity.
Qed.

Lemma conv_apply_call tr valued act dom c C o k s dl eb ea same ub f kinit binit (L : conv_layer A) (x : tensor A) b m g :
  conv_facts G d E eq tr valued act dom c C o k s dl eb ea same ub f kinit binit L -> cl_channels L = Some c ->
  List.length m = d -> shape x = input_shape valued b m g c -> conv_apply L x = conv_call L x.
Proof.
  intros F CC Lm SH. unfold conv_apply, rank. rewrite SH, CC. destruct F. rewrite cf_dims, cf_fmt'. cbn [String.eqb Ascii.eqb Bool.eqb].
  assert (LL : List.length (input_shape valued b m g c) = d + 2 + (if valued then 1 else 0)).
  { unfold input_shape. cbn [List.length]. rewrite app_length. destruct valued; cbn [List.length]; lia. }
  destruct (Nat.ltb_spec (List.length (input_shape valued b m g c)) (d + 2)) as [Bad|_]; [lia|].
  replace (nth (List.length (input_shape valued b m g c) - 1) (input_shape valued b m g c) 0) with c; [rewrite Nat.eqb_refl; reflexivity|].
  rewrite LL. unfold input_shape. destruct valued.
  - replace (d + 2 + 1 - 1) with (d + 2) by lia. symmetry. apply (chan_ix2 d b m g c []). exact Lm.
  - replace (d + 2 + 0 - 1) with (d + 1) by lia. symmetry. apply (chan_ix d b m c []). exact Lm.
Qed.

(** ** Convolution *)

Lemma one_of_them (a : conv_args A) s dl :
  standardize_tuple d (strides_of a) = Ok s -> standardize_tuple d (dilation_of a) = Ok dl ->
  negb (existsb (fun n => 1 <? n)%nat s && existsb (fun n => 1 <? n)%nat dl) = true ->
  forall q, q < d -> nth q s 0 = 1 \/ nth q dl 0 = 1.
Proof.
  intros SS SD MM q Hq. destruct (std_pos d _ _ SS) as [Ls Ps]. destruct (std_pos d _ _ SD) as [Ld Pd].
  specialize (Ps q Hq). specialize (Pd q Hq).
  destruct (Nat.eq_dec (nth q s 0) 1) as [|N1]; [left; assumption|]. right.
  destruct (Nat.eq_dec (nth q dl 0) 1) as [|N2]; [assumption|]. exfalso.
  assert (X1 : existsb (fun n => 1 <? n)%nat s = true).
  { apply existsb_exists. exists (nth q s 0). split; [apply nth_In; lia|]. apply Nat.ltb_lt. lia. }
  assert (X2 : existsb (fun n => 1 <? n)%nat dl = true).
  { apply existsb_exists. exists (nth q dl 0). split; [apply nth_In; lia|]. apply Nat.ltb_lt. lia. }
  rewrite X1, X2 in MM. discriminate MM.
Qed.

Lemma conv_equivariance_of name (a : conv_args A) L0 valued bs m g c kinit binit L p k s dl H idx m' x b gx L1 y :
  add_commutes A ->
  known name G -> given (ca_group a) G ->
  ca_data_format a = "channels_last" -> conv_init d false a = Ok L0 -> List.length m = d ->
  conv_build L0 (build_shape valued bs m g c) kinit binit = Ok L ->
  (ca_allow a = false \/ is_plain (upper p) = false) ->
  padding_name a = Some p -> standardize_tuple d (ca_kernel_size a) = Ok k ->
  standardize_tuple d (strides_of a) = Ok s -> (eq = true -> all_equal s) ->
  standardize_tuple d (dilation_of a) = Ok dl -> (eq = true -> all_equal dl) -> dilation_fine (is_same (upper p)) k dl ->
  ca_subgroup a = Some H -> sub_idx G (Some H) idx ->
  List.length m' = d -> congruent_sizes s m m' ->
  wf x -> shape x = input_shape valued b m' g c ->
  action G x (map Z.of_nat (seq 1 d)) 0 (if valued then Some (Z.of_nat (d + 1)) else None) (Some H) (if valued then Some "" else None) = Ok gx ->
  conv_apply L x = (L1, Ok y) ->
  L1 = L /\ wf y /\ (exists mo, List.length mo = d /\ shape y = b :: mo ++ [List.length idx; ca_filters a]) /\
  shape gx = List.length idx :: shape x /\
  exists gy, action G y (map Z.of_nat (seq 1 d)) 0 (Some (Z.of_nat (d + 1))) (Some H) (Some H) = Ok gy /\
    shape gy = List.length idx :: shape y /\
    forall u, u < List.length idx -> conv_apply L (slice 0 u gx) = (L, Ok (slice 0 u gy)).
Proof.
  intros ADD DG AG AF I Lm0 B AL PN SK SS US SD UD DF HS HI Lm CO W SH R CA.
  destruct (conv_build_inv_of G d E eq OK name false a L0 valued bs m g c kinit binit L DG AG AF I Lm0 B)
    as [p' [k' [s' [dl' [eb [ea [act [dom [PN' [SK' [SS' [SD' [WO [SA [SDm [CF [CC _]]]]]]]]]]]]]]]]].
  rewrite PN in PN'. injection PN' as <-. rewrite SK in SK'. injection SK' as <-.
  rewrite SS in SS'. injection SS' as <-. rewrite SD in SD'. injection SD' as <-. rewrite HS in SA.
  assert (SDl : forall q, q < d -> nth q s 0 = 1 \/ nth q dl 0 = 1).
  { destruct (conv_init_inv_of G d name false a L0 DG AG AF I) as [p' [k' [s' [dl' [Hn [_ [_ [SS' [SD' [_ [_ [_ [_ [MM _]]]]]]]]]]]]]].
    rewrite SS in SS'. injection SS' as <-. rewrite SD in SD'. injection SD' as <-.
    exact (one_of_them a s dl SS SD MM). }
  assert (act = idx) as -> by (unfold sub_idx in *; congruence).
  destruct (sub_idx_facts _ _ _ _ OK _ _ HI) as [NDi [Bi [Hi _]]].
  set (C := if valued then g * c else c) in *. set (same := is_same (upper p)) in *.
  assert (ST : forall u, In u idx -> stable G u idx) by (intros u U; apply (stable_of G d E eq OK (Some H)); assumption).
  assert (SW : valued = true -> sub_idx G (Some "") dom /\ g = List.length dom /\ forall u, In u idx -> stable G u dom).
  { intros V. destruct (SDm V) as [D1 D2]. split; [exact D1|]. split; [exact D2|]. intros u U.
    pose proof (sub_idx_whole _ _ _ _ OK) as WH. assert (dom = seq 0 n) as -> by (unfold sub_idx in *; congruence).
    apply (stable_whole G d E eq OK). apply Bi. exact U. }
  destruct (moved_input valued x gx b m' g c idx dom (Some H) (Some "") HI SW W Lm SH R) as [Fm [SG MV]].
  rewrite (conv_apply_call _ _ _ _ _ _ _ _ _ _ _ _ _ _ _ _ _ _ x b m' g CF CC Lm SH) in CA.
  rewrite (conv_call_eq G d E eq OK valued idx dom c C (ca_filters a) k s dl eb ea same (ca_use_bias a) (ca_activation a) kinit binit L x b m'
             (merged_fun valued x c) CF Lm) in CA by (apply merged_input; assumption).
  pose proof (cf_k _ _ _ _ _ _ _ _ _ _ _ _ _ _ _ _ _ _ _ _ _ _ CF) as Lk. pose proof (cf_s _ _ _ _ _ _ _ _ _ _ _ _ _ _ _ _ _ _ _ _ _ _ CF) as Ls.
  pose proof (cf_kpos _ _ _ _ _ _ _ _ _ _ _ _ _ _ _ _ _ _ _ _ _ _ CF) as Pk. pose proof (cf_spos _ _ _ _ _ _ _ _ _ _ _ _ _ _ _ _ _ _ _ _ _ _ CF) as Ps.
  assert (Fk : fit k) by (split; [apply (cf_fit _ _ _ _ _ _ _ _ _ _ _ _ _ _ _ _ _ _ _ _ _ _ CF)|exact Lk]).
  assert (Fs : fit s) by (split; [exact US|exact Ls]).
  apply (widths_mod _ _ _ _ m m' k s eb ea Ps CO) in WO.
  destruct (fit_widths _ _ _ _ _ _ _ _ _ WO Fm Fk Fs) as [Feb Fea].
  assert (Ldl : List.length dl = d) by exact (cf_dl _ _ _ _ _ _ _ _ _ _ _ _ _ _ _ _ _ _ _ _ _ _ CF).
  assert (Fdl : fit dl) by (split; [exact UD|exact Ldl]).
  assert (Fke : fit (vzip dilated k dl)) by (apply fit_vzip; assumption). set (ke := vzip dilated k dl) in *. pose proof Fke as [_ Lke].
  set (m1 := padded eb m' ea) in *. set (pads := builtin_pads (padding_string same) m1 ke s) in *.
  set (m2 := padded (map fst pads) m1 (map snd pads)) in *.
  assert (Fm1 : fit m1) by (apply fit_padded; assumption).
  destruct (fit_pads (padding_string same) m1 ke s Fm1 Fke Fs) as [Fp1 Fp2]. fold pads in Fp1, Fp2.
  assert (Fm2 : fit m2) by (apply fit_padded; assumption).
  assert (FM : fit (outs m2 ke s)) by (apply fit_outs; assumption).
  set (before := vzip Nat.add eb (map fst pads)) in *.
  assert (Fb : fit before) by (apply fit_vzip; assumption).
  assert (PA : is_plain (upper p) && ca_allow a = false).
  { destruct AL as [-> |AL]; [apply andb_false_r|]. rewrite AL. reflexivity. }
  destruct (forallb _ (combine ke m2)) eqn:FB; [|discriminate CA].
  pose proof (forallb_combine_le ke m2 d Lke (proj2 Fm2) FB) as LE.
  assert (MI : forall a, a < d -> mirrored m' k (outs m2 ke s) s dl before a).
  { intros q Hq. destruct (std_pos d _ _ SD) as [_ Pdl].
    apply (mirrored_built (is_plain (upper p)) (ca_allow a) same m' k s dl eb ea WO PA Lm Lk Ls Ldl Pk Ps Pdl SDl DF q Hq (LE q Hq)). }
  pose proof FM as [_ LM].
  injection CA as <- <-. split; [reflexivity|]. split; [apply wf_tab|].
  split; [exists (outs m2 ke s); split; [exact LM|apply shape_tab]|]. split; [exact SG|].
  match goal with |- context[sig4 d ?y] => set (Y := y) end.
  destruct (group_slices_ok G d E eq OK b (outs m2 ke s) (List.length idx) (ca_filters a) Y (Some H) (Some H) idx idx HI HI eq_refl FM ST) as [gy [GY [SGY SL]]].
  exists gy. split; [exact GY|]. split; [rewrite shape_tab; exact SGY|]. intros u U. rewrite (SL u U).
  destruct (MV u U) as [X' [MG [WX [SX XX]]]].
  rewrite (conv_apply_call _ _ _ _ _ _ _ _ _ _ _ _ _ _ _ _ _ _ (slice 0 u gx) b m' g CF CC Lm) by congruence.
  rewrite (conv_call_eq G d E eq OK valued idx dom c C (ca_filters a) k s dl eb ea same (ca_use_bias a) (ca_activation a) kinit binit L (slice 0 u gx) b m'
             X' CF Lm MG).
  fold ke. fold m1. fold pads. fold m2. rewrite FB. f_equal. f_equal.
  apply sig4_ext; [exact LM|]. intros bi pp h oo BI P Hh O. unfold moved4, Y.
  set (u' := nth u idx 0) in *. assert (Hu : In u' idx) by (apply nth_In; exact U).
  apply (conv_out_moved G d E eq OK valued idx dom c C (ca_filters a) k s dl (ca_use_bias a) (ca_activation a) binit
           (tab (k ++ [C; ca_filters a]) kinit) ADD u' m' (outs m2 ke s) before (merged_fun valued x c) X' bi pp h oo); try assumption.
  - constructor; [apply Bi; exact Hu|split; [exact NDi|split; [exact Bi|apply ST; exact Hu]]|].
    intros V. destruct (SW V) as [D1 [D2 D3]]. destruct (sub_idx_facts _ _ _ _ OK _ _ D1) as [ND' [Bd _]].
    split; [exact ND'|]. split; [exact Bd|]. split; [apply D3; exact Hu|]. unfold C. rewrite V, D2. reflexivity.
  - intros q Hq _. apply MI. exact Hq.
  - intros i q _ Q. apply XX. exact Q.
Qed.

(** ** Transposed convolution *)

Lemma inside_pixel a be m i : a < n -> fit be -> fit m ->
  let m1 := padded be m be in
  inb m1 i ->
  inside be m (pixel (sym a) m1 i) = inside be m i /\
  (inside be m i = true -> vzip Nat.sub (pixel (sym a) m1 i) be = pixel (sym a) m (vzip Nat.sub i be)).
Proof.
  intros Ha Fb Fm m1 I. pose proof Fb as [_ Lb]. pose proof Fm as [_ Lm]. pose proof (sym_ok G d E eq OK a Ha) as SY.
  pose proof SY as [LE SU].
  assert (Fm1 : fit m1) by (apply fit_padded; assumption). pose proof Fm1 as [_ Lm1].
  assert (Li : List.length i = d) by (rewrite (inb_length _ _ I); exact Lm1).
  assert (LP : List.length (pixel (sym a) m1 i) = d) by (rewrite length_pixel; exact LE).
  assert (NM1 : forall b, b < d -> nth b m1 0 = nth b be 0 + nth b m 0 + nth b be 0) by (intros b Hb; apply (nth_padded _ _ _ d); assumption).
  assert (ST : forall b, b < d -> nth b (pixel (sym a) m1 i) 0 = let '(b', r) := nth b (sym a) (0, false) in
                if (r : bool) then nth b m1 0 - 1 - nth b' i 0 else nth b' i 0).
  { intros b Hb. apply nth_pixel. lia. }
  assert (SB : forall b, b < d -> let b' := fst (nth b (sym a) (0, false)) in
      b' < d /\ nth b' be 0 = nth b be 0 /\ nth b' m 0 = nth b m 0 /\ nth b' i 0 < nth b m1 0).
  { intros b Hb b'. pose proof (is_symmetry_nth _ _ _ SY Hb) as B'. split; [exact B'|].
    split; [apply (fits_same G d E eq OK); try assumption; apply Fb|]. split; [apply (fits_same G d E eq OK); try assumption; apply Fm|].
    rewrite <- (fits_same G d E eq OK a m1 b (proj1 Fm1) Lm1 Ha Hb). apply inb_nth; [exact I|rewrite Lm1; exact B']. }
  assert (EQ : inside be m (pixel (sym a) m1 i) = true <-> inside be m i = true).
  { rewrite !(inside_spec _ _ _ d) by assumption. split.
    - intros IN b' B'. destruct SY as [_ SU']. apply SU' in B'. apply in_map_iff in B' as [[b'' r] [Q IN']]. cbn [fst] in Q. subst b''.
      apply (In_nth _ _ (0, false)) in IN' as [b [Hb Q]]. rewrite LE in Hb.
      specialize (IN b Hb). rewrite ST, Q in IN by exact Hb. pose proof (SB b Hb) as SBb. rewrite Q in SBb. cbn [fst] in SBb. cbv zeta in SBb.
      rewrite (NM1 b Hb) in *. destruct r; lia.
    - intros IN b Hb. rewrite ST by exact Hb. pose proof (SB b Hb) as SBb. destruct (nth b (sym a) (0, false)) as [b' r]. cbn [fst] in SBb. cbv zeta in SBb.
      specialize (IN b' (proj1 SBb)). rewrite (NM1 b Hb) in *. destruct r; lia. }
  split.
  - destruct (inside be m (pixel (sym a) m1 i)), (inside be m i); try reflexivity; [symmetry; apply EQ; reflexivity|apply EQ; reflexivity].
  - intros IN. apply nth_ext0; [rewrite length_vzip, !length_pixel by lia; lia|].
    intros b Hb. rewrite length_vzip in Hb by lia. rewrite LP in Hb. rewrite nth_vzip by lia. rewrite ST by exact Hb. rewrite nth_pixel by lia.
    rewrite (inside_spec _ _ _ d) in IN by assumption. pose proof (SB b Hb) as SBb.
    destruct (nth b (sym a) (0, false)) as [b' r]. cbn [fst] in SBb. cbv zeta in SBb. destruct SBb as [B' [Q1 [Q2 Q3]]].
    rewrite nth_vzip by lia. specialize (IN b' B'). rewrite (NM1 b Hb) in *. destruct r; lia.
Qed.

Lemma bordered_moved a be m (X X' : nat -> list nat -> nat -> A) bi q q' i :
  a < n -> fit be -> fit m -> inb (padded be m be) i ->
  (forall i, inb m i -> X' bi i q = X bi (pixel (sym a) m i) q') ->
  bordered be m X' bi i q = bordered be m X bi (pixel (sym a) (padded be m be) i) q'.
Proof.
  intros Ha Fb Fm I XX. destruct (inside_pixel a be m i Ha Fb Fm I) as [Q1 Q2]. unfold bordered. rewrite Q1.
  destruct (inside be m i) eqn:IN; [|reflexivity]. rewrite Q2 by reflexivity. apply XX.
  pose proof Fb as [_ Lb]. pose proof Fm as [_ Lm]. assert (Li : List.length i = d).
  { rewrite (inb_length _ _ I). apply length_padded; assumption. }
  apply inb_intro; [rewrite length_vzip; lia|]. intros b Hb. rewrite nth_vzip by lia.
  rewrite (inside_spec _ _ _ d) in IN by assumption. specialize (IN b ltac:(lia)). lia.
Qed.

(** When a transposed layer is equivariant: per axis the kernel is at least as
    large as the stride; with 'same' padding the difference is even, and no
    asymmetric extra padding is needed. *)
Definition transpose_ok (plain same : bool) (m k s : list nat) : Prop :=
  forall a, a < d -> 0 < nth a m 0 /\ nth a s 0 <= nth a k 0 /\
    (same = true -> Nat.Even (nth a k 0 - nth a s 0) /\ (plain = true \/ Nat.Even (same_total (nth a m 0) (nth a k 0) (nth a s 0)))).

Lemma transpose_regular plain allow same m k s eb ea :
  widths_ok plain allow same true d m k s eb ea -> transpose_ok plain same m k s ->
  List.length m = d -> List.length k = d -> List.length s = d ->
  (forall a, a < d -> 0 < nth a k 0) -> (forall a, a < d -> 0 < nth a s 0) ->
  let m1 := padded eb m ea in
  eb = ea /\ forall a, a < d ->
  mirrored (touts (padding_string same) m1 k s) k m1 s (repeat 1 d) (vzip (transpose_before (padding_string same)) k s) a.
Proof.
  intros [LB [LA W]] TO Lm Lk Ls Pk Ps m1. split.
  - destruct W as [[_ [-> ->]]|[_ W]]; [reflexivity|]. apply nth_ext0; [congruence|]. intros a Ha. rewrite LB in Ha.
    specialize (W a Ha). cbv zeta in W. destruct W as [_ [AD [E1 [E2 E0]]]]. destruct (TO a Ha) as [_ [SK SA]].
    set (e := nth a eb 0 + nth a ea 0) in *.
    assert (EV : Nat.Even e).
    { destruct plain; [rewrite (E0 eq_refl); exists 0; reflexivity|]. destruct AD as [_ EV]. destruct same.
      - destruct (SA eq_refl) as [_ [F|[z Z]]]; [discriminate|]. destruct EV as [w EV]. exists (w - z). lia.
      - replace (nth a s 0 - nth a k 0) with 0 in EV by lia. exact EV. }
    destruct EV as [z Z]. rewrite Z in E1, E2. replace (2 * z / 2) with z in E1, E2 by (rewrite Nat.mul_comm, Nat.div_mul; lia). lia.
  - intros a Ha. assert (Lm1 : List.length m1 = d) by (apply length_padded; assumption).
    unfold mirrored. rewrite (nth_touts _ _ _ _ d) by assumption. rewrite nth_repeat1 by exact Ha. rewrite nth_vzip by lia.
    destruct (TO a Ha) as [MP [SK SA]]. specialize (Pk a Ha). specialize (Ps a Ha).
    assert (M1 : 0 < nth a m1 0) by (unfold m1; rewrite (nth_padded _ _ _ d) by assumption; lia).
    unfold transpose_size, transpose_before. rewrite padding_string_same. destruct same.
    + destruct (SA eq_refl) as [[z Z] _]. rewrite Z. replace (2 * z / 2) with z by (rewrite Nat.mul_comm, Nat.div_mul; lia). nia.
    + nia.
Qed.

Lemma transpose_equivariance_of name (a : conv_args A) L0 valued bs m g c kinit binit L p k s dl H U idx x b gx :
  add_commutes A ->
  known name G -> given (ca_group a) G ->
  ca_data_format a = "channels_last" -> conv_init d true a = Ok L0 -> List.length m = d ->
  conv_build L0 (build_shape valued bs m g c) kinit binit = Ok L ->
  padding_name a = Some p -> standardize_tuple d (ca_kernel_size a) = Ok k ->
  standardize_tuple d (strides_of a) = Ok s -> (eq = true -> all_equal s) ->
  standardize_tuple d (dilation_of a) = Ok dl -> dl = repeat 1 d ->
  transpose_ok (is_plain (upper p)) (is_same (upper p)) m k s ->
  ca_subgroup a = Some H -> (valued = true -> U = H) -> sub_idx G (Some U) idx ->
  wf x -> shape x = input_shape valued b m g c ->
  action G x (map Z.of_nat (seq 1 d)) 0 (if valued then Some (Z.of_nat (d + 1)) else None) (Some U) (if valued then Some H else None) = Ok gx ->
  exists y, conv_apply L x = (L, Ok y) /\
  wf y /\ (exists m', List.length m' = d /\ shape y = b :: m' ++ [n; ca_filters a]) /\
  shape gx = List.length idx :: shape x /\
  exists gy, action G y (map Z.of_nat (seq 1 d)) 0 (Some (Z.of_nat (d + 1))) (Some U) (Some "") = Ok gy /\
    shape gy = List.length idx :: shape y /\
    forall u, u < List.length idx -> conv_apply L (slice 0 u gx) = (L, Ok (slice 0 u gy)).
Proof.
  intros ADD DG AG AF I Lm B PN SK SS US SD DL TO HS HU HI W SH R.
  destruct (conv_build_inv_of G d E eq OK name true a L0 valued bs m g c kinit binit L DG AG AF I Lm B)
    as [p' [k' [s' [dl' [eb [ea [act [dom [PN' [SK' [SS' [SD' [WO [SA [SDm [CF [CC _]]]]]]]]]]]]]]]]].
  rewrite PN in PN'. injection PN' as <-. rewrite SK in SK'. injection SK' as <-.
  rewrite SS in SS'. injection SS' as <-. rewrite SD in SD'. injection SD' as <-. subst dl. rewrite HS in SDm.
  pose proof (sub_idx_whole _ _ _ _ OK) as WH. assert (act = seq 0 n) as -> by (unfold sub_idx in *; congruence).
  destruct (sub_idx_facts _ _ _ _ OK _ _ HI) as [NDi [Bi [Hi _]]].
  set (C := if valued then g * c else c) in *. set (same := is_same (upper p)) in *.
  assert (ST : forall u, In u idx -> stable G u (seq 0 n)) by (intros u Uu; apply (stable_whole G d E eq OK); apply Bi; exact Uu).
  assert (SW : valued = true -> sub_idx G (Some H) dom /\ g = List.length dom /\ forall u, In u idx -> stable G u dom).
  { intros V. destruct (SDm V) as [D1 D2]. split; [exact D1|]. split; [exact D2|]. intros u Uu.
    specialize (HU V). rewrite HU in HI. assert (idx = dom) as -> by (unfold sub_idx in *; congruence).
    apply (stable_of G d E eq OK (Some H)); assumption. }
  destruct (moved_input valued x gx b m g c idx dom (Some U) (Some H) HI SW W Lm SH R) as [Fm [SG MV]].
  rewrite (conv_apply_call _ _ _ _ _ _ _ _ _ _ _ _ _ _ _ _ _ _ x b m g CF CC Lm SH).
  rewrite (conv_transpose_call_eq G d E eq OK valued (seq 0 n) dom c C (ca_filters a) k s (repeat 1 d) eb ea same (ca_use_bias a) (ca_activation a) kinit binit L x b m
             (merged_fun valued x c) CF Lm) by (apply merged_input; assumption).
  pose proof (cf_k _ _ _ _ _ _ _ _ _ _ _ _ _ _ _ _ _ _ _ _ _ _ CF) as Lk. pose proof (cf_s _ _ _ _ _ _ _ _ _ _ _ _ _ _ _ _ _ _ _ _ _ _ CF) as Ls.
  pose proof (cf_kpos _ _ _ _ _ _ _ _ _ _ _ _ _ _ _ _ _ _ _ _ _ _ CF) as Pk. pose proof (cf_spos _ _ _ _ _ _ _ _ _ _ _ _ _ _ _ _ _ _ _ _ _ _ CF) as Ps.
  assert (Fk : fit k) by (split; [apply (cf_fit _ _ _ _ _ _ _ _ _ _ _ _ _ _ _ _ _ _ _ _ _ _ CF)|exact Lk]).
  assert (Fs : fit s) by (split; [exact US|exact Ls]).
  destruct (fit_widths _ _ _ _ _ _ _ _ _ WO Fm Fk Fs) as [Feb Fea].
  rewrite undilate by assumption.
  destruct (transpose_regular _ _ _ m k s eb ea WO TO Lm Lk Ls Pk Ps) as [EE MI]. fold same in MI.
  set (m1 := padded eb m ea) in *.
  assert (Fm1 : fit m1) by (apply fit_padded; assumption).
  set (before := vzip (transpose_before (padding_string same)) k s) in *.
  assert (Fb : fit before) by (apply fit_vzip; assumption).
  assert (FM : fit (touts (padding_string same) m1 k s)) by (apply fit_touts; assumption).
  set (M := touts (padding_string same) m1 k s) in *. pose proof FM as [_ LM].
  eexists. split; [reflexivity|]. split; [apply wf_tab|].
  rewrite seq_length. split; [exists M; split; [exact LM|apply shape_tab]|]. split; [exact SG|].
  match goal with |- context[sig4 d ?y] => set (Y := y) end.
  destruct (group_slices_ok G d E eq OK b M n (ca_filters a) Y (Some U) (Some "") idx (seq 0 n) HI WH (eq_sym (seq_length _ _)) FM ST) as [gy [GY [SGY SL]]].
  exists gy. split; [exact GY|]. split; [rewrite shape_tab; exact SGY|]. intros u Uu. rewrite (SL u Uu).
  destruct (MV u Uu) as [X' [MG [WX [SX XX]]]].
  rewrite (conv_apply_call _ _ _ _ _ _ _ _ _ _ _ _ _ _ _ _ _ _ (slice 0 u gx) b m g CF CC Lm) by congruence.
  rewrite (conv_transpose_call_eq G d E eq OK valued (seq 0 n) dom c C (ca_filters a) k s (repeat 1 d) eb ea same (ca_use_bias a) (ca_activation a) kinit binit L (slice 0 u gx) b m
             X' CF Lm MG).
  rewrite undilate by assumption. rewrite seq_length. f_equal. f_equal.
  apply sig4_ext; [exact LM|]. intros bi pp h oo BI P Hh O. unfold moved4, Y.
  set (u' := nth u idx 0) in *. assert (Hu : In u' idx) by (apply nth_In; exact Uu).
  apply (transpose_out_moved G d E eq OK valued (seq 0 n) dom c C (ca_filters a) k s (repeat 1 d) (ca_use_bias a) (ca_activation a) binit
           (tab (k ++ [ca_filters a; C]) kinit) ADD u' m1 M before (bordered eb m (merged_fun valued x c)) (bordered eb m X') bi pp h oo); try assumption.
  - constructor; [apply Bi; exact Hu| |].
    + split; [apply seq_NoDup|]. split; [intros z Z; apply in_seq in Z; lia|apply ST; exact Hu].
    + intros V. destruct (SW V) as [D1 [D2 D3]]. destruct (sub_idx_facts _ _ _ _ OK _ _ D1) as [ND' [Bd _]].
      split; [exact ND'|]. split; [exact Bd|]. split; [apply D3; exact Hu|]. unfold C. rewrite V, D2. reflexivity.
  - apply fit_ones.
  - intros q Hq _. apply MI. exact Hq.
  - intros i q IM Q. unfold m1 in *. rewrite <- EE in *. apply bordered_moved; try assumption; [apply Bi; exact Hu|].
    intros i' _. apply XX. exact Q.
  - rewrite seq_length. exact Hh.
Qed.

Definition conv_equivariance name (a : conv_args A) L0 valued bs m g c kinit binit L p k s dl H idx m' x b gx L1 y
  (ADD : add_commutes A) (DG : dict_get group_dict name = Ok G) (AG : ca_group a = ByName name \/ ca_group a = Object G) :=
  conv_equivariance_of name a L0 valued bs m g c kinit binit L p k s dl H idx m' x b gx L1 y ADD (lib_known _ _ DG) (lib_given _ _ _ DG AG).
Definition transpose_equivariance name (a : conv_args A) L0 valued bs m g c kinit binit L p k s dl H U idx x b gx
  (ADD : add_commutes A) (DG : dict_get group_dict name = Ok G) (AG : ca_group a = ByName name \/ ca_group a = Object G) :=
  transpose_equivariance_of name a L0 valued bs m g c kinit binit L p k s dl H U idx x b gx ADD (lib_known _ _ DG) (lib_given _ _ _ DG AG).
End Conv.
