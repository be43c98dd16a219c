(** The output of a group convolution, slice by slice, and the transformed kernel
    in terms of the action on the kernel itself. *)
From Verif Require Export ConvTheorems EquivSpec.
Local Open Scope string_scope.
Local Open Scope list_scope.

Section Regroup.
Context {A : Type} {RA : Arith A}.

Lemma ravel_regroup s1 g c s2 i1 q i2 : List.length i1 = List.length s1 -> c <> 0 ->
  ravel (s1 ++ (g * c) :: s2) (i1 ++ q :: i2) = ravel (s1 ++ g :: c :: s2) (i1 ++ q / c :: q mod c :: i2).
Proof.
  intros L C. rewrite !ravel_app by exact L. cbn [ravel]. rewrite !prod_cons.
  pose proof (Nat.div_mod q c C) as D. set (u := q / c) in *. set (v := q mod c) in *. clearbody u v. subst q. nia.
Qed.

Lemma at_regroup s1 g c s2 (x : tensor A) i1 q i2 : shape x = s1 ++ g :: c :: s2 -> List.length i1 = List.length s1 -> c <> 0 ->
  at_ (read_as (s1 ++ (g * c) :: s2) x) (i1 ++ q :: i2) = at_ x (i1 ++ q / c :: q mod c :: i2).
Proof. intros S L C. unfold at_, read_as. cbn [shape data]. rewrite S, ravel_regroup by assumption. reflexivity. Qed.

Lemma wf_read_as s (x : tensor A) : wf x -> prod s = prod (shape x) -> wf (read_as s x).
Proof. unfold wf, read_as. cbn [shape data]. intros. congruence. Qed.

Lemma prod_regroup s1 g c s2 : prod (s1 ++ (g * c) :: s2) = prod (s1 ++ g :: c :: s2).
Proof. rewrite !prod_app, !prod_cons. nia. Qed.

(** Merging the group axis into the channels is reading with the merged shape. *)
Lemma merged_is_reading d b m g c (x : tensor A) : wf x -> List.length m = d -> shape x = b :: m ++ [g; c] ->
  tab (b :: m ++ [g * c]) (sig3 d (fun bi p q => fun4 x bi p (q / c) (q mod c))) = read_as (b :: m ++ [g * c]) x.
Proof.
  intros W L S. apply tensor_ext; [apply wf_tab| |reflexivity|].
  - apply wf_read_as; [exact W|]. rewrite S. apply (prod_regroup (b :: m) g c []).
  - intros i I. rewrite shape_tab in I. rewrite at_tab by exact I. apply inb3_inv in I as [bi [p [q [-> [B [P Q]]]]]].
    pose proof (inb_length _ _ P) as LP. rewrite sig3_ix by lia. unfold fun4.
    symmetry. apply (at_regroup (b :: m) g c [] x (bi :: p) q []); [exact S|cbn [List.length]; lia|]. intros ->. lia.
Qed.
End Regroup.

Section G.
Context {A : Type} {RA : Arith A}.
Context (G : group) (d : nat) (E : list symmetry) (eq : bool) (OK : group_ok G d E eq).
Notation n := (List.length E).

Notation kernel_transforms := (EquivSpec.kernel_transforms G d).
Notation kernel_slice := (EquivSpec.kernel_slice d).
Notation visible := (EquivSpec.visible G).

Lemma kernel_slices valued (act dom : list nat) Ha Hd c C o k g (K : tensor A) :
  sub_idx G Ha act -> (valued = true -> sub_idx G Hd dom /\ g = List.length dom) ->
  C = (if valued then g * c else c) -> List.length k = d -> kernel_fits eq k ->
  List.length (data K) = prod (k ++ [C; o]) ->
  exists KT, kernel_transforms valued Ha Hd (kernel_signal valued k g c o K) = Ok KT /\
    wf KT /\ shape KT = k ++ List.length act :: (if valued then [g; c; o] else [c; o]) /\
    forall h, h < List.length act -> wf (kernel_slice k C o KT h) /\
    forall j q r, inb k j -> q < C -> r < o ->
      at_ (kernel_slice k C o KT h) (j ++ [q; r])
      = match kernel_src G E valued dom act c o k j q (h * o + r) with
        | Some (j', q', r') => nth (ravel (k ++ [C; o]) (j' ++ [q'; r'])) (data K) zero
        | None => zero
        end.
Proof.
  intros SA SD CC L KF LD. destruct (sub_idx_facts _ _ _ _ OK _ _ SA) as [_ [Ba _]].
  assert (HO : forall h r, r < o -> (h * o + r) / o = h /\ (h * o + r) mod o = r).
  { intros h r R. split; [rewrite Nat.div_add_l by lia; rewrite Nat.div_small by exact R; lia|].
    rewrite Nat.add_comm, Nat.mod_add by lia. apply Nat.mod_small. exact R. }
  assert (SYM : forall h, h < List.length act -> List.length (nth (nth h act 0) E []) = d /\ is_symmetry d (nth (nth h act 0) E []) /\ fits (nth (nth h act 0) E []) k).
  { intros h Hh. assert (Hn : nth h act 0 < n) by (apply Ba, nth_In; exact Hh).
    pose proof (ok_sym _ _ _ _ OK _ Hn) as Y. split; [apply Y|]. split; [exact Y|]. apply (fits_of G d E eq OK); assumption. }
  set (rest := if valued then [g; c; o] else [c; o]).
  set (Ks := kernel_signal valued k g c o K).
  assert (SK : shape Ks = k ++ rest) by reflexivity.
  assert (WK : wf Ks).
  { unfold wf. rewrite SK. change (data Ks) with (data K). rewrite LD, CC. unfold rest. destruct valued; [apply prod_regroup|reflexivity]. }
  assert (LS : d <= List.length (k ++ rest)) by (rewrite app_length; lia).
  assert (LR : d < List.length (k ++ rest)) by (rewrite app_length; unfold rest; destruct valued; cbn [List.length]; lia).
  assert (AC : accepts eq (seq 0 d) (k ++ rest)) by (apply kernel_accepts; assumption).
  assert (SP : spatial_axes_ok d (seq 0 d) (List.length (k ++ rest))) by (apply spatial_block; lia).
  assert (IS : forall v, insert_at d v (k ++ rest) = k ++ v :: rest) by (intros v; rewrite <- L; apply insert_at_app_r).
  assert (PX : forall h j i2, h < List.length act -> inb k j ->
     pixel_at (nth (nth h act 0) E []) (seq 0 d) (k ++ rest) (j ++ i2) = pixel (nth (nth h act 0) E []) k j ++ i2).
  { intros h j i2 Hh J. destruct (SYM h Hh) as [LE _]. pose proof (inb_length _ _ J). rewrite <- L at 1.
    apply (pixel_at_block _ [] k rest [] j i2); [reflexivity|lia|lia]. }
  assert (PI : forall h j, h < List.length act -> inb k j -> inb k (pixel (nth (nth h act 0) E []) k j)).
  { intros h j Hh J. destruct (SYM h Hh) as [_ [Y F]]. apply (pixel_inb d); assumption. }
  unfold EquivSpec.kernel_transforms. fold Ks. rewrite <- (tab_at Ks WK), SK.
  destruct valued.
  - destruct (SD eq_refl) as [SD' GD].
    rewrite (action_group _ _ _ _ OK _ _ (seq 0 d) d d Ha Hd act dom); try assumption.
    2:{ intros I. apply in_seq in I. lia. }
    2:{ rewrite app_nth2 by lia. rewrite L, Nat.sub_diag. exact GD. }
    eexists. split; [reflexivity|]. split; [apply wf_stk|]. split; [rewrite shape_stk; apply IS|].
    intros h Hh. unfold EquivSpec.kernel_slice. rewrite slice_stk by assumption. split.
    { apply wf_read_as; [apply wf_tab|]. rewrite shape_tab, CC. apply prod_regroup. }
    intros j q r J Q R. pose proof (inb_length _ _ J) as LJ. assert (C0 : c <> 0) by (intros ->; rewrite CC in Q; lia).
    assert (QD : q / c < g) by (apply Nat.div_lt_upper_bound; [exact C0|]; rewrite CC in Q; lia).
    assert (QM : q mod c < c) by (apply Nat.mod_upper_bound; exact C0).
    rewrite CC at 1. rewrite (at_regroup k g c [o]); [|reflexivity|exact LJ|exact C0].
    rewrite at_tab.
    2:{ apply inb_app; [exact J|]. unfold rest. repeat (apply inb_cons; split; [assumption|]). apply inb_nil. }
    destruct (HO h r R) as [H1 H2]. unfold kernel_src. rewrite H1, H2. rewrite PX by assumption.
    rewrite app_nth2 by lia. rewrite LJ, L, Nat.sub_diag. cbn [nth chan_from]. unfold dom_at, seen_from.
    set (p := comp G (inv G (nth h act 0)) (nth (q / c) dom 0)). destruct (mem p dom) eqn:M; cbn [option_map]; [|reflexivity].
    pose proof (inb_length _ _ (PI h j Hh J)) as LP. rewrite L in LP.
    replace (upd d (index_of p dom) (pixel (nth (nth h act 0) E []) k j ++ [q / c; q mod c; r]))
      with (pixel (nth (nth h act 0) E []) k j ++ [index_of p dom; q mod c; r]) by (rewrite <- LP; symmetry; apply upd_app).
    unfold at_. rewrite SK. change (data Ks) with (data K). f_equal. rewrite CC.
    rewrite (ravel_regroup k g c [o]) by (rewrite ?(inb_length _ _ (PI h j Hh J)); trivial).
    rewrite Nat.div_add_l by exact C0. rewrite (Nat.div_small _ _ QM), Nat.add_0_r.
    rewrite (Nat.add_comm (index_of p dom * c)), Nat.mod_add by exact C0. rewrite Nat.mod_mod by exact C0. reflexivity.
  - rewrite (action_grid _ _ _ _ OK _ _ _ _ _ _ act); try assumption.
    eexists. split; [reflexivity|]. split; [apply wf_stk|]. split; [rewrite shape_stk; apply IS|].
    intros h Hh. unfold EquivSpec.kernel_slice. rewrite slice_stk by assumption. rewrite CC. unfold rest. split; [apply wf_tab|].
    intros j q r J Q R. unfold rest in PX.
    match goal with |- at_ ?t _ = _ => change t with (tab (k ++ [c; o]) (fun i : list nat => at_ Ks (pixel_at (nth (nth h act 0) E []) (seq 0 d) (k ++ [c; o]) i))) end.
    rewrite at_tab by (apply inbk; assumption). destruct (HO h r R) as [H1 H2]. unfold kernel_src. rewrite H1, H2.
    rewrite (PX h j [q; r] Hh J). reflexivity.
Qed.

(** ** Reading the transformed kernel *)

Lemma seen_whole c a q : a < n -> c <> 0 -> q < n * c -> exists q', seen_from G (seq 0 n) c a q = Some q'.
Proof.
  intros Ha C0 Q. assert (QD : q / c < n) by (apply Nat.div_lt_upper_bound; lia).
  unfold seen_from. rewrite nth_seq0 by exact QD.
  pose proof (sub_idx_whole _ _ _ _ OK) as WH. destruct (sub_idx_facts _ _ _ _ OK _ _ WH) as [_ [_ [_ [_ CL]]]].
  assert (I : In (comp G (inv G a) (q / c)) (seq 0 n)) by (apply CL; apply in_seq; lia).
  apply mem_In in I. rewrite I. eauto.
Qed.

Lemma kernel_src_visible valued dom act c o k j q h r : r < o ->
  kernel_src G E valued dom act c o k j q (h * o + r) = None <-> visible valued dom c (nth h act 0) q = false.
Proof.
  intros R. unfold kernel_src, EquivSpec.visible.
  assert (H1 : (h * o + r) / o = h) by (rewrite Nat.div_add_l by lia; rewrite Nat.div_small by exact R; lia). rewrite H1.
  unfold chan_from, seen_from. destruct valued; cbn [negb orb].
  - destruct (mem _ dom); cbn [option_map]; split; intros; congruence.
  - cbn [option_map]. split; intros; discriminate.
Qed.

Lemma visible_whole valued c a q : a < n -> c <> 0 -> q < n * c -> visible valued (seq 0 n) c a q = true.
Proof.
  intros Ha C0 Q. unfold EquivSpec.visible. destruct valued; [|reflexivity]. cbn [negb orb].
  destruct (seen_whole c a q Ha C0 Q) as [q' S]. unfold seen_from in S. destruct (mem _ _); [reflexivity|discriminate S].
Qed.

(** The entries of the kernel used at element [h] are those of the kernel
    transformed by [h]; where that kernel has no value, the first entry is used. *)
Lemma kval_slices valued (act dom : list nat) Ha Hd c C o k g (K : tensor A) :
  sub_idx G Ha act -> (valued = true -> sub_idx G Hd dom /\ g = List.length dom) ->
  C = (if valued then g * c else c) -> List.length k = d -> kernel_fits eq k ->
  List.length (data K) = prod (k ++ [C; o]) ->
  exists KT, kernel_transforms valued Ha Hd (kernel_signal valued k g c o K) = Ok KT /\
    wf KT /\ shape KT = k ++ List.length act :: (if valued then [g; c; o] else [c; o]) /\
    forall h, h < List.length act -> wf (kernel_slice k C o KT h) /\
    forall j q r, inb k j -> q < C -> r < o ->
      kval G E valued dom act c o k C K j q (h * o + r)
      = if visible valued dom c (nth h act 0) q then at_ (kernel_slice k C o KT h) (j ++ [q; r]) else nth 0 (data K) zero.
Proof.
  intros SA SD CC L KF LD.
  destruct (kernel_slices valued act dom Ha Hd c C o k g K SA SD CC L KF LD) as [KT [R [W [S P]]]].
  exists KT. split; [exact R|]. split; [exact W|]. split; [exact S|]. intros h Hh. destruct (P h Hh) as [W1 P1].
  split; [exact W1|]. intros j q r J Q Rr. unfold kval, kidx. rewrite (P1 j q r J Q Rr).
  pose proof (kernel_src_visible valued dom act c o k j q h r Rr) as V.
  destruct (kernel_src G E valued dom act c o k j q (h * o + r)) as [[[j' q'] r']|].
  - destruct (visible _ _ _ _ _); [reflexivity|]. destruct V as [_ V]. specialize (V eq_refl). discriminate V.
  - destruct V as [V _]. rewrite (V eq_refl). reflexivity.
Qed.

(** The first of the transformed kernels is the kernel itself. *)
Lemma from_identity x : x < n -> comp G (inv G 0) x = x.
Proof.
  intros X. pose proof (ok_is_group _ _ _ _ OK) as IG. pose proof (ok_pos _ _ _ _ OK) as P.
  assert (I0 : inv G 0 = 0).
  { rewrite <- (group_id_r _ _ _ IG (inv G 0)) by (apply (group_inv_closed _ _ _ IG); exact P). apply (group_inv_l _ _ _ IG). exact P. }
  rewrite I0. apply (group_id_l _ _ _ IG). exact X.
Qed.

Lemma first_slice valued (act dom : list nat) Ha Hd c C o k g (K KT : tensor A) :
  sub_idx G Ha act -> (valued = true -> sub_idx G Hd dom /\ g = List.length dom) ->
  C = (if valued then g * c else c) -> List.length k = d -> kernel_fits eq k ->
  List.length (data K) = prod (k ++ [C; o]) ->
  kernel_transforms valued Ha Hd (kernel_signal valued k g c o K) = Ok KT ->
  kernel_slice k C o KT 0 = read_as (k ++ [C; o]) K.
Proof.
  intros SA SD CC L KF LD RK. destruct (sub_idx_facts _ _ _ _ OK _ _ SA) as [_ [Ba [HA _]]].
  destruct (kernel_slices valued act dom Ha Hd c C o k g K SA SD CC L KF LD) as [KT' [RK' [_ [_ P]]]].
  assert (KT' = KT) as -> by congruence.
  assert (A0 : nth 0 act 0 = 0) by (destruct act; [discriminate HA|injection HA as ->; reflexivity]).
  destruct (P 0) as [W0 P0]; [destruct act; [discriminate HA|cbn [List.length]; lia]|].
  apply tensor_ext; [exact W0|exact LD|reflexivity|]. intros i I.
  change (inb (k ++ [C; o]) i) in I. apply inbk_inv in I as [j [q [r [-> [J [Q R]]]]]].
  rewrite (P0 j q r J Q R). unfold kernel_src.
  assert (R1 : (0 * o + r) / o = 0) by (rewrite Nat.mul_0_l; apply Nat.div_small; exact R).
  assert (R2 : (0 * o + r) mod o = r) by (rewrite Nat.mul_0_l; apply Nat.mod_small; exact R).
  rewrite R1, R2, A0, (ok_id _ _ _ _ OK). rewrite pixel_identity by (rewrite (inb_length _ _ J); exact L).
  assert (CF : chan_from G valued dom c 0 q = Some q).
  { unfold chan_from. destruct valued; [|reflexivity]. destruct (SD eq_refl) as [SD' GD].
    destruct (sub_idx_facts _ _ _ _ OK _ _ SD') as [ND [Bd _]].
    assert (C0 : c <> 0) by (intros ->; rewrite CC in Q; lia).
    assert (QD : q / c < List.length dom) by (apply Nat.div_lt_upper_bound; [exact C0|]; rewrite CC, GD in Q; lia).
    unfold seen_from. rewrite from_identity by (apply Bd, nth_In; exact QD).
    assert (M : mem (nth (q / c) dom 0) dom = true) by (apply mem_In, nth_In; exact QD). rewrite M.
    rewrite index_of_nth by assumption. f_equal. rewrite (Nat.mul_comm (q / c)). symmetry. apply Nat.div_mod. exact C0. }
  rewrite CF. reflexivity.
Qed.

(** ** The slices of the output *)

Lemma slice_sig4 b m g c (F : nat -> list nat -> nat -> nat -> A) h : List.length m = d -> h < g ->
  slice (d + 1) h (tab (b :: m ++ [g; c]) (sig4 d F)) = tab (b :: m ++ [c]) (sig3 d (fun bi p r => F bi p h r)).
Proof.
  intros L Hh. replace (d + 1) with (S d) by lia. rewrite (insert_group b m g c d L).
  rewrite tab_stk by (cbn [List.length]; rewrite app_length; cbn; lia).
  rewrite slice_stk; [|cbn [List.length]; rewrite app_length; cbn; lia|exact Hh].
  apply tab_ext. intros i I. apply inb3_inv in I as [bi [p [q [-> [B [P Q]]]]]]. pose proof (inb_length _ _ P) as LP.
  rewrite <- (insert_group bi p h q d) by lia. rewrite sig4_ix, sig3_ix by lia. reflexivity.
Qed.

Section Slices.
Context (valued : bool) (act dom : list nat) (c C o : nat) (k s dl eb ea : list nat)
        (same ub : bool) (f : A -> A) (kinit binit : list nat -> A).

Lemma bias_activation1 b m (Y : nat -> list nat -> nat -> A) : List.length m = d ->
  (y <- add_bias "channels_last" o (if ub : bool then Some (tab [o] binit) else None) (tab (b :: m ++ [o]) (sig3 d Y)) ;; Ok (tmap f y))
  = Ok (tab (b :: m ++ [o]) (sig3 d (fun bi p r => f (biased ub binit (Y bi p r) r)))).
Proof.
  intros L. pose proof (bias_activation d b m 1 o ub binit o Y f L (eq_sym (Nat.mul_1_l o))) as H.
  rewrite !Nat.mul_1_l in H.
  assert (TB : tab [o] (fun i : list nat => binit [nth 0 i 0 mod o]) = tab [o] binit).
  { apply tab_ext. intros i I. apply inb1 in I as [q [-> Q]]. cbn [nth]. rewrite Nat.mod_small by exact Q. reflexivity. }
  rewrite TB in H. rewrite H. f_equal. apply sig3_ext; [exact L|]. intros bi p q B P Q. rewrite Nat.mod_small by exact Q. reflexivity.
Qed.

Notation merged_signal := (EquivSpec.merged_signal valued c).

Lemma merged_signal_eq g (x : tensor A) b m : wf x -> List.length m = d -> shape x = input_shape valued b m g c ->
  merged_signal g x b m = tab (b :: m ++ [if valued then g * c else c]) (sig3 d (merged_fun valued x c)).
Proof.
  intros W L SH. unfold EquivSpec.merged_signal, merged_fun, input_shape in *. destruct valued.
  - symmetry. apply merged_is_reading; assumption.
  - rewrite <- (tensor_sig3 d b m c x W L SH). destruct x as [sx dx]. cbn in SH. subst sx. reflexivity.
Qed.

Lemma conv_slices (L : conv_layer A) (x : tensor A) b m g :
  conv_facts G d E eq false valued act dom c C o k s dl eb ea same ub f kinit binit L ->
  C = (if valued then g * c else c) ->
  List.length m = d -> wf x -> shape x = input_shape valued b m g c ->
  exists xp, padding_call (gt_padding (cl_gt L)) (merged_signal g x b m) = Ok xp /\
  forall h Kh, h < List.length act -> shape Kh = k ++ [C; o] ->
    (forall j q r, inb k j -> q < C -> r < o ->
       at_ Kh (j ++ [q; r]) = kval G E valued dom act c o k C (tab (k ++ [C; o]) kinit) j q (h * o + r)) ->
    base_conv_call false "channels_last" s dl (padding_string same) o f Kh (cl_bias L) xp
    = (y <- snd (conv_call L x) ;; Ok (slice (d + 1) h y)).
Proof.
  intros F CC LM W SH. pose proof (merged_input d valued x b m g c W LM SH) as MG. rewrite <- CC in MG.
  rewrite (conv_call_eq G d E eq OK valued act dom c C o k s dl eb ea same ub f kinit binit L x b m _ F LM MG).
  rewrite (merged_signal_eq g x b m W LM SH), <- CC. set (X := merged_fun valued x c) in *.
  destruct F. rewrite (cf_pads b m C X LM). eexists. split; [reflexivity|]. intros h Kh Hh SK HK.
  set (ke := vzip dilated k dl). set (m1 := padded eb m ea). set (pads := builtin_pads (padding_string same) m1 ke s).
  set (m2 := padded (map fst pads) m1 (map snd pads)). cbv zeta.
  assert (Lm1 : List.length m1 = d) by (apply length_padded; assumption).
  assert (LKE : List.length ke = d) by (unfold ke; rewrite length_vzip; lia).
  assert (LP : List.length pads = d) by (apply length_builtin; assumption).
  assert (Lm2 : List.length m2 = d) by (apply length_padded; rewrite ?map_length; assumption).
  unfold base_conv_call, in_format. cbn [String.eqb Ascii.eqb Bool.eqb].
  rewrite (conv_last_eq d b m1 C o k (bordered eb m X)); try assumption.
  fold ke. fold pads. fold m2.
  destruct (forallb _ (combine ke m2)); cbn [bind snd]; [|reflexivity].
  pose proof (length_outs m2 ke s d Lm2 LKE cf_s) as LO.
  assert (CB : cl_bias L = if ub then Some (tab [o] binit) else None) by exact cf_bias. rewrite CB.
  rewrite bias_activation1 by exact LO. rewrite slice_sig4 by assumption. f_equal.
  apply sig3_ext; [exact LO|]. intros bi p r B P R. f_equal. f_equal. unfold m1.
  rewrite (window_bordered d m s dl eb ea (map fst pads)); try assumption; [|rewrite map_length; exact LP].
  match goal with |- _ = window d ?src ?t k C ?x ?w p (h * o + r) => change (window d src t k C x w p (h * o + r)) with (window d src t k C x (fun j q r => w j q (h * o + r)) p r) end.
  apply window_ext; [exact cf_k|reflexivity|]. intros j q J Q. apply HK; assumption.
Qed.

Lemma transpose_slices (L : conv_layer A) (x : tensor A) b m g :
  conv_facts G d E eq true valued act dom c C o k s dl eb ea same ub f kinit binit L ->
  C = (if valued then g * c else c) ->
  List.length m = d -> wf x -> shape x = input_shape valued b m g c ->
  exists xp y, padding_call (gt_padding (cl_gt L)) (merged_signal g x b m) = Ok xp /\
  conv_call L x = (L, Ok y) /\
  forall h Kh, h < List.length act -> shape Kh = k ++ [o; C] ->
    (forall j q r, inb k j -> q < C -> r < o ->
       at_ Kh (j ++ [r; q]) = kval G E valued dom act c o k C (tab (k ++ [o; C]) kinit) j q (h * o + r)) ->
    base_conv_call true "channels_last" s dl (padding_string same) o f Kh (cl_bias L) xp = Ok (slice (d + 1) h y).
Proof.
  intros F CC LM W SH. pose proof (merged_input d valued x b m g c W LM SH) as MG. rewrite <- CC in MG.
  pose proof (conv_transpose_call_eq G d E eq OK valued act dom c C o k s dl eb ea same ub f kinit binit L x b m _ F LM MG) as CE.
  cbv zeta in CE. rewrite CE. clear CE.
  rewrite (merged_signal_eq g x b m W LM SH), <- CC. set (X := merged_fun valued x c) in *.
  destruct F. rewrite (cf_pads b m C X LM). eexists. eexists. split; [reflexivity|]. split; [reflexivity|]. intros h Kh Hh SK HK.
  set (ke := vzip dilated k dl). set (m1 := padded eb m ea).
  assert (Lm1 : List.length m1 = d) by (apply length_padded; assumption).
  assert (LKE : List.length ke = d) by (unfold ke; rewrite length_vzip; lia).
  unfold base_conv_call, in_format. cbn [String.eqb Ascii.eqb Bool.eqb].
  rewrite (conv_transpose_last_eq d b m1 C o k (bordered eb m X)); try assumption.
  fold ke. cbn [bind].
  pose proof (length_touts (padding_string same) m1 ke s d Lm1 LKE cf_s) as LO.
  assert (CB : cl_bias L = if ub then Some (tab [o] binit) else None) by exact cf_bias. rewrite CB.
  rewrite bias_activation1 by exact LO. rewrite slice_sig4 by assumption. f_equal.
  apply sig3_ext; [exact LO|]. intros bi p r B P R. f_equal. f_equal.
  match goal with |- _ = window d ?src ?t k C ?x ?w p (h * o + r) => change (window d src t k C x w p (h * o + r)) with (window d src t k C x (fun j q r => w j q (h * o + r)) p r) end.
  apply window_ext; [exact cf_k|reflexivity|]. intros j q J Q. apply HK; assumption.
Qed.
End Slices.
End G.

(** ** Built layers *)

Lemma whole_dom G d E eq dom : group_ok G d E eq -> sub_idx G (Some "") dom -> dom = seq 0 (List.length E).
Proof. intros OK S. pose proof (sub_idx_whole _ _ _ _ OK) as W. unfold sub_idx in *. congruence. Qed.

Lemma built_facts_at {A} {RA : Arith A} name G d E eq (a : conv_args A) H opt (tr valued : bool) bs m g c kinit binit L k s dl :
  group_ok G d E eq ->
  layer_for name G a -> ca_subgroup a = Some H -> option_of a opt ->
  let C := if valued then g * c else c in
  built d tr a (static_signal_shape valued bs m g c) kinit binit L -> List.length m = d -> sizes d a k s dl ->
  exists eb ea act dom,
    widths_ok (is_plain opt) (ca_allow a) (is_same opt) tr d m k s eb ea /\
    sub_idx G (if tr then Some "" else Some H) act /\
    (valued = true -> sub_idx G (if tr then Some H else Some "") dom /\ g = List.length dom) /\
    conv_facts G d E eq tr valued act dom c C (ca_filters a) k s dl eb ea (is_same opt)
               (ca_use_bias a) (ca_activation a) kinit binit L /\
    cl_channels L = Some c /\ cl_kernel_size L = k /\
    gt_reshaped (cl_gt L) = Some (bs :: map Some m ++ [Some C]) /\
    padding_of a tr d bs m C (gt_padding (cl_gt L)).
Proof.
  intros OK [DG [AG AF]] HS [p [PN UP]] C [L0 [I B]] Lm [SK [SS SD]].
  destruct (conv_build_inv G d _ _ OK name tr a L0 valued bs m g c kinit binit L DG AG AF I Lm B)
    as [p' [k' [s' [dl' [eb [ea [act [dom [PN' [SK' [SS' [SD' [WO [SA [SDm [CF [CC [KS [RS [P0 [PI PB]]]]]]]]]]]]]]]]]]]]].
  unfold padding_name in PN'. rewrite PN in PN'. injection PN' as <-. rewrite SK in SK'. injection SK' as <-.
  unfold strides_of in SS'. rewrite SS in SS'. injection SS' as <-. unfold dilation_of in SD'. rewrite SD in SD'. injection SD' as <-.
  rewrite HS in SA, SDm. subst opt.
  exists eb, ea, act, dom. split; [exact WO|]. split; [exact SA|]. split; [exact SDm|]. split; [exact CF|]. split; [exact CC|].
  split; [exact KS|]. split; [exact RS|]. exists P0. rewrite PN. split; [exact PI|exact PB].
Qed.

Lemma built_facts {A} {RA : Arith A} name G (a : conv_args A) H opt (tr valued : bool) bs m g c kinit binit L k s dl :
  layer_for name G a -> ca_subgroup a = Some H -> option_of a opt ->
  let d := dimension_of name in
  let C := if valued then g * c else c in
  built d tr a (static_signal_shape valued bs m g c) kinit binit L -> List.length m = d -> sizes d a k s dl ->
  group_ok G d (symmetries_of name) (needs_equal_sizes name) /\
  exists eb ea act dom,
    widths_ok (is_plain opt) (ca_allow a) (is_same opt) tr d m k s eb ea /\
    sub_idx G (if tr then Some "" else Some H) act /\
    (valued = true -> sub_idx G (if tr then Some H else Some "") dom /\ g = List.length dom) /\
    conv_facts G d (symmetries_of name) (needs_equal_sizes name) tr valued act dom c C (ca_filters a) k s dl eb ea (is_same opt)
               (ca_use_bias a) (ca_activation a) kinit binit L /\
    cl_channels L = Some c /\ cl_kernel_size L = k /\
    gt_reshaped (cl_gt L) = Some (bs :: map Some m ++ [Some C]) /\
    padding_of a tr d bs m C (gt_padding (cl_gt L)).
Proof.
  intros LF HS OP d C B Lm SZ. pose proof LF as [DG _]. apply lib_ok in DG as [_ OK]. split; [exact OK|].
  exact (built_facts_at name G d _ _ a H opt tr valued bs m g c kinit binit L k s dl OK LF HS OP B Lm SZ).
Qed.

(** ** Transformed kernels *)

Section Kernels.
Context {A : Type} {RA : Arith A}.
Context (G : group) (d : nat) (E : list symmetry) (eq : bool) (OK : group_ok G d E eq).
Context (tr valued : bool) (act dom : list nat) (Ha Hd : option string) (c C o g : nat) (k s dl eb ea : list nat)
        (same ub : bool) (f : A -> A) (kinit binit : list nat -> A).

Lemma transformed_kernel (L : conv_layer A) (K : tensor A) :
  conv_facts G d E eq tr valued act dom c C o k s dl eb ea same ub f kinit binit L ->
  sub_idx G Ha act -> (valued = true -> sub_idx G Hd dom /\ g = List.length dom) ->
  C = (if valued then g * c else c) ->
  wf K -> shape K = k ++ (if tr then [o; C] else [C; o]) ->
  exists KT K', kernel_transforms G d valued Ha Hd (kernel_signal valued k g c o K) = Ok KT /\
    wf KT /\ shape KT = k ++ List.length act :: (if valued then [g; c; o] else [c; o]) /\
    transform_kernel (cl_gt L) K = Ok K' /\ wf K' /\
    shape K' = k ++ (if tr then [List.length act * o; C] else [C; List.length act * o]) /\
    forall h j q r, h < List.length act -> inb k j -> q < C -> r < o ->
      at_ K' (j ++ (if tr then [h * o + r; q] else [q; h * o + r]))
      = if visible G valued dom c (nth h act 0) q then at_ (kernel_slice d k C o KT h) (j ++ [q; r]) else nth 0 (data K) zero.
Proof.
  intros CF SA SD CC W SH.
  assert (LD : List.length (data K) = prod (k ++ [C; o])) by (unfold wf in W; rewrite W, SH; destruct tr; [apply prod_swap|reflexivity]).
  assert (Ba : forall a, In a act -> a < List.length E) by (apply (sub_idx_facts _ _ _ _ OK _ _ SA)).
  destruct CF.
  destruct (kval_slices G d E eq OK valued act dom Ha Hd c C o k g K SA SD CC cf_k cf_fit LD) as [KT [RK [WK [SK P]]]].
  exists KT. eexists. split; [exact RK|]. split; [exact WK|]. split; [exact SK|].
  rewrite (transform_kernel_eq G d E eq OK (cl_gt L) tr valued dom act c C o k K cf_dom Ba cf_k cf_fit cf_kidx W SH).
  split; [reflexivity|]. split; [destruct tr; apply wf_tab|]. split; [destruct tr; apply shape_tab|].
  intros h j q r Hh J Q R. destruct (P h Hh) as [_ PS]. rewrite <- (PS j q r J Q R).
  assert (HR : h * o + r < List.length act * o) by nia.
  destruct tr; rewrite (at_ker d) by assumption; reflexivity.
Qed.

Lemma hidden_is_zero Ha' Hd' (K KT : tensor A) h j q r :
  sub_idx G Ha' act -> (valued = true -> sub_idx G Hd' dom /\ g = List.length dom) ->
  C = (if valued then g * c else c) -> List.length k = d -> kernel_fits eq k ->
  List.length (data K) = prod (k ++ [C; o]) ->
  kernel_transforms G d valued Ha' Hd' (kernel_signal valued k g c o K) = Ok KT ->
  h < List.length act -> inb k j -> q < C -> r < o -> visible G valued dom c (nth h act 0) q = false ->
  at_ (kernel_slice d k C o KT h) (j ++ [q; r]) = zero.
Proof.
  intros SA SD CC L KF LD RK Hh J Q R V.
  destruct (kernel_slices G d E eq OK valued act dom Ha' Hd' c C o k g K SA SD CC L KF LD) as [KT' [RK' [_ [_ P]]]].
  assert (KT' = KT) as -> by congruence. destruct (P h Hh) as [_ PS]. rewrite (PS j q r J Q R).
  apply (kernel_src_visible G E valued dom act c o k j q h r R) in V. rewrite V. reflexivity.
Qed.
End Kernels.

Lemma whole_visible G d E eq valued act dom Ha c C g h q :
  group_ok G d E eq -> sub_idx G Ha act -> (valued = true -> sub_idx G (Some "") dom /\ g = List.length dom) ->
  C = (if valued then g * c else c) -> h < List.length act -> q < C -> visible G valued dom c (nth h act 0) q = true.
Proof.
  intros OK SA SD CC Hh Q. destruct valued; [|reflexivity]. destruct (SD eq_refl) as [D1 D2].
  rewrite (whole_dom _ _ _ _ _ OK D1). apply (visible_whole G d _ _ OK).
  - apply (sub_idx_facts _ _ _ _ OK _ _ SA), nth_In. exact Hh.
  - intros ->. lia.
  - rewrite CC, D2, (whole_dom _ _ _ _ _ OK D1), seq_length in Q. exact Q.
Qed.

Lemma sub_length G d E eq H act : named G -> group_ok G d E eq -> sub_idx G (Some H) act ->
  List.length act = List.length (symmetries_of (if String.eqb H "" then g_name G else H)).
Proof.
  intros NA OK SA. destruct (sub_idx_dict _ _ _ SA) as [nm [PS D]]. destruct (ok_sub _ _ _ _ OK _ _ D) as [_ [_ [_ [M _]]]].
  rewrite (M NA). cbn [parse_subgroup] in PS. destruct (String.eqb H ""); congruence.
Qed.
