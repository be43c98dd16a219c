(** C104: a turned copy of a pattern, anywhere in any image, gets the same response. *)
From Verif Require Import Properties_Layers Properties_Pooling PoolTheorems Properties_Fields TranslationFacts EquivFacts LinearFacts.
From Verif Require Import EquivSpec.
Local Open Scope string_scope.
Local Open Scope list_scope.

(** What a kernel of size [k] sees at output pixel [p] of sample [bi], as a signal of one sample: the pixels of [x] (of
    spatial sizes [n]) under the entries of the kernel, zero outside of the image.  [before]: zeros in front of
    the image; [rest]: the sizes behind the pixels. *)
Definition patch {A} {ZA : Zero A} (n k s dl before rest : list nat) (x : tensor A) (bi : nat) (p : list nat) : tensor A :=
  let d := List.length k in
  tab (1 :: k ++ rest) (fun i => signal_at n x bi (below d s dl before p (firstn d (tl i))) (skipn (S d) i)).

Section Patches.
Context {A : Type} {RA : Arith A}.

(** A window is the window of a layer without strides on the patch alone. *)
Lemma window_patch d n s dl B k C (valued : bool) (x : tensor A) c bi W p r :
  List.length n = d -> List.length k = d ->
  window d (csrc n s dl B) cterm k C (merged_fun valued x c bi) W p r
  = window d (csrc k (ones d) (ones d) (zeros_of d)) cterm k C
      (fun j q => signal_at n x bi (below d s dl B p j) (rest_of valued c q)) W (zeros_of d) r.
Proof.
  intros Ln Lk. unfold window. f_equal. apply map_ext_in. intros jc I. apply In_indices in I.
  apply inb_app_split in I as [j [t [-> [J I]]]]. apply inb1 in I as [q [-> Q]]. pose proof (inb_length _ _ J) as LJ.
  rewrite firstn_app_exact by lia. rewrite app_nth2 by lia. replace (d - List.length j) with 0 by lia. change (nth 0 [q] 0) with q.
  unfold cterm. f_equal. rewrite (merged_at d) by exact Ln.
  assert (SR : csrc k (ones d) (ones d) (zeros_of d) (zeros_of d) j = Some j).
  { unfold csrc. rewrite Lk. apply wsrc_all; [lia|]. intros ax Hax. unfold conv_src.
    rewrite !nth_zeros, !PoolFacts.nth_ones by exact Hax. pose proof (inb_nth _ _ ax J ltac:(lia)) as JA.
    replace (0 * 1 + nth ax j 0 * 1 - 0) with (nth ax j 0) by lia.
    rewrite (proj2 (Nat.ltb_lt _ _) JA). reflexivity. }
  rewrite SR. reflexivity.
Qed.

Lemma entry3 d n k s dl B c (x : tensor A) bi p : List.length k = d ->
  patch n k s dl B [c] x bi p = tab (1 :: k ++ [c]) (sig3 d (fun _ j q => signal_at n x bi (below d s dl B p j) [q])).
Proof.
  intros L. unfold patch. rewrite L. rewrite (tab_sig3 d) by exact L. apply sig3_ext; [exact L|]. intros b j q _ J _.
  pose proof (inb_length _ _ J) as LJ. cbn [tl]. rewrite firstn_app_exact by lia. rewrite skipn_cons, skipn_app, skipn_all2 by lia.
  replace (d - List.length j) with 0 by lia. reflexivity.
Qed.

Lemma entry4 d n k s dl B g c (x : tensor A) bi p : List.length k = d ->
  patch n k s dl B [g; c] x bi p = tab (1 :: k ++ [g; c]) (sig4 d (fun _ j h q => signal_at n x bi (below d s dl B p j) [h; q])).
Proof.
  intros L. unfold patch. rewrite L. rewrite (tab_sig4 d) by exact L. apply sig4_ext; [exact L|]. intros b j h q _ J _ _.
  pose proof (inb_length _ _ J) as LJ. cbn [tl]. rewrite firstn_app_exact by lia. rewrite skipn_cons, skipn_app, skipn_all2 by lia.
  replace (d - List.length j) with 0 by lia. reflexivity.
Qed.

(** [x] and [x'] are any two images, of any sizes for which the calls succeed.  If what the layer sees at pixel [p'] of
    [x'] is what it sees at pixel [p] of [x], transformed by element number [w] of the subgroup, then its output at [p'] is its output at
    [p], moved along the group axis by that element.  There is no condition on padding, strides or dilation. *)
Theorem C104_turned_patches name G (a : conv_args A) H opt (valued : bool) bs m g c kinit binit L k s dl idx :
  add_commutes A ->
  layer_for name G a -> ca_subgroup a = Some H -> option_of a opt ->
  let d := dimension_of name in
  let turns := if valued then transforms_of_group_signal G d H "" else transforms_of_grid_signal G d H in
  let rest := if valued then [g; c] else [c] in
  built d false a (static_signal_shape valued bs m g c) kinit binit L -> List.length m = d ->
  sizes d a k s dl -> subgroup_indices G H idx ->
  exists border : list nat -> list nat,
  (forall n, List.length n = d -> exists after, border_of (conv_checked a opt) d opt m k s dl n (border n) after) /\
  forall x x' b b' n n' y y', wf x -> wf x' -> List.length n = d -> List.length n' = d ->
  shape x = signal_shape valued b n g c -> shape x' = signal_shape valued b' n' g c ->
  apply L x = Ok y -> apply L x' = Ok y' ->
  forall bi p h bi' p' h' o w gP, inb (shape y) (bi :: p ++ [h; o]) -> inb (shape y') (bi' :: p' ++ [h'; o]) -> w < List.length idx ->
  nth h' idx 0 = comp G (nth w idx 0) (nth h idx 0) ->
  turns (patch n k s dl (border n) rest x bi p) = Ok gP -> slice 0 w gP = patch n' k s dl (border n') rest x' bi' p' ->
  at_ y' (bi' :: p' ++ [h'; o]) = at_ y (bi :: p ++ [h; o]).
Proof.
  intros ADD LF HS OP d turns rest B Lm SZ SI.
  destruct (built_facts name G a H opt false valued bs m g c kinit binit L k s dl LF HS OP B Lm SZ)
    as [OK [eb [ea [act [dom [WO [SA [SD [CF [CC _]]]]]]]]]]. fold d in OK, WO, CF.
  assert (act = idx) as -> by (unfold sub_idx in SA; unfold subgroup_indices in SI; congruence).
  set (E := symmetries_of name) in *. set (eq := needs_equal_sizes name) in *.
  set (o := ca_filters a) in *. set (C := if valued then g * c else c) in *. set (ub := ca_use_bias a) in *.
  assert (Lk : List.length k = d) by (destruct CF; assumption). assert (Ls : List.length s = d) by (destruct CF; assumption).
  assert (Ldl : List.length dl = d) by (destruct CF; assumption). assert (Fk : kernel_fits eq k) by (destruct CF; assumption).
  assert (Ps : forall ax, ax < d -> 0 < nth ax s 0) by (destruct CF; assumption).
  assert (Pk : forall ax, ax < d -> 0 < nth ax k 0) by (destruct CF; assumption).
  exists (fun n => vzip Nat.add eb (map fst (builtin_pads (padding_string (is_same opt)) (padded eb n ea) (vzip dilated k dl) s))).
  split; [intros n Ln; eexists; exact (conv_border d a opt m n k s dl eb ea WO Lk Ls Ldl Ln Ps Pk)|].
  intros x x' b b' n n' y y' W W' Ln Ln' SH SH' CA CA' bi p h bi' p' h' oo w gP I I' Hw HH TP SL.
  set (B1 := vzip Nat.add eb (map fst (builtin_pads (padding_string (is_same opt)) (padded eb n ea) (vzip dilated k dl) s))) in *.
  set (B2 := vzip Nat.add eb (map fst (builtin_pads (padding_string (is_same opt)) (padded eb n' ea) (vzip dilated k dl) s))) in *.
  pose proof (merged_input d valued x b n g c W Ln SH) as MG. change (if valued then g * c else c) with C in MG.
  pose proof (merged_input d valued x' b' n' g c W' Ln' SH') as MG'. change (if valued then g * c else c) with C in MG'.
  rewrite (layer_form G d E eq OK false valued idx dom c C o k s dl eb ea (is_same opt) ub (ca_activation a) kinit binit L x b n g _ CF CC Ln SH MG) in CA.
  rewrite (layer_form G d E eq OK false valued idx dom c C o k s dl eb ea (is_same opt) ub (ca_activation a) kinit binit L x' b' n' g _ CF CC Ln' SH' MG') in CA'.
  assert (LO : List.length (layer_outs false k s dl eb ea (is_same opt) n) = d) by (exact (length_layer_outs G d E eq false valued idx dom c C o k s dl eb ea (is_same opt) ub _ kinit binit L n CF Ln)).
  assert (LO' : List.length (layer_outs false k s dl eb ea (is_same opt) n') = d) by (exact (length_layer_outs G d E eq false valued idx dom c C o k s dl eb ea (is_same opt) ub _ kinit binit L n' CF Ln')).
  destruct (layer_runs _ _ _ _ _ _ _ _) eqn:R1 in CA; [|discriminate CA]. destruct (layer_runs _ _ _ _ _ _ _ _) eqn:R2 in CA'; [|discriminate CA'].
  assert (EO : forall u v : tensor A, Ok u = Ok v -> u = v) by congruence. apply EO in CA, CA'. subst y y'. rewrite shape_tab in I, I'.
  destruct (inb4_parts _ _ _ _ _ _ _ _ I) as [Hb [P [Hh Ho]]]. destruct (inb4_parts _ _ _ _ _ _ _ _ I') as [Hb' [P' [Hh' _]]].
  rewrite !at_sig4 by assumption. unfold layer_value, layer_src, layer_term, layer_in. fold B1 B2.
  rewrite (window_patch d n s dl B1 k C valued x c bi _ p _ Ln Lk), (window_patch d n' s dl B2 k C valued x' c bi' _ p' _ Ln' Lk).
  destruct (sub_idx_facts _ _ _ _ OK _ _ SA) as [ND [BA [_ [_ CL]]]].
  set (e := nth w idx 0) in *. assert (Ie : In e idx) by (apply nth_In; exact Hw). pose proof (BA e Ie) as He.
  set (K := tab (k ++ [C; o]) kinit).
  assert (DO : valued = true -> NoDup dom /\ (forall x, In x dom -> x < List.length E) /\ stable G e dom /\ C = List.length dom * c).
  { intros V. destruct (SD V) as [D1 D2]. destruct (sub_idx_facts _ _ _ _ OK _ _ D1) as [ND' [BD _]].
    split; [exact ND'|]. split; [exact BD|]. rewrite (whole_dom _ _ _ _ _ OK D1). split; [apply (stable_whole G d E eq OK); exact He|].
    unfold C. rewrite V, D2, (whole_dom _ _ _ _ _ OK D1). reflexivity. }
  assert (EL : element_ok G E valued idx dom c C e).
  { constructor; [exact He|split; [exact ND|split; [exact BA|exact (stable_of G d E eq OK _ _ _ SA Ie)]]|exact DO]. }
  assert (FIT : forall v, fit d eq (repeat v d)) by (intros v; split; [intros _ u u' U U'; apply repeat_spec in U, U'; congruence|apply repeat_length]).
  pose proof (conv_out_moved G d E eq OK valued idx dom c C o k (ones d) (ones d) ub (ca_activation a) binit K ADD e k (ones d) (zeros_of d)
    (fun _ j q => signal_at n x bi (below d s dl B1 p j) (rest_of valued c q))
    (fun _ j q => signal_at n' x' bi' (below d s dl B2 p' j) (rest_of valued c q)) 0 (zeros_of d) h' oo EL
    (conj Fk Lk) (conj Fk Lk) (FIT 1) (FIT 1) (FIT 1) (FIT 0)) as MV. unfold conv_out in MV. fold K.
  assert (TH : turned G e idx h' = h).
  { apply (proj1 (NoDup_nth idx 0) ND); [apply turned_lt; [exact (stable_of G d E eq OK _ _ _ SA Ie)|exact Hh']|exact Hh|].
    rewrite turned_nth by (try exact (stable_of G d E eq OK _ _ _ SA Ie); exact Hh'). rewrite HH.
    apply (g_solve' _ _ _ (ok_is_group _ _ _ _ OK)); [exact He|apply BA, nth_In; exact Hh]. }
  assert (ZZ : pixel (nth e E []) (ones d) (zeros_of d) = zeros_of d).
  { assert (Z : inb (ones d) (pixel (nth e E []) (ones d) (zeros_of d))).
    { apply (pixel_in G d E eq OK); [exact He|exact (FIT 1)|]. apply inb_intro; [unfold ones, zeros_of; rewrite !repeat_length; reflexivity|].
      intros ax Hax. unfold ones in Hax. unfold zeros_of in Hax. rewrite repeat_length in Hax. rewrite nth_zeros, PoolFacts.nth_ones by exact Hax. lia. }
    apply nth_ext0; [rewrite (inb_length _ _ Z); unfold ones, zeros_of; rewrite !repeat_length; reflexivity|].
    intros ax Hax. rewrite nth_zeros. pose proof (inb_length _ _ Z) as LZ.
    assert (Hd : ax < List.length (ones d)) by (rewrite <- LZ; exact Hax). pose proof (inb_nth _ _ ax Z Hd) as V. unfold ones in Hd. rewrite repeat_length in Hd. rewrite PoolFacts.nth_ones in V by lia. lia. }
  rewrite TH, ZZ in MV. apply MV; [| | |exact Hh'|exact Ho].
  - intros ax Hax _. unfold mirrored. rewrite nth_zeros, !PoolFacts.nth_ones by exact Hax. specialize (Pk ax Hax). lia.
  - intros j q J Q. subst turns rest. destruct valued; cbn [rest_of moved_chan].
    + destruct (DO eq_refl) as [ND' [BD [ST CD]]]. destruct (SD eq_refl) as [D1 D2].
      rewrite CD in Q. pose proof (chan_parts G e dom c q Q) as [CP1 CP2]. apply div_ok in Q as [C0 [Q1 Q2]].
      rewrite CP1, CP2. rewrite (entry4 d) in TP, SL by exact Lk.
      unfold transforms_of_group_signal in TP.
      assert (STA : forall u, In u idx -> stable G u dom).
      { intros u U. rewrite (whole_dom _ _ _ _ _ OK D1). apply (stable_whole G d E eq OK), BA. exact U. }
      destruct (group_slices G d E eq OK 1 k g c _ (Some H) (Some "") idx dom gP SA D1 D2 Lk STA TP) as [_ [_ GS]].
      specialize (GS w Hw). rewrite GS in SL. apply (f_equal (fun t => at_ t (0 :: j ++ [q / c; q mod c]))) in SL.
      rewrite !at_sig4 in SL by (try assumption; try lia). symmetry. exact SL.
    + rewrite (entry3 d) in TP, SL by exact Lk.
      unfold transforms_of_grid_signal in TP.
      destruct (grid_slices G d E eq OK 1 k c _ None (Some H) idx gP SA Lk TP) as [_ [_ GS]].
      specialize (GS w Hw). rewrite GS in SL. apply (f_equal (fun t => at_ t (0 :: j ++ [q]))) in SL.
      rewrite !at_sig3 in SL by (try assumption; try lia). symmetry. exact SL.
  - apply inb_intro; [unfold ones, zeros_of; rewrite !repeat_length; reflexivity|].
    intros ax Hax. unfold ones, zeros_of in Hax. rewrite repeat_length in Hax. rewrite nth_zeros, PoolFacts.nth_ones by exact Hax. lia.
Qed.

(** The window of pixel [p] lies in the image. *)
Definition within (n k s before p : list nat) : Prop :=
  forall ax, ax < List.length k -> nth ax before 0 <= nth ax p 0 * nth ax s 0 /\ nth ax p 0 * nth ax s 0 + nth ax k 0 <= nth ax before 0 + nth ax n 0.

Lemma pool_patch G d f sub cos n k s eb ea bp m2 (x : tensor A) bi p h q :
  List.length n = d -> List.length k = d -> List.length eb = d -> List.length ea = d -> List.length bp = d ->
  m2 = padded eb n ea -> within n k s (vzip Nat.add eb bp) p ->
  pool_out G d f sub cos k s eb n m2 bp (fun4 x) bi p h q
  = pool_out G d f sub cos k (ones d) (zeros_of d) k k (zeros_of d)
      (fun _ j g q => signal_at n x bi (below d s (ones d) (vzip Nat.add eb bp) p j) [g; q]) 0 (zeros_of d) h q.
Proof.
  intros Ln Lk Leb Lea Lbp -> WI. unfold pool_out, pooled. f_equal. f_equal. apply map_ext_in. intros j J. apply In_indices in J.
  pose proof (inb_length _ _ J) as LJ. rewrite Lk in LJ.
  assert (JA : forall ax, ax < d -> nth ax j 0 < nth ax k 0) by (intros ax Hax; apply (inb_nth _ _ ax J); lia).
  assert (NB : forall ax, ax < d -> nth ax (vzip Nat.add eb bp) 0 = nth ax eb 0 + nth ax bp 0) by (intros ax Hax; apply nth_vzip; lia).
  assert (WA : forall ax, ax < d -> nth ax eb 0 + nth ax bp 0 <= nth ax p 0 * nth ax s 0 /\ nth ax p 0 * nth ax s 0 + nth ax k 0 <= nth ax eb 0 + nth ax bp 0 + nth ax n 0).
  { intros ax Hax. rewrite <- NB by exact Hax. apply WI. lia. }
  set (i := map (fun ax => nth ax p 0 * nth ax s 0 + nth ax j 0 - nth ax bp 0) (seq 0 d)).
  assert (Li : List.length i = d) by (unfold i; rewrite map_length, seq_length; reflexivity).
  assert (NI : forall ax, ax < d -> nth ax i 0 = nth ax p 0 * nth ax s 0 + nth ax j 0 - nth ax bp 0).
  { intros ax Hax. unfold i. rewrite (nth_map_lt _ _ _ 0) by (rewrite seq_length; exact Hax). rewrite seq_nth by exact Hax. reflexivity. }
  assert (Lpd : List.length (padded eb n ea) = d) by (apply length_padded; assumption).
  assert (S1 : csrc (padded eb n ea) s (ones d) bp p j = Some i).
  { unfold csrc. rewrite Lpd. apply wsrc_all; [exact Li|]. intros ax Hax. rewrite NI by exact Hax. unfold conv_src. rewrite PoolFacts.nth_ones by exact Hax.
    rewrite Nat.mul_1_r. specialize (WA ax Hax). specialize (JA ax Hax). rewrite (nth_padded _ _ _ d) by assumption.
    rewrite (proj2 (Nat.leb_le _ _)) by lia. rewrite (proj2 (Nat.ltb_lt _ _)) by lia. reflexivity. }
  assert (S2 : csrc k (ones d) (ones d) (zeros_of d) (zeros_of d) j = Some j).
  { unfold csrc. rewrite Lk. apply wsrc_all; [lia|]. intros ax Hax. unfold conv_src.
    rewrite !nth_zeros, !PoolFacts.nth_ones by exact Hax. specialize (JA ax Hax).
    replace (0 * 1 + nth ax j 0 * 1 - 0) with (nth ax j 0) by lia. rewrite (proj2 (Nat.ltb_lt _ _) JA). reflexivity. }
  rewrite S1, S2. cbn [option_map]. f_equal. unfold bordered.
  assert (I1 : inside eb n i = true).
  { apply (proj2 (inside_spec eb n i d Leb Ln Li)). intros ax Hax. rewrite NI by exact Hax. specialize (WA ax Hax). specialize (JA ax Hax). lia. }
  assert (I2 : inside (zeros_of d) k j = true).
  { apply (proj2 (inside_spec (zeros_of d) k j d (repeat_length _ _) Lk LJ)). intros ax Hax. rewrite nth_zeros. specialize (JA ax Hax). lia. }
  rewrite I1, I2. f_equal. apply map_ext_in. intros e _. unfold fun4, signal_at.
  assert (J2 : vzip Nat.sub j (zeros_of d) = j).
  { unfold zeros_of. apply nth_ext0; [rewrite length_vzip; rewrite ?repeat_length; lia|]. intros ax Hax. rewrite length_vzip in Hax by (rewrite repeat_length; lia).
    rewrite nth_vzip by (rewrite ?repeat_length; lia). change (repeat 0 d) with (zeros_of d). rewrite nth_zeros. lia. }
  rewrite J2. set (z := below d s (ones d) (vzip Nat.add eb bp) p j).
  assert (Lz : List.length z = d) by (unfold z, below; rewrite map_length, seq_length; reflexivity).
  assert (NZ : forall ax, ax < d -> nth ax z 0%Z = Z.of_nat (nth ax i 0 - nth ax eb 0)).
  { intros ax Hax. unfold z. rewrite nth_below by exact Hax. rewrite NI, NB, PoolFacts.nth_ones by exact Hax. specialize (WA ax Hax). lia. }
  assert (MZ : map Z.to_nat z = vzip Nat.sub i eb).
  { apply nth_ext0; [rewrite map_length, length_vzip; lia|]. intros ax Hax. rewrite map_length in Hax. rewrite nth_vzip by lia.
    rewrite (nth_map_lt _ _ _ 0%Z) by exact Hax. rewrite NZ by lia. lia. }
  rewrite MZ. replace (forallb _ _) with true; [reflexivity|]. symmetry. apply forallb_forall. intros [u v] UV.
  apply (In_nth _ _ (0%Z, 0)) in UV as [ax [Hax UV]]. rewrite combine_length in Hax. rewrite combine_nth in UV by lia.
  assert (u = nth ax z 0%Z /\ v = nth ax n 0) as [-> ->] by (split; congruence). cbn [fst snd]. rewrite NZ by lia.
  specialize (WA ax ltac:(lia)). specialize (JA ax ltac:(lia)). specialize (NI ax ltac:(lia)). apply andb_true_intro. split; [apply Z.leb_le|apply Z.ltb_lt]; lia.
Qed.

(** The same for pooling layers, for windows that lie in the images. *)
Theorem C104_turned_pooling_patches {PA : Pool A} name G t (a : pool_args) H opt bs m g c L k s idx :
  order_irrelevant (pool_fun (A := A) t) ->
  pooling_for name G a -> pa_subgroup a = Some H -> pool_option a opt ->
  let d := dimension_of name in
  pooling_built d t a (bs :: map Some m ++ [Some g; Some c]) L -> List.length m = d -> pool_sizes d a k s ->
  respects name k -> subgroup_indices G H idx ->
  exists border : list nat -> list nat,
  (forall n, List.length n = d -> exists after, border_of (pool_checked a opt) d opt m k s (repeat 1 d) n (border n) after) /\
  forall (x x' y y' : tensor A) b b' n n', wf x -> wf x' -> List.length n = d -> List.length n' = d ->
  shape x = b :: n ++ [g; c] -> shape x' = b' :: n' ++ [g; c] ->
  pool_call L x = Ok y -> pool_call L x' = Ok y' ->
  forall bi p h bi' p' h' q w gP, inb (shape y) (bi :: p ++ [h; q]) -> inb (shape y') (bi' :: p' ++ [h'; q]) -> w < List.length idx ->
  nth h' idx 0 = comp G (nth w idx 0) (nth h idx 0) ->
  within n k s (border n) p -> within n' k s (border n') p' ->
  transforms_of_group_signal G d H "" (patch n k s (repeat 1 d) (border n) [g; c] x bi p) = Ok gP ->
  slice 0 w gP = patch n' k s (repeat 1 d) (border n') [g; c] x' bi' p' ->
  at_ y' (bi' :: p' ++ [h'; q]) = at_ y (bi :: p ++ [h; q]).
Proof.
  intros PO [DG [AG AF]] HS [po [PN UP]] d [L0 [I B]] Lm [SK SS] RK SI.
  pose proof DG as DG'. apply lib_ok in DG' as [_ OK]. fold d in OK.
  destruct (pool_build_inv (A := A) G d _ _ OK name t a L0 bs m g c L DG AG AF I Lm B)
    as [p' [k' [s0 [s' [eb [ea [sub [cos [Hn [PN' [SK' [SS0 [SS' [WO [PS [DS [DC [SA [GN [F _]]]]]]]]]]]]]]]]]]]].
  rewrite SK in SK'. injection SK' as <-. unfold pool_strides in SS0. rewrite SS in SS0. injection SS0 as <-.
  assert (sub = idx) as -> by (rewrite HS in SA; unfold sub_idx in SA; unfold subgroup_indices in SI; congruence).
  pose proof (pool_format _ _ _ _ _ _ _ _ _ AF I B) as PF.
  assert (p' = po) as -> by (unfold pool_padding_name in PN'; congruence). rewrite UP in WO, F.
  set (before n := vzip Nat.add eb (map fst (builtin_pads (padding_string (is_same opt)) (padded eb n ea) k s))).
  exists before. split; [intros n Ln; eexists; exact (pool_border d a opt m n k s s' eb ea SK SS SS' WO Ln)|].
  destruct (mem_str (lower (po_padding L)) ["valid"; "same"]) eqn:MS.
  2:{ intros x x' y y' b b' n n' _ _ _ _ _ _ CA. rewrite (pool_call_option L x y PF CA) in MS. discriminate MS. }
  specialize (F eq_refl). set (same := is_same opt) in *. set (E := symmetries_of name) in *. set (eq := needs_equal_sizes name) in *.
  assert (Lk : List.length k = d) by (destruct F; assumption). assert (Ls : List.length s = d) by (destruct F; assumption).
  assert (Leb : List.length eb = d) by (destruct F; assumption). assert (Lea : List.length ea = d) by (destruct F; assumption).
  assert (Pk : forall ax, ax < d -> 0 < nth ax k 0) by (destruct F; assumption).
  assert (BC : forall e, In e cos -> e < List.length E) by (destruct F; assumption).
  assert (NE : idx <> []) by (destruct (ok_sub _ _ _ _ OK _ _ DS) as [_ [_ [Q _]]]; intros ->; discriminate Q).
  rewrite HS in SA. destruct (sub_idx_facts _ _ _ _ OK _ _ SA) as [ND [BA [_ [_ CL]]]].
  intros x x' y y' b b' n n' W W' Ln Ln' SH SH' CA CA' bi p h bi' p' h' q w gP II II' Hw HH WI WI' TP SL. rewrite GN in SH, SH', TP, SL.
  rewrite (tensor_sig4 d b n _ c x W Ln SH) in CA. rewrite (tensor_sig4 d b' n' _ c x' W' Ln' SH') in CA'.
  rewrite (pool_call_eq G d E _ OK idx cos k s eb ea same t L b n c _ F NE Ln) in CA.
  rewrite (pool_call_eq G d E _ OK idx cos k s eb ea same t L b' n' c _ F NE Ln') in CA'.
  destruct (forallb _ _) eqn:R1 in CA; [|discriminate CA]. destruct (forallb _ _) eqn:R2 in CA'; [|discriminate CA'].
  assert (EO : forall u v : tensor A, Ok u = Ok v -> u = v) by congruence. apply EO in CA, CA'. subst y y'. clear R1 R2.
  assert (LP : forall v, List.length v = d -> List.length (map fst (builtin_pads (padding_string same) (padded eb v ea) k s)) = d
     /\ List.length (outs (padded (map fst (builtin_pads (padding_string same) (padded eb v ea) k s)) (padded eb v ea) (map snd (builtin_pads (padding_string same) (padded eb v ea) k s))) k s) = d).
  { intros v Lv. assert (Lpv : List.length (padded eb v ea) = d) by (apply length_padded; assumption).
    assert (Lb : List.length (builtin_pads (padding_string same) (padded eb v ea) k s) = d) by (apply length_builtin; assumption).
    split; [rewrite map_length; exact Lb|]. apply length_outs; try assumption. apply length_padded; rewrite ?map_length; assumption. }
  destruct (LP n Ln) as [LB1 LO]. destruct (LP n' Ln') as [LB2 LO'].
  rewrite shape_tab in II, II'. destruct (inb4_parts _ _ _ _ _ _ _ _ II) as [Hb [P [Hh Hq]]]. destruct (inb4_parts _ _ _ _ _ _ _ _ II') as [Hb' [P' [Hh' _]]].
  rewrite !at_sig4 by assumption.
  rewrite (pool_patch G d (pool_fun t) idx cos n k s eb ea _ _ x bi p h q Ln Lk Leb Lea LB1 eq_refl WI).
  rewrite (pool_patch G d (pool_fun t) idx cos n' k s eb ea _ _ x' bi' p' h' q Ln' Lk Leb Lea LB2 eq_refl WI').
  fold (before n). fold (before n').
  set (e := nth w idx 0) in *. assert (Ie : In e idx) by (apply nth_In; exact Hw). pose proof (BA e Ie) as He.
  assert (ST : stable G e idx) by (exact (stable_of G d E eq OK _ _ _ SA Ie)).
  assert (TH : turned G e idx h' = h).
  { apply (proj1 (NoDup_nth idx 0) ND); [apply turned_lt; [exact ST|exact Hh']|exact Hh|].
    rewrite turned_nth by (try exact ST; exact Hh'). rewrite HH.
    apply (g_solve' _ _ _ (ok_is_group _ _ _ _ OK)); [exact He|apply BA, nth_In; exact Hh]. }
  assert (FIT : forall v, fit d eq (repeat v d)) by (intros v; split; [intros _ u u' U U'; apply repeat_spec in U, U'; congruence|apply repeat_length]).
  assert (Fk : fit d eq k) by (split; [exact RK|exact Lk]).
  assert (P0 : inb (ones d) (zeros_of d)).
  { apply inb_intro; [unfold ones, zeros_of; rewrite !repeat_length; reflexivity|].
    intros ax Hax. unfold ones, zeros_of in Hax. rewrite repeat_length in Hax. rewrite nth_zeros, PoolFacts.nth_ones by exact Hax. lia. }
  assert (ZZ : pixel (nth e E []) (ones d) (zeros_of d) = zeros_of d).
  { assert (Z : inb (ones d) (pixel (nth e E []) (ones d) (zeros_of d))) by (apply (pixel_in G d E eq OK); [exact He|exact (FIT 1)|exact P0]).
    apply nth_ext0; [rewrite (inb_length _ _ Z); unfold ones, zeros_of; rewrite !repeat_length; reflexivity|].
    intros ax Hax. rewrite nth_zeros. pose proof (inb_length _ _ Z) as LZ.
    assert (Hd : ax < List.length (ones d)) by (rewrite <- LZ; exact Hax). pose proof (inb_nth _ _ ax Z Hd) as V. unfold ones in Hd. rewrite repeat_length in Hd. rewrite PoolFacts.nth_ones in V by lia. lia. }
  pose proof (pool_out_moved G d E eq OK (pool_fun t) idx cos k (ones d) (zeros_of d) k k (zeros_of d) (ones d)
    (fun _ j g q => signal_at n x bi (below d s (ones d) (before n) p j) [g; q])
    (fun _ j g q => signal_at n' x' bi' (below d s (ones d) (before n') p' j) [g; q]) e 0 (zeros_of d) h' q
    PO He BA BC ST Fk Fk (FIT 1) (FIT 1) (FIT 0) (FIT 0)) as MV.
  rewrite TH, ZZ in MV. apply MV; [symmetry; apply padded_zeros; exact Lk| | |exact P0|exact Hh'].
  - intros ax Hax. unfold mirrored. rewrite nth_zeros, !PoolFacts.nth_ones by exact Hax. specialize (Pk ax Hax). lia.
  - intros j v J V. rewrite (entry4 d) in TP, SL by exact Lk. unfold transforms_of_group_signal in TP.
    pose proof (sub_idx_whole _ _ _ _ OK) as WH.
    destruct (group_slices G d E eq OK 1 k _ c (fun _ j h q => signal_at n x bi (below d s (repeat 1 d) (before n) p j) [h; q])
      (Some H) (Some "") idx (seq 0 (List.length E)) gP SA WH (eq_sym (seq_length _ _)) Lk) as [_ [_ GS]];
      [intros u U; apply (stable_whole G d E eq OK), BA, U|exact TP|].
    specialize (GS w Hw). rewrite GS in SL. apply (f_equal (fun t => at_ t (0 :: j ++ [v; q]))) in SL.
    rewrite !at_sig4 in SL by (try assumption; try lia). unfold moved4 in SL. symmetry. fold e in SL.
    assert (SW : stable G e (seq 0 (List.length E))) by (apply (stable_whole G d E eq OK); exact He).
    pose proof (turned_nth G e (seq 0 (List.length E)) v SW) as TN. rewrite seq_length in TN. specialize (TN V).
    pose proof (turned_lt G e (seq 0 (List.length E)) v SW) as TL. rewrite seq_length in TL. specialize (TL V).
    rewrite !nth_seq0 in TN by assumption. rewrite <- TN. exact SL.
Qed.

End Patches.

Print Assumptions C104_turned_patches.
Print Assumptions C104_turned_pooling_patches.

(** A P4 convolution with kernels of 3x3 pixels and strides of 2, 'valid', on an image of 7x7 pixels, and on images of
    9x8 pixels whose pixels 4..6 by 2..4 are the pixels 2..4 by 0..2 of the first image turned by one quarter (and the rest is something else).
    The responses of the two patches agree after the move along the group axis, those of other pixels and those of a patch that is not turned do not. *)
Definition pasted (t : tensor Z) (from : list nat) (n : list nat) : tensor Z :=
  tab (1 :: n ++ [1]) (fun i =>
    let p := vzip Nat.sub (firstn 2 (tl i)) from in
    if forallb (fun ax => (nth ax from 0 <=? nth ax (firstn 2 (tl i)) 0)%nat && (nth ax p 0 <? nth ax (skipn 1 (shape t)) 0)%nat) [0; 1]
    then at_ t (0 :: p ++ [0])%nat else (7 + 3 * Z.of_nat (nth 1 i 0%nat) * Z.of_nat (nth 2 i 0%nat))%Z).

Example C104_case :
  let x := some_signal [1; 7; 7; 1] in
  let seen := patch [7; 7] [3; 3] [2; 2] [1; 1] [0; 0] [1] x 0 [1; 0] in
  match test_layer 2 false (with_group "P4" "" (One 3) 1 (Some (One 2)) (Some (Some "valid")) None true) [None; Some 7; Some 7; Some 1] some_weights some_weights,
        transforms_of_grid_signal P4 2 "" seen with
  | Ok L, Ok turns =>
    let x' := pasted (slice 0 1 turns) [4; 2] [9; 8] in
    match apply L x, apply L x', apply L (pasted seen [4; 2] [9; 8]) with
    | Ok y, Ok y', Ok z =>
      subgroup_indices P4 "" [0; 1; 2; 3] /\ shape y = [1; 3; 3; 4; 1] /\ shape y' = [1; 4; 3; 4; 1] /\
      slice 0 1 turns = patch [9; 8] [3; 3] [2; 2] [1; 1] [0; 0] [1] x' 0 [2; 1] /\ slice 0 1 turns <> seen /\
      map (fun h => at_ y' [0; 2; 1; comp P4 1 h; 0]) (seq 0 4) = map (fun h => at_ y [0; 1; 0; h; 0]) (seq 0 4) /\
      map (fun h => at_ y' [0; 2; 1; h; 0]) (seq 0 4) <> map (fun h => at_ y [0; 1; 0; h; 0]) (seq 0 4) /\
      map (fun h => at_ y' [0; 1; 1; comp P4 1 h; 0]) (seq 0 4) <> map (fun h => at_ y [0; 1; 0; h; 0]) (seq 0 4) /\
      map (fun h => at_ z [0; 2; 1; comp P4 1 h; 0]) (seq 0 4) <> map (fun h => at_ y [0; 1; 0; h; 0]) (seq 0 4)
    | _, _, _ => False
    end
  | _, _ => False
  end.
Proof. vm_compute. repeat split; intros; discriminate. Qed.

(** A max pooling over windows of 2x2 pixels and the cosets of the rotations by 180 degrees: the same with a patch of a signal on P4,
    turned by a half and pasted into a larger signal. *)
Definition pasted_group (t : tensor Z) (from : list nat) (n : list nat) : tensor Z :=
  tab (1 :: n ++ [4; 1]) (fun i =>
    let p := vzip Nat.sub (firstn 2 (tl i)) from in
    if forallb (fun ax => (nth ax from 0 <=? nth ax (firstn 2 (tl i)) 0)%nat && (nth ax p 0 <? nth ax (skipn 1 (shape t)) 0)%nat) [0; 1]
    then at_ t (0 :: p ++ skipn 3 i)%nat else (7 + 3 * Z.of_nat (nth 1 i 0%nat) * Z.of_nat (nth 3 i 0%nat))%Z).

Example C104_case_pooling :
  let x := some_signal [1; 4; 4; 4; 1] in
  let seen := patch [4; 4] [2; 2] [2; 2] [1; 1] [0; 0] [4; 1] x 0 [1; 0] in
  match test_pool 2 "max" (mkPoolArgs (ByName "P4") (Some "P2") (One 2) (Some (One 2)) (Some (Some "valid")) "channels_last" false) [None; Some 4; Some 4; Some 4; Some 1],
        transforms_of_group_signal P4 2 "P2" "" seen with
  | Ok L, Ok turns =>
    let x' := pasted_group (slice 0 1 turns) [4; 2] [6; 8] in
    match pool_call L x, pool_call L x', pool_call L (pasted_group seen [4; 2] [6; 8]) with
    | Ok y, Ok y', Ok z =>
      subgroup_indices P4 "P2" [0; 2] /\ shape y = [1; 2; 2; 2; 1] /\ shape y' = [1; 3; 4; 2; 1] /\
      slice 0 1 turns = patch [6; 8] [2; 2] [2; 2] [1; 1] [0; 0] [4; 1] x' 0 [2; 1] /\
      map (fun h => at_ y' [0; 2; 1; (1 - h)%nat; 0]) [0; 1] = map (fun h => at_ y [0; 1; 0; h; 0]) [0; 1] /\
      map (fun h => at_ z [0; 2; 1; (1 - h)%nat; 0]) [0; 1] <> map (fun h => at_ y [0; 1; 0; h; 0]) [0; 1]
    | _, _, _ => False
    end
  | _, _ => False
  end.
Proof. vm_compute. repeat split; intros; discriminate. Qed.
