(** Networks that go to subgroups and back commute with the elements that are in all of
    their groups. *)
From Verif Require Export GraphSpec NetFacts.
Local Open Scope string_scope.
Local Open Scope list_scope.

(** ** Elements with the same symmetry *)

Lemma nth_error_at (l : list symmetry) u e : nth_error l u = Some e -> u < List.length l /\ nth u l [] = e.
Proof. intros Q. split; [apply nth_error_Some; congruence|apply nth_error_nth; exact Q]. Qed.

Lemma same_element name G u v e : dict_get group_dict name = Ok G ->
  nth_error (symmetries_of name) u = Some e -> nth_error (symmetries_of name) v = Some e -> u = v.
Proof.
  intros DG U V. apply lib_ok in DG as [_ OK]. pose proof (ok_nodup _ _ _ _ OK) as ND. rewrite NoDup_nth_error in ND.
  apply ND; [apply nth_error_Some; congruence|congruence].
Qed.

Lemma element_up name G H idx v e : dict_get group_dict name = Ok G -> subgroup_indices G H idx ->
  nth_error (symmetries_of (subgroup_name name H)) v = Some e ->
  v < List.length idx /\ nth_error (symmetries_of name) (nth v idx 0) = Some e.
Proof.
  intros DG SI V. pose proof (indices_listed _ _ _ _ DG SI) as DH. destruct (lib_ok _ _ DG) as [NG OK].
  destruct (ok_sub _ _ _ _ OK _ _ DH) as [_ [B [_ [_ [_ [_ M]]]]]]. destruct (M (lib_named _ _ DG NG) (f_equal symmetries_of (eq_sym NG))) as [_ M']. clear M. rename M' into M.
  rewrite <- M in V. rewrite nth_error_map in V. destruct (nth_error idx v) as [w|] eqn:W; [|discriminate V].
  cbn [option_map] in V. assert (LV : v < List.length idx) by (apply nth_error_Some; congruence). split; [exact LV|].
  rewrite (nth_error_nth _ _ 0 W). assert (LW : w < List.length (symmetries_of name)) by (apply B; apply (nth_error_In _ _ W)).
  etransitivity; [apply (nth_error_nth' (symmetries_of name) [] LW)|exact V].
Qed.

Lemma symmetry_dimension name G u e : dict_get group_dict name = Ok G -> nth_error (symmetries_of name) u = Some e ->
  List.length e = dimension_of name.
Proof.
  intros DG U. apply lib_ok in DG as [_ OK]. apply nth_error_at in U as [LU <-]. apply (ok_sym _ _ _ _ OK _ LU).
Qed.

Section Graphs.
Context {A : Type} {RA : Arith A} {PA : Pool A}.

(** ** Transforms of grid signals, by whatever group *)

Lemma grid_transform name G u e b m c (x T : tensor A) :
  dict_get group_dict name = Ok G -> nth_error (symmetries_of name) u = Some e ->
  let d := dimension_of name in
  List.length m = d -> wf x -> shape x = b :: m ++ [c] -> transforms_of_grid_signal G d "" x = Ok T ->
  slice 0 u T = tab (b :: m ++ [c]) (sig3 d (fun bi p q => fun3 x bi (pixel e m p) q)).
Proof.
  intros DG U d Lm W SH R. apply lib_ok in DG as [_ OK]. fold d in OK. apply nth_error_at in U as [LU <-].
  rewrite (tensor_sig3 d b m c x W Lm SH) in R. unfold transforms_of_grid_signal, spatial_axes in R.
  destruct (grid_slices G d _ _ OK b m c (fun3 x) None _ (seq 0 (List.length (symmetries_of name))) T (sub_idx_whole _ _ _ _ OK) Lm R) as [_ [_ Q]].
  rewrite Q by (rewrite seq_length; exact LU). rewrite seq_nth by exact LU. reflexivity.
Qed.

Lemma grid_transform_ok name G u e b m c (x : tensor A) :
  dict_get group_dict name = Ok G -> nth_error (symmetries_of name) u = Some e ->
  let d := dimension_of name in
  List.length m = d -> respects name m -> wf x -> shape x = b :: m ++ [c] ->
  exists T, transforms_of_grid_signal G d "" x = Ok T /\ nth 0 (shape T) 0 = List.length (symmetries_of name) /\
    slice 0 u T = tab (b :: m ++ [c]) (sig3 d (fun bi p q => fun3 x bi (pixel e m p) q)).
Proof.
  intros DG U d Lm RM W SH. pose proof DG as DG'. apply lib_ok in DG' as [_ OK]. fold d in OK.
  destruct (grid_slices_ok G d _ _ OK b m c (fun3 x) None (Some "") (seq 0 (List.length (symmetries_of name))) (sub_idx_whole _ _ _ _ OK) (conj RM Lm)) as [T [R [ST _]]].
  exists T. assert (R' : transforms_of_grid_signal G d "" x = Ok T).
  { rewrite (tensor_sig3 d b m c x W Lm SH). exact R. }
  split; [exact R'|]. split; [rewrite ST; cbn [nth]; apply seq_length|]. exact (grid_transform name G u e b m c x T DG U Lm W SH R').
Qed.

(** ** What stages return *)

Lemma transposed_facts up H m g c call b (x y : tensor A) :
  add_commutes A -> transposed_stage up H m g c call ->
  let d := dimension_of up in
  List.length m = d -> wf x -> shape x = b :: m ++ [g; c] -> call x = Ok y ->
  exists G idx mo o, dict_get group_dict up = Ok G /\ subgroup_indices G H idx /\ g = List.length idx /\
    wf y /\ List.length mo = d /\ shape y = b :: mo ++ [List.length (symmetries_of up); o] /\
    commutes_at (transforms_of_group_signal G d H H) (transforms_of_group_signal G d H "") call x.
Proof.
  intros ADD ST d Lm W SH CA. destruct ST as [G [a [opt [bs [kinit [binit [L [k [s [LF [HS [OP [B [SZ [RS [RT ->]]]]]]]]]]]]]]]].
  fold d in B, SZ, RT. pose proof LF as [DG _].
  destruct (built_facts up G a H opt true true bs m g c kinit binit L k s (repeat 1 d) LF HS OP B Lm SZ)
    as [OK [eb [ea [act [dom [_ [SA [SD [F [CC _]]]]]]]]]]. fold d in OK, F. destruct (SD eq_refl) as [SD' GD].
  destruct (conv_output G d _ _ true true act dom c _ (ca_filters a) k s (repeat 1 d) eb ea _ _ _ _ _ L m g b x y OK F CC eq_refl Lm W SH CA)
    as [WY [mo [Lmo SY]]].
  rewrite (whole_dom G d _ _ act OK SA), seq_length in SY.
  exists G, dom, mo, (ca_filters a). split; [exact DG|]. split; [exact SD'|]. split; [exact GD|].
  split; [exact WY|]. split; [exact Lmo|]. split; [exact SY|].
  destruct (C27_transposed_convolution_any_stride up G a H "" opt bs m g c kinit binit L k s ADD LF HS OP Lm SZ RS RT) as [_ Q].
  exact (Q B b x W SH).
Qed.

Lemma transposed_lifting_facts up m c call b (x y : tensor A) :
  add_commutes A -> transposed_lifting_stage up m c call ->
  let d := dimension_of up in
  List.length m = d -> wf x -> shape x = b :: m ++ [c] -> call x = Ok y ->
  exists G mo o, dict_get group_dict up = Ok G /\
    wf y /\ List.length mo = d /\ shape y = b :: mo ++ [List.length (symmetries_of up); o] /\
    commutes_at (transforms_of_grid_signal G d "") (transforms_of_group_signal G d "" "") call x.
Proof.
  intros ADD ST d Lm W SH CA. destruct ST as [G [a [H [opt [bs [kinit [binit [L [k [s [LF [HS [OP [B [SZ [RS [RT ->]]]]]]]]]]]]]]]]].
  fold d in B, SZ, RT. pose proof LF as [DG _].
  destruct (built_facts up G a H opt true false bs m 0 c kinit binit L k s (repeat 1 d) LF HS OP B Lm SZ)
    as [OK [eb [ea [act [dom [_ [SA [_ [F [CC _]]]]]]]]]]. fold d in OK, F.
  destruct (conv_output G d _ _ true false act dom c c (ca_filters a) k s (repeat 1 d) eb ea _ _ _ _ _ L m 0 b x y OK F CC eq_refl Lm W SH CA)
    as [WY [mo [Lmo SY]]].
  rewrite (whole_dom G d _ _ act OK SA), seq_length in SY.
  exists G, mo, (ca_filters a). split; [exact DG|]. split; [exact WY|]. split; [exact Lmo|]. split; [exact SY|].
  destruct (C27_transposed_convolution_any_stride up G a H "" opt bs m 0 c kinit binit L k s ADD LF HS OP Lm SZ RS RT) as [Q _].
  exact (Q B b x W SH).
Qed.

(** ** The output of a network *)

Lemma graph_output d (x : tensor A) first net dom gs : add_commutes A -> graph d x first net dom gs -> forall z, net x = Ok z -> is_signal d dom z.
Proof.
  intros ADD N. induction N as [S|net gs y b m c name H call N IH NX DIM Lm SH RM ST|net gs y b m g c name H call N IH NX DIM Lm SH ST
    |net gs y b m g c up H call N IH NX DIM Lm SH RM ST|net gs y b m c up call N IH NX DIM Lm SH RM ST|net gs net' gs' dom phi o N1 IH1 N2 IH2|net gs dom phi o N IH STAT]; intros z Z.
  - assert (E : x = z) by congruence. subst z. exact S.
  - unfold followed_by in Z. rewrite NX in Z. destruct (IH y NX) as [W _]. subst d.
    destruct (lifting_facts name H m c call b y z ADD ST Lm W SH Z) as [G [idx [mo [o [DG [SI [WZ [Lmo [SZ _]]]]]]]]].
    destruct (output_group (A := A) name G H idx DG SI) as [K [_ [_ [LI _]]]]. split; [exact WZ|]. exists b, mo, o. rewrite <- LI. auto.
  - unfold followed_by in Z. rewrite NX in Z. destruct (IH y NX) as [W _]. subst d.
    destruct (stage_facts name H m g c call b y z ADD ST Lm W SH Z) as [G [idx [mo [o [DG [SI [_ [WZ [Lmo [SZ _]]]]]]]]]].
    destruct (output_group (A := A) name G H idx DG SI) as [K [_ [_ [LI _]]]]. split; [exact WZ|]. exists b, mo, o. rewrite <- LI. auto.
  - unfold followed_by in Z. rewrite NX in Z. destruct (IH y NX) as [W _]. subst d.
    destruct (transposed_facts up H m g c call b y z ADD ST Lm W SH Z) as [G [idx [mo [o [_ [_ [_ [WZ [Lmo [SZ _]]]]]]]]]].
    split; [exact WZ|]. exists b, mo, o. auto.
  - unfold followed_by in Z. rewrite NX in Z. destruct (IH y NX) as [W _]. subst d.
    destruct (transposed_lifting_facts up m c call b y z ADD ST Lm W SH Z) as [G [mo [o [_ [WZ [Lmo [SZ _]]]]]]].
    split; [exact WZ|]. exists b, mo, o. auto.
  - unfold branches in Z. destruct (net x) as [y1|] eqn:X1; [|discriminate Z]. destruct (net' x) as [y2|] eqn:X2; [|discriminate Z].
    destruct (IH1 y1 eq_refl) as [W1 [b1 [m1 [c1 [L1 S1]]]]].
    unfold position_wise in Z. destruct (list_eqb _ _ _) in Z; [|discriminate Z].
    assert (EZ : forall u v : tensor A, Ok u = Ok v -> u = v) by congruence. apply EZ in Z. subst z. split; [apply wf_tab|].
    exists b1, m1, o. split; [exact L1|]. rewrite shape_tab, S1. destruct dom; [rewrite removelast_ix2|rewrite removelast_ix1]; cbn [app]; [rewrite <- app_assoc|]; reflexivity.
  - unfold followed_by in Z. destruct (net x) as [y|] eqn:X1; [|discriminate Z]. destruct (IH y eq_refl) as [W [b [m [c [L S]]]]].
    unfold with_statistics in Z. assert (EZ : forall u v : tensor A, Ok u = Ok v -> u = v) by congruence. apply EZ in Z. subst z. split; [apply wf_tab|].
    exists b, m, o. split; [exact L|]. rewrite shape_tab, S. destruct dom; [rewrite removelast_ix2|rewrite removelast_ix1]; cbn [app]; [rewrite <- app_assoc|]; reflexivity.
Qed.

(** ** Commuting *)

Lemma graph_commutes d (x : tensor A) first net dom gs e :
  add_commutes A -> graph d x first net dom gs -> (forall g, In g gs -> In e (symmetries_of g)) -> List.length e = d ->
  forall z gx, net x = Ok z -> transform_of e first x gx -> exists gz, transform_of e dom z gz /\ net gx = Ok gz.
Proof.
  intros ADD N. induction N as [S|net gs y b m c name H call N IH NX DIM Lm SH RM ST|net gs y b m g c name H call N IH NX DIM Lm SH ST
    |net gs y b m g c up H call N IH NX DIM Lm SH RM ST|net gs y b m c up call N IH NX DIM Lm SH RM ST|net gs net' gs' dom phi o N1 IH1 N2 IH2|net gs dom phi o N IH STAT];
    intros GE LE z gx Z TX.
  - assert (E : x = z) by congruence. subst z. exists gx. auto.
  - destruct (graph_output _ _ _ _ _ _ ADD N y NX) as [W _].
    destruct (IH (fun q I => GE q (or_intror I)) LE y gx NX TX) as [gy [TY NY]]. clear IH.
    unfold followed_by in Z |- *. rewrite NX in Z. rewrite NY. subst d.
    destruct (lifting_facts name H m c call b y z ADD ST Lm W SH Z) as [G [idx [mo [o [DG [SI [WZ [Lmo [SZ CM]]]]]]]]].
    destruct (output_group (A := A) name G H idx DG SI) as [K [DK [DIMK [LI OG]]]].
    destruct (In_nth_error _ _ (GE _ (or_introl eq_refl))) as [v V].
    destruct (element_up name G H idx v e DG SI V) as [LV U].
    destruct (grid_transform_ok name G _ e b m c y DG U Lm RM W SH) as [T [RT [NT QT]]].
    assert (GY : gy = slice 0 (nth v idx 0) T).
    { inversion TY as [name' G' u' y' T' DG' U' RT' E1 E2 E3|]. subst y'.
      assert (DD : dimension_of name' = dimension_of name) by (rewrite <- (symmetry_dimension _ _ _ _ DG' U'); exact LE).
      pose proof (grid_transform name' G' u' e b m c y T' DG' U') as Q. cbv zeta in Q. rewrite DD in Q, RT'.
      rewrite (Q Lm W SH RT'), QT. reflexivity. }
    pose proof DG as DG0. apply lib_ok in DG0 as [_ OK]. pose proof (sub_idx_whole _ _ _ _ OK) as SW.
    destruct (grid_restrict name G y T b m c "" H (seq 0 (List.length (symmetries_of name))) idx DG Lm W SH SW SI RT) as [_ [TH [RH [NH QH]]]].
    destruct (CM TH z RH Z) as [gz [RZ [NZ QZ]]].
    exists (slice 0 v gz). split.
    + rewrite <- DIMK in OG. refine (transform_of_group e _ K v z gz DK V _). rewrite DIMK. rewrite DIMK in OG. exact (OG z gz b mo o WZ Lmo SZ RZ).
    + rewrite GY. assert (LU : nth v idx 0 < List.length (symmetries_of name)) by (apply nth_error_Some; congruence).
      rewrite (QH (nth v idx 0) v); [apply QZ; rewrite NH; exact LV|rewrite seq_length; exact LU|exact LV|apply seq_nth; exact LU].
  - destruct (graph_output _ _ _ _ _ _ ADD N y NX) as [W _].
    destruct (IH (fun q I => GE q (or_intror I)) LE y gx NX TX) as [gy [TY NY]]. clear IH.
    unfold followed_by in Z |- *. rewrite NX in Z. rewrite NY. subst d.
    destruct (stage_facts name H m g c call b y z ADD ST Lm W SH Z) as [G [idx [mo [o [DG [SI [GN [WZ [Lmo [SZ CM]]]]]]]]]].
    destruct (output_group (A := A) name G H idx DG SI) as [K [DK [DIMK [LI OG]]]].
    destruct (In_nth_error _ _ (GE _ (or_introl eq_refl))) as [v V].
    destruct (element_up name G H idx v e DG SI V) as [LV U].
    inversion TY as [|name' G' u y' T DG' U' RT E1 E2 E3]. subst name' y'.
    assert (E : G' = G) by congruence. subst G'. assert (E : u = nth v idx 0) by (exact (same_element _ _ _ _ _ DG U' U)). subst u.
    pose proof DG as DG0. apply lib_ok in DG0 as [_ OK]. pose proof (sub_idx_whole _ _ _ _ OK) as SW.
    destruct (group_restrict name G y T b m g c "" H (seq 0 (List.length (symmetries_of name))) idx DG Lm W SH GN SW SI RT) as [_ [TH [RH [NH QH]]]].
    destruct (CM TH z RH Z) as [gz [RZ [NZ QZ]]].
    exists (slice 0 v gz). split.
    + refine (transform_of_group e _ K v z gz DK V _). rewrite DIMK. exact (OG z gz b mo o WZ Lmo SZ RZ).
    + assert (LU : nth v idx 0 < List.length (symmetries_of name)) by (apply nth_error_Some; congruence).
      rewrite (QH (nth v idx 0) v); [apply QZ; rewrite NH; exact LV|rewrite seq_length; exact LU|exact LV|apply seq_nth; exact LU].
  - destruct (graph_output _ _ _ _ _ _ ADD N y NX) as [W _].
    destruct (IH GE LE y gx NX TX) as [gy [TY NY]]. clear IH.
    unfold followed_by in Z |- *. rewrite NX in Z. rewrite NY. subst d.
    destruct (transposed_facts up H m g c call b y z ADD ST Lm W SH Z) as [G [idx [mo [o [DG [SI [GN [WZ [Lmo [SZ CM]]]]]]]]]].
    destruct (output_group (A := A) up G H idx DG SI) as [K [DK [DIMK [LI OG]]]].
    inversion TY as [|name' K' v y' T DK' V RT E1 E2 E3]. subst name' y'.
    assert (E : K' = K) by congruence. subst K'. rewrite DIMK in RT.
    destruct (element_up up G H idx v e DG SI V) as [LV U].
    pose proof DG as DG0. apply lib_ok in DG0 as [_ OK]. pose proof (sub_idx_whole _ _ _ _ OK) as SW.
    assert (RH : transforms_of_group_signal G (dimension_of up) H H y = Ok T).
    { assert (STB : forall u, In u idx -> stable G u idx) by (intros u I; exact (stable_of G _ _ _ OK _ _ _ SI I)).
      destruct (group_slices_ok G (dimension_of up) _ _ OK b m g c (fun4 y) (Some H) (Some H) idx idx SI SI GN (conj RM Lm) STB) as [T' [R' _]].
      assert (R2 : transforms_of_group_signal G (dimension_of up) H H y = Ok T').
      { rewrite (tensor_sig4 (dimension_of up) b m g c y W Lm SH). exact R'. }
      rewrite GN in SH. pose proof (OG y T' b m c W Lm SH R2) as R3. congruence. }
    destruct (CM T z RH Z) as [gz [RZ [NZ QZ]]].
    destruct (group_restrict up G z gz b mo _ o H "" idx (seq 0 (List.length (symmetries_of up))) DG Lmo WZ SZ eq_refl SI SW RZ) as [NGZ [gw [RW [NW QW]]]].
    exists (slice 0 (nth v idx 0) gw). split; [exact (transform_of_group e up G _ z gw DG U RW)|].
    assert (LU : nth v idx 0 < List.length (symmetries_of up)) by (apply nth_error_Some; congruence).
    rewrite <- (QW v (nth v idx 0)); [apply QZ; congruence|exact LV|rewrite seq_length; exact LU|symmetry; apply seq_nth; exact LU].
  - destruct (graph_output _ _ _ _ _ _ ADD N y NX) as [W _].
    destruct (IH (fun q I => GE q (or_intror I)) LE y gx NX TX) as [gy [TY NY]]. clear IH.
    unfold followed_by in Z |- *. rewrite NX in Z. rewrite NY. subst d.
    destruct (transposed_lifting_facts up m c call b y z ADD ST Lm W SH Z) as [G [mo [o [DG [WZ [Lmo [SZ CM]]]]]]].
    destruct (In_nth_error _ _ (GE _ (or_introl eq_refl))) as [u U].
    destruct (grid_transform_ok up G u e b m c y DG U Lm RM W SH) as [T [RT [NT QT]]].
    assert (GY : gy = slice 0 u T).
    { inversion TY as [name' G' u' y' T' DG' U' RT' E1 E2 E3|]. subst y'.
      assert (DD : dimension_of name' = dimension_of up) by (rewrite <- (symmetry_dimension _ _ _ _ DG' U'); exact LE).
      pose proof (grid_transform name' G' u' e b m c y T' DG' U') as Q. cbv zeta in Q. rewrite DD in Q, RT'.
      rewrite (Q Lm W SH RT'), QT. reflexivity. }
    destruct (CM T z RT Z) as [gz [RZ [NZ QZ]]]. exists (slice 0 u gz). split; [exact (transform_of_group e up G u z gz DG U RZ)|].
    rewrite GY. apply QZ. rewrite NT. apply nth_error_Some. congruence.
  - unfold branches in Z |- *. destruct (net x) as [y1|] eqn:X1; [|discriminate Z]. destruct (net' x) as [y2|] eqn:X2; [|discriminate Z].
    destruct (IH1 (fun q I => GE q (in_or_app _ _ _ (or_introl I))) LE y1 gx eq_refl TX) as [g1 [T1 Q1]].
    destruct (IH2 (fun q I => GE q (in_or_app _ _ _ (or_intror I))) LE y2 gx eq_refl TX) as [g2 [T2 Q2]]. rewrite Q1, Q2.
    destruct (graph_output _ _ _ _ _ _ ADD N1 y1 X1) as [W1 [b1 [m1 [c1 [L1 S1]]]]].
    destruct (graph_output _ _ _ _ _ _ ADD N2 y2 X2) as [W2 [b2 [m2 [c2 [L2 S2]]]]].
    assert (SE : b2 = b1 /\ m2 = m1).
    { unfold position_wise in Z. destruct (list_eqb _ _ _) eqn:Q in Z; [|discriminate Z]. apply (list_eqb_eq _ Nat.eqb_eq) in Q.
      rewrite S1, S2 in Q. destruct dom.
      - rewrite !removelast_ix2 in Q. injection Q as -> Q. apply app_inj_tail in Q as [-> _]. auto.
      - rewrite !removelast_ix1 in Q. injection Q as -> ->. auto. }
    destruct SE as [-> ->].
    inversion T1 as [name G u y' T DG U RT E1 E2 E3|name G u y' T DG U RT E1 E2 E3]; subst y' dom;
      inversion T2 as [name' G' u' y' T' DG' U' RT' E1 E2' E3'|name' G' u' y' T' DG' U' RT' E1 E2' E3']; try subst y'; try subst name'.
    + assert (DD : dimension_of name = d) by (rewrite <- (symmetry_dimension _ _ _ _ DG U); exact LE).
      assert (DD' : dimension_of name' = d) by (rewrite <- (symmetry_dimension _ _ _ _ DG' U'); exact LE).
      pose proof (grid_transform name G u e b1 m1 c1 y1 T DG U) as P1. pose proof (grid_transform name' G' u' e b1 m1 c2 y2 T' DG' U') as P2.
      cbv zeta in P1, P2. rewrite DD in P1, RT. rewrite DD' in P2, RT'.
      pose proof (P1 L1 W1 S1 RT) as P1'. pose proof (P2 L1 W2 S2 RT') as P2'. rewrite P1', P2'.
      assert (FIT : respects name m1).
      { pose proof DG as DG0. apply lib_ok in DG0 as [_ OK]. rewrite DD in OK. unfold transforms_of_grid_signal, spatial_axes in RT. rewrite (tensor_sig3 d b1 m1 c1 y1 W1 L1 S1) in RT.
        destruct (grid_slices G d _ _ OK b1 m1 c1 (fun3 y1) None _ _ T (sub_idx_whole _ _ _ _ OK) L1 RT) as [[F _] _]. exact F. }
      rewrite (tensor_sig3 d b1 m1 c1 y1 W1 L1 S1), (tensor_sig3 d b1 m1 c2 y2 W2 L1 S2), (position_wise_grid d) in Z by exact L1.
      assert (EZ : forall u v : tensor A, Ok u = Ok v -> u = v) by congruence. apply EZ in Z.
      assert (WZ : wf z) by (subst z; apply wf_tab). assert (SZ : shape z = b1 :: m1 ++ [o]) by (subst z; apply shape_tab).
      pose proof (grid_transform_ok name G u e b1 m1 o z DG U) as P3. cbv zeta in P3. rewrite DD in P3.
      destruct (P3 L1 FIT WZ SZ) as [TZ [RZ [_ QZ]]]. exists (slice 0 u TZ). split; [apply (transform_of_grid e name G u z TZ DG U); rewrite DD; exact RZ|].
      rewrite (position_wise_grid d) by exact L1. f_equal. rewrite QZ. apply sig3_ext; [exact L1|]. intros bi p q BI P Q.
      subst z. unfold fun3. rewrite (at_sig3 d); [reflexivity|exact L1|exact BI| |exact Q].
      pose proof DG as DG0. apply lib_ok in DG0 as [_ OK]. rewrite DD in OK. apply nth_error_at in U as [LU <-].
      apply (pixel_in G d _ _ OK); [exact LU|split; assumption|exact P].
    + assert (E : G' = G) by congruence. subst G'. assert (E : u' = u) by (exact (same_element _ _ _ _ _ DG U' U)). subst u'.
      assert (DD : dimension_of name = d) by (rewrite <- (symmetry_dimension _ _ _ _ DG U); exact LE).
      pose proof DG as DG0. apply lib_ok in DG0 as [_ OK]. pose proof (sub_idx_whole _ _ _ _ OK) as SW.
      pose proof (group_positions name G "" (seq 0 (List.length (symmetries_of name))) phi o b1 m1 (List.length (symmetries_of name)) c1 c2 y1 y2 T T' DG SW eq_refl) as GP.
      cbv zeta in GP. rewrite DD in GP, RT, RT'.
      destruct (GP L1 W1 W2 S1 S2 RT RT') as [z' [gz [PZ [_ [_ [RZ [_ [_ [_ QZ]]]]]]]]].
      assert (E : z' = z) by congruence. subst z'. exists (slice 0 u gz). split; [apply (transform_of_group e name G u z gz DG U); rewrite DD; exact RZ|].
      apply QZ. rewrite seq_length. apply nth_error_Some. congruence.
  - unfold followed_by in Z |- *. destruct (net x) as [y|] eqn:NX; [|discriminate Z].
    destruct (IH GE LE y gx eq_refl TX) as [gy [TY NY]]. clear IH. rewrite NY.
    destruct (graph_output _ _ _ _ _ _ ADD N y NX) as [W [b [m [c [L S]]]]].
    inversion TY as [name G u y' T DG U RT E1 E2 E3|name G u y' T DG U RT E1 E2 E3]; subst y' dom.
    + assert (DD : dimension_of name = d) by (rewrite <- (symmetry_dimension _ _ _ _ DG U); exact LE).
      pose proof DG as DG0. apply lib_ok in DG0 as [_ OK]. pose proof (sub_idx_whole _ _ _ _ OK) as SW.
      pose proof (grid_statistics name G "" (seq 0 (List.length (symmetries_of name))) phi o b m c y T DG STAT SW) as GP.
      cbv zeta in GP. rewrite DD in GP, RT. destruct (GP L W S RT) as [z' [gz [PZ [_ [_ [RZ [_ [_ QZ]]]]]]]].
      assert (E : z' = z) by congruence. subst z'. exists (slice 0 u gz). split; [apply (transform_of_grid e name G u z gz DG U); rewrite DD; exact RZ|].
      apply QZ. rewrite seq_length. apply nth_error_Some. congruence.
    + assert (DD : dimension_of name = d) by (rewrite <- (symmetry_dimension _ _ _ _ DG U); exact LE).
      pose proof DG as DG0. apply lib_ok in DG0 as [_ OK]. pose proof (sub_idx_whole _ _ _ _ OK) as SW.
      pose proof (group_statistics name G "" (seq 0 (List.length (symmetries_of name))) phi o b m (List.length (symmetries_of name)) c y T DG STAT SW eq_refl) as GP.
      cbv zeta in GP. rewrite DD in GP, RT. destruct (GP L W S RT) as [z' [gz [PZ [_ [_ [RZ [_ [_ QZ]]]]]]]].
      assert (E : z' = z) by congruence. subst z'. exists (slice 0 u gz). split; [apply (transform_of_group e name G u z gz DG U); rewrite DD; exact RZ|].
      apply QZ. rewrite seq_length. apply nth_error_Some. congruence.
Qed.
End Graphs.
