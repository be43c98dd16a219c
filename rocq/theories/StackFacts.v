(** Composing equivariant layers. *)
From Verif Require Export LayerBatch StackSpec Properties_Groups Properties_Conv Properties_Pooling.
Local Open Scope string_scope.
Local Open Scope list_scope.

(** ** Subgroups of subgroups *)

Definition nested_check (G : group) : bool :=
  forallb (fun q => match dict_get group_dict (fst q) with
    | Ok K => forallb (fun r => match dict_get (g_subgroup G) (fst r) with
                                | Ok i => list_eqb Nat.eqb i (map (fun v => nth v (snd q) 0) (snd r))
                                | Err _ => false end) (g_subgroup K)
    | Err _ => false end) (g_subgroup G).

Lemma nested_all : Forall (fun p => nested_check (snd p) = true) group_dict.
Proof.
  unfold group_dict, wallpaper_group_dict, space_group_dict.
  repeat (apply Forall_cons; [cbn [fst snd]; vm_compute; reflexivity|]). apply Forall_nil.
Qed.

Lemma lib_nested name G H idx K U j :
  dict_get group_dict name = Ok G -> dict_get (g_subgroup G) H = Ok idx -> dict_get group_dict H = Ok K ->
  dict_get (g_subgroup K) U = Ok j -> dict_get (g_subgroup G) U = Ok (map (fun v => nth v idx 0) j).
Proof.
  intros DG DH DK DU. pose proof (proj1 (Forall_forall _ _) nested_all _ (dict_get_In _ _ _ DG)) as C. cbn [snd] in C.
  unfold nested_check in C. rewrite forallb_forall in C. specialize (C _ (dict_get_In _ _ _ DH)). cbn [fst snd] in C.
  rewrite DK in C. rewrite forallb_forall in C. specialize (C _ (dict_get_In _ _ _ DU)). cbn [fst snd] in C.
  destruct (dict_get (g_subgroup G) U) as [i|]; [|discriminate C]. f_equal. apply (list_eqb_eq _ Nat.eqb_eq). exact C.
Qed.

Section Slices.
Context {A : Type} {RA : Arith A}.

(** Transformations by the elements of different subgroups. *)
Lemma group_restrict name G (x gx : tensor A) b m g c U H idxU idxH :
  dict_get group_dict name = Ok G ->
  let d := dimension_of name in
  List.length m = d -> wf x -> shape x = b :: m ++ [g; c] -> g = List.length (symmetries_of name) ->
  subgroup_indices G U idxU -> subgroup_indices G H idxH ->
  transforms_of_group_signal G d U "" x = Ok gx ->
  nth 0 (shape gx) 0 = List.length idxU /\
  exists gxH, transforms_of_group_signal G d H "" x = Ok gxH /\ nth 0 (shape gxH) 0 = List.length idxH /\
    forall v u, v < List.length idxU -> u < List.length idxH -> nth v idxU 0 = nth u idxH 0 -> slice 0 v gx = slice 0 u gxH.
Proof.
  intros DG d Lm W SH GN SU SHh R. apply lib_ok in DG as [_ OK]. fold d in OK.
  pose proof (sub_idx_whole _ _ _ _ OK) as SW.
  assert (LW : g = List.length (seq 0 (List.length (symmetries_of name)))) by (rewrite seq_length; exact GN).
  assert (ST : forall idx H', sub_idx G (Some H') idx -> forall u, In u idx -> stable G u (seq 0 (List.length (symmetries_of name)))).
  { intros idx H' S u I. destruct (sub_idx_facts _ _ _ _ OK _ _ S) as [_ [B _]]. apply (stable_whole G d _ _ OK). apply B. exact I. }
  pose proof (tensor_sig4 d b m g c x W Lm SH) as X. unfold transforms_of_group_signal, spatial_axes, group_axis in *.
  rewrite X in R. rewrite X.
  destruct (group_slices G d _ _ OK b m g c (fun4 x) _ _ idxU _ gx SU SW LW Lm (ST _ _ SU) R) as [F [SG Q]].
  split; [rewrite SG; reflexivity|].
  destruct (group_slices_ok G d _ _ OK b m g c (fun4 x) (Some H) (Some "") idxH _ SHh SW LW F (ST _ _ SHh)) as [gxH [RH [SGH QH]]].
  exists gxH. split; [exact RH|]. split; [rewrite SGH; reflexivity|]. intros v u V U' N. rewrite (Q v V), (QH u U'), N. reflexivity.
Qed.

Lemma grid_restrict name G (x gx : tensor A) b m c U H idxU idxH :
  dict_get group_dict name = Ok G ->
  let d := dimension_of name in
  List.length m = d -> wf x -> shape x = b :: m ++ [c] ->
  subgroup_indices G U idxU -> subgroup_indices G H idxH ->
  transforms_of_grid_signal G d U x = Ok gx ->
  nth 0 (shape gx) 0 = List.length idxU /\
  exists gxH, transforms_of_grid_signal G d H x = Ok gxH /\ nth 0 (shape gxH) 0 = List.length idxH /\
    forall v u, v < List.length idxU -> u < List.length idxH -> nth v idxU 0 = nth u idxH 0 -> slice 0 v gx = slice 0 u gxH.
Proof.
  intros DG d Lm W SH SU SHh R. apply lib_ok in DG as [_ OK]. fold d in OK.
  pose proof (tensor_sig3 d b m c x W Lm SH) as X. unfold transforms_of_grid_signal, spatial_axes in *.
  rewrite X in R. rewrite X.
  destruct (grid_slices G d _ _ OK b m c (fun3 x) None _ idxU gx SU Lm R) as [F [SG Q]].
  split; [rewrite SG; reflexivity|].
  destruct (grid_slices_ok G d _ _ OK b m c (fun3 x) None (Some H) idxH SHh F) as [gxH [RH [SGH QH]]].
  exists gxH. split; [exact RH|]. split; [rewrite SGH; reflexivity|]. intros v u V U' N. rewrite (Q v V), (QH u U'), N. reflexivity.
Qed.

End Slices.

Section Stages.
Context {A : Type} {RA : Arith A} {PA : Pool A}.

Lemma listed_name G name H : g_name G = name -> listed_as G H = subgroup_name name H.
Proof. intros <-. reflexivity. Qed.

Lemma indices_listed name G H idx : dict_get group_dict name = Ok G -> subgroup_indices G H idx ->
  dict_get (g_subgroup G) (subgroup_name name H) = Ok idx.
Proof.
  intros DG S. apply lib_ok in DG as [NG _]. unfold subgroup_indices, parse_subgroup, subgroup_get in S. rewrite NG in S.
  unfold subgroup_name. destruct (String.eqb H ""); exact S.
Qed.

Lemma stage_facts name H m g c (call : tensor A -> result (tensor A)) b x y :
  add_commutes A ->
  convolution_stage name H m g c call \/ pooling_stage name H m g c call ->
  let d := dimension_of name in
  List.length m = d -> wf x -> shape x = b :: m ++ [g; c] -> call x = Ok y ->
  exists G idx mo o, dict_get group_dict name = Ok G /\ subgroup_indices G H idx /\ g = List.length (symmetries_of name) /\
    wf y /\ List.length mo = d /\ shape y = b :: mo ++ [List.length idx; o] /\
    commutes_at (transforms_of_group_signal G d H "") (transforms_of_group_signal G d H H) call x.
Proof.
  intros ADD ST d Lm W SH CA. destruct ST as [ST|ST].
  - destruct ST as [G [a [bs [kinit [binit [L [k [s [LF [HS [AL [B [SZ [RS ->]]]]]]]]]]]]]]. fold d in B, SZ.
    pose proof LF as [DG [AG AF]].
    assert (P : exists opt, option_of a opt).
    { destruct B as [L0 [I B]].
      destruct (conv_init_inv G d name false a L0 DG AG AF I) as [p [_ [_ [_ [_ [PN _]]]]]]. exists (upper p), p. auto. }
    destruct P as [opt OP].
    destruct (built_facts name G a H opt false true bs m g c kinit binit L k s (repeat 1 d) LF HS OP B Lm SZ)
      as [OK [eb [ea [act [dom [_ [SA [SD [F [CC _]]]]]]]]]]. destruct (SD eq_refl) as [SD' GD].
    destruct (conv_output G d _ _ false true act dom c _ (ca_filters a) k s (repeat 1 d) eb ea _ _ _ _ _ L m g b x y OK F CC eq_refl Lm W SH CA)
      as [WY [mo [Lmo SY]]].
    exists G, act, mo, (ca_filters a). split; [exact DG|]. split; [exact SA|]. split.
    { rewrite GD. rewrite (whole_dom G d _ _ dom OK SD'). apply seq_length. }
    split; [exact WY|]. split; [exact Lmo|]. split; [exact SY|].
    exact (C22_group_convolution_is_equivariant name G a H bs m g c kinit binit L k s x b ADD LF HS AL B Lm SZ RS W SH).
  - destruct ST as [G [t [a [opt [bs [L [k [s [OI [PF [HS [OP [B [SZ [RK [RS [AL [CND ->]]]]]]]]]]]]]]]]]]. fold d in B, SZ.
    pose proof PF as [DG _].
    destruct (pooling_facts name G d t a H opt bs m g c L k s x y PF HS OP B Lm SZ CA)
      as [OK [GN [_ [eb [ea [sub [cos [DS [DC [SA F]]]]]]]]]]. fold d in OK, F.
    assert (NES : sub <> []).
    { destruct (sub_idx_facts _ _ _ _ OK _ _ SA) as [_ [_ [HD _]]]. destruct sub; [discriminate HD|discriminate]. }
    pose proof SH as SH'. rewrite GN in SH'.
    destruct (pool_output G d _ _ sub cos k s eb ea _ t L m c b x y OK F NES Lm W SH' CA) as [WY [mo [Lmo SY]]].
    exists G, sub, mo, c. split; [exact DG|]. split; [exact SA|]. split; [exact GN|].
    split; [exact WY|]. split; [exact Lmo|]. split; [exact SY|].
    destruct (pa_strides a) as [st|] eqn:ST.
    + exact (C32_pooling_is_equivariant name G t a H opt bs m g c L k s st x b m OI PF HS OP (or_introl AL) B Lm SZ RK RS ST CND Lm (fun _ _ => eq_refl) W SH).
    + apply (C33_default_strides name G t a H opt bs m g c L k s x b OI PF HS OP AL B Lm SZ RK ST CND W SH).
Qed.

Lemma lifting_facts name H m c (call : tensor A -> result (tensor A)) b x y :
  add_commutes A -> lifting_stage name H m c call ->
  let d := dimension_of name in
  List.length m = d -> wf x -> shape x = b :: m ++ [c] -> call x = Ok y ->
  exists G idx mo o, dict_get group_dict name = Ok G /\ subgroup_indices G H idx /\
    wf y /\ List.length mo = d /\ shape y = b :: mo ++ [List.length idx; o] /\
    commutes_at (transforms_of_grid_signal G d H) (transforms_of_group_signal G d H H) call x.
Proof.
  intros ADD ST d Lm W SH CA.
  destruct ST as [G [a [bs [kinit [binit [L [k [s [LF [HS [AL [B [SZ [RS ->]]]]]]]]]]]]]]. fold d in B, SZ.
  pose proof LF as [DG [AG AF]].
  assert (P : exists opt, option_of a opt).
  { destruct B as [L0 [I B]].
    destruct (conv_init_inv G d name false a L0 DG AG AF I) as [p [_ [_ [_ [_ [PN _]]]]]]. exists (upper p), p. auto. }
  destruct P as [opt OP].
  destruct (built_facts name G a H opt false false bs m 0 c kinit binit L k s (repeat 1 d) LF HS OP B Lm SZ)
    as [OK [eb [ea [act [dom [_ [SA [_ [F [CC _]]]]]]]]]].
  destruct (conv_output G d _ _ false false act dom c c (ca_filters a) k s (repeat 1 d) eb ea _ _ _ _ _ L m 0 b x y OK F CC eq_refl Lm W SH CA)
    as [WY [mo [Lmo SY]]].
  exists G, act, mo, (ca_filters a). split; [exact DG|]. split; [exact SA|].
  split; [exact WY|]. split; [exact Lmo|]. split; [exact SY|].
  exact (C21_lifting_convolution_is_equivariant name G a H bs m c kinit binit L k s x b ADD LF HS AL B Lm SZ RS W SH).
Qed.

(** The library group of the subgroup, and its action on the output. *)
Lemma output_group name G H idx :
  dict_get group_dict name = Ok G -> subgroup_indices G H idx ->
  exists K, dict_get group_dict (subgroup_name name H) = Ok K /\ dimension_of (subgroup_name name H) = dimension_of name /\
    List.length idx = List.length (symmetries_of (subgroup_name name H)) /\
    forall (y gy : tensor A) b mo o, wf y -> List.length mo = dimension_of name -> shape y = b :: mo ++ [List.length idx; o] ->
      transforms_of_group_signal G (dimension_of name) H H y = Ok gy ->
      transforms_of_group_signal K (dimension_of name) "" "" y = Ok gy.
Proof.
  intros DG S. pose proof (indices_listed _ _ _ _ DG S) as DH.
  destruct (lib_sub _ _ _ _ DG DH) as [K [DK [NE [OKK EE]]]]. exists K. split; [exact DK|].
  pose proof DG as DG'. apply lib_ok in DG' as [NG OK].
  destruct (ok_sub _ _ _ _ OK _ _ DH) as [_ [_ [_ [_ [_ [_ DIM]]]]]]. destruct (lib_dims _ _ _ _ _ DG DH DK) as [GD _]. split; [exact (proj1 (DIM (proj1 GD) (proj2 GD)))|].
  pose proof (LibraryTheorems.sub_length _ _ _ _ OK _ _ DH GD) as LI. split; [congruence|].
  intros y gy b mo o W Lmo SY R.
  apply (C11_subgroup_object_acts_alike name G (subgroup_name name H) idx K y gy (seq 1 (dimension_of name)) (dimension_of name + 1) 0 DG DH DK W).
  - unfold rank. rewrite SY. cbn [List.length]. rewrite app_length. cbn [List.length]. lia.
  - lia.
  - split; [apply seq_length|]. split; [apply seq_NoDup|]. split; [|intros ->; exists 1; reflexivity].
    intros v I. apply in_seq in I. unfold rank. rewrite SY. cbn [List.length]. rewrite app_length. cbn [List.length]. lia.
  - intros I. apply in_seq in I. lia.
  - rewrite SY. rewrite Nat.add_1_r. cbn [nth]. rewrite app_nth2 by lia. rewrite Lmo, Nat.sub_diag. cbn [nth].
    rewrite (ok_order _ _ _ _ OKK). congruence.
  - unfold transforms_of_group_signal, spatial_axes, group_axis in R. rewrite <- R.
    pose proof (lib_name_nonempty _ _ DG) as NEN. rewrite <- NG in NEN.
    assert (PS : parse_subgroup G (Some (subgroup_name name H)) = parse_subgroup G (Some H)).
    { unfold parse_subgroup, subgroup_name. rewrite NG. destruct (String.eqb_spec H "") as [Q|Q].
      - destruct (String.eqb_spec name ""); [congruence|reflexivity].
      - destruct (String.eqb_spec H ""); [contradiction|reflexivity]. }
    rewrite <- (action_parsed G NEN y _ _ _ (Some H) (Some H)), <- PS, (action_parsed G NEN). reflexivity.
Qed.

Lemma own_name name G (x : tensor A) sp nga ga : dict_get group_dict name = Ok G ->
  action G x sp nga ga (Some name) (Some "") = action G x sp nga ga (Some "") (Some "").
Proof.
  intros DG. pose proof (lib_name_nonempty _ _ DG) as NE. apply lib_ok in DG as [NG _]. rewrite <- NG in NE.
  rewrite <- (action_parsed G NE x _ _ _ (Some name) (Some "")), <- (action_parsed G NE x _ _ _ (Some "") (Some "")).
  unfold parse_subgroup at 1 3. rewrite NG in *. apply String.eqb_neq in NE. rewrite NE. reflexivity.
Qed.

Lemma listed_indices name G H idx : dict_get group_dict name = Ok G -> dict_get (g_subgroup G) H = Ok idx -> subgroup_indices G H idx.
Proof.
  intros DG DH. destruct (lib_sub _ _ _ _ DG DH) as [_ [_ [NE _]]]. unfold subgroup_indices, parse_subgroup, subgroup_get.
  apply String.eqb_neq in NE. rewrite NE. exact DH.
Qed.

(** One layer, then the others. *)
Lemma compose_stage name G H idx K last Gl j b mo o (x gx gxH y gyH : tensor A) call rest :
  dict_get group_dict name = Ok G -> subgroup_indices G H idx -> dict_get group_dict (subgroup_name name H) = Ok K ->
  let d := dimension_of name in
  dict_get (g_subgroup K) last = Ok j ->
  wf y -> List.length mo = d -> shape y = b :: mo ++ [List.length idx; o] ->
  transforms_of_group_signal G d H H y = Ok gyH ->
  (forall u, u < List.length idx -> call (slice 0 u gxH) = Ok (slice 0 u gyH)) ->
  (forall v, v < List.length j -> slice 0 v gx = slice 0 (nth v j 0) gxH) ->
  nth 0 (shape gx) 0 = List.length j ->
  commutes_at (transforms_of_group_signal K d last "") (transforms_of_group_signal Gl d "" "") (run rest) y ->
  forall z, call x = Ok y -> run (call :: rest) x = Ok z ->
  exists gz, transforms_of_group_signal Gl d "" "" z = Ok gz /\ nth 0 (shape gz) 0 = nth 0 (shape gx) 0 /\
    forall v, v < nth 0 (shape gx) 0 -> run (call :: rest) (slice 0 v gx) = Ok (slice 0 v gz).
Proof.
  intros DG S DK d DJ WY Lmo SY RY CU SL N0 CR z CX RZ.
  destruct (output_group name G H idx DG S) as [K' [DK' [DIM [LI OG]]]]. rewrite DK in DK'. injection DK' as <-.
  pose proof (OG y gyH b mo o WY Lmo SY RY) as RK. fold d in RK, DIM.
  pose proof DK as DKK. apply lib_ok in DKK as [NK OKK].
  pose proof (listed_indices _ _ _ _ DK DJ) as SJ. pose proof (sub_idx_whole _ _ _ _ OKK) as SW.
  pose proof (group_restrict (subgroup_name name H) K y gyH b mo (List.length idx) o "" last (seq 0 (List.length (symmetries_of (subgroup_name name H)))) j DK) as GR. cbv zeta in GR. rewrite DIM in GR.
  destruct (GR Lmo WY SY LI SW SJ RK) as [NY [gyL [RL [NL QL]]]]. clear GR.
  cbn [run] in RZ. rewrite CX in RZ.
  destruct (CR gyL z RL RZ) as [gz [RZ' [NZ QZ]]]. exists gz. split; [exact RZ'|]. split; [congruence|].
  rewrite N0. intros v V. cbn [run]. rewrite (SL v V).
  assert (J : nth v j 0 < List.length idx).
  { rewrite LI. destruct (sub_idx_facts _ _ _ _ OKK _ _ SJ) as [_ [B _]]. apply B, nth_In. exact V. }
  rewrite (CU _ J). rewrite (QL (nth v j 0) v).
  - apply QZ. rewrite NL. exact V.
  - rewrite seq_length. rewrite LI in J. exact J.
  - exact V.
  - rewrite LI in J. rewrite seq_nth by exact J. reflexivity.
Qed.

Lemma stack_commutes name (x : tensor A) layers last :
  add_commutes A -> stack name x layers last ->
  forall G, dict_get group_dict name = Ok G ->
  let d := dimension_of name in
  exists Gl idx, dict_get group_dict last = Ok Gl /\ dict_get (g_subgroup G) last = Ok idx /\ dimension_of last = d /\
    commutes_at (transforms_of_group_signal G d last "") (transforms_of_group_signal Gl d "" "") (run layers) x.
Proof.
  intros ADD ST. induction ST as [name x|name H x b m g c call y rest last Lm W SH STG CX ST IH]; intros G DG d.
  - exists G, (seq 0 (List.length (symmetries_of name))). split; [exact DG|]. split.
    { pose proof DG as DG'. apply lib_ok in DG' as [NG OK]. pose proof (sub_idx_whole _ _ _ _ OK) as SW. unfold sub_idx, parse_subgroup, subgroup_get in SW.
      cbn [String.eqb] in SW. rewrite NG in SW. exact SW. }
    split; [reflexivity|]. intros gx y R C. cbn [run] in C. injection C as <-. exists gx.
    unfold transforms_of_group_signal in *. rewrite (own_name name G) in R by exact DG. split; [exact R|]. split; [reflexivity|]. intros u U. reflexivity.
  - fold d in Lm. destruct (stage_facts name H m g c call b x y ADD STG Lm W SH CX) as [G' [idx [mo [o [DG' [SI [GN [WY [Lmo [SY CM]]]]]]]]]].
    rewrite DG in DG'. injection DG' as <-. fold d in Lmo, CM.
    destruct (output_group name G H idx DG SI) as [K [DK [DIM [LI OG]]]].
    destruct (IH K DK) as [Gl [j [DL [DJ [DIML CR]]]]]. rewrite DIM in DIML, CR. fold d in DIML, CR.
    pose proof (indices_listed _ _ _ _ DG SI) as DH.
    pose proof (lib_nested name G _ idx K last j DG DH DK DJ) as DN.
    exists Gl, (map (fun v => nth v idx 0) j). split; [exact DL|]. split; [exact DN|]. split; [exact DIML|].
    intros gx z R RZ.
    destruct (group_restrict name G x gx b m g c last H _ idx DG Lm W SH GN (listed_indices _ _ _ _ DG DN) SI R) as [N0 [gxH [RH [NH QH]]]].
    rewrite map_length in N0, QH. fold d in RH.
    destruct (CM gxH y RH CX) as [gyH [RY [NY QY]]]. rewrite NH in QY.
    apply (compose_stage name G H idx K last Gl j b mo o x gx gxH y gyH call rest DG SI DK DJ WY Lmo SY RY QY); try assumption.
    intros v V. apply lib_ok in DK as LK. destruct LK as [_ OKK]. pose proof (listed_indices _ _ _ _ DK DJ) as SJ.
    destruct (sub_idx_facts _ _ _ _ OKK _ _ SJ) as [_ [B _]]. apply QH; [exact V|rewrite LI; apply B, nth_In; exact V|].
    rewrite nth_indep with (d' := nth 0 idx 0) by (rewrite map_length; exact V). apply (map_nth (fun v => nth v idx 0)).
Qed.

(** The same with a lifting convolution first. *)
Lemma lifting_stack_commutes name H (x y : tensor A) b m c call rest last :
  add_commutes A -> lifting_stage name H m c call ->
  forall G, dict_get group_dict name = Ok G ->
  let d := dimension_of name in
  List.length m = d -> wf x -> shape x = b :: m ++ [c] -> call x = Ok y ->
  stack (subgroup_name name H) y rest last ->
  exists Gl idx, dict_get group_dict last = Ok Gl /\ dict_get (g_subgroup G) last = Ok idx /\ dimension_of last = d /\
    commutes_at (transforms_of_grid_signal G d last) (transforms_of_group_signal Gl d "" "") (run (call :: rest)) x.
Proof.
  intros ADD STG G DG d Lm W SH CX ST.
  destruct (lifting_facts name H m c call b x y ADD STG Lm W SH CX) as [G' [idx [mo [o [DG' [SI [WY [Lmo [SY CM]]]]]]]]].
  rewrite DG in DG'. injection DG' as <-. fold d in Lmo, CM.
  destruct (output_group name G H idx DG SI) as [K [DK [DIM [LI OG]]]].
  destruct (stack_commutes _ y rest last ADD ST K DK) as [Gl [j [DL [DJ [DIML CR]]]]]. rewrite DIM in DIML, CR. fold d in DIML, CR.
  pose proof (indices_listed _ _ _ _ DG SI) as DH.
  pose proof (lib_nested name G _ idx K last j DG DH DK DJ) as DN.
  exists Gl, (map (fun v => nth v idx 0) j). split; [exact DL|]. split; [exact DN|]. split; [exact DIML|].
  intros gx z R RZ.
  destruct (grid_restrict name G x gx b m c last H _ idx DG Lm W SH (listed_indices _ _ _ _ DG DN) SI R) as [N0 [gxH [RH [NH QH]]]].
  rewrite map_length in N0, QH. fold d in RH.
  destruct (CM gxH y RH CX) as [gyH [RY [NY QY]]]. rewrite NH in QY.
  apply (compose_stage name G H idx K last Gl j b mo o x gx gxH y gyH call rest DG SI DK DJ WY Lmo SY RY QY); try assumption.
  intros v V. apply lib_ok in DK as LK. destruct LK as [_ OKK]. pose proof (listed_indices _ _ _ _ DK DJ) as SJ.
  destruct (sub_idx_facts _ _ _ _ OKK _ _ SJ) as [_ [B _]]. apply QH; [exact V|rewrite LI; apply B, nth_In; exact V|].
  rewrite nth_indep with (d' := nth 0 idx 0) by (rewrite map_length; exact V). apply (map_nth (fun v => nth v idx 0)).
Qed.

(** The output of a stack. *)
Lemma stack_output name (x : tensor A) layers last :
  add_commutes A -> stack name x layers last ->
  forall G b m c, dict_get group_dict name = Ok G ->
  List.length m = dimension_of name -> wf x -> shape x = b :: m ++ [List.length (symmetries_of name); c] ->
  exists z mo o, run layers x = Ok z /\ wf z /\ List.length mo = dimension_of last /\
    shape z = b :: mo ++ [List.length (symmetries_of last); o].
Proof.
  intros ADD ST. induction ST as [name x|name H x b m g c call y rest last Lm W SH STG CX ST IH]; intros G b' m' c' DG Lm' W' SH'.
  - exists x, m', c'. cbn [run]. auto.
  - destruct (stage_facts name H m g c call b x y ADD STG Lm W SH CX) as [G' [idx [mo [o [DG' [SI [GN [WY [Lmo [SY CM]]]]]]]]]].
    rewrite DG in DG'. injection DG' as <-.
    destruct (output_group name G H idx DG SI) as [K [DK [DIM [LI _]]]].
    assert (BB : b = b') by (rewrite SH in SH'; injection SH'; auto). subst b'.
    rewrite LI in SY. rewrite <- DIM in Lmo.
    destruct (IH K b mo o DK Lmo WY SY) as [z [mz [oz [RZ Q]]]]. exists z, mz, oz. split; [|exact Q].
    cbn [run]. rewrite CX. exact RZ.
Qed.

Lemma run_app (l1 l2 : list (tensor A -> result (tensor A))) (x : tensor A) :
  run (l1 ++ l2) x = match run l1 x with Ok y => run l2 y | Err e => Err e end.
Proof. revert x. induction l1 as [|f l1 IH]; intros x; cbn [run app]; [reflexivity|]. destruct (f x); [apply IH|reflexivity]. Qed.

(** Global pooling of the output. *)
Lemma invariant_after last Gl d tin layers (x gx z : tensor A) t fmt kd input Lg0 Lg b mo o :
  order_irrelevant (pool_fun (A := A) t) -> known_format fmt -> first_of fmt = false ->
  dict_get group_dict last = Ok Gl -> dimension_of last = d ->
  global_init d t fmt kd = Ok Lg0 -> global_build Lg0 input = Ok Lg ->
  commutes_at tin (transforms_of_group_signal Gl d "" "") (run layers) x ->
  tin x = Ok gx -> run layers x = Ok z -> wf z -> List.length mo = d ->
  shape z = b :: mo ++ [List.length (symmetries_of last); o] ->
  forall v, v < nth 0 (shape gx) 0 ->
    run (layers ++ [global_call Lg]) (slice 0 v gx) = run (layers ++ [global_call Lg]) x.
Proof.
  intros OI KF FF DL DD I B CM R RZ WZ Lmo SZ v V.
  destruct (CM gx z R RZ) as [gz [RG [NZ QZ]]].
  pose proof DL as DL'. apply lib_ok in DL' as [_ OK]. pose proof (sub_idx_whole _ _ _ _ OK) as SW.
  pose proof (C34_global_pooling_is_invariant last Gl t fmt kd input "" "" _ _ Lg0 Lg z gz b mo o OI KF DL SW SW (fun _ h => h)) as INV.
  cbv zeta in INV. rewrite DD in INV. destruct (INV I B Lmo WZ) as [NG Q].
  - rewrite SZ, seq_length. unfold global_shape. rewrite FF. reflexivity.
  - unfold transforms_of_group_signal, spatial_axes, group_axis in RG. unfold global_axes, global_group_axis. rewrite FF.
    rewrite (Nat.add_comm 1 d). exact RG.
  - rewrite !run_app, RZ, (QZ v V). cbn [run]. rewrite Q by (rewrite <- NG, NZ; exact V). reflexivity.
Qed.

End Stages.
