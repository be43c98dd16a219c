(** Pooling layers in the two data formats (compare FormatFacts). *)
From Verif Require Export FormatFacts.
Local Open Scope string_scope.
Local Open Scope list_scope.

Section Pooling.
Context {A : Type} {RA : Arith A} {PA : Pool A}.

Definition po_first (d : nat) (L : pool_layer) : pool_layer :=
  mkPool (gt_first d (po_gt L)) (po_type L) (po_size L) (po_strides L) (po_padding L) "channels_first".

Lemma pool_init_first d t a : pa_data_format a = "channels_last" ->
  pool_init d t (pool_with_format a "channels_first") = (L <- pool_init d t a ;; Ok (po_first d L)).
Proof.
  intros FM. unfold pool_init, pool_with_format. cbn [pa_group pa_subgroup pa_pool_size pa_strides pa_padding pa_data_format pa_allow].
  rewrite FM, gt_init_first. destruct (gt_init _ _ _ _ _ _ _ _ _) as [T|e]; [|reflexivity]. cbn [bind].
  destruct (standardize_tuple d (pa_pool_size a)) as [k|]; [|reflexivity]. cbn [bind].
  destruct (standardize_tuple d (match pa_strides a with Some s => s | None => pa_pool_size a end)) as [s|]; reflexivity.
Qed.

(** The layer [L] in the other format, with the padding layer [P]. *)
Definition pool_twin_of (d : nat) (L : pool_layer) (P : padding_layer) (reshaped : sshape) : pool_layer :=
  let T := po_gt L in
  mkPool (mkGT (gt_dims T) (gt_transpose T) (gt_group T) (gt_subgroup T) (gt_domain T) (gt_acting T) P "channels_first"
               1 (Z.of_nat (d + 2)) (gt_group_valued T) (Some reshaped) (gt_bias_indices T) (gt_kernel_indices T) (gt_pooling_indices T))
         (po_type L) (po_size L) (po_strides L) (po_padding L) "channels_first".

Definition comp_table (G : group) (sub cos : list nat) : tensor nat :=
  tab [List.length sub; List.length cos] (fun i => comp G (nth (nth 0 i 0) sub 0) (nth (nth 1 i 0) cos 0)).

Lemma pool_build_twin G d E eq name t (a : pool_args) L0 bs m g c L1 {d0} :
  group_ok G d0 E eq -> dict_get group_dict name = Ok G -> (pa_group a = ByName name \/ pa_group a = Object G) ->
  pa_data_format a = "channels_last" -> pool_init d t a = Ok L0 -> List.length m = d ->
  pool_build L0 (bs :: map Some m ++ [Some g; Some c]) = Ok L1 ->
  (exists p, pool_padding_name a = Some p /\
     padding_init (pa_pool_size a) d (assumed_strides a) (Some p) (pa_allow a) "channels_last" false = Ok (gt_padding (po_gt L0))) /\
  g = List.length E /\
  (exists sub cos k s, sub_idx G (pa_subgroup a) sub /\ gt_group (po_gt L1) = G /\ gt_format (po_gt L1) = "channels_last" /\ po_format L1 = "channels_last" /\
     gt_group_axis (po_gt L1) = Z.of_nat (d + 1) /\ gt_channels_axis (po_gt L1) = Z.of_nat (d + 2) /\ gt_group_valued (po_gt L1) = true /\
     subgroup_get G (gt_acting (po_gt L1)) = Ok sub /\ sub <> [] /\ (forall h, In h sub -> h < List.length E) /\ (forall h, In h cos -> h < List.length E) /\
     gt_pooling_indices (po_gt L1) = Some (comp_table G sub cos) /\
     po_size L1 = k /\ po_strides L1 = s /\ List.length k = d /\ List.length s = d) /\
  padding_build (gt_padding (po_gt L0)) (bs :: map Some m ++ [Some (g * c)]) = Ok (gt_padding (po_gt L1)) /\
  pool_build (po_first d L0) (static_channels_first_shape true bs m g c)
  = (P <- padding_build (gt_padding (po_gt L0)) (bs :: Some (g * c) :: map Some m) ;; Ok (pool_twin_of d L1 P (bs :: Some (g * c) :: map Some m))).
Proof.
  intros OK DG AG AF I LM B.
  assert (NG : g_name G = name) by (apply (lib_ok _ _ DG)). pose proof (lib_name_nonempty _ _ DG) as NEG.
  unfold pool_init, gt_init in I. rewrite AF in I.
  assert (GA : match pa_group a with ByName s => dict_get group_dict s | Object G => Ok G end = Ok G).
  { destruct AG as [-> | ->]; [exact DG|reflexivity]. }
  rewrite GA in I. cbn [bind] in I. fold (pool_padding_name a) in I. fold (pool_strides a) in I. fold (assumed_strides a) in I.
  destruct (parse_subgroup G (pa_subgroup a)) as [Hn|] eqn:PS; [|discriminate I].
  destruct (dict_get group_dict Hn) as [K|] eqn:DK; [|discriminate I]. cbn [bind] in I.
  assert (NK : g_name K = Hn) by (apply (lib_ok _ _ DK)). rewrite NK, NG in I.
  destruct (pool_padding_name a) as [p|]; [|discriminate I].
  destruct (padding_init _ _ _ _ _ _ _) as [P|] eqn:PI; [|discriminate I]. cbn [bind] in I.
  destruct (standardize_tuple d (pa_pool_size a)) as [k|] eqn:SK; [|discriminate I]. cbn [bind] in I.
  destruct (standardize_tuple d (pool_strides a)) as [s|] eqn:SS; [|discriminate I]. cbn [bind] in I.
  change (standardize_format "channels_last") with (@Ok string "channels_last") in I. cbn [bind String.eqb Ascii.eqb Bool.eqb] in I.
  replace (Z.of_nat d + 1)%Z with (Z.of_nat (d + 1)) in I by lia.
  replace (Z.of_nat (d + 1) + 0)%Z with (Z.of_nat (d + 1)) in I by lia.
  injection I as <-.
  destruct (std_pos d _ _ SK) as [Lk Pk]. destruct (std_pos d _ _ SS) as [Ls Ps].
  unfold pool_build, gt_build, po_first, gt_first in *.
  cbn [po_gt gt_dims gt_format gt_domain gt_channels_axis gt_group_axis gt_group gt_padding gt_transpose] in *.
  set (sh := bs :: map Some m ++ [Some g; Some c]) in *.
  assert (LSH : List.length sh = d + 3) by (unfold sh; cbn [List.length]; rewrite app_length, map_length; cbn [List.length]; lia).
  assert (LSF : List.length (static_channels_first_shape true bs m g c) = d + 3)
    by (unfold static_channels_first_shape; cbn [List.length]; rewrite app_length, map_length; cbn [List.length]; lia).
  rewrite LSH, Nat.eqb_refl in B. rewrite LSF, Nat.eqb_refl. cbn [String.eqb Ascii.eqb Bool.eqb andb] in *.
  replace (subgroup_get G (Some name)) with (Ok (seq 0 (List.length E))) in B |- * by (symmetry; rewrite <- NG; apply (ok_self _ _ _ _ OK)).
  cbn [bind] in B |- *. rewrite (py_nth_nat _ (d + 1) None) in B by lia. rewrite (py_nth_nat _ (d + 2) None) by lia. cbn [bind] in B |- *.
  replace (nth (d + 1) sh None) with (Some g) in B.
  2:{ unfold sh. replace (d + 1) with (S d) by lia. cbn [nth]. rewrite app_nth2 by (rewrite map_length; lia).
      rewrite map_length, LM, Nat.sub_diag. reflexivity. }
  replace (nth (d + 2) (static_channels_first_shape true bs m g c) None) with (Some g).
  2:{ unfold static_channels_first_shape. replace (d + 2) with (S (S d)) by lia. cbn [nth]. rewrite app_nth2 by (rewrite map_length; lia).
      rewrite map_length, LM, Nat.sub_diag. reflexivity. }
  rewrite seq_length in B |- *. destruct (Nat.eqb_spec g (List.length E)) as [GN|]; [|discriminate B].
  replace (Z.of_nat (d + 1) + 1)%Z with (Z.of_nat (d + 2)) in B by lia.
  unfold sh in B. rewrite merge_static in B by exact LM. unfold static_channels_first_shape at 1. rewrite merge_static_first by exact LM. cbn [bind] in B |- *.
  destruct (padding_build P (bs :: map Some m ++ [Some (g * c)])) as [P'|] eqn:PB; [|discriminate B].
  cbn [bind] in B. unfold gt_build_pool, gt_set_build in B. cbn [gt_group gt_subgroup gt_bias_indices gt_kernel_indices] in B. rewrite NK in B.
  destruct (dict_get (g_cosets G) Hn) as [cos|] eqn:DC; [|discriminate B]. cbn [bind] in B.
  destruct (take (g_composition G) (vec cos) 1) as [i1|] eqn:TK; [|discriminate B]. cbn [bind] in B.
  destruct (dict_get (g_subgroup G) Hn) as [sub|] eqn:DS; [|discriminate B]. cbn [bind] in B.
  assert (SA : sub_idx G (pa_subgroup a) sub) by (unfold sub_idx; rewrite PS; exact DS).
  destruct (sub_idx_facts _ _ _ _ OK _ _ SA) as [_ [BS [HA _]]].
  assert (BC : forall c, In c cos -> c < List.length E).
  { destruct (ok_cos _ _ _ _ OK _ _ DS) as [cos' [DC' [_ [BC _]]]]. rewrite DC in DC'. injection DC' as <-. exact BC. }
  pose proof (pooling_indices G E eq OK sub cos BS BC) as PX. rewrite TK in PX. cbn [bind] in PX. fold (comp_table G sub cos) in PX.
  rewrite PX in B. cbn [bind] in B. injection B as <-.
  split; [exists p; split; [reflexivity|exact PI]|]. split; [exact GN|]. split; [|split; [reflexivity|]].
  - exists sub, cos, k, s. split; [exact SA|]. repeat (split; [first [reflexivity|assumption]|]).
    split; [intros ->; discriminate HA|]. repeat (split; [first [reflexivity|assumption]|]). assumption.
  - destruct (padding_build P (bs :: Some (g * c) :: map Some m)) as [P2|e2]; cbn [bind]; [|reflexivity].
    unfold gt_build_pool, gt_set_build. cbn [gt_group gt_subgroup gt_bias_indices gt_kernel_indices]. rewrite NK, DC. cbn [bind].
    rewrite TK. cbn [bind]. rewrite DS. cbn [bind]. rewrite PX. cbn [bind]. reflexivity.
Qed.

(** Subgroup pooling with the group axis last. *)
Lemma subgroup_pooling_first G d E eq f T sub cos b m c (X : nat -> list nat -> nat -> nat -> A) {d0} :
  group_ok G d0 E eq ->
  (forall h, In h sub -> h < List.length E) -> (forall c, In c cos -> c < List.length E) -> gt_group_axis T = Z.of_nat (d + 2) ->
  gt_pooling_indices T = Some (comp_table G sub cos) -> List.length m = d ->
  subgroup_pooling f T (tab (b :: c :: m ++ [List.length E]) (first4 d X))
  = Ok (tab (b :: c :: m ++ [List.length sub])
            (first4 d (fun bi p h q => f (map (fun e => X bi p (comp G (nth h sub 0) e) q) cos)))).
Proof.
  intros OK BS BC GA PI L. unfold subgroup_pooling. rewrite PI, GA. set (n := List.length E) in *.
  assert (LS : List.length (b :: c :: m ++ [n]) = d + 3) by (cbn [List.length]; rewrite app_length; cbn [List.length]; lia).
  assert (N2 : forall (u v w : nat) (l r : list nat), List.length l = d -> nth (d + 2) (u :: v :: l ++ w :: r) 0 = w).
  { intros u v w l r LL. rewrite Nat.add_comm. cbn [plus nth]. rewrite app_nth2 by lia. rewrite LL, Nat.sub_diag. reflexivity. }
  unfold comp_table. rewrite take_tab; [|lia| |apply wf_tab].
  2:{ intros v V. apply In_data_tab in V as [i [I ->]]. apply inb2 in I as [h [e [-> [H C]]]].
      rewrite N2 by exact L. cbn [nth]. apply (ok_closed _ _ _ _ OK); [apply BS, nth_In; exact H|apply BC, nth_In; exact C]. }
  cbn [bind]. rewrite shape_tab. cbn [List.length].
  assert (FS : forall (u v : nat) (l r : list nat), List.length l = d -> firstn (d + 2) (u :: v :: l ++ r) = u :: v :: l).
  { intros u v l r LL. rewrite Nat.add_comm. cbn [plus firstn]. rewrite firstn_app_exact by lia. reflexivity. }
  assert (SH : firstn (d + 2) (b :: c :: m ++ [n]) ++ [List.length sub; List.length cos] ++ skipn (S (d + 2)) (b :: c :: m ++ [n])
               = (b :: c :: m ++ [List.length sub]) ++ [List.length cos]).
  { rewrite FS by exact L. rewrite skipn_all2 by lia. cbn [app]. rewrite <- app_assoc. reflexivity. }
  rewrite SH. unfold reduce.
  replace (Z.of_nat (d + 2) + 1)%Z with (Z.of_nat (d + 3)) by lia.
  assert (L3 : List.length (b :: c :: m ++ [List.length sub]) = d + 3) by (cbn [List.length]; rewrite app_length; cbn [List.length]; lia).
  rewrite rank_tab, norm_axis_nat by (rewrite app_length, L3; cbn [List.length]; lia). cbn [bind]. rewrite shape_tab.
  rewrite (app_nth2 _ [List.length cos]) by lia. rewrite L3, Nat.sub_diag. cbn [nth].
  assert (RM : remove_at (d + 3) ((b :: c :: m ++ [List.length sub]) ++ [List.length cos]) = b :: c :: m ++ [List.length sub]).
  { rewrite <- L3, remove_at_app, app_nil_r. reflexivity. }
  rewrite RM. f_equal. apply tab_ext. intros i I. apply inbF4_inv in I as [bi [q [p [h [-> [B [Q [P H]]]]]]]].
  pose proof (inb_length _ _ P) as LP. rewrite L in LP. rewrite first4_ix by exact LP.
  f_equal. rewrite <- (map_nth_seq cos). apply map_ext_in. intros v V. apply in_seq in V.
  assert (LI : List.length (bi :: q :: p ++ [h]) = d + 3) by (cbn [List.length]; rewrite app_length; cbn [List.length]; lia).
  assert (IN : insert_at (d + 3) v (bi :: q :: p ++ [h]) = (bi :: q :: p ++ [h]) ++ [v]) by (rewrite <- LI; symmetry; apply insert_last).
  rewrite IN. rewrite at_tab.
  2:{ apply inb_app; [|apply inb_cons; split; [lia|apply inb_nil]]. apply inb_cons. split; [exact B|]. apply inb_cons. split; [exact Q|].
      apply inb_app; [exact P|]. apply inb_cons. split; [exact H|apply inb_nil]. }
  cbn [app]. rewrite <- app_assoc. cbn [app]. rewrite FS by exact LP.
  replace (skipn (d + 2) (bi :: q :: p ++ [h; v])) with [h; v].
  2:{ rewrite Nat.add_comm. cbn [plus skipn]. rewrite skipn_app_exact by lia. reflexivity. }
  cbn [firstn]. replace (skipn (d + 2 + 2) (bi :: q :: p ++ [h; v])) with (@nil nat) by (symmetry; apply skipn_all2; cbn [List.length]; rewrite app_length; cbn [List.length]; lia).
  rewrite at_tab by (apply inb_cons; split; [exact H|]; apply inb_cons; split; [lia|apply inb_nil]).
  cbn [nth app]. rewrite first4_ix by exact LP. reflexivity.
Qed.

(** The pooling operation in both formats. *)
Lemma pool_last_form d b n C k (X : nat -> list nat -> nat -> A) f s padding :
  List.length n = d -> List.length s = d -> List.length k = d ->
  (exists e, pool_last f (tab (b :: n ++ [C]) (sig3 d X)) k s padding = Err e) \/
  exists m' X', List.length m' = d /\ pool_last f (tab (b :: n ++ [C]) (sig3 d X)) k s padding = Ok (tab (b :: m' ++ [C]) (sig3 d X')).
Proof.
  intros L LS LK. destruct (mem_str (lower padding) ["valid"; "same"]) eqn:MS.
  - assert (PS : exists same, lower padding = padding_string same).
    { apply mem_str_In in MS. destruct MS as [MS|[MS|[]]]; [exists false|exists true]; symmetry; exact MS. }
    destruct PS as [same PS]. pose proof (pool_last_eq d b n C k X f s padding same L LS LK PS) as Q. cbv zeta in Q. rewrite Q.
    destruct (forallb _ _); [|left; eexists; reflexivity]. right. eexists. eexists. split; [|reflexivity].
    apply length_outs; try assumption. apply length_padded; rewrite ?map_length; try assumption; apply length_builtin; assumption.
  - left. unfold pool_last. rewrite MS. destruct (_ && _); eexists; reflexivity.
Qed.

Lemma pool_op_twin d b n C k (X : nat -> list nat -> nat -> A) f s padding :
  List.length n = d -> List.length s = d -> List.length k = d ->
  (exists e, pool_op f "channels_last" (tab (b :: n ++ [C]) (sig3 d X)) k s padding = Err e /\
             pool_op f "channels_first" (tab (b :: C :: n) (first3 X)) k s padding = Err e) \/
  exists m' X', List.length m' = d /\
    pool_op f "channels_last" (tab (b :: n ++ [C]) (sig3 d X)) k s padding = Ok (tab (b :: m' ++ [C]) (sig3 d X')) /\
    pool_op f "channels_first" (tab (b :: C :: n) (first3 X)) k s padding = Ok (tab (b :: C :: m') (first3 X')).
Proof.
  intros L LS LK. unfold pool_op, in_format. cbn [String.eqb Ascii.eqb Bool.eqb]. rewrite (proj2 (move3 d b n C X L)). cbn [bind].
  destruct (pool_last_form d b n C k X f s padding L LS LK) as [[e Q]|[m' [X' [L' Q]]]]; rewrite Q; cbn [bind].
  - left. exists e. split; reflexivity.
  - right. exists m', X'. split; [exact L'|]. split; [reflexivity|]. apply (proj1 (move3 d b m' C X' L')).
Qed.

Lemma pool_call_twin G d E eq sub cos (L : pool_layer) P r (x : tensor A) b m c {d0} :
  group_ok G d0 E eq ->
  gt_group (po_gt L) = G -> gt_format (po_gt L) = "channels_last" -> po_format L = "channels_last" ->
  gt_group_axis (po_gt L) = Z.of_nat (d + 1) -> gt_channels_axis (po_gt L) = Z.of_nat (d + 2) -> gt_group_valued (po_gt L) = true ->
  subgroup_get G (gt_acting (po_gt L)) = Ok sub -> sub <> [] ->
  (forall h, In h sub -> h < List.length E) -> (forall h, In h cos -> h < List.length E) ->
  gt_pooling_indices (po_gt L) = Some (comp_table G sub cos) ->
  List.length (po_size L) = d -> List.length (po_strides L) = d ->
  no_padding (gt_padding (po_gt L)) -> no_padding P ->
  wf x -> List.length m = d -> shape x = b :: m ++ [List.length E; c] ->
  (exists e, pool_call L x = Err e /\ (x' <- moveaxis x (-1) 1 ;; pool_call (pool_twin_of d L P r) x') = Err e) \/
  exists m' Y, List.length m' = d /\ pool_call L x = Ok (tab (b :: m' ++ [List.length sub; c]) (sig4 d Y)) /\
    (x' <- moveaxis x (-1) 1 ;; pool_call (pool_twin_of d L P r) x') = Ok (tab (b :: c :: m' ++ [List.length sub]) (first4 d Y)).
Proof.
  intros OK FG FF FF' FA FC FV SA NE BS BC PI LK LS NP1 NP2 W Lm SH.
  rewrite (tensor_sig4 d b m _ c x W Lm SH). rewrite (proj1 (move4 d b m _ c _ Lm)). cbn [bind].
  set (f := pool_fun (po_type L)).
  set (X3 := fun bi p q => f (map (fun e => fun4 x bi p (comp G (nth (q / c) sub 0) e) (q mod c)) cos)).
  assert (H1 : pool_call L (tab (b :: m ++ [List.length E; c]) (sig4 d (fun4 x)))
    = (y <- pool_op f "channels_last" (tab (b :: m ++ [List.length sub * c]) (sig3 d X3)) (po_size L) (po_strides L) (po_padding L) ;; restore_group_axis (po_gt L) y)).
  { unfold pool_call. rewrite (subgroup_pooling_eq G d E eq OK (pool_fun (po_type L)) (po_gt L) sub cos b m c (fun4 x) BS BC FA PI Lm). cbn [bind].
    unfold merge_group_axis_and_pad. rewrite FV, FA, FC, (merge_group d b m (List.length sub) c _ Lm). cbn [bind].
    rewrite no_padding_call by assumption. cbn [bind]. rewrite FF'. reflexivity. }
  assert (H2 : pool_call (pool_twin_of d L P r) (tab (b :: c :: m ++ [List.length E]) (first4 d (fun4 x)))
    = (y <- pool_op f "channels_first" (tab (b :: List.length sub * c :: m) (first3 X3)) (po_size L) (po_strides L) (po_padding L) ;;
       (z <- split_axes y (List.length sub) 1 ;; moveaxis z 1 (Z.of_nat (d + 2))))).
  { unfold pool_call, pool_twin_of. cbn [po_gt po_type po_format po_size po_strides po_padding].
    match goal with |- context [subgroup_pooling ?f ?T (tab _ (first4 d _))] =>
      rewrite (subgroup_pooling_first G d E eq f T sub cos b m c (fun4 x) OK BS BC eq_refl PI Lm) end. cbn [bind].
    unfold merge_group_axis_and_pad, restore_group_axis.
    cbn [gt_group_valued gt_format gt_channels_axis gt_group gt_acting gt_group_axis gt_padding String.eqb Ascii.eqb Bool.eqb].
    rewrite FV, (merge_first d b m (List.length sub) c _ Lm). cbn [bind andb].
    rewrite no_padding_call by assumption. cbn [bind]. rewrite FG, SA. reflexivity. }
  rewrite H1, H2. clear H1 H2.
  destruct (pool_op_twin d b m (List.length sub * c) (po_size L) X3 f (po_strides L) (po_padding L) Lm LS LK) as [[e [-> ->]]|[m' [X' [L' [-> ->]]]]];
    cbn [bind]; [left; exists e; split; reflexivity|].
  right. exists m', (fun bi p h oo => X' bi p (h * c + oo)). split; [exact L'|]. split; [apply (restore_eq G d (po_gt L) true sub b m' c X'); assumption|].
  apply (split_first d b m' (List.length sub) c X' L'). destruct sub; [congruence|discriminate].
Qed.

End Pooling.
