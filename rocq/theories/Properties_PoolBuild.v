(** C57: exactly when pooling layers can be constructed and built.  C58: what they do
    with signals that have no group axis. *)
From Verif Require Import BuildTheorems Properties_Padding Properties_Config PoolSpec PoolFacts.
Local Open Scope string_scope.
Local Open Scope list_scope.

(** When the padding layer builds, in terms of the sizes only *)
Definition padding_works (opt : string) (allow : bool) (d : nat) (m k s : list nat) : Prop :=
  let t ax := backend_total (mem_str opt ["SAME"; "SAME_EQUIV"]) (nth ax m 0) (nth ax k 0) (nth ax s 0) in
  if mem_str opt ["SAME"; "VALID"] then
    allow = true \/ forall ax, ax < d -> admissible (nth ax m 0) (t ax) (nth ax k 0) (nth ax s 0) 0
  else forall ax, ax < d -> exists e, admissible (nth ax m 0) (t ax) (nth ax k 0) (nth ax s 0) e.

Lemma padding_works_iff ks st d p allow P opt k s m bs C :
  standardize_tuple d ks = Ok k -> standardize_tuple d st = Ok s -> List.length m = d -> upper p = opt ->
  padding_init ks d st (Some p) allow "channels_last" false = Ok P ->
  ((exists P', padding_build P (bs :: map Some m ++ [Some C]) = Ok P') <-> padding_works opt allow d m k s).
Proof.
  intros SK SS Lm UP PI. unfold padding_works.
  set (same := mem_str opt ["SAME"; "SAME_EQUIV"]).
  assert (SM : is_same opt = same) by reflexivity.
  assert (SL : bs :: map Some m ++ [Some C] = static_layout "channels_last" bs m (Some C)) by reflexivity.
  destruct (is_plain opt && allow) eqn:PL.
  - apply andb_true_iff in PL as [PL AL]. unfold is_plain in PL. rewrite PL.
    destruct (C17_allowed_never_pads (A := nat) ks st d p (is_same opt) allow "channels_last" P false (bs :: map Some m ++ [Some C])) as [P' [Q _]].
    + rewrite UP. apply mem_str_In in PL. destruct PL as [<-|[<-|[]]]; reflexivity.
    + exact AL.
    + exact PI.
    + split; [intros _; left; exact AL|intros _; exists P'; exact Q].
  - pose proof (build_iff ks st d k s p same allow "channels_last" P SK SS opt m bs (Some C) PI UP SM Lm PL) as BF.
    cbv zeta in BF. rewrite <- SL in BF. change (is_plain opt) with (mem_str opt ["SAME"; "VALID"]) in BF, PL.
    destruct (mem_str opt ["SAME"; "VALID"]).
    + cbn [andb] in PL. destruct BF as [[B1 [P' B2]]|[[ax [B1 B2]] B3]].
      * split; [intros _; right; exact B1|intros _; exists P'; exact B2].
      * split; [intros [P' Q2]; congruence|].
        intros [Q|Q]; [congruence|]. exfalso. apply B2. apply Q. exact B1.
    + destruct BF as [[B1 [P' B2]]|[[ax [B1 B2]] B3]].
      * split; [intros _; exact B1|intros _; exists P'; exact B2].
      * split; [intros [P' Q2]; congruence|].
        intros Q. exfalso. destruct (Q ax B1) as [e Q']. apply (B2 e). exact Q'.
Qed.

(** The constructor: unlike that of a convolution it does not look at the spelling of
    the padding option beyond its upper case. *)
Theorem C57_when_the_constructor_accepts name G d (a : pool_args) H t :
  pooling_for name G a -> pa_subgroup a = Some H ->
  ((exists L0, pool_init d t a = Ok L0) <->
   ((H = "" \/ In H library_names) /\
    (exists p, (match pa_padding a with Some q => q | None => Some "valid_equiv" end) = Some p /\
               In (upper p) ["SAME"; "VALID"; "SAME_EQUIV"; "VALID_EQUIV"]) /\
    exists k s, pool_sizes d a k s)).
Proof.
  intros [DG [AG AF]] HS.
  assert (GA : match pa_group a with ByName s => dict_get group_dict s | Object G0 => Ok G0 end = Ok G).
  { destruct AG as [-> | ->]; [exact DG|reflexivity]. }
  assert (NG : g_name G = name) by (apply (lib_ok _ _ DG)).
  assert (LK : (exists K, match parse_subgroup G (Some H) with Some s => dict_get group_dict s | None => Err KeyError end = Ok K) <-> (H = "" \/ In H library_names)).
  { unfold parse_subgroup. destruct (String.eqb_spec H "") as [->|NE].
    - rewrite NG. split; [intros _; left; reflexivity|intros _; exists G; exact DG].
    - split.
      + intros [K Q]. right. destruct (in_dec string_dec H library_names) as [I|I]; [exact I|]. rewrite (dict_get_none _ _ I) in Q. discriminate Q.
      + intros [->|I]; [contradiction|]. clear NE. revert I. unfold library_names. generalize group_dict. intros l.
        induction l as [|[k v] l IHl]; cbn [map fst In dict_get]; [intros []|]. intros [->|I]; [rewrite String.eqb_refl; exists v; reflexivity|].
        destruct (String.eqb H k); [exists v; reflexivity|apply IHl; exact I]. }
  assert (FM : standardize_format "channels_last" = Ok "channels_last") by reflexivity.
  unfold pool_init, gt_init. rewrite AF, GA, HS, FM. cbn [bind]. rewrite <- LK. unfold pool_sizes.
  destruct (match parse_subgroup G (Some H) with Some s => dict_get group_dict s | None => Err KeyError end) as [K|] eqn:PK.
  2:{ cbn [bind]. split; [intros [L0 Q]; discriminate Q|intros [[K Q] _]; discriminate Q]. }
  cbn [bind]. unfold padding_init.
  destruct (match pa_padding a with Some q => q | None => Some "valid_equiv" end) as [p|].
  2:{ unfold format_padding_option. cbn [bind]. split; [intros [L0 Q]; discriminate Q|intros [_ [[p [Q _]] _]]; discriminate Q]. }
  unfold format_padding_option at 1.
  destruct (mem_str (upper p) ["SAME"; "VALID"; "SAME_EQUIV"; "VALID_EQUIV"]) eqn:MP.
  - cbn [bind]. apply mem_str_In in MP.
    destruct (standardize_tuple d (pa_pool_size a)) as [k|].
    2:{ cbn [bind]. split; [intros [L0 Q]; discriminate Q|intros [_ [_ [k [s [Q _]]]]]; discriminate Q]. }
    cbn [bind]. destruct (standardize_tuple d (match pa_strides a with Some s => s | None => pa_pool_size a end)) as [s|].
    2:{ cbn [bind]. split; [intros [L0 Q]; discriminate Q|intros [_ [_ [k0 [s [_ Q]]]]]; discriminate Q]. }
    cbn [bind]. split; [intros _|intros _; eexists; reflexivity].
    split; [exists K; reflexivity|]. split; [exists p; split; [reflexivity|exact MP]|]. exists k, s. split; reflexivity.
  - cbn [bind]. split; [intros [L0 Q]; discriminate Q|]. intros [_ [[q [Q I]] _]]. assert (q = p) as -> by congruence.
    apply mem_str_In in I. congruence.
Qed.
Print Assumptions C57_when_the_constructor_accepts.

(** Building: the subgroup must be listed by the group, the group axis must have the
    order of the group, and the padding layer (which assumes strides of 1 when none are
    given, see C33) must find paddings.  Keras' own [build] accepts every shape. *)
Theorem C57_when_pooling_builds name G d (a : pool_args) H opt t (valued : bool) bs m g c L0 k s :
  pooling_for name G a -> pa_subgroup a = Some H -> pool_option a opt ->
  pool_init d t a = Ok L0 -> List.length m = d ->
  standardize_tuple d (pa_pool_size a) = Ok k ->
  standardize_tuple d (match pa_strides a with Some v => v | None => One 1 end) = Ok s ->
  ((exists L, pool_build L0 (static_signal_shape valued bs m g c) = Ok L) <->
   ((exists idx, subgroup_indices G H idx) /\
    (valued = true -> g = List.length (symmetries_of name)) /\
    padding_works opt (pa_allow a) d m k s)).
Proof.
  intros [DG [AG AF]] HS [p [PN UP]] I LM SK SS.
  pose proof DG as DG'. apply lib_ok in DG' as [NG OK]. pose proof (lib_name_nonempty _ _ DG) as NEG.
  unfold pool_init, gt_init in I. rewrite AF, HS in I.
  assert (GA : match pa_group a with ByName s => dict_get group_dict s | Object G => Ok G end = Ok G).
  { destruct AG as [-> | ->]; [exact DG|reflexivity]. }
  rewrite GA in I. cbn [bind] in I. rewrite PN in I. rewrite SK in I.
  destruct (parse_subgroup G (Some H)) as [Hn|] eqn:PS; [|discriminate I].
  destruct (dict_get group_dict Hn) as [K|] eqn:DK; [|discriminate I]. cbn [bind] in I.
  assert (NK : g_name K = Hn) by (apply (lib_ok _ _ DK)). pose proof (lib_name_nonempty _ _ DK) as NE. rewrite NK, NG in I.
  destruct (padding_init _ _ _ _ _ _ _) as [P|] eqn:PI; [|discriminate I]. cbn [bind] in I.
  destruct (standardize_tuple d (match pa_strides a with Some s => s | None => pa_pool_size a end)) as [s2|]; [|discriminate I]. cbn [bind] in I.
  replace (standardize_format "channels_last") with (Ok "channels_last") in I by reflexivity. cbn [bind] in I.
  replace (String.eqb "channels_last" "channels_first") with false in I by reflexivity.
  replace (Z.of_nat d + 1)%Z with (Z.of_nat (d + 1)) in I by lia.
  replace (Z.of_nat (d + 1) + 0)%Z with (Z.of_nat (d + 1)) in I by lia.
  injection I as <-.
  set (sh := static_signal_shape valued bs m g c).
  assert (LSH : List.length sh = d + 2 + (if valued then 1 else 0)).
  { unfold sh, static_signal_shape. cbn [List.length]. rewrite app_length, map_length. destruct valued; cbn [List.length]; lia. }
  assert (VV : (List.length sh =? d + 3)%nat = valued) by (rewrite LSH; destruct valued; [apply Nat.eqb_eq|apply Nat.eqb_neq]; lia).
  set (C := if valued then g * c else c).
  unfold pool_build, gt_build. cbn [po_gt gt_dims gt_format gt_domain gt_channels_axis gt_group_axis gt_group gt_padding].
  rewrite VV. cbn [String.eqb Ascii.eqb Bool.eqb andb].
  assert (R : forall cax, cax = Z.of_nat (if valued then d + 2 else d + 1) ->
    ((valued = true -> g = List.length (symmetries_of name)) /\
     (if valued
      then idx <- subgroup_get G (if valued then Some name else None) ;;
           o <- py_nth sh (Z.of_nat (d + 1)) ;;
           guard (match o with Some n => (n =? List.length idx)%nat | None => false end)
           else AssertionError ;;
           merge_shapes sh (Z.of_nat (d + 1)) cax
      else Ok sh) = Ok (bs :: map Some m ++ [Some C])) \/
    (~ (valued = true -> g = List.length (symmetries_of name)) /\ exists e,
     (if valued
      then idx <- subgroup_get G (if valued then Some name else None) ;;
           o <- py_nth sh (Z.of_nat (d + 1)) ;;
           guard (match o with Some n => (n =? List.length idx)%nat | None => false end)
           else AssertionError ;;
           merge_shapes sh (Z.of_nat (d + 1)) cax
      else Ok sh) = Err e)).
  { intros cax ->. destruct valued; [|left; split; [discriminate|reflexivity]].
    replace (subgroup_get G (Some name)) with (Ok (seq 0 (List.length (symmetries_of name)))) by (symmetry; rewrite <- NG at 1; apply (ok_self _ _ _ _ OK)).
    cbn [bind]. rewrite (py_nth_nat _ (d + 1) None) by lia. cbn [bind].
    replace (nth (d + 1) sh None) with (Some g).
    2:{ unfold sh, static_signal_shape. replace (d + 1) with (S d) by lia. cbn [nth]. rewrite app_nth2 by (rewrite map_length; lia).
        rewrite map_length, LM, Nat.sub_diag. reflexivity. }
    rewrite seq_length. destruct (Nat.eqb_spec g (List.length (symmetries_of name))) as [GN|GN].
    - left. split; [intros _; exact GN|]. unfold C, sh, static_signal_shape. rewrite merge_static by exact LM. reflexivity.
    - right. split; [intros Q; apply GN, Q; reflexivity|]. eexists. reflexivity. }
  match goal with |- context[merge_shapes _ _ ?cax] => destruct (R cax) as [[R1 R2]|[R1 [e R2]]]; [destruct valued; lia| |] end.
  2:{ rewrite R2. cbn [bind]. split; [intros [L Q]; discriminate Q|]. intros [_ [Q _]]. contradiction. }
  rewrite R2. cbn [bind]. clear R R2.
  pose proof (padding_works_iff _ _ d p (pa_allow a) P opt k s m bs C SK SS LM UP PI) as PW.
  assert (PWE : forall P', padding_build P (bs :: map Some m ++ [Some C]) = Ok P' -> padding_works opt (pa_allow a) d m k s) by (intros P' Q; apply PW; exists P'; exact Q).
  destruct (padding_build P (bs :: map Some m ++ [Some C])) as [P'|] eqn:PB.
  2:{ cbn [bind]. split; [intros [L Q]; discriminate Q|]. intros [_ [_ Q]]. apply PW in Q as [P' Q]. discriminate Q. }
  specialize (PWE P' eq_refl). cbn [bind]. unfold gt_build_pool, gt_set_build. cbn [gt_group gt_subgroup gt_bias_indices gt_kernel_indices]. rewrite NK.
  unfold subgroup_indices. rewrite PS. unfold subgroup_get.
  destruct (dict_get (g_subgroup G) Hn) as [sub|] eqn:DS.
  - destruct (ok_cos _ _ _ _ OK _ _ DS) as [cos [DC [_ [BC _]]]].
    assert (SA : sub_idx G (Some H) sub) by (unfold sub_idx; rewrite PS; exact DS).
    destruct (sub_idx_facts _ _ _ _ OK _ _ SA) as [_ [BS _]].
    rewrite DC. cbn [bind].
    pose proof (pooling_indices _ _ _ OK sub cos BS BC) as PX.
    destruct (take (g_composition G) (vec cos) 1) as [i1|]; [|discriminate PX]. cbn [bind] in PX |- *. rewrite PX. cbn [bind].
    split; [intros _|intros _; eexists; reflexivity].
    split; [exists sub; reflexivity|]. split; [exact R1|exact PWE].
  - split.
    + intros [L Q]. destruct (dict_get (g_cosets G) Hn) as [cos|]; [|discriminate Q]. cbn [bind] in Q.
      destruct (take _ _ _); [|discriminate Q]. discriminate Q.
    + intros [[idx Q] _]. discriminate Q.
Qed.
Print Assumptions C57_when_pooling_builds.

(** ** Signals without a group axis *)
Section Grid.
Context {A : Type} {RA : Arith A} {PA : Pool A}.

(** The first [n] channels of a signal without group axis, read as the values on a
    group of order [n] of a signal with one channel. *)
Definition channels_as_group (d n : nat) (x : tensor A) : tensor A :=
  tab (firstn (d + 1) (shape x) ++ [n; 1]) (fun i => at_ x (firstn (d + 2) i)).

Lemma grid_pooling_eq G d E eq {d0} (OK : group_ok G d0 E eq) f T sub cos b m c (X : nat -> list nat -> nat -> A) :
  (forall h, In h sub -> h < List.length E) -> (forall c, In c cos -> c < List.length E) -> List.length E <= c -> gt_group_axis T = Z.of_nat (d + 1) ->
  gt_pooling_indices T = Some (tab [List.length sub; List.length cos] (fun i => comp G (nth (nth 0 i 0) sub 0) (nth (nth 1 i 0) cos 0))) ->
  List.length m = d ->
  subgroup_pooling f T (tab (b :: m ++ [c]) (sig3 d X))
  = Ok (tab (b :: m ++ [List.length sub])
            (sig3 d (fun bi p h => f (map (fun e => X bi p (comp G (nth h sub 0) e)) cos)))).
Proof.
  intros BS BC LE GA PI L. unfold subgroup_pooling. rewrite PI, GA.
  assert (LS : List.length (b :: m ++ [c]) = d + 2) by (cbn [List.length]; rewrite app_length; cbn [List.length]; lia).
  rewrite take_tab; [|lia| |apply wf_tab].
  2:{ intros v V. apply In_data_tab in V as [i [I ->]]. apply inb2 in I as [h [e [-> [H C]]]].
      rewrite (chan_ix d b m c [] L). cbn [nth]. eapply Nat.lt_le_trans; [|exact LE].
      apply (ok_closed _ _ _ _ OK); [apply BS, nth_In; exact H|apply BC, nth_In; exact C]. }
  cbn [bind]. rewrite shape_tab. cbn [List.length].
  assert (SH : firstn (d + 1) (b :: m ++ [c]) ++ [List.length sub; List.length cos] ++ skipn (S (d + 1)) (b :: m ++ [c])
               = b :: m ++ [List.length sub; List.length cos]).
  { replace (skipn (S (d + 1)) (b :: m ++ [c])) with (@nil nat).
    - rewrite Nat.add_1_r. cbn [firstn app]. rewrite firstn_app_exact by lia. reflexivity.
    - symmetry. apply skipn_all2. lia. }
  rewrite SH. unfold reduce.
  replace (Z.of_nat (d + 1) + 1)%Z with (Z.of_nat (d + 2)) by lia.
  assert (LS2 : List.length (b :: m ++ [List.length sub; List.length cos]) = d + 3) by (cbn [List.length]; rewrite app_length; cbn [List.length]; lia).
  rewrite rank_tab, norm_axis_nat by lia. cbn [bind]. rewrite shape_tab.
  rewrite (chan_ix2 d b m (List.length sub) (List.length cos) [] L).
  assert (RM : forall (h e : nat) bi p, List.length p = d -> remove_at (d + 2) (bi :: p ++ [h; e]) = bi :: p ++ [h]).
  { intros h e bi p LP. replace (bi :: p ++ [h; e]) with ((bi :: p ++ [h]) ++ e :: []) by (cbn [app]; rewrite <- app_assoc; reflexivity).
    replace (d + 2) with (List.length (bi :: p ++ [h])) by (cbn [List.length]; rewrite app_length; cbn [List.length]; lia).
    rewrite remove_at_app. cbn [app]. rewrite app_nil_r. reflexivity. }
  rewrite (RM (List.length sub) (List.length cos) b m L). f_equal.
  rewrite (tab_sig3 d) by exact L. apply sig3_ext; [exact L|]. intros bi p h B P H.
  pose proof (inb_length _ _ P) as LP. rewrite L in LP.
  f_equal. rewrite <- (map_nth_seq cos). apply map_ext_in. intros v V. apply in_seq in V.
  assert (IN : insert_at (d + 2) v (bi :: p ++ [h]) = bi :: p ++ [h; v]).
  { replace (bi :: p ++ [h]) with ((bi :: p ++ [h]) ++ []) by apply app_nil_r.
    replace (d + 2) with (List.length (bi :: p ++ [h])) by (cbn [List.length]; rewrite app_length; cbn [List.length]; lia).
    rewrite insert_at_app_r. cbn [app]. rewrite <- app_assoc. reflexivity. }
  rewrite IN. rewrite at_tab.
  2:{ apply inb_cons. split; [exact B|]. apply inb_app; [exact P|]. apply inb_cons. split; [exact H|]. apply inb_cons. split; [lia|apply inb_nil]. }
  rewrite Nat.add_1_r. cbn [firstn skipn app]. rewrite firstn_app_exact by lia.
  rewrite skipn_app_exact by lia. cbn [firstn].
  replace (S d + 2) with (S (d + 2)) by lia. cbn [skipn].
  replace (skipn (d + 2) (p ++ [h; v])) with (@nil nat) by (symmetry; apply skipn_all2; rewrite app_length; cbn [List.length]; lia).
  rewrite at_tab by (apply inb_cons; split; [exact H|]; apply inb_cons; split; [lia|apply inb_nil]).
  cbn [nth]. apply sig3_ix. exact LP.
Qed.

(** A pooling layer accepts signals without a group axis when it is built.  The call
    raises when there are fewer channels than group elements.  Otherwise the first
    channels are silently read as the values on the group, and the others ignored. *)
Theorem C58_signals_without_group_axis name G d (a : pool_args) t bs m c c' L Lv b m' (x : tensor A) :
  pooling_for name G a ->
  List.length m = d -> List.length m' = d ->
  pooling_built d t a (static_signal_shape false bs m 0 c') L ->
  pooling_built d t a (static_signal_shape true bs m (g_order G) 1) Lv ->
  wf x -> shape x = b :: m' ++ [c] ->
  (c < g_order G -> pool_call L x = Err BackendError) /\
  (g_order G <= c -> pool_call L x = pool_call Lv (channels_as_group d (g_order G) x)).
Proof.
  intros [DG [AG AF]] LM LM' [L0 [I B]] [L0' [I' BV]] W SX. rewrite I in I'. apply (f_equal (fun r => match r with Ok t => t | Err _ => L0 end)) in I'. subst L0'.
  pose proof DG as DG'. apply lib_ok in DG' as [NG OK]. pose proof (lib_name_nonempty _ _ DG) as NEG.
  set (n := List.length (symmetries_of name)). assert (ON : g_order G = n) by (apply (ok_order _ _ _ _ OK)).
  unfold pool_init, gt_init in I. rewrite AF in I.
  assert (GA : match pa_group a with ByName s => dict_get group_dict s | Object G => Ok G end = Ok G).
  { destruct AG as [-> | ->]; [exact DG|reflexivity]. }
  rewrite GA in I. cbn [bind] in I.
  destruct (parse_subgroup G (pa_subgroup a)) as [Hn|] eqn:PS; [|discriminate I].
  destruct (dict_get group_dict Hn) as [K|] eqn:DK; [|discriminate I]. cbn [bind] in I.
  assert (NK : g_name K = Hn) by (apply (lib_ok _ _ DK)). rewrite NK, NG in I.
  destruct (match pa_padding a with Some p => p | None => Some "valid_equiv" end) as [p0|]; [|discriminate I].
  destruct (padding_init _ _ _ _ _ _ _) as [P|] eqn:PI; [|discriminate I]. cbn [bind] in I.
  destruct (standardize_tuple d (pa_pool_size a)) as [k|]; [|discriminate I]. cbn [bind] in I.
  destruct (standardize_tuple d (match pa_strides a with Some s => s | None => pa_pool_size a end)) as [s2|]; [|discriminate I]. cbn [bind] in I.
  replace (standardize_format "channels_last") with (Ok "channels_last") in I by reflexivity. cbn [bind] in I.
  replace (String.eqb "channels_last" "channels_first") with false in I by reflexivity.
  replace (Z.of_nat d + 1)%Z with (Z.of_nat (d + 1)) in I by lia.
  replace (Z.of_nat (d + 1) + 0)%Z with (Z.of_nat (d + 1)) in I by lia.
  injection I as <-.
  unfold pool_build, gt_build in B, BV. cbn [po_gt gt_dims gt_format gt_domain gt_channels_axis gt_group_axis gt_group gt_padding] in B, BV.
  replace (List.length (static_signal_shape false bs m 0 c') =? d + 3)%nat with false in B
    by (symmetry; apply Nat.eqb_neq; cbn [static_signal_shape List.length]; rewrite app_length, map_length; cbn [List.length]; lia).
  replace (List.length (static_signal_shape true bs m (g_order G) 1) =? d + 3)%nat with true in BV
    by (symmetry; apply Nat.eqb_eq; cbn [static_signal_shape List.length]; rewrite app_length, map_length; cbn [List.length]; lia).
  cbn [String.eqb Ascii.eqb Bool.eqb andb bind] in B, BV.
  replace (subgroup_get G (Some name)) with (Ok (seq 0 n)) in BV by (symmetry; rewrite <- NG; apply (ok_self _ _ _ _ OK)).
  cbn [bind] in BV. rewrite (py_nth_nat _ (d + 1) None) in BV
    by (cbn [static_signal_shape List.length]; rewrite app_length, map_length; cbn [List.length]; lia). cbn [bind] in BV.
  replace (nth (d + 1) (static_signal_shape true bs m (g_order G) 1) None) with (Some n) in BV.
  2:{ unfold static_signal_shape. replace (d + 1) with (S d) by lia. cbn [nth]. rewrite app_nth2 by (rewrite map_length; lia).
      rewrite map_length, LM, Nat.sub_diag. cbn [nth]. rewrite ON. reflexivity. }
  rewrite seq_length, Nat.eqb_refl in BV.
  replace (Z.of_nat (d + 1) + 1)%Z with (Z.of_nat (d + 2)) in BV by lia.
  unfold static_signal_shape in BV. rewrite merge_static in BV by exact LM. cbn [bind] in BV.
  assert (PBE : forall C C', padding_build P (bs :: map Some m ++ [Some C]) = padding_build P (bs :: map Some m ++ [Some C'])).
  { intros C C'. unfold padding_build. apply padding_init_inv in PI as [_ [_ [_ [_ [Ed [_ [_ [Ef _]]]]]]]]. rewrite Ed, Ef.
    cbn [String.eqb Ascii.eqb Bool.eqb skipn]. rewrite !firstn_app_exact by (rewrite map_length; symmetry; exact LM). reflexivity. }
  unfold static_signal_shape in B. rewrite (PBE c' (g_order G * 1)) in B.
  destruct (padding_build P (bs :: map Some m ++ [Some (g_order G * 1)])) as [P'|]; [|discriminate B]. cbn [bind] in B, BV.
  unfold gt_build_pool, gt_set_build in B, BV. cbn [gt_group gt_subgroup gt_bias_indices gt_kernel_indices] in B, BV. rewrite NK in B, BV.
  destruct (dict_get (g_cosets G) Hn) as [cos|] eqn:DC; [|discriminate B]. cbn [bind] in B, BV.
  destruct (take (g_composition G) (vec cos) 1) as [i1|] eqn:TK; [|discriminate B]. cbn [bind] in B, BV.
  destruct (dict_get (g_subgroup G) Hn) as [sub|] eqn:DS; [|discriminate B]. cbn [bind] in B, BV.
  assert (SA : sub_idx G (pa_subgroup a) sub) by (unfold sub_idx; rewrite PS; exact DS).
  destruct (sub_idx_facts _ _ _ _ OK _ _ SA) as [_ [BS _]].
  destruct (ok_cos _ _ _ _ OK _ _ DS) as [cos' [DC' [_ [BC [CV _]]]]]. rewrite DC in DC'.
  apply (f_equal (fun r => match r with Ok t => t | Err _ => [] end)) in DC'. subst cos'.
  pose proof (pooling_indices _ _ _ OK sub cos BS BC) as PX. rewrite TK in PX. cbn [bind] in PX. rewrite PX in B, BV. cbn [bind] in B, BV.
  assert (EY : forall u v : pool_layer, Ok u = Ok v -> u = v) by congruence. apply EY in B, BV. subst L Lv. clear EY.
  rewrite (tensor_sig3 d b m' c x W LM' SX). split.
  - intros LT. unfold pool_call, subgroup_pooling. cbn [po_set_gt po_gt gt_set_indices gt_pooling_indices gt_group_axis po_type].
    unfold take. rewrite rank_tab, norm_axis_nat by (cbn [List.length]; rewrite app_length; cbn [List.length]; lia). cbn [bind].
    rewrite shape_tab, (chan_ix d b m' c [] LM').
    replace (forallb _ _) with false; [reflexivity|]. symmetry. apply not_true_iff_false. intros Q. rewrite forallb_forall in Q.
    destruct (CV (n - 1)) as [h [e [IH [IE CE]]]]; [pose proof (ok_pos _ _ _ _ OK); unfold n; lia|].
    destruct (In_nth _ _ 0 IH) as [ih [HI EH]]. destruct (In_nth _ _ 0 IE) as [ie [EI EE]].
    assert (V : In (n - 1) (data (tab [List.length sub; List.length cos] (fun i => comp G (nth (nth 0 i 0) sub 0) (nth (nth 1 i 0) cos 0))))).
    { unfold tab. cbn [data]. apply in_map_iff. exists [ih; ie]. split; [cbn [nth]; rewrite EH, EE; exact CE|].
      apply In_indices. apply inb_cons. split; [exact HI|]. apply inb_cons. split; [exact EI|apply inb_nil]. }
    apply Q in V. apply Nat.ltb_lt in V. lia.
  - intros LE. set (X := fun3 x).
    assert (CG : channels_as_group d (g_order G) (tab (b :: m' ++ [c]) (sig3 d X)) = tab (b :: m' ++ [n; 1]) (sig4 d (fun bi p g _ => X bi p g))).
    { unfold channels_as_group. rewrite shape_tab, ON. rewrite (Nat.add_1_r d). cbn [firstn app]. rewrite firstn_app_exact by lia.
      rewrite (tab_sig4 d) by exact LM'. apply sig4_ext; [exact LM'|]. intros bi p h q Bi P0 H Q.
      pose proof (inb_length _ _ P0) as LP. rewrite LM' in LP.
      replace (firstn (d + 2) (bi :: p ++ [h; q])) with (bi :: p ++ [h]).
      - rewrite at_tab; [apply sig3_ix; exact LP|]. apply inb_cons. split; [exact Bi|]. apply inb_app; [exact P0|]. apply inb_cons. split; [lia|apply inb_nil].
      - replace (bi :: p ++ [h; q]) with ((bi :: p ++ [h]) ++ [q]) by (cbn [app]; rewrite <- app_assoc; reflexivity).
        rewrite firstn_app_exact by (cbn [List.length]; rewrite app_length; cbn [List.length]; lia). reflexivity. }
    rewrite CG. unfold pool_call. cbn [po_set_gt po_gt po_type po_format po_size po_strides po_padding].
    rewrite (grid_pooling_eq G d (symmetries_of name) _ OK _ _ sub cos) by (first [assumption|reflexivity|fold n; lia]).
    rewrite (subgroup_pooling_eq G d (symmetries_of name) _ OK _ _ sub cos) by (first [assumption|reflexivity]).
    cbn [bind]. unfold merge_group_axis_and_pad. cbn [gt_set_indices gt_group_valued gt_group_axis gt_channels_axis gt_padding].
    rewrite merge_group by exact LM'. cbn [bind].
    replace (tab (b :: m' ++ [List.length sub * 1]) _) with
      (tab (b :: m' ++ [List.length sub]) (sig3 d (fun bi p h => pool_fun t (map (fun e => X bi p (comp G (nth h sub 0) e)) cos)))).
    2:{ rewrite Nat.mul_1_r. apply sig3_ext; [exact LM'|]. intros bi p h Bi P0 H. rewrite Nat.div_1_r. reflexivity. }
    destruct (padding_call P' _) as [y|]; [|reflexivity]. cbn [bind].
    destruct (pool_op _ _ _ _ _ _) as [z|]; [|reflexivity]. cbn [bind].
    unfold restore_group_axis. cbn [gt_set_indices gt_group_valued gt_group_axis gt_channels_axis gt_format gt_group gt_acting String.eqb Ascii.eqb Bool.eqb andb].
    replace (Z.of_nat (d + 2) - 1)%Z with (Z.of_nat (d + 1)) by lia. reflexivity.
Qed.
End Grid.
Print Assumptions C58_signals_without_group_axis.

Definition builds_pool (a : pool_args) (sh : sshape) : bool := is_ok (test_pool 2 "max" a sh).

(** Pool size 2 with the default (assumed) stride 1 and 'valid_equiv': the kernel fits
    with no extra padding, so every size builds, and a subgroup that is not listed does not. *)
Example C57_case :
  builds_pool (pooling "P4" "P2" (One 2) None None) [None; Some 5; Some 5; Some 4; Some 3] = true /\
  builds_pool (pooling "P4" "PMw" (One 2) None None) [None; Some 5; Some 5; Some 4; Some 3] = false /\
  builds_pool (pooling "P4" "" (One 2) (Some (One 2)) (Some (Some "valid"))) [None; Some 6; Some 6; Some 4; Some 3] = true /\
  builds_pool (pooling "P4" "" (One 2) (Some (One 2)) (Some (Some "valid"))) [None; Some 5; Some 5; Some 4; Some 3] = false /\
  builds_pool (pooling "P4" "" (One 2) None None) [None; Some 5; Some 5; Some 3; Some 3] = false /\
  is_ok (pool_init 2 "max" (pooling "P4" "P2" (One 2) None (Some (Some "Valid_Equiv")))) = true /\
  is_ok (pool_init 2 "max" (pooling "P4" "P2" (One 2) None (Some (Some "full")))) = false.
Proof. vm_compute. repeat split; reflexivity. Qed.

(** Two channels: for P2 they are taken for the values on the group, for P4 there are too few *)
Example C58_case :
  let x := mkTensor [1; 2; 2; 2] [1; 10; 2; 20; 3; 30; 4; 40]%Z in
  (L <- test_pool 2 "max" (pooling "P2" "" (One 2) None None) [None; Some 2; Some 2; Some 2] ;; pool_call L x)
  = Ok (mkTensor [1; 1; 1; 2; 1] [4; 40]%Z) /\
  (L <- test_pool 2 "max" (pooling "P4" "" (One 2) None None) [None; Some 2; Some 2; Some 2] ;; pool_call L x)
  = Err BackendError.
Proof. vm_compute. split; reflexivity. Qed.
