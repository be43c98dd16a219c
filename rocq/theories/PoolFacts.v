(** Pooling layers (data_format 'channels_last'): construction, building and
    calling as functions of the input. *)
From Verif Require Export ConvTheorems ShapeFacts.
Local Open Scope string_scope.
Local Open Scope list_scope.

Section PoolOps.
Context {A : Type} {RA : Arith A}.

Definition ones (d : nat) : list nat := repeat 1 d.

Lemma nth_ones d a : a < d -> nth a (ones d) 0 = 1.
Proof. intros Ha. unfold ones. rewrite (nth_indep _ 0 1) by (rewrite repeat_length; exact Ha). apply nth_repeat. Qed.

Lemma pool_srcs_csrc d n s b p j :
  List.length n = d -> List.length s = d -> List.length b = d -> List.length p = d -> List.length j = d ->
  pool_srcs n s b p j = csrc n s (ones d) b p j.
Proof.
  intros L1 L2 L3 L4 L5. rewrite (pool_srcs_wsrc d) by assumption. unfold csrc. rewrite L1. apply wsrc_ext.
  intros a Ha. rewrite nth_ones by exact Ha. apply pool_src_conv.
Qed.

Lemma pool_last_eq d b n C k (X : nat -> list nat -> nat -> A) f s padding same :
  List.length n = d -> List.length s = d -> List.length k = d -> lower padding = padding_string same ->
  let pads := builtin_pads (padding_string same) n k s in
  let N := padded (map fst pads) n (map snd pads) in
  pool_last f (tab (b :: n ++ [C]) (sig3 d X)) k s padding
  = if forallb (fun p => fst p <=? snd p)%nat (combine k N)
    then Ok (tab (b :: outs N k s ++ [C])
                 (sig3 d (fun bi p r => pooled (csrc n s (ones d) (map fst pads)) f k (X bi) p r)))
    else Err BackendError.
Proof.
  intros L LS LK PS pads N.
  assert (LP : List.length pads = d) by (apply length_builtin; assumption).
  assert (LF : List.length (map fst pads) = d) by (rewrite map_length; exact LP).
  assert (LSn : List.length (map snd pads) = d) by (rewrite map_length; exact LP).
  assert (LN : List.length N = d) by (apply length_padded; assumption).
  unfold pool_last. rewrite LS, rank_tab, LK, Nat.eqb_refl.
  replace (List.length (b :: n ++ [C]) =? d + 2)%nat with true
    by (symmetry; apply Nat.eqb_eq; cbn [List.length]; rewrite app_length; cbn; lia).
  cbn [andb]. rewrite PS. replace (mem_str (padding_string same) ["valid"; "same"]) with true by (destruct same; reflexivity).
  rewrite shape_tab, (spatial_ix d b n [C] L), (chan_ix d b n C [] L). fold pads.
  assert (NE : map (fun q => (fst (snd q) + fst q + snd (snd q))%nat) (combine n pads) = N).
  { apply nth_ext0.
    - rewrite map_length, combine_length, LN. lia.
    - intros a Ha. rewrite map_length, combine_length in Ha. unfold N. rewrite (nth_padded _ _ _ d) by (try assumption; lia).
      set (F := fun q => (fst (snd q) + fst q + snd (snd q))%nat).
      rewrite nth_indep with (d' := F (0, (0, 0))) by (rewrite map_length, combine_length; exact Ha).
      rewrite (map_nth F). rewrite combine_nth by lia. unfold F. cbn [fst snd].
      rewrite <- (map_nth fst), <- (map_nth snd). reflexivity. }
  rewrite NE. fold (outs N k s).
  destruct (forallb _ (combine k N)) eqn:FB; [|reflexivity]. f_equal.
  pose proof (length_outs N k s d LN LK LS) as LO.
  change (nth 0 (b :: n ++ [C]) 0) with b.
  rewrite (tab_sig3 d) by exact LO. apply sig3_ext; [exact LO|]. intros bi p r B P R.
  pose proof (inb_length _ _ P) as LP'. rewrite LO in LP'.
  unfold pooled. do 2 f_equal. apply map_ext_in. intros j J. apply In_indices in J. pose proof (inb_length _ _ J) as LJ.
  change (nth 0 (bi :: p ++ [r]) 0) with bi. rewrite (spatial_ix d bi p [r] LP'), (chan_ix d bi p r [] LP').
  rewrite (pool_srcs_csrc d) by lia.
  destruct (csrc n s (ones d) (map fst pads) p j) as [i|] eqn:Q; cbn [option_map]; [|reflexivity]. f_equal.
  assert (IB : inb n i).
  { unfold csrc in Q. rewrite L in Q. apply wsrc_some in Q as [LI Q]. apply inb_intro; [lia|]. rewrite L. intros a Ha.
    apply (conv_src_lt _ _ _ _ _ _ _ (Q a Ha)). }
  apply at_sig3; assumption.
Qed.

End PoolOps.

(** The arguments of a pooling layer. *)
Definition pool_padding_name (a : pool_args) : option string :=
  match pa_padding a with Some po => po | None => Some "valid_equiv" end.
(** The strides of the Keras layer, and those assumed by the padding layer. *)
Definition pool_strides (a : pool_args) : size_arg := match pa_strides a with Some s => s | None => pa_pool_size a end.
Definition assumed_strides (a : pool_args) : size_arg := match pa_strides a with Some s => s | None => One 1 end.

Section Built.
Context {A : Type} {RA : Arith A} {PA : Pool A}.
(** The layer has [d] spatial axes; the group may be one for another number of axes. *)
Context (G : group) (d : nat) (E : list symmetry) (eq : bool) {d0 : nat} (OK : group_ok G d0 E eq).
Notation n := (List.length E).

Record pool_facts (sub cos k s eb ea : list nat) (same : bool) (t : string) (L : pool_layer) : Prop := {
  pf_group : gt_group (po_gt L) = G;
  pf_fmt : gt_format (po_gt L) = "channels_last";
  pf_fmt' : po_format L = "channels_last";
  pf_gaxis : gt_group_axis (po_gt L) = Z.of_nat (d + 1);
  pf_caxis : gt_channels_axis (po_gt L) = Z.of_nat (d + 2);
  pf_valued : gt_group_valued (po_gt L) = true;
  pf_act : subgroup_get G (gt_acting (po_gt L)) = Ok sub;
  pf_sub : forall h, In h sub -> h < n;
  pf_cos : forall c, In c cos -> c < n;
  pf_idx : gt_pooling_indices (po_gt L) =
             Some (tab [List.length sub; List.length cos] (fun i => comp G (nth (nth 0 i 0) sub 0) (nth (nth 1 i 0) cos 0)));
  pf_pads : pads_with (A := A) d (gt_padding (po_gt L)) eb ea;
  pf_eb : List.length eb = d;
  pf_ea : List.length ea = d;
  pf_type : po_type L = t;
  pf_size : po_size L = k;
  pf_strides : po_strides L = s;
  pf_padding : lower (po_padding L) = padding_string same;
  pf_k : List.length k = d;
  pf_s : List.length s = d;
  pf_kpos : forall a, a < d -> 0 < nth a k 0;
  pf_spos : forall a, a < d -> 0 < nth a s 0
}.

(** ** Building *)

Lemma pooling_indices sub cos : (forall h, In h sub -> h < n) -> (forall c, In c cos -> c < n) ->
  (i <- take (g_composition G) (vec cos) 1 ;; take i (vec sub) 0)
  = Ok (tab [List.length sub; List.length cos] (fun i => comp G (nth (nth 0 i 0) sub 0) (nth (nth 1 i 0) cos 0))).
Proof.
  intros BS BC. rewrite <- (tab_at (g_composition G) (ok_cwf _ _ _ _ OK)). rewrite (ok_cshape _ _ _ _ OK).
  change 1%Z with (Z.of_nat 1). change 0%Z with (Z.of_nat 0).
  rewrite take_vec by (cbn [List.length nth]; first [lia|exact BC]). cbn [bind upd].
  rewrite take_vec by (cbn [List.length nth]; first [lia|exact BS]). cbn [upd]. f_equal. apply tab_ext. intros i I.
  apply inb2 in I as [h [c [-> [H C]]]]. cbn [upd nth]. reflexivity.
Qed.

Lemma pool_build_inv_of name t (a : pool_args) L0 bs m g c L :
  known name G -> given (pa_group a) G ->
  pa_data_format a = "channels_last" -> pool_init d t a = Ok L0 -> List.length m = d ->
  pool_build L0 (bs :: map Some m ++ [Some g; Some c]) = Ok L ->
  exists p k s s' eb ea sub cos Hn,
    pool_padding_name a = Some p /\
    standardize_tuple d (pa_pool_size a) = Ok k /\ standardize_tuple d (pool_strides a) = Ok s /\
    standardize_tuple d (assumed_strides a) = Ok s' /\
    widths_ok (is_plain (upper p)) (pa_allow a) (is_same (upper p)) false d m k s' eb ea /\
    parse_subgroup G (pa_subgroup a) = Some Hn /\
    dict_get (g_subgroup G) Hn = Ok sub /\ dict_get (g_cosets G) Hn = Ok cos /\ sub_idx G (pa_subgroup a) sub /\ g = n /\
    (mem_str (lower (po_padding L)) ["valid"; "same"] = true -> pool_facts sub cos k s eb ea (is_same (upper p)) t L) /\
    exists P, padding_init (pa_pool_size a) d (assumed_strides a) (Some p) (pa_allow a) "channels_last" false = Ok P /\
      padding_build P (bs :: map Some m ++ [Some (g * c)]) = Ok (gt_padding (po_gt L)).
Proof.
  intros DG AG AF I LM B.
  destruct DG as [NG NEG].
  unfold pool_init, gt_init in I. rewrite AF in I.
  assert (GA : match pa_group a with ByName s => dict_get group_dict s | Object G => Ok G end = Ok G).
  { exact AG. }
  rewrite GA in I. cbn [bind] in I. fold (pool_padding_name a) in I. fold (pool_strides a) in I. fold (assumed_strides a) in I.
  destruct (parse_subgroup G (pa_subgroup a)) as [Hn|] eqn:PS; [|discriminate I].
  destruct (dict_get group_dict Hn) as [K|] eqn:DK; [|discriminate I]. cbn [bind] in I.
  assert (NK : g_name K = Hn) by (apply (lib_ok _ _ DK)). pose proof (lib_name_nonempty _ _ DK) as NE. rewrite NK, NG in I.
  destruct (pool_padding_name a) as [p|]; [|discriminate I].
  destruct (padding_init _ _ _ _ _ _ _) as [P|] eqn:PI; [|discriminate I]. cbn [bind] in I.
  destruct (standardize_tuple d (pa_pool_size a)) as [k|] eqn:SK; [|discriminate I]. cbn [bind] in I.
  destruct (standardize_tuple d (pool_strides a)) as [s|] eqn:SS; [|discriminate I]. cbn [bind] in I.
  unfold standardize_format in I. cbn [lower lower_ascii] in I.
  replace (lower "channels_last") with "channels_last" in I by reflexivity.
  cbn [mem_str existsb String.eqb Ascii.eqb Bool.eqb orb bind] in I.
  replace (Z.of_nat d + 1)%Z with (Z.of_nat (d + 1)) in I by lia.
  replace (Z.of_nat (d + 1) + 0)%Z with (Z.of_nat (d + 1)) in I by lia.
  injection I as <-.
  pose proof (padding_init_inv _ _ _ _ _ _ _ _ PI) as [_ [MM [BI _]]].
  assert (SS' : exists s', standardize_tuple d (assumed_strides a) = Ok s').
  { destruct (standardize_tuple d (assumed_strides a)) as [s'|] eqn:Q; [eauto|]. exfalso.
    unfold assumed_strides, pool_strides in *. destruct (pa_strides a); [congruence|].
    unfold standardize_tuple, per_axis in Q. rewrite repeat_length, Nat.eqb_refl in Q.
    replace (forallb _ _) with true in Q; [discriminate Q|]. symmetry. apply forallb_forall. intros z Z. apply repeat_spec in Z. subst z. reflexivity. }
  destruct SS' as [s' SS'].
  destruct (std_pos d _ _ SK) as [Lk Pk]. destruct (std_pos d _ _ SS) as [Ls Ps].
  unfold pool_build, gt_build in B. cbn [po_gt gt_dims gt_format gt_domain gt_channels_axis gt_group_axis gt_group gt_padding] in B.
  set (sh := bs :: map Some m ++ [Some g; Some c]) in *.
  assert (LSH : List.length sh = d + 3) by (unfold sh; cbn [List.length]; rewrite app_length, map_length; cbn [List.length]; lia).
  rewrite LSH, Nat.eqb_refl in B. cbn [String.eqb Ascii.eqb Bool.eqb andb] in B.
  replace (subgroup_get G (Some name)) with (Ok (seq 0 n)) in B by (symmetry; rewrite <- NG; apply (ok_self _ _ _ _ OK)).
  cbn [bind] in B. rewrite (py_nth_nat _ (d + 1) None) in B by lia. cbn [bind] in B.
  replace (nth (d + 1) sh None) with (Some g) in B.
  2:{ unfold sh. replace (d + 1) with (S d) by lia. cbn [nth]. rewrite app_nth2 by (rewrite map_length; lia).
      rewrite map_length, LM, Nat.sub_diag. reflexivity. }
  rewrite seq_length in B. destruct (Nat.eqb_spec g n) as [GN|]; [|discriminate B].
  replace (Z.of_nat (d + 1) + 1)%Z with (Z.of_nat (d + 2)) in B by lia.
  unfold sh in B. rewrite merge_static in B by exact LM. cbn [bind] in B.
  destruct (padding_build P (bs :: map Some m ++ [Some (g * c)])) as [P'|] eqn:PB; [|discriminate B].
  destruct (built_pads (A := A) _ _ d k s' p (pa_allow a) false P m bs (Some (g * c)) P' SK SS' PI LM PB) as [eb [ea [WO PW]]].
  cbn [bind] in B. unfold gt_build_pool, gt_set_build in B. cbn [gt_group gt_subgroup gt_bias_indices gt_kernel_indices] in B. rewrite NK in B.
  destruct (dict_get (g_cosets G) Hn) as [cos|] eqn:DC; [|discriminate B]. cbn [bind] in B.
  destruct (take (g_composition G) (vec cos) 1) as [i1|] eqn:TK; [|discriminate B]. cbn [bind] in B.
  destruct (dict_get (g_subgroup G) Hn) as [sub|] eqn:DS; [|discriminate B]. cbn [bind] in B.
  assert (SA : sub_idx G (pa_subgroup a) sub) by (unfold sub_idx; rewrite PS; exact DS).
  destruct (sub_idx_facts _ _ _ _ OK _ _ SA) as [_ [BS _]].
  assert (BC : forall c, In c cos -> c < n).
  { destruct (ok_cos _ _ _ _ OK _ _ DS) as [cos' [DC' [_ [BC _]]]]. rewrite DC in DC'. injection DC' as <-. exact BC. }
  pose proof (pooling_indices sub cos BS BC) as PX. rewrite TK in PX. cbn [bind] in PX. rewrite PX in B. cbn [bind] in B. injection B as <-.
  exists p, k, s, s', eb, ea, sub, cos, Hn.
  split; [reflexivity|]. split; [reflexivity|]. split; [reflexivity|]. split; [exact SS'|]. split; [exact WO|].
  split; [reflexivity|]. split; [first [exact DS|reflexivity]|]. split; [first [exact DC|reflexivity]|]. split; [exact SA|]. split; [exact GN|].
  split; [|exists P; split; [exact PI|exact PB]].
  cbn [po_padding po_set_gt gt_padding]. intros MB. destruct WO as [LB [LA _]].
  constructor; try reflexivity; try assumption.
  cbn [po_padding po_set_gt]. rewrite BI in MB |- *. apply (backend_option p MM MB).
Qed.

(** ** Calling *)

Lemma subgroup_pooling_eq f T sub cos b m c (X : nat -> list nat -> nat -> nat -> A) :
  (forall h, In h sub -> h < n) -> (forall c, In c cos -> c < n) -> gt_group_axis T = Z.of_nat (d + 1) ->
  gt_pooling_indices T = Some (tab [List.length sub; List.length cos] (fun i => comp G (nth (nth 0 i 0) sub 0) (nth (nth 1 i 0) cos 0))) ->
  List.length m = d ->
  subgroup_pooling f T (tab (b :: m ++ [n; c]) (sig4 d X))
  = Ok (tab (b :: m ++ [List.length sub; c])
            (sig4 d (fun bi p h q => f (map (fun e => X bi p (comp G (nth h sub 0) e) q) cos)))).
Proof.
  intros BS BC GA PI L. unfold subgroup_pooling. rewrite PI, GA.
  assert (LS : List.length (b :: m ++ [n; c]) = d + 3) by (cbn [List.length]; rewrite app_length; cbn [List.length]; lia).
  rewrite take_tab; [|lia| |apply wf_tab].
  2:{ intros v V. apply In_data_tab in V as [i [I ->]]. apply inb2 in I as [h [e [-> [H C]]]].
      rewrite (chan_ix d b m n [c] L). cbn [nth]. apply (ok_closed _ _ _ _ OK); [apply BS, nth_In; exact H|apply BC, nth_In; exact C]. }
  cbn [bind]. rewrite shape_tab. cbn [List.length].
  assert (SH : firstn (d + 1) (b :: m ++ [n; c]) ++ [List.length sub; List.length cos] ++ skipn (S (d + 1)) (b :: m ++ [n; c])
               = b :: m ++ [List.length sub; List.length cos; c]).
  { replace (skipn (S (d + 1)) (b :: m ++ [n; c])) with [c].
    - rewrite Nat.add_1_r. cbn [firstn app]. rewrite firstn_app_exact by lia. reflexivity.
    - change (b :: m ++ [n; c]) with ((b :: m) ++ n :: [c]). symmetry. apply skipn_S_app. cbn [List.length]. lia. }
  rewrite SH. unfold reduce.
  replace (Z.of_nat (d + 1) + 1)%Z with (Z.of_nat (d + 2)) by lia.
  assert (LS2 : List.length (b :: m ++ [List.length sub; List.length cos; c]) = d + 4) by (cbn [List.length]; rewrite app_length; cbn [List.length]; lia).
  rewrite rank_tab, norm_axis_nat by lia. cbn [bind]. rewrite shape_tab.
  rewrite (chan_ix2 d b m (List.length sub) (List.length cos) [c] L).
  assert (RM : forall (h e q : nat) bi p, List.length p = d -> remove_at (d + 2) (bi :: p ++ [h; e; q]) = bi :: p ++ [h; q]).
  { intros h e q bi p LP. replace (bi :: p ++ [h; e; q]) with ((bi :: p ++ [h]) ++ e :: [q]) by (cbn [app]; rewrite <- app_assoc; reflexivity).
    replace (d + 2) with (List.length (bi :: p ++ [h])) by (cbn [List.length]; rewrite app_length; cbn [List.length]; lia).
    rewrite remove_at_app. cbn [app]. rewrite <- app_assoc. reflexivity. }
  rewrite (RM (List.length sub) (List.length cos) c b m L). f_equal.
  rewrite (tab_sig4 d) by exact L. apply sig4_ext; [exact L|]. intros bi p h q B P H Q.
  pose proof (inb_length _ _ P) as LP. rewrite L in LP.
  f_equal. rewrite <- (map_nth_seq cos). apply map_ext_in. intros v V. apply in_seq in V.
  assert (IN : insert_at (d + 2) v (bi :: p ++ [h; q]) = bi :: p ++ [h; v; q]).
  { replace (bi :: p ++ [h; q]) with ((bi :: p ++ [h]) ++ [q]) by (cbn [app]; rewrite <- app_assoc; reflexivity).
    replace (d + 2) with (List.length (bi :: p ++ [h])) by (cbn [List.length]; rewrite app_length; cbn [List.length]; lia).
    rewrite insert_at_app_r. cbn [app]. rewrite <- app_assoc. reflexivity. }
  rewrite IN. rewrite at_tab.
  2:{ apply inb_cons. split; [exact B|]. apply inb_app; [exact P|]. apply inb_cons. split; [exact H|]. apply inb_cons. split; [lia|].
      apply inb_cons. split; [exact Q|apply inb_nil]. }
  rewrite Nat.add_1_r. cbn [firstn skipn app]. rewrite firstn_app_exact by lia.
  rewrite skipn_app_exact by lia. cbn [firstn].
  replace (S d + 2) with (S (d + 2)) by lia. cbn [skipn].
  replace (skipn (d + 2) (p ++ [h; v; q])) with [q].
  2:{ replace (p ++ [h; v; q]) with ((p ++ [h; v]) ++ [q]) by (rewrite <- app_assoc; reflexivity).
      rewrite skipn_app_exact by (rewrite app_length; cbn [List.length]; lia). reflexivity. }
  rewrite at_tab by (apply inb_cons; split; [exact H|]; apply inb_cons; split; [lia|apply inb_nil]).
  cbn [nth]. apply sig4_ix. exact LP.
Qed.

Definition pool_out (f : list A -> A) (sub cos k s eb m m1 before : list nat) (X : nat -> list nat -> nat -> nat -> A)
  (bi : nat) (p : list nat) (h q : nat) : A :=
  pooled (csrc m1 s (ones d) before) f k
    (bordered eb m (fun bi p _ => f (map (fun e => X bi p (comp G (nth h sub 0) e) q) cos)) bi) p 0.

Lemma pool_call_eq sub cos k s eb ea same t L b m c (X : nat -> list nat -> nat -> nat -> A) :
  pool_facts sub cos k s eb ea same t L -> sub <> [] -> List.length m = d ->
  let m1 := padded eb m ea in
  let pads := builtin_pads (padding_string same) m1 k s in
  let m2 := padded (map fst pads) m1 (map snd pads) in
  pool_call L (tab (b :: m ++ [n; c]) (sig4 d X))
  = if forallb (fun p => fst p <=? snd p)%nat (combine k m2)
    then Ok (tab (b :: outs m2 k s ++ [List.length sub; c]) (sig4 d (pool_out (pool_fun t) sub cos k s eb m m1 (map fst pads) X)))
    else Err BackendError.
Proof.
  intros F NE Lm m1 pads m2. destruct F.
  assert (Lm1 : List.length m1 = d) by (apply length_padded; assumption).
  assert (LP : List.length pads = d) by (apply length_builtin; assumption).
  assert (Lm2 : List.length m2 = d) by (apply length_padded; rewrite ?map_length; assumption).
  unfold pool_call. rewrite (subgroup_pooling_eq _ (po_gt L) sub cos) by assumption. cbn [bind].
  unfold merge_group_axis_and_pad. rewrite pf_valued0, pf_gaxis0, pf_caxis0. rewrite merge_group by exact Lm. cbn [bind].
  rewrite (pf_pads0 b m) by exact Lm. cbn [bind]. fold m1.
  unfold pool_op, in_format. rewrite pf_fmt'0. cbn [String.eqb Ascii.eqb Bool.eqb].
  rewrite pf_type0, pf_size0, pf_strides0. rewrite (pool_last_eq d b m1 _ k _ _ s (po_padding L) same) by assumption.
  fold pads. fold m2. destruct (forallb _ (combine k m2)) eqn:FB; [|reflexivity]. cbn [bind].
  rewrite (restore_eq G d (po_gt L) true sub b (outs m2 k s) c) by (try assumption; apply length_outs; assumption).
  f_equal. apply sig4_ext; [apply length_outs; assumption|]. intros bi p h q B P H Q. unfold pool_out, pooled.
  do 2 f_equal. apply map_ext_in. intros j J. destruct (csrc m1 s (ones d) (map fst pads) p j) as [i|] eqn:CS; cbn [option_map]; [|reflexivity].
  f_equal. unfold bordered. destruct (split_ok c h q Q) as [-> ->]. reflexivity.
Qed.

(** A layer with an unknown backend option raises. *)
Lemma pool_call_option L x y : po_format L = "channels_last" -> pool_call L x = Ok y -> mem_str (lower (po_padding L)) ["valid"; "same"] = true.
Proof.
  intros PF. unfold pool_call. destruct (subgroup_pooling _ _ x) as [x1|]; [|discriminate]. cbn [bind].
  destruct (merge_group_axis_and_pad _ x1) as [x2|]; [|discriminate]. cbn [bind]. unfold pool_op, in_format. rewrite PF.
  cbn [String.eqb Ascii.eqb Bool.eqb]. unfold pool_last. destruct (_ && _); [|discriminate].
  destruct (mem_str _ _); [reflexivity|discriminate].
Qed.

Definition pool_build_inv name t (a : pool_args) L0 bs m g c L
  (DG : dict_get group_dict name = Ok G) (AG : pa_group a = ByName name \/ pa_group a = Object G) :=
  pool_build_inv_of name t a L0 bs m g c L (lib_known _ _ DG) (lib_given _ _ _ DG AG).
End Built.
