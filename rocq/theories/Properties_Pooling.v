(** C31-C34, C48: pooling layers.  [k] and [s] are pool size and strides per axis,
    [t] is the pool type. *)
From Verif Require Import GlobalFacts PoolSpec.
Local Open Scope string_scope.
Local Open Scope list_scope.

(** The name under which the subgroup [H] of [G] is listed. *)
Definition listed_as (G : group) (H : string) : string := if String.eqb H "" then g_name G else H.

Section Pooling.
Context {A : Type} {RA : Arith A} {PA : Pool A}.

Lemma pool_format d t a bs m g c L0 (L : pool_layer) : pa_data_format a = "channels_last" -> pool_init d t a = Ok L0 ->
  pool_build L0 (bs :: map Some m ++ [Some g; Some c]) = Ok L -> po_format L = "channels_last".
Proof.
  intros AF I B. unfold pool_init in I. destruct (gt_init _ _ _ _ _ _ _ _ _) as [T|]; [|discriminate I]. cbn [bind] in I.
  destruct (standardize_tuple d (pa_pool_size a)); [|discriminate I]. cbn [bind] in I.
  destruct (standardize_tuple d _); [|discriminate I]. cbn [bind] in I. rewrite AF in I.
  replace (standardize_format "channels_last") with (Ok "channels_last" : result string) in I by reflexivity. cbn [bind] in I. injection I as <-.
  unfold pool_build in B. destruct (gt_build _ _) as [T1|]; [|discriminate B]. cbn [bind] in B.
  destruct (gt_build_pool T1); [|discriminate B]. cbn [bind] in B. injection B as <-. reflexivity.
Qed.

Lemma parse_listed G H Hn : parse_subgroup G (Some H) = Some Hn -> Hn = listed_as G H.
Proof. unfold parse_subgroup, listed_as. destruct (String.eqb H ""); intros Q; injection Q as <-; reflexivity. Qed.

(** What is known about a built layer that computes. *)
Lemma pooling_facts name G d t (a : pool_args) H opt bs m g c L k s (x y : tensor A) :
  pooling_for name G a -> pa_subgroup a = Some H -> pool_option a opt ->
  pooling_built d t a (bs :: map Some m ++ [Some g; Some c]) L -> List.length m = d -> pool_sizes d a k s ->
  pool_call L x = Ok y ->
  group_ok G (dimension_of name) (symmetries_of name) (needs_equal_sizes name) /\ g = List.length (symmetries_of name) /\
  padding_of_pooling a d bs m (g * c) (gt_padding (po_gt L)) /\
  exists eb ea sub cos,
    dict_get (g_subgroup G) (listed_as G H) = Ok sub /\ dict_get (g_cosets G) (listed_as G H) = Ok cos /\
    sub_idx G (Some H) sub /\
    pool_facts (A := A) G d (symmetries_of name) sub cos k s eb ea (is_same opt) t L.
Proof.
  intros [DG [AG AF]] HS [p [PN UP]] [L0 [I B]] Lm [SK SS] C.
  pose proof DG as DG'. apply lib_ok in DG' as [_ OK].
  destruct (pool_build_inv (A := A) G d _ _ OK name t a L0 bs m g c L DG AG AF I Lm B)
    as [p' [k' [s0 [s' [eb [ea [sub [cos [Hn [PN' [SK' [SS0 [SS' [WO [PS [DS [DC [SA [GN [F [P [PI PB]]]]]]]]]]]]]]]]]]]]]].
  unfold pool_padding_name in PN'. rewrite PN in PN'. injection PN' as <-. rewrite SK in SK'. injection SK' as <-.
  unfold pool_strides in SS0. rewrite SS in SS0. injection SS0 as <-. rewrite HS in PS, SA. apply parse_listed in PS. subst Hn.
  split; [exact OK|]. split; [exact GN|]. split.
  - exists P. rewrite PN. split; [exact PI|exact PB].
  - exists eb, ea, sub, cos. split; [exact DS|]. split; [exact DC|]. split; [exact SA|]. rewrite UP in F.
    apply F. exact (pool_call_option L x y (pool_format _ _ _ _ _ _ _ _ _ AF I B) C).
Qed.

(** Subgroup pooling: the value at position [h] of the new group axis combines the
    values at the elements (element h of the subgroup) o c, for the coset
    representatives c; and every element of the group is of this form for exactly
    one pair. *)
Theorem C31_subgroup_pooling name G d t (a : pool_args) H opt bs m g c L k s :
  pooling_for name G a -> pa_subgroup a = Some H -> pool_option a opt ->
  pooling_built d t a (bs :: map Some m ++ [Some g; Some c]) L -> List.length m = d -> pool_sizes d a k s ->
  forall (x y : tensor A) b m', pool_call L x = Ok y -> wf x -> List.length m' = d -> shape x = b :: m' ++ [g; c] ->
  exists sub cos z,
    dict_get (g_subgroup G) (listed_as G H) = Ok sub /\ dict_get (g_cosets G) (listed_as G H) = Ok cos /\
    subgroup_pooling (max_or_mean t) (po_gt L) x = Ok z /\
    shape z = b :: m' ++ [List.length sub; c] /\
    (forall bi p h q, bi < b -> inb m' p -> h < List.length sub -> q < c ->
       at_ z (bi :: p ++ [h; q]) = max_or_mean t (map (fun e => at_ x (bi :: p ++ [comp G (nth h sub 0) e; q])) cos)) /\
    (forall v, v < g -> exists h e, h < List.length sub /\ In e cos /\ comp G (nth h sub 0) e = v /\
       forall h' e', h' < List.length sub -> In e' cos -> comp G (nth h' sub 0) e' = v -> h' = h /\ e' = e).
Proof.
  change (max_or_mean t) with (pool_fun (A := A) t).
  intros PF HS OP B Lm SZ x y b m' C W Lm' SH.
  destruct (pooling_facts name G d t a H opt bs m g c L k s x y PF HS OP B Lm SZ C)
    as [OK [GN [_ [eb [ea [sub [cos [DS [DC [SA F]]]]]]]]]].
  rewrite GN in SH. pose proof (tensor_sig4 d b m' _ c x W Lm' SH) as X.
  exists sub, cos. eexists. split; [exact DS|]. split; [exact DC|]. split.
  { rewrite X at 1. apply (subgroup_pooling_eq G d _ _ OK); [exact (pf_sub _ _ _ _ _ _ _ _ _ _ _ _ F)|exact (pf_cos _ _ _ _ _ _ _ _ _ _ _ _ F)|
      exact (pf_gaxis _ _ _ _ _ _ _ _ _ _ _ _ F)|exact (pf_idx _ _ _ _ _ _ _ _ _ _ _ _ F)|exact Lm']. }
  split; [apply shape_tab|]. split.
  - intros bi p h q BI P Hh Q. rewrite at_sig4 by assumption. reflexivity.
  - intros v V. rewrite GN in V. destruct (coset_factor _ _ _ _ OK _ _ v DS V) as [cos' [DC' [h0 [e [IH [IE [CE U]]]]]]].
    rewrite DC in DC'. injection DC' as <-. destruct (In_nth _ _ 0 IH) as [h [Hh NH]]. exists h, e.
    split; [exact Hh|]. split; [exact IE|]. split; [rewrite NH; exact CE|]. intros h' e' Hh' IE' CE'.
    destruct (U (nth h' sub 0) e' (nth_In _ _ Hh') IE' CE') as [Q1 Q2]. split; [|exact Q2].
    destruct (sub_idx_facts _ _ _ _ OK _ _ SA) as [ND _]. apply (proj1 (NoDup_nth sub 0) ND); try assumption. congruence.
Qed.

(** Every slice of the output along the group axis is the ordinary pooling of the
    (padded) slice of the signal pooled to the subgroup. *)
Theorem C48_pooling_slice name G d t (a : pool_args) H opt bs m g c L k s :
  pooling_for name G a -> pa_subgroup a = Some H -> pool_option a opt ->
  pooling_built d t a (bs :: map Some m ++ [Some g; Some c]) L -> List.length m = d -> pool_sizes d a k s ->
  exists P, padding_of_pooling a d bs m (g * c) P /\
  forall (x y : tensor A) b m', pool_call L x = Ok y -> wf x -> List.length m' = d -> shape x = b :: m' ++ [g; c] ->
  exists z, subgroup_pooling (max_or_mean t) (po_gt L) x = Ok z /\
    nth (d + 1) (shape y) 0 = nth (d + 1) (shape z) 0 /\
    forall h, h < nth (d + 1) (shape z) 0 ->
    exists zp, padding_call P (slice (d + 1) h z) = Ok zp /\
      pool_op (max_or_mean t) "channels_last" zp k s (backend_padding opt) = Ok (slice (d + 1) h y).
Proof.
  change (max_or_mean t) with (pool_fun (A := A) t).
  intros PF HS OP B Lm SZ. exists (gt_padding (po_gt L)). split.
  { destruct PF as [DG [AG AF]]. destruct OP as [p [PN UP]]. destruct B as [L0 [I B]].
    pose proof DG as DG'. apply lib_ok in DG' as [_ OK].
    destruct (pool_build_inv (A := A) G d _ _ OK name t a L0 bs m g c L DG AG AF I Lm B)
      as [p' [k' [s0 [s' [eb [ea [sub [cos [Hn [PN' [SK' [SS0 [SS' [WO [PS [DS [DC [SA [GN [F [P [PI PB]]]]]]]]]]]]]]]]]]]]]].
    unfold pool_padding_name in PN'. rewrite PN in PN'. injection PN' as <-.
    exists P. rewrite PN. split; [exact PI|exact PB]. }
  intros x y b m' C W Lm' SH.
  destruct (pooling_facts name G d t a H opt bs m g c L k s x y PF HS OP B Lm SZ C)
    as [OK [GN [_ [eb [ea [sub [cos [DS [DC [SA F]]]]]]]]]].
  rewrite GN in SH. pose proof (tensor_sig4 d b m' _ c x W Lm' SH) as X.
  eexists. split.
  { rewrite X at 1. apply (subgroup_pooling_eq G d _ _ OK); [exact (pf_sub _ _ _ _ _ _ _ _ _ _ _ _ F)|exact (pf_cos _ _ _ _ _ _ _ _ _ _ _ _ F)|
      exact (pf_gaxis _ _ _ _ _ _ _ _ _ _ _ _ F)|exact (pf_idx _ _ _ _ _ _ _ _ _ _ _ _ F)|exact Lm']. }
  rewrite shape_tab.
  assert (GX : forall mm gg cc, List.length mm = d -> nth (d + 1) (b :: mm ++ [gg; cc]) 0 = gg).
  { intros mm gg cc LL. replace (d + 1) with (S d) by lia. cbn [nth]. rewrite app_nth2 by lia. rewrite LL, Nat.sub_diag. reflexivity. }
  rewrite (GX m') by exact Lm'.
  assert (NE : sub <> []).
  { destruct (sub_idx_facts _ _ _ _ OK _ _ SA) as [_ [_ [HD _]]]. destruct sub; [discriminate HD|discriminate]. }
  rewrite X in C. rewrite (pool_call_eq G d _ _ OK sub cos k s eb ea (is_same opt) t L b m' c (fun4 x) F NE Lm') in C. destruct F.
  assert (L1 : List.length (padded eb m' ea) = d) by (apply length_padded; assumption).
  set (m1 := padded eb m' ea) in *. set (pads := builtin_pads (padding_string (is_same opt)) m1 k s) in *.
  assert (LP : List.length pads = d) by (apply length_builtin; assumption).
  set (m2 := padded (map fst pads) m1 (map snd pads)) in *.
  assert (L2 : List.length m2 = d) by (apply length_padded; rewrite ?map_length; assumption).
  destruct (forallb _ (combine k m2)) eqn:FB; [|discriminate C]. injection C as <-.
  assert (LO : List.length (outs m2 k s) = d) by (apply length_outs; assumption).
  rewrite shape_tab, GX by exact LO. split; [reflexivity|]. intros h Hh.
  rewrite !slice_sig4 by assumption. rewrite (pf_pads b m') by exact Lm'. fold m1. eexists. split; [reflexivity|].
  unfold pool_op, in_format. cbn [String.eqb Ascii.eqb Bool.eqb].
  assert (BP : lower (backend_padding opt) = padding_string (is_same opt)).
  { unfold backend_padding, is_same. destruct (mem_str opt _); reflexivity. }
  rewrite (pool_last_eq d b m1 _ k _ _ s (backend_padding opt) (is_same opt)) by assumption.
  fold pads. fold m2. rewrite FB. reflexivity.
Qed.

(** Pooling with given strides.  Needed: a pooling function that does not depend on
    the order; pool size and strides equal along exchanged axes; and for
    'same_equiv', that Keras adds an even number of rows in total. *)
Theorem C32_pooling_is_equivariant name G t (a : pool_args) H opt bs m g c L k s st (x : tensor A) b m' :
  order_irrelevant (pool_fun (A := A) t) ->
  pooling_for name G a -> pa_subgroup a = Some H -> pool_option a opt ->
  (pa_allow a = false \/ In opt ["SAME_EQUIV"; "VALID_EQUIV"]) ->
  let d := dimension_of name in
  pooling_built d t a (bs :: map Some m ++ [Some g; Some c]) L -> List.length m = d -> pool_sizes d a k s ->
  respects name k -> respects name s -> pa_strides a = Some st ->
  (opt = "SAME_EQUIV" -> forall ax, ax < d -> Nat.Even (rows_added (nth ax m 0) (nth ax k 0) (nth ax s 0))) ->
  List.length m' = d -> (forall ax, ax < d -> nth ax m 0 mod nth ax s 0 = nth ax m' 0 mod nth ax s 0) ->
  wf x -> shape x = b :: m' ++ [g; c] ->
  commutes_at (transforms_of_group_signal G d H "") (transforms_of_group_signal G d H H) (pool_call L) x.
Proof.
  intros PF [DG [AG AF]] HS [p [PN UP]] AL d [L0 [I B]] Lm [SK SS] RK RS ST EV Lm' CO W SH gx y R C.
  pose proof DG as DG'. apply lib_ok in DG' as [_ OK]. fold d in OK.
  assert (AL' : pa_allow a = false \/ is_plain (upper p) = false).
  { destruct AL as [AL|AL]; [left; exact AL|]. right. rewrite UP. cbn [In] in AL. destruct AL as [<-|[<-|[]]]; reflexivity. }
  apply (pool_commutes G d _ _ OK name t a L0 H bs m g c L p k s m' x b gx y); try assumption.
  rewrite ST. intros SE ax Hax. rewrite UP in SE. specialize (EV SE ax Hax).
  destruct (std_pos d _ _ SS) as [_ Ps]. rewrite <- (same_total_mod _ _ _ _ (Ps ax Hax) (CO ax Hax)). exact EV.
Qed.

(** Without strides: Keras takes the pool size, the padding layer takes 1.  The layer
    is equivariant when the pool size divides the input size ('valid'), or it is odd
    and Keras adds an even number of rows ('same'). *)
Theorem C33_default_strides name G t (a : pool_args) H opt bs m g c L k s (x : tensor A) b :
  order_irrelevant (pool_fun (A := A) t) ->
  pooling_for name G a -> pa_subgroup a = Some H -> pool_option a opt -> pa_allow a = false ->
  let d := dimension_of name in
  pooling_built d t a (bs :: map Some m ++ [Some g; Some c]) L -> List.length m = d -> pool_sizes d a k s ->
  respects name k -> pa_strides a = None ->
  (forall ax, ax < d -> if mem_str opt ["SAME"; "SAME_EQUIV"]
                        then Nat.Odd (nth ax k 0) /\ Nat.Even (rows_added (nth ax m 0) (nth ax k 0) (nth ax k 0))
                        else nth ax m 0 mod nth ax k 0 = 0) ->
  wf x -> shape x = b :: m ++ [g; c] ->
  s = k /\ commutes_at (transforms_of_group_signal G d H "") (transforms_of_group_signal G d H H) (pool_call L) x.
Proof.
  intros PF [DG [AG AF]] HS [p [PN UP]] AL d [L0 [I B]] Lm [SK SS] RK ST EV W SH.
  pose proof SS as SS'. rewrite ST, SK in SS'. injection SS' as <-. split; [reflexivity|]. intros gx y R C.
  pose proof DG as DG'. apply lib_ok in DG' as [_ OK]. fold d in OK.
  apply (pool_commutes G d _ _ OK name t a L0 H bs m g c L p k k m x b gx y); try assumption.
  - left. exact AL.
  - rewrite ST. intros ax Hax. rewrite UP. specialize (EV ax Hax). unfold is_same. destruct (mem_str opt _); [exact EV|].
    destruct (std_pos d _ _ SK) as [_ Pk]. specialize (Pk ax Hax). exists (nth ax m 0 / nth ax k 0). pose proof (Nat.div_mod_eq (nth ax m 0) (nth ax k 0)). lia.
  - reflexivity.
Qed.

(** The formats of global pooling layers, and signals in them. *)
Definition first_of (fmt : option string) : bool := match fmt with Some f => String.eqb f "channels_first" | None => false end.
Definition known_format (fmt : option string) : Prop := In fmt [None; Some "channels_last"; Some "channels_first"].
Definition global_shape (fmt : option string) (b : nat) (m : list nat) (g c : nat) : list nat :=
  if first_of fmt then b :: c :: m ++ [g] else b :: m ++ [g; c].
Definition global_axes (fmt : option string) (d : nat) : list Z := map Z.of_nat (seq (if first_of fmt then 2 else 1) d).
Definition global_group_axis (fmt : option string) (d : nat) : Z := Z.of_nat ((if first_of fmt then 2 else 1) + d).

Lemma global_layer fmt d t kd L0 sh (L : global_pool_layer) : known_format fmt -> global_init d t fmt kd = Ok L0 -> global_build L0 sh = Ok L ->
  L = mkGlobal d t (if first_of fmt then "channels_first" else "channels_last") kd (global_group_axis fmt d) (if first_of fmt then 1%Z else (-1)%Z).
Proof.
  intros K I B. unfold global_build in B. destruct (List.length sh =? gp_dims L0 + 3)%nat; [|discriminate B].
  destruct (merge_shapes _ _ _); [|discriminate B]. cbn [bind] in B. injection B as <-.
  unfold global_init in I. unfold global_group_axis. destruct K as [<-|[<-|[<-|[]]]]; cbn [first_of String.eqb Ascii.eqb Bool.eqb] in *.
  - cbn [bind] in I. injection I as <-. f_equal; lia.
  - replace (standardize_format "channels_last") with (Ok "channels_last" : result string) in I by reflexivity. cbn [bind] in I. injection I as <-. f_equal; lia.
  - replace (standardize_format "channels_first") with (Ok "channels_first" : result string) in I by reflexivity. cbn [bind] in I. injection I as <-. f_equal; lia.
Qed.

(** Global pooling of a signal on the subgroup [K] does not change when the signal is
    transformed by an element of a subgroup [H] of it (in particular H = K, and
    H = K = "" for the whole group). *)
Theorem C34_global_pooling_is_invariant name G t fmt kd input H K act dom L0 L (x gx : tensor A) b m c :
  order_irrelevant (pool_fun (A := A) t) -> known_format fmt ->
  dict_get group_dict name = Ok G ->
  subgroup_indices G H act -> subgroup_indices G K dom -> (forall u, In u act -> In u dom) ->
  let d := dimension_of name in
  global_init d t fmt kd = Ok L0 -> global_build L0 input = Ok L -> List.length m = d ->
  wf x -> shape x = global_shape fmt b m (List.length dom) c ->
  action G x (global_axes fmt d) 0 (Some (global_group_axis fmt d)) (Some H) (Some K) = Ok gx ->
  nth 0 (shape gx) 0 = List.length act /\
  forall u, u < List.length act -> global_call L (slice 0 u gx) = global_call L x.
Proof.
  intros PF KF DG SA SD INC d I B Lm W SH R. apply lib_ok in DG as [_ OK]. fold d in OK.
  rewrite (global_layer fmt d t kd L0 input L KF I B).
  destruct (global_invariance G d _ _ OK (first_of fmt) t kd (Some H) (Some K) act dom x gx b m c PF SA SD INC Lm W) as [SG Q].
  - rewrite SH. unfold global_shape, first_shape, last_shape. destruct (first_of fmt); reflexivity.
  - exact R.
  - split; [rewrite SG; reflexivity|exact Q].
Qed.

Lemma what_global_pooling_computes d t fmt kd input L0 L (x : tensor A) b m g c :
  known_format fmt ->
  global_init d t fmt kd = Ok L0 -> global_build L0 input = Ok L -> List.length m = d ->
  shape x = global_shape fmt b m g c ->
  exists y, global_call L x = Ok y /\ wf y /\
    shape y = (if kd then global_shape fmt b (repeat 1 d) 1 c else [b; c]) /\
    forall bi q, bi < b -> q < c ->
      at_ y (if kd then global_shape fmt bi (repeat 0 d) 0 q else [bi; q])
      = pool_fun t (map (fun p => pool_fun t (map (fun h => at_ x (global_shape fmt bi p h q)) (seq 0 g))) (indices m)).
Proof.
  intros KF I B Lm SH. rewrite (global_layer fmt d t kd L0 input L KF I B). clear I B L0 L.
  unfold global_call. cbn [gp_type gp_group_axis gp_format gp_keepdims gp_dims]. unfold global_group_axis, global_shape in *.
  set (f := pool_fun t). destruct (first_of fmt).
  - destruct (reduce_block f x [b; c] m g [] SH) as [z [RZ [WZ [SZ AZ]]]]. cbn [List.length] in RZ. rewrite Lm in RZ. rewrite RZ. cbn [bind].
    unfold global_pool. cbn [String.eqb Ascii.eqb Bool.eqb]. unfold global_pool_first, rank. rewrite SZ. cbn [app]. rewrite app_nil_r.
    replace (List.length (b :: c :: m) =? d + 2)%nat with true by (symmetry; apply Nat.eqb_eq; cbn [List.length]; lia).
    cbn [firstn skipn app bind].
    assert (AT : forall bi q, bi < b -> q < c -> f (map (fun j => at_ z (bi :: q :: j)) (indices m))
                 = f (map (fun p => f (map (fun h => at_ x (bi :: q :: p ++ [h])) (seq 0 g))) (indices m))).
    { intros bi q BI Q. f_equal. apply map_ext_in. intros p P. apply In_indices in P. specialize (AZ [bi; q] p []). cbn [app] in AZ. rewrite app_nil_r in AZ.
      rewrite AZ; [reflexivity| |exact P|apply inb_nil]. apply inb_cons. split; [exact BI|]. apply inb_cons. split; [exact Q|apply inb_nil]. }
    destruct kd.
    + change 2 with (List.length [b; c]). rewrite expand_dims_tab by (cbn [List.length]; rewrite repeat_length; lia).
      eexists. split; [reflexivity|]. split; [apply wf_tab|]. split.
      * rewrite shape_stk. change (b :: c :: repeat 1 d) with ([b; c] ++ repeat 1 d). rewrite <- (repeat_length 1 d) at 1. rewrite <- app_length.
        rewrite <- (app_nil_r ([b; c] ++ repeat 1 d)) at 2. rewrite insert_at_app_r. rewrite <- app_assoc. reflexivity.
      * intros bi q BI Q. change (bi :: q :: repeat 0 d ++ [0]) with ([bi; q] ++ repeat 0 d ++ [0]).
        rewrite app_assoc. rewrite <- (insert_at_app_r 0 ([bi; q] ++ repeat 0 d) []). rewrite app_nil_r.
        rewrite app_length, repeat_length. rewrite at_stk.
        -- cbn [app firstn]. exact (AT bi q BI Q).
        -- cbn [List.length]. rewrite repeat_length. lia.
        -- cbn [app]. apply inb_cons. split; [exact BI|]. apply inb_cons. split; [exact Q|]. apply inb_ones.
        -- lia.
    + eexists. split; [reflexivity|]. split; [apply wf_tab|]. split; [apply shape_tab|]. intros bi q BI Q. rewrite at_tab.
      * cbn [firstn app]. exact (AT bi q BI Q).
      * apply inb_cons. split; [exact BI|]. apply inb_cons. split; [exact Q|apply inb_nil].
  - destruct (reduce_block f x [b] m g [c] SH) as [z [RZ [WZ [SZ AZ]]]]. cbn [List.length] in RZ. rewrite Lm in RZ. rewrite RZ. cbn [bind].
    unfold global_pool. cbn [String.eqb Ascii.eqb Bool.eqb]. unfold global_pool_last, rank. rewrite SZ. cbn [app].
    replace (List.length (b :: m ++ [c]) =? d + 2)%nat with true
      by (symmetry; apply Nat.eqb_eq; cbn [List.length]; rewrite app_length; cbn [List.length]; lia).
    rewrite (spatial_ix d b m [c] Lm), (chan_ix d b m c [] Lm). cbn [bind]. change (nth 0 (b :: m ++ [c]) 0) with b.
    assert (AT : forall bi q, bi < b -> q < c -> f (map (fun j => at_ z (bi :: j ++ [q])) (indices m))
                 = f (map (fun p => f (map (fun h => at_ x (bi :: p ++ [h; q])) (seq 0 g))) (indices m))).
    { intros bi q BI Q. f_equal. apply map_ext_in. intros p P. apply In_indices in P. specialize (AZ [bi] p [q]). cbn [app] in AZ.
      rewrite AZ; [reflexivity| |exact P|]; apply inb_cons; (split; [assumption|apply inb_nil]). }
    destruct kd.
    + rewrite expand_dims_tab by (cbn [List.length]; rewrite app_length, repeat_length; cbn [List.length]; lia).
      eexists. split; [reflexivity|]. split; [apply wf_tab|]. split.
      * rewrite shape_stk. change (b :: repeat 1 d ++ [c]) with ((b :: repeat 1 d) ++ [c]). replace (1 + d) with (List.length (b :: repeat 1 d)) by (cbn [List.length]; rewrite repeat_length; reflexivity).
        rewrite insert_at_app_r. reflexivity.
      * intros bi q BI Q. change (bi :: repeat 0 d ++ [0; q]) with ((bi :: repeat 0 d) ++ 0 :: [q]).
        rewrite <- (insert_at_app_r 0 (bi :: repeat 0 d) [q]). cbn [List.length]. rewrite repeat_length. change (S d) with (1 + d). rewrite at_stk.
        -- change (nth 0 ((bi :: repeat 0 d) ++ [q]) 0) with bi. rewrite last_last. exact (AT bi q BI Q).
        -- cbn [List.length]. rewrite app_length, repeat_length. cbn [List.length]. lia.
        -- cbn [app]. apply inb_cons. split; [exact BI|]. apply inb_app; [apply inb_ones|]. apply inb_cons. split; [exact Q|apply inb_nil].
        -- lia.
    + eexists. split; [reflexivity|]. split; [apply wf_tab|]. split; [apply shape_tab|]. intros bi q BI Q. rewrite at_tab.
      * cbn [nth last]. exact (AT bi q BI Q).
      * apply inb_cons. split; [exact BI|]. apply inb_cons. split; [exact Q|apply inb_nil].
Qed.

(** What global pooling computes: first over the group, then over the positions. *)
Theorem C34_what_global_pooling_computes d t fmt kd input L0 L (x : tensor A) b m g c :
  known_format fmt ->
  global_init d t fmt kd = Ok L0 -> global_build L0 input = Ok L -> List.length m = d ->
  shape x = global_shape fmt b m g c ->
  exists y, global_call L x = Ok y /\ wf y /\
    shape y = (if kd then global_shape fmt b (repeat 1 d) 1 c else [b; c]) /\
    forall bi q, bi < b -> q < c ->
      at_ y (if kd then global_shape fmt bi (repeat 0 d) 0 q else [bi; q])
      = max_or_mean t (map (fun p => max_or_mean t (map (fun h => at_ x (global_shape fmt bi p h q)) (seq 0 g))) (indices m)).
Proof. exact (what_global_pooling_computes d t fmt kd input L0 L x b m g c). Qed.

End Pooling.
Print Assumptions C31_subgroup_pooling.
Print Assumptions C48_pooling_slice.
Print Assumptions C32_pooling_is_equivariant.
Print Assumptions C33_default_strides.
Print Assumptions C34_global_pooling_is_invariant.
Print Assumptions C34_what_global_pooling_computes.

(** Concrete layers, over the integers. *)

Definition moved_in (G : group) (d : nat) (H : string) := transforms_of_group_signal (A := Z) G d H "".
Definition moved_out (G : group) (d : nat) (H : string) := transforms_of_group_signal (A := Z) G d H H.

Example C31_case :
  match test_pool 2 "max" (pooling "P4" "P2" (One 1) (Some (One 1)) None) (map Some [1; 1; 1; 4; 1]) with
  | Ok L => dict_get (g_subgroup P4) "P2" = Ok [0; 2] /\ dict_get (g_cosets P4) "P2" = Ok [0; 1] /\
            subgroup_pooling pool_max (po_gt L) (mkTensor [1; 1; 1; 4; 1] [5; 7; 9; 2]%Z) = Ok (mkTensor [1; 1; 1; 2; 1] [7; 9]%Z)
  | Err _ => False
  end.
Proof. vm_compute. auto. Qed.

(** One spatial axis: the layers do not look at the geometry of the group. *)
Example C31_case_1d :
  match test_pool 1 "average" (pooling "P4" "P2" (One 2) (Some (One 2)) (Some (Some "valid"))) (map Some [1; 4; 4; 1]) with
  | Ok L => pool_call L (mkTensor [1; 4; 4; 1] [0; 1; 2; 3; 4; 5; 6; 7; 8; 9; 10; 11; 12; 13; 14; 15]%Z)
            = Ok (mkTensor [1; 2; 2; 1] [2; 4; 10; 12]%Z)
  | Err _ => False
  end.
Proof. vm_compute. reflexivity. Qed.

Example C48_case :
  match test_pool 2 "average" (pooling "P4" "P4" (One 3) (Some (One 2)) (Some (Some "same_equiv"))) (map Some [2; 5; 5; 4; 2]) with
  | Ok L => exists y, pool_call L (some_signal [2; 5; 5; 4; 2]) = Ok y /\ shape y = [2; 3; 3; 4; 2]
  | Err _ => False
  end.
Proof. vm_compute. eexists. split; reflexivity. Qed.

Example C32_case_2d :
  pooling_does_commute (moved_in P4 2 "P2") (moved_out P4 2 "P2")
    (test_pool 2 "average" (pooling "P4" "P2" (One 3) (Some (One 2)) (Some (Some "same_equiv"))) (map Some [1; 5; 5; 4; 2])) (signed_signal [1; 5; 5; 4; 2]) = true /\
  rows_added 5 3 2 = 2.
Proof. vm_compute. auto. Qed.

Example C32_case_3d :
  pooling_does_commute (moved_in D4 3 "D4") (moved_out D4 3 "D4")
    (test_pool 3 "max" (pooling "D4" "D4" (One 2) (Some (One 1)) (Some (Some "valid"))) (map Some [1; 2; 2; 2; 8; 1])) (signed_signal [1; 2; 2; 2; 8; 1]) = true.
Proof. vm_compute. reflexivity. Qed.

(** 'same_equiv' is accepted although Keras adds one row on one side only (pool size
    2, stride 1): the padding layer adds the missing row of zeros on the other side,
    but Keras ignores its own row, so that the zeros count on one side and not on the
    other. *)
Theorem C32_same_equiv_refuted : exists L,
  pooling_built 2 "max" (pooling "P4" "P4" (One 2) (Some (One 1)) (Some (Some "same_equiv"))) (map Some [1; 4; 4; 4; 1]) L /\
  ~ commutes_at (moved_in P4 2 "P4") (moved_out P4 2 "P4") (pool_call L) (signed_signal [1; 4; 4; 4; 1]).
Proof. apply pooling_fails_to_commute_ok. vm_compute. reflexivity. Qed.

(** Pool sizes that differ along axes exchanged by the group are accepted. *)
Theorem C32_pool_size_refuted : exists L,
  pooling_built 2 "max" (pooling "P4" "P4" (Tuple [1; 2]%Z) (Some (One 1)) (Some (Some "valid"))) (map Some [1; 4; 4; 4; 1]) L /\
  ~ commutes_at (moved_in P4 2 "P4") (moved_out P4 2 "P4") (pool_call L) (signed_signal [1; 4; 4; 4; 1]).
Proof. apply pooling_fails_to_commute_ok. vm_compute. reflexivity. Qed.

Example C33_case :
  pooling_does_commute (moved_in P4 2 "P4") (moved_out P4 2 "P4")
    (test_pool 2 "max" (pooling "P4" "P4" (One 2) None None) (map Some [1; 4; 4; 4; 1])) (signed_signal [1; 4; 4; 4; 1]) = true /\
  pooling_does_commute (moved_in P4 2 "P2") (moved_out P4 2 "P2")
    (test_pool 2 "max" (pooling "P4" "P2" (One 3) None (Some (Some "same"))) (map Some [1; 7; 7; 4; 1])) (signed_signal [1; 7; 7; 4; 1]) = true.
Proof. vm_compute. auto. Qed.

(** A layer without strides is accepted for any input size, with 'valid' and
    'valid_equiv' padding, and is not equivariant when the pool size leaves a rest. *)
Theorem C33_default_strides_refuted padding : In padding [None; Some (Some "valid"); Some (Some "valid_equiv")] -> exists L,
  pooling_built 2 "max" (pooling "P4" "P4" (One 2) None padding) (map Some [1; 5; 5; 4; 1]) L /\
  ~ commutes_at (moved_in P4 2 "P4") (moved_out P4 2 "P4") (pool_call L) (signed_signal [1; 5; 5; 4; 1]).
Proof. intros [<-|[<-|[<-|[]]]]; apply pooling_fails_to_commute_ok; vm_compute; reflexivity. Qed.

Definition global_test (name : string) (t : string) (fmt : option string) (kd : bool) (x : tensor Z) : result (tensor Z) :=
  let d := dimension_of name in
  L0 <- global_init d t fmt kd ;; L <- global_build L0 (map Some (shape x)) ;; global_call L x.

Example C34_case :
  global_test "P4M" "max" (Some "channels_first") true (some_signal [2; 3; 4; 4; 8]) = Ok (mkTensor [2; 3; 1; 1; 1] [30; 30; 30; 30; 30; 30]%Z) /\
  global_test "P4" "average" None false (some_signal [1; 3; 3; 4; 2]) = Ok (mkTensor [1; 2] [15; 12]%Z).
Proof. vm_compute. auto. Qed.

(** On the other hand a signal pooled over positions only does change: the group
    axis matters. *)
Example C34_case_moved :
  match action P4 (some_signal [1; 2; 2; 4; 1]) (global_axes None 2) 0 (Some (global_group_axis None 2)) (Some "P4") (Some "") with
  | Ok gx => same_tensor (slice 0 1 gx) (some_signal [1; 2; 2; 4; 1]) = false /\
      same_result (global_test "P4" "max" None true (slice 0 1 gx)) (global_test "P4" "max" None true (some_signal [1; 2; 2; 4; 1])) = true
  | Err _ => False
  end.
Proof. vm_compute. auto. Qed.
Print Assumptions C32_same_equiv_refuted.
Print Assumptions C32_pool_size_refuted.
Print Assumptions C33_default_strides_refuted.
