(** Transformed signals in the format 'channels_first', and carrying equivariance over
    from one data format to the other. *)
From Verif Require Export PoolFormatFacts.
Local Open Scope string_scope.
Local Open Scope list_scope.

Section FirstSlices.
Context {A : Type} {RA : Arith A}.
Context (G : group) (d : nat) (E : list symmetry) (eq : bool) (OK : group_ok G d E eq).
Notation n := (List.length E).
Notation sym a := (nth a E []).
Notation fit := (fit d eq).

Lemma tensor_first3 b m c (x : tensor A) : wf x -> shape x = b :: c :: m ->
  exists f, x = tab (b :: c :: m) (first3 f).
Proof.
  intros W SH. exists (fun bi p q => at_ x (bi :: q :: p)). rewrite <- (tab_at x W) at 1. rewrite SH. apply tab_ext. intros i I.
  apply inbF_inv in I as [bi [q [p [-> _]]]]. reflexivity.
Qed.

Lemma tensor_first4 b m g c (x : tensor A) : wf x -> List.length m = d -> shape x = b :: c :: m ++ [g] ->
  exists f, x = tab (b :: c :: m ++ [g]) (first4 d f).
Proof.
  intros W L SH. exists (fun bi p h q => at_ x (bi :: q :: p ++ [h])). rewrite <- (tab_at x W) at 1. rewrite SH. apply tab_ext. intros i I.
  apply inbF4_inv in I as [bi [q [p [h [-> [_ [_ [P _]]]]]]]]. rewrite first4_ix by (rewrite (inb_length _ _ P); exact L). reflexivity.
Qed.

Lemma first_accept b c m rest : List.length m = d -> (accepts eq (seq 2 d) (b :: c :: m ++ rest) <-> kernel_fits eq m).
Proof.
  intros L. unfold accepts, kernel_fits.
  assert (Q : gather (seq 2 d) (b :: c :: m ++ rest) = m) by (rewrite <- L; apply (gather_block [b; c] m rest)).
  rewrite Q. reflexivity.
Qed.

Lemma pixel_at_2 a b c m rest bi q p r : a < n -> List.length m = d -> List.length p = d ->
  pixel_at (sym a) (seq 2 d) (b :: c :: m ++ rest) (bi :: q :: p ++ r) = bi :: q :: pixel (sym a) m p ++ r.
Proof.
  intros Ha L LP. pose proof (sym_ok G d E eq OK a Ha) as [LE _].
  replace (seq 2 d) with (seq (List.length [b; c]) (List.length m)) by (rewrite L; reflexivity).
  change (bi :: q :: p ++ r) with ([bi; q] ++ p ++ r). change (b :: c :: m ++ rest) with ([b; c] ++ m ++ rest).
  rewrite pixel_at_block; [reflexivity|reflexivity|lia|lia].
Qed.

Lemma first_grid_slices b m c (X : nat -> list nat -> nat -> A) H idx gx :
  sub_idx G H idx -> List.length m = d ->
  action G (tab (b :: c :: m) (first3 X)) (map Z.of_nat (seq 2 d)) 0 None H None = Ok gx ->
  fit m /\ shape gx = List.length idx :: b :: c :: m /\
  forall u, u < List.length idx -> slice 0 u gx = tab (b :: c :: m) (first3 (moved3 E (nth u idx 0) m X)).
Proof.
  intros S L R. change 0%Z with (Z.of_nat 0) in R.
  apply (grid_action_ok _ _ _ _ OK) with (idx := idx) in R as [AC ->]; [|apply wf_tab|lia|apply spatial_block; rewrite ?rank_tab; cbn [List.length]; lia|exact S].
  rewrite shape_tab in *. rewrite <- (app_nil_r m) in AC.
  assert (F : fit m) by (split; [apply first_accept in AC; assumption|exact L]).
  split; [exact F|]. split; [apply shape_stk|]. intros u U. rewrite slice_stk by (try apply Nat.le_0_l; exact U).
  destruct (sub_idx_facts _ _ _ _ OK _ _ S) as [_ [B _]]. assert (Ha : nth u idx 0 < n) by (apply B, nth_In; exact U).
  apply tab_ext. intros i I. apply inbF_inv in I as [bi [q [p [-> [BI [Q P]]]]]].
  rewrite <- (app_nil_r m) at 2. rewrite <- (app_nil_r p) at 1.
  rewrite pixel_at_2 by (try assumption; rewrite (inb_length _ _ P); exact L). rewrite app_nil_r.
  rewrite at_tab; [reflexivity|]. apply inb_cons. split; [exact BI|]. apply inb_cons. split; [exact Q|].
  apply (pixel_in G d E eq OK); assumption.
Qed.

Lemma first_grid_defined b m c (X : nat -> list nat -> nat -> A) H idx : sub_idx G H idx -> fit m ->
  exists gx, action G (tab (b :: c :: m) (first3 X)) (map Z.of_nat (seq 2 d)) 0 None H None = Ok gx.
Proof.
  intros SA [F L]. eexists. change 0%Z with (Z.of_nat 0).
  apply (action_grid _ _ _ _ OK) with (idx := idx); [lia|apply spatial_block; cbn [List.length]; lia| |exact SA].
  rewrite <- (app_nil_r m). apply first_accept; assumption.
Qed.

Lemma first_group_slices b m D c (X : nat -> list nat -> nat -> nat -> A) Ha Hd idx dom gx :
  sub_idx G Ha idx -> sub_idx G Hd dom -> D = List.length dom -> List.length m = d ->
  (forall u, In u idx -> stable G u dom) ->
  action G (tab (b :: c :: m ++ [D]) (first4 d X)) (map Z.of_nat (seq 2 d)) 0 (Some (Z.of_nat (d + 2))) Ha Hd = Ok gx ->
  fit m /\ shape gx = List.length idx :: b :: c :: m ++ [D] /\
  forall u, u < List.length idx -> slice 0 u gx = tab (b :: c :: m ++ [D]) (first4 d (moved4 G E (nth u idx 0) m dom X)).
Proof.
  intros SA SD -> L ST R. replace (d + 2) with (List.length [b; c] + d) in R by (cbn [List.length]; lia).
  destruct (slices_block G d E eq OK (tab (b :: c :: m ++ [List.length dom]) (first4 d X)) gx [b; c] m [] Ha Hd idx dom SA SD L (wf_tab _ _)) as [F [SH Q]];
    [apply shape_tab|exact ST|exact R|].
  rewrite shape_tab in *. split; [exact F|]. split; [exact SH|]. intros u U. destruct (Q u U) as [WS [SS AT]].
  rewrite <- (tab_at _ WS). rewrite SS. apply tab_ext. intros i I. apply inbF4_inv in I as [bi [q [p [h [-> [BI [Qq [P Hh]]]]]]]].
  change (bi :: q :: p ++ [h]) with ([bi; q] ++ p ++ h :: []).
  assert (I2 : inb [b; c] [bi; q]) by (apply inb_cons; split; [exact BI|]; apply inb_cons; split; [exact Qq|apply inb_nil]).
  rewrite AT by (try assumption; apply inb_nil). cbn [app].
  destruct (sub_idx_facts _ _ _ _ OK _ _ SA) as [_ [B _]]. assert (Hu : nth u idx 0 < n) by (apply B, nth_In; exact U).
  pose proof (pixel_in G d E eq OK _ m p Hu F P) as PI.
  rewrite at_tab.
  2:{ apply inb_cons. split; [exact BI|]. apply inb_cons. split; [exact Qq|]. apply inb_app; [exact PI|].
      apply inb_cons. split; [|apply inb_nil]. apply turned_lt; [apply ST, nth_In; exact U|exact Hh]. }
  rewrite !first4_ix by (rewrite ?(inb_length _ _ PI), ?(inb_length _ _ P); exact L). reflexivity.
Qed.

Lemma first_group_defined b m D c (X : nat -> list nat -> nat -> nat -> A) Ha Hd idx dom :
  sub_idx G Ha idx -> sub_idx G Hd dom -> D = List.length dom -> fit m ->
  exists gx, action G (tab (b :: c :: m ++ [D]) (first4 d X)) (map Z.of_nat (seq 2 d)) 0 (Some (Z.of_nat (d + 2))) Ha Hd = Ok gx.
Proof.
  intros SA SD DD [F L]. assert (LS : List.length (b :: c :: m ++ [D]) = d + 3) by (cbn [List.length]; rewrite app_length; cbn [List.length]; lia).
  eexists. change 0%Z with (Z.of_nat 0).
  apply (action_group _ _ _ _ OK) with (act := idx) (dom := dom);
    [lia|lia|apply spatial_block; lia|intros I; apply in_seq in I; lia|apply first_accept; assumption|exact SA|exact SD|].
  rewrite Nat.add_comm. cbn [plus nth]. rewrite app_nth2 by lia. rewrite L, Nat.sub_diag. exact DD.
Qed.

(** ** Carrying over equivariance *)

Definition transforms_last (valued : bool) (H K : string) (x : tensor A) : result (tensor A) :=
  if valued then transforms_of_group_signal G d H K x else transforms_of_grid_signal G d H x.
Definition transforms_first (valued : bool) (H K : string) (x : tensor A) : result (tensor A) :=
  if valued then transforms_of_first_group_signal G d H K x else transforms_of_first_grid_signal G d H x.

(** Two calls that agree up to the data format. *)
Definition calls_agree (call1 call2 : tensor A -> result (tensor A)) (g' b : nat) (z : tensor A) : Prop :=
  (exists e, call1 z = Err e /\ (z' <- channels_first z ;; call2 z') = Err e) \/
  exists m' o Y, List.length m' = d /\ call1 z = Ok (tab (b :: m' ++ [g'; o]) (sig4 d Y)) /\
    (z' <- channels_first z ;; call2 z') = Ok (tab (b :: o :: m' ++ [g']) (first4 d Y)).

(** Signals in both formats, and their transforms. *)
Lemma rearranged (valued : bool) H K act dom (x : tensor A) b m g c :
  sub_idx G (Some H) act ->
  (valued = true -> sub_idx G (Some K) dom /\ g = List.length dom /\ forall u, In u act -> stable G u dom) ->
  List.length m = d -> wf x -> shape x = channels_first_shape valued b m g c ->
  exists z, wf z /\ shape z = signal_shape valued b m g c /\ channels_first z = Ok x /\
    forall gx, transforms_first valued H K x = Ok gx ->
    nth 0 (shape gx) 0 = List.length act /\
    exists gz, transforms_last valued H K z = Ok gz /\ nth 0 (shape gz) 0 = List.length act /\
    forall u, u < List.length act -> wf (slice 0 u gz) /\ shape (slice 0 u gz) = signal_shape valued b m g c /\
      channels_first (slice 0 u gz) = Ok (slice 0 u gx).
Proof.
  intros SA SD L W SH. unfold transforms_first, transforms_last, transforms_of_first_group_signal, transforms_of_first_grid_signal,
    transforms_of_group_signal, transforms_of_grid_signal, spatial_axes, first_spatial_axes, group_axis.
  unfold channels_first_shape in SH. unfold channels_first, signal_shape. destruct valued.
  - destruct (SD eq_refl) as [SK [GD ST]]. destruct (tensor_first4 b m g c x W L SH) as [f ->].
    exists (tab (b :: m ++ [g; c]) (sig4 d f)). split; [apply wf_tab|]. split; [apply shape_tab|]. split; [apply (proj1 (move4 d b m g c f L))|].
    intros gx R. destruct (first_group_slices b m g c f _ _ act dom gx SA SK GD L ST R) as [F [SG Q]]. rewrite SG. split; [reflexivity|].
    destruct (group_slices_ok G d E eq OK b m g c f _ _ act dom SA SK GD F ST) as [gz [Z1 [Z2 Z3]]]. exists gz. split; [exact Z1|]. rewrite Z2. split; [reflexivity|].
    intros u U. rewrite Z3, Q by exact U. split; [apply wf_tab|]. split; [apply shape_tab|]. apply (proj1 (move4 d b m g c _ L)).
  - rewrite app_nil_r in SH. destruct (tensor_first3 b m c x W SH) as [f ->].
    exists (tab (b :: m ++ [c]) (sig3 d f)). split; [apply wf_tab|]. split; [apply shape_tab|]. split; [apply (proj1 (move3 d b m c f L))|].
    intros gx R. destruct (first_grid_slices b m c f _ act gx SA L R) as [F [SG Q]]. rewrite SG. split; [reflexivity|].
    destruct (grid_slices_ok G d E eq OK b m c f None _ act SA F) as [gz [Z1 [Z2 Z3]]]. exists gz. split; [exact Z1|]. rewrite Z2. split; [reflexivity|].
    intros u U. rewrite Z3, Q by exact U. split; [apply wf_tab|]. split; [apply shape_tab|]. apply (proj1 (move3 d b m c _ L)).
Qed.

Lemma commutes_first (valued : bool) call1 call2 H K K' act dom dom' (x : tensor A) b m g c :
  sub_idx G (Some H) act ->
  (valued = true -> sub_idx G (Some K) dom /\ g = List.length dom /\ forall u, In u act -> stable G u dom) ->
  sub_idx G (Some K') dom' -> (forall u, In u act -> stable G u dom') ->
  List.length m = d -> wf x -> shape x = channels_first_shape valued b m g c ->
  (forall z, wf z -> shape z = signal_shape valued b m g c -> calls_agree call1 call2 (List.length dom') b z) ->
  (forall z, wf z -> shape z = signal_shape valued b m g c ->
     commutes_at (transforms_last valued H K) (transforms_of_group_signal G d H K') call1 z) ->
  commutes_at (transforms_first valued H K) (transforms_of_first_group_signal G d H K') call2 x.
Proof.
  intros SA SD SK' ST L W SH AG CM gx y R C.
  destruct (rearranged valued H K act dom x b m g c SA SD L W SH) as [z [WZ [SZ [ZX Q]]]].
  destruct (Q gx R) as [NX [gz [RZ [NZ SL]]]]. clear Q.
  destruct (AG z WZ SZ) as [[e [_ E2]]|[m' [o [Y [L' [E1 E2]]]]]]; rewrite ZX in E2; cbn [bind] in E2; [congruence|].
  rewrite C in E2. apply (f_equal (fun r => match r with Ok t => t | Err _ => gz end)) in E2. subst y.
  destruct (CM z WZ SZ gz _ RZ E1) as [gy [RY [NY SY]]].
  unfold transforms_of_group_signal, spatial_axes, group_axis in RY.
  destruct (group_slices G d E eq OK b m' (List.length dom') o Y _ _ act dom' gy SA SK' eq_refl L' ST RY) as [F' [_ QY]].
  destruct (first_group_defined b m' (List.length dom') o Y (Some H) (Some K') act dom' SA SK' eq_refl F') as [gy' RY'].
  destruct (first_group_slices b m' (List.length dom') o Y _ _ act dom' gy' SA SK' eq_refl L' ST RY') as [_ [SY' QY']].
  exists gy'. split; [exact RY'|]. rewrite SY', NX. split; [reflexivity|]. intros u U. destruct (SL u U) as [WU [SU CU]].
  specialize (SY u ltac:(rewrite NZ; exact U)).
  destruct (AG _ WU SU) as [[e [E1' _]]|[m2 [o2 [Y2 [L2 [E1' E2']]]]]]; [congruence|]. rewrite CU in E2'. cbn [bind] in E2'.
  rewrite SY, QY in E1' by exact U. apply (f_equal (fun r => match r with Ok t => t | Err _ => gy end)) in E1'. rewrite E2'. f_equal. rewrite QY' by exact U.
  pose proof (proj1 (move4 d b m' (List.length dom') o (moved4 G E (nth u act 0) m' dom' Y) L')) as M1. rewrite E1' in M1.
  rewrite (proj1 (move4 d b m2 (List.length dom') o2 Y2 L2)) in M1. 
  exact (f_equal (fun r => match r with Ok t => t | Err _ => gy end) M1).
Qed.

End FirstSlices.

(** Built layers in both formats. *)
Section Built.
Context {A : Type} {RA : Arith A}.

Lemma conv_agree name G (a : conv_args A) (tr valued : bool) bs m g c kinit binit L1 L2 :
  layer_for name G a ->
  let d := dimension_of name in
  built d tr a (static_signal_shape valued bs m g c) kinit binit L1 -> List.length m = d ->
  built d tr (with_format a "channels_first") (static_channels_first_shape valued bs m g c) kinit binit L2 ->
  needs_padding (cl_gt L1) = Some false -> needs_padding (cl_gt L2) = Some false ->
  exists act dom, sub_idx G (if tr then Some "" else ca_subgroup a) act /\
    (valued = true -> sub_idx G (if tr then ca_subgroup a else Some "") dom /\ g = List.length dom) /\
    forall x b m', wf x -> List.length m' = d -> shape x = signal_shape valued b m' g c ->
      calls_agree d (apply L1) (apply L2) (List.length act) b x.
Proof.
  intros [DG [AG AF]] d [L0 [I B]] Lm [M0 [I2 B2]] N1 N2.
  pose proof DG as DG'. apply lib_ok in DG' as [_ OK]. fold d in OK.
  rewrite conv_init_first in I2 by exact AF. rewrite I in I2. cbn [bind] in I2.
  assert (EM : M0 = cl_first d L0) by congruence. subst M0. clear I2.
  destruct (conv_build_twin G d _ _ name tr a L0 valued bs m g c kinit binit L1 OK DG AG AF I Lm B) as [PB1 TW]. rewrite TW in B2. clear TW.
  destruct (padding_build _ (bs :: Some _ :: map Some m)) as [P|] eqn:PB2 in B2; [|discriminate B2]. cbn [bind] in B2.
  injection B2 as <-.
  destruct (conv_build_inv G d _ _ OK name tr a L0 valued bs m g c kinit binit L1 DG AG AF I Lm B)
    as [p [k [s [dl [eb [ea [act [dom [PN [SK [SS [SD [WO [SA [SDm [CF [CC [KS [RS _]]]]]]]]]]]]]]]]]]].
  exists act, dom. split; [exact SA|]. split; [exact SDm|]. intros x b m' W Lm' SH.
  pose proof (call_twin G d _ _ tr valued act dom c _ (ca_filters a) k s dl eb ea (is_same (upper p)) (ca_use_bias a) (ca_activation a) kinit binit L1 P
                (bs :: Some (if valued then g * c else c) :: map Some m) x b m' g OK CF) as CT.
  unfold calls_agree, apply, channels_first.
  destruct CT as [CT|[m2 [Y CT]]]; try assumption; try reflexivity.
  - apply CF.
  - unfold no_padding. unfold needs_padding in N1. rewrite N1. discriminate.
  - unfold no_padding. unfold needs_padding in N2. cbn [twin_of cl_gt gt_padding] in N2. rewrite N2. discriminate.
  - left. exact CT.
  - right. exists m2, (ca_filters a), Y. exact CT.
Qed.

Context {PA : Pool A}.

Lemma pool_agree name G d t (a : pool_args) bs m g c L1 L2 :
  pooling_for name G a ->
  pooling_built d t a (static_signal_shape true bs m g c) L1 -> List.length m = d ->
  pooling_built d t (pool_with_format a "channels_first") (static_channels_first_shape true bs m g c) L2 ->
  needs_padding (po_gt L1) = Some false -> needs_padding (po_gt L2) = Some false ->
  g = List.length (symmetries_of name) /\
  exists sub, sub_idx G (pa_subgroup a) sub /\
    forall x b m', wf x -> List.length m' = d -> shape x = signal_shape true b m' g c ->
      calls_agree d (pool_call L1) (pool_call L2) (List.length sub) b x.
Proof.
  intros [DG [AG AF]] [L0 [I B]] Lm [M0 [I2 B2]] N1 N2.
  pose proof DG as DG'. apply lib_ok in DG' as [_ OK].
  rewrite pool_init_first in I2 by exact AF. rewrite I in I2. cbn [bind] in I2.
  assert (EM : M0 = po_first d L0) by congruence. subst M0. clear I2.
  destruct (pool_build_twin G d _ _ name t a L0 bs m g c L1 OK DG AG AF I Lm B)
    as [_ [GN [[sub [cos [k [s [SI [FG [FF [FF' [FA [FC [FV [SA [NE [BS [BC [PI [EK [ES [LK LS]]]]]]]]]]]]]]]]]]] [_ TW]]]]. rewrite TW in B2. clear TW.
  destruct (padding_build _ (bs :: Some _ :: map Some m)) as [P|] eqn:PB2 in B2; [|discriminate B2]. cbn [bind] in B2.
  injection B2 as <-. split; [exact GN|]. exists sub. split; [exact SI|]. intros x b m' W Lm' SH. subst k s g.
  pose proof (pool_call_twin G d _ _ sub cos L1 P (bs :: Some (List.length (symmetries_of name) * c) :: map Some m) x b m' c OK) as CT.
  unfold calls_agree, channels_first.
  destruct CT as [CT|[m2 [Y CT]]]; try assumption.
  - unfold no_padding. unfold needs_padding in N1. rewrite N1. discriminate.
  - unfold no_padding. unfold needs_padding in N2. cbn [pool_twin_of po_gt gt_padding] in N2. rewrite N2. discriminate.
  - left. exact CT.
  - right. exists m2, c, Y. exact CT.
Qed.

End Built.
