(** C92: layers that add their products in any order, with rounding errors. *)
From Coq Require Import QArith Qcanon Qabs Qround Qpower Lqa Permutation.
From Verif Require Import AnyOrderFacts CheckFacts Properties_Build Properties_Conv Properties_Exact Properties_Gradients Properties_Rounding EquivSpec.
Local Open Scope string_scope.
Local Open Scope Q_scope.
Local Open Scope list_scope.

(** Calling the layer with these arguments and weights on [x] may return [y]: each entry of
    [y] is the activation of one of the possible values of the sum of products at this place.
    The sums may be evaluated differently at different places and in different calls. *)
Definition may_return (u : Q) (d : nat) (transpose : bool) (a : conv_args Qc) (input : sshape) (kinit binit : list nat -> Qc) (x y : tensor Qc) : Prop :=
  exists sums, @run_conv formula symbolic d transpose (with_activation (fun p => p) a) input (fun j => number (kinit j)) (fun j => number (binit j)) (tmap number x) = Ok sums /\
    shape y = shape sums /\ Forall2 (fun p v => exists w, evaluates u p w /\ v = ca_activation a w) (data sums) (data y).

(** What [n] products of weights at most [W] with entries at most [X], their sum and a bias
    at most [B] can be wrong by. *)
Definition any_order_error (u : Q) (n : nat) (X W B : Q) : Q :=
  ((1 + u) ^ Z.of_nat (n + 1) - 1) * (inject_Z (Z.of_nat n) * (X * W) + B).

Lemma with_other_activation {A} {RA : Arith A} d tr (a : conv_args A) (f : A -> A) input kinit binit L :
  built d tr a input kinit binit L -> exists L', built d tr (with_activation f a) input kinit binit L'.
Proof.
  intros [L0 [I B]].
  assert (IN : conv_init d tr (with_activation f a) = rmap (map_layer (fun v => v) f) (conv_init d tr a)).
  { unfold conv_init. cbn [with_activation ca_group ca_subgroup ca_kernel_size ca_filters ca_strides ca_padding ca_dilation ca_data_format ca_allow ca_use_bias ca_activation].
    repeat (rewrite rmap_bind; apply bind_ext; intros ?). rewrite !rmap_guard. reflexivity. }
  rewrite I in IN. exists (map_layer (fun v => v) f L), (map_layer (fun v => v) f L0). split; [exact IN|].
  pose proof (tmap_conv_build (fun v : A => v) eq_refl f L0 input kinit binit) as TB. rewrite B in TB. exact TB.
Qed.

Lemma formulas_for name G (a : conv_args Qc) : layer_for name G a -> layer_for name G (with_activation (fun p : formula => p) a).
Proof. intros [DG [AG AF]]. split; [exact DG|]. split; [exact AG|exact AF]. Qed.

Lemma at_most_merged X valued (x : tensor Qc) c bi i q : bounded X x -> at_most_number X (@merged_fun formula symbolic valued (tmap number x) c bi i q).
Proof. intros H. unfold merged_fun, fun3, fun4, at_. destruct valued; cbn [data shape tmap]; apply at_most_nth; exact H. Qed.

Section Layer.
Context (name : string) (G : group) (a : conv_args Qc) (H opt : string) (tr valued : bool) (bs : option nat) (m : list nat) (g c : nat).
Context (kinit binit : list nat -> Qc) (L : conv_layer Qc) (k s dl : list nat) (W X B : Q).
Notation d := (dimension_of name).
Notation input := (static_signal_shape valued bs m g c).
Context (LF : layer_for name G a) (HS : ca_subgroup a = Some H) (OP : option_of a opt).
Context (Bu : @built Qc exact_Qc d tr a input kinit binit L) (Lm : List.length m = d) (SZ : sizes d a k s dl).
Context (WB : weights_bounded L W B).

Notation sums x := (@run_conv formula symbolic d tr (with_activation (fun p => p) a) input (fun j => number (kinit j)) (fun j => number (binit j)) (tmap number x)).

Lemma exact_output x b m' : wf x -> List.length m' = d -> shape x = signal_shape valued b m' g c ->
  @apply Qc exact_Qc L x = rmap (fun ys => tmap (ca_activation a) (tmap value ys)) (sums x).
Proof.
  intros Wx Lm' SH. destruct (@with_other_activation Qc exact_Qc d tr a (fun v => v) input kinit binit L Bu) as [L' B'].
  rewrite (@C87_the_activation_is_applied_last Qc exact_Qc name G a H opt tr valued bs m g c m' k s dl kinit binit L L' x b LF HS OP Lm Lm' SZ Bu B' Wx SH).
  rewrite <- (@run_built Qc exact_Qc _ _ _ _ _ _ _ x B').
  change (@linear Qc a) with (with_activation (fun v : Qc => v) a).
  rewrite (value_of_run d tr a input kinit binit x). destruct (sums x); reflexivity.
Qed.

Lemma formulas_bounded x b m' ys : wf x -> List.length m' = d -> shape x = signal_shape valued b m' g c -> bounded X x ->
  sums x = Ok ys -> Forall (sum_for (prod k * (if valued then g * c else c)) X W B) (data ys).
Proof.
  intros Wx Lm' SH HX R. destruct WB as [WK WBi].
  destruct (@built_facts Qc exact_Qc name G a H opt tr valued bs m g c kinit binit L k s dl LF HS OP Bu Lm SZ)
    as [_ [eb0 [ea0 [act0 [dom0 [_ [_ [_ [CFe _]]]]]]]]].
  destruct (@run_inv formula symbolic _ _ _ _ _ _ _ _ R) as [Lp [Bp Ap]].
  destruct (@built_facts formula symbolic name G _ H opt tr valued bs m g c _ _ Lp k s dl (formulas_for _ _ _ LF) HS OP Bp Lm SZ)
    as [OK [eb [ea [act [dom [_ [_ [_ [CF [CC _]]]]]]]]]].
  set (C := if valued then (g * c)%nat else c) in *.
  assert (Wp : wf (tmap number x)) by (unfold wf, tmap; cbn [shape data]; rewrite map_length; exact Wx).
  pose proof (@merged_input formula symbolic d valued (tmap number x) b m' g c Wp Lm' SH) as M. fold C in M.
  rewrite (@layer_form formula symbolic G d _ _ OK tr valued act dom c C _ k s dl eb ea _ _ _ _ _ Lp (tmap number x) b m' g _ CF CC Lm' SH M) in Ap.
  destruct (layer_runs _ _ _ _ _ _ _ _); [|discriminate Ap]. assert (EO : forall v w : tensor formula, Ok v = Ok w -> v = w) by congruence. apply EO in Ap. subst ys.
  assert (LO : List.length (layer_outs tr k s dl eb ea (is_same opt) m') = d)
    by exact (@length_layer_outs formula symbolic G d _ _ _ _ _ _ _ _ _ _ _ _ _ _ _ _ _ _ _ Lp m' CF Lm').
  unfold tab. cbn [data]. apply Forall_forall. intros p P. apply in_map_iff in P as [i [<- I]]. apply In_indices in I.
  apply inb4_inv in I as [bi [p [h [q [-> [_ [P [_ Q]]]]]]]]. rewrite sig4_ix by (rewrite (inb_length _ _ P); exact LO).
  cbn [with_activation ca_activation ca_use_bias ca_filters] in *. apply layer_entry_formula.
  - destruct CFe. apply WK. exact cf_kernel.
  - intros UB. apply WBi. destruct CFe. rewrite cf_bias, UB. reflexivity.
  - destruct CF. assumption.
  - intros bi' i' q' _. apply at_most_merged. exact HX.
  - exact Q.
Qed.

Context (u : Q) (U : 0 <= u) (NE : nonexpansive (ca_activation a)) (PW : 0 <= W) (PX : 0 <= X) (PB : 0 <= B).
Notation may := (may_return u d tr a input kinit binit).
Notation e := (any_order_error u (prod k * (if valued then g * c else c)) X W B).

(** Something can be returned exactly when the layer returns something, and all that can be
    is near the exact output. *)
Lemma returns_near x b m' : wf x -> List.length m' = d -> shape x = signal_shape valued b m' g c -> bounded X x ->
  match @apply Qc exact_Qc L x with
  | Ok y' => (exists y, may x y) /\ forall y, may x y -> near e y y'
  | Err _ => forall y, ~ may x y
  end.
Proof.
  intros Wx Lm' SH HX. rewrite (exact_output x b m' Wx Lm' SH).
  destruct (sums x) as [ys|er] eqn:R; cbn [rmap].
  - pose proof (formulas_bounded x b m' ys Wx Lm' SH HX R) as F. split.
    + assert (EX : exists l, Forall2 (fun p v => exists w, evaluates u p w /\ v = ca_activation a w) (data ys) l).
      { induction F as [|p l P F [r IH]]; [exists []; constructor|]. destruct (sum_for_evaluates u _ X W B p U P) as [w EW].
        exists (ca_activation a w :: r). constructor; [exists w; split; [exact EW|reflexivity]|exact IH]. }
      destruct EX as [l EX]. exists (mkTensor (shape ys) l), ys. split; [exact R|]. split; [reflexivity|exact EX].
    + intros y [ys' [R' [SY EV]]]. assert (EO : forall v w : tensor formula, Ok v = Ok w -> v = w) by congruence.
      assert (ys' = ys) as -> by (apply EO; rewrite <- R'; exact R). clear R'.
      split; [exact SY|]. unfold tmap. cbn [data]. clear SY R. revert EV. generalize (data y).
      induction F as [|p l P F IH]; intros r EV; inversion EV as [|p' v l' r' [w [EW ->]] EV']; subst; cbn [map]; [constructor|].
      constructor; [|apply IH; exact EV']. eapply Qle_trans; [apply NE|]. apply (sum_for_error u _ X W B p w); assumption.
  - intros y [ys' [R' _]]. congruence.
Qed.
End Layer.

(** Whatever the order: a result exists exactly when there is one in exact arithmetic, and all
    possible results are near the exact one. *)
Theorem C92_error_of_a_layer name G (a : conv_args Qc) H opt (tr valued : bool) bs m g c kinit binit L k s dl u W X B :
  layer_for name G a -> ca_subgroup a = Some H -> option_of a opt ->
  let d := dimension_of name in
  let input := static_signal_shape valued bs m g c in
  @built Qc exact_Qc d tr a input kinit binit L -> List.length m = d -> sizes d a k s dl ->
  nonexpansive (ca_activation a) -> weights_bounded L W B -> 0 <= u -> 0 <= W -> 0 <= X -> 0 <= B ->
  forall x b m', wf x -> List.length m' = d -> shape x = signal_shape valued b m' g c -> bounded X x ->
  match @apply Qc exact_Qc L x with
  | Ok y' => (exists y, may_return u d tr a input kinit binit x y) /\
             forall y, may_return u d tr a input kinit binit x y -> near (any_order_error u (prod k * (if valued then g * c else c)) X W B) y y'
  | Err _ => forall y, ~ may_return u d tr a input kinit binit x y
  end.
Proof.
  intros LF HS OP d input Bu Lm SZ NE WB U PW PX PB x b m' Wx Lm' SH HX.
  exact (returns_near name G a H opt tr valued bs m g c kinit binit L k s dl W X B LF HS OP Bu Lm SZ WB u U NE PW PX PB x b m' Wx Lm' SH HX).
Qed.
Print Assumptions C92_error_of_a_layer.

(** ** Nearness and the group action *)

Lemma tmap_slice {A B} {ZA : Zero A} {ZB : Zero B} (phi : A -> B) (P0 : phi zero = zero) j v (t : tensor A) : slice j v (tmap phi t) = tmap phi (slice j v t).
Proof. unfold slice. rewrite shape_tmap. apply tab_tmap. intros i. apply (at_tmap phi P0). Qed.

(** Pairs of numbers that differ by at most [e]. *)
Definition close_pair (e : Q) : Type := {p : Qc * Qc | Qabs (fst p - snd p) <= e}.
Definition left {e} (p : close_pair e) : Qc := fst (proj1_sig p).
Definition right {e} (p : close_pair e) : Qc := snd (proj1_sig p).

Lemma near_pairs e (y y' : tensor Qc) : near e y y' <-> exists t : tensor (close_pair e), y = tmap left t /\ y' = tmap right t.
Proof.
  split.
  - intros [S F]. destruct y as [sh l], y' as [sh' l']. cbn [shape data] in *. subst sh'.
    assert (EX : exists r : list (close_pair e), l = map left r /\ l' = map right r).
    { induction F as [|v v' l l' P F [r [-> ->]]]; [exists []; split; reflexivity|].
      exists (exist (fun p : Qc * Qc => Qabs (fst p - snd p) <= e) (v, v') P :: r). split; reflexivity. }
    destruct EX as [r [-> ->]]. exists (mkTensor sh r). split; reflexivity.
  - intros [[sh r] [-> ->]]. split; [reflexivity|]. unfold tmap. cbn [data]. induction r as [|[[v v'] P] r IH]; cbn [map]; [constructor|].
    constructor; [exact P|exact IH].
Qed.

Definition zero_pair {e} (PE : 0 <= e) : close_pair e := exist (fun p : Qc * Qc => Qabs (fst p - snd p) <= e) (0%Qc, 0%Qc) PE.

(** The action takes near tensors to near tensors. *)
Lemma near_action name G e (y y' : tensor Qc) axes new_axis ga acting domain gy' : dict_get group_dict name = Ok G -> 0 <= e -> near e y y' ->
  @action Qc 0%Qc G y' axes new_axis ga acting domain = Ok gy' ->
  exists gy, @action Qc 0%Qc G y axes new_axis ga acting domain = Ok gy /\ shape gy = shape gy' /\
    forall v, near e (@slice Qc 0%Qc 0 v gy) (@slice Qc 0%Qc 0 v gy').
Proof.
  intros D PE N. apply near_pairs in N as [t [-> ->]].
  rewrite (@C91_action (close_pair e) Qc (zero_pair PE) 0%Qc right name G t axes new_axis ga acting domain D eq_refl).
  rewrite (@C91_action (close_pair e) Qc (zero_pair PE) 0%Qc left name G t axes new_axis ga acting domain D eq_refl).
  destruct (@action (close_pair e) (zero_pair PE) G t axes new_axis ga acting domain) as [T|er]; cbn [rmap]; [|discriminate].
  intros EQ. assert (EO : forall v w : tensor Qc, Ok v = Ok w -> v = w) by congruence. apply EO in EQ. subst gy'.
  exists (tmap left T). split; [reflexivity|]. split; [reflexivity|]. intros v. apply near_pairs.
  exists (@slice (close_pair e) (zero_pair PE) 0 v T).
  split; [exact (@tmap_slice _ _ (zero_pair PE) 0%Qc left eq_refl 0%nat v T)|exact (@tmap_slice _ _ (zero_pair PE) 0%Qc right eq_refl 0%nat v T)].
Qed.

Lemma bounded_near M x : bounded M x <-> near M x (tmap (fun _ => 0%Qc) x).
Proof.
  unfold bounded, near. destruct x as [sh l]. cbn [shape data tmap].
  assert (EQ : forall v : Qc, Qabs (v - 0%Qc) == Qabs v) by (intros v; apply Qabs_wd; change (this 0%Qc) with 0; lra).
  split.
  - intros F. split; [reflexivity|]. induction F as [|v l P F IH]; cbn [map]; [constructor|]. constructor; [rewrite EQ; exact P|exact IH].
  - intros [_ F]. induction l as [|v l IH]; [constructor|]. cbn [map] in F. inversion F; subst. constructor; [rewrite <- EQ; assumption|apply IH; assumption].
Qed.

(** So it keeps bounds. *)
Lemma bounded_action name G M (x gx : tensor Qc) axes new_axis ga acting domain : dict_get group_dict name = Ok G -> 0 <= M -> bounded M x ->
  @action Qc 0%Qc G x axes new_axis ga acting domain = Ok gx -> forall v, bounded M (@slice Qc 0%Qc 0 v gx).
Proof.
  intros D PM N R v. apply bounded_near in N.
  assert (R0 : @action Qc 0%Qc G (tmap (fun _ => 0%Qc) x) axes new_axis ga acting domain = Ok (tmap (fun _ => 0%Qc) gx)).
  { rewrite (@C91_action Qc Qc 0%Qc 0%Qc (fun _ => 0%Qc) name G x axes new_axis ga acting domain D eq_refl), R. reflexivity. }
  destruct (near_action name G M x _ axes new_axis ga acting domain _ D PM N R0) as [gx' [R' [_ SL]]].
  assert (EO : forall v w : tensor Qc, Ok v = Ok w -> v = w) by congruence. assert (gx' = gx) as -> by (apply EO; rewrite <- R'; exact R).
  specialize (SL v). rewrite (@tmap_slice Qc Qc 0%Qc 0%Qc (fun _ => 0%Qc) eq_refl 0%nat v gx) in SL. apply bounded_near. exact SL.
Qed.

(** ** Equivariance *)

(** What [may] can return for [x] and for the transformed [x] is the same up to the
    transformation and differences of [e] per entry. *)
Definition may_commute_up_to (e : Q) (tin tout : tensor Qc -> result (tensor Qc)) (may : tensor Qc -> tensor Qc -> Prop) (x : tensor Qc) : Prop :=
  forall gx y, tin x = Ok gx -> may x y ->
  exists gy, tout y = Ok gy /\ nth 0 (shape gy) 0%nat = nth 0 (shape gx) 0%nat /\
    forall v, (v < nth 0 (shape gx) 0)%nat ->
      (exists z, may (@slice Qc 0%Qc 0 v gx) z) /\ forall z, may (@slice Qc 0%Qc 0 v gx) z -> near e z (@slice Qc 0%Qc 0 v gy).

Lemma any_order_error_nonneg u n X W B : 0 <= u -> 0 <= X -> 0 <= W -> 0 <= B -> 0 <= any_order_error u n X W B.
Proof.
  intros U PX PW PB. unfold any_order_error. change ((1 + u) ^ Z.of_nat (n + 1)) with (power u (n + 1)). pose proof (power_ge u (n + 1) U).
  assert (0 <= inject_Z (Z.of_nat n)) by (change 0 with (inject_Z 0); rewrite <- Zle_Qle; apply Nat2Z.is_nonneg).
  pose proof (Qmult_le_0_compat X W PX PW). pose proof (Qmult_le_0_compat (inject_Z (Z.of_nat n)) (X * W)).
  apply Qmult_le_0_compat; [lra|]. assert (0 <= inject_Z (Z.of_nat n) * (X * W)) by (apply Qmult_le_0_compat; assumption). lra.
Qed.

Lemma any_order_commutes name G (a : conv_args Qc) H opt (tr valued : bool) bs m g c kinit binit L k s dl u W X B Ha Hd Ht x b m' idx :
  layer_for name G a -> ca_subgroup a = Some H -> option_of a opt ->
  let d := dimension_of name in
  let input := static_signal_shape valued bs m g c in
  @built Qc exact_Qc d tr a input kinit binit L -> List.length m = d -> sizes d a k s dl ->
  nonexpansive (ca_activation a) -> weights_bounded L W B -> 0 <= u -> 0 <= W -> 0 <= X -> 0 <= B ->
  wf x -> List.length m' = d -> shape x = signal_shape valued b m' g c -> bounded X x ->
  Hd = (if tr then H else "") ->
  sub_idx G (Some Ha) idx -> (tr = false \/ valued = true -> Ha = H) ->
  let tin := (if valued then @transforms_of_group_signal Qc 0%Qc G d Ha Hd else @transforms_of_grid_signal Qc 0%Qc G d Ha) in
  let tout := @transforms_of_group_signal Qc 0%Qc G d Ha Ht in
  @commutes_at Qc 0%Qc tin tout (@apply Qc exact_Qc L) x ->
  may_commute_up_to (2 * any_order_error u (prod k * (if valued then g * c else c)) X W B) tin tout (may_return u d tr a input kinit binit) x.
Proof.
  intros LF HS OP d input Bu Lm SZ NE WB U PW PX PB Wx Lm' SH HX EHd SI HH tin tout CE gx y R MY.
  destruct (@built_facts Qc exact_Qc name G a H opt tr valued bs m g c kinit binit L k s dl LF HS OP Bu Lm SZ)
    as [OK [eb [ea [act [dom [_ [SA [SD _]]]]]]]]. fold d in OK, SA, SD.
  set (C := if valued then (g * c)%nat else c) in *. set (e := any_order_error u (prod k * C) X W B).
  assert (PE : 0 <= e) by (apply any_order_error_nonneg; assumption).
  destruct (sub_idx_facts _ _ _ _ OK _ _ SI) as [_ [Bi _]].
  assert (SW : valued = true -> sub_idx G (Some Hd) dom /\ g = List.length dom /\ forall v, In v idx -> stable G v dom).
  { intros V. destruct (SD V) as [S1 S2]. split; [rewrite EHd; destruct tr; exact S1|]. split; [exact S2|]. intros v Iv. destruct tr.
    - rewrite (HH (or_intror V)) in SI. assert (dom = idx) as -> by (unfold sub_idx in *; congruence). apply (stable_of _ _ _ _ OK _ _ _ SI Iv).
    - rewrite (whole_dom _ _ _ _ _ OK S1). apply (stable_whole _ _ _ _ OK). apply Bi. exact Iv. }
  assert (R' : @action Qc 0%Qc G x (map Z.of_nat (seq 1 d)) 0 (if valued then Some (Z.of_nat (d + 1)) else None) (Some Ha) (if valued then Some Hd else None) = Ok gx)
    by (subst tin; destruct valued; exact R).
  destruct (@moved_input Qc exact_Qc G d _ _ OK valued x gx b m' g c idx dom (Some Ha) (Some Hd) SI SW Wx Lm' SH R') as [_ [SG MV]].
  pose proof LF as [DG _].
  pose proof (C92_error_of_a_layer name G a H opt tr valued bs m g c kinit binit L k s dl u W X B LF HS OP Bu Lm SZ NE WB U PW PX PB) as ER.
  fold d input C e in ER. pose proof (ER x b m' Wx Lm' SH HX) as EX.
  destruct (@apply Qc exact_Qc L x) as [y'|er] eqn:AX; [|contradiction (EX y MY)]. destruct EX as [_ NY]. specialize (NY y MY).
  destruct (CE gx y' R AX) as [gye [GYE [SN SLE]]].
  destruct (near_action name G e y y' _ _ _ _ _ gye DG PE NY GYE) as [gy [GY [SGY SLN]]].
  exists gy. split; [exact GY|]. split; [rewrite SGY; exact SN|]. intros v V.
  specialize (SLE v V). rewrite SG in V. destruct (MV v V) as [X' [MX [WX [SX _]]]].
  assert (SX' : shape (@slice Qc 0%Qc 0 v gx) = signal_shape valued b m' g c) by (etransitivity; [exact SX|exact SH]).
  pose proof (ER (@slice Qc 0%Qc 0 v gx) b m' WX Lm' SX' (bounded_action name G X x gx _ _ _ _ _ DG PX HX R' v)) as EZ.
  rewrite SLE in EZ. destruct EZ as [EZ NZ]. split; [exact EZ|]. intros z MZ.
  exact (near_trans e z (@slice Qc 0%Qc 0 v gye) (@slice Qc 0%Qc 0 v gy) (NZ z MZ) (SLN v)).
Qed.

(** Convolution layers, with the hypotheses of C85. *)
Theorem C92_convolutions_are_equivariant_up_to_rounding name G (a : conv_args Qc) H opt (valued : bool) bs m g c kinit binit L k s dl m' x b u W X B :
  layer_for name G a -> ca_subgroup a = Some H -> option_of a opt ->
  (ca_allow a = false \/ In opt ["SAME_EQUIV"; "VALID_EQUIV"]) ->
  let d := dimension_of name in
  let input := static_signal_shape valued bs m g c in
  @built Qc exact_Qc d false a input kinit binit L -> List.length m = d ->
  sizes d a k s dl -> respects name s -> respects name dl ->
  (In opt ["SAME"; "SAME_EQUIV"] -> forall ax, (ax < d)%nat -> Nat.Odd (nth ax k 0%nat) \/ Nat.Odd (nth ax dl 0%nat)) ->
  List.length m' = d -> (forall ax, (ax < d)%nat -> (nth ax m 0 mod nth ax s 0 = nth ax m' 0 mod nth ax s 0)%nat) ->
  nonexpansive (ca_activation a) -> weights_bounded L W B -> 0 <= u -> 0 <= W -> 0 <= X -> 0 <= B ->
  wf x -> shape x = signal_shape valued b m' g c -> bounded X x ->
  may_commute_up_to (2 * any_order_error u (prod k * (if valued then g * c else c)) X W B)
    (if valued then @transforms_of_group_signal Qc 0%Qc G d H "" else @transforms_of_grid_signal Qc 0%Qc G d H)
    (@transforms_of_group_signal Qc 0%Qc G d H H) (may_return u d false a input kinit binit) x.
Proof.
  intros LF HS OP AL d input Bu Lm SZ RS RDl DF Lm' CO NE WB U PW PX PB Wx SH HX.
  destruct (@built_facts Qc exact_Qc name G a H opt false valued bs m g c kinit binit L k s dl LF HS OP Bu Lm SZ)
    as [_ [_ [_ [act [_ [_ [SA _]]]]]]].
  apply (any_order_commutes name G a H opt false valued bs m g c kinit binit L k s dl u W X B H "" H x b m' act LF HS OP Bu Lm SZ NE WB U PW PX PB Wx Lm' SH HX
            eq_refl SA (fun _ => eq_refl)).
  exact (@layer_commutes Qc exact_Qc name G a H opt valued bs m c g kinit binit L k s dl m' x b exact_add_commutes LF HS OP AL Bu Lm SZ RS RDl DF Lm' CO Wx SH).
Qed.
Print Assumptions C92_convolutions_are_equivariant_up_to_rounding.

(** Transposed layers, with the hypotheses of C27. *)
Theorem C92_transposed_layers_are_equivariant_up_to_rounding name G (a : conv_args Qc) H V opt (valued : bool) bs m g c kinit binit L k s x b u W X B :
  layer_for name G a -> ca_subgroup a = Some H -> option_of a opt ->
  let d := dimension_of name in
  let input := static_signal_shape valued bs m g c in
  @built Qc exact_Qc d true a input kinit binit L -> List.length m = d ->
  sizes d a k s (repeat 1%nat d) -> respects name s -> regular_transposed d opt m k s -> (valued = true -> V = H) ->
  nonexpansive (ca_activation a) -> weights_bounded L W B -> 0 <= u -> 0 <= W -> 0 <= X -> 0 <= B ->
  wf x -> shape x = signal_shape valued b m g c -> bounded X x ->
  may_commute_up_to (2 * any_order_error u (prod k * (if valued then g * c else c)) X W B)
    (if valued then @transforms_of_group_signal Qc 0%Qc G d V H else @transforms_of_grid_signal Qc 0%Qc G d V)
    (@transforms_of_group_signal Qc 0%Qc G d V "") (may_return u d true a input kinit binit) x.
Proof.
  intros LF HS OP d input Bu Lm SZ RS RT HV NE WB U PW PX PB Wx SH HX gx y R MY.
  assert (HI : exists idx, sub_idx G (Some V) idx).
  { destruct valued; exact (@action_names_subgroup Qc exact_Qc _ _ _ _ _ _ _ _ R). }
  destruct HI as [idx HI].
  refine (any_order_commutes name G a H opt true valued bs m g c kinit binit L k s _ u W X B V H "" x b m idx LF HS OP Bu Lm SZ NE WB U PW PX PB Wx Lm SH HX
            eq_refl HI _ _ gx y R MY).
  - intros [D|D]; [discriminate D|exact (HV D)].
  - destruct (@C27_transposed_convolution_any_stride Qc exact_Qc name G a H V opt bs m g c kinit binit L k s exact_add_commutes LF HS OP Lm SZ RS RT) as [C1 C2].
    destruct valued.
    + rewrite (HV eq_refl). exact (C2 Bu b x Wx SH).
    + exact (C1 Bu b x Wx SH).
Qed.
Print Assumptions C92_transposed_layers_are_equivariant_up_to_rounding.

(** ** Rounding in the order of Keras.v *)

(** If rounding changes nothing a second time and the biases are rounded, then what C85 is
    about is one of the possible results. *)
Theorem C92_the_order_of_C85_is_one_of_them name G (a : conv_args Qc) H opt (tr valued : bool) bs m g c kinit binit L k s dl u rnd :
  layer_for name G a -> ca_subgroup a = Some H -> option_of a opt ->
  let d := dimension_of name in
  let input := static_signal_shape valued bs m g c in
  @built Qc exact_Qc d tr a input kinit binit L -> List.length m = d -> sizes d a k s dl ->
  rounds u rnd -> (forall q, rnd (rnd q) = rnd q) -> (forall j, rnd (binit j) = binit j) ->
  forall x b m' y, wf x -> List.length m' = d -> shape x = signal_shape valued b m' g c ->
  @apply Qc (rounded rnd) L x = Ok y -> may_return u d tr a input kinit binit x y.
Proof.
  intros LF HS OP d input Bu Lm SZ RD ID HB x b m' y Wx Lm' SH AY.
  pose proof (exact_output name G a H opt tr valued bs m g c kinit binit L k s dl LF HS OP Bu Lm SZ x b m' Wx Lm' SH) as EX. fold d input in EX.
  destruct (@built_facts Qc exact_Qc name G a H opt tr valued bs m g c kinit binit L k s dl LF HS OP Bu Lm SZ)
    as [OK [eb [ea [act [dom [WD [SA [SD [CF [CC _]]]]]]]]]]. fold d in OK, CF, WD, SA, SD.
  set (C := if valued then (g * c)%nat else c) in *.
  pose proof (@merged_input Qc exact_Qc d valued x b m' g c Wx Lm' SH) as M. fold C in M.
  rewrite (@layer_form Qc exact_Qc G d _ _ OK tr valued act dom c C _ k s dl eb ea _ _ _ kinit binit L _ b m' g _ CF CC Lm' SH M) in EX.
  rewrite (@layer_form Qc (rounded rnd) G d _ _ OK tr valued act dom c C _ k s dl eb ea _ _ _ kinit binit L _ b m' g _ (facts_rounded rnd _ _ _ _ _ _ _ _ _ _ _ _ _ _ _ _ _ _ _ _ _ _ CF) CC Lm' SH M) in AY.
  destruct (layer_runs _ _ _ _ _ _ _ _) eqn:LR; [|discriminate AY].
  assert (EO : forall A (v w : tensor A), Ok v = Ok w -> v = w) by (intros A v w; congruence). apply EO in AY.
  match type of EX with _ = rmap _ ?r => destruct r as [ys|er] eqn:R end; [|discriminate EX]. clear EX.
  destruct (@run_inv formula symbolic _ _ _ _ _ _ _ _ R) as [Lp [Bp Ap]].
  destruct (@built_facts formula symbolic name G _ H opt tr valued bs m g c _ _ Lp k s dl (formulas_for _ _ _ LF) HS OP Bp Lm SZ)
    as [_ [eb' [ea' [act' [dom' [WD' [SA' [SD' [CF' [CC' _]]]]]]]]]].
  fold d in WD', CF', SA', SD'. fold C in CF'. cbn [with_activation ca_allow ca_filters ca_use_bias ca_activation] in WD', CF'.
  destruct (widths_unique _ _ _ _ _ _ _ _ _ _ _ _ WD WD') as [<- <-].
  assert (act' = act) as -> by (unfold sub_idx in SA, SA'; congruence).
  assert (CF2 : @conv_facts formula symbolic G d (symmetries_of name) (needs_equal_sizes name) tr valued act dom c C (ca_filters a) k s dl eb ea (is_same opt)
               (ca_use_bias a) (fun v => v) (fun j => number (kinit j)) (fun j => number (binit j)) Lp).
  { destruct valued.
    - destruct (SD eq_refl) as [S1 _]. destruct (SD' eq_refl) as [S2 _]. assert (dom' = dom) as -> by (unfold sub_idx in S1, S2; congruence). exact CF'.
    - apply (@facts_without_domain formula symbolic _ _ _ _ _ _ dom'). exact CF'. }
  assert (Wp : wf (tmap number x)) by (unfold wf, tmap; cbn [shape data]; rewrite map_length; exact Wx).
  pose proof (@merged_input formula symbolic d valued (tmap number x) b m' g c Wp Lm' SH) as M'. fold C in M'.
  rewrite (@layer_form formula symbolic G d _ _ OK tr valued act dom c C _ k s dl eb ea _ _ _ _ _ Lp (tmap number x) b m' g _ CF2 CC' Lm' SH M'), LR in Ap.
  apply EO in Ap. exists ys. split; [exact R|]. subst y ys. split; [reflexivity|]. unfold tab. cbn [data].
  assert (Lk : List.length k = d) by (destruct CF; assumption).
  induction (indices _) as [|i l IH]; cbn [map]; [constructor|]. constructor; [|exact IH].
  unfold sig4. eexists. split; [|reflexivity]. apply (layer_entry_order rnd u RD ID); [exact Lk| |exact HB].
  intros bi' i' q'. unfold merged_fun, fun3, fun4, at_. destruct valued; cbn [data shape tmap]; apply nth_stands_for.
Qed.
Print Assumptions C92_the_order_of_C85_is_one_of_them.

Lemma last_digit_high p q : 0 < q -> q < 2 ^ (last_digit p q + p).
Proof.
  intros Q. unfold last_digit. set (e := (Z.log2 (Qnum q) - Z.log2 (Z.pos (Qden q)))%Z).
  destruct (Qle_bool (2 ^ e) q) eqn:B.
  - clear B. replace (e - p + 1 + p)%Z with (e + 1)%Z by lia.
    assert (N : (0 < Qnum q)%Z) by (unfold Qlt in Q; cbn in Q; lia).
    destruct (Z.log2_spec _ N) as [_ L]. destruct (Z.log2_spec (Z.pos (Qden q)) (Pos2Z.is_pos _)) as [R _].
    pose proof (Z.log2_nonneg (Qnum q)) as LN. pose proof (Z.log2_nonneg (Z.pos (Qden q))) as LD.
    set (x := Z.log2 (Qnum q)) in *. set (y := Z.log2 (Z.pos (Qden q))) in *.
    assert (L' : inject_Z (Qnum q) < 2 ^ (x + 1)) by (rewrite <- (inject_power (x + 1)) by lia; rewrite <- Zlt_Qlt; exact L).
    assert (R' : 2 ^ y <= inject_Z (Z.pos (Qden q))) by (rewrite <- (inject_power y LD), <- Zle_Qle; exact R).
    assert (E : q * inject_Z (Z.pos (Qden q)) == inject_Z (Qnum q)) by (destruct q as [n dn]; unfold Qeq; cbn; lia).
    assert (S : 2 ^ (x + 1) == 2 ^ (e + 1) * 2 ^ y) by (rewrite <- two_power_add; replace (e + 1 + y)%Z with (x + 1)%Z by (subst e; lia); reflexivity).
    pose proof (Properties_Rounding.two_power_pos (e + 1)) as P1.
    destruct (Qlt_le_dec q (2 ^ (e + 1))) as [F|F]; [exact F|exfalso].
    assert (D : 0 < inject_Z (Z.pos (Qden q))) by reflexivity.
    assert (X1 : 2 ^ (e + 1) * inject_Z (Z.pos (Qden q)) <= q * inject_Z (Z.pos (Qden q))) by (apply Qmult_le_compat_r; lra).
    assert (X2 : 2 ^ (e + 1) * 2 ^ y <= 2 ^ (e + 1) * inject_Z (Z.pos (Qden q))).
    { rewrite !(Qmult_comm (2 ^ (e + 1))). apply Qmult_le_compat_r; [exact R'|lra]. }
    lra.
  - replace (e - p + p)%Z with e by lia. destruct (Qlt_le_dec q (2 ^ e)) as [F|F]; [exact F|]. exfalso. apply Qle_bool_iff in F. congruence.
Qed.

Lemma half_even_whole q z : q == inject_Z z -> half_even q = z.
Proof.
  intros E. unfold half_even. assert (F : Qfloor q = z) by (rewrite E; apply Qfloor_Z). rewrite F.
  destruct (Qcompare (q - inject_Z z) (1 # 2)) eqn:C; [apply Qeq_alt in C; exfalso; lra|reflexivity|apply Qgt_alt in C; exfalso; lra].
Qed.

(** Floating point rounding has this property. *)
Theorem C92_floating_point p : (1 <= p)%Z -> forall q, float_round p (float_round p q) = float_round p q.
Proof.
  intros HP q. destruct (Qeq_bool q 0) eqn:Z; [unfold float_round at 2 3; rewrite Z; reflexivity|].
  set (r := float_round p q). unfold float_round at 1. destruct (Qeq_bool r 0) eqn:ZR.
  - apply Qeq_bool_eq in ZR. apply Qc_is_canon. symmetry. exact ZR.
  - apply Qeq_bool_neq in ZR. apply Qeq_bool_neq in Z.
    assert (POS : forall v : Q, ~ v == 0 -> 0 < Qabs v).
    { intros v NZ. destruct (Qlt_le_dec 0 (Qabs v)) as [P|N]; [exact P|]. exfalso. apply NZ. apply abs_le in N. lra. }
    pose proof (last_digit_high p (Qabs q) (POS _ Z)) as QH. pose proof (last_digit_low p (Qabs r) (POS _ ZR)) as RL.
    set (e := last_digit p (Qabs q)) in *. set (e' := last_digit p (Qabs r)) in *.
    set (h := half_even (q / 2 ^ e)).
    assert (ER : this r == inject_Z h * 2 ^ e).
    { subst r. unfold float_round. destruct (Qeq_bool q 0) eqn:Z'; [apply Qeq_bool_eq in Z'; contradiction|]. cbn [this Q2Qc]. apply Qred_correct. }
    pose proof (Properties_Rounding.two_power_pos e) as PE. pose proof (Properties_Rounding.two_power_pos e') as PE'.
    assert (HH : (Z.abs h <= 2 ^ p)%Z).
    { pose proof (half_even_error (q / 2 ^ e)) as HE. fold h in HE. rewrite two_power_add, <- (inject_power p) in QH by lia.
      assert (EQ : q / 2 ^ e * 2 ^ e == q) by (field; lra). set (t := q / 2 ^ e) in *.
      assert (T : Qabs t < inject_Z (2 ^ p)).
      { rewrite <- EQ, Qabs_Qmult, (Qabs_pos (2 ^ e)) in QH by lra. destruct (Qlt_le_dec (Qabs t) (inject_Z (2 ^ p))) as [F|F]; [exact F|exfalso].
        assert (inject_Z (2 ^ p) * 2 ^ e <= Qabs t * 2 ^ e) by (apply Qmult_le_compat_r; lra). lra. }
      pose proof (abs_bounds t) as T'. apply abs_le in HE.
      assert (H1 : inject_Z h < inject_Z (2 ^ p + 1)) by (rewrite inject_Z_plus; change (inject_Z 1) with 1; lra).
      assert (H2 : inject_Z (- (2 ^ p + 1)) < inject_Z h) by (rewrite inject_Z_opp, inject_Z_plus; change (inject_Z 1) with 1; lra).
      rewrite <- Zlt_Qlt in H1, H2. lia. }
    assert (HR : Qabs r <= 2 ^ (e + p)).
    { rewrite ER, Qabs_Qmult, (Qabs_pos (2 ^ e)) by lra. rewrite two_power_add, <- (inject_power p) by lia. rewrite (Qmult_comm (2 ^ e)).
      apply Qmult_le_compat_r; [|lra]. apply abs_le. rewrite <- inject_Z_opp, <- !Zle_Qle. lia. }
    assert (N : exists z, this r == inject_Z z * 2 ^ e').
    { assert (LE : (e' <= e + 1)%Z).
      { destruct (Z_lt_le_dec (e + 1) e') as [F|F]; [exfalso|lia].
        assert (T : 2 ^ (e + p) < 2 ^ (e' + (p - 1))).
        { replace (e' + (p - 1))%Z with ((e + p) + (e' - e - 1))%Z by lia. rewrite (two_power_add (e + p)).
          assert (G : 2 <= 2 ^ (e' - e - 1)).
          { rewrite <- inject_power by lia. change 2 with (inject_Z 2). rewrite <- Zle_Qle. replace (e' - e - 1)%Z with (Z.succ (e' - e - 2))%Z by lia.
            rewrite Z.pow_succ_r by lia. pose proof (Z.pow_pos_nonneg 2 (e' - e - 2)). lia. }
          pose proof (Properties_Rounding.two_power_pos (e + p)).
          assert (2 ^ (e + p) * 2 <= 2 ^ (e + p) * 2 ^ (e' - e - 1)) by (rewrite !(Qmult_comm (2 ^ (e + p))); apply Qmult_le_compat_r; lra). lra. }
        lra. }
      destruct (Z_le_gt_dec e' e) as [F|F].
      - exists (h * 2 ^ (e - e'))%Z. rewrite ER, inject_Z_mult, inject_power by lia. rewrite <- Qmult_assoc, <- two_power_add.
        replace (e - e' + e')%Z with e by lia. reflexivity.
      - assert (e' = e + 1)%Z as EE by lia.
        assert (AH : (Z.abs h = 2 ^ p)%Z).
        { assert (LB : 2 ^ (e + p) <= Qabs r) by (replace (e + p)%Z with (e' + (p - 1))%Z by lia; exact RL).
          rewrite ER, Qabs_Qmult, (Qabs_pos (2 ^ e)) in LB by lra. rewrite two_power_add, <- (inject_power p), (Qmult_comm (2 ^ e)) in LB by lia.
          assert (LB' : inject_Z (2 ^ p) <= Qabs (inject_Z h)).
          { destruct (Qlt_le_dec (Qabs (inject_Z h)) (inject_Z (2 ^ p))) as [K|K]; [exfalso|exact K].
            assert (Qabs (inject_Z h) * 2 ^ e < inject_Z (2 ^ p) * 2 ^ e) by (apply Qmult_lt_compat_r; lra). lra. }
          assert (EA : Qabs (inject_Z h) == inject_Z (Z.abs h)) by (unfold Qabs, inject_Z; reflexivity). rewrite EA, <- Zle_Qle in LB'. lia. }
        exists (Z.sgn h * 2 ^ (p - 1))%Z. rewrite ER, EE, (two_power_add e 1). change (2 ^ 1) with 2.
        assert (EH : (h = Z.sgn h * 2 ^ (p - 1) * 2)%Z).
        { rewrite <- (Z.abs_sgn h) at 1. rewrite AH. replace p with (Z.succ (p - 1)) at 1 by lia. rewrite Z.pow_succ_r by lia. ring. }
        rewrite EH at 1. rewrite (inject_Z_mult _ 2). change (inject_Z 2) with 2. ring. }
    destruct N as [z N]. rewrite (half_even_whole (r / 2 ^ e') z) by (rewrite N; field; lra).
    apply Qc_is_canon. cbn [this Q2Qc]. rewrite Qred_correct. symmetry. exact N.
Qed.
Print Assumptions C92_floating_point.

(** ** An example *)

(** The layer and the signal of C85: 2^24 + 1 + 1 can be 2^24 + 2, or 2^24 if the two ones are
    added one after the other; a call may return the one in the first channel and the other in
    the second, where C85 always has the same number. *)
Lemma close_by_computation u (r q : Qc) : Qle_bool (Qabs (r - q)) (u * Qabs q) = true -> close u r q.
Proof. apply Qle_bool_iff. Qed.

Definition big : Qc := Q2Qc 16777216.
Definition big2 : Qc := Q2Qc 16777218.

Example C92_case :
  may_return (2 ^ (-24)) 2 false row_args (static_signal_shape false None [1; 3]%nat 1 1) (fun _ => 1%Qc) (fun _ => 0%Qc) Properties_Rounding.row
    (mkTensor [1; 1; 1; 2; 1]%nat [big; big2]).
Proof.
  exists (mkTensor [1; 1; 1; 2; 1]%nat [[[big; 1]; [1; 1]; [1; 1]]; [[big; 1]; [1; 1]; [1; 1]]]%Qc).
  split; [vm_compute; reflexivity|]. split; [reflexivity|]. cbn [data].
  assert (P1 : evaluates (2 ^ (-24)) [[big; 1%Qc]] big) by (apply ev_product, close_by_computation; vm_compute; reflexivity).
  assert (P2 : evaluates (2 ^ (-24)) [[1%Qc; 1%Qc]] 1%Qc) by (apply ev_product, close_by_computation; vm_compute; reflexivity).
  apply Forall2_cons; [|apply Forall2_cons; [|apply Forall2_nil]].
  - exists big. split; [|reflexivity]. apply (ev_fused _ [[big; 1%Qc]; [1%Qc; 1%Qc]] _ _ big); [|apply close_by_computation; vm_compute; reflexivity].
    apply (ev_fused _ [[big; 1%Qc]] _ _ big); [exact P1|apply close_by_computation; vm_compute; reflexivity].
  - exists big2. split; [|reflexivity]. apply (ev_sum _ [[big; 1%Qc]] [[1%Qc; 1%Qc]; [1%Qc; 1%Qc]] big (Q2Qc 2)); [discriminate|discriminate|exact P1| |apply close_by_computation; vm_compute; reflexivity].
    apply (ev_sum _ [[1%Qc; 1%Qc]] [[1%Qc; 1%Qc]] 1%Qc 1%Qc); [discriminate|discriminate|exact P2|exact P2|apply close_by_computation; vm_compute; reflexivity].
Qed.

(** The differences of the theorems are below 25 here. *)
Example C92_case_bound : Qle_bool (2 * any_order_error (2 ^ (-24)) 3 (2 ^ 24) 1 0) 25 = true.
Proof. vm_compute. reflexivity. Qed.

(** So the error of the sums cannot be left out: the same call can return different numbers. *)
Theorem C92_one_result_refuted :
  ~ (forall y y', may_return (2 ^ (-24)) 2 false row_args (static_signal_shape false None [1; 3]%nat 1 1) (fun _ => 1%Qc) (fun _ => 0%Qc) Properties_Rounding.row y ->
     may_return (2 ^ (-24)) 2 false row_args (static_signal_shape false None [1; 3]%nat 1 1) (fun _ => 1%Qc) (fun _ => 0%Qc) Properties_Rounding.row y' -> y = y').
Proof.
  intros H. pose proof C92_case as [ys [R [S F]]]. cbn [data] in F.
  assert (SW : may_return (2 ^ (-24)) 2 false row_args (static_signal_shape false None [1; 3]%nat 1 1) (fun _ => 1%Qc) (fun _ => 0%Qc) Properties_Rounding.row
    (mkTensor [1; 1; 1; 2; 1]%nat [big; big])).
  { assert (E : @run_conv formula symbolic 2 false (with_activation (fun p => p) row_args) (static_signal_shape false None [1; 3]%nat 1 1) (fun _ => number 1%Qc) (fun _ => number 0%Qc) (tmap number Properties_Rounding.row)
              = Ok (mkTensor [1; 1; 1; 2; 1]%nat [[[big; 1]; [1; 1]; [1; 1]]; [[big; 1]; [1; 1]; [1; 1]]]%Qc)) by (vm_compute; reflexivity).
    rewrite E in R. assert (EO : forall v w : tensor formula, Ok v = Ok w -> v = w) by congruence. apply EO in R. subst ys. cbn [data] in F.
    exists (mkTensor [1; 1; 1; 2; 1]%nat [[[big; 1]; [1; 1]; [1; 1]]; [[big; 1]; [1; 1]; [1; 1]]]%Qc). split; [exact E|]. split; [reflexivity|]. cbn [data].
    inversion F; subst. constructor; [assumption|]. constructor; [assumption|constructor]. }
  specialize (H _ _ C92_case SW). assert (E : this big2 = this big) by (apply (f_equal (fun t => this (nth 1 (data t) 0%Qc))) in H; exact H).
  vm_compute in E. discriminate E.
Qed.
Print Assumptions C92_one_result_refuted.
