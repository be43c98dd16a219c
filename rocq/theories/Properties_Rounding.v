(** C85: layers in arithmetic with rounding errors. *)
From Coq Require Import QArith Qcanon Qabs Qround Qpower Lqa.
From Verif Require Import RoundingFacts CheckFacts Properties_Conv Properties_Checks EquivSpec.
Local Open Scope string_scope.
Local Open Scope Q_scope.
Local Open Scope list_scope.

(** [call] commutes with all elements of a subgroup at the signal [x], up to differences of
    [e] per entry. *)
Definition commutes_up_to (e : Q) (tin tout : tensor Qc -> result (tensor Qc)) (call : tensor Qc -> result (tensor Qc)) (x : tensor Qc) : Prop :=
  forall gx y, tin x = Ok gx -> call x = Ok y ->
  exists gy, tout y = Ok gy /\ nth 0 (shape gy) 0%nat = nth 0 (shape gx) 0%nat /\
    forall v, (v < nth 0 (shape gx) 0)%nat -> exists z, call (@slice Qc 0%Qc 0 v gx) = Ok z /\ near e z (@slice Qc 0%Qc 0 v gy).

(** What [n] products of weights at most [W] with entries at most [X], their sum and a bias
    at most [B] can be wrong by. *)
Definition rounding_error (u : Q) (n : nat) (X W B : Q) : Q :=
  ((1 + u) ^ Z.of_nat (n + 2) - 1) * (inject_Z (Z.of_nat n) * (X * W) + B).

Lemma near_trans e (y y' y'' : tensor Qc) : near e y y' -> near e y'' y' -> near (2 * e) y y''.
Proof.
  intros [S1 F1] [S2 F2]. split; [congruence|]. revert F2. generalize (data y''). induction F1 as [|v v' l l' H F1 IH]; intros l'' F2; inversion F2; subst; [constructor|].
  constructor; [|apply IH; assumption]. apply abs_le in H. match goal with H' : Qabs _ <= e |- _ => apply abs_le in H' end. apply abs_le. lra.
Qed.

Lemma bounded_at M (x : tensor Qc) i : 0 <= M -> bounded M x -> Qabs (@at_ Qc 0%Qc x i) <= M.
Proof. intros P H. unfold at_. apply bounded_nth; assumption. Qed.

Lemma bounded_merged M valued (x : tensor Qc) c bi i q : 0 <= M -> bounded M x -> Qabs (@merged_fun Qc exact_Qc valued x c bi i q) <= M.
Proof. intros P H. unfold merged_fun, fun3, fun4. destruct valued; apply bounded_at; assumption. Qed.

Lemma facts_rounded rnd G d E eq tr valued act dom c C o k s dl eb ea same ub f kinit binit L :
  @conv_facts Qc exact_Qc G d E eq tr valued act dom c C o k s dl eb ea same ub f kinit binit L ->
  @conv_facts Qc (rounded rnd) G d E eq tr valued act dom c C o k s dl eb ea same ub f kinit binit L.
Proof. intros F. destruct F. split; assumption. Qed.

(** What [check_equivariance] returns for a layer that treats samples independently: the
    largest difference between entries of the transformed output and of the output for the
    transformed signal. *)
Lemma check_value {A} {RA : Arith A} {MA : Metric A} G d E eq (OK : group_ok G d E eq) (NE : g_name G <> "")
  (layer : tensor A -> result (tensor A)) (x gx y gy : tensor A) sp ga H K T act b s :
  batchwise s layer ->
  wf x -> shape x = b :: s -> spatial_axes_ok d sp (rank x) -> subgroup_indices G H act ->
  signal_on G K sp ga x -> layer x = Ok y -> spatial_axes_ok d sp (rank y) -> signal_on G T sp ga y ->
  action G x (map Z.of_nat sp) 0 (option_map Z.of_nat ga) (Some H) K = Ok gx ->
  action G y (map Z.of_nat sp) 0 (option_map Z.of_nat ga) (Some H) T = Ok gy ->
  (forall v, (v < List.length act)%nat -> exists z, layer (slice 0 v gx) = Ok z) ->
  exists l, check_equivariance layer x G (map Z.of_nat sp) (option_map Z.of_nat ga) (Some H) K T = Ok (largest l) /\
    forall w, In w l -> exists v z i, (v < List.length act)%nat /\ layer (slice 0 v gx) = Ok z /\ wf z /\ inb (shape z) i /\
      w = absdiff (at_ z i) (at_ (slice 0 v gy) i).
Proof.
  intros BW W SH SP SA SO LX SPy SOy RX RY ALL.
  destruct (action_slices G d E eq OK x gx sp ga H K act W SP SA SO RX) as [SGX [WGX [LA S0]]]. rewrite SH in SGX.
  specialize (BW gx (List.length act) b LA WGX SGX).
  unfold check_equivariance. rewrite (check_shape_ok G x sp ga K SO), LX. cbn [bind]. rewrite (check_shape_ok G y sp ga T SOy). cbn [bind].
  rewrite !(action_parsed G NE), RX, RY. cbn [bind]. unfold act_on_batched_transform. rewrite SGX.
  rewrite reshape_read by (try exact WGX; rewrite SGX; cbn; lia). cbn [bind].
  destruct (layer (read_as (List.length act * b :: s)%nat gx)) as [out|e] eqn:LM; cbn [bind].
  2:{ exfalso. destruct BW as [v [e' [V Q]]]. destruct (ALL v V) as [z Z]. congruence. }
  destruct BW as [WO [s' [SO' BW]]]. rewrite SO'. cbn [skipn].
  rewrite reshape_read by (try exact WO; rewrite SO'; cbn; lia). cbn [bind].
  set (LG := read_as (List.length act :: b :: s') out) in *.
  assert (SLG : shape LG = List.length act :: b :: s') by reflexivity.
  assert (Y0 : y = slice 0 0 LG) by (rewrite <- S0 in LX; rewrite (BW 0%nat LA) in LX; congruence).
  assert (SY : shape y = b :: s') by (rewrite Y0; apply (shape_slice0 0 LG _ _ SLG)).
  assert (WY : wf y) by (rewrite Y0; apply wf_slice).
  destruct (action_slices G d E eq OK y gy sp ga H T act WY SPy SA SOy RY) as [SGY [WGY _]]. rewrite SY in SGY.
  rewrite broadcast_same by congruence. cbn [bind data tab]. eexists. split; [reflexivity|].
  intros w V. apply in_map_iff in V as [i [<- I]]. apply In_indices in I. rewrite SLG in I.
  destruct i as [|v i]; [inversion I|]. apply inb_cons in I as [Vv I].
  exists v, (slice 0 v LG), i. split; [exact Vv|]. split; [apply BW; exact Vv|]. split; [apply wf_slice|].
  split; [rewrite (shape_slice0 v LG _ _ SLG); exact I|].
  rewrite (at_slice0 v LG _ _ i SLG I), (at_slice0 v gy _ _ i SGY I). reflexivity.
Qed.

(** Absolute differences and maxima in rounded arithmetic. *)
Definition rounded_metric (rnd : Qc -> Qc) : Metric Qc :=
  {| absdiff := fun v w => Q2Qc (Qabs (rnd (v - w)%Qc));
     largest := fold_right (fun v w : Qc => if Qle_bool v w then w else v) 0%Qc |}.

Lemma largest_bounded rnd e l : 0 <= e -> (forall v : Qc, In v l -> v <= e) ->
  0 <= @largest Qc (rounded_metric rnd) l <= e.
Proof.
  intros PE H. cbn [largest rounded_metric]. induction l as [|v l IH]; cbn [fold_right]; [split; [apply Qle_refl|exact PE]|].
  destruct (IH (fun w I => H w (or_intror I))) as [I1 I2]. pose proof (H v (or_introl eq_refl)) as V.
  match goal with |- context[Qle_bool ?a ?m] => destruct (Qle_bool a m) eqn:B end; [split; assumption|].
  split; [|exact V]. destruct (Qlt_le_dec v 0) as [N|P]; [|exact P]. exfalso.
  match type of B with Qle_bool ?a ?m = false => assert (X : Qle_bool a m = true) by (apply Qle_bool_iff; lra) end. congruence.
Qed.

Lemma near_at e (y y' : tensor Qc) i : wf y -> near e y y' -> inb (shape y) i -> Qabs (@at_ Qc 0%Qc y i - @at_ Qc 0%Qc y' i) <= e.
Proof.
  intros W [S F] I. unfold at_. rewrite <- S. pose proof (ravel_lt _ _ I) as R. rewrite <- W in R.
  revert R. generalize (ravel (shape y) i). generalize dependent (data y'). clear W I S. induction (data y) as [|v l IH]; intros l' F r R; [inversion R|].
  inversion F; subst. destruct r as [|r]; [assumption|]. cbn [nth]. apply IH; [assumption|]. cbn [List.length] in R. lia.
Qed.

Section Rounded.
Context (rnd : Qc -> Qc) (u : Q) (U : 0 <= u) (RD : rounds u rnd).

(** The weights of a layer. *)
Definition weights_bounded (L : conv_layer Qc) (W B : Q) : Prop :=
  (forall K, cl_kernel L = Some K -> bounded W K) /\ (forall b, cl_bias L = Some b -> bounded B b).

(** A call in rounded arithmetic and the same call in exact arithmetic: both raise the same
    exception, or the results are near each other. *)
Theorem C85_error_of_a_layer name G (a : conv_args Qc) H opt (tr valued : bool) bs m g c kinit binit L k s dl W X B :
  layer_for name G a -> ca_subgroup a = Some H -> option_of a opt ->
  let d := dimension_of name in
  @built Qc exact_Qc d tr a (static_signal_shape valued bs m g c) kinit binit L -> List.length m = d -> sizes d a k s dl ->
  nonexpansive (ca_activation a) -> weights_bounded L W B -> 0 <= W -> 0 <= X -> 0 <= B ->
  forall x b m', wf x -> List.length m' = d -> shape x = signal_shape valued b m' g c -> bounded X x ->
  match @apply Qc (rounded rnd) L x, @apply Qc exact_Qc L x with
  | Ok y, Ok y' => near (rounding_error u (prod k * (if valued then g * c else c)) X W B) y y'
  | Err e, Err e' => e = e'
  | _, _ => False
  end.
Proof.
  intros LF HS OP d Bu Lm SZ NE [WK WB] PW PX PB x b m' Wx Lm' SH HX.
  destruct (@built_facts Qc exact_Qc name G a H opt tr valued bs m g c kinit binit L k s dl LF HS OP Bu Lm SZ)
    as [OK [eb [ea [act [dom [_ [_ [_ [CF [CC _]]]]]]]]]]. fold d in OK, CF.
  set (C := if valued then (g * c)%nat else c) in *.
  pose proof (@merged_input Qc exact_Qc d valued x b m' g c Wx Lm' SH) as M. fold C in M.
  rewrite (@layer_form Qc (rounded rnd) G d _ _ OK tr valued act dom c C _ k s dl eb ea _ _ _ kinit binit L _ b m' g _ (facts_rounded rnd _ _ _ _ _ _ _ _ _ _ _ _ _ _ _ _ _ _ _ _ _ _ CF) CC Lm' SH M).
  rewrite (@layer_form Qc exact_Qc G d _ _ OK tr valued act dom c C _ k s dl eb ea _ _ _ kinit binit L _ b m' g _ CF CC Lm' SH M).
  destruct (layer_runs _ _ _ _ _ _ _ _); [|reflexivity].
  assert (LO : List.length (layer_outs tr k s dl eb ea (is_same opt) m') = d)
    by exact (@length_layer_outs Qc exact_Qc G d _ _ _ _ _ _ _ _ _ _ _ _ _ _ _ _ _ _ _ L m' CF Lm').
  apply near_sig4; [exact LO|]. intros bi p h oo O.
  apply (layer_entry_error rnd u U RD); try assumption.
  - destruct CF. apply WK. exact cf_kernel.
  - intros UB. apply WB. destruct CF. rewrite cf_bias, UB. reflexivity.
  - destruct CF. assumption.
  - intros bi' i q _. apply bounded_merged; assumption.
Qed.

(** If the layer commutes in exact arithmetic, it does in rounded arithmetic up to twice that
    error. *)
Lemma rounded_commutes name G (a : conv_args Qc) H opt (tr valued : bool) bs m g c kinit binit L k s dl W X B Ha Hd Ht x b m' idx :
  layer_for name G a -> ca_subgroup a = Some H -> option_of a opt ->
  let d := dimension_of name in
  @built Qc exact_Qc d tr a (static_signal_shape valued bs m g c) kinit binit L -> List.length m = d -> sizes d a k s dl ->
  nonexpansive (ca_activation a) -> weights_bounded L W B -> 0 <= W -> 0 <= X -> 0 <= B ->
  wf x -> List.length m' = d -> shape x = signal_shape valued b m' g c -> bounded X x ->
  Hd = (if tr then H else "") -> Ht = (if tr then "" else H) ->
  sub_idx G (Some Ha) idx -> (tr = false \/ valued = true -> Ha = H) ->
  let tin := (if valued then @transforms_of_group_signal Qc 0%Qc G d Ha Hd else @transforms_of_grid_signal Qc 0%Qc G d Ha) in
  let tout := @transforms_of_group_signal Qc 0%Qc G d Ha Ht in
  @commutes_at Qc 0%Qc tin tout (@apply Qc exact_Qc L) x ->
  commutes_up_to (2 * rounding_error u (prod k * (if valued then g * c else c)) X W B) tin tout (@apply Qc (rounded rnd) L) x.
Proof.
  intros LF HS OP d Bu Lm SZ NE WB PW PX PB Wx Lm' SH HX EHd EHt SI HH tin tout CE gx y R CA.
  pose proof WB as [WK WBi].
  destruct (@built_facts Qc exact_Qc name G a H opt tr valued bs m g c kinit binit L k s dl LF HS OP Bu Lm SZ)
    as [OK [eb [ea [act [dom [_ [SA [SD [CF [CC _]]]]]]]]]]. fold d in OK, CF, SA, SD.
  set (C := if valued then (g * c)%nat else c) in *. set (e := rounding_error u (prod k * C) X W B).
  set (n := List.length (symmetries_of name)) in *.
  destruct (sub_idx_facts _ _ _ _ OK _ _ SI) as [_ [Bi _]].
  assert (ST : forall v, In v idx -> stable G v act).
  { intros v V. destruct tr.
    - rewrite (whole_dom _ _ _ _ _ OK SA). apply (stable_whole _ _ _ _ OK). apply Bi. exact V.
    - rewrite (HH (or_introl eq_refl)) in SI. assert (act = idx) as -> by (unfold sub_idx in *; congruence). apply (stable_of _ _ _ _ OK _ _ _ SI V). }
  assert (SW : valued = true -> sub_idx G (Some Hd) dom /\ g = List.length dom /\ forall v, In v idx -> stable G v dom).
  { intros V. destruct (SD V) as [S1 S2]. split; [rewrite EHd; destruct tr; exact S1|]. split; [exact S2|]. intros v Iv. destruct tr.
    - rewrite (HH (or_intror V)) in SI. assert (dom = idx) as -> by (unfold sub_idx in *; congruence). apply (stable_of _ _ _ _ OK _ _ _ SI Iv).
    - rewrite (whole_dom _ _ _ _ _ OK S1). apply (stable_whole _ _ _ _ OK). apply Bi. exact Iv. }
  assert (SA' : sub_idx G (Some Ht) act) by (rewrite EHt; destruct tr; exact SA).
  assert (R' : @action Qc 0%Qc G x (map Z.of_nat (seq 1 d)) 0 (if valued then Some (Z.of_nat (d + 1)) else None) (Some Ha) (if valued then Some Hd else None) = Ok gx)
    by (subst tin; destruct valued; exact R).
  destruct (@moved_input Qc exact_Qc G d _ _ OK valued x gx b m' g c idx dom (Some Ha) (Some Hd) SI SW Wx Lm' SH R') as [_ [SG MV]].
  pose proof (@merged_input Qc exact_Qc d valued x b m' g c Wx Lm' SH) as M. fold C in M.
  rewrite (@layer_form Qc (rounded rnd) G d _ _ OK tr valued act dom c C _ k s dl eb ea _ _ _ kinit binit L _ b m' g _ (facts_rounded rnd _ _ _ _ _ _ _ _ _ _ _ _ _ _ _ _ _ _ _ _ _ _ CF) CC Lm' SH M) in CA.
  pose proof (@layer_form Qc exact_Qc G d _ _ OK tr valued act dom c C _ k s dl eb ea _ _ _ kinit binit L _ b m' g _ CF CC Lm' SH M) as CX.
  destruct (layer_runs _ _ _ _ _ _ _ _) eqn:LR; [|discriminate CA].
  assert (LO : List.length (layer_outs tr k s dl eb ea (is_same opt) m') = d)
    by exact (@length_layer_outs Qc exact_Qc G d _ _ _ _ _ _ _ _ _ _ _ _ _ _ _ _ _ _ _ L m' CF Lm').
  set (mo := layer_outs tr k s dl eb ea (is_same opt) m') in *.
  match type of CA with Ok (tab _ (sig4 d ?f)) = _ => set (Yr := f) in * end.
  match type of CX with _ = Ok (tab _ (sig4 d ?f)) => set (Ye := f) in * end.
  assert (EO : forall v w : tensor Qc, Ok v = Ok w -> v = w) by congruence. apply EO in CA. subst y.
  destruct (CE gx _ R CX) as [gye [GYE [SN SLE]]].
  destruct (group_slices G d _ _ OK (A := Qc) (RA := exact_Qc) b mo (List.length act) (ca_filters a) Ye (Some Ha) (Some Ht) idx act gye SI SA' eq_refl LO ST GYE)
    as [FM [_ SLY]].
  destruct (group_slices_ok G d _ _ OK (A := Qc) (RA := exact_Qc) b mo (List.length act) (ca_filters a) Yr (Some Ha) (Some Ht) idx act SI SA' eq_refl FM ST)
    as [gy [GY [SGY SLR]]].
  exists gy. split; [exact GY|]. rewrite SGY, SG. cbn [nth]. split; [reflexivity|]. intros v V.
  specialize (SLE v). rewrite SG in SLE. specialize (SLE V). destruct (MV v V) as [X' [MX [WX [SX XX]]]]. fold C in MX, XX.
  assert (SX' : shape (@slice Qc 0%Qc 0 v gx) = signal_shape valued b m' g c) by (etransitivity; [exact SX|exact SH]).
  pose proof (@layer_form Qc (rounded rnd) G d _ _ OK tr valued act dom c C _ k s dl eb ea _ _ _ kinit binit L _ b m' g _ (facts_rounded rnd _ _ _ _ _ _ _ _ _ _ _ _ _ _ _ _ _ _ _ _ _ _ CF) CC Lm' SX' MX) as CR.
  rewrite (@layer_form Qc exact_Qc G d _ _ OK tr valued act dom c C _ k s dl eb ea _ _ _ kinit binit L _ b m' g _ CF CC Lm' SX' MX) in SLE.
  rewrite LR in CR, SLE. apply EO in SLE.
  eexists. split; [exact CR|]. rewrite (SLR v V : @slice Qc 0%Qc 0 v gy = _).
  assert (PT : forall F : nat -> list nat -> nat -> Qc, (forall bi i q, (q < C)%nat -> Qabs (F bi i q) <= X) -> forall bi p h oo, (oo < ca_filters a)%nat ->
     Qabs (ca_activation a (@biased Qc (rounded rnd) (ca_use_bias a) binit (@layer_value Qc (rounded rnd) G d (symmetries_of name) tr valued act dom c C (ca_filters a) k s dl eb ea (is_same opt) m' kinit F bi p h oo) oo)
        - ca_activation a (@biased Qc exact_Qc (ca_use_bias a) binit (@layer_value Qc exact_Qc G d (symmetries_of name) tr valued act dom c C (ca_filters a) k s dl eb ea (is_same opt) m' kinit F bi p h oo) oo))
     <= e).
  { intros F HF bi p h oo O. apply (layer_entry_error rnd u U RD); try assumption.
    - destruct CF. apply WK. exact cf_kernel.
    - intros UB. apply WBi. destruct CF. rewrite cf_bias, UB. reflexivity.
    - destruct CF. assumption. }
  apply (near_trans e _ (tab (b :: mo ++ [List.length act; ca_filters a]) (sig4 d (moved4 G (symmetries_of name) (nth v idx 0%nat) mo act Ye)))).
  - rewrite <- (SLY v V : @slice Qc 0%Qc 0 v gye = _), <- SLE. apply near_sig4; [exact LO|]. intros bi p h oo O. apply PT; [|exact O].
    intros bi' i q Q. rewrite (XX bi' i q Q). apply bounded_merged; assumption.
  - apply near_sig4; [exact LO|]. intros bi p h oo O. unfold moved4, Yr, Ye. apply PT; [|exact O].
    intros bi' i q Q. apply bounded_merged; assumption.
Qed.

Lemma exact_add_commutes : @add_commutes Qc exact_Qc.
Proof. intros v w z. cbn [add exact_Qc]. ring. Qed.

(** Convolution layers, on signals on the grid and on the group, with the hypotheses of C21, C22,
    C43, C44 and C45. *)
Theorem C85_convolutions_are_equivariant_up_to_rounding name G (a : conv_args Qc) H opt (valued : bool) bs m g c kinit binit L k s dl m' x b W X B :
  layer_for name G a -> ca_subgroup a = Some H -> option_of a opt ->
  (ca_allow a = false \/ In opt ["SAME_EQUIV"; "VALID_EQUIV"]) ->
  let d := dimension_of name in
  @built Qc exact_Qc d false a (static_signal_shape valued bs m g c) kinit binit L -> List.length m = d ->
  sizes d a k s dl -> respects name s -> respects name dl ->
  (In opt ["SAME"; "SAME_EQUIV"] -> forall ax, (ax < d)%nat -> Nat.Odd (nth ax k 0%nat) \/ Nat.Odd (nth ax dl 0%nat)) ->
  List.length m' = d -> (forall ax, (ax < d)%nat -> (nth ax m 0 mod nth ax s 0 = nth ax m' 0 mod nth ax s 0)%nat) ->
  nonexpansive (ca_activation a) -> weights_bounded L W B -> 0 <= W -> 0 <= X -> 0 <= B ->
  wf x -> shape x = signal_shape valued b m' g c -> bounded X x ->
  commutes_up_to (2 * rounding_error u (prod k * (if valued then g * c else c)) X W B)
    (if valued then @transforms_of_group_signal Qc 0%Qc G d H "" else @transforms_of_grid_signal Qc 0%Qc G d H)
    (@transforms_of_group_signal Qc 0%Qc G d H H) (@apply Qc (rounded rnd) L) x.
Proof.
  intros LF HS OP AL d Bu Lm SZ RS RDl DF Lm' CO NE WB PW PX PB Wx SH HX gx y R CA.
  destruct (@built_facts Qc exact_Qc name G a H opt false valued bs m g c kinit binit L k s dl LF HS OP Bu Lm SZ)
    as [_ [_ [_ [act [_ [_ [SA _]]]]]]].
  refine (rounded_commutes name G a H opt false valued bs m g c kinit binit L k s dl W X B H "" H x b m' act LF HS OP Bu Lm SZ NE WB PW PX PB Wx Lm' SH HX
            eq_refl eq_refl SA (fun _ => eq_refl) _ gx y R CA).
  exact (@layer_commutes Qc exact_Qc name G a H opt valued bs m c g kinit binit L k s dl m' x b exact_add_commutes LF HS OP AL Bu Lm SZ RS RDl DF Lm' CO Wx SH).
Qed.

(** Transposed layers, with the hypotheses of C27. *)
Theorem C85_transposed_layers_are_equivariant_up_to_rounding name G (a : conv_args Qc) H V opt (valued : bool) bs m g c kinit binit L k s x b W X B :
  layer_for name G a -> ca_subgroup a = Some H -> option_of a opt ->
  let d := dimension_of name in
  @built Qc exact_Qc d true a (static_signal_shape valued bs m g c) kinit binit L -> List.length m = d ->
  sizes d a k s (repeat 1%nat d) -> respects name s -> regular_transposed d opt m k s -> (valued = true -> V = H) ->
  nonexpansive (ca_activation a) -> weights_bounded L W B -> 0 <= W -> 0 <= X -> 0 <= B ->
  wf x -> shape x = signal_shape valued b m g c -> bounded X x ->
  commutes_up_to (2 * rounding_error u (prod k * (if valued then g * c else c)) X W B)
    (if valued then @transforms_of_group_signal Qc 0%Qc G d V H else @transforms_of_grid_signal Qc 0%Qc G d V)
    (@transforms_of_group_signal Qc 0%Qc G d V "") (@apply Qc (rounded rnd) L) x.
Proof.
  intros LF HS OP d Bu Lm SZ RS RT HV NE WB PW PX PB Wx SH HX gx y R CA.
  assert (HI : exists idx, sub_idx G (Some V) idx).
  { destruct valued; exact (@action_names_subgroup Qc exact_Qc _ _ _ _ _ _ _ _ R). }
  destruct HI as [idx HI].
  refine (rounded_commutes name G a H opt true valued bs m g c kinit binit L k s _ W X B V H "" x b m idx LF HS OP Bu Lm SZ NE WB PW PX PB Wx Lm SH HX
            eq_refl eq_refl HI _ _ gx y R CA).
  - intros [D|D]; [discriminate D|exact (HV D)].
  - destruct (@C27_transposed_convolution_any_stride Qc exact_Qc name G a H V opt bs m g c kinit binit L k s exact_add_commutes LF HS OP Lm SZ RS RT) as [C1 C2].
    destruct valued.
    + rewrite (HV eq_refl). exact (C2 Bu b x Wx SH).
    + exact (C1 Bu b x Wx SH).
Qed.

(** So [check_equivariance], evaluated in the same arithmetic, returns at most this number. *)
Theorem C85_what_check_equivariance_returns name G (a : conv_args Qc) H opt (valued : bool) bs m g c kinit binit L k s dl m' x b W X B gx y :
  layer_for name G a -> ca_subgroup a = Some H -> option_of a opt ->
  (ca_allow a = false \/ In opt ["SAME_EQUIV"; "VALID_EQUIV"]) ->
  let d := dimension_of name in
  @built Qc exact_Qc d false a (static_signal_shape valued bs m g c) kinit binit L -> List.length m = d ->
  sizes d a k s dl -> respects name s -> respects name dl ->
  (In opt ["SAME"; "SAME_EQUIV"] -> forall ax, (ax < d)%nat -> Nat.Odd (nth ax k 0%nat) \/ Nat.Odd (nth ax dl 0%nat)) ->
  List.length m' = d -> (forall ax, (ax < d)%nat -> (nth ax m 0 mod nth ax s 0 = nth ax m' 0 mod nth ax s 0)%nat) ->
  nonexpansive (ca_activation a) -> weights_bounded L W B -> 0 <= W -> 0 <= X -> 0 <= B ->
  wf x -> shape x = signal_shape valued b m' g c -> bounded X x ->
  (if valued then @transforms_of_group_signal Qc 0%Qc G d H "" x else @transforms_of_grid_signal Qc 0%Qc G d H x) = Ok gx ->
  @apply Qc (rounded rnd) L x = Ok y ->
  exists v, @check_equivariance Qc 0%Qc (rounded_metric rnd) (@apply Qc (rounded rnd) L) x G (spatial_axes d) (group_axis d) (Some H)
      (if valued then Some "" else None) (Some H) = Ok v /\
    0 <= v <= (1 + u) * (2 * rounding_error u (prod k * (if valued then g * c else c)) X W B).
Proof.
  intros LF HS OP AL d Bu Lm SZ RS RDl DF Lm' CO NE WB PW PX PB Wx SH HX R CA.
  pose proof (C85_convolutions_are_equivariant_up_to_rounding name G a H opt valued bs m g c kinit binit L k s dl m' x b W X B
                LF HS OP AL Bu Lm SZ RS RDl DF Lm' CO NE WB PW PX PB Wx SH HX) as CU.
  set (e := 2 * rounding_error u (prod k * (if valued then g * c else c)) X W B) in *.
  destruct (@built_facts Qc exact_Qc name G a H opt false valued bs m g c kinit binit L k s dl LF HS OP Bu Lm SZ)
    as [OK [eb [ea [act [dom [_ [SA [SD [CF [CC _]]]]]]]]]]. fold d in OK, CF.
  assert (RX : (if valued then @transforms_of_group_signal Qc 0%Qc G d H "" else @transforms_of_grid_signal Qc 0%Qc G d H) x = Ok gx)
    by (destruct valued; exact R).
  destruct (CU gx y RX CA) as [gy [RY [_ SL]]].
  destruct (@conv_output Qc (rounded rnd) G d _ _ false valued act dom c _ (ca_filters a) k s dl eb ea _ _ _ _ _ L m' g b x y OK
              (facts_rounded rnd _ _ _ _ _ _ _ _ _ _ _ _ _ _ _ _ _ _ _ _ _ _ CF) CC eq_refl Lm' Wx SH CA) as [WY [mo [Lmo SY]]].
  pose proof LF as [DG _]. pose proof (lib_name_nonempty _ _ DG) as NN. pose proof (lib_ok _ _ DG) as [NG _]. rewrite <- NG in NN.
  assert (SPx : spatial_axes_ok d (seq 1 d) (rank x)) by exact (axes_of_signal name G x b m' _ DG Lm' SH).
  assert (SOx : signal_on G (if valued then Some "" else None) (seq 1 d) (Some (d + 1)%nat) x).
  { destruct valued; [|exact I]. destruct (SD eq_refl) as [S1 S2]. exact (group_signal_on name G x b m' _ _ "" dom Lm' SH S1 S2). }
  assert (RX' : @action Qc 0%Qc G x (map Z.of_nat (seq 1 d)) 0 (option_map Z.of_nat (Some (d + 1)%nat)) (Some H) (if valued then Some "" else None) = Ok gx)
    by (destruct valued; exact R).
  destruct (action_slices G d _ _ OK x gx (seq 1 d) (Some (d + 1)%nat) H (if valued then Some "" else None) act (RA := exact_Qc) Wx SPx SA SOx RX')
    as [SGX _]. rewrite SGX in SL. cbn [nth] in SL.
  destruct (@check_value Qc (rounded rnd) (rounded_metric rnd) G d _ _ OK NN (@apply Qc (rounded rnd) L) x gx y gy (seq 1 d) (Some (d + 1)%nat) H
              (if valued then Some "" else None) (Some H) act b (m' ++ (if valued then [g; c] else [c]))) as [l [CV ALL]].
  - apply samplewise_batchwise.
    exact (@C49_convolutions_treat_samples_independently Qc (rounded rnd) name G a H opt false valued bs m m' g c kinit binit L k s dl LF HS OP Bu Lm SZ Lm').
  - exact Wx.
  - exact SH.
  - exact SPx.
  - exact SA.
  - exact SOx.
  - exact CA.
  - exact (axes_of_signal name G y b mo _ DG Lmo SY).
  - exact (group_signal_on name G y b mo _ _ H act Lmo SY SA eq_refl).
  - exact RX'.
  - exact RY.
  - intros v V. destruct (SL v V) as [z [Z _]]. exists z. exact Z.
  - exists (@largest Qc (rounded_metric rnd) l). split; [exact CV|].
    assert (PE : 0 <= e).
    { subst e. unfold rounding_error. pose proof (power_ge u (prod k * (if valued then g * c else c) + 2) U) as P. unfold power in P.
      assert (N : 0 <= inject_Z (Z.of_nat (prod k * (if valued then g * c else c)))) by (change 0 with (inject_Z 0); rewrite <- Zle_Qle; apply Nat2Z.is_nonneg).
      apply Qmult_le_0_compat; [lra|]. apply Qmult_le_0_compat; [lra|]. pose proof (Qmult_le_0_compat _ _ N (Qmult_le_0_compat X W PX PW)). lra. }
    apply largest_bounded; [apply Qmult_le_0_compat; lra|].
    intros w I. destruct (ALL w I) as [v [z [i [V [Z [WZ [Iz ->]]]]]]]. destruct (SL v V) as [z' [Z' NR]]. assert (z' = z) as -> by (assert (EZ : Ok z' = Ok z) by (transitivity (@apply Qc (rounded rnd) L (@slice Qc 0%Qc 0 v gx)); [symmetry; exact Z'|exact Z]); congruence).
    pose proof (near_at e z _ i WZ NR Iz) as D. cbn [absdiff rounded_metric]. cbn [this Q2Qc]. rewrite Qred_correct.
    match goal with |- Qabs (this (rnd ?q)) <= _ => pose proof (RD q) as RR; set (q0 := q) in * end.
    assert (EQ : this q0 == @at_ Qc 0%Qc z i - @at_ Qc 0%Qc (@slice Qc 0%Qc 0 v gy) i).
    { subst q0. unfold Qcminus. rewrite this_add. unfold Qcopp. cbn [this Q2Qc]. rewrite Qred_correct. reflexivity. }
    rewrite <- EQ in D. pose proof (Qabs_nonneg q0) as P0.
    assert (M : u * Qabs q0 <= u * e) by (rewrite !(Qmult_comm u); apply Qmult_le_compat_r; [exact D|exact U]).
    apply abs_le in RR. apply abs_le. apply abs_le in D. lra.
Qed.

End Rounded.

Print Assumptions C85_error_of_a_layer.
Print Assumptions C85_convolutions_are_equivariant_up_to_rounding.
Print Assumptions C85_transposed_layers_are_equivariant_up_to_rounding.
Print Assumptions C85_what_check_equivariance_returns.

(** ** Floating point *)

(** The nearest integer, the even one if there are two. *)
Definition half_even (q : Q) : Z :=
  let f := Qfloor q in
  match Qcompare (q - inject_Z f) (1 # 2) with
  | Lt => f
  | Gt => (f + 1)%Z
  | Eq => if Z.even f then f else (f + 1)%Z
  end.

(** The exponent of the last of [p] binary digits of a positive number. *)
Definition last_digit (p : Z) (q : Q) : Z :=
  let e := (Z.log2 (Qnum q) - Z.log2 (Z.pos (Qden q)))%Z in
  if Qle_bool (2 ^ e) q then (e - p + 1)%Z else (e - p)%Z.

(** IEEE rounding to nearest, ties to even, with [p] binary digits and an unbounded range of
    exponents ([p] = 24: binary32, [p] = 53: binary64). *)
Definition float_round (p : Z) (q : Qc) : Qc :=
  if Qeq_bool q 0 then 0%Qc else
  let ulp := 2 ^ (last_digit p (Qabs q)) in
  Q2Qc (inject_Z (half_even (q / ulp)) * ulp).

Lemma half_even_error q : Qabs (inject_Z (half_even q) - q) <= 1 # 2.
Proof.
  unfold half_even. pose proof (Qfloor_le q) as L. pose proof (Qlt_floor q) as R. rewrite inject_Z_plus in R. change (inject_Z 1) with 1 in R.
  set (f := Qfloor q) in *. destruct (Qcompare (q - inject_Z f) (1 # 2)) eqn:C.
  - apply Qeq_alt in C. destruct (Z.even f); rewrite ?inject_Z_plus; change (inject_Z 1) with 1; apply abs_le; lra.
  - apply Qlt_alt in C. apply abs_le. lra.
  - apply Qgt_alt in C. rewrite inject_Z_plus. change (inject_Z 1) with 1. apply abs_le. lra.
Qed.

Lemma two_power_pos e : 0 < 2 ^ e.
Proof. apply Qpower_0_lt. reflexivity. Qed.

Lemma two_power_add a b : 2 ^ (a + b) == 2 ^ a * 2 ^ b.
Proof. apply Qpower_plus. discriminate. Qed.

Lemma inject_power e : (0 <= e)%Z -> inject_Z (2 ^ e) == 2 ^ e.
Proof. intros E. rewrite Zpower_Qpower by exact E. reflexivity. Qed.

Lemma last_digit_low p q : 0 < q -> 2 ^ (last_digit p q + (p - 1)) <= q.
Proof.
  intros Q. unfold last_digit. set (e := (Z.log2 (Qnum q) - Z.log2 (Z.pos (Qden q)))%Z).
  destruct (Qle_bool (2 ^ e) q) eqn:B.
  - apply Qle_bool_iff in B. replace (e - p + 1 + (p - 1))%Z with e by lia. exact B.
  - clear B. replace (e - p + (p - 1))%Z with (e - 1)%Z by lia.
    assert (N : (0 < Qnum q)%Z) by (unfold Qlt in Q; cbn in Q; lia).
    destruct (Z.log2_spec _ N) as [L _]. destruct (Z.log2_spec (Z.pos (Qden q)) (Pos2Z.is_pos _)) as [_ R].
    pose proof (Z.log2_nonneg (Qnum q)) as LN. pose proof (Z.log2_nonneg (Z.pos (Qden q))) as LD.
    set (a := Z.log2 (Qnum q)) in *. set (b := Z.log2 (Z.pos (Qden q))) in *.
    assert (L' : 2 ^ a <= inject_Z (Qnum q)) by (rewrite <- (inject_power a LN), <- Zle_Qle; exact L).
    assert (R' : inject_Z (Z.pos (Qden q)) <= 2 ^ (b + 1)).
    { rewrite <- (inject_power (b + 1)) by lia. rewrite <- Zle_Qle. unfold Z.succ in R. lia. }
    assert (E : q * inject_Z (Z.pos (Qden q)) == inject_Z (Qnum q)) by (destruct q as [n dn]; unfold Qeq; cbn; lia).
    assert (S : 2 ^ a == 2 ^ (e - 1) * 2 ^ (b + 1)) by (rewrite <- two_power_add; replace (e - 1 + (b + 1))%Z with a by (subst e; lia); reflexivity).
    pose proof (two_power_pos (b + 1)) as P. pose proof (two_power_pos (e - 1)) as P1.
    assert (D : 0 < inject_Z (Z.pos (Qden q))) by reflexivity.
    destruct (Qlt_le_dec q (2 ^ (e - 1))) as [F|F]; [|exact F]. exfalso.
    assert (X1 : q * inject_Z (Z.pos (Qden q)) < 2 ^ (e - 1) * inject_Z (Z.pos (Qden q))) by (apply Qmult_lt_compat_r; assumption).
    assert (X2 : 2 ^ (e - 1) * inject_Z (Z.pos (Qden q)) <= 2 ^ (e - 1) * 2 ^ (b + 1)).
    { rewrite !(Qmult_comm (2 ^ (e - 1))). apply Qmult_le_compat_r; [exact R'|lra]. }
    lra.
Qed.

(** Floating point rounds with relative error 2^-p. *)
Theorem C85_floating_point p : rounds (2 ^ (- p)) (float_round p).
Proof.
  intros q. unfold float_round. destruct (Qeq_bool q 0) eqn:Z.
  - apply Qeq_bool_eq in Z. rewrite Z. change (this 0%Qc) with 0. change (Qabs 0) with 0. change (0 - 0) with 0.
    rewrite Qmult_0_r. apply Qle_refl.
  - apply Qeq_bool_neq in Z. assert (PQ : 0 < Qabs q).
    { destruct (Qlt_le_dec 0 (Qabs q)) as [P|N]; [exact P|]. exfalso. apply Z. apply abs_le in N. lra. }
    pose proof (last_digit_low p (Qabs q) PQ) as LL. rewrite two_power_add in LL.
    set (ulp := 2 ^ (last_digit p (Qabs q))) in *. pose proof (two_power_pos (last_digit p (Qabs q))) as PU. fold ulp in PU.
    cbn [this Q2Qc]. rewrite Qred_correct. pose proof (half_even_error (q / ulp)) as HE.
    set (h := inject_Z (half_even (q / ulp))) in *.
    assert (E : h * ulp - q == (h - q / ulp) * ulp) by (field; lra). rewrite E, Qabs_Qmult, (Qabs_pos ulp) by lra.
    assert (X1 : Qabs (h - q / ulp) * ulp <= (1 # 2) * ulp) by (apply Qmult_le_compat_r; [exact HE|lra]).
    assert (T : 2 ^ (- p) * 2 ^ (p - 1) == 1 # 2).
    { rewrite <- two_power_add. replace (- p + (p - 1))%Z with (-1)%Z by lia. reflexivity. }
    pose proof (two_power_pos (- p)) as PP.
    assert (X2 : (ulp * 2 ^ (p - 1)) * 2 ^ (- p) <= Qabs q * 2 ^ (- p)) by (apply Qmult_le_compat_r; [exact LL|lra]).
    assert (X3 : (ulp * 2 ^ (p - 1)) * 2 ^ (- p) == ulp * (1 # 2)) by (rewrite <- T; ring).
    rewrite X3 in X2. lra.
Qed.
Print Assumptions C85_floating_point.

Example C85_case_tenth : this (float_round 24 (Q2Qc (1 # 10))) = 13421773 # 134217728.
Proof. vm_compute. reflexivity. Qed.

(** ** An example *)

(** A lifting layer for P2 with a kernel of three ones. *)
Definition row_args : conv_args Qc :=
  mkConvArgs (ByName "P2") (Some "") (Tuple [1; 3]%Z) 1 None (Some (Some "valid")) None "channels_last" false false (fun v => v).
Definition row_layer : result (conv_layer Qc) :=
  L0 <- @conv_init Qc 2 false row_args ;; @conv_build Qc exact_Qc L0 [None; Some 1%nat; Some 3%nat; Some 1%nat] (fun _ => 1%Qc) (fun _ => 0%Qc).
Definition row : tensor Qc := mkTensor [1; 1; 3; 1]%nat [Q2Qc 16777216; 1%Qc; 1%Qc].

(** In binary32: 2^24 + (1 + 1) is 2^24 + 2, but 1 + (1 + 2^24) is 2^24. *)
Example C85_case :
  match row_layer with
  | Ok L =>
    let f32 := rounded (float_round 24) in
    match @apply Qc f32 L row, @transforms_of_grid_signal Qc 0%Qc P2 2 "" row with
    | Ok y, Ok gx =>
        match @transforms_of_group_signal Qc 0%Qc P2 2 "" "" y, @apply Qc f32 L (@slice Qc 0%Qc 0 1 gx) with
        | Ok gy, Ok z => (map this (data (@slice Qc 0%Qc 0 1 gy)), map this (data z))
        | _, _ => ([], [])
        end
    | _, _ => ([], [])
    end
  | _ => ([], [])
  end = ([16777218; 16777218], [16777216; 16777216]).
Proof. vm_compute. reflexivity. Qed.

(** So exact equivariance (C26) does not hold in floating point arithmetic. *)
Theorem C85_exact_equivariance_in_floating_point_refuted :
  exists L, @built Qc exact_Qc 2 false row_args (static_signal_shape false None [1; 3]%nat 1 1) (fun _ => 1%Qc) (fun _ => 0%Qc) L /\
    ~ @commutes_at Qc 0%Qc (@transforms_of_grid_signal Qc 0%Qc P2 2 "") (@transforms_of_group_signal Qc 0%Qc P2 2 "" "")
        (@apply Qc (rounded (float_round 24)) L) row.
Proof.
  pose proof C85_case as C. destruct row_layer as [L|] eqn:RL; [|discriminate C]. cbv zeta in C.
  exists L. split.
  - unfold row_layer in RL. unfold built. destruct (@conv_init Qc 2 false row_args) as [L0|]; [|discriminate RL].
    exists L0. split; [reflexivity|exact RL].
  - intros CO. destruct (@apply Qc (rounded (float_round 24)) L row) as [y|] eqn:AY; [|discriminate C].
    destruct (@transforms_of_grid_signal Qc 0%Qc P2 2 "" row) as [gx|] eqn:TX; [|discriminate C].
    destruct (CO gx y TX AY) as [gy [TY [_ SL]]].
    match type of C with context[transforms_of_group_signal P2 2 "" "" y] => rewrite TY in C end.
    destruct (@apply Qc (rounded (float_round 24)) L (@slice Qc 0%Qc 0 1 gx)) as [z|] eqn:AZ; [|discriminate C].
    assert (N : (1 < nth 0 (shape gx) 0)%nat).
    { assert (NB : (match @transforms_of_grid_signal Qc 0%Qc P2 2 "" row with Ok v => nth 0 (shape v) 0%nat | Err _ => 0%nat end) = 2%nat) by (vm_compute; reflexivity).
      rewrite TX in NB. rewrite NB. apply le_n. }
    pose proof (SL 1%nat N) as S1. assert (EZ : z = @slice Qc 0%Qc 0 1 gy) by (assert (EO : forall v w : tensor Qc, Ok v = Ok w -> v = w) by congruence; apply EO; rewrite <- AZ; exact S1).
    rewrite <- EZ in C. apply (f_equal (fun p => (hd 0 (fst p), hd 0 (snd p)))) in C. cbn [fst snd hd] in C.
    assert (E1 : hd 0 (map this (data z)) = 16777218) by (apply (f_equal fst) in C; exact C).
    assert (E2 : hd 0 (map this (data z)) = 16777216) by (apply (f_equal snd) in C; exact C).
    rewrite E1 in E2. discriminate E2.
Qed.
Print Assumptions C85_exact_equivariance_in_floating_point_refuted.

(** Here [check_equivariance] returns 2, below the bound of the theorem (about 30). *)
Example C85_case_check :
  match row_layer with
  | Ok L =>
    match @check_equivariance Qc 0%Qc (rounded_metric (float_round 24)) (@apply Qc (rounded (float_round 24)) L) row P2 [1; 2]%Z (Some 3%Z) (Some "") None (Some "") with
    | Ok v => (this v, Qle_bool v ((1 + 2 ^ (-24)) * (2 * rounding_error (2 ^ (-24)) 3 (2 ^ 24) 1 0)),
               Qle_bool ((1 + 2 ^ (-24)) * (2 * rounding_error (2 ^ (-24)) 3 (2 ^ 24) 1 0)) 31)
    | _ => (0, false, false)
    end
  | _ => (0, false, false)
  end = (2, true, true).
Proof. vm_compute. reflexivity. Qed.
