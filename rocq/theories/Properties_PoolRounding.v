(** C94: pooling layers with rounding errors. *)
From Coq Require Import QArith Qcanon Qabs Qpower Lqa Permutation.
From Verif Require Import AverageFacts CheckFacts Properties_Pooling Properties_EntryMaps Properties_Rounding Properties_AnyOrder EquivSpec.
Local Open Scope string_scope.
Local Open Scope Q_scope.
Local Open Scope list_scope.

(** Calling the average pooling layer on [x] may return [y]: each leaf of [y] is one of the
    possible values of the average of averages at this place. *)
Definition may_average (u : Q) (L : pool_layer) (x y : tensor Qc) : Prop :=
  exists ts, @pool_call averages _ _ L (tmap leaf x) = Ok ts /\ shape y = shape ts /\ Forall2 (calculates u) (data ts) (data y).
Definition may_average_globally (u : Q) (L : global_pool_layer) (x y : tensor Qc) : Prop :=
  exists ts, @global_call averages _ _ L (tmap leaf x) = Ok ts /\ shape y = shape ts /\ Forall2 (calculates u) (data ts) (data y).

(** Maximum and mean without rounding. *)
Lemma largest_in v r : (fold_left larger r v = v \/ In (fold_left larger r v) r) /\ (this v <= this (fold_left larger r v)) /\
  forall w : Qc, In w r -> this w <= this (fold_left larger r v).
Proof.
  revert v. induction r as [|w r IH]; intros v; cbn [fold_left].
  - split; [left; reflexivity|]. split; [apply Qle_refl|]. intros w [].
  - destruct (IH (larger v w)) as [M [U V]].
    assert (LL : this v <= this (larger v w) /\ this w <= this (larger v w) /\ (larger v w = v \/ larger v w = w)).
    { unfold larger. destruct (Qle_bool v w) eqn:B.
      - apply Qle_bool_iff in B. split; [exact B|]. split; [apply Qle_refl|right; reflexivity].
      - split; [apply Qle_refl|]. split; [|left; reflexivity]. destruct (Qlt_le_dec w v) as [L|L]; [apply Qlt_le_weak; exact L|].
        apply Qle_bool_iff in L. congruence. }
    destruct LL as [L1 [L2 L3]]. split; [|split].
    + destruct M as [M|M]; [|right; right; exact M]. rewrite M. destruct L3 as [L3|L3]; rewrite L3; [left; reflexivity|right; left; reflexivity].
    + eapply Qle_trans; [exact L1|exact U].
    + intros w' [<-|I]; [eapply Qle_trans; [exact L2|exact U]|apply V; exact I].
Qed.

Lemma exact_pool_order_irrelevant t : order_irrelevant (@pool_fun Qc exact_pool t).
Proof.
  intros l l' P. unfold pool_fun. destruct (String.eqb t "max"); cbn [pool_max pool_mean exact_pool]; [|apply mean_order; exact P].
  destruct l as [|v r]; [apply Permutation_nil in P; subst l'; reflexivity|].
  destruct l' as [|v' r']; [symmetry in P; apply Permutation_nil in P; discriminate P|].
  destruct (largest_in v r) as [M [U V]], (largest_in v' r') as [M' [U' V']]. apply Qc_is_canon, Qle_antisym.
  - assert (I : In (fold_left larger r v) (v' :: r')).
    { apply (Permutation_in _ P). destruct M as [M|M]; [left; symmetry; exact M|right; exact M]. }
    destruct I as [I|I]; [rewrite <- I; exact U'|apply V'; exact I].
  - assert (I : In (fold_left larger r' v') (v :: r)).
    { apply (Permutation_in _ (Permutation_sym P)). destruct M' as [M'|M']; [left; symmetry; exact M'|right; exact M']. }
    destruct I as [I|I]; [rewrite <- I; exact U|apply V; exact I].
Qed.

Lemma exact_average_fun l : @pool_fun Qc exact_pool "average" (map exact_average l) = exact_average (@pool_fun averages _ "average" l).
Proof. reflexivity. Qed.

Lemma tmap_entries x : tmap exact_average (tmap leaf x) = x.
Proof. destruct x as [sh l]. unfold tmap. cbn [shape data]. rewrite exact_entries. reflexivity. Qed.

(** The possible results are near the exact one. *)
Lemma averages_near u n1 n2 X (ts : tensor averages) : 0 <= u -> 0 <= X -> Forall (average_for n1 n2 X) (data ts) ->
  (exists y, shape y = shape ts /\ Forall2 (calculates u) (data ts) (data y)) /\
  forall y, shape y = shape ts -> Forall2 (calculates u) (data ts) (data y) -> near (average_error u (n1 + n2) X) y (tmap exact_average ts).
Proof.
  intros U PX F. split.
  - exists (tmap exact_average ts). split; [reflexivity|]. cbn [data tmap]. induction F as [|t l P F IH]; cbn [map]; [constructor|].
    constructor; [apply (exact_average_calculated u n1 n2 X); assumption|exact IH].
  - intros y SH C. split; [exact SH|]. cbn [data tmap]. revert F. induction C as [|t v ts' vs CT C IH]; intros F; cbn [map]; [constructor|].
    inversion F; subst. constructor; [apply average_for_error; assumption|]. apply IH; assumption.
Qed.

Lemma bounded_at X x i : 0 <= X -> bounded X x -> Qabs (@at_ Qc 0%Qc x i) <= X.
Proof.
  intros PX B. unfold at_, bounded in *. rewrite Forall_forall in B. match goal with |- Qabs (this (nth ?j _ _)) <= _ => destruct (lt_dec j (List.length (data x))) as [L|L] end.
  - apply B, nth_In. exact L.
  - rewrite nth_overflow by lia. change (this zero) with 0. change (Qabs 0) with 0. exact PX.
Qed.

Lemma keep_some_length {B} (l : list (option B)) : (List.length (keep_some l) <= List.length l)%nat.
Proof. unfold keep_some. induction l as [|[b|] l IH]; cbn [flat_map app List.length]; lia. Qed.

Section Layer.
Context (name : string) (G : group) (a : pool_args) (H opt : string) (bs : option nat) (m : list nat) (g c : nat) (L : pool_layer) (k s : list nat).
Let d := dimension_of name.
Context (PF : pooling_for name G a) (HS : pa_subgroup a = Some H) (OP : pool_option a opt).
Context (Bu : pooling_built d "average" a (bs :: map Some m ++ [Some g; Some c]) L) (Lm : List.length m = d) (SZ : pool_sizes d a k s).

Lemma exact_output x : @pool_call Qc exact_Qc exact_pool L x = rmap (tmap exact_average) (@pool_call averages _ _ L (tmap leaf x)).
Proof.
  rewrite <- (tmap_entries x) at 1. destruct Bu as [L0 [I B]].
  pose proof (@C91_pooling averages Qc _ exact_Qc _ exact_pool exact_average d "average" a (bs :: map Some m ++ [Some g; Some c]) (tmap leaf x) eq_refl exact_average_fun) as E.
  unfold run_pool in E. rewrite I in E. cbn [bind] in E. rewrite B in E. exact E.
Qed.

Context (r : nat) (sub : list nat) (SI : subgroup_indices G H sub) (GR : g = (r * List.length sub)%nat) (X : Q) (PX : 0 <= X).

Lemma averages_for x b m' ts : wf x -> List.length m' = d -> shape x = b :: m' ++ [g; c] -> bounded X x ->
  @pool_call averages _ _ L (tmap leaf x) = Ok ts -> Forall (average_for r (prod k) X) (data ts).
Proof.
  intros Wx Lm' SH HX C.
  destruct (@pooling_facts averages _ _ name G d "average" a H opt bs m g c L k s (tmap leaf x) ts PF HS OP Bu Lm SZ C)
    as [OK [GN [_ [eb [ea [sub' [cos [DS [DC [SA F]]]]]]]]]].
  assert (sub' = sub) as -> by (unfold subgroup_indices, sub_idx in *; congruence).
  assert (NE : sub <> []).
  { destruct (sub_idx_facts _ _ _ _ OK _ _ SA) as [_ [_ [HD _]]]. destruct sub; [discriminate HD|discriminate]. }
  assert (LC : List.length cos = r).
  { destruct (ok_cos _ _ _ _ OK _ _ DS) as [cos' [DC' [_ [_ [_ LE]]]]]. assert (cos' = cos) as -> by congruence. rewrite <- GN, GR in LE.
    assert (0 < List.length sub)%nat by (destruct sub; [contradiction|cbn [List.length]; lia]). nia. }
  assert (Wp : wf (tmap leaf x)) by (unfold wf, tmap; cbn [shape data]; rewrite map_length; exact Wx).
  rewrite GN in SH. assert (SH' : shape (tmap leaf x) = b :: m' ++ [List.length (symmetries_of name); c]) by exact SH.
  rewrite (@tensor_sig4 averages _ d b m' _ c (tmap leaf x) Wp Lm' SH') in C.
  rewrite (@pool_call_eq averages _ _ G d _ _ _ OK sub cos k s eb ea (is_same opt) "average" L b m' c _ F NE Lm') in C. cbv zeta in C.
  destruct (forallb _ _) in C; [|discriminate C]. assert (EO : forall v w : tensor averages, Ok v = Ok w -> v = w) by congruence. apply EO in C. subst ts.
  unfold tab. cbn [data]. apply Forall_forall. intros t I. apply in_map_iff in I as [i [<- _]]. unfold sig4 at 1.
  unfold pool_out, pooled. set (l := map _ (indices k)).
  exists (keep_some l). split; [reflexivity|]. split.
  - eapply Nat.le_trans; [apply keep_some_length|]. unfold l. rewrite map_length, length_indices. apply le_n.
  - apply Forall_forall. intros t I. unfold keep_some in I. apply in_flat_map in I as [o [IO IT]]. unfold l in IO. apply in_map_iff in IO as [j [<- _]].
    destruct (csrc _ _ _ _ _ j) as [p|]; cbn [option_map] in IT; [|contradiction]. destruct IT as [<-|[]]. unfold bordered.
    destruct (inside eb m' p); [|left; reflexivity]. right.
    exists (map (fun e => @at_ Qc 0%Qc x (nth 0 i 0%nat :: vzip Nat.sub p eb ++ [comp G (nth (nth (d + 1) i 0%nat) sub 0%nat) e; nth (d + 2) i 0%nat])) cos).
    split; [|split].
    + change (@pool_fun averages _ "average") with average. f_equal. rewrite map_map. apply map_ext. intros e. unfold fun4.
      exact (@at_tmap Qc averages 0%Qc _ leaf eq_refl x _).
    + rewrite map_length, LC. apply le_n.
    + apply Forall_forall. intros v I. apply in_map_iff in I as [e [<- _]]. apply bounded_at; assumption.
Qed.

Lemma average_near u x b m' : 0 <= u -> wf x -> List.length m' = d -> shape x = b :: m' ++ [g; c] -> bounded X x ->
  match @pool_call Qc exact_Qc exact_pool L x with
  | Ok y' => (exists y, may_average u L x y) /\ forall y, may_average u L x y -> near (average_error u (r + prod k) X) y y'
  | Err _ => forall y, ~ may_average u L x y
  end.
Proof.
  intros U Wx Lm' SH HX. rewrite exact_output. unfold may_average.
  destruct (@pool_call averages _ _ L (tmap leaf x)) as [ts|er] eqn:C; cbn [rmap].
  - pose proof (averages_for x b m' ts Wx Lm' SH HX C) as F. destruct (averages_near u r (prod k) X ts U PX F) as [[y [S1 S2]] N]. split.
    + exists y, ts. split; [reflexivity|]. split; assumption.
    + intros y0 [ts' [E [S0 C0]]]. assert (EO : forall v w : tensor averages, Ok v = Ok w -> v = w) by congruence. apply EO in E. subst ts'. apply N; assumption.
  - intros y [ts [E _]]. discriminate E.
Qed.
End Layer.

(** Average pooling with rounding: when the exact layer computes, the program returns
    something, and what it returns differs from the exact output by at most
    [average_error u n X] with n = r + prod k; [r] is the index of the subgroup and [prod k]
    the size of the pooling window.  When the exact layer raises so does the program. *)
Theorem C94_error_of_average_pooling name G (a : pool_args) H opt bs m g c L k s r sub u X :
  pooling_for name G a -> pa_subgroup a = Some H -> pool_option a opt ->
  let d := dimension_of name in
  pooling_built d "average" a (bs :: map Some m ++ [Some g; Some c]) L -> List.length m = d -> pool_sizes d a k s ->
  subgroup_indices G H sub -> g = (r * List.length sub)%nat -> 0 <= u -> 0 <= X ->
  forall x b m', wf x -> List.length m' = d -> shape x = b :: m' ++ [g; c] -> bounded X x ->
  match @pool_call Qc exact_Qc exact_pool L x with
  | Ok y' => (exists y, may_average u L x y) /\ forall y, may_average u L x y -> near (average_error u (r + prod k) X) y y'
  | Err _ => forall y, ~ may_average u L x y
  end.
Proof.
  intros PF HS OP d Bu Lm SZ SI GR U PX x b m' Wx Lm' SH HX.
  exact (average_near name G a H opt bs m g c L k s PF HS OP Bu Lm SZ r sub SI GR X PX u x b m' U Wx Lm' SH HX).
Qed.
Print Assumptions C94_error_of_average_pooling.

Lemma pooling_commutes name G (a : pool_args) H opt bs m g c L k s r sub u X x b m' :
  pooling_for name G a -> pa_subgroup a = Some H -> pool_option a opt ->
  let d := dimension_of name in
  pooling_built d "average" a (bs :: map Some m ++ [Some g; Some c]) L -> List.length m = d -> pool_sizes d a k s ->
  subgroup_indices G H sub -> g = (r * List.length sub)%nat -> 0 <= u -> 0 <= X ->
  wf x -> List.length m' = d -> shape x = b :: m' ++ [g; c] -> bounded X x ->
  let tin := @transforms_of_group_signal Qc 0%Qc G d H "" in
  let tout := @transforms_of_group_signal Qc 0%Qc G d H H in
  @commutes_at Qc 0%Qc tin tout (@pool_call Qc exact_Qc exact_pool L) x ->
  may_commute_up_to (2 * average_error u (r + prod k) X) tin tout (may_average u L) x.
Proof.
  intros PF HS OP d Bu Lm SZ SI GR U PX Wx Lm' SH HX tin tout CE gx y R MY.
  set (e := average_error u (r + prod k) X). assert (PE : 0 <= e) by (apply average_error_nonneg; assumption).
  pose proof PF as [DG _].
  pose proof (C94_error_of_average_pooling name G a H opt bs m g c L k s r sub u X PF HS OP Bu Lm SZ SI GR U PX) as ER. fold d e in ER.
  pose proof (ER x b m' Wx Lm' SH HX) as EX.
  destruct (@pool_call Qc exact_Qc exact_pool L x) as [y'|er] eqn:AX; [|contradiction (EX y MY)]. destruct EX as [_ NY]. specialize (NY y MY).
  assert (GN : g = List.length (symmetries_of name)).
  { destruct MY as [ts [C _]].
    destruct (@pooling_facts averages _ _ name G d "average" a H opt bs m g c L k s (tmap leaf x) ts PF HS OP Bu Lm SZ C) as [_ [GN _]]. exact GN. }
  pose proof DG as OK. apply lib_ok in OK as [_ OK]. fold d in OK.
  destruct (sub_idx_facts _ _ _ _ OK _ _ SI) as [_ [Bi _]].
  assert (SW : true = true -> sub_idx G (Some "") (seq 0 (List.length (symmetries_of name))) /\ g = List.length (seq 0 (List.length (symmetries_of name))) /\
                 forall v, In v sub -> stable G v (seq 0 (List.length (symmetries_of name)))).
  { intros _. split; [exact (sub_idx_whole _ _ _ _ OK)|]. split; [rewrite seq_length; exact GN|]. intros v Iv. apply (stable_whole _ _ _ _ OK), Bi, Iv. }
  destruct (@moved_input Qc exact_Qc G d _ _ OK true x gx b m' g c sub (seq 0 (List.length (symmetries_of name))) (Some H) (Some "") SI SW Wx Lm' SH R) as [_ [SG MV]].
  destruct (CE gx y' R AX) as [gye [GYE [SN SLE]]].
  destruct (near_action name G e y y' _ _ _ _ _ gye DG PE NY GYE) as [gy [GY [SGY SLN]]].
  exists gy. split; [exact GY|]. split; [rewrite SGY; exact SN|]. intros v V.
  specialize (SLE v V). rewrite SG in V. destruct (MV v V) as [X' [MX [WX [SX _]]]].
  assert (SX' : shape (@slice Qc 0%Qc 0 v gx) = b :: m' ++ [g; c]) by (etransitivity; [exact SX|exact SH]).
  pose proof (ER (@slice Qc 0%Qc 0 v gx) b m' WX Lm' SX' (bounded_action name G X x gx _ _ _ _ _ DG PX HX R v)) as EZ.
  rewrite SLE in EZ. destruct EZ as [EZ NZ]. split; [exact EZ|]. intros z MZ.
  exact (near_trans e z (@slice Qc 0%Qc 0 v gye) (@slice Qc 0%Qc 0 v gy) (NZ z MZ) (SLN v)).
Qed.

(** Equivariance, with the hypotheses of C32: the output for the transformed signal differs
    from the transformed output by at most twice the error. *)
Theorem C94_average_pooling_is_equivariant_up_to_rounding name G (a : pool_args) H opt bs m g c L k s st r sub u X x b m' :
  pooling_for name G a -> pa_subgroup a = Some H -> pool_option a opt ->
  (pa_allow a = false \/ In opt ["SAME_EQUIV"; "VALID_EQUIV"]) ->
  let d := dimension_of name in
  pooling_built d "average" a (bs :: map Some m ++ [Some g; Some c]) L -> List.length m = d -> pool_sizes d a k s ->
  respects name k -> respects name s -> pa_strides a = Some st ->
  (opt = "SAME_EQUIV" -> forall ax, (ax < d)%nat -> Nat.Even (rows_added (nth ax m 0%nat) (nth ax k 0%nat) (nth ax s 0%nat))) ->
  List.length m' = d -> (forall ax, (ax < d)%nat -> (nth ax m 0 mod nth ax s 0 = nth ax m' 0 mod nth ax s 0)%nat) ->
  subgroup_indices G H sub -> g = (r * List.length sub)%nat -> 0 <= u -> 0 <= X ->
  wf x -> shape x = b :: m' ++ [g; c] -> bounded X x ->
  may_commute_up_to (2 * average_error u (r + prod k) X)
    (@transforms_of_group_signal Qc 0%Qc G d H "") (@transforms_of_group_signal Qc 0%Qc G d H H) (may_average u L) x.
Proof.
  intros PF HS OP AL d Bu Lm SZ RK RS ST EV Lm' CO SI GR U PX Wx SH HX.
  apply (pooling_commutes name G a H opt bs m g c L k s r sub u X x b m' PF HS OP Bu Lm SZ SI GR U PX Wx Lm' SH HX).
  exact (@C32_pooling_is_equivariant Qc exact_Qc exact_pool name G "average" a H opt bs m g c L k s st x b m' (exact_pool_order_irrelevant "average")
           PF HS OP AL Bu Lm SZ RK RS ST EV Lm' CO Wx SH).
Qed.
Print Assumptions C94_average_pooling_is_equivariant_up_to_rounding.

(** Without strides, with the hypotheses of C33. *)
Theorem C94_default_strides name G (a : pool_args) H opt bs m g c L k s r sub u X x b :
  pooling_for name G a -> pa_subgroup a = Some H -> pool_option a opt -> pa_allow a = false ->
  let d := dimension_of name in
  pooling_built d "average" a (bs :: map Some m ++ [Some g; Some c]) L -> List.length m = d -> pool_sizes d a k s ->
  respects name k -> pa_strides a = None ->
  (forall ax, (ax < d)%nat -> if mem_str opt ["SAME"; "SAME_EQUIV"]
                        then Nat.Odd (nth ax k 0%nat) /\ Nat.Even (rows_added (nth ax m 0%nat) (nth ax k 0%nat) (nth ax k 0%nat))
                        else (nth ax m 0 mod nth ax k 0 = 0)%nat) ->
  subgroup_indices G H sub -> g = (r * List.length sub)%nat -> 0 <= u -> 0 <= X ->
  wf x -> shape x = b :: m ++ [g; c] -> bounded X x ->
  may_commute_up_to (2 * average_error u (r + prod k) X)
    (@transforms_of_group_signal Qc 0%Qc G d H "") (@transforms_of_group_signal Qc 0%Qc G d H H) (may_average u L) x.
Proof.
  intros PF HS OP AL d Bu Lm SZ RK ST EV SI GR U PX Wx SH HX.
  apply (pooling_commutes name G a H opt bs m g c L k s r sub u X x b m PF HS OP Bu Lm SZ SI GR U PX Wx Lm SH HX).
  exact (proj2 (@C33_default_strides Qc exact_Qc exact_pool name G "average" a H opt bs m g c L k s x b (exact_pool_order_irrelevant "average")
           PF HS OP AL Bu Lm SZ RK ST EV Wx SH)).
Qed.
Print Assumptions C94_default_strides.

(** ** Global pooling *)

Lemma ones_only i d : inb (repeat 1%nat d) i -> i = repeat 0%nat d.
Proof.
  revert i. induction d as [|d IH]; intros i I; cbn [repeat] in *.
  - destruct i as [|v i]; [reflexivity|]. apply inb_length in I. discriminate I.
  - destruct i as [|v i]; [apply inb_length in I; discriminate I|]. apply inb_cons in I as [V I]. f_equal; [lia|apply IH, I].
Qed.

Lemma forall_entries {A} {ZA : Zero A} (P : A -> Prop) (y : tensor A) : wf y -> (forall i, inb (shape y) i -> P (at_ y i)) -> Forall P (data y).
Proof.
  intros W Q. rewrite <- (tab_at y W). unfold tab. cbn [data]. apply Forall_forall. intros v I. apply in_map_iff in I as [i [<- I]].
  apply Q, In_indices, I.
Qed.

Lemma global_output d fmt kd input L0 L x : global_init d "average" fmt kd = Ok L0 -> global_build L0 input = Ok L ->
  @global_call Qc exact_Qc exact_pool L x = rmap (tmap exact_average) (@global_call averages _ _ L (tmap leaf x)).
Proof.
  intros I B. rewrite <- (tmap_entries x) at 1.
  pose proof (@C91_global_pooling averages Qc _ exact_Qc _ exact_pool exact_average d "average" fmt kd input (tmap leaf x) eq_refl exact_average_fun) as E.
  unfold run_global in E. rewrite I in E. cbn [bind] in E. rewrite B in E. exact E.
Qed.

(** Global average pooling: [average_error u n X] with n = g + prod m, where [g] is the
    number of elements of the group axis. *)
Theorem C94_error_of_global_average_pooling d fmt kd input L0 L b m g c u X x :
  known_format fmt -> global_init d "average" fmt kd = Ok L0 -> global_build L0 input = Ok L -> List.length m = d ->
  shape x = global_shape fmt b m g c -> 0 <= u -> 0 <= X -> bounded X x ->
  exists y', @global_call Qc exact_Qc exact_pool L x = Ok y' /\
    (exists y, may_average_globally u L x y) /\ forall y, may_average_globally u L x y -> near (average_error u (g + prod m) X) y y'.
Proof.
  intros KF I B Lm SH U PX HX.
  destruct (@what_global_pooling_computes averages _ _ d "average" fmt kd input L0 L (tmap leaf x) b m g c KF I B Lm SH) as [ts [C [W [SY AT]]]].
  rewrite (global_output d fmt kd input L0 L x I B). unfold may_average_globally. rewrite C. cbn [rmap]. exists (tmap exact_average ts). split; [reflexivity|].
  assert (F : Forall (average_for g (prod m) X) (data ts)).
  { apply forall_entries; [exact W|]. intros i IB. rewrite SY in IB.
    assert (EX : exists bi q, (bi < b)%nat /\ (q < c)%nat /\ i = (if kd then global_shape fmt bi (repeat 0%nat d) 0 q else [bi; q])).
    { unfold global_shape in *. destruct kd; [destruct (first_of fmt)|].
      - destruct i as [|bi [|q i]]; try (apply inb_length in IB; discriminate IB). apply inb_cons in IB as [BI IB]. apply inb_cons in IB as [Q IB].
        exists bi, q. split; [exact BI|]. split; [exact Q|]. do 2 f_equal. change [1%nat] with (repeat 1%nat 1) in IB. rewrite <- repeat_app in IB. apply ones_only in IB.
        rewrite IB, repeat_app. reflexivity.
      - destruct i as [|bi i]; [apply inb_length in IB; discriminate IB|]. apply inb_cons in IB as [BI IB].
        apply inb_app_split in IB as [p [r [EI [P R]]]]. apply inb2 in R as [h [q [ER [Hh Q]]]].
        exists bi, q. split; [exact BI|]. split; [exact Q|]. rewrite EI, ER, (ones_only _ _ P). replace h with 0%nat by lia. reflexivity.
      - apply inb2 in IB as [bi [q [-> [BI Q]]]]. exists bi, q. split; [exact BI|]. split; [exact Q|]. reflexivity. }
    destruct EX as [bi [q [BI [Q ->]]]]. rewrite AT by assumption. change (@pool_fun averages _ "average") with average.
    eexists. split; [reflexivity|]. split; [rewrite map_length, length_indices; apply le_n|].
    apply Forall_forall. intros t T. apply in_map_iff in T as [p [<- _]]. right.
    exists (map (fun h => @at_ Qc 0%Qc x (global_shape fmt bi p h q)) (seq 0 g)). split; [|split].
    - f_equal. rewrite map_map. apply map_ext. intros h. exact (@at_tmap Qc averages 0%Qc _ leaf eq_refl x _).
    - rewrite map_length, seq_length. apply le_n.
    - apply Forall_forall. intros v V. apply in_map_iff in V as [h [<- _]]. apply bounded_at; assumption. }
  destruct (averages_near u g (prod m) X ts U PX F) as [[y [S1 S2]] N]. split.
  - exists y, ts. split; [reflexivity|]. split; assumption.
  - intros y0 [ts' [E [S0 C0]]]. assert (EO : forall v w : tensor averages, Ok v = Ok w -> v = w) by congruence. apply EO in E. subst ts'. apply N; assumption.
Qed.
Print Assumptions C94_error_of_global_average_pooling.

(** Invariance, with the hypotheses of C34. *)
Theorem C94_global_average_pooling_is_invariant_up_to_rounding name G fmt kd input H K act dom L0 L b m c u X (x gx : tensor Qc) :
  known_format fmt -> dict_get group_dict name = Ok G ->
  subgroup_indices G H act -> subgroup_indices G K dom -> (forall v, In v act -> In v dom) ->
  let d := dimension_of name in
  global_init d "average" fmt kd = Ok L0 -> global_build L0 input = Ok L -> List.length m = d ->
  0 <= u -> 0 <= X ->
  wf x -> shape x = global_shape fmt b m (List.length dom) c -> bounded X x ->
  @action Qc 0%Qc G x (global_axes fmt d) 0 (Some (global_group_axis fmt d)) (Some H) (Some K) = Ok gx ->
  nth 0 (shape gx) 0%nat = List.length act /\
  forall v, (v < List.length act)%nat ->
    (exists z, may_average_globally u L (@slice Qc 0%Qc 0 v gx) z) /\
    forall y z, may_average_globally u L x y -> may_average_globally u L (@slice Qc 0%Qc 0 v gx) z ->
      near (2 * average_error u (List.length dom + prod m) X) z y.
Proof.
  intros KF DG SA SD INC d I B Lm U PX Wx SH HX R.
  destruct (@C34_global_pooling_is_invariant Qc exact_Qc exact_pool name G "average" fmt kd input H K act dom L0 L x gx b m c
              (exact_pool_order_irrelevant "average") KF DG SA SD INC I B Lm Wx SH R) as [SN INV].
  split; [exact SN|]. intros v V. specialize (INV v V).
  destruct (C94_error_of_global_average_pooling d fmt kd input L0 L b m (List.length dom) c u X x KF I B Lm SH U PX HX) as [y' [C [_ NX]]].
  assert (SG : shape (@slice Qc 0%Qc 0 v gx) = shape x).
  { pose proof DG as OK. apply lib_ok in OK as [_ OK]. fold d in OK.
    destruct (@global_invariance Qc exact_Qc exact_pool G d _ _ OK (first_of fmt) "average" kd (Some H) (Some K) act dom x gx b m c) as [SG _]; try assumption.
    - exact (exact_pool_order_irrelevant "average").
    - unfold slice. rewrite shape_tab, SG. reflexivity. }
  pose proof (bounded_action name G X x gx _ _ _ _ _ DG PX HX R v) as BS. rewrite SH in SG.
  destruct (C94_error_of_global_average_pooling d fmt kd input L0 L b m (List.length dom) c u X _ KF I B Lm SG U PX BS) as [z' [C' [EZ NZ]]].
  assert (EO : forall v w : tensor Qc, Ok v = Ok w -> v = w) by congruence.
  assert (z' = y') as -> by (apply EO; exact (eq_trans (eq_sym C') (eq_trans INV C))). split; [exact EZ|]. intros y z MY MZ. exact (near_trans _ z y' y (NZ z MZ) (NX y MY)).
Qed.
Print Assumptions C94_global_average_pooling_is_invariant_up_to_rounding.

(** Max pooling compares and does not calculate: it is exact on numbers of any precision. *)
Theorem C94_max_pooling_is_exact rnd name G (a : pool_args) H opt bs m g c L k s st (x : tensor Qc) b m' :
  pooling_for name G a -> pa_subgroup a = Some H -> pool_option a opt ->
  (pa_allow a = false \/ In opt ["SAME_EQUIV"; "VALID_EQUIV"]) ->
  let d := dimension_of name in
  pooling_built d "max" a (bs :: map Some m ++ [Some g; Some c]) L -> List.length m = d -> pool_sizes d a k s ->
  respects name k -> respects name s -> pa_strides a = Some st ->
  (opt = "SAME_EQUIV" -> forall ax, (ax < d)%nat -> Nat.Even (rows_added (nth ax m 0%nat) (nth ax k 0%nat) (nth ax s 0%nat))) ->
  List.length m' = d -> (forall ax, (ax < d)%nat -> (nth ax m 0 mod nth ax s 0 = nth ax m' 0 mod nth ax s 0)%nat) ->
  wf x -> shape x = b :: m' ++ [g; c] ->
  @pool_call Qc (rounded rnd) exact_pool L x = @pool_call Qc exact_Qc exact_pool L x /\
  @commutes_at Qc 0%Qc (@transforms_of_group_signal Qc 0%Qc G d H "") (@transforms_of_group_signal Qc 0%Qc G d H H) (@pool_call Qc (rounded rnd) exact_pool L) x /\
  (forall y, @pool_call Qc (rounded rnd) exact_pool L x = Ok y -> forall v, In v (data y) -> v = 0%Qc \/ In v (data x)).
Proof.
  intros PF HS OP AL d Bu Lm SZ RK RS ST EV Lm' CO Wx SH. split; [reflexivity|]. split.
  - exact (@C32_pooling_is_equivariant Qc (rounded rnd) exact_pool name G "max" a H opt bs m g c L k s st x b m' (exact_pool_order_irrelevant "max")
           PF HS OP AL Bu Lm SZ RK RS ST EV Lm' CO Wx SH).
  - intros y C.
    destruct (@pooling_facts Qc (rounded rnd) exact_pool name G d "max" a H opt bs m g c L k s x y PF HS OP Bu Lm SZ C)
      as [OK [GN [_ [eb [ea [sub' [cos [DS [DC [SA F]]]]]]]]]].
    assert (NE : sub' <> []).
    { destruct (sub_idx_facts _ _ _ _ OK _ _ SA) as [_ [_ [HD _]]]. destruct sub'; [discriminate HD|discriminate]. }
    rewrite GN in SH. rewrite (@tensor_sig4 Qc 0%Qc d b m' _ c x Wx Lm' SH) in C.
    rewrite (@pool_call_eq Qc (rounded rnd) exact_pool G d _ _ _ OK sub' cos k s eb ea (is_same opt) "max" L b m' c _ F NE Lm') in C. cbv zeta in C.
    destruct (forallb _ _) in C; [|discriminate C]. assert (EO : forall v w : tensor Qc, Ok v = Ok w -> v = w) by congruence. apply EO in C. subst y.
    assert (MX : forall l, (forall v, In v l -> v = 0%Qc \/ In v (data x)) -> @pool_fun Qc exact_pool "max" l = 0%Qc \/ In (@pool_fun Qc exact_pool "max" l) (data x)).
    { intros l Q. destruct l as [|v l]; [left; reflexivity|]. apply Q. change (@pool_fun Qc exact_pool "max" (v :: l)) with (fold_left larger l v).
      destruct (largest_in v l) as [[E|E] _]; [left; symmetry; exact E|right; exact E]. }
    unfold tab. cbn [data]. intros v I. apply in_map_iff in I as [i [<- _]]. unfold sig4 at 1 2, pool_out, pooled. apply MX. intros v I.
    unfold keep_some in I. apply in_flat_map in I as [o [IO IT]]. apply in_map_iff in IO as [j [<- _]].
    destruct (csrc _ _ _ _ _ j) as [p|]; cbn [option_map] in IT; [|contradiction]. destruct IT as [<-|[]]. unfold bordered.
    destruct (inside eb m' p); [|left; reflexivity]. apply MX. intros v I. apply in_map_iff in I as [e [<- _]]. unfold fun4, at_.
    match goal with |- nth ?j _ _ = _ \/ _ => destruct (lt_dec j (List.length (data x))) as [Lt|Lt] end; [right; apply nth_In; exact Lt|left; apply nth_overflow; lia].
Qed.
Print Assumptions C94_max_pooling_is_exact.

(** The four values 2^24, 1, 1 and -2^24 at the elements of P4.  Single precision can add
    them to 2 or, one after the other, to 0; so the mean can be 1/2 or 0. *)
Definition turns : tensor Qc := mkTensor [1; 1; 1; 4; 1]%nat [big; 1; 1; - big]%Qc.
Definition mean_layer : global_pool_layer :=
  match (L0 <- global_init 2 "average" None false ;; global_build L0 (map Some [1; 1; 1; 4; 1]%nat)) with Ok L => L | Err _ => mkGlobal 0 "" "" false 0 0 end.

Lemma four_values v : calculates (2 ^ (-24)) (average [leaf big; leaf 1%Qc; leaf 1%Qc; leaf (- big)%Qc]) v ->
  may_average_globally (2 ^ (-24)) mean_layer turns (mkTensor [1; 1]%nat [v]).
Proof.
  intros C. exists (mkTensor [1; 1]%nat [average [average [leaf big; leaf 1%Qc; leaf 1%Qc; leaf (- big)%Qc]]]).
  split; [vm_compute; reflexivity|]. split; [reflexivity|]. cbn [data]. apply Forall2_cons; [|apply Forall2_nil].
  apply (calculates_average _ _ [v] v); [apply Forall2_cons; [exact C|apply Forall2_nil]|apply ev_number|].
  cbn [List.length]. unfold close. assert (E : this (v / Q2Qc (inject_Z (Z.of_nat 1)))%Qc == v) by (assert (E : (v / Q2Qc (inject_Z (Z.of_nat 1)) = v)%Qc) by (change (Q2Qc (inject_Z (Z.of_nat 1))) with 1%Qc; field; discriminate); rewrite E; reflexivity).
  rewrite E. setoid_replace (v - v) with 0 by ring. change (Qabs 0) with 0. apply Qmult_le_0_compat; [vm_compute; discriminate|apply Qabs_nonneg].
Qed.

Lemma leaves u vs : Forall2 (calculates u) (map leaf vs) vs.
Proof. induction vs as [|v vs IH]; cbn [map]; constructor; [apply calculates_leaf|exact IH]. Qed.

Example C94_case : may_average_globally (2 ^ (-24)) mean_layer turns (mkTensor [1; 1]%nat [0%Qc]).
Proof.
  apply four_values. apply (calculates_average _ _ [big; 1; 1; - big]%Qc 0%Qc).
  - exact (leaves _ [big; 1; 1; - big]%Qc).
  - apply (ev_sum _ [[big]; [1%Qc]; [1%Qc]] [[(- big)%Qc]] big (- big)%Qc); [discriminate|discriminate| |apply ev_number|apply close_by_computation; vm_compute; reflexivity].
    apply (ev_sum _ [[big]; [1%Qc]] [[1%Qc]] big 1%Qc); [discriminate|discriminate| |apply ev_number|apply close_by_computation; vm_compute; reflexivity].
    apply (ev_sum _ [[big]] [[1%Qc]] big 1%Qc); [discriminate|discriminate|apply ev_number|apply ev_number|apply close_by_computation; vm_compute; reflexivity].
  - apply close_by_computation. vm_compute. reflexivity.
Qed.

Example C94_case_exact : may_average_globally (2 ^ (-24)) mean_layer turns (mkTensor [1; 1]%nat [Q2Qc (1 # 2)]) /\
  @global_call Qc exact_Qc exact_pool mean_layer turns = Ok (mkTensor [1; 1]%nat [Q2Qc (1 # 2)]).
Proof.
  split.
  - apply four_values. apply (calculates_average _ _ [big; 1; 1; - big]%Qc (Q2Qc 2)).
    + exact (leaves _ [big; 1; 1; - big]%Qc).
    + apply (ev_sum _ [[big]; [1%Qc]; [1%Qc]] [[(- big)%Qc]] big2 (- big)%Qc); [discriminate|discriminate| |apply ev_number|apply close_by_computation; vm_compute; reflexivity].
      apply (ev_sum _ [[big]] [[1%Qc]; [1%Qc]] big (Q2Qc 2)); [discriminate|discriminate|apply ev_number| |apply close_by_computation; vm_compute; reflexivity].
      apply (ev_sum _ [[1%Qc]] [[1%Qc]] 1%Qc 1%Qc); [discriminate|discriminate|apply ev_number|apply ev_number|apply close_by_computation; vm_compute; reflexivity].
    + apply close_by_computation. vm_compute. reflexivity.
  - vm_compute. reflexivity.
Qed.

(** The bound of the theorem for this signal: at most 19. *)
Example C94_case_bound : Qle_bool (2 * average_error (2 ^ (-24)) (4 + 1) (2 ^ 24)) 19 = true.
Proof. vm_compute. reflexivity. Qed.

(** So average pooling in floating point is not exactly invariant. *)
Theorem C94_exact_invariance_refuted :
  ~ (forall y z, may_average_globally (2 ^ (-24)) mean_layer turns y -> may_average_globally (2 ^ (-24)) mean_layer turns z -> y = z).
Proof.
  intros H. specialize (H _ _ C94_case (proj1 C94_case_exact)). assert (E : this 0%Qc = this (Q2Qc (1 # 2))) by (apply (f_equal (fun t => this (nth 0 (data t) 0%Qc))) in H; exact H).
  vm_compute in E. discriminate E.
Qed.
Print Assumptions C94_exact_invariance_refuted.

(** A layer that pools P4 to P2 over windows of 2 x 2, with the exact means. *)
Example C94_case_layer :
  match test_pool 2 "average" (pooling "P4" "P2" (One 2) (Some (One 2)) (Some (Some "valid_equiv"))) (map Some [1; 2; 2; 4; 1]%nat) with
  | Ok L => exists y, @pool_call Qc exact_Qc exact_pool L (tmap (fun v => Q2Qc (inject_Z v)) (some_signal [1; 2; 2; 4; 1]%nat)) = Ok y /\ shape y = [1; 1; 1; 2; 1]%nat
  | Err _ => False
  end.
Proof. vm_compute. eexists. split; reflexivity. Qed.
