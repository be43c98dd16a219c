(** [check_equivariance] computes zero exactly for commuting layers. *)
From Verif Require Export SliceFacts CheckSpec.
Local Open Scope string_scope.
Local Open Scope list_scope.

Section Slices.
Context {A : Type} {ZA : Zero A}.

Lemma wf_slice k u (x : tensor A) : wf (slice k u x).
Proof. apply wf_tab. Qed.

Lemma shape_slice0 u (x : tensor A) g s : shape x = g :: s -> shape (slice 0 u x) = s.
Proof. intros S. unfold slice. rewrite S. reflexivity. Qed.

Lemma at_slice0 u (x : tensor A) g s i : shape x = g :: s -> inb s i -> at_ (slice 0 u x) i = at_ x (u :: i).
Proof. intros S I. unfold slice. rewrite S. rewrite at_tab by exact I. rewrite insert_at_0. reflexivity. Qed.

Lemma slices_ext (x y : tensor A) g s : wf x -> wf y -> shape x = g :: s -> shape y = g :: s ->
  (forall u, u < g -> slice 0 u x = slice 0 u y) -> x = y.
Proof.
  intros WX WY SX SY H. apply tensor_ext; try assumption; [congruence|]. intros i I. rewrite SX in I.
  destruct i as [|u i]; [inversion I|]. apply inb_cons in I as [U I].
  rewrite <- (at_slice0 u x g s i SX I), <- (at_slice0 u y g s i SY I). rewrite (H u U). reflexivity.
Qed.

(** Numpy subtraction of tensors of the same shape. *)
Lemma broadcast_same {B} (f : A -> A -> B) (x y : tensor A) : shape x = shape y ->
  broadcast f x y = Ok (tab (shape x) (fun i => f (at_ x i) (at_ y i))).
Proof.
  intros S. unfold broadcast, rank. rewrite <- S, Nat.max_id. unfold lead_ones. rewrite Nat.sub_diag. cbn [repeat app].
  replace (broadcast_ok (shape x) (shape x)) with true.
  2:{ symmetry. unfold broadcast_ok. apply forallb_forall. intros [a b] I.
      assert (a = b) by (clear S; induction (shape x) as [|n l IH]; [destruct I|destruct I as [I|I]; [congruence|auto]]).
      cbn [fst snd]. subst b. rewrite Nat.eqb_refl. reflexivity. }
  assert (SS : map (fun p => if (fst p =? 1)%nat then snd p else fst p) (combine (shape x) (shape x)) = shape x).
  { clear S. induction (shape x) as [|n l IH]; [reflexivity|]. cbn [combine map fst snd]. rewrite IH. destruct (n =? 1)%nat; reflexivity. }
  rewrite SS. f_equal. apply tab_ext. intros i I.
  assert (BS : broadcast_src (shape x) i = i).
  { unfold broadcast_src. rewrite (inb_length _ _ I), Nat.sub_diag. cbn [skipn]. clear S SS. revert I. generalize (shape x). induction i as [|v i IH]; intros s I.
    - destruct s; reflexivity.
    - destruct s as [|n s]; [inversion I|]. apply inb_cons in I as [V I]. cbn [combine map fst snd]. rewrite IH by exact I.
      destruct (Nat.eqb_spec n 1); f_equal; lia. }
  rewrite BS. reflexivity.
Qed.

Lemma at_sample bi (x : tensor A) b s i : shape x = b :: s -> inb s i -> at_ (sample bi x) (0 :: i) = at_ x (bi :: i).
Proof.
  intros S I. rewrite <- (at_slice0 bi x b s i S I). unfold sample, read_as, at_. cbn [shape data].
  rewrite (shape_slice0 bi x b s S), S. cbn [tl ravel]. reflexivity.
Qed.

Lemma shape_sample bi (x : tensor A) b s : shape x = b :: s -> shape (sample bi x) = 1 :: s.
Proof. intros S. unfold sample. rewrite S. reflexivity. Qed.

Lemma wf_sample bi (x : tensor A) b s : shape x = b :: s -> wf (sample bi x).
Proof.
  intros S. unfold sample, read_as, wf. cbn [shape data]. rewrite S. cbn [tl]. pose proof (wf_slice 0 bi x) as W. unfold wf in W.
  rewrite (shape_slice0 bi x b s S) in W. rewrite W. symmetry. apply Nat.mul_1_l.
Qed.

Lemma samples_ext (x y : tensor A) b s : wf x -> wf y -> shape x = b :: s -> shape y = b :: s ->
  (forall bi, bi < b -> sample bi x = sample bi y) -> x = y.
Proof.
  intros WX WY SX SY H. apply tensor_ext; try assumption; [congruence|]. intros i I. rewrite SX in I.
  destruct i as [|u i]; [inversion I|]. apply inb_cons in I as [U I].
  rewrite <- (at_sample u x b s i SX I), <- (at_sample u y b s i SY I). rewrite (H u U). reflexivity.
Qed.

Lemma tab_sample bi b s (f : list nat -> A) : bi < b -> sample bi (tab (b :: s) f) = tab (1 :: s) (fun i => f (bi :: tl i)).
Proof.
  intros B. apply tensor_ext; [apply (wf_sample _ _ b s), shape_tab|apply wf_tab|rewrite shape_tab; apply (shape_sample _ _ b s), shape_tab|].
  intros i I. rewrite (shape_sample _ _ b s) in I by apply shape_tab. destruct i as [|v i]; [inversion I|]. pose proof I as I'. apply inb_cons in I as [V I].
  assert (v = 0) as -> by lia. rewrite (at_sample bi _ b s) by (try exact I; apply shape_tab). rewrite at_tab by (apply inb_cons; auto).
  rewrite at_tab by exact I'. reflexivity.
Qed.

(** Sample [bi] of batch [u] in a tensor of batches. *)
Lemma sample_of_batches u bi (x : tensor A) g b s : u < g -> bi < b -> shape x = g :: b :: s ->
  sample bi (slice 0 u x) = sample (u * b + bi) (read_as (g * b :: s) x).
Proof.
  intros U B S. pose proof (shape_slice0 u x g (b :: s) S) as S1.
  apply tensor_ext; [apply (wf_sample _ _ b s S1)|apply (wf_sample _ _ (g * b) s); reflexivity| |].
  - rewrite (shape_sample _ _ b s S1), (shape_sample _ _ (g * b) s) by reflexivity. reflexivity.
  - intros i I. rewrite (shape_sample _ _ b s S1) in I. destruct i as [|v i]; [inversion I|]. apply inb_cons in I as [V I].
    assert (v = 0) as -> by lia. rewrite (at_sample bi _ b s) by assumption. rewrite (at_slice0 u x g (b :: s)) by (try assumption; apply inb_cons; auto).
    rewrite (at_sample (u * b + bi) (read_as (g * b :: s) x) (g * b) s i) by (try exact I; reflexivity).
    unfold read_as, at_. cbn [shape data]. f_equal. rewrite S. cbn [ravel]. change (prod (b :: s)) with (b * prod s). ring.
Qed.

Lemma samplewise_batchwise s (layer : tensor A -> result (tensor A)) : samplewise s layer -> batchwise s layer.
Proof.
  intros SW x g b G0 W S.
  assert (W1 : wf (read_as (g * b :: s) x)) by (unfold wf, read_as; cbn [shape data]; rewrite W, S; unfold prod; cbn [fold_right]; ring).
  destruct SW as [[e SW]|[s' SW]].
  - rewrite (SW (read_as (g * b :: s) x) (g * b) W1 eq_refl). exists 0, e. split; [exact G0|].
    apply (SW _ b); [apply wf_slice|apply (shape_slice0 0 x g); exact S].
  - destruct (SW (read_as (g * b :: s) x) (g * b) W1 eq_refl) as [y [-> [WY [SY HY]]]]. split; [exact WY|]. exists s'. split; [exact SY|].
    intros u U. pose proof (shape_slice0 u x g (b :: s) S) as S1. destruct (SW (slice 0 u x) b (wf_slice _ _ _) S1) as [z [-> [WZ [SZ HZ]]]].
    f_equal. apply (samples_ext _ _ b s'); try assumption; [apply wf_slice|apply (shape_slice0 u _ g); reflexivity|].
    intros bi B. specialize (HZ bi B). rewrite (sample_of_batches u bi x g b s U B S) in HZ. rewrite HY in HZ by nia.
    rewrite (sample_of_batches u bi (read_as (g :: b :: s') y) g b s' U B eq_refl). 
    assert (HZ' : sample (u * b + bi) y = sample bi z) by congruence. rewrite <- HZ'.
    unfold read_as. cbn [data]. clear HY HZ HZ'. destruct y as [sy dy]. cbn [shape data] in *. rewrite SY. reflexivity.
Qed.

Lemma reshape_read (x : tensor A) s : wf x -> prod s = prod (shape x) -> reshape x (map Z.of_nat s) = Ok (read_as s x).
Proof. intros W P. unfold reshape. rewrite resolve_nat by (rewrite P; symmetry; exact W). reflexivity. Qed.

End Slices.

Section Check.
Context {A : Type} {RA : Arith A} {MA : Metric A}.
Context (G : group) (d : nat) (E : list symmetry) (eq : bool) (OK : group_ok G d E eq) (NE : g_name G <> "").
Notation n := (List.length E).

Lemma parse_parse s : parse_subgroup G (parse_subgroup G s) = parse_subgroup G s.
Proof.
  destruct s as [s|]; [|reflexivity]. cbn [parse_subgroup]. destruct (String.eqb_spec s "") as [->|N]; cbn [parse_subgroup].
  - destruct (String.eqb_spec (g_name G) ""); [contradiction|reflexivity].
  - destruct (String.eqb_spec s ""); [contradiction|reflexivity].
Qed.

Lemma action_parsed (x : tensor A) sp nga ga H K :
  action G x sp nga ga (parse_subgroup G H) (parse_subgroup G K) = action G x sp nga ga H K.
Proof. unfold action. rewrite !parse_parse. reflexivity. Qed.

Lemma action_slices (x gx : tensor A) sp ga H K act :
  wf x -> spatial_axes_ok d sp (rank x) -> subgroup_indices G H act -> signal_on G K sp ga x ->
  action G x (map Z.of_nat sp) 0 (option_map Z.of_nat ga) (Some H) K = Ok gx ->
  shape gx = List.length act :: shape x /\ wf gx /\ 0 < List.length act /\ slice 0 0 gx = x.
Proof.
  intros W SP SA SO R. destruct (sub_idx_facts _ _ _ _ OK _ _ SA) as [_ [BA [HD _]]].
  assert (LA : 0 < List.length act) by (destruct act; [discriminate HD|cbn [List.length]; lia]).
  assert (A0 : nth 0 act 0 = 0) by (destruct act; [discriminate HD|injection HD as ->; reflexivity]).
  change 0%Z with (Z.of_nat 0) in R. destruct K as [K|].
  - destruct SO as [a [dom [-> [Ha [NI [SD LG]]]]]]. cbn [option_map] in R.
    destruct (sub_idx_facts _ _ _ _ OK _ _ SD) as [NDd [Bd _]].
    apply (group_action_ok _ _ _ _ OK) with (act := act) (dom := dom) in R as [AC ->]; try assumption; [|lia].
    split; [apply shape_stk|]. split; [apply wf_stk|]. split; [exact LA|].
    rewrite slice_stk by (try exact LA; lia). etransitivity; [|apply (tab_at x W)]. apply tab_ext. intros i I.
    rewrite A0. assert (V : nth a i 0 < List.length dom) by (rewrite <- LG; apply inb_nth; [exact I|exact Ha]).
    rewrite (from_identity G d E eq OK) by (apply Bd, nth_In; exact V).
    rewrite (px_id G d E eq OK sp (shape x)) by assumption.
    unfold dom_at. rewrite (proj2 (mem_In _ _) (nth_In dom 0 V)), index_of_nth by assumption.
    rewrite upd_same. reflexivity.
  - apply (grid_action_ok _ _ _ _ OK) with (idx := act) in R as [AC ->]; try assumption; [|lia].
    split; [apply shape_stk|]. split; [apply wf_stk|]. split; [exact LA|].
    rewrite slice_stk by (try exact LA; lia). etransitivity; [|apply (tab_at x W)]. apply tab_ext. intros i I.
    rewrite A0. rewrite (px_id G d E eq OK sp (shape x)) by assumption. reflexivity.
Qed.

Lemma check_shape_ok (x : tensor A) sp ga K : signal_on G K sp ga x ->
  check_shape x (option_map Z.of_nat ga) G (parse_subgroup G K) = Ok tt.
Proof.
  unfold signal_on, check_shape. destruct K as [K|]; [|reflexivity]. intros [a [dom [-> [Ha [_ [SD LG]]]]]].
  unfold subgroup_indices, subgroup_get in SD. destruct (parse_subgroup G (Some K)) as [K'|]; [|discriminate SD].
  rewrite SD. cbn [bind option_map]. rewrite (py_nth_nat _ a 0) by exact Ha. cbn [bind]. rewrite LG, Nat.eqb_refl. reflexivity.
Qed.

Theorem check_decides (layer : tensor A -> result (tensor A)) (x gx y gy : tensor A) sp ga H K T act b s :
  measures_differences A -> batchwise s layer ->
  wf x -> shape x = b :: s -> spatial_axes_ok d sp (rank x) -> subgroup_indices G H act ->
  signal_on G K sp ga x -> layer x = Ok y -> data y <> [] -> spatial_axes_ok d sp (rank y) -> signal_on G T sp ga y ->
  action G x (map Z.of_nat sp) 0 (option_map Z.of_nat ga) (Some H) K = Ok gx ->
  action G y (map Z.of_nat sp) 0 (option_map Z.of_nat ga) (Some H) T = Ok gy ->
  (check_equivariance layer x G (map Z.of_nat sp) (option_map Z.of_nat ga) (Some H) K T = Ok zero <->
   forall u, u < List.length act -> layer (slice 0 u gx) = Ok (slice 0 u gy)).
Proof.
  intros [MD ML] BW W SH SP SA SO LX NEy SPy SOy RX RY.
  destruct (action_slices x gx sp ga H K act W SP SA SO RX) as [SGX [WGX [LA S0]]]. rewrite SH in SGX.
  specialize (BW gx (List.length act) b LA WGX SGX).
  unfold check_equivariance. rewrite (check_shape_ok x sp ga K SO), LX. cbn [bind]. rewrite (check_shape_ok y sp ga T SOy). cbn [bind].
  rewrite !action_parsed, RX, RY. cbn [bind]. unfold act_on_batched_transform. rewrite SGX.
  rewrite reshape_read by (try exact WGX; rewrite SGX; cbn; lia). cbn [bind].
  destruct (layer (read_as (List.length act * b :: s) gx)) as [out|e] eqn:LM; cbn [bind].
  2:{ split; [discriminate|]. intros C. destruct BW as [u [e' [U Q]]]. rewrite (C u U) in Q. discriminate Q. }
  destruct BW as [WO [s' [SO' BW]]]. rewrite SO'. cbn [skipn].
  rewrite reshape_read by (try exact WO; rewrite SO'; cbn; lia). cbn [bind].
  set (LG := read_as (List.length act :: b :: s') out) in *.
  assert (WLG : wf LG) by (unfold wf, LG, read_as; cbn [shape data]; rewrite WO, SO'; cbn; lia).
  assert (SLG : shape LG = List.length act :: b :: s') by reflexivity.
  assert (Y0 : y = slice 0 0 LG) by (rewrite <- S0 in LX; rewrite (BW 0 LA) in LX; congruence).
  assert (SY : shape y = b :: s') by (rewrite Y0; apply (shape_slice0 0 LG _ _ SLG)).
  assert (WY : wf y) by (rewrite Y0; apply wf_slice).
  destruct (action_slices y gy sp ga H T act WY SPy SA SOy RY) as [SGY [WGY _]]. rewrite SY in SGY.
  rewrite broadcast_same by congruence. cbn [bind data tab].
  set (l := map _ _).
  assert (NL : l <> []).
  { intros Q. apply NEy. apply length_zero_iff_nil. rewrite WY. apply (f_equal (@List.length A)) in Q. unfold l in Q. rewrite map_length, length_indices in Q.
    cbn [List.length] in Q. rewrite SLG in Q. rewrite SY. change (prod (List.length act :: b :: s')) with (List.length act * prod (b :: s')) in Q. nia. }
  assert (AD : forall v, In v l -> exists p q, v = absdiff p q).
  { intros v V. apply in_map_iff in V as [i [<- _]]. eauto. }
  specialize (ML l NL AD). split.
  - intros Q. assert (Z0 : largest l = zero) by congruence. apply ML in Z0 || (rewrite ML in Z0).
    assert (EQ : LG = gy).
    { apply tensor_ext; try assumption; [congruence|]. intros i I. apply MD, Z0. apply in_map_iff. exists i. split; [reflexivity|]. apply In_indices. exact I. }
    intros u U. rewrite <- EQ. apply BW. exact U.
  - intros C. f_equal. apply ML. intros v V. apply in_map_iff in V as [i [<- I]]. apply MD.
    assert (EQ : LG = gy).
    { apply (slices_ext LG gy (List.length act) (b :: s')); try assumption. intros u U. specialize (BW u U). rewrite (C u U) in BW. congruence. }
    rewrite EQ. reflexivity.
Qed.

End Check.
