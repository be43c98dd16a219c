(** Calls with unknown sizes. *)
From Verif Require Export Traced UnknownFacts PoolTheorems.
Local Open Scope string_scope.
Local Open Scope list_scope.

(** ** Reshaping to partly unknown shapes *)

Definition fits (hs : sshape) (s : list nat) : Prop := Forall2 (fun o n => o = None \/ o = Some n) hs s.
Definition missing (hs : sshape) : nat := List.length (filter (fun o => match o with None => true | _ => false end) hs).

Lemma prod_positive s : (forall n, In n s -> 0 < n) -> 0 < prod s.
Proof.
  induction s as [|x s IH]; intros H; [cbn; lia|]. change (prod (x :: s)) with (x * prod s).
  pose proof (H x (or_introl eq_refl)). assert (0 < prod s) by (apply IH; intros n I; apply H; right; exact I). nia.
Qed.

Lemma missing_app a b : missing (a ++ b) = missing a + missing b.
Proof. unfold missing. rewrite filter_app. apply app_length. Qed.

Lemma missing_Some s : missing (map Some s) = 0.
Proof. induction s as [|x s IH]; [reflexivity|exact IH]. Qed.

Lemma fits_app a b s t : fits a s -> fits b t -> fits (a ++ b) (s ++ t).
Proof. apply Forall2_app. Qed.

Lemma fits_Some s : fits (map Some s) s.
Proof. induction s as [|x s IH]; constructor; [right; reflexivity|exact IH]. Qed.

Lemma fits_none hs s : fits hs s -> missing hs = 0 -> hs = map Some s.
Proof.
  intros F. induction F as [|o n hs s H F IH]; [reflexivity|]. intros M. destruct H as [-> | ->].
  - discriminate M.
  - cbn [map]. f_equal. apply IH. exact M.
Qed.

Lemma fits_one hs s : fits hs s -> missing hs = 1 ->
  exists a n b, s = a ++ n :: b /\ hs = map Some a ++ None :: map Some b.
Proof.
  intros F. induction F as [|o n hs s H F IH]; [discriminate|]. intros M. destruct H as [-> | ->].
  - exists [], n, s. split; [reflexivity|]. cbn [map app]. f_equal. apply fits_none; [exact F|]. unfold missing in *. cbn [filter List.length] in M. lia.
  - destruct (IH M) as [a [v [b [-> ->]]]]. exists (n :: a), v, b. split; reflexivity.
Qed.

Definition resolved (n : nat) (z : Z) : nat := if (z =? -1)%Z then n else Z.to_nat z.

Lemma filter_known s : filter (fun z => negb (z =? -1)%Z) (map Z.of_nat s) = map Z.of_nat s.
Proof. induction s as [|x s IH]; [reflexivity|]. cbn [map filter]. destruct (Z.eqb_spec (Z.of_nat x) (-1)); [lia|]. cbn [negb]. rewrite IH. reflexivity. Qed.

Lemma resolved_known n s : map (resolved n) (map Z.of_nat s) = s.
Proof.
  rewrite map_map. rewrite <- map_id. apply map_ext. intros x. unfold resolved. destruct (Z.eqb_spec (Z.of_nat x) (-1)); [lia|]. apply Nat2Z.id.
Qed.

Lemma resolve_fits hs s : fits hs s -> missing hs <= 1 -> (forall n, In n s -> 0 < n) ->
  resolve_shape (prod s) (format_batch_dim hs) = Ok s.
Proof.
  intros F M P. destruct (missing hs) as [|[|m]] eqn:E; [| |lia].
  - rewrite (fits_none hs s F E), format_batch_Some. apply resolve_nat. reflexivity.
  - destruct (fits_one hs s F E) as [a [n [b [-> ->]]]]. unfold format_batch_dim. rewrite map_app. cbn [map].
    rewrite !map_map. change (fun x => Z.of_nat x) with Z.of_nat. unfold resolve_shape. rewrite filter_app. cbn [filter Z.eqb negb Pos.eqb].
    rewrite !filter_known, <- map_app.
    assert (FB : forallb (fun z => (0 <=? z)%Z) (map Z.of_nat (a ++ b)) = true).
    { apply forallb_forall. intros z I. apply in_map_iff in I as [v [<- _]]. apply Z.leb_le. lia. }
    rewrite FB. cbn [bind]. rewrite map_map.
    replace (map (fun x => Z.to_nat (Z.of_nat x)) (a ++ b)) with (a ++ b).
    2:{ rewrite <- (map_id (a ++ b)) at 1. apply map_ext. intros x. symmetry. apply Nat2Z.id. }
    replace (List.length (map Z.of_nat a ++ (-1)%Z :: map Z.of_nat b) - List.length (map Z.of_nat (a ++ b))) with 1.
    2:{ rewrite app_length. cbn [List.length]. rewrite !map_length, app_length. lia. }
    assert (PP : prod (a ++ n :: b) = n * prod (a ++ b)).
    { rewrite !prod_app. change (prod (n :: b)) with (n * prod b). lia. }
    assert (POS : 0 < prod (a ++ b)).
    { apply prod_positive. intros v I. apply P. apply in_app_iff in I as [I|I]; apply in_app_iff; [left|right; right]; exact I. }
    rewrite PP, Nat.mod_mul, Nat.div_mul by lia. destruct (Nat.ltb_spec 0 (prod (a ++ b))); [|lia]. cbn [andb Nat.eqb]. f_equal.
    rewrite map_app. cbn [map]. change (fun z : Z => if (z =? -1)%Z then n else Z.to_nat z) with (resolved n). rewrite !resolved_known. reflexivity.
Qed.

Lemma resolve_missing n hs : 2 <= missing hs -> exists e, resolve_shape n (format_batch_dim hs) = Err e.
Proof.
  intros M. unfold resolve_shape.
  assert (E : List.length (format_batch_dim hs) = missing hs + List.length (filter (fun z => negb (z =? -1)%Z) (format_batch_dim hs))).
  { clear M. unfold missing, format_batch_dim. induction hs as [|[v|] hs IH]; [reflexivity| |]; cbn [map filter List.length].
    - destruct (Z.eqb_spec (Z.of_nat v) (-1)); [lia|]. cbn [negb List.length]. lia.
    - cbn [Z.eqb negb Pos.eqb]. lia. }
  destruct (forallb _ _); [|exists ValueError; reflexivity]. cbn [bind]. rewrite E.
  replace (missing hs + List.length (filter (fun z => negb (z =? -1)%Z) (format_batch_dim hs)) - List.length (filter (fun z => negb (z =? -1)%Z) (format_batch_dim hs)))
    with (missing hs) by lia.
  destruct (missing hs) as [|[|k]]; [lia|lia|]. exists BackendError. reflexivity.
Qed.

(** ** Static shapes *)

Lemma traced_cons u v s : traced_shape u (v :: s) = (if u 0 then None else Some v) :: traced_shape (fun ax => u (S ax)) s.
Proof. unfold traced_shape. cbn [List.length seq map nth]. f_equal. rewrite <- seq_shift, map_map. reflexivity. Qed.

Lemma length_traced u s : List.length (traced_shape u s) = List.length s.
Proof. unfold traced_shape. rewrite map_length. apply seq_length. Qed.

Lemma fits_traced u s : fits (traced_shape u s) s.
Proof.
  revert u. induction s as [|v s IH]; intros u; [constructor|]. rewrite traced_cons. constructor; [|apply IH]. destruct (u 0); [left|right]; reflexivity.
Qed.

Lemma traced_app u s t : (forall ax, List.length s <= ax -> u ax = false) -> traced_shape u (s ++ t) = traced_shape u s ++ map Some t.
Proof.
  revert u. induction s as [|v s IH]; intros u H.
  - cbn [app]. change (traced_shape u []) with (@nil (option nat)). cbn [app]. revert u H. induction t as [|w t IH]; intros u H; [reflexivity|].
    rewrite traced_cons, H by (cbn; lia). cbn [map]. f_equal. apply IH. intros ax L. apply H. cbn. lia.
  - cbn [app]. rewrite !traced_cons. cbn [app]. f_equal. apply IH. intros ax L. apply H. cbn [List.length]. lia.
Qed.

Lemma missing_traced u s : missing (traced_shape u s) = List.length (filter u (seq 0 (List.length s))).
Proof.
  unfold traced_shape, missing. generalize (seq 0 (List.length s)). intros l. induction l as [|x l IH]; [reflexivity|]. cbn [map filter].
  destruct (u x); cbn [List.length]; rewrite IH; reflexivity.
Qed.

Lemma one_missing u s : (forall i j, i < List.length s -> j < List.length s -> u i = true -> u j = true -> i = j) -> missing (traced_shape u s) <= 1.
Proof.
  intros H. rewrite missing_traced.
  assert (I : forall i, In i (filter u (seq 0 (List.length s))) -> i < List.length s /\ u i = true).
  { intros i X. apply filter_In in X as [X Y]. apply in_seq in X. split; [lia|exact Y]. }
  pose proof (NoDup_filter u (seq_NoDup (List.length s) 0)) as ND. destruct (filter u _) as [|i [|j l]]; [cbn; lia|cbn; lia|].
  exfalso. destruct (I i (or_introl eq_refl)) as [I1 I2]. destruct (I j (or_intror (or_introl eq_refl))) as [J1 J2].
  rewrite (H i j I1 J1 I2 J2) in ND. inversion ND as [|? ? NI _]; subst. apply NI. left. reflexivity.
Qed.

Lemma two_missing u s i j : i < List.length s -> j < List.length s -> u i = true -> u j = true -> i <> j -> 2 <= missing (traced_shape u s).
Proof.
  intros I J UI UJ NE. rewrite missing_traced. change 2 with (List.length [i; j]). apply NoDup_incl_length.
  - constructor; [intros [E|[]]; congruence|]. constructor; [intros []|constructor].
  - intros v [<-|[<-|[]]]; apply filter_In; (split; [apply in_seq; lia|assumption]).
Qed.

Lemma split_partly_known d bs (sp : sshape) v k : List.length sp = d -> k <> 0 ->
  split_shapes (bs :: sp ++ [Some v]) k (Z.of_nat (d + 1)) = Ok (bs :: sp ++ [Some k; Some (v / k)]).
Proof.
  intros L K. unfold split_shapes. assert (LL : List.length (bs :: sp ++ [Some v]) = d + 2) by (cbn [List.length]; rewrite app_length; cbn [List.length]; lia).
  rewrite (py_nth_nat _ (d + 1) None) by lia. cbn [bind].
  replace (nth (d + 1) (bs :: sp ++ [Some v]) None) with (Some v).
  2:{ replace (d + 1) with (S d) by lia. cbn [nth]. rewrite app_nth2 by lia. rewrite L, Nat.sub_diag. reflexivity. }
  destruct (Nat.eqb_spec k 0); [contradiction|]. cbn [bind negb]. rewrite py_set_nat by lia. cbn [bind].
  replace (d + 1) with (List.length (bs :: sp)) by (cbn [List.length]; lia).
  change (bs :: sp ++ [Some v]) with ((bs :: sp) ++ [Some v]). rewrite upd_app.
  rewrite py_upto_nat, py_from_nat by (rewrite app_length; lia). rewrite firstn_app_exact, skipn_app_exact by reflexivity. reflexivity.
Qed.

(** ** Merging and restoring the group axis *)

Section Traced.
Context {A : Type} {RA : Arith A}.

Definition positive (s : list nat) : Prop := forall n, In n s -> 0 < n.

Lemma merge_st_reshape d hs (x : tensor A) b m g c : List.length hs = d + 1 -> List.length m = d -> wf x -> shape x = b :: m ++ [g; c] ->
  merge_axes_st (hs ++ [Some g; Some c]) x (Z.of_nat (d + 1)) (Z.of_nat (d + 2)) = reshape x (format_batch_dim (hs ++ [Some (g * c)])).
Proof.
  intros LH L W SH. destruct hs as [|hb hs]; [cbn in LH; lia|]. unfold merge_axes_st. cbn [app].
  rewrite merge_partly_known by (cbn in LH; lia). cbn [bind]. unfold move_axis_to_left_of.
  destruct (Z.ltb_spec (Z.of_nat (d + 1)) (Z.of_nat (d + 2))); [|lia].
  replace (Z.of_nat (d + 2) - 1)%Z with (Z.of_nat (d + 1)) by lia.
  rewrite moveaxis_same; [reflexivity|exact W|]. unfold rank. rewrite SH. cbn [List.length]. rewrite app_length. cbn [List.length]. lia.
Qed.

Lemma reshape_fits (x : tensor A) hs s : wf x -> prod (shape x) = prod s -> fits hs s -> missing hs <= 1 -> positive s ->
  reshape x (format_batch_dim hs) = reshape x (format_batch_dim (map Some s)).
Proof.
  intros W P F M PO. unfold reshape. unfold wf in W. rewrite W, P, resolve_fits, resolve_fits; try assumption; [reflexivity|apply fits_Some|].
  rewrite missing_Some. lia.
Qed.

(** The axes after the spatial ones are known, and at most one of the others is not. *)
Definition all_but_one (u : nat -> bool) (d : nat) : Prop :=
  (forall ax, d < ax -> u ax = false) /\ (forall i j, u i = true -> u j = true -> i = j).
(** At least two are unknown. *)
Definition two_unknown (u : nat -> bool) (d : nat) : Prop :=
  (forall ax, d < ax -> u ax = false) /\ exists i j, i <> j /\ u i = true /\ u j = true.

Lemma traced_signal u d b m t : (forall ax, d < ax -> u ax = false) -> List.length m = d ->
  traced_shape u (b :: m ++ t) = traced_shape u (b :: m) ++ map Some t.
Proof. intros H L. change (b :: m ++ t) with ((b :: m) ++ t). apply traced_app. cbn [List.length]. intros ax X. apply H. lia. Qed.

Lemma merge_traced u d (x : tensor A) b m g c : all_but_one u d -> List.length m = d -> wf x -> shape x = b :: m ++ [g; c] -> positive (shape x) ->
  merge_axes_st (traced_shape u (shape x)) x (Z.of_nat (d + 1)) (Z.of_nat (d + 2)) = merge_axes x (Z.of_nat (d + 1)) (Z.of_nat (d + 2)).
Proof.
  intros [U O] L W SH P. unfold merge_axes. rewrite SH, (traced_signal u d) by assumption.
  change (map Some (b :: m ++ [g; c])) with (map Some ((b :: m) ++ [g; c])). rewrite map_app. cbn [map].
  rewrite (merge_st_reshape d _ x b m) by (try assumption; rewrite length_traced; cbn [List.length]; lia).
  change (Some b :: map Some m) with (map Some (b :: m)).
  rewrite (merge_st_reshape d _ x b m) by (try assumption; rewrite map_length; cbn [List.length]; lia).
  change [Some (g * c)] with (map Some [g * c]). rewrite <- map_app. apply reshape_fits; [exact W| | | |].
  - rewrite SH. change (b :: m ++ [g; c]) with ((b :: m) ++ [g; c]). rewrite !prod_app. cbn. lia.
  - apply fits_app; [apply fits_traced|apply fits_Some].
  - rewrite missing_app, missing_Some, Nat.add_0_r. apply one_missing. intros i j _ _. apply O.
  - rewrite SH in P. intros v I. apply in_app_iff in I as [I|[<-|[]]].
    + apply P. change (b :: m ++ [g; c]) with ((b :: m) ++ [g; c]). apply in_app_iff. left. exact I.
    + assert (0 < g) by (apply P; right; apply in_app_iff; right; left; reflexivity).
      assert (0 < c) by (apply P; right; apply in_app_iff; right; right; left; reflexivity). nia.
Qed.

Lemma merge_two u d (x : tensor A) b m g c : two_unknown u d -> List.length m = d -> wf x -> shape x = b :: m ++ [g; c] ->
  exists e, merge_axes_st (traced_shape u (shape x)) x (Z.of_nat (d + 1)) (Z.of_nat (d + 2)) = Err e.
Proof.
  intros [U [i [j [NE [UI UJ]]]]] L W SH. rewrite SH, (traced_signal u d) by assumption. cbn [map].
  rewrite (merge_st_reshape d _ x b m) by (try assumption; rewrite length_traced; cbn [List.length]; lia).
  unfold reshape. destruct (resolve_missing (List.length (data x)) (traced_shape u (b :: m) ++ [Some (g * c)])) as [e E].
  - rewrite missing_app. apply Nat.le_trans with (missing (traced_shape u (b :: m))); [|lia].
    assert (LT : forall v, u v = true -> v < List.length (b :: m)).
    { intros v V. cbn [List.length]. destruct (Nat.lt_ge_cases d v) as [H|H]; [rewrite (U v H) in V; discriminate V|lia]. }
    apply (two_missing u _ i j); auto.
  - exists e. rewrite E. reflexivity.
Qed.

Lemma split_traced u d (y : tensor A) b m v k : all_but_one u d -> List.length m = d -> wf y -> shape y = b :: m ++ [k * v] -> k <> 0 ->
  positive (shape y) ->
  split_axes_st (traced_shape u (shape y)) y k (Z.of_nat (d + 1)) = split_axes y k (Z.of_nat (d + 1)).
Proof.
  intros [U O] L W SH K P. unfold split_axes, split_axes_st. rewrite SH, (traced_signal u d) by assumption.
  change (map Some (b :: m ++ [k * v])) with (Some b :: map Some (m ++ [k * v])). rewrite map_app. cbn [map].
  rewrite split_partly_known by (try assumption; rewrite map_length; exact L).
  assert (TS : exists hb hs, traced_shape u (b :: m) = hb :: hs /\ List.length hs = d).
  { rewrite traced_cons. eexists. eexists. split; [reflexivity|]. rewrite length_traced. exact L. }
  destruct TS as [hb [hs [TS LH]]]. rewrite TS. cbn [app]. rewrite split_partly_known by assumption. cbn [bind].
  change (hb :: hs ++ [Some k; Some (k * v / k)]) with ((hb :: hs) ++ map Some [k; k * v / k]). rewrite <- TS.
  replace (Some b :: map Some m ++ [Some k; Some (k * v / k)]) with (map Some (b :: m ++ [k; k * v / k])) by (cbn [map]; rewrite map_app; reflexivity).
  rewrite (Nat.mul_comm k v), Nat.div_mul by exact K.
  apply reshape_fits; [exact W| | | |].
  - rewrite SH. change (b :: m ++ [k; v]) with ((b :: m) ++ [k; v]). change (b :: m ++ [k * v]) with ((b :: m) ++ [k * v]). rewrite !prod_app. cbn. lia.
  - change (b :: m ++ [k; v]) with ((b :: m) ++ [k; v]). apply fits_app; [apply fits_traced|apply fits_Some].
  - rewrite missing_app, missing_Some, Nat.add_0_r. apply one_missing. intros i j _ _. apply O.
  - rewrite SH in P. change (b :: m ++ [k; v]) with ((b :: m) ++ [k; v]). change (b :: m ++ [k * v]) with ((b :: m) ++ [k * v]) in P.
    assert (KV : 0 < k * v) by (apply P, in_app_iff; right; left; reflexivity).
    intros w I. apply in_app_iff in I as [I|[<-|[<-|[]]]]; [apply P, in_app_iff; left; exact I|nia|nia].
Qed.

Lemma split_two u d (y : tensor A) b m v k : two_unknown u d -> List.length m = d -> wf y -> shape y = b :: m ++ [v] ->
  exists e, split_axes_st (traced_shape u (shape y)) y k (Z.of_nat (d + 1)) = Err e.
Proof.
  intros [U [i [j [NE [UI UJ]]]]] L W SH. unfold split_axes_st. rewrite SH, (traced_signal u d) by assumption. cbn [map].
  assert (TS : exists hb hs, traced_shape u (b :: m) = hb :: hs /\ List.length hs = d).
  { rewrite traced_cons. eexists. eexists. split; [reflexivity|]. rewrite length_traced. exact L. }
  destruct TS as [hb [hs [TS LH]]]. rewrite TS. cbn [app].
  destruct (Nat.eq_dec k 0) as [-> |K].
  - unfold split_shapes. rewrite (py_nth_nat _ (d + 1) None) by (cbn [List.length]; rewrite app_length; cbn [List.length]; lia). cbn [bind].
    destruct (nth (d + 1) (hb :: hs ++ [Some v]) None); eexists; reflexivity.
  - rewrite split_partly_known by assumption. cbn [bind].
    change (hb :: hs ++ [Some k; Some (v / k)]) with ((hb :: hs) ++ map Some [k; v / k]). rewrite <- TS.
    unfold reshape. destruct (resolve_missing (List.length (data y)) (traced_shape u (b :: m) ++ map Some [k; v / k])) as [e E].
    + rewrite missing_app. apply Nat.le_trans with (missing (traced_shape u (b :: m))); [|lia].
      assert (LT : forall v, u v = true -> v < List.length (b :: m)).
      { intros w V. cbn [List.length]. destruct (Nat.lt_ge_cases d w) as [H|H]; [rewrite (U w H) in V; discriminate V|lia]. }
      apply (two_missing u _ i j); auto.
    + exists e. rewrite E. reflexivity.
Qed.

End Traced.

(** ** Calls *)

Section Call.
Context {A : Type} {RA : Arith A}.
Context (G : group) (d : nat) (E : list symmetry) (eq : bool) (OK : group_ok G d E eq).

Section Layer.
Context (tr valued : bool) (act dom : list nat) (c C o : nat) (k s dl eb ea : list nat)
        (same ub : bool) (f : A -> A) (kinit binit : list nat -> A).

(** What the convolution itself returns, before the group axis is restored. *)
Lemma conv_outputs (L : conv_layer A) (x : tensor A) b m (X : nat -> list nat -> nat -> A) K kk bb ff xx y :
  conv_facts G d E eq tr valued act dom c C o k s dl eb ea same ub f kinit binit L ->
  List.length m = d -> merged d valued x b m C X -> cl_kernel L = Some K ->
  prepare_call (cl_gt L) K (cl_bias L) (cl_filters L) x = Ok (kk, bb, ff, xx) ->
  base_conv_call (gt_transpose (cl_gt L)) (cl_format L) (cl_strides L) (cl_dilation L) (cl_padding L) ff (cl_activation L) kk bb xx = Ok y ->
  wf y /\ exists mo, List.length mo = d /\ shape y = b :: mo ++ [List.length act * o] /\ (positive m -> positive mo).
Proof.
  intros F LM MG CK PR BC.
  destruct (sub_idx_facts _ _ _ _ OK _ _ (cf_act _ _ _ _ _ _ _ _ _ _ _ _ _ _ _ _ _ _ _ _ _ _ F)) as [_ [Ba [HA _]]].
  assert (NA : act <> []) by (intros ->; discriminate HA).
  destruct F. set (ke := vzip dilated k dl). set (m1 := padded eb m ea).
  assert (Lm1 : List.length m1 = d) by (apply length_padded; assumption).
  assert (LKE : List.length ke = d) by (unfold ke; rewrite length_vzip; lia).
  assert (EK : K = tab (k ++ (if tr then [o; C] else [C; o])) kinit) by congruence. clear CK cf_kernel.
  unfold prepare_call in PR.
  assert (MP : merge_group_axis_and_pad (cl_gt L) x = Ok (tab (b :: m1 ++ [C]) (sig3 d (bordered eb m X)))).
  { unfold merge_group_axis_and_pad. pose proof cf_dom as [DV _]. rewrite DV, cf_gaxis, cf_caxis. unfold merged in MG.
    destruct valued; rewrite MG; cbn [bind]; apply cf_pads; exact LM. }
  rewrite MP in PR. cbn [bind] in PR.
  rewrite (transform_kernel_eq G d E eq OK (cl_gt L) tr valued dom act c C o k K cf_dom Ba cf_k cf_fit cf_kidx) in PR by (rewrite EK; first [apply wf_tab|apply shape_tab]).
  cbn [bind] in PR.
  assert (BB : match cl_bias L with Some b => b <- repeat_bias (cl_gt L) b ;; Ok (Some b) | None => Ok None end
     = Ok (if ub then Some (tab [List.length act * o] (fun i => binit [nth 0 i 0 mod o])) else None)).
  { rewrite cf_bias. destruct ub; [|reflexivity]. rewrite (repeat_bias_eq _ act o binit (cf_bidx eq_refl)). reflexivity. }
  rewrite BB in PR. cbn [bind] in PR. rewrite cf_group, cf_act' in PR. cbn [bind] in PR. rewrite cf_filters in PR.
  assert (EY : forall (u v : tensor A * option (tensor A) * nat * tensor A), Ok u = Ok v -> u = v) by congruence. apply EY in PR. clear EY.
  apply pair_equal_spec in PR as [PR <-]. apply pair_equal_spec in PR as [PR <-]. apply pair_equal_spec in PR as [<- <-].
  unfold base_conv_call in BC. rewrite cf_fmt', cf_tr, cf_strides, cf_dilation, cf_padding, cf_activation in BC. unfold in_format in BC. cbn [String.eqb Ascii.eqb Bool.eqb] in BC.
  fold (padding_string same) in BC.
  assert (EY : forall u v : tensor A, Ok u = Ok v -> u = v) by congruence.
  assert (POS : positive m -> forall ax, ax < d -> 0 < nth ax m1 0).
  { intros P ax Hax. unfold m1. rewrite (nth_padded _ _ _ d) by assumption. assert (0 < nth ax m 0) by (apply P, nth_In; lia). lia. }
  destruct tr.
  - rewrite (conv_transpose_last_eq d b m1 C (List.length act * o) k (bordered eb m X)) in BC; try assumption; [|apply shape_tab].
    fold ke in BC. cbn [bind] in BC. pose proof (length_touts (padding_string same) m1 ke s d Lm1 LKE cf_s) as LO.
    match type of BC with context[tab _ (sig3 d ?y)] => set (Y := y) in BC end.
    rewrite (bias_activation d b (touts (padding_string same) m1 ke s) (List.length act) (o * List.length act) ub binit o Y f LO (Nat.mul_comm _ _)) in BC.
    apply EY in BC. rewrite <- BC. split; [apply wf_tab|]. exists (touts (padding_string same) m1 ke s). split; [exact LO|]. split; [apply shape_tab|].
    intros P v I. apply (In_nth _ _ 0) in I as [ax [Hax <-]]. rewrite LO in Hax. rewrite (nth_touts _ _ _ _ d) by assumption.
    pose proof (POS P ax Hax). pose proof (cf_spos ax Hax). unfold transpose_size. destruct (String.eqb _ _); nia.
  - set (pads := builtin_pads (padding_string same) m1 ke s). set (m2 := padded (map fst pads) m1 (map snd pads)).
    assert (LP : List.length pads = d) by (apply length_builtin; assumption).
    assert (Lm2 : List.length m2 = d) by (apply length_padded; rewrite ?map_length; assumption).
    rewrite (conv_last_eq d b m1 C (List.length act * o) k (bordered eb m X)) in BC; try assumption; [|apply shape_tab].
    fold ke in BC. fold pads in BC. fold m2 in BC.
    destruct (forallb _ (combine ke m2)) eqn:FB; cbn [bind] in BC; [|discriminate BC].
    pose proof (length_outs m2 ke s d Lm2 LKE cf_s) as LO.
    match type of BC with context[tab _ (sig3 d ?y)] => set (Y := y) in BC end.
    rewrite (bias_activation d b (outs m2 ke s) (List.length act) (o * List.length act) ub binit o Y f LO (Nat.mul_comm _ _)) in BC.
    apply EY in BC. rewrite <- BC. split; [apply wf_tab|]. exists (outs m2 ke s). split; [exact LO|]. split; [apply shape_tab|].
    intros P v I. unfold outs in I. rewrite (axes_as_map out_size m2 ke s d Lm2 LKE cf_s) in I. apply in_map_iff in I as [ax [<- _]]. unfold out_size. lia.
Qed.

Lemma conv_call_one_unknown u (L : conv_layer A) (x : tensor A) b m g :
  conv_facts G d E eq tr valued act dom c C o k s dl eb ea same ub f kinit binit L -> cl_channels L = Some c ->
  C = (if valued then g * c else c) -> List.length m = d -> wf x -> shape x = input_shape valued b m g c -> positive (shape x) ->
  all_but_one u d -> conv_apply_traced u L x = conv_apply L x.
Proof.
  intros F CC EC LM W SH P U.
  destruct (sub_idx_facts _ _ _ _ OK _ _ (cf_act _ _ _ _ _ _ _ _ _ _ _ _ _ _ _ _ _ _ _ _ _ _ F)) as [_ [_ [HA _]]].
  assert (NA : List.length act <> 0) by (destruct act; [discriminate HA|discriminate]).
  pose proof (merged_input d valued x b m g c W LM SH) as MG. rewrite <- EC in MG.
  assert (M : merge_group_axis_and_pad_traced u (cl_gt L) x = merge_group_axis_and_pad (cl_gt L) x).
  { unfold merge_group_axis_and_pad_traced, merge_group_axis_and_pad. pose proof (cf_dom _ _ _ _ _ _ _ _ _ _ _ _ _ _ _ _ _ _ _ _ _ _ F) as [DV _].
    rewrite DV, (cf_gaxis _ _ _ _ _ _ _ _ _ _ _ _ _ _ _ _ _ _ _ _ _ _ F), (cf_caxis _ _ _ _ _ _ _ _ _ _ _ _ _ _ _ _ _ _ _ _ _ _ F).
    destruct valued; [|reflexivity]. rewrite (merge_traced u d x b m g c) by assumption. reflexivity. }
  assert (CE : conv_call_traced u L x = conv_call L x).
  { unfold conv_call_traced, conv_call. destruct (cl_kernel L) as [K|] eqn:CK; [|reflexivity].
    assert (PE : prepare_call_traced u (cl_gt L) K (cl_bias L) (cl_filters L) x = prepare_call (cl_gt L) K (cl_bias L) (cl_filters L) x).
    { unfold prepare_call_traced, prepare_call. rewrite M. reflexivity. }
    rewrite PE. destruct (prepare_call _ K _ _ x) as [[[[kk bb] ff] xx]|e] eqn:PR; [|reflexivity].
    cbn [cl_set_weights cl_filters cl_bias].
    destruct (base_conv_call _ _ _ _ _ _ _ _ _ _) as [y|e] eqn:BC; [|reflexivity]. cbn [bind].
    destruct (conv_outputs L x b m _ K kk bb ff xx y F LM MG CK PR BC) as [WY [mo [LO [SY PO]]]].
    assert (RE : restore_group_axis_traced u (cl_gt L) y = restore_group_axis (cl_gt L) y).
    { unfold restore_group_axis_traced, restore_group_axis. pose proof (cf_opos _ _ _ _ _ _ _ _ _ _ _ _ _ _ _ _ _ _ _ _ _ _ F) as OP. destruct F. pose proof cf_dom as [DV _]. rewrite DV, cf_fmt, cf_caxis, cf_group, cf_act'.
      cbn [bind String.eqb Ascii.eqb Bool.eqb]. rewrite andb_true_r.
      replace (if valued then (Z.of_nat (if valued then d + 2 else d + 1) - 1)%Z else Z.of_nat (if valued then d + 2 else d + 1))
        with (Z.of_nat (d + 1)) by (destruct valued; lia).
      assert (PB : 0 < b /\ positive m).
      { rewrite SH in P. unfold input_shape in P. split; [apply P; left; reflexivity|]. intros v I. apply P. right. apply in_app_iff. left. exact I. }
      rewrite (split_traced u d y b mo o (List.length act)); [reflexivity|assumption..|].
      rewrite SY. destruct PB as [B1 B2]. intros v [<-|I]; [exact B1|]. apply in_app_iff in I as [I|[<-|[]]]; [apply PO; assumption|nia]. }
    rewrite RE. reflexivity. }
  unfold conv_apply_traced, conv_apply. rewrite CE. reflexivity.
Qed.

Lemma conv_call_two_unknown u (L : conv_layer A) (x : tensor A) b m g :
  conv_facts G d E eq tr valued act dom c C o k s dl eb ea same ub f kinit binit L -> cl_channels L = Some c ->
  C = (if valued then g * c else c) -> List.length m = d -> wf x -> shape x = input_shape valued b m g c ->
  two_unknown u d -> exists e, snd (conv_apply_traced u L x) = Err e.
Proof.
  intros F CC EC LM W SH U.
  pose proof (merged_input d valued x b m g c W LM SH) as MG. rewrite <- EC in MG.
  assert (CE : exists e, snd (conv_call_traced u L x) = Err e).
  { unfold conv_call_traced. destruct (cl_kernel L) as [K|] eqn:CK; [|eexists; reflexivity].
    destruct (prepare_call_traced u (cl_gt L) K (cl_bias L) (cl_filters L) x) as [[[[kk bb] ff] xx]|e] eqn:PT; [|eexists; reflexivity].
    assert (V : valued = false).
    { destruct valued; [|reflexivity]. exfalso. unfold prepare_call_traced, merge_group_axis_and_pad_traced in PT.
      pose proof (cf_dom _ _ _ _ _ _ _ _ _ _ _ _ _ _ _ _ _ _ _ _ _ _ F) as [DV _].
      rewrite DV, (cf_gaxis _ _ _ _ _ _ _ _ _ _ _ _ _ _ _ _ _ _ _ _ _ _ F), (cf_caxis _ _ _ _ _ _ _ _ _ _ _ _ _ _ _ _ _ _ _ _ _ _ F) in PT.
      destruct (merge_two u d x b m g c U LM W SH) as [e ME]. rewrite ME in PT. discriminate PT. }
    assert (PR : prepare_call (cl_gt L) K (cl_bias L) (cl_filters L) x = Ok (kk, bb, ff, xx)).
    { rewrite <- PT. unfold prepare_call_traced, prepare_call, merge_group_axis_and_pad_traced, merge_group_axis_and_pad.
      pose proof (cf_dom _ _ _ _ _ _ _ _ _ _ _ _ _ _ _ _ _ _ _ _ _ _ F) as [DV _]. rewrite DV, V. reflexivity. }
    cbn [cl_set_weights cl_filters cl_bias].
    destruct (base_conv_call _ _ _ _ _ _ _ _ _ _) as [y|e] eqn:BC; [|eexists; reflexivity]. cbn [bind].
    destruct (conv_outputs L x b m _ K kk bb ff xx y F LM MG CK PR BC) as [WY [mo [LO [SY PO]]]].
    assert (RE : exists e, restore_group_axis_traced u (cl_gt L) y = Err e).
    { unfold restore_group_axis_traced. destruct F. pose proof cf_dom as [DV _]. rewrite DV, cf_fmt, cf_caxis, cf_group, cf_act'.
      cbn [bind String.eqb Ascii.eqb Bool.eqb]. rewrite andb_true_r.
      replace (if valued then (Z.of_nat (if valued then d + 2 else d + 1) - 1)%Z else Z.of_nat (if valued then d + 2 else d + 1))
        with (Z.of_nat (d + 1)) by (destruct valued; lia).
      destruct (split_two u d y b mo (List.length act * o) (List.length act) U LO WY SY) as [e SE]. rewrite SE. exists e. reflexivity. }
    destruct RE as [e RE]. rewrite RE. exists e. reflexivity. }
  unfold conv_apply_traced. rewrite CC. destruct (_ <? _)%nat; [eexists; reflexivity|]. destruct (_ =? _)%nat; [exact CE|eexists; reflexivity].
Qed.

End Layer.
End Call.

Section Pooling.
Context {A : Type} {RA : Arith A} {PA : Pool A}.
Context (G : group) (d : nat) (E : list symmetry) (eq : bool) {d0 : nat} (OK : group_ok G d0 E eq).
Notation n := (List.length E).

Lemma pool_traced_option u L (x y : tensor A) : po_format L = "channels_last" -> pool_call_traced u L x = Ok y -> mem_str (lower (po_padding L)) ["valid"; "same"] = true.
Proof.
  intros PF. unfold pool_call_traced. destruct (subgroup_pooling _ _ x) as [x1|]; [|discriminate]. cbn [bind].
  destruct (merge_group_axis_and_pad_traced _ _ x1) as [x2|]; [|discriminate]. cbn [bind]. unfold pool_op, in_format. rewrite PF.
  cbn [String.eqb Ascii.eqb Bool.eqb]. unfold pool_last. destruct (_ && _); [|discriminate].
  destruct (mem_str _ _); [reflexivity|discriminate].
Qed.

Lemma pool_call_one_unknown u sub cos k s eb ea same t L (x : tensor A) b m c :
  pool_facts (A := A) G d E sub cos k s eb ea same t L -> sub <> [] -> List.length m = d -> wf x -> shape x = b :: m ++ [n; c] -> positive (shape x) ->
  all_but_one u d -> pool_call_traced u L x = pool_call L x.
Proof.
  intros F NE Lm W SH P U. rewrite (tensor_sig4 d b m n c x W Lm SH). set (X := fun4 x). rewrite SH in P. clearbody X. clear x W SH.
  assert (NS : List.length sub <> 0) by (destruct sub; [contradiction|discriminate]).
  assert (PB : 0 < b) by (apply P; left; reflexivity).
  assert (PM : positive m) by (intros v I; apply P; right; apply in_app_iff; left; exact I).
  assert (PC : 0 < c) by (apply P; right; apply in_app_iff; right; right; left; reflexivity).
  destruct F. unfold pool_call_traced, pool_call. rewrite (subgroup_pooling_eq G d E eq OK _ (po_gt L) sub cos) by assumption. cbn [bind].
  unfold merge_group_axis_and_pad_traced, merge_group_axis_and_pad. rewrite pf_valued, pf_gaxis, pf_caxis.
  rewrite (merge_traced u d _ b m (List.length sub) c); [|exact U|exact Lm|apply wf_tab|apply shape_tab|].
  2:{ rewrite shape_tab. intros v [<-|I]; [exact PB|]. apply in_app_iff in I as [I|[<-|[<-|[]]]]; [apply PM; exact I|lia|exact PC]. }
  rewrite merge_group by exact Lm. cbn [bind]. rewrite (pf_pads b m) by exact Lm. cbn [bind]. set (m1 := padded eb m ea).
  assert (Lm1 : List.length m1 = d) by (apply length_padded; assumption).
  unfold pool_op, in_format. rewrite pf_fmt'. cbn [String.eqb Ascii.eqb Bool.eqb].
  rewrite pf_type, pf_size, pf_strides. rewrite (pool_last_eq d b m1 _ k _ _ s (po_padding L) same) by assumption.
  set (pads := builtin_pads (padding_string same) m1 k s). set (m2 := padded (map fst pads) m1 (map snd pads)).
  assert (LP : List.length pads = d) by (apply length_builtin; assumption).
  assert (Lm2 : List.length m2 = d) by (apply length_padded; rewrite ?map_length; assumption).
  destruct (forallb _ (combine k m2)) eqn:FB; [|reflexivity]. cbn [bind].
  assert (LO : List.length (outs m2 k s) = d) by (apply length_outs; assumption).
  unfold restore_group_axis_traced, restore_group_axis. rewrite pf_valued, pf_fmt, pf_caxis, pf_group, pf_act.
  cbn [bind String.eqb Ascii.eqb Bool.eqb andb]. replace (Z.of_nat (d + 2) - 1)%Z with (Z.of_nat (d + 1)) by lia.
  rewrite (split_traced u d _ b (outs m2 k s) c (List.length sub)); [reflexivity|exact U|exact LO|apply wf_tab|apply shape_tab|exact NS|].
  rewrite shape_tab. intros v [<-|I]; [exact PB|]. apply in_app_iff in I as [I|[<-|[]]]; [|nia].
  unfold outs in I. rewrite (axes_as_map out_size m2 k s d Lm2 pf_k pf_s) in I. apply in_map_iff in I as [ax [<- _]]. unfold out_size. lia.
Qed.

Lemma pool_call_two_unknown u sub cos k s eb ea same t L (x : tensor A) b m c :
  pool_facts (A := A) G d E sub cos k s eb ea same t L -> List.length m = d -> wf x -> shape x = b :: m ++ [n; c] ->
  two_unknown u d -> exists e, pool_call_traced u L x = Err e.
Proof.
  intros F Lm W SH U. rewrite (tensor_sig4 d b m n c x W Lm SH). set (X := fun4 x). clearbody X. clear x W SH.
  destruct F. unfold pool_call_traced. rewrite (subgroup_pooling_eq G d E eq OK _ (po_gt L) sub cos) by assumption. cbn [bind].
  unfold merge_group_axis_and_pad_traced. rewrite pf_valued, pf_gaxis, pf_caxis.
  edestruct (merge_two u d) as [e ME]; [exact U|exact Lm| | |rewrite ME; exists e; reflexivity]; [apply wf_tab|apply shape_tab].
Qed.

End Pooling.
