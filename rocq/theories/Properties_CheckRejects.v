(** C111: what [check_equivariance] rejects, and with which exception. *)
From Verif Require Import AxisFacts LayerBatch Properties_Conv Properties_Pooling Properties_Checks GroupedFacts Properties_CheckShapes.
Local Open Scope string_scope.
Local Open Scope list_scope.

Section Rejects.
Context {A : Type} {RA : Arith A} {MA : Metric A}.

(** The tensor has one entry per element of the subgroup [K] at the group axis (which may be negative); without a
    subgroup there is nothing to fit. *)
Definition fits (G : group) (K : option string) (ga : option Z) (x : tensor A) : Prop :=
  match K with
  | None => True
  | Some K' => exists dom a k, subgroup_indices G K' dom /\ ga = Some a /\ names_axis (rank x) a k /\ nth k (shape x) 0 = List.length dom
  end.

(** The ways not to, with the exception each of them raises. *)
Inductive misfit (G : group) (K : option string) (ga : option Z) (x : tensor A) : exn -> Prop :=
| unknown_subgroup K' : K = Some K' -> (forall dom, ~ subgroup_indices G K' dom) -> misfit G K ga x KeyError
| no_group_axis K' dom : K = Some K' -> subgroup_indices G K' dom -> ga = None -> misfit G K ga x TypeError
| axis_outside K' dom a : K = Some K' -> subgroup_indices G K' dom -> ga = Some a -> (forall k, ~ names_axis (rank x) a k) ->
    misfit G K ga x IndexError
| other_size K' dom a k : K = Some K' -> subgroup_indices G K' dom -> ga = Some a -> names_axis (rank x) a k ->
    nth k (shape x) 0 <> List.length dom -> misfit G K ga x AssertionError.

Lemma norm_axis_cases r a : (exists k, names_axis r a k /\ norm_axis r a = Ok k) \/ ((forall k, ~ names_axis r a k) /\ norm_axis r a = Err IndexError).
Proof.
  destruct (Z_lt_ge_dec a (- Z.of_nat r)) as [L|L]; [right|destruct (Z_lt_ge_dec a 0) as [N|N]; [left|destruct (Z_lt_ge_dec a (Z.of_nat r)) as [M|M]; [left|right]]].
  - split; [intros k [Hk [->| ->]]; lia|]. unfold norm_axis. cbv zeta. destruct (Z.leb_spec 0 a); [lia|]. destruct (Z.leb_spec (- Z.of_nat r) a); [lia|]. reflexivity.
  - exists (Z.to_nat (a + Z.of_nat r)). assert (Q : names_axis r a (Z.to_nat (a + Z.of_nat r))) by (split; [lia|right; lia]). split; [exact Q|apply norm_axis_names; exact Q].
  - exists (Z.to_nat a). assert (Q : names_axis r a (Z.to_nat a)) by (split; [lia|left; lia]). split; [exact Q|apply norm_axis_names; exact Q].
  - split; [intros k [Hk [->| ->]]; lia|]. unfold norm_axis. cbv zeta. destruct (Z.ltb_spec a (Z.of_nat r)); [lia|]. destruct (Z.ltb_spec a 0); [lia|]. rewrite !andb_false_r. reflexivity.
Qed.

Lemma nth_error_nat (l : list nat) k : k < List.length l -> nth_error l k = Some (nth k l 0).
Proof. intros H. apply nth_error_nth'. exact H. Qed.

Lemma dict_get_err {B} (D : list (string * B)) k e : dict_get D k = Err e -> e = KeyError.
Proof. induction D as [|[k' v] D IH]; cbn [dict_get]; [congruence|]. destruct (String.eqb k k'); [discriminate|exact IH]. Qed.

Lemma check_shape_cases G K ga (x : tensor A) :
  (fits G K ga x /\ check_shape x ga G (parse_subgroup G K) = Ok tt) \/
  (exists e, misfit G K ga x e /\ check_shape x ga G (parse_subgroup G K) = Err e).
Proof.
  destruct K as [K|]; [|left; split; [exact I|reflexivity]].
  unfold check_shape. destruct (parse_subgroup G (Some K)) as [K'|] eqn:PK.
  2:{ exfalso. unfold parse_subgroup in PK. destruct (String.eqb K ""); discriminate PK. }
  destruct (dict_get (g_subgroup G) K') as [dom|e] eqn:DG.
  2:{ right. exists e. assert (NS : forall dom, ~ subgroup_indices G K dom) by (intros dom Q; unfold subgroup_indices, subgroup_get in Q; rewrite PK, DG in Q; discriminate Q).
      apply dict_get_err in DG. subst e. split; [exact (unknown_subgroup G _ ga x K eq_refl NS)|reflexivity]. }
  assert (SD : subgroup_indices G K dom) by (unfold subgroup_indices, subgroup_get; rewrite PK; exact DG).
  cbn [bind]. destruct ga as [a|]; [|right; exists TypeError; split; [exact (no_group_axis G _ _ x K dom eq_refl SD eq_refl)|reflexivity]].
  cbn [bind]. unfold py_nth. destruct (norm_axis_cases (List.length (shape x)) a) as [[k [NA ->]]|[NA ->]].
  2:{ right. exists IndexError. split; [exact (axis_outside G _ _ x K dom a eq_refl SD eq_refl NA)|reflexivity]. }
  cbn [bind]. rewrite nth_error_nat by apply NA. cbn [bind]. destruct (Nat.eqb_spec (nth k (shape x) 0) (List.length dom)) as [E|NE].
  - left. split; [|reflexivity]. exists dom, a, k. split; [exact SD|]. split; [reflexivity|]. split; [exact NA|exact E].
  - right. exists AssertionError. split; [exact (other_size G _ _ x K dom a k eq_refl SD eq_refl NA NE)|reflexivity].
Qed.

Lemma names_axis_unique r a k l : names_axis r a k -> names_axis r a l -> k = l.
Proof. intros [H [E|E]] [H' [E'|E']]; lia. Qed.

Lemma subgroup_unique G K u v : subgroup_indices G K u -> subgroup_indices G K v -> u = v.
Proof. unfold subgroup_indices. congruence. Qed.

Lemma fits_or_not G K ga (x : tensor A) e : fits G K ga x -> misfit G K ga x e -> False.
Proof.
  intros F M. destruct M as [K' -> NS|K' dom -> SD ->|K' dom a -> SD -> NA|K' dom a k -> SD -> NA NE]; destruct F as [dom' [a' [k' [SD' [EA [NA' L]]]]]].
  - exact (NS _ SD').
  - discriminate EA.
  - assert (a' = a) as -> by congruence. exact (NA _ NA').
  - assert (a' = a) as -> by congruence. rewrite (names_axis_unique _ _ _ _ NA NA') in NE. rewrite (subgroup_unique _ _ _ _ SD SD') in NE. exact (NE L).
Qed.

Lemma misfit_unique G K ga (x : tensor A) e e' : misfit G K ga x e -> misfit G K ga x e' -> e = e'.
Proof.
  intros M M'. destruct M as [K' -> NS|K' dom -> SD ->|K' dom a -> SD -> NA|K' dom a k -> SD -> NA NE];
    destruct M' as [L' EK NS'|L' dom' EK SD' EA|L' dom' a' EK SD' EA NA'|L' dom' a' k' EK SD' EA NA' NE'];
    assert (L' = K') as -> by congruence; try reflexivity; try discriminate EA;
    try (exfalso; exact (NS _ SD')); try (exfalso; exact (NS' _ SD));
    assert (a' = a) as -> by congruence; exfalso; [exact (NA _ NA')|exact (NA' _ NA)].
Qed.

Lemma check_shape_fits G K ga (x : tensor A) : fits G K ga x -> check_shape x ga G (parse_subgroup G K) = Ok tt.
Proof. intros F. destruct (check_shape_cases G K ga x) as [[_ Q]|[e [M _]]]; [exact Q|exfalso; exact (fits_or_not _ _ _ _ _ F M)]. Qed.

Lemma check_shape_misfit G K ga (x : tensor A) e : misfit G K ga x e -> check_shape x ga G (parse_subgroup G K) = Err e.
Proof.
  intros M. destruct (check_shape_cases G K ga x) as [[F _]|[e' [M' Q]]]; [exfalso; exact (fits_or_not _ _ _ _ _ F M)|].
  rewrite (misfit_unique _ _ _ _ _ _ M M'). exact Q.
Qed.

(** A signal that is not on the domain group is rejected, whatever the layer: it is not called. *)
Theorem C111_signals_off_the_domain G layer (x : tensor A) sp ga H K T e :
  misfit G K ga x e -> check_equivariance layer x G sp ga H K T = Err e.
Proof. intros M. unfold check_equivariance. rewrite (check_shape_misfit _ _ _ _ _ M). reflexivity. Qed.

(** An exception of the layer is passed on; an output that is not on the target group is rejected. *)
Theorem C111_first_call G layer (x : tensor A) sp ga H K T :
  fits G K ga x ->
  (forall e, layer x = Err e -> check_equivariance layer x G sp ga H K T = Err e) /\
  (forall y e, layer x = Ok y -> misfit G T ga y e -> check_equivariance layer x G sp ga H K T = Err e).
Proof.
  intros F. unfold check_equivariance. rewrite (check_shape_fits _ _ _ _ F). cbn [bind].
  split; [intros e ->; reflexivity|]. intros y e -> M. cbn [bind]. rewrite (check_shape_misfit _ _ _ _ _ M). reflexivity.
Qed.

(** So a number is only returned if both fit, and every signal fits or raises one of the four exceptions. *)
Theorem C111_a_number_means_both_fit G layer (x : tensor A) sp ga H K T v :
  check_equivariance layer x G sp ga H K T = Ok v ->
  fits G K ga x /\ exists y, layer x = Ok y /\ fits G T ga y.
Proof.
  unfold check_equivariance. destruct (check_shape_cases G K ga x) as [[F ->]|[e [_ ->]]]; [|discriminate]. cbn [bind].
  destruct (layer x) as [y|e]; [|discriminate]. cbn [bind].
  destruct (check_shape_cases G T ga y) as [[F' ->]|[e [_ ->]]]; [|discriminate]. intros _. split; [exact F|]. exists y. split; [reflexivity|exact F'].
Qed.

Theorem C111_fits_or_raises G K ga (x : tensor A) :
  (fits G K ga x /\ forall e, ~ misfit G K ga x e) \/ (~ fits G K ga x /\ exists e, misfit G K ga x e).
Proof.
  destruct (check_shape_cases G K ga x) as [[F _]|[e [M _]]].
  - left. split; [exact F|]. intros e M. exact (fits_or_not _ _ _ _ _ F M).
  - right. split; [intros F; exact (fits_or_not _ _ _ _ _ F M)|exists e; exact M].
Qed.

(** An unknown acting group: for signals on a group the KeyError comes after the first call of the layer, for signals
    on the grid the action of the whole group is computed first; a number is never returned. *)
Theorem C111_unknown_acting_group G layer (x : tensor A) sp ga H K T :
  (forall act, subgroup_get G (parse_subgroup G H) <> Ok act) -> g_name G <> "" ->
  (forall v, check_equivariance layer x G sp ga H K T <> Ok v) /\
  (forall K' y, K = Some K' -> fits G K ga x -> layer x = Ok y -> fits G T ga y ->
    check_equivariance layer x G sp ga H K T = Err KeyError).
Proof.
  intros NH NE. assert (EK : subgroup_get G (parse_subgroup G H) = Err KeyError).
  { destruct (subgroup_get G (parse_subgroup G H)) as [act|e] eqn:Q; [exfalso; exact (NH act eq_refl)|]. f_equal.
    unfold subgroup_get in Q. destruct (parse_subgroup G H) as [h|]; [exact (dict_get_err _ _ _ Q)|congruence]. }
  split.
  - intros v. unfold check_equivariance. destruct (check_shape x ga G _); [|discriminate]. cbn [bind]. destruct (layer x) as [y|]; [|discriminate]. cbn [bind].
    destruct (check_shape y ga G _); [|discriminate]. cbn [bind]. rewrite (action_parsed G NE). unfold action.
    destruct (parse_subgroup G K) as [k|]; [destruct ga as [ga|]; [unfold action_on_group|]; rewrite EK; discriminate|].
    unfold action_on_grid. destruct (g__action G A _ x sp 0) as [w|]; [|discriminate]. cbn [bind]. rewrite EK. discriminate.
  - intros K' y -> F LX F'. unfold check_equivariance. rewrite (check_shape_fits _ _ _ _ F), LX. cbn [bind]. rewrite (check_shape_fits _ _ _ _ F'). cbn [bind].
    rewrite (action_parsed G NE). unfold action. destruct F as [dom [a [k [_ [-> _]]]]].
    destruct (parse_subgroup G (Some K')) as [k'|] eqn:PK; [|exfalso; unfold parse_subgroup in PK; destruct (String.eqb K' ""); discriminate PK].
    unfold action_on_group. rewrite EK. reflexivity.
Qed.

Lemma broadcast_cases {B} (f : A -> A -> B) (x y : tensor A) :
  ((forall a, a < rank x -> a < rank y -> from_end (shape x) a = from_end (shape y) a \/ from_end (shape x) a = 1 \/ from_end (shape y) a = 1) ->
    exists z, broadcast f x y = Ok z) /\
  ((exists a, a < rank x /\ a < rank y /\ from_end (shape x) a <> from_end (shape y) a /\ from_end (shape x) a <> 1 /\ from_end (shape y) a <> 1) ->
    broadcast f x y = Err BackendError).
Proof.
  split.
  - intros H. unfold broadcast. set (r := Nat.max (rank x) (rank y)). cbv zeta.
    destruct (broadcast_ok _ _) eqn:BO; [eexists; reflexivity|exfalso].
    assert (LL : forall s, List.length s <= r -> List.length (lead_ones r s) = r) by (intros s L; unfold lead_ones; rewrite app_length, repeat_length; lia).
    unfold rank in *. pose proof (LL (shape x) ltac:(lia)) as L1. pose proof (LL (shape y) ltac:(lia)) as L2.
    assert (T : broadcast_ok (lead_ones r (shape x)) (lead_ones r (shape y)) = true); [|congruence].
    assert (OUT : forall s a, List.length s <= a -> a < r -> from_end (lead_ones r s) a = 1).
    { intros s a Q R. unfold from_end, lead_ones. rewrite rev_app_distr, app_nth2 by (rewrite rev_length; exact Q). rewrite rev_length.
      assert (RR : forall n, rev (repeat 1 n) = repeat 1 n). { clear. intros n. apply (nth_ext _ _ 1 1); [apply rev_length|]. intros i I. rewrite rev_length, repeat_length in I. rewrite rev_nth by (rewrite repeat_length; exact I). rewrite !nth_repeat. reflexivity. }
      rewrite RR. rewrite (nth_indep _ 0 1) by (rewrite repeat_length; lia). apply nth_repeat. }
    unfold broadcast_ok. apply forallb_forall. intros [p q] I. apply in_rev in I. rewrite combine_rev in I by lia.
    destruct (In_nth _ _ (0, 0) I) as [a [La E]]. rewrite combine_length, !rev_length in La. rewrite combine_nth in E by (rewrite !rev_length; lia).
    assert (EP : p = from_end (lead_ones r (shape x)) a) by (unfold from_end; congruence). assert (EQ : q = from_end (lead_ones r (shape y)) a) by (unfold from_end; congruence).
    assert (D : p = q \/ p = 1 \/ q = 1).
    { destruct (Nat.lt_ge_cases a (List.length (shape x))) as [X|X]; [|right; left; rewrite EP; apply OUT; lia].
      destruct (Nat.lt_ge_cases a (List.length (shape y))) as [Y|Y]; [|right; right; rewrite EQ; apply OUT; lia].
      rewrite EP, EQ, !from_end_lead by assumption. apply H; assumption. }
    cbn [fst snd]. destruct D as [->|[->| ->]]; [rewrite Nat.eqb_refl; reflexivity|rewrite orb_true_r; reflexivity|rewrite !orb_true_r; reflexivity].
  - intros [a [Hx [Hy [N1 [N2 N3]]]]]. destruct (broadcast f x y) as [z|e] eqn:Q.
    + exfalso. destruct (broadcast_sizes _ _ _ _ Q a Hx Hy) as [?|[?|?]]; contradiction.
    + f_equal. unfold broadcast in Q. cbv zeta in Q. destruct (broadcast_ok _ _); [discriminate Q|congruence].
Qed.

Lemma resolve_nat_err n s : prod s <> n -> resolve_shape n (map Z.of_nat s) = Err BackendError.
Proof.
  intros P. destruct (resolve_shape n (map Z.of_nat s)) as [r|e] eqn:Q; [exfalso; exact (P (resolve_nat_inv _ _ _ Q))|]. f_equal.
  unfold resolve_shape in Q. cbv zeta in Q. destruct (forallb _ _) eqn:FB in Q.
  - destruct (_ - _) as [|[|k]] in Q; [destruct (Nat.eqb _ _) in Q|destruct (_ && _) in Q|]; congruence.
  - exfalso. rewrite (proj2 (forallb_forall _ _)) in FB; [discriminate FB|]. intros z I. apply filter_In in I as [I _]. apply in_map_iff in I as [u [<- _]]. apply Z.leb_le. lia.
Qed.

(** After the two actions computed: the second call gets the batch of all transformed signals and its exceptions are passed on; an output
    with the wrong number of entries, or with sizes that neither agree with those of the transformed output nor are one, raises the
    exception of the backend; otherwise a number is returned. *)
Theorem C111_second_call name G (layer : tensor A -> result (tensor A)) (x gx y gy : tensor A) sp ga H K T act b s :
  dict_get group_dict name = Ok G ->
  let d := dimension_of name in
  wf x -> shape x = b :: s -> spatial_axes_ok d sp (rank x) -> subgroup_indices G H act ->
  signal_on G K sp ga x -> layer x = Ok y -> wf y -> spatial_axes_ok d sp (rank y) -> signal_on G T sp ga y ->
  action G x (map Z.of_nat sp) 0 (option_map Z.of_nat ga) (Some H) K = Ok gx ->
  action G y (map Z.of_nat sp) 0 (option_map Z.of_nat ga) (Some H) T = Ok gy ->
  let check := check_equivariance layer x G (map Z.of_nat sp) (option_map Z.of_nat ga) (Some H) K T in
  let second := layer (read_as (List.length act * b :: s) gx) in
  (forall e, second = Err e -> check = Err e) /\
  (forall z, second = Ok z -> List.length (data z) <> List.length act * b * prod (tl (shape z)) -> check = Err BackendError) /\
  (forall z, second = Ok z -> List.length (data z) = List.length act * b * prod (tl (shape z)) ->
    let big := List.length act :: b :: tl (shape z) in let all := List.length act :: shape y in
    ((exists a, a < List.length big /\ a < List.length all /\ from_end big a <> from_end all a /\ from_end big a <> 1 /\ from_end all a <> 1) ->
      check = Err BackendError) /\
    ((forall a, a < List.length big -> a < List.length all -> from_end big a = from_end all a \/ from_end big a = 1 \/ from_end all a = 1) ->
      exists v, check = Ok v)).
Proof.
  intros DG d W SH SP SA SO LX WY SPy SOy RX RY. cbv zeta.
  pose proof (lib_name_nonempty _ _ DG) as NE. apply lib_ok in DG as [NG OK]. fold d in OK. rewrite <- NG in NE.
  destruct (action_slices G d _ _ OK x gx sp ga H K act W SP SA SO RX) as [SGX [WGX [LA S0]]]. rewrite SH in SGX.
  destruct (action_slices G d _ _ OK y gy sp ga H T act WY SPy SA SOy RY) as [SGY [WGY _]].
  unfold check_equivariance. rewrite (check_shape_ok G x sp ga K SO), LX. cbn [bind]. rewrite (check_shape_ok G y sp ga T SOy). cbn [bind].
  rewrite !(action_parsed G NE), RX, RY. cbn [bind]. unfold act_on_batched_transform. rewrite SGX.
  rewrite reshape_read by (try exact WGX; rewrite SGX; cbn; lia). cbn [bind].
  split; [intros e ->; reflexivity|].
  split; intros z -> PR; cbn [bind]; unfold reshape; replace (skipn 1 (shape z)) with (tl (shape z)) by (destruct (shape z); reflexivity).
  - rewrite resolve_nat_err; [reflexivity|]. intros Q. apply PR. rewrite <- Q. apply Nat.mul_assoc.
  - rewrite resolve_nat by (rewrite PR; apply Nat.mul_assoc). cbn [bind].
    destruct (broadcast_cases absdiff (mkTensor (List.length act :: b :: tl (shape z)) (data z)) gy) as [B1 B2]. unfold rank in B1, B2. cbn [shape] in B1, B2. rewrite SGY in B1, B2.
    split; [intros Q; rewrite (B2 Q); reflexivity|]. intros Q. destruct (B1 Q) as [df ->]. eexists. reflexivity.
Qed.

End Rejects.

Print Assumptions C111_signals_off_the_domain.
Print Assumptions C111_first_call.
Print Assumptions C111_a_number_means_both_fit.
Print Assumptions C111_fits_or_raises.
Print Assumptions C111_unknown_acting_group.
Print Assumptions C111_second_call.

(** Each exception, and the same layer and signal with the right arguments. *)
Definition copy (x : tensor Z) : result (tensor Z) := Ok x.
Definition drop_axis (x : tensor Z) : result (tensor Z) := Ok (tab [1; 2; 2; 3; 1] (fun i => at_ x i)).
Example C111_case :
  let x := some_signal [1; 2; 2; 4; 1] in
  let check layer ga H K T := check_equivariance layer x P4 [1; 2]%Z ga (Some H) K T in
  check copy (Some 3%Z) "P4" (Some "P4") (Some "") = Ok 0%Z /\
  check copy (Some (-2)%Z) "P4" (Some "P3") (Some "P4") = Err KeyError /\
  check copy None "P4" (Some "P4") (Some "P4") = Err TypeError /\
  check copy (Some 5%Z) "P4" (Some "P4") (Some "P4") = Err IndexError /\
  check copy (Some 3%Z) "P4" (Some "P2") (Some "P4") = Err AssertionError /\
  check copy (Some 3%Z) "P4" (Some "P4") (Some "P2") = Err AssertionError /\
  check drop_axis (Some 3%Z) "P4" (Some "P4") (Some "P4") = Err AssertionError /\
  check copy (Some 3%Z) "P3" (Some "P4") (Some "P4") = Err KeyError /\
  check (fun _ => Err ValueError) (Some 3%Z) "P4" (Some "P4") (Some "P4") = Err ValueError.
Proof. vm_compute. repeat split. Qed.
