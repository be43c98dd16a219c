(** C38: what [check_equivariance] does with layers that do not treat the samples of a batch
    independently. *)
From Verif Require Import LayerBatch Properties_Conv Properties_Pooling Properties_Checks GroupedFacts.
Local Open Scope string_scope.
Local Open Scope list_scope.

(** Entry number [a], counted from the last. *)
Definition from_end (l : list nat) (a : nat) : nat := nth a (rev l) 0.

Section Shapes.
Context {A : Type} {RA : Arith A} {MA : Metric A}.

Lemma combine_rev {X Y} (l : list X) (l' : list Y) : List.length l = List.length l' -> rev (combine l l') = combine (rev l) (rev l').
Proof.
  revert l'. induction l as [|x l IH]; intros [|y l'] E; try discriminate E; [reflexivity|]. cbn [combine rev]. cbn [List.length] in E.
  rewrite IH by lia. assert (Q : forall (u : list X) (v : list Y), List.length u = List.length v -> combine u v ++ [(x, y)] = combine (u ++ [x]) (v ++ [y])).
  { clear. induction u as [|p u IHu]; intros [|q v] E; try discriminate E; [reflexivity|]. cbn [combine app]. cbn [List.length] in E. rewrite IHu by lia. reflexivity. }
  apply Q. rewrite !rev_length. lia.
Qed.

Lemma from_end_lead r s a : a < List.length s -> from_end (lead_ones r s) a = from_end s a.
Proof. intros H. unfold from_end, lead_ones. rewrite rev_app_distr. apply app_nth1. rewrite rev_length. exact H. Qed.

Lemma broadcast_sizes {B} (f : A -> A -> B) (x y : tensor A) z : broadcast f x y = Ok z ->
  forall a, a < rank x -> a < rank y -> from_end (shape x) a = from_end (shape y) a \/ from_end (shape x) a = 1 \/ from_end (shape y) a = 1.
Proof.
  unfold broadcast. set (r := Nat.max (rank x) (rank y)). intros H a HX HY.
  destruct (broadcast_ok _ _) eqn:BO in H; [|discriminate H]. clear H. unfold broadcast_ok in BO.
  assert (LL : forall s, List.length s <= r -> List.length (lead_ones r s) = r) by (intros s L; unfold lead_ones; rewrite app_length, repeat_length; lia).
  unfold rank in *. pose proof (LL (shape x) ltac:(lia)) as L1. pose proof (LL (shape y) ltac:(lia)) as L2.
  rewrite <- (from_end_lead r (shape x)), <- (from_end_lead r (shape y)) by assumption.
  set (u := lead_ones r (shape x)) in *. set (v := lead_ones r (shape y)) in *.
  rewrite forallb_forall in BO.
  assert (I : In (from_end u a, from_end v a) (combine u v)).
  { apply in_rev. rewrite combine_rev by lia. unfold from_end. rewrite <- combine_nth by (rewrite !rev_length; lia).
    apply nth_In. rewrite combine_length, !rev_length. lia. }
  specialize (BO _ I). cbn [fst snd] in BO. apply orb_prop in BO as [BO|BO]; [apply orb_prop in BO as [BO|BO]|]; apply Nat.eqb_eq in BO; lia.
Qed.

(** Any layer, not necessarily one that treats the samples of a batch independently: if [check_equivariance] returns a number, then
    the layer applied to the batch of all transformed signals has as many entries as there are transformed samples times the entries of a
    sample; and the sizes of its output (with the transformed signals and samples as two axes) and of the transformed
    output agree, counted from the last axis, except for axes of size one. *)
Theorem C38_a_number_means_the_shapes_fit name G (layer : tensor A -> result (tensor A)) (x gx y gy : tensor A) sp ga H K T act b s v :
  dict_get group_dict name = Ok G ->
  let d := dimension_of name in
  wf x -> shape x = b :: s -> spatial_axes_ok d sp (rank x) -> subgroup_indices G H act ->
  signal_on G K sp ga x -> layer x = Ok y -> wf y -> spatial_axes_ok d sp (rank y) -> signal_on G T sp ga y ->
  action G x (map Z.of_nat sp) 0 (option_map Z.of_nat ga) (Some H) K = Ok gx ->
  action G y (map Z.of_nat sp) 0 (option_map Z.of_nat ga) (Some H) T = Ok gy ->
  check_equivariance layer x G (map Z.of_nat sp) (option_map Z.of_nat ga) (Some H) K T = Ok v ->
  exists z, layer (read_as (List.length act * b :: s) gx) = Ok z /\
    List.length (data z) = List.length act * b * prod (tl (shape z)) /\
    forall a, let big := List.length act :: b :: tl (shape z) in let all := List.length act :: shape y in
      a < List.length big -> a < List.length all ->
      from_end big a = from_end all a \/ from_end big a = 1 \/ from_end all a = 1.
Proof.
  intros DG d W SH SP SA SO LX WY SPy SOy RX RY CK.
  pose proof (lib_name_nonempty _ _ DG) as NE. apply lib_ok in DG as [NG OK]. fold d in OK. rewrite <- NG in NE.
  destruct (action_slices G d _ _ OK x gx sp ga H K act W SP SA SO RX) as [SGX [WGX [LA S0]]]. rewrite SH in SGX.
  destruct (action_slices G d _ _ OK y gy sp ga H T act WY SPy SA SOy RY) as [SGY [WGY _]].
  unfold check_equivariance in CK. rewrite (check_shape_ok G x sp ga K SO), LX in CK. cbn [bind] in CK. rewrite (check_shape_ok G y sp ga T SOy) in CK. cbn [bind] in CK.
  rewrite !(action_parsed G NE), RX, RY in CK. cbn [bind] in CK. unfold act_on_batched_transform in CK. rewrite SGX in CK.
  rewrite reshape_read in CK by (try exact WGX; rewrite SGX; cbn; lia). cbn [bind] in CK.
  destruct (layer (read_as (List.length act * b :: s) gx)) as [z|e]; [|discriminate CK]. cbn [bind] in CK. exists z. split; [reflexivity|].
  unfold reshape in CK. destruct (resolve_shape _ _) as [s'|] eqn:RS in CK; [|discriminate CK]. cbn [bind] in CK.
  pose proof (resolve_nat_inv _ _ _ RS) as PR. rewrite resolve_nat in RS by exact PR. assert (s' = List.length act :: b :: skipn 1 (shape z)) as -> by congruence.
  replace (skipn 1 (shape z)) with (tl (shape z)) in * by (destruct (shape z); reflexivity).
  split; [rewrite <- PR; apply Nat.mul_assoc|].
  destruct (broadcast _ _ _) as [df|] eqn:BR in CK; [|discriminate CK].
  pose proof (broadcast_sizes _ _ _ _ BR) as BS. unfold rank in BS. cbn [shape] in BS. rewrite SGY in BS.
  intros a big all Ha Hb. exact (BS a Ha Hb).
Qed.

End Shapes.

Print Assumptions C38_a_number_means_the_shapes_fit.

(** Layers that mix the samples can pass the check without being equivariant: this one multiplies the first sample of the batch
    by a number for every pixel, and returns the product for all samples. *)
Definition weighted_first (w : list nat -> Z) (x : tensor Z) : result (tensor Z) := Ok (tab (shape x) (fun i => (at_ x (0%nat :: tl i) * w (tl i))%Z)).
Definition corner (i : list nat) : Z := if list_eqb Nat.eqb i [0; 0; 0] then 1%Z else 2%Z.
Definition balanced : tensor Z := tab [1; 2; 2; 1] (fun i => if list_eqb Nat.eqb i [0; 0; 0; 0] then 2%Z else 1%Z).

Theorem C38_mixing_samples_refuted : exists (layer : tensor Z -> result (tensor Z)) (x : tensor Z),
  check_equivariance layer x P4 [1; 2]%Z None (Some "P4") None None = Ok 0%Z /\
  commutes_b (transforms_of_grid_signal P4 2 "") (transforms_of_grid_signal P4 2 "") layer x = false.
Proof. exists (weighted_first corner), balanced. vm_compute. auto. Qed.
Print Assumptions C38_mixing_samples_refuted.

(** A layer whose output shape depends on the size of the batch: an axis of size one is compared with all entries
    of the other axis, other sizes raise. *)
Definition shrinking (m : nat) (x : tensor Z) : result (tensor Z) :=
  match shape x with
  | [b; h; w; c] => if (1 <? b)%nat then Ok (tab [b; h; w; m] (fun i => at_ x (firstn 3 i ++ [0%nat]))) else Ok x
  | _ => Err ValueError
  end.
Example C38_case_shapes :
  check_equivariance (shrinking 1) (some_signal [1; 2; 2; 3]) P4 [1; 2]%Z None (Some "P4") None None = Ok 12%Z /\
  check_equivariance (shrinking 1) (tab [1; 2; 2; 3] (fun i => Z.of_nat (nth 1 i 0%nat))) P4 [1; 2]%Z None (Some "P4") None None = Ok 0%Z /\
  check_equivariance (shrinking 2) (some_signal [1; 2; 2; 3]) P4 [1; 2]%Z None (Some "P4") None None = Err BackendError.
Proof. vm_compute. auto. Qed.
