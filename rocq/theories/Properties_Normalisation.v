(** C93: normalisation and other layers that use statistics of the sample or the batch. *)
From Coq Require Import Permutation.
From Verif Require Import GraphFacts Properties_Stacks Properties_Networks.
Local Open Scope string_scope.
Local Open Scope list_scope.

(** The values of channel [q] at the given positions. *)
Definition channel {A} {ZA : Zero A} (q : nat) (values : list (list A)) : list A := map (fun v => nth q v zero) values.

Section Layers.
Context {A S : Type} {RA : Arith A} {PA : Pool A}.

(** Batch normalisation in training: the statistics of each channel (the mean and the
    variance, for instance) are those of all samples and positions.  [norm] also gets the
    channel, because the learned scale and offset belong to the channel. *)
Definition batch_normalisation (stat : list A -> S) (norm : nat -> S -> A -> A) (batch : list (list (list A))) (_ : list (list A)) (v : list A) : list A :=
  map (fun q => norm q (stat (channel q (List.concat batch))) (nth q v zero)) (seq 0 (List.length v)).

(** Instance normalisation: those of the positions of the sample. *)
Definition instance_normalisation (stat : list A -> S) (norm : nat -> S -> A -> A) (_ : list (list (list A))) (sample : list (list A)) (v : list A) : list A :=
  map (fun q => norm q (stat (channel q sample)) (nth q v zero)) (seq 0 (List.length v)).

(** Layer normalisation over positions and channels. *)
Definition sample_normalisation (stat : list A -> S) (norm : nat -> S -> A -> A) (_ : list (list (list A))) (sample : list (list A)) (v : list A) : list A :=
  map (fun q => norm q (stat (List.concat sample)) (nth q v zero)) (seq 0 (List.length v)).

(** Squeeze and excitation: each channel is rescaled by what a network of its own makes of
    the statistics of all channels of the sample. *)
Definition squeeze_excitation (stat : list A -> S) (excite : list S -> list A) (_ : list (list (list A))) (sample : list (list A)) (v : list A) : list A :=
  map (fun p => mul (fst p) (snd p)) (combine v (excite (map (fun q => stat (channel q sample)) (seq 0 (List.length v))))).

Lemma permutation_concat {B} (l l' : list (list B)) : Forall2 (@Permutation B) l l' -> Permutation (List.concat l) (List.concat l').
Proof. induction 1; cbn [List.concat]; [apply perm_nil|apply Permutation_app; assumption]. Qed.

Lemma permutation_of_concat {B} (l l' : list (list B)) : Permutation l l' -> Permutation (List.concat l) (List.concat l').
Proof.
  induction 1; cbn [List.concat]; [apply perm_nil|apply Permutation_app_head; assumption| |eapply Permutation_trans; eassumption].
  rewrite !app_assoc. apply Permutation_app_tail, Permutation_app_comm.
Qed.

(** All of them are layers with statistics, if their statistics do not depend on the order
    of the values. *)
Theorem C93_usual_layers (stat : list A -> S) norm excite :
  (forall l l', Permutation l l' -> stat l = stat l') ->
  statistics (batch_normalisation stat norm) /\ statistics (instance_normalisation stat norm) /\
  statistics (sample_normalisation stat norm) /\ statistics (squeeze_excitation stat excite).
Proof.
  intros ST.
  assert (CH : forall q l l', Permutation l l' -> stat (channel q l) = stat (channel q l')) by (intros q l l' P; apply ST, Permutation_map, P).
  split; [|split; [|split]]; intros batch batch' sample sample' v PB PS.
  - unfold batch_normalisation. apply map_ext. intros q. rewrite (CH q _ _ (permutation_concat _ _ PB)). reflexivity.
  - unfold instance_normalisation. apply map_ext. intros q. rewrite (CH q _ _ PS). reflexivity.
  - unfold sample_normalisation. apply map_ext. intros q. rewrite (ST _ _ (permutation_of_concat _ _ PS)). reflexivity.
  - unfold squeeze_excitation. do 3 f_equal. apply map_ext. intros q. apply CH, PS.
Qed.

End Layers.

Section Normalisation.
Context {A : Type} {RA : Arith A} {PA : Pool A}.

Lemma acts_on_group G d H (x gx : tensor A) : transforms_of_group_signal G d H "" x = Ok gx -> exists idx, subgroup_indices G H idx.
Proof.
  intros R. unfold subgroup_indices. destruct (subgroup_get G (parse_subgroup G (Some H))) as [idx|e] eqn:Q; [exists idx; reflexivity|exfalso].
  unfold transforms_of_group_signal, action, group_axis in R.
  destruct (parse_subgroup G (Some "")) as [w|] eqn:PW; [|unfold parse_subgroup in PW; destruct (String.eqb "" ""); discriminate PW].
  unfold action_on_group in R. rewrite Q in R. discriminate R.
Qed.

Lemma acts_on_grid G d H (x gx : tensor A) : transforms_of_grid_signal G d H x = Ok gx -> exists idx, subgroup_indices G H idx.
Proof.
  intros R. unfold subgroup_indices. destruct (subgroup_get G (parse_subgroup G (Some H))) as [idx|e] eqn:Q; [exists idx; reflexivity|exfalso].
  unfold transforms_of_grid_signal, action in R. cbn [parse_subgroup] in Q. change (parse_subgroup G None) with (@None string) in R.
  unfold action_on_grid in R. cbn [parse_subgroup] in R. rewrite Q in R.
  destruct (g__action _ _ _ _ _ _); discriminate R.
Qed.

(** A layer with statistics commutes with the group on signals on the group ... *)
Theorem C93_statistics_on_group_signals name G H phi o b m g c (x gx : tensor A) :
  dict_get group_dict name = Ok G -> statistics phi ->
  let d := dimension_of name in
  g = g_order G -> List.length m = d -> wf x -> shape x = b :: m ++ [g; c] ->
  transforms_of_group_signal G d H "" x = Ok gx ->
  exists z gz, with_statistics phi o x = Ok z /\ shape z = b :: m ++ [g; o] /\
    transforms_of_group_signal G d H "" z = Ok gz /\ nth 0 (shape gx) 0 = nth 0 (shape gz) 0 /\
    forall u, u < nth 0 (shape gz) 0 -> with_statistics phi o (slice 0 u gx) = Ok (slice 0 u gz).
Proof.
  intros DG STAT d GN Lm W SH R. pose proof DG as DG'. apply lib_ok in DG' as [_ OK]. rewrite (ok_order _ _ _ _ OK) in GN.
  destruct (acts_on_group _ _ _ _ _ R) as [idx SI].
  destruct (group_statistics name G H idx phi o b m g c x gx DG STAT SI GN Lm W SH R) as [z [gz [PZ [_ [SZ [RZ [NX [NZ Q]]]]]]]].
  exists z, gz. split; [exact PZ|]. split; [exact SZ|]. split; [exact RZ|]. rewrite NX, NZ. auto.
Qed.

(** ... and on the grid. *)
Theorem C93_statistics_on_grid_signals name G H phi o b m c (x gx : tensor A) :
  dict_get group_dict name = Ok G -> statistics phi ->
  let d := dimension_of name in
  List.length m = d -> wf x -> shape x = b :: m ++ [c] ->
  transforms_of_grid_signal G d H x = Ok gx ->
  exists z gz, with_statistics phi o x = Ok z /\ shape z = b :: m ++ [o] /\
    transforms_of_grid_signal G d H z = Ok gz /\ nth 0 (shape gx) 0 = nth 0 (shape gz) 0 /\
    forall u, u < nth 0 (shape gz) 0 -> with_statistics phi o (slice 0 u gx) = Ok (slice 0 u gz).
Proof.
  intros DG STAT d Lm W SH R. destruct (acts_on_grid _ _ _ _ _ R) as [idx SI].
  destruct (grid_statistics name G H idx phi o b m c x gx DG STAT SI Lm W SH R) as [z [gz [PZ [_ [SZ [RZ [NX [NZ Q]]]]]]]].
  exists z, gz. split; [exact PZ|]. split; [exact SZ|]. split; [exact RZ|]. rewrite NX, NZ. auto.
Qed.

(** Every sample of a transformed signal has the values of the sample, at other positions,
    so that the averages that batch normalisation keeps for later are those of the
    original signal. *)
Theorem C93_samples_keep_their_values name G H b m g c (x gx : tensor A) u bi :
  dict_get group_dict name = Ok G ->
  let d := dimension_of name in
  g = g_order G -> List.length m = d -> wf x -> shape x = b :: m ++ [g; c] ->
  transforms_of_group_signal G d H "" x = Ok gx -> u < nth 0 (shape gx) 0 -> bi < b ->
  Permutation (sample_values (slice 0 u gx) bi) (sample_values x bi).
Proof.
  intros DG d GN Lm W SH R U BI. destruct (acts_on_group _ _ _ _ _ R) as [idx S].
  apply lib_ok in DG as [_ OK]. rewrite (ok_order _ _ _ _ OK) in GN. fold d in OK.
  pose proof (sub_idx_whole _ _ _ _ OK) as SW.
  assert (LW : g = List.length (seq 0 (List.length (symmetries_of name)))) by (rewrite seq_length; exact GN).
  destruct (sub_idx_facts _ _ _ _ OK _ _ S) as [_ [B _]].
  assert (ST : forall u, In u idx -> stable G u (seq 0 (List.length (symmetries_of name)))).
  { intros v I. apply (stable_whole G d _ _ OK). apply B. exact I. }
  rewrite (tensor_sig4 d b m g c x W Lm SH) in *.
  unfold transforms_of_group_signal, spatial_axes, group_axis in R.
  destruct (group_slices G d _ _ OK b m g c (fun4 x) _ _ idx _ gx S SW LW Lm ST R) as [[FM _] [SG Q]].
  rewrite SG in U. cbn [nth] in U. rewrite (Q u U), !(sample_values_group d) by assumption.
  assert (Iu : In (nth u idx 0) idx) by (apply nth_In; exact U). pose proof (B _ Iu) as Bu.
  apply (values4_moved d).
  - apply (sym_ok G d _ _ OK). exact Bu.
  - exact Lm.
  - apply (fits_sym G d _ _ OK); assumption.
  - intros h' Hh'. rewrite LW in *. apply turned_lt; [apply ST; exact Iu|exact Hh'].
  - intros h1 h2 H1 H2. rewrite LW in *. apply (turned_inj G d _ _ OK); [exact Bu|apply seq_NoDup|intros v V; apply in_seq in V; lia|apply ST; exact Iu|exact H1|exact H2].
Qed.

(** Networks with such layers are among those of C60 and C62. *)
Theorem C93_networks_with_normalisation grid name G (x z : tensor A) net last phi o :
  add_commutes A -> dict_get group_dict name = Ok G -> network grid name x net last -> statistics phi -> net x = Ok z ->
  let d := dimension_of name in
  network grid name x (followed_by net (with_statistics phi o)) last /\
  exists Gl w, dict_get group_dict last = Ok Gl /\ followed_by net (with_statistics phi o) x = Ok w /\
    commutes_at (transforms_of_input grid G d last) (transforms_of_group_signal Gl d "" "") (followed_by net (with_statistics phi o)) x.
Proof.
  intros ADD DG N STAT NX d. assert (N' : network grid name x (followed_by net (with_statistics phi o)) last) by (apply net_statistics; assumption).
  split; [exact N'|]. assert (W : exists w, followed_by net (with_statistics phi o) x = Ok w) by (unfold followed_by; rewrite NX; eexists; reflexivity).
  destruct W as [w W]. destruct (C60_networks_are_equivariant grid name G x w _ last ADD DG N' W) as [Gl [idx [DL [_ [_ [_ C]]]]]].
  exists Gl, w. split; [exact DL|]. split; [exact W|]. exact C.
Qed.

End Normalisation.
Print Assumptions C93_usual_layers.
Print Assumptions C93_statistics_on_group_signals.
Print Assumptions C93_statistics_on_grid_signals.
Print Assumptions C93_samples_keep_their_values.
Print Assumptions C93_networks_with_normalisation.

(** A batch of two signals on P4 with two channels: n x - sum with the learned scale q + 1
    of channel q, and a rescaling by the largest values of both channels. *)
Definition centred (q : nat) (st : Z * Z) (v : Z) : Z := (Z.of_nat (S q) * (snd st * v - fst st))%Z.
Definition total (l : list Z) : Z * Z := (fold_right Z.add 0%Z l, Z.of_nat (List.length l)).
Definition largest (l : list Z) : Z := fold_right Z.max 0%Z l.
Definition swapped (l : list Z) : list Z := rev l.

Example C93_case :
  let x := some_signal [2; 2; 2; 4; 2] in
  commutes_b (transforms_of_group_signal P4 2 "" "") (transforms_of_group_signal P4 2 "" "")
    (with_statistics (batch_normalisation total centred) 2) x = true /\
  commutes_b (transforms_of_group_signal P4 2 "" "") (transforms_of_group_signal P4 2 "" "")
    (with_statistics (squeeze_excitation largest swapped) 2) x = true /\
  match with_statistics (batch_normalisation total centred) 2 x, with_statistics (instance_normalisation total centred) 2 x with
  | Ok z, Ok z' => shape z = shape x /\ same_tensor z z' = false /\ same_tensor z x = false /\
      fst (total (channel 0 (sample_values z 0 ++ sample_values z 1))) = 0%Z /\
      fst (total (channel 0 (sample_values z' 0))) = 0%Z /\ fst (total (channel 0 (sample_values z 0))) <> 0%Z
  | _, _ => False
  end.
Proof. vm_compute. repeat split; try reflexivity; discriminate. Qed.

(** Statistics that depend on the order of the positions, for instance those of one corner
    of the picture, do not suffice. *)
Definition minus_first (_ : list (list (list Z))) (sample : list (list Z)) (v : list Z) : list Z :=
  map (fun z => Z.sub z (hd 0%Z (hd [] sample))) v.

Theorem C93_order_of_positions_refuted :
  ~ forall x : tensor Z, commutes_at (transforms_of_group_signal P4 2 "" "") (transforms_of_group_signal P4 2 "" "")
      (with_statistics minus_first 1) x.
Proof.
  intros H. specialize (H (some_signal [1; 2; 2; 4; 1])). apply commutes_b_ok in H. vm_compute in H. discriminate H.
Qed.
Print Assumptions C93_order_of_positions_refuted.
