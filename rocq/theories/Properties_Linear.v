(** C77, C78: how many weights a convolution layer has, and that its output depends
    linearly on the signal and on the weights. *)
From Verif Require Import LinearFacts.
Local Open Scope string_scope.
Local Open Scope list_scope.

(** Keras' [layer.count_params()]: the entries of the kernel and of the bias. *)
Definition parameters {A} (L : conv_layer A) : nat :=
  match cl_kernel L with Some K => List.length (data K) | None => 0 end +
  match cl_bias L with Some B => List.length (data B) | None => 0 end.

(** The layer after its weights have been assigned: [layer.kernel.assign(K)],
    [layer.bias.assign(B)] ([B] is ignored by a layer without bias). *)
Definition assigned {A} (L : conv_layer A) (K B : tensor A) : conv_layer A :=
  cl_set_weights L (Some K) (match cl_bias L with Some _ => Some B | None => None end) (cl_filters L).

Section Linear.
Context {A : Type} {RA : Arith A}.

(** For every layer: kernel pixels times input channels times filters, and the bias once
    per filter.  The input channels are counted for every element of the group that the
    input is a signal on; the subgroup of a convolution does not matter. *)
Theorem C77_number_of_parameters name G (a : conv_args A) H opt (tr valued : bool) bs m g c kinit binit L k s dl :
  layer_for name G a -> ca_subgroup a = Some H -> option_of a opt ->
  let d := dimension_of name in
  built d tr a (static_signal_shape valued bs m g c) kinit binit L -> List.length m = d -> sizes d a k s dl ->
  let elements := List.length (symmetries_of (if tr && negb (String.eqb H "") then H else name)) in
  parameters L = prod k * ((if valued then elements else 1) * c) * ca_filters a + (if ca_use_bias a then ca_filters a else 0).
Proof.
  intros LF HS OP d B Lm SZ elements.
  destruct (built_facts name G a H opt tr valued bs m g c kinit binit L k s dl LF HS OP B Lm SZ)
    as [OK [eb [ea [act [dom [_ [_ [SD [CF _]]]]]]]]]. fold d in OK, CF.
  assert (GE : valued = true -> g = elements).
  { intros V. destruct (SD V) as [S GL]. rewrite GL. unfold elements.
    destruct tr; cbn [andb].
    - rewrite (sub_length G d _ _ H dom (lib_named _ _ (proj1 LF) (proj1 (lib_ok _ _ (proj1 LF)))) OK S). destruct (String.eqb_spec H "") as [->|NE]; cbn [negb].
      + pose proof LF as [DG _]. replace (g_name G) with name by (symmetry; apply (lib_ok _ _ DG)). reflexivity.
      + reflexivity.
    - rewrite (whole_dom _ _ _ _ _ OK S), seq_length. reflexivity. }
  unfold parameters. destruct CF. rewrite cf_kernel, cf_bias, length_data_tab.
  replace (prod (k ++ (if tr then [ca_filters a; if valued then g * c else c] else [if valued then g * c else c; ca_filters a])))
    with (prod k * ((if valued then elements else 1) * c) * ca_filters a).
  - f_equal. destruct (ca_use_bias a); [|reflexivity]. rewrite length_data_tab. cbn [prod fold_right]. lia.
  - assert (PP : prod (k ++ [if valued then g * c else c; ca_filters a]) = prod k * ((if valued then elements else 1) * c) * ca_filters a).
    { rewrite prod_app. unfold prod at 2. cbn [fold_right]. rewrite Nat.mul_1_r, <- Nat.mul_assoc. f_equal. f_equal.
      destruct valued; [rewrite (GE eq_refl); reflexivity|lia]. }
    destruct tr; [rewrite prod_swap|]; symmetry; exact PP.
Qed.

(** Layers for signals on the grid have as many weights as the ordinary convolution, or
    the layer for any other group (README.md:62: "number of parameters stays the
    same"). *)
Theorem C77_lifting_layers_have_as_many_parameters name G (a : conv_args A) H opt (tr : bool) bs m g c kinit binit L k s dl
  name' G' (a' : conv_args A) H' opt' (tr' : bool) bs' m' g' kinit' binit' L' s' dl' :
  layer_for name G a -> ca_subgroup a = Some H -> option_of a opt -> List.length m = dimension_of name ->
  built (dimension_of name) tr a (static_signal_shape false bs m g c) kinit binit L -> sizes (dimension_of name) a k s dl ->
  layer_for name' G' a' -> ca_subgroup a' = Some H' -> option_of a' opt' -> List.length m' = dimension_of name' ->
  built (dimension_of name') tr' a' (static_signal_shape false bs' m' g' c) kinit' binit' L' -> sizes (dimension_of name') a' k s' dl' ->
  ca_filters a' = ca_filters a -> ca_use_bias a' = ca_use_bias a ->
  parameters L' = parameters L.
Proof.
  intros LF HS OP Lm B SZ LF' HS' OP' Lm' B' SZ' FF UB.
  rewrite (C77_number_of_parameters name G a H opt tr false bs m g c kinit binit L k s dl LF HS OP B Lm SZ).
  rewrite (C77_number_of_parameters name' G' a' H' opt' tr' false bs' m' g' c kinit' binit' L' k s' dl' LF' HS' OP' B' Lm' SZ').
  rewrite FF, UB. reflexivity.
Qed.

(** ** Linearity *)

(** A layer without bias and activation is linear: the output for s1 * x1 + s2 * x2 is
    s1 * (output for x1) + s2 * (output for x2), for signals of any sizes, and it raises
    for all three or none. *)
Theorem C78_linear_in_the_signal name G (a : conv_args A) H opt (tr valued : bool) bs m g c kinit binit L k s dl :
  exact_arithmetic A ->
  layer_for name G a -> ca_subgroup a = Some H -> option_of a opt ->
  let d := dimension_of name in
  built d tr a (static_signal_shape valued bs m g c) kinit binit L -> List.length m = d -> sizes d a k s dl ->
  ca_use_bias a = false -> (forall v, ca_activation a v = v) ->
  forall s1 s2 x1 x2 b m', wf x1 -> wf x2 -> List.length m' = d ->
  shape x1 = signal_shape valued b m' g c -> shape x2 = signal_shape valued b m' g c ->
  apply L (combination s1 x1 s2 x2) = (y1 <- apply L x1 ;; y2 <- apply L x2 ;; Ok (combination s1 y1 s2 y2)).
Proof.
  intros EX LF HS OP d B Lm SZ UB ACT s1 s2 x1 x2 b m' W1 W2 Lm' S1 S2.
  destruct (built_facts name G a H opt tr valued bs m g c kinit binit L k s dl LF HS OP B Lm SZ)
    as [OK [eb [ea [act [dom [_ [_ [SD [CF [CC _]]]]]]]]]]. fold d in OK, CF.
  set (C := if valued then g * c else c) in *.
  pose proof (merged_input d valued x1 b m' g c W1 Lm' S1) as M1.
  pose proof (merged_input d valued x2 b m' g c W2 Lm' S2) as M2.
  pose proof (merged_combination d s1 s2 valued x1 x2 b m' g c W1 W2 Lm' S1 S2) as M3. fold C in M1, M2, M3.
  assert (S3 : shape (combination s1 x1 s2 x2) = signal_shape valued b m' g c) by exact S1.
  rewrite (layer_form G d _ _ OK tr valued act dom c C _ k s dl eb ea _ _ _ kinit binit L _ b m' g _ CF CC Lm' S1 M1).
  rewrite (layer_form G d _ _ OK tr valued act dom c C _ k s dl eb ea _ _ _ kinit binit L _ b m' g _ CF CC Lm' S2 M2).
  rewrite (layer_form G d _ _ OK tr valued act dom c C _ k s dl eb ea _ _ _ kinit binit L _ b m' g _ CF CC Lm' S3 M3).
  destruct (layer_runs _ _ _ _ _ _ _ _); [|reflexivity]. cbn [bind]. f_equal. rewrite combination_tab.
  pose proof (length_layer_outs G d _ _ _ _ _ _ _ _ _ _ _ _ _ _ _ _ _ _ _ L m' CF Lm') as LO.
  etransitivity; [|apply tab_ext; intros i I; unfold sig4; reflexivity].
  apply (sig4_ext d _ _ _ _ _ (fun bi p h oo => add (mul s1 (ca_activation a (biased (ca_use_bias a) binit
     (layer_value G d (symmetries_of name) tr valued act dom c C (ca_filters a) k s dl eb ea (is_same opt) m' kinit (merged_fun valued x1 c) bi p h oo) oo)))
     (mul s2 (ca_activation a (biased (ca_use_bias a) binit
     (layer_value G d (symmetries_of name) tr valued act dom c C (ca_filters a) k s dl eb ea (is_same opt) m' kinit (merged_fun valued x2 c) bi p h oo) oo)))));
    [exact LO|].
  intros bi p h oo _ _ _ _. rewrite !ACT, UB. unfold biased, layer_value.
  apply (window_combination EX); [apply layer_term_cases|destruct CF; assumption|].
  intros i q j _ _ _. unfold layer_in. destruct tr; [|reflexivity]. unfold bordered.
  destruct (inside _ _ _); [reflexivity|]. rewrite !(ar_mzero_r EX), (ar_zero EX). reflexivity.
Qed.

(** A layer without activation is linear in its weights, kernel and bias together. *)
Theorem C78_linear_in_the_weights name G (a : conv_args A) H opt (tr valued : bool) bs m g c kinit binit L k s dl :
  exact_arithmetic A ->
  layer_for name G a -> ca_subgroup a = Some H -> option_of a opt ->
  let d := dimension_of name in
  built d tr a (static_signal_shape valued bs m g c) kinit binit L -> List.length m = d -> sizes d a k s dl ->
  (forall v, ca_activation a v = v) ->
  let C := if valued then g * c else c in
  let kernel_shape := k ++ (if tr then [ca_filters a; C] else [C; ca_filters a]) in
  forall s1 s2 K1 K2 B1 B2, wf K1 -> wf K2 -> wf B1 -> wf B2 ->
  shape K1 = kernel_shape -> shape K2 = kernel_shape -> shape B1 = [ca_filters a] -> shape B2 = [ca_filters a] ->
  forall x b m', wf x -> List.length m' = d -> shape x = signal_shape valued b m' g c ->
  apply (assigned L (combination s1 K1 s2 K2) (combination s1 B1 s2 B2)) x
  = (y1 <- apply (assigned L K1 B1) x ;; y2 <- apply (assigned L K2 B2) x ;; Ok (combination s1 y1 s2 y2)).
Proof.
  intros EX LF HS OP d B Lm SZ ACT C KS s1 s2 K1 K2 B1 B2 WK1 WK2 WB1 WB2 SK1 SK2 SB1 SB2 x b m' W Lm' SH.
  destruct (built_facts name G a H opt tr valued bs m g c kinit binit L k s dl LF HS OP B Lm SZ)
    as [OK [eb [ea [act [dom [_ [_ [SD [CF [CC _]]]]]]]]]]. fold d in OK, CF. fold C in CF.
  assert (AS : forall K B0, wf K -> wf B0 -> shape K = KS -> shape B0 = [ca_filters a] ->
     conv_facts G d (symmetries_of name) (needs_equal_sizes name) tr valued act dom c C (ca_filters a) k s dl eb ea (is_same opt)
       (ca_use_bias a) (ca_activation a) (at_ K) (at_ B0) (assigned L K B0) /\ cl_channels (assigned L K B0) = Some c).
  { intros K B0 WK WB SK SB. split; [|exact CC].
    pose proof (replaced_weights G d _ _ tr valued act dom c C (ca_filters a) k s dl eb ea (is_same opt) (ca_use_bias a) (ca_activation a)
                  kinit binit (at_ K) (at_ B0) L CF) as R. fold KS in R. rewrite <- SK in R. rewrite (tab_at K WK), <- SB, (tab_at B0 WB) in R.
    unfold assigned. destruct CF. rewrite cf_bias. destruct (ca_use_bias a); exact R. }
  assert (EK : combination s1 K1 s2 K2 = tab KS (fun i => add (mul s1 (at_ K1 i)) (mul s2 (at_ K2 i))))
    by (rewrite <- SK1; apply combination_eq; congruence).
  destruct (AS K1 B1 WK1 WB1 SK1 SB1) as [F1 C1]. destruct (AS K2 B2 WK2 WB2 SK2 SB2) as [F2 C2].
  destruct (AS (combination s1 K1 s2 K2) (combination s1 B1 s2 B2)) as [F3 C3];
    [apply wf_combination; congruence|apply wf_combination; congruence|exact SK1|exact SB1|].
  pose proof (merged_input d valued x b m' g c W Lm' SH) as M. fold C in M.
  rewrite (layer_form G d _ _ OK tr valued act dom c C _ k s dl eb ea _ _ _ _ _ _ _ b m' g _ F1 C1 Lm' SH M).
  rewrite (layer_form G d _ _ OK tr valued act dom c C _ k s dl eb ea _ _ _ _ _ _ _ b m' g _ F2 C2 Lm' SH M).
  rewrite (layer_form G d _ _ OK tr valued act dom c C _ k s dl eb ea _ _ _ _ _ _ _ b m' g _ F3 C3 Lm' SH M).
  destruct (layer_runs _ _ _ _ _ _ _ _); [|reflexivity]. cbn [bind]. f_equal. rewrite combination_tab.
  pose proof (length_layer_outs G d _ _ _ _ _ _ _ _ _ _ _ _ _ _ _ _ _ _ _ L m' CF Lm') as LO.
  set (V := fun K => layer_value G d (symmetries_of name) tr valued act dom c C (ca_filters a) k s dl eb ea (is_same opt) m' (at_ K)
                       (merged_fun valued x c)).
  etransitivity; [|apply tab_ext; intros i I; unfold sig4; reflexivity].
  apply (sig4_ext d _ _ _ _ _ (fun bi p h oo =>
     add (mul s1 (ca_activation a (biased (ca_use_bias a) (at_ B1) (V K1 bi p h oo) oo)))
         (mul s2 (ca_activation a (biased (ca_use_bias a) (at_ B2) (V K2 bi p h oo) oo))))); [exact LO|].
  intros bi p h oo _ _ Hh Ho. rewrite !ACT.
  assert (VV : V (combination s1 K1 s2 K2) bi p h oo = add (mul s1 (V K1 bi p h oo)) (mul s2 (V K2 bi p h oo))).
  { unfold V, layer_value. apply (window_weights EX); [apply layer_term_cases|destruct CF; assumption|].
    intros j q J Q. unfold kval. fold KS.
    rewrite <- SK1 at 1. change (shape K1) with (shape (combination s1 K1 s2 K2)) at 1.
    rewrite tab_at by (apply wf_combination; congruence). rewrite <- SK1 at 1. rewrite tab_at by exact WK1. rewrite <- SK2 at 1. rewrite tab_at by exact WK2.
    apply nth_combination; [exact WK1|exact WK2|congruence|]. rewrite SK1. unfold KS.
    replace (prod (k ++ (if tr then [ca_filters a; C] else [C; ca_filters a]))) with (prod (k ++ [C; ca_filters a]))
      by (destruct tr; [apply prod_swap|reflexivity]).
    destruct (sub_idx_facts _ _ _ _ OK _ _ (cf_act _ _ _ _ _ _ _ _ _ _ _ _ _ _ _ _ _ _ _ _ _ _ CF)) as [_ [Ba _]].
    destruct CF. apply (kidx_lt G d _ _ OK (cl_gt L)); try assumption. nia. }
  unfold biased. fold (V (combination s1 K1 s2 K2)). rewrite VV. destruct (ca_use_bias a); [|reflexivity].
  assert (IO : inb [ca_filters a] [oo]) by (apply inb_cons; split; [exact Ho|apply inb_nil]).
  rewrite (combination_eq s1 s2 B1 B2 WB1 WB2) by congruence. rewrite SB1, at_tab by exact IO.
  rewrite !(ar_dist EX). apply (ar_shuffle EX).
Qed.
End Linear.

Lemma integers_exact : exact_arithmetic Z.
Proof. split; intros; cbv [add mul zero arith_zero Arith_Z Zero_Z]; ring. Qed.

(** Layers for signals on a group are an exception to the README's claim: with the same
    arguments and the same number of channels per group element, the layer for P4 has four
    times as many weights as the one for P1. *)
Theorem C77_group_signals_refuted :
  exists L1 L4 : conv_layer Z,
    built 2 false (with_group "P1" "" (One 3) 5 None None None false) (static_signal_shape true None [7; 7] 1 2) some_weights some_weights L1 /\
    built 2 false (with_group "P4" "" (One 3) 5 None None None false) (static_signal_shape true None [7; 7] 4 2) some_weights some_weights L4 /\
    parameters L1 = 90 /\ parameters L4 = 4 * 90.
Proof.
  assert (S : forall (a : conv_args Z) input n, match test_layer 2 false a input some_weights some_weights with
                | Ok L => (parameters L =? n)%nat | Err _ => false end = true ->
              exists L, built 2 false a input some_weights some_weights L /\ parameters L = n).
  { intros a input n Q. destruct (test_layer 2 false a input some_weights some_weights) as [L|] eqn:T; [|discriminate Q].
    exists L. split; [apply test_layer_built; exact T|apply Nat.eqb_eq; exact Q]. }
  destruct (S (with_group "P1" "" (One 3) 5 None None None false) (static_signal_shape true None [7; 7] 1 2) 90) as [L1 [B1 P1]]; [vm_compute; reflexivity|].
  destruct (S (with_group "P4" "" (One 3) 5 None None None false) (static_signal_shape true None [7; 7] 4 2) (4 * 90)) as [L4 [B4 P4]]; [vm_compute; reflexivity|].
  exists L1, L4. split; [exact B1|]. split; [exact B4|]. split; [exact P1|exact P4].
Qed.

(** A lifting layer and a second layer for P4M with kernel 3 and 2 filters: 9 * 1 * 2 + 2
    and 9 * 8 * 2 * 2 + 2 parameters; and a transposed layer for P4M from a signal on P4
    with 2 channels, 9 * 4 * 2 * 3 + 3 parameters. *)
Example C77_case :
  map (fun R => match R with Ok L => parameters (A := Z) L | Err _ => 0 end)
    [test_layer 2 false (with_group "P4M" "" (One 3) 2 None None None true) (static_signal_shape false None [8; 8] 0 1) some_weights some_weights;
     test_layer 2 false (with_group "P4M" "" (One 3) 2 None None None true) (static_signal_shape true None [6; 6] 8 2) some_weights some_weights;
     test_layer 2 true (with_group "P4M" "P4" (One 3) 3 None None None true) (static_signal_shape true None [4; 4] 4 2) some_weights some_weights]
  = [20; 290; 219].
Proof. vm_compute. reflexivity. Qed.

(** A convolution and a transposed convolution for P4 applied to 3 x - y; with a bias
    the layer is not linear. *)
Definition linear_at (R : result (conv_layer Z)) (x1 x2 : tensor Z) : bool :=
  match R with
  | Ok L => same_result (apply L (combination 3%Z x1 (-1)%Z x2)) (y1 <- apply L x1 ;; y2 <- apply L x2 ;; Ok (combination 3%Z y1 (-1)%Z y2))
  | Err _ => false
  end.
Definition linear_args (name H : string) (use_bias : bool) : conv_args Z :=
  mkConvArgs (ByName name) (Some H) (One 3) 1 None None None "channels_last" false use_bias (fun z => z).
Example C78_case :
  map (fun R => linear_at R (some_signal [1; 5; 5; 4; 2]) (tab [1; 5; 5; 4; 2] (fun i => Z.of_nat (nth 1 i 0 * nth 2 i 0 + nth 3 i 0))))
    [test_layer 2 false (linear_args "P4" "P2" false) (static_signal_shape true None [5; 5] 4 2) some_weights some_weights;
     test_layer 2 true (linear_args "P4" "" false) (static_signal_shape true None [5; 5] 4 2) some_weights some_weights;
     test_layer 2 false (linear_args "P4" "P2" true) (static_signal_shape true None [5; 5] 4 2) some_weights some_weights]
  = [true; true; false].
Proof. vm_compute. reflexivity. Qed.

(** Doubling the kernel and the bias doubles the output. *)
Example C78_case_weights :
  match test_layer 2 false (linear_args "P4" "" true) (static_signal_shape true None [4; 4] 4 1) some_weights some_weights with
  | Ok L =>
      match cl_kernel L, cl_bias L with
      | Some K, Some B =>
          same_result (apply (assigned L (combination 1%Z K 1%Z K) (combination 1%Z B 1%Z B)) (some_signal [1; 4; 4; 4; 1]))
                      (y <- apply L (some_signal [1; 4; 4; 4; 1]) ;; Ok (combination 2%Z y 0%Z y))
      | _, _ => false
      end
  | Err _ => false
  end = true.
Proof. vm_compute. reflexivity. Qed.

Print Assumptions C77_number_of_parameters.
Print Assumptions C77_lifting_layers_have_as_many_parameters.
Print Assumptions C77_group_signals_refuted.
Print Assumptions C78_linear_in_the_signal.
Print Assumptions C78_linear_in_the_weights.
