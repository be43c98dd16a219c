(** C66: layers for the trivial group P1, in any number of dimensions. *)
From Verif Require Import TrivialFacts Properties_Padding Properties_Config Properties_Layers Properties_Build Properties_TransposedBuild.
Local Open Scope string_scope.
Local Open Scope list_scope.

Section Trivial.
Context {A : Type} {RA : Arith A}.

Lemma P1_subgroup H idx : subgroup_indices P1 H idx -> (H = "" \/ H = "P1") /\ idx = [0].
Proof.
  destruct P1_parts as [PN [_ [_ [_ [PS _]]]]]. unfold subgroup_indices. cbn [parse_subgroup]. rewrite PN.
  destruct (String.eqb_spec H "") as [->|N]; cbn [subgroup_get]; rewrite PS; cbn [dict_get].
  - rewrite String.eqb_refl. intros Q. split; [left; reflexivity|congruence].
  - destruct (String.eqb_spec H "P1") as [->|]; [|discriminate]. intros Q. split; [right; reflexivity|congruence].
Qed.

Lemma P1_listed H : (exists idx, subgroup_indices P1 H idx) <-> (H = "" \/ H = "P1").
Proof.
  split.
  - intros [idx S]. exact (proj1 (P1_subgroup H idx S)).
  - destruct P1_parts as [PN [_ [_ [_ [PS _]]]]]. exists [0]. unfold subgroup_indices.
    destruct H0 as [->| ->]; cbn [parse_subgroup String.eqb Ascii.eqb Bool.eqb subgroup_get]; rewrite ?PN, PS; reflexivity.
Qed.

(** A group convolution for P1 is the ordinary convolution of the padded input, with
    an axis of size 1 inserted in its output. *)
Theorem C66_convolutions_for_P1 d (a : conv_args A) H opt (valued : bool) bs m g c kinit binit L k s dl :
  layer_for "P1" P1 a -> ca_subgroup a = Some H -> option_of a opt ->
  let o := ca_filters a in
  let C := if valued then g * c else c in
  built d false a (static_signal_shape valued bs m g c) kinit binit L -> List.length m = d -> sizes d a k s dl ->
  exists P, padding_of a false d bs m C P /\
    forall x b m', wf x -> List.length m' = d -> shape x = signal_shape valued b m' g c ->
    exists xp, padding_call P (merged_signal valued c g x b m') = Ok xp /\
    apply L x = (y <- base_conv_call false "channels_last" s dl (backend_padding opt) o (ca_activation a)
                        (initial_kernel false k C o kinit) (initial_bias a binit) xp ;;
                 expand_dims y (Z.of_nat (d + 1))).
Proof.
  intros LF HS OP o C B Lm SZ. pose proof (P1_everywhere d) as OK.
  destruct (built_facts_at "P1" P1 d _ _ a H opt false valued bs m g c kinit binit L k s dl OK LF HS OP B Lm SZ)
    as [eb [ea [act [dom [_ [SA _]]]]]].
  assert (T1 : List.length (symmetries_of (if String.eqb H "" then "P1" else H)) = 1).
  { destruct (P1_subgroup H act SA) as [[->| ->] _]; vm_compute; reflexivity. }
  exact (trivial_at "P1" P1 d _ _ a H opt valued bs m g c kinit binit L k s dl OK LF HS OP T1 B Lm SZ).
Qed.

Lemma expand_slice (y : tensor A) k : wf y -> k < rank y -> nth k (shape y) 0 = 1 -> expand_dims (slice k 0 y) (Z.of_nat k) = Ok y.
Proof.
  intros W K N. unfold slice.
  assert (LR : k <= List.length (remove_at k (shape y))) by (rewrite length_remove_at by exact K; unfold rank in K; lia).
  rewrite expand_dims_tab by exact LR. f_equal.
  assert (Es : shape y = insert_at k 1 (remove_at k (shape y))) by (rewrite <- N at 1; symmetry; apply insert_remove_at; exact K).
  rewrite <- (tab_at y W) at 2. rewrite Es at 2. rewrite tab_stk by exact LR. apply stk_ext; [exact LR|]. intros g i G I. f_equal. f_equal. lia.
Qed.

(** A transposed group convolution for P1 is the ordinary transposed convolution of the
    padded input, up to that axis, and up to the order of the weights: the values of its
    kernel, of shape (k, filters, C), are read as one of shape (k, C, filters). *)
Theorem C66_transposed_convolutions_for_P1 d (a : conv_args A) H opt (valued : bool) bs m g c kinit binit L k s dl :
  layer_for "P1" P1 a -> ca_subgroup a = Some H -> option_of a opt ->
  let o := ca_filters a in
  let C := if valued then g * c else c in
  let K := initial_kernel true k C o kinit in
  built d true a (static_signal_shape valued bs m g c) kinit binit L -> List.length m = d -> sizes d a k s dl ->
  exists P Kr, padding_of a true d bs m C P /\
    swapaxes (read_as (k ++ [C; o]) K) (-1) (-2) = Ok Kr /\
    forall x b m', wf x -> List.length m' = d -> shape x = signal_shape valued b m' g c ->
    exists xp, padding_call P (merged_signal valued c g x b m') = Ok xp /\
    apply L x = (y <- base_conv_call true "channels_last" s dl (backend_padding opt) o (ca_activation a)
                        Kr (initial_bias a binit) xp ;;
                 expand_dims y (Z.of_nat (d + 1))).
Proof.
  intros LF HS OP o C K B Lm SZ. pose proof (P1_everywhere d) as OK.
  destruct (built_facts_at "P1" P1 d _ _ a H opt true valued bs m g c kinit binit L k s dl OK LF HS OP B Lm SZ)
    as [eb [ea [act [dom [WO [SA [SD [CF [CC [KS [RS PO]]]]]]]]]]]. fold C in CF, PO. fold o in CF.
  destruct (P1_subgroup "" act SA) as [_ ->].
  pose proof (cf_k _ _ _ _ _ _ _ _ _ _ _ _ _ _ _ _ _ _ _ _ _ _ CF) as Lk.
  pose proof (cf_fit _ _ _ _ _ _ _ _ _ _ _ _ _ _ _ _ _ _ _ _ _ _ CF) as KF.
  assert (LD : List.length (data K) = prod (k ++ [C; o])) by (rewrite <- prod_swap; apply wf_tab).
  assert (WR : wf (read_as (k ++ [C; o]) K)) by exact LD.
  destruct (kval_slices P1 d _ _ OK valued [0] dom (Some "") (Some H) c C o k g K SA SD eq_refl Lk KF LD) as [KT [RK [WK [SKT PK]]]].
  pose proof (first_slice P1 d _ _ OK valued [0] dom (Some "") (Some H) c C o k g K KT SA SD eq_refl Lk KF LD RK) as FS.
  set (Kr := tab (k ++ [o; C]) (ker d (fun j q r => at_ (read_as (k ++ [C; o]) K) (j ++ [r; q])))).
  exists (gt_padding (cl_gt L)), Kr. split; [exact PO|]. split.
  { rewrite <- (tab_at _ WR) at 1. change (shape (read_as (k ++ [C; o]) K)) with (k ++ [C; o]).
    rewrite (tab_ker d) by exact Lk. rewrite swap_ker by exact Lk. reflexivity. }
  intros x b m' W Lm' SH.
  destruct (transpose_slices P1 d _ _ OK valued [0] dom c C o k s dl eb ea (is_same opt) (ca_use_bias a) (ca_activation a) kinit binit
              L x b m' g CF eq_refl Lm' W SH) as [xp [y [XP [CA SL]]]].
  exists xp. split; [exact XP|].
  pose proof (conv_apply_call P1 d _ _ true valued [0] dom c C o k s dl eb ea (is_same opt) (ca_use_bias a) (ca_activation a)
      kinit binit L x b m' g CF CC Lm' SH) as AC.
  assert (AP : apply L x = Ok y) by (unfold apply; rewrite AC, CA; reflexivity).
  assert (CB : cl_bias L = initial_bias a binit) by (destruct CF; exact cf_bias). rewrite <- CB.
  specialize (SL 0 Kr Nat.lt_0_1 eq_refl).
  change (padding_string (is_same opt)) with (backend_padding opt) in SL. rewrite SL.
  - rewrite AP. cbn [bind].
    pose proof (merged_input d valued x b m' g c W Lm' SH) as MG. change (if valued then g * c else c) with C in MG.
    pose proof (conv_transpose_call_eq P1 d _ _ OK valued [0] dom c C o k s dl eb ea (is_same opt) (ca_use_bias a) (ca_activation a) kinit binit L x b m' _ CF Lm' MG) as CE.
    cbv zeta in CE. rewrite CA in CE.
    assert (EY : forall (L1 L2 : conv_layer A) (u v : tensor A), (L1, Ok u) = (L2, Ok v) -> u = v) by (intros; congruence).
    apply EY in CE.
    assert (YS : exists mo F, y = tab (b :: mo ++ [1; o]) F /\ List.length mo = d).
    { eexists. eexists. split; [exact CE|]. destruct CF.
      apply length_touts; [apply length_padded; assumption|rewrite length_vzip; lia|exact cf_s]. }
    destruct YS as [mo [F [-> LO]]]. symmetry. apply expand_slice; [apply wf_tab| |].
    + rewrite rank_tab. cbn [List.length]. rewrite app_length. cbn [List.length]. lia.
    + rewrite shape_tab. replace (d + 1) with (S d) by lia. cbn [nth]. rewrite app_nth2 by lia. rewrite LO, Nat.sub_diag. reflexivity.
  - intros j q r J Q R. unfold Kr. rewrite (at_ker d) by assumption. destruct (PK 0 Nat.lt_0_1) as [_ PS].
    change (tab (k ++ [o; C]) kinit) with K. rewrite (PS j q r J Q R). rewrite FS.
    replace (visible P1 valued dom c (nth 0 [0] 0) q) with true; [reflexivity|].
    destruct valued; [|reflexivity]. destruct (SD eq_refl) as [SD' GD]. destruct (P1_subgroup H dom SD') as [_ ->].
    unfold visible. cbn [negb orb nth List.length] in *. subst g. unfold C in Q. rewrite Nat.mul_1_l in Q.
    rewrite Nat.div_small by exact Q. vm_compute. reflexivity.
Qed.

(** When they build: the subgroup is P1 itself, on group signals the group axis has size
    1, and the padding and Keras accept the sizes; there is no condition on the shape of
    the kernel. *)
Theorem C66_when_convolutions_for_P1_build d (a : conv_args A) H opt (valued : bool) bs m g c kinit binit L0 k s dl :
  layer_for "P1" P1 a -> ca_subgroup a = Some H -> option_of a opt ->
  conv_init d false a = Ok L0 -> List.length m = d -> sizes d a k s dl ->
  let same := mem_str opt ["SAME"; "SAME_EQUIV"] in
  let t ax := backend_total same (nth ax m 0) (nth ax k 0) (nth ax s 0) in
  ((exists L, conv_build L0 (static_signal_shape valued bs m g c) kinit binit = Ok L) <->
   ((H = "" \/ H = "P1") /\ (valued = true -> g = 1) /\
    (if mem_str opt ["SAME"; "VALID"] then
       ca_allow a = true \/ forall ax, ax < d -> admissible (nth ax m 0) (t ax) (nth ax k 0) (nth ax s 0) 0
     else forall ax, ax < d -> exists e, admissible (nth ax m 0) (t ax) (nth ax k 0) (nth ax s 0) e) /\
    (same = true \/ forall ax, ax < d -> (nth ax k 0 - 1) * nth ax dl 0 + 1 <= nth ax m 0 + nth ax s 0))).
Proof.
  intros LF HS OP I Lm SZ same t.
  pose proof (conv_builds_at "P1" P1 d [identity d] a H opt valued bs m g c kinit binit L0 k s dl (P1_everywhere d) eq_refl LF HS OP I Lm SZ) as BI.
  cbv zeta in BI. rewrite BI, P1_listed. fold same. change (List.length (symmetries_of "P1")) with 1.
  change (fun ax => backend_total same (nth ax m 0) (nth ax k 0) (nth ax s 0)) with t.
  assert (R : respects "P1" k) by (intros Q; discriminate Q). tauto.
Qed.

Theorem C66_when_transposed_convolutions_for_P1_build d (a : conv_args A) H opt (valued : bool) bs m g c kinit binit L0 k s dl :
  layer_for "P1" P1 a -> ca_subgroup a = Some H -> option_of a opt ->
  conv_init d true a = Ok L0 -> List.length m = d -> sizes d a k s dl ->
  let same := mem_str opt ["SAME"; "SAME_EQUIV"] in
  let t ax := if same then backend_total true (nth ax m 0) (nth ax k 0) (nth ax s 0) else nth ax s 0 - nth ax k 0 in
  ((exists L, conv_build L0 (static_signal_shape valued bs m g c) kinit binit = Ok L) <->
   ((valued = true -> (H = "" \/ H = "P1") /\ g = 1) /\
    (if mem_str opt ["SAME"; "VALID"] then
       ca_allow a = true \/ forall ax, ax < d -> admissible (nth ax m 0) (t ax) (nth ax k 0) (nth ax s 0) 0
     else forall ax, ax < d -> exists e, admissible (nth ax m 0) (t ax) (nth ax k 0) (nth ax s 0) e))).
Proof.
  intros LF HS OP I Lm SZ same t.
  pose proof (transposed_builds_at "P1" P1 d [identity d] a H opt valued bs m g c kinit binit L0 k s dl (P1_everywhere d) eq_refl LF HS OP I Lm SZ) as BI.
  cbv zeta in BI. rewrite BI. fold same.
  change (fun ax => if same then backend_total true (nth ax m 0) (nth ax k 0) (nth ax s 0) else nth ax s 0 - nth ax k 0) with t.
  assert (R : respects "P1" k) by (intros Q; discriminate Q).
  assert (Q : (valued = true -> exists idx, subgroup_indices P1 H idx /\ g = List.length idx) <-> (valued = true -> (H = "" \/ H = "P1") /\ g = 1)).
  { split; intros X V; destruct (X V) as [X1 X2].
    - destruct X2 as [X2 X3]. destruct (P1_subgroup H X1 X2) as [X4 ->]. split; [exact X4|exact X3].
    - apply P1_listed in X1 as [idx X1]. exists idx. split; [exact X1|]. destruct (P1_subgroup H idx X1) as [_ ->]. exact X2. }
  rewrite Q. tauto.
Qed.
End Trivial.
Print Assumptions C66_convolutions_for_P1.
Print Assumptions C66_transposed_convolutions_for_P1.
Print Assumptions C66_when_convolutions_for_P1_build.
Print Assumptions C66_when_transposed_convolutions_for_P1_build.

(** GroupConv3D(2, 3, group='P1', padding='same_equiv') on volumes with two channels:
    its values are those of the ordinary 3D convolution, with an axis inserted. *)
Definition P1_case := with_group "P1" "" (One 3%Z) 2 None (Some (Some "same_equiv")) None true.
Definition P1_volume : tensor Z := tab [1; 4; 3; 3; 2] some_weights.

Example C66_case :
  layer_for "P1" P1 P1_case /\
  match test_layer 3 false P1_case [None; Some 4; Some 3; Some 3; Some 2] some_weights some_weights with
  | Ok L => exists y, base_conv_call false "channels_last" [1; 1; 1] [1; 1; 1] (backend_padding "SAME_EQUIV") 2 (ca_activation P1_case)
                (initial_kernel false [3; 3; 3] 2 2 some_weights) (initial_bias P1_case some_weights) P1_volume = Ok y /\
              shape y = [1; 4; 3; 3; 2] /\ apply L P1_volume = Ok (mkTensor [1; 4; 3; 3; 1; 2] (data y)) /\ 0 < list_max (map Z.to_nat (data y))
  | Err _ => False
  end.
Proof.
  split; [split; [exact P1_in_dict|split; [left; reflexivity|reflexivity]]|].
  vm_compute. eexists. split; [reflexivity|]. split; [reflexivity|]. split; [reflexivity|]. apply Nat.leb_le. reflexivity.
Qed.

(** A transposed layer for P1 is not the transposed convolution with its weights, if it
    has several filters and input channels. *)
Example C66_transposed_weights_are_in_order_refuted :
  exists L x y, test_layer 3 true (with_group "P1" "" (One 1%Z) 2 None (Some (Some "same_equiv")) None false)
      [None; Some 1; Some 1; Some 1; Some 2] some_weights some_weights = Ok L /\
    x = tab [1; 1; 1; 1; 2] (fun i => if Nat.eqb (nth 4 i 0) 0 then 7%Z else 0%Z) /\
    base_conv_call true "channels_last" [1; 1; 1] [1; 1; 1] (backend_padding "SAME_EQUIV") 2 (ca_activation P1_case)
        (initial_kernel true [1; 1; 1] 2 2 some_weights) None x = Ok y /\
    apply L x <> expand_dims y 4.
Proof.
  eexists. eexists. eexists. split; [vm_compute; reflexivity|]. split; [reflexivity|]. split; [vm_compute; reflexivity|].
  vm_compute. discriminate.
Qed.
