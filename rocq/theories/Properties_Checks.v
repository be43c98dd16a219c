(** C38, C49: [check_equivariance], and what it presupposes: layers treat the samples
    of a batch independently. *)
From Verif Require Import LayerBatch Properties_Conv Properties_Pooling.
Local Open Scope string_scope.
Local Open Scope list_scope.

Section Samples.
Context {A : Type} {RA : Arith A} {PA : Pool A}.

(** Convolution layers, on samples of any size [m']. *)
Theorem C49_convolutions_treat_samples_independently name G (a : conv_args A) H opt (tr valued : bool) bs m m' g c kinit binit L k s dl :
  layer_for name G a -> ca_subgroup a = Some H -> option_of a opt ->
  let d := dimension_of name in
  built d tr a (static_signal_shape valued bs m g c) kinit binit L -> List.length m = d -> sizes d a k s dl ->
  List.length m' = d ->
  samplewise (m' ++ (if valued then [g; c] else [c])) (apply L).
Proof.
  intros LF HS OP d B Lm SZ Lm'.
  destruct (built_facts name G a H opt tr valued bs m g c kinit binit L k s dl LF HS OP B Lm SZ)
    as [OK [eb [ea [act [dom [WO [SA [SD [F [CC _]]]]]]]]]].
  apply (conv_samplewise G d _ _ tr valued act dom c _ (ca_filters a) k s dl eb ea (is_same opt) (ca_use_bias a) (ca_activation a) kinit binit L m' g OK F CC);
    [reflexivity|exact Lm'].
Qed.

(** Pooling layers (if they compute at all, see C32). *)
Theorem C49_pooling_treats_samples_independently name G d t (a : pool_args) H opt bs m m' g c L k s :
  pooling_for name G a -> pa_subgroup a = Some H -> pool_option a opt ->
  pooling_built d t a (bs :: map Some m ++ [Some g; Some c]) L -> List.length m = d -> pool_sizes d a k s ->
  (exists x y : tensor A, pool_call L x = Ok y) ->
  List.length m' = d ->
  samplewise (m' ++ [g; c]) (pool_call (A := A) L).
Proof.
  intros PF HS OP B Lm SZ [x [y C]] Lm'.
  destruct (pooling_facts name G d t a H opt bs m g c L k s x y PF HS OP B Lm SZ C)
    as [OK [GN [_ [eb [ea [sub [cos [DS [DC [SA F]]]]]]]]]].
  assert (NE : sub <> []).
  { destruct (sub_idx_facts _ _ _ _ OK _ _ SA) as [_ [_ [HD _]]]. destruct sub; [discriminate HD|discriminate]. }
  rewrite GN. exact (pool_samplewise G d _ _ sub cos k s eb ea (is_same opt) t L m' c OK F NE Lm').
Qed.

Lemma inb_repeat_1 n p : inb (repeat 1 n) p -> p = repeat 0 n.
Proof.
  revert p. induction n as [|n IH]; intros p I; cbn [repeat] in *.
  - destruct p; [reflexivity|inversion I].
  - destruct p as [|v p]; [inversion I|]. apply inb_cons in I as [V I]. rewrite <- (IH p I). f_equal. lia.
Qed.

(** Global pooling layers. *)
Theorem C49_global_pooling_treats_samples_independently d t fmt kd input L0 L m g c :
  known_format fmt ->
  global_init d t fmt kd = Ok L0 -> global_build L0 input = Ok L -> List.length m = d ->
  samplewise (tl (global_shape fmt 0 m g c)) (global_call (A := A) L).
Proof.
  intros KF I B Lm. right.
  assert (TL : forall b, global_shape fmt b m g c = b :: tl (global_shape fmt 0 m g c)) by (intros b; unfold global_shape; destruct (first_of fmt); reflexivity).
  exists (tl (if kd then global_shape fmt 0 (repeat 1 d) 1 c else [0; c])). intros x b W S.
  rewrite <- TL in S.
  destruct (what_global_pooling_computes d t fmt kd input L0 L x b m g c KF I B Lm S) as [y [Y [WY [SY AY]]]].
  exists y. split; [exact Y|]. split; [exact WY|]. split.
  { rewrite SY. unfold global_shape. destruct kd; [destruct (first_of fmt)|]; reflexivity. }
  intros bi BI. pose proof (shape_sample bi x b _ (eq_trans S (TL b))) as SS. rewrite <- TL in SS.
  destruct (what_global_pooling_computes d t fmt kd input L0 L (sample bi x) 1 m g c KF I B Lm SS) as [z [Z [WZ [SZ AZ]]]].
  rewrite Z. f_equal.
  assert (TY : exists s', (shape y = b :: s') /\ (shape z = 1 :: s') /\
    (forall i, inb s' i -> exists q, q < c /\ forall v, v :: i = if kd then global_shape fmt v (repeat 0 d) 0 q else [v; q])).
  { rewrite SY, SZ. unfold global_shape. destruct kd; [destruct (first_of fmt)|]; eexists; (split; [reflexivity|]; split; [reflexivity|]); intros i J.
    - destruct i as [|q i]; [inversion J|]. apply inb_cons in J as [Q J]. exists q. split; [exact Q|]. intros v. repeat f_equal.
      apply inb_app_split in J as [p [r [-> [J1 J2]]]]. rewrite (inb_repeat_1 _ _ J1). f_equal.
      destruct r as [|w r]; [inversion J2|]. apply inb_cons in J2 as [Wr J2]. destruct r; [|inversion J2]. f_equal. lia.
    - apply inb_app_split in J as [p [r [-> [J1 J2]]]]. destruct r as [|w r]; [inversion J2|]. apply inb_cons in J2 as [Wr J2].
      destruct r as [|q r]; [inversion J2|]. apply inb_cons in J2 as [Q J2]. destruct r; [|inversion J2].
      exists q. split; [exact Q|]. intros v. rewrite (inb_repeat_1 _ _ J1). repeat f_equal. lia.
    - destruct i as [|q i]; [inversion J|]. apply inb_cons in J as [Q J]. destruct i; [|inversion J]. exists q. split; [exact Q|]. reflexivity. }
  destruct TY as [s' [TY [TZ IX]]].
  apply tensor_ext; [exact WZ|apply (wf_sample bi y b s' TY)|rewrite TZ, (shape_sample bi y b s' TY); reflexivity|].
  intros i J. rewrite TZ in J. destruct i as [|v i]; [inversion J|]. apply inb_cons in J as [V J]. assert (v = 0) as -> by lia.
  rewrite (at_sample bi y b s' i TY J). destruct (IX i J) as [q [Q EQ]]. rewrite !EQ.
  rewrite AZ by (try exact Q; lia). rewrite AY by assumption.
  f_equal. apply map_ext_in. intros p P. apply In_indices in P. f_equal. apply map_ext_in. intros h Hh. apply in_seq in Hh.
  assert (TG : exists i', (forall v, global_shape fmt v p h q = v :: i') /\ inb (tl (global_shape fmt 0 m g c)) i').
  { unfold global_shape. destruct (first_of fmt); eexists; (split; [reflexivity|]); cbn [tl].
    - apply inb_cons. split; [exact Q|]. apply inb_app; [exact P|]. apply inb_cons. split; [lia|apply inb_nil].
    - apply inb_app; [exact P|]. apply inb_cons. split; [lia|]. apply inb_cons. split; [exact Q|apply inb_nil]. }
  destruct TG as [i' [TG IG]]. rewrite !TG. apply (at_sample bi x b (tl (global_shape fmt 0 m g c)) i'); [rewrite S; apply TL|exact IG].
Qed.

(** [check_equivariance] returns zero exactly if the layer commutes with every element
    of the acting subgroup at the given signal.  [sp] are the spatial axes and [ga] the
    group axis; [H], [K], [T] are the acting, domain and target group ([None] for
    signals on the grid); [gx] and [gy] are the transformed signals and the transformed
    output. *)
Context {MA : Metric A}.

Theorem C38_check_equivariance_decides name G (layer : tensor A -> result (tensor A)) (x gx y gy : tensor A) sp ga H K T act b s :
  measures_differences A -> dict_get group_dict name = Ok G -> samplewise s layer ->
  let d := dimension_of name in
  wf x -> shape x = b :: s -> spatial_axes_ok d sp (rank x) -> subgroup_indices G H act ->
  signal_on G K sp ga x -> layer x = Ok y -> data y <> [] -> spatial_axes_ok d sp (rank y) -> signal_on G T sp ga y ->
  action G x (map Z.of_nat sp) 0 (option_map Z.of_nat ga) (Some H) K = Ok gx ->
  action G y (map Z.of_nat sp) 0 (option_map Z.of_nat ga) (Some H) T = Ok gy ->
  (check_equivariance layer x G (map Z.of_nat sp) (option_map Z.of_nat ga) (Some H) K T = Ok zero <->
   forall u, u < List.length act -> layer (slice 0 u gx) = Ok (slice 0 u gy)).
Proof.
  intros MD DG SW d W SH SP SA SO LX NEy SPy SOy RX RY.
  pose proof (lib_name_nonempty _ _ DG) as NE. apply lib_ok in DG as [NG OK]. fold d in OK. rewrite <- NG in NE.
  exact (check_decides G d _ _ OK NE layer x gx y gy sp ga H K T act b s MD (samplewise_batchwise s layer SW) W SH SP SA SO LX NEy SPy SOy RX RY).
Qed.

Lemma passes name G (layer : tensor A -> result (tensor A)) (x gx y : tensor A) H K T act b s :
  measures_differences A -> dict_get group_dict name = Ok G -> samplewise s layer ->
  let d := dimension_of name in
  wf x -> shape x = b :: s -> spatial_axes_ok d (seq 1 d) (rank x) -> subgroup_indices G H act ->
  signal_on G K (seq 1 d) (Some (d + 1)) x -> layer x = Ok y -> data y <> [] -> spatial_axes_ok d (seq 1 d) (rank y) ->
  signal_on G T (seq 1 d) (Some (d + 1)) y ->
  action G x (spatial_axes d) 0 (group_axis d) (Some H) K = Ok gx ->
  commutes_at (fun x => action G x (spatial_axes d) 0 (group_axis d) (Some H) K)
              (fun y => action G y (spatial_axes d) 0 (group_axis d) (Some H) T) layer x ->
  check_equivariance layer x G (spatial_axes d) (group_axis d) (Some H) K T = Ok zero.
Proof.
  intros MD DG SW d W SH SP SA SO LX NEy SPy SOy RX CA.
  destruct (CA gx y RX LX) as [gy [RY [_ Q]]].
  apply (proj2 (C38_check_equivariance_decides name G layer x gx y gy (seq 1 d) (Some (d + 1)) H K T act b s MD DG SW W SH SP SA SO LX NEy SPy SOy RX RY)).
  apply lib_ok in DG as [_ OK].
  destruct (action_slices G _ _ _ OK x gx (seq 1 d) (Some (d + 1)) H K act W SP SA SO RX) as [SG _]. rewrite SG in Q. exact Q.
Qed.

Lemma axes_of_signal name G (x : tensor A) b m r : dict_get group_dict name = Ok G ->
  let d := dimension_of name in
  List.length m = d -> shape x = b :: m ++ r -> spatial_axes_ok d (seq 1 d) (rank x).
Proof.
  intros DG d Lm SH. unfold spatial_axes_ok, rank. rewrite SH. cbn [List.length]. rewrite app_length, Lm.
  split; [apply seq_length|]. split; [apply seq_NoDup|]. split.
  - intros v I. apply in_seq in I. lia.
  - intros ->. exists 1. reflexivity.
Qed.

Lemma group_signal_on name G (x : tensor A) b m g c K dom :
  let d := dimension_of name in
  List.length m = d -> shape x = b :: m ++ [g; c] -> subgroup_indices G K dom -> g = List.length dom ->
  signal_on G (Some K) (seq 1 d) (Some (d + 1)) x.
Proof.
  intros d Lm SH SD ->. exists (d + 1), dom. split; [reflexivity|]. unfold rank. rewrite SH. cbn [List.length]. rewrite app_length, Lm. cbn [List.length].
  split; [lia|]. split; [intros I; apply in_seq in I; lia|]. split; [exact SD|].
  replace (d + 1) with (S d) by lia. cbn [nth]. rewrite app_nth2 by lia. rewrite Lm, Nat.sub_diag. reflexivity.
Qed.

(** For the layers of C21, C22 and C32 it returns zero, whatever the weights and the
    signal, as long as there is something to compare. *)
Theorem C38_lifting_convolutions_pass name G (a : conv_args A) H bs m c kinit binit L k s x b gx y :
  measures_differences A -> add_commutes A ->
  layer_for name G a -> ca_subgroup a = Some H -> ca_allow a = false ->
  let d := dimension_of name in
  built d false a (bs :: map Some m ++ [Some c]) kinit binit L -> List.length m = d ->
  sizes d a k s (repeat 1 d) -> respects name s ->
  wf x -> shape x = b :: m ++ [c] -> transforms_of_grid_signal G d H x = Ok gx ->
  apply L x = Ok y -> data y <> [] ->
  check_equivariance (apply L) x G (spatial_axes d) (group_axis d) (Some H) None (Some H) = Ok zero.
Proof.
  intros MD ADD LF HS AL d B Lm SZ RS W SH R CA NE.
  assert (P : exists opt, option_of a opt).
  { destruct B as [L0 [I B]]. pose proof LF as [DG [AG AF]].
    destruct (conv_init_inv G d name false a L0 DG AG AF I) as [p [_ [_ [_ [_ [PN _]]]]]]. exists (upper p), p. auto. }
  destruct P as [opt OP].
  destruct (built_facts name G a H opt false false bs m 0 c kinit binit L k s (repeat 1 d) LF HS OP B Lm SZ)
    as [OK [eb [ea [act [dom [_ [SA [_ [F [CC _]]]]]]]]]].
  destruct (conv_output G d _ _ false false act dom c c (ca_filters a) k s (repeat 1 d) eb ea _ _ _ _ _ L m 0 b x y OK F CC eq_refl Lm W SH CA)
    as [WY [mo [Lmo SY]]].
  pose proof LF as [DG _].
  apply (passes name G (apply L) x gx y H None (Some H) act b (m ++ [c])); try assumption.
  - exact (C49_convolutions_treat_samples_independently name G a H opt false false bs m m 0 c kinit binit L k s (repeat 1 d) LF HS OP B Lm SZ Lm).
  - exact (axes_of_signal name G x b m [c] DG Lm SH).
  - exact I.
  - exact (axes_of_signal name G y b mo _ DG Lmo SY).
  - exact (group_signal_on name G y b mo _ _ H act Lmo SY SA eq_refl).
  - exact (C21_lifting_convolution_is_equivariant name G a H bs m c kinit binit L k s x b ADD LF HS AL B Lm SZ RS W SH).
Qed.

Theorem C38_group_convolutions_pass name G (a : conv_args A) H bs m g c kinit binit L k s x b gx y :
  measures_differences A -> add_commutes A ->
  layer_for name G a -> ca_subgroup a = Some H -> ca_allow a = false ->
  let d := dimension_of name in
  built d false a (bs :: map Some m ++ [Some g; Some c]) kinit binit L -> List.length m = d ->
  sizes d a k s (repeat 1 d) -> respects name s ->
  wf x -> shape x = b :: m ++ [g; c] -> transforms_of_group_signal G d H "" x = Ok gx ->
  apply L x = Ok y -> data y <> [] ->
  check_equivariance (apply L) x G (spatial_axes d) (group_axis d) (Some H) (Some "") (Some H) = Ok zero.
Proof.
  intros MD ADD LF HS AL d B Lm SZ RS W SH R CA NE.
  assert (P : exists opt, option_of a opt).
  { destruct B as [L0 [I B]]. pose proof LF as [DG [AG AF]].
    destruct (conv_init_inv G d name false a L0 DG AG AF I) as [p [_ [_ [_ [_ [PN _]]]]]]. exists (upper p), p. auto. }
  destruct P as [opt OP].
  destruct (built_facts name G a H opt false true bs m g c kinit binit L k s (repeat 1 d) LF HS OP B Lm SZ)
    as [OK [eb [ea [act [dom [_ [SA [SD [F [CC _]]]]]]]]]]. destruct (SD eq_refl) as [SD' GD].
  destruct (conv_output G d _ _ false true act dom c _ (ca_filters a) k s (repeat 1 d) eb ea _ _ _ _ _ L m g b x y OK F CC eq_refl Lm W SH CA)
    as [WY [mo [Lmo SY]]].
  pose proof LF as [DG _].
  apply (passes name G (apply L) x gx y H (Some "") (Some H) act b (m ++ [g; c])); try assumption.
  - exact (C49_convolutions_treat_samples_independently name G a H opt false true bs m m g c kinit binit L k s (repeat 1 d) LF HS OP B Lm SZ Lm).
  - exact (axes_of_signal name G x b m _ DG Lm SH).
  - exact (group_signal_on name G x b m _ _ "" dom Lm SH SD' GD).
  - exact (axes_of_signal name G y b mo _ DG Lmo SY).
  - exact (group_signal_on name G y b mo _ _ H act Lmo SY SA eq_refl).
  - exact (C22_group_convolution_is_equivariant name G a H bs m g c kinit binit L k s x b ADD LF HS AL B Lm SZ RS W SH).
Qed.

Theorem C38_pooling_passes name G t (a : pool_args) H opt bs m g c L k s st (x gx y : tensor A) b :
  measures_differences A -> order_irrelevant (pool_fun (A := A) t) ->
  pooling_for name G a -> pa_subgroup a = Some H -> pool_option a opt ->
  (pa_allow a = false \/ In opt ["SAME_EQUIV"; "VALID_EQUIV"]) ->
  let d := dimension_of name in
  pooling_built d t a (bs :: map Some m ++ [Some g; Some c]) L -> List.length m = d -> pool_sizes d a k s ->
  respects name k -> respects name s -> pa_strides a = Some st ->
  (opt = "SAME_EQUIV" -> forall ax, ax < d -> Nat.Even (rows_added (nth ax m 0) (nth ax k 0) (nth ax s 0))) ->
  wf x -> shape x = b :: m ++ [g; c] -> transforms_of_group_signal G d H "" x = Ok gx ->
  pool_call L x = Ok y -> data y <> [] ->
  check_equivariance (pool_call L) x G (spatial_axes d) (group_axis d) (Some H) (Some "") (Some H) = Ok zero.
Proof.
  intros MD OI PF HS OP AL d B Lm SZ RK RS ST EV W SH R CA NE.
  destruct (pooling_facts name G d t a H opt bs m g c L k s x y PF HS OP B Lm SZ CA)
    as [OK [GN [_ [eb [ea [sub [cos [DS [DC [SA F]]]]]]]]]]. fold d in OK, F.
  assert (NES : sub <> []).
  { destruct (sub_idx_facts _ _ _ _ OK _ _ SA) as [_ [_ [HD _]]]. destruct sub; [discriminate HD|discriminate]. }
  pose proof SH as SH'. rewrite GN in SH'.
  destruct (pool_output G d _ _ sub cos k s eb ea _ t L m c b x y OK F NES Lm W SH' CA) as [WY [mo [Lmo SY]]].
  pose proof PF as [DG _].
  apply (passes name G (pool_call L) x gx y H (Some "") (Some H) sub b (m ++ [g; c])); try assumption.
  - exact (C49_pooling_treats_samples_independently name G d t a H opt bs m m g c L k s PF HS OP B Lm SZ (ex_intro _ x (ex_intro _ y CA)) Lm).
  - exact (axes_of_signal name G x b m _ DG Lm SH).
  - apply (group_signal_on name G x b m g c "" (seq 0 (List.length (symmetries_of name))) Lm SH); [exact (sub_idx_whole _ _ _ _ OK)|].
    rewrite seq_length. exact GN.
  - exact (axes_of_signal name G y b mo _ DG Lmo SY).
  - exact (group_signal_on name G y b mo _ _ H sub Lmo SY SA eq_refl).
  - exact (C32_pooling_is_equivariant name G t a H opt bs m g c L k s st x b m OI PF HS OP AL B Lm SZ RK RS ST EV Lm (fun _ _ => eq_refl) W SH).
Qed.

End Samples.
Print Assumptions C49_convolutions_treat_samples_independently.
Print Assumptions C49_pooling_treats_samples_independently.
Print Assumptions C49_global_pooling_treats_samples_independently.
Print Assumptions C38_check_equivariance_decides.
Print Assumptions C38_lifting_convolutions_pass.
Print Assumptions C38_group_convolutions_pass.
Print Assumptions C38_pooling_passes.

(** Concrete cases, over the integers.  A convolution passes. *)
Definition checked (name H : string) (K : option string) (R : result (conv_layer Z)) (x : tensor Z) : result Z :=
  G <- dict_get group_dict name ;; L <- R ;;
  check_equivariance (apply L) x G (spatial_axes (dimension_of name)) (group_axis (dimension_of name)) (Some H) K (Some H).

Example C38_case_convolution :
  checked "P4" "P2" (Some "") (test_layer 2 false (with_group "P4" "P2" (One 2) 1 (Some (One 1)) (Some (Some "valid_equiv")) None true)
    [None; Some 3; Some 3; Some 4; Some 1] some_weights some_weights) (some_signal [1; 3; 3; 4; 1]) = Ok 0%Z /\
  checked "P4" "" None (test_layer 2 false (with_group "P4" "" (One 2) 1 (Some (One 1)) (Some (Some "valid_equiv")) None true)
    [None; Some 3; Some 3; Some 1] some_weights some_weights) (some_signal [1; 3; 3; 1]) = Ok 0%Z.
Proof. vm_compute. auto. Qed.

(** The layer of C43 with different strides does not. *)
Example C38_case_not_equivariant :
  checked "P4" "" None (test_layer 2 false (with_group "P4" "" (One 2) 1 (Some (Tuple [1; 3]%Z)) (Some (Some "valid_equiv")) None true)
    [None; Some 3; Some 3; Some 1] some_weights some_weights) (some_signal [1; 3; 3; 1]) = Ok 498%Z.
Proof. vm_compute. reflexivity. Qed.

(** A layer that adds a different number to every pixel does not, while adding the
    same number everywhere does. *)
Definition plus (f : list nat -> Z) (x : tensor Z) : result (tensor Z) := Ok (tab (shape x) (fun i => (at_ x i + f i)%Z)).

Example C38_case_function :
  check_equivariance (plus (fun i => Z.of_nat (nth 1 i 0))) (some_signal [2; 3; 3; 1]) P4 [1; 2]%Z None (Some "P4") None None = Ok 2%Z /\
  check_equivariance (plus (fun _ => 7%Z)) (some_signal [2; 3; 3; 1]) P4 [1; 2]%Z None (Some "P4") None None = Ok 0%Z.
Proof. vm_compute. auto. Qed.

(** A layer that mixes the samples of a batch: nothing is claimed, and indeed the check
    is wrong about it.  [first_sample] returns the first sample of the batch for every
    sample; it commutes with the transformations, but the check evaluates all
    transformed signals in one batch. *)
Definition first_sample (x : tensor Z) : result (tensor Z) := Ok (tab (shape x) (fun i => at_ x (0 :: tl i))).

Example C38_case_mixing_samples :
  commutes_b (transforms_of_grid_signal P4 2 "") (transforms_of_grid_signal P4 2 "") first_sample (some_signal [1; 3; 3; 1]) = true /\
  (match check_equivariance first_sample (some_signal [1; 3; 3; 1]) P4 [1; 2]%Z None (Some "P4") None None with Ok v => (0 < v)%Z | Err _ => False end).
Proof. vm_compute. auto. Qed.

(** C49: the second sample of a batch of two. *)
Example C49_case :
  match test_layer 2 false (with_group "P4" "P2" (One 2) 1 (Some (One 1)) (Some (Some "valid_equiv")) None true)
    [None; Some 3; Some 3; Some 4; Some 1] some_weights some_weights with
  | Ok L => match apply L (some_signal [2; 3; 3; 4; 1]) with
            | Ok y => shape y = [2; 2; 2; 2; 1] /\ same_result (apply L (sample 1 (some_signal [2; 3; 3; 4; 1]))) (Ok (sample 1 y)) = true /\
                      same_tensor (sample 0 y) (sample 1 y) = false
            | Err _ => False
            end
  | Err _ => False
  end.
Proof. vm_compute. auto. Qed.

Example C49_case_pooling :
  match test_pool 2 "max" (pooling "P4" "P2" (One 2) (Some (One 1)) None) (map Some [1; 3; 3; 4; 1]) with
  | Ok L => match pool_call L (some_signal [2; 3; 3; 4; 1]) with
            | Ok y => same_result (pool_call L (sample 1 (some_signal [2; 3; 3; 4; 1]))) (Ok (sample 1 y)) = true
            | Err _ => False
            end
  | Err _ => False
  end.
Proof. vm_compute. auto. Qed.
