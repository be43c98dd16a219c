(** C80, C81: layers for [Group] objects that do not come from the library, and
    what [Group.__init__] makes of a parent. *)
From Verif Require Import UserGroups GlobalFacts Properties_Conv Properties_Config Properties_Pooling PoolSpec EquivSpec.
Local Open Scope string_scope.
Local Open Scope list_scope.

Section UserGroups.
Context {A : Type} {RA : Arith A} {PA : Pool A}.

(** ** C80: what the layers need *)

(** The layers look the name of the subgroup up in the library (group_transforms.py:47),
    also when the group itself is given as an object. *)
Theorem C80_unknown_subgroup_names_raise d G :
  (forall tr (a : conv_args A), ca_group a = Object G ->
     (ca_subgroup a = Some "" /\ ~ In (g_name G) library_names \/
      (exists H, ca_subgroup a = Some H /\ H <> "" /\ ~ In H library_names) \/ ca_subgroup a = None) ->
     conv_init d tr a = Err KeyError) /\
  (forall t (a : pool_args), pa_group a = Object G ->
     (pa_subgroup a = Some "" /\ ~ In (g_name G) library_names \/
      (exists H, pa_subgroup a = Some H /\ H <> "" /\ ~ In H library_names) \/ pa_subgroup a = None) ->
     pool_init d t a = Err KeyError).
Proof.
  assert (NI : forall s, ~ In s library_names -> dict_get group_dict s = Err KeyError).
  { intros s N. apply dict_get_none. exact N. }
  split.
  - intros tr a AG C. unfold conv_init, gt_init. rewrite AG. cbn [bind].
    destruct C as [[-> N]|[[H [-> [E N]]]| ->]]; cbn [parse_subgroup].
    + rewrite String.eqb_refl, NI by exact N. reflexivity.
    + apply String.eqb_neq in E. rewrite E, NI by exact N. reflexivity.
    + reflexivity.
  - intros t a AG C. unfold pool_init, gt_init. rewrite AG. cbn [bind].
    destruct C as [[-> N]|[[H [-> [E N]]]| ->]]; cbn [parse_subgroup].
    + rewrite String.eqb_refl, NI by exact N. reflexivity.
    + apply String.eqb_neq in E. rewrite E, NI by exact N. reflexivity.
    + reflexivity.
Qed.

(** With a subgroup that has a name in the library: ordinary layers, on grid signals
    and on group signals. *)
Theorem C80_convolution_for_a_described_group G d E square (a : conv_args A) H opt valued bs m c g kinit binit L k s dl m' x b :
  add_commutes A ->
  describes G d E square -> ca_group a = Object G -> ca_data_format a = "channels_last" ->
  ca_subgroup a = Some H -> option_of a opt ->
  (ca_allow a = false \/ In opt ["SAME_EQUIV"; "VALID_EQUIV"]) ->
  built d false a (static_signal_shape valued bs m g c) kinit binit L -> List.length m = d ->
  sizes d a k s dl -> (square = true -> all_equal s) -> (square = true -> all_equal dl) ->
  (In opt ["SAME"; "SAME_EQUIV"] -> forall ax, ax < d -> Nat.Odd (nth ax k 0) \/ Nat.Odd (nth ax dl 0)) ->
  List.length m' = d -> (forall ax, ax < d -> nth ax m 0 mod nth ax s 0 = nth ax m' 0 mod nth ax s 0) ->
  wf x -> shape x = signal_shape valued b m' g c ->
  commutes_at (if valued then transforms_of_group_signal G d H "" else transforms_of_grid_signal G d H)
              (transforms_of_group_signal G d H H) (apply L) x.
Proof.
  intros ADD DE AG AF HS [p [PN UP]] AL [L0 [I B]] Lm [SK [SS SD]] RS RD DF Lm' CO W SH gx y R CA.
  pose proof (describes_ok _ _ _ _ DE) as OK.
  assert (KN : known (g_name G) G) by (split; [reflexivity|exact (de_name _ _ _ _ DE)]).
  assert (GV : given (ca_group a) G) by (unfold given; rewrite AG; reflexivity).
  destruct (conv_build_inv_of G d _ _ OK (g_name G) false a L0 valued bs m g c kinit binit L KN GV AF I Lm B)
    as [p' [k' [s' [dl' [eb [ea [act [dom [_ [_ [_ [_ [_ [SA _]]]]]]]]]]]]]].
  rewrite HS in SA. unfold apply in *. destruct (conv_apply L x) as [L1 r] eqn:CA'. cbn [snd] in CA. subst r.
  assert (AL' : ca_allow a = false \/ is_plain (upper p) = false).
  { destruct AL as [AL|AL]; [left; exact AL|]. right. rewrite UP. cbn [In] in AL. destruct AL as [<-|[<-|[]]]; reflexivity. }
  assert (DF' : dilation_fine d (is_same (upper p)) k dl).
  { intros S ax Hax. apply DF; [|exact Hax]. rewrite UP in S. apply mem_str_In. exact S. }
  assert (R' : action G x (map Z.of_nat (seq 1 d)) 0 (if valued then Some (Z.of_nat (d + 1)) else None) (Some H) (if valued then Some "" else None) = Ok gx).
  { destruct valued; exact R. }
  destruct (conv_equivariance_of G d _ _ OK (g_name G) a L0 valued bs m g c kinit binit L p k s dl H act m' x b gx L1 y
              ADD KN GV AF I Lm B AL' PN SK SS RS SD RD DF' HS SA Lm' CO W SH R' CA')
    as [-> [_ [_ [SG [gy [GY [SGY SL]]]]]]].
  exists gy. split; [exact GY|]. rewrite SG, SGY. cbn [nth]. split; [reflexivity|]. intros u U. rewrite (SL u U). reflexivity.
Qed.

(** Transposed layers. *)
Theorem C80_transposed_layer_for_a_described_group G d E square (a : conv_args A) H U opt valued bs m g c kinit binit L k s x b gx :
  add_commutes A ->
  describes G d E square -> ca_group a = Object G -> ca_data_format a = "channels_last" ->
  ca_subgroup a = Some H -> option_of a opt ->
  built d true a (static_signal_shape valued bs m g c) kinit binit L -> List.length m = d ->
  (forall ax, ax < d -> 0 < nth ax m 0) ->
  sizes d a k s (repeat 1 d) -> (square = true -> all_equal s) -> readme_case d opt k s ->
  (valued = true -> U = H) ->
  wf x -> shape x = signal_shape valued b m g c ->
  (if valued then transforms_of_group_signal G d U H x else transforms_of_grid_signal G d U x) = Ok gx ->
  exists y gy, apply L x = Ok y /\ transforms_of_group_signal G d U "" y = Ok gy /\
    nth 0 (shape gy) 0 = nth 0 (shape gx) 0 /\
    forall u, u < nth 0 (shape gx) 0 -> apply L (slice 0 u gx) = Ok (slice 0 u gy).
Proof.
  intros ADD DE AG AF HS OP B Lm PM SZ RS RC HU W SH R.
  assert (TO : transpose_ok d (is_plain opt) (is_same opt) m k s).
  { intros ax Hax. split; [apply PM; exact Hax|]. destruct SZ as [SK _].
    destruct (std_pos d _ _ SK) as [_ Pk]. specialize (Pk ax Hax).
    assert (NS : In opt ["VALID"; "VALID_EQUIV"] -> is_same opt = false).
    { intros V. cbn [In] in V. destruct V as [<-|[<-|[]]]; reflexivity. }
    destruct RC as [[-> RC]|[-> RC]].
    - rewrite nth_ones by exact Hax. split; [lia|]. intros S.
      destruct RC as [V|OD]; [rewrite (NS V) in S; discriminate S|]. destruct (OD ax Hax) as [z Z].
      assert (ST : same_total (nth ax m 0) (nth ax k 0) 1 = nth ax k 0 - 1).
      { unfold same_total. replace (nth ax m 0 + 1 - 1) with (nth ax m 0) by lia. rewrite Nat.div_1_r. lia. }
      rewrite ST. split; [|right]; exists z; lia.
    - split; [lia|]. intros S. rewrite (NS RC) in S. discriminate S. }
  destruct OP as [p [PN UP]], B as [L0 [I B]], SZ as [SK [SS SD]]. subst opt.
  pose proof (describes_ok _ _ _ _ DE) as OK.
  assert (KN : known (g_name G) G) by (split; [reflexivity|exact (de_name _ _ _ _ DE)]).
  assert (GV : given (ca_group a) G) by (unfold given; rewrite AG; reflexivity).
  assert (HI : exists idx, sub_idx G (Some U) idx).
  { destruct valued; [exact (action_names_subgroup _ _ _ _ _ _ _ _ R)|exact (action_names_subgroup _ _ _ _ _ _ _ _ R)]. }
  destruct HI as [idx HI].
  assert (R' : action G x (map Z.of_nat (seq 1 d)) 0 (if valued then Some (Z.of_nat (d + 1)) else None) (Some U) (if valued then Some H else None) = Ok gx).
  { destruct valued; exact R. }
  destruct (transpose_equivariance_of G d _ _ OK (g_name G) a L0 valued bs m g c kinit binit L p k s (repeat 1 d) H U idx x b gx
              ADD KN GV AF I Lm B PN SK SS RS SD eq_refl TO HS HU HI W SH R')
    as [y [CA [_ [_ [SG [gy [GY [SGY SL]]]]]]]].
  exists y, gy. unfold apply. rewrite CA. split; [reflexivity|]. split; [exact GY|].
  rewrite SG, SGY. cbn [nth]. split; [reflexivity|]. intros u Uu. rewrite (SL u Uu). reflexivity.
Qed.

(** Pooling layers with given strides. *)
Theorem C80_pooling_for_a_described_group G d E square t (a : pool_args) H opt bs m g c L k s st (x : tensor A) b m' :
  order_irrelevant (pool_fun (A := A) t) ->
  describes G d E square -> pa_group a = Object G -> pa_data_format a = "channels_last" ->
  pa_subgroup a = Some H -> pool_option a opt ->
  (pa_allow a = false \/ In opt ["SAME_EQUIV"; "VALID_EQUIV"]) ->
  pooling_built d t a (bs :: map Some m ++ [Some g; Some c]) L -> List.length m = d -> pool_sizes d a k s ->
  (square = true -> all_equal k) -> (square = true -> all_equal s) -> pa_strides a = Some st ->
  (opt = "SAME_EQUIV" -> forall ax, ax < d -> Nat.Even (rows_added (nth ax m 0) (nth ax k 0) (nth ax s 0))) ->
  List.length m' = d -> (forall ax, ax < d -> nth ax m 0 mod nth ax s 0 = nth ax m' 0 mod nth ax s 0) ->
  wf x -> shape x = b :: m' ++ [g; c] ->
  commutes_at (transforms_of_group_signal G d H "") (transforms_of_group_signal G d H H) (pool_call L) x.
Proof.
  intros PF DE AG AF HS [p [PN UP]] AL [L0 [I B]] Lm [SK SS] RK RS ST EV Lm' CO W SH gx y R C.
  pose proof (describes_ok _ _ _ _ DE) as OK.
  assert (KN : known (g_name G) G) by (split; [reflexivity|exact (de_name _ _ _ _ DE)]).
  assert (GV : given (pa_group a) G) by (unfold given; rewrite AG; reflexivity).
  assert (AL' : pa_allow a = false \/ is_plain (upper p) = false).
  { destruct AL as [AL|AL]; [left; exact AL|]. right. rewrite UP. cbn [In] in AL. destruct AL as [<-|[<-|[]]]; reflexivity. }
  apply (pool_commutes_of G d _ _ OK (g_name G) t a L0 H bs m g c L p k s m' x b gx y); try assumption.
  rewrite ST. intros SE ax Hax. rewrite UP in SE. specialize (EV SE ax Hax).
  destruct (std_pos d _ _ SS) as [_ Ps]. rewrite <- (same_total_mod _ _ _ _ (Ps ax Hax) (CO ax Hax)). exact EV.
Qed.

(** Pooling layers without strides. *)
Theorem C80_default_stride_pooling_for_a_described_group G d E square t (a : pool_args) H opt bs m g c L k s (x : tensor A) b :
  order_irrelevant (pool_fun (A := A) t) ->
  describes G d E square -> pa_group a = Object G -> pa_data_format a = "channels_last" ->
  pa_subgroup a = Some H -> pool_option a opt -> pa_allow a = false ->
  pooling_built d t a (bs :: map Some m ++ [Some g; Some c]) L -> List.length m = d -> pool_sizes d a k s ->
  (square = true -> all_equal k) -> pa_strides a = None ->
  (forall ax, ax < d -> if mem_str opt ["SAME"; "SAME_EQUIV"]
                        then Nat.Odd (nth ax k 0) /\ Nat.Even (rows_added (nth ax m 0) (nth ax k 0) (nth ax k 0))
                        else nth ax m 0 mod nth ax k 0 = 0) ->
  wf x -> shape x = b :: m ++ [g; c] ->
  s = k /\ commutes_at (transforms_of_group_signal G d H "") (transforms_of_group_signal G d H H) (pool_call L) x.
Proof.
  intros PF DE AG AF HS [p [PN UP]] AL [L0 [I B]] Lm [SK SS] RK ST EV W SH.
  pose proof SS as SS'. rewrite ST, SK in SS'. injection SS' as <-. split; [reflexivity|]. intros gx y R C.
  pose proof (describes_ok _ _ _ _ DE) as OK.
  assert (KN : known (g_name G) G) by (split; [reflexivity|exact (de_name _ _ _ _ DE)]).
  assert (GV : given (pa_group a) G) by (unfold given; rewrite AG; reflexivity).
  apply (pool_commutes_of G d _ _ OK (g_name G) t a L0 H bs m g c L p k k m x b gx y); try assumption.
  - left. exact AL.
  - rewrite ST. intros ax Hax. rewrite UP. specialize (EV ax Hax). unfold is_same. destruct (mem_str opt _); [exact EV|].
    destruct (std_pos d _ _ SK) as [_ Pk]. specialize (Pk ax Hax). exists (nth ax m 0 / nth ax k 0). pose proof (Nat.div_mod_eq (nth ax m 0) (nth ax k 0)). lia.
  - reflexivity.
Qed.

(** Global pooling. *)
Theorem C80_global_pooling_for_a_described_group G d E square t fmt kd input H K act dom L0 L (x gx : tensor A) b m c :
  order_irrelevant (pool_fun (A := A) t) -> known_format fmt ->
  describes G d E square ->
  subgroup_indices G H act -> subgroup_indices G K dom -> (forall u, In u act -> In u dom) ->
  global_init d t fmt kd = Ok L0 -> global_build L0 input = Ok L -> List.length m = d ->
  wf x -> shape x = global_shape fmt b m (List.length dom) c ->
  action G x (global_axes fmt d) 0 (Some (global_group_axis fmt d)) (Some H) (Some K) = Ok gx ->
  nth 0 (shape gx) 0 = List.length act /\
  forall u, u < List.length act -> global_call L (slice 0 u gx) = global_call L x.
Proof.
  intros PF KF DE SA SD INC I B Lm W SH R. pose proof (describes_ok _ _ _ _ DE) as OK.
  rewrite (global_layer fmt d t kd L0 input L KF I B).
  destruct (global_invariance G d _ _ OK (first_of fmt) t kd (Some H) (Some K) act dom x gx b m c PF SA SD INC Lm W) as [SG Q].
  - rewrite SH. unfold global_shape, first_shape, last_shape. destruct (first_of fmt); reflexivity.
  - exact R.
  - split; [rewrite SG; reflexivity|exact Q].
Qed.

End UserGroups.

(** ** C81: where such groups come from *)

(** The groups of the library. *)
Theorem C81_library_groups_are_described name G : dict_get group_dict name = Ok G ->
  describes G (dimension_of name) (symmetries_of name) (needs_equal_sizes name).
Proof. apply library_describes. Qed.

(** A group made with nothing but a name, an order and a parent. *)
Theorem C81_derived_groups_are_described P d E square name ext :
  describes P d E square -> NoDup (map fst (g_subgroup P)) -> name <> "" -> dict_get (g_subgroup P) name = Ok ext ->
  exists G, group_init name (List.length ext) None None None None None (Some P) = Ok G /\
    describes G d (map (fun a => nth a E []) ext) square.
Proof. apply derived_describes. Qed.

(** ** A group of one's own: the rotation by a half turn and the reflections in the
    two diagonals of a square *)
Definition diagonal_elements : list nat := [0; 2; 5; 7].
Definition diagonal : result group :=
  P <- dict_get group_dict "P4M" ;;
  group_init "PMMd" 4 None
    (Some [[0; 1; 2; 3]; [1; 0; 3; 2]; [2; 3; 0; 1]; [3; 2; 1; 0]])
    (Some [("PMMd", [0; 1; 2; 3]); ("P2", [0; 1]); ("P1", [0])])
    (Some [("PMMd", [0]); ("P2", [0; 2]); ("P1", [0; 1; 2; 3])])
    (Some (picked P diagonal_elements)) None.
Definition diagonal_symmetries : list symmetry := map (fun a => nth a (symmetries_of "P4M") []) diagonal_elements.

Lemma diagonal_made : exists P, dict_get group_dict "P4M" = Ok P /\
  diagonal = Ok (mkGroup "PMMd" 4
    (mkTensor [4; 4] [0; 1; 2; 3; 1; 0; 3; 2; 2; 3; 0; 1; 3; 2; 1; 0]) [0; 1; 2; 3]
    [("PMMd", [0; 1; 2; 3]); ("P2", [0; 1]); ("P1", [0])]
    [("PMMd", [0]); ("P2", [0; 2]); ("P1", [0; 1; 2; 3])] (picked P diagonal_elements)).
Proof.
  destruct (dict_get group_dict "P4M") as [P|e] eqn:D; [|exfalso; revert D; vm_compute; discriminate].
  exists P. split; [reflexivity|]. unfold diagonal. rewrite D. cbn [bind]. reflexivity.
Qed.

Definition diagonal_group : group :=
  match diagonal with Ok G => G | Err _ => mkGroup "" 0 (mkTensor [] []) [] [] [] (fun _ _ _ _ _ => Err KeyError) end.

Theorem C81_diagonal_group_is_described : diagonal = Ok diagonal_group /\ describes diagonal_group 2 diagonal_symmetries true.
Proof.
  unfold diagonal_group. destruct diagonal_made as [P [D ->]]. split; [reflexivity|].
  destruct (lib_ok _ _ D) as [_ OK].
  apply checks_ok.
  - vm_compute. reflexivity.
  - apply (picked_action P _ _ _ diagonal_elements OK). intros a Ia. vm_compute in Ia. 
    repeat (destruct Ia as [<-|Ia]; [vm_compute; lia|]). contradiction.
  - apply (picked_refuse P _ _ _ diagonal_elements OK).
  - discriminate.
Qed.

(** It cannot be used with the default subgroup: the claim "a described group can be
    given to a layer that leaves the subgroup out" is false. *)
Definition with_object (G : group) (H : string) (k : size_arg) (filters : nat) : conv_args Z :=
  mkConvArgs (Object G) (Some H) k filters None (Some (Some "same_equiv")) None "channels_last" false true (fun z => if (z <? 5)%Z then 0%Z else z).

Theorem C80_default_subgroup_refuted :
  ~ (forall G d E square k filters, describes G d E square -> 0 < filters -> (0 < k)%Z ->
       exists L, conv_init d false (with_object G "" (One k) filters) = Ok L).
Proof.
  intros C. destruct C81_diagonal_group_is_described as [_ DE].
  destruct (C _ _ _ _ 3%Z 2 DE ltac:(lia) ltac:(lia)) as [L I].
  destruct (C80_unknown_subgroup_names_raise (A := Z) 2 diagonal_group) as [N _].
  rewrite N in I; [discriminate I|reflexivity|]. left. split; [reflexivity|].
  destruct C81_diagonal_group_is_described as [_ _]. unfold diagonal_group. destruct diagonal_made as [P [_ ->]]. cbn [g_name].
  vm_compute. intros Q. repeat (destruct Q as [Q|Q]; [discriminate Q|]). exact Q.
Qed.

(** With the subgroup "P2" it can, and the layers are equivariant. *)
Example C80_diagonal_layers_work :
  match diagonal with
  | Ok G =>
      does_commute (transforms_of_grid_signal G 2 "P2") (transforms_of_group_signal G 2 "P2" "P2")
        (test_layer 2 false (with_object G "P2" (One 3) 2) [None; Some 4; Some 4; Some 1] some_weights some_weights) (some_signal [1; 4; 4; 1])
      && does_commute (transforms_of_group_signal G 2 "P2" "") (transforms_of_group_signal G 2 "P2" "P2")
        (test_layer 2 false (with_object G "P2" (One 3) 2) [None; Some 4; Some 4; Some 4; Some 1] some_weights some_weights) (some_signal [1; 4; 4; 4; 1])
      && does_commute (transforms_of_grid_signal G 2 "") (transforms_of_group_signal G 2 "" "")
        (test_layer 2 true (with_object G "P2" (One 3) 2) [None; Some 4; Some 4; Some 1] some_weights some_weights) (some_signal [1; 4; 4; 1])
  | Err _ => false
  end = true.
Proof. vm_compute. reflexivity. Qed.

Example C80_diagonal_pooling_works :
  match diagonal with
  | Ok G =>
      pooling_does_commute (transforms_of_group_signal G 2 "P2" "") (transforms_of_group_signal G 2 "P2" "P2")
        (test_pool 2 "max" (mkPoolArgs (Object G) (Some "P2") (One 3) (Some (One 2)) (Some (Some "valid_equiv")) "channels_last" false)
           (map Some [1; 5; 5; 4; 2])) (signed_signal [1; 5; 5; 4; 2])
      && pooling_does_commute (transforms_of_group_signal G 2 "P2" "") (transforms_of_group_signal G 2 "P2" "P2")
        (test_pool 2 "max" (mkPoolArgs (Object G) (Some "P2") (One 2) None None "channels_last" false)
           (map Some [1; 4; 4; 4; 2])) (signed_signal [1; 4; 4; 4; 2])
  | Err _ => false
  end = true.
Proof. vm_compute. reflexivity. Qed.

(** What the group's action does with a signal: identity, half turn, the two
    reflections in the diagonals. *)
Example C81_diagonal_action :
  match diagonal with
  | Ok G => match transforms_of_grid_signal G 2 "" (tab [1; 2; 2; 1] (fun j => Z.of_nat (2 * nth 1 j 0 + nth 2 j 0))) with
            | Ok y => data y = [0; 1; 2; 3;  3; 2; 1; 0;  0; 2; 1; 3;  3; 1; 2; 0]%Z | Err _ => False end
  | Err _ => False
  end.
Proof. vm_compute. reflexivity. Qed.

(** A group derived from the user's group, and one derived from that. *)
Example C81_derived_twice :
  match diagonal with
  | Ok G =>
      match group_init "P2" 2 None None None None None (Some G) with
      | Ok H => match group_init "P1" 1 None None None None None (Some H) with
                | Ok K => (data (g_composition H), g_subgroup H, g_cosets H, g_subgroup K)
                          = ([0; 1; 1; 0], [("P2", [0; 1]); ("P1", [0])], [("P2", [0]); ("P1", [0; 1])], [("P1", [0])])
                | Err _ => False end
      | Err _ => False end
  | Err _ => False end.
Proof. vm_compute. reflexivity. Qed.

Print Assumptions C80_unknown_subgroup_names_raise.
Print Assumptions C80_convolution_for_a_described_group.
Print Assumptions C80_transposed_layer_for_a_described_group.
Print Assumptions C80_pooling_for_a_described_group.
Print Assumptions C80_default_stride_pooling_for_a_described_group.
Print Assumptions C80_global_pooling_for_a_described_group.
Print Assumptions C80_default_subgroup_refuted.
Print Assumptions C81_library_groups_are_described.
Print Assumptions C81_derived_groups_are_described.
Print Assumptions C81_diagonal_group_is_described.
