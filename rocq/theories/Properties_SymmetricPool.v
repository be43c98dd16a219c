(** C110: pooling layers keep the symmetries of their input. *)
From Verif Require Import SignalFacts SliceFacts PoolFacts TranslationFacts Properties_Pooling Properties_Symmetric EquivSpec PoolSpec.
Local Open Scope string_scope.
Local Open Scope list_scope.

Section SymmetricPool.
Context {A : Type} {RA : Arith A} {PA : Pool A}.

(** A pooling layer as in C32: if the signal is unchanged by the element number [w] of the layer's subgroup, then slice [w] composed with [h] of
    the output is slice [h], transformed by [w]. *)
Theorem C110_pooling name G t (a : pool_args) H opt bs m g c L k s st (x y : tensor A) b m' idx w :
  order_irrelevant (pool_fun (A := A) t) ->
  pooling_for name G a -> pa_subgroup a = Some H -> pool_option a opt ->
  (pa_allow a = false \/ In opt ["SAME_EQUIV"; "VALID_EQUIV"]) ->
  let d := dimension_of name in
  pooling_built d t a (bs :: map Some m ++ [Some g; Some c]) L -> List.length m = d -> pool_sizes d a k s ->
  respects name k -> respects name s -> pa_strides a = Some st ->
  (opt = "SAME_EQUIV" -> forall ax, ax < d -> Nat.Even (rows_added (nth ax m 0) (nth ax k 0) (nth ax s 0))) ->
  List.length m' = d -> (forall ax, ax < d -> nth ax m 0 mod nth ax s 0 = nth ax m' 0 mod nth ax s 0) ->
  wf x -> shape x = b :: m' ++ [g; c] -> subgroup_indices G H idx -> pool_call L x = Ok y ->
  has_symmetry (transforms_of_group_signal G d H "") w x ->
  forall h h', h < List.length idx -> h' < List.length idx -> nth h' idx 0 = comp G (nth w idx 0) (nth h idx 0) ->
  exists gz, transforms_of_grid_signal G d H (slice (d + 1) h y) = Ok gz /\ slice (d + 1) h' y = slice 0 w gz.
Proof.
  intros OI PF HS OP AL d B Lm SZ RK RS ST EV Lm' CO W SH SI CA SX.
  pose proof (C32_pooling_is_equivariant name G t a H opt bs m g c L k s st x b m' OI PF HS OP AL B Lm SZ RK RS ST EV Lm' CO W SH) as CM. fold d in CM.
  pose proof (C110_commuting_calls _ _ _ _ _ _ CM CA SX) as SYM.
  destruct (pooling_facts name G d t a H opt bs m g c L k s x y PF HS OP B Lm SZ CA) as [OK [GN [_ [eb [ea [sub [cos [_ [_ [SA F]]]]]]]]]].
  fold d in OK. assert (sub = idx) as -> by (unfold subgroup_indices in SI; unfold sub_idx in SA; congruence).
  assert (NE : idx <> []).
  { intros ->. destruct (sub_idx_facts _ _ _ _ OK _ _ SA) as [_ [_ [Q _]]]. discriminate Q. }
  rewrite GN in SH. rewrite (tensor_sig4 d b m' _ c x W Lm' SH) in CA.
  rewrite (pool_call_eq G d _ _ OK idx cos k s eb ea (is_same opt) t L b m' c (fun4 x) F NE Lm') in CA.
  destruct (forallb _ _) in CA; [|discriminate CA].
  assert (EO : forall u v : tensor A, Ok u = Ok v -> u = v) by congruence. apply EO in CA.
  match type of CA with tab (b :: ?o ++ _) _ = _ => set (M := o) in CA end.
  assert (WY : wf y) by (rewrite <- CA; apply wf_tab). assert (SY : shape y = b :: M ++ [List.length idx; c]) by (rewrite <- CA; apply shape_tab). clear CA.
  assert (LO : List.length M = d).
  { unfold M. destruct F. apply length_outs; try assumption. apply length_padded; rewrite ?map_length; try assumption;
      try (apply length_builtin; try assumption); apply length_padded; assumption. }
  pose proof SYM as [gy [RY [Hw S]]]. pose proof RY as RY0.
  assert (Hw' : w < List.length idx).
  { pose proof (tensor_sig4 d b M (List.length idx) c y WY LO SY) as YE. rewrite YE in RY.
    destruct (group_slices G d _ _ OK b M (List.length idx) c (fun4 y) (Some H) (Some H) idx idx gy SA SA eq_refl LO) as [_ [SGY _]]; [|exact RY|].
    - intros u I. exact (stable_of G d _ _ OK _ _ _ SA I).
    - rewrite SGY in Hw. exact Hw. }
  pose proof PF as [DG _].
  apply (proj1 (C110_slices name G H H y b M (List.length idx) c idx idx w DG SI SI (or_introl eq_refl) WY LO SY eq_refl Hw' (f_equal is_ok RY0))).
  exact SYM.
Qed.

End SymmetricPool.
Print Assumptions C110_pooling.

(** Maxima over 2x2 windows of a signal on P2 that the half turn does not change: the half turn takes slice 0 of the output to slice 1. For the
    signal whose slices are equal it does not. *)
Definition half_turned : tensor Z := mkTensor [1; 3; 3; 2; 1]%nat [1; 9; 2; 8; 3; 7; 4; 6; 5; 5; 6; 4; 7; 3; 8; 2; 9; 1]%Z.
Definition not_turned : tensor Z := mkTensor [1; 3; 3; 2; 1]%nat [1; 1; 2; 2; 3; 3; 4; 4; 5; 5; 6; 6; 7; 7; 8; 8; 9; 9]%Z.
Definition turns_slices (L : pool_layer) (x : tensor Z) : bool :=
  match pool_call L x with
  | Ok y => match transforms_of_grid_signal P2 2 "" (slice 3 0 y) with Ok gz => same_tensor (slice 3 1 y) (slice 0 1 gz) | Err _ => false end
  | Err _ => false
  end.
Definition unchanged (x : tensor Z) : bool :=
  match transforms_of_group_signal P2 2 "" "" x with Ok gx => same_tensor (slice 0 1 gx) x | Err _ => false end.

Example C110_case_pooling :
  match test_pool 2 "max" (mkPoolArgs (ByName "P2") (Some "") (One 2) (Some (One 1)) (Some (Some "valid_equiv")) "channels_last" false) [None; Some 3; Some 3; Some 2; Some 1] with
  | Ok L => pool_call L half_turned = Ok (mkTensor [1; 2; 2; 2; 1] [5; 9; 6; 8; 8; 6; 9; 5]%Z) /\ unchanged half_turned = true /\ turns_slices L half_turned = true /\ unchanged not_turned = false /\ turns_slices L not_turned = false
  | Err _ => False
  end.
Proof. vm_compute. repeat split. Qed.
