(** C107: a layer followed by global pooling is an ordinary convolution followed by global pooling, evaluated on all
    transformed copies of the signal, with the results pooled. *)
From Verif Require Import Properties_Conv Properties_Layers Properties_Pooling Properties_PoolSteps Properties_Copies.
From Verif Require Import SliceFacts CheckFacts LinearFacts EquivFacts GlobalFacts PoolSpec.
From Verif Require Import EquivSpec.
From Coq Require Import Permutation.
Local Open Scope string_scope.
Local Open Scope list_scope.

Lemma concat_columns {B C D} (X : B -> C -> D) lp lh :
  Permutation (List.concat (map (fun p => map (fun h => X p h) lh) lp)) (List.concat (map (fun h => map (fun p => X p h) lp) lh)).
Proof.
  induction lp as [|p lp IH]; cbn [map List.concat].
  - induction lh as [|h lh IH]; cbn [map List.concat app]; [constructor|exact IH].
  - etransitivity; [apply Permutation_app_head; exact IH|]. clear IH.
    induction lh as [|h lh IH]; cbn [map List.concat app]; [constructor|]. constructor.
    etransitivity; [|apply Permutation_app_head; exact IH]. rewrite !app_assoc. apply Permutation_app_tail. apply Permutation_app_comm.
Qed.

Section Augment.
Context {A : Type} {RA : Arith A} {PA : Pool A}.

Theorem C107_pooling_over_all_transformed_signals name G (a : conv_args A) H opt (valued : bool) bs m g c kinit binit L k s idx
  t fmt kd input GL0 GL :
  add_commutes A -> nests (max_or_mean (A := A) t) -> order_irrelevant (max_or_mean (A := A) t) ->
  layer_for name G a -> ca_subgroup a = Some H -> option_of a opt -> ca_allow a = false ->
  let d := dimension_of name in
  let o := ca_filters a in
  let C := if valued then g * c else c in
  let turns := if valued then transforms_of_group_signal G d H "" else transforms_of_grid_signal G d H in
  built d false a (static_signal_shape valued bs m g c) kinit binit L -> List.length m = d ->
  sizes d a k s (repeat 1 d) -> respects name s -> subgroup_indices G H idx ->
  In fmt [None; Some "channels_last"] -> global_init d t fmt kd = Ok GL0 -> global_build GL0 input = Ok GL ->
  exists P, padding_of a false d bs m C P /\
  let ordinary x b :=
    xp <- padding_call P (merged_signal valued c g x b m) ;;
    y <- base_conv_call false "channels_last" s (repeat 1 d) (backend_padding opt) o (ca_activation a) (initial_kernel false k C o kinit) (initial_bias a binit) xp ;;
    global_pool (max_or_mean t) "channels_last" false d y in
  forall x b gx y z, wf x -> shape x = signal_shape valued b m g c -> turns x = Ok gx -> apply L x = Ok y ->
  (forall ax, ax < d -> 0 < nth (S ax) (shape y) 0) -> global_call GL y = Ok z ->
  exists ws, List.length ws = List.length idx /\
    (forall v, v < List.length idx -> ordinary (slice 0 v gx) b = Ok (nth v ws z)) /\
    forall i q, i < b -> q < o ->
      at_ z (if kd then i :: repeat 0 d ++ [0; q] else [i; q]) = max_or_mean t (map (fun w => at_ w [i; q]) ws).
Proof.
  intros ADD NS OI LF HS OP AL d o C turns B Lm SZ RS SI FM GI GB.
  destruct (copies name G a H opt valued bs m g c kinit binit L k s idx ADD LF HS OP AL B Lm SZ RS SI) as [P [PAD Q]].
  exists P. split; [exact PAD|]. fold d in Q. fold o in Q. fold C in Q. fold turns in Q. intros ordinary x b gx y z W SH RX CA PY GC.
  specialize (Q x b gx y W SH RX CA).
  pose proof LF as [DG _]. apply lib_ok in DG as [_ OK]. fold d in OK.
  assert (SA : sub_idx G (Some H) idx) by exact SI.
  destruct (sub_idx_facts _ _ _ _ OK _ _ SA) as [ND [BA [HD [_ CL]]]].
  assert (STA : forall w, In w idx -> stable G w idx) by (intros w I; exact (stable_of G d _ _ OK _ _ _ SA I)).
  assert (L0 : 0 < List.length idx) by (destruct idx; [discriminate HD|cbn [List.length]; lia]).
  assert (I0 : nth 0 idx 0 = 0) by (destruct idx; [reflexivity|cbn in HD |- *; congruence]).
  pose proof (ok_is_group _ _ _ _ OK) as GR.
  (* positions of inverses *)
  set (back := fun u => turned G (nth u idx 0) idx 0).
  assert (BK : forall u, u < List.length idx -> back u < List.length idx /\ nth (back u) idx 0 = inv G (nth u idx 0)).
  { intros u Hu. assert (I : In (nth u idx 0) idx) by (apply nth_In; exact Hu). split; [apply turned_lt; [exact (STA _ I)|exact L0]|].
    unfold back. rewrite turned_nth by (try exact (STA _ I); exact L0). rewrite I0. apply (group_id_r _ _ _ GR).
    apply (ok_inv _ _ _ _ OK). apply BA. exact I. }
  assert (IC : forall u, u < List.length idx -> comp G (nth u idx 0) (nth (back u) idx 0) = 0 /\ comp G (nth (back u) idx 0) (nth u idx 0) = 0).
  { intros u Hu. rewrite (proj2 (BK u Hu)). destruct (ok_inv _ _ _ _ OK (nth u idx 0) (BA _ (nth_In idx 0 Hu))) as [_ [IL IR]]. split; assumption. }
  assert (UN : forall v v' w, v < List.length (symmetries_of name) -> v' < List.length (symmetries_of name) -> w < List.length (symmetries_of name) ->
     comp G v w = 0 -> comp G w v' = 0 -> v = v').
  { intros v v' w Hv Hv' Hw E1 E2. rewrite <- (group_id_r _ _ _ GR v) by exact Hv. rewrite <- E2. rewrite (group_assoc _ _ _ GR) by assumption.
    rewrite E1. apply (group_id_l _ _ _ GR). exact Hv'. }
  assert (PB : Permutation (map back (seq 0 (List.length idx))) (seq 0 (List.length idx))).
  { apply NoDup_Permutation_bis.
    - apply NoDup_map_in; [|apply seq_NoDup]. intros u u' Iu Iu' E. apply in_seq in Iu. apply in_seq in Iu'.
      apply (proj1 (NoDup_nth idx 0) ND); [lia|lia|].
      destruct (IC u ltac:(lia)) as [C1 C2]. destruct (IC u' ltac:(lia)) as [D1 D2]. rewrite <- E in D1, D2.
      assert (Bu : nth u idx 0 < List.length (symmetries_of name)) by (apply BA, nth_In; lia).
      assert (Bu' : nth u' idx 0 < List.length (symmetries_of name)) by (apply BA, nth_In; lia).
      assert (Bb : nth (back u) idx 0 < List.length (symmetries_of name)) by (apply BA, nth_In; apply BK; lia).
      exact (UN _ _ _ Bu Bu' Bb C1 D2).
    - rewrite map_length. lia.
    - intros v I. apply in_map_iff in I as [u [<- I]]. apply in_seq in I. apply in_seq. destruct (BK u ltac:(lia)). lia. }
  (* the shape of the output *)
  destruct (Q 0 (back 0) L0 (proj1 (BK 0 L0)) (proj1 (IC 0 L0))) as [_ [_ [M [_ [_ [_ [FI [SY _]]]]]]]].
  assert (LM : List.length M = d) by apply FI.
  assert (PM : forall ax, ax < d -> 0 < nth ax M 0).
  { intros ax Hax. specialize (PY ax Hax). rewrite SY in PY. cbn [nth] in PY. rewrite app_nth1 in PY by lia. exact PY. }
  assert (NM : 0 < List.length (indices M)).
  { rewrite length_indices.
    assert (PP : forall l, (forall ax, ax < List.length l -> 0 < nth ax l 0) -> 0 < prod l).
    { induction l as [|n l IH]; intros PL; [cbn; lia|]. change (prod (n :: l)) with (n * prod l). pose proof (PL 0 ltac:(cbn; lia)) as P0. cbn [nth] in P0.
      assert (0 < prod l) by (apply IH; intros ax Hax; apply (PL (S ax)); cbn [List.length]; lia). nia. }
    apply PP. rewrite LM. exact PM. }
  (* what the ordinary convolution returns *)
  set (w0 := fun v => match ordinary (slice 0 v gx) b with Ok w => w | Err _ => z end).
  set (f := max_or_mean t) in *.
  assert (ORD : forall u, u < List.length idx -> ordinary (slice 0 (back u) gx) b = Ok (w0 (back u)) /\
    forall i q, i < b -> q < o -> at_ (w0 (back u)) [i; q] = f (map (fun p => at_ y (i :: p ++ [u; q])) (indices M))).
  { intros u Hu. destruct (Q u (back u) Hu (proj1 (BK u Hu)) (proj1 (IC u Hu))) as [w [gw [M' [Q1 [_ [_ [_ [SY' [SW QV]]]]]]]]].
    assert (M' = M) as ->.
    { rewrite SY in SY'. assert (E : M' ++ [List.length idx; o] = M ++ [List.length idx; o]) by congruence. apply app_inv_tail in E. exact E. }
    assert (E : ordinary (slice 0 (back u) gx) b = global_pool f "channels_last" false d w).
    { unfold ordinary. destruct (padding_call P _) as [xp|e]; cbn [bind] in Q1 |- *; [|discriminate Q1]. rewrite Q1. reflexivity. }
    assert (GP : global_pool f "channels_last" false d w = Ok (tab [b; o] (fun i => f (map (fun j => at_ w (nth 0 i 0 :: j ++ [last i 0])) (indices M))))).
    { unfold global_pool. cbn [String.eqb Ascii.eqb Bool.eqb]. unfold global_pool_last, rank. rewrite SW.
      replace (List.length (b :: M ++ [o]) =? d + 2)%nat with true by (symmetry; apply Nat.eqb_eq; cbn [List.length]; rewrite app_length; cbn [List.length]; lia).
      rewrite (spatial_ix d b M [o] LM), (chan_ix d b M o [] LM). reflexivity. }
    assert (WE : w0 (back u) = tab [b; o] (fun i => f (map (fun j => at_ w (nth 0 i 0 :: j ++ [last i 0])) (indices M)))) by (unfold w0; rewrite E, GP; reflexivity).
    split; [rewrite E, GP, <- WE; reflexivity|]. intros i q Hi Hq. rewrite WE.
    rewrite at_tab by (apply inb_cons; split; [exact Hi|]; apply inb_cons; split; [exact Hq|apply inb_nil]). cbn [nth last].
    etransitivity; [apply OI, Permutation_map; symmetry; apply (pixel_permutation G d _ _ OK (nth u idx 0) M (BA _ (nth_In idx 0 Hu)) FI)|].
    f_equal. rewrite map_map. apply map_ext_in. intros p I. apply In_indices in I. symmetry. apply QV; assumption. }
  exists (map w0 (seq 0 (List.length idx))). split; [rewrite map_length; apply seq_length|]. split.
  - intros v Hv. assert (I : In v (map back (seq 0 (List.length idx)))) by (apply (Permutation_in _ (Permutation_sym PB)), in_seq; lia).
    apply in_map_iff in I as [u [<- I]]. apply in_seq in I. destruct (ORD u ltac:(lia)) as [E _]. rewrite E. f_equal.
    rewrite (nth_indep _ z (w0 0)) by (rewrite map_length, seq_length; apply BK; lia). rewrite map_nth, seq_nth by (apply BK; lia). reflexivity.
  - intros i q Hi Hq.
    destruct (C34_what_global_pooling_computes d t fmt kd input GL0 GL y b M (List.length idx) o) as [z' [GC' [_ [_ AT]]]].
    + unfold known_format. destruct FM as [<-|[<-|[]]]; cbn [In]; auto.
    + exact GI.
    + exact GB.
    + exact LM.
    + rewrite SY. destruct FM as [<-|[<-|[]]]; reflexivity.
    + assert (z' = z) as -> by congruence. specialize (AT i q Hi Hq).
      assert (GS : forall p h, global_shape fmt i p h q = i :: p ++ [h; q]) by (intros p h; destruct FM as [<-|[<-|[]]]; reflexivity).
      rewrite GS in AT. rewrite AT. change (max_or_mean t) with f.
      etransitivity; [|etransitivity; [symmetry|]].
      * etransitivity; [|apply (NS (List.length idx) (map (fun p => map (fun h => at_ y (i :: p ++ [h; q])) (seq 0 (List.length idx))) (indices M)) L0)].
        -- rewrite map_map. f_equal. apply map_ext. intros p. f_equal. apply map_ext. intros h. rewrite GS. reflexivity.
        -- intros l I. apply in_map_iff in I as [p [<- _]]. rewrite map_length. apply seq_length.
      * apply OI. symmetry. apply (concat_columns (fun p h => at_ y (i :: p ++ [h; q]))).
      * rewrite <- (NS (List.length (indices M))); [|exact NM|intros l I; apply in_map_iff in I as [h [<- _]]; apply map_length].
        rewrite map_map, map_map. etransitivity; [|apply OI; apply Permutation_map; exact PB]. rewrite map_map. f_equal.
        apply map_ext_in. intros u I. apply in_seq in I. destruct (ORD u ltac:(lia)) as [_ E]. symmetry. apply E; assumption.
Qed.

End Augment.

Print Assumptions C107_pooling_over_all_transformed_signals.

(** A P4 layer with kernels of 3x3 pixels on 4x4 pixels, followed by a global maximum: the maximum over the four
    transformed signals of the ordinary convolution with the same kernel followed by a global maximum.  The ordinary network alone
    returns something else. *)
Example C107_case :
  let x := some_signal [2; 4; 4; 1] in
  let ordinary := fun x => y <- ordinary_case x ;; global_pool (max_or_mean "max") "channels_last" false 2 y in
  match test_layer 2 false (with_group "P4" "" (One 3) 1 (Some (One 1)) (Some (Some "valid")) None true) [None; Some 4; Some 4; Some 1] some_weights some_weights,
        transforms_of_grid_signal P4 2 "" x, global_init 2 "max" None false with
  | Ok L, Ok gx, Ok GL =>
    match apply L x with
    | Ok y =>
      match global_call GL y, mapM (fun v => ordinary (slice 0 v gx)) (seq 0 4), ordinary x with
      | Ok z, Ok ws, Ok w =>
        shape z = [2; 1] /\ map (fun i => at_ z [i; 0]) [0; 1] = map (fun i => max_or_mean "max" (map (fun w => at_ w [i; 0]) ws)) [0; 1] /\
        map (fun i => at_ z [i; 0]) [0; 1] <> map (fun i => at_ w [i; 0]) [0; 1]
      | _, _, _ => False
      end
    | Err _ => False
    end
  | _, _, _ => False
  end.
Proof. vm_compute. repeat split. discriminate. Qed.
