(** The two data formats: a layer in the format 'channels_first' is the layer in the
    format 'channels_last' on rearranged signals, as long as nothing is padded. *)
From Verif Require Export PoolTheorems LayerBatch FormatSpec.
Local Open Scope string_scope.
Local Open Scope list_scope.

(** ** Signals with the channels axis first *)

Definition first3 {B} (f : nat -> list nat -> nat -> B) (i : list nat) : B := f (nth 0 i 0) (skipn 2 i) (nth 1 i 0).
Definition first4 {B} (d : nat) (f : nat -> list nat -> nat -> nat -> B) (i : list nat) : B :=
  f (nth 0 i 0) (firstn d (skipn 2 i)) (nth (d + 2) i 0) (nth 1 i 0).

Lemma first4_ix {B} d (f : nat -> list nat -> nat -> nat -> B) bi p h q :
  List.length p = d -> first4 d f (bi :: q :: p ++ [h]) = f bi p h q.
Proof.
  intros L. unfold first4. rewrite Nat.add_comm. cbn [nth skipn plus].
  rewrite firstn_app_exact by (symmetry; exact L). rewrite app_nth2 by lia. rewrite L, Nat.sub_diag. reflexivity.
Qed.

Lemma inbF_inv b m c i : inb (b :: c :: m) i -> exists bi q p, i = bi :: q :: p /\ bi < b /\ q < c /\ inb m p.
Proof.
  intros I. destruct i as [|bi [|q p]]; try (apply inb_length in I; discriminate I).
  apply inb_cons in I as [B I]. apply inb_cons in I as [Q I]. exists bi, q, p. auto.
Qed.

Lemma inbF4_inv b m g c i : inb (b :: c :: m ++ [g]) i ->
  exists bi q p h, i = bi :: q :: p ++ [h] /\ bi < b /\ q < c /\ inb m p /\ h < g.
Proof.
  intros I. apply inbF_inv in I as [bi [q [r [-> [B [Q I]]]]]]. apply inb_app_split in I as [p [l [-> [P I]]]].
  apply inb1 in I as [h [-> H]]. exists bi, q, p, h. auto.
Qed.

Section Signals.
Context {A : Type} {ZA : Zero A}.

Lemma neg_last r : (-1)%Z = (Z.of_nat r - Z.of_nat (S r))%Z. Proof. lia. Qed.

Lemma norm_last r : norm_axis (S r) (-1) = Ok r.
Proof. rewrite (neg_last r). apply norm_axis_neg. lia. Qed.

Lemma insert_first (b c : nat) s : b :: c :: s = insert_at 1 c (b :: s).
Proof. reflexivity. Qed.

Lemma insert_last (c : nat) s : s ++ [c] = insert_at (List.length s) c s.
Proof. rewrite <- (app_nil_r s) at 3. rewrite insert_at_app_r. reflexivity. Qed.

Lemma to_first (b c : nat) s (F : nat -> list nat -> A) :
  moveaxis (stk (S (List.length s)) c (b :: s) F) (-1) 1 = Ok (stk 1 c (b :: s) F) /\
  moveaxis (stk 1 c (b :: s) F) 1 (-1) = Ok (stk (S (List.length s)) c (b :: s) F).
Proof.
  assert (N : norm_axis (S (S (List.length s))) (-1) = Ok (S (List.length s))) by apply norm_last.
  change 1%Z with (Z.of_nat 1). split.
  - transitivity (moveaxis (stk (S (List.length s)) c (b :: s) F) (Z.of_nat (S (List.length s))) (Z.of_nat 1)).
    + unfold moveaxis. rewrite rank_stk. cbn [List.length]. rewrite N, !norm_axis_nat by lia. reflexivity.
    + apply moveaxis_stk; cbn [List.length]; lia.
  - transitivity (moveaxis (stk 1 c (b :: s) F) (Z.of_nat 1) (Z.of_nat (S (List.length s)))).
    + unfold moveaxis. rewrite rank_stk. cbn [List.length]. rewrite N, !norm_axis_nat by lia. reflexivity.
    + apply moveaxis_stk; cbn [List.length]; lia.
Qed.

Lemma last_stk3 d b m c (f : nat -> list nat -> nat -> A) : List.length m = d ->
  tab (b :: m ++ [c]) (sig3 d f) = stk (S (List.length m)) c (b :: m) (fun q i => f (nth 0 i 0) (tl i) q).
Proof.
  intros L. change (b :: m ++ [c]) with ((b :: m) ++ [c]). rewrite insert_last. rewrite tab_stk by lia. apply stk_ext; [cbn [List.length]; lia|].
  intros q i Q I. destruct i as [|bi p]; [apply inb_length in I; discriminate I|]. apply inb_cons in I as [B P].
  pose proof (inb_length _ _ P) as LP.
  replace (List.length (b :: m)) with (List.length (bi :: p)) by (cbn [List.length]; lia).
  rewrite <- insert_last. cbn [app]. rewrite sig3_ix by lia. reflexivity.
Qed.

Lemma first_stk3 b m c (f : nat -> list nat -> nat -> A) :
  tab (b :: c :: m) (first3 f) = stk 1 c (b :: m) (fun q i => f (nth 0 i 0) (tl i) q).
Proof.
  rewrite insert_first. rewrite tab_stk by (cbn [List.length]; lia). apply stk_ext; [cbn [List.length]; lia|].
  intros q i Q I. destruct i as [|bi p]; [apply inb_length in I; discriminate I|]. reflexivity.
Qed.

Lemma last_stk4 d b m g c (f : nat -> list nat -> nat -> nat -> A) : List.length m = d ->
  tab (b :: m ++ [g; c]) (sig4 d f)
  = stk (S (List.length (m ++ [g]))) c (b :: m ++ [g]) (fun q i => f (nth 0 i 0) (firstn d (tl i)) (nth (d + 1) i 0) q).
Proof.
  intros L. replace (b :: m ++ [g; c]) with ((b :: m ++ [g]) ++ [c]) by (cbn [app]; rewrite <- app_assoc; reflexivity).
  rewrite insert_last. rewrite tab_stk by lia. apply stk_ext; [cbn [List.length]; lia|].
  intros q i Q I. apply inb3_inv in I as [bi [p [h [-> [B [P H]]]]]]. pose proof (inb_length _ _ P) as LP.
  assert (LI : List.length (b :: m ++ [g]) = List.length (bi :: p ++ [h])) by (cbn [List.length]; rewrite !app_length; cbn [List.length]; lia).
  rewrite LI, <- insert_last. cbn [app]. rewrite <- app_assoc. cbn [app]. rewrite sig4_ix by lia. 
  rewrite (chan_ix d bi p h []) by lia. cbn [nth tl]. rewrite firstn_app_exact by lia. reflexivity.
Qed.

Lemma first_stk4 d b m g c (f : nat -> list nat -> nat -> nat -> A) : List.length m = d ->
  tab (b :: c :: m ++ [g]) (first4 d f) = stk 1 c (b :: m ++ [g]) (fun q i => f (nth 0 i 0) (firstn d (tl i)) (nth (d + 1) i 0) q).
Proof.
  intros L. rewrite insert_first. rewrite tab_stk by (cbn [List.length]; lia). apply stk_ext; [cbn [List.length]; lia|].
  intros q i Q I. apply inb3_inv in I as [bi [p [h [-> [B [P H]]]]]]. pose proof (inb_length _ _ P) as LP.
  rewrite <- insert_first. rewrite first4_ix by lia. 
  rewrite (chan_ix d bi p h []) by lia. cbn [nth tl]. rewrite firstn_app_exact by lia. reflexivity.
Qed.

Lemma move3 d b m c (f : nat -> list nat -> nat -> A) : List.length m = d ->
  moveaxis (tab (b :: m ++ [c]) (sig3 d f)) (-1) 1 = Ok (tab (b :: c :: m) (first3 f)) /\
  moveaxis (tab (b :: c :: m) (first3 f)) 1 (-1) = Ok (tab (b :: m ++ [c]) (sig3 d f)).
Proof. intros L. rewrite (last_stk3 d b m c f L), first_stk3. apply to_first. Qed.

Lemma move4 d b m g c (f : nat -> list nat -> nat -> nat -> A) : List.length m = d ->
  moveaxis (tab (b :: m ++ [g; c]) (sig4 d f)) (-1) 1 = Ok (tab (b :: c :: m ++ [g]) (first4 d f)) /\
  moveaxis (tab (b :: c :: m ++ [g]) (first4 d f)) 1 (-1) = Ok (tab (b :: m ++ [g; c]) (sig4 d f)).
Proof. intros L. rewrite (last_stk4 d b m g c f L), (first_stk4 d b m g c f L). apply to_first. Qed.

(** Merging the group axis into the channels axis. *)
Lemma merge_first d b m g c (f : nat -> list nat -> nat -> nat -> A) : List.length m = d ->
  merge_axes (tab (b :: c :: m ++ [g]) (first4 d f)) (Z.of_nat (d + 2)) 1
  = Ok (tab (b :: g * c :: m) (first3 (fun bi p q => f bi p (q / c) (q mod c)))).
Proof.
  intros L. change 1%Z with (Z.of_nat 1).
  change (b :: c :: m ++ [g]) with ((b :: c :: m) ++ [g]). rewrite insert_last. rewrite tab_stk by lia.
  replace (d + 2) with (List.length (b :: c :: m)) by (cbn [List.length]; lia).
  replace (Z.of_nat 1) with (Z.of_nat (OpFacts.shift (List.length (b :: c :: m)) 1)).
  2:{ unfold OpFacts.shift. cbn [List.length]. reflexivity. }
  rewrite merge_axes_stk0 by (cbn [List.length]; lia). cbn [nth upd]. f_equal. apply tab_ext. intros i I.
  apply inbF_inv in I as [bi [q [p [-> [B [Q P]]]]]]. pose proof (inb_length _ _ P) as LP. cbn [nth upd].
  replace (List.length (b :: c :: m)) with (List.length (bi :: (q mod c) :: p)) by (cbn [List.length]; lia).
  rewrite <- insert_last. cbn [app]. rewrite first4_ix by lia. reflexivity.
Qed.

(** Splitting it off again. *)
Lemma split_first d b m g c (f : nat -> list nat -> nat -> A) : List.length m = d -> g <> 0 ->
  (out <- split_axes (tab (b :: g * c :: m) (first3 f)) g 1 ;; moveaxis out 1 (Z.of_nat (d + 2)))
  = Ok (tab (b :: c :: m ++ [g]) (first4 d (fun bi p h q => f bi p (h * c + q)))).
Proof.
  intros L NE. change (b :: g * c :: m) with (upd 1 (g * nth 1 (b :: c :: m) 0) (b :: c :: m)). change 1%Z with (Z.of_nat 1).
  rewrite split_axes_tab by (cbn [List.length]; lia). cbn [bind].
  rewrite moveaxis_stk by (cbn [List.length]; lia). f_equal.
  change (b :: c :: m ++ [g]) with ((b :: c :: m) ++ [g]). rewrite insert_last.
  replace (d + 2) with (List.length (b :: c :: m)) by (cbn [List.length]; lia).
  rewrite tab_stk by lia. apply stk_ext; [lia|]. intros h i H I.
  apply inbF_inv in I as [bi [q [p [-> [B [Q P]]]]]]. pose proof (inb_length _ _ P) as LP. cbn [nth upd].
  replace (List.length (b :: c :: m)) with (List.length (bi :: q :: p)) by (cbn [List.length]; lia).
  rewrite <- insert_last. cbn [app]. rewrite first4_ix by lia. reflexivity.
Qed.

End Signals.

(** ** Convolution layers *)

Definition no_padding (P : padding_layer) : Prop := pl_needs P <> Some true.

Lemma no_padding_call {A} {ZA : Zero A} P (x : tensor A) : no_padding P -> padding_call P x = Ok x.
Proof. unfold no_padding, padding_call. destruct (pl_needs P) as [[|]|]; [congruence|reflexivity|reflexivity]. Qed.

Section Convolution.
Context {A : Type} {RA : Arith A}.

Definition gt_first (d : nat) (T : gtransforms) : gtransforms :=
  mkGT (gt_dims T) (gt_transpose T) (gt_group T) (gt_subgroup T) (gt_domain T) (gt_acting T) (gt_padding T) "channels_first"
       1 (Z.of_nat (d + 2)) (gt_group_valued T) (gt_reshaped T) (gt_bias_indices T) (gt_kernel_indices T) (gt_pooling_indices T).

Definition cl_first (d : nat) (L : conv_layer A) : conv_layer A :=
  mkConv (gt_first d (cl_gt L)) (cl_strides L) (cl_dilation L) (cl_kernel_size L) (cl_padding L) "channels_first" (cl_use_bias L)
         (cl_activation L) (cl_filters L) (cl_kernel L) (cl_bias L) (cl_channels L).

Lemma gt_init_first g k d al sub tr st pd :
  gt_init g k d "channels_first" al sub tr st pd = (T <- gt_init g k d "channels_last" al sub tr st pd ;; Ok (gt_first d T)).
Proof.
  unfold gt_init. destruct (match g with ByName s => _ | Object G => _ end) as [G|e]; [|reflexivity]. cbn [bind].
  destruct (match parse_subgroup G sub with Some s => _ | None => _ end) as [H|e]; [|reflexivity]. cbn [bind].
  destruct tr; (destruct (padding_init _ _ _ _ _ _ _) as [P|e]; [|reflexivity]); cbn [bind String.eqb Ascii.eqb Bool.eqb]; unfold gt_first;
    cbn [gt_dims gt_transpose gt_group gt_subgroup gt_domain gt_acting gt_padding gt_group_valued gt_reshaped gt_bias_indices gt_kernel_indices gt_pooling_indices];
    replace (Z.of_nat d + 1 + 1)%Z with (Z.of_nat (d + 2)) by lia; reflexivity.
Qed.

Lemma conv_init_first d tr (a : conv_args A) : ca_data_format a = "channels_last" ->
  conv_init d tr (with_format a "channels_first") = (L <- conv_init d tr a ;; Ok (cl_first d L)).
Proof.
  intros FM. unfold conv_init, with_format. cbn [ca_group ca_subgroup ca_kernel_size ca_filters ca_strides ca_padding ca_dilation ca_data_format ca_allow ca_use_bias ca_activation].
  rewrite FM, gt_init_first. destruct (gt_init _ _ _ _ _ _ _ _ _) as [T|e]; [|reflexivity]. cbn [bind].
  destruct (standardize_tuple d (ca_kernel_size a)) as [k|]; [|reflexivity]. cbn [bind].
  destruct (standardize_tuple d (match ca_strides a with Some s => s | None => One 1 end)) as [s|]; [|reflexivity]. cbn [bind].
  destruct (standardize_tuple d (match ca_dilation a with Some s => s | None => One 1 end)) as [dl|]; [|reflexivity]. cbn [bind].
  unfold gt_first at 1. cbn [gt_padding]. destruct (standardize_padding _) as [p|]; [|reflexivity]. cbn [bind].
  change (standardize_format "channels_first") with (@Ok string "channels_first"). change (standardize_format "channels_last") with (@Ok string "channels_last").
  cbn [bind]. destruct (0 <? ca_filters a)%nat; [|reflexivity]. destruct (negb _); reflexivity.
Qed.

Lemma merge_static_first d bs (m : list nat) g c : List.length m = d ->
  merge_shapes (bs :: Some c :: map Some m ++ [Some g]) (Z.of_nat (d + 2)) 1 = Ok (bs :: Some (g * c) :: map Some m).
Proof.
  intros L. unfold merge_shapes. change 1%Z with (Z.of_nat 1).
  assert (LL : List.length (bs :: Some c :: map Some m ++ [Some g]) = d + 3)
    by (cbn [List.length]; rewrite app_length, map_length; cbn [List.length]; lia).
  rewrite (py_nth_nat _ 1 None), (py_nth_nat _ (d + 2) None) by lia. cbn [bind].
  replace (nth (d + 2) (bs :: Some c :: map Some m ++ [Some g]) None) with (Some g).
  2:{ rewrite Nat.add_comm. cbn [plus nth]. rewrite app_nth2 by (rewrite map_length; lia). rewrite map_length, L, Nat.sub_diag. reflexivity. }
  cbn [nth]. rewrite py_set_nat by lia. cbn [bind]. rewrite py_pop_nat by (rewrite length_upd; lia). f_equal. cbn [upd].
  replace (d + 2) with (List.length (bs :: Some (c * g) :: map Some m)) by (cbn [List.length]; rewrite map_length; lia).
  change (bs :: Some (c * g) :: map Some m ++ [Some g]) with ((bs :: Some (c * g) :: map Some m) ++ Some g :: []).
  rewrite remove_at_app, app_nil_r. rewrite Nat.mul_comm. reflexivity.
Qed.

Lemma kernel_indices_twin T1 T2 (K : tensor A) :
  gt_transpose T2 = gt_transpose T1 -> gt_dims T2 = gt_dims T1 -> gt_group_valued T2 = gt_group_valued T1 ->
  gt_group T2 = gt_group T1 -> gt_acting T2 = gt_acting T1 -> gt_domain T2 = gt_domain T1 ->
  compute_transformed_kernel_indices T2 K = compute_transformed_kernel_indices T1 K.
Proof. intros E1 E2 E3 E4 E5 E6. unfold compute_transformed_kernel_indices. rewrite E1, E2, E3, E4, E5, E6. reflexivity. Qed.

Lemma build_conv_twin T1 T2 (K : tensor A) B :
  gt_transpose T2 = gt_transpose T1 -> gt_dims T2 = gt_dims T1 -> gt_group_valued T2 = gt_group_valued T1 ->
  gt_group T2 = gt_group T1 -> gt_acting T2 = gt_acting T1 -> gt_domain T2 = gt_domain T1 ->
  gt_bias_indices T2 = gt_bias_indices T1 ->
  match gt_build_conv T1 K B, gt_build_conv T2 K B with
  | Ok U1, Ok U2 => exists bi ki, U1 = gt_set_indices T1 bi ki (gt_pooling_indices T1) /\ U2 = gt_set_indices T2 bi ki (gt_pooling_indices T2)
  | Err e, Err f => e = f
  | _, _ => False
  end.
Proof.
  intros E1 E2 E3 E4 E5 E6 E7. unfold gt_build_conv. rewrite (kernel_indices_twin T1 T2 K E1 E2 E3 E4 E5 E6).
  assert (BI : match B with Some b => i <- compute_repeated_bias_indices T2 b ;; Ok (Some i) | None => Ok (gt_bias_indices T2) end
             = match B with Some b => i <- compute_repeated_bias_indices T1 b ;; Ok (Some i) | None => Ok (gt_bias_indices T1) end).
  { destruct B as [b|]; [|rewrite E7; reflexivity]. unfold compute_repeated_bias_indices. rewrite E4, E5. reflexivity. }
  rewrite BI. match type of BI with _ = ?r => destruct r as [bi|e] end; cbn [bind]; [|reflexivity].
  destruct (compute_transformed_kernel_indices T1 K) as [ki|e]; cbn [bind]; [|reflexivity]. eexists; eexists; split; reflexivity.
Qed.

(** The layer [L] in the other format, with the padding layer [P]. *)
Definition twin_of (d : nat) (L : conv_layer A) (P : padding_layer) (reshaped : sshape) : conv_layer A :=
  let T := cl_gt L in
  mkConv (mkGT (gt_dims T) (gt_transpose T) (gt_group T) (gt_subgroup T) (gt_domain T) (gt_acting T) P "channels_first"
               1 (Z.of_nat (d + 2)) (gt_group_valued T) (Some reshaped) (gt_bias_indices T) (gt_kernel_indices T) (gt_pooling_indices T))
         (cl_strides L) (cl_dilation L) (cl_kernel_size L) (cl_padding L) "channels_first" (cl_use_bias L)
         (cl_activation L) (cl_filters L) (cl_kernel L) (cl_bias L) (cl_channels L).

Lemma output_shape_twin tr pd o k s dl bs (m : list nat) C : List.length m = List.length k ->
  (exists r, keras_conv_output_shape tr "channels_last" pd o k s dl (bs :: map Some m ++ [Some C]) = Ok r) ->
  exists r, keras_conv_output_shape tr "channels_first" pd o k s dl (bs :: Some C :: map Some m) = Ok r.
Proof.
  intros L [r R]. unfold keras_conv_output_shape in *. cbn [String.eqb Ascii.eqb Bool.eqb] in *.
  assert (L1 : List.length (bs :: map Some m ++ [Some C]) = List.length k + 2) by (cbn [List.length]; rewrite app_length, map_length; cbn [List.length]; lia).
  assert (L2 : List.length (bs :: Some C :: map Some m) = List.length k + 2) by (cbn [List.length]; rewrite map_length; lia).
  rewrite L1, Nat.eqb_refl in R. rewrite L2, Nat.eqb_refl.
  cbn [skipn] in *. rewrite <- L, <- (map_length Some m) in R. rewrite firstn_app_exact in R by reflexivity.
  destruct (forallb _ _); [|discriminate R]. eexists. reflexivity.
Qed.

Lemma conv_build_twin G d E eq name tr (a : conv_args A) L0 valued bs m g c kinit binit L1 :
  group_ok G d E eq -> dict_get group_dict name = Ok G -> (ca_group a = ByName name \/ ca_group a = Object G) ->
  ca_data_format a = "channels_last" -> conv_init d tr a = Ok L0 -> List.length m = d ->
  conv_build L0 (build_shape valued bs m g c) kinit binit = Ok L1 ->
  let C := if valued then g * c else c in
  padding_build (gt_padding (cl_gt L0)) (bs :: map Some m ++ [Some C]) = Ok (gt_padding (cl_gt L1)) /\
  conv_build (cl_first d L0) (static_channels_first_shape valued bs m g c) kinit binit
  = (P <- padding_build (gt_padding (cl_gt L0)) (bs :: Some C :: map Some m) ;; Ok (twin_of d L1 P (bs :: Some C :: map Some m))).
Proof.
  intros OK DG AG AF I Lm B C.
  destruct (conv_init_inv G d name tr a L0 DG AG AF I) as [p [k [s [dl [Hn [PN [SK [SS [SD [PS [NE [MM [FP [_ [P [PI EL]]]]]]]]]]]]]]]].
  destruct (std_pos _ _ _ SK) as [Lk _].
  set (K := gt_subgroup (cl_gt L0)) in EL. clearbody K. rewrite EL in B |- *. clear EL I L0.
  unfold conv_build, gt_build, cl_first, gt_first in *.
  cbn [cl_gt cl_format gt_dims gt_format gt_domain gt_channels_axis gt_group_axis gt_group gt_padding gt_transpose] in *.
  assert (V1 : (List.length (build_shape valued bs m g c) =? d + 3)%nat = valued).
  { unfold build_shape. cbn [List.length]. rewrite app_length, map_length. destruct valued; cbn [List.length]; [apply Nat.eqb_eq|apply Nat.eqb_neq]; lia. }
  assert (V2 : (List.length (static_channels_first_shape valued bs m g c) =? d + 3)%nat = valued).
  { unfold static_channels_first_shape. cbn [List.length]. rewrite app_length, map_length. destruct valued; cbn [List.length]; [apply Nat.eqb_eq|apply Nat.eqb_neq]; lia. }
  rewrite V1 in B. rewrite V2. cbn [String.eqb Ascii.eqb Bool.eqb andb] in *.
  set (cax := if valued then (Z.of_nat (d + 1) + 1)%Z else Z.of_nat (d + 1)) in *.
  assert (CAX : cax = Z.of_nat (if valued then d + 2 else d + 1)) by (unfold cax; destruct valued; lia).
  (* the merged shapes *)
  destruct (if valued then idx <- subgroup_get G (if valued then Some (if tr then Hn else name) else None) ;;
                           o <- py_nth (build_shape valued bs m g c) (Z.of_nat (d + 1)) ;;
                           guard match o with Some n => (n =? List.length idx)%nat | None => false end else AssertionError ;;
                           merge_shapes (build_shape valued bs m g c) (Z.of_nat (d + 1)) cax
            else Ok (build_shape valued bs m g c)) as [r|] eqn:R; [|discriminate B]. cbn [bind] in B.
  assert (RR : r = bs :: map Some m ++ [Some C] /\
    (if valued then idx <- subgroup_get G (if valued then Some (if tr then Hn else name) else None) ;;
                    o <- py_nth (static_channels_first_shape valued bs m g c) (Z.of_nat (d + 2)) ;;
                    guard match o with Some n => (n =? List.length idx)%nat | None => false end else AssertionError ;;
                    merge_shapes (static_channels_first_shape valued bs m g c) (Z.of_nat (d + 2)) 1
     else Ok (static_channels_first_shape valued bs m g c)) = Ok (bs :: Some C :: map Some m)).
  { unfold C. destruct valued.
    - destruct (subgroup_get G (Some (if tr then Hn else name))) as [idx|]; [|discriminate R]. cbn [bind] in *.
      assert (N1 : py_nth (build_shape true bs m g c) (Z.of_nat (d + 1)) = Ok (Some g)).
      { rewrite (py_nth_nat _ _ None) by (unfold build_shape; cbn [List.length]; rewrite app_length, map_length; cbn [List.length]; lia). f_equal.
        unfold build_shape. rewrite Nat.add_1_r. cbn [nth]. rewrite app_nth2 by (rewrite map_length; lia). rewrite map_length, Lm, Nat.sub_diag. reflexivity. }
      assert (N2 : py_nth (static_channels_first_shape true bs m g c) (Z.of_nat (d + 2)) = Ok (Some g)).
      { rewrite (py_nth_nat _ _ None) by (unfold static_channels_first_shape; cbn [List.length]; rewrite app_length, map_length; cbn [List.length]; lia). f_equal.
        unfold static_channels_first_shape. rewrite Nat.add_comm. cbn [plus nth]. rewrite app_nth2 by (rewrite map_length; lia). rewrite map_length, Lm, Nat.sub_diag. reflexivity. }
      rewrite N1 in R. rewrite N2. cbn [bind] in *. destruct (g =? List.length idx)%nat; [|discriminate R].
      rewrite CAX in R. unfold build_shape in R. rewrite merge_static in R by exact Lm. split; [congruence|].
      unfold static_channels_first_shape. apply merge_static_first. exact Lm.
    - split; [unfold build_shape in R; congruence|]. unfold static_channels_first_shape. rewrite app_nil_r. reflexivity. }
  destruct RR as [-> ->]. cbn [bind].
  destruct (padding_build P (bs :: map Some m ++ [Some C])) as [P1|] eqn:PB1; [|discriminate B]. cbn [bind] in B.
  unfold gt_set_build, cl_set_gt in *.
  cbn [cl_gt cl_format cl_strides cl_dilation cl_kernel_size cl_padding cl_filters cl_use_bias cl_activation cl_kernel cl_bias cl_channels
       gt_dims gt_format gt_domain gt_channels_axis gt_group_axis gt_group gt_padding gt_transpose gt_subgroup gt_acting gt_reshaped gt_bias_indices
       gt_kernel_indices gt_pooling_indices gt_group_valued String.eqb Ascii.eqb Bool.eqb] in *.
  assert (NC : py_nth (bs :: map Some m ++ [Some C]) (-1) = Ok (Some C)).
  { unfold py_nth.
    assert (LL : List.length (bs :: map Some m ++ [Some C]) = S (d + 1)) by (cbn [List.length]; rewrite app_length, map_length; cbn [List.length]; lia).
    rewrite LL, norm_last. cbn [bind]. rewrite Nat.add_1_r. cbn [nth_error]. rewrite nth_error_app2 by (rewrite map_length; lia).
    rewrite map_length, Lm, Nat.sub_diag. reflexivity. }
  rewrite NC in B. cbn [bind] in B.
  destruct (if tr then Ok [] else conv_compute_output_shape _) as [os|] eqn:OS in B; [|discriminate B]. cbn [bind] in B.
  set (Kr := tab (k ++ (if tr then [ca_filters a; C] else [C; ca_filters a])) kinit) in *.
  set (Bi := if ca_use_bias a then Some (tab [ca_filters a] binit) else None) in *.
  match type of B with context [gt_build_conv ?T Kr Bi] => set (T1 := T) in B end.
  destruct (gt_build_conv T1 Kr Bi) as [U1|] eqn:U1E; [|discriminate B]. cbn [bind] in B.
  assert (CH : forall v, py_nth (build_shape true bs m g v) (Z.of_nat (d + 2)) = Ok (Some v)).
  { intros v. rewrite (py_nth_nat _ _ None) by (unfold build_shape; cbn [List.length]; rewrite app_length, map_length; cbn [List.length]; lia). f_equal.
    unfold build_shape. rewrite Nat.add_comm. cbn [plus nth]. rewrite app_nth2 by (rewrite map_length; lia). rewrite map_length, Lm.
    replace (S d - d) with 1 by lia. reflexivity. }
  assert (CH1 : py_nth (static_channels_first_shape true bs m g c) 1 = Ok (Some c)).
  { change 1%Z with (Z.of_nat 1). rewrite (py_nth_nat _ _ None) by (unfold static_channels_first_shape; cbn [List.length]; lia). reflexivity. }
  pose proof (build_conv_twin T1 T1 Kr Bi eq_refl eq_refl eq_refl eq_refl eq_refl eq_refl eq_refl) as TW. rewrite U1E in TW.
  destruct TW as [bi [ki [EU _]]].
  assert (L1E : L1 = mkConv U1 s dl k (if is_same (upper p) then "same" else "valid") "channels_last" (ca_use_bias a) (ca_activation a) (ca_filters a) (Some Kr) Bi (Some c)).
  { rewrite EU in B. unfold gt_set_indices at 1 2 in B. cbn [gt_group_valued gt_channels_axis T1] in B.
    assert (Q : (if valued then o <- py_nth (build_shape valued bs m g c) cax ;; match o with Some c0 => Ok c0 | None => Err ValueError end else Ok C) = Ok c).
    { destruct valued; [rewrite CAX, CH; reflexivity|reflexivity]. }
    rewrite Q in B. cbn [bind] in B. rewrite EU. injection B as <-. reflexivity. }
  split; [rewrite L1E, EU; reflexivity|].
  destruct (padding_build P (bs :: Some C :: map Some m)) as [P2|e2] eqn:PB2; cbn [bind]; [|reflexivity].
  unfold gt_set_build, cl_set_gt.
  cbn [cl_gt cl_format cl_strides cl_dilation cl_kernel_size cl_padding cl_filters cl_use_bias cl_activation cl_kernel cl_bias cl_channels
       gt_dims gt_format gt_domain gt_channels_axis gt_group_axis gt_group gt_padding gt_transpose gt_subgroup gt_acting gt_reshaped gt_bias_indices
       gt_kernel_indices gt_pooling_indices gt_group_valued String.eqb Ascii.eqb Bool.eqb].
  replace (py_nth (bs :: Some C :: map Some m) 1) with (@Ok (option nat) (Some C)).
  2:{ change 1%Z with (Z.of_nat 1). rewrite (py_nth_nat _ _ None) by (cbn [List.length]; lia). reflexivity. }
  cbn [bind].
  match goal with |- (_ <- (if tr then Ok [] else conv_compute_output_shape ?L) ;; _) = _ =>
    assert (OS2 : exists os2, (if tr then Ok [] else conv_compute_output_shape L) = Ok os2) end.
  { destruct tr; [eexists; reflexivity|]. unfold conv_compute_output_shape in *.
    cbn [cl_gt gt_reshaped gt_transpose cl_format cl_padding cl_filters cl_kernel_size cl_strides cl_dilation] in *.
    destruct (output_shape_twin false (if is_same (upper p) then "same" else "valid") (ca_filters a) k s dl bs m C) as [r2 R2].
    - lia.
    - destruct (keras_conv_output_shape _ "channels_last" _ _ _ _ _ _) as [r2|]; [exists r2; reflexivity|discriminate OS].
    - rewrite R2. cbn [bind]. eexists. reflexivity. }
  destruct OS2 as [os2 ->]. cbn [bind]. fold Kr. fold Bi.
  match goal with |- (_ <- gt_build_conv ?T Kr Bi ;; _) = _ => set (T2 := T) end.
  pose proof (build_conv_twin T1 T2 Kr Bi eq_refl eq_refl eq_refl eq_refl eq_refl eq_refl eq_refl) as TW. rewrite U1E in TW.
  destruct (gt_build_conv T2 Kr Bi) as [U2|]; [|contradiction]. destruct TW as [bi' [ki' [EU' EU2]]]. cbn [bind].
  rewrite EU2. unfold gt_set_indices at 1 2. cbn [gt_group_valued gt_channels_axis T2].
  assert (Q : (if valued then o <- py_nth (static_channels_first_shape valued bs m g c) 1 ;; match o with Some c0 => Ok c0 | None => Err ValueError end else Ok C) = Ok c).
  { destruct valued; [rewrite CH1; reflexivity|reflexivity]. }
  rewrite Q. cbn [bind]. f_equal. rewrite L1E, EU'. reflexivity.
Qed.


(** Calling both layers. *)
Lemma tmap_first3 (act : A -> A) s (f : nat -> list nat -> nat -> A) :
  tmap act (tab s (first3 f)) = tab s (first3 (fun bi p q => act (f bi p q))).
Proof. unfold tmap, tab. cbn [shape data]. rewrite map_map. reflexivity. Qed.
Lemma tmap_sig3 (act : A -> A) d s (f : nat -> list nat -> nat -> A) :
  tmap act (tab s (sig3 d f)) = tab s (sig3 d (fun bi p q => act (f bi p q))).
Proof. unfold tmap, tab. cbn [shape data]. rewrite map_map. reflexivity. Qed.

Lemma add_bias_twin d b m c (f : nat -> list nat -> nat -> A) fl B : List.length m = d ->
  (exists e, add_bias "channels_last" fl B (tab (b :: m ++ [c]) (sig3 d f)) = Err e /\
             add_bias "channels_first" fl B (tab (b :: c :: m) (first3 f)) = Err e) \/
  exists f', add_bias "channels_last" fl B (tab (b :: m ++ [c]) (sig3 d f)) = Ok (tab (b :: m ++ [c]) (sig3 d f')) /\
             add_bias "channels_first" fl B (tab (b :: c :: m) (first3 f)) = Ok (tab (b :: c :: m) (first3 f')).
Proof.
  intros L. unfold add_bias. destruct B as [w|]; [|right; exists f; split; reflexivity].
  destruct (reshape w [Z.of_nat fl]) as [v|e]; cbn [bind]; [|left; exists e; split; reflexivity].
  cbn [String.eqb Ascii.eqb Bool.eqb]. unfold rank. rewrite !shape_tab.
  replace (List.length (b :: m ++ [c]) - 1) with (d + 1) by (cbn [List.length]; rewrite app_length; cbn [List.length]; lia).
  rewrite (chan_ix d b m c []) by exact L. cbn [nth]. destruct (c =? fl)%nat; [|left; eexists; split; reflexivity].
  right. exists (fun bi p q => add (f bi p q) (at_ v [q])). split; f_equal; apply tab_ext; intros i I.
  - rewrite at_tab by exact I. apply inb3_inv in I as [bi [p [q [-> [_ [P _]]]]]]. pose proof (inb_length _ _ P).
    rewrite !sig3_ix by lia. rewrite (chan_ix d bi p q []) by lia. reflexivity.
  - rewrite at_tab by exact I. apply inbF_inv in I as [bi [q [p [-> _]]]]. reflexivity.
Qed.

(** What the backend returns. *)
Lemma length_firstn_shape (w : tensor A) d : rank w = d + 2 -> List.length (firstn d (shape w)) = d.
Proof. unfold rank. intros H. rewrite firstn_length. lia. Qed.

Lemma conv_last_form d b m c (f : nat -> list nat -> nat -> A) K s dl pd y : List.length m = d -> List.length s = d ->
  conv_last (tab (b :: m ++ [c]) (sig3 d f)) K s dl pd = Ok y ->
  exists m' f', List.length m' = d /\ y = tab (b :: m' ++ [nth (d + 1) (shape K) 0]) (sig3 d f').
Proof.
  intros L Ls. unfold conv_last. rewrite Ls, shape_tab.
  destruct ((_ =? d + 2)%nat && (rank K =? d + 2)%nat && (List.length dl =? d)%nat) eqn:G0; [|discriminate].
  apply andb_prop in G0 as [G0 D]. apply andb_prop in G0 as [_ RK]. apply Nat.eqb_eq in D, RK.
  destruct (_ =? _)%nat; [|discriminate]. destruct (pad _ _) as [xp|] eqn:PD; [|discriminate]. cbn [bind].
  destruct (forallb _ _); [|discriminate]. intros H. injection H as <-. cbn [nth].
  assert (RX : List.length (spatial d (shape xp)) = d).
  { unfold pad in PD. destruct (_ =? rank _)%nat eqn:LP; [|discriminate PD]. injection PD as <-. rewrite !shape_tab. apply Nat.eqb_eq in LP.
    unfold spatial. rewrite firstn_length. rewrite rank_tab in LP. unfold rank in LP. 
    cbn [tl]. rewrite map_length, combine_length. unfold spatial in LP. cbn [List.length] in LP. injection LP as LP. rewrite LP, app_length.
    cbn [List.length]. lia. }
  eexists. eexists. split; [|rewrite <- (tab_sig3 d); [reflexivity|]].
  all: rewrite map_length, !combine_length; unfold vzip; rewrite map_length, combine_length, (length_firstn_shape K d RK); lia.
Qed.

Lemma conv_transpose_form d b m c (f : nat -> list nat -> nat -> A) K s dl pd y : List.length m = d -> List.length s = d ->
  conv_transpose_last (tab (b :: m ++ [c]) (sig3 d f)) K s dl pd = Ok y ->
  exists m' f', List.length m' = d /\ y = tab (b :: m' ++ [nth d (shape K) 0]) (sig3 d f').
Proof.
  intros L Ls. unfold conv_transpose_last. rewrite Ls, shape_tab.
  destruct ((_ =? d + 2)%nat && (rank K =? d + 2)%nat && (List.length dl =? d)%nat) eqn:G0; [|discriminate].
  apply andb_prop in G0 as [G0 D]. apply andb_prop in G0 as [_ RK]. apply Nat.eqb_eq in D, RK.
  destruct (_ =? _)%nat; [|discriminate]. intros H. injection H as <-. cbn [nth].
  assert (SP : spatial d (b :: m ++ [c]) = m) by (apply (spatial_ix d b m [c]); exact L). rewrite SP.
  eexists. eexists. split; [|rewrite <- (tab_sig3 d); [reflexivity|]].
  all: rewrite map_length, !combine_length; unfold vzip; rewrite map_length, combine_length, (length_firstn_shape K d RK); lia.
Qed.

Lemma base_twin (tr : bool) d b m c (f : nat -> list nat -> nat -> A) s dl pd fl act K B : List.length m = d -> List.length s = d ->
  let r1 := base_conv_call tr "channels_last" s dl pd fl act K B (tab (b :: m ++ [c]) (sig3 d f)) in
  let r2 := base_conv_call tr "channels_first" s dl pd fl act K B (tab (b :: c :: m) (first3 f)) in
  (exists e, r1 = Err e /\ r2 = Err e) \/
  exists m' f', List.length m' = d /\ let c' := nth (if tr then d else d + 1) (shape K) 0 in
    r1 = Ok (tab (b :: m' ++ [c']) (sig3 d f')) /\ r2 = Ok (tab (b :: c' :: m') (first3 f')).
Proof.
  intros L Ls. unfold base_conv_call, in_format. cbn [String.eqb Ascii.eqb Bool.eqb].
  rewrite (proj2 (move3 d b m c f L)). cbn [bind].
  destruct (if tr then _ else _) as [y|e] eqn:CV; [|left; exists e; split; reflexivity].
  assert (FO : exists m' f', List.length m' = d /\ y = tab (b :: m' ++ [nth (if tr then d else d + 1) (shape K) 0]) (sig3 d f')).
  { destruct tr; [apply (conv_transpose_form d b m c f K s dl pd y L Ls CV)|apply (conv_last_form d b m c f K s dl pd y L Ls CV)]. }
  destruct FO as [m' [f' [L' ->]]]. cbn [bind]. rewrite (proj1 (move3 d b m' _ f' L')). cbn [bind].
  destruct (add_bias_twin d b m' (nth (if tr then d else d + 1) (shape K) 0) f' fl B L') as [[e [E1 E2]]|[f'' [E1 E2]]]; rewrite E1, E2; cbn [bind].
  - left. exists e. split; reflexivity.
  - right. exists m', (fun bi p q => act (f'' bi p q)). split; [exact L'|]. split; f_equal; [apply tmap_sig3|apply tmap_first3].
Qed.

Lemma snd_conv_apply (L : conv_layer A) (x K : tensor A) : cl_kernel L = Some K ->
  snd (conv_apply L x) =
  if (rank x <? gt_dims (cl_gt L) + 2)%nat then Err ValueError
  else if match cl_channels L with
          | Some c => (nth (if String.eqb (cl_format L) "channels_last" then rank x - 1 else 1) (shape x) 0 =? c)%nat
          | None => true
          end
  then p <- prepare_call (cl_gt L) K (cl_bias L) (cl_filters L) x ;;
       let '(k, b, f, x) := p in
       y <- base_conv_call (gt_transpose (cl_gt L)) (cl_format L) (cl_strides L) (cl_dilation L) (cl_padding L) f (cl_activation L) k b x ;;
       restore_group_axis (cl_gt L) y
  else Err ValueError.
Proof.
  intros HK. unfold conv_apply. destruct (rank x <? _)%nat; [reflexivity|].
  assert (CC : snd (conv_call L x) = (p <- prepare_call (cl_gt L) K (cl_bias L) (cl_filters L) x ;;
       let '(k, b, f, x) := p in
       y <- base_conv_call (gt_transpose (cl_gt L)) (cl_format L) (cl_strides L) (cl_dilation L) (cl_padding L) f (cl_activation L) k b x ;;
       restore_group_axis (cl_gt L) y)).
  { unfold conv_call. rewrite HK. destruct (prepare_call _ _ _ _ _) as [[[[k b] f] x']|e]; [|reflexivity]. cbn [bind cl_set_weights cl_filters cl_bias].
    destruct (y <- _ ;; _); reflexivity. }
  destruct (cl_channels L) as [c|]; [destruct (_ =? c)%nat; [exact CC|reflexivity]|exact CC].
Qed.

(** Both layers on the same signal. *)
Lemma call_twin G d E eq (tr valued : bool) act dom c C o k s dl eb ea same ub f kinit binit (L : conv_layer A) P r (x : tensor A) b m g :
  group_ok G d E eq -> conv_facts G d E eq tr valued act dom c C o k s dl eb ea same ub f kinit binit L ->
  gt_group_valued (cl_gt L) = valued -> C = (if valued then g * c else c) -> cl_channels L = Some c ->
  no_padding (gt_padding (cl_gt L)) -> no_padding P ->
  wf x -> List.length m = d -> shape x = b :: m ++ (if valued then [g; c] else [c]) ->
  (exists e, snd (conv_apply L x) = Err e /\ (x' <- moveaxis x (-1) 1 ;; snd (conv_apply (twin_of d L P r) x')) = Err e) \/
  exists m' Y, List.length m' = d /\ snd (conv_apply L x) = Ok (tab (b :: m' ++ [List.length act; o]) (sig4 d Y)) /\
    (x' <- moveaxis x (-1) 1 ;; snd (conv_apply (twin_of d L P r) x')) = Ok (tab (b :: o :: m' ++ [List.length act]) (first4 d Y)).
Proof.
  intros OK F GV EC CH NP1 NP2 W Lm SH.
  destruct (sub_idx_facts _ _ _ _ OK _ _ (cf_act _ _ _ _ _ _ _ _ _ _ _ _ _ _ _ _ _ _ _ _ _ _ F)) as [_ [Ba [HA _]]].
  assert (NA : act <> []) by (intros ->; discriminate HA).
  pose proof (transform_kernel_eq G d E eq OK (cl_gt L) tr valued dom act c C o k (tab (k ++ (if tr then [o; C] else [C; o])) kinit)
    (cf_dom _ _ _ _ _ _ _ _ _ _ _ _ _ _ _ _ _ _ _ _ _ _ F) Ba (cf_k _ _ _ _ _ _ _ _ _ _ _ _ _ _ _ _ _ _ _ _ _ _ F)
    (cf_fit _ _ _ _ _ _ _ _ _ _ _ _ _ _ _ _ _ _ _ _ _ _ F) (cf_kidx _ _ _ _ _ _ _ _ _ _ _ _ _ _ _ _ _ _ _ _ _ _ F) (wf_tab _ _) (shape_tab _ _)) as TK.
  destruct F.
  assert (XF : exists X3, (if valued then merge_axes x (Z.of_nat (d + 1)) (Z.of_nat (d + 2)) else Ok x) = Ok (tab (b :: m ++ [C]) (sig3 d X3)) /\
    exists x', moveaxis x (-1) 1 = Ok x' /\ (if valued then merge_axes x' (Z.of_nat (d + 2)) 1 else Ok x') = Ok (tab (b :: C :: m) (first3 X3)) /\
    rank x = (if valued then d + 3 else d + 2) /\ rank x' = (if valued then d + 3 else d + 2) /\ nth (rank x - 1) (shape x) 0 = c /\ nth 1 (shape x') 0 = c).
  { destruct valued.
    - rewrite (tensor_sig4 d b m g c x W Lm SH). rewrite (proj1 (move4 d b m g c _ Lm)). rewrite (merge_group d b m g c _ Lm), EC.
      eexists. split; [reflexivity|]. eexists. split; [reflexivity|]. rewrite (merge_first d b m g c _ Lm). split; [reflexivity|].
      rewrite !rank_tab, !shape_tab. cbn [List.length]. rewrite !app_length. cbn [List.length]. repeat split; [lia|lia|].
      replace (S (List.length m + 2) - 1) with (d + 2) by lia. rewrite (chan_ix2 d b m g c) by exact Lm. reflexivity.
    - rewrite (tensor_sig3 d b m c x W Lm SH). rewrite (proj1 (move3 d b m c _ Lm)), EC.
      eexists. split; [reflexivity|]. eexists. split; [reflexivity|]. split; [reflexivity|].
      rewrite !rank_tab, !shape_tab. cbn [List.length]. rewrite !app_length. cbn [List.length]. repeat split; [lia|lia|].
      replace (S (List.length m + 1) - 1) with (d + 1) by lia. rewrite (chan_ix d b m c []) by exact Lm. reflexivity. }
  destruct XF as [X3 [M1 [x' [MV [M2 [R1 [R2 [C1 C2]]]]]]]]. rewrite MV. cbn [bind].
  set (K := tab (k ++ (if tr then [o; C] else [C; o])) kinit) in *.
  match type of TK with _ = Ok ?w => set (W' := w) in * end.
  set (BR := match cl_bias L with Some b0 => b1 <- repeat_bias (cl_gt L) b0 ;; Ok (Some b1) | None => Ok None end).
  assert (H1 : snd (conv_apply L x) = (B' <- BR ;; y <- base_conv_call tr "channels_last" s dl (cl_padding L) (o * List.length act) f W' B' (tab (b :: m ++ [C]) (sig3 d X3)) ;;
                                       restore_group_axis (cl_gt L) y)).
  { rewrite (snd_conv_apply L x K) by assumption. rewrite cf_dims, cf_fmt', CH, R1. cbn [String.eqb Ascii.eqb Bool.eqb]. rewrite <- R1, C1, Nat.eqb_refl, R1.
    replace ((if valued then d + 3 else d + 2) <? d + 2)%nat with false by (symmetry; apply Nat.ltb_ge; destruct valued; lia).
    unfold prepare_call, merge_group_axis_and_pad. rewrite GV, cf_gaxis, cf_caxis.
    replace (if valued then merge_axes x (Z.of_nat (d + 1)) (Z.of_nat (if valued then d + 2 else d + 1)) else Ok x)
      with (@Ok (tensor A) (tab (b :: m ++ [C]) (sig3 d X3))) by (symmetry; destruct valued; exact M1).
    cbn [bind]. rewrite no_padding_call by assumption. cbn [bind]. rewrite TK. cbn [bind]. fold BR. destruct BR as [B'|e]; [|reflexivity]. cbn [bind].
    rewrite cf_group, cf_act', cf_tr, cf_strides, cf_dilation, cf_activation, cf_filters. reflexivity. }
  assert (H2 : snd (conv_apply (twin_of d L P r) x') = (B' <- BR ;; y <- base_conv_call tr "channels_first" s dl (cl_padding L) (o * List.length act) f W' B' (tab (b :: C :: m) (first3 X3)) ;;
                                       (z <- split_axes y (List.length act) 1 ;; moveaxis z 1 (Z.of_nat (d + 2))))).
  { rewrite (snd_conv_apply (twin_of d L P r) x' K) by assumption. unfold twin_of.
    cbn [cl_gt gt_dims cl_format cl_channels cl_bias cl_filters cl_strides cl_dilation cl_padding cl_activation gt_transpose String.eqb Ascii.eqb Bool.eqb].
    rewrite cf_dims, CH, C2, Nat.eqb_refl, R2.
    replace ((if valued then d + 3 else d + 2) <? d + 2)%nat with false by (symmetry; apply Nat.ltb_ge; destruct valued; lia).
    unfold prepare_call, merge_group_axis_and_pad, restore_group_axis, transform_kernel, repeat_bias.
    cbn [gt_group_valued gt_group_axis gt_channels_axis gt_padding gt_kernel_indices gt_group gt_acting gt_bias_indices gt_format String.eqb Ascii.eqb Bool.eqb andb].
    rewrite GV, M2. cbn [bind]. rewrite no_padding_call by assumption. cbn [bind]. unfold transform_kernel in TK. rewrite TK. cbn [bind].
    unfold BR, repeat_bias. match goal with |- _ = (B' <- ?r ;; _) => destruct r as [B'|e] end; [|reflexivity]. cbn [bind].
    rewrite cf_group, cf_act', cf_tr, cf_strides, cf_dilation, cf_activation, cf_filters. cbn [bind]. rewrite andb_false_r. reflexivity. }
  rewrite H1, H2. destruct BR as [B'|e]; cbn [bind]; [|left; exists e; split; reflexivity].
  destruct (base_twin tr d b m C X3 s dl (cl_padding L) (o * List.length act) f W' B' Lm cf_s) as [[e [E1 E2]]|[m' [f' [Lm' [E1 E2]]]]]; rewrite E1, E2; cbn [bind].
  - left. exists e. split; reflexivity.
  - assert (CO : nth (if tr then d else d + 1) (shape W') 0 = List.length act * o).
    { unfold W'. destruct tr; rewrite shape_tab, app_nth2 by lia; rewrite cf_k; [rewrite Nat.sub_diag|replace (d + 1 - d) with 1 by lia]; reflexivity. }
    rewrite CO. right. exists m', (fun bi p h oo => f' bi p (h * o + oo)). split; [exact Lm'|]. split.
    + apply (restore_eq G d (cl_gt L) valued act b m' o f'); try assumption.
    + apply (split_first d b m' (List.length act) o f' Lm'). destruct act; [congruence|discriminate].
Qed.

End Convolution.

(** ** Padding in the format 'channels_first' *)

Lemma library_dimension name G : dict_get group_dict name = Ok G -> 0 < dimension_of name.
Proof.
  intros H. apply dict_get_In in H. assert (N : In name (map fst group_dict)) by (apply (in_map fst) in H; exact H).
  assert (AL : forallb (fun n => 0 <? dimension_of n)%nat (map fst group_dict) = true) by (vm_compute; reflexivity).
  rewrite forallb_forall in AL. apply AL in N. apply Nat.ltb_lt. exact N.
Qed.

Lemma first_as_last bs C (m : list nat) : m <> [] ->
  bs :: Some C :: map Some m = bs :: map Some (C :: removelast m) ++ [Some (last m 0)].
Proof. intros NE. cbn [map app]. do 2 f_equal. rewrite (app_removelast_last 0 NE) at 1. rewrite map_app. reflexivity. Qed.

Lemma length_removelast (m : list nat) : List.length (removelast m) = List.length m - 1.
Proof. induction m as [|a [|b m] IH]; [reflexivity|reflexivity|]. cbn [removelast List.length] in *. lia. Qed.

Lemma plain_no_padding P sh P' : is_plain (pl_option P) = true -> padding_build P sh = Ok P' -> pl_needs P' = Some false.
Proof.
  intros PL. unfold padding_build. fold (is_plain (pl_option P)). rewrite PL.
  destruct (true && pl_allow P); [intros [= <-]; reflexivity|].
  destruct (cast_sizes _); [|discriminate]. cbn [bind]. destruct (compute_equivariant_padding _ _) as [[e t]|]; [|discriminate]. cbn [bind].
  destruct (negb _); [intros [= <-]; reflexivity|discriminate].
Qed.

Lemma nextra_unit n b k : Nat.Even b -> nextra n b k 1 = 0.
Proof.
  intros [q ->]. unfold nextra, zextra.
  assert (Z0 : ze0 (Z.of_nat n) (Z.of_nat (2 * q)) (Z.of_nat k) (Z.of_nat 1) = 0%Z) by (unfold ze0; apply Z.mod_1_r).
  rewrite Z0. replace (0 + Z.of_nat (2 * q))%Z with (Z.of_nat q * 2)%Z by lia. rewrite Z.mod_mul by lia. reflexivity.
Qed.

(** With strides of 1 nothing is padded ('same_equiv': for odd kernel sizes). *)
Lemma unit_no_padding ks st d k s p allow tr P n bs cs :
  standardize_tuple d ks = Ok k -> standardize_tuple d st = Ok s ->
  padding_init ks d st (Some p) allow "channels_last" tr = Ok P -> List.length n = d ->
  (forall v, In v s -> v = 1) -> (is_same (upper p) = false \/ forall v, In v k -> Nat.Odd v) ->
  exists P', padding_build P (bs :: map Some n ++ [cs]) = Ok P' /\ pl_needs P' = Some false.
Proof.
  intros Hk Hs I N S1 KO. apply padding_init_inv in I as [Eo [_ [_ [Ea [Ed [Es [Ek [Ef [Et [Ep _]]]]]]]]]].
  destruct (layer_axes ks st d k s n Hk Hs N) as [LL [An [Ak [As [Zk [Zs PP]]]]]]. set (l := axes_of n k s) in *.
  change (bs :: map Some n ++ [cs]) with (static_layout "channels_last" bs n cs). rewrite <- Ef.
  rewrite (padding_build_eq P l bs cs n); [|congruence|congruence|intros q Q; apply PP; exact Q|exact An|congruence].
  destruct (is_plain _ && _); [eexists; split; reflexivity|].
  assert (AL : forallb (fun q => extra_of (is_same (pl_option P)) (pl_transpose P) q =? 0)%nat l = true).
  { apply forallb_forall. intros q Q. apply Nat.eqb_eq. unfold extra_of. destruct (PP q Q) as [_ PK].
    assert (SQ : ax_s q = 1) by (apply S1; rewrite <- As; apply in_map; exact Q). rewrite SQ. apply nextra_unit.
    unfold assumed. rewrite SQ, Eo. destruct (is_same (upper p)).
    - destruct KO as [KO|KO]; [discriminate|]. assert (KQ : Nat.Odd (ax_k q)) by (apply KO; rewrite <- Ak; apply in_map; exact Q).
      destruct KQ as [j J]. rewrite J. exists j. unfold same_total. rewrite Nat.div_1_r. lia.
    - destruct (pl_transpose P); [exists 0; lia|exists 0; reflexivity]. }
  rewrite AL. eexists. split; reflexivity.
Qed.


Section FirstPadding.
Context {A : Type} {RA : Arith A}.

(** The padding layer of a 'channels_first' layer. *)
Lemma first_padding name G (a : conv_args A) (tr valued : bool) bs m g c kinit binit L :
  layer_for name G a ->
  let d := dimension_of name in
  built d tr (with_format a "channels_first") (static_channels_first_shape valued bs m g c) kinit binit L -> List.length m = d ->
  padding_of a tr d bs ((if valued then g * c else c) :: removelast m) (last m 0) (gt_padding (cl_gt L)).
Proof.
  intros [DG [AG AF]] d [M0 [I B]] Lm. rewrite conv_init_first in I by exact AF.
  destruct (conv_init d tr a) as [L0|] eqn:I0; [|discriminate I]. cbn [bind] in I. assert (EM : M0 = cl_first d L0) by congruence. subst M0. clear I.
  destruct (conv_init_inv G d name tr a L0 DG AG AF I0) as [p [k [s [dl [Hn [PN [_ [_ [_ [_ [_ [_ [_ [_ [P [PI EL]]]]]]]]]]]]]]]].
  unfold padding_of. unfold padding_name, strides_of in *. rewrite PN. exists P. split; [exact PI|].
  assert (NE : m <> []).
  { destruct m; [|discriminate]. exfalso. pose proof (library_dimension name G DG). cbn in Lm. unfold d in Lm. lia. }
  rewrite <- first_as_last by exact NE.
  set (K := gt_subgroup (cl_gt L0)) in EL. clearbody K. rewrite EL in B. clear EL I0 L0.
  unfold conv_build, gt_build, cl_first, gt_first in B.
  cbn [cl_gt cl_format gt_dims gt_format gt_domain gt_channels_axis gt_group_axis gt_group gt_padding gt_transpose] in B.
  assert (V2 : (List.length (static_channels_first_shape valued bs m g c) =? d + 3)%nat = valued).
  { unfold static_channels_first_shape. cbn [List.length]. rewrite app_length, map_length. destruct valued; cbn [List.length]; [apply Nat.eqb_eq|apply Nat.eqb_neq]; lia. }
  rewrite V2 in B. cbn [String.eqb Ascii.eqb Bool.eqb andb] in B.
  match type of B with (_ <- (_ <- ?r ;; _) ;; _) = _ => assert (R : forall v, r = Ok v -> v = bs :: Some (if valued then g * c else c) :: map Some m) end.
  { intros v R. destruct valued.
    - destruct (subgroup_get _ _) as [idx|]; [|discriminate R]. cbn [bind] in R. destruct (py_nth _ _) as [w|]; [|discriminate R]. cbn [bind] in R.
      destruct (match w with Some n => _ | None => _ end); [|discriminate R]. unfold static_channels_first_shape in R.
      rewrite (merge_static_first d) in R by exact Lm. congruence.
    - unfold static_channels_first_shape in R. rewrite app_nil_r in R. congruence. }
  match type of B with (_ <- (_ <- ?r ;; _) ;; _) = _ => destruct r as [v|]; [|discriminate B] end. rewrite (R v eq_refl) in B. cbn [bind] in B. clear R v.
  destruct (padding_build P _) as [P'|] eqn:PB; [|discriminate B]. cbn [bind] in B. f_equal.
  unfold gt_set_build, cl_set_gt in B.
  cbn [cl_gt cl_format cl_strides cl_dilation cl_kernel_size cl_padding cl_filters cl_use_bias cl_activation cl_kernel cl_bias cl_channels
       gt_dims gt_format gt_domain gt_channels_axis gt_group_axis gt_group gt_padding gt_transpose gt_subgroup gt_acting gt_reshaped gt_bias_indices
       gt_kernel_indices gt_pooling_indices gt_group_valued String.eqb Ascii.eqb Bool.eqb] in B.
  destruct (py_nth _ _) as [w|]; [|discriminate B]. cbn [bind] in B. destruct w as [w|]; [|discriminate B]. cbn [bind] in B.
  match type of B with (_ <- ?r ;; _) = _ => destruct r as [os|]; [|discriminate B] end. cbn [bind] in B.
  destruct (gt_build_conv _ _ _) as [U|] eqn:UE; [|discriminate B]. cbn [bind] in B.
  match type of B with (_ <- ?r ;; _) = _ => destruct r as [ch|]; [|discriminate B] end. cbn [bind] in B. injection B as <-. cbn [cl_set_channels cl_set_weights cl_gt].
  unfold gt_build_conv in UE. match type of UE with (_ <- ?r ;; _) = _ => destruct r; [|discriminate UE] end. cbn [bind] in UE.
  destruct (compute_transformed_kernel_indices _ _); [|discriminate UE]. cbn [bind] in UE. injection UE as <-. reflexivity.
Qed.

(** When the channel axis is padded, every call raises. *)
Lemma call_channel_padded G d E eq (tr valued : bool) act dom c C o k s dl eb ea same ub f kinit binit (L : conv_layer A) P r (x : tensor A) b m g pb pa :
  group_ok G d E eq -> conv_facts G d E eq tr valued act dom c C o k s dl eb ea same ub f kinit binit L ->
  gt_group_valued (cl_gt L) = valued -> C = (if valued then g * c else c) -> cl_channels L = Some c -> 0 < d ->
  pads_with (A := A) d P pb pa -> List.length pb = d -> List.length pa = d -> nth 0 pb 0 + nth 0 pa 0 <> 0 ->
  wf x -> List.length m = d -> shape x = b :: c :: m ++ (if valued then [g] else []) ->
  snd (conv_apply (twin_of d L P r) x) = Err ValueError.
Proof.
  intros OK F GV EC CH Dp PW Lpb Lpa NZ W Lm SH.
  destruct (sub_idx_facts _ _ _ _ OK _ _ (cf_act _ _ _ _ _ _ _ _ _ _ _ _ _ _ _ _ _ _ _ _ _ _ F)) as [_ [Ba [HA _]]].
  pose proof (transform_kernel_eq G d E eq OK (cl_gt L) tr valued dom act c C o k (tab (k ++ (if tr then [o; C] else [C; o])) kinit)
    (cf_dom _ _ _ _ _ _ _ _ _ _ _ _ _ _ _ _ _ _ _ _ _ _ F) Ba (cf_k _ _ _ _ _ _ _ _ _ _ _ _ _ _ _ _ _ _ _ _ _ _ F)
    (cf_fit _ _ _ _ _ _ _ _ _ _ _ _ _ _ _ _ _ _ _ _ _ _ F) (cf_kidx _ _ _ _ _ _ _ _ _ _ _ _ _ _ _ _ _ _ _ _ _ _ F) (wf_tab _ _) (shape_tab _ _)) as TK.
  destruct F.
  assert (RX : rank x = (if valued then d + 3 else d + 2)).
  { unfold rank. rewrite SH. cbn [List.length]. rewrite app_length. destruct valued; cbn [List.length]; lia. }
  assert (MX : exists t, (if valued then merge_axes x (Z.of_nat (d + 2)) 1 else Ok x) = Ok t /\ wf t /\ shape t = b :: C :: m).
  { destruct valued.
    - replace x with (tab (b :: c :: m ++ [g]) (first4 d (fun bi p h q => at_ x (bi :: q :: p ++ [h])))).
      + rewrite (merge_first d b m g c _ Lm). eexists. split; [reflexivity|]. split; [apply wf_tab|]. rewrite shape_tab, EC. reflexivity.
      + rewrite <- SH. transitivity (tab (shape x) (fun i => at_ x i)); [|apply tab_at; exact W]. apply tab_ext. intros i I. rewrite SH in I. apply inbF4_inv in I as [bi [q [p [h [-> [_ [_ [PP _]]]]]]]].
        rewrite first4_ix; [reflexivity|]. rewrite (inb_length _ _ PP). exact Lm.
    - exists x. split; [reflexivity|]. split; [exact W|]. rewrite SH, EC, app_nil_r. reflexivity. }
  destruct MX as [t [MX [Wt St]]].
  assert (NE : m <> []) by (destruct m; [cbn in Lm; lia|discriminate]).
  assert (St' : shape t = b :: (C :: removelast m) ++ [last m 0]).
  { rewrite St. cbn [app]. do 2 f_equal. apply app_removelast_last. exact NE. }
  assert (LR : List.length (C :: removelast m) = d).
  { cbn [List.length]. rewrite length_removelast. destruct m; [congruence|]. cbn [List.length] in *. lia. }
  assert (PD : exists n' F', List.length n' = d /\ padding_call P t = Ok (tab (b :: nth 0 pb 0 + C + nth 0 pa 0 :: n') (first3 F'))).
  { rewrite (tensor_sig3 d b (C :: removelast m) (last m 0) t Wt LR St'). rewrite PW by exact LR.
    destruct pb as [|p0 pb]; [cbn in Lpb; lia|]. destruct pa as [|p1 pa]; [cbn in Lpa; lia|].
    match goal with |- exists _ _, _ /\ Ok (tab _ ?F0) = _ =>
      exists (vzip Nat.add (vzip Nat.add pb (removelast m)) pa ++ [last m 0]), (fun bi p q => F0 (bi :: q :: p)) end. split.
    - cbn [List.length] in *. rewrite app_length, length_vzip; rewrite ?length_vzip; cbn [List.length]; lia.
    - f_equal. change (padded (p0 :: pb) (C :: removelast m) (p1 :: pa)) with (p0 + C + p1 :: vzip Nat.add (vzip Nat.add pb (removelast m)) pa).
      apply tab_ext. intros i I. apply inbF_inv in I as [bi [q [p [-> _]]]]. reflexivity. }
  destruct PD as [n' [F' [Ln' PD]]].
  rewrite (snd_conv_apply (twin_of d L P r) x (tab (k ++ (if tr then [o; C] else [C; o])) kinit)) by assumption. unfold twin_of.
  cbn [cl_gt gt_dims cl_format cl_channels cl_bias cl_filters cl_strides cl_dilation cl_padding cl_activation gt_transpose String.eqb Ascii.eqb Bool.eqb].
  rewrite cf_dims, CH, RX. replace (nth 1 (shape x) 0) with c by (rewrite SH; reflexivity). rewrite Nat.eqb_refl.
  replace ((if valued then d + 3 else d + 2) <? d + 2)%nat with false by (symmetry; apply Nat.ltb_ge; destruct valued; lia).
  unfold prepare_call, merge_group_axis_and_pad, transform_kernel, repeat_bias.
  cbn [gt_group_valued gt_group_axis gt_channels_axis gt_padding gt_kernel_indices gt_group gt_acting gt_bias_indices gt_format].
  rewrite GV, MX. cbn [bind]. rewrite PD. cbn [bind]. unfold transform_kernel in TK. rewrite TK. cbn [bind]. rewrite cf_bias.
  assert (BB : exists B', match (if ub then Some (tab [o] binit) else None) with
     | Some b0 => b1 <- match gt_bias_indices (cl_gt L) with Some i => take b0 i 0 | None => Err ValueError end ;; Ok (Some b1)
     | None => Ok None end = Ok B').
  { destruct ub; [|eexists; reflexivity]. fold (repeat_bias (cl_gt L) (tab [o] binit)). rewrite (repeat_bias_eq _ act o binit (cf_bidx eq_refl)).
    eexists; reflexivity. }
  destruct BB as [B' ->]. cbn [bind]. rewrite cf_group, cf_act'. cbn [bind]. unfold base_conv_call, in_format. cbn [String.eqb Ascii.eqb Bool.eqb].
  rewrite (proj2 (move3 d b n' _ F' Ln')). cbn [bind].
  match goal with |- (y <- (y0 <- (y1 <- ?r ;; _) ;; _) ;; _) = _ => assert (RE : r = Err ValueError) end.
  { rewrite cf_tr, cf_strides. destruct tr.
    - unfold conv_transpose_last. rewrite cf_s, !shape_tab, (chan_ix d b n' _ []) by exact Ln'.
      destruct (_ && _); [|reflexivity]. rewrite app_nth2 by lia. rewrite cf_k. replace (d + 1 - d) with 1 by lia. cbn [nth].
      replace (C =? _)%nat with false by (symmetry; apply Nat.eqb_neq; lia). reflexivity.
    - unfold conv_last. rewrite cf_s, !shape_tab, (chan_ix d b n' _ []) by exact Ln'.
      destruct (_ && _); [|reflexivity]. rewrite app_nth2 by lia. rewrite cf_k, Nat.sub_diag. cbn [nth].
      replace (C =? _)%nat with false by (symmetry; apply Nat.eqb_neq; lia). reflexivity. }
  rewrite RE. reflexivity.
Qed.

End FirstPadding.
