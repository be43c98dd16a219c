(** Building layers for input shapes with unknown spatial sizes. *)
From Verif Require Export BuildTheorems PoolFacts PoolSpec.
Local Open Scope string_scope.
Local Open Scope list_scope.

(** The shape of a signal on the grid or on the group as Keras knows it at build time;
    any spatial size may be unknown. *)
Definition partly_known_shape (valued : bool) (bs : option nat) (sp : sshape) (g c : nat) : sshape :=
  bs :: sp ++ (if valued then [Some g; Some c] else [Some c]).

Lemma merge_partly_known d bs (sp : sshape) g c : List.length sp = d ->
  merge_shapes (bs :: sp ++ [Some g; Some c]) (Z.of_nat (d + 1)) (Z.of_nat (d + 2)) = Ok (bs :: sp ++ [Some (g * c)]).
Proof.
  intros L. unfold merge_shapes.
  assert (LL : List.length (bs :: sp ++ [Some g; Some c]) = d + 3)
    by (cbn [List.length]; rewrite app_length; cbn [List.length]; lia).
  rewrite (py_nth_nat _ (d + 2) None), (py_nth_nat _ (d + 1) None) by lia. cbn [bind].
  replace (nth (d + 2) (bs :: sp ++ [Some g; Some c]) None) with (Some c).
  2:{ replace (d + 2) with (S (d + 1)) by lia. cbn [nth]. rewrite app_nth2 by lia.
      replace (d + 1 - List.length sp) with 1 by lia. reflexivity. }
  replace (nth (d + 1) (bs :: sp ++ [Some g; Some c]) None) with (Some g).
  2:{ replace (d + 1) with (S d) by lia. cbn [nth]. rewrite app_nth2 by lia. rewrite L, Nat.sub_diag. reflexivity. }
  rewrite py_set_nat by lia. cbn [bind]. rewrite py_pop_nat by (rewrite length_upd; lia). f_equal.
  replace (bs :: sp ++ [Some g; Some c]) with ((bs :: sp ++ [Some g]) ++ [Some c]) by (cbn [app]; rewrite <- app_assoc; reflexivity).
  replace (d + 2) with (List.length (bs :: sp ++ [Some g])) by (cbn [List.length]; rewrite app_length; cbn [List.length]; lia).
  rewrite upd_app. cbn [app]. rewrite <- app_assoc. cbn [app].
  rewrite (Nat.mul_comm c g). replace (d + 1) with (S (List.length sp)) by lia.
  unfold remove_at. cbn [firstn]. rewrite firstn_app_exact by reflexivity.
  change (skipn (S (S (List.length sp))) (bs :: sp ++ [Some g; Some (g * c)])) with (skipn (S (List.length sp)) (sp ++ [Some g; Some (g * c)])).
  replace (sp ++ [Some g; Some (g * c)]) with ((sp ++ [Some g]) ++ [Some (g * c)]) by (rewrite <- app_assoc; reflexivity).
  rewrite skipn_app_exact by (rewrite app_length; cbn [List.length]; lia). reflexivity.
Qed.

(** [GroupTransforms.build]: the spatial sizes are only looked at by the padding. *)
Definition with_reshaped (T : gtransforms) (r : sshape) : gtransforms :=
  mkGT (gt_dims T) (gt_transpose T) (gt_group T) (gt_subgroup T) (gt_domain T) (gt_acting T) (gt_padding T)
       (gt_format T) (gt_channels_axis T) (gt_group_axis T) (gt_group_valued T) (Some r)
       (gt_bias_indices T) (gt_kernel_indices T) (gt_pooling_indices T).

(** What [build] does before it comes to the padding. *)
Definition before_padding (T : gtransforms) (valued : bool) (g : nat) : result unit :=
  if valued then
    idx <- subgroup_get (gt_group T) (gt_domain T) ;;
    guard (g =? List.length idx)%nat else AssertionError ;; Ok tt
  else Ok tt.

Lemma gt_build_partly_known T d (valued : bool) bs sp g c :
  gt_dims T = d -> gt_format T = "channels_last" -> gt_channels_axis T = Z.of_nat (d + 1) -> gt_group_axis T = Z.of_nat (d + 1) ->
  List.length sp = d ->
  let r := bs :: sp ++ [Some (if valued then g * c else c)] in
  gt_build T (partly_known_shape valued bs sp g c) =
  (_ <- before_padding T valued g ;;
   P <- padding_build (gt_padding T) r ;;
   Ok (gt_set_build T (if valued then gt_domain T else None) P (Z.of_nat (if valued then d + 2 else d + 1)) valued r)).
Proof.
  intros D F CA GA L r. unfold gt_build. rewrite D, F, CA, GA. cbn [String.eqb Ascii.eqb Bool.eqb andb].
  assert (V : (List.length (partly_known_shape valued bs sp g c) =? d + 3)%nat = valued).
  { unfold partly_known_shape. cbn [List.length]. rewrite app_length. destruct valued; cbn [List.length]; [apply Nat.eqb_eq|apply Nat.eqb_neq]; lia. }
  rewrite V. unfold before_padding. destruct valued.
  - destruct (subgroup_get (gt_group T) (gt_domain T)) as [idx|]; [|reflexivity]. cbn [bind].
    rewrite (py_nth_nat _ (d + 1) None).
    2:{ unfold partly_known_shape. cbn [List.length]. rewrite app_length. cbn [List.length]. lia. }
    cbn [bind]. replace (nth (d + 1) (partly_known_shape true bs sp g c) None) with (Some g).
    2:{ unfold partly_known_shape. replace (d + 1) with (S d) by lia. cbn [nth]. rewrite app_nth2 by lia. rewrite L, Nat.sub_diag. reflexivity. }
    destruct (g =? List.length idx)%nat; [|reflexivity]. cbn [bind].
    replace (Z.of_nat (d + 1) + 1)%Z with (Z.of_nat (d + 2)) by lia.
    unfold partly_known_shape. rewrite (merge_partly_known d bs sp g c L). reflexivity.
  - reflexivity.
Qed.

(** [cast] rejects unknown sizes. *)
Lemma cast_unknown (sp : sshape) : In None sp -> cast_sizes sp = Err ValueError.
Proof.
  unfold cast_sizes. induction sp as [|o sp IH]; [intros []|]. intros [->|I]; [reflexivity|]. cbn [mapM].
  destruct o as [n|]; [|reflexivity]. cbn [bind]. rewrite (IH I). reflexivity.
Qed.

Lemma padding_build_unknown P d bs sp C : pl_format P = "channels_last" -> pl_dims P = d -> List.length sp = d -> In None sp ->
  mem_str (pl_option P) ["SAME"; "VALID"] && pl_allow P = false ->
  padding_build P (bs :: sp ++ [Some C]) = Err ValueError.
Proof.
  intros F D L I N. unfold padding_build. rewrite N, F, D. cbn [String.eqb Ascii.eqb Bool.eqb skipn].
  rewrite <- L, firstn_app_exact by reflexivity. rewrite cast_unknown by exact I. reflexivity.
Qed.

Lemma padding_build_allowed P r : mem_str (pl_option P) ["SAME"; "VALID"] && pl_allow P = true ->
  padding_build P r = Ok (set_needs P false (pl_pads P)).
Proof. intros N. unfold padding_build. rewrite N. reflexivity. Qed.

Lemma option_axes_as_map {B} (f : option nat -> nat -> nat -> B) n k s d : List.length n = d -> List.length k = d -> List.length s = d ->
  map (fun q => let '(n, k, s) := q in f n k s) (combine (combine n k) s)
  = map (fun ax => f (nth ax n None) (nth ax k 0) (nth ax s 0)) (seq 0 d).
Proof.
  revert n k s. induction d as [|d IH]; intros n k s Ln Lk Ls.
  - destruct n; [reflexivity|discriminate Ln].
  - destruct n as [|n0 n], k as [|k0 k], s as [|s0 s]; try discriminate. cbn [combine map seq nth]. f_equal.
    rewrite (IH n k s) by (cbn in *; lia). rewrite <- seq_shift, map_map. reflexivity.
Qed.

(** The sizes that Keras accepts in a convolution. *)
Lemma keras_partly_known (tr : bool) d pd o k s dl bs sp C : List.length sp = d -> List.length k = d -> List.length s = d -> List.length dl = d ->
  let size ax n := if tr then Z.of_nat (transpose_size pd n (dilated (nth ax k 0) (nth ax dl 0)) (nth ax s 0))
                   else conv_out_z pd n (dilated (nth ax k 0) (nth ax dl 0)) (nth ax s 0) in
  let outs := map (fun ax => option_map (size ax) (nth ax sp None)) (seq 0 d) in
  keras_conv_output_shape tr "channels_last" pd o k s dl (bs :: sp ++ [Some C]) =
  if forallb (fun v => match v with Some z => (0 <=? z)%Z | None => true end) outs
  then Ok (bs :: map (option_map Z.to_nat) outs ++ [Some o]) else Err ValueError.
Proof.
  intros Lp Lk Ls Ld size outs. unfold keras_conv_output_shape. cbn [String.eqb Ascii.eqb Bool.eqb].
  replace (List.length (bs :: sp ++ [Some C]) =? List.length k + 2)%nat with true
    by (symmetry; apply Nat.eqb_eq; cbn [List.length]; rewrite app_length; cbn [List.length]; lia).
  cbn [skipn]. rewrite firstn_app_exact by lia.
  match goal with |- context[forallb _ ?oo] => assert (OE : oo = outs) end.
  { unfold outs. assert (LE : List.length (vzip dilated k dl) = d) by (rewrite length_vzip; lia).
    rewrite (option_axes_as_map (fun o k s => option_map (fun n => if tr then Z.of_nat (transpose_size pd n k s) else conv_out_z pd n k s) o) sp (vzip dilated k dl) s d Lp LE Ls).
    apply map_ext_in. intros ax I. apply in_seq in I. rewrite nth_vzip by lia. reflexivity. }
  rewrite OE. reflexivity.
Qed.

Lemma keras_partly_known_iff d (same : bool) o k s dl bs sp C : List.length sp = d -> List.length k = d -> List.length s = d -> List.length dl = d ->
  (forall a, a < d -> 0 < nth a s 0) ->
  ((exists r, keras_conv_output_shape false "channels_last" (if same then "same" else "valid") o k s dl (bs :: sp ++ [Some C]) = Ok r) <->
   (forall a n, a < d -> nth a sp None = Some n -> same = true \/ dilated (nth a k 0) (nth a dl 0) <= n + nth a s 0)).
Proof.
  intros Lp Lk Ls Ld PS. rewrite (keras_partly_known false d) by assumption.
  match goal with |- context[forallb ?f ?l] => assert (F : forallb f l = true <-> (forall a n, a < d -> nth a sp None = Some n -> same = true \/ dilated (nth a k 0) (nth a dl 0) <= n + nth a s 0)); [|destruct (forallb f l)] end.
  - rewrite forallb_forall. split.
    + intros Q a n A N. apply (proj1 (output_size_ok same n (dilated (nth a k 0) (nth a dl 0)) (nth a s 0) (PS a A))).
      apply (Q (Some (conv_out_z (if same then "same" else "valid") n (dilated (nth a k 0) (nth a dl 0)) (nth a s 0)))).
      apply in_map_iff. exists a. rewrite N. split; [reflexivity|apply in_seq; lia].
    + intros Q v I. apply in_map_iff in I as [a [<- I]]. apply in_seq in I. destruct (nth a sp None) as [n|] eqn:N; [|reflexivity]. cbn [option_map].
      apply output_size_ok; [apply PS; lia|]. apply Q; [lia|exact N].
  - rewrite <- F. split; [reflexivity|intros _; eexists; reflexivity].
  - rewrite <- F. split; [intros [r R]; discriminate R|discriminate].
Qed.

(** A layer with another idea of the input shape; it is only used by
    [compute_output_shape]. *)
Definition cl_with_reshaped {A} (L : conv_layer A) (r : sshape) : conv_layer A := cl_set_gt L (with_reshaped (cl_gt L) r).

Section Unknown.
Context {A : Type} {RA : Arith A}.

Lemma call_ignores_reshaped (L : conv_layer A) r x : snd (conv_apply (cl_with_reshaped L r) x) = snd (conv_apply L x).
Proof.
  unfold conv_apply, cl_with_reshaped. cbn [cl_set_gt cl_gt gt_dims with_reshaped cl_format cl_channels].
  destruct (_ <? _)%nat; [reflexivity|].
  assert (Q : snd (conv_call (cl_set_gt L (with_reshaped (cl_gt L) r)) x) = snd (conv_call L x)).
  { unfold conv_call. cbn [cl_set_gt cl_gt cl_kernel cl_bias cl_filters].
    destruct (cl_kernel L) as [w|]; [|reflexivity].
    change (prepare_call (with_reshaped (cl_gt L) r) w (cl_bias L) (cl_filters L) x) with (prepare_call (cl_gt L) w (cl_bias L) (cl_filters L) x).
    destruct (prepare_call _ _ _ _ _) as [[[[w' b'] f'] x']|]; [|reflexivity].
    cbn [cl_set_weights cl_gt cl_format cl_strides cl_dilation cl_padding cl_filters cl_activation cl_bias gt_transpose with_reshaped].
    destruct (base_conv_call _ _ _ _ _ _ _ _ _ _) as [y|]; [|reflexivity]. cbn [bind].
    change (restore_group_axis (with_reshaped (cl_gt L) r) y) with (restore_group_axis (cl_gt L) y).
    destruct (restore_group_axis _ _); reflexivity. }
  destruct (cl_channels L) as [c|]; [destruct (_ =? c)%nat; [exact Q|reflexivity]|exact Q].
Qed.

Lemma indices_ignore_reshaped T r (w : tensor A) b :
  gt_build_conv (with_reshaped T r) w b = (T' <- gt_build_conv T w b ;; Ok (with_reshaped T' r)).
Proof.
  unfold gt_build_conv.
  change (compute_transformed_kernel_indices (with_reshaped T r) w) with (compute_transformed_kernel_indices T w).
  destruct b as [b|].
  - change (compute_repeated_bias_indices (with_reshaped T r) b) with (compute_repeated_bias_indices T b).
    destruct (compute_repeated_bias_indices T b) as [i|]; [|reflexivity]. cbn [bind].
    destruct (compute_transformed_kernel_indices T w); reflexivity.
  - cbn [bind]. destruct (compute_transformed_kernel_indices T w); reflexivity.
Qed.

(** [build] for partly known sizes, up to the choice of the sizes. *)
Lemma conv_build_partly_known name G (tr : bool) (a : conv_args A) d L0 p k s dl (valued : bool) bs g c kinit binit :
  dict_get group_dict name = Ok G -> (ca_group a = ByName name \/ ca_group a = Object G) ->
  ca_data_format a = "channels_last" -> conv_init d tr a = Ok L0 ->
  padding_name a = Some p -> is_plain (upper p) && ca_allow a = true ->
  standardize_tuple d (ca_kernel_size a) = Ok k -> standardize_tuple d (strides_of a) = Ok s -> standardize_tuple d (dilation_of a) = Ok dl ->
  exists R : result (conv_layer A), forall sp, List.length sp = d ->
   let r := bs :: sp ++ [Some (if valued then g * c else c)] in
   match conv_build L0 (partly_known_shape valued bs sp g c) kinit binit with
   | Ok L => exists L1, R = Ok L1 /\ L = cl_with_reshaped L1 r /\
               (tr = false -> exists o, keras_conv_output_shape false "channels_last" (if is_same (upper p) then "same" else "valid") (ca_filters a) k s dl r = Ok o)
   | Err _ => (exists e, R = Err e) \/
              (tr = false /\ exists e, keras_conv_output_shape false "channels_last" (if is_same (upper p) then "same" else "valid") (ca_filters a) k s dl r = Err e)
   end.
Proof.
  intros DG AG AF I PN PA SK SS SD.
  destruct (conv_init_inv G d name tr a L0 DG AG AF I) as [p0 [k0 [s0 [dl0 [Hn [PN0 [SK0 [SS0 [SD0 [PS [NE [MM [FP [_ [P [PI EL]]]]]]]]]]]]]]]].
  rewrite PN in PN0. injection PN0 as <-. rewrite SK in SK0. injection SK0 as <-. rewrite SS in SS0. injection SS0 as <-. rewrite SD in SD0. injection SD0 as <-.
  pose proof (padding_init_inv _ _ _ _ _ _ _ _ PI) as [Eo [_ [_ [Ea _]]]].
  assert (PB : forall r, padding_build P r = Ok (set_needs P false (pl_pads P))).
  { intros r. apply padding_build_allowed. rewrite Eo, Ea. exact PA. }
  set (K := gt_subgroup (cl_gt L0)) in EL. clearbody K. rewrite EL. clear EL I.
  set (T0 := mkGT d tr G K (Some (if tr then Hn else name)) (Some (if tr then name else Hn)) P "channels_last" (Z.of_nat (d + 1)) (Z.of_nat (d + 1)) false None None None None).
  set (C := if valued then g * c else c).
  set (T1 := gt_set_build T0 (if valued then gt_domain T0 else None) (set_needs P false (pl_pads P)) (Z.of_nat (if valued then d + 2 else d + 1)) valued []).
  set (w := tab (k ++ (if tr then [ca_filters a; C] else [C; ca_filters a])) kinit).
  set (b := if ca_use_bias a then Some (tab [ca_filters a] binit) else None).
  set (L0' := mkConv T1 s dl k (if is_same (upper p) then "same" else "valid") "channels_last" (ca_use_bias a) (ca_activation a) (ca_filters a) None None None).
  exists (_ <- before_padding T0 valued g ;;
          T <- gt_build_conv T1 w b ;;
          Ok (cl_set_channels (cl_set_weights (cl_set_gt L0' T) (Some w) b (ca_filters a)) (Some c))).
  clear L0. intros sp L r. unfold conv_build at 1. cbn [cl_gt].
  rewrite (gt_build_partly_known T0 d valued bs sp g c eq_refl eq_refl eq_refl eq_refl L). fold C. fold r.
  destruct (before_padding T0 valued g) as [u|e]; [|left; exists e; reflexivity]. cbn [bind gt_padding T0]. fold T0. rewrite PB. cbn [bind].
  change (gt_set_build T0 (if valued then gt_domain T0 else None) (set_needs P false (pl_pads P)) (Z.of_nat (if valued then d + 2 else d + 1)) valued r) with (with_reshaped T1 r).
  cbn [with_reshaped gt_reshaped cl_set_gt cl_format String.eqb Ascii.eqb Bool.eqb]. fold (with_reshaped T1 r).
  assert (CH : py_nth r (-1) = Ok (Some C)).
  { unfold py_nth, r. set (l := bs :: sp ++ [Some C]).
    assert (LL : List.length l = d + 2) by (unfold l; cbn [List.length]; rewrite app_length; cbn [List.length]; lia).
    replace (-1)%Z with (Z.of_nat (d + 1) - Z.of_nat (List.length l))%Z by lia. rewrite norm_axis_neg by lia. cbn [bind].
    rewrite (nth_error_nth' l None) by lia. unfold l. replace (d + 1) with (S d) by lia. cbn [nth].
    rewrite app_nth2 by lia. rewrite L, Nat.sub_diag. reflexivity. }
  rewrite CH. cbn [bind].
  change (gt_transpose (with_reshaped T1 r)) with tr.
  cbn [cl_kernel_size cl_filters cl_use_bias]. fold w. fold b.
  set (M := mkConv (with_reshaped T1 r) s dl k (if is_same (upper p) then "same" else "valid") "channels_last" (ca_use_bias a) (ca_activation a) (ca_filters a) None None None).
  assert (CO : conv_compute_output_shape M = (o <- keras_conv_output_shape tr "channels_last" (if is_same (upper p) then "same" else "valid") (ca_filters a) k s dl r ;;
                                               Ok (correct_output_shape (with_reshaped T1 r) o))) by reflexivity.
  assert (FIN : match (T' <- gt_build_conv (with_reshaped T1 r) w b ;;
                  ch <- (if gt_group_valued T' then o <- py_nth (partly_known_shape valued bs sp g c) (gt_channels_axis T') ;;
                           match o with Some c => Ok c | None => Err ValueError end else Ok C) ;;
                  Ok (cl_set_channels (cl_set_weights (cl_set_gt M T') (Some w) b (ca_filters a)) (Some ch))) with
    | Ok L => exists L1, (T <- gt_build_conv T1 w b ;; Ok (cl_set_channels (cl_set_weights (cl_set_gt L0' T) (Some w) b (ca_filters a)) (Some c))) = Ok L1 /\ L = cl_with_reshaped L1 r
    | Err _ => exists e, (T <- gt_build_conv T1 w b ;; Ok (cl_set_channels (cl_set_weights (cl_set_gt L0' T) (Some w) b (ca_filters a)) (Some c))) = Err e end).
  { rewrite indices_ignore_reshaped.
    assert (VC : forall T', gt_build_conv T1 w b = Ok T' -> gt_group_valued T' = valued /\ gt_channels_axis T' = Z.of_nat (if valued then d + 2 else d + 1)).
    { intros T' Q. unfold gt_build_conv in Q. match type of Q with (_ <- ?X ;; _) = _ => destruct X; [|discriminate Q] end. cbn [bind] in Q.
      match type of Q with (_ <- ?X ;; _) = _ => destruct X; [|discriminate Q] end. cbn [bind] in Q.
      assert (EQ : forall u v : gtransforms, Ok u = Ok v -> u = v) by congruence. apply EQ in Q. rewrite <- Q. split; reflexivity. }
    destruct (gt_build_conv T1 w b) as [T'|e]; [|exists e; reflexivity]. destruct (VC T' eq_refl) as [V1 V2]. cbn [bind].
    change (gt_group_valued (with_reshaped T' r)) with (gt_group_valued T'). change (gt_channels_axis (with_reshaped T' r)) with (gt_channels_axis T').
    rewrite V1, V2.
    match goal with |- match (_ <- ?X ;; _) with _ => _ end => assert (XE : X = Ok c) end.
    { destruct valued; [|reflexivity]. rewrite (py_nth_nat _ (d + 2) None).
      2:{ unfold partly_known_shape. cbn [List.length]. rewrite app_length. cbn [List.length]. lia. }
      cbn [bind]. replace (nth (d + 2) (partly_known_shape true bs sp g c) None) with (Some c); [reflexivity|].
      unfold partly_known_shape. replace (d + 2) with (S (d + 1)) by lia. cbn [nth]. rewrite app_nth2 by lia. replace (d + 1 - List.length sp) with 1 by lia. reflexivity. }
    rewrite XE. cbn [bind]. eexists. split; reflexivity. }
  destruct tr.
  - cbn [bind]. match goal with |- match ?Y with _ => _ end => match type of FIN with match ?X with _ => _ end => change Y with X; destruct X as [Lb|e] end end.
    + destruct FIN as [L1 [F1 F2]]. exists L1. split; [exact F1|]. split; [exact F2|discriminate].
    + left. exact FIN.
  - match goal with |- context[conv_compute_output_shape ?Y] => change Y with M end. rewrite CO. destruct (keras_conv_output_shape _ _ _ _ _ _ _ r) as [o|e] eqn:KO.
    + cbn [bind]. match goal with |- match ?Y with _ => _ end => match type of FIN with match ?X with _ => _ end => change Y with X; destruct X as [Lb|e] end end.
      * destruct FIN as [L1 [F1 F2]]. exists L1. split; [exact F1|]. split; [exact F2|]. intros _. exists o. reflexivity.
      * left. exact FIN.
    + right. split; [reflexivity|]. exists e. reflexivity.
Qed.

End Unknown.
