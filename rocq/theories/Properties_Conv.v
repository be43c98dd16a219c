(** C21, C22, C26, C27, C43, C44, C45: group convolutions commute with the group
    action.  [k], [s], [dl] are kernel size, strides and dilation per axis. *)
From Verif Require Import ConvTheorems EquivSpec.
Local Open Scope string_scope.
Local Open Scope list_scope.

Section Equivariance.
Context {A : Type} {RA : Arith A}.

(** Everything about ordinary (not transposed) layers in one statement; [valued]
    tells grid signals from group signals. *)
Lemma layer_commutes name G (a : conv_args A) H opt valued bs m c g kinit binit L k s dl m' x b :
  add_commutes A ->
  layer_for name G a -> ca_subgroup a = Some H -> option_of a opt ->
  (ca_allow a = false \/ In opt ["SAME_EQUIV"; "VALID_EQUIV"]) ->
  let d := dimension_of name in
  built d false a (build_shape valued bs m g c) kinit binit L -> List.length m = d ->
  sizes d a k s dl -> respects name s -> respects name dl ->
  (In opt ["SAME"; "SAME_EQUIV"] -> forall ax, ax < d -> Nat.Odd (nth ax k 0) \/ Nat.Odd (nth ax dl 0)) ->
  List.length m' = d -> (forall ax, ax < d -> nth ax m 0 mod nth ax s 0 = nth ax m' 0 mod nth ax s 0) ->
  wf x -> shape x = input_shape valued b m' g c ->
  commutes_at (if valued then transforms_of_group_signal G d H "" else transforms_of_grid_signal G d H)
              (transforms_of_group_signal G d H H) (apply L) x.
Proof.
  intros ADD [DG [AG AF]] HS [p [PN UP]] AL d [L0 [I B]] Lm [SK [SS SD]] RS RD DF Lm' CO W SH gx y R CA.
  pose proof DG as DG'. apply lib_ok in DG' as [_ OK]. fold d in OK.
  destruct (conv_build_inv G d _ _ OK name false a L0 valued bs m g c kinit binit L DG AG AF I Lm B)
    as [p' [k' [s' [dl' [eb [ea [act [dom [_ [_ [_ [_ [_ [SA _]]]]]]]]]]]]]].
  rewrite HS in SA. unfold apply in *. destruct (conv_apply L x) as [L1 r] eqn:CA'. cbn [snd] in CA. subst r.
  assert (AL' : ca_allow a = false \/ is_plain (upper p) = false).
  { destruct AL as [AL|AL]; [left; exact AL|]. right. rewrite UP. cbn [In] in AL. destruct AL as [<-|[<-|[]]]; reflexivity. }
  assert (DF' : dilation_fine d (is_same (upper p)) k dl).
  { intros S ax Hax. apply DF; [|exact Hax]. rewrite UP in S. apply mem_str_In. exact S. }
  assert (R' : action G x (map Z.of_nat (seq 1 d)) 0 (if valued then Some (Z.of_nat (d + 1)) else None) (Some H) (if valued then Some "" else None) = Ok gx).
  { destruct valued; exact R. }
  destruct (conv_equivariance G d _ _ OK name a L0 valued bs m g c kinit binit L p k s dl H act m' x b gx L1 y
              ADD DG AG AF I Lm B AL' PN SK SS RS SD RD DF' HS SA Lm' CO W SH R' CA')
    as [-> [_ [_ [SG [gy [GY [SGY SL]]]]]]].
  exists gy. split; [exact GY|]. rewrite SG, SGY. cbn [nth]. split; [reflexivity|]. intros u U. rewrite (SL u U). reflexivity.
Qed.

Lemma ones_respect name d : respects name (repeat 1 d).
Proof. intros _ x y X Y. apply repeat_spec in X, Y. congruence. Qed.

Lemma nth_ones d ax : ax < d -> nth ax (repeat 1 d) 0 = 1.
Proof. intros Hax. rewrite (nth_indep _ 0 1) by (rewrite repeat_length; exact Hax). apply nth_repeat. Qed.

(** A group convolution on a grid signal (a "lifting" layer). *)
Theorem C21_lifting_convolution_is_equivariant name G (a : conv_args A) H bs m c kinit binit L k s x b :
  add_commutes A ->
  layer_for name G a -> ca_subgroup a = Some H -> ca_allow a = false ->
  let d := dimension_of name in
  built d false a (bs :: map Some m ++ [Some c]) kinit binit L -> List.length m = d ->
  sizes d a k s (repeat 1 d) -> respects name s ->
  wf x -> shape x = b :: m ++ [c] ->
  commutes_at (transforms_of_grid_signal G d H) (transforms_of_group_signal G d H H) (apply L) x.
Proof.
  intros ADD LF HS AL d B Lm SZ RS W SH.
  assert (P : exists opt, option_of a opt).
  { destruct B as [L0 [I B]]. pose proof LF as [DG [AG AF]].
    destruct (conv_init_inv G d name false a L0 DG AG AF I) as [p [_ [_ [_ [_ [PN _]]]]]]. exists (upper p), p. auto. }
  destruct P as [opt P].
  apply (layer_commutes name G a H opt false bs m c 0 kinit binit L k s (repeat 1 d) m x b); auto.
  - apply ones_respect.
  - intros _ ax Hax. right. rewrite nth_ones by exact Hax. exists 0. reflexivity.
Qed.

(** A group convolution on a group signal: the group axis has one entry per element
    of the whole group, the output one per element of the subgroup. *)
Theorem C22_group_convolution_is_equivariant name G (a : conv_args A) H bs m g c kinit binit L k s x b :
  add_commutes A ->
  layer_for name G a -> ca_subgroup a = Some H -> ca_allow a = false ->
  let d := dimension_of name in
  built d false a (bs :: map Some m ++ [Some g; Some c]) kinit binit L -> List.length m = d ->
  sizes d a k s (repeat 1 d) -> respects name s ->
  wf x -> shape x = b :: m ++ [g; c] ->
  commutes_at (transforms_of_group_signal G d H "") (transforms_of_group_signal G d H H) (apply L) x.
Proof.
  intros ADD LF HS AL d B Lm SZ RS W SH.
  assert (P : exists opt, option_of a opt).
  { destruct B as [L0 [I B]]. pose proof LF as [DG [AG AF]].
    destruct (conv_init_inv G d name false a L0 DG AG AF I) as [p [_ [_ [_ [_ [PN _]]]]]]. exists (upper p), p. auto. }
  destruct P as [opt P].
  apply (layer_commutes name G a H opt true bs m c g kinit binit L k s (repeat 1 d) m x b); auto.
  - apply ones_respect.
  - intros _ ax Hax. right. rewrite nth_ones by exact Hax. exists 0. reflexivity.
Qed.

(** Strides may differ per axis for the groups that do not exchange axes. *)
Theorem C43_any_strides_without_exchanged_axes name G (a : conv_args A) H bs m g c kinit binit L k s :
  add_commutes A ->
  layer_for name G a -> ca_subgroup a = Some H -> ca_allow a = false ->
  In name ["P1"; "P2"; "PMw"; "PMh"; "P2MM"] ->
  let d := dimension_of name in
  List.length m = d -> sizes d a k s (repeat 1 d) ->
  (built d false a (bs :: map Some m ++ [Some c]) kinit binit L ->
   forall b x, wf x -> shape x = b :: m ++ [c] ->
     commutes_at (transforms_of_grid_signal G d H) (transforms_of_group_signal G d H H) (apply L) x) /\
  (built d false a (bs :: map Some m ++ [Some g; Some c]) kinit binit L ->
   forall b x, wf x -> shape x = b :: m ++ [g; c] ->
     commutes_at (transforms_of_group_signal G d H "") (transforms_of_group_signal G d H H) (apply L) x).
Proof.
  intros ADD LF HS AL IN d Lm SZ.
  assert (RS : respects name s).
  { intros Q. exfalso. cbn [In] in IN. repeat (destruct IN as [<-|IN]; [discriminate Q|]). destruct IN. }
  split; intros B b x W SH.
  - apply (C21_lifting_convolution_is_equivariant name G a H bs m c kinit binit L k s x b); assumption.
  - apply (C22_group_convolution_is_equivariant name G a H bs m g c kinit binit L k s x b); assumption.
Qed.

(** Dilated kernels: with 'valid' padding always; with 'same' padding when along
    every axis the kernel size or the dilation rate is odd. *)
Theorem C44_dilated_kernels name G (a : conv_args A) H opt bs m g c kinit binit L k s dl :
  add_commutes A ->
  layer_for name G a -> ca_subgroup a = Some H -> ca_allow a = false -> option_of a opt ->
  let d := dimension_of name in
  List.length m = d -> sizes d a k s dl -> respects name s -> respects name dl ->
  (In opt ["VALID"; "VALID_EQUIV"] \/ forall ax, ax < d -> Nat.Odd (nth ax k 0) \/ Nat.Odd (nth ax dl 0)) ->
  (built d false a (bs :: map Some m ++ [Some c]) kinit binit L ->
   forall b x, wf x -> shape x = b :: m ++ [c] ->
     commutes_at (transforms_of_grid_signal G d H) (transforms_of_group_signal G d H H) (apply L) x) /\
  (built d false a (bs :: map Some m ++ [Some g; Some c]) kinit binit L ->
   forall b x, wf x -> shape x = b :: m ++ [g; c] ->
     commutes_at (transforms_of_group_signal G d H "") (transforms_of_group_signal G d H H) (apply L) x).
Proof.
  intros ADD LF HS AL OP d Lm SZ RS RD DF.
  assert (DF' : In opt ["SAME"; "SAME_EQUIV"] -> forall ax, ax < d -> Nat.Odd (nth ax k 0) \/ Nat.Odd (nth ax dl 0)).
  { destruct DF as [V|DF]; [|intros _; exact DF]. intros S. exfalso. cbn [In] in V, S.
    destruct V as [<-|[<-|[]]]; destruct S as [S|[S|[]]]; discriminate S. }
  split; intros B b x W SH.
  - apply (layer_commutes name G a H opt false bs m c 0 kinit binit L k s dl m x b); auto.
  - apply (layer_commutes name G a H opt true bs m c g kinit binit L k s dl m x b); auto.
Qed.

(** A layer built for size [m] is equivariant on inputs of every size [m'] that
    differs from [m] by a multiple of the stride along every axis. *)
Theorem C45_other_sizes name G (a : conv_args A) H bs m m' g c kinit binit L k s :
  add_commutes A ->
  layer_for name G a -> ca_subgroup a = Some H -> ca_allow a = false ->
  let d := dimension_of name in
  List.length m = d -> sizes d a k s (repeat 1 d) -> respects name s ->
  List.length m' = d -> (forall ax, ax < d -> nth ax m 0 mod nth ax s 0 = nth ax m' 0 mod nth ax s 0) ->
  (built d false a (bs :: map Some m ++ [Some c]) kinit binit L ->
   forall b x, wf x -> shape x = b :: m' ++ [c] ->
     commutes_at (transforms_of_grid_signal G d H) (transforms_of_group_signal G d H H) (apply L) x) /\
  (built d false a (bs :: map Some m ++ [Some g; Some c]) kinit binit L ->
   forall b x, wf x -> shape x = b :: m' ++ [g; c] ->
     commutes_at (transforms_of_group_signal G d H "") (transforms_of_group_signal G d H H) (apply L) x).
Proof.
  intros ADD LF HS AL d Lm SZ RS Lm' CO.
  split; intros B b x W SH.
  - assert (P : exists opt, option_of a opt).
    { destruct B as [L0 [I B]]. pose proof LF as [DG [AG AF]].
      destruct (conv_init_inv G d name false a L0 DG AG AF I) as [p [_ [_ [_ [_ [PN _]]]]]]. exists (upper p), p. auto. }
    destruct P as [opt P].
    apply (layer_commutes name G a H opt false bs m c 0 kinit binit L k s (repeat 1 d) m' x b); auto.
    + apply ones_respect.
    + intros _ ax Hax. right. rewrite nth_ones by exact Hax. exists 0. reflexivity.
  - assert (P : exists opt, option_of a opt).
    { destruct B as [L0 [I B]]. pose proof LF as [DG [AG AF]].
      destruct (conv_init_inv G d name false a L0 DG AG AF I) as [p [_ [_ [_ [_ [PN _]]]]]]. exists (upper p), p. auto. }
    destruct P as [opt P].
    apply (layer_commutes name G a H opt true bs m c g kinit binit L k s (repeat 1 d) m' x b); auto.
    + apply ones_respect.
    + intros _ ax Hax. right. rewrite nth_ones by exact Hax. exists 0. reflexivity.
Qed.

(** ** Transposed layers *)

Lemma action_names_subgroup G (x gx : tensor A) sp k ga H K :
  action G x sp k ga H K = Ok gx -> exists idx, sub_idx G H idx.
Proof.
  intros R. unfold sub_idx. destruct (subgroup_get G (parse_subgroup G H)) as [idx|e] eqn:S; [exists idx; reflexivity|].
  exfalso. unfold action, action_on_grid, action_on_group in R. destruct (parse_subgroup G K).
  - destruct ga; rewrite S in R; discriminate R.
  - destruct (g__action G A _ x sp k); [|discriminate R]. cbn [bind] in R. rewrite S in R. discriminate R.
Qed.

Lemma transpose_commutes name G (a : conv_args A) H U opt valued bs m g c kinit binit L k s x b :
  add_commutes A ->
  layer_for name G a -> ca_subgroup a = Some H -> option_of a opt ->
  let d := dimension_of name in
  built d true a (build_shape valued bs m g c) kinit binit L -> List.length m = d ->
  sizes d a k s (repeat 1 d) -> respects name s ->
  transpose_ok d (is_plain opt) (is_same opt) m k s ->
  (valued = true -> U = H) ->
  wf x -> shape x = input_shape valued b m g c ->
  forall gx, (if valued then transforms_of_group_signal G d U H x else transforms_of_grid_signal G d U x) = Ok gx ->
  exists y gy, apply L x = Ok y /\ transforms_of_group_signal G d U "" y = Ok gy /\
    nth 0 (shape gy) 0 = nth 0 (shape gx) 0 /\
    forall u, u < nth 0 (shape gx) 0 -> apply L (slice 0 u gx) = Ok (slice 0 u gy).
Proof.
  intros ADD [DG [AG AF]] HS [p [PN UP]] d [L0 [I B]] Lm [SK [SS SD]] RS TO HU W SH gx R.
  pose proof DG as DG'. apply lib_ok in DG' as [_ OK]. fold d in OK. subst opt.
  assert (HI : exists idx, sub_idx G (Some U) idx).
  { destruct valued; [exact (action_names_subgroup _ _ _ _ _ _ _ _ R)|exact (action_names_subgroup _ _ _ _ _ _ _ _ R)]. }
  destruct HI as [idx HI].
  assert (R' : action G x (map Z.of_nat (seq 1 d)) 0 (if valued then Some (Z.of_nat (d + 1)) else None) (Some U) (if valued then Some H else None) = Ok gx).
  { destruct valued; exact R. }
  destruct (transpose_equivariance G d _ _ OK name a L0 valued bs m g c kinit binit L p k s (repeat 1 d) H U idx x b gx
              ADD DG AG AF I Lm B PN SK SS RS SD eq_refl TO HS HU HI W SH R')
    as [y [CA [_ [_ [SG [gy [GY [SGY SL]]]]]]]].
  exists y, gy. unfold apply. rewrite CA. split; [reflexivity|]. split; [exact GY|].
  rewrite SG, SGY. cbn [nth]. split; [reflexivity|]. intros u Uu. rewrite (SL u Uu). reflexivity.
Qed.

(** A transposed layer with options as in the README: stride 1 (with 'valid'
    padding, or 'same' padding and an odd kernel size), or stride equal to the
    kernel size and 'valid' padding.  A grid signal may be transformed by any
    subgroup [U] of the group; a signal on the subgroup [H] by [H]. *)
Definition readme_case (d : nat) (opt : string) (k s : list nat) : Prop :=
  (s = repeat 1 d /\ (In opt ["VALID"; "VALID_EQUIV"] \/ forall ax, ax < d -> Nat.Odd (nth ax k 0)))
  \/ (s = k /\ In opt ["VALID"; "VALID_EQUIV"]).

Lemma readme_case_ok name (a : conv_args A) opt d m k s :
  d = dimension_of name -> option_of a opt -> sizes d a k s (repeat 1 d) ->
  (forall ax, ax < d -> 0 < nth ax m 0) -> readme_case d opt k s -> transpose_ok d (is_plain opt) (is_same opt) m k s.
Proof.
  intros D _ [SK [SS _]] PM RC ax Hax. split; [apply PM; exact Hax|].
  destruct (std_pos d _ _ SK) as [_ Pk]. specialize (Pk ax Hax).
  assert (NS : In opt ["VALID"; "VALID_EQUIV"] -> is_same opt = false).
  { intros V. cbn [In] in V. destruct V as [<-|[<-|[]]]; reflexivity. }
  destruct RC as [[-> RC]|[-> RC]].
  - rewrite nth_ones by exact Hax. split; [lia|]. intros S.
    destruct RC as [V|OD]; [rewrite (NS V) in S; discriminate S|]. destruct (OD ax Hax) as [z Z].
    assert (ST : same_total (nth ax m 0) (nth ax k 0) 1 = nth ax k 0 - 1).
    { unfold same_total. replace (nth ax m 0 + 1 - 1) with (nth ax m 0) by lia. rewrite Nat.div_1_r. lia. }
    rewrite ST. split; [|right]; exists z; lia.
  - split; [lia|]. intros S. rewrite (NS RC) in S. discriminate S.
Qed.

Theorem C26_transposed_lifting_convolution name G (a : conv_args A) H U opt bs m c kinit binit L k s x b gx :
  add_commutes A ->
  layer_for name G a -> ca_subgroup a = Some H -> option_of a opt ->
  let d := dimension_of name in
  built d true a (bs :: map Some m ++ [Some c]) kinit binit L -> List.length m = d ->
  (forall ax, ax < d -> 0 < nth ax m 0) ->
  sizes d a k s (repeat 1 d) -> respects name s -> readme_case d opt k s ->
  wf x -> shape x = b :: m ++ [c] -> transforms_of_grid_signal G d U x = Ok gx ->
  exists y gy, apply L x = Ok y /\ transforms_of_group_signal G d U "" y = Ok gy /\
    nth 0 (shape gy) 0 = nth 0 (shape gx) 0 /\
    forall u, u < nth 0 (shape gx) 0 -> apply L (slice 0 u gx) = Ok (slice 0 u gy).
Proof.
  intros ADD LF HS OP d B Lm PM SZ RS RC W SH R.
  apply (transpose_commutes name G a H U opt false bs m 0 c kinit binit L k s x b); auto; [|discriminate].
  apply (readme_case_ok name a); auto.
Qed.

Theorem C26_transposed_group_convolution name G (a : conv_args A) H opt bs m g c kinit binit L k s x b gx :
  add_commutes A ->
  layer_for name G a -> ca_subgroup a = Some H -> option_of a opt ->
  let d := dimension_of name in
  built d true a (bs :: map Some m ++ [Some g; Some c]) kinit binit L -> List.length m = d ->
  (forall ax, ax < d -> 0 < nth ax m 0) ->
  sizes d a k s (repeat 1 d) -> respects name s -> readme_case d opt k s ->
  wf x -> shape x = b :: m ++ [g; c] -> transforms_of_group_signal G d H H x = Ok gx ->
  exists y gy, apply L x = Ok y /\ transforms_of_group_signal G d H "" y = Ok gy /\
    nth 0 (shape gy) 0 = nth 0 (shape gx) 0 /\
    forall u, u < nth 0 (shape gx) 0 -> apply L (slice 0 u gx) = Ok (slice 0 u gy).
Proof.
  intros ADD LF HS OP d B Lm PM SZ RS RC W SH R.
  apply (transpose_commutes name G a H H opt true bs m g c kinit binit L k s x b); auto.
  apply (readme_case_ok name a); auto.
Qed.

(** In general: along every axis the stride is at most the kernel size, and with
    'same' padding kernel size minus stride is even, as is the padding that the
    layer takes into account (for the option 'same' itself it always is, or the
    layer does not build). *)
Definition regular_transposed (d : nat) (opt : string) (m k s : list nat) : Prop :=
  forall ax, ax < d ->
    0 < nth ax m 0 /\ nth ax s 0 <= nth ax k 0 /\
    (In opt ["SAME"; "SAME_EQUIV"] -> Nat.Even (nth ax k 0 - nth ax s 0)) /\
    (opt = "SAME_EQUIV" -> Nat.Even (same_total (nth ax m 0) (nth ax k 0) (nth ax s 0))).

Theorem C27_transposed_convolution_any_stride name G (a : conv_args A) H U opt bs m g c kinit binit L k s :
  add_commutes A ->
  layer_for name G a -> ca_subgroup a = Some H -> option_of a opt ->
  let d := dimension_of name in
  List.length m = d -> sizes d a k s (repeat 1 d) -> respects name s -> regular_transposed d opt m k s ->
  (built d true a (bs :: map Some m ++ [Some c]) kinit binit L ->
   forall b x, wf x -> shape x = b :: m ++ [c] ->
     commutes_at (transforms_of_grid_signal G d U) (transforms_of_group_signal G d U "") (apply L) x) /\
  (built d true a (bs :: map Some m ++ [Some g; Some c]) kinit binit L ->
   forall b x, wf x -> shape x = b :: m ++ [g; c] ->
     commutes_at (transforms_of_group_signal G d H H) (transforms_of_group_signal G d H "") (apply L) x).
Proof.
  intros ADD LF HS OP d Lm SZ RS RT.
  assert (TO : transpose_ok d (is_plain opt) (is_same opt) m k s).
  { intros ax Hax. destruct (RT ax Hax) as [R1 [R2 [R3 R4]]]. split; [exact R1|]. split; [exact R2|]. intros S.
    unfold is_same in S. apply mem_str_In in S. split; [apply R3; exact S|].
    cbn [In] in S. destruct S as [<-|[<-|[]]]; [left; reflexivity|right; apply R4; reflexivity]. }
  split; intros B b x W SH gx y R CA.
  - destruct (transpose_commutes name G a H U opt false bs m 0 c kinit binit L k s x b ADD LF HS OP B Lm SZ RS TO ltac:(discriminate) W SH gx R)
      as [y' [gy [CA' Q]]]. assert (y' = y) as -> by congruence. exists gy. exact Q.
  - destruct (transpose_commutes name G a H H opt true bs m g c kinit binit L k s x b ADD LF HS OP B Lm SZ RS TO ltac:(reflexivity) W SH gx R)
      as [y' [gy [CA' Q]]]. assert (y' = y) as -> by congruence. exists gy. exact Q.
Qed.
End Equivariance.

Print Assumptions C21_lifting_convolution_is_equivariant.
Print Assumptions C22_group_convolution_is_equivariant.
Print Assumptions C43_any_strides_without_exchanged_axes.
Print Assumptions C44_dilated_kernels.
Print Assumptions C45_other_sizes.
Print Assumptions C26_transposed_lifting_convolution.
Print Assumptions C26_transposed_group_convolution.
Print Assumptions C27_transposed_convolution_any_stride.

(** ** Examples and counterexamples over the integers *)

Example integers_add_commutes : add_commutes Z.
Proof. intros x y z. cbn [add Arith_Z]. lia. Qed.

(** Extra padding (1 before, 1 after) is needed and found. *)
Example C21_example :
  does_commute (transforms_of_grid_signal P4 2 "") (transforms_of_group_signal P4 2 "" "")
    (test_layer 2 false (with_group "P4" "" (One 2) 2 (Some (One 3)) (Some (Some "valid_equiv")) None true)
       [None; Some 3; Some 3; Some 2] some_weights some_weights) (some_signal [1; 3; 3; 2]) = true.
Proof. vm_compute. reflexivity. Qed.

Example C22_example :
  does_commute (transforms_of_group_signal P4M 2 "P4" "") (transforms_of_group_signal P4M 2 "P4" "P4")
    (test_layer 2 false (with_group "P4M" "P4" (One 3) 1 (Some (One 2)) (Some (Some "same_equiv")) None true)
       [None; Some 5; Some 5; Some 8; Some 1] some_weights some_weights) (some_signal [1; 5; 5; 8; 1]) = true.
Proof. vm_compute. reflexivity. Qed.

(** A group that exchanges the axes and different strides: the layer builds and does
    not commute with the rotations. *)
Theorem C43_different_strides_refuted :
  let a := with_group "P4" "" (One 2) 1 (Some (Tuple [1; 3]%Z)) (Some (Some "valid_equiv")) None true in
  exists L, built 2 false a [None; Some 3; Some 3; Some 1] some_weights some_weights L /\
    ~ commutes_at (transforms_of_grid_signal P4 2 "") (transforms_of_group_signal P4 2 "" "") (apply L) (some_signal [1; 3; 3; 1]).
Proof. intros a. apply fails_to_commute_ok. vm_compute. reflexivity. Qed.
Print Assumptions C43_different_strides_refuted.

Example C43_example :
  does_commute (transforms_of_grid_signal P2MM 2 "") (transforms_of_group_signal P2MM 2 "" "")
    (test_layer 2 false (with_group "P2MM" "" (One 2) 1 (Some (Tuple [1; 3]%Z)) (Some (Some "valid_equiv")) None true)
       [None; Some 3; Some 3; Some 2] some_weights some_weights) (some_signal [1; 3; 3; 2]) = true.
Proof. vm_compute. reflexivity. Qed.

(** Even kernel size, even dilation rate, 'same' padding. *)
Theorem C44_even_kernel_even_dilation_refuted :
  let a := with_group "P2" "" (One 2) 1 None (Some (Some "same_equiv")) (Some (One 2)) true in
  exists L, built 2 false a [None; Some 3; Some 3; Some 1] some_weights some_weights L /\
    ~ commutes_at (transforms_of_grid_signal P2 2 "") (transforms_of_group_signal P2 2 "" "") (apply L) (some_signal [1; 3; 3; 1]).
Proof. intros a. apply fails_to_commute_ok. vm_compute. reflexivity. Qed.
Print Assumptions C44_even_kernel_even_dilation_refuted.

Example C44_example :
  does_commute (transforms_of_grid_signal P4 2 "") (transforms_of_group_signal P4 2 "" "")
    (test_layer 2 false (with_group "P4" "" (One 2) 1 None (Some (Some "same_equiv")) (Some (One 3)) true)
       [None; Some 4; Some 4; Some 1] some_weights some_weights) (some_signal [1; 4; 4; 1]) = true.
Proof. vm_compute. reflexivity. Qed.

(** Built for size 3, called on size 4, stride 2. *)
Theorem C45_arbitrary_other_size_refuted :
  let a := with_group "P2" "" (One 1) 1 (Some (One 2)) (Some (Some "valid_equiv")) None true in
  exists L, built 2 false a [None; Some 3; Some 3; Some 1] some_weights some_weights L /\
    ~ commutes_at (transforms_of_grid_signal P2 2 "") (transforms_of_group_signal P2 2 "" "") (apply L) (some_signal [1; 4; 4; 1]).
Proof. intros a. apply fails_to_commute_ok. vm_compute. reflexivity. Qed.
Print Assumptions C45_arbitrary_other_size_refuted.

Example C45_example :
  does_commute (transforms_of_grid_signal P4 2 "") (transforms_of_group_signal P4 2 "" "")
    (test_layer 2 false (with_group "P4" "" (One 2) 1 (Some (One 3)) (Some (Some "valid_equiv")) None true)
       [None; Some 3; Some 3; Some 1] some_weights some_weights) (some_signal [1; 6; 6; 1]) = true.
Proof. vm_compute. reflexivity. Qed.

Example C26_example :
  does_commute (transforms_of_group_signal P4 2 "P2" "P2") (transforms_of_group_signal P4 2 "P2" "")
    (test_layer 2 true (with_group "P4" "P2" (One 3) 1 None (Some (Some "same_equiv")) None true)
       [None; Some 2; Some 2; Some 2; Some 1] some_weights some_weights) (some_signal [1; 2; 2; 2; 1]) = true.
Proof. vm_compute. reflexivity. Qed.

(** Stride 1 alone is not enough: even kernel size with 'same_equiv' padding. *)
Theorem C26_even_kernel_same_refuted :
  let a := with_group "P2" "" (One 2) 1 None (Some (Some "same_equiv")) None true in
  exists L, built 2 true a [None; Some 3; Some 3; Some 1] some_weights some_weights L /\
    ~ commutes_at (transforms_of_grid_signal P2 2 "") (transforms_of_group_signal P2 2 "" "") (apply L) (some_signal [1; 3; 3; 1]).
Proof. intros a. apply fails_to_commute_ok. vm_compute. reflexivity. Qed.
Print Assumptions C26_even_kernel_same_refuted.

(** Stride 2 with kernel size 3 and 'same_equiv' padding, and with kernel size 1 and
    'valid_equiv' padding. *)
Theorem C27_every_transposed_layer_that_builds_refuted :
  let a := with_group "P2" "" (One 3) 1 (Some (One 2)) (Some (Some "same_equiv")) None true in
  let a' := with_group "P2" "" (One 1) 1 (Some (One 2)) (Some (Some "valid_equiv")) None true in
  (exists L, built 2 true a [None; Some 3; Some 3; Some 1] some_weights some_weights L /\
    ~ commutes_at (transforms_of_grid_signal P2 2 "") (transforms_of_group_signal P2 2 "" "") (apply L) (some_signal [1; 3; 3; 1])) /\
  (exists L, built 2 true a' [None; Some 3; Some 3; Some 1] some_weights some_weights L /\
    ~ commutes_at (transforms_of_grid_signal P2 2 "") (transforms_of_group_signal P2 2 "" "") (apply L) (some_signal [1; 3; 3; 1])).
Proof. intros a a'. split; apply fails_to_commute_ok; vm_compute; reflexivity. Qed.
Print Assumptions C27_every_transposed_layer_that_builds_refuted.

Example C27_example :
  does_commute (transforms_of_grid_signal P4 2 "") (transforms_of_group_signal P4 2 "" "")
    (test_layer 2 true (with_group "P4" "" (One 3) 1 (Some (One 2)) (Some (Some "valid")) None true)
       [None; Some 3; Some 3; Some 1] some_weights some_weights) (some_signal [1; 3; 3; 1]) = true.
Proof. vm_compute. reflexivity. Qed.
