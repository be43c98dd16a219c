(** What "equivariant" means for a layer, in terms of [Group.action] (the
    theorems about Properties_Groups say what that action is), and the integers as
    an example of exact arithmetic. *)
From Verif Require Export Spec Keras Layers LibraryFacts.
Local Open Scope list_scope.

(** Layers act on signals of shape (batch, spatial axes..., group axis, channels),
    or (batch, spatial axes..., channels) for a signal on the grid. *)
Definition spatial_axes (d : nat) : list Z := map Z.of_nat (seq 1 d).
Definition group_axis (d : nat) : option Z := Some (Z.of_nat (d + 1)).

(** The transformed signals, for all elements of the subgroup called [H] ("" for
    the whole group), stacked along a new axis 0. *)
Definition transforms_of_grid_signal {A} {ZA : Zero A} (G : group) (d : nat) (H : string) (x : tensor A) : result (tensor A) :=
  action G x (spatial_axes d) 0 None (Some H) None.
(** The same for a signal on the subgroup called [K]. *)
Definition transforms_of_group_signal {A} {ZA : Zero A} (G : group) (d : nat) (H K : string) (x : tensor A) : result (tensor A) :=
  action G x (spatial_axes d) 0 (group_axis d) (Some H) (Some K).

(** [call] commutes with all elements of a subgroup at the signal [x]: [tin] and
    [tout] give the transformed input and output signals. *)
Definition commutes_at {A} {ZA : Zero A} (tin tout : tensor A -> result (tensor A))
  (call : tensor A -> result (tensor A)) (x : tensor A) : Prop :=
  forall gx y, tin x = Ok gx -> call x = Ok y ->
  exists gy, tout y = Ok gy /\ nth 0 (shape gy) 0 = nth 0 (shape gx) 0 /\
    forall u, u < nth 0 (shape gx) 0 -> call (slice 0 u gx) = Ok (slice 0 u gy).

(** What [layer(x)] returns. *)
Definition apply {A} {RA : Arith A} (L : conv_layer A) (x : tensor A) : result (tensor A) := snd (conv_apply L x).

(** A layer for a group of the library, in the channels_last format. *)
Definition layer_for {A} (name : string) (G : group) (a : conv_args A) : Prop :=
  dict_get group_dict name = Ok G /\ (ca_group a = ByName name \/ ca_group a = Object G) /\
  ca_data_format a = "channels_last"%string.

(** The layer constructed from the arguments [a] and built for an input shape; the
    initial weights are arbitrary. *)
Definition built {A} {RA : Arith A} (d : nat) (transpose : bool) (a : conv_args A) (input : sshape)
  (kinit binit : list nat -> A) (L : conv_layer A) : Prop :=
  exists L0, conv_init d transpose a = Ok L0 /\ conv_build L0 input kinit binit = Ok L.

(** Its kernel size, strides and dilation rate per axis. *)
Definition sizes {A} (d : nat) (a : conv_args A) (k s dl : list nat) : Prop :=
  standardize_tuple d (ca_kernel_size a) = Ok k /\
  standardize_tuple d (match ca_strides a with Some v => v | None => One 1 end) = Ok s /\
  standardize_tuple d (match ca_dilation a with Some v => v | None => One 1 end) = Ok dl.

(** Its padding option, in upper case. *)
Definition option_of {A} (a : conv_args A) (o : string) : Prop :=
  exists p, (match ca_padding a with Some q => q | None => Some "valid_equiv"%string end) = Some p /\ upper p = o.

(** Sizes that are the same along axes that the group exchanges. *)
Definition respects (name : string) (l : list nat) : Prop := needs_equal_sizes name = true -> all_equal l.

(** The padding layer constructed from the arguments [a] and built for the (merged)
    input shape (bs, m, C). *)
Definition padding_of {A} (a : conv_args A) (transpose : bool) (d : nat) (bs : option nat) (m : list nat) (C : nat) (P : padding_layer) : Prop :=
  exists P0,
    padding_init (ca_kernel_size a) d (match ca_strides a with Some v => v | None => One 1 end)
      (match ca_padding a with Some q => q | None => Some "valid_equiv"%string end) (ca_allow a) "channels_last"%string transpose = Ok P0 /\
    padding_build P0 (bs :: map Some m ++ [Some C]) = Ok P.

(** The backend's padding option for the option [o]. *)
Definition backend_padding (o : string) : string :=
  if mem_str o ["SAME"%string; "SAME_EQUIV"%string] then "same"%string else "valid"%string.

(** The initial weights of a layer. *)
Definition initial_kernel {A} {ZA : Zero A} (transpose : bool) (k : list nat) (C o : nat) (kinit : list nat -> A) : tensor A :=
  tab (k ++ (if transpose then [o; C] else [C; o])) kinit.
Definition initial_bias {A} {ZA : Zero A} (a : conv_args A) (binit : list nat -> A) : option (tensor A) :=
  if ca_use_bias a then Some (tab [ca_filters a] binit) else None.

(** Shapes of grid signals and group signals ([valued]: with a group axis). *)
Definition signal_shape (valued : bool) (b : nat) (m : list nat) (g c : nat) : list nat :=
  b :: m ++ (if valued then [g; c] else [c]).
Definition static_signal_shape (valued : bool) (bs : option nat) (m : list nat) (g c : nat) : sshape :=
  bs :: map Some m ++ (if valued then [Some g; Some c] else [Some c]).

(** A tensor read with another shape. *)
Definition read_as {A} (s : list nat) (x : tensor A) : tensor A := mkTensor s (data x).

(** A signal with its group axis merged into the channels. *)
Definition merged_signal {A} (valued : bool) (c g : nat) (x : tensor A) (b : nat) (m : list nat) : tensor A :=
  read_as (b :: m ++ [if valued then g * c else c]) x.

(** A kernel with the group axis split off from the channels: kernel pixels, group
    axis, channels, filters. *)
Definition kernel_signal {A} (valued : bool) (k : list nat) (g c o : nat) (K : tensor A) : tensor A :=
  read_as (k ++ (if valued then [g; c; o] else [c; o])) K.

(** The kernels transformed by the elements of [Ha], stacked along axis [d]; the
    kernel is a signal on [Hd] or on the grid. *)
Definition kernel_transforms {A} {ZA : Zero A} (G : group) (d : nat) (valued : bool) (Ha Hd : option string) (Ks : tensor A)
  : result (tensor A) :=
  action G Ks (map Z.of_nat (seq 0 d)) (Z.of_nat d) (if valued then Some (Z.of_nat d) else None) Ha (if valued then Hd else None).

(** Number [h] of them, with the group axis merged back into the channels. *)
Definition kernel_slice {A} {ZA : Zero A} (d : nat) (k : list nat) (C o : nat) (KT : tensor A) (h : nat) : tensor A :=
  read_as (k ++ [C; o]) (slice d h KT).

(** The positions of the elements of the subgroup [H] ("" for the whole group) in the group. *)
Definition subgroup_indices (G : group) (H : string) (idx : list nat) : Prop :=
  subgroup_get G (parse_subgroup G (Some H)) = Ok idx.

(** Whether a kernel on the subgroup [dom] has a value for channel [q] (of [c] per
    element), seen from element [a]. *)
Definition visible (G : group) (valued : bool) (dom : list nat) (c a q : nat) : bool :=
  negb valued || mem (comp G (inv G a) (nth (q / c) dom 0)) dom.

(** The integers. *)
#[global] Instance Zero_Z : Zero Z := 0%Z.
#[global] Instance Arith_Z : Arith Z := {| arith_zero := Zero_Z; add := Z.add; mul := Z.mul |}.

(** Deciding [commutes_at] on integer signals. *)
Definition same_tensor (a b : tensor Z) : bool :=
  list_eqb Nat.eqb (shape a) (shape b) && list_eqb Z.eqb (data a) (data b).
Definition same_result (a b : result (tensor Z)) : bool :=
  match a, b with Ok x, Ok y => same_tensor x y | _, _ => false end.
Definition commutes_b (tin tout : tensor Z -> result (tensor Z)) (call : tensor Z -> result (tensor Z)) (x : tensor Z) : bool :=
  match tin x, call x with
  | Ok gx, Ok y =>
      match tout y with
      | Ok gy => (nth 0 (shape gy) 0 =? nth 0 (shape gx) 0) &&
                 forallb (fun u => same_result (call (slice 0 u gx)) (Ok (slice 0 u gy))) (seq 0 (nth 0 (shape gx) 0))
      | Err _ => false
      end
  | _, _ => true
  end.

Lemma same_tensor_ok a b : same_tensor a b = true <-> a = b.
Proof.
  unfold same_tensor. rewrite andb_true_iff, (list_eqb_eq _ Nat.eqb_eq), (list_eqb_eq _ Z.eqb_eq).
  destruct a as [sa da], b as [sb db]. cbn [shape data]. split; [intros [-> ->]; reflexivity|]. intros Q. injection Q as -> ->. split; reflexivity.
Qed.

Lemma commutes_b_ok tin tout call x : commutes_at tin tout call x -> commutes_b tin tout call x = true.
Proof.
  intros H. unfold commutes_b. destruct (tin x) as [gx|] eqn:R; [|reflexivity]. destruct (call x) as [y|] eqn:C; [|reflexivity].
  destruct (H gx y R C) as [gy [GY [S U]]]. rewrite GY. rewrite S, Nat.eqb_refl. cbn [andb].
  apply forallb_forall. intros u I. apply in_seq in I. rewrite U by lia. cbn [same_result]. apply same_tensor_ok. reflexivity.
Qed.

(** A layer built for a test, and whether it commutes on a given signal. *)
Definition test_layer (d : nat) (transpose : bool) (a : conv_args Z) (input : sshape) (kinit binit : list nat -> Z) : result (conv_layer Z) :=
  L0 <- conv_init d transpose a ;; conv_build L0 input kinit binit.

Lemma test_layer_built d transpose a input kinit binit L :
  test_layer d transpose a input kinit binit = Ok L -> built d transpose a input kinit binit L.
Proof.
  unfold test_layer, built. destruct (conv_init d transpose a) as [L0|]; [|discriminate]. cbn [bind]. intros B. exists L0. split; [reflexivity|exact B].
Qed.

Definition fails_to_commute (tin tout : tensor Z -> result (tensor Z)) (R : result (conv_layer Z)) (x : tensor Z) : bool :=
  match R with Ok L => negb (commutes_b tin tout (apply L) x) | Err _ => false end.

Lemma fails_to_commute_ok tin tout d transpose a input kinit binit x :
  fails_to_commute tin tout (test_layer d transpose a input kinit binit) x = true ->
  exists L, built d transpose a input kinit binit L /\ ~ commutes_at tin tout (apply L) x.
Proof.
  unfold fails_to_commute. destruct (test_layer d transpose a input kinit binit) as [L|] eqn:T; [|discriminate]. intros N.
  exists L. split; [apply test_layer_built; exact T|]. intros C. apply commutes_b_ok in C. rewrite C in N. discriminate N.
Qed.

(** A layer that computes and commutes on a given signal. *)
Definition does_commute (tin tout : tensor Z -> result (tensor Z)) (R : result (conv_layer Z)) (x : tensor Z) : bool :=
  match R with
  | Ok L => match tin x, apply L x with Ok _, Ok _ => commutes_b tin tout (apply L) x | _, _ => false end
  | Err _ => false
  end.

(** Some weights and a signal without symmetry. *)
Definition some_weights (j : list nat) : Z := Z.of_nat (fold_left (fun acc v => (5 * acc + 3 * v + 1) mod 23) j 2).
Definition some_signal (s : list nat) : tensor Z := tab s (fun j => Z.of_nat (fold_left (fun acc v => (7 * acc + 4 * v + v * v + 2) mod 31) j 3)).

Definition with_group (name : string) (H : string) (k : size_arg) (filters : nat) (s : option size_arg) (p : option (option string))
  (dl : option size_arg) (use_bias : bool) : conv_args Z :=
  mkConvArgs (ByName name) (Some H) k filters s p dl "channels_last" false use_bias (fun z => if (z <? 5)%Z then 0%Z else z).
