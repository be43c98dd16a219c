(** Notions used to compare the two data formats. *)
From Verif Require Export EquivSpec PoolSpec.
Local Open Scope list_scope.

(** The same layer arguments in another data format. *)
Definition with_format {A} (a : conv_args A) (fmt : string) : conv_args A :=
  mkConvArgs (ca_group a) (ca_subgroup a) (ca_kernel_size a) (ca_filters a) (ca_strides a) (ca_padding a) (ca_dilation a) fmt
             (ca_allow a) (ca_use_bias a) (ca_activation a).

Definition pool_with_format (a : pool_args) (fmt : string) : pool_args :=
  mkPoolArgs (pa_group a) (pa_subgroup a) (pa_pool_size a) (pa_strides a) (pa_padding a) fmt (pa_allow a).

(** Signals in the format 'channels_first': (batch, channels, spatial axes..., group
    axis), compare [signal_shape]. *)
Definition channels_first_shape (valued : bool) (b : nat) (m : list nat) (g c : nat) : list nat :=
  b :: c :: m ++ (if valued then [g] else []).
Definition static_channels_first_shape (valued : bool) (bs : option nat) (m : list nat) (g c : nat) : sshape :=
  bs :: Some c :: map Some m ++ (if valued then [Some g] else []).

(** Rearranging a signal from 'channels_last' to 'channels_first'. *)
Definition channels_first {A} {ZA : Zero A} (x : tensor A) : result (tensor A) := moveaxis x (-1) 1.

(** The attribute [needs_padding] of a layer's padding layer. *)
Definition needs_padding (T : gtransforms) : option bool := pl_needs (gt_padding T).

(** The transformed signals in the format 'channels_first', compare
    [transforms_of_grid_signal] and [transforms_of_group_signal]. *)
Definition first_spatial_axes (d : nat) : list Z := map Z.of_nat (seq 2 d).
Definition transforms_of_first_grid_signal {A} {ZA : Zero A} (G : group) (d : nat) (H : string) (x : tensor A) : result (tensor A) :=
  action G x (first_spatial_axes d) 0 None (Some H) None.
Definition transforms_of_first_group_signal {A} {ZA : Zero A} (G : group) (d : nat) (H K : string) (x : tensor A) : result (tensor A) :=
  action G x (first_spatial_axes d) 0 (Some (Z.of_nat (d + 2))) (Some H) (Some K).
