(** Model of the layers: /repo/groco/layers/conv2d.py, conv3d.py,
    conv2d_transpose.py, conv3d_transpose.py, pooling.py and
    /repo/groco/utils/misc.py.  The four convolution classes have the same text up
    to [dimensions], [transpose] and the Keras superclass; they are one record
    here. *)
From Verif Require Export GroupTransforms.
Local Open Scope string_scope.

(** Constructor arguments of a convolution layer.  [None] for an argument that
    was not given. *)
Record conv_args (A : Type) := mkConvArgs {
  ca_group : group_arg;
  ca_subgroup : option string;
  ca_kernel_size : size_arg;
  ca_filters : nat;
  ca_strides : option size_arg;
  ca_padding : option (option string);
  ca_dilation : option size_arg;
  ca_data_format : string;
  ca_allow : bool;
  ca_use_bias : bool;
  ca_activation : A -> A
}.
Arguments mkConvArgs {A} _ _ _ _ _ _ _ _ _ _ _.
Arguments ca_group {A} _.
Arguments ca_subgroup {A} _.
Arguments ca_kernel_size {A} _.
Arguments ca_filters {A} _.
Arguments ca_strides {A} _.
Arguments ca_padding {A} _.
Arguments ca_dilation {A} _.
Arguments ca_data_format {A} _.
Arguments ca_allow {A} _.
Arguments ca_use_bias {A} _.
Arguments ca_activation {A} _.

(** A convolution layer: [group_transforms] and the attributes of the Keras layer.
    [cl_channels] is the channel number in [input_spec] (axis -1 or 1), checked
    by Keras before [call]. *)
Record conv_layer (A : Type) := mkConv {
  cl_gt : gtransforms;
  cl_strides : list nat;
  cl_dilation : list nat;
  cl_kernel_size : list nat;
  cl_padding : string;
  cl_format : string;
  cl_use_bias : bool;
  cl_activation : A -> A;
  cl_filters : nat;
  cl_kernel : option (tensor A);
  cl_bias : option (tensor A);
  cl_channels : option nat
}.
Arguments mkConv {A} _ _ _ _ _ _ _ _ _ _ _ _.
Arguments cl_gt {A} _.
Arguments cl_strides {A} _.
Arguments cl_dilation {A} _.
Arguments cl_kernel_size {A} _.
Arguments cl_padding {A} _.
Arguments cl_format {A} _.
Arguments cl_use_bias {A} _.
Arguments cl_activation {A} _.
Arguments cl_filters {A} _.
Arguments cl_kernel {A} _.
Arguments cl_bias {A} _.
Arguments cl_channels {A} _.

Section Conv.
Context {A : Type} {RA : Arith A}.

(** conv2d.py:42-57, conv3d.py, conv2d_transpose.py:40-55, conv3d_transpose.py
    [__init__], followed by the Keras constructor (argument validation). *)
Definition conv_init (dims : nat) (transpose : bool) (a : conv_args A) : result (conv_layer A) :=
  T <- gt_init (ca_group a) (ca_kernel_size a) dims (ca_data_format a) (ca_allow a)
               (ca_subgroup a) transpose (ca_strides a) (ca_padding a) ;;
  k <- standardize_tuple dims (ca_kernel_size a) ;;
  s <- standardize_tuple dims (match ca_strides a with Some s => s | None => One 1 end) ;;
  dl <- standardize_tuple dims (match ca_dilation a with Some s => s | None => One 1 end) ;;
  p <- standardize_padding (pl_built_in (gt_padding T)) ;;
  f <- standardize_format (ca_data_format a) ;;
  guard (0 <? ca_filters a)%nat else ValueError ;;
  guard negb (existsb (fun n => 1 <? n)%nat s && existsb (fun n => 1 <? n)%nat dl) else ValueError ;;
  Ok (mkConv T s dl k p f (ca_use_bias a) (ca_activation a) (ca_filters a) None None None).

(** conv2d.py:83-86 [compute_output_shape] *)
Definition conv_compute_output_shape (L : conv_layer A) : result sshape :=
  match gt_reshaped (cl_gt L) with
  | None => Err AttributeError
  | Some r =>
      o <- keras_conv_output_shape (gt_transpose (cl_gt L)) (cl_format L) (cl_padding L) (cl_filters L)
             (cl_kernel_size L) (cl_strides L) (cl_dilation L) r ;;
      Ok (correct_output_shape (cl_gt L) o)
  end.

Definition cl_set_gt (L : conv_layer A) (T : gtransforms) : conv_layer A :=
  mkConv T (cl_strides L) (cl_dilation L) (cl_kernel_size L) (cl_padding L) (cl_format L)
         (cl_use_bias L) (cl_activation L) (cl_filters L) (cl_kernel L) (cl_bias L) (cl_channels L).

(** the attributes that [call] backs up and restores *)
Definition cl_set_weights (L : conv_layer A) (kernel : option (tensor A)) (bias : option (tensor A))
  (filters : nat) : conv_layer A :=
  mkConv (cl_gt L) (cl_strides L) (cl_dilation L) (cl_kernel_size L) (cl_padding L) (cl_format L)
         (cl_use_bias L) (cl_activation L) filters kernel bias (cl_channels L).

Definition cl_set_channels (L : conv_layer A) (c : option nat) : conv_layer A :=
  mkConv (cl_gt L) (cl_strides L) (cl_dilation L) (cl_kernel_size L) (cl_padding L) (cl_format L)
         (cl_use_bias L) (cl_activation L) (cl_filters L) (cl_kernel L) (cl_bias L) c.

(** conv2d.py:67-76, conv2d_transpose.py:65-74 [build], with BaseConv.build /
    BaseConvTranspose.build: the kernel gets shape (kernel_size..., in, filters)
    ((kernel_size..., filters, in) for the transposed layer); its initial entries
    [kinit] and those of the bias [binit] are arbitrary. BaseConv.build calls
    [self.compute_output_shape], which is the overridden one. *)
Definition conv_build (L : conv_layer A) (input_shape : sshape) (kinit binit : list nat -> A)
  : result (conv_layer A) :=
  T <- gt_build (cl_gt L) input_shape ;;
  let L := cl_set_gt L T in
  let reshaped := match gt_reshaped T with Some r => r | None => [] end in
  let axis := if String.eqb (cl_format L) "channels_last" then (-1)%Z else 1%Z in
  o <- py_nth reshaped axis ;;
  c <- match o with Some c => Ok c | None => Err ValueError end ;;
  _ <- (if gt_transpose T then Ok [] else conv_compute_output_shape L) ;;
  let kernel := tab (cl_kernel_size L ++ (if gt_transpose T then [cl_filters L; c] else [c; cl_filters L])) kinit in
  let bias := if cl_use_bias L then Some (tab [cl_filters L] binit) else None in
  T <- gt_build_conv T kernel bias ;;
  ch <- (if gt_group_valued T
         then o <- py_nth input_shape (gt_channels_axis T) ;;
              match o with Some c => Ok c | None => Err ValueError end
         else Ok c) ;;
  Ok (cl_set_channels (cl_set_weights (cl_set_gt L T) (Some kernel) bias (cl_filters L)) (Some ch)).

(** misc.py:1-16 [backup_and_restore] around conv2d.py:59-65 [call] (the same in
    the other classes).  Returns the new state and the outcome.  The attributes
    are replaced when [prepare_call] returns, and put back only if nothing raises
    afterwards. *)
Definition conv_call (L : conv_layer A) (inputs : tensor A) : conv_layer A * result (tensor A) :=
  match cl_kernel L with
  | None => (L, Err AttributeError)
  | Some kernel =>
      match prepare_call (cl_gt L) kernel (cl_bias L) (cl_filters L) inputs with
      | Err e => (L, Err e)
      | Ok (k, b, f, x) =>
          let L' := cl_set_weights L (Some k) b f in
          match (outputs <- base_conv_call (gt_transpose (cl_gt L)) (cl_format L) (cl_strides L)
                              (cl_dilation L) (cl_padding L) (cl_filters L') (cl_activation L) k
                              (cl_bias L') x ;;
                 restore_group_axis (cl_gt L) outputs) with
          | Err e => (L', Err e)
          | Ok y => (cl_set_weights L' (cl_kernel L) (cl_bias L) (cl_filters L), Ok y)
          end
      end
  end.

(** [Layer.__call__] of a built layer: check [input_spec] (minimal rank, channel
    number), then [call]. *)
Definition conv_apply (L : conv_layer A) (inputs : tensor A) : conv_layer A * result (tensor A) :=
  let r := rank inputs in
  if (r <? gt_dims (cl_gt L) + 2)%nat then (L, Err ValueError)
  else
    let axis := if String.eqb (cl_format L) "channels_last" then r - 1 else 1 in
    match cl_channels L with
    | Some c => if (nth axis (shape inputs) 0 =? c)%nat then conv_call L inputs else (L, Err ValueError)
    | None => conv_call L inputs
    end.

(** conv2d.py:78-81 [get_config]: the keys that [GroupTransforms] adds to those of the
    Keras layer, or the exception. *)
Definition conv_get_config (L : conv_layer A) : result (list string) := gt_get_config (cl_gt L).

End Conv.

(** pooling.py:22-74 [GroupPooling]; the pooling function is chosen by
    [pool_type]. *)
Class Pool (A : Type) := { pool_max : list A -> A; pool_mean : list A -> A }.

Record pool_args := mkPoolArgs {
  pa_group : group_arg;
  pa_subgroup : option string;
  pa_pool_size : size_arg;
  pa_strides : option size_arg;
  pa_padding : option (option string);
  pa_data_format : string;
  pa_allow : bool
}.

Record pool_layer := mkPool {
  po_gt : gtransforms;
  po_type : string;
  po_size : list nat;
  po_strides : list nat;
  po_padding : string;
  po_format : string
}.

Definition po_set_gt (L : pool_layer) (T : gtransforms) : pool_layer :=
  mkPool T (po_type L) (po_size L) (po_strides L) (po_padding L) (po_format L).

(** pooling.py:27-58 [__init__] and the Keras constructor: [strides] defaults to
    [pool_size] there, and the padding is passed on unchecked. *)
Definition pool_init (dims : nat) (pool_type : string) (a : pool_args) : result pool_layer :=
  T <- gt_init (pa_group a) (pa_pool_size a) dims (pa_data_format a) (pa_allow a)
               (pa_subgroup a) false (pa_strides a) (pa_padding a) ;;
  k <- standardize_tuple dims (pa_pool_size a) ;;
  s <- standardize_tuple dims (match pa_strides a with Some s => s | None => pa_pool_size a end) ;;
  f <- standardize_format (pa_data_format a) ;;
  Ok (mkPool T pool_type k s (pl_built_in (gt_padding T)) f).

(** pooling.py:66-69 [build] *)
Definition pool_build (L : pool_layer) (input_shape : sshape) : result pool_layer :=
  T <- gt_build (po_gt L) input_shape ;;
  T <- gt_build_pool T ;;
  Ok (po_set_gt L T).

Section Pool.
Context {A : Type} {RA : Arith A} {PA : Pool A}.

Definition pool_fun (pool_type : string) : list A -> A :=
  if String.eqb pool_type "max" then pool_max else pool_mean.

(** pooling.py:60-64 [call] *)
Definition pool_call (L : pool_layer) (inputs : tensor A) : result (tensor A) :=
  let f := pool_fun (po_type L) in
  x <- subgroup_pooling f (po_gt L) inputs ;;
  x <- merge_group_axis_and_pad (po_gt L) x ;;
  y <- pool_op f (po_format L) x (po_size L) (po_strides L) (po_padding L) ;;
  restore_group_axis (po_gt L) y.

(** pooling.py:71-74 [get_config]; the keys that the Keras layer contributes are left
    out, as for [conv_get_config]. *)
Definition pool_get_config (L : pool_layer) : result (list string) := gt_get_config (po_gt L).

(** pooling.py:77-129 [GlobalGroupPooling] *)
Record global_pool_layer := mkGlobal {
  gp_dims : nat;
  gp_type : string;
  gp_format : string;
  gp_keepdims : bool;
  gp_group_axis : Z;
  gp_channels_axis : Z
}.

(** pooling.py:82-99 [__init__]; [data_format] is [None] when not given. *)
Definition global_init (dims : nat) (pool_type : string) (data_format : option string) (keepdims : bool)
  : result global_pool_layer :=
  f <- match data_format with Some f => standardize_format f | None => Ok "channels_last" end ;;
  let first := match data_format with Some f => String.eqb f "channels_first" | None => false end in
  Ok (mkGlobal dims pool_type f keepdims
               (if first then (Z.of_nat dims + 2)%Z else (Z.of_nat dims + 1)%Z)
               (if first then 1%Z else (-1)%Z)).

(** pooling.py:118-125 [build]: [reshaped_input] is unbound for other ranks. *)
Definition global_build (L : global_pool_layer) (input_shape : sshape) : result global_pool_layer :=
  guard (List.length input_shape =? gp_dims L + 3)%nat else UnboundLocalError ;;
  _ <- merge_shapes input_shape (gp_group_axis L) (gp_channels_axis L) ;;
  Ok L.

(** pooling.py:101-116 [call], [pool_group], [restore_group_axis] *)
Definition global_call (L : global_pool_layer) (inputs : tensor A) : result (tensor A) :=
  let f := pool_fun (gp_type L) in
  x <- reduce f inputs (gp_group_axis L) ;;
  y <- global_pool f (gp_format L) (gp_keepdims L) (gp_dims L) x ;;
  if gp_keepdims L then expand_dims y (gp_group_axis L) else Ok y.

End Pool.
