(** Model of /repo/groco/layers/group_transforms.py (class [GroupTransforms]). *)
From Verif Require Export Space Keras.
Local Open Scope string_scope.

(** The [group] argument: a name or a [Group] object. *)
Inductive group_arg := ByName (name : string) | Object (G : group).

(** The attributes (group_transforms.py:42-73; [reshaped_input] is set at 154).
    [conv_input_shape], [_input_indices], [_output_indices] and [separable] are
    never read and left out. *)
Record gtransforms := mkGT {
  gt_dims : nat;
  gt_transpose : bool;
  gt_group : group;
  gt_subgroup : group;
  gt_domain : option string;
  gt_acting : option string;
  gt_padding : padding_layer;
  gt_format : string;
  gt_channels_axis : Z;
  gt_group_axis : Z;
  gt_group_valued : bool;
  gt_reshaped : option sshape;
  gt_bias_indices : option (tensor nat);
  gt_kernel_indices : option (tensor nat);
  gt_pooling_indices : option (tensor nat)
}.

(** group_transforms.py:28-73 [__init__].  [strides] and [padding] are among the
    [kwargs] handed to [EquivariantPadding], with that layer's defaults (1 and
    'valid_equiv') when absent; [data_format] is not handed on, so the padding
    layer always uses its default 'channels_last'.  [group_valued_input] starts
    as None, which is only tested for truth. *)
Definition gt_init (g : group_arg) (kernel_size : size_arg) (dimensions : nat)
  (data_format : string) (allow : bool) (subgroup : option string) (transpose : bool)
  (strides : option size_arg) (padding : option (option string)) : result gtransforms :=
  G <- match g with Object G => Ok G | ByName s => dict_get group_dict s end ;;
  H <- match parse_subgroup G subgroup with
       | None => Err KeyError
       | Some s => dict_get group_dict s
       end ;;
  let '(domain, acting) := if transpose then (g_name H, g_name G) else (g_name G, g_name H) in
  P <- padding_init kernel_size dimensions
                    (match strides with Some s => s | None => One 1 end)
                    (match padding with Some p => p | None => Some "valid_equiv" end)
                    allow "channels_last" transpose ;;
  let first := String.eqb data_format "channels_first" in
  Ok (mkGT dimensions transpose G H (Some domain) (Some acting) P data_format
           (if first then 1%Z else (Z.of_nat dimensions + 1)%Z)
           (Z.of_nat dimensions + 1 + (if first then 1 else 0))%Z
           false None None None None).

Definition gt_set_build (T : gtransforms) (domain : option string) (P : padding_layer)
  (channels_axis : Z) (valued : bool) (reshaped : sshape) : gtransforms :=
  mkGT (gt_dims T) (gt_transpose T) (gt_group T) (gt_subgroup T) domain (gt_acting T) P
       (gt_format T) channels_axis (gt_group_axis T) valued (Some reshaped)
       (gt_bias_indices T) (gt_kernel_indices T) (gt_pooling_indices T).

Definition gt_set_indices (T : gtransforms) (b k p : option (tensor nat)) : gtransforms :=
  mkGT (gt_dims T) (gt_transpose T) (gt_group T) (gt_subgroup T) (gt_domain T) (gt_acting T)
       (gt_padding T) (gt_format T) (gt_channels_axis T) (gt_group_axis T) (gt_group_valued T)
       (gt_reshaped T) b k p.

(** group_transforms.py:133-155 [build] *)
Definition gt_build (T : gtransforms) (input_shape : sshape) : result gtransforms :=
  let valued := (List.length input_shape =? gt_dims T + 3)%nat in
  let domain := if valued then gt_domain T else None in
  let channels_axis := if String.eqb (gt_format T) "channels_last" && valued
                       then (gt_channels_axis T + 1)%Z else gt_channels_axis T in
  reshaped <- (if valued
               then idx <- subgroup_get (gt_group T) domain ;;
                    o <- py_nth input_shape (gt_group_axis T) ;;
                    guard (match o with Some n => (n =? List.length idx)%nat | None => false end)
                    else AssertionError ;;
                    merge_shapes input_shape (gt_group_axis T) channels_axis
               else Ok input_shape) ;;
  P <- padding_build (gt_padding T) reshaped ;;
  Ok (gt_set_build T domain P channels_axis valued reshaped).

(** group_transforms.py:169-174 [_compute_repeated_bias_indices] *)
Definition compute_repeated_bias_indices {A} (T : gtransforms) (bias : tensor A)
  : result (tensor nat) :=
  indices <- get_index_tensor bias ;;
  act <- subgroup_get (gt_group T) (gt_acting T) ;;
  concatenate (repeat indices (List.length act)) 0.

(** group_transforms.py:176-215 [_compute_transformed_kernel_indices] *)
Definition compute_transformed_kernel_indices {A} {ZA : Zero A} (T : gtransforms) (kernel : tensor A)
  : result (tensor nat) :=
  kernel <- (if gt_transpose T then swapaxes kernel (-1) (-2) else Ok kernel) ;;
  indices <- get_index_tensor kernel ;;
  let spatial_axes := map Z.of_nat (seq 0 (gt_dims T)) in
  let d := Z.of_nat (gt_dims T) in
  indices <- (if negb (gt_group_valued T)
              then action (gt_group T) indices spatial_axes d None (gt_acting T) (gt_domain T)
              else
                dom <- subgroup_get (gt_group T) (gt_domain T) ;;
                indices <- split_axes indices (List.length dom) (-2) ;;
                indices <- action (gt_group T) indices spatial_axes d (Some d)
                                  (gt_acting T) (gt_domain T) ;;
                merge_axes indices (-3) (-2)) ;;
  indices <- merge_axes indices (-3) (-1) ;;
  if gt_transpose T then swapaxes indices (-1) (-2) else Ok indices.

(** group_transforms.py:157-160 [build_conv]; without [use_bias] the bias
    attribute is None and not looked at. *)
Definition gt_build_conv {A} {ZA : Zero A} (T : gtransforms) (kernel : tensor A)
  (bias : option (tensor A)) : result gtransforms :=
  b <- match bias with
       | Some b => i <- compute_repeated_bias_indices T b ;; Ok (Some i)
       | None => Ok (gt_bias_indices T)
       end ;;
  k <- compute_transformed_kernel_indices T kernel ;;
  Ok (gt_set_indices T b (Some k) (gt_pooling_indices T)).

(** group_transforms.py:162-167 [build_pool] *)
Definition gt_build_pool (T : gtransforms) : result gtransforms :=
  cos <- dict_get (g_cosets (gt_group T)) (g_name (gt_subgroup T)) ;;
  indices <- take (g_composition (gt_group T)) (vec cos) 1 ;;
  sub <- dict_get (g_subgroup (gt_group T)) (g_name (gt_subgroup T)) ;;
  p <- take indices (vec sub) 0 ;;
  Ok (gt_set_indices T (gt_bias_indices T) (gt_kernel_indices T) (Some p)).

Section Call.
Context {A : Type} {ZA : Zero A}.

(** group_transforms.py:75-89 [merge_group_axis_and_pad] *)
Definition merge_group_axis_and_pad (T : gtransforms) (inputs : tensor A) : result (tensor A) :=
  inputs <- (if gt_group_valued T
             then merge_axes inputs (gt_group_axis T) (gt_channels_axis T) else Ok inputs) ;;
  padding_call (gt_padding T) inputs.

(** group_transforms.py:91-93 [repeat_bias].  [_repeated_bias_indices] is None
    before [build_conv]. *)
Definition repeat_bias (T : gtransforms) (bias : tensor A) : result (tensor A) :=
  match gt_bias_indices T with Some i => take bias i 0 | None => Err ValueError end.

(** group_transforms.py:95-103 [transform_kernel] *)
Definition transform_kernel (T : gtransforms) (kernel : tensor A) : result (tensor A) :=
  flat <- reshape kernel [(-1)%Z] ;;
  match gt_kernel_indices T with Some i => take flat i 0 | None => Err ValueError end.

(** group_transforms.py:105-119 [restore_group_axis] *)
Definition restore_group_axis (T : gtransforms) (outputs : tensor A) : result (tensor A) :=
  let axis := if gt_group_valued T && String.eqb (gt_format T) "channels_last"
              then (gt_channels_axis T - 1)%Z else gt_channels_axis T in
  act <- subgroup_get (gt_group T) (gt_acting T) ;;
  out <- split_axes outputs (List.length act) axis ;;
  moveaxis out axis (gt_group_axis T).

(** group_transforms.py:121-131 [subgroup_pooling]; [f] is the maximum or the
    mean of a list of values. *)
Definition subgroup_pooling (f : list A -> A) (T : gtransforms) (inputs : tensor A)
  : result (tensor A) :=
  match gt_pooling_indices T with
  | None => Err ValueError
  | Some p => outputs <- take inputs p (gt_group_axis T) ;;
              reduce f outputs (gt_group_axis T + 1)
  end.

(** group_transforms.py:229-236 [prepare_call]: kernel, bias, filters, inputs *)
Definition prepare_call (T : gtransforms) (kernel : tensor A) (bias : option (tensor A))
  (filters : nat) (inputs : tensor A)
  : result (tensor A * option (tensor A) * nat * tensor A) :=
  inputs <- merge_group_axis_and_pad T inputs ;;
  kernel <- transform_kernel T kernel ;;
  bias <- match bias with
          | Some b => b <- repeat_bias T b ;; Ok (Some b)
          | None => Ok None
          end ;;
  act <- subgroup_get (gt_group T) (gt_acting T) ;;
  Ok (kernel, bias, (filters * List.length act)%nat, inputs).

End Call.

(** group_transforms.py:217-222 [correct_output_shape] *)
Definition correct_output_shape (T : gtransforms) (output_shape : sshape) : sshape :=
  (py_upto output_shape (gt_group_axis T) ++ [Some (g_order (gt_group T))]
   ++ py_from output_shape (gt_group_axis T))%list.

(** group_transforms.py:224-227 [get_config]: the keys, or the exception. *)
Definition gt_get_config (T : gtransforms) : result (list string) :=
  c <- padding_get_config (gt_padding T) ;; Ok ("group" :: "subgroup" :: c).
