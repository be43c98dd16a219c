(** Attempts to build a layer, with what they leave behind when they raise.  The
    functions [padding_build], [gt_build], [pool_build] and [conv_build] return the built
    object or the exception; here the assignments that are made before an exception are
    kept as well. *)
From Verif Require Export Layers.
Local Open Scope string_scope.

(** padding.py:74-95 [build]: [needs_padding] is assigned (line 85) before either of the
    two exceptions (lines 89 and 93). *)
Definition padding_attempt (L : padding_layer) (input_shape : sshape) : padding_layer :=
  match padding_build L input_shape with
  | Ok L' => L'
  | Err _ =>
      match cast_sizes (if String.eqb (pl_format L) "channels_last"
                        then firstn (pl_dims L) (skipn 1 input_shape)
                        else skipn 2 input_shape) with
      | Ok spatial =>
          match compute_equivariant_padding L spatial with
          | Ok _ => set_needs L true (pl_pads L)
          | Err _ => L
          end
      | Err _ => L
      end
  end.

(** group_transforms.py:133-155 [build]: [group_valued_input], [domain_group] and
    [channels_axis] are assigned first (lines 136-140); then the group is looked up and
    the shape is merged; then come [reshaped_input] and the padding. *)
Definition gt_attempt (T : gtransforms) (input_shape : sshape) : gtransforms :=
  let valued := (List.length input_shape =? gt_dims T + 3)%nat in
  let domain := if valued then gt_domain T else None in
  let channels_axis := if String.eqb (gt_format T) "channels_last" && valued
                       then (gt_channels_axis T + 1)%Z else gt_channels_axis T in
  let T1 := mkGT (gt_dims T) (gt_transpose T) (gt_group T) (gt_subgroup T) domain (gt_acting T) (gt_padding T)
                 (gt_format T) channels_axis (gt_group_axis T) valued (gt_reshaped T)
                 (gt_bias_indices T) (gt_kernel_indices T) (gt_pooling_indices T) in
  match (if valued
         then idx <- subgroup_get (gt_group T) domain ;;
              o <- py_nth input_shape (gt_group_axis T) ;;
              guard (match o with Some n => (n =? List.length idx)%nat | None => false end)
              else AssertionError ;;
              merge_shapes input_shape (gt_group_axis T) channels_axis
         else Ok input_shape) with
  | Err _ => T1
  | Ok reshaped => gt_set_build T domain (padding_attempt (gt_padding T) reshaped) channels_axis valued reshaped
  end.

(** pooling.py:66-69 [build] *)
Definition pool_attempt (L : pool_layer) (input_shape : sshape) : pool_layer * result unit :=
  match pool_build L input_shape with
  | Ok L' => (L', Ok tt)
  | Err e => (po_set_gt L (gt_attempt (po_gt L) input_shape), Err e)
  end.

(** conv2d.py:67-76 [build].  The weights that Keras may have created before it raised are
    not kept: a later attempt creates new ones. *)
Definition conv_attempt {A} {RA : Arith A} (L : conv_layer A) (input_shape : sshape) (kinit binit : list nat -> A)
  : conv_layer A * result unit :=
  match conv_build L input_shape kinit binit with
  | Ok L' => (L', Ok tt)
  | Err e => (cl_set_gt L (gt_attempt (cl_gt L) input_shape), Err e)
  end.
