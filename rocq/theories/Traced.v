(** Calls during tracing: the code computes with [tensor.shape], in which sizes may be
    unknown ([None]).  The definitions repeat those of GroupTransforms.v and Layers.v,
    with the static shape in the two places where the code reads it
    (tensor_manips.py:53 and 89).  Everything else (take, moveaxis, pad, the
    convolution itself) does not depend on it. *)
From Verif Require Export Layers.
Local Open Scope string_scope.

(** [tensor.shape] when the sizes of the axes in [unknown] are not known. *)
Definition traced_shape (unknown : nat -> bool) (s : list nat) : sshape :=
  map (fun ax => if unknown ax then None else Some (nth ax s 0)) (seq 0 (List.length s)).

Section Traced.
Context {A : Type} {RA : Arith A}.

(** group_transforms.py:75-89 [merge_group_axis_and_pad] *)
Definition merge_group_axis_and_pad_traced (unknown : nat -> bool) (T : gtransforms) (inputs : tensor A)
  : result (tensor A) :=
  inputs <- (if gt_group_valued T
             then merge_axes_st (traced_shape unknown (shape inputs)) inputs (gt_group_axis T) (gt_channels_axis T)
             else Ok inputs) ;;
  padding_call (gt_padding T) inputs.

(** group_transforms.py:105-119 [restore_group_axis]; the sizes of the batch and of
    the spatial axes of the output are unknown where those of the input are. *)
Definition restore_group_axis_traced (unknown : nat -> bool) (T : gtransforms) (outputs : tensor A)
  : result (tensor A) :=
  let axis := if gt_group_valued T && String.eqb (gt_format T) "channels_last"
              then (gt_channels_axis T - 1)%Z else gt_channels_axis T in
  act <- subgroup_get (gt_group T) (gt_acting T) ;;
  out <- split_axes_st (traced_shape unknown (shape outputs)) outputs (List.length act) axis ;;
  moveaxis out axis (gt_group_axis T).

(** group_transforms.py:229-236 [prepare_call] *)
Definition prepare_call_traced (unknown : nat -> bool) (T : gtransforms) (kernel : tensor A)
  (bias : option (tensor A)) (filters : nat) (inputs : tensor A)
  : result (tensor A * option (tensor A) * nat * tensor A) :=
  inputs <- merge_group_axis_and_pad_traced unknown T inputs ;;
  kernel <- transform_kernel T kernel ;;
  bias <- match bias with
          | Some b => b <- repeat_bias T b ;; Ok (Some b)
          | None => Ok None
          end ;;
  act <- subgroup_get (gt_group T) (gt_acting T) ;;
  Ok (kernel, bias, (filters * List.length act)%nat, inputs).

(** conv2d.py:59-65 [call] and its twins *)
Definition conv_call_traced (unknown : nat -> bool) (L : conv_layer A) (inputs : tensor A)
  : conv_layer A * result (tensor A) :=
  match cl_kernel L with
  | None => (L, Err AttributeError)
  | Some kernel =>
      match prepare_call_traced unknown (cl_gt L) kernel (cl_bias L) (cl_filters L) inputs with
      | Err e => (L, Err e)
      | Ok (k, b, f, x) =>
          let L' := cl_set_weights L (Some k) b f in
          match (outputs <- base_conv_call (gt_transpose (cl_gt L)) (cl_format L) (cl_strides L)
                              (cl_dilation L) (cl_padding L) (cl_filters L') (cl_activation L) k
                              (cl_bias L') x ;;
                 restore_group_axis_traced unknown (cl_gt L) outputs) with
          | Err e => (L', Err e)
          | Ok y => (cl_set_weights L' (cl_kernel L) (cl_bias L) (cl_filters L), Ok y)
          end
      end
  end.

(** [layer(inputs)], as in [conv_apply]: rank and channels are known. *)
Definition conv_apply_traced (unknown : nat -> bool) (L : conv_layer A) (inputs : tensor A)
  : conv_layer A * result (tensor A) :=
  let r := rank inputs in
  if (r <? gt_dims (cl_gt L) + 2)%nat then (L, Err ValueError)
  else
    let axis := if String.eqb (cl_format L) "channels_last" then r - 1 else 1 in
    match cl_channels L with
    | Some c => if (nth axis (shape inputs) 0 =? c)%nat then conv_call_traced unknown L inputs else (L, Err ValueError)
    | None => conv_call_traced unknown L inputs
    end.

(** pooling.py:60-64 [call] *)
Definition pool_call_traced {PA : Pool A} (unknown : nat -> bool) (L : pool_layer) (inputs : tensor A)
  : result (tensor A) :=
  let f := pool_fun (po_type L) in
  x <- subgroup_pooling f (po_gt L) inputs ;;
  x <- merge_group_axis_and_pad_traced unknown (po_gt L) x ;;
  y <- pool_op f (po_format L) x (po_size L) (po_strides L) (po_padding L) ;;
  restore_group_axis_traced unknown (po_gt L) y.

End Traced.
