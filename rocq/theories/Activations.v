(** Layers whose activation does not act on every number by itself.  /repo/groco/layers/conv2d.py:42-57
    (and the same in the other classes) passes [activation] on to Keras with the other [kwargs];
    the Keras layer applies it to its outputs, before the group axis is restored. *)
From Verif Require Export Layers.
Local Open Scope string_scope.

Section Activations.
Context {A : Type} {RA : Arith A}.

(** An activation such as Keras' softmax: a function [F] of all the numbers along the last axis. *)
Definition along_last (F : list A -> list A) (y : tensor A) : tensor A :=
  let r := (rank y - 1)%nat in
  tab (shape y) (fun i => nth (nth r i 0%nat) (F (map (fun q => at_ y (firstn r i ++ [q])) (seq 0 (nth r (shape y) 0%nat)))) zero).

(** conv2d.py:59-65 [call], as [conv_call] (Layers.v) with such an activation in BaseConv.call. *)
Definition vector_call (F : list A -> list A) (L : conv_layer A) (inputs : tensor A) : conv_layer A * result (tensor A) :=
  match cl_kernel L with
  | None => (L, Err AttributeError)
  | Some kernel =>
      match prepare_call (cl_gt L) kernel (cl_bias L) (cl_filters L) inputs with
      | Err e => (L, Err e)
      | Ok (k, b, f, x) =>
          let L' := cl_set_weights L (Some k) b f in
          match (outputs <- base_conv_call (gt_transpose (cl_gt L)) (cl_format L) (cl_strides L)
                              (cl_dilation L) (cl_padding L) (cl_filters L') (fun v => v) k
                              (cl_bias L') x ;;
                 restore_group_axis (cl_gt L) (along_last F outputs)) with
          | Err e => (L', Err e)
          | Ok y => (cl_set_weights L' (cl_kernel L) (cl_bias L) (cl_filters L), Ok y)
          end
      end
  end.

(** [Layer.__call__] of a built layer, as [conv_apply]. *)
Definition vector_apply (F : list A -> list A) (L : conv_layer A) (inputs : tensor A) : conv_layer A * result (tensor A) :=
  let r := rank inputs in
  if (r <? gt_dims (cl_gt L) + 2)%nat then (L, Err ValueError)
  else
    let axis := if String.eqb (cl_format L) "channels_last" then r - 1 else 1 in
    match cl_channels L with
    | Some c => if (nth axis (shape inputs) 0 =? c)%nat then vector_call F L inputs else (L, Err ValueError)
    | None => vector_call F L inputs
    end.

End Activations.
