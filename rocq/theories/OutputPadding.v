(** Transposed convolution layers with Keras' argument [output_padding], which
    /repo/groco/layers/conv2d_transpose.py:40-55 and conv3d_transpose.py:46-61 pass on to the superclass
    (and to [EquivariantPadding], which ignores it) with the other [kwargs].  The argument
    takes part in [call] and in [compute_output_shape]; [build] does not use it, so that a layer
    with this argument is built as in [Layers.v].  Here it is a list with one number per
    axis; Keras' check of the argument is not modelled (some versions refuse 0). *)
From Verif Require Export Layers.
Local Open Scope string_scope.

Section OutputPadding.
Context {A : Type} {RA : Arith A}.

(** Keras' [_get_output_shape_given_tf_padding] for an [output_padding] that is not None: [k] is
    the size of the dilated kernel. *)
Definition opadded_size (padding : string) (n k s op : nat) : nat :=
  if String.eqb padding "same" then (n - 1) * s + k mod 2 + op else (n - 1) * s + k + op.

(** TensorFlow's [conv_transpose] is the gradient of a convolution of a signal of size [out],
    which has to have [n] outputs; [before] is half of what that convolution adds. *)
Definition opadded_fits (padding : string) (n k s out : nat) : bool :=
  (0 <? n)%nat &&
  (if String.eqb padding "same" then ((out + s - 1) / s =? n)%nat
   else ((k <=? out) && ((out - k) / s + 1 =? n))%nat).

Definition opadded_before (padding : string) (n k s out : nat) : nat :=
  if String.eqb padding "same" then ((n - 1) * s + k - out) / 2 else 0.

(** The size, [opadded_fits] and [opadded_before] of every axis. *)
Definition opadded_axes (padding : string) (n ke strides op : list nat) : list (nat * bool * nat) :=
  map (fun q => let '(n, k, s, op) := q in
                let out := opadded_size padding n k s op in
                (out, opadded_fits padding n k s out, opadded_before padding n k s out))
      (combine (combine (combine n ke) strides) op).

(** [ops.conv_transpose] with [output_padding], channels_last; as [conv_transpose_last] (Keras.v)
    otherwise. *)
Definition opadded_last (x w : tensor A) (strides dil : list nat) (padding : string) (op : list nat)
  : result (tensor A) :=
  let d := List.length strides in
  guard (rank x =? d + 2)%nat && (rank w =? d + 2)%nat && (List.length dil =? d)%nat
        && (List.length op =? d)%nat else ValueError ;;
  let n := spatial d (shape x) in
  let k := firstn d (shape w) in
  let c := nth (d + 1) (shape x) 0%nat in
  let o := nth d (shape w) 0%nat in
  guard (nth (d + 1) (shape w) 0 =? c)%nat else ValueError ;;
  let axes := opadded_axes padding n (vzip dilated k dil) strides op in
  guard forallb (fun q => snd (fst q)) axes else BackendError ;;
  let out := map (fun q => fst (fst q)) axes in
  let before := map snd axes in
  Ok (tab (nth 0 (shape x) 0%nat :: out ++ [o])
          (fun i => sum (map (fun jc =>
             let j := firstn d jc in
             match transpose_srcs n strides dil before (spatial d i) j with
             | Some q => mul (at_ x (nth 0 i 0%nat :: q ++ [nth d jc 0%nat]))
                             (at_ w (j ++ [nth (d + 1) i 0%nat; nth d jc 0%nat]))
             | None => zero
             end) (indices (k ++ [c]))))).

(** BaseConvTranspose.call *)
Definition opadded_conv_call (op : list nat) (fmt : string) (strides dil : list nat) (padding : string) (filters : nat)
  (activation : A -> A) (kernel : tensor A) (bias : option (tensor A)) (x : tensor A) : result (tensor A) :=
  y <- in_format fmt (fun x => opadded_last x kernel strides dil padding op) x ;;
  y <- add_bias fmt filters bias y ;;
  Ok (tmap activation y).

(** conv2d_transpose.py:57-63 [call], as [conv_call] with the convolution above. *)
Definition opadded_call (op : list nat) (L : conv_layer A) (inputs : tensor A) : conv_layer A * result (tensor A) :=
  match cl_kernel L with
  | None => (L, Err AttributeError)
  | Some kernel =>
      match prepare_call (cl_gt L) kernel (cl_bias L) (cl_filters L) inputs with
      | Err e => (L, Err e)
      | Ok (k, b, f, x) =>
          let L' := cl_set_weights L (Some k) b f in
          match (outputs <- opadded_conv_call op (cl_format L) (cl_strides L) (cl_dilation L) (cl_padding L)
                              (cl_filters L') (cl_activation L) k (cl_bias L') x ;;
                 restore_group_axis (cl_gt L) outputs) with
          | Err e => (L', Err e)
          | Ok y => (cl_set_weights L' (cl_kernel L) (cl_bias L) (cl_filters L), Ok y)
          end
      end
  end.

(** [Layer.__call__] of a built layer, as [conv_apply]. *)
Definition opadded_apply (op : list nat) (L : conv_layer A) (inputs : tensor A) : conv_layer A * result (tensor A) :=
  let r := rank inputs in
  if (r <? gt_dims (cl_gt L) + 2)%nat then (L, Err ValueError)
  else
    let axis := if String.eqb (cl_format L) "channels_last" then r - 1 else 1 in
    match cl_channels L with
    | Some c => if (nth axis (shape inputs) 0 =? c)%nat then opadded_call op L inputs else (L, Err ValueError)
    | None => opadded_call op L inputs
    end.

(** conv2d_transpose.py:81-84 [compute_output_shape], with Keras' [compute_conv_transpose_output_shape], which does not
    look at the sign of a size: for inputs without rows (size 0), for which Keras may announce
    a negative size, this has a truncated difference instead.  Unknown sizes stay unknown. *)
Definition opadded_output_shape (op : list nat) (fmt padding : string) (filters : nat)
  (k strides dil : list nat) (input : sshape) : result sshape :=
  let last := String.eqb fmt "channels_last" in
  guard (List.length input =? List.length k + 2)%nat else ValueError ;;
  let n := if last then firstn (List.length k) (skipn 1 input) else skipn 2 input in
  let out := map (fun q => let '(n, k, s, op) := q in option_map (fun n => opadded_size padding n k s op) n)
                 (combine (combine (combine n (vzip dilated k dil)) strides) op) in
  Ok (if last then nth 0 input None :: out ++ [Some filters]
      else nth 0 input None :: Some filters :: out).

Definition opadded_compute_output_shape (op : list nat) (L : conv_layer A) : result sshape :=
  match gt_reshaped (cl_gt L) with
  | None => Err AttributeError
  | Some r =>
      o <- opadded_output_shape op (cl_format L) (cl_padding L) (cl_filters L)
             (cl_kernel_size L) (cl_strides L) (cl_dilation L) r ;;
      Ok (correct_output_shape (cl_gt L) o)
  end.

End OutputPadding.
