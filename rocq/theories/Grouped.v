(** Convolution layers with Keras' argument [groups], which /repo/groco/layers/conv2d.py:42-57 and
    conv3d.py:42-57 pass on to the superclass with the other [kwargs]: Keras splits
    the input channels and the filters into [groups] blocks and convolves block by
    block.  The transposed Keras layers have no such argument. *)
From Verif Require Export Layers.
Local Open Scope string_scope.

Section Grouped.
Context {A : Type} {RA : Arith A}.

(** [ops.conv] of the TensorFlow backend, channels_last.  [w] has shape (k..., c, o).  If c is not the
    number C of channels of [x], the number of blocks is C / c: filter [r] belongs to
    block r / (o / blocks) and sees the channels of that block only.  The rest
    is as in [conv_last] (Keras.v). *)
Definition grouped_last (x w : tensor A) (strides dil : list nat) (padding : string) : result (tensor A) :=
  let d := List.length strides in
  if (nth (d + 1) (shape x) 0 =? nth d (shape w) 0)%nat then conv_last x w strides dil padding
  else
    guard (rank x =? d + 2)%nat && (rank w =? d + 2)%nat && (List.length dil =? d)%nat else ValueError ;;
    let n := spatial d (shape x) in
    let k := firstn d (shape w) in
    let C := nth (d + 1) (shape x) 0%nat in
    let c := nth d (shape w) 0%nat in
    let o := nth (d + 1) (shape w) 0%nat in
    let blocks := (C / c)%nat in
    guard (0 <? c)%nat && (blocks * c =? C)%nat && (o mod blocks =? 0)%nat else BackendError ;;
    let ke := vzip dilated k dil in
    let pads := builtin_pads padding n ke strides in
    xp <- pad x ((0, 0)%nat :: pads ++ [(0, 0)%nat]) ;;
    let np := spatial d (shape xp) in
    guard forallb (fun p => (fst p <=? snd p)%nat) (combine ke np) else BackendError ;;
    let out := map (fun q => let '(n, k, s) := q in out_size n k s) (combine (combine np ke) strides) in
    Ok (tab (nth 0 (shape x) 0%nat :: out ++ [o])
            (fun i => sum (map (fun jc =>
               let j := firstn d jc in
               let block := (nth (d + 1) i 0 / (o / blocks))%nat in
               mul (at_ xp (nth 0 i 0%nat :: vzip Nat.add (vzip Nat.mul (spatial d i) strides) (vzip Nat.mul j dil)
                            ++ [(block * c + nth d jc 0)%nat]))
                   (at_ w (jc ++ [nth (d + 1) i 0%nat]))) (indices (k ++ [c]))))).

(** BaseConv.call *)
Definition grouped_conv_call (fmt : string) (strides dil : list nat) (padding : string) (filters : nat)
  (activation : A -> A) (kernel : tensor A) (bias : option (tensor A)) (x : tensor A) : result (tensor A) :=
  y <- in_format fmt (fun x => grouped_last x kernel strides dil padding) x ;;
  y <- add_bias fmt filters bias y ;;
  Ok (tmap activation y).

(** conv2d.py:42-57 [__init__]; BaseConv.__init__ also checks that [groups] is positive and
    divides the number of filters. *)
Definition grouped_init (dims groups : nat) (a : conv_args A) : result (conv_layer A) :=
  L <- conv_init dims false a ;;
  guard (0 <? groups)%nat && (ca_filters a mod groups =? 0)%nat else ValueError ;;
  Ok L.

(** conv2d.py:67-76 [build]; BaseConv.build checks that [groups] divides the number of channels
    and makes a kernel of shape (kernel_size..., in / groups, filters).  As [conv_build] otherwise. *)
Definition grouped_build (groups : nat) (L : conv_layer A) (input_shape : sshape) (kinit binit : list nat -> A)
  : result (conv_layer A) :=
  T <- gt_build (cl_gt L) input_shape ;;
  let L := cl_set_gt L T in
  let reshaped := match gt_reshaped T with Some r => r | None => [] end in
  let axis := if String.eqb (cl_format L) "channels_last" then (-1)%Z else 1%Z in
  o <- py_nth reshaped axis ;;
  c <- match o with Some c => Ok c | None => Err ValueError end ;;
  guard (c mod groups =? 0)%nat else ValueError ;;
  _ <- conv_compute_output_shape L ;;
  let kernel := tab (cl_kernel_size L ++ [(c / groups)%nat; cl_filters L]) kinit in
  let bias := if cl_use_bias L then Some (tab [cl_filters L] binit) else None in
  T <- gt_build_conv T kernel bias ;;
  ch <- (if gt_group_valued T
         then o <- py_nth input_shape (gt_channels_axis T) ;;
              match o with Some c => Ok c | None => Err ValueError end
         else Ok c) ;;
  Ok (cl_set_channels (cl_set_weights (cl_set_gt L T) (Some kernel) bias (cl_filters L)) (Some ch)).

(** conv2d.py:59-65 [call], as [conv_call] with the convolution above. *)
Definition grouped_call (L : conv_layer A) (inputs : tensor A) : conv_layer A * result (tensor A) :=
  match cl_kernel L with
  | None => (L, Err AttributeError)
  | Some kernel =>
      match prepare_call (cl_gt L) kernel (cl_bias L) (cl_filters L) inputs with
      | Err e => (L, Err e)
      | Ok (k, b, f, x) =>
          let L' := cl_set_weights L (Some k) b f in
          match (outputs <- grouped_conv_call (cl_format L) (cl_strides L) (cl_dilation L) (cl_padding L)
                              (cl_filters L') (cl_activation L) k (cl_bias L') x ;;
                 restore_group_axis (cl_gt L) outputs) with
          | Err e => (L', Err e)
          | Ok y => (cl_set_weights L' (cl_kernel L) (cl_bias L) (cl_filters L), Ok y)
          end
      end
  end.

(** [Layer.__call__] of a built layer, as [conv_apply]. *)
Definition grouped_apply (L : conv_layer A) (inputs : tensor A) : conv_layer A * result (tensor A) :=
  let r := rank inputs in
  if (r <? gt_dims (cl_gt L) + 2)%nat then (L, Err ValueError)
  else
    let axis := if String.eqb (cl_format L) "channels_last" then r - 1 else 1 in
    match cl_channels L with
    | Some c => if (nth axis (shape inputs) 0 =? c)%nat then grouped_call L inputs else (L, Err ValueError)
    | None => grouped_call L inputs
    end.

End Grouped.
