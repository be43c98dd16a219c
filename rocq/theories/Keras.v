(** The Keras layers (keras==3.0.5 with the TensorFlow backend) that GroCo's layers
    are subclasses of or call: convolution, transposed convolution, pooling.

    Like [Tensor.v] this is the semantics assumed of the external library; it
    belongs to the trusted base.  Scalars are an arbitrary type with a zero, an
    addition and a multiplication; the laws a theorem needs are hypotheses of the
    theorem. *)
From Verif Require Export Padding.
Local Open Scope string_scope.

Class Arith (A : Type) := {
  arith_zero :> Zero A;
  add : A -> A -> A;
  mul : A -> A -> A
}.

Definition sum {A} {RA : Arith A} (l : list A) : A := fold_right add zero l.

(** Entry-wise operations on indices and shapes. *)
Definition vzip (f : nat -> nat -> nat) (a b : list nat) : list nat :=
  map (fun p => f (fst p) (snd p)) (combine a b).

(** Spatial part of an index of a channels_last tensor (batch, spatial..., ...). *)
Definition spatial (d : nat) (i : list nat) : list nat := firstn d (tl i).

(** [standardize_tuple]: an int or a tuple with one positive entry per axis. *)
Definition standardize_tuple (d : nat) (a : size_arg) : result (list nat) :=
  let l := per_axis d a in
  guard (List.length l =? d)%nat else ValueError ;;
  guard forallb (fun z => (0 <? z)%Z) l else ValueError ;;
  Ok (map Z.to_nat l).

(** ASCII [str.lower], and [standardize_padding] *)
Definition lower_ascii (c : ascii) : ascii :=
  let n := nat_of_ascii c in
  if ((65 <=? n) && (n <=? 90))%nat then ascii_of_nat (n + 32) else c.

Fixpoint lower (s : string) : string :=
  match s with
  | "" => ""
  | String c s' => String (lower_ascii c) (lower s')
  end.

Definition standardize_padding (p : string) : result string :=
  guard mem_str (lower p) ["valid"; "same"] else ValueError ;; Ok (lower p).

Definition standardize_format (f : string) : result string :=
  guard mem_str (lower f) ["channels_last"; "channels_first"] else ValueError ;; Ok (lower f).

(** Size of a dilated kernel. *)
Definition dilated (k dil : nat) : nat := (k - 1) * dil + 1.

(** TensorFlow's 'same' padding of one axis: (before, after), in total
    max(0, (ceil(n/s) - 1) * s + k - n); the subtraction is truncated at 0. *)
Definition same_total (n k s : nat) : nat := (n + s - 1) / s * s + k - (s + n).
Definition same_pads (n k s : nat) : nat * nat :=
  let t := same_total n k s in (t / 2, t - t / 2)%nat.

Definition builtin_pads (padding : string) (n k s : list nat) : list (nat * nat) :=
  if String.eqb padding "same"
  then map (fun q => let '(n, k, s) := q in same_pads n k s) (combine (combine n k) s)
  else map (fun _ => (0, 0)%nat) n.

(** [ops.conv], channels_last.  [x] has shape (batch, n..., c), [w] has shape
    (k..., c, o).  'valid' is a convolution of the unpadded input and needs
    n >= k (dilated); grouped convolutions are not modelled here, the channel numbers
    must agree (Grouped.v has the blocks that Keras infers if they do not).  An input with further
    axes, which TensorFlow takes for several batch axes, raises here.  Axes of size 0 are not described faithfully with 'same'
    (TensorFlow returns an empty tensor). *)
Definition out_size (n k s : nat) : nat := (n - k) / s + 1.

Section Conv.
Context {A : Type} {RA : Arith A}.

Definition conv_last (x w : tensor A) (strides dil : list nat) (padding : string)
  : result (tensor A) :=
  let d := List.length strides in
  guard (rank x =? d + 2)%nat && (rank w =? d + 2)%nat && (List.length dil =? d)%nat else ValueError ;;
  let n := spatial d (shape x) in
  let k := firstn d (shape w) in
  let c := nth (d + 1) (shape x) 0%nat in
  let o := nth (d + 1) (shape w) 0%nat in
  guard (nth d (shape w) 0 =? c)%nat else ValueError ;;
  let ke := vzip dilated k dil in
  let pads := builtin_pads padding n ke strides in
  xp <- pad x ((0, 0)%nat :: pads ++ [(0, 0)%nat]) ;;
  let np := spatial d (shape xp) in
  guard forallb (fun p => (fst p <=? snd p)%nat) (combine ke np) else BackendError ;;
  let out := map (fun q => let '(n, k, s) := q in out_size n k s) (combine (combine np ke) strides) in
  Ok (tab (nth 0 (shape x) 0%nat :: out ++ [o])
          (fun i => sum (map (fun jc =>
             let j := firstn d jc in
             mul (at_ xp (nth 0 i 0%nat :: vzip Nat.add (vzip Nat.mul (spatial d i) strides) (vzip Nat.mul j dil)
                          ++ [nth d jc 0%nat]))
                 (at_ w (jc ++ [nth (d + 1) i 0%nat]))) (indices (k ++ [c]))))).

(** [ops.conv_transpose], channels_last.  [w] has shape (k..., o, c).  Output sizes
    n*s ('same') or n*s + max(k - s, 0) ('valid'); position [p] of the output
    collects the products x[i] * w[j] with i*s + j*dil = p + before, where
    [before] is half of what 'same' crops. *)
Definition transpose_src (n s dil before p j : nat) : option nat :=
  let q := p + before - j * dil in
  if ((j * dil <=? p + before) && (q mod s =? 0) && (q / s <? n))%nat then Some (q / s)%nat else None.

Fixpoint transpose_srcs (n s dil before p j : list nat) : option (list nat) :=
  match n, s, dil, before, p, j with
  | n :: n', s :: s', dl :: dl', b :: b', p :: p', j :: j' =>
      match transpose_src n s dl b p j, transpose_srcs n' s' dl' b' p' j' with
      | Some i, Some i' => Some (i :: i')
      | _, _ => None
      end
  | _, _, _, _, _, _ => Some []
  end.

Definition transpose_size (padding : string) (n k s : nat) : nat :=
  if String.eqb padding "same" then n * s else n * s + (k - s).

Definition transpose_before (padding : string) (k s : nat) : nat :=
  if String.eqb padding "same" then (k - s) / 2 else 0.

Definition conv_transpose_last (x w : tensor A) (strides dil : list nat) (padding : string)
  : result (tensor A) :=
  let d := List.length strides in
  guard (rank x =? d + 2)%nat && (rank w =? d + 2)%nat && (List.length dil =? d)%nat else ValueError ;;
  let n := spatial d (shape x) in
  let k := firstn d (shape w) in
  let c := nth (d + 1) (shape x) 0%nat in
  let o := nth d (shape w) 0%nat in
  guard (nth (d + 1) (shape w) 0 =? c)%nat else ValueError ;;
  let ke := vzip dilated k dil in
  let out := map (fun q => let '(n, k, s) := q in transpose_size padding n k s)
                 (combine (combine n ke) strides) in
  let before := vzip (transpose_before padding) ke strides in
  Ok (tab (nth 0 (shape x) 0%nat :: out ++ [o])
          (fun i => sum (map (fun jc =>
             let j := firstn d jc in
             match transpose_srcs n strides dil before (spatial d i) j with
             | Some q => mul (at_ x (nth 0 i 0%nat :: q ++ [nth d jc 0%nat]))
                             (at_ w (j ++ [nth (d + 1) i 0%nat; nth d jc 0%nat]))
             | None => zero
             end) (indices (k ++ [c]))))).

(** The channels_first operations are the channels_last ones on the rearranged
    tensor. *)
Definition in_format (fmt : string) (f : tensor A -> result (tensor A)) (x : tensor A)
  : result (tensor A) :=
  if String.eqb fmt "channels_last" then f x
  else x <- moveaxis x 1 (-1) ;; y <- f x ;; moveaxis y (-1) 1.

(** BaseConv.call and BaseConvTranspose.call: convolution, bias, activation.  The
    bias is reshaped with [filters] and added along the channel axis (when the
    sizes differ TensorFlow raises; the broadcast of a single filter is not
    modelled).  The activation is an entry-wise function. *)
Definition add_bias (fmt : string) (filters : nat) (bias : option (tensor A)) (y : tensor A)
  : result (tensor A) :=
  match bias with
  | None => Ok y
  | Some b =>
      b <- reshape b [Z.of_nat filters] ;;
      let ch := if String.eqb fmt "channels_last" then rank y - 1 else 1 in
      guard (nth ch (shape y) 0 =? filters)%nat else BackendError ;;
      Ok (tab (shape y) (fun i => add (at_ y i) (at_ b [nth ch i 0%nat])))
  end.

Definition base_conv_call (transpose : bool) (fmt : string) (strides dil : list nat)
  (padding : string) (filters : nat) (activation : A -> A)
  (kernel : tensor A) (bias : option (tensor A)) (x : tensor A) : result (tensor A) :=
  y <- in_format fmt (fun x => if transpose then conv_transpose_last x kernel strides dil padding
                               else conv_last x kernel strides dil padding) x ;;
  y <- add_bias fmt filters bias y ;;
  Ok (tmap activation y).

(** [ops.max_pool] / [ops.average_pool], channels_last: the windows of a
    convolution; positions outside the input are ignored ('same'). [f] is the
    maximum or the mean of a list of values. *)
Definition pool_src (n s before p j : nat) : option nat :=
  let q := p * s + j in
  if ((before <=? q) && (q - before <? n))%nat then Some (q - before)%nat else None.

Fixpoint pool_srcs (n s before p j : list nat) : option (list nat) :=
  match n, s, before, p, j with
  | n :: n', s :: s', b :: b', p :: p', j :: j' =>
      match pool_src n s b p j, pool_srcs n' s' b' p' j' with
      | Some i, Some i' => Some (i :: i')
      | _, _ => None
      end
  | _, _, _, _, _ => Some []
  end.

Definition keep_some {B} (l : list (option B)) : list B :=
  flat_map (fun o => match o with Some b => [b] | None => [] end) l.

Definition pool_last (f : list A -> A) (x : tensor A) (k strides : list nat) (padding : string)
  : result (tensor A) :=
  let d := List.length strides in
  guard (rank x =? d + 2)%nat && (List.length k =? d)%nat else ValueError ;;
  guard mem_str (lower padding) ["valid"; "same"] else ValueError ;;
  let n := spatial d (shape x) in
  let pads := builtin_pads (lower padding) n k strides in
  let np := map (fun q => (fst (snd q) + fst q + snd (snd q))%nat) (combine n pads) in
  guard forallb (fun p => (fst p <=? snd p)%nat) (combine k np) else BackendError ;;
  let out := map (fun q => let '(n, k, s) := q in out_size n k s) (combine (combine np k) strides) in
  Ok (tab (nth 0 (shape x) 0%nat :: out ++ [nth (d + 1) (shape x) 0%nat])
          (fun i => f (keep_some (map (fun j =>
             option_map (fun q => at_ x (nth 0 i 0%nat :: q ++ [nth (d + 1) i 0%nat]))
                        (pool_srcs n strides (map fst pads) (spatial d i) j)) (indices k))))).

Definition pool_op (f : list A -> A) (fmt : string) (x : tensor A) (k strides : list nat)
  (padding : string) : result (tensor A) :=
  in_format fmt (fun x => pool_last f x k strides padding) x.

(** GlobalMaxPooling / GlobalAveragePooling: reduction over all spatial positions.
    [keepdims] keeps spatial axes of size 1. *)
Definition global_pool_last (f : list A -> A) (keepdims : bool) (d : nat) (x : tensor A)
  : result (tensor A) :=
  guard (rank x =? d + 2)%nat else ValueError ;;
  let n := spatial d (shape x) in
  let c := nth (d + 1) (shape x) 0%nat in
  Ok (tab (nth 0 (shape x) 0%nat :: (if keepdims then repeat 1%nat d else []) ++ [c])
          (fun i => f (map (fun j => at_ x (nth 0 i 0%nat :: j ++ [last i 0%nat])) (indices n)))).

Definition global_pool_first (f : list A -> A) (keepdims : bool) (d : nat) (x : tensor A)
  : result (tensor A) :=
  guard (rank x =? d + 2)%nat else ValueError ;;
  let n := skipn 2 (shape x) in
  Ok (tab (firstn 2 (shape x) ++ (if keepdims then repeat 1%nat d else []))
          (fun i => f (map (fun j => at_ x (firstn 2 i ++ j)) (indices n)))).

Definition global_pool (f : list A -> A) (fmt : string) (keepdims : bool) (d : nat) (x : tensor A) :=
  if String.eqb fmt "channels_last" then global_pool_last f keepdims d x
  else global_pool_first f keepdims d x.

End Conv.

(** [compute_conv_output_shape]: the shape Keras computes for a convolution of a
    given (static) input shape; it only rejects negative sizes.  Unknown sizes stay
    unknown. *)
Definition conv_out_z (padding : string) (n k s : nat) : Z :=
  if String.eqb padding "same" then ((Z.of_nat n - 1) / Z.of_nat s + 1)%Z
  else ((Z.of_nat n - Z.of_nat k) / Z.of_nat s + 1)%Z.

Definition keras_conv_output_shape (transpose : bool) (fmt padding : string) (filters : nat)
  (k strides dil : list nat) (input : sshape) : result sshape :=
  let last := String.eqb fmt "channels_last" in
  guard (List.length input =? List.length k + 2)%nat else ValueError ;;
  let n := if last then firstn (List.length k) (skipn 1 input) else skipn 2 input in
  let ke := vzip dilated k dil in
  let size n k s := if transpose then Z.of_nat (transpose_size padding n k s) else conv_out_z padding n k s in
  let outz := map (fun q => let '(o, k, s) := q in option_map (fun n => size n k s) o) (combine (combine n ke) strides) in
  guard forallb (fun o => match o with Some z => (0 <=? z)%Z | None => true end) outz else ValueError ;;
  let out := map (option_map Z.to_nat) outz in
  Ok (if last then nth 0 input None :: out ++ [Some filters]
      else nth 0 input None :: Some filters :: out).
