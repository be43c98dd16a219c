(** Models that are made by calling layers on symbolic tensors: keras.Sequential and the
    functional API.  Keras builds every layer with the shape of its symbolic input.  The
    shape of the symbolic output is what [compute_output_shape] returns if the layer
    overrides it, as the convolution layers do (conv2d.py:83-86, conv2d_transpose.py:81-84,
    conv3d.py, conv3d_transpose.py); otherwise Keras traces [call], as for the pooling
    layers (pooling.py:60-64).  This is Layer.compute_output_spec and Layer.__call__ of
    Keras 3.  Afterwards the built layers are called on tensors, one after the other. *)
From Verif Require Export Layers.
Local Open Scope string_scope.

Section Sequential.
Context {A : Type} {RA : Arith A} {PA : Pool A}.

(** The arguments of a layer; the initial weights are arguments as well. *)
Inductive layer_spec : Type :=
| Convolution (transpose : bool) (a : conv_args A) (kinit binit : list nat -> A)
| Pooling (pool_type : string) (a : pool_args).

Inductive model_layer : Type :=
| ConvolutionLayer (L : conv_layer A)
| PoolingLayer (L : pool_layer).

(** Construct and build one layer. *)
Definition layer_built (dims : nat) (p : layer_spec) (input_shape : sshape) : result model_layer :=
  match p with
  | Convolution tr a kinit binit =>
      L <- conv_init dims tr a ;; L <- conv_build L input_shape kinit binit ;; Ok (ConvolutionLayer L)
  | Pooling t a => L <- pool_init dims t a ;; L <- pool_build L input_shape ;; Ok (PoolingLayer L)
  end.

Definition layer_call (l : model_layer) (x : tensor A) : result (tensor A) :=
  match l with
  | ConvolutionLayer L => snd (conv_apply L x)
  | PoolingLayer L => pool_call L x
  end.

Fixpoint known_sizes (s : sshape) : result (list nat) :=
  match s with
  | [] => Ok []
  | Some n :: s => l <- known_sizes s ;; Ok (n :: l)
  | None :: _ => Err ValueError
  end.

(** The shape of the symbolic output.  A traced call sees a tensor of which all sizes but
    the batch size are known (shapes with further unknown sizes are left out); for the
    batch size any number serves. *)
Definition symbolic_shape (l : model_layer) (input_shape : sshape) : result sshape :=
  match l with
  | ConvolutionLayer L => conv_compute_output_shape L
  | PoolingLayer L =>
      match input_shape with
      | [] => Err ValueError
      | batch :: rest =>
          sizes <- known_sizes rest ;;
          y <- pool_call L (tab (1 :: sizes)%nat (fun _ => zero)) ;;
          Ok (batch :: map Some (tl (shape y)))
      end
  end.

(** keras.Sequential([Input(shape), layers...]) *)
Fixpoint sequential (dims : nat) (specs : list layer_spec) (input_shape : sshape) : result (list model_layer) :=
  match specs with
  | [] => Ok []
  | p :: specs =>
      l <- layer_built dims p input_shape ;;
      s <- symbolic_shape l input_shape ;;
      ls <- sequential dims specs s ;;
      Ok (l :: ls)
  end.

(** Calling the model. *)
Fixpoint model_call (ls : list model_layer) (x : tensor A) : result (tensor A) :=
  match ls with
  | [] => Ok x
  | l :: ls => y <- layer_call l x ;; model_call ls y
  end.

(** The same layers called on a tensor without a model around them: each one is built
    when it is called. *)
Fixpoint call_layers (dims : nat) (specs : list layer_spec) (x : tensor A) : result (tensor A) :=
  match specs with
  | [] => Ok x
  | p :: specs =>
      l <- layer_built dims p (map Some (shape x)) ;;
      y <- layer_call l x ;;
      call_layers dims specs y
  end.
End Sequential.
Arguments layer_spec A : clear implicits.
Arguments model_layer A : clear implicits.
