(** Vocabulary for stacks of layers (a Keras Sequential model). *)
From Verif Require Export EquivSpec PoolSpec.
Local Open Scope string_scope.
Local Open Scope list_scope.

(** The name under which the subgroup [H] of the group [name] is listed. *)
Definition subgroup_name (name H : string) : string := if String.eqb H "" then name else H.

(** Layers called one after the other. *)
Fixpoint run {A} (layers : list (tensor A -> result (tensor A))) (x : tensor A) : result (tensor A) :=
  match layers with
  | [] => Ok x
  | f :: rest => match f x with Ok y => run rest y | Err e => Err e end
  end.

Section Stacks.
Context {A : Type} {RA : Arith A} {PA : Pool A}.

(** A group convolution that C22 applies to, for input signals of shape (., m, g, c). *)
Definition convolution_stage (name H : string) (m : list nat) (g c : nat) (call : tensor A -> result (tensor A)) : Prop :=
  exists G (a : conv_args A) bs kinit binit L k s,
    layer_for name G a /\ ca_subgroup a = Some H /\ ca_allow a = false /\
    built (dimension_of name) false a (bs :: map Some m ++ [Some g; Some c]) kinit binit L /\
    sizes (dimension_of name) a k s (repeat 1 (dimension_of name)) /\ respects name s /\
    call = apply L.

(** The same for a lifting convolution (C21). *)
Definition lifting_stage (name H : string) (m : list nat) (c : nat) (call : tensor A -> result (tensor A)) : Prop :=
  exists G (a : conv_args A) bs kinit binit L k s,
    layer_for name G a /\ ca_subgroup a = Some H /\ ca_allow a = false /\
    built (dimension_of name) false a (bs :: map Some m ++ [Some c]) kinit binit L /\
    sizes (dimension_of name) a k s (repeat 1 (dimension_of name)) /\ respects name s /\
    call = apply L.

(** A pooling layer that C32 or C33 applies to. *)
Definition pooling_stage (name H : string) (m : list nat) (g c : nat) (call : tensor A -> result (tensor A)) : Prop :=
  exists G t a opt bs L k s,
    order_irrelevant (pool_fun (A := A) t) /\ pooling_for name G a /\ pa_subgroup a = Some H /\ pool_option a opt /\
    pooling_built (dimension_of name) t a (bs :: map Some m ++ [Some g; Some c]) L /\
    pool_sizes (dimension_of name) a k s /\ respects name k /\ respects name s /\
    pa_allow a = false /\
    (if pa_strides a then
       opt = "SAME_EQUIV" -> forall ax, ax < dimension_of name -> Nat.Even (rows_added (nth ax m 0) (nth ax k 0) (nth ax s 0))
     else
       forall ax, ax < dimension_of name ->
         if mem_str opt ["SAME"; "SAME_EQUIV"]
         then Nat.Odd (nth ax k 0) /\ Nat.Even (rows_added (nth ax m 0) (nth ax k 0) (nth ax k 0))
         else nth ax m 0 mod nth ax k 0 = 0) /\
    call = pool_call L.

(** [stack name x layers last]: called on the signal [x] on the group [name], every
    layer of the list is a convolution or pooling layer for the group that the layer
    before it produces, built for the signals that it gets; the output is a signal on
    the group [last]. *)
Inductive stack : string -> tensor A -> list (tensor A -> result (tensor A)) -> string -> Prop :=
| stack_end name x : stack name x [] name
| stack_layer name H x b m g c call y rest last :
    List.length m = dimension_of name -> wf x -> shape x = b :: m ++ [g; c] ->
    convolution_stage name H m g c call \/ pooling_stage name H m g c call ->
    call x = Ok y ->
    stack (subgroup_name name H) y rest last ->
    stack name x (call :: rest) last.

End Stacks.
