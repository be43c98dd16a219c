(** Vocabulary for networks with branches: besides GroCo's layers they contain layers
    that treat all positions alike, and sums or concatenations of branches. *)
From Coq Require Import Permutation.
From Verif Require Export StackSpec.
Local Open Scope string_scope.
Local Open Scope list_scope.

Section Networks.
Context {A : Type} {RA : Arith A} {PA : Pool A}.

(** The channels of [x] at the position [p] (all axes but the last). *)
Definition channels_at (x : tensor A) (p : list nat) : list A :=
  map (fun q => at_ x (p ++ [q])) (seq 0 (last (shape x) 0)).

(** Keras layers that compute the [o] channels of every position from the channels of two
    tensors at the same position: Add, Multiply and Concatenate (along the channels), and,
    applied to one tensor twice, activations, Dense, batch normalisation at inference
    time, softmax over the channels.  The sizes of the other axes must agree. *)
Definition position_wise (phi : list A -> list A -> list A) (o : nat) (x y : tensor A) : result (tensor A) :=
  if list_eqb Nat.eqb (removelast (shape x)) (removelast (shape y))
  then Ok (tab (removelast (shape x) ++ [o])
               (fun i => nth (last i 0) (phi (channels_at x (removelast i)) (channels_at y (removelast i))) zero))
  else Err ValueError.

(** [f] and then [g] *)
Definition followed_by (f g : tensor A -> result (tensor A)) (x : tensor A) : result (tensor A) :=
  match f x with Ok y => g y | Err e => Err e end.

(** Two branches, combined. *)
Definition branches (phi : list A -> list A -> list A) (o : nat) (f g : tensor A -> result (tensor A)) (x : tensor A)
  : result (tensor A) :=
  match f x, g x with
  | Ok y, Ok z => position_wise phi o y z
  | Err e, _ => Err e
  | _, Err e => Err e
  end.

(** The channels of sample [bi] at all its positions, group elements included. *)
Definition sample_values (x : tensor A) (bi : nat) : list (list A) :=
  map (fun p => channels_at x (bi :: p)) (indices (removelast (tl (shape x)))).

(** Layers that compute the channels of every position from the channels at that position
    and from what they gather of the whole sample and the whole batch: batch normalisation
    in training, instance and group normalisation, squeeze and excitation. *)
Definition with_statistics (phi : list (list (list A)) -> list (list A) -> list A -> list A) (o : nat) (x : tensor A)
  : result (tensor A) :=
  Ok (tab (removelast (shape x) ++ [o])
          (fun i => nth (last i 0) (phi (map (sample_values x) (seq 0 (hd 0 (shape x)))) (sample_values x (hd 0 i)) (channels_at x (removelast i))) zero)).

(** What is gathered does not depend on the order in which the positions of a sample are
    visited. *)
Definition statistics (phi : list (list (list A)) -> list (list A) -> list A -> list A) : Prop :=
  forall batch batch' sample sample' v, Forall2 (@Permutation (list A)) batch batch' -> Permutation sample sample' ->
    phi batch sample v = phi batch' sample' v.

(** [network grid name x call last]: [call] is a network whose input is [x], a signal on the
    group [name] or, if [grid], a signal on the grid, and whose output is a signal on
    the group [last].  It begins with the input itself or a lifting convolution; every
    layer is built for the signals that it gets. *)
Inductive network : bool -> string -> tensor A -> (tensor A -> result (tensor A)) -> string -> Prop :=
| net_input name G x b m c :
    dict_get group_dict name = Ok G ->
    List.length m = dimension_of name -> wf x -> shape x = b :: m ++ [g_order G; c] ->
    network false name x Ok name
| net_lift name H x b m c call :
    List.length m = dimension_of name -> wf x -> shape x = b :: m ++ [c] -> lifting_stage name H m c call ->
    network true name x call (subgroup_name name H)
| net_layer grid name x net mid H y b m g c call :
    network grid name x net mid -> net x = Ok y ->
    List.length m = dimension_of mid -> wf y -> shape y = b :: m ++ [g; c] ->
    convolution_stage mid H m g c call \/ pooling_stage mid H m g c call ->
    network grid name x (followed_by net call) (subgroup_name mid H)
| net_branches grid name x net net' last phi o :
    network grid name x net last -> network grid name x net' last ->
    network grid name x (branches phi o net net') last
| net_statistics grid name x net last phi o :
    network grid name x net last -> statistics phi ->
    network grid name x (followed_by net (with_statistics phi o)) last.

(** The transformed inputs of a network. *)
Definition transforms_of_input (grid : bool) (G : group) (d : nat) (H : string) (x : tensor A) : result (tensor A) :=
  if grid then transforms_of_grid_signal G d H x else transforms_of_group_signal G d H "" x.

End Networks.
