(** Vocabulary for networks that go to subgroups and back: encoders and decoders with
    transposed convolutions and skip connections. *)
From Verif Require Export NetSpec Properties_Conv.
Local Open Scope string_scope.
Local Open Scope list_scope.

Section Graphs.
Context {A : Type} {RA : Arith A} {PA : Pool A}.

(** Signals on the grid ([None]) or on a library group. *)
Definition is_signal (d : nat) (dom : option string) (x : tensor A) : Prop :=
  wf x /\ exists b m c, List.length m = d /\
    shape x = b :: m ++ match dom with Some name => [List.length (symmetries_of name); c] | None => [c] end.

(** [transform_of e dom x gx]: [gx] is the signal [x] transformed by the element, of a group
    in the library, that performs the symmetry [e]. *)
Inductive transform_of (e : symmetry) : option string -> tensor A -> tensor A -> Prop :=
| transform_of_grid name G u x T :
    dict_get group_dict name = Ok G -> nth_error (symmetries_of name) u = Some e ->
    transforms_of_grid_signal G (dimension_of name) "" x = Ok T ->
    transform_of e None x (slice 0 u T)
| transform_of_group name G u x T :
    dict_get group_dict name = Ok G -> nth_error (symmetries_of name) u = Some e ->
    transforms_of_group_signal G (dimension_of name) "" "" x = Ok T ->
    transform_of e (Some name) x (slice 0 u T).

(** A transposed convolution that C27 applies to, from signals on the subgroup [H] (of
    shape (., m, g, c)) to signals on the group [up]. *)
Definition transposed_stage (up H : string) (m : list nat) (g c : nat) (call : tensor A -> result (tensor A)) : Prop :=
  exists G (a : conv_args A) opt bs kinit binit L k s,
    layer_for up G a /\ ca_subgroup a = Some H /\ option_of a opt /\
    built (dimension_of up) true a (bs :: map Some m ++ [Some g; Some c]) kinit binit L /\
    sizes (dimension_of up) a k s (repeat 1 (dimension_of up)) /\ respects up s /\
    regular_transposed (dimension_of up) opt m k s /\ call = apply L.

(** The same from the grid. *)
Definition transposed_lifting_stage (up : string) (m : list nat) (c : nat) (call : tensor A -> result (tensor A)) : Prop :=
  exists G (a : conv_args A) H opt bs kinit binit L k s,
    layer_for up G a /\ ca_subgroup a = Some H /\ option_of a opt /\
    built (dimension_of up) true a (bs :: map Some m ++ [Some c]) kinit binit L /\
    sizes (dimension_of up) a k s (repeat 1 (dimension_of up)) /\ respects up s /\
    regular_transposed (dimension_of up) opt m k s /\ call = apply L.

(** [graph d x first net dom groups]: [net] is a network whose input is [x], a signal on [first],
    and whose output is a signal on [dom]; [groups] are the groups that its layers lead
    to, except those to which transposed convolutions return. *)
Inductive graph (d : nat) (x : tensor A) (first : option string)
  : (tensor A -> result (tensor A)) -> option string -> list string -> Prop :=
| graph_input : is_signal d first x -> graph d x first Ok first []
| graph_lift net gs y b m c name H call :
    graph d x first net None gs -> net x = Ok y ->
    dimension_of name = d -> List.length m = d -> shape y = b :: m ++ [c] -> respects name m ->
    lifting_stage name H m c call ->
    graph d x first (followed_by net call) (Some (subgroup_name name H)) (subgroup_name name H :: gs)
| graph_layer net gs y b m g c name H call :
    graph d x first net (Some name) gs -> net x = Ok y ->
    dimension_of name = d -> List.length m = d -> shape y = b :: m ++ [g; c] ->
    convolution_stage name H m g c call \/ pooling_stage name H m g c call ->
    graph d x first (followed_by net call) (Some (subgroup_name name H)) (subgroup_name name H :: gs)
| graph_transposed net gs y b m g c up H call :
    graph d x first net (Some (subgroup_name up H)) gs -> net x = Ok y ->
    dimension_of up = d -> List.length m = d -> shape y = b :: m ++ [g; c] -> respects up m ->
    transposed_stage up H m g c call ->
    graph d x first (followed_by net call) (Some up) gs
| graph_transposed_lift net gs y b m c up call :
    graph d x first net None gs -> net x = Ok y ->
    dimension_of up = d -> List.length m = d -> shape y = b :: m ++ [c] -> respects up m ->
    transposed_lifting_stage up m c call ->
    graph d x first (followed_by net call) (Some up) (up :: gs)
| graph_branches net gs net' gs' dom phi o :
    graph d x first net dom gs -> graph d x first net' dom gs' ->
    graph d x first (branches phi o net net') dom (gs ++ gs')
| graph_statistics net gs dom phi o :
    graph d x first net dom gs -> statistics phi ->
    graph d x first (followed_by net (with_statistics phi o)) dom gs.

End Graphs.
