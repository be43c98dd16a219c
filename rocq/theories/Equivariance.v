(** Model of /repo/groco/utils/equivariance.py, and of composing layers. *)
From Verif Require Export Layers.

(** Element-wise binary operation with numpy broadcasting: shapes are aligned at
    their last axes, an axis of size one is repeated. *)
Definition lead_ones (r : nat) (s : list nat) : list nat := repeat 1 (r - List.length s) ++ s.

Definition broadcast_ok (a b : list nat) : bool :=
  forallb (fun p => (fst p =? snd p) || (fst p =? 1) || (snd p =? 1)) (combine a b).

Definition broadcast_src (s i : list nat) : list nat :=
  map (fun p => if fst p =? 1 then 0 else snd p) (combine s (skipn (List.length i - List.length s) i)).

Definition broadcast {A B} {ZA : Zero A} (f : A -> A -> B) (x y : tensor A) : result (tensor B) :=
  let r := Nat.max (rank x) (rank y) in
  let a := lead_ones r (shape x) in
  let b := lead_ones r (shape y) in
  guard broadcast_ok a b else BackendError ;;
  Ok (tab (map (fun p => if fst p =? 1 then snd p else fst p) (combine a b))
          (fun i => f (at_ x (broadcast_src (shape x) i)) (at_ y (broadcast_src (shape y) i)))).

(** |x - y| of two scalars, and the largest of a list of values. *)
Class Metric (A : Type) := { absdiff : A -> A -> A; largest : list A -> A }.

Section Check.
Context {A : Type} {ZA : Zero A} {MA : Metric A}.

(** equivariance.py:76-86 [_check_shape]; with a group axis of None the index
    [signal.shape[None]] raises TypeError. *)
Definition check_shape (signal : tensor A) (group_axis : option Z) (G : group) (sub : option string)
  : result unit :=
  match sub with
  | None => Ok tt
  | Some s =>
      idx <- dict_get (g_subgroup G) s ;;
      a <- match group_axis with Some a => Ok a | None => Err TypeError end ;;
      n <- py_nth (shape signal) a ;;
      guard (n =? List.length idx) else AssertionError ;; Ok tt
  end.

(** equivariance.py:89-95 [_act_on_batched_transform] *)
Definition act_on_batched_transform (layer : tensor A -> result (tensor A)) (g_signal : tensor A)
  : result (tensor A) :=
  match shape g_signal with
  | g :: b :: s =>
      merged <- reshape g_signal (map Z.of_nat (g * b :: s)) ;;
      out <- layer merged ;;
      reshape out (map Z.of_nat (g :: b :: skipn 1 (shape out)))
  | _ => Err ValueError
  end.

(** equivariance.py:4-73 [check_equivariance].  [layer] is a function, the state
    of the layer does not change between successful calls (C35).  The [group] read off
    from the layer when the argument is None is the argument [G] here. *)
Definition check_equivariance (layer : tensor A -> result (tensor A)) (signal : tensor A) (G : group)
  (spatial_axes : list Z) (group_axis : option Z) (acting_group domain_group target_group : option string)
  : result A :=
  let acting := parse_subgroup G acting_group in
  let domain := parse_subgroup G domain_group in
  let target := parse_subgroup G target_group in
  _ <- check_shape signal group_axis G domain ;;
  layer_signal <- layer signal ;;
  _ <- check_shape layer_signal group_axis G target ;;
  g_signal <- action G signal spatial_axes 0 group_axis acting domain ;;
  layer_g_signal <- act_on_batched_transform layer g_signal ;;
  g_layer_signal <- action G layer_signal spatial_axes 0 group_axis acting target ;;
  diffs <- broadcast absdiff layer_g_signal g_layer_signal ;;
  Ok (largest (data diffs)).

End Check.
