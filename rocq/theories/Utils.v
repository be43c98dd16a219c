(** Model of /repo/groco/utils/tensor_manips.py. *)
From Verif Require Export Tensor.

(** Static shapes: an entry is [None] when the size is unknown at tracing time
    (in practice the batch size). *)
Definition sshape := list (option nat).

(** tensor_manips.py:4-19 [get_index_tensor]: [arange(size)] reshaped to the
    shape of the argument. *)
Definition get_index_tensor {A} (t : tensor A) : result (tensor nat) :=
  reshape (arange (size t)) (map Z.of_nat (shape t)).

(** tensor_manips.py:22-38 [move_axis_to_left_of] *)
Definition move_axis_to_left_of {A} {ZA : Zero A} (t : tensor A) (moved target : Z)
  : result (tensor A) :=
  let target := if (moved <? target)%Z then (target - 1)%Z else target in
  moveaxis t moved target.

(** tensor_manips.py:116-128 [format_batch_dim] *)
Definition format_batch_dim (s : sshape) : list Z :=
  map (fun o => match o with Some n => Z.of_nat n | None => (-1)%Z end) s.

(** tensor_manips.py:58-74 [split_shapes].  [shape[split_axis] //= factor]
    raises TypeError on None and ZeroDivisionError on 0. *)
Definition split_shapes (s : sshape) (factor : nat) (split_axis : Z) : result sshape :=
  o <- py_nth s split_axis ;;
  match o with
  | None => Err TypeError
  | Some n =>
      guard negb (factor =? 0) else ZeroDivisionError ;;
      s' <- py_set s split_axis (Some (n / factor)) ;;
      Ok (py_upto s' split_axis ++ [Some factor] ++ py_from s' split_axis)
  end.

(** tensor_manips.py:41-55 [split_axes].  The static shape is a separate
    argument because it may hide the batch size. *)
Definition split_axes_st {A} (st : sshape) (t : tensor A) (left_size : nat) (right_axis : Z)
  : result (tensor A) :=
  s <- split_shapes st left_size right_axis ;;
  reshape t (format_batch_dim s).

Definition split_axes {A} (t : tensor A) (left_size : nat) (right_axis : Z) : result (tensor A) :=
  split_axes_st (map Some (shape t)) t left_size right_axis.

(** tensor_manips.py:97-113 [merge_shapes].  [None * n] raises TypeError. *)
Definition merge_shapes (s : sshape) (merged_axis target_axis : Z) : result sshape :=
  ot <- py_nth s target_axis ;;
  om <- py_nth s merged_axis ;;
  match ot, om with
  | Some a, Some b => s' <- py_set s target_axis (Some (a * b)) ;; py_pop s' merged_axis
  | _, _ => Err TypeError
  end.

(** tensor_manips.py:77-94 [merge_axes] *)
Definition merge_axes_st {A} {ZA : Zero A} (st : sshape) (t : tensor A)
  (merged_axis target_axis : Z) : result (tensor A) :=
  s <- merge_shapes st merged_axis target_axis ;;
  t' <- move_axis_to_left_of t merged_axis target_axis ;;
  reshape t' (format_batch_dim s).

Definition merge_axes {A} {ZA : Zero A} (t : tensor A) (merged_axis target_axis : Z)
  : result (tensor A) :=
  merge_axes_st (map Some (shape t)) t merged_axis target_axis.
