(** Tensors and the Keras operations ([keras.ops]) that GroCo uses.

    This file is the semantics assumed of the external numerical library
    (keras==3.0.5, see /repo/requirements.txt); it belongs to the trusted base.
    A tensor is its shape and its entries in row-major order. *)
From Verif Require Export PyBase.

Class Zero (A : Type) := zero : A.
#[global] Instance Zero_nat : Zero nat := 0.

Record tensor (A : Type) := mkTensor { shape : list nat; data : list A }.
Arguments mkTensor {A} _ _.
Arguments shape {A} _.
Arguments data {A} _.

Definition prod (s : list nat) : nat := fold_right Nat.mul 1 s.

(** Row-major position of a multi-index. *)
Fixpoint ravel (s i : list nat) : nat :=
  match s, i with
  | _ :: s', k :: i' => k * prod s' + ravel s' i'
  | _, _ => 0
  end.

(** All multi-indices of a shape, in row-major order. *)
Fixpoint indices (s : list nat) : list (list nat) :=
  match s with
  | [] => [[]]
  | n :: s' => flat_map (fun k => map (cons k) (indices s')) (seq 0 n)
  end.

(** A multi-index within the bounds of a shape. *)
Definition inb (s i : list nat) : Prop := Forall2 lt i s.

(** A tensor holds as many entries as its shape says. *)
Definition wf {A} (t : tensor A) : Prop := List.length (data t) = prod (shape t).

Section Ops.
Context {A : Type} {ZA : Zero A}.

(** Entry of a tensor at a multi-index. *)
Definition at_ (t : tensor A) (i : list nat) : A := nth (ravel (shape t) i) (data t) zero.

(** The tensor of a given shape with given entries. *)
Definition tab (s : list nat) (f : list nat -> A) : tensor A := mkTensor s (map f (indices s)).

Definition rank (t : tensor A) : nat := List.length (shape t).

(** [ops.size] *)
Definition size (t : tensor A) : nat := prod (shape t).

(** [ops.zeros] *)
Definition zeros (s : list nat) : tensor A := tab s (fun _ => zero).

(** [ops.expand_dims(t, axis)] *)
Definition expand_dims (t : tensor A) (axis : Z) : result (tensor A) :=
  k <- norm_axis (S (rank t)) axis ;;
  Ok (mkTensor (insert_at k 1 (shape t)) (data t)).

(** [ops.flip(t, axis)] *)
Definition flip (t : tensor A) (axis : Z) : result (tensor A) :=
  k <- norm_axis (rank t) axis ;;
  let n := nth k (shape t) 0 in
  Ok (tab (shape t) (fun i => at_ t (upd k (n - 1 - nth k i 0) i))).

(** [ops.concatenate(ts, axis)]: all shapes must agree outside [axis]. *)
Fixpoint pick (ts : list (tensor A)) (k n : nat) (i : list nat) : A :=
  match ts with
  | [] => zero
  | t :: ts' =>
      let m := nth k (shape t) 0 in
      if n <? m then at_ t (upd k n i) else pick ts' k (n - m) i
  end.

Definition same_shape_except (k : nat) (s s' : list nat) : bool :=
  (List.length s =? List.length s')
  && forallb (fun p => fst p =? snd p) (combine (remove_at k s) (remove_at k s')).

Definition concatenate (ts : list (tensor A)) (axis : Z) : result (tensor A) :=
  match ts with
  | [] => Err ValueError
  | t0 :: _ =>
      k <- norm_axis (rank t0) axis ;;
      guard forallb (fun t => same_shape_except k (shape t0) (shape t)) ts else BackendError ;;
      let total := fold_right Nat.add 0 (map (fun t => nth k (shape t) 0) ts) in
      Ok (tab (upd k total (shape t0)) (fun i => pick ts k (nth k i 0) i))
  end.

(** [ops.transpose(t, axes)]: axis [m] of the result is axis [axes[m]] of [t]. *)
Definition is_perm (r : nat) (p : list nat) : bool :=
  (List.length p =? r) && forallb (fun a => mem a p) (seq 0 r).

Definition perm_src (p i : list nat) : list nat :=
  map (fun a => nth (index_of a p) i 0) (seq 0 (List.length p)).

Definition transpose (t : tensor A) (p : list nat) : result (tensor A) :=
  guard is_perm (rank t) p else BackendError ;;
  Ok (tab (map (fun a => nth a (shape t) 0) p) (fun i => at_ t (perm_src p i))).

(** [ops.moveaxis(t, source, destination)] (numpy's definition through a
    transposition: remove [source] from the axes and insert it at
    [destination]). *)
Definition moveaxis_perm (r src dst : nat) : list nat :=
  insert_at dst src (remove_at src (seq 0 r)).

Definition moveaxis (t : tensor A) (source destination : Z) : result (tensor A) :=
  s <- norm_axis (rank t) source ;;
  d <- norm_axis (rank t) destination ;;
  transpose t (moveaxis_perm (rank t) s d).

(** [ops.swapaxes(t, a, b)] *)
Definition swapaxes (t : tensor A) (a b : Z) : result (tensor A) :=
  x <- norm_axis (rank t) a ;;
  y <- norm_axis (rank t) b ;;
  transpose t (upd y x (upd x y (seq 0 (rank t)))).

(** [ops.take(t, indices, axis)] with an index tensor of any shape.  Indices
    out of range raise (TensorFlow on CPU and torch do; jax would fill). *)
Definition take (t : tensor A) (idx : tensor nat) (axis : Z) : result (tensor A) :=
  k <- norm_axis (rank t) axis ;;
  let n := nth k (shape t) 0 in
  guard forallb (fun v => v <? n) (data idx) else BackendError ;;
  let q := List.length (shape idx) in
  Ok (tab (firstn k (shape t) ++ shape idx ++ skipn (S k) (shape t))
          (fun i => at_ t (firstn k i
                           ++ nth (ravel (shape idx) (firstn q (skipn k i))) (data idx) 0
                           :: skipn (k + q) i))).

(** [ops.reshape(t, newshape)], at most one entry of [newshape] may be -1. *)
Definition resolve_shape (n : nat) (s : list Z) : result (list nat) :=
  let known := filter (fun z => negb (z =? -1)%Z) s in
  guard forallb (fun z => (0 <=? z)%Z) known else ValueError ;;
  let p := prod (map Z.to_nat known) in
  match List.length s - List.length known with
  | 0 => if p =? n then Ok (map Z.to_nat s) else Err BackendError
  | 1 => if (0 <? p) && (n mod p =? 0)
         then Ok (map (fun z => if (z =? -1)%Z then n / p else Z.to_nat z) s)
         else Err BackendError
  | _ => Err BackendError
  end.

Definition reshape (t : tensor A) (s : list Z) : result (tensor A) :=
  s' <- resolve_shape (List.length (data t)) s ;;
  Ok (mkTensor s' (data t)).

(** [ops.pad(t, pads)] with zeros; one pair (before, after) per axis. *)
Definition pad_inside (s : list nat) (pads : list (nat * nat)) (i : list nat) : bool :=
  forallb (fun q => let '(n, (b, _), v) := q in (b <=? v) && (v <? b + n))
          (combine (combine s pads) i).

Definition pad (t : tensor A) (pads : list (nat * nat)) : result (tensor A) :=
  guard (List.length pads =? rank t) else ValueError ;;
  Ok (tab (map (fun p => fst (snd p) + fst p + snd (snd p)) (combine (shape t) pads))
          (fun i => if pad_inside (shape t) pads i
                    then at_ t (map (fun p => snd p - fst (fst p)) (combine pads i))
                    else zero)).

(** Reductions over one axis with an arbitrary function of the list of entries
    along that axis; [ops.max] and [ops.mean] are instances. *)
Definition reduce (f : list A -> A) (t : tensor A) (axis : Z) : result (tensor A) :=
  k <- norm_axis (rank t) axis ;;
  let n := nth k (shape t) 0 in
  Ok (tab (remove_at k (shape t))
          (fun i => f (map (fun v => at_ t (insert_at k v i)) (seq 0 n)))).

(** Entry-wise map and zip. *)
Definition tmap {B} (f : A -> B) (t : tensor A) : tensor B := mkTensor (shape t) (map f (data t)).

(** A one-dimensional tensor from a list. *)
Definition vec (l : list A) : tensor A := mkTensor [List.length l] l.

End Ops.

(** [ops.arange(n)] *)
Definition arange (n : nat) : tensor nat := mkTensor [n] (seq 0 n).
