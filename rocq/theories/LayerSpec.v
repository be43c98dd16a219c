(** Notions used to state what the padding and convolution layers should do,
    independently of how the code computes it. *)
From Verif Require Export Spec Keras.
Local Open Scope string_scope.

(** Shapes and indices of a signal: batch, spatial axes, channel in the order of a
    data format. *)
Definition layout (fmt : string) (b : nat) (n : list nat) (c : nat) : list nat :=
  (if String.eqb fmt "channels_last" then b :: n ++ [c] else b :: c :: n)%list.

(** The same as a static shape; batch and channel sizes may be unknown. *)
Definition static_layout (fmt : string) (b : option nat) (n : list nat) (c : option nat) : sshape :=
  (if String.eqb fmt "channels_last" then b :: map Some n ++ [c] else b :: c :: map Some n)%list.

(** Position [p] lies in the box of size [n] that starts at [before]. *)
Definition inside (before n p : list nat) : bool :=
  forallb (fun q => let '(b, n, v) := q in (b <=? v)%nat && (v <? b + n)%nat) (combine (combine before n) p).

(** [y] is [x] with a border of zeros. *)
Definition zero_border {A} {ZA : Zero A} (fmt : string) (before after : list nat) (x y : tensor A) : Prop :=
  exists b n c, shape x = layout fmt b n c /\
    List.length before = List.length n /\ List.length after = List.length n /\
    shape y = layout fmt b (vzip Nat.add (vzip Nat.add before n) after) c /\
    forall bi p ci, inb (shape y) (layout fmt bi p ci) ->
      at_ y (layout fmt bi p ci) =
      if inside before n p then at_ x (layout fmt bi (vzip Nat.sub p before) ci) else zero.

(** Extra padding [e] on top of the built-in [b] of an axis of size [n] that makes
    the sampling (kernel size [k], stride [s]) end exactly at the end of the axis
    and that can be split evenly over both sides. *)
Definition admissible (n b k s e : nat) : Prop :=
  (exists q : Z, (Z.of_nat (n + b + e) - Z.of_nat k = q * Z.of_nat s)%Z) /\ Nat.Even (b + e).

Definition least (P : nat -> Prop) (e : nat) : Prop := P e /\ forall e', P e' -> e <= e'.

(** Total padding added by the backend to an axis under 'same' / 'valid'. *)
Definition backend_total (same : bool) (n k s : nat) : nat := if same then same_total n k s else 0.
Definition backend_pads (same : bool) (n k s : nat) : nat * nat :=
  if same then same_pads n k s else (0, 0).
