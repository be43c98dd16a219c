(** What the groups of GroCo are supposed to be, independently of the code.

    A symmetry of a [d]-dimensional pixel grid is a signed permutation of the
    axes.  It is written as a list with one entry per axis [m] of the original
    signal: the axis of the transformed signal along which original axis [m]
    is found, and whether that axis is reversed. *)
From Verif Require Export TensorFacts Group.

Definition symmetry := list (nat * bool).

(** Pixel of the original signal (of size [n]) that is shown at pixel [i] of
    the transformed signal. *)
Definition pixel (e : symmetry) (n i : list nat) : list nat :=
  map (fun q => let '(m, (p, r)) := q in
                if (r : bool) then nth m n 0 - 1 - nth p i 0 else nth p i 0)
      (combine (seq 0 (List.length e)) e).

(** Size of the transformed signal: axis [p] of the result has the size of the
    original axis found there. [fits e n]: the size does not change. *)
Definition fits (e : symmetry) (n : list nat) : Prop :=
  forall m, m < List.length e -> nth (fst (nth m e (0, false))) n 0 = nth m n 0.

(** A signal usually has more axes than the spatial ones.  [sp] lists the
    spatial axes; the other axes are not touched. *)
Definition gather (sp i : list nat) : list nat := map (fun a => nth a i 0) sp.

Fixpoint scatter (sp v i : list nat) : list nat :=
  match sp, v with
  | a :: sp', x :: v' => upd a x (scatter sp' v' i)
  | _, _ => i
  end.

Definition pixel_at (e : symmetry) (sp s i : list nat) : list nat :=
  scatter sp (pixel e (gather sp s) (gather sp i)) i.

(** The transformed signal. *)
Definition transformed {A} {ZA : Zero A} (e : symmetry) (sp : list nat) (x : tensor A) : tensor A :=
  tab (shape x) (fun i => at_ x (pixel_at e sp (shape x) i)).

(** Signed permutations in [d] dimensions. *)
Definition is_symmetry (d : nat) (e : symmetry) : Prop :=
  List.length e = d /\ (forall p, p < d -> In p (map fst e)).

(** "first [b], then [a]" *)
Definition after (a b : symmetry) : symmetry :=
  map (fun q => let '(p, r) := q in let '(p', r') := nth p a (0, false) in (p', xorb r r')) b.

Definition identity (d : nat) : symmetry := map (fun m => (m, false)) (seq 0 d).

(** Slice [g] along axis [k] of a tensor. *)
Definition slice {A} {ZA : Zero A} (k g : nat) (t : tensor A) : tensor A :=
  tab (remove_at k (shape t)) (fun i => at_ t (insert_at k g i)).

(** Number of axis [a] after axis [k] has been removed. *)
Definition without (k a : nat) : nat := if k <? a then a - 1 else a.

(** The tables of a [Group] object: [composition[a][b]] and [inverses[a]]. *)
Definition comp (G : group) (a b : nat) : nat := at_ (g_composition G) [a; b].
Definition inv (G : group) (a : nat) : nat := nth a (g_inverses G) 0.

(** Determinant +1: an even number of reversals and inversions. *)
Fixpoint inversions (l : list nat) : nat :=
  match l with
  | [] => 0
  | x :: l' => List.length (filter (fun y => y <? x) l') + inversions l'
  end.

Definition proper (e : symmetry) : bool :=
  Nat.even (inversions (map fst e) + List.length (filter snd e)).

(** Elementary symmetries of the plane (axis 0 = height, axis 1 = width). *)
Definition id2 : symmetry := [(0, false); (1, false)].
Definition reverse_h : symmetry := [(0, true); (1, false)].
Definition reverse_w : symmetry := [(0, false); (1, true)].
Definition reverse_hw : symmetry := [(0, true); (1, true)].
Definition swap_hw : symmetry := [(1, false); (0, false)].
(** quarter turn: one step anticlockwise, height pointing down *)
Definition quarter : symmetry := [(1, false); (0, true)].

(** The symmetries of the wallpaper groups in the order of their elements. *)
Fixpoint quarters (j : nat) : symmetry :=
  match j with 0 => id2 | S j' => after quarter (quarters j') end.

Definition P1_symmetries := [id2].
Definition P2_symmetries := [id2; quarters 2].
Definition PMw_symmetries := [id2; reverse_w].
Definition PMh_symmetries := [id2; reverse_h].
Definition P2MM_symmetries := [id2; reverse_w; reverse_h; after reverse_h reverse_w].
Definition P4_symmetries := map quarters [0; 1; 2; 3].
Definition P4M_symmetries :=
  map quarters [0; 1; 2; 3] ++ map (fun j => after (quarters j) reverse_w) [0; 1; 2; 3].

(** In three dimensions an element is a set of reversed axes followed by a
    permutation [p] (axis [m] of the result is axis [p[m]] of the original). *)
Definition reversed_then_permuted (p flips : list nat) : symmetry :=
  map (fun m => (index_of m p, mem m flips)) [0; 1; 2].

Definition Oh_symmetries : list symmetry :=
  flat_map (fun p => map (reversed_then_permuted p)
                         [[]; [1; 2]; [0; 2]; [0; 1]; [2]; [1]; [0]; [0; 1; 2]])
           [[0; 1; 2]; [1; 2; 0]; [2; 0; 1]; [0; 2; 1]; [2; 1; 0]; [1; 0; 2]].

Definition third_axis_kept (e : symmetry) : bool := fst (nth 2 e (0, false)) =? 2.

(** Rotations of the cube; all symmetries, and rotations, that keep the third axis. *)
Definition O_symmetries := filter proper Oh_symmetries.
Definition D4h_symmetries := filter third_axis_kept Oh_symmetries.
Definition D4_symmetries := filter proper D4h_symmetries.

(** The symmetries and the dimension belonging to each group name. *)
Local Open Scope string_scope.
Definition symmetry_dict : list (string * list symmetry) :=
  [("P1", P1_symmetries); ("P2", P2_symmetries); ("PMw", PMw_symmetries);
   ("PMh", PMh_symmetries); ("P2MM", P2MM_symmetries); ("P4", P4_symmetries);
   ("P4M", P4M_symmetries);
   ("Oh", Oh_symmetries); ("O", O_symmetries); ("D4h", D4h_symmetries); ("D4", D4_symmetries)].
Local Close Scope string_scope.

Definition symmetries_of (name : string) : list symmetry :=
  match dict_get symmetry_dict name with Ok l => l | Err _ => [] end.

Definition dimension_of (name : string) : nat :=
  List.length (nth 0 (symmetries_of name) []).

(** A group on [0 .. n-1] with identity 0. *)
Record is_group (n : nat) (op : nat -> nat -> nat) (inv : nat -> nat) : Prop := {
  group_nonempty : 0 < n;
  group_closed : forall a b, a < n -> b < n -> op a b < n;
  group_assoc : forall a b c, a < n -> b < n -> c < n -> op a (op b c) = op (op a b) c;
  group_id_l : forall a, a < n -> op 0 a = a;
  group_id_r : forall a, a < n -> op a 0 = a;
  group_inv_closed : forall a, a < n -> inv a < n;
  group_inv_l : forall a, a < n -> op (inv a) a = 0;
  group_inv_r : forall a, a < n -> op a (inv a) = 0
}.

(** Where the spatial axes may be: distinct axes of the signal; the 3D actions
    need three consecutive ones. *)
Definition spatial_axes_ok (d : nat) (sp : list nat) (r : nat) : Prop :=
  List.length sp = d /\ NoDup sp /\ (forall a, In a sp -> a < r) /\
  (d = 3 -> exists o, sp = [o; 1 + o; 2 + o]).

Definition all_equal (l : list nat) : Prop := forall x y, In x l -> In y l -> x = y.
