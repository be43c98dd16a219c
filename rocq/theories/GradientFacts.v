(** Signals whose entries are put in another order, as the elements of a group do, and
    linear functions of tensors. *)
From Coq Require Import Permutation.
From Verif Require Export LinearFacts.
From Verif Require Import Properties_Adjoint Properties_Conv EquivSpec.
Local Open Scope string_scope.
Local Open Scope list_scope.

(** A tensor of a given shape. *)
Definition of_shape {A} (s : list nat) (x : tensor A) : Prop := wf x /\ shape x = s.

(** ** Entries in another order *)

Definition reorders (s : list nat) (f : list nat -> list nat) : Prop :=
  (forall i, inb s i -> inb s (f i)) /\ (forall i j, inb s i -> inb s j -> f i = f j -> i = j).

Definition reordered {A} {ZA : Zero A} (s : list nat) (f : list nat -> list nat) (x : tensor A) : tensor A := tab s (fun i => at_ x (f i)).

(** Entry by entry: the derivative [f'] at [z] times [dy]. *)
Definition delta {A} {RA : Arith A} (f' : A -> A) (z dy : tensor A) : tensor A :=
  mkTensor (shape z) (map (fun p => mul (f' (fst p)) (snd p)) (combine (data z) (data dy))).

Section Reorder.
Context {A : Type} {RA : Arith A}.

Lemma of_shape_tab s (f : list nat -> A) : of_shape s (tab s f).
Proof. split; [apply wf_tab|apply shape_tab]. Qed.

Lemma of_shape_eq s (x : tensor A) : of_shape s x -> x = tab s (at_ x).
Proof. intros [W <-]. symmetry. apply tab_at. exact W. Qed.

Lemma delta_tab f' s (f g : list nat -> A) : delta f' (tab s f) (tab s g) = tab s (fun i => mul (f' (f i)) (g i)).
Proof. unfold delta, tab. cbn [shape data]. rewrite combine_maps, map_map. reflexivity. Qed.

Lemma delta_eq f' s (z dy : tensor A) : of_shape s z -> of_shape s dy -> delta f' z dy = tab s (fun i => mul (f' (at_ z i)) (at_ dy i)).
Proof. intros Z Y. rewrite (of_shape_eq s z Z) at 1. rewrite (of_shape_eq s dy Y) at 1. apply delta_tab. Qed.

Lemma of_shape_delta f' s (z dy : tensor A) : of_shape s z -> of_shape s dy -> of_shape s (delta f' z dy).
Proof. intros Z Y. rewrite (delta_eq f' s z dy Z Y). apply of_shape_tab. Qed.

Lemma of_shape_reordered s f (x : tensor A) : of_shape s (reordered s f x).
Proof. apply of_shape_tab. Qed.

Lemma inner_eq s (x y : tensor A) : of_shape s x -> of_shape s y -> inner x y = sum (map (fun i => mul (at_ x i) (at_ y i)) (indices s)).
Proof. intros X Y. rewrite (of_shape_eq s x X) at 1. rewrite (of_shape_eq s y Y) at 1. apply inner_tab. Qed.

Lemma delta_reordered f' s f (z dy : tensor A) : reorders s f -> of_shape s z -> of_shape s dy ->
  delta f' (reordered s f z) (reordered s f dy) = reordered s f (delta f' z dy).
Proof.
  intros [R _] Z Y. unfold reordered at 1 2. rewrite delta_tab. rewrite (delta_eq f' s z dy Z Y). apply tab_ext. intros i I.
  rewrite at_tab by (apply R; exact I). reflexivity.
Qed.

(** Putting the entries of both tensors in another order does not change the sum of the
    products. *)
Lemma inner_reordered s f (x y : tensor A) : exact_arithmetic A -> reorders s f -> of_shape s x -> of_shape s y ->
  inner (reordered s f x) (reordered s f y) = inner x y.
Proof.
  intros EX [R INJ] X Y. unfold reordered. rewrite inner_tab, (inner_eq s x y X Y).
  rewrite <- (map_map f (fun i => mul (at_ x i) (at_ y i))).
  apply sum_permutation.
  - intros u v w. rewrite !(ar_assoc EX). f_equal. apply (ar_comm EX).
  - apply Permutation_map. apply indices_injective; assumption.
Qed.

(** Every tensor arises this way. *)
Lemma reordered_onto s f (x : tensor A) : reorders s f -> of_shape s x -> exists x', of_shape s x' /\ reordered s f x' = x.
Proof.
  intros [R INJ] X.
  set (back := fun i => match List.find (fun j => list_eqb Nat.eqb (f j) i) (indices s) with Some j => j | None => [] end).
  assert (BK : forall i, inb s i -> back (f i) = i).
  { intros i I. unfold back. destruct (List.find _ _) as [j|] eqn:F.
    - apply List.find_some in F as [Ij Q]. apply (list_eqb_eq _ Nat.eqb_eq) in Q. apply INJ; [apply In_indices; exact Ij|exact I|exact Q].
    - exfalso. pose proof (List.find_none _ _ F i (proj2 (In_indices _ _) I)) as Q. cbv beta in Q.
      rewrite (proj2 (list_eqb_eq _ Nat.eqb_eq (f i) (f i)) eq_refl) in Q. discriminate Q. }
  exists (tab s (fun i => at_ x (back i))). split; [apply of_shape_tab|].
  etransitivity; [|symmetry; exact (of_shape_eq s x X)]. unfold reordered. apply tab_ext. intros i I. rewrite at_tab by (apply R; exact I). rewrite BK by exact I. reflexivity.
Qed.

(** ** Linear functions of a tensor *)

Definition unit_at (one : A) (i j : list nat) : A := if list_eqb Nat.eqb j i then one else zero.

Lemma unit_at_same one i : unit_at one i i = one.
Proof. unfold unit_at. rewrite (proj2 (list_eqb_eq _ Nat.eqb_eq i i) eq_refl). reflexivity. Qed.
Lemma unit_at_other one i j : j <> i -> unit_at one i j = zero.
Proof. intros N. unfold unit_at. destruct (list_eqb Nat.eqb j i) eqn:Q; [|reflexivity]. apply (list_eqb_eq _ Nat.eqb_eq) in Q. contradiction. Qed.

(** They are pairings with a tensor ... *)
Lemma represented one s (F : tensor A -> A) : exact_arithmetic A -> (forall v, mul one v = v) ->
  (forall s1 s2 x1 x2, of_shape s x1 -> of_shape s x2 -> F (combination s1 x1 s2 x2) = add (mul s1 (F x1)) (mul s2 (F x2))) ->
  exists dx, of_shape s dx /\ forall x, of_shape s x -> F x = inner dx x.
Proof.
  intros EX ONE LIN. exists (tab s (fun i => F (tab s (unit_at one i)))). split; [apply of_shape_tab|]. intros x X.
  rewrite (of_shape_eq s x X) at 2. rewrite inner_tab.
  set (member := fun (l : list (list nat)) i => existsb (fun j => list_eqb Nat.eqb j i) l).
  set (part := fun l => tab s (fun i => if member l i then at_ x i else zero)).
  assert (ALL : part (indices s) = x).
  { rewrite (of_shape_eq s x X). apply tab_ext. intros i I. assert (M : member (indices s) i = true).
    { unfold member. apply existsb_exists. exists i. split; [apply In_indices; exact I|apply (list_eqb_eq _ Nat.eqb_eq); reflexivity]. }
    rewrite M. reflexivity. }
  assert (MEM : forall l i, member l i = true <-> In i l).
  { intros l i. unfold member. rewrite existsb_exists. split; [intros [j [J Q]]; apply (list_eqb_eq _ Nat.eqb_eq) in Q; congruence|].
    intros I. exists i. split; [exact I|apply (list_eqb_eq _ Nat.eqb_eq); reflexivity]. }
  assert (STEP : forall l, NoDup l -> F (part l) = sum (map (fun i => mul (F (tab s (unit_at one i))) (at_ x i)) l)).
  { induction l as [|i l IH]; intros ND.
    - assert (Z : part [] = combination zero x zero x).
      { rewrite (of_shape_eq s x X), combination_tab. apply tab_ext. intros i _. rewrite !(ar_mzero EX), (ar_zero EX). reflexivity. }
      rewrite Z, (LIN _ _ _ _ X X), !(ar_mzero EX), (ar_zero EX). reflexivity.
    - apply NoDup_cons_iff in ND as [NI ND']. cbn [map]. change (sum (?h :: ?t)) with (add h (sum t)). rewrite <- IH by exact ND'.
      assert (Z : part (i :: l) = combination (at_ x i) (tab s (unit_at one i)) one (part l)).
      { unfold part at 2. rewrite combination_tab. apply tab_ext. intros j _. rewrite ONE.
        destruct (list_eqb Nat.eqb j i) eqn:Q.
        - apply (list_eqb_eq _ Nat.eqb_eq) in Q. subst j. rewrite unit_at_same.
          rewrite (proj2 (MEM (i :: l) i) (or_introl eq_refl)). destruct (member l i) eqn:M; [apply MEM in M; contradiction|].
          rewrite (sum_neutral EX), (ar_mcomm EX), ONE. reflexivity.
        - assert (N : j <> i) by (intros ->; rewrite (proj2 (list_eqb_eq _ Nat.eqb_eq i i) eq_refl) in Q; discriminate Q).
          rewrite unit_at_other by exact N. rewrite (ar_mzero_r EX), (ar_zero EX).
          assert (M : member (i :: l) j = member l j).
          { apply Bool.eq_iff_eq_true. rewrite !MEM. cbn [In]. split; [intros [->|K]; [contradiction|exact K]|auto]. }
          rewrite M. reflexivity. }
      rewrite Z, LIN by apply of_shape_tab. rewrite ONE. rewrite (ar_mcomm EX). reflexivity. }
  rewrite <- (STEP _ (NoDup_indices s)), ALL. reflexivity.
Qed.

(** ... and with only one. *)
Lemma represented_once one s (dx dx' : tensor A) : exact_arithmetic A -> (forall v, mul one v = v) ->
  of_shape s dx -> of_shape s dx' -> (forall x, of_shape s x -> inner dx x = inner dx' x) -> dx = dx'.
Proof.
  intros EX ONE X X' Q. rewrite (of_shape_eq s dx X), (of_shape_eq s dx' X'). apply tab_ext. intros i I.
  assert (V : forall y, of_shape s y -> inner y (tab s (unit_at one i)) = at_ y i).
  { intros y Y. rewrite (of_shape_eq s y Y) at 1. rewrite inner_tab.
    rewrite (sum_only EX _ _ i (NoDup_indices s) (proj2 (In_indices _ _) I)).
    - rewrite unit_at_same, (ar_mcomm EX). apply ONE.
    - intros j _ N. rewrite unit_at_other by exact N. apply (ar_mzero_r EX). }
  rewrite <- (V dx X), <- (V dx' X'). apply Q. apply of_shape_tab.
Qed.

Lemma inner_combination s (y x1 x2 : tensor A) s1 s2 : exact_arithmetic A -> of_shape s y -> of_shape s x1 -> of_shape s x2 ->
  inner y (combination s1 x1 s2 x2) = add (mul s1 (inner y x1)) (mul s2 (inner y x2)).
Proof.
  intros EX Y X1 X2. rewrite (inner_eq s y x1 Y X1), (inner_eq s y x2 Y X2).
  rewrite (of_shape_eq s y Y) at 1. rewrite (of_shape_eq s x1 X1) at 1. rewrite (of_shape_eq s x2 X2) at 1.
  rewrite combination_tab, inner_tab, <- !(sum_scale EX), <- (sum_add EX). apply sum_ext. intros i _.
  rewrite (ar_dist EX). rewrite !(ar_massoc EX), !(ar_mcomm EX (at_ y i)). reflexivity.
Qed.

Lemma of_shape_combination s (x1 x2 : tensor A) s1 s2 : of_shape s x1 -> of_shape s x2 -> of_shape s (combination s1 x1 s2 x2).
Proof. intros [W1 S1] [W2 S2]. split; [apply wf_combination; congruence|exact S1]. Qed.

(** ** Transformed signals *)

Context (G : group) (d : nat) (E : list symmetry) (eq : bool) (OK : group_ok G d E eq).
Notation n := (List.length E).
Notation sym a := (nth a E []).

(** Where element [a] reads the entry at an index. *)
Definition read_at (valued : bool) (a : nat) (m dom : list nat) : list nat -> list nat :=
  if valued then sig4 d (fun bi p h q => bi :: pixel (sym a) m p ++ [turned G a dom h; q])
  else sig3 d (fun bi p q => bi :: pixel (sym a) m p ++ [q]).

Lemma read_at_reorders valued a b m g c dom : a < n -> fit d eq m ->
  (valued = true -> stable G a dom /\ NoDup dom /\ (forall x, In x dom -> x < n) /\ g = List.length dom) ->
  reorders (signal_shape valued b m g c) (read_at valued a m dom).
Proof.
  intros Ha FM V. pose proof FM as [F L]. pose proof (ok_sym _ _ _ _ OK a Ha) as SY.
  assert (IN : forall p, inb m p -> inb m (pixel (sym a) m p)) by (intros p P; apply (pixel_in G d E eq OK); assumption).
  assert (PI : forall p p', inb m p -> inb m p' -> pixel (sym a) m p = pixel (sym a) m p' -> p = p').
  { intros p p' P P'. apply (pixel_injective d); try assumption. apply (fits_sym G d E eq OK); assumption. }
  assert (LP : forall p, inb m p -> List.length p = d) by (intros p P; rewrite (inb_length _ _ P); exact L).
  unfold signal_shape, read_at. destruct valued.
  - destruct (V eq_refl) as [ST [ND [B ->]]]. split.
    + intros i I. apply inb4_inv in I as [bi [p [h [q [-> [BI [P [Hh Q]]]]]]]]. rewrite sig4_ix by (apply LP; exact P).
      apply inb4; [exact BI|apply IN; exact P|apply turned_lt; assumption|exact Q].
    + intros i j I J. apply inb4_inv in I as [bi [p [h [q [-> [BI [P [Hh Q]]]]]]]]. apply inb4_inv in J as [bi' [p' [h' [q' [-> [BI' [P' [Hh' Q']]]]]]]].
      rewrite !sig4_ix by (apply LP; assumption). intros EE. injection EE as -> EE.
      change [turned G a dom h; q] with ([turned G a dom h] ++ [q]) in EE. change [turned G a dom h'; q'] with ([turned G a dom h'] ++ [q']) in EE.
      rewrite !app_assoc in EE. apply app_inj_tail in EE as [EE ->]. apply app_inj_tail in EE as [EE TE].
      apply PI in EE; try assumption. subst p'. apply (turned_inj G d E eq OK) in TE; try assumption. subst h'. reflexivity.
  - split.
    + intros i I. apply inb3_inv in I as [bi [p [q [-> [BI [P Q]]]]]]. rewrite sig3_ix by (apply LP; exact P).
      apply inb3; [exact BI|apply IN; exact P|exact Q].
    + intros i j I J. apply inb3_inv in I as [bi [p [q [-> [BI [P Q]]]]]]. apply inb3_inv in J as [bi' [p' [q' [-> [BI' [P' Q']]]]]].
      rewrite !sig3_ix by (apply LP; assumption). intros EE. injection EE as -> EE.
      apply app_inj_tail in EE as [EE ->]. apply PI in EE; try assumption. subst p'. reflexivity.
Qed.

(** The transformed signals, for signals on a subgroup called [K] or on the grid. *)
Definition transforms (valued : bool) (U K : string) : tensor A -> result (tensor A) :=
  if valued then transforms_of_group_signal G d U K else transforms_of_grid_signal G d U.

Definition domain_of (valued : bool) (U K : string) (idx dom : list nat) (g : nat) : Prop :=
  sub_idx G (Some U) idx /\ (valued = true -> sub_idx G (Some K) dom /\ g = List.length dom /\ forall u, In u idx -> stable G u dom).

Lemma read_at_domain valued U K idx dom g b m c u : domain_of valued U K idx dom g -> fit d eq m -> u < List.length idx ->
  reorders (signal_shape valued b m g c) (read_at valued (nth u idx 0) m dom).
Proof.
  intros [SU SD] F Hu. destruct (sub_idx_facts _ _ _ _ OK _ _ SU) as [_ [B _]].
  apply read_at_reorders; [apply B, nth_In; exact Hu|exact F|]. intros V. destruct (SD V) as [S [E2 ST]].
  destruct (sub_idx_facts _ _ _ _ OK _ _ S) as [ND [BD _]]. split; [apply ST, nth_In; exact Hu|]. split; [exact ND|]. split; [exact BD|exact E2].
Qed.

Lemma transforms_fit valued U K idx dom g b m c x gx : domain_of valued U K idx dom g -> List.length m = d ->
  of_shape (signal_shape valued b m g c) x -> transforms valued U K x = Ok gx -> fit d eq m.
Proof.
  intros [SU SD] L [W SH] R. unfold transforms, signal_shape in *. destruct valued.
  - destruct (SD eq_refl) as [S [E2 ST]]. rewrite (tensor_sig4 d b m g c x W L SH) in R.
    destruct (group_slices G d E eq OK b m g c (fun4 x) (Some U) (Some K) idx dom gx SU S E2 L ST R) as [F _]. exact F.
  - rewrite (tensor_sig3 d b m c x W L SH) in R.
    destruct (grid_slices G d E eq OK b m c (fun3 x) None (Some U) idx gx SU L R) as [F _]. exact F.
Qed.

Lemma transforms_ok valued U K idx dom g b m c x : domain_of valued U K idx dom g -> fit d eq m ->
  of_shape (signal_shape valued b m g c) x ->
  exists gx, transforms valued U K x = Ok gx /\ shape gx = List.length idx :: signal_shape valued b m g c /\
    forall u, u < List.length idx -> slice 0 u gx = reordered (signal_shape valued b m g c) (read_at valued (nth u idx 0) m dom) x.
Proof.
  intros [SU SD] F [W SH]. pose proof F as [_ L]. unfold transforms, signal_shape, read_at in *. destruct valued.
  - destruct (SD eq_refl) as [S [E2 ST]].
    destruct (group_slices_ok G d E eq OK b m g c (fun4 x) (Some U) (Some K) idx dom SU S E2 F ST) as [gx [R [SG SL]]].
    rewrite <- (tensor_sig4 d b m g c x W L SH) in R. exists gx. split; [exact R|]. split; [exact SG|]. intros u Hu. rewrite (SL u Hu).
    unfold reordered. apply tab_ext. intros i I. apply inb4_inv in I as [bi [p [h [q [-> [_ [P _]]]]]]].
    rewrite !sig4_ix by (rewrite (inb_length _ _ P); exact L). reflexivity.
  - destruct (grid_slices_ok G d E eq OK b m c (fun3 x) None (Some U) idx SU F) as [gx [R [SG SL]]].
    rewrite <- (tensor_sig3 d b m c x W L SH) in R. exists gx. split; [exact R|]. split; [exact SG|]. intros u Hu. rewrite (SL u Hu).
    unfold reordered. apply tab_ext. intros i I. apply inb3_inv in I as [bi [p [q [-> [_ [P _]]]]]].
    rewrite !sig3_ix by (rewrite (inb_length _ _ P); exact L). reflexivity.
Qed.

End Reorder.
