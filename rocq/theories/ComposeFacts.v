(** Two convolutions in a row are one convolution. *)
From Coq Require Import Permutation.
From Verif Require Import ExactFacts CorrelationFacts ConvTheorems Properties_Adjoint Properties_TransposedComplete.
Local Open Scope string_scope.
Local Open Scope list_scope.

Lemma nth_on_axes (f : nat -> nat) d ax : ax < d -> nth ax (map f (seq 0 d)) 0 = f ax.
Proof.
  intros H. rewrite (nth_indep _ 0 (f 0)) by (rewrite map_length, seq_length; exact H). rewrite map_nth, nth_seq0 by exact H. reflexivity.
Qed.

(** The pixel that output pixel [p] reads through kernel pixel [j], without padding. *)
Definition read_at (d : nat) (s dl p j : list nat) : list nat :=
  map (fun ax => nth ax p 0 * nth ax s 0 + nth ax j 0 * nth ax dl 0) (seq 0 d).

(** Kernel pixel [j2] of the second convolution followed by [j1] of the first, as an offset
    in the input, and the size of the kernel with all these offsets. *)
Definition joint (d : nat) (s1 dl1 dl2 j1 j2 : list nat) : list nat :=
  map (fun ax => nth ax s1 0 * (nth ax dl2 0 * nth ax j2 0) + nth ax dl1 0 * nth ax j1 0) (seq 0 d).
Definition joint_size (d : nat) (s1 dl1 dl2 k1 k2 : list nat) : list nat :=
  map (fun ax => nth ax s1 0 * (nth ax dl2 0 * (nth ax k2 0 - 1)) + nth ax dl1 0 * (nth ax k1 0 - 1) + 1) (seq 0 d).

Lemma length_joint d s1 dl1 dl2 j1 j2 : List.length (joint d s1 dl1 dl2 j1 j2) = d.
Proof. unfold joint. rewrite map_length. apply seq_length. Qed.
Lemma length_joint_size d s1 dl1 dl2 k1 k2 : List.length (joint_size d s1 dl1 dl2 k1 k2) = d.
Proof. unfold joint_size. rewrite map_length. apply seq_length. Qed.

Lemma inb_axes d s i : List.length s = d -> List.length i = d -> (forall ax, ax < d -> nth ax i 0 < nth ax s 0) -> inb s i.
Proof.
  revert s i. induction d as [|d IH]; intros [|n s] [|v i] LS LI H; try discriminate; [apply inb_nil|].
  apply inb_cons. split; [apply (H 0); lia|]. apply IH; [injection LS as ->; reflexivity|injection LI as ->; reflexivity|].
  intros ax Hax. apply (H (S ax)). lia.
Qed.

Lemma joint_in d s1 dl1 dl2 k1 k2 j1 j2 : List.length k1 = d -> List.length k2 = d -> inb k1 j1 -> inb k2 j2 ->
  inb (joint_size d s1 dl1 dl2 k1 k2) (joint d s1 dl1 dl2 j1 j2).
Proof.
  intros L1 L2 J1 J2. apply (inb_axes d); [apply length_joint_size|apply length_joint|]. intros ax Hax.
  unfold joint, joint_size. rewrite !nth_on_axes by exact Hax.
  pose proof (inb_nth _ _ ax J1 ltac:(lia)). pose proof (inb_nth _ _ ax J2 ltac:(lia)).
  assert (U : nth ax j2 0 <= nth ax k2 0 - 1) by lia. assert (V : nth ax j1 0 <= nth ax k1 0 - 1) by lia.
  apply (Nat.mul_le_mono_l _ _ (nth ax dl1 0)) in V. apply (Nat.mul_le_mono_l _ _ (nth ax dl2 0)) in U. apply (Nat.mul_le_mono_l _ _ (nth ax s1 0)) in U. lia.
Qed.

Lemma joint_pixel d e s1 dl1 dl2 k1 k2 j1 j2 : is_symmetry d e ->
  List.length s1 = d -> List.length dl1 = d -> List.length dl2 = d -> List.length k1 = d -> List.length k2 = d ->
  fits e s1 -> fits e dl1 -> fits e dl2 -> fits e k1 -> fits e k2 -> inb k1 j1 -> inb k2 j2 ->
  joint d s1 dl1 dl2 (pixel e k1 j1) (pixel e k2 j2) = pixel e (joint_size d s1 dl1 dl2 k1 k2) (joint d s1 dl1 dl2 j1 j2).
Proof.
  intros SY Ls L1 L2 Lk1 Lk2 Fs F1 F2 Fk1 Fk2 J1 J2. pose proof SY as [LE _].
  apply nth_ext0; [rewrite length_joint, length_pixel; lia|]. intros ax Hax. rewrite length_joint in Hax.
  rewrite (nth_pixel e _ (joint _ _ _ _ _ _) ax) by lia. unfold joint at 1. rewrite nth_on_axes by exact Hax. rewrite !nth_pixel by lia.
  specialize (Fs ax ltac:(lia)). specialize (F1 ax ltac:(lia)). specialize (F2 ax ltac:(lia)). specialize (Fk1 ax ltac:(lia)). specialize (Fk2 ax ltac:(lia)).
  pose proof (is_symmetry_nth _ _ ax SY ltac:(lia)) as PX. destruct (nth ax e (0, false)) as [p r]. cbn [fst] in *.
  unfold joint_size. unfold joint. rewrite !nth_on_axes by assumption.
  pose proof (inb_nth _ _ p J1 ltac:(lia)). pose proof (inb_nth _ _ p J2 ltac:(lia)). rewrite Fk1 in *. rewrite Fk2 in *.
  rewrite Fs, F1, F2. destruct r; [|reflexivity].
  replace (nth ax k2 0 - 1) with ((nth ax k2 0 - 1 - nth p j2 0) + nth p j2 0) by lia.
  replace (nth ax k1 0 - 1) with ((nth ax k1 0 - 1 - nth p j1 0) + nth p j1 0) by lia.
  set (u := nth ax k2 0 - 1 - nth p j2 0). set (v := nth ax k1 0 - 1 - nth p j1 0).
  rewrite !Nat.add_sub. nia.
Qed.

Lemma csrc_read d m s dl p j : List.length m = d -> (forall ax, ax < d -> nth ax p 0 * nth ax s 0 + nth ax j 0 * nth ax dl 0 < nth ax m 0) ->
  csrc m s dl (zeros_of d) p j = Some (read_at d s dl p j).
Proof.
  intros L H. unfold csrc. rewrite L. apply wsrc_all; [unfold read_at; rewrite map_length; apply seq_length|]. intros ax Hax.
  unfold read_at. rewrite nth_on_axes by exact Hax. unfold conv_src. rewrite nth_zeros.
  specialize (H ax Hax). rewrite (proj2 (Nat.leb_le _ _)), (proj2 (Nat.ltb_lt _ _)) by lia. cbn [andb]. f_equal. lia.
Qed.

Section Compose.
Context {A : Type} {RA : Arith A} (EX : exact_arithmetic A).
Context (d : nat) (k1 s1 dl1 k2 s2 dl2 : list nat) (C1 C2 : nat).
Context (Lk1 : List.length k1 = d) (Ls1 : List.length s1 = d) (Ldl1 : List.length dl1 = d).
Context (Lk2 : List.length k2 = d) (Ls2 : List.length s2 = d) (Ldl2 : List.length dl2 = d).
Notation jn := (joint d s1 dl1 dl2).
Notation K := (joint_size d s1 dl1 dl2 k1 k2).
Notation zs := (zeros_of d).

(** Pixel [j] of the joint kernel of the kernels [W1] and [W2]: the weights of the first one
    that pixel [j2] of the second one shows there, and the sum over the second one. *)
Definition shown (W1 : list nat -> nat -> nat -> A) (j : list nat) (q : nat) (j2 : list nat) (q2 : nat) : A :=
  sum (map (fun j1 => if list_eqb Nat.eqb (jn j1 j2) j then W1 j1 q q2 else zero) (indices k1)).
Definition joint_kernel (W1 W2 : list nat -> nat -> nat -> A) (j : list nat) (q r : nat) : A :=
  window d (fun _ j2 => Some j2) cterm k2 C2 (shown W1 j q) W2 [] r.

Lemma two_windows (m M1 : list nat) (X : list nat -> nat -> A) W1 W2 p r :
  List.length m = d -> List.length M1 = d ->
  (forall ax i j, ax < d -> i < nth ax M1 0 -> j < nth ax k1 0 -> i * nth ax s1 0 + j * nth ax dl1 0 < nth ax m 0) ->
  (forall ax j, ax < d -> j < nth ax k2 0 -> nth ax p 0 * nth ax s2 0 + j * nth ax dl2 0 < nth ax M1 0) ->
  (forall ax j, ax < d -> j < nth ax K 0 -> nth ax p 0 * (nth ax s1 0 * nth ax s2 0) + j < nth ax m 0) ->
  window d (csrc M1 s2 dl2 zs) cterm k2 C2 (fun i q2 => window d (csrc m s1 dl1 zs) cterm k1 C1 X W1 i q2) W2 p r
  = window d (csrc m (vzip Nat.mul s1 s2) (repeat 1 d) zs) cterm K C1 X (joint_kernel W1 W2) p r.
Proof.
  intros Lm LM R1 R2 R3.
  assert (RD2 : forall j2, inb k2 j2 -> csrc M1 s2 dl2 zs p j2 = Some (read_at d s2 dl2 p j2)).
  { intros j2 J2. apply csrc_read; [exact LM|]. intros ax Hax. apply R2; [exact Hax|]. apply (inb_nth _ _ ax J2). lia. }
  assert (RD1 : forall j1 j2, inb k1 j1 -> inb k2 j2 -> csrc m s1 dl1 zs (read_at d s2 dl2 p j2) j1
     = Some (read_at d (vzip Nat.mul s1 s2) (repeat 1 d) p (jn j1 j2))).
  { intros j1 j2 J1 J2. rewrite csrc_read; [|exact Lm|].
    - f_equal. unfold read_at. apply map_ext_in. intros ax I. apply in_seq in I. rewrite nth_on_axes by lia. rewrite nth_vzip by lia.
      unfold joint. rewrite nth_on_axes by lia. rewrite nth_repeat1 by lia. nia.
    - intros ax Hax. apply R1; [exact Hax| |apply (inb_nth _ _ ax J1); lia]. unfold read_at. rewrite nth_on_axes by exact Hax.
      apply R2; [exact Hax|]. apply (inb_nth _ _ ax J2). lia. }
  assert (RD3 : forall j, inb K j -> csrc m (vzip Nat.mul s1 s2) (repeat 1 d) zs p j = Some (read_at d (vzip Nat.mul s1 s2) (repeat 1 d) p j)).
  { intros j J. apply csrc_read; [exact Lm|]. intros ax Hax. rewrite nth_vzip, nth_repeat1 by lia. rewrite Nat.mul_1_r. apply R3; [exact Hax|].
    apply (inb_nth _ _ ax J). rewrite length_joint_size. exact Hax. }
  set (rd := read_at d (vzip Nat.mul s1 s2) (repeat 1 d) p) in *.
  set (F := fun j q j2 q2 j1 => if list_eqb Nat.eqb (jn j1 j2) j then mul (X (rd j) q) (mul (W1 j1 q q2) (W2 j2 q2 r)) else zero).
  (* the joint kernel *)
  transitivity (sum (map (fun j => sum (map (fun q => sum (map (fun j2 => sum (map (fun q2 => sum (map (fun j1 => F j q j2 q2 j1)
     (indices k1))) (seq 0 C2))) (indices k2))) (seq 0 C1))) (indices K))).
  2:{ rewrite (window_sums EX) by apply length_joint_size. apply sum_ext. intros j J. apply In_indices in J. apply sum_ext. intros q _.
    rewrite RD3 by exact J. cbn [option_map]. unfold cterm, or_zero, joint_kernel. rewrite (window_sums EX) by exact Lk2.
    rewrite <- (sum_scale EX). apply sum_ext. intros j2 J2. rewrite <- (sum_scale EX). apply sum_ext. intros q2 _.
    cbn [option_map]. unfold cterm, or_zero, shown.
    rewrite (ar_mcomm EX _ (W2 j2 q2 r)), <- (sum_scale EX), <- (sum_scale EX). apply sum_ext. intros j1 _. unfold F.
    destruct (list_eqb _ _ _); [rewrite (ar_mcomm EX (W2 _ _ _)); reflexivity|]. rewrite !(ar_mzero_r EX). reflexivity. }
  rewrite (sums_reversed EX).
  (* the two convolutions *)
  rewrite (window_sums EX) by exact Lk2.
  transitivity (sum (map (fun j2 => sum (map (fun q2 => sum (map (fun j1 => sum (map (fun q => sum (map (fun j => F j q j2 q2 j1)
     (indices K))) (seq 0 C1))) (indices k1))) (seq 0 C2))) (indices k2))).
  { apply sum_ext. intros j2 J2. apply In_indices in J2. apply sum_ext. intros q2 _. rewrite RD2 by exact J2. cbn [option_map]. unfold cterm at 1, or_zero.
    rewrite (window_sums EX) by exact Lk1. rewrite (ar_mcomm EX), <- (sum_scale EX). apply sum_ext. intros j1 J1. apply In_indices in J1.
    rewrite <- (sum_scale EX). apply sum_ext. intros q _. rewrite RD1 by assumption. cbn [option_map]. unfold cterm, or_zero.
    rewrite (sum_only EX (indices K) _ (jn j1 j2)).
    - unfold F. rewrite (proj2 (list_eqb_eq _ Nat.eqb_eq _ _) eq_refl). rewrite (ar_mcomm EX (W2 _ _ _)), <- (ar_massoc EX). reflexivity.
    - apply NoDup_indices.
    - apply In_indices. apply joint_in; assumption.
    - intros j _ NE. unfold F. destruct (list_eqb _ _ _) eqn:Q; [|reflexivity]. apply (list_eqb_eq _ Nat.eqb_eq) in Q. congruence. }
  transitivity (sum (map (fun j2 => sum (map (fun j1 => sum (map (fun q2 => sum (map (fun q => sum (map (fun j => F j q j2 q2 j1)
     (indices K))) (seq 0 C1))) (seq 0 C2))) (indices k1))) (indices k2))).
  { apply sum_ext. intros j2 _. apply (sum_swap EX). }
  rewrite (sum_swap EX). apply sum_ext. intros j1 _. apply (sum_swap EX).
Qed.

(** If both kernels show a transformation, so does the joint kernel. *)
Lemma joint_kernel_moved e (tau1 tau2 rho : nat -> nat) W1 W2 j q r :
  is_symmetry d e -> fits e s1 -> fits e dl1 -> fits e dl2 -> fits e k1 -> fits e k2 ->
  (forall q2, q2 < C2 -> tau2 q2 < C2) -> (forall q2 q2', q2 < C2 -> q2' < C2 -> tau2 q2 = tau2 q2' -> q2 = q2') ->
  (forall j1 q2, inb k1 j1 -> q2 < C2 -> W1 (pixel e k1 j1) (tau1 q) (tau2 q2) = W1 j1 q q2) ->
  (forall j2 q2, inb k2 j2 -> q2 < C2 -> W2 (pixel e k2 j2) (tau2 q2) (rho r) = W2 j2 q2 r) ->
  inb K j ->
  joint_kernel W1 W2 (pixel e K j) (tau1 q) (rho r) = joint_kernel W1 W2 j q r.
Proof.
  intros SY Fs F1 F2 Fk1 Fk2 TB TI H1 H2 J. unfold joint_kernel. symmetry.
  apply (window_match d _ _ cterm k2 C2 (shown W1 (pixel e K j) (tau1 q)) (shown W1 j q) W2 e tau2 rho [] [] r); try assumption.
  - exact (exact_add_commutes EX).
  - intros j2 q2 J2 Q2. cbn [option_map]. f_equal. unfold shown.
    assert (PE : Permutation (map (pixel e k1) (indices k1)) (indices k1)).
    { apply indices_injective; [intros i I; apply (pixel_inb d); assumption|]. intros i i' I I'. apply (pixel_injective d e k1); assumption. }
    symmetry. etransitivity; [apply sum_permutation; [exact (exact_add_commutes EX)|]; apply Permutation_map; symmetry; exact PE|].
    rewrite map_map. apply sum_ext. intros j1 J1. apply In_indices in J1.
    rewrite joint_pixel by assumption. rewrite H1 by assumption.
    destruct (list_eqb Nat.eqb (pixel e K (jn j1 j2)) (pixel e K j)) eqn:Q, (list_eqb Nat.eqb (jn j1 j2) j) eqn:Q'; try reflexivity.
    + apply (list_eqb_eq _ Nat.eqb_eq) in Q. assert (N : jn j1 j2 = j).
      { apply (pixel_injective d e K); try assumption; [apply length_joint_size| |apply joint_in; assumption].
        intros ax Hax. pose proof SY as [LE _]. pose proof (is_symmetry_nth _ _ ax SY ltac:(lia)) as PX.
        unfold joint_size. rewrite !nth_on_axes by lia. rewrite Fs, F1, F2, Fk1, Fk2 by lia. reflexivity. }
      rewrite N, (proj2 (list_eqb_eq _ Nat.eqb_eq _ _) eq_refl) in Q'. discriminate Q'.
    + apply (list_eqb_eq _ Nat.eqb_eq) in Q'. rewrite Q', (proj2 (list_eqb_eq _ Nat.eqb_eq _ _) eq_refl) in Q. discriminate Q.
Qed.

End Compose.
