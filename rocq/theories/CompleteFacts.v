(** Convolutions applied to signals with a single nonzero entry. *)
From Verif Require Export SliceFacts TracedFacts.
Local Open Scope string_scope.
Local Open Scope list_scope.

(** A tensor whose last axis is split into two axes of sizes [n] and [o]. *)
Definition last_axis_split {A} (n o : nat) (y : tensor A) : tensor A := read_as (removelast (shape y) ++ [n; o]) y.

(** The ordinary convolution (Keras, channels_last, stride 1, no padding, no bias, no
    activation) with the kernel [W], which has [n * o] filters; its input is a signal
    with the group axis merged into the channels, and its output is read as a signal
    with a group axis of size [n] and [o] channels. *)
Definition convolve {A} {RA : Arith A} (valued : bool) (d g c n o : nat) (W x : tensor A) : result (tensor A) :=
  y <- base_conv_call false "channels_last" (repeat 1 d) (repeat 1 d) "valid" (n * o) (fun v => v) W None
         (merged_signal valued c g x (nth 0 (shape x) 0) (firstn d (tl (shape x)))) ;;
  Ok (last_axis_split n o y).

(** The neutral elements of the arithmetic. *)
Record neutral {A} {RA : Arith A} (one : A) : Prop := {
  one_mul : forall w : A, mul one w = w;
  zero_mul : forall w : A, mul zero w = zero;
  zero_add : forall w : A, add zero w = w;
  add_zero : forall w : A, add w zero = w }.

Section Facts.
Context {A : Type} {RA : Arith A} (one : A) (NE : neutral one).

Lemma sum_single {B} (l : list B) (f : B -> A) (b : B) :
  NoDup l -> In b l -> (forall b', In b' l -> b' <> b -> f b' = zero) -> sum (map f l) = f b.
Proof.
  assert (Z : forall l0 : list B, (forall b', In b' l0 -> f b' = zero) -> sum (map f l0) = zero).
  { clear l. intros l0. induction l0 as [|x l0 IH]; intros H; [reflexivity|]. unfold sum in *. cbn [map fold_right].
    rewrite IH by (intros b' I; apply H; right; exact I). rewrite (H x) by (left; reflexivity). apply (zero_add _ NE). }
  induction l as [|x l IH]; intros ND I H; [destruct I|]. inversion ND as [|x' l' NI ND']; subst. unfold sum in *. cbn [map fold_right].
  destruct I as [->|I].
  - rewrite Z; [apply (add_zero _ NE)|]. intros b' I' . apply H; [right; exact I'|]. intros ->. contradiction.
  - rewrite IH; [|exact ND'|exact I|intros b' I' N; apply H; [right; exact I'|exact N]].
    rewrite H; [apply (zero_add _ NE)|left; reflexivity|]. intros ->. contradiction.
Qed.

(** The signal that is [one] at pixel [j] and channel [q], and zero elsewhere. *)
Definition spot (j : list nat) (q : nat) (i : list nat) (q' : nat) : A :=
  if list_eq_dec Nat.eq_dec i j then if (q' =? q)%nat then one else zero else zero.

Lemma spot_same j q : spot j q j q = one.
Proof. unfold spot. destruct (list_eq_dec Nat.eq_dec j j); [|contradiction]. rewrite Nat.eqb_refl. reflexivity. Qed.
Lemma spot_other j q i q' : i <> j \/ q' <> q -> spot j q i q' = zero.
Proof.
  intros H. unfold spot. destruct (list_eq_dec Nat.eq_dec i j); [|reflexivity]. destruct (Nat.eqb_spec q' q); [|reflexivity].
  destruct H; contradiction.
Qed.

Lemma window_spot d (src : list nat -> list nat -> option (list nat)) k C (X : list nat -> nat -> A) W p r j0 q0 :
  List.length k = d -> inb k j0 -> q0 < C ->
  (forall j q, inb k j -> q < C -> option_map (fun i => X i q) (src p j) = Some (spot j0 q0 j q)) ->
  window d src cterm k C X W p r = W j0 q0 r.
Proof.
  intros L J0 Q0 H. unfold window.
  rewrite (sum_single _ _ (j0 ++ [q0])).
  - pose proof (inb_length _ _ J0) as LJ. rewrite firstn_app_exact by lia. rewrite app_nth2 by lia.
    replace (d - List.length j0) with 0 by lia. change (nth 0 [q0] 0) with q0. rewrite H by assumption. rewrite spot_same.
    unfold cterm. cbn [or_zero]. apply (one_mul _ NE).
  - apply NoDup_indices.
  - apply In_indices. apply inb_app; [exact J0|]. constructor; [exact Q0|constructor].
  - intros jc I N. apply In_indices in I. apply inb_app_split in I as [j [qq [-> [J I]]]]. apply inb1 in I as [q [-> Q]].
    pose proof (inb_length _ _ J) as LJ. rewrite firstn_app_exact by lia. rewrite app_nth2 by lia.
    replace (d - List.length j) with 0 by lia. change (nth 0 [q] 0) with q. rewrite H by assumption.
    rewrite spot_other; [unfold cterm; cbn [or_zero]; apply (zero_mul _ NE)|].
    destruct (list_eq_dec Nat.eq_dec j j0) as [->|D]; [|left; exact D]. right. intros ->. apply N. reflexivity.
Qed.

(** Windows of an input of the size of the kernel. *)
Lemma nth_repeat1 d a : a < d -> nth a (repeat 1 d) 0 = 1.
Proof. revert a. induction d as [|d IH]; intros [|a] H; cbn; try lia. apply IH. lia. Qed.

Lemma removelast_last (l : list nat) x : removelast (l ++ [x]) = l.
Proof. apply List.removelast_last. Qed.

Lemma split_last d b m n o (F : nat -> list nat -> nat -> A) : List.length m = d ->
  last_axis_split n o (tab (b :: m ++ [n * o]) (sig3 d F))
  = tab (b :: m ++ [n; o]) (sig4 d (fun bi p h r => F bi p (h * o + r))).
Proof.
  intros L. unfold last_axis_split. rewrite shape_tab.
  assert (RL : removelast (b :: m ++ [n * o]) = b :: m) by (rewrite app_comm_cons; apply removelast_last). rewrite RL. cbn [app].
  set (z := tab (b :: m ++ [n; o]) (sig4 d (fun bi p h r => F bi p (h * o + r)))).
  assert (W : wf z) by apply wf_tab.
  pose proof (merged_signal_eq (A:=A) d true o n z b m W L (shape_tab _ _)) as Q.
  unfold merged_signal in Q.
  assert (T : tab (b :: m ++ [n * o]) (sig3 d (merged_fun true z o)) = tab (b :: m ++ [n * o]) (sig3 d F)).
  { apply sig3_ext; [exact L|]. intros bi p q B P R. unfold merged_fun, fun4, z.
    destruct (div_ok n o q R) as [O [Q1 Q2]]. rewrite (at_sig4 d) by assumption. f_equal.
    rewrite (Nat.mul_comm (q / o)). symmetry. apply Nat.div_mod. exact O. }
  unfold read_as. rewrite <- T, <- Q. unfold z at 1. reflexivity.
Qed.

Lemma convolve_kernel_sized (valued : bool) d k g c n o (W x : tensor A) :
  let C := if valued then g * c else c in
  List.length k = d -> (forall a, a < d -> 0 < nth a k 0) -> shape W = k ++ [C; n * o] ->
  wf x -> shape x = signal_shape valued 1 k g c ->
  convolve valued d g c n o W x =
  Ok (tab (1 :: repeat 1 d ++ [n; o])
          (sig4 d (fun bi p h r => window d (csrc k (repeat 1 d) (repeat 1 d) (repeat 0 d)) cterm k C (merged_fun valued x c bi)
                                          (fun j q r => at_ W (j ++ [q; r])) p (h * o + r)))).
Proof.
  intros C L PK SW WX SX. unfold convolve. rewrite SX. unfold signal_shape. cbn [nth tl].
  rewrite firstn_app_exact by (symmetry; exact L).
  rewrite (merged_signal_eq d valued c g x 1 k WX L SX). fold C.
  unfold base_conv_call, in_format. cbn [String.eqb Ascii.eqb Bool.eqb].
  assert (L1 : List.length (repeat 1 d) = d) by apply repeat_length.
  rewrite (conv_last_eq d 1 k C (n * o) k); try assumption;
    [|intros a Ha; rewrite nth_repeat1 by exact Ha; lia].
  set (ke := vzip dilated k (repeat 1 d)).
  assert (KE : ke = k).
  { apply (nth_ext _ _ 0 0); unfold ke; rewrite length_vzip by lia; [reflexivity|]. intros a Ha.
    rewrite nth_vzip by lia. rewrite nth_repeat1 by lia. unfold dilated. specialize (PK a ltac:(lia)). lia. }
  rewrite KE.
  set (pads := builtin_pads "valid" k k (repeat 1 d)).
  assert (P1 : map fst pads = repeat 0 d /\ map snd pads = repeat 0 d).
  { unfold pads, builtin_pads. cbn [String.eqb Ascii.eqb Bool.eqb]. rewrite !map_map. cbn [fst snd]. rewrite <- L. clear.
    induction k as [|x k [I1 I2]]; [split; reflexivity|]. cbn [map List.length repeat]. split; f_equal; assumption. }
  destruct P1 as [P1 P2]. rewrite P1, P2.
  assert (LZ : List.length (repeat 0 d) = d) by apply repeat_length.
  assert (NZ : forall a, a < d -> nth a (repeat 0 d) 0 = 0) by (intros a _; apply nth_repeat).
  assert (N : padded (repeat 0 d) k (repeat 0 d) = k).
  { apply (nth_ext _ _ 0 0); rewrite (length_padded _ _ _ d) by assumption; [lia|]. intros a Ha.
    rewrite (nth_padded _ _ _ d) by assumption. rewrite NZ by exact Ha. lia. }
  rewrite N. rewrite (forallb_combine_le_iff k k d L L) by (intros; lia).
  assert (O : outs k k (repeat 1 d) = repeat 1 d).
  { apply (nth_ext _ _ 0 0); rewrite (length_outs _ _ _ d) by assumption; [lia|]. intros a Ha.
    rewrite (nth_outs _ _ _ d) by assumption. rewrite nth_repeat1 by exact Ha. unfold out_size. rewrite Nat.sub_diag. cbn. reflexivity. }
  rewrite O. cbn [bind].
  match goal with |- context[sig3 d ?F] => set (Y := F) end.
  pose proof (bias_activation d 1 (repeat 1 d) n (n * o) false (fun _ => zero) o Y (fun v => v) L1 eq_refl) as BA.
  cbn [bind]. rewrite BA. cbn [bind]. rewrite split_last by exact L1. f_equal.
Qed.

Lemma csrc_kernel_sized d k j : List.length k = d -> inb k j ->
  csrc k (repeat 1 d) (repeat 1 d) (repeat 0 d) (repeat 0 d) j = Some j.
Proof.
  intros L J. pose proof (inb_length _ _ J) as LJ. unfold csrc. apply wsrc_all; [lia|]. rewrite L. intros a Ha.
  unfold conv_src. rewrite nth_repeat1, nth_repeat by exact Ha. pose proof (inb_nth _ _ a J ltac:(lia)).
  cbn [Nat.leb]. rewrite (proj2 (Nat.ltb_lt _ _)) by lia. cbn [andb]. f_equal. lia.
Qed.

(** Signals from functions of pixels and merged channels. *)
Definition signal_from (valued : bool) (d b : nat) (m : list nat) (g c : nat) (D : nat -> list nat -> nat -> A) : tensor A :=
  if valued then tab (b :: m ++ [g; c]) (sig4 d (fun bi p h r => D bi p (h * c + r))) else tab (b :: m ++ [c]) (sig3 d D).

Lemma wf_signal_from valued d b m g c D : wf (signal_from valued d b m g c D).
Proof. destruct valued; apply wf_tab. Qed.
Lemma shape_signal_from valued d b m g c D : shape (signal_from valued d b m g c D) = signal_shape valued b m g c.
Proof. destruct valued; apply shape_tab. Qed.
Lemma merged_signal_from (valued : bool) d b m g c D bi p q : List.length m = d -> bi < b -> inb m p -> q < (if valued then g * c else c) ->
  merged_fun valued (signal_from valued d b m g c D) c bi p q = D bi p q.
Proof.
  intros L B P Q. unfold merged_fun, signal_from. destruct valued.
  - destruct (div_ok g c q Q) as [C0 [Q1 Q2]]. unfold fun4. rewrite (at_sig4 d) by assumption. f_equal.
    rewrite (Nat.mul_comm (q / c)). symmetry. apply Nat.div_mod. exact C0.
  - unfold fun3. rewrite (at_sig3 d) by assumption. reflexivity.
Qed.
End Facts.
