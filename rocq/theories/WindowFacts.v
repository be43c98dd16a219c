(** Sliding windows and symmetries of the pixel grid: the common part of the
    equivariance proofs of convolution, transposed convolution and pooling. *)
From Coq Require Import Permutation.
From Verif Require Export PaddingFacts UtilsTheorems LayerSpec.

(** ** Collecting optional coordinates *)

Fixpoint opts (l : list (option nat)) : option (list nat) :=
  match l with
  | [] => Some []
  | o :: l' => match o, opts l' with Some i, Some r => Some (i :: r) | _, _ => None end
  end.

Lemma opts_Some l : opts (map Some l) = Some l.
Proof. induction l as [|x l IH]; [reflexivity|]. cbn [map opts]. rewrite IH. reflexivity. Qed.

Lemma opts_None l : In None l -> opts l = None.
Proof.
  induction l as [|o l IH]; intros H; [destruct H|]. cbn [opts]. destruct H as [->|H]; [reflexivity|].
  rewrite (IH H). destruct o; reflexivity.
Qed.

Lemma opts_cases (l : list (option nat)) : In None l \/ exists v, l = map Some v.
Proof.
  induction l as [|o l IH]; [right; exists []; reflexivity|].
  destruct IH as [IH|[v ->]]; [left; right; exact IH|].
  destruct o as [x|]; [right; exists (x :: v); reflexivity|left; left; reflexivity].
Qed.

(** Source pixel of a window: per axis [a], from output position and kernel position. *)
Definition wsrc (f : nat -> nat -> nat -> option nat) (d : nat) (p j : list nat) : option (list nat) :=
  opts (map (fun a => f a (nth a p 0) (nth a j 0)) (seq 0 d)).

Lemma wsrc_some f d p j v : wsrc f d p j = Some v ->
  List.length v = d /\ forall a, a < d -> f a (nth a p 0) (nth a j 0) = Some (nth a v 0).
Proof.
  unfold wsrc. intros H. destruct (opts_cases (map (fun a => f a (nth a p 0) (nth a j 0)) (seq 0 d))) as [N|[w E]].
  - rewrite (opts_None _ N) in H. discriminate.
  - rewrite E, opts_Some in H. injection H as ->.
    assert (L : List.length v = d).
    { rewrite <- (map_length Some v), <- E, map_length, seq_length. reflexivity. }
    split; [exact L|]. intros a Ha.
    assert (Q : nth a (map (fun a => f a (nth a p 0) (nth a j 0)) (seq 0 d)) None = Some (nth a v 0)).
    { rewrite E. rewrite (nth_indep _ None (Some 0)) by (rewrite map_length; lia). apply (map_nth Some). }
    rewrite <- Q. rewrite (nth_indep _ None (f 0 (nth 0 p 0) (nth 0 j 0))) by (rewrite map_length, seq_length; lia).
    rewrite (map_nth (fun a => f a (nth a p 0) (nth a j 0))), nth_seq0 by lia. reflexivity.
Qed.

Lemma wsrc_all f d p j v : List.length v = d ->
  (forall a, a < d -> f a (nth a p 0) (nth a j 0) = Some (nth a v 0)) -> wsrc f d p j = Some v.
Proof.
  intros L H. unfold wsrc. replace (map _ (seq 0 d)) with (map Some v); [apply opts_Some|].
  rewrite (map_ext_in (fun a => f a (nth a p 0) (nth a j 0)) (fun a => Some (nth a v 0))).
  - rewrite <- (map_map (fun a => nth a v 0) Some). f_equal. apply nth_ext0.
    + rewrite map_length, seq_length. exact L.
    + intros a Ha. rewrite (nth_indep (map _ _) 0 (nth 0 v 0)) by (rewrite map_length, seq_length; lia).
      rewrite (map_nth (fun a => nth a v 0)), nth_seq0 by lia. reflexivity.
  - intros a I. apply in_seq in I. apply H. lia.
Qed.

Lemma wsrc_none f d p j : wsrc f d p j = None <-> exists a, a < d /\ f a (nth a p 0) (nth a j 0) = None.
Proof.
  unfold wsrc. split.
  - intros H. destruct (opts_cases (map (fun a => f a (nth a p 0) (nth a j 0)) (seq 0 d))) as [N|[w E]].
    + apply in_map_iff in N as [a [E I]]. apply in_seq in I. exists a. split; [lia|exact E].
    + rewrite E, opts_Some in H. discriminate.
  - intros [a [Ha E]]. apply opts_None. rewrite <- E. apply (in_map (fun a => f a (nth a p 0) (nth a j 0))).
    apply in_seq. lia.
Qed.

Lemma wsrc_ext f g d p j :
  (forall a, a < d -> f a (nth a p 0) (nth a j 0) = g a (nth a p 0) (nth a j 0)) -> wsrc f d p j = wsrc g d p j.
Proof. intros H. unfold wsrc. f_equal. apply map_ext_in. intros a I. apply in_seq in I. apply H. lia. Qed.

(** A window that looks the same from both ends of every reversed axis moves along
    with the pixels. *)
Lemma wsrc_moved f d e n k m p j :
  is_symmetry d e -> List.length n = d -> fits e m -> fits e k ->
  List.length m = d -> List.length k = d -> inb m p -> inb k j ->
  (forall a v w, a < d -> v < nth a m 0 -> w < nth a k 0 -> f a v w = f (fst (nth a e (0, false))) v w) ->
  (forall a v w, a < d -> snd (nth a e (0, false)) = true -> v < nth a m 0 -> w < nth a k 0 ->
     f a (nth a m 0 - 1 - v) (nth a k 0 - 1 - w) = option_map (fun i => nth a n 0 - 1 - i) (f a v w)) ->
  wsrc f d (pixel e m p) (pixel e k j) = option_map (pixel e n) (wsrc f d p j).
Proof.
  intros SY LN FM FK LM LK IP IJ SAME REV. pose proof SY as [LE _].
  assert (STEP : forall a, a < d ->
    f a (nth a (pixel e m p) 0) (nth a (pixel e k j) 0)
    = let '(b, r) := nth a e (0, false) in
      let o := f b (nth b p 0) (nth b j 0) in
      if (r : bool) then option_map (fun i => nth a n 0 - 1 - i) o else o).
  { intros a Ha. rewrite !nth_pixel by lia.
    pose proof (is_symmetry_nth _ _ _ SY Ha) as B. specialize (FM a ltac:(lia)). specialize (FK a ltac:(lia)).
    specialize (SAME a). specialize (REV a).
    destruct (nth a e (0, false)) as [b r] eqn:Q. cbn [fst snd] in *.
    assert (PB : nth b p 0 < nth a m 0) by (rewrite <- FM; apply inb_nth; [exact IP|lia]).
    assert (JB : nth b j 0 < nth a k 0) by (rewrite <- FK; apply inb_nth; [exact IJ|lia]).
    destruct r.
    - rewrite REV by (try reflexivity; assumption). f_equal. apply SAME; assumption.
    - apply SAME; assumption. }
  destruct (wsrc f d p j) as [v|] eqn:W.
  - apply wsrc_some in W as [LV V]. cbn [option_map]. apply wsrc_all; [rewrite length_pixel; exact LE|].
    intros a Ha. rewrite (STEP a Ha), (nth_pixel e n v a) by lia.
    pose proof (is_symmetry_nth _ _ _ SY Ha) as B. destruct (nth a e (0, false)) as [b r]. cbn [fst] in B.
    rewrite (V b B). destruct r; reflexivity.
  - cbn [option_map]. apply wsrc_none in W as [b [B N]]. apply wsrc_none.
    destruct SY as [_ SU]. apply SU in B. apply in_map_iff in B as [[b' r] [E I]]. cbn [fst] in E. subst b'.
    apply (In_nth e _ (0, false)) in I as [a [Ha Q]]. exists a. split; [lia|].
    rewrite STEP by lia. rewrite Q, N. destruct r; reflexivity.
Qed.

(** ** The sources used by the Keras operations *)

Lemma map_seq_S {B} (g : nat -> B) d : map g (seq 0 (S d)) = g 0 :: map (fun a => g (S a)) (seq 0 d).
Proof. cbn [seq map]. f_equal. rewrite <- seq_shift, map_map. reflexivity. Qed.

Lemma transpose_srcs_wsrc d n s dl b p j :
  List.length n = d -> List.length s = d -> List.length dl = d -> List.length b = d -> List.length p = d -> List.length j = d ->
  transpose_srcs n s dl b p j
  = wsrc (fun a => transpose_src (nth a n 0) (nth a s 0) (nth a dl 0) (nth a b 0)) d p j.
Proof.
  revert n s dl b p j. induction d as [|d IH]; intros [|n n'] [|s s'] [|dl dl'] [|b b'] [|p p'] [|j j'] L1 L2 L3 L4 L5 L6;
    cbn [List.length] in *; try discriminate; [reflexivity|].
  unfold wsrc. rewrite map_seq_S. cbn [transpose_srcs opts nth]. rewrite IH by lia. reflexivity.
Qed.

Lemma pool_srcs_wsrc d n s b p j :
  List.length n = d -> List.length s = d -> List.length b = d -> List.length p = d -> List.length j = d ->
  pool_srcs n s b p j = wsrc (fun a => pool_src (nth a n 0) (nth a s 0) (nth a b 0)) d p j.
Proof.
  revert n s b p j. induction d as [|d IH]; intros [|n n'] [|s s'] [|b b'] [|p p'] [|j j'] L1 L2 L3 L4 L5;
    cbn [List.length] in *; try discriminate; [reflexivity|].
  unfold wsrc. rewrite map_seq_S. cbn [pool_srcs opts nth]. rewrite IH by lia. reflexivity.
Qed.

(** A (dilated) convolution over an axis with [before] zeros in front of it. *)
Definition conv_src (n s dil before p j : nat) : option nat :=
  let q := p * s + j * dil in
  if ((before <=? q) && (q - before <? n)) then Some (q - before) else None.

Lemma conv_src_lt n s dil before p j i : conv_src n s dil before p j = Some i -> i < n.
Proof.
  unfold conv_src. destruct (Nat.leb_spec before (p * s + j * dil)); [|discriminate].
  destruct (Nat.ltb_spec (p * s + j * dil - before) n); [|discriminate]. cbn [andb]. intros [= <-]. assumption.
Qed.

Lemma pool_src_conv n s before p j : pool_src n s before p j = conv_src n s 1 before p j.
Proof. unfold pool_src, conv_src. rewrite Nat.mul_1_r. reflexivity. Qed.

Lemma transpose_src_lt n s dil before p j i : transpose_src n s dil before p j = Some i -> i < n.
Proof.
  unfold transpose_src. destruct (j * dil <=? p + before); [|discriminate].
  destruct (_ mod s =? 0); [|discriminate]. destruct (Nat.ltb_spec ((p + before - j * dil) / s) n); [|discriminate].
  intros [= <-]. assumption.
Qed.

Lemma conv_src_reversed n s dil before m k v w :
  (m - 1) * s + (k - 1) * dil + 1 = n + 2 * before -> v < m -> w < k ->
  conv_src n s dil before (m - 1 - v) (k - 1 - w) = option_map (fun i => n - 1 - i) (conv_src n s dil before v w).
Proof.
  intros H V W. unfold conv_src.
  assert (E : (m - 1 - v) * s + (k - 1 - w) * dil + (v * s + w * dil) + 1 = n + 2 * before) by nia.
  set (q' := (m - 1 - v) * s + (k - 1 - w) * dil) in *. set (q := v * s + w * dil) in *. clearbody q q'. clear -E.
  destruct (Nat.leb_spec before q), (Nat.leb_spec before q'), (Nat.ltb_spec (q - before) n), (Nat.ltb_spec (q' - before) n);
    cbn [andb option_map]; try lia; try reflexivity. f_equal. lia.
Qed.

Lemma transpose_src_spec n s dil before p j i : 0 < s ->
  (transpose_src n s dil before p j = Some i <-> i < n /\ i * s + j * dil = p + before).
Proof.
  intros S0. unfold transpose_src.
  assert (DM := Nat.div_mod (p + before - j * dil) s ltac:(lia)).
  assert (MB := Nat.mod_upper_bound (p + before - j * dil) s ltac:(lia)).
  set (q := (p + before - j * dil) / s) in *. set (r := (p + before - j * dil) mod s) in *.
  destruct (Nat.leb_spec (j * dil) (p + before)), (Nat.eqb_spec r 0), (Nat.ltb_spec q n); cbn [andb]; split;
    try discriminate; try (intros [= <-]; split; nia).
  - intros [I E]. f_equal. assert (i * s = s * q) by lia. nia.
  - intros [I E]. exfalso. assert (i * s = s * q) by lia. nia.
  - intros [I E]. exfalso. assert (i * s = s * q + r) by lia. assert (i = q) by nia. nia.
  - intros [I E]. exfalso. assert (i * s = s * q + r) by lia. assert (i = q) by nia. nia.
  - intros [I E]. exfalso. lia.
  - intros [I E]. exfalso. lia.
  - intros [I E]. exfalso. lia.
  - intros [I E]. exfalso. lia.
Qed.

Lemma transpose_src_reversed n s dil before m k v w : 0 < s ->
  (n - 1) * s + (k - 1) * dil + 1 = m + 2 * before -> v < m -> w < k ->
  transpose_src n s dil before (m - 1 - v) (k - 1 - w)
  = option_map (fun i => n - 1 - i) (transpose_src n s dil before v w).
Proof.
  intros S0 H V W.
  destruct (transpose_src n s dil before v w) as [i|] eqn:Q; cbn [option_map].
  - apply transpose_src_spec in Q as [I E]; [|exact S0]. apply transpose_src_spec; [exact S0|]. split; [lia|]. nia.
  - destruct (transpose_src n s dil before (m - 1 - v) (k - 1 - w)) as [i|] eqn:Q'; [|reflexivity].
    apply transpose_src_spec in Q' as [I E]; [|exact S0].
    assert (C : transpose_src n s dil before v w = Some (n - 1 - i)).
    { apply transpose_src_spec; [exact S0|]. split; [lia|]. nia. }
    congruence.
Qed.

(** ** Rearranging sums *)

Lemma indices_injective s (f : list nat -> list nat) :
  (forall i, inb s i -> inb s (f i)) -> (forall i j, inb s i -> inb s j -> f i = f j -> i = j) ->
  Permutation (map f (indices s)) (indices s).
Proof.
  intros F INJ. apply NoDup_Permutation_bis.
  - apply NoDup_map_in; [|apply NoDup_indices]. intros a b IA IB E.
    apply INJ; [apply In_indices; exact IA|apply In_indices; exact IB|exact E].
  - rewrite map_length. auto.
  - intros i I. apply in_map_iff in I as [j [<- J]]. apply In_indices. apply F. apply In_indices. exact J.
Qed.

Lemma pixel_injective d e n i j :
  is_symmetry d e -> List.length n = d -> fits e n -> inb n i -> inb n j -> pixel e n i = pixel e n j -> i = j.
Proof.
  intros SY LN FI I J E. pose proof SY as [LE SU]. pose proof (inb_length _ _ I) as LI. pose proof (inb_length _ _ J) as LJ.
  apply nth_ext0; [lia|]. intros b B. rewrite LI, LN in B. pose proof (SU _ B) as Q.
  apply in_map_iff in Q as [[b' r] [E1 IN]]. cbn [fst] in E1. subst b'.
  apply (In_nth e _ (0, false)) in IN as [a [Ha Q]].
  assert (N : nth a (pixel e n i) 0 = nth a (pixel e n j) 0) by (rewrite E; reflexivity).
  rewrite !nth_pixel in N by exact Ha. rewrite Q in N. specialize (FI a Ha). rewrite Q in FI. cbn [fst] in FI.
  pose proof (inb_nth _ _ b I ltac:(lia)). pose proof (inb_nth _ _ b J ltac:(lia)). destruct r; lia.
Qed.

Section Sums.
Context {A : Type} {RA : Arith A}.

Definition add_commutes : Prop := forall a b c : A, add a (add b c) = add b (add a c).

Lemma sum_permutation (l l' : list A) : add_commutes -> Permutation l l' -> sum l = sum l'.
Proof.
  intros AC P. induction P; unfold sum in *; cbn [fold_right]; [reflexivity|congruence|apply AC|congruence].
Qed.

(** ** Windows *)

(** One output entry: the sum over kernel positions and input channels. *)
Definition window (d : nat) (src : list nat -> list nat -> option (list nat)) (term : option A -> A -> A)
  (k : list nat) (C : nat) (x : list nat -> nat -> A) (W : list nat -> nat -> nat -> A) (p : list nat) (r : nat) : A :=
  sum (map (fun jc => term (option_map (fun i => x i (nth d jc 0)) (src p (firstn d jc)))
                           (W (firstn d jc) (nth d jc 0) r)) (indices (k ++ [C]))).

Lemma window_moved d src term k C x x' W e n m (tau rho : nat -> nat) p r :
  add_commutes -> is_symmetry d e -> List.length k = d -> List.length m = d -> fits e k ->
  (forall q, q < C -> tau q < C) -> (forall q q', q < C -> q' < C -> tau q = tau q' -> q = q') ->
  inb m p ->
  (forall j, inb k j -> src (pixel e m p) (pixel e k j) = option_map (pixel e n) (src p j)) ->
  (forall j i, inb k j -> src p j = Some i -> inb n i) ->
  (forall i q, inb n i -> q < C -> x' i q = x (pixel e n i) (tau q)) ->
  (forall j q, inb k j -> q < C -> W (pixel e k j) (tau q) (rho r) = W j q r) ->
  window d src term k C x' W p r = window d src term k C x W (pixel e m p) (rho r).
Proof.
  intros AC SY LK LM FK TB TI IP SRC SB XM WM. unfold window.
  set (f := fun jc => pixel e k (firstn d jc) ++ [tau (nth d jc 0)]).
  assert (CH : forall jc, inb (k ++ [C]) jc -> inb k (firstn d jc) /\ nth d jc 0 < C /\ jc = firstn d jc ++ [nth d jc 0]).
  { intros jc I. apply inb_app_split in I as [j [c [-> [J I]]]]. pose proof (inb_length _ _ J).
    assert (QC : exists q, c = [q] /\ q < C).
    { pose proof (inb_length _ _ I) as LC. destruct c as [|q [|]]; try discriminate LC. exists q. split; [reflexivity|].
      apply inb_cons in I as [Q _]. exact Q. }
    destruct QC as [q [-> Q]].
    rewrite firstn_app_exact by lia. rewrite app_nth2 by lia. replace (d - List.length j) with 0 by lia.
    cbn [nth]. split; [exact J|]. split; [exact Q|reflexivity]. }
  assert (FI : forall jc, firstn d (f jc) = pixel e k (firstn d jc) /\ nth d (f jc) 0 = tau (nth d jc 0)).
  { intros jc. unfold f. pose proof SY as [LE _]. rewrite firstn_app_exact by (rewrite length_pixel; lia).
    rewrite app_nth2 by (rewrite length_pixel; lia). rewrite length_pixel, LE, Nat.sub_diag. split; reflexivity. }
  assert (PE : Permutation (map f (indices (k ++ [C]))) (indices (k ++ [C]))).
  { apply indices_injective.
    - intros jc I. apply CH in I as [J [Q _]]. unfold f. apply inb_app; [apply (pixel_inb d); assumption|].
      apply Forall2_cons; [apply TB; exact Q|apply Forall2_nil].
    - intros jc jc' I I' E. apply CH in I as [J [Q EJ]]. apply CH in I' as [J' [Q' EJ']].
      assert (E1 : firstn d (f jc) = firstn d (f jc')) by (rewrite E; reflexivity).
      assert (E2 : nth d (f jc) 0 = nth d (f jc') 0) by (rewrite E; reflexivity).
      rewrite !(proj1 (FI _)) in E1. rewrite !(proj2 (FI _)) in E2. rewrite EJ, EJ'. f_equal.
      + apply (pixel_injective d e k); assumption.
      + f_equal. apply TI; assumption. }
  symmetry. etransitivity.
  { apply sum_permutation; [exact AC|]. apply Permutation_map. symmetry. exact PE. }
  f_equal. rewrite map_map. apply map_ext_in. intros jc I. apply In_indices in I. apply CH in I as [J [Q _]].
  destruct (FI jc) as [F1 F2]. rewrite F1, F2. rewrite SRC, WM by assumption. f_equal.
  destruct (src p (firstn d jc)) as [i|] eqn:S; cbn [option_map]; [|reflexivity]. f_equal. symmetry.
  apply XM; [|exact Q]. apply (SB (firstn d jc)); assumption.
Qed.

(** One output entry of a pooling: a function of the values in the window. *)
Definition pooled (src : list nat -> list nat -> option (list nat)) (f : list A -> A) (k : list nat)
  (x : list nat -> nat -> A) (p : list nat) (r : nat) : A :=
  f (keep_some (map (fun j => option_map (fun i => x i r) (src p j)) (indices k))).

Lemma keep_some_permutation {B} (l l' : list (option B)) : Permutation l l' -> Permutation (keep_some l) (keep_some l').
Proof. intros P. unfold keep_some. apply Permutation_flat_map. exact P. Qed.

Lemma pooled_moved d src f k x x' e n m (rho : nat -> nat) p r :
  (forall l l', Permutation l l' -> f l = f l') -> is_symmetry d e -> List.length k = d -> fits e k ->
  (forall j, inb k j -> src (pixel e m p) (pixel e k j) = option_map (pixel e n) (src p j)) ->
  (forall j i, inb k j -> src p j = Some i -> inb n i) ->
  (forall i, inb n i -> x' i r = x (pixel e n i) (rho r)) ->
  pooled src f k x' p r = pooled src f k x (pixel e m p) (rho r).
Proof.
  intros PF SY LK FK SRC SB XM. unfold pooled. symmetry.
  assert (PE : Permutation (map (pixel e k) (indices k)) (indices k)).
  { apply indices_injective.
    - intros j J. apply (pixel_inb d); assumption.
    - intros j j' J J'. apply (pixel_injective d); assumption. }
  etransitivity.
  { apply PF. apply keep_some_permutation. apply Permutation_map. symmetry. exact PE. }
  do 2 f_equal. rewrite map_map. apply map_ext_in. intros j J. apply In_indices in J.
  rewrite SRC by exact J. destruct (src p j) as [i|] eqn:S; cbn [option_map]; [|reflexivity].
  f_equal. symmetry. apply XM. apply (SB j); assumption.
Qed.

End Sums.
Arguments add_commutes A {RA}.
