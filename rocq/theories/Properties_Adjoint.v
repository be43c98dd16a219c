(** C79: transposed layers are the adjoints of convolution layers. *)
From Coq Require Import Permutation.
From Verif Require Import LinearFacts FormatFacts Properties_Linear.
Local Open Scope string_scope.
Local Open Scope list_scope.

Section Sums.
Context {A : Type} {RA : Arith A} (EX : exact_arithmetic A).

Lemma sum_ext {B} (f g : B -> A) l : (forall b, In b l -> f b = g b) -> sum (map f l) = sum (map g l).
Proof. intros H. f_equal. apply map_ext_in. exact H. Qed.

(** Five nested sums in the opposite order. *)
Lemma sums_reversed {B C D E F} (f : B -> C -> D -> E -> F -> A) lb lc ld le lf :
  sum (map (fun b => sum (map (fun c => sum (map (fun d => sum (map (fun e => sum (map (fun x => f b c d e x) lf)) le)) ld)) lc)) lb)
  = sum (map (fun x => sum (map (fun e => sum (map (fun d => sum (map (fun c => sum (map (fun b => f b c d e x) lb)) lc)) ld)) le)) lf).
Proof.
  (* a sum moves inwards past four others *)
  assert (P1 : forall T (g : B -> T -> A) l, sum (map (fun b => sum (map (g b) l)) lb) = sum (map (fun t => sum (map (fun b => g b t) lb)) l))
    by (intros; apply (sum_swap EX)).
  rewrite P1.
  transitivity (sum (map (fun c => sum (map (fun d => sum (map (fun e => sum (map (fun x => sum (map (fun b => f b c d e x) lb)) lf)) le)) ld)) lc)).
  { apply sum_ext. intros c _. rewrite P1. apply sum_ext. intros d _. rewrite P1. apply sum_ext. intros e _. apply P1. }
  set (g := fun c d e x => sum (map (fun b => f b c d e x) lb)).
  rewrite (sum_swap EX).
  transitivity (sum (map (fun d => sum (map (fun e => sum (map (fun x => sum (map (fun c => g c d e x) lc)) lf)) le)) ld)).
  { apply sum_ext. intros d _. rewrite (sum_swap EX). apply sum_ext. intros e _. apply (sum_swap EX). }
  rewrite (sum_swap EX).
  transitivity (sum (map (fun e => sum (map (fun x => sum (map (fun d => sum (map (fun c => g c d e x) lc)) ld)) lf)) le)).
  { apply sum_ext. intros e _. apply (sum_swap EX). }
  apply (sum_swap EX).
Qed.

Lemma sum_axis n (f : list nat -> A) : sum (map f (indices [n])) = sum (map (fun q => f [q]) (seq 0 n)).
Proof. cbn [indices]. rewrite (sum_flat EX). apply sum_ext. intros q _. cbn. apply (sum_neutral EX). Qed.

(** Two axes read as one. *)
Lemma seq_from a n : seq a n = map (fun r => a + r) (seq 0 n).
Proof.
  revert a. induction n as [|n IH]; intros a; [reflexivity|]. cbn [seq map]. f_equal; [lia|].
  rewrite (IH (S a)), (IH 1), map_map. apply map_ext. intros r. lia.
Qed.

Lemma sum_pairs g c (f : nat -> nat -> A) :
  sum (map (fun hr => f (nth 0 hr 0) (nth 1 hr 0)) (indices [g; c])) = sum (map (fun q => f (q / c) (q mod c)) (seq 0 (g * c))).
Proof.
  change (indices [g; c]) with (flat_map (fun h => map (cons h) (indices [c])) (seq 0 g)).
  rewrite (sum_flat EX). induction g as [|g IH]; [reflexivity|].
  rewrite seq_S, map_app, (sum_append EX), IH. rewrite Nat.add_0_l.
  replace (S g * c) with (g * c + c) by lia. rewrite seq_app, map_app, (sum_append EX). f_equal. rewrite Nat.add_0_l.
  cbn [map]. unfold sum at 1. cbn [fold_right]. rewrite (sum_neutral EX).
  rewrite map_map, sum_axis, (seq_from (g * c)), map_map. apply sum_ext. intros r I. apply in_seq in I. cbn [nth].
  destruct (split_ok c g r ltac:(lia)) as [-> ->]. reflexivity.
Qed.

Lemma sum_signal d b m g c (F : nat -> list nat -> nat -> nat -> A) : List.length m = d ->
  sum (map (sig4 d F) (indices (b :: m ++ [g; c])))
  = sum (map (fun bi => sum (map (fun p => sum (map (fun q => F bi p (q / c) (q mod c)) (seq 0 (g * c)))) (indices m))) (seq 0 b)).
Proof.
  intros L. change (b :: m ++ [g; c]) with ([b] ++ (m ++ [g; c])). rewrite (sum_indices_app EX), sum_axis.
  apply sum_ext. intros bi _. rewrite (sum_indices_app EX). apply sum_ext. intros p I. apply In_indices in I.
  rewrite <- sum_pairs. apply sum_ext. intros hr J. apply In_indices in J. apply inb2 in J as [h [r [-> [Hh R]]]].
  change ([bi] ++ p ++ [h; r]) with (bi :: p ++ [h; r]). rewrite sig4_ix by (rewrite (inb_length _ _ I); exact L). reflexivity.
Qed.

(** A window as nested sums. *)
Lemma window_sums d src (term : option A -> A -> A) k C (x : list nat -> nat -> A) W p r : List.length k = d ->
  window d src term k C x W p r
  = sum (map (fun j => sum (map (fun q => term (option_map (fun i => x i q) (src p j)) (W j q r)) (seq 0 C))) (indices k)).
Proof.
  intros L. unfold window. rewrite (sum_indices_app EX). apply sum_ext. intros j I. apply In_indices in I. pose proof (inb_length _ _ I).
  rewrite sum_axis. apply sum_ext. intros q _. rewrite firstn_app_exact by lia. rewrite app_nth2 by lia.
  replace (d - List.length j) with 0 by lia. reflexivity.
Qed.

(** The value at a source, as a sum over all pixels. *)
Lemma sum_source (term : option A -> A -> A) (src : option (list nat)) m (x : list nat -> A) (w y : A) :
  (term = cterm \/ term = tterm) -> (forall i, src = Some i -> inb m i) ->
  mul (term (option_map x src) w) y
  = sum (map (fun i => if match src with Some i' => list_eqb Nat.eqb i' i | None => false end then mul (mul (x i) w) y else zero) (indices m)).
Proof.
  intros T IN. destruct src as [i0|]; cbn [option_map].
  - rewrite (sum_only EX _ _ i0 (NoDup_indices _) (proj2 (In_indices _ _) (IN _ eq_refl))).
    + rewrite (proj2 (list_eqb_eq _ Nat.eqb_eq i0 i0) eq_refl). destruct T as [-> | ->]; reflexivity.
    + intros i' _ N. destruct (list_eqb Nat.eqb i0 i') eqn:Q; [|reflexivity]. apply (list_eqb_eq _ Nat.eqb_eq) in Q. congruence.
  - rewrite (sum_nothing EX); [|reflexivity]. destruct T as [-> | ->]; unfold cterm, tterm, or_zero; rewrite ?(ar_mzero EX); reflexivity.
Qed.

Lemma scale_sum {B} (f : B -> A) l y : mul (sum (map f l)) y = sum (map (fun b => mul (f b) y) l).
Proof. rewrite (ar_mcomm EX), <- (sum_scale EX). apply sum_ext. intros b _. apply (ar_mcomm EX). Qed.

(** One batch: gathering and scattering. *)
Lemma gather_scatter d src src' k C C' mx my (X Y : list nat -> nat -> A) W W' :
  List.length k = d ->
  (forall p j i, src p j = Some i -> inb mx i) -> (forall i j p, src' i j = Some p -> inb my p) ->
  (forall p i j, inb my p -> inb mx i -> (src p j = Some i <-> src' i j = Some p)) ->
  (forall j q q', inb k j -> q < C -> q' < C' -> W j q q' = W' j q' q) ->
  sum (map (fun p => sum (map (fun q' => mul (window d src cterm k C X W p q') (Y p q')) (seq 0 C'))) (indices my))
  = sum (map (fun i => sum (map (fun q => mul (X i q) (window d src' tterm k C' Y W' i q)) (seq 0 C))) (indices mx)).
Proof.
  intros L IN IN' SS WW.
  set (T := fun p q' j q i => if match src p j with Some i' => list_eqb Nat.eqb i' i | None => false end
                              then mul (mul (X i q) (W j q q')) (Y p q') else zero).
  transitivity (sum (map (fun p => sum (map (fun q' => sum (map (fun j => sum (map (fun q => sum (map (fun i => T p q' j q i)
                   (indices mx))) (seq 0 C))) (indices k))) (seq 0 C'))) (indices my))).
  { apply sum_ext. intros p _. apply sum_ext. intros q' _. rewrite window_sums by exact L. rewrite scale_sum. apply sum_ext. intros j _.
    rewrite scale_sum. apply sum_ext. intros q _.
    rewrite (sum_source cterm (src p j) mx (fun i => X i q) (W j q q') (Y p q')); [reflexivity|left; reflexivity|apply IN]. }
  rewrite sums_reversed. apply sum_ext. intros i HI. apply In_indices in HI. apply sum_ext. intros q HQ. apply in_seq in HQ.
  rewrite (ar_mcomm EX), window_sums by exact L. rewrite scale_sum. apply sum_ext. intros j HJ. apply In_indices in HJ.
  rewrite scale_sum. apply sum_ext. intros q' HQ'. apply in_seq in HQ'.
  rewrite (sum_source tterm (src' i j) my (fun p => Y p q') (W' j q' q) (X i q)); [|right; reflexivity|apply IN'].
  apply sum_ext. intros p HP. apply In_indices in HP. unfold T. rewrite (WW j q q' HJ) by lia.
  assert (B : match src p j with Some i' => list_eqb Nat.eqb i' i | None => false end
              = match src' i j with Some p' => list_eqb Nat.eqb p' p | None => false end).
  { apply Bool.eq_iff_eq_true. pose proof (SS p i j HP HI) as S.
    destruct (src p j) as [i'|], (src' i j) as [p'|]; rewrite ?(list_eqb_eq _ Nat.eqb_eq); split; intros Q; try discriminate Q; try congruence;
      subst; [assert (Q : Some p' = Some p) by (apply S; reflexivity); congruence|assert (Q : Some i' = Some i) by (apply S; reflexivity); congruence|
              assert (Q : None = Some p) by (apply S; reflexivity); discriminate Q|assert (Q : None = Some i) by (apply S; reflexivity); discriminate Q]. }
  rewrite B. destruct (match src' i j with Some p' => _ | None => _ end); [|reflexivity].
  rewrite <- (ar_massoc EX), (ar_mcomm EX (W' j q' q) (Y p q')). apply (ar_mcomm EX).
Qed.

End Sums.

(** ** Sources *)

Lemma same_source n n' s dl before p i j : 0 < s -> p < n' -> i < n ->
  (conv_src n s dl before p j = Some i <-> transpose_src n' s dl before i j = Some p).
Proof.
  intros S P I. rewrite transpose_src_spec by exact S. unfold conv_src.
  destruct (Nat.leb_spec before (p * s + j * dl)), (Nat.ltb_spec (p * s + j * dl - before) n); cbn [andb]; split;
    try discriminate; try (intros Q; injection Q as Q; lia); intros [Q1 Q2]; try lia. f_equal. lia.
Qed.

Lemma same_sources d m m' s dl be be' p i j :
  List.length m = d -> List.length m' = d -> (forall a, a < d -> 0 < nth a s 0) -> (forall a, a < d -> nth a be 0 = nth a be' 0) ->
  inb m' p -> inb m i ->
  (csrc m s dl be p j = Some i <-> tsrc m' s dl be' i j = Some p).
Proof.
  intros L L' S BE P I. unfold csrc, tsrc. rewrite L, L'.
  pose proof (inb_length _ _ P) as LP. pose proof (inb_length _ _ I) as LI.
  split; intros Q; apply wsrc_some in Q as [_ Q]; apply wsrc_all; try lia; intros a Ha;
    pose proof (inb_nth _ _ a P ltac:(lia)); pose proof (inb_nth _ _ a I ltac:(lia)); specialize (Q a Ha).
  - rewrite <- (BE a Ha). apply (same_source (nth a m 0)); try assumption. apply S; exact Ha.
  - apply (same_source _ (nth a m' 0)); try assumption; [apply S; exact Ha|]. rewrite (BE a Ha). exact Q.
Qed.

(** ** Kernels *)

Section Kernels.
Context {A : Type} {RA : Arith A}.
Context (G : group) (d : nat) (E : list symmetry) (eq : bool) (OK : group_ok G d E eq).
Notation n := (List.length E).
Notation sym a := (nth a E []).

Lemma seen_whole_eq c a q : a < n -> q < n * c ->
  seen_from G (seq 0 n) c a q = Some (comp G (inv G a) (q / c) * c + q mod c).
Proof.
  intros Ha Q. destruct (div_ok n c q Q) as [C0 [Q1 Q2]]. unfold seen_from. rewrite nth_seq0 by exact Q1.
  pose proof (ok_closed _ _ _ _ OK _ _ (ok_inv_lt _ _ _ _ OK a Ha) Q1) as HP. set (p := comp G (inv G a) (q / c)) in *.
  assert (M : mem p (seq 0 n) = true) by (apply mem_In, in_seq; lia). rewrite M. f_equal. f_equal. f_equal.
  rewrite <- (nth_seq0 p n HP) at 1. apply index_of_nth; [apply seq_NoDup|rewrite seq_length; exact HP].
Qed.

(** The kernel of the adjoint layer: pixel [j], input channel [q] (element v = q / o and
    filter q mod o), filter [r]. *)
Definition adjoint_entry (k : list nat) (c o : nat) (K : tensor A) (j : list nat) (q r : nat) : A :=
  at_ K (pixel (sym (q / o)) k j ++ [inv G (q / o) * c + r; q mod o]).
Definition adjoint_kernel (k : list nat) (c o : nat) (K : tensor A) : tensor A :=
  mkTensor (k ++ [c; n * o]) (data (tab (k ++ [n * o; c]) (ker d (adjoint_entry k c o K)))).

Lemma wf_adjoint_kernel k c o K : wf (adjoint_kernel k c o K).
Proof. unfold wf, adjoint_kernel. cbn [shape data]. rewrite length_data_tab. apply prod_swap. Qed.

(** It has the same weights. *)
Lemma adjoint_kernel_permutation k c o K : List.length k = d -> kernel_fits eq k -> wf K -> shape K = k ++ [n * c; o] ->
  Permutation (data (adjoint_kernel k c o K)) (data K).
Proof.
  intros L KF W SK. unfold adjoint_kernel, tab. cbn [data]. rewrite <- (tab_at K W) at 2. unfold tab. cbn [data]. rewrite SK.
  set (phi := fun i => pixel (sym (nth d i 0 / o)) k (firstn d i) ++ [inv G (nth d i 0 / o) * c + nth (d + 1) i 0; nth d i 0 mod o]).
  replace (map (ker d (adjoint_entry k c o K)) (indices (k ++ [n * o; c]))) with (map (at_ K) (map phi (indices (k ++ [n * o; c]))))
    by (rewrite map_map; reflexivity).
  apply Permutation_map.
  assert (GR := ok_is_group _ _ _ _ OK).
  assert (PH : forall j q r, inb k j -> q < n * o -> r < c -> phi (j ++ [q; r]) = pixel (sym (q / o)) k j ++ [inv G (q / o) * c + r; q mod o]).
  { intros j q r J _ _. pose proof (inb_length _ _ J). unfold phi. rewrite firstn_app_exact by lia. rewrite !app_nth2 by lia.
    replace (d - List.length j) with 0 by lia. replace (d + 1 - List.length j) with 1 by lia. reflexivity. }
  apply NoDup_Permutation_bis.
  - apply NoDup_map_in; [|apply NoDup_indices]. intros i i' I I' Q. apply In_indices in I, I'.
    apply inbk_inv in I as [j [q [r [-> [J [Hq R]]]]]]. apply inbk_inv in I' as [j' [q' [r' [-> [J' [Hq' R']]]]]].
    rewrite !PH in Q by assumption. destruct (div_ok _ _ _ Hq) as [O0 [Q1 Q2]]. destruct (div_ok _ _ _ Hq') as [_ [Q1' Q2']].
    assert (LP : forall u v, u < n -> inb k v -> List.length (pixel (sym u) k v) = d).
    { intros u v U V. rewrite (inb_length _ _ (pixel_in G d E eq OK u k v U (conj KF L) V)). exact L. }
    pose proof (f_equal (firstn d) Q) as QP. pose proof (f_equal (skipn d) Q) as QR.
    rewrite !firstn_app_exact in QP by (symmetry; apply LP; assumption).
    rewrite !skipn_app_exact in QR by (symmetry; apply LP; assumption).
    assert (QO : q mod o = q' mod o) by congruence.
    assert (QC : inv G (q / o) * c + r = inv G (q' / o) * c + r') by congruence.
    assert (QI : inv G (q / o) = inv G (q' / o)).
    { pose proof (Nat.div_unique (inv G (q / o) * c + r) c (inv G (q / o)) r R ltac:(lia)).
      pose proof (Nat.div_unique (inv G (q' / o) * c + r') c (inv G (q' / o)) r' R' ltac:(lia)). congruence. }
    assert (QV : q / o = q' / o) by (rewrite <- (g_inv_inv _ _ _ GR _ Q1), <- (g_inv_inv _ _ _ GR _ Q1'), QI; reflexivity).
    rewrite QI in QC. rewrite QV in QP.
    assert (q = q') by (rewrite (Nat.div_mod q o), (Nat.div_mod q' o) by lia; rewrite QV, QO; reflexivity).
    assert (r = r') by lia. subst q' r'.
    f_equal. apply (pixel_injective d (sym (q / o)) k); try assumption.
    + apply (sym_ok G d E eq OK); exact Q1.
    + apply (fits_sym G d E eq OK); assumption.
  - rewrite map_length, !length_indices, !prod_app. unfold prod at 2 4. cbn [fold_right]. nia.
  - intros i I. apply in_map_iff in I as [i0 [<- I]]. apply In_indices in I. apply In_indices.
    apply inbk_inv in I as [j [q [r [-> [J [Hq R]]]]]]. rewrite PH by assumption. destruct (div_ok _ _ _ Hq) as [O0 [Q1 Q2]].
    apply inbk; [apply (pixel_in G d E eq OK); try assumption; split; assumption| |exact Q2].
    pose proof (ok_inv_lt _ _ _ _ OK _ Q1). nia.
Qed.
End Kernels.

Section Values.
Context {A : Type} {RA : Arith A}.
Context (G : group) (d : nat) (E : list symmetry) (eq : bool) (OK : group_ok G d E eq).
Notation n := (List.length E).
Notation sym a := (nth a E []).

Lemma whole_value c o k (K : tensor A) j q r : List.length k = d -> kernel_fits eq k ->
  inb k j -> q < n * c -> r < n * o ->
  kval G E true (seq 0 n) (seq 0 n) c o k (n * c) K j q r
  = nth (ravel (k ++ [n * c; o]) (pixel (sym (r / o)) k j ++ [comp G (inv G (r / o)) (q / c) * c + q mod c; r mod o])) (data K) zero.
Proof.
  intros L KF J Q R. destruct (div_ok _ _ _ R) as [O0 [R1 R2]].
  unfold kval, kidx, kernel_src, chan_from. rewrite nth_seq0 by exact R1. rewrite (seen_whole_eq G d E eq OK) by assumption. reflexivity.
Qed.

Lemma adjoint_values c o k (K : tensor A) j q q' : List.length k = d -> kernel_fits eq k -> wf K -> shape K = k ++ [n * c; o] ->
  inb k j -> q < n * c -> q' < n * o ->
  kval G E true (seq 0 n) (seq 0 n) c o k (n * c) K j q q'
  = kval G E true (seq 0 n) (seq 0 n) o c k (n * o) (adjoint_kernel G d E k c o K) j q' q.
Proof.
  intros L KF W SK J Q Q'. rewrite !whole_value by assumption.
  destruct (div_ok _ _ _ Q) as [C0 [Q1 Q2]]. destruct (div_ok _ _ _ Q') as [O0 [Q1' Q2']].
  assert (GR := ok_is_group _ _ _ _ OK).
  set (h' := q / c) in *. set (h := q' / o) in *.
  pose proof (ok_closed _ _ _ _ OK _ _ (ok_inv_lt _ _ _ _ OK h' Q1) Q1') as HV.
  set (v := comp G (inv G h') h) in *.
  assert (IV : inv G v = comp G (inv G h) h').
  { unfold v. rewrite (g_inv_op _ _ _ GR) by (try apply (ok_inv_lt _ _ _ _ OK); assumption). rewrite (g_inv_inv _ _ _ GR) by exact Q1. reflexivity. }
  pose proof (pixel_in G d E eq OK h' k j Q1 (conj KF L) J) as PJ.
  transitivity (at_ (tab (k ++ [n * o; c]) (ker d (adjoint_entry G E k c o K))) (pixel (sym h') k j ++ [v * o + q' mod o; q mod c]));
    [|reflexivity].
  rewrite (at_ker d) by (try assumption; nia). unfold adjoint_entry.
  pose proof (px_twice G d E eq OK h' h k j Q1 Q1' KF L J) as PX. fold v in PX.
  destruct (split_ok o v (q' mod o) Q2') as [-> ->]. rewrite PX, IV. unfold at_. rewrite SK. reflexivity.
Qed.

Lemma no_widths P eb ea : no_padding P -> pads_with (A := A) d P eb ea -> List.length eb = d -> List.length ea = d -> eb = zeros_of d /\ ea = zeros_of d.
Proof.
  intros N PW LB LA. specialize (PW 0 (zeros_of d) 0 (fun _ _ _ => zero)). unfold zeros_of in *. rewrite repeat_length in PW. specialize (PW eq_refl).
  rewrite (no_padding_call _ _ N) in PW.
  assert (SH : 0 :: repeat 0 d ++ [0] = 0 :: padded eb (repeat 0 d) ea ++ [0]) by (apply (f_equal (fun r => match r with Ok u => shape u | Err _ => [] end)) in PW; exact PW).
  assert (Q : repeat 0 d = padded eb (repeat 0 d) ea) by (apply app_inj_tail with (a := 0) (b := 0); congruence).
  assert (Z : forall a, a < d -> nth a eb 0 = 0 /\ nth a ea 0 = 0).
  { intros a Ha. apply (f_equal (fun l => nth a l 0)) in Q. rewrite nth_repeat in Q.
    rewrite (nth_padded _ _ _ d) in Q by (rewrite ?repeat_length; assumption || reflexivity). rewrite nth_repeat in Q. lia. }
  split; apply nth_ext0; rewrite ?repeat_length; try assumption; intros a Ha; rewrite nth_repeat; apply Z; lia.
Qed.

Lemma inner_left b m g c F (y : tensor A) : List.length m = d -> wf y -> shape y = b :: m ++ [g; c] ->
  inner (tab (b :: m ++ [g; c]) F) y = sum (map (fun i => mul (F i) (sig4 d (fun4 y) i)) (indices (b :: m ++ [g; c]))).
Proof. intros L W SH. rewrite (tensor_sig4 d b m g c y W L SH) at 1. apply inner_tab. Qed.
Lemma inner_right b m g c (x : tensor A) F : List.length m = d -> wf x -> shape x = b :: m ++ [g; c] ->
  inner x (tab (b :: m ++ [g; c]) F) = sum (map (fun i => mul (sig4 d (fun4 x) i) (F i)) (indices (b :: m ++ [g; c]))).
Proof. intros L W SH. rewrite (tensor_sig4 d b m g c x W L SH) at 1. apply inner_tab. Qed.

Lemma same_total_of_multiple q k s : 0 < s -> same_total (q * s) k s = k - s.
Proof. intros S. unfold same_total. replace ((q * s + s - 1) / s) with q; [lia|]. apply (Nat.div_unique _ _ _ (s - 1)); lia. Qed.
End Values.

(** ** The theorem *)

Section Adjoint.
Context {A : Type} {RA : Arith A} (EX : exact_arithmetic A).

(** A convolution from signals with [c] channels to signals with [o], both on the whole
    group, and a transposed convolution with the same kernel size, strides, dilation and
    padding from [o] channels to [c], neither with extra padding, bias or activation.  The
    transposed layer has the right number of weights, and with the weights of the
    convolution in a suitable order it is the adjoint: <L x, y> = <x, L' y>. *)
Theorem C79_transposed_layers_are_adjoint name G (a a' : conv_args A) opt bs bs' m m' c kinit binit kinit' binit' L L' K k s dl :
  let d := dimension_of name in
  let n := List.length (symmetries_of name) in
  let o := ca_filters a in
  layer_for name G a -> layer_for name G a' -> ca_subgroup a = Some "" -> ca_subgroup a' = Some "" -> option_of a opt -> option_of a' opt ->
  built d false a (static_signal_shape true bs m n c) kinit binit L ->
  built d true a' (static_signal_shape true bs' m' n o) kinit' binit' L' ->
  List.length m = d -> List.length m' = d -> sizes d a k s dl -> sizes d a' k s dl -> ca_filters a' = c ->
  ca_use_bias a = false -> ca_use_bias a' = false -> (forall v, ca_activation a v = v) -> (forall v, ca_activation a' v = v) ->
  needs_padding (cl_gt L) <> Some true -> needs_padding (cl_gt L') <> Some true ->
  cl_kernel L = Some K ->
  exists K', wf K' /\ shape K' = k ++ [c; n * o] /\ Permutation (data K') (data K) /\
    forall B b mx my x y u z, wf x -> wf y -> List.length mx = d -> List.length my = d ->
      shape x = signal_shape true b mx n c -> shape y = signal_shape true b my n o ->
      apply L x = Ok u -> apply (assigned L' K' B) y = Ok z -> shape u = shape y -> shape z = shape x ->
      inner u y = inner x z.
Proof.
  intros d n o LF LF' HS HS' OP OP' BU BU' Lm Lm' SZ SZ' FF UB UB' AC AC' NP NP' KK.
  destruct (built_facts name G a "" opt false true bs m n c kinit binit L k s dl LF HS OP BU Lm SZ)
    as [OK [eb [ea [act [dom [_ [SA [SD [CF [CC _]]]]]]]]]]. fold d in OK, CF.
  destruct (built_facts name G a' "" opt true true bs' m' n o kinit' binit' L' k s dl LF' HS' OP' BU' Lm' SZ')
    as [_ [eb' [ea' [act' [dom' [_ [SA' [SD' [CF' [CC' _]]]]]]]]]]. fold d in CF'.
  cbn iota in SA, SA'. destruct (SD eq_refl) as [SD1 _]. destruct (SD' eq_refl) as [SD1' _]. cbn iota in SD1, SD1'.
  pose proof (whole_dom _ _ _ _ _ OK SA) as ->. pose proof (whole_dom _ _ _ _ _ OK SD1) as ->.
  pose proof (whole_dom _ _ _ _ _ OK SA') as ->. pose proof (whole_dom _ _ _ _ _ OK SD1') as ->. fold n in CF, CF'.
  assert (ZE : eb = zeros_of d /\ ea = zeros_of d) by (destruct CF; apply (no_widths d (gt_padding (cl_gt L))); assumption).
  assert (ZE' : eb' = zeros_of d /\ ea' = zeros_of d) by (destruct CF'; apply (no_widths d (gt_padding (cl_gt L'))); assumption).
  destruct ZE as [-> ->]. destruct ZE' as [-> ->].
  cbn iota in CF, CF'. fold o in CF. rewrite FF in CF'.
  assert (KE : K = tab (k ++ [n * c; o]) kinit) by (destruct CF; congruence).
  assert (WK : wf K) by (rewrite KE; apply wf_tab). assert (SK : shape K = k ++ [n * c; o]) by (rewrite KE; reflexivity).
  assert (LK : List.length k = d) by (destruct CF; assumption). assert (KF : kernel_fits (needs_equal_sizes name) k) by (destruct CF; assumption).
  assert (LS : List.length s = d) by (destruct CF; assumption). assert (LD : List.length dl = d) by (destruct CF; assumption).
  assert (PS : forall ax, ax < d -> 0 < nth ax s 0) by (destruct CF; assumption).
  set (K' := adjoint_kernel G d (symmetries_of name) k c o K).
  exists K'. split; [apply wf_adjoint_kernel|]. split; [reflexivity|].
  split; [apply (adjoint_kernel_permutation G d _ _ OK); assumption|].
  intros B b mx my x y u z WX WY LX LY SX SY AU AZ SU SV.
  pose proof (replaced_weights G d _ _ true true _ _ o (n * o) c k s dl _ _ (is_same opt) (ca_use_bias a') (ca_activation a')
                kinit' binit' (at_ K') binit' L' CF') as CR.
  cbn iota in CR. change (k ++ [c; n * o]) with (shape K') in CR. rewrite (tab_at K') in CR by apply wf_adjoint_kernel. rewrite UB' in CR.
  assert (AS : assigned L' K' B = cl_set_weights L' (Some K') None (cl_filters L')).
  { unfold assigned. destruct CF'. rewrite cf_bias, UB'. reflexivity. }
  rewrite <- AS in CR.
  pose proof (merged_input d true x b mx n c WX LX SX) as MX. pose proof (merged_input d true y b my n o WY LY SY) as MY.
  cbn iota in MX, MY.
  rewrite (layer_form G d _ _ OK false true _ _ c (n * c) o k s dl _ _ _ _ _ kinit binit L x b mx n _ CF CC LX SX MX) in AU.
  rewrite (layer_form G d _ _ OK true true _ _ o (n * o) c k s dl _ _ _ _ _ (at_ K') binit' (assigned L' K' B) y b my n _ CR CC' LY SY MY) in AZ.
  destruct (layer_runs _ _ _ _ _ _ _ mx); [|discriminate AU]. cbn [layer_runs] in AZ.
  assert (EO : forall u0 v0 : tensor A, Ok u0 = Ok v0 -> u0 = v0) by congruence. apply EO in AU, AZ. subst u z.
  rewrite seq_length in *. rewrite shape_tab in SU, SV. rewrite SY in SU. rewrite SX in SV. unfold signal_shape in SU, SV.
  assert (TL : forall (l l' : list nat) (u v w t : nat), b :: l ++ [u; v] = b :: l' ++ [w; t] -> l = l').
  { intros l l' u v w t Q. assert (Q' : l ++ [u; v] = l' ++ [w; t]) by congruence. change [u; v] with ([u] ++ [v]) in Q'. change [w; t] with ([w] ++ [t]) in Q'.
    rewrite !app_assoc in Q'. apply app_inj_tail in Q' as [Q' _]. apply app_inj_tail in Q' as [Q' _]. exact Q'. }
  assert (OX : layer_outs false k s dl (zeros_of d) (zeros_of d) (is_same opt) mx = my) by (eapply TL; exact SU).
  assert (OY : layer_outs true k s dl (zeros_of d) (zeros_of d) (is_same opt) my = mx) by (eapply TL; exact SV).
  rewrite OX, OY.
  rewrite (inner_left d b my n o _ y LY WY SY), (inner_right d b mx n c x _ LX WX SX).
  etransitivity; [exact (sum_signal EX d b my n o (fun bi p h r => mul (ca_activation a (biased (ca_use_bias a) binit (layer_value G d (symmetries_of name) false true (seq 0 n) (seq 0 n) c (n * c) o k s dl (zeros_of d) (zeros_of d) (is_same opt) mx kinit (merged_fun true x c) bi p h r) r)) (fun4 y bi p h r)) LY)|].
  symmetry.
  etransitivity; [exact (sum_signal EX d b mx n c (fun bi p h r => mul (fun4 x bi p h r) (ca_activation a' (biased false binit' (layer_value G d (symmetries_of name) true true (seq 0 n) (seq 0 n) o (n * o) c k s dl (zeros_of d) (zeros_of d) (is_same opt) my (at_ K') (merged_fun true y o) bi p h r) r))) LX)|].
  symmetry. apply sum_ext. intros bi _. rewrite UB.
  transitivity (sum (map (fun p => sum (map (fun q' => mul
     (window d (layer_src false k s dl (zeros_of d) (zeros_of d) (is_same opt) mx) cterm k (n * c) (merged_fun true x c bi)
        (kval G (symmetries_of name) true (seq 0 n) (seq 0 n) c o k (n * c) K) p q')
     (bordered (zeros_of d) my (merged_fun true y o) bi p q')) (seq 0 (n * o)))) (indices my))).
  { apply sum_ext. intros p I. apply In_indices in I. apply sum_ext. intros q' HQ. apply in_seq in HQ.
    destruct (div_ok n o q' ltac:(lia)) as [O0 [Q1 Q2]].
    rewrite AC. unfold biased, layer_value. rewrite <- KE.
    replace (q' / o * o + q' mod o) with q' by (rewrite (Nat.div_mod q' o) at 1 by lia; lia).
    f_equal. unfold bordered. rewrite (inside_zeros my p d LY I), vzip_sub_zeros by (rewrite (inb_length _ _ I); exact LY). reflexivity. }
  rewrite (gather_scatter EX d _ (layer_src true k s dl (zeros_of d) (zeros_of d) (is_same opt) my) k (n * c) (n * o) mx my
             (merged_fun true x c bi) (bordered (zeros_of d) my (merged_fun true y o) bi) _
             (kval G (symmetries_of name) true (seq 0 n) (seq 0 n) o c k (n * o) K') LK).
  - apply sum_ext. intros i I. apply In_indices in I. apply sum_ext. intros q HQ. apply in_seq in HQ.
    destruct (div_ok n c q ltac:(lia)) as [C0 [Q1 Q2]].
    rewrite AC'. unfold biased, layer_value. cbn iota. change (k ++ [c; n * o]) with (shape K'). rewrite (tab_at K') by apply wf_adjoint_kernel.
    replace (q / c * c + q mod c) with q by (rewrite (Nat.div_mod q c) at 1 by lia; lia). reflexivity.
  - intros p j i. apply csrc_in.
  - intros i j p. unfold layer_src. rewrite (padded_zeros my d LY). apply tsrc_in.
  - intros p i j IP II. unfold layer_src. rewrite (padded_zeros my d LY), (padded_zeros mx d LX).
    assert (LKE : List.length (vzip dilated k dl) = d) by (rewrite length_vzip; lia).
    apply (same_sources d); try assumption. intros ax Hax.
    rewrite nth_vzip by (rewrite ?map_length, ?(length_builtin _ _ _ _ d) by assumption; unfold zeros_of; rewrite repeat_length; lia).
    rewrite nth_zeros, (proj1 (nth_pads d _ mx _ s ax LX LKE LS Hax)). rewrite (nth_vzip (transpose_before _)) by lia.
    rewrite Nat.add_0_l.
    assert (SZX : nth ax mx 0 = transpose_size (padding_string (is_same opt)) (nth ax my 0) (nth ax (vzip dilated k dl) 0) (nth ax s 0)).
    { rewrite <- OY at 1. unfold layer_outs. rewrite (padded_zeros my d LY). apply (nth_touts _ _ _ _ d); assumption. }
    rewrite SZX. unfold transpose_size, transpose_before, backend_pads, same_pads. destruct (String.eqb _ _); [|reflexivity].
    cbn [fst]. rewrite same_total_of_multiple by (apply PS; exact Hax). reflexivity.
  - intros j q q' J Q Q'. apply (adjoint_values G d _ _ OK); assumption.
Qed.
End Adjoint.

(** P4, two channels to one and back: all weights different, kernel 2 x 2.  The
    weights of the transposed layer are the same numbers in another order; with the
    original order it is not the adjoint. *)
Definition adjoint_case (strides : nat) (padding : string) (mx my : nat) (reorder : bool) : option (bool * nat) :=
  let a := mkConvArgs (ByName "P4") (Some "") (One 2) 1 (Some (One (Z.of_nat strides))) (Some (Some padding)) None "channels_last" false false (fun z : Z => z) in
  let a' := mkConvArgs (ByName "P4") (Some "") (One 2) 2 (Some (One (Z.of_nat strides))) (Some (Some padding)) None "channels_last" false false (fun z : Z => z) in
  let x := some_signal [1; mx; mx; 4; 2] in
  let y := tab [1; my; my; 4; 1] (fun i => Z.of_nat (nth 1 i 0 * 5 + nth 2 i 0 + nth 3 i 0 * nth 3 i 0)) in
  match test_layer 2 false a (static_signal_shape true None [mx; mx] 4 2) some_weights some_weights,
        test_layer 2 true a' (static_signal_shape true None [my; my] 4 1) some_weights some_weights, dict_get group_dict "P4" with
  | Ok L, Ok L', Ok G =>
      match cl_kernel L with
      | Some K =>
          let K1 := adjoint_kernel G 2 (symmetries_of "P4") [2; 2] 2 1 K in
          let K' := if reorder then K1 else mkTensor (shape K1) (data K) in
          match apply L x, apply (assigned L' K' (zeros [2])) y with
          | Ok u, Ok z => Some (Z.eqb (inner u y) (inner x z) && list_eqb Nat.eqb (shape u) (shape y) && list_eqb Nat.eqb (shape z) (shape x), List.length (data K'))
          | _, _ => None
          end
      | None => None
      end
  | _, _, _ => None
  end.
Example C79_case :
  [adjoint_case 1 "valid" 4 3 true; adjoint_case 2 "same" 4 2 true; adjoint_case 1 "valid" 4 3 false]
  = [Some (true, 32); Some (true, 32); Some (false, 32)].
Proof. vm_compute. reflexivity. Qed.

Print Assumptions C79_transposed_layers_are_adjoint.
