(** Sums in exact arithmetic, and the one formula behind convolution and transposed
    convolution layers. *)
From Verif Require Export CompleteFacts ShapeFacts.
Local Open Scope string_scope.
Local Open Scope list_scope.

(** Exact arithmetic: a commutative semiring (integers, rationals, reals). *)
Record exact_arithmetic {A} {RA : Arith A} : Prop := {
  ar_comm : forall a b : A, add a b = add b a;
  ar_assoc : forall a b c : A, add a (add b c) = add (add a b) c;
  ar_zero : forall a : A, add zero a = a;
  ar_mcomm : forall a b : A, mul a b = mul b a;
  ar_massoc : forall a b c : A, mul a (mul b c) = mul (mul a b) c;
  ar_mzero : forall a : A, mul zero a = zero;
  ar_dist : forall a b c : A, mul a (add b c) = add (mul a b) (mul a c) }.
Arguments exact_arithmetic A {RA}.

(** Entry by entry s1 * x1 + s2 * x2, for tensors of the same shape. *)
Definition combination {A} {RA : Arith A} (s1 : A) (x1 : tensor A) (s2 : A) (x2 : tensor A) : tensor A :=
  mkTensor (shape x1) (map (fun p => add (mul s1 (fst p)) (mul s2 (snd p))) (combine (data x1) (data x2))).

(** The sum of the products of corresponding entries. *)
Definition inner {A} {RA : Arith A} (x y : tensor A) : A :=
  sum (map (fun p => mul (fst p) (snd p)) (combine (data x) (data y))).

Lemma combine_maps {B C D} (f : B -> C) (g : B -> D) l : combine (map f l) (map g l) = map (fun b => (f b, g b)) l.
Proof. induction l as [|b l IH]; [reflexivity|]. cbn [map combine]. rewrite IH. reflexivity. Qed.

Section Sums.
Context {A : Type} {RA : Arith A} (EX : exact_arithmetic A).

Lemma ar_mzero_r (a : A) : mul a zero = zero.
Proof. rewrite (ar_mcomm EX). apply (ar_mzero EX). Qed.

Lemma ar_shuffle (a b c e : A) : add (add a b) (add c e) = add (add a c) (add b e).
Proof.
  rewrite <- !(ar_assoc EX). f_equal. rewrite !(ar_assoc EX). f_equal. apply (ar_comm EX).
Qed.

Lemma sum_add {B} (f g : B -> A) l : sum (map (fun b => add (f b) (g b)) l) = add (sum (map f l)) (sum (map g l)).
Proof.
  unfold sum. induction l as [|b l IH]; cbn [map fold_right]; [rewrite (ar_zero EX); reflexivity|]. rewrite IH. apply ar_shuffle.
Qed.

Lemma sum_scale {B} (s : A) (f : B -> A) l : sum (map (fun b => mul s (f b)) l) = mul s (sum (map f l)).
Proof.
  unfold sum. induction l as [|b l IH]; cbn [map fold_right]; [rewrite ar_mzero_r; reflexivity|]. rewrite IH, (ar_dist EX). reflexivity.
Qed.

Lemma sum_nothing {B} (f : B -> A) l : (forall b, In b l -> f b = zero) -> sum (map f l) = zero.
Proof.
  unfold sum. induction l as [|b l IH]; intros H; cbn [map fold_right]; [reflexivity|].
  rewrite IH by (intros b' I; apply H; right; exact I). rewrite H by (left; reflexivity). apply (ar_zero EX).
Qed.

Lemma sum_swap {B C} (f : B -> C -> A) l l' :
  sum (map (fun b => sum (map (f b) l')) l) = sum (map (fun c => sum (map (fun b => f b c) l)) l').
Proof.
  induction l as [|b l IH].
  - cbn [map]. change (sum []) with (@zero A _). symmetry. apply sum_nothing. reflexivity.
  - cbn [map]. change (sum (sum (map (f b) l') :: map (fun b0 => sum (map (f b0) l')) l))
      with (add (sum (map (f b) l')) (sum (map (fun b0 => sum (map (f b0) l')) l))).
    rewrite IH, <- sum_add. reflexivity.
Qed.

Lemma sum_append (l l' : list A) : sum (l ++ l') = add (sum l) (sum l').
Proof.
  unfold sum. induction l as [|a l IH]; cbn [app fold_right]; [symmetry; apply (ar_zero EX)|]. rewrite IH. apply (ar_assoc EX).
Qed.

Lemma sum_flat {B C} (f : C -> A) (g : B -> list C) l : sum (map f (flat_map g l)) = sum (map (fun b => sum (map f (g b))) l).
Proof.
  induction l as [|b l IH]; [reflexivity|]. cbn [flat_map map]. rewrite map_app, sum_append, IH. reflexivity.
Qed.

Lemma sum_neutral : forall w : A, add w zero = w.
Proof. intros w. rewrite (ar_comm EX). apply (ar_zero EX). Qed.

(** One nonzero term. *)
Lemma sum_only {B} (l : list B) (f : B -> A) (b : B) :
  NoDup l -> In b l -> (forall b', In b' l -> b' <> b -> f b' = zero) -> sum (map f l) = f b.
Proof.
  intros ND I H. apply in_split in I as [l1 [l2 ->]]. rewrite map_app. cbn [map]. rewrite sum_append.
  change (sum (f b :: map f l2)) with (add (f b) (sum (map f l2))).
  apply NoDup_remove in ND as [_ NI].
  rewrite (sum_nothing f l1), (sum_nothing f l2).
  - rewrite sum_neutral. apply (ar_zero EX).
  - intros b' I'. apply H; [apply in_or_app; right; right; exact I'|]. intros ->. apply NI, in_or_app. right. exact I'.
  - intros b' I'. apply H; [apply in_or_app; left; exact I'|]. intros ->. apply NI, in_or_app. left. exact I'.
Qed.

Lemma sum_indices_app s1 s2 (f : list nat -> A) :
  sum (map f (indices (s1 ++ s2))) = sum (map (fun i => sum (map (fun j => f (i ++ j)) (indices s2))) (indices s1)).
Proof.
  rewrite indices_app, sum_flat. f_equal. apply map_ext. intros i. rewrite map_map. reflexivity.
Qed.

(** ** Combinations of tensors *)

Lemma combination_tab s1 s2 sh (f g : list nat -> A) :
  combination s1 (tab sh f) s2 (tab sh g) = tab sh (fun i => add (mul s1 (f i)) (mul s2 (g i))).
Proof.
  unfold combination, tab. cbn [shape data]. rewrite combine_maps, map_map. reflexivity.
Qed.

Lemma combination_eq s1 s2 (x y : tensor A) : wf x -> wf y -> shape x = shape y ->
  combination s1 x s2 y = tab (shape x) (fun i => add (mul s1 (at_ x i)) (mul s2 (at_ y i))).
Proof.
  intros WX WY SH. rewrite <- (tab_at x WX) at 1. rewrite <- (tab_at y WY) at 1. rewrite <- SH. apply combination_tab.
Qed.

Lemma wf_combination s1 s2 (x y : tensor A) : wf x -> wf y -> shape x = shape y -> wf (combination s1 x s2 y).
Proof. intros WX WY SH. rewrite (combination_eq _ _ _ _ WX WY SH). apply wf_tab. Qed.

Lemma nth_combination s1 s2 (x y : tensor A) n : wf x -> wf y -> shape x = shape y -> n < prod (shape x) ->
  nth n (data (combination s1 x s2 y)) zero = add (mul s1 (nth n (data x) zero)) (mul s2 (nth n (data y) zero)).
Proof.
  intros WX WY SH N. unfold wf in *. unfold combination. cbn [data].
  rewrite (nth_indep _ zero (add (mul s1 (fst (@zero A _, @zero A _))) (mul s2 (snd (@zero A _, @zero A _)))))
    by (rewrite map_length, combine_length, WX, WY, <- SH; lia).
  rewrite (map_nth (fun p => add (mul s1 (fst p)) (mul s2 (snd p)))). rewrite combine_nth by congruence. reflexivity.
Qed.

Lemma inner_tab sh (f g : list nat -> A) : inner (tab sh f) (tab sh g) = sum (map (fun i => mul (f i) (g i)) (indices sh)).
Proof. unfold inner, tab. cbn [data]. rewrite combine_maps, map_map. reflexivity. Qed.

(** ** Windows *)

Lemma window_combination d src (term : option A -> A -> A) k C s1 s2 (x x1 x2 : list nat -> nat -> A) W p r :
  (term = cterm \/ term = tterm) -> List.length k = d ->
  (forall i q j, q < C -> inb k j -> src p j = Some i -> x i q = add (mul s1 (x1 i q)) (mul s2 (x2 i q))) ->
  window d src term k C x W p r = add (mul s1 (window d src term k C x1 W p r)) (mul s2 (window d src term k C x2 W p r)).
Proof.
  intros T L H. unfold window. rewrite <- !sum_scale, <- sum_add. f_equal. apply map_ext_in. intros jc I.
  apply In_indices, inb_app_split in I as [j [cc [-> [J I]]]]. apply inb1 in I as [q [-> Q]]. pose proof (inb_length _ _ J).
  rewrite firstn_app_exact by lia. rewrite app_nth2 by lia. replace (d - List.length j) with 0 by lia. change (nth 0 [q] 0) with q.
  set (w := W j q r).
  assert (Z2 : zero = add (mul s1 zero) (mul s2 zero) :> A) by (rewrite !ar_mzero_r, (ar_zero EX); reflexivity).
  assert (D2 : forall u v : A, mul (add (mul s1 u) (mul s2 v)) w = add (mul s1 (mul u w)) (mul s2 (mul v w))).
  { intros u v. rewrite (ar_mcomm EX), (ar_dist EX). f_equal; rewrite (ar_mcomm EX w), <- (ar_massoc EX); reflexivity. }
  destruct (src p j) as [i|] eqn:SR; cbn [option_map].
  - rewrite (H i q j Q J SR). destruct T as [-> | ->]; unfold cterm, tterm, or_zero; apply D2.
  - destruct T as [-> | ->]; unfold cterm, tterm, or_zero; [|exact Z2]. rewrite !(ar_mzero EX). exact Z2.
Qed.

Lemma window_weights d src (term : option A -> A -> A) k C s1 s2 (x : list nat -> nat -> A) W W1 W2 p r :
  (term = cterm \/ term = tterm) -> List.length k = d ->
  (forall j q, inb k j -> q < C -> W j q r = add (mul s1 (W1 j q r)) (mul s2 (W2 j q r))) ->
  window d src term k C x W p r = add (mul s1 (window d src term k C x W1 p r)) (mul s2 (window d src term k C x W2 p r)).
Proof.
  intros T L H. unfold window. rewrite <- !sum_scale, <- sum_add. f_equal. apply map_ext_in. intros jc I.
  apply In_indices, inb_app_split in I as [j [cc [-> [J I]]]]. apply inb1 in I as [q [-> Q]]. pose proof (inb_length _ _ J).
  rewrite firstn_app_exact by lia. rewrite app_nth2 by lia. replace (d - List.length j) with 0 by lia. change (nth 0 [q] 0) with q.
  rewrite (H j q J Q). set (w1 := W1 j q r). set (w2 := W2 j q r).
  assert (D2 : forall u : A, mul u (add (mul s1 w1) (mul s2 w2)) = add (mul s1 (mul u w1)) (mul s2 (mul u w2))).
  { intros u. rewrite (ar_dist EX). rewrite !(ar_massoc EX), !(ar_mcomm EX u). reflexivity. }
  destruct (src p j) as [i|]; cbn [option_map]; destruct T as [-> | ->]; unfold cterm, tterm, or_zero; try apply D2.
  rewrite !ar_mzero_r, (ar_zero EX). reflexivity.
Qed.

End Sums.

(** ** The formula of a layer *)

Section Form.
Context {A : Type} {RA : Arith A}.
Context (G : group) (d : nat) (E : list symmetry) (eq : bool) (OK : group_ok G d E eq).
Context (tr valued : bool) (act dom : list nat) (c C o : nat) (k s dl eb ea : list nat) (same ub : bool).

Section Sizes.
Context (m : list nat).
Let ke := vzip dilated k dl.
Let m1 := padded eb m ea.
Let pads := builtin_pads (padding_string same) m1 ke s.
Let m2 := padded (map fst pads) m1 (map snd pads).

Definition layer_src : list nat -> list nat -> option (list nat) :=
  if tr then tsrc m1 s dl (vzip (transpose_before (padding_string same)) ke s)
  else csrc m s dl (vzip Nat.add eb (map fst pads)).
Definition layer_term : option A -> A -> A := if tr then tterm else cterm.
Definition layer_in (X : nat -> list nat -> nat -> A) : nat -> list nat -> nat -> A := if tr then bordered eb m X else X.
Definition layer_runs : bool := if tr then true else forallb (fun p => fst p <=? snd p)%nat (combine ke m2).
Definition layer_outs : list nat := if tr then touts (padding_string same) m1 ke s else outs m2 ke s.
Definition layer_value (kinit : list nat -> A) (X : nat -> list nat -> nat -> A) (bi : nat) (p : list nat) (h oo : nat) : A :=
  window d layer_src layer_term k C (layer_in X bi)
    (kval G E valued dom act c o k C (tab (k ++ (if tr then [o; C] else [C; o])) kinit)) p (h * o + oo).
End Sizes.

Lemma layer_form f kinit binit (L : conv_layer A) (x : tensor A) b m g X :
  conv_facts G d E eq tr valued act dom c C o k s dl eb ea same ub f kinit binit L -> cl_channels L = Some c ->
  List.length m = d -> shape x = signal_shape valued b m g c -> merged d valued x b m C X ->
  apply L x = if layer_runs m
    then Ok (tab (b :: layer_outs m ++ [List.length act; o])
               (sig4 d (fun bi p h oo => f (biased ub binit (layer_value m kinit X bi p h oo) oo))))
    else Err BackendError.
Proof.
  intros CF CH LM SH MG. unfold apply.
  rewrite (conv_apply_call G d E eq tr valued act dom c C o k s dl eb ea same ub f kinit binit L x b m g CF CH LM SH).
  unfold layer_runs, layer_outs, layer_value, layer_in, layer_term, layer_src. destruct tr.
  - rewrite (conv_transpose_call_eq G d E eq OK valued act dom c C o k s dl eb ea same ub f kinit binit L x b m X CF LM MG). reflexivity.
  - rewrite (conv_call_eq G d E eq OK valued act dom c C o k s dl eb ea same ub f kinit binit L x b m X CF LM MG).
    cbv zeta. destruct (forallb _ _); reflexivity.
Qed.

Lemma layer_term_cases : layer_term = cterm \/ layer_term = tterm.
Proof. unfold layer_term. destruct tr; [right|left]; reflexivity. Qed.

Lemma length_layer_outs f kinit binit (L : conv_layer A) m :
  conv_facts G d E eq tr valued act dom c C o k s dl eb ea same ub f kinit binit L -> List.length m = d ->
  List.length (layer_outs m) = d.
Proof.
  intros CF LM. destruct CF. unfold layer_outs.
  assert (LK : List.length (vzip dilated k dl) = d) by (rewrite length_vzip; lia).
  assert (L1 : List.length (padded eb m ea) = d) by (apply length_padded; assumption).
  destruct tr; [apply length_touts; assumption|]. apply length_outs; try assumption.
  apply length_padded; rewrite ?map_length; try assumption; apply length_builtin; assumption.
Qed.

(** The weights can be replaced. *)
Lemma replaced_weights f kinit binit kinit' binit' (L : conv_layer A) :
  conv_facts G d E eq tr valued act dom c C o k s dl eb ea same ub f kinit binit L ->
  conv_facts G d E eq tr valued act dom c C o k s dl eb ea same ub f kinit' binit'
    (cl_set_weights L (Some (tab (k ++ (if tr then [o; C] else [C; o])) kinit')) (if ub then Some (tab [o] binit') else None) (cl_filters L)).
Proof. intros F. destruct F. split; assumption || reflexivity. Qed.

End Form.

(** Both parts of a signal with merged channels. *)
Lemma merged_combination {A} {RA : Arith A} d s1 s2 valued (x1 x2 : tensor A) b m g c :
  wf x1 -> wf x2 -> List.length m = d -> shape x1 = signal_shape valued b m g c -> shape x2 = signal_shape valued b m g c ->
  merged d valued (combination s1 x1 s2 x2) b m (if valued then g * c else c)
    (fun bi p q => add (mul s1 (merged_fun valued x1 c bi p q)) (mul s2 (merged_fun valued x2 c bi p q))).
Proof.
  intros W1 W2 L S1 S2.
  assert (SH : shape x1 = shape x2) by congruence. rewrite (combination_eq _ _ _ _ W1 W2 SH), S1.
  unfold signal_shape. destruct valued.
  - pose proof (merged_group d b m g c (fun bi p h r => add (mul s1 (fun4 x1 bi p h r)) (mul s2 (fun4 x2 bi p h r))) L) as M.
    rewrite (tab_sig4 d b m g c _ L). exact M.
  - rewrite (tab_sig3 d b m c _ L). exact (merged_grid d b m c (fun bi p r => add (mul s1 (fun3 x1 bi p r)) (mul s2 (fun3 x2 bi p r))) L).
Qed.
