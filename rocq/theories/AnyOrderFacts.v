(** Sums of products that are evaluated in any order, with rounding errors. *)
From Coq Require Import QArith Qcanon Qabs Qpower Lqa Permutation.
From Verif Require Export RoundingFacts Properties_EntryMaps ActionMapFacts EquivSpec.
Local Open Scope Q_scope.
Local Open Scope list_scope.

(** A sum of products of numbers that has not been evaluated. *)
Definition formula : Type := list (list Qc).
Definition symbolic : Arith formula :=
  {| arith_zero := []; add := @app (list Qc); mul := fun p q => flat_map (fun a => map (app a) q) p |}.
Definition number (v : Qc) : formula := [[v]].

(** Its exact value. *)
Definition product (l : list Qc) : Qc := fold_right Qcmult 1%Qc l.
Definition value (p : formula) : Qc := fold_right Qcplus 0%Qc (map product p).

(** [r] is [q] up to a relative error of at most [u]. *)
Definition close (u : Q) (r q : Qc) : Prop := Qabs (r - q) <= u * Qabs q.

(** What a program may compute for the sum: the products may be added in any order and with
    any bracketing, and may be rounded before they are added or not (fused multiply-add); the
    errors of different operations need not be related to each other. *)
Inductive evaluates (u : Q) : formula -> Qc -> Prop :=
| ev_nothing : evaluates u [] 0%Qc
| ev_number v : evaluates u [[v]] v
| ev_product a b r : close u r (a * b)%Qc -> evaluates u [[a; b]] r
| ev_sum p q v w r : p <> [] -> q <> [] -> evaluates u p v -> evaluates u q w -> close u r (v + w)%Qc -> evaluates u (p ++ q) r
| ev_fused p a b v r : evaluates u p v -> close u r (v + a * b)%Qc -> evaluates u (p ++ [[a; b]]) r
| ev_order p q v : Permutation p q -> evaluates u p v -> evaluates u q v.

Lemma value_app p q : value (p ++ q) = (value p + value q)%Qc.
Proof. unfold value. induction p as [|a p IH]; cbn [app map fold_right]; [ring|]. rewrite IH. ring. Qed.

Lemma product_app l l' : product (l ++ l') = (product l * product l')%Qc.
Proof. unfold product. induction l as [|v l IH]; cbn [app fold_right]; [ring|]. rewrite IH. ring. Qed.

Lemma value_times a q : value (map (app a) q) = (product a * value q)%Qc.
Proof.
  unfold value. induction q as [|b q IH]; cbn [map fold_right]; [ring|]. rewrite IH, product_app. ring.
Qed.

Lemma value_respects : @respects_arithmetic formula Qc symbolic exact_Qc value.
Proof.
  split; [reflexivity|]. split; intros p q; cbn [add mul symbolic exact_Qc].
  - apply value_app.
  - induction p as [|a p IH]; cbn [flat_map]; [change (value []) with 0%Qc; ring|]. rewrite value_app, IH, value_times.
    change (value (a :: p)) with (product a + value p)%Qc. ring.
Qed.

Lemma value_number v : value (number v) = v.
Proof. unfold value, number, product. cbn [map fold_right]. ring. Qed.

(** The sum of the absolute values of the products. *)
Definition magnitude (p : formula) : Q := fold_right Qplus 0 (map (fun l => Qabs (product l)) p).

Lemma magnitude_app p q : magnitude (p ++ q) == magnitude p + magnitude q.
Proof. unfold magnitude. induction p as [|a p IH]; cbn [app map fold_right]; [lra|]. rewrite IH. lra. Qed.

Lemma magnitude_nonneg p : 0 <= magnitude p.
Proof. unfold magnitude. induction p as [|a p IH]; cbn [map fold_right]; [lra|]. pose proof (Qabs_nonneg (product a)). lra. Qed.

Lemma magnitude_perm p q : Permutation p q -> magnitude p == magnitude q.
Proof.
  unfold magnitude. induction 1; cbn [map fold_right] in *; try lra.
Qed.

Lemma value_perm p q : Permutation p q -> value p = value q.
Proof.
  unfold value. induction 1; cbn [map fold_right] in *; [reflexivity|congruence|ring|congruence].
Qed.

Lemma value_magnitude p : Qabs (value p) <= magnitude p.
Proof.
  unfold value, magnitude. induction p as [|a p IH]; cbn [map fold_right]; [apply Qle_refl|]. rewrite this_add.
  eapply Qle_trans; [apply Qabs_triangle|]. lra.
Qed.

Lemma power_mono u n n' : 0 <= u -> (n <= n')%nat -> power u n <= power u n'.
Proof.
  intros U L. induction L as [|n' L IH]; [apply Qle_refl|]. rewrite power_S by exact U. pose proof (power_ge u n' U). nra.
Qed.

(** The error of an evaluation with [n] terms. *)
Lemma evaluation_error u p v : 0 <= u -> evaluates u p v ->
  Qabs (v - value p) <= (power u (List.length p) - 1) * magnitude p.
Proof.
  intros U. induction 1 as [|v|a b r C|p q v w r NP NQ Ep IHp Eq IHq C|p a b v r Ep IHp C|p q v P E IH].
  - change (value []) with 0%Qc. unfold magnitude. cbn [List.length map fold_right]. apply abs_le. change (this 0%Qc) with 0. lra.
  - rewrite (value_number v : value [[v]] = v). pose proof (power_ge u 1 U). pose proof (magnitude_nonneg [[v]]).
    assert (0 <= (power u (List.length [[v]]) - 1) * magnitude [[v]]) by (cbn [List.length]; apply Qmult_le_0_compat; lra).
    apply abs_le. lra.
  - assert (EV : value [[a; b]] = (a * b)%Qc) by (unfold value, product; cbn [map fold_right]; ring).
    assert (EM : magnitude [[a; b]] == Qabs ((a * b)%Qc)).
    { unfold magnitude, product. cbn [map fold_right]. assert (EP : (a * (b * 1))%Qc = (a * b)%Qc) by ring. rewrite EP. lra. }
    rewrite EV, EM. cbn [List.length]. rewrite power_S, power_0 by exact U. unfold close in C. lra.
  - set (n := List.length p) in *. set (n' := List.length q) in *. rewrite app_length. fold n n'.
    assert (N : (0 < n)%nat) by (subst n; destruct p; [contradiction NP; reflexivity|cbn; lia]).
    assert (N' : (0 < n')%nat) by (subst n'; destruct q; [contradiction NQ; reflexivity|cbn; lia]).
    rewrite value_app, magnitude_app, this_add. unfold close in C. rewrite this_add in C.
    pose proof (magnitude_nonneg p) as MP. pose proof (magnitude_nonneg q) as MQ.
    pose proof (value_magnitude p) as VP. pose proof (value_magnitude q) as VQ.
    set (Mp := magnitude p) in *. set (Mq := magnitude q) in *.
    replace (n + n')%nat with (S (n + n' - 1)) by lia. rewrite (power_S u _ U). set (g := power u (n + n' - 1)).
    pose proof (power_mono u n (n + n' - 1) U ltac:(lia)) as G1. pose proof (power_mono u n' (n + n' - 1) U ltac:(lia)) as G2. fold g in G1, G2.
    assert (B1 : Qabs (v - value p) <= (g - 1) * Mp).
    { eapply Qle_trans; [exact IHp|]. apply Qmult_le_compat_r; lra. }
    assert (B2 : Qabs (w - value q) <= (g - 1) * Mq).
    { eapply Qle_trans; [exact IHq|]. apply Qmult_le_compat_r; lra. }
    assert (B3 : Qabs (v + w) <= g * (Mp + Mq)).
    { apply abs_le in B1, B2, VP, VQ. apply abs_le. lra. }
    assert (B4 : u * Qabs (v + w) <= u * (g * (Mp + Mq))) by (rewrite !(Qmult_comm u); apply Qmult_le_compat_r; assumption).
    apply abs_le in C. apply abs_le in B1, B2. apply abs_le. lra.
  - set (n := List.length p) in *. rewrite app_length. cbn [List.length]. fold n.
    assert (EV : value [[a; b]] = (a * b)%Qc) by (unfold value, product; cbn [map fold_right]; ring).
    assert (EM : magnitude [[a; b]] == Qabs ((a * b)%Qc)).
    { unfold magnitude, product. cbn [map fold_right]. assert (EP : (a * (b * 1))%Qc = (a * b)%Qc) by ring. rewrite EP. lra. }
    rewrite value_app, magnitude_app, EV, EM, this_add. unfold close in C. rewrite this_add in C. set (t := this (a * b)%Qc) in *.
    pose proof (magnitude_nonneg p) as MP. pose proof (value_magnitude p) as VP. set (Mp := magnitude p) in *.
    replace (n + 1)%nat with (S n) by lia. rewrite (power_S u _ U). pose proof (power_ge u n U) as G. set (g := power u n) in *.
    pose proof (abs_bounds t) as T. pose proof (Qabs_nonneg t) as TP.
    assert (B3 : Qabs (v + t) <= g * Mp + Qabs t).
    { apply abs_le in IHp, VP. apply abs_le. lra. }
    assert (B4 : u * Qabs (v + t) <= u * (g * Mp + Qabs t)) by (rewrite !(Qmult_comm u); apply Qmult_le_compat_r; assumption).
    assert (B5 : 0 <= (1 + u) * (g - 1) * Qabs t) by (apply Qmult_le_0_compat; [apply Qmult_le_0_compat; lra|exact TP]).
    apply abs_le in C. apply abs_le in IHp. apply abs_le. lra.
  - rewrite <- (value_perm _ _ P), <- (magnitude_perm _ _ P), <- (Permutation_length P). exact IH.
Qed.

(** ** The formulas of a layer *)

Definition at_most_number (X : Q) (p : formula) : Prop := p = [] \/ exists v, p = number v /\ Qabs v <= X.
Definition is_product (X W : Q) (l : list Qc) : Prop := exists a b, l = [a; b] /\ Qabs a <= X /\ Qabs b <= W.

Lemma product_bounded X W l : 0 <= X -> is_product X W l -> Qabs (product l) <= X * W.
Proof.
  intros PX [a [b [-> [HA HB]]]]. unfold product. cbn [fold_right]. assert (EP : (a * (b * 1))%Qc = (a * b)%Qc) by ring. rewrite EP, this_mul, Qabs_Qmult.
  pose proof (Qabs_nonneg a). pose proof (Qabs_nonneg b). nra.
Qed.

Lemma magnitude_products X W p : 0 <= X -> Forall (is_product X W) p -> magnitude p <= inject_Z (Z.of_nat (List.length p)) * (X * W).
Proof.
  intros PX F. unfold magnitude. induction F as [|l p H F IH]; cbn [map fold_right List.length]; [change (inject_Z (Z.of_nat 0)) with 0; lra|].
  rewrite Nat2Z.inj_succ. unfold Z.succ. rewrite inject_Z_plus. change (inject_Z 1) with 1. pose proof (product_bounded X W l PX H). lra.
Qed.

Lemma times_numbers X W p q : at_most_number X p -> at_most_number W q ->
  Forall (is_product X W) (@mul _ symbolic p q) /\ (List.length (@mul _ symbolic p q) <= 1)%nat.
Proof.
  intros [->|[a [-> HA]]] [->|[b [-> HB]]]; cbn [mul symbolic flat_map map app number List.length]; try (split; [apply Forall_nil|lia]).
  split; [|lia]. apply Forall_cons; [|apply Forall_nil]. exists a, b. split; [reflexivity|]. split; assumption.
Qed.

Lemma sum_of_products {I} X W (f : I -> formula) l :
  (forall i, In i l -> Forall (is_product X W) (f i) /\ (List.length (f i) <= 1)%nat) ->
  Forall (is_product X W) (@sum _ symbolic (map f l)) /\ (List.length (@sum _ symbolic (map f l)) <= List.length l)%nat.
Proof.
  induction l as [|i l IH]; intros H; [split; [apply Forall_nil|apply le_n]|].
  destruct (IH (fun j J => H j (or_intror J))) as [I1 I2]. destruct (H i (or_introl eq_refl)) as [H1 H2].
  unfold sum in *. cbn [map fold_right add symbolic]. cbn [add symbolic] in I1, I2. split; [apply Forall_app; split; assumption|]. rewrite app_length. cbn [List.length]. lia.
Qed.

Lemma products_evaluate u X W p : 0 <= u -> Forall (is_product X W) p -> exists v, evaluates u p v.
Proof.
  intros U. induction 1 as [|l p [a [b [-> _]]] F [v IH]]; [exists 0%Qc; apply ev_nothing|].
  exists (v + a * b)%Qc. apply (ev_order u (p ++ [[a; b]])); [symmetry; apply Permutation_cons_append|].
  apply (ev_fused u p a b v); [exact IH|]. unfold close.
  set (t := this (v + a * b)%Qc). pose proof (Qabs_nonneg t). assert (0 <= u * Qabs t) by (apply Qmult_le_0_compat; assumption).
  apply abs_le. lra.
Qed.

(** At most [n] products of entries at most [X] with weights at most [W], and perhaps a bias
    at most [B]. *)
Definition sum_for (n : nat) (X W B : Q) (p : formula) : Prop :=
  exists q r, p = q ++ r /\ Forall (is_product X W) q /\ (List.length q <= n)%nat /\ (r = [] \/ exists b, r = number b /\ Qabs b <= B).

Lemma sum_for_evaluates u n X W B p : 0 <= u -> sum_for n X W B p -> exists v, evaluates u p v.
Proof.
  intros U [q [r [-> [F [_ HR]]]]]. destruct (products_evaluate u X W q U F) as [v EV].
  destruct HR as [->|[b [-> _]]]; [rewrite app_nil_r; exists v; exact EV|].
  destruct q as [|l q]; [exists b; apply ev_number|]. exists (v + b)%Qc. apply (ev_sum u _ _ v b); [discriminate|discriminate|exact EV|apply ev_number|].
  unfold close. set (t := this (v + b)%Qc). pose proof (Qabs_nonneg t). assert (0 <= u * Qabs t) by (apply Qmult_le_0_compat; assumption).
  apply abs_le. lra.
Qed.

Lemma sum_for_error u n X W B p v : 0 <= u -> 0 <= X -> 0 <= W -> 0 <= B -> sum_for n X W B p -> evaluates u p v ->
  Qabs (v - value p) <= (power u (n + 1) - 1) * (inject_Z (Z.of_nat n) * (X * W) + B).
Proof.
  intros U PX PW PB [q [r [-> [F [LQ HR]]]]] EV. pose proof (evaluation_error u _ v U EV) as H. rewrite magnitude_app, app_length in H.
  pose proof (magnitude_products X W q PX F) as MQ. pose proof (Qmult_le_0_compat X W PX PW) as PT.
  assert (NN : inject_Z (Z.of_nat (List.length q)) * (X * W) <= inject_Z (Z.of_nat n) * (X * W)).
  { apply Qmult_le_compat_r; [|exact PT]. rewrite <- Zle_Qle. apply inj_le. exact LQ. }
  assert (MR : 0 <= magnitude r /\ magnitude r <= B /\ (List.length r <= 1)%nat).
  { split; [apply magnitude_nonneg|]. destruct HR as [->|[b [-> HB]]]; [split; [exact PB|cbn [List.length]; lia]|]. split; [|cbn [number List.length]; lia].
    unfold magnitude, number, product. cbn [map fold_right]. assert (EP : (b * 1)%Qc = b) by ring. rewrite EP. lra. }
  destruct MR as [R0 [R1 LR]]. pose proof (magnitude_nonneg q) as Q0.
  pose proof (power_mono u (List.length q + List.length r) (n + 1) U ltac:(lia)) as PM. pose proof (power_ge u (List.length q + List.length r) U) as PG.
  eapply Qle_trans; [exact H|]. set (g := power u (List.length q + List.length r)) in *. set (g' := power u (n + 1)) in *.
  apply Qle_trans with ((g' - 1) * (magnitude q + magnitude r)); [apply Qmult_le_compat_r; lra|].
  rewrite !(Qmult_comm (g' - 1)). apply Qmult_le_compat_r; lra.
Qed.

Section LayerFormula.
Context (G : group) (d : nat) (E : list symmetry).
Context (tr valued : bool) (act dom : list nat) (c C o : nat) (k s dl eb ea : list nat) (same ub : bool).
Context (kinit binit : list nat -> Qc) (W X B : Q).
Context (HK : bounded W (tab (k ++ (if tr then [o; C] else [C; o])) kinit)) (HB : ub = true -> bounded B (tab [o] binit)).

Lemma at_most_nth M (l : list Qc) i : Forall (fun v : Qc => Qabs v <= M) l -> at_most_number M (nth i (map number l) []).
Proof.
  intros H. rewrite Forall_forall in H. destruct (lt_dec i (List.length l)) as [L|L].
  - right. exists (nth i l 0%Qc). split; [|apply H, nth_In, L].
    rewrite (nth_indep _ [] (number 0%Qc)) by (rewrite map_length; exact L). apply map_nth.
  - left. rewrite nth_overflow by (rewrite map_length; lia). reflexivity.
Qed.

Lemma layer_value_formula m (F : nat -> list nat -> nat -> formula) bi p h oo :
  List.length k = d -> (forall bi i q, (q < C)%nat -> at_most_number X (F bi i q)) ->
  let v := @layer_value formula symbolic G d E tr valued act dom c C o k s dl eb ea same m (fun j => number (kinit j)) F bi p h oo in
  Forall (is_product X W) v /\ (List.length v <= prod k * C)%nat.
Proof.
  intros Lk HF v.
  assert (LI : List.length (indices (k ++ [C])) = (prod k * C)%nat).
  { rewrite length_indices, prod_app. unfold prod at 2. cbn [fold_right]. lia. }
  subst v. unfold layer_value, window. rewrite <- LI. apply sum_of_products.
  intros jc I. apply In_indices, inb_app_split in I as [j [cc [-> [J I]]]]. apply inb1 in I as [q [-> Q]].
  pose proof (inb_length _ _ J) as LJ. rewrite firstn_app_exact by lia. rewrite app_nth2 by lia.
  replace (d - List.length j)%nat with 0%nat by lia. change (nth 0 [q] 0%nat) with q.
  assert (HI : forall i, at_most_number X (@layer_in formula symbolic tr eb m F bi i q)).
  { intros i. unfold layer_in. destruct tr; [|apply HF; exact Q]. unfold bordered. destruct (inside _ _ _); [apply HF; exact Q|left; reflexivity]. }
  assert (HW : at_most_number W (@kval formula symbolic G E valued dom act c o k C (tab (k ++ (if tr then [o; C] else [C; o])) (fun j => number (kinit j))) j q (h * o + oo))).
  { unfold kval, tab. cbn [data]. rewrite <- (map_map kinit number). apply (at_most_nth W). exact HK. }
  set (w := @kval formula symbolic G E valued dom act c o k C _ j q (h * o + oo)) in *.
  unfold layer_term. destruct tr; unfold tterm, cterm, or_zero; destruct (layer_src _ _ _ _ _ _ _ _ p j) as [i|]; cbn [option_map].
  - apply times_numbers; [apply HI|exact HW].
  - split; [apply Forall_nil|]. apply Nat.le_0_l.
  - apply times_numbers; [apply HI|exact HW].
  - apply times_numbers; [left; reflexivity|exact HW].
Qed.

Lemma layer_entry_formula m (F : nat -> list nat -> nat -> formula) bi p h oo :
  List.length k = d -> (forall bi i q, (q < C)%nat -> at_most_number X (F bi i q)) -> (oo < o)%nat ->
  sum_for (prod k * C) X W B
    (@biased formula symbolic ub (fun j => number (binit j))
      (@layer_value formula symbolic G d E tr valued act dom c C o k s dl eb ea same m (fun j => number (kinit j)) F bi p h oo) oo).
Proof.
  intros Lk HF O. destruct (layer_value_formula m F bi p h oo Lk HF) as [E1 E2].
  set (v := @layer_value formula symbolic _ _ _ _ _ _ _ _ _ _ _ _ _ _ _ _ _ _ _ _ _ _ _) in *. unfold biased. destruct ub.
  - exists v, (number (binit [oo])). split; [reflexivity|]. split; [exact E1|]. split; [exact E2|]. right. exists (binit [oo]). split; [reflexivity|].
    specialize (HB eq_refl). unfold bounded in HB. rewrite Forall_forall in HB. apply HB. unfold tab. cbn [data].
    apply in_map. apply In_indices. constructor; [exact O|constructor].
  - exists v, []. split; [symmetry; apply app_nil_r|]. split; [exact E1|]. split; [exact E2|]. left. reflexivity.
Qed.

End LayerFormula.

(** ** Layers with other weights *)

Lemma run_built {A} {RA : Arith A} d tr (a : conv_args A) input kinit binit L x :
  built d tr a input kinit binit L -> run_conv d tr a input kinit binit x = apply L x.
Proof. intros [L0 [I B]]. unfold run_conv. rewrite I. cbn [bind]. rewrite B. reflexivity. Qed.

Lemma run_inv {A} {RA : Arith A} d tr (a : conv_args A) input kinit binit x y :
  run_conv d tr a input kinit binit x = Ok y -> exists L, built d tr a input kinit binit L /\ apply L x = Ok y.
Proof.
  unfold run_conv, built. destruct (conv_init d tr a) as [L0|]; cbn [bind]; [|discriminate].
  destruct (conv_build L0 input kinit binit) as [L|] eqn:EB; cbn [bind]; [|discriminate]. intros H.
  exists L. split; [exists L0; split; [reflexivity|exact EB]|exact H].
Qed.

Lemma tab_same {A} s (f g : list nat -> A) : (forall i, f i = g i) -> tab s f = tab s g.
Proof. intros H. unfold tab. f_equal. apply map_ext. exact H. Qed.

Lemma run_same_weights {A} {RA : Arith A} d tr (a : conv_args A) input kinit binit kinit' binit' x :
  (forall j, kinit j = kinit' j) -> (forall j, binit j = binit' j) ->
  run_conv d tr a input kinit binit x = run_conv d tr a input kinit' binit' x.
Proof.
  intros HK HB. unfold run_conv. apply bind_ext. intros L.
  assert (EB : conv_build L input kinit binit = conv_build L input kinit' binit'); [|rewrite EB; reflexivity].
  unfold conv_build. apply bind_ext. intros T. apply bind_ext. intros ch. apply bind_ext. intros cc. apply bind_ext. intros sh.
  rewrite (tab_same _ _ _ HK), (tab_same _ _ _ HB). reflexivity.
Qed.

Lemma tmap_same {A} (f : A -> A) (x : tensor A) : (forall v, f v = v) -> tmap f x = x.
Proof. intros H. destruct x as [s l]. unfold tmap. cbn [shape data]. f_equal. rewrite (map_ext _ _ H). apply map_id. Qed.

Lemma tmap_tmap {A B C} (f : A -> B) (g : B -> C) (x : tensor A) : tmap g (tmap f x) = tmap (fun v => g (f v)) x.
Proof. unfold tmap. cbn [shape data]. f_equal. apply map_map. Qed.

(** The exact output is the value of the formulas. *)
Lemma value_of_run d tr (a : conv_args Qc) input kinit binit x :
  @run_conv Qc exact_Qc d tr (with_activation (fun v => v) a) input kinit binit x
  = rmap (tmap value) (@run_conv formula symbolic d tr (with_activation (fun p => p) a) input (fun j => number (kinit j)) (fun j => number (binit j)) (tmap number x)).
Proof.
  rewrite <- (@C91_convolutions formula Qc symbolic exact_Qc value (fun v => v) d tr (with_activation (fun p => p) a) input
    (fun j => number (kinit j)) (fun j => number (binit j)) (tmap number x) value_respects (fun v => eq_refl)).
  rewrite tmap_tmap, (tmap_same _ x value_number). apply run_same_weights; intros j; symmetry; apply value_number.
Qed.

(** ** The order of Keras.v *)

Definition stands_for (p : formula) (v : Qc) : Prop := (p = [] /\ v = 0%Qc) \/ p = number v.

Lemma nth_stands_for (l : list Qc) i : stands_for (nth i (map number l) []) (nth i l 0%Qc).
Proof.
  destruct (lt_dec i (List.length l)) as [L|L].
  - right. rewrite (nth_indep _ [] (number 0%Qc)) by (rewrite map_length; exact L). apply map_nth.
  - left. rewrite !nth_overflow by (rewrite ?map_length; lia). split; reflexivity.
Qed.

Section OneOrder.
Context (rnd : Qc -> Qc) (u : Q) (U : 0 <= u) (RD : rounds u rnd) (ID : forall q, rnd (rnd q) = rnd q).

Lemma rounded_zero : rnd 0%Qc = 0%Qc.
Proof.
  pose proof (RD 0%Qc) as R. change (Qabs (this 0%Qc)) with 0 in R. apply abs_le in R. change (this 0%Qc) with 0 in R. apply Qc_is_canon. change (this 0%Qc) with 0. lra.
Qed.

Definition in_this_order (p : formula) (v : Qc) : Prop := evaluates u p v /\ rnd v = v /\ (p = [] -> v = 0%Qc).

Lemma one_term p q v w : stands_for p v -> stands_for q w -> in_this_order (@mul _ symbolic p q) (@mul _ (rounded rnd) v w).
Proof.
  assert (Z : in_this_order [] 0%Qc) by (split; [apply ev_nothing|]; split; [apply rounded_zero|reflexivity]).
  cbn [mul symbolic rounded]. intros [[-> ->]| ->] [[-> ->]| ->]; cbn [flat_map map app number].
  - assert (EZ : (0 * 0)%Qc = 0%Qc) by ring. rewrite EZ, rounded_zero. exact Z.
  - assert (EZ : (0 * w)%Qc = 0%Qc) by ring. rewrite EZ, rounded_zero. exact Z.
  - assert (EZ : (v * 0)%Qc = 0%Qc) by ring. rewrite EZ, rounded_zero. exact Z.
  - split; [apply ev_product; apply RD|]. split; [apply ID|discriminate].
Qed.

Lemma one_sum p q v w : in_this_order p v -> in_this_order q w -> in_this_order (p ++ q) (rnd (v + w)%Qc).
Proof.
  intros [E1 [R1 Z1]] [E2 [R2 Z2]]. destruct p as [|l p].
  - rewrite (Z1 eq_refl). assert (EZ : (0 + w)%Qc = w) by ring. rewrite EZ, R2. split; [exact E2|]. split; [exact R2|exact Z2].
  - destruct q as [|l' q].
    + rewrite (Z2 eq_refl). assert (EZ : (v + 0)%Qc = v) by ring. rewrite EZ, R1, app_nil_r. split; [exact E1|]. split; [exact R1|exact Z1].
    + split; [apply (ev_sum u _ _ v w); [discriminate|discriminate|exact E1|exact E2|apply RD]|]. split; [apply ID|discriminate].
Qed.

Lemma one_total {I} (f : I -> formula) (h : I -> Qc) l : (forall i, In i l -> in_this_order (f i) (h i)) ->
  in_this_order (@sum _ symbolic (map f l)) (@sum _ (rounded rnd) (map h l)).
Proof.
  induction l as [|i l IH]; intros H.
  - split; [apply ev_nothing|]. split; [apply rounded_zero|reflexivity].
  - unfold sum in *. cbn [map fold_right add symbolic rounded]. apply one_sum; [apply H; left; reflexivity|]. apply IH. intros j J. apply H. right. exact J.
Qed.

Lemma layer_value_order G d E (tr valued : bool) act dom c C o k s dl eb ea same kinit m (F : nat -> list nat -> nat -> formula) (F' : nat -> list nat -> nat -> Qc) bi p h oo :
  List.length k = d -> (forall bi i q, stands_for (F bi i q) (F' bi i q)) ->
  in_this_order (@layer_value formula symbolic G d E tr valued act dom c C o k s dl eb ea same m (fun j => number (kinit j)) F bi p h oo)
                (@layer_value Qc (rounded rnd) G d E tr valued act dom c C o k s dl eb ea same m kinit F' bi p h oo).
Proof.
  intros Lk HF. unfold layer_value, window. apply one_total.
  intros jc I. set (j := firstn d jc). set (q := nth d jc 0%nat).
  assert (HI : forall i, stands_for (@layer_in formula symbolic tr eb m F bi i q) (@layer_in Qc (rounded rnd) tr eb m F' bi i q)).
  { intros i. unfold layer_in. destruct tr; [|apply HF]. unfold bordered. destruct (inside _ _ _); [apply HF|left; split; reflexivity]. }
  assert (HW : stands_for (@kval formula symbolic G E valued dom act c o k C (tab (k ++ (if tr then [o; C] else [C; o])) (fun j => number (kinit j))) j q (h * o + oo))
                          (@kval Qc (rounded rnd) G E valued dom act c o k C (tab (k ++ (if tr then [o; C] else [C; o])) kinit) j q (h * o + oo))).
  { unfold kval, tab. cbn [data]. rewrite <- (map_map kinit number). apply nth_stands_for. }
  unfold layer_term. destruct tr; unfold tterm, cterm, or_zero; destruct (layer_src _ _ _ _ _ _ _ _ p j) as [i|]; cbn [option_map].
  - apply one_term; [apply HI|exact HW].
  - split; [apply ev_nothing|]. split; [apply rounded_zero|reflexivity].
  - apply one_term; [apply HI|exact HW].
  - apply one_term; [left; split; reflexivity|exact HW].
Qed.

Lemma layer_entry_order G d E (tr valued : bool) act dom c C o k s dl eb ea same ub kinit binit m (F : nat -> list nat -> nat -> formula) (F' : nat -> list nat -> nat -> Qc) bi p h oo :
  List.length k = d -> (forall bi i q, stands_for (F bi i q) (F' bi i q)) -> (forall j, rnd (binit j) = binit j) ->
  evaluates u
    (@biased formula symbolic ub (fun j => number (binit j))
      (@layer_value formula symbolic G d E tr valued act dom c C o k s dl eb ea same m (fun j => number (kinit j)) F bi p h oo) oo)
    (@biased Qc (rounded rnd) ub binit
      (@layer_value Qc (rounded rnd) G d E tr valued act dom c C o k s dl eb ea same m kinit F' bi p h oo) oo).
Proof.
  intros Lk HF HB. pose proof (layer_value_order G d E tr valued act dom c C o k s dl eb ea same kinit m F F' bi p h oo Lk HF) as H.
  unfold biased. destruct ub; [|apply H]. apply (one_sum _ _ _ _ H). split; [apply ev_number|]. split; [apply HB|discriminate].
Qed.

End OneOrder.
