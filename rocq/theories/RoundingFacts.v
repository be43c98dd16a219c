(** Arithmetic with rounding errors, over the rational numbers, and what the errors of
    the sums in a convolution add up to. *)
From Coq Require Import QArith Qcanon Qabs Qpower Lqa.
From Verif Require Export LinearFacts.
Local Open Scope Q_scope.
Local Open Scope list_scope.

(** Exact arithmetic, and arithmetic that rounds the result of every addition and
    multiplication.  [Qc] are the rational numbers in lowest terms, which include all finite
    floating point numbers. *)
Definition exact_Qc : Arith Qc := {| arith_zero := 0%Qc; add := Qcplus; mul := Qcmult |}.
Definition rounded (rnd : Qc -> Qc) : Arith Qc :=
  {| arith_zero := 0%Qc; add := fun a b => rnd (a + b)%Qc; mul := fun a b => rnd (a * b)%Qc |}.

(** Rounding with relative error at most [u] (2^-24 for binary32 rounded to nearest, as long as
    nothing overflows or underflows). *)
Definition rounds (u : Q) (rnd : Qc -> Qc) : Prop := forall q : Qc, Qabs (rnd q - q) <= u * Qabs q.

(** All entries have absolute value at most [M]. *)
Definition bounded (M : Q) (x : tensor Qc) : Prop := Forall (fun v : Qc => Qabs v <= M) (data x).

(** Two tensors of the same shape whose entries differ by at most [e]. *)
Definition near (e : Q) (y y' : tensor Qc) : Prop :=
  shape y = shape y' /\ Forall2 (fun v v' : Qc => Qabs (v - v') <= e) (data y) (data y').

(** An activation that does not enlarge differences, like the identity or relu. *)
Definition nonexpansive (f : Qc -> Qc) : Prop := forall v v' : Qc, Qabs (f v - f v') <= Qabs (v - v').

Lemma this_add (a b : Qc) : this (a + b)%Qc == a + b.
Proof. unfold Qcplus. cbn [this Q2Qc]. apply Qred_correct. Qed.
Lemma this_mul (a b : Qc) : this (a * b)%Qc == a * b.
Proof. unfold Qcmult. cbn [this Q2Qc]. apply Qred_correct. Qed.

Lemma abs_le x y : Qabs x <= y <-> - y <= x /\ x <= y.
Proof. apply Qabs_Qle_condition. Qed.

Lemma abs_bounds x : - Qabs x <= x /\ x <= Qabs x.
Proof. apply abs_le. apply Qle_refl. Qed.

Definition power (u : Q) (n : nat) : Q := (1 + u) ^ (Z.of_nat n).

Lemma power_S u n : 0 <= u -> power u (S n) == (1 + u) * power u n.
Proof.
  intros U. unfold power. rewrite Nat2Z.inj_succ. unfold Z.succ. rewrite Qpower_plus by (intros E; lra).
  rewrite Qmult_comm. cbn [Qpower Qpower_positive pow_pos]. apply Qeq_refl.
Qed.
Lemma power_0 u : power u 0 == 1.
Proof. reflexivity. Qed.
Lemma power_ge u n : 0 <= u -> 1 <= power u n.
Proof.
  intros U. induction n as [|n IH]; [rewrite power_0; lra|]. rewrite power_S by exact U. nra.
Qed.
Lemma power_ge_S u n : 0 <= u -> 1 + u <= power u (S n).
Proof. intros U. rewrite power_S by exact U. pose proof (power_ge u n U). nra. Qed.

Section Rounding.
Context (rnd : Qc -> Qc) (u : Q) (U : 0 <= u) (RD : rounds u rnd).

Lemma rounded_close (q : Qc) x : q == x -> Qabs (rnd q - x) <= u * Qabs x.
Proof. intros E. pose proof (RD q) as R. rewrite E in R. exact R. Qed.

(** One product. *)
Lemma product_error (x w : Qc) X W : Qabs x <= X -> Qabs w <= W -> 0 <= X ->
  Qabs ((x * w)%Qc) <= X * W /\ Qabs (rnd (x * w)%Qc - (x * w)%Qc) <= u * (X * W).
Proof.
  intros HX HW PX. assert (E : Qabs ((x * w)%Qc) <= X * W).
  { rewrite this_mul, Qabs_Qmult. pose proof (Qabs_nonneg x). pose proof (Qabs_nonneg w). nra. }
  split; [exact E|]. eapply Qle_trans; [apply RD|]. pose proof (Qabs_nonneg ((x * w)%Qc)). nra.
Qed.

Lemma zero_product (w : Qc) : (0 * w)%Qc = 0%Qc.
Proof. ring. Qed.

(** One addition. *)
Lemma addition_error (a a' s s' : Qc) A S ea es :
  Qabs a' <= A -> Qabs s' <= S -> Qabs (a - a') <= ea -> Qabs (s - s') <= es ->
  Qabs (rnd (a + s)%Qc - (a' + s')%Qc) <= (1 + u) * (ea + es) + u * (A + S) /\ Qabs ((a' + s')%Qc) <= A + S.
Proof.
  intros HA HS EA ES.
  assert (Y : Qabs ((a' + s')%Qc) <= A + S).
  { rewrite this_add. eapply Qle_trans; [apply Qabs_triangle|]. lra. }
  split; [|exact Y].
  pose proof (rounded_close (a + s)%Qc (a + s) (this_add a s)) as R.
  assert (D : Qabs (a + s) <= (A + S) + (ea + es)).
  { apply abs_le. apply abs_le in HA, HS, EA, ES. lra. }
  rewrite this_add. apply abs_le in R. apply abs_le in EA, ES. apply abs_le.
  assert (M : u * Qabs (a + s) <= u * ((A + S) + (ea + es))).
  { rewrite !(Qmult_comm u). apply Qmult_le_compat_r; [exact D|exact U]. }
  lra.
Qed.

(** The sum of [n] products of size at most [T]. *)
Lemma sum_error {B} (f g : B -> Qc) T l :
  0 <= T -> (forall b, In b l -> Qabs (g b) <= T /\ Qabs (f b - g b) <= u * T) ->
  let n := inject_Z (Z.of_nat (List.length l)) in
  Qabs (@sum Qc exact_Qc (map g l)) <= n * T /\
  Qabs (@sum Qc (rounded rnd) (map f l) - @sum Qc exact_Qc (map g l)) <= (power u (S (List.length l)) - 1) * (n * T).
Proof.
  intros PT. induction l as [|b l IH]; intros H n.
  - subst n. cbn [map List.length]. unfold sum. cbn [fold_right zero arith_zero exact_Qc rounded].
    change (inject_Z (Z.of_nat 0)) with 0. change (this 0%Qc) with 0. split; apply abs_le; lra.
  - destruct (IH (fun b' I => H b' (or_intror I))) as [I1 I2]. destruct (H b (or_introl eq_refl)) as [H1 H2]. clear IH H.
    unfold sum in *. cbn [map fold_right]. set (s := fold_right _ _ (map f l)) in *. set (s' := fold_right _ _ (map g l)) in *.
    change (@add Qc (rounded rnd) (f b) s) with (rnd (f b + s)%Qc). change (@add Qc exact_Qc (g b) s') with (g b + s')%Qc.
    set (m := inject_Z (Z.of_nat (List.length l))) in *.
    assert (N : n == m + 1).
    { subst n m. cbn [List.length]. rewrite Nat2Z.inj_succ. unfold Z.succ. rewrite inject_Z_plus. reflexivity. }
    destruct (addition_error (f b) (g b) s s' T (m * T) _ _ H1 I1 H2 I2) as [E1 E2].
    rewrite N. split; [lra|]. eapply Qle_trans; [exact E1|].
    cbn [List.length]. rewrite (power_S u (S (List.length l)) U). pose proof (power_ge_S u (List.length l) U) as P.
    set (g0 := power u (S (List.length l))) in *.
    assert (PP : 0 <= (1 + u) * (g0 - (1 + u)) * T) by (apply Qmult_le_0_compat; [apply Qmult_le_0_compat; lra|exact PT]).
    lra.
Qed.

End Rounding.

(** ** Layers *)

Lemma bounded_nth M (t : tensor Qc) i : 0 <= M -> bounded M t -> Qabs (nth i (data t) 0%Qc) <= M.
Proof.
  intros PM H. unfold bounded in H. rewrite Forall_forall in H. destruct (lt_dec i (List.length (data t))) as [L|L].
  - apply H, nth_In, L.
  - rewrite nth_overflow by lia. exact PM.
Qed.

Section LayerError.
Context (rnd : Qc -> Qc) (u : Q) (U : 0 <= u) (RD : rounds u rnd).
Context (G : group) (d : nat) (E : list symmetry) (eq : bool) (OK : group_ok G d E eq).
Context (tr valued : bool) (act dom : list nat) (c C o : nat) (k s dl eb ea : list nat) (same ub : bool).
Context (kinit binit : list nat -> Qc) (W X B : Q) (PW : 0 <= W) (PX : 0 <= X) (PB : 0 <= B).
Context (HK : bounded W (tab (k ++ (if tr then [o; C] else [C; o])) kinit)) (HB : ub = true -> bounded B (tab [o] binit)).

Let terms : nat := prod k * C.
Let n : Q := inject_Z (Z.of_nat terms).

Lemma n_nonneg : 0 <= n.
Proof. subst n. change 0 with (inject_Z 0). rewrite <- Zle_Qle. apply Nat2Z.is_nonneg. Qed.

Lemma layer_value_error m (F : nat -> list nat -> nat -> Qc) bi p h oo :
  List.length k = d -> (forall bi i q, (q < C)%nat -> Qabs (F bi i q) <= X) ->
  let v := @layer_value Qc (rounded rnd) G d E tr valued act dom c C o k s dl eb ea same m kinit F bi p h oo in
  let v' := @layer_value Qc exact_Qc G d E tr valued act dom c C o k s dl eb ea same m kinit F bi p h oo in
  Qabs v' <= n * (X * W) /\ Qabs (v - v') <= (power u (S terms) - 1) * (n * (X * W)).
Proof.
  intros Lk HF v v'.
  assert (LI : List.length (indices (k ++ [C])) = terms).
  { rewrite length_indices, prod_app. unfold prod at 2. cbn [fold_right]. subst terms. lia. }
  subst v v'. unfold layer_value, window. unfold n. rewrite <- LI.
  apply (sum_error rnd u U RD); [apply Qmult_le_0_compat; assumption|].
  intros jc I. apply In_indices, inb_app_split in I as [j [cc [-> [J I]]]]. apply inb1 in I as [q [-> Q]].
  pose proof (inb_length _ _ J) as LJ. rewrite firstn_app_exact by lia. rewrite app_nth2 by lia.
  replace (d - List.length j)%nat with 0%nat by lia. change (nth 0 [q] 0%nat) with q.
  assert (HI : forall i, Qabs (@layer_in Qc exact_Qc tr eb m F bi i q) <= X).
  { intros i. unfold layer_in. destruct tr; [|apply HF; exact Q]. unfold bordered. destruct (inside _ _ _); [apply HF; exact Q|exact PX]. }
  assert (HW : Qabs (@kval Qc exact_Qc G E valued dom act c o k C (tab (k ++ (if tr then [o; C] else [C; o])) kinit) j q (h * o + oo)) <= W).
  { unfold kval. apply bounded_nth; assumption. }
  change (@layer_in Qc (rounded rnd)) with (@layer_in Qc exact_Qc). change (@kval Qc (rounded rnd)) with (@kval Qc exact_Qc).
  set (w := @kval Qc exact_Qc G E valued dom act c o k C _ j q (h * o + oo)) in *.
  assert (Z : Qabs (this 0%Qc) <= X * W /\ Qabs (0%Qc - 0%Qc) <= u * (X * W)).
  { pose proof (Qmult_le_0_compat X W PX PW). assert (0 <= u * (X * W)) by (apply Qmult_le_0_compat; assumption). split; assumption. }
  assert (R0 : Qabs (rnd 0%Qc - 0%Qc) <= u * (X * W)).
  { eapply Qle_trans; [apply RD|]. change (Qabs (this 0%Qc)) with 0. pose proof (Qmult_le_0_compat X W PX PW).
    assert (0 <= u * (X * W)) by (apply Qmult_le_0_compat; assumption). lra. }
  unfold layer_term. destruct tr; unfold tterm, cterm, or_zero; destruct (layer_src _ _ _ _ _ _ _ _ p j) as [i|]; cbn [option_map].
  - exact (product_error rnd u U RD _ _ X W (HI i) HW PX).
  - exact Z.
  - exact (product_error rnd u U RD _ _ X W (HI i) HW PX).
  - change (@mul Qc exact_Qc zero w) with (0 * w)%Qc. change (@mul Qc (rounded rnd) zero w) with (rnd (0 * w)%Qc).
    rewrite zero_product. split; [apply Z|exact R0].
Qed.

Lemma layer_entry_error f m (F : nat -> list nat -> nat -> Qc) bi p h oo :
  nonexpansive f -> List.length k = d -> (forall bi i q, (q < C)%nat -> Qabs (F bi i q) <= X) -> (oo < o)%nat ->
  Qabs (f (@biased Qc (rounded rnd) ub binit (@layer_value Qc (rounded rnd) G d E tr valued act dom c C o k s dl eb ea same m kinit F bi p h oo) oo)
        - f (@biased Qc exact_Qc ub binit (@layer_value Qc exact_Qc G d E tr valued act dom c C o k s dl eb ea same m kinit F bi p h oo) oo))
  <= (power u (terms + 2) - 1) * (n * (X * W) + B).
Proof.
  intros NF Lk HF O. eapply Qle_trans; [apply NF|].
  destruct (layer_value_error m F bi p h oo Lk HF) as [E1 E2].
  set (v := @layer_value Qc (rounded rnd) _ _ _ _ _ _ _ _ _ _ _ _ _ _ _ _ _ _ _ _ _ _ _) in *.
  set (v' := @layer_value Qc exact_Qc _ _ _ _ _ _ _ _ _ _ _ _ _ _ _ _ _ _ _ _ _ _ _) in *.
  replace (terms + 2)%nat with (S (S terms)) by lia. rewrite (power_S u (S terms) U).
  pose proof (power_ge_S u terms U) as P. set (g := power u (S terms)) in *.
  pose proof n_nonneg as PN. pose proof (Qmult_le_0_compat X W PX PW) as PT.
  pose proof (Qmult_le_0_compat n (X * W) PN PT) as PNT.
  unfold biased. destruct ub.
  - assert (BB : Qabs (binit [oo]) <= B).
    { specialize (HB eq_refl). unfold bounded in HB. rewrite Forall_forall in HB. apply HB. unfold tab. cbn [data].
      apply in_map. apply In_indices. constructor; [exact O|constructor]. }
    assert (BZ : Qabs (binit [oo] - binit [oo]) <= 0) by (apply abs_le; lra).
    destruct (addition_error rnd u U RD v v' (binit [oo]) (binit [oo]) _ B _ 0 E1 BB E2 BZ) as [E3 _].
    eapply Qle_trans; [exact E3|].
    assert (X1 : 0 <= ((1 + u) * g - 1 - u) * B).
    { apply Qmult_le_0_compat; [|exact PB]. assert (0 <= u * g) by (apply Qmult_le_0_compat; lra). lra. }
    lra.
  - eapply Qle_trans; [exact E2|].
    assert (X2 : 0 <= (u * g) * (n * (X * W))) by (apply Qmult_le_0_compat; [apply Qmult_le_0_compat; lra|exact PNT]).
    assert (X3 : 0 <= ((1 + u) * g - 1) * B).
    { apply Qmult_le_0_compat; [|exact PB]. assert (0 <= u * g) by (apply Qmult_le_0_compat; lra). lra. }
    lra.
Qed.

(** Two tensors given entry by entry. *)
Lemma near_tab e sh (f g : list nat -> Qc) : (forall i, inb sh i -> Qabs (f i - g i) <= e) -> near e (tab sh f) (tab sh g).
Proof.
  intros H. split; [reflexivity|]. unfold tab. cbn [data].
  assert (forall l, (forall i, In i l -> inb sh i) -> Forall2 (fun v v' : Qc => Qabs (v - v') <= e) (map f l) (map g l)) as A.
  { intros l. induction l as [|i l IH]; intros I; cbn [map]; [constructor|]. constructor; [apply H, I; left; reflexivity|].
    apply IH. intros j J. apply I. right. exact J. }
  apply A. intros i I. apply In_indices, I.
Qed.

Lemma near_sig4 e b mo D (f g : nat -> list nat -> nat -> nat -> Qc) :
  List.length mo = d -> (forall bi p h oo, (oo < o)%nat -> Qabs (f bi p h oo - g bi p h oo) <= e) ->
  near e (tab (b :: mo ++ [D; o]) (sig4 d f)) (tab (b :: mo ++ [D; o]) (sig4 d g)).
Proof.
  intros L H. apply near_tab. intros i I. apply inb4_inv in I as [bi [p [h [q [-> [_ [P [_ Q]]]]]]]].
  rewrite !sig4_ix by (rewrite (inb_length _ _ P); exact L). apply H. exact Q.
Qed.

End LayerError.
