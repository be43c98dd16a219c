(** Averages that are calculated in any order, with rounding errors. *)
From Coq Require Import QArith Qcanon Qabs Qpower Lqa Permutation.
From Verif Require Export AnyOrderFacts PoolSpec PoolTheorems EquivSpec.
Local Open Scope string_scope.
Local Open Scope Q_scope.
Local Open Scope list_scope.

(** The exact mean and maximum. *)
Definition mean (l : list Qc) : Qc := (fold_right Qcplus 0 l / Q2Qc (inject_Z (Z.of_nat (List.length l))))%Qc.
Definition larger (v w : Qc) : Qc := if Qle_bool v w then w else v.
Definition exact_pool : Pool Qc := {| pool_max := fun l => match l with [] => 0%Qc | v :: r => fold_left larger r v end; pool_mean := mean |}.

(** Averages of averages that have not been calculated. *)
Inductive averages : Type := leaf (v : Qc) | average (l : list averages).
#[global] Instance Arith_averages : Arith averages := {| arith_zero := leaf 0%Qc; add := fun v _ => v; mul := fun v _ => v |}.
#[global] Instance Pool_averages : Pool averages := {| pool_max := average; pool_mean := average |}.

Fixpoint exact_average (t : averages) : Qc :=
  match t with leaf v => v | average l => mean (map exact_average l) end.

(** What a program may compute: the values are added in any order and with any bracketing,
    and the sum is divided by the number of values, with a relative error of at most [u] in
    each addition and of two operations in the division, which allows it to be a
    multiplication by the rounded reciprocal. *)
Inductive calculates (u : Q) : averages -> Qc -> Prop :=
| calculates_leaf v : calculates u (leaf v) v
| calculates_average l vs s w :
    Forall2 (calculates u) l vs -> evaluates u (map (fun v => [v]) vs) s ->
    close ((1 + u) * (1 + u) - 1) w (s / Q2Qc (inject_Z (Z.of_nat (List.length l))))%Qc ->
    calculates u (average l) w.

(** ** One average *)

Definition part (n : nat) : Qc := (/ Q2Qc (inject_Z (Z.of_nat n)))%Qc.

Lemma part_facts n : 0 <= part n /\ inject_Z (Z.of_nat n) * part n <= 1.
Proof.
  unfold part, Qcinv. cbn [this Q2Qc]. rewrite !Qred_correct. destruct n as [|n].
  - change (inject_Z (Z.of_nat 0)) with 0. split; unfold Qinv; cbn; lra.
  - assert (P : 0 < inject_Z (Z.of_nat (S n))) by (change 0 with (inject_Z 0); rewrite <- Zlt_Qlt; lia).
    split; [apply Qlt_le_weak, Qinv_lt_0_compat; exact P|]. rewrite Qmult_inv_r by lra. apply Qle_refl.
Qed.

Lemma sum_magnitude vs X : Forall (fun v : Qc => Qabs v <= X) vs -> magnitude (map (fun v => [v]) vs) <= inject_Z (Z.of_nat (List.length vs)) * X.
Proof.
  unfold magnitude. induction 1 as [|v vs P F IH]; cbn [map fold_right List.length]; [change (inject_Z (Z.of_nat 0)) with 0; lra|].
  assert (EP : product [v] = v) by (unfold product; cbn [fold_right]; ring). rewrite EP.
  rewrite Nat2Z.inj_succ. unfold Z.succ. rewrite inject_Z_plus. change (inject_Z 1) with 1. lra.
Qed.

Lemma sum_value vs : value (map (fun v => [v]) vs) = fold_right Qcplus 0%Qc vs.
Proof.
  unfold value. induction vs as [|v vs IH]; cbn [map fold_right]; [reflexivity|]. rewrite IH. unfold product. cbn [fold_right]. ring.
Qed.

Lemma this_mean vs : this (mean vs) == this (fold_right Qcplus 0%Qc vs) * part (List.length vs).
Proof. unfold mean, Qcdiv. rewrite this_mul. reflexivity. Qed.

Lemma scaled_bound (a n X r : Q) : Qabs a <= n * X -> 0 <= X -> 0 <= r -> n * r <= 1 -> Qabs (a * r) <= X.
Proof.
  intros HA PX PR NR. rewrite Qabs_Qmult, (Qabs_pos r PR).
  assert (B1 : Qabs a * r <= (n * X) * r) by (apply Qmult_le_compat_r; assumption).
  assert (B2 : (n * r) * X <= 1 * X) by (apply Qmult_le_compat_r; assumption). lra.
Qed.

Lemma mean_bounded vs X : 0 <= X -> Forall (fun v : Qc => Qabs v <= X) vs -> Qabs (mean vs) <= X.
Proof.
  intros PX F. rewrite this_mean. destruct (part_facts (List.length vs)) as [P1 P2].
  apply (scaled_bound _ (inject_Z (Z.of_nat (List.length vs)))); try assumption.
  rewrite <- sum_value. eapply Qle_trans; [apply value_magnitude|]. apply sum_magnitude. exact F.
Qed.

Lemma mean_near vs vs' e : 0 <= e -> Forall2 (fun v v' : Qc => Qabs (v - v') <= e) vs vs' -> Qabs (mean vs - mean vs') <= e.
Proof.
  intros PE F. rewrite !this_mean. assert (LE : List.length vs = List.length vs') by (induction F; cbn [List.length]; congruence).
  rewrite <- LE. destruct (part_facts (List.length vs)) as [P1 P2].
  assert (D : Qabs (this (fold_right Qcplus 0%Qc vs) - this (fold_right Qcplus 0%Qc vs')) <= inject_Z (Z.of_nat (List.length vs)) * e).
  { clear P1 P2 LE. induction F as [|v v' l l' P F IH]; cbn [fold_right List.length].
    - change (inject_Z (Z.of_nat 0)) with 0. apply abs_le. lra.
    - rewrite !this_add, Nat2Z.inj_succ. unfold Z.succ. rewrite inject_Z_plus. change (inject_Z 1) with 1. apply abs_le in IH, P. apply abs_le. lra. }
  setoid_replace (this (fold_right Qcplus 0%Qc vs) * part (List.length vs) - this (fold_right Qcplus 0%Qc vs') * part (List.length vs))
    with ((this (fold_right Qcplus 0%Qc vs) - this (fold_right Qcplus 0%Qc vs')) * part (List.length vs)) by ring.
  apply (scaled_bound _ (inject_Z (Z.of_nat (List.length vs)))); assumption.
Qed.

Lemma mean_error u vs s w X : 0 <= u -> 0 <= X -> Forall (fun v : Qc => Qabs v <= X) vs ->
  evaluates u (map (fun v => [v]) vs) s -> close ((1 + u) * (1 + u) - 1) w (s / Q2Qc (inject_Z (Z.of_nat (List.length vs))))%Qc ->
  Qabs (w - mean vs) <= (power u (List.length vs + 2) - 1) * X.
Proof.
  intros U PX F EV C. pose proof (evaluation_error u _ _ U EV) as ER. rewrite map_length, sum_value in ER.
  pose proof (sum_magnitude vs X F) as M. pose proof (mean_bounded vs X PX F) as MB.
  destruct (part_facts (List.length vs)) as [P1 P2]. unfold close, Qcdiv in C. fold (part (List.length vs)) in C. rewrite this_mul in C.
  set (n := List.length vs) in *. pose proof (power_ge u n U) as G. rewrite !Nat.add_succ_r, Nat.add_0_r, !power_S by exact U. set (g := power u n) in *.
  assert (D : Qabs ((this s - this (fold_right Qcplus 0%Qc vs)) * part n) <= (g - 1) * X).
  { apply (scaled_bound _ (inject_Z (Z.of_nat n))); try assumption; [|apply Qmult_le_0_compat; lra].
    eapply Qle_trans; [exact ER|]. setoid_replace (inject_Z (Z.of_nat n) * ((g - 1) * X)) with ((g - 1) * (inject_Z (Z.of_nat n) * X)) by ring.
    rewrite !(Qmult_comm (g - 1)). apply Qmult_le_compat_r; [exact M|lra]. }
  rewrite (this_mean vs) in MB |- *. fold n in MB |- *. set (a := this s * part n) in *.
  assert (DA : Qabs (a - this (fold_right Qcplus 0%Qc vs) * part n) <= (g - 1) * X).
  { eapply Qle_trans; [|exact D]. apply Qle_lteq. right. apply Qabs_wd. unfold a. ring. }
  set (b := this (fold_right Qcplus 0%Qc vs) * part n) in *.
  assert (A : Qabs a <= g * X) by (apply abs_le in DA, MB; apply abs_le; lra).
  assert (CA : ((1 + u) * (1 + u) - 1) * Qabs a <= ((1 + u) * (1 + u) - 1) * (g * X)).
  { rewrite !(Qmult_comm ((1 + u) * (1 + u) - 1)). apply Qmult_le_compat_r; [exact A|]. assert (0 <= u * u) by (apply Qmult_le_0_compat; assumption). lra. }
  apply abs_le in C, DA. apply abs_le. lra.
Qed.

(** Exact sums are among those that may be calculated. *)
Lemma exact_sum_evaluates u vs : 0 <= u -> evaluates u (map (fun v => [v]) vs) (fold_right Qcplus 0%Qc vs).
Proof.
  intros U. assert (CL : forall q : Qc, close u q q).
  { intros q. unfold close. setoid_replace (q - q) with 0 by ring. change (Qabs 0) with 0. apply Qmult_le_0_compat; [exact U|apply Qabs_nonneg]. }
  induction vs as [|v vs IH]; cbn [map fold_right]; [apply ev_nothing|]. destruct vs as [|w vs].
  - cbn [map fold_right]. replace (v + 0)%Qc with v by ring. apply ev_number.
  - apply (ev_sum u [[v]] (map (fun v => [v]) (w :: vs)) v (fold_right Qcplus 0%Qc (w :: vs))); [discriminate|discriminate|apply ev_number|exact IH|apply CL].
Qed.

(** ** Averages of averages *)

(** Averages of at most [n2] averages of at most [n1] numbers; zeros may take the place of
    averages. *)
Definition average_for (n1 n2 : nat) (X : Q) (t : averages) : Prop :=
  exists ts, t = average ts /\ (List.length ts <= n2)%nat /\
    Forall (fun t' => t' = leaf 0%Qc \/ exists vs, t' = average (map leaf vs) /\ (List.length vs <= n1)%nat /\ Forall (fun v : Qc => Qabs v <= X) vs) ts.

Definition average_error (u : Q) (n : nat) (X : Q) : Q := ((1 + u) ^ Z.of_nat (n + 4) - 1) * X.

Lemma average_error_nonneg u n X : 0 <= u -> 0 <= X -> 0 <= average_error u n X.
Proof.
  intros U PX. unfold average_error. change ((1 + u) ^ Z.of_nat (n + 4)) with (power u (n + 4)). pose proof (power_ge u (n + 4) U).
  apply Qmult_le_0_compat; lra.
Qed.

Lemma entries_calculated u vs ws : Forall2 (calculates u) (map leaf vs) ws -> ws = vs.
Proof.
  revert ws. induction vs as [|v vs IH]; intros ws F; cbn [map] in F; inversion F as [|t w l r CW F']; subst; [reflexivity|].
  inversion CW; subst. f_equal. apply IH. exact F'.
Qed.

Lemma exact_entries vs : map exact_average (map leaf vs) = vs.
Proof. rewrite map_map. cbn [exact_average]. apply map_id. Qed.

Lemma forall2_length {B C} (R : B -> C -> Prop) l l' : Forall2 R l l' -> List.length l = List.length l'.
Proof. induction 1; cbn [List.length]; congruence. Qed.

Lemma power_add u n n' : 0 <= u -> power u (n + n') == power u n * power u n'.
Proof.
  intros U. induction n as [|n IH]; cbn [Nat.add]; [rewrite power_0; lra|]. rewrite !power_S by exact U. rewrite IH. ring.
Qed.

Lemma inner_error u n1 X t v : 0 <= u -> 0 <= X ->
  (t = leaf 0%Qc \/ exists vs, t = average (map leaf vs) /\ (List.length vs <= n1)%nat /\ Forall (fun v : Qc => Qabs v <= X) vs) ->
  calculates u t v -> Qabs (v - exact_average t) <= (power u (n1 + 2) - 1) * X /\ Qabs (exact_average t) <= X.
Proof.
  intros U PX [->|[vs [-> [LE F]]]] C; pose proof (power_ge u (n1 + 2) U) as G.
  - inversion C; subst. cbn [exact_average]. change (this 0%Qc) with 0. assert (0 <= (power u (n1 + 2) - 1) * X) by (apply Qmult_le_0_compat; lra).
    split; apply abs_le; lra.
  - inversion C as [|l ws s w FW EV CL E1 E2]; subst. apply entries_calculated in FW. subst ws. cbn [exact_average]. rewrite exact_entries.
    split; [|apply mean_bounded; assumption]. rewrite map_length in CL. eapply Qle_trans; [apply (mean_error u vs s); eassumption|].
    apply Qmult_le_compat_r; [|exact PX]. pose proof (power_mono u (List.length vs + 2) (n1 + 2) U ltac:(lia)). lra.
Qed.

Lemma average_for_error u n1 n2 X t w : 0 <= u -> 0 <= X -> average_for n1 n2 X t -> calculates u t w ->
  Qabs (w - exact_average t) <= average_error u (n1 + n2) X.
Proof.
  intros U PX [ts [-> [LE F]]] C. inversion C as [|l vs s w' FV EV CL E1 E2]; subst. cbn [exact_average].
  pose proof (forall2_length _ _ _ FV) as LV. rewrite LV in CL.
  pose proof (power_ge u (n1 + 2) U) as G1. set (g1 := power u (n1 + 2)) in *.
  assert (NEAR : Forall2 (fun v v' : Qc => Qabs (v - v') <= (g1 - 1) * X) vs (map exact_average ts) /\ Forall (fun v : Qc => Qabs v <= g1 * X) vs).
  { clear C CL EV LV LE. revert F. induction FV as [|t v ts vs Ct FV IH]; intros F; inversion F as [|t' ts' Ft F']; subst; [split; constructor|].
    destruct (IH F') as [I1 I2]. destruct (inner_error u n1 X t v U PX Ft Ct) as [D B]. fold g1 in D. cbn [map].
    split; [constructor; assumption|]. constructor; [|exact I2]. apply abs_le in D, B. apply abs_le. lra. }
  destruct NEAR as [NR BD].
  assert (PG : 0 <= g1 * X) by (apply Qmult_le_0_compat; lra).
  pose proof (mean_error u vs s w (g1 * X) U PG BD EV CL) as E1.
  pose proof (mean_near vs (map exact_average ts) ((g1 - 1) * X) ltac:(apply Qmult_le_0_compat; lra) NR) as E2.
  pose proof (power_mono u (List.length vs + 2) (n2 + 2) U ltac:(lia)) as PM.
  assert (E1' : Qabs (w - mean vs) <= (power u (n2 + 2) - 1) * (g1 * X)).
  { eapply Qle_trans; [exact E1|]. apply Qmult_le_compat_r; lra. }
  unfold average_error. change ((1 + u) ^ Z.of_nat (n1 + n2 + 4)) with (power u (n1 + n2 + 4)).
  replace (n1 + n2 + 4)%nat with ((n1 + 2) + (n2 + 2))%nat by lia. rewrite power_add by exact U. fold g1.
  apply abs_le in E1', E2. apply abs_le. lra.
Qed.

Lemma exact_average_calculated u n1 n2 X t : 0 <= u -> average_for n1 n2 X t -> calculates u t (exact_average t).
Proof.
  intros U [ts [-> [_ F]]].
  assert (CL : forall q : Qc, close ((1 + u) * (1 + u) - 1) q q).
  { intros q. unfold close. setoid_replace (q - q) with 0 by ring. change (Qabs 0) with 0.
    assert (0 <= u * u) by (apply Qmult_le_0_compat; assumption). apply Qmult_le_0_compat; [lra|apply Qabs_nonneg]. }
  assert (AV : forall l, Forall (fun t => calculates u t (exact_average t)) l -> calculates u (average l) (exact_average (average l))).
  { intros l Fl. cbn [exact_average]. unfold mean. apply (calculates_average u l (map exact_average l) (fold_right Qcplus 0%Qc (map exact_average l))).
    - induction Fl; cbn [map]; constructor; assumption.
    - apply exact_sum_evaluates. exact U.
    - rewrite map_length. apply CL. }
  apply AV. eapply Forall_impl; [|exact F]. intros t [->|[vs [-> _]]]; [apply calculates_leaf|]. apply AV.
  apply Forall_forall. intros t I. apply in_map_iff in I as [v [<- _]]. apply calculates_leaf.
Qed.

Lemma mean_order l l' : Permutation l l' -> mean l = mean l'.
Proof.
  intros P. unfold mean. rewrite (Permutation_length P). f_equal. induction P; cbn [fold_right]; [reflexivity|congruence|ring|congruence].
Qed.
