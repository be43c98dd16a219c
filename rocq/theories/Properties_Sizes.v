(** C53, C57: what the size arguments of layers say. *)
From Verif Require Import EquivSpec PoolSpec.
Local Open Scope string_scope.
Local Open Scope list_scope.
(** What a size argument says: one number for every axis, or one number per axis. *)
Definition says (d : nat) (a : size_arg) (l : list nat) : Prop :=
  (forall v, In v l -> 0 < v) /\
  match a with One n => exists v, 0 < v /\ n = Z.of_nat v /\ l = repeat v d | Tuple t => List.length l = d /\ t = map Z.of_nat l end.

Lemma says_standard d a l : 0 < d -> standardize_tuple d a = Ok l <-> says d a l.
Proof.
  intros D. unfold standardize_tuple, says. assert (EO : forall u v : list nat, Ok u = Ok v -> u = v) by congruence.
  assert (RT : forall t, forallb (fun z => (0 <? z)%Z) t = true -> t = map Z.of_nat (map Z.to_nat t) /\ forall v, In v (map Z.to_nat t) -> 0 < v).
  { intros t F. rewrite forallb_forall in F. split.
    - rewrite map_map. rewrite <- (map_id t) at 1. apply map_ext_in. intros z I. specialize (F z I). apply Z.ltb_lt in F. lia.
    - intros v I. apply in_map_iff in I as [z [<- I]]. specialize (F z I). apply Z.ltb_lt in F. lia. }
  assert (TR : forall l', (forall v, In v l' -> 0 < v) -> forallb (fun z => (0 <? z)%Z) (map Z.of_nat l') = true /\ map Z.to_nat (map Z.of_nat l') = l').
  { intros l' P. split.
    - apply forallb_forall. intros z I. apply in_map_iff in I as [v [<- I]]. apply Z.ltb_lt. specialize (P v I). lia.
    - rewrite map_map. rewrite <- (map_id l') at 2. apply map_ext. intros v. apply Nat2Z.id. }
  destruct a as [n|t]; cbn [per_axis].
  - rewrite repeat_length, Nat.eqb_refl. split.
    + destruct (forallb _ _) eqn:F; [|discriminate]. intros E. apply EO in E. destruct (RT _ F) as [R P]. rewrite E in R, P. split; [exact P|].
      destruct d as [|d]; [lia|]. cbn [repeat map forallb] in *. apply andb_true_iff in F as [F _]. apply Z.ltb_lt in F.
      exists (Z.to_nat n). split; [lia|]. split; [lia|]. rewrite <- E. f_equal. clear. induction d; [reflexivity|]. cbn [repeat map]. f_equal. exact IHd.
    + intros [P [v [V [-> ->]]]]. destruct (TR (repeat v d) P) as [F M].
      assert (E : repeat (Z.of_nat v) d = map Z.of_nat (repeat v d)) by (clear; induction d; [reflexivity|]; cbn [repeat map]; f_equal; exact IHd).
      rewrite E, F, M. reflexivity.
  - split.
    + destruct (Nat.eqb_spec (List.length t) d) as [LT|]; [|discriminate]. destruct (forallb _ _) eqn:F; [|discriminate]. intros E. apply EO in E.
      destruct (RT _ F) as [R P]. rewrite E in R, P. split; [exact P|]. split; [rewrite <- E, map_length; exact LT|exact R].
    + intros [P [LL ->]]. destruct (TR l P) as [F M]. rewrite map_length, LL, Nat.eqb_refl, F, M. reflexivity.
Qed.

(** So the sizes per axis in all theorems about convolution and pooling layers are what the
    arguments say; strides and dilation are 1 if not given, and pooling strides the pool size. *)
Theorem C53_sizes_per_axis {A} d (a : conv_args A) k s dl : 0 < d ->
  (sizes d a k s dl <->
   says d (ca_kernel_size a) k /\
   match ca_strides a with Some v => says d v s | None => s = repeat 1 d end /\
   match ca_dilation a with Some v => says d v dl | None => dl = repeat 1 d end).
Proof.
  intros D. unfold sizes. rewrite !says_standard by exact D.
  assert (ON : forall l, says d (One 1) l <-> l = repeat 1 d).
  { intros l. split.
    - intros [_ [v [_ [E ->]]]]. f_equal. lia.
    - intros ->. split; [intros v I; apply repeat_spec in I; lia|]. exists 1. split; [lia|]. split; reflexivity. }
  destruct (ca_strides a), (ca_dilation a); rewrite ?ON; tauto.
Qed.

Theorem C57_sizes_per_axis d (a : pool_args) k s : 0 < d ->
  (pool_sizes d a k s <-> says d (pa_pool_size a) k /\ match pa_strides a with Some v => says d v s | None => s = k end).
Proof.
  intros D. unfold pool_sizes. rewrite !says_standard by exact D. destruct (pa_strides a) as [v|]; [reflexivity|]. split.
  - intros [P Q]. split; [exact P|]. apply says_standard in P, Q; try exact D. congruence.
  - intros [P ->]. split; exact P.
Qed.
Print Assumptions C53_sizes_per_axis.
Print Assumptions C57_sizes_per_axis.

Example C53_case_sizes : says 3 (One 2) [2; 2; 2] /\ says 2 (Tuple [3; 5]%Z) [3; 5] /\ (forall l, ~ says 2 (Tuple [3; 0]%Z) l) /\ (forall l, ~ says 2 (Tuple [3]%Z) l).
Proof.
  split; [split; [intros v [<-|[<-|[<-|[]]]]; lia|exists 2; split; [lia|split; reflexivity]]|].
  split; [split; [intros v [<-|[<-|[]]]; lia|split; reflexivity]|]. split.
  - intros l [P [_ E]]. destruct l as [|u [|v [|w l]]]; try discriminate E. cbn [map] in E. assert (v = 0) by (assert (Z.of_nat v = 0%Z) by congruence; lia).
    specialize (P v (or_intror (or_introl eq_refl))). lia.
  - intros l [_ [L E]]. destruct l as [|u [|v l]]; discriminate.
Qed.
