(** C103: threads that call one convolution layer. *)
From Verif Require Import Threads SliceFacts TrivialFacts Properties_Layers Properties_Shapes.
Local Open Scope string_scope.
Local Open Scope list_scope.

Section Threads.
Context {A : Type} {RA : Arith A}.

(** How a call ends. *)
Definition ended (r : result (tensor A)) : point A :=
  match r with Ok y => Returned y | Err e => Raised e end.

(** ** One thread *)

Fixpoint alone (n : nat) (L : conv_layer A) (p : point A) : conv_layer A * point A :=
  match n with
  | 0 => (L, p)
  | S n => let '(L, p) := step L p in alone n L p
  end.

Lemma alone_add n m L (p : point A) : alone (n + m) L p = let '(L, p) := alone n L p in alone m L p.
Proof.
  revert L p. induction n as [|n IH]; intros L p; cbn [Nat.add alone]; [reflexivity|].
  destruct (step L p) as [L1 p1]. apply IH.
Qed.

Definition over (p : point A) : bool := match p with Returned _ | Raised _ => true | _ => false end.

Lemma alone_over n L (p : point A) : over p = true -> alone n L p = (L, p).
Proof.
  intros O. induction n as [|n IH]; [reflexivity|]. cbn [alone].
  destruct p; try discriminate O; cbn [step]; exact IH.
Qed.

Lemma ended_over r : over (ended r) = true.
Proof. destruct r; reflexivity. Qed.

Lemma accepted_apply L (x : tensor A) :
  conv_apply L x = if accepted L x then conv_call L x else (L, Err ValueError).
Proof.
  unfold conv_apply, accepted. destruct (rank x <? gt_dims (cl_gt L) + 2)%nat; [reflexivity|].
  destruct (cl_channels L) as [c|]; reflexivity.
Qed.

Lemma set_all L (k : tensor A) b f :
  set_filters (set_bias (set_kernel L (Some k)) b) f = cl_set_weights L (Some k) b f.
Proof. reflexivity. Qed.

Lemma alone_S n L (p : point A) L1 p1 : step L p = (L1, p1) -> alone (S n) L p = alone n L1 p1.
Proof. intros E. cbn [alone]. rewrite E. reflexivity. Qed.

Lemma alone_call L (x : tensor A) : alone 15 L (Called x) = (fst (conv_apply L x), ended (snd (conv_apply L x))).
Proof.
  rewrite accepted_apply.
  destruct (accepted L x) eqn:AC.
  2:{ rewrite (alone_S _ _ _ L (Raised ValueError)) by (cbn [step]; rewrite AC; reflexivity). apply alone_over. reflexivity. }
  unfold conv_call. destruct (cl_kernel L) as [K|] eqn:EK.
  2:{ rewrite (alone_S _ _ _ L (Raised AttributeError)) by (cbn [step]; rewrite AC, EK; reflexivity). apply alone_over. reflexivity. }
  rewrite (alone_S _ _ _ L (SavedKernel x K)) by (cbn [step]; rewrite AC, EK; reflexivity).
  do 2 (erewrite alone_S by reflexivity).
  rewrite (alone_S _ _ _ L (GivenKernel x (Some K, cl_bias L, cl_filters L) K)) by (cbn [step]; rewrite EK; reflexivity).
  erewrite alone_S by reflexivity.
  destruct (prepare_call (cl_gt L) K (cl_bias L) (cl_filters L) x) as [[[[k b] f] xx]|e] eqn:PC.
  2:{ rewrite (alone_S _ _ _ L (Raised e)) by (cbn [step]; rewrite PC; reflexivity). apply alone_over. reflexivity. }
  rewrite (alone_S _ _ _ L (Prepared (Some K, cl_bias L, cl_filters L) xx k b f)) by (cbn [step]; rewrite PC; reflexivity).
  do 3 (erewrite alone_S by reflexivity). rewrite set_all.
  unfold base_conv_call. cbn [cl_bias cl_filters cl_set_weights].
  match goal with |- context [in_format ?F ?f xx] => destruct (in_format F f xx) as [y|e] eqn:CV end.
  2:{ rewrite (alone_S _ _ _ (cl_set_weights L (Some k) b f) (Raised e)) by (cbn [step cl_set_weights cl_kernel cl_format cl_gt cl_strides cl_dilation cl_padding]; rewrite CV; reflexivity).
      apply alone_over. reflexivity. }
  cbn [bind].
  rewrite (alone_S _ _ _ (cl_set_weights L (Some k) b f) (Convolved (Some K, cl_bias L, cl_filters L) y))
    by (cbn [step cl_set_weights cl_kernel cl_format cl_gt cl_strides cl_dilation cl_padding]; rewrite CV; reflexivity).
  erewrite alone_S by reflexivity. cbn [cl_filters cl_set_weights].
  destruct (add_bias (cl_format L) f b y) as [y'|e] eqn:AB; cbn [bind].
  2:{ rewrite (alone_S _ _ _ (cl_set_weights L (Some k) b f) (Raised e)) by (cbn [step cl_set_weights cl_bias cl_format cl_gt cl_activation]; rewrite AB; reflexivity).
      apply alone_over. reflexivity. }
  destruct (restore_group_axis (cl_gt L) (tmap (cl_activation L) y')) as [z|e] eqn:RG.
  2:{ rewrite (alone_S _ _ _ (cl_set_weights L (Some k) b f) (Raised e))
        by (cbn [step cl_set_weights cl_bias cl_format cl_gt cl_activation]; rewrite AB; cbn [bind]; rewrite RG; reflexivity).
      apply alone_over. reflexivity. }
  rewrite (alone_S _ _ _ (cl_set_weights L (Some k) b f) (Outputs (Some K, cl_bias L, cl_filters L) z))
    by (cbn [step cl_set_weights cl_bias cl_format cl_gt cl_activation]; rewrite AB; cbn [bind]; rewrite RG; reflexivity).
  do 3 (erewrite alone_S by reflexivity). reflexivity.
Qed.

Lemma alone_after n L (x : tensor A) : over (snd (alone n L (Called x))) = true ->
  alone n L (Called x) = (fst (conv_apply L x), ended (snd (conv_apply L x))).
Proof.
  intros O. destruct (alone n L (Called x)) as [L1 p1] eqn:E. cbn [snd] in O.
  assert (X : alone (n + 15) L (Called x) = (L1, p1)) by (rewrite alone_add, E; apply alone_over; exact O).
  rewrite Nat.add_comm, alone_add, alone_call in X.
  rewrite alone_over in X by apply ended_over. symmetry. exact X.
Qed.

Lemma alone_enough n L (x : tensor A) : 15 <= n ->
  alone n L (Called x) = (fst (conv_apply L x), ended (snd (conv_apply L x))).
Proof.
  intros N. replace n with (15 + (n - 15)) by lia. rewrite alone_add, alone_call. apply alone_over, ended_over.
Qed.

(** A call does not come back to its start. *)
Lemma step_not_called L (p : point A) x : snd (step L p) <> Called x.
Proof.
  destruct p; cbn [step]; try discriminate.
  - destruct (accepted L x0); [destruct (cl_kernel L)|]; discriminate.
  - destruct (cl_kernel L); discriminate.
  - destruct (prepare_call _ _ _ _ _) as [[[[? ?] ?] ?]|]; discriminate.
  - destruct (cl_kernel L); [destruct (in_format _ _ _)|]; discriminate.
  - destruct (bind _ _); discriminate.
Qed.

Lemma alone_not_called n L (p : point A) x : snd (alone (S n) L p) <> Called x.
Proof.
  revert L p. induction n as [|n IH]; intros L p; cbn [alone].
  - destruct (step L p) as [L1 p1] eqn:E. cbn [snd]. pose proof (step_not_called L p x) as N. rewrite E in N. exact N.
  - destruct (step L p) as [L1 p1]. exact (IH L1 p1).
Qed.

Lemma alone_step n L (p : point A) : alone (S n) L p = let '(L, p) := alone n L p in step L p.
Proof.
  rewrite <- Nat.add_1_r, alone_add. destruct (alone n L p) as [L1 p1]. cbn [alone]. destruct (step L1 p1); reflexivity.
Qed.

(** ** Schedules *)

Lemma nth_error_upd {B} (l : list B) i j v : nth_error (upd i v l) j =
  if (i =? j)%nat then match nth_error l j with Some _ => Some v | None => None end else nth_error l j.
Proof.
  revert i j. induction l as [|a l IH]; intros i j; cbn [upd].
  - destruct i; cbn [upd]; destruct j; cbn [nth_error]; destruct (_ =? _)%nat; reflexivity.
  - destruct i as [|i], j as [|j]; cbn [nth_error Nat.eqb]; try reflexivity. apply IH.
Qed.

(** A single thread computes what [conv_apply] says, as well when it raises. *)
Theorem C103_one_thread L (x : tensor A) n : 15 <= n ->
  execute (repeat 0 n) (L, [Called x]) = (fst (conv_apply L x), [ended (snd (conv_apply L x))]).
Proof.
  intros N.
  assert (X : forall m L p, execute (repeat 0 m) (L, [p]) = let '(L, p) := alone m L p in (L, [p])).
  { clear. induction m as [|m IH]; intros L p; [reflexivity|]. cbn [repeat alone]. unfold execute. cbn [fold_left].
    unfold thread_step at 2. cbn [snd fst nth_error]. destruct (step L p) as [L1 p1]. cbn [upd]. apply IH. }
  rewrite X, (alone_enough n L x N). reflexivity.
Qed.

(** ** With a lock *)

Section Lock.
Context (L0 : conv_layer A) (xs : list (tensor A)).
Context (FINE : forall x, In x xs -> exists y, apply L0 x = Ok y).

Definition settled (i : nat) (p : point A) : Prop :=
  exists x, nth_error xs i = Some x /\ (p = Called x \/ exists y, apply L0 x = Ok y /\ p = Returned y).

Definition orderly (st : state A) : Prop :=
  (fst st = L0 /\ forall j p, nth_error (snd st) j = Some p -> settled j p) \/
  exists i x n, nth_error xs i = Some x /\
    (exists p, nth_error (snd st) i = Some p /\ under_way p = true /\ alone n L0 (Called x) = (fst st, p)) /\
    forall j p, j <> i -> nth_error (snd st) j = Some p -> settled j p.

Lemma fine_call x : In x xs -> exists y, conv_apply L0 x = (L0, Ok y).
Proof.
  intros I. destruct (FINE x I) as [y Y]. unfold apply in Y. destruct (conv_apply L0 x) as [L1 r] eqn:E. cbn [snd] in Y. subst r.
  exists y. rewrite (success_keeps _ _ _ _ E). reflexivity.
Qed.

(** The thread [i] has made [n] steps and nobody else is under_way. *)
Lemma orderly_alone i x n (ps : list (point A)) L p :
  nth_error xs i = Some x -> nth_error ps i = Some p -> alone (S n) L0 (Called x) = (L, p) ->
  (forall j q, j <> i -> nth_error ps j = Some q -> settled j q) -> orderly (L, ps).
Proof.
  intros X P AL OTH. destruct (under_way p) eqn:IN.
  - right. exists i, x, (S n). split; [exact X|]. split; [exists p; split; [exact P|split; [exact IN|exact AL]]|exact OTH].
  - left. assert (O : over p = true).
    { pose proof (alone_not_called n L0 (Called x)) as NC. rewrite AL in NC. cbn [snd] in NC.
      destruct p; try discriminate IN; [destruct (NC x0 eq_refl)|reflexivity|reflexivity]. }
    pose proof (alone_after (S n) L0 x) as F. rewrite AL in F. specialize (F O).
    destruct (fine_call x (nth_error_In _ _ X)) as [y Y]. rewrite Y in F. cbn [fst snd ended] in F.
    assert (L = L0) as -> by congruence. assert (p = Returned y) as -> by congruence. cbn [fst snd]. split; [reflexivity|].
    intros j q Q. destruct (Nat.eq_dec j i) as [->|N]; [|exact (OTH j q N Q)].
    exists x. split; [exact X|]. right. exists y. split; [unfold apply; rewrite Y; reflexivity|congruence].
Qed.

Lemma orderly_step st i : orderly st ->
  (forall j p, j <> i -> nth_error (snd st) j = Some p -> under_way p = false) -> orderly (thread_step st i).
Proof.
  destruct st as [L ps]. intros OR EX. cbn [snd] in EX. unfold thread_step. cbn [fst snd].
  destruct (nth_error ps i) as [p|] eqn:P; [|exact OR].
  destruct OR as [[E ST]|[i' [x [n [X [[p' [P' [IN AL]]] OTH]]]]]]; cbn [fst snd] in *.
  - subst L. destruct (ST i p P) as [x [X [->|[y [Y ->]]]]].
    + destruct (step L0 (Called x)) as [L1 p1] eqn:S1.
      apply (orderly_alone i x 0 _ _ p1); [exact X|rewrite nth_error_upd, Nat.eqb_refl, P; reflexivity|cbn [alone]; rewrite S1; reflexivity|].
      intros j q N Q. rewrite nth_error_upd in Q. destruct (Nat.eqb_spec i j) as [->|_]; [contradiction|]. exact (ST j q Q).
    + cbn [step]. left. cbn [fst snd]. split; [reflexivity|]. intros j q Q. rewrite nth_error_upd in Q.
      destruct (Nat.eqb_spec i j) as [<-|_]; [|exact (ST j q Q)]. rewrite P in Q. assert (q = Returned y) as -> by congruence. exact (ST i _ P).
  - destruct (Nat.eq_dec i' i) as [->|N].
    + assert (p' = p) as -> by congruence. destruct (step L p) as [L1 p1] eqn:S1.
      apply (orderly_alone i x n _ _ p1); [exact X|rewrite nth_error_upd, Nat.eqb_refl, P; reflexivity|rewrite alone_step, AL; exact S1|].
      intros j q N Q. rewrite nth_error_upd in Q. destruct (Nat.eqb_spec i j) as [->|_]; [contradiction|]. exact (OTH j q N Q).
    + rewrite (EX i' p' N P') in IN. discriminate IN.
Qed.

Lemma orderly_run schedule : forall st, orderly st -> one_at_a_time schedule st -> orderly (execute schedule st).
Proof.
  induction schedule as [|i schedule IH]; intros st OR EX; [exact OR|]. destruct EX as [E1 E2].
  unfold execute. cbn [fold_left]. apply IH; [apply orderly_step; assumption|exact E2].
Qed.

End Lock.

(** Threads that exclude each other: every call that has ended has returned what the layer
    returns, and when no call is under way the layer is as it was. *)
Theorem C103_one_at_a_time L (xs : list (tensor A)) schedule L' ps :
  (forall x, In x xs -> exists y, apply L x = Ok y) ->
  one_at_a_time schedule (L, map Called xs) -> execute schedule (L, map Called xs) = (L', ps) ->
  (forall i x p, nth_error xs i = Some x -> nth_error ps i = Some p -> under_way p = false ->
     p = Called x \/ exists y, apply L x = Ok y /\ p = Returned y) /\
  ((forall p, In p ps -> under_way p = false) -> L' = L).
Proof.
  intros FINE EX RUN.
  assert (OR : orderly L xs (L, map Called xs)).
  { left. cbn [fst snd]. split; [reflexivity|]. intros j p P. rewrite nth_error_map in P.
    destruct (nth_error xs j) as [x|] eqn:X; [|discriminate P]. cbn [option_map] in P. exists x. split; [exact X|]. left. congruence. }
  pose proof (orderly_run L xs FINE schedule _ OR EX) as O. rewrite RUN in O.
  destruct O as [[E ST]|[i [x [n [X [[p [P [IN AL]]] OTH]]]]]]; cbn [fst snd] in *.
  - split; [|intros _; exact E]. intros i x p X P _. destruct (ST i p P) as [x' [X' S]]. assert (x' = x) as -> by congruence. exact S.
  - split; [|intros N; rewrite (N p (nth_error_In _ _ P)) in IN; discriminate IN].
    intros j x' p' X' P' IN'. destruct (Nat.eq_dec j i) as [->|N]; [assert (p' = p) as -> by congruence; rewrite IN in IN'; discriminate IN'|].
    destruct (OTH j p' N P') as [x'' [X'' S]]. assert (x'' = x') as -> by congruence. exact S.
Qed.

(** ** Without a lock *)

Lemma execute_app s1 s2 (st : state A) : execute (s1 ++ s2) st = execute s2 (execute s1 st).
Proof. apply fold_left_app. Qed.

Lemma execute_0 n L (p q : point A) : execute (repeat 0 n) (L, [p; q]) = let '(L, p) := alone n L p in (L, [p; q]).
Proof.
  revert L p. induction n as [|n IH]; intros L p; [reflexivity|]. cbn [repeat alone]. unfold execute. cbn [fold_left].
  unfold thread_step at 2. cbn [snd fst nth_error]. destruct (step L p) as [L1 p1]. cbn [upd]. apply IH.
Qed.

Lemma execute_1 n L (p q : point A) : execute (repeat 1 n) (L, [p; q]) = let '(L, q) := alone n L q in (L, [p; q]).
Proof.
  revert L q. induction n as [|n IH]; intros L q; [reflexivity|]. cbn [repeat alone]. unfold execute. cbn [fold_left].
  unfold thread_step at 2. cbn [snd fst nth_error]. destruct (step L q) as [L1 q1]. cbn [upd]. apply IH.
Qed.

(** What [prepare_call] makes of the weights does not depend on the input. *)
Lemma prepare_weights T (K : tensor A) b f x K' b' f' xx :
  prepare_call T K b f x = Ok (K', b', f', xx) ->
  transform_kernel T K = Ok K' /\
  match b with Some b => exists rb, repeat_bias T b = Ok rb /\ b' = Some rb | None => b' = None end /\
  exists act, subgroup_get (gt_group T) (gt_acting T) = Ok act /\ f' = (f * List.length act)%nat.
Proof.
  intros PC. unfold prepare_call in PC. destruct (merge_group_axis_and_pad T x) as [x'|]; [|discriminate PC]. cbn [bind] in PC.
  destruct (transform_kernel T K) as [K1|]; [|discriminate PC]. cbn [bind] in PC.
  destruct b as [b|].
  - destruct (repeat_bias T b) as [rb|]; [|discriminate PC]. cbn [bind] in PC.
    destruct (subgroup_get _ _) as [act|]; [|discriminate PC]. cbn [bind] in PC.
    split; [congruence|]. split; [exists rb; split; [reflexivity|congruence]|]. exists act. split; [reflexivity|congruence].
  - cbn [bind] in PC. destruct (subgroup_get _ _) as [act|]; [|discriminate PC]. cbn [bind] in PC.
    split; [congruence|]. split; [congruence|]. exists act. split; [reflexivity|congruence].
Qed.

Lemma prepare_same T (K : tensor A) b f x1 x2 K1 b1 f1 xx1 K2 b2 f2 xx2 :
  prepare_call T K b f x1 = Ok (K1, b1, f1, xx1) -> prepare_call T K b f x2 = Ok (K2, b2, f2, xx2) ->
  K2 = K1 /\ b2 = b1 /\ f2 = f1.
Proof.
  intros P1 P2. apply prepare_weights in P1 as [T1 [B1 [a1 [S1 F1]]]]. apply prepare_weights in P2 as [T2 [B2 [a2 [S2 F2]]]].
  split; [congruence|]. split; [|congruence]. destruct b as [b|]; [|congruence].
  destruct B1 as [r1 [R1 ->]]. destruct B2 as [r2 [R2 ->]]. congruence.
Qed.

(** What a thread returns after its assignments does not depend on what it has saved. *)
Lemma finish L1 L2 (old old' : backup A) xx z : alone 6 L1 (Assigned old xx) = (L2, Returned z) ->
  alone 6 L1 (Assigned old' xx) = (cl_set_weights L1 (fst (fst old')) (snd (fst old')) (snd old'), Returned z).
Proof.
  cbn [alone step]. destruct (cl_kernel L1) as [k|]; [|cbn [alone step]; discriminate].
  destruct (in_format _ _ xx) as [y|e]; [|cbn [alone step]; discriminate]. cbn [alone step].
  destruct (bind _ _) as [v|e]; [|cbn [alone step]; discriminate]. cbn [alone step]. intros Q.
  assert (v = z) as -> by congruence. reflexivity.
Qed.

(** Two calls that succeed on their own can overlap in such a way that both return the right
    result, but the layer is left with the transformed weights. *)
Lemma overlap L (x1 x2 y1 y2 K : tensor A) :
  cl_kernel L = Some K -> apply L x1 = Ok y1 -> apply L x2 = Ok y2 ->
  exists schedule K' b' f' xx,
    prepare_call (cl_gt L) K (cl_bias L) (cl_filters L) x1 = Ok (K', b', f', xx) /\
    execute schedule (L, [Called x1; Called x2]) = (cl_set_weights L (Some K') b' f', [Returned y1; Returned y2]).
Proof.
  intros EK Y1 Y2. unfold apply in *.
  assert (C1 : conv_apply L x1 = (L, Ok y1)).
  { destruct (conv_apply L x1) as [L1 r] eqn:E. cbn [snd] in Y1. subst r. rewrite (success_keeps _ _ _ _ E). reflexivity. }
  assert (C2 : conv_apply L x2 = (L, Ok y2)).
  { destruct (conv_apply L x2) as [L1 r] eqn:E. cbn [snd] in Y2. subst r. rewrite (success_keeps _ _ _ _ E). reflexivity. }
  pose proof (alone_call L x1) as A1. pose proof (alone_call L x2) as A2. rewrite C1 in A1. rewrite C2 in A2. cbn [fst snd ended] in A1, A2.
  rewrite accepted_apply in C1, C2.
  destruct (accepted L x1) eqn:AC1; [|discriminate C1]. destruct (accepted L x2) eqn:AC2; [|discriminate C2].
  unfold conv_call in C1, C2. rewrite EK in C1, C2.
  destruct (prepare_call (cl_gt L) K (cl_bias L) (cl_filters L) x1) as [[[[K1 b1] f1] xx1]|e] eqn:P1; [|discriminate C1].
  destruct (prepare_call (cl_gt L) K (cl_bias L) (cl_filters L) x2) as [[[[K2 b2] f2] xx2]|e] eqn:P2; [|discriminate C2].
  destruct (prepare_same _ _ _ _ _ _ _ _ _ _ _ _ _ _ P1 P2) as [-> [-> ->]]. clear C1 C2.
  set (L' := cl_set_weights L (Some K1) b1 f1).
  set (old := (Some K, cl_bias L, cl_filters L) : backup A).
  assert (S1 : alone 9 L (Called x1) = (L', Assigned old xx1)).
  { cbn [alone step]. rewrite AC1, EK. cbn [alone step]. rewrite EK. cbn [alone step]. rewrite P1. cbn [alone step]. reflexivity. }
  set (old' := (Some K1, b1, f1) : backup A).
  assert (S2 : alone 3 L' (Called x2) = (L', Saved x2 old')).
  { cbn [alone step]. replace (accepted L' x2) with (accepted L x2) by reflexivity. rewrite AC2. reflexivity. }
  assert (S3 : alone 6 L' (Assigned old xx1) = (L, Returned y1)).
  { change 15 with (9 + 6) in A1. rewrite alone_add, S1 in A1. exact A1. }
  assert (S4 : alone 6 L (Saved x2 old') = (L', Assigned old' xx2)).
  { cbn [alone step]. rewrite EK. cbn [alone step]. rewrite P2. reflexivity. }
  assert (S5 : alone 6 L' (Assigned old' xx2) = (L', Returned y2)).
  { assert (S1' : alone 9 L (Called x2) = (L', Assigned old xx2)).
    { cbn [alone step]. rewrite AC2, EK. cbn [alone step]. rewrite EK. cbn [alone step]. rewrite P2. reflexivity. }
    change 15 with (9 + 6) in A2. rewrite alone_add, S1' in A2. exact (finish _ _ _ old' _ _ A2). }
  exists (repeat 0 9 ++ repeat 1 3 ++ repeat 0 6 ++ repeat 1 12), K1, b1, f1, xx1. split; [reflexivity|].
  rewrite execute_app, execute_0, S1. rewrite execute_app, execute_1, S2. rewrite execute_app, execute_0, S3.
  rewrite execute_1. change 12 with (6 + 6). rewrite alone_add, S4, S5. reflexivity.
Qed.

(** ** A damaged layer *)

Lemma reshape_wrong (b : tensor A) f : List.length (data b) <> f -> exists e, reshape b [Z.of_nat f] = Err e.
Proof.
  intros N. unfold reshape, resolve_shape. cbn [filter].
  assert (Z.eqb (Z.of_nat f) (-1) = false) as -> by (apply Z.eqb_neq; lia). cbn [negb forallb map List.length].
  assert (Z.leb 0 (Z.of_nat f) = true) as -> by (apply Z.leb_le; lia). cbn [andb Nat.sub].
  rewrite Nat2Z.id. replace (prod [f]) with f by (unfold prod; cbn [fold_right]; lia).
  destruct (Nat.eqb_spec f (List.length (data b))) as [E|_]; [congruence|]. eexists. reflexivity.
Qed.

Lemma repeated_shape T (i : tensor nat) (b rb : tensor A) q :
  gt_bias_indices T = Some i -> shape i = [q] -> rank b = 1 -> repeat_bias T b = Ok rb ->
  rank rb = 1 /\ List.length (data rb) = q.
Proof.
  intros BI SI RB RP. unfold repeat_bias in RP. rewrite BI in RP. unfold take in RP. rewrite RB in RP.
  replace (norm_axis 1 0) with (Ok 0 : result nat) in RP by reflexivity. cbn [bind] in RP.
  destruct (forallb _ _); [|discriminate RP]. cbn [bind] in RP.
  assert (SB : skipn 1 (shape b) = []) by (unfold rank in RB; destruct (shape b) as [|v [|w s]]; try discriminate RB; reflexivity).
  rewrite SB, SI in RP. cbn [firstn app List.length] in RP.
  match type of RP with Ok (tab ?s ?f) = _ => assert (rb = tab s f) as -> by congruence end.
  split; [reflexivity|]. rewrite length_data_tab. unfold prod. cbn [fold_right]. lia.
Qed.

(** A layer with a bias whose [filters] has been multiplied raises at every call. *)
Lemma broken_raises L i q act (b x : tensor A) :
  gt_bias_indices (cl_gt L) = Some i -> shape i = [q] -> 0 < q ->
  subgroup_get (gt_group (cl_gt L)) (gt_acting (cl_gt L)) = Ok act -> 2 <= List.length act ->
  cl_bias L = Some b -> rank b = 1 -> q <= cl_filters L ->
  (exists e, snd (conv_apply L x) = Err e) /\
  cl_gt (fst (conv_apply L x)) = cl_gt L /\
  (exists b', cl_bias (fst (conv_apply L x)) = Some b' /\ rank b' = 1) /\
  q <= cl_filters (fst (conv_apply L x)).
Proof.
  intros BI SI QP SA NA EB RB QF.
  assert (SAME : forall e, (exists e', snd (L, Err e : result (tensor A)) = Err e') /\ cl_gt (fst (L, Err e : result (tensor A))) = cl_gt L /\
            (exists b', cl_bias (fst (L, Err e : result (tensor A))) = Some b' /\ rank b' = 1) /\ q <= cl_filters (fst (L, Err e : result (tensor A)))).
  { intros e. cbn [fst snd]. split; [exists e; reflexivity|]. split; [reflexivity|]. split; [exists b; split; assumption|exact QF]. }
  rewrite accepted_apply. destruct (accepted L x); [|apply SAME].
  unfold conv_call. destruct (cl_kernel L) as [K|]; [|apply SAME].
  destruct (prepare_call (cl_gt L) K (cl_bias L) (cl_filters L) x) as [[[[k b1] f] xx]|e] eqn:PC; [|apply SAME].
  apply prepare_weights in PC as [_ [PB [act' [SA' ->]]]]. rewrite EB in PB. destruct PB as [rb [RP ->]].
  assert (act' = act) as -> by congruence.
  destruct (repeated_shape _ _ _ _ _ BI SI RB RP) as [RR LR].
  unfold base_conv_call. cbn [cl_filters cl_bias cl_set_weights].
  assert (NE : List.length (data rb) <> cl_filters L * List.length act) by (rewrite LR; nia).
  destruct (reshape_wrong rb _ NE) as [e RW].
  assert (ST : forall e', (exists e'', snd (cl_set_weights L (Some k) (Some rb) (cl_filters L * List.length act), Err e' : result (tensor A)) = Err e'') /\
     cl_gt (fst (cl_set_weights L (Some k) (Some rb) (cl_filters L * List.length act), Err e' : result (tensor A))) = cl_gt L /\
     (exists b', cl_bias (fst (cl_set_weights L (Some k) (Some rb) (cl_filters L * List.length act), Err e' : result (tensor A))) = Some b' /\ rank b' = 1) /\
     q <= cl_filters (fst (cl_set_weights L (Some k) (Some rb) (cl_filters L * List.length act), Err e' : result (tensor A)))).
  { intros e'. cbn [fst snd cl_gt cl_bias cl_filters cl_set_weights]. split; [exists e'; reflexivity|]. split; [reflexivity|].
    split; [exists rb; split; [reflexivity|exact RR]|nia]. }
  destruct (in_format _ _ xx) as [y|e'] eqn:CV; cbn [bind]; [|apply ST].
  unfold add_bias. rewrite RW. cbn [bind]. apply ST.
Qed.

Lemma broken_forever xs : forall L i q act (b : tensor A),
  gt_bias_indices (cl_gt L) = Some i -> shape i = [q] -> 0 < q ->
  subgroup_get (gt_group (cl_gt L)) (gt_acting (cl_gt L)) = Ok act -> 2 <= List.length act ->
  cl_bias L = Some b -> rank b = 1 -> q <= cl_filters L ->
  forall L'' rs, calls L xs = (L'', rs) -> forall r, In r rs -> exists e, r = Err e.
Proof.
  induction xs as [|x xs IH]; intros L i q act b BI SI QP SA NA EB RB QF L'' rs Q r R; cbn [calls] in Q.
  - assert (rs = []) as -> by congruence. destruct R.
  - destruct (broken_raises L i q act b x BI SI QP SA NA EB RB QF) as [[e E] [GT [[b' [EB' RB']] QF']]].
    destruct (conv_apply L x) as [L1 r1] eqn:CA. cbn [fst snd] in *. destruct (calls L1 xs) as [L2 rs2] eqn:CS.
    assert (rs = r1 :: rs2) as -> by congruence. destruct R as [<-|R]; [exists e; exact E|].
    rewrite <- GT in BI, SA. exact (IH L1 i q act b' BI SI QP SA NA EB' RB' QF' L2 rs2 CS r R).
Qed.

(** The elements that act are those of the subgroup for a convolution and the whole group for
    a transposed one.  If there are at least two, any two calls that succeed on their own can
    overlap so that both return the right result and the layer keeps the transformed weights
    afterwards: its kernel has another shape and its number of filters is wrong.  If it has a
    bias, every later call raises. *)
Theorem C103_overlapping_calls_damage_the_layer name G (a : conv_args A) H opt (tr valued : bool) bs m g c kinit binit L k s dl idx x1 x2 y1 y2 :
  layer_for name G a -> ca_subgroup a = Some H -> option_of a opt ->
  built (dimension_of name) tr a (static_signal_shape valued bs m g c) kinit binit L ->
  List.length m = dimension_of name -> sizes (dimension_of name) a k s dl ->
  subgroup_indices G (if tr then "" else H) idx -> 2 <= List.length idx ->
  apply L x1 = Ok y1 -> apply L x2 = Ok y2 ->
  exists schedule L' K K', execute schedule (L, [Called x1; Called x2]) = (L', [Returned y1; Returned y2]) /\
    cl_kernel L = Some K /\ cl_kernel L' = Some K' /\ shape K' <> shape K /\ transform_kernel (cl_gt L) K = Ok K' /\
    cl_filters L = ca_filters a /\ cl_filters L' = ca_filters a * List.length idx /\ cl_filters L' <> cl_filters L /\
    (ca_use_bias a = true -> forall xs L'' rs, calls L' xs = (L'', rs) -> forall r, In r rs -> exists e, r = Err e).
Proof.
  intros LF HS OP B Lm SZ SI NI Y1 Y2.
  destruct (built_facts name G a H opt tr valued bs m g c kinit binit L k s dl LF HS OP B Lm SZ) as [OK [eb [ea [act [dom [_ [SA [SD [CF _]]]]]]]]].
  assert (act = idx) as -> by (destruct tr; unfold sub_idx in SA; unfold subgroup_indices in SI; congruence).
  assert (KF := cf_kernel _ _ _ _ _ _ _ _ _ _ _ _ _ _ _ _ _ _ _ _ _ _ CF).
  set (K := tab (k ++ (if tr then [ca_filters a; if valued then g * c else c] else [if valued then g * c else c; ca_filters a])) kinit) in KF.
  destruct (overlap L x1 x2 y1 y2 K KF Y1 Y2) as [schedule [K' [b' [f' [xx [PC EX]]]]]].
  apply prepare_weights in PC as [TK [PB [act' [SA' ->]]]].
  assert (act' = idx) as ->.
  { rewrite (cf_group _ _ _ _ _ _ _ _ _ _ _ _ _ _ _ _ _ _ _ _ _ _ CF) in SA'.
    pose proof (cf_act' _ _ _ _ _ _ _ _ _ _ _ _ _ _ _ _ _ _ _ _ _ _ CF) as SA2. congruence. }
  assert (FI := cf_filters _ _ _ _ _ _ _ _ _ _ _ _ _ _ _ _ _ _ _ _ _ _ CF).
  assert (FP := cf_opos _ _ _ _ _ _ _ _ _ _ _ _ _ _ _ _ _ _ _ _ _ _ CF).
  destruct (transformed_kernel G _ _ _ OK tr valued idx dom _ _ c _ (ca_filters a) g k s dl eb ea _ _ _ kinit binit L K CF SA SD eq_refl (wf_tab _ _) (shape_tab _ _))
    as [KT [K2 [_ [_ [_ [TK2 [_ [SK2 _]]]]]]]].
  assert (K2 = K') as -> by congruence.
  exists schedule. eexists. exists K, K'. split; [exact EX|]. split; [exact KF|]. split; [reflexivity|].
  split. { rewrite SK2. unfold K. rewrite shape_tab. intros Q. apply app_inv_head in Q. destruct tr.
    - assert (List.length idx * ca_filters a = ca_filters a) by congruence. nia.
    - assert (List.length idx * ca_filters a = ca_filters a) by congruence. nia. }
  split; [exact TK|]. cbn [cl_filters cl_set_weights]. rewrite FI. split; [reflexivity|]. split; [reflexivity|]. split; [nia|].
  intros UB. pose proof (cf_bidx _ _ _ _ _ _ _ _ _ _ _ _ _ _ _ _ _ _ _ _ _ _ CF UB) as BI.
  pose proof (cf_bias _ _ _ _ _ _ _ _ _ _ _ _ _ _ _ _ _ _ _ _ _ _ CF) as EB. rewrite UB in EB. rewrite EB in PB.
  destruct PB as [rb [RP ->]].
  destruct (repeated_shape _ _ (tab [ca_filters a] binit) rb _ BI (shape_tab _ _) eq_refl RP) as [RR LR].
  intros xs L'' rs CS. refine (broken_forever xs _ _ _ idx rb _ (shape_tab _ _) _ _ NI _ RR _ L'' rs CS).
  - exact BI.
  - nia.
  - exact SA'.
  - reflexivity.
  - cbn [cl_filters cl_set_weights]. nia.
Qed.

(** ** A single element *)

(** The weights are replaced by themselves. *)
Definition idle (L : conv_layer A) : Prop := forall K x K' b' f' xx, cl_kernel L = Some K ->
  prepare_call (cl_gt L) K (cl_bias L) (cl_filters L) x = Ok (K', b', f', xx) ->
  K' = K /\ b' = cl_bias L /\ f' = cl_filters L.

Section Idle.
Context (L : conv_layer A) (ID : idle L).

(** What a thread knows of the weights. *)
Definition true_weights (p : point A) : Prop :=
  let old_ok (old : backup A) := old = (cl_kernel L, cl_bias L, cl_filters L) in
  match p with
  | SavedKernel x k => Some k = cl_kernel L
  | SavedBias x k b => Some k = cl_kernel L /\ b = cl_bias L
  | Saved x old | Assigned old x | Convolved old x | HasFilters old x _ | Outputs old x | RestoredKernel old x | RestoredBias old x => old_ok old
  | GivenKernel x old k => old_ok old /\ Some k = cl_kernel L
  | GivenBias x old k b => old_ok old /\ Some k = cl_kernel L /\ b = cl_bias L
  | Prepared old x k b f => old_ok old /\ Some k = cl_kernel L /\ b = cl_bias L /\ f = cl_filters L
  | AssignedKernel old x b f => old_ok old /\ b = cl_bias L /\ f = cl_filters L
  | AssignedBias old x f => old_ok old /\ f = cl_filters L
  | Called _ | Returned _ | Raised _ => True
  end.

Lemma idle_step p : true_weights p -> exists p', step L p = (L, p') /\ true_weights p'.
Proof.
  intros T. assert (WID : forall k b f, k = cl_kernel L -> b = cl_bias L -> f = cl_filters L -> cl_set_weights L k b f = L)
    by (intros k b f -> -> ->; apply set_weights_id).
  destruct p; cbn [step true_weights] in *.
  - destruct (accepted L x); [destruct (cl_kernel L) eqn:EK|]; eexists; split; reflexivity || exact Coq.Init.Logic.I || (cbn; congruence) || idtac.
  - eexists. split; [reflexivity|]. split; [exact T|reflexivity].
  - destruct T as [T1 T2]. eexists. split; [reflexivity|]. cbn. congruence.
  - destruct (cl_kernel L) as [k|] eqn:EK; eexists; (split; [reflexivity|]); cbn; rewrite ?EK; [split; [congruence|reflexivity]|exact Coq.Init.Logic.I].
  - destruct T as [T1 T2]. eexists. split; [reflexivity|]. split; [exact T1|]. split; [exact T2|reflexivity].
  - destruct T as [T1 [T2 T3]]. subst b. destruct (prepare_call _ _ _ _ _) as [[[[k' b'] f'] xx]|e] eqn:PC.
    + eexists. split; [reflexivity|]. destruct (ID _ _ _ _ _ _ (eq_sym T2) PC) as [-> [-> ->]]. split; [exact T1|]. split; [exact T2|]. split; reflexivity.
    + eexists. split; [reflexivity|]. exact Coq.Init.Logic.I.
  - destruct T as [T1 [T2 [T3 T4]]]. unfold set_kernel. rewrite WID by congruence. eexists. split; [reflexivity|]. split; [exact T1|]. split; [exact T3|exact T4].
  - destruct T as [T1 [T3 T4]]. unfold set_bias. rewrite WID by congruence. eexists. split; [reflexivity|]. split; [exact T1|exact T4].
  - destruct T as [T1 T4]. unfold set_filters. rewrite WID by congruence. eexists. split; [reflexivity|]. exact T1.
  - destruct (cl_kernel L) as [k|] eqn:EK; [destruct (in_format _ _ _)|]; eexists; (split; [reflexivity|]); cbn; rewrite ?EK; congruence || exact Coq.Init.Logic.I.
  - eexists. split; [reflexivity|]. exact T.
  - destruct (bind _ _); eexists; (split; [reflexivity|]); [exact T|exact Coq.Init.Logic.I].
  - unfold set_kernel. rewrite T. cbn [fst snd]. rewrite WID by reflexivity. eexists. split; [reflexivity|]. reflexivity.
  - unfold set_bias. rewrite T. cbn [fst snd]. rewrite WID by reflexivity. eexists. split; [reflexivity|]. reflexivity.
  - unfold set_filters. rewrite T. cbn [fst snd]. rewrite WID by reflexivity. eexists. split; [reflexivity|]. exact Coq.Init.Logic.I.
  - eexists. split; [reflexivity|]. exact Coq.Init.Logic.I.
  - eexists. split; [reflexivity|]. exact Coq.Init.Logic.I.
Qed.

Lemma idle_alone n p : true_weights p -> fst (alone n L p) = L /\ true_weights (snd (alone n L p)).
Proof.
  revert p. induction n as [|n IH]; intros p T; [split; [reflexivity|exact T]|]. cbn [alone].
  destruct (idle_step p T) as [p' [-> T']]. apply IH. exact T'.
Qed.

(** Every thread gets on as if it were alone. *)
Lemma idle_run schedule : forall ps, (forall p, In p ps -> true_weights p) ->
  fst (execute schedule (L, ps)) = L /\
  List.length (snd (execute schedule (L, ps))) = List.length ps /\
  forall i p, nth_error ps i = Some p ->
    nth_error (snd (execute schedule (L, ps))) i = Some (snd (alone (count_occ Nat.eq_dec schedule i) L p)).
Proof.
  induction schedule as [|t schedule IH]; intros ps T.
  - split; [reflexivity|]. split; [reflexivity|]. intros i p P. exact P.
  - unfold execute. cbn [fold_left]. unfold thread_step at 2 4 6. cbn [fst snd].
    destruct (nth_error ps t) as [q|] eqn:Q.
    + destruct (idle_step q (T q (nth_error_In _ _ Q))) as [q' [SQ TQ]]. rewrite SQ.
      destruct (IH (upd t q' ps)) as [I1 [I2 I3]].
      { intros p P. apply In_nth_error in P as [j P]. rewrite nth_error_upd in P. destruct (t =? j)%nat eqn:E.
        - destruct (nth_error ps j); [|discriminate P]. assert (p = q') as -> by congruence. exact TQ.
        - apply T. exact (nth_error_In _ _ P). }
      split; [exact I1|]. split.
      { unfold execute in I2. rewrite I2. clear. revert t. induction ps as [|a ps IH]; intros [|t]; cbn [upd List.length]; try reflexivity. rewrite IH. reflexivity. }
      intros i p P. cbn [count_occ]. destruct (Nat.eq_dec t i) as [->|N].
      * assert (q = p) as -> by congruence. cbn [alone]. rewrite SQ. apply I3. rewrite nth_error_upd, Nat.eqb_refl, P. reflexivity.
      * apply I3. rewrite nth_error_upd, (proj2 (Nat.eqb_neq t i) N). exact P.
    + destruct (IH ps T) as [I1 [I2 I3]]. split; [exact I1|]. split; [exact I2|]. intros i p P. cbn [count_occ].
      destruct (Nat.eq_dec t i) as [->|N]; [rewrite Q in P; discriminate P|]. apply I3. exact P.
Qed.

End Idle.

(** If only the identity acts, calls may overlap in any way: the layer never changes and
    every thread that has made all its steps has ended as a call on its own. *)
Theorem C103_one_element_is_safe name G (a : conv_args A) H opt (valued : bool) bs m g c kinit binit L k s dl e xs schedule L' ps :
  layer_for name G a -> ca_subgroup a = Some H -> option_of a opt ->
  built (dimension_of name) false a (static_signal_shape valued bs m g c) kinit binit L ->
  List.length m = dimension_of name -> sizes (dimension_of name) a k s dl ->
  subgroup_indices G H [e] ->
  execute schedule (L, map Called xs) = (L', ps) ->
  L' = L /\ List.length ps = List.length xs /\
  forall i x, nth_error xs i = Some x -> 15 <= count_occ Nat.eq_dec schedule i -> nth_error ps i = Some (ended (apply L x)).
Proof.
  intros LF HS OP B Lm SZ SI RUN.
  destruct (built_facts name G a H opt false valued bs m g c kinit binit L k s dl LF HS OP B Lm SZ) as [OK [eb [ea [act [dom [_ [SA [SD [CF _]]]]]]]]].
  assert (act = [e]) as -> by (unfold sub_idx in SA; unfold subgroup_indices in SI; congruence).
  assert (ID : idle L).
  { intros K x K' b' f' xx EK PC. apply prepare_weights in PC as [TK [PB [act' [SA' ->]]]].
    assert (act' = [e]) as ->.
    { rewrite (cf_group _ _ _ _ _ _ _ _ _ _ _ _ _ _ _ _ _ _ _ _ _ _ CF) in SA'.
      pose proof (cf_act' _ _ _ _ _ _ _ _ _ _ _ _ _ _ _ _ _ _ _ _ _ _ CF) as SA2. congruence. }
    assert (FI := cf_filters _ _ _ _ _ _ _ _ _ _ _ _ _ _ _ _ _ _ _ _ _ _ CF).
    split; [|split; [|cbn [List.length]; lia]].
    - assert (KF := cf_kernel _ _ _ _ _ _ _ _ _ _ _ _ _ _ _ _ _ _ _ _ _ _ CF).
      set (K0 := tab (k ++ [if valued then g * c else c; ca_filters a]) kinit) in KF. assert (K = K0) as -> by congruence.
      pose proof (cf_k _ _ _ _ _ _ _ _ _ _ _ _ _ _ _ _ _ _ _ _ _ _ CF) as Lk.
      pose proof (cf_fit _ _ _ _ _ _ _ _ _ _ _ _ _ _ _ _ _ _ _ _ _ _ CF) as KFI.
      destruct (transformed_kernel G _ _ _ OK false valued [e] dom _ _ c _ (ca_filters a) g k s dl eb ea _ _ _ kinit binit L K0 CF SA SD eq_refl (wf_tab _ _) (shape_tab _ _))
        as [KT [K2 [RK [_ [_ [TK2 [WK [SK2 AT]]]]]]]].
      assert (K2 = K') as -> by congruence. cbn [List.length] in SK2. rewrite Nat.mul_1_l in SK2.
      apply tensor_ext; [exact WK|apply wf_tab|rewrite SK2; reflexivity|]. rewrite SK2. intros i I.
      apply inbk_inv in I as [j [q [r [-> [J [Q R]]]]]].
      specialize (AT 0 j q r Nat.lt_0_1 J Q R). cbn [Nat.mul Nat.add] in AT. rewrite AT.
      rewrite (whole_visible G _ _ _ valued [e] dom (Some H) c _ g 0 q OK SA SD eq_refl Nat.lt_0_1 Q).
      rewrite (first_slice G _ _ _ OK valued [e] dom (Some H) (Some "") c _ (ca_filters a) k g K0 KT SA SD eq_refl Lk KFI (wf_tab _ _) RK).
      reflexivity.
    - pose proof (cf_bias _ _ _ _ _ _ _ _ _ _ _ _ _ _ _ _ _ _ _ _ _ _ CF) as EB. rewrite EB in PB |- *.
      destruct (ca_use_bias a) eqn:UB; [|exact PB]. destruct PB as [rb [RP ->]].
      pose proof (cf_bidx _ _ _ _ _ _ _ _ _ _ _ _ _ _ _ _ _ _ _ _ _ _ CF eq_refl) as BI.
      rewrite (repeat_bias_eq _ [e] _ binit BI) in RP. assert (EO : forall u v : tensor A, Ok u = Ok v -> u = v) by congruence.
      apply EO in RP. rewrite <- RP. f_equal. cbn [List.length]. rewrite Nat.mul_1_l. apply tab_ext. intros i I. apply inb1 in I as [q [-> Q]].
      cbn [nth]. rewrite Nat.mod_small by exact Q. reflexivity. }
  assert (TW : forall p, In p (map Called xs) -> true_weights L p) by (intros p P; apply in_map_iff in P as [x [<- _]]; exact Coq.Init.Logic.I).
  destruct (idle_run L ID schedule (map Called xs) TW) as [I1 [I2 I3]]. rewrite RUN in I1, I2, I3. cbn [fst snd] in *.
  split; [exact I1|]. split; [rewrite I2; apply map_length|]. intros i x X N.
  rewrite (I3 i (Called x)) by (rewrite nth_error_map, X; reflexivity). rewrite (alone_enough _ L x N). reflexivity.
Qed.

End Threads.

Print Assumptions C103_one_thread.
Print Assumptions C103_one_at_a_time.
Print Assumptions C103_overlapping_calls_damage_the_layer.
Print Assumptions C103_one_element_is_safe.

(** ** Examples and counterexamples over the integers *)

Definition threads_args (H : string) (use_bias : bool) : conv_args Z := with_group "P4" H (One 3) 1 None None None use_bias.
Definition threads_layer (H : string) (use_bias : bool) : result (conv_layer Z) :=
  test_layer 2 false (threads_args H use_bias) [None; Some 3; Some 3; Some 1] some_weights some_weights.
Definition signal_1 : tensor Z := some_signal [1; 3; 3; 1].
Definition signal_2 : tensor Z := mkTensor [1; 3; 3; 1] (rev (data signal_1)).
Definition ends_with (p : point Z) (r : result (tensor Z)) : bool :=
  match p with Returned y => same_result (Ok y) r | _ => false end.

(** A call made while another has replaced the weights transforms them again and returns
    another tensor of the right shape.  Nothing is raised, and the layer is as before. *)
Theorem C103_overlapping_calls_return_right_results_refuted :
  exists (a : conv_args Z) L x1 x2 schedule y1 y2 y,
    built 2 false a [None; Some 3; Some 3; Some 1] some_weights some_weights L /\ layer_for "P4" P4 a /\
    execute schedule (L, [Called x1; Called x2]) = (L, [Returned y1; Returned y]) /\
    apply L x1 = Ok y1 /\ apply L x2 = Ok y2 /\ shape y = shape y2 /\ y <> y2.
Proof.
  set (a := threads_args "" false).
  destruct (threads_layer "" false) as [L|] eqn:T; [|vm_compute in T; discriminate T].
  exists a, L, signal_1, signal_2, (repeat 0 9 ++ repeat 1 15 ++ repeat 0 6),
    (mkTensor [1; 1; 1; 4; 1] [1369; 1083; 1079; 1158]%Z), (mkTensor [1; 1; 1; 4; 1] [1079; 1158; 1369; 1083]%Z),
    (mkTensor [1; 1; 1; 4; 1] [893; 1060; 1398; 1105]%Z).
  split; [apply test_layer_built; exact T|]. split; [split; [vm_compute; reflexivity|split; [left; reflexivity|reflexivity]]|].
  assert (EO : forall u v : conv_layer Z, Ok u = Ok v -> u = v) by congruence.
  symmetry in T. vm_compute in T. apply EO in T. rewrite T. clear.
  split; [vm_compute; reflexivity|]. split; [vm_compute; reflexivity|]. split; [vm_compute; reflexivity|].
  split; [reflexivity|]. discriminate.
Qed.
Print Assumptions C103_overlapping_calls_return_right_results_refuted.

(** One call after the other: both results are right, whichever thread is first. *)
Example C103_example :
  match threads_layer "" true with
  | Ok L => forallb (fun schedule => match execute schedule (L, [Called signal_1; Called signal_2]) with
                      | (_, [p1; p2]) => ends_with p1 (apply L signal_1) && ends_with p2 (apply L signal_2)
                      | _ => false
                      end)
              [repeat 0 15 ++ repeat 1 15; repeat 1 15 ++ repeat 0 15] && negb (same_result (apply L signal_1) (apply L signal_2))
  | Err _ => false
  end = true.
Proof. vm_compute. reflexivity. Qed.

(** After the overlap of [C103_overlapping_calls_damage_the_layer]: with a bias the layer
    raises, without one it returns another tensor. *)
Definition after_overlap (use_bias : bool) : list (result (list Z)) :=
  match threads_layer "" use_bias with
  | Ok L =>
      let '(L', ps) := execute (repeat 0 9 ++ repeat 1 3 ++ repeat 0 6 ++ repeat 1 12) (L, [Called signal_1; Called signal_2]) in
      match ps with
      | [p1; p2] => if ends_with p1 (apply L signal_1) && ends_with p2 (apply L signal_2)
                    then map (fun l => y <- apply l signal_1 ;; Ok (data y)) [L; L'] else []
      | _ => []
      end
  | Err _ => []
  end.
Example C103_damage_example :
  (match after_overlap true with [Ok _; Err _] => true | _ => false end) = true /\
  after_overlap false = [Ok [1369; 1083; 1079; 1158]%Z; Ok [1398; 1105; 893; 1060]%Z].
Proof. split; vm_compute; reflexivity. Qed.

(** With the subgroup P1 the same overlap is harmless; three threads in turns. *)
Example C103_safe_example :
  match threads_layer "P1" true with
  | Ok L => match execute (List.concat (repeat [0; 2; 1] 15)) (L, map Called [signal_1; signal_2; signal_1]) with
            | (L', [p1; p2; p3]) => ends_with p1 (apply L signal_1) && ends_with p2 (apply L signal_2) && ends_with p3 (apply L signal_1)
                                    && same_result (apply L' signal_2) (apply L signal_2)
            | _ => false
            end
  | Err _ => false
  end = true.
Proof. vm_compute. reflexivity. Qed.
