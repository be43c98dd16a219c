(** Signals with axes (batch, spatial..., channels) and (batch, spatial..., group,
    channels): indexing, merging and splitting of axes, symmetries. *)
From Verif Require Export WindowFacts Layers.

(** ** Symmetries of a block of consecutive axes *)

Lemma gather_block s1 n s2 : gather (seq (List.length s1) (List.length n)) (s1 ++ n ++ s2) = n.
Proof.
  apply nth_ext0.
  - rewrite length_gather, seq_length. reflexivity.
  - rewrite length_gather, seq_length. intros m M. rewrite nth_gather by (rewrite seq_length; exact M).
    rewrite seq_nth by exact M. rewrite app_nth2_plus, app_nth1 by exact M. reflexivity.
Qed.

Lemma scatter_block i1 v p i2 : List.length v = List.length p ->
  scatter (seq (List.length i1) (List.length p)) v (i1 ++ p ++ i2) = i1 ++ v ++ i2.
Proof.
  revert i1 v. induction p as [|x p IH]; intros i1 [|y v] L; cbn [List.length] in L; try discriminate L; [reflexivity|].
  cbn [List.length seq scatter]. cbn [app].
  replace (S (List.length i1)) with (List.length (i1 ++ [x])) by (rewrite app_length; cbn [List.length]; lia).
  replace (i1 ++ x :: p ++ i2) with ((i1 ++ [x]) ++ p ++ i2) by (rewrite <- app_assoc; reflexivity).
  rewrite IH by lia. rewrite <- app_assoc. cbn [app]. apply upd_app.
Qed.

Lemma pixel_at_block e s1 n s2 i1 p i2 :
  List.length i1 = List.length s1 -> List.length p = List.length n -> List.length e = List.length n ->
  pixel_at e (seq (List.length s1) (List.length n)) (s1 ++ n ++ s2) (i1 ++ p ++ i2) = i1 ++ pixel e n p ++ i2.
Proof.
  intros L1 LP LE. unfold pixel_at. rewrite gather_block. rewrite <- L1, <- LP, gather_block.
  apply scatter_block. rewrite length_pixel. lia.
Qed.

Lemma spatial_block o d r : o + d <= r -> (d = 3 \/ d <> 3) -> spatial_axes_ok d (seq o d) r.
Proof.
  intros H _. split; [apply seq_length|]. split; [apply seq_NoDup|]. split.
  - intros a I. apply in_seq in I. lia.
  - intros ->. exists o. reflexivity.
Qed.

(** ** Indices *)

Lemma inb1 c i : inb [c] i -> exists q, i = [q] /\ q < c.
Proof.
  intros I. pose proof (inb_length _ _ I) as L. destruct i as [|q [|]]; try discriminate L.
  exists q. split; [reflexivity|]. apply inb_cons in I as [Q _]. exact Q.
Qed.

Lemma inb2 c o i : inb [c; o] i -> exists q r, i = [q; r] /\ q < c /\ r < o.
Proof.
  intros I. pose proof (inb_length _ _ I) as L. destruct i as [|q [|r [|]]]; try discriminate L.
  apply inb_cons in I as [Q I]. apply inb1 in I as [r' [E R]]. injection E as ->. exists q, r'. auto.
Qed.

Lemma inb_nil : inb [] [].
Proof. apply Forall2_nil. Qed.

Lemma inb3_inv b n c i : inb (b :: n ++ [c]) i ->
  exists bi p q, i = bi :: p ++ [q] /\ bi < b /\ inb n p /\ q < c.
Proof.
  intros I. destruct i as [|bi i]; [inversion I|]. apply inb_cons in I as [B I].
  apply inb_app_split in I as [p [r [-> [P R]]]]. apply inb1 in R as [q [-> Q]]. exists bi, p, q. auto.
Qed.

Lemma inb3 b n c bi p q : bi < b -> inb n p -> q < c -> inb (b :: n ++ [c]) (bi :: p ++ [q]).
Proof.
  intros B P Q. apply inb_cons. split; [exact B|]. apply inb_app; [exact P|]. apply inb_cons. split; [exact Q|apply inb_nil].
Qed.

Lemma inb4_inv b n g c i : inb (b :: n ++ [g; c]) i ->
  exists bi p h q, i = bi :: p ++ [h; q] /\ bi < b /\ inb n p /\ h < g /\ q < c.
Proof.
  intros I. destruct i as [|bi i]; [inversion I|]. apply inb_cons in I as [B I].
  apply inb_app_split in I as [p [r [-> [P R]]]]. apply inb2 in R as [h [q [-> [H Q]]]]. exists bi, p, h, q. auto.
Qed.

Lemma inb4 b n g c bi p h q : bi < b -> inb n p -> h < g -> q < c -> inb (b :: n ++ [g; c]) (bi :: p ++ [h; q]).
Proof.
  intros B P H Q. apply inb_cons. split; [exact B|]. apply inb_app; [exact P|].
  apply inb_cons. split; [exact H|]. apply inb_cons. split; [exact Q|apply inb_nil].
Qed.

Lemma spatial_ix d bi p r : List.length p = d -> spatial d (bi :: p ++ r) = p.
Proof. intros L. unfold spatial. cbn [tl]. apply firstn_app_exact. auto. Qed.

Lemma chan_ix d bi p q r : List.length p = d -> nth (d + 1) (bi :: p ++ q :: r) 0 = q.
Proof.
  intros L. rewrite Nat.add_1_r. cbn [nth]. rewrite app_nth2 by lia. rewrite L, Nat.sub_diag. reflexivity.
Qed.

Lemma chan_ix2 d bi p h q r : List.length p = d -> nth (d + 2) (bi :: p ++ h :: q :: r) 0 = q.
Proof.
  intros L. replace (d + 2) with (S (S d)) by lia. cbn [nth]. rewrite app_nth2 by lia.
  replace (S d - List.length p) with 1 by lia. reflexivity.
Qed.

(** Functions of (batch, pixel, channel) and (batch, pixel, group, channel) as
    functions of indices. *)
Definition sig3 {B} (d : nat) (f : nat -> list nat -> nat -> B) (i : list nat) : B :=
  f (nth 0 i 0) (spatial d i) (nth (d + 1) i 0).
Definition sig4 {B} (d : nat) (f : nat -> list nat -> nat -> nat -> B) (i : list nat) : B :=
  f (nth 0 i 0) (spatial d i) (nth (d + 1) i 0) (nth (d + 2) i 0).

Lemma sig3_ix {B} d (f : nat -> list nat -> nat -> B) bi p q : List.length p = d -> sig3 d f (bi :: p ++ [q]) = f bi p q.
Proof. intros L. unfold sig3. rewrite spatial_ix, chan_ix by exact L. reflexivity. Qed.

Lemma sig4_ix {B} d (f : nat -> list nat -> nat -> nat -> B) bi p h q :
  List.length p = d -> sig4 d f (bi :: p ++ [h; q]) = f bi p h q.
Proof. intros L. unfold sig4. rewrite spatial_ix, chan_ix, chan_ix2 by exact L. reflexivity. Qed.

Section Sig.
Context {A : Type} {ZA : Zero A}.

Lemma at_sig3 d b n c (f : nat -> list nat -> nat -> A) bi p q :
  List.length n = d -> bi < b -> inb n p -> q < c -> at_ (tab (b :: n ++ [c]) (sig3 d f)) (bi :: p ++ [q]) = f bi p q.
Proof.
  intros L B P Q. rewrite at_tab by (apply inb3; assumption). apply sig3_ix. rewrite (inb_length _ _ P). exact L.
Qed.

Lemma at_sig4 d b n g c (f : nat -> list nat -> nat -> nat -> A) bi p h q :
  List.length n = d -> bi < b -> inb n p -> h < g -> q < c ->
  at_ (tab (b :: n ++ [g; c]) (sig4 d f)) (bi :: p ++ [h; q]) = f bi p h q.
Proof.
  intros L B P H Q. rewrite at_tab by (apply inb4; assumption). apply sig4_ix. rewrite (inb_length _ _ P). exact L.
Qed.

Lemma sig3_ext d b n c (f g : nat -> list nat -> nat -> A) : List.length n = d ->
  (forall bi p q, bi < b -> inb n p -> q < c -> f bi p q = g bi p q) ->
  tab (b :: n ++ [c]) (sig3 d f) = tab (b :: n ++ [c]) (sig3 d g).
Proof.
  intros L H. apply tab_ext. intros i I. apply inb3_inv in I as [bi [p [q [-> [B [P Q]]]]]].
  rewrite !sig3_ix by (rewrite (inb_length _ _ P); exact L). apply H; assumption.
Qed.

Lemma sig4_ext d b n g c (f f' : nat -> list nat -> nat -> nat -> A) : List.length n = d ->
  (forall bi p h q, bi < b -> inb n p -> h < g -> q < c -> f bi p h q = f' bi p h q) ->
  tab (b :: n ++ [g; c]) (sig4 d f) = tab (b :: n ++ [g; c]) (sig4 d f').
Proof.
  intros L H. apply tab_ext. intros i I. apply inb4_inv in I as [bi [p [h [q [-> [B [P [Hh Q]]]]]]]].
  rewrite !sig4_ix by (rewrite (inb_length _ _ P); exact L). apply H; assumption.
Qed.

Lemma tab_sig3 d b n c (F : list nat -> A) : List.length n = d ->
  tab (b :: n ++ [c]) F = tab (b :: n ++ [c]) (sig3 d (fun bi p q => F (bi :: p ++ [q]))).
Proof.
  intros L. apply tab_ext. intros i I. apply inb3_inv in I as [bi [p [q [-> [B [P Q]]]]]].
  rewrite sig3_ix by (rewrite (inb_length _ _ P); exact L). reflexivity.
Qed.

Lemma tab_sig4 d b n g c (F : list nat -> A) : List.length n = d ->
  tab (b :: n ++ [g; c]) F = tab (b :: n ++ [g; c]) (sig4 d (fun bi p h q => F (bi :: p ++ [h; q]))).
Proof.
  intros L. apply tab_ext. intros i I. apply inb4_inv in I as [bi [p [h [q [-> [B [P [H Q]]]]]]]].
  rewrite sig4_ix by (rewrite (inb_length _ _ P); exact L). reflexivity.
Qed.

(** The function of a tensor. *)
Definition fun3 (x : tensor A) (bi : nat) (p : list nat) (q : nat) : A := at_ x (bi :: p ++ [q]).
Definition fun4 (x : tensor A) (bi : nat) (p : list nat) (h q : nat) : A := at_ x (bi :: p ++ [h; q]).

Lemma tensor_sig3 d b n c (x : tensor A) : wf x -> List.length n = d -> shape x = b :: n ++ [c] ->
  x = tab (b :: n ++ [c]) (sig3 d (fun3 x)).
Proof. intros W L S. rewrite <- (tab_at x W) at 1. rewrite S. apply tab_sig3. exact L. Qed.

Lemma tensor_sig4 d b n g c (x : tensor A) : wf x -> List.length n = d -> shape x = b :: n ++ [g; c] ->
  x = tab (b :: n ++ [g; c]) (sig4 d (fun4 x)).
Proof. intros W L S. rewrite <- (tab_at x W) at 1. rewrite S. apply tab_sig4. exact L. Qed.

(** ** Merging and splitting the group axis *)

Lemma insert_group (b : nat) n g c d : List.length n = d -> b :: n ++ [g; c] = insert_at (S d) g (b :: n ++ [c]).
Proof. intros L. rewrite insert_at_S, <- L. rewrite insert_at_app_r. reflexivity. Qed.

Lemma merge_group d b n g c (f : nat -> list nat -> nat -> nat -> A) : List.length n = d ->
  merge_axes (tab (b :: n ++ [g; c]) (sig4 d f)) (Z.of_nat (d + 1)) (Z.of_nat (d + 2))
  = Ok (tab (b :: n ++ [g * c]) (sig3 d (fun bi p q => f bi p (q / c) (q mod c)))).
Proof.
  intros L. rewrite (insert_group b n g c d L), tab_stk by (cbn [List.length]; rewrite app_length; cbn; lia).
  replace (d + 1) with (S d) by lia. replace (d + 2) with (OpFacts.shift (S d) (S d)) by (unfold OpFacts.shift; rewrite Nat.leb_refl; lia).
  rewrite merge_axes_stk0 by (cbn [List.length]; rewrite app_length; cbn; lia). f_equal.
  assert (N : nth (S d) (b :: n ++ [c]) 0 = c) by (replace (S d) with (d + 1) by lia; apply (chan_ix d b n c []); exact L).
  assert (U : forall (bi : nat) p q v, List.length p = d -> upd (S d) v (bi :: p ++ [q]) = bi :: p ++ [v]).
  { intros bi p q v LP. cbn [upd]. rewrite <- LP. f_equal. apply upd_app. }
  rewrite N, U by exact L. apply tab_ext. intros i I. apply inb3_inv in I as [bi [p [q [-> [B [P Q]]]]]].
  assert (LP : List.length p = d) by (rewrite (inb_length _ _ P); exact L).
  assert (NQ : nth (S d) (bi :: p ++ [q]) 0 = q) by (replace (S d) with (d + 1) by lia; apply (chan_ix d bi p q []); exact LP).
  rewrite NQ, U by exact LP. rewrite <- (insert_group bi p _ _ d LP). rewrite sig4_ix, sig3_ix by exact LP. reflexivity.
Qed.

Lemma split_group d b n g c (f : nat -> list nat -> nat -> A) : List.length n = d -> g <> 0 ->
  split_axes (tab (b :: n ++ [g * c]) (sig3 d f)) g (Z.of_nat (d + 1))
  = Ok (tab (b :: n ++ [g; c]) (sig4 d (fun bi p h q => f bi p (h * c + q)))).
Proof.
  intros L G. replace (d + 1) with (S d) by lia.
  assert (U : forall (bi : nat) p q v, List.length p = d -> upd (S d) v (bi :: p ++ [q]) = bi :: p ++ [v]).
  { intros bi p q v LP. cbn [upd]. rewrite <- LP. f_equal. apply upd_app. }
  assert (N : forall bi p q, List.length p = d -> nth (S d) (bi :: p ++ [q]) 0 = q).
  { intros bi p q LP. replace (S d) with (d + 1) by lia. apply (chan_ix d bi p q []). exact LP. }
  rewrite <- (U b n c (g * c) L). rewrite <- (N b n c L) at 1.
  rewrite split_axes_tab; [|cbn [List.length]; rewrite app_length; cbn; lia|exact G]. f_equal.
  rewrite (insert_group b n g c d L), tab_stk by (cbn [List.length]; rewrite app_length; cbn; lia).
  apply stk_ext; [cbn [List.length]; rewrite app_length; cbn; lia|]. intros h i H I.
  apply inb3_inv in I as [bi [p [q [-> [B [P Q]]]]]].
  assert (LP : List.length p = d) by (rewrite (inb_length _ _ P); exact L).
  rewrite !N, U by assumption. rewrite <- (insert_group bi p _ _ d LP). rewrite sig4_ix, sig3_ix by exact LP. reflexivity.
Qed.

Lemma moveaxis_same (x : tensor A) k : wf x -> k < rank x -> moveaxis x (Z.of_nat k) (Z.of_nat k) = Ok x.
Proof.
  intros W K. rewrite (stack_of_slices x k W K) at 1.
  assert (K' : k <= List.length (remove_at k (shape x))) by (rewrite length_remove_at; unfold rank in K; lia).
  rewrite moveaxis_stk by exact K'. rewrite <- (stack_of_slices x k W K). reflexivity.
Qed.

End Sig.
