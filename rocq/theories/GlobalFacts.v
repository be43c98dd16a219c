(** Global pooling layers, for both data formats: the group axis follows the spatial
    axes in either. *)
From Coq Require Import Permutation.
From Verif Require Export PoolTheorems.
Local Open Scope string_scope.
Local Open Scope list_scope.

Section Global.
Context {A : Type} {RA : Arith A} {PA : Pool A}.
Context (G : group) (d : nat) (E : list symmetry) (eq : bool) (OK : group_ok G d E eq).
Notation n := (List.length E).
Notation sym a := (nth a E []).
Notation fit := (fit d eq).

(** Signals of shape s1 ++ m ++ g :: s2. *)

Lemma inb_parts s1 m s2 i : inb (s1 ++ m ++ s2) i -> exists i1 p i2, i = i1 ++ p ++ i2 /\ inb s1 i1 /\ inb m p /\ inb s2 i2.
Proof.
  intros I. apply inb_app_split in I as [i1 [r [-> [I1 I]]]]. apply inb_app_split in I as [p [i2 [-> [P I2]]]].
  exists i1, p, i2. auto.
Qed.

Lemma inb_put s1 m s2 i1 p i2 : inb s1 i1 -> inb m p -> inb s2 i2 -> inb (s1 ++ m ++ s2) (i1 ++ p ++ i2).
Proof. intros I1 P I2. apply inb_app; [exact I1|]. apply inb_app; assumption. Qed.

Lemma inb_ones d0 : inb (repeat 1 d0) (repeat 0 d0).
Proof. induction d0 as [|d0 IH]; [apply inb_nil|]. cbn [repeat]. apply inb_cons. split; [lia|exact IH]. Qed.

Lemma reduce_block f (x : tensor A) s1 m g s2 :
  shape x = s1 ++ m ++ g :: s2 ->
  exists x1, reduce f x (Z.of_nat (List.length s1 + List.length m)) = Ok x1 /\ wf x1 /\ shape x1 = s1 ++ m ++ s2 /\
  forall i1 p i2, inb s1 i1 -> inb m p -> inb s2 i2 ->
    at_ x1 (i1 ++ p ++ i2) = f (map (fun v => at_ x (i1 ++ p ++ v :: i2)) (seq 0 g)).
Proof.
  intros SH. unfold reduce, rank. rewrite SH.
  rewrite norm_axis_nat by (rewrite !app_length; cbn [List.length]; lia). cbn [bind].
  assert (NG : nth (List.length s1 + List.length m) (s1 ++ m ++ g :: s2) 0 = g).
  { rewrite app_assoc. rewrite app_nth2 by (rewrite app_length; lia). rewrite app_length, Nat.sub_diag. reflexivity. }
  assert (RM : remove_at (List.length s1 + List.length m) (s1 ++ m ++ g :: s2) = s1 ++ m ++ s2).
  { rewrite app_assoc. rewrite <- app_length. rewrite remove_at_app. rewrite <- app_assoc. reflexivity. }
  rewrite NG, RM. eexists. split; [reflexivity|]. split; [apply wf_tab|]. split; [apply shape_tab|].
  intros i1 p i2 I1 P I2. rewrite at_tab by (apply inb_put; assumption). f_equal. apply map_ext. intros v. f_equal.
  rewrite <- (inb_length _ _ I1), <- (inb_length _ _ P). rewrite app_assoc, <- app_length, insert_at_app_r, <- app_assoc. reflexivity.
Qed.

Lemma slices_block (x gx : tensor A) s1 m s2 Ha Hd idx dom :
  sub_idx G Ha idx -> sub_idx G Hd dom -> List.length m = d -> wf x ->
  shape x = s1 ++ m ++ List.length dom :: s2 ->
  (forall u, In u idx -> stable G u dom) ->
  action G x (map Z.of_nat (seq (List.length s1) d)) 0 (Some (Z.of_nat (List.length s1 + d))) Ha Hd = Ok gx ->
  fit m /\ shape gx = List.length idx :: shape x /\
  forall u, u < List.length idx -> let a := nth u idx 0 in
    wf (slice 0 u gx) /\ shape (slice 0 u gx) = shape x /\
    forall i1 p h i2, inb s1 i1 -> inb m p -> h < List.length dom -> inb s2 i2 ->
      at_ (slice 0 u gx) (i1 ++ p ++ h :: i2) = at_ x (i1 ++ pixel (sym a) m p ++ turned G a dom h :: i2).
Proof.
  intros SA SD L W SH ST R. change 0%Z with (Z.of_nat 0) in R.
  assert (RK : rank x = List.length s1 + d + 1 + List.length s2).
  { unfold rank. rewrite SH, !app_length. cbn [List.length]. lia. }
  apply (group_action_ok _ _ _ _ OK) with (act := idx) (dom := dom) in R as [AC ->];
    [|exact W|lia|lia|apply spatial_block; lia|intros I; apply in_seq in I; lia|exact SA|exact SD|].
  2:{ rewrite SH, app_assoc. rewrite app_nth2 by (rewrite app_length; lia). rewrite app_length, L, Nat.sub_diag. reflexivity. }
  assert (F : fit m).
  { split; [|exact L]. unfold accepts in AC. rewrite SH in AC. rewrite <- L in AC. rewrite gather_block in AC. exact AC. }
  split; [exact F|]. split; [apply shape_stk|]. intros u U a.
  assert (Hu : In a idx) by (apply nth_In; exact U).
  destruct (sub_idx_facts _ _ _ _ OK _ _ SA) as [_ [B _]]. assert (Han : a < n) by (apply B; exact Hu).
  rewrite slice_stk by (try apply Nat.le_0_l; exact U). split; [apply wf_tab|]. split; [apply shape_tab|].
  intros i1 p h i2 I1 P Hh I2. rewrite at_tab.
  2:{ rewrite SH. apply inb_put; try assumption. apply inb_cons. split; assumption. }
  rewrite SH. fold a. pose proof (inb_length _ _ I1) as L1. pose proof (inb_length _ _ P) as LP.
  pose proof (sym_ok G d E eq OK a Han) as [LE _].
  assert (NH : nth (List.length s1 + d) (i1 ++ p ++ h :: i2) 0 = h).
  { rewrite app_assoc. rewrite app_nth2 by (rewrite app_length; lia). rewrite app_length. replace (_ - _) with 0 by lia. reflexivity. }
  rewrite NH. unfold dom_at. rewrite (proj2 (mem_In _ _) (ST a Hu h Hh)). fold (turned G a dom h).
  rewrite <- L at 2. rewrite pixel_at_block by lia. f_equal.
  replace (List.length s1 + d) with (List.length (i1 ++ pixel (sym a) m p)) by (rewrite app_length, length_pixel; lia).
  rewrite app_assoc. rewrite upd_app. rewrite <- app_assoc. reflexivity.
Qed.

Lemma turned_permutation a dom : a < n -> NoDup dom -> (forall x, In x dom -> x < n) -> stable G a dom ->
  Permutation (map (turned G a dom) (seq 0 (List.length dom))) (seq 0 (List.length dom)).
Proof.
  intros Ha ND B S. apply NoDup_Permutation_bis.
  - apply NoDup_map_in; [|apply seq_NoDup]. intros h h' I I'. apply in_seq in I, I'.
    apply (turned_inj G d E eq OK); try assumption; lia.
  - rewrite map_length. auto.
  - intros h I. apply in_map_iff in I as [h' [<- I]]. apply in_seq in I. apply in_seq. split; [lia|].
    apply turned_lt; [exact S|lia].
Qed.

(** Reducing the group axis of a moved signal. *)
Lemma reduce_moved f (x x' : tensor A) s1 m s2 a dom :
  invariant f -> a < n -> NoDup dom -> (forall v, In v dom -> v < n) -> stable G a dom -> fit m ->
  shape x = s1 ++ m ++ List.length dom :: s2 -> shape x' = shape x ->
  (forall i1 p h i2, inb s1 i1 -> inb m p -> h < List.length dom -> inb s2 i2 ->
     at_ x' (i1 ++ p ++ h :: i2) = at_ x (i1 ++ pixel (sym a) m p ++ turned G a dom h :: i2)) ->
  exists y y', reduce f x (Z.of_nat (List.length s1 + d)) = Ok y /\ reduce f x' (Z.of_nat (List.length s1 + d)) = Ok y' /\
    wf y /\ wf y' /\ shape y = s1 ++ m ++ s2 /\ shape y' = s1 ++ m ++ s2 /\
    forall i1 p i2, inb s1 i1 -> inb m p -> inb s2 i2 -> at_ y' (i1 ++ p ++ i2) = at_ y (i1 ++ pixel (sym a) m p ++ i2).
Proof.
  intros PF Ha ND B S F SH SH' MV. pose proof F as [_ L].
  destruct (reduce_block f x s1 m (List.length dom) s2 SH) as [y [RY [WY [SY AY]]]].
  rewrite SH in SH'. destruct (reduce_block f x' s1 m (List.length dom) s2 SH') as [y' [RY' [WY' [SY' AY']]]].
  rewrite L in RY, RY'. exists y, y'. repeat (split; [assumption|]). intros i1 p i2 I1 P I2.
  rewrite AY' by assumption. rewrite AY by (try assumption; apply (pixel_in G d E eq OK); assumption).
  symmetry. etransitivity; [apply PF, Permutation_map; symmetry; apply (turned_permutation a dom); assumption|].
  f_equal. rewrite map_map. apply map_ext_in. intros h I. apply in_seq in I. symmetry. apply MV; try assumption. lia.
Qed.

Lemma pixel_permutation a m : a < n -> fit m -> Permutation (map (pixel (sym a) m) (indices m)) (indices m).
Proof.
  intros Ha [F L]. pose proof (sym_ok G d E eq OK a Ha) as SY. pose proof (fits_sym G d E eq OK m a F L Ha) as FS.
  apply indices_injective.
  - intros j J. apply (pixel_inb d); assumption.
  - intros j j' J J'. apply (pixel_injective d); assumption.
Qed.

(** The data format of a layer and the position of its axes. *)
Definition last_shape (b : nat) (m : list nat) (g c : nat) : list nat := [b] ++ m ++ g :: [c].
Definition first_shape (b : nat) (m : list nat) (g c : nat) : list nat := [b; c] ++ m ++ g :: [].

Lemma global_moved fmt f kd (y y' : tensor A) b m c a :
  invariant f -> a < n -> fit m ->
  shape y = (if String.eqb fmt "channels_last" then [b] ++ m ++ [c] else [b; c] ++ m ++ []) ->
  shape y' = shape y ->
  (if String.eqb fmt "channels_last"
   then forall bi p q, bi < b -> inb m p -> q < c -> at_ y' (bi :: p ++ [q]) = at_ y (bi :: pixel (sym a) m p ++ [q])
   else forall bi p q, bi < b -> inb m p -> q < c -> at_ y' (bi :: q :: p) = at_ y (bi :: q :: pixel (sym a) m p)) ->
  exists z, global_pool f fmt kd d y = Ok z /\ global_pool f fmt kd d y' = Ok z.
Proof.
  intros PF Ha F SH SH' MV. pose proof F as [_ L]. unfold global_pool. destruct (String.eqb fmt "channels_last").
  - unfold global_pool_last, rank. rewrite SH', SH. cbn [app].
    replace (List.length (b :: m ++ [c]) =? d + 2)%nat with true
      by (symmetry; apply Nat.eqb_eq; cbn [List.length]; rewrite app_length; cbn [List.length]; lia).
    rewrite (spatial_ix d b m [c] L), (chan_ix d b m c [] L). eexists. split; [reflexivity|]. f_equal. symmetry. apply tab_ext. intros i I.
    assert (IX : nth 0 i 0 < b /\ last i 0 < c).
    { destruct i as [|bi i]; [inversion I|]. apply inb_cons in I as [BI I]. apply inb_app_split in I as [i1 [r [-> [_ R]]]].
      apply inb1 in R as [q [-> Q]]. split; [exact BI|]. change (bi :: i1 ++ [q]) with ((bi :: i1) ++ [q]). rewrite last_last. exact Q. }
    destruct IX as [BI Q].
    etransitivity; [apply PF, Permutation_map; symmetry; apply (pixel_permutation a m); assumption|].
    f_equal. rewrite map_map. apply map_ext_in. intros j J. apply In_indices in J. symmetry. apply MV; assumption.
  - unfold global_pool_first, rank. rewrite SH', SH. cbn [app]. rewrite app_nil_r.
    replace (List.length (b :: c :: m) =? d + 2)%nat with true by (symmetry; apply Nat.eqb_eq; cbn [List.length]; lia).
    cbn [firstn skipn app]. eexists. split; [reflexivity|]. f_equal. symmetry. apply tab_ext. intros i I.
    assert (IX : exists bi q r, i = bi :: q :: r /\ bi < b /\ q < c).
    { destruct i as [|bi i]; [inversion I|]. apply inb_cons in I as [BI I]. destruct i as [|q i]; [inversion I|].
      apply inb_cons in I as [Q I]. exists bi, q, i. auto. }
    destruct IX as [bi [q [r [-> [BI Q]]]]]. cbn [firstn app].
    etransitivity; [apply PF, Permutation_map; symmetry; apply (pixel_permutation a m); assumption|].
    f_equal. rewrite map_map. apply map_ext_in. intros j J. apply In_indices in J. symmetry. apply MV; assumption.
Qed.

Lemma global_invariance (first : bool) (t : string) (kd : bool) (Ha Hd : option string) idx dom (x gx : tensor A) b m c :
  invariant (pool_fun (A := A) t) -> sub_idx G Ha idx -> sub_idx G Hd dom -> (forall u, In u idx -> In u dom) ->
  List.length m = d -> wf x -> shape x = (if first then first_shape b m (List.length dom) c else last_shape b m (List.length dom) c) ->
  let o := if first then 2 else 1 in
  let fmt := if first then "channels_first" else "channels_last" in
  let L := mkGlobal d t fmt kd (Z.of_nat (o + d)) (if first then 1%Z else (-1)%Z) in
  action G x (map Z.of_nat (seq o d)) 0 (Some (Z.of_nat (o + d))) Ha Hd = Ok gx ->
  shape gx = List.length idx :: shape x /\
  forall u, u < List.length idx -> global_call L (slice 0 u gx) = global_call L x.
Proof.
  intros PF SA SD INC L W SH o fmt Ly R.
  assert (ST : forall u, In u idx -> stable G u dom) by (intros u U; apply (stable_of G d E eq OK Hd); [exact SD|apply INC; exact U]).
  destruct (sub_idx_facts _ _ _ _ OK _ _ SD) as [NDd [Bd _]].
  set (s1 := if first then [b; c] else [b]). set (s2 := if first then [] else [c]).
  assert (SH2 : shape x = s1 ++ m ++ List.length dom :: s2) by (rewrite SH; unfold s1, s2; destruct first; reflexivity).
  assert (LO : List.length s1 = o) by (unfold s1, o; destruct first; reflexivity).
  rewrite <- LO in R. destruct (slices_block x gx s1 m s2 Ha Hd idx dom SA SD L W SH2 ST R) as [F [SG SL]].
  split; [exact SG|]. intros u U. destruct (SL u U) as [W' [SH' MV]]. set (a := nth u idx 0) in *.
  assert (Hu : In a idx) by (apply nth_In; exact U).
  destruct (reduce_moved (pool_fun t) x (slice 0 u gx) s1 m s2 a dom PF (Bd a (INC a Hu)) NDd Bd (ST a Hu) F SH2 SH' MV)
    as [y [y' [RY [RY' [WY [WY' [SY [SY' MY]]]]]]]].
  unfold global_call. cbn [gp_type gp_group_axis gp_format gp_keepdims gp_dims Ly]. rewrite LO in RY, RY'. rewrite RY, RY'. cbn [bind].
  assert (Q : exists z, global_pool (pool_fun t) fmt kd d y = Ok z /\ global_pool (pool_fun t) fmt kd d y' = Ok z).
  { apply (global_moved fmt (pool_fun t) kd y y' b m c a); try assumption.
    - apply Bd, INC, Hu.
    - rewrite SY. unfold s1, s2, fmt. destruct first; reflexivity.
    - congruence.
    - unfold fmt. unfold s1, s2 in MY. destruct first; cbn [String.eqb Ascii.eqb Bool.eqb]; intros bi p q BI P Q.
      + specialize (MY [bi; q] p []). cbn [app] in MY. rewrite !app_nil_r in MY. apply MY; [|exact P|apply inb_nil].
        apply inb_cons. split; [exact BI|]. apply inb_cons. split; [exact Q|apply inb_nil].
      + apply (MY [bi] p [q]); [|exact P|]; apply inb_cons; (split; [assumption|apply inb_nil]). }
  destruct Q as [z [-> ->]]. reflexivity.
Qed.

End Global.
