(** C89: exactly when pooling layers with plain 'same' or 'valid' padding are equivariant,
    and whether the check that [allow_non_equivariance] switches off is exact. *)
From Coq Require Import Permutation.
From Verif Require Import ExactFacts BuildTheorems Properties_Shapes Properties_Padding Properties_Exact Properties_Pooling Properties_PoolBuild Properties_PoolSteps
  PoolSpec PoolFacts PoolTheorems EquivSpec.
Local Open Scope string_scope.
Local Open Scope list_scope.

(** With [before] rows in front of each axis, the window of output pixel [p] covers the
    input pixel [i]. *)
Definition in_window (d : nat) (k s before p i : list nat) : Prop :=
  forall ax, ax < d -> nth ax p 0 * nth ax s 0 <= nth ax i 0 + nth ax before 0 < nth ax p 0 * nth ax s 0 + nth ax k 0.

(** A pooling function that, of any non-empty list of [u]s and [v]s, gives [u] exactly if
    there is no [v] in it, and [v] if there is no [u]. *)
Definition tells_apart {A} (f : list A -> A) (u v : A) : Prop :=
  u <> v /\ forall l, l <> [] -> (forall w, In w l -> w = u \/ w = v) -> (f l = u <-> ~ In v l) /\ (~ In u l -> f l = v).

(** ** Lists *)

Lemma keep_some_In {B C} (o : B -> option C) l i : In i (keep_some (map o l)) <-> exists j, In j l /\ o j = Some i.
Proof.
  unfold keep_some. rewrite in_flat_map. split.
  - intros [x [X I]]. apply in_map_iff in X as [j [<- J]]. exists j. split; [exact J|]. destruct (o j); [destruct I as [->|[]]; reflexivity|destruct I].
  - intros [j [J Q]]. exists (Some i). split; [rewrite <- Q; apply in_map; exact J|left; reflexivity].
Qed.

Lemma keep_some_NoDup {B C} (o : B -> option C) l : NoDup l ->
  (forall j j' i, In j l -> In j' l -> o j = Some i -> o j' = Some i -> j = j') -> NoDup (keep_some (map o l)).
Proof.
  induction l as [|j l IH]; intros ND H; [constructor|]. inversion ND as [|? ? NI ND']. subst.
  assert (IH' : NoDup (keep_some (map o l))) by (apply IH; [exact ND'|]; intros a b i Ia Ib; apply H; right; assumption).
  unfold keep_some in *. cbn [map flat_map]. destruct (o j) as [i|] eqn:Q; [|exact IH']. cbn [app]. constructor; [|exact IH'].
  intros I. apply (keep_some_In o l i) in I as [j' [J' Q']]. apply NI.
  rewrite (H j j' i (or_introl eq_refl) (or_intror J') Q Q'). exact J'.
Qed.

Lemma keep_some_map {B C D} (g : C -> D) (o : B -> option C) l : keep_some (map (fun j => option_map g (o j)) l) = map g (keep_some (map o l)).
Proof.
  unfold keep_some. induction l as [|j l IH]; [reflexivity|]. cbn [map flat_map]. rewrite IH. destruct (o j); reflexivity.
Qed.

(** ** Windows *)

(** The window of each output position covers some position of the axis. *)
Lemma axis_covered same n0 k0 s0 p0 : 0 < n0 -> 0 < k0 -> 0 < s0 -> (same = true \/ k0 <= n0) -> p0 < conv_size same n0 k0 1 s0 ->
  let b0 := fst (backend_pads same n0 k0 s0) in p0 * s0 - b0 < n0 /\ p0 * s0 <= p0 * s0 - b0 + b0 < p0 * s0 + k0.
Proof.
  intros N K S LE P b0. unfold conv_size in P. assert (DK : dilated k0 1 = k0) by (unfold dilated; lia). rewrite DK in P.
  assert (B : b0 < k0).
  { unfold b0, backend_pads, same_pads. destruct same; [|exact K]. cbn [fst]. pose proof (same_total_lt n0 k0 s0 N K S). apply Nat.div_lt_upper_bound; lia. }
  assert (PS : p0 * s0 < n0).
  { destruct same.
    - pose proof (Nat.mul_div_le (n0 + s0 - 1) s0 ltac:(lia)). nia.
    - destruct LE as [LE|LE]; [discriminate LE|]. pose proof (Nat.mul_div_le (n0 - k0) s0 ltac:(lia)). nia. }
  lia.
Qed.

Section Windows.
Context (same : bool) (d : nat) (m k s : list nat).
Context (Lm : List.length m = d) (Lk : List.length k = d) (Ls : List.length s = d).
Context (Pm : forall ax, ax < d -> 0 < nth ax m 0) (Pk : forall ax, ax < d -> 0 < nth ax k 0) (Ps : forall ax, ax < d -> 0 < nth ax s 0).
Notation M := (out_sizes false same d m k (repeat 1 d) s).
Notation before := (front false same d m k (repeat 1 d) s).
Notation pads := (builtin_pads (padding_string same) m k s).
Notation zs := (zeros_of d).

Lemma undilated : vzip dilated k (repeat 1 d) = k.
Proof.
  pose proof (repeat_length 1 d) as L1. apply nth_ext0; [rewrite length_vzip; lia|]. intros ax Hax. rewrite length_vzip in Hax by lia.
  rewrite nth_vzip by (rewrite ?repeat_length; lia). rewrite nth_ones by lia. specialize (Pk ax ltac:(lia)). unfold dilated. lia.
Qed.

Lemma pool_outs : outs (padded (map fst pads) m (map snd pads)) k s = M.
Proof.
  pose proof (plain_outs false same d m k (repeat 1 d) s Lm Lk (repeat_length _ _) Ls Ps Pm) as Q.
  unfold layer_outs in Q. rewrite undilated, !padded_zeros in Q by exact Lm. exact Q.
Qed.

Lemma pool_runs : (same = true \/ forall ax, ax < d -> nth ax k 0 <= nth ax m 0) ->
  forallb (fun p => fst p <=? snd p)%nat (combine k (padded (map fst pads) m (map snd pads))) = true.
Proof.
  intros LE. pose proof (plain_runs false same d m k (repeat 1 d) s Lm Lk (repeat_length _ _) Ls Ps Pm) as Q.
  unfold layer_runs in Q. rewrite undilated, !padded_zeros in Q by exact Lm. apply Q.
  right. destruct LE as [->|LE]; [left; reflexivity|right]. intros ax Hax. rewrite nth_ones by exact Hax. specialize (LE ax Hax). specialize (Pk ax Hax). unfold dilated. lia.
Qed.

Lemma pool_reads p j i : csrc m s (ones d) (map fst pads) p j = Some i <-> inb m i /\ reads d s (repeat 1 d) before p j i.
Proof.
  pose proof (plain_src false same d m k (repeat 1 d) s Lm Lk (repeat_length _ _) Ls Ps p j i) as Q.
  unfold layer_src in Q. rewrite undilated, !padded_zeros in Q by exact Lm.
  replace (vzip Nat.add zs (map fst pads)) with (map fst pads) in Q; [exact Q|].
  assert (LP : List.length pads = d) by (apply length_builtin; assumption). assert (LZ : List.length zs = d) by apply repeat_length.
  apply nth_ext0; [rewrite length_vzip; rewrite ?map_length; lia|]. intros ax Hax. rewrite map_length in Hax.
  rewrite nth_vzip by (rewrite ?map_length; lia). rewrite nth_zeros. reflexivity.
Qed.

(** The input pixels in the window of [p]. *)
Definition win (p : list nat) : list (list nat) := keep_some (map (csrc m s (ones d) (map fst pads) p) (indices k)).

Lemma pooled_win {A : Type} (f : list A -> A) (x : list nat -> nat -> A) p r :
  pooled (csrc m s (ones d) (map fst pads)) f k x p r = f (map (fun i => x i r) (win p)).
Proof. unfold pooled, win. rewrite <- keep_some_map. reflexivity. Qed.

Lemma win_In p i : In i (win p) <-> inb m i /\ in_window d k s before p i.
Proof.
  unfold win. rewrite keep_some_In. split.
  - intros [j [J Q]]. apply In_indices in J. apply pool_reads in Q as [I R]. split; [exact I|]. intros ax Hax. specialize (R ax Hax).
    rewrite nth_ones in R by exact Hax. pose proof (inb_nth k j ax J ltac:(lia)). lia.
  - intros [I W]. set (j := map (fun ax => nth ax i 0 + nth ax before 0 - nth ax p 0 * nth ax s 0) (seq 0 d)). exists j. split.
    + apply In_indices. apply (inb_of_nth d); [exact Lk|unfold j; rewrite map_length; apply seq_length|]. intros ax Hax. unfold j. rewrite nth_axis_map by exact Hax.
      specialize (W ax Hax). lia.
    + apply pool_reads. split; [exact I|]. intros ax Hax. unfold j. rewrite nth_axis_map, nth_ones by exact Hax. specialize (W ax Hax). lia.
Qed.

Lemma win_NoDup p : NoDup (win p).
Proof.
  unfold win. apply keep_some_NoDup; [apply NoDup_indices|]. intros j j' i J J' Q Q'. apply In_indices in J. apply In_indices in J'.
  apply pool_reads in Q as [_ R]. apply pool_reads in Q' as [_ R']. pose proof (inb_length _ _ J). pose proof (inb_length _ _ J').
  apply nth_ext0; [lia|]. intros ax Hax. specialize (R ax ltac:(lia)). specialize (R' ax ltac:(lia)). rewrite nth_ones in R, R' by lia. lia.
Qed.

(** No window is empty. *)
Lemma win_nonempty p : (same = true \/ forall ax, ax < d -> nth ax k 0 <= nth ax m 0) -> inb M p -> win p <> [].
Proof.
  intros LE P E.
  set (i := map (fun ax => nth ax p 0 * nth ax s 0 - nth ax before 0) (seq 0 d)).
  assert (Q : In i (win p)); [|rewrite E in Q; exact Q].
  assert (AX : forall ax, ax < d -> nth ax i 0 < nth ax m 0 /\ nth ax p 0 * nth ax s 0 <= nth ax i 0 + nth ax before 0 < nth ax p 0 * nth ax s 0 + nth ax k 0).
  { intros ax Hax. unfold i. rewrite nth_axis_map by exact Hax. unfold front. rewrite nth_axis_map by exact Hax. rewrite nth_ones by exact Hax.
    assert (DK : dilated (nth ax k 0) 1 = nth ax k 0) by (specialize (Pk ax Hax); unfold dilated; lia). rewrite DK.
    apply axis_covered; [apply Pm; exact Hax|apply Pk; exact Hax|apply Ps; exact Hax| |].
    - destruct LE as [LE|LE]; [left; exact LE|right; apply LE; exact Hax].
    - pose proof (inb_nth M p ax P ltac:(rewrite length_out_sizes; exact Hax)) as B. unfold out_sizes in B. rewrite nth_axis_map in B by exact Hax.
      rewrite nth_ones in B by exact Hax. exact B. }
  apply win_In. split; [|intros ax Hax; apply AX; exact Hax].
  apply (inb_of_nth d); [exact Lm|unfold i; rewrite map_length; apply seq_length|]. intros ax Hax. apply AX. exact Hax.
Qed.

End Windows.

Section Exactly.
Context {A : Type} {RA : Arith A} {PA : Pool A}.

(** The pooling layers with arguments [a] (plain 'same' padding if [same], else 'valid';
    pool type [t], pool size [k], strides [s]) that are built for inputs of size [m], on
    inputs of size [m'] that they accept.  [idx] are the elements of the subgroup [H]. *)
Record plain_pooling (name : string) (G : group) (same : bool) (t : string) (a : pool_args) (H : string) (idx k s : list nat)
  (bs : option nat) (m : list nat) (g c : nat) (m' : list nat) : Prop := {
  pp_layer : pooling_for name G a;
  pp_subgroup : pa_subgroup a = Some H;
  pp_indices : subgroup_indices G H idx;
  pp_option : pool_option a (if same then "SAME" else "VALID");
  pp_sizes : pool_sizes (dimension_of name) a k s;
  pp_dims : List.length m = dimension_of name /\ List.length m' = dimension_of name;
  pp_built : exists L, pooling_built (dimension_of name) t a (bs :: map Some m ++ [Some g; Some c]) L;
  pp_channels : 0 < c;
  pp_positive : forall ax, ax < dimension_of name -> 0 < nth ax m' 0;
  pp_respects : respects name m';
  pp_large : same = true \/ forall ax, ax < dimension_of name -> nth ax k 0 <= nth ax m' 0
}.

(** They commute with the subgroup on all those inputs. *)
Definition pooling_always_commutes (name : string) (G : group) (t : string) (a : pool_args) (H : string)
  (bs : option nat) (m : list nat) (g c : nat) (m' : list nat) : Prop :=
  let d := dimension_of name in
  forall L b (x : tensor A), pooling_built d t a (bs :: map Some m ++ [Some g; Some c]) L -> wf x -> shape x = b :: m' ++ [g; c] ->
    commutes_at (transforms_of_group_signal G d H "") (transforms_of_group_signal G d H H) (pool_call L) x.

Lemma plain_pool_facts name G same t (a : pool_args) H idx k s bs m g c m' :
  plain_pooling name G same t a H idx k s bs m g c m' ->
  let d := dimension_of name in
  let E := symmetries_of name in
  group_ok G d E (needs_equal_sizes name) /\ sub_idx G (Some H) idx /\ g = List.length E /\ List.length k = d /\ List.length s = d /\
  (forall ax, ax < d -> 0 < nth ax k 0) /\ (forall ax, ax < d -> 0 < nth ax s 0) /\
  exists cos, cos <> [] /\ (forall c, In c cos -> c < List.length E) /\
    forall L, pooling_built d t a (bs :: map Some m ++ [Some g; Some c]) L ->
      pool_facts (A := A) G d E idx cos k s (zeros_of d) (zeros_of d) same t L.
Proof.
  intros PP d E. destruct PP as [[DG [AG AF]] HS IX [p [PN UP]] [SK SS] [Lm Lm'] [L0 B0] C0 PM RM LE]. fold d in SK, SS, Lm, Lm', B0, PM, LE.
  pose proof DG as DG'. apply lib_ok in DG' as [NG OK]. fold d E in OK.
  destruct (std_pos d _ _ SK) as [Lk Pk]. destruct (std_pos d _ _ SS) as [Ls Ps].
  assert (EO : forall u v : list nat, Ok u = Ok v -> u = v) by congruence.
  (* one layer *)
  assert (ONE : forall L, pooling_built d t a (bs :: map Some m ++ [Some g; Some c]) L ->
    exists cos, dict_get (g_cosets G) (if String.eqb H "" then name else H) = Ok cos /\ dict_get (g_subgroup G) (if String.eqb H "" then name else H) = Ok idx /\
      sub_idx G (Some H) idx /\ g = List.length E /\ pool_facts (A := A) G d E idx cos k s (zeros_of d) (zeros_of d) same t L).
  { intros L [L1 [I B]].
    destruct (pool_build_inv (A := A) G d _ _ OK name t a L1 bs m g c L DG AG AF I Lm B)
      as [p' [k' [s0 [s' [eb [ea [sub [cos [Hn [PN' [SK' [SS0 [SS' [WO [PS [DS [DC [SA [GN [F _]]]]]]]]]]]]]]]]]]]].
    unfold pool_padding_name in PN'. assert (p' = p) as -> by congruence.
    assert (k' = k) as -> by (apply EO; congruence). unfold pool_strides in SS0. assert (s0 = s) as -> by (apply EO; congruence).
    rewrite HS in SA, PS. assert (sub = idx) as -> by (apply EO; unfold sub_idx in SA; unfold subgroup_indices in IX; congruence).
    assert (EH : Hn = if String.eqb H "" then name else H) by (unfold parse_subgroup in PS; destruct (String.eqb H ""); congruence).
    rewrite <- EH. exists cos. split; [exact DC|]. split; [exact DS|]. split; [exact SA|]. split; [exact GN|].
    rewrite UP in WO, F. replace (is_plain (if same then "SAME" else "VALID")) with true in WO by (destruct same; reflexivity).
    apply plain_widths in WO as [-> ->]. replace (is_same (if same then "SAME" else "VALID")) with same in F by (destruct same; reflexivity).
    apply F.
    assert (E0 : po_padding L = po_padding L1).
    { unfold pool_build in B. destruct (gt_build (po_gt L1) _) as [T1|]; [|discriminate B]. cbn [bind] in B.
      destruct (gt_build_pool T1) as [T2|]; [|discriminate B]. cbn [bind] in B. injection B as <-. reflexivity. }
    rewrite E0. unfold pool_init in I. destruct (gt_init _ _ _ _ _ _ _ _ _) as [T0|] eqn:GI; [|discriminate I]. cbn [bind] in I.
    destruct (standardize_tuple d (pa_pool_size a)); [|discriminate I]. cbn [bind] in I.
    destruct (standardize_tuple d _); [|discriminate I]. cbn [bind] in I.
    destruct (standardize_format _); [|discriminate I]. cbn [bind] in I. injection I as <-. cbn [po_padding].
    unfold gt_init in GI.
    destruct (match pa_group a with ByName s => dict_get group_dict s | Object G => Ok G end) as [G1|]; [|discriminate GI]. cbn [bind] in GI.
    destruct (match parse_subgroup G1 (pa_subgroup a) with Some s => dict_get group_dict s | None => Err KeyError end) as [K|]; [|discriminate GI]. cbn [bind] in GI.
    rewrite PN in GI.
    destruct (padding_init _ _ _ _ _ _ _) as [P0|] eqn:PI0; [|discriminate GI]. cbn [bind] in GI. injection GI as <-. cbn [gt_padding].
    destruct (padding_init_inv _ _ _ _ _ _ _ _ PI0) as [_ [_ [BI _]]]. rewrite BI.
    replace (endswith p "_equiv") with false.
    - rewrite <- lower_upper, UP. destruct same; reflexivity.
    - symmetry. unfold endswith. rewrite <- (length_upper p), UP. destruct same; reflexivity. }
  destruct (ONE L0 B0) as [cos [DC [DS [SA [GN _]]]]].
  split; [exact OK|]. split; [exact SA|]. split; [exact GN|]. split; [exact Lk|]. split; [exact Ls|]. split; [exact Pk|]. split; [exact Ps|].
  destruct (ok_cos _ _ _ _ OK _ _ DS) as [cos' [DC' [_ [BC [_ CL]]]]]. assert (cos' = cos) as -> by (apply EO; congruence).
  exists cos. split.
  - intros ->. pose proof (ok_pos _ _ _ _ OK). cbn [List.length] in CL. lia.
  - split; [exact BC|]. intros L B. destruct (ONE L B) as [cos2 [DC2 [_ [_ [_ F]]]]]. assert (cos2 = cos) as <- by (apply EO; congruence). exact F.
Qed.
(** The value at output pixel [p] and element [h] of the subgroup. *)
Definition pool_value (f : list A -> A) (G : group) (idx cos : list nat) (wn : list nat -> list (list nat)) (X : nat -> list nat -> nat -> nat -> A)
  (bi : nat) (p : list nat) (h q : nat) : A :=
  f (map (fun i => f (map (fun e => X bi i (comp G (nth h idx 0) e) q) cos)) (wn p)).

Lemma plain_pool_call G d E eq same t idx cos k s L b m c X :
  group_ok G d E eq -> pool_facts (A := A) G d E idx cos k s (zeros_of d) (zeros_of d) same t L -> idx <> [] -> List.length m = d ->
  (forall ax, ax < d -> 0 < nth ax m 0) -> (same = true \/ forall ax, ax < d -> nth ax k 0 <= nth ax m 0) ->
  pool_call L (tab (b :: m ++ [List.length E; c]) (sig4 d X))
  = Ok (tab (b :: out_sizes false same d m k (repeat 1 d) s ++ [List.length idx; c])
            (sig4 d (pool_value (pool_fun t) G idx cos (win same d m k s) X))).
Proof.
  intros OK F NE Lm PM LE. pose proof F as F'. destruct F'.
  rewrite (pool_call_eq G d E eq OK idx cos k s (zeros_of d) (zeros_of d) same t L b m c X F NE Lm). cbv zeta.
  rewrite !padded_zeros by exact Lm. rewrite (pool_runs same d m k s), (pool_outs same d m k s) by assumption.
  f_equal. apply sig4_ext; [apply length_out_sizes|]. intros bi p h q _ P _ _. unfold pool_out, pool_value. rewrite pooled_win. f_equal.
  apply map_ext_in. intros i I. apply win_In in I as [I _]; try assumption. unfold bordered.
  rewrite (inside_zeros m i d Lm I), vzip_sub_zeros by (rewrite (inb_length _ _ I); exact Lm). reflexivity.
Qed.

Lemma some_in_window {B : Type} (wn : list B) (P : B -> bool) (f : list A -> A) (u v : A) : tells_apart f u v -> wn <> [] ->
  (f (map (fun i => if P i then v else u) wn) = u <-> forall i, In i wn -> P i = false).
Proof.
  intros [NE TA] W. destruct (TA (map (fun i => if P i then v else u) wn)) as [Q _].
  - destruct wn; [contradiction|discriminate].
  - intros w I. apply in_map_iff in I as [i [<- _]]. destruct (P i); [right|left]; reflexivity.
  - rewrite Q. split.
    + intros N i I. destruct (P i) eqn:E; [|reflexivity]. exfalso. apply N. apply in_map_iff. exists i. rewrite E. split; [reflexivity|exact I].
    + intros H I. apply in_map_iff in I as [i [E I]]. rewrite (H i I) in E. apply NE. exact E.
Qed.

(** The layers always commute exactly when the elements of the subgroup preserve which
    pixels are in which window, and outputs have sizes that those can act on. *)
Theorem C89_exactly_when_pooling_commutes name G same t (a : pool_args) H idx k s bs m g c m' (u v : A) :
  order_irrelevant (pool_fun (A := A) t) -> tells_apart (pool_fun t) u v ->
  plain_pooling name G same t a H idx k s bs m g c m' ->
  let d := dimension_of name in
  let M := out_sizes false same d m' k (repeat 1 d) s in
  let before := front false same d m' k (repeat 1 d) s in
  pooling_always_commutes name G t a H bs m g c m' <->
  (respects name M /\ forall h p i, In h idx -> inb M p -> inb m' i -> in_window d k s before p i ->
     let e := nth h (symmetries_of name) [] in
     in_window d k s before (pixel e M p) (pixel e m' i)).
Proof.
  intros OI TA PP d M before.
  destruct (plain_pool_facts _ _ _ _ _ _ _ _ _ _ _ _ _ _ PP) as [OK [SU [GN [Lk [Ls [Pk [Ps [cos [NC [BC FS]]]]]]]]]].
  fold d in OK, Lk, Ls, Pk, Ps, FS. destruct PP as [_ _ _ _ _ [Lm Lm'] [L0 B0] C0 PM RM LE]. fold d in Lm, Lm', B0, PM, LE.
  set (E := symmetries_of name) in *. set (eq := needs_equal_sizes name) in *. subst g.
  destruct (sub_idx_facts _ _ _ _ OK _ _ SU) as [NDi [BU [HU [_ CL]]]].
  assert (NE : idx <> []) by (intros ->; discriminate HU).
  assert (I1 : 0 < List.length idx) by (destruct idx; [contradiction|cbn [List.length]; lia]).
  assert (ST : forall w, In w idx -> stable G w idx) by (intros w W; apply (stable_of G d E eq OK (Some H)); assumption).
  pose proof (sub_idx_whole _ _ _ _ OK) as WH.
  assert (SW : forall w, In w idx -> stable G w (seq 0 (List.length E))) by (intros w W; apply (stable_whole G d E eq OK), BU, W).
  assert (Fm : fit d eq m') by (split; [exact RM|exact Lm']).
  assert (LM : List.length M = d) by apply length_out_sizes.
  assert (EO : forall w z : tensor A, Ok w = Ok z -> w = z) by congruence.
  set (wn := win same d m' k s).
  assert (WI : forall p i, In i (wn p) <-> inb m' i /\ in_window d k s before p i) by (intros p i; apply win_In; assumption).
  assert (TRN : forall w h, In w idx -> h < List.length E -> turned G w (seq 0 (List.length E)) h = comp G (inv G w) h).
  { intros w h W Hh. pose proof (turned_nth G w _ h (SW w W)) as TN. rewrite seq_length in TN. specialize (TN Hh).
    pose proof (turned_lt G w _ h (SW w W)) as TL. rewrite seq_length in TL. specialize (TL Hh).
    rewrite !nth_seq0 in TN by assumption. exact TN. }
  unfold pooling_always_commutes. fold d. split.
  - intros AC.
    (* what commuting says about one signal *)
    assert (KEY : forall X, fit d eq M /\ forall r, r < List.length idx ->
      forall p h q, inb M p -> h < List.length idx -> q < c ->
        pool_value (pool_fun t) G idx cos wn (moved4 G E (nth r idx 0) m' (seq 0 (List.length E)) X) 0 p h q
        = pool_value (pool_fun t) G idx cos wn X 0 (pixel (nth (nth r idx 0) E []) M p) (turned G (nth r idx 0) idx h) q).
    { intros X. set (x := tab (1 :: m' ++ [List.length E; c]) (sig4 d X)).
      destruct (group_slices_ok G d E eq OK 1 m' (List.length E) c X (Some H) (Some "") idx (seq 0 (List.length E)) SU WH ltac:(rewrite seq_length; reflexivity) Fm SW)
        as [gx [GX [SG SL]]].
      pose proof (plain_pool_call G d E eq same t idx cos k s L0 1 m' c X OK (FS L0 B0) NE Lm' PM LE) as CX.
      destruct (AC L0 1 x B0 (wf_tab _ _) (shape_tab _ _) gx _ GX CX) as [gy [GY [NS SLC]]].
      destruct (group_slices G d E eq OK 1 M (List.length idx) c _ (Some H) (Some H) idx idx gy SU SU eq_refl LM ST GY) as [FM [_ SLY]].
      split; [exact FM|]. intros r Hr p h q P Hh Hq. specialize (SLC r ltac:(rewrite SG; exact Hr)). rewrite (SL r Hr), (SLY r Hr) in SLC.
      rewrite (plain_pool_call G d E eq same t idx cos k s L0 1 m' c _ OK (FS L0 B0) NE Lm' PM LE) in SLC.
      apply EO in SLC. apply (f_equal (fun z => at_ z (0 :: p ++ [h; q]))) in SLC.
      rewrite !(at_sig4 d) in SLC by (try assumption; lia). exact SLC. }
    destruct (KEY (fun _ _ _ _ => u)) as [[FM _] _]. split; [exact FM|]. intros h0 p i0 IH P I0 W. cbv zeta. set (e := nth h0 E []).
    assert (FM' : fit d eq M) by (split; assumption).
    pose proof (BU h0 IH) as Hh0. assert (SY : is_symmetry d e) by (apply (sym_ok G d E eq OK); exact Hh0).
    assert (FE : fits e m') by (apply (fits_sym G d E eq OK); assumption).
    assert (PE : inb M (pixel e M p)) by (apply (pixel_in G d E eq OK); assumption).
    destruct (In_nth idx h0 0 IH) as [r [Hr RH]].
    set (dot := fun i => if list_eq_dec Nat.eq_dec i (pixel e m' i0) then true else false).
    destruct (KEY (fun _ i _ _ => if dot i then v else u)) as [_ K1]. specialize (K1 r Hr p 0 0 P I1 C0). rewrite RH in K1. fold e in K1.
    unfold pool_value, moved4 in K1. fold e in K1.
    assert (CONST : forall w : A, (w = u \/ w = v) -> pool_fun t (map (fun _ : nat => w) cos) = w).
    { intros w D. destruct TA as [UV TA]. destruct (TA (map (fun _ : nat => w) cos)) as [T1 T2].
      - intros Q. apply NC. destruct cos; [reflexivity|discriminate Q].
      - intros w' I. apply in_map_iff in I as [? [<- _]]. exact D.
      - destruct D as [->| ->].
        + apply T1. intros I. apply in_map_iff in I as [? [Q _]]. apply UV. exact Q.
        + apply T2. intros I. apply in_map_iff in I as [? [Q _]]. apply UV. symmetry. exact Q. }
    assert (EX1 : forall (P0 : list nat -> bool) l, map (fun i => pool_fun t (map (fun _ : nat => if P0 i then v else u) cos)) l = map (fun i => if P0 i then v else u) l).
    { intros P0 l. apply map_ext. intros i. apply CONST. destruct (P0 i); auto. }
    rewrite (EX1 (fun i => dot (pixel e m' i))), (EX1 dot) in K1.
    pose proof (some_in_window (wn p) (fun i => dot (pixel e m' i)) _ u v TA ltac:(apply win_nonempty; assumption)) as S1.
    pose proof (some_in_window (wn (pixel e M p)) dot _ u v TA ltac:(apply win_nonempty; assumption)) as S2.
    destruct (in_dec (list_eq_dec Nat.eq_dec) (pixel e m' i0) (wn (pixel e M p))) as [IN|NI]; [apply WI in IN as [_ IN]; exact IN|]. exfalso.
    assert (V2 : forall i, In i (wn (pixel e M p)) -> dot i = false).
    { intros i I. unfold dot. destruct (list_eq_dec Nat.eq_dec i (pixel e m' i0)) as [->|]; [contradiction|reflexivity]. }
    apply S2 in V2. rewrite <- K1 in V2. rewrite S1 in V2.
    specialize (V2 i0 (proj2 (WI p i0) (conj I0 W))). unfold dot in V2.
    destruct (list_eq_dec Nat.eq_dec (pixel e m' i0) (pixel e m' i0)); [discriminate V2|contradiction].
  - intros [RM' PR] L b x B WX SX gx y GX CX.
    assert (FM : fit d eq M) by (split; assumption).
    rewrite (tensor_sig4 d b m' (List.length E) c x WX Lm' SX) in GX, CX.
    destruct (group_slices G d E eq OK b m' (List.length E) c (fun4 x) (Some H) (Some "") idx (seq 0 (List.length E)) gx SU WH
                ltac:(rewrite seq_length; reflexivity) Lm' SW GX) as [_ [SG SL]].
    rewrite (plain_pool_call G d E eq same t idx cos k s L b m' c _ OK (FS L B) NE Lm' PM LE) in CX. apply EO in CX. subst y.
    match goal with |- context[sig4 d ?y] => set (Y := y) end.
    destruct (group_slices_ok G d E eq OK b M (List.length idx) c Y (Some H) (Some H) idx idx SU SU eq_refl FM ST) as [gy [GY [SGY SLY]]].
    exists gy. split; [exact GY|]. split; [rewrite SG, SGY; reflexivity|]. rewrite SG. cbn [nth]. intros r Hr.
    rewrite (SL r Hr), (SLY r Hr), (plain_pool_call G d E eq same t idx cos k s L b m' c _ OK (FS L B) NE Lm' PM LE).
    f_equal. apply sig4_ext; [exact LM|]. intros bi p h q _ P Hh _. unfold moved4 at 2, Y, pool_value.
    set (w := nth r idx 0). assert (IW : In w idx) by (apply nth_In; exact Hr). pose proof (BU w IW) as Hw. set (e := nth w E []).
    assert (SY : is_symmetry d e) by (apply (sym_ok G d E eq OK); exact Hw).
    assert (FE : fits e m') by (apply (fits_sym G d E eq OK); assumption).
    (* the windows correspond *)
    assert (PW : Permutation (wn (pixel e M p)) (map (pixel e m') (wn p))).
    { apply NoDup_Permutation.
      - apply win_NoDup; assumption.
      - apply NoDup_map_in; [|apply win_NoDup; assumption]. intros i i' I I' Q. apply WI in I as [I _]. apply WI in I' as [I' _].
        apply (pixel_injective d e m'); assumption.
      - intros i'. split.
        + intros I. apply WI in I as [I' W].
          assert (I0 : In 0 idx) by (destruct idx as [|z l]; [discriminate HU|]; injection HU as ->; left; reflexivity).
          pose proof (CL w 0 IW I0) as IB. pose proof (ok_pos _ _ _ _ OK) as PE.
          assert (BACK : forall l z, fit d eq l -> inb l z -> pixel (nth (comp G (inv G w) 0) E []) l (pixel e l z) = z).
          { intros l z [Fl Ll] Iz. unfold e. rewrite (px_twice G d E eq OK) by assumption. rewrite (ok_id _ _ _ _ OK).
            apply pixel_identity. rewrite (inb_length _ _ Iz). exact Ll. }
          pose proof (PR _ _ _ IB (pixel_in G d E eq OK w M p Hw FM P) I' W) as Q. cbv zeta in Q. fold e in Q. rewrite BACK in Q by assumption.
          set (j := pixel (nth (comp G (inv G w) 0) E []) m' i') in *.
          assert (J : inb m' j) by (apply (pixel_in G d E eq OK); [apply BU; exact IB|exact Fm|exact I']).
          apply in_map_iff. exists j. split; [|apply WI; split; assumption].
          apply (pixel_injective d (nth (comp G (inv G w) 0) E []) m').
          * apply (sym_ok G d E eq OK). apply BU. exact IB.
          * exact Lm'.
          * apply (fits_sym G d E eq OK); [exact RM|exact Lm'|apply BU; exact IB].
          * apply (pixel_in G d E eq OK); assumption.
          * exact I'.
          * rewrite BACK by assumption. reflexivity.
        + intros I. apply in_map_iff in I as [i [<- I]]. apply WI in I as [I W]. apply WI. split; [apply (pixel_in G d E eq OK); assumption|].
          apply (PR w p i IW P I W). }
    rewrite (OI _ _ (Permutation_map _ PW)). rewrite map_map. f_equal. apply map_ext. intros i. f_equal. apply map_ext_in. intros z Z.
    unfold moved4. fold e. f_equal. pose proof (nth_In idx 0 Hh) as NI.
    rewrite TRN; [|exact IW|apply (ok_closed _ _ _ _ OK); [apply BU; exact NI|apply BC; exact Z]].
    rewrite (turned_nth G w idx h (ST w IW) Hh).
    apply (group_assoc _ _ _ (ok_is_group _ _ _ _ OK)); [apply (ok_inv_lt _ _ _ _ OK); exact Hw|apply BU; exact NI|apply BC; exact Z].
Qed.

(** Along one axis (sizes [n] of the input and [k] of the pool, stride [s]): every window
    covers the whole axis. *)
Definition whole_axis (same : bool) (n k s : nat) : Prop :=
  forall p i, p < conv_size same n k 1 s -> i < n -> p * s <= i + fst (backend_pads same n k s) < p * s + k.

(** Reversing the axis gives the same windows: they are placed symmetrically, or each of
    them covers the whole axis. *)
Definition symmetric_windows (same : bool) (n k s : nat) : Prop :=
  admissible n (backend_total same n k s) k s 0 \/ whole_axis same n k s.

Lemma mirrored_axis same n k s : 0 < n -> 0 < k -> 0 < s -> (same = true \/ k <= n) ->
  let M := conv_size same n k 1 s in
  let b := fst (backend_pads same n k s) in
  symmetric_windows same n k s <->
  forall p i, p < M -> i < n -> p * s <= i + b < p * s + k -> (M - 1 - p) * s <= n - 1 - i + b < (M - 1 - p) * s + k.
Proof.
  intros N K S LE M b.
  assert (DK : dilated k 1 = k) by (unfold dilated; lia).
  assert (M1 : 0 < M).
  { unfold M, conv_size. destruct same; [apply Nat.div_str_pos; lia|lia]. }
  pose proof (axis_covered same n k s (M - 1) N K S LE) as C1. fold M b in C1. specialize (C1 ltac:(lia)). cbv zeta in C1.
  pose proof (axis_covered same n k s 0 N K S LE) as C0. fold M b in C0. specialize (C0 ltac:(lia)). cbv zeta in C0.
  assert (T1 : (M - 1) * s < n + b) by lia. assert (B : b < k) by lia.
  pose proof (symmetric_axis_iff false same n k 1 s N S K) as SA. cbv zeta in SA. unfold symmetric_axis in SA. rewrite DK in SA. fold M b in SA.
  specialize (SA ltac:(destruct LE as [LE|LE]; [right; left|right; right]; assumption)).
  replace ((k - 1) * 1 + 1) with k in SA by lia.
  unfold symmetric_windows. rewrite SA. split.
  - intros [Q|W] p i P I [W1 W2].
    + assert ((M - 1 - p) * s + p * s = (M - 1) * s) by (rewrite <- Nat.mul_add_distr_r; f_equal; lia). lia.
    + apply W; lia.
  - intros H. set (T := (M - 1) * s) in *.
    assert (HA := H (M - 1) (T - b)). fold T in HA. specialize (HA ltac:(lia) ltac:(lia) ltac:(lia)). replace (M - 1 - (M - 1)) with 0 in HA by lia.
    assert (HB := H 0 (Nat.min (k - 1 - b) (n - 1)) ltac:(lia) ltac:(lia) ltac:(lia)). rewrite Nat.sub_0_r in HB. fold T in HB.
    destruct (Nat.le_gt_cases T b) as [TB|TB].
    + right. intros p i P I. fold b. fold M in P.
      assert ((M - 1 - p) * s + p * s = T) by (unfold T; rewrite <- Nat.mul_add_distr_r; f_equal; lia). lia.
    + left. lia.
Qed.

(** With pool sizes and strides that the group can act on, that is a condition on the axes
    that some element of the subgroup reverses. *)
Theorem C89_reversed_axes name G same t (a : pool_args) H idx k s bs m g c m' (u v : A) :
  order_irrelevant (pool_fun (A := A) t) -> tells_apart (pool_fun t) u v ->
  plain_pooling name G same t a H idx k s bs m g c m' ->
  let d := dimension_of name in
  respects name k -> respects name s ->
  pooling_always_commutes name G t a H bs m g c m' <->
  forall h ax, In h idx -> ax < d -> snd (nth ax (nth h (symmetries_of name) []) (0, false)) = true ->
    symmetric_windows same (nth ax m' 0) (nth ax k 0) (nth ax s 0).
Proof.
  intros OI TA PP d RK RS. rewrite (C89_exactly_when_pooling_commutes name G same t a H idx k s bs m g c m' u v OI TA PP). fold d.
  destruct (plain_pool_facts _ _ _ _ _ _ _ _ _ _ _ _ _ _ PP) as [OK [SU [_ [Lk [Ls [Pk [Ps _]]]]]]]. fold d in OK, Lk, Ls, Pk, Ps.
  destruct PP as [_ _ _ _ _ [_ Lm'] _ _ PM RM LE]. fold d in Lm', PM, LE.
  set (eq := needs_equal_sizes name) in *. set (E := symmetries_of name) in *.
  assert (Fm : fit d eq m') by (split; assumption). assert (Fk : fit d eq k) by (split; assumption). assert (Fs : fit d eq s) by (split; assumption).
  set (M := out_sizes false same d m' k (repeat 1 d) s). set (before := front false same d m' k (repeat 1 d) s).
  assert (DK : forall ax, ax < d -> dilated (nth ax k 0) 1 = nth ax k 0) by (intros ax Hax; specialize (Pk ax Hax); unfold dilated; lia).
  assert (NM : forall ax, ax < d -> nth ax M 0 = conv_size same (nth ax m' 0) (nth ax k 0) 1 (nth ax s 0)).
  { intros ax Hax. unfold M, out_sizes. rewrite nth_axis_map, nth_ones by exact Hax. reflexivity. }
  assert (NB : forall ax, ax < d -> nth ax before 0 = fst (backend_pads same (nth ax m' 0) (nth ax k 0) (nth ax s 0))).
  { intros ax Hax. unfold before, front. rewrite nth_axis_map, nth_ones by exact Hax. rewrite DK by exact Hax. reflexivity. }
  assert (LM : List.length M = d) by apply length_out_sizes.
  assert (FM : fit d eq M).
  { apply fit_of; [exact LM|]. intros Q x y Hx Hy. rewrite !NM by assumption.
    rewrite (fit_nth d eq m' x y), (fit_nth d eq k x y), (fit_nth d eq s x y) by assumption. reflexivity. }
  assert (FB : fit d eq before).
  { apply fit_of; [apply length_front|]. intros Q x y Hx Hy. rewrite !NB by assumption.
    rewrite (fit_nth d eq m' x y), (fit_nth d eq k x y), (fit_nth d eq s x y) by assumption. reflexivity. }
  destruct (sub_idx_facts _ _ _ _ OK _ _ SU) as [_ [BU _]].
  assert (SAME : forall h ax l, In h idx -> ax < d -> fit d eq l -> nth (fst (nth ax (nth h E []) (0, false))) l 0 = nth ax l 0).
  { intros h ax l IH Hax [Fl Ll]. apply (fits_same G d _ _ OK h l ax Fl Ll (BU h IH) Hax). }
  assert (PX : forall h ax l i, In h idx -> ax < d -> nth ax (pixel (nth h E []) l i) 0 =
     let '(q, r) := nth ax (nth h E []) (0, false) in if (r : bool) then nth ax l 0 - 1 - nth q i 0 else nth q i 0).
  { intros h ax l i IH Hax. apply nth_pixel. destruct (ok_sym _ _ _ _ OK h (BU h IH)) as [LE' _]. lia. }
  assert (QB : forall h ax, In h idx -> ax < d -> fst (nth ax (nth h E []) (0, false)) < d).
  { intros h ax IH Hax. apply is_symmetry_nth; [apply (ok_sym _ _ _ _ OK); apply BU; exact IH|exact Hax]. }
  assert (AX : forall ax, ax < d -> (symmetric_windows same (nth ax m' 0) (nth ax k 0) (nth ax s 0) <->
     forall p i, p < nth ax M 0 -> i < nth ax m' 0 -> p * nth ax s 0 <= i + nth ax before 0 < p * nth ax s 0 + nth ax k 0 ->
       (nth ax M 0 - 1 - p) * nth ax s 0 <= nth ax m' 0 - 1 - i + nth ax before 0 < (nth ax M 0 - 1 - p) * nth ax s 0 + nth ax k 0)).
  { intros ax Hax. rewrite NM, NB by exact Hax. apply mirrored_axis; [apply PM|apply Pk|apply Ps|]; try exact Hax.
    destruct LE as [LE|LE]; [left; exact LE|right; apply LE; exact Hax]. }
  assert (C0 : forall ax, ax < d -> 0 < nth ax M 0 /\ nth ax before 0 < nth ax k 0).
  { intros ax Hax. rewrite NM, NB by exact Hax. specialize (PM ax Hax). specialize (Pk ax Hax). specialize (Ps ax Hax).
    assert (LE' : same = true \/ nth ax k 0 <= nth ax m' 0) by (destruct LE as [LE|LE]; [left; exact LE|right; apply LE; exact Hax]).
    assert (M1 : 0 < conv_size same (nth ax m' 0) (nth ax k 0) 1 (nth ax s 0)) by (unfold conv_size; destruct same; [apply Nat.div_str_pos; lia|lia]).
    pose proof (axis_covered same _ _ _ 0 PM Pk Ps LE' M1) as Q. cbv zeta in Q. lia. }
  split.
  - intros [_ PR] h ax IH Hax RV. apply AX; [exact Hax|]. intros p i P I W.
    pose proof (QB h ax IH Hax) as Q0. pose proof (SAME h ax s IH Hax Fs) as E1. pose proof (SAME h ax before IH Hax FB) as E3.
    pose proof (SAME h ax M IH Hax FM) as E4. pose proof (SAME h ax k IH Hax Fk) as E5. pose proof (SAME h ax m' IH Hax Fm) as E6.
    set (at_axis := fun z => map (fun x => if (x =? fst (nth ax (nth h E []) (0, false)))%nat then z else 0) (seq 0 d)).
    assert (NA : forall z x, x < d -> nth x (at_axis z) 0 = if (x =? fst (nth ax (nth h E []) (0, false)))%nat then z else 0).
    { intros z x Hx. unfold at_axis. rewrite nth_axis_map by exact Hx. reflexivity. }
    assert (LA : forall z, List.length (at_axis z) = d) by (intros z; unfold at_axis; rewrite map_length; apply seq_length).
    pose proof (PX h ax M (at_axis p) IH Hax) as X1. pose proof (PX h ax m' (at_axis i) IH Hax) as X3.
    specialize (PR h (at_axis p) (at_axis i) IH).
    destruct (nth ax (nth h E []) (0, false)) as [q r] eqn:EQ. cbn [fst snd] in *. subst r.
    rewrite NA, Nat.eqb_refl in X1 by exact Q0. rewrite NA, Nat.eqb_refl in X3 by exact Q0.
    specialize (PR ltac:(apply (inb_of_nth d); [exact LM|apply LA|]; intros x Hx; rewrite NA by exact Hx; destruct (Nat.eqb_spec x q) as [->|]; [lia|apply C0; exact Hx])).
    specialize (PR ltac:(apply (inb_of_nth d); [exact Lm'|apply LA|]; intros x Hx; rewrite NA by exact Hx; destruct (Nat.eqb_spec x q) as [->|]; [lia|apply PM; exact Hx])).
    specialize (PR ltac:(intros x Hx; rewrite !NA by exact Hx; destruct (Nat.eqb_spec x q) as [->|]; [lia|pose proof (C0 x Hx); lia])).
    cbv zeta in PR. specialize (PR ax Hax). rewrite X1, X3 in PR. exact PR.
  - intros SY. split; [destruct FM as [FM _]; exact FM|]. intros h p i IH P I W. cbv zeta. intros ax Hax. rewrite !PX by assumption.
    specialize (SY h ax IH Hax).
    pose proof (QB h ax IH Hax) as Q0. pose proof (SAME h ax s IH Hax Fs) as E1. pose proof (SAME h ax before IH Hax FB) as E3.
    pose proof (SAME h ax M IH Hax FM) as E4. pose proof (SAME h ax k IH Hax Fk) as E5. pose proof (SAME h ax m' IH Hax Fm) as E6.
    destruct (nth ax (nth h E []) (0, false)) as [q r]. cbn [fst snd] in *.
    pose proof (inb_nth M p q P ltac:(lia)) as B1. pose proof (inb_nth m' i q I ltac:(lia)) as B3.
    specialize (W q Q0). rewrite E1, E3, E5 in W. rewrite E4 in B1. rewrite E6 in B3. destruct r; [|exact W].
    specialize (SY eq_refl). rewrite (AX ax Hax) in SY. apply SY; assumption.
Qed.

(** The same arguments without [allow_non_equivariance]. *)
Definition refusing_pool (a : pool_args) : pool_args :=
  mkPoolArgs (pa_group a) (pa_subgroup a) (pa_pool_size a) (pa_strides a) (pa_padding a) (pa_data_format a) false.

(** For layers with given strides, subgroups that reverse every axis, and (with 'same') no
    axis that each window covers as a whole, the check that [allow_non_equivariance]
    switches off is exact. *)
Theorem C89_the_check_is_exact name G same t (a : pool_args) H idx k s st bs m g c (u v : A) :
  order_irrelevant (pool_fun (A := A) t) -> tells_apart (pool_fun t) u v ->
  let d := dimension_of name in
  plain_pooling name G same t a H idx k s bs m g c m ->
  respects name k -> respects name s -> pa_strides a = Some st ->
  In (if String.eqb H "" then name else H) reversing ->
  (same = true -> forall ax, ax < d -> ~ whole_axis same (nth ax m 0) (nth ax k 0) (nth ax s 0)) ->
  pooling_always_commutes name G t a H bs m g c m <->
  exists L, pooling_built d t (refusing_pool a) (bs :: map Some m ++ [Some g; Some c]) L.
Proof.
  intros OI TA d PP RK RS ST RV NW. rewrite (C89_reversed_axes name G same t a H idx k s bs m g c m u v OI TA PP RK RS). fold d.
  destruct (plain_pool_facts _ _ _ _ _ _ _ _ _ _ _ _ _ _ PP) as [OK [SU [GN [Lk [Ls [Pk [Ps _]]]]]]]. fold d in OK, Lk, Ls, Pk, Ps.
  destruct PP as [PF HS IX OP SZ [Lm _] [L [L0 [I B]]] _ PM _ LE]. fold d in SZ, Lm, I, B, PM, LE.
  pose proof PF as [DG [AG AF]]. pose proof DG as DG'. apply lib_ok in DG' as [NG _]. pose proof SZ as [SK SS]. rewrite ST in SS.
  assert (PF' : pooling_for name G (refusing_pool a)) by (split; [exact DG|split; [exact AG|exact AF]]).
  assert (OP' : pool_option (refusing_pool a) (if same then "SAME" else "VALID")) by exact OP.
  assert (I' : exists L0', pool_init d t (refusing_pool a) = Ok L0').
  { apply (C57_when_the_constructor_accepts name G d (refusing_pool a) H t PF' HS).
    pose proof (proj1 (C57_when_the_constructor_accepts name G d a H t PF HS) (ex_intro _ L0 I)) as Q. exact Q. }
  destruct I' as [L0' I'].
  pose proof (C57_when_pooling_builds name G d (refusing_pool a) H _ t true bs m g c L0' k s PF' HS OP' I' Lm SK ltac:(cbn [refusing_pool pa_strides]; rewrite ST; exact SS)) as BI.
  (* every axis is reversed *)
  assert (ALL : forall ax, ax < d -> exists h, In h idx /\ snd (nth ax (nth h (symmetries_of name) []) (0, false)) = true).
  { intros ax Hax. destruct (sub_idx_dict _ _ _ SU) as [Hn [PS DH]].
    assert (EH : Hn = if String.eqb H "" then name else H).
    { unfold parse_subgroup in PS. destruct (String.eqb H ""); congruence. }
    rewrite <- EH in RV. destruct (ok_sub _ _ _ _ OK Hn idx DH) as [_ [_ [_ [_ [_ [_ SY]]]]]].
    destruct (SY (lib_named _ _ DG NG) ltac:(rewrite NG; reflexivity)) as [DM SE].
    destruct (reversing_ok Hn ax RV ltac:(rewrite DM; exact Hax)) as [e [IE SR]].
    rewrite <- SE in IE. apply in_map_iff in IE as [h [<- IH]]. exists h. split; assumption. }
  assert (SW : forall ax, ax < d -> symmetric_windows same (nth ax m 0) (nth ax k 0) (nth ax s 0) ->
            admissible (nth ax m 0) (backend_total same (nth ax m 0) (nth ax k 0) (nth ax s 0)) (nth ax k 0) (nth ax s 0) 0).
  { intros ax Hax [Q|Q]; [exact Q|]. destruct same; [exfalso; apply (NW eq_refl ax Hax); exact Q|].
    destruct LE as [LE|LE]; [discriminate LE|]. specialize (LE ax Hax). specialize (PM ax Hax).
    specialize (Q 0 (nth ax m 0 - 1) ltac:(unfold conv_size; lia) ltac:(lia)). cbn [backend_pads fst] in Q.
    split; [exists 0%Z; cbn [backend_total]; lia|exists 0; reflexivity]. }
  unfold pooling_built. split.
  - intros SY. destruct (proj2 BI) as [L' B'].
    { split; [exists idx; exact IX|]. split; [intros _; exact GN|]. unfold padding_works.
      replace (mem_str (if same then "SAME" else "VALID") ["SAME"; "VALID"]) with true by (destruct same; reflexivity).
      replace (mem_str (if same then "SAME" else "VALID") ["SAME"; "SAME_EQUIV"]) with same by (destruct same; reflexivity).
      right. intros ax Hax. apply SW; [exact Hax|]. destruct (ALL ax Hax) as [h [IH SR]]. apply (SY h ax IH Hax SR). }
    exists L', L0'. split; [exact I'|exact B'].
  - intros [L' [L1 [I1 B1]]]. assert (EO : forall x y : pool_layer, Ok x = Ok y -> x = y) by congruence.
    rewrite I' in I1. apply EO in I1. subst L1. destruct (proj1 BI (ex_intro _ L' B1)) as [_ [_ PW]]. unfold padding_works in PW.
    replace (mem_str (if same then "SAME" else "VALID") ["SAME"; "VALID"]) with true in PW by (destruct same; reflexivity).
    replace (mem_str (if same then "SAME" else "VALID") ["SAME"; "SAME_EQUIV"]) with same in PW by (destruct same; reflexivity).
    destruct PW as [PW|PW]; [discriminate PW|]. intros h ax _ Hax _. left. apply PW. exact Hax.
Qed.

End Exactly.

(** Maximum and mean can tell values apart. *)
Theorem C89_maximum_and_mean t : exists u v, tells_apart (pool_fun (A := Z) t) u v.
Proof.
  unfold pool_fun. destruct (String.eqb t "max"); cbn [pool_max pool_mean Pool_Z].
  - exists 0%Z, 1%Z. split; [discriminate|]. intros [|w l] NE TWO; [contradiction|]. destruct (max_in w l) as [M [U V]].
    set (mx := fold_left Z.max l w) in *.
    assert (IM : In mx (w :: l)) by (destruct M as [M|M]; [left; symmetry; exact M|right; exact M]).
    assert (UP : forall z, In z (w :: l) -> (z <= mx)%Z) by (intros z [<-|I]; [exact U|apply V; exact I]).
    split.
    + split; [intros Q I; specialize (UP _ I); lia|]. intros N. destruct (TWO _ IM) as [Q|Q]; [exact Q|]. exfalso. apply N. rewrite <- Q. exact IM.
    + intros N. destruct (TWO _ IM) as [Q|Q]; [|exact Q]. exfalso. apply N. rewrite <- Q. exact IM.
  - exists 1%Z, 0%Z. split; [discriminate|]. intros l NE TWO.
    assert (S : (0 <= fold_right Z.add 0 l <= Z.of_nat (List.length l))%Z /\ (fold_right Z.add 0%Z l = Z.of_nat (List.length l) <-> ~ In 0%Z l) /\
                (~ In 1%Z l -> fold_right Z.add 0%Z l = 0%Z)).
    { clear NE. induction l as [|w l IH]; cbn [fold_right List.length In].
      - split; [lia|]. split; [split; [intros _ []|reflexivity]|reflexivity].
      - destruct IH as [IH1 [IH2 IH3]]; [intros z I; apply TWO; right; exact I|]. rewrite Nat2Z.inj_succ.
        destruct (TWO w (or_introl eq_refl)) as [->| ->].
        + split; [lia|]. split; [|intros N; exfalso; apply N; left; reflexivity].
          split; [intros Q [X|X]; [discriminate X|]; apply IH2 in X; [exact X|lia]|]. intros N. rewrite (proj2 IH2); [lia|]. intros I. apply N. right. exact I.
        + split; [lia|]. split; [split; [lia|intros N; exfalso; apply N; left; reflexivity]|]. intros N. rewrite IH3; [reflexivity|].
          intros I. apply N. right. exact I. }
    destruct S as [S1 [S2 S3]].
    assert (P : (0 < Z.of_nat (List.length l))%Z) by (destruct l; [contradiction|cbn [List.length]; lia]).
    split.
    + rewrite <- S2. split.
      * intros Q. pose proof (Z.div_mod (fold_right Z.add 0%Z l) (Z.of_nat (List.length l)) ltac:(lia)) as D.
        pose proof (Z.mod_pos_bound (fold_right Z.add 0%Z l) (Z.of_nat (List.length l)) P). nia.
      * intros ->. apply Z.div_same. lia.
    + intros N. rewrite (S3 N). apply Z.div_0_l. lia.
Qed.

Print Assumptions C89_exactly_when_pooling_commutes.
Print Assumptions C89_reversed_axes.
Print Assumptions C89_the_check_is_exact.
Print Assumptions C89_maximum_and_mean.

(** ** Cases *)

Definition plain_pool_args (name H p : string) (k : size_arg) (s : option size_arg) : pool_args :=
  mkPoolArgs (ByName name) (Some H) k s (Some (Some p)) "channels_last" true.

(** Max-pooling layers that are refused although they always commute: the statement above
    without one of its conditions. *)
Definition pool_wrongly_refused (name H p : string) (k : size_arg) (s : option size_arg) (m : list nat) (g : nat) : Prop :=
  exists G idx ks ss,
    let a := plain_pool_args name H p k s in
    let d := dimension_of name in
    plain_pooling name G (String.eqb p "same") "max" a H idx ks ss None m g 1 m /\ respects name ks /\ respects name ss /\
    pooling_always_commutes (A := Z) name G "max" a H None m g 1 m /\
    forall L, ~ pooling_built d "max" (refusing_pool a) (None :: map Some m ++ [Some g; Some 1]) L.

Lemma pool_wrongly_refused_by name G H p k s m g idx ks ss :
  let a := plain_pool_args name H p k s in
  let d := dimension_of name in
  let same := String.eqb p "same" in
  let input := None :: map Some m ++ [Some g; Some 1] in
  pooling_for name G a -> subgroup_indices G H idx -> pool_option a (if same then "SAME" else "VALID") -> pool_sizes d a ks ss ->
  List.length m = d -> is_ok (test_pool d "max" a input) = true ->
  all_axes d (fun ax => 0 <? nth ax m 0)%nat = true -> respects name m -> respects name ks -> respects name ss ->
  same || all_axes d (fun ax => nth ax ks 0 <=? nth ax m 0)%nat = true ->
  (forall h ax, In h idx -> ax < d -> snd (nth ax (nth h (symmetries_of name) []) (0, false)) = true ->
     symmetric_windows same (nth ax m 0) (nth ax ks 0) (nth ax ss 0)) ->
  is_ok (test_pool d "max" (refusing_pool a) input) = false ->
  pool_wrongly_refused name H p k s m g.
Proof.
  intros a d same input PF IX OP SZ Lm B PM RM RK RS LE SY N.
  destruct (C89_maximum_and_mean "max") as [u [v TA]].
  assert (PP : plain_pooling name G same "max" a H idx ks ss None m g 1 m).
  { split; try assumption; [reflexivity|split; assumption| |lia| |].
    - destruct (test_pool d "max" a input) as [L|] eqn:T; [|discriminate B]. exists L. apply test_pool_built. exact T.
    - intros ax Hax. unfold all_axes in PM. rewrite forallb_forall in PM. apply Nat.ltb_lt. apply PM. apply in_seq. fold d in Hax. lia.
    - apply orb_true_iff in LE as [LE|LE]; [left; exact LE|right]. intros ax Hax. unfold all_axes in LE. rewrite forallb_forall in LE.
      apply Nat.leb_le. apply LE. apply in_seq. fold d in Hax. lia. }
  exists G, idx, ks, ss. cbv zeta. split; [exact PP|]. split; [exact RK|]. split; [exact RS|]. split.
  - apply (C89_reversed_axes _ _ _ _ _ _ _ _ _ _ _ _ _ _ u v (pool_Z_order_irrelevant "max") TA PP RK RS). exact SY.
  - intros L [L0 [I BL]]. unfold test_pool in N. fold a in I. fold d in I. rewrite I in N. cbn [bind] in N. fold input in BL. rewrite BL in N. discriminate N.
Qed.

(** Each of the conditions is needed.  The subgroup reverses no axis ('valid', size 5, pool
    size and stride 2, group P1); *)
Theorem C89_axes_that_stay_refuted : pool_wrongly_refused "P1" "" "valid" (One 2) (Some (One 2)) [5; 5] 1.
Proof.
  apply (pool_wrongly_refused_by "P1" P1 "" "valid" (One 2) (Some (One 2)) [5; 5] 1 [0] [2; 2] [2; 2]); try apply pairs_respect.
  - split; [vm_compute; reflexivity|split; [left; reflexivity|reflexivity]].
  - vm_compute. reflexivity.
  - exists "valid". split; reflexivity.
  - split; reflexivity.
  - reflexivity.
  - vm_compute. reflexivity.
  - vm_compute. reflexivity.
  - vm_compute. reflexivity.
  - intros h ax [<-|[]] Hax RV. exfalso. change (dimension_of "P1") with 2 in Hax. destruct ax as [|[|ax]]; [discriminate RV|discriminate RV|lia].
  - vm_compute. reflexivity.
Qed.

(** each window covers the whole axis ('same', pool size 4, stride 1, size 2); *)
Theorem C89_whole_windows_refuted : pool_wrongly_refused "P4" "" "same" (One 4) (Some (One 1)) [2; 2] 4.
Proof.
  apply (pool_wrongly_refused_by "P4" P4 "" "same" (One 4) (Some (One 1)) [2; 2] 4 [0; 1; 2; 3] [4; 4] [1; 1]); try apply pairs_respect.
  - split; [vm_compute; reflexivity|split; [left; reflexivity|reflexivity]].
  - vm_compute. reflexivity.
  - exists "same". split; reflexivity.
  - split; reflexivity.
  - reflexivity.
  - vm_compute. reflexivity.
  - vm_compute. reflexivity.
  - vm_compute. reflexivity.
  - intros h ax _ Hax _. change (dimension_of "P4") with 2 in Hax. right.
    destruct ax as [|[|ax]]; [| |lia]; intros q i Q I; (change (q < 2) in Q); (change (i < 2) in I); (change (q * 1 <= i + 1 < q * 1 + 4)); lia.
  - vm_compute. reflexivity.
Qed.

(** the strides are left to the default ('same', pool size 2, size 4: the check takes
    strides of 1, the layer takes 2).  C33 has layers that are accepted, without strides,
    but do not commute. *)
Theorem C89_default_strides_refuted : pool_wrongly_refused "P4" "" "same" (One 2) None [4; 4] 4.
Proof.
  apply (pool_wrongly_refused_by "P4" P4 "" "same" (One 2) None [4; 4] 4 [0; 1; 2; 3] [2; 2] [2; 2]); try apply pairs_respect.
  - split; [vm_compute; reflexivity|split; [left; reflexivity|reflexivity]].
  - vm_compute. reflexivity.
  - exists "same". split; reflexivity.
  - split; reflexivity.
  - reflexivity.
  - vm_compute. reflexivity.
  - vm_compute. reflexivity.
  - vm_compute. reflexivity.
  - intros h ax _ Hax _. change (dimension_of "P4") with 2 in Hax. left.
    destruct ax as [|[|ax]]; [| |lia]; (split; [exists 1%Z; reflexivity|exists 0; reflexivity]).
  - vm_compute. reflexivity.
Qed.

Print Assumptions C89_axes_that_stay_refuted.
Print Assumptions C89_whole_windows_refuted.
Print Assumptions C89_default_strides_refuted.

(** What some layers do: whether they are accepted without [allow_non_equivariance], and
    whether with it they commute on one signal. *)
Definition pool_verdicts (name H t p : string) (k : size_arg) (s : option size_arg) (n : nat) : bool * bool :=
  let a := plain_pool_args name H p k s in
  match dict_get group_dict name with
  | Ok G => let g := List.length (symmetries_of name) in
            let input := None :: map Some [n; n] ++ [Some g; Some 1] in
            (is_ok (test_pool 2 t (refusing_pool a) input),
             pooling_does_commute (transforms_of_group_signal G 2 H "") (transforms_of_group_signal G 2 H H)
               (test_pool 2 t a input) (signed_signal [1; n; n; g; 1]))
  | Err _ => (false, false)
  end.

Example C89_case :
  map (pool_verdicts "P4" "" "max" "valid" (One 2) (Some (One 2))) [4; 5; 6; 7] = [(true, true); (false, false); (true, true); (false, false)] /\
  map (pool_verdicts "P4" "P2" "average" "same" (One 3) (Some (One 2))) [4; 5; 6; 7] = [(false, false); (true, true); (false, false); (true, true)] /\
  map (fun k => pool_verdicts "P2" "" "max" "same" (One k) (Some (One 1)) 5) [1; 2; 3; 4; 9; 10]%Z
    = [(true, true); (false, false); (true, true); (false, false); (true, true); (false, true)] /\
  pool_verdicts "P4" "" "max" "same" (One 4) (Some (One 1)) 2 = (false, true) /\
  pool_verdicts "P4" "" "max" "same" (One 2) None 4 = (false, true) /\
  pool_verdicts "P4" "" "max" "valid" (One 2) None 5 = (true, false) /\
  pool_verdicts "P1" "" "max" "valid" (One 2) (Some (One 2)) 5 = (false, true).
Proof. vm_compute. repeat split; reflexivity. Qed.

(** ** The exact mean *)

From Coq Require Import QArith Qcanon.
Local Close Scope Q_scope.
Local Close Scope Qc_scope.

(** It also tells values apart. *)
Theorem C89_exact_mean : tells_apart exact_mean 0%Qc 1%Qc.
Proof.
  split; [discriminate|]. intros l NE TWO. unfold exact_mean.
  set (len := Q2Qc (inject_Z (Z.of_nat (List.length l)))).
  assert (NZ : len <> 0%Qc).
  { unfold len. intros Q. apply (f_equal this) in Q. assert (Q' : Qeq (inject_Z (Z.of_nat (List.length l))) 0).
    { pose proof (Qred_correct (inject_Z (Z.of_nat (List.length l)))) as R. change (this (Q2Qc ?q)) with (Qred q) in Q. rewrite Q in R. symmetry. exact R. }
    unfold Qeq in Q'. cbn in Q'. destruct l; [contradiction|cbn [List.length] in Q'; lia]. }
  (* the sum is the number of ones *)
  assert (S : exists k, fold_right Qcplus 0%Qc l = Q2Qc (inject_Z (Z.of_nat k)) /\ (k = 0 <-> ~ In 1%Qc l) /\ (~ In 0%Qc l -> k = List.length l)).
  { clear NE NZ len. induction l as [|w l IH]; cbn [fold_right List.length In].
    - exists 0. split; [reflexivity|]. split; [split; [intros _ []|reflexivity]|reflexivity].
    - destruct IH as [k [K1 [K2 K3]]]; [intros z I; apply TWO; right; exact I|]. rewrite K1.
      destruct (TWO w (or_introl eq_refl)) as [->| ->].
      + exists k. split; [apply Qcplus_0_l|]. split; [|intros N; exfalso; apply N; left; reflexivity].
        rewrite K2. split; [intros N [X|X]; [discriminate X|apply N; exact X]|intros N I; apply N; right; exact I].
      + exists (S k). split.
        * apply Qc_is_canon. cbn [Qcplus this Q2Qc]. rewrite !Qred_correct. rewrite Nat2Z.inj_succ, <- Z.add_1_l, inject_Z_plus. reflexivity.
        * split; [split; [discriminate|intros N; exfalso; apply N; left; reflexivity]|]. intros N. rewrite K3; [reflexivity|]. intros I. apply N. right. exact I. }
  destruct S as [k [-> [K2 K3]]]. split.
  - rewrite <- K2. split.
    + intros Q. assert (Z0 : Q2Qc (inject_Z (Z.of_nat k)) = 0%Qc).
      { rewrite <- (Qcmult_0_l len). rewrite <- Q. field. exact NZ. }
      apply (f_equal this) in Z0. assert (Q' : Qeq (inject_Z (Z.of_nat k)) 0).
      { pose proof (Qred_correct (inject_Z (Z.of_nat k))) as R. change (this (Q2Qc ?q)) with (Qred q) in Z0. rewrite Z0 in R. symmetry. exact R. }
      unfold Qeq in Q'. cbn in Q'. lia.
    + intros ->. change (Q2Qc (inject_Z (Z.of_nat 0))) with 0%Qc. field. exact NZ.
  - intros N. rewrite (K3 N). fold len. field. exact NZ.
Qed.
Print Assumptions C89_exact_mean.
