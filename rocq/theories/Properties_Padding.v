(** C16-C19, C47 (and part of C40): the padding layer, groco/layers/padding.py.

    [ks] and [st] are the [kernel_size] and [strides] arguments (an int or a tuple);
    [k] and [s] are the sizes per axis that the Keras layer reads from them. *)
From Verif Require Import OpFacts UtilsTheorems PaddingFacts LayerSpec Layers.
Local Open Scope string_scope.

Section Padding.
Context {A : Type} {ZA : Zero A}.
Context (ks st : size_arg) (d : nat) (k s : list nat) (p : string) (same allow : bool) (fmt : string)
        (L : padding_layer) (Hk : standardize_tuple d ks = Ok k) (Hs : standardize_tuple d st = Ok s).

(** Shape of everything that follows: the layer with or without extra padding. *)
Lemma built_layer (opt : string) n bs cs L' (x : tensor A) b m c :
  padding_init ks d st (Some p) allow fmt false = Ok L -> upper p = opt -> is_same opt = same ->
  List.length n = d -> padding_build L (static_layout fmt bs n cs) = Ok L' ->
  shape x = layout fmt b m c -> List.length m = d ->
  exists y before after, padding_call L' x = Ok y /\ zero_border fmt before after x y /\
    List.length before = d /\ List.length after = d /\
    ((is_plain opt && allow = true /\ y = x) \/
     (is_plain opt && allow = false /\ (is_plain opt = true -> y = x) /\
      forall a, a < d ->
        let t := backend_total same (nth a n 0) (nth a k 0) (nth a s 0) in
        let e := nth a before 0 + nth a after 0 in
        least (admissible (nth a n 0) t (nth a k 0) (nth a s 0)) e /\
        nth a before 0 = e - e / 2 /\ nth a after 0 = e / 2)).
Proof.
  intros I O SM N B X M. apply padding_init_inv in I as [Eo [_ [_ [Ea [Ed [Es [Ek [Ef [Et [Ep _]]]]]]]]]].
  destruct (layer_axes ks st d k s n Hk Hs N) as [LL [An [Ak [As [Zk [Zs P]]]]]]. set (l := axes_of n k s) in *.
  assert (Lk : List.length k = d) by (apply standardize_tuple_inv in Hk as [E _]; exact E).
  assert (Ls : List.length s = d) by (apply standardize_tuple_inv in Hs as [E _]; exact E).
  rewrite <- Ef in B. rewrite (padding_build_eq L l bs cs n) in B; [|congruence|congruence|intros q Q; apply P; exact Q|exact An|congruence].
  rewrite Eo, O, SM, Ea, Et in B.
  set (ex := extra_of same false) in *. set (bi := assumed same false) in *.
  assert (BI : forall a, a < d -> bi (nth a l (0, 0, 0)) = backend_total same (nth a n 0) (nth a k 0) (nth a s 0)).
  { intros a Ha. unfold l. rewrite (nth_axes n k s d a) by assumption. unfold bi, assumed, backend_total, ax_n, ax_k, ax_s. reflexivity. }
  assert (EX : forall a, a < d -> Nat.Even (bi (nth a l (0, 0, 0)) + ex (nth a l (0, 0, 0))) ->
     least (admissible (nth a n 0) (backend_total same (nth a n 0) (nth a k 0) (nth a s 0)) (nth a k 0) (nth a s 0)) (ex (nth a l (0, 0, 0)))).
  { intros a Ha E. rewrite <- BI by exact Ha.
    assert (Q : In (nth a l (0, 0, 0)) l) by (apply nth_In; lia).
    assert (Q' : nth a l (0, 0, 0) = (nth a n 0, nth a k 0, nth a s 0)) by (apply (nth_axes n k s d); assumption).
    destruct (P _ Q) as [Ps _]. revert E Ps. unfold ex, extra_of. fold bi. rewrite Q'. unfold ax_n, ax_k, ax_s. cbn [fst snd].
    intros E Ps. split.
    - apply nextra_good; [exact Ps|exact E].
    - intros e' E'. apply nextra_least; [exact Ps|exact E']. }
  destruct (is_plain opt && allow) eqn:PA.
  { injection B as <-. exists x, (repeat 0 d), (repeat 0 d).
    split; [cbn; destruct (pl_pads L); reflexivity|]. split; [apply (zero_border_none fmt x b m c); assumption|].
    rewrite repeat_length. split; [reflexivity|]. split; [reflexivity|]. left. split; reflexivity. }
  destruct (forallb _ l) eqn:Z in B.
  { injection B as <-. rewrite forallb_forall in Z. exists x, (repeat 0 d), (repeat 0 d).
    split; [cbn; destruct (pl_pads L); reflexivity|]. split; [apply (zero_border_none fmt x b m c); assumption|].
    rewrite repeat_length. split; [reflexivity|]. split; [reflexivity|]. right. split; [reflexivity|]. split; [reflexivity|].
    intros a Ha. cbv zeta. rewrite nth_repeat. cbn [Nat.add].
    assert (Q : In (nth a l (0, 0, 0)) l) by (apply nth_In; lia).
    pose proof (Z _ Q) as E0. apply Nat.eqb_eq in E0. split; [|split; reflexivity].
    assert (EV : Nat.Even (bi (nth a l (0, 0, 0)) + ex (nth a l (0, 0, 0)))).
    { unfold ex, extra_of. fold bi. apply nextra_zero_even; [apply P; exact Q|exact E0]. }
    pose proof (EX a Ha EV) as EX'. rewrite E0 in EX'. exact EX'. }
  destruct (is_plain opt) eqn:PL; [discriminate|].
  destruct (forallb _ l) eqn:V in B; [|discriminate]. rewrite forallb_forall in V.
  injection B as <-.
  set (es := map ex l).
  assert (Les : List.length es = d) by (unfold es; rewrite map_length; exact LL).
  destruct (pad_border fmt (befores es) (afters es) x b m c X) as [y [Y [_ ZB]]].
  { unfold befores. rewrite map_length. lia. } { unfold afters. rewrite map_length. lia. }
  exists y, (befores es), (afters es). split.
  { cbn [padding_call pl_needs pl_pads set_needs]. unfold padding_call. cbn [pl_needs pl_pads set_needs].
    replace (zs ex l) with (map Z.of_nat es) by (unfold es, zs; apply map_map).
    rewrite split_padding_eq, Ef. exact Y. }
  split; [exact ZB|]. unfold befores, afters. rewrite !map_length. split; [exact Les|]. split; [exact Les|].
  right. split; [reflexivity|]. split; [intros H; discriminate H|].
  intros a Ha. cbv zeta.
  assert (EN : nth a es 0 = ex (nth a l (0, 0, 0))) by (unfold es; apply nth_map_axes; lia).
  assert (N1 : nth a (map (fun e => e - e / 2) es) 0 = nth a es 0 - nth a es 0 / 2).
  { rewrite nth_indep with (d' := (fun e => e - e / 2) 0) by (rewrite map_length; lia). apply (map_nth (fun e => e - e / 2)). }
  assert (N2 : nth a (map (fun e => e / 2) es) 0 = nth a es 0 / 2).
  { rewrite nth_indep with (d' := (fun e => e / 2) 0) by (rewrite map_length; lia). apply (map_nth (fun e => e / 2)). }
  rewrite N1, N2.
  assert (SUM : nth a es 0 - nth a es 0 / 2 + nth a es 0 / 2 = nth a es 0).
  { pose proof (Nat.div_le_upper_bound (nth a es 0) 2 (nth a es 0)). lia. }
  rewrite SUM. split; [|split; reflexivity].
  rewrite EN. apply EX; [exact Ha|]. apply Nat.even_spec. apply V. apply nth_In. lia.
Qed.

(** When does [build] succeed? *)
Lemma build_iff (opt : string) n bs cs :
  padding_init ks d st (Some p) allow fmt false = Ok L -> upper p = opt -> is_same opt = same ->
  List.length n = d -> is_plain opt && allow = false ->
  let t a := backend_total same (nth a n 0) (nth a k 0) (nth a s 0) in
  (if is_plain opt then
     ((forall a, a < d -> admissible (nth a n 0) (t a) (nth a k 0) (nth a s 0) 0) /\
      exists L', padding_build L (static_layout fmt bs n cs) = Ok L') \/
     ((exists a, a < d /\ ~ admissible (nth a n 0) (t a) (nth a k 0) (nth a s 0) 0) /\
      padding_build L (static_layout fmt bs n cs) = Err (padding_error L))
   else
     ((forall a, a < d -> exists e, admissible (nth a n 0) (t a) (nth a k 0) (nth a s 0) e) /\
      exists L', padding_build L (static_layout fmt bs n cs) = Ok L') \/
     ((exists a, a < d /\ forall e, ~ admissible (nth a n 0) (t a) (nth a k 0) (nth a s 0) e) /\
      padding_build L (static_layout fmt bs n cs) = Err (padding_error L))).
Proof.
  intros I O SM N PA t. apply padding_init_inv in I as [Eo [_ [_ [Ea [Ed [Es [Ek [Ef [Et [Ep _]]]]]]]]]].
  destruct (layer_axes ks st d k s n Hk Hs N) as [LL [An [Ak [As [Zk [Zs P]]]]]]. set (l := axes_of n k s) in *.
  assert (Lk : List.length k = d) by (apply standardize_tuple_inv in Hk as [E _]; exact E).
  assert (Ls : List.length s = d) by (apply standardize_tuple_inv in Hs as [E _]; exact E).
  assert (B : padding_build L (static_layout fmt bs n cs) =
    if forallb (fun q => extra_of same false q =? 0)%nat l then Ok (set_needs L false (pl_pads L))
    else if is_plain opt then Err (padding_error L)
    else if forallb (fun q => Nat.even (assumed same false q + extra_of same false q)) l
         then Ok (set_needs L true (Some (split_padding L (zs (extra_of same false) l))))
         else Err (padding_error L)).
  { rewrite <- Ef. rewrite (padding_build_eq L l bs cs n); [|congruence|congruence|intros q Q; apply P; exact Q|exact An|congruence].
    rewrite Eo, O, SM, Ea, Et, PA. reflexivity. }
  set (ex := extra_of same false) in *. set (bi := assumed same false) in *.
  assert (BI : forall a, a < d -> bi (nth a l (0, 0, 0)) = t a).
  { intros a Ha. unfold l. rewrite (nth_axes n k s d a) by assumption. reflexivity. }
  assert (PS : forall a, a < d -> 0 < nth a s 0).
  { intros a Ha. assert (Q : In (nth a l (0, 0, 0)) l) by (apply nth_In; lia). apply P in Q as [Q _].
    unfold l in Q. rewrite (nth_axes n k s d a) in Q by assumption. exact Q. }
  assert (XQ : forall a, a < d -> ex (nth a l (0, 0, 0)) = nextra (nth a n 0) (t a) (nth a k 0) (nth a s 0)).
  { intros a Ha. unfold ex, extra_of. fold bi. rewrite BI by exact Ha. unfold l. rewrite (nth_axes n k s d a) by assumption. reflexivity. }
  assert (ALL : forall f : axis -> bool, forallb f l = true <-> forall a, a < d -> f (nth a l (0, 0, 0)) = true).
  { intros f. rewrite forallb_forall. split.
    - intros H a Ha. apply H. apply nth_In. lia.
    - intros H q Q. apply (In_nth l q (0, 0, 0)) in Q as [a [Ha <-]]. apply H. lia. }
  assert (ANY : forall f : axis -> bool, forallb f l = false -> exists a, a < d /\ f (nth a l (0, 0, 0)) = false).
  { intros f H. clear -H LL. revert d LL. induction l as [|q l' IH]; intros d0 LL; [discriminate|].
    cbn in H. destruct (f q) eqn:Q.
    - cbn in H. destruct (IH H (List.length l') eq_refl) as [a [Ha E]]. exists (S a). cbn in LL. split; [lia|exact E].
    - exists 0. cbn in LL. split; [lia|exact Q]. }
  destruct (forallb (fun q => ex q =? 0)%nat l) eqn:Z.
  - assert (T : forall a, a < d -> admissible (nth a n 0) (t a) (nth a k 0) (nth a s 0) 0).
    { intros a Ha. assert (Z' := proj1 (ALL _) Z a Ha). apply Nat.eqb_eq in Z'. rewrite XQ in Z' by exact Ha.
      pose proof (nextra_good (nth a n 0) (t a) (nth a k 0) (nth a s 0) (PS a Ha)) as G.
      rewrite Z' in G. apply G. rewrite <- Z'. apply nextra_zero_even; [apply PS; exact Ha|exact Z']. }
    destruct (is_plain opt); left; (split; [|eexists; exact B]).
    + exact T.
    + intros a Ha. exists 0. apply T. exact Ha.
  - destruct (is_plain opt).
    + right. split; [|exact B]. apply ANY in Z as [a [Ha E]]. exists a. split; [exact Ha|]. intros AD.
      apply Nat.eqb_neq in E. rewrite XQ in E by exact Ha.
      pose proof (nextra_least _ _ _ _ 0 (PS a Ha) AD). lia.
    + destruct (forallb (fun q => Nat.even (bi q + ex q)) l) eqn:V.
      * left. split; [|eexists; exact B]. intros a Ha. exists (ex (nth a l (0, 0, 0))).
        assert (V' := proj1 (ALL _) V a Ha). apply Nat.even_spec in V'. rewrite BI in V' by exact Ha.
        rewrite XQ by exact Ha. apply nextra_good; [apply PS; exact Ha|]. rewrite <- XQ by exact Ha. exact V'.
      * right. split; [|exact B]. apply ANY in V as [a [Ha E]]. exists a. split; [exact Ha|]. intros e AD.
        pose proof (nextra_decides _ _ _ _ e (PS a Ha) AD) as EV. rewrite <- XQ in EV by exact Ha.
        rewrite <- BI in EV by exact Ha. apply Nat.even_spec in EV. congruence.
Qed.

(** C16, first part: the padding layer adds a border of zeros whose width along
    each axis is the least admissible one. *)
Theorem C16_least_padding n bs cs L' (x : tensor A) b c :
  upper p = (if same then "SAME_EQUIV" else "VALID_EQUIV") ->
  padding_init ks d st (Some p) allow fmt false = Ok L ->
  List.length n = d -> padding_build L (static_layout fmt bs n cs) = Ok L' ->
  shape x = layout fmt b n c ->
  exists y before after, padding_call L' x = Ok y /\ zero_border fmt before after x y /\
    forall a, a < d ->
      least (admissible (nth a n 0) (backend_total same (nth a n 0) (nth a k 0) (nth a s 0)) (nth a k 0) (nth a s 0))
            (nth a before 0 + nth a after 0).
Proof.
  intros U I N B X.
  destruct (built_layer (if same then "SAME_EQUIV" else "VALID_EQUIV") n bs cs L' x b n c I U) as [y [be [af [Y [Z [L1 [L2 [[C _]|[_ [_ C]]]]]]]]]];
    [destruct same; reflexivity|exact N|exact B|exact X|exact N| |].
  { destruct same; discriminate C. }
  exists y, be, af. split; [exact Y|]. split; [exact Z|]. intros a Ha. apply (C a Ha).
Qed.

(** C16, second part: building fails exactly when some axis has no admissible
    padding. *)
Theorem C16_build_succeeds_iff n bs cs :
  upper p = (if same then "SAME_EQUIV" else "VALID_EQUIV") ->
  padding_init ks d st (Some p) allow fmt false = Ok L -> List.length n = d ->
  ((exists L', padding_build L (static_layout fmt bs n cs) = Ok L') <->
   (forall a, a < d -> exists e,
      admissible (nth a n 0) (backend_total same (nth a n 0) (nth a k 0) (nth a s 0)) (nth a k 0) (nth a s 0) e)).
Proof.
  intros U I N.
  pose proof (build_iff (if same then "SAME_EQUIV" else "VALID_EQUIV") n bs cs I U) as H. cbv zeta in H.
  replace (is_plain (if same then "SAME_EQUIV" else "VALID_EQUIV")) with false in H by (destruct same; reflexivity).
  specialize (H ltac:(destruct same; reflexivity) N eq_refl).
  destruct H as [[H1 [L' H2]]|[[a [Ha H1]] H2]].
  - split; [intros _; exact H1|intros _; exists L'; exact H2].
  - split.
    + intros [L' E]. rewrite E in H2. discriminate.
    + intros H. destruct (H a Ha) as [e E]. exfalso. apply (H1 e). exact E.
Qed.

(** C16, third part: the error with 'valid_equiv' is ValueError. *)
Theorem C16_valid_equiv_raises_ValueError n bs cs e :
  upper p = "VALID_EQUIV" -> padding_init ks d st (Some p) allow fmt false = Ok L -> List.length n = d ->
  padding_build L (static_layout fmt bs n cs) = Err e -> e = ValueError.
Proof.
  intros U I N B.
  destruct (layer_axes ks st d k s n Hk Hs N) as [LL [An [Ak [As [Zk [Zs P]]]]]].
  apply padding_init_inv in I as [Eo [_ [_ [Ea [Ed [Es [Ek [Ef [Et [Ep _]]]]]]]]]].
  rewrite <- Ef in B. rewrite (padding_build_eq L (axes_of n k s) bs cs n) in B; [|congruence|congruence|intros q Q; apply P; exact Q|exact An|congruence].
  unfold padding_error in B. rewrite Eo, U in B. cbn in B.
  destruct (forallb _ _); [discriminate|]. destruct (forallb _ _); [discriminate|]. congruence.
Qed.

(** ... but with 'same_equiv' it is always AttributeError: [configuration_string]
    calls a method that does not exist. *)
Theorem C16_same_equiv_raises_AttributeError n bs cs e :
  upper p = "SAME_EQUIV" -> padding_init ks d st (Some p) allow fmt false = Ok L -> List.length n = d ->
  padding_build L (static_layout fmt bs n cs) = Err e -> e = AttributeError.
Proof.
  intros U I N B.
  destruct (layer_axes ks st d k s n Hk Hs N) as [LL [An [Ak [As [Zk [Zs P]]]]]].
  apply padding_init_inv in I as [Eo [_ [_ [Ea [Ed [Es [Ek [Ef [Et [Ep _]]]]]]]]]].
  rewrite <- Ef in B. rewrite (padding_build_eq L (axes_of n k s) bs cs n) in B; [|congruence|congruence|intros q Q; apply P; exact Q|exact An|congruence].
  unfold padding_error in B. rewrite Eo, U in B. cbn in B.
  destruct (forallb _ _); [discriminate|]. destruct (forallb _ _); [discriminate|]. congruence.
Qed.

(** C17: plain 'same' / 'valid'. *)
Theorem C17_plain_padding_checked n bs cs :
  upper p = (if same then "SAME" else "VALID") -> allow = false ->
  padding_init ks d st (Some p) allow fmt false = Ok L -> List.length n = d ->
  let needed := exists a, a < d /\
     ~ admissible (nth a n 0) (backend_total same (nth a n 0) (nth a k 0) (nth a s 0)) (nth a k 0) (nth a s 0) 0 in
  (~ needed /\ exists L', padding_build L (static_layout fmt bs n cs) = Ok L' /\
                          forall (x : tensor A) b c, shape x = layout fmt b n c -> padding_call L' x = Ok x) \/
  (needed /\ padding_build L (static_layout fmt bs n cs) = Err ValueError).
Proof.
  intros U AL I N needed.
  pose proof (build_iff (if same then "SAME" else "VALID") n bs cs I U) as H. cbv zeta in H.
  replace (is_plain (if same then "SAME" else "VALID")) with true in H by (destruct same; reflexivity).
  rewrite AL in H. specialize (H ltac:(destruct same; reflexivity) N eq_refl).
  destruct H as [[H1 [L' H2]]|[H1 H2]].
  - left. split.
    + intros [a [Ha E]]. apply E, H1, Ha.
    + exists L'. split; [exact H2|]. intros x b c X.
      destruct (built_layer (if same then "SAME" else "VALID") n bs cs L' x b n c I U)
        as [y [be [af [Y [_ [_ [_ [[_ C]|[_ [C _]]]]]]]]]];
        [destruct same; reflexivity|exact N|exact H2|exact X|exact N|subst y; exact Y|].
      rewrite Y. f_equal. apply C. destruct same; reflexivity.
  - right. split; [exact H1|]. rewrite H2. f_equal. unfold padding_error.
    apply padding_init_inv in I as [Eo _]. rewrite Eo, U. destruct same; reflexivity.
Qed.

(** With [allow_non_equivariance] plain padding always builds (whatever the input
    shape) and never pads, transposed or not. *)
Theorem C17_allowed_never_pads (tr : bool) (input : sshape) :
  upper p = (if same then "SAME" else "VALID") -> allow = true ->
  padding_init ks d st (Some p) allow fmt tr = Ok L ->
  exists L', padding_build L input = Ok L' /\ forall x : tensor A, padding_call L' x = Ok x.
Proof.
  intros U AL I. apply padding_init_inv in I as [Eo [_ [_ [Ea _]]]].
  exists (set_needs L false (pl_pads L)). split.
  - unfold padding_build. rewrite Eo, U, Ea, AL. destruct same; reflexivity.
  - intros x. reflexivity.
Qed.

(** C18: after padding, the backend's own padding of the padded axis is the one
    assumed, the total is the same on both sides and the last window ends at the
    end of the axis. *)
Theorem C18_total_padding_symmetric n bs cs L' (x : tensor A) b c :
  padding_init ks d st (Some p) allow fmt false = Ok L ->
  same = mem_str (upper p) ["SAME"; "SAME_EQUIV"] ->
  (allow = false \/ mem_str (upper p) ["SAME_EQUIV"; "VALID_EQUIV"] = true) ->
  List.length n = d -> padding_build L (static_layout fmt bs n cs) = Ok L' ->
  shape x = layout fmt b n c ->
  exists y before after, padding_call L' x = Ok y /\ zero_border fmt before after x y /\
    forall a, a < d ->
      let m := nth a before 0 + nth a n 0 + nth a after 0 in
      let '(lo, hi) := backend_pads same m (nth a k 0) (nth a s 0) in
      nth a before 0 + lo = nth a after 0 + hi /\
      (exists q : Z, (Z.of_nat (lo + m + hi) - Z.of_nat (nth a k 0%nat) = q * Z.of_nat (nth a s 0%nat))%Z) /\
      lo + hi = backend_total same (nth a n 0) (nth a k 0) (nth a s 0).
Proof.
  intros I SM AL N B X.
  destruct (built_layer (upper p) n bs cs L' x b n c I eq_refl (eq_sym SM) N B X N) as [y [be [af [Y [Z [L1 [L2 [[C _]|[_ [_ C]]]]]]]]]].
  { exfalso. apply andb_true_iff in C as [C1 C2]. destruct AL as [AL|AL]; [congruence|].
    apply mem_str_In in AL. unfold is_plain in C1. destruct AL as [AL|[AL|[]]]; rewrite <- AL in C1; discriminate C1. }
  exists y, be, af. split; [exact Y|]. split; [exact Z|]. intros a Ha. cbv zeta.
  specialize (C a Ha). cbv zeta in C. destruct C as [[AD _] [E1 E2]].
  set (e := nth a be 0 + nth a af 0) in *.
  assert (M : nth a be 0 + nth a n 0 + nth a af 0 = nth a n 0 + e) by (unfold e; lia). rewrite M.
  assert (Ps : 0 < nth a s 0) by (apply standardize_tuple_inv in Hs as [Ls [_ P]]; apply P, nth_In; lia).
  assert (Pk : 0 < nth a k 0) by (apply standardize_tuple_inv in Hk as [Lk [_ P]]; apply P, nth_In; lia).
  pose proof AD as AD0. destruct AD as [[q Q] EV].
  unfold backend_pads, backend_total in *. destruct same; cbn beta iota zeta.
  - unfold same_pads. rewrite (same_total_padded _ _ _ _ Ps Pk AD0).
    set (t := same_total (nth a n 0) (nth a k 0) (nth a s 0)) in *.
    pose proof (split_even t e EV) as SE. assert (T : t / 2 + (t - t / 2) = t).
    { pose proof (Nat.div_le_upper_bound t 2 t). lia. }
    split; [lia|]. split; [exists q; lia|exact T].
  - pose proof (split_even 0 e EV) as SE. change (0 / 2) with 0 in SE. split; [lia|]. split; [exists q; lia|reflexivity].
Qed.

(** C19: whatever the layer was built on (also for a transposed layer), calling it
    on any input of the right rank adds a border of zeros and nothing else.  The
    width of the border was fixed by [build]. *)
Theorem C19_only_a_zero_border (tr : bool) n bs cs L' :
  padding_init ks d st (Some p) allow fmt tr = Ok L ->
  List.length n = d -> padding_build L (static_layout fmt bs n cs) = Ok L' ->
  exists before after, List.length before = d /\ List.length after = d /\
    forall (x : tensor A) b m c, shape x = layout fmt b m c -> List.length m = d ->
      exists y, padding_call L' x = Ok y /\ zero_border fmt before after x y.
Proof.
  intros I N B. apply padding_init_inv in I as [Eo [_ [_ [Ea [Ed [Es [Ek [Ef [Et [Ep _]]]]]]]]]].
  destruct (layer_axes ks st d k s n Hk Hs N) as [LL [An [Ak [As [Zk [Zs P]]]]]]. set (l := axes_of n k s) in *.
  rewrite <- Ef in B. rewrite (padding_build_eq L l bs cs n) in B; [|congruence|congruence|intros q Q; apply P; exact Q|exact An|congruence].
  set (ex := extra_of _ _) in B.
  assert (NO : L' = set_needs L false (pl_pads L) -> exists before after, List.length before = d /\ List.length after = d /\
    forall (x : tensor A) b m c, shape x = layout fmt b m c -> List.length m = d ->
      exists y, padding_call L' x = Ok y /\ zero_border fmt before after x y).
  { intros ->. exists (repeat 0 d), (repeat 0 d). rewrite repeat_length. split; [reflexivity|]. split; [reflexivity|].
    intros x b m c X M. exists x. split; [reflexivity|]. apply (zero_border_none fmt x b m c); assumption. }
  destruct (is_plain (pl_option L) && pl_allow L); [injection B as <-; apply NO; reflexivity|].
  destruct (forallb _ l) in B; [injection B as <-; apply NO; reflexivity|].
  destruct (is_plain (pl_option L)); [discriminate|]. destruct (forallb _ l) in B; [|discriminate].
  injection B as <-. set (es := map ex l).
  assert (Les : List.length es = d) by (unfold es; rewrite map_length; exact LL).
  exists (befores es), (afters es). unfold befores at 1, afters at 1. rewrite !map_length. split; [exact Les|]. split; [exact Les|].
  intros x b m c X M.
  destruct (pad_border fmt (befores es) (afters es) x b m c X) as [y [Y [_ ZB]]].
  { unfold befores. rewrite map_length. lia. } { unfold afters. rewrite map_length. lia. }
  exists y. split; [|exact ZB]. unfold padding_call. cbn [pl_needs pl_pads set_needs].
  replace (zs ex l) with (map Z.of_nat es) by (unfold es, zs; apply map_map).
  rewrite split_padding_eq, Ef. exact Y.
Qed.

End Padding.
Print Assumptions C16_least_padding.
Print Assumptions C16_build_succeeds_iff.
Print Assumptions C16_valid_equiv_raises_ValueError.
Print Assumptions C16_same_equiv_raises_AttributeError.
Print Assumptions C17_plain_padding_checked.
Print Assumptions C17_allowed_never_pads.
Print Assumptions C18_total_padding_symmetric.
Print Assumptions C19_only_a_zero_border.

(** The padding layer made and built for one concrete input. *)
Definition padding_run (ks st : size_arg) (d : nat) (p fmt : string) (x : tensor nat) : result (tensor nat) :=
  L <- padding_init ks d st (Some p) false fmt false ;;
  L <- padding_build L (map Some (shape x)) ;;
  padding_call L x.

(** Size 5, kernel 2, stride 1, 'same': the backend pads one pixel at the end, the
    layer adds one at the beginning. *)
Example C16_case : padding_run (One 2) (One 1) 1 "same_equiv" "channels_last" (mkTensor [1; 5; 1] [1; 2; 3; 4; 5])
  = Ok (mkTensor [1; 6; 1] [0; 1; 2; 3; 4; 5]).
Proof. reflexivity. Qed.

(** Size 6, kernel 3, stride 2, 'valid': the sampling needs an odd amount. *)
Example C16_case_impossible :
  padding_run (One 3) (One 2) 1 "valid_equiv" "channels_last" (mkTensor [1; 6; 1] [1; 2; 3; 4; 5; 6]) = Err ValueError.
Proof. reflexivity. Qed.

Example C16_case_two_axes : padding_run (One 3) (Tuple [3; 1]%Z) 2 "valid_equiv" "channels_last"
    (mkTensor [1; 4; 3; 1] [1; 2; 3; 4; 5; 6; 7; 8; 9; 10; 11; 12])
  = Ok (mkTensor [1; 6; 3; 1] [0; 0; 0; 1; 2; 3; 4; 5; 6; 7; 8; 9; 10; 11; 12; 0; 0; 0]).
Proof. reflexivity. Qed.

(** The documented ValueError is not what 'same_equiv' raises: size 8, kernel 3,
    stride 2. *)
Theorem C16_ValueError_refuted :
  ~ (forall ks st d p (x : tensor nat) e,
       In p ["valid_equiv"; "same_equiv"] ->
       padding_run ks st d p "channels_last" x = Err e -> e = ValueError).
Proof.
  intros H. discriminate (H (One 3) (One 2) 1 "same_equiv" (mkTensor [1; 8; 1] (seq 0 8)) AttributeError).
  - right. left. reflexivity.
  - reflexivity.
Qed.
Print Assumptions C16_ValueError_refuted.

Example C17_case_refused :
  padding_run (One 2) (One 1) 1 "same" "channels_last" (mkTensor [1; 5; 1] [1; 2; 3; 4; 5]) = Err ValueError
  /\ padding_run (One 3) (One 1) 1 "same" "channels_last" (mkTensor [1; 5; 1] [1; 2; 3; 4; 5]) = Ok (mkTensor [1; 5; 1] [1; 2; 3; 4; 5]).
Proof. split; reflexivity. Qed.

(** Size 9, kernel 4, stride 3, 'same': the backend adds (0, 1) to size 9; the
    layer adds (2, 1); on the padded size 12 the backend adds (0, 1) again. *)
Example C18_case : same_pads 9 4 3 = (0, 1) /\ same_pads 12 4 3 = (0, 1)
  /\ padding_run (One 4) (One 3) 1 "same_equiv" "channels_last" (mkTensor [1; 9; 1] (seq 1 9))
     = Ok (mkTensor [1; 12; 1] [0; 0; 1; 2; 3; 4; 5; 6; 7; 8; 9; 0]).
Proof. repeat split; reflexivity. Qed.

(** In the padding layer itself channels_first is handled. *)
Example C19_case : padding_run (One 2) (One 1) 2 "same_equiv" "channels_first" (mkTensor [1; 1; 2; 2] [1; 2; 3; 4])
  = Ok (mkTensor [1; 1; 3; 3] [0; 0; 0; 0; 1; 2; 0; 3; 4]).
Proof. reflexivity. Qed.

(** C47: the accepted option names. *)
Theorem C47_accepted_options ks d st (po : option string) allow fmt tr :
  (exists L, padding_init ks d st po allow fmt tr = Ok L) \/ padding_init ks d st po allow fmt tr = Err TypeError.
Proof.
  unfold padding_init, format_padding_option. destruct po as [p|]; [|right; reflexivity].
  destruct (mem_str _ _); [left; eexists; reflexivity|right; reflexivity].
Qed.
Print Assumptions C47_accepted_options.

Theorem C47_accepted_iff_documented ks d st (po : option string) allow fmt tr :
  (exists L, padding_init ks d st po allow fmt tr = Ok L) <->
  exists p, po = Some p /\ In (lower p) ["same"; "valid"; "same_equiv"; "valid_equiv"].
Proof.
  assert (E : forall p, mem_str (upper p) ["SAME"; "VALID"; "SAME_EQUIV"; "VALID_EQUIV"] = true
                        <-> In (lower p) ["same"; "valid"; "same_equiv"; "valid_equiv"]).
  { intros p. rewrite mem_str_In. split; intros H.
    - rewrite <- lower_upper. destruct H as [<-|[<-|[<-|[<-|[]]]]]; cbn; tauto.
    - rewrite <- upper_lower. destruct H as [<-|[<-|[<-|[<-|[]]]]]; cbn; tauto. }
  unfold padding_init, format_padding_option. split.
  - intros [L H]. destruct po as [p|]; [|discriminate]. exists p. split; [reflexivity|]. apply E.
    destruct (mem_str _ _); [reflexivity|discriminate].
  - intros [p [-> H]]. apply E in H. rewrite H. eexists. reflexivity.
Qed.
Print Assumptions C47_accepted_iff_documented.

(** The option handed to the backend for the four names as documented. *)
Theorem C47_option_for_the_backend ks d st p allow fmt tr L (same equiv : bool) :
  p = append (if same then "same" else "valid") (if equiv then "_equiv" else "") ->
  padding_init ks d st (Some p) allow fmt tr = Ok L ->
  pl_built_in L = if same then "same" else "valid".
Proof.
  intros -> I. apply padding_init_inv in I as [_ [_ [E _]]]. rewrite E. destruct same, equiv; reflexivity.
Qed.
Print Assumptions C47_option_for_the_backend.

(** Another letter case of an '_equiv' option passes the check, but the suffix is
    then not removed and the Keras layer refuses the option. *)
Theorem C47_other_letter_case {A} dims tr (a : conv_args A) p (same : bool) :
  upper p = (if same then "SAME_EQUIV" else "VALID_EQUIV") -> endswith p "_equiv" = false ->
  ca_padding a = Some (Some p) -> exists e, conv_init dims tr a = Err e.
Proof.
  intros U E P. unfold conv_init.
  destruct (gt_init _ _ _ _ _ _ _ _ _) as [T|e] eqn:G; [|eexists; reflexivity]. cbn [bind].
  assert (B : pl_built_in (gt_padding T) = p).
  { unfold gt_init in G. rewrite P in G.
    destruct (match ca_group a with ByName s => dict_get group_dict s | Object G0 => Ok G0 end); [|discriminate]. cbn [bind] in G.
    destruct (match parse_subgroup _ _ with Some s => _ | None => _ end); [|discriminate]. cbn [bind] in G.
    destruct (if tr then _ else _) as [dm ac].
    destruct (padding_init _ _ _ _ _ _ _) as [L|] eqn:I; [|discriminate]. cbn [bind] in G.
    injection G as <-. cbn [gt_padding]. apply padding_init_inv in I as [_ [_ [BI _]]]. rewrite BI, E. reflexivity. }
  destruct (standardize_tuple dims _); [|eexists; reflexivity]. cbn [bind].
  destruct (standardize_tuple dims _); [|eexists; reflexivity]. cbn [bind].
  destruct (standardize_tuple dims _); [|eexists; reflexivity]. cbn [bind].
  rewrite B. unfold standardize_padding. rewrite <- lower_upper, U.
  exists ValueError. destruct same; reflexivity.
Qed.
Print Assumptions C47_other_letter_case.

(** So the backend does not get the name without '_equiv' in every letter case. *)
Theorem C47_any_letter_case_refuted :
  ~ (forall ks d st p allow fmt tr L, lower p = "same_equiv" ->
       padding_init ks d st (Some p) allow fmt tr = Ok L -> lower (pl_built_in L) = "same").
Proof.
  intros H. discriminate (H (One 3) 2 (One 1) "SAME_EQUIV" false "channels_last" false _ eq_refl eq_refl).
Qed.
Print Assumptions C47_any_letter_case_refuted.

Example C47_case : upper "Same_Equiv" = "SAME_EQUIV" /\ endswith "Same_Equiv" "_equiv" = false
  /\ padding_init (One 3) 2 (One 1) (Some "samE") false "channels_last" false
     = Ok (mkPadding "SAME" "samE" false 2 [1; 1]%Z [3; 3]%Z "channels_last" false None None)
  /\ padding_init (One 3) 2 (One 1) (Some "causal") false "channels_last" false = Err TypeError.
Proof. repeat split; reflexivity. Qed.
