(** C61: exactly when transposed convolution layers can be built. *)
From Verif Require Import BuildTheorems Properties_Padding Properties_Config Properties_Build.
Local Open Scope string_scope.
Local Open Scope list_scope.

(** The padding that padding.py:102-109 expects the backend to add to an axis. *)
Definition expected_total (transposed same : bool) (n k s : nat) : nat :=
  if same then backend_total true n k s else if transposed then s - k else 0.

Lemma padding_build_iff (ks st : size_arg) (d : nat) (k s : list nat) (p : string) (same allow : bool) (fmt : string) (L : padding_layer) (tr : bool) (opt : string) n bs cs :
  standardize_tuple d ks = Ok k -> standardize_tuple d st = Ok s ->
  padding_init ks d st (Some p) allow fmt tr = Ok L -> upper p = opt -> is_same opt = same ->
  List.length n = d -> is_plain opt && allow = false ->
  let t a := expected_total tr same (nth a n 0) (nth a k 0) (nth a s 0) in
  (if is_plain opt then
     ((forall a, a < d -> admissible (nth a n 0) (t a) (nth a k 0) (nth a s 0) 0) /\
      exists L', padding_build L (static_layout fmt bs n cs) = Ok L') \/
     ((exists a, a < d /\ ~ admissible (nth a n 0) (t a) (nth a k 0) (nth a s 0) 0) /\
      padding_build L (static_layout fmt bs n cs) = Err (padding_error L))
   else
     ((forall a, a < d -> exists e, admissible (nth a n 0) (t a) (nth a k 0) (nth a s 0) e) /\
      exists L', padding_build L (static_layout fmt bs n cs) = Ok L') \/
     ((exists a, a < d /\ forall e, ~ admissible (nth a n 0) (t a) (nth a k 0) (nth a s 0) e) /\
      padding_build L (static_layout fmt bs n cs) = Err (padding_error L))).
Proof.
  intros Hk Hs I O SM N PA t. apply padding_init_inv in I as [Eo [_ [_ [Ea [Ed [Es [Ek [Ef [Et [Ep _]]]]]]]]]].
  destruct (layer_axes ks st d k s n Hk Hs N) as [LL [An [Ak [As [Zk [Zs P]]]]]]. set (l := axes_of n k s) in *.
  assert (Lk : List.length k = d) by (apply standardize_tuple_inv in Hk as [E _]; exact E).
  assert (Ls : List.length s = d) by (apply standardize_tuple_inv in Hs as [E _]; exact E).
  assert (B : padding_build L (static_layout fmt bs n cs) =
    if forallb (fun q => extra_of same tr q =? 0)%nat l then Ok (set_needs L false (pl_pads L))
    else if is_plain opt then Err (padding_error L)
    else if forallb (fun q => Nat.even (assumed same tr q + extra_of same tr q)) l
         then Ok (set_needs L true (Some (split_padding L (zs (extra_of same tr) l))))
         else Err (padding_error L)).
  { rewrite <- Ef. rewrite (padding_build_eq L l bs cs n); [|congruence|congruence|intros q Q; apply P; exact Q|exact An|congruence].
    rewrite Eo, O, SM, Ea, Et, PA. reflexivity. }
  set (ex := extra_of same tr) in *. set (bi := assumed same tr) in *.
  assert (BI : forall a, a < d -> bi (nth a l (0, 0, 0)) = t a).
  { intros a Ha. unfold l. rewrite (nth_axes n k s d a) by assumption. reflexivity. }
  assert (PS : forall a, a < d -> 0 < nth a s 0).
  { intros a Ha. assert (Q : In (nth a l (0, 0, 0)) l) by (apply nth_In; lia). apply P in Q as [Q _].
    unfold l in Q. rewrite (nth_axes n k s d a) in Q by assumption. exact Q. }
  assert (XQ : forall a, a < d -> ex (nth a l (0, 0, 0)) = nextra (nth a n 0) (t a) (nth a k 0) (nth a s 0)).
  { intros a Ha. unfold ex, extra_of. fold bi. rewrite BI by exact Ha. unfold l. rewrite (nth_axes n k s d a) by assumption. reflexivity. }
  assert (ALL : forall f : axis -> bool, forallb f l = true <-> forall a, a < d -> f (nth a l (0, 0, 0)) = true).
  { intros f. rewrite forallb_forall. split.
    - intros H a Ha. apply H. apply nth_In. lia.
    - intros H q Q. apply (In_nth l q (0, 0, 0)) in Q as [a [Ha <-]]. apply H. lia. }
  assert (ANY : forall f : axis -> bool, forallb f l = false -> exists a, a < d /\ f (nth a l (0, 0, 0)) = false).
  { intros f H. clear -H LL. revert d LL. induction l as [|q l' IH]; intros d0 LL; [discriminate|].
    cbn in H. destruct (f q) eqn:Q.
    - cbn in H. destruct (IH H (List.length l') eq_refl) as [a [Ha E]]. exists (S a). cbn in LL. split; [lia|exact E].
    - exists 0. cbn in LL. split; [lia|exact Q]. }
  destruct (forallb (fun q => ex q =? 0)%nat l) eqn:Z.
  - assert (T : forall a, a < d -> admissible (nth a n 0) (t a) (nth a k 0) (nth a s 0) 0).
    { intros a Ha. assert (Z' := proj1 (ALL _) Z a Ha). apply Nat.eqb_eq in Z'. rewrite XQ in Z' by exact Ha.
      pose proof (nextra_good (nth a n 0) (t a) (nth a k 0) (nth a s 0) (PS a Ha)) as G.
      rewrite Z' in G. apply G. rewrite <- Z'. apply nextra_zero_even; [apply PS; exact Ha|exact Z']. }
    destruct (is_plain opt); left; (split; [|eexists; exact B]).
    + exact T.
    + intros a Ha. exists 0. apply T. exact Ha.
  - destruct (is_plain opt).
    + right. split; [|exact B]. apply ANY in Z as [a [Ha E]]. exists a. split; [exact Ha|]. intros AD.
      apply Nat.eqb_neq in E. rewrite XQ in E by exact Ha.
      pose proof (nextra_least _ _ _ _ 0 (PS a Ha) AD). lia.
    + destruct (forallb (fun q => Nat.even (bi q + ex q)) l) eqn:V.
      * left. split; [|eexists; exact B]. intros a Ha. exists (ex (nth a l (0, 0, 0))).
        assert (V' := proj1 (ALL _) V a Ha). apply Nat.even_spec in V'. rewrite BI in V' by exact Ha.
        rewrite XQ by exact Ha. apply nextra_good; [apply PS; exact Ha|]. rewrite <- XQ by exact Ha. exact V'.
      * right. split; [|exact B]. apply ANY in V as [a [Ha E]]. exists a. split; [exact Ha|]. intros e AD.
        pose proof (nextra_decides _ _ _ _ e (PS a Ha) AD) as EV. rewrite <- XQ in EV by exact Ha.
        rewrite <- BI in EV by exact Ha. apply Nat.even_spec in EV. congruence.
Qed.

Section Builds.
Context {A : Type} {RA : Arith A}.

(** In any dimension in which the group acts: *)
Lemma transposed_builds_at name G d E (a : conv_args A) H opt (valued : bool) bs m g c kinit binit L0 k s dl :
  group_ok G d E (needs_equal_sizes name) -> List.length E = List.length (symmetries_of name) ->
  layer_for name G a -> ca_subgroup a = Some H -> option_of a opt ->
  conv_init d true a = Ok L0 -> List.length m = d -> sizes d a k s dl ->
  let same := mem_str opt ["SAME"; "SAME_EQUIV"] in
  let t ax := if same then backend_total true (nth ax m 0) (nth ax k 0) (nth ax s 0) else nth ax s 0 - nth ax k 0 in
  ((exists L, conv_build L0 (static_signal_shape valued bs m g c) kinit binit = Ok L) <->
   ((valued = true -> exists idx, subgroup_indices G H idx /\ g = List.length idx) /\
    (if mem_str opt ["SAME"; "VALID"] then
       ca_allow a = true \/ forall ax, ax < d -> admissible (nth ax m 0) (t ax) (nth ax k 0) (nth ax s 0) 0
     else forall ax, ax < d -> exists e, admissible (nth ax m 0) (t ax) (nth ax k 0) (nth ax s 0) e) /\
    respects name k)).
Proof.
  intros OK LE LF HS [p [PN UP]] I Lm [SK [SS SD]] same t. pose proof LF as [DG [AG AF]].
  pose proof (conv_build_iff G d _ _ OK name true a L0 p k s dl valued bs m g c kinit binit DG AG AF I Lm PN SK SS SD) as BI. cbv zeta in BI.
  change (build_shape valued bs m g c) with (static_signal_shape valued bs m g c) in BI. rewrite BI. clear BI.
  destruct (conv_init_inv G d name true a L0 DG AG AF I) as [p0 [k0 [s0 [dl0 [Hn [PN0 [_ [_ [_ [_ [_ [MM [_ [_ [P [PI _]]]]]]]]]]]]]]]].
  unfold padding_name in PN0. rewrite PN in PN0. injection PN0 as <-. fold (strides_of a) in PI. rewrite UP in MM.
  assert (SM : is_same opt = same) by reflexivity.
  assert (C1 : exists act, sub_idx G (Some "") act) by (eexists; apply (sub_idx_whole _ _ _ _ OK)).
  rewrite HS.
  assert (C2 : (valued = true -> exists dom, sub_idx G (Some H) dom /\ g = List.length dom) <-> (valued = true -> exists idx, subgroup_indices G H idx /\ g = List.length idx)).
  { reflexivity. }
  set (C := if valued then g * c else c).
  assert (C3 : (exists P0 P', padding_init (ca_kernel_size a) d (strides_of a) (Some p) (ca_allow a) "channels_last" true = Ok P0 /\
                  padding_build P0 (bs :: map Some m ++ [Some C]) = Ok P') <->
     (if mem_str opt ["SAME"; "VALID"] then
       ca_allow a = true \/ forall ax, ax < d -> admissible (nth ax m 0) (t ax) (nth ax k 0) (nth ax s 0) 0
     else forall ax, ax < d -> exists e, admissible (nth ax m 0) (t ax) (nth ax k 0) (nth ax s 0) e)).
  { assert (SL : bs :: map Some m ++ [Some C] = static_layout "channels_last" bs m (Some C)) by reflexivity.
    destruct (is_plain opt && ca_allow a) eqn:PL.
    - apply andb_true_iff in PL as [PL AL]. unfold is_plain in PL. rewrite PL.
      destruct (C17_allowed_never_pads (A := A) (ca_kernel_size a) (strides_of a) d p (is_same opt) (ca_allow a) "channels_last" P true (bs :: map Some m ++ [Some C])) as [P' [Q _]].
      + rewrite UP. apply mem_str_In in PL. destruct PL as [<-|[<-|[]]]; reflexivity.
      + exact AL.
      + exact PI.
      + split; [intros _; left; exact AL|intros _; exists P, P'; split; [exact PI|exact Q]].
    - pose proof (padding_build_iff (ca_kernel_size a) (strides_of a) d k s p same (ca_allow a) "channels_last" P true opt m bs (Some C) SK SS PI UP SM Lm PL) as BF.
      cbv zeta in BF. rewrite <- SL in BF. change (is_plain opt) with (mem_str opt ["SAME"; "VALID"]) in BF, PL.
      change (fun ax => expected_total true same (nth ax m 0) (nth ax k 0) (nth ax s 0)) with t in BF.
      destruct (mem_str opt ["SAME"; "VALID"]).
      + cbn [andb] in PL. destruct BF as [[B1 [P' B2]]|[[ax [B1 B2]] B3]].
        * split; [intros _; right; exact B1|intros _; exists P, P'; split; [exact PI|exact B2]].
        * split; [intros [P0 [P' [Q1 Q2]]]; assert (P0 = P) as -> by congruence; congruence|].
          intros [Q|Q]; [congruence|]. exfalso. apply B2. apply Q. exact B1.
      + destruct BF as [[B1 [P' B2]]|[[ax [B1 B2]] B3]].
        * split; [intros _; exact B1|intros _; exists P, P'; split; [exact PI|exact B2]].
        * split; [intros [P0 [P' [Q1 Q2]]]; assert (P0 = P) as -> by congruence; congruence|].
          intros Q. exfalso. destruct (Q ax B1) as [e Q']. apply (B2 e). exact Q'. }
  rewrite <- C3. split.
  - intros [_ [Q1 [Q2 [_ Q3]]]]. split; [exact Q1|]. split; [exact Q2|exact Q3].
  - intros [Q1 [Q2 Q3]]. split; [exact C1|]. split; [exact Q1|]. split; [exact Q2|]. split; [discriminate|exact Q3].
Qed.

(** A transposed layer can be built exactly when a signal on the group lives on the
    listed subgroup that the layer starts from (a signal on the grid: no condition on
    the subgroup), the equivariance padding works out with the padding that the code
    expects from the backend, and the kernel is a square or cube if the group needs it.
    In contrast to ordinary layers the kernel may be larger than the input. *)
Theorem C61_when_transposed_convolutions_build name G (a : conv_args A) H opt (valued : bool) bs m g c kinit binit L0 k s dl :
  layer_for name G a -> ca_subgroup a = Some H -> option_of a opt ->
  let d := dimension_of name in
  conv_init d true a = Ok L0 -> List.length m = d -> sizes d a k s dl ->
  let same := mem_str opt ["SAME"; "SAME_EQUIV"] in
  let t ax := if same then backend_total true (nth ax m 0) (nth ax k 0) (nth ax s 0) else nth ax s 0 - nth ax k 0 in
  ((exists L, conv_build L0 (static_signal_shape valued bs m g c) kinit binit = Ok L) <->
   ((valued = true -> exists idx, subgroup_indices G H idx /\ g = List.length idx) /\
    (if mem_str opt ["SAME"; "VALID"] then
       ca_allow a = true \/ forall ax, ax < d -> admissible (nth ax m 0) (t ax) (nth ax k 0) (nth ax s 0) 0
     else forall ax, ax < d -> exists e, admissible (nth ax m 0) (t ax) (nth ax k 0) (nth ax s 0) e) /\
    respects name k)).
Proof.
  intros LF HS OP d I Lm SZ same t. pose proof LF as [DG _]. apply lib_ok in DG as [_ OK].
  exact (transposed_builds_at name G d _ a H opt valued bs m g c kinit binit L0 k s dl OK eq_refl LF HS OP I Lm SZ).
Qed.

(** With strides equal to the kernel size and 'valid' padding the input sizes must
    be multiples of the stride, although a transposed convolution without padding would
    be equivariant for every size (C26). *)
Theorem C61_stride_equal_to_kernel name G (a : conv_args A) H bs m c kinit binit L0 k dl :
  layer_for name G a -> ca_subgroup a = Some H -> option_of a "VALID" -> ca_allow a = false ->
  let d := dimension_of name in
  conv_init d true a = Ok L0 -> List.length m = d -> sizes d a k k dl -> respects name k ->
  ((exists L, conv_build L0 (static_signal_shape false bs m 0 c) kinit binit = Ok L) <->
   forall ax, ax < d -> Nat.divide (nth ax k 0) (nth ax m 0)).
Proof.
  intros LF HS OP AL d I Lm SZ RK.
  rewrite (C61_when_transposed_convolutions_build name G a H "VALID" false bs m 0 c kinit binit L0 k k dl LF HS OP I Lm SZ). fold d.
  change (mem_str "VALID" ["SAME"; "SAME_EQUIV"]) with false. change (mem_str "VALID" ["SAME"; "VALID"]) with true. cbv zeta iota.
  assert (PK : forall ax, ax < d -> 0 < nth ax k 0).
  { destruct SZ as [SK _]. apply (std_pos _ _ _ SK). }
  split.
  - intros [_ [[Q|Q] _]] ax Hax; [congruence|]. destruct (Q ax Hax) as [[q E] _]. specialize (PK ax Hax).
    rewrite Nat.sub_diag in E. exists (Z.to_nat (q + 1)%Z). assert (0 <= q + 1)%Z by nia. nia.
  - intros Q. split; [discriminate|]. split; [right|exact RK]. intros ax Hax. destruct (Q ax Hax) as [z E]. split.
    + exists (Z.of_nat z - 1)%Z. rewrite Nat.sub_diag. nia.
    + rewrite Nat.sub_diag. exists 0. reflexivity.
Qed.

End Builds.

(** P4 on 3x3 images, transposed: kernels larger than the input, strides with and without
    the right number of rows, kernels that are not squares; then signals on subgroups. *)
Example C61_case :
  let ok H k s p allow sh := is_ok (test_layer 2 true (mkConvArgs (ByName "P4") (Some H) k 1 s (Some (Some p)) None "channels_last" allow true (fun z => z)) sh some_weights some_weights) in
  let grid := [None; Some 3; Some 3; Some 2] in let sub g := [None; Some 3; Some 3; Some g; Some 2] in
  [ok "P4" (One 7) None "valid" false grid; ok "P4" (One 2) (Some (One 2)) "valid" false grid; ok "P4" (One 3) (Some (One 2)) "valid" false grid;
   ok "P4" (One 2) (Some (One 2)) "valid_equiv" false grid; ok "P4" (One 2) (Some (One 2)) "valid" true grid; ok "P4" (One 1) (Some (One 3)) "valid_equiv" false grid;
   ok "P4" (One 1) (Some (One 2)) "valid_equiv" false grid; ok "P4" (Tuple [1; 3]%Z) None "valid" false grid; ok "P4" (One 2) None "same" false grid; ok "P4" (One 2) None "same_equiv" false grid]
  = [true; false; true; false; true; true; true; false; false; true] /\
  [ok "P2" (One 3) None "valid" false (sub 2); ok "P2" (One 3) None "valid" false (sub 4); ok "P4" (One 3) None "valid" false (sub 4);
   ok "PMh" (One 3) None "valid" false (sub 2); ok "PMh" (One 3) None "valid" false grid]
  = [true; false; true; false; true].
Proof. vm_compute. auto. Qed.

Print Assumptions C61_when_transposed_convolutions_build.
Print Assumptions C61_stride_equal_to_kernel.
