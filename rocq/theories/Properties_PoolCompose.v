(** C97: two poolings without padding in a row are one. *)
From Coq Require Import Permutation.
From Verif Require Import BuildTheorems PoolSpec PoolFacts Properties_Pooling Properties_Groups Properties_PoolBuild Properties_PoolSteps Properties_Compose PoolSpec.
Local Open Scope string_scope.
Local Open Scope list_scope.

(** The value depends only on which values occur.  The maximum has this property. *)
Definition forgets_repeats {A} (f : list A -> A) : Prop := forall l l', (forall v, In v l <-> In v l') -> f l = f l'.

(** Nothing is padded: 'valid', or 'valid_equiv' (the default) with strides 1 or without strides. *)
Definition unpadded_pooling (d : nat) (a : pool_args) (s : list nat) : Prop :=
  pa_padding a = Some (Some "valid") \/
  (In (pa_padding a) [None; Some (Some "valid_equiv")] /\ (pa_strides a = None \/ forall ax, ax < d -> nth ax s 0 = 1)).

(** The subgroup [H], given by its name or, if it is the whole group, also by ''. *)
Definition means (name H' H : string) : Prop := H <> "" /\ (H' = H \/ (H' = "" /\ H = name)).

Section Compose.
Context {A : Type} {RA : Arith A} {PA : Pool A}.

(** Windows of windows. *)
Lemma windows_of_windows (f : list A -> A) d k1 s1 k2 k3 (ck ch cg : list nat) (pr : nat -> nat -> nat) (F : list nat -> nat -> A) :
  nests f -> order_irrelevant f -> List.length k1 = d -> List.length s1 = d -> List.length k2 = d -> List.length k3 = d ->
  (forall ax, ax < d -> 0 < nth ax k1 0 /\ 0 < nth ax s1 0 /\ 0 < nth ax k2 0 /\ nth ax k3 0 = nth ax s1 0 * (nth ax k2 0 - 1) + nth ax k1 0) ->
  ((forall ax, ax < d -> nth ax s1 0 = nth ax k1 0) \/ (forgets_repeats f /\ forall ax, ax < d -> nth ax s1 0 <= nth ax k1 0)) ->
  Permutation (flat_map (fun u => map (pr u) ch) ck) cg -> NoDup cg -> ck <> [] -> ch <> [] ->
  f (map (fun j2 => f (map (fun u => f (map (fun j1 => f (map (fun v => F (vzip Nat.add (vzip Nat.mul j2 s1) j1) (pr u v)) ch)) (indices k1))) ck)) (indices k2))
  = f (map (fun j3 => f (map (fun w => F j3 w) cg)) (indices k3)).
Proof.
  intros NS OI L1 Ls L2 L3 PO TI PM ND N1 N2.
  assert (P1 : 0 < prod k1) by (apply prod_pos; intros ax H; apply PO; lia).
  assert (P3 : 0 < prod k3) by (apply prod_pos; intros ax H; destruct (PO ax ltac:(lia)) as [Q1 [Q2 [Q3 Q4]]]; rewrite Q4; apply Nat.add_pos_r; exact Q1).
  assert (C1 : 0 < List.length ch) by (destruct ch; [contradiction|cbn [List.length]; lia]).
  assert (S1 : 0 < List.length ck) by (destruct ck; [contradiction|cbn [List.length]; lia]).
  assert (LC : List.length cg = List.length ck * List.length ch).
  { rewrite <- (Permutation_length PM). apply length_flat_map_const. intros u _. apply map_length. }
  assert (CG : 0 < List.length cg) by (rewrite LC; apply Nat.mul_pos_pos; assumption).
  set (FF := fun v : list nat * nat => F (fst v) (snd v)).
  set (Q := fun j2 u j1 => map (fun v => (vzip Nat.add (vzip Nat.mul j2 s1) j1, pr u v)) ch).
  set (big := flat_map (fun j2 => flat_map (fun u => flat_map (fun j1 => Q j2 u j1) (indices k1)) ck) (indices k2)).
  assert (MF : forall {B C D} (g : C -> D) (E : B -> list C) l, map g (flat_map E l) = flat_map (fun a => map g (E a)) l).
  { clear. intros B C D g E l. induction l as [|a l IH]; [reflexivity|]. cbn [flat_map]. rewrite map_app, IH. reflexivity. }
  assert (LQ : forall j2 u j1, List.length (map FF (Q j2 u j1)) = List.length ch) by (intros; unfold Q; rewrite !map_length; reflexivity).
  assert (LF : forall j2 u, List.length (flat_map (fun j1 => map FF (Q j2 u j1)) (indices k1)) = prod k1 * List.length ch).
  { intros j2 u. rewrite (length_flat_map_const _ _ (List.length ch)) by (intros; apply LQ). rewrite length_indices. reflexivity. }
  assert (LG : forall j2, List.length (flat_map (fun u => flat_map (fun j1 => map FF (Q j2 u j1)) (indices k1)) ck) = List.length ck * (prod k1 * List.length ch)).
  { intros j2. rewrite (length_flat_map_const _ _ (prod k1 * List.length ch)) by (intros; apply LF). reflexivity. }
  transitivity (f (map FF big)).
  { transitivity (f (map (fun j2 => f (flat_map (fun u => flat_map (fun j1 => map FF (Q j2 u j1)) (indices k1)) ck)) (indices k2))).
    - f_equal. apply map_ext. intros j2.
      rewrite <- (nests_flat f _ _ (prod k1 * List.length ch) NS); [|apply Nat.mul_pos_pos; assumption|intros u _; apply LF].
      f_equal. apply map_ext. intros u. rewrite <- (nests_flat f _ _ (List.length ch) NS); [|exact C1|intros j1 _; apply LQ].
      f_equal. apply map_ext. intros j1. f_equal. unfold Q. rewrite map_map. reflexivity.
    - rewrite (nests_flat f _ _ (List.length ck * (prod k1 * List.length ch)) NS);
        [|apply Nat.mul_pos_pos; [exact S1|apply Nat.mul_pos_pos; assumption]|intros j2 _; apply LG].
      f_equal. unfold big. rewrite MF. apply flat_map_ext. intros j2. rewrite MF. apply flat_map_ext. intros u. rewrite MF. reflexivity. }
  transitivity (f (map FF (list_prod (indices k3) cg))).
  2:{ rewrite (nests_flat f _ _ (List.length cg) NS) by (try assumption; intros p _; apply map_length).
      f_equal. clear. induction (indices k3) as [|p l IH]; [reflexivity|]. cbn [list_prod flat_map]. rewrite map_app, IH, map_map. reflexivity. }
  assert (PMI : forall w, In w cg <-> exists u v, In u ck /\ In v ch /\ w = pr u v).
  { intros w. split.
    - intros I. apply (Permutation_in _ (Permutation_sym PM)) in I. apply in_flat_map in I as [u [U I]]. apply in_map_iff in I as [v [<- V]]. exists u, v. tauto.
    - intros [u [v [U [V ->]]]]. apply (Permutation_in _ PM). apply in_flat_map. exists u. split; [exact U|]. apply in_map. exact V. }
  assert (BI : forall q, In q big -> In q (list_prod (indices k3) cg)).
  { intros [j w] I. unfold big in I. apply in_flat_map in I as [j2 [J2 I]]. apply in_flat_map in I as [u [U I]]. apply in_flat_map in I as [j1 [J1 I]].
    unfold Q in I. apply in_map_iff in I as [v [E V]]. assert (j = vzip Nat.add (vzip Nat.mul j2 s1) j1 /\ w = pr u v) as [-> ->] by (split; congruence). clear E.
    apply In_indices in J1, J2. pose proof (inb_length _ _ J1) as LJ1. pose proof (inb_length _ _ J2) as LJ2.
    assert (LV : List.length (vzip Nat.mul j2 s1) = d) by (rewrite length_vzip; lia).
    apply in_prod_iff. split; [|apply PMI; exists u, v; tauto].
    apply In_indices. apply inb_intro; [rewrite length_vzip; lia|]. rewrite L3. intros ax H. rewrite !nth_vzip by lia.
    destruct (PO ax H) as [Q1 [Q2 [Q3 ->]]]. pose proof (inb_nth _ _ ax J1 ltac:(lia)). pose proof (inb_nth _ _ ax J2 ltac:(lia)).
    assert (nth ax j2 0 * nth ax s1 0 <= nth ax s1 0 * (nth ax k2 0 - 1)) by (rewrite Nat.mul_comm; apply Nat.mul_le_mono_l; lia). lia. }
  assert (IB : (forall ax, ax < d -> nth ax s1 0 <= nth ax k1 0) -> forall q, In q (list_prod (indices k3) cg) -> In q big).
  { intros LE [j w] I. apply in_prod_iff in I as [J W]. apply In_indices in J. apply PMI in W as [u [v [U [V ->]]]].
    pose proof (inb_length _ _ J) as LJ.
    set (j2 := map (fun ax => Nat.min (nth ax j 0 / nth ax s1 0) (nth ax k2 0 - 1)) (seq 0 d)).
    set (j1 := map (fun ax => nth ax j 0 - nth ax j2 0 * nth ax s1 0) (seq 0 d)).
    assert (N2' : forall ax, ax < d -> nth ax j2 0 = Nat.min (nth ax j 0 / nth ax s1 0) (nth ax k2 0 - 1)).
    { intros ax H. unfold j2. rewrite (nth_indep _ 0 ((fun ax => Nat.min (nth ax j 0 / nth ax s1 0) (nth ax k2 0 - 1)) 0)) by (rewrite map_length, seq_length; exact H).
      rewrite (map_nth (fun ax => Nat.min (nth ax j 0 / nth ax s1 0) (nth ax k2 0 - 1))). rewrite seq_nth by exact H. reflexivity. }
    assert (N1' : forall ax, ax < d -> nth ax j1 0 = nth ax j 0 - nth ax j2 0 * nth ax s1 0).
    { intros ax H. unfold j1. rewrite (nth_indep _ 0 ((fun ax => nth ax j 0 - nth ax j2 0 * nth ax s1 0) 0)) by (rewrite map_length, seq_length; exact H).
      rewrite (map_nth (fun ax => nth ax j 0 - nth ax j2 0 * nth ax s1 0)). rewrite seq_nth by exact H. reflexivity. }
    assert (LJ1 : List.length j1 = d) by (unfold j1; rewrite map_length, seq_length; reflexivity).
    assert (LJ2 : List.length j2 = d) by (unfold j2; rewrite map_length, seq_length; reflexivity).
    assert (K : forall ax, ax < d -> nth ax j2 0 < nth ax k2 0 /\ nth ax j2 0 * nth ax s1 0 <= nth ax j 0 /\ nth ax j 0 - nth ax j2 0 * nth ax s1 0 < nth ax k1 0).
    { intros ax H. destruct (PO ax H) as [Q1 [Q2 [Q3 Q4]]]. pose proof (inb_nth _ _ ax J ltac:(lia)) as JA. specialize (LE ax H). rewrite (N2' ax H).
      set (a := nth ax j 0) in *. set (s := nth ax s1 0) in *. pose proof (Nat.div_mod a s ltac:(lia)) as DM. pose proof (Nat.mod_upper_bound a s ltac:(lia)) as MB.
      set (q := a / s) in *. split; [lia|]. destruct (Nat.le_ge_cases q (nth ax k2 0 - 1)) as [QL|QL].
      - rewrite Nat.min_l by exact QL. lia.
      - rewrite Nat.min_r by exact QL. assert (s * (nth ax k2 0 - 1) <= s * q) by (apply Nat.mul_le_mono_l; exact QL). lia. }
    unfold big. apply in_flat_map. exists j2. split.
    { apply In_indices. apply inb_intro; [lia|]. rewrite L2. intros ax H. apply K. exact H. }
    apply in_flat_map. exists u. split; [exact U|]. apply in_flat_map. exists j1. split.
    { apply In_indices. apply inb_intro; [lia|]. rewrite L1. intros ax H. rewrite (N1' ax H). apply K. exact H. }
    unfold Q. apply in_map_iff. exists v. split; [|exact V]. f_equal.
    assert (LV : List.length (vzip Nat.mul j2 s1) = d) by (rewrite length_vzip; lia).
    apply nth_ext0; [rewrite length_vzip; lia|]. intros ax H. rewrite length_vzip in H by lia. rewrite !nth_vzip by lia. rewrite (N1' ax ltac:(lia)).
    destruct (K ax ltac:(lia)) as [_ [K1 _]]. lia. }
  destruct TI as [TI|[FR LE]].
  - apply OI. apply Permutation_map. apply Permutation_sym. apply NoDup_Permutation_bis.
    + apply NoDup_list_prod; [apply NoDup_indices|exact ND].
    + rewrite prod_length, length_indices. unfold big.
      rewrite (length_flat_map_const _ _ (List.length ck * (prod k1 * List.length ch))).
      * rewrite length_indices, LC. assert (PP : prod k3 = prod k2 * prod k1).
        { clear -L1 Ls L2 L3 PO TI. revert L1 Ls L2 L3 PO TI. revert d k1 s1 k3. induction k2 as [|v k2 IH]; intros d k1 s1 k3 L1 Ls L2 L3 PO TI.
          - destruct d as [|d]; [|discriminate L2]. destruct k1; [|discriminate L1]. destruct k3; [reflexivity|discriminate L3].
          - destruct d as [|d]; [discriminate L2|]. destruct k1 as [|v1 k1]; [discriminate L1|]. destruct k3 as [|v3 k3]; [discriminate L3|]. destruct s1 as [|w s1]; [discriminate Ls|].
            change (v3 * prod k3 = v * prod k2 * (v1 * prod k1)).
            rewrite (IH d k1 s1 k3); try (cbn [List.length] in *; lia).
            + destruct (PO 0 ltac:(lia)) as [Q1 [Q2 [Q3 Q4]]]. cbn [nth] in *. pose proof (TI 0 ltac:(lia)) as T. cbn [nth] in T. subst w.
              rewrite Q4. replace (v1 * (v - 1) + v1) with (v1 * v) by (destruct v; [lia|]; cbn [Nat.sub]; rewrite Nat.sub_0_r; lia). ring.
            + intros ax H. apply (PO (S ax)). lia.
            + intros ax H. apply (TI (S ax)). lia. }
        rewrite PP. apply Nat.eq_le_incl. ring.
      * intros j2 _. rewrite (length_flat_map_const _ _ (prod k1 * List.length ch)); [reflexivity|].
        intros u _. rewrite (length_flat_map_const _ _ (List.length ch)); [rewrite length_indices; reflexivity|]. intros j1 _. unfold Q. apply map_length.
    + intros q I. apply IB; [|exact I]. intros ax H. rewrite (TI ax H). apply le_n.
  - apply FR. intros v. rewrite !in_map_iff. split; intros [q [E I]]; exists q; (split; [exact E|]); [apply BI|apply IB]; assumption.
Qed.

(** What a layer without padding is. *)
Lemma unpadded_facts name G (a : pool_args) d t H' H bs m g c L k s :
  pooling_for name G a -> pa_subgroup a = Some H' -> means name H' H ->
  pooling_built d t a (bs :: map Some m ++ [Some g; Some c]) L -> List.length m = d -> pool_sizes d a k s -> unpadded_pooling d a s ->
  exists sub cos, dict_get (g_subgroup G) H = Ok sub /\ dict_get (g_cosets G) H = Ok cos /\ g = List.length (symmetries_of name) /\
    pool_facts (A := A) G d (symmetries_of name) sub cos k s (zeros_of d) (zeros_of d) false t L.
Proof.
  intros [DG [AG AF]] HS [NE ME] [L0 [I B]] Lm [SK SS] UN.
  pose proof DG as DG'. apply lib_ok in DG' as [NG OK].
  assert (PD : mem_str (lower (po_padding L)) ["valid"; "same"] = true).
  { clear - I B UN. unfold pool_init, gt_init in I.
    destruct (match pa_group a with ByName s => dict_get group_dict s | Object G => Ok G end) as [G0|]; [|discriminate I]. cbn [bind] in I.
    destruct (match parse_subgroup G0 (pa_subgroup a) with None => Err KeyError | Some s => dict_get group_dict s end) as [K|]; [|discriminate I]. cbn [bind] in I. cbv zeta in I.
    destruct (padding_init _ _ _ _ _ _ _) as [P|] eqn:PI; [|discriminate I]. cbn [bind] in I.
    destruct (standardize_tuple d (pa_pool_size a)); [|discriminate I]. cbn [bind] in I.
    destruct (standardize_tuple d _); [|discriminate I]. cbn [bind] in I.
    destruct (standardize_format _); [|discriminate I]. cbn [bind] in I.
    assert (EO : forall u v : pool_layer, Ok u = Ok v -> u = v) by congruence. apply EO in I. subst L0.
    unfold pool_build in B. destruct (gt_build _ _) as [T1|]; [|discriminate B]. cbn [bind] in B.
    destruct (gt_build_pool T1) as [T2|]; [|discriminate B]. cbn [bind] in B. apply EO in B. subst L. cbn [po_padding po_set_gt gt_padding].
    assert (PP : match pa_padding a with Some p => p | None => Some "valid_equiv" end = Some "valid" \/ match pa_padding a with Some p => p | None => Some "valid_equiv" end = Some "valid_equiv").
    { destruct UN as [->|[[E|[E|[]]] _]]; [left; reflexivity|rewrite <- E; right; reflexivity|rewrite <- E; right; reflexivity]. }
    destruct PP as [PP|PP]; rewrite PP in PI; unfold padding_init in PI; cbn in PI;
      repeat (match type of PI with context [match ?e with _ => _ end] => destruct e; try discriminate PI end);
      assert (EP : forall u v : padding_layer, Ok u = Ok v -> u = v) by congruence; apply EP in PI; subst P; reflexivity. }
  destruct (pool_build_inv (A := A) G d _ _ OK name t a L0 bs m g c L DG AG AF I Lm B)
    as [p' [k' [s0 [s' [eb [ea [sub [cos [Hn [PN' [SK' [SS0 [SS' [WO [PS [DS [DC [SA [GN [F _]]]]]]]]]]]]]]]]]]]].
  specialize (F PD).
  assert (k' = k) by congruence. subst k'. assert (s0 = s) by (unfold pool_strides in SS0; congruence). subst s0.
  assert (HN : Hn = H).
  { rewrite HS in PS. unfold parse_subgroup in PS. destruct ME as [->|[-> ->]].
    - destruct (String.eqb_spec H "") as [Q|_]; [contradiction|]. congruence.
    - cbn [String.eqb] in PS. congruence. }
  subst Hn. exists sub, cos. split; [exact DS|]. split; [exact DC|]. split; [exact GN|].
  assert (PP : (p' = "valid" \/ p' = "valid_equiv") /\ (p' = "valid_equiv" -> pa_strides a = None \/ forall ax, ax < d -> nth ax s 0 = 1)).
  { unfold pool_padding_name in PN'. destruct UN as [E|[[E|[E|[]]] Q]]; [rewrite E in PN'|rewrite <- E in PN'|rewrite <- E in PN'];
      assert (ES : forall u v : string, Some u = Some v -> u = v) by congruence; apply ES in PN'; subst p'.
    - split; [left; reflexivity|]. discriminate.
    - split; [right; reflexivity|]. intros _. exact Q.
    - split; [right; reflexivity|]. intros _. exact Q. }
  destruct PP as [PP PE].
  assert (SM : is_same (upper p') = false) by (destruct PP as [->| ->]; reflexivity). rewrite SM in *.
  assert (Z1 : eb = zeros_of d /\ ea = zeros_of d).
  { destruct WO as [L1' [L2' [[_ [-> ->]]|[_ Q]]]]; [split; reflexivity|].
    assert (R : forall ax, ax < d -> nth ax eb 0 = 0 /\ nth ax ea 0 = 0).
    { intros ax Ha. destruct (Q ax Ha) as [E [_ [E1 [E2 E3]]]]. cbv zeta in *.
      assert (N0 : nth ax eb 0 + nth ax ea 0 = 0).
      { destruct PP as [->| ->]; [apply E3; reflexivity|].
        rewrite E. unfold assumed_strides in SS'. destruct (PE eq_refl) as [PST|ONE].
        - rewrite PST, std_unit in SS'. assert (EE : forall u v : list nat, Ok u = Ok v -> u = v) by congruence. apply EE in SS'. subst s'.
          assert (R1 : nth ax (repeat 1 d) 0 = 1) by (apply nth_ones; exact Ha). rewrite R1. apply nextra_unit. exists 0. reflexivity.
        - assert (R1 : nth ax s' 0 = 1).
          { destruct (pa_strides a) as [st|]; [assert (s' = s) by congruence; subst s'; apply ONE; exact Ha|].
            rewrite std_unit in SS'. assert (EE : forall u v : list nat, Ok u = Ok v -> u = v) by congruence. apply EE in SS'. subst s'. apply nth_ones. exact Ha. }
          rewrite R1. apply nextra_unit. exists 0. reflexivity. }
      lia. }
    split; apply nth_ext0; unfold zeros_of; rewrite ?repeat_length; try assumption; intros ax Ha; rewrite nth_repeat; apply R; lia. }
  destruct Z1 as [-> ->]. exact F.
Qed.

(** C97: a pooling of windows [k1] with strides [s1] from the group to [H], and a pooling of
    windows [k2] with strides [s2] from [H] to [K], are one pooling.  The windows of the first
    must be tiles, or overlap if the pooling does not mind repeated values. *)
Theorem C97_two_poolings_are_one name G H Hg K d t (a1 a2 a3 : pool_args) H1 K2 K3 bs1 bs2 bs3 m1 m2 m3 g g' c L1 L2 L3 k1 s1 k2 s2 k3 s3 :
  nests (max_or_mean (A := A) t) -> order_irrelevant (max_or_mean (A := A) t) ->
  pooling_for name G a1 -> pooling_for H Hg a2 -> pooling_for name G a3 ->
  pa_subgroup a1 = Some H1 -> means name H1 H -> pa_subgroup a2 = Some K2 -> means H K2 K -> pa_subgroup a3 = Some K3 -> means name K3 K ->
  ~ In (name, H, K) mismatched ->
  pooling_built d t a1 (bs1 :: map Some m1 ++ [Some g; Some c]) L1 -> List.length m1 = d -> pool_sizes d a1 k1 s1 -> unpadded_pooling d a1 s1 ->
  pooling_built d t a2 (bs2 :: map Some m2 ++ [Some g'; Some c]) L2 -> List.length m2 = d -> pool_sizes d a2 k2 s2 -> unpadded_pooling d a2 s2 ->
  pooling_built d t a3 (bs3 :: map Some m3 ++ [Some g; Some c]) L3 -> List.length m3 = d -> pool_sizes d a3 k3 s3 -> unpadded_pooling d a3 s3 ->
  ((forall ax, ax < d -> nth ax s1 0 = nth ax k1 0) \/
   (forgets_repeats (max_or_mean (A := A) t) /\ forall ax, ax < d -> nth ax s1 0 <= nth ax k1 0)) ->
  (forall ax, ax < d -> nth ax k3 0 = nth ax s1 0 * (nth ax k2 0 - 1) + nth ax k1 0) ->
  (forall ax, ax < d -> nth ax s3 0 = nth ax s1 0 * nth ax s2 0) ->
  forall (x : tensor A) b m, wf x -> List.length m = d -> shape x = b :: m ++ [g; c] ->
  pool_call L3 x = (y <- pool_call L1 x ;; pool_call L2 y).
Proof.
  intros NS OI P1 P2 P3 S1 M1 S2 M2 S3 M3 NM B1 Lm1 Z1 U1 B2 Lm2 Z2 U2 B3 Lm3 Z3 U3 TI K3E S3E x b m W Lm SX.
  pose proof (proj1 P1) as DG. pose proof (proj1 P2) as DH.
  destruct (unpadded_facts _ _ _ _ _ _ _ _ _ _ _ _ _ _ P1 S1 M1 B1 Lm1 Z1 U1) as [ih [ch [DI [DC1 [GN F1]]]]].
  destruct (unpadded_facts _ _ _ _ _ _ _ _ _ _ _ _ _ _ P2 S2 M2 B2 Lm2 Z2 U2) as [sk [ck [DS2 [DC2 [GN' F2]]]]].
  destruct (unpadded_facts _ _ _ _ _ _ _ _ _ _ _ _ _ _ P3 S3 M3 B3 Lm3 Z3 U3) as [sg [cg [DS3 [DC3 [_ F3]]]]].
  destruct (C14_subgroup_lists name G H ih DG DI) as [_ [_ [BI [_ [Hg' [DH' [ORD [_ [CM [_ SL]]]]]]]]]].
  assert (EH : Hg' = Hg) by congruence. subst Hg'. clear DH'.
  pose proof DG as DG'. apply lib_ok in DG' as [_ OKG]. pose proof DH as DH'. apply lib_ok in DH' as [_ OKH].
  pose proof (ok_order _ _ _ _ OKG) as GO. pose proof (ok_order _ _ _ _ OKH) as HO. rewrite ORD in HO.
  pose proof (ok_is_group _ _ _ _ OKG) as IG.
  assert (DKn : exists Kg, dict_get group_dict K = Ok Kg) by (destruct (lib_sub _ _ _ _ DH DS2) as [Kg [DK _]]; exists Kg; exact DK).
  destruct DKn as [Kg DK].
  destruct (chain_products _ _ _ _ _ _ _ _ DG DH NM DI DC1 DC2 (dict_get_key _ _ _ DK)) as [sg' [cg' [E1 [E2 PM]]]].
  assert (sg' = sg) by congruence. assert (cg' = cg) by congruence. subst sg' cg'. clear E1 E2.
  pose proof (SL K sk sg DS2 DS3) as SG.
  assert (NS1 : ih <> []) by (destruct (ok_sub _ _ _ _ OKG _ _ DI) as [_ [_ [Q _]]]; intros ->; discriminate Q).
  assert (NS2 : sk <> []) by (destruct (ok_sub _ _ _ _ OKH _ _ DS2) as [_ [_ [Q _]]]; intros ->; discriminate Q).
  assert (NS3 : sg <> []) by (destruct (ok_sub _ _ _ _ OKG _ _ DS3) as [_ [_ [Q _]]]; intros ->; discriminate Q).
  assert (LSS : List.length sk = List.length sg) by (rewrite <- SG, map_length; reflexivity).
  destruct (ok_cos _ _ _ _ OKG _ _ DI) as [ch' [E [NDh [BC [_ LEh]]]]]. assert (ch' = ch) by congruence. subst ch'. clear E.
  destruct (ok_cos _ _ _ _ OKH _ _ DS2) as [ck' [E [NDk [BK [_ LEk]]]]]. assert (ck' = ck) by congruence. subst ck'. clear E.
  destruct (ok_cos _ _ _ _ OKG _ _ DS3) as [cg' [E [NDg [BG [_ LEg]]]]]. assert (cg' = cg) by congruence. subst cg'. clear E.
  pose proof (ok_pos _ _ _ _ OKG) as POG. pose proof (ok_pos _ _ _ _ OKH) as POH.
  assert (NC1 : ch <> []) by (intros ->; cbn [List.length] in LEh; lia).
  assert (NC2 : ck <> []) by (intros ->; cbn [List.length] in LEk; lia).
  subst g. assert (EX : x = tab (b :: m ++ [List.length (symmetries_of name); c]) (sig4 d (fun4 x))) by (apply tensor_sig4; assumption).
  rewrite EX.
  rewrite (tiles_call d t L3 G _ _ _ OKG sg cg k3 s3 b m c (fun4 x) F3 NS3 Lm).
  rewrite (tiles_call d t L1 G _ _ _ OKG ih ch k1 s1 b m c (fun4 x) F1 NS1 Lm).
  assert (Lk1 : List.length k1 = d) by apply (pf_k _ _ _ _ _ _ _ _ _ _ _ _ F1).
  assert (Lk2 : List.length k2 = d) by apply (pf_k _ _ _ _ _ _ _ _ _ _ _ _ F2).
  assert (Lk3 : List.length k3 = d) by apply (pf_k _ _ _ _ _ _ _ _ _ _ _ _ F3).
  assert (Ls1 : List.length s1 = d) by apply (pf_s _ _ _ _ _ _ _ _ _ _ _ _ F1).
  assert (Ls2 : List.length s2 = d) by apply (pf_s _ _ _ _ _ _ _ _ _ _ _ _ F2).
  assert (Ls3 : List.length s3 = d) by apply (pf_s _ _ _ _ _ _ _ _ _ _ _ _ F3).
  assert (PO : forall ax, ax < d -> 0 < nth ax k1 0 /\ 0 < nth ax s1 0 /\ 0 < nth ax k2 0 /\ nth ax k3 0 = nth ax s1 0 * (nth ax k2 0 - 1) + nth ax k1 0).
  { intros ax Hax. split; [apply (pf_kpos _ _ _ _ _ _ _ _ _ _ _ _ F1); exact Hax|]. split; [apply (pf_spos _ _ _ _ _ _ _ _ _ _ _ _ F1); exact Hax|].
    split; [apply (pf_kpos _ _ _ _ _ _ _ _ _ _ _ _ F2); exact Hax|]. apply K3E. exact Hax. }
  assert (PS2 : forall ax, ax < d -> 0 < nth ax s2 0) by apply (pf_spos _ _ _ _ _ _ _ _ _ _ _ _ F2).
  assert (FBI : forall k n : list nat, List.length k = d -> List.length n = d -> (forall ax, ax < d -> nth ax k 0 <= nth ax n 0) -> forallb (fun p => fst p <=? snd p)%nat (combine k n) = true).
  { clear. intros k n. revert d n. induction k as [|u k IH]; intros d n Lk Ln Q; [reflexivity|]. destruct n as [|v n]; [reflexivity|].
    cbn [combine forallb fst snd]. cbn [List.length] in Lk, Ln. subst d. apply andb_true_iff. split; [apply Nat.leb_le; apply (Q 0); lia|].
    apply (IH (List.length k)); [reflexivity|lia|]. intros ax Hax. apply (Q (S ax)). lia. }
  assert (LO1 : List.length (outs m k1 s1) = d) by (apply length_outs; assumption).
  destruct (forallb (fun p => fst p <=? snd p)%nat (combine k1 m)) eqn:FB1.
  2:{ cbn [bind]. destruct (forallb _ (combine k3 m)) eqn:FB3; [|reflexivity]. exfalso.
      pose proof (forallb_combine_le k3 m d Lk3 Lm FB3) as KM. rewrite FBI in FB1; [discriminate FB1|assumption|assumption|].
      intros ax Hax. specialize (KM ax Hax). rewrite (K3E ax Hax) in KM. eapply Nat.le_trans; [apply Nat.le_add_l|exact KM]. }
  cbn [bind]. pose proof (forallb_combine_le k1 m d Lk1 Lm FB1) as KM1.
  set (Y := fun (bi : nat) (p : list nat) (h q : nat) =>
     pool_fun (A := A) t (map (fun j => pool_fun t (map (fun e => fun4 x bi (vzip Nat.add (vzip Nat.mul p s1) j) (comp G (nth h ih 0) e) q) ch)) (indices k1))).
  replace (List.length ih) with (List.length (symmetries_of H)) by (symmetry; exact HO).
  change (tab (b :: outs m k1 s1 ++ [List.length (symmetries_of H); c]) _) with (tab (b :: outs m k1 s1 ++ [List.length (symmetries_of H); c]) (sig4 d Y)).
  rewrite (tiles_call d t L2 Hg _ _ _ OKH sk ck k2 s2 b (outs m k1 s1) c Y F2 NS2 LO1).
  assert (OUT : forall ax, ax < d -> nth ax (outs m k1 s1) 0 = S ((nth ax m 0 - nth ax k1 0) / nth ax s1 0)).
  { intros ax Hax. rewrite (nth_outs _ _ _ d) by assumption. unfold out_size. specialize (KM1 ax Hax). lia. }
  assert (GE : forall ax, ax < d -> (nth ax k2 0 <= nth ax (outs m k1 s1) 0 <-> nth ax k3 0 <= nth ax m 0)).
  { intros ax Hax. rewrite (OUT ax Hax), (K3E ax Hax). destruct (PO ax Hax) as [Q1 [Q2 [Q3 _]]]. specialize (KM1 ax Hax).
    set (q := (nth ax m 0 - nth ax k1 0) / nth ax s1 0). split; intros Q.
    - assert (nth ax s1 0 * (nth ax k2 0 - 1) <= nth ax s1 0 * q) by (apply Nat.mul_le_mono_l; lia).
      pose proof (Nat.mul_div_le (nth ax m 0 - nth ax k1 0) (nth ax s1 0) ltac:(lia)). fold q in H2. lia.
    - assert (nth ax k2 0 - 1 <= q) by (apply Nat.div_le_lower_bound; lia). lia. }
  destruct (forallb (fun p => fst p <=? snd p)%nat (combine k3 m)) eqn:FB3.
  2:{ destruct (forallb _ (combine k2 _)) eqn:FB2; [|reflexivity]. exfalso. pose proof (forallb_combine_le k2 _ d Lk2 LO1 FB2) as KM2.
      rewrite FBI in FB3; [discriminate FB3|assumption|assumption|]. intros ax Hax. apply GE; [exact Hax|]. apply KM2. exact Hax. }
  pose proof (forallb_combine_le k3 m d Lk3 Lm FB3) as KM3.
  rewrite (FBI k2 (outs m k1 s1)) by (solve [assumption|intros ax Hax; apply GE; [exact Hax|apply KM3; exact Hax]]).
  assert (LO3 : List.length (outs m k3 s3) = d) by (apply length_outs; assumption).
  assert (OO : outs (outs m k1 s1) k2 s2 = outs m k3 s3).
  { apply nth_ext0; [rewrite (length_outs _ _ _ d) by assumption; lia|]. intros ax Hax. rewrite (length_outs _ _ _ d) in Hax by assumption.
    rewrite (nth_outs _ _ _ d) by assumption. rewrite (nth_outs m k3 s3 d) by assumption. unfold out_size. rewrite (OUT ax Hax), (K3E ax Hax), (S3E ax Hax).
    destruct (PO ax Hax) as [Q1 [Q2 [Q3 _]]]. specialize (KM1 ax Hax). specialize (PS2 ax Hax). pose proof (proj2 (GE ax Hax) (KM3 ax Hax)) as G1. rewrite (OUT ax Hax) in G1.
    specialize (KM3 ax Hax). rewrite (K3E ax Hax) in KM3.
    set (u := nth ax m 0) in *. set (a := nth ax k1 0) in *. set (s := nth ax s1 0) in *. set (v := nth ax k2 0) in *. set (r := nth ax s2 0) in *.
    assert (DD : (u - (s * (v - 1) + a)) / s = (u - a) / s - (v - 1)).
    { replace (u - (s * (v - 1) + a)) with ((u - a) - (v - 1) * s) by lia.
      assert (XX : (u - a) = ((u - a) - (v - 1) * s) + (v - 1) * s) by lia. rewrite XX at 2. rewrite Nat.div_add by lia. lia. }
    rewrite <- (Nat.div_div (u - (s * (v - 1) + a)) s r) by lia. rewrite DD.
    replace (S ((u - a) / s) - v) with ((u - a) / s - (v - 1)) by lia. reflexivity. }
  rewrite OO. f_equal. rewrite LSS. apply sig4_ext; [exact LO3|]. intros bi p h q Bi P Hh Q. rewrite <- LSS in Hh.
  pose proof (inb_length _ _ P) as LP. rewrite LO3 in LP. unfold Y. symmetry.
  assert (HS : nth h sg 0 = nth (nth h sk 0) ih 0).
  { rewrite <- SG. rewrite (nth_indep _ 0 ((fun a => nth a ih 0) 0)) by (rewrite map_length; exact Hh). apply (map_nth (fun a => nth a ih 0)). }
  assert (BSK : forall v, In v sk -> v < List.length ih) by (rewrite HO; destruct (ok_sub _ _ _ _ OKH _ _ DS2) as [_ [Q0 _]]; exact Q0).
  rewrite <- (windows_of_windows (pool_fun (A := A) t) d k1 s1 k2 k3 ck ch cg (fun u v => comp G (nth u ih 0) v)
     (fun j w => fun4 x bi (vzip Nat.add (vzip Nat.mul p s3) j) (comp G (nth h sg 0) w) q) NS OI Lk1 Ls1 Lk2 Lk3 PO TI PM NDg NC2 NC1).
  f_equal. apply map_ext_in. intros j2 J2. apply In_indices in J2. pose proof (inb_length _ _ J2) as LJ2. f_equal. apply map_ext_in. intros u U. f_equal.
  apply map_ext_in. intros j1 J1. apply In_indices in J1. pose proof (inb_length _ _ J1) as LJ1. f_equal. apply map_ext_in. intros v V.
  assert (EL : comp G (nth (comp Hg (nth h sk 0) u) ih 0) v = comp G (nth h sg 0) (comp G (nth u ih 0) v)).
  { rewrite CM; [|apply BSK, nth_In; exact Hh|rewrite HO; apply BK; exact U]. rewrite HS. symmetry. apply (group_assoc _ _ _ IG).
    - rewrite <- GO. apply BI, nth_In, BSK, nth_In. exact Hh.
    - rewrite <- GO. apply BI, nth_In. rewrite HO. apply BK. exact U.
    - apply BC. exact V. }
  rewrite EL. f_equal.
  assert (LA : List.length (vzip Nat.mul p s2) = d) by (rewrite length_vzip; lia).
  assert (LB : List.length (vzip Nat.add (vzip Nat.mul p s2) j2) = d) by (rewrite length_vzip; lia).
  assert (LD : List.length (vzip Nat.mul (vzip Nat.add (vzip Nat.mul p s2) j2) s1) = d) by (rewrite length_vzip; lia).
  assert (LE : List.length (vzip Nat.mul j2 s1) = d) by (rewrite length_vzip; lia).
  assert (LF : List.length (vzip Nat.add (vzip Nat.mul j2 s1) j1) = d) by (rewrite length_vzip; lia).
  assert (LG : List.length (vzip Nat.mul p s3) = d) by (rewrite length_vzip; lia).
  apply nth_ext0; [rewrite !length_vzip; lia|]. intros ax Hax. rewrite length_vzip in Hax by lia.
  rewrite !nth_vzip by lia. rewrite (S3E ax ltac:(lia)). ring.
Qed.

(** The one layer can be built, for every size. *)
Theorem C97_the_layer_exists name G H Hg K d t (a1 a2 : pool_args) H1 K2 bs1 bs2 m1 m2 g g' c L1 L2 k1 s1 k2 s2 :
  nests (max_or_mean (A := A) t) -> order_irrelevant (max_or_mean (A := A) t) ->
  pooling_for name G a1 -> pooling_for H Hg a2 ->
  pa_subgroup a1 = Some H1 -> means name H1 H -> pa_subgroup a2 = Some K2 -> means H K2 K -> ~ In (name, H, K) mismatched ->
  pooling_built d t a1 (bs1 :: map Some m1 ++ [Some g; Some c]) L1 -> List.length m1 = d -> pool_sizes d a1 k1 s1 -> unpadded_pooling d a1 s1 ->
  pooling_built d t a2 (bs2 :: map Some m2 ++ [Some g'; Some c]) L2 -> List.length m2 = d -> pool_sizes d a2 k2 s2 -> unpadded_pooling d a2 s2 ->
  ((forall ax, ax < d -> nth ax s1 0 = nth ax k1 0) \/
   (forgets_repeats (max_or_mean (A := A) t) /\ forall ax, ax < d -> nth ax s1 0 <= nth ax k1 0)) ->
  exists a3, pooling_for name G a3 /\ pa_subgroup a3 = Some K /\
  forall bs3 m3, List.length m3 = d ->
  exists L3, pooling_built d t a3 (bs3 :: map Some m3 ++ [Some g; Some c]) L3 /\
  forall (x : tensor A) b m, wf x -> List.length m = d -> shape x = b :: m ++ [g; c] ->
  pool_call L3 x = (y <- pool_call L1 x ;; pool_call L2 y).
Proof.
  intros NS OI P1 P2 S1 M1 S2 M2 NM B1 Lm1 Z1 U1 B2 Lm2 Z2 U2 TI.
  pose proof (proj1 P1) as DG. pose proof (proj1 P2) as DH.
  destruct (unpadded_facts _ _ _ _ _ _ _ _ _ _ _ _ _ _ P1 S1 M1 B1 Lm1 Z1 U1) as [ih [ch [DI [DC1 [GN F1]]]]].
  destruct (unpadded_facts _ _ _ _ _ _ _ _ _ _ _ _ _ _ P2 S2 M2 B2 Lm2 Z2 U2) as [sk [ck [DS2 [DC2 [GN' F2]]]]].
  assert (Lk1 : List.length k1 = d) by apply (pf_k _ _ _ _ _ _ _ _ _ _ _ _ F1).
  assert (Lk2 : List.length k2 = d) by apply (pf_k _ _ _ _ _ _ _ _ _ _ _ _ F2).
  assert (Ls1 : List.length s1 = d) by apply (pf_s _ _ _ _ _ _ _ _ _ _ _ _ F1).
  assert (Ls2 : List.length s2 = d) by apply (pf_s _ _ _ _ _ _ _ _ _ _ _ _ F2).
  assert (Pk1 : forall ax, ax < d -> 0 < nth ax k1 0) by apply (pf_kpos _ _ _ _ _ _ _ _ _ _ _ _ F1).
  assert (Ps1 : forall ax, ax < d -> 0 < nth ax s1 0) by apply (pf_spos _ _ _ _ _ _ _ _ _ _ _ _ F1).
  assert (Ps2 : forall ax, ax < d -> 0 < nth ax s2 0) by apply (pf_spos _ _ _ _ _ _ _ _ _ _ _ _ F2).
  destruct (lib_sub _ _ _ _ DH DS2) as [Kg [DK [_ [NEK _]]]].
  destruct (chain_products _ _ _ _ _ _ _ _ DG DH NM DI DC1 DC2 (dict_get_key _ _ _ DK)) as [sg [cg [DS3 [DC3 _]]]].
  set (k3 := map (fun ax => nth ax s1 0 * (nth ax k2 0 - 1) + nth ax k1 0) (seq 0 d)).
  set (s3 := map (fun ax => nth ax s1 0 * nth ax s2 0) (seq 0 d)).
  assert (N3 : forall (f : nat -> nat) ax, ax < d -> nth ax (map f (seq 0 d)) 0 = f ax).
  { intros f ax Hax. rewrite (nth_indep _ 0 (f 0)) by (rewrite map_length, seq_length; exact Hax). rewrite map_nth, seq_nth by exact Hax. reflexivity. }
  assert (K3E : forall ax, ax < d -> nth ax k3 0 = nth ax s1 0 * (nth ax k2 0 - 1) + nth ax k1 0) by (intros ax Hax; apply (N3 (fun ax => nth ax s1 0 * (nth ax k2 0 - 1) + nth ax k1 0)); exact Hax).
  assert (S3E : forall ax, ax < d -> nth ax s3 0 = nth ax s1 0 * nth ax s2 0) by (intros ax Hax; apply (N3 (fun ax => nth ax s1 0 * nth ax s2 0)); exact Hax).
  assert (Lk3 : List.length k3 = d) by (unfold k3; rewrite map_length, seq_length; reflexivity).
  assert (Ls3 : List.length s3 = d) by (unfold s3; rewrite map_length, seq_length; reflexivity).
  assert (SK : standardize_tuple d (Tuple (map Z.of_nat k3)) = Ok k3).
  { apply says_sizes; [exact Lk3|]. intros v V. apply (In_nth _ _ 0) in V as [ax [Hax <-]]. rewrite Lk3 in Hax. rewrite K3E by exact Hax. apply Nat.add_pos_r. apply Pk1. exact Hax. }
  assert (SS : standardize_tuple d (Tuple (map Z.of_nat s3)) = Ok s3).
  { apply says_sizes; [exact Ls3|]. intros v V. apply (In_nth _ _ 0) in V as [ax [Hax <-]]. rewrite Ls3 in Hax. rewrite S3E by exact Hax. apply Nat.mul_pos_pos; [apply Ps1|apply Ps2]; exact Hax. }
  set (a3 := mkPoolArgs (ByName name) (Some K) (Tuple (map Z.of_nat k3)) (Some (Tuple (map Z.of_nat s3))) (Some (Some "valid")) "channels_last" true).
  assert (P3 : pooling_for name G a3) by (split; [exact DG|split; [left; reflexivity|reflexivity]]).
  exists a3. split; [exact P3|]. split; [reflexivity|]. intros bs3 m3 Lm3.
  assert (NK : K <> "") by apply M2.
  assert (I3 : exists L0, pool_init d t a3 = Ok L0).
  { apply (C57_when_the_constructor_accepts name G d a3 K t P3 eq_refl). split; [right; exact (dict_get_key _ _ _ DK)|]. split.
    - exists "valid". split; [reflexivity|]. right. left. reflexivity.
    - exists k3, s3. split; [exact SK|exact SS]. }
  destruct I3 as [L0 I3].
  assert (BB : exists L3, pool_build L0 (static_signal_shape true bs3 m3 g c) = Ok L3).
  { apply (C57_when_pooling_builds name G d a3 K "VALID" t true bs3 m3 g c L0 k3 s3 P3 eq_refl ltac:(exists "valid"; split; reflexivity) I3 Lm3 SK SS).
    split; [exists sg; unfold subgroup_indices, parse_subgroup; destruct (String.eqb_spec K "") as [Q|_]; [contradiction|exact DS3]|]. split; [intros _; exact GN|]. left. reflexivity. }
  destruct BB as [L3 B3]. exists L3. split; [exists L0; split; [exact I3|exact B3]|].
  intros x b m W Lm SX.
  apply (C97_two_poolings_are_one name G H Hg K d t a1 a2 a3 H1 K2 K bs1 bs2 bs3 m1 m2 m3 g g' c L1 L2 L3 k1 s1 k2 s2 k3 s3) with (b := b) (m := m); try assumption.
  - reflexivity.
  - split; [exact NK|left; reflexivity].
  - exists L0. split; [exact I3|exact B3].
  - split; [exact SK|exact SS].
  - left. reflexivity.
Qed.
End Compose.

Theorem C97_maximum_forgets_repeats : forgets_repeats (max_or_mean (A := Z) "max").
Proof.
  intros l l' E. change (match l with [] => 0%Z | v :: r => fold_left Z.max r v end = match l' with [] => 0%Z | v :: r => fold_left Z.max r v end).
  destruct l as [|v r]; destruct l' as [|v' r'].
  - reflexivity.
  - destruct (proj2 (E v') (or_introl eq_refl)).
  - destruct (proj1 (E v) (or_introl eq_refl)).
  - destruct (max_in v r) as [M [U V]], (max_in v' r') as [M' [U' V']]. apply Z.le_antisymm.
    + assert (I : In (fold_left Z.max r v) (v' :: r')) by (apply E; destruct M as [M|M]; [left; symmetry; exact M|right; exact M]).
      destruct I as [I|I]; [rewrite <- I; exact U'|apply V'; exact I].
    + assert (I : In (fold_left Z.max r' v') (v :: r)) by (apply E; destruct M' as [M'|M']; [left; symmetry; exact M'|right; exact M']).
      destruct I as [I|I]; [rewrite <- I; exact U|apply V; exact I].
Qed.

Print Assumptions C97_two_poolings_are_one.
Print Assumptions C97_the_layer_exists.
Print Assumptions C97_maximum_forgets_repeats.

(** ** Cases *)

(** Two layers, and one whose sizes are composed from theirs. *)
Definition both (t name H K : string) (m m2 : list nat) (k1 s1 k2 s2 k3 s3 : Z) (x : tensor Z) : result (list nat * list Z * list Z) :=
  G <- dict_get group_dict name ;; Hg <- dict_get group_dict H ;;
  L1 <- test_pool 2 t (mkPoolArgs (ByName name) (Some H) (One k1) (Some (One s1)) (Some (Some "valid")) "channels_last" true) (None :: map Some m ++ [Some (g_order G); Some 1]) ;;
  L2 <- test_pool 2 t (mkPoolArgs (ByName H) (Some K) (One k2) (Some (One s2)) (Some (Some "valid")) "channels_last" true) (None :: map Some m2 ++ [Some (g_order Hg); Some 1]) ;;
  L3 <- test_pool 2 t (mkPoolArgs (ByName name) (Some K) (One k3) (Some (One s3)) (Some (Some "valid")) "channels_last" true) (None :: map Some m ++ [Some (g_order G); Some 1]) ;;
  y <- pool_call L1 x ;; z <- pool_call L2 y ;; z' <- pool_call L3 x ;; Ok (shape z, data z, data z').

Definition varied (s : list nat) : tensor Z :=
  tab s (fun i => Z.sub (Z.of_nat (7 * nth 1 i 0 * nth 1 i 0 + 13 * nth 1 i 0 * nth 2 i 0 + 29 * nth 3 i 0 + 5 * nth 2 i 0)) 700).

(** Overlapping maxima over windows 3 with strides 2, and then over windows 2 with strides 1. *)
Example C97_case_maximum : both "max" "P4" "P2" "P1" [8; 8] [3; 3] 3 2 2 1 5 2 (varied [1; 8; 8; 4; 1]) = Ok ([1; 2; 2; 1; 1], [-273; -159; -29; 137]%Z, [-273; -159; -29; 137]%Z).
Proof. vm_compute. reflexivity. Qed.

(** Means over tiles; the values are multiples of 64. *)
Example C97_case_mean : both "average" "P4" "P4" "P2" [4; 6] [2; 3] 2 2 2 1 4 2 (tab [1; 4; 6; 4; 1] (fun i => Z.mul 64 (at_ (varied [1; 4; 6; 4; 1]) i)))
  = Ok ([1; 1; 2; 2; 1], [-39952; -36240; -36816; -33104]%Z, [-39952; -36240; -36816; -33104]%Z).
Proof. vm_compute. reflexivity. Qed.

Definition spot (n : nat) (v : Z) : tensor Z := tab [1; n; n; 1; 1] (fun i => if list_eqb Nat.eqb i [0; n / 2; n / 2; 0; 0] then v else 0%Z).

(** Windows with gaps leave values out. *)
Theorem C97_gaps_refuted : both "max" "P1" "P1" "P1" [3; 3] [2; 2] 1 2 2 1 3 2 (spot 3 1) = Ok ([1; 1; 1; 1; 1], [0%Z], [1%Z]).
Proof. vm_compute. reflexivity. Qed.

(** Means over overlapping windows count values more than once. *)
Theorem C97_overlapping_means_refuted : both "average" "P1" "P1" "P1" [3; 3] [2; 2] 2 1 2 1 3 1 (spot 3 36) = Ok ([1; 1; 1; 1; 1], [9%Z], [4%Z]).
Proof. vm_compute. reflexivity. Qed.
Print Assumptions C97_gaps_refuted.
Print Assumptions C97_overlapping_means_refuted.
