(** What building and calling a layer computes (data_format 'channels_last'):
    groco/layers/group_transforms.py, conv2d.py, conv3d.py and the transposed ones. *)
From Verif Require Export KernelFacts.
Local Open Scope string_scope.
Local Open Scope list_scope.

(** ** The padding layer inside a group layer *)

Definition zeros_of (d : nat) : list nat := repeat 0 d.

Lemma nth_zeros d a : nth a (zeros_of d) 0 = 0.
Proof. apply nth_repeat. Qed.

Lemma inside_zeros n p d : List.length n = d -> inb n p -> inside (zeros_of d) n p = true.
Proof.
  intros L P. apply (inside_spec _ _ _ d); [apply repeat_length|exact L|rewrite (inb_length _ _ P); exact L|].
  intros a Ha. rewrite nth_zeros. pose proof (inb_nth _ _ a P). lia.
Qed.

Lemma vzip_sub_zeros p d : List.length p = d -> vzip Nat.sub p (zeros_of d) = p.
Proof.
  intros L. apply nth_ext0; [rewrite length_vzip; [reflexivity|unfold zeros_of; rewrite repeat_length; exact L]|].
  intros a Ha. rewrite length_vzip in Ha by (unfold zeros_of; rewrite repeat_length; exact L).
  rewrite nth_vzip by (unfold zeros_of; rewrite ?repeat_length; lia). rewrite nth_zeros. lia.
Qed.

Lemma padded_zeros n d : List.length n = d -> padded (zeros_of d) n (zeros_of d) = n.
Proof.
  intros L. apply nth_ext0; [rewrite (length_padded _ _ _ d); unfold zeros_of; rewrite ?repeat_length; lia|].
  intros a Ha. rewrite (length_padded _ _ _ d) in Ha by (unfold zeros_of; rewrite ?repeat_length; lia).
  rewrite (nth_padded _ _ _ d) by (unfold zeros_of; rewrite ?repeat_length; lia). rewrite !nth_zeros. lia.
Qed.

(** The widths fixed by [build] for an axis. *)
Definition widths_ok (plain allow same tr : bool) (d : nat) (n k s eb ea : list nat) : Prop :=
  List.length eb = d /\ List.length ea = d /\
  ((plain && allow = true /\ eb = zeros_of d /\ ea = zeros_of d) \/
   (plain && allow = false /\
    forall a, a < d ->
      let b := if same then same_total (nth a n 0) (nth a k 0) (nth a s 0)
               else if tr then nth a s 0 - nth a k 0 else 0 in
      let e := nth a eb 0 + nth a ea 0 in
      e = nextra (nth a n 0) b (nth a k 0) (nth a s 0) /\ admissible (nth a n 0) b (nth a k 0) (nth a s 0) e /\
      nth a eb 0 = e - e / 2 /\ nth a ea 0 = e / 2 /\ (plain = true -> e = 0))).

Lemma bordered_zeros {A} {RA : Arith A} d b n C (X : nat -> list nat -> nat -> A) : List.length n = d ->
  tab (b :: padded (zeros_of d) n (zeros_of d) ++ [C]) (sig3 d (bordered (zeros_of d) n X)) = tab (b :: n ++ [C]) (sig3 d X).
Proof.
  intros L. rewrite padded_zeros by exact L. apply sig3_ext; [exact L|]. intros bi p q B P Q. unfold bordered.
  rewrite (inside_zeros n p d L P). rewrite vzip_sub_zeros by (rewrite (inb_length _ _ P); exact L). reflexivity.
Qed.

(** Calling a padding layer pads every signal with the same widths. *)
Definition pads_with {A} {RA : Arith A} (d : nat) (P : padding_layer) (eb ea : list nat) : Prop :=
  forall b m C (X : nat -> list nat -> nat -> A), List.length m = d ->
    padding_call P (tab (b :: m ++ [C]) (sig3 d X)) = Ok (tab (b :: padded eb m ea ++ [C]) (sig3 d (bordered eb m X))).

Lemma built_pads {A} {RA : Arith A} ks st d k s p allow tr L n bs cs L' :
  standardize_tuple d ks = Ok k -> standardize_tuple d st = Ok s ->
  padding_init ks d st (Some p) allow "channels_last" tr = Ok L -> List.length n = d ->
  padding_build L (bs :: map Some n ++ [cs]) = Ok L' ->
  exists eb ea, widths_ok (is_plain (upper p)) allow (is_same (upper p)) tr d n k s eb ea /\ pads_with (A := A) d L' eb ea.
Proof.
  intros Hk Hs I N B. apply padding_init_inv in I as [Eo [_ [_ [Ea [Ed [Es [Ek [Ef [Et [Ep _]]]]]]]]]].
  destruct (layer_axes ks st d k s n Hk Hs N) as [LL [An [Ak [As [Zk [Zs P]]]]]]. set (l := axes_of n k s) in *.
  assert (Lk : List.length k = d) by (apply standardize_tuple_inv in Hk as [E _]; exact E).
  assert (Ls : List.length s = d) by (apply standardize_tuple_inv in Hs as [E _]; exact E).
  change (bs :: map Some n ++ [cs]) with (static_layout "channels_last" bs n cs) in B. rewrite <- Ef in B.
  rewrite (padding_build_eq L l bs cs n) in B; [|congruence|congruence|intros q Q; apply P; exact Q|exact An|congruence].
  rewrite Eo, Ea, Et in B. set (same := is_same (upper p)) in *. set (plain := is_plain (upper p)) in *.
  set (ex := extra_of same tr) in *. set (bi := assumed same tr) in *.
  assert (BI : forall a, a < d -> bi (nth a l (0, 0, 0)) = if same then same_total (nth a n 0) (nth a k 0) (nth a s 0)
               else if tr then nth a s 0 - nth a k 0 else 0).
  { intros a Ha. unfold l. rewrite (nth_axes n k s d a) by assumption. reflexivity. }
  assert (PS : forall a, a < d -> 0 < nth a s 0).
  { intros a Ha. assert (Q : In (nth a l (0, 0, 0)) l) by (apply nth_In; lia). apply P in Q as [Q _].
    unfold l in Q. rewrite (nth_axes n k s d a) in Q by assumption. exact Q. }
  assert (XQ : forall a, a < d -> ex (nth a l (0, 0, 0)) = nextra (nth a n 0) (bi (nth a l (0, 0, 0))) (nth a k 0) (nth a s 0)).
  { intros a Ha. unfold ex, extra_of. fold bi. unfold l at 1 3 4. rewrite (nth_axes n k s d a) by assumption. reflexivity. }
  assert (NO : pl_needs L' = Some false -> pads_with (A := A) d L' (zeros_of d) (zeros_of d)).
  { intros ND b m C X LM. unfold padding_call. rewrite ND. f_equal. symmetry. apply bordered_zeros. exact LM. }
  destruct (plain && allow) eqn:PA.
  { injection B as <-. exists (zeros_of d), (zeros_of d). split; [|apply NO; reflexivity].
    unfold zeros_of at 1 2. split; [apply repeat_length|]. split; [apply repeat_length|]. left. auto. }
  destruct (forallb _ l) eqn:Z in B.
  { injection B as <-. exists (zeros_of d), (zeros_of d). split; [|apply NO; reflexivity].
    unfold zeros_of at 1 2. split; [apply repeat_length|]. split; [apply repeat_length|]. right. split; [exact PA|].
    intros a Ha. cbv zeta. rewrite !nth_zeros. cbn [Nat.add]. rewrite <- BI by exact Ha. rewrite forallb_forall in Z.
    assert (Q : In (nth a l (0, 0, 0)) l) by (apply nth_In; lia). pose proof (Z _ Q) as E0. apply Nat.eqb_eq in E0.
    pose proof (XQ a Ha) as XA. rewrite E0 in XA. split; [exact XA|]. split; [|repeat split; reflexivity].
    pose proof (nextra_good (nth a n 0) (bi (nth a l (0, 0, 0))) (nth a k 0) (nth a s 0) (PS a Ha)) as NG. rewrite <- XA in NG.
    apply NG. pose proof (nextra_zero_even (nth a n 0) (bi (nth a l (0, 0, 0))) (nth a k 0) (nth a s 0) (PS a Ha) (eq_sym XA)) as NZ.
    rewrite <- XA in NZ. exact NZ. }
  destruct plain eqn:PL; [discriminate|].
  destruct (forallb _ l) eqn:V in B; [|discriminate]. rewrite forallb_forall in V. injection B as <-.
  set (es := map ex l).
  assert (Les : List.length es = d) by (unfold es; rewrite map_length; exact LL).
  exists (befores es), (afters es).
  assert (LB : List.length (befores es) = d) by (unfold befores; rewrite map_length; exact Les).
  assert (LA : List.length (afters es) = d) by (unfold afters; rewrite map_length; exact Les).
  split.
  - split; [exact LB|]. split; [exact LA|]. right. split; [exact PA|]. intros a Ha. cbv zeta. rewrite <- BI by exact Ha.
    assert (EN : nth a es 0 = ex (nth a l (0, 0, 0))) by (unfold es; apply nth_map_axes; lia).
    assert (N1 : nth a (befores es) 0 = nth a es 0 - nth a es 0 / 2).
    { unfold befores. rewrite nth_indep with (d' := (fun e => e - e / 2) 0) by (rewrite map_length; lia). apply (map_nth (fun e => e - e / 2)). }
    assert (N2 : nth a (afters es) 0 = nth a es 0 / 2).
    { unfold afters. rewrite nth_indep with (d' := (fun e => e / 2) 0) by (rewrite map_length; lia). apply (map_nth (fun e => e / 2)). }
    rewrite N1, N2.
    assert (SUM : nth a es 0 - nth a es 0 / 2 + nth a es 0 / 2 = nth a es 0).
    { pose proof (Nat.div_le_upper_bound (nth a es 0) 2 (nth a es 0)). lia. }
    rewrite SUM, EN. rewrite XQ by exact Ha. split; [reflexivity|]. split; [|repeat split; [intros; discriminate]].
    apply nextra_good; [apply PS; exact Ha|]. rewrite <- XQ by exact Ha. apply Nat.even_spec. apply V. apply nth_In. lia.
  - intros b m C X LM. unfold padding_call. cbn [pl_needs pl_pads set_needs].
    replace (zs ex l) with (map Z.of_nat es) by (unfold es, zs; apply map_map).
    rewrite split_padding_eq, Ef. cbn [pads_in String.eqb Ascii.eqb Bool.eqb]. apply pad_sig3; assumption.
Qed.

(** ** The kernel *)

Section Kernel.
Context (G : group) (d : nat) (E : list symmetry) (eq : bool) (OK : group_ok G d E eq).
Notation n := (List.length E).

(** Where the kernel of a layer is read, seen from acting element number [h]. *)
Definition chan_from (valued : bool) (dom : list nat) (c a q : nat) : option nat :=
  if valued then seen_from G dom c a q else Some q.

Definition kernel_src (valued : bool) (dom act : list nat) (c o : nat) (k : list nat) (j : list nat) (q r : nat)
  : option (list nat * nat * nat) :=
  let a := nth (r / o) act 0 in
  option_map (fun q' => (pixel (nth a E []) k j, q', r mod o)) (chan_from valued dom c a q).

Definition kidx (valued : bool) (dom act : list nat) (c o : nat) (k : list nat) (C : nat) (j : list nat) (q r : nat) : nat :=
  match kernel_src valued dom act c o k j q r with
  | Some (j', q', r') => ravel (k ++ [C; o]) (j' ++ [q'; r'])
  | None => 0
  end.

(** [valued] layers: the domain and its channels. *)
Definition domain_ok (T : gtransforms) (valued : bool) (dom : list nat) (c C : nat) : Prop :=
  gt_group_valued T = valued /\
  if valued then sub_idx G (gt_domain T) dom /\ subgroup_get G (gt_domain T) = Ok dom /\ C = List.length dom * c
  else gt_domain T = None.

Lemma kernel_refused T valued dom act c C o k (f : list nat -> nat) :
  domain_ok T valued dom c C -> sub_idx G (gt_acting T) act ->
  List.length k = d -> ~ kernel_fits eq k ->
  exists e,
  (indices <- (if negb (gt_group_valued T)
              then action G (tab (k ++ [C; o]) f) (map Z.of_nat (seq 0 d)) (Z.of_nat d) None (gt_acting T) (gt_domain T)
              else
                dom <- subgroup_get G (gt_domain T) ;;
                indices <- split_axes (tab (k ++ [C; o]) f) (List.length dom) (-2) ;;
                indices <- action G indices (map Z.of_nat (seq 0 d)) (Z.of_nat d) (Some (Z.of_nat d))
                                  (gt_acting T) (gt_domain T) ;;
                merge_axes indices (-3) (-2)) ;;
   merge_axes indices (-3) (-1)) = Err e.
Proof.
  intros [DV DO] SA L KF. rewrite DV. destruct valued; cbn [negb].
  - destruct DO as [SD [DD CC]]. rewrite DD. cbn [bind].
    destruct (sub_idx_facts _ _ _ _ OK _ _ SD) as [NDd [Bd [HD _]]].
    assert (DP : List.length dom <> 0) by (intros Z; destruct dom; [discriminate HD|discriminate Z]).
    set (s3 := k ++ [c; o]). assert (L3 : List.length s3 = d + 2) by (unfold s3; rewrite app_length; cbn [List.length]; lia).
    assert (N3 : nth d s3 0 = c) by (unfold s3; rewrite app_nth2 by lia; rewrite L, Nat.sub_diag; reflexivity).
    assert (S1 : k ++ [C; o] = upd d (List.length dom * nth d s3 0) s3)
      by (rewrite N3; unfold s3; rewrite <- L, upd_app, CC; reflexivity).
    assert (SP : split_axes (tab (k ++ [C; o]) f) (List.length dom) (-2)
       = Ok (stk d (List.length dom) s3 (fun v i => f (upd d (v * nth d s3 0 + nth d i 0) i)))).
    { replace (-2)%Z with (Z.of_nat d - Z.of_nat (rank (tab (k ++ [C; o]) f)))%Z
        by (rewrite rank_tab, app_length; cbn [List.length]; lia).
      rewrite split_axes_neg by (rewrite rank_tab, app_length; cbn [List.length]; lia).
      rewrite S1. apply split_axes_tab; lia || exact DP. }
    rewrite SP. cbn [bind]. unfold stk at 1. set (s4 := insert_at d (List.length dom) s3).
    assert (E4 : s4 = k ++ [List.length dom; c; o]) by (unfold s4, s3; rewrite <- L; apply insert_at_app_r).
    match goal with |- context[tab s4 ?g] => set (x := tab s4 g) end.
    assert (RX : rank x = d + 3) by (unfold x; rewrite rank_tab, E4, app_length; cbn [List.length]; lia).
    destruct (group_action_refused _ _ _ _ OK x (seq 0 d) d (Z.of_nat d) (gt_acting T) (gt_domain T) act dom) as [e Er].
    + apply wf_tab.
    + lia.
    + apply spatial_block; lia.
    + intros I. apply in_seq in I. lia.
    + exact SA.
    + exact SD.
    + unfold x. rewrite shape_tab, E4, app_nth2 by lia. rewrite L, Nat.sub_diag. reflexivity.
    + unfold x. rewrite shape_tab, E4. intros AC. apply KF. apply kernel_accepts in AC; assumption.
    + rewrite Er. cbn [bind]. eauto.
  - rewrite DO. set (x := tab (k ++ [C; o]) f).
    assert (RX : rank x = d + 2) by (unfold x; rewrite rank_tab, app_length; cbn [List.length]; lia).
    destruct (grid_action_refused _ _ _ _ OK x d (seq 0 d) None (gt_acting T) act) as [e Er].
    + apply wf_tab.
    + lia.
    + apply spatial_block; lia.
    + exact SA.
    + unfold x. rewrite shape_tab. intros AC. apply KF. apply kernel_accepts in AC; assumption.
    + rewrite Er. cbn [bind]. eauto.
Qed.

Lemma kernel_indices_eq {A} {ZA : Zero A} T tr valued dom act c C o k (w : list nat -> A) :
  gt_group T = G -> gt_dims T = d -> gt_transpose T = tr -> domain_ok T valued dom c C -> sub_idx G (gt_acting T) act ->
  List.length k = d ->
  (kernel_fits eq k /\
   compute_transformed_kernel_indices T (tab (k ++ (if tr then [o; C] else [C; o])) w)
   = Ok (if tr then tab (k ++ [List.length act * o; C]) (ker d (fun j r q => kidx valued dom act c o k C j q r))
         else tab (k ++ [C; List.length act * o]) (ker d (kidx valued dom act c o k C)))) \/
  (~ kernel_fits eq k /\ exists e, compute_transformed_kernel_indices T (tab (k ++ (if tr then [o; C] else [C; o])) w) = Err e).
Proof.
  intros TG TD TT DO SA L.
  assert (FD : kernel_fits eq k \/ ~ kernel_fits eq k).
  { unfold kernel_fits. destruct eq; [|left; discriminate].
    destruct (all_equal_dec k); [left; auto|right; intros H; auto]. }
  unfold compute_transformed_kernel_indices. rewrite TG, TD, TT.
  assert (K1 : (if tr then swapaxes (tab (k ++ (if tr then [o; C] else [C; o])) w) (-1) (-2) else Ok (tab (k ++ (if tr then [o; C] else [C; o])) w))
     = Ok (tab (k ++ [C; o]) (if tr then ker d (fun j q r => w (j ++ [r; q])) else w))).
  { destruct tr; [|reflexivity]. rewrite (tab_ker d) by exact L. rewrite swap_ker by exact L. reflexivity. }
  rewrite K1. cbn [bind]. rewrite index_tensor_tab, shape_tab. cbn [bind].
  destruct (sub_idx_facts _ _ _ _ OK _ _ SA) as [_ [Ba _]].
  destruct FD as [KF|KF]; [left|right]; (split; [exact KF|]).
  - match goal with |- (x <- ?M ;; y <- merge_axes x (-3) (-1) ;; _) = _ =>
      assert (Q : (x <- M ;; merge_axes x (-3) (-1)) = Ok (tab (k ++ [C; List.length act * o]) (ker d (kidx valued dom act c o k C)))) end.
    { pose proof DO as [DV DO']. rewrite DV. destruct valued; cbn [negb].
      - destruct DO' as [SD [DD CC]]. rewrite DD. cbn [bind]. subst C.
        pose proof (group_indices G d E eq OK act Ba k (List.length dom) c o (ravel (k ++ [List.length dom * c; o])) (gt_acting T) (gt_domain T) dom SA SD eq_refl L KF) as Q.
        destruct (split_axes _ _ _) as [i1|]; [|discriminate Q]. cbn [bind] in Q |- *.
        destruct (action _ _ _ _ _ _ _) as [i2|]; [|discriminate Q]. cbn [bind] in Q |- *.
        destruct (merge_axes i2 _ _) as [i3|]; [|discriminate Q]. cbn [bind] in Q |- *. rewrite Q. f_equal.
        apply ker_ext; [exact L|]. intros j q r _ _ _. unfold kidx, kernel_src, chan_from.
        destruct (seen_from _ _ _ _ _); reflexivity.
      - rewrite DO'. rewrite (grid_indices G d E eq OK act Ba k C o _ (gt_acting T) SA L KF). f_equal. }
    destruct (if negb (gt_group_valued T) then _ else _) as [i1|]; [|discriminate Q]. cbn [bind] in Q |- *.
    rewrite Q. cbn [bind]. destruct tr; [|reflexivity]. rewrite swap_ker by exact L. reflexivity.
  - destruct (kernel_refused T valued dom act c C o k (ravel (k ++ [C; o])) DO SA L KF) as [e Er].
    destruct (if negb (gt_group_valued T) then _ else _) as [i1|e1]; cbn [bind] in Er |- *; [|eauto].
    rewrite Er. cbn [bind]. eauto.
Qed.

(** Bounds of the places read. *)
Lemma chan_from_lt T valued dom c C a q q' :
  domain_ok T valued dom c C -> q < C -> chan_from valued dom c a q = Some q' -> q' < C.
Proof.
  intros [_ DO] Q. destruct valued; cbn [chan_from]; [|intros [= <-]; exact Q].
  destruct DO as [SD [_ ->]]. unfold chan_from, seen_from.
  destruct (mem _ dom) eqn:M; [|discriminate]. intros [= <-]. apply mem_In in M. apply index_of_lt in M.
  assert (c <> 0) by (intros ->; lia). pose proof (Nat.mod_upper_bound q c ltac:(assumption)). nia.
Qed.

Lemma kidx_lt T valued dom act c C o k j q r :
  domain_ok T valued dom c C -> (forall a, In a act -> a < n) -> List.length k = d -> kernel_fits eq k ->
  inb k j -> q < C -> r < List.length act * o -> kidx valued dom act c o k C j q r < prod (k ++ [C; o]).
Proof.
  intros DO Ba L KF J Q R. unfold kidx, kernel_src.
  assert (O0 : o <> 0) by (intros ->; lia).
  set (a := nth (r / o) act 0). assert (Ha : a < n) by (apply Ba, nth_In, Nat.div_lt_upper_bound; lia).
  destruct (chan_from valued dom c a q) as [q'|] eqn:CF; cbn [option_map].
  - apply ravel_lt. apply inbk; [|apply (chan_from_lt T valued dom c C a q q' DO Q CF)|apply Nat.mod_upper_bound; exact O0].
    apply (pixel_inb d); [apply (ok_sym _ _ _ _ OK); exact Ha|exact L|apply (fits_of G d E eq OK); assumption|exact J].
  - pose proof (ravel_lt (k ++ [C; o]) (j ++ [q; 0])). specialize (H (inbk k C o j q 0 J Q ltac:(lia))). lia.
Qed.

End Kernel.
