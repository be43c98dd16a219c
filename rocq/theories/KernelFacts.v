(** The transformed kernel: groco/layers/group_transforms.py:95-103, 176-215. *)
From Verif Require Export ConvFacts LibraryLookup.
Local Open Scope list_scope.

(** ** Kernel indices: (kernel pixel, input channel, output channel) *)

Definition ker {B} (d : nat) (f : list nat -> nat -> nat -> B) (i : list nat) : B :=
  f (firstn d i) (nth d i 0) (nth (d + 1) i 0).

Lemma ker_ix {B} d (f : list nat -> nat -> nat -> B) j q r : List.length j = d -> ker d f (j ++ [q; r]) = f j q r.
Proof.
  intros L. unfold ker. rewrite firstn_app_exact by auto. rewrite !app_nth2 by lia.
  replace (d - List.length j) with 0 by lia. replace (d + 1 - List.length j) with 1 by lia. reflexivity.
Qed.

Lemma inbk_inv k C o i : inb (k ++ [C; o]) i -> exists j q r, i = j ++ [q; r] /\ inb k j /\ q < C /\ r < o.
Proof.
  intros I. apply inb_app_split in I as [j [l [-> [J I]]]]. apply inb2 in I as [q [r [-> [Q R]]]]. exists j, q, r. auto.
Qed.

Lemma inbk k C o j q r : inb k j -> q < C -> r < o -> inb (k ++ [C; o]) (j ++ [q; r]).
Proof.
  intros J Q R. apply inb_app; [exact J|]. apply inb_cons. split; [exact Q|]. apply inb_cons. split; [exact R|apply inb_nil].
Qed.

Section Ker.
Context {A : Type} {ZA : Zero A}.

Lemma ker_ext d k C o (f g : list nat -> nat -> nat -> A) : List.length k = d ->
  (forall j q r, inb k j -> q < C -> r < o -> f j q r = g j q r) ->
  tab (k ++ [C; o]) (ker d f) = tab (k ++ [C; o]) (ker d g).
Proof.
  intros L H. apply tab_ext. intros i I. apply inbk_inv in I as [j [q [r [-> [J [Q R]]]]]].
  rewrite !ker_ix by (rewrite (inb_length _ _ J); exact L). apply H; assumption.
Qed.

Lemma tab_ker d k C o (F : list nat -> A) : List.length k = d ->
  tab (k ++ [C; o]) F = tab (k ++ [C; o]) (ker d (fun j q r => F (j ++ [q; r]))).
Proof.
  intros L. apply tab_ext. intros i I. apply inbk_inv in I as [j [q [r [-> [J [Q R]]]]]].
  rewrite ker_ix by (rewrite (inb_length _ _ J); exact L). reflexivity.
Qed.

Lemma at_ker d k C o (f : list nat -> nat -> nat -> A) j q r : List.length k = d -> inb k j -> q < C -> r < o ->
  at_ (tab (k ++ [C; o]) (ker d f)) (j ++ [q; r]) = f j q r.
Proof.
  intros L J Q R. rewrite at_tab by (apply inbk; assumption). apply ker_ix. rewrite (inb_length _ _ J). exact L.
Qed.

(** Exchanging the channel axes. *)
Lemma swap_ker d k C o (f : list nat -> nat -> nat -> A) : List.length k = d ->
  swapaxes (tab (k ++ [C; o]) (ker d f)) (-1) (-2) = Ok (tab (k ++ [o; C]) (ker d (fun j q r => f j r q))).
Proof.
  intros L. unfold swapaxes. rewrite rank_tab.
  assert (LE : List.length (k ++ [C; o]) = d + 2) by (rewrite app_length; cbn [List.length]; lia).
  replace (-1)%Z with (Z.of_nat (d + 1) - Z.of_nat (List.length (k ++ [C; o])))%Z by lia.
  replace (-2)%Z with (Z.of_nat d - Z.of_nat (List.length (k ++ [C; o])))%Z by lia.
  rewrite !norm_axis_neg by lia. cbn [bind]. rewrite transpose_swap by lia. f_equal.
  assert (SW : forall j q r, List.length j = d -> swapi (d + 1) d (j ++ [q; r]) = j ++ [r; q]).
  { intros j q r LJ. unfold swapi. rewrite !app_nth2 by lia. replace (d - List.length j) with 0 by lia.
    replace (d + 1 - List.length j) with 1 by lia. cbn [nth].
    replace (upd d r (j ++ [q; r])) with (j ++ [r; r]). 2:{ rewrite <- LJ. symmetry. apply upd_app. } 
    replace (d + 1) with (List.length (j ++ [r])) by (rewrite app_length; cbn [List.length]; lia).
    replace (j ++ [r; r]) with ((j ++ [r]) ++ [r]) by (rewrite <- app_assoc; reflexivity). rewrite upd_app, <- app_assoc. reflexivity. }
  rewrite SW by exact L. apply tab_ext. intros i I. apply inbk_inv in I as [j [q [r [-> [J [Q R]]]]]].
  assert (LJ : List.length j = d) by (rewrite (inb_length _ _ J); exact L).
  rewrite SW, !ker_ix by exact LJ. reflexivity.
Qed.

End Ker.

Section G.
Context (G : group) (d : nat) (E : list symmetry) (eq : bool) (OK : group_ok G d E eq).
Notation n := (List.length E).

(** What the kernel action needs of the kernel size. *)
Definition kernel_fits (k : list nat) : Prop := eq = true -> all_equal k.

Lemma kernel_accepts k rest : List.length k = d -> (accepts eq (seq 0 d) (k ++ rest) <-> kernel_fits k).
Proof.
  intros L. unfold accepts, kernel_fits. rewrite <- L.
  rewrite (gather_block [] k rest : gather (seq 0 (List.length k)) (k ++ rest) = k). tauto.
Qed.

Lemma fits_of k a : kernel_fits k -> List.length k = d -> a < n -> fits (nth a E []) k.
Proof.
  intros F L Ha. pose proof (proj2 (kernel_accepts k [] L) F) as AC. rewrite app_nil_r in AC.
  pose proof (accepts_fits _ _ _ _ OK (seq 0 d) k a (seq_length _ _) AC Ha) as X.
  replace (gather (seq 0 d) k) with k in X; [exact X|]. symmetry. rewrite <- L.
  rewrite <- (app_nil_r k) at 2. apply (gather_block [] k []).
Qed.

(** The channel that is read from at channel [q] of a signal on [dom] with [c]
    channels per element, seen from element [a]. *)
Definition seen_from (dom : list nat) (c a q : nat) : option nat :=
  let p := comp G (inv G a) (nth (q / c) dom 0) in
  if mem p dom then Some (index_of p dom * c + q mod c) else None.

Section Lists.
Context (act : list nat) (ACT : forall a, In a act -> a < n).
Notation R := (List.length act).

(** Index tensor with the group axis merged into the filters. *)
Lemma merge_filters k C o (F : nat -> list nat -> nat) : List.length k = d ->
  merge_axes (stk d R (k ++ [C; o]) F) (-3) (-1)
  = Ok (tab (k ++ [C; R * o]) (ker d (fun j q r => F (r / o) (j ++ [q; r mod o])))).
Proof.
  intros L. assert (LS : List.length (k ++ [C; o]) = d + 2) by (rewrite app_length; cbn [List.length]; lia).
  replace (-3)%Z with (Z.of_nat d - Z.of_nat (rank (stk d R (k ++ [C; o]) F)))%Z by (rewrite rank_stk; lia).
  replace (-1)%Z with (Z.of_nat (d + 2) - Z.of_nat (rank (stk d R (k ++ [C; o]) F)))%Z by (rewrite rank_stk; lia).
  rewrite merge_axes_neg by (rewrite rank_stk; lia).
  replace (d + 2) with (OpFacts.shift d (d + 1)) by (unfold OpFacts.shift; rewrite (proj2 (Nat.leb_le d (d + 1))) by lia; lia).
  rewrite merge_axes_stk0 by lia. f_equal.
  assert (N : forall j q r, List.length j = d -> nth (d + 1) (j ++ [q; r]) 0 = r).
  { intros j q r LJ. rewrite app_nth2 by lia. replace (d + 1 - List.length j) with 1 by lia. reflexivity. }
  assert (U : forall (j : list nat) q r v, List.length j = d -> upd (d + 1) v (j ++ [q; r]) = j ++ [q; v]).
  { intros j q r v LJ. replace (d + 1) with (List.length (j ++ [q])) by (rewrite app_length; cbn [List.length]; lia).
    replace (j ++ [q; r]) with ((j ++ [q]) ++ [r]) by (rewrite <- app_assoc; reflexivity). rewrite upd_app, <- app_assoc. reflexivity. }
  rewrite N, U by exact L. apply tab_ext. intros i I. apply inbk_inv in I as [j [q [r [-> [J [Q Rr]]]]]].
  assert (LJ : List.length j = d) by (rewrite (inb_length _ _ J); exact L).
  rewrite N, U, ker_ix by exact LJ. reflexivity.
Qed.

(** *** input on the grid *)
Lemma grid_indices k C o (f : list nat -> nat) Ha : sub_idx G Ha act -> List.length k = d -> kernel_fits k ->
  (i <- action G (tab (k ++ [C; o]) f) (map Z.of_nat (seq 0 d)) (Z.of_nat d) None Ha None ;; merge_axes i (-3) (-1))
  = Ok (tab (k ++ [C; R * o]) (ker d (fun j q r => f (pixel (nth (nth (r / o) act 0) E []) k j ++ [q; r mod o])))).
Proof.
  intros SA L KF. assert (LS : List.length (k ++ [C; o]) = d + 2) by (rewrite app_length; cbn [List.length]; lia).
  rewrite (action_grid _ _ _ _ OK _ _ _ _ _ _ act); [|lia|apply spatial_block; lia|apply kernel_accepts; assumption|exact SA].
  cbn [bind]. rewrite merge_filters by exact L. f_equal. apply ker_ext; [exact L|]. intros j q r J Q Rr. f_equal.
  assert (Ha' : nth (r / o) act 0 < n).
  { apply ACT. apply nth_In. apply Nat.div_lt_upper_bound; [lia|]. lia. }
  pose proof (ok_sym _ _ _ _ OK _ Ha') as [LE _]. pose proof (inb_length _ _ J) as LJ.
  rewrite <- L. apply (pixel_at_block _ [] k [C; o] [] j [q; r mod o]); [reflexivity|exact LJ|lia].
Qed.

(** *** input on the group *)
Lemma group_indices k D c o (f : list nat -> nat) Ha Hd dom :
  sub_idx G Ha act -> sub_idx G Hd dom -> D = List.length dom -> List.length k = d -> kernel_fits k ->
  (i <- split_axes (tab (k ++ [D * c; o]) f) D (-2) ;;
   i <- action G i (map Z.of_nat (seq 0 d)) (Z.of_nat d) (Some (Z.of_nat d)) Ha Hd ;;
   i <- merge_axes i (-3) (-2) ;;
   merge_axes i (-3) (-1))
  = Ok (tab (k ++ [D * c; R * o])
            (ker d (fun j q r => match seen_from dom c (nth (r / o) act 0) q with
                                 | Some q' => f (pixel (nth (nth (r / o) act 0) E []) k j ++ [q'; r mod o])
                                 | None => 0 end))).
Proof.
  intros SA SD DD L KF.
  destruct (sub_idx_facts _ _ _ _ OK _ _ SD) as [NDd [Bd [HD _]]].
  assert (DP : D <> 0).
  { rewrite DD. intros Z. destruct dom; [discriminate HD|discriminate Z]. }
  set (s3 := k ++ [c; o]). assert (L3 : List.length s3 = d + 2) by (unfold s3; rewrite app_length; cbn [List.length]; lia).
  assert (LS : List.length (k ++ [D * c; o]) = d + 2) by (rewrite app_length; cbn [List.length]; lia).
  assert (N3 : nth d s3 0 = c) by (unfold s3; rewrite app_nth2 by lia; rewrite L, Nat.sub_diag; reflexivity).
  assert (UK : forall (j : list nat) q r v, List.length j = d -> upd d v (j ++ [q; r]) = j ++ [v; r]).
  { intros j q r v LJ. rewrite <- LJ. apply upd_app. }
  assert (NK : forall (j : list nat) q l, List.length j = d -> nth d (j ++ q :: l) 0 = q).
  { intros j q l LJ. rewrite app_nth2 by lia. rewrite LJ, Nat.sub_diag. reflexivity. }
  assert (S1 : k ++ [D * c; o] = upd d (D * nth d s3 0) s3) by (rewrite N3; unfold s3; rewrite UK by exact L; reflexivity).
  replace (-2)%Z with (Z.of_nat d - Z.of_nat (rank (tab (k ++ [(D * c)%nat; o]) f)))%Z at 1 by (rewrite rank_tab; lia).
  rewrite split_axes_neg by (rewrite rank_tab; lia). rewrite S1 at 1. rewrite split_axes_tab by (lia || exact DP). cbn [bind].
  set (g := fun (v : nat) (i : list nat) => f (upd d (v * nth d s3 0 + nth d i 0) i)).
  (* the action *)
  set (s4 := insert_at d D s3).
  assert (E4 : s4 = k ++ [D; c; o]) by (unfold s4, s3; rewrite <- L; apply insert_at_app_r).
  assert (L4 : List.length s4 = d + 3) by (rewrite E4, app_length; cbn [List.length]; lia).
  unfold stk at 1. fold s4.
  rewrite (action_group _ _ _ _ OK s4 _ (seq 0 d) d d Ha Hd act dom);
    [|lia|lia|apply spatial_block; lia|intros I; apply in_seq in I; lia
     |rewrite E4; apply kernel_accepts; assumption|exact SA|exact SD|rewrite E4; rewrite NK by exact L; exact DD].
  cbn [bind].
  match goal with |- context[stk d R s4 ?f] => set (F1 := f) end.
  (* merge the group axis of the signal into the channels *)
  assert (T1 : stk d R s4 F1 = stk (d + 1) D (k ++ [R; c; o])
      (fun v i => F1 (nth d i 0) (insert_at d v (remove_at d i)))).
  { unfold stk at 1. rewrite E4.
    assert (I1 : insert_at d R (k ++ [D; c; o]) = insert_at (d + 1) D (k ++ [R; c; o])).
    { replace (insert_at (d + 1) D (k ++ [R; c; o])) with (k ++ [R; D; c; o]).
      - rewrite <- L. apply insert_at_app_r.
      - replace (d + 1) with (List.length (k ++ [R])) by (rewrite app_length; cbn [List.length]; lia).
        replace (k ++ [R; c; o]) with ((k ++ [R]) ++ [c; o]) by (rewrite <- app_assoc; reflexivity).
        rewrite insert_at_app_r, <- app_assoc. reflexivity. }
    rewrite I1. rewrite tab_stk by (rewrite app_length; cbn [List.length]; lia). apply stk_ext; [rewrite app_length; cbn [List.length]; lia|].
    intros v i V I. apply inb_app_split in I as [j [l [-> [J I]]]]. pose proof (inb_length _ _ J) as LJ.
    pose proof (inb_length _ _ I) as LI. destruct l as [|h l]; [discriminate LI|].
    replace (insert_at (d + 1) v (j ++ h :: l)) with (j ++ h :: v :: l).
    - rewrite NK by lia. rewrite NK by lia. f_equal. rewrite L in LJ. rewrite <- LJ.
      rewrite !remove_at_app, insert_at_app_r. reflexivity.
    - replace (d + 1) with (List.length (j ++ [h])) by (rewrite app_length; cbn [List.length]; lia).
      replace (j ++ h :: l) with ((j ++ [h]) ++ l) by (rewrite <- app_assoc; reflexivity).
      rewrite insert_at_app_r, <- app_assoc. reflexivity. }
  rewrite T1.
  match goal with |- context[stk (d + 1) D ?s ?f] => set (F2 := f); set (s5 := s) end.
  assert (L5 : List.length s5 = d + 3) by (unfold s5; rewrite app_length; cbn [List.length]; lia).
  replace (-3)%Z with (Z.of_nat (d + 1) - Z.of_nat (rank (stk (d + 1) D s5 F2)))%Z at 1 by (rewrite rank_stk; lia).
  replace (-2)%Z with (Z.of_nat (d + 2) - Z.of_nat (rank (stk (d + 1) D s5 F2)))%Z at 1 by (rewrite rank_stk; lia).
  rewrite merge_axes_neg by (rewrite rank_stk; lia).
  replace (d + 2) with (OpFacts.shift (d + 1) (d + 1)) by (unfold OpFacts.shift; rewrite Nat.leb_refl; lia).
  rewrite merge_axes_stk0 by lia. cbn [bind].
  assert (N5 : forall (j : list nat) h q r, List.length j = d -> nth (d + 1) (j ++ [h; q; r]) 0 = q).
  { intros j h q r LJ. rewrite app_nth2 by lia. replace (d + 1 - List.length j) with 1 by lia. reflexivity. }
  assert (U5 : forall (j : list nat) h q r v, List.length j = d -> upd (d + 1) v (j ++ [h; q; r]) = j ++ [h; v; r]).
  { intros j h q r v LJ. replace (d + 1) with (List.length (j ++ [h])) by (rewrite app_length; cbn [List.length]; lia).
    replace (j ++ [h; q; r]) with ((j ++ [h]) ++ [q; r]) by (rewrite <- app_assoc; reflexivity). rewrite upd_app, <- app_assoc. reflexivity. }
  unfold s5. rewrite N5, U5 by exact L.
  replace (k ++ [R; D * c; o]) with (insert_at d R (k ++ [D * c; o])) by (rewrite <- L; apply insert_at_app_r).
  rewrite tab_stk by lia. rewrite merge_filters by exact L. f_equal. apply ker_ext; [exact L|]. intros j q r J Q Rr.
  pose proof (inb_length _ _ J) as LJ. rewrite L in LJ.
  assert (O0 : o <> 0) by (intros ->; lia). assert (C0 : c <> 0) by (intros ->; lia).
  set (h := r / o). assert (Hh : h < R) by (apply Nat.div_lt_upper_bound; lia).
  replace (insert_at d h (j ++ [q; r mod o])) with (j ++ [h; q; r mod o]) by (rewrite <- LJ; symmetry; apply insert_at_app_r).
  rewrite N5, U5 by exact LJ. unfold F2, F1. rewrite NK by exact LJ.
  replace (remove_at d (j ++ [h; q mod c; r mod o])) with (j ++ [q mod c; r mod o]) by (rewrite <- LJ; symmetry; apply remove_at_app).
  replace (insert_at d (q / c) (j ++ [q mod c; r mod o])) with (j ++ [q / c; q mod c; r mod o]) by (rewrite <- LJ; symmetry; apply insert_at_app_r).
  rewrite NK by exact LJ. set (a := nth h act 0).
  assert (Ha' : a < n) by (apply ACT; apply nth_In; exact Hh).
  pose proof (ok_sym _ _ _ _ OK _ Ha') as [LE _].
  assert (PX : pixel_at (nth a E []) (seq 0 d) s4 (j ++ [q / c; q mod c; r mod o]) = pixel (nth a E []) k j ++ [q / c; q mod c; r mod o]).
  { rewrite E4. rewrite <- L at 1. apply (pixel_at_block _ [] k _ [] j); [reflexivity|lia|lia]. }
  rewrite PX. unfold dom_at, seen_from. set (p := comp G (inv G a) (nth (q / c) dom 0)).
  destruct (mem p dom) eqn:M; [|reflexivity].
  assert (LPX : List.length (pixel (nth a E []) k j) = d) by (rewrite length_pixel; exact LE).
  replace (upd d (index_of p dom) (pixel (nth a E []) k j ++ [q / c; q mod c; r mod o]))
    with (pixel (nth a E []) k j ++ [index_of p dom; q mod c; r mod o])
    by (rewrite <- LPX; symmetry; apply upd_app).
  unfold g. rewrite NK by exact LPX.
  replace (remove_at d (pixel (nth a E []) k j ++ [index_of p dom; q mod c; r mod o])) with (pixel (nth a E []) k j ++ [q mod c; r mod o])
    by (rewrite <- LPX; symmetry; apply remove_at_app).
  rewrite N3. rewrite NK, UK by exact LPX. reflexivity.
Qed.

End Lists.
End G.
