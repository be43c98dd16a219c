(** The action of the octahedral group, entry by entry. *)
From Verif Require Export ActionFacts.

Section Oh.
Context {A : Type} {ZA : Zero A}.

(** Index read after reversing the axes [fl] one after the other. *)
Fixpoint flips (fl s i : list nat) : list nat :=
  match fl with
  | [] => i
  | a :: fl' => let j := flips fl' s i in upd a (nth a s 0 - 1 - nth a j 0) j
  end.

Lemma flip_all_tab fl s (f : list nat -> A) :
  (forall a, In a fl -> a < List.length s) ->
  flip_all (tab s f) fl = Ok (tab s (fun i => f (flips fl s i))).
Proof.
  revert f; induction fl as [|a fl IH]; intros f H; cbn [flip_all flips]; auto.
  rewrite flip_tab by (apply H; left; auto). cbn [bind].
  rewrite IH by (intros b B; apply H; right; auto). reflexivity.
Qed.

Lemma nth_mid {B} (l1 l2 : list B) x y z m d :
  m < 3 -> nth (List.length l1 + m) (l1 ++ [x; y; z] ++ l2) d = nth m [x; y; z] d.
Proof. intros H. rewrite app_nth2_plus. rewrite app_nth1; auto. Qed.

Lemma upd_mid {B} (l1 l2 : list B) x y z m v :
  m < 3 -> upd (m + List.length l1) v (l1 ++ [x; y; z] ++ l2) = l1 ++ upd m v [x; y; z] ++ l2.
Proof.
  intros H. induction l1 as [|w l1 IH]; cbn [List.length app].
  - rewrite Nat.add_0_r. destruct m as [|[|[|m]]]; cbn; auto; lia.
  - rewrite Nat.add_succ_r. cbn [upd app]. f_equal. exact IH.
Qed.

Lemma nth_mid' {B} (l1 l2 : list B) x y z m d :
  m < 3 -> nth (m + List.length l1) (l1 ++ [x; y; z] ++ l2) d = nth m [x; y; z] d.
Proof. rewrite Nat.add_comm. apply nth_mid. Qed.

(** The axes (0, 1, 2) of the middle part, permuted. *)
Lemma transpose_mid s1 s2 a b c q (f : list nat -> A) :
  In q Oh_permutation_tuples ->
  let o := List.length s1 in
  let n := [a; b; c] in
  transpose (tab (s1 ++ n ++ s2) f)
    (seq 0 o ++ map (fun p => p + o) q ++ seq (o + 3) (List.length s2))
  = Ok (tab (s1 ++ map (fun p => nth p n 0) q ++ s2)
            (fun i => f (firstn o i ++ map (fun m => nth (index_of m q + o) i 0) [0; 1; 2]
                         ++ skipn (o + 3) i))).
Proof.
  intros Q o n.
  assert (Q1 : List.length q = 3 /\ (forall m, m < 3 -> nth m q 0 < 3 /\ In m q /\ index_of (nth m q 0) q = m)).
  { cbn in Q; intuition subst; auto; destruct m as [|[|[|m]]]; cbn; auto 20; lia. }
  destruct Q1 as [LQ Q2].
  assert (LN : forall l : list nat, List.length l = 3 ->
      List.length (s1 ++ l ++ s2) = o + 3 + List.length s2).
  { intros l L. rewrite !app_length, L. unfold o. lia. }
  assert (NP1 : forall m, m < o -> nth m (seq 0 o ++ map (fun p => p + o) q ++ seq (o + 3) (List.length s2)) 0 = m).
  { intros m M. rewrite app_nth1 by (rewrite seq_length; auto). apply nth_seq0; auto. }
  assert (NP2 : forall m, m < 3 -> nth (o + m) (seq 0 o ++ map (fun p => p + o) q ++ seq (o + 3) (List.length s2)) 0 = nth m q 0 + o).
  { intros m M. rewrite app_nth2; rewrite seq_length; [|lia].
    replace (o + m - o) with m by lia. rewrite app_nth1 by (rewrite map_length; lia).
    rewrite (nth_indep _ 0 (0 + o)) by (rewrite map_length; lia).
    rewrite (map_nth (fun p => p + o)). reflexivity. }
  assert (NP3 : forall m, m < List.length s2 -> nth (o + 3 + m) (seq 0 o ++ map (fun p => p + o) q ++ seq (o + 3) (List.length s2)) 0 = o + 3 + m).
  { intros m M. rewrite app_nth2; rewrite seq_length; [|lia].
    rewrite app_nth2; rewrite map_length; [|lia].
    replace (o + 3 + m - o - List.length q) with m by lia. rewrite seq_nth; auto. }
  assert (CASES : forall m, m < o + 3 + List.length s2 ->
     m < o \/ (exists j, j < 3 /\ m = o + j) \/ (exists j, j < List.length s2 /\ m = o + 3 + j)).
  { intros m M. destruct (Nat.lt_ge_cases m o); auto. right.
    destruct (Nat.lt_ge_cases m (o + 3)); [left; exists (m - o)|right; exists (m - o - 3)]; lia. }
  assert (I3 : forall (i1 i2 : list nat) (l : list nat), List.length i1 = o -> List.length l = 3 -> List.length i2 = List.length s2 ->
     (forall m, m < o -> nth m (i1 ++ l ++ i2) 0 = nth m i1 0) /\
     (forall m, m < 3 -> nth (o + m) (i1 ++ l ++ i2) 0 = nth m l 0) /\
     (forall m, m < List.length s2 -> nth (o + 3 + m) (i1 ++ l ++ i2) 0 = nth m i2 0)).
  { intros i1 i2 l L1 L L2. repeat split; intros m M.
    - apply app_nth1; lia.
    - rewrite app_nth2 by lia. replace (o + m - List.length i1) with m by lia. apply app_nth1; lia.
    - rewrite app_nth2 by lia. rewrite app_nth2 by lia. f_equal. lia. }
  assert (SPLIT : forall i, inb (s1 ++ map (fun p => nth p n 0) q ++ s2) i ->
     exists i1 l i2, i = i1 ++ l ++ i2 /\ inb s1 i1 /\ inb (map (fun p => nth p n 0) q) l /\ inb s2 i2 /\
       List.length i1 = o /\ List.length l = 3 /\ List.length i2 = List.length s2 /\
       firstn o i ++ map (fun m => nth (index_of m q + o) i 0) [0; 1; 2] ++ skipn (o + 3) i
       = i1 ++ map (fun m => nth (index_of m q) l 0) [0; 1; 2] ++ i2).
  { intros i I. destruct (inb_app_split _ _ _ I) as [i1 [i' [-> [I1 I']]]].
    destruct (inb_app_split _ _ _ I') as [l [i2 [-> [Il I2]]]].
    pose proof (inb_length _ _ I1) as L1. pose proof (inb_length _ _ Il) as Ll.
    pose proof (inb_length _ _ I2) as L2. rewrite map_length, LQ in Ll.
    exists i1, l, i2. repeat (split; [solve [auto]|]).
    destruct (I3 i1 i2 l) as [_ [J2 _]]; auto.
    rewrite firstn_app_exact by (unfold o; auto). f_equal. f_equal.
    - apply map_ext_in. intros m Hm. rewrite (Nat.add_comm _ o). apply J2.
      destruct (Q2 m) as [_ [Hin _]]; [cbn in Hm; lia|]. pose proof (index_of_lt _ _ Hin). lia.
    - rewrite app_assoc. apply skipn_app_exact. rewrite app_length. unfold o. lia. }
  apply transpose_tab.
  - rewrite !app_length, map_length, !seq_length, LQ. cbn. unfold o. lia.
  - rewrite (LN n) by reflexivity. intros m M.
    destruct (CASES m M) as [C|[[j [J ->]]|[j [J ->]]]].
    + rewrite <- (NP1 m C). apply nth_In. rewrite !app_length, map_length, !seq_length. lia.
    + apply in_or_app. right. apply in_or_app. left. apply in_map_iff. exists j. split; [lia|].
      apply Q2; auto.
    + rewrite <- (NP3 j J). apply nth_In. rewrite !app_length, map_length, !seq_length. lia.
  - rewrite !LN; auto. rewrite map_length; auto.
  - rewrite (LN n) by reflexivity. intros m M.
    destruct (I3 s1 s2 (map (fun p => nth p n 0) q)) as [J1 [J2 J3]]; auto; [rewrite map_length; auto|].
    destruct (I3 s1 s2 n) as [K1 [K2 K3]]; auto.
    destruct (CASES m M) as [C|[[j [J ->]]|[j [J ->]]]].
    + rewrite NP1, J1, K1 by auto. reflexivity.
    + rewrite NP2, J2 by auto. rewrite (Nat.add_comm _ o), K2 by (apply Q2; auto).
      rewrite (nth_indep (map (fun p => nth p n 0) q) 0 (nth 0 n 0)) by (rewrite map_length; lia).
      rewrite (map_nth (fun p => nth p n 0)). reflexivity.
    + rewrite NP3, J3, K3 by auto. reflexivity.
  - intros i I. destruct (SPLIT i I) as [i1 [l [i2 [E [I1 [Il [I2 [L1 [Ll [L2 ES]]]]]]]]]].
    rewrite ES. apply inb_app; auto. apply inb_app; auto.
    apply inb_intro; [reflexivity|]. cbn [List.length n]. intros m M.
    rewrite (nth_indep (map (fun m => nth (index_of m q) l 0) [0; 1; 2]) 0 (nth (index_of 0 q) l 0)) by (rewrite map_length; cbn; lia).
    rewrite (map_nth (fun m => nth (index_of m q) l 0)).
    destruct (Q2 m M) as [_ [Hin _]]. pose proof (index_of_lt _ _ Hin) as HL.
    assert (E3 : nth m [0; 1; 2] 0 = m) by (destruct m as [|[|[|m]]]; cbn; auto; lia).
    rewrite E3. pose proof (inb_nth _ _ (index_of m q) Il) as B. rewrite map_length in B.
    specialize (B HL).
    rewrite (nth_indep (map (fun p => nth p n 0) q) 0 (nth 0 n 0)) in B by (rewrite map_length; lia).
    rewrite (map_nth (fun p => nth p n 0)) in B. rewrite nth_index_of in B; auto.
  - rewrite (LN n) by reflexivity. intros i I m M.
    destruct (SPLIT i I) as [i1 [l [i2 [E [I1 [Il [I2 [L1 [Ll [L2 ES]]]]]]]]]]. rewrite ES, E.
    destruct (I3 i1 i2 (map (fun m => nth (index_of m q) l 0) [0; 1; 2])) as [J1 [J2 J3]]; auto.
    destruct (I3 i1 i2 l) as [K1 [K2 K3]]; auto.
    destruct (CASES m M) as [C|[[j [J ->]]|[j [J ->]]]].
    + rewrite NP1, J1, K1 by auto. reflexivity.
    + rewrite NP2 by auto. destruct (Q2 j J) as [B [_ X]].
      rewrite (Nat.add_comm _ o), J2, K2 by auto.
      rewrite (nth_indep (map (fun m => nth (index_of m q) l 0) [0; 1; 2]) 0 (nth (index_of 0 q) l 0)) by (rewrite map_length; cbn; lia).
      rewrite (map_nth (fun m => nth (index_of m q) l 0)).
      assert (E3 : nth (nth j q 0) [0; 1; 2] 0 = nth j q 0).
      { destruct (nth j q 0) as [|[|[|v]]]; cbn; auto; lia. }
      rewrite E3, X. reflexivity.
    + rewrite NP3, J3, K3 by auto. reflexivity.
Qed.

Lemma pixel_at_mid s1 s2 a b c e i1 i2 x y z :
  List.length e = 3 -> List.length i1 = List.length s1 ->
  let o := List.length s1 in
  pixel_at e [o; 1 + o; 2 + o] (s1 ++ [a; b; c] ++ s2) (i1 ++ [x; y; z] ++ i2)
  = i1 ++ pixel e [a; b; c] [x; y; z] ++ i2.
Proof.
  intros L L1 o. unfold pixel_at.
  assert (GS : gather [o; 1 + o; 2 + o] (s1 ++ [a; b; c] ++ s2) = [a; b; c]).
  { unfold gather. cbn [map].
    change (nth o (s1 ++ [a; b; c] ++ s2) 0) with (nth (0 + o) (s1 ++ [a; b; c] ++ s2) 0).
    unfold o. rewrite !nth_mid' by lia. reflexivity. }
  assert (GI : gather [o; 1 + o; 2 + o] (i1 ++ [x; y; z] ++ i2) = [x; y; z]).
  { unfold gather. cbn [map].
    change (nth o (i1 ++ [x; y; z] ++ i2) 0) with (nth (0 + o) (i1 ++ [x; y; z] ++ i2) 0).
    unfold o. rewrite <- L1. rewrite !nth_mid' by lia. reflexivity. }
  rewrite GS, GI. destruct e as [|e0 [|e1 [|e2 [|]]]]; try discriminate.
  assert (P : exists u v w, pixel [e0; e1; e2] [a; b; c] [x; y; z] = [u; v; w]).
  { unfold pixel. cbn [List.length seq combine map]. eauto. }
  destruct P as [u [v [w ->]]]. cbn [scatter]. unfold o. rewrite <- L1.
  rewrite upd_mid by lia. cbn [upd]. rewrite upd_mid by lia. cbn [upd].
  change (upd (List.length i1)) with (@upd nat (0 + List.length i1)).
  rewrite upd_mid by lia. reflexivity.
Qed.

Definition permuted_shape (q n : list nat) : list nat := map (fun p => nth p n 0) q.

Lemma Oh_one s1 s2 a b c (f : list nat -> A) k q fl :
  In q Oh_permutation_tuples -> In fl Oh_flip_axes ->
  let o := List.length s1 in
  let s := s1 ++ [a; b; c] ++ s2 in
  k <= List.length s ->
  (t <- flip_all (tab s f) (map (fun f => f + o) fl) ;;
   t <- transpose t (seq 0 o ++ map (fun p => p + o) q ++ seq (o + 3) (rank (tab s f) - (o + 3))) ;;
   expand_dims t (Z.of_nat k))
  = Ok (stk k 1 (s1 ++ permuted_shape q [a; b; c] ++ s2)
            (fun _ i => f (pixel_at (reversed_then_permuted q fl) [o; 1 + o; 2 + o] s i))).
Proof.
  intros Q FL o s K.
  assert (FL3 : forall m, In m fl -> m < 3).
  { intros m M. cbn in FL. intuition (subst; cbn in M; lia). }
  assert (Q3 : List.length q = 3) by (cbn in Q; intuition (subst; reflexivity)).
  assert (LS : List.length s = o + 3 + List.length s2).
  { unfold s. rewrite !app_length. cbn. unfold o. lia. }
  rewrite flip_all_tab.
  2:{ intros m M. apply in_map_iff in M as [m' [<- M]]. apply FL3 in M. lia. }
  cbn [bind]. rewrite rank_tab. replace (List.length s - (o + 3)) with (List.length s2) by lia.
  unfold s at 1, o. rewrite transpose_mid by auto. fold o. cbn [bind].
  rewrite expand_dims_tab.
  2:{ revert K. unfold s. rewrite !app_length, map_length, Q3. auto. }
  f_equal. apply stk_ext.
  { revert K. unfold s. rewrite !app_length. unfold permuted_shape. rewrite map_length, Q3. auto. }
  intros g i _ I. f_equal.
  destruct (inb_app_split _ _ _ I) as [i1 [i' [-> [I1 I']]]].
  destruct (inb_app_split _ _ _ I') as [l [i2 [-> [Il I2]]]].
  pose proof (inb_length _ _ I1) as L1. pose proof (inb_length _ _ Il) as Ll.
  unfold permuted_shape in Ll. rewrite map_length, Q3 in Ll.
  destruct l as [|x [|y [|z [|]]]]; try discriminate.
  unfold s, o. rewrite pixel_at_mid by auto.
  rewrite <- L1. rewrite firstn_app_exact by auto.
  rewrite (app_assoc i1 [x; y; z] i2), skipn_app_exact by (rewrite app_length; cbn; lia).
  rewrite <- (app_assoc i1). 
  assert (E : map (fun m => nth (index_of m q + List.length i1) (i1 ++ [x; y; z] ++ i2) 0) [0; 1; 2]
              = map (fun m => nth (index_of m q) [x; y; z] 0) [0; 1; 2]).
  { apply map_ext_in. intros m M. apply nth_mid'.
    cbn in M, Q. intuition (subst; cbn; lia). }
  rewrite E. rewrite L1. clear E.
  assert (FP : forall j0 j1 j2,
     flips (map (fun f0 => f0 + List.length s1) fl) (s1 ++ [a; b; c] ++ s2) (i1 ++ [j0; j1; j2] ++ i2)
     = i1 ++ flips fl [a; b; c] [j0; j1; j2] ++ i2).
  { intros j0 j1 j2. clear - FL3 L1. induction fl as [|m fl IH]; [reflexivity|].
    cbn [map flips]. rewrite IH by (intros; apply FL3; right; auto).
    assert (L : forall fl', List.length (flips fl' [a; b; c] [j0; j1; j2]) = 3).
    { induction fl'; cbn [flips]; auto. rewrite length_upd. auto. }
    specialize (L fl). destruct (flips fl [a; b; c] [j0; j1; j2]) as [|u [|v [|w [|]]]]; try discriminate.
    assert (M : m < 3) by (apply FL3; left; auto).
    rewrite nth_mid' by auto. rewrite <- L1. rewrite nth_mid' by auto. rewrite upd_mid by auto. reflexivity. }
  cbn [map]. rewrite FP. f_equal. f_equal.
  cbn in Q, FL.
  destruct Q as [<-|[<-|[<-|[<-|[<-|[<-|[]]]]]]];
    destruct FL as [<-|[<-|[<-|[<-|[<-|[<-|[<-|[<-|[]]]]]]]]]; reflexivity.
Qed.

Lemma pickF_ones {B} (F : B -> list nat -> A) l g i d :
  g < List.length l -> pickF (map (fun x => (1, fun _ => F x)) l) g i = F (nth g l d) i.
Proof.
  revert g; induction l as [|x l IH]; intros g H; cbn in H; [lia|].
  destruct g as [|g]; cbn.
  - reflexivity.
  - rewrite Nat.sub_0_r. apply IH. lia.
Qed.

Lemma total_ones {B} (F : B -> list nat -> A) l :
  total (map (fun x => (1, fun (_ : nat) => F x)) l) = List.length l.
Proof. induction l as [|x l IH]; cbn; auto. Qed.

Lemma Oh_symmetries_params :
  Oh_symmetries = map (fun pf => reversed_then_permuted (fst pf) (snd pf)) Oh_parameters.
Proof. reflexivity. Qed.

Lemma permuted_cube q n : In q Oh_permutation_tuples -> permuted_shape q [n; n; n] = [n; n; n].
Proof. intros Q. cbn in Q. intuition (subst; reflexivity). Qed.

Lemma In_params pf : In pf Oh_parameters -> In (fst pf) Oh_permutation_tuples /\ In (snd pf) Oh_flip_axes.
Proof. intros H. destruct pf as [q fl]. unfold Oh_parameters in H. apply in_prod_iff in H. exact H. Qed.

Lemma Oh_action_mid s1 s2 n (f : list nat -> A) k rest :
  let o := List.length s1 in
  let s := s1 ++ [n; n; n] ++ s2 in
  k <= List.length s ->
  Oh_action (tab s f) (Z.of_nat o :: rest) (Z.of_nat k)
  = Ok (stk k 48 s (fun g i => f (pixel_at (nth g Oh_symmetries []) [o; 1 + o; 2 + o] s i))).
Proof.
  intros o s K. unfold Oh_action.
  replace (0 <=? Z.of_nat o)%Z with true by lia. rewrite Nat2Z.id.
  rewrite (mapM_Ok _ (fun pf => stk k 1 s (fun _ i => f (pixel_at (reversed_then_permuted (fst pf) (snd pf)) [o; 1 + o; 2 + o] s i)))).
  2:{ intros pf P. apply In_params in P as [Q FL].
      pose proof (Oh_one s1 s2 n n n f k (fst pf) (snd pf) Q FL K) as E.
      rewrite permuted_cube in E by auto. exact E. }
  cbn [bind].
  etransitivity.
  { pose proof (concatenate_stk k s (map (fun pf => (1, fun (_ : nat) i => f (pixel_at (reversed_then_permuted (fst pf) (snd pf)) [o; 1 + o; 2 + o] s i))) Oh_parameters)) as E.
    rewrite map_map in E. apply E; auto. discriminate. }
  f_equal. rewrite (total_ones (fun pf i => f (pixel_at (reversed_then_permuted (fst pf) (snd pf)) [o; 1 + o; 2 + o] s i))).
  change (List.length Oh_parameters) with 48. apply stk_ext; auto. intros g i G I.
  etransitivity; [apply (pickF_ones (fun pf i => f (pixel_at (reversed_then_permuted (fst pf) (snd pf)) [o; 1 + o; 2 + o] s i)) _ _ _ ([], [])); exact G|].
  cbv beta. f_equal. f_equal. rewrite Oh_symmetries_params.
  rewrite (nth_indep _ [] (reversed_then_permuted [] [])) by (rewrite map_length; exact G).
  symmetry. apply (map_nth (fun pf => reversed_then_permuted (fst pf) (snd pf)) Oh_parameters ([], [])).
Qed.

(** A box that is not a cube is refused. *)
Lemma Oh_action_not_cube s1 s2 a b c (f : list nat -> A) k rest :
  let o := List.length s1 in
  let s := s1 ++ [a; b; c] ++ s2 in
  k <= List.length s -> ~ (a = b /\ b = c) ->
  exists e, Oh_action (tab s f) (Z.of_nat o :: rest) (Z.of_nat k) = Err e.
Proof.
  intros o s K NC. unfold Oh_action.
  replace (0 <=? Z.of_nat o)%Z with true by lia. rewrite Nat2Z.id.
  set (ST := fun pf => stk k 1 (s1 ++ permuted_shape (fst pf) [a; b; c] ++ s2) (fun _ i => f (pixel_at (reversed_then_permuted (fst pf) (snd pf)) [o; 1 + o; 2 + o] s i))).
  rewrite (mapM_Ok _ ST).
  2:{ intros pf P. apply In_params in P as [Q FL].
      pose proof (Oh_one s1 s2 a b c f k (fst pf) (snd pf) Q FL K) as E. exact E. }
  cbn [bind].
  assert (exists q, In q Oh_permutation_tuples /\ permuted_shape q [a; b; c] <> [a; b; c]) as [q [Q NQ]].
  { destruct (Nat.eq_dec a b) as [E|N].
    - exists [0; 2; 1]. split; [cbn; tauto|]. cbn. intros X. injection X as X1 X2. subst. tauto.
    - exists [1; 0; 2]. split; [cbn; tauto|]. cbn. intros X. injection X as X1 X2. subst. tauto. }
  apply (concatenate_bad _ (ST ([0; 1; 2], [])) (ST (q, []))).
  - apply in_map. unfold Oh_parameters. apply in_prod; auto. cbn; tauto.
  - reflexivity.
  - intros k' E.
    assert (L : List.length (s1 ++ [a; b; c] ++ s2) = List.length (s1 ++ permuted_shape q [a; b; c] ++ s2)).
    { rewrite !app_length. unfold permuted_shape. rewrite map_length. cbn in Q. intuition (subst; reflexivity). }
    unfold ST in E. rewrite rank_stk in E. cbn [fst permuted_shape map nth] in E.
    rewrite norm_axis_nat in E by (fold s; lia). injection E as <-.
    apply not_true_is_false. intros C. apply same_shape_except_eq in C.
    2:{ unfold ST. rewrite shape_stk, length_insert_at. cbn [fst permuted_shape map nth]. fold s. lia. }
    destruct C as [_ C]. unfold ST in C. rewrite !shape_stk, !remove_insert_at in C.
    + cbn [fst] in C. apply app_inv_head in C. apply app_inv_tail in C. apply NQ. symmetry. exact C.
    + cbn [fst]. rewrite <- L. exact K.
    + cbn [fst permuted_shape map nth]. exact K.
Qed.

End Oh.
