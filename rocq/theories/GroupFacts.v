(** Facts about library groups: their tables and their actions. *)
From Verif Require Export OhFacts.

(** ** Symmetries *)

Lemma is_symmetry_nth d e p : is_symmetry d e -> p < d -> fst (nth p e (0, false)) < d.
Proof.
  intros [L H] P.
  assert (B : forall x, In x (map fst e) -> x < d).
  { intros x X. destruct (Nat.lt_ge_cases x d) as [|G]; auto. exfalso.
    assert (ND : NoDup (map fst e)).
    { apply (@NoDup_incl_NoDup _ (seq 0 d) (map fst e)); [apply seq_NoDup|rewrite map_length, seq_length; lia|].
      intros a Ha. apply H. apply in_seq in Ha. lia. }
    assert (IN : incl (map fst e) (seq 0 d)).
    { apply (NoDup_length_incl (l := seq 0 d) (l' := map fst e)); [apply seq_NoDup|rewrite map_length, seq_length; lia|].
      intros a Ha. apply H. apply in_seq in Ha. lia. }
    apply IN in X. apply in_seq in X. lia. }
  apply B. change 0 with (fst (0, false)). rewrite <- map_nth with (d := (0, false)).
  apply nth_In. rewrite map_length. lia.
Qed.

Lemma nth_after a b p d :
  p < List.length b ->
  nth p (after a b) d = let '(x, r) := nth p b (0, false) in
                        let '(x', r') := nth x a (0, false) in (x', xorb r r').
Proof.
  intros H. unfold after.
  set (F := fun q => let '(p, r) := q in let '(p', r') := nth p a (0, false) in (p', xorb r r')).
  rewrite (nth_indep _ d (F (0, false))) by (rewrite map_length; auto).
  rewrite (map_nth F). reflexivity.
Qed.

Lemma length_after a b : List.length (after a b) = List.length b.
Proof. unfold after. apply map_length. Qed.

Lemma after_assoc d a b c :
  is_symmetry d a -> is_symmetry d b -> is_symmetry d c ->
  after a (after b c) = after (after a b) c.
Proof.
  intros A B C. apply (nth_ext _ _ (0, false) (0, false)).
  - rewrite !length_after. reflexivity.
  - rewrite !length_after. intros p P.
    rewrite !nth_after by (rewrite ?length_after; auto).
    pose proof (is_symmetry_nth d c p C) as X. destruct C as [LC _]. rewrite LC in P. specialize (X P).
    destruct (nth p c (0, false)) as [x r]. cbn [fst] in X.
    rewrite nth_after by (destruct B as [LB _]; lia).
    destruct (nth x b (0, false)) as [y r']. destruct (nth y a (0, false)) as [z r''].
    rewrite xorb_assoc. reflexivity.
Qed.

Lemma length_pixel e n i : List.length (pixel e n i) = List.length e.
Proof. unfold pixel. rewrite map_length, combine_length, seq_length. lia. Qed.

Lemma nth_pixel e n i m :
  m < List.length e ->
  nth m (pixel e n i) 0 = let '(p, r) := nth m e (0, false) in
                          if (r : bool) then nth m n 0 - 1 - nth p i 0 else nth p i 0.
Proof.
  intros H. unfold pixel.
  set (F := fun q : nat * (nat * bool) => let '(m, (p, r)) := q in if r then nth m n 0 - 1 - nth p i 0 else nth p i 0).
  assert (L : List.length (combine (seq 0 (List.length e)) e) = List.length e).
  { rewrite combine_length, seq_length. lia. }
  rewrite (nth_indep _ 0 (F (0, (0, false)))) by (rewrite map_length; lia).
  rewrite (map_nth F). rewrite combine_nth by (rewrite seq_length; auto).
  rewrite seq_nth by auto. cbn. destruct (nth m e (0, false)). reflexivity.
Qed.

Lemma pixel_inb d e n i :
  is_symmetry d e -> List.length n = d -> fits e n -> inb n i -> inb n (pixel e n i).
Proof.
  intros SY L FI I. pose proof SY as [LE _]. apply inb_intro.
  - rewrite length_pixel. lia.
  - rewrite L. intros m M. rewrite nth_pixel by lia.
    pose proof (is_symmetry_nth _ _ _ SY M) as P. specialize (FI m ltac:(lia)).
    destruct (nth m e (0, false)) as [p r]. cbn [fst] in *.
    pose proof (inb_nth _ _ p I ltac:(lia)). destruct r; lia.
Qed.

(** "first [b], then [a]": the pixel of [after a b] is [b]'s pixel of [a]'s pixel. *)
Lemma pixel_after d a b n i :
  is_symmetry d a -> is_symmetry d b -> List.length n = d -> fits a n -> fits b n -> inb n i ->
  pixel (after a b) n i = pixel b n (pixel a n i).
Proof.
  intros A B L FA FB I. pose proof A as [LA _]. pose proof B as [LB _].
  apply nth_ext0.
  - rewrite !length_pixel, length_after. reflexivity.
  - rewrite length_pixel, length_after. intros m M.
    rewrite !nth_pixel by (rewrite ?length_after; auto). rewrite nth_after by auto.
    pose proof (is_symmetry_nth _ _ m B ltac:(lia)) as X.
    specialize (FB m ltac:(lia)).
    destruct (nth m b (0, false)) as [x r]. cbn [fst] in *.
    rewrite nth_pixel by lia.
    pose proof (is_symmetry_nth _ _ x A ltac:(lia)) as Y. specialize (FA x ltac:(lia)).
    destruct (nth x a (0, false)) as [y r']. cbn [fst] in *.
    pose proof (inb_nth _ _ y I ltac:(lia)).
    destruct r, r'; cbn [xorb]; lia.
Qed.

Lemma pixel_identity d n i : List.length i = d -> pixel (identity d) n i = i.
Proof.
  intros L. apply nth_ext0.
  - rewrite length_pixel. unfold identity. rewrite map_length, seq_length. auto.
  - rewrite length_pixel. unfold identity. rewrite map_length, seq_length. intros m M.
    rewrite nth_pixel by (rewrite map_length, seq_length; auto).
    pose proof (map_nth (fun m : nat => (m, false)) (seq 0 d) 0 m) as E. cbv beta in E.
    rewrite E, seq_nth by auto. reflexivity.
Qed.

Lemma fits_all_equal d e n : is_symmetry d e -> List.length n = d -> all_equal n -> fits e n.
Proof.
  intros S L H m M. apply H; apply nth_In.
  - pose proof (is_symmetry_nth _ _ m S) as X. destruct S as [LE _]. rewrite LE in M. specialize (X M). lia.
  - destruct S as [LE _]. lia.
Qed.

(** ** Reading and writing spatial coordinates *)

Lemma length_scatter sp v i : List.length (scatter sp v i) = List.length i.
Proof.
  revert v; induction sp as [|a sp IH]; intros [|x v]; cbn [scatter]; auto.
  rewrite length_upd. auto.
Qed.

Lemma nth_scatter_other sp v i a : ~ In a sp -> nth a (scatter sp v i) 0 = nth a i 0.
Proof.
  revert v; induction sp as [|b sp IH]; intros [|x v] H; cbn [scatter]; auto.
  rewrite nth_upd_other by (intros ->; apply H; left; auto). apply IH. intros C; apply H; right; auto.
Qed.

Lemma nth_scatter sp v i m :
  NoDup sp -> (forall a, In a sp -> a < List.length i) -> m < List.length sp -> List.length v = List.length sp ->
  nth (nth m sp 0) (scatter sp v i) 0 = nth m v 0.
Proof.
  revert v m; induction sp as [|b sp IH]; intros v m ND H M L; cbn [List.length] in M; [lia|].
  destruct v as [|x v]; cbn [List.length] in L; [lia|].
  inversion ND as [|? ? N1 N2]; subst. cbn [scatter].
  destruct m as [|m]; cbn [nth].
  - apply nth_upd_same. rewrite length_scatter. apply H; left; auto.
  - rewrite nth_upd_other.
    + apply IH; auto; try lia; intros; apply H; right; auto.
    + intros ->. apply N1. apply nth_In. lia.
Qed.

Lemma gather_scatter sp v i :
  NoDup sp -> (forall a, In a sp -> a < List.length i) -> List.length v = List.length sp ->
  gather sp (scatter sp v i) = v.
Proof.
  intros ND H L. unfold gather. apply nth_ext0; rewrite map_length; auto.
  intros m M. rewrite (nth_indep _ 0 (nth 0 (scatter sp v i) 0)) by (rewrite map_length; auto).
  rewrite (map_nth (fun a => nth a (scatter sp v i) 0)). apply nth_scatter; auto.
Qed.

Lemma nth_gather sp i m : m < List.length sp -> nth m (gather sp i) 0 = nth (nth m sp 0) i 0.
Proof.
  intros M. unfold gather. rewrite (nth_indep _ 0 (nth 0 i 0)) by (rewrite map_length; auto).
  apply (map_nth (fun a => nth a i 0)).
Qed.

Lemma length_gather sp i : List.length (gather sp i) = List.length sp.
Proof. apply map_length. Qed.

Lemma scatter_scatter sp v w i :
  NoDup sp -> (forall a, In a sp -> a < List.length i) ->
  List.length v = List.length sp -> List.length w = List.length sp ->
  scatter sp v (scatter sp w i) = scatter sp v i.
Proof.
  intros ND H LV LW. apply nth_ext0; rewrite !length_scatter; auto. intros a Ha.
  destruct (in_dec Nat.eq_dec a sp) as [IN|NI].
  - destruct (In_nth _ _ 0 IN) as [m [M <-]].
    rewrite !nth_scatter by (auto; rewrite length_scatter; auto). reflexivity.
  - rewrite !nth_scatter_other by auto. reflexivity.
Qed.

Lemma scatter_gather sp i :
  NoDup sp -> (forall a, In a sp -> a < List.length i) -> scatter sp (gather sp i) i = i.
Proof.
  intros ND H. apply nth_ext0; rewrite !length_scatter; auto. intros a Ha.
  destruct (in_dec Nat.eq_dec a sp) as [IN|NI].
  - destruct (In_nth _ _ 0 IN) as [m [M <-]].
    rewrite nth_scatter by (auto; rewrite length_gather; auto). apply nth_gather; auto.
  - rewrite !nth_scatter_other by auto. reflexivity.
Qed.

Lemma inb_gather sp s i :
  (forall a, In a sp -> a < List.length s) -> inb s i -> inb (gather sp s) (gather sp i).
Proof.
  intros H I. apply inb_intro; rewrite !length_gather; auto.
  intros m M. rewrite !nth_gather by auto. apply inb_nth; auto. apply H. apply nth_In; auto.
Qed.

Lemma inb_scatter sp s v i :
  NoDup sp -> (forall a, In a sp -> a < List.length s) ->
  inb (gather sp s) v -> inb s i -> inb s (scatter sp v i).
Proof.
  intros ND H V I. pose proof (inb_length _ _ I) as L. pose proof (inb_length _ _ V) as LV.
  rewrite length_gather in LV.
  apply inb_intro; rewrite ?length_scatter; auto.
  intros a Ha. destruct (in_dec Nat.eq_dec a sp) as [IN|NI].
  - destruct (In_nth _ _ 0 IN) as [m [M <-]].
    rewrite nth_scatter by (auto; intros; rewrite L; auto).
    pose proof (inb_nth _ _ m V) as B. rewrite length_gather, nth_gather in B by auto. auto.
  - rewrite nth_scatter_other by auto. apply inb_nth; auto.
Qed.

Section PixelAt.
Variables (d : nat) (sp s : list nat).
Hypothesis ND : NoDup sp.
Hypothesis LSP : List.length sp = d.
Hypothesis HS : forall a, In a sp -> a < List.length s.

Lemma pixel_at_inb e i :
  is_symmetry d e -> fits e (gather sp s) -> inb s i -> inb s (pixel_at e sp s i).
Proof.
  intros SY FI I. unfold pixel_at. apply inb_scatter; auto.
  apply (pixel_inb d); auto.
  - rewrite length_gather; auto.
  - apply inb_gather; auto.
Qed.

Lemma gather_pixel_at e i :
  is_symmetry d e -> inb s i ->
  gather sp (pixel_at e sp s i) = pixel e (gather sp s) (gather sp i).
Proof.
  intros [LE _] I. unfold pixel_at. pose proof (inb_length _ _ I) as L. apply gather_scatter; auto.
  - intros; rewrite L; auto.
  - rewrite length_pixel. lia.
Qed.

Lemma pixel_at_after a b i :
  is_symmetry d a -> is_symmetry d b -> fits a (gather sp s) -> fits b (gather sp s) -> inb s i ->
  pixel_at (after a b) sp s i = pixel_at b sp s (pixel_at a sp s i).
Proof.
  intros A B FA FB I. pose proof (inb_length _ _ I) as L.
  unfold pixel_at at 1 2. rewrite gather_pixel_at by auto.
  rewrite (pixel_after d) by (auto; rewrite ?length_gather; auto using inb_gather).
  unfold pixel_at. rewrite scatter_scatter; auto.
  - intros; rewrite L; auto.
  - rewrite length_pixel. destruct B; lia.
  - rewrite length_pixel. destruct A; lia.
Qed.

Lemma pixel_at_identity i : inb s i -> pixel_at (identity d) sp s i = i.
Proof.
  intros I. unfold pixel_at. rewrite pixel_identity by (rewrite length_gather; auto).
  apply scatter_gather; auto. rewrite (inb_length _ _ I). auto.
Qed.

End PixelAt.

Lemma gather_shift k sp v i : k <= List.length i -> gather (map (shift k) sp) (insert_at k v i) = gather sp i.
Proof.
  intros K. unfold gather. rewrite map_map. apply map_ext. intros a. apply nth_shift; auto.
Qed.

Lemma scatter_shift k sp v w i :
  k <= List.length i -> scatter (map (shift k) sp) v (insert_at k w i) = insert_at k w (scatter sp v i).
Proof.
  intros K. revert v; induction sp as [|a sp IH]; intros [|x v]; cbn [map scatter]; auto.
  rewrite IH, upd_shift; auto. rewrite length_scatter. auto.
Qed.

Lemma pixel_at_shift e k sp n s v i :
  k <= List.length s -> k <= List.length i ->
  pixel_at e (map (shift k) sp) (insert_at k n s) (insert_at k v i) = insert_at k v (pixel_at e sp s i).
Proof.
  intros K K'. unfold pixel_at. rewrite !gather_shift, scatter_shift by auto. reflexivity.
Qed.
