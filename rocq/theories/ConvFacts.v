(** The Keras convolution as a sum over windows, with and without extra padding. *)
From Coq Require Import Permutation.
From Verif Require Export SignalFacts.
Local Open Scope string_scope.
Local Open Scope list_scope.

Lemma length_axes n k s d : List.length n = d -> List.length k = d -> List.length s = d -> List.length (axes_of n k s) = d.
Proof. intros. unfold axes_of. etransitivity; [apply combine_length|]. rewrite combine_length. lia. Qed.

Definition outs (N ke s : list nat) : list nat :=
  map (fun q => let '(n, k, s) := q in out_size n k s) (combine (combine N ke) s).

Lemma length_outs N ke s d : List.length N = d -> List.length ke = d -> List.length s = d -> List.length (outs N ke s) = d.
Proof. intros. unfold outs. rewrite map_length, !combine_length. lia. Qed.

Lemma nth_outs N ke s d a : List.length N = d -> List.length ke = d -> List.length s = d -> a < d ->
  nth a (outs N ke s) 0 = out_size (nth a N 0) (nth a ke 0) (nth a s 0).
Proof.
  intros L1 L2 L3 Ha. unfold outs.
  change (nth a (map (fun q : axis => let '(n, k, s) := q in out_size n k s) (axes_of N ke s)) 0 = out_size (nth a N 0) (nth a ke 0) (nth a s 0)).
  rewrite nth_map_axes by (rewrite (length_axes _ _ _ d); assumption).
  rewrite (nth_axes N ke s d a) by assumption. reflexivity.
Qed.

Lemma length_padded before n after d : List.length before = d -> List.length n = d -> List.length after = d ->
  List.length (padded before n after) = d.
Proof. intros. unfold padded. rewrite !length_vzip; rewrite ?length_vzip; lia. Qed.

Lemma nth_padded before n after d a : List.length before = d -> List.length n = d -> List.length after = d -> a < d ->
  nth a (padded before n after) 0 = nth a before 0 + nth a n 0 + nth a after 0.
Proof. intros. unfold padded. rewrite !nth_vzip; rewrite ?length_vzip; lia. Qed.

Lemma forallb_combine_le ke N d : List.length ke = d -> List.length N = d ->
  forallb (fun p => fst p <=? snd p)%nat (combine ke N) = true -> forall a, a < d -> nth a ke 0 <= nth a N 0.
Proof.
  intros L1 L2 H a Ha. rewrite forallb_forall in H. specialize (H (nth a (combine ke N) (0, 0))).
  rewrite combine_nth in H by lia. apply Nat.leb_le. apply H. rewrite <- combine_nth by lia. apply nth_In.
  rewrite combine_length. lia.
Qed.

Lemma forallb_combine_le_iff ke N d : List.length ke = d -> List.length N = d ->
  (forall a, a < d -> nth a ke 0 <= nth a N 0) -> forallb (fun p => fst p <=? snd p)%nat (combine ke N) = true.
Proof.
  intros L1 L2 H. apply forallb_forall. intros p P. apply (In_nth _ _ (0, 0)) in P as [a [Ha <-]].
  rewrite combine_length in Ha. rewrite combine_nth by lia. cbn [fst snd]. apply Nat.leb_le. apply H. lia.
Qed.

Lemma inside_spec before n p d : List.length before = d -> List.length n = d -> List.length p = d ->
  (inside before n p = true <-> forall a, a < d -> nth a before 0 <= nth a p 0 < nth a before 0 + nth a n 0).
Proof.
  revert before n p. induction d as [|d IH]; intros [|x b] [|y n] [|v p] L1 L2 L3; cbn [List.length] in *; try discriminate.
  - split; [intros _ a Ha; lia|reflexivity].
  - unfold inside. cbn [combine forallb]. fold (inside b n p). rewrite !andb_true_iff, Nat.leb_le, Nat.ltb_lt.
    rewrite IH by lia. split.
    + intros [H1 H2] [|a] Ha; cbn [nth]; [lia|apply H2; lia].
    + intros H. split; [specialize (H 0); cbn [nth] in H; lia|]. intros a Ha. specialize (H (S a)). cbn [nth] in H. lia.
Qed.

Lemma inside_none before n p d : List.length before = d -> List.length n = d -> List.length p = d ->
  inside before n p = false -> exists a, a < d /\ ~ (nth a before 0 <= nth a p 0 < nth a before 0 + nth a n 0).
Proof.
  revert before n p. induction d as [|d IH]; intros [|x b] [|y n] [|v p] L1 L2 L3; cbn [List.length] in *; try discriminate.
  unfold inside. cbn [combine forallb]. fold (inside b n p). intros H.
  destruct (inside b n p) eqn:Q.
  - exists 0. cbn [nth]. split; [lia|]. rewrite andb_true_r in H.
    destruct (Nat.leb_spec x v), (Nat.ltb_spec v (x + y)); cbn [andb] in H; try discriminate; lia.
  - destruct (IH b n p) as [a [Ha N]]; try lia; [exact Q|]. exists (S a). cbn [nth]. split; [lia|exact N].
Qed.

Section ConvFacts.
Context {A : Type} {RA : Arith A}.

Definition or_zero (o : option A) : A := match o with Some x => x | None => zero end.
Definition cterm (o : option A) (w : A) : A := mul (or_zero o) w.

(** Sources of a convolution with [before] zeros in front of each axis. *)
Definition csrc (n s dl before : list nat) : list nat -> list nat -> option (list nat) :=
  wsrc (fun a => conv_src (nth a n 0) (nth a s 0) (nth a dl 0) (nth a before 0)) (List.length n).

(** Zeros around a function of the pixels. *)
Definition bordered (before n : list nat) (X : nat -> list nat -> nat -> A) (bi : nat) (p : list nat) (q : nat) : A :=
  if inside before n p then X bi (vzip Nat.sub p before) q else zero.

Lemma pad_sig3 d before after b n c (X : nat -> list nat -> nat -> A) :
  List.length n = d -> List.length before = d -> List.length after = d ->
  pad (tab (b :: n ++ [c])%list (sig3 d X)) ((0, 0) :: combine before after ++ [(0, 0)])%list
  = Ok (tab (b :: padded before n after ++ [c])%list (sig3 d (bordered before n X))).
Proof.
  intros L LB LA.
  destruct (pad_border "channels_last" before after (tab (b :: n ++ [c])%list (sig3 d X)) b n c eq_refl) as [y [E [W Z]]]; [lia|lia|].
  etransitivity; [exact E|]. f_equal.
  destruct Z as [b' [n' [c' [S0 [_ [_ [S1 H]]]]]]]. cbn [layout String.eqb Ascii.eqb Bool.eqb] in S0, S1, H. rewrite shape_tab in S0.
  assert (Q : b' = b /\ n' = n /\ c' = c).
  { injection S0 as -> Q. apply app_inj_tail in Q as [-> ->]. auto. }
  destruct Q as [-> [-> ->]]. fold (padded before n after) in S1.
  pose proof (length_padded before n after d LB L LA) as LN.
  rewrite (tensor_sig3 d b (padded before n after) c y W LN S1). apply sig3_ext; [exact LN|].
  intros bi p q B P Q. unfold fun3. rewrite H by (rewrite S1; apply inb3; assumption).
  unfold bordered. pose proof (inb_length _ _ P) as LP. rewrite LN in LP.
  destruct (inside before n p) eqn:IN; [|reflexivity].
  pose proof (proj1 (inside_spec before n p d LB L LP) IN) as IN'.
  rewrite at_sig3; [reflexivity|exact L|exact B| |exact Q].
  apply inb_intro; [rewrite length_vzip; lia|]. rewrite L. intros a Ha. rewrite nth_vzip by lia. specialize (IN' a Ha). lia.
Qed.

Lemma length_builtin padding n ke s d : List.length n = d -> List.length ke = d -> List.length s = d ->
  List.length (builtin_pads padding n ke s) = d.
Proof. intros. unfold builtin_pads. destruct (padding =? "same"); rewrite map_length; rewrite ?combine_length; lia. Qed.

Lemma combine_split' (l : list (nat * nat)) : combine (map fst l) (map snd l) = l.
Proof. induction l as [|[a b] l IH]; cbn; [reflexivity|]. f_equal. exact IH. Qed.

Lemma nth_builtin padding n ke s d a : List.length n = d -> List.length ke = d -> List.length s = d -> a < d ->
  nth a (builtin_pads padding n ke s) (0, 0) = backend_pads (padding =? "same") (nth a n 0) (nth a ke 0) (nth a s 0).
Proof.
  intros L1 L2 L3 Ha. unfold builtin_pads, backend_pads. destruct (padding =? "same").
  - change (nth a (map (fun q : axis => let '(n, k, s) := q in same_pads n k s) (axes_of n ke s)) (0, 0)
            = same_pads (nth a n 0) (nth a ke 0) (nth a s 0)).
    rewrite nth_map_axes by (rewrite (length_axes _ _ _ d); assumption).
    rewrite (nth_axes n ke s d a) by assumption. reflexivity.
  - clear. revert a. induction n as [|x n IH]; intros [|a]; cbn; auto.
Qed.

(** A window over a signal with a border of zeros. *)
Lemma window_bordered d n s dl eb ea bb k C (X : nat -> list nat -> nat -> A) W bi p r :
  List.length n = d -> List.length eb = d -> List.length ea = d -> List.length bb = d ->
  window d (csrc (padded eb n ea) s dl bb) cterm k C (bordered eb n X bi) W p r
  = window d (csrc n s dl (vzip Nat.add eb bb)) cterm k C (X bi) W p r.
Proof.
  intros L LE LA LB. unfold window. f_equal. apply map_ext. intros jc. unfold cterm. f_equal.
  pose proof (length_padded eb n ea d LE L LA) as LN. unfold csrc. rewrite LN, L.
  set (j := firstn d jc). set (q := nth d jc 0).
  assert (ST : forall a, a < d -> conv_src (nth a n 0) (nth a s 0) (nth a dl 0) (nth a (vzip Nat.add eb bb) 0) (nth a p 0) (nth a j 0)
     = match conv_src (nth a (padded eb n ea) 0) (nth a s 0) (nth a dl 0) (nth a bb 0) (nth a p 0) (nth a j 0) with
       | Some i => if ((nth a eb 0 <=? i) && (i <? nth a eb 0 + nth a n 0))%nat then Some (i - nth a eb 0)%nat else None
       | None => None end).
  { intros a Ha. rewrite (nth_padded eb n ea d a) by assumption. rewrite nth_vzip by lia. unfold conv_src.
    set (v := (nth a p 0 * nth a s 0 + nth a j 0 * nth a dl 0)%nat).
    set (E := nth a eb 0) in *. set (Bb := nth a bb 0) in *. set (N := nth a n 0) in *. set (F := nth a ea 0) in *. clearbody v E Bb N F.
    destruct (Nat.leb_spec Bb v), (Nat.ltb_spec (v - Bb) (E + N + F)), (Nat.leb_spec (E + Bb) v), (Nat.ltb_spec (v - (E + Bb)) N);
      cbn [andb]; try lia; try reflexivity;
      destruct (Nat.leb_spec E (v - Bb)), (Nat.ltb_spec (v - Bb) (E + N)); cbn [andb]; try lia; try reflexivity.
    f_equal. lia. }
  destruct (wsrc _ d p j) as [i|] eqn:W1.
  - apply wsrc_some in W1 as [LI HI]. cbn [option_map or_zero]. unfold bordered.
    destruct (inside eb n i) eqn:IN.
    + pose proof (proj1 (inside_spec eb n i d LE L LI) IN) as IN'.
      rewrite (wsrc_all _ d p j (vzip Nat.sub i eb)); [reflexivity|rewrite length_vzip; lia|].
      intros a Ha. rewrite ST, HI by exact Ha. specialize (IN' a Ha). rewrite nth_vzip by lia.
      rewrite (proj2 (Nat.leb_le _ _) (proj1 IN')), (proj2 (Nat.ltb_lt _ _) (proj2 IN')). reflexivity.
    + destruct (inside_none eb n i d LE L LI IN) as [a [Ha NI]].
      rewrite (proj2 (wsrc_none _ d p j)); [reflexivity|]. exists a. split; [exact Ha|].
      rewrite ST, HI by exact Ha. destruct (Nat.leb_spec (nth a eb 0) (nth a i 0)), (Nat.ltb_spec (nth a i 0) (nth a eb 0 + nth a n 0)); cbn [andb]; try lia; reflexivity.
  - apply wsrc_none in W1 as [a [Ha HN]]. rewrite (proj2 (wsrc_none _ d p j)); [reflexivity|].
    exists a. split; [exact Ha|]. rewrite ST, HN by exact Ha. reflexivity.
Qed.

Lemma conv_last_eq d b n C o k (X : nat -> list nat -> nat -> A) (w : tensor A) s dl padding :
  List.length n = d -> List.length s = d -> List.length dl = d -> List.length k = d -> shape w = (k ++ [C; o])%list ->
  (forall a, a < d -> 0 < nth a k 0) -> (forall a, a < d -> 0 < nth a s 0) ->
  let ke := vzip dilated k dl in
  let pads := builtin_pads padding n ke s in
  let N := padded (map fst pads) n (map snd pads) in
  conv_last (tab (b :: n ++ [C])%list (sig3 d X)) w s dl padding
  = if forallb (fun p => fst p <=? snd p)%nat (combine ke N)
    then Ok (tab (b :: outs N ke s ++ [o])%list
                 (sig3 d (fun bi p r => window d (csrc n s dl (map fst pads)) cterm k C (X bi)
                                               (fun j q r => at_ w (j ++ [q; r])%list) p r)))
    else Err BackendError.
Proof.
  intros L LS LD LK SW PK PS ke pads N.
  assert (LKE : List.length ke = d) by (unfold ke; rewrite length_vzip; lia).
  assert (LP : List.length pads = d) by (apply length_builtin; assumption).
  assert (LF : List.length (map fst pads) = d) by (rewrite map_length; exact LP).
  assert (LSn : List.length (map snd pads) = d) by (rewrite map_length; exact LP).
  assert (LN : List.length N = d) by (apply length_padded; assumption).
  unfold conv_last. rewrite LS. rewrite rank_tab. unfold rank. rewrite SW.
  replace (List.length (b :: n ++ [C])%list =? d + 2)%nat with true
    by (symmetry; apply Nat.eqb_eq; cbn [List.length]; rewrite app_length; cbn; lia).
  replace (List.length (k ++ [C; o])%list =? d + 2)%nat with true
    by (symmetry; apply Nat.eqb_eq; rewrite app_length; cbn; lia).
  rewrite LD, Nat.eqb_refl. cbn [andb]. rewrite shape_tab.
  rewrite (spatial_ix d b n [C] L), (chan_ix d b n C [] L).
  assert (F1 : firstn d (k ++ [C; o])%list = k) by (apply firstn_app_exact; auto).
  assert (F2 : nth d (k ++ [C; o])%list 0 = C) by (rewrite app_nth2 by lia; rewrite LK, Nat.sub_diag; reflexivity).
  assert (F3 : nth (d + 1) (k ++ [C; o])%list 0 = o) by (rewrite app_nth2 by lia; replace (d + 1 - List.length k) with 1 by lia; reflexivity).
  rewrite F1, F2, F3, Nat.eqb_refl. fold ke. fold pads.
  replace ((0, 0) :: (pads ++ [(0, 0)])%list) with ((0, 0) :: (combine (map fst pads) (map snd pads) ++ [(0, 0)])%list)
    by (rewrite combine_split'; reflexivity).
  rewrite (pad_sig3 d) by assumption. fold N. cbn [bind].
  rewrite shape_tab, (spatial_ix d b N [C] LN). fold (outs N ke s).
  destruct (forallb _ (combine ke N)) eqn:FB; [|reflexivity]. f_equal. change (nth 0 (b :: n ++ [C]) 0) with b.
  pose proof (length_outs N ke s d LN LKE LS) as LO.
  rewrite (tab_sig3 d) by exact LO. apply sig3_ext; [exact LO|]. intros bi p r B P R.
  pose proof (inb_length _ _ P) as LP'. rewrite LO in LP'.
  unfold window. f_equal. apply map_ext_in. intros jc I. apply In_indices in I.
  apply inb_app_split in I as [j [c [-> [J I]]]]. apply inb1 in I as [q [-> Q]]. pose proof (inb_length _ _ J) as LJ.
  rewrite firstn_app_exact by lia. rewrite app_nth2 by lia. replace (d - List.length j) with 0 by lia. change (nth 0 [q] 0) with q. change (nth 0 (bi :: p ++ [r]) 0) with bi.
  rewrite (spatial_ix d bi p [r] LP'), (chan_ix d bi p r [] LP'). rewrite <- app_assoc. cbn [app]. f_equal.
  set (v := vzip Nat.add (vzip Nat.mul p s) (vzip Nat.mul j dl)).
  assert (LV : List.length v = d) by (unfold v; rewrite !length_vzip; rewrite ?length_vzip; lia).
  assert (NV : forall a, a < d -> nth a v 0 = nth a p 0 * nth a s 0 + nth a j 0 * nth a dl 0).
  { intros a Ha. unfold v. rewrite !nth_vzip; rewrite ?length_vzip; lia. }
  pose proof (forallb_combine_le ke N d LKE LN FB) as LE.
  assert (IV : inb N v).
  { apply inb_intro; [lia|]. rewrite LN. intros a Ha. rewrite NV by exact Ha. specialize (LE a Ha).
    pose proof (inb_nth _ _ a P ltac:(lia)) as PB. rewrite (nth_outs N ke s d a) in PB by assumption.
    pose proof (inb_nth _ _ a J ltac:(lia)) as JB. unfold ke in LE, PB. rewrite nth_vzip in LE, PB by lia. unfold dilated, out_size in *.
    specialize (PS a Ha). pose proof (Nat.mul_div_le (nth a N 0 - ((nth a k 0 - 1) * nth a dl 0 + 1)) (nth a s 0) ltac:(lia)). nia. }
  rewrite (at_sig3 d) by assumption.
  assert (S1 : csrc n s dl (map fst pads) p j =
    if inside (map fst pads) n v then Some (vzip Nat.sub v (map fst pads)) else None).
  { unfold csrc. rewrite L.
    destruct (inside (map fst pads) n v) eqn:IN.
    - pose proof (proj1 (inside_spec _ n v d LF L LV) IN) as IN'. apply wsrc_all; [rewrite length_vzip; lia|].
      intros a Ha. specialize (IN' a Ha). rewrite NV in IN' by exact Ha.
      unfold conv_src. rewrite nth_vzip by lia. rewrite NV by exact Ha.
      rewrite (proj2 (Nat.leb_le _ _) (proj1 IN')). rewrite (proj2 (Nat.ltb_lt _ (nth a n 0))) by lia. reflexivity.
    - destruct (inside_none _ n v d LF L LV IN) as [a [Ha NI]]. apply wsrc_none. exists a. split; [exact Ha|].
      rewrite NV in NI by exact Ha.
      unfold conv_src. destruct (Nat.leb_spec (nth a (map fst pads) 0) (nth a p 0 * nth a s 0 + nth a j 0 * nth a dl 0)); [|reflexivity].
      cbn [andb]. destruct (Nat.ltb_spec (nth a p 0 * nth a s 0 + nth a j 0 * nth a dl 0 - nth a (map fst pads) 0) (nth a n 0)); [lia|reflexivity]. }
  rewrite S1. unfold bordered. destruct (inside (map fst pads) n v); reflexivity.
Qed.

End ConvFacts.
