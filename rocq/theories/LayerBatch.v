(** Layers treat the samples of a batch independently. *)
From Verif Require Export GlobalFacts CheckFacts PoolSpec.
Local Open Scope string_scope.
Local Open Scope list_scope.

Section Forms.
Context {A : Type} {RA : Arith A}.

Lemma sample_sig4 d b m g c (X : nat -> list nat -> nat -> nat -> A) bi : List.length m = d -> bi < b ->
  sample bi (tab (b :: m ++ [g; c]) (sig4 d X)) = tab (1 :: m ++ [g; c]) (sig4 d (fun _ => X bi)).
Proof.
  intros L B. rewrite tab_sample by exact B. rewrite (tab_sig4 d 1 m g c) by exact L. apply sig4_ext; [exact L|].
  intros bi' p h q B' P H Q. cbn [tl]. apply sig4_ix. rewrite (inb_length _ _ P). exact L.
Qed.

Lemma sample_sig3 d b m c (X : nat -> list nat -> nat -> A) bi : List.length m = d -> bi < b ->
  sample bi (tab (b :: m ++ [c]) (sig3 d X)) = tab (1 :: m ++ [c]) (sig3 d (fun _ => X bi)).
Proof.
  intros L B. rewrite tab_sample by exact B. rewrite (tab_sig3 d 1 m c) by exact L. apply sig3_ext; [exact L|].
  intros bi' p q B' P Q. cbn [tl]. apply sig3_ix. rewrite (inb_length _ _ P). exact L.
Qed.

Lemma samplewise44 d m g c mo h o (cond : bool) e (F : (list nat -> nat -> nat -> A) -> list nat -> nat -> nat -> A) layer :
  List.length m = d -> List.length mo = d ->
  (forall b X, layer (tab (b :: m ++ [g; c]) (sig4 d X))
     = if cond then Ok (tab (b :: mo ++ [h; o]) (sig4 d (fun bi => F (X bi)))) else Err e) ->
  samplewise (m ++ [g; c]) layer.
Proof.
  intros L LO FO. destruct cond; [right|left].
  - exists (mo ++ [h; o]). intros x b W S. pose proof (FO b (fun4 x)) as LX. rewrite <- (tensor_sig4 d b m g c x W L S) in LX. rewrite LX. eexists. split; [reflexivity|].
    split; [apply wf_tab|]. split; [apply shape_tab|]. intros bi B.
    rewrite (tensor_sig4 d b m g c x W L S) at 1. rewrite sample_sig4 by assumption. rewrite FO. rewrite sample_sig4 by assumption. reflexivity.
  - exists e. intros x b W S. pose proof (FO b (fun4 x)) as LX. rewrite <- (tensor_sig4 d b m g c x W L S) in LX. exact LX.
Qed.

Lemma samplewise34 d m c mo h o (cond : bool) e (F : (list nat -> nat -> A) -> list nat -> nat -> nat -> A) layer :
  List.length m = d -> List.length mo = d ->
  (forall b X, layer (tab (b :: m ++ [c]) (sig3 d X))
     = if cond then Ok (tab (b :: mo ++ [h; o]) (sig4 d (fun bi => F (X bi)))) else Err e) ->
  samplewise (m ++ [c]) layer.
Proof.
  intros L LO FO. destruct cond; [right|left].
  - exists (mo ++ [h; o]). intros x b W S. pose proof (FO b (fun3 x)) as LX. rewrite <- (tensor_sig3 d b m c x W L S) in LX. rewrite LX. eexists. split; [reflexivity|].
    split; [apply wf_tab|]. split; [apply shape_tab|]. intros bi B.
    rewrite (tensor_sig3 d b m c x W L S) at 1. rewrite sample_sig3 by assumption. rewrite FO. rewrite sample_sig4 by assumption. reflexivity.
  - exists e. intros x b W S. pose proof (FO b (fun3 x)) as LX. rewrite <- (tensor_sig3 d b m c x W L S) in LX. exact LX.
Qed.

End Forms.

Section Layers.
Context {A : Type} {RA : Arith A} {PA : Pool A}.

Definition sample_shape (valued : bool) (m : list nat) (g c : nat) : list nat := m ++ (if valued then [g; c] else [c]).

Lemma conv_samplewise G d E eq (tr valued : bool) act dom c C o k s dl eb ea same ub f kinit binit (L : conv_layer A) m g :
  group_ok G d E eq -> conv_facts G d E eq tr valued act dom c C o k s dl eb ea same ub f kinit binit L -> cl_channels L = Some c ->
  C = (if valued then g * c else c) -> List.length m = d ->
  samplewise (sample_shape valued m g c) (apply L).
Proof.
  intros OK F CC HC Lm.
  assert (LM1 : List.length (padded eb m ea) = d) by (destruct F; apply length_padded; assumption).
  assert (LKE : List.length (vzip dilated k dl) = d) by (destruct F; rewrite length_vzip; lia).
  unfold sample_shape. destruct valued.
  - assert (MG : forall b X, merged d true (tab (b :: m ++ [g; c]) (sig4 d X)) b m C (fun bi p q => X bi p (q / c) (q mod c))).
    { intros b X. unfold merged. subst C. apply merge_group. exact Lm. }
    destruct tr.
    + set (mo := touts (padding_string same) (padded eb m ea) (vzip dilated k dl) s).
      apply (samplewise44 d m g c mo (List.length act) o true ValueError
        (fun Xb p h oo => f (biased ub binit (window d (tsrc (padded eb m ea) s dl (vzip (transpose_before (padding_string same)) (vzip dilated k dl) s)) tterm k C
            (bordered eb m (fun _ p q => Xb p (q / c) (q mod c)) 0) (kval G E true dom act c o k C (tab (k ++ [o; C]) kinit)) p (h * o + oo)) oo))).
      * exact Lm.
      * unfold mo. destruct F. rewrite length_touts with (d := d) by assumption. reflexivity.
      * intros b X. unfold apply.
        rewrite (conv_apply_call G d E eq true true act dom c C o k s dl eb ea same ub f kinit binit L _ b m g F CC Lm) by apply shape_tab.
        rewrite (conv_transpose_call_eq G d E eq OK true act dom c C o k s dl eb ea same ub f kinit binit L _ b m _ F Lm (MG b X)). reflexivity.
    + set (ke := vzip dilated k dl). set (m1 := padded eb m ea). set (pads := builtin_pads (padding_string same) m1 ke s).
      set (m2 := padded (map fst pads) m1 (map snd pads)).
      apply (samplewise44 d m g c (outs m2 ke s) (List.length act) o (forallb (fun p => fst p <=? snd p)%nat (combine ke m2)) BackendError
        (fun Xb p h oo => f (biased ub binit (window d (csrc m s dl (vzip Nat.add eb (map fst pads))) cterm k C (fun p q => Xb p (q / c) (q mod c))
                                                 (kval G E true dom act c o k C (tab (k ++ [C; o]) kinit)) p (h * o + oo)) oo))).
      * exact Lm.
      * destruct F. apply length_outs; [apply length_padded; rewrite ?map_length; try apply length_builtin; assumption|assumption..].
      * intros b X. unfold apply.
        rewrite (conv_apply_call G d E eq false true act dom c C o k s dl eb ea same ub f kinit binit L _ b m g F CC Lm) by apply shape_tab.
        rewrite (conv_call_eq G d E eq OK true act dom c C o k s dl eb ea same ub f kinit binit L _ b m _ F Lm (MG b X)).
        fold ke. fold m1. fold pads. fold m2. destruct (forallb _ (combine ke m2)); reflexivity.
  - subst C. assert (MG : forall b X, merged d false (tab (b :: m ++ [c]) (sig3 d X)) b m c X) by reflexivity.
    destruct tr.
    + set (mo := touts (padding_string same) (padded eb m ea) (vzip dilated k dl) s).
      apply (samplewise34 d m c mo (List.length act) o true ValueError
        (fun Xb p h oo => f (biased ub binit (window d (tsrc (padded eb m ea) s dl (vzip (transpose_before (padding_string same)) (vzip dilated k dl) s)) tterm k c
            (bordered eb m (fun _ => Xb) 0) (kval G E false dom act c o k c (tab (k ++ [o; c]) kinit)) p (h * o + oo)) oo))).
      * exact Lm.
      * unfold mo. destruct F. rewrite length_touts with (d := d) by assumption. reflexivity.
      * intros b X. unfold apply.
        rewrite (conv_apply_call G d E eq true false act dom c c o k s dl eb ea same ub f kinit binit L _ b m g F CC Lm) by apply shape_tab.
        rewrite (conv_transpose_call_eq G d E eq OK false act dom c c o k s dl eb ea same ub f kinit binit L _ b m _ F Lm (MG b X)). reflexivity.
    + set (ke := vzip dilated k dl). set (m1 := padded eb m ea). set (pads := builtin_pads (padding_string same) m1 ke s).
      set (m2 := padded (map fst pads) m1 (map snd pads)).
      apply (samplewise34 d m c (outs m2 ke s) (List.length act) o (forallb (fun p => fst p <=? snd p)%nat (combine ke m2)) BackendError
        (fun Xb p h oo => f (biased ub binit (window d (csrc m s dl (vzip Nat.add eb (map fst pads))) cterm k c Xb
                                                 (kval G E false dom act c o k c (tab (k ++ [c; o]) kinit)) p (h * o + oo)) oo))).
      * exact Lm.
      * destruct F. apply length_outs; [apply length_padded; rewrite ?map_length; try apply length_builtin; assumption|assumption..].
      * intros b X. unfold apply.
        rewrite (conv_apply_call G d E eq false false act dom c c o k s dl eb ea same ub f kinit binit L _ b m g F CC Lm) by apply shape_tab.
        rewrite (conv_call_eq G d E eq OK false act dom c c o k s dl eb ea same ub f kinit binit L _ b m _ F Lm (MG b X)).
        fold ke. fold m1. fold pads. fold m2. destruct (forallb _ (combine ke m2)); reflexivity.
Qed.

(** The signal that a layer returns. *)
Lemma conv_output G d E eq (tr valued : bool) act dom c C o k s dl eb ea same ub f kinit binit (L : conv_layer A) m g b x y :
  group_ok G d E eq -> conv_facts G d E eq tr valued act dom c C o k s dl eb ea same ub f kinit binit L -> cl_channels L = Some c ->
  C = (if valued then g * c else c) -> List.length m = d -> wf x -> shape x = signal_shape valued b m g c -> apply L x = Ok y ->
  wf y /\ exists mo, List.length mo = d /\ shape y = b :: mo ++ [List.length act; o].
Proof.
  intros OK F CC HC Lm W SH CA.
  assert (LM1 : List.length (padded eb m ea) = d) by (destruct F; apply length_padded; assumption).
  assert (LKE : List.length (vzip dilated k dl) = d) by (destruct F; rewrite length_vzip; lia).
  assert (MG : exists X, merged d valued x b m C X).
  { destruct valued.
    - exists (fun bi p q => fun4 x bi p (q / c) (q mod c)). unfold signal_shape in SH. rewrite (tensor_sig4 d b m g c x W Lm SH) at 1. unfold merged. subst C. apply merge_group. exact Lm.
    - exists (fun3 x). unfold signal_shape in SH. subst C. unfold merged. rewrite (tensor_sig3 d b m c x W Lm SH) at 1. reflexivity. }
  destruct MG as [X MG]. unfold apply in CA.
  rewrite (conv_apply_call G d E eq tr valued act dom c C o k s dl eb ea same ub f kinit binit L x b m g F CC Lm) in CA by exact SH.
  destruct tr.
  - rewrite (conv_transpose_call_eq G d E eq OK valued act dom c C o k s dl eb ea same ub f kinit binit L x b m X F Lm MG) in CA.
    cbn [snd] in CA. injection CA as <-. split; [apply wf_tab|]. rewrite shape_tab. eexists. split; [|reflexivity].
    destruct F. apply length_touts; assumption.
  - rewrite (conv_call_eq G d E eq OK valued act dom c C o k s dl eb ea same ub f kinit binit L x b m X F Lm MG) in CA.
    destruct (forallb _ _); cbn [snd] in CA; [|discriminate CA]. injection CA as <-. split; [apply wf_tab|]. rewrite shape_tab. eexists. split; [|reflexivity].
    destruct F. apply length_outs; [apply length_padded; rewrite ?map_length; try apply length_builtin; assumption|assumption..].
Qed.

Lemma pool_samplewise G d E eq sub cos k s eb ea same t (L : pool_layer) m c {d0} :
  group_ok G d0 E eq -> pool_facts (A := A) G d E sub cos k s eb ea same t L -> sub <> [] -> List.length m = d ->
  samplewise (m ++ [List.length E; c]) (pool_call (A := A) L).
Proof.
  intros OK F NE Lm. pose proof F as F'. destruct F'.
  set (m1 := padded eb m ea). set (pads := builtin_pads (padding_string same) m1 k s).
  set (m2 := padded (map fst pads) m1 (map snd pads)).
  assert (LM1 : List.length m1 = d) by (apply length_padded; assumption).
  apply (samplewise44 d m (List.length E) c (outs m2 k s) (List.length sub) c (forallb (fun p => fst p <=? snd p)%nat (combine k m2)) BackendError
    (fun Xb => pool_out G d (pool_fun t) sub cos k s eb m m1 (map fst pads) (fun _ => Xb) 0)).
  - exact Lm.
  - apply length_outs; [apply length_padded; rewrite ?map_length; try apply length_builtin; assumption|assumption..].
  - intros b X. rewrite (pool_call_eq G d E eq OK sub cos k s eb ea same t L b m c X F NE Lm). reflexivity.
Qed.

Lemma pool_output G d E eq sub cos k s eb ea same t (L : pool_layer) m c b (x y : tensor A) {d0} :
  group_ok G d0 E eq -> pool_facts (A := A) G d E sub cos k s eb ea same t L -> sub <> [] -> List.length m = d ->
  wf x -> shape x = b :: m ++ [List.length E; c] -> pool_call L x = Ok y ->
  wf y /\ exists mo, List.length mo = d /\ shape y = b :: mo ++ [List.length sub; c].
Proof.
  intros OK F NE Lm W SH CA. rewrite (tensor_sig4 d b m _ c x W Lm SH) in CA.
  rewrite (pool_call_eq G d E eq OK sub cos k s eb ea same t L b m c (fun4 x) F NE Lm) in CA.
  destruct (forallb _ _); [|discriminate CA]. injection CA as <-. split; [apply wf_tab|]. rewrite shape_tab. eexists. split; [|reflexivity].
  destruct F. apply length_outs; [apply length_padded; rewrite ?map_length; try apply length_builtin; try apply length_padded; assumption|assumption..].
Qed.

End Layers.
