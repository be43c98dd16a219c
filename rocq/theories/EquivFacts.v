(** Equivariance of the convolution layers, from the formulas of CallFacts. *)
From Verif Require Export CallFacts.
Local Open Scope string_scope.
Local Open Scope list_scope.

Section Equiv.
Context (G : group) (d : nat) (E : list symmetry) (eq : bool) (OK : group_ok G d E eq).
Notation n := (List.length E).
Notation sym a := (nth a E []).

Let GR := ok_is_group _ _ _ _ OK.

(** ** Elements acting on positions *)

(** Element [a] sends position [h] of the list of elements [dom] to this one. *)
Definition turned (a : nat) (dom : list nat) (h : nat) : nat := index_of (comp G (inv G a) (nth h dom 0)) dom.

Definition stable (a : nat) (dom : list nat) : Prop := forall h, h < List.length dom -> In (comp G (inv G a) (nth h dom 0)) dom.

Lemma stable_of H dom a : sub_idx G H dom -> In a dom -> stable a dom.
Proof.
  intros S I h Hh. destruct (sub_idx_facts _ _ _ _ OK _ _ S) as [_ [_ [_ [_ CL]]]]. apply CL; [exact I|apply nth_In; exact Hh].
Qed.

Lemma stable_whole a : a < n -> stable a (seq 0 n).
Proof.
  intros Ha h Hh. rewrite seq_length in Hh. rewrite nth_seq0 by exact Hh. apply in_seq. split; [lia|]. cbn [Nat.add].
  apply (ok_closed _ _ _ _ OK); [apply (ok_inv_lt _ _ _ _ OK); exact Ha|exact Hh].
Qed.

Lemma turned_lt a dom h : stable a dom -> h < List.length dom -> turned a dom h < List.length dom.
Proof. intros S Hh. apply index_of_lt, S, Hh. Qed.

Lemma turned_nth a dom h : stable a dom -> h < List.length dom -> nth (turned a dom h) dom 0 = comp G (inv G a) (nth h dom 0).
Proof. intros S Hh. apply nth_index_of, S, Hh. Qed.

Lemma turned_inj a dom h h' : a < n -> NoDup dom -> (forall x, In x dom -> x < n) -> stable a dom ->
  h < List.length dom -> h' < List.length dom -> turned a dom h = turned a dom h' -> h = h'.
Proof.
  intros Ha ND B S Hh Hh' Q.
  assert (N : comp G (inv G a) (nth h dom 0) = comp G (inv G a) (nth h' dom 0)) by (rewrite <- !turned_nth by assumption; congruence).
  apply (g_cancel_l _ _ _ GR) in N; [|apply (ok_inv_lt _ _ _ _ OK); exact Ha|apply B, nth_In; exact Hh|apply B, nth_In; exact Hh'].
  apply (proj1 (NoDup_nth dom 0) ND); assumption.
Qed.

(** On merged channels: [c] channels for every element. *)
Definition chan (a : nat) (dom : list nat) (c q : nat) : nat := turned a dom (q / c) * c + q mod c.

Lemma div_ok D c q : q < (D * c)%nat -> c <> 0 /\ q / c < D /\ q mod c < c.
Proof.
  intros Q. assert (C0 : c <> 0) by (intros ->; lia). split; [exact C0|].
  split; [apply Nat.div_lt_upper_bound; lia|apply Nat.mod_upper_bound; exact C0].
Qed.

Lemma split_ok c h q : q < c -> (h * c + q) / c = h /\ (h * c + q) mod c = q.
Proof.
  intros Q. rewrite Nat.add_comm. rewrite Nat.div_add, Nat.mod_add by lia. rewrite Nat.div_small, Nat.mod_small by exact Q. lia.
Qed.

Lemma chan_lt a dom c q : stable a dom -> q < List.length dom * c -> chan a dom c q < List.length dom * c.
Proof.
  intros S Q. apply div_ok in Q as [C0 [Q1 Q2]]. unfold chan. pose proof (turned_lt a dom _ S Q1). nia.
Qed.

Lemma chan_parts a dom c q : q < List.length dom * c ->
  chan a dom c q / c = turned a dom (q / c) /\ chan a dom c q mod c = q mod c.
Proof. intros Q. apply div_ok in Q as [C0 [Q1 Q2]]. apply split_ok. exact Q2. Qed.

Lemma chan_inj a dom c q q' : a < n -> NoDup dom -> (forall x, In x dom -> x < n) -> stable a dom ->
  q < List.length dom * c -> q' < List.length dom * c -> chan a dom c q = chan a dom c q' -> q = q'.
Proof.
  intros Ha ND B S Q Q' H. destruct (chan_parts a dom c q Q) as [D1 M1]. destruct (chan_parts a dom c q' Q') as [D2 M2].
  rewrite H in D1, M1. apply div_ok in Q as [C0 [Q1 _]]. apply div_ok in Q' as [_ [Q1' _]].
  assert (T : q / c = q' / c) by (apply (turned_inj a dom); try assumption; congruence).
  rewrite (Nat.div_mod q c C0), (Nat.div_mod q' c C0). congruence.
Qed.

(** ** The kernel seen from a turned element *)

Lemma sym_ok a : a < n -> is_symmetry d (sym a).
Proof. apply (ok_sym _ _ _ _ OK). Qed.

Lemma fits_sym l a : kernel_fits eq l -> List.length l = d -> a < n -> fits (sym a) l.
Proof. apply (fits_of G d E eq OK). Qed.

Lemma px_twice a g k j : a < n -> g < n -> kernel_fits eq k -> List.length k = d -> inb k j ->
  pixel (sym (comp G (inv G a) g)) k (pixel (sym a) k j) = pixel (sym g) k j.
Proof.
  intros Ha Hg KF L J. pose proof (ok_inv_lt _ _ _ _ OK a Ha) as Hi. pose proof (ok_closed _ _ _ _ OK _ _ Hi Hg) as Hc.
  rewrite <- (pixel_after d) by (try apply fits_sym; try apply sym_ok; assumption).
  destruct (ok_comp _ _ _ _ OK a (comp G (inv G a) g) Ha Hc) as [_ <-].
  rewrite (g_solve _ _ _ GR) by assumption. reflexivity.
Qed.

Lemma inv_turned a g x : a < n -> g < n -> x < n ->
  comp G (inv G (comp G (inv G a) g)) (comp G (inv G a) x) = comp G (inv G g) x.
Proof.
  intros Ha Hg Hx. pose proof (ok_inv_lt _ _ _ _ OK a Ha) as Hi. pose proof (ok_inv_lt _ _ _ _ OK g Hg) as Hgi.
  rewrite (g_inv_op _ _ _ GR) by assumption. rewrite (g_inv_inv _ _ _ GR) by assumption.
  rewrite <- (group_assoc _ _ _ GR) by (try apply (ok_closed _ _ _ _ OK); assumption).
  rewrite (g_solve _ _ _ GR) by assumption. reflexivity.
Qed.

Lemma seen_from_turned dom c a g q : a < n -> g < n -> (forall x, In x dom -> x < n) -> stable a dom ->
  q < List.length dom * c -> seen_from G dom c (comp G (inv G a) g) (chan a dom c q) = seen_from G dom c g q.
Proof.
  intros Ha Hg B S Q. destruct (chan_parts a dom c q Q) as [D M]. apply div_ok in Q as [C0 [Q1 _]].
  unfold seen_from. rewrite D, M. rewrite (turned_nth a dom _ S Q1).
  rewrite inv_turned by (try apply B, nth_In; assumption). reflexivity.
Qed.

Section A.
Context {A : Type} {RA : Arith A}.

(** Channels of the input of a layer. *)
Definition moved_chan (valued : bool) (a : nat) (dom : list nat) (c q : nat) : nat := if valued then chan a dom c q else q.

Lemma kval_moved valued dom act c C o k (K : tensor A) a j q r :
  a < n -> (forall x, In x act -> x < n) -> stable a act ->
  (valued = true -> (forall x, In x dom -> x < n) /\ stable a dom /\ C = List.length dom * c) ->
  kernel_fits eq k -> List.length k = d -> inb k j -> q < C -> r < List.length act * o ->
  kval G E valued dom act c o k C K (pixel (sym a) k j) (moved_chan valued a dom c q) (chan a act o r)
  = kval G E valued dom act c o k C K j q r.
Proof.
  intros Ha BA SA DO KF L J Q R. unfold kval. f_equal. unfold kidx, kernel_src.
  destruct (chan_parts a act o r R) as [D M]. pose proof (div_ok _ _ _ R) as [O0 [R1 _]].
  rewrite D, M. rewrite (turned_nth a act _ SA R1). set (g := nth (r / o) act 0).
  assert (Hg : g < n) by (apply BA, nth_In; exact R1).
  rewrite px_twice by assumption.
  replace (chan_from G valued dom c (comp G (inv G a) g) (moved_chan valued a dom c q)) with (chan_from G valued dom c g q); [reflexivity|].
  unfold chan_from, moved_chan. destruct valued; [|reflexivity]. destruct (DO eq_refl) as [BD [SD ->]].
  symmetry. apply seen_from_turned; assumption.
Qed.

(** ** Sizes *)

Lemma uniform_nth l a b : List.length l = d -> all_equal l -> a < d -> b < d -> nth a l 0 = nth b l 0.
Proof. intros L U Ha Hb. apply U; apply nth_In; lia. Qed.

Lemma uniform_of l : List.length l = d -> (forall a b, a < d -> b < d -> nth a l 0 = nth b l 0) -> all_equal l.
Proof.
  intros L H x y X Y. apply (In_nth _ _ 0) in X as [a [Ha <-]]. apply (In_nth _ _ 0) in Y as [b [Hb <-]]. apply H; lia.
Qed.

Lemma fits_same a l b : kernel_fits eq l -> List.length l = d -> a < n -> b < d -> nth (fst (nth b (sym a) (0, false))) l 0 = nth b l 0.
Proof.
  intros F L Ha Hb. apply (fits_sym l a F L Ha). pose proof (sym_ok a Ha) as [LE _]. lia.
Qed.

(** ** One output entry *)

(** Positions of the window mirror at both ends of axis [b]. *)
Definition mirrored (m k M s dl before : list nat) (b : nat) : Prop :=
  (nth b M 0 - 1) * nth b s 0 + (nth b k 0 - 1) * nth b dl 0 + 1 = nth b m 0 + 2 * nth b before 0.

Definition reversed (a b : nat) : Prop := snd (nth b (sym a) (0, false)) = true.

Lemma csrc_moved a m k M s dl before p j :
  a < n -> kernel_fits eq m -> kernel_fits eq k -> kernel_fits eq M -> kernel_fits eq s -> kernel_fits eq dl -> kernel_fits eq before ->
  List.length m = d -> List.length k = d -> List.length M = d -> List.length s = d -> List.length dl = d -> List.length before = d ->
  (forall b, b < d -> reversed a b -> mirrored m k M s dl before b) -> inb M p -> inb k j ->
  csrc m s dl before (pixel (sym a) M p) (pixel (sym a) k j) = option_map (pixel (sym a) m) (csrc m s dl before p j).
Proof.
  intros Ha Fm Fk FM Fs Fd Fb Lm Lk LM Ls Ld Lb MI P J. unfold csrc. rewrite Lm.
  apply wsrc_moved; try assumption; try (apply fits_sym; assumption).
  - apply sym_ok. exact Ha.
  - intros b v w Hb _ _. rewrite !(fits_same a) by assumption. reflexivity.
  - intros b v w Hb R V W. apply conv_src_reversed; [|exact V|exact W]. apply MI; assumption.
Qed.

Lemma csrc_in m s dl before p j i : csrc m s dl before p j = Some i -> inb m i.
Proof.
  intros Q. apply wsrc_some in Q as [L Q]. apply inb_intro; [exact L|]. intros b Hb. apply (conv_src_lt _ _ _ _ _ _ _ (Q b Hb)).
Qed.

Lemma tsrc_moved a m k M s dl before p j :
  a < n -> kernel_fits eq m -> kernel_fits eq k -> kernel_fits eq M -> kernel_fits eq s -> kernel_fits eq dl -> kernel_fits eq before ->
  List.length m = d -> List.length k = d -> List.length M = d -> List.length s = d -> List.length dl = d -> List.length before = d ->
  (forall b, b < d -> 0 < nth b s 0) ->
  (forall b, b < d -> reversed a b -> mirrored M k m s dl before b) -> inb M p -> inb k j ->
  tsrc m s dl before (pixel (sym a) M p) (pixel (sym a) k j) = option_map (pixel (sym a) m) (tsrc m s dl before p j).
Proof.
  intros Ha Fm Fk FM Fs Fd Fb Lm Lk LM Ls Ld Lb Ps MI P J. unfold tsrc. rewrite Lm.
  apply wsrc_moved; try assumption; try (apply fits_sym; assumption).
  - apply sym_ok. exact Ha.
  - intros b v w Hb _ _. rewrite !(fits_same a) by assumption. reflexivity.
  - intros b v w Hb R V W. apply transpose_src_reversed; [apply Ps; exact Hb| |exact V|exact W]. apply MI; assumption.
Qed.

Lemma tsrc_in m s dl before p j i : tsrc m s dl before p j = Some i -> inb m i.
Proof.
  intros Q. apply wsrc_some in Q as [L Q]. apply inb_intro; [exact L|]. intros b Hb. apply (transpose_src_lt _ _ _ _ _ _ _ (Q b Hb)).
Qed.


(** ** A whole layer *)

Section Layer.
Context (valued : bool) (act dom : list nat) (c C o : nat) (k s dl : list nat) (ub : bool) (f : A -> A) (binit : list nat -> A) (K : tensor A)
        (ADD : add_commutes A).
Notation W := (kval G E valued dom act c o k C K).

Definition conv_out (m before : list nat) (X : nat -> list nat -> nat -> A) (bi : nat) (p : list nat) (h oo : nat) : A :=
  f (biased ub binit (window d (csrc m s dl before) cterm k C (X bi) W p (h * o + oo)) oo).

Definition transpose_out (m before : list nat) (X : nat -> list nat -> nat -> A) (bi : nat) (p : list nat) (h oo : nat) : A :=
  f (biased ub binit (window d (tsrc m s dl before) tterm k C (X bi) W p (h * o + oo)) oo).

(** Everything about element [a] that the layer has to respect. *)
Record element_ok (a : nat) : Prop := {
  el_lt : a < n;
  el_act : NoDup act /\ (forall x, In x act -> x < n) /\ stable a act;
  el_dom : valued = true -> NoDup dom /\ (forall x, In x dom -> x < n) /\ stable a dom /\ C = List.length dom * c
}.

Lemma moved_chan_lt a q : element_ok a -> q < C -> moved_chan valued a dom c q < C.
Proof.
  intros [Ha _ DO] Q. unfold moved_chan. destruct valued; [|exact Q]. destruct (DO eq_refl) as [ND [B [S CC]]].
  rewrite CC in *. apply chan_lt; assumption.
Qed.

Lemma moved_chan_inj a q q' : element_ok a -> q < C -> q' < C -> moved_chan valued a dom c q = moved_chan valued a dom c q' -> q = q'.
Proof.
  intros [Ha _ DO] Q Q'. unfold moved_chan. destruct valued; [|auto]. destruct (DO eq_refl) as [ND [B [S CC]]].
  rewrite CC in *. apply chan_inj; assumption.
Qed.

Lemma chan_pair a h oo : oo < o -> chan a act o (h * o + oo) = turned a act h * o + oo.
Proof. intros O. unfold chan. destruct (split_ok o h oo O) as [-> ->]. reflexivity. Qed.

Definition fit (l : list nat) : Prop := kernel_fits eq l /\ List.length l = d.

Lemma conv_out_moved a m M before X X' bi p h oo :
  element_ok a -> fit m -> fit k -> fit M -> fit s -> fit dl -> fit before ->
  (forall b, b < d -> reversed a b -> mirrored m k M s dl before b) ->
  (forall i q, inb m i -> q < C -> X' bi i q = X bi (pixel (sym a) m i) (moved_chan valued a dom c q)) ->
  inb M p -> h < List.length act -> oo < o ->
  conv_out m before X' bi p h oo = conv_out m before X bi (pixel (sym a) M p) (turned a act h) oo.
Proof.
  intros EL [Fm Lm] [Fk Lk] [FM LM] [Fs Ls] [Fd Ld] [Fb Lb] MI XX P H O. unfold conv_out. do 2 f_equal.
  rewrite <- chan_pair by exact O. pose proof EL as [Ha [NA [BA SA]] DO].
  apply (window_moved d (csrc m s dl before) cterm k C (X bi) (X' bi) W (sym a) m M (moved_chan valued a dom c) (chan a act o)); try assumption.
  - apply sym_ok. exact Ha.
  - apply fits_sym; assumption.
  - intros q. apply moved_chan_lt. exact EL.
  - intros q q'. apply moved_chan_inj. exact EL.
  - intros j J. apply csrc_moved; assumption.
  - intros j i _. apply csrc_in.
  - intros j q J Q. apply kval_moved; try assumption.
    + intros V. destruct (DO V) as [_ [B1 [S1 C1]]]. auto.
    + nia.
Qed.

Lemma transpose_out_moved a m M before X X' bi p h oo :
  element_ok a -> fit m -> fit k -> fit M -> fit s -> fit dl -> fit before -> (forall b, b < d -> 0 < nth b s 0) ->
  (forall b, b < d -> reversed a b -> mirrored M k m s dl before b) ->
  (forall i q, inb m i -> q < C -> X' bi i q = X bi (pixel (sym a) m i) (moved_chan valued a dom c q)) ->
  inb M p -> h < List.length act -> oo < o ->
  transpose_out m before X' bi p h oo = transpose_out m before X bi (pixel (sym a) M p) (turned a act h) oo.
Proof.
  intros EL [Fm Lm] [Fk Lk] [FM LM] [Fs Ls] [Fd Ld] [Fb Lb] Ps MI XX P H O. unfold transpose_out. do 2 f_equal.
  rewrite <- chan_pair by exact O. pose proof EL as [Ha [NA [BA SA]] DO].
  apply (window_moved d (tsrc m s dl before) tterm k C (X bi) (X' bi) W (sym a) m M (moved_chan valued a dom c) (chan a act o)); try assumption.
  - apply sym_ok. exact Ha.
  - apply fits_sym; assumption.
  - intros q. apply moved_chan_lt. exact EL.
  - intros q q'. apply moved_chan_inj. exact EL.
  - intros j J. apply tsrc_moved; assumption.
  - intros j i _. apply tsrc_in.
  - intros j q J Q. apply kval_moved; try assumption.
    + intros V. destruct (DO V) as [_ [B1 [S1 C1]]]. auto.
    + nia.
Qed.

End Layer.

(** ** Slices of the action on signals *)

Lemma sizes_accept b m rest : List.length m = d -> (accepts eq (seq 1 d) (b :: m ++ rest) <-> kernel_fits eq m).
Proof.
  intros L. unfold accepts, kernel_fits.
  assert (Q : gather (seq 1 d) (b :: m ++ rest) = m) by (rewrite <- L; apply (gather_block [b] m rest)).
  rewrite Q. reflexivity.
Qed.

Lemma pixel_at_1 a b m rest bi p r : a < n -> List.length m = d -> List.length p = d ->
  pixel_at (sym a) (seq 1 d) (b :: m ++ rest) (bi :: p ++ r) = bi :: pixel (sym a) m p ++ r.
Proof.
  intros Ha L LP. pose proof (sym_ok a Ha) as [LE _].
  replace (seq 1 d) with (seq (List.length [b]) (List.length m)) by (rewrite L; reflexivity).
  change (bi :: p ++ r) with ([bi] ++ p ++ r). change (b :: m ++ rest) with ([b] ++ m ++ rest).
  rewrite pixel_at_block; [reflexivity|reflexivity|lia|lia].
Qed.

Definition moved3 (a : nat) (m : list nat) (X : nat -> list nat -> nat -> A) (bi : nat) (p : list nat) (q : nat) : A :=
  X bi (pixel (sym a) m p) q.
Definition moved4 (a : nat) (m dom : list nat) (X : nat -> list nat -> nat -> nat -> A) (bi : nat) (p : list nat) (h q : nat) : A :=
  X bi (pixel (sym a) m p) (turned a dom h) q.

Lemma pixel_in a m p : a < n -> fit m -> inb m p -> inb m (pixel (sym a) m p).
Proof. intros Ha [F L] P. apply (pixel_inb d); [apply sym_ok; exact Ha|exact L|apply fits_sym; assumption|exact P]. Qed.

Lemma grid_slices b m c (X : nat -> list nat -> nat -> A) ga H idx gx :
  sub_idx G H idx -> List.length m = d ->
  action G (tab (b :: m ++ [c]) (sig3 d X)) (map Z.of_nat (seq 1 d)) 0 ga H None = Ok gx ->
  fit m /\ shape gx = List.length idx :: b :: m ++ [c] /\
  forall u, u < List.length idx -> slice 0 u gx = tab (b :: m ++ [c]) (sig3 d (moved3 (nth u idx 0) m X)).
Proof.
  intros S L R. change 0%Z with (Z.of_nat 0) in R.
  assert (LS : List.length (b :: m ++ [c]) = d + 2) by (cbn [List.length]; rewrite app_length; cbn [List.length]; lia).
  apply (grid_action_ok _ _ _ _ OK) with (idx := idx) in R as [AC ->]; [|apply wf_tab|lia|apply spatial_block; rewrite ?rank_tab; lia|exact S].
  rewrite shape_tab in *. assert (F : fit m) by (split; [apply sizes_accept in AC; assumption|exact L]).
  split; [exact F|]. split; [apply shape_stk|]. intros u U. rewrite slice_stk by (try apply Nat.le_0_l; exact U).
  destruct (sub_idx_facts _ _ _ _ OK _ _ S) as [_ [B _]]. assert (Ha : nth u idx 0 < n) by (apply B, nth_In; exact U).
  rewrite (tab_sig3 d) by exact L. apply sig3_ext; [exact L|]. intros bi p q BI P Q.
  rewrite pixel_at_1 by (try assumption; rewrite (inb_length _ _ P); exact L).
  rewrite (at_sig3 d) by (try assumption; apply pixel_in; assumption). reflexivity.
Qed.

Lemma dom_slices b m D c (X : nat -> list nat -> nat -> nat -> A) u a idx dom :
  a = nth u idx 0 -> u < List.length idx -> a < n -> stable a dom -> D = List.length dom -> fit m ->
  slice 0 u (stk 0 (List.length idx) (b :: m ++ [D; c]) (fun u i =>
     dom_at (at_ (tab (b :: m ++ [D; c]) (sig4 d X))) (d + 1) dom (comp G (inv G (nth u idx 0)) (nth (nth (d + 1) i 0) dom 0))
            (pixel_at (sym (nth u idx 0)) (seq 1 d) (b :: m ++ [D; c]) i)))
  = tab (b :: m ++ [D; c]) (sig4 d (moved4 a m dom X)).
Proof.
  intros -> U Ha S -> [F L]. rewrite slice_stk by (try apply Nat.le_0_l; exact U).
  rewrite (tab_sig4 d) by exact L. apply sig4_ext; [exact L|]. intros bi p h q BI P H Q.
  pose proof (inb_length _ _ P) as LP. rewrite L in LP.
  rewrite (chan_ix d bi p h [q] LP). rewrite pixel_at_1 by assumption. unfold dom_at.
  rewrite (proj2 (mem_In _ _) (S h H)). fold (turned (nth u idx 0) dom h).
  pose proof (sym_ok _ Ha) as [LE _].
  assert (UP : forall v, upd (d + 1) v (bi :: pixel (sym (nth u idx 0)) m p ++ [h; q]) = bi :: pixel (sym (nth u idx 0)) m p ++ [v; q]).
  { intros v. rewrite Nat.add_1_r. cbn [upd]. f_equal.
    replace d with (List.length (pixel (sym (nth u idx 0)) m p)) at 1 by (rewrite length_pixel; exact LE). apply upd_app. }
  rewrite UP. rewrite (at_sig4 d); [reflexivity|exact L|exact BI|apply pixel_in; [exact Ha|split; assumption|exact P]|apply turned_lt; assumption|exact Q].
Qed.

Lemma group_slices b m D c (X : nat -> list nat -> nat -> nat -> A) Ha Hd idx dom gx :
  sub_idx G Ha idx -> sub_idx G Hd dom -> D = List.length dom -> List.length m = d ->
  (forall u, In u idx -> stable u dom) ->
  action G (tab (b :: m ++ [D; c]) (sig4 d X)) (map Z.of_nat (seq 1 d)) 0 (Some (Z.of_nat (d + 1))) Ha Hd = Ok gx ->
  fit m /\ shape gx = List.length idx :: b :: m ++ [D; c] /\
  forall u, u < List.length idx -> slice 0 u gx = tab (b :: m ++ [D; c]) (sig4 d (moved4 (nth u idx 0) m dom X)).
Proof.
  intros SA SD DD L ST R. change 0%Z with (Z.of_nat 0) in R.
  assert (LS : List.length (b :: m ++ [D; c]) = d + 3) by (cbn [List.length]; rewrite app_length; cbn [List.length]; lia).
  apply (group_action_ok _ _ _ _ OK) with (act := idx) (dom := dom) in R as [AC ->];
    [|apply wf_tab|rewrite rank_tab; lia|lia|apply spatial_block; rewrite ?rank_tab; lia|intros I; apply in_seq in I; lia|exact SA|exact SD
     |rewrite shape_tab; rewrite (chan_ix d b m D [c] L); exact DD].
  rewrite shape_tab in *. assert (F : fit m) by (split; [apply sizes_accept in AC; assumption|exact L]).
  split; [exact F|]. split; [apply shape_stk|]. intros u U.
  destruct (sub_idx_facts _ _ _ _ OK _ _ SA) as [_ [B _]]. assert (Hu : nth u idx 0 < n) by (apply B, nth_In; exact U).
  apply dom_slices; try assumption; [reflexivity|apply ST, nth_In; exact U].
Qed.

(** ... and the action is defined on signals of a fitting size. *)
Lemma group_slices_ok b m D c (X : nat -> list nat -> nat -> nat -> A) Ha Hd idx dom :
  sub_idx G Ha idx -> sub_idx G Hd dom -> D = List.length dom -> fit m -> (forall u, In u idx -> stable u dom) ->
  exists gx, action G (tab (b :: m ++ [D; c]) (sig4 d X)) (map Z.of_nat (seq 1 d)) 0 (Some (Z.of_nat (d + 1))) Ha Hd = Ok gx /\
  shape gx = List.length idx :: b :: m ++ [D; c] /\
  forall u, u < List.length idx -> slice 0 u gx = tab (b :: m ++ [D; c]) (sig4 d (moved4 (nth u idx 0) m dom X)).
Proof.
  intros SA SD DD [F L] ST.
  assert (LS : List.length (b :: m ++ [D; c]) = d + 3) by (cbn [List.length]; rewrite app_length; cbn [List.length]; lia).
  assert (R : exists gx, action G (tab (b :: m ++ [D; c]) (sig4 d X)) (map Z.of_nat (seq 1 d)) 0 (Some (Z.of_nat (d + 1))) Ha Hd = Ok gx).
  { eexists. change 0%Z with (Z.of_nat 0).
    apply (action_group _ _ _ _ OK) with (act := idx) (dom := dom);
      [lia|lia|apply spatial_block; lia|intros I; apply in_seq in I; lia|apply sizes_accept; assumption|exact SA|exact SD
       |rewrite (chan_ix d b m D [c] L); exact DD]. }
  destruct R as [gx R]. exists gx. split; [exact R|].
  destruct (group_slices b m D c X Ha Hd idx dom gx SA SD DD L ST R) as [_ Q]. exact Q.
Qed.

Lemma grid_slices_ok b m c (X : nat -> list nat -> nat -> A) ga H idx : sub_idx G H idx -> fit m ->
  exists gx, action G (tab (b :: m ++ [c]) (sig3 d X)) (map Z.of_nat (seq 1 d)) 0 ga H None = Ok gx /\
  shape gx = List.length idx :: b :: m ++ [c] /\
  forall u, u < List.length idx -> slice 0 u gx = tab (b :: m ++ [c]) (sig3 d (moved3 (nth u idx 0) m X)).
Proof.
  intros SA [F L].
  assert (LS : List.length (b :: m ++ [c]) = d + 2) by (cbn [List.length]; rewrite app_length; cbn [List.length]; lia).
  assert (R : exists gx, action G (tab (b :: m ++ [c]) (sig3 d X)) (map Z.of_nat (seq 1 d)) 0 ga H None = Ok gx).
  { eexists. change 0%Z with (Z.of_nat 0).
    apply (action_grid _ _ _ _ OK) with (idx := idx); [lia|apply spatial_block; lia|apply sizes_accept; assumption|exact SA]. }
  destruct R as [gx R]. exists gx. split; [exact R|].
  destruct (grid_slices b m c X ga H idx gx SA L R) as [_ Q]. exact Q.
Qed.

End A.
End Equiv.
