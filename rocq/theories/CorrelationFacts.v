(** Windows as sums over the whole image: the correlation with a turned filter. *)
From Coq Require Import Permutation.
From Verif Require Export LinearFacts Properties_Linear Properties_Adjoint.
From Verif Require Import EquivSpec.
Local Open Scope list_scope.

(** Twice the position of pixel [i] relative to the centre of an axis with [n] pixels. *)
Definition centred (n i : nat) : Z := (2 * Z.of_nat i - (Z.of_nat n - 1))%Z.

(** A vector turned back by a symmetry of the grid. *)
Definition turned_back (e : symmetry) (v : list Z) : list Z :=
  map (fun q : nat * bool => if snd q then Z.opp (nth (fst q) v 0%Z) else nth (fst q) v 0%Z) e.

(** The position of kernel pixel [j] relative to the centre of a kernel of size [k] with
    dilation rate [dl] (twice that), and the kernel as a function of that position: zero
    where it has no pixel. *)
Definition kernel_position (k dl j : list nat) : list Z :=
  map (fun ax => (Z.of_nat (nth ax dl 0%nat) * centred (nth ax k 0%nat) (nth ax j 0%nat))%Z) (seq 0 (List.length k)).
Definition filter_at {A} {ZA : Zero A} (k dl : list nat) (K : list nat -> A) (v : list Z) : A :=
  match find (fun j => list_eqb Z.eqb (kernel_position k dl j) v) (indices k) with Some j => K j | None => zero end.

(** ** Positions *)

Lemma nth_ext_Z (u v : list Z) : List.length u = List.length v -> (forall a, a < List.length u -> nth a u 0%Z = nth a v 0%Z) -> u = v.
Proof. intros L H. apply (nth_ext _ _ 0%Z 0%Z); assumption. Qed.

Lemma nth_axis_mapZ (f : nat -> Z) d ax : ax < d -> nth ax (map f (seq 0 d)) 0%Z = f ax.
Proof.
  intros H. rewrite (nth_indep _ 0%Z (f 0)) by (rewrite map_length, seq_length; exact H). rewrite map_nth, nth_seq0 by exact H. reflexivity.
Qed.

Lemma length_turned_back e v : List.length (turned_back e v) = List.length e.
Proof. apply map_length. Qed.

Lemma nth_turned_back e v a : a < List.length e ->
  nth a (turned_back e v) 0%Z = if snd (nth a e (0, false)) then Z.opp (nth (fst (nth a e (0, false))) v 0%Z) else nth (fst (nth a e (0, false))) v 0%Z.
Proof.
  intros H. unfold turned_back.
  set (F := fun q : nat * bool => if snd q then Z.opp (nth (fst q) v 0%Z) else nth (fst q) v 0%Z).
  rewrite (nth_indep _ 0%Z (F (0, false))) by (rewrite map_length; exact H). apply (map_nth F).
Qed.

Lemma turned_back_injective d e u v : is_symmetry d e -> List.length u = d -> List.length v = d -> turned_back e u = turned_back e v -> u = v.
Proof.
  intros [LE SU] LU LV E. apply nth_ext_Z; [lia|]. intros b B. rewrite LU in B. pose proof (SU _ B) as Q.
  apply in_map_iff in Q as [[b' r] [E1 IN]]. cbn [fst] in E1. subst b'. apply (In_nth e _ (0, false)) in IN as [a [Ha Q]].
  assert (N : nth a (turned_back e u) 0%Z = nth a (turned_back e v) 0%Z) by (rewrite E; reflexivity).
  rewrite !nth_turned_back in N by exact Ha. rewrite Q in N. cbn [fst snd] in N. destruct r; lia.
Qed.

Lemma length_kernel_position k dl j : List.length (kernel_position k dl j) = List.length k.
Proof. unfold kernel_position. rewrite map_length. apply seq_length. Qed.

Lemma kernel_position_pixel d e k dl j : is_symmetry d e -> List.length k = d -> fits e k -> fits e dl -> inb k j ->
  kernel_position k dl (pixel e k j) = turned_back e (kernel_position k dl j).
Proof.
  intros SY L FK FD J. pose proof SY as [LE _]. apply nth_ext_Z; [rewrite length_kernel_position, length_turned_back; lia|].
  intros a Ha. rewrite length_kernel_position in Ha. rewrite nth_turned_back by lia. unfold kernel_position. rewrite nth_axis_mapZ by exact Ha.
  rewrite nth_pixel by lia. pose proof (is_symmetry_nth _ _ a SY ltac:(lia)) as X. specialize (FK a ltac:(lia)). specialize (FD a ltac:(lia)).
  destruct (nth a e (0, false)) as [b r]. cbn [fst snd] in *. rewrite nth_axis_mapZ by lia. rewrite FK, FD. unfold centred.
  pose proof (inb_nth _ _ b J ltac:(lia)) as JB. rewrite FK in JB. destruct r; [|reflexivity].
  rewrite !Nat2Z.inj_sub by lia. change (Z.of_nat 1) with 1%Z. lia.
Qed.

Lemma kernel_position_injective d k dl j j' : List.length k = d -> (forall a, a < d -> 0 < nth a dl 0) -> inb k j -> inb k j' ->
  kernel_position k dl j = kernel_position k dl j' -> j = j'.
Proof.
  intros L P J J' E. pose proof (inb_length _ _ J). pose proof (inb_length _ _ J'). apply nth_ext0; [lia|]. intros a Ha.
  assert (N : nth a (kernel_position k dl j) 0%Z = nth a (kernel_position k dl j') 0%Z) by (rewrite E; reflexivity).
  unfold kernel_position in N. rewrite !nth_axis_mapZ in N by lia. specialize (P a ltac:(lia)).
  apply Z.mul_reg_l in N; [|lia]. unfold centred in N. lia.
Qed.

Lemma pixel_surjective d e k j : is_symmetry d e -> List.length k = d -> fits e k -> inb k j -> exists j', inb k j' /\ pixel e k j' = j.
Proof.
  intros SY L F J.
  assert (P : Permutation (map (pixel e k) (indices k)) (indices k)).
  { apply indices_injective; [intros i I; apply (pixel_inb d); assumption|]. intros i i' I I'. apply (pixel_injective d); assumption. }
  apply In_indices in J. apply (Permutation_in _ (Permutation_sym P)) in J. apply in_map_iff in J as [j' [Q I]].
  exists j'. split; [apply In_indices; exact I|exact Q].
Qed.

Section A.
Context {A : Type} {RA : Arith A}.

(** ** The kernel as a function *)

Lemma filter_at_pixel d k dl (K : list nat -> A) j : List.length k = d -> (forall a, a < d -> 0 < nth a dl 0) -> inb k j ->
  filter_at k dl K (kernel_position k dl j) = K j.
Proof.
  intros L P J. unfold filter_at. destruct (find _ _) as [j'|] eqn:F.
  - apply find_some in F as [I Q]. apply (list_eqb_eq _ Z.eqb_eq) in Q. apply In_indices in I.
    rewrite (kernel_position_injective d k dl j' j L P I J Q). reflexivity.
  - apply In_indices in J. pose proof (find_none _ _ F j J) as Q. cbv beta in Q.
    rewrite (proj2 (list_eqb_eq _ Z.eqb_eq _ _) eq_refl) in Q. discriminate Q.
Qed.

Lemma filter_at_elsewhere k dl (K : list nat -> A) v : (forall j, inb k j -> kernel_position k dl j <> v) -> filter_at k dl K v = zero.
Proof.
  intros H. unfold filter_at. destruct (find _ _) as [j'|] eqn:F; [|reflexivity].
  apply find_some in F as [I Q]. apply (list_eqb_eq _ Z.eqb_eq) in Q. apply In_indices in I. destruct (H j' I Q).
Qed.

(** ** A window is a sum over the image *)

Lemma window_correlation (EX : exact_arithmetic A) d src (term : option A -> A -> A) k C dl (X : list nat -> nat -> A) W (K : list nat -> nat -> A) e m p r
  (chan : nat -> nat) (vec : list nat -> list Z) :
  (term = cterm \/ term = tterm) -> List.length k = d -> is_symmetry d e -> fits e k -> fits e dl -> (forall a, a < d -> 0 < nth a dl 0) ->
  (forall i, inb m i -> List.length (vec i) = d) ->
  (forall j i, inb k j -> (src p j = Some i <-> inb m i /\ kernel_position k dl j = vec i)) ->
  (forall j q, inb k j -> q < C -> W j q r = K (pixel e k j) (chan q)) ->
  window d src term k C X W p r
  = sum (map (fun i => sum (map (fun q => mul (X i q) (filter_at k dl (fun j => K j (chan q)) (turned_back e (vec i)))) (seq 0 C))) (indices m)).
Proof.
  intros T L SY FK FD PD LV SRC WK. unfold window. rewrite (sum_indices_app EX).
  set (hit := fun j i => match src p j with Some i' => list_eqb Nat.eqb i' i | None => false end).
  assert (HIT : forall j i, hit j i = true <-> src p j = Some i).
  { intros j i. unfold hit. destruct (src p j) as [i'|]; [|split; discriminate]. rewrite (list_eqb_eq _ Nat.eqb_eq). split; congruence. }
  transitivity (sum (map (fun j => sum (map (fun q => sum (map (fun i => if hit j i then mul (X i q) (K (pixel e k j) (chan q)) else zero) (indices m))) (seq 0 C))) (indices k))).
  { apply sum_ext. intros j J. apply In_indices in J. pose proof (inb_length _ _ J) as LJ. rewrite (sum_axis EX). apply sum_ext. intros q Q. apply in_seq in Q.
    rewrite firstn_app_exact by lia. rewrite app_nth2 by lia. replace (d - List.length j) with 0 by lia. change (nth 0 [q] 0) with q.
    rewrite WK by (assumption || lia). destruct (src p j) as [i|] eqn:SR.
    - rewrite (sum_only EX (indices m) _ i).
      + rewrite (proj2 (HIT j i) SR). cbn [option_map]. destruct T as [-> | ->]; reflexivity.
      + apply NoDup_indices.
      + apply In_indices. apply (SRC j i J) in SR as [I _]. exact I.
      + intros i' _ NE. destruct (hit j i') eqn:HI; [|reflexivity]. apply HIT in HI. congruence.
    - rewrite (sum_nothing EX).
      + cbn [option_map]. destruct T as [-> | ->]; unfold cterm, tterm, or_zero; [apply (ar_mzero EX)|reflexivity].
      + intros i _. destruct (hit j i) eqn:HI; [|reflexivity]. apply HIT in HI. congruence. }
  transitivity (sum (map (fun j => sum (map (fun i => sum (map (fun q => if hit j i then mul (X i q) (K (pixel e k j) (chan q)) else zero) (seq 0 C))) (indices m))) (indices k))).
  { apply sum_ext. intros j _. apply (sum_swap EX). }
  rewrite (sum_swap EX). apply sum_ext. intros i I. apply In_indices in I. rewrite (sum_swap EX). apply sum_ext. intros q Q.
  destruct (find (fun j => list_eqb Z.eqb (kernel_position k dl (pixel e k j)) (turned_back e (vec i))) (indices k)) as [j|] eqn:F.
  - apply find_some in F as [J F]. apply (list_eqb_eq _ Z.eqb_eq) in F. apply In_indices in J. rewrite <- F.
    pose proof (pixel_inb d e k j SY L FK J) as PJ.
    rewrite (filter_at_pixel d k dl _ _ L PD PJ).
    rewrite (kernel_position_pixel d e k dl j SY L FK FD J) in F.
    apply (turned_back_injective d) in F; [|exact SY|rewrite length_kernel_position; exact L|apply LV; exact I].
    rewrite (sum_only EX (indices k) _ j).
    + rewrite (proj2 (HIT j i)); [reflexivity|]. apply (SRC j i J). split; assumption.
    + apply NoDup_indices.
    + apply In_indices. exact J.
    + intros j' J' NE. apply In_indices in J'. destruct (hit j' i) eqn:HI; [|reflexivity]. apply HIT in HI. apply (SRC j' i J') in HI as [_ HI].
      destruct NE. apply (kernel_position_injective d k dl); try assumption. congruence.
  - rewrite filter_at_elsewhere.
    + rewrite (ar_mzero_r EX). apply (sum_nothing EX). intros j J. pose proof (find_none _ _ F j J) as N. cbv beta in N. apply In_indices in J.
      destruct (hit j i) eqn:HI; [|reflexivity]. apply HIT in HI. apply (SRC j i J) in HI as [_ HI].
      rewrite (kernel_position_pixel d e k dl j SY L FK FD J), HI in N. rewrite (proj2 (list_eqb_eq _ Z.eqb_eq _ _) eq_refl) in N. discriminate N.
    + intros j J QJ. destruct (pixel_surjective d e k j SY L FK J) as [j' [J' P]]. apply In_indices in J'.
      pose proof (find_none _ _ F j' J') as N. cbv beta in N. rewrite P, QJ in N. rewrite (proj2 (list_eqb_eq _ Z.eqb_eq _ _) eq_refl) in N. discriminate N.
Qed.

End A.

(** ** Layers *)

Lemma sum_two_axes {A} {RA : Arith A} (EX : exact_arithmetic A) g c (f : nat -> A) :
  sum (map f (seq 0 (g * c))) = sum (map (fun h => sum (map (fun q => f (h * c + q)) (seq 0 c))) (seq 0 g)).
Proof.
  induction g as [|g IH]; [reflexivity|]. replace (S g * c) with (g * c + c) by lia.
  rewrite seq_app, seq_S, !map_app, !(sum_append EX), IH. f_equal. rewrite !Nat.add_0_l. cbn [map].
  unfold sum at 2. cbn [fold_right]. rewrite (sum_neutral EX). rewrite (seq_from (g * c)), map_map. reflexivity.
Qed.

Section Layers.
Context {A : Type} {RA : Arith A} (EX : exact_arithmetic A).
Context (G : group) (d : nat) (E : list symmetry) (eq : bool) (OK : group_ok G d E eq).
Notation n := (List.length E).
Notation sym a := (nth a E []).

(** The channel of the kernel that element [a] shows at channel [q]; the kernel lives on
    the grid or on the whole group. *)
Definition kernel_channel (valued : bool) (c a q : nat) : nat := if valued then comp G (inv G a) (q / c) * c + q mod c else q.

Lemma kval_filter valued dom act c C o k (K : tensor A) h oo j q :
  (valued = true -> dom = seq 0 n /\ C = n * c) -> (forall a, In a act -> a < n) -> h < List.length act -> oo < o -> q < C ->
  kval G E valued dom act c o k C K j q (h * o + oo)
  = at_ (read_as (k ++ [C; o]) K) (pixel (sym (nth h act 0)) k j ++ [kernel_channel valued c (nth h act 0) q; oo]).
Proof.
  intros DO BA Hh O Q. unfold kval, kidx, kernel_src. destruct (split_ok o h oo O) as [-> ->]. set (a := nth h act 0).
  assert (Ha : a < n) by (apply BA, nth_In; exact Hh).
  assert (CH : chan_from G valued dom c a q = Some (kernel_channel valued c a q)).
  { unfold chan_from, kernel_channel. destruct valued; [|reflexivity]. destruct (DO eq_refl) as [-> CC]. rewrite CC in Q.
    destruct (div_ok _ _ _ Q) as [C0 [Q1 Q2]]. unfold seen_from. rewrite nth_seq0 by exact Q1.
    pose proof (ok_closed _ _ _ _ OK _ _ (ok_inv_lt _ _ _ _ OK a Ha) Q1) as HP. set (p := comp G (inv G a) (q / c)) in *.
    assert (MP : mem p (seq 0 n) = true) by (apply mem_In, in_seq; lia). rewrite MP.
    assert (IP : index_of p (seq 0 n) = p).
    { rewrite <- (nth_seq0 p n HP) at 1. apply index_of_nth; [apply seq_NoDup|rewrite seq_length; exact HP]. }
    rewrite IP. reflexivity. }
  rewrite CH. cbn [option_map]. reflexivity.
Qed.

(** From the place of a window to the position of the input pixel relative to it. *)
Definition away (m M s i p : list nat) : list Z :=
  map (fun ax => (centred (nth ax m 0%nat) (nth ax i 0%nat) - Z.of_nat (nth ax s 0%nat) * centred (nth ax M 0%nat) (nth ax p 0%nat))%Z) (seq 0 d).

Lemma length_away m M s i p : List.length (away m M s i p) = d.
Proof. unfold away. rewrite map_length. apply seq_length. Qed.

Lemma csrc_away m k M s dl before p j i :
  List.length m = d -> List.length k = d -> (forall ax, ax < d -> mirrored m k M s dl before ax) ->
  List.length M = d -> inb M p -> inb k j ->
  (csrc m s dl before p j = Some i <-> inb m i /\ kernel_position k dl j = away m M s i p).
Proof.
  intros Lm Lk MI LM P J. assert (EQ : forall ax, ax < d -> (nth ax i 0 + nth ax before 0 = nth ax p 0 * nth ax s 0 + nth ax j 0 * nth ax dl 0
      <-> (Z.of_nat (nth ax dl 0%nat) * centred (nth ax k 0%nat) (nth ax j 0%nat) = centred (nth ax m 0%nat) (nth ax i 0%nat) - Z.of_nat (nth ax s 0%nat) * centred (nth ax M 0%nat) (nth ax p 0%nat))%Z)).
  { intros ax Hax. specialize (MI ax Hax). unfold mirrored in MI. pose proof (inb_nth _ _ ax P ltac:(lia)) as PP. pose proof (inb_nth _ _ ax J ltac:(lia)) as JJ.
    unfold centred. clear - MI PP JJ.
    set (x1 := nth ax i 0) in *. set (x2 := nth ax before 0) in *. set (x3 := nth ax p 0) in *. set (x4 := nth ax s 0) in *. set (x5 := nth ax j 0) in *.
    set (x6 := nth ax dl 0) in *. set (x7 := nth ax k 0) in *. set (x8 := nth ax m 0) in *. set (x9 := nth ax M 0) in *.
    assert (ML : ((Z.of_nat x9 - 1) * Z.of_nat x4 + (Z.of_nat x7 - 1) * Z.of_nat x6 + 1 = Z.of_nat x8 + 2 * Z.of_nat x2)%Z).
    { replace (Z.of_nat x9 - 1)%Z with (Z.of_nat (x9 - 1)) by lia. replace (Z.of_nat x7 - 1)%Z with (Z.of_nat (x7 - 1)) by lia. lia. }
    split; intros Q.
    - assert (QZ : (Z.of_nat x1 + Z.of_nat x2 = Z.of_nat x3 * Z.of_nat x4 + Z.of_nat x5 * Z.of_nat x6)%Z) by lia. nia.
    - assert (QZ : (Z.of_nat x1 + Z.of_nat x2 = Z.of_nat x3 * Z.of_nat x4 + Z.of_nat x5 * Z.of_nat x6)%Z) by nia. lia. }
  split.
  - intros Q. pose proof (csrc_in _ _ _ _ _ _ _ Q) as I. split; [exact I|]. apply wsrc_some in Q as [_ Q]. rewrite Lm in Q.
    apply nth_ext_Z; [rewrite length_kernel_position, length_away; exact Lk|]. intros ax Hax. rewrite length_kernel_position, Lk in Hax.
    unfold kernel_position, away. rewrite !nth_axis_mapZ by lia. apply (EQ ax Hax). specialize (Q ax Hax). unfold conv_src in Q.
    destruct (Nat.leb_spec (nth ax before 0) (nth ax p 0 * nth ax s 0 + nth ax j 0 * nth ax dl 0)); [|discriminate Q].
    destruct (_ <? _)%nat; [|discriminate Q]. cbn [andb] in Q. injection Q as Q. lia.
  - intros [I Q]. unfold csrc. rewrite Lm. apply wsrc_all; [rewrite (inb_length _ _ I); exact Lm|]. intros ax Hax.
    assert (N : nth ax (kernel_position k dl j) 0%Z = nth ax (away m M s i p) 0%Z) by (rewrite Q; reflexivity).
    unfold kernel_position, away in N. rewrite !nth_axis_mapZ in N by lia. apply (EQ ax Hax) in N. unfold conv_src.
    pose proof (inb_nth m i ax I ltac:(lia)).
    rewrite (proj2 (Nat.leb_le _ _)), (proj2 (Nat.ltb_lt _ _)) by lia. cbn [andb]. f_equal. lia.
Qed.

Lemma tsrc_away m k M s dl before p j i :
  List.length m = d -> List.length k = d -> (forall ax, ax < d -> 0 < nth ax s 0) -> (forall ax, ax < d -> mirrored M k m s dl before ax) ->
  List.length M = d -> inb M p -> inb k j ->
  (tsrc m s dl before p j = Some i <-> inb m i /\ kernel_position k dl j = away M m s p i).
Proof.
  intros Lm Lk Ps MI LM P J. assert (EQ : forall ax, ax < d -> nth ax i 0 < nth ax m 0 -> (nth ax i 0 * nth ax s 0 + nth ax j 0 * nth ax dl 0 = nth ax p 0 + nth ax before 0
      <-> (Z.of_nat (nth ax dl 0%nat) * centred (nth ax k 0%nat) (nth ax j 0%nat) = centred (nth ax M 0%nat) (nth ax p 0%nat) - Z.of_nat (nth ax s 0%nat) * centred (nth ax m 0%nat) (nth ax i 0%nat))%Z)).
  { intros ax Hax IM. specialize (MI ax Hax). unfold mirrored in MI. pose proof (inb_nth _ _ ax P ltac:(lia)) as PP. pose proof (inb_nth _ _ ax J ltac:(lia)) as JJ.
    unfold centred. clear - MI PP JJ IM.
    set (x1 := nth ax i 0) in *. set (x2 := nth ax before 0) in *. set (x3 := nth ax p 0) in *. set (x4 := nth ax s 0) in *. set (x5 := nth ax j 0) in *.
    set (x6 := nth ax dl 0) in *. set (x7 := nth ax k 0) in *. set (x8 := nth ax m 0) in *. set (x9 := nth ax M 0) in *.
    assert (ML : ((Z.of_nat x8 - 1) * Z.of_nat x4 + (Z.of_nat x7 - 1) * Z.of_nat x6 + 1 = Z.of_nat x9 + 2 * Z.of_nat x2)%Z).
    { replace (Z.of_nat x8 - 1)%Z with (Z.of_nat (x8 - 1)) by lia. replace (Z.of_nat x7 - 1)%Z with (Z.of_nat (x7 - 1)) by lia. lia. }
    split; intros Q.
    - assert (QZ : (Z.of_nat x1 * Z.of_nat x4 + Z.of_nat x5 * Z.of_nat x6 = Z.of_nat x3 + Z.of_nat x2)%Z) by lia. nia.
    - assert (QZ : (Z.of_nat x1 * Z.of_nat x4 + Z.of_nat x5 * Z.of_nat x6 = Z.of_nat x3 + Z.of_nat x2)%Z) by nia. lia. }
  split.
  - intros Q. pose proof (tsrc_in _ _ _ _ _ _ _ Q) as I. split; [exact I|]. apply wsrc_some in Q as [_ Q]. rewrite Lm in Q.
    apply nth_ext_Z; [rewrite length_kernel_position, length_away; exact Lk|]. intros ax Hax. rewrite length_kernel_position, Lk in Hax.
    unfold kernel_position, away. rewrite !nth_axis_mapZ by lia. specialize (Q ax Hax). apply transpose_src_spec in Q as [Q1 Q2]; [|apply Ps; exact Hax].
    apply (EQ ax Hax Q1). exact Q2.
  - intros [I Q]. unfold tsrc. rewrite Lm. apply wsrc_all; [rewrite (inb_length _ _ I); exact Lm|]. intros ax Hax.
    assert (N : nth ax (kernel_position k dl j) 0%Z = nth ax (away M m s p i) 0%Z) by (rewrite Q; reflexivity).
    pose proof (inb_nth m i ax I ltac:(lia)) as IM.
    unfold kernel_position, away in N. rewrite !nth_axis_mapZ in N by lia. apply (EQ ax Hax IM) in N.
    apply transpose_src_spec; [apply Ps; exact Hax|]. split; assumption.
Qed.

(** Zeros around the input do not contribute. *)
Lemma sum_bordered m be (X : nat -> list nat -> nat -> A) bi C (F : list nat -> nat -> A) : List.length m = d -> List.length be = d ->
  sum (map (fun i => sum (map (fun q => mul (bordered be m X bi i q) (F i q)) (seq 0 C))) (indices (padded be m be)))
  = sum (map (fun i => sum (map (fun q => mul (X bi i q) (F (vzip Nat.add be i) q)) (seq 0 C))) (indices m)).
Proof.
  intros Lm Lb. set (m1 := padded be m be). assert (L1 : List.length m1 = d) by (apply length_padded; assumption).
  assert (N1 : forall b, b < d -> nth b m1 0 = nth b be 0 + nth b m 0 + nth b be 0) by (intros b Hb; apply (nth_padded _ _ _ d); assumption).
  set (sh := vzip Nat.add be).
  assert (SH : forall i, inb m i -> inb m1 (sh i) /\ inside be m (sh i) = true /\ vzip Nat.sub (sh i) be = i).
  { intros i I. pose proof (inb_length _ _ I) as LI. assert (LS : List.length (sh i) = d) by (unfold sh; rewrite length_vzip; lia).
    assert (NS : forall b, b < d -> nth b (sh i) 0 = nth b be 0 + nth b i 0) by (intros b Hb; unfold sh; apply nth_vzip; lia).
    split; [|split].
    - apply inb_intro; [lia|]. intros b Hb. rewrite L1 in Hb. rewrite NS, N1 by exact Hb. pose proof (inb_nth _ _ b I ltac:(lia)). lia.
    - apply (inside_spec _ _ _ d); try assumption. intros b Hb. rewrite NS by exact Hb. pose proof (inb_nth _ _ b I ltac:(lia)). lia.
    - apply nth_ext0; [rewrite length_vzip; lia|]. intros b Hb. rewrite length_vzip in Hb by lia. rewrite nth_vzip by lia. rewrite NS by lia. lia. }
  transitivity (sum (map (fun i1 => sum (map (fun i => if list_eqb Nat.eqb (sh i) i1 then sum (map (fun q => mul (X bi i q) (F i1 q)) (seq 0 C)) else zero) (indices m))) (indices m1))).
  - apply sum_ext. intros i1 I1. apply In_indices in I1. pose proof (inb_length _ _ I1) as LI1. unfold bordered. destruct (inside be m i1) eqn:IN.
    + pose proof (proj1 (inside_spec be m i1 d Lb Lm ltac:(lia)) IN) as INS. set (i := vzip Nat.sub i1 be).
      assert (LI : List.length i = d) by (unfold i; rewrite length_vzip; lia).
      assert (NI : forall b, b < d -> nth b i 0 = nth b i1 0 - nth b be 0) by (intros b Hb; unfold i; apply nth_vzip; lia).
      assert (II : inb m i) by (apply inb_intro; [lia|]; intros b Hb; rewrite Lm in Hb; rewrite NI by exact Hb; specialize (INS b Hb); lia).
      assert (SI : sh i = i1).
      { unfold sh. apply nth_ext0; [rewrite length_vzip; lia|]. intros b Hb. rewrite length_vzip in Hb by lia. rewrite nth_vzip by lia. rewrite NI by lia.
        specialize (INS b ltac:(lia)). lia. }
      rewrite (sum_only EX (indices m) _ i).
      * rewrite (proj2 (list_eqb_eq _ Nat.eqb_eq _ _) SI). reflexivity.
      * apply NoDup_indices.
      * apply In_indices. exact II.
      * intros i' I' NE. apply In_indices in I'. destruct (list_eqb Nat.eqb (sh i') i1) eqn:Q; [|reflexivity]. apply (list_eqb_eq _ Nat.eqb_eq) in Q.
        destruct NE. destruct (SH i' I') as [_ [_ S']]. rewrite <- S', Q. reflexivity.
    + rewrite (sum_nothing EX _ (seq 0 C)) by (intros q _; apply (ar_mzero EX)). symmetry. apply (sum_nothing EX). intros i I. apply In_indices in I.
      destruct (list_eqb Nat.eqb (sh i) i1) eqn:Q; [|reflexivity]. apply (list_eqb_eq _ Nat.eqb_eq) in Q.
      destruct (SH i I) as [_ [S' _]]. rewrite Q in S'. congruence.
  - rewrite (sum_swap EX). apply sum_ext. intros i I. apply In_indices in I. destruct (SH i I) as [S1 _].
    rewrite (sum_only EX (indices m1) _ (sh i)).
    + rewrite (proj2 (list_eqb_eq _ Nat.eqb_eq _ _) eq_refl). reflexivity.
    + apply NoDup_indices.
    + apply In_indices. exact S1.
    + intros i1 _ NE. destruct (list_eqb Nat.eqb (sh i) i1) eqn:Q; [|reflexivity]. apply (list_eqb_eq _ Nat.eqb_eq) in Q. congruence.
Qed.

(** The same position, seen in the padded image. *)
Lemma away_bordered m M be s p i : List.length m = d -> List.length be = d -> inb m i ->
  away M (padded be m be) s p (vzip Nat.add be i) = away M m s p i.
Proof.
  intros Lm Lb I. pose proof (inb_length _ _ I) as LI. unfold away. apply map_ext_in. intros ax Q. apply in_seq in Q. f_equal. f_equal.
  rewrite (nth_padded _ _ _ d) by (assumption || lia). rewrite nth_vzip by lia. unfold centred. lia.
Qed.

End Layers.
