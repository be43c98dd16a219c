(** Windows of translated signals. *)
From Verif Require Export PoolSpec Properties_Shapes PoolTheorems.
Local Open Scope string_scope.
Local Open Scope list_scope.

(** ** Vocabulary *)

(** Translating a pixel: one integer per axis. *)
Definition translate (z t : list Z) : list Z := map (fun q => (fst q + snd q)%Z) (combine z t).

(** The value of a signal at batch entry [bi], pixel [z] and further indices [rest],
    with zeros outside of the pixels of the signal ([m] is its spatial shape). *)
Definition signal_at {A} {ZA : Zero A} (m : list nat) (x : tensor A) (bi : nat) (z : list Z) (rest : list nat) : A :=
  if forallb (fun q => (0 <=? fst q)%Z && (fst q <? Z.of_nat (snd q))%Z) (combine z m)
  then at_ x (bi :: map Z.to_nat z ++ rest) else zero.

(** [x'] is [x] translated by [t], with zeros outside. *)
Definition translated {A} {ZA : Zero A} (m : list nat) (t : list Z) (x x' : tensor A) : Prop :=
  forall bi z rest, List.length z = List.length m -> signal_at m x' bi (translate z t) rest = signal_at m x bi z rest.

(** A translation by whole strides. *)
Definition times_strides (t : list Z) (s : list nat) : list Z := map (fun q => (fst q * Z.of_nat (snd q))%Z) (combine t s).

(** ** Facts *)

Lemma nth_map_lt {B C} (f : B -> C) l a dB dC : a < List.length l -> nth a (map f l) dC = f (nth a l dB).
Proof. intros H. rewrite (nth_indep _ _ (f dB)) by (rewrite map_length; exact H). apply map_nth. Qed.

Lemma forallb_ext_in {B} (f g : B -> bool) l : (forall v, In v l -> f v = g v) -> forallb f l = forallb g l.
Proof.
  intros H. induction l as [|v l IH]; [reflexivity|]. cbn [forallb]. rewrite (H v) by (left; reflexivity).
  rewrite IH; [reflexivity|]. intros w I. apply H. right. exact I.
Qed.

Lemma nth_translate z t a : a < List.length z -> List.length z = List.length t ->
  nth a (translate z t) 0%Z = (nth a z 0 + nth a t 0)%Z.
Proof.
  intros H L. unfold translate. rewrite (nth_map_lt _ _ _ (0%Z, 0%Z)) by (rewrite combine_length; lia).
  rewrite combine_nth by exact L. reflexivity.
Qed.
Lemma length_translate z t : List.length z = List.length t -> List.length (translate z t) = List.length z.
Proof. intros L. unfold translate. rewrite map_length, combine_length. lia. Qed.

Lemma nth_times t s a : a < List.length t -> List.length t = List.length s ->
  nth a (times_strides t s) 0%Z = (nth a t 0 * Z.of_nat (nth a s 0%nat))%Z.
Proof.
  intros H L. unfold times_strides. rewrite (nth_map_lt _ _ _ (0%Z, 0)) by (rewrite combine_length; lia).
  rewrite combine_nth by exact L. reflexivity.
Qed.
Lemma length_times t s : List.length t = List.length s -> List.length (times_strides t s) = List.length t.
Proof. intros L. unfold times_strides. rewrite map_length, combine_length. lia. Qed.

Lemma nth_extZ (a b : list Z) : List.length a = List.length b -> (forall i, i < List.length a -> nth i a 0%Z = nth i b 0%Z) -> a = b.
Proof. intros L H. apply (nth_ext a b 0%Z 0%Z L H). Qed.

Lemma inb4_parts b n g c bi p h q : inb (b :: n ++ [g; c]) (bi :: p ++ [h; q]) -> bi < b /\ inb n p /\ h < g /\ q < c.
Proof.
  intros I. apply inb4_inv in I as [bi' [p' [h' [q' [E [B [P [Hh Q]]]]]]]]. injection E as -> E.
  change [h; q] with ([h] ++ [q]) in E. change [h'; q'] with ([h'] ++ [q']) in E. rewrite !app_assoc in E.
  apply app_inj_tail in E as [E ->]. apply app_inj_tail in E as [-> ->]. auto.
Qed.

Lemma in_range (z : list Z) m : List.length z = List.length m ->
  forallb (fun q => (0 <=? fst q)%Z && (fst q <? Z.of_nat (snd q))%Z) (combine z m) = true <->
  (forall a, a < List.length m -> (0 <= nth a z 0 < Z.of_nat (nth a m 0%nat))%Z).
Proof.
  intros L. rewrite forallb_forall. split.
  - intros H a Ha. specialize (H (nth a (combine z m) (0%Z, 0)) ltac:(apply nth_In; rewrite combine_length; lia)).
    rewrite combine_nth in H by exact L. cbn [fst snd] in H. apply andb_true_iff in H as [H1 H2].
    apply Z.leb_le in H1. apply Z.ltb_lt in H2. lia.
  - intros H q I. destruct (In_nth _ _ (0%Z, 0) I) as [a [Ha <-]]. rewrite combine_length in Ha. rewrite combine_nth by exact L.
    cbn [fst snd]. specialize (H a ltac:(lia)). apply andb_true_iff. split; [apply Z.leb_le|apply Z.ltb_lt]; lia.
Qed.

Section Windows.
Context {A : Type} {RA : Arith A}.

(** The pixel below entry [j] of the kernel for output pixel [p]. *)
Definition below (d : nat) (s dl B p j : list nat) : list Z :=
  map (fun a => (Z.of_nat (nth a p 0%nat * nth a s 0%nat + nth a j 0%nat * nth a dl 0%nat) - Z.of_nat (nth a B 0%nat))%Z) (seq 0 d).

Lemma nth_below d s dl B p j a : a < d ->
  nth a (below d s dl B p j) 0%Z = (Z.of_nat (nth a p 0%nat * nth a s 0%nat + nth a j 0%nat * nth a dl 0%nat) - Z.of_nat (nth a B 0%nat))%Z.
Proof.
  intros H. unfold below. rewrite (nth_map_lt _ _ _ 0) by (rewrite seq_length; exact H). rewrite seq_nth by exact H. reflexivity.
Qed.

Lemma csrc_value d m s dl B p j (X : list nat -> A) : List.length m = d ->
  or_zero (option_map X (csrc m s dl B p j))
  = if forallb (fun q => (0 <=? fst q)%Z && (fst q <? Z.of_nat (snd q))%Z) (combine (below d s dl B p j) m)
    then X (map Z.to_nat (below d s dl B p j)) else zero.
Proof.
  intros L. assert (LB : List.length (below d s dl B p j) = d) by (unfold below; rewrite map_length; apply seq_length).
  destruct (csrc m s dl B p j) as [i|] eqn:CS; cbn [option_map or_zero].
  - apply wsrc_some in CS as [Li CS]. rewrite L in *.
    assert (V : forall a, a < d -> Z.of_nat (nth a i 0) = nth a (below d s dl B p j) 0%Z /\ nth a i 0 < nth a m 0).
    { intros a Ha. specialize (CS a Ha). pose proof (conv_src_lt _ _ _ _ _ _ _ CS) as LT. split; [|exact LT].
      rewrite nth_below by exact Ha. unfold conv_src in CS.
      destruct (Nat.leb_spec (nth a B 0) (nth a p 0 * nth a s 0 + nth a j 0 * nth a dl 0)); [|discriminate CS].
      destruct (Nat.ltb_spec (nth a p 0 * nth a s 0 + nth a j 0 * nth a dl 0 - nth a B 0) (nth a m 0)); [|discriminate CS].
      cbn [andb] in CS. injection CS as <-. lia. }
    replace (forallb _ _) with true.
    + f_equal. apply nth_ext0; [rewrite map_length; lia|]. intros a Ha.
      change 0 with (Z.to_nat 0) at 2. rewrite map_nth. destruct (V a ltac:(lia)) as [<- _]. rewrite Nat2Z.id. reflexivity.
    + symmetry. apply in_range; [lia|]. intros a Ha. destruct (V a ltac:(lia)) as [<- LT]. lia.
  - destruct (forallb _ _) eqn:F; [|reflexivity]. exfalso. pose proof (proj1 (in_range (below d s dl B p j) m ltac:(lia)) F) as F'. clear F. rename F' into F. apply wsrc_none in CS as [a [Ha CS]].
    specialize (F a Ha). rewrite nth_below in F by lia. unfold conv_src in CS.
    destruct (Nat.leb_spec (nth a B 0) (nth a p 0 * nth a s 0 + nth a j 0 * nth a dl 0)); [|lia].
    destruct (Nat.ltb_spec (nth a p 0 * nth a s 0 + nth a j 0 * nth a dl 0 - nth a B 0) (nth a m 0)); [discriminate CS|lia].
Qed.

(** Windows over functions of pixels and channels that agree below the kernel. *)
Lemma window_local d m m' s dl B B' k C (x x' : list nat -> nat -> A) W p p' r :
  (forall j q, inb k j -> q < C ->
     or_zero (option_map (fun i => x' i q) (csrc m' s dl B' p' j)) = or_zero (option_map (fun i => x i q) (csrc m s dl B p j))) ->
  List.length k = d ->
  window d (csrc m' s dl B') cterm k C x' W p' r = window d (csrc m s dl B) cterm k C x W p r.
Proof.
  intros H LK. unfold window. f_equal. apply map_ext_in. intros jc I. apply In_indices in I.
  apply inb_app_split in I as [j [c [-> [J I]]]]. apply inb1 in I as [q [-> Q]]. pose proof (inb_length _ _ J) as LJ.
  rewrite firstn_app_exact by lia. rewrite app_nth2 by lia. replace (d - List.length j) with 0 by lia. cbn [nth].
  unfold cterm. rewrite H by assumption. reflexivity.
Qed.

(** The indices behind the pixel of a channel of the merged signal. *)
Definition rest_of (valued : bool) (c q : nat) : list nat := if valued then [q / c; q mod c] else [q].

Lemma merged_value valued (x : tensor A) c bi i q : merged_fun valued x c bi i q = at_ x (bi :: i ++ rest_of valued c q).
Proof. unfold merged_fun, rest_of. destruct valued; reflexivity. Qed.

Lemma merged_at d m s dl B p j valued (x : tensor A) c bi q : List.length m = d ->
  or_zero (option_map (fun i => merged_fun valued x c bi i q) (csrc m s dl B p j)) = signal_at m x bi (below d s dl B p j) (rest_of valued c q).
Proof.
  intros L. rewrite (csrc_value d) by exact L. unfold signal_at. rewrite merged_value. reflexivity.
Qed.

Lemma below_moved d s dl B p p' j t : List.length t = d -> List.length s = d ->
  (forall a, a < d -> Z.of_nat (nth a p' 0) = (Z.of_nat (nth a p 0%nat) + nth a t 0)%Z) ->
  below d s dl B p' j = translate (below d s dl B p j) (times_strides t s).
Proof.
  intros Lt Ls H. assert (LB : forall p, List.length (below d s dl B p j) = d) by (intros; unfold below; rewrite map_length; apply seq_length).
  assert (LT : List.length (times_strides t s) = d) by (rewrite length_times; lia).
  apply nth_extZ; [rewrite length_translate; rewrite !LB; lia|]. intros a Ha. rewrite LB in Ha.
  rewrite nth_translate by (rewrite LB; lia). rewrite !nth_below, nth_times by lia. specialize (H a Ha). nia.
Qed.

(** ** Transposed convolutions *)

(** The entries of the kernel and of the input that meet at output pixel [p]: the
    input pixel is an integer if the distance is a multiple of the stride. *)
Lemma tsrc_value d m s dl B p j (X : list nat -> A) w :
  (forall w, mul (A := A) zero w = zero) ->
  List.length m = d -> (forall a, a < d -> 0 < nth a s 0) ->
  tterm (option_map X (tsrc m s dl B p j)) w
  = (if forallb (fun a => ((Z.of_nat (nth a p 0%nat + nth a B 0%nat) - Z.of_nat (nth a j 0%nat * nth a dl 0%nat)) mod Z.of_nat (nth a s 0%nat) =? 0)%Z) (seq 0 d)
     then let z := map (fun a => ((Z.of_nat (nth a p 0%nat + nth a B 0%nat) - Z.of_nat (nth a j 0%nat * nth a dl 0%nat)) / Z.of_nat (nth a s 0%nat))%Z) (seq 0 d) in
          mul (if forallb (fun q => (0 <=? fst q)%Z && (fst q <? Z.of_nat (snd q))%Z) (combine z m) then X (map Z.to_nat z) else zero) w
     else zero).
Proof.
  intros MZ L PS. set (num := fun a => (Z.of_nat (nth a p 0%nat + nth a B 0%nat) - Z.of_nat (nth a j 0%nat * nth a dl 0%nat))%Z).
  cbv zeta. match goal with |- context [map ?f (seq 0 d)] => set (z := map f (seq 0 d)) end.
  assert (LZ : List.length z = d) by (unfold z; rewrite map_length; apply seq_length).
  assert (NZ : forall a, a < d -> nth a z 0%Z = (num a / Z.of_nat (nth a s 0%nat))%Z).
  { intros a Ha. unfold z. rewrite (nth_map_lt _ _ _ 0) by (rewrite seq_length; exact Ha). rewrite seq_nth by exact Ha. reflexivity. }
  destruct (tsrc m s dl B p j) as [i|] eqn:TS; cbn [option_map tterm].
  - apply wsrc_some in TS as [Li TS]. rewrite L in *.
    assert (V : forall a, a < d -> num a = (Z.of_nat (nth a i 0%nat) * Z.of_nat (nth a s 0%nat))%Z /\ nth a i 0 < nth a m 0).
    { intros a Ha. specialize (TS a Ha). apply transpose_src_spec in TS as [LT EQ]; [|apply PS; exact Ha]. split; [|exact LT]. unfold num. nia. }
    replace (forallb _ (seq 0 d)) with true.
    2:{ symmetry. apply forallb_forall. intros a I. apply in_seq in I. destruct (V a ltac:(lia)) as [E _]. apply Z.eqb_eq. change (num a mod Z.of_nat (nth a s 0%nat) = 0)%Z. rewrite E. apply Z.mod_mul.
        specialize (PS a ltac:(lia)). lia. }
    assert (ZI : forall a, a < d -> nth a z 0%Z = Z.of_nat (nth a i 0)).
    { intros a Ha. rewrite NZ by exact Ha. destruct (V a Ha) as [-> _]. apply Z.div_mul. specialize (PS a Ha). lia. }
    replace (forallb _ (combine z m)) with true.
    + assert (EI : i = map Z.to_nat z).
      { apply nth_ext0; [rewrite map_length; lia|]. intros a Ha. rewrite (nth_map_lt _ _ _ 0%Z), ZI, Nat2Z.id by lia. reflexivity. }
      rewrite <- EI. reflexivity.
    + symmetry. apply in_range; [lia|]. intros a Ha. rewrite ZI by lia. destruct (V a ltac:(lia)) as [_ LT]. lia.
  - destruct (forallb _ (seq 0 d)) eqn:F1; [|reflexivity]. destruct (forallb _ (combine z m)) eqn:F2; [|symmetry; apply MZ]. exfalso.
    rewrite forallb_forall in F1. pose proof (proj1 (in_range z m ltac:(lia)) F2) as F3. clear F2. rename F3 into F2. apply wsrc_none in TS as [a [Ha TS]]. rewrite L in *.
    specialize (F1 a ltac:(apply in_seq; lia)). apply Z.eqb_eq in F1. change (num a mod Z.of_nat (nth a s 0%nat) = 0)%Z in F1. specialize (F2 a Ha). rewrite NZ in F2 by exact Ha.
    pose proof (PS a Ha) as P0. pose proof (Z_div_mod_eq_full (num a) (Z.of_nat (nth a s 0))) as DM. rewrite F1 in DM.
    assert (SP : transpose_src (nth a m 0) (nth a s 0) (nth a dl 0) (nth a B 0) (nth a p 0) (nth a j 0) = Some (Z.to_nat (num a / Z.of_nat (nth a s 0%nat))%Z)).
    { apply transpose_src_spec; [exact P0|]. split; [lia|]. unfold num in *. nia. }
    congruence.
Qed.

End Windows.
