(** Shapes of the outputs of convolution layers. *)
From Verif Require Export SliceFacts.
Local Open Scope string_scope.
Local Open Scope list_scope.

(** Output size of one axis of size [n]: kernel size [k] (dilated), stride [s]. *)
Lemma same_size n k s : 0 < n -> 0 < k -> 0 < s ->
  k <= n + same_total n k s /\ out_size (n + same_total n k s) k s = (n + s - 1) / s.
Proof.
  intros N K S. unfold same_total, out_size. set (q := (n + s - 1) / s).
  assert (D1 : s * q <= n + s - 1) by (apply Nat.mul_div_le; lia).
  assert (D2 : n + s - 1 < s * Datatypes.S q) by (apply Nat.mul_succ_div_gt; lia).
  assert (Q1 : 1 <= q) by nia.
  destruct (Nat.le_gt_cases (s + n) (q * s + k)) as [Hl|Hg].
  - split; [nia|]. replace (n + (q * s + k - (s + n)) - k) with ((q - 1) * s) by nia. rewrite Nat.div_mul by lia. lia.
  - replace (q * s + k - (s + n)) with 0 by lia. split; [nia|]. rewrite Nat.add_0_r.
    assert (X : (n - k) / s = q - 1). { symmetry. apply (Nat.div_unique (n - k) s (q - 1) (n - k - s * (q - 1))); nia. }
    rewrite X. lia.
Qed.

Lemma half_sum t : (t / 2 + (t - t / 2))%nat = t.
Proof. pose proof (Nat.mul_div_le t 2 ltac:(discriminate)). lia. Qed.

Lemma dilated_pos k dl : 0 < dilated k dl.
Proof. unfold dilated. rewrite Nat.add_1_r. apply Nat.lt_0_succ. Qed.

(** Sizes after the backend's padding. *)
Lemma backend_sizes d same m1 ke s ax :
  List.length m1 = d -> List.length ke = d -> List.length s = d -> ax < d ->
  let pads := builtin_pads (padding_string same) m1 ke s in
  nth ax (padded (map fst pads) m1 (map snd pads)) 0 = nth ax m1 0 + backend_total same (nth ax m1 0) (nth ax ke 0) (nth ax s 0).
Proof.
  intros L1 L2 L3 H pads. assert (LP : List.length pads = d) by (apply length_builtin; assumption).
  rewrite (nth_padded _ _ _ d) by (rewrite ?map_length; assumption). unfold pads.
  destruct (nth_pads d (padding_string same) m1 ke s ax L1 L2 L3 H) as [-> ->]. rewrite padding_string_same.
  unfold backend_pads, backend_total, same_pads. destruct same; cbn [fst snd]; [|lia].
  pose proof (half_sum (same_total (nth ax m1 0) (nth ax ke 0) (nth ax s 0))). lia.
Qed.

(** What Keras computes for known sizes. *)
Lemma keras_sizes_known (f : nat -> nat -> nat -> Z) (m ke s : list nat) :
  map (fun q : option nat * nat * nat => let '(o, k, s) := q in option_map (fun n => f n k s) o) (combine (combine (map Some m) ke) s)
  = map Some (map (fun q : nat * nat * nat => let '(n, k, s) := q in f n k s) (combine (combine m ke) s)).
Proof.
  revert ke s. induction m as [|n m IH]; intros [|k ke] [|v s]; cbn [map combine option_map]; try reflexivity. rewrite IH. reflexivity.
Qed.

Lemma keras_sizes_check (l : list Z) :
  forallb (fun o => match o with Some z => (0 <=? z)%Z | None => true end) (map Some l) = forallb (fun z => (0 <=? z)%Z) l.
Proof. induction l as [|z l IH]; [reflexivity|]. cbn [map forallb]. rewrite IH. reflexivity. Qed.

Lemma map_nth_seq {B} (l : list nat) (f : nat -> B) : map (fun ax => f (nth ax l 0)) (seq 0 (List.length l)) = map f l.
Proof.
  rewrite <- (map_map (fun ax => nth ax l 0) f). f_equal.
  apply nth_ext with (d := 0) (d' := 0); [rewrite map_length; apply seq_length|]. intros k K. rewrite map_length, seq_length in K.
  rewrite nth_indep with (d' := (fun ax => nth ax l 0) 0) by (rewrite map_length, seq_length; exact K).
  rewrite (map_nth (fun ax => nth ax l 0)). rewrite seq_nth by exact K. reflexivity.
Qed.

Lemma axes_as_map {B} (f : nat -> nat -> nat -> B) n k s d : List.length n = d -> List.length k = d -> List.length s = d ->
  map (fun q => let '(n, k, s) := q in f n k s) (combine (combine n k) s)
  = map (fun ax => f (nth ax n 0) (nth ax k 0) (nth ax s 0)) (seq 0 d).
Proof.
  revert n k s. induction d as [|d IH]; intros n k s Ln Lk Ls.
  - destruct n; [reflexivity|discriminate Ln].
  - destruct n as [|n0 n], k as [|k0 k], s as [|s0 s]; try discriminate. cbn [combine map seq nth]. f_equal.
    rewrite (IH n k s) by (cbn in *; lia). rewrite <- seq_shift, map_map. reflexivity.
Qed.

Lemma map_nth_of (l : list nat) d : List.length l = d -> map (fun ax => nth ax l 0) (seq 0 d) = l.
Proof. intros <-. rewrite (map_nth_seq l (fun v => v)). apply map_id. Qed.
