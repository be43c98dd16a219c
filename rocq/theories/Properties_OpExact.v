(** C108: exactly when transposed layers with output_padding are equivariant. *)
From Verif Require Import OutputPadding OpExactFacts BuildTheorems Properties_Exact Properties_Conv Properties_Linear EquivSpec.
Local Open Scope string_scope.
Local Open Scope list_scope.

(** Along an axis a transposed convolution writes copies of the kernel, of size [ke], at distances
    [s]; from the [(n - 1) * s + ke] positions the output, of this size, drops a part. *)
Definition output_sizes (same : bool) (d : nat) (m k dl s op : list nat) : list nat :=
  map (fun ax => let ke := dilated (nth ax k 0) (nth ax dl 0) in
                 (nth ax m 0 - 1) * nth ax s 0 + (if same then ke mod 2 else ke) + nth ax op 0) (seq 0 d).
Definition dropped_before (same : bool) (d : nat) (m k dl s op : list nat) : list nat :=
  map (fun ax => let ke := dilated (nth ax k 0) (nth ax dl 0) in
                 if same then (ke - (ke mod 2 + nth ax op 0)) / 2 else 0) (seq 0 d).

(** The values of output_padding that the backend accepts. *)
Definition accepted_output_padding (same : bool) (d : nat) (k dl s op : list nat) : Prop :=
  List.length op = d /\ forall ax, ax < d ->
    if same then 1 <= dilated (nth ax k 0) (nth ax dl 0) mod 2 + nth ax op 0 <= nth ax s 0 else nth ax op 0 < nth ax s 0.

Section Sizes.
Context (same : bool) (d : nat) (m k dl s op : list nat).
Context (Lm : List.length m = d) (Lk : List.length k = d) (Ld : List.length dl = d) (Ls : List.length s = d) (LOP : List.length op = d).
Context (Ps : forall ax, ax < d -> 0 < nth ax s 0).
Notation ke := (vzip dilated k dl).

Lemma nth_ke ax : ax < d -> nth ax ke 0 = dilated (nth ax k 0) (nth ax dl 0).
Proof. intros Hax. rewrite nth_vzip by lia. reflexivity. Qed.

Lemma op_outs_eq : opadded_outs d (padding_string same) m ke s op = output_sizes same d m k dl s op.
Proof.
  unfold opadded_outs, output_sizes. apply map_ext_in. intros ax I. apply in_seq in I. rewrite nth_ke by lia. unfold opadded_size.
  rewrite padding_string_same. cbv zeta. destruct same; reflexivity.
Qed.

Lemma op_crops_eq ax : ax < d -> nth ax (opadded_crops d (padding_string same) m ke s op) 0 = nth ax (dropped_before same d m k dl s op) 0.
Proof.
  intros Hax. unfold opadded_crops, dropped_before. rewrite !nth_axis_map by exact Hax. rewrite op_outs_eq. unfold output_sizes. rewrite nth_axis_map by exact Hax.
  rewrite nth_ke by exact Hax. cbv zeta. unfold opadded_before. rewrite padding_string_same. destruct same; [|reflexivity]. f_equal.
  generalize ((nth ax m 0 - 1) * nth ax s 0). intros; lia.
Qed.

Lemma op_src p j i : tsrc m s dl (opadded_crops d (padding_string same) m ke s op) p j = Some i <->
  inb m i /\ meets true d s dl (dropped_before same d m k dl s op) p j i.
Proof.
  unfold meets, reads. split.
  - intros Q. pose proof (tsrc_in _ _ _ _ _ _ _ Q) as I. split; [exact I|]. apply wsrc_some in Q as [_ Q]. rewrite Lm in Q.
    intros ax Hax. specialize (Q ax Hax). apply transpose_src_spec in Q as [_ Q]; [|apply Ps; exact Hax]. rewrite op_crops_eq in Q by exact Hax. lia.
  - intros [I R]. unfold tsrc. rewrite Lm. apply wsrc_all; [rewrite (inb_length _ _ I); exact Lm|]. intros ax Hax.
    apply transpose_src_spec; [apply Ps; exact Hax|]. split; [apply inb_nth; [exact I|lia]|]. specialize (R ax Hax). rewrite op_crops_eq by exact Hax. lia.
Qed.

Lemma length_output_sizes : List.length (output_sizes same d m k dl s op) = d.
Proof. unfold output_sizes. rewrite map_length, seq_length. reflexivity. Qed.
Lemma length_dropped : List.length (dropped_before same d m k dl s op) = d.
Proof. unfold dropped_before. rewrite map_length, seq_length. reflexivity. Qed.
End Sizes.

Section Exactly.
Context {A : Type} {RA : Arith A}.

(** All layers with these arguments and this output_padding, with all weights, commute with [U] on all inputs of size [m']. *)
Definition always_commute_with (op : list nat) (name : string) (G : group) (valued : bool) (a : conv_args A) (H U : string)
  (bs : option nat) (m : list nat) (g c : nat) (m' : list nat) : Prop :=
  let d := dimension_of name in
  forall kinit binit L b x, built d true a (static_signal_shape valued bs m g c) kinit binit L ->
    wf x -> shape x = signal_shape valued b m' g c ->
    commutes_at (if valued then transforms_of_group_signal G d U H else transforms_of_grid_signal G d U)
                (transforms_of_group_signal G d U "") (with_output_padding op L) x.

Theorem C108_exactly_when_layers_commute name G valued same (a : conv_args A) H U idx k s dl op bs m g c m' (u v : A) :
  exact_arithmetic A -> ca_activation a (mul u v) <> ca_activation a zero ->
  plain_layers name G true valued same a H U idx k s dl bs m g c m' ->
  let d := dimension_of name in
  accepted_output_padding same d k dl s op ->
  let M := output_sizes same d m' k dl s op in
  let before := dropped_before same d m' k dl s op in
  always_commute_with op name G valued a H U bs m g c m' <->
  (respects name M /\ forall h p j i, In h idx -> inb M p -> inb k j -> inb m' i -> meets true d s dl before p j i ->
     let e := nth h (symmetries_of name) [] in
     meets true d s dl before (pixel e M p) (pixel e k j) (pixel e m' i)).
Proof.
  intros EX FD PL d [LOP AC0] M before. pose proof PL as PL'.
  destruct (plain_facts _ _ _ _ _ _ _ _ _ _ _ _ _ _ _ _ _ PL) as [act [dom [SU [SO [STA [SDM [Fk [Fm [Ls [Ld [POS [FP [C0 CFS]]]]]]]]]]]]].
  fold d in Fk, Fm, Ls, Ld, POS, CFS. pose proof Fk as [_ Lk]. pose proof Fm as [_ Lm'].
  destruct PL' as [LF HS _ _ _ _ [Lm _] [kinit0 [binit0 [L1 B0]]] _ PM _ _]. fold d in Lm, B0, PM.
  assert (Ps : forall ax, ax < d -> 0 < nth ax s 0) by (intros ax Hax; apply POS; exact Hax).
  pose proof LF as [DG _]. apply lib_ok in DG as [_ OK]. fold d in OK.
  set (C := if valued then g * c else c) in *.
  pose proof (op_outs_eq same d m' k dl s op Lm' Lk Ld Ls LOP) as EM. fold M in EM.
  pose proof (op_src same d m' k dl s op Lm' Lk Ld Ls LOP Ps) as SRC. fold before in SRC.
  assert (FM : respects name M <-> fit d (needs_equal_sizes name) M).
  { split; [intros R; split; [exact R|apply length_output_sizes]|intros [R _]; exact R]. }
  assert (RUN : opadded_runs d (padding_string same) m' (vzip dilated k dl) s op = true).
  { apply opadded_runs_iff; try assumption.
    - intros ax Hax. rewrite (nth_ke d m' k dl s op Lm' Lk Ld Ls LOP) by exact Hax. apply dilated_pos.
    - intros ax Hax. rewrite (nth_ke d m' k dl s op Lm' Lk Ld Ls LOP) by exact Hax. split; [apply PM; exact Hax|]. apply AC0. exact Hax. }
  unfold always_commute_with. fold d. split.
  - intros AC.
    destruct (op_commutes_only_if EX G d _ _ OK valued act dom c C (ca_filters a) k s dl same (ca_use_bias a) op LOP U H ""
                idx g m' (ca_activation a) SU SO STA SDM eq_refl Lm' u v) as [F1 PR]; try assumption.
    { intros kinit. destruct (builds_with_any_weights name G a H true valued bs m g c kinit0 binit0 L1 kinit (fun _ => zero) LF HS B0 Lm) as [L B].
      destruct (CFS _ _ _ B) as [CF CH]. exists (fun _ => zero), L. split; [exact CF|]. split; [exact CH|]. split; [reflexivity|].
      intros x W SH. apply (AC kinit (fun _ => zero) L 1 x B W SH). }
    rewrite EM in F1. split; [apply FM; exact F1|]. intros h p j i IH P J Ii ME. cbv zeta.
    specialize (PR h IH p j). rewrite EM in PR. specialize (PR P J).
    rewrite (proj2 (SRC p j i) (conj Ii ME)) in PR. apply SRC in PR as [_ PR]. exact PR.
  - intros [RM PR] kinit binit L b x B W SH. destruct (CFS _ _ _ B) as [CF CH]. apply FM in RM.
    apply (op_commutes_if EX G d _ _ OK valued act dom c C (ca_filters a) k s dl same (ca_use_bias a) op LOP U H ""
             idx g m' (ca_activation a) SU SO STA SDM eq_refl Lm' kinit binit L x b); try assumption.
    + rewrite EM. exact RM.
    + apply (op_preserves_of G d _ _ OK valued act dom k s dl same op U H idx g m' SU STA SDM); [rewrite EM; exact RM|exact Fk|].
      rewrite EM. intros h p j i IH P J S. apply SRC in S as [Ii ME]. apply SRC. split.
      * apply (pixel_in G d _ _ OK h m' i); [|exact Fm|exact Ii]. destruct (sub_idx_facts _ _ _ _ OK _ _ SU) as [_ [BU _]]. apply BU. exact IH.
      * apply (PR h p j i IH P J Ii ME).
Qed.

(** Without dilation, and with strides and output_padding equal along axes that the group exchanges, that is a
    condition on the axes that some element of the subgroup reverses. *)
Definition harmless (same : bool) (k op : nat) : Prop := if same then Nat.Even op /\ op <= k else op = 0.

Theorem C108_reversed_axes name G valued same (a : conv_args A) H U idx k s dl op bs m g c m' (u v : A) :
  exact_arithmetic A -> ca_activation a (mul u v) <> ca_activation a zero ->
  plain_layers name G true valued same a H U idx k s dl bs m g c m' ->
  let d := dimension_of name in
  dl = repeat 1 d -> accepted_output_padding same d k dl s op -> respects name s -> respects name op ->
  always_commute_with op name G valued a H U bs m g c m' <->
  forall h ax, In h idx -> ax < d -> snd (nth ax (nth h (symmetries_of name) []) (0, false)) = true ->
    harmless same (nth ax k 0) (nth ax op 0).
Proof.
  intros EX FD PL d DL AOP RS ROP. pose proof AOP as [LOP AC0]. rewrite (C108_exactly_when_layers_commute name G valued same a H U idx k s dl op bs m g c m' u v EX FD PL AOP). fold d.
  destruct (plain_facts _ _ _ _ _ _ _ _ _ _ _ _ _ _ _ _ _ PL) as [act [dom [SU [_ [_ [_ [Fk [Fm [Ls [Ld [POS _]]]]]]]]]]].
  fold d in Fk, Fm, Ls, Ld, POS. pose proof Fk as [_ Lk]. pose proof Fm as [_ Lm'].
  destruct PL as [[DG _] _ _ _ _ _ _ _ _ PM _ LE]. fold d in PM, LE. apply lib_ok in DG as [_ OK]. fold d in OK.
  assert (RD : respects name dl).
  { rewrite DL. apply ones_respect. }
  assert (ONES : forall ax, ax < d -> nth ax dl 0 = 1) by (intros ax Hax; rewrite DL; apply nth_ones; exact Hax).
  assert (DK : forall ax, ax < d -> dilated (nth ax k 0) (nth ax dl 0) = nth ax k 0).
  { intros ax Hax. rewrite ONES by exact Hax. destruct (POS ax Hax) as [Pk _]. unfold dilated. lia. }
  set (M := output_sizes same d m' k dl s op) in *. set (before := dropped_before same d m' k dl s op) in *.
  assert (LMo : List.length M = d) by apply length_output_sizes. assert (LBo : List.length before = d) by apply length_dropped.
  assert (SR' : exists p j i, inb M p /\ inb k j /\ inb m' i /\ meets true d s dl before p j i).
  { exists (zeros_of d), before, (zeros_of d). assert (LZ : List.length (zeros_of d) = d) by (unfold zeros_of; apply repeat_length).
    split; [|split; [|split]].
    - apply (inb_of_nth d); [exact LMo|exact LZ|]. intros ax Hax. rewrite nth_zeros. unfold M, output_sizes. rewrite nth_axis_map by exact Hax.
      destruct (POS ax Hax) as [Pk [Ps _]]. specialize (AC0 ax Hax). cbv zeta. rewrite (DK ax Hax) in AC0 |- *. generalize ((nth ax m' 0 - 1) * nth ax s 0). intros z. destruct same; lia.
    - apply (inb_of_nth d); [exact Lk|exact LBo|]. intros ax Hax. unfold before, dropped_before. rewrite nth_axis_map by exact Hax. cbv zeta. rewrite DK by exact Hax.
      destruct (POS ax Hax) as [Pk _]. destruct same; [|exact Pk]. apply Nat.div_lt_upper_bound; lia.
    - apply (inb_of_nth d); [exact Lm'|exact LZ|]. intros ax Hax. rewrite nth_zeros. apply PM. exact Hax.
    - unfold meets. intros ax Hax. rewrite nth_zeros, ONES by exact Hax. lia. }
  assert (Fs : fit d (needs_equal_sizes name) s) by (split; assumption). assert (Fd : fit d (needs_equal_sizes name) dl) by (split; assumption).
  assert (Fo : fit d (needs_equal_sizes name) op) by (split; assumption).
  assert (FM : fit d (needs_equal_sizes name) M).
  { apply fit_of; [exact LMo|]. intros Q x y Hx Hy. unfold M, output_sizes. rewrite !nth_axis_map by assumption.
    rewrite (fit_nth d (needs_equal_sizes name) op x y), ?(fit_nth d (needs_equal_sizes name) m' x y), (fit_nth d (needs_equal_sizes name) k x y), ?(fit_nth d (needs_equal_sizes name) s x y), (fit_nth d (needs_equal_sizes name) dl x y) by assumption. reflexivity. }
  assert (FB : fit d (needs_equal_sizes name) before).
  { apply fit_of; [exact LBo|]. intros Q x y Hx Hy. unfold before, dropped_before. rewrite !nth_axis_map by assumption.
    rewrite (fit_nth d (needs_equal_sizes name) op x y), ?(fit_nth d (needs_equal_sizes name) m' x y), (fit_nth d (needs_equal_sizes name) k x y), ?(fit_nth d (needs_equal_sizes name) s x y), (fit_nth d (needs_equal_sizes name) dl x y) by assumption. reflexivity. }
  destruct (sub_idx_facts _ _ _ _ OK _ _ SU) as [_ [BU _]].
  assert (SAME : forall h ax l, In h idx -> ax < d -> fit d (needs_equal_sizes name) l ->
            nth (fst (nth ax (nth h (symmetries_of name) []) (0, false))) l 0 = nth ax l 0).
  { intros h ax l IH Hax [Fl Ll]. apply (fits_same G d _ _ OK h l ax Fl Ll (BU h IH) Hax). }
  assert (AX : forall ax, ax < d -> (harmless same (nth ax k 0) (nth ax op 0) <->
     (nth ax m' 0 - 1) * nth ax s 0 + (nth ax k 0 - 1) * nth ax dl 0 + 1 = nth ax M 0 + 2 * nth ax before 0)).
  { intros ax Hax. destruct (POS ax Hax) as [Pk [Ps _]]. unfold M, before, output_sizes, dropped_before. rewrite !nth_axis_map by exact Hax. cbv zeta.
    rewrite DK, ONES by exact Hax. generalize ((nth ax m' 0 - 1) * nth ax s 0). intros z. unfold harmless. set (q := nth ax k 0) in *. set (r := nth ax op 0).
    destruct same; [|split; intros; lia].
    pose proof (Nat.div_mod (q - (q mod 2 + r)) 2 ltac:(lia)) as D. pose proof (Nat.mod_upper_bound (q - (q mod 2 + r)) 2 ltac:(lia)) as U1.
    pose proof (Nat.div_mod q 2 ltac:(lia)) as D2. pose proof (Nat.mod_upper_bound q 2 ltac:(lia)) as U2.
    split.
    - intros [[w W] LE0]. rewrite W in *. clear W. assert (X : q - (q mod 2 + 2 * w) = (q / 2 - w) * 2) by lia. rewrite X in *. rewrite Nat.div_mul by lia. lia.
    - intros Q. split; [|lia]. exists (q / 2 - (q - (q mod 2 + r)) / 2). lia. }
  (* entries of moved pixels *)
  assert (PX : forall h ax l i, In h idx -> ax < d -> nth ax (pixel (nth h (symmetries_of name) []) l i) 0 =
     let '(q, r) := nth ax (nth h (symmetries_of name) []) (0, false) in if (r : bool) then nth ax l 0 - 1 - nth q i 0 else nth q i 0).
  { intros h ax l i IH Hax. apply nth_pixel. destruct (ok_sym _ _ _ _ OK h (BU h IH)) as [LE' _]. lia. }
  assert (QB : forall h ax, In h idx -> ax < d -> fst (nth ax (nth h (symmetries_of name) []) (0, false)) < d).
  { intros h ax IH Hax. apply is_symmetry_nth; [apply (ok_sym _ _ _ _ OK); apply BU; exact IH|exact Hax]. }
  pose proof FM as [_ LM]. split.
  - intros [_ PR] h ax IH Hax RV. apply AX; [exact Hax|]. destruct SR' as [p [j [i [P [J [Ii ME]]]]]]. fold M in P. fold before in ME.
    specialize (PR h p j i IH P J Ii ME). cbv zeta in PR.
    pose proof (QB h ax IH Hax) as Q0. pose proof (SAME h ax s IH Hax Fs) as E1. pose proof (SAME h ax dl IH Hax Fd) as E2.
    pose proof (SAME h ax before IH Hax FB) as E3. pose proof (SAME h ax M IH Hax FM) as E4. pose proof (SAME h ax k IH Hax Fk) as E5.
    pose proof (SAME h ax m' IH Hax Fm) as E6.
    pose proof (PX h ax M p IH Hax) as X1. pose proof (PX h ax k j IH Hax) as X2. pose proof (PX h ax m' i IH Hax) as X3.
    destruct (nth ax (nth h (symmetries_of name) []) (0, false)) as [q r] eqn:EQ. cbn [fst snd] in *. subst r.
    pose proof (inb_nth M p q P ltac:(lia)) as B1. pose proof (inb_nth k j q J ltac:(lia)) as B2. pose proof (inb_nth m' i q Ii ltac:(lia)) as B3.
    unfold meets in *.
    + specialize (ME q Q0). specialize (PR ax Hax). rewrite X1, X2, X3 in PR. rewrite E1, E2, E3 in ME. rewrite E4 in B1. rewrite E5 in B2. rewrite E6 in B3.
      assert ((nth ax m' 0 - 1 - nth q i 0) * nth ax s 0 + nth q i 0 * nth ax s 0 = (nth ax m' 0 - 1) * nth ax s 0) by nia.
      assert ((nth ax k 0 - 1 - nth q j 0) * nth ax dl 0 + nth q j 0 * nth ax dl 0 = (nth ax k 0 - 1) * nth ax dl 0) by nia. lia.
  - intros SY. split; [destruct FM as [FM _]; exact FM|]. intros h p j i IH P J Ii ME. cbv zeta.
    assert (ONE : forall ax, ax < d -> let mv l z := nth ax (pixel (nth h (symmetries_of name) []) l z) 0 in
       mv M p + nth ax before 0 = mv m' i * nth ax s 0 + mv k j * nth ax dl 0).
    { intros ax Hax. cbv beta zeta. rewrite !PX by assumption. specialize (SY h ax IH Hax).
      pose proof (QB h ax IH Hax) as Q0. pose proof (SAME h ax s IH Hax Fs) as E1. pose proof (SAME h ax dl IH Hax Fd) as E2.
      pose proof (SAME h ax before IH Hax FB) as E3. pose proof (SAME h ax M IH Hax FM) as E4. pose proof (SAME h ax k IH Hax Fk) as E5.
      pose proof (SAME h ax m' IH Hax Fm) as E6.
      destruct (nth ax (nth h (symmetries_of name) []) (0, false)) as [q r]. cbn [fst snd] in *.
      pose proof (inb_nth M p q P ltac:(lia)) as B1. pose proof (inb_nth k j q J ltac:(lia)) as B2. pose proof (inb_nth m' i q Ii ltac:(lia)) as B3.
      rewrite E4 in B1. rewrite E5 in B2. rewrite E6 in B3.
      unfold meets in ME. destruct r.
      - specialize (SY eq_refl). apply AX in SY; [|exact Hax].
        assert ((nth ax k 0 - 1 - nth q j 0) * nth ax dl 0 + nth q j 0 * nth ax dl 0 = (nth ax k 0 - 1) * nth ax dl 0) by nia.
        specialize (ME q Q0); rewrite E1, E2, E3 in ME.
        assert ((nth ax m' 0 - 1 - nth q i 0) * nth ax s 0 + nth q i 0 * nth ax s 0 = (nth ax m' 0 - 1) * nth ax s 0) by nia. lia.
      - specialize (ME q Q0); rewrite E1, E2, E3 in ME; exact ME. }
    unfold meets. intros ax Hax; exact (ONE ax Hax).
Qed.


End Exactly.
Print Assumptions C108_exactly_when_layers_commute.
Print Assumptions C108_reversed_axes.

(** For which kernel sizes and strides some accepted value is harmless. *)
Theorem C108_when_there_is_one (same : bool) (k s : nat) : 0 < k -> 0 < s ->
  (exists op, accepted_output_padding same 1 [k] [1] [s] [op] /\ harmless same k op) <-> ~ (same = true /\ Nat.Even k /\ s = 1).
Proof.
  intros Pk Ps. assert (DK : dilated k 1 = k) by (unfold dilated; lia).
  assert (AC : forall op, accepted_output_padding same 1 [k] [1] [s] [op] <-> if same then 1 <= k mod 2 + op <= s else op < s).
  { intros op. unfold accepted_output_padding. split.
    - intros [_ Q]. specialize (Q 0 ltac:(lia)). cbn [nth] in Q. rewrite DK in Q. exact Q.
    - intros Q. split; [reflexivity|]. intros ax Hax. replace ax with 0 by lia. cbn [nth]. rewrite DK. exact Q. }
  pose proof (Nat.div_mod k 2 ltac:(lia)) as D. pose proof (Nat.mod_upper_bound k 2 ltac:(lia)) as U. split.
  - intros [op [Q HA]] [-> [[z Z] ->]]. destruct HA as [[w W] LE]. apply AC in Q. assert (k mod 2 = 0) by (rewrite Z, Nat.mul_comm; apply Nat.mod_mul; lia). lia.
  - intros N. destruct same.
    + destruct (Nat.eq_dec (k mod 2) 1) as [O|E].
      * exists 0. split; [apply AC; lia|]. split; [exists 0; reflexivity|lia].
      * assert (s <> 1) by (intros ->; apply N; split; [reflexivity|]; split; [exists (k / 2); lia|reflexivity]).
        exists 2. split; [apply AC; lia|]. split; [exists 1; reflexivity|lia].
    + exists 0. split; [apply AC; lia|reflexivity].
Qed.
Print Assumptions C108_when_there_is_one.

(** ** Cases *)

(** Whether a layer commutes on one signal, for some values of output_padding. *)
Definition op_verdict (name p : string) (k : size_arg) (s : option size_arg) (n : nat) (op : list nat) : option bool :=
  match dict_get group_dict name with
  | Ok G => opadded_commutes_b op (transforms_of_grid_signal G 2 "") (transforms_of_group_signal G 2 "" "")
              (test_layer 2 true (plain_args name "" p k s None) (static_signal_shape false None [n; n] 0 1) some_weights some_weights)
              (some_signal [1; n; n; 1])
  | Err _ => None
  end.

Example C108_case :
  map (fun op => op_verdict "P4" "same" (One 5) (Some (One 6)) 2 [op; op]) [0; 1; 2; 3; 4; 5; 6]
    = [Some true; Some false; Some true; Some false; Some true; Some false; None] /\
  map (fun op => op_verdict "P4" "same" (One 2) (Some (One 4)) 2 [op; op]) [0; 1; 2; 3; 4] = [None; Some false; Some true; Some false; Some false] /\
  map (fun op => op_verdict "P2" "valid" (One 2) (Some (One 3)) 2 [op; op]) [0; 1; 2; 3] = [Some true; Some false; Some false; None] /\
  map (op_verdict "PMw" "valid" (One 2) (Some (One 3)) 2) [[0; 0]; [1; 0]; [0; 1]] = [Some true; Some true; Some false].
Proof. vm_compute. repeat split; reflexivity. Qed.

(** The theorem for kernel size 2, stride 4, 'same', group P4: output_padding=2 is harmless, 4 is not. *)
Example C108_case_exactly :
  let a := plain_args "P4" "" "same" (One 2) (Some (One 4)) None in
  always_commute_with [2; 2] "P4" P4 false a "" "" None [3; 3] 0 1 [3; 3] /\ ~ always_commute_with [4; 4] "P4" P4 false a "" "" None [3; 3] 0 1 [3; 3].
Proof.
  intros a.
  assert (FD : ca_activation a (mul 3%Z 3%Z) <> ca_activation a zero) by (intros Q; vm_compute in Q; discriminate Q).
  assert (PL : plain_layers "P4" P4 true false true a "" "" [0; 1; 2; 3] [2; 2] [4; 4] [1; 1] None [3; 3] 0 1 [3; 3]).
  { apply (plain_case "P4" P4 "" "same" true (One 2) (Some (One 4)) None [3; 3] [0; 1; 2; 3] [2; 2] [4; 4] [1; 1]).
    - split; [vm_compute; reflexivity|split; [left; reflexivity|reflexivity]].
    - vm_compute. reflexivity.
    - exists "same". split; reflexivity.
    - split; [reflexivity|split; reflexivity].
    - reflexivity.
    - vm_compute. reflexivity.
    - intros ax Hax. change (dimension_of "P4") with 2 in Hax. destruct ax as [|[|ax]]; cbn [nth]; lia.
    - apply pairs_respect.
    - left. reflexivity. }
  assert (TH : forall o, 1 <= o <= 4 -> always_commute_with [o; o] "P4" P4 false a "" "" None [3; 3] 0 1 [3; 3] <->
    forall h ax, In h [0; 1; 2; 3] -> ax < 2 -> snd (nth ax (nth h (symmetries_of "P4") []) (0, false)) = true -> harmless true (nth ax [2; 2] 0) (nth ax [o; o] 0)).
  { intros o Ho. apply (C108_reversed_axes "P4" P4 false true a "" "" [0; 1; 2; 3] [2; 2] [4; 4] [1; 1] [o; o] None [3; 3] 0 1 [3; 3] 3%Z 3%Z integers_exact FD PL).
    - reflexivity.
    - split; [reflexivity|]. intros ax Hax. change (dimension_of "P4") with 2 in Hax.
      destruct ax as [|[|ax]]; [| |lia]; cbn [nth]; change (dilated 2 1 mod 2) with 0; lia.
    - apply pairs_respect.
    - apply pairs_respect. }
  split.
  - apply (proj2 (TH 2 ltac:(lia))). intros h ax _ Hax _. destruct ax as [|[|ax]]; [| |lia]; (split; [exists 1; reflexivity|cbn [nth]; lia]).
  - intros N. pose proof (proj1 (TH 4 ltac:(lia)) N) as N1. destruct (N1 2 0) as [_ LE]; [right; right; left; reflexivity|lia|vm_compute; reflexivity|]. cbn [nth] in LE. lia.
Qed.
