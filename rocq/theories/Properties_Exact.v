(** C86: exactly when layers with plain 'same' or 'valid' padding are equivariant, and
    whether the check that [allow_non_equivariance] switches off is exact. *)
From Verif Require Import ExactFacts BuildTheorems Properties_Shapes Properties_Padding Properties_Conv Properties_Linear EquivSpec.
Local Open Scope string_scope.
Local Open Scope list_scope.

(** With [before] zeros in front of each axis, stride [s] and dilation rate [dl],
    output pixel [p] multiplies input pixel [i] with kernel pixel [j]. *)
Definition reads (d : nat) (s dl before p j i : list nat) : Prop :=
  forall ax, ax < d -> nth ax i 0 + nth ax before 0 = nth ax p 0 * nth ax s 0 + nth ax j 0 * nth ax dl 0.

(** In a transposed convolution input and output change places. *)
Definition meets (tr : bool) (d : nat) (s dl before p j i : list nat) : Prop :=
  if tr then reads d s dl before i j p else reads d s dl before p j i.

(** Sizes of the output, and zeros (or, in a transposed convolution, dropped output
    pixels) in front of each axis. *)
Definition out_sizes (tr same : bool) (d : nat) (m k dl s : list nat) : list nat :=
  map (fun ax => (if tr then transposed_size else conv_size) same (nth ax m 0) (nth ax k 0) (nth ax dl 0) (nth ax s 0)) (seq 0 d).
Definition front (tr same : bool) (d : nat) (m k dl s : list nat) : list nat :=
  map (fun ax => let ke := dilated (nth ax k 0) (nth ax dl 0) in
                 if tr then if same then (ke - nth ax s 0) / 2 else 0
                 else fst (backend_pads same (nth ax m 0) ke (nth ax s 0))) (seq 0 d).

(** The layer accepts inputs of size [m]. *)
Definition large_enough (tr same : bool) (d : nat) (m k dl : list nat) : Prop :=
  tr = true \/ same = true \/ forall ax, ax < d -> dilated (nth ax k 0) (nth ax dl 0) <= nth ax m 0.

Lemma nth_axis_map (f : nat -> nat) d ax : ax < d -> nth ax (map f (seq 0 d)) 0 = f ax.
Proof.
  intros H. rewrite (nth_indep _ 0 (f 0)) by (rewrite map_length, seq_length; exact H). rewrite map_nth, nth_seq0 by exact H. reflexivity.
Qed.

Section Sizes.
Context (tr same : bool) (d : nat) (m k dl s : list nat).
Context (Lm : List.length m = d) (Lk : List.length k = d) (Ld : List.length dl = d) (Ls : List.length s = d).
Context (Ps : forall ax, ax < d -> 0 < nth ax s 0).
Notation zs := (zeros_of d).

Lemma zeros_len : List.length zs = d.
Proof. unfold zeros_of. apply repeat_length. Qed.

Lemma plain_outs : (forall ax, ax < d -> 0 < nth ax m 0) -> layer_outs tr k s dl zs zs same m = out_sizes tr same d m k dl s.
Proof.
  intros PM. assert (LK : List.length (vzip dilated k dl) = d) by (rewrite length_vzip; lia).
  unfold layer_outs, out_sizes. rewrite !padded_zeros by exact Lm. destruct tr.
  - unfold touts. rewrite (axes_as_map (transpose_size (padding_string same)) _ _ _ d Lm LK Ls). apply map_ext_in. intros ax I. apply in_seq in I.
    rewrite nth_vzip by lia. unfold transpose_size, transposed_size. rewrite padding_string_same. reflexivity.
  - set (pads := builtin_pads _ _ _ _). assert (LP : List.length pads = d) by (apply length_builtin; assumption).
    set (m2 := padded _ _ _). assert (L2 : List.length m2 = d) by (apply length_padded; rewrite ?map_length; assumption).
    unfold outs. rewrite (axes_as_map out_size m2 _ s d L2 LK Ls). apply map_ext_in. intros ax I. apply in_seq in I.
    unfold m2, pads. rewrite (backend_sizes d) by (assumption || lia). rewrite nth_vzip by lia. unfold conv_size, backend_total. destruct same.
    + apply same_size; [apply PM; lia|apply dilated_pos|apply Ps; lia].
    + unfold out_size. rewrite Nat.add_0_r. reflexivity.
Qed.

Lemma plain_runs : (forall ax, ax < d -> 0 < nth ax m 0) -> large_enough tr same d m k dl -> layer_runs tr k s dl zs zs same m = true.
Proof.
  intros PM LE. assert (LK : List.length (vzip dilated k dl) = d) by (rewrite length_vzip; lia).
  unfold layer_runs. rewrite !padded_zeros by exact Lm. destruct tr; [reflexivity|].
  set (pads := builtin_pads _ _ _ _). assert (LP : List.length pads = d) by (apply length_builtin; assumption).
  set (m2 := padded _ _ _). assert (L2 : List.length m2 = d) by (apply length_padded; rewrite ?map_length; assumption).
  apply (forallb_combine_le_iff _ m2 d LK L2). intros ax Hax. unfold m2, pads. rewrite (backend_sizes d) by assumption.
  rewrite nth_vzip by lia. unfold backend_total. destruct same.
  - apply same_size; [apply PM; exact Hax|apply dilated_pos|apply Ps; exact Hax].
  - destruct LE as [LE|[LE|LE]]; try discriminate LE. pose proof (LE ax Hax). lia.
Qed.

Lemma plain_src p j i : layer_src tr k s dl zs zs same m p j = Some i <-> inb m i /\ meets tr d s dl (front tr same d m k dl s) p j i.
Proof.
  assert (LK : List.length (vzip dilated k dl) = d) by (rewrite length_vzip; lia).
  assert (Lz := zeros_len).
  unfold layer_src, meets, reads. rewrite !padded_zeros by exact Lm. destruct tr.
  - assert (B : forall ax, ax < d -> nth ax (vzip (transpose_before (padding_string same)) (vzip dilated k dl) s) 0 = nth ax (front true same d m k dl s) 0).
    { intros ax Hax. unfold front. rewrite nth_axis_map by exact Hax. rewrite !nth_vzip by lia. unfold transpose_before.
      rewrite padding_string_same. reflexivity. }
    split.
    + intros Q. pose proof (tsrc_in _ _ _ _ _ _ _ Q) as I. split; [exact I|]. apply wsrc_some in Q as [_ Q]. rewrite Lm in Q.
      intros ax Hax. specialize (Q ax Hax). apply transpose_src_spec in Q as [_ Q]; [|apply Ps; exact Hax]. rewrite <- B by exact Hax. lia.
    + intros [I R]. unfold tsrc. rewrite Lm. apply wsrc_all; [rewrite (inb_length _ _ I); exact Lm|]. intros ax Hax.
      apply transpose_src_spec; [apply Ps; exact Hax|]. split; [apply inb_nth; [exact I|lia]|]. specialize (R ax Hax). rewrite <- B in R by exact Hax. lia.
  - set (pads := builtin_pads _ _ _ _). assert (LP : List.length pads = d) by (apply length_builtin; assumption).
    assert (B : forall ax, ax < d -> nth ax (vzip Nat.add zs (map fst pads)) 0 = nth ax (front false same d m k dl s) 0).
    { intros ax Hax. unfold front. rewrite nth_axis_map by exact Hax. rewrite nth_vzip by (rewrite ?map_length; lia). rewrite nth_zeros.
      unfold pads. rewrite (proj1 (nth_pads d (padding_string same) m (vzip dilated k dl) s ax Lm LK Ls Hax)), padding_string_same, nth_vzip by lia.
      reflexivity. }
    split.
    + intros Q. pose proof (csrc_in _ _ _ _ _ _ _ Q) as I. split; [exact I|]. apply wsrc_some in Q as [_ Q]. rewrite Lm in Q.
      intros ax Hax. specialize (Q ax Hax). unfold conv_src in Q. rewrite B in Q by exact Hax.
      set (z := nth ax p 0 * nth ax s 0 + nth ax j 0 * nth ax dl 0) in *.
      destruct (Nat.leb_spec (nth ax (front false same d m k dl s) 0) z); [|discriminate Q].
      destruct (_ <? _)%nat; [|discriminate Q]. cbn [andb] in Q. injection Q as Q. lia.
    + intros [I R]. unfold csrc. rewrite Lm. apply wsrc_all; [rewrite (inb_length _ _ I); exact Lm|]. intros ax Hax.
      specialize (R ax Hax). unfold conv_src. rewrite B by exact Hax.
      set (z := nth ax p 0 * nth ax s 0 + nth ax j 0 * nth ax dl 0) in *.
      pose proof (inb_nth m i ax I ltac:(lia)).
      rewrite (proj2 (Nat.leb_le _ _)), (proj2 (Nat.ltb_lt _ _)) by lia. cbn [andb]. f_equal. lia.
Qed.

Lemma length_out_sizes : List.length (out_sizes tr same d m k dl s) = d.
Proof. unfold out_sizes. rewrite map_length, seq_length. reflexivity. Qed.
Lemma length_front : List.length (front tr same d m k dl s) = d.
Proof. unfold front. rewrite map_length, seq_length. reflexivity. Qed.
End Sizes.

Lemma plain_widths allow same tr d m k s eb ea : widths_ok true allow same tr d m k s eb ea -> eb = zeros_of d /\ ea = zeros_of d.
Proof.
  intros [LB [LA [[_ W]|[_ W]]]]; [exact W|].
  assert (LZ : List.length (zeros_of d) = d) by (unfold zeros_of; apply repeat_length).
  split; (apply nth_ext0; [lia|]); intros ax Hax; rewrite nth_zeros; specialize (W ax ltac:(lia)); cbv zeta in W;
    destruct W as [_ [_ [_ [_ W]]]]; specialize (W eq_refl); lia.
Qed.

Section Exactly.
Context {A : Type} {RA : Arith A}.

(** Whether a layer builds does not depend on the initial weights. *)
Lemma builds_with_any_weights name G (a : conv_args A) H tr valued bs m g c kinit binit L kinit' binit' :
  layer_for name G a -> ca_subgroup a = Some H ->
  let d := dimension_of name in
  built d tr a (static_signal_shape valued bs m g c) kinit binit L -> List.length m = d ->
  exists L', built d tr a (static_signal_shape valued bs m g c) kinit' binit' L'.
Proof.
  intros [DG [AG AF]] HS d [L0 [I B]] Lm. pose proof DG as DG'. apply lib_ok in DG' as [_ OK]. fold d in OK.
  destruct (conv_build_inv G d _ _ OK name tr a L0 valued bs m g c kinit binit L DG AG AF I Lm B)
    as [p [k [s [dl [_ [_ [_ [_ [PN [SK [SS [SD _]]]]]]]]]]]].
  pose proof (conv_build_iff G d _ _ OK name tr a L0 p k s dl valued bs m g c kinit binit DG AG AF I Lm PN SK SS SD) as I1.
  pose proof (conv_build_iff G d _ _ OK name tr a L0 p k s dl valued bs m g c kinit' binit' DG AG AF I Lm PN SK SS SD) as I2.
  cbv zeta in I1, I2. assert (X : exists L', conv_build L0 (build_shape valued bs m g c) kinit' binit' = Ok L').
  { apply I2, I1. exists L. exact B. }
  destruct X as [L' B']. exists L', L0. split; [exact I|exact B'].
Qed.

(** The layers with arguments [a] (plain 'same' padding if [same], else 'valid') that are
    built for inputs of size [m], on inputs of size [m'] that they accept.  They are to
    commute with the subgroup [U] of elements [idx]: the subgroup [H] of the layer, or, for
    a transposed layer on the grid, any subgroup. *)
Record plain_layers (name : string) (G : group) (tr valued same : bool) (a : conv_args A) (H U : string) (idx : list nat)
  (k s dl : list nat) (bs : option nat) (m : list nat) (g c : nat) (m' : list nat) : Prop := {
  pl_layer : layer_for name G a;
  pl_subgroup : ca_subgroup a = Some H;
  pl_acting : U = H \/ tr = true /\ valued = false;
  pl_indices : subgroup_indices G U idx;
  pl_option : option_of a (if same then "SAME" else "VALID");
  pl_sizes : sizes (dimension_of name) a k s dl;
  pl_dims : List.length m = dimension_of name /\ List.length m' = dimension_of name;
  pl_built : exists kinit binit L, built (dimension_of name) tr a (static_signal_shape valued bs m g c) kinit binit L;
  pl_channels : 0 < c;
  pl_positive : forall ax, ax < dimension_of name -> 0 < nth ax m' 0;
  pl_respects : respects name m';
  pl_large : large_enough tr same (dimension_of name) m' k dl
}.

(** All of them, with all weights, commute with [U] on all those inputs. *)
Definition always_commute (name : string) (G : group) (tr valued : bool) (a : conv_args A) (H U : string)
  (bs : option nat) (m : list nat) (g c : nat) (m' : list nat) : Prop :=
  let d := dimension_of name in
  forall kinit binit L b x, built d tr a (static_signal_shape valued bs m g c) kinit binit L ->
    wf x -> shape x = signal_shape valued b m' g c ->
    commutes_at (if valued then transforms_of_group_signal G d U (if tr then H else "") else transforms_of_grid_signal G d U)
                (transforms_of_group_signal G d U (if tr then "" else H)) (apply L) x.

(** For signals on the grid there is no domain subgroup. *)
Lemma facts_without_domain G d E eq tr act dom' dom c C o k s dl eb ea same ub f kinit binit (L : conv_layer A) :
  conv_facts G d E eq tr false act dom' c C o k s dl eb ea same ub f kinit binit L ->
  conv_facts G d E eq tr false act dom c C o k s dl eb ea same ub f kinit binit L.
Proof. intros CF. destruct CF. split; assumption. Qed.

(** What is known about such layers. *)
Lemma plain_facts name G tr valued same (a : conv_args A) H U idx k s dl bs m g c m' :
  plain_layers name G tr valued same a H U idx k s dl bs m g c m' ->
  let d := dimension_of name in
  let E := symmetries_of name in
  let eq := needs_equal_sizes name in
  exists act dom,
    sub_idx G (Some U) idx /\ sub_idx G (Some (if tr then "" else H)) act /\ (forall u, In u idx -> stable G u act) /\
    (valued = true -> sub_idx G (Some (if tr then H else "")) dom /\ g = List.length dom /\ forall u, In u idx -> stable G u dom) /\
    fit d eq k /\ fit d eq m' /\ List.length s = d /\ List.length dl = d /\ (forall ax, ax < d -> 0 < nth ax k 0 /\ 0 < nth ax s 0 /\ 0 < nth ax dl 0) /\
    0 < ca_filters a /\ 0 < (if valued then g * c else c) /\
    forall kinit binit L, built d tr a (static_signal_shape valued bs m g c) kinit binit L ->
      conv_facts G d E eq tr valued act dom c (if valued then g * c else c) (ca_filters a) k s dl (zeros_of d) (zeros_of d) same
                 (ca_use_bias a) (ca_activation a) kinit binit L /\ cl_channels L = Some c.
Proof.
  intros PL d E eq. destruct PL as [LF HS AU IX OP SZ [Lm Lm'] [kinit [binit [L B]]] PC PM RM LE]. fold d in SZ, Lm, Lm', B, PM, LE.
  set (opt := if same then "SAME" else "VALID") in *.
  assert (PLN : is_plain opt = true) by (destruct same; reflexivity). assert (SME : is_same opt = same) by (destruct same; reflexivity).
  destruct (built_facts name G a H opt tr valued bs m g c kinit binit L k s dl LF HS OP B Lm SZ)
    as [OK [eb [ea [act [dom [WO [SA [SD [CF _]]]]]]]]]. fold d in OK, WO, CF. fold E eq in OK, CF.
  exists act, dom. pose proof SZ as [SK [SS SDl]]. destruct (std_pos _ _ _ SK) as [Lk Pk]. destruct (std_pos _ _ _ SS) as [Ls Ps]. destruct (std_pos _ _ _ SDl) as [Ld Pd].
  assert (SA' : sub_idx G (Some (if tr then "" else H)) act) by (destruct tr; exact SA).
  assert (SD' : valued = true -> sub_idx G (Some (if tr then H else "")) dom /\ g = List.length dom) by (intros V; destruct tr; apply SD; exact V).
  destruct (sub_idx_facts _ _ _ _ OK _ _ IX) as [_ [BU _]].
  assert (WH : forall l, sub_idx G (Some "") l -> forall u, In u idx -> stable G u l).
  { intros l SL u Hu. rewrite (whole_dom G d E eq l OK SL). apply (stable_whole G d E eq OK). apply BU. exact Hu. }
  assert (OWN : U = H -> forall l, sub_idx G (Some H) l -> forall u, In u idx -> stable G u l).
  { intros -> l SL u Hu. apply (stable_of G d E eq OK (Some H) l u SL). unfold sub_idx in SL. unfold subgroup_indices in IX. congruence. }
  split; [exact IX|]. split; [exact SA'|].
  split. { destruct tr; [apply WH; exact SA'|]. destruct AU as [AU|[AU _]]; [|discriminate AU]. apply OWN; assumption. }
  split.
  { intros V. destruct (SD' V) as [S1 S2]. split; [exact S1|]. split; [exact S2|]. destruct tr; [|apply WH; exact S1].
    destruct AU as [AU|[_ AU]]; [|congruence]. apply OWN; assumption. }
  split; [destruct CF; split; assumption|]. split; [split; assumption|]. split; [exact Ls|]. split; [exact Ld|].
  split; [intros ax Hax; split; [apply Pk; exact Hax|split; [apply Ps; exact Hax|apply Pd; exact Hax]]|].
  split.
  { destruct B as [L0 [I _]]. pose proof LF as [DG [AG AF]].
    destruct (conv_init_inv G d name tr a L0 DG AG AF I) as [p0 [k0 [s0 [dl0 [Hn [_ [_ [_ [_ [_ [_ [_ [FP _]]]]]]]]]]]]]. exact FP. }
  split.
  { destruct valued; [|exact PC]. destruct (SD' eq_refl) as [S1 S2]. destruct (sub_idx_facts _ _ _ _ OK _ _ S1) as [_ [_ [HD _]]].
    destruct dom; [discriminate HD|]. rewrite S2. cbn [List.length]. nia. }
  intros kinit' binit' L' B'.
  destruct (built_facts name G a H opt tr valued bs m g c kinit' binit' L' k s dl LF HS OP B' Lm SZ)
    as [_ [eb' [ea' [act' [dom' [WO' [SA2 [SD2 [CF' [CC' _]]]]]]]]]]. fold d in WO', CF'. fold E eq in CF'.
  rewrite PLN, SME in WO'. apply plain_widths in WO' as [-> ->]. rewrite SME in CF'.
  assert (act' = act) as -> by (unfold sub_idx in SA, SA2; congruence).
  split; [|exact CC']. destruct valued.
  - assert (dom' = dom) as -> by (destruct (SD eq_refl) as [Q1 _]; destruct (SD2 eq_refl) as [Q2 _]; unfold sub_idx in Q1, Q2; congruence).
    exact CF'.
  - apply (facts_without_domain _ _ _ _ _ _ dom'). exact CF'.
Qed.

(** The layers always commute exactly when the set of triples (output pixel, kernel pixel,
    input pixel) that meet is preserved by the elements of the subgroup, and outputs have
    sizes that those can act on.  [mul u v] is a value that the activation tells from 0. *)
Theorem C86_exactly_when_layers_commute name G tr valued same (a : conv_args A) H U idx k s dl bs m g c m' (u v : A) :
  exact_arithmetic A -> ca_activation a (mul u v) <> ca_activation a zero ->
  plain_layers name G tr valued same a H U idx k s dl bs m g c m' ->
  let d := dimension_of name in
  let M := out_sizes tr same d m' k dl s in
  let before := front tr same d m' k dl s in
  always_commute name G tr valued a H U bs m g c m' <->
  (respects name M /\ forall h p j i, In h idx -> inb M p -> inb k j -> inb m' i -> meets tr d s dl before p j i ->
     let e := nth h (symmetries_of name) [] in
     meets tr d s dl before (pixel e M p) (pixel e k j) (pixel e m' i)).
Proof.
  intros EX FD PL d M before. pose proof PL as PL'.
  destruct (plain_facts _ _ _ _ _ _ _ _ _ _ _ _ _ _ _ _ _ PL) as [act [dom [SU [SO [STA [SDM [Fk [Fm [Ls [Ld [POS [FP [C0 CFS]]]]]]]]]]]]].
  fold d in Fk, Fm, Ls, Ld, POS, CFS. pose proof Fk as [_ Lk]. pose proof Fm as [_ Lm'].
  destruct PL' as [LF HS _ _ _ _ [Lm _] [kinit0 [binit0 [L1 B0]]] _ PM _ LE]. fold d in Lm, B0, PM, LE.
  assert (Ps : forall ax, ax < d -> 0 < nth ax s 0) by (intros ax Hax; apply POS; exact Hax).
  pose proof LF as [DG _]. apply lib_ok in DG as [_ OK]. fold d in OK.
  set (C := if valued then g * c else c) in *.
  assert (EM : layer_outs tr k s dl (zeros_of d) (zeros_of d) same m' = M) by (apply plain_outs; assumption).
  pose proof (plain_src tr same d m' k dl s Lm' Lk Ld Ls Ps) as SRC. fold before in SRC.
  assert (FM : respects name M <-> fit d (needs_equal_sizes name) M).
  { split; [intros R; split; [exact R|apply length_out_sizes]|intros [R _]; exact R]. }
  unfold always_commute. fold d. split.
  - intros AC.
    destruct (commutes_only_if EX G d _ _ OK tr valued act dom c C (ca_filters a) k s dl same (ca_use_bias a) U (if tr then H else "") (if tr then "" else H)
                idx g m' (ca_activation a) SU SO STA SDM eq_refl Lm' u v) as [F1 PR]; try assumption.
    { intros kinit. destruct (builds_with_any_weights name G a H tr valued bs m g c kinit0 binit0 L1 kinit (fun _ => zero) LF HS B0 Lm) as [L B].
      destruct (CFS _ _ _ B) as [CF CH]. exists (fun _ => zero), L. split; [exact CF|]. split; [exact CH|]. split; [reflexivity|].
      intros x W SH. apply (AC kinit (fun _ => zero) L 1 x B W SH). }
    { apply plain_runs; assumption. }
    rewrite EM in F1. split; [apply FM; exact F1|]. intros h p j i IH P J Ii ME. cbv zeta.
    specialize (PR h IH p j). rewrite EM in PR. specialize (PR P J).
    rewrite (proj2 (SRC p j i) (conj Ii ME)) in PR. apply SRC in PR as [_ PR]. exact PR.
  - intros [RM PR] kinit binit L b x B W SH. destruct (CFS _ _ _ B) as [CF CH]. apply FM in RM.
    apply (commutes_if EX G d _ _ OK tr valued act dom c C (ca_filters a) k s dl same (ca_use_bias a) U (if tr then H else "") (if tr then "" else H)
             idx g m' (ca_activation a) SU SO STA SDM eq_refl Lm' kinit binit L x b); try assumption.
    + rewrite EM. exact RM.
    + apply (preserves_of G d _ _ OK tr valued act dom k s dl same U (if tr then H else "") idx g m' SU STA SDM); [rewrite EM; exact RM|exact Fk|].
      rewrite EM. intros h p j i IH P J S. apply SRC in S as [Ii ME]. apply SRC. split.
      * apply (pixel_in G d _ _ OK h m' i); [|exact Fm|exact Ii]. destruct (sub_idx_facts _ _ _ _ OK _ _ SU) as [_ [BU _]]. apply BU. exact IH.
      * apply (PR h p j i IH P J Ii ME).
Qed.

(** Along one axis (sizes [n] of the input, [k] of the kernel, dilation [dl], stride [s]):
    an ordinary convolution samples positions that are symmetric about the centre; a
    transposed one leaves no gaps between the copies of the kernel and, with 'same', drops
    equally many positions at both ends. *)
Definition symmetric_axis (tr same : bool) (n k dl s : nat) : Prop :=
  let ke := dilated k dl in
  if tr then s <= ke /\ (same = true -> Nat.Even (ke - s)) else admissible n (backend_total same n ke s) ke s 0.

Lemma symmetric_axis_iff tr same n k dl s : 0 < n -> 0 < s -> 0 < k -> (tr = true \/ same = true \/ dilated k dl <= n) ->
  let M := (if tr then transposed_size else conv_size) same n k dl s in
  let before := if tr then if same then (dilated k dl - s) / 2 else 0 else fst (backend_pads same n (dilated k dl) s) in
  symmetric_axis tr same n k dl s <->
  (if tr then (n - 1) * s + (k - 1) * dl + 1 = M + 2 * before else (M - 1) * s + (k - 1) * dl + 1 = n + 2 * before).
Proof.
  intros Pn Ps Pk LE. unfold symmetric_axis. cbv zeta. set (ke := dilated k dl) in *. assert (KE : (k - 1) * dl + 1 = ke) by reflexivity.
  assert (P1 : 0 < ke) by apply dilated_pos. destruct tr.
  - unfold transposed_size. fold ke. destruct same.
    + assert (n * s = (n - 1) * s + s) by nia. pose proof (Nat.div_mod (ke - s) 2 ltac:(lia)) as D. pose proof (Nat.mod_upper_bound (ke - s) 2 ltac:(lia)) as U.
      split; [intros [Q1 Q2]; destruct (Q2 eq_refl) as [z Z]; assert (HB : (ke - s) / 2 = z) by (rewrite Z, Nat.mul_comm; apply Nat.div_mul; lia); rewrite HB; lia|].
      intros Q. split; [lia|]. intros _. exists ((ke - s) / 2). lia.
    + assert (n * s = (n - 1) * s + s) by nia. split; [intros [Q1 _]; lia|]. intros Q. split; [lia|]. discriminate.
  - unfold admissible, conv_size, backend_pads, same_pads, backend_total. fold ke. destruct same.
    + cbn [fst]. unfold same_total. set (q := (n + s - 1) / s).
      assert (D1 : s * q <= n + s - 1) by (apply Nat.mul_div_le; lia).
      assert (D2 : n + s - 1 < s * S q) by (apply Nat.mul_succ_div_gt; lia).
      assert (Q1 : 1 <= q) by nia. assert (QS : (q - 1) * s + s = q * s) by nia.
      set (t := q * s + ke - (s + n)). pose proof (Nat.div_mod t 2 ltac:(lia)) as D. pose proof (Nat.mod_upper_bound t 2 ltac:(lia)) as U.
      rewrite Nat.add_0_r. split.
      * intros [[z Z] [w W]]. rewrite Nat.add_0_r in W.
        assert (HB : t / 2 = w) by (rewrite W, Nat.mul_comm, Nat.div_mul; lia). rewrite HB.
        destruct (Nat.le_gt_cases (s + n) (q * s + ke)) as [Hl|Hg]; [unfold t in W; lia|]. exfalso.
        assert (T0 : t = 0) by (unfold t; lia). rewrite T0 in Z.
        assert (Z0 : (Z.of_nat n - Z.of_nat ke = z * Z.of_nat s)%Z) by lia.
        assert (Z1 : (Z.of_nat (q - 1) * Z.of_nat s < z * Z.of_nat s)%Z) by (rewrite <- Z0, <- Nat2Z.inj_mul; lia).
        assert (Z2 : (z * Z.of_nat s < Z.of_nat q * Z.of_nat s)%Z) by (rewrite <- Z0, <- Nat2Z.inj_mul; lia).
        assert ((Z.of_nat (q - 1) < z < Z.of_nat q)%Z) by nia. lia.
      * intros Q. assert (T : t = 2 * (t / 2)) by (unfold t in *; lia). split; [|exists (t / 2); lia].
        exists (Z.of_nat (q - 1)). rewrite <- Nat2Z.inj_mul. unfold t in *. lia.
    + cbn [fst]. destruct LE as [LE|[LE|LE]]; try discriminate LE. rewrite !Nat.add_0_r, Nat.add_sub. split.
      * intros [[z Z] _]. assert (ZP : (0 <= z)%Z) by nia.
        assert (N : n - ke = Z.to_nat z * s) by nia. rewrite N, Nat.div_mul by lia. lia.
      * intros Q. split; [|exists 0; reflexivity]. exists (Z.of_nat ((n - ke) / s)). rewrite <- Nat2Z.inj_mul. lia.
Qed.

(** Some input pixel is read at all. *)
Definition something_read (tr same : bool) (d : nat) (m k dl s : list nat) : Prop :=
  exists p j i, inb (out_sizes tr same d m k dl s) p /\ inb k j /\ inb m i /\ meets tr d s dl (front tr same d m k dl s) p j i.

Lemma inb_of_nth (d : nat) l i : List.length l = d -> List.length i = d -> (forall ax, ax < d -> nth ax i 0 < nth ax l 0) -> inb l i.
Proof.
  unfold inb. revert l i. induction d as [|d IH]; intros [|x l] [|y i] L1 L2 B; try discriminate; constructor.
  - apply (B 0). lia.
  - apply IH; [injection L1 as L1; exact L1|injection L2 as L2; exact L2|]. intros ax Hax. apply (B (S ax)). lia.
Qed.

Lemma same_total_lt n k s : 0 < n -> 0 < k -> 0 < s -> same_total n k s < k.
Proof.
  intros N K S. unfold same_total. set (q := (n + s - 1) / s).
  assert (D1 : s * q <= n + s - 1) by (apply Nat.mul_div_le; lia). nia.
Qed.

(** Without dilation something is always read. *)
Lemma undilated_reads tr same d m k s :
  List.length m = d -> List.length k = d -> (forall ax, ax < d -> 0 < nth ax m 0 /\ 0 < nth ax k 0 /\ 0 < nth ax s 0) ->
  something_read tr same d m k (repeat 1 d) s.
Proof.
  intros Lm Lk POS. exists (zeros_of d), (front tr same d m k (repeat 1 d) s), (zeros_of d).
  assert (LZ : List.length (zeros_of d) = d) by (unfold zeros_of; apply repeat_length).
  assert (DK : forall ax, ax < d -> dilated (nth ax k 0) (nth ax (repeat 1 d) 0) = nth ax k 0).
  { intros ax Hax. rewrite nth_ones by exact Hax. destruct (POS ax Hax) as [_ [Pk _]]. unfold dilated. lia. }
  split; [|split; [|split]].
  - apply (inb_of_nth d); [apply length_out_sizes|exact LZ|]. intros ax Hax. rewrite nth_zeros. unfold out_sizes. rewrite nth_axis_map by exact Hax.
    destruct (POS ax Hax) as [Pm [_ Ps]]. destruct tr; unfold transposed_size, conv_size; destruct same; try nia.
    apply Nat.div_str_pos. lia.
  - apply (inb_of_nth d); [exact Lk|apply length_front|]. intros ax Hax. unfold front. rewrite nth_axis_map by exact Hax. cbv zeta. rewrite DK by exact Hax.
    destruct (POS ax Hax) as [Pm [Pk Ps]]. destruct tr; destruct same; cbn [backend_pads same_pads fst]; try exact Pk.
    + apply Nat.div_lt_upper_bound; lia.
    + pose proof (same_total_lt (nth ax m 0) (nth ax k 0) (nth ax s 0) Pm Pk Ps). apply Nat.div_lt_upper_bound; lia.
  - apply (inb_of_nth d); [exact Lm|exact LZ|]. intros ax Hax. rewrite nth_zeros. apply POS. exact Hax.
  - unfold meets. destruct tr; intros ax Hax; rewrite nth_zeros, nth_ones by exact Hax; lia.
Qed.

(** With strides and dilation rates that the group can act on, that is a condition on the
    axes that some element of the subgroup reverses. *)
Theorem C86_reversed_axes name G tr valued same (a : conv_args A) H U idx k s dl bs m g c m' (u v : A) :
  exact_arithmetic A -> ca_activation a (mul u v) <> ca_activation a zero ->
  plain_layers name G tr valued same a H U idx k s dl bs m g c m' ->
  let d := dimension_of name in
  respects name s -> respects name dl -> (dl = repeat 1 d \/ something_read tr same d m' k dl s) ->
  always_commute name G tr valued a H U bs m g c m' <->
  forall h ax, In h idx -> ax < d -> snd (nth ax (nth h (symmetries_of name) []) (0, false)) = true ->
    symmetric_axis tr same (nth ax m' 0) (nth ax k 0) (nth ax dl 0) (nth ax s 0).
Proof.
  intros EX FD PL d RS RD SR. rewrite (C86_exactly_when_layers_commute name G tr valued same a H U idx k s dl bs m g c m' u v EX FD PL). fold d.
  destruct (plain_facts _ _ _ _ _ _ _ _ _ _ _ _ _ _ _ _ _ PL) as [act [dom [SU [_ [_ [_ [Fk [Fm [Ls [Ld [POS _]]]]]]]]]]].
  fold d in Fk, Fm, Ls, Ld, POS. pose proof Fk as [_ Lk]. pose proof Fm as [_ Lm'].
  destruct PL as [[DG _] _ _ _ _ _ _ _ _ PM _ LE]. fold d in PM, LE. apply lib_ok in DG as [_ OK]. fold d in OK.
  assert (SR' : something_read tr same d m' k dl s).
  { destruct SR as [->|SR]; [|exact SR]. apply undilated_reads; [exact Lm'|exact Lk|]. intros ax Hax. destruct (POS ax Hax) as [P1 [P2 _]].
    split; [apply PM; exact Hax|split; assumption]. }
  clear SR. assert (Fs : fit d (needs_equal_sizes name) s) by (split; assumption). assert (Fd : fit d (needs_equal_sizes name) dl) by (split; assumption).
  set (M := out_sizes tr same d m' k dl s) in *. set (before := front tr same d m' k dl s) in *.
  assert (FM : fit d (needs_equal_sizes name) M).
  { apply fit_of; [apply length_out_sizes|]. intros Q x y Hx Hy. unfold M, out_sizes. rewrite !nth_axis_map by assumption.
    rewrite (fit_nth d (needs_equal_sizes name) m' x y), (fit_nth d (needs_equal_sizes name) k x y), (fit_nth d (needs_equal_sizes name) s x y), (fit_nth d (needs_equal_sizes name) dl x y) by assumption. reflexivity. }
  assert (FB : fit d (needs_equal_sizes name) before).
  { apply fit_of; [apply length_front|]. intros Q x y Hx Hy. unfold before, front. rewrite !nth_axis_map by assumption.
    rewrite (fit_nth d (needs_equal_sizes name) m' x y), (fit_nth d (needs_equal_sizes name) k x y), (fit_nth d (needs_equal_sizes name) s x y), (fit_nth d (needs_equal_sizes name) dl x y) by assumption. reflexivity. }
  destruct (sub_idx_facts _ _ _ _ OK _ _ SU) as [_ [BU _]].
  assert (SAME : forall h ax l, In h idx -> ax < d -> fit d (needs_equal_sizes name) l ->
            nth (fst (nth ax (nth h (symmetries_of name) []) (0, false))) l 0 = nth ax l 0).
  { intros h ax l IH Hax [Fl Ll]. apply (fits_same G d _ _ OK h l ax Fl Ll (BU h IH) Hax). }
  assert (AX : forall ax, ax < d -> (symmetric_axis tr same (nth ax m' 0) (nth ax k 0) (nth ax dl 0) (nth ax s 0) <->
     if tr then (nth ax m' 0 - 1) * nth ax s 0 + (nth ax k 0 - 1) * nth ax dl 0 + 1 = nth ax M 0 + 2 * nth ax before 0
     else (nth ax M 0 - 1) * nth ax s 0 + (nth ax k 0 - 1) * nth ax dl 0 + 1 = nth ax m' 0 + 2 * nth ax before 0)).
  { intros ax Hax. destruct (POS ax Hax) as [Pk [Ps _]]. unfold M, before, out_sizes, front. rewrite !nth_axis_map by exact Hax.
    apply symmetric_axis_iff; try assumption; [apply PM; exact Hax|].
    destruct LE as [LE|[LE|LE]]; [left; exact LE|right; left; exact LE|right; right; apply LE; exact Hax]. }
  (* entries of moved pixels *)
  assert (PX : forall h ax l i, In h idx -> ax < d -> nth ax (pixel (nth h (symmetries_of name) []) l i) 0 =
     let '(q, r) := nth ax (nth h (symmetries_of name) []) (0, false) in if (r : bool) then nth ax l 0 - 1 - nth q i 0 else nth q i 0).
  { intros h ax l i IH Hax. apply nth_pixel. destruct (ok_sym _ _ _ _ OK h (BU h IH)) as [LE' _]. lia. }
  assert (QB : forall h ax, In h idx -> ax < d -> fst (nth ax (nth h (symmetries_of name) []) (0, false)) < d).
  { intros h ax IH Hax. apply is_symmetry_nth; [apply (ok_sym _ _ _ _ OK); apply BU; exact IH|exact Hax]. }
  pose proof FM as [_ LM]. split.
  - intros [_ PR] h ax IH Hax RV. apply AX; [exact Hax|]. destruct SR' as [p [j [i [P [J [Ii ME]]]]]]. fold M in P. fold before in ME.
    specialize (PR h p j i IH P J Ii ME). cbv zeta in PR.
    pose proof (QB h ax IH Hax) as Q0. pose proof (SAME h ax s IH Hax Fs) as E1. pose proof (SAME h ax dl IH Hax Fd) as E2.
    pose proof (SAME h ax before IH Hax FB) as E3. pose proof (SAME h ax M IH Hax FM) as E4. pose proof (SAME h ax k IH Hax Fk) as E5.
    pose proof (SAME h ax m' IH Hax Fm) as E6.
    pose proof (PX h ax M p IH Hax) as X1. pose proof (PX h ax k j IH Hax) as X2. pose proof (PX h ax m' i IH Hax) as X3.
    destruct (nth ax (nth h (symmetries_of name) []) (0, false)) as [q r] eqn:EQ. cbn [fst snd] in *. subst r.
    pose proof (inb_nth M p q P ltac:(lia)) as B1. pose proof (inb_nth k j q J ltac:(lia)) as B2. pose proof (inb_nth m' i q Ii ltac:(lia)) as B3.
    unfold meets in *. destruct tr.
    + specialize (ME q Q0). specialize (PR ax Hax). rewrite X1, X2, X3 in PR. rewrite E1, E2, E3 in ME. rewrite E4 in B1. rewrite E5 in B2. rewrite E6 in B3.
      assert ((nth ax m' 0 - 1 - nth q i 0) * nth ax s 0 + nth q i 0 * nth ax s 0 = (nth ax m' 0 - 1) * nth ax s 0) by nia.
      assert ((nth ax k 0 - 1 - nth q j 0) * nth ax dl 0 + nth q j 0 * nth ax dl 0 = (nth ax k 0 - 1) * nth ax dl 0) by nia. lia.
    + specialize (ME q Q0). specialize (PR ax Hax). rewrite X1, X2, X3 in PR. rewrite E1, E2, E3 in ME. rewrite E4 in B1. rewrite E5 in B2. rewrite E6 in B3.
      assert ((nth ax M 0 - 1 - nth q p 0) * nth ax s 0 + nth q p 0 * nth ax s 0 = (nth ax M 0 - 1) * nth ax s 0) by nia.
      assert ((nth ax k 0 - 1 - nth q j 0) * nth ax dl 0 + nth q j 0 * nth ax dl 0 = (nth ax k 0 - 1) * nth ax dl 0) by nia. lia.
  - intros SY. split; [destruct FM as [FM _]; exact FM|]. intros h p j i IH P J Ii ME. cbv zeta.
    assert (ONE : forall ax, ax < d -> let mv l z := nth ax (pixel (nth h (symmetries_of name) []) l z) 0 in
       if tr then mv M p + nth ax before 0 = mv m' i * nth ax s 0 + mv k j * nth ax dl 0
       else mv m' i + nth ax before 0 = mv M p * nth ax s 0 + mv k j * nth ax dl 0).
    { intros ax Hax. cbv beta zeta. rewrite !PX by assumption. specialize (SY h ax IH Hax).
      pose proof (QB h ax IH Hax) as Q0. pose proof (SAME h ax s IH Hax Fs) as E1. pose proof (SAME h ax dl IH Hax Fd) as E2.
      pose proof (SAME h ax before IH Hax FB) as E3. pose proof (SAME h ax M IH Hax FM) as E4. pose proof (SAME h ax k IH Hax Fk) as E5.
      pose proof (SAME h ax m' IH Hax Fm) as E6.
      destruct (nth ax (nth h (symmetries_of name) []) (0, false)) as [q r]. cbn [fst snd] in *.
      pose proof (inb_nth M p q P ltac:(lia)) as B1. pose proof (inb_nth k j q J ltac:(lia)) as B2. pose proof (inb_nth m' i q Ii ltac:(lia)) as B3.
      rewrite E4 in B1. rewrite E5 in B2. rewrite E6 in B3.
      unfold meets in ME. destruct r.
      - specialize (SY eq_refl). apply AX in SY; [|exact Hax].
        assert ((nth ax k 0 - 1 - nth q j 0) * nth ax dl 0 + nth q j 0 * nth ax dl 0 = (nth ax k 0 - 1) * nth ax dl 0) by nia.
        destruct tr; specialize (ME q Q0); rewrite E1, E2, E3 in ME.
        + assert ((nth ax m' 0 - 1 - nth q i 0) * nth ax s 0 + nth q i 0 * nth ax s 0 = (nth ax m' 0 - 1) * nth ax s 0) by nia. lia.
        + assert ((nth ax M 0 - 1 - nth q p 0) * nth ax s 0 + nth q p 0 * nth ax s 0 = (nth ax M 0 - 1) * nth ax s 0) by nia. lia.
      - destruct tr; specialize (ME q Q0); rewrite E1, E2, E3 in ME; exact ME. }
    unfold meets. destruct tr; intros ax Hax; exact (ONE ax Hax).
Qed.

(** The same arguments without [allow_non_equivariance]. *)
Definition refusing (a : conv_args A) : conv_args A :=
  mkConvArgs (ca_group a) (ca_subgroup a) (ca_kernel_size a) (ca_filters a) (ca_strides a) (ca_padding a) (ca_dilation a)
             (ca_data_format a) false (ca_use_bias a) (ca_activation a).

Lemma refusing_init d tr (a : conv_args A) L0 : conv_init d tr a = Ok L0 -> exists L0', conv_init d tr (refusing a) = Ok L0'.
Proof.
  unfold conv_init, gt_init, refusing. cbn [ca_group ca_subgroup ca_kernel_size ca_filters ca_strides ca_padding ca_dilation ca_data_format ca_allow ca_use_bias ca_activation].
  intros I.
  match type of I with bind (bind ?X _) _ = _ => destruct X as [G|]; [|discriminate I] end. cbn [bind] in I |- *.
  match type of I with bind (bind ?X _) _ = _ => destruct X as [K|]; [|discriminate I] end. cbn [bind] in I |- *.
  match type of I with context[let (_, _) := ?X in _] => destruct X as [dom act] end. cbv zeta in I |- *.
  unfold padding_init in *. destruct (format_padding_option _) as [o|]; [|discriminate I]. cbn [bind] in I |- *.
  destruct (match ca_padding a with Some p => p | None => Some "valid_equiv" end) as [p|]; [|discriminate I]. cbn [bind gt_padding pl_built_in] in I |- *.
  destruct (standardize_tuple d (ca_kernel_size a)) as [k|]; [|discriminate I]. cbn [bind] in I |- *.
  destruct (standardize_tuple d (match ca_strides a with Some s => s | None => One 1 end)) as [s|]; [|discriminate I]. cbn [bind] in I |- *.
  destruct (standardize_tuple d (match ca_dilation a with Some s => s | None => One 1 end)) as [dl|]; [|discriminate I]. cbn [bind] in I |- *.
  destruct (standardize_padding _) as [q|]; [|discriminate I]. cbn [bind] in I |- *.
  destruct (standardize_format _) as [f|]; [|discriminate I]. cbn [bind] in I |- *.
  destruct (0 <? ca_filters a)%nat; [|discriminate I]. destruct (negb _); [|discriminate I]. eexists. reflexivity.
Qed.

(** Some element of these subgroups reverses each axis. *)
Definition reversing := ["P2"; "P2MM"; "P4"; "P4M"; "Oh"; "O"; "D4h"; "D4"].

Lemma reversing_ok Hn ax : In Hn reversing -> ax < dimension_of Hn ->
  exists e, In e (symmetries_of Hn) /\ snd (nth ax e (0, false)) = true.
Proof.
  intros IN Hax.
  assert (CH : forallb (fun h => forallb (fun x => existsb (fun e => snd (nth x e (0, false))) (symmetries_of h)) (seq 0 (dimension_of h))) reversing = true)
    by (vm_compute; reflexivity).
  rewrite forallb_forall in CH. specialize (CH Hn IN). rewrite forallb_forall in CH. specialize (CH ax). rewrite in_seq in CH.
  specialize (CH ltac:(lia)). apply existsb_exists in CH. exact CH.
Qed.

(** For convolutions without dilation, and subgroups that reverse every axis, the check that
    [allow_non_equivariance] switches off is exact: the layer is refused without it exactly
    if it does not always commute. *)
Theorem C86_the_check_is_exact name G valued same (a : conv_args A) H idx k s bs m g c (u v : A) :
  exact_arithmetic A -> ca_activation a (mul u v) <> ca_activation a zero ->
  let d := dimension_of name in
  plain_layers name G false valued same a H H idx k s (repeat 1 d) bs m g c m ->
  respects name s -> In (if String.eqb H "" then name else H) reversing ->
  always_commute name G false valued a H H bs m g c m <->
  exists kinit binit L, built d false (refusing a) (static_signal_shape valued bs m g c) kinit binit L.
Proof.
  intros EX FD d PL RS RV.
  rewrite (C86_reversed_axes name G false valued same a H H idx k s (repeat 1 d) bs m g c m u v EX FD PL RS (ones_respect name d) (or_introl eq_refl)). fold d.
  destruct (plain_facts _ _ _ _ _ _ _ _ _ _ _ _ _ _ _ _ _ PL) as [act [dom [SU [_ [_ [_ [Fk [_ [Ls [_ [POS _]]]]]]]]]]]. fold d in Fk, Ls, POS.
  destruct PL as [LF HS _ _ [p [PN UP]] SZ [Lm _] [kinit [binit [L [L0 [I B]]]]] _ PM _ LE]. fold d in SZ, Lm, I, B, PM, LE.
  pose proof LF as [DG [AG AF]]. pose proof DG as DG'. apply lib_ok in DG' as [NG OK]. fold d in OK. destruct SZ as [SK [SS SD]].
  destruct (refusing_init d false a L0 I) as [L0' I'].
  pose proof (conv_build_iff G d _ _ OK name false a L0 p k s (repeat 1 d) valued bs m g c kinit binit DG AG AF I Lm PN SK SS SD) as B1.
  pose proof (conv_build_iff G d _ _ OK name false (refusing a) L0' p k s (repeat 1 d) valued bs m g c kinit binit DG AG AF I' Lm PN SK SS SD) as B2.
  cbv zeta in B1, B2. pose proof (proj1 B1 (ex_intro _ L B)) as [R1 [R2 [_ [R4 R5]]]]. clear B1.
  assert (DK : forall ax, ax < d -> dilated (nth ax k 0) (nth ax (repeat 1 d) 0) = nth ax k 0).
  { intros ax Hax. rewrite nth_ones by exact Hax. destruct (POS ax Hax) as [Pk _]. unfold dilated. lia. }
  (* every axis is reversed *)
  assert (ALL : forall ax, ax < d -> exists h, In h idx /\ snd (nth ax (nth h (symmetries_of name) []) (0, false)) = true).
  { intros ax Hax. destruct (sub_idx_dict _ _ _ SU) as [Hn [PS DH]].
    assert (EH : Hn = if String.eqb H "" then name else H).
    { unfold parse_subgroup in PS. destruct (String.eqb H ""); congruence. }
    rewrite <- EH in RV. destruct (ok_sub _ _ _ _ OK Hn idx DH) as [_ [_ [_ [_ [_ [_ SY]]]]]].
    destruct (SY (lib_named _ _ DG NG) ltac:(rewrite NG; reflexivity)) as [DM SE].
    destruct (reversing_ok Hn ax RV ltac:(rewrite DM; exact Hax)) as [e [IE SR]].
    rewrite <- SE in IE. apply in_map_iff in IE as [h [<- IH]]. exists h. split; assumption. }
  (* the padding layer *)
  assert (PI : exists P, padding_init (ca_kernel_size a) d (strides_of a) (Some p) false "channels_last" false = Ok P).
  { unfold padding_init, format_padding_option. rewrite UP. destruct same; eexists; reflexivity. }
  destruct PI as [P PI].
  pose proof (build_iff (ca_kernel_size a) (strides_of a) d k s p same false "channels_last" P SK SS (if same then "SAME" else "VALID") m bs
               (Some (if valued then g * c else c)) PI UP) as BI. cbv zeta in BI.
  replace (is_plain (if same then "SAME" else "VALID")) with true in BI by (destruct same; reflexivity).
  specialize (BI ltac:(destruct same; reflexivity) Lm eq_refl).
  change (static_layout "channels_last" bs m (Some (if valued then g * c else c))) with (bs :: map Some m ++ [Some (if valued then g * c else c)])%list in BI.
  unfold symmetric_axis. cbv zeta. split.
  - intros SY. assert (AD : forall ax, ax < d -> admissible (nth ax m 0) (backend_total same (nth ax m 0) (nth ax k 0) (nth ax s 0)) (nth ax k 0) (nth ax s 0) 0).
    { intros ax Hax. destruct (ALL ax Hax) as [h [IH SR]]. specialize (SY h ax IH Hax SR). rewrite DK in SY by exact Hax. exact SY. }
    destruct BI as [[_ [P' BI]]|[[ax [Hax N]] _]]; [|exfalso; apply N, AD; exact Hax].
    destruct (proj2 B2) as [L' B'].
    { split; [exact R1|]. split; [exact R2|]. split; [exists P, P'; split; [exact PI|exact BI]|]. split; [exact R4|exact R5]. }
    exists kinit, binit, L', L0'. split; [exact I'|exact B'].
  - intros [kinit' [binit' [L' [L0'' [I'' B']]]]].
    assert (EO : forall x y : conv_layer A, Ok x = Ok y -> x = y) by congruence. rewrite I' in I''. apply EO in I''. subst L0''.
    pose proof (conv_build_iff G d _ _ OK name false (refusing a) L0' p k s (repeat 1 d) valued bs m g c kinit' binit' DG AG AF I' Lm PN SK SS SD) as B3.
    cbv zeta in B3. destruct (proj1 B3 (ex_intro _ L' B')) as [_ [_ [[P1 [P' [PI1 PB]]] _]]].
    assert (EP : forall x y : padding_layer, Ok x = Ok y -> x = y) by congruence.
    cbn [refusing ca_kernel_size ca_allow] in PI1. change (strides_of (refusing a)) with (strides_of a) in PI1. rewrite PI in PI1. apply EP in PI1. subst P1.
    destruct BI as [[AD _]|[_ BI]]; [|rewrite BI in PB; discriminate PB].
    intros h ax _ Hax _. rewrite DK by exact Hax. apply AD. exact Hax.
Qed.

End Exactly.

Print Assumptions C86_exactly_when_layers_commute.
Print Assumptions C86_reversed_axes.
Print Assumptions C86_the_check_is_exact.

(** ** Cases *)

Definition plain_args (name H p : string) (k : size_arg) (s dl : option size_arg) : conv_args Z :=
  mkConvArgs (ByName name) (Some H) k 1 s (Some (Some p)) dl "channels_last" true true (fun z => if (z <? 5)%Z then 0%Z else z).

(** Does a layer with these arguments build? *)
Definition builds (d : nat) (tr : bool) (a : conv_args Z) (input : sshape) (kinit binit : list nat -> Z) : bool :=
  match test_layer d tr a input kinit binit with Ok _ => true | Err _ => false end.

Lemma builds_ok d tr a input kinit binit : builds d tr a input kinit binit = true <-> exists L, built d tr a input kinit binit L.
Proof.
  unfold builds. split.
  - destruct (test_layer d tr a input kinit binit) as [L|] eqn:T; [|discriminate]. intros _. exists L. apply test_layer_built. exact T.
  - intros [L [L0 [I B]]]. unfold test_layer. rewrite I. cbn [bind]. rewrite B. reflexivity.
Qed.

(** A layer that is refused although it always commutes: the statement above without one
    of its conditions. *)
Definition wrongly_refused (name H p : string) (tr : bool) (k : size_arg) (s dl : option size_arg) (m : list nat) : Prop :=
  exists G idx ks ss dls,
    let a := plain_args name H p k s dl in
    let d := dimension_of name in
    plain_layers name G tr false (String.eqb p "same") a H H idx ks ss dls None m 0 1 m /\
    respects name ss /\ respects name dls /\
    always_commute name G tr false a H H None m 0 1 m /\
    forall kinit binit L, ~ built d tr (refusing a) (static_signal_shape false None m 0 1) kinit binit L.

Lemma plain_case name G H p tr k s dl m idx ks ss dls :
  let a := plain_args name H p k s dl in
  let d := dimension_of name in
  let same := String.eqb p "same" in
  let input := static_signal_shape false None m 0 1 in
  layer_for name G a -> subgroup_indices G H idx -> option_of a (if same then "SAME" else "VALID") -> sizes d a ks ss dls ->
  List.length m = d -> builds d tr a input some_weights some_weights = true ->
  (forall ax, ax < d -> 0 < nth ax m 0) -> respects name m -> large_enough tr same d m ks dls ->
  plain_layers name G tr false same a H H idx ks ss dls None m 0 1 m.
Proof.
  intros a d same input LF IX OP SZ Lm B PM RM LE.
  split; try assumption; [reflexivity|left; reflexivity|split; assumption| |lia].
  apply builds_ok in B as [L B]. exists some_weights, some_weights, L. exact B.
Qed.

Definition all_axes (d : nat) (f : nat -> bool) : bool := forallb f (seq 0 d).
Definition large_enoughb (tr same : bool) (d : nat) (m k dl : list nat) : bool :=
  tr || same || all_axes d (fun ax => dilated (nth ax k 0) (nth ax dl 0) <=? nth ax m 0)%nat.

Lemma wrongly_refused_by name G H p tr k s dl m idx ks ss dls :
  let a := plain_args name H p k s dl in
  let d := dimension_of name in
  let same := String.eqb p "same" in
  let input := static_signal_shape false None m 0 1 in
  layer_for name G a -> subgroup_indices G H idx -> option_of a (if same then "SAME" else "VALID") -> sizes d a ks ss dls ->
  List.length m = d -> builds d tr a input some_weights some_weights = true ->
  all_axes d (fun ax => 0 <? nth ax m 0)%nat = true -> respects name m -> respects name ss -> respects name dls -> large_enoughb tr same d m ks dls = true ->
  (dls = repeat 1 d \/ something_read tr same d m ks dls ss) ->
  (forall h ax, In h idx -> ax < d -> snd (nth ax (nth h (symmetries_of name) []) (0, false)) = true ->
     symmetric_axis tr same (nth ax m 0) (nth ax ks 0) (nth ax dls 0) (nth ax ss 0)) ->
  (forall kinit binit, builds d tr (refusing a) input kinit binit = false) ->
  wrongly_refused name H p tr k s dl m.
Proof.
  intros a d same input LF IX OP SZ Lm B PM RM RS RD LE SR SY N.
  assert (FD : ca_activation a (mul 3%Z 3%Z) <> ca_activation a zero) by (intros Q; vm_compute in Q; discriminate Q).
  assert (PL : plain_layers name G tr false same a H H idx ks ss dls None m 0 1 m).
  { apply plain_case; try assumption.
    - intros ax Hax. unfold all_axes in PM. rewrite forallb_forall in PM. apply Nat.ltb_lt. apply PM. apply in_seq. fold d in Hax. lia.
    - unfold large_enoughb in LE. apply orb_true_iff in LE as [LE|LE]; [apply orb_true_iff in LE as [LE|LE]; [left|right; left]; exact LE|].
      right; right. intros ax Hax. unfold all_axes in LE. rewrite forallb_forall in LE. apply Nat.leb_le. apply LE. apply in_seq. fold d in Hax. lia. }
  exists G, idx, ks, ss, dls. cbv zeta. split; [exact PL|]. split; [exact RS|]. split; [exact RD|]. split.
  - apply (C86_reversed_axes _ _ _ _ _ _ _ _ _ _ _ _ _ _ _ _ _ 3%Z 3%Z integers_exact FD PL RS RD SR). exact SY.
  - intros kinit binit L BL. specialize (N kinit binit). apply (ex_intro _ L) in BL. apply builds_ok in BL. unfold a, d, input in N. congruence.
Qed.

Lemma pairs_respect name x : respects name [x; x].
Proof. intros _ y z [<-|[<-|[]]] [<-|[<-|[]]]; reflexivity. Qed.

(** Each of the conditions is needed.  The subgroup reverses no axis ('valid', size 5, kernel
    and stride 2, group P1: the last pixel is not read); *)
Theorem C86_axes_that_stay_refuted : wrongly_refused "P1" "" "valid" false (One 2) (Some (One 2)) None [5; 5].
Proof.
  apply (wrongly_refused_by "P1" P1 "" "valid" false (One 2) (Some (One 2)) None [5; 5] [0] [2; 2] [2; 2] [1; 1]);
    try apply pairs_respect.
  - split; [vm_compute; reflexivity|split; [left; reflexivity|reflexivity]].
  - vm_compute. reflexivity.
  - exists "valid". split; reflexivity.
  - split; [reflexivity|split; reflexivity].
  - reflexivity.
  - vm_compute. reflexivity.
  - vm_compute. reflexivity.
  - vm_compute. reflexivity.
  - left. vm_compute. reflexivity.
  - intros h ax [<-|[]] Hax RV. exfalso. change (dimension_of "P1") with 2 in Hax. destruct ax as [|[|ax]]; [discriminate RV|discriminate RV|lia].
  - intros kinit binit. vm_compute. reflexivity.
Qed.

(** the layer is dilated ('same', kernel 2, dilation 2: the check does not know about the
    dilation); *)
Theorem C86_dilation_refuted : wrongly_refused "P4" "" "same" false (One 2) None (Some (One 2)) [4; 4].
Proof.
  apply (wrongly_refused_by "P4" P4 "" "same" false (One 2) None (Some (One 2)) [4; 4] [0; 1; 2; 3] [2; 2] [1; 1] [2; 2]);
    try apply pairs_respect.
  - split; [vm_compute; reflexivity|split; [left; reflexivity|reflexivity]].
  - vm_compute. reflexivity.
  - exists "same". split; reflexivity.
  - split; [reflexivity|split; reflexivity].
  - reflexivity.
  - vm_compute. reflexivity.
  - vm_compute. reflexivity.
  - vm_compute. reflexivity.
  - right. exists [0; 0], [1; 1], [1; 1]. change (dimension_of "P4") with 2.
    split; [repeat constructor|]. split; [repeat constructor|]. split; [repeat constructor|].
    intros ax Hax. destruct ax as [|[|ax]]; [reflexivity|reflexivity|lia].
  - intros h ax _ Hax _. change (dimension_of "P4") with 2 in Hax.
    destruct ax as [|[|ax]]; [| |lia]; (split; [exists 3%Z; reflexivity|exists 1; reflexivity]).
  - intros kinit binit. vm_compute. reflexivity.
Qed.

(** the layer is transposed ('valid', kernel 3, stride 2, size 4). *)
Theorem C86_transposed_refuted : wrongly_refused "P4" "" "valid" true (One 3) (Some (One 2)) None [4; 4].
Proof.
  apply (wrongly_refused_by "P4" P4 "" "valid" true (One 3) (Some (One 2)) None [4; 4] [0; 1; 2; 3] [3; 3] [2; 2] [1; 1]);
    try apply pairs_respect.
  - split; [vm_compute; reflexivity|split; [left; reflexivity|reflexivity]].
  - vm_compute. reflexivity.
  - exists "valid". split; reflexivity.
  - split; [reflexivity|split; reflexivity].
  - reflexivity.
  - vm_compute. reflexivity.
  - vm_compute. reflexivity.
  - vm_compute. reflexivity.
  - left. vm_compute. reflexivity.
  - intros h ax _ Hax _. change (dimension_of "P4") with 2 in Hax.
    destruct ax as [|[|ax]]; [| |lia]; (split; [vm_compute; lia|discriminate]).
  - intros kinit binit. vm_compute. reflexivity.
Qed.

Print Assumptions C86_axes_that_stay_refuted.
Print Assumptions C86_dilation_refuted.
Print Assumptions C86_transposed_refuted.

(** What some layers do: whether they are accepted without [allow_non_equivariance], and
    whether with it they commute on one signal. *)
Definition verdicts (name p : string) (tr : bool) (k : size_arg) (s dl : option size_arg) (n : nat) : bool * bool :=
  let a := plain_args name "" p k s dl in
  match dict_get group_dict name with
  | Ok G => (builds 2 tr (refusing a) (static_signal_shape false None [n; n] 0 1) some_weights some_weights,
             does_commute (transforms_of_grid_signal G 2 "") (transforms_of_group_signal G 2 "" "")
               (test_layer 2 tr a (static_signal_shape false None [n; n] 0 1) some_weights some_weights) (some_signal [1; n; n; 1]))
  | Err _ => (false, false)
  end.

Example C86_case :
  map (verdicts "P4" "valid" false (One 2) (Some (One 2)) None) [4; 5; 6; 7] = [(true, true); (false, false); (true, true); (false, false)] /\
  map (verdicts "P4" "same" false (One 3) (Some (One 2)) None) [4; 5; 6; 7] = [(false, false); (true, true); (false, false); (true, true)] /\
  map (fun k => verdicts "P2" "same" false (One k) None None 5) [1; 2; 3; 4]%Z = [(true, true); (false, false); (true, true); (false, false)] /\
  verdicts "P1" "valid" false (One 2) (Some (One 2)) None 5 = (false, true) /\
  verdicts "PMw" "same" false (One 2) None (Some (One 2)) 4 = (false, true) /\
  verdicts "P4" "same" false (One 2) None (Some (One 2)) 4 = (false, true) /\
  verdicts "P4" "valid" true (One 3) (Some (One 2)) None 4 = (false, true) /\
  verdicts "P4" "valid" true (One 1) (Some (One 3)) None 5 = (true, false).
Proof. vm_compute. repeat split; reflexivity. Qed.
