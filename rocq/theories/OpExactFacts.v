(** When exactly a transposed layer with output_padding commutes with a subgroup; as [ExactFacts.v] with
    other sizes. *)
From Coq Require Import Permutation.
From Verif Require Export ExactFacts Properties_OutputPadding.
Local Open Scope string_scope.
Local Open Scope list_scope.

Section Exact.
Context {A : Type} {RA : Arith A} (EX : exact_arithmetic A).
Context (G : group) (d : nat) (E : list symmetry) (eq : bool) (OK : group_ok G d E eq).
Context (valued : bool) (act dom : list nat) (c C o : nat) (k s dl : list nat) (same ub : bool) (op : list nat) (LOP : List.length op = d).
Notation n := (List.length E).
Notation sym a := (nth a E []).
Notation fit := (fit d eq).
Notation zs := (zeros_of d).

Section Size.
Context (m : list nat).
Notation ke := (vzip dilated k dl).
Notation M := (opadded_outs d (padding_string same) m ke s op).
Notation src := (tsrc m s dl (opadded_crops d (padding_string same) m ke s op)).

Definition op_value (kinit : list nat -> A) (X : nat -> list nat -> nat -> A) (bi : nat) (p : list nat) (h oo : nat) : A :=
  window d src tterm k C (bordered zs m X bi) (kval G E valued dom act c o k C (tab (k ++ [o; C]) kinit)) p (h * o + oo).

Lemma op_form f kinit binit (L : conv_layer A) (x : tensor A) b g X :
  conv_facts G d E eq true valued act dom c C o k s dl zs zs same ub f kinit binit L -> cl_channels L = Some c ->
  List.length m = d -> shape x = signal_shape valued b m g c -> merged d valued x b m C X ->
  with_output_padding op L x = if opadded_runs d (padding_string same) m ke s op
    then Ok (tab (b :: M ++ [List.length act; o]) (sig4 d (fun bi p h oo => f (biased ub binit (op_value kinit X bi p h oo) oo))))
    else Err BackendError.
Proof.
  intros CF CH Lm SH MG. unfold with_output_padding.
  rewrite (opadded_apply_call G d E eq valued act dom c C o k s dl zs zs same ub f kinit binit op L x b m g CF CH Lm SH).
  pose proof (opadded_call_eq G d E eq OK valued act dom c C o k s dl zs zs same ub f kinit binit op L x b m X CF Lm LOP MG) as Q.
  cbv zeta in Q. rewrite padded_zeros in Q by exact Lm. rewrite Q. unfold op_value.
  destruct (opadded_runs d _ m ke s op); reflexivity.
Qed.

Lemma length_op_outs : List.length M = d.
Proof. unfold opadded_outs. rewrite map_length, seq_length. reflexivity. Qed.

(** Element [a] preserves what is read. *)
Definition op_preserves (a : nat) : Prop := forall p j, inb M p -> inb k j ->
  src (pixel (sym a) M p) (pixel (sym a) k j) = option_map (pixel (sym a) m) (src p j).

Lemma op_in_eq (X : nat -> list nat -> nat -> A) bi i q : List.length m = d -> inb m i -> bordered zs m X bi i q = X bi i q.
Proof.
  intros Lm I. unfold bordered.
  rewrite (inside_zeros m i d Lm I), vzip_sub_zeros by (rewrite (inb_length _ _ I); exact Lm). reflexivity.
Qed.

Notation element_ok := (element_ok G E valued act dom c C).
Notation value kinit X := (op_value kinit X).

Lemma op_value_moved a kinit (X X' : nat -> list nat -> nat -> A) bi p h oo :
  element_ok a -> List.length m = d -> fit k -> op_preserves a ->
  (forall i q, inb m i -> q < C -> X' bi i q = X bi (pixel (sym a) m i) (moved_chan G valued a dom c q)) -> fit m ->
  inb M p -> h < List.length act -> oo < o ->
  value kinit X' bi p h oo = value kinit X bi (pixel (sym a) M p) (turned G a act h) oo.
Proof.
  intros EL Lm [Fk Lk] PR XX Fm P H O. unfold op_value.
  rewrite <- (chan_pair G act o a h oo O). pose proof EL as [Ha [NA [BA SA]] DO].
  apply (window_match d src src _ k C _ _ _ (sym a) (moved_chan G valued a dom c) (chan G a act o)); try assumption.
  - exact (exact_add_commutes EX).
  - apply (sym_ok G d E eq OK). exact Ha.
  - apply (fits_sym G d E eq OK); assumption.
  - intros q. apply (moved_chan_lt G E valued act dom c C). exact EL.
  - intros q q'. apply (moved_chan_inj G d E eq OK valued act dom c C). exact EL.
  - intros j q J Q. rewrite (PR p j P J). destruct (src p j) as [i|] eqn:S; cbn [option_map]; [|reflexivity]. f_equal.
    pose proof (tsrc_in _ _ _ _ _ _ _ S) as I.
    rewrite !op_in_eq; [apply XX; assumption|exact Lm|apply (pixel_in G d E eq OK); assumption|exact Lm|exact I].
  - intros j q J Q. apply (kval_moved G d E eq OK); try assumption.
    + intros V. destruct (DO V) as [_ [B1 [S1 C1]]]. auto.
    + nia.
Qed.

(** An element that does not preserve what is read can be told apart. *)
Lemma op_value_differs a p j i (u v : A) :
  element_ok a -> fit m -> fit k -> hd_error act = Some 0 -> 0 < o -> 0 < C ->
  inb M p -> inb k j -> src p j = Some i -> src (pixel (sym a) M p) (pixel (sym a) k j) <> Some (pixel (sym a) m i) ->
  exists kinit X0, forall (X X' : nat -> list nat -> nat -> A) bi,
    (forall i q, inb m i -> q < C -> X bi i q = X0 i q) ->
    (forall i q, inb m i -> q < C -> X' bi i q = X bi (pixel (sym a) m i) (moved_chan G valued a dom c q)) ->
    value kinit X' bi p 0 0 = mul u v /\ value kinit X bi (pixel (sym a) M p) (turned G a act 0) 0 = zero.
Proof.
  intros EL [Fm Lm] [Fk Lk] HD O C0 P J S NS. pose proof EL as [Ha [NA [BA SA]] DO].
  assert (DO1 : valued = true -> (forall x, In x dom -> x < n) /\ C = List.length dom * c) by (intros V; destruct (DO V) as [_ [B1 [_ C1]]]; auto).
  assert (DO2 : valued = true -> NoDup dom) by (intros V; apply (DO V)).
  assert (TT : @tterm A RA = @cterm A RA \/ @tterm A RA = @tterm A RA) by (right; reflexivity).
  assert (A1 : 0 < List.length act) by (destruct act; [discriminate HD|cbn [List.length]; lia]).
  pose proof (tsrc_in _ _ _ _ _ _ _ S) as I.
  pose proof (pixel_in G d E eq OK a m i Ha (conj Fm Lm) I) as AI.
  set (q0 := moved_chan G valued a dom c 0).
  assert (Q0 : q0 < C) by (apply (moved_chan_lt G E valued act dom c C a 0 EL C0)).
  set (N := ravel (k ++ [C; o]) (j ++ [0; 0])).
  exists (dot_kernel true C o k v N), (fun i' q => if list_eq_dec Nat.eq_dec i' (pixel (sym a) m i) then if (q =? q0)%nat then u else zero else zero).
  intros X X' bi XX XM. unfold op_value.
  set (K := tab _ (dot_kernel true C o k v N)). set (W := kval G E valued dom act c o k C K).
  assert (WV : forall j' q', inb k j' -> q' < C -> W j' q' 0 = if list_eq_dec Nat.eq_dec j' j then if (q' =? 0)%nat then v else zero else zero).
  { intros j' q' J' Q'. unfold W, K, N. apply (dot_kval G d E eq OK true); assumption. }
  assert (W1 : W j 0 0 = v).
  { rewrite WV by assumption. destruct (list_eq_dec Nat.eq_dec j j); [reflexivity|contradiction]. }
  assert (W0 : forall j' q', inb k j' -> q' < C -> j' <> j \/ q' <> 0 -> W j' q' 0 = zero).
  { intros j' q' J' Q' D. rewrite WV by assumption. destruct (list_eq_dec Nat.eq_dec j' j); [|reflexivity].
    destruct (Nat.eqb_spec q' 0); [|reflexivity]. destruct D; contradiction. }
  split.
  - change (0 * o + 0) with 0. rewrite (window_one EX d src _ k C _ W p 0 j 0 TT Lk J C0 W0), W1, S. cbn [option_map].
    rewrite op_in_eq by assumption. rewrite (XM i 0 I C0). fold q0. rewrite XX by assumption.
    destruct (list_eq_dec Nat.eq_dec (pixel (sym a) m i) (pixel (sym a) m i)); [|contradiction]. rewrite Nat.eqb_refl.
    reflexivity.
  - rewrite <- (chan_pair G act o a 0 0 O). change (0 * o + 0) with 0.
    rewrite <- (window_match d src (fun _ j' => src (pixel (sym a) M p) (pixel (sym a) k j')) _ k C
                 (bordered zs m X bi) (fun i' q => bordered zs m X bi i' (moved_chan G valued a dom c q)) W (sym a)
                 (moved_chan G valued a dom c) (chan G a act o) (pixel (sym a) M p) p 0); try assumption.
    + rewrite (window_one EX d _ _ k C _ W p 0 j 0 TT Lk J C0 W0), W1. fold q0.
      destruct (src (pixel (sym a) M p) (pixel (sym a) k j)) as [i'|] eqn:S'; cbn [option_map].
      * pose proof (tsrc_in _ _ _ _ _ _ _ S') as I'. rewrite op_in_eq by assumption. rewrite XX by assumption.
        destruct (list_eq_dec Nat.eq_dec i' (pixel (sym a) m i)) as [->|]; [contradiction NS; reflexivity|].
        apply (ar_mzero EX).
      * reflexivity.
    + exact (exact_add_commutes EX).
    + apply (sym_ok G d E eq OK). exact Ha.
    + apply (fits_sym G d E eq OK); assumption.
    + intros q. apply (moved_chan_lt G E valued act dom c C). exact EL.
    + intros q q'. apply (moved_chan_inj G d E eq OK valued act dom c C). exact EL.
    + intros j' q J' Q. reflexivity.
    + intros j' q J' Q. unfold W. apply (kval_moved G d E eq OK); try assumption.
      * intros V. destruct (DO V) as [_ [B1 [S1 C1]]]. auto.
      * nia.
Qed.

End Size.
(** ** Layers *)

Section Layer.
Context (U Hd On : string) (idx : list nat) (g : nat) (m : list nat) (f : A -> A).
Context (SU : sub_idx G (Some U) idx) (SO : sub_idx G (Some On) act) (STA : forall u, In u idx -> stable G u act)
        (SDM : valued = true -> sub_idx G (Some Hd) dom /\ g = List.length dom /\ forall u, In u idx -> stable G u dom)
        (CC : C = if valued then g * c else c) (Lm : List.length m = d).
Notation ke := (vzip dilated k dl).
Notation M := (opadded_outs d (padding_string same) m ke s op).
Notation src := (tsrc m s dl (opadded_crops d (padding_string same) m ke s op)).
Notation facts := (conv_facts G d E eq true valued act dom c C o k s dl zs zs same ub f).
Notation tin := (if valued then transforms_of_group_signal G d U Hd else transforms_of_grid_signal G d U).
Notation tout := (transforms_of_group_signal G d U On).

(** It is enough that pixels that are read are read after moving. *)
Lemma op_preserves_of : fit M -> fit k ->
  (forall a p j i, In a idx -> inb M p -> inb k j -> src p j = Some i -> src (pixel (sym a) M p) (pixel (sym a) k j) = Some (pixel (sym a) m i)) ->
  forall a, In a idx -> op_preserves m a.
Proof.
  intros FM Fk ONE. destruct (sub_idx_facts _ _ _ _ OK _ _ SU) as [_ [BU [HU [_ CL]]]].
  intros a IA p j P J. destruct (src p j) as [i|] eqn:S; cbn [option_map]; [apply ONE; assumption|].
  destruct (src (pixel (sym a) M p) (pixel (sym a) k j)) as [i'|] eqn:S'; [|reflexivity]. exfalso.
  assert (I0 : In 0 idx) by (destruct idx as [|z l]; [discriminate HU|]; injection HU as ->; left; reflexivity).
  pose proof (CL a 0 IA I0) as IB. pose proof (ok_pos _ _ _ _ OK) as PE. pose proof (BU a IA) as Ha.
  assert (BACK : forall l e, fit l -> inb l e -> pixel (sym (comp G (inv G a) 0)) l (pixel (sym a) l e) = e).
  { intros l e [Fl Ll] Ie. rewrite (px_twice G d E eq OK) by assumption. rewrite (ok_id _ _ _ _ OK).
    apply pixel_identity. rewrite (inb_length _ _ Ie). exact Ll. }
  pose proof (ONE _ _ _ _ IB (pixel_in G d E eq OK a M p Ha FM P) (pixel_in G d E eq OK a k j Ha Fk J) S') as Q.
  rewrite !BACK in Q by assumption. rewrite S in Q. discriminate Q.
Qed.

Lemma op_commutes_if kinit binit (L : conv_layer A) x b :
  facts kinit binit L -> cl_channels L = Some c -> fit M -> (forall a, In a idx -> op_preserves m a) ->
  wf x -> shape x = signal_shape valued b m g c -> commutes_at tin tout (with_output_padding op L) x.
Proof.
  intros CF CH FM PR W SH gx y R CA.
  assert (R' : action G x (map Z.of_nat (seq 1 d)) 0 (if valued then Some (Z.of_nat (d + 1)) else None) (Some U) (if valued then Some Hd else None) = Ok gx)
    by (destruct valued; exact R).
  destruct (moved_input G d E eq OK valued x gx b m g c idx dom (Some U) (Some Hd) SU SDM W Lm SH R') as [Fm [SG MV]].
  rewrite (op_form m f kinit binit L x b g (merged_fun valued x c) CF CH Lm SH) in CA
    by (rewrite CC; apply merged_input; assumption).
  destruct (opadded_runs d (padding_string same) m ke s op) eqn:RU; [|discriminate CA].
  assert (EO : forall u v : tensor A, Ok u = Ok v -> u = v) by congruence. apply EO in CA. subst y.
  match goal with |- context[sig4 d ?y] => set (Y := y) end.
  destruct (group_slices_ok G d E eq OK b M (List.length act) o Y (Some U) (Some On) idx act SU SO eq_refl FM STA) as [gy [GY [SGY SL]]].
  exists gy. split; [exact GY|]. split; [rewrite SG, SGY; reflexivity|]. rewrite SG. cbn [nth]. intros u Uu. rewrite (SL u Uu).
  destruct (MV u Uu) as [X' [MG [WX [SX XX]]]]. rewrite <- CC in MG, XX. rewrite SH in SX.
  rewrite (op_form m f kinit binit L (slice 0 u gx) b g X' CF CH Lm SX MG), RU.
  f_equal. pose proof FM as [_ LM]. apply sig4_ext; [exact LM|]. intros bi p h oo BI P Hh O. unfold moved4, Y. do 2 f_equal.
  assert (Fk : fit k) by (destruct CF; split; assumption).
  apply op_value_moved; try assumption.
  - apply (elements_ok G d E eq OK valued act dom c C U Hd On idx g SU SO STA SDM CC). apply nth_In. exact Uu.
  - apply PR, nth_In. exact Uu.
  - intros i q _ Q. apply XX. exact Q.
Qed.

Lemma op_commutes_only_if (u v : A) :
  (forall kinit, exists binit (L : conv_layer A), facts kinit binit L /\ cl_channels L = Some c /\ (forall i, binit i = zero) /\
     forall x, wf x -> shape x = signal_shape valued 1 m g c -> commutes_at tin tout (with_output_padding op L) x) ->
  fit m -> opadded_runs d (padding_string same) m ke s op = true -> f (mul u v) <> f zero -> 0 < o -> 0 < C ->
  fit M /\ forall a, In a idx -> op_preserves m a.
Proof.
  intros CM Fm RU FD O C0.
  destruct (sub_idx_facts _ _ _ _ OK _ _ SU) as [_ [BU [HU [_ CL]]]]. destruct (sub_idx_facts _ _ _ _ OK _ _ SO) as [_ [BA [HA _]]].
  assert (EO : forall w z : tensor A, Ok w = Ok z -> w = z) by congruence.
  (* what commuting says about the values *)
  assert (KEY : forall kinit X0, exists binit X, (forall i q, inb m i -> q < C -> X 0 i q = X0 i q) /\ fit M /\ (forall i, binit i = zero) /\
     forall r, r < List.length idx -> exists X',
       (forall i q, inb m i -> q < C -> X' 0 i q = X 0 (pixel (sym (nth r idx 0)) m i) (moved_chan G valued (nth r idx 0) dom c q)) /\
       forall p h oo, inb M p -> h < List.length act -> oo < o ->
         f (biased ub binit (op_value m kinit X' 0 p h oo) oo)
         = f (biased ub binit (op_value m kinit X 0
                                 (pixel (sym (nth r idx 0)) M p) (turned G (nth r idx 0) act h) oo) oo)).
  { intros kinit X0. destruct (CM kinit) as [binit [L [CF [CH [BZ C1]]]]].
    set (x := signal_from valued d 1 m g c (fun _ => X0)).
    assert (WX : wf x) by apply wf_signal_from. assert (SX : shape x = signal_shape valued 1 m g c) by apply shape_signal_from.
    exists binit, (merged_fun valued x c). split.
    { intros i q I Q. apply merged_signal_from; try assumption; [lia|]. rewrite <- CC. exact Q. }
    assert (TX : exists gx, tin x = Ok gx).
    { destruct valued.
      - destruct (SDM eq_refl) as [D1 [D2 D3]]. rewrite (tensor_sig4 d 1 m g c x WX Lm SX).
        destruct (group_slices_ok G d E eq OK 1 m g c (fun4 x) (Some U) (Some Hd) idx dom SU D1 D2 Fm D3) as [gx [GX _]]. exists gx. exact GX.
      - rewrite (tensor_sig3 d 1 m c x WX Lm SX).
        destruct (grid_slices_ok G d E eq OK 1 m c (fun3 x) None (Some U) idx SU Fm) as [gx [GX _]]. exists gx. exact GX. }
    destruct TX as [gx TX].
    pose proof (op_form m f kinit binit L x 1 g (merged_fun valued x c) CF CH Lm SX
      ltac:(rewrite CC; apply merged_input; assumption)) as AX. rewrite RU in AX.
    destruct (C1 x WX SX gx _ TX AX) as [gy [GY [NS SL]]].
    assert (R' : action G x (map Z.of_nat (seq 1 d)) 0 (if valued then Some (Z.of_nat (d + 1)) else None) (Some U) (if valued then Some Hd else None) = Ok gx)
      by (destruct valued; exact TX).
    destruct (moved_input G d E eq OK valued x gx 1 m g c idx dom (Some U) (Some Hd) SU SDM WX Lm SX R') as [_ [SG MV]].
    pose proof (length_op_outs m) as LM.
    destruct (group_slices G d E eq OK 1 M (List.length act) o _ (Some U) (Some On) idx act gy SU SO eq_refl LM STA GY) as [FM [SGY SLY]].
    split; [exact FM|]. split; [exact BZ|]. intros r Hr. destruct (MV r Hr) as [X' [MG [WU [SU' XX]]]]. rewrite <- CC in MG, XX. rewrite SX in SU'.
    exists X'. split; [intros i q _ Q; apply XX; exact Q|]. intros p h oo P Hh Ho.
    specialize (SL r ltac:(rewrite SG; exact Hr)). rewrite (SLY r Hr) in SL.
    rewrite (op_form m f kinit binit L (slice 0 r gx) 1 g X' CF CH Lm SU' MG), RU in SL.
    apply EO in SL. apply (f_equal (fun t => at_ t (0 :: p ++ [h; oo]))) in SL.
    rewrite !(at_sig4 d) in SL by (try assumption; lia). exact SL. }
  destruct (KEY (fun _ => zero) (fun _ _ => zero)) as [_ [_ [_ [FM _]]]]. split; [exact FM|].
  assert (Fk : fit k) by (destruct (CM (fun _ => zero)) as [? [? [CF _]]]; destruct CF; split; assumption).
  assert (A1 : 0 < List.length act) by (destruct act; [discriminate HA|cbn [List.length]; lia]).
  (* a pixel that is read is read after moving *)
  assert (ONE : forall a p j i, In a idx -> inb M p -> inb k j -> src p j = Some i -> src (pixel (sym a) M p) (pixel (sym a) k j) = Some (pixel (sym a) m i)).
  { intros a p j i IA P J S.
    assert (DEC : {src (pixel (sym a) M p) (pixel (sym a) k j) = Some (pixel (sym a) m i)} + {src (pixel (sym a) M p) (pixel (sym a) k j) <> Some (pixel (sym a) m i)})
      by (decide equality; apply (list_eq_dec Nat.eq_dec)).
    destruct DEC as [Q|NQ]; [exact Q|]. exfalso.
    destruct (op_value_differs m a p j i u v (elements_ok G d E eq OK valued act dom c C U Hd On idx g SU SO STA SDM CC a IA) Fm Fk HA O C0 P J S NQ) as [kinit [X0 VD]].
    destruct (KEY kinit X0) as [binit [X [XX [_ [BZ KR]]]]]. destruct (In_nth idx a 0 IA) as [r [Hr RA']].
    destruct (KR r Hr) as [X' [XM VV]]. rewrite RA' in *. destruct (VD X X' 0 XX XM) as [V1 V2].
    specialize (VV p 0 0 P A1 O). rewrite V1, V2 in VV. apply FD.
    assert (BB : forall w, biased ub binit w 0 = w).
    { intros w. unfold biased. destruct ub; [|reflexivity]. rewrite BZ. apply (sum_neutral EX). }
    rewrite !BB in VV. exact VV. }
  apply op_preserves_of; assumption.
Qed.

End Layer.
End Exact.
