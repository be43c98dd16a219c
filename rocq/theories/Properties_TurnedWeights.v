(** C101: a layer whose weights are turned by an element of its subgroup returns the
    same slices, in another order. *)
From Verif Require Import Properties_Layers EquivFacts CorrelationFacts.
From Verif Require Import EquivSpec.
Local Open Scope string_scope.
Local Open Scope list_scope.

Section Turned.
Context {A : Type} {RA : Arith A}.

(** The kernels turned twice. *)
Lemma turned_twice G d E eq (OK : group_ok G d E eq) (valued : bool) act dom H g c o k (K : tensor A) KT KT' w h h' :
  let C := if valued then g * c else c in
  sub_idx G (Some H) act -> (valued = true -> sub_idx G (Some "") dom /\ g = List.length dom) ->
  List.length k = d -> kernel_fits eq k -> List.length (data K) = prod (k ++ [C; o]) ->
  kernel_transforms G d valued (Some H) (Some "") (kernel_signal valued k g c o K) = Ok KT ->
  kernel_transforms G d valued (Some H) (Some "") (kernel_signal valued k g c o (kernel_slice d k C o KT w)) = Ok KT' ->
  w < List.length act -> h < List.length act -> h' < List.length act ->
  nth h' act 0 = comp G (nth h act 0) (nth w act 0) ->
  kernel_slice d k C o KT' h = kernel_slice d k C o KT h'.
Proof.
  intros C SA SD Lk KF LD R R' Hw Hh Hh' Q.
  destruct (kval_slices G d _ _ OK valued act dom (Some H) (Some "") c C o k g K SA SD eq_refl Lk KF LD) as [KT0 [R0 [_ [_ P0]]]].
  assert (KT0 = KT) as -> by (rewrite R in R0; congruence). clear R0.
  assert (LD' : List.length (data (kernel_slice d k C o KT w)) = prod (k ++ [C; o])) by (destruct (P0 w Hw) as [W0 _]; exact W0).
  destruct (kval_slices G d _ _ OK valued act dom (Some H) (Some "") c C o k g _ SA SD eq_refl Lk KF LD') as [KT0 [R0 [_ [_ P1]]]].
  assert (KT0 = KT') as -> by (rewrite R' in R0; congruence). clear R0.
  destruct (sub_idx_facts _ _ _ _ OK _ _ SA) as [_ [BA _]].
  destruct (P1 h Hh) as [W1 V1]. destruct (P0 h' Hh') as [W2 V2]. destruct (P0 w Hw) as [W3 V3].
  apply tensor_ext; [exact W1|exact W2|reflexivity|].
  intros i I. change (shape (kernel_slice d k C o KT' h)) with (k ++ [C; o]) in I.
  apply inb_app_split in I as [j [t [-> [J T]]]]. apply inb2 in T as [q [r [-> [Hq Hr]]]].
  assert (VIS : forall e q, e < List.length act -> q < C -> visible G valued dom c (nth e act 0) q = true).
  { intros e q1 He H1. exact (whole_visible G d _ _ valued act dom (Some H) c C g e q1 OK SA SD eq_refl He H1). }
  specialize (V1 j q r J Hq Hr). rewrite (VIS h q Hh Hq) in V1. specialize (V2 j q r J Hq Hr). rewrite (VIS h' q Hh' Hq) in V2.
  rewrite <- V1, <- V2.
  assert (DO : valued = true -> dom = seq 0 (List.length E) /\ C = List.length E * c).
  { intros V. destruct (SD V) as [D1 D2]. pose proof (whole_dom _ _ _ _ _ OK D1) as ->. split; [reflexivity|].
    unfold C. rewrite V, D2, seq_length. reflexivity. }
  assert (BA' : forall e, e < List.length act -> nth e act 0 < List.length E) by (intros e He; apply BA, nth_In; exact He).
  rewrite !(kval_filter G d E eq OK valued dom act c C o k) by assumption.
  set (u := nth w act 0) in *. set (a := nth h act 0) in *.
  assert (Hu : u < List.length E) by (apply BA'; exact Hw). assert (Ha : a < List.length E) by (apply BA'; exact Hh).
  change (read_as (k ++ [C; o]) (kernel_slice d k C o KT w)) with (kernel_slice d k C o KT w).
  set (j1 := pixel (nth a E []) k j).
  assert (J1 : inb k j1).
  { apply (pixel_inb d); [apply (sym_ok G d E eq OK); exact Ha|exact Lk|apply (fits_sym G d E eq OK); assumption|exact J]. }
  set (q1 := kernel_channel G valued c a q).
  assert (Q1 : q1 < C).
  { unfold q1, kernel_channel. destruct valued; [|exact Hq]. destruct (DO eq_refl) as [_ CC]. rewrite CC in Hq |- *.
    apply div_ok in Hq as [C0 [D1 M1]].
    pose proof (ok_closed _ _ _ _ OK _ _ (ok_inv_lt _ _ _ _ OK a Ha) D1). nia. }
  specialize (V3 j1 q1 r J1 Q1 Hr). pose proof (VIS w q1 Hw Q1) as VW. fold u in VW. rewrite VW in V3. rewrite <- V3.
  rewrite (kval_filter G d E eq OK valued dom act c C o k) by assumption. fold u.
  assert (EU : comp G (inv G a) (comp G a u) = u).
  { pose proof (ok_is_group _ _ _ _ OK) as IG.
    rewrite (group_assoc _ _ _ IG) by (try apply (ok_inv_lt _ _ _ _ OK); assumption).
    rewrite (group_inv_l _ _ _ IG) by exact Ha. apply (group_id_l _ _ _ IG). exact Hu. }
  rewrite Q. pose proof (ok_closed _ _ _ _ OK _ _ Ha Hu) as Hau.
  assert (PX : pixel (nth u E []) k j1 = pixel (nth (comp G a u) E []) k j).
  { rewrite <- EU at 1. unfold j1. apply (px_twice G d E eq OK); assumption. }
  rewrite PX. f_equal. f_equal. f_equal. unfold q1, kernel_channel. destruct valued; [|reflexivity].
  destruct (DO eq_refl) as [_ CC]. rewrite CC in Hq. apply div_ok in Hq as [C0 [D1 M1]].
  set (x := comp G (inv G a) (q / c)).
  assert (DM : (x * c + q mod c) / c = x /\ (x * c + q mod c) mod c = q mod c) by (apply split_ok; exact M1).
  destruct DM as [-> ->]. f_equal. f_equal. unfold x. rewrite <- EU at 1. apply (inv_turned G d E eq OK); assumption.
Qed.

Lemma turned_weights_at name G d E eq (a : conv_args A) H opt (valued : bool) bs m g c kinit kinit' binit L L' k s dl idx KT w h h' :
  group_ok G d E eq ->
  layer_for name G a -> ca_subgroup a = Some H -> option_of a opt ->
  let o := ca_filters a in
  let C := if valued then g * c else c in
  built d false a (static_signal_shape valued bs m g c) kinit binit L ->
  built d false a (static_signal_shape valued bs m g c) kinit' binit L' ->
  List.length m = d -> sizes d a k s dl -> subgroup_indices G H idx ->
  kernel_transforms G d valued (Some H) (Some "") (kernel_signal valued k g c o (initial_kernel false k C o kinit)) = Ok KT ->
  w < List.length idx -> initial_kernel false k C o kinit' = kernel_slice d k C o KT w ->
  h < List.length idx -> h' < List.length idx -> nth h' idx 0 = comp G (nth h idx 0) (nth w idx 0) ->
  forall x b m', wf x -> List.length m' = d -> shape x = signal_shape valued b m' g c ->
  (y <- apply L' x ;; Ok (slice (d + 1) h y)) = (y <- apply L x ;; Ok (slice (d + 1) h' y)).
Proof.
  intros OK LF HS OP o C B B' Lm SZ SI RK Hw KK Hh Hh' Q x b m' W Lm' SH.
  destruct (built_facts_at name G d E eq a H opt false valued bs m g c kinit binit L k s dl OK LF HS OP B Lm SZ)
    as [eb [ea [act [dom [WO [SA [SD [CF [CC [KS [RS PO]]]]]]]]]]]. fold C in CF, PO. fold o in CF.
  assert (act = idx) as ->.
  { unfold subgroup_indices in SI. unfold sub_idx in SA. congruence. }
  pose proof (cf_k _ _ _ _ _ _ _ _ _ _ _ _ _ _ _ _ _ _ _ _ _ _ CF) as Lk.
  pose proof (cf_fit _ _ _ _ _ _ _ _ _ _ _ _ _ _ _ _ _ _ _ _ _ _ CF) as KF.
  destruct (slice_at name G d E eq a H opt valued bs m g c kinit binit L k s dl OK LF HS OP B Lm SZ) as [P [KT1 [PP [R1 [_ SL]]]]].
  destruct (slice_at name G d E eq a H opt valued bs m g c kinit' binit L' k s dl OK LF HS OP B' Lm SZ) as [P' [KT2 [PP' [R2 [_ SL']]]]].
  fold C o in R1, R2, PP, PP', SL, SL'. assert (KT1 = KT) as -> by congruence.
  assert (P' = P) as ->.
  { destruct PP as [Pa [I1 I2]], PP' as [Pb [I3 I4]]. assert (Pa = Pb) by congruence. congruence. }
  destruct (SL x b m' W Lm' SH) as [xp [XP S1]]. destruct (SL' x b m' W Lm' SH) as [xp' [XP' S2]].
  assert (xp' = xp) as -> by (rewrite XP in XP'; congruence).
  assert (N1 : nth d (shape KT) 0 = List.length idx).
  { destruct (kval_slices G d _ _ OK valued idx dom (Some H) (Some "") c C o k g _ SA SD eq_refl Lk KF (wf_tab (k ++ [C; o]) kinit)) as [KT' [RK' [_ [SKT _]]]].
    assert (KT' = KT) as -> by (change (tab (k ++ [C; o]) kinit) with (initial_kernel false k C o kinit) in RK'; congruence).
    rewrite SKT, app_nth2 by lia. rewrite Lk, Nat.sub_diag. reflexivity. }
  assert (N2 : nth d (shape KT2) 0 = List.length idx).
  { destruct (kval_slices G d _ _ OK valued idx dom (Some H) (Some "") c C o k g _ SA SD eq_refl Lk KF (wf_tab (k ++ [C; o]) kinit')) as [KT' [RK' [_ [SKT _]]]].
    assert (KT' = KT2) as -> by (change (tab (k ++ [C; o]) kinit') with (initial_kernel false k C o kinit') in RK'; congruence).
    rewrite SKT, app_nth2 by lia. rewrite Lk, Nat.sub_diag. reflexivity. }
  rewrite <- (S2 h) by (rewrite N2; exact Hh). rewrite <- (S1 h') by (rewrite N1; exact Hh').
  f_equal. rewrite KK in R2.
  apply (turned_twice G d E eq OK valued idx dom H g c o k (initial_kernel false k C o kinit) KT KT2 w h h'); try assumption.
  apply wf_tab.
Qed.

(** Two convolutions with the same arguments, the same bias and the same input shape.
    [KT] are the transforms of the kernel of the first by the elements of its subgroup;
    the kernel of the second is number [w] of them.  For every input, slice [h] of what
    the second returns is slice [h'] of what the first returns, where element [h'] is
    element [h] after element [w] of the subgroup; when one raises, so does the other. *)
Theorem C101_turned_weights name G (a : conv_args A) H opt (valued : bool) bs m g c kinit kinit' binit L L' k s dl idx KT w h h' :
  layer_for name G a -> ca_subgroup a = Some H -> option_of a opt ->
  let d := dimension_of name in
  let o := ca_filters a in
  let C := if valued then g * c else c in
  built d false a (static_signal_shape valued bs m g c) kinit binit L ->
  built d false a (static_signal_shape valued bs m g c) kinit' binit L' ->
  List.length m = d -> sizes d a k s dl -> subgroup_indices G H idx ->
  kernel_transforms G d valued (Some H) (Some "") (kernel_signal valued k g c o (initial_kernel false k C o kinit)) = Ok KT ->
  w < List.length idx -> initial_kernel false k C o kinit' = kernel_slice d k C o KT w ->
  h < List.length idx -> h' < List.length idx -> nth h' idx 0 = comp G (nth h idx 0) (nth w idx 0) ->
  forall x b m', wf x -> List.length m' = d -> shape x = signal_shape valued b m' g c ->
  (y <- apply L' x ;; Ok (slice (d + 1) h y)) = (y <- apply L x ;; Ok (slice (d + 1) h' y)).
Proof.
  intros LF HS OP d o C. pose proof LF as [DG _]. apply lib_ok in DG as [_ OK].
  exact (turned_weights_at name G d _ _ a H opt valued bs m g c kinit kinit' binit L L' k s dl idx KT w h h' OK LF HS OP).
Qed.

End Turned.

Print Assumptions C101_turned_weights.

(** A P4 convolution on group signals, its kernel turned by the first rotation: the
    slices are the same in another order, and not in the same order. *)
Example C101_case :
  let a := with_group "P4" "" (One 2) 2 None None None true in
  let x := some_signal [1; 3; 3; 4; 1] in
  let sh := [None; Some 3; Some 3; Some 4; Some 1] in
  match test_layer 2 false a sh some_weights some_weights,
        kernel_transforms P4 2 true (Some "") (Some "") (kernel_signal true [2; 2] 4 1 2 (tab [2; 2; 4; 2] some_weights)) with
  | Ok L, Ok KT =>
    forallb (fun w =>
      match test_layer 2 false a sh (at_ (kernel_slice 2 [2; 2] 4 2 KT w)) some_weights with
      | Ok L' =>
        forallb (fun h => same_result (y <- apply L' x ;; Ok (slice 3 h y)) (y <- apply L x ;; Ok (slice 3 (comp P4 h w) y))) (seq 0 4)
        && (Bool.eqb (w =? 0)%nat (same_result (apply L' x) (apply L x)))
      | Err _ => false
      end) (seq 0 4)
  | _, _ => false
  end = true.
Proof. vm_compute. reflexivity. Qed.
