(** Networks with branches commute with the group. *)
From Coq Require Import Permutation.
From Verif Require Export NetSpec StackFacts.
Local Open Scope string_scope.
Local Open Scope list_scope.

Section PositionWise.
Context {A : Type} {RA : Arith A}.

Lemma removelast_ix2 bi (p : list nat) h q : removelast (bi :: p ++ [h; q]) = bi :: p ++ [h].
Proof. change (bi :: p ++ [h; q]) with ((bi :: p) ++ [h; q]). rewrite removelast_app by discriminate. reflexivity. Qed.
Lemma removelast_ix1 bi (p : list nat) q : removelast (bi :: p ++ [q]) = bi :: p.
Proof. change (bi :: p ++ [q]) with ((bi :: p) ++ [q]). apply removelast_last. Qed.
Lemma last_ix2 bi (p : list nat) h q : last (bi :: p ++ [h; q]) 0 = q.
Proof. replace (bi :: p ++ [h; q]) with ((bi :: p ++ [h]) ++ [q]) by (cbn [app]; rewrite <- app_assoc; reflexivity). apply last_last. Qed.
Lemma last_ix1 bi (p : list nat) q : last (bi :: p ++ [q]) 0 = q.
Proof. change (bi :: p ++ [q]) with ((bi :: p) ++ [q]). apply last_last. Qed.

Lemma position_wise_group d phi o b m g c1 c2 (X Y : nat -> list nat -> nat -> nat -> A) : List.length m = d ->
  position_wise phi o (tab (b :: m ++ [g; c1]) (sig4 d X)) (tab (b :: m ++ [g; c2]) (sig4 d Y))
  = Ok (tab (b :: m ++ [g; o]) (sig4 d (fun bi p h q => nth q (phi (map (X bi p h) (seq 0 c1)) (map (Y bi p h) (seq 0 c2))) zero))).
Proof.
  intros L. unfold position_wise, channels_at. rewrite !shape_tab, !removelast_ix2, !last_ix2.
  replace (list_eqb Nat.eqb (b :: m ++ [g]) (b :: m ++ [g])) with true by (symmetry; apply (list_eqb_eq _ Nat.eqb_eq); reflexivity).
  f_equal. replace ((b :: m ++ [g]) ++ [o]) with (b :: m ++ [g; o]) by (cbn [app]; rewrite <- app_assoc; reflexivity).
  rewrite (tab_sig4 d) by exact L. apply sig4_ext; [exact L|]. intros bi p h q BI P H Q.
  rewrite removelast_ix2, last_ix2. f_equal. f_equal; apply map_ext_in; intros v V; apply in_seq in V;
    cbn [app]; rewrite <- app_assoc; cbn [app]; apply at_sig4; try assumption; lia.
Qed.

Lemma position_wise_grid d phi o b m c1 c2 (X Y : nat -> list nat -> nat -> A) : List.length m = d ->
  position_wise phi o (tab (b :: m ++ [c1]) (sig3 d X)) (tab (b :: m ++ [c2]) (sig3 d Y))
  = Ok (tab (b :: m ++ [o]) (sig3 d (fun bi p q => nth q (phi (map (X bi p) (seq 0 c1)) (map (Y bi p) (seq 0 c2))) zero))).
Proof.
  intros L. unfold position_wise, channels_at. rewrite !shape_tab, !removelast_ix1, !last_ix1.
  replace (list_eqb Nat.eqb (b :: m) (b :: m)) with true by (symmetry; apply (list_eqb_eq _ Nat.eqb_eq); reflexivity).
  f_equal. cbn [app]. rewrite (tab_sig3 d) by exact L. apply sig3_ext; [exact L|]. intros bi p q BI P Q.
  rewrite removelast_ix1, last_ix1. f_equal. f_equal; apply map_ext_in; intros v V; apply in_seq in V;
    cbn [app]; apply at_sig3; try assumption; lia.
Qed.

(** Combining the transformed signals gives the transforms of the combined signal. *)
Lemma group_positions name G H idx phi o b m g c1 c2 (x1 x2 gx1 gx2 : tensor A) :
  dict_get group_dict name = Ok G ->
  let d := dimension_of name in
  subgroup_indices G H idx -> g = List.length (symmetries_of name) -> List.length m = d ->
  wf x1 -> wf x2 -> shape x1 = b :: m ++ [g; c1] -> shape x2 = b :: m ++ [g; c2] ->
  transforms_of_group_signal G d H "" x1 = Ok gx1 -> transforms_of_group_signal G d H "" x2 = Ok gx2 ->
  exists z gz, position_wise phi o x1 x2 = Ok z /\ wf z /\ shape z = b :: m ++ [g; o] /\
    transforms_of_group_signal G d H "" z = Ok gz /\ nth 0 (shape gx1) 0 = List.length idx /\ nth 0 (shape gx2) 0 = List.length idx /\
    nth 0 (shape gz) 0 = List.length idx /\
    forall u, u < List.length idx -> position_wise phi o (slice 0 u gx1) (slice 0 u gx2) = Ok (slice 0 u gz).
Proof.
  intros DG d S GN Lm W1 W2 S1 S2 R1 R2. apply lib_ok in DG as [_ OK]. fold d in OK.
  pose proof (sub_idx_whole _ _ _ _ OK) as SW.
  assert (LW : g = List.length (seq 0 (List.length (symmetries_of name)))) by (rewrite seq_length; exact GN).
  assert (ST : forall u, In u idx -> stable G u (seq 0 (List.length (symmetries_of name)))).
  { intros u I. destruct (sub_idx_facts _ _ _ _ OK _ _ S) as [_ [B _]]. apply (stable_whole G d _ _ OK). apply B. exact I. }
  rewrite (tensor_sig4 d b m g c1 x1 W1 Lm S1) in *. rewrite (tensor_sig4 d b m g c2 x2 W2 Lm S2) in *.
  unfold transforms_of_group_signal, spatial_axes, group_axis in *.
  destruct (group_slices G d _ _ OK b m g c1 (fun4 x1) _ _ idx _ gx1 S SW LW Lm ST R1) as [F [SG1 Q1]].
  destruct (group_slices G d _ _ OK b m g c2 (fun4 x2) _ _ idx _ gx2 S SW LW Lm ST R2) as [_ [SG2 Q2]].
  rewrite (position_wise_group d) by exact Lm. eexists.
  match goal with |- context [Ok (tab ?s (sig4 d ?Z))] =>
    destruct (group_slices_ok G d _ _ OK b m g o Z (Some H) (Some "") idx _ S SW LW F ST) as [gz [RZ [SGZ QZ]]] end.
  exists gz. split; [reflexivity|]. split; [apply wf_tab|]. split; [apply shape_tab|]. split; [exact RZ|].
  rewrite SG1, SG2, SGZ. split; [reflexivity|]. split; [reflexivity|]. split; [reflexivity|]. intros u U.
  rewrite (Q1 u U), (Q2 u U), (QZ u U), (position_wise_group d) by exact Lm. reflexivity.
Qed.

Lemma grid_positions name G H idx phi o b m c1 c2 (x1 x2 gx1 gx2 : tensor A) :
  dict_get group_dict name = Ok G ->
  let d := dimension_of name in
  subgroup_indices G H idx -> List.length m = d ->
  wf x1 -> wf x2 -> shape x1 = b :: m ++ [c1] -> shape x2 = b :: m ++ [c2] ->
  transforms_of_grid_signal G d H x1 = Ok gx1 -> transforms_of_grid_signal G d H x2 = Ok gx2 ->
  exists z gz, position_wise phi o x1 x2 = Ok z /\ wf z /\ shape z = b :: m ++ [o] /\
    transforms_of_grid_signal G d H z = Ok gz /\ nth 0 (shape gx1) 0 = List.length idx /\ nth 0 (shape gx2) 0 = List.length idx /\
    nth 0 (shape gz) 0 = List.length idx /\
    forall u, u < List.length idx -> position_wise phi o (slice 0 u gx1) (slice 0 u gx2) = Ok (slice 0 u gz).
Proof.
  intros DG d S Lm W1 W2 S1 S2 R1 R2. apply lib_ok in DG as [_ OK]. fold d in OK.
  rewrite (tensor_sig3 d b m c1 x1 W1 Lm S1) in *. rewrite (tensor_sig3 d b m c2 x2 W2 Lm S2) in *.
  unfold transforms_of_grid_signal, spatial_axes in *.
  destruct (grid_slices G d _ _ OK b m c1 (fun3 x1) _ _ idx gx1 S Lm R1) as [F [SG1 Q1]].
  destruct (grid_slices G d _ _ OK b m c2 (fun3 x2) _ _ idx gx2 S Lm R2) as [_ [SG2 Q2]].
  rewrite (position_wise_grid d) by exact Lm. eexists.
  match goal with |- context [Ok (tab ?s (sig3 d ?Z))] =>
    destruct (grid_slices_ok G d _ _ OK b m o Z None (Some H) idx S F) as [gz [RZ [SGZ QZ]]] end.
  exists gz. split; [reflexivity|]. split; [apply wf_tab|]. split; [apply shape_tab|]. split; [exact RZ|].
  rewrite SG1, SG2, SGZ. split; [reflexivity|]. split; [reflexivity|]. split; [reflexivity|]. intros u U.
  rewrite (Q1 u U), (Q2 u U), (QZ u U), (position_wise_grid d) by exact Lm. reflexivity.
Qed.

(** ** Statistics *)

Definition values4 (m : list nat) (g c : nat) (X : nat -> list nat -> nat -> nat -> A) (bi : nat) : list (list A) :=
  map (fun i => map (X bi (removelast i) (last i 0)) (seq 0 c)) (indices (m ++ [g])).
Definition values3 (m : list nat) (c : nat) (X : nat -> list nat -> nat -> A) (bi : nat) : list (list A) :=
  map (fun i => map (X bi i) (seq 0 c)) (indices m).

Lemma sample_values_group d b m g c (X : nat -> list nat -> nat -> nat -> A) bi : List.length m = d -> bi < b ->
  sample_values (tab (b :: m ++ [g; c]) (sig4 d X)) bi = values4 m g c X bi.
Proof.
  intros L BI. unfold sample_values, channels_at, values4. rewrite shape_tab, last_ix2. cbn [tl].
  replace (removelast (m ++ [g; c])) with (m ++ [g]) by (rewrite removelast_app by discriminate; reflexivity).
  apply map_ext_in. intros i I. apply In_indices in I. apply inb_app_split in I as [p [r [-> [P R]]]].
  destruct r as [|h [|? ?]]; [apply inb_length in R; discriminate R| |apply inb_length in R; discriminate R].
  apply inb_cons in R as [H _]. rewrite removelast_last, last_last. apply map_ext_in. intros q Q. apply in_seq in Q.
  cbn [app]. rewrite <- app_assoc. cbn [app]. apply at_sig4; try assumption. lia.
Qed.

Lemma sample_values_grid d b m c (X : nat -> list nat -> nat -> A) bi : List.length m = d -> bi < b ->
  sample_values (tab (b :: m ++ [c]) (sig3 d X)) bi = values3 m c X bi.
Proof.
  intros L BI. unfold sample_values, channels_at, values3. rewrite shape_tab, last_ix1. cbn [tl]. rewrite removelast_last.
  apply map_ext_in. intros p P. apply In_indices in P. apply map_ext_in. intros q Q. apply in_seq in Q. cbn [app]. apply at_sig3; try assumption. lia.
Qed.

Lemma with_statistics_group d phi o b m g c (X : nat -> list nat -> nat -> nat -> A) : List.length m = d ->
  with_statistics phi o (tab (b :: m ++ [g; c]) (sig4 d X))
  = Ok (tab (b :: m ++ [g; o]) (sig4 d (fun bi p h q =>
      nth q (phi (map (values4 m g c X) (seq 0 b)) (values4 m g c X bi) (map (X bi p h) (seq 0 c))) zero))).
Proof.
  intros L. unfold with_statistics. rewrite !shape_tab, !removelast_ix2. cbn [hd].
  f_equal. replace ((b :: m ++ [g]) ++ [o]) with (b :: m ++ [g; o]) by (cbn [app]; rewrite <- app_assoc; reflexivity).
  rewrite (tab_sig4 d) by exact L. apply sig4_ext; [exact L|]. intros bi p h q BI P H Q.
  rewrite removelast_ix2, last_ix2. cbn [hd]. f_equal.
  replace (map (sample_values (tab (b :: m ++ [g; c]) (sig4 d X))) (seq 0 b)) with (map (values4 m g c X) (seq 0 b))
    by (apply map_ext_in; intros bj BJ; apply in_seq in BJ; symmetry; apply sample_values_group; [exact L|lia]).
  rewrite (sample_values_group d b m g c X bi L BI). f_equal. unfold channels_at. rewrite shape_tab, last_ix2.
  apply map_ext_in; intros v V; apply in_seq in V; cbn [app]; rewrite <- app_assoc; cbn [app]; apply at_sig4; try assumption; lia.
Qed.

Lemma with_statistics_grid d phi o b m c (X : nat -> list nat -> nat -> A) : List.length m = d ->
  with_statistics phi o (tab (b :: m ++ [c]) (sig3 d X))
  = Ok (tab (b :: m ++ [o]) (sig3 d (fun bi p q =>
      nth q (phi (map (values3 m c X) (seq 0 b)) (values3 m c X bi) (map (X bi p) (seq 0 c))) zero))).
Proof.
  intros L. unfold with_statistics. rewrite !shape_tab, !removelast_ix1. cbn [hd].
  f_equal. cbn [app]. rewrite (tab_sig3 d) by exact L. apply sig3_ext; [exact L|]. intros bi p q BI P Q.
  rewrite removelast_ix1, last_ix1. cbn [hd]. f_equal.
  replace (map (sample_values (tab (b :: m ++ [c]) (sig3 d X))) (seq 0 b)) with (map (values3 m c X) (seq 0 b))
    by (apply map_ext_in; intros bj BJ; apply in_seq in BJ; symmetry; apply sample_values_grid; [exact L|lia]).
  rewrite (sample_values_grid d b m c X bi L BI). f_equal. unfold channels_at. rewrite shape_tab, last_ix1.
  apply map_ext_in; intros v V; apply in_seq in V; cbn [app]; apply at_sig3; try assumption; lia.
Qed.

(** Turning a signal puts the positions in another order. *)
Lemma values3_moved d e m c (X : nat -> list nat -> nat -> A) bi : is_symmetry d e -> List.length m = d -> fits e m ->
  Permutation (values3 m c (fun bi p q => X bi (pixel e m p) q) bi) (values3 m c X bi).
Proof.
  intros SY L F. unfold values3. rewrite <- (map_map (pixel e m) (fun i => map (X bi i) (seq 0 c))). apply Permutation_map.
  apply indices_injective; [intros i I; apply (pixel_inb d); assumption|]. intros i j I J. apply (pixel_injective d); assumption.
Qed.

Lemma values4_moved d e t m g c (X : nat -> list nat -> nat -> nat -> A) bi : is_symmetry d e -> List.length m = d -> fits e m ->
  (forall h, h < g -> t h < g) -> (forall h h', h < g -> h' < g -> t h = t h' -> h = h') ->
  Permutation (values4 m g c (fun bi p h q => X bi (pixel e m p) (t h) q) bi) (values4 m g c X bi).
Proof.
  intros SY L F TB TI. unfold values4.
  rewrite (map_ext _ (fun i => (fun i => map (X bi (removelast i) (last i 0)) (seq 0 c)) (pixel e m (removelast i) ++ [t (last i 0)])))
    by (intros i; cbv beta; rewrite removelast_last, last_last; reflexivity).
  rewrite <- (map_map (fun i => pixel e m (removelast i) ++ [t (last i 0)]) (fun i => map (X bi (removelast i) (last i 0)) (seq 0 c))).
  apply Permutation_map.
  assert (SPLIT : forall i, inb (m ++ [g]) i -> exists p h, i = p ++ [h] /\ inb m p /\ h < g).
  { intros i I. apply inb_app_split in I as [p [r [-> [P R]]]].
    destruct r as [|h [|? ?]]; [apply inb_length in R; discriminate R| |apply inb_length in R; discriminate R].
    apply inb_cons in R as [H _]. exists p, h. split; [reflexivity|]. split; assumption. }
  apply indices_injective.
  - intros i I. destruct (SPLIT i I) as [p [h [-> [P H]]]]. rewrite removelast_last, last_last.
    apply inb_app; [apply (pixel_inb d); assumption|]. apply inb_cons. split; [apply TB; exact H|constructor].
  - intros i j I J. destruct (SPLIT i I) as [p [h [-> [P H]]]]. destruct (SPLIT j J) as [p' [h' [-> [P' H']]]].
    rewrite !removelast_last, !last_last. intros Q. apply app_inj_tail in Q as [QP QH].
    rewrite (TI h h' H H' QH). f_equal. apply (pixel_injective d e m); assumption.
Qed.

Lemma permutations_of_samples {B} (f f' : nat -> list B) l : (forall i, In i l -> Permutation (f i) (f' i)) -> Forall2 (@Permutation B) (map f l) (map f' l).
Proof.
  induction l as [|i l IH]; intros H; cbn [map]; [apply Forall2_nil|]. apply Forall2_cons; [apply H; left; reflexivity|].
  apply IH. intros j J. apply H. right. exact J.
Qed.

Lemma group_statistics name G H idx phi o b m g c (x gx : tensor A) :
  dict_get group_dict name = Ok G ->
  let d := dimension_of name in
  statistics phi -> subgroup_indices G H idx -> g = List.length (symmetries_of name) -> List.length m = d ->
  wf x -> shape x = b :: m ++ [g; c] ->
  transforms_of_group_signal G d H "" x = Ok gx ->
  exists z gz, with_statistics phi o x = Ok z /\ wf z /\ shape z = b :: m ++ [g; o] /\
    transforms_of_group_signal G d H "" z = Ok gz /\ nth 0 (shape gx) 0 = List.length idx /\
    nth 0 (shape gz) 0 = List.length idx /\
    forall u, u < List.length idx -> with_statistics phi o (slice 0 u gx) = Ok (slice 0 u gz).
Proof.
  intros DG d STAT S GN Lm W SH R. apply lib_ok in DG as [_ OK]. fold d in OK.
  pose proof (sub_idx_whole _ _ _ _ OK) as SW.
  assert (LW : g = List.length (seq 0 (List.length (symmetries_of name)))) by (rewrite seq_length; exact GN).
  destruct (sub_idx_facts _ _ _ _ OK _ _ S) as [_ [B _]].
  assert (ST : forall u, In u idx -> stable G u (seq 0 (List.length (symmetries_of name)))).
  { intros u I. apply (stable_whole G d _ _ OK). apply B. exact I. }
  rewrite (tensor_sig4 d b m g c x W Lm SH) in *.
  unfold transforms_of_group_signal, spatial_axes, group_axis in *.
  destruct (group_slices G d _ _ OK b m g c (fun4 x) _ _ idx _ gx S SW LW Lm ST R) as [F [SG Q]].
  rewrite (with_statistics_group d) by exact Lm. eexists.
  match goal with |- context [Ok (tab ?s (sig4 d ?Z))] =>
    destruct (group_slices_ok G d _ _ OK b m g o Z (Some H) (Some "") idx _ S SW LW F ST) as [gz [RZ [SGZ QZ]]] end.
  exists gz. split; [reflexivity|]. split; [apply wf_tab|]. split; [apply shape_tab|]. split; [exact RZ|].
  rewrite SG, SGZ. split; [reflexivity|]. split; [reflexivity|]. intros u U.
  rewrite (Q u U), (QZ u U), (with_statistics_group d) by exact Lm. f_equal. apply sig4_ext; [exact Lm|]. intros bi p h q BI P Hh Hq.
  unfold moved4 at 4. f_equal.
  assert (Iu : In (nth u idx 0) idx) by (apply nth_In; exact U). pose proof (B _ Iu) as Bu. destruct F as [FM _].
  assert (PERM : forall bj, Permutation (values4 m g c (moved4 G (symmetries_of name) (nth u idx 0) m (seq 0 (List.length (symmetries_of name))) (fun4 x)) bj) (values4 m g c (fun4 x) bj)).
  { intros bj. apply (values4_moved d).
    - apply (sym_ok G d _ _ OK). exact Bu.
    - exact Lm.
    - apply (fits_sym G d _ _ OK); assumption.
    - intros h' Hh'. rewrite LW in *. apply turned_lt; [apply ST; exact Iu|exact Hh'].
    - intros h1 h2 H1 H2. rewrite LW in *. apply (turned_inj G d _ _ OK); [exact Bu|apply seq_NoDup|intros v V; apply in_seq in V; lia|apply ST; exact Iu|exact H1|exact H2]. }
  unfold moved4 at 3. apply STAT; [|apply PERM]. apply permutations_of_samples. intros bj _. apply PERM.
Qed.

Lemma grid_statistics name G H idx phi o b m c (x gx : tensor A) :
  dict_get group_dict name = Ok G ->
  let d := dimension_of name in
  statistics phi -> subgroup_indices G H idx -> List.length m = d ->
  wf x -> shape x = b :: m ++ [c] ->
  transforms_of_grid_signal G d H x = Ok gx ->
  exists z gz, with_statistics phi o x = Ok z /\ wf z /\ shape z = b :: m ++ [o] /\
    transforms_of_grid_signal G d H z = Ok gz /\ nth 0 (shape gx) 0 = List.length idx /\
    nth 0 (shape gz) 0 = List.length idx /\
    forall u, u < List.length idx -> with_statistics phi o (slice 0 u gx) = Ok (slice 0 u gz).
Proof.
  intros DG d STAT S Lm W SH R. apply lib_ok in DG as [_ OK]. fold d in OK.
  destruct (sub_idx_facts _ _ _ _ OK _ _ S) as [_ [B _]].
  rewrite (tensor_sig3 d b m c x W Lm SH) in *.
  unfold transforms_of_grid_signal, spatial_axes in *.
  destruct (grid_slices G d _ _ OK b m c (fun3 x) _ _ idx gx S Lm R) as [F [SG Q]].
  rewrite (with_statistics_grid d) by exact Lm. eexists.
  match goal with |- context [Ok (tab ?s (sig3 d ?Z))] =>
    destruct (grid_slices_ok G d _ _ OK b m o Z None (Some H) idx S F) as [gz [RZ [SGZ QZ]]] end.
  exists gz. split; [reflexivity|]. split; [apply wf_tab|]. split; [apply shape_tab|]. split; [exact RZ|].
  rewrite SG, SGZ. split; [reflexivity|]. split; [reflexivity|]. intros u U.
  rewrite (Q u U), (QZ u U), (with_statistics_grid d) by exact Lm. f_equal. apply sig3_ext; [exact Lm|]. intros bi p q BI P Hq.
  unfold moved3 at 4. f_equal.
  assert (Iu : In (nth u idx 0) idx) by (apply nth_In; exact U). pose proof (B _ Iu) as Bu. destruct F as [FM _].
  assert (PERM : forall bj, Permutation (values3 m c (moved3 (symmetries_of name) (nth u idx 0) m (fun3 x)) bj) (values3 m c (fun3 x) bj)).
  { intros bj. apply (values3_moved d); [apply (sym_ok G d _ _ OK); exact Bu|exact Lm|apply (fits_sym G d _ _ OK); assumption]. }
  unfold moved3 at 3. apply STAT; [|apply PERM]. apply permutations_of_samples. intros bj _. apply PERM.
Qed.

End PositionWise.

Section Networks.
Context {A : Type} {RA : Arith A} {PA : Pool A}.

(** What the input of a network looks like. *)
Definition input_ok (grid : bool) (name : string) (x : tensor A) : Prop :=
  wf x /\ exists b m c, List.length m = dimension_of name /\
    shape x = b :: m ++ (if grid then [c] else [List.length (symmetries_of name); c]).

Lemma network_input grid name (x : tensor A) net last : network grid name x net last -> input_ok grid name x.
Proof.
  induction 1 as [name G x b m c DG Lm W SH|name H x b m c call Lm W SH ST|grid name x net mid H y b m g c call N IH NX Lm W SH ST|grid name x net net' last phi o N1 IH1 N2 IH2|grid name x net last phi o N IH STAT];
    [|split; [exact W|exists b, m, c; auto]|exact IH|exact IH1|exact IH].
  split; [exact W|]. exists b, m, c. apply lib_ok in DG as [_ OK]. rewrite (ok_order _ _ _ _ OK) in SH. auto.
Qed.

Lemma input_restrict grid name G (x gx : tensor A) U H idxU idxH :
  dict_get group_dict name = Ok G -> input_ok grid name x ->
  let d := dimension_of name in
  subgroup_indices G U idxU -> subgroup_indices G H idxH ->
  transforms_of_input grid G d U x = Ok gx ->
  nth 0 (shape gx) 0 = List.length idxU /\
  exists gxH, transforms_of_input grid G d H x = Ok gxH /\ nth 0 (shape gxH) 0 = List.length idxH /\
    forall v u, v < List.length idxU -> u < List.length idxH -> nth v idxU 0 = nth u idxH 0 -> slice 0 v gx = slice 0 u gxH.
Proof.
  intros DG [W [b [m [c [Lm SH]]]]] d SU SHh R. destruct grid; cbn [transforms_of_input] in *.
  - exact (grid_restrict name G x gx b m c U H idxU idxH DG Lm W SH SU SHh R).
  - exact (group_restrict name G x gx b m _ c U H idxU idxH DG Lm W SH eq_refl SU SHh R).
Qed.

Lemma own_idx name G : dict_get group_dict name = Ok G -> dict_get (g_subgroup G) name = Ok (seq 0 (List.length (symmetries_of name))).
Proof.
  intros DG. pose proof DG as DG'. apply lib_ok in DG' as [NG OK]. pose proof (sub_idx_whole _ _ _ _ OK) as SW. unfold sub_idx, parse_subgroup, subgroup_get in SW.
  cbn [String.eqb] in SW. rewrite NG in SW. exact SW.
Qed.

(** A network that returns commutes with the elements of the last subgroup. *)
Lemma network_commutes grid name (x : tensor A) net last :
  add_commutes A -> network grid name x net last ->
  forall G z, dict_get group_dict name = Ok G -> net x = Ok z ->
  let d := dimension_of name in
  exists Gl idx, dict_get group_dict last = Ok Gl /\ dict_get (g_subgroup G) last = Ok idx /\ dimension_of last = d /\
    wf z /\ (exists b mo o, List.length mo = d /\ shape z = b :: mo ++ [List.length (symmetries_of last); o]) /\
    commutes_at (transforms_of_input grid G d last) (transforms_of_group_signal Gl d "" "") net x.
Proof.
  intros ADD N. induction N as [name G0 x b m c DG0 Lm W SH|name H x b m c call Lm W SH ST|grid name x net mid H y b m g c call N IH NX Lm W SH ST|grid name x net net' last phi o N1 IH1 N2 IH2|grid name x net last phi o N IH STAT];
    intros G z DG NZ d.
  - assert (E : G0 = G) by congruence. subst G0. assert (E : x = z) by congruence. subst z.
    pose proof DG as DG'. apply lib_ok in DG' as [NG OK]. rewrite (ok_order _ _ _ _ OK) in SH.
    exists G, (seq 0 (List.length (symmetries_of name))). split; [exact DG|]. split; [apply own_idx; exact DG|].
    split; [reflexivity|]. split; [exact W|]. split; [exists b, m, c; auto|].
    intros gx y R C. assert (E : y = x) by congruence. subst y. exists gx. cbn [transforms_of_input] in R.
    unfold transforms_of_group_signal in *. rewrite (own_name name G) in R by exact DG. split; [exact R|]. split; [reflexivity|]. intros u U. reflexivity.
  - destruct (lifting_facts name H m c call b x z ADD ST Lm W SH NZ) as [G' [idx [mo [o [DG' [SI [WY [Lmo [SY CM]]]]]]]]].
    assert (E : G' = G) by congruence. subst G'. fold d in Lmo, CM.
    destruct (output_group name G H idx DG SI) as [K [DK [DIM [LI OG]]]]. fold d in DIM.
    exists K, idx. split; [exact DK|]. split; [exact (indices_listed _ _ _ _ DG SI)|]. split; [exact DIM|]. split; [exact WY|].
    split; [exists b, mo, o; rewrite <- LI; auto|].
    intros gx y R C. assert (E : y = z) by congruence. subst y. cbn [transforms_of_input] in R.
    destruct (input_restrict true name G x gx _ H idx idx DG (conj W (ex_intro _ b (ex_intro _ m (ex_intro _ c (conj Lm SH)))))
                (listed_indices _ _ _ _ DG (indices_listed _ _ _ _ DG SI)) SI R) as [N0 [gxH [RH [NH QH]]]].
    cbn [transforms_of_input] in RH. fold d in RH. destruct (CM gxH z RH C) as [gy [RY [NY QY]]]. exists gy.
    split; [exact (OG z gy b mo o WY Lmo SY RY)|]. split; [congruence|]. rewrite N0. intros u U. rewrite (QH u u U U eq_refl). apply QY. rewrite NH. exact U.
  - unfold followed_by in NZ. rewrite NX in NZ. destruct (IH G y DG NX) as [K [idx [DK [DI [DIM [_ [_ CN]]]]]]]. fold d in DIM, CN.
    destruct (stage_facts mid H m g c call b y z ADD ST Lm W SH NZ) as [K' [j [mo [o [DK' [SI [GN [WZ [Lmo [SZ CM]]]]]]]]]].
    assert (E : K' = K) by congruence. subst K'. rewrite DIM in Lmo, CM, Lm.
    destruct (output_group mid K H j DK SI) as [Gl [DL [DIML [LI OG]]]]. rewrite DIM in DIML, OG.
    pose proof (indices_listed _ _ _ _ DK SI) as DJ.
    pose proof (lib_nested name G mid idx K _ j DG DI DK DJ) as DN.
    exists Gl, (map (fun v => nth v idx 0) j). split; [exact DL|]. split; [exact DN|]. split; [exact DIML|]. split; [exact WZ|].
    split; [exists b, mo, o; rewrite <- LI; auto|].
    intros gx z' R C. unfold followed_by in C. rewrite NX in C. assert (E : z' = z) by congruence. subst z'.
    destruct (input_restrict grid name G x gx _ mid _ idx DG (network_input _ _ _ _ _ N) (listed_indices _ _ _ _ DG DN) (listed_indices _ _ _ _ DG DI) R)
      as [N0 [gxM [RM [NM QM]]]]. rewrite map_length in N0, QM. fold d in RM.
    destruct (CN gxM y RM NX) as [gy [RY [NY QY]]].
    pose proof DK as DKK. apply lib_ok in DKK as [_ OKK]. pose proof (sub_idx_whole _ _ _ _ OKK) as SW.
    pose proof (group_restrict mid K y gy b m g c "" H (seq 0 (List.length (symmetries_of mid))) j DK) as GR. cbv zeta in GR. rewrite DIM in GR.
    destruct (GR Lm W SH GN SW SI RY) as [NGY [gyH [RH [NH QH]]]]. clear GR. rewrite seq_length in NGY, QH.
    destruct (CM gyH z RH NZ) as [gz [RZ [NZ' QZ]]]. exists gz. split; [exact (OG z gz b mo o WZ Lmo SZ RZ)|]. split; [congruence|].
    rewrite N0. intros u U. assert (LJ : nth u j 0 < List.length (symmetries_of mid)).
    { destruct (sub_idx_facts _ _ _ _ OKK _ _ SI) as [_ [B _]]. apply B, nth_In. exact U. }
    assert (LX : List.length idx = List.length (symmetries_of mid)) by congruence.
    unfold followed_by. rewrite (QM u (nth u j 0)).
    + rewrite QY by congruence. rewrite (QH (nth u j 0) u); [|exact LJ|exact U|rewrite seq_nth by exact LJ; reflexivity]. apply QZ. rewrite NH. exact U.
    + exact U.
    + rewrite LX. exact LJ.
    + rewrite nth_indep with (d' := nth 0 idx 0) by (rewrite map_length; exact U). apply (map_nth (fun v => nth v idx 0)).
  - unfold branches in NZ. destruct (net x) as [y1|e] eqn:X1; [|discriminate NZ]. destruct (net' x) as [y2|e] eqn:X2; [|discriminate NZ].
    destruct (IH1 G y1 DG eq_refl) as [Gl [idx [DL [DI [DIM [W1 [[b1 [m1 [c1 [L1 S1]]]] C1]]]]]]].
    destruct (IH2 G y2 DG eq_refl) as [Gl' [idx' [DL' [_ [_ [W2 [[b2 [m2 [c2 [L2 S2]]]] C2]]]]]]].
    assert (E : Gl' = Gl) by congruence. subst Gl'. fold d in DIM, L1, L2, C1, C2.
    assert (SE : b2 = b1 /\ m2 = m1).
    { unfold position_wise in NZ. destruct (list_eqb _ _ _) eqn:Q in NZ; [|discriminate NZ]. apply (list_eqb_eq _ Nat.eqb_eq) in Q.
      rewrite S1, S2, !removelast_ix2 in Q. injection Q as -> Q. apply app_inj_tail in Q as [-> _]. auto. }
    destruct SE as [-> ->].
    assert (OUT : wf z /\ shape z = b1 :: m1 ++ [List.length (symmetries_of last); o]).
    { rewrite (tensor_sig4 d _ _ _ _ y1 W1 L1 S1), (tensor_sig4 d _ _ _ _ y2 W2 L1 S2), (position_wise_group d) in NZ by exact L1.
      assert (EZ : forall u v : tensor A, Ok u = Ok v -> u = v) by congruence. apply EZ in NZ. subst z. split; [apply wf_tab|apply shape_tab]. }
    destruct OUT as [WZ SZ].
    exists Gl, idx. split; [exact DL|]. split; [exact DI|]. split; [exact DIM|]. split; [exact WZ|]. split; [exists b1, m1, o; auto|].
    intros gx z' R C. unfold branches in C. rewrite X1, X2 in C. assert (E : z' = z) by congruence. subst z'.
    destruct (C1 gx y1 R X1) as [g1 [R1 [N1' Q1]]]. destruct (C2 gx y2 R X2) as [g2 [R2 [N2' Q2]]].
    pose proof DL as DLL. apply lib_ok in DLL as [_ OKL]. pose proof (sub_idx_whole _ _ _ _ OKL) as SW.
    pose proof (group_positions last Gl "" (seq 0 (List.length (symmetries_of last))) phi o b1 m1 (List.length (symmetries_of last)) c1 c2 y1 y2 g1 g2 DL SW eq_refl) as GP. cbv zeta in GP. rewrite DIM in GP.
    destruct (GP L1 W1 W2 S1 S2 R1 R2) as [z' [gz [PZ [_ [_ [RZ [NG1 [_ [NGZ QZ]]]]]]]]].
    assert (E : z' = z) by congruence. subst z'. exists gz. split; [exact RZ|]. split; [congruence|].
    intros u U. unfold branches. rewrite (Q1 u U), (Q2 u U). apply QZ. congruence.
  - unfold followed_by in NZ. destruct (net x) as [y|e] eqn:NX; [|discriminate NZ].
    destruct (IH G y DG eq_refl) as [Gl [idx [DL [DI [DIM [W [[b [m [c [L S]]]] C]]]]]]]. fold d in DIM, L, C.
    assert (OUT : wf z /\ shape z = b :: m ++ [List.length (symmetries_of last); o]).
    { rewrite (tensor_sig4 d _ _ _ _ y W L S), (with_statistics_group d) in NZ by exact L.
      assert (EZ : forall u v : tensor A, Ok u = Ok v -> u = v) by congruence. apply EZ in NZ. subst z. split; [apply wf_tab|apply shape_tab]. }
    destruct OUT as [WZ SZ].
    exists Gl, idx. split; [exact DL|]. split; [exact DI|]. split; [exact DIM|]. split; [exact WZ|]. split; [exists b, m, o; auto|].
    intros gx z' R Cz. unfold followed_by in Cz. rewrite NX in Cz. assert (E : z' = z) by congruence. subst z'.
    destruct (C gx y R NX) as [gy [RY [NY QY]]].
    pose proof DL as DLL. apply lib_ok in DLL as [_ OKL]. pose proof (sub_idx_whole _ _ _ _ OKL) as SW.
    pose proof (group_statistics last Gl "" (seq 0 (List.length (symmetries_of last))) phi o b m (List.length (symmetries_of last)) c y gy DL STAT SW eq_refl) as GP. cbv zeta in GP. rewrite DIM in GP.
    destruct (GP L W S RY) as [z' [gz [PZ [_ [_ [RZ [NGY [NGZ QZ]]]]]]]].
    assert (E : z' = z) by congruence. subst z'. exists gz. split; [exact RZ|]. split; [congruence|].
    intros u U. unfold followed_by. rewrite (QY u U). apply QZ. congruence.
Qed.
End Networks.
