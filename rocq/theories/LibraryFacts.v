(** Every group in [group_dict] satisfies [group_ok]. *)
From Verif Require Export GroupFacts.

(** [G] has the name and lists the subgroups of a group in [group_dict]. *)
Definition named (G : group) : Prop :=
  exists K, dict_get group_dict (g_name G) = Ok K /\ g_subgroup K = g_subgroup G.

(** All that is needed about a group [G] whose elements perform the symmetries
    [E] of the [d]-dimensional grid.  [eq] says whether the action insists on
    equal spatial sizes. *)
Record group_ok (G : group) (d : nat) (E : list symmetry) (eq : bool) : Prop := {
  ok_order : g_order G = List.length E;
  ok_pos : 0 < List.length E;
  ok_sym : forall a, a < List.length E -> is_symmetry d (nth a E []);
  ok_nodup : NoDup E;
  ok_id : nth 0 E [] = identity d;
  ok_cshape : shape (g_composition G) = [List.length E; List.length E];
  ok_cwf : wf (g_composition G);
  ok_comp : forall a b, a < List.length E -> b < List.length E ->
      comp G a b < List.length E /\ nth (comp G a b) E [] = after (nth a E []) (nth b E []);
  ok_ilen : List.length (g_inverses G) = List.length E;
  ok_inv : forall a, a < List.length E ->
      inv G a < List.length E /\ comp G (inv G a) a = 0 /\ comp G a (inv G a) = 0;
  ok_sub : forall name idx, dict_get (g_subgroup G) name = Ok idx ->
      NoDup idx /\ (forall a, In a idx -> a < List.length E) /\ hd_error idx = Some 0 /\
      (named G -> List.length idx = List.length (symmetries_of name)) /\
      (List.length idx = List.length E -> idx = seq 0 (List.length E)) /\
      (forall a b, In a idx -> In b idx -> In (comp G (inv G a) b) idx) /\
      (named G -> E = symmetries_of (g_name G) -> dimension_of name = d /\ map (fun a => nth a E []) idx = symmetries_of name);
  ok_self : dict_get (g_subgroup G) (g_name G) = Ok (seq 0 (List.length E));
  ok_cos : forall name idx, dict_get (g_subgroup G) name = Ok idx ->
      exists cos, dict_get (g_cosets G) name = Ok cos /\ NoDup cos /\
      (forall c, In c cos -> c < List.length E) /\
      (forall g, g < List.length E -> exists h c, In h idx /\ In c cos /\ comp G h c = g) /\
      List.length idx * List.length cos = List.length E;
  ok_action : forall (A : Type) (ZA : Zero A) s (f : list nat -> A) k sp,
      k <= List.length s -> spatial_axes_ok d sp (List.length s) ->
      (eq = true -> all_equal (gather sp s)) ->
      g__action G A ZA (tab s f) (map Z.of_nat sp) (Z.of_nat k)
      = Ok (stk k (List.length E) s (fun g i => f (pixel_at (nth g E []) sp s i)));
  ok_refuse : forall (A : Type) (ZA : Zero A) s (f : list nat -> A) k sp,
      k <= List.length s -> spatial_axes_ok d sp (List.length s) ->
      eq = true -> ~ all_equal (gather sp s) ->
      exists e, g__action G A ZA (tab s f) (map Z.of_nat sp) (Z.of_nat k) = Err e;
  ok_fits : eq = false -> forall a n, a < List.length E -> fits (nth a E []) n
}.

(** ** A checker for the finite parts *)

Definition pair_eqb (p q : nat * bool) : bool := (fst p =? fst q) && Bool.eqb (snd p) (snd q).
Fixpoint sym_eqb (a b : symmetry) : bool :=
  match a, b with
  | [], [] => true
  | x :: a', y :: b' => pair_eqb x y && sym_eqb a' b'
  | _, _ => false
  end.
Fixpoint list_eqb {B} (eqb : B -> B -> bool) (a b : list B) : bool :=
  match a, b with
  | [], [] => true
  | x :: a', y :: b' => eqb x y && list_eqb eqb a' b'
  | _, _ => false
  end.
Fixpoint nodupb {B} (eqb : B -> B -> bool) (l : list B) : bool :=
  match l with [] => true | x :: l' => negb (existsb (eqb x) l') && nodupb eqb l' end.

Lemma sym_eqb_eq a b : sym_eqb a b = true <-> a = b.
Proof.
  revert b; induction a as [|[x r] a IH]; intros [|[y r'] b]; cbn; split; try congruence; auto.
  - rewrite andb_true_iff, IH. unfold pair_eqb; cbn. rewrite andb_true_iff, Nat.eqb_eq.
    intros [[-> R] ->]. apply Bool.eqb_prop in R. congruence.
  - intros E. injection E as -> -> ->. rewrite andb_true_iff. split; [|apply IH; auto].
    unfold pair_eqb; cbn. rewrite Nat.eqb_refl, Bool.eqb_reflx. auto.
Qed.

Lemma list_eqb_eq {B} (eqb : B -> B -> bool) (H : forall x y, eqb x y = true <-> x = y) a b :
  list_eqb eqb a b = true <-> a = b.
Proof.
  revert b; induction a as [|x a IH]; intros [|y b]; cbn; split; try congruence; auto.
  - rewrite andb_true_iff, IH, H. intros [-> ->]; auto.
  - intros E. injection E as -> ->. rewrite andb_true_iff, IH, H. auto.
Qed.

Lemma nodupb_NoDup {B} (eqb : B -> B -> bool) (H : forall x y, eqb x y = true <-> x = y) l :
  nodupb eqb l = true -> NoDup l.
Proof.
  induction l as [|x l IH]; cbn; [constructor|]. rewrite andb_true_iff, negb_true_iff.
  intros [N M]. constructor; auto. intros IN.
  assert (existsb (eqb x) l = true) by (apply existsb_exists; exists x; rewrite H; auto). congruence.
Qed.

Lemma forallb_seq n P : forallb P (seq 0 n) = true -> forall a, a < n -> P a = true.
Proof. intros H a Ha. rewrite forallb_forall in H. apply H. apply in_seq. lia. Qed.

Definition is_symmetryb (d : nat) (e : symmetry) : bool :=
  (List.length e =? d) && forallb (fun p => mem p (map fst e)) (seq 0 d).

Lemma is_symmetryb_ok d e : is_symmetryb d e = true -> is_symmetry d e.
Proof.
  unfold is_symmetryb. rewrite andb_true_iff, Nat.eqb_eq. intros [L H]. split; auto.
  intros p P. apply mem_In. apply (forallb_seq _ _ H p P).
Qed.

Definition check_sub (G : group) (d : nat) (E : list symmetry) (name : string) (idx : list nat) : bool :=
  let n := List.length E in
  nodupb Nat.eqb idx && forallb (fun a => a <? n) idx
  && match idx with 0 :: _ => true | _ => false end
  && list_eqb sym_eqb (map (fun a => nth a E []) idx) (symmetries_of name)
  && ((negb (List.length idx =? n)) || list_eqb Nat.eqb idx (seq 0 n))
  && forallb (fun a => forallb (fun b => mem (comp G (inv G a) b) idx) idx) idx
  && (dimension_of name =? d)
  && match dict_get (g_cosets G) name with
     | Ok cos =>
         nodupb Nat.eqb cos && forallb (fun a => a <? n) cos
         && (let prods := flat_map (fun h => map (comp G h) cos) idx in
             forallb (fun g => mem g prods) (seq 0 n))
         && (List.length idx * List.length cos =? n)
     | Err _ => false
     end.

Definition check (G : group) (d : nat) (E : list symmetry) : bool :=
  let n := List.length E in
  (g_order G =? n) && (0 <? n)
  && forallb (is_symmetryb d) E
  && nodupb sym_eqb E
  && sym_eqb (nth 0 E []) (identity d)
  && list_eqb Nat.eqb (shape (g_composition G)) [n; n]
  && (List.length (data (g_composition G)) =? n * n)
  && forallb (fun a => forallb (fun b => (comp G a b <? n)
               && sym_eqb (nth (comp G a b) E []) (after (nth a E []) (nth b E []))) (seq 0 n)) (seq 0 n)
  && (List.length (g_inverses G) =? n)
  && forallb (fun a => (inv G a <? n) && (comp G (inv G a) a =? 0) && (comp G a (inv G a) =? 0)) (seq 0 n)
  && match dict_get (g_subgroup G) (g_name G) with
     | Ok idx => list_eqb Nat.eqb idx (seq 0 n) | Err _ => false end
  && forallb (fun kv => check_sub G d E (fst kv) (snd kv)) (g_subgroup G).

Lemma dict_get_In {B} (l : list (string * B)) k v : dict_get l k = Ok v -> In (k, v) l.
Proof.
  induction l as [|[k' v'] l IH]; cbn; [discriminate|].
  destruct (String.eqb_spec k k') as [->|]; [intros H; injection H as ->; auto|auto].
Qed.

Ltac split_andb := repeat match goal with H : _ && _ = true |- _ => apply andb_true_iff in H; destruct H end.

Lemma check_ok G d E eq :
  check G d E = true ->
  (forall (A : Type) (ZA : Zero A) s (f : list nat -> A) k sp,
      k <= List.length s -> spatial_axes_ok d sp (List.length s) ->
      (eq = true -> all_equal (gather sp s)) ->
      g__action G A ZA (tab s f) (map Z.of_nat sp) (Z.of_nat k)
      = Ok (stk k (List.length E) s (fun g i => f (pixel_at (nth g E []) sp s i)))) ->
  (forall (A : Type) (ZA : Zero A) s (f : list nat -> A) k sp,
      k <= List.length s -> spatial_axes_ok d sp (List.length s) ->
      eq = true -> ~ all_equal (gather sp s) ->
      exists e, g__action G A ZA (tab s f) (map Z.of_nat sp) (Z.of_nat k) = Err e) ->
  (eq = false -> forall a n, a < List.length E -> fits (nth a E []) n) ->
  group_ok G d E eq.
Proof.
  intros C HA HR HF. unfold check in C. split_andb.
  assert (SUB : forall name idx, dict_get (g_subgroup G) name = Ok idx -> check_sub G d E name idx = true).
  { intros name idx D. apply dict_get_In in D.
    match goal with H : forallb (fun kv => check_sub _ _ _ _ _) _ = true |- _ =>
      rewrite forallb_forall in H; exact (H _ D) end. }
  constructor; auto.
  - apply Nat.eqb_eq; auto.
  - apply Nat.ltb_lt; auto.
  - intros a Ha. apply is_symmetryb_ok.
    match goal with H : forallb (is_symmetryb d) E = true |- _ => rewrite forallb_forall in H; apply H end.
    apply nth_In; auto.
  - eapply nodupb_NoDup; eauto. apply sym_eqb_eq.
  - apply sym_eqb_eq; auto.
  - eapply list_eqb_eq; eauto. apply Nat.eqb_eq.
  - unfold wf. match goal with H : list_eqb Nat.eqb _ _ = true |- _ =>
      apply (list_eqb_eq Nat.eqb Nat.eqb_eq) in H; rewrite H end.
    unfold prod; cbn. rewrite Nat.mul_1_r. apply Nat.eqb_eq; auto.
  - intros a b Ha Hb.
    match goal with H : forallb (fun a => forallb (fun b => (comp G a b <? _) && _) _) _ = true |- _ =>
      pose proof (forallb_seq _ _ (forallb_seq _ _ H a Ha) b Hb) as X end.
    cbv beta in X. split_andb. split; [apply Nat.ltb_lt; auto|apply sym_eqb_eq; auto].
  - apply Nat.eqb_eq; auto.
  - intros a Ha.
    match goal with H : forallb (fun a => (inv G a <? _) && _ && _) _ = true |- _ =>
      pose proof (forallb_seq _ _ H a Ha) as X end.
    cbv beta in X. split_andb. repeat split; [apply Nat.ltb_lt|apply Nat.eqb_eq|apply Nat.eqb_eq]; auto.
  - intros name idx D. apply SUB in D. unfold check_sub in D. split_andb.
    assert (M : map (fun a => nth a E []) idx = symmetries_of name) by (eapply list_eqb_eq; eauto; apply sym_eqb_eq).
    split; [|split; [|split; [|split; [intros _|split; [|split; [|intros _ _; split]]]]]].
    + eapply nodupb_NoDup; eauto. apply Nat.eqb_eq.
    + intros a Ha. match goal with H : forallb (fun a => a <? _) idx = true |- _ =>
        rewrite forallb_forall in H; apply Nat.ltb_lt; apply H; auto end.
    + destruct idx as [|[|x] idx]; try discriminate. reflexivity.
    + rewrite <- M, map_length. reflexivity.
    + intros L. match goal with H : negb _ || _ = true |- _ => rewrite L, Nat.eqb_refl in H; cbn in H;
        eapply list_eqb_eq; [apply Nat.eqb_eq|exact H] end.
    + intros a b Ha Hb. match goal with H : forallb (fun a => forallb _ idx) idx = true |- _ =>
        rewrite forallb_forall in H; specialize (H a Ha); rewrite forallb_forall in H; apply mem_In; apply H; auto end.
    + apply Nat.eqb_eq; auto.
    + exact M.
  - destruct (dict_get (g_subgroup G) (g_name G)); [|discriminate]. f_equal.
    eapply list_eqb_eq; eauto. apply Nat.eqb_eq.
  - intros name idx D. apply SUB in D. unfold check_sub in D. split_andb.
    destruct (dict_get (g_cosets G) name) as [cos|]; [|discriminate]. exists cos. split_andb.
    repeat split.
    + eapply nodupb_NoDup; eauto. apply Nat.eqb_eq.
    + intros a Ha. match goal with H : forallb (fun a => a <? _) cos = true |- _ =>
        rewrite forallb_forall in H; apply Nat.ltb_lt; apply H; auto end.
    + intros g Hg. match goal with H : forallb (fun g => mem g _) _ = true |- _ =>
        pose proof (forallb_seq _ _ H g Hg) as X end.
      cbv beta in X. apply mem_In in X. apply in_flat_map in X as [h [Hh X]].
      apply in_map_iff in X as [c [<- Hc]]. eauto.
    + apply Nat.eqb_eq; auto.
Qed.

(** ** The action functions of the constructed groups *)

Lemma group_init_action name order i c s co a p G :
  group_init name order i c s co a p = Ok G -> g__action G = compute_action name p a.
Proof.
  unfold group_init. intros H.
  destruct (compute_composition name order p c); cbn [bind] in H; [|discriminate].
  destruct (compute_inverses order a0 i); cbn [bind] in H; [|discriminate].
  destruct (compute_subgroup name order p s); cbn [bind] in H; [|discriminate].
  destruct (compute_cosets name order p a2 co); cbn [bind] in H; [|discriminate].
  injection H as <-. reflexivity.
Qed.

Lemma built_ok r : is_ok r = true -> r = Ok (built r).
Proof. destruct r; [reflexivity|intros; discriminate]. Qed.

Lemma inits_ok : forallb (fun p => is_ok (snd p)) inits = true.
Proof. vm_compute. reflexivity. Qed.

Lemma init_ok name r : In (name, r) inits -> r = Ok (built r).
Proof.
  intros H. apply built_ok. pose proof inits_ok as C. rewrite forallb_forall in C. apply (C _ H).
Qed.

Lemma spatial2 sp r : spatial_axes_ok 2 sp r ->
  exists h w, sp = [h; w] /\ h < r /\ w < r /\ h <> w.
Proof.
  intros [L [ND [B _]]]. destruct sp as [|h [|w [|]]]; try discriminate.
  exists h, w. inversion ND; subst. cbn in *. repeat split; auto.
Qed.

Lemma all_equal2 s h w : all_equal (gather [h; w] s) <-> nth h s 0 = nth w s 0.
Proof.
  unfold all_equal, gather; cbn. split; intros H; [apply H; auto|].
  intros x y [<-|[<-|[]]] [<-|[<-|[]]]; auto.
Qed.

Lemma fits_diag e n : (forall m, m < List.length e -> fst (nth m e (0, false)) = m) -> fits e n.
Proof. intros H m M. rewrite H; auto. Qed.

Lemma P1_init_eq : P1_init = Ok P1.
Proof. apply built_ok. vm_compute. reflexivity. Qed.
Lemma P2_init_eq : P2_init = Ok P2.
Proof. apply built_ok. vm_compute. reflexivity. Qed.
Lemma PMw_init_eq : PMw_init = Ok PMw.
Proof. apply built_ok. vm_compute. reflexivity. Qed.
Lemma PMh_init_eq : PMh_init = Ok PMh.
Proof. apply built_ok. vm_compute. reflexivity. Qed.
Lemma P2MM_init_eq : P2MM_init = Ok P2MM.
Proof. apply built_ok. vm_compute. reflexivity. Qed.
Lemma P4_init_eq : P4_init = Ok P4.
Proof. apply built_ok. vm_compute. reflexivity. Qed.
Lemma P4M_init_eq : P4M_init = Ok P4M.
Proof. apply built_ok. vm_compute. reflexivity. Qed.
Lemma Oh_init_eq : Oh_init = Ok Oh.
Proof. apply built_ok. vm_compute. reflexivity. Qed.
Lemma O_init_eq : derived "O" 24 = Ok O3.
Proof. apply (built_ok (derived "O" 24)). vm_compute. reflexivity. Qed.
Lemma D4h_init_eq : derived "D4h" 16 = Ok D4h.
Proof. apply (built_ok (derived "D4h" 16)). vm_compute. reflexivity. Qed.
Lemma D4_init_eq : derived "D4" 8 = Ok D4.
Proof. apply (built_ok (derived "D4" 8)). vm_compute. reflexivity. Qed.

#[global] Opaque P1 P2 PMw PMh P2MM P4 P4M Oh O3 D4h D4 Oh_composition.

Lemma P1_action_eq : g__action P1 = (fun A _ => @P1_action A).
Proof. exact (group_init_action _ _ _ _ _ _ _ _ _ P1_init_eq). Qed.
Lemma P2_action_eq : g__action P2 = @P2_action.
Proof. exact (group_init_action _ _ _ _ _ _ _ _ _ P2_init_eq). Qed.
Lemma PMw_action_eq : g__action PMw = @PMw_action.
Proof. exact (group_init_action _ _ _ _ _ _ _ _ _ PMw_init_eq). Qed.
Lemma PMh_action_eq : g__action PMh = @PMh_action.
Proof. exact (group_init_action _ _ _ _ _ _ _ _ _ PMh_init_eq). Qed.
Lemma P2MM_action_eq : g__action P2MM = @P2MM_action.
Proof. exact (group_init_action _ _ _ _ _ _ _ _ _ P2MM_init_eq). Qed.
Lemma P4_action_eq : g__action P4 = @P4_action.
Proof. exact (group_init_action _ _ _ _ _ _ _ _ _ P4_init_eq). Qed.
Lemma P4M_action_eq : g__action P4M = @P4M_action.
Proof. exact (group_init_action _ _ _ _ _ _ _ _ _ P4M_init_eq). Qed.
Lemma Oh_action_eq : g__action Oh = @Oh_action.
Proof. exact (group_init_action _ _ _ _ _ _ _ _ _ Oh_init_eq). Qed.

Ltac two_d eq lem :=
  intros A ZA s f k sp K SP EQ; destruct (spatial2 _ _ SP) as [h [w [-> [H [W N]]]]];
  rewrite eq; cbn [map]; apply lem; auto; try (apply all_equal2; auto).

Ltac two_d_refuse eq lem :=
  intros A ZA s f k sp K SP EQ NE; destruct (spatial2 _ _ SP) as [h [w [-> [H [W N]]]]];
  rewrite eq; cbn [map]; eexists; apply lem; auto; intros Q; apply NE; apply all_equal2; auto.

Ltac diag := intros _ a n Ha; cbn in Ha; apply fits_diag;
  do 4 (destruct a as [|a]; [intros m M; cbn in M; destruct m as [|[|[|m]]]; cbn; lia|]); lia.

Lemma P1_ok : group_ok P1 2 P1_symmetries false.
Proof. apply check_ok; [vm_compute; reflexivity|two_d P1_action_eq @P1_action_tab|intros; discriminate|diag]. Qed.

Lemma P2_ok : group_ok P2 2 P2_symmetries false.
Proof. apply check_ok; [vm_compute; reflexivity|two_d P2_action_eq @P2_action_tab|intros; discriminate|diag]. Qed.

Lemma PMw_ok : group_ok PMw 2 PMw_symmetries false.
Proof. apply check_ok; [vm_compute; reflexivity|two_d PMw_action_eq @PMw_action_tab|intros; discriminate|diag]. Qed.

Lemma PMh_ok : group_ok PMh 2 PMh_symmetries false.
Proof. apply check_ok; [vm_compute; reflexivity|two_d PMh_action_eq @PMh_action_tab|intros; discriminate|diag]. Qed.

Lemma P2MM_ok : group_ok P2MM 2 P2MM_symmetries false.
Proof. apply check_ok; [vm_compute; reflexivity|two_d P2MM_action_eq @P2MM_action_tab|intros; discriminate|diag]. Qed.

Lemma P4_ok : group_ok P4 2 P4_symmetries true.
Proof. apply check_ok; [vm_compute; reflexivity|two_d P4_action_eq @P4_action_tab|two_d_refuse P4_action_eq @P4_action_not_square|intros; discriminate]. Qed.

Lemma P4M_ok : group_ok P4M 2 P4M_symmetries true.
Proof. apply check_ok; [vm_compute; reflexivity|two_d P4M_action_eq @P4M_action_tab|two_d_refuse P4M_action_eq @P4M_action_not_square|intros; discriminate]. Qed.

(** *** three dimensions *)

Lemma spatial3 sp s : spatial_axes_ok 3 sp (List.length s) ->
  exists s1 a b c s2, s = s1 ++ [a; b; c] ++ s2 /\
    sp = [List.length s1; 1 + List.length s1; 2 + List.length s1] /\
    gather sp s = [a; b; c].
Proof.
  intros [L [ND [B C]]]. destruct (C eq_refl) as [o ->].
  assert (O : 2 + o < List.length s) by (apply B; cbn; tauto).
  destruct (split_at s o) as [s1 [t [-> L1]]]; [lia|]. rewrite app_length in O.
  destruct t as [|a [|b [|c s2]]]; cbn [List.length] in O; try lia.
  exists s1, a, b, c, s2. rewrite <- L1. repeat split. unfold gather. cbn [map].
  change (a :: b :: c :: s2) with ([a; b; c] ++ s2).
  change (nth (List.length s1) (s1 ++ [a; b; c] ++ s2) 0) with (nth (0 + List.length s1) (s1 ++ [a; b; c] ++ s2) 0).
  rewrite !nth_mid' by lia. reflexivity.
Qed.

Lemma all_equal3 a b c : all_equal [a; b; c] <-> a = b /\ b = c.
Proof.
  unfold all_equal; cbn. split; intros H.
  - split; apply H; auto.
  - destruct H as [<- <-]. intros x y X Y. intuition congruence.
Qed.

Lemma Oh_raw_action (A : Type) (ZA : Zero A) s (f : list nat -> A) k sp :
  k <= List.length s -> spatial_axes_ok 3 sp (List.length s) ->
  (true = true -> all_equal (gather sp s)) ->
  g__action Oh A ZA (tab s f) (map Z.of_nat sp) (Z.of_nat k)
  = Ok (stk k 48 s (fun g i => f (pixel_at (nth g Oh_symmetries []) sp s i))).
Proof.
  intros K SP EQ. destruct (spatial3 _ _ SP) as [s1 [a [b [c [s2 [-> [-> GS]]]]]]].
  rewrite Oh_action_eq. rewrite GS in EQ. apply all_equal3 in EQ as [-> ->]; [|reflexivity].
  cbn [map]. apply Oh_action_mid; assumption.
Qed.

Lemma Oh_raw_refuse (A : Type) (ZA : Zero A) s (f : list nat -> A) k sp :
  k <= List.length s -> spatial_axes_ok 3 sp (List.length s) ->
  true = true -> ~ all_equal (gather sp s) ->
  exists e, g__action Oh A ZA (tab s f) (map Z.of_nat sp) (Z.of_nat k) = Err e.
Proof.
  intros K SP _ NE. destruct (spatial3 _ _ SP) as [s1 [a [b [c [s2 [-> [-> GS]]]]]]].
  rewrite GS in NE. rewrite Oh_action_eq. cbn [map]. apply Oh_action_not_cube; [assumption|].
  intros C. apply NE. apply all_equal3. auto.
Qed.

Lemma Oh_ok : group_ok Oh 3 Oh_symmetries true.
Proof.
  apply check_ok; [vm_compute; reflexivity|apply Oh_raw_action|apply Oh_raw_refuse|intros; discriminate].
Qed.

(** The derived groups act through [Oh]. *)
Lemma derived_action name order G idx E :
  derived name order = Ok G ->
  dict_get (g_subgroup Oh) name = Ok idx ->
  (forall a, In a idx -> a < 48) ->
  map (fun a => nth a Oh_symmetries []) idx = E ->
  (forall (A : Type) (ZA : Zero A) s (f : list nat -> A) k sp,
      k <= List.length s -> spatial_axes_ok 3 sp (List.length s) ->
      (true = true -> all_equal (gather sp s)) ->
      g__action G A ZA (tab s f) (map Z.of_nat sp) (Z.of_nat k)
      = Ok (stk k (List.length E) s (fun g i => f (pixel_at (nth g E []) sp s i)))) /\
  (forall (A : Type) (ZA : Zero A) s (f : list nat -> A) k sp,
      k <= List.length s -> spatial_axes_ok 3 sp (List.length s) ->
      true = true -> ~ all_equal (gather sp s) ->
      exists e, g__action G A ZA (tab s f) (map Z.of_nat sp) (Z.of_nat k) = Err e).
Proof.
  intros D I B M. unfold derived in D. rewrite Oh_init_eq in D. cbn [bind] in D.
  apply group_init_action in D. rewrite D. cbn [compute_action]. split; intros A ZA s f k sp K SP EQ.
  - rewrite Oh_raw_action by assumption. cbn [bind]. rewrite I. cbn [bind].
    rewrite take_stk by assumption. f_equal. subst E. rewrite map_length. apply stk_ext; [assumption|].
    intros g i G0 _. f_equal. f_equal.
    assert (E0 : forall a, nth a Oh_symmetries [] = (fun a => nth a Oh_symmetries []) a) by reflexivity.
    rewrite (nth_indep (map _ idx) [] (nth 0 Oh_symmetries [])) by (rewrite map_length; auto).
    rewrite (map_nth (fun a => nth a Oh_symmetries [])). reflexivity.
  - intros NE. destruct (Oh_raw_refuse A ZA s f k sp K SP eq_refl NE) as [e ->]. cbn [bind]. exists e. reflexivity.
Qed.

Ltac derived_ok name order G idx D E :=
  let HA := fresh in let HR := fresh in
  let I := fresh in
  assert (I : dict_get (g_subgroup Oh) name = Ok idx) by (vm_compute; reflexivity);
  destruct (derived_action name order G idx E D I) as [HA HR];
    [intros a Ha; cbn in Ha; lia|vm_compute; reflexivity|];
  apply check_ok; [vm_compute; reflexivity|exact HA|exact HR|intros; discriminate].

Definition O_idx := [0; 1; 2; 3; 8; 9; 10; 11; 16; 17; 18; 19;
  28; 29; 30; 31; 36; 37; 38; 39; 44; 45; 46; 47].
Definition D4h_idx := [0; 1; 2; 3; 4; 5; 6; 7; 40; 41; 42; 43; 44; 45; 46; 47].
Definition D4_idx := [0; 1; 2; 3; 44; 45; 46; 47].

Lemma O_ok : group_ok O3 3 O_symmetries true.
Proof. derived_ok "O"%string 24 O3 O_idx O_init_eq O_symmetries. Qed.

Lemma D4h_ok : group_ok D4h 3 D4h_symmetries true.
Proof. derived_ok "D4h"%string 16 D4h D4h_idx D4h_init_eq D4h_symmetries. Qed.

Lemma D4_ok : group_ok D4 3 D4_symmetries true.
Proof. derived_ok "D4"%string 8 D4 D4_idx D4_init_eq D4_symmetries. Qed.

(** Which groups insist on equal sizes. *)
Local Open Scope string_scope.
Definition needs_equal_sizes (name : string) : bool :=
  existsb (String.eqb name) ["P4"; "P4M"; "Oh"; "O"; "D4h"; "D4"].
Local Close Scope string_scope.

Lemma library_forall :
  Forall (fun p => g_name (snd p) = fst p /\
                   group_ok (snd p) (dimension_of (fst p)) (symmetries_of (fst p)) (needs_equal_sizes (fst p)))
         group_dict.
Proof.
  unfold group_dict, wallpaper_group_dict, space_group_dict.
  repeat (apply Forall_cons; [split; cbn [fst snd]; [vm_compute; reflexivity|]|]); [..|apply Forall_nil].
  - exact P1_ok.
  - exact P2_ok.
  - exact PMw_ok.
  - exact PMh_ok.
  - exact P2MM_ok.
  - exact P4_ok.
  - exact P4M_ok.
  - exact Oh_ok.
  - exact O_ok.
  - exact D4h_ok.
  - exact D4_ok.
Qed.

Theorem library_ok name G :
  In (name, G) group_dict ->
  g_name G = name /\
  group_ok G (dimension_of name) (symmetries_of name) (needs_equal_sizes name).
Proof. intros H. exact (proj1 (Forall_forall _ _) library_forall _ H). Qed.
