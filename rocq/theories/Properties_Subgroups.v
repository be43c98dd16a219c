(** C82, C83: when a group can be derived from a parent, and which subgroups the
    library has. *)
From Verif Require Import UserGroups Properties_UserGroups Properties_Config EquivSpec.
Local Open Scope string_scope.
Local Open Scope list_scope.

(** ** C82: when [Group(name, order, parent=P)] succeeds *)

Lemma mapM_fails {X Y} (f : X -> result Y) l e : (forall x, In x l -> (exists y, f x = Ok y) \/ f x = Err e) ->
  (exists x, In x l /\ f x = Err e) -> mapM f l = Err e.
Proof.
  intros H [x [I F]]. induction l as [|a l IH]; [destruct I|]. cbn [mapM].
  destruct (f a) as [y|e'] eqn:A.
  - cbn [bind]. destruct I as [->|I]; [congruence|]. rewrite IH; [reflexivity| |exact I]. intros b B. apply H. right. exact B.
  - destruct (H a (or_introl eq_refl)) as [[y Y']|Y']; [congruence|]. cbn [bind]. congruence.
Qed.

Lemma zip_get_key es vs k e : zip_get es vs k = Err e -> e = KeyError.
Proof.
  revert vs. induction es as [|x es IH]; intros vs Q; cbn [zip_get] in Q; [congruence|].
  destruct vs as [|v vs]; [congruence|]. destruct (zip_get es vs k); [congruence|]. destruct (x =? k)%nat; congruence.
Qed.

Lemma zip_get_no es vs k : (forall p, p < List.length vs -> p < List.length es -> nth p es 0 <> k) -> zip_get es vs k = Err KeyError.
Proof.
  revert vs. induction es as [|x es IH]; intros vs N; cbn [zip_get]; [reflexivity|]. destruct vs as [|v vs]; [reflexivity|].
  rewrite IH.
  - destruct (Nat.eqb_spec x k) as [Q|_]; [|reflexivity]. exfalso. apply (N 0); cbn [List.length nth]; [lia|lia|exact Q].
  - intros p P P'. apply (N (S p)); cbn [List.length]; lia.
Qed.

Lemma internal_fails ext order l a : In a l -> zip_get ext (seq 0 order) a = Err KeyError -> external_to_internal ext order l = Err KeyError.
Proof.
  intros I Z. apply mapM_fails; [|exists a; split; assumption]. intros x _.
  destruct (zip_get ext (seq 0 order) x) as [y|e] eqn:Q; [left; exists y; reflexivity|right; rewrite (zip_get_key _ _ _ _ Q); reflexivity].
Qed.

Theorem C82_when_a_group_can_be_derived P d E square name order :
  describes P d E square -> NoDup (map fst (g_subgroup P)) -> name <> "" ->
  group_init name order None None None None None None = Err AttributeError /\
  match dict_get (g_subgroup P) name with
  | Err _ => group_init name order None None None None None (Some P) = Err KeyError
  | Ok ext =>
      match (order ?= List.length ext)%nat with
      | Lt => group_init name order None None None None None (Some P) = Err KeyError
      | Eq => exists G, group_init name order None None None None None (Some P) = Ok G
      | Gt => group_init name order None None None None None (Some P) = Err IndexError
      end
  end.
Proof.
  intros D NK NE. split; [reflexivity|]. destruct (dict_get (g_subgroup P) name) as [ext|e] eqn:GET.
  2:{ unfold group_init, compute_composition. rewrite GET. cbn [bind].
      assert (e = KeyError) as ->; [|reflexivity]. clear -GET. induction (g_subgroup P) as [|[k v] l IH]; cbn [dict_get] in GET; [congruence|].
      destruct (String.eqb name k); [discriminate GET|apply IH; exact GET]. }
  destruct (Nat.compare_spec order (List.length ext)) as [->|LT|GT].
  { destruct (derived_describes P d E square name ext D NK NE GET) as [G [I _]]. exists G. exact I. }
  all: destruct (de_sub _ _ _ _ D _ _ GET) as [ND [B [F CL]]]; pose proof (ok_is_group _ _ _ _ (describes_ok _ _ _ _ D)) as GR;
    assert (I0 : In 0 ext) by (destruct ext as [|z ext0]; [discriminate F|cbn [hd_error] in F; assert (z = 0) as -> by congruence; left; reflexivity]);
    assert (Z0 : nth 0 ext 0 = 0) by (destruct ext as [|z ext0]; [discriminate F|cbn [hd_error] in F; cbn [nth]; congruence]).
  - destruct order as [|o].
    + unfold group_init, compute_composition. rewrite GET. cbn [bind].
      rewrite <- (tab_at (g_composition P) (de_cwf _ _ _ _ D)), (de_cshape _ _ _ _ D).
      change 0%Z with (Z.of_nat 0). change 1%Z with (Z.of_nat 1).
      rewrite take_vec by (cbn; auto; lia). cbn [bind]. rewrite take_vec by (cbn; auto; lia). cbn [bind seq mapM cast2 compute_inverses].
      unfold compute_subgroup. rewrite GET. cbn [bind].
      rewrite (mapM_fails _ _ KeyError); [reflexivity| |].
      * intros kv _. destruct (external_to_internal ext 0 (snd kv)) as [l|e] eqn:Q; [left; eexists; reflexivity|right].
        cbn [bind]. destruct (snd kv) as [|v l]; [discriminate Q|].
        rewrite (internal_fails ext 0 (v :: l) v) in Q; [congruence|left; reflexivity|].
        apply zip_get_no. intros p Hp. cbn in Hp. lia.
      * exists (name, ext). split.
        { apply filter_In. split; [apply dict_get_In; exact GET|]. apply forallb_forall. intros i Ii. apply mem_In. exact Ii. }
        cbn [snd]. rewrite (internal_fails ext 0 ext 0); [reflexivity|exact I0|]. apply zip_get_no. intros p Hp. cbn in Hp. lia.
    + unfold group_init, compute_composition. rewrite GET. cbn [bind].
      rewrite <- (tab_at (g_composition P) (de_cwf _ _ _ _ D)), (de_cshape _ _ _ _ D).
      change 0%Z with (Z.of_nat 0). change 1%Z with (Z.of_nat 1).
      rewrite take_vec by (cbn; auto; lia). cbn [bind]. rewrite take_vec by (cbn; auto; lia). cbn [bind upd].
      change (seq 0 (S o)) with (0 :: seq 1 o). cbn [mapM]. rewrite row_tab by lia. cbn [bind nth upd].
      match goal with |- context[external_to_internal ext (S o) ?l] =>
        assert (Q : external_to_internal ext (S o) l = Err KeyError) end.
      { apply (internal_fails _ _ _ (nth (S o) ext 0)).
        - apply in_map_iff. exists (S o). split; [|apply in_seq; lia].
          rewrite Z0. change (at_ (g_composition P) [0; nth (S o) ext 0]) with (comp P 0 (nth (S o) ext 0)).
          apply (group_id_l _ _ _ GR). apply B. apply nth_In. exact LT.
        - apply zip_get_no. intros p Hp Hq Q. rewrite seq_length in Hp.
          assert (p = S o); [|lia]. apply (proj1 (NoDup_nth ext 0) ND); [exact Hq|exact LT|exact Q]. }
      rewrite Q. reflexivity.
  - unfold group_init, compute_composition. rewrite GET. cbn [bind].
    rewrite <- (tab_at (g_composition P) (de_cwf _ _ _ _ D)), (de_cshape _ _ _ _ D).
    change 0%Z with (Z.of_nat 0). change 1%Z with (Z.of_nat 1).
    rewrite take_vec by (cbn; auto; lia). cbn [bind]. rewrite take_vec by (cbn; auto; lia). cbn [bind upd].
    rewrite (mapM_fails _ _ IndexError); [reflexivity| |].
    + intros r _. destruct (Nat.ltb_spec r (List.length ext)) as [R|R].
      * left. rewrite row_tab by exact R. cbn [bind].
        unfold external_to_internal.
        eexists. apply (mapM_Ok _ (fun a => index_of a ext)). intros v V. apply in_map_iff in V as [x [<- X]]. apply in_seq in X. cbn [nth upd].
        assert (IN : In (at_ (g_composition P) [nth r ext 0; nth x ext 0]) ext).
        { change (In (comp P (nth r ext 0) (nth x ext 0)) ext).
          rewrite <- (g_inv_inv _ (comp P) (inv P) GR (nth r ext 0)) by (apply B, nth_In, R).
          assert (IR : In (nth r ext 0) ext) by (apply nth_In, R).
          apply CL; [|apply nth_In; lia].
          rewrite <- (group_id_r _ _ _ GR (inv P (nth r ext 0))) by (apply (group_inv_closed _ _ _ GR), B, IR).
          apply CL; assumption. }
        set (v := at_ _ _) in *. rewrite (zip_get_spec ext (seq 0 order) v (index_of v ext)).
        -- rewrite seq_nth by (pose proof (index_of_lt _ _ IN); lia). reflexivity.
        -- exact ND.
        -- apply index_of_lt, IN.
        -- rewrite seq_length. pose proof (index_of_lt _ _ IN). lia.
        -- apply nth_index_of, IN.
      * right. unfold row. rewrite shape_tab. replace (r <? List.length ext)%nat with false by (symmetry; apply Nat.ltb_ge; exact R). reflexivity.
    + exists (List.length ext). split; [apply in_seq; lia|]. unfold row. rewrite shape_tab, Nat.ltb_irrefl. reflexivity.
Qed.

Example C82_cases :
  match dict_get group_dict "P4M" with
  | Ok P =>
      match group_init "P4" 3 None None None None None (Some P), group_init "P4" 5 None None None None None (Some P),
            group_init "P4" 4 None None None None None (Some P), group_init "P3" 3 None None None None None (Some P) with
      | Err KeyError, Err IndexError, Ok G, Err KeyError => g_order G = 4
      | _, _, _, _ => False
      end
  | Err _ => False
  end.
Proof. vm_compute. reflexivity. Qed.

(** ** C83: the subgroups of the groups of the library *)

(** A set of elements that is a subgroup. *)
Definition is_subgroup (G : group) (l : list nat) : Prop :=
  In 0 l /\ (forall a, In a l -> a < g_order G) /\ forall a b, In a l -> In b l -> In (comp G (inv G a) b) l.
Definition same_elements (l l' : list nat) : Prop := forall a, In a l <-> In a l'.

Fixpoint sublists (l : list nat) : list (list nat) :=
  match l with [] => [[]] | a :: l' => sublists l' ++ map (cons a) (sublists l') end.

Lemma filter_sublist (f : nat -> bool) l : In (filter f l) (sublists l).
Proof.
  induction l as [|a l IH]; [left; reflexivity|]. cbn [filter sublists]. apply in_or_app. destruct (f a).
  - right. apply in_map. exact IH.
  - left. exact IH.
Qed.

Definition is_subgroupb (G : group) (l : list nat) : bool :=
  mem 0 l && forallb (fun a => forallb (fun b => mem (comp G (inv G a) b) l) l) l.

(** All ten subgroups of the symmetry group of the square; the elements of P4M are
    ordered e, R, R^2, R^3, F, RF, R^2F, R^3F. *)
Definition listed_subgroups_of_P4M : list (list nat) :=
  [[0]; [0; 2]; [0; 4]; [0; 6]; [0; 2; 4; 6]; [0; 1; 2; 3]; [0; 1; 2; 3; 4; 5; 6; 7]].
Definition missing_subgroups_of_P4M : list (list nat) := [[0; 5]; [0; 7]; [0; 2; 5; 7]].

Lemma subgroup_normal G l : is_subgroup G l -> let s := filter (fun a => mem a l) (seq 0 (g_order G)) in
  same_elements l s /\ In s (sublists (seq 0 (g_order G))) /\ is_subgroupb G s = true.
Proof.
  intros [I0 [B C]] s. assert (S : same_elements l s).
  { intros a. unfold s. rewrite filter_In, in_seq. split.
    - intros I. split; [split; [lia|apply B; exact I]|apply mem_In; exact I].
    - intros [_ I]. apply mem_In. exact I. }
  split; [exact S|]. split; [apply filter_sublist|]. unfold is_subgroupb. apply andb_true_iff. split; [apply mem_In, S, I0|].
  apply forallb_forall. intros a Ia. apply forallb_forall. intros b Ib. apply mem_In, S, C; apply S; assumption.
Qed.

Theorem C83_subgroups_of_P4M G l : dict_get group_dict "P4M" = Ok G ->
  (is_subgroup G l <-> exists s, In s (listed_subgroups_of_P4M ++ missing_subgroups_of_P4M) /\ same_elements l s).
Proof.
  intros D. assert (O : g_order G = 8 /\
     forallb (fun s => implb (is_subgroupb G s) (existsb (list_eqb Nat.eqb s) (listed_subgroups_of_P4M ++ missing_subgroups_of_P4M)))
             (sublists (seq 0 8)) = true /\
     forallb (fun s => is_subgroupb G s && forallb (fun a => (a <? 8)%nat) s) (listed_subgroups_of_P4M ++ missing_subgroups_of_P4M) = true).
  { assert (T : match dict_get group_dict "P4M" with Ok G => (g_order G =? 8)%nat &&
       (forallb (fun s => implb (is_subgroupb G s) (existsb (list_eqb Nat.eqb s) (listed_subgroups_of_P4M ++ missing_subgroups_of_P4M)))
             (sublists (seq 0 8)) &&
        forallb (fun s => is_subgroupb G s && forallb (fun a => (a <? 8)%nat) s) (listed_subgroups_of_P4M ++ missing_subgroups_of_P4M))
       | Err _ => false end = true) by (vm_compute; reflexivity).
    rewrite D in T. apply andb_true_iff in T as [T1 T2]. apply andb_true_iff in T2 as [T2 T3]. split; [apply Nat.eqb_eq; exact T1|]. split; assumption. }
  destruct O as [O [T2 T3]]. split.
  - intros S. destruct (subgroup_normal _ _ S) as [SE [SI SB]]. rewrite O in SE, SI, SB. set (s := filter _ _) in *.
    rewrite forallb_forall in T2. specialize (T2 _ SI). rewrite SB in T2. cbn [implb] in T2. apply existsb_exists in T2 as [s' [I' Q]].
    apply (list_eqb_eq Nat.eqb Nat.eqb_eq) in Q. exists s. split; [rewrite Q; exact I'|exact SE].
  - intros [s [I SE]]. rewrite forallb_forall in T3. specialize (T3 _ I). apply andb_true_iff in T3 as [T3 T4].
    unfold is_subgroupb in T3. apply andb_true_iff in T3 as [T3 T5]. split; [apply SE, mem_In, T3|]. split.
    + intros a Ia. rewrite O. rewrite forallb_forall in T4. apply Nat.ltb_lt, T4, SE, Ia.
    + intros a b Ia Ib. rewrite forallb_forall in T5. specialize (T5 a (proj1 (SE a) Ia)). rewrite forallb_forall in T5.
      apply SE, mem_In, T5, SE, Ib.
Qed.

(** Seven of them are in the library, under these names. *)
Theorem C83_named_subgroups_of_P4M G : dict_get group_dict "P4M" = Ok G ->
  g_subgroup G = [("P4M", [0; 1; 2; 3; 4; 5; 6; 7]); ("P4", [0; 1; 2; 3]); ("P2MM", [0; 4; 6; 2]);
                  ("PMw", [0; 4]); ("PMh", [0; 6]); ("P2", [0; 2]); ("P1", [0])].
Proof.
  intros D.
  assert (T : match dict_get group_dict "P4M" with Ok G => g_subgroup G
     = [("P4M", [0; 1; 2; 3; 4; 5; 6; 7]); ("P4", [0; 1; 2; 3]); ("P2MM", [0; 4; 6; 2]);
        ("PMw", [0; 4]); ("PMh", [0; 6]); ("P2", [0; 2]); ("P1", [0])]
     | Err _ => False end) by (vm_compute; reflexivity).
  rewrite D in T. exact T.
Qed.

(** The three others are generated by the reflections in the diagonals: "the largest
    wallpaper group on a square lattice, p4m, and all its subgroups have been
    implemented" (README) is false. *)
Theorem C83_all_subgroups_implemented_refuted G : dict_get group_dict "P4M" = Ok G ->
  map (map (fun a => nth a (symmetries_of "P4M") [])) missing_subgroups_of_P4M
  = [[id2; swap_hw]; [id2; after reverse_hw swap_hw]; [id2; reverse_hw; swap_hw; after reverse_hw swap_hw]] /\
  forall s, In s missing_subgroups_of_P4M -> is_subgroup G s /\
    forall name idx, In (name, idx) (g_subgroup G) -> ~ same_elements s idx.
Proof.
  intros D. split; [vm_compute; reflexivity|]. intros s I. split.
  - apply (C83_subgroups_of_P4M G s D). exists s. split; [apply in_or_app; right; exact I|intros a; reflexivity].
  - intros name idx L SE. rewrite (C83_named_subgroups_of_P4M G D) in L.
    assert (T : forallb (fun s => forallb (fun kv => negb (forallb (fun a => mem a (snd kv)) s && forallb (fun a => mem a s) (snd kv)))
       [("P4M", [0; 1; 2; 3; 4; 5; 6; 7]); ("P4", [0; 1; 2; 3]); ("P2MM", [0; 4; 6; 2]);
        ("PMw", [0; 4]); ("PMh", [0; 6]); ("P2", [0; 2]); ("P1", [0])]) missing_subgroups_of_P4M = true) by reflexivity.
    rewrite forallb_forall in T. specialize (T _ I). rewrite forallb_forall in T. specialize (T _ L). cbn [snd] in T.
    apply negb_true_iff in T. rewrite <- not_true_iff_false in T. apply T.
    apply andb_true_iff. split; apply forallb_forall; intros a Ia; apply mem_In, SE, Ia.
Qed.

(** Which groups of the library lie in one another, and which of these inclusions are
    not listed: P2 in P2MM only. *)
Theorem C83_listed_inclusions name G name' G' :
  dict_get group_dict name = Ok G -> dict_get group_dict name' = Ok G' ->
  (forall e, In e (symmetries_of name') -> In e (symmetries_of name)) ->
  (exists idx, dict_get (g_subgroup G) name' = Ok idx) <-> ~ (name = "P2MM" /\ name' = "P2").
Proof.
  intros D D' I. apply dict_get_In in D, D'.
  assert (T : forallb (fun p => forallb (fun p' =>
      negb (forallb (fun e => existsb (sym_eqb e) (symmetries_of (fst p))) (symmetries_of (fst p')))
      || Bool.eqb (match dict_get (g_subgroup (snd p)) (fst p') with Ok _ => true | Err _ => false end)
                  (negb (String.eqb (fst p) "P2MM" && String.eqb (fst p') "P2"))) group_dict) group_dict = true) by (vm_compute; reflexivity).
  rewrite forallb_forall in T. specialize (T _ D). rewrite forallb_forall in T. specialize (T _ D'). cbn [fst snd] in T.
  replace (forallb _ (symmetries_of name')) with true in T.
  2:{ symmetry. apply forallb_forall. intros e Ie. apply existsb_exists. exists e. split; [apply I; exact Ie|apply sym_eqb_eq; reflexivity]. }
  cbn [negb orb] in T. apply Bool.eqb_prop in T.
  destruct (dict_get (g_subgroup G) name') as [idx|e].
  - symmetry in T. apply negb_true_iff in T. split; [|intros _; exists idx; reflexivity].
    intros _ [-> ->]. discriminate T.
  - symmetry in T. apply negb_false_iff in T. apply andb_true_iff in T as [T1 T2]. apply String.eqb_eq in T1, T2.
    split; [intros [idx Q]; discriminate Q|]. intros N. exfalso. apply N. split; assumption.
Qed.

(** The half turn is an element of P2MM, but a layer for P2MM with subgroup P2 cannot
    be built: its element list is looked up during [build]. *)
Example C83_P2_in_P2MM :
  forallb (fun e => existsb (sym_eqb e) (symmetries_of "P2MM")) (symmetries_of "P2") = true /\
  match test_layer 2 false (with_group "P2MM" "P2" (One 3) 1 None None None true) [None; Some 5; Some 5; Some 1] some_weights some_weights with
  | Err KeyError => True | _ => False end /\
  match conv_init 2 false (with_group "P2MM" "P2" (One 3) 1 None None None true) with Ok _ => True | Err _ => False end.
Proof. vm_compute. auto. Qed.

Print Assumptions C82_when_a_group_can_be_derived.
Print Assumptions C83_subgroups_of_P4M.
Print Assumptions C83_named_subgroups_of_P4M.
Print Assumptions C83_all_subgroups_implemented_refuted.
Print Assumptions C83_listed_inclusions.

(** C03 for tables that need not be groups: inverses are the first elements whose composition is 0; without one
    the constructor raises. *)
Theorem C03_any_table name order rows sub cos act parent : 0 < order ->
  List.length rows = order -> (forall r, In r rows -> List.length r = order) ->
  let op a b := nth b (nth a rows []) 0 in
  let make := group_init name order None (Some rows) (Some sub) (Some cos) act parent in
  ((forall a, a < order -> exists b, b < order /\ op a b = 0) ->
     exists G, make = Ok G /\ forall a, a < order -> inv G a < order /\ op a (inv G a) = 0 /\ forall b, b < inv G a -> op a b <> 0) /\
  (forall a, a < order -> (forall b, b < order -> op a b <> 0) -> make = Err IndexError).
Proof.
  intros P L LR op make. destruct (cast2_ok rows order L P LR) as [t [C [S W]]].
  assert (EQ : forall a b, a < order -> b < order -> op a b = at_ t [a; b]).
  { intros a b A B. symmetry. apply (at_cast2 rows t a b order); assumption. }
  set (F := fun r => cs <- mapM (fun c => e <- entry t r c ;; Ok (c, e)) (seq 0 order) ;;
              match filter (fun p => snd p =? 0)%nat cs with [] => Err IndexError | (c, _) :: _ => Ok c end).
  assert (FQ : forall r, r < order -> F r = match filter (fun p => snd p =? 0)%nat (map (fun c => (c, op r c)) (seq 0 order)) with
     [] => Err IndexError | (c, _) :: _ => Ok c end).
  { intros r R. unfold F. rewrite (mapM_Ok _ (fun c => (c, op r c))); [reflexivity|]. intros c I. apply in_seq in I.
    rewrite (entry_ok t order) by (try assumption; lia). cbn [bind]. rewrite EQ by lia. reflexivity. }
  assert (FIRST : forall (q : nat -> nat) n k, match filter (fun p => snd p =? 0)%nat (map (fun c => (c, q c)) (seq k n)) with
     | [] => forall b, k <= b < k + n -> q b <> 0
     | (c, _) :: _ => k <= c < k + n /\ q c = 0 /\ forall b, k <= b < c -> q b <> 0 end).
  { intros q. induction n as [|n IH]; intros k; cbn [seq map filter snd]; [intros; lia|].
    destruct (Nat.eqb_spec (q k) 0) as [Z|NZ]; [split; [lia|]; split; [exact Z|intros; lia]|].
    specialize (IH (Datatypes.S k)). destruct (filter _ _) as [|[c e] rest].
    - intros b B. destruct (Nat.eq_dec b k) as [->|N]; [exact NZ|apply IH; lia].
    - destruct IH as [I1 [I2 I3]]. split; [lia|]. split; [exact I2|]. intros b B. destruct (Nat.eq_dec b k) as [->|N]; [exact NZ|apply I3; lia]. }
  assert (MK : make = inv <- mapM F (seq 0 order) ;; Ok (mkGroup name order t inv sub cos (compute_action name parent act))).
  { unfold make, group_init, compute_composition. rewrite C. cbn [bind]. unfold compute_inverses. fold F.
    destruct (mapM F (seq 0 order)); reflexivity. }
  rewrite MK. split.
  - intros H. set (g := fun r => match F r with Ok c => c | Err _ => 0 end).
    assert (GF : forall r, r < order -> F r = Ok (g r) /\ g r < order /\ op r (g r) = 0 /\ forall b, b < g r -> op r b <> 0).
    { intros r R. unfold g. rewrite (FQ r R). pose proof (FIRST (op r) order 0) as Q. destruct (filter _ _) as [|[c e] rest].
      - exfalso. destruct (H r R) as [b [B Z]]. apply (Q b); [lia|exact Z].
      - destruct Q as [Q1 [Q2 Q3]]. split; [reflexivity|]. split; [lia|]. split; [exact Q2|]. intros b B. apply Q3. lia. }
    rewrite (mapM_Ok F g) by (intros r I; apply in_seq in I; apply GF; lia). cbn [bind]. eexists. split; [reflexivity|].
    intros a A. assert (IV : nth a (map g (seq 0 order)) 0 = g a).
    { rewrite (nth_indep _ 0 (g 0)) by (rewrite map_length, seq_length; exact A). rewrite map_nth, seq_nth by exact A. reflexivity. }
    unfold inv. cbn [g_inverses]. rewrite IV. apply GF. exact A.
  - intros a A N. rewrite (mapM_fails F (seq 0 order) IndexError); [reflexivity| |].
    + intros r I. apply in_seq in I. rewrite (FQ r) by lia. destruct (filter _ _) as [|[c e] rest]; [right; reflexivity|left; exists c; reflexivity].
    + exists a. split; [apply in_seq; lia|]. rewrite (FQ a A). pose proof (FIRST (op a) order 0) as Q. destruct (filter _ _) as [|[c e] rest]; [reflexivity|].
      exfalso. destruct Q as [Q1 [Q2 _]]. apply (N c); [lia|exact Q2].
Qed.
Print Assumptions C03_any_table.

(** A table in which 1 composed with anything is 1, and one in which the first of two candidates is taken. *)
Example C03_case_tables :
  group_init "?" 2 None (Some [[0; 1]; [1; 1]]) (Some []) (Some []) None None = Err IndexError /\
  match group_init "?" 3 None (Some [[0; 1; 2]; [1; 0; 0]; [2; 2; 0]]) (Some []) (Some []) None None with
  | Ok G => g_inverses G = [0; 1; 2]
  | Err _ => False
  end.
Proof. vm_compute. split; reflexivity. Qed.

(** ** Groups without a parent *)

Lemma entry_cast2 rows t r c w : cast2 rows = Ok t -> (forall l, In l rows -> List.length l = w) ->
  entry t r c = if ((r <? List.length rows) && (c <? w))%nat then Ok (nth c (nth r rows []) 0) else Err IndexError.
Proof.
  intros C LR. destruct rows as [|r0 rows]; unfold cast2 in C.
  { assert (t = mkTensor [0] []) as -> by congruence. reflexivity. }
  destruct (forallb _ _) in C; [|discriminate C].
  assert (ET : t = mkTensor [List.length (r0 :: rows); List.length r0] (List.concat (r0 :: rows))) by congruence.
  rewrite (LR r0 (or_introl eq_refl)) in ET. unfold entry. rewrite ET. cbn [shape]. destruct ((r <? List.length (r0 :: rows))%nat) eqn:R; [|reflexivity].
  destruct ((c <? w)%nat) eqn:CW; [|reflexivity]. cbn [andb]. apply Nat.ltb_lt in R, CW.
  rewrite <- (nth_concat (r0 :: rows) w r c) by (try assumption). unfold at_. cbn [shape data ravel]. unfold prod. cbn [fold_right].
  rewrite !Nat.mul_1_r, Nat.add_0_r. reflexivity.
Qed.

(** What [Group(name, order, ...)] does if no parent is given, for all other arguments. *)
Theorem C82_without_a_parent name order inverses composition subgroup cosets act :
  let make := group_init name order inverses composition subgroup cosets act None in
  match composition with
  | None => make = Err AttributeError
  | Some rows =>
      let inverses_found := order <= List.length rows /\ (forall r, In r rows -> order <= List.length r) /\
        forall a, a < order -> exists b, b < order /\ nth b (nth a rows []) 0 = 0 in
      ((exists r r', In r rows /\ In r' rows /\ List.length r <> List.length r') -> make = Err ValueError) /\
      ((forall r r', In r rows -> In r' rows -> List.length r = List.length r') ->
         (inverses = None -> ~ inverses_found -> make = Err IndexError) /\
         (inverses <> None \/ inverses_found ->
            (subgroup = None \/ cosets = None -> make = Err AttributeError) /\
            forall sub cos, subgroup = Some sub -> cosets = Some cos ->
              exists G, make = Ok G /\ g_name G = name /\ g_order G = order /\ g_subgroup G = sub /\ g_cosets G = cos /\
                (forall l, inverses = Some l -> g_inverses G = l) /\
                (act = None -> forall A (ZA : Zero A) (x : tensor A) axes new Ha, action G x axes new None Ha None = Err AttributeError)))
  end.
Proof.
  intros make. destruct composition as [rows|]; [|reflexivity]. intros found. split.
  - intros [r [r' [I [I' N]]]]. unfold make, group_init, compute_composition, cast2. destruct rows as [|r0 rows]; [destruct I|].
    destruct (forallb _ _) eqn:F; [|reflexivity]. exfalso. apply N. rewrite forallb_forall in F.
    pose proof (F r I) as F1. pose proof (F r' I') as F2. apply Nat.eqb_eq in F1, F2. congruence.
  - intros EL. assert (exists w, forall l, In l rows -> List.length l = w) as [w LR].
    { destruct rows as [|r0 rows]; [exists 0; intros l []|]. exists (List.length r0). intros l I. apply EL; [exact I|left; reflexivity]. }
    assert (exists t, cast2 rows = Ok t) as [t C].
    { unfold cast2. destruct rows as [|r0 rows]; [eexists; reflexivity|]. replace (forallb _ _) with true; [eexists; reflexivity|].
      symmetry. apply forallb_forall. intros l I. apply Nat.eqb_eq. apply EL; [exact I|left; reflexivity]. }
    set (F := fun r => cs <- mapM (fun c => e <- entry t r c ;; Ok (c, e)) (seq 0 order) ;;
              match filter (fun p => snd p =? 0)%nat cs with [] => Err IndexError | (c, _) :: _ => Ok c end).
    assert (ONLY : forall X Y (f : X -> result Y) l, (forall x, In x l -> (exists y, f x = Ok y) \/ f x = Err IndexError) ->
       (exists ys, mapM f l = Ok ys /\ forall x, In x l -> exists y, f x = Ok y) \/ mapM f l = Err IndexError).
    { intros X Y f. induction l as [|x l IH]; intros Q; [left; exists []; split; [reflexivity|intros x []]|]. cbn [mapM].
      destruct (Q x (or_introl eq_refl)) as [[y E]|E]; rewrite E; cbn [bind]; [|right; reflexivity].
      destruct IH as [[ys [E' A']]|E']; [intros z I; apply Q; right; exact I| |]; rewrite E'; cbn [bind]; [left|right; reflexivity].
      exists (y :: ys). split; [reflexivity|]. intros z [<-|I]; [exists y; exact E|apply A'; exact I]. }
    assert (ENT : forall r c, entry t r c = if ((r <? List.length rows) && (c <? w))%nat then Ok (nth c (nth r rows []) 0) else Err IndexError)
      by (intros r c; exact (entry_cast2 rows t r c w C LR)).
    assert (FR : forall r, (exists y, F r = Ok y) \/ F r = Err IndexError).
    { intros r. unfold F. destruct (ONLY _ _ (fun c => e <- entry t r c ;; Ok (c, e)) (seq 0 order)) as [[ys [E _]]|E].
      - intros c _. rewrite ENT. destruct (_ && _); [left; eexists; reflexivity|right; reflexivity].
      - rewrite E. cbn [bind]. destruct (filter _ ys) as [|[c e] rest]; [right; reflexivity|left; eexists; reflexivity].
      - rewrite E. right. reflexivity. }
    assert (FOUND : (exists l, mapM F (seq 0 order) = Ok l) <-> found).
    { split.
      - intros [l M]. destruct (ONLY _ _ F (seq 0 order) (fun x _ => FR x)) as [[_ [_ Q]]|Q]; [|congruence].
        assert (CELL : forall r, r < order -> r < List.length rows /\ order <= w /\ exists b, b < order /\ nth b (nth r rows []) 0 = 0).
        { intros r R. destruct (Q r) as [y E]; [apply in_seq; lia|]. unfold F in E.
          destruct (ONLY _ _ (fun c => e <- entry t r c ;; Ok (c, e)) (seq 0 order)) as [[ys [E' Q']]|E'];
            [intros c _; rewrite ENT; destruct (_ && _); [left; eexists; reflexivity|right; reflexivity]| |rewrite E' in E; discriminate E].
          assert (IN : forall c, c < order -> r < List.length rows /\ c < w).
          { intros c Hc. destruct (Q' c) as [y' E2]; [apply in_seq; lia|]. rewrite ENT in E2.
            destruct ((r <? List.length rows)%nat) eqn:R1; [|discriminate E2]. destruct ((c <? w)%nat) eqn:C1; [|discriminate E2].
            apply Nat.ltb_lt in R1, C1. split; assumption. }
          split; [apply (IN r R)|]. split; [destruct (IN (order - 1)) as [_ Q2]; lia|].
          assert (YS : ys = map (fun c => (c, nth c (nth r rows []) 0)) (seq 0 order)).
          { rewrite (mapM_Ok _ (fun c => (c, nth c (nth r rows []) 0))) in E'; [congruence|]. intros c I. apply in_seq in I.
            destruct (IN c) as [R1 C1]; [lia|]. rewrite ENT. apply Nat.ltb_lt in R1, C1. rewrite R1, C1. reflexivity. }
          rewrite E' in E. cbn [bind] in E. destruct (filter (fun p => snd p =? 0)%nat ys) as [|[c e] rest] eqn:FI; [discriminate E|].
          assert (IC : In (c, e) (filter (fun p => snd p =? 0)%nat ys)) by (rewrite FI; left; reflexivity).
          apply filter_In in IC as [IC Z]. cbn [snd] in Z. apply Nat.eqb_eq in Z. rewrite YS in IC. apply in_map_iff in IC as [c' [EC IC]]. apply in_seq in IC.
          exists c'. split; [lia|]. congruence. }
        split; [destruct order as [|o]; [lia|destruct (CELL o) as [Q1 _]; lia]|]. split.
        + intros r I. rewrite (LR r I). destruct order as [|o]; [lia|destruct (CELL o) as [_ [Q1 _]]; lia].
        + intros a Ha. apply CELL. exact Ha.
      - intros [F1 [F2 F3]]. destruct (ONLY _ _ F (seq 0 order) (fun x _ => FR x)) as [[ys [E _]]|E]; [exists ys; exact E|]. exfalso.
        assert (GOOD : forall l, (forall x, In x l -> x < order) -> exists ys, mapM F l = Ok ys).
        { induction l as [|x l IH]; intros B; [exists []; reflexivity|]. cbn [mapM].
          destruct IH as [ys IH]; [intros z I; apply B; right; exact I|]. pose proof (B x (or_introl eq_refl)) as X. unfold F at 1.
          assert (Hx : In (nth x rows []) rows) by (apply nth_In; lia).
          rewrite (mapM_Ok _ (fun c => (c, nth c (nth x rows []) 0))).
          2:{ intros c I. apply in_seq in I. rewrite ENT. pose proof (F2 _ Hx) as W1. rewrite (LR _ Hx) in W1.
              replace ((x <? List.length rows)%nat) with true by (symmetry; apply Nat.ltb_lt; lia).
              replace ((c <? w)%nat) with true by (symmetry; apply Nat.ltb_lt; lia). reflexivity. }
          cbn [bind]. destruct (filter _ _) as [|[c e] rest] eqn:FI; [|cbn [bind]; rewrite IH; eexists; reflexivity].
          exfalso. destruct (F3 x X) as [b [Hb Z]].
          assert (IN : In (b, 0) (filter (fun p => snd p =? 0)%nat (map (fun c => (c, nth c (nth x rows []) 0)) (seq 0 order)))).
          { apply filter_In. split; [|reflexivity]. apply in_map_iff. exists b. split; [rewrite Z; reflexivity|apply in_seq; lia]. }
          rewrite FI in IN. destruct IN. }
        destruct (GOOD (seq 0 order)) as [ys E']; [intros x I; apply in_seq in I; lia|]. congruence. }
    split.
    + intros -> NF. unfold make, group_init, compute_composition. rewrite C. cbn [bind]. unfold compute_inverses. fold F.
      destruct (ONLY _ _ F (seq 0 order) (fun x _ => FR x)) as [[ys [E _]]|E]; [|rewrite E; reflexivity].
      exfalso. apply NF, FOUND. exists ys. exact E.
    + intros GI. assert (exists iv, compute_inverses order t inverses = Ok iv /\ forall l, inverses = Some l -> iv = l) as [iv [IV IE]].
      { destruct inverses as [l|]; [exists l; split; [reflexivity|congruence]|]. destruct GI as [N|FO]; [congruence|].
        apply FOUND in FO as [l M]. exists l. split; [exact M|discriminate]. }
      assert (MK : make = sub <- compute_subgroup name order None subgroup ;; cos <- compute_cosets name order None sub cosets ;;
        Ok (mkGroup name order t iv sub cos (compute_action name None act))).
      { unfold make, group_init, compute_composition. rewrite C. cbn [bind]. rewrite IV. reflexivity. }
      split.
      * intros [->| ->]; rewrite MK; [reflexivity|]. destruct subgroup as [sub|]; reflexivity.
      * intros sub cos -> ->. rewrite MK. cbn [compute_subgroup compute_cosets bind]. eexists. split; [reflexivity|].
        cbn [g_name g_order g_subgroup g_cosets g_inverses]. split; [reflexivity|]. split; [reflexivity|]. split; [reflexivity|]. split; [reflexivity|].
        split; [exact IE|]. intros -> A ZA x axes new Ha. reflexivity.
Qed.
Print Assumptions C82_without_a_parent.

(** Two elements, with a table that is ragged, too small, without an inverse of 1, and right; and without the action. *)
Example C82_case_without_a_parent :
  let make rows sub := group_init "?" 2 None (Some rows) sub (Some []) None None in
  make [[0; 1]; [1]] (Some []) = Err ValueError /\ make [[0]] (Some []) = Err IndexError /\
  make [[0; 1]; [1; 1]] (Some []) = Err IndexError /\ make [[0; 1]; [1; 0]] None = Err AttributeError /\
  match make [[0; 1]; [1; 0]] (Some [("?", [0; 1])]) with
  | Ok G => g_inverses G = [0; 1] /\ action G (some_signal [2; 2]) [0%Z; 1%Z] 0 None (Some "") None = Err AttributeError
  | Err _ => False
  end.
Proof. vm_compute. repeat split. Qed.
