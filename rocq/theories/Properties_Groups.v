(** Properties C01-C15: the groups and their actions.

    Reading guide.  [dict_get group_dict name = Ok G] is [G = group_dict[name]].
    [comp G a b] is [G.composition[a][b]], [inv G a] is [G.inverses[a]].
    [action G x sp k ga acting domain] is [G.action(x, spatial_axes=sp,
    new_group_axis=k, group_axis=ga, acting_group=acting, domain_group=domain)];
    [Some ""] is the default and means the whole group, [domain = None] means a
    signal on the grid.  [slice k g y] is [y] at position [g] of axis [k].
    Everything else is in [Spec.v]. *)
From Coq Require Import Permutation.
From Verif Require Export LibraryLookup.
Local Open Scope string_scope.

(** The whole library is built without an exception. *)
Theorem C01_library_builds :
  map fst inits = map fst group_dict /\
  forall name r, In (name, r) inits -> exists G, r = Ok G /\ dict_get group_dict name = Ok G.
Proof.
  split; [unfold inits, group_dict, wallpaper_group_dict, space_group_dict; cbn [map fst app]; reflexivity|].
  assert (F : Forall (fun p => exists G, snd p = Ok G /\ dict_get group_dict (fst p) = Ok G) inits).
  { unfold inits.
    apply Forall_cons; [exists P1; split; [exact P1_init_eq|reflexivity]|].
    apply Forall_cons; [exists P2; split; [exact P2_init_eq|reflexivity]|].
    apply Forall_cons; [exists PMw; split; [exact PMw_init_eq|reflexivity]|].
    apply Forall_cons; [exists PMh; split; [exact PMh_init_eq|reflexivity]|].
    apply Forall_cons; [exists P2MM; split; [exact P2MM_init_eq|reflexivity]|].
    apply Forall_cons; [exists P4; split; [exact P4_init_eq|reflexivity]|].
    apply Forall_cons; [exists P4M; split; [exact P4M_init_eq|reflexivity]|].
    apply Forall_cons; [exists Oh; split; [exact Oh_init_eq|reflexivity]|].
    apply Forall_cons; [exists O3; split; [exact O_init_eq|reflexivity]|].
    apply Forall_cons; [exists D4h; split; [exact D4h_init_eq|reflexivity]|].
    apply Forall_cons; [exists D4; split; [exact D4_init_eq|reflexivity]|].
    apply Forall_nil. }
  intros name r I. exact (proj1 (Forall_forall _ _) F _ I).
Qed.
Print Assumptions C01_library_builds.

Theorem C01_library_groups_are_groups name G :
  dict_get group_dict name = Ok G ->
  g_name G = name /\
  is_group (g_order G) (comp G) (inv G) /\
  shape (g_composition G) = [g_order G; g_order G] /\
  List.length (g_inverses G) = g_order G /\
  g_order G = List.length (symmetries_of name) /\
  (forall a b, a < g_order G -> b < g_order G ->
     nth (comp G a b) (symmetries_of name) []
     = after (nth a (symmetries_of name) []) (nth b (symmetries_of name) [])).
Proof.
  intros D. apply lib_ok in D as [N OK]. rewrite (ok_order _ _ _ _ OK).
  split; [exact N|]. split; [exact (ok_is_group _ _ _ _ OK)|]. split; [exact (ok_cshape _ _ _ _ OK)|].
  split; [exact (ok_ilen _ _ _ _ OK)|]. split; [reflexivity|].
  intros a b A B. exact (proj2 (ok_comp _ _ _ _ OK a b A B)).
Qed.
Print Assumptions C01_library_groups_are_groups.

Example C01_case : dict_get group_dict "P4M" = Ok P4M /\ g_order P4M = 8 /\ comp P4M 4 1 = 7 /\ inv P4M 1 = 3.
Proof. split; [reflexivity|]. vm_compute. auto. Qed.

Theorem C02_derived_groups_are_groups P n name ext :
  shape (g_composition P) = [n; n] -> wf (g_composition P) -> is_group n (comp P) (inv P) ->
  NoDup (map fst (g_subgroup P)) ->
  dict_get (g_subgroup P) name = Ok ext ->
  NoDup ext -> hd_error ext = Some 0 -> (forall a, In a ext -> a < n) ->
  (forall a b, In a ext -> In b ext -> In (comp P a b) ext) ->
  (forall a, In a ext -> In (inv P a) ext) ->
  exists G, group_init name (List.length ext) None None None None None (Some P) = Ok G /\
    g_order G = List.length ext /\
    is_group (List.length ext) (comp G) (inv G) /\
    (forall a b, a < List.length ext -> b < List.length ext ->
       nth (comp G a b) ext 0 = comp P (nth a ext 0) (nth b ext 0)) /\
    (forall a, a < List.length ext -> nth (inv G a) ext 0 = inv P (nth a ext 0)) /\
    (forall H l, dict_get (g_subgroup G) H = Ok l <->
       exists m, dict_get (g_subgroup P) H = Ok m /\ incl m ext /\ l = map (fun a => index_of a ext) m).
Proof.
  intros S W GR NDk D ND F B CO CI.
  destruct (derived_group P n name ext S W GR) as [G [I [_ [O [_ [_ [GG [C [V SU]]]]]]]]].
  { constructor; assumption. }
  exists G. split; [exact I|]. split; [exact O|]. split; [exact GG|]. split; [exact C|]. split; [exact V|].
  intros H l. rewrite SU. apply sub_of_get. exact NDk.
Qed.
Print Assumptions C02_derived_groups_are_groups.

(** The derived group acts by the corresponding rows of the parent's action. *)
Theorem C02_derived_groups_act_as_in_parent P name order G ext {A} {ZA : Zero A} (x y : tensor A) sp k :
  group_init name order None None None None None (Some P) = Ok G ->
  dict_get (g_subgroup P) name = Ok ext ->
  g__action P A ZA x sp k = Ok y ->
  g__action G A ZA x sp k = take y (vec ext) k.
Proof.
  intros I D R. rewrite (derived_group_action P name order G ext x sp k I D), R. reflexivity.
Qed.
Print Assumptions C02_derived_groups_act_as_in_parent.

Example C02_case :
  hd_error D4_idx = Some 0 /\ dict_get (g_subgroup Oh) "D4" = Ok D4_idx /\
  forallb (fun a => forallb (fun b => mem (comp Oh a b) D4_idx) D4_idx && mem (inv Oh a) D4_idx) D4_idx = true.
Proof. vm_compute. auto. Qed.

Theorem C03_inverses_computed name order rows iv sub cos act parent :
  List.length rows = order -> (forall r, In r rows -> List.length r = order) ->
  is_group order (fun a b => nth b (nth a rows []) 0) iv ->
  exists G, group_init name order None (Some rows) (Some sub) (Some cos) act parent = Ok G /\
    (forall a b, a < order -> b < order -> comp G a b = nth b (nth a rows []) 0) /\
    List.length (g_inverses G) = order /\
    (forall a, a < order -> inv G a < order /\ comp G (inv G a) a = 0 /\ comp G a (inv G a) = 0).
Proof.
  intros L LR GR.
  destruct (init_inverses name order rows iv sub cos act parent L LR GR) as [G [I [_ [_ [_ [LI [C GG]]]]]]].
  exists G. split; [exact I|]. split; [exact C|]. split; [exact LI|]. intros a A. split; [|split].
  - exact (group_inv_closed _ _ _ GG a A).
  - exact (group_inv_l _ _ _ GG a A).
  - exact (group_inv_r _ _ _ GG a A).
Qed.
Print Assumptions C03_inverses_computed.

(** the cyclic group of order 3, which is not in the library *)
Example C03_case :
  is_group 3 (fun a b => nth b (nth a [[0; 1; 2]; [1; 2; 0]; [2; 0; 1]] []) 0) (fun a => nth a [0; 2; 1] 0) /\
  exists G, group_init "C3" 3 None (Some [[0; 1; 2]; [1; 2; 0]; [2; 0; 1]])
                       (Some []) (Some []) None None = Ok G /\ g_inverses G = [0; 2; 1].
Proof.
  split.
  - constructor; [lia|..]; intros;
      repeat match goal with H : ?a < 3 |- _ => is_var a; destruct a as [|[|[|?]]]; [| | |lia]; clear H end;
      cbn; auto; lia.
  - eexists. split; [reflexivity|]. reflexivity.
Qed.

(** C04: [composition[r][c]] means "first [c], then [r]", for every signal. *)
Theorem C04_composition_is_first_c_then_r name G {A} {ZA : Zero A} (x y z : tensor A) k sp r c :
  dict_get group_dict name = Ok G -> r < g_order G -> c < g_order G ->
  wf x -> k <= rank x -> spatial_axes_ok (dimension_of name) sp (rank x) ->
  action G x (map Z.of_nat sp) (Z.of_nat k) None (Some "") None = Ok y ->
  action G (slice k c y) (map Z.of_nat sp) (Z.of_nat k) None (Some "") None = Ok z ->
  slice k r z = slice k (comp G r c) y.
Proof.
  intros D R C W K SP E1 E2. apply lib_ok in D as [_ OK]. rewrite (ok_order _ _ _ _ OK) in R, C.
  destruct (grid_left_action _ _ _ _ OK x y k sp None W K SP E1) as [_ L].
  destruct (L c C) as [z' [Z H]]. rewrite E2 in Z. injection Z as <-. apply H. exact R.
Qed.
Print Assumptions C04_composition_is_first_c_then_r.

(** In P4M: first the mirror 4, then the rotation 1 is element 5, and the other order is
    element 7, a different picture. *)
Example C04_case :
  (y <- action P4M (mkTensor [2; 2] [1; 2; 3; 4]) [0; 1]%Z 2 None (Some "") None ;;
   z <- action P4M (slice 2 4 y) [0; 1]%Z 2 None (Some "") None ;;
   w <- action P4M (slice 2 1 y) [0; 1]%Z 2 None (Some "") None ;;
   Ok ([comp P4M 1 4; comp P4M 4 1], map (@data nat) [slice 2 1 z; slice 2 5 y; slice 2 4 w; slice 2 7 y]))
  = Ok ([5; 7], [[1; 3; 2; 4]; [1; 3; 2; 4]; [4; 2; 3; 1]; [4; 2; 3; 1]]).
Proof. vm_compute. reflexivity. Qed.


(** The docstring of [Group] ("composing the inverse of the rth element with the
    cth element") describes a different table. *)
Theorem C04_docstring_refuted :
  ~ (forall name G r c, dict_get group_dict name = Ok G -> r < g_order G -> c < g_order G ->
       nth (comp G r c) (symmetries_of name) []
       = after (nth (inv G r) (symmetries_of name) []) (nth c (symmetries_of name) [])).
Proof.
  intros H. specialize (H "P4" P4 1 0 eq_refl). revert H. vm_compute. intros H.
  discriminate (H ltac:(lia) ltac:(lia)).
Qed.
Print Assumptions C04_docstring_refuted.

Theorem C05_grid_action_is_a_left_action name G {A} {ZA : Zero A} (x y : tensor A) k sp :
  dict_get group_dict name = Ok G ->
  wf x -> k <= rank x -> spatial_axes_ok (dimension_of name) sp (rank x) ->
  action G x (map Z.of_nat sp) (Z.of_nat k) None (Some "") None = Ok y ->
  slice k 0 y = x /\
  forall g, g < g_order G -> exists z,
    action G (slice k g y) (map Z.of_nat sp) (Z.of_nat k) None (Some "") None = Ok z /\
    forall h, h < g_order G -> slice k h z = slice k (comp G h g) y.
Proof.
  intros D W K SP R. apply lib_ok in D as [_ OK]. rewrite (ok_order _ _ _ _ OK).
  exact (grid_left_action _ _ _ _ OK x y k sp None W K SP R).
Qed.
Print Assumptions C05_grid_action_is_a_left_action.

Definition picture : tensor nat := mkTensor [2; 2] [1; 2; 3; 4].
Example C05_case :
  exists y, action P4 picture [0; 1]%Z 2 None (Some "") None = Ok y /\
    map (fun g => data (slice 2 g y)) [0; 1; 2; 3] = [[1; 2; 3; 4]; [2; 4; 1; 3]; [4; 3; 2; 1]; [3; 1; 4; 2]].
Proof. eexists. split; vm_compute; reflexivity. Qed.

Theorem C06_what_each_element_does name G {A} {ZA : Zero A} (x y : tensor A) k sp :
  dict_get group_dict name = Ok G ->
  wf x -> k <= rank x -> spatial_axes_ok (dimension_of name) sp (rank x) ->
  action G x (map Z.of_nat sp) (Z.of_nat k) None (Some "") None = Ok y ->
  forall g, g < g_order G ->
    slice k g y = transformed (nth g (symmetries_of name) []) sp x /\
    Permutation (data (slice k g y)) (data x).
Proof.
  intros D W K SP R g HG. apply lib_ok in D as [_ OK]. rewrite (ok_order _ _ _ _ OK) in HG.
  destruct (grid_action_slices _ _ _ _ OK x y k sp None (Some "") _ W K SP (sub_idx_whole _ _ _ _ OK) R) as [_ [_ H]].
  specialize (H g). rewrite seq_length, nth_seq0 in H by exact HG. apply H. exact HG.
Qed.
Print Assumptions C06_what_each_element_does.

(** The specification of the Oh family says what the README says. *)
Theorem C06_symmetries_of_the_cube e :
  In e Oh_symmetries <-> is_symmetry 3 e.
Proof.
  split.
  - intros I. unfold Oh_symmetries in I. apply in_flat_map in I as [p [P I]]. apply in_map_iff in I as [f [<- F]].
    cbn [In] in P, F.
    apply is_symmetryb_ok.
    repeat (destruct P as [<-|P]; [repeat (destruct F as [<-|F]; [reflexivity|]); destruct F|]); destruct P.
  - intros [L H].
    destruct e as [|[p0 r0] [|[p1 r1] [|[p2 r2] [|]]]]; try discriminate L. clear L.
    assert (H0 := H 0 ltac:(lia)). assert (H1 := H 1 ltac:(lia)). assert (H2 := H 2 ltac:(lia)). clear H.
    cbn [map fst In] in H0, H1, H2.
    assert (B : (p0 < 3 /\ p1 < 3 /\ p2 < 3) /\ p0 <> p1 /\ p1 <> p2 /\ p0 <> p2) by lia.
    destruct B as [[B0 [B1 B2]] NE].
    assert (X : existsb (sym_eqb [(p0, r0); (p1, r1); (p2, r2)]) Oh_symmetries = true).
    { destruct p0 as [|[|[|]]]; destruct p1 as [|[|[|]]]; destruct p2 as [|[|[|]]]; try lia;
      destruct r0, r1, r2; vm_compute; reflexivity. }
    apply existsb_exists in X as [e [I Q]]. apply sym_eqb_eq in Q. rewrite Q. exact I.
Qed.
Print Assumptions C06_symmetries_of_the_cube.

Example C06_case : map quarters [1; 2; 3] = [[(1, false); (0, true)]; [(0, true); (1, true)]; [(1, true); (0, false)]].
Proof. reflexivity. Qed.

(** C07 *)
Definition distinct_rows (name : string) (G : group) : bool :=
  let d := dimension_of name in
  match action G (tab (repeat 2 d) (ravel (repeat 2 d))) (map Z.of_nat (seq 0 d)) 0 None (Some "") None with
  | Ok y => nodupb (list_eqb Nat.eqb) (map (fun g => data (slice 0 g y)) (seq 0 (g_order G)))
  | Err _ => false
  end.

Lemma distinct_rows_all : Forall (fun p => distinct_rows (fst p) (snd p) = true) group_dict.
Proof.
  unfold group_dict, wallpaper_group_dict, space_group_dict.
  repeat (apply Forall_cons; [cbn [fst snd]; vm_compute; reflexivity|]). apply Forall_nil.
Qed.

Theorem C07_distinct_elements_act_differently name G g h :
  dict_get group_dict name = Ok G -> g < g_order G -> h < g_order G -> g <> h ->
  exists x y : tensor nat,
    shape x = repeat 2 (dimension_of name) /\ wf x /\
    action G x (map Z.of_nat (seq 0 (dimension_of name))) 0 None (Some "") None = Ok y /\
    slice 0 g y <> slice 0 h y.
Proof.
  intros D HG HH NE. pose proof (proj1 (Forall_forall _ _) distinct_rows_all _ (dict_get_In _ _ _ D)) as C.
  cbn [fst snd] in C. unfold distinct_rows in C.
  match type of C with context[action G ?x _ _ _ _ _] => exists x end.
  destruct (action G _ _ _ _ _ _) as [y|e]; [|discriminate C]. exists y.
  split; [apply shape_tab|]. split; [apply wf_tab|]. split; [reflexivity|]. intros Q. apply NE.
  apply nodupb_NoDup in C; [|apply list_eqb_eq; apply Nat.eqb_eq].
  set (f := fun g => data (slice 0 g y)) in C.
  apply (proj1 (NoDup_nth _ (f 0)) C); rewrite ?map_length, ?seq_length; try assumption.
  rewrite !map_nth, !seq_nth by assumption. unfold f. cbn [Nat.add]. rewrite Q. reflexivity.
Qed.
Print Assumptions C07_distinct_elements_act_differently.

(** The eight pictures of P4M. *)
Example C07_case :
  exists y : tensor nat, action P4M (mkTensor [2; 2] [1; 2; 3; 4]) [0; 1]%Z 0 None (Some "") None = Ok y /\
    map (fun g => data (slice 0 g y)) (seq 0 8)
    = [[1; 2; 3; 4]; [2; 4; 1; 3]; [4; 3; 2; 1]; [3; 1; 4; 2]; [2; 1; 4; 3]; [1; 3; 2; 4]; [3; 4; 1; 2]; [4; 2; 3; 1]].
Proof. eexists. split; vm_compute; reflexivity. Qed.


Theorem C07_orders :
  map (fun p => (fst p, g_order (snd p))) group_dict
  = [("P1", 1); ("P2", 2); ("PMw", 2); ("PMh", 2); ("P2MM", 4); ("P4", 4); ("P4M", 8);
     ("Oh", 48); ("O", 24); ("D4h", 16); ("D4", 8)].
Proof. vm_compute. reflexivity. Qed.
Print Assumptions C07_orders.

Theorem C08_shape_of_grid_action name G {A} {ZA : Zero A} (x y : tensor A) k sp H idx :
  dict_get group_dict name = Ok G -> dict_get (g_subgroup G) H = Ok idx ->
  wf x -> k <= rank x -> spatial_axes_ok (dimension_of name) sp (rank x) ->
  action G x (map Z.of_nat sp) (Z.of_nat k) None (Some H) None = Ok y ->
  wf y /\ shape y = insert_at k (List.length idx) (shape x).
Proof.
  intros D DH W K SP R. destruct (lib_sub name G H idx D DH) as [_ [_ [NE _]]].
  apply lib_ok in D as [_ OK].
  destruct (grid_action_slices _ _ _ _ OK x y k sp None (Some H) idx W K SP (sub_idx_some _ _ _ NE DH) R) as [X [Y _]].
  split; assumption.
Qed.
Print Assumptions C08_shape_of_grid_action.

(** also for a signal on a subgroup *)
Theorem C08_shape_of_group_action name G {A} {ZA : Zero A} (x y : tensor A) nga ga sp H idx H' idx' :
  dict_get group_dict name = Ok G -> dict_get (g_subgroup G) H = Ok idx -> dict_get (g_subgroup G) H' = Ok idx' ->
  wf x -> nga <= rank x -> ga < rank x -> spatial_axes_ok (dimension_of name) sp (rank x) -> ~ In ga sp ->
  nth ga (shape x) 0 = List.length idx' ->
  action G x (map Z.of_nat sp) (Z.of_nat nga) (Some (Z.of_nat ga)) (Some H) (Some H') = Ok y ->
  wf y /\ shape y = insert_at nga (List.length idx) (shape x).
Proof.
  intros D DH DH' W K GA SP NI LG R. destruct (lib_sub name G H idx D DH) as [_ [_ [NE _]]].
  destruct (lib_sub name G H' idx' D DH') as [_ [_ [NE' _]]].
  apply lib_ok in D as [_ OK].
  destruct (group_action_slices _ _ _ _ OK x y sp ga nga (Some H) (Some H') idx idx') as [X [Y _]]; try assumption.
  - exact (sub_idx_some _ _ _ NE DH).
  - exact (sub_idx_some _ _ _ NE' DH').
  - split; assumption.
Qed.
Print Assumptions C08_shape_of_group_action.

Example C08_case :
  exists y, action P4M (mkTensor [1; 3; 3; 2] (seq 0 18)) [1; 2]%Z 3 None (Some "P4") None = Ok y /\
            shape y = [1; 3; 3; 4; 2].
Proof. eexists. split; vm_compute; reflexivity. Qed.

Lemma acting_listed G d E eq : group_ok G d E eq -> forall H, H = "" \/ In H (map fst (g_subgroup G)) -> exists idx, sub_idx G (Some H) idx.
Proof.
  intros OK H HH. destruct (String.eqb_spec H "") as [->|NE]; [eexists; apply (sub_idx_whole _ _ _ _ OK)|].
  destruct HH as [HH|HH]; [contradiction|]. destruct (dict_get (g_subgroup G) H) as [idx|] eqn:DH.
  - exists idx. apply sub_idx_some; assumption.
  - exfalso. clear - HH DH. induction (g_subgroup G) as [|[k v] l IH]; [exact HH|]. cbn [dict_get map fst In] in *.
    destruct (String.eqb_spec H k); [discriminate|]. destruct HH as [HH|HH]; [congruence|auto].
Qed.

(** [H] is the acting subgroup ("" for the whole group).  The condition does not depend
    on it: acting with a subgroup that exchanges no axes does not relax it. *)
Theorem C09_accepted_shapes name G {A} {ZA : Zero A} (x : tensor A) k sp H :
  dict_get group_dict name = Ok G -> name <> "D4h" -> name <> "D4" ->
  H = "" \/ In H (map fst (g_subgroup G)) ->
  wf x -> k <= rank x -> spatial_axes_ok (dimension_of name) sp (rank x) ->
  (exists y, action G x (map Z.of_nat sp) (Z.of_nat k) None (Some H) None = Ok y) <->
  (forall e, In e (symmetries_of name) -> fits e (gather sp (shape x))).
Proof.
  intros D N1 N2 HH W K SP. apply lib_ok in D as [_ OK]. destruct (acting_listed _ _ _ _ OK H HH) as [idx SW]. split.
  - intros [y R] e I. destruct (grid_action_ok _ _ _ _ OK x y k sp None (Some H) _ W K SP SW R) as [AC _].
    destruct (In_nth _ _ [] I) as [a [HA <-]]. apply (accepts_fits _ _ _ _ OK); try assumption. apply SP.
  - intros F. rewrite <- (tab_at x W). eexists.
    apply (action_grid _ _ _ _ OK (shape x) (at_ x) k sp None (Some H) idx K SP); [|exact SW].
    intros Q. apply (fits_needed name); try assumption. rewrite length_gather. apply SP.
Qed.
Print Assumptions C09_accepted_shapes.

(** D4h and D4 insist on cubes. *)
Theorem C09_D4h_D4_accept_only_cubes name G {A} {ZA : Zero A} (x : tensor A) k sp H :
  dict_get group_dict name = Ok G -> name = "D4h" \/ name = "D4" ->
  H = "" \/ In H (map fst (g_subgroup G)) ->
  wf x -> k <= rank x -> spatial_axes_ok 3 sp (rank x) ->
  (exists y, action G x (map Z.of_nat sp) (Z.of_nat k) None (Some H) None = Ok y) <->
  all_equal (gather sp (shape x)).
Proof.
  intros D N HH W K SP. apply lib_ok in D as [_ OK]. destruct (acting_listed _ _ _ _ OK H HH) as [idx SW].
  assert (Q : needs_equal_sizes name = true /\ dimension_of name = 3) by (destruct N as [-> | ->]; split; reflexivity).
  destruct Q as [Q Q']. rewrite Q' in *. split.
  - intros [y R]. destruct (grid_action_ok _ _ _ _ OK x y k sp None (Some H) _ W K SP SW R) as [AC _].
    exact (AC Q).
  - intros F. rewrite <- (tab_at x W). eexists.
    apply (action_grid _ _ _ _ OK (shape x) (at_ x) k sp None (Some H) idx K SP); [|exact SW]. intros _. exact F.
Qed.
Print Assumptions C09_D4h_D4_accept_only_cubes.

(** so the README's description (groups that fix the third axis need only height
    and width to agree) is not what the code does *)
Theorem C09_D4_cuboid_refuted :
  exists (x : tensor nat), shape x = [2; 2; 1] /\ wf x /\
    (forall e, In e D4_symmetries -> fits e (shape x)) /\
    exists err, action D4 x [0; 1; 2]%Z 0 None (Some "") None = Err err.
Proof.
  exists (mkTensor [2; 2; 1] [0; 1; 2; 3]). split; [reflexivity|]. split; [reflexivity|]. split.
  - intros e I. unfold D4_symmetries, D4h_symmetries in I. apply filter_In in I as [I _].
    apply filter_In in I as [I T]. apply C06_symmetries_of_the_cube in I as [L S].
    destruct e as [|[p0 r0] [|[p1 r1] [|[p2 r2] [|]]]]; try discriminate L.
    assert (H0 := S 0 ltac:(lia)). assert (H1 := S 1 ltac:(lia)). cbn [map fst In] in H0, H1.
    unfold third_axis_kept in T. cbn [nth fst] in T. apply Nat.eqb_eq in T. subst p2.
    assert (B : p0 < 2 /\ p1 < 2) by lia. destruct B as [B0 B1].
    intros m M. cbn in M. destruct m as [|[|[|]]]; [| | |lia]; cbn.
    + destruct p0 as [|[|]]; [auto|auto|lia].
    + destruct p1 as [|[|]]; [auto|auto|lia].
    + auto.
  - eexists. vm_compute. reflexivity.
Qed.
Print Assumptions C09_D4_cuboid_refuted.

Example C09_case :
  is_ok (action P2MM (mkTensor [2; 3] (seq 0 6)) [0; 1]%Z 0 None (Some "") None) = true /\
  is_ok (action P4 (mkTensor [2; 3] (seq 0 6)) [0; 1]%Z 0 None (Some "") None) = false /\
  (* half turns alone would keep the rectangle *)
  is_ok (action P4 (mkTensor [2; 3] (seq 0 6)) [0; 1]%Z 0 None (Some "P2") None) = false /\
  is_ok (action P4 (mkTensor [3; 3] (seq 0 9)) [0; 1]%Z 0 None (Some "P2") None) = true.
Proof. repeat split; vm_compute; reflexivity. Qed.

Theorem C10_action_on_group_signals name G {A} {ZA : Zero A} (x y : tensor A) sp ga nga :
  dict_get group_dict name = Ok G ->
  wf x -> ga < rank x -> nga <= rank x -> spatial_axes_ok (dimension_of name) sp (rank x) -> ~ In ga sp ->
  nth ga (shape x) 0 = g_order G ->
  action G x (map Z.of_nat sp) (Z.of_nat nga) (Some (Z.of_nat ga)) (Some "") (Some "") = Ok y ->
  (forall g h, g < g_order G -> h < g_order G ->
     slice ga h (slice nga g y)
     = transformed (nth g (symmetries_of name) []) (map (without ga) sp) (slice ga (comp G (inv G g) h) x)) /\
  slice nga 0 y = x /\
  (forall g, g < g_order G -> exists z,
    action G (slice nga g y) (map Z.of_nat sp) (Z.of_nat nga) (Some (Z.of_nat ga)) (Some "") (Some "") = Ok z /\
    forall h, h < g_order G -> slice nga h z = slice nga (comp G h g) y).
Proof.
  intros D W GA NGA SP NI LG R. apply lib_ok in D as [_ OK]. rewrite (ok_order _ _ _ _ OK) in *.
  pose proof (sub_idx_whole _ _ _ _ OK) as SW. split.
  - intros g h HG HH.
    destruct (group_action_slices _ _ _ _ OK x y sp ga nga (Some "") (Some "") _ _ W GA NGA SP NI SW SW) as [_ [_ X]];
      [rewrite seq_length; exact LG|exact R|].
    specialize (X g h). rewrite seq_length in X. rewrite (X HG HH). rewrite !nth_seq0 by assumption.
    rewrite at_element_whole; [reflexivity|].
    apply (ok_comp _ _ _ _ OK); [apply (ok_inv _ _ _ _ OK)|]; assumption.
  - exact (group_left_action _ _ _ _ OK x y sp ga nga W GA NGA SP NI LG R).
Qed.
Print Assumptions C10_action_on_group_signals.

(** A signal on a subgroup [D] acted on by a subgroup [H]: values outside [D] count
    as zero. *)
Theorem C10_action_on_subgroup_signals name G {A} {ZA : Zero A} (x y : tensor A) sp ga nga H act Dm dom :
  dict_get group_dict name = Ok G ->
  dict_get (g_subgroup G) H = Ok act -> dict_get (g_subgroup G) Dm = Ok dom ->
  wf x -> ga < rank x -> nga <= rank x -> spatial_axes_ok (dimension_of name) sp (rank x) -> ~ In ga sp ->
  nth ga (shape x) 0 = List.length dom ->
  action G x (map Z.of_nat sp) (Z.of_nat nga) (Some (Z.of_nat ga)) (Some H) (Some Dm) = Ok y ->
  forall a h, a < List.length act -> h < List.length dom ->
    let p := comp G (inv G (nth a act 0)) (nth h dom 0) in
    (forall q, q < List.length dom -> nth q dom 0 = p ->
       slice ga h (slice nga a y)
       = transformed (nth (nth a act 0) (symmetries_of name) []) (map (without ga) sp) (slice ga q x)) /\
    (~ In p dom -> slice ga h (slice nga a y) = zeros (remove_at ga (shape x))).
Proof.
  intros D DH DD W GA NGA SP NI LG R a h HA HH p.
  destruct (lib_sub _ _ _ _ D DH) as [_ [_ [NE _]]]. destruct (lib_sub _ _ _ _ D DD) as [_ [_ [NE' _]]].
  apply lib_ok in D as [_ OK].
  destruct (group_action_slices _ _ _ _ OK x y sp ga nga (Some H) (Some Dm) act dom W GA NGA SP NI) as [_ [_ X]];
    [exact (sub_idx_some _ _ _ NE DH)|exact (sub_idx_some _ _ _ NE' DD)|exact LG|exact R|].
  destruct (ok_sub _ _ _ _ OK _ _ DD) as [ND _].
  specialize (X a h HA HH). rewrite X. fold p. split.
  - intros q Q E. unfold at_element. rewrite (proj2 (mem_In _ _)) by (rewrite <- E; apply nth_In; exact Q).
    rewrite <- E, index_of_nth by assumption. reflexivity.
  - intros NIN. unfold at_element. destruct (mem p dom) eqn:M; [apply mem_In in M; contradiction|].
    unfold transformed, zeros. rewrite shape_tab. apply tab_ext. intros i I.
    unfold at_, tab. cbn [data shape].
    match goal with |- nth ?m (map _ ?l) _ = _ => exact (map_nth (fun _ : list nat => zero) l [] m) end.
Qed.
Print Assumptions C10_action_on_subgroup_signals.

Example C10_case :
  exists y, action P2 (mkTensor [2; 1; 2] [1; 2; 3; 4]) [0; 1]%Z 0 (Some 2%Z) (Some "") (Some "") = Ok y /\
            data y = [1; 2; 3; 4; 4; 3; 2; 1].
Proof. eexists. split; vm_compute; reflexivity. Qed.

Theorem C11_subgroup_object_acts_alike name G H idx K {A} {ZA : Zero A} (x y : tensor A) sp ga nga :
  dict_get group_dict name = Ok G -> dict_get (g_subgroup G) H = Ok idx -> dict_get group_dict H = Ok K ->
  wf x -> ga < rank x -> nga <= rank x -> spatial_axes_ok (dimension_of name) sp (rank x) -> ~ In ga sp ->
  nth ga (shape x) 0 = g_order K ->
  action G x (map Z.of_nat sp) (Z.of_nat nga) (Some (Z.of_nat ga)) (Some H) (Some H) = Ok y ->
  action K x (map Z.of_nat sp) (Z.of_nat nga) (Some (Z.of_nat ga)) (Some "") (Some "") = Ok y.
Proof.
  intros D DH DK W GA NGA SP NI LG R.
  destruct (lib_sub _ _ _ _ D DH) as [K' [DK' [NE [OKK EE]]]]. rewrite DK in DK'. injection DK' as <-.
  destruct (lib_dims _ _ _ _ _ D DH DK) as [GD KD]. apply lib_ok in D as [_ OK].
  rewrite (ok_order _ _ _ _ OKK), (sub_length _ _ _ _ OK _ _ DH GD) in LG.
  exact (sub_group_action _ _ _ _ OK K _ H idx DH OKK GD x y sp ga nga W GA NGA SP NI EE LG NE R).
Qed.
Print Assumptions C11_subgroup_object_acts_alike.

(** and the hypothesis "[G] accepts" only asks for the sizes [G] needs *)
Theorem C11_group_accepts name G H idx {A} {ZA : Zero A} (x : tensor A) sp ga nga :
  dict_get group_dict name = Ok G -> dict_get (g_subgroup G) H = Ok idx ->
  wf x -> ga < rank x -> nga <= rank x -> spatial_axes_ok (dimension_of name) sp (rank x) -> ~ In ga sp ->
  nth ga (shape x) 0 = List.length idx -> all_equal (gather sp (shape x)) ->
  exists y, action G x (map Z.of_nat sp) (Z.of_nat nga) (Some (Z.of_nat ga)) (Some H) (Some H) = Ok y.
Proof.
  intros D DH W GA NGA SP NI LG AE. destruct (lib_sub _ _ _ _ D DH) as [_ [_ [NE _]]].
  apply lib_ok in D as [_ OK]. rewrite <- (tab_at x W). eexists.
  apply (action_group _ _ _ _ OK (shape x) (at_ x) sp ga nga (Some H) (Some H) idx idx GA NGA SP NI); [intros _; exact AE|..|exact LG];
    exact (sub_idx_some _ _ _ NE DH).
Qed.
Print Assumptions C11_group_accepts.

(** and is needed: the reflection of a non-square image is an element of P4M, but
    [P4M.action] asks for square images whatever the acting group is. *)
Theorem C11_every_shape_refuted :
  ~ (forall name G H idx K (x y : tensor nat) sp ga nga,
       dict_get group_dict name = Ok G -> dict_get (g_subgroup G) H = Ok idx -> dict_get group_dict H = Ok K ->
       wf x -> ga < rank x -> nga <= rank x -> spatial_axes_ok (dimension_of name) sp (rank x) -> ~ In ga sp ->
       nth ga (shape x) 0 = g_order K ->
       action K x (map Z.of_nat sp) (Z.of_nat nga) (Some (Z.of_nat ga)) (Some ""%string) (Some ""%string) = Ok y ->
       action G x (map Z.of_nat sp) (Z.of_nat nga) (Some (Z.of_nat ga)) (Some H) (Some H) = Ok y).
Proof.
  intros Q.
  assert (R : exists y, action PMw (mkTensor [1; 3; 2] [1; 2; 3; 4; 5; 6]) [0; 1]%Z 0 (Some 2%Z) (Some ""%string) (Some ""%string) = Ok y)
    by (eexists; vm_compute; reflexivity).
  destruct R as [y R].
  assert (S : spatial_axes_ok 2 [0; 1] 3).
  { split; [reflexivity|]. split; [repeat constructor; cbn; intuition lia|]. split; [intros a [<-|[<-|[]]]; lia|discriminate]. }
  assert (E : action P4M (mkTensor [1; 3; 2] [1; 2; 3; 4; 5; 6]) [0; 1]%Z 0 (Some 2%Z) (Some "PMw"%string) (Some "PMw"%string) = Ok y).
  { apply (Q "P4M"%string P4M "PMw"%string [0; 4] PMw (mkTensor [1; 3; 2] [1; 2; 3; 4; 5; 6]) y [0; 1] 2 0);
      [vm_compute; reflexivity|vm_compute; reflexivity|vm_compute; reflexivity|reflexivity|cbn; lia|lia|exact S
      |intros [V|[V|[]]]; discriminate V|vm_compute; reflexivity|exact R]. }
  vm_compute in E. discriminate E.
Qed.
Print Assumptions C11_every_shape_refuted.

Example C11_case :
  exists y, action P4M (mkTensor [1; 1; 2; 1] [5; 7]) [0; 1]%Z 3 (Some 2%Z) (Some "P2") (Some "P2") = Ok y /\
            action P2 (mkTensor [1; 1; 2; 1] [5; 7]) [0; 1]%Z 3 (Some 2%Z) (Some "") (Some "") = Ok y.
Proof. eexists. split; vm_compute; reflexivity. Qed.

Theorem C12_subgroup_rows_of_grid_action name G H idx K {A} {ZA : Zero A} (x y : tensor A) k sp :
  dict_get group_dict name = Ok G -> dict_get (g_subgroup G) H = Ok idx -> dict_get group_dict H = Ok K ->
  wf x -> k <= rank x -> spatial_axes_ok (dimension_of name) sp (rank x) ->
  action G x (map Z.of_nat sp) (Z.of_nat k) None (Some "") None = Ok y ->
  exists z, take y (vec idx) (Z.of_nat k) = Ok z /\
    action G x (map Z.of_nat sp) (Z.of_nat k) None (Some H) None = Ok z /\
    action K x (map Z.of_nat sp) (Z.of_nat k) None (Some "") None = Ok z.
Proof.
  intros D DH DK W KK SP R.
  destruct (lib_sub _ _ _ _ D DH) as [K' [DK' [NE [OKK EE]]]]. rewrite DK in DK'. injection DK' as <-.
  destruct (lib_dims _ _ _ _ _ D DH DK) as [GD KD]. apply lib_ok in D as [_ OK].
  exact (sub_grid_action _ _ _ _ OK K _ H idx DH OKK GD x y k sp None W KK SP EE R NE).
Qed.
Print Assumptions C12_subgroup_rows_of_grid_action.

Example C12_case :
  exists z, action P4M picture [0; 1]%Z 0 None (Some "P4") None = Ok z /\
            action P4 picture [0; 1]%Z 0 None (Some "") None = Ok z /\ shape z = [4; 2; 2].
Proof. eexists. split; [vm_compute; reflexivity|]. split; vm_compute; reflexivity. Qed.

Theorem C13_upsample_extends_by_zero name G H idx {A} {ZA : Zero A} (x : tensor A) ga :
  dict_get group_dict name = Ok G -> dict_get (g_subgroup G) H = Ok idx ->
  wf x -> ga < rank x -> nth ga (shape x) 0 = List.length idx ->
  exists y, upsample G x (Z.of_nat ga) (Some H) = Ok y /\ wf y /\ shape y = upd ga (g_order G) (shape x) /\
    (forall a, a < List.length idx -> slice ga (nth a idx 0) y = slice ga a x) /\
    (forall g, g < g_order G -> ~ In g idx -> slice ga g y = zeros (remove_at ga (shape x))).
Proof.
  intros D DH W GA LG. apply lib_ok in D as [_ OK]. rewrite (ok_order _ _ _ _ OK).
  exact (upsample_spec _ _ _ _ OK x ga H idx W GA DH LG).
Qed.
Print Assumptions C13_upsample_extends_by_zero.

Theorem C13_upsample_commutes_with_action name G H idx {A} {ZA : Zero A} (x y z : tensor A) sp ga nga :
  dict_get group_dict name = Ok G -> dict_get (g_subgroup G) H = Ok idx ->
  wf x -> ga < rank x -> nga <= rank x -> spatial_axes_ok (dimension_of name) sp (rank x) -> ~ In ga sp ->
  nth ga (shape x) 0 = List.length idx ->
  upsample G x (Z.of_nat ga) (Some H) = Ok y ->
  action G x (map Z.of_nat sp) (Z.of_nat nga) (Some (Z.of_nat ga)) (Some H) (Some H) = Ok z ->
  let ga' := if (nga <=? ga)%nat then S ga else ga in
  exists w,
    action G y (map Z.of_nat sp) (Z.of_nat nga) (Some (Z.of_nat ga)) (Some H) (Some "") = Ok w /\
    upsample G z (Z.of_nat ga') (Some H) = Ok w.
Proof.
  intros D DH W GA NGA SP NI LG U R. destruct (lib_sub _ _ _ _ D DH) as [_ [_ [NE _]]].
  apply lib_ok in D as [_ OK].
  exact (upsample_commutes _ _ _ _ OK x y z sp ga nga H idx W GA NGA SP NI DH NE LG U R).
Qed.
Print Assumptions C13_upsample_commutes_with_action.

Example C13_case :
  exists y, upsample P4 (mkTensor [2; 2] [5; 6; 7; 8]) 1 (Some "P2") = Ok y /\ data y = [5; 0; 6; 0; 7; 0; 8; 0].
Proof. eexists. split; vm_compute; reflexivity. Qed.

Theorem C14_subgroup_lists name G H idx :
  dict_get group_dict name = Ok G -> dict_get (g_subgroup G) H = Ok idx ->
  NoDup idx /\ hd_error idx = Some 0 /\ (forall a, In a idx -> a < g_order G) /\
  (forall a b, In a idx -> In b idx -> In (comp G (inv G a) b) idx) /\
  exists K, dict_get group_dict H = Ok K /\ g_order K = List.length idx /\
    (forall a, a < List.length idx ->
       nth a (symmetries_of H) [] = nth (nth a idx 0) (symmetries_of name) []) /\
    (forall a b, a < List.length idx -> b < List.length idx ->
       nth (comp K a b) idx 0 = comp G (nth a idx 0) (nth b idx 0)) /\
    (forall a, a < List.length idx -> nth (inv K a) idx 0 = inv G (nth a idx 0)) /\
    (forall L l m, dict_get (g_subgroup K) L = Ok l -> dict_get (g_subgroup G) L = Ok m ->
       map (fun a => nth a idx 0) l = m).
Proof.
  intros D DH. destruct (lib_sub _ _ _ _ D DH) as [K [DK [_ [OKK _]]]].
  destruct (lib_dims _ _ _ _ _ D DH DK) as [GD KD].
  apply lib_ok in D as [_ OK]. destruct (ok_sub _ _ _ _ OK _ _ DH) as [ND [B [F [_ [_ [CL _]]]]]].
  rewrite (ok_order _ _ _ _ OK).
  split; [exact ND|]. split; [exact F|]. split; [exact B|]. split; [exact CL|].
  exists K. split; [exact DK|].
  split; [rewrite (ok_order _ _ _ _ OKK); exact (sub_length _ _ _ _ OK _ _ DH GD)|].
  split; [exact (sub_nth _ _ _ _ OK _ _ DH GD)|].
  split; [intros a b A B'; exact (proj2 (sub_comp _ _ _ _ OK K _ H idx DH OKK GD a b A B'))|].
  split; [intros a A; exact (proj2 (sub_inv _ _ _ _ OK K _ H idx DH OKK GD a A))|].
  exact (sub_lists _ _ _ _ OK K _ H idx DH OKK GD KD).
Qed.
Print Assumptions C14_subgroup_lists.

(** The lists of P4M and of P4: P2 is [0; 2] in both, and P4 is a prefix of P4M. *)
Example C14_case :
  (g_subgroup P4M, g_subgroup P4, [comp P4 1 1; comp P4M 1 1])
  = ([("P4M", [0; 1; 2; 3; 4; 5; 6; 7]); ("P4", [0; 1; 2; 3]); ("P2MM", [0; 4; 6; 2]); ("PMw", [0; 4]); ("PMh", [0; 6]);
      ("P2", [0; 2]); ("P1", [0])],
     [("P4", [0; 1; 2; 3]); ("P2", [0; 2]); ("P1", [0])], [2; 2]).
Proof. vm_compute. reflexivity. Qed.


(** Which subgroup names a group knows.  [P2] is a subgroup of [P2MM] (its half
    turn is element 3) but [P2MM.subgroup] does not list it. *)
Theorem C14_subgroup_names :
  map (fun p => (fst p, map fst (g_subgroup (snd p)))) group_dict
  = [("P1", ["P1"]); ("P2", ["P2"; "P1"]); ("PMw", ["PMw"; "P1"]); ("PMh", ["PMh"; "P1"]);
     ("P2MM", ["P2MM"; "PMh"; "PMw"; "P1"]); ("P4", ["P4"; "P2"; "P1"]);
     ("P4M", ["P4M"; "P4"; "P2MM"; "PMw"; "PMh"; "P2"; "P1"]);
     ("Oh", ["Oh"; "O"; "D4h"; "D4"]); ("O", ["O"; "D4"]); ("D4h", ["D4h"; "D4"]); ("D4", ["D4"])].
Proof. vm_compute. reflexivity. Qed.
Print Assumptions C14_subgroup_names.

Theorem C15_cosets_factor_uniquely name G H idx g :
  dict_get group_dict name = Ok G -> dict_get (g_subgroup G) H = Ok idx -> g < g_order G ->
  exists cos, dict_get (g_cosets G) H = Ok cos /\
  exists h c, In h idx /\ In c cos /\ comp G h c = g /\
    forall h' c', In h' idx -> In c' cos -> comp G h' c' = g -> h' = h /\ c' = c.
Proof.
  intros D DH HG. apply lib_ok in D as [_ OK]. rewrite (ok_order _ _ _ _ OK) in HG.
  exact (coset_factor _ _ _ _ OK H idx g DH HG).
Qed.
Print Assumptions C15_cosets_factor_uniquely.

Example C15_case :
  exists idx cos, dict_get (g_subgroup P4M) "P2" = Ok idx /\ dict_get (g_cosets P4M) "P2" = Ok cos /\
    List.length idx = 2 /\ List.length cos = 4.
Proof. eexists; eexists. vm_compute. auto. Qed.
