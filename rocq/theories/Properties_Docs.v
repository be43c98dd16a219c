(** C100: the groups that the documentation lists. *)
From Verif Require Import Properties_Groups LibraryTheorems Layers.
Local Open Scope string_scope.
Local Open Scope list_scope.

(** The descriptions, as predicates on signed permutations of the axes. *)
Definition axes_kept (e : symmetry) : Prop := forall m, m < List.length e -> fst (nth m e (0, false)) = m.
Definition axis_kept (m : nat) (e : symmetry) : Prop := fst (nth m e (0, false)) = m.
Definition not_reversed (m : nat) (e : symmetry) : Prop := snd (nth m e (0, false)) = false.

Definition documented := (string * nat * (symmetry -> Prop))%type.

(** /repo/README.md:103-112 and :121-126.  In the plane: all symmetries of the square; its
    rotations; reflections in both axes and the half turn; the reflection in the horizontal
    axis (it reverses the height); the reflection in the vertical axis (it reverses the
    width); the half turn; nothing.  In space: the cube; its rotations; the cuboid whose depth
    differs (depth is the third axis, space_groups.py:2471); its rotations. *)
Definition readme_groups : list documented :=
  [("P4M", 8, fun e => is_symmetry 2 e);
   ("P4", 4, fun e => is_symmetry 2 e /\ proper e = true);
   ("P2MM", 4, fun e => is_symmetry 2 e /\ axes_kept e);
   ("PMh", 2, fun e => is_symmetry 2 e /\ axes_kept e /\ not_reversed 1 e);
   ("PMv", 2, fun e => is_symmetry 2 e /\ axes_kept e /\ not_reversed 0 e);
   ("P2", 2, fun e => is_symmetry 2 e /\ axes_kept e /\ proper e = true);
   ("P1", 1, fun e => e = [(0, false); (1, false)]);
   ("Oh", 48, fun e => is_symmetry 3 e);
   ("O", 24, fun e => is_symmetry 3 e /\ proper e = true);
   ("D4h", 16, fun e => is_symmetry 3 e /\ axis_kept 2 e);
   ("D4", 8, fun e => is_symmetry 3 e /\ axis_kept 2 e /\ proper e = true)].

(** /repo/docs/source/symmetries.rst:24-117: the same groups, but PMw stands for the reflection
    in the vertical axis and P4MM for the symmetries of the square. *)
Definition docs_name (name : string) : string :=
  if String.eqb name "PMv" then "PMw" else if String.eqb name "P4M" then "P4MM" else name.
Definition docs_groups : list documented := map (fun p : documented => let '(name, n, D) := p in (docs_name name, n, D)) readme_groups.

Lemma in_sym e l : existsb (sym_eqb e) l = true -> In e l.
Proof. intros X. apply existsb_exists in X as [e' [I Q]]. apply sym_eqb_eq in Q. rewrite Q. exact I. Qed.

Lemma plane_cases e : is_symmetry 2 e ->
  exists p r0 r1, e = [((if p : bool then 1 else 0), r0); ((if p then 0 else 1), r1)].
Proof.
  intros [L H]. destruct e as [|[p0 r0] [|[p1 r1] [|]]]; try discriminate L. clear L.
  assert (H0 := H 0 ltac:(lia)). assert (H1 := H 1 ltac:(lia)). clear H. cbn [map fst In] in H0, H1.
  destruct H0 as [->|[->|[]]].
  - destruct H1 as [E|[->|[]]]; [discriminate E|]. exists false, r0, r1. reflexivity.
  - destruct H1 as [->|[E|[]]]; [|discriminate E]. exists true, r0, r1. reflexivity.
Qed.

Ltac forward := intros I; vm_compute in I; unfold axes_kept, not_reversed;
  repeat (destruct I as [<-|I]; [|]); [..|destruct I];
  repeat split; try reflexivity; try (apply is_symmetryb_ok; reflexivity);
  try (intros [|[|m]] M; cbn in M |- *; [reflexivity|reflexivity|lia]).
Ltac backward S := destruct (plane_cases _ S) as [p [r0 [r1 ->]]]; apply in_sym; destruct p, r0, r1; try (vm_compute; reflexivity); exfalso.
Ltac swapped := match goal with K : axes_kept _ |- _ => specialize (K 0 ltac:(cbn; lia)); discriminate K end.

(** What the table says about a group holds in the library. *)
Definition as_documented (name : string) (n : nat) (D : symmetry -> Prop) : Prop :=
  exists G, dict_get group_dict name = Ok G /\ g_order G = n /\
    List.length (symmetries_of name) = n /\ NoDup (symmetries_of name) /\ forall e, In e (symmetries_of name) <-> D e.

Lemma documented_intro name n D G : dict_get group_dict name = Ok G -> List.length (symmetries_of name) = n ->
  nodupb sym_eqb (symmetries_of name) = true -> (forall e, In e (symmetries_of name) <-> D e) -> as_documented name n D.
Proof.
  intros DG L ND E. exists G. split; [exact DG|]. split; [|split; [exact L|split; [|exact E]]].
  - apply lib_ok in DG as [_ OK]. rewrite (ok_order _ _ _ _ OK). exact L.
  - apply (nodupb_NoDup sym_eqb); [exact sym_eqb_eq|exact ND].
Qed.

(** Every group of the table in the README except PMv is in the library, with the order and
    the symmetries that the table says. *)
Theorem C100_readme_table name n D : In (name, n, D) readme_groups -> name <> "PMv" -> as_documented name n D.
Proof.
  intros I NV. unfold readme_groups in I. cbn [In] in I.
  assert (Use : forall name' n' D', (name', n', D') = (name, n, D) -> (name' <> "PMv" -> as_documented name' n' D') -> as_documented name n D).
  { intros name' n' D' E K. assert (name' = name /\ n' = n /\ D' = D) as [-> [-> ->]] by (split; [congruence|split; congruence]). exact (K NV). }
  destruct I as [I|[I|[I|[I|[I|[I|[I|[I|[I|[I|[I|[]]]]]]]]]]]]; apply (Use _ _ _ I); clear; intros NV.
  - apply (documented_intro _ _ _ P4M); [vm_compute; reflexivity|vm_compute; reflexivity|vm_compute; reflexivity|]. intros e. split; [forward|].
    intros S. backward S.
  - apply (documented_intro _ _ _ P4); [vm_compute; reflexivity|vm_compute; reflexivity|vm_compute; reflexivity|]. intros e. split; [forward|].
    intros [S P]. backward S; discriminate P.
  - apply (documented_intro _ _ _ P2MM); [vm_compute; reflexivity|vm_compute; reflexivity|vm_compute; reflexivity|]. intros e. split; [forward|].
    intros [S K]. backward S; swapped.
  - apply (documented_intro _ _ _ PMh); [vm_compute; reflexivity|vm_compute; reflexivity|vm_compute; reflexivity|]. intros e. split; [forward|].
    intros [S [K R]]. backward S; first [discriminate R|swapped].
  - exfalso. apply NV. reflexivity.
  - apply (documented_intro _ _ _ P2); [vm_compute; reflexivity|vm_compute; reflexivity|vm_compute; reflexivity|]. intros e. split; [forward|].
    intros [S [K P]]. backward S; first [discriminate P|swapped].
  - apply (documented_intro _ _ _ P1); [vm_compute; reflexivity|vm_compute; reflexivity|vm_compute; reflexivity|]. intros e. split; [forward|].
    intros ->. left. reflexivity.
  - apply (documented_intro _ _ _ Oh); [vm_compute; reflexivity|vm_compute; reflexivity|vm_compute; reflexivity|]. intros e. exact (C06_symmetries_of_the_cube e).
  - apply (documented_intro _ _ _ O3); [vm_compute; reflexivity|vm_compute; reflexivity|vm_compute; reflexivity|]. intros e.
    rewrite <- C06_symmetries_of_the_cube. exact (filter_In _ e Oh_symmetries).
  - apply (documented_intro _ _ _ D4h); [vm_compute; reflexivity|vm_compute; reflexivity|vm_compute; reflexivity|]. intros e.
    rewrite <- C06_symmetries_of_the_cube. unfold axis_kept. rewrite <- Nat.eqb_eq. exact (filter_In _ e Oh_symmetries).
  - apply (documented_intro _ _ _ D4); [vm_compute; reflexivity|vm_compute; reflexivity|vm_compute; reflexivity|]. intros e.
    rewrite <- C06_symmetries_of_the_cube. unfold axis_kept. rewrite <- Nat.eqb_eq.
    change (In e (symmetries_of "D4")) with (In e (filter proper (filter third_axis_kept Oh_symmetries))).
    rewrite !filter_In. unfold third_axis_kept. tauto.
Qed.
Print Assumptions C100_readme_table.

(** The library has the name PMw for the group that the README calls PMv, so that the table in
    the docs is right about it; the docs have another name for P4M. *)
Theorem C100_docs_table name n D : In (name, n, D) docs_groups -> name <> "P4MM" -> as_documented name n D.
Proof.
  intros I N4. unfold docs_groups in I. apply in_map_iff in I as [[[name' n'] D'] [E I]].
  assert (docs_name name' = name /\ n' = n /\ D' = D) as [EN [-> ->]] by (split; [congruence|split; congruence]). clear E.
  destruct (String.eqb_spec name' "PMv") as [->|NV].
  - subst name. cbn [docs_name String.eqb]. assert (E : (n, D) = (2, fun e => is_symmetry 2 e /\ axes_kept e /\ not_reversed 0 e)).
    { unfold readme_groups in I. cbn [In] in I.
      assert (Use : forall u v : string * nat * (symmetry -> Prop), u = v -> fst (fst u) = fst (fst v) /\ (snd (fst u), snd u) = (snd (fst v), snd v)) by (intros u v ->; split; reflexivity).
      destruct I as [J|[J|[J|[J|[J|[J|[J|[J|[J|[J|[J|[]]]]]]]]]]]]; apply Use in J as [E1 E2]; cbn [fst snd] in E1, E2; first [discriminate E1|symmetry; exact E2]. }
    assert (n = 2 /\ D = (fun e => is_symmetry 2 e /\ axes_kept e /\ not_reversed 0 e)) as [-> ->] by (split; congruence). clear.
    apply (documented_intro _ _ _ PMw); [vm_compute; reflexivity|vm_compute; reflexivity|vm_compute; reflexivity|]. intros e. split; [forward|].
    intros [S [K R]]. backward S; first [discriminate R|swapped].
  - destruct (String.eqb_spec name' "P4M") as [->|N4'].
    + exfalso. apply N4. subst name. reflexivity.
    + assert (name = name') as ->. { subst name. unfold docs_name. destruct (String.eqb_spec name' "PMv"); [contradiction|]. destruct (String.eqb_spec name' "P4M"); [contradiction|reflexivity]. }
      exact (C100_readme_table name' n D I NV).
Qed.

(** No group is called PMv or P4MM: layers that are given these names cannot be made. *)
Theorem C100_all_documented_names_refuted {A} (a : conv_args A) (p : pool_args) d transpose t name :
  name = "PMv" \/ name = "P4MM" -> (exists n D, In (name, n, D) (readme_groups ++ docs_groups)) /\
  dict_get group_dict name = Err KeyError /\
  (ca_group a = ByName name -> conv_init d transpose a = Err KeyError) /\
  (pa_group p = ByName name -> pool_init d t p = Err KeyError).
Proof.
  intros N. assert (K : dict_get group_dict name = Err KeyError) by (destruct N as [->| ->]; vm_compute; reflexivity).
  split; [|split; [exact K|]].
  - destruct N as [->| ->].
    + exists 2, (fun e => is_symmetry 2 e /\ axes_kept e /\ not_reversed 0 e). apply in_or_app. left. cbn [readme_groups In]. tauto.
    + exists 8, (fun e => is_symmetry 2 e). apply in_or_app. right. left. reflexivity.
  - split; intros E.
    + unfold conv_init, gt_init. rewrite E, K. destruct (ca_padding a) as [[q|]|]; reflexivity.
    + unfold pool_init, gt_init. rewrite E, K. reflexivity.
Qed.
Print Assumptions C100_docs_table.
Print Assumptions C100_all_documented_names_refuted.

(** D4 keeps the third axis: the quarter turn about it is an element, the one about the first
    axis is not; the reflection of the third axis is in D4h only. *)
Example C100_case :
  In [(1, true); (0, false); (2, false)] (symmetries_of "D4") /\ ~ In [(0, false); (2, true); (1, false)] (symmetries_of "D4h") /\
  In [(0, false); (1, false); (2, true)] (symmetries_of "D4h") /\ ~ In [(0, false); (1, false); (2, true)] (symmetries_of "D4") /\
  map (fun p => is_ok (dict_get group_dict (fst (fst p)))) readme_groups = [true; true; true; true; false; true; true; true; true; true; true] /\
  map (fun p => is_ok (dict_get group_dict (fst (fst p)))) docs_groups = [false; true; true; true; true; true; true; true; true; true; true].
Proof.
  assert (Y : forall e l, existsb (sym_eqb e) l = true -> In e l) by exact in_sym.
  assert (N : forall e l, existsb (sym_eqb e) l = false -> ~ In e l).
  { intros e l X I. assert (T : existsb (sym_eqb e) l = true) by (apply existsb_exists; exists e; split; [exact I|apply sym_eqb_eq; reflexivity]). congruence. }
  split; [apply Y; vm_compute; reflexivity|]. split; [apply N; vm_compute; reflexivity|]. split; [apply Y; vm_compute; reflexivity|].
  split; [apply N; vm_compute; reflexivity|]. split; vm_compute; reflexivity.
Qed.
