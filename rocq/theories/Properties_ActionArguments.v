(** C95: the arguments of [Group.action]. *)
From Verif Require Import GroupActionFacts CheckFacts EquivSpec.
Local Open Scope string_scope.
Local Open Scope list_scope.

Section Arguments.
Context {A : Type} {ZA : Zero A}.

(** A name, or '' for the group itself, that the group lists. *)
Definition listed (G : group) (H : option string) : Prop :=
  exists n idx, H = Some n /\ dict_get (g_subgroup G) (if String.eqb n "" then g_name G else n) = Ok idx.

Lemma listed_get G H : listed G H <-> exists idx, subgroup_get G (parse_subgroup G H) = Ok idx.
Proof.
  unfold listed, parse_subgroup, subgroup_get. split.
  - intros [n [idx [-> D]]]. exists idx. destruct (String.eqb n ""); exact D.
  - intros [idx D]. destruct H as [n|]; [|discriminate D]. exists n, idx. split; [reflexivity|]. destruct (String.eqb n ""); exact D.
Qed.

Lemma unlisted_get G H : ~ listed G H -> subgroup_get G (parse_subgroup G H) = Err KeyError.
Proof.
  intros N. destruct (subgroup_get G (parse_subgroup G H)) as [idx|e] eqn:D; [exfalso; apply N, listed_get; exists idx; exact D|].
  unfold subgroup_get in D. destruct (parse_subgroup G H) as [n|]; [|congruence].
  induction (g_subgroup G) as [|[k v] l IH]; cbn [dict_get] in D; [congruence|]. destruct (String.eqb n k); [discriminate D|exact (IH D)].
Qed.

(** Without [group_axis] a call raises for every signal, unless [domain_group=None] is
    given: the documentation says that [group_axis=None] means a signal on the grid, but
    what decides is [domain_group], and its default is ''. *)
Theorem C95_default_arguments_refuted G (signal : tensor A) axes new_axis acting domain : domain <> None ->
  action G signal axes new_axis None acting domain = Err KeyError /\ (~ listed G acting \/ ~ listed G domain) \/
  action G signal axes new_axis None acting domain = Err TypeError /\ listed G acting /\ listed G domain.
Proof.
  intros ND. unfold action. destruct domain as [n|]; [|contradiction].
  assert (PN : exists n', parse_subgroup G (Some n) = Some n') by (unfold parse_subgroup; destruct (String.eqb n ""); eexists; reflexivity).
  destruct PN as [n' PN]. rewrite PN.
  destruct (subgroup_get G (parse_subgroup G acting)) as [ia|e] eqn:DA.
  - assert (LA : listed G acting) by (apply listed_get; exists ia; exact DA). cbn [bind]. rewrite <- PN.
    destruct (subgroup_get G (parse_subgroup G (Some n))) as [id|e] eqn:DD; cbn [bind].
    + right. split; [reflexivity|]. split; [exact LA|]. apply listed_get. exists id. exact DD.
    + left. assert (NL : ~ listed G (Some n)) by (intros L; apply listed_get in L as [? L]; congruence).
      rewrite (unlisted_get _ _ NL) in DD. split; [congruence|right; exact NL].
  - left. assert (NL : ~ listed G acting) by (intros L; apply listed_get in L as [? L]; congruence).
    rewrite (unlisted_get _ _ NL) in DA. cbn [bind]. split; [congruence|left; exact NL].
Qed.

(** With [domain_group=None] the group axis does not matter: the signal is on the grid. *)
Theorem C95_group_axis_of_grid_signals G (signal : tensor A) axes new_axis ga ga' acting :
  action G signal axes new_axis ga acting None = action G signal axes new_axis ga' acting None.
Proof. reflexivity. Qed.

(** '' and the name of the group mean the same, in both places. *)
Theorem C95_empty_name G (signal : tensor A) axes new_axis ga acting domain : g_name G <> "" ->
  action G signal axes new_axis ga (Some "") domain = action G signal axes new_axis ga (Some (g_name G)) domain /\
  action G signal axes new_axis ga acting (Some "") = action G signal axes new_axis ga acting (Some (g_name G)).
Proof.
  intros NE. assert (E : parse_subgroup G (Some "") = parse_subgroup G (Some (g_name G))).
  { unfold parse_subgroup. destruct (String.eqb_spec (g_name G) ""); [contradiction|]. reflexivity. }
  unfold action. rewrite E. split; reflexivity.
Qed.

(** Names that the group does not list, and None as acting group, raise for every signal:
    KeyError for signals on the group, and for signals on the grid when their shape and axes
    are accepted.  (The documentation says that None means the whole group.) *)
Theorem C95_unlisted_groups G (signal : tensor A) axes new_axis ga acting domain :
  ~ listed G acting \/ domain <> None /\ ~ listed G domain ->
  exists e, action G signal axes new_axis ga acting domain = Err e /\
    (domain <> None \/ (exists t, g__action G A ZA signal axes new_axis = Ok t) -> e = KeyError).
Proof.
  intros N. destruct domain as [n|].
  - exists KeyError. split; [|reflexivity]. destruct ga as [ga|].
    + unfold action. assert (PN : exists n', parse_subgroup G (Some n) = Some n') by (unfold parse_subgroup; destruct (String.eqb n ""); eexists; reflexivity).
      destruct PN as [n' PN]. rewrite PN. rewrite <- PN. unfold action_on_group.
      destruct (subgroup_get G (parse_subgroup G acting)) as [ia|e] eqn:DA.
      * destruct N as [N|[_ N]]; [exfalso; apply N, listed_get; exists ia; exact DA|]. cbn [bind]. rewrite (unlisted_get _ _ N). reflexivity.
      * assert (NL : ~ listed G acting) by (intros L; apply listed_get in L as [? L]; congruence).
        rewrite (unlisted_get _ _ NL) in DA. cbn [bind]. congruence.
    + destruct (C95_default_arguments_refuted G signal axes new_axis acting (Some n) ltac:(discriminate)) as [[E _]|[_ [L1 L2]]]; [exact E|].
      destruct N as [N|[_ N]]; contradiction.
  - destruct N as [N|[N _]]; [|contradiction]. unfold action, action_on_grid. cbn [parse_subgroup].
    destruct (g__action G A ZA signal axes new_axis) as [t|e].
    + exists KeyError. cbn [bind]. rewrite (unlisted_get _ _ N). split; reflexivity.
    + exists e. cbn [bind]. split; [reflexivity|]. intros [D|[t T]]; [contradiction|discriminate T].
Qed.
End Arguments.

(** The default call on a 2 x 2 image, the documented way and the one that works. *)
Example C95_case :
  let x := some_signal [1; 2; 2; 1] in
  action P4 x [1; 2]%Z 0 None (Some "") (Some "") = Err TypeError /\
  action P4 x [1; 2]%Z 0 None None None = Err KeyError /\
  is_ok (action P4 x [1; 2]%Z 0 None (Some "") None) = true /\
  action P4 x [1; 2]%Z 0 (Some 7%Z) (Some "P2") None = action P4 x [1; 2]%Z 0 None (Some "P2") None /\
  action P4 x [1; 2]%Z 0 None (Some "P3") None = Err KeyError /\
  action P4 (some_signal [1; 2; 2; 4; 1]) [1; 2]%Z 0 (Some 3%Z) (Some "P2") (Some "P4M") = Err KeyError.
Proof. vm_compute. repeat (split; [reflexivity|]). reflexivity. Qed.

Print Assumptions C95_default_arguments_refuted.
Print Assumptions C95_group_axis_of_grid_signals.
Print Assumptions C95_empty_name.
Print Assumptions C95_unlisted_groups.
