(** [Group.action] commutes with maps of the entries. *)
From Verif Require Export EntryMapFacts AxisFacts.
Local Open Scope list_scope.

(** A [Group] object whose [_action] treats entries of all kinds alike. *)
Definition entrywise (G : group) : Prop :=
  forall A B (ZA : Zero A) (ZB : Zero B) (phi : A -> B), phi zero = zero ->
  forall t sp n, g__action G B ZB (tmap phi t) sp n = rmap (tmap phi) (g__action G A ZA t sp n).

Section Actions.
Context {A B : Type} {ZA : Zero A} {ZB : Zero B} (phi : A -> B) (P0 : phi zero = zero).

Lemma pick_tmap ts k n i : pick (map (tmap phi) ts) k n i = phi (pick ts k n i).
Proof.
  revert n. induction ts as [|t ts IH]; intros n; cbn [map pick]; [symmetry; exact P0|]. rewrite shape_tmap.
  destruct (n <? nth k (shape t) 0); [apply (at_tmap phi P0)|apply IH].
Qed.

Lemma tmap_concatenate ts a : concatenate (map (tmap phi) ts) a = rmap (tmap phi) (concatenate ts a).
Proof.
  destruct ts as [|t ts]; [reflexivity|]. unfold concatenate. cbn [map]. rewrite rmap_bind, rank_tmap. apply bind_ext. intros k. rewrite rmap_guard.
  assert (E : forall l, forallb (fun u : tensor B => same_shape_except k (shape (tmap phi t)) (shape u)) (map (tmap phi) l)
              = forallb (fun u : tensor A => same_shape_except k (shape t) (shape u)) l).
  { intros l. induction l as [|u l IH]; [reflexivity|]. cbn [map forallb]. rewrite IH. reflexivity. }
  pose proof (E (t :: ts)) as E'. cbn [map] in E'. rewrite E'.
  destruct (forallb (fun u : tensor A => same_shape_except k (shape t) (shape u)) (t :: ts)); [|reflexivity].
  cbn [rmap]. f_equal. rewrite !shape_tmap.
  assert (ET : map (fun u : tensor B => nth k (shape u) 0) (map (tmap phi) ts) = map (fun u : tensor A => nth k (shape u) 0) ts).
  { rewrite map_map. apply map_ext. reflexivity. }
  rewrite ET. apply tab_tmap. intros i. exact (pick_tmap (t :: ts) k (nth k i 0) i).
Qed.

Lemma tmap_concatenate2 t u a : concatenate [tmap phi t; tmap phi u] a = rmap (tmap phi) (concatenate [t; u] a).
Proof. exact (tmap_concatenate [t; u] a). Qed.

Lemma tmap_open t sp n : open_action (tmap phi t) sp n
  = rmap (fun p : tensor A * Z * Z => let '(s, h, w) := p in (tmap phi s, h, w)) (open_action t sp n).
Proof.
  unfold open_action. destruct sp as [|h [|w [|]]]; try reflexivity; rewrite tmap_expand_dims, ?bind_rmap, ?rmap_bind;
    destruct (expand_dims t n); reflexivity.
Qed.

Ltac steps := repeat first
  [ rewrite (tmap_flip phi P0) | rewrite (tmap_transpose phi P0) | rewrite tmap_concatenate2 | rewrite (tmap_take phi P0) | rewrite rank_tmap
  | rewrite bind_rmap | rewrite rmap_bind | (apply bind_ext; intros ?) | reflexivity ].

Lemma tmap_P4M t sp n : P4M_action (tmap phi t) sp n = rmap (tmap phi) (P4M_action t sp n).
Proof. unfold P4M_action. rewrite tmap_open, bind_rmap, rmap_bind. apply bind_ext. intros [[s h] w]. steps. Qed.
Lemma tmap_P4 t sp n : P4_action (tmap phi t) sp n = rmap (tmap phi) (P4_action t sp n).
Proof. unfold P4_action. rewrite tmap_open, bind_rmap, rmap_bind. apply bind_ext. intros [[s h] w]. steps. Qed.
Lemma tmap_P2MM t sp n : P2MM_action (tmap phi t) sp n = rmap (tmap phi) (P2MM_action t sp n).
Proof. unfold P2MM_action. rewrite tmap_open, bind_rmap, rmap_bind. apply bind_ext. intros [[s h] w]. steps. Qed.
Lemma tmap_PMh t sp n : PMh_action (tmap phi t) sp n = rmap (tmap phi) (PMh_action t sp n).
Proof. unfold PMh_action. rewrite tmap_open, bind_rmap, rmap_bind. apply bind_ext. intros [[s h] w]. steps. Qed.
Lemma tmap_PMw t sp n : PMw_action (tmap phi t) sp n = rmap (tmap phi) (PMw_action t sp n).
Proof. unfold PMw_action. rewrite tmap_open, bind_rmap, rmap_bind. apply bind_ext. intros [[s h] w]. steps. Qed.
Lemma tmap_P2 t sp n : P2_action (tmap phi t) sp n = rmap (tmap phi) (P2_action t sp n).
Proof. unfold P2_action. rewrite tmap_open, bind_rmap, rmap_bind. apply bind_ext. intros [[s h] w]. steps. Qed.

Lemma tmap_flip_all l : forall t, flip_all (tmap phi t) l = rmap (tmap phi) (flip_all t l).
Proof.
  induction l as [|f l IH]; intros t; [reflexivity|]. cbn [flip_all]. rewrite (tmap_flip phi P0), bind_rmap, rmap_bind. apply bind_ext. intros u. apply IH.
Qed.

Lemma mapM_tmap {C} (f : C -> result (tensor A)) (g : C -> result (tensor B)) l : (forall c, g c = rmap (tmap phi) (f c)) ->
  mapM g l = rmap (map (tmap phi)) (mapM f l).
Proof.
  intros H. induction l as [|c l IH]; [reflexivity|]. cbn [mapM]. rewrite H, IH, bind_rmap, rmap_bind. apply bind_ext. intros u.
  rewrite bind_rmap, rmap_bind. apply bind_ext. intros us. reflexivity.
Qed.

Lemma tmap_Oh t sp n : Oh_action (tmap phi t) sp n = rmap (tmap phi) (Oh_action t sp n).
Proof.
  unfold Oh_action. destruct sp as [|z sp]; [reflexivity|]. rewrite rmap_guard, rank_tmap. destruct (0 <=? z)%Z; [|reflexivity].
  rewrite (mapM_tmap (fun pf => bind (flip_all t (map (fun f => f + Z.to_nat z) (snd pf))) (fun u => bind (transpose u
     (seq 0 (Z.to_nat z) ++ map (fun p => p + Z.to_nat z) (fst pf) ++ seq (Z.to_nat z + 3) (rank t - (Z.to_nat z + 3)))) (fun v => expand_dims v n)))).
  - rewrite bind_rmap, rmap_bind. apply bind_ext. intros ts. apply tmap_concatenate.
  - intros pf. rewrite tmap_flip_all, bind_rmap, rmap_bind. apply bind_ext. intros u. rewrite (tmap_transpose phi P0), bind_rmap, rmap_bind.
    apply bind_ext. intros v. apply tmap_expand_dims.
Qed.

Lemma tmap_action_on_grid G t n sp H : entrywise G -> action_on_grid G (tmap phi t) n sp H = rmap (tmap phi) (action_on_grid G t n sp H).
Proof.
  intros EN. unfold action_on_grid. rewrite (EN A B ZA ZB phi P0), bind_rmap, rmap_bind. apply bind_ext. intros u. rewrite rmap_bind. apply bind_ext.
  intros idx. apply (tmap_take phi P0).
Qed.

Lemma tmap_zeros s : zeros s = tmap phi (zeros s).
Proof. apply tab_tmap. intros i. symmetry. exact P0. Qed.

Lemma tmap_upsample G t ga H : upsample G (tmap phi t) ga H = rmap (tmap phi) (upsample G t ga H).
Proof.
  unfold upsample. rewrite rmap_bind. apply bind_ext. intros idx. rewrite shape_tmap.
  rewrite (mapM_tmap (fun i => if mem i idx then bind (zip_get idx (seq 0 (List.length idx)) i) (fun p => take t (vec [p]) ga)
                               else Ok (zeros (py_upto (shape t) ga ++ [1] ++ py_from (shape t) (ga + 1))))).
  - rewrite bind_rmap, rmap_bind. apply bind_ext. intros ts. apply tmap_concatenate.
  - intros i. destruct (mem i idx); [|cbn [rmap]; f_equal; apply tmap_zeros]. rewrite rmap_bind. apply bind_ext. intros p. apply (tmap_take phi P0).
Qed.

Lemma tmap_action G t sp n ga H K : entrywise G -> action G (tmap phi t) sp n ga H K = rmap (tmap phi) (action G t sp n ga H K).
Proof.
  intros EN. unfold action. destruct (parse_subgroup G K); [|apply tmap_action_on_grid; exact EN]. destruct ga as [ga|].
  2:{ destruct (subgroup_get G (parse_subgroup G H)); [|reflexivity]. cbn [bind]. destruct (subgroup_get G (Some s)); reflexivity. }
  unfold action_on_group. rewrite rmap_bind. apply bind_ext. intros act. rewrite rmap_bind. apply bind_ext. intros dom.
  assert (U : (if List.length dom <? g_order G then upsample G (tmap phi t) ga (Some s) else Ok (tmap phi t))
              = rmap (tmap phi) (if List.length dom <? g_order G then upsample G t ga (Some s) else Ok t)).
  { destruct (_ <? _); [apply tmap_upsample|reflexivity]. }
  rewrite U, bind_rmap, rmap_bind. apply bind_ext. intros u. rewrite (tmap_action_on_grid _ _ _ _ _ EN), bind_rmap, rmap_bind. apply bind_ext. intros v.
  rewrite (tmap_merge_axes phi P0), bind_rmap, rmap_bind. apply bind_ext. intros w. rewrite rmap_bind. apply bind_ext. intros idx.
  rewrite (tmap_take phi P0), bind_rmap, rmap_bind. apply bind_ext. intros y. rewrite tmap_split_axes, bind_rmap, rmap_bind. apply bind_ext. intros z.
  apply (tmap_moveaxis phi P0).
Qed.
End Actions.

(** A group derived from such a group, like [Group(name=..., parent=...)]. *)
Lemma derived_entrywise P name order inv c s co G : entrywise P -> group_init name order inv c s co None (Some P) = Ok G -> entrywise G.
Proof.
  intros EN I A B ZA ZB phi P0 t sp n. rewrite (group_init_action _ _ _ _ _ _ _ _ _ I). unfold compute_action.
  rewrite (EN A B ZA ZB phi P0), bind_rmap, rmap_bind. apply bind_ext. intros u.
  rewrite rmap_bind. apply bind_ext. intros ext. apply (tmap_take phi P0).
Qed.

Lemma library_entrywise name G : dict_get group_dict name = Ok G -> entrywise G.
Proof.
  assert (EO : entrywise Oh) by (intros A B ZA ZB phi P0 t sp n; rewrite Oh_action_eq; apply (tmap_Oh phi P0)).
  assert (Use : forall nm order K, derived nm order = Ok K -> entrywise K).
  { intros nm order K. unfold derived. rewrite Oh_init_eq. cbn [bind]. intros I. exact (derived_entrywise _ _ _ _ _ _ _ _ EO I). }
  intros D. apply dict_get_In in D. unfold group_dict, wallpaper_group_dict, space_group_dict in D. cbn [app In] in D.
  repeat (destruct D as [D|D]; [apply pair_equal_spec in D as [_ <-];
    lazymatch goal with
    | |- entrywise Oh => exact EO
    | |- entrywise O3 => exact (Use _ _ _ O_init_eq)
    | |- entrywise D4h => exact (Use _ _ _ D4h_init_eq)
    | |- entrywise D4 => exact (Use _ _ _ D4_init_eq)
    | |- entrywise P1 => intros A B ZA ZB phi P0 t sp n; rewrite P1_action_eq; apply tmap_expand_dims
    | |- entrywise P2 => intros A B ZA ZB phi P0 t sp n; rewrite P2_action_eq; apply (tmap_P2 phi P0)
    | |- entrywise PMw => intros A B ZA ZB phi P0 t sp n; rewrite PMw_action_eq; apply (tmap_PMw phi P0)
    | |- entrywise PMh => intros A B ZA ZB phi P0 t sp n; rewrite PMh_action_eq; apply (tmap_PMh phi P0)
    | |- entrywise P2MM => intros A B ZA ZB phi P0 t sp n; rewrite P2MM_action_eq; apply (tmap_P2MM phi P0)
    | |- entrywise P4 => intros A B ZA ZB phi P0 t sp n; rewrite P4_action_eq; apply (tmap_P4 phi P0)
    | |- entrywise P4M => intros A B ZA ZB phi P0 t sp n; rewrite P4M_action_eq; apply (tmap_P4M phi P0)
    end |]).
  destruct D.
Qed.
