(** Negative axes in [Group.action]: an action function sees an axis only through
    its normalisation, except where it compares axes with each other. *)
From Verif Require Export TranslationFacts.

(** [z] denotes axis [a] of a tensor with [r] axes, counted from the front or,
    if negative, from the back. *)
Definition names_axis (r : nat) (z : Z) (a : nat) : Prop :=
  a < r /\ (z = Z.of_nat a \/ z = (Z.of_nat a - Z.of_nat r)%Z).

Lemma norm_axis_names r z a : names_axis r z a -> norm_axis r z = Ok a.
Proof.
  intros [L [-> | ->]]; unfold norm_axis.
  - replace ((0 <=? Z.of_nat a) && (Z.of_nat a <? Z.of_nat r))%Z with true by (symmetry; apply andb_true_iff; split; lia).
    f_equal. lia.
  - replace ((0 <=? Z.of_nat a - Z.of_nat r) && (Z.of_nat a - Z.of_nat r <? Z.of_nat r))%Z with false
      by (symmetry; apply andb_false_iff; left; lia).
    replace ((- Z.of_nat r <=? Z.of_nat a - Z.of_nat r) && (Z.of_nat a - Z.of_nat r <? 0))%Z with true
      by (symmetry; apply andb_true_iff; split; lia).
    f_equal. lia.
Qed.

Section Norm.
Context {A : Type} {ZA : Zero A}.
Implicit Types t : tensor A.

Lemma flip_norm t a b : norm_axis (rank t) a = norm_axis (rank t) b -> flip t a = flip t b.
Proof. unfold flip. intros ->. reflexivity. Qed.

Lemma take_norm t i a b : norm_axis (rank t) a = norm_axis (rank t) b -> take t i a = take t i b.
Proof. unfold take. intros ->. reflexivity. Qed.

Lemma expand_norm t a b : norm_axis (S (rank t)) a = norm_axis (S (rank t)) b -> expand_dims t a = expand_dims t b.
Proof. unfold expand_dims. intros ->. reflexivity. Qed.

Lemma concatenate_norm t ts a b :
  norm_axis (rank t) a = norm_axis (rank t) b -> concatenate (t :: ts) a = concatenate (t :: ts) b.
Proof. unfold concatenate. intros ->. reflexivity. Qed.

Lemma moveaxis_norm t s a b :
  norm_axis (rank t) a = norm_axis (rank t) b -> moveaxis t s a = moveaxis t s b.
Proof. unfold moveaxis. intros ->. reflexivity. Qed.

Lemma swapped_norm r h w h' w' :
  norm_axis r h = norm_axis r h' -> norm_axis r w = norm_axis r w' -> swapped_axes r h w = swapped_axes r h' w'.
Proof.
  intros H W. unfold swapped_axes, py_nth, py_set. rewrite !seq_length, H, W.
  destruct (norm_axis r w') eqn:E; cbn [bind]; [|reflexivity].
  destruct (nth_error _ _); cbn [bind]; [|reflexivity].
  destruct (norm_axis r h'); cbn [bind]; [|reflexivity].
  destruct (nth_error _ _); cbn [bind]; [|reflexivity].
  assert (L : forall (l : list nat) k v, List.length (upd k v l) = List.length l)
    by (clear; induction l as [|y l IH]; intros [|k] v; cbn; congruence).
  rewrite !L, !seq_length, W, E. reflexivity.
Qed.

Lemma norm_axis_lt r a k : norm_axis r a = Ok k -> k < r.
Proof.
  unfold norm_axis. cbv zeta. destruct (_ && _)%Z eqn:E1; [|destruct (- _ <=? _)%Z eqn:E2, (a <? 0)%Z eqn:E3; cbn [andb]; try discriminate];
    intros E; injection E as <-; [apply andb_true_iff in E1; lia|lia].
Qed.

Lemma expand_rank t a u : expand_dims t a = Ok u -> rank u = S (rank t).
Proof.
  unfold expand_dims. destruct (norm_axis _ a) as [k|] eqn:N; [|discriminate]. cbn [bind]. intros E.
  injection E as <-. unfold rank. cbn [shape]. apply norm_axis_lt in N. unfold insert_at.
  rewrite app_length. cbn [List.length]. rewrite firstn_length, skipn_length. unfold rank in N. lia.
Qed.

Lemma flip_rank t a u : flip t a = Ok u -> rank u = rank t.
Proof. unfold flip. destruct (norm_axis _ a); [|discriminate]. cbn [bind]. intros E. injection E as <-. reflexivity. Qed.

Lemma concatenate_rank t ts a u : concatenate (t :: ts) a = Ok u -> rank u = rank t.
Proof.
  unfold concatenate. destruct (norm_axis _ a); [|discriminate]. cbn [bind]. destruct (forallb _ _); [|discriminate].
  intros E. injection E as <-. unfold rank. cbn [shape tab].
  assert (L : forall (l : list nat) k v, List.length (upd k v l) = List.length l)
    by (clear; induction l as [|y l IH]; intros [|k] v; cbn; congruence).
  apply L.
Qed.

Lemma transpose_rank t p u : transpose t p = Ok u -> rank u = rank t.
Proof.
  unfold transpose, is_perm. destruct (_ =? _) eqn:L; cbn [andb]; [|discriminate]. destruct (forallb _ _); [|discriminate].
  intros E. injection E as <-. unfold rank at 1. cbn [shape tab]. rewrite map_length. apply Nat.eqb_eq. exact L.
Qed.

(** the shift of the spatial axes in the action functions *)
Definition moved (nga h : Z) : Z := if (nga <=? h)%Z then (h + 1)%Z else h.

Lemma open_norm t h w h' w' n n' :
  norm_axis (S (rank t)) n = norm_axis (S (rank t)) n' ->
  open_action t [h; w] n = (u <- expand_dims t n' ;; Ok (u, moved n h, moved n w)) /\
  open_action t [h'; w'] n' = (u <- expand_dims t n' ;; Ok (u, moved n' h', moved n' w')).
Proof. intros N. unfold open_action. rewrite (expand_norm t n n' N). split; reflexivity. Qed.
End Norm.

Ltac same_steps N H W :=
  repeat first
  [ reflexivity
  | match goal with
    | |- context[flip ?t ?a] =>
        lazymatch type of H with norm_axis ?r a = _ =>
          rewrite (flip_norm t a _ ltac:(replace (rank t) with r by congruence; exact H)) end
    | |- context[flip ?t ?a] =>
        lazymatch type of W with norm_axis ?r a = _ =>
          rewrite (flip_norm t a _ ltac:(replace (rank t) with r by congruence; exact W)) end
    | |- context[concatenate (?t :: ?ts) ?a] =>
        lazymatch type of N with norm_axis ?r a = _ =>
          rewrite (concatenate_norm t ts a _ ltac:(replace (rank t) with r by congruence; exact N)) end
    | |- context[take ?t ?i ?a] =>
        lazymatch type of N with norm_axis ?r a = _ =>
          rewrite (take_norm t i a _ ltac:(replace (rank t) with r by congruence; exact N)) end
    | |- context[swapped_axes (rank ?t) ?h ?w] =>
        lazymatch type of H with norm_axis ?r h = norm_axis _ ?h' =>
        lazymatch type of W with norm_axis _ w = norm_axis _ ?w' =>
          rewrite (swapped_norm (rank t) h w h' w'
            ltac:(replace (rank t) with r by congruence; exact H)
            ltac:(replace (rank t) with r by congruence; exact W)) end end
    end
  | match goal with
    | |- bind (flip ?t ?a) _ = _ => let E := fresh in let R := fresh in
        destruct (flip t a) eqn:E; cbn [bind]; [pose proof (flip_rank _ _ _ E) as R|]
    | |- bind (concatenate (?t :: ?ts) ?a) _ = _ => let E := fresh in let R := fresh in
        destruct (concatenate (t :: ts) a) eqn:E; cbn [bind]; [pose proof (concatenate_rank _ _ _ _ E) as R|]
    | |- bind (transpose ?t ?a) _ = _ => let E := fresh in let R := fresh in
        destruct (transpose t a) eqn:E; cbn [bind]; [pose proof (transpose_rank _ _ _ E) as R|]
    | |- bind (swapped_axes ?r ?h ?w) _ = _ => destruct (swapped_axes r h w); cbn [bind]
    end ].

Section Actions.
Context {A : Type} {ZA : Zero A}.

(** What an action function of a wallpaper group depends on *)
Definition sees_normalised (act : tensor A -> list Z -> Z -> result (tensor A)) : Prop :=
  forall t h w h' w' n n',
  norm_axis (S (rank t)) n = norm_axis (S (rank t)) n' ->
  norm_axis (S (rank t)) (moved n h) = norm_axis (S (rank t)) (moved n' h') ->
  norm_axis (S (rank t)) (moved n w) = norm_axis (S (rank t)) (moved n' w') ->
  act t [h; w] n = act t [h'; w'] n'.

Ltac start :=
  intros t h w h' w' n n' N H W;
  destruct (open_norm t h w h' w' n n' N) as [-> ->];
  let E := fresh in let R := fresh in
  destruct (expand_dims t n') as [u|] eqn:E; cbn [bind]; [pose proof (expand_rank _ _ _ E) as R|reflexivity];
  same_steps N H W.

Lemma P4M_sees : sees_normalised P4M_action.
Proof. unfold sees_normalised, P4M_action. start. Qed.
Lemma P4_sees : sees_normalised P4_action.
Proof. unfold sees_normalised, P4_action. start. Qed.
Lemma P2MM_sees : sees_normalised P2MM_action.
Proof. unfold sees_normalised, P2MM_action. start. Qed.
Lemma PMh_sees : sees_normalised PMh_action.
Proof. unfold sees_normalised, PMh_action. start. Qed.
Lemma PMw_sees : sees_normalised PMw_action.
Proof. unfold sees_normalised, PMw_action. start. Qed.
Lemma P2_sees : sees_normalised P2_action.
Proof. unfold sees_normalised, P2_action. start. Qed.
Lemma P1_sees : sees_normalised P1_action.
Proof. intros t h w h' w' n n' N _ _. unfold P1_action. apply expand_norm, N. Qed.
End Actions.

Section Ranks.
Context {A : Type} {ZA : Zero A}.
Implicit Types t : tensor A.

Lemma take_rank t l a u : take t (vec l) a = Ok u -> rank u = rank t.
Proof.
  unfold take. destruct (norm_axis _ a) as [k|] eqn:N; [|discriminate]. cbn [bind]. destruct (forallb _ _); [|discriminate].
  intros E. assert (EY : forall u v : tensor A, Ok u = Ok v -> u = v) by congruence. apply EY in E. subst u.
  apply norm_axis_lt in N. unfold rank in *. unfold tab, vec. cbn [shape].
  rewrite !app_length, firstn_length, skipn_length. cbn [List.length]. lia.
Qed.

(** an action function adds one axis *)
Definition grows (act : tensor A -> list Z -> Z -> result (tensor A)) : Prop :=
  forall t sp n u, act t sp n = Ok u -> rank u = S (rank t).

Lemma bind_assoc {X Y Z} (x : result X) (f : X -> result Y) (g : Y -> result Z) :
  bind (bind x f) g = bind x (fun v => bind (f v) g).
Proof. destruct x; reflexivity. Qed.

Ltac growth :=
  intros t sp n u E; unfold open_action in E;
  destruct sp as [|h [|w [|]]]; try discriminate E;
  repeat match type of E with
  | context[bind (bind _ _) _] => progress (rewrite bind_assoc in E)
  | bind ?x _ = _ => let R := fresh in destruct x eqn:R; cbn [bind] in E; [|discriminate E]
  end;
  repeat match goal with
  | R : expand_dims _ _ = Ok _ |- _ => apply expand_rank in R
  | R : flip _ _ = Ok _ |- _ => apply flip_rank in R
  | R : concatenate (_ :: _) _ = Ok _ |- _ => apply concatenate_rank in R
  | R : transpose _ _ = Ok _ |- _ => apply transpose_rank in R
  | R : take _ (vec _) _ = Ok _ |- _ => apply take_rank in R
  end; congruence.

Lemma P4M_grows : grows P4M_action.
Proof. unfold grows, P4M_action. growth. Qed.
Lemma P4_grows : grows P4_action.
Proof. unfold grows, P4_action. growth. Qed.
Lemma P2MM_grows : grows P2MM_action.
Proof. unfold grows, P2MM_action. growth. Qed.
Lemma PMh_grows : grows PMh_action.
Proof. unfold grows, PMh_action. growth. Qed.
Lemma PMw_grows : grows PMw_action.
Proof. unfold grows, PMw_action. growth. Qed.
Lemma P2_grows : grows P2_action.
Proof. unfold grows, P2_action. growth. Qed.
Lemma P1_grows : grows P1_action.
Proof. intros t sp n u. unfold P1_action. apply expand_rank. Qed.

(** ** The action of [Oh] *)

Lemma flip_all_rank l : forall t u, flip_all t l = Ok u -> rank u = rank t.
Proof.
  induction l as [|f l IH]; intros t u E; cbn [flip_all] in E; [injection E as <-; reflexivity|].
  destruct (flip t _) eqn:F; [|discriminate E]. cbn [bind] in E. apply IH in E. apply flip_rank in F. congruence.
Qed.

Lemma mapM_same {X Y} (f g : X -> result Y) l : (forall x, f x = g x) -> mapM f l = mapM g l.
Proof. intros E. induction l as [|x l IH]; cbn [mapM]; [reflexivity|]. rewrite E, IH. reflexivity. Qed.

Lemma mapM_cons_ok {X Y} (f : X -> result Y) x l ys :
  mapM f (x :: l) = Ok ys -> exists y ys', ys = y :: ys' /\ f x = Ok y.
Proof.
  cbn [mapM]. destruct (f x) as [y|]; [|discriminate]. cbn [bind]. destruct (mapM f l) as [ys'|]; [|discriminate].
  cbn [bind]. intros E. injection E as <-. exists y, ys'. split; reflexivity.
Qed.

Definition Oh_member (t : tensor A) (offset : nat) (n : Z) (pf : list nat * list nat) : result (tensor A) :=
  u <- flip_all t (map (fun f => f + offset) (snd pf)) ;;
  u <- transpose u (seq 0 offset ++ map (fun p => p + offset) (fst pf) ++ seq (offset + 3) (rank t - (offset + 3))) ;;
  expand_dims u n.

Lemma Oh_member_rank t o n pf u : Oh_member t o n pf = Ok u -> rank u = S (rank t).
Proof.
  unfold Oh_member. destruct (flip_all _ _) eqn:F; [|discriminate]. cbn [bind].
  destruct (transpose _ _) eqn:T; [|discriminate]. cbn [bind]. intros E.
  apply flip_all_rank in F. apply transpose_rank in T. apply expand_rank in E. congruence.
Qed.

Lemma Oh_member_norm t o n n' pf :
  norm_axis (S (rank t)) n = norm_axis (S (rank t)) n' -> Oh_member t o n pf = Oh_member t o n' pf.
Proof.
  intros N. unfold Oh_member. destruct (flip_all _ _) eqn:F; [|reflexivity]. cbn [bind].
  destruct (transpose _ _) eqn:T; [|reflexivity]. cbn [bind].
  apply flip_all_rank in F. apply transpose_rank in T. apply expand_norm. replace (rank _) with (rank t) by congruence. exact N.
Qed.

Lemma Oh_action_member t z sp n :
  Oh_action t (z :: sp) n
  = guard (0 <=? z)%Z else BackendError ;;
    (ts <- mapM (Oh_member t (Z.to_nat z) n) Oh_parameters ;; concatenate ts n).
Proof. reflexivity. Qed.

Lemma Oh_sees t sp n n' :
  norm_axis (S (rank t)) n = norm_axis (S (rank t)) n' -> Oh_action t sp n = Oh_action t sp n'.
Proof.
  intros N. destruct sp as [|z sp]; [reflexivity|]. rewrite !Oh_action_member. destruct (0 <=? z)%Z; [|reflexivity].
  rewrite (mapM_same _ (Oh_member t (Z.to_nat z) n') Oh_parameters) by (intros; apply Oh_member_norm, N).
  destruct (mapM _ Oh_parameters) as [ts|] eqn:M; [|reflexivity]. cbn [bind].
  unfold Oh_parameters in M. cbn [list_prod app map Oh_permutation_tuples Oh_flip_axes] in M.
  apply mapM_cons_ok in M as [y [ts' [-> M]]]. apply Oh_member_rank in M. apply concatenate_norm. rewrite M. exact N.
Qed.

Lemma Oh_grows : grows Oh_action.
Proof.
  intros t [|z sp] n u; [discriminate|]. rewrite Oh_action_member. destruct (0 <=? z)%Z; [|discriminate].
  destruct (mapM _ Oh_parameters) as [ts|] eqn:M; [|discriminate]. cbn [bind]. intros E.
  unfold Oh_parameters in M. cbn [list_prod app map Oh_permutation_tuples Oh_flip_axes] in M.
  apply mapM_cons_ok in M as [y [ts' [-> M]]]. apply Oh_member_rank in M. apply concatenate_rank in E. congruence.
Qed.

Lemma Oh_negative t z sp n : (z < 0)%Z -> exists e, Oh_action t (z :: sp) n = Err e.
Proof. intros L. rewrite Oh_action_member. replace (0 <=? z)%Z with false by (symmetry; lia). eexists. reflexivity. Qed.
End Ranks.

Lemma derived_action name order G {A} {ZA : Zero A} :
  derived name order = Ok G -> exists ext,
  forall (t : tensor A) sp n, g__action G A ZA t sp n = bind (Oh_action t sp n) (fun y => take y (vec ext) n).
Proof.
  unfold derived. rewrite Oh_init_eq. cbn [bind]. intros I.
  assert (D : exists ext, dict_get (g_subgroup Oh) name = Ok ext).
  { unfold group_init, compute_composition in I. destruct (dict_get (g_subgroup Oh) name) as [ext|]; [|discriminate I].
    exists ext. reflexivity. }
  destruct D as [ext D]. exists ext. intros t sp n.
  rewrite (derived_group_action Oh name order G ext t sp n I D), Oh_action_eq. reflexivity.
Qed.

(** ** The library *)

Lemma two_dimensional name G {A} {ZA : Zero A} :
  dict_get group_dict name = Ok G -> dimension_of name = 2 ->
  sees_normalised (g__action G A ZA) /\ grows (g__action G A ZA).
Proof.
  intros D DIM. apply dict_get_In in D. unfold group_dict, wallpaper_group_dict, space_group_dict in D. cbn [app In] in D.
  repeat (destruct D as [D|D]; [apply pair_equal_spec in D as [<- <-]; try discriminate DIM;
    first [rewrite P1_action_eq; split; [apply P1_sees|apply P1_grows]
          |rewrite P2_action_eq; split; [apply P2_sees|apply P2_grows]
          |rewrite PMw_action_eq; split; [apply PMw_sees|apply PMw_grows]
          |rewrite PMh_action_eq; split; [apply PMh_sees|apply PMh_grows]
          |rewrite P2MM_action_eq; split; [apply P2MM_sees|apply P2MM_grows]
          |rewrite P4_action_eq; split; [apply P4_sees|apply P4_grows]
          |rewrite P4M_action_eq; split; [apply P4M_sees|apply P4M_grows]] |]).
  destruct D.
Qed.

Lemma three_dimensional name G {A} {ZA : Zero A} :
  dict_get group_dict name = Ok G -> dimension_of name = 3 ->
  (forall (t : tensor A) sp n n', norm_axis (S (rank t)) n = norm_axis (S (rank t)) n' ->
     g__action G A ZA t sp n = g__action G A ZA t sp n') /\
  grows (g__action G A ZA) /\
  (forall (t : tensor A) z sp n, (z < 0)%Z -> exists e, g__action G A ZA t (z :: sp) n = Err e).
Proof.
  assert (Der : forall ext, let act := fun (t : tensor A) sp n => bind (Oh_action t sp n) (fun y => take y (vec ext) n) in
    (forall t sp n n', norm_axis (S (rank t)) n = norm_axis (S (rank t)) n' -> act t sp n = act t sp n') /\
    grows act /\ (forall t z sp n, (z < 0)%Z -> exists e, act t (z :: sp) n = Err e)).
  { intros ext act. unfold act. split; [|split].
    - intros t sp n n' N. rewrite (Oh_sees t sp n n' N). destruct (Oh_action t sp n') eqn:E; [|reflexivity]. cbn [bind].
      apply take_norm. apply Oh_grows in E. rewrite E. exact N.
    - intros t sp n u. destruct (Oh_action t sp n) eqn:E; [|discriminate]. cbn [bind]. intros T. apply take_rank in T.
      apply Oh_grows in E. congruence.
    - intros t z sp n L. destruct (Oh_negative t z sp n L) as [e ->]. exists e. reflexivity. }
  assert (Use : forall nm order K, derived nm order = Ok K ->
    (forall (t : tensor A) sp n n', norm_axis (S (rank t)) n = norm_axis (S (rank t)) n' ->
       g__action K A ZA t sp n = g__action K A ZA t sp n') /\ grows (g__action K A ZA) /\
    (forall (t : tensor A) z sp n, (z < 0)%Z -> exists e, g__action K A ZA t (z :: sp) n = Err e)).
  { intros nm order K I. destruct (derived_action nm order K (A := A) I) as [ext EQ].
    destruct (Der ext) as [H1 [H2 H3]]. split; [|split].
    - intros t sp n n' N. rewrite !EQ. apply (H1 t sp n n' N).
    - intros t sp n u. rewrite EQ. apply H2.
    - intros t z sp n L. rewrite EQ. apply (H3 t z sp n L). }
  intros D DIM. apply dict_get_In in D. unfold group_dict, wallpaper_group_dict, space_group_dict in D. cbn [app In] in D.
  repeat (destruct D as [D|D]; [apply pair_equal_spec in D as [<- <-]; try discriminate DIM;
    first [rewrite Oh_action_eq; split; [apply Oh_sees|split; [apply Oh_grows|apply Oh_negative]]
          |exact (Use _ _ _ O_init_eq)|exact (Use _ _ _ D4h_init_eq)|exact (Use _ _ _ D4_init_eq)] |]).
  destruct D.
Qed.
