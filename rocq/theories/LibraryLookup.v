(** Lookups in [group_dict]. *)
From Verif Require Export LibraryTheorems.

Lemma group_dict_keys : NoDup (map fst group_dict).
Proof.
  unfold group_dict, wallpaper_group_dict, space_group_dict. cbn [app map fst].
  repeat (apply NoDup_cons; [cbn [In]; intuition discriminate|]). apply NoDup_nil.
Qed.

Lemma In_dict_get {B} (l : list (string * B)) k v : NoDup (map fst l) -> In (k, v) l -> dict_get l k = Ok v.
Proof.
  induction l as [|[k' v'] l IH]; intros ND I; [destruct I|]. cbn [map fst] in ND. inversion ND as [|? ? N ND']; subst.
  cbn [dict_get]. destruct I as [I|I].
  - injection I as -> ->. rewrite String.eqb_refl. auto.
  - destruct (String.eqb_spec k k') as [->|]; [|auto]. exfalso. apply N. apply in_map_iff. exists (k', v). auto.
Qed.

Lemma lib_ok name G :
  dict_get group_dict name = Ok G ->
  g_name G = name /\ group_ok G (dimension_of name) (symmetries_of name) (needs_equal_sizes name).
Proof. intros H. apply library_ok. apply dict_get_In. exact H. Qed.

(** Every subgroup name of a library group names a library group. *)
Local Open Scope string_scope.
Definition lib_names := ["P1"; "P2"; "PMw"; "PMh"; "P2MM"; "P4"; "P4M"; "Oh"; "O"; "D4h"; "D4"].
Definition sub_names_check (name : string) (G : group) : bool :=
  forallb (fun kv => existsb (String.eqb (fst kv)) lib_names
                     && (negb (needs_equal_sizes (fst kv)) || needs_equal_sizes name)
                     && negb (String.eqb (fst kv) "")) (g_subgroup G).
Local Close Scope string_scope.

Lemma sub_names_all : Forall (fun p => sub_names_check (fst p) (snd p) = true) group_dict.
Proof.
  unfold group_dict, wallpaper_group_dict, space_group_dict.
  repeat (apply Forall_cons; [cbn [fst snd]; vm_compute; reflexivity|]). apply Forall_nil.
Qed.

Lemma lib_names_get H : existsb (String.eqb H) lib_names = true -> exists K, dict_get group_dict H = Ok K.
Proof.
  intros E. apply existsb_exists in E as [x [I E]]. apply String.eqb_eq in E. subst x.
  assert (M : In H (map fst group_dict)) by exact I.
  apply in_map_iff in M as [[k v] [E M]]. cbn [fst] in E. subst k. exists v.
  apply In_dict_get; [exact group_dict_keys|exact M].
Qed.

Lemma lib_named name G : dict_get group_dict name = Ok G -> g_name G = name -> named G.
Proof. intros D N. exists G. rewrite N. split; [exact D|reflexivity]. Qed.

Lemma lib_sub name G H idx :
  dict_get group_dict name = Ok G -> dict_get (g_subgroup G) H = Ok idx ->
  exists K, dict_get group_dict H = Ok K /\ H <> ""%string /\
    group_ok K (dimension_of name) (symmetries_of H) (needs_equal_sizes H) /\
    (needs_equal_sizes H = true -> needs_equal_sizes name = true).
Proof.
  intros DG DH. pose proof DG as DG'. apply lib_ok in DG' as [NG OK].
  pose proof (proj1 (Forall_forall _ _) sub_names_all _ (dict_get_In _ _ _ DG)) as C. cbn [fst snd] in C.
  unfold sub_names_check in C. rewrite forallb_forall in C. specialize (C _ (dict_get_In _ _ _ DH)). cbn [fst] in C.
  apply andb_true_iff in C as [C C3]. apply andb_true_iff in C as [C1 C2].
  destruct (lib_names_get H C1) as [K DK]. exists K. split; [exact DK|]. split.
  { intros ->. discriminate C3. }
  apply lib_ok in DK as [_ OKK].
  destruct (ok_sub _ _ _ _ OK _ _ DH) as [_ [_ [_ [_ [_ [_ DIM]]]]]]. rewrite (proj1 (DIM (lib_named _ _ DG NG) (f_equal symmetries_of (eq_sym NG)))) in OKK. split; [exact OKK|].
  intros Q. rewrite Q in C2. exact C2.
Qed.

Lemma lib_dims name G H idx K :
  dict_get group_dict name = Ok G -> dict_get (g_subgroup G) H = Ok idx -> dict_get group_dict H = Ok K ->
  (named G /\ symmetries_of name = symmetries_of (g_name G)) /\ (named K /\ symmetries_of H = symmetries_of (g_name K)).
Proof.
  intros DG DH DK. destruct (lib_ok _ _ DG) as [NG _]. destruct (lib_ok _ _ DK) as [NK _].
  split; (split; [eapply lib_named; eassumption|congruence]).
Qed.

Lemma lib_name_nonempty name G : dict_get group_dict name = Ok G -> name <> ""%string.
Proof. intros H ->. revert H. vm_compute. discriminate. Qed.

Lemma sub_idx_some G H idx : H <> ""%string -> dict_get (g_subgroup G) H = Ok idx -> sub_idx G (Some H) idx.
Proof.
  intros NE D. unfold sub_idx, parse_subgroup. destruct (String.eqb_spec H ""); [contradiction|exact D].
Qed.

(** ** which sizes are accepted *)
Lemma list2 (l : list nat) : List.length l = 2 -> exists a b, l = [a; b].
Proof. destruct l as [|a [|b [|]]]; try discriminate. eauto. Qed.
Lemma list3 (l : list nat) : List.length l = 3 -> exists a b c, l = [a; b; c].
Proof. destruct l as [|a [|b [|c [|]]]]; try discriminate. eauto. Qed.

Lemma fits_all_square l : List.length l = 2 -> fits quarter l -> all_equal l.
Proof.
  intros L F. destruct (list2 l L) as [a [b ->]]. specialize (F 0 ltac:(cbn; lia)). cbn in F. subst.
  intros x y X Y. cbn in X, Y. intuition congruence.
Qed.

Lemma fits_all_cube l r : List.length l = 3 ->
  fits (reversed_then_permuted [1; 2; 0] r) l -> all_equal l.
Proof.
  intros L F. destruct (list3 l L) as [a [b [c ->]]].
  pose proof (F 0 ltac:(cbn; lia)) as F0. pose proof (F 1 ltac:(cbn; lia)) as F1. cbn in F0, F1. subst.
  intros x y X Y. cbn in X, Y. intuition congruence.
Qed.

Local Open Scope string_scope.
Lemma fits_needed name l :
  List.length l = dimension_of name ->
  needs_equal_sizes name = true -> name <> "D4h" -> name <> "D4" ->
  (forall e, In e (symmetries_of name) -> fits e l) -> all_equal l.
Proof.
  intros L N N1 N2 F. unfold needs_equal_sizes in N. apply existsb_exists in N as [x [I E]].
  apply String.eqb_eq in E. subst x. destruct I as [<-|[<-|[<-|[<-|[<-|[<-|[]]]]]]]; try congruence.
  - apply fits_all_square; [exact L|]. apply F. vm_compute. tauto.
  - apply fits_all_square; [exact L|]. apply F. vm_compute. tauto.
  - apply (fits_all_cube _ []); [exact L|]. apply F. vm_compute. tauto.
  - apply (fits_all_cube _ []); [exact L|]. apply F. vm_compute. tauto.
Qed.
Local Close Scope string_scope.
