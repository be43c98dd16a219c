(** Construction and building of the convolution layers (data_format
    'channels_last'), inverted: what is known of a layer that was built. *)
From Verif Require Export LayerFacts.
Local Open Scope string_scope.
Local Open Scope list_scope.

(** ** The option handed to the backend *)

Lemma length_upper p : String.length (upper p) = String.length p.
Proof. induction p as [|c p IH]; cbn; [reflexivity|]. rewrite IH. reflexivity. Qed.

Lemma upper_substring p : forall a b, upper (String.substring a b p) = String.substring a b (upper p).
Proof.
  induction p as [|c p IH]; intros a b; [destruct a, b; reflexivity|].
  destruct a as [|a]; [|apply IH]. destruct b as [|b]; [reflexivity|]. cbn. f_equal. apply IH.
Qed.

Lemma backend_option p :
  mem_str (upper p) ["SAME"; "VALID"; "SAME_EQUIV"; "VALID_EQUIV"] = true ->
  let b := if endswith p "_equiv" then drop_last 6 p else p in
  mem_str (lower b) ["valid"; "same"] = true ->
  lower b = if is_same (upper p) then "same" else "valid".
Proof.
  intros M b. apply mem_str_In in M. unfold b. destruct (endswith p "_equiv") eqn:EW.
  - unfold endswith in EW. apply andb_true_iff in EW as [LE _]. apply Nat.leb_le in LE. cbn in LE.
    rewrite <- (lower_upper (drop_last 6 p)). unfold drop_last. rewrite upper_substring, <- (length_upper p).
    rewrite <- (length_upper p) in LE. intros _.
    destruct M as [M|[M|[M|[M|[]]]]]; rewrite <- M in LE |- *; try (cbn in LE; lia); reflexivity.
  - rewrite <- (lower_upper p). destruct M as [<-|[<-|[<-|[<-|[]]]]]; cbn; intros H; try discriminate H; reflexivity.
Qed.

(** ** The bias *)

Lemma pickF_repeat {A} {ZA : Zero A} o (F : nat -> list nat -> A) R g i :
  g < R * o -> pickF (repeat (o, F) R) g i = F (g mod o) i.
Proof.
  revert g. induction R as [|R IH]; intros g Hg; [lia|].
  unfold pickF. cbn [repeat fold_right fst snd]. fold (pickF (repeat (o, F) R)).
  destruct (Nat.ltb_spec g o) as [H|H].
  - rewrite Nat.mod_small by exact H. reflexivity.
  - rewrite IH by (cbn in Hg; lia). f_equal. assert (o <> 0) by (intros ->; lia).
    replace g with ((g - o) + 1 * o) at 2 by lia. symmetry. apply Nat.mod_add. assumption.
Qed.

Lemma total_repeat {A} o (F : nat -> list nat -> A) R : total (repeat (o, F) R) = R * o.
Proof. unfold total. induction R as [|R IH]; cbn; [reflexivity|]. rewrite IH. reflexivity. Qed.

Lemma repeated_bias_indices {A} {ZA : Zero A} T act o (w : list nat -> A) :
  subgroup_get (gt_group T) (gt_acting T) = Ok act -> act <> [] ->
  compute_repeated_bias_indices T (tab [o] w) = Ok (tab [List.length act * o] (fun i => nth 0 i 0 mod o)).
Proof.
  intros SA NE. unfold compute_repeated_bias_indices. rewrite index_tensor_tab, shape_tab. cbn [bind]. rewrite SA. cbn [bind].
  set (F := fun (g : nat) (_ : list nat) => g).
  assert (E : tab [o] (ravel [o]) = stk 0 o [] F).
  { unfold stk. cbn [insert_at firstn skipn app]. apply tab_ext. intros i I. apply inb1 in I as [q [-> Q]].
    unfold F. cbn. lia. }
  rewrite E. set (R := List.length act).
  assert (RP : R <> 0) by (unfold R; destruct act; [contradiction|discriminate]).
  replace (repeat (stk 0 o [] F) R) with (map (fun nF => stk 0 (fst nF) [] (snd nF)) (repeat (o, F) R))
    by (clear; induction R as [|R IH]; cbn; [reflexivity|f_equal; exact IH]).
  change 0%Z with (Z.of_nat 0). rewrite concatenate_stk; [|destruct R; [contradiction|discriminate]|cbn; lia].
  rewrite total_repeat. f_equal. unfold stk. cbn [insert_at firstn skipn app]. apply tab_ext. intros i I.
  apply inb1 in I as [q [-> Q]]. cbn [nth remove_at firstn skipn app]. rewrite pickF_repeat by exact Q. reflexivity.
Qed.

(** ** The convolution layers *)

Definition padding_name {A} (a : conv_args A) : option string :=
  match ca_padding a with Some po => po | None => Some "valid_equiv" end.
Definition strides_of {A} (a : conv_args A) : size_arg := match ca_strides a with Some s => s | None => One 1 end.
Definition dilation_of {A} (a : conv_args A) : size_arg := match ca_dilation a with Some s => s | None => One 1 end.

(** The [group] argument [g] stands for the group object [G], whose name is [name]. *)
Definition known (name : string) (G : group) : Prop := g_name G = name /\ name <> "".
Definition given (g : group_arg) (G : group) : Prop :=
  match g with ByName s => dict_get group_dict s | Object G => Ok G end = Ok G.

Lemma lib_known name G : dict_get group_dict name = Ok G -> known name G.
Proof. intros DG. split; [apply (lib_ok _ _ DG)|exact (lib_name_nonempty _ _ DG)]. Qed.
Lemma lib_given name G g : dict_get group_dict name = Ok G -> g = ByName name \/ g = Object G -> given g G.
Proof. intros DG [-> | ->]; [exact DG|reflexivity]. Qed.

Section Built.
Context {A : Type} {RA : Arith A}.
Context (G : group) (d : nat) (E : list symmetry) (eq : bool) (OK : group_ok G d E eq).
Notation n := (List.length E).

Record conv_facts (tr valued : bool) (act dom : list nat) (c C o : nat) (k s dl eb ea : list nat)
  (same ub : bool) (f : A -> A) (kinit binit : list nat -> A) (L : conv_layer A) : Prop := {
  cf_group : gt_group (cl_gt L) = G;
  cf_dims : gt_dims (cl_gt L) = d;
  cf_tr : gt_transpose (cl_gt L) = tr;
  cf_fmt : gt_format (cl_gt L) = "channels_last";
  cf_fmt' : cl_format L = "channels_last";
  cf_gaxis : gt_group_axis (cl_gt L) = Z.of_nat (d + 1);
  cf_caxis : gt_channels_axis (cl_gt L) = Z.of_nat (if valued then d + 2 else d + 1);
  cf_dom : domain_ok G (cl_gt L) valued dom c C;
  cf_act : sub_idx G (gt_acting (cl_gt L)) act;
  cf_act' : subgroup_get G (gt_acting (cl_gt L)) = Ok act;
  cf_pads : pads_with (A := A) d (gt_padding (cl_gt L)) eb ea;
  cf_eb : List.length eb = d;
  cf_ea : List.length ea = d;
  cf_fit : kernel_fits eq k;
  cf_kidx : gt_kernel_indices (cl_gt L) = Some (
     if tr then tab (k ++ [List.length act * o; C]) (ker d (fun j r q => kidx G E valued dom act c o k C j q r))
     else tab (k ++ [C; List.length act * o]) (ker d (kidx G E valued dom act c o k C)));
  cf_bidx : ub = true -> gt_bias_indices (cl_gt L) = Some (tab [List.length act * o] (fun i => nth 0 i 0 mod o));
  cf_kernel : cl_kernel L = Some (tab (k ++ (if tr then [o; C] else [C; o])) kinit);
  cf_bias : cl_bias L = if ub then Some (tab [o] binit) else None;
  cf_filters : cl_filters L = o;
  cf_padding : cl_padding L = if same then "same" else "valid";
  cf_strides : cl_strides L = s;
  cf_dilation : cl_dilation L = dl;
  cf_activation : cl_activation L = f;
  cf_k : List.length k = d;
  cf_s : List.length s = d;
  cf_dl : List.length dl = d;
  cf_kpos : forall a, a < d -> 0 < nth a k 0;
  cf_spos : forall a, a < d -> 0 < nth a s 0;
  cf_opos : 0 < o
}.

Lemma std_pos (a : size_arg) l : standardize_tuple d a = Ok l -> List.length l = d /\ forall m, m < d -> 0 < nth m l 0.
Proof.
  intros H. apply standardize_tuple_inv in H as [L [_ P]]. split; [exact L|]. intros m M. apply P, nth_In. lia.
Qed.

Lemma named_sub name H idx : subgroup_get G (Some name) = Ok idx -> name <> "" ->
  parse_subgroup G H = Some name -> sub_idx G H idx /\ sub_idx G (Some name) idx.
Proof.
  intros S NE P. unfold sub_idx. rewrite P. split; [exact S|].
  unfold parse_subgroup. destruct (String.eqb_spec name ""); [contradiction|exact S].
Qed.

(** [conv_init] inverted. *)
Lemma conv_init_inv_of name tr (a : conv_args A) L0 :
  known name G -> given (ca_group a) G ->
  ca_data_format a = "channels_last" -> conv_init d tr a = Ok L0 ->
  exists p k s dl Hn, padding_name a = Some p /\
    standardize_tuple d (ca_kernel_size a) = Ok k /\ standardize_tuple d (strides_of a) = Ok s /\
    standardize_tuple d (dilation_of a) = Ok dl /\
    parse_subgroup G (ca_subgroup a) = Some Hn /\ Hn <> "" /\
    mem_str (upper p) ["SAME"; "VALID"; "SAME_EQUIV"; "VALID_EQUIV"] = true /\
    0 < ca_filters a /\
    negb (existsb (fun n => 1 <? n)%nat s && existsb (fun n => 1 <? n)%nat dl) = true /\
    exists P, padding_init (ca_kernel_size a) d (strides_of a) (Some p) (ca_allow a) "channels_last" tr = Ok P /\
    L0 = mkConv (mkGT d tr G (gt_subgroup (cl_gt L0)) (Some (if tr then Hn else name)) (Some (if tr then name else Hn)) P "channels_last"
                      (Z.of_nat (d + 1)) (Z.of_nat (d + 1)) false None None None None)
                s dl k (if is_same (upper p) then "same" else "valid") "channels_last" (ca_use_bias a) (ca_activation a)
                (ca_filters a) None None None.
Proof.
  intros DG AG AF I. unfold conv_init, gt_init in I. rewrite AF in I.
  assert (GA : match ca_group a with ByName s => dict_get group_dict s | Object G => Ok G end = Ok G).
  { exact AG. }
  rewrite GA in I. cbn [bind] in I. fold (padding_name a) in I. fold (strides_of a) in I. fold (dilation_of a) in I.
  destruct (parse_subgroup G (ca_subgroup a)) as [Hn|] eqn:PS; [|discriminate I].
  destruct (dict_get group_dict Hn) as [K|] eqn:DK; [|discriminate I]. cbn [bind] in I.
  assert (NK : g_name K = Hn) by (apply (lib_ok _ _ DK)). pose proof (proj1 DG) as NG.
  rewrite NK, NG in I.
  destruct (padding_name a) as [p|]; [|destruct tr; discriminate I].
  exists p.
  assert (I' : (P <- padding_init (ca_kernel_size a) d (strides_of a) (Some p) (ca_allow a) "channels_last" tr ;;
     k <- standardize_tuple d (ca_kernel_size a) ;; s <- standardize_tuple d (strides_of a) ;; dl <- standardize_tuple d (dilation_of a) ;;
     q <- standardize_padding (pl_built_in P) ;; f <- standardize_format "channels_last" ;;
     guard (0 <? ca_filters a)%nat else ValueError ;;
     guard negb (existsb (fun n => 1 <? n)%nat s && existsb (fun n => 1 <? n)%nat dl) else ValueError ;;
     Ok (mkConv (mkGT d tr G K (Some (if tr then Hn else name)) (Some (if tr then name else Hn)) P "channels_last"
                      (Z.of_nat (d + 1)) (Z.of_nat (d + 1)) false None None None None)
                s dl k q f (ca_use_bias a) (ca_activation a) (ca_filters a) None None None)) = Ok L0).
  { rewrite <- I. replace (Z.of_nat (d + 1)) with (Z.of_nat d + 1)%Z by lia.
    destruct tr; destruct (padding_init _ _ _ _ _ _ _) as [P|]; try reflexivity; cbn [bind gt_padding String.eqb Ascii.eqb Bool.eqb];
    replace (Z.of_nat d + 1 + 0)%Z with (Z.of_nat d + 1)%Z by lia; reflexivity. }
  clear I. destruct (padding_init _ _ _ _ _ _ _) as [P|] eqn:PI; [|discriminate I']. cbn [bind] in I'.
  destruct (standardize_tuple d (ca_kernel_size a)) as [k|]; [|discriminate I']. cbn [bind] in I'.
  destruct (standardize_tuple d (strides_of a)) as [s|]; [|discriminate I']. cbn [bind] in I'.
  destruct (standardize_tuple d (dilation_of a)) as [dl|]; [|discriminate I']. cbn [bind] in I'.
  pose proof (padding_init_inv _ _ _ _ _ _ _ _ PI) as [_ [MM [BI _]]].
  unfold standardize_padding in I'. destruct (mem_str (lower (pl_built_in P)) ["valid"; "same"]) eqn:MB; [|discriminate I'].
  rewrite BI in I', MB. rewrite (backend_option p MM MB) in I'. cbn [bind] in I'.
  unfold standardize_format in I'. cbn [lower lower_ascii] in I'.
  replace (lower "channels_last") with "channels_last" in I' by reflexivity.
  cbn [mem_str existsb String.eqb Ascii.eqb Bool.eqb orb bind] in I'.
  destruct (Nat.ltb_spec 0 (ca_filters a)) as [FP|]; [|discriminate I'].
  destruct (negb _) eqn:NS; [|discriminate I'].
  exists k, s, dl, Hn. split; [reflexivity|]. split; [reflexivity|]. split; [reflexivity|]. split; [reflexivity|].
  split; [reflexivity|]. split; [apply (lib_name_nonempty _ _ DK)|]. split; [exact MM|]. split; [exact FP|]. split; [exact NS|].
  exists P. split; [reflexivity|]. injection I' as <-. reflexivity.
Qed.

Definition conv_init_inv name tr (a : conv_args A) L0
  (DG : dict_get group_dict name = Ok G) (AG : ca_group a = ByName name \/ ca_group a = Object G) :=
  conv_init_inv_of name tr a L0 (lib_known _ _ DG) (lib_given _ _ _ DG AG).

Lemma merge_static bs (m : list nat) g c : List.length m = d ->
  merge_shapes (bs :: map Some m ++ [Some g; Some c]) (Z.of_nat (d + 1)) (Z.of_nat (d + 2)) = Ok (bs :: map Some m ++ [Some (g * c)]).
Proof.
  intros L. unfold merge_shapes.
  assert (LL : List.length (bs :: map Some m ++ [Some g; Some c]) = d + 3)
    by (cbn [List.length]; rewrite app_length, map_length; cbn [List.length]; lia).
  rewrite (py_nth_nat _ (d + 2) None), (py_nth_nat _ (d + 1) None) by lia. cbn [bind].
  replace (nth (d + 2) (bs :: map Some m ++ [Some g; Some c]) None) with (Some c).
  2:{ replace (d + 2) with (S (d + 1)) by lia. cbn [nth]. rewrite app_nth2 by (rewrite map_length; lia).
      rewrite map_length. replace (d + 1 - List.length m) with 1 by lia. reflexivity. }
  replace (nth (d + 1) (bs :: map Some m ++ [Some g; Some c]) None) with (Some g).
  2:{ replace (d + 1) with (S d) by lia. cbn [nth]. rewrite app_nth2 by (rewrite map_length; lia).
      rewrite map_length, L, Nat.sub_diag. reflexivity. }
  rewrite py_set_nat by lia. cbn [bind]. rewrite py_pop_nat by (rewrite length_upd; lia). f_equal.
  replace (bs :: map Some m ++ [Some g; Some c]) with ((bs :: map Some m ++ [Some g]) ++ [Some c]) by (cbn [app]; rewrite <- app_assoc; reflexivity).
  replace (d + 2) with (List.length (bs :: map Some m ++ [Some g])) by (cbn [List.length]; rewrite app_length, map_length; cbn [List.length]; lia).
  rewrite upd_app. cbn [app]. rewrite <- app_assoc. cbn [app].
  change (bs :: map Some m ++ [Some g; Some (c * g)]) with ((bs :: map Some m) ++ Some g :: [Some (c * g)]).
  replace (d + 1) with (List.length (bs :: map Some m)) by (cbn [List.length]; rewrite map_length; lia).
  rewrite remove_at_app. cbn [app]. rewrite Nat.mul_comm. reflexivity.
Qed.

(** The shape a layer is built with. *)
Definition build_shape (valued : bool) (bs : option nat) (m : list nat) (g c : nat) : sshape :=
  bs :: map Some m ++ (if valued then [Some g; Some c] else [Some c]).

Lemma conv_build_inv_of name tr (a : conv_args A) L0 valued bs m g c kinit binit L :
  known name G -> given (ca_group a) G ->
  ca_data_format a = "channels_last" -> conv_init d tr a = Ok L0 -> List.length m = d ->
  conv_build L0 (build_shape valued bs m g c) kinit binit = Ok L ->
  exists p k s dl eb ea act dom,
    padding_name a = Some p /\
    standardize_tuple d (ca_kernel_size a) = Ok k /\ standardize_tuple d (strides_of a) = Ok s /\
    standardize_tuple d (dilation_of a) = Ok dl /\
    widths_ok (is_plain (upper p)) (ca_allow a) (is_same (upper p)) tr d m k s eb ea /\
    sub_idx G (if tr then Some "" else ca_subgroup a) act /\
    (valued = true -> sub_idx G (if tr then ca_subgroup a else Some "") dom /\ g = List.length dom) /\
    conv_facts tr valued act dom c (if valued then g * c else c) (ca_filters a) k s dl eb ea (is_same (upper p)) (ca_use_bias a)
               (ca_activation a) kinit binit L /\
    cl_channels L = Some c /\ cl_kernel_size L = k /\
    gt_reshaped (cl_gt L) = Some (bs :: map Some m ++ [Some (if valued then g * c else c)]) /\
    exists P, padding_init (ca_kernel_size a) d (strides_of a) (Some p) (ca_allow a) "channels_last" tr = Ok P /\
      padding_build P (bs :: map Some m ++ [Some (if valued then g * c else c)]) = Ok (gt_padding (cl_gt L)).
Proof.
  intros DG AG AF I LM B.
  destruct (conv_init_inv_of name tr a L0 DG AG AF I) as [p [k [s [dl [Hn [PN [SK [SS [SD [PS [NE [MM [FP [_ [P [PI EL]]]]]]]]]]]]]]]].
  destruct DG as [NG NEG].
  set (K := gt_subgroup (cl_gt L0)) in EL. clearbody K. rewrite EL in B. clear EL I L0.
  destruct (std_pos _ _ SK) as [Lk Pk]. destruct (std_pos _ _ SS) as [Ls Ps]. destruct (std_pos _ _ SD) as [Ldl _].
  assert (LSH : List.length (build_shape valued bs m g c) = d + 2 + (if valued then 1 else 0)).
  { unfold build_shape. cbn [List.length]. rewrite app_length, map_length. destruct valued; cbn [List.length]; lia. }
  unfold conv_build in B. unfold gt_build in B. cbn [cl_gt gt_dims gt_format gt_domain gt_channels_axis gt_group_axis gt_group gt_padding] in B.
  assert (VV : (List.length (build_shape valued bs m g c) =? d + 3)%nat = valued).
  { rewrite LSH. destruct valued; [apply Nat.eqb_eq|apply Nat.eqb_neq]; lia. }
  rewrite VV in B. set (C := if valued then g * c else c).
  cbn [String.eqb Ascii.eqb Bool.eqb andb] in B.
  (* the domain *)
  assert (DOM : valued = true -> exists dom, subgroup_get G (Some (if tr then Hn else name)) = Ok dom /\ g = List.length dom).
  { intros ->. cbn [bind] in B. destruct (subgroup_get G (Some (if tr then Hn else name))) as [dom|]; [|discriminate B].
    exists dom. split; [reflexivity|]. cbn [bind] in B.
    rewrite (py_nth_nat _ (d + 1) None) in B by lia. cbn [bind] in B.
    replace (nth (d + 1) (build_shape true bs m g c) None) with (Some g) in B.
    - destruct (Nat.eqb_spec g (List.length dom)); [assumption|discriminate B].
    - unfold build_shape. replace (d + 1) with (S d) by lia. cbn [nth]. rewrite app_nth2 by (rewrite map_length; lia).
      rewrite map_length, LM, Nat.sub_diag. reflexivity. }
  assert (DOM' : exists dom, (valued = true -> subgroup_get G (Some (if tr then Hn else name)) = Ok dom /\ g = List.length dom)).
  { destruct valued; [destruct (DOM eq_refl) as [dom D]; exists dom; intros _; exact D|exists []; intros; discriminate]. }
  destruct DOM' as [dom DM]. clear DOM.
  set (cax := if valued then (Z.of_nat (d + 1) + 1)%Z else Z.of_nat (d + 1)) in *.
  assert (CAX : cax = Z.of_nat (if valued then d + 2 else d + 1)) by (unfold cax; destruct valued; lia).
  assert (RS : (if valued
               then idx <- subgroup_get G (if valued then Some (if tr then Hn else name) else None) ;;
                    o <- py_nth (build_shape valued bs m g c) (Z.of_nat (d + 1)) ;;
                    guard (match o with Some n => (n =? List.length idx)%nat | None => false end)
                    else AssertionError ;;
                    merge_shapes (build_shape valued bs m g c) (Z.of_nat (d + 1)) cax
               else Ok (build_shape valued bs m g c)) = Ok (bs :: map Some m ++ [Some C])).
  { destruct valued; [|reflexivity]. destruct (DM eq_refl) as [D1 D2]. rewrite D1. cbn [bind].
    rewrite (py_nth_nat _ (d + 1) None) by lia. cbn [bind].
    replace (nth (d + 1) (build_shape true bs m g c) None) with (Some g).
    - rewrite D2 at 1. rewrite Nat.eqb_refl. rewrite CAX. apply merge_static. exact LM.
    - unfold build_shape. replace (d + 1) with (S d) by lia. cbn [nth]. rewrite app_nth2 by (rewrite map_length; lia).
      rewrite map_length, LM, Nat.sub_diag. reflexivity. }
  rewrite RS in B. cbn [bind] in B. clear RS.
  destruct (padding_build P (bs :: map Some m ++ [Some C])) as [P'|] eqn:PB; [|discriminate B].
  destruct (built_pads (A := A) _ _ d k s p (ca_allow a) tr P m bs (Some C) P' SK SS PI LM PB) as [eb [ea [WO PW]]].
  cbn [bind] in B. unfold gt_set_build, cl_set_gt in B. cbn [gt_reshaped cl_format String.eqb Ascii.eqb Bool.eqb] in B.
  assert (CH : py_nth (bs :: map Some m ++ [Some C]) (-1) = Ok (Some C)).
  { unfold py_nth. set (l := bs :: map Some m ++ [Some C]).
    assert (LL : List.length l = d + 2) by (unfold l; cbn [List.length]; rewrite app_length, map_length; cbn [List.length]; lia).
    replace (-1)%Z with (Z.of_nat (d + 1) - Z.of_nat (List.length l))%Z by lia. rewrite norm_axis_neg by lia. cbn [bind].
    rewrite (nth_error_nth' l None) by lia. unfold l. replace (d + 1) with (S d) by lia. cbn [nth].
    rewrite app_nth2 by (rewrite map_length; lia). rewrite map_length, LM, Nat.sub_diag. reflexivity. }
  rewrite CH in B. cbn [bind gt_transpose] in B.
  match type of B with (_ <- ?M ;; _) = _ => destruct M; [|discriminate B] end. cbn [bind] in B.
  unfold gt_build_conv in B. cbn [cl_kernel_size cl_filters cl_use_bias gt_bias_indices] in B.
  set (T := mkGT _ _ _ _ _ _ _ _ _ _ _ _ _ _ _) in B.
  (* the acting group *)
  assert (ACT : exists act, subgroup_get G (gt_acting T) = Ok act).
  { destruct (subgroup_get G (gt_acting T)) as [act|e] eqn:SA; [eauto|]. exfalso.
    match type of B with (_ <- (b <- ?M ;; _) ;; _) = _ => destruct M; [|discriminate B] end. cbn [bind] in B.
    unfold compute_transformed_kernel_indices in B.
    match type of B with (_ <- (_ <- (_ <- ?M ;; _) ;; _) ;; _) = _ => destruct M as [kk|]; [|discriminate B] end. cbn [bind] in B.
    rewrite index_tensor_tab in B. cbn [bind] in B.
    assert (PA : parse_subgroup G (gt_acting T) = gt_acting T).
    { cbn [gt_acting T parse_subgroup]. destruct (String.eqb_spec (if tr then name else Hn) ""); [destruct tr; contradiction|reflexivity]. }
    assert (NOACT : forall B0 (ZB : Zero B0) (i : tensor B0) sp na ga dm, exists e, action G i sp na ga (gt_acting T) dm = Err e).
    { intros B0 ZB i sp na ga dm. unfold action. rewrite PA.
      assert (AG1 : forall (i : tensor B0) na sp, exists e, action_on_grid G i na sp (gt_acting T) = Err e).
      { intros i' na' sp'. unfold action_on_grid. destruct (g__action G B0 ZB i' sp' na'); cbn [bind]; [|eauto]. rewrite SA. cbn [bind]. eauto. }
      destruct (parse_subgroup G dm); [|apply AG1]. destruct ga; [|rewrite SA; cbn [bind]; eauto]. unfold action_on_group. rewrite SA. cbn [bind]. eauto. }
    cbn [gt_group T] in B.
    destruct (negb (gt_group_valued T)).
    - destruct (NOACT nat _ (tab (shape kk) (ravel (shape kk))) (map Z.of_nat (seq 0 (gt_dims T))) (Z.of_nat (gt_dims T)) None (gt_domain T)) as [e1 E1].
      change (gt_group T) with G in B. rewrite E1 in B. discriminate B.
    - change (gt_group T) with G in B. destruct (subgroup_get G (gt_domain T)) as [dm|]; [|discriminate B]. cbn [bind] in B.
      destruct (split_axes _ _ _) as [i1|]; [|discriminate B]. cbn [bind] in B.
      destruct (NOACT nat _ i1 (map Z.of_nat (seq 0 (gt_dims T))) (Z.of_nat (gt_dims T)) (Some (Z.of_nat (gt_dims T))) (gt_domain T)) as [e1 E1].
      rewrite E1 in B. discriminate B. }
  destruct ACT as [act SA].
  assert (SA2 : sub_idx G (if tr then Some "" else ca_subgroup a) act /\ sub_idx G (gt_acting T) act).
  { destruct tr.
    - apply named_sub; [exact SA|exact NEG|]. cbn. rewrite NG. reflexivity.
    - apply named_sub; [exact SA|exact NE|exact PS]. }
  destruct SA2 as [SA2 SA3].
  assert (SD2 : valued = true -> sub_idx G (if tr then ca_subgroup a else Some "") dom /\ sub_idx G (Some (if tr then Hn else name)) dom).
  { intros V. destruct (DM V) as [D1 _]. destruct tr.
    - apply named_sub; [exact D1|exact NE|exact PS].
    - apply named_sub; [exact D1|exact NEG|]. cbn. rewrite NG. reflexivity. }
  exists p, k, s, dl, eb, ea, act, dom. split; [exact PN|]. split; [exact SK|]. split; [exact SS|]. split; [exact SD|]. split; [exact WO|].
  split; [exact SA2|]. split; [intros V; split; [apply SD2; exact V|apply DM; exact V]|].
  assert (DO : domain_ok G T valued dom c C).
  { split; [reflexivity|]. unfold C. destruct valued; [|reflexivity]. destruct (DM eq_refl) as [D1 D2].
    split; [apply SD2; reflexivity|]. split; [exact D1|]. rewrite D2. reflexivity. }
  destruct (sub_idx_facts _ _ _ _ OK _ _ SA3) as [_ [_ [HA _]]].
  assert (NA : act <> []) by (intros ->; discriminate HA).
  assert (BB : match (if ca_use_bias a then Some (tab [ca_filters a] binit) else None) with
               | Some b => i <- compute_repeated_bias_indices T b ;; Ok (Some i) | None => Ok None end
          = Ok (if ca_use_bias a then Some (tab [List.length act * ca_filters a] (fun i => nth 0 i 0 mod ca_filters a)) else None)).
  { destruct (ca_use_bias a); [|reflexivity]. rewrite (repeated_bias_indices T act) by assumption. reflexivity. }
  cbn [gt_bias_indices T] in B. change (gt_bias_indices T) with (@None (tensor nat)) in B.
  rewrite BB in B. cbn [bind] in B. clear BB.
  destruct (kernel_indices_eq G d E eq OK T tr valued dom act c C (ca_filters a) k kinit eq_refl eq_refl eq_refl DO SA3 Lk) as [[KF KI]|[_ [e KI]]].
  2:{ exfalso. change (gt_transpose T) with tr in B. rewrite KI in B. discriminate B. }
  rewrite KI in B. cbn [bind] in B.
  match type of B with (_ <- ?M ;; _) = _ => destruct M as [ch|] eqn:CE; [|discriminate B] end. cbn [bind] in B. injection B as <-.
  split.
  2:{ split; [|split; [reflexivity|split; [reflexivity|exists P; split; [exact PI|exact PB]]]]. cbn [cl_channels cl_set_channels]. f_equal.
      cbn [gt_group_valued gt_set_indices gt_channels_axis T] in CE. destruct valued.
      - cbn [gt_group_valued T] in CE. fold cax in CE. rewrite CAX in CE. rewrite (py_nth_nat _ (d + 2) None) in CE by lia. cbn [bind] in CE.
        replace (nth (d + 2) (build_shape true bs m g c) None) with (Some c) in CE; [injection CE as <-; reflexivity|].
        unfold build_shape. replace (d + 2) with (S (d + 1)) by lia. cbn [nth]. rewrite app_nth2 by (rewrite map_length; lia).
        rewrite map_length. replace (d + 1 - List.length m) with 1 by lia. reflexivity.
      - cbn [gt_group_valued T] in CE. injection CE as <-. reflexivity. }
  constructor; try reflexivity; try assumption; try exact CAX; try (intros ->; reflexivity).
  - apply WO.
  - apply WO.
Qed.

Definition conv_build_inv name tr (a : conv_args A) L0 valued bs m g c kinit binit L
  (DG : dict_get group_dict name = Ok G) (AG : ca_group a = ByName name \/ ca_group a = Object G) :=
  conv_build_inv_of name tr a L0 valued bs m g c kinit binit L (lib_known _ _ DG) (lib_given _ _ _ DG AG).
End Built.
