(** C53, C54: exactly when layers can be constructed and built, and how a layer with a
    subgroup relates to the layer with the whole group. *)
From Verif Require Import BuildTheorems Properties_Padding Properties_Config.
Local Open Scope string_scope.
Local Open Scope list_scope.

(** 'same' or 'valid' in any letter case, possibly followed by '_equiv' (in lower case:
    see C47_other_letter_case). *)
Definition usable_option (p : string) : Prop :=
  exists q e, p = append q e /\ In (lower q) ["same"; "valid"] /\ In e [""; "_equiv"].

Lemma chars0 p : String.length p = 0 -> p = "".
Proof. destruct p; [reflexivity|discriminate]. Qed.
Lemma charsS p n : String.length p = S n -> exists c q, p = String c q /\ String.length q = n.
Proof. destruct p as [|c q]; [discriminate|]. intros E. injection E as E. exists c, q. split; [reflexivity|exact E]. Qed.

Lemma length_lower p : String.length (lower p) = String.length p.
Proof. induction p as [|c p IH]; cbn; [reflexivity|]. rewrite IH. reflexivity. Qed.

Lemma append_empty p : append p "" = p.
Proof. induction p as [|c p IH]; cbn; [reflexivity|]. rewrite IH. reflexivity. Qed.

Ltac spell := repeat match goal with
  | H : String.length ?p = S _ |- _ => apply charsS in H as [? [? [-> H]]]
  | H : String.length ?p = 0 |- _ => apply chars0 in H as ->
  end.

Lemma usable_iff p :
  (mem_str (upper p) ["SAME"; "VALID"; "SAME_EQUIV"; "VALID_EQUIV"] = true /\
   mem_str (lower (if endswith p "_equiv" then drop_last 6 p else p)) ["valid"; "same"] = true) <-> usable_option p.
Proof.
  split.
  - intros [U M]. apply mem_str_In in M. destruct (endswith p "_equiv") eqn:EW.
    + exists (drop_last 6 p), "_equiv". split; [|split; [cbn [In] in *; tauto|right; left; reflexivity]].
      unfold endswith in EW. apply andb_true_iff in EW as [LE EQ]. cbn [String.length] in *. apply Nat.leb_le in LE. apply String.eqb_eq in EQ.
      unfold drop_last. set (n := String.length p - 6) in *. assert (L : String.length p = n + 6) by lia. clearbody n. clear U M LE.
      revert p L EQ. induction n as [|n IH]; intros p L EQ.
      * cbn in L. spell. cbn in EQ. rewrite EQ. reflexivity.
      * cbn [Nat.add] in L. apply charsS in L as [ch [q [-> L]]]. cbn [String.substring append] in EQ |- *. rewrite (IH q L EQ) at 1. reflexivity.
    + exists p, "". split; [symmetry; apply append_empty|]. split; [cbn [In] in *; tauto|left; reflexivity].
  - intros [q [e [-> [Q Ee]]]].
    assert (L : String.length q = 4 \/ String.length q = 5).
    { rewrite <- (length_lower q). destruct Q as [<-|[<-|[]]]; [left|right]; reflexivity. }
    assert (UQ : upper q = "SAME" \/ upper q = "VALID").
    { rewrite <- (upper_lower q). destruct Q as [<-|[<-|[]]]; [left|right]; reflexivity. }
    assert (LQ : mem_str (lower q) ["valid"; "same"] = true) by (destruct Q as [<-|[<-|[]]]; reflexivity).
    assert (UA : forall r, upper (append q r) = append (upper q) (upper r)).
    { clear. intros r. induction q as [|c q IH]; [reflexivity|]. cbn. rewrite IH. reflexivity. }
    destruct Ee as [<-|[<-|[]]].
    + rewrite append_empty. split; [destruct UQ as [-> | ->]; reflexivity|].
      replace (endswith q "_equiv") with false; [exact LQ|]. symmetry. unfold endswith. apply andb_false_iff. left. apply Nat.leb_gt. cbn [String.length]. lia.
    + split; [rewrite UA; destruct UQ as [-> | ->]; reflexivity|].
      replace (endswith (append q "_equiv") "_equiv") with true.
      * replace (drop_last 6 (append q "_equiv")) with q; [exact LQ|]. clear - L. destruct L as [L|L]; spell; reflexivity.
      * clear - L. destruct L as [L|L]; spell; reflexivity.
Qed.

Section Builds.
Context {A : Type} {RA : Arith A}.

(** The constructor. *)
Theorem C53_when_the_constructor_accepts name G (a : conv_args A) H (tr : bool) :
  layer_for name G a -> ca_subgroup a = Some H ->
  let d := dimension_of name in
  ((exists L0, conv_init d tr a = Ok L0) <->
   ((H = "" \/ In H library_names) /\ 0 < ca_filters a /\
    (exists p, (match ca_padding a with Some q => q | None => Some "valid_equiv" end) = Some p /\ usable_option p) /\
    exists k s dl, sizes d a k s dl /\ ((forall v, In v s -> v = 1) \/ (forall v, In v dl -> v = 1)))).
Proof.
  intros LF HS d. pose proof LF as [DG [AG AF]].
  assert (GA : match ca_group a with ByName s => dict_get group_dict s | Object G0 => Ok G0 end = Ok G).
  { destruct AG as [-> | ->]; [exact DG|reflexivity]. }
  assert (NS : forall (l : list nat), (forall v, In v l -> 0 < v) -> existsb (fun n => 1 <? n)%nat l = false <-> (forall v, In v l -> v = 1)).
  { intros l P. split.
    - intros Q v V. destruct (Nat.ltb_spec 1 v) as [LT|LE]; [|specialize (P v V); lia]. exfalso.
      assert (existsb (fun n => 1 <? n)%nat l = true) by (apply existsb_exists; exists v; split; [exact V|apply Nat.ltb_lt; exact LT]). congruence.
    - intros Q. destruct (existsb _ l) eqn:X; [|reflexivity]. apply existsb_exists in X as [v [V X]]. rewrite (Q v V) in X. discriminate X. }
  assert (POS : forall ar l, standardize_tuple d ar = Ok l -> forall v, In v l -> 0 < v).
  { intros ar l S v V. destruct (std_pos d _ _ S) as [LL PP]. destruct (In_nth _ _ 0 V) as [i [I <-]]. apply PP. lia. }
  assert (NK : exists K, dict_get group_dict name = Ok K /\ g_name K = name) by (exists G; split; [exact DG|apply (lib_ok _ _ DG)]).
  assert (NG : g_name G = name) by (apply (lib_ok _ _ DG)).
  assert (LK : (exists K, match parse_subgroup G (Some H) with Some s => dict_get group_dict s | None => Err KeyError end = Ok K) <-> (H = "" \/ In H library_names)).
  { unfold parse_subgroup. destruct (String.eqb_spec H "") as [->|NE].
    - rewrite NG. split; [intros _; left; reflexivity|intros _; exists G; exact DG].
    - split.
      + intros [K Q]. right. destruct (in_dec string_dec H library_names) as [I|I]; [exact I|]. rewrite (dict_get_none _ _ I) in Q. discriminate Q.
      + intros [->|I]; [contradiction|]. clear NE. revert I. unfold library_names. generalize group_dict. intros l.
        induction l as [|[k v] l IHl]; cbn [map fst In dict_get]; [intros []|]. intros [->|I]; [rewrite String.eqb_refl; exists v; reflexivity|].
        destruct (String.eqb H k); [exists v; reflexivity|apply IHl; exact I]. }
  split.
  - intros [L0 I].
    destruct (conv_init_inv G d name tr a L0 DG AG AF I) as [p [k [s [dl [Hn [PN [SK [SS [SD [PS [NE [MM [FP [NSD [P [PI EL]]]]]]]]]]]]]]]].
    split.
    { apply LK. unfold conv_init, gt_init in I. rewrite GA, HS in I. cbn [bind] in I.
      destruct (match parse_subgroup G (Some H) with Some s => dict_get group_dict s | None => Err KeyError end) as [K|]; [eauto|discriminate I]. }
    split; [exact FP|]. split.
    { exists p. split; [exact PN|]. apply usable_iff. split; [exact MM|].
      pose proof (padding_init_inv _ _ _ _ _ _ _ _ PI) as [_ [_ [BI _]]].
      unfold conv_init in I. destruct (gt_init _ _ _ _ _ _ _ _ _) as [T|] eqn:GI; [|discriminate I]. cbn [bind] in I.
      assert (TP : gt_padding T = P).
      { rewrite EL in I. do 3 (match type of I with (_ <- ?M ;; _) = _ => destruct M; [|discriminate I] end; cbn [bind] in I).
        match type of I with (_ <- ?M ;; _) = _ => destruct M; [|discriminate I] end. cbn [bind] in I.
        match type of I with (_ <- ?M ;; _) = _ => destruct M; [|discriminate I] end. cbn [bind] in I.
        destruct (0 <? ca_filters a)%nat; [|discriminate I]. destruct (negb _); [|discriminate I].
        apply (f_equal (fun r => match r with Ok t => gt_padding (cl_gt t) | Err _ => P end)) in I. exact I. }
      rewrite TP, BI in I.
      do 3 (match type of I with (_ <- ?M ;; _) = _ => destruct M; [|discriminate I] end; cbn [bind] in I).
      unfold standardize_padding in I. destruct (mem_str (lower _) _); [reflexivity|discriminate I]. }
    exists k, s, dl. split; [split; [exact SK|split; [exact SS|exact SD]]|].
    apply negb_true_iff, andb_false_iff in NSD. destruct NSD as [N|N]; [left|right]; apply NS; try exact N; [apply (POS _ _ SS)|apply (POS _ _ SD)].
  - intros [IH [FP [[p [PN US]] [k [s [dl [[SK [SS SD]] ONE]]]]]]]. apply LK in IH as [K IH]. apply usable_iff in US as [UM LM].
    unfold conv_init, gt_init. rewrite GA, HS. cbn [bind]. rewrite IH. cbn [bind].
    unfold padding_init, format_padding_option. rewrite PN, UM. cbn [bind].
    assert (Q : forall dm ac, exists L0,
      (T <- Ok (mkGT d tr G K (Some dm) (Some ac) (mkPadding (upper p) (if endswith p "_equiv" then drop_last 6 p else p) (ca_allow a) d
                   (per_axis d (match ca_strides a with Some s => s | None => One 1 end)) (per_axis d (ca_kernel_size a)) "channels_last" tr None None)
                   (ca_data_format a) (if String.eqb (ca_data_format a) "channels_first" then 1%Z else (Z.of_nat d + 1)%Z)
                   (Z.of_nat d + 1 + (if String.eqb (ca_data_format a) "channels_first" then 1 else 0))%Z false None None None None) ;;
       k <- standardize_tuple d (ca_kernel_size a) ;;
       s <- standardize_tuple d (match ca_strides a with Some s => s | None => One 1 end) ;;
       dl <- standardize_tuple d (match ca_dilation a with Some s => s | None => One 1 end) ;;
       q <- standardize_padding (pl_built_in (gt_padding T)) ;;
       f <- standardize_format (ca_data_format a) ;;
       guard (0 <? ca_filters a)%nat else ValueError ;;
       guard negb (existsb (fun n => 1 <? n)%nat s && existsb (fun n => 1 <? n)%nat dl) else ValueError ;;
       Ok (mkConv T s dl k q f (ca_use_bias a) (ca_activation a) (ca_filters a) None None None)) = Ok L0).
    { intros dm ac. cbn [bind]. rewrite SK, SS, SD. cbn [bind gt_padding pl_built_in]. unfold standardize_padding. rewrite LM. cbn [bind].
      rewrite AF. replace (standardize_format "channels_last") with (Ok "channels_last") by reflexivity. cbn [bind].
      apply Nat.ltb_lt in FP. rewrite FP.
      replace (negb _) with true; [eexists; reflexivity|]. symmetry. apply negb_true_iff, andb_false_iff.
      destruct ONE as [O1|O1]; [left|right]; apply NS; try exact O1; [apply (POS _ _ SS)|apply (POS _ _ SD)]. }
    destruct tr; apply Q.
Qed.

(** In any dimension in which the group acts: *)
Lemma conv_builds_at name G d E (a : conv_args A) H opt (valued : bool) bs m g c kinit binit L0 k s dl :
  group_ok G d E (needs_equal_sizes name) -> List.length E = List.length (symmetries_of name) ->
  layer_for name G a -> ca_subgroup a = Some H -> option_of a opt ->
  conv_init d false a = Ok L0 -> List.length m = d -> sizes d a k s dl ->
  let same := mem_str opt ["SAME"; "SAME_EQUIV"] in
  let t ax := backend_total same (nth ax m 0) (nth ax k 0) (nth ax s 0) in
  ((exists L, conv_build L0 (static_signal_shape valued bs m g c) kinit binit = Ok L) <->
   ((exists idx, subgroup_indices G H idx) /\
    (valued = true -> g = List.length (symmetries_of name)) /\
    (if mem_str opt ["SAME"; "VALID"] then
       ca_allow a = true \/ forall ax, ax < d -> admissible (nth ax m 0) (t ax) (nth ax k 0) (nth ax s 0) 0
     else forall ax, ax < d -> exists e, admissible (nth ax m 0) (t ax) (nth ax k 0) (nth ax s 0) e) /\
    (same = true \/ forall ax, ax < d -> (nth ax k 0 - 1) * nth ax dl 0 + 1 <= nth ax m 0 + nth ax s 0) /\
    respects name k)).
Proof.
  intros OK LE LF HS [p [PN UP]] I Lm [SK [SS SD]] same t. pose proof LF as [DG [AG AF]].
  pose proof (conv_build_iff G d _ _ OK name false a L0 p k s dl valued bs m g c kinit binit DG AG AF I Lm PN SK SS SD) as BI. cbv zeta in BI.
  change (build_shape valued bs m g c) with (static_signal_shape valued bs m g c) in BI. rewrite BI. clear BI.
  destruct (conv_init_inv G d name false a L0 DG AG AF I) as [p0 [k0 [s0 [dl0 [Hn [PN0 [_ [_ [_ [_ [_ [MM [_ [_ [P [PI _]]]]]]]]]]]]]]]].
  unfold padding_name in PN0. rewrite PN in PN0. injection PN0 as <-. fold (strides_of a) in PI. rewrite UP in MM.
  assert (SM : is_same opt = same) by reflexivity.
  assert (C1 : (exists act, sub_idx G (ca_subgroup a) act) <-> (exists idx, subgroup_indices G H idx)).
  { rewrite HS. reflexivity. }
  rewrite C1. apply and_iff_compat_l.
  assert (C2 : (valued = true -> exists dom, sub_idx G (Some "") dom /\ g = List.length dom) <-> (valued = true -> g = List.length (symmetries_of name))).
  { split; intros Q V.
    - destruct (Q V) as [dom [S1 S2]]. rewrite S2, (whole_dom _ _ _ _ _ OK S1), seq_length. exact LE.
    - exists (seq 0 (List.length E)). split; [apply (sub_idx_whole _ _ _ _ OK)|]. rewrite seq_length, LE. apply Q. exact V. }
  rewrite C2. apply and_iff_compat_l.
  set (C := if valued then g * c else c).
  assert (C3 : (exists P0 P', padding_init (ca_kernel_size a) d (strides_of a) (Some p) (ca_allow a) "channels_last" false = Ok P0 /\
                  padding_build P0 (bs :: map Some m ++ [Some C]) = Ok P') <->
     (if mem_str opt ["SAME"; "VALID"] then
       ca_allow a = true \/ forall ax, ax < d -> admissible (nth ax m 0) (t ax) (nth ax k 0) (nth ax s 0) 0
     else forall ax, ax < d -> exists e, admissible (nth ax m 0) (t ax) (nth ax k 0) (nth ax s 0) e)).
  { assert (ST : forall R, (exists P0 P', padding_init (ca_kernel_size a) d (strides_of a) (Some p) (ca_allow a) "channels_last" false = Ok P0 /\
                  padding_build P0 (bs :: map Some m ++ [Some C]) = Ok P') <-> R <-> ((exists P', padding_build P (bs :: map Some m ++ [Some C]) = Ok P') <-> R)).
    { intros R. assert (X : (exists P0 P', padding_init (ca_kernel_size a) d (strides_of a) (Some p) (ca_allow a) "channels_last" false = Ok P0 /\
                  padding_build P0 (bs :: map Some m ++ [Some C]) = Ok P') <-> (exists P', padding_build P (bs :: map Some m ++ [Some C]) = Ok P')).
      { split; [intros [P0 [P' [Q1 Q2]]]; assert (P0 = P) as -> by congruence; eauto|intros [P' Q]; exists P, P'; split; [exact PI|exact Q]]. }
      tauto. }
    assert (SL : bs :: map Some m ++ [Some C] = static_layout "channels_last" bs m (Some C)) by reflexivity.
    destruct (is_plain opt && ca_allow a) eqn:PL.
    - apply andb_true_iff in PL as [PL AL]. unfold is_plain in PL. rewrite PL.
      destruct (C17_allowed_never_pads (A := A) (ca_kernel_size a) (strides_of a) d p (is_same opt) (ca_allow a) "channels_last" P false (bs :: map Some m ++ [Some C])) as [P' [Q _]].
      + rewrite UP. apply mem_str_In in PL. destruct PL as [<-|[<-|[]]]; reflexivity.
      + exact AL.
      + exact PI.
      + split; [intros _; left; exact AL|intros _; exists P, P'; split; [exact PI|exact Q]].
    - pose proof (build_iff (ca_kernel_size a) (strides_of a) d k s p same (ca_allow a) "channels_last" P SK SS opt m bs (Some C) PI UP SM Lm PL) as BF.
      cbv zeta in BF. rewrite <- SL in BF. change (is_plain opt) with (mem_str opt ["SAME"; "VALID"]) in BF, PL. fold t in BF.
      destruct (mem_str opt ["SAME"; "VALID"]).
      + cbn [andb] in PL. destruct BF as [[B1 [P' B2]]|[[ax [B1 B2]] B3]].
        * split; [intros _; right; exact B1|intros _; exists P, P'; split; [exact PI|exact B2]].
        * split; [intros [P0 [P' [Q1 Q2]]]; assert (P0 = P) as -> by congruence; congruence|].
          intros [Q|Q]; [congruence|]. exfalso. apply B2. apply Q. exact B1.
      + destruct BF as [[B1 [P' B2]]|[[ax [B1 B2]] B3]].
        * split; [intros _; exact B1|intros _; exists P, P'; split; [exact PI|exact B2]].
        * split; [intros [P0 [P' [Q1 Q2]]]; assert (P0 = P) as -> by congruence; congruence|].
          intros Q. exfalso. destruct (Q ax B1) as [e Q']. apply (B2 e). exact Q'. }
  rewrite C3. apply and_iff_compat_l. rewrite UP, SM.
  assert (C4 : (false = false -> forall ax, ax < d -> same = true \/ dilated (nth ax k 0) (nth ax dl 0) <= nth ax m 0 + nth ax s 0) <->
     (same = true \/ forall ax, ax < d -> (nth ax k 0 - 1) * nth ax dl 0 + 1 <= nth ax m 0 + nth ax s 0)).
  { split.
    - intros Q. destruct same; [left; reflexivity|right]. intros ax Hax. destruct (Q eq_refl ax Hax) as [Q'|Q']; [discriminate Q'|exact Q'].
    - intros Q _ ax Hax. destruct Q as [Q|Q]; [left; exact Q|right; apply Q; exact Hax]. }
  rewrite C4. reflexivity.
Qed.

(** [build], for an input shape with known sizes (the batch size may be unknown).
    Convolutions: the subgroup must be listed (C41), a signal on the group must have the
    group's size, the equivariance padding must exist (C16) or not be needed (C17) or not
    be wanted, for the 'valid' options the kernel must not be larger than the input and
    one stride together, and for the groups that exchange axes the kernel must be a
    square or cube. *)
Theorem C53_when_convolutions_build name G (a : conv_args A) H opt (valued : bool) bs m g c kinit binit L0 k s dl :
  layer_for name G a -> ca_subgroup a = Some H -> option_of a opt ->
  let d := dimension_of name in
  conv_init d false a = Ok L0 -> List.length m = d -> sizes d a k s dl ->
  let same := mem_str opt ["SAME"; "SAME_EQUIV"] in
  let t ax := backend_total same (nth ax m 0) (nth ax k 0) (nth ax s 0) in
  ((exists L, conv_build L0 (static_signal_shape valued bs m g c) kinit binit = Ok L) <->
   ((exists idx, subgroup_indices G H idx) /\
    (valued = true -> g = List.length (symmetries_of name)) /\
    (if mem_str opt ["SAME"; "VALID"] then
       ca_allow a = true \/ forall ax, ax < d -> admissible (nth ax m 0) (t ax) (nth ax k 0) (nth ax s 0) 0
     else forall ax, ax < d -> exists e, admissible (nth ax m 0) (t ax) (nth ax k 0) (nth ax s 0) e) /\
    (same = true \/ forall ax, ax < d -> (nth ax k 0 - 1) * nth ax dl 0 + 1 <= nth ax m 0 + nth ax s 0) /\
    respects name k)).
Proof.
  intros LF HS OP d I Lm SZ same t. pose proof LF as [DG _]. apply lib_ok in DG as [_ OK].
  exact (conv_builds_at name G d _ a H opt valued bs m g c kinit binit L0 k s dl OK eq_refl LF HS OP I Lm SZ).
Qed.

Lemma widths_unique plain allow same tr d m k s eb ea eb' ea' :
  widths_ok plain allow same tr d m k s eb ea -> widths_ok plain allow same tr d m k s eb' ea' -> eb = eb' /\ ea = ea'.
Proof.
  intros [L1 [L2 W]] [L1' [L2' W']]. destruct W as [[P [-> ->]]|[P W]]; destruct W' as [[P' [-> ->]]|[P' W']]; [auto|congruence|congruence|].
  split; apply nth_ext0; try congruence; intros ax Hax; specialize (W ax ltac:(lia)); specialize (W' ax ltac:(lia));
    cbv zeta in W, W'; destruct W as [E1 [_ [E2 [E3 _]]]]; destruct W' as [E1' [_ [E2' [E3' _]]]].
  - rewrite E2, E2'. congruence.
  - rewrite E3, E3'. congruence.
Qed.

Lemma take_group d b n g c (F : nat -> list nat -> nat -> nat -> A) l : List.length n = d -> (forall v, In v l -> v < g) ->
  take (tab (b :: n ++ [g; c]) (sig4 d F)) (vec l) (Z.of_nat (d + 1))
  = Ok (tab (b :: n ++ [List.length l; c]) (sig4 d (fun bi p h o => F bi p (nth h l 0) o))).
Proof.
  intros L V. rewrite take_vec.
  - f_equal.
    assert (U : upd (d + 1) (List.length l) (b :: n ++ [g; c]) = b :: n ++ [List.length l; c]).
    { replace (d + 1) with (S d) by lia. rewrite (insert_group b n g c d L), (insert_group b n (List.length l) c d L).
      apply upd_insert_at. cbn [List.length]. rewrite app_length. cbn [List.length]. lia. }
    rewrite U. apply tab_ext. intros i I. apply inb4_inv in I as [bi [p [h [o [-> [B [P [Hh O]]]]]]]].
    pose proof (inb_length _ _ P) as LP. rewrite (chan_ix d bi p h [o]) by lia.
    assert (U' : upd (d + 1) (nth h l 0) (bi :: p ++ [h; o]) = bi :: p ++ [nth h l 0; o]).
    { replace (d + 1) with (S d) by lia. rewrite (insert_group bi p h o d), (insert_group bi p (nth h l 0) o d) by lia.
      apply upd_insert_at. cbn [List.length]. rewrite app_length. cbn [List.length]. lia. }
    rewrite U', !sig4_ix by lia. reflexivity.
  - cbn [List.length]. rewrite app_length. cbn [List.length]. lia.
  - intros v Hv. rewrite (chan_ix d b n g [c] L). apply V. exact Hv.
Qed.

(** With the same weights, the layer whose output lives on a subgroup computes the
    entries of the layer for the whole group that belong to the subgroup's elements. *)
Theorem C54_subgroup_layer_is_a_restriction name G (a : conv_args A) H idx opt (valued : bool) bs m g c kinit binit L LH k s dl :
  layer_for name G a -> ca_subgroup a = Some H -> option_of a opt -> subgroup_indices G H idx ->
  let d := dimension_of name in
  built d false a (static_signal_shape valued bs m g c) kinit binit LH ->
  built d false (with_subgroup a (Some "")) (static_signal_shape valued bs m g c) kinit binit L ->
  List.length m = d -> sizes d a k s dl ->
  forall x b m', wf x -> List.length m' = d -> shape x = signal_shape valued b m' g c ->
  apply LH x = (y <- apply L x ;; take y (vec idx) (Z.of_nat (d + 1))).
Proof.
  intros LF HS OP SI d BH BW Lm SZ x b m' W Lm' SH.
  destruct (built_facts name G a H opt false valued bs m g c kinit binit LH k s dl LF HS OP BH Lm SZ)
    as [OK [eb [ea [act [dom [WO [SA [SD [CF [CC _]]]]]]]]]]. fold d in OK, WO, SA, SD, CF.
  destruct (built_facts name G (with_subgroup a (Some "")) "" opt false valued bs m g c kinit binit L k s dl LF eq_refl OP BW Lm SZ)
    as [_ [eb' [ea' [act' [dom' [WO' [SA' [SD' [CF' [CC' _]]]]]]]]]]. fold d in WO', SA', SD', CF'.
  cbn [with_subgroup ca_allow ca_filters ca_use_bias ca_activation] in WO', CF'.
  destruct (widths_unique _ _ _ _ _ _ _ _ _ _ _ _ WO WO') as [<- <-].
  pose proof (whole_dom _ _ _ _ _ OK SA') as ->.
  assert (idx = act) as -> by (unfold subgroup_indices in SI; unfold sub_idx in SA; congruence).
  destruct (sub_idx_facts _ _ _ _ OK _ _ SA) as [_ [BA _]].
  set (C := if valued then g * c else c) in *. set (o := ca_filters a) in *.
  pose proof (merged_input d valued x b m' g c W Lm' SH) as MG. change (if valued then g * c else c) with C in MG.
  unfold apply. rewrite (conv_apply_call G d _ _ false valued act dom c C o k s dl eb ea (is_same opt) (ca_use_bias a) (ca_activation a)
    kinit binit LH x b m' g CF CC Lm' SH).
  rewrite (conv_apply_call G d _ _ false valued _ dom' c C o k s dl eb ea (is_same opt) (ca_use_bias a) (ca_activation a)
    kinit binit L x b m' g CF' CC' Lm' SH).
  rewrite (conv_call_eq G d _ _ OK valued act dom c C o k s dl eb ea (is_same opt) (ca_use_bias a) (ca_activation a) kinit binit LH x b m' _ CF Lm' MG).
  rewrite (conv_call_eq G d _ _ OK valued _ dom' c C o k s dl eb ea (is_same opt) (ca_use_bias a) (ca_activation a) kinit binit L x b m' _ CF' Lm' MG).
  destruct (forallb _ _); cbn [snd bind]; [|reflexivity].
  assert (LO : forall mm, mm = outs (padded (map fst (builtin_pads (padding_string (is_same opt)) (padded eb m' ea) (vzip dilated k dl) s)) (padded eb m' ea)
       (map snd (builtin_pads (padding_string (is_same opt)) (padded eb m' ea) (vzip dilated k dl) s))) (vzip dilated k dl) s -> List.length mm = d).
  { intros mm ->. destruct CF. assert (L1 : List.length (padded eb m' ea) = d) by (apply length_padded; assumption).
    assert (LE : List.length (vzip dilated k dl) = d) by (rewrite length_vzip; lia).
    apply length_outs; [apply length_padded; rewrite ?map_length; try apply length_builtin; assumption|assumption..]. }
  specialize (LO _ eq_refl). rewrite seq_length. rewrite take_group by (try exact LO; exact BA).
  f_equal. apply sig4_ext; [exact LO|]. intros bi p h oo B P Hh O. f_equal. f_equal.
  assert (WR : forall src (term : option A -> A -> A) X V r, window d src term k C X V p r = window d src term k C X (fun j q _ => V j q r) p 0) by reflexivity.
  rewrite WR. symmetry. rewrite WR. symmetry. clear WR.
  apply window_ext; [destruct CF; exact cf_k|reflexivity|]. intros j q J Q.
  assert (AH : nth h act 0 < List.length (symmetries_of name)) by (apply BA, nth_In; exact Hh).
  assert (S1 : (h * o + oo) / o = h /\ (h * o + oo) mod o = oo) by (apply split_ok; exact O).
  assert (S2 : (nth h act 0 * o + oo) / o = nth h act 0 /\ (nth h act 0 * o + oo) mod o = oo) by (apply split_ok; exact O).
  unfold kval, kidx, kernel_src. destruct S1 as [-> ->], S2 as [-> ->]. rewrite seq_nth by exact AH. cbn [Nat.add].
  assert (DD : chan_from G valued dom c (nth h act 0) q = chan_from G valued dom' c (nth h act 0) q).
  { destruct valued; [|reflexivity]. destruct (SD eq_refl) as [D1 _], (SD' eq_refl) as [D2 _].
    rewrite (whole_dom _ _ _ _ _ OK D1), (whole_dom _ _ _ _ _ OK D2). reflexivity. }
  rewrite DD. reflexivity.
Qed.

(** The layer for the whole group exists as soon as the one for the subgroup does. *)
Theorem C54_whole_group_layer_exists name G (a : conv_args A) H opt (valued : bool) bs m g c kinit binit LH k s dl :
  layer_for name G a -> ca_subgroup a = Some H -> option_of a opt ->
  let d := dimension_of name in
  built d false a (static_signal_shape valued bs m g c) kinit binit LH -> List.length m = d -> sizes d a k s dl ->
  exists L, built d false (with_subgroup a (Some "")) (static_signal_shape valued bs m g c) kinit binit L.
Proof.
  intros LF HS OP d [L0 [I B]] Lm SZ.
  assert (I' : exists L0', conv_init d false (with_subgroup a (Some "")) = Ok L0').
  { apply (C53_when_the_constructor_accepts name G (with_subgroup a (Some "")) "" false LF eq_refl).
    destruct (proj1 (C53_when_the_constructor_accepts name G a H false LF HS) (ex_intro _ L0 I)) as [_ Q]. split; [left; reflexivity|exact Q]. }
  destruct I' as [L0' I'].
  destruct (proj1 (C53_when_convolutions_build name G a H opt valued bs m g c kinit binit L0 k s dl LF HS OP I Lm SZ) (ex_intro _ LH B)) as [_ Q].
  destruct (proj2 (C53_when_convolutions_build name G (with_subgroup a (Some "")) "" opt valued bs m g c kinit binit L0' k s dl LF eq_refl OP I' Lm SZ)) as [L BL].
  - split; [|exact Q]. pose proof LF as [DG _]. apply lib_ok in DG as [_ OK]. eexists. apply (sub_idx_whole _ _ _ _ OK).
  - exists L, L0'. split; [exact I'|exact BL].
Qed.

End Builds.

(** Concrete cases. *)
Example C53_case_constructor :
  let ok name H k f s p dl := is_ok (conv_init 2 false (with_group name H k f s p dl true)) in
  map (fun p => ok "P4" "P2" (One 3) 1 None p None)
    [None; Some (Some "same"); Some (Some "Valid"); Some (Some "SaMe_equiv"); Some (Some "same_Equiv"); Some (Some "full"); Some None]
  = [true; true; true; true; false; false; false] /\
  [ok "P4" "P4" (One 3) 0 None None None; ok "P4" "P4" (One 0) 1 None None None; ok "P4" "P4" (Tuple [3; 3; 3]%Z) 1 None None None;
   ok "P4" "P4" (Tuple [3; 4]%Z) 1 (Some (Tuple [2; 1]%Z)) None None; ok "P4" "P4" (One 3) 1 (Some (One 2)) None (Some (One 2));
   ok "P4" "P4" (One 3) 1 (Some (One 2)) None (Some (Tuple [1; 1]%Z))]
  = [false; false; false; true; false; true].
Proof. vm_compute. auto. Qed.

(** P4 on 5x5 images: strides that need padding, sizes that cannot be padded, kernels
    larger than the input, kernels that are not squares. *)
Example C53_case_build :
  let ok k s p allow := is_ok (test_layer 2 false (mkConvArgs (ByName "P4") (Some "") k 1 s (Some (Some p)) None "channels_last" allow true (fun z => z)) [None; Some 5; Some 5; Some 2] some_weights some_weights) in
  [ok (One 3) None "valid" false; ok (One 2) (Some (One 2)) "valid" false; ok (One 2) (Some (One 2)) "valid" true;
   ok (One 3) (Some (One 3)) "valid_equiv" false; ok (Tuple [3; 2]%Z) None "valid" true; ok (One 6) None "valid" true; ok (One 7) None "valid" true;
   ok (One 7) (Some (One 2)) "same_equiv" false; ok (One 4) (Some (One 2)) "same" false; ok (One 4) (Some (One 2)) "same_equiv" false]
  = [true; false; true; true; false; true; false; true; false; false].
Proof. vm_compute. reflexivity. Qed.

Example C54_case :
  let a H := with_group "P4M" H (One 3) 2 None (Some (Some "same_equiv")) None true in
  let x := some_signal [1; 3; 3; 8; 1] in
  let sh := [None; Some 3; Some 3; Some 8; Some 1] in
  match test_layer 2 false (a "P2MM") sh some_weights some_weights, test_layer 2 false (a "") sh some_weights some_weights with
  | Ok LH, Ok L =>
      match apply LH x, apply L x, subgroup_get P4M (Some "P2MM") with
      | Ok y, Ok z, Ok idx => same_result (Ok y) (take z (vec idx) 3) && negb (same_result (Ok y) (take z (vec [0; 1; 2; 3]) 3))
                              && negb (same_tensor (slice 3 0 y) (slice 3 1 y))
      | _, _, _ => false
      end
  | _, _ => false
  end = true.
Proof. vm_compute. reflexivity. Qed.

Print Assumptions C53_when_the_constructor_accepts.
Print Assumptions C53_when_convolutions_build.
Print Assumptions C54_subgroup_layer_is_a_restriction.
Print Assumptions C54_whole_group_layer_exists.
