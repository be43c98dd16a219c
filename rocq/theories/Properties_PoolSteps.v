(** C72, C73: pooling in steps.  Pooling over a group and then over a subgroup, and
    pooling before global pooling. *)
From Coq Require Import Permutation.
From Verif Require Import BuildTheorems GlobalFacts PoolSpec PoolFacts Properties_Pooling Properties_Groups Properties_Config.
Local Open Scope string_scope.
Local Open Scope list_scope.

(** Pooling lists of the same length and then the results is pooling everything.  Exact
    maximum and mean have this property. *)
Definition nests {A} (f : list A -> A) : Prop :=
  forall n ls, 0 < n -> (forall l, In l ls -> List.length l = n) -> f (map f ls) = f (List.concat ls).

(** Pooling one value returns it. *)
Definition keeps_single {A} (f : list A -> A) : Prop := forall v, f [v] = v.

(** ** The tables *)

(** The three pairs of steps for which the representatives in the tables do not match. *)
Definition mismatched : list (string * string * string) :=
  [("P4M", "P2MM", "PMw"); ("P4M", "P2MM", "PMh"); ("Oh", "D4h", "D4")].

Definition same_list (l l' : list nat) : bool :=
  (List.length l' <=? List.length l)%nat && (List.length (nodup Nat.eq_dec l) =? List.length l)%nat &&
  forallb (fun v => existsb (Nat.eqb v) l') l.

(** Representatives of K in H, moved to G, times representatives of H in G. *)
Definition products (G : group) (ih ck ch : list nat) : list nat :=
  flat_map (fun u => map (fun v => comp G (nth u ih 0) v) ch) ck.

Definition chain_ok (g h k : string) : bool :=
  if existsb (fun t => String.eqb (fst (fst t)) g && String.eqb (snd (fst t)) h && String.eqb (snd t) k) mismatched then true else
  match dict_get group_dict g, dict_get group_dict h with
  | Ok G, Ok Hg =>
      match dict_get (g_subgroup G) h, dict_get (g_cosets G) h, dict_get (g_cosets Hg) k with
      | Ok ih, Ok ch, Ok ck =>
          match dict_get (g_subgroup G) k, dict_get (g_cosets G) k with
          | Ok _, Ok cg => same_list (products G ih ck ch) cg
          | _, _ => false
          end
      | _, _, _ => true
      end
  | _, _ => true
  end.

Lemma chains_ok : forallb (fun g => forallb (fun h => forallb (fun k => chain_ok g h k) (map fst group_dict)) (map fst group_dict)) (map fst group_dict) = true.
Proof. vm_compute. reflexivity. Qed.

Lemma dict_get_key {V} (l : list (string * V)) k v : dict_get l k = Ok v -> In k (map fst l).
Proof.
  induction l as [|[k' v'] l IH]; cbn [dict_get map fst]; [discriminate|].
  destruct (String.eqb_spec k k') as [->|N]; intros H; [left; reflexivity|]. right. apply IH. exact H.
Qed.

Lemma chain_products g h k G Hg ih ch ck :
  dict_get group_dict g = Ok G -> dict_get group_dict h = Ok Hg -> ~ In (g, h, k) mismatched ->
  dict_get (g_subgroup G) h = Ok ih -> dict_get (g_cosets G) h = Ok ch -> dict_get (g_cosets Hg) k = Ok ck ->
  In k (map fst group_dict) ->
  exists sg cg, dict_get (g_subgroup G) k = Ok sg /\ dict_get (g_cosets G) k = Ok cg /\ Permutation (products G ih ck ch) cg.
Proof.
  intros DG DH NM DI DC DK IK. pose proof chains_ok as Q. rewrite forallb_forall in Q.
  specialize (Q g (dict_get_key _ _ _ DG)). rewrite forallb_forall in Q. specialize (Q h (dict_get_key _ _ _ DH)).
  rewrite forallb_forall in Q. specialize (Q k IK). unfold chain_ok in Q.
  destruct (existsb _ mismatched) eqn:EX.
  - exfalso. apply existsb_exists in EX as [[[g' h'] k'] [I E]]. cbn [fst snd] in E. apply andb_true_iff in E as [E E3].
    apply andb_true_iff in E as [E1 E2]. apply String.eqb_eq in E1, E2, E3. subst. apply NM. exact I.
  - rewrite DG, DH, DI, DC, DK in Q. destruct (dict_get (g_subgroup G) k) as [sg|]; [|discriminate Q].
    destruct (dict_get (g_cosets G) k) as [cg|]; [|discriminate Q]. exists sg, cg. split; [reflexivity|]. split; [reflexivity|].
    unfold same_list in Q. apply andb_true_iff in Q as [Q Q3]. apply andb_true_iff in Q as [Q1 Q2].
    apply Nat.leb_le in Q1. apply Nat.eqb_eq in Q2. rewrite forallb_forall in Q3.
    apply NoDup_Permutation_bis; [|exact Q1|].
    + pose proof (NoDup_nodup Nat.eq_dec (products G ih ck ch)) as ND.
      eapply NoDup_incl_NoDup; [exact ND|rewrite Q2; apply le_n|]. intros v V. apply nodup_In in V. exact V.
    + intros v V. apply Q3, existsb_exists in V as [w [W E]]. apply Nat.eqb_eq in E. subst w. exact W.
Qed.

Lemma std_unit d : standardize_tuple d (One 1) = Ok (repeat 1 d).
Proof.
  unfold standardize_tuple, per_axis. rewrite repeat_length, Nat.eqb_refl.
  replace (forallb _ _) with true.
  2:{ symmetry. apply forallb_forall. intros z Z. apply repeat_spec in Z. subst z. reflexivity. }
  cbn [andb]. f_equal. induction d as [|d IH]; [reflexivity|]. cbn [repeat map]. rewrite IH. reflexivity.
Qed.

Lemma indices_units d : indices (repeat 1 d) = [repeat 0 d].
Proof. induction d as [|d IH]; [reflexivity|]. cbn [repeat indices seq flat_map map app]. rewrite IH. reflexivity. Qed.

Section Steps.
Context {A : Type} {RA : Arith A} {PA : Pool A}.

Lemma widths_unique pl al sm tr d n k s eb ea eb' ea' :
  widths_ok pl al sm tr d n k s eb ea -> widths_ok pl al sm tr d n k s eb' ea' -> eb = eb' /\ ea = ea'.
Proof.
  intros [L1 [L2 W]] [L1' [L2' W']]. destruct W as [[P [-> ->]]|[P W]], W' as [[P' [-> ->]]|[P' W']]; try congruence; [split; reflexivity|].
  assert (Q : forall a, a < d -> nth a eb 0 = nth a eb' 0 /\ nth a ea 0 = nth a ea' 0).
  { intros a Ha. destruct (W a Ha) as [E [_ [B [C _]]]]. destruct (W' a Ha) as [E' [_ [B' [C' _]]]]. cbv zeta in *.
    rewrite E in B, C. rewrite E' in B', C'. split; congruence. }
  split; apply (nth_ext _ _ 0 0); try congruence; intros a Ha; apply Q; lia.
Qed.

(** The padding option handed to Keras does not depend on the group. *)
Lemma pool_padding_same d t a a' input input' L L' :
  pooling_built d t a input L -> pooling_built d t a' input' L' ->
  pa_pool_size a = pa_pool_size a' -> pa_strides a = pa_strides a' -> pa_padding a = pa_padding a' ->
  pa_data_format a = pa_data_format a' -> pa_allow a = pa_allow a' -> po_padding L = po_padding L'.
Proof.
  assert (Q : forall a input L, pooling_built d t a input L ->
     exists P fmt, padding_init (pa_pool_size a) d (match pa_strides a with Some s => s | None => One 1 end)
       (match pa_padding a with Some p => p | None => Some "valid_equiv" end) (pa_allow a) fmt false = Ok P /\ fmt = "channels_last" /\ po_padding L = pl_built_in P).
  { clear. intros a input L [L0 [I B]]. unfold pool_init, gt_init in I.
    destruct (match pa_group a with ByName s => dict_get group_dict s | Object G => Ok G end) as [G|]; [|discriminate I]. cbn [bind] in I.
    destruct (match parse_subgroup G (pa_subgroup a) with None => Err KeyError | Some s => dict_get group_dict s end) as [K|]; [|discriminate I]. cbn [bind] in I. cbv zeta in I.
    destruct (padding_init _ _ _ _ _ _ _) as [P|] eqn:PI; [|discriminate I]. cbn [bind] in I.
    destruct (standardize_tuple d (pa_pool_size a)); [|discriminate I]. cbn [bind] in I.
    destruct (standardize_tuple d _); [|discriminate I]. cbn [bind] in I.
    destruct (standardize_format _); [|discriminate I]. cbn [bind] in I. injection I as <-.
    unfold pool_build in B. destruct (gt_build _ _) as [T1|]; [|discriminate B]. cbn [bind] in B.
    destruct (gt_build_pool T1) as [T2|]; [|discriminate B]. cbn [bind] in B. injection B as <-.
    exists P. eexists. split; [exact PI|]. split; [reflexivity|]. cbn [po_padding po_set_gt gt_padding]. reflexivity. }
  intros B B' E1 E2 E3 E4 E5. destruct (Q _ _ _ B) as [P [f [I [F ->]]]], (Q _ _ _ B') as [P' [f' [I' [F' ->]]]].
  subst f f'. rewrite E1, E2, E3, E5 in I. congruence.
Qed.

(** Layers without extra padding and with 'valid': pooling over the windows that begin at
    multiples of the strides. *)
Lemma tiles_call d t L G E dd eq (OK : group_ok G dd E eq) sub cos k s b m c (X : nat -> list nat -> nat -> nat -> A) :
  pool_facts (A := A) G d E sub cos k s (zeros_of d) (zeros_of d) false t L -> sub <> [] -> List.length m = d ->
  pool_call L (tab (b :: m ++ [List.length E; c]) (sig4 d X)) =
  if forallb (fun p => fst p <=? snd p)%nat (combine k m)
  then Ok (tab (b :: outs m k s ++ [List.length sub; c])
    (sig4 d (fun bi p h q => pool_fun t (map (fun j => pool_fun t (map (fun e => X bi (vzip Nat.add (vzip Nat.mul p s) j) (comp G (nth h sub 0) e) q) cos)) (indices k)))))
  else Err BackendError.
Proof.
  intros F NE Lm. 
  assert (pf_k0 : List.length k = d) by apply (pf_k _ _ _ _ _ _ _ _ _ _ _ _ F).
  assert (pf_s0 : List.length s = d) by apply (pf_s _ _ _ _ _ _ _ _ _ _ _ _ F).
  assert (pf_spos0 : forall a, a < d -> 0 < nth a s 0) by apply (pf_spos _ _ _ _ _ _ _ _ _ _ _ _ F).
  pose proof (pool_call_eq G d E eq OK sub cos k s (zeros_of d) (zeros_of d) false t L b m c X F NE Lm) as C. cbv zeta in C. rewrite C. clear C.
  assert (M1 : padded (zeros_of d) m (zeros_of d) = m) by (apply padded_zeros; exact Lm). rewrite !M1.
  cbn [padding_string].
  set (pads := builtin_pads "valid" m k s).
  assert (P1 : map fst pads = zeros_of d /\ map snd pads = zeros_of d).
  { unfold pads, builtin_pads, zeros_of. cbn [String.eqb Ascii.eqb Bool.eqb]. rewrite !map_map. cbn [fst snd]. rewrite <- Lm. clear.
    induction m as [|x m [I1 I2]]; [split; reflexivity|]. cbn [map List.length repeat]. split; f_equal; assumption. }
  destruct P1 as [P1 P2]. rewrite P1, P2, M1.
  destruct (forallb _ (combine k m)) eqn:FB; [|reflexivity].
  assert (KM : forall ax, ax < d -> nth ax k 0 <= nth ax m 0).
  { apply (forallb_combine_le k m d); assumption. }
  assert (LO : List.length (outs m k s) = d) by (apply length_outs; assumption).
  f_equal. apply sig4_ext; [exact LO|]. intros bi p h q B P H Q. pose proof (inb_length _ _ P) as LP. rewrite LO in LP.
  unfold pool_out, pooled. f_equal.
  assert (SRC : forall j, inb k j -> csrc m s (ones d) (zeros_of d) p j = Some (vzip Nat.add (vzip Nat.mul p s) j) /\ inb m (vzip Nat.add (vzip Nat.mul p s) j)).
  { intros j J. pose proof (inb_length _ _ J) as LJ. assert (LV : List.length (vzip Nat.mul p s) = d) by (rewrite length_vzip by lia; exact LP).
    assert (LW : List.length (vzip Nat.add (vzip Nat.mul p s) j) = d) by (rewrite length_vzip by lia; exact LV).
    assert (V : forall ax, ax < d -> nth ax (vzip Nat.add (vzip Nat.mul p s) j) 0 = nth ax p 0 * nth ax s 0 + nth ax j 0 /\ nth ax p 0 * nth ax s 0 + nth ax j 0 < nth ax m 0).
    { intros ax Hax. rewrite nth_vzip by lia. rewrite nth_vzip by lia. split; [reflexivity|].
      pose proof (inb_nth _ _ ax P ltac:(lia)) as PA'. rewrite (nth_outs _ _ _ d) in PA' by assumption. unfold out_size in PA'.
      pose proof (inb_nth _ _ ax J ltac:(lia)) as JA. specialize (KM ax Hax). specialize (pf_spos0 ax Hax).
      pose proof (Nat.mul_div_le (nth ax m 0 - nth ax k 0) (nth ax s 0) ltac:(lia)).
      assert (nth ax p 0 * nth ax s 0 <= nth ax s 0 * ((nth ax m 0 - nth ax k 0) / nth ax s 0)) by (rewrite Nat.mul_comm; apply Nat.mul_le_mono_l; lia).
      lia. }
    split.
    - unfold csrc. rewrite Lm. apply wsrc_all; [exact LW|]. intros ax Hax. destruct (V ax Hax) as [-> V2]. unfold conv_src. rewrite nth_ones by exact Hax.
      unfold zeros_of. rewrite nth_repeat. cbn [Nat.leb]. rewrite Nat.mul_1_r, Nat.sub_0_r. rewrite (proj2 (Nat.ltb_lt _ _)) by exact V2. reflexivity.
    - apply inb_intro; [lia|]. rewrite Lm. intros ax Hax. destruct (V ax Hax) as [-> V2]. exact V2. }
  assert (KS : forall {B C : Type} (g : B -> C) (o : B -> option C) l, (forall j, In j l -> o j = Some (g j)) -> keep_some (map o l) = map g l).
  { clear. intros B C g o l. unfold keep_some. induction l as [|j l IH]; intros H; [reflexivity|]. cbn [map flat_map]. rewrite (H j (or_introl eq_refl)).
    cbn [app]. f_equal. apply IH. intros i I. apply H. right. exact I. }
  apply KS. intros j J. apply In_indices in J. destruct (SRC j J) as [-> I]. cbn [option_map]. f_equal.
  unfold bordered. rewrite (inside_zeros m _ d Lm I). rewrite vzip_sub_zeros by (rewrite (inb_length _ _ I); exact Lm). reflexivity.
Qed.

Lemma nested_pooling (f : list A -> A) G Hg ih ck ch sg cg sk (X : nat -> A) h n :
  nests f -> order_irrelevant f ->
  is_group n (comp G) (inv G) -> (forall v, In v ih -> v < n) -> (forall v, In v ch -> v < n) -> ch <> [] ->
  (forall v, In v ck -> v < List.length ih) -> (forall v, In v sk -> v < List.length ih) ->
  (forall u v, u < List.length ih -> v < List.length ih -> nth (comp Hg u v) ih 0 = comp G (nth u ih 0) (nth v ih 0)) ->
  map (fun a => nth a ih 0) sk = sg -> Permutation (products G ih ck ch) cg -> h < List.length sk ->
  f (map (fun u => f (map (fun v => X (comp G (nth (comp Hg (nth h sk 0) u) ih 0) v)) ch)) ck)
  = f (map (fun w => X (comp G (nth h sg 0) w)) cg).
Proof.
  intros NS OI IG BI BC NE BK BS CM SG PM Hh.
  assert (HS : nth h sg 0 = nth (nth h sk 0) ih 0).
  { rewrite <- SG. rewrite (nth_indep _ 0 ((fun a => nth a ih 0) 0)) by (rewrite map_length; exact Hh).
    apply (map_nth (fun a => nth a ih 0)). }
  transitivity (f (map (fun w => X (comp G (nth h sg 0) w)) (products G ih ck ch))).
  2:{ apply OI. apply Permutation_map. exact PM. }
  rewrite <- (map_map (fun u => map (fun v => X (comp G (nth (comp Hg (nth h sk 0) u) ih 0) v)) ch) f).
  rewrite (NS (List.length ch)).
  - f_equal. unfold products. rewrite flat_map_concat_map, concat_map, map_map. f_equal. apply map_ext_in. intros u U.
    rewrite map_map. apply map_ext_in. intros v V. f_equal. rewrite CM; [|apply BS, nth_In; exact Hh|apply BK; exact U].
    rewrite HS. symmetry. apply (group_assoc _ _ _ IG).
    + apply BI, nth_In, BS, nth_In. exact Hh.
    + apply BI, nth_In, BK. exact U.
    + apply BC. exact V.
  - destruct ch; [contradiction|cbn [List.length]; lia].
  - intros l I. apply in_map_iff in I as [u [<- _]]. apply map_length.
Qed.

(** A layer that pools over the group alone: pool size 1, everything else by default. *)
Definition group_pooling_args (G : group) (H : string) : pool_args :=
  mkPoolArgs (Object G) (Some H) (One 1) None None "channels_last" false.

(** C72: pooling from G to H and then from H to K is pooling from G to K. *)
Theorem C72_pooling_in_two_steps name G H Hg K d t k s p allow bs m c L1 L2 L3 sub :
  nests (pool_fun (A := A) t) -> keeps_single (pool_fun (A := A) t) -> order_irrelevant (pool_fun (A := A) t) ->
  dict_get group_dict name = Ok G -> dict_get group_dict H = Ok Hg -> dict_get (g_subgroup G) H = Ok sub ->
  K <> "" -> ~ In (name, H, K) mismatched ->
  List.length m = d ->
  pooling_built d t (group_pooling_args G H) (bs :: map Some m ++ [Some (g_order G); Some c]) L1 ->
  pooling_built d t (mkPoolArgs (Object Hg) (Some K) k s p "channels_last" allow) (bs :: map Some m ++ [Some (List.length sub); Some c]) L2 ->
  pooling_built d t (mkPoolArgs (Object G) (Some K) k s p "channels_last" allow) (bs :: map Some m ++ [Some (g_order G); Some c]) L3 ->
  forall (x y : tensor A) b m', wf x -> List.length m' = d -> shape x = b :: m' ++ [g_order G; c] ->
  pool_call L1 x = Ok y ->
  forall z, pool_call L2 y = Ok z <-> pool_call L3 x = Ok z.
Proof.
  intros NS KS OI DG DH DS NEK NM Lm B1 B2 B3 x y b m' W Lm' SX C1 z.
  destruct (C14_subgroup_lists name G H sub DG DS) as [_ [_ [BI [_ [Hg' [DH' [ORD [_ [CM [_ SL]]]]]]]]]].
  assert (EH : Hg' = Hg) by congruence. subst Hg'. clear DH'.
  pose proof DG as DG'. apply lib_ok in DG' as [_ OKG]. pose proof DH as DH'. apply lib_ok in DH' as [_ OKH].
  pose proof (ok_order _ _ _ _ OKG) as GO. pose proof (ok_order _ _ _ _ OKH) as HO. rewrite ORD in HO.
  pose proof (pool_padding_same d t _ _ _ _ _ _ B2 B3 eq_refl eq_refl eq_refl eq_refl eq_refl) as PP.
  pose proof (ok_is_group _ _ _ _ OKG) as IG.
  destruct B1 as [L01 [I1 B1]], B2 as [L02 [I2 B2]], B3 as [L03 [I3 B3]].
  assert (PF1 : po_format L1 = "channels_last") by (eapply pool_format; [|exact I1|exact B1]; reflexivity).
  assert (PF2 : po_format L2 = "channels_last") by (eapply pool_format; [|exact I2|exact B2]; reflexivity).
  assert (PF3 : po_format L3 = "channels_last") by (eapply pool_format; [|exact I3|exact B3]; reflexivity).
  destruct (pool_build_inv (A := A) G d _ _ OKG name t (group_pooling_args G H) L01 bs m _ c L1 DG (or_intror eq_refl) eq_refl I1 Lm B1)
    as [p1 [k1 [s1 [s1' [eb1 [ea1 [sub1 [ch [Hn1 [PN1 [SK1 [SS1 [SS1' [WO1 [PS1 [DS1 [DC1 [SA1 [_ [F1 _]]]]]]]]]]]]]]]]]]]].
  destruct (pool_build_inv (A := A) Hg d _ _ OKH H t (mkPoolArgs (Object Hg) (Some K) k s p "channels_last" allow) L02 bs m _ c L2 DH (or_intror eq_refl) eq_refl I2 Lm B2)
    as [p2 [k2 [s2 [s2' [eb2 [ea2 [sk [ck [Hn2 [PN2 [SK2 [SS2 [SS2' [WO2 [PS2 [DS2 [DC2 [SA2 [LS2 [F2 _]]]]]]]]]]]]]]]]]]]].
  destruct (pool_build_inv (A := A) G d _ _ OKG name t (mkPoolArgs (Object G) (Some K) k s p "channels_last" allow) L03 bs m _ c L3 DG (or_intror eq_refl) eq_refl I3 Lm B3)
    as [p3 [k3 [s3 [s3' [eb3 [ea3 [sg [cg [Hn3 [PN3 [SK3 [SS3 [SS3' [WO3 [PS3 [DS3 [DC3 [SA3 [_ [F3 _]]]]]]]]]]]]]]]]]]]].
  destruct (lib_sub _ _ _ _ DG DS) as [_ [_ [NEH _]]].
  unfold parse_subgroup in PS1, PS2, PS3. cbn [pa_subgroup group_pooling_args] in PS1, PS2, PS3.
  destruct (String.eqb_spec H "") as [Q|_]; [contradiction|]. destruct (String.eqb_spec K "") as [Q|_]; [contradiction|].
  assert (ES : forall u v : string, Some u = Some v -> u = v) by congruence.
  apply ES in PS1, PS2, PS3. subst Hn1 Hn2 Hn3.
  assert (sub1 = sub) by congruence. subst sub1.
  assert (EQ : p3 = p2 /\ k3 = k2 /\ s3 = s2 /\ s3' = s2').
  { unfold pool_padding_name, pool_strides, assumed_strides in *. cbn [pa_padding pa_pool_size pa_strides] in *.
    repeat split; congruence. }
  destruct EQ as [-> [-> [-> ->]]].
  destruct (widths_unique _ _ _ _ _ _ _ _ _ _ _ _ WO2 WO3) as [<- <-].
  (* the tables *)
  assert (DKn : exists Kg, dict_get group_dict K = Ok Kg) by (destruct (lib_sub _ _ _ _ DH DS2) as [Kg [DK _]]; exists Kg; exact DK).
  destruct DKn as [Kg DK].
  destruct (chain_products _ _ _ _ _ _ _ _ DG DH NM DS DC1 DC2 (dict_get_key _ _ _ DK)) as [sg' [cg' [E1 [E2 PM]]]].
  assert (sg' = sg) by congruence. assert (cg' = cg) by congruence. subst sg' cg'. clear E1 E2.
  pose proof (SL K sk sg DS2 DS3) as SG.
  assert (NS1 : sub <> []) by (destruct (ok_sub _ _ _ _ OKG _ _ DS) as [_ [_ [Q _]]]; intros ->; discriminate Q).
  assert (NS2 : sk <> []) by (destruct (ok_sub _ _ _ _ OKH _ _ DS2) as [_ [_ [Q _]]]; intros ->; discriminate Q).
  assert (NS3 : sg <> []) by (destruct (ok_sub _ _ _ _ OKG _ _ DS3) as [_ [_ [Q _]]]; intros ->; discriminate Q).
  assert (LSS : List.length sk = List.length sg) by (rewrite <- SG, map_length; reflexivity).
  (* the first layer *)
  pose proof (F1 (pool_call_option _ _ _ PF1 C1)) as F1'. clear F1.
  unfold pool_padding_name in PN1. cbn [pa_padding group_pooling_args] in PN1. apply ES in PN1. subst p1.
  replace (is_same (upper "valid_equiv")) with false in F1', WO1 by reflexivity.
  replace (is_plain (upper "valid_equiv")) with false in WO1 by reflexivity.
  assert (U1 : k1 = repeat 1 d /\ s1 = repeat 1 d /\ s1' = repeat 1 d).
  { unfold pool_strides, assumed_strides in *. cbn [pa_pool_size pa_strides group_pooling_args] in *.
    assert (Q : standardize_tuple d (One 1) = Ok (repeat 1 d)) by apply std_unit. repeat split; congruence. }
  destruct U1 as [-> [-> ->]].
  assert (Z1 : eb1 = zeros_of d /\ ea1 = zeros_of d).
  { destruct WO1 as [L1' [L2' [[Q _]|[_ Q]]]]; [discriminate Q|].
    assert (R : forall a, a < d -> nth a eb1 0 = 0 /\ nth a ea1 0 = 0).
    { intros a Ha. destruct (Q a Ha) as [E [_ [E1 [E2 _]]]]. cbv zeta in *.
      assert (R1 : nth a (repeat 1 d) 0 = 1) by (apply nth_ones; exact Ha). rewrite R1 in E.
      rewrite nextra_unit in E by (exists 0; reflexivity). rewrite E in E1, E2. split; assumption. }
    split; apply nth_ext0; unfold zeros_of; rewrite ?repeat_length; try assumption; intros a Ha; rewrite nth_repeat; apply R; lia. }
  destruct Z1 as [-> ->].
  assert (EX : x = tab (b :: m' ++ [List.length (symmetries_of name); c]) (sig4 d (fun4 x))).
  { rewrite <- GO. apply tensor_sig4; assumption. }
  assert (EO : forall u v : tensor A, Ok u = Ok v -> u = v) by congruence.
  pose proof C1 as C1'. rewrite EX in C1'.
  rewrite (tiles_call d t L1 G _ _ _ OKG sub ch _ _ b m' c (fun4 x) F1' NS1 Lm') in C1'.
  destruct (forallb _ _) eqn:FB; [|discriminate C1']. apply EO in C1'.
  assert (KM : forall ax, ax < d -> 1 <= nth ax m' 0).
  { intros ax Hax. pose proof (forallb_combine_le (repeat 1 d) m' d (repeat_length _ _) Lm' FB ax Hax) as Q. 
    assert (R1 : nth ax (repeat 1 d) 0 = 1) by (apply nth_ones; exact Hax). lia. }
  assert (O1 : outs m' (repeat 1 d) (repeat 1 d) = m').
  { apply nth_ext0; [rewrite (length_outs _ _ _ d); rewrite ?repeat_length; auto|]. intros a Ha.
    rewrite (length_outs _ _ _ d) in Ha by (rewrite ?repeat_length; auto).
    rewrite (nth_outs _ _ _ d) by (rewrite ?repeat_length; auto). unfold out_size.
    assert (R1 : nth a (repeat 1 d) 0 = 1) by (apply nth_ones; exact Ha). rewrite R1, Nat.div_1_r. specialize (KM a Ha). lia. }
  rewrite O1 in C1'.
  set (Y := fun (bi : nat) (p : list nat) (h q : nat) => pool_fun (A := A) t (map (fun e => fun4 x bi p (comp G (nth h sub 0) e) q) ch)).
  assert (EY : y = tab (b :: m' ++ [List.length sub; c]) (sig4 d Y)).
  { rewrite <- C1'. apply sig4_ext; [exact Lm'|]. intros bi p0 h q Bi P Hh Q. pose proof (inb_length _ _ P) as LP. rewrite Lm' in LP.
    rewrite indices_units. cbn [map]. rewrite KS. unfold Y. f_equal. apply map_ext. intros e. f_equal.
    apply nth_ext0; [rewrite length_vzip; rewrite ?length_vzip; rewrite ?repeat_length; lia|].
    intros a Ha. rewrite !length_vzip in Ha by (rewrite ?length_vzip; rewrite ?repeat_length; lia).
    rewrite !nth_vzip by (rewrite ?length_vzip; rewrite ?repeat_length; lia). rewrite nth_repeat.
    assert (R1 : nth a (repeat 1 d) 0 = 1) by (apply nth_ones; lia). rewrite R1. lia. }
  (* the other two agree *)
  assert (AG : mem_str (lower (po_padding L2)) ["valid"; "same"] = true -> pool_call L2 y = pool_call L3 x).
  { intros MO. pose proof (F2 MO) as F2'. rewrite PP in MO. pose proof (F3 MO) as F3'.
    rewrite EX, EY. rewrite HO.
    pose proof (pool_call_eq Hg d _ _ OKH sk ck k2 s2 eb2 ea2 _ t L2 b m' c Y F2' NS2 Lm') as Q2. cbv zeta in Q2. rewrite Q2. clear Q2.
    pose proof (pool_call_eq G d _ _ OKG sg cg k2 s2 eb2 ea2 _ t L3 b m' c (fun4 x) F3' NS3 Lm') as Q3. cbv zeta in Q3. rewrite Q3. clear Q3.
    match goal with |- (if ?c then _ else _) = _ => destruct c end; [|reflexivity]. f_equal. rewrite LSS.
    assert (LK : List.length k2 = d) by apply (pf_k _ _ _ _ _ _ _ _ _ _ _ _ F2').
    assert (LS : List.length s2 = d) by apply (pf_s _ _ _ _ _ _ _ _ _ _ _ _ F2').
    assert (LB : List.length eb2 = d) by apply WO2. assert (LA : List.length ea2 = d) by apply WO2.
    assert (LM1 : List.length (padded eb2 m' ea2) = d) by (apply length_padded; assumption).
    apply sig4_ext.
    { apply length_outs; [|exact LK|exact LS]. apply length_padded; rewrite ?map_length; try apply length_builtin; assumption. }
    intros bi p0 h q _ _ Hh _. rewrite <- LSS in Hh. unfold pool_out, pooled. f_equal. f_equal. apply map_ext. intros j.
    destruct (csrc _ _ _ _ _ _) as [i|]; [|reflexivity]. cbn [option_map]. f_equal. unfold bordered.
    destruct (inside eb2 m' i); [|reflexivity].
    apply (nested_pooling (pool_fun (A := A) t) G Hg sub ck ch sg cg sk (fun v => fun4 x bi (vzip Nat.sub i eb2) v q) h _ NS OI IG).
    - rewrite <- GO. exact BI.
    - destruct (ok_cos _ _ _ _ OKG _ _ DS) as [ch' [E [_ [Q _]]]]. assert (ch' = ch) by congruence. subst ch'. exact Q.
    - destruct (ok_cos _ _ _ _ OKG _ _ DS) as [ch' [E [_ [_ [_ Q]]]]]. assert (ch' = ch) by congruence. subst ch'. intros ->.
      pose proof (ok_pos _ _ _ _ OKG). cbn [List.length] in Q. lia.
    - rewrite HO. destruct (ok_cos _ _ _ _ OKH _ _ DS2) as [ck' [E [_ [Q _]]]]. assert (ck' = ck) by congruence. subst ck'. exact Q.
    - rewrite HO. destruct (ok_sub _ _ _ _ OKH _ _ DS2) as [_ [Q _]]. exact Q.
    - exact CM.
    - exact SG.
    - exact PM.
    - exact Hh. }
  split; intros C.
  - rewrite <- AG; [exact C|]. exact (pool_call_option _ _ _ PF2 C).
  - rewrite AG; [exact C|]. rewrite PP. exact (pool_call_option _ _ _ PF3 C).
Qed.

(** ** Before global pooling *)

Lemma nests_flat (f : list A -> A) {B : Type} (F : B -> list A) l n : nests f -> 0 < n -> (forall a, In a l -> List.length (F a) = n) ->
  f (map (fun a => f (F a)) l) = f (flat_map F l).
Proof.
  intros NS N LF. rewrite <- (map_map F f). rewrite (NS n); [rewrite flat_map_concat_map; reflexivity|exact N|].
  intros v I. apply in_map_iff in I as [a [<- Ia]]. apply LF. exact Ia.
Qed.

Lemma NoDup_app_disjoint {B} (l l' : list B) : NoDup l -> NoDup l' -> (forall v, In v l -> ~ In v l') -> NoDup (l ++ l').
Proof.
  intros N N' D. induction N as [|v l NI N IH]; [exact N'|]. cbn [app]. apply NoDup_cons.
  - intros I. apply in_app_iff in I as [I|I]; [exact (NI I)|]. exact (D v (or_introl eq_refl) I).
  - apply IH. intros w I. apply D. right. exact I.
Qed.

Lemma NoDup_list_prod {B C} (l : list B) (l' : list C) : NoDup l -> NoDup l' -> NoDup (list_prod l l').
Proof.
  intros N N'. induction N as [|a l NI N IH]; [apply NoDup_nil|]. cbn [list_prod]. apply NoDup_app_disjoint.
  - apply FinFun.Injective_map_NoDup; [|exact N']. intros u v E. congruence.
  - exact IH.
  - intros [u v] I I'. apply in_map_iff in I as [w [E _]]. apply in_prod_iff in I' as [I' _]. apply NI. congruence.
Qed.

Lemma prod_pos k : (forall ax, ax < List.length k -> 0 < nth ax k 0) -> 0 < prod k.
Proof.
  induction k as [|v k IH]; intros P; [cbn; lia|]. change (0 < v * prod k). apply Nat.mul_pos_pos; [exact (P 0 ltac:(cbn [List.length]; lia))|].
  apply IH. intros ax H. apply (P (S ax)). cbn [List.length]. lia.
Qed.

Lemma prod_div k m : List.length k = List.length m -> (forall ax, ax < List.length m -> 0 < nth ax k 0 /\ nth ax m 0 mod nth ax k 0 = 0) ->
  prod (vzip Nat.div m k) * prod k = prod m.
Proof.
  revert m. induction k as [|v k IH]; intros [|w m] L P; try discriminate L; [reflexivity|].
  change (vzip Nat.div (w :: m) (v :: k)) with (w / v :: vzip Nat.div m k).
  change (w / v * prod (vzip Nat.div m k) * (v * prod k) = w * prod m).
  destruct (P 0 ltac:(cbn [List.length]; lia)) as [V M]. cbn [nth] in V, M.
  assert (W : w = w / v * v) by (pose proof (Nat.div_mod w v ltac:(lia)) as D; lia).
  rewrite <- (IH m); [|cbn [List.length] in L; lia|intros ax H; apply (P (S ax)); cbn [List.length]; lia].
  rewrite W at 2. ring.
Qed.

(** The tiles of a signal. *)
Lemma tiles_cover (f : list A -> A) d G n sub cos k m (X : list nat -> nat -> A) :
  nests f -> order_irrelevant f -> List.length k = d -> List.length m = d ->
  (forall ax, ax < d -> 0 < nth ax k 0 /\ nth ax m 0 mod nth ax k 0 = 0) ->
  sub <> [] -> cos <> [] -> List.length sub * List.length cos = n ->
  (forall g, g < n -> exists h e, In h sub /\ In e cos /\ comp G h e = g) ->
  f (map (fun p => f (map (fun h => f (map (fun j => f (map (fun e => X (vzip Nat.add (vzip Nat.mul p k) j) (comp G (nth h sub 0) e)) cos)) (indices k)))
       (seq 0 (List.length sub)))) (indices (vzip Nat.div m k)))
  = f (map (fun p => f (map (X p) (seq 0 n))) (indices m)).
Proof.
  intros NS OI Lk Lm P N1 N2 LE SU.
  assert (PK : 0 < prod k) by (apply prod_pos; intros ax H; apply P; lia).
  assert (C1 : 0 < List.length cos) by (destruct cos; [contradiction|cbn [List.length]; lia]).
  assert (S1 : 0 < List.length sub) by (destruct sub; [contradiction|cbn [List.length]; lia]).
  assert (NP : 0 < n) by (rewrite <- LE; apply Nat.mul_pos_pos; assumption).
  set (Q := fun p h j => map (fun e => (vzip Nat.add (vzip Nat.mul p k) j, comp G (nth h sub 0) e)) cos).
  set (big := flat_map (fun p => flat_map (fun h => flat_map (fun j => Q p h j) (indices k)) (seq 0 (List.length sub))) (indices (vzip Nat.div m k))).
  set (XX := fun v : list nat * nat => X (fst v) (snd v)).
  assert (MF : forall {B C D} (g : C -> D) (F : B -> list C) l, map g (flat_map F l) = flat_map (fun a => map g (F a)) l).
  { clear. intros B C D g F l. induction l as [|a l IH]; [reflexivity|]. cbn [flat_map]. rewrite map_app, IH. reflexivity. }
  assert (LQ : forall p h j, List.length (map XX (Q p h j)) = List.length cos) by (intros; unfold Q; rewrite !map_length; reflexivity).
  assert (LF : forall p h, List.length (flat_map (fun j => map XX (Q p h j)) (indices k)) = prod k * List.length cos).
  { intros p h. rewrite (length_flat_map_const _ _ (List.length cos)) by (intros; apply LQ). rewrite length_indices. reflexivity. }
  assert (LG : forall p, List.length (flat_map (fun h => flat_map (fun j => map XX (Q p h j)) (indices k)) (seq 0 (List.length sub))) = List.length sub * (prod k * List.length cos)).
  { intros p. rewrite (length_flat_map_const _ _ (prod k * List.length cos)) by (intros; apply LF). rewrite seq_length. reflexivity. }
  transitivity (f (map XX big)).
  - transitivity (f (map (fun p => f (flat_map (fun h => flat_map (fun j => map XX (Q p h j)) (indices k)) (seq 0 (List.length sub)))) (indices (vzip Nat.div m k)))).
    + f_equal. apply map_ext. intros p.
      rewrite <- (nests_flat f _ _ (prod k * List.length cos) NS); [|apply Nat.mul_pos_pos; assumption|intros h _; apply LF].
      f_equal. apply map_ext. intros h. rewrite <- (nests_flat f _ _ (List.length cos) NS); [|exact C1|intros j _; apply LQ].
      f_equal. apply map_ext. intros j. f_equal. unfold Q. rewrite map_map. reflexivity.
    + rewrite (nests_flat f _ _ (List.length sub * (prod k * List.length cos)) NS);
        [|apply Nat.mul_pos_pos; [exact S1|apply Nat.mul_pos_pos; assumption]|intros p _; apply LG].
      f_equal. unfold big. rewrite MF. apply flat_map_ext. intros p. rewrite MF. apply flat_map_ext. intros h. rewrite MF. reflexivity.
  - transitivity (f (map XX (list_prod (indices m) (seq 0 n)))).
    + apply OI. apply Permutation_map. apply Permutation_sym. apply NoDup_Permutation_bis.
      * apply NoDup_list_prod; [apply NoDup_indices|apply seq_NoDup].
      * rewrite prod_length, seq_length, length_indices. unfold big.
        rewrite (length_flat_map_const _ _ (List.length sub * (prod k * List.length cos))).
        -- rewrite length_indices, <- LE, <- (prod_div k m) by (try lia; intros ax H; apply P; lia). apply Nat.eq_le_incl. ring.
        -- intros p _. rewrite (length_flat_map_const _ _ (prod k * List.length cos)); [rewrite seq_length; reflexivity|].
           intros h _. rewrite (length_flat_map_const _ _ (List.length cos)); [rewrite length_indices; reflexivity|]. intros j _. unfold Q. apply map_length.
      * intros [i g] I. apply in_prod_iff in I as [I1 I2]. apply In_indices in I1. apply in_seq in I2.
        pose proof (inb_length _ _ I1) as LI. rewrite Lm in LI.
        destruct (SU g ltac:(lia)) as [h [e [Ih [Ie CE]]]]. apply (In_nth _ _ 0) in Ih as [h0 [Hh0 EH]].
        assert (LD : List.length (vzip Nat.div m k) = d) by (rewrite length_vzip; lia).
        assert (LPV : List.length (vzip Nat.div i k) = d) by (rewrite length_vzip; lia).
        assert (LPM : List.length (vzip Nat.modulo i k) = d) by (rewrite length_vzip; lia).
        unfold big. apply in_flat_map. exists (vzip Nat.div i k). split.
        { apply In_indices. apply inb_intro; [lia|]. rewrite LD. intros ax H. rewrite !nth_vzip by lia.
          destruct (P ax H) as [P1 P2]. pose proof (inb_nth _ _ ax I1 ltac:(lia)) as IA. apply Nat.div_lt_upper_bound; [lia|].
          pose proof (Nat.div_mod (nth ax m 0) (nth ax k 0) ltac:(lia)). lia. }
        apply in_flat_map. exists h0. split; [apply in_seq; lia|].
        apply in_flat_map. exists (vzip Nat.modulo i k). split.
        { apply In_indices. apply inb_intro; [lia|]. rewrite Lk. intros ax H. rewrite !nth_vzip by lia.
          destruct (P ax H) as [P1 P2]. apply Nat.mod_upper_bound. lia. }
        unfold Q. apply in_map_iff. exists e. split; [|exact Ie]. rewrite EH, CE. f_equal.
        assert (LV : List.length (vzip Nat.mul (vzip Nat.div i k) k) = d) by (rewrite length_vzip; lia).
        apply nth_ext0; [rewrite length_vzip; lia|]. intros ax H. rewrite length_vzip in H by lia. rewrite !nth_vzip by lia.
        destruct (P ax ltac:(lia)) as [P1 P2]. pose proof (Nat.div_mod (nth ax i 0) (nth ax k 0) ltac:(lia)). lia.
    + rewrite (nests_flat f _ _ n NS) by (try assumption; intros p _; rewrite map_length; apply seq_length).
      f_equal. clear. induction (indices m) as [|p l IH]; [reflexivity|]. cbn [list_prod flat_map]. rewrite map_app, IH, map_map. reflexivity.
Qed.

(** C73: pooling over tiles that cover the signal changes nothing about its global pooling. *)
Theorem C73_pooling_before_global_pooling name G d t (a : pool_args) H opt bs m g c L k :
  nests (pool_fun (A := A) t) -> order_irrelevant (pool_fun (A := A) t) ->
  pooling_for name G a -> pa_subgroup a = Some H -> pool_option a opt -> In opt ["VALID"; "VALID_EQUIV"] ->
  pooling_built d t a (bs :: map Some m ++ [Some g; Some c]) L -> List.length m = d -> pool_sizes d a k k ->
  (forall ax, ax < d -> nth ax m 0 mod nth ax k 0 = 0) ->
  forall (x y : tensor A) b m', wf x -> List.length m' = d -> (forall ax, ax < d -> nth ax m' 0 mod nth ax k 0 = 0) ->
  shape x = b :: m' ++ [g; c] -> pool_call L x = Ok y ->
  forall fmt kd input GL0 GL, In fmt [None; Some "channels_last"] ->
  global_init d t fmt kd = Ok GL0 -> global_build GL0 input = Ok GL ->
  exists z, global_call GL x = Ok z /\ global_call GL y = Ok z.
Proof.
  intros NS OI [DG [AG AF]] HS [p [PN UP]] OPT [L0 [I B]] Lm [SK SS] DV x y b m' W Lm' DV' SX C fmt kd input GL0 GL FM GI GB.
  pose proof DG as DG'. apply lib_ok in DG' as [_ OK].
  assert (PF : po_format L = "channels_last") by (eapply pool_format; [exact AF|exact I|exact B]).
  destruct (pool_build_inv (A := A) G d _ _ OK name t a L0 bs m g c L DG AG AF I Lm B)
    as [p' [k' [s0 [s' [eb [ea [sub [cos [Hn [PN' [SK' [SS0 [SS' [WO [PS [DS [DC [SA [GN [F _]]]]]]]]]]]]]]]]]]]].
  assert (k' = k) by congruence. subst k'. assert (s0 = k) by (unfold pool_strides in SS0; congruence). subst s0.
  assert (p' = p) by (unfold pool_padding_name in PN'; congruence). subst p'. rewrite UP in *.
  pose proof (F (pool_call_option _ _ _ PF C)) as F'. clear F.
  assert (SM : is_same opt = false) by (destruct OPT as [<-|[<-|[]]]; reflexivity). rewrite SM in *.
  assert (Lk : List.length k = d) by apply (pf_k _ _ _ _ _ _ _ _ _ _ _ _ F').
  assert (Pk : forall ax, ax < d -> 0 < nth ax k 0) by apply (pf_kpos _ _ _ _ _ _ _ _ _ _ _ _ F').
  assert (Z1 : eb = zeros_of d /\ ea = zeros_of d).
  { destruct WO as [L1' [L2' [[_ [-> ->]]|[_ Q]]]]; [split; reflexivity|].
    assert (R : forall ax, ax < d -> nth ax eb 0 = 0 /\ nth ax ea 0 = 0).
    { intros ax Ha. destruct (Q ax Ha) as [E [_ [E1 [E2 _]]]]. cbv zeta in *.
      assert (N0 : nextra (nth ax m 0) 0 (nth ax k 0) (nth ax s' 0) = 0).
      { unfold assumed_strides in SS'. destruct (pa_strides a) as [st|] eqn:PST.
        - assert (s' = k) by congruence. subst s'. specialize (DV ax Ha). specialize (Pk ax Ha).
          pose proof (Nat.div_mod (nth ax m 0) (nth ax k 0) ltac:(lia)) as DM. rewrite DV in DM.
          unfold nextra, zextra. assert (Z0 : ze0 (Z.of_nat (nth ax m 0)) (Z.of_nat 0) (Z.of_nat (nth ax k 0)) (Z.of_nat (nth ax k 0)) = 0%Z).
          { unfold ze0. set (u := nth ax m 0) in *. set (v := nth ax k 0) in *.
            replace (- (Z.of_nat u + Z.of_nat 0 - Z.of_nat v))%Z with ((1 - Z.of_nat (u / v)) * Z.of_nat v)%Z by nia. apply Z.mod_mul. lia. }
          rewrite Z0. reflexivity.
        - rewrite std_unit in SS'. assert (EE : forall u v : list nat, Ok u = Ok v -> u = v) by congruence. apply EE in SS'. subst s'.
          assert (R1 : nth ax (repeat 1 d) 0 = 1) by (apply nth_ones; exact Ha). rewrite R1. apply nextra_unit. exists 0. reflexivity. }
      rewrite N0 in E. rewrite E in E1, E2. split; assumption. }
    split; apply nth_ext0; unfold zeros_of; rewrite ?repeat_length; try assumption; intros ax Ha; rewrite nth_repeat; apply R; lia. }
  destruct Z1 as [-> ->].
  assert (NSU : sub <> []) by (destruct (ok_sub _ _ _ _ OK _ _ DS) as [_ [_ [Q _]]]; intros ->; discriminate Q).
  destruct (ok_cos _ _ _ _ OK _ _ DS) as [cos' [DC' [_ [_ [SU LE]]]]]. assert (cos' = cos) by congruence. subst cos'.
  assert (NSC : cos <> []) by (intros ->; pose proof (ok_pos _ _ _ _ OK); cbn [List.length] in LE; lia).
  subst g.
  assert (EX : x = tab (b :: m' ++ [List.length (symmetries_of name); c]) (sig4 d (fun4 x))) by (apply tensor_sig4; assumption).
  assert (C' := C). rewrite EX in C'. rewrite (tiles_call d t L G _ _ _ OK sub cos _ _ b m' c (fun4 x) F' NSU Lm') in C'.
  destruct (forallb _ _) eqn:FB; [|discriminate C'].
  assert (EO : forall u v : tensor A, Ok u = Ok v -> u = v) by congruence. apply EO in C'.
  pose proof (forallb_combine_le k m' d Lk Lm' FB) as KM.
  assert (O1 : outs m' k k = vzip Nat.div m' k).
  { apply nth_ext0; [rewrite (length_outs _ _ _ d), length_vzip by lia; lia|]. intros ax Ha. rewrite (length_outs _ _ _ d) in Ha by lia.
    rewrite (nth_outs _ _ _ d) by lia. rewrite nth_vzip by lia. unfold out_size. specialize (DV' ax Ha). specialize (Pk ax Ha). specialize (KM ax Ha).
    pose proof (Nat.div_mod (nth ax m' 0) (nth ax k 0) ltac:(lia)) as DM. rewrite DV' in DM.
    set (q := nth ax m' 0 / nth ax k 0) in *. assert (1 <= q) by (destruct q; lia).
    replace (nth ax m' 0 - nth ax k 0) with ((q - 1) * nth ax k 0) by nia. rewrite Nat.div_mul by lia. lia. }
  rewrite O1 in C'.
  assert (KF : known_format fmt) by (destruct FM as [<-|[<-|[]]]; unfold known_format; cbn [In]; tauto).
  assert (FO : first_of fmt = false) by (destruct FM as [<-|[<-|[]]]; reflexivity).
  assert (LD : List.length (vzip Nat.div m' k) = d) by (rewrite length_vzip; lia).
  assert (SY : shape y = global_shape fmt b (vzip Nat.div m' k) (List.length sub) c) by (unfold global_shape; rewrite FO, <- C'; reflexivity).
  assert (SX' : shape x = global_shape fmt b m' (List.length (symmetries_of name)) c) by (unfold global_shape; rewrite FO; exact SX).
  destruct (what_global_pooling_computes d t fmt kd input GL0 GL x b m' _ c KF GI GB Lm' SX') as [zx [CX [WX [SZX AX]]]].
  destruct (what_global_pooling_computes d t fmt kd input GL0 GL y b _ _ c KF GI GB LD SY) as [zy [CY [WY [SZY AY]]]].
  exists zx. split; [exact CX|]. rewrite CY. f_equal. apply tensor_ext; [exact WY|exact WX|congruence|].
  assert (V : forall bi q, bi < b -> q < c -> at_ zy (if kd then global_shape fmt bi (repeat 0 d) 0 q else [bi; q]) = at_ zx (if kd then global_shape fmt bi (repeat 0 d) 0 q else [bi; q])).
  { intros bi q Bi Q. rewrite (AX bi q Bi Q), (AY bi q Bi Q). unfold global_shape. rewrite FO.
    rewrite <- (tiles_cover (pool_fun (A := A) t) d G _ sub cos k m' (fun p v => at_ x (bi :: p ++ [v; q])) NS OI Lk Lm'
      (fun ax Hax => conj (Pk ax Hax) (DV' ax Hax)) NSU NSC LE SU).
    f_equal. apply map_ext_in. intros p0 P. apply In_indices in P. f_equal. apply map_ext_in. intros h Hh. apply in_seq in Hh.
    rewrite <- C'. rewrite at_sig4 by (try assumption; lia). reflexivity. }
  rewrite SZY. intros i Ii. destruct kd.
  - unfold global_shape in *. rewrite FO in *. apply inb4_inv in Ii as [bi [p0 [h [q [-> [Bi [P [Hh Q]]]]]]]].
    assert (p0 = repeat 0 d).
    { pose proof (inb_length _ _ P) as LP. rewrite repeat_length in LP. apply nth_ext0; [rewrite repeat_length; exact LP|].
      intros ax Hax. pose proof (inb_nth _ _ ax P ltac:(rewrite repeat_length; lia)) as PN0. rewrite nth_repeat.
      assert (R1 : nth ax (repeat 1 d) 0 = 1) by (apply nth_ones; lia). lia. }
    subst p0. assert (h = 0) by lia. subst h. apply V; assumption.
  - apply inb2 in Ii as [bi [q [-> [Bi Q]]]]. apply (V bi q Bi Q).
Qed.
End Steps.

(** ** The two kinds of pooling *)

(** Exact maximum. *)
Theorem C72_maximum_has_the_laws : nests (pool_fun (A := Z) "max") /\ keeps_single (pool_fun (A := Z) "max") /\ order_irrelevant (pool_fun (A := Z) "max").
Proof.
  split; [|split; [intros v; reflexivity|apply pool_Z_order_irrelevant]].
  pose (f := fun l : list Z => match l with [] => 0%Z | v :: r => fold_left Z.max r v end). change (nests f).
  assert (AP : forall l l', l <> [] -> l' <> [] -> f (l ++ l') = Z.max (f l) (f l')).
  { intros [|v r] [|w r'] N N'; try contradiction. cbn [app f]. rewrite fold_left_app. cbn [fold_left].
    generalize (fold_left Z.max r v). clear. intros u. revert u w.
    induction r' as [|a r IH]; intros u w; cbn [fold_left]; [reflexivity|]. rewrite <- IH. f_equal. lia. }
  intros n ls N LN. destruct ls as [|l ls]; [reflexivity|]. revert l LN.
  induction ls as [|l' ls IH] using rev_ind; intros l LN.
  - cbn [map f fold_left List.concat]. rewrite app_nil_r. reflexivity.
  - assert (NE : forall l0, In l0 (l :: ls ++ [l']) -> l0 <> []) by (intros l0 I E; subst l0; specialize (LN _ I); cbn [List.length] in LN; lia).
    replace (map f (l :: ls ++ [l'])) with (map f (l :: ls) ++ [f l']) by (cbn [map app]; rewrite map_app; reflexivity).
    rewrite AP by (cbn [map]; discriminate).
    rewrite IH by (intros l0 I; apply LN; cbn [In] in *; rewrite in_app_iff; tauto).
    replace (List.concat (l :: ls ++ [l'])) with (List.concat (l :: ls) ++ l') by (cbn [List.concat]; rewrite concat_app; cbn [List.concat]; rewrite app_nil_r, app_assoc; reflexivity).
    rewrite AP; [reflexivity| |].
    + cbn [List.concat]. intros E. apply app_eq_nil in E as [E _]. apply (NE l); [left; reflexivity|exact E].
    + apply NE. right. apply in_app_iff. right. left. reflexivity.
Qed.

From Coq Require Import QArith Qcanon.
Local Open Scope nat_scope.
Local Open Scope string_scope.
Local Open Scope list_scope.

(** Exact mean over the rational numbers. *)
Definition exact_mean (l : list Qc) : Qc := (fold_right Qcplus 0 l / Q2Qc (inject_Z (Z.of_nat (List.length l))))%Qc.

Theorem C72_mean_has_the_laws : nests exact_mean /\ keeps_single exact_mean /\ order_irrelevant exact_mean.
Proof.
  assert (SP : forall l l', fold_right Qcplus 0%Qc (l ++ l') = (fold_right Qcplus 0 l + fold_right Qcplus 0 l')%Qc).
  { induction l as [|v l IH]; intros l'; cbn [app fold_right]; [ring|]. rewrite IH. ring. }
  assert (NZ : forall n, 0 < n -> Q2Qc (inject_Z (Z.of_nat n)) <> 0%Qc).
  { intros n N E. apply Q2Qc_eq_iff in E. unfold Qeq, inject_Z in E. cbn [Qnum Qden] in E. lia. }
  split; [|split].
  - intros n ls N LN. unfold exact_mean at 1 3. rewrite map_length.
    assert (SM : fold_right Qcplus 0%Qc (map exact_mean ls)
                 = (fold_right Qcplus 0 (List.concat ls) / Q2Qc (inject_Z (Z.of_nat n)))%Qc).
    { induction ls as [|l ls IH]; cbn [map List.concat fold_right]; [field; apply NZ; exact N|].
      rewrite IH by (intros l0 I; apply LN; right; exact I). rewrite SP. unfold exact_mean. rewrite (LN l (or_introl eq_refl)). field. apply NZ. exact N. }
    assert (LC : List.length (List.concat ls) = n * List.length ls).
    { clear SM. induction ls as [|l ls IH]; cbn [List.concat List.length]; [lia|]. rewrite app_length, IH by (intros l0 I; apply LN; right; exact I).
      rewrite (LN l (or_introl eq_refl)). lia. }
    rewrite SM, LC.
    replace (Q2Qc (inject_Z (Z.of_nat (n * List.length ls)))) with (Q2Qc (inject_Z (Z.of_nat n)) * Q2Qc (inject_Z (Z.of_nat (List.length ls))))%Qc.
    2:{ apply Qc_is_canon. cbn [this Qcmult Q2Qc]. rewrite !Qred_correct. rewrite Nat2Z.inj_mul, inject_Z_mult. reflexivity. }
    unfold Qcdiv. rewrite Qcinv_mult_distr. ring.
  - intros v. unfold exact_mean. cbn [fold_right List.length]. change (Z.of_nat 1) with 1%Z. rewrite Qcplus_0_r. change (Q2Qc (inject_Z 1)) with 1%Qc. field. discriminate.
  - intros l l' P. unfold exact_mean. rewrite (Permutation_length P). f_equal. induction P; cbn [fold_right]; [reflexivity|congruence|ring|congruence].
Qed.

Print Assumptions C72_maximum_has_the_laws.
Print Assumptions C72_mean_has_the_laws.
Print Assumptions C72_pooling_in_two_steps.
Print Assumptions C73_pooling_before_global_pooling.

(** ** The three exceptions *)

(** The layers of C72 for pool size 1, and their two results. *)
Definition two_ways (d : nat) (name H K : string) (n : list nat) (c : nat) (k : size_arg) (s : option size_arg) (p : option (option string))
  (x : tensor Z) : result (tensor Z * tensor Z) :=
  G <- dict_get group_dict name ;; Hg <- dict_get group_dict H ;; sub <- dict_get (g_subgroup G) H ;;
  L1 <- test_pool d "max" (group_pooling_args G H) (None :: map Some n ++ [Some (g_order G); Some c]) ;;
  L2 <- test_pool d "max" (mkPoolArgs (Object Hg) (Some K) k s p "channels_last" false) (None :: map Some n ++ [Some (List.length sub); Some c]) ;;
  L3 <- test_pool d "max" (mkPoolArgs (Object G) (Some K) k s p "channels_last" false) (None :: map Some n ++ [Some (g_order G); Some c]) ;;
  y <- pool_call L1 x ;; z <- pool_call L2 y ;; z' <- pool_call L3 x ;; Ok (z, z').

(** One value 1 at a group element, zeros elsewhere. *)
Definition one_at (d g v : nat) : tensor Z := tab (1 :: repeat 1 d ++ [g; 1]) (fun i => if (nth (S d) i 0 =? v)%nat then 1%Z else 0%Z).

Definition different (R : result (tensor Z * tensor Z)) : bool :=
  match R with Ok (z, z') => negb (if list_eq_dec Z.eq_dec (data z) (data z') then true else false) | Err _ => false end.

Theorem C72_pooling_in_two_steps_refuted name H K : In (name, H, K) mismatched ->
  exists d G Hg sub L1 L2 L3 (x y z z' : tensor Z),
    dict_get group_dict name = Ok G /\ dict_get group_dict H = Ok Hg /\ dict_get (g_subgroup G) H = Ok sub /\
    pooling_built d "max" (group_pooling_args G H) (None :: repeat (Some 1) d ++ [Some (g_order G); Some 1]) L1 /\
    pooling_built d "max" (group_pooling_args Hg K) (None :: repeat (Some 1) d ++ [Some (List.length sub); Some 1]) L2 /\
    pooling_built d "max" (group_pooling_args G K) (None :: repeat (Some 1) d ++ [Some (g_order G); Some 1]) L3 /\
    wf x /\ shape x = 1 :: repeat 1 d ++ [g_order G; 1] /\
    pool_call L1 x = Ok y /\ pool_call L2 y = Ok z /\ pool_call L3 x = Ok z' /\ z <> z'.
Proof.
  intros M.
  assert (Q : exists d g v, different (two_ways d name H K (repeat 1 d) 1 (One 1) None None (one_at d g v)) = true /\
              match dict_get group_dict name with Ok G => g_order G = g | Err _ => False end).
  { destruct M as [E|[E|[E|[]]]].
    - assert (name = "P4M" /\ H = "P2MM" /\ K = "PMw") as [-> [-> ->]] by (repeat split; congruence).
      exists 2, 8, 2. split; vm_compute; reflexivity.
    - assert (name = "P4M" /\ H = "P2MM" /\ K = "PMh") as [-> [-> ->]] by (repeat split; congruence).
      exists 2, 8, 2. split; vm_compute; reflexivity.
    - assert (name = "Oh" /\ H = "D4h" /\ K = "D4") as [-> [-> ->]] by (repeat split; congruence).
      exists 3, 48, 28. split; vm_compute; reflexivity. }
  clear M. destruct Q as [d [g [v [D O]]]]. unfold two_ways in D.
  destruct (dict_get group_dict name) as [G|]; [|contradiction]. cbn [bind] in D.
  destruct (dict_get group_dict H) as [Hg|]; [|discriminate D]. cbn [bind] in D.
  destruct (dict_get (g_subgroup G) H) as [sub|] eqn:DS; [|discriminate D]. cbn [bind] in D.
  destruct (test_pool d "max" (group_pooling_args G H) _) as [L1|] eqn:T1; [|discriminate D]. cbn [bind] in D.
  destruct (test_pool d "max" (mkPoolArgs (Object Hg) _ _ _ _ _ _) _) as [L2|] eqn:T2; [|discriminate D]. cbn [bind] in D.
  destruct (test_pool d "max" (mkPoolArgs (Object G) _ _ _ _ _ _) _) as [L3|] eqn:T3; [|discriminate D]. cbn [bind] in D.
  destruct (pool_call L1 _) as [y|] eqn:C1; [|discriminate D]. cbn [bind] in D.
  destruct (pool_call L2 _) as [z|] eqn:C2; [|discriminate D]. cbn [bind] in D.
  destruct (pool_call L3 _) as [z'|] eqn:C3; [|discriminate D]. cbn [bind different] in D.
  assert (MR : map Some (repeat 1 d) = repeat (Some 1) d) by (clear; induction d as [|d IH]; [reflexivity|cbn [repeat map]; rewrite IH; reflexivity]).
  rewrite MR in T1, T2, T3.
  exists d, G, Hg, sub, L1, L2, L3, (one_at d g v), y, z, z'. 
  split; [reflexivity|]. split; [reflexivity|]. split; [exact DS|].
  split; [apply test_pool_built; exact T1|]. split; [apply test_pool_built; exact T2|]. split; [apply test_pool_built; exact T3|].
  split; [apply wf_tab|]. split; [rewrite O; reflexivity|]. split; [exact C1|]. split; [exact C2|]. split; [exact C3|].
  intros ->. destruct (list_eq_dec Z.eq_dec (data z') (data z')); [discriminate D|contradiction].
Qed.
Print Assumptions C72_pooling_in_two_steps_refuted.

(** ** Cases *)
Example C72_case :
  match two_ways 2 "P4M" "P4" "P2" [5; 5] 1 (One 3) (Some (One 2)) (Some (Some "same_equiv")) (some_signal [1; 5; 5; 8; 1]) with
  | Ok (z, z') => data z = data z' /\ shape z = [1; 3; 3; 2; 1] /\ firstn 4 (data z) <> repeat (hd 0%Z (data z)) 4
  | Err _ => False
  end.
Proof. vm_compute. split; [reflexivity|]. split; [reflexivity|discriminate]. Qed.

(** Tiles of size 2 and then everything, against everything at once; with windows
    that leave out values the results differ. *)
Definition before_global (k : size_arg) (s : option size_arg) (x : tensor Z) : result (list Z * list Z) :=
  L <- test_pool 2 "max" (mkPoolArgs (ByName "P4") (Some "P2") k s (Some (Some "valid")) "channels_last" false) [None; Some 4; Some 4; Some 4; Some 1] ;;
  y <- pool_call L x ;;
  L0 <- global_init 2 "max" None false ;; GL <- global_build L0 [None; Some 4; Some 4; Some 4; Some 1] ;;
  z <- global_call GL x ;; z' <- global_call GL y ;; Ok (data z, data z').

Example C73_case :
  before_global (One 2) None (some_signal [2; 4; 4; 4; 1]) = Ok ([30%Z; 30%Z], [30%Z; 30%Z]) /\
  before_global (One 1) (Some (One 3)) (some_signal [2; 4; 4; 4; 1]) = Ok ([30%Z; 30%Z], [29%Z; 29%Z]).
Proof. split; vm_compute; reflexivity. Qed.
