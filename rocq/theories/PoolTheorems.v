(** Pooling layers commute with the group action. *)
From Coq Require Import Permutation.
From Verif Require Export PoolFacts.
Local Open Scope string_scope.
Local Open Scope list_scope.

Section Pool.
Context {A : Type} {RA : Arith A} {PA : Pool A}.
Context (G : group) (d : nat) (E : list symmetry) (eq : bool) (OK : group_ok G d E eq).
Notation n := (List.length E).
Notation sym a := (nth a E []).
Notation fit := (fit d eq).

Let GR := ok_is_group _ _ _ _ OK.

Lemma fit_ones' : fit (ones d).
Proof. apply (fit_ones d eq). Qed.

Definition invariant (f : list A -> A) : Prop := forall l l', Permutation l l' -> f l = f l'.

Lemma pool_out_moved f sub cos k s be m m1 before M X X' u bi p h q :
  invariant f -> u < n -> (forall h, In h sub -> h < n) -> (forall c, In c cos -> c < n) -> stable G u sub ->
  fit m -> fit k -> fit M -> fit s -> fit before -> fit be -> m1 = padded be m be ->
  (forall b, b < d -> mirrored m1 k M s (ones d) before b) ->
  (forall i g, inb m i -> g < n -> X' bi i g q = X bi (pixel (sym u) m i) (comp G (inv G u) g) q) ->
  inb M p -> h < List.length sub ->
  pool_out G d f sub cos k s be m m1 before X' bi p h q
  = pool_out G d f sub cos k s be m m1 before X bi (pixel (sym u) M p) (turned G u sub h) q.
Proof.
  intros PF U BS BC ST Fm Fk FM Fs Fb Fe -> MI XX P H. unfold pool_out.
  assert (Fm1 : fit (padded be m be)) by (apply (fit_padded d eq); assumption).
  pose proof Fm1 as [_ Lm1]. pose proof Fk as [_ Lk]. pose proof fit_ones' as Fo.
  apply (pooled_moved d (csrc (padded be m be) s (ones d) before) f k _ _ (sym u) (padded be m be) M (fun r => r)).
  - exact PF.
  - apply (sym_ok G d E eq OK). exact U.
  - exact Lk.
  - apply (fits_sym G d E eq OK); [apply Fk|exact Lk|exact U].
  - intros j J. destruct Fm1 as [Fm1 _], Fk as [Fk _], FM as [FM LM], Fs as [Fs Ls], Fo as [Fo Lo], Fb as [Fb Lb].
    apply (csrc_moved G d E eq OK u _ k M s (ones d) before p j U Fm1 Fk FM Fs Fo Fb Lm1 Lk LM Ls Lo Lb); [|exact P|exact J].
    intros b Hb _. apply MI. exact Hb.
  - intros j i _. apply csrc_in.
  - intros i I. apply (bordered_moved G d E eq OK); try assumption.
    intros i' I'. f_equal. apply map_ext_in. intros e Ie. rewrite XX.
    + f_equal. rewrite (turned_nth G u sub h ST H). symmetry. pose proof (nth_In sub 0 H) as NI.
      symmetry. apply (group_assoc _ _ _ GR); [apply (ok_inv_lt _ _ _ _ OK); exact U|apply BS; exact NI|apply BC; exact Ie].
    + exact I'.
    + apply (ok_closed _ _ _ _ OK); [apply BS, nth_In; exact H|apply BC; exact Ie].
Qed.

(** The windows mirror at every axis, for inputs of size [m]. *)
Definition regular (same : bool) (k s eb ea m : list nat) : Prop :=
  eb = ea /\
  let m1 := padded eb m ea in
  let pads := builtin_pads (padding_string same) m1 k s in
  let m2 := padded (map fst pads) m1 (map snd pads) in
  forall a, a < d -> nth a k 0 <= nth a m2 0 -> mirrored m1 k (outs m2 k s) s (ones d) (map fst pads) a.

Lemma pool_equivariance sub cos k s eb ea same t L H m x b c gx y :
  invariant (pool_fun (A := A) t) -> pool_facts (A := A) G d E sub cos k s eb ea same t L -> sub_idx G (Some H) sub ->
  fit k -> fit s -> fit eb -> regular same k s eb ea m -> List.length m = d ->
  wf x -> shape x = b :: m ++ [n; c] ->
  action G x (map Z.of_nat (seq 1 d)) 0 (Some (Z.of_nat (d + 1))) (Some H) (Some "") = Ok gx ->
  pool_call L x = Ok y ->
  wf y /\ shape gx = List.length sub :: shape x /\
  exists gy, action G y (map Z.of_nat (seq 1 d)) 0 (Some (Z.of_nat (d + 1))) (Some H) (Some H) = Ok gy /\
    shape gy = List.length sub :: shape y /\
    forall u, u < List.length sub -> pool_call L (slice 0 u gx) = Ok (slice 0 u gy).
Proof.
  intros PF F HI Fk Fs Fe [EQ MI] Lm W SH R C. subst ea.
  destruct (sub_idx_facts _ _ _ _ OK _ _ HI) as [NDi [Bi [Hi _]]].
  assert (NE : sub <> []) by (intros ->; discriminate Hi).
  assert (ST : forall u, In u sub -> stable G u sub) by (intros u U; apply (stable_of G d E eq OK (Some H)); assumption).
  pose proof (sub_idx_whole _ _ _ _ OK) as WH.
  rewrite (tensor_sig4 d b m n c x W Lm SH) in R, C.
  destruct (group_slices G d E eq OK b m n c (fun4 x) (Some H) (Some "") sub (seq 0 n) gx HI WH) as [Fm [SG SL]];
    [symmetry; apply seq_length|exact Lm|intros u U; apply (stable_whole G d E eq OK), Bi, U|exact R|].
  rewrite (pool_call_eq G d E eq OK sub cos k s eb eb same t L b m c (fun4 x) F NE Lm) in C.
  cbv zeta in C, MI. set (m1 := padded eb m eb) in *. set (pads := builtin_pads (padding_string same) m1 k s) in *.
  set (m2 := padded (map fst pads) m1 (map snd pads)) in *.
  assert (Fm1 : fit m1) by (apply (fit_padded d eq); assumption).
  destruct (fit_pads d eq (padding_string same) m1 k s Fm1 Fk Fs) as [Fp1 Fp2]. fold pads in Fp1, Fp2.
  assert (Fm2 : fit m2) by (apply (fit_padded d eq); assumption).
  assert (FM : fit (outs m2 k s)) by (apply (fit_outs d eq); assumption).
  destruct (forallb _ (combine k m2)) eqn:FB; [|discriminate C].
  pose proof (forallb_combine_le k m2 d (proj2 Fk) (proj2 Fm2) FB) as LE.
  injection C as <-. split; [apply wf_tab|]. split; [rewrite SH; exact SG|].
  pose proof FM as [_ LM].
  match goal with |- context[sig4 d ?y] => set (Y := y) end.
  destruct (group_slices_ok G d E eq OK b (outs m2 k s) (List.length sub) c Y (Some H) (Some H) sub sub HI HI eq_refl FM ST) as [gy [GY [SGY SLY]]].
  exists gy. split; [exact GY|]. split; [rewrite shape_tab; exact SGY|]. intros u U. rewrite (SL u U), (SLY u U).
  rewrite (pool_call_eq G d E eq OK sub cos k s eb eb same t L b m c _ F NE Lm). cbv zeta. fold m1. fold pads. fold m2. rewrite FB.
  f_equal. apply sig4_ext; [exact LM|]. intros bi p h q BI P Hh Q. unfold moved4 at 2, Y.
  set (u' := nth u sub 0) in *. assert (Hu : In u' sub) by (apply nth_In; exact U). destruct F.
  apply (pool_out_moved (pool_fun t) sub cos k s eb m m1 (map fst pads) (outs m2 k s)); try assumption; try reflexivity.
  - apply Bi. exact Hu.
  - apply ST. exact Hu.
  - intros a Ha. apply MI; [exact Ha|apply LE; exact Ha].
  - intros i g I Hg. unfold moved4. f_equal.
    assert (SW : stable G u' (seq 0 n)) by (apply (stable_whole G d E eq OK), Bi, Hu).
    pose proof (turned_nth G u' (seq 0 n) g SW) as TN. rewrite seq_length in TN. specialize (TN Hg).
    pose proof (turned_lt G u' (seq 0 n) g SW) as TL. rewrite seq_length in TL. specialize (TL Hg).
    rewrite !nth_seq0 in TN by assumption. exact TN.
Qed.

(** ** When the windows mirror *)

Lemma half_even t : Nat.Even t -> t - t / 2 = t / 2.
Proof. intros [z ->]. rewrite (Nat.mul_comm 2 z), Nat.div_mul by lia. lia. Qed.

(** The sizes of one axis: [e] zeros on both sides, then a total of [2 * w] positions
    of the backend's padding. *)
Lemma mirror_axis m1 w k s : 0 < k -> 0 < s -> k <= w + m1 + w ->
  (exists q, (w + m1 + w - k = q * s)%nat) -> (out_size (w + m1 + w) k s - 1) * s + (k - 1) * 1 + 1 = m1 + 2 * w.
Proof.
  intros K S' LE [q Q]. unfold out_size. rewrite Q, Nat.div_mul by lia. nia.
Qed.

Lemma regular_of (same : bool) (k s e m : list nat) :
  List.length m = d -> List.length k = d -> List.length s = d -> List.length e = d ->
  (forall a, a < d -> 0 < nth a k 0) -> (forall a, a < d -> 0 < nth a s 0) ->
  (forall a, a < d -> let N := nth a e 0 + nth a m 0 + nth a e 0 in
     let t := if same then same_total N (nth a k 0) (nth a s 0) else 0 in
     Nat.Even t /\ (nth a k 0 <= N + t -> exists q, N + t - nth a k 0 = q * nth a s 0)) ->
  regular same k s e e m.
Proof.
  intros Lm Lk Ls Le Pk Ps H. split; [reflexivity|]. cbv zeta. set (m1 := padded e m e).
  set (pads := builtin_pads (padding_string same) m1 k s). set (m2 := padded (map fst pads) m1 (map snd pads)).
  assert (Lm1 : List.length m1 = d) by (apply length_padded; assumption).
  assert (LP : List.length pads = d) by (apply length_builtin; assumption).
  assert (Lm2 : List.length m2 = d) by (apply length_padded; rewrite ?map_length; assumption).
  intros a Ha LE. unfold mirrored. rewrite (nth_outs _ _ _ d) by assumption. rewrite nth_ones by exact Ha.
  specialize (H a Ha). cbv zeta in H.
  assert (M1 : nth a m1 0 = nth a e 0 + nth a m 0 + nth a e 0) by (apply (nth_padded _ _ _ d); assumption). rewrite <- M1 in H.
  assert (M2 : nth a m2 0 = nth a (map fst pads) 0 + nth a m1 0 + nth a (map snd pads) 0)
    by (apply (nth_padded _ _ _ d); rewrite ?map_length; assumption).
  destruct (nth_pads d (padding_string same) m1 k s a Lm1 Lk Ls Ha) as [P1 P2]. fold pads in P1, P2.
  rewrite padding_string_same in P1, P2.
  set (t := if same then same_total (nth a m1 0) (nth a k 0) (nth a s 0) else 0) in *. destruct H as [EV DV].
  assert (W : nth a (map fst pads) 0 = t / 2 /\ nth a (map snd pads) 0 = t / 2).
  { rewrite P1, P2. unfold backend_pads, t in *. destruct same; [|split; reflexivity]. unfold same_pads. cbn [fst snd].
    rewrite (half_even _ EV). split; reflexivity. }
  destruct W as [W1 W2]. rewrite W1, W2 in M2. rewrite W1. rewrite M2 in *.
  assert (T2 : t = t / 2 + t / 2) by (pose proof (half_even t EV); pose proof (Nat.div_le_upper_bound t 2 t); lia).
  set (w := t / 2) in *. apply mirror_axis; [apply Pk; exact Ha|apply Ps; exact Ha|exact LE|].
  destruct DV as [q Q]; [lia|]. exists q. lia.
Qed.

(** With given strides. *)
Lemma regular_given plain allow same m k s eb ea :
  widths_ok plain allow same false d m k s eb ea -> plain && allow = false ->
  List.length m = d -> List.length k = d -> List.length s = d ->
  (forall a, a < d -> 0 < nth a k 0) -> (forall a, a < d -> 0 < nth a s 0) ->
  (plain = false -> same = true -> forall a, a < d -> Nat.Even (same_total (nth a m 0) (nth a k 0) (nth a s 0))) ->
  regular same k s eb ea m.
Proof.
  intros [LB [LA W]] PA' Lm Lk Ls Pk Ps EV. destruct W as [[W _]|[_ W]]; [congruence|].
  assert (EVS : forall a, a < d -> Nat.Even (nth a eb 0 + nth a ea 0)).
  { intros a Ha. specialize (W a Ha). cbv zeta in W. destruct W as [_ [[_ EE] [_ [_ E0]]]].
    destruct plain; [rewrite (E0 eq_refl); exists 0; reflexivity|]. destruct same.
    - destruct (EV eq_refl eq_refl a Ha) as [z Z]. rewrite Z in EE. destruct EE as [w EE]. exists (w - z). lia.
    - exact EE. }
  assert (EQ : eb = ea).
  { apply nth_ext0; [congruence|]. intros a Ha. rewrite LB in Ha. pose proof (EVS a Ha) as [z Z].
    specialize (W a Ha). cbv zeta in W. destruct W as [_ [_ [E1 [E2 _]]]]. rewrite Z in E1, E2.
    replace (2 * z / 2) with z in E1, E2 by (rewrite Nat.mul_comm, Nat.div_mul; lia). lia. }
  subst ea. apply regular_of; try assumption. intros a Ha N t.
  specialize (W a Ha). specialize (Pk a Ha). specialize (Ps a Ha). cbv zeta in W. destruct W as [_ [AD [_ [_ E0]]]].
  set (e := nth a eb 0 + nth a eb 0) in *.
  assert (TT : t = if same then same_total (nth a m 0) (nth a k 0) (nth a s 0) else 0).
  { unfold t. destruct same; [|reflexivity]. replace N with (nth a m 0 + e) by (unfold N, e; lia). apply same_total_padded; assumption. }
  rewrite <- TT in AD. destruct AD as [[q Q] EE].
  assert (EV' : Nat.Even t).
  { destruct EE as [w EE]. exists (w - nth a eb 0). unfold e in EE. lia. }
  split; [exact EV'|]. intros LE. exists (Z.to_nat q).
  assert (NN : N + t = nth a m 0 + t + e) by (unfold N, e; lia). rewrite NN in *. nia.
Qed.

(** With the default strides: the Keras layer's strides are the pool size, the padding
    layer assumes strides 1. *)
Lemma regular_default (plain allow same : bool) (m k eb ea : list nat) :
  widths_ok plain allow same false d m k (ones d) eb ea -> plain && allow = false ->
  List.length m = d -> List.length k = d -> (forall a, a < d -> 0 < nth a k 0) ->
  (forall a, a < d -> if same then Nat.Odd (nth a k 0) /\ Nat.Even (same_total (nth a m 0) (nth a k 0) (nth a k 0))
                      else exists q, nth a m 0 = q * nth a k 0) ->
  regular same k k eb ea m.
Proof.
  intros [LB [LA W]] PA' Lm Lk Pk H. destruct W as [[W _]|[_ W]]; [congruence|].
  assert (Z0 : forall a, a < d -> nth a eb 0 = 0 /\ nth a ea 0 = 0).
  { intros a Ha. specialize (W a Ha). specialize (H a Ha). cbv zeta in W. rewrite nth_ones in W by exact Ha.
    destruct W as [EQ _].
    pose proof (nextra_Z (nth a m 0) (if same then same_total (nth a m 0) (nth a k 0) 1 else 0) (nth a k 0) 1 ltac:(lia)) as NZ.
    rewrite <- EQ in NZ. unfold zextra, ze0 in NZ. change (Z.of_nat 1) with 1%Z in NZ. rewrite Z.mod_1_r, !Z.add_0_l, Z.mul_1_r in NZ.
    assert (EV : (Z.of_nat (if same then same_total (nth a m 0%nat) (nth a k 0%nat) 1 else 0%nat) mod 2 = 0)%Z).
    { destruct same; [|reflexivity]. destruct H as [[z OD] _].
      unfold same_total. replace (nth a m 0 + 1 - 1) with (nth a m 0) by lia. rewrite Nat.div_1_r.
      replace (nth a m 0 * 1 + nth a k 0 - (1 + nth a m 0)) with (z * 2) by lia. rewrite Nat2Z.inj_mul. apply Z.mod_mul. lia. }
    lia. }
  assert (EQ : eb = ea).
  { apply nth_ext0; [congruence|]. intros a Ha. rewrite LB in Ha. destruct (Z0 a Ha). lia. }
  subst ea. apply regular_of; try assumption. intros a Ha N t. specialize (H a Ha). specialize (Pk a Ha).
  assert (NN : N = nth a m 0) by (unfold N; destruct (Z0 a Ha); lia). unfold t. rewrite NN. clear N t NN. destruct same.
  - destruct H as [_ EV]. split; [exact EV|]. intros LE. unfold same_total in *.
    set (kk := nth a k 0) in *. set (mm := nth a m 0) in *.
    pose proof (Nat.div_mod (mm + kk - 1) kk ltac:(lia)) as DM. pose proof (Nat.mod_upper_bound (mm + kk - 1) kk ltac:(lia)) as MB.
    set (qq := (mm + kk - 1) / kk) in *. exists (qq - 1). nia.
  - destruct H as [q Q]. split; [exists 0; reflexivity|]. intros LE. exists (q - 1). nia.
Qed.

(** The whole layer. *)
Lemma pool_commutes_of name t (a : pool_args) L0 H bs m g c L p k s m' x b gx y :
  invariant (pool_fun (A := A) t) ->
  known name G -> given (pa_group a) G ->
  pa_data_format a = "channels_last" -> pa_subgroup a = Some H -> pool_init d t a = Ok L0 -> List.length m = d ->
  pool_build L0 (bs :: map Some m ++ [Some g; Some c]) = Ok L ->
  (pa_allow a = false \/ is_plain (upper p) = false) ->
  pool_padding_name a = Some p ->
  standardize_tuple d (pa_pool_size a) = Ok k -> (eq = true -> all_equal k) ->
  standardize_tuple d (pool_strides a) = Ok s -> (eq = true -> all_equal s) ->
  match pa_strides a with
  | Some _ => (upper p = "SAME_EQUIV" -> forall ax, ax < d -> Nat.Even (same_total (nth ax m' 0) (nth ax k 0) (nth ax s 0)))
  | None => forall ax, ax < d -> if is_same (upper p) then Nat.Odd (nth ax k 0) /\ Nat.Even (same_total (nth ax m' 0) (nth ax k 0) (nth ax k 0))
                                 else exists q, nth ax m' 0 = q * nth ax k 0
  end ->
  List.length m' = d -> (forall ax, ax < d -> nth ax m 0 mod nth ax s 0 = nth ax m' 0 mod nth ax s 0) ->
  wf x -> shape x = b :: m' ++ [g; c] ->
  action G x (map Z.of_nat (seq 1 d)) 0 (Some (Z.of_nat (d + 1))) (Some H) (Some "") = Ok gx ->
  pool_call L x = Ok y ->
  exists gy, action G y (map Z.of_nat (seq 1 d)) 0 (Some (Z.of_nat (d + 1))) (Some H) (Some H) = Ok gy /\
    nth 0 (shape gy) 0 = nth 0 (shape gx) 0 /\
    forall u, u < nth 0 (shape gx) 0 -> pool_call L (slice 0 u gx) = Ok (slice 0 u gy).
Proof.
  intros PF DG AG AF HS I Lm B AL PN SK UK SS US CND Lm' CO W SH R C.
  destruct (pool_build_inv_of (A := A) G d E eq OK name t a L0 bs m g c L DG AG AF I Lm B)
    as [p' [k' [s0 [s' [eb [ea [sub [cos [Hn [PN' [SK' [SS0 [SS' [WO [PS [DS [DC [SA [GN [F _]]]]]]]]]]]]]]]]]]]].
  rewrite PN in PN'. injection PN' as <-. rewrite SK in SK'. injection SK' as <-. rewrite SS in SS0. injection SS0 as <-.
  rewrite HS in SA.
  assert (PF' : po_format L = "channels_last").
  { unfold pool_init in I. destruct (gt_init _ _ _ _ _ _ _ _ _) as [T|]; [|discriminate I]. cbn [bind] in I.
    destruct (standardize_tuple d (pa_pool_size a)); [|discriminate I]. cbn [bind] in I.
    destruct (standardize_tuple d _); [|discriminate I]. cbn [bind] in I. rewrite AF in I.
    replace (standardize_format "channels_last") with (Ok "channels_last" : result string) in I by reflexivity. cbn [bind] in I. injection I as <-.
    unfold pool_build in B. destruct (gt_build _ _) as [T1|]; [|discriminate B]. cbn [bind] in B.
    destruct (gt_build_pool T1); [|discriminate B]. cbn [bind] in B. injection B as <-. reflexivity. }
  specialize (F (pool_call_option L x y PF' C)).
  destruct (std_pos d _ _ SK) as [Lk Pk]. destruct (std_pos d _ _ SS) as [Ls Ps]. destruct (std_pos d _ _ SS') as [Ls' Ps'].
  assert (PA' : is_plain (upper p) && pa_allow a = false).
  { destruct AL as [-> |AL]; [apply andb_false_r|]. rewrite AL. reflexivity. }
  assert (Fk : fit k) by (split; [exact UK|exact Lk]). assert (Fs : fit s) by (split; [exact US|exact Ls]).
  rewrite GN in SH.
  assert (Fm' : fit m').
  { pose proof (sub_idx_facts _ _ _ _ OK _ _ SA) as [_ [Bi _]]. pose proof R as R'. rewrite (tensor_sig4 d b m' n c x W Lm' SH) in R'.
    destruct (group_slices G d E eq OK b m' n c (fun4 x) (Some H) (Some "") sub (seq 0 n) gx SA (sub_idx_whole _ _ _ _ OK)) as [Q _];
      [symmetry; apply seq_length|exact Lm'|intros u U; apply (stable_whole G d E eq OK), Bi, U|exact R'|exact Q]. }
  assert (Fs' : fit s' /\ (forall ax, ax < d -> nth ax m 0 mod nth ax s' 0 = nth ax m' 0 mod nth ax s' 0) /\
                (pa_strides a = None -> s' = ones d /\ s = k) /\ (pa_strides a <> None -> s' = s)).
  { unfold assumed_strides, pool_strides in *. destruct (pa_strides a) as [st|].
    - rewrite SS in SS'. injection SS' as <-. split; [exact Fs|]. split; [exact CO|]. split; [discriminate|reflexivity].
    - rewrite SK in SS. injection SS as <-.
      assert (s' = ones d).
      { unfold standardize_tuple, per_axis in SS'. rewrite repeat_length, Nat.eqb_refl in SS'.
        destruct (forallb _ _); [|discriminate SS']. injection SS' as <-. unfold ones. clear. induction d as [|d' IH]; [reflexivity|]. cbn [repeat map]. f_equal. exact IH. }
      subst s'. split; [apply fit_ones'|]. split; [|split; [auto|congruence]].
      intros ax Hax. rewrite nth_ones by exact Hax. rewrite !Nat.mod_1_r. reflexivity. }
  destruct Fs' as [Fs' [CO' [ND NS]]].
  apply (widths_mod d _ _ _ _ m m' k s' eb ea Ps' CO') in WO.
  destruct (fit_widths d eq _ _ _ _ _ _ _ _ _ WO Fm' Fk Fs') as [Feb Fea].
  assert (RG : regular (is_same (upper p)) k s eb ea m').
  { destruct (pa_strides a) as [st|].
    - rewrite NS in WO by discriminate. apply (regular_given (is_plain (upper p)) (pa_allow a)); try assumption.
      intros NP IS. apply CND. unfold is_plain, is_same in *. cbn [mem_str existsb orb] in *.
      destruct (String.eqb_spec (upper p) "SAME"); [discriminate NP|]. destruct (String.eqb_spec (upper p) "SAME_EQUIV"); [assumption|discriminate IS].
    - destruct (ND eq_refl) as [-> ->]. apply (regular_default (is_plain (upper p)) (pa_allow a)); assumption. }
  destruct (pool_equivariance sub cos k s eb ea _ t L H m' x b c gx y PF F SA Fk Fs Feb RG Lm' W SH R C) as [_ [SG [gy [GY [SGY SL]]]]].
  exists gy. split; [exact GY|]. rewrite SG, SGY. cbn [nth]. split; [reflexivity|exact SL].
Qed.

Definition pool_commutes name t (a : pool_args) L0 H bs m g c L p k s m' x b gx y
  (PF : invariant (pool_fun (A := A) t))
  (DG : dict_get group_dict name = Ok G) (AG : pa_group a = ByName name \/ pa_group a = Object G) :=
  pool_commutes_of name t a L0 H bs m g c L p k s m' x b gx y PF (lib_known _ _ DG) (lib_given _ _ _ DG AG).
End Pool.
