(** Groups made by the user: what a [Group] object has to fulfil. *)
From Verif Require Export LibraryLookup DerivedFacts PoolTheorems.
Local Open Scope list_scope.

(** The [Group] object [G] describes the signed permutations [E] of the axes of the
    [d]-dimensional grid: its tables belong to them, and its [action] argument
    transforms signals by them.  [square]: the action insists on equal sizes. *)
Record describes (G : group) (d : nat) (E : list symmetry) (square : bool) : Prop := {
  de_name : g_name G <> ""%string;
  de_order : g_order G = List.length E;
  de_pos : 0 < List.length E;
  de_sym : forall a, a < List.length E -> is_symmetry d (nth a E []);
  de_nodup : NoDup E;
  de_id : nth 0 E [] = identity d;
  de_cshape : shape (g_composition G) = [List.length E; List.length E];
  de_cwf : wf (g_composition G);
  de_comp : forall a b, a < List.length E -> b < List.length E ->
      comp G a b < List.length E /\ nth (comp G a b) E [] = after (nth a E []) (nth b E []);
  de_ilen : List.length (g_inverses G) = List.length E;
  de_inv : forall a, a < List.length E ->
      inv G a < List.length E /\ comp G (inv G a) a = 0 /\ comp G a (inv G a) = 0;
  de_sub : forall name idx, dict_get (g_subgroup G) name = Ok idx ->
      NoDup idx /\ (forall a, In a idx -> a < List.length E) /\ hd_error idx = Some 0 /\
      (forall a b, In a idx -> In b idx -> In (comp G (inv G a) b) idx);
  de_same : forall name idx name' idx',
      dict_get (g_subgroup G) name = Ok idx -> dict_get (g_subgroup G) name' = Ok idx' ->
      (forall a, In a idx <-> In a idx') -> idx = idx';
  de_self : dict_get (g_subgroup G) (g_name G) = Ok (seq 0 (List.length E));
  de_cos : forall name idx, dict_get (g_subgroup G) name = Ok idx ->
      exists cos, dict_get (g_cosets G) name = Ok cos /\ NoDup cos /\
      (forall c, In c cos -> c < List.length E) /\
      (forall g, g < List.length E -> exists h c, In h idx /\ In c cos /\ comp G h c = g) /\
      List.length idx * List.length cos = List.length E;
  de_action : forall (A : Type) (ZA : Zero A) (x : tensor A) k sp,
      wf x -> k <= rank x -> spatial_axes_ok d sp (rank x) ->
      (square = true -> all_equal (gather sp (shape x))) ->
      exists y, g__action G A ZA x (map Z.of_nat sp) (Z.of_nat k) = Ok y /\ wf y /\
        shape y = insert_at k (List.length E) (shape x) /\
        forall g, g < List.length E -> slice k g y = transformed (nth g E []) sp x;
  de_refuse : forall (A : Type) (ZA : Zero A) (x : tensor A) k sp,
      wf x -> k <= rank x -> spatial_axes_ok d sp (rank x) ->
      square = true -> ~ all_equal (gather sp (shape x)) ->
      exists e, g__action G A ZA x (map Z.of_nat sp) (Z.of_nat k) = Err e;
  de_fits : square = false -> forall a n, a < List.length E -> fits (nth a E []) n
}.

Lemma slices_stk {A} {ZA : Zero A} k n s (F : nat -> list nat -> A) y :
  k <= List.length s -> wf y -> shape y = insert_at k n s ->
  (forall g, g < n -> slice k g y = tab s (F g)) -> y = stk k n s F.
Proof.
  intros K W SY SL. apply tensor_ext; [exact W|apply wf_stk|exact SY|].
  intros i I. rewrite SY in I. destruct (inb_insert_inv _ _ _ _ K I) as [v [j [-> [V J]]]].
  rewrite at_stk by assumption. rewrite <- (at_tab s (F v) j J), <- (SL v V). unfold slice.
  rewrite SY, remove_insert_at by exact K. rewrite at_tab by exact J. reflexivity.
Qed.

Lemma same_length_all (l : list nat) n : NoDup l -> (forall a, In a l -> a < n) -> List.length l = n ->
  forall a, In a l <-> In a (seq 0 n).
Proof.
  intros ND B L a. split; intros I; [apply in_seq; split; [lia|apply B; exact I]|].
  assert (IN : incl (seq 0 n) l).
  { apply (NoDup_length_incl ND); [rewrite seq_length; lia|]. intros v V. apply in_seq. split; [lia|apply B; exact V]. }
  apply IN. exact I.
Qed.

Lemma describes_ok G d E square : describes G d E square -> group_ok G d E square.
Proof.
  intros D. destruct D. split; try assumption.
  - intros name idx DH. destruct (de_sub0 _ _ DH) as [ND [B [F CL]]].
    split; [exact ND|]. split; [exact B|]. split; [exact F|]. split.
    { intros [K [DK ES]]. destruct (lib_ok _ _ DK) as [NK OKK]. rewrite <- ES in DH.
      destruct (ok_sub _ _ _ _ OKK _ _ DH) as [_ [_ [_ [M _]]]]. apply M. exact (lib_named _ _ DK NK). }
    split. { intros L. apply (de_same0 _ _ _ _ DH de_self0). apply same_length_all; assumption. }
    split; [exact CL|]. intros [K [DK ES]] EE. destruct (lib_ok _ _ DK) as [NK OKK]. rewrite <- ES in DH.
    destruct (ok_sub _ _ _ _ OKK _ _ DH) as [_ [_ [_ [_ [_ [_ M]]]]]].
    destruct (M (lib_named _ _ DK NK) (f_equal symmetries_of (eq_sym NK))) as [M1 M2].
    assert (DD : dimension_of (g_name G) = d).
    { unfold dimension_of. rewrite <- EE. apply (de_sym0 0 de_pos0). }
    split; [rewrite M1; exact DD|]. rewrite EE. exact M2.
  - intros A ZA s f k sp K SP EQ.
    destruct (de_action0 A ZA (tab s f) k sp (wf_tab s f) K SP EQ) as [y [R [W [SY SL]]]].
    rewrite R. f_equal. apply slices_stk; [exact K|exact W|exact SY|]. intros g Hg. rewrite SL by exact Hg.
    unfold transformed. rewrite shape_tab. apply tab_ext. intros i I. apply at_tab.
    destruct SP as [L [NDs [Bs C3]]].
    apply (pixel_at_inb d sp s); try assumption.
    + apply de_sym0. exact Hg.
    + destruct square; [|apply de_fits0; [reflexivity|exact Hg]].
      apply (fits_all_equal d); [apply de_sym0; exact Hg|unfold gather; rewrite map_length; exact L|exact (EQ eq_refl)].
  - intros A ZA s f k sp K SP Q NE. apply (de_refuse0 A ZA (tab s f) k sp (wf_tab s f) K SP Q NE).
Qed.

(** ** Groups derived from a parent *)

Lemma cast2_wf rows t : cast2 rows = Ok t -> wf t.
Proof.
  unfold cast2. destruct rows as [|r0 rows]; [intros H; assert (t = mkTensor [0] []) as -> by congruence; reflexivity|].
  destruct (forallb _ _) eqn:F; [|discriminate]. intros H. assert (t = mkTensor [List.length (r0 :: rows); List.length r0] (List.concat (r0 :: rows))) as -> by congruence.
  unfold wf. cbn [data shape]. unfold prod. cbn [fold_right]. rewrite Nat.mul_1_r.
  revert F. generalize (r0 :: rows). intros l F. rewrite forallb_forall in F. induction l as [|x l IH]; [reflexivity|].
  cbn [List.concat List.length]. rewrite app_length, IH by (intros y Y; apply F; right; exact Y).
  rewrite (proj1 (Nat.eqb_eq _ _) (F x (or_introl eq_refl))). reflexivity.
Qed.

Lemma init_parts name order P G :
  group_init name order None None None None None (Some P) = Ok G ->
  wf (g_composition G) /\ compute_cosets name order (Some P) (g_subgroup G) None = Ok (g_cosets G).
Proof.
  intros I. unfold group_init in I.
  destruct (compute_composition _ _ _ _) as [t|] eqn:C; [|discriminate I]. cbn [bind] in I.
  destruct (compute_inverses _ _ _) as [iv|]; [|discriminate I]. cbn [bind] in I.
  destruct (compute_subgroup _ _ _ _) as [su|]; [|discriminate I]. cbn [bind] in I.
  destruct (compute_cosets _ _ _ _ _) as [co|] eqn:CO; [|discriminate I]. cbn [bind] in I.
  assert (EO : forall u v : group, Ok u = Ok v -> u = v) by congruence. apply EO in I. subst G. cbn [g_composition g_cosets g_subgroup].
  split; [|exact CO]. unfold compute_composition in C. destruct (dict_get (g_subgroup P) name); [|discriminate C]. cbn [bind] in C.
  destruct (take _ _ 0) as [u|]; [|discriminate C]. cbn [bind] in C. destruct (take u _ 1) as [w|]; [|discriminate C]. cbn [bind] in C.
  destruct (mapM _ _) as [rows|]; [|discriminate C]. cbn [bind] in C. exact (cast2_wf _ _ C).
Qed.

Lemma dict_get_filter_key {B} (f : string -> bool) (l : list (string * B)) k : f k = true ->
  dict_get (filter (fun kv => f (fst kv)) l) k = dict_get l k.
Proof.
  intros F. induction l as [|[k' v] l IH]; [reflexivity|]. cbn [filter fst dict_get].
  destruct (String.eqb_spec k k') as [<-|N].
  - rewrite F. cbn [dict_get]. rewrite String.eqb_refl. reflexivity.
  - destruct (f k'); [|exact IH]. cbn [dict_get]. destruct (String.eqb_spec k k'); [contradiction|exact IH].
Qed.

Lemma derived_cosets name ext P (S C : list (string * list nat)) k cos :
  dict_get (g_subgroup P) name = Ok ext -> NoDup ext ->
  compute_cosets name (List.length ext) (Some P) S None = Ok C ->
  (exists l, dict_get S k = Ok l) -> dict_get (g_cosets P) k = Ok cos ->
  dict_get C k = Ok (map (fun a => index_of a ext) (filter (fun i => mem i ext) cos)).
Proof.
  intros GET ND CC [l DS] DC. unfold compute_cosets in CC. rewrite GET in CC. cbn [bind] in CC.
  rewrite (mapM_Ok _ (fun kv => (fst kv, map (fun a => index_of a ext) (filter (fun i => mem i ext) (snd kv))))) in CC.
  2:{ intros kv _. rewrite ext_int_ok; auto. intros a IA. apply filter_In in IA as [_ IA]. apply mem_In; auto. }
  assert (EO : forall u v : list (string * list nat), Ok u = Ok v -> u = v) by congruence. apply EO in CC. subst C.
  rewrite (dict_get_map (fun v => map (fun a => index_of a ext) (filter (fun i => mem i ext) v))).
  rewrite (dict_get_filter_key (fun q => existsb (fun kv' => String.eqb q (fst kv')) S)).
  - rewrite DC. reflexivity.
  - apply existsb_exists. apply dict_get_In in DS. exists (k, l). split; [exact DS|]. cbn [fst]. apply String.eqb_refl.
Qed.

Lemma nodup_app {B} (l l' : list B) : NoDup l -> NoDup l' -> (forall x, In x l -> ~ In x l') -> NoDup (l ++ l').
Proof.
  intros N N' D. induction N as [|a l NI N IH]; [exact N'|]. cbn [app]. apply NoDup_cons.
  - intros I. apply in_app_or in I as [I|I]; [exact (NI I)|exact (D a (or_introl eq_refl) I)].
  - apply IH. intros x X. apply D. right. exact X.
Qed.

Lemma nodup_prod {B C} (l : list B) (l' : list C) : NoDup l -> NoDup l' -> NoDup (list_prod l l').
Proof.
  intros N N'. induction N as [|a l NI N IH]; [apply NoDup_nil|]. cbn [list_prod]. apply nodup_app.
  - apply FinFun.Injective_map_NoDup; [|exact N']. intros u v E. congruence.
  - exact IH.
  - intros [u v] I I'. apply in_map_iff in I as [w [E _]]. apply in_prod_iff in I' as [I' _]. apply NI. congruence.
Qed.

Lemma derived_describes P d E sq name ext :
  describes P d E sq -> NoDup (map fst (g_subgroup P)) -> name <> ""%string -> dict_get (g_subgroup P) name = Ok ext ->
  exists G, group_init name (List.length ext) None None None None None (Some P) = Ok G /\
    describes G d (map (fun a => nth a E []) ext) sq.
Proof.
  intros D NK NE GET. pose proof (describes_ok _ _ _ _ D) as OK. pose proof (ok_is_group _ _ _ _ OK) as GR.
  set (n := List.length E) in *.
  destruct (de_sub _ _ _ _ D _ _ GET) as [ND [B [F CL]]]. fold n in B.
  assert (I0 : In 0 ext) by (destruct ext as [|z ext0]; [discriminate F|cbn [hd_error] in F; assert (z = 0) as -> by congruence; left; reflexivity]).
  assert (BI : forall a, In a ext -> inv P a < n) by (intros a Ia; apply (group_inv_closed _ _ _ GR), B, Ia).
  assert (CI : forall a, In a ext -> In (inv P a) ext).
  { intros a Ia. rewrite <- (group_id_r _ _ _ GR (inv P a)) by (apply BI; exact Ia). apply CL; assumption. }
  assert (CO : forall a b, In a ext -> In b ext -> In (comp P a b) ext).
  { intros a b Ia Ib. rewrite <- (g_inv_inv n (comp P) (inv P) GR a) by (apply B; exact Ia). apply CL; [apply CI; exact Ia|exact Ib]. }
  destruct (derived_group P n name ext (de_cshape _ _ _ _ D) (de_cwf _ _ _ _ D) GR) as [G [I [GN [GO [GS [GL [GG [GC [GI GSUB]]]]]]]]].
  { split; assumption. }
  exists G. split; [exact I|]. destruct (init_parts _ _ _ _ I) as [WG CC]. rewrite GSUB in CC.
  set (E' := map (fun a => nth a E []) ext).
  assert (LE : List.length E' = List.length ext) by apply map_length.
  assert (NE' : forall a, a < List.length ext -> nth a E' [] = nth (nth a ext 0) E []).
  { intros a Ha. unfold E'. rewrite (nth_indep _ [] (nth 0 E [])) by (rewrite map_length; exact Ha).
    apply (map_nth (fun a => nth a E [])). }
  assert (NB : forall a, a < List.length ext -> nth a ext 0 < n) by (intros a Ha; apply B, nth_In, Ha).
  assert (PX : 0 < List.length ext) by (destruct ext; [discriminate F|cbn; lia]).
  assert (Z0 : nth 0 ext 0 = 0) by (destruct ext as [|z ext0]; [discriminate F|cbn [hd_error] in F; cbn [nth]; congruence]).
  assert (SUB : forall k l, dict_get (g_subgroup G) k = Ok l <->
            exists m, dict_get (g_subgroup P) k = Ok m /\ incl m ext /\ l = map (fun a => index_of a ext) m).
  { intros k l. rewrite GSUB. apply sub_of_get. exact NK. }
  assert (IDX : forall a, In a ext -> nth (index_of a ext) ext 0 = a) by (intros; apply nth_index_of; assumption).
  assert (IDC : forall a b, In a ext -> In b ext -> comp G (index_of a ext) (index_of b ext) = index_of (comp P a b) ext).
  { intros a b Ia Ib. pose proof (GC (index_of a ext) (index_of b ext) (index_of_lt _ _ Ia) (index_of_lt _ _ Ib)) as Q.
    rewrite !IDX in Q by assumption. rewrite <- Q. symmetry. apply index_of_nth; [exact ND|].
    apply (group_closed _ _ _ GG); apply index_of_lt; assumption. }
  assert (IDI : forall a, In a ext -> inv G (index_of a ext) = index_of (inv P a) ext).
  { intros a Ia. pose proof (GI (index_of a ext) (index_of_lt _ _ Ia)) as Q. rewrite IDX in Q by assumption. rewrite <- Q. symmetry.
    apply index_of_nth; [exact ND|]. apply (group_inv_closed _ _ _ GG). apply index_of_lt. exact Ia. }
  assert (INJ : forall a b, In a ext -> In b ext -> index_of a ext = index_of b ext -> a = b).
  { intros a b Ia Ib Q. rewrite <- (IDX a Ia), <- (IDX b Ib), Q. reflexivity. }
  split; rewrite ?LE; try assumption.
  - rewrite GN. exact NE.
  - intros a Ha. rewrite NE' by exact Ha. apply (de_sym _ _ _ _ D). apply NB, Ha.
  - apply NoDup_map_in; [|exact ND]. intros a b Ia Ib Q. apply (proj1 (NoDup_nth E []) (de_nodup _ _ _ _ D)); [apply B, Ia|apply B, Ib|exact Q].
  - rewrite NE', Z0 by exact PX. apply (de_id _ _ _ _ D).
  - intros a b Ha Hb. split; [apply (group_closed _ _ _ GG); assumption|].
    rewrite NE' by (apply (group_closed _ _ _ GG); assumption). rewrite GC, !NE' by assumption.
    apply (de_comp _ _ _ _ D); apply NB; assumption.
  - intros a Ha. split; [apply (group_inv_closed _ _ _ GG); exact Ha|]. split; [apply (group_inv_l _ _ _ GG)|apply (group_inv_r _ _ _ GG)]; exact Ha.
  - intros k l DK. apply SUB in DK as [m [DM [IM ->]]]. destruct (de_sub _ _ _ _ D _ _ DM) as [NDm [Bm [Fm CLm]]].
    split; [apply NoDup_map_in; [|exact NDm]; intros a b Ia Ib; apply INJ; apply IM; assumption|].
    split; [intros a Ia; apply in_map_iff in Ia as [b [<- Ib]]; apply index_of_lt, IM, Ib|].
    split. { destruct m as [|z m]; [discriminate Fm|]. assert (z = 0) as -> by (cbn in Fm; congruence). cbn [map hd_error]. f_equal.
      rewrite <- Z0 at 1. apply index_of_nth; assumption. }
    intros a b Ia Ib. apply in_map_iff in Ia as [a' [<- Ia]]. apply in_map_iff in Ib as [b' [<- Ib]].
    rewrite IDI by (apply IM; exact Ia). rewrite IDC by (try apply CI; apply IM; assumption). apply in_map_iff. eexists. split; [reflexivity|].
    apply CLm; assumption.
  - intros k1 l1 k2 l2 D1 D2 Q. apply SUB in D1 as [m1 [D1 [I1 ->]]]. apply SUB in D2 as [m2 [D2 [I2 ->]]]. f_equal.
    apply (de_same _ _ _ _ D _ _ _ _ D1 D2). intros a. split; intros Ia.
    + assert (X : In (index_of a ext) (map (fun a => index_of a ext) m2)) by (apply Q, (in_map (fun a => index_of a ext)), Ia).
      apply in_map_iff in X as [b [X Ib]]. apply INJ in X; [subst b; exact Ib|apply I2, Ib|apply I1, Ia].
    + assert (X : In (index_of a ext) (map (fun a => index_of a ext) m1)) by (apply Q, (in_map (fun a => index_of a ext)), Ia).
      apply in_map_iff in X as [b [X Ib]]. apply INJ in X; [subst b; exact Ib|apply I1, Ib|apply I2, Ia].
  - rewrite GN. apply SUB. exists ext. split; [exact GET|]. split; [apply incl_refl|].
    apply (nth_ext _ _ 0 0); [rewrite map_length; apply seq_length|]. intros a Ha. rewrite seq_length in Ha.
    rewrite nth_seq0 by exact Ha. rewrite (nth_indep _ 0 (index_of 0 ext)) by (rewrite map_length; exact Ha).
    rewrite (map_nth (fun a => index_of a ext)). symmetry. apply index_of_nth; assumption.
  - intros k l DK. pose proof DK as DK'. apply SUB in DK' as [m [DM [IM ->]]].
    destruct (de_cos _ _ _ _ D _ _ DM) as [cos [DC [NDc [Bc [SU LC]]]]]. fold n in Bc, SU, LC.
    set (cos' := filter (fun i => mem i ext) cos).
    assert (IC' : forall c, In c cos' <-> In c cos /\ In c ext).
    { intros c. unfold cos'. rewrite filter_In, mem_In. reflexivity. }
    exists (map (fun a => index_of a ext) cos').
    split. { rewrite GSUB in DK. apply (derived_cosets name ext P _ _ k cos GET ND CC); [eexists; exact DK|exact DC]. }
    split. { apply NoDup_map_in; [|apply NoDup_filter; exact NDc]. intros a b Ia Ib. apply INJ; apply IC'; assumption. }
    split. { intros c Ic. apply in_map_iff in Ic as [b [<- Ib]]. apply index_of_lt. apply IC'. exact Ib. }
    assert (CV : forall g, In g ext -> exists h c, In h m /\ In c cos' /\ comp P h c = g).
    { intros g Ig. destruct (SU g (B g Ig)) as [h [c [Ih [Ic Q]]]]. exists h, c. split; [exact Ih|]. split; [|exact Q].
      apply IC'. split; [exact Ic|]. assert (Hh : h < n) by (apply B, IM, Ih).
      assert (QC : c = comp P (inv P h) g).
      { rewrite <- Q. rewrite (group_assoc _ _ _ GR); [|apply BI, IM, Ih|exact Hh|apply Bc, Ic].
        rewrite (group_inv_l _ _ _ GR h Hh). symmetry. apply (group_id_l _ _ _ GR). apply Bc, Ic. }
      rewrite QC. apply CL; [apply IM, Ih|exact Ig]. }
    split.
    { intros g Hg. destruct (CV (nth g ext 0) (nth_In _ _ Hg)) as [h [c [Ih [Ic Q]]]].
      exists (index_of h ext), (index_of c ext). split; [apply (in_map (fun a => index_of a ext)); exact Ih|]. split; [apply (in_map (fun a => index_of a ext)); exact Ic|].
      rewrite IDC; [|apply IM, Ih|apply IC', Ic]. rewrite Q. apply index_of_nth; assumption. }
    rewrite !map_length.
    set (f := fun p : nat * nat => comp P (fst p) (snd p)).
    assert (NDf : NoDup (map f (list_prod m cos))).
    { apply (NoDup_incl_NoDup (l := seq 0 n)); [apply seq_NoDup|rewrite map_length, prod_length, seq_length; lia|].
      intros g Ig. apply in_seq in Ig. destruct (SU g ltac:(lia)) as [h [c [Ih [Ic Q]]]]. apply in_map_iff. exists (h, c).
      split; [exact Q|apply in_prod; assumption]. }
    assert (NDf' : NoDup (map f (list_prod m cos'))).
    { assert (INF : forall p q, In p (list_prod m cos) -> In q (list_prod m cos) -> f p = f q -> p = q).
      { clear -NDf. revert NDf. generalize (list_prod m cos). intros l NDf p q IP IQ E0.
        induction l as [|r l IH]; [destruct IP|]. cbn [map] in NDf. inversion NDf as [|? ? N1 N2]; subst.
        destruct IP as [->|IP]; destruct IQ as [->|IQ]; auto.
        - exfalso. apply N1. rewrite E0. apply in_map. exact IQ.
        - exfalso. apply N1. rewrite <- E0. apply in_map. exact IP. }
      apply NoDup_map_in.
      - intros [h1 c1] [h2 c2] J1 J2. apply in_prod_iff in J1 as [J1 K1]. apply in_prod_iff in J2 as [J2 K2].
        apply INF; apply in_prod; try assumption; apply IC'; assumption.
      - apply nodup_prod; [destruct (de_sub _ _ _ _ D _ _ DM) as [Q _]; exact Q|apply NoDup_filter; exact NDc]. }
    rewrite <- prod_length, <- (map_length f). apply Nat.le_antisymm.
    + apply NoDup_incl_length; [exact NDf'|]. intros g Ig. apply in_map_iff in Ig as [[h c] [<- J]]. apply in_prod_iff in J as [Ih Ic].
      cbn [f fst snd]. apply CO; [apply IM, Ih|apply IC', Ic].
    + apply NoDup_incl_length; [exact ND|]. intros g Ig. destruct (CV g Ig) as [h [c [Ih [Ic Q]]]]. apply in_map_iff. exists (h, c).
      split; [exact Q|apply in_prod; assumption].
  - intros A ZA x k sp W K SP EQ. rewrite (derived_group_action P name _ G ext x _ _ I GET).
    destruct (de_action _ _ _ _ D A ZA x k sp W K SP EQ) as [y [R [WY [SY SL]]]]. fold n in SY, SL. rewrite R. cbn [bind].
    rewrite (slices_stk k n (shape x) (fun g i => at_ x (pixel_at (nth g E []) sp (shape x) i)) y K WY SY SL).
    rewrite take_stk by assumption. eexists. split; [reflexivity|]. split; [apply wf_stk|]. split; [apply shape_stk|].
    intros g Hg. rewrite slice_stk by assumption. unfold transformed. rewrite NE' by exact Hg. reflexivity.
  - intros A ZA x k sp W K SP Q NEQ. rewrite (derived_group_action P name _ G ext x _ _ I GET).
    destruct (de_refuse _ _ _ _ D A ZA x k sp W K SP Q NEQ) as [e R]. rewrite R. cbn [bind]. eexists. reflexivity.
  - intros Q a v Ha. rewrite NE' by exact Ha. apply (de_fits _ _ _ _ D Q). apply NB, Ha.
Qed.

(** ** A checker for the finite parts *)
Definition checks_sub (G : group) (n : nat) (name : string) (idx : list nat) : bool :=
  nodupb Nat.eqb idx && forallb (fun a => a <? n) idx
  && match idx with 0 :: _ => true | _ => false end
  && forallb (fun a => forallb (fun b => mem (comp G (inv G a) b) idx) idx) idx
  && forallb (fun kv => negb (forallb (fun a => mem a idx) (snd kv) && forallb (fun a => mem a (snd kv)) idx) || list_eqb Nat.eqb idx (snd kv)) (g_subgroup G)
  && match dict_get (g_cosets G) name with
     | Ok cos =>
         nodupb Nat.eqb cos && forallb (fun a => a <? n) cos
         && (let prods := flat_map (fun h => map (comp G h) cos) idx in
             forallb (fun g => mem g prods) (seq 0 n))
         && (List.length idx * List.length cos =? n)
     | Err _ => false
     end.

Definition checks (G : group) (d : nat) (E : list symmetry) : bool :=
  let n := List.length E in
  negb (String.eqb (g_name G) "") && (g_order G =? n) && (0 <? n)
  && forallb (is_symmetryb d) E
  && nodupb sym_eqb E
  && sym_eqb (nth 0 E []) (identity d)
  && list_eqb Nat.eqb (shape (g_composition G)) [n; n]
  && (List.length (data (g_composition G)) =? n * n)
  && forallb (fun a => forallb (fun b => (comp G a b <? n)
               && sym_eqb (nth (comp G a b) E []) (after (nth a E []) (nth b E []))) (seq 0 n)) (seq 0 n)
  && (List.length (g_inverses G) =? n)
  && forallb (fun a => (inv G a <? n) && (comp G (inv G a) a =? 0) && (comp G a (inv G a) =? 0)) (seq 0 n)
  && match dict_get (g_subgroup G) (g_name G) with
     | Ok idx => list_eqb Nat.eqb idx (seq 0 n) | Err _ => false end
  && forallb (fun kv => checks_sub G n (fst kv) (snd kv)) (g_subgroup G).

Lemma checks_ok G d E square :
  checks G d E = true ->
  (forall (A : Type) (ZA : Zero A) (x : tensor A) k sp,
      wf x -> k <= rank x -> spatial_axes_ok d sp (rank x) ->
      (square = true -> all_equal (gather sp (shape x))) ->
      exists y, g__action G A ZA x (map Z.of_nat sp) (Z.of_nat k) = Ok y /\ wf y /\
        shape y = insert_at k (List.length E) (shape x) /\
        forall g, g < List.length E -> slice k g y = transformed (nth g E []) sp x) ->
  (forall (A : Type) (ZA : Zero A) (x : tensor A) k sp,
      wf x -> k <= rank x -> spatial_axes_ok d sp (rank x) ->
      square = true -> ~ all_equal (gather sp (shape x)) ->
      exists e, g__action G A ZA x (map Z.of_nat sp) (Z.of_nat k) = Err e) ->
  (square = false -> forall a n, a < List.length E -> fits (nth a E []) n) ->
  describes G d E square.
Proof.
  intros C HA HR HF. unfold checks in C. split_andb.
  assert (SUB : forall name idx, dict_get (g_subgroup G) name = Ok idx -> checks_sub G (List.length E) name idx = true).
  { intros name idx D. apply dict_get_In in D.
    match goal with H : forallb (fun kv => checks_sub _ _ _ _) _ = true |- _ =>
      rewrite forallb_forall in H; exact (H _ D) end. }
  split; try assumption.
  - match goal with H : negb (String.eqb _ _) = true |- _ => apply negb_true_iff in H; apply String.eqb_neq in H; exact H end.
  - apply Nat.eqb_eq; assumption.
  - apply Nat.ltb_lt; assumption.
  - intros a Ha. apply is_symmetryb_ok.
    match goal with H : forallb (is_symmetryb d) E = true |- _ => rewrite forallb_forall in H; apply H end.
    apply nth_In; exact Ha.
  - apply (nodupb_NoDup sym_eqb sym_eqb_eq); assumption.
  - apply sym_eqb_eq; assumption.
  - apply (list_eqb_eq Nat.eqb Nat.eqb_eq); assumption.
  - unfold wf. match goal with H : list_eqb Nat.eqb (shape _) _ = true |- _ =>
      apply (list_eqb_eq Nat.eqb Nat.eqb_eq) in H; rewrite H end.
    unfold prod; cbn [fold_right]. rewrite Nat.mul_1_r. apply Nat.eqb_eq; assumption.
  - intros a b Ha Hb.
    match goal with H : forallb (fun a => forallb (fun b => (comp G a b <? _) && _) _) _ = true |- _ =>
      pose proof (forallb_seq _ _ (forallb_seq _ _ H a Ha) b Hb) as X end.
    cbv beta in X. split_andb. split; [apply Nat.ltb_lt; assumption|apply sym_eqb_eq; assumption].
  - apply Nat.eqb_eq; assumption.
  - intros a Ha.
    match goal with H : forallb (fun a => (inv G a <? _) && _ && _) _ = true |- _ =>
      pose proof (forallb_seq _ _ H a Ha) as X end.
    cbv beta in X. split_andb. split; [apply Nat.ltb_lt; assumption|]. split; apply Nat.eqb_eq; assumption.
  - intros name idx D. apply SUB in D. unfold checks_sub in D. split_andb.
    split; [|split; [|split]].
    + apply (nodupb_NoDup Nat.eqb Nat.eqb_eq); assumption.
    + intros a Ha. match goal with H : forallb (fun a => a <? _) idx = true |- _ =>
        rewrite forallb_forall in H; apply Nat.ltb_lt; apply H; assumption end.
    + destruct idx as [|[|x] idx]; try discriminate. reflexivity.
    + intros a b Ha Hb. match goal with H : forallb (fun a => forallb _ idx) idx = true |- _ =>
        rewrite forallb_forall in H; specialize (H a Ha); rewrite forallb_forall in H; apply mem_In; apply H; assumption end.
  - intros name idx name' idx' D D' Q. apply SUB in D. unfold checks_sub in D. split_andb.
    match goal with H : forallb (fun kv => negb _ || _) _ = true |- _ =>
      rewrite forallb_forall in H; specialize (H _ (dict_get_In _ _ _ D')); cbn [snd] in H; rename H into X end.
    replace (forallb (fun a => mem a idx) idx' && forallb (fun a => mem a idx') idx) with true in X.
    + cbn [negb orb] in X. apply (list_eqb_eq Nat.eqb Nat.eqb_eq). exact X.
    + symmetry. apply andb_true_iff. split; apply forallb_forall; intros a Ia; apply mem_In; apply Q; exact Ia.
  - destruct (dict_get (g_subgroup G) (g_name G)); [|discriminate]. f_equal.
    apply (list_eqb_eq Nat.eqb Nat.eqb_eq); assumption.
  - intros name idx D. apply SUB in D. unfold checks_sub in D. split_andb.
    destruct (dict_get (g_cosets G) name) as [cos|]; [|discriminate]. exists cos. split_andb.
    split; [reflexivity|]. split; [|split; [|split]].
    + apply (nodupb_NoDup Nat.eqb Nat.eqb_eq); assumption.
    + intros a Ha. match goal with H : forallb (fun a => a <? _) cos = true |- _ =>
        rewrite forallb_forall in H; apply Nat.ltb_lt; apply H; assumption end.
    + intros g Hg. match goal with H : forallb (fun g => mem g _) _ = true |- _ =>
        pose proof (forallb_seq _ _ H g Hg) as X end.
      cbv beta in X. apply mem_In in X. apply in_flat_map in X as [h [Hh X]].
      apply in_map_iff in X as [c [<- Hc]]. exists h, c. split; [exact Hh|]. split; [exact Hc|reflexivity].
    + apply Nat.eqb_eq; assumption.
Qed.

(** The action of a group with [group_ok], in the words of [describes]. *)
Lemma ok_describes_action G d E square : group_ok G d E square ->
  forall (A : Type) (ZA : Zero A) (x : tensor A) k sp,
      wf x -> k <= rank x -> spatial_axes_ok d sp (rank x) ->
      (square = true -> all_equal (gather sp (shape x))) ->
      exists y, g__action G A ZA x (map Z.of_nat sp) (Z.of_nat k) = Ok y /\ wf y /\
        shape y = insert_at k (List.length E) (shape x) /\
        forall g, g < List.length E -> slice k g y = transformed (nth g E []) sp x.
Proof.
  intros OK A ZA x k sp W K SP EQ. pose proof (ok_action _ _ _ _ OK A ZA (shape x) (at_ x) k sp K SP EQ) as R. rewrite (tab_at x W) in R.
  eexists. split; [exact R|]. split; [apply wf_stk|]. split; [apply shape_stk|]. intros g Hg. rewrite slice_stk by assumption. reflexivity.
Qed.

Lemma ok_describes_refuse G d E square : group_ok G d E square ->
  forall (A : Type) (ZA : Zero A) (x : tensor A) k sp,
      wf x -> k <= rank x -> spatial_axes_ok d sp (rank x) ->
      square = true -> ~ all_equal (gather sp (shape x)) ->
      exists e, g__action G A ZA x (map Z.of_nat sp) (Z.of_nat k) = Err e.
Proof.
  intros OK A ZA x k sp W K SP Q NE. destruct (ok_refuse _ _ _ _ OK A ZA (shape x) (at_ x) k sp K SP Q NE) as [e R].
  rewrite (tab_at x W) in R. exists e. exact R.
Qed.

Lemma library_checks : Forall (fun p => checks (snd p) (dimension_of (fst p)) (symmetries_of (fst p)) = true) group_dict.
Proof.
  unfold group_dict, wallpaper_group_dict, space_group_dict.
  repeat (apply Forall_cons; [cbn [fst snd]; vm_compute; reflexivity|]). apply Forall_nil.
Qed.

Lemma library_describes name G : dict_get group_dict name = Ok G ->
  describes G (dimension_of name) (symmetries_of name) (needs_equal_sizes name).
Proof.
  intros DG. destruct (lib_ok _ _ DG) as [_ OK]. apply checks_ok.
  - exact (proj1 (Forall_forall _ _) library_checks _ (dict_get_In _ _ _ DG)).
  - exact (ok_describes_action _ _ _ _ OK).
  - exact (ok_describes_refuse _ _ _ _ OK).
  - exact (ok_fits _ _ _ _ OK).
Qed.

(** Some elements of a group, as an action of their own. *)
Definition picked (P : group) (idx : list nat) : action_fun := fun A ZA signal spatial_axes new_group_axis =>
  y <- g__action P A ZA signal spatial_axes new_group_axis ;; take y (vec idx) new_group_axis.

Lemma picked_action P d E square idx : group_ok P d E square -> (forall a, In a idx -> a < List.length E) ->
  forall (A : Type) (ZA : Zero A) (x : tensor A) k sp,
      wf x -> k <= rank x -> spatial_axes_ok d sp (rank x) ->
      (square = true -> all_equal (gather sp (shape x))) ->
      exists y, picked P idx A ZA x (map Z.of_nat sp) (Z.of_nat k) = Ok y /\ wf y /\
        shape y = insert_at k (List.length (map (fun a => nth a E []) idx)) (shape x) /\
        forall g, g < List.length (map (fun a => nth a E []) idx) -> slice k g y = transformed (nth g (map (fun a => nth a E []) idx) []) sp x.
Proof.
  intros OK B A ZA x k sp W K SP EQ. rewrite map_length.
  pose proof (ok_action _ _ _ _ OK A ZA (shape x) (at_ x) k sp K SP EQ) as R. rewrite (tab_at x W) in R.
  unfold picked. rewrite R. cbn [bind]. rewrite take_stk by assumption. eexists. split; [reflexivity|]. split; [apply wf_stk|]. split; [apply shape_stk|].
  intros g Hg. rewrite slice_stk by assumption. unfold transformed. apply tab_ext. intros i I. f_equal. f_equal.
  rewrite (nth_indep (map _ idx) [] (nth 0 E [])) by (rewrite map_length; exact Hg). symmetry. apply (map_nth (fun a => nth a E [])).
Qed.

Lemma picked_refuse P d E square idx : group_ok P d E square ->
  forall (A : Type) (ZA : Zero A) (x : tensor A) k sp,
      wf x -> k <= rank x -> spatial_axes_ok d sp (rank x) ->
      square = true -> ~ all_equal (gather sp (shape x)) ->
      exists e, picked P idx A ZA x (map Z.of_nat sp) (Z.of_nat k) = Err e.
Proof.
  intros OK A ZA x k sp W K SP Q NE. destruct (ok_describes_refuse _ _ _ _ OK A ZA x k sp W K SP Q NE) as [e R].
  unfold picked. rewrite R. exists e. reflexivity.
Qed.
